# Formal model of pySC (Rocq/Coq 8.16.1)

Source: lmalina/pySC at the pinned commit, read as text in /repo (never built, never run, never changed).

## Approach

* Every modelled function is a small total Gallina function in `rocq/theories/Model_*.v`.  Each carries a comment
  with the file and lines it models, and says where it simplifies.
* Numbers are abstract: the model is generic over a type with the operations Python uses (`Num.v`: `+ - * /`, `<`, `<=`,
  `==`, floor, conversion from integers; `Trig`: cos, sin, sqrt, pi).  Theorems about arithmetic are stated at Coq's
  reals `R`.  Structural theorems hold for every such type.  Concrete cases are computed over the rationals `Q`.  The finding
  about rounding (C11) uses Coq's IEEE binary64 primitive floats.
* A lattice element is a finite map from attribute names to values, a ring a list of elements, and the SC object
  a record: the two rings, injection, sigmas, ordinates, the stream of raw normal draws.
* Methods are computations `state -> result * state`.  An exception is a value, and the state reached when it was raised is
  kept, so what a failing call leaves behind is visible and theorems speak about it.
* Loops without a static bound have fuel; running out is the pseudo-exception `OutOfFuel`.  Theorems about success are not
  affected by it, and theorems about termination say how much fuel is enough.
* Theorems live in `Properties_*.v`.  Each file starts with a small specification, independent of the helpers of the model;
  then come the theorems `Cnn_...`, their `Print Assumptions`, and `Example`s: concrete cases meeting the hypotheses.
  `Proofs_*.v` hold lemmas.
* Where the code does not do what its documentation suggests, the property states what it does, and a theorem named
  `Cnn_finding_...` proves the deviation.
* No theorem is partial: none carries the suffix `_partial`.

## Trusted base

* Coq's kernel, version 8.16.1, and its virtual machine (the concrete cases are checked by `vm_compute`).
* The axioms listed at the end of this file for every theorem: of the standard library only (`functional_extensionality_dep` and
  the two axioms of the classical Dedekind reals, for C85 and C101 also `classic`), and for one theorem the primitive floats.  No axiom is declared here; there are
  no section variables left open, no admitted proofs and no switched-off checks.
* The library std++ (lists, finite maps, strings), which adds no axioms.
* That the model is a faithful reading of the Python text.  The following idealisations belong here:
  * **Exact arithmetic.**  Rounding, overflow and subnormal numbers of binary64 are not modelled.
  * **Division by zero and NaN.**  Where a computation leaves the finite numbers the model stops with the pseudo-exception
    `NonFinite` and nothing is claimed.  NaN that stands for a lost beam or a missing measurement is modelled, as `None`.
  * **Aliasing.**  Elements and arrays are values.  Where sharing matters (shared arrays in the aperture searches, the model
    lattice built from set-points, the ramp that copies nothing) the model makes it explicit; whether array assignment copies is a
    parameter of the model lattice (`copies`), and the theorems say which case they need.
  * **Oracles.**  Tracking, closed-orbit search, eigenvalues, SVD, matrix inverse, polyfit, curve fitting, minimisers,
    optics, Student's quantile, the user's postFun: arbitrary functions the theorems quantify over.  A theorem that needs
    them to be correct says so in a hypothesis (e.g. the SVD in C58).
  * **Types.**  Arguments have the types of the annotations, except where the property is about a wrong type (integer
    set-points, numbers in place of sequences, tuples in place of arrays).
  * Logging has no effect, except that a message whose text cannot be computed raises.

## Code that is modelled

| file | modelled | model |
|---|---|---|
| core/simulated_commissioning.py | registration of BPMs, cavities, magnets, supports; multipole errors; apply_errors; update_cavities, update_magnets, update_supports, support_offset_and_roll; set and get set-points, dipole compensation; very_deep_copy | Model_SC, Model_Err |
| core/classes.py, constants.py | Injection (trackMode), Indices, Sigmas as records | Model_SC |
| core/beam.py | bpm_reading, _real_bpm_reading, all_elements_reading, beam_transmission, generate_bunches, _tracking, ordering and selection of readings | Model_Beam |
| core/beam.py | figures: _plot_bpm_reading, _plot_all_trajectories, _plot_annotations_and_limits (without fonts, colours and labels), _get_ring_aperture | Model_BeamPlot |
| core/lattice_setting.py | switch_rf, switch_cavity_and_radiation | Model_Lattice |
| utils/classdef_tools.py | all | Model_Arr, Model_Err |
| utils/sc_tools.py | randnc, pinv, scale_circumference, update_transformation, rotation, _translation_vector, _r_matrix, ords_from_regex (re.search an argument), read_multipoles (float() an argument) | Model_Err, Model_Pinv, Model_Read |
| utils/stats.py | weights_from_errors, effective_sample_size, unbias_variance, t_value_correction, weighted_mean, weighted_error, rms (flat arrays) | Model_Stats |
| utils/stats.py | circular_mean, circular_error, circular_rms, the nan-variants of these and of weighted_mean, weighted_rms (flat arrays; missing value as None; masked results when nothing is present left out) | Model_Circular |
| core/simulated_commissioning.py | verify_structure (log as a list of warnings) | Model_Verify |
| correction/orbit_trajectory.py | all | Model_Orbit |
| correction/rf.py, tune.py, chroma.py | all, of the figures the data | Model_Scan, Model_ScanPlot |
| correction/bba.py | all but plotting; the data of the two figures of results | Model_Bba, Model_OrbBba, Model_BbaPlot |
| correction/injection_fit.py | all (of the figures the data) | Model_Inject, Model_InjectPlot |
| correction/ramp_errors.py | all | Model_Ramp |
| correction/loco.py | all | Model_Loco, Model_LocoDisp (jacobian with dispersion, beta beat) |
| correction/loco_wrapper.py | all but loco_model | Model_Wrap |
| matlab_index.py | the functions that convert or choose (set-points, feedbacks, multipoles, BBA, synchronous phase and energy, injection fit, model rings), SCplotBPMreading and SC.plot; not the pure renamings | Model_Matlab, Model_PlotFlag |
| lattice_properties/response_model.py | all | Model_Lattice |
| lattice_properties/response_measurement.py | all | Model_Resp |
| plotting/ | the data of plot_support, plot_phase_space, plot_cm_strengths, plot_lattice, plot_data_apertures, plot_synoptic | Model_Plot, Model_Figure, Model_View, Model_Marks, Model_PhaseFig |
| lattice_properties/magnet_orbit.py | all but the figure | Model_Cod |
| utils/logging_tools.py | all but colours and formats (Python's loggers modelled as far as used) | Model_Log |
| lattice_properties/apertures.py | all but plotting | Model_Aper, Model_Auto |

## Code that is not modelled

* matplotlib and the plotting functions outside plotting/ other than the data of the figures of bba.py (C98), tune.py, rf.py, plot_transmission (C99, C100), BPM readings (C103) and injection_fit.py (C104); in plotting/ beta functions, colours.
* example.py, doc/, tests/: no behaviour of the machine; colours and formats of log messages.
* utils/at_wrapper.py: thin calls into pyAT; they are the oracles.
* utils/stats.py: arrays of more than one dimension.
* correction/loco_wrapper.py loco_model: collects references, no decisions of its own.

## Properties: what is modelled, how it is proved

* **C01** Registered ordinate lists are sorted, duplicate-free and exactly the union of what was registered.  Code: core/classes.py, core/simulated_commissioning.py.  Proof (Properties_Reg.v): invariant over every history of registration calls: the ordinate lists are the sorted union (np.unique); induction over the history.
* **C02** A call with an unknown keyword or support type is rejected before anything changes.  Code: core/simulated_commissioning.py.  Proof (Properties_Reg.v): every call with an unknown keyword or support type returns ValueError in the very same state; computed case by case.
* **C03** Registering again merges uncertainties, last value wins, other elements untouched.  Code: core/classes.py, core/simulated_commissioning.py.  Proof (Properties_Reg.v): the sigma maps after a second registration are the left-biased union; maps of other elements are equal.
* **C04** The design lattice is never modified.  Code: core/simulated_commissioning.py.  Proof (Properties_Reg.v): a frame on the design ring kept by every method; induction over arbitrary programs of public calls.
* **C05** Support registry is the sorted, duplicate-free union of the registered start/end pairs.  Code: core/simulated_commissioning.py, utils/classdef_tools.py.  Proof (Properties_Reg.v): invariant over histories, with the pairs sorted by columns as update_double_ordinates does; specification by membership and sortedness.
* **C06** Registering a support wipes the uncertainties other support types stored on a shared element.  Code: core/simulated_commissioning.py.  Proof (Properties_Reg.v): the sigma of each touched element is reset before the uncertainties are written; the finding is a concrete history that loses a section uncertainty.
* **C07** A failed set-point call or rejected input leaves the machine untouched.  Code: core/simulated_commissioning.py, utils/classdef_tools.py.  Proof (Properties_Setpoint.v): case analysis of check_input_and_setpoints; the state is untouched whenever the inputs are refused.
* **C08** What you set on a corrector is what you read back.  Code: core/simulated_commissioning.py.  Proof (Properties_Setpoint.v): the reading of a set corrector by induction over the list of ordinates, with the frame for all others.
* **C09** Corrector set-points always respect the limit given at registration.  Code: core/simulated_commissioning.py.  Proof (Properties_Setpoint.v): the clipped value lies within the limit; invariant over set_cm_setpoints; the finding shows the dipole component set through set_magnet_setpoints is unlimited.
* **C10** Setting correctors touches only the addressed correctors and their children.  Code: core/simulated_commissioning.py.  Proof (Properties_Setpoint.v): relational frame: two states differ only in listed attributes of addressed elements and their children.
* **C11** Adding a kick and then subtracting it restores the corrector exactly when no limit is hit.  Code: core/simulated_commissioning.py, correction/loco.py.  Proof (Properties_Setpoint2.v): exact return over the reals from the readback theorem; findings: a clipped kick does not return, and (0.1+0.2)-0.2 differs from 0.1 in binary64.
* **C12** Meaning of abs, rel and add for magnet set-points.  Code: core/simulated_commissioning.py.  Proof (Properties_Setpoint3.v, Properties_Setpoint4.v): meaning of the three methods stated with the nominal and the old set-point; induction over the zipped lists; idempotence as corollary.
* **C13** Meaning of abs, rel and add for cavity set-points.  Code: core/simulated_commissioning.py.  Proof (Properties_Setpoint3.v): the same for cavities; the actual value follows from update_cavities; findings: relative settings compound.
* **C14** Repeated ordinates in one call: correctors accumulate, magnets and cavities do not.  Code: core/simulated_commissioning.py.  Proof (Properties_Setpoint3.v): old values are read before the loop for magnets and cavities and inside it for correctors; theorem on repeated ordinates.
* **C15** Integer set-points are truncated silently or rejected, depending on the method.  Code: core/simulated_commissioning.py, utils/classdef_tools.py.  Proof (Properties_Setpoint4.v): arrays carry a dtype; assigning a float into an integer array truncates, in-place addition raises.
* **C16** Skew-quadrupole set-points never exceed their limit.  Code: core/simulated_commissioning.py.  Proof (Properties_Setpoint4.v): clipping of skew-quadrupole components; finding: a negative limit.
* **C17** Actual magnet field follows set-point, calibration error, offset and systematic multipoles.  Code: core/simulated_commissioning.py, utils/classdef_tools.py.  Proof (Properties_Field.v): closed formula of the field against a specification with padded sums; finding on broadcasting.
* **C18** Updating magnets is idempotent and order-independent for stand-alone magnets.  Code: core/simulated_commissioning.py.  Proof (Properties_Update.v): update_magnet is a projection that depends only on attributes it does not write; permutation and idempotence from that.
* **C19** Freshly registered magnets without errors carry exactly the design field.  Code: core/simulated_commissioning.py.  Proof (Properties_Tight10.v, Properties_Update.v): registration copies the field into set-point and nominal; padded sums with absent errors give it back.
* **C20** A scalar calibration error makes the magnet impossible to update.  Code: core/simulated_commissioning.py, utils/classdef_tools.py.  Proof (Properties_Update.v, Properties_Zero.v): a scalar has no length, so padding raises; the same for any list of magnets and for apply_errors.
* **C21** Split-magnet children mirror their master.  Code: core/simulated_commissioning.py.  Proof (Properties_Tight10.v, Properties_Update.v): master and child computed from the same set-points; equal if their own errors are; frame for set-points.
* **C22** Positive corrector set-point means positive kick in both planes.  Code: core/simulated_commissioning.py.  Proof (Properties_Comp.v): sign bookkeeping of the dipole component, thick and thin correctors.
* **C23** Dipole compensation keeps the bending field while the quadrupole field is changed.  Code: core/simulated_commissioning.py.  Proof (Properties_Comp.v): formula for the change of the dipole component under a compensated gradient change; finding without the flag.
* **C24** A compensated gradient scan that returns to its start also returns the corrector.  Code: core/simulated_commissioning.py, correction/bba.py.  Proof (Properties_Comp.v): the corrector is a function of the gradient reached; telescoping over the scan.
* **C25** Padded addition is a commutative, associative, zero-padding sum.  Code: utils/classdef_tools.py.  Proof (Properties_Field.v): specification by components (zero beyond the end); commutativity, associativity, unit; uniqueness.
* **C26** Random numbers with cut-off never exceed the cut-off.  Code: utils/sc_tools.py.  Proof (Properties_Random.v): stream of draws; the call takes the shortest prefix with enough accepted values; non-termination when no value is acceptable.
* **C27** Applied random errors are bounded by sigma times cut-off.  Code: core/simulated_commissioning.py, utils/classdef_tools.py.  Proof (Properties_Errors.v): attribute-wise bound through all stages of apply_errors; reachability of the hypotheses from histories of registrations.
* **C28** Zero uncertainty means zero error.  Code: core/simulated_commissioning.py.  Proof (Properties_Tight11.v, Properties_Zero.v): zero sigma gives zero draws; displacement, circumference and injection follow.
* **C29** Circumference scaling hits the requested circumference and changes only drifts.  Code: utils/sc_tools.py.  Proof (Properties_Circ.v): sum of lengths after scaling; needs a drift; finding: without drift nothing changes.
* **C30** Support pitch and yaw are consistent with the endpoint offsets.  Code: core/simulated_commissioning.py.  Proof (Properties_Support.v): angles from endpoint differences and back; finding on repeated application.
* **C31** Independent endpoint uncertainties: the end is drawn with the start's sigma.  Code: core/simulated_commissioning.py.  Proof (Properties_Support.v): two-run theorem: the end uncertainty is irrelevant to the result.
* **C32** Elements on a support move along the straight line between its endpoints.  Code: core/simulated_commissioning.py, utils/classdef_tools.py.  Proof (Properties_Interp.v, Properties_Interp2.v): linear interpolation specified pointwise, nested supports as a composition; findings for the wrap-around and zero length.
* **C33** Rotation matrices used for misalignments are proper rotations.  Code: utils/sc_tools.py.  Proof (Properties_Align.v): matrix identities with trigonometric functions (orthogonality and determinant).
* **C34** Zero misalignment gives identity transformations.  Code: utils/sc_tools.py.  Proof (Properties_Align.v): closed formulas of the transformation for zero rolls and for zero offsets.
* **C35** very_deep_copy: independent copy of the machine, but its design ring is the machine ring.  Code: core/simulated_commissioning.py.  Proof (Properties_Lattice.v): equality of machine, injection, sigmas; the design lattice of the copy is the machine lattice.
* **C36** The model lattice carries the set-points without dipole fields and leaves the machine alone.  Code: lattice_properties/response_model.py.  Proof (Properties_Lattice.v): element-wise description of the model lattice; with copying assignment the machine is unchanged, without it dipole set-points are erased.
* **C37** BPM readings are NaN exactly when the beam is lost, otherwise the documented error model.  Code: core/beam.py.  Proof (Properties_Beam.v): pointwise formula of the reading (rotation, calibration, offset, noise) and loss condition.
* **C38** Multi-shot readings average only the shots that reached the BPM.  Code: core/beam.py.  Proof (Properties_Beam.v, Properties_Beam2.v, Properties_Tight6.v, Properties_Tight9.v): weighted average over shots that arrived; bounds; pseudo-orbit mode as average over turns. Errors of the readings against the weighted spread, and the tracking through all elements (Properties_Tight6).
* **C39** Readings are ordered by arrival time.  Code: core/beam.py.  Proof (Properties_Beam.v): index arithmetic of the reshaping: bijection between (turn, BPM) and places.
* **C40** Requested BPMs are returned in lattice order, unregistered ones dropped.  Code: core/beam.py.  Proof (Properties_Beam.v): filter of the registry.
* **C41** Beam transmission: survival counts are consistent and monotone.  Code: core/beam.py.  Proof (Properties_Beam2.v): counts of surviving particles; antitone in losses.
* **C42** Tracking mode: invalid modes are rejected, orbit mode forces a single turn and particle.  Code: core/classes.py.  Proof (Properties_Lattice.v): record update by the property setter.
* **C43** The generated bunch does not have the requested covariance.  Code: core/beam.py.  Proof (Properties_Beam2.v): closed formula of the bunch; its covariance as a matrix expression; counterexample.
* **C44** First-turn threading succeeds only with full, reproducible transmission.  Code: correction/orbit_trajectory.py.  Proof (Properties_Thread.v, Properties_Tight11.v): session: a relation between machine states by readings and threading steps with the exact kicks; success implies a session with reproducible full transmission.
* **C45** Balance and orbit correction: success means full transmission and stable orbit.  Code: correction/orbit_trajectory.py.  Proof (Properties_Thread.v): the same for balance and correct, with the exact kicks from the pseudo-inverse and the convergence criterion; wrong shapes refused first.
* **C46** Stitching does not stop on a setback.  Code: correction/orbit_trajectory.py.  Proof (Properties_Thread.v): the same for stitching; finding: a concrete run that continues after a setback.
* **C47** The stability criterion never accepts a perfectly constant history.  Code: correction/orbit_trajectory.py.  Proof (Properties_Linear.v, Properties_Orbit.v): criterion characterised; finding: constant histories.
* **C48** Correctors selected for steering are the last ones not downstream of the last BPM reached.  Code: correction/orbit_trajectory.py.  Proof (Properties_Orbit.v): selected correctors as a filter and suffix; findings for too few correctors and no beam.
* **C49** Wiggle steps stay within the annulus.  Code: correction/orbit_trajectory.py.  Proof (Properties_Orbit.v): partial sums of the steps have linearly growing squared length; module constants.
* **C50** Folded RF phase is the unique equivalent in the half-open period.  Code: correction/rf.py.  Proof (Properties_Rf.v, Properties_Tight7.v): floor arithmetic over the reals; uniqueness in the half-open period. The report itself in Properties_Tight7.
* **C51** RF scans leave the cavities at the initial set-point plus exactly the reported correction.  Code: core/simulated_commissioning.py, correction/rf.py.  Proof (Properties_Rf.v): set-points tracked through the scan; failures included.
* **C52** Tune scan: final set-points and their restoration.  Code: core/simulated_commissioning.py, correction/tune.py.  Proof (Properties_Tune.v): set-points are the returned factors times nominal, every other attribute framed; finding for no transmission.
* **C53** Tune-scan grid indices stay inside an odd grid.  Code: correction/tune.py.  Proof (Properties_Tune.v): bounds of the truncated spiral; finding for even sizes.
* **C54** BBA results are applied exactly to the accepted BPMs.  Code: correction/bba.py.  Proof (Properties_Bba.v): sum of the accepted measurements per BPM and plane; frame; NaN errors.
* **C55** Fake BBA puts the BPM on the magnet centre within the given accuracy.  Code: correction/bba.py.  Proof (Properties_Bba.v): distance bound from the truncated draws.
* **C56** BBA measurement helpers restore injection and turns.  Code: correction/bba.py.  Proof (Properties_Bba2.v): injection and turns restored whatever happens in the loop; geometric scale.
* **C57** The model response matrix is exact for linear optics and leaves the lattice restored.  Code: lattice_properties/response_model.py.  Proof (Properties_Model.v, Properties_Tight5.v): difference quotient per column, lattice restored; exact for affine tracking. Model dispersion in Properties_Tight5: lattice with frequencies changed by a specification function, entry by entry.
* **C58** Pseudo-inverse is a (regularised) Moore-Penrose inverse.  Code: utils/sc_tools.py.  Proof (Properties_Pinv.v): matrices over R; Penrose identities from the SVD hypotheses; truncation, Tikhonov optimality, least squares.
* **C59** Weighted statistics obey their defining laws.  Code: utils/stats.py.  Proof (Properties_Stats.v, Properties_Tight7.v): weights, mean, error in closed form; defining laws. Root mean square in Properties_Tight7.
* **C60** Parameter mask of the optics fit selects exactly the named groups.  Code: correction/loco.py.  Proof (Properties_Loco.v, Properties_Tight11.v, Properties_Tight3.v): masks, slices and objective pointwise; the step solves the damped normal equations; exactness; finding on cancelling deviations and on the ideal lattice. Weights as a matrix and shapes in Properties_Tight3.
* **C61** Measured closed-orbit response restores the machine but switches the tracking mode.  Code: correction/loco.py.  Proof (Properties_Loco2.v): machine equal up to the random stream and the mode; columns are difference quotients of readings.
* **C62** Dispersion measurement restores the RF frequency.  Code: lattice_properties/response_measurement.py.  Proof (Properties_Resp.v, Properties_Tight.v): frequency set-points restored; finding for other numbers of steps. Scan with more steps in Properties_Tight.
* **C63** Aperture bisection keeps the boundary bracketed.  Code: lattice_properties/apertures.py.  Proof (Properties_Aper.v, Properties_Tight11.v, Properties_Tight4.v): bisection invariant with a stability limit; termination; findings: the bracketing test never succeeds, no aperture is returned. Index of the bound check and the coordinate used for the momentum in Properties_Tight4.
* **C64** Switching cavities and radiation changes only pass methods of the right elements.  Code: core/lattice_setting.py.  Proof (Properties_Lattice.v): pass methods specified per element; everything else framed.
* **C65** The tune fit never succeeds.  Code: correction/tune.py.  Proof (Properties_Tune.v): every branch of the call fails.
* **C66** The chromaticity fit leaves the trial evaluated last, on truncated initial set-points.  Code: correction/chroma.py.  Proof (Properties_Tight9.v, Properties_Tune.v): whatever the minimiser does, the last evaluated trial is what remains.
* **C67** Trajectory BBA gives back injection and set-points and changes only accepted BPM offsets.  Code: correction/bba.py.  Proof (Properties_Bba2.v, Properties_Tight8.v): injection and set-points compared attribute by attribute before and after; accepted offsets as in C54. Where each table entry comes from: C67_measured in Properties_Tight8.
* **C68** The evaluation of a BBA measurement finds the magnetic centre.  Code: correction/bba.py.  Proof (Properties_Bba3.v, Properties_Tight8.v): least-squares hypotheses on polyfit; the zero of the fitted slope is the centre for linear responses. End to end with a responding machine: C68_alignment in Properties_Tight8, hypotheses met by C68_responding_machine.
* **C69** The result of the optics fit is applied with opposite sign.  Code: correction/loco.py.  Proof (Properties_Loco2.v): set-points lowered by the fit, individually or by family; equal spacing.
* **C70** The measured response matrix is obtained only with a single step.  Code: lattice_properties/response_measurement.py.  Proof (Properties_Resp.v, Properties_Resp2.v, Properties_Tight.v): all numbers of steps but one fail; the state left behind; the single-step result. For the whole call (first corrector) in Properties_Resp2. Trials of mode fixedOffset and orbit mode in Properties_Tight.
* **C71** The injection fits measure the launch condition at the lattice start.  Code: correction/injection_fit.py.  Proof (Properties_Inject.v): line through two readings; merit is an absolute mean; finding on cancellation.
* **C72** Ramping up errors never succeeds, and its scales would multiply up.  Code: correction/ramp_errors.py.  Proof (Properties_Ramp.v): the first element access fails; scaled values from a copy, and their product when nothing is copied.
* **C73** The interface to the optics fit applies exactly the damped correction, and mostly fails.  Code: correction/loco_wrapper.py.  Proof (Properties_Tight2.v, Properties_Wrap.v): set-points after the correction, gains and rolls; every failing combination. Step argument in Properties_Tight2.
* **C74** Alignment with orbit bumps never runs to its end, and its measurement leaves the machine changed.  Code: correction/bba.py.  Proof (Properties_OrbBba.v): every path raises; state left after a measurement.
* **C75** Orbit correction on a machine with affine response.  Code: correction/orbit_trajectory.py.  Proof (Properties_Linear.v): affine machine: orbit deviation is multiplied by (1 - R P) in each step; geometric convergence; finding on exact zero orbits.
* **C76** The Matlab-style set-point functions are the Python ones.  Code: matlab_index.py.  Proof (Properties_Matlab.v): the wrappers equal the Python functions after translating dimension, type and order; conclusions of the set-point properties transferred.
* **C77** The Matlab-style RF corrections: one always fails, one runs with its own number of turns.  Code: correction/rf.py, matlab_index.py.  Proof (Properties_Matlab.v): every run of the first raises; the second framed by the number of turns.
* **C78** The Matlab-style feedback functions invert a pseudo-inverse back.  Code: matlab_index.py, utils/sc_tools.py.  Proof (Properties_Matlab.v): uniqueness of the Penrose inverse: inverting twice gives the matrix back; theorems on the feedback functions instantiated.
* **C79** Multipole errors are stored as given, but systematic ones share the array of the caller.  Code: core/simulated_commissioning.py, matlab_index.py.  Proof (Properties_Mult.v): tables and offsets compared entry by entry; draws of each magnet part of the stream; a second model with array identities for the findings on sharing.
* **C80** The Matlab-style transformation of a magnet.  Code: matlab_index.py, utils/sc_tools.py.  Proof (Properties_Matlab.v): reduced to the transformation property of a magnet element with the same offsets.
* **C81** Choosing a procedure by name.  Code: matlab_index.py.  Proof (Properties_Matlab.v): case analysis on the names; frame of fake_bba.
* **C82** A whole commissioning campaign changes only what its calls address, and keeps limits.  Code: core/simulated_commissioning.py, correction/bba.py, correction/loco_wrapper.py, correction/orbit_trajectory.py, correction/rf.py, correction/tune.py, lattice_properties/response_measurement.py.  Proof (Properties_Campaign.v): a relation kept by the few elementary operations (set-points, fields, cavities, offsets, calibration, injection) is kept by every procedure, by induction through its loops, and so by every sequence; instantiated with the frame and with the limits.
* **C83** The check of a machine accepts and warns exactly as described.  Code: core/constants.py, core/simulated_commissioning.py.  Proof (Properties_Verify.v): a calculus of checks that log: each check returns exactly under its condition and logs exactly its warnings; conjunction over the loops. Registration: elements only gain what is checked, by induction over the calls.
* **C84** Multipole tables are read with the columns swapped and only with one unit entry.  Code: core/simulated_commissioning.py, matlab_index.py, utils/sc_tools.py.  Proof (Properties_Read.v): words as an inductive relation on texts (existence and uniqueness); table entries by position; composition with C79_systematic.
* **C85** The circular mean is the nearest point of the circle and its error follows from the coherence.  Code: utils/stats.py.  Proof (Properties_Circular.v): average of unit vectors by an abstract angle function with its specification (met by an arctangent, C85_angle); turning formulae for the sums of sines and cosines; uniqueness and minimality from them; the error from the variance identity. Missing values as None.
* **C86** The transformation of a misaligned magnet is the change to its own frame, to first order.  Code: utils/sc_tools.py.  Proof (Properties_Frame.v): geometry of lines and frames as a separate specification (points, axes, planes, square root for the longitudinal momentum); each array entry is a derivative, by the cofactor identities of rotations; frames compose.
* **C87** The figure of the supports shows every structure where it stands, if all have an end in view.  Code: plotting/plot_support.py.  Proof (Properties_Plot.v): lines as sets of points; the segments of plot_line cover the places by convexity; existence by a calculus of loops that return or raise one exception.
* **C88** The phase space figure shows each particle relative to the cavity.  Code: plotting/plot_phase_space.py.  Proof (Properties_Phase.v): points computed turn by turn from the tracked coordinates; the slippage cancels for a synchronous particle.
* **C89** Messages of the program are written once, to the right stream, and debug mode leaves no trace but one.  Code: utils/logging_tools.py.  Proof (Properties_Log.v): loggers as maps from dotted names; prefixes of a name by induction from its end; the four handlers partition the levels.
* **C90** The figures of the lattice show ranges, apertures, outlines and corrector strengths as they are.  Code: plotting/plot_apertures.py, plotting/plot_lattice.py, plotting/plot_synoptic.py.  Proof (Properties_Figure.v): counting below an edge by induction over the bins; cumulative sums; ranges and outlines by computation.
* **C91** The jacobian with dispersion adds one column to every quadrupole slice, which does not depend on the quadrupole.  Code: correction/loco.py, lattice_properties/response_model.py.  Proof (Properties_LocoDisp.v): each quadrupole step is the step without dispersion plus a column (state kept by the dispersion on the design lattice), carried through the chunks; entries from C57_dispersion.
* **C92** The beta beat is the root mean square of the relative deviation of the beta functions, plane by plane.  Code: correction/loco.py.  Proof (Properties_Beat.v): relative deviations as a list; root mean square characterised by its square; sums of squares.
* **C93** The parts of a split magnet stand where the magnet stands only if it is not tilted.  Code: core/simulated_commissioning.py, utils/sc_tools.py.  Proof (Properties_Split.v): planes moved along their axes: the path length of the design particle changes by the distance times (1 - cosine)/cosine, so equal arrays force equal axes; the loop of update_supports step by step with the parts of each magnet.
* **C94** Set-point calls on a machine in good order always return, and keep it in good order.  Code: core/simulated_commissioning.py.  Proof (Properties_Progress.v): a calculus of runs that return with a postcondition; good order only reads attributes that set-point calls keep or rewrite with the same shape; errors as a relation on elements that changes values, not shapes, except drift lengths.
* **C95** Freshly registered BPMs read the beam and freshly registered cavities are as designed.  Code: core/beam.py, core/simulated_commissioning.py.  Proof (Properties_Fresh.v): the loop of initialisations element by element; readings from C37_shot with all errors zero.
* **C96** The corrections stop at the first reading that meets their criterion.  Code: correction/orbit_trajectory.py, matlab_index.py.  Proof (Properties_Stop.v): the loops on their logs: no history between the start and the end meets the criterion; the log is that of the readings of the session (C44-C46), and the criteria on logs are equivalent to those on readings.
* **C97** The fields follow the set-points through every campaign.  Code: core/simulated_commissioning.py.  Proof (Properties_Step.v): an invariant of all calls (frames of C82 with the orders each call sets): recomputing the field of each magnet and cavity alone changes nothing; each call either leaves what the update reads untouched or ends with the update, as the well-addressed calls can only raise before the first write.
* **C98** The figures of beam-based alignment show every BPM at its place.  Code: correction/bba.py.  Proof (Properties_BbaPlot.v): Model_BbaPlot.v lists the points handed to matplotlib; numpy selection by masks commutes with pairing, the positions are those of the filtered register (a permutation of the list, equal to it exactly if sorted), the bins partition the range because the edges grow.
* **C99** The figures of the tune scan show the measured transmission, on exchanged axes.  Code: core/beam.py, correction/tune.py.  Proof (Properties_ScanPlot.v): Model_ScanPlot.v repeats the loop of the scan with the figures as data; induction over the loop shows that dropping the figures gives tune_loop, and that figure k is drawn from the grid filled by the first k+1 steps.
* **C100** The figures of the RF scans show the data the correction was computed from.  Code: correction/rf.py.  Proof (Properties_ScanPlot.v): The same for the RF scans (loop with the results so far as accumulator); the folding lemmas of C50/C51 bound the marks, periodicity of the sine puts the corrected mark on the curve.
* **C101** Polar coordinates and the automatic angles of the dynamic aperture.  Code: lattice_properties/apertures.py.  Proof (Properties_Auto.v): Model_Auto.v; arctan2 and arccosh are instantiated over the reals (by acos and ln); cosh(arccosh c) = c and sinh(arccosh c) = sqrt(c^2 - 1) turn the points cosh(mu + i nu) into multiples of (a cos nu, b sin nu).
* **C102** Each BPM is aligned at the phase advance with the largest range, unless the beam misses it.  Code: correction/bba.py.  Proof (Properties_BbaPhase.v): the argmax with missing values characterised on lists; the scan and the measurement of one BPM as in C56/C67, keeping the machine at which each is done; frame of the nominal strengths through the scan.
* **C103** The figure of a BPM reading shows the reading, turn after turn.  Code: core/beam.py.  Proof (Properties_BeamPlot.v): Model_BeamPlot.v: what is handed to matplotlib, as data; the flattened array of positions (turn by BPM) is characterised entry by entry, positions and circumference by the sums of lengths of Properties_Support and Properties_Circ.
* **C104** The figures of the injection fits show readings and lines where they belong, but the corrected trajectory mirrored.  Code: correction/injection_fit.py.  Proof (Properties_InjectPlot.v): Model_InjectPlot.v: the fits of C71 with what they hand to matplotlib; C71_drift gives the line through both readings, C71_trajectory the injection at which the second reading is taken.
* **C105** The figure of the lattice shows the design lattice and, if it fails, leaves its range of view behind.  Code: correction/bba.py, matlab_index.py, plotting/plot_lattice.py, plotting/plot_synoptic.py.  Proof (Properties_View.v): Model_View: state of ranges and font size threaded through plot_lattice (optics and apertures of the sliced lattice are arguments), outlines of correctors and names. Properties_View: exact outlines, state after return and after failure, for every oracle.
* **C106** The figure of the supports shows the misalignments of magnets and monitors, but needs two metres and turns the longitudinal offset round.  Code: core/simulated_commissioning.py, plotting/plot_support.py, utils/sc_tools.py.  Proof (Properties_Marks.v): Model_Marks: plot_support as a whole (Python int is an argument, with the property that it cuts off decimals); Properties_Marks: marks per element by inversion of the loops, steps from the linspace grid, refusals by cases on the distance of the limits, T2 of an unturned magnet by matrix algebra as in C34.
* **C107** SCgetCOD never returns.  Code: lattice_properties/magnet_orbit.py, matlab_index.py, utils/at_wrapper.py.  Proof (Properties_Cod.v): Model_Cod: nested sequences, the shape numpy gives them, truth of an array, and lines 9-19 on top; Properties_Cod: the shapes of the two members of the pair computed and compared.
* **C108** The phase space figure marks the closed orbit, but only at a single place.  Code: matlab_index.py, plotting/plot_phase_space.py.  Proof (Properties_PhaseFig.v): Model_PhaseFig: on top of phase_space (C88) both orbit searches as arguments, and the sizes scatter insists on; Properties_PhaseFig: inversion of the call, cases on both searches.
* **C109** SCplotBPMreading shows a reading and restores SC.plot, unless it fails.  Code: core/beam.py, core/simulated_commissioning.py, matlab_index.py.  Proof (Properties_PlotFlag.v): Model_PlotFlag: the machine paired with SC.plot, both kinds of reading choosing by the flag between those of C37, C38 and C103, SCplotBPMreading on top; Properties_PlotFlag: induction over scripts of calls that go on after failures.
* **C110** Wiggling stops only after two kicks in a row that let the beam through.  Code: correction/orbit_trajectory.py.  Proof (Properties_Wiggle.v): Properties_Wiggle on Model_Orbit: the kicks made are reconstructed from the run by induction over steps and rounds; the history of transmissions is the concatenation of the counts per kick, from which the criterion of five equal readings is decided.

## Assumptions per theorem

`Print Assumptions` of every theorem (each properties file prints them at the end of the build as well).  Nothing else is used by any theorem; all of these are declared in Coq's own standard library (`Coq.Logic.FunctionalExtensionality`, `Coq.Reals.ClassicalDedekindReals`, `Coq.Floats`, `Coq.Numbers`).

* `ClassicalDedekindReals.sig_forall_dec`, `ClassicalDedekindReals.sig_not_dec`, `FunctionalExtensionality.functional_extensionality_dep`: 250 theorems. C09_limit_invariant, C09_limit_respected, C100_finding_first_lost, C100_frequency, C100_frequency_returned, C100_phase, C100_phase_returned, C100_progress, C100_progress_shown, C102_finding_unreached, C102_largest, C102_setting, C103_all_elements, C103_all_elements_returns, C103_drawing_returns, C103_finding_limits, C103_frame, C103_marks, C103_only_drawn, C103_pseudo_orbit, C104_drift, C104_drift_returns, C104_finding_mirror, C104_trajectory, C104_trajectory_returns, C20_apply_errors, C27_errors_bounded, C27_finding_noise_with_cut, C27_injection_bounded, C27_reachable, C28_errors_zero, C28_first_particle, C28_geometry, C28_injection, C28_unset_injection, C30_consistent, C32_bpms, C32_magnets, C33_identity, C33_product, C33_rotation, C33_single_axis, C34_straight, C34_transverse, C34_zero, C37_shot, C38_all_elements, C38_errors, C38_finding_error_not_of_mean, C38_positive, C38_pseudo_orbit, C38_reading, C38_single_shot, C38_trajectories, C41_antitone, C41_transmission, C43_bunch, C43_finding_correlation_lost, C43_finding_covariance, C44_no_beam, C44_only_these_correctors, C44_success, C44_wiggling, C45_balance, C45_correct, C45_only_these_correctors, C45_two_turns_required, C45_wrong_shapes, C45_wrong_shapes_dispersion, C46_only_these_correctors, C46_success, C47_criterion, C47_finding_constant_history, C47_finding_planes, C49_annulus, C49_module_constants, C51_frequency, C51_frequency_failure, C51_phase, C51_phase_failure, C51_refused, C51_signal, C52_finding_no_transmission, C52_only_quadrupoles, C52_success, C53_finding_even_size, C53_inside, C53_odd_size_in_range, C53_on_the_spiral, C53_starts_at_centre, C55_near_magnet, C55_no_size, C55_only_flagged, C56_scaling, C59_error_translation, C59_error_unweighted, C59_error_weighted, C59_rms, C59_rms_above_mean, C59_rms_scale, C60_exact, C60_finding_cancel, C60_minimises, C60_objective, C60_objective_diagonal, C60_objective_matrix, C60_objective_refused, C60_objective_shape, C60_objective_zero, C60_shapes_compared, C60_step, C61_columns, C61_restored, C62_finding_more_steps, C62_scan, C62_two_steps, C63_area, C63_area_closed, C63_bounds_either_way, C63_ends, C63_finding_always_scaled, C63_finding_both_at_upper, C63_finding_check_index, C63_finding_dynamic_never_returns, C63_finding_energy_coordinate, C63_finding_launch_on_orbit, C63_finding_never_bracketed, C63_halves, C63_limit_found, C66_gap, C66_goal_length, C66_last_trial, C66_merit, C66_only_sextupoles, C67_measured, C67_refused, C67_restored, C68_alignment, C68_centre, C68_finding_no_centre, C68_responding_machine, C70_finding_left_kicked, C70_finding_lost_beam, C70_finding_never_returns, C70_fixed_offset, C70_orbit_mode, C70_single_step, C70_unknown_mode, C71_drift, C71_drift_exact, C71_drift_needs_two_turns, C71_finding_cancel, C71_merit, C71_trajectory, C72_finding_never_succeeds, C72_finding_steps_fail, C72_finding_type_error, C73_finding_measurement, C73_finding_measurement_response, C74_finding_left_behind, C74_finding_never_returns, C74_finding_outcomes, C75_convergence, C75_each_step, C75_exact, C75_finding_perfect_orbit, C77_phase, C77_phase_effect, C78_balance, C78_first_turn, C78_run, C78_stitch, C80_transformation, C81_pseudo, C81_pseudo_only, C82_errors_are_never_touched, C82_finding_order_zero, C82_limits, C82_only_what_was_asked, C82_skew_limits, C85_answers, C85_between, C85_constant, C85_error, C85_error_agreeing, C85_error_range, C85_finding_cancelling, C85_finding_missing_counted, C85_finding_rms, C85_finding_rms_nan, C85_mean, C85_missing, C85_nearest, C85_nothing_missing, C85_periodic, C85_shift, C85_unique, C86_crossings_compose, C86_no_field, C86_transformation, C88_points, C88_refused, C88_synchronous, C92_beat_size, C92_beta_beat, C93_bend_parts, C93_machine, C93_step, C93_straight_parts, C94_call_returns, C94_errors, C94_histories_return, C95_reads_the_beam, C95_registered_reads_the_beam, C96_balance, C96_correct, C96_first_turn, C96_matlab_balance, C96_matlab_run, C96_stitch, C97_cavities, C97_errors, C97_errors_in_order, C97_fields_follow, C97_magnets, C99_cells, C99_drawing_returns, C99_finding_axes, C99_only_drawn, C99_transmission, C70_finding_default, C70_finding_lost_at_first, C70_unknown_mode_call, C106_finding_longitudinal, C108_points, C108_orbit, C108_no_orbit, C108_finding_one_place, C108_finding_refusals, C108_finding_matlab, C109_shows, C109_reading, C109_returns, C109_session, C109_flag_unseen, C109_finding_stuck, C109_without, C109_reading_all, C110_course, C110_finding_two_kicks
* `ClassicalDedekindReals.sig_forall_dec`, `FunctionalExtensionality.functional_extensionality_dep`: 183 theorems. C08_readback, C08_readback_within, C11_add_and_subtract, C11_finding_clipped_does_not_return, C12_meaning, C12_meaning_with_compensation, C13_actual_value, C13_finding_rel_compounds, C13_finding_two_halves_make_a_quarter, C13_meaning, C14_cavities_last_value_only, C14_correctors_accumulate, C14_difference, C14_magnets_last_value_only, C15_abs_within_limits, C15_corrector_integers_truncated, C15_finding_adding_integer_zero, C16_not_clipped, C16_skew_limit_respected, C17_field, C17_finding_broadcast, C19_fresh_magnet_keeps_its_field, C19_registration_keywords, C19_registration_records_the_field, C21_registered_parts, C22_field_of_corrector, C22_thick_horizontal, C22_thick_vertical, C22_thin, C23_dipole_field, C23_dipole_field_any, C23_equal_calibration, C23_finding_without_flag, C24_closed_scan_restores, C24_corrector_follows_gradient, C25_associative, C25_commutative, C25_padded_sum, C25_unique, C25_unit, C26_bound, C26_negative_shape, C26_never_returns, C26_randnc, C26_returns, C29_abs, C29_finding_no_drift, C29_mode, C29_rel, C29_succeeds, C30_angles, C30_support_stage, C31_end_uses_start_sigma, C32_nested, C32_rolls, C32_single, C32_three_types, C36_finding_setpoints_erased, C36_machine_unchanged, C36_model_lattice, C38_between, C50_folded, C50_reported, C50_unique, C54_applied, C54_finding_unknown_error, C54_only_accepted, C54_returns, C54_wrong_shape, C57_dispersion, C57_dispersion_linear, C57_dispersion_refused, C57_exact_for_linear_optics, C57_finding_unknown_mode, C57_finding_unknown_mode_dispersion, C57_lattice_restored, C57_response, C58_damping, C58_finding_too_many, C58_least_squares, C58_penrose, C58_regularised, C58_truncated, C59_balance, C59_between, C59_equivariant, C59_finding_empty, C59_no_weights, C59_plain_mean, C59_sample_size, C59_sample_size_equal, C59_sample_size_unweighted, C59_unbias, C59_weights, C60_finding_ideal, C60_gain_model, C60_gain_slices, C60_quad_slices, C63_bounds_sorted, C63_finding_default_bounds, C63_finding_momentum_accumulates, C63_finding_momentum_never_returns, C63_finding_momentum_turns, C63_finding_scaled_from_zero, C63_incremented, C63_momentum_halves, C63_momentum_no_orbit, C63_scaled, C69_families, C69_individual, C71_deviations, C72_circumference, C72_finding_scales_multiply, C72_finding_ten_steps, C72_injection, C73_finding_default_structure, C73_finding_diagnostics, C73_finding_structures, C73_gain_exact, C73_gains, C73_lattice, C73_lattice_ideal, C73_mean_one, C73_rolls, C73_step_argument, C73_structure, C76_correctors, C76_magnets, C78_same_matrix, C79_effect, C79_random, C79_random_rejected, C84_finding_first_column, C84_finding_not_unique, C84_finding_type, C84_not_numbers, C84_read, C84_size, C84_used, C87_displacements, C87_lines, C87_part, C87_whole, C90_apertures, C90_finding_none, C90_range, C90_strengths, C90_synoptic, C91_dispersion_column, C91_finding_blind, C91_finding_full, C91_finding_no_cavities, C91_response_columns, C94_cavities, C94_registration, C95_cavities_as_designed, C97_updating, C98_distances, C98_finding_no_histogram, C98_finding_order, C98_finding_single, C98_histogram, C98_marks, C98_returns, C105_correctors, C105_drawn, C105_finding_failed, C105_finding_next, C105_finding_matlab, C105_matlab, C105_font, C105_finding_no_correctors, C105_finding_bba, C105_names, C106_marks, C106_rows, C106_steps, C106_lines, C106_finding_needs, C106_finding_refusals, C107_finding_never, C107_finding_table, C107_finding_element
* none (closed under the global context): 94 theorems. C01_ordinates_sorted_union, C02_unknown_keyword_rejected, C03_registering_again_merges, C04_design_ring_never_modified, C05_support_registry_sorted_union, C06_finding_section_sigma_lost, C06_support_sigmas_stored, C06_support_wipes_other_sigmas, C07_bad_input_rejected, C07_single_value_for_all, C09_finding_dipole_component_unlimited, C10_only_addressed_change, C12_idempotent, C12_only_addressed_change, C13_only_addressed_change, C15_magnet_cavity_integers_rejected, C16_finding_negative_limit, C17_order_and_kick, C18_finding_shared_child, C18_order_irrelevant, C18_twice, C18_two_lists, C20_any_list, C20_raises, C21_children_mirror_master, C21_setpoints_untouched, C25_rejects, C30_finding_second_application, C31_end_value_irrelevant, C32_finding_wrap_around, C32_finding_zero_length, C35_copy, C35_finding_design_lattice, C39_order, C40_requested, C42_track_mode, C46_finding_setback, C48_finding_negative_index, C48_finding_no_beam, C48_past_turn, C48_within_turn, C55_nothing_given, C60_mask, C60_selected, C60_wrong_length, C63_finding_momentum_pair, C64_on_off, C64_switch, C65_never_succeeds, C65_type_error, C69_equally_spaced, C69_finding_spacing, C76_rejected, C76_same_machine, C77_finding_energy, C79_finding_caller, C79_finding_other_column, C79_finding_shared, C79_matlab_random, C79_matlab_rejected, C79_matlab_systematic, C79_shared_fresh, C79_systematic, C79_systematic_rejected, C80_not_implemented, C81_bba, C81_fit, C83_accepts, C83_combined_function, C83_finding_split_magnets, C83_girder_required, C83_never_twice, C83_registered_accepted, C83_scalar_calibration, C83_warnings, C84_finding_matlab, C84_ords, C84_ords_total, C84_words, C89_again, C89_debug_during, C89_debug_over, C89_finding_level, C89_handler, C89_modules, C89_name, C89_once, C93_parts_carry, C95_bpms, C95_bpms_return, C95_cavities, C95_cavities_return, C95_finding_failed_registration, C97_finding_left_behind
* `ClassicalDedekindReals.sig_forall_dec`, `ClassicalDedekindReals.sig_not_dec`, `Classical_Prop.classic`, `FunctionalExtensionality.functional_extensionality_dep`: 7 theorems. C101_centred, C101_ellipse, C101_finding_auto_never, C101_finding_high, C101_plane, C101_polar, C85_angle
* the primitive types and operations of 63-bit integers and binary64 floats (`PrimFloat.abs`, `PrimFloat.add`, `PrimFloat.div`, `PrimFloat.eqb`, `PrimFloat.float`, `PrimFloat.frshiftexp`, `PrimFloat.ldshiftexp`, `PrimFloat.leb`, `PrimFloat.ltb`, `PrimFloat.mul`, `PrimFloat.normfr_mantissa`, `PrimFloat.of_uint63`, `PrimFloat.opp`, `PrimFloat.sub`, `PrimInt63.eqb`, `PrimInt63.int`, `PrimInt63.land`, `PrimInt63.lor`, `PrimInt63.lsl`, `PrimInt63.lsr`, `PrimInt63.sub`): 1 theorems. C11_finding_rounding
