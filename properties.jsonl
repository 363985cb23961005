{"id": "C01", "title": "Registered ordinate lists are sorted, duplicate-free and exactly the union of what was registered", "statement": "After any history of register_bpms / register_cavities / register_magnets calls (in any order, with duplicated or unsorted ordinates, mixed with any other modelled calls, including calls that raise), SC.ORD.BPM, SC.ORD.RF, SC.ORD.Magnet, SC.ORD.HCM, SC.ORD.VCM and SC.ORD.SkewQuad are strictly increasing, and an ordinate is in the list exactly when some accepted call of the matching kind (and, for HCM/VCM/SkewQuad, carrying that keyword) contained it.", "quantifier": "every history of API calls with every argument list", "why_tests_cant": "finite histories cannot cover every order and overlap of registrations; the union claim is an invariant over unbounded histories", "anchors": ["pySC/core/simulated_commissioning.py: SimulatedCommissioning.register_bpms", "pySC/core/simulated_commissioning.py: SimulatedCommissioning.register_cavities", "pySC/core/simulated_commissioning.py: SimulatedCommissioning.register_magnets", "pySC/core/classes.py: Indices"]}
{"id": "C02", "title": "A call with an unknown keyword or support type is rejected before anything changes", "statement": "Calling a register_* method with a keyword outside its documented set raises ValueError and leaves the whole SC object (both rings, sigmas, ordinates, injection, random stream) exactly as it was; the same holds for an unknown support type, and for a support ordinate array that does not have exactly two rows.", "quantifier": "every state, every keyword set, every ordinate array", "why_tests_cant": "the set of wrong keywords is infinite and 'nothing changed' is a statement about the whole state", "anchors": ["pySC/core/simulated_commissioning.py: SimulatedCommissioning.register_bpms", "pySC/core/simulated_commissioning.py: SimulatedCommissioning.register_cavities", "pySC/core/simulated_commissioning.py: SimulatedCommissioning.register_magnets", "pySC/core/simulated_commissioning.py: SimulatedCommissioning.register_supports", "pySC/core/simulated_commissioning.py: SimulatedCommissioning._check_kwargs"]}
{"id": "C03", "title": "Registering again merges uncertainties, last value wins, other elements untouched", "statement": "Registering an element a second time keeps every uncertainty given earlier that the new call does not mention and overwrites those it does; uncertainties of elements not in the call are unchanged. Holds for BPMs, cavities and magnets.", "quantifier": "every state, every pair of keyword sets, every element", "why_tests_cant": "keyword sets and histories are unbounded", "anchors": ["pySC/core/simulated_commissioning.py: SimulatedCommissioning.register_bpms", "pySC/core/simulated_commissioning.py: SimulatedCommissioning.register_cavities", "pySC/core/simulated_commissioning.py: SimulatedCommissioning.register_magnets", "pySC/core/classes.py: DotDict"]}
{"id": "C04", "title": "The design lattice is never modified", "statement": "No history of modelled SC method calls - registration, multipole errors, error application, setpoint changes, updates - ever changes SC.IDEALRING, whether the calls succeed or raise.", "quantifier": "every history of API calls, every outcome of the random draws, including calls that raise part-way", "why_tests_cant": "invariant over unbounded histories and over exception points inside each call", "anchors": ["pySC/core/simulated_commissioning.py: SimulatedCommissioning.__init__", "pySC/core/simulated_commissioning.py: SimulatedCommissioning.apply_errors", "pySC/core/simulated_commissioning.py: SimulatedCommissioning.set_cm_setpoints", "pySC/core/simulated_commissioning.py: SimulatedCommissioning.set_magnet_setpoints", "pySC/core/simulated_commissioning.py: SimulatedCommissioning.set_cavity_setpoints", "pySC/core/simulated_commissioning.py: SimulatedCommissioning.update_magnets", "pySC/core/simulated_commissioning.py: SimulatedCommissioning.update_cavities", "pySC/core/simulated_commissioning.py: SimulatedCommissioning.update_supports"]}
{"id": "C05", "title": "Support registry is the sorted, duplicate-free union of the registered start/end pairs", "statement": "After registering supports of one type repeatedly, SC.ORD[type] contains every registered (start,end) pair exactly once, ordered by end ordinate and then start ordinate, and nothing else; the other two support types' registries are unchanged.", "quantifier": "every existing registry and every array of pairs", "why_tests_cant": "all pair arrays, of any length and order", "anchors": ["pySC/core/simulated_commissioning.py: SimulatedCommissioning.register_supports", "pySC/utils/classdef_tools.py: update_double_ordinates"]}
{"id": "C06", "title": "Registering a support wipes the uncertainties other support types stored on a shared element", "statement": "Registering a support of one type discards every support uncertainty previously stored (by any type) on each of its start and end elements, and leaves the uncertainties of all other elements unchanged. Hence uncertainties of different types survive together exactly on elements that are not shared (finding: a Girder that starts where a Section starts deletes the Section's uncertainties).", "quantifier": "every state and every support call", "why_tests_cant": "sharing patterns of endpoints are unbounded", "anchors": ["pySC/core/simulated_commissioning.py: SimulatedCommissioning.register_supports"]}
{"id": "C07", "title": "A failed set-point call or rejected input leaves the machine untouched", "statement": "set_cm_setpoints, set_magnet_setpoints and set_cavity_setpoints reject an unknown method and a setpoint array whose length is neither 1 nor the number of ordinates with ValueError, with no change of any part of the SC object; otherwise a single setpoint means the same value for every ordinate.", "quantifier": "every state, method string, ordinate list and setpoint array", "why_tests_cant": "all length combinations and all states", "anchors": ["pySC/utils/classdef_tools.py: check_input_and_setpoints", "pySC/core/simulated_commissioning.py: SimulatedCommissioning.set_cm_setpoints", "pySC/core/simulated_commissioning.py: SimulatedCommissioning.set_magnet_setpoints", "pySC/core/simulated_commissioning.py: SimulatedCommissioning.set_cavity_setpoints"]}
{"id": "C08", "title": "What you set on a corrector is what you read back", "statement": "After a successful set_cm_setpoints(ords, setpoints, skewness, 'abs') with distinct ordinates, get_cm_setpoints(ords, skewness) returns for each corrector exactly the requested value if its absolute value does not exceed the corrector's limit, and the limit with the sign of the request otherwise (over exact arithmetic).", "quantifier": "every ring state, ordinate list without repetitions, setpoint list", "why_tests_cant": "all limits, lengths, pass methods and values; unbounded lists", "anchors": ["pySC/core/simulated_commissioning.py: SimulatedCommissioning.set_cm_setpoints", "pySC/core/simulated_commissioning.py: SimulatedCommissioning.get_cm_setpoints"]}
{"id": "C09", "title": "Corrector set-points always respect the limit given at registration", "statement": "Whenever set_cm_setpoints succeeds, for every addressed corrector that carries a limit the reading of get_cm_setpoints in that plane has absolute value at most the absolute limit; and the bound is then kept by every further history of set-point calls (any method, any plane, with or without dipole compensation) and updates, except set_magnet_setpoints at order 0, which writes the dipole field without any limit check (finding).", "quantifier": "every history of modelled set-point calls", "why_tests_cant": "inductive invariant over unbounded histories", "anchors": ["pySC/core/simulated_commissioning.py: SimulatedCommissioning.set_cm_setpoints", "pySC/core/simulated_commissioning.py: SimulatedCommissioning.set_magnet_setpoints", "pySC/core/simulated_commissioning.py: SimulatedCommissioning._dipole_compensation"]}
{"id": "C10", "title": "Setting correctors touches only the addressed correctors and their children", "statement": "set_cm_setpoints changes no element other than the listed ordinates and the split-magnet children of the listed ordinates; on those only the set-point of the chosen plane and the derived field attributes change; sigmas, ordinates, injection settings, the design ring and the random stream are unchanged. This holds whether the call succeeds or raises.", "quantifier": "every state, argument and outcome", "why_tests_cant": "frame condition over the complete state and every failure point", "anchors": ["pySC/core/simulated_commissioning.py: SimulatedCommissioning.set_cm_setpoints", "pySC/core/simulated_commissioning.py: SimulatedCommissioning.update_magnets"]}
{"id": "C11", "title": "Adding a kick and then subtracting it restores the corrector exactly when no limit is hit", "statement": "set_cm_setpoints(ord, d, 'add') followed by set_cm_setpoints(ord, -d, 'add') restores the set-point and the actual field whenever the intermediate value is within the limit (exact arithmetic); if the intermediate value is clipped the corrector does not return (finding, used by every scan in the package), and in IEEE double arithmetic the restoration can fail in the last digit even without clipping.", "quantifier": "every corrector state and every kick", "why_tests_cant": "all values and limits; the failure needs a specific clipping or rounding pattern", "anchors": ["pySC/core/simulated_commissioning.py: SimulatedCommissioning.set_cm_setpoints", "pySC/correction/loco.py: measure_closed_orbit_response_matrix"]}
{"id": "C12", "title": "Meaning of abs, rel and add for magnet set-points", "statement": "After a successful set_magnet_setpoints with distinct ordinates and no dipole compensation, the addressed component of every listed magnet's set-point is the given value ('abs'), the given factor times the nominal value recorded at registration ('rel'), or the old set-point plus the given value ('add'), clipped to the skew-quadrupole limit when that applies; 'abs' and 'rel' are idempotent; other components and other magnets are unchanged.", "quantifier": "every state, ordinate list without repetitions, value list, order, plane", "why_tests_cant": "all states and argument lists", "anchors": ["pySC/core/simulated_commissioning.py: SimulatedCommissioning.set_magnet_setpoints"]}
{"id": "C13", "title": "Meaning of abs, rel and add for cavity set-points", "statement": "After a successful set_cavity_setpoints with distinct ordinates the addressed set-point is the given value ('abs'), the given factor times the current set-point ('rel'), or the current set-point plus the value ('add'), and the actual cavity value is setpoint*(1+calibration error)+offset. In particular 'rel' is relative to the current set-point and not, as documented, to the nominal value: two successive rel 0.5 calls give a quarter (finding).", "quantifier": "every state, ordinate list without repetitions, value list and parameter", "why_tests_cant": "all states and argument lists", "anchors": ["pySC/core/simulated_commissioning.py: SimulatedCommissioning.set_cavity_setpoints", "pySC/core/simulated_commissioning.py: SimulatedCommissioning.update_cavities"]}
{"id": "C14", "title": "Repeated ordinates in one call: correctors accumulate, magnets and cavities do not", "statement": "When the same ordinate occurs twice in one 'add' call, set_cm_setpoints adds both values (each read sees the previous write), whereas set_magnet_setpoints and set_cavity_setpoints read all old values first, so only the last value takes effect.", "quantifier": "every state, magnet and pair of values", "why_tests_cant": "sequencing of reads and writes must be right for all list shapes", "anchors": ["pySC/core/simulated_commissioning.py: SimulatedCommissioning.set_cm_setpoints", "pySC/core/simulated_commissioning.py: SimulatedCommissioning.set_magnet_setpoints", "pySC/core/simulated_commissioning.py: SimulatedCommissioning.set_cavity_setpoints"]}
{"id": "C15", "title": "Integer set-points are truncated silently or rejected, depending on the method", "statement": "Given integer set-points, set_cm_setpoints with 'add' or 'rel' stores the result truncated towards zero (a corrector at 0.7 mrad plus integer 0 becomes 0: finding), a clipped integer request is also truncated, and set_magnet_setpoints / set_cavity_setpoints with 'add' or 'rel' raise TypeError with no state change; with 'abs' and no clipping integers behave as the equal floats.", "quantifier": "every state, ordinate list and integer setpoint list", "why_tests_cant": "dtype dependent behaviour for all values", "anchors": ["pySC/core/simulated_commissioning.py: SimulatedCommissioning.set_cm_setpoints", "pySC/core/simulated_commissioning.py: SimulatedCommissioning.set_magnet_setpoints", "pySC/core/simulated_commissioning.py: SimulatedCommissioning.set_cavity_setpoints", "pySC/utils/classdef_tools.py: check_input_and_setpoints"]}
{"id": "C16", "title": "Skew-quadrupole set-points never exceed their limit", "statement": "After a successful set_magnet_setpoints on the skew-quadrupole component, each addressed magnet with a non-negative limit has set-point of absolute value at most that limit, equal to the request when the request is within the limit; magnets without a limit, normal components and other orders are not clipped.", "quantifier": "every state, magnet list, values and method", "why_tests_cant": "all values around the boundary and all list shapes", "anchors": ["pySC/core/simulated_commissioning.py: SimulatedCommissioning.set_magnet_setpoints"]}
{"id": "C17", "title": "Actual magnet field follows set-point, calibration error, offset and systematic multipoles", "statement": "After update_magnets succeeds, for every updated stand-alone magnet each component of the actual field equals setpoint*(1+calibration error) plus the random offset plus the sum over systematic tables of (driving component)*(table entry), with missing entries of shorter arrays counted as zero, plus the bending-angle terms in the normal dipole component; MaxOrder is the length minus one. A one-component set-point with a longer calibration-error array is broadcast over the array, so that the magnet acquires field components it has no set-point for (finding).", "quantifier": "every magnet state, all array lengths, all systematic tables", "why_tests_cant": "all combinations of array lengths and optional error sources", "anchors": ["pySC/core/simulated_commissioning.py: SimulatedCommissioning.update_magnets", "pySC/core/simulated_commissioning.py: SimulatedCommissioning._update_magnets", "pySC/utils/classdef_tools.py: add_padded"]}
{"id": "C18", "title": "Updating magnets is idempotent and order-independent for stand-alone magnets", "statement": "A second update_magnets on the same ordinates changes nothing, and updating two lists of stand-alone magnets gives the same ring in either order. A child shared by two masters takes the field of the master updated last, so that there the order matters (finding).", "quantifier": "every ring state and ordinate lists", "why_tests_cant": "all states", "anchors": ["pySC/core/simulated_commissioning.py: SimulatedCommissioning.update_magnets", "pySC/core/simulated_commissioning.py: SimulatedCommissioning._update_magnets"]}
{"id": "C19", "title": "Freshly registered magnets without errors carry exactly the design field", "statement": "Registering magnets (any accepted keywords) and then updating them leaves the actual field of a magnet equal to its field before registration, provided that no error source is attached to it, also for combined-function bends; nominal and set-point fields equal the field at the time of registration. After errors have been applied, registering again records the erroneous field as nominal (finding).  The keywords of the registration have their own effect and no other: a registered magnet stands straight (zero offsets and rolls, zero T1 and T2), is marked as combined-function or gets a skew quadrupole limit only if asked, and has the corrector limit given for each plane. Finding: a plane for which no limit is given keeps its old limit, but has the limit zero (so every setpoint in it is clipped to zero) if the element was not a corrector before.", "quantifier": "every ring and registration call", "why_tests_cant": "all rings and keyword combinations", "anchors": ["pySC/core/simulated_commissioning.py: SimulatedCommissioning.register_magnets", "pySC/core/simulated_commissioning.py: SimulatedCommissioning.update_magnets", "pySC/core/simulated_commissioning.py: SimulatedCommissioning._optional_magnet_fields"]}
{"id": "C20", "title": "A scalar calibration error makes the magnet impossible to update", "statement": "If a calibration error of a magnet is a plain number rather than an array (as in a documented example call, after apply_errors) every update_magnets on that magnet raises ValueError and its actual field keeps its old value (finding).", "quantifier": "every magnet state with a scalar calibration error", "why_tests_cant": "holds for every value of the error", "anchors": ["pySC/core/simulated_commissioning.py: SimulatedCommissioning.register_magnets", "pySC/core/simulated_commissioning.py: SimulatedCommissioning.apply_errors", "pySC/core/simulated_commissioning.py: SimulatedCommissioning._update_magnets", "pySC/utils/classdef_tools.py: add_padded"]}
{"id": "C21", "title": "Split-magnet children mirror their master", "statement": "After updating a master magnet with children that carry no errors of their own, and neither master nor child has bending terms, every child has exactly the master's actual field arrays; and updating never changes the set-points of any magnet.  Registering magnets with a table of parts succeeds only if no ordinate is repeated, and then gives each magnet exactly the parts in its own column of the table, in order.", "quantifier": "every ring, master and list of children", "why_tests_cant": "any number of children, any state", "anchors": ["pySC/core/simulated_commissioning.py: SimulatedCommissioning.update_magnets", "pySC/core/simulated_commissioning.py: SimulatedCommissioning._update_magnets"]}
{"id": "C22", "title": "Positive corrector set-point means positive kick in both planes", "statement": "For a thick corrector magnet, the normal dipole component after set_cm_setpoints(x, horizontal) is -x/L*(1+calibration error) plus the error terms and the skew one is +x/L*(1+calibration error) in the vertical plane; for thin correctors the kick angle attribute equals (PolynomB[0], PolynomA[0]) after the update, without a sign flip and without division by length.", "quantifier": "every corrector state and value", "why_tests_cant": "all lengths, errors and values", "anchors": ["pySC/core/simulated_commissioning.py: SimulatedCommissioning.set_cm_setpoints", "pySC/core/simulated_commissioning.py: SimulatedCommissioning._update_magnets"]}
{"id": "C23", "title": "Dipole compensation keeps the bending field while the quadrupole field is changed", "statement": "For a combined-function bend registered as horizontal corrector, whose field is up to date and has no systematic multipoles driven by its normal components, with equal calibration errors of the dipole and quadrupole components, set_magnet_setpoints(..., order=1, dipole_compensation=True) leaves the actual normal dipole component unchanged whenever the corrector limit is not hit; in general it changes by (c1-c0) times the bending-angle difference over the length. For a bend that was not registered as combined-function magnet the compensation changes the bending field by the full angle difference (finding).", "quantifier": "every magnet state, gradient and method", "why_tests_cant": "algebraic identity over all field values", "anchors": ["pySC/core/simulated_commissioning.py: SimulatedCommissioning.set_magnet_setpoints", "pySC/core/simulated_commissioning.py: SimulatedCommissioning._dipole_compensation", "pySC/core/simulated_commissioning.py: SimulatedCommissioning._update_magnets"]}
{"id": "C24", "title": "A compensated gradient scan that returns to its start also returns the corrector", "statement": "Any sequence of compensated quadrupole set-point changes on one magnet that ends at the initial gradient restores the horizontal corrector set-point, provided that no corrector limit is hit on the way: the corrector depends only on the final gradient.", "quantifier": "every finite sequence of gradients", "why_tests_cant": "induction over scans of unbounded length", "anchors": ["pySC/core/simulated_commissioning.py: SimulatedCommissioning.set_magnet_setpoints", "pySC/core/simulated_commissioning.py: SimulatedCommissioning._dipole_compensation", "pySC/correction/bba.py: _data_measurement_tbt"]}
{"id": "C25", "title": "Padded addition is a commutative, associative, zero-padding sum", "statement": "Adding two one-dimensional arrays with padding gives an array of the larger length whose entries are the sums with missing entries counted as zero; the operation is commutative, associative and has the empty array as unit; inputs of different dimension or proper matrices are rejected.", "quantifier": "all arrays of all lengths", "why_tests_cant": "all length pairs", "anchors": ["pySC/utils/classdef_tools.py: add_padded"]}
{"id": "C26", "title": "Random numbers with cut-off never exceed the cut-off", "statement": "randnc returns exactly the number of values requested by the shape (one value for an empty shape), each of absolute value at most the cut-off, each one a value of the underlying random stream; it consumes a finite prefix of the stream, and if every value of the stream exceeds the cut-off it never returns.", "quantifier": "every stream of normal draws, cut-off and shape", "why_tests_cant": "the stream is unbounded and the redraw loop has no bound", "anchors": ["pySC/utils/sc_tools.py: randnc"]}
{"id": "C27", "title": "Applied random errors are bounded by sigma times cut-off", "statement": "After apply_errors, every error attribute of a BPM, cavity or magnet that has an uncertainty is componentwise at most |sigma| times the cut-off in absolute value (the global cut-off, or the individual cut-off if one was given), BPM noise levels equal their sigma exactly, and the injected position differs from the ideal one by at most the static injection sigma times the cut-off. A BPM noise level given together with an individual cut-off is stored as the pair, not as a noise level (finding).", "quantifier": "every random stream and every registered machine", "why_tests_cant": "all random outcomes, not a sample", "anchors": ["pySC/core/simulated_commissioning.py: SimulatedCommissioning.apply_errors", "pySC/utils/classdef_tools.py: randn_cutoff"]}
{"id": "C28", "title": "Zero uncertainty means zero error", "statement": "If all registered uncertainties are zero, apply_errors leaves all drift lengths, the injection point at its ideal value and every error attribute at zero, whatever the random stream.  The uncertainties of injection and circumference are zero until the user sets them: after any history of calls, with any random numbers, a single particle is injected at the origin.", "quantifier": "every random stream and every machine with zero sigmas", "why_tests_cant": "all random outcomes", "anchors": ["pySC/core/simulated_commissioning.py: SimulatedCommissioning.apply_errors", "pySC/core/simulated_commissioning.py: SimulatedCommissioning._apply_support_alignment_error"]}
{"id": "C29", "title": "Circumference scaling hits the requested circumference and changes only drifts", "statement": "scale_circumference in mode 'abs' makes the total length equal to the requested value and in mode 'rel' equal to the old length times the factor, multiplies every drift by the same factor and changes no other element and no other attribute; an unknown mode raises ValueError without change. A lattice without drifts is silently left as it is (finding).", "quantifier": "every lattice with nonzero total drift length, every target", "why_tests_cant": "all lattices of unbounded length", "anchors": ["pySC/utils/sc_tools.py: scale_circumference"]}
{"id": "C30", "title": "Support pitch and yaw are consistent with the endpoint offsets", "statement": "After support errors are applied to a support of nonzero length, the start element's pitch (yaw) equals the difference of the endpoint vertical (horizontal) offsets divided by the support length, whether the angle was given or derived, and giving a nonzero angle keeps the mean of the endpoint offsets. With an angle uncertainty but no offset uncertainty a second application of errors starts from the displaced endpoints: offsets accumulate and no longer agree with the angle (finding).", "quantifier": "every support, all offsets and rolls", "why_tests_cant": "identity over all values, including supports across the injection point", "anchors": ["pySC/core/simulated_commissioning.py: SimulatedCommissioning._apply_support_alignment_error"]}
{"id": "C31", "title": "Independent endpoint uncertainties: the end is drawn with the start's sigma", "statement": "When start and end point of a support are given different offset uncertainties, the offset of the end point is nevertheless the START uncertainty times the random draw (finding): the end point's own value is never used, only its presence.", "quantifier": "every support with two-row uncertainties and every random stream", "why_tests_cant": "statistical tests on a sample cannot exclude a coincidence, and equal sigmas hide it", "anchors": ["pySC/core/simulated_commissioning.py: SimulatedCommissioning._apply_support_alignment_error", "pySC/core/simulated_commissioning.py: SimulatedCommissioning.register_supports"]}
{"id": "C32", "title": "Elements on a support move along the straight line between its endpoints", "statement": "With one registered support (start before end), support_offset_and_roll at every lattice position inside the support returns the linear interpolation of the endpoint offsets in the longitudinal position, exactly the endpoint offsets at the endpoints, and zero at every position outside; offsets of the three support types add at elements where intervals are nested. A support that extends over the end of the lattice turns every element, also those not on it, and a magnet that starts a support directly behind a zero-length element gets that element's displacement (findings).", "quantifier": "every lattice, support interval, offsets", "why_tests_cant": "all lattices and positions", "anchors": ["pySC/core/simulated_commissioning.py: SimulatedCommissioning.support_offset_and_roll", "pySC/utils/classdef_tools.py: s_interpolation"]}
{"id": "C33", "title": "Rotation matrices used for misalignments are proper rotations", "statement": "rotation(rolls) is orthogonal with determinant one for all angles, the identity for zero angles, and the single-axis rotations for single nonzero angles.", "quantifier": "all three real angles", "why_tests_cant": "all real angles", "anchors": ["pySC/utils/sc_tools.py: rotation"]}
{"id": "C34", "title": "Zero misalignment gives identity transformations", "statement": "For an element without offsets and rolls update_transformation sets T1 and T2 to zero and R1 and R2 to the identity, whatever its length and bending angle; for pure transverse offsets of a straight element T1 is minus the offset, T2 is plus the offset and R1, R2 are the identity.", "quantifier": "every length, bending angle and offset", "why_tests_cant": "all real values", "anchors": ["pySC/utils/sc_tools.py: update_transformation", "pySC/utils/sc_tools.py: _translation_vector", "pySC/utils/sc_tools.py: _r_matrix"]}
{"id": "C35", "title": "very_deep_copy: independent copy of the machine, but its design ring is the machine ring", "statement": "very_deep_copy returns an object equal in RING, injection, sigmas and ordinates; its IDEALRING equals the original's RING, so that it equals the original's IDEALRING exactly when machine and design lattice coincide (finding: after errors are applied the copy has lost the design lattice).", "quantifier": "every SC object", "why_tests_cant": "all states", "anchors": ["pySC/core/simulated_commissioning.py: SimulatedCommissioning.very_deep_copy"]}
{"id": "C36", "title": "The model lattice carries the set-points without dipole fields and leaves the machine alone", "statement": "SCgetModelRING returns a lattice equal to the design lattice except that every registered magnet carries its set-point fields with the dipole components zeroed and every cavity its set-points; the machine is unchanged provided that assigning an array attribute copies it. If assignment does not copy (pyAT keeps a contiguous float array), the call zeroes the live dipole set-points of all correctors (finding).", "quantifier": "every SC object, both assignment semantics", "why_tests_cant": "aliasing effects depend on state not on the returned value", "anchors": ["pySC/lattice_properties/response_model.py: SCgetModelRING"]}
{"id": "C37", "title": "BPM readings are NaN exactly when the beam is lost, otherwise the documented error model", "statement": "For every shot, BPM and turn the reading is NaN in both planes exactly when no particle survives or when the transmission with sum error is below 1 minus the beam-loss threshold; otherwise it is (rotated mean position - offset)*(1+calibration error) + noise/transmission.", "quantifier": "every tracking result, BPM state and random draws", "why_tests_cant": "all tracking outcomes, all loss patterns", "anchors": ["pySC/core/beam.py: _real_bpm_reading", "pySC/core/beam.py: bpm_reading"]}
{"id": "C38", "title": "Multi-shot readings average only the shots that reached the BPM", "statement": "The reported position over several shots is the sum-signal-weighted mean of the shots with a reading and NaN exactly when no shot has one; it lies between the smallest and largest reading when the sum signals are positive, and the reported sum signal is the total over the number of shots. As soon as one shot is lost the reported error of the position is NaN, in pseudo-orbit mode a BPM without any reading raises ZeroDivisionError, and all_elements_reading averages without weights (findings). When several shots reach a BPM, the reported error of the position is the rms deviation of the shots from their mean, weighted with the sum signals: zero for a single shot and not smaller for more shots, so it is not the error of the mean (finding). The trajectories returned with the readings of all elements are, for every shot, the beam at every element and turn.", "quantifier": "every list of shots", "why_tests_cant": "all loss patterns over shots", "anchors": ["pySC/core/beam.py: bpm_reading"]}
{"id": "C39", "title": "Readings are ordered by arrival time", "statement": "Reading number t*B+b of the flattened output belongs to turn t and the b-th selected BPM, for every number of turns and BPMs, and every reading appears exactly once.", "quantifier": "all array sizes and contents", "why_tests_cant": "all sizes", "anchors": ["pySC/core/beam.py: _reshape_3d_to_matlab_like_2d"]}
{"id": "C40", "title": "Requested BPMs are returned in lattice order, unregistered ones dropped", "statement": "For any requested ordinate list (unsorted, repeated, with unregistered entries) the readings belong to exactly the registered BPMs among them, in increasing order and without repetition; if there are none ValueError is raised. So for an unsorted or repeated request the result order or length differs from the request.", "quantifier": "every registry and request", "why_tests_cant": "all lists", "anchors": ["pySC/core/beam.py: _only_registered_bpms"]}
{"id": "C41", "title": "Beam transmission: survival counts are consistent and monotone", "statement": "The surviving fraction of every turn is between 0 and 1; if lost particles stay lost it never increases from turn to turn; the number of turns counts exactly the turns whose fraction is strictly above 1 minus the threshold, is antitone in losses, and under the stay-lost assumption is the length of the initial run of good turns.", "quantifier": "every tracking result", "why_tests_cant": "all loss patterns", "anchors": ["pySC/core/beam.py: beam_transmission"]}
{"id": "C42", "title": "Tracking mode: invalid modes are rejected, orbit mode forces a single turn and particle", "statement": "Assigning an unknown track mode raises AttributeError and changes nothing; assigning the closed-orbit mode sets one turn and one particle; the other modes change only the mode. Later assignments may still set more turns in orbit mode (no invariant).", "quantifier": "every injection state, every string", "why_tests_cant": "all strings and histories", "anchors": ["pySC/core/classes.py: Injection.trackMode"]}
{"id": "C43", "title": "The generated bunch does not have the requested covariance", "statement": "The matrix used to generate particles from independent unit normals has covariance D*L*L^T*D for eigenvalues D^2 and orthonormal eigenvectors L of the requested beam matrix, which is the diagonal matrix of eigenvalues; it equals the requested beam matrix exactly when that matrix is diagonal in that order (finding: correlated beam matrices are replaced by uncorrelated ones).", "quantifier": "every symmetric positive beam matrix with orthonormal eigen-decomposition", "why_tests_cant": "statement about exact covariance, any sample only approximates", "anchors": ["pySC/core/beam.py: generate_bunches"]}
{"id": "C44", "title": "First-turn threading succeeds only with full, reproducible transmission", "statement": "If first_turn returns, the last five recorded readings all had full transmission through all BPMs; if there is no reading at the start it raises RuntimeError without changing a corrector; it performs at most maxsteps corrections; in each step only correctors upstream of the last BPM reached (or all) are changed. Each step lowers the setting of exactly those correctors by the pseudo-inverse times the deviation of the reading from the reference (missing readings as zero), within the limits; before it correctors may be wiggled only after 20 readings with the same transmission.  Wiggling returns only directly after a reading that saw beam at the number of places asked for.", "quantifier": "every beam behaviour (arbitrary reading oracle), response matrix and step limit", "why_tests_cant": "the feedback loop is driven by an arbitrary environment", "anchors": ["pySC/correction/orbit_trajectory.py: first_turn", "pySC/correction/orbit_trajectory.py: _is_repro"]}
{"id": "C45", "title": "Balance and orbit correction: success means full transmission and stable orbit", "statement": "If balance returns then the last reading has full two-turn transmission and the convergence criterion holds; if correct returns, no BPM in the last reading is NaN and the criterion held for the last readings or a single step was requested: lost transmission or missing convergence never leads to success; wrong matrix or reference shapes raise ValueError before any corrector is changed. Each balance step lowers every corrector by the pseudo-inverse times the deviation of the first turn from the reference and of the second turn from the first; each step of correct lowers them by the pseudo-inverse times the deviation from the reference, and with dispersion lowers the cavity frequency by the scale times the last component; all within the limits.", "quantifier": "every beam behaviour (arbitrary reading oracle), matrix and parameters", "why_tests_cant": "feedback loop with arbitrary environment", "anchors": ["pySC/correction/orbit_trajectory.py: balance", "pySC/correction/orbit_trajectory.py: correct", "pySC/correction/orbit_trajectory.py: _check_ords"]}
{"id": "C46", "title": "Stitching does not stop on a setback", "statement": "stitch returns only with full two-turn transmission in the last five readings; a drop in transmission between two steps is not reported: the exception for it is created but never raised, so that correction goes on (finding). Each stitching step lowers every corrector by the pseudo-inverse times the deviation of the first turn from the reference and, for the first n BPMs, of the second turn from the first; correctors are wiggled at most once, after the first reading.", "quantifier": "every beam behaviour (arbitrary reading oracle)", "why_tests_cant": "requires a beam that gets worse mid-way", "anchors": ["pySC/correction/orbit_trajectory.py: stitch"]}
{"id": "C47", "title": "The stability criterion never accepts a perfectly constant history", "statement": "The convergence test holds exactly when the standard deviation over the last n rms values is strictly between 0 and eps, or equivalently positive and smaller than eps; a perfectly constant history (zero variance) gives 0/0 = NaN and is reported as not converged for every eps (finding). The spread is taken over both planes together: a constant orbit is accepted exactly if the rms values of the two planes differ, by less than twice eps (finding).", "quantifier": "all histories, n and eps", "why_tests_cant": "all real histories", "anchors": ["pySC/correction/orbit_trajectory.py: _is_stable_or_converged"]}
{"id": "C48", "title": "Correctors selected for steering are the last ones not downstream of the last BPM reached", "statement": "For sorted corrector ordinates the returned correctors are the last n with ordinate at most that of the last BPM reached (all of them if fewer), RuntimeError is raised exactly when there is none, and after a full turn they are the last n of the list; the index list agrees with the ordinate list when there are at least n such correctors. With fewer the index list contains negative numbers, and without any reading (index -1) the correctors up to the last BPM are selected (findings).", "quantifier": "every sorted corrector and BPM list, every n and reach", "why_tests_cant": "all lists", "anchors": ["pySC/correction/orbit_trajectory.py: _get_last_cm"]}
{"id": "C49", "title": "Wiggle steps stay within the annulus", "statement": "The running sum of the first k wiggle steps has radius squared r0^2+(r1^2-r0^2)*(k-1)/(n-1), hence between r0 and r1, for any two radii and number of points; the steps telescope, so a complete pass leaves the correctors displaced by the last point of radius r1 (finding: an unsuccessful pass is not undone).", "quantifier": "all radii, numbers of points and prefixes", "why_tests_cant": "sums of cosines and sines for all sizes", "anchors": ["pySC/correction/orbit_trajectory.py: _golden_donut_diffs", "pySC/correction/orbit_trajectory.py: _wiggling"]}
{"id": "C50", "title": "Folded RF phase is the unique equivalent in the half-open period", "statement": "Folding returns a value that differs from the input by an integer number of wavelengths and lies in (-lambda/2, lambda/2], for every positive wavelength. In the phase-error report the value is first divided by the wavelength and then folded by the wavelength, so the result is not the fraction of a period in general (finding). The report is in degrees, from the closed orbit of the machine at its start.", "quantifier": "all real phases and positive wavelengths", "why_tests_cant": "all real values", "anchors": ["pySC/correction/rf.py: _fold_phase", "pySC/correction/rf.py: phase_and_energy_error"]}
{"id": "C51", "title": "RF scans leave the cavities at the initial set-point plus exactly the reported correction", "statement": "During the phase and frequency scans all set-point changes cancel, so that after the scan the cavity set-points equal their initial values plus the applied correction, for every number of steps and every measured signal (exact arithmetic); with no usable correction the frequency scan leaves the machine unchanged while the phase scan fails with TypeError after having added zero (finding). A failed reading inside a scan leaves the cavities displaced (finding).", "quantifier": "every machine, number of steps and measurement oracle", "why_tests_cant": "unbounded loop with arbitrary measurements", "anchors": ["pySC/correction/rf.py: correct_rf_phase", "pySC/correction/rf.py: correct_rf_frequency", "pySC/core/simulated_commissioning.py: SimulatedCommissioning.set_cavity_setpoints"]}
{"id": "C52", "title": "Tune scan: final set-points and their restoration", "statement": "When tune_scan returns, the scanned quadrupoles sit at the returned relative set-points times nominal. When no grid point has transmission it fails with RuntimeError and the quadrupoles are left at nominal divided by the last grid factors, which is neither the initial nor the nominal setting unless these are one (finding).", "quantifier": "every machine, grid and transmission oracle", "why_tests_cant": "search loop with arbitrary environment", "anchors": ["pySC/correction/tune.py: tune_scan", "pySC/core/simulated_commissioning.py: SimulatedCommissioning.set_magnet_setpoints"]}
{"id": "C53", "title": "Tune-scan grid indices stay inside an odd grid", "statement": "Every index pair visited by the spiral lies in [0, 2r] in both directions, hence inside the grid for odd sizes 2r+1, starts at the centre, and for an even grid size 2r the index 2r is out of range.", "quantifier": "all grid sizes and numbers of points", "why_tests_cant": "all sizes, real trigonometric values", "anchors": ["pySC/correction/tune.py: _golden_donut_inds"]}
{"id": "C54", "title": "BBA results are applied exactly to the accepted BPMs", "statement": "apply_bpm_offsets adds the measured offset to exactly those BPM planes whose offset is not NaN, at most the outlier limit and not below 2.5 errors, and leaves all other BPMs, planes and elements unchanged; an offset with NaN error is accepted (finding).", "quantifier": "every machine and measurement table", "why_tests_cant": "all tables, NaN patterns", "anchors": ["pySC/correction/bba.py: apply_bpm_offsets", "pySC/correction/bba.py: is_bba_errored"]}
{"id": "C55", "title": "Fake BBA puts the BPM on the magnet centre within the given accuracy", "statement": "After fake_bba, for every flagged BPM plane |BPM offset + BPM support offset - magnet offset - magnet support offset| is at most 2*|fake offset|; unflagged BPM planes that are not also flagged under another entry are unchanged.", "quantifier": "every machine, flags, random stream", "why_tests_cant": "all random outcomes", "anchors": ["pySC/correction/bba.py: fake_bba", "pySC/correction/bba.py: _get_bpm_offset_from_mag"]}
{"id": "C56", "title": "BBA measurement helpers restore injection and turns", "statement": "After the injection-scaling scan the injection coordinates and the number of turns are restored for every beam behaviour; the returned scale is 0.8^m where m <= 20 counts the trials that failed to reach the last BPM with both signs, all smaller numbers of reductions did fail, and the ranges returned are the distances between the readings of the two signs; after 20 failures all ranges are zero.", "quantifier": "every reading oracle and machine", "why_tests_cant": "loop with arbitrary environment", "anchors": ["pySC/correction/bba.py: _scale_injection_to_reach_bpms"]}
{"id": "C57", "title": "The model response matrix is exact for linear optics and leaves the lattice restored", "statement": "If the tracked coordinates depend affinely on the corrector kick, column j of SCgetModelRM is exactly the derivative with respect to the kick of the j-th corrector (horizontal first, then vertical, positive kick = minus normal dipole field), whatever the kick size; every corrector is restored before the next is changed. SCgetModelDispersion returns for every plane, BPM and turn the change of the position with all listed cavities detuned by the step, divided by the step - the derivative if the position is affine in the frequency; a step of zero and a beam that does not reach a BPM before the detuning are errors.", "quantifier": "every lattice oracle affine in the kick, corrector lists, kick", "why_tests_cant": "all tracking functions of that class", "anchors": ["pySC/lattice_properties/response_model.py: SCgetModelRM"]}
{"id": "C58", "title": "Pseudo-inverse is a (regularised) Moore-Penrose inverse", "statement": "Given an exact SVD, pinv without truncation and regularisation satisfies the four Penrose identities; with regularisation alpha it is the Tikhonov inverse with filter s/(s^2+alpha^2), scaled by the damping; removing more singular values than exist keeps leading ones instead of none (finding).", "quantifier": "every matrix with SVD, every parameter", "why_tests_cant": "all dimensions", "anchors": ["pySC/utils/sc_tools.py: pinv"]}
{"id": "C59", "title": "Weighted statistics obey their defining laws", "statement": "The weighted mean lies between minimum and maximum, is translation- and scale-equivariant, and equals the plain mean for equal errors; the effective sample size is the larger of two and a number between 1 and the number of points that equals the latter for equal weights; weights from errors are positive and zero or missing errors fall back to unit weights; empty data raise ZeroDivisionError (finding). With usable errors the error of the average is sqrt((sum of squared deviations in units of the errors + 1) / sum of weights * n/(n-1)) times the t-value at n-1, with n the effective sample size. The weighted rms is the root of the weighted mean of the squares, at least the magnitude of the weighted mean, and scales with the magnitude of a common factor.", "quantifier": "all data and positive error lists of any length", "why_tests_cant": "all lists", "anchors": ["pySC/utils/stats.py: weighted_mean", "pySC/utils/stats.py: effective_sample_size", "pySC/utils/stats.py: weights_from_errors"]}
{"id": "C60", "title": "Parameter mask of the optics fit selects exactly the named groups", "statement": "The mask has the length of all parameters and is true exactly on the quadrupole, corrector and BPM blocks named. The gain part of the jacobian contains in slice i only column (row) i of the model matrix, which describes gain errors up to their products; the quadrupole part is the difference quotient of the model response to that quadrupole alone, however the work is divided among processes. The objective vanishes exactly for parameters that explain the measurement. The Newton step solves the Levenberg-Marquardt equations of the responses summed over the correctors, also for singular matrices, so that it minimises the summed residuals and hits the exact parameters in one step if the sums are independent; deviations that cancel in the sum are not seen, a common weight w makes the step longer by its square root, masking out leading groups uses wrong slices of the jacobian, and with the default useIdealRing=True the quadrupole slices do not depend on the quadrupole (findings). Weights given as a matrix enter the objective with the root of each entry, for a diagonal matrix as one weight per monitor; response matrices of different shapes are refused with ValueError.  Without any quadrupole the complete jacobian is refused (ValueError).  Different numbers of parameters and slices (neither of them one) are refused (ValueError).", "quantifier": "all group lengths and selections", "why_tests_cant": "all sizes", "anchors": ["pySC/correction/loco.py: _get_parameters_mask", "pySC/correction/loco.py: calculate_jacobian", "pySC/correction/loco.py: loco_correction_ng"]}
{"id": "C61", "title": "Measured closed-orbit response restores the machine but switches the tracking mode", "statement": "After measure_closed_orbit_response_matrix all attributes that are not derived from set-points, the corrector set-points among them, have their initial values when no limit is hit, and the whole machine is back if its fields were up to date. Every column is then the difference quotient of two readings, of the machine with only that corrector kicked and of the machine itself. The tracking mode is left in closed-orbit mode, with one turn and one particle (finding).", "quantifier": "every machine and reading oracle", "why_tests_cant": "loop over arbitrary corrector lists", "anchors": ["pySC/correction/loco.py: measure_closed_orbit_response_matrix"]}
{"id": "C62", "title": "Dispersion measurement restores the RF frequency", "statement": "dispersion with two steps returns with every cavity frequency set-point at its initial value and the frequency following from it, nothing else changed, for every reading oracle (exact arithmetic); the result is the change of the readings between all cavities moved by the step and the initial machine, divided by the step. With any other number of steps it never returns: when all readings succeed the cavities are back at their set-points, and then the least-squares routine refuses its one-dimensional argument (finding). What the scan with more steps has measured before the failure are the readings at cavities moved from minus to plus the step.", "quantifier": "every machine, number of steps and oracle", "why_tests_cant": "loop with arbitrary environment", "anchors": ["pySC/lattice_properties/response_measurement.py: dispersion"]}
{"id": "C63", "title": "Aperture bisection keeps the boundary bracketed", "statement": "Each refinement of the dynamic-aperture search keeps the half of the interval selected by the particle launched at the midpoint and leaves the other coordinates of the reference particle alone; a stability limit stays between the ends, so the mean of the final ends is within half the accuracy and within (initial width)/2^(k+1) of it, and the refinement ends. Scaling widens the interval without crossing zero. But the initial bounds are never found to bracket the limit, hence always scaled 16 times (from 1 mm to over 5e8 m); with tracking results laid out as in pyAT, and in any case with the default arguments, no dynamic aperture is ever returned; no momentum aperture is returned either (apart from the zeros for a missing orbit), its refinement accumulates the trial momenta in the closed orbit and raises for more than one turn (findings). The area is half the sum of the cross products of neighbouring points, without closing the polygon; the two bounds may be given in either order; both trial particles of the bound check start at the upper bound (finding); an orbit that is not finite gives zero momentum apertures everywhere. The momentum deviation asked for is put in the coordinate of the delay (finding).  Asked to launch on the closed orbit, the dynamic aperture raises IndexError (orbit in six dimensions) or ValueError (in four) (finding).", "quantifier": "every monotone stability oracle and initial bracket", "why_tests_cant": "real bisection, arbitrary oracle", "anchors": ["pySC/lattice_properties/apertures.py: _refine_bounds", "pySC/lattice_properties/apertures.py: refine_bounds"]}
{"id": "C64", "title": "Switching cavities and radiation changes only pass methods of the right elements", "statement": "switch_cavity_and_radiation with cavity options changes only cavity pass methods and with radiation options only the matching pass methods; an unknown option raises ValueError before anything changes. Radiation on and off again gives the lattice without radiation, which is the original one exactly where nothing radiated before.", "quantifier": "every lattice and option string", "why_tests_cant": "all lattices", "anchors": ["pySC/core/lattice_setting.py: switch_cavity_and_radiation"]}
{"id": "C65", "title": "The tune fit never succeeds", "statement": "Every call of fit_tune fails and leaves the machine untouched; when the tunes and set-points can be read the failure is a TypeError, because the minimiser is called without its starting point (finding).", "quantifier": "every machine, optics oracle, family list and target", "why_tests_cant": "the claim covers every machine and every optics result", "anchors": ["pySC/correction/tune.py: fit_tune"]}
{"id": "C66", "title": "The chromaticity fit leaves the trial evaluated last, on truncated initial set-points", "statement": "On success of fit_chroma only the given sextupoles' set-points and the fields belonging to them have changed; they equal the trial evaluated last (not the best one) added to the initial set-points without their fractional parts; the solution is not applied (findings). A target with a gap leaves the machine alone. Whatever the outcome nothing else changes. The number reported for the trial left behind is the root mean square distance of the chromaticities of the machine from the goal; a goal of another length is refused.", "quantifier": "every machine, minimiser strategy and chromaticity oracle", "why_tests_cant": "the minimiser is arbitrary", "anchors": ["pySC/correction/chroma.py: fit_chroma"]}
{"id": "C67", "title": "Trajectory BBA gives back injection and set-points and changes only accepted BPM offsets", "statement": "When trajectory_bba returns, the injection settings and all set-points it varied (of the scanned magnets, within their limits, and of the phase-advance quadrupoles) are those from before the call, kicks of combined-function bends used for dipole compensation excepted; of the rest only BPM offsets accepted by apply_bpm_offsets have changed, each by exactly the reported value. A call in the wrong tracking mode or number of turns, with tables of different shape or with a fit order above two raises ValueError with the machine unchanged. Each entry of the table returned is the evaluation of readings taken with the beam displaced by equal fractions of the range and the magnet at the strengths asked for, at the BPM and those downstream, the BPM itself counting as its first downstream BPM (finding).", "quantifier": "every machine, tracking oracle and fit oracle", "why_tests_cant": "nested scans over arbitrary lists with arbitrary beam behaviour", "anchors": ["pySC/correction/bba.py: trajectory_bba", "pySC/correction/bba.py: _data_measurement_tbt", "pySC/correction/bba.py: _phase_advance_injection_scan"]}
{"id": "C68", "title": "The evaluation of a BBA measurement finds the magnetic centre", "statement": "If the downstream positions respond linearly to the magnet strength, with slopes that vanish (fit order 1) or are extremal (fit order 2) at one and the same position x0 at the BPM, then the offset returned by _data_evaluation is exactly x0 - plus bending angle/gradient/length in the horizontal plane without dipole compensation - whichever steps and BPMs survived and whatever the weights, for every fit routine that is exact on polynomials. When no step has complete readings the evaluation fails with ZeroDivisionError instead of reporting it, and without noise, with the magnet behind the BPM, the vanishing error estimate makes every weight infinite (findings). Put together, for a machine whose beam positions respond to the magnet as a lens with centre x0 the whole of trajectory_bba reports x0 and changes the BPM offset by it.", "quantifier": "every data table, number of steps, strengths and BPMs, every exact fit routine", "why_tests_cant": "real data of any size", "anchors": ["pySC/correction/bba.py: _data_evaluation"]}
{"id": "C69", "title": "The result of the optics fit is applied with opposite sign", "statement": "set_correction with method ADD lowers each named set-point by its fit result (within the skew limit), by families every member of family k by value k, and changes no other set-point. select_equally_spaced_elements returns the first element and every step-th after it, step being the length divided by one less than the number asked for, rounded down - at least one less than the number asked for, possibly more; asking for one divides by zero and for more than one above the length raises ValueError (findings).", "quantifier": "every machine, list of results, disjoint families, element list", "why_tests_cant": "arbitrary families and lists", "anchors": ["pySC/correction/loco.py: set_correction", "pySC/correction/loco.py: select_equally_spaced_elements"]}
{"id": "C70", "title": "The measured response matrix is obtained only with a single step", "statement": "response_matrix with any number of steps other than one, in particular the default of two, never returns if there is a corrector; by default it fails at the first corrector with IndexError and leaves that corrector kicked by the amplitude; a beam reach smaller than the reference raises ValueError with the corrector kicked (findings). With one step it returns with all settings as before when the initial set-points are within the limits, and each column holds the changes of the readings divided by the actual change of that corrector, with zero where a reading is missing. An unknown mode fails with KeyError before any kick. In orbit mode a missing orbit at any monitor is refused before any kick. In mode fixedOffset four trials are made, each with the step that by the previous one would change the largest reading by the amplitude, and the step returned is a fifth, not the one the readings belong to (finding).", "quantifier": "every machine, reading oracle, amplitude, corrector and BPM list", "why_tests_cant": "the claims cover every machine and beam behaviour", "anchors": ["pySC/lattice_properties/response_measurement.py: response_matrix", "pySC/lattice_properties/response_measurement.py: _kick_amplitude", "pySC/lattice_properties/response_measurement.py: _try_setpoint"]}
{"id": "C71", "title": "The injection fits measure the launch condition at the lattice start", "statement": "fit_injection_drift returns minus the position and angle of the straight line through the reading of the last BPM of turn one (its position counted back from the end of the lattice) and of the first BPM of turn two; it leaves the machine and the injection unchanged, although it reports a correction, and with readings of one turn raises IndexError (findings). fit_injection_trajectory adds minus the minimiser's result to the first four coordinates of the injection and changes nothing else. Its merit function is the magnitude of the average deviation from the ideal-lattice trajectory, so it is zero whenever the deviations cancel; with plotting, the reading shown as corrected is taken with twice the correction (findings). The deviations are the readings minus the tracked positions of the same plane at the same monitors.", "quantifier": "every machine, reading oracle, minimiser and line fit exact on two points", "why_tests_cant": "the beam and minimiser are arbitrary", "anchors": ["pySC/correction/injection_fit.py: fit_injection_drift", "pySC/correction/injection_fit.py: fit_injection_trajectory", "pySC/correction/injection_fit.py: _merit_function", "pySC/correction/injection_fit.py: _fit_bpm_data"]}
{"id": "C72", "title": "Ramping up errors never succeeds, and its scales would multiply up", "statement": "SCrampUpErrors fails for every machine and leaves it unchanged, because elements are used like dictionaries and the steps return None (finding). scaleInjection applied with an unscaled copy multiplies the injection deviation, the random injection and the beam size exactly by the scale; used as in SCrampUpErrors, where the reference is the scaled machine itself, the scales multiply up, ten steps leaving less than a thousandth of the errors (finding). scaleCircumference sets the length of the ring to the ideal length plus the scale times the difference, by the drifts only. With a section registered the failure is a TypeError.", "quantifier": "every machine, scale and list of scales", "why_tests_cant": "the claims cover every machine", "anchors": ["pySC/correction/ramp_errors.py: SCrampUpErrors", "pySC/correction/ramp_errors.py: scaleInjection", "pySC/correction/ramp_errors.py: scaleCircumference", "pySC/correction/ramp_errors.py: scaleMagnets", "pySC/correction/ramp_errors.py: scaleBPMs", "pySC/correction/ramp_errors.py: scaleRF"]}
{"id": "C73", "title": "The interface to the optics fit applies exactly the damped correction, and mostly fails", "statement": "After apply_lattice_correction the quadrupole component of the set-point of every member of a group is the original value plus damping times (ideal minus fitted value), within the skew limit; no other set-point entry has changed, dipole components of normal members with dipole compensation excepted, and no attribute other than set-points and derived fields. When applyDiagnosticCorrection returns, the calibration error of each monitor has grown by one minus its gain (outliers replaced by one), so an exactly fitted gain calibrates it; with meanToZero the gains average one; rolls are lowered by half the coupling difference; nothing else changes. But it never returns for a number as step, with correctors to fit, with the default outlier limit and gains to fit, or for the structure made by loco_bpm_structure; loco_measurement never returns; loco_fit_parameters fails for any element and loco_cm_structure for its default steps (findings). loco_cm_structure returns steps as given (a number for every corrector) and kicks 2000 times the steps, one per corrector; a sequence holding one array is refused. A sequence of steps that is no list must have exactly one entry.", "quantifier": "every machine, fit result, damping and list of monitors", "why_tests_cant": "arbitrary groups and machines", "anchors": ["pySC/correction/loco_wrapper.py: apply_lattice_correction", "pySC/correction/loco_wrapper.py: applyDiagnosticCorrection", "pySC/correction/loco_wrapper.py: loco_measurement", "pySC/correction/loco_wrapper.py: loco_fit_parameters", "pySC/correction/loco_wrapper.py: loco_bpm_structure", "pySC/correction/loco_wrapper.py: loco_cm_structure"]}
{"id": "C74", "title": "Alignment with orbit bumps never runs to its end, and its measurement leaves the machine changed", "statement": "orbit_bba never returns for tables with an entry, nor without plot_results among its arguments; the machine is as before but for random numbers used. When _data_measurement_orb returns for a magnet order above zero and settings given absolutely or relative to the nominal strength, the injection is as before, but the magnet has been left at the last of its strengths and the correctors of both planes at the last step of the bump, each within its limits; nothing but set-points and derived fields has changed (findings). Turn-by-turn mode, tables of different shapes and fit orders above two are refused with ValueError, a missing structure gives AttributeError and a structure without repeated monitors TypeError, in each case without changing the machine.", "quantifier": "every machine, reading oracle, table, list of strengths and corrector settings", "why_tests_cant": "the claims cover every machine and reading", "anchors": ["pySC/correction/bba.py: orbit_bba", "pySC/correction/bba.py: _get_orbit_bump", "pySC/correction/bba.py: _data_measurement_orb"]}
{"id": "C75", "title": "Orbit correction on a machine with affine response", "statement": "If every reading is an offset plus the true response times the corrector settings, correctors have no limits and no dispersion is used, each step of correct turns the deviation d of the reading from the reference into d minus response times pseudo-inverse times d; if that map shrinks vectors by a factor q, the deviation after k steps is at most q^k times the first one. If the pseudo-inverse undoes the first deviation, every reading from the second on is exactly the reference. Such a perfect zero orbit is a constant history, which is never accepted: with more than one step allowed correct then returns only if the squared rms of the first orbit was below 12.5 eps^2 (finding).", "quantifier": "every machine, response, reference and matrix", "why_tests_cant": "all responses, machines and numbers of steps", "anchors": ["pySC/correction/orbit_trajectory.py: correct", "pySC/correction/orbit_trajectory.py: _is_stable_or_converged"]}
{"id": "C76", "title": "The Matlab-style set-point functions are the Python ones", "statement": "SCgetCMSetPoints, SCsetCMs2SetPoints and SCsetMags2SetPoints reject a dimension or type other than 1 and 2 with ValueError and leave the machine as it was. Otherwise the dimension 1 is horizontal and 2 vertical, the type 1 skew and 2 normal, the order counts from one; SCsetCMs2SetPoints returns the set-points the correctors have afterwards, which are the requested ones clipped to the corrector limits. The machine after the call is that after the Python function.", "quantifier": "every machine, list of elements, dimension, type, order and mode", "why_tests_cant": "all machines and arguments", "anchors": ["pySC/matlab_index.py: SCgetCMSetPoints", "pySC/matlab_index.py: SCsetCMs2SetPoints", "pySC/matlab_index.py: SCsetMags2SetPoints"]}
{"id": "C77", "title": "The Matlab-style RF corrections: one always fails, one runs with its own number of turns", "statement": "SCsynchEnergyCorrection raises TypeError for every machine and all arguments, as it passes on an argument that correct_rf_frequency does not have, and leaves the number of turns changed (finding). SCsynchPhaseCorrection, when it returns, has corrected as correct_rf_phase does with the given number of turns and restores the number of turns the machine had; when the correction fails, the given number of turns stays (finding).", "quantifier": "every machine and arguments", "why_tests_cant": "the claims cover all machines", "anchors": ["pySC/matlab_index.py: SCsynchEnergyCorrection", "pySC/matlab_index.py: SCsynchPhaseCorrection", "pySC/correction/rf.py: correct_rf_frequency"]}
{"id": "C78", "title": "The Matlab-style feedback functions invert a pseudo-inverse back", "statement": "SCfeedbackFirstTurn, SCfeedbackStitch, SCfeedbackBalance and SCfeedbackRun take a pseudo-inverse, invert it and have it inverted again. If the matrix is given with its singular value decomposition and no truncation or regularisation, the matrix used in the end is exactly the one given, also for rank-deficient matrices, so the settings after each step are lowered by the given matrix times the deviation; the conclusions on first turn, stitching, balance and correction hold for the wrappers.", "quantifier": "every matrix, machine and argument", "why_tests_cant": "all matrices, in exact arithmetic", "anchors": ["pySC/matlab_index.py: SCfeedbackFirstTurn", "pySC/matlab_index.py: SCfeedbackStitch", "pySC/matlab_index.py: SCfeedbackBalance", "pySC/matlab_index.py: SCfeedbackRun", "pySC/utils/sc_tools.py: pinv"]}
{"id": "C79", "title": "Multipole errors are stored as given, but systematic ones share the array of the caller", "statement": "When set_systematic_multipole_errors returns, both tables (skew and normal target) driven by the given component hold, under the main order, the column of that component with the entry of the main order zero; other orders, tables, magnets and attributes are unchanged; wrong shapes and orders are refused without a change. The other column has no effect and both targets get the same multipoles (finding). When set_random_multipole_errors returns, the normal and skew field offsets of each magnet have grown by its own numbers from the stream, at most two in size, times columns 0 and 1 of the table, and nothing else has changed. SCsetMultipoles does the same with columns in the order skew, normal, type 1 skew and 2 normal and orders from one. The array given to set_systematic_multipole_errors is modified, and a second call with the same array changes the multipoles stored by the first (finding).", "quantifier": "every machine, list of magnets, table, order and component", "why_tests_cant": "all tables and machines", "anchors": ["pySC/core/simulated_commissioning.py: set_systematic_multipole_errors", "pySC/core/simulated_commissioning.py: set_random_multipole_errors", "pySC/matlab_index.py: SCsetMultipoles"]}
{"id": "C80", "title": "The Matlab-style transformation of a magnet", "statement": "SCgetTransformation refuses the reference point center with NotImplementedError. For any other reference point it returns exactly the transformation that update_transformation stores on a magnet of the given length and bending angle with these offsets in total and these angles about the axes x, y and z in total.", "quantifier": "all offsets, rolls and lengths", "why_tests_cant": "all real values", "anchors": ["pySC/matlab_index.py: SCgetTransformation", "pySC/utils/sc_tools.py: update_transformation"]}
{"id": "C81", "title": "Choosing a procedure by name", "statement": "SCBBA runs trajectory_bba for mode TBT and orbit_bba for mode ORB and does nothing for any other mode (finding); without a mode it fails with KeyError. SCfitInjectionZ runs the fit named and refuses other names with ValueError. SCpseudoBBA brings every monitor of the table within twice the given size from its magnet whatever the argument sigma (finding), changes nothing but the offsets of the monitors of the table, and refuses a missing size with ValueError.", "quantifier": "every machine, mode and argument", "why_tests_cant": "all machines and names", "anchors": ["pySC/matlab_index.py: SCBBA", "pySC/matlab_index.py: SCfitInjectionZ", "pySC/matlab_index.py: SCpseudoBBA"]}
{"id": "C82", "title": "A whole commissioning campaign changes only what its calls address, and keeps limits", "statement": "Take any sequence of calls of the correction, lattice, measurement and set-point functions, with any arguments, in any order, each returning or raising. Afterwards the design ring, the uncertainties, the registry, the number of elements, beam size, design injection, injection jitter, number of shots and the loss threshold are the same; the injection is the same unless a call that moves it was made (synchronous phase or energy of the Matlab interface, trajectory based alignment, closed orbit measurement, injection fit); and an attribute of an element can only differ if it is a normal or skew set-point of a magnet named in a call or taken from the registry by it, a field of such a magnet or of its split parts, a set-point or a physical value of a cavity so used, the offset of a monitor in an alignment table, or the calibration or roll of a monitor in a diagnostic correction. Errors, calibration of magnets, limits, supports and geometry therefore never change. Correctors within their limits stay within them if no magnet call is aimed at order 0, and skew quadrupoles within theirs always do; a magnet call of order 0 can leave the limit (finding).", "quantifier": "every machine, every finite sequence of 29 kinds of calls, all arguments, all results of tracking, fits and optics", "why_tests_cant": "no test enumerates sequences of calls with arbitrary tracking results and failures in the middle", "anchors": ["pySC/correction/orbit_trajectory.py: correct", "pySC/correction/rf.py: correct_rf_phase", "pySC/correction/tune.py: tune_scan", "pySC/correction/bba.py: trajectory_bba", "pySC/correction/loco_wrapper.py: apply_lattice_correction", "pySC/lattice_properties/response_measurement.py: response_matrix", "pySC/core/simulated_commissioning.py: set_magnet_setpoints"]}
{"id": "C83", "title": "The check of a machine accepts and warns exactly as described", "statement": "verify_structure changes nothing. It returns exactly if: there are girders or neither plinths nor sections; every registered corrector has a limit for its plane; every registered magnet has normal and skew fields of equal length, set-points as many as calibration errors, field offsets of equal length if any, a bending angle and a nominal quadrupole field if it is combined-function, a record of uncertainties, and no split parts; every registered cavity has a record of uncertainties and, if any is registered, exists; the beam matrix is 6 by 6 and the injection uncertainties have six entries. When it returns, a warning is logged if and only if it is deserved: no or repeated monitors, correctors or cavities, a zero limit, zero nominal field or angle of a combined-function magnet, an uncertainty of a field that the element lacks, elements with two kinds of apertures, no aperture at all. No warning of repeated registration can occur after any sequence of calls. A machine with bare elements set up by registration calls that all returned, with no split or combined-function magnets, is accepted unless plinths or sections are registered without girders. A machine with split magnets is never accepted (finding): the loop over the parts iterates a lattice element and raises TypeError. An uncertainty of a cavity set-point is registered under a name that never exists on the element and always gives a warning (finding).", "quantifier": "every machine, every sequence of registration calls", "why_tests_cant": "the claim is an equivalence over all machines", "anchors": ["pySC/core/simulated_commissioning.py: verify_structure", "pySC/core/simulated_commissioning.py: register_magnets", "pySC/core/constants.py: RF_ERROR_FIELDS"]}
{"id": "C84", "title": "Multipole tables are read with the columns swapped and only with one unit entry", "statement": "read_multipoles splits the text at white space into numbers, three to a row, and returns for every row the third and the second number, the row of the only entry (of the second and third numbers) that is exactly one as the order, and its column, 0 or 1, as the type. Words that are no numbers raise ValueError, a number of numbers that is no multiple of three gives None. Without such an entry, or with several, the call announces that it goes on and fails with TypeError; the first number of a row is not looked at; the type is 0 for skew and 1 for normal magnets, so given as skewness to set_systematic_multipole_errors it installs the other column, and the Matlab interface refuses it for skew magnets (findings). With the skewness 'type is zero' exactly the column of the unit entry, without that entry, is installed. ords_from_regex returns exactly the ordinates of the elements whose names match, in increasing order.", "quantifier": "for all texts, all meanings of words as numbers, all machines, all name patterns", "why_tests_cant": "There is no sample of such a file in the repository, and no test reads one; the confusion of types shows only in the field of a machine with an unsymmetric table.", "anchors": ["pySC/utils/sc_tools.py: ords_from_regex", "pySC/utils/sc_tools.py: read_multipoles", "pySC/core/simulated_commissioning.py: set_systematic_multipole_errors", "pySC/matlab_index.py: SCmultipolesRead"]}
{"id": "C85", "title": "The circular mean is the nearest point of the circle and its error follows from the coherence", "statement": "circular_mean answers unless there are no data, the period is zero or usable errors differ in number from the data. The answer lies in the period about zero (the lower end excluded); the sines of the weighted deviations from it cancel and the cosines do not point away from it, and, unless the vectors cancel, it is the only such number up to whole periods; no other number has a smaller weighted sum of squared chords to the data. Whole periods added to data change neither mean nor error; moving all data moves the mean; data within less than half a period have their mean between them; equal data are their mean. circular_error is the length of the average of the unit vectors L put into sqrt((1-L^2+1/sum of weights) N/(N-1))/L as a phase, N the effective sample size, at least 2, times Student's quantile if asked for; beyond a quarter period, or if L is zero, three tenths of the period. Data agreeing up to whole periods have the error zero. The nan-variants of the means and of the rms ignore missing values with their errors, and without missing values are the plain functions. Findings: data that cancel have the mean zero wherever they are; circular_nanerror counts missing values as data, so the more is missing the smaller the error; circular_rms of equal data is their magnitude divided by the root of the period, NaN if the magnitude is between 1/sqrt 2 and 1 periods.", "quantifier": "for all data, errors, periods, angle and quantile functions with the usual specification", "why_tests_cant": "The claims are about all real data; tests compare a few arrays with tolerances and use period 1, for which the finding on circular_rms does not show.", "anchors": ["pySC/utils/stats.py: circular_mean", "pySC/utils/stats.py: circular_nanmean", "pySC/utils/stats.py: circular_error", "pySC/utils/stats.py: circular_nanerror", "pySC/utils/stats.py: circular_rms", "pySC/utils/stats.py: weighted_nanmean", "pySC/utils/stats.py: weighted_nanrms"]}
{"id": "C86", "title": "The transformation of a misaligned magnet is the change to its own frame, to first order", "statement": "Take the straight line through the design entrance plane with given positions, momenta and momentum deviation, and the point where it crosses the entrance plane of the magnet displaced by the sum of its offsets and turned by the sum of its angles (about z, then y, then x); as a map of the six coordinates, positions, momenta, deviation and path length, its value for the design particle and its derivative in every direction are those of R1 (v + T1) with the arrays that update_transformation writes. Likewise R2 v + T2 for the way from the exit of the magnet, at the end of its arc, to the design exit. Nothing else on the element changes. Such crossings compose, so a straight magnet without field, wherever it is, does nothing.", "quantifier": "for all offsets, angles, lengths and bending angles for which the call returns, all directions of derivatives", "why_tests_cant": "The claim is about derivatives of a geometric map in all directions at all misalignments; numerical tests can only compare finite differences at samples.", "anchors": ["pySC/utils/sc_tools.py: update_transformation", "pySC/utils/sc_tools.py: rotation", "pySC/utils/sc_tools.py: _translation_vector", "pySC/utils/sc_tools.py: _r_matrix"]}
{"id": "C87", "title": "The figure of the supports shows every structure where it stands, if all have an end in view", "statement": "In the figure of plot_support the line of the offset of a registered structure covers exactly the places the structure occupies, following the beam also across the end of the lattice, and there it is the straight line between the offsets of its two ends; the line of its roll is level; both in micrometres or microradians. For a structure that stands alone it passes through the displacements that support_offset_and_roll reports. Without limits these lines can be drawn for every machine with equipped structures. Finding: with limits they can exactly if every registered structure has an end within them; otherwise drawing fails with IndexError, because the data found in range are looked up with the number of the structure among all. (What the rest of the figure needs besides is C106.)", "quantifier": "for all machines with lengths that are not negative, all registered structures, all limits", "why_tests_cant": "Figures are not compared in tests; the failure depends on the range and the set of structures.", "anchors": ["pySC/plotting/plot_support.py: plot_support", "pySC/plotting/plot_support.py: _plot_support"]}
{"id": "C88", "title": "The phase space figure shows each particle relative to the cavity", "statement": "plot_phase_space draws each particle for every turn at its own coordinates, positions and angles in millionths, momentum in hundredths, the path relative to the slippage of the cavity if it is switched on, and leaves out lost particles; the injection point is drawn alike; only random numbers are used up. A particle that keeps step with the cavity is drawn in one point. A bunch together with a number of particles and a bunch without six rows raise ValueError; without a registered cavity the call fails with IndexError (finding).", "quantifier": "for all machines, bunches, numbers of turns and all results of tracking", "why_tests_cant": "The claim quantifies over tracking results; figures are not tested.", "anchors": ["pySC/plotting/plot_phase_space.py: plot_phase_space", "pySC/plotting/plot_phase_space.py: _check_input"]}
{"id": "C89", "title": "Messages of the program are written once, to the right stream, and debug mode leaves no trace but one", "statement": "After the main program has called get_logger, a message of any module at or above the console level asked for (and at least 10) is written exactly once, to the error stream from level 40 on and to standard output below; other messages are not written. Calling it again replaces the handlers; calls from modules change nothing. The logger of a file of the package is named after its directories and its name. Within DebugMode every message of the caller from level 10 on also goes to the log file, and those of level 10 also to standard output (twice if the console shows them anyway). After it every message is written as before. Finding: the logger keeps as its own the level that it had only inherited, so it no longer follows changes of the level of the root.  A stream handler passes exactly the levels from its own to its maximum, both included; a maximum of zero counts as none.", "quantifier": "for all loggers, levels, names and sequences of calls", "why_tests_cant": "Tests would have to capture streams for all levels and states of the logging system.", "anchors": ["pySC/utils/logging_tools.py: get_logger", "pySC/utils/logging_tools.py: DebugMode", "pySC/utils/logging_tools.py: stream_handler", "pySC/utils/logging_tools.py: _get_caller_logger_name"]}
{"id": "C90", "title": "The figures of the lattice show ranges, apertures, outlines and corrector strengths as they are", "statement": "The range shown is the one asked for; else from the first to the last of the listed elements; else the first of the sectors; else the stored one. The lines of apertures consist of the lower limits of the places shown, a gap and the upper limits, in millimetres, without those beyond the cut. Outlines reach from the entrance to the exit of each dipole, quadrupole and sextupole, with a peak or a notch by the sign of the field; monitors are a line at their place, and so are multipoles, whose own shape is never used (finding). The bars of the corrector figure stand at the entrances of the correctors, as high as their kicks in microradians; the line below has its corners at equal steps between the weakest and the strongest and shows there the fraction of the correctors that are weaker, ending at one; without correctors in one plane the figure fails with ValueError (finding).", "quantifier": "for all machines, ranges, kinds of elements, apertures and set-points", "why_tests_cant": "Figures are not tested; the claim about fractions is about all lists of set-points.", "anchors": ["pySC/plotting/plot_lattice.py: _get_s_range", "pySC/plotting/plot_lattice.py: plot_cm_strengths", "pySC/plotting/plot_apertures.py: plot_data_apertures", "pySC/plotting/plot_synoptic.py: plot_synoptic"]}
{"id": "C91", "title": "The jacobian with dispersion adds one column to every quadrupole slice, which does not depend on the quadrupole", "statement": "If calculate_jacobian with includeDispersion and without the gains returns, it returns one slice per quadrupole, each with one more column than the model matrix; the other columns are those returned without dispersion for the same arguments and machine. Entry (BPM, plane) of the added column is the difference of two dispersions of the design lattice (change of the closed orbit by the detuning of all given cavities over the step): the one found with rf_step and the one found with step 1000, divided by the change of the quadrupole. Findings: the column is therefore the same for all quadrupoles, and zero with the default rf_step; with the gains (the default full_jacobian) the call never returns, and raises ValueError whenever it would return without them; without cavities (the default) it raises TypeError if the design lattice has a closed orbit.", "quantifier": "for all machines, quadrupoles, divisions among processes, correctors, BPMs, cavities, steps, modes and all results of tracking", "why_tests_cant": "The claim compares two calls for every tracking function; the findings concern defaults that no test exercises.", "anchors": ["pySC/correction/loco.py: calculate_jacobian", "pySC/correction/loco.py: generating_quads_response_matrices", "pySC/lattice_properties/response_model.py: SCgetModelDispersion"]}
{"id": "C92", "title": "The beta beat is the root mean square of the relative deviation of the beta functions, plane by plane", "statement": "model_beta_beat returns numbers exactly if there are as many elements as reference values, at least one, and no reference is zero. Each number is the non-negative root of the mean square of (beta - reference)/reference in its plane; it is zero exactly if all beta functions of the plane equal the reference, at most d if each is within the fraction d of the reference, and exactly |d| if all of them are changed by the same fraction d.", "quantifier": "for all lattices, reference values, elements and optics functions", "why_tests_cant": "Bounds and the exact condition for zero are claims about all optics.", "anchors": ["pySC/correction/loco.py: model_beta_beat"]}
{"id": "C93", "title": "The parts of a split magnet stand where the magnet stands only if it is not tilted", "statement": "After update_supports every part of a registered split magnet (that belongs to no other magnet and is not registered itself) carries the arrays R1, T1, R2, T2 that update_transformation computes from the first part alone: its own length, angle, offsets and rolls. For a straight magnet these describe, to first order, the way into the magnet at a distance d behind its entrance exactly if d = 0 or the axis of the magnet points along the beam, and the way out of it at a distance d exactly if d is the length of the first part or the axis points along the beam. Otherwise (pitch or yaw, finding) the design particle enters the part off by d times the slope of the magnet in each plane: the magnet is a staircase of parallel pieces, not a tilted whole. In a bending magnet that is shifted but not turned (finding) the copied entrance is right exactly for vertical shifts, or if the first part bends by whole turns.", "quantifier": "for all machines, split magnets, offsets, angles, lengths and distances for which the call returns", "why_tests_cant": "An equivalence over all distances and misalignments; the deviation is invisible without a geometric reference.", "anchors": ["pySC/core/simulated_commissioning.py: SimulatedCommissioning.update_supports", "pySC/utils/sc_tools.py: update_transformation"]}
{"id": "C94", "title": "Set-point calls on a machine in good order always return, and keep it in good order", "statement": "Say a magnet is in good order if its set-points, nominal fields and calibration errors have matching lengths, its multipole tables address existing components, its limits have the right shape, a magnet that steers or bends has a length (or is a thin corrector), and its parts likewise; a cavity if its set-points, calibration errors and offsets are numbers. Then every call of set_cm_setpoints, set_magnet_setpoints, set_cavity_setpoints, update_magnets, update_cavities and every choice of a tracking mode with a documented method, one set-point or one per element and an existing component returns (a documented tracking mode likewise), leaves registrations and the number of elements alone, and leaves acceptable every call that was. So no call of any history of such calls fails. Registration brings designed magnets and cavities into good order, and apply_errors keeps acceptable calls acceptable, whether it returns or raises, provided the uncertainties have the right shapes.", "quantifier": "for all machines, histories of calls, set-points, elements, methods, random numbers", "why_tests_cant": "A liveness claim about histories of any length and order; tests only see single calls on one lattice.", "anchors": ["pySC/core/simulated_commissioning.py: SimulatedCommissioning.set_cm_setpoints", "pySC/core/simulated_commissioning.py: SimulatedCommissioning.set_magnet_setpoints", "pySC/core/simulated_commissioning.py: SimulatedCommissioning.set_cavity_setpoints", "pySC/core/simulated_commissioning.py: SimulatedCommissioning.update_magnets", "pySC/core/simulated_commissioning.py: SimulatedCommissioning.apply_errors"]}
{"id": "C95", "title": "Freshly registered BPMs read the beam and freshly registered cavities are as designed", "statement": "register_bpms returns exactly if all keywords are documented and all ordinates are in the lattice; then every registered BPM has zero noise, offsets, rolls, calibration and sum errors, whatever it had before, and nothing else of the lattice changes. Each reading of a shot taken then is the mean position of the particles that arrive, its sum signal the fraction of them, and both are missing when this fraction is below the threshold for lost beam. register_cavities returns exactly if all keywords are documented and all ordinates are elements with voltage, frequency and time lag; then the set-points are the values in the lattice, offsets and calibration errors zero, nothing else changes, and (for numeric values) update_cavities changes nothing at all. Findings: a BPM registration with an ordinate outside of the lattice raises IndexError but leaves the ordinate registered; registering again undoes errors that were applied.", "quantifier": "for all machines, ordinates, keywords, bunches and all results of tracking", "why_tests_cant": "Claims about all beams and all earlier states of the elements; the exact condition of success cannot be sampled.", "anchors": ["pySC/core/simulated_commissioning.py: SimulatedCommissioning.register_bpms", "pySC/core/simulated_commissioning.py: SimulatedCommissioning.register_cavities", "pySC/core/beam.py: bpm_reading", "pySC/core/simulated_commissioning.py: SimulatedCommissioning.update_cavities"]}
{"id": "C96", "title": "The corrections stop at the first reading that meets their criterion", "statement": "If first_turn or stitch returns, the last five readings saw beam at all BPMs and turns, and this was so at no earlier reading. If balance returns, the spread of the rms of both planes over the last five readings is positive and below eps, and was so at no earlier reading. Say an orbit correction of at most maxsteps steps has settled if the spread over the last five readings is positive and below eps, or the one over the last min(5, maxsteps) readings is and both rms of the last reading are below the target. If correct returns, no earlier reading after a step had it settled, and at the last it has, or all maxsteps steps were made and the spread over min(5, maxsteps) readings is positive and below eps, or maxsteps is 1. SCfeedbackBalance and SCfeedbackRun stop by the same criteria with the eps and target given to them.", "quantifier": "for all machines, response matrices, references, correctors, BPMs, criteria and all results of tracking for which the call returns", "why_tests_cant": "That no earlier reading met the criterion is a claim about every prefix of every run; swapped thresholds only show on runs of particular spread and size.", "anchors": ["pySC/correction/orbit_trajectory.py: first_turn", "pySC/correction/orbit_trajectory.py: stitch", "pySC/correction/orbit_trajectory.py: balance", "pySC/correction/orbit_trajectory.py: correct", "pySC/matlab_index.py: SCfeedbackRun"]}
{"id": "C97", "title": "The fields follow the set-points through every campaign", "statement": "Say a machine is in step if computing all fields and all cavity values again works and changes nothing, and in good order if its registered magnets and cavities have all attributes of the right kind and no element is powered by two magnets. After any campaign - set-point calls on magnets, correctors and cavities, trajectory and orbit corrections, tune scans, RF corrections, beam-based alignment - addressed to registered elements that can take what is asked, a machine in order and in step is in order and in step again, with whatever arguments and however each call ends. So every powered element has the field that the set-points, calibrations and errors give (C17), every cavity has voltage, frequency and time lag set-point*(1+CalError)+Offset. Both updates bring a machine in good order in step, and a successful apply_errors does (with cavities registered with uncertainties, else their update is skipped); good order survives any apply_errors. Finding: a corrector call that raises at its second element has changed the first set-point but not the field.", "quantifier": "for all machines in good order, all finite sequences of calls with all arguments, all results of tracking and fitting and all random numbers", "why_tests_cant": "The claim is about every sequence of calls including those which raise half way; tests look at the fields after single successful calls.", "anchors": ["pySC/core/simulated_commissioning.py: SimulatedCommissioning.update_magnets", "pySC/core/simulated_commissioning.py: SimulatedCommissioning.update_cavities", "pySC/core/simulated_commissioning.py: SimulatedCommissioning.set_cm_setpoints", "pySC/core/simulated_commissioning.py: SimulatedCommissioning.set_magnet_setpoints", "pySC/core/simulated_commissioning.py: SimulatedCommissioning.set_cavity_setpoints", "pySC/core/simulated_commissioning.py: SimulatedCommissioning.apply_errors"]}
{"id": "C98", "title": "The figures of beam-based alignment show every BPM at its place", "statement": "For tables of equal shape, plot_bba_results draws exactly if there are at most two planes and each lists registered BPMs, each once; otherwise it raises IndexError. In a plane that lists its BPMs in increasing order every BPM has exactly one mark, at its position among all registered BPMs, with offset and error in micrometres, in the series of successes if apply_bpm_offsets takes the offset over and in that of failures if not. Finding: the positions are sorted whatever the order of the list, so that with all offsets accepted each mark stands at its own BPM only if the list is increasing. plot_bpm_offsets_from_magnets marks every BPM of an increasing list once at its position, with its distance from its magnet, as failed exactly if flagged; with six BPMs or more per plane its line is a histogram with width/3 - 1 bins at equal steps between 1.1 times the greatest distance to either side, in which every BPM is counted in exactly one bin, drawn at the upper edge. Findings: from two to five BPMs per plane the line is empty, and with one BPM the point lies half a metre beside the distance.", "quantifier": "for all machines, all tables of BPMs and magnets, all offsets and errors including missing ones, all flags", "why_tests_cant": "A mark at the wrong BPM shows only to someone who compares figure and numbers; no test looks into a figure, and the orders and numbers of BPMs for which it is wrong are unbounded.", "anchors": ["pySC/correction/bba.py: plot_bba_results", "pySC/correction/bba.py: plot_bpm_offsets_from_magnets", "pySC/correction/bba.py: is_bba_errored", "pySC/correction/bba.py: _get_bpm_offset_from_mag"]}
{"id": "C99", "title": "The figures of the tune scan show the measured transmission, on exchanged axes", "statement": "plot_transmission draws one point per turn at the surviving fraction in percent, inside its axes; exactly as many of the points lie above the dotted line as beam_transmission reports turns. tune.tune_scan with do_plot performs the same scan as without (it returns where that does if there is a turn to show, with the same set-points and results and one pair of figures per step); after each step the images show, at row q1 and column q2, the latest number of turns and final transmission (in percent) measured with the first family at its setting q1 and the second at q2, nothing elsewhere. Finding: the axes are exchanged - the horizontal axis, along which the second family varies, carries the name and the relative changes of the first family, and the labels of the second family's changes stand at the tick positions of the first.", "quantifier": "for all machines, tracking results, families, lists of settings (of any two lengths), scan orders, numbers of turns and targets", "why_tests_cant": "Nothing in a test looks at a figure, and with equal numbers of settings and a symmetric scan the exchanged axes look right; the wrong combinations of lengths and orders are unbounded.", "anchors": ["pySC/correction/tune.py: plot_scan", "pySC/correction/tune.py: tune_scan", "pySC/core/beam.py: plot_transmission"]}
{"id": "C100", "title": "The figures of the RF scans show the data the correction was computed from", "statement": "correct_rf_phase and correct_rf_frequency with plot_results return where they do without it and leave the machine the same, and the final figure shows the surviving measurements, the fitted curve at the same settings, the fitted value at zero as \"Initial\" and the applied correction at height zero as \"Corrected\": in degrees of RF phase (every measurement within [-180, 180], the correction in (-180, 180], on the fitted curve if the solver's root is one) or in kHz (on the fitted line, or at zero if the fit is too imprecise). With plot_progress the scan is the same and there is one figure per setting, showing the turn-by-turn shift just measured with the line of its slope (or of the last slope that could be determined) and all results so far. Finding: with plot_progress the scan fails with an IndexError if the beam is lost too early at the first setting, where the scan without figures only leaves a gap.", "quantifier": "for all machines, tracking results, cavities, BPMs, numbers of steps, ranges, fits and solvers", "why_tests_cant": "A figure is not inspected by tests; the failure needs a beam lost at precisely the first setting, and the folding of the phase must hold for every wavelength and every root.", "anchors": ["pySC/correction/rf.py: _plot_progress", "pySC/correction/rf.py: _plot_results", "pySC/correction/rf.py: correct_rf_phase", "pySC/correction/rf.py: correct_rf_frequency", "pySC/correction/rf.py: _get_tbt_energy_shift"]}
{"id": "C101", "title": "Polar coordinates and the automatic angles of the dynamic aperture", "statement": "cart2pol returns a radius that is not negative and an angle in (-pi, pi], and pol2cart takes them back to the point; pol2cart followed by cart2pol gives back every positive radius and every angle in (-pi, pi]; a boundary point centred on the orbit is the vector from the orbit to the point. _autothetas, given radii whose horizontal mean a exceeds the vertical mean b > 0, returns the angles of nt points spread evenly in the eccentric anomaly over an ellipse with half axes in the ratio a : b, beginning and ending at angle 0. Findings: for an aperture at least as high as wide (b >= a) there are no such angles (NaN or infinite eccentricity); and SCdynamicAperture with auto > 0 never returns a result, because the search of the four radii is itself centred on an orbit in a form it cannot use.", "quantifier": "for all points, radii, angles, numbers of angles, tracking results and arguments", "why_tests_cant": "Round trips of angles fail only at particular quadrants and on the cut at -pi; the shape of the ellipse needs exact identities between hyperbolic and circular functions, and that a call never returns cannot be tested.", "anchors": ["pySC/lattice_properties/apertures.py: cart2pol", "pySC/lattice_properties/apertures.py: pol2cart", "pySC/lattice_properties/apertures.py: _autothetas", "pySC/lattice_properties/apertures.py: SCdynamicAperture"]}
{"id": "C102", "title": "Each BPM is aligned at the phase advance with the largest range, unless the beam misses it", "statement": "When trajectory_bba returns, the ranges of all BPMs in a plane have been measured at every setting q_ord_setpoints of the phase-advance quadrupoles (each at q times its nominal strength, whatever the settings tried before), with the injection scaled so that the beam reaches the last BPM of the row of bpm_ords; and every entry of the table comes from readings taken with the quadrupoles at the setting chosen for this BPM and the injection scaled as at this setting. For a BPM not beyond that last one all ranges are numbers and the setting chosen is the first with the largest range. Finding: if the last BPM listed is not the last in the ring, a BPM beyond it may have no range at some setting, and then exactly such a setting is chosen (a missing value wins the maximum), one at which the beam does not arrive at the BPM; an alignment that succeeds with the good setting alone then fails.", "quantifier": "for all machines, tracking results, tables of BPMs and magnets, lists of settings and fits", "why_tests_cant": "The choice is not visible in the result; it goes wrong only for lists of BPMs not in the order of the ring together with losses at one setting.", "anchors": ["pySC/correction/bba.py: trajectory_bba", "pySC/correction/bba.py: _phase_advance_injection_scan", "pySC/correction/bba.py: _scale_injection_to_reach_bpms"]}
{"id": "C103", "title": "The figure of a BPM reading shows the reading, turn after turn", "statement": "With SC.plot set, bpm_reading returns the same as without and leaves the machine the same; it returns whenever it does without a figure, if the apertures of all elements have two (EApertures) or four (RApertures) entries. Per plane the figure has exactly one mark per turn and BPM asked for, at (number of the turn) * circumference + position of the BPM, with the reading in millimetres (none where there is no reading); in the pseudo-orbit mode the marks show the single turns and the value returned for a BPM is their mean weighted by the sum signal. The apertures are drawn in every turn at the entrance of each element that has one, in millimetres and with the limits of this plane, and nowhere else; dotted lines stand where the turns begin, and the horizontal axis spans exactly all turns. all_elements_reading draws in addition, for every shot, all particles at the entrance of every element and at the end of the ring in every turn. Findings: of an element with both kinds of aperture only the elliptic one is shown, even if the rectangular one is tighter; an aperture of another shape makes every reading with a figure fail; the vertical axis is fixed to 15 mm to either side whatever the readings.", "quantifier": "for all machines, tracking results, random numbers, modes, lists of BPMs, numbers of turns, shots and particles", "why_tests_cant": "Figures are not inspected by tests; marks of one turn drawn at the place of another, or of one BPM at another, show only with several turns and uneven spacing.", "anchors": ["pySC/core/beam.py: _plot_bpm_reading", "pySC/core/beam.py: _plot_all_trajectories", "pySC/core/beam.py: _plot_annotations_and_limits", "pySC/core/beam.py: _get_ring_aperture", "pySC/core/beam.py: bpm_reading", "pySC/core/beam.py: all_elements_reading"]}
{"id": "C104", "title": "The figures of the injection fits show readings and lines where they belong, but the corrected trajectory mirrored", "statement": "fit_injection_drift with plot returns the same as without and leaves the machine the same (and returns whenever that does, for planes 0 and 1 and an injection of at least four coordinates). For every plane asked for it shows the reading of the last BPM in turn one at its position minus the length of the lattice, the reading of the first BPM in turn two at its position, a dashed line through both points exactly (with a line fit that is exact on two points), and the line z + z'*s of the coordinates SC.INJ.Z0, all in millimetres. fit_injection_trajectory with plot shows, at the positions of the BPMs asked for, the readings taken before the fit and as \"After correction\" those taken with twice the correction. Finding: if the readings depend affinely on the injected coordinates, each point \"After correction\" is twice the corrected reading minus the initial one, so that a perfect correction is shown as the initial trajectory with opposite sign.", "quantifier": "for all machines, readings, line fits exact on two points, minimisers, lists of planes and of BPMs", "why_tests_cant": "Figures are not inspected by tests; that the fitted line meets the marks must hold for all readings and positions, the mirror image for all corrections.", "anchors": ["pySC/correction/injection_fit.py: fit_injection_drift", "pySC/correction/injection_fit.py: fit_injection_trajectory"]}
{"id": "C105", "title": "The figure of the lattice shows the design lattice and, if it fails, leaves its range of view behind", "statement": "The outlines drawn by plot_synoptic for horizontal and vertical correctors, skew quadrupoles and monitors stand where the design lattice has the registered elements, from the entrance to nine tenths (vertical: 95 hundredths) of the length, up, down, with a peak or notch by the sign of the skew field, or as lines; with names, the first ten letters stand a quarter of the length behind the entrance of every element with a normal field. When plot_lattice returns, the limits are the range asked for, and the range stored with each lattice and the font size of matplotlib are as before. When it fails, the font size stays, and once a range was found the lattice keeps it, so that a later figure without a range shows only that part (finding). SCplotLattice without a range always fails with IndexError, because its default, an empty list, counts as a range, and leaves the font size changed (finding). plot_cm_strengths and plot_support restore the font size only if they draw; the figures of beam-based alignment leave it at 10 (findings).", "quantifier": "every machine, range, list of elements, number of sectors, state of the view and result of the optics", "why_tests_cant": "Figures are not tested; the state left behind shows only in a later figure, after a failure.", "anchors": ["pySC/plotting/plot_lattice.py:plot_lattice", "pySC/plotting/plot_synoptic.py:plot_synoptic", "pySC/matlab_index.py:SCplotLattice", "pySC/correction/bba.py:plot_bba_results", "pySC/correction/bba.py:plot_bpm_offsets_from_magnets"]}
{"id": "C106", "title": "The figure of the supports shows the misalignments of magnets and monitors, but needs two metres and turns the longitudinal offset round", "statement": "When plot_support returns, the figure has three rows of panels (x and roll, y and pitch, z and yaw). Each shows one mark per registered magnet at its entrance, in micrometres or microradians: the offset and roll of its supports, its own, the overall roll (the sum of both) and the overall offset (component 0, 2 or 5 of T2); and one per registered monitor: its own offset and roll and those of its supports, zero where it has none (longitudinal, pitch, yaw). The overall supports are drawn in steps between evenly spaced places from one limit to the other (100 per two whole metres), each step as high as support_offset_and_roll at its beginning; the lines of the structures are those of C87. Findings: there is no figure without registered magnets (IndexError), without registered monitors (ValueError), or with limits (or a lattice) less than two metres apart (ValueError); the overall longitudinal offset of a straight unturned magnet displaced by dz is shown as -dz, whereas its parts are shown with their own sign.", "quantifier": "every machine, pair of limits and rounding function that cuts off the decimals; the last finding for all offsets, lengths and bending angles", "why_tests_cant": "Figures are not tested; the failures need short limits or an unusual machine, and the sign shows only with longitudinal offsets.", "anchors": ["pySC/plotting/plot_support.py:plot_support", "pySC/core/simulated_commissioning.py:support_offset_and_roll", "pySC/utils/sc_tools.py:update_transformation"]}
{"id": "C107", "title": "SCgetCOD never returns", "statement": "SCgetCOD fails with ValueError in every call, whatever the machine, the closed orbit and the elements asked for (finding): the test for missing numbers is applied to the pair of arrays the orbit search returns, which numpy refuses because they differ in dimension. Nor could it return if the orbits at the elements were tested alone (ValueError, the truth of a row of six is not defined; IndexError without elements), and with any result of the orbit search it cannot return for any element, because the displacement T2 is called like a function.", "quantifier": "every machine, orbit and list of elements; for the further findings every nested sequence of numbers in place of the orbit", "why_tests_cant": "There is no test of the function, and a failing call shows nothing about other orbits or lists of elements.", "anchors": ["pySC/lattice_properties/magnet_orbit.py:SCgetCOD", "pySC/matlab_index.py:SCgetCOD", "pySC/utils/at_wrapper.py:findorbit6"]}
{"id": "C108", "title": "The phase space figure marks the closed orbit, but only at a single place", "statement": "When plot_phase_space returns, particles and injection point are as in C88 whether or not the closed orbit is asked for (plotCO). With plotCO the closed orbit is marked where the search finds it; if the search fails, where a second one that starts from the mean tracked coordinates finds it; if both fail, nowhere; in the units and the order of the particles' coordinates. Without plotCO nothing is marked. Findings: although ords is a list, a figure over at least one turn is drawn only for exactly one element; for more places every call fails with ValueError, and no call returns for a bunch without particles. SCplotPhaseSpace never returns with its own default for the bunch, an empty list: AttributeError, or ValueError if a number of particles is given.", "quantifier": "every machine, tracking result, bunch, list of places, number of turns, and all results of both searches", "why_tests_cant": "Figures are not tested; the second search runs only if the first fails, and calls with several places or with the defaults of the MATLAB-style function are not made.", "anchors": ["pySC/plotting/plot_phase_space.py:plot_phase_space", "pySC/plotting/plot_phase_space.py:_check_input", "pySC/matlab_index.py:SCplotPhaseSpace"]}
{"id": "C109", "title": "SCplotBPMreading shows a reading and restores SC.plot, unless it fails", "statement": "SC.plot only decides whether a returning reading (bpm_reading, all_elements_reading) is shown: the values returned and the machine afterwards are the same; without it a reading returns or fails whatever the apertures are like. SCplotBPMreading, when it returns, shows the figure of the reading of all registered monitors (C103), and SC.plot is as before. In a script of such readings and SCplotBPMreading calls that goes on after failures, the machine keeps everything but its random numbers; if all apertures have two (EApertures) or four (RApertures) entries and the registered monitors are in the ring, the values returned and the failures do not depend on SC.plot, and SCplotBPMreading returns exactly if the reading does. Finding: SC.plot is set at the end exactly if it was at the beginning or some SCplotBPMreading failed. With an element whose EApertures is a single number one SCplotBPMreading fails and so does every reading after it, although readings without it return.", "quantifier": "every machine, tracking result, random numbers, initial flag, and script of calls", "why_tests_cant": "Tests do not look at the flag after a failed call, and the values of readings are compared with one setting of the flag only.", "anchors": ["pySC/matlab_index.py:SCplotBPMreading", "pySC/core/beam.py:bpm_reading", "pySC/core/beam.py:all_elements_reading", "pySC/core/simulated_commissioning.py:SimulatedCommissioning.__init__"]}
{"id": "C110", "title": "Wiggling stops only after two kicks in a row that let the beam through", "statement": "When _wiggling returns, it has taken a reading and then made kicks: the i-th one is step i mod 32 of the spiral (0.5 to 1 mrad), added to the last 1 + i // 32 correctors per plane upstream of the monitor reached before the round of 32; after each kick it has taken one reading if this showed beam at fewer monitors than asked for, otherwise three. It has stopped exactly when for the first time the last two kicks both reached far enough and the last five readings agree, or after all 256 kicks if the very last reading reached far enough. Finding: it never stops at the first kick that lets the beam through, although three readings there agree, because five are compared; a beam that passes with one kick only is therefore lost again, and wiggling fails with RuntimeError.", "quantifier": "every machine, behaviour of the beam (arbitrary tracking and random numbers), list of monitors and correctors, and number of monitors asked for", "why_tests_cant": "The point where the search stops depends on the whole history of readings; a test with one machine sees a single course.", "anchors": ["pySC/correction/orbit_trajectory.py: _wiggling", "pySC/correction/orbit_trajectory.py: _is_repro", "pySC/correction/orbit_trajectory.py: _get_last_cm"]}
