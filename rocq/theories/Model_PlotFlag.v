(** The flag SC.plot: core/beam.py lines 55-56 and 102-103 (bpm_reading and all_elements_reading draw only if it is set) and matlab_index.py lines 203-208 (SCplotBPMreading).
    The figure itself is Model_BeamPlot. *)
From Coq Require Import ZArith.
From stdpp Require Import base gmap strings list.
From Verif Require Import Num Base Model_Arr Model_SC Model_Err Model_Beam Model_BeamPlot.

Section PlotFlag.
  Context {T : Type} {N : Num T} {G : Trig T}.
  (** the machine together with SC.plot (simulated_commissioning.py line 74, initially False) *)
  Definition flagged : Type := sc T * bool.
  Definition set_flag (b : bool) : M flagged unit := fun st => (Ok tt, (fst st, b)).
  Definition on_machine {A} (m : M (sc T) A) : M flagged A := fun st => let '(r, s) := m (fst st) in (r, (s, snd st)).

  (** beam.py lines 20-73 (bpm_reading); the figure, if there is one, is shown *)
  Definition flagged_reading (w : world T) (bpm_ords : option (list nat)) (errors : bool) : M flagged (reading T * option (panel T * panel T)) :=
    let! plot := gets (fun st : flagged => snd st) in
    if plot then let! r := on_machine (bpm_reading_drawn w bpm_ords errors) in ret (fst r, Some (snd r))
    else let! r := on_machine (bpm_reading w bpm_ords errors) in ret (r, None).
  (** beam.py lines 76-104 (all_elements_reading) *)
  Definition flagged_all (w : world T) : M flagged ((list (option T) * list (option T) * list (tracked T)) * option (panel T * panel T)) :=
    let! plot := gets (fun st : flagged => snd st) in
    if plot then let! r := on_machine (all_elements_drawn w) in ret (fst r, Some (snd r))
    else let! r := on_machine (all_elements_reading w) in ret (r, None).
  (** matlab_index.py lines 203-208 (SCplotBPMreading): what is shown *)
  Definition plot_bpm_reading (w : world T) : M flagged (option (panel T * panel T)) :=
    let! init_plot := gets (fun st : flagged => snd st) in
    let! _ := set_flag true in
    let! r := flagged_reading w None false in
    let! _ := set_flag init_plot in
    ret (snd r).
End PlotFlag.
Arguments flagged T : clear implicits.
