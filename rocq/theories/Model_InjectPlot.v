(** pySC/correction/injection_fit.py: the figures of the two fits (lines 23-33 and 46-59).  What is handed to matplotlib is listed as data; labels,
    the dashed zero line and the legend are left out. *)
From Coq Require Import ZArith.
From stdpp Require Import base gmap strings list.
From Verif Require Import Num Base Model_Arr Model_SC Model_Err Model_Beam Model_Orbit Model_Lattice Model_Scan Model_Bba Model_Inject.
Local Open Scope string_scope.
Local Open Scope list_scope.

Section InjectPlot.
  Context {T : Type} {N : Num T} {G : Trig T} (w : world T).
  Definition milli : T := nofZ 1000.
  Definition omilli (x : option T) : option T := y ← x; Some (nmul milli y).

  (** one panel of the drift: readings, "Fitted trajectory", "Real trajectory" *)
  Record drift_panel := MkDrift { j_marks : list (T * option T); j_fit : list (T * T); j_real : list (T * T) }.
  (** lines 25-28 for one plane *)
  Definition one_drift_panel (s_bpm : list T) (bx bz : list (option T)) (d z0 : list T) (n_dim : nat) : res drift_panel :=
    if (2 <=? n_dim)%nat then Err IndexError else
    let? d1 := idx d (2 * n_dim + 1) in
    let? d0 := idx d (2 * n_dim) in
    let? z1 := idx z0 (2 * n_dim + 1) in
    let? z := idx z0 (2 * n_dim) in
    Ok (MkDrift (combine s_bpm (map omilli (if (n_dim =? 0)%nat then bx else bz)))
          (map (fun x => (x, nmul milli (nsub (nmul (nopp d1) x) d0))) s_bpm)
          (map (fun x => (x, nmul milli (nadd (nmul z1 x) z))) s_bpm)).
  Section Drift.
    Variable polyfit1 : list T -> list (option T) -> res (option T * option T).
    (** lines 13-34 (fit_injection_drift) with [plot] *)
    Definition fit_injection_drift_drawn (n_dims : list nat) : M (sc T) (list T * list (nat * drift_panel)) :=
      let! s := get in
      let s_pos := spos (RING s) in
      let n := length (oBPM (ORD s)) in
      let! r := bpm_reading w None false in
      match n with
      | 0 => raise IndexError
      | S m =>
          let! bx := lift (columns [m; n] (r_x r)) in
          let! bz := lift (columns [m; n] (r_y r)) in
          let! last_bpm := lift (idx (oBPM (ORD s)) m) in
          let! first_bpm := lift (idx (oBPM (ORD s)) 0) in
          let! s_last := lift (idx s_pos last_bpm) in
          let! s_end := lift (idx s_pos (length s_pos - 1)) in
          let! s_first := lift (idx s_pos first_bpm) in
          let s_bpm := [nsub s_last s_end; s_first] in
          let! d := lift (fit_bpm_data polyfit1 s_bpm bx bz) in
          match no_gaps d with
          | None => raise RuntimeError
          | Some d =>
              let! s1 := get in
              let! ps := lift (rmap (one_drift_panel s_bpm bx bz d (Z0 (INJ s1))) n_dims) in
              ret (d, combine n_dims ps)
          end
      end%nat.
  End Drift.

  (** one panel of the trajectory: "Initial" and "After correction" *)
  Record traj_panel := MkTraj { j_initial : list (T * option T); j_after : list (T * option T) }.
  Section Trajectory.
    Variable fmin : (list T -> option T) -> list T -> res (list (option T)).
    (** lines 37-60 (fit_injection_trajectory) with [plot] *)
    Definition fit_injection_trajectory_drawn (bpm_inds : list nat) : M (sc T) (list T * (traj_panel * traj_panel)) :=
      let! s := get in
      let s_pos := spos (RING s) in
      let! r := bpm_reading w None false in
      let! bx := lift (columns bpm_inds (r_x r)) in
      let! bz := lift (columns bpm_inds (r_y r)) in
      let! refs := lift (rmap (idx (oBPM (ORD s))) bpm_inds) in
      let! x := lift (fmin (merit w (IDEALRING s) bx bz refs) (zeros 4)) in
      if negb (length x =? 4)%nat then raise ValueError else
      match no_gaps (map onopp x ++ [Some n0; Some n0]) with
      | None => raise RuntimeError
      | Some d =>
          let! z := lift (bcast nadd (Z0 (INJ s)) d) in
          mod_INJ (with_Z0 z) ;;;
          let! z2 := lift (bcast nadd z d) in
          mod_INJ (with_Z0 z2) ;;;
          let! r2 := bpm_reading w None false in
          let! nx := lift (columns bpm_inds (r_x r2)) in
          let! ny := lift (columns bpm_inds (r_y r2)) in
          let! z3 := lift (bcast nsub z2 d) in
          mod_INJ (with_Z0 z3) ;;;
          let! s_bpm := lift (rmap (idx s_pos) refs) in
          let panel before after := MkTraj (combine s_bpm (map omilli before)) (combine s_bpm (map omilli after)) in
          ret (d, (panel bx nx, panel bz ny))
      end.
  End Trajectory.
End InjectPlot.
