(** pySC/correction/injection_fit.py.  numpy.polyfit and scipy.optimize.fmin are arguments. *)
From Coq Require Import ZArith.
From stdpp Require Import base gmap strings list.
From Verif Require Import Num Base Model_Arr Model_SC Model_Err Model_Beam Model_Orbit Model_Lattice Model_Scan Model_Bba.
Local Open Scope string_scope.
Local Open Scope list_scope.

Section Inject.
  Context {T : Type} {N : Num T} {G : Trig T} (w : world T).

  (** the columns [inds] of the readings of one plane *)
  Definition columns (inds : list nat) (l : list (option T)) : res (list (option T)) := rmap (idx l) inds.
  Definition onopp (x : option T) : option T := y ← x; Some (nopp y).

  Section Drift.
    (** numpy.polyfit(s, y, 1) for one plane: slope and value at zero *)
    Variable polyfit1 : list T -> list (option T) -> res (option T * option T).
    (** lines 63-67 (_fit_bpm_data): the first four entries; the last two are zero *)
    Definition fit_bpm_data (s_bpm : list T) (bx bz : list (option T)) : res (list (option T)) :=
      let? fx := polyfit1 s_bpm bx in
      let? fy := polyfit1 s_bpm bz in
      Ok [onopp fx.2; onopp fx.1; onopp fy.2; onopp fy.1; Some n0; Some n0].
    (** lines 13-22 and 34 (fit_injection_drift) without plotting and logging *)
    Definition fit_injection_drift : M (sc T) (list T) :=
      let! s := get in
      let s_pos := spos (RING s) in
      let n := length (oBPM (ORD s)) in
      let! r := bpm_reading w None false in
      match n with
      | 0 => raise IndexError
      | S m =>
          let! bx := lift (columns [m; n] (r_x r)) in
          let! bz := lift (columns [m; n] (r_y r)) in
          let! last_bpm := lift (idx (oBPM (ORD s)) m) in
          let! first_bpm := lift (idx (oBPM (ORD s)) 0) in
          let! s_last := lift (idx s_pos last_bpm) in
          let! s_end := lift (idx s_pos (length s_pos - 1)) in
          let! s_first := lift (idx s_pos first_bpm) in
          let! d := lift (fit_bpm_data [nsub s_last s_end; s_first] bx bz) in
          match no_gaps d with
          | None => raise RuntimeError
          | Some d => ret d
          end
      end%nat.
  End Drift.

  Section Trajectory.
    (** scipy.optimize.fmin: function and starting point to the point it returns ([None] for NaN) *)
    Variable fmin : (list T -> option T) -> list T -> res (list (option T)).
    (** lines 70-72 (_merit_function); [bx], [bz]: the readings, [refs]: the elements they belong to *)
    Definition residuals (ideal : list (elem T)) (bx bz : list (option T)) (refs : list nat) (x : list T) : list (option T) :=
      let t c b := w_track w ideal (map (fun v => [v]) (x ++ [n0; n0])) 1 refs c 0%nat b 0%nat in
      let osub a b := u ← a; v ← b; Some (nsub u v) in
      imap (fun b y => osub y (t 0%nat b)) bx ++ imap (fun b y => osub y (t 2%nat b)) bz.
    Definition merit (ideal : list (elem T)) (bx bz : list (option T)) (refs : list nat) (x : list T) : option T :=
      match no_gaps (residuals ideal bx bz refs x) with
      | Some l => let m := mean l in Some (nsqrt (nmul m m))
      | None => None
      end.
    (** lines 37-60 (fit_injection_trajectory); returns the change and, if plotting, the reading shown as "After correction" *)
    Definition fit_injection_trajectory (bpm_inds : list nat) (plot : bool) : M (sc T) (list T * option (list (option T) * list (option T))) :=
      let! s := get in
      let! r := bpm_reading w None false in
      let! bx := lift (columns bpm_inds (r_x r)) in
      let! bz := lift (columns bpm_inds (r_y r)) in
      let! refs := lift (rmap (idx (oBPM (ORD s))) bpm_inds) in
      let! x := lift (fmin (merit (IDEALRING s) bx bz refs) (zeros 4)) in
      (* assignment of the result to four entries *)
      if negb (length x =? 4)%nat then raise ValueError else
      match no_gaps (map onopp x ++ [Some n0; Some n0]) with
      | None => raise RuntimeError
      | Some d =>
          let! z := lift (bcast nadd (Z0 (INJ s)) d) in
          mod_INJ (with_Z0 z) ;;;
          if plot then
            let! z2 := lift (bcast nadd z d) in
            mod_INJ (with_Z0 z2) ;;;
            let! r2 := bpm_reading w None false in
            let! nx := lift (columns bpm_inds (r_x r2)) in
            let! ny := lift (columns bpm_inds (r_y r2)) in
            let! z3 := lift (bcast nsub z2 d) in
            mod_INJ (with_Z0 z3) ;;;
            ret (d, Some (nx, ny))
          else ret (d, None)
      end.
  End Trajectory.
End Inject.
