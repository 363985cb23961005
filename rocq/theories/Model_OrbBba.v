(** pySC/correction/bba.py: the beam-based alignment with closed-orbit bumps (lines 50-76, 309-353).

    The structure [RMstruct] is reduced to its lists of correctors and monitors; what line 332-333 delete from it is not kept. *)
From Coq Require Import ZArith.
From stdpp Require Import base gmap strings list.
From Verif Require Import Num Base Model_Arr Model_SC Model_Err Model_Beam Model_Orbit Model_Stats Model_Bba.
Local Open Scope string_scope.
Local Open Scope list_scope.

Section OrbBba.
  Context {T : Type} {N : Num T} {G : Trig T}.
  Context (w : world T).

  (** lines 318-323, one step of the bump *)
  Definition orbit_step (n_dim meas_dim bpm_ind : nat) (cm : list nat * list nat) (h v : list T) : M (sc T) (option T * list (option T)) :=
    set_cm_setpoints cm.1 DFloat h false ABS ;;;
    set_cm_setpoints cm.2 DFloat v true ABS ;;;
    let! r := bpm_reading w None false in
    let! pos := lift (idx (plane_row n_dim r) bpm_ind) in
    let row := plane_row meas_dim r in
    let! s := get in
    (** the row must fit into one of length [len(SC.ORD.BPM)] *)
    if (length row =? length (oBPM (ORD s)))%nat then ret (pos, row)
    else match row with [x] => ret (pos, replicate (length (oBPM (ORD s))) x) | _ => raise ValueError end.
  (** lines 309-326 (_data_measurement_orb); [vec]: the corrector settings of the two planes, one row per step *)
  Definition data_measurement_orb (p : bba_par T) (strengths : list T) (m_ord bpm_ind n_dim : nat) (cm : list nat * list nat) (vec : list (list T) * list (list T))
      : M (sc T) (list (list (option T * list (option T)))) :=
    let! s := get in
    let n_steps := length (if (n_dim =? 0)%nat then vec.1 else vec.2) in
    let! data := mapM strengths (fun q =>
      set_magnet_setpoints [m_ord] DFloat [q] (b_skew p) (b_order p) (b_method p) (b_dipcomp p) ;;;
      mapM (seq 0 n_steps) (fun k =>
        let! h := lift (idx vec.1 k) in
        let! v := lift (idx vec.2 k) in
        orbit_step n_dim (if b_skew p then 1 - n_dim else n_dim) bpm_ind cm h v)) in
    mod_INJ (with_Z0 (Z0 (INJ s))) ;;;
    ret data.

  Record rm_struct := MkRM { rm_cms : list nat * list nat; rm_bpms : list nat }.
  (** lines 329-353 (_get_orbit_bump).  Without a structure (the default is an empty list) there is no CMords.  With the reading as
      reference line 337 indexes a tuple.  In line 341 the ends of the slice are arrays - of one entry, or none, which cannot
      serve as index; of several entries, which cannot be compared.  What follows (lines 342-353) is never reached. *)
  Definition orbit_bump (rm : option rm_struct) (use_reading : bool) (bpm n_dim : nat) : M (sc T) ((list nat * list nat) * (list (list T) * list (list T))) :=
    match rm with
    | None => raise AttributeError
    | Some st =>
        (if use_reading then bpm_reading w None false ;;; raise TypeError else ret tt) ;;;
        (if (1 <? n_dim)%nat then raise IndexError else ret tt) ;;;
        if (1 <? length (filter (fun b => b = bpm) (rm_bpms st)))%nat then raise ValueError else raise TypeError
    end.
  (** lines 50-76 (orbit_bba); [plot]: the entry plot_results, which exists only if given by the caller (the default is called
      plotResults).  The parameters have no entry num_downstream_bpms, so the evaluation in line 72 would fail as well. *)
  Definition orbit_bba (bpm_ords mag_ords : list (list nat)) (p : bba_par T) (strengths : list T + list (list (list T))) (rm : option rm_struct) (use_reading : bool) (plot : option bool)
      : M (sc T) unit :=
    let! s := get in
    let! str := lift (bba_check_input bpm_ords mag_ords p strengths) in
    if bool_decide (trackMode (INJ s) = "TBT") then raise ValueError
    else
      let columns := match bpm_ords with [] => 0%nat | r :: _ => length r end in
      forM (seq 0 columns) (fun j =>
        forM (seq 0 (length bpm_ords)) (fun n =>
          let! s := get in
          let! bpm := lift (cell_at bpm_ords n j) in
          let! bpm_ind := lift (bpm_index bpm s) in
          let! m_ord := lift (cell_at mag_ords n j) in
          let! bump := orbit_bump rm use_reading bpm n in
          let! st := lift (cell_at str n j) in
          let! data := data_measurement_orb p st m_ord bpm_ind n bump.1 bump.2 in
          raise AttributeError)) ;;;
      apply_bpm_offsets bpm_ords (map (map (fun _ => None)) bpm_ords) (map (map (fun _ => None)) bpm_ords) ;;;
      match plot with None => raise AttributeError | Some _ => ret tt end.
End OrbBba.
