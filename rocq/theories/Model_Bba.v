(** pySC/correction/bba.py: beam-based alignment.  Beam readings come from [world]; numpy.polyfit is an argument
    (abscissae, ordinates, degree, weights; coefficients from the highest order, unscaled covariance).  NaN is [None].
    Tables are lists of rows, one row per plane.  Plotting and logging are left out, except that a message which cannot
    be computed raises. *)
From Coq Require Import ZArith.
From stdpp Require Import base gmap strings list.
From Verif Require Import Num Base Model_Arr Model_SC Model_Err Model_Beam Model_Orbit Model_Scan Model_Stats.
Local Open Scope string_scope.
Local Open Scope list_scope.

Section Bba.
  Context {T : Type} {N : Num T} {G : Trig T}.

  (** bba.py lines 12-13. *)
  Definition CONFIDENCE_LEVEL_SIGMAS : T := ndiv (nofZ 5) (nofZ 2).
  Definition OUTLIER_LIMIT : T := ndiv (nofZ 15) (nofZ 10000).

  (** same shape *)
  Definition shape {A} (m : list (list A)) : list nat := map length m.
  (** the positions of a table, row by row (the order of numpy.argwhere) *)
  Definition cells {A} (m : list (list A)) : list (nat * nat * A) :=
    concat (imap (fun i row => imap (fun j x => (i, j, x)) row) m).
  Definition cell_at {A} (m : list (list A)) (i j : nat) : res A := let? row := idx m i in idx row j.

  (** bba.py lines 126-128 (is_bba_errored), one entry; comparisons with NaN are false. *)
  Definition bba_errored (off err : option T) : bool :=
    match off with
    | None => true
    | Some x =>
        nltb OUTLIER_LIMIT (nabs x) ||
        match err with Some e => nltb (nabs x) (nmul CONFIDENCE_LEVEL_SIGMAS e) | None => false end
    end.
  Definition is_bba_errored (offs errs : list (list (option T))) : res (list (list bool)) :=
    if decide (shape offs = shape errs) then Ok (zip_with (zip_with bba_errored) offs errs) else Err ValueError.

  (** bba.py lines 115-123 (apply_bpm_offsets). *)
  Definition change_offset (ord plane : nat) (f : T -> T) : M (sc T) unit :=
    on_elem ord (
      let! v := getm (fun e => attr_vec e "Offset") in
      let! x := lift (idx v plane) in
      let! v' := lift (idx_set v plane (f x)) in
      setattr "Offset" (VVec v')).
  Definition apply_bpm_offsets (bpm_ords : list (list nat)) (offs errs : list (list (option T))) : M (sc T) unit :=
    let! errors := lift (is_bba_errored offs errs) in
    forM (cells errors) (fun c =>
      let '(i, j, flag) := c in
      if flag : bool then ret tt
      else
        let! ord := lift (cell_at bpm_ords i j) in
        let! x := lift (cell_at offs i j) in
        match x with Some x => change_offset ord i (fun o => nadd o x) | None => ret tt end).

  (** bba.py lines 131-138 (_get_bpm_offset_from_mag). *)
  Definition bpm_offset_from_mag (bpm_ords mag_ords : list (list nat)) (s : sc T) : res (list (list T)) :=
    rmap (fun p : nat * (list nat * list nat) =>
      let '(n, (bpms, mags)) := p in
      let? a := field_values "Offset" n bpms s in
      let? b := field_values "SupportOffset" n bpms s in
      let? c := field_values "MagnetOffset" n mags s in
      let? d := field_values "SupportOffset" n mags s in
      if (length bpms =? length mags)%nat then Ok (zip_with nsub (zip_with nsub (zip_with nadd a b) c) d) else Err ValueError)
      (imap (fun n p => (n, p)) (zip bpm_ords mag_ords)).

  (** bba.py lines 86-89: rms of the entries that are not flagged *)
  Definition unflagged_rms (flags : list bool) (row : list T) : option T :=
    let good := omap (fun p : bool * T => if p.1 then None else Some p.2) (zip flags row) in
    if (length good =? 0)%nat then None else Some (nsqrt (mean (map (fun x => nmul x x) good))).
  (** bba.py lines 79-102 (fake_bba).  [errors = None] flags every entry. *)
  Definition fake_bba (bpm_ords mag_ords : list (list nat)) (errors : option (list (list bool))) (fake_offset : option (list (option T))) : M (sc T) unit :=
    match errors, fake_offset with
    | None, None => raise ValueError
    | _, _ =>
        let errors := default (map (map (fun _ => true)) bpm_ords) errors in
        let! fake := match fake_offset with
                     | Some f => ret f
                     | None =>
                         let! s := get in
                         let! table := lift (bpm_offset_from_mag bpm_ords mag_ords s) in
                         if decide (shape errors = shape table) then ret (zip_with unflagged_rms errors table) else raise IndexError
                     end in
        forM (cells errors) (fun c =>
          let '(i, j, flag) := c in
          if flag : bool then
            let! m := lift (cell_at mag_ords i j) in
            let! b := lift (cell_at bpm_ords i j) in
            let! s := get in
            let! em := lift (idx (RING s) m) in
            let! eb := lift (idx (RING s) b) in
            let! mo := lift (let? v := attr_vec em "MagnetOffset" in idx v i) in
            let! ms := lift (let? v := attr_vec em "SupportOffset" in idx v i) in
            let! bs := lift (let? v := attr_vec eb "SupportOffset" in idx v i) in
            let! f := lift (idx fake i) in
            let! r := randnc1 ntwo in
            match f with
            | Some f => change_offset b i (fun _ => nadd (nsub (nadd mo ms) bs) (nmul f r))
            | None => ret tt
            end
          else ret tt)
    end.

  (** * Injection scan *)

  Definition with_Z0 (z : list T) (i : inj T) : inj T := MkInj (beamLostAt i) (Z0ideal i) z (beamSize i) (randomInjectionZ i) (nParticles i) (nTurns i) (nShots i) (trackMode i).
  Definition with_nTurns (n : nat) (i : inj T) : inj T := MkInj (beamLostAt i) (Z0ideal i) (Z0 i) (beamSize i) (randomInjectionZ i) (nParticles i) n (nShots i) (trackMode i).
  (** [Z0[2n:2n+2] = z0[2n:2n+2] + (a, b)] *)
  Definition kicked (n : nat) (z : list T) (a b : T) : res (list T) :=
    let? x := idx z (2 * n) in
    let? y := idx z (2 * n + 1) in
    let? z' := idx_set z (2 * n) (nadd x a) in
    idx_set z' (2 * n + 1) (nadd y b).
  Definition plane_row (n : nat) (r : reading T) : list (option T) := match n with 0 => r_x r | _ => r_y r end%nat.
  Definition is_nan (x : option T) : bool := match x with None => true | Some _ => false end.
  (** numpy.max - numpy.min over the two signs; NaN if one is *)
  Definition spread (a b : option T) : option T :=
    match a, b with Some x, Some y => Some (nsub (nmax x y) (nmin x y)) | _, _ => None end.
  (** the factor 0.8 *)
  Definition shrink : T := ndiv (nofZ 4) (nofZ 5).

  Section Scan.
    Context (w : world T).

    (** bba.py lines 286-291, one sign *)
    Definition injection_trial (n_dim : nat) (z0 : list T) (a b : T) : M (sc T) (list (option T)) :=
      let! z := lift (kicked n_dim z0 a b) in
      mod_INJ (with_Z0 z) ;;;
      let! r := bpm_reading w None false in
      ret (plane_row n_dim r).
    (** bba.py lines 285-304, [k] trials left *)
    Fixpoint scale_loop (k : nat) (n_dim last_ind : nat) (mx : T * T) (z0 : list T) (nturns : nat) (scale : T) : M (sc T) (T * list (option T)) :=
      match k with
      | 0%nat =>
          mod_INJ (with_nTurns nturns) ;;;
          let! s := get in
          ret (scale, replicate (length (oBPM (ORD s))) (Some n0))
      | S k' =>
          let! plus := injection_trial n_dim z0 (nmul scale mx.1) (nmul scale mx.2) in
          let! minus := injection_trial n_dim z0 (nmul (nopp n1) (nmul scale mx.1)) (nmul (nopp n1) (nmul scale mx.2)) in
          mod_INJ (with_Z0 z0) ;;;
          if existsb is_nan (take (S last_ind) plus) || existsb is_nan (take (S last_ind) minus)
          then scale_loop k' n_dim last_ind mx z0 nturns (nmul scale shrink)
          else
            let! s := get in
            (if (length (oBPM (ORD s)) =? 0)%nat then raise ValueError else ret tt) ;;;
            mod_INJ (with_nTurns nturns) ;;;
            ret (scale, zip_with spread plus minus)
      end.
    (** bba.py lines 276-304 (_scale_injection_to_reach_bpms). *)
    Definition scale_injection (n_dim last_ind : nat) (mx : T * T) : M (sc T) (T * list (option T)) :=
      let! s := get in
      mod_INJ (with_nTurns 1) ;;;
      scale_loop 20 n_dim last_ind mx (Z0 (INJ s)) (nTurns (INJ s)) n1.

    (** bba.py lines 263-273 (_phase_advance_injection_scan): scale and ranges per quadrupole setting. *)
    Definition phase_scan (n_dim last_ind : nat) (mx : T * T) (q_ords : list nat) (q_sps : list T) : M (sc T) (list (T * list (option T))) :=
      let! s := get in
      let! q0 := lift (field_values "SetPointB" 1 q_ords s) in
      let! out := mapM q_sps (fun q =>
        set_magnet_setpoints q_ords DFloat [q] false 1 REL true ;;;
        scale_injection n_dim last_ind mx) in
      (if (length q0 =? 0)%nat then ret tt else set_magnet_setpoints q_ords DFloat q0 false 1 ABS true) ;;;
      ret out.

    (** * Measurement *)
    Record bba_par := MkPar {
      b_steps : nat; b_fit_order : nat; b_order : nat; b_skew : bool; b_method : string;
      b_q_ords : list nat; b_q_sps : list T; b_downstream : nat; b_max : T * T; b_dipcomp : bool }.

    (** [trajectories[step, n_q, :] = readings[dim, i:i + n]] *)
    Definition downstream (row : list (option T)) (i n : nat) : res (list (option T)) :=
      let l := take n (drop i row) in
      if (length l =? n)%nat then Ok l else match l with [x] => Ok (replicate n x) | _ => Err ValueError end.
    (** bba.py lines 247-255: for every strength and step the reading at the BPM and at those downstream *)
    Definition measure_step (p : bba_par) (n_dim bpm_ind : nat) (z0 : list T) (scale : T) (k : T) : M (sc T) (option T * list (option T)) :=
      let! z := lift (kicked n_dim z0 (nmul (nmul scale (b_max p).1) k) (nmul (nmul scale (b_max p).2) k)) in
      mod_INJ (with_Z0 z) ;;;
      let! r := bpm_reading w None false in
      let! pos := lift (idx (plane_row n_dim r) bpm_ind) in
      let! l := lift (downstream (plane_row (if b_skew p then 1 - n_dim else n_dim) r) bpm_ind (b_downstream p)) in
      ret (pos, l).
    (** bba.py lines 241-260 (_data_measurement_tbt). *)
    Definition data_measurement_tbt (p : bba_par) (strengths : list T) (m_ord bpm_ind n_dim : nat) (scale : T) : M (sc T) (list (list (option T * list (option T)))) :=
      let! s := get in
      let z0 := Z0 (INJ s) in
      let! init := lift (let? e := idx (RING s) m_ord in let? v := attr_vec e (SP (b_skew p)) in idx v (b_order p)) in
      let! data := mapM strengths (fun q =>
        set_magnet_setpoints [m_ord] DFloat [q] (b_skew p) (b_order p) (b_method p) (b_dipcomp p) ;;;
        mapM (linspace (nopp n1) n1 (b_steps p)) (measure_step p n_dim bpm_ind z0 scale)) in
      mod_INJ (with_Z0 z0) ;;;
      set_magnet_setpoints [m_ord] DFloat [init] (b_skew p) (b_order p) ABS (b_dipcomp p) ;;;
      ret data.
  End Scan.

  (** * Evaluation *)
  Section Evaluation.
    Context (polyfit : list T -> list T -> nat -> list T -> res (list T * list (list T))).
    Context (quantile : T -> T).

    (** one row per step, from one row per strength *)
    Definition by_step (n_steps : nat) {A} (data : list (list A)) : list (list A) := map (fun st => omap (fun col => col !! st) data) (seq 0 n_steps).
    (** bba.py lines 142-146: steps whose readings at the BPM are all numbers, with these *)
    Definition kept (rows : list (list (option T * list (option T)))) : list (list T * list (list (option T))) :=
      omap (fun row => match no_gaps (map fst row) with Some (x :: l) => Some (x :: l, map snd row) | _ => None end) rows.
    Definition stddev_of (l : list T) : T := nsqrt (variance l).
    Definition reading_error (rows : list (list T * list (list (option T)))) : T := mean (map (fun r => stddev_of r.1) rows).
    (** bba.py lines 153-160: slope against the strength at downstream BPM [j] *)
    Definition slope (err : T) (mags : list T) (row : list (list (option T))) (j : nat) : res (option (T * T)) :=
      let? ys := rmap (fun l => idx l j) row in
      let pts := omap (fun p : T * option T => y ← p.2; Some (p.1, y)) (zip mags ys) in
      if (length pts <? min (length mags) 3)%nat then Ok None
      else
        let? wt := qdiv n1 err in
        let? (p, cov) := polyfit (map fst pts) (map snd pts) 1 (replicate (length pts) wt) in
        let? p0 := idx p 0 in
        let? c := cell_at cov 0 0 in
        Ok (Some (p0, c)).
    (** bba.py lines 162-173: position at which the slope vanishes (or is extremal), with its error *)
    Definition center (fit_order : nat) (pts : list (T * T * T)) : res (option (T * option T)) :=
      if (length pts <=? fit_order + 1)%nat then Ok None
      else
        let? wt := rmap (fun p => qdiv n1 p.2) pts in
        let? (p, cov) := polyfit (map (fun p => p.1.1) pts) (map (fun p => p.1.2) pts) fit_order wt in
        let? p0 := idx p 0 in
        let? c00 := cell_at cov 0 0 in
        if nltb (nabs p0) (nmul ntwo (nsqrt c00)) then Ok None
        else
          let? p1 := idx p 1 in
          let? c := qdiv (nopp p1) (nmul (nofnat fit_order) p0) in
          let? c11 := cell_at cov 1 1 in
          let? c01 := cell_at cov 0 1 in
          let v := nmul (nmul c c) (nsub (nadd (ndiv c00 (nmul p0 p0)) (ndiv c11 (nmul p1 p1))) (ndiv (ndiv (nmul ntwo c01) p0) p1)) in
          Ok (Some (c, if neqb p1 n0 then None else if nltb v n0 then None else Some (nsqrt v))).
    (** bba.py lines 141-179 (_data_evaluation); [rows] has one row per step, [mags] are the strengths. *)
    Definition data_evaluation (p : bba_par) (mags : list T) (n_dim m_ord : nat) (rows : list (list (option T * list (option T)))) (s : sc T) : res (T * T) :=
      let good := kept rows in
      let err := reading_error good in
      let? slopes := rmap (fun r : list T * list (list (option T)) => rmap (slope err mags r.2) (seq 0 (b_downstream p))) good in
      let xs := map (fun r => mean r.1) good in
      let? centers := rmap (fun j =>
        let? col := rmap (fun l => idx l j) slopes in
        center (b_fit_order p) (omap (fun q : T * option (T * T) => sl ← q.2; Some (q.1, sl.1, sl.2)) (zip xs col))) (seq 0 (b_downstream p)) in
      let found := somes centers in
      let cs := map fst found in
      let es := map snd found in
      let? off := weighted_mean cs (Some es) in
      let? e := weighted_error quantile (map (fun c => nsub c off) cs) (Some es) in
      let? n := effective_sample_size cs (weights_from_errors (Some es)) in
      let? oe := qdiv e (nsqrt n) in
      if negb (b_dipcomp p) && (n_dim =? 0)%nat then
        let? el := idx (RING s) m_ord in
        let? nom := attr_vec el "NomPolynomB" in
        let? k := idx nom 1 in
        if neqb k n0 then Ok (off, oe)
        else
          let? th := match el !! "BendingAngle" with None => Ok n0 | Some v => as_num v end in
          let? len := attr_num el "Length" in
          let? a := qdiv th k in
          let? b := qdiv a len in
          Ok (nadd off b, oe)
      else Ok (off, oe).

    (** numpy.argmax of a column that may contain NaN: the first NaN, else the first maximum *)
    Definition nan_argmax (l : list (option T)) : res nat :=
      match list_find (fun x => x = None) l with
      | Some (k, _) => Ok k
      | None => argmax (somes l)
      end.
    Definition bpm_index (ord : nat) (s : sc T) : res nat :=
      match list_find (fun b => b = ord) (oBPM (ORD s)) with Some (k, _) => Ok k | None => Err IndexError end.

    (** bba.py lines 31-43, one BPM *)
    Definition bba_one (w : world T) (p : bba_par) (q0 : list T) (scan : list (T * list (option T))) (n_dim bpm m_ord : nat) (mags : list T) : M (sc T) (T * T) :=
      let! s := get in
      let! bpm_ind := lift (bpm_index bpm s) in
      let! col := lift (rmap (fun r : T * list (option T) => idx r.2 bpm_ind) scan) in
      let! k := lift (nan_argmax col) in
      let! q := lift (idx (b_q_sps p) k) in
      let! sc := lift (idx scan k) in
      set_magnet_setpoints (b_q_ords p) DFloat [q] false 1 REL true ;;;
      let! data := data_measurement_tbt w p mags m_ord bpm_ind n_dim sc.1 in
      (if (length q0 =? 0)%nat then ret tt else set_magnet_setpoints (b_q_ords p) DFloat q0 false 1 ABS true) ;;;
      let! s' := get in
      lift (data_evaluation p mags n_dim m_ord (by_step (b_steps p) data) s').
    (** bba.py lines 25-43, one plane *)
    Definition bba_plane (w : world T) (p : bba_par) (q0 : list T) (n_dim : nat) (bpms mags : list nat) (strengths : list (list T)) : M (sc T) (list (T * T)) :=
      let! s := get in
      let! b := lift (match last bpms with Some b => Ok b | None => Err IndexError end) in
      let! last_ind := lift (bpm_index b s) in
      let! scan := phase_scan w n_dim last_ind (b_max p) (b_q_ords p) (b_q_sps p) in
      mapM (zip (seq 0 (length bpms)) bpms) (fun jb =>
        let! m := lift (idx mags jb.1) in
        let! str := lift (idx strengths jb.1) in
        bba_one w p q0 scan n_dim jb.2 m str).
    (** bba.py lines 105-112 (_check_input), with the strengths per plane and BPM *)
    Definition bba_check_input (bpm_ords mag_ords : list (list nat)) (p : bba_par) (strengths : list T + list (list (list T))) : res (list (list (list T))) :=
      if decide (shape bpm_ords = shape mag_ords) then
        if (2 <? b_fit_order p)%nat then Err ValueError
        else Ok (match strengths with inl l => map (map (fun _ => l)) mag_ords | inr m => m end)
      else Err ValueError.
    (** bba.py lines 16-47 (trajectory_bba). *)
    Definition trajectory_bba (w : world T) (bpm_ords mag_ords : list (list nat)) (p : bba_par) (strengths : list T + list (list (list T))) : M (sc T) (list (list (T * T))) :=
      let! s := get in
      let! str := lift (bba_check_input bpm_ords mag_ords p strengths) in
      if negb (bool_decide (trackMode (INJ s) = "TBT")) || negb (nTurns (INJ s) =? 2)%nat then raise ValueError
      else
        let! q0 := lift (field_values "SetPointB" 1 (b_q_ords p) s) in
        let! table := mapM (zip (seq 0 (length bpm_ords)) bpm_ords) (fun nb =>
          let! mags := lift (idx mag_ords nb.1) in
          let! st := lift (idx str nb.1) in
          bba_plane w p q0 nb.1 nb.2 mags st) in
        apply_bpm_offsets bpm_ords (map (map (fun x => Some x.1)) table) (map (map (fun x => Some x.2)) table) ;;;
        ret table.
  End Evaluation.
End Bba.
Arguments bba_par T : clear implicits.
