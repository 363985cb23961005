(** pySC/correction/orbit_trajectory.py: threading, stitching, balancing, orbit correction.

    The pseudo-inverse is an argument [pinv] (pySC/utils/sc_tools.py, modelled in Model_Pinv), the beam the record [w]
    of Model_Beam.  The functions return the histories they keep, which the code does not; they are not used by any
    caller.  Where NaN would be written into set-points the model stops with [NonFinite]. *)
From Coq Require Import ZArith.
From stdpp Require Import base gmap strings list.
From Verif Require Import Num Base Model_Arr Model_SC Model_Err Model_Beam.
Local Open Scope string_scope.
Local Open Scope list_scope.

(** orbit_trajectory.py lines 20-23. *)
Definition NREPRO : nat := 5.
Definition WIGGLE_AFTER : nat := 20.
Definition WIGGLE_ANGLE_STEPS : nat := 32.

(** [l[-n:]]: everything for n = 0 *)
Definition lastn {A} (n : nat) (l : list A) : list A := match n with 0 => l | _ => drop (length l - n) l end.

(** orbit_trajectory.py lines 348-354 (_get_last_cm): ordinates and indices.  [last] may be -1, which Python takes as
    the last BPM. *)
Definition get_last_cm (last : Z) (n : nat) (bpms cms : list nat) : res (list nat * list Z) :=
  if (Z.of_nat (length bpms) <=? last)%Z then
    Ok (lastn n cms, map (fun k => (Z.of_nat (length cms) - Z.of_nat n + Z.of_nat k)%Z) (seq 0 n))
  else
    let? b := idx bpms (if (last <? 0)%Z then Z.to_nat (Z.of_nat (length bpms) + last)%Z else Z.to_nat last) in
    match List.filter (fun k => match cms !! k with Some c => (c <=? b)%nat | None => false end) (seq 0 (length cms)) with
    | [] => Err RuntimeError
    | l => Ok (omap (fun k => cms !! k) (lastn n l), map Z.of_nat (lastn n l))
    end.

(** orbit_trajectory.py lines 357-360 (_is_repro). *)
Definition is_repro (hist : list nat) (n : nat) : bool :=
  if (length hist <? n)%nat then false
  else match last hist with Some x => forallb (fun y => (y =? x)%nat) (lastn n hist) | None => true end.

Section Orbit.
  Context {T : Type} {N : Num T} {G : Trig T}.
  Context (w : world T) (pinv : list (list T) -> list (list T)).

  (** 500E-6 and 1000E-6, line 23 *)
  Definition micro (k : Z) : T := ndiv (nofZ k) (nofZ 1000000).
  Definition WIGGLE_ANGLE_RANGE : T * T := (micro 500, micro 1000).

  (** orbit_trajectory.py lines 363-368 (_golden_donut_diffs). *)
  Definition golden_phi : T := ndiv (nmul ntwo npi) (ndiv (nadd n1 (nsqrt (nofnat 5))) ntwo).
  Definition donut_pos (r0 r1 : T) (n : nat) (k : nat) : T * T :=
    let r := nsqrt (nadd (nmul r0 r0) (ndiv (nmul (nsub (nmul r1 r1) (nmul r0 r0)) (nofnat k)) (nsub (nofnat n) n1))) in
    (nmul r (ncos (nmul (nofnat k) golden_phi)), nmul r (nsin (nmul (nofnat k) golden_phi))).
  Definition golden_donut_diffs (r0 r1 : T) (n : nat) : list (T * T) :=
    map (fun k =>
      let prev := match k with 0 => (n0, n0) | S k' => donut_pos r0 r1 n k' end in
      let cur := donut_pos r0 r1 n k in
      (nsub cur.1 prev.1, nsub cur.2 prev.2)) (seq 0 n).

  (** a list without gaps *)
  Fixpoint no_gaps (l : list (option T)) : option (list T) :=
    match l with
    | [] => Some []
    | None :: _ => None
    | Some x :: l' => match no_gaps l' with Some m => Some (x :: m) | None => None end
    end.
  (** numpy mean, var, std over all entries *)
  Definition variance (l : list T) : T := mean (map (fun x => nmul (nsub x (mean l)) (nsub x (mean l))) l).
  Definition flat2 {A} (l : list (A * A)) : list A := concat (map (fun p => [p.1; p.2]) l).
  (** orbit_trajectory.py lines 371-374 (_is_stable_or_converged); 0/0 and NaN compare false. *)
  Definition is_stable (n : nat) (eps : T) (hist : list (option T * option T)) : bool :=
    if (length hist <? n)%nat then false
    else match no_gaps (flat2 (lastn n hist)) with
         | None => false
         | Some l => let v := variance l in
                     let sd := nsqrt v in
                     if neqb sd n0 then false else nltb (ndiv v sd) eps
         end.

  (** orbit_trajectory.py lines 338-345 (_bpm_reading_and_logging): number of places reached, and rms of the reached
      readings for both planes (NaN if there is none). *)
  Record log := MkLog { l_trans : list nat; l_rms : list (option T * option T) }.
  Definition reached (r : reading T) : nat := length (somes (r_x r)).
  Definition rms (l : list (option T)) : option T :=
    match no_gaps l with
    | Some (x :: l') => Some (nsqrt (mean (map (fun x => nmul x x) (x :: l'))))
    | _ => None
    end.
  Definition reached_columns (r : reading T) : list (option T * option T) :=
    List.filter (fun p => match p.1 with Some _ => true | None => false end) (zip (r_x r) (r_y r)).
  Definition rms_orbit (r : reading T) : option T * option T :=
    (rms (map fst (reached_columns r)), rms (map snd (reached_columns r))).
  Definition read_and_log (bpms : list nat) (h : log) : M (sc T) (reading T * log) :=
    let! r := bpm_reading w (Some bpms) false in
    ret (r, MkLog (l_trans h ++ [reached r]) (l_rms h ++ [rms_orbit r])).
  Definition no_log : log := MkLog [] [].
  Definition last_trans (h : log) : nat := default 0%nat (last (l_trans h)).

  (** orbit_trajectory.py lines 322-335 (_check_ords); the number of columns is taken from the first row. *)
  Definition columns (m : list (list T)) : nat := length (default [] (m !! 0%nat)).
  Definition check_ords (m : list (list T)) (reference : option (list T)) (bpms : option (list nat)) (cms : option (list nat * list nat))
      : M (sc T) (list nat * (list nat * list nat) * list T) :=
    let! s := get in
    let cms' := default (oHCM (ORD s), oVCM (ORD s)) cms in
    let bpms' := default (oBPM (ORD s)) bpms in
    if negb (length m =? 2 * length bpms' * nTurns (INJ s))%nat then raise ValueError
    else if negb (columns m =? length cms'.1 + length cms'.2)%nat then raise ValueError
    else match reference with
         | None => ret (bpms', cms', zeros (length m))
         | Some r => if negb (length r =? length m)%nat then raise ValueError else ret (bpms', cms', r)
         end.

  (** [np.dot(Mplus, measurement - reference)] for arrays of the same length *)
  Definition kicks (mplus : list (list T)) (measurement reference : list T) : res (list T) :=
    if (length measurement =? length reference)%nat then Ok (mvec mplus (zip_with nsub measurement reference)) else Err ValueError.
  Definition zero_gaps (l : list (option T)) : list T := map (default n0) l.
  Definition finite (l : list (option T)) : res (list T) := match no_gaps l with Some l' => Ok l' | None => Err NonFinite end.
  Definition add_kicks (ords : list nat) (d : list T) (skew : bool) : M (sc T) unit :=
    set_cm_setpoints ords DFloat (map nopp d) skew ADD.

  (** orbit_trajectory.py lines 377-402 (_wiggling), inner loop over the points; [true] when it succeeded *)
  Fixpoint wiggle_points (bpms h v : list nat) (limit : nat) (pts : list (T * T)) (l : log) : M (sc T) (bool * log) :=
    match pts with
    | [] => ret (false, l)
    | p :: pts' =>
        set_cm_setpoints h DFloat [p.1] false ADD ;;;
        set_cm_setpoints v DFloat [p.2] true ADD ;;;
        let! rl := read_and_log bpms l in
        if (limit <=? last_trans rl.2)%nat then
          let! rl1 := read_and_log bpms rl.2 in
          let! rl2 := read_and_log bpms rl1.2 in
          if is_repro (l_trans rl2.2) NREPRO then ret (true, rl2.2)
          else wiggle_points bpms h v limit pts' rl2.2
        else wiggle_points bpms h v limit pts' rl.2
    end.
  Fixpoint wiggle_nums (bpms : list nat) (cms : list nat * list nat) (limit : nat) (nums : list nat) (l : log) : M (sc T) (bool * log) :=
    match nums with
    | [] => ret (false, l)
    | n :: nums' =>
        let! h := lift (get_last_cm (Z.of_nat (last_trans l) - 1) n bpms cms.1) in
        let! v := lift (get_last_cm (Z.of_nat (last_trans l) - 1) n bpms cms.2) in
        let! bl := wiggle_points bpms h.1 v.1 limit
                     (golden_donut_diffs WIGGLE_ANGLE_RANGE.1 WIGGLE_ANGLE_RANGE.2 WIGGLE_ANGLE_STEPS) l in
        if (bl.1 : bool) then ret bl else wiggle_nums bpms cms limit nums' bl.2
    end.
  Definition wiggling (bpms : list nat) (cms : list nat * list nat) (limit : nat) : M (sc T) unit :=
    let! rl := read_and_log bpms no_log in
    let! bl := wiggle_nums bpms cms limit (seq 1 8) rl.2 in
    if (bl.1 : bool) then ret tt
    else if (limit <=? last_trans bl.2)%nat then ret tt else raise RuntimeError.

  (** orbit_trajectory.py lines 59-89 (first_turn) *)
  Fixpoint first_turn_loop (steps : nat) (mplus : list (list T)) (reference : list T) (bpms : list nat) (cms : list nat * list nat)
      (r : reading T) (l : log) : M (sc T) log :=
    match steps with
    | 0%nat => raise RuntimeError
    | S steps' =>
        if (last_trans l =? 0)%nat then raise RuntimeError else
        let! dphi := lift (kicks mplus (zero_gaps (r_x r ++ r_y r)) reference) in
        let! h := lift (get_last_cm (Z.of_nat (last_trans l) - 1) 1 bpms cms.1) in
        let! v := lift (get_last_cm (Z.of_nat (last_trans l) - 1) 1 bpms cms.2) in
        let! hi := lift (idx h.2 0) in
        let! vi := lift (idx v.2 0) in
        let nh := Z.to_nat (hi + 1) in
        let nv := Z.to_nat (vi + 1) in
        add_kicks (take nh cms.1) (take nh dphi) false ;;;
        add_kicks (take nv cms.2) (take nv (drop (length cms.1) dphi)) true ;;;
        let! rl := read_and_log bpms l in
        if is_repro (l_trans rl.2) NREPRO && (last_trans rl.2 =? length (r_x rl.1))%nat then ret rl.2
        else
          (if is_repro (l_trans rl.2) WIGGLE_AFTER then wiggling bpms cms (last_trans rl.2 + 1) else ret tt) ;;;
          first_turn_loop steps' mplus reference bpms cms rl.1 rl.2
    end.
  Definition first_turn (m : list (list T)) (reference : option (list T)) (cms : option (list nat * list nat)) (bpms : option (list nat))
      (maxsteps : nat) : M (sc T) log :=
    let! c := check_ords m reference bpms cms in
    let '(bpms', cms', reference') := c in
    let! rl := read_and_log bpms' no_log in
    first_turn_loop maxsteps (pinv m) reference' bpms' cms' rl.1 rl.2.

  (** lines 143-145 and 211-213: the second turn of the reference is set to zero.  The reshaped array is a view, so an
      array passed as [reference] is changed for the caller too. *)
  Definition prepare_reference (nb : nat) (r : reading T) (reference : list T) : res (list T) :=
    let c := length (r_x r) in
    if (length reference =? 2 * c)%nat then
      Ok (take nb (take c reference) ++ zeros (c - nb) ++ take nb (drop c reference) ++ zeros (c - nb))
    else Err ValueError.
  Definition osub (x y : option T) : option T := a ← x; b ← y; Some (nsub a b).
  (** first turn, and second minus first turn for the first [k] BPMs, zero for the others *)
  Definition two_turns (nb k : nat) (l : list (option T)) : list (option T) :=
    let d := zip_with osub (take k (drop nb l)) (take k l) in
    take nb l ++ d ++ replicate (nb - length d) (Some n0).

  (** orbit_trajectory.py lines 127-172 (stitch).  The exception of line 168 is created but not raised. *)
  Fixpoint stitch_loop (steps : nat) (mplus : list (list T)) (reference : list T) (bpms : list nat) (cms : list nat * list nat) (k : nat)
      (r : reading T) (l : log) : M (sc T) log :=
    match steps with
    | 0%nat => raise RuntimeError
    | S steps' =>
        let! dphi := lift (kicks mplus (zero_gaps (two_turns (length bpms) k (r_x r) ++ two_turns (length bpms) k (r_y r))) reference) in
        add_kicks cms.1 (take (length cms.1) dphi) false ;;;
        add_kicks cms.2 (drop (length cms.1) dphi) true ;;;
        let! rl := read_and_log bpms l in
        if is_repro (l_trans rl.2) NREPRO && (last_trans rl.2 =? length (r_x rl.1))%nat then ret rl.2
        else stitch_loop steps' mplus reference bpms cms k rl.1 rl.2
    end.
  Definition stitch (m : list (list T)) (reference : option (list T)) (cms : option (list nat * list nat)) (bpms : option (list nat))
      (n_bpms maxsteps : nat) : M (sc T) log :=
    let! s := get in
    if negb (nTurns (INJ s) =? 2)%nat then raise ValueError else
    let! c := check_ords m reference bpms cms in
    let '(bpms', cms', reference') := c in
    let! rl := read_and_log bpms' no_log in
    let limit := (length bpms' + n_bpms)%nat in
    if (last_trans rl.2 <? length bpms')%nat then raise RuntimeError else
    let! rl' := (if (last_trans rl.2 <? limit)%nat then
                   wiggling bpms' cms' limit ;;;
                   let! rl1 := read_and_log bpms' rl.2 in
                   if (last_trans rl1.2 <? limit)%nat then raise RuntimeError else ret rl1
                 else ret rl) in
    let! ref := lift (prepare_reference (length bpms') rl'.1 reference') in
    stitch_loop maxsteps (pinv m) ref bpms' cms' n_bpms rl'.1 rl'.2.

  (** orbit_trajectory.py lines 203-238 (balance) *)
  Fixpoint balance_loop (steps : nat) (mplus : list (list T)) (reference : list T) (bpms : list nat) (cms : list nat * list nat) (eps : T)
      (r : reading T) (l : log) : M (sc T) log :=
    match steps with
    | 0%nat => raise RuntimeError
    | S steps' =>
        let nb := length bpms in
        let! meas := lift (finite (two_turns nb (length (r_x r) - nb) (r_x r) ++ two_turns nb (length (r_x r) - nb) (r_y r))) in
        let! dphi := lift (kicks mplus meas reference) in
        add_kicks cms.1 (take (length cms.1) dphi) false ;;;
        add_kicks cms.2 (drop (length cms.1) dphi) true ;;;
        let! rl := read_and_log bpms l in
        if (last_trans rl.2 <? length (r_x rl.1))%nat then raise RuntimeError
        else if is_stable NREPRO eps (l_rms rl.2) then ret rl.2
        else balance_loop steps' mplus reference bpms cms eps rl.1 rl.2
    end.
  Definition balance (m : list (list T)) (reference : option (list T)) (cms : option (list nat * list nat)) (bpms : option (list nat))
      (eps : T) (maxsteps : nat) : M (sc T) log :=
    let! s := get in
    if negb (nTurns (INJ s) =? 2)%nat then raise ValueError else
    let! c := check_ords m reference bpms cms in
    let '(bpms', cms', reference') := c in
    let! rl := read_and_log bpms' no_log in
    if (last_trans rl.2 <? length (r_x rl.1))%nat then raise ValueError else
    let! ref := lift (prepare_reference (length bpms') rl.1 reference') in
    balance_loop maxsteps (pinv m) ref bpms' cms' eps rl.1 rl.2.

  (** Python's [max] of two numbers and comparison, NaN included *)
  Definition omax_lt (p : option T * option T) (target : T) : bool :=
    match p with
    | (Some x, Some y) => nltb (if nltb x y then y else x) target
    | (Some x, None) => nltb x target
    | _ => false
    end.
  (** orbit_trajectory.py lines 286-319 (correct) *)
  Fixpoint correct_loop (steps : nat) (maxsteps : nat) (mplus : list (list T)) (reference : list T) (bpms : list nat) (cms : list nat * list nat)
      (eps target scale : T) (r : reading T) (l : log) : M (sc T) log :=
    match steps with
    | 0%nat => if is_stable (Nat.min NREPRO maxsteps) eps (l_rms l) || (maxsteps =? 1)%nat then ret l else raise RuntimeError
    | S steps' =>
        let! meas := lift (finite (r_x r ++ r_y r)) in
        let! dphi := lift (kicks mplus meas reference) in
        let! dphi' := (if neqb scale n0 then ret dphi
                       else
                         let! s := get in
                         let! d := lift (match last dphi with Some d => Ok d | None => Err IndexError end) in
                         set_cavity_setpoints (oRF (ORD s)) DFloat [nmul (nopp scale) d] "Frequency" ADD ;;;
                         ret (take (length dphi - 1) dphi)) in
        add_kicks cms.1 (take (length cms.1) dphi') false ;;;
        add_kicks cms.2 (drop (length cms.1) dphi') true ;;;
        let! rl := read_and_log bpms l in
        if existsb (fun x => match x with None => true | Some _ => false end) (r_x rl.1) then raise RuntimeError
        else if match last (l_rms rl.2) with Some p => omax_lt p target | None => false end && is_stable (Nat.min NREPRO maxsteps) eps (l_rms rl.2)
             then ret rl.2
        else if is_stable NREPRO eps (l_rms rl.2) then ret rl.2
        else correct_loop steps' maxsteps mplus reference bpms cms eps target scale rl.1 rl.2
    end.
  Definition correct (m : list (list T)) (reference : option (list T)) (cms : option (list nat * list nat)) (bpms : option (list nat))
      (eps target : T) (maxsteps : nat) (scale : T) : M (sc T) log :=
    let! c := check_ords (if neqb scale n0 then m else map (fun r => take (length r - 1) r) m) reference bpms cms in
    let '(bpms', cms', reference') := c in
    let! rl := read_and_log bpms' no_log in
    correct_loop maxsteps maxsteps (pinv m) reference' bpms' cms' eps target scale rl.1 rl.2.
End Orbit.
Arguments log T : clear implicits.
