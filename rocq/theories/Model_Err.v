(** Random errors, circumference scaling, supports and misalignments
    (pySC/core/simulated_commissioning.py, pySC/utils/sc_tools.py, pySC/utils/classdef_tools.py). *)
From stdpp Require Import base gmap strings list.
From Verif Require Import Num Base Model_Arr Model_SC.
Local Open Scope string_scope.
Local Open Scope list_scope.

(** [re.search(p, s)] for a plain string, and Python's [p in s] *)
Definition substring (p s : string) : bool := isSome (String.index 0 p s).

Section Err.
  Context {T : Type} {N : Num T}.

  (** * Random numbers *)

  (** [numpy.random.randn(n)]: the next [n] values of the stream. *)
  Definition draw (n : nat) : M (sc T) (list T) := fun s =>
    if (length (RNG s) <? n)%nat then (Err OutOfDraws, s)
    else (Ok (take n (RNG s)), set_RNG (drop n (RNG s)) s).
  Definition too_big (cut x : T) : bool := nltb (nabs cut) (nabs x).
  (** [out[outindex] = fresh] *)
  Fixpoint refill (cut : T) (out fresh : list T) : list T :=
    match out with
    | [] => []
    | x :: out' =>
        if too_big cut x then
          match fresh with
          | y :: fresh' => y :: refill cut out' fresh'
          | [] => x :: refill cut out' []
          end
        else x :: refill cut out' fresh
    end.
  Fixpoint randnc_loop (fuel : nat) (cut : T) (out : list T) : M (sc T) (list T) :=
    let n := length (List.filter (too_big cut) out) in
    if (n =? 0)%nat then ret out
    else match fuel with
         | 0%nat => raise OutOfFuel
         | S fuel' => let! fresh := draw n in randnc_loop fuel' cut (refill cut out fresh)
         end.
  (** sc_tools.py lines 32-42 (randnc) for [n] requested values in row-major order. *)
  Definition randnc (cut : T) (n : nat) : M (sc T) (list T) :=
    let! out := draw n in
    let! s := get in
    randnc_loop (S (length (RNG s))) cut out.
  (** shape (): a single number *)
  Definition randnc1 (cut : T) : M (sc T) T :=
    let! l := randnc cut 1 in lift (idx l 0).
  (** sc_tools.py lines 32-42 with the shape as given by the caller: a single number for shapes whose entries sum to
      zero, else the values of an array of this shape in row-major order. *)
  Definition randnc_shape (cut : T) (shape : list Z) : M (sc T) (T + list T) :=
    if existsb (fun d => d <? 0)%Z shape then raise ValueError
    else if (foldr Z.add 0%Z shape <? 1)%Z then let! x := randnc1 cut in ret (inl x)
    else let! l := randnc cut (Z.to_nat (foldr Z.mul 1%Z shape)) in ret (inr l).

  (** give a flat list the row lengths of a matrix *)
  Fixpoint reshape (rows : list (list T)) (l : list T) : list (list T) :=
    match rows with
    | [] => []
    | r :: rows' => take (length r) l :: reshape rows' (drop (length r) l)
    end.

  (** [field * randnc(cut, np.shape(field))]; an empty array has sum(shape) < 1, so one number is drawn for it.
      Values that are not numbers or arrays: TypeError. *)
  Definition scaled_draw (v : val T) (cut : T) : M (sc T) (val T) :=
    match v with
    | VNum x => let! d := randnc1 cut in ret (VNum (nmul x d))
    | VVec [] => let! d := randnc1 cut in ret (VVec [])
    | VVec l => let! d := randnc cut (length l) in ret (VVec (zip_with nmul l d))
    | VMat rows => let! d := randnc cut (length (concat rows)) in ret (VMat (reshape rows (zip_with nmul (concat rows) d)))
    | _ => raise TypeError
    end.
  (** classdef_tools.py lines 17-20 (randn_cutoff). *)
  Definition randn_cutoff (field : sigval T) (default_cut : T) : M (sc T) (val T) :=
    match field with
    | SCut v cut => scaled_draw v cut
    | SPlain v => scaled_draw v default_cut
    end.

  (** simulated_commissioning.py lines 511-519 (set_random_multipole_errors), [BA] by rows. *)
  Definition set_random_multipole_errors (ords : list nat) (BA : list (list T)) : M (sc T) unit :=
    if forallb (fun r => (length r =? 2)%nat) BA then
      forM ords (fun ord =>
        let! d := randnc ntwo (length (concat BA)) in
        let randBA := reshape BA (zip_with nmul d (concat BA)) in
        forM [(0, "B"); (1, "A")]%nat (fun p =>
          let name := "Polynom" +:+ p.2 +:+ "Offset" in
          on_elem ord (let! e := get in
                       match e !! name with
                       | None => setattr name (VVec (col randBA p.1))
                       | Some v => let! v' := lift (add_padded v (VVec (col randBA p.1))) in setattr name (VVec v')
                       end)))
    else raise ValueError.

  (** * Circumference *)

  Definition elem_length (e : elem T) : T := match e !! "Length" with Some (VNum l) => l | _ => n0 end.
  (** at findspos of the ring; an element without Length counts as zero *)
  Definition spos (ring : list (elem T)) : list T := findspos_from n0 (map elem_length ring).
  Definition circumference (ring : list (elem T)) : T := default n0 (last (spos ring)).

  Definition is_drift (e : elem T) : res bool :=
    let? pm := attr_str e "PassMethod" in Ok (bool_decide (pm = "DriftPass")).
  (** sc_tools.py lines 107-110: total drift length, and whether there is a drift at all *)
  Definition drift_sum (ring : list (elem T)) : res (bool * T) :=
    rfold (fun acc e =>
      let? d := is_drift e in
      if d then let? l := attr_num e "Length" in Ok (true, nadd acc.2 l) else Ok acc) ring (false, n0).
  Definition scale_drift (f : T) : M (elem T) unit :=
    let! d := getm is_drift in
    when d (let! l := getm (fun e => attr_num e "Length") in setattr "Length" (VNum (nmul l f))).
  (** sc_tools.py lines 102-118 (scale_circumference), applied to [RING].  With no drift element the undefined
      factor is not used; with drifts of total length zero it is (pseudo-exception NonFinite). *)
  Definition scale_circumference (circ : T) (mode : string) : M (sc T) unit :=
    if decide (mode = "abs" \/ mode = "rel") then
      let! s := get in
      let C := circumference (RING s) in
      let! hd := lift (drift_sum (RING s)) in
      if hd.1 : bool then
        let! f := lift (if decide (mode = "rel")
                        then let? q := qdiv (nmul (nsub n1 circ) C) hd.2 in Ok (nsub n1 q)
                        else let? q := qdiv (nsub C circ) hd.2 in Ok (nsub n1 q)) in
        forM (seq 0 (length (RING s))) (fun i => on_elem i (scale_drift f))
      else ret tt
    else raise ValueError.

  (** * Supports *)

  (** simulated_commissioning.py lines 581-590: random offsets and rolls of one support *)
  Definition support_draws (t : stype) (p : nat * nat) (nsig : T) : M (sc T) unit :=
    let! s := get in
    forM (default [] (sSupport (SIG s) !! p.1)) (fun kv =>
      if substring (stype_str t) kv.1 then
        let! v0 := randn_cutoff kv.2 nsig in
        on_elem p.1 (setattr kv.1 v0) ;;;
        let! s := get in
        match sSupport (SIG s) !! p.2 with
        | None => raise KeyError
        | Some d1 =>
            if decide (kv.1 ∈ dkeys d1) then
              let! v1 := randn_cutoff kv.2 nsig in on_elem p.2 (setattr kv.1 v1)
            else
              let! e0 := ring_elem p.1 in
              let! v := lift (attr e0 kv.1) in on_elem p.2 (setattr kv.1 v)
        end
      else ret tt).

  (** one angle: lines 597-606 (component 1 of the offsets, roll index 1) and 607-615 (component 0, roll index 2).
      Result: rolls, offsets at start, offsets at end. *)
  Definition one_angle (comp rollidx : nat) (len : T) (end_has_offset : bool) (x : list T * list T * list T) : res (list T * list T * list T) :=
    let '(rolls, off0, off1) := x in
    let? r := idx rolls rollidx in
    let? a := idx off0 comp in
    let? b := idx off1 comp in
    if negb (neqb r n0) then
      if end_has_offset then Err GenericException
      else let h := ndiv (nmul r len) ntwo in
           Ok (rolls, <[comp := nsub a h]> off0, <[comp := nadd b h]> off1)
    else let? q := qdiv (nsub b a) len in Ok (<[rollidx := q]> rolls, off0, off1).

  (** lines 592-618: make angles and endpoint offsets consistent *)
  Definition support_angles (spos : list T) (t : stype) (p : nat * nat) : M (sc T) unit :=
    let! s1 := lift (idx spos p.1) in
    let! s2 := lift (idx spos p.2) in
    let C := default n0 (last spos) in
    let! len := lift (if neqb C n0 then Err NonFinite else Ok (nrem (nsub s2 s1) C)) in
    let! e0 := ring_elem p.1 in
    let! e1 := ring_elem p.2 in
    let! rolls := lift (attr_vec e0 (stype_str t +:+ "Roll")) in
    let! off0 := lift (attr_vec e0 (stype_str t +:+ "Offset")) in
    let! off1 := lift (attr_vec e1 (stype_str t +:+ "Offset")) in
    let! s := get in
    let! d1 := lift (match sSupport (SIG s) !! p.2 with None => Err KeyError | Some d => Ok d end) in
    let ho := bool_decide (stype_str t +:+ "Offset" ∈ dkeys d1) in
    let! x1 := lift (one_angle 1 1 len ho (rolls, off0, off1)) in
    let! x2 := lift (one_angle 0 2 len ho x1) in
    let '(rolls', off0', off1') := x2 in
    on_elem p.1 (setattr (stype_str t +:+ "Roll") (VVec rolls')) ;;;
    on_elem p.1 (setattr (stype_str t +:+ "Offset") (VVec off0')) ;;;
    on_elem p.2 (setattr (stype_str t +:+ "Offset") (VVec off1')).

  (** simulated_commissioning.py lines 575-618 (_apply_support_alignment_error). *)
  Definition apply_support_alignment_error (nsig : T) : M (sc T) unit :=
    let! s := get in
    let sp := spos (RING s) in
    forM SUPPORT_TYPES (fun t =>
      let! s := get in
      forM (oSupport t (ORD s)) (fun p =>
        let! s := get in
        if isSome (sSupport (SIG s) !! p.1) then support_draws t p nsig ;;; support_angles sp t p
        else ret tt)).

  (** classdef_tools.py lines 35-51 (s_interpolation), one support on one row. *)
  Definition s_interp1 (s off : list T) (o1 o2 : nat) (f1 f2 : T) : res (list T) :=
    let? s1 := idx s o1 in
    let? s2 := idx s o2 in
    let C := default n0 (last s) in
    if neqb s1 s2 then
      if neqb f1 f2 then
        Ok (imap (fun i x => if (o1 <=? i)%nat && (i <=? o2)%nat then f1 else x) off)
      else Err ValueError
    else if nltb s1 s2 then
      Ok (imap (fun i x => if (o1 <=? i)%nat && (i <=? o2)%nat then interp2 (default n0 (s !! i)) s1 s2 f1 f2 else x) off)
    else
      Ok (imap (fun i x =>
            if (o1 <=? i)%nat then interp2 (default n0 (s !! i)) s1 (nadd s2 C) f1 f2
            else if (i <=? o2)%nat then interp2 (nadd C (default n0 (s !! i))) s1 (nadd s2 C) f1 f2
            else x) off).

  (** lines 732-740: offsets of one support type added to the rows of offsets [off] *)
  Definition support_type_offsets (ring : list (elem T)) (sp : list T) (t : stype) (pairs : list (nat * nat)) (off : list (list T)) : res (list (list T)) :=
    let? tmp := rmap (fun p =>
      let? e1 := idx ring p.1 in
      let? e2 := idx ring p.2 in
      let? v1 := attr_vec e1 (stype_str t +:+ "Offset") in
      let? v2 := attr_vec e2 (stype_str t +:+ "Offset") in
      if (length v1 =? 3)%nat && (length v2 =? 3)%nat then Ok (p, v1, v2) else Err ValueError) pairs in
    rmap (fun ir =>
      let '(i, row) := ir : nat * list T in
      rfold (fun acc x =>
        let '(p, v1, v2) := x : (nat * nat) * list T * list T in
        let? b1 := idx row p.1 in
        let? b2 := idx row p.2 in
        let? d1 := idx v1 i in
        let? d2 := idx v2 i in
        s_interp1 sp acc p.1 p.2 (nadd b1 d1) (nadd b2 d2)) tmp row) (imap (fun i r => (i, r)) off).

  (** lines 742-759: rolls of one support; the wrap-around mask is all True *)
  Definition support_mask (p : nat * nat) (i : nat) : bool :=
    if (p.2 <? p.1)%nat then true else (p.1 <=? i)%nat && (i <=? p.2)%nat.
  Definition support_rolls1 (ring : list (elem T)) (sp : list T) (off : list (list T)) (t : stype) (roll : list (list T)) (p : nat * nat) : res (list (list T)) :=
    let? e1 := idx ring p.1 in
    let? rv := attr_vec e1 (stype_str t +:+ "Roll") in
    let? r0 := idx rv 0 in
    let? s1 := idx sp p.1 in
    let? s2 := idx sp p.2 in
    let C := default n0 (last sp) in
    let len0 := nsub s2 s1 in
    let len := if (p.2 <? p.1)%nat then nadd C len0 else len0 in
    let? q1 := qdiv (nsub (mget off 1 p.2) (mget off 1 p.1)) len in
    let? q2 := qdiv (nsub (mget off 0 p.2) (mget off 0 p.1)) len in
    match roll with
    | [w0; w1; w2] =>
        Ok [imap (fun i x => if support_mask p i then nadd x r0 else x) w0;
            imap (fun i x => if support_mask p i then q1 else x) w1;
            imap (fun i x => if support_mask p i then q2 else x) w2]
    | _ => Err ValueError
    end.

  (** simulated_commissioning.py lines 724-759: offsets and rolls at every lattice position *)
  Definition support_all (s : sc T) : res (list (list T) * list (list T)) :=
    let sp := spos (RING s) in
    let z := replicate 3 (zeros (length sp)) in
    let? off := rfold (fun acc t => support_type_offsets (RING s) sp t (oSupport t (ORD s)) acc) SUPPORT_TYPES z in
    let? roll := rfold (fun acc t => rfold (support_rolls1 (RING s) sp off t) (oSupport t (ORD s)) acc) SUPPORT_TYPES z in
    Ok (off, roll).

  Definition list_eqb (a b : list T) : bool :=
    (length a =? length b)%nat && forallb (fun p => neqb p.1 p.2) (zip a b).

  (** simulated_commissioning.py lines 724-766 (support_offset_and_roll). *)
  Definition support_offset_and_roll (s_locations : list T) (s : sc T) : res (list (list T) * list (list T)) :=
    let sp := spos (RING s) in
    let? or := support_all s in
    if list_eqb s_locations sp then Ok or
    else
      let b := unique_index sp in
      let sample row := zip (map (fun i => default n0 (sp !! i)) b) (map (fun i => default n0 (row !! i)) b) in
      let? off := rmap (fun row => rmap (fun x => interp x (sample row)) s_locations) or.1 in
      let? roll := rmap (fun row => rmap (fun x => interp x (sample row)) s_locations) or.2 in
      Ok (off, roll).

  (** * Misalignment transformations *)
  Context {Tr : Trig T}.

  (** sc_tools.py lines 183-191 (rotation). *)
  Definition rotation (ax ay az : T) : list (list T) :=
    let cx := ncos ax in let sx := nsin ax in
    let cy := ncos ay in let sy := nsin ay in
    let cz := ncos az in let sz := nsin az in
    [[nmul cy cz; nmul (nopp cy) sz; sy];
     [nadd (nmul (nmul cz sx) sy) (nmul cx sz); nsub (nmul cx cz) (nmul (nmul sx sy) sz); nmul (nopp cy) sx];
     [nadd (nmul (nmul (nopp cx) cz) sy) (nmul sx sz); nadd (nmul cz sx) (nmul (nmul cx sy) sz); nmul cx cy]].

  Definition x_axis : list T := [n1; n0; n0].
  Definition y_axis : list T := [n0; n1; n0].
  Definition z_axis : list T := [n0; n0; n1].

  (** sc_tools.py lines 194-197 (_translation_vector); divides by [r3d[2,2]]. *)
  Definition translation_vector (ld : T) (r : list (list T)) (xax yax offsets : list T) : res (list T) :=
    let r22 := mget r 2 2 in
    if neqb r22 n0 then Err NonFinite else
    Ok (zip_with nadd
          [ndiv (nmul ld (mget r 2 0)) r22; mget r 2 0; ndiv (nmul ld (mget r 2 1)) r22; mget r 2 1; n0; ndiv ld r22]
          [nopp (dot offsets xax); n0; nopp (dot offsets yax); n0; n0; n0]).

  (** sc_tools.py lines 200-208 (_r_matrix). *)
  Definition r_matrix (ld : T) (r : list (list T)) : res (list (list T)) :=
    let g := mget r in
    let r22 := g 2 2 in
    let sq := nmul r22 r22 in
    if neqb r22 n0 then Err NonFinite else
    Ok [[ndiv (g 1 1) r22; ndiv (nmul ld (g 1 1)) sq; ndiv (nopp (g 0 1)) r22; ndiv (nmul (nopp ld) (g 0 1)) sq; n0; n0];
        [n0; g 0 0; n0; g 1 0; g 2 0; n0];
        [ndiv (nopp (g 1 0)) r22; ndiv (nmul (nopp ld) (g 1 0)) sq; ndiv (g 0 0) r22; ndiv (nmul ld (g 0 0)) sq; n0; n0];
        [n0; g 0 1; n0; g 1 1; g 2 1; n0];
        [n0; n0; n0; n0; n1; n0];
        [ndiv (nopp (g 0 2)) r22; ndiv (nmul (nopp ld) (g 0 2)) sq; ndiv (nopp (g 1 2)) r22; ndiv (nmul (nopp ld) (g 1 2)) sq; n0; n1]]%nat.

  (** [a + b] of two attributes, required to give three numbers *)
  Definition three (v : val T) : res (T * T * T) :=
    match v with VVec [a; b; c] => Ok (a, b, c) | _ => Err ValueError end.
  Definition num_default (e : elem T) (a : string) : res T :=
    match e !! a with None => Ok n0 | Some v => as_num v end.

  (** the matrix inverse [numpy.linalg.inv]: an oracle *)
  Variable minv : list (list T) -> res (list (list T)).

  (** sc_tools.py lines 121-148 (update_transformation). *)
  Definition update_transformation : M (elem T) unit :=
    let! len := getm (fun e => num_default e "Length") in
    let! th := getm (fun e => num_default e "BendingAngle") in
    let! off := getm (fun e => let? a := attr e "SupportOffset" in let? b := attr e "MagnetOffset" in
                               let? c := nb_op nadd a b in three c) in
    let! rl := getm (fun e => let? a := attr e "MagnetRoll" in let? b := attr e "SupportRoll" in
                              let? c := nb_op nadd a b in three c) in
    let '(rz, rx, ry) := rl in
    let offsets := [off.1.1; off.1.2; off.2] in
    let r3d := rotation rx ry rz in
    let ld := dot (mvec r3d z_axis) offsets in
    let! tv := lift (translation_vector ld r3d (mvec r3d x_axis) (mvec r3d y_axis) offsets) in
    let! R1 := lift (r_matrix ld r3d) in
    setattr "R1" (VMat R1) ;;;
    let! inv := lift (minv R1) in
    setattr "T1" (VVec (mvec inv tv)) ;;;
    let RX := rotation rx ry rz in
    let RB := rotation n0 (nopp th) n0 in
    let r3d2 := mmul (mtrans RB) (mmul (mtrans RX) RB) in
    let OPp := if neqb th n0 then [n0; n0; len]
               else [ndiv (nmul len (nsub (ncos th) n1)) th; n0; nmul len (ndiv (nsin th) th)] in
    let OpPp := zip_with nsub (zip_with nsub OPp (mvec RX OPp)) offsets in
    let ld2 := dot (mvec RB z_axis) OpPp in
    let! T2 := lift (translation_vector ld2 r3d2 (mvec RB x_axis) (mvec RB y_axis) OpPp) in
    setattr "T2" (VVec T2) ;;;
    let! R2 := lift (r_matrix ld2 r3d2) in
    setattr "R2" (VMat R2).

  (** [x[:, i]] of the three rows *)
  Definition col3 (rows : list (list T)) (i : nat) : list T := col rows i.

  (** simulated_commissioning.py lines 679-701 (update_supports). *)
  Definition update_supports (offset_bpms offset_magnets : bool) : M (sc T) unit :=
    let! s0 := get in
    let sp := spos (RING s0) in
    (if offset_magnets && negb (length (oMagnet (ORD s0)) =? 0)%nat then
       let! locs := lift (rmap (idx sp) (oMagnet (ORD s0))) in
       let! s := get in
       let! orr := lift (support_offset_and_roll locs s) in
       forM (imap (fun i o => (i, o)) (oMagnet (ORD s0))) (fun io =>
         on_elem io.2 (setattr "SupportOffset" (VVec (col3 orr.1 io.1)) ;;;
                       setattr "SupportRoll" (VVec (col3 orr.2 io.1)) ;;;
                       update_transformation) ;;;
         let! e := ring_elem io.2 in
         match e !! "MasterOf" with
         | None => ret tt
         | Some v =>
             let! children := lift (as_ords v) in
             forM children (fun c =>
               forM ["T1"; "T2"; "R1"; "R2"] (fun field =>
                 let! m := ring_elem io.2 in
                 let! x := lift (attr m field) in
                 on_elem c (setattr field x)))
         end)
     else ret tt) ;;;
    (if offset_bpms && negb (length (oBPM (ORD s0)) =? 0)%nat then
       let! locs := lift (rmap (idx sp) (oBPM (ORD s0))) in
       let! s := get in
       let! orr := lift (support_offset_and_roll locs s) in
       forM (imap (fun i o => (i, o)) (oBPM (ORD s0))) (fun io =>
         on_elem io.2 (setattr "SupportOffset" (VVec (take 2 (col3 orr.1 io.1))) ;;;
                       let! r := lift (idx (col3 orr.2 io.1) 0) in
                       setattr "SupportRoll" (VNum r)))
     else ret tt).

  (** * apply_errors *)

  (** [intersect(ORD.x, SIG.x.keys())] *)
  Definition registered (ords : list nat) (m : gmap nat (dict (sigval T))) : list nat :=
    List.filter (fun i => isSome (m !! i)) ords.
  Definition raw_sigma (v : sigval T) : val T := match v with SPlain v => v | SCut v c => VList v c end.

  Definition apply_rf (nsig : T) : M (sc T) unit :=
    let! s := get in
    forM (registered (oRF (ORD s)) (sRF (SIG s))) (fun ind =>
      forM (default [] (sRF (SIG s) !! ind)) (fun kv =>
        let! v := randn_cutoff kv.2 nsig in on_elem ind (setattr kv.1 v))).
  Definition apply_bpm (nsig : T) : M (sc T) unit :=
    let! s := get in
    forM (registered (oBPM (ORD s)) (sBPM (SIG s))) (fun ind =>
      forM (default [] (sBPM (SIG s) !! ind)) (fun kv =>
        if substring "Noise" kv.1 then on_elem ind (setattr kv.1 (raw_sigma kv.2))
        else let! v := randn_cutoff kv.2 nsig in on_elem ind (setattr kv.1 v))).
  Definition magnet_field (f : string) : string := if decide (f = "BendingAngle") then "BendingAngleError" else f.
  Definition apply_magnet (nsig : T) : M (sc T) unit :=
    let! s := get in
    forM (registered (oMagnet (ORD s)) (sMagnet (SIG s))) (fun ind =>
      forM (default [] (sMagnet (SIG s) !! ind)) (fun kv =>
        let! v := randn_cutoff kv.2 nsig in on_elem ind (setattr (magnet_field kv.1) v))).
  Definition set_Z0 (z : list T) (i : inj T) : inj T :=
    MkInj (beamLostAt i) (Z0ideal i) z (beamSize i) (randomInjectionZ i) (nParticles i) (nTurns i) (nShots i) (trackMode i).
  Definition set_randZ (z : list T) (i : inj T) : inj T :=
    MkInj (beamLostAt i) (Z0ideal i) (Z0 i) (beamSize i) z (nParticles i) (nTurns i) (nShots i) (trackMode i).
  Definition mod_INJ (f : inj T -> inj T) : M (sc T) unit := modify (fun s => set_INJ (f (INJ s)) s).
  Definition apply_injection (nsig : T) : M (sc T) unit :=
    let! s := get in
    let! d := randnc nsig 6 in
    let! x := lift (bcast nmul (sStatZ (SIG s)) d) in
    let! z := lift (bcast nadd (Z0ideal (INJ s)) x) in
    mod_INJ (set_Z0 z) ;;;
    mod_INJ (set_randZ (sRandZ (SIG s))).
  Definition apply_circumference (nsig : T) : M (sc T) unit :=
    let! d := randnc1 nsig in
    let! s := get in
    scale_circumference (nadd n1 (nmul (sCirc (SIG s)) d)) "rel".

  (** simulated_commissioning.py lines 542-573 (apply_errors).  The key 'Circumference' is always present in SIG. *)
  Definition apply_errors (nsig : T) : M (sc T) unit :=
    apply_rf nsig ;;; apply_bpm nsig ;;; apply_magnet nsig ;;;
    apply_injection nsig ;;;
    apply_circumference nsig ;;;
    apply_support_alignment_error nsig ;;;
    update_supports true true ;;;
    (let! s := get in when (negb (length (oMagnet (ORD s)) =? 0)%nat) update_magnets_all) ;;;
    (let! s := get in
     when (negb (length (oRF (ORD s)) =? 0)%nat && negb (bool_decide (sRF (SIG s) = ∅))) update_cavities_all).

  (** * The calls a user can make, and histories of calls *)
  Inductive op :=
  | OpBPM (ords : list nat) (kw : dict (sigval T))
  | OpRF (ords : list nat) (kw : dict (sigval T))
  | OpMagnet (ords : list nat) (errs : dict (sigval T)) (k : magtype T)
  | OpSupport (rows : list (list nat)) (t : string) (kw : dict (sigval T))
  | OpSysMultipole (ords : list nat) (BA : list (list T)) (order : nat) (skew : bool)
  | OpRandMultipole (ords : list nat) (BA : list (list T))
  | OpApplyErrors (nsig : T)
  | OpSetCM (ords : list nat) (dt : dtype) (sps : list T) (skew : bool) (method : string)
  | OpSetMagnet (ords : list nat) (dt : dtype) (sps : list T) (skew : bool) (order : nat) (method : string) (dipcomp : bool)
  | OpSetCavity (ords : list nat) (dt : dtype) (sps : list T) (param method : string)
  | OpUpdateMagnets (ords : list nat)
  | OpUpdateCavities (ords : list nat)
  | OpUpdateSupports (offset_bpms offset_magnets : bool)
  | OpTrackMode (mode : string).

  Definition on_INJ {A} (m : M (inj T) A) : M (sc T) A := fun s =>
    let '(r, i) := m (INJ s) in (r, set_INJ i s).

  Definition call (o : op) : M (sc T) unit :=
    match o with
    | OpBPM ords kw => register_bpms ords kw
    | OpRF ords kw => register_cavities ords kw
    | OpMagnet ords errs k => register_magnets ords errs k
    | OpSupport rows t kw => register_supports rows t kw
    | OpSysMultipole ords BA order skew => set_systematic_multipole_errors ords BA order skew
    | OpRandMultipole ords BA => set_random_multipole_errors ords BA
    | OpApplyErrors nsig => apply_errors nsig
    | OpSetCM ords dt sps skew method => set_cm_setpoints ords dt sps skew method
    | OpSetMagnet ords dt sps skew order method dc => set_magnet_setpoints ords dt sps skew order method dc
    | OpSetCavity ords dt sps param method => set_cavity_setpoints ords dt sps param method
    | OpUpdateMagnets ords => update_magnets ords
    | OpUpdateCavities ords => update_cavities ords
    | OpUpdateSupports b m => update_supports b m
    | OpTrackMode mode => on_INJ (set_trackMode mode)
    end.
  (** A history: the caller catches exceptions and goes on with the object as it was left. *)
  Definition run (ops : list op) (s : sc T) : sc T := fold_left (fun s o => snd (call o s)) ops s.
End Err.
Arguments op T : clear implicits.
