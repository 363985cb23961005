(** pySC/lattice_properties/apertures.py. *)
From Coq Require Import ZArith.
From stdpp Require Import base strings list.
From Verif Require Import Num Base Model_Arr Model_SC.
Local Open Scope string_scope.
Local Open Scope list_scope.

(** An array of any shape; the value at a list of indices, [None] for NaN. *)
Record array (T : Type) := MkArray { a_shape : list nat; a_get : list nat -> option T }.
Arguments MkArray {T}. Arguments a_shape {T}. Arguments a_get {T}.

Section Aper.
  Context {T : Type} {N : Num T} {G : Trig T}.

  (** [a[i]], [a[:, i]], [a[:, lo:hi]] *)
  Definition at_first (a : array T) (i : nat) : res (array T) :=
    match a_shape a with
    | n :: sh => if (i <? n)%nat then Ok (MkArray sh (fun l => a_get a (i :: l))) else Err IndexError
    | [] => Err IndexError
    end.
  Definition at_second (a : array T) (i : nat) : res (array T) :=
    match a_shape a with
    | n :: m :: sh => if (i <? m)%nat then Ok (MkArray (n :: sh) (fun l => match l with j :: l' => a_get a (j :: i :: l') | [] => None end)) else Err IndexError
    | _ => Err IndexError
    end.
  Definition slice_second (a : array T) (lo hi : nat) : res (array T) :=
    match a_shape a with
    | n :: m :: sh => Ok (MkArray (n :: (hi `min` m - lo) :: sh) (fun l => match l with j :: k :: l' => a_get a (j :: (lo + k) :: l') | _ => None end))%nat
    | _ => Err IndexError
    end.
  (** [bool(np.isnan(a))]: only for a single value *)
  Definition truth_nan (a : array T) : res bool :=
    if (foldr Nat.mul 1 (a_shape a) =? 1)%nat then Ok (match a_get a (map (fun _ => 0%nat) (a_shape a)) with None => true | Some _ => false end) else Err ValueError.
  Definition first_length (a : array T) : nat := match a_shape a with n :: _ => n | [] => 0%nat end.

  (** at_wrapper.py lines 24-27 (lattice_track): particles (each a list of six coordinates) and number of turns to the
      array of positions.  The function works on copies of its arguments. *)
  Variable track : list (list T) -> nat -> res (array T).

  Definition set_xy (z : list T) (r theta : T) : res (list T) :=
    let? z1 := idx_set z 0 (nmul r (ncos theta)) in idx_set z1 2 (nmul r (nsin theta)).

  (** the closed orbit is the state: [ZCO[:]] is a view, so lines 99-104 and 113-115 write into it *)
  Definition mean2 (lo hi : T) : T := ndiv (nadd lo hi) ntwo.
  (** lines 98-107 (_check_bounds): Zmin and Zmax are the same memory, both particles have the coordinates written last. *)
  Definition check_bounds_xy (turns : nat) (theta lo hi : T) : M (list T) bool :=
    let! z0 := get in
    let! z1 := lift (set_xy z0 lo theta) in modify (fun _ => z1) ;;;
    let! z2 := lift (set_xy z1 hi theta) in modify (fun _ => z2) ;;;
    let! out := lift (track [z2; z2] turns) in
    let n := first_length out in
    lift (let? last := slice_second out (n - 1) n in
          let? row := at_first last 0 in
          let? c0 := at_first row 0 in
          let? lost0 := truth_nan c0 in
          if lost0 then Ok false
          else let? c1 := at_first row 1 in truth_nan c1).
  (** lines 110-119 (_refine_bounds) *)
  Definition refine_bounds_xy (turns : nat) (theta lo hi : T) : M (list T) (T * T) :=
    let mid := mean2 lo hi in
    let! z0 := get in
    let! z1 := lift (set_xy z0 mid theta) in modify (fun _ => z1) ;;;
    let! out := lift (track [z1] turns) in
    let! lost := lift (let? last := at_second out (first_length out - 1) in let? x := at_first last 0 in truth_nan x) in
    ret (if lost : bool then (lo, mid) else (mid, hi)).

  (** lines 176-184 (scale_bounds) *)
  Definition scale_bounds (lo hi alpha : T) : T * T :=
    let m := mean2 lo hi in
    let lower := nsub m (nmul (nsub m lo) alpha) in
    let upper := nsub m (nmul (nsub m hi) alpha) in
    (if neqb (nsign lower) (nsign lo) then lower else n0, if neqb (nsign upper) (nsign hi) then upper else n0).

  (** lines 31-36 *)
  Fixpoint scale_loop (n turns : nat) (theta lo hi : T) : M (list T) (T * T) :=
    match n with
    | 0 => ret (lo, hi)
    | S n' =>
        let! ok := check_bounds_xy turns theta lo hi in
        if ok : bool then ret (lo, hi)
        else let '(lo', hi') := scale_bounds lo hi (nofnat 10) in scale_loop n' turns theta lo' hi'
    end%nat.
  (** lines 37-39 *)
  Fixpoint refine_loop (fuel turns : nat) (theta accuracy lo hi : T) : M (list T) (T * T) :=
    match fuel with
    | 0 => raise OutOfFuel
    | S fuel' =>
        if nltb accuracy (nabs (nsub hi lo)) then
          let! b := refine_bounds_xy turns theta lo hi in refine_loop fuel' turns theta accuracy b.1 b.2
        else ret (lo, hi)
    end%nat.
  (** lines 26-40, one angle.  The tracking in line 29 has no effect and is left out. *)
  Definition radius (fuel turns : nat) (accuracy lo hi theta : T) : M (list T) T :=
    let! b := scale_loop 16 turns theta lo hi in
    let! c := refine_loop fuel turns theta accuracy b.1 b.2 in
    ret (mean2 c.1 c.2).

  (** lines 45-48 *)
  Fixpoint area (thetas radii : list T) : T :=
    match thetas, radii with
    | t0 :: (t1 :: _) as ts, r0 :: (r1 :: _) as rs => nadd (ndiv (nmul (nmul (nsin (nsub t1 t0)) r0) r1) ntwo) (area ts rs)
    | _, _ => n0
    end.

  (** at.find_orbit4 and at.find_orbit6 return a pair: the orbit at the entrance and the orbits at the reference points. *)
  Definition orbit_result := (list T * list (list T))%type.

  (** lines 8-60 (SCdynamicAperture) for [auto=0], without plotting.  Lines 13-14 sort the two bounds by magnitude.
      [np.isnan] of the first component of the pair - an array of six - has no truth value (lines 21 and 54, ValueError); with
      [launchOnOrbit] and [useOrbit6] the pair takes the place of the orbit and has no sixth component (line 23, IndexError). *)
  Definition sort2 (lo hi : T) : T * T := if nltb (nabs hi) (nabs lo) then (hi, lo) else (lo, hi).
  Definition dynamic_aperture (fuel turns : nat) (dE : T) (bound0 bound1 : T) (thetas : list T) (accuracy : T) (launch center use6 : bool) : res (T * list T * list T) :=
    let '(lo, hi) := sort2 bound0 bound1 in
    let? zco := (if launch then if use6 then Err IndexError else Err ValueError else Ok (replicate 5 n0 ++ [dE])) in
    let? radii := fst (mapM thetas (radius fuel turns accuracy lo hi) zco) in
    let da := area thetas radii in
    if center then Err ValueError else Ok (da, radii, thetas).

  (** lines 145-154 (refine_bounds): [Z0 = ZCO] and the bounds are changed in place; state: bounds and closed orbit. *)
  Definition refine_bounds (turns : nat) : M ((T * T) * list T) unit :=
    let! st := get in
    let '((b0, b1), z) := st in
    let dmean := mean2 b0 b1 in
    let! e := lift (idx z 4) in
    let! z' := lift (idx_set z 4 (nadd e dmean)) in
    modify (fun _ => ((b0, b1), z')) ;;;
    let! lost := lift (let? out := track [z'] turns in let? x := at_first out 0 in truth_nan x) in
    modify (fun _ => ((if lost : bool then (b0, dmean) else (dmean, b1)), z')).
  (** lines 157-163 (check_bounds): [np.array([ZCO, ZCO])] has two rows, there is no row 4 *)
  Definition rows_of_two (z : list T) : array T := MkArray [2; length z]%nat (fun l => match l with [_; k] => z !! k | _ => None end).
  Definition check_bounds (z : list T) : res bool :=
    let? row := at_first (rows_of_two z) 4 in Ok true.
  (** lines 166-173 (increment_bounds, mysign) *)
  Definition mysign (v : T) : T := if nltb v n0 then nopp n1 else n1.
  Definition increment_bounds (b0 b1 stepsize : T) : T * T :=
    (nadd b0 (nmul (nmul (nopp n1) (mysign b0)) stepsize), nadd b1 (nmul (nmul n1 (mysign b1)) stepsize)).
  (** lines 63-95 (SCmomentumAperture) without plotting.  [at_wrapper.findorbit6] hands on what pyAT returns, the pair; [inr] is
      the array of orbits the function expects, one orbit per reference point here, [None] for a coordinate that is not finite.
      The tracking oracle stands for the rotated lattice of the point at hand. *)
  Definition flatten (zcos : orbit_result + list (list (option T))) : res (list (option T)) :=
    match zcos with inl _ => Err AttributeError | inr a => Ok (concat a) end.
  Fixpoint increment_loop (fuel : nat) (z : list T) (stepsize b0 b1 : T) : res (T * T) :=
    match fuel with
    | 0 => Err OutOfFuel
    | S fuel' =>
        let? ok := check_bounds z in
        if ok : bool then Ok (b0, b1) else let '(c0, c1) := increment_bounds b0 b1 stepsize in increment_loop fuel' z stepsize c0 c1
    end%nat.
  Fixpoint momentum_refine_loop (fuel turns : nat) (accuracy : T) : M ((T * T) * list T) unit :=
    match fuel with
    | 0 => raise OutOfFuel
    | S fuel' =>
        let! st := get in
        let '((b0, b1), z) := st in
        let! q := lift (qdiv (nsub b1 b0) (nmax b0 b1)) in
        if nltb accuracy (nabs q) then refine_bounds turns ;;; momentum_refine_loop fuel' turns accuracy else ret tt
    end%nat.
  Definition momentum_one (fuel turns : nat) (accuracy stepsize b0 b1 : T) (z : list T) : res (T * T) :=
    let? b := increment_loop fuel z stepsize b0 b1 in
    let '(r, st) := momentum_refine_loop fuel turns accuracy (b, z) in
    let? _ := r in Ok st.1.
  Definition momentum_aperture (fuel turns : nat) (accuracy stepsize b0 b1 : T) (zcos : orbit_result + list (list (option T))) (n_refs : nat) : res (list (T * T)) :=
    let? flat := flatten zcos in
    match zcos with
    | inl _ => Err TypeError
    | inr a =>
        if existsb (fun v => match v with None => true | Some _ => false end) flat then Ok (replicate n_refs (n0, n0))
        else rmap (fun i => let? z := idx a i in momentum_one fuel turns accuracy stepsize b0 b1 (omap Datatypes.id z)) (seq 0 n_refs)
    end.
End Aper.
