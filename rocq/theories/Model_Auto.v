(** pySC/lattice_properties/apertures.py: angles chosen automatically, plane and polar coordinates (lines 11-12, 122-142). *)
From Coq Require Import ZArith.
From stdpp Require Import base strings list.
From Verif Require Import Num Base Model_Arr Model_SC Model_Aper Model_Scan.
Local Open Scope string_scope.
Local Open Scope list_scope.

Section Auto.
  Context {T : Type} {N : Num T} {G : Trig T}.
  (** numpy.arctan2, numpy.cosh, numpy.sinh, numpy.arccosh for real arguments (arccosh at least 1) *)
  Context (arctan2 : T -> T -> T) (cosh sinh arccosh : T -> T).

  (** lines 134-137 (cart2pol) *)
  Definition cart2pol (x y : T) : T * T := (nsqrt (nadd (nmul x x) (nmul y y)), arctan2 y x).
  (** lines 139-142 (pol2cart) *)
  Definition pol2cart (rho phi : T) : T * T := (nmul rho (ncos phi), nmul rho (nsin phi)).
  (** lines 55-58, the centring of one point on the orbit *)
  Definition centred (x0 y0 : T) (rho phi : T) : T * T :=
    let p := pol2cart rho phi in cart2pol (nsub p.1 x0) (nsub p.2 y0).

  (** lines 125-132 (_autothetas) from the four radii: the points [np.cosh(mu + 1j * nu)] in polar coordinates.
      The complex hyperbolic cosine is written out in real and imaginary part.  If the eccentricity is not a positive number
      - NaN for [b > a], zero for [b = a], and without a finite value for [a = 0] - everything that follows is NaN or infinite;
      this is [None]. *)
  Definition ellipse (r0 r1 r2 r3 : T) (nt : nat) : option (list (T * T)) :=
    let a := ndiv (nadd r0 r2) ntwo in
    let b := ndiv (nadd r1 r3) ntwo in
    if neqb a n0 then None
    else
      let q := nsub n1 (ndiv (nmul b b) (nmul a a)) in
      if nleb q n0 then None
      else
        let e := nsqrt q in
        let mu := arccosh (ndiv n1 e) in
        Some (map (fun nu => cart2pol (nmul (cosh mu) (ncos nu)) (nmul (sinh mu) (nsin nu))) (linspace n0 (nmul ntwo npi) nt)).

  Context (track : list (list T) -> nat -> res (array T)).
  (** lines 122-132 (_autothetas); the call in line 124 leaves everything but angles and [auto] at its default *)
  Definition four_angles : list T := linspace n0 (ndiv (nmul (nmul ntwo npi) (nofnat 3)) (nofnat 4)) 4.
  Definition autothetas (fuel : nat) (dE : T) (nt : nat) : res (option (list (T * T))) :=
    let? r := dynamic_aperture track fuel 1000 dE n0 (ndiv n1 (nofZ 1000)) four_angles (ndiv n1 (nofZ 1000000)) false true false in
    let rs := r.1.2 in
    let? r0 := idx rs 0 in let? r1 := idx rs 1 in let? r2 := idx rs 2 in let? r3 := idx rs 3 in
    Ok (ellipse r0 r1 r2 r3 nt).
  (** lines 8-60 (SCdynamicAperture) with [auto]; the radii at angles that are no numbers are not followed ([NonFinite]) *)
  Definition dynamic_aperture_auto (auto : nat) (fuel turns : nat) (dE bound0 bound1 : T) (thetas : list T) (accuracy : T) (launch center use6 : bool) : res (T * list T * list T) :=
    if (0 <? auto)%nat then
      let? o := autothetas fuel dE auto in
      match o with
      | None => Err NonFinite
      | Some l => dynamic_aperture track fuel turns dE bound0 bound1 (map snd l) accuracy launch center use6
      end
    else dynamic_aperture track fuel turns dE bound0 bound1 thetas accuracy launch center use6.
End Auto.
