(** Numbers.

    pySC computes with Python / numpy numbers.  The model is written once, generic over a type [T] that has the
    operations the code uses; the class below carries operations only, no laws.  Instances:
    - [NumR]: the real numbers (exact arithmetic); the theorems about arithmetic are stated here;
    - [NumQ]: normalised rationals, executable, used for witnesses and examples;
    - [NumF]: IEEE binary64 primitive floats, used for the findings about rounding. *)
From Coq Require Import Reals QArith Qabs Qround ZArith Floats Lra Lia.

Class Num (T : Type) := {
  n0 : T; n1 : T;
  nadd : T -> T -> T; nsub : T -> T -> T; nmul : T -> T -> T; ndiv : T -> T -> T;
  nopp : T -> T;
  nltb : T -> T -> bool; nleb : T -> T -> bool; neqb : T -> T -> bool;
  nfloor : T -> T;
  nofZ : Z -> T
}.

(** Operations that only exist for real numbers (numpy cos, sin, sqrt, pi). *)
Class Trig (T : Type) := { ncos : T -> T; nsin : T -> T; nsqrt : T -> T; npi : T }.

Section Derived.
  Context {T : Type} {N : Num T}.
  (** numpy [abs], [sign], and the C cast float -> int (towards zero). *)
  Definition nabs (x : T) : T := if nltb x n0 then nopp x else x.
  Definition nsign (x : T) : T := if nltb x n0 then nopp n1 else if nltb n0 x then n1 else n0.
  Definition ntrunc (x : T) : T := if nltb x n0 then nopp (nfloor (nopp x)) else nfloor x.
  Definition nmax (x y : T) : T := if nltb x y then y else x.
  Definition nmin (x y : T) : T := if nltb y x then y else x.
  Definition ntwo : T := nadd n1 n1.
  (** [numpy.remainder] for floats: [x - y*floor(x/y)]. *)
  Definition nrem (x y : T) : T := nsub x (nmul y (nfloor (ndiv x y))).
  Definition nsum (l : list T) : T := List.fold_left nadd l n0.
  Definition nofnat (n : nat) : T := nofZ (Z.of_nat n).
End Derived.

(** * Real numbers *)
Definition Rltb (x y : R) : bool := if Rlt_dec x y then true else false.
Definition Rleb (x y : R) : bool := if Rle_dec x y then true else false.
Definition Reqb (x y : R) : bool := if Req_EM_T x y then true else false.

#[global] Instance NumR : Num R := {
  n0 := 0%R; n1 := 1%R; nadd := Rplus; nsub := Rminus; nmul := Rmult; ndiv := Rdiv; nopp := Ropp;
  nltb := Rltb; nleb := Rleb; neqb := Reqb; nfloor := fun x => IZR (Int_part x); nofZ := IZR
}.
#[global] Instance TrigR : Trig R := { ncos := cos; nsin := sin; nsqrt := R_sqrt.sqrt; npi := PI }.

(** * Rationals, kept in lowest terms so that equal numbers are equal terms *)
Definition Qltb (x y : Q) : bool := negb (Qle_bool y x).
#[global] Instance NumQ : Num Q := {
  n0 := 0%Q; n1 := 1%Q;
  nadd := fun x y => Qred (x + y); nsub := fun x y => Qred (x - y);
  nmul := fun x y => Qred (x * y); ndiv := fun x y => Qred (x / y);
  nopp := fun x => Qred (- x);
  nltb := Qltb; nleb := Qle_bool; neqb := Qeq_bool;
  nfloor := fun x => inject_Z (Qfloor x); nofZ := inject_Z
}.

(** * IEEE binary64 *)
Definition Ffloor (x : float) : float :=
  match Prim2SF x with
  | S754_finite s m e =>
      if (0 <=? e)%Z then x
      else SF2Prim (binary_normalize prec emax (Z.shiftr (if s then Z.neg m else Z.pos m) (- e)) 0 s)
  | _ => x
  end.
Definition FofZ (z : Z) : float := SF2Prim (binary_normalize prec emax z 0 false).
#[global] Instance NumF : Num float := {
  n0 := 0%float; n1 := 1%float; nadd := PrimFloat.add; nsub := PrimFloat.sub; nmul := PrimFloat.mul;
  ndiv := PrimFloat.div; nopp := PrimFloat.opp; nltb := PrimFloat.ltb; nleb := PrimFloat.leb;
  neqb := PrimFloat.eqb; nfloor := Ffloor; nofZ := FofZ
}.

(** * Reduction lemmas at the reals *)
Lemma nadd_R x y : @nadd R _ x y = (x + y)%R. Proof. reflexivity. Qed.
Lemma nsub_R x y : @nsub R _ x y = (x - y)%R. Proof. reflexivity. Qed.
Lemma nmul_R x y : @nmul R _ x y = (x * y)%R. Proof. reflexivity. Qed.
Lemma ndiv_R x y : @ndiv R _ x y = (x / y)%R. Proof. reflexivity. Qed.
Lemma nopp_R x : @nopp R _ x = (- x)%R. Proof. reflexivity. Qed.
Lemma n0_R : @n0 R _ = 0%R. Proof. reflexivity. Qed.
Lemma n1_R : @n1 R _ = 1%R. Proof. reflexivity. Qed.
Lemma nofZ_R z : @nofZ R _ z = IZR z. Proof. reflexivity. Qed.
Lemma nfloor_R x : @nfloor R _ x = IZR (Int_part x). Proof. reflexivity. Qed.
Lemma nofnat_R n : @nofnat R _ n = INR n. Proof. unfold nofnat. rewrite nofZ_R. symmetry. apply INR_IZR_INZ. Qed.
Lemma nltb_R x y : @nltb R _ x y = Rltb x y. Proof. reflexivity. Qed.
Lemma nleb_R x y : @nleb R _ x y = Rleb x y. Proof. reflexivity. Qed.
Lemma neqb_R x y : @neqb R _ x y = Reqb x y. Proof. reflexivity. Qed.

Lemma Rltb_true x y : Rltb x y = true <-> (x < y)%R.
Proof. unfold Rltb. destruct (Rlt_dec x y); split; intros; try discriminate; auto; lra. Qed.
Lemma Rltb_false x y : Rltb x y = false <-> (y <= x)%R.
Proof. unfold Rltb. destruct (Rlt_dec x y); split; intros; try discriminate; auto; lra. Qed.
Lemma Rleb_true x y : Rleb x y = true <-> (x <= y)%R.
Proof. unfold Rleb. destruct (Rle_dec x y); split; intros; try discriminate; auto; lra. Qed.
Lemma Rleb_false x y : Rleb x y = false <-> (y < x)%R.
Proof. unfold Rleb. destruct (Rle_dec x y); split; intros; try discriminate; auto; lra. Qed.
Lemma Reqb_true x y : Reqb x y = true <-> x = y.
Proof. unfold Reqb. destruct (Req_EM_T x y); split; intros; try discriminate; auto; congruence. Qed.
Lemma Reqb_false x y : Reqb x y = false <-> x <> y.
Proof. unfold Reqb. destruct (Req_EM_T x y); split; intros; try discriminate; auto; congruence. Qed.

Lemma nabs_R x : @nabs R _ x = Rabs x.
Proof.
  unfold nabs. rewrite nltb_R, n0_R, nopp_R. destruct (Rltb x 0) eqn:E.
  - apply Rltb_true in E. rewrite Rabs_left; lra.
  - apply Rltb_false in E. rewrite Rabs_right; lra.
Qed.
Lemma nsign_R_abs x : (@nsign R _ x * Rabs x)%R = x.
Proof.
  unfold nsign. cbn [nltb n0 n1 nopp NumR]. destruct (Rltb x 0) eqn:E.
  - apply Rltb_true in E. rewrite Rabs_left; lra.
  - apply Rltb_false in E. destruct (Rltb 0 x) eqn:E2.
    + apply Rltb_true in E2. rewrite Rabs_right; lra.
    + apply Rltb_false in E2. assert (x = 0%R) as -> by lra. rewrite Rabs_R0. ring.
Qed.
Lemma nsign_R_le1 x : (Rabs (@nsign R _ x) <= 1)%R.
Proof.
  unfold nsign. cbn [nltb n0 n1 nopp NumR].
  destruct (Rltb x 0); [|destruct (Rltb 0 x)].
  - rewrite Rabs_Ropp, Rabs_R1; lra.
  - rewrite Rabs_R1; lra.
  - rewrite Rabs_R0; lra.
Qed.

#[global] Opaque Rltb Rleb Reqb.

(** Replace the class operations at [R] by the operations of the reals. *)
Ltac num_R := repeat rewrite ?nabs_R, ?nofnat_R in *; cbn [n0 n1 nadd nsub nmul ndiv nopp nltb nleb neqb nofZ NumR] in *.
