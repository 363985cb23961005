(** The Moore-Penrose inverse is unique; products and transposes of matrices given as lists of rows. *)
From Coq Require Import Reals Lra Lia.
From stdpp Require Import base gmap strings list.
From Verif Require Import Num Base Model_Arr Proofs_Beam Proofs_Mat.
Local Open Scope R_scope.

Lemma mmul_assoc r m p c a b d : shape r m a -> shape m p b -> shape p c d -> (0 < m)%nat -> (0 < p)%nat -> mmul (mmul a b) d = mmul a (mmul b d).
Proof.
  intros Ha Hb Hd Hm Hp. assert (Hab : shape r p (mmul a b)) by (by eapply shape_mmul). assert (Hbd : shape m c (mmul b d)) by (by eapply shape_mmul).
  apply (mget_ext r c); [by eapply shape_mmul|by eapply shape_mmul|]. intros i j Hi Hj.
  rewrite (mget_mmul r p c) by done. rewrite (mget_mmul r m c) by done.
  transitivity (sumn p (fun k => sumn m (fun l => mget a i l * mget b l k * mget d k j))).
  - apply sumn_ext. intros k Hk. rewrite (mget_mmul r m p) by done. rewrite <- sumn_scal_r. done.
  - rewrite sumn_swap. apply sumn_ext. intros l Hl. rewrite (mget_mmul m p c) by done. rewrite <- sumn_scal. apply sumn_ext. intros k _. ring.
Qed.
Lemma mtrans_mmul r m c a b : shape r m a -> shape m c b -> (0 < r)%nat -> (0 < m)%nat -> (0 < c)%nat -> mtrans (mmul a b) = mmul (mtrans b) (mtrans a).
Proof.
  intros Ha Hb Hr Hm Hc. assert (Hab : shape r c (mmul a b)) by (by eapply shape_mmul).
  assert (Hta : shape m r (mtrans a)) by (by apply shape_mtrans). assert (Htb : shape c m (mtrans b)) by (by apply shape_mtrans).
  apply (mget_ext c r); [by apply shape_mtrans|by eapply shape_mmul|]. intros i j Hi Hj.
  rewrite (mget_mtrans r c) by done. rewrite (mget_mmul r m c) by done. rewrite (mget_mmul c m r) by done. apply sumn_ext. intros k Hk.
  rewrite (mget_mtrans m c), (mget_mtrans r m) by done. ring.
Qed.

(** [x] is the Moore-Penrose inverse of the [m] times [n] matrix [a]: the four equations that define it. *)
Definition penrose (m n : nat) (a x : list (list R)) : Prop :=
  shape m n a /\ shape n m x /\ mmul (mmul a x) a = a /\ mmul (mmul x a) x = x /\ mtrans (mmul a x) = mmul a x /\ mtrans (mmul x a) = mmul x a.
Lemma penrose_sym m n a x : penrose m n a x -> penrose n m x a.
Proof. intros (A&B&C&D&E&F). exact (conj B (conj A (conj D (conj C (conj F E))))). Qed.
Lemma penrose_left m n a x y : (0 < m)%nat -> (0 < n)%nat -> penrose m n a x -> penrose m n a y -> mmul a x = mmul a y.
Proof.
  intros Hm Hn (Ha&Hx&X1&X2&X3&X4) (_&Hy&Y1&Y2&Y3&Y4).
  assert (Hax : shape m m (mmul a x)) by (by eapply shape_mmul). assert (Hay : shape m m (mmul a y)) by (by eapply shape_mmul).
  transitivity (mmul (mmul a y) (mmul a x)).
  { rewrite <- (mmul_assoc m m n m) by done. by rewrite Y1. }
  transitivity (mmul (mtrans (mmul a y)) (mtrans (mmul a x))); [by rewrite X3, Y3|].
  rewrite <- (mtrans_mmul m m m) by done. rewrite <- (mmul_assoc m m n m) by done. by rewrite X1.
Qed.
Lemma penrose_right m n a x y : (0 < m)%nat -> (0 < n)%nat -> penrose m n a x -> penrose m n a y -> mmul x a = mmul y a.
Proof.
  intros Hm Hn (Ha&Hx&X1&X2&X3&X4) (_&Hy&Y1&Y2&Y3&Y4).
  assert (Hxa : shape n n (mmul x a)) by (by eapply shape_mmul). assert (Hya : shape n n (mmul y a)) by (by eapply shape_mmul).
  assert (E : mmul (mmul x a) (mmul y a) = mmul x a).
  { rewrite (mmul_assoc n m n n) by done. rewrite <- (mmul_assoc m n m n a y a) by done. by rewrite Y1. }
  assert (F : mmul (mmul y a) (mmul x a) = mmul y a).
  { rewrite (mmul_assoc n m n n) by done. rewrite <- (mmul_assoc m n m n a x a) by done. by rewrite X1. }
  transitivity (mmul (mtrans (mmul x a)) (mtrans (mmul y a))); [by rewrite X4, Y4|].
  rewrite <- (mtrans_mmul n n n) by done. by rewrite F.
Qed.
Lemma penrose_unique m n a x y : (0 < m)%nat -> (0 < n)%nat -> penrose m n a x -> penrose m n a y -> x = y.
Proof.
  intros Hm Hn Px Py. pose proof (penrose_left _ _ _ _ _ Hm Hn Px Py) as L. pose proof (penrose_right _ _ _ _ _ Hm Hn Px Py) as Rr.
  destruct Px as (Ha&Hx&X1&X2&X3&X4), Py as (_&Hy&Y1&Y2&Y3&Y4).
  rewrite <- X2, <- Y2. rewrite (mmul_assoc n m n m x a x) by done. rewrite L. rewrite <- (mmul_assoc n m n m x a y) by done. by rewrite Rr.
Qed.
