(** C33, C34: rotations and misalignment transformations. *)
From Coq Require Import Reals Lra QArith.
From stdpp Require Import base gmap strings list.
From Verif Require Import Num Base Model_Arr Model_SC Model_Err Lemmas Proofs_Reg Proofs_Update Spec.
Local Open Scope string_scope.
Local Open Scope list_scope.

(** * C33 *)
(** Specification: 3x3 matrices given by their entries. *)
Definition entry (m : list (list R)) (i j : nat) : R := match m !! i with Some r => match r !! j with Some x => x | None => 0%R end | None => 0%R end.
Arguments entry _ _%nat_scope _%nat_scope.
Definition is_3x3 (m : list (list R)) : Prop := length m = 3%nat /\ Forall (fun r => length r = 3%nat) m.
Definition delta (i j : nat) : R := if (i =? j)%nat then 1%R else 0%R.
Definition orthogonal (m : list (list R)) : Prop :=
  forall i j, i < 3 -> j < 3 ->
    (entry m i 0 * entry m j 0 + entry m i 1 * entry m j 1 + entry m i 2 * entry m j 2)%R = delta i j /\
    (entry m 0 i * entry m 0 j + entry m 1 i * entry m 1 j + entry m 2 i * entry m 2 j)%R = delta i j.
Definition det3 (m : list (list R)) : R :=
  (entry m 0 0 * (entry m 1 1 * entry m 2 2 - entry m 1 2 * entry m 2 1) - entry m 0 1 * (entry m 1 0 * entry m 2 2 - entry m 1 2 * entry m 2 0) + entry m 0 2 * (entry m 1 0 * entry m 2 1 - entry m 1 1 * entry m 2 0))%R.
Definition about_x (a : R) : list (list R) := [[1; 0; 0]; [0; cos a; - sin a]; [0; sin a; cos a]]%R.
Definition about_y (a : R) : list (list R) := [[cos a; 0; sin a]; [0; 1; 0]; [- sin a; 0; cos a]]%R.
Definition about_z (a : R) : list (list R) := [[cos a; - sin a; 0]; [sin a; cos a; 0]; [0; 0; 1]]%R.
Definition ident3 : list (list R) := [[1; 0; 0]; [0; 1; 0]; [0; 0; 1]]%R.
(** entries of the product of three matrices *)
Definition prod3 (p q r : list (list R)) (i j : nat) : R :=
  let pq k := (entry p i 0 * entry q 0 k + entry p i 1 * entry q 1 k + entry p i 2 * entry q 2 k)%R in
  (pq 0%nat * entry r 0 j + pq 1%nat * entry r 1 j + pq 2%nat * entry r 2 j)%R.

Lemma sin_sq (a : R) : (sin a * sin a = 1 - cos a * cos a)%R.
Proof. pose proof (sin2_cos2 a) as H. unfold Rsqr in H. lra. Qed.

Theorem C33_rotation ax ay az : is_3x3 (rotation ax ay az) /\ orthogonal (rotation ax ay az) /\ det3 (rotation ax ay az) = 1%R.
Proof.
  split; [|split].
  - split; [done|]. repeat constructor.
  - pose proof (sin_sq ax) as Hx. pose proof (sin_sq ay) as Hy. pose proof (sin_sq az) as Hz.
    intros i j Hi Hj. destruct i as [|[|[|]]]; try lia; destruct j as [|[|[|]]]; try lia; unfold rotation, entry, delta; cbn [lookup list_lookup Nat.eqb]; num_R; cbn [ncos nsin TrigR];
      (split; ring [Hx Hy Hz]).
  - pose proof (sin_sq ax) as Hx. pose proof (sin_sq ay) as Hy. pose proof (sin_sq az) as Hz.
    unfold det3, rotation, entry; cbn [lookup list_lookup]; num_R. cbn [ncos nsin TrigR]. ring [Hx Hy Hz].
Qed.
Theorem C33_product ax ay az i j : i < 3 -> j < 3 -> entry (rotation ax ay az) i j = prod3 (about_x ax) (about_y ay) (about_z az) i j.
Proof.
  intros Hi Hj. destruct i as [|[|[|]]]; try lia; destruct j as [|[|[|]]]; try lia; unfold rotation, prod3, entry, about_x, about_y, about_z; cbn [lookup list_lookup]; num_R; cbn [ncos nsin TrigR]; ring.
Qed.
Ltac lists := repeat match goal with |- _ :: _ = _ :: _ => f_equal end.
Theorem C33_single_axis a :
  rotation a 0%R 0%R = about_x a /\ rotation 0%R a 0%R = about_y a /\ rotation 0%R 0%R a = about_z a.
Proof.
  unfold rotation, about_x, about_y, about_z. num_R. cbn [ncos nsin TrigR]. rewrite cos_0, sin_0. split_and!; lists; ring.
Qed.
Theorem C33_identity : rotation 0%R 0%R 0%R = ident3.
Proof. unfold rotation, ident3. num_R. cbn [ncos nsin TrigR]. rewrite cos_0, sin_0. lists; ring. Qed.
Print Assumptions C33_rotation.

(** * C34 *)
(** Specification: the six-by-six identity, and the inverse contract of [numpy.linalg.inv] used here. *)
Definition ident6 : list (list R) :=
  [[1; 0; 0; 0; 0; 0]; [0; 1; 0; 0; 0; 0]; [0; 0; 1; 0; 0; 0]; [0; 0; 0; 1; 0; 0]; [0; 0; 0; 0; 1; 0]; [0; 0; 0; 0; 0; 1]]%R.
Definition inverts_identity (minv : list (list R) -> res (list (list R))) : Prop := minv ident6 = Ok ident6.
(** offsets and rolls of an element *)
Definition misaligned (e : elem R) (so mo sr mr : list R) : Prop :=
  e !! "SupportOffset" = Some (VVec so) /\ e !! "MagnetOffset" = Some (VVec mo) /\
  e !! "SupportRoll" = Some (VVec sr) /\ e !! "MagnetRoll" = Some (VVec mr).
Definition number_or_absent (e : elem R) (a : string) (x : R) : Prop := e !! a = Some (VNum x) \/ (e !! a = None /\ x = 0%R).

Lemma reqb_refl x : Reqb x x = true.
Proof. destruct (Reqb x x) eqn:E; [done|]. by apply Reqb_false in E. Qed.
Lemma reqb_10 : Reqb 1 0 = false.
Proof. destruct (Reqb 1 0) eqn:E; [|done]. apply Reqb_true in E. lra. Qed.
Lemma num_default_ok (e : elem R) a x : number_or_absent e a x -> num_default e a = Ok x.
Proof. intros [H|[H ->]]; unfold num_default; by rewrite H. Qed.
Ltac mats := cbv [mvec mmul mtrans col mget dot nsum map seq length zip_with fold_left default lookup list_lookup mbind option_bind mret option_ret from_option Datatypes.id fst snd x_axis y_axis z_axis].
Lemma translation_ident (xax yax off : list R) ld : translation_vector ld ident3 xax yax off = Ok [(- dot off xax)%R; 0%R; (- dot off yax)%R; 0%R; 0%R; ld].
Proof.
  unfold translation_vector, ident3. assert (mget [[1; 0; 0]; [0; 1; 0]; [0; 0; 1]]%R 2 2 = 1%R) as -> by reflexivity. num_R. rewrite reqb_10. f_equal.
  cbv [mget default lookup list_lookup mbind option_bind from_option Datatypes.id zip_with]. num_R. lists; field.
Qed.
Lemma r_matrix_ident : r_matrix 0%R ident3 = Ok ident6.
Proof.
  unfold r_matrix, ident3, ident6. assert (mget [[1; 0; 0]; [0; 1; 0]; [0; 0; 1]]%R 2 2 = 1%R) as -> by reflexivity. num_R. rewrite reqb_10. f_equal.
  cbv [mget default lookup list_lookup mbind option_bind from_option Datatypes.id]. num_R. lists; field.
Qed.
Lemma bend_conjugate th : mmul (mtrans (rotation 0%R (- th)%R 0%R)) (mmul (mtrans ident3) (rotation 0%R (- th)%R 0%R)) = ident3.
Proof.
  destruct (C33_single_axis (- th)%R) as (_&->&_). pose proof (sin_sq (- th)) as Hs. unfold about_y, ident3. mats. num_R. lists; ring [Hs].
Qed.
Lemma ident6_mvec a b c d e f : mvec ident6 [a; b; c; d; e; f] = [a; b; c; d; e; f]%R.
Proof. unfold ident6. mats. num_R. lists; ring. Qed.
Lemma ident3_mvec a b c : mvec ident3 [a; b; c] = [a; b; c]%R.
Proof. unfold ident3. mats. num_R. lists; ring. Qed.
(** identity up to a drift of length [d] *)
Definition drift6 (d : R) : list (list R) :=
  [[1; d; 0; 0; 0; 0]; [0; 1; 0; 0; 0; 0]; [0; 0; 1; d; 0; 0]; [0; 0; 0; 1; 0; 0]; [0; 0; 0; 0; 1; 0]; [0; 0; 0; 0; 0; 1]]%R.
Lemma r_matrix_drift d : r_matrix d ident3 = Ok (drift6 d).
Proof.
  unfold r_matrix, ident3, drift6. assert (mget [[1; 0; 0]; [0; 1; 0]; [0; 0; 1]]%R 2 2 = 1%R) as -> by reflexivity. num_R. rewrite reqb_10. f_equal.
  cbv [mget default lookup list_lookup mbind option_bind from_option Datatypes.id]. num_R. lists; field.
Qed.
Lemma mtrans_ident3 : mtrans ident3 = ident3.
Proof. reflexivity. Qed.
Lemma ident3_mvec' l : length l = 3%nat -> mvec ident3 l = l.
Proof. destruct l as [|a [|b [|c []]]]; try discriminate. intros _. apply ident3_mvec. Qed.

(** Transverse offsets, no rolls, any length and bending angle. *)
Theorem C34_transverse minv (e : elem R) so mo sr mr len th dx dy : inverts_identity minv ->
  misaligned e so mo sr mr -> number_or_absent e "Length" len -> number_or_absent e "BendingAngle" th ->
  zip_with Rplus so mo = [dx; dy; 0%R] -> zip_with Rplus mr sr = [0; 0; 0]%R ->
  length so = length mo -> length mr = length sr ->
  exists e', update_transformation minv e = (Ok tt, e') /\
    e' !! "R1" = Some (VMat ident6) /\ e' !! "T1" = Some (VVec [- dx; 0; - dy; 0; 0; 0]%R) /\
    e' !! "R2" = Some (VMat (drift6 (dx * sin th))) /\ e' !! "T2" = Some (VVec [dx * cos th; 0; dy; 0; 0; dx * sin th]%R) /\
    forall a, a ∉ ["R1"; "T1"; "R2"; "T2"] -> e' !! a = e !! a.
Proof.
  intros Hi (Hso&Hmo&Hsr&Hmr) Hl Hth Hoff Hrl L1 L2. unfold update_transformation.
  rewrite run_getm, (num_default_ok _ _ _ Hl), run_getm, (num_default_ok _ _ _ Hth), run_getm.
  unfold attr. rewrite Hso, Hmo. cbn [rbind nb_op]. unfold bcast. rewrite L1, Nat.eqb_refl. cbn [rbind].
  assert (zip_with nadd so mo = [dx; dy; 0%R]) as -> by exact Hoff. cbn [three]. rewrite run_getm, Hmr, Hsr. cbn [rbind nb_op]. unfold bcast. rewrite L2, Nat.eqb_refl. cbn [rbind].
  assert (zip_with nadd mr sr = [0; 0; 0]%R) as -> by exact Hrl. cbn [three fst snd].
  rewrite C33_identity. rewrite !(ident3_mvec' x_axis), !(ident3_mvec' y_axis), !(ident3_mvec' z_axis) by done.
  rewrite mtrans_ident3.
  assert (dot z_axis [dx; dy; 0%R] = 0%R) as -> by (mats; num_R; ring). rewrite translation_ident, r_matrix_ident, !run_lift, run_setattr, run_lift, Hi, run_setattr.
  assert (mmul (mtrans (rotation n0 (nopp th) n0)) (mmul ident3 (rotation n0 (nopp th) n0)) = ident3) as ->.
  { rewrite <- mtrans_ident3 at 1. apply bend_conjugate. }
  set (OPp := if neqb th n0 then [n0; n0; len] else _).
  assert (length OPp = 3%nat) as HL3 by (unfold OPp; destruct (neqb th n0); done).
  rewrite (ident3_mvec' OPp) by done.
  assert (zip_with nsub (zip_with nsub OPp OPp) [dx; dy; 0%R] = [- dx; - dy; 0]%R) as ->.
  { destruct OPp as [|a [|b [|c []]]]; try discriminate. cbn [zip_with]. num_R. lists; ring. }
  assert (rotation n0 (nopp th) n0 = about_y (- th)%R) as -> by (apply C33_single_axis).
  assert (dot (mvec (about_y (- th)) z_axis) [- dx; - dy; 0]%R = (dx * sin th)%R) as ->.
  { unfold about_y. mats. num_R. rewrite sin_neg. ring. }
  rewrite translation_ident, run_lift, run_setattr, r_matrix_drift, run_lift. eexists. split; [reflexivity|].
  split_and!.
  - rewrite !lookup_insert_ne by done. by rewrite lookup_insert.
  - rewrite !lookup_insert_ne by done. rewrite lookup_insert, ident6_mvec. do 3 f_equal.
    + mats. num_R. ring.
    + f_equal. f_equal. mats. num_R. ring.
  - by rewrite lookup_insert.
  - rewrite lookup_insert_ne by done. rewrite lookup_insert. do 2 f_equal. unfold about_y. mats. num_R. rewrite sin_neg, cos_neg. lists; ring.
  - intros a Ha. rewrite !lookup_insert_ne; [done|..]; intros <-; apply Ha; set_solver.
Qed.
(** No misalignment: nothing but identities, whatever the length and the bending angle. *)
Corollary C34_zero minv (e : elem R) so mo sr mr len th : inverts_identity minv ->
  misaligned e so mo sr mr -> number_or_absent e "Length" len -> number_or_absent e "BendingAngle" th ->
  zip_with Rplus so mo = [0; 0; 0]%R -> zip_with Rplus mr sr = [0; 0; 0]%R -> length so = length mo -> length mr = length sr ->
  exists e', update_transformation minv e = (Ok tt, e') /\
    e' !! "R1" = Some (VMat ident6) /\ e' !! "T1" = Some (VVec [0; 0; 0; 0; 0; 0]%R) /\
    e' !! "R2" = Some (VMat ident6) /\ e' !! "T2" = Some (VVec [0; 0; 0; 0; 0; 0]%R).
Proof.
  intros Hi Hm Hl Hth H1 H2 L1 L2. destruct (C34_transverse minv e so mo sr mr len th 0%R 0%R) as (e'&E&E1&E2&E3&E4&_); try done.
  exists e'. split; [done|]. rewrite E1, E2, E3, E4. unfold ident6, drift6. split_and!; [done| | |]; repeat f_equal; ring.
Qed.
(** A straight element: entrance shift minus the offset, exit shift plus the offset. *)
Corollary C34_straight minv (e : elem R) so mo sr mr len dx dy : inverts_identity minv ->
  misaligned e so mo sr mr -> number_or_absent e "Length" len -> number_or_absent e "BendingAngle" 0%R ->
  zip_with Rplus so mo = [dx; dy; 0%R] -> zip_with Rplus mr sr = [0; 0; 0]%R -> length so = length mo -> length mr = length sr ->
  exists e', update_transformation minv e = (Ok tt, e') /\
    e' !! "R1" = Some (VMat ident6) /\ e' !! "T1" = Some (VVec [- dx; 0; - dy; 0; 0; 0]%R) /\
    e' !! "R2" = Some (VMat ident6) /\ e' !! "T2" = Some (VVec [dx; 0; dy; 0; 0; 0]%R).
Proof.
  intros Hi Hm Hl Hth H1 H2 L1 L2. destruct (C34_transverse minv e so mo sr mr len 0%R dx dy) as (e'&E&E1&E2&E3&E4&_); try done.
  exists e'. split; [done|]. rewrite E1, E2, E3, E4. unfold ident6, drift6. rewrite sin_0, cos_0. split_and!; [done|done| |]; repeat f_equal; ring.
Qed.

(** Cases: a quadrupole whose girder is displaced, and a bend at rest. *)
Definition shifted_quad : elem R :=
  {["SupportOffset" := VVec [1; 2; 0]%R; "MagnetOffset" := VVec [2; -3; 0]%R; "SupportRoll" := VVec [0; 0; 0]%R; "MagnetRoll" := VVec [0; 0; 0]%R; "Length" := VNum 5%R]}.
Example C34_case minv : inverts_identity minv ->
  exists e', update_transformation minv shifted_quad = (Ok tt, e') /\ e' !! "T1" = Some (VVec [- 3; 0; - -1; 0; 0; 0]%R) /\ e' !! "T2" = Some (VVec [3; 0; -1; 0; 0; 0]%R).
Proof.
  intros Hi. destruct (C34_straight minv shifted_quad [1; 2; 0]%R [2; -3; 0]%R [0; 0; 0]%R [0; 0; 0]%R 5%R 3%R (-1)%R) as (e'&E&_&E1&_&E2); try done.
  - by left.
  - right. done.
  - simpl. repeat f_equal; ring.
  - simpl. repeat f_equal; ring.
  - eauto.
Qed.
Definition resting_bend : elem R :=
  {["SupportOffset" := VVec [0; 0; 0]%R; "MagnetOffset" := VVec [0; 0; 0]%R; "SupportRoll" := VVec [0; 0; 0]%R; "MagnetRoll" := VVec [0; 0; 0]%R; "Length" := VNum 5%R; "BendingAngle" := VNum (1/3)%R]}.
Example C34_bend minv : inverts_identity minv ->
  exists e', update_transformation minv resting_bend = (Ok tt, e') /\ e' !! "T1" = Some (VVec [0; 0; 0; 0; 0; 0]%R) /\ e' !! "R2" = Some (VMat ident6).
Proof.
  intros Hi. destruct (C34_zero minv resting_bend [0; 0; 0]%R [0; 0; 0]%R [0; 0; 0]%R [0; 0; 0]%R 5%R (1/3)%R) as (e'&E&_&E1&E2&_); try done.
  - by left.
  - by left.
  - simpl. repeat f_equal; ring.
  - simpl. repeat f_equal; ring.
  - eauto.
Qed.
Print Assumptions C33_product.
Print Assumptions C33_single_axis.
Print Assumptions C33_identity.
Print Assumptions C34_transverse.
Print Assumptions C34_zero.
Print Assumptions C34_straight.
