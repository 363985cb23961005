(** Further theorems on property C60 (loco.py), found necessary by testing against wrong programs: weights given as a matrix. *)
From Coq Require Import Reals Lra Lia ZArith QArith.
From stdpp Require Import base gmap strings list.
From Verif Require Import Num Base Model_Arr Model_SC Model_Err Lemmas Spec Model_Beam Model_Orbit Model_Lattice Model_Scan Model_Pinv Model_Loco Proofs_Beam Proofs_Mat Properties_Loco.
Local Open Scope list_scope.
Local Open Scope R_scope.
Notation matrix := (list (list R)).

(** The weights enter with the root of every entry of the matrix, not with the root of the matrix: a sum over the monitors for each monitor. *)
Theorem C60_objective_matrix measured model js p wm nr nc resid : shape nr nc measured -> shape nr nc model -> Forall (shape nr nc) js -> (0 < nr)%nat -> (0 < nc)%nat -> length p = length js ->
  shape nr nr wm -> mminus measured model = Ok resid ->
  exists l, objective p resid js (inr wm) = Ok l /\ length l = (nc * nr)%nat /\
    forall r c, (r < nr)%nat -> (c < nc)%nat -> l !! (c * nr + r)%nat = Some (sumn nr (fun k => unexplained measured model js p k c * R_sqrt.sqrt (mget wm k r))).
Proof.
  intros Hm Hc Hj Hr Hnc HL HW E. rewrite (mminus_table nr nc) in E by done. injection E as <-. unfold objective. rewrite HL, Nat.eqb_refl.
  assert (forallb (same_shape (table nr nc (fun r c => mget measured r c - mget model r c))) js = true) as ->.
  { apply forallb_forall. intros j Hin. apply (same_shape_true nr nc); [apply shape_table| |done]. eapply Forall_forall; [exact Hj|]. by apply elem_of_list_In. }
  cbn [andb]. cbn [sqrt_weights weigh]. set (mf := misfit _ js p).
  assert (shape nr nc mf) as Hs.
  { unfold mf, misfit. rewrite (shape_width nr nc) by (done || apply shape_table). rewrite (proj1 (shape_table nr nc _)). apply shape_table. }
  assert (shape nc nr (mtrans mf)) as Ht by (by apply shape_mtrans). rewrite (shape_width nc nr) by done. rewrite map_length, (proj1 HW), Nat.eqb_refl. cbn [rbind].
  assert (shape nr nr (map (map (nsqrt (T:=R))) wm)) as HS by (by apply (shape_map nr nr)).
  assert (shape nc nr (mmul (mtrans mf) (map (map (nsqrt (T:=R))) wm))) as HM by (by apply (shape_mmul nc nr nr)).
  eexists. split; [reflexivity|]. split; [by apply concat_length|]. intros r c Hrr Hcc. rewrite (concat_get nc nr) by done. f_equal. rewrite (mget_mmul nc nr nr) by done.
  apply sumn_ext. intros k Hk. rewrite (mget_mtrans nr nc) by done. rewrite (get_map nr nr) by done. f_equal.
  unfold mf, misfit. rewrite (shape_width nr nc) by (done || apply shape_table). rewrite (proj1 (shape_table nr nc _)).
  rewrite get_table by done. rewrite get_table by done. rewrite modelled_sumn by done. unfold unexplained. num_R. ring.
Qed.
(** So for a diagonal matrix each monitor has its own weight. *)
Theorem C60_objective_diagonal measured model js p wm nr nc resid : shape nr nc measured -> shape nr nc model -> Forall (shape nr nc) js -> (0 < nr)%nat -> (0 < nc)%nat -> length p = length js ->
  shape nr nr wm -> (forall i j, i <> j -> mget wm i j = 0) -> mminus measured model = Ok resid ->
  exists l, objective p resid js (inr wm) = Ok l /\ length l = (nc * nr)%nat /\
    forall r c, (r < nr)%nat -> (c < nc)%nat -> l !! (c * nr + r)%nat = Some (R_sqrt.sqrt (mget wm r r) * unexplained measured model js p r c).
Proof.
  intros Hm Hc Hj Hr Hnc HL HW Hd E. destruct (C60_objective_matrix measured model js p wm nr nc resid) as (l&H1&H2&H3); try done. exists l. split; [done|]. split; [done|].
  intros r c Hrr Hcc. rewrite H3 by done. f_equal. rewrite (sumn_ext nr _ (fun k => delta r k * (unexplained measured model js p r c * R_sqrt.sqrt (mget wm r r)))).
  - rewrite sumn_delta by done. ring.
  - intros k Hk. destruct (Nat.eq_dec r k) as [->|Hn]; [rewrite delta_same; ring|]. rewrite (Hd k r) by done. rewrite delta_ne by done. rewrite sqrt_0. ring.
Qed.
(** A matrix with another number of rows is refused. *)
Theorem C60_objective_shape measured model js p wm nr nc resid : shape nr nc measured -> shape nr nc model -> Forall (shape nr nc) js -> (0 < nr)%nat -> (0 < nc)%nat -> length p = length js ->
  length wm <> nr -> mminus measured model = Ok resid -> objective p resid js (inr wm) = Err ValueError.
Proof.
  intros Hm Hc Hj Hr Hnc HL HW E. rewrite (mminus_table nr nc) in E by done. injection E as <-. unfold objective. destruct (_ && _); [|done]. cbn [sqrt_weights weigh]. set (mf := misfit _ js p).
  assert (shape nr nc mf) as Hs.
  { unfold mf, misfit. rewrite (shape_width nr nc) by (done || apply shape_table). rewrite (proj1 (shape_table nr nc _)). apply shape_table. }
  assert (shape nc nr (mtrans mf)) as Ht by (by apply shape_mtrans). rewrite (shape_width nc nr) by done. rewrite map_length. by rewrite (proj2 (Nat.eqb_neq _ _)) by done.
Qed.
(** Response matrices that differ in their numbers of rows or in their numbers of columns, none of them one, cannot be compared: both corrections are refused. *)
Theorem C60_shapes_compared svd guess measured model jac lengths names s_cut w lambda r1 c1 r2 c2 : shape r1 c1 measured -> shape r2 c2 model -> (1 < r1)%nat -> (1 < r2)%nat -> (1 < c1)%nat -> (1 < c2)%nat ->
  r1 <> r2 \/ c1 <> c2 -> length (parameters_mask names lengths) = length guess ->
  loco_correction_ng svd guess model measured jac lengths names s_cut w lambda = Err ValueError /\
  forall least_squares, (forall f x, f x = Err ValueError -> least_squares f x = Err ValueError) -> loco_correction_lm least_squares guess model measured jac lengths names w = Err ValueError.
Proof.
  intros H1 H2 ? ? ? ? D HM. assert (mminus measured model = Err ValueError) as E.
  { unfold mminus, same_shape. rewrite (shape_width _ _ _ H1), (shape_width _ _ _ H2) by lia. rewrite (proj1 H1), (proj1 H2).
    destruct D as [D|D]; rewrite (proj2 (Nat.eqb_neq _ _) D); [done|by rewrite andb_false_r]. }
  split; [|intros ls Hls]; unfold loco_correction_ng, loco_correction_lm, masked; rewrite HM, Nat.eqb_refl; cbn [rbind].
  - by rewrite E.
  - apply Hls. by rewrite E.
Qed.
Print Assumptions C60_objective_matrix.
Print Assumptions C60_objective_diagonal.
Print Assumptions C60_objective_shape.
Print Assumptions C60_shapes_compared.

(** Two monitors with the weights 4 and 9, one corrector, one parameter of which 1/2 is tried. *)
Example C60_case_diagonal : exists l, objective [/2] [[3]; [5]] [[[2]]; [[4]]] (inr [[4; 0]; [0; 9]]) = Err ValueError /\
  objective [/2] [[3]; [5]] [[[2]; [4]]] (inr [[4; 0]; [0; 9]]) = Ok l /\ l !! 0%nat = Some (R_sqrt.sqrt 4 * (3 - 2 * / 2)) /\ l !! 1%nat = Some (R_sqrt.sqrt 9 * (5 - 4 * / 2)).
Proof.
  destruct (C60_objective_diagonal [[3]; [5]] [[0]; [0]] [[[2]; [4]]] [/2] [[4; 0]; [0; 9]] 2 1 [[3 - 0]; [5 - 0]]) as (l&H1&H2&H3); try done; try lia.
  - by split; [|repeat constructor].
  - by split; [|repeat constructor].
  - repeat constructor.
  - by split; [|repeat constructor].
  - intros [|[|i]] [|[|j]] Hne; try done; unfold mget; cbn; try (by destruct j); try (by destruct i).
  - rewrite !Rminus_0_r in H1. exists l. split; [done|]. split; [done|]. pose proof (H3 0%nat 0%nat) as A. pose proof (H3 1%nat 0%nat) as B. cbn in A, B. rewrite A, B by lia. unfold unexplained, mget. cbn. split; do 2 f_equal; ring.
Qed.
