(** C93: the parts of a split magnet, and where they stand when the magnet is misaligned. *)
From Coq Require Import Reals Lra Lia QArith.
From stdpp Require Import base gmap strings list.
From Verif Require Import Num Base Model_Arr Model_SC Model_Err Lemmas Proofs_Reg Proofs_Update Proofs_Loop Spec Proofs_Beam Properties_Circ Properties_Support Properties_Interp Properties_Interp2
  Examples Properties_Align Properties_Frame.
Local Open Scope string_scope.
Local Open Scope list_scope.
Local Open Scope R_scope.

(** * Specification *)
(** The arrays of a part that begins at the distance [d] from the entrance of its magnet, along a straight magnet, are right if they describe the way into the magnet there ... *)
Definition right_entrance (magnet : place) (d : R) (r1 : list (list R)) (t1 : list R) : Prop :=
  first_order (crossing (end_of design d 0) (end_of magnet d 0)) (entering r1 t1).
(** ... and, with the part ending at the distance [d], the way out of it. *)
Definition right_exit (magnet : place) (d : R) (r2 : list (list R)) (t2 : list R) : Prop :=
  first_order (crossing (end_of magnet d 0) (end_of design d 0)) (leaving r2 t2).
(** the axis of the magnet points along the beam *)
Definition upright (magnet : place) : Prop := forall k, (k < 3)%nat -> axis magnet k 2 = delta k 2.
(** In a bending magnet the part begins at the end of an arc. *)
Definition right_bend_entrance (magnet : place) (d th : R) (r1 : list (list R)) (t1 : list R) : Prop :=
  first_order (crossing (end_of design d th) (end_of magnet d th)) (entering r1 t1).

(** * Geometry *)
Lemma straight_axis F d k j : (k < 3)%nat -> (j < 3)%nat -> axis (end_of F d 0) k j = axis F k j.
Proof.
  intros Hk Hj. unfold end_of, over3, about_y. cbn [axis]. unfold over3. rewrite Ropp_0, cos_0, sin_0. destruct j as [|[|[|]]]; try lia; cbn [entry lookup list_lookup]; ring.
Qed.
Lemma straight_origin F d k : origin (end_of F d 0) k = origin F k + d * axis F k 2.
Proof. unfold end_of, over3, arc. cbn [origin]. destruct (Req_EM_T 0 0); [ring|done]. Qed.
Lemma straight_component F d v j : (j < 3)%nat -> component (end_of F d 0) v j = component F v j.
Proof. intros Hj. unfold component, over3. by rewrite !straight_axis by lia. Qed.
Definition cosine (F G : place) : R := over3 (fun k => axis G k 2 * axis F k 2).
(** how the crossing of the moved planes differs *)
Lemma moved_point F G d d0 q j : (j < 3)%nat ->
  component (end_of G d 0) (fun k => point_of (end_of F d 0) q k - origin (end_of G d 0) k) j =
  component (end_of G d0 0) (fun k => point_of (end_of F d0 0) q k - origin (end_of G d0 0) k) j + (d - d0) * component G (fun k => axis F k 2 - axis G k 2) j.
Proof.
  intros Hj. rewrite !straight_component by done. unfold component, over3, point_of. rewrite !straight_origin, !straight_axis by lia. ring.
Qed.
Lemma moved_momentum F G d d0 q j : (j < 3)%nat -> component (end_of G d 0) (momentum_of (end_of F d 0) q) j = component (end_of G d0 0) (momentum_of (end_of F d0 0) q) j.
Proof. intros Hj. rewrite !straight_component by done. unfold component, over3, momentum_of. by rewrite !straight_axis by lia. Qed.
Lemma same_axis_crossing F G d d0 q : (forall k, (k < 3)%nat -> axis F k 2 = axis G k 2) -> crossing (end_of F d 0) (end_of G d 0) q = crossing (end_of F d0 0) (end_of G d0 0) q.
Proof.
  intros H. unfold crossing. rewrite !(moved_momentum F G d d0) by lia. rewrite !(moved_point F G d d0) by lia.
  assert (forall j, (j < 3)%nat -> component G (fun k => axis F k 2 - axis G k 2) j = 0) as E by (intros j Hj; unfold component, over3; rewrite !H by lia; ring).
  rewrite !E by lia. by rewrite !Rmult_0_r, !Rplus_0_r.
Qed.
Lemma long_no_ray : long no_ray = 1.
Proof. unfold long, no_ray. cbn [q_dp q_px q_py]. replace (Rsqr (1 + 0) - Rsqr 0 - Rsqr 0) with (Rsqr 1) by (unfold Rsqr; ring). apply sqrt_Rsqr. lra. Qed.
Lemma no_ray_momentum F G j : component G (momentum_of F no_ray) j = over3 (fun k => axis G k j * axis F k 2).
Proof. unfold component, momentum_of, over3. rewrite long_no_ray. unfold no_ray. cbn [q_px q_py]. ring. Qed.
Lemma axis_self G : rigid G -> component G (fun k => axis G k 2) 2 = 1.
Proof. intros HG. destruct (HG 2%nat 2%nat) as [E _]; [lia|lia|]. unfold component. rewrite E. done. Qed.
(** the path length of the design particle to the moved plane *)
Lemma moved_ct F G d d0 : rigid G -> cosine F G <> 0 ->
  q_ct (crossing (end_of F d 0) (end_of G d 0) no_ray) = q_ct (crossing (end_of F d0 0) (end_of G d0 0) no_ray) + (d - d0) * (1 - cosine F G) / cosine F G.
Proof.
  intros HG Hc. unfold crossing. rewrite !(moved_momentum F G d d0) by lia. rewrite !(moved_point F G d d0) by lia. cbn [q_ct]. rewrite !(straight_component G d0 (momentum_of _ _)) by lia.
  assert (component G (momentum_of (end_of F d0 0) no_ray) 2 = cosine F G) as ->.
  { rewrite no_ray_momentum. unfold cosine, over3. by rewrite !straight_axis by lia. }
  assert (component G (fun k => axis F k 2 - axis G k 2) 2 = cosine F G - 1) as ->.
  { rewrite <- (axis_self G) by done. unfold component, cosine, over3. ring. }
  unfold no_ray. cbn [q_ct q_dp]. field. done.
Qed.
Lemma unit_axis F : rigid F -> over3 (fun k => axis F k 2 * axis F k 2) = 1.
Proof. intros HF. destruct (HF 2%nat 2%nat) as [E _]; [lia|lia|]. rewrite E. done. Qed.
Lemma sq_sum3_zero a b c : a * a + b * b + c * c = 0 -> a = 0 /\ b = 0 /\ c = 0.
Proof. intros H. split_and!; nra. Qed.
Lemma cosine_one F G : rigid F -> rigid G -> cosine F G = 1 -> forall k, (k < 3)%nat -> axis F k 2 = axis G k 2.
Proof.
  intros HF HG Hc. apply unit_axis in HF. apply unit_axis in HG. unfold cosine, over3 in *.
  destruct (sq_sum3_zero (axis F 0 2 - axis G 0 2) (axis F 1 2 - axis G 1 2) (axis F 2 2 - axis G 2 2)) as (A&B&C); [lra|].
  intros k Hk. destruct k as [|[|[|]]]; try lia; lra.
Qed.
Lemma ct_last q : vec (coords q) 5 = q_ct q.
Proof. done. Qed.
(** the same arrays describe the crossing at another distance only if the planes are parallel *)
Lemma first_order_moved F G d d0 A : rigid F -> rigid G -> cosine F G <> 0 -> first_order (crossing (end_of F d0 0) (end_of G d0 0)) A ->
  (first_order (crossing (end_of F d 0) (end_of G d 0)) A <-> d = d0 \/ forall k, (k < 3)%nat -> axis F k 2 = axis G k 2).
Proof.
  intros HF HG Hc H0. split.
  - intros [H1 _]. destruct H0 as [H0 _]. rewrite H0 in H1. apply (f_equal (fun v => vec v 5)) in H1. rewrite !ct_last in H1. rewrite (moved_ct F G d d0) in H1 by done.
    assert ((d - d0) * (1 - cosine F G) / cosine F G = 0) as E by lra. unfold Rdiv in E. apply Rmult_integral in E as [E|E]; [|by apply Rinv_neq_0_compat in Hc].
    apply Rmult_integral in E as [E|E]; [left; lra|right]. apply cosine_one; try done. lra.
  - intros [-> |H]; [done|]. eapply first_order_eq; [| |exact H0]; [|done]. intros q. symmetry. by apply same_axis_crossing.
Qed.
Lemma entrance_here F G A : first_order (crossing F G) A -> rigid F -> rigid G -> first_order (crossing (end_of F 0 0) (end_of G 0 0)) A.
Proof.
  intros H HF HG. eapply first_order_eq; [| |exact H]; [|done]. intros q. unfold crossing.
  assert (forall j, (j < 3)%nat -> component (end_of G 0 0) (fun k => point_of (end_of F 0 0) q k - origin (end_of G 0 0) k) j = component G (fun k => point_of F q k - origin G k) j) as E1.
  { intros j Hj. rewrite straight_component by done. unfold component, over3, point_of. rewrite !straight_origin, !straight_axis by lia. ring. }
  assert (forall j, (j < 3)%nat -> component (end_of G 0 0) (momentum_of (end_of F 0 0) q) j = component G (momentum_of F q) j) as E2.
  { intros j Hj. rewrite straight_component by done. unfold component, over3, momentum_of. by rewrite !straight_axis by lia. }
  by rewrite !E1, !E2 by lia.
Qed.
Lemma cosine_design_l o ax ay az : cosine design (displaced o ax ay az) = entry (rotation ax ay az) 2 2.
Proof. unfold cosine, over3, design, displaced, delta. cbn [axis Nat.eqb]. rewrite !rotation_entries by lia. ring. Qed.
Lemma cosine_design_r o ax ay az : cosine (displaced o ax ay az) design = entry (rotation ax ay az) 2 2.
Proof. unfold cosine, over3, design, displaced, delta. cbn [axis Nat.eqb]. rewrite !rotation_entries by lia. ring. Qed.

(** an update that returns has not met a magnet standing across the beam *)
Lemma transformation_cosine minv (e : elem R) e' so mo sr mr len th o1 o2 o3 ax ay az :
  misaligned e so mo sr mr -> number_or_absent e "Length" len -> number_or_absent e "BendingAngle" th ->
  zip_with Rplus so mo = [o1; o2; o3] -> zip_with Rplus mr sr = [az; ax; ay] -> length so = length mo -> length mr = length sr ->
  update_transformation minv e = (Ok tt, e') -> entry (rotation ax ay az) 2 2 <> 0.
Proof.
  intros (Hso&Hmo&Hsr&Hmr) Hl Hth Hoff Hrl L1 L2 H. unfold update_transformation in H.
  rewrite run_getm, (num_default_ok _ _ _ Hl), run_getm, (num_default_ok _ _ _ Hth), run_getm in H.
  unfold attr in H. rewrite Hso, Hmo in H. cbn [rbind nb_op] in H. unfold bcast in H. rewrite L1, Nat.eqb_refl in H. cbn [rbind] in H.
  assert (zip_with nadd so mo = [o1; o2; o3]) as Eo by exact Hoff. rewrite Eo in H. cbn [three] in H. rewrite run_getm, Hmr, Hsr in H. cbn [rbind nb_op] in H. unfold bcast in H. rewrite L2, Nat.eqb_refl in H. cbn [rbind] in H.
  assert (zip_with nadd mr sr = [az; ax; ay]) as Er by exact Hrl. rewrite Er in H. cbn [three fst snd] in H.
  set (r := rotation ax ay az) in *. rewrite run_lift in H. unfold translation_vector in H. 
  destruct (three3 r (cofactored_rotation ax ay az)) as (a&b&c&d&e0&f&g&h&i&E). rewrite E in H |- *.
  assert (mget [[a; b; c]; [d; e0; f]; [g; h; i]] 2 2 = i) as Ei by reflexivity. rewrite Ei in H. cbn [entry lookup list_lookup]. destruct (neqb i n0) eqn:E0; [done|]. by apply Reqb_false in E0.
Qed.

(** * Theorems *)
(** The arrays of a straight magnet, copied to another part of it: they are right for a part that begins where the magnet begins, or ends where it ends; for any other part only if the axis of the magnet still points along the beam. *)
Theorem C93_straight_parts minv (e : elem R) e' so mo sr mr len o1 o2 o3 ax ay az r1 t1 r2 t2 : inverts minv ->
  misaligned e so mo sr mr -> number_or_absent e "Length" len -> number_or_absent e "BendingAngle" 0 ->
  zip_with Rplus so mo = [o1; o2; o3] -> zip_with Rplus mr sr = [az; ax; ay] -> length so = length mo -> length mr = length sr ->
  update_transformation minv e = (Ok tt, e') -> e' !! "R1" = Some (VMat r1) -> e' !! "T1" = Some (VVec t1) -> e' !! "R2" = Some (VMat r2) -> e' !! "T2" = Some (VVec t2) ->
  let magnet := displaced [o1; o2; o3] ax ay az in
  (forall d, right_entrance magnet d r1 t1 <-> d = 0 \/ upright magnet) /\ (forall d, right_exit magnet d r2 t2 <-> d = len \/ upright magnet).
Proof.
  intros Hi Hm Hl Hth Hoff Hrl L1 L2 H E1 E2 E3 E4 magnet.
  pose proof (transformation_cosine _ _ _ _ _ _ _ _ _ _ _ _ _ _ _ Hm Hl Hth Hoff Hrl L1 L2 H) as Hc.
  destruct (C86_transformation minv e e' so mo sr mr len 0 o1 o2 o3 ax ay az Hi Hm Hl Hth Hoff Hrl L1 L2 H) as (r1'&t1'&r2'&t2'&K1&K2&K3&K4&F1&F2&_). fold magnet in F1, F2.
  assert (r1' = r1) as -> by congruence. assert (t1' = t1) as -> by congruence. assert (r2' = r2) as -> by congruence. assert (t2' = t2) as -> by congruence.
  assert (rigid magnet) as RM by apply rigid_displaced. pose proof rigid_design as RD. split; intros d.
  - unfold right_entrance. rewrite (first_order_moved design magnet d 0); [|done|done|unfold magnet; by rewrite cosine_design_l|by apply entrance_here].
    split; (intros [?|Hu]; [by left|right]); intros k Hk; [symmetry|]; rewrite Hu; done.
  - unfold right_exit. rewrite (first_order_moved magnet design d len); [|done|done|unfold magnet; by rewrite cosine_design_r|done]. done.
Qed.
(** How far off the design particle then is at the entrance of the part: the distance times the slope of the magnet. *)
Theorem C93_step minv (e : elem R) e' so mo sr mr len o1 o2 o3 ax ay az r1 t1 d : inverts minv ->
  misaligned e so mo sr mr -> number_or_absent e "Length" len -> number_or_absent e "BendingAngle" 0 ->
  zip_with Rplus so mo = [o1; o2; o3] -> zip_with Rplus mr sr = [az; ax; ay] -> length so = length mo -> length mr = length sr ->
  update_transformation minv e = (Ok tt, e') -> e' !! "R1" = Some (VMat r1) -> e' !! "T1" = Some (VVec t1) ->
  let magnet := displaced [o1; o2; o3] ax ay az in
  let there := coords (crossing (end_of design d 0) (end_of magnet d 0) no_ray) in let said := entering r1 t1 (coords no_ray) in
  vec there 0 - vec said 0 = d * (axis magnet 2 0 / axis magnet 2 2) /\ vec there 2 - vec said 2 = d * (axis magnet 2 1 / axis magnet 2 2) /\
  vec there 1 = vec said 1 /\ vec there 3 = vec said 3.
Proof.
  intros Hi Hm Hl Hth Hoff Hrl L1 L2 H E1 E2 magnet there said.
  pose proof (transformation_cosine _ _ _ _ _ _ _ _ _ _ _ _ _ _ _ Hm Hl Hth Hoff Hrl L1 L2 H) as Hc.
  destruct (C86_transformation minv e e' so mo sr mr len 0 o1 o2 o3 ax ay az Hi Hm Hl Hth Hoff Hrl L1 L2 H) as (r1'&t1'&r2'&t2'&K1&K2&_&_&[F1 _]&_&_). fold magnet in F1.
  assert (r1' = r1) as -> by congruence. assert (t1' = t1) as -> by congruence. unfold said. rewrite F1. unfold there. clear -Hc.
  assert (forall k j, (k < 3)%nat -> (j < 3)%nat -> axis magnet k j = entry (rotation ax ay az) k j) as E by (intros; by apply rotation_entries).
  assert (forall j, (j < 3)%nat -> component (end_of magnet d 0) (momentum_of (end_of design d 0) no_ray) j = axis magnet 2 j) as EV.
  { intros j Hj. rewrite straight_component, no_ray_momentum by done. unfold over3. rewrite !straight_axis by lia. unfold design, delta. cbn [axis Nat.eqb]. ring. }
  assert (forall j, (j < 3)%nat -> component magnet (momentum_of design no_ray) j = axis magnet 2 j) as EV'.
  { intros j Hj. rewrite no_ray_momentum. unfold over3. unfold design, delta. cbn [axis Nat.eqb]. ring. }
  assert (forall j, (j < 3)%nat -> component (end_of magnet d 0) (fun k => point_of (end_of design d 0) no_ray k - origin (end_of magnet d 0) k) j =
            component magnet (fun k => point_of design no_ray k - origin magnet k) j + d * (axis magnet 2 j - delta j 2)) as EP.
  { intros j Hj. pose proof (rigid_displaced [o1; o2; o3] ax ay az j 2%nat Hj ltac:(lia)) as [ED _]. fold magnet in ED. rewrite <- ED. rewrite straight_component by done. unfold component, over3, point_of, no_ray. cbn [q_x q_y].
    rewrite !straight_origin, !straight_axis by lia. unfold design, delta. cbn [axis origin Nat.eqb]. ring. }
  assert (axis magnet 2 2 <> 0) as Hn by (by rewrite E by lia). unfold crossing. rewrite !EV, !EV', !EP by lia.
  unfold vec, coords. cbn [lookup list_lookup default from_option q_x q_px q_y q_py Datatypes.id]. unfold delta. cbn [Nat.eqb]. split_and!; [field; done|field; done|done|done].
Qed.
(** In a bending magnet, shifted but not turned, the copy is right only for a vertical shift (or a whole number of turns). *)
Theorem C93_bend_parts minv (e : elem R) e' so mo sr mr len th o1 o2 o3 r1 t1 d : inverts minv ->
  misaligned e so mo sr mr -> number_or_absent e "Length" len -> number_or_absent e "BendingAngle" th ->
  zip_with Rplus so mo = [o1; o2; o3] -> zip_with Rplus mr sr = [0; 0; 0] -> length so = length mo -> length mr = length sr ->
  update_transformation minv e = (Ok tt, e') -> e' !! "R1" = Some (VMat r1) -> e' !! "T1" = Some (VVec t1) ->
  (right_bend_entrance (displaced [o1; o2; o3] 0 0 0) d th r1 t1 <-> cos th = 1 \/ (o1 = 0 /\ o3 = 0)).
Proof.
  intros Hi Hm Hl Hth Hoff Hrl L1 L2 H E1 E2. set (magnet := displaced [o1; o2; o3] 0 0 0).
  destruct (C86_transformation minv e e' so mo sr mr len th o1 o2 o3 0 0 0 Hi Hm Hl Hth Hoff Hrl L1 L2 H) as (r1'&t1'&r2'&t2'&K1&K2&_&_&F1&_&_). fold magnet in F1.
  assert (r1' = r1) as -> by congruence. assert (t1' = t1) as -> by congruence. clear -F1.
  assert (forall k j, (k < 3)%nat -> (j < 3)%nat -> axis magnet k j = delta k j) as EA.
  { intros k j Hk Hj. unfold magnet, displaced. cbn [axis]. rewrite rotation_entries, C33_identity by done. unfold ident3, delta. destruct k as [|[|[|]]]; try lia; destruct j as [|[|[|]]]; try lia; done. }
  assert (forall k j, (k < 3)%nat -> (j < 3)%nat -> axis (end_of magnet d th) k j = entry (about_y (- th)) k j) as EM.
  { intros k j Hk Hj. unfold end_of, over3. cbn [axis]. unfold over3. rewrite !EA by lia. unfold delta. destruct k as [|[|[|]]]; try lia; cbn [Nat.eqb]; ring. }
  assert (forall k j, (k < 3)%nat -> (j < 3)%nat -> axis (end_of design d th) k j = entry (about_y (- th)) k j) as EDs.
  { intros k j Hk Hj. unfold end_of, over3, design. cbn [axis]. unfold over3, delta. destruct k as [|[|[|]]]; try lia; cbn [Nat.eqb]; ring. }
  assert (forall k, (k < 3)%nat -> origin (end_of design d th) k - origin (end_of magnet d th) k = - vec [o1; o2; o3] k) as EO.
  { intros k Hk. unfold end_of. cbn [origin]. unfold over3. rewrite !EA by lia. unfold design, magnet, displaced. cbn [origin axis]. ring. }
  assert (cos th * cos th + sin th * sin th = 1) as Hsc. { pose proof (sin2_cos2 th) as E. unfold Rsqr in E. lra. }
  assert (forall q, crossing (end_of design d th) (end_of magnet d th) q =
    let P0 := q_x q - (cos th * o1 + sin th * o3) in let P1 := q_y q - o2 in let P2 := - (cos th * o3 - sin th * o1) in let way := - P2 / long q in
    Ray (P0 + way * q_px q) (q_px q) (P1 + way * q_py q) (q_py q) (q_dp q) (q_ct q + way * (1 + q_dp q))) as EC.
  { intros q. cbv zeta. unfold crossing.
    assert (forall j, (j < 3)%nat -> component (end_of magnet d th) (fun k => point_of (end_of design d th) q k - origin (end_of magnet d th) k) j =
      delta 0 j * q_x q + delta 1 j * q_y q - over3 (fun k => entry (about_y (- th)) k j * vec [o1; o2; o3] k)) as EP.
    { intros j Hj. unfold component, point_of.
      transitivity (over3 (fun k => axis (end_of magnet d th) k j * (origin (end_of design d th) k - origin (end_of magnet d th) k)) + over3 (fun k => axis (end_of magnet d th) k j * axis (end_of design d th) k 0) * q_x q + over3 (fun k => axis (end_of magnet d th) k j * axis (end_of design d th) k 1) * q_y q); [unfold over3; ring|].
      unfold over3. rewrite !EO, !EM, !EDs by lia. unfold about_y, delta. rewrite cos_neg, sin_neg. destruct j as [|[|[|]]]; try lia; cbn [entry lookup list_lookup Nat.eqb]; ring [(sin_sq th)]. }
    assert (forall j, (j < 3)%nat -> component (end_of magnet d th) (momentum_of (end_of design d th) q) j = delta 0 j * q_px q + delta 1 j * q_py q + delta 2 j * long q) as EV.
    { intros j Hj. unfold component, momentum_of, over3. rewrite !EM, !EDs by lia. unfold about_y, delta. rewrite cos_neg, sin_neg. destruct j as [|[|[|]]]; try lia; cbn [entry lookup list_lookup Nat.eqb]; ring [(sin_sq th)]. }
    rewrite !EP, !EV by lia. unfold delta, over3, about_y. rewrite cos_neg, sin_neg. cbn [entry lookup list_lookup Nat.eqb]. unfold vec. cbn [lookup list_lookup default from_option Datatypes.id]. f_equal; try ring.
    all: unfold Rdiv; replace (0 * q_px q + 0 * q_py q + 1 * long q) with (long q) by ring; ring. }
  assert (forall q, crossing design magnet q = let way := o3 / long q in Ray (q_x q - o1 + way * q_px q) (q_px q) (q_y q - o2 + way * q_py q) (q_py q) (q_dp q) (q_ct q + way * (1 + q_dp q))) as EC0.
  { intros q. cbv zeta. unfold crossing, component, point_of, momentum_of, over3. rewrite !EA by lia. unfold design, magnet, displaced. cbn [origin axis]. unfold delta, vec. cbn [lookup list_lookup default from_option Nat.eqb Datatypes.id]. f_equal; try ring.
    all: unfold Rdiv; replace (0 * (1 * q_px q + 0 * q_py q + 0 * long q) + 0 * (0 * q_px q + 1 * q_py q + 0 * long q) + 1 * (0 * q_px q + 0 * q_py q + 1 * long q)) with (long q) by ring; ring. }
  unfold right_bend_entrance. split.
  - intros [H1 _]. destruct F1 as [H0 _]. rewrite H0 in H1. rewrite EC, EC0 in H1. cbv zeta in H1. unfold coords, no_ray in H1. cbn [q_x q_px q_y q_py q_dp q_ct] in H1. fold no_ray in H1. rewrite long_no_ray in H1.
    injection H1 as HA HB HC. destruct (Req_dec (cos th) 1) as [?|Hn]; [by left|right].
    assert ((1 - cos th) * o1 = sin th * o3) as A1 by lra. assert ((1 - cos th) * o3 = - sin th * o1) as A2 by lra.
    assert (2 * (1 - cos th) * o1 = 0) as B1. { replace (2 * (1 - cos th)) with ((1 - cos th) * (1 - cos th) + sin th * sin th) by lra. transitivity ((1 - cos th) * ((1 - cos th) * o1) + sin th * sin th * o1); [ring|]. rewrite A1. transitivity (sin th * ((1 - cos th) * o3) + sin th * sin th * o1); [ring|]. rewrite A2. ring. }
    assert (2 * (1 - cos th) * o3 = 0) as B2. { replace (2 * (1 - cos th)) with ((1 - cos th) * (1 - cos th) + sin th * sin th) by lra. transitivity ((1 - cos th) * ((1 - cos th) * o3) + sin th * sin th * o3); [ring|]. rewrite A2. transitivity (- sin th * ((1 - cos th) * o1) + sin th * sin th * o3); [ring|]. rewrite A1. ring. }
    apply Rmult_integral in B1 as [B1|B1]; [lra|]. apply Rmult_integral in B2 as [B2|B2]; [lra|]. done.
  - intros Hor. eapply first_order_eq; [| |exact F1]; [|done]. intros q. rewrite EC, EC0. cbv zeta.
    assert (cos th * o1 + sin th * o3 = o1 /\ cos th * o3 - sin th * o1 = o3) as [-> ->].
    { destruct Hor as [Hcos|[-> ->]]; [|split; ring]. assert (sin th = 0) as -> by (rewrite Hcos in Hsc; assert (sin th * sin th = 0) as Hss by lra; apply Rmult_integral in Hss as [?|?]; done). rewrite Hcos. split; ring. }
    by rewrite Ropp_involutive.
Qed.

(** * In the machine: every part of a split magnet carries the arrays of its master. *)
Definition FRAME_ARRAYS : list string := ["T1"; "T2"; "R1"; "R2"].
Section Carry.
  Context {T : Type} {N : Num T} {Tr : Trig T}.
Lemma at_on_elem {A} i (m : M (elem T) A) (s s' : sc T) r : on_elem i m s = (r, s') -> forall j a, j <> i -> attr_at s' j a = attr_at s j a.
Proof.
  intros H j a Hj. unfold on_elem in H. destruct (RING s !! i) as [e|]; [|by injection H as _ <-]. destruct (m e) as [r' e']. injection H as _ <-. unfold attr_at. cbn [RING set_RING]. by rewrite list_lookup_insert_ne.
Qed.
Definition copy_field (i c : nat) (field : string) : M (sc T) unit := let! m := ring_elem i in let! x := lift (attr m field) in on_elem c (setattr field x).
Lemma copy_field_ok i c f (s s' : sc T) u : copy_field i c f s = (Ok u, s') -> (exists x, attr_at s i f = Some x /\ attr_at s' c f = Some x) /\ forall j a, (j, a) <> (c, f) -> attr_at s' j a = attr_at s j a.
Proof.
  intros H. unfold copy_field in H. apply bind_ok in H as (m&s1&H1&H). unfold ring_elem in H1. injection H1 as H1 <-. apply idx_ok in H1. apply bind_ok in H as (x&s1&H2&H). apply lift_ok in H2 as [H2 ->]. apply attr_ok in H2.
  unfold on_elem in H. destruct (RING s !! c) as [e|] eqn:E; [|done]. unfold setattr, modify in H. injection H as <- <-. split.
  - exists x. unfold attr_at. rewrite H1. cbn [RING set_RING]. rewrite list_lookup_insert by (by eapply lookup_lt_Some). cbn [mbind option_bind]. rewrite lookup_insert. done.
  - intros j a Hja. unfold attr_at. cbn [RING set_RING]. destruct (decide (j = c)) as [->|Hj]; [|by rewrite list_lookup_insert_ne]. rewrite list_lookup_insert by (by eapply lookup_lt_Some). rewrite E. cbn [mbind option_bind].
    apply lookup_insert_ne. congruence.
Qed.
Lemma copy_fields_ok i c fs (s s' : sc T) u : c <> i -> NoDup fs -> forM fs (copy_field i c) s = (Ok u, s') ->
  (forall f, f ∈ fs -> exists x, attr_at s i f = Some x /\ attr_at s' c f = Some x) /\ forall j a, j <> c \/ a ∉ fs -> attr_at s' j a = attr_at s j a.
Proof.
  intros Hc. revert s u. induction fs as [|f fs IH]; intros s u Hn H; [injection H as _ <-; split; [by intros f Hf; inversion Hf|done]|]. cbn [forM] in H. apply bind_ok in H as (v&s1&H1&H).
  apply NoDup_cons in Hn as [Hf Hn]. apply copy_field_ok in H1 as [(x&Hx&Hx1) Hrest]. destruct (IH s1 u Hn H) as [I1 I2]. split.
  - intros g Hg. apply elem_of_cons in Hg as [->|Hg].
    + exists x. split; [done|]. rewrite I2 by (by right). done.
    + destruct (I1 g Hg) as (y&Hy&Hy'). exists y. split; [|done]. rewrite <- Hy. symmetry. apply Hrest. congruence.
  - intros j a Hja. rewrite I2 by (destruct Hja; [by left|right; set_solver]). apply Hrest. destruct Hja as [Hj|Ha]; [congruence|]. intros [= -> ->]. set_solver.
Qed.
Lemma copy_children_ok i cs (s s' : sc T) u : i ∉ cs -> forM cs (fun c => forM FRAME_ARRAYS (copy_field i c)) s = (Ok u, s') ->
  (forall c f, c ∈ cs -> f ∈ FRAME_ARRAYS -> exists x, attr_at s i f = Some x /\ attr_at s' c f = Some x) /\ forall j a, j ∉ cs \/ a ∉ FRAME_ARRAYS -> attr_at s' j a = attr_at s j a.
Proof.
  revert s u. induction cs as [|c cs IH]; intros s u Hi H; [injection H as _ <-; split; [intros c f Hc; inversion Hc|done]|]. cbn [forM] in H. apply bind_ok in H as (v&s1&H1&H).
  apply not_elem_of_cons in Hi as [Hic Hi]. apply copy_fields_ok in H1 as [A1 A2]; [|done|apply (bool_decide_eq_true_1 (NoDup FRAME_ARRAYS)); vm_compute; reflexivity]. destruct (IH s1 u Hi H) as [I1 I2]. split.
  - intros c' f Hc Hf. destruct (decide (c' ∈ cs)) as [Hin|Hout].
    + destruct (I1 c' f Hin Hf) as (x&Hx&Hx'). exists x. split; [|done]. rewrite <- Hx. symmetry. apply A2. by left.
    + apply elem_of_cons in Hc as [->|Hc]; [|done]. destruct (A1 f Hf) as (x&Hx&Hx'). exists x. split; [done|]. rewrite I2 by (by left). done.
  - intros j a Hja. rewrite I2 by (destruct Hja; [left; set_solver|by right]). apply A2. destruct Hja; [left; set_solver|by right].
Qed.
(** one magnet of the loop *)
Lemma step_frames minv orr k m (s s' : sc T) u : magnet_step minv orr (k, m) s = (Ok u, s') -> ~ child_of s m m ->
  (exists e e', update_transformation minv e = (Ok tt, e') /\ (forall a, attr_at s' m a = e' !! a) /\
     forall c f, child_of s c m -> f ∈ FRAME_ARRAYS -> exists x, e' !! f = Some x /\ attr_at s' c f = Some x) /\
  (forall j a, j <> m -> ~ child_of s j m -> attr_at s' j a = attr_at s j a) /\ (forall j, attr_at s' j "MasterOf" = attr_at s j "MasterOf").
Proof.
  intros H Hself. pose proof (only_magnet_step minv orr (k, m) s) as HM. rewrite H in HM. cbn [snd] in HM. destruct HM as (_&_&_&HM).
  assert (forall j, attr_at s' j "MasterOf" = attr_at s j "MasterOf") as Hmas.
  { intros j. apply HM. unfold step_writes, transf, moved. intros [Hin|[_ [?|?]]]; [|done|done]. by apply (bool_decide_eq_true_2 _) in Hin. }
  unfold magnet_step in H. cbn [fst snd] in H. apply bind_ok in H as (v&s1&H1&H). pose proof (at_on_elem _ _ _ _ _ H1) as Hoth.
  assert (exists e e', update_transformation minv e = (Ok tt, e') /\ RING s1 !! m = Some e' /\ attr_at s m "MasterOf" = e' !! "MasterOf") as (e&e'&He&He'&Hme).
  { unfold on_elem in H1. destruct (RING s !! m) as [e0|] eqn:E; [|done]. destruct ((_ ;;; _) e0) as [r e'] eqn:Er. injection H1 as -> <-. 
    apply bind_ok in Er as (v1&e1&Er1&Er). apply bind_ok in Er as (v2&e2&Er2&Er). exists e2, e'. destruct v.
    assert (eagree transf e2 e') as Hag. { pose proof (only_transformation minv transf (fun a H => H) e2) as Hp. by rewrite Er in Hp. }
    unfold setattr, modify in Er1, Er2. injection Er1 as <- <-. injection Er2 as <- <-. split_and!; [done|cbn [RING set_RING]; rewrite list_lookup_insert by (by eapply lookup_lt_Some); done|].
    unfold attr_at. rewrite E. cbn [mbind option_bind]. rewrite Hag; [|unfold transf; intros Hin; by apply (bool_decide_eq_true_2 _) in Hin]. by rewrite !lookup_insert_ne by done. }
  apply bind_ok in H as (e''&s2&H2&H). unfold ring_elem in H2. injection H2 as H2 <-. apply idx_ok in H2. assert (e'' = e') as -> by congruence.
  destruct (e' !! "MasterOf") as [w|] eqn:EM.
  - apply bind_ok in H as (cs&s2&H3&H). apply lift_ok in H3 as [H3 ->]. destruct w; try done. injection H3 as <-. rename l into cl.
    assert (forall c, child_of s c m <-> c ∈ cl) as Hch. { intros c. unfold child_of. rewrite Hme. split; [by intros (l2&[= <-]&?)|intros; by exists cl]. }
    change (forM cl (fun c => forM FRAME_ARRAYS (copy_field m c)) s1 = (Ok u, s')) in H. rewrite Hch in Hself. apply copy_children_ok in H as [A1 A2]; [|done]. split_and!; [|..].
    + exists e, e'. split; [done|]. assert (forall a, attr_at s1 m a = e' !! a) as E1 by (intros a; unfold attr_at; by rewrite He'). split.
      * intros a. rewrite A2 by (by left). apply E1.
      * intros c f Hc Hf. apply Hch in Hc. destruct (A1 c f Hc Hf) as (x&Hx&Hx'). exists x. by rewrite <- E1.
    + intros j a Hj Hnc. rewrite Hch in Hnc. rewrite A2 by (by left). by apply Hoth.
    + done.
  - injection H as _ <-. split_and!; [|..].
    + exists e, e'. split; [done|]. split; [intros a; unfold attr_at; by rewrite He'|]. intros c f (l&Hl&_). rewrite Hme in Hl. done.
    + intros j a Hj _. by apply Hoth.
    + done.
Qed.
Definition alone (s : sc T) (l : list nat) (j : nat) : Prop := j ∉ l /\ forall m, m ∈ l -> ~ child_of s j m.
Lemma child_of_same (s s' : sc T) i m : (forall j, attr_at s' j "MasterOf" = attr_at s j "MasterOf") -> child_of s' i m <-> child_of s i m.
Proof. intros H. unfold child_of. by rewrite H. Qed.
Lemma loop_alone minv orr l (g : nat -> nat) (s s' : sc T) u j : (forall m, m ∈ l -> ~ child_of s m m) -> alone s l j -> forM (imap (fun k o => (g k, o)) l) (magnet_step minv orr) s = (Ok u, s') ->
  forall a, attr_at s' j a = attr_at s j a.
Proof.
  revert g s u. induction l as [|o l IH]; intros g s u Hs [Hj Hc] H a; [by injection H as _ <-|]. cbn [imap forM] in H. apply bind_ok in H as (v&s1&H1&H). apply not_elem_of_cons in Hj as [Hjo Hj].
  destruct (step_frames _ _ _ _ _ _ _ H1) as (_&A2&A3); [apply Hs; left|]. rewrite (IH (fun k => g (S k)) s1 u); [apply A2; [done|]; apply Hc; left| | |exact H].
  - intros m Hm. rewrite (child_of_same s) by done. apply Hs. by right.
  - split; [done|]. intros m Hm. rewrite (child_of_same s) by done. apply Hc. by right.
Qed.
Lemma loop_frames minv orr l (g : nat -> nat) (s s' : sc T) u m c : NoDup l -> (forall m, m ∈ l -> ~ child_of s m m) -> m ∈ l -> (forall m', m' ∈ l -> ~ child_of s m m') ->
  child_of s c m -> c ∉ l -> (forall m', m' ∈ l -> m' <> m -> ~ child_of s c m') -> forM (imap (fun k o => (g k, o)) l) (magnet_step minv orr) s = (Ok u, s') ->
  exists e e', update_transformation minv e = (Ok tt, e') /\ (forall a, attr_at s' m a = e' !! a) /\ forall f, f ∈ FRAME_ARRAYS -> exists x, e' !! f = Some x /\ attr_at s' c f = Some x.
Proof.
  revert g s u. induction l as [|o l IH]; intros g s u Hn Hs Hm Hmc Hc Hcl Hco H; [inversion Hm|]. cbn [imap forM] in H. apply bind_ok in H as (v&s1&H1&H). apply NoDup_cons in Hn as [Ho Hn].
  destruct (step_frames _ _ _ _ _ _ _ H1) as ((e&e'&A0&A1&A1')&A2&A3); [apply Hs; left|]. apply not_elem_of_cons in Hcl as [Hcx Hcl].
  assert (forall m, m ∈ l -> ~ child_of s1 m m) as Hs1 by (intros m' Hm'; rewrite (child_of_same s) by done; apply Hs; by right).
  destruct (decide (m = o)) as [->|Hmo].
  - exists e, e'. split; [done|].
    assert (forall j a, (j = o \/ j = c) -> attr_at s' j a = attr_at s1 j a) as Hkeep.
    { intros j a Hj. apply (loop_alone minv orr l (fun k => g (S k)) s1 s' u j Hs1); [|exact H]. destruct Hj as [-> | ->]; (split; [done|]); intros m' Hm'; rewrite (child_of_same s) by done.
      - apply Hmc. by right.
      - apply Hco; [by right|]. intros ->. done. }
    split; [intros a; rewrite Hkeep by (by left); apply A1|]. intros f Hf. rewrite Hkeep by (by right). by apply A1'.
  - apply elem_of_cons in Hm as [->|Hm]; [done|]. apply (IH (fun k => g (S k)) s1 u); try done.
    + intros m' Hm'. rewrite (child_of_same s) by done. apply Hmc. by right.
    + by rewrite (child_of_same s) by done.
    + intros m' Hm' Hne. rewrite (child_of_same s) by done. apply Hco; [by right|done].
Qed.
Lemma magnets_stage' minv (s s' : sc T) b u : update_supports minv b true s = (Ok u, s') -> oMagnet (ORD s) <> [] ->
  exists orr s1, forM (imap (fun i o => (i, o)) (oMagnet (ORD s))) (magnet_step minv orr) s = (Ok tt, s1) /\
    (if b && negb (length (oBPM (ORD s)) =? 0)%nat then exists orr', forM (imap (fun i o => (i, o)) (oBPM (ORD s))) (bpm_step orr') s1 = (Ok u, s') else s' = s1).
Proof.
  intros H Hne. unfold update_supports in H. apply bind_ok in H as (x&y&Hg&H). apply get_ok in Hg as [-> ->].
  apply bind_ok in H as (v&s1&H1&H2).
  assert (length (oMagnet (ORD s)) =? 0 = false)%nat as El. { apply Nat.eqb_neq. destruct (oMagnet (ORD s)); [done|simpl; lia]. }
  rewrite El in H1. simpl in H1. apply bind_ok in H1 as (locs&s2&Hl&H1). apply lift_ok in Hl as [Hl ->]. apply bind_ok in H1 as (x&y&Hg&H1). apply get_ok in Hg as [-> ->].
  apply bind_ok in H1 as (orr&s2&Ho&H1). apply lift_ok in Ho as [Ho ->]. exists orr, s1. destruct v. split; [done|].
  destruct (b && _); [|by injection H2 as _ <-]. apply bind_ok in H2 as (locs'&s2&Hl'&H2). apply lift_ok in Hl' as [Hl' ->]. apply bind_ok in H2 as (x&y&Hg&H2). apply get_ok in Hg as [-> ->].
  apply bind_ok in H2 as (orr'&s2&Ho'&H2). apply lift_ok in Ho' as [Ho' ->]. exists orr'. done.
Qed.
Lemma bpms_other orr l (s s' : sc T) u i a : i ∉ l -> forM (imap (fun i o => (i, o)) l) (bpm_step orr) s = (Ok u, s') -> attr_at s' i a = attr_at s i a.
Proof.
  intros Hi H. assert (pres (@only T (fun j _ => j ∈ l)) (forM (imap (fun i o => (i, o)) l) (bpm_step orr))) as Hp.
  { apply pres_forM; [exact _|]. intros io Hio s0. eapply only_mono; [|apply only_bpm_step]. intros j b [-> _]. apply elem_of_lookup_imap in Hio as (k&x&->&Hx). by eapply elem_of_list_lookup_2. }
  specialize (Hp s). rewrite H in Hp. destruct Hp as (_&_&_&Hp). by apply Hp.
Qed.
(** A registered magnet [m] that is no part of another, and one of its parts [c], which belongs to no other magnet and is not registered itself: after the supports are applied, both carry the four arrays
    that the update computes from the magnet alone, that is from its own length, angle, offsets and rolls. *)
Theorem C93_parts_carry minv (s s' : sc T) b u m c : update_supports minv b true s = (Ok u, s') -> NoDup (oMagnet (ORD s)) -> (forall m, m ∈ oMagnet (ORD s) -> ~ child_of s m m) ->
  m ∈ oMagnet (ORD s) -> (forall m', m' ∈ oMagnet (ORD s) -> ~ child_of s m m') -> (b = true -> m ∉ oBPM (ORD s)) ->
  child_of s c m -> c ∉ oMagnet (ORD s) -> (forall m', m' ∈ oMagnet (ORD s) -> m' <> m -> ~ child_of s c m') ->
  exists e e', update_transformation minv e = (Ok tt, e') /\ (forall a, attr_at s' m a = e' !! a) /\
    forall f, f ∈ ["T1"; "T2"; "R1"; "R2"] -> exists x, e' !! f = Some x /\ attr_at s' c f = Some x.
Proof.
  intros H Hn Hs Hm Hmc Hb Hc Hcl Hco. destruct (magnets_stage' minv s s' b u H) as (orr&s1&Hl&Hrest); [by intros E; rewrite E in Hm; inversion Hm|].
  destruct (loop_frames minv orr _ (fun k => k) s s1 tt m c Hn Hs Hm Hmc Hc Hcl Hco Hl) as (e&e'&A0&A1&A2). exists e, e'. split; [done|].
  assert ((forall a, attr_at s' m a = attr_at s1 m a) /\ forall f, f ∈ FRAME_ARRAYS -> attr_at s' c f = attr_at s1 c f) as [K1 K2].
  { destruct (b && _) eqn:Eb; [|by subst]. apply andb_true_iff in Eb as [-> _]. destruct Hrest as (o'&Hf). split.
    - intros a. eapply bpms_other, Hf. by apply Hb.
    - intros f Hf'. assert (pres (@only T (fun _ a => moved 0 a)) (forM (imap (fun i o => (i, o)) (oBPM (ORD s))) (bpm_step o'))) as Hp.
      { apply pres_forM; [exact _|]. intros io Hio s0. eapply only_mono; [|apply only_bpm_step]. by intros j a [_ ?]. }
      specialize (Hp s1). rewrite Hf in Hp. destruct Hp as (_&_&_&Hp). apply Hp. unfold moved, FRAME_ARRAYS in *. intros [-> | ->]; by apply (bool_decide_eq_true_2 _) in Hf'. }
  split; [intros a; by rewrite K1|]. intros f Hf. rewrite K2 by done. by apply A2.
Qed.
End Carry.
(** where magnet [m] of the machine stands: offsets and angles summed over support and magnet *)
Definition stands (s : sc R) (m : nat) (o : list R) (az ax ay : R) : Prop := exists so mo sr mr,
  attr_at s m "SupportOffset" = Some (VVec so) /\ attr_at s m "MagnetOffset" = Some (VVec mo) /\ attr_at s m "SupportRoll" = Some (VVec sr) /\ attr_at s m "MagnetRoll" = Some (VVec mr) /\
  length so = 3%nat /\ length mo = 3%nat /\ length sr = 3%nat /\ length mr = 3%nat /\ zip_with Rplus so mo = o /\ zip_with Rplus mr sr = [az; ax; ay].
Definition straight_of_length (s : sc R) (m : nat) (len : R) : Prop := attr_at s m "Length" = Some (VNum len) /\ (attr_at s m "BendingAngle" = None \/ attr_at s m "BendingAngle" = Some (VNum 0)).
(** In the machine: a part that begins [d] after its magnet and ends [d'] after it stands where the magnet is exactly if the magnet is upright, or [d] is zero and [d'] the length of the master. *)
Theorem C93_machine minv (s s' : sc R) b u m c o1 o2 o3 az ax ay len : inverts minv -> update_supports minv b true s = (Ok u, s') ->
  NoDup (oMagnet (ORD s)) -> (forall m, m ∈ oMagnet (ORD s) -> ~ child_of s m m) ->
  m ∈ oMagnet (ORD s) -> (forall m', m' ∈ oMagnet (ORD s) -> ~ child_of s m m') -> (b = true -> m ∉ oBPM (ORD s)) ->
  child_of s c m -> c ∉ oMagnet (ORD s) -> (forall m', m' ∈ oMagnet (ORD s) -> m' <> m -> ~ child_of s c m') ->
  stands s' m [o1; o2; o3] az ax ay -> straight_of_length s' m len ->
  exists r1 t1 r2 t2, attr_at s' c "R1" = Some (VMat r1) /\ attr_at s' c "T1" = Some (VVec t1) /\ attr_at s' c "R2" = Some (VMat r2) /\ attr_at s' c "T2" = Some (VVec t2) /\
    let magnet := displaced [o1; o2; o3] ax ay az in
    forall d d', right_entrance magnet d r1 t1 /\ right_exit magnet d' r2 t2 <-> upright magnet \/ (d = 0 /\ d' = len).
Proof.
  intros Hi H Hn Hs Hm Hmc Hb Hc Hcl Hco (so&mo&sr&mr&S1&S2&S3&S4&L1&L2&L3&L4&S5&S6) [SL SA].
  destruct (C93_parts_carry minv s s' b u m c H Hn Hs Hm Hmc Hb Hc Hcl Hco) as (e&e'&A0&A1&A2).
  assert (eagree transf e e') as Hag. { pose proof (only_transformation minv transf (fun a H => H) e) as Hp. by rewrite A0 in Hp. }
  assert (forall a, bool_decide (a ∈ ["T1"; "T2"; "R1"; "R2"]) = false -> e !! a = attr_at s' m a) as Ea.
  { intros a Ha. rewrite A1. symmetry. apply Hag. unfold transf. by apply bool_decide_eq_false in Ha. }
  rewrite <- Ea in S1, S2, S3, S4, SL by done. rewrite <- !Ea in SA by done.
  assert (number_or_absent e "BendingAngle" 0) as HA by (destruct SA; [by right|by left]). assert (number_or_absent e "Length" len) as HL by (by left).
  destruct (C86_transformation minv e e' so mo sr mr len 0 o1 o2 o3 ax ay az Hi (conj S1 (conj S2 (conj S3 S4))) HL HA S5 S6 ltac:(congruence) ltac:(congruence) A0) as (r1&t1&r2&t2&K1&K2&K3&K4&_).
  exists r1, t1, r2, t2. 
  assert (forall f x, f ∈ ["T1"; "T2"; "R1"; "R2"] -> e' !! f = Some x -> attr_at s' c f = Some x) as Kc. { intros f x Hf Hx. destruct (A2 f Hf) as (y&Hy&Hy'). congruence. }
  do 4 (split; [apply Kc; [set_solver|done]|]). intros magnet d d'.
  destruct (C93_straight_parts minv e e' so mo sr mr len o1 o2 o3 ax ay az r1 t1 r2 t2 Hi (conj S1 (conj S2 (conj S3 S4))) HL HA S5 S6 ltac:(congruence) ltac:(congruence) A0 K1 K2 K3 K4) as [E1 E2].
  fold magnet in E1, E2. rewrite E1, E2. tauto.
Qed.

(** * Cases *)
(** A straight magnet of length 2 turned about the vertical axis by an angle [a] smaller than a right angle. *)
Definition turned_quad (a : R) : elem R :=
  {["SupportOffset" := VVec [0; 0; 0]; "MagnetOffset" := VVec [0; 0; 0]; "SupportRoll" := VVec [0; 0; a]; "MagnetRoll" := VVec [0; 0; 0]; "Length" := VNum 2]}.
Definition into (a : R) : list (list R) :=
  [[1 / cos a; 0; 0; 0; 0; 0]; [0; cos a; 0; 0; - sin a; 0]; [0; 0; 1; 0; 0; 0]; [0; 0; 0; 1; 0; 0]; [0; 0; 0; 0; 1; 0]; [- sin a / cos a; 0; 0; 0; 0; 1]].
Definition out_of (a : R) : list (list R) :=
  [[cos a; 0; 0; 0; 0; 0]; [0; 1 / cos a; 0; 0; sin a / cos a; 0]; [0; 0; 1; 0; 0; 0]; [0; 0; 0; 1; 0; 0]; [0; 0; 0; 0; 1; 0]; [sin a; 0; 0; 0; 0; 1]].
Definition minv_turned (a : R) (m : list (list R)) : res (list (list R)) := if List.list_eq_dec (List.list_eq_dec Req_EM_T) m (into a) then Ok (out_of a) else Err GenericException.
Lemma minv_turned_inverts a : cos a <> 0 -> inverts (minv_turned a).
Proof.
  intros Hc m i v H Hv. unfold minv_turned in H. destruct (List.list_eq_dec _ m (into a)) as [->|]; [|done]. injection H as <-. destruct v as [|x1 [|x2 [|x3 [|x4 [|x5 [|x6 []]]]]]]; try discriminate.
  split; [done|]. unfold into, out_of, apply_matrix. cbn [map zip_with foldr]. lists; field; done.
Qed.
Example C93_case a : 0 < a < PI / 2 -> exists e' r1 t1 r2 t2, update_transformation (minv_turned a) (turned_quad a) = (Ok tt, e') /\
  e' !! "R1" = Some (VMat r1) /\ e' !! "T1" = Some (VVec t1) /\ e' !! "R2" = Some (VMat r2) /\ e' !! "T2" = Some (VVec t2) /\
  let magnet := displaced [0; 0; 0] 0 a 0 in right_entrance magnet 0 r1 t1 /\ right_exit magnet 2 r2 t2 /\ ~ right_entrance magnet 2 r1 t1 /\ ~ right_exit magnet 3 r2 t2 /\
  vec (entering r1 t1 (coords no_ray)) 0 = 0 /\ vec (coords (crossing (end_of design 2 0) (end_of magnet 2 0) no_ray)) 0 = - 2 * tan a.
Proof.
  intros Ha. assert (0 < cos a) as Hc by (apply cos_gt_0; lra). assert (0 < sin a) as Hsn by (apply sin_gt_0; lra).
  assert (cos a <> 0) as Hc0 by lra. assert (misaligned (turned_quad a) [0; 0; 0] [0; 0; 0] [0; 0; a] [0; 0; 0]) as HM by done.
  assert (exists e', update_transformation (minv_turned a) (turned_quad a) = (Ok tt, e') /\ e' !! "R1" = Some (VMat (into a)) /\ e' !! "T1" = Some (VVec [0; - sin a / cos a; 0; 0; 0; 0])) as (e'&E&E1&E2).
  { destruct HM as (Hso&Hmo&Hsr&Hmr). unfold update_transformation.
    assert (num_default (turned_quad a) "Length" = Ok 2) as EL by done. assert (num_default (turned_quad a) "BendingAngle" = Ok 0) as EA by done. rewrite run_getm, EL, run_getm, EA, run_getm.
    unfold attr. rewrite Hso, Hmo. cbn [rbind nb_op]. unfold bcast. cbn [length Nat.eqb rbind]. assert (zip_with nadd [0; 0; 0] [0; 0; 0] = [0; 0; 0]) as -> by (cbn [zip_with]; num_R; lists; ring).
    cbn [three]. rewrite run_getm, Hmr, Hsr. cbn [rbind nb_op]. unfold bcast. cbn [length Nat.eqb rbind]. assert (zip_with nadd [0; 0; 0] [0; 0; a] = [0; 0; a]) as -> by (cbn [zip_with]; num_R; lists; ring).
    cbn [three fst snd]. destruct (C33_single_axis a) as (_&->&_). set (g := about_y a).
    assert (dot (mvec g z_axis) [0; 0; 0] = 0) as -> by (unfold g, about_y; mats; num_R; ring).
    assert (neqb (cos a) n0 = false) as Hq by (by apply Reqb_false).
    assert (translation_vector 0 g (mvec g x_axis) (mvec g y_axis) [0; 0; 0] = Ok [0; - sin a; 0; 0; 0; 0]) as ->.
    { unfold translation_vector. assert (mget g 2 2 = cos a) as -> by reflexivity. rewrite Hq. f_equal. unfold g, about_y. mats. num_R. lists; field; done. }
    assert (r_matrix 0 g = Ok (into a)) as ->.
    { unfold r_matrix. assert (mget g 2 2 = cos a) as -> by reflexivity. rewrite Hq. f_equal. unfold g, about_y, into. mats. num_R. lists; field; done. }
    rewrite !run_lift, run_setattr, run_lift. assert (minv_turned a (into a) = Ok (out_of a)) as -> by (unfold minv_turned; by destruct (List.list_eq_dec _ (into a) (into a))). rewrite run_setattr.
    assert (mvec (out_of a) [0; - sin a; 0; 0; 0; 0] = [0; - sin a / cos a; 0; 0; 0; 0]) as -> by (unfold out_of; mats; num_R; lists; field; done).
    change (nopp 0) with (- 0). rewrite Ropp_0. change (n0 (T:=R)) with 0. rewrite C33_identity. assert (neqb 0 0 = true) as -> by apply reqb_refl.
    assert (mmul (mtrans ident3) (mmul (mtrans g) ident3) = mtrans g) as -> by (unfold g, about_y, ident3; mats; num_R; lists; ring). cbv zeta.
    match goal with |- context [translation_vector ?ld (mtrans g) ?xs ?ys ?os] => assert (exists t, translation_vector ld (mtrans g) xs ys os = Ok t) as [t ->] end.
    { unfold translation_vector. assert (mget (mtrans g) 2 2 = cos a) as -> by reflexivity. rewrite Hq. by eexists. }
    rewrite run_lift, run_setattr.
    match goal with |- context [r_matrix ?ld (mtrans g)] => assert (exists m, r_matrix ld (mtrans g) = Ok m) as [m ->] end.
    { unfold r_matrix. assert (mget (mtrans g) 2 2 = cos a) as -> by reflexivity. rewrite Hq. by eexists. }
    rewrite run_lift. eexists. split; [reflexivity|]. split; repeat (rewrite lookup_insert_ne by done); by rewrite lookup_insert. }
  assert (zip_with Rplus [0; 0; 0] [0; 0; 0] = [0; 0; 0]) as Z1 by (cbn [zip_with]; lists; ring). assert (zip_with Rplus [0; 0; 0] [0; 0; a] = [0; 0; a]) as Z2 by (cbn [zip_with]; lists; ring).
  assert (number_or_absent (turned_quad a) "Length" 2) as HL by (by left). assert (number_or_absent (turned_quad a) "BendingAngle" 0) as HA by (by right).
  destruct (C86_transformation _ _ e' _ _ _ _ 2 0 0 0 0 0 a 0 (minv_turned_inverts a Hc0) HM HL HA Z1 Z2 eq_refl eq_refl E) as (r1&t1&r2&t2&F1&F2&F3&F4&_).
  exists e', r1, t1, r2, t2. do 5 (split; [done|]). intros magnet.
  destruct (C93_straight_parts _ _ e' _ _ _ _ 2 0 0 0 0 a 0 r1 t1 r2 t2 (minv_turned_inverts a Hc0) HM HL HA Z1 Z2 eq_refl eq_refl E F1 F2 F3 F4) as [G1 G2]. fold magnet in G1, G2.
  assert (forall j, (j < 3)%nat -> axis magnet 2 j = entry (about_y a) 2 j) as EA.
  { intros j Hj. unfold magnet, displaced. cbn [axis]. rewrite rotation_entries by lia. by destruct (C33_single_axis a) as (_&->&_). }
  assert (~ upright magnet) as Hu.
  { intros Hu. specialize (Hu 2%nat ltac:(lia)). rewrite EA in Hu by lia. unfold delta, about_y in Hu. cbn [entry lookup list_lookup Nat.eqb] in Hu. pose proof (sin_sq a) as Hq. rewrite Hu in Hq. nra. }
  destruct (C93_step _ _ e' _ _ _ _ 2 0 0 0 0 a 0 r1 t1 2 (minv_turned_inverts a Hc0) HM HL HA Z1 Z2 eq_refl eq_refl E F1 F2) as (K1&_). fold magnet in K1. rewrite !EA in K1 by lia.
  assert (vec (entering r1 t1 (coords no_ray)) 0 = 0) as K0.
  { rewrite E1 in F1. injection F1 as <-. rewrite E2 in F2. injection F2 as <-. unfold into, entering, apply_matrix, coords, no_ray, vec. cbn [q_x q_px q_y q_py q_dp q_ct zip_with map foldr lookup list_lookup default from_option Datatypes.id]. field. done. }
  rewrite G1, G2, G1, G2. split_and!.
  - by left.
  - by left.
  - intros [?|?]; [lra|done].
  - intros [?|?]; [lra|done].
  - done.
  - rewrite K0 in K1. unfold about_y in K1. cbn [entry lookup list_lookup] in K1. unfold tan. unfold Rdiv in *. lra.
Qed.

Local Open Scope Q_scope.
#[local] Instance TrigQ23 : Trig Q := { ncos := fun _ => 1%Q; nsin := fun _ => 0%Q; nsqrt := fun x => x; npi := 3%Q }.
(** A quadrupole in two parts, displaced by 1 and 2: both parts are shifted. *)
Definition split_machine : sc Q :=
  let s := snd (register_magnets [0%nat] [] (MkType None None false None (Some [[1%nat]])) (init_sc [quad; quad; drift 1] [])) in
  snd (on_elem 0 (setattr "MagnetOffset" (VVec [1; 2; 0])) s).
Example C93_machine_case : let s := split_machine in
  fst (update_supports (fun m => Ok m) true true s) = Ok tt /\ oMagnet (ORD s) = [0%nat] /\ ~ child_of s 0 0 /\ child_of s 1 0 /\
  attr_at (snd (update_supports (fun m => Ok m) true true s)) 1 "T1" = Some (VVec [-1; 0; -2; 0; 0; 0]).
Proof.
  intros s. assert (attr_at s 0 "MasterOf" = Some (VOrds [1%nat])) as E by (vm_compute; reflexivity). split_and!; try (vm_compute; reflexivity).
  - intros (l&Hl&Hin). rewrite E in Hl. injection Hl as <-. by apply elem_of_list_singleton in Hin.
  - exists [1%nat]. split; [done|]. apply elem_of_list_here.
Qed.
Print Assumptions C93_straight_parts.
Print Assumptions C93_step.
Print Assumptions C93_bend_parts.
Print Assumptions C93_parts_carry.
Print Assumptions C93_machine.
Print Assumptions C93_case.
