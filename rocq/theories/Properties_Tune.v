(** C52, C53, C65, C66: tune scan and its grid, tune and chromaticity fits. *)
From Coq Require Import Reals Lra Lia QArith ZArith Sorting.Sorted.
From stdpp Require Import base gmap strings list.
From Verif Require Import Num Base Model_Arr Model_SC Model_Err Model_Beam Model_Orbit Model_Scan Lemmas Proofs_Update Proofs_Setpoint Proofs_Loop2 Proofs_Beam Spec Proofs_CM Proofs_CM2 Properties_Setpoint3 Properties_Setpoint Properties_Setpoint4 Properties_Field Properties_Beam Properties_Orbit Properties_Thread Properties_Rf.
Local Open Scope string_scope.
Local Open Scope list_scope.
Local Open Scope R_scope.

(** * C53: the grid *)

(** the golden angle, and the spiral in one plane *)
Definition golden_angle : R := 2 * PI / ((1 + R_sqrt.sqrt 5) / 2).
Definition spiral (r n k : nat) (trig : R -> R) : R := R_sqrt.sqrt (INR k / INR (n - 1)) * (INR r * trig (INR k * golden_angle)).

Lemma Rabs_inv x a : Rabs x <= a -> - a <= x <= a.
Proof. unfold Rabs. destruct (Rcase_abs x); lra. Qed.
Lemma nround_spec (x : R) : exists z : Z, nround x = IZR z /\ Rabs (IZR z - x) <= / 2.
Proof.
  unfold nround. rewrite nfloor_R. pose proof (base_Int_part x) as [H1 H2]. set (z := Int_part x) in *. clearbody z.
  replace (@nhalf R _) with (/ 2) by (unfold nhalf, ntwo; num_R; field). num_R.
  destruct (Rltb (x - IZR z) (/ 2)) eqn:E1; [apply Rltb_true in E1; exists z; split; [done|]; apply Rabs_le; lra|]. apply Rltb_false in E1.
  destruct (Rltb (/ 2) (x - IZR z)) eqn:E2.
  - apply Rltb_true in E2. exists (z + 1)%Z. rewrite plus_IZR. split; [done|]. apply Rabs_le. lra.
  - apply Rltb_false in E2. destruct (Reqb _ _); [exists z; split; [done|]; apply Rabs_le; lra|].
    exists (z + 1)%Z. rewrite plus_IZR. split; [done|]. apply Rabs_le. lra.
Qed.
Lemma to_index_spec b k : (k <= b)%nat -> to_index b (INR k) = k.
Proof.
  intros H. unfold to_index. assert (b = (k + (b - k))%nat) as -> by lia. rewrite seq_app, List.filter_app, app_length.
  assert (forall l, Forall (fun j => (j < k)%nat) l -> List.filter (fun j => nleb (nofnat (S j)) (INR k)) l = l) as HA.
  { induction 1 as [|j l Hj Hl IH]; [done|]. cbn [List.filter]. rewrite nofnat_R. change (nleb (INR (S j)) (INR k)) with (Rleb (INR (S j)) (INR k)).
    replace (Rleb (INR (S j)) (INR k)) with true by (symmetry; apply Rleb_true, le_INR; lia). by rewrite IH. }
  assert (forall l, Forall (fun j => (k <= j)%nat) l -> List.filter (fun j => nleb (nofnat (S j)) (INR k)) l = []) as HB.
  { induction 1 as [|j l Hj Hl IH]; [done|]. cbn [List.filter]. rewrite nofnat_R. change (nleb (INR (S j)) (INR k)) with (Rleb (INR (S j)) (INR k)).
    replace (Rleb (INR (S j)) (INR k)) with false by (symmetry; apply Rleb_false, lt_INR; lia). done. }
  rewrite HA by (apply Forall_forall; intros j Hj; apply elem_of_seq in Hj; lia). rewrite HB by (apply Forall_forall; intros j Hj; apply elem_of_seq in Hj; lia).
  rewrite seq_length. simpl. lia.
Qed.
Lemma to_index_bound b (x : R) : (to_index b x <= b)%nat.
Proof.
  unfold to_index. assert (forall l, length (List.filter (fun j => nleb (nofnat (S j)) x) l) <= length l)%nat as H.
  { intros l. induction l as [|j l IH]; cbn [List.filter length]; [lia|]. match goal with |- context [if ?c then _ else _] => destruct c end; cbn [length]; lia. }
  specialize (H (seq 0 b)). by rewrite seq_length in H.
Qed.
(** every index is the grid point nearest to the spiral *)
Lemma donut_nearest r n k (trig : R -> R) : (forall x, -1 <= trig x <= 1) -> (k < n)%nat -> (2 <= n)%nat ->
  Rabs (INR (donut_index r n trig k) - (INR r + spiral r n k trig)) <= / 2.
Proof.
  intros Ht Hk Hn. unfold donut_index. rewrite !nofnat_R. fold (@nmul R _). set (p := nmul (nsqrt _) _).
  assert (p = spiral r n k trig) as Hp.
  { unfold p, spiral, golden_angle, golden_phi, ntwo. rewrite nofnat_R. change (@nsqrt R _) with R_sqrt.sqrt. change (@npi R _) with PI. num_R.
    replace (INR 5) with 5 by (simpl; lra). reflexivity. }
  rewrite Hp. clear p Hp. set (p := spiral r n k trig).
  assert (0 <= INR r) as Hr by apply pos_INR.
  assert (- INR r <= p <= INR r) as [P1 P2].
  { unfold p, spiral. set (q := R_sqrt.sqrt _). assert (0 <= q <= 1) as [Q1 Q2].
    { split; [apply sqrt_pos|]. unfold q. rewrite <- sqrt_1. apply sqrt_le_1_alt. apply Rmult_le_reg_r with (INR (n - 1)); [apply lt_0_INR; lia|].
      unfold Rdiv. rewrite Rmult_assoc, Rinv_l by (apply not_0_INR; lia). rewrite Rmult_1_r, Rmult_1_l. apply le_INR. lia. }
    specialize (Ht (INR k * golden_angle)). set (v := trig _) in *. clearbody v q. assert (- INR r <= INR r * v <= INR r) as [Y1 Y2] by (split; nra). set (y := INR r * v) in *. clearbody y. assert (0 <= q * (INR r - y)) by (apply Rmult_le_pos; lra). assert (0 <= q * (INR r + y)) by (apply Rmult_le_pos; lra). assert (0 <= (1 - q) * INR r) by (apply Rmult_le_pos; lra). lra. }
  destruct (nround_spec p) as (z&Ez&Hz). rewrite Ez. apply Rabs_inv in Hz.
  assert (- Z.of_nat r <= z <= Z.of_nat r)%Z as Hzr.
  { rewrite INR_IZR_INZ in P1, P2. rewrite <- opp_IZR in P1. split; apply Z.lt_succ_r, lt_IZR; unfold Z.succ; rewrite plus_IZR, ?opp_IZR in *; lra. }
  assert (exists j, (j <= 2 * r)%nat /\ IZR z + INR r = INR j) as (j&Hj&Ej).
  { exists (Z.to_nat (z + Z.of_nat r)). split; [lia|]. rewrite (INR_IZR_INZ (Z.to_nat _)), Z2Nat.id by lia. rewrite plus_IZR, <- INR_IZR_INZ. done. }
  unfold clip, nmin, nmax. num_R. rewrite Ej.
  replace (Rltb (INR j) 0) with false by (symmetry; apply Rltb_false, pos_INR).
  replace (Rltb (INR (2 * r)) (INR j)) with false by (symmetry; apply Rltb_false, le_INR; lia).
  rewrite to_index_spec by done. apply Rabs_le. lra.
Qed.
Theorem C53_inside r1 r2 n l : golden_donut_inds (T:=R) r1 r2 n = Ok l ->
  length l = n /\ forall p, p ∈ l -> (p.1 <= 2 * r1)%nat /\ (p.2 <= 2 * r2)%nat.
Proof.
  unfold golden_donut_inds. destruct (n =? 1)%nat; [done|]. intros [= <-]. rewrite map_length, seq_length. split; [done|].
  intros p Hp. apply elem_of_list_fmap in Hp as (k&->&_). split; apply to_index_bound.
Qed.
(** hence no index is out of range on a grid of odd size *)
Corollary C53_odd_size_in_range r1 r2 n l (rel1 rel2 : list R) : golden_donut_inds (T:=R) r1 r2 n = Ok l ->
  length rel1 = (2 * r1 + 1)%nat -> length rel2 = (2 * r2 + 1)%nat -> forall p, p ∈ l -> is_Some (rel1 !! p.1) /\ is_Some (rel2 !! p.2).
Proof. intros H L1 L2 p Hp. destruct (C53_inside _ _ _ _ H) as [_ B]. destruct (B p Hp). split; apply lookup_lt_is_Some; lia. Qed.
Theorem C53_on_the_spiral r1 r2 n l : golden_donut_inds (T:=R) r1 r2 n = Ok l -> forall k i j, l !! k = Some (i, j) ->
  Rabs (INR i - (INR r1 + spiral r1 n k cos)) <= / 2 /\ Rabs (INR j - (INR r2 + spiral r2 n k sin)) <= / 2.
Proof.
  unfold golden_donut_inds. destruct (n =? 1)%nat eqn:E; [done|]. apply Nat.eqb_neq in E. intros [= <-] k i j H.
  apply list_lookup_fmap_Some in H as (k'&Hk&[= -> ->]). apply lookup_seq in Hk as [-> Hk]. simpl.
  split; apply donut_nearest; try lia; intros x; [apply COS_bound|apply SIN_bound].
Qed.
Theorem C53_starts_at_centre r1 r2 n l : (2 <= n)%nat -> golden_donut_inds (T:=R) r1 r2 n = Ok l -> l !! 0%nat = Some (r1, r2).
Proof.
  intros Hn H. destruct (C53_inside _ _ _ _ H) as [HL _]. destruct (lookup_lt_is_Some_2 l 0) as [[i j] Hij]; [lia|]. rewrite Hij.
  destruct (C53_on_the_spiral _ _ _ _ H _ _ _ Hij) as [H1 H2]. unfold spiral in H1, H2. simpl INR in H1 at 3. simpl INR in H2 at 3.
  replace (INR 0) with 0 in * by done. unfold Rdiv in *. rewrite Rmult_0_l, sqrt_0, Rmult_0_l, Rplus_0_r in H1, H2.
  assert (forall a b, Rabs (INR a - INR b) <= / 2 -> a = b) as HE.
  { intros a b Hab. apply Rabs_inv in Hab. destruct (Nat.lt_trichotomy a b) as [L|[L|L]]; [|done|]; apply le_INR in L; rewrite S_INR in L; lra. }
  by rewrite (HE _ _ H1), (HE _ _ H2).
Qed.
(** The finding: on a grid of size two (radius one) the third of three points has index 2, out of range. *)
Theorem C53_finding_even_size : exists l i, golden_donut_inds (T:=R) (2 / 2) (2 / 2) 3 = Ok l /\ l !! 2%nat = Some (i, 2%nat).
Proof.
  change (2 / 2)%nat with 1%nat. destruct (golden_donut_inds (T:=R) 1 1 3) as [l|] eqn:H; [|discriminate].
  destruct (C53_inside _ _ _ _ H) as [HL HB]. destruct (lookup_lt_is_Some_2 l 2) as [[i j] Hij]; [lia|]. exists l, i. split; [done|]. rewrite Hij.
  destruct (C53_on_the_spiral _ _ _ _ H _ _ _ Hij) as [_ H2]. apply Rabs_inv in H2.
  destruct (HB (i, j)) as [_ Hj]; [by eapply elem_of_list_lookup_2|]. simpl in Hj.
  assert (spiral 1 3 2 sin > / 2) as Hs.
  { unfold spiral. replace (INR 2 / INR (3 - 1)) with 1 by (simpl; field). rewrite sqrt_1, !Rmult_1_l. unfold golden_angle.
    set (q := R_sqrt.sqrt 5). assert (q * q = 5) as Hq by (apply sqrt_sqrt; lra). assert (0 <= q) as Hq0 by apply sqrt_pos.
    assert (25 / 12 < q < 29 / 12) as [Q1 Q2] by nra.
    replace (INR 2 * (2 * PI / ((1 + q) / 2))) with (2 * PI * (q - 2) + 2 * INR 1 * PI).
    2:{ simpl. replace (2 * PI / ((1 + q) / 2)) with (PI * (q - 1)); [ring|]. assert (4 = (q - 1) * (1 + q)) as E by lra. 
        replace (2 * PI / ((1 + q) / 2)) with (4 * PI / (1 + q)) by (field; lra). rewrite E. field. lra. }
    rewrite sin_period. clearbody q. pose proof PI_RGT_0 as Hpi. replace (/ 2) with (1 / 2) by lra. rewrite <- sin_PI6. apply Rlt_gt.
    destruct (Rle_dec (2 * PI * (q - 2)) (PI / 2)) as [Hl|Hl].
    - apply sin_increasing_1; nra.
    - rewrite <- (sin_PI_x (2 * PI * (q - 2))). apply sin_increasing_1; nra. }
  assert (j = 2%nat) as ->; [|done]. destruct j as [|[|[|j]]]; try lia; simpl in H2; lra.
Qed.

(** * C52: specification *)

(** the quadrupole set-points are [f] times nominal *)
Definition at_factor (quads : list nat) (f : R) (s : sc R) : Prop :=
  forall i, i ∈ quads -> exists nom, entry s i "NomPolynomB" 1 = Some nom /\ entry s i "SetPointB" 1 = Some (f * nom).
(** one visit of the scan: grid point, factors, turns, surviving fractions *)
Record visit := MkVisit { v_point : nat * nat; v_f1 : R; v_f2 : R; v_turns : nat; v_frac : list R }.
Definition final (v : visit) (x : R) : Prop := last (v_frac v) = Some x.
(** no later visit of the same grid point *)
Definition latest (vs : list visit) (v : visit) : Prop := exists before after, vs = before ++ v :: after /\ Forall (fun u => v_point u <> v_point v) after.

Lemma steered_set_magnet X `{!NoMaster X} (P : nat -> Prop) ords dt sps skew order method : (forall i, i ∈ ords -> P i) -> pres (steered_also X P) (@set_magnet_setpoints R _ ords dt sps skew order method false).
Proof.
  intros HP s. pose proof (set_magnet_frame ords dt sps skew order method s) as F. set (s' := snd _) in *.
  pose proof F as (F1&F2&F3&F4&F5&[F6 _]). unfold steered_also; repeat split_and?; auto. intros i a H1 H2 _. rewrite !attr_at_aget. apply (frame_aget _ _ _ _ _ F).
  intros [[-> Hi]|[Hd Ht]].
  - apply H1. split; [destruct (SP_cases skew); auto|auto].
  - apply H2. split; [exact Hd|]. destruct Ht as [Hi|(m&Hm&Hc)]; [auto|]. right. exists m. split; [auto|]. unfold child_of. rewrite attr_at_aget.
    unfold children in Hc. destruct (aget (RING s) m "MasterOf") as [[]|]; try by inversion Hc. eauto.
Qed.
Lemma steered_entry P (s s' : sc R) i a k : steered P s s' -> a <> "SetPointA" -> a <> "SetPointB" -> a ∉ field_attributes -> entry s' i a k = entry s i a k.
Proof. intros (_&_&_&_&_&H) H1 H2 H3. unfold entry. rewrite H; [done| | |tauto]; [intros [[?|?] _]; done|intros [? _]; done]. Qed.

Section TuneScan.
  Context (w : world R) (quads1 quads2 : list nat) (rel1 rel2 : list R) (target : R) (nparts nturns : nat) (full_scan : bool).
  Notation loop := (tune_loop w quads1 quads2 rel1 rel2 target nparts nturns full_scan).
  Definition scanned_quads (i : nat) : Prop := i ∈ quads1 \/ i ∈ quads2.
  (** the visit was made with the quadrupoles at its factors, and nothing else changed since [s] *)
  Definition made (s : sc R) (v : visit) : Prop :=
    rel1 !! (v_point v).1 = Some (v_f1 v) /\ rel2 !! (v_point v).2 = Some (v_f2 v) /\
    exists s1 s2, steered scanned_quads s s1 /\ at_factor quads1 (v_f1 v) s1 /\ at_factor quads2 (v_f2 v) s1 /\
      beam_transmission w (Some nparts) (Some nturns) s1 = (Ok (v_turns v, v_frac v), s2).

  Lemma set_quads_ok sps f1 f2 (s s' : sc R) : NoDup (quads1 ++ quads2) -> sps = quad_factors quads1 quads2 f1 f2 ->
    set_quads quads1 quads2 sps s = (Ok tt, s') -> steered scanned_quads s s' /\ at_factor quads1 f1 s' /\ at_factor quads2 f2 s'.
  Proof.
    intros Hnd -> H. unfold set_quads in H.
    assert (steered scanned_quads s s') as HS.
    { change s' with (snd (Ok tt : res unit, s')). rewrite <- H. apply (steered_set_magnet (fun _ => False)). intros i. by rewrite elem_of_app. }
    split; [done|].
    assert (length (quad_factors quads1 quads2 f1 f2) = length (quads1 ++ quads2)) as HL by (unfold quad_factors; by rewrite !app_length, !replicate_length).
    destruct (C12_meaning _ _ _ _ _ _ _ Hnd HL H) as [HM _].
    assert (forall i x, (i, x) ∈ zip (quads1 ++ quads2) (quad_factors quads1 quads2 f1 f2) ->
       exists nom, entry s' i "NomPolynomB" 1 = Some nom /\ entry s' i "SetPointB" 1 = Some (x * nom)) as HE.
    { intros i x Hx. destruct (HM i x Hx) as (y&Hy&Hs). unfold magnet_request in Hy. rewrite decide_False, decide_True in Hy by done.
      change (nominal_name false) with "NomPolynomB" in Hy. destruct (entry s i "NomPolynomB" 1) as [nom|] eqn:En; [|done]. injection Hy as <-.
      exists nom. split; [|exact Hs]. rewrite <- En. eapply steered_entry; [exact HS|done|done|]. by apply (bool_decide_unpack _). }
    split; intros i Hi; apply HE; unfold quad_factors; rewrite zip_with_app by (by rewrite replicate_length); apply elem_of_app; [left|right]; by apply in_zip_replicate.
  Qed.
  Lemma inverse_factors f1 f2 inv : rmap (qdiv n1) (quad_factors quads1 quads2 f1 f2) = Ok inv -> inv = quad_factors quads1 quads2 (/ f1) (/ f2).
  Proof.
    intros H. apply rmap_ok in H. unfold quad_factors in *. apply Forall2_app_inv_l in H as (a&b&H1&H2&->).
    assert (forall f m l, Forall2 (fun x y => qdiv n1 x = Ok y) (replicate m f) l -> l = replicate m (/ f)) as HR.
    { intros f m. induction m as [|m IH]; intros l Hl; inversion Hl as [|x y l1 l2 Hxy Hl2]; subst; [done|]. simpl. f_equal; [|by apply IH].
      apply qdivR_ok in Hxy as [-> _]. num_R. unfold Rdiv. lra. }
    by rewrite (HR _ _ _ H1), (HR _ _ _ H2).
  Qed.
  Lemma made_from s s0 v : steered scanned_quads s s0 -> made s0 v -> made s v.
  Proof. intros HS (A&B&s1&s2&C&D&E&F). split; [done|]. split; [done|]. exists s1, s2. split; [unfold steered in *; by etransitivity|]. done. Qed.

  (** what the loop returns for the visits it made *)
  Definition to_grid (vs : list visit) : grid R := rev (map (fun v => (v_point v, (v_turns v, v_frac v))) vs).
  Lemma loop_ok inds : NoDup (quads1 ++ quads2) -> forall g (s : sc R) r g' s', loop inds g s = (Ok (r, g'), s') ->
    exists vs, g' = to_grid vs ++ g /\ Forall (made s) vs /\ steered scanned_quads s s' /\
      match r with
      | Some (f1, f2) => exists vs0 v x, vs = vs0 ++ [v] /\ map v_point vs `prefix_of` inds /\ full_scan = false /\ f1 = v_f1 v /\ f2 = v_f2 v /\ final v x /\ target <= x /\
          Forall (fun u => exists y, final u y /\ y < target) vs0 /\ at_factor quads1 f1 s' /\ at_factor quads2 f2 s'
      | None => map v_point vs = inds /\ (full_scan = false -> Forall (fun u => exists y, final u y /\ y < target) vs) /\
          (vs = [] -> s' = s) /\ forall v, last vs = Some v -> at_factor quads1 (/ v_f1 v) s' /\ at_factor quads2 (/ v_f2 v) s'
      end.
  Proof.
    intros Hnd. induction inds as [|[q1 q2] inds IH]; intros g s r g' s' H.
    - cbn [tune_loop] in H. apply ret_ok in H as [[= <- <-] <-]. exists []. split; [done|]. split; [constructor|]. split; [unfold steered; reflexivity|]. split; [done|]. split; [done|]. split; done.
    - cbn [tune_loop] in H.
      apply bind_ok in H as (f1&t&H1&H). apply lift_ok in H1 as [H1 ->]. apply idx_ok in H1.
      apply bind_ok in H as (f2&t&H2&H). apply lift_ok in H2 as [H2 ->]. apply idx_ok in H2.
      apply bind_ok in H as ([]&s1&Hset&H). destruct (set_quads_ok _ f1 f2 _ _ Hnd eq_refl Hset) as (S1&A1&A2).
      apply bind_ok in H as ([k fr]&s2&Ht&H). assert (quiet s1 s2) as Q by (eapply pres_run; [apply quiet_transmission|exact Ht]).
      apply bind_ok in H as (inv&t&Hi&H). apply lift_ok in Hi as [Hi ->]. apply inverse_factors in Hi.
      apply bind_ok in H as ([]&s3&Hset2&H). destruct (set_quads_ok _ (/ f1) (/ f2) _ _ Hnd Hi Hset2) as (S3&B1&B2).
      assert (steered scanned_quads s s3) as S03.
      { unfold steered in *. transitivity s1; [done|]. transitivity s2; [by apply steered_quiet|done]. }
      set (v := MkVisit (q1, q2) f1 f2 k fr).
      assert (made s v) as Mv. { split; [done|]. split; [done|]. by exists s1, s2. }
      assert (forall s0 : sc R, steered scanned_quads s s0 -> (forall v', v' = v -> at_factor quads1 (/ v_f1 v') s0 /\ at_factor quads2 (/ v_f2 v') s0) ->
          (full_scan = false -> exists y, final v y /\ y < target) ->
          loop inds (((q1, q2), (k, fr)) :: g) s0 = (Ok (r, g'), s') -> exists vs, g' = to_grid vs ++ g /\ Forall (made s) vs /\ steered scanned_quads s s' /\
      match r with
      | Some (f1, f2) => exists vs0 v x, vs = vs0 ++ [v] /\ map v_point vs `prefix_of` (q1, q2) :: inds /\ full_scan = false /\ f1 = v_f1 v /\ f2 = v_f2 v /\ final v x /\ target <= x /\
          Forall (fun u => exists y, final u y /\ y < target) vs0 /\ at_factor quads1 f1 s' /\ at_factor quads2 f2 s'
      | None => map v_point vs = (q1, q2) :: inds /\ (full_scan = false -> Forall (fun u => exists y, final u y /\ y < target) vs) /\
          (vs = [] -> s' = s) /\ forall v, last vs = Some v -> at_factor quads1 (/ v_f1 v) s' /\ at_factor quads2 (/ v_f2 v) s'
      end) as Hrest.
      { intros s0 HS0 Hat Hlow Hl. apply IH in Hl as (vs&->&Hm&HS&Hr). exists (v :: vs). split.
        { unfold to_grid. simpl. by rewrite <- app_assoc. }
        split; [constructor; [done|]; eapply Forall_impl; [exact Hm|]; intros u; by apply made_from|].
        split; [unfold steered in *; by etransitivity|]. destruct r as [[a b]|].
        - destruct Hr as (vs0&v1&x&->&[tl Htl]&Hf&->&->&Hfin&Hx&Hall&C1&C2). exists (v :: vs0), v1, x. split; [done|].
          split; [exists tl; simpl; by rewrite Htl|]. split; [done|]. split; [done|]. split; [done|]. split; [done|]. split; [done|]. split; [constructor; [by apply Hlow|done]|done].
        - destruct Hr as (Hp&Hall&He&Hl). split; [simpl; by rewrite Hp|]. split; [intros Hf; constructor; [by apply Hlow|by apply Hall]|].
          split; [done|]. intros v1 Hv1. destruct vs as [|u vs]; [|by apply Hl]. simpl in Hv1. injection Hv1 as <-. rewrite (He eq_refl). by apply Hat. }
      destruct full_scan eqn:Ef.
      + eapply (Hrest s3); [done| |done|exact H]. by intros ? ->.
      + apply bind_ok in H as (x&t&Hx&H). apply lift_ok in Hx as [Hx ->]. cbn [snd] in Hx. destruct (last fr) as [x'|] eqn:El; [|done]. injection Hx as ->.
        change (nleb target x) with (Rleb target x) in H. destruct (Rleb target x) eqn:Ex.
        * apply Rleb_true in Ex. apply bind_ok in H as ([]&s4&Hset3&H). apply ret_ok in H as [[= <- <-] <-].
          destruct (set_quads_ok _ f1 f2 _ _ Hnd eq_refl Hset3) as (S4&C1&C2). exists [v]. split; [done|]. split; [by constructor|].
          split; [unfold steered in *; by transitivity s3|]. exists [], v, x. split; [done|]. split; [by exists inds|]. split_and!; try done; constructor.
        * apply Rleb_false in Ex. eapply (Hrest s3); [done| |by exists x|exact H]. by intros ? ->.
  Qed.
End TuneScan.

Lemma stored_latest vs p k fr : stored (to_grid vs) p = Some (k, fr) -> exists v, latest vs v /\ v_point v = p /\ v_turns v = k /\ v_frac v = fr.
Proof.
  unfold stored, to_grid. induction vs as [|v vs IH] using rev_ind; [done|]. rewrite map_app, rev_app_distr. cbn [map rev app List.find fst].
  case_bool_decide as E.
  - intros [= <- <-]. exists v. split; [exists vs, []; split; [done|constructor]|done].
  - intros H. destruct (IH H) as (u&(b&a&->&Ha)&<-&<-&<-). exists u. split; [|done]. exists b, (a ++ [v]). split; [by rewrite <- app_assoc|].
    apply Forall_app. split; [done|]. constructor; [done|constructor].
Qed.
Lemma latest_stored vs v : latest vs v -> stored (to_grid vs) (v_point v) = Some (v_turns v, v_frac v).
Proof.
  intros (b&a&->&Ha). unfold stored, to_grid. induction a as [|u a IH] using rev_ind.
  - rewrite map_app, rev_app_distr. cbn [map rev app List.find fst]. by rewrite bool_decide_true.
  - apply Forall_app in Ha as [Ha Hu]. apply Forall_cons in Hu as [Hu _]. rewrite app_comm_cons, app_assoc, map_app, rev_app_distr.
    cbn [map rev app List.find fst]. rewrite bool_decide_false by done. by apply IH.
Qed.
Lemma fold_nmax_spec (l : list R) : forall x, let m := fold_left nmax l x in x <= m /\ (forall y, y ∈ l -> y <= m) /\ (m = x \/ m ∈ l).
Proof.
  induction l as [|y l IH]; intros x; cbn [fold_left]; [split; [lra|]; split; [intros y Hy; by inversion Hy|auto]|].
  destruct (IH (nmax x y)) as (H1&H2&H3). set (m := fold_left nmax l (nmax x y)) in *. clearbody m.
  assert (x <= nmax x y /\ y <= nmax x y /\ (nmax x y = x \/ nmax x y = y)) as (A1&A2&A3).
  { unfold nmax. change (nltb x y) with (Rltb x y). destruct (Rltb x y) eqn:E; [apply Rltb_true in E|apply Rltb_false in E]; (split; [lra|]; split; [lra|auto]). }
  split; [lra|]. split; [intros z [->|Hz]%elem_of_cons; [lra|auto]|]. destruct H3 as [->|H3]; [|right; by right]. destruct A3 as [->| ->]; [auto|right; by left].
Qed.
Lemma nmaxl_spec (l : list R) m : nmaxl l = Ok m -> m ∈ l /\ forall y, y ∈ l -> y <= m.
Proof.
  destruct l as [|x l]; [done|]. cbn [nmaxl]. intros [= <-]. destruct (fold_nmax_spec l x) as (H1&H2&H3). split; [destruct H3 as [->|H3]; [left|by right]|].
  intros y [->|Hy]%elem_of_cons; auto.
Qed.
Lemma nat_max_0 l : nat_max l <> 0%nat -> exists k, k ∈ l /\ (0 < k)%nat.
Proof.
  unfold nat_max. induction l as [|x l IH]; simpl; [done|]. intros H. destruct (decide (x = 0%nat)) as [->|Hx]; [|exists x; split; [left|lia]].
  destruct IH as (k&Hk&Hp); [lia|]. exists k. split; [by right|done].
Qed.

(** * C52 *)

(** For every success of the scan: both families are at the returned factors times nominal; nothing else of the machine is
    touched except the fields that belong to those set-points; every visited point was measured with the quadrupoles at its
    factors.  Either the last visited point is the first to reach the target and is the one returned, or every grid point was
    visited and the returned one is the best among the latest visits: by the fraction surviving the last turn,
    or, when that maximum is zero, by the turns reached. *)
Theorem C52_success w quads1 quads2 rel1 rel2 target nparts nturns full_scan n_points (s : sc R) f1 f2 g s' :
  NoDup (quads1 ++ quads2) ->
  tune_scan w quads1 quads2 rel1 rel2 target nparts nturns full_scan n_points s = (Ok (f1, f2, g), s') ->
  at_factor quads1 f1 s' /\ at_factor quads2 f2 s' /\ steered (scanned_quads quads1 quads2) s s' /\
  exists vs, Forall (made w quads1 quads2 rel1 rel2 nparts nturns s) vs /\
    ((exists before v x, full_scan = false /\ vs = before ++ [v] /\ (length vs <= n_points)%nat /\ v_f1 v = f1 /\ v_f2 v = f2 /\ final v x /\ target <= x /\
        Forall (fun u => exists y, final u y /\ y < target) before)
     \/
     (length vs = n_points /\ (full_scan = false -> Forall (fun u => exists y, final u y /\ y < target) vs) /\
      (exists u, latest vs u /\ (0 < v_turns u)%nat) /\
      exists v, latest vs v /\ v_f1 v = f1 /\ v_f2 v = f2 /\
        ((exists x, final v x /\ x <> 0 /\ forall u y, latest vs u -> final u y -> y <= x)
         \/
         ((forall u y, latest vs u -> final u y -> y <= 0) /\ forall u, latest vs u -> (v_turns u <= v_turns v)%nat)))).
Proof.
  intros Hnd H. unfold tune_scan in H.
  apply bind_ok in H as (s0&t&Hg&H). apply get_ok in Hg as [-> ->].
  apply bind_ok in H as (inds&t&Hi&H). apply lift_ok in Hi as [Hi ->]. destruct (C53_inside _ _ _ _ Hi) as [Hlen _].
  apply bind_ok in H as (e1&t&He1&H). apply lift_ok in He1 as [_ ->]. apply bind_ok in H as (e2&t&He2&H). apply lift_ok in He2 as [_ ->].
  apply bind_ok in H as ([found g0]&s1&Hl&H). apply loop_ok in Hl as (vs&Hg0&Hm&HS&Hr); [|done]. rewrite app_nil_r in Hg0. subst g0.
  destruct found as [[a b]|].
  - apply ret_ok in H as [[= <- <- <-] <-]. destruct Hr as (vs0&v&x&Evs&Hp&Hf&->&->&Hfin&Hx&Hall&A1&A2).
    split; [done|]. split; [done|]. split; [done|]. exists vs. split; [done|]. left. exists vs0, v, x. split_and!; try done.
    apply prefix_length in Hp. rewrite map_length in Hp. lia.
  - destruct Hr as (Hpts&Hbelow&_&_).
    apply bind_ok in H as (vals&t&Hv&H). apply lift_ok in Hv as [Hv ->].
    apply bind_ok in H as (mt&t&Hmt&H). apply lift_ok in Hmt as [Hmt ->].
    destruct (nat_max (map fst vals) =? 0)%nat eqn:E0; [done|]. apply Nat.eqb_neq in E0.
    apply bind_ok in H as (k&t&Hk&H). apply lift_ok in Hk as [Hk ->].
    apply bind_ok in H as (p&t&Hp&H). apply lift_ok in Hp as [Hp ->]. apply idx_ok in Hp.
    apply bind_ok in H as (a&t&Ha&H). apply lift_ok in Ha as [Ha ->]. apply idx_ok in Ha.
    apply bind_ok in H as (b&t&Hb&H). apply lift_ok in Hb as [Hb ->]. apply idx_ok in Hb.
    apply bind_ok in H as ([]&s2&Hset&H). apply ret_ok in H as [[= <- <- <-] <-].
    destruct (set_quads_ok _ _ _ a b _ _ Hnd eq_refl Hset) as (HS2&A1&A2).
    split; [done|]. split; [done|]. split; [unfold steered in *; by transitivity s1|]. exists vs. split; [done|]. right.
    split; [rewrite <- Hlen, <- Hpts; by rewrite map_length|]. split; [done|].
    (* the values looked up *)
    assert (forall j kx, vals !! j = Some kx -> exists v, latest vs v /\ inds !! j = Some (v_point v) /\ v_turns v = kx.1 /\ final v kx.2) as HV.
    { intros j [kt x] Hj. destruct (rmap_lookup _ _ _ _ _ Hv Hj) as (q&Hq&E). destruct (stored _ q) as [[k0 fr0]|] eqn:Es; [|done].
      destruct (last fr0) as [x0|] eqn:El; [|done]. injection E as -> ->. apply stored_latest in Es as (v&Hla&<-&<-&<-). by exists v. }
    assert (forall u, latest vs u -> exists j x, vals !! j = Some (v_turns u, x) /\ final u x) as HW.
    { intros u Hu. pose proof Hu as (bf&af&->&_). apply rmap_ok in Hv.
      assert (inds !! length bf = Some (v_point u)) as Hj. { rewrite <- Hpts. rewrite map_app. rewrite lookup_app_r; rewrite map_length; [|lia]. by rewrite Nat.sub_diag. }
      eapply Forall2_lookup_l in Hv as (kx&Hkx&E); [|exact Hj]. rewrite latest_stored in E by done.
      destruct (last (v_frac u)) as [x|] eqn:El; [|done]. injection E as <-. exists (length bf), x. split; [done|exact El]. }
    split.
    { apply nat_max_0 in E0 as (kt&Hin&Hpos). apply elem_of_list_fmap in Hin as ([k0 x0]&->&Hin). apply elem_of_list_lookup in Hin as [j Hj].
      destruct (HV _ _ Hj) as (v&Hla&_&Ht&_). exists v. split; [done|]. simpl in *. lia. }
    apply nmaxl_spec in Hmt as [Hm1 Hm2].
    assert (exists kx, vals !! k = Some kx) as [kx Hkx].
    { apply lookup_lt_is_Some. apply rmap_ok in Hv. apply Forall2_length in Hv. apply lookup_lt_Some in Hp. lia. }
    destruct (HV _ _ Hkx) as (v&Hla&Hin&Ht&Hf). rewrite Hp in Hin. injection Hin as ->. exists v. split; [done|].
    assert (made w quads1 quads2 rel1 rel2 nparts nturns s v) as (R1&R2&_).
    { rewrite Forall_forall in Hm. apply Hm. destruct Hla as (bf&af&->&_). apply elem_of_app. right. by left. }
    rewrite Ha in R1. rewrite Hb in R2. injection R1 as <-. injection R2 as <-. split; [done|]. split; [done|].
    change (neqb mt n0) with (Reqb mt 0) in Hk. destruct (Reqb mt 0) eqn:Em.
    + apply Reqb_true in Em. subst mt. right. split.
      * intros u y Hu Hy. destruct (HW u Hu) as (j&x&Hj&Hx). unfold final in *. rewrite Hx in Hy. injection Hy as <-. apply Hm2.
        apply elem_of_list_fmap. exists (v_turns u, x). split; [done|]. by eapply elem_of_list_lookup_2.
      * intros u Hu. apply argmax_spec in Hk as (z&Hz&Hmax). destruct (HW u Hu) as (j&x&Hj&Hx).
        rewrite map_map in *. rewrite list_lookup_fmap, Hkx in Hz. injection Hz as <-.
        destruct (Hmax j (nofnat (v_turns u))) as [Hle _]; [by rewrite list_lookup_fmap, Hj|]. unfold nofnat in Hle. num_R. rewrite <- !INR_IZR_INZ in Hle. apply INR_le in Hle. lia.
    + apply Reqb_false in Em. left. apply argmax_spec in Hk as (z&Hz&Hmax). rewrite list_lookup_fmap, Hkx in Hz. injection Hz as <-. exists kx.2. split; [done|].
      assert (forall u y, latest vs u -> final u y -> y <= kx.2) as HB.
      { intros u y Hu Hy. destruct (HW u Hu) as (j&x&Hj&Hx). unfold final in *. rewrite Hx in Hy. injection Hy as <-. eapply (Hmax j). by rewrite list_lookup_fmap, Hj. }
      split; [|done]. intros E. apply Em. apply elem_of_list_lookup in Hm1 as [j Hj]. destruct (Hmax j mt Hj) as [Hle _].
      assert (kx.2 <= mt); [|lra]. apply Hm2. apply elem_of_list_fmap. exists kx. split; [done|]. by eapply elem_of_list_lookup_2.
Qed.
(** Whatever the outcome, only quadrupole set-points and the fields belonging to them may have changed. *)
Lemma steered_set_quads quads1 quads2 sps : pres (steered (scanned_quads quads1 quads2)) (set_quads (T:=R) quads1 quads2 sps).
Proof. apply (steered_set_magnet (fun _ => False)). intros i. by rewrite elem_of_app. Qed.
Lemma steered_tune_loop w quads1 quads2 rel1 rel2 target nparts nturns full_scan inds : forall g, pres (steered (scanned_quads quads1 quads2)) (tune_loop (T:=R) w quads1 quads2 rel1 rel2 target nparts nturns full_scan inds g).
Proof.
  unfold steered. induction inds as [|[q1 q2] inds IH]; intros g; cbn [tune_loop]; [pres_step|].
  repeat first [pres_step|apply steered_set_quads|apply IH|eapply pres_weaken; [|apply quiet_transmission]; intros ? ?; apply steered_quiet].
Qed.
Theorem C52_only_quadrupoles w quads1 quads2 rel1 rel2 target nparts nturns full_scan n_points (s : sc R) :
  steered (scanned_quads quads1 quads2) s (snd (tune_scan w quads1 quads2 rel1 rel2 target nparts nturns full_scan n_points s)).
Proof.
  revert s. change (pres (steered (scanned_quads quads1 quads2)) (tune_scan w quads1 quads2 rel1 rel2 target nparts nturns full_scan n_points)).
  unfold tune_scan, steered. repeat first [pres_step|apply steered_tune_loop|apply steered_set_quads].
Qed.
(** The finding: after a complete scan without any transmission the call fails, and the quadrupoles are left at the
    inverse of the last factors, not at nominal. *)
Theorem C52_finding_no_transmission w quads1 quads2 rel1 rel2 target nparts nturns full_scan n_points (s : sc R) inds g s' :
  NoDup (quads1 ++ quads2) -> (forall e1 e2 : nat, quads1 !! 0%nat = Some e1 -> quads2 !! 0%nat = Some e2 -> is_Some (RING s !! e1) /\ is_Some (RING s !! e2)) -> quads1 <> [] -> quads2 <> [] ->
  golden_donut_inds (T:=R) (length rel1 / 2) (length rel2 / 2) n_points = Ok inds ->
  tune_loop w quads1 quads2 rel1 rel2 target nparts nturns full_scan inds [] s = (Ok (None, g), s') ->
  inds <> [] -> (forall p k fr, stored g p = Some (k, fr) -> k = 0%nat /\ fr <> []) ->
  tune_scan w quads1 quads2 rel1 rel2 target nparts nturns full_scan n_points s = (Err RuntimeError, s') /\
  exists a b f1 f2, last inds = Some (a, b) /\ rel1 !! a = Some f1 /\ rel2 !! b = Some f2 /\ at_factor quads1 (/ f1) s' /\ at_factor quads2 (/ f2) s'.
Proof.
  intros Hnd Hq N1 N2 Hi Hl Hne Hz. pose proof Hl as Hl'. apply loop_ok in Hl' as (vs&Hg&Hm&HS&Hpts&_&_&Hlast); [|done]. rewrite app_nil_r in Hg. split.
  - unfold tune_scan. unfold bind at 1, get at 1. unfold bind at 1, lift at 1. rewrite Hi.
    destruct quads1 as [|e1 q1]; [done|]. destruct quads2 as [|e2 q2]; [done|]. destruct (Hq e1 e2 eq_refl eq_refl) as [[x1 Hx1] [x2 Hx2]].
    unfold bind at 1, lift at 1. unfold idx at 1. cbn [lookup list_lookup]. cbn [rbind]. unfold idx at 1. rewrite Hx1. cbn [rbind].
    unfold bind at 1, lift at 1. unfold idx at 1. cbn [lookup list_lookup]. cbn [rbind]. unfold idx at 1. rewrite Hx2. cbn [rbind].
    unfold bind at 1. rewrite Hl.
    destruct (rmap _ inds) as [vals|] eqn:Hv.
    2:{ exfalso. assert (exists vals, rmap (fun p => match stored g p with
                                  | Some (k, fr) => match last fr with Some x => Ok (k, x) | None => Err IndexError end
                                  | None => Err NonFinite end) inds = Ok vals) as [vals E]; [|by rewrite E in Hv].
        assert (forall p, p ∈ inds -> exists x, stored g p = Some x) as Hst.
        { intros p Hp. rewrite <- Hpts in Hp. apply elem_of_list_fmap in Hp as (v&->&Hv'). subst g. clear - Hv'. unfold stored.
          destruct (List.find _ (to_grid vs)) as [q|] eqn:E; [eauto|]. exfalso. eapply List.find_none with (x := (v_point v, (v_turns v, v_frac v))) in E; [|].
          - simpl in E. by rewrite bool_decide_true in E.
          - unfold to_grid. rewrite <- in_rev. apply elem_of_list_In. apply elem_of_list_fmap. by exists v. }
        clear - Hst Hz. induction inds as [|p inds IH]; [by exists []|]. destruct (Hst p) as [[k fr] Hs]; [by left|]. cbn [rmap]. rewrite Hs.
        destruct (Hz _ _ _ Hs) as [_ Hfr]. destruct (last fr) as [x|] eqn:El; [|by apply last_None in El]. cbn [rbind].
        destruct IH as [vals Hv]; [intros q Hq; apply Hst; by right|]. rewrite Hv. by eexists. }
    unfold bind at 1, lift at 1. destruct (nmaxl (map snd vals)) as [mt|] eqn:Em.
    2:{ exfalso. destruct vals; [|done]. apply rmap_ok in Hv. by inversion Hv. }
    unfold bind at 1, lift at 1. destruct (nat_max (map fst vals) =? 0)%nat eqn:E0; [done|]. exfalso. apply Nat.eqb_neq in E0.
    apply nat_max_0 in E0 as (k&Hk&Hpos). apply elem_of_list_fmap in Hk as ([k0 x]&->&Hk). apply elem_of_list_lookup in Hk as [j Hj].
    destruct (rmap_lookup _ _ _ _ _ Hv Hj) as (p&_&E). destruct (stored g p) as [[k1 fr]|] eqn:Es; [|done]. destruct (Hz _ _ _ Es) as [-> _].
    destruct (last fr); [|done]. injection E as <- <-. simpl in Hpos. lia.
  - destruct (last vs) as [v|] eqn:El; [|apply last_None in El; subst vs; by subst inds].
    destruct (Hlast v eq_refl) as [B1 B2]. apply last_Some in El as [vs0 ->].
    apply Forall_app in Hm as [_ Hm]. apply Forall_cons in Hm as [(R1&R2&_) _]. exists (v_point v).1, (v_point v).2, (v_f1 v), (v_f2 v).
    split; [rewrite <- Hpts, map_app; cbn [map]; rewrite last_snoc; by destruct (v_point v)|]. done.
Qed.

Lemma rmap_all {A B} (f : A -> res B) l : (forall x, x ∈ l -> exists y, f x = Ok y) -> exists l', rmap f l = Ok l'.
Proof.
  induction l as [|x l IH]; intros H; [by exists []|]. cbn [rmap]. destruct (H x) as [y ->]; [left|]. cbn [rbind].
  destruct IH as [l' ->]; [intros z Hz; apply H; by right|]. by eexists.
Qed.

(** * C65: tune fit *)

(** Every call of the tune fit fails, with the machine untouched; when the tunes and set-points can be read,
    the failure is the missing starting point of the minimiser. *)
Theorem C65_never_succeeds optics q_ords target (s : sc R) : exists e, fit_tune optics q_ords target s = (Err e, s).
Proof.
  unfold fit_tune. unfold bind at 1, get at 1. unfold bind at 1, lift at 1.
  match goal with |- context [match ?m with Ok _ => _ | Err _ => _ end] => destruct m end; [|eauto].
  unfold bind at 1, lift at 1. destruct (optics (RING s)); [|eauto]. unfold bind at 1, lift at 1. destruct (rbind (idx q_ords 0) _) as [width|]; [|eauto].
  unfold bind at 1, lift at 1. destruct (rmap _ q_ords); eauto.
Qed.
Theorem C65_type_error (optics : list (elem R) -> res (list (option R))) q_ords target (s : sc R) n :
  (forall ring, exists t, optics ring = Ok t) -> q_ords <> [] ->
  (forall fam, fam ∈ q_ords -> length fam = n /\ forall i, i ∈ fam -> is_Some (entry s i "SetPointB" 1)) ->
  fit_tune optics q_ords target s = (Err TypeError, s).
Proof.
  intros Ho Hne Hf. unfold fit_tune. unfold bind at 1, get at 1. unfold bind at 1, lift at 1.
  destruct (Ho (IDEALRING s)) as [t1 Ht1]. destruct (Ho (RING s)) as [t2 Ht2].
  assert ((match target with None => let? t := optics (IDEALRING s) in Ok tt | Some _ => Ok tt end) = Ok tt) as -> by (destruct target; [done|by rewrite Ht1]).
  unfold bind at 1, lift at 1. rewrite Ht2. destruct q_ords as [|q0 q_ords]; [done|]. unfold bind at 1, lift at 1. cbn [idx lookup list_lookup rbind].
  destruct (Hf q0) as [Hl0 _]; [left|].
  match goal with |- context [rmap ?F (q0 :: q_ords)] => assert (exists l, rmap F (q0 :: q_ords) = Ok l) as [l ->] end; [|done].
  apply rmap_all. intros fam Hfam. destruct (Hf fam Hfam) as [HL Hi]. apply rmap_all. intros [j i] Hp.
  apply elem_of_list_lookup in Hp as [m Hm]. destruct (zip_seq_lookup _ _ _ _ eq_refl Hm) as [Hj Hfi]. simpl in *. subst j.
  destruct (Hi i) as [x Hx]; [by eapply elem_of_list_lookup_2|]. unfold entry, attr_at in Hx. destruct (RING s !! i) as [e|] eqn:He; [|done].
  unfold idx at 1. rewrite He. cbn [rbind]. simpl in Hx. unfold attr_vec, attr. destruct (e !! "SetPointB") as [[]|]; try done. cbn [rbind as_vec]. rewrite (proj2 (idx_ok _ _ _) Hx). cbn [rbind fst].
  assert (m <? length q0 = true)%nat as ->; [|eauto]. apply Nat.ltb_lt. apply lookup_lt_Some in Hfi. lia.
Qed.

(** * C66: chromaticity fit *)

(** the set-points of the families are the truncated initial ones plus the trial's entry for the family *)
Definition at_trial (s_ords : list (list nat)) (x : list R) (s s' : sc R) : Prop :=
  forall k fam i, s_ords !! k = Some fam -> i ∈ fam ->
    exists xk b, x !! k = Some xk /\ entry s i "SetPointB" 2 = Some b /\ entry s' i "SetPointB" 2 = Some (xk + towards_zero b).

Lemma steered_set_sexts X `{!NoMaster X} (P : nat -> Prop) ords dt sps method : (forall i, i ∈ ords -> P i) -> pres (steered_also X P) (@set_magnet_setpoints R _ ords dt sps false 2 method true).
Proof. change (@set_magnet_setpoints R _ ords dt sps false 2 method true) with (@set_magnet_setpoints R _ ords dt sps false 2 method false). by apply steered_set_magnet. Qed.
Lemma steered_setpoint P (s s' : sc R) i a k : steered P s s' -> ~ P i -> a ∉ field_attributes -> entry s' i a k = entry s i a k.
Proof. intros (_&_&_&_&_&H) H1 H3. unfold entry. rewrite H; [done| | |tauto]; [intros [_ ?]; done|intros [? _]; done]. Qed.

Section Chroma.
  Context (chrom : list (elem R) -> list (option R)) (strategy : list (list R * option R) -> option (list R)).
  Lemma sext_step (x : list R) (l : list (nat * (list nat * list R))) : forall s s' : sc R,
    NoDup (concat (map (fun p => p.2.1) l)) -> (forall p, p ∈ l -> length p.2.2 = length p.2.1) ->
    forM l (fun p => let! xn := lift (idx x p.1) in set_magnet_setpoints p.2.1 DFloat (map (nadd xn) p.2.2) false 2 ABS true) s = (Ok tt, s') ->
    steered (fun i => i ∈ concat (map (fun p => p.2.1) l)) s s' /\
    forall p i b, p ∈ l -> (i, b) ∈ zip p.2.1 p.2.2 -> exists xk, x !! p.1 = Some xk /\ entry s' i "SetPointB" 2 = Some (xk + b).
  Proof.
    induction l as [|p l IH]; intros s s' Hnd HL H; cbn [forM] in H.
    - apply ret_ok in H as [_ <-]. split; [unfold steered; reflexivity|]. intros p i b Hp. by inversion Hp.
    - cbn [map concat] in Hnd. apply NoDup_app in Hnd as (N1&N2&N3).
      apply bind_ok in H as ([]&s1&H1&H). apply bind_ok in H1 as (xn&t&Hx&H1). apply lift_ok in Hx as [Hx ->]. apply idx_ok in Hx.
      destruct (IH s1 s') as [HS Hr]; [done|intros q Hq; apply HL; by right|done|].
      assert (steered (fun i => i ∈ p.2.1) s s1) as HS1.
      { change s1 with (snd (Ok tt : res unit, s1)). rewrite <- H1. by apply (steered_set_sexts (fun _ => False)). }
      assert (length (map (nadd xn) p.2.2) = length p.2.1) as HLp by (rewrite map_length; apply HL; left).
      destruct (C12_meaning _ _ _ _ _ _ _ N1 HLp H1) as [HM _].
      split.
      + unfold steered. transitivity s1; [eapply steered_mono; [|exact HS1]|eapply steered_mono; [|exact HS]];
          intros i Hi; cbn [map concat]; apply elem_of_app; [by left|by right].
      + intros q i b Hq Hib. apply elem_of_cons in Hq as [->|Hq]; [|by apply Hr].
        exists xn. split; [done|]. destruct (HM i (xn + b)) as (y&Hy&He).
        { apply elem_of_list_lookup in Hib as [j Hj]. apply elem_of_list_lookup. exists j. apply lookup_zip_with_Some in Hj as (i'&b'&[= -> ->]&A&B).
          apply lookup_zip_with_Some. exists i', (xn + b'). split; [done|]. split; [done|]. by rewrite list_lookup_fmap, B. }
        unfold magnet_request in Hy. rewrite decide_True in Hy by done. injection Hy as <-. change (limited _ _ _ _ _) with (xn + b) in He.
        rewrite <- He. eapply steered_setpoint; [exact HS| |by apply (bool_decide_unpack _)].
        intros Hin. eapply N2; [|exact Hin]. apply elem_of_list_lookup in Hib as [j Hj]. apply lookup_zip_with_Some in Hj as (i'&b'&[= -> ->]&A&B). by eapply elem_of_list_lookup_2.
  Qed.

  Context (s_ords : list (list nat)) (target : list R) (s : sc R).
  Notation sexts := (fun i => i ∈ concat s_ords).
  Definition read_init : res (list (list R)) := rmap (fun fam => rmap (fun i => let? e := idx (RING s) i in let? v := attr_vec e "SetPointB" in let? x := idx v 2 in Ok (ntrunc x)) fam) s_ords.
  (** one evaluation *)
  Definition measured_at (s1 : sc R) (y : option R) : Prop := rms_diff (take 2 (chrom (RING s1))) target = Ok y.
  Lemma fun_ok init x y (s1 s2 : sc R) : NoDup (concat s_ords) -> read_init = Ok init -> fit_chroma_fun chrom s_ords init target x s1 = (Ok y, s2) ->
    steered sexts s1 s2 /\ at_trial s_ords x s s2 /\ measured_at s2 y.
  Proof.
    intros Hnd Hi H. unfold read_init in Hi. pose proof Hi as Hi2. apply rmap_ok in Hi2. pose proof (Forall2_length _ _ _ Hi2) as HL.
    unfold fit_chroma_fun in H. apply bind_ok in H as ([]&s3&Hf&H). apply bind_ok in H as (s0&t&Hg&H). apply get_ok in Hg as [-> ->]. apply lift_ok in H as [Hy ->].
    set (l := zip (seq 0 (length s_ords)) (zip s_ords init)) in *.
    assert (map (fun p : nat * (list nat * list R) => p.2.1) l = s_ords) as Hmap.
    { unfold l. rewrite <- (map_map snd fst). change (map snd (zip ?a ?b)) with (snd <$> zip a b). change (map fst (?f <$> ?a)) with (fst <$> (f <$> a)).
      rewrite snd_zip; [|rewrite seq_length, zip_with_length; lia]. rewrite fst_zip; [done|]. lia. }
    assert (forall k p, l !! k = Some p -> p.1 = k /\ s_ords !! k = Some p.2.1 /\ init !! k = Some p.2.2) as Hl.
    { intros k p Hp. unfold l in Hp. apply lookup_zip_with_Some in Hp as (a&[b c]&->&A&B). apply lookup_seq in A as [-> _].
      apply lookup_zip_with_Some in B as (b'&c'&[= -> ->]&B&C). done. }
    assert (forall k fam, s_ords !! k = Some fam -> exists ini, init !! k = Some ini /\ l !! k = Some (k, (fam, ini)) /\ length ini = length fam /\
      forall j i b, fam !! j = Some i -> ini !! j = Some b -> exists b0, entry s i "SetPointB" 2 = Some b0 /\ b = towards_zero b0) as Hk.
    { intros k fam Hfam. eapply Forall2_lookup_l in Hi2 as (ini&Hini&E); [|exact Hfam]. exists ini. split; [done|]. split.
      { unfold l. apply lookup_zip_with_Some. exists k, (fam, ini). split; [done|]. split; [apply lookup_seq; split; [done|]; by eapply lookup_lt_Some|].
        apply lookup_zip_with_Some. by exists fam, ini. }
      apply rmap_ok in E. split; [symmetry; by eapply Forall2_length|]. intros j i b Hj Hb.
      eapply Forall2_lookup_lr in E; [|exact Hj|exact Hb]. apply rbind_ok in E as (e&He&E). apply idx_ok in He. apply rbind_ok in E as (v&Hv&E).
      apply rbind_ok in E as (x0&Hx0&E). apply idx_ok in Hx0. injection E as <-. exists x0. split; [|apply ntrunc_towards].
      unfold entry, attr_at. rewrite He. simpl. unfold attr_vec, attr in Hv. destruct (e !! "SetPointB") as [[]|]; try done. simpl in Hv. by injection Hv as ->. }
    destruct (sext_step x l s1 s3) as [HS Hr]; [by rewrite Hmap| |done|].
    { intros p Hp. apply elem_of_list_lookup in Hp as [k Hp]. destruct (Hl _ _ Hp) as (_&A&B). destruct (Hk _ _ A) as (ini&C&_&D&_). rewrite B in C. by injection C as ->. }
    rewrite Hmap in HS. split; [done|]. split; [|done]. intros k fam i Hfam Hin. destruct (Hk _ _ Hfam) as (ini&A&B&C&D).
    apply elem_of_list_lookup in Hin as [j Hj]. destruct (lookup_lt_is_Some_2 ini j) as [b Hb]; [rewrite C; by eapply lookup_lt_Some|].
    destruct (D _ _ _ Hj Hb) as (b0&Hb0&->). destruct (Hr (k, (fam, ini)) i (towards_zero b0)) as (xk&Hx&He).
    { by eapply elem_of_list_lookup_2. }
    { apply elem_of_list_lookup. exists j. apply lookup_zip_with_Some. by exists i, (towards_zero b0). }
    by exists xk, b0.
  Qed.
  Lemma fmin_ok init : NoDup (concat s_ords) -> read_init = Ok init -> forall fuel evals (s1 s2 : sc R) trials,
    fmin strategy fuel (fit_chroma_fun chrom s_ords init target) evals s1 = (Ok trials, s2) ->
    steered sexts s1 s2 /\ exists new, trials = evals ++ new /\
      (new = [] -> s2 = s1) /\ forall x y, last new = Some (x, y) -> at_trial s_ords x s s2 /\ measured_at s2 y.
  Proof.
    intros Hnd Hi. induction fuel as [|fuel IH]; intros evals s1 s2 trials H; cbn [fmin] in H; destruct (strategy evals) as [x|].
    - done.
    - apply ret_ok in H as [<- <-]. split; [unfold steered; reflexivity|]. exists []. by rewrite app_nil_r.
    - apply bind_ok in H as (y&s3&Hf&H). destruct (fun_ok _ _ _ _ _ Hnd Hi Hf) as (S1&A1&M1). destruct (IH _ _ _ _ H) as (S2&new&->&He&Hl).
      split; [unfold steered in *; by transitivity s3|]. exists ((x, y) :: new). split; [by rewrite <- app_assoc|]. split; [done|].
      intros x' y' Hx. destruct new as [|z new]; [|by apply Hl]. injection Hx as <- <-. by rewrite (He eq_refl).
    - apply ret_ok in H as [<- <-]. split; [unfold steered; reflexivity|]. exists []. by rewrite app_nil_r.
  Qed.
End Chroma.

(** Whatever the minimiser does: on success only the given sextupoles' set-points and the fields belonging to them have changed;
    a target with a gap leaves the machine alone; otherwise the set-points are left at the trial evaluated last
    (whether or not it is the best one), added to the initial set-points without their fractional parts. *)
Theorem C66_last_trial chrom strategy fuel s_ords target (s s' : sc R) trials :
  NoDup (concat s_ords) -> fit_chroma chrom strategy fuel s_ords target s = (Ok trials, s') ->
  steered (fun i => i ∈ concat s_ords) s s' /\
  (None ∈ default (take 2 (chrom (IDEALRING s))) target -> trials = [] /\ s' = s) /\
  (trials = [] -> s' = s) /\
  forall x y, last trials = Some (x, y) -> at_trial s_ords x s s' /\
    exists goal, map Some goal = default (take 2 (chrom (IDEALRING s))) target /\ measured_at chrom goal s' y.
Proof.
  intros Hnd H. unfold fit_chroma in H. apply bind_ok in H as (s0&t&Hg&H). apply get_ok in Hg as [-> ->].
  set (tg := default (take 2 (chrom (IDEALRING s))) target) in *.
  destruct (no_gaps tg) as [goal|] eqn:Eg.
  - apply no_gaps_spec in Eg. apply bind_ok in H as (init&t&Hi&H). apply lift_ok in Hi as [Hi ->].
    destruct (fmin_ok _ _ _ goal s init Hnd Hi _ _ _ _ _ H) as (HS&new&->&He&Hl). simpl in *. split; [done|]. split.
    { rewrite Eg. intros Hn. exfalso. apply elem_of_list_fmap in Hn as (?&?&_). done. }
    split; [done|]. intros x y Hx. destruct (Hl x y Hx) as [A B]. split; [done|]. exists goal. split; [done|exact B].
  - apply ret_ok in H as [<- <-]. split; [unfold steered; reflexivity|]. done.
Qed.
Theorem C66_gap chrom strategy fuel s_ords target (s : sc R) : None ∈ default (take 2 (chrom (IDEALRING s))) target ->
  fit_chroma chrom strategy fuel s_ords target s = (Ok [], s).
Proof.
  intros H. unfold fit_chroma. unfold bind at 1, get at 1. set (tg := default (take 2 (chrom (IDEALRING s))) target) in *.
  destruct (no_gaps tg) as [goal|] eqn:Eg; [|done]. apply no_gaps_spec in Eg. rewrite Eg in H. apply elem_of_list_fmap in H as (?&?&_). done.
Qed.

(** Whatever the outcome, only the given sextupoles' set-points and the fields belonging to them may have changed. *)
Theorem C66_only_sextupoles chrom strategy fuel s_ords target (s : sc R) :
  steered (fun i => i ∈ concat s_ords) s (snd (fit_chroma chrom strategy fuel s_ords target s)).
Proof.
  revert s. change (pres (steered (fun i => i ∈ concat s_ords)) (fit_chroma chrom strategy fuel s_ords target)).
  assert (forall init goal x, pres (steered (fun i => i ∈ concat s_ords)) (fit_chroma_fun chrom s_ords init goal x)) as HF.
  { intros init goal x. unfold fit_chroma_fun, steered. repeat pres_step. apply steered_set_sexts; [exact _|]. intros i Hi.
    match goal with H : ?p ∈ zip _ _ |- _ => destruct p as [k [fam ini]]; apply elem_of_list_lookup in H as [j H]; apply lookup_zip_with_Some in H as (?&?&[= <- <-]&_&H);
      apply lookup_zip_with_Some in H as (?&?&[= <- <-]&H&_); apply elem_of_list_lookup_2 in H end. cbn [fst snd] in Hi.
    eapply elem_of_list_In, in_concat. exists fam. split; by apply elem_of_list_In. }
  assert (forall init goal fuel evals, pres (steered (fun i => i ∈ concat s_ords)) (fmin strategy fuel (fit_chroma_fun chrom s_ords init goal) evals)) as HM.
  { intros init goal fuel0. unfold steered in *. induction fuel0 as [|n IH]; intros evals; cbn [fmin]; destruct (strategy evals); repeat first [pres_step|apply HF|apply IH]. }
  unfold fit_chroma, steered in *. repeat first [pres_step|apply HM].
Qed.

Print Assumptions C52_success.
Print Assumptions C52_only_quadrupoles.
Print Assumptions C52_finding_no_transmission.
Print Assumptions C53_inside.
Print Assumptions C53_odd_size_in_range.
Print Assumptions C53_on_the_spiral.
Print Assumptions C53_starts_at_centre.
Print Assumptions C53_finding_even_size.
Print Assumptions C65_never_succeeds.
Print Assumptions C65_type_error.
Print Assumptions C66_last_trial.
Print Assumptions C66_gap.
Print Assumptions C66_only_sextupoles.

(** * Cases
    Over the rationals, with power series for sine and cosine: two quadrupoles of nominal strength 3.  A particle survives as
    many turns as the number of quadrupoles whose strength is above 2, and one more turn when the second is above 3. *)
Local Open Scope Q_scope.
Fixpoint series (n : nat) (term x2 k acc : Q) : Q :=
  match n with O => acc | S n' => let t := Qred (- term * x2 / (k * (k + 1))) in series n' t x2 (k + 2) (Qred (acc + t)) end.
Definition q_round (x : Q) : Q := Qred (Z.div (Qnum x * 10000) (Zpos (Qden x)) # 10000).
Fixpoint newton (n : nat) (x y : Q) : Q := match n with O => y | S n' => newton n' x (q_round ((y + x / y) / 2)) end.
#[local] Instance TrigQ3 : Trig Q :=
  { ncos := fun x => let x := q_round x in series 14 1 (x * x) 1 1; nsin := fun x => let x := q_round x in series 14 x (x * x) 2 x;
    nsqrt := fun x => if Qeq_bool x 0 then 0 else newton 6 x (if Qle_bool x 1 then 1 else x); npi := 31416 # 10000 }.
Definition strength (ring : list (elem Q)) (i : nat) : Q :=
  match (e ← ring !! i; e !! "PolynomB") with Some (VVec l) => default 0 (l !! 1%nat) | _ => 0 end.
Definition tune_world : world Q :=
  MkWorld (fun ring _ _ _ c p r t =>
      let good i := if Qle_bool (strength ring i) 2 then 0%nat else 1%nat in
      let turns := (good 1 + good 2 + if Qle_bool (strength ring 2) 3 then 0 else 1)%nat in
      if (t <? turns)%nat then Some 0 else None)
    (fun _ _ _ _ => None) (fun _ => ([], [])) (fun Z => Z).
Definition tune_machine : sc Q :=
  let s := MkSC [Examples.drift 1; Examples.quad; Examples.quad] [] (MkInj 1 (zeros 6) (zeros 6) (replicate 6 (zeros 6)) (zeros 6) 1 3 1 "TBT")
             (SIG Examples.ex_sc) (MkOrd [] [] [] [] [] [] [] [] []) (replicate 60 0) in
  snd (register_magnets [1%nat; 2%nat] [] (MkType None None false None None) s).
Definition lost_early (s : sc Q) : sc Q := set_INJ (MkInj (1#2) (zeros 6) (zeros 6) (replicate 6 (zeros 6)) (zeros 6) 1 3 1 "TBT") s.
Definition factors : list Q := [1#2; 1; 3#2].
Definition early : sc Q := lost_early tune_machine.
(** the third point reaches three turns: factor 3/2 for the second quadrupole *)
Example C52_case_reached :
  let run := tune_scan tune_world [1%nat] [2%nat] factors factors 1 1 3 false 5 early in
  match fst run with Ok (f1, f2, g) => f1 = 1 /\ f2 = 3#2 /\ length g = 3%nat | _ => False end /\
  entry (snd run) 1 "SetPointB" 1 = Some 3 /\ entry (snd run) 2 "SetPointB" 1 = Some (9#2).
Proof. vm_compute. repeat split. Qed.
(** nothing survives the fourth turn: the first of the points with most turns *)
Example C52_case_turns :
  let run := tune_scan tune_world [1%nat] [2%nat] factors factors 1 1 4 false 5 early in
  match fst run with Ok (f1, f2, g) => f1 = 1 /\ f2 = 3#2 /\ length g = 5%nat | _ => False end /\
  entry (snd run) 1 "SetPointB" 1 = Some 3 /\ entry (snd run) 2 "SetPointB" 1 = Some (9#2).
Proof. vm_compute. repeat split. Qed.
(** no beam at all: the call fails and both quadrupoles are left at 2/3 of nominal *)
Example C52_case_no_beam :
  let run := tune_scan (MkWorld (fun _ _ _ _ _ _ _ _ => None) (fun _ _ _ _ => None) (fun _ => ([], [])) (fun Z => Z)) [1%nat] [2%nat] factors factors 1 1 3 false 5 early in
  fst run = Err RuntimeError /\ entry (snd run) 1 "SetPointB" 1 = Some 2 /\ entry (snd run) 2 "SetPointB" 1 = Some 2.
Proof. vm_compute. repeat split. Qed.
(** an even number of factors: the scan runs out of the list *)
Example C53_case_even :
  fst (tune_scan tune_world [1%nat] [2%nat] [1#2; 1] [1#2; 1] 2 1 3 false 3 early) = Err IndexError.
Proof. vm_compute. reflexivity. Qed.
Example C53_case_odd : golden_donut_inds (T:=Q) 1 1 5 = Ok [(1, 1); (1, 1); (1, 2); (2, 0); (2, 2)]%nat.
Proof. vm_compute. reflexivity. Qed.
Example C65_case : fit_tune (fun _ => Ok [Some (1#4); Some (1#3)]) [[1%nat]; [2%nat]] None early = (Err TypeError, early).
Proof. vm_compute. reflexivity. Qed.
(** two sextupoles of strength 7/2; the trials are 1 and then 1/2, of which the first is exact.
    The set-points are left at 3 + 1/2. *)
Definition sextupole : elem Q :=
  Examples.mk [("Length", VNum 2); ("PassMethod", VStr "StrMPoleSymplectic4Pass"); ("PolynomA", VVec [0; 0; 0]); ("PolynomB", VVec [0; 0; 7#2]); ("MaxOrder", VInt 2)].
Definition sext_machine : sc Q :=
  snd (register_magnets [1%nat; 2%nat] [] (MkType None None false None None) (set_RING [Examples.drift 1; sextupole; sextupole] early)).
Definition sext_chrom (ring : list (elem Q)) : list (option Q) :=
  map (fun i => match (e ← ring !! i; e !! "PolynomB") with Some (VVec l) => l !! 2%nat | _ => None end) [1%nat; 2%nat].
Definition two_trials (evals : list (list Q * option Q)) : option (list Q) :=
  match length evals with O => Some [1; 1] | 1%nat => Some [1#2; 1#2] | _ => None end.
Example C66_case :
  let run := fit_chroma sext_chrom two_trials 9 [[1%nat]; [2%nat]] (Some [Some 4; Some 4]) sext_machine in
  fst run = Ok [([1; 1], Some 0); ([1#2; 1#2], Some (1#2))] /\
  entry (snd run) 1 "SetPointB" 2 = Some (7#2) /\ entry (snd run) 2 "SetPointB" 2 = Some (7#2).
Proof. vm_compute. repeat split. Qed.
(** The finding: with a trial of zero the set-points move from 7/2 to 3. *)
Example C66_finding_truncated :
  let run := fit_chroma sext_chrom (fun e => match e with [] => Some [0; 0] | _ => None end) 9 [[1%nat]; [2%nat]] (Some [Some 4; Some 4]) sext_machine in
  entry sext_machine 1 "SetPointB" 2 = Some (7#2) /\ entry (snd run) 1 "SetPointB" 2 = Some 3.
Proof. vm_compute. repeat split. Qed.
