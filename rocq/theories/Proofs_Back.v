(** Changing a set-point and changing it back; computations that do not look at injection and random numbers. *)
From Coq Require Import Reals Lra Lia.
From stdpp Require Import base gmap strings list.
From Verif Require Import Num Base Model_Arr Model_SC Model_Err Lemmas Proofs_Update Proofs_Setpoint Spec Proofs_CM Proofs_CM2
  Proofs_Loop Proofs_Loop2 Properties_Setpoint Properties_Setpoint2 Properties_Setpoint3 Properties_Setpoint4.
Local Open Scope string_scope.
Local Open Scope list_scope.

(** * Computations that ignore injection and random numbers *)
Section Blind.
  Context {T : Type} {N : Num T}.
  Definition relabel (i : inj T) (r : list T) (s : sc T) : sc T := set_INJ i (set_RNG r s).
  Definition blind {A} (m : M (sc T) A) : Prop := forall i r s, m (relabel i r s) = (fst (m s), relabel i r (snd (m s))).
  Lemma blind_ret {A} (a : A) : blind (ret a). Proof. done. Qed.
  Lemma blind_raise {A} x : blind (@raise _ A x). Proof. done. Qed.
  Lemma blind_lift {A} (x : res A) : blind (lift x). Proof. done. Qed.
  Lemma blind_bind {A B} (m : M (sc T) A) (k : A -> M (sc T) B) : blind m -> (forall a, blind (k a)) -> blind (bind m k).
  Proof.
    intros Hm Hk i r s. unfold bind. rewrite Hm. destruct (m s) as [[a|x] s']; cbn; [|done]. apply Hk.
  Qed.
  Lemma blind_get {A} (k : sc T -> M (sc T) A) : (forall i r s, k (relabel i r s) = k s) -> (forall s, blind (k s)) -> blind (bind get k).
  Proof. intros H1 H2 i r s. unfold bind, get. rewrite H1. apply H2. Qed.
  Lemma blind_forM {A} (l : list A) (f : A -> M (sc T) unit) : (forall x, blind (f x)) -> blind (forM l f).
  Proof. intros H. induction l as [|x l IH]; [apply blind_ret|]. simpl. apply blind_bind; [apply H|intros _; exact IH]. Qed.
  Lemma blind_when b (m : M (sc T) unit) : blind m -> blind (when b m).
  Proof. intros H. destruct b; [done|apply blind_ret]. Qed.
  Lemma blind_ring_elem j : blind (ring_elem j). Proof. done. Qed.
  Lemma blind_on_elem {A} j (m : M (elem T) A) : blind (on_elem j m).
  Proof. intros i r s. unfold on_elem. cbn. destruct (RING s !! j) as [e|]; [|done]. destruct (m e). done. Qed.

  Lemma blind_update_magnets ords : blind (update_magnets ords).
  Proof.
    apply blind_forM. intros i. apply blind_bind; [apply blind_bind; [apply blind_ring_elem|intros; apply blind_on_elem]|]. intros _.
    apply blind_bind; [apply blind_ring_elem|]. intros e. destruct (e !! "MasterOf"); [|apply blind_ret].
    apply blind_bind; [apply blind_lift|]. intros cs. apply blind_forM. intros c. apply blind_bind; [apply blind_ring_elem|intros; apply blind_on_elem].
  Qed.
  Lemma blind_set_cm ords dt sps skew method : blind (set_cm_setpoints ords dt sps skew method).
  Proof.
    apply blind_bind; [apply blind_lift|]. intros l. apply blind_bind; [|intros _; apply blind_update_magnets].
    apply blind_forM. intros p. apply blind_on_elem.
  Qed.
  Lemma blind_set_magnet ords dt sps skew order method dc : blind (set_magnet_setpoints ords dt sps skew order method dc).
  Proof.
    apply blind_get; [done|]. intros s0. apply blind_bind; [apply blind_lift|]. intros l. apply blind_bind; [|intros _; apply blind_update_magnets].
    apply blind_forM. intros p. apply blind_bind; [apply blind_ring_elem|]. intros e. apply blind_bind; [apply blind_lift|]. intros x1.
    apply blind_bind; [|intros _; apply blind_on_elem]. apply blind_when.
    apply blind_bind; [apply blind_ring_elem|]. intros e'. apply blind_bind; [apply blind_lift|]. intros th. apply blind_get; [done|]. intros s1.
    destruct (_ && _); [|apply blind_ret]. do 5 (apply blind_bind; [apply blind_lift|intros ?]). apply blind_set_cm.
  Qed.
  Lemma blind_set_cavity ords dt sps param method : blind (set_cavity_setpoints ords dt sps param method).
  Proof.
    apply blind_get; [done|]. intros s0. apply blind_bind; [apply blind_lift|]. intros l. apply blind_bind; [apply blind_forM; intros; apply blind_on_elem|].
    intros _. apply blind_forM. intros; apply blind_on_elem.
  Qed.
  (** a successful run of such a computation from a relabelled state *)
  Lemma blind_run {A} (m : M (sc T) A) i r s a s' : blind m -> m (relabel i r s) = (Ok a, s') -> m s = (Ok a, snd (m s)) /\ s' = relabel i r (snd (m s)).
  Proof. intros H E. rewrite H in E. destruct (m s) as [x t]. cbn in *. by simplify_eq. Qed.
  Lemma blind_run' {A} (m : M (sc T) A) i r s a s' : blind m -> m s = (Ok a, s') -> m (relabel i r s) = (Ok a, relabel i r s').
  Proof. intros H E. by rewrite H, E. Qed.
End Blind.

(** * Set-points changed and changed back *)
Lemma set_RING_same (s : sc R) : set_RING (RING s) s = s. Proof. by destruct s. Qed.
(** [r1]: the machine [s] with other set-points; [q1]: the fields updated; [r2]: the set-points of [s] again; then the fields
    are updated once more. *)
Lemma setpoints_back ords skew (s s2 : sc R) r1 ws1 r2 :
  let q1 := foldl rwr r1 ws1 in
  length r1 = length (RING s) -> length r2 = length q1 ->
  all_writes r1 (steps r1 ords) = Ok ws1 ->
  (forall i e, RING s !! i = Some e -> exists e1 e2 f1, r1 !! i = Some e1 /\ q1 !! i = Some e2 /\ r2 !! i = Some f1 /\
    eagree der e1 e2 /\ (forall a, a <> SP skew -> e1 !! a = e !! a) /\ (forall a, a <> SP skew -> f1 !! a = e2 !! a) /\ f1 !! SP skew = e !! SP skew) ->
  update_magnets ords (set_RING r2 s) = (Ok tt, s2) ->
  update_magnets ords s = (Ok tt, s2).
Proof.
  intros q1 HL1 HL2 Hws1 P Hu2. apply update_magnets_ok in Hu2 as (Hm2&ws2&Hws2&->). cbn [RING set_RING] in *.
  pose proof (all_writes_ragD _ _ _ Hws1) as HD1. fold q1 in HD1.
  assert (length r2 = length (RING s)) as HLr.
  { rewrite HL2. subst q1. rewrite rwr_length. done. }
  assert (ragD (RING s) r2) as HD.
  { split; [done|]. intros i e f He Hf a Ha. destruct (P i e He) as (e1&e2&f1&E1&E2&E3&A1&A2&A3&A4). simplify_eq.
    destruct (decide (a = SP skew)) as [->|]; [done|]. rewrite A3, A1, A2 by done. done. }
  apply update_magnets_ok. split.
  - intros i v Hi Hv. apply (Hm2 i v Hi). by rewrite (ragD_aget (RING s) r2).
  - assert (length q1 = length r1) as Hq1 by apply rwr_length.
    exists ws2. rewrite (steps_agree (RING s) r2), (all_writes_agree (RING s) r2) in Hws2 by done. split; [done|].
    destruct s as [r0 ir0 ij0 sg0 od0 rn0]. cbn [RING set_RING IDEALRING INJ SIG ORD RNG] in *. unfold set_RING. cbn. f_equal.
    pose proof (all_writes_range _ _ _ Hws2) as Hrg.
    apply ring_eq; [by rewrite !rwr_length|]. intros i a. rewrite (aget_writes r0) by done.
    rewrite aget_writes by (intros w Hw; rewrite HLr; by apply Hrg).
    destruct (last_write ws2 i a) as [v|] eqn:E; [done|].
    assert (last_write ws1 i a = None) as E1.
    { assert (steps r1 ords = steps r0 ords) as Est.
      { unfold steps. f_equal. apply map_ext. intros j. unfold steps1, children. do 2 f_equal.
        assert (aget r1 j "MasterOf" = aget r0 j "MasterOf") as ->; [|done]. unfold aget.
        destruct (r0 !! j) as [e|] eqn:Ej.
        - destruct (P j e Ej) as (e1&_&_&->&_&_&_&A2&_). simpl. apply A2. by destruct skew.
        - apply lookup_ge_None in Ej. assert (r1 !! j = None) as -> by (apply lookup_ge_None; lia). done. }
      rewrite Est in Hws1.
      assert (places ws1 = places ws2) as Epl.
      { eapply all_writes_places; [|exact Hws2|exact Hws1]. intros j. unfold aget. destruct (r0 !! j) as [e|] eqn:Ej.
        - destruct (P j e Ej) as (e1&_&_&->&_&_&_&A2&_). simpl. apply A2. by destruct skew.
        - apply lookup_ge_None in Ej. assert (r1 !! j = None) as -> by (apply lookup_ge_None; lia). done. }
      destruct (last_write ws1 i a) eqn:Ew; [|done].
      apply (last_write_places ws2 ws1 i a) in Epl. destruct (proj1 Epl) as [v' Hv']; [eauto|]. congruence. }
    unfold aget. destruct (r0 !! i) as [e|] eqn:Ei.
    + destruct (P i e Ei) as (e1&e2&f1&F1&F2&->&A1&A2&A3&A4). simpl. destruct (decide (a = SP skew)) as [->|Hne]; [done|].
      rewrite A3 by done. pose proof (aget_writes r1 ws1 i a (all_writes_range _ _ _ Hws1)) as Hg. rewrite E1 in Hg. unfold aget in Hg.
      fold q1 in Hg. rewrite F1, F2 in Hg. simpl in Hg. rewrite Hg. by apply A2.
    + apply lookup_ge_None in Ei. assert (r2 !! i = None) as -> by (apply lookup_ge_None; lia). done.
Qed.

Lemma magnet_add_restores i d skew order (s s1 s2 : sc R) v :
  entry s i (SP skew) order = Some v -> limited s i skew order v = v -> limited s i skew order (v + d)%R = (v + d)%R ->
  set_magnet_setpoints [i] DFloat [d] skew order ADD false s = (Ok tt, s1) ->
  set_magnet_setpoints [i] DFloat [(- d)%R] skew order ADD false s1 = (Ok tt, s2) ->
  update_magnets [i] s = (Ok tt, s2).
Proof.
  intros Hv Hlv Hlvd H1 H2. apply set_magnet_plain in H1 as (l1&t1&Hl1&Hf1&Hu1). apply set_magnet_plain in H2 as (l2&t2&Hl2&Hf2&Hu2).
  apply magnet_targets_ok in Hl1 as (_&_&l0&Hc1&_&_&Hadd). destruct (Hadd eq_refl) as (_&cur1&Hcur1&->). clear Hadd.
  apply magnet_targets_ok in Hl2 as (_&_&l0'&Hc2&_&_&Hadd). destruct (Hadd eq_refl) as (_&cur2&Hcur2&->). clear Hadd.
  injection Hc1 as <-. injection Hc2 as <-.
  destruct (forM_seq _ (magnet_step skew order DFloat) _ _ _ Hf1) as ((r1&->)&HL1&Hin1&Hs1).
  destruct (forM_seq _ (magnet_step skew order DFloat) _ _ _ Hf2) as ((r2&->)&HL2&Hin2&Hs2).
  apply update_magnets_ok in Hu1 as (Hm1&ws1&Hws1&->). cbn [RING set_RING] in *.
  assert (field_values (SP skew) order [i] s = Ok [v]) as Hc.
  { unfold field_values. cbn [rmap]. unfold entry, attr_at in Hv. unfold idx at 1. destruct (RING s !! i) as [e|] eqn:Ee; [|discriminate]. cbn in Hv |- *.
    unfold attr_vec, attr. destruct (e !! SP skew) as [y|]; [|discriminate]. cbn in Hv |- *. destruct y; try discriminate. cbn in Hv |- *. unfold idx. by rewrite Hv. }
  rewrite Hc in Hcur1. injection Hcur1 as <-. cbn [zip zip_with] in *. num_R.
  pose proof (all_writes_ragD _ _ _ Hws1) as HD1. set (q1 := foldl rwr r1 ws1) in *.
  assert (exists e, RING s !! i = Some e) as [ei Hei].
  { unfold entry, attr_at in Hv. destruct (RING s !! i) as [e|]; [by exists e|discriminate]. }
  (* the addressed element *)
  destruct (Hs1 i ei Hei) as (e1&He1&Hg1). rewrite (addressed_single i (d + v)%R) in Hg1 by ((apply NoDup_singleton) || left).
  cbn [forM] in Hg1. apply bind_ok in Hg1 as ([]&e1'&Hg1&Hr). minv Hr. apply magnet_step_ok in Hg1 as (x1&sp&Hcl1&Hsp&Hord&->).
  pose proof (clip_skew_R _ _ s i _ _ _ Hei Hcl1) as Ex1. rewrite Rplus_comm, Hlvd in Ex1. subst x1.
  destruct (ragD_some _ _ _ _ HD1 He1) as (e2&He2&Ha).
  assert (e2 !! SP skew = Some (VVec (<[order:=(v + d)%R]> sp))) as Hsp2 by (rewrite (Ha (SP skew)) by apply SP_not_der; by rewrite lookup_insert).
  assert (cur2 = [(v + d)%R]) as ->.
  { unfold field_values in Hcur2. cbn [rmap] in Hcur2. unfold idx at 1 in Hcur2. cbn [RING set_RING] in Hcur2. fold q1 in Hcur2. rewrite He2 in Hcur2. cbn in Hcur2.
    unfold attr_vec, attr in Hcur2. rewrite Hsp2 in Hcur2. cbn in Hcur2. unfold idx in Hcur2. rewrite list_lookup_insert in Hcur2 by done. by injection Hcur2 as <-. }
  cbn [zip zip_with] in *. num_R. replace (- d + (v + d))%R with v in * by lra.
  destruct (Hs2 i e2 He2) as (f2&Hf2'&Hg2). rewrite (addressed_single i v) in Hg2 by ((apply NoDup_singleton) || left).
  cbn [forM] in Hg2. apply bind_ok in Hg2 as ([]&f2'&Hg2&Hr). minv Hr. apply magnet_step_ok in Hg2 as (x2&sp2&Hcl2&Hsp2'&Hord2&->).
  assert (x2 = v) as ->.
  { rewrite <- Hlv. apply (clip_skew_R _ _ s i ei); [done|]. rewrite <- Hcl2. unfold clip_skew. rewrite (Ha "SkewQuadLimit") by (by apply not_der). rewrite lookup_insert_ne; [done|]. by destruct skew. }
  rewrite Hsp2 in Hsp2'. injection Hsp2' as <-. rewrite list_insert_insert in Hf2'.
  assert (<[order:=v]> sp = sp) as Esp.
  { apply list_insert_id. unfold entry, attr_at in Hv. rewrite Hei in Hv. cbn in Hv. rewrite Hsp in Hv. done. }
  rewrite Esp in Hf2'.
  change (set_RING r2 (set_RING q1 (set_RING r1 s))) with (set_RING r2 s) in Hu2.
  apply (setpoints_back [i] skew s s2 r1 ws1 r2); [done|done|done| |done].
  intros j e Hj. destruct (decide (j = i)) as [->|Hne].
  - rewrite Hei in Hj. injection Hj as <-. eexists _, _, _. split; [exact He1|]. split; [exact He2|]. split; [exact Hf2'|].
    split; [done|]. split; [intros a Hna; by apply lookup_insert_ne|]. split; [intros a Hna; by apply lookup_insert_ne|]. by rewrite lookup_insert.
  - destruct (Hs1 j e Hj) as (e1'&He1'&Hg). rewrite addressed_nil in Hg by (cbn; rewrite elem_of_list_singleton; done). change ((Ok tt, e) = (Ok tt, e1')) in Hg. injection Hg as <-.
    destruct (ragD_some _ _ _ _ HD1 He1') as (e2'&He2'&Ha').
    destruct (Hs2 j e2' He2') as (g2&Hg2'&Hgg). rewrite addressed_nil in Hgg by (cbn; rewrite elem_of_list_singleton; done). change ((Ok tt, e2') = (Ok tt, g2)) in Hgg. injection Hgg as <-.
    eexists _, _, _. split; [exact He1'|]. split; [exact He2'|]. split; [exact Hg2'|]. split; [exact Ha'|]. split; [intros a _; reflexivity|]. split; [intros a _; reflexivity|]. apply Ha'. apply SP_not_der.
Qed.
