(** C97: the fields follow the set-points through every campaign. *)
From Coq Require Import Reals Lra Lia QArith.
From stdpp Require Import base gmap strings list.
From Verif Require Import Num Base Model_Arr Model_SC Model_Err Model_Beam Model_Orbit Model_Scan Model_Bba Model_OrbBba Model_Lattice Model_Loco Model_Resp Model_Inject Model_Wrap Model_Matlab Lemmas Spec Proofs_Update Proofs_Setpoint Proofs_Err Proofs_Beam Proofs_CM Proofs_CM2 Properties_Setpoint Properties_Setpoint3 Properties_Setpoint4 Properties_Thread Properties_OrbBba Proofs_Campaign Examples Proofs_Reg Proofs_Loop Proofs_Loop2 Proofs_Field Properties_Field Properties_Update Properties_Progress Properties_Campaign.
Local Open Scope string_scope.
Local Open Scope list_scope.

(** * Specification *)
(** Computing the fields of all registered magnets and the voltages, frequencies and time lags of all registered cavities
    again works and changes nothing at all: they are what the set-points, calibrations and offsets say. *)
Definition in_step {T} {N : Num T} (s : sc T) : Prop :=
  update_magnets (oMagnet (ORD s)) s = (Ok tt, s) /\ update_cavities (oRF (ORD s)) s = (Ok tt, s).
(** All registered magnets and cavities are in good order, and no element is powered by two magnets. *)
Definition in_order (s : sc R) : Prop :=
  no_sharing s (oMagnet (ORD s)) /\ (forall i, i ∈ oMagnet (ORD s) -> good_magnet s i) /\ (forall i, i ∈ oRF (ORD s) -> good_cavity s i).
(** A call that addresses registered elements only, and only such as can take what it asks of them.  Nothing is asked of the
    numbers, of the shapes of the arguments, of the method names, of the monitors, nor of how the call ends. *)
Definition well_addressed (s : sc R) (p : procedure) : Prop :=
  (forall i, i ∈ steered_by p (ORD s) -> i ∈ oMagnet (ORD s) /\ good_corrector s i) /\
  (forall n i, (n, i) ∈ settings_of p -> i ∈ oMagnet (ORD s) /\ has_order s i false n /\ has_order s i true n /\
     maybe_at s i "SkewQuadLimit" (fun v => exists l, v = VLim l) /\ (n = 1 -> good_bend s i)) /\
  (forall i, i ∈ cavities_of p (ORD s) -> i ∈ oRF (ORD s)).

(** * Proofs *)
(** ** What an update reads *)
Definition looks : list string :=
  ["SetPointA"; "SetPointB"; "CalErrorA"; "CalErrorB"; "PolynomAOffset"; "PolynomBOffset"; "SysPolAFromA"; "SysPolAFromB"; "SysPolBFromA"; "SysPolBFromB";
   "BendingAngleError"; "BendingAngle"; "CombinedFunction"; "NomPolynomB"; "Length"; "PassMethod"; "MasterOf"].
Definition alike (e e' : elem R) : Prop := forall a, bool_decide (a ∈ looks) = true -> e' !! a = e !! a.
Lemma attr_writes_alike (src src' e e' : elem R) : alike src src' -> alike e e' -> attr_writes src' e' = attr_writes src e.
Proof.
  intros Hs He. assert (forall t pa pb, t = "A" \/ t = "B" -> new_polynom e' t pa pb = new_polynom e t pa pb) as Hn.
  { intros t pa pb [-> | ->]; unfold new_polynom; cbn [rfold]; repeat (rewrite He by (vm_compute; reflexivity)); reflexivity. }
  assert (target_fields src' e' = target_fields src e) as Ht.
  { unfold target_fields, attr_vec, attr_num, attr. repeat (rewrite Hs by (vm_compute; reflexivity)).
    destruct (src !! "SetPointA") as [v1|]; [|reflexivity]. simpl. destruct (as_vec v1); [|reflexivity]. simpl.
    destruct (src !! "SetPointB") as [v2|]; [|reflexivity]. simpl. destruct (as_vec v2); [|reflexivity]. simpl.
    destruct (src !! "CalErrorA") as [v3|]; [|reflexivity]. simpl. destruct (scaled_setpoints _ v3); [|reflexivity]. simpl.
    destruct (src !! "CalErrorB") as [v4|]; [|reflexivity]. simpl. destruct (scaled_setpoints _ v4); [|reflexivity]. simpl.
    rewrite !Hn by auto. destruct (new_polynom e "A" _ _); [|reflexivity]. simpl. destruct (new_polynom e "B" _ _); [|reflexivity]. simpl.
    repeat (rewrite He by (vm_compute; reflexivity)). reflexivity. }
  unfold attr_writes. rewrite Ht. unfold attr_str, attr. rewrite Hs by (vm_compute; reflexivity). reflexivity.
Qed.
(** magnets whose fields are what their set-points say *)
Definition still (s : sc R) (ords : list nat) : Prop := update_magnets ords s = (Ok tt, s).
Lemma still_iff s ords : still s ords <-> masters_ok (RING s) ords /\ exists W, all_writes (RING s) (steps (RING s) ords) = Ok W /\
  forall i a v, last_write W i a = Some v -> attr_at s i a = Some v.
Proof.
  unfold still. rewrite update_magnets_ok. split.
  - intros (H1&W&H2&E). split; [done|]. exists W. split; [done|]. intros i a v Hv. rewrite attr_at_aget. apply (f_equal RING) in E. cbn in E. rewrite E at 1.
    rewrite aget_writes by (by eapply all_writes_range). by rewrite Hv.
  - intros (H1&W&H2&H3). split; [done|]. exists W. split; [done|]. rewrite <- (set_RING_id s) at 1. f_equal. apply ring_eq; [by rewrite rwr_length|]. intros i a.
    rewrite aget_writes by (by eapply all_writes_range). destruct (last_write W i a) as [v|] eqn:E; [|done]. apply H3 in E. by rewrite attr_at_aget in E.
Qed.
Lemma steps_in (r : list (elem R)) ords m c : (m, c) ∈ steps r ords -> m ∈ ords /\ (c = m \/ c ∈ children r m).
Proof.
  unfold steps. rewrite elem_of_list_In, in_concat. intros (l&Hl&Hin). apply in_map_iff in Hl as (i&<-&Hi). apply elem_of_list_In in Hi, Hin. unfold steps1 in Hin.
  apply elem_of_cons in Hin as [[= -> ->]|Hin]; [by auto|]. apply elem_of_list_fmap in Hin as (x&[= -> ->]&Hx). auto.
Qed.
Lemma still_agree s s' ords : still s ords -> length (RING s') = length (RING s) ->
  (forall m c a, m ∈ ords -> powers s m c -> a ∈ looks ++ DERIVED -> attr_at s' c a = attr_at s c a) -> still s' ords.
Proof.
  intros H HL Ha. apply still_iff in H as (H1&W&H2&H3). apply still_iff.
  assert (forall m, m ∈ ords -> aget (RING s') m "MasterOf" = aget (RING s) m "MasterOf") as Hm.
  { intros m Hm. rewrite <- !attr_at_aget. apply (Ha m); [done|by left|]. apply (bool_decide_eq_true_1 _). vm_compute. reflexivity. }
  assert (steps (RING s') ords = steps (RING s) ords) as Es.
  { unfold steps. f_equal. apply map_ext_in. intros m Hin. apply elem_of_list_In in Hin. unfold steps1, children. by rewrite Hm. }
  assert (forall m c e e', m ∈ ords -> powers s m c -> RING s !! c = Some e -> RING s' !! c = Some e' -> alike e e') as Hal.
  { intros m c e e' Hin Hp E E' a Hx. apply bool_decide_eq_true in Hx. specialize (Ha m c a Hin Hp). unfold attr_at in Ha. rewrite E, E' in Ha. apply Ha. apply elem_of_app. by left. }
  assert (forall p, p ∈ steps (RING s) ords -> pair_writes (RING s') p = pair_writes (RING s) p) as Hp.
  { intros [m c] Hin. apply steps_in in Hin as [Hin Hc]. assert (powers s m c) as Hpw by (destruct Hc as [->|Hc]; [by left|right; by apply child_of_children]).
    assert (powers s m m) as Hpm by (by left). unfold pair_writes, idx. cbn [fst snd].
    assert (forall i, is_Some (RING s' !! i) <-> is_Some (RING s !! i)) as Hsome by (intros i; by rewrite !lookup_lt_is_Some, HL).
    destruct (RING s !! m) as [em|] eqn:Em.
    - destruct (proj2 (Hsome m)) as [em' Em']; [by eexists|]. rewrite Em'. cbn [rbind]. destruct (RING s !! c) as [ec|] eqn:Ec.
      + destruct (proj2 (Hsome c)) as [ec' Ec']; [by eexists|]. rewrite Ec'. cbn [rbind]. rewrite (attr_writes_alike em em' ec ec'); eauto.
      + destruct (RING s' !! c) eqn:Ec'; [|done]. destruct (proj1 (Hsome c)) as [? ?]; [by eexists|congruence].
    - destruct (RING s' !! m) eqn:Em'; [|done]. destruct (proj1 (Hsome m)) as [? ?]; [by eexists|congruence]. }
  split; [intros i v Hi; rewrite Hm by done; eauto|]. rewrite Es. exists W. split.
  - rewrite <- H2. clear -Hp. unfold all_writes. assert (rmap (pair_writes (RING s')) (steps (RING s) ords) = rmap (pair_writes (RING s)) (steps (RING s) ords)) as ->; [|done].
    revert Hp. generalize (steps (RING s) ords). intros l Hp. induction l as [|p l IH]; [done|]. simpl. rewrite (Hp p) by left. rewrite IH; [done|]. intros q Hq. apply Hp. by right.
  - intros i a v Hv. pose proof (H3 i a v Hv) as H4. apply last_write_in in Hv. destruct (all_writes_in _ _ _ H2 _ Hv) as ([m c]&Hin&E1&E2&_). cbn [fst snd] in E1, E2. subst c.
    apply steps_in in Hin as [Hin Hc]. rewrite (Ha m i a Hin); [done|destruct Hc as [->|Hc]; [by left|right; by apply child_of_children]|]. apply elem_of_app. by right.
Qed.
(** among magnets without common parts, each for itself *)
Lemma still_one s ords j : no_sharing s ords -> still s ords -> j ∈ ords -> still s [j].
Proof.
  intros Hn H Hj. assert (update_magnets (ords ++ [j]) s = (Ok tt, s)) as H2.
  { eapply C18_order_irrelevant; [|exact Hn|exact H]. intros i. rewrite elem_of_app, elem_of_list_singleton. split; [by left|]. intros [?| ->]; done. }
  unfold update_magnets in H2. rewrite forM_app in H2. apply bind_ok in H2 as ([]&s1&E1&E2). unfold still in H. unfold update_magnets in H. rewrite H in E1. injection E1 as <-. exact E2.
Qed.
Lemma still_all s ords : (forall j, j ∈ ords -> still s [j]) -> still s ords.
Proof.
  induction ords as [|j ords IH]; intros H; [done|]. change (j :: ords) with ([j] ++ ords). unfold still, update_magnets. rewrite forM_app. apply bind_ok. exists tt, s.
  split; [apply (H j); left|]. apply IH. intros k Hk. apply H. by right.
Qed.

(** ** Cavities *)
Definition CAVITY : list string :=
  ["VoltageSetPoint"; "VoltageCalError"; "VoltageOffset"; "Voltage"; "FrequencySetPoint"; "FrequencyCalError"; "FrequencyOffset"; "Frequency"; "TimeLagSetPoint"; "TimeLagCalError"; "TimeLagOffset"; "TimeLag"].
Definition steady (s : sc R) (c : nat) : Prop := exists e, RING s !! c = Some e /\ update_cavity e = (Ok tt, e).
Lemma cavity_fixed (e : elem R) : (forall f, f ∈ RF_PROPERTIES -> exists sp cal off, e !! (f +:+ "SetPoint") = Some (VNum sp) /\ e !! (f +:+ "CalError") = Some (VNum cal) /\
  e !! (f +:+ "Offset") = Some (VNum off) /\ e !! f = Some (VNum (nadd (nmul sp (nadd n1 cal)) off))) -> update_cavity e = (Ok tt, e).
Proof.
  intros H. unfold update_cavity. revert H. generalize RF_PROPERTIES. intros l. induction l as [|f l IH]; intros H; [done|]. cbn [forM]. apply bind_ok. exists tt, e. split.
  - destruct (H f) as (sp&cal&off&H1&H2&H3&H4); [left|]. rewrite run_getm. unfold attr_num, attr. rewrite H1. cbn [rbind as_num]. rewrite H2. cbn [rbind as_num]. rewrite H3. cbn [rbind as_num].
    apply setattr_ok. by rewrite insert_id.
  - apply IH. intros g Hg. apply H. by right.
Qed.
Lemma steady_agree s s' c : steady s c -> length (RING s') = length (RING s) -> (forall a, a ∈ CAVITY -> attr_at s' c a = attr_at s c a) -> steady s' c.
Proof.
  intros (e&He&H) HL Ha. destruct (lookup_lt_is_Some_2 (RING s') c) as [e' He']; [rewrite HL; by eapply lookup_lt_Some|]. exists e'. split; [done|].
  assert (forall a, bool_decide (a ∈ CAVITY) = true -> e' !! a = e !! a) as Hx. { intros a Hx. apply bool_decide_eq_true in Hx. specialize (Ha a Hx). unfold attr_at in Ha. by rewrite He, He' in Ha. }
  apply cavity_fixed. intros f Hf. destruct (update_cavity_fix e H f Hf) as (sp&cal&off&H1&H2&H3&H4). exists sp, cal, off. unfold RF_PROPERTIES in Hf. rewrite !elem_of_cons, elem_of_nil in Hf.
  destruct Hf as [-> | [-> | [-> | []]]]; rewrite !Hx by (vm_compute; reflexivity); done.
Qed.
Lemma steady_all s ords : (forall c, c ∈ ords -> steady s c) -> update_cavities ords s = (Ok tt, s).
Proof.
  unfold update_cavities. induction ords as [|c ords IH]; intros H; [done|]. cbn [forM]. apply bind_ok. exists tt, s. split; [|apply IH; intros k Hk; apply H; by right].
  destruct (H c) as (e&He&Hu); [left|]. apply on_elem_ok. exists e, e. split; [done|]. split; [done|]. rewrite list_insert_id by done. by rewrite set_RING_id.
Qed.
Lemma steady_one s s' ords c : update_cavities ords s = (Ok tt, s') -> c ∈ ords -> is_Some (RING s !! c) -> steady s' c.
Proof. intros H Hc [e He]. destruct (update_cavities_elem _ _ _ _ _ _ H He) as (e'&He'&_&_&Hu). exists e'. auto. Qed.

Lemma update_cavities_exists ords (s s' : sc R) u c : update_cavities ords s = (Ok u, s') -> c ∈ ords -> is_Some (RING s !! c).
Proof.
  revert s. induction ords as [|i ords IH]; intros s H Hc; [by apply elem_of_nil in Hc|]. unfold update_cavities in H. cbn [forM] in H. apply bind_ok in H as ([]&s1&H1&H).
  apply on_elem_ok in H1 as (e&e'&He&_&->). apply elem_of_cons in Hc as [->|Hc]; [by eexists|]. apply lookup_lt_is_Some. destruct (IH _ H Hc) as [x Hx]. cbn in Hx. apply lookup_lt_Some in Hx. by rewrite insert_length in Hx.
Qed.

(** ** The invariant *)
Lemma kept_attr s s' i a : kept s s' -> a ∉ rewritten -> attr_at s' i a = attr_at s i a.
Proof.
  intros H Ha. unfold attr_at. destruct (RING s !! i) as [e|] eqn:E.
  - destruct (kept_at _ _ _ _ H E) as (e'&->&K). cbn. by apply K.
  - destruct (RING s' !! i) as [e'|] eqn:E'; [|done]. apply lookup_lt_Some in E'. rewrite (proj1 (proj2 H)) in E'. apply lookup_ge_None in E. lia.
Qed.
Lemma kept_powers s s' m c : kept s s' -> powers s' m c <-> powers s m c.
Proof. intros H. unfold powers, child_of. rewrite (kept_attr s s') by (done || not_in). done. Qed.
Lemma kept_sharing s s' L : kept s s' -> no_sharing s L -> no_sharing s' L.
Proof. intros H Hn c m m' Hm Hm'. rewrite !(kept_powers s s') by done. by apply Hn. Qed.
Lemma kept_agree s s' : ORD s' = ORD s -> length (RING s') = length (RING s) -> (forall i a, a ∉ ["Offset"; "CalError"; "Roll"] -> attr_at s' i a = attr_at s i a) -> kept s s'.
Proof.
  intros HO HL Ha. split; [done|]. split; [done|]. intros i e e' He He'.
  assert (forall a, a ∉ ["Offset"; "CalError"; "Roll"] -> e' !! a = e !! a) as Hx. { intros a Hx. specialize (Ha i a Hx). unfold attr_at in Ha. by rewrite He, He' in Ha. }
  split; [|split].
  - intros a Hn. apply Hx. intros Hin. apply Hn. unfold rewritten. rewrite !elem_of_cons, elem_of_nil in Hin. apply (bool_decide_eq_true_1 _). destruct Hin as [-> | [-> | [-> | []]]]; vm_compute; reflexivity.
  - intros a n Hin. unfold array. rewrite Hx; [done|]. rewrite !elem_of_cons, elem_of_nil in Hin. destruct Hin as [-> | [-> | []]]; not_in.
  - intros a Hin. unfold scalar. rewrite Hx; [done|]. rewrite !elem_of_cons, elem_of_nil in Hin. destruct Hin as [-> | [-> | [-> | []]]]; not_in.
Qed.

Lemma refreshed_magnets p o i : i ∈ refreshed_by p o -> i ∈ oMagnet o \/ i ∈ steered_by p o \/ exists n, (n, i) ∈ settings_of p.
Proof.
  destruct p; cbn [refreshed_by magnets_of steered_by settings_of]; try (destruct elems); try tauto; try (intros H; right; right; eexists; by apply in_pair).
  rewrite elem_of_app. intros [H|H]; right; right; eexists; apply elem_of_app; [left|right]; by apply in_pair.
Qed.
#[local] Existing Instance kept_preorder.
Section Follow.
  Context (s0 : sc R) (Hord : in_order s0).
  Notation L := (oMagnet (ORD s0)).
  Notation C := (oRF (ORD s0)).
  Definition follows (s : sc R) : Prop := kept s0 s /\ (forall j, j ∈ L -> still s [j]) /\ (forall c, c ∈ C -> steady s c).
  Definition Rel (s s' : sc R) : Prop := follows s -> follows s'.
  #[local] Instance Rel_preorder : PreOrder Rel.
  Proof. split; [by intros s H|]. intros a b c H1 H2 H. auto. Qed.
  Lemma follows_agree s s' : follows s -> kept s s' -> (forall i a, a ∉ ["Offset"; "CalError"; "Roll"] -> attr_at s' i a = attr_at s i a) -> follows s'.
  Proof.
    intros (H1&H2&H3) K Ha. split; [by etransitivity|]. split.
    - intros j Hj. eapply still_agree; [by apply H2|apply K|]. intros m c a _ _ Hx. apply Ha. intros Hin. rewrite !elem_of_cons, elem_of_nil in Hin. revert Hx. destruct Hin as [-> | [-> | [-> | []]]]; not_in.
    - intros c Hc. eapply steady_agree; [by apply H3|apply K|]. intros a Hx. apply Ha. intros Hin. rewrite !elem_of_cons, elem_of_nil in Hin. revert Hx. destruct Hin as [-> | [-> | [-> | []]]]; not_in.
  Qed.
  Lemma follows_ring s s' : ORD s' = ORD s -> RING s' = RING s -> follows s -> follows s'.
  Proof.
    intros HO HR H. assert (forall i a, attr_at s' i a = attr_at s i a) as Ha by (intros i a; unfold attr_at; by rewrite HR).
    eapply follows_agree; [exact H|apply kept_agree; [done|by rewrite HR|]|]; intros i a _; apply Ha.
  Qed.
  (** after any computation of the fields of some magnets *)
  Lemma follows_magnets s s1 s' ords : follows s -> kept s s' -> (forall i, i ∈ ords -> i ∈ L) -> update_magnets ords s1 = (Ok tt, s') ->
    worked (ORD s) (fun i => i ∈ ords) (fun i => i ∈ ords) (fun _ => False) (fun _ => False) (fun _ => False) False s s' -> follows s'.
  Proof.
    intros (H1&H2&H3) K Hin Hu (_&_&_&HL&_&_&Ha)%(fun H => H eq_refl). split; [by etransitivity|].
    assert (no_sharing s L) as Hn by (eapply kept_sharing; [exact H1|apply Hord]).
    split.
    - intros j Hj. destruct (decide (j ∈ ords)) as [Hjo|Hjo].
      + apply still_one with ords; [|by apply (C18_twice ords s1)|done]. apply (kept_sharing s); [done|]. intros c m m' Hm Hm'. apply Hn; auto.
      + eapply still_agree; [by apply H2|done|]. intros m c a ->%elem_of_list_singleton Hp _. apply Ha. intros [[_ Hc]|[[_ Hc]|[[_ []]|[[_ []]|[_ []]]]]].
        * apply Hjo. rewrite (Hn c j c); auto. by left.
        * destruct Hc as [Hc|(m&Hm&Hc)]; apply Hjo; [rewrite (Hn c j c); auto; by left|rewrite (Hn c j m); auto; by right].
    - intros c Hc. eapply steady_agree; [by apply H3|done|]. intros a Hx. apply Ha. intros [[Hy _]|[[Hy _]|[[_ []]|[[_ []]|[_ []]]]]].
      + revert Hx. rewrite !elem_of_cons, elem_of_nil in Hy. destruct Hy as [-> | [-> | []]]; not_in.
      + revert Hx. unfold field_attributes in Hy. rewrite !elem_of_cons, elem_of_nil in Hy. destruct Hy as [-> | [-> | [-> | [-> | []]]]]; not_in.
  Qed.
  Lemma still_ord s : follows s -> ORD s = ORD s0.
  Proof. intros (H&_). apply H. Qed.
  Lemma r_update ords : (forall i, i ∈ ords -> i ∈ L) -> pres Rel (@update_magnets R _ ords).
  Proof.
    intros Hin s H. destruct (update_magnets_goes s ords) as ([]&s'&E&K). { intros i Hi. eapply good_magnet_kept; [apply H|]. apply Hord. auto. }
    rewrite E. cbn [snd]. eapply (follows_magnets s s s' ords); auto. pose proof (worked_update (ORD s) (fun i => i ∈ ords) (fun i => i ∈ ords) (fun _ => False) (fun _ => False) (fun _ => False) False ords) as W.
    specialize (W (fun _ x => x) s). by rewrite E in W.
  Qed.
  Lemma fitting_dec ords (sps : list R) : {fitting ords sps} + {~ fitting ords sps}.
  Proof. unfold fitting. destruct (decide (length sps = 1)), (decide (length sps = length ords)); tauto. Qed.
  Lemma check_passed (ords : list nat) (sps : list R) method l : check_input_and_setpoints method ords sps = Ok l -> a_method method /\ fitting ords sps.
  Proof.
    unfold check_input_and_setpoints. destruct (decide (method ∈ SETTING_METHODS)) as [Hm|]; [|discriminate]. destruct ((length sps =? 1) || (length sps =? length ords))%nat eqn:E; [|discriminate].
    intros _. split; [exact Hm|]. apply orb_true_iff in E. rewrite !Nat.eqb_eq in E. exact E.
  Qed.
  Lemma check_refused (ords : list nat) (sps : list R) method : ~ (a_method method /\ fitting ords sps) -> exists x, check_input_and_setpoints method ords sps = Err x.
  Proof.
    intros H. destruct (check_input_and_setpoints method ords sps) as [l|x] eqn:E; [|eauto]. exfalso. apply H. by eapply check_passed.
  Qed.
  Lemma r_cm ords dt sps skew method : (forall i, i ∈ ords -> i ∈ L /\ good_corrector s0 i) -> pres Rel (@set_cm_setpoints R _ ords dt sps skew method).
  Proof.
    intros Hin s H. destruct (decide (a_method method)) as [Hm|Hm]; [destruct (fitting_dec ords sps) as [Hf|Hf]|].
    - destruct (set_cm_goes s ords dt sps skew method) as ([]&s'&E&K); [done|done| |].
      { intros i Hi. eapply good_corrector_kept; [apply H|]. by apply Hin. }
      pose proof (worked_cm (ORD s) (fun i => i ∈ ords) (fun i => i ∈ ords) (fun _ => False) (fun _ => False) (fun _ => False) False (fun _ x => x) ords dt sps skew method (fun _ x => x) s) as W.
      rewrite E in W |- *. cbn [snd] in *. apply set_cm_ok in E as (l&s1&_&_&E). eapply (follows_magnets s s1 s' ords); auto. intros i Hi. by apply Hin.
    - destruct (check_refused ords sps method) as [x Hx]; [tauto|]. unfold set_cm_setpoints. rewrite Hx. exact H.
    - destruct (check_refused ords sps method) as [x Hx]; [tauto|]. unfold set_cm_setpoints. rewrite Hx. exact H.
  Qed.
  Definition takes (n i : nat) : Prop := i ∈ L /\ has_order s0 i false n /\ has_order s0 i true n /\ maybe_at s0 i "SkewQuadLimit" (fun v => exists l, v = VLim l) /\ (n = 1 -> good_bend s0 i).
  Lemma r_magnet ords dt sps skew order method dc : (forall i, i ∈ ords -> takes order i) -> pres Rel (@set_magnet_setpoints R _ ords dt sps skew order method dc).
  Proof.
    intros Hin s H. destruct (magnet_targets ords dt sps skew order method s) as [l|x] eqn:El.
    - assert (acceptable s (OpSetMagnet ords dt sps skew order method dc)) as Hacc.
      { apply (acceptable_kept s0); [apply H|]. unfold magnet_targets in El. apply rbind_ok in El as (x&Ex&El). apply check_passed in Ex as (E1&E2). cbn [acceptable].
        split; [exact E1|]. split; [exact E2|]. split.
        - destruct dt; [right|by left]. unfold inplace in El. unfold check_input_and_setpoints in *. destruct (decide (method = REL)); [apply rbind_ok in El as (?&_&El); discriminate El|].
          destruct (decide (method = ADD)); [apply rbind_ok in El as (?&_&El); discriminate El|]. unfold a_method, REL, ADD in *. rewrite !elem_of_cons, elem_of_nil in E1. tauto.
        - intros i Hi. destruct (Hin i Hi) as (G1&G2&G3&G4&G5). split; [by apply Hord|]. split; [by destruct skew|]. split; [done|]. auto. }
      destruct (set_magnet_goes s _ _ _ _ _ _ _ Hacc) as ([]&s'&E&K).
      pose proof (worked_magnet (ORD s) (fun i => i ∈ ords) (fun i => i ∈ ords) (fun _ => False) (fun _ => False) (fun _ => False) False (fun _ x => x) ords dt sps skew order method dc (fun _ x => x) s) as W.
      rewrite E in W |- *. cbn [snd] in *. apply set_magnet_ok in E as (l'&s1&_&_&E). eapply (follows_magnets s s1 s' ords); auto. intros i Hi. by apply Hin.
    - unfold set_magnet_setpoints. change (follows (snd (bind (lift (magnet_targets ords dt sps skew order method s)) (fun sps0 => forM (zip ords sps0) (fun p => set_magnet_one skew order dt dc p.1 p.2) ;;; update_magnets ords) s))).
      rewrite El. exact H.
  Qed.
  Lemma r_cavity ords dt sps param method : (forall i, i ∈ ords -> i ∈ C) -> param = "Frequency" \/ param = "TimeLag" -> pres Rel (@set_cavity_setpoints R _ ords dt sps param method).
  Proof.
    intros Hin Hp s H. destruct (cavity_targets ords dt sps param method s) as [l|x] eqn:El.
    - assert (acceptable s (OpSetCavity ords dt sps param method)) as Hacc.
      { apply (acceptable_kept s0); [apply H|]. unfold cavity_targets in El. apply rbind_ok in El as (x&Ex&El). apply check_passed in Ex as (E1&E2). cbn [acceptable].
        split; [exact E1|]. split; [exact E2|]. split.
        - destruct dt; [right|by left]. unfold inplace in El. destruct (decide (method = REL)); [apply rbind_ok in El as (?&_&El); discriminate El|].
          destruct (decide (method = ADD)); [apply rbind_ok in El as (?&_&El); discriminate El|]. unfold a_method, REL, ADD in *. rewrite !elem_of_cons, elem_of_nil in E1. tauto.
        - split; [destruct Hp as [-> | ->]; rewrite !elem_of_cons; auto|]. intros i Hi. apply Hord. auto. }
      destruct (set_cavity_goes s _ _ _ _ _ Hacc) as ([]&s'&E&K).
      pose proof (worked_cavity (ORD s) (fun _ => False) (fun _ => False) (fun i => i ∈ ords) (fun _ => False) (fun _ => False) False ords dt sps param method (fun _ x => x) Hp s) as W.
      rewrite E in W |- *. cbn [snd] in *. destruct H as (H1&H2&H3). destruct (W eq_refl) as (_&_&_&HL&_&_&Ha). cbn beta in K. split; [by etransitivity|]. split.
      + intros j Hj. eapply still_agree; [by apply H2|done|]. intros m c a _ _ Hx. apply Ha. intros [[_ []]|[[_ [[]|(?&[]&_)]]|[[Hy _]|[[_ []]|[_ []]]]]].
        revert Hx. unfold cavity_attributes in Hy. rewrite !elem_of_cons, elem_of_nil in Hy. repeat (destruct Hy as [-> | Hy]; [not_in|]). done.
      + intros c Hc. destruct (decide (c ∈ ords)) as [Hco|Hco].
        * apply set_cavity_ok in E as (l'&s1&_&E1&E). eapply steady_one; [exact E|done|]. destruct (forM_seq _ (fun x => setattr (param +:+ "SetPoint") (VNum x)) _ _ _ E1) as (_&L1&_).
          apply lookup_lt_is_Some. rewrite L1. destruct (H3 c Hc) as (e&He&_). by eapply lookup_lt_Some.
        * eapply steady_agree; [by apply H3|done|]. intros a _. apply Ha. intros [[_ []]|[[_ [[]|(?&[]&_)]]|[[_ Hy]|[[_ []]|[_ []]]]]]. done.
    - unfold set_cavity_setpoints. change (follows (snd (bind (lift (cavity_targets ords dt sps param method s)) (fun sps0 => forM (zip ords sps0) (fun p => on_elem p.1 (setattr (param +:+ "SetPoint") (VNum p.2))) ;;; update_cavities ords) s))).
      rewrite El. exact H.
  Qed.
  Lemma r_other i (m : M (elem R) unit) : pres (eagree (fun a => a ∈ ["Offset"; "CalError"; "Roll"])) m -> pres Rel (on_elem i m).
  Proof.
    intros Hm s H. pose proof (pres_on_elem_frame (fun _ a => a ∈ ["Offset"; "CalError"; "Roll"]) i m Hm s) as Fr.
    assert (forall j a, a ∉ ["Offset"; "CalError"; "Roll"] -> attr_at (snd (on_elem i m s)) j a = attr_at s j a) as Ha. { intros j a Hx. rewrite !attr_at_aget. by apply (frame_aget _ _ _ _ _ Fr). }
    destruct Fr as (_&_&_&FO&_&[FL _]). eapply follows_agree; [exact H|by apply kept_agree|done].
  Qed.
  Lemma campaign_follows w t ps s : (forall p, p ∈ ps -> well_addressed s0 p) -> follows s -> follows (campaign w t ps s).
  Proof.
    intros Hps. apply (g_campaign w t Rel (ORD s0) (fun i => i ∈ L /\ good_corrector s0 i) (fun i => i ∈ L) (fun i => i ∈ C) (fun _ => True) (fun _ => True) takes True).
    - intros A k Hk s1 H. change (bind get k s1) with (k s1 s1). apply Hk; [by apply still_ord|done].
    - intros a b Hq H. destruct (quiet_same _ _ Hq) as (E1&?&?&?&?). eapply follows_ring; eauto.
    - intros. by apply r_cm.
    - intros. by apply r_magnet.
    - intros. by apply r_update.
    - intros. by apply r_cavity.
    - intros i d f _. unfold change_offset. apply r_other. repeat first [pres_step|apply pres_setattr; left].
    - intros i d y _. unfold add_gain. apply r_other. repeat first [pres_step|apply pres_setattr; right; left].
    - intros i x _. unfold lower_roll. apply r_other. repeat first [pres_step|apply pres_setattr; right; right; left].
    - intros _ z s1 H. by apply (follows_ring s1).
    - intros _ n s1 H. by apply (follows_ring s1).
    - intros _ m s1 H. apply (follows_ring s1); [|apply (pres_trackMode (fun _ _ => False) m)|done]. unfold on_INJ, set_trackMode. destruct (decide _); reflexivity.
    - intros p Hp. destruct (Hps p Hp) as (A1&A2&A3). split; [exact A1|]. split; [|split; [exact A3|]; split; [done|]; split; [done|]; split; [exact A2|done]].
      intros i [Hi|[Hi|[n Hi]]]%refreshed_magnets; [done|by apply A1|by apply (A2 n)].
  Qed.
End Follow.

(** * Theorems *)
Lemma in_step_follows s : in_order s -> in_step s -> follows s s.
Proof.
  intros (H1&H2&H3) [H4 H5]. split; [reflexivity|]. split; [intros j Hj; by eapply still_one|]. intros c Hc. eapply steady_one; [exact H5|done|]. destruct (H3 c Hc) as (e&He&_). by eexists.
Qed.
Lemma follows_in_step s s' : follows s s' -> in_step s'.
Proof. intros (H1&H2&H3). unfold in_step. rewrite (proj1 H1). split; [by apply still_all|by apply steady_all]. Qed.
Lemma in_order_kept s s' : kept s s' -> in_order s -> in_order s'.
Proof.
  intros K (H1&H2&H3). unfold in_order. rewrite (proj1 K). split; [by eapply kept_sharing|]. split; [intros i Hi; eapply good_magnet_kept; eauto|intros i Hi; eapply good_cavity_kept; eauto].
Qed.
Lemma well_addressed_kept s s' p : kept s s' -> well_addressed s p -> well_addressed s' p.
Proof.
  intros K (H1&H2&H3). unfold well_addressed. rewrite (proj1 K). split; [|split; [|done]].
  - intros i Hi. destruct (H1 i Hi). split; [done|]. by eapply good_corrector_kept.
  - intros n i Hi. destruct (H2 n i Hi) as (A1&A2&A3&A4&A5). split; [done|]. split; [by eapply has_order_kept|]. split; [by eapply has_order_kept|]. split; [eapply maybe_at_kept; [done|not_in|done]|].
    intros E. eapply good_bend_kept; eauto.
Qed.
(** The calls of a campaign, whatever their number, order and arguments, and however they end, keep the machine in step. *)
Theorem C97_fields_follow w t ps (s : sc R) : in_order s -> in_step s -> (forall p, p ∈ ps -> well_addressed s p) ->
  in_step (campaign w t ps s) /\ in_order (campaign w t ps s) /\ forall p, well_addressed s p -> well_addressed (campaign w t ps s) p.
Proof.
  intros Ho Hs Hp. assert (follows s (campaign w t ps s)) as H by (apply campaign_follows; [done|done|by apply in_step_follows]).
  split; [by eapply follows_in_step|]. split; [eapply in_order_kept; [apply H|done]|]. intros p. apply well_addressed_kept, H.
Qed.
(** So at the end the field of every powered element is the one its magnet's set-points, calibration and errors give it, and every cavity has the
    voltage, frequency and time lag of its set-points, calibrations and offsets. *)
Theorem C97_magnets w t ps (s : sc R) m c skew : in_order s -> in_step s -> (forall p, p ∈ ps -> well_addressed s p) -> m ∈ oMagnet (ORD s) -> powers s m c ->
  let s' := campaign w t ps s in exists p, attr_at s' c (field_name skew) = Some (VVec p) /\
    length p = expected_length s' m c skew /\ forall k, at0 p k = expected_field s' m c skew k.
Proof.
  intros Ho Hs Hp Hm Hc s'. assert (follows s s') as H by (apply campaign_follows; [done|done|by apply in_step_follows]). pose proof (follows_in_step _ _ H) as [Hu _].
  destruct H as [K _]. rewrite (proj1 K) in Hu. eapply C17_field; [exact Hu| |].
  - split; [done|]. split; [by apply (kept_powers s s')|]. intros m' Hm' Hc'. apply (kept_powers s s') in Hc'; [|done]. apply (proj1 Ho) with c; done.
  - destruct (good_magnet_kept _ _ _ K (proj1 (proj2 Ho) m Hm)) as (e&na&nb&He&[_ _ (a&A1&A2) (b&B1&B2) _ _ (n1&N1&ca&CA&LA) (n2&N2&cb&CB&LB) _ _ _]&_).
    intros sk. left. unfold array_of, attr_at. rewrite He. cbn. destruct sk; cbn; [rewrite CA, A1|rewrite CB, B1]; lia.
Qed.
Theorem C97_cavities w t ps (s : sc R) c f : in_order s -> in_step s -> (forall p, p ∈ ps -> well_addressed s p) -> c ∈ oRF (ORD s) -> f ∈ ["Voltage"; "Frequency"; "TimeLag"] ->
  let s' := campaign w t ps s in exists sp cal off, attr_at s' c (f +:+ "SetPoint") = Some (VNum sp) /\ attr_at s' c (f +:+ "CalError") = Some (VNum cal) /\
    attr_at s' c (f +:+ "Offset") = Some (VNum off) /\ attr_at s' c f = Some (VNum (sp * (1 + cal) + off)%R).
Proof.
  intros Ho Hs Hp Hc Hf s'. assert (follows s s') as (_&_&H) by (apply campaign_follows; [done|done|by apply in_step_follows]).
  destruct (H c Hc) as (e&He&Hu). destruct (update_cavity_fix e Hu f Hf) as (sp&cal&off&H1&H2&H3&H4). exists sp, cal, off. unfold attr_at. rewrite He. done.
Qed.

(** A machine in good order gets in step when both updates are called. *)
Theorem C97_updating (s : sc R) : in_order s -> exists s1 s2, update_magnets_all s = (Ok tt, s1) /\ update_cavities_all s1 = (Ok tt, s2) /\
  in_step s2 /\ in_order s2 /\ forall p, well_addressed s p -> well_addressed s2 p.
Proof.
  intros Ho. destruct (update_magnets_goes s (oMagnet (ORD s))) as ([]&s1&E1&K1); [apply Ho|]. cbn beta in K1. destruct (update_cavities_goes s1 (oRF (ORD s))) as ([]&s2&E2&K2).
  { intros i Hi. eapply good_cavity_kept; [exact K1|]. by apply Ho. }
  cbn beta in K2. assert (kept s s2) as K by (by etransitivity). exists s1, s2. split; [exact E1|]. split; [unfold update_cavities_all, bind, get; rewrite (proj1 K1); exact E2|].
  split; [|split; [by eapply in_order_kept|intros p; by apply well_addressed_kept]]. unfold in_step. rewrite (proj1 K). split.
  - eapply still_agree; [by apply (C18_twice _ s)|apply K2|]. intros m c a _ _ Hx. pose proof (pres_update_cavities (oRF (ORD s)) s1) as Fr. rewrite E2 in Fr. rewrite !attr_at_aget. apply (frame_aget _ _ _ _ _ Fr).
    unfold rf_attr, RF_PROPERTIES. intros Hy. revert Hx. rewrite !elem_of_cons, elem_of_nil in Hy. destruct Hy as [-> | [-> | [-> | []]]]; not_in.
  - apply steady_all. intros c Hc. eapply steady_one; [exact E2|done|]. destruct (good_cavity_kept _ _ _ K1 (proj2 (proj2 Ho) c Hc)) as (e&He&_). by eexists.
Qed.
(** So does a machine on which the errors were applied, when cavities were registered with the error registry (the updates that
    apply_errors ends with are skipped for empty registries). *)
Theorem C97_errors minv nsig (s s' : sc R) : apply_errors minv nsig s = (Ok tt, s') -> (oRF (ORD s) <> [] -> sRF (SIG s) <> ∅) -> in_step s'.
Proof.
  intros H HR. pose proof (same_apply_errors (@ORD R) ltac:(done) ltac:(done) ltac:(done) minv nsig s) as HO. pose proof (same_apply_errors (@SIG R) ltac:(done) ltac:(done) ltac:(done) minv nsig s) as HS.
  rewrite H in HO, HS. cbn [snd] in HO, HS. unfold same in HO, HS. rewrite <- HO, <- HS in HR. clear HO HS.
  apply apply_errors_ok in H as (s1&s2&s3&_&_&_&H). unfold tail_of_errors in H. do 3 (apply bind_ok in H as (?&?&_&H)). apply bind_ok in H as (?&sA&_&H). apply bind_ok in H as ([]&sB&HB&H).
  apply bind_ok in HB as (y1&y2&HA&HB). unfold get in HA. injection HA as Y1 Y2. subst y1 y2. apply bind_ok in H as (y1&y2&HC&H). unfold get in HC. injection HC as Y1 Y2. subst y1 y2.
  assert (still sB (oMagnet (ORD sB))) as HM.
  { destruct (negb (length (oMagnet (ORD sA)) =? 0)%nat) eqn:E; cbn [when] in HB.
    - unfold update_magnets_all in HB. apply bind_ok in HB as (y1&y2&HA&HB). unfold get in HA. injection HA as Y1 Y2. subst y1 y2. pose proof (same_update_magnets (@ORD R) ltac:(done) (oMagnet (ORD sA)) sA) as HO. rewrite HB in HO.
      unfold same in HO. cbn [snd] in HO. rewrite HO. by apply (C18_twice _ sA).
    - apply ret_ok in HB as [_ ->]. apply negb_false_iff, Nat.eqb_eq, nil_length_inv in E. rewrite E. done. }
  destruct (negb (length (oRF (ORD sB)) =? 0)%nat && negb (bool_decide (sRF (SIG sB) = ∅))) eqn:E; cbn [when] in H.
  - unfold update_cavities_all in H. apply bind_ok in H as (y1&y2&HA&H). unfold get in HA. injection HA as Y1 Y2. subst y1 y2. pose proof (pres_update_cavities (oRF (ORD sB)) sB) as Fr. rewrite H in Fr. cbn [snd] in Fr.
    unfold in_step. assert (ORD s' = ORD sB) as -> by apply Fr. split.
    + eapply still_agree; [exact HM|apply Fr|]. intros m c a _ _ Hx. rewrite !attr_at_aget. apply (frame_aget _ _ _ _ _ Fr).
      unfold rf_attr, RF_PROPERTIES. intros Hy. revert Hx. rewrite !elem_of_cons, elem_of_nil in Hy. destruct Hy as [-> | [-> | [-> | []]]]; not_in.
    + apply steady_all. intros c Hc. eapply steady_one; [exact H|done|]. by eapply update_cavities_exists.
  - apply ret_ok in H as [_ ->]. split; [exact HM|]. destruct (oRF (ORD sB)) as [|c l] eqn:EL; [done|]. cbn in E. destruct (bool_decide (sRF (SIG sB) = ∅)) eqn:EB; [|discriminate]. apply bool_decide_eq_true in EB. by destruct HR.
Qed.
(** and stays in good order, so the calls that were possible before the errors can follow *)
Theorem C97_errors_in_order minv nsig (s : sc R) : well_registered s -> sane s -> in_order s ->
  in_order (snd (apply_errors minv nsig s)) /\ forall p, well_addressed s p -> well_addressed (snd (apply_errors minv nsig s)) p.
Proof.
  intros Hw Hs (H1&H2&H3). set (s' := snd (apply_errors minv nsig s)). pose proof (C94_errors minv nsig s Hw Hs) as HE. fold s' in HE. pose proof (struck_errors minv nsig s Hw) as HK. fold s' in HK.
  assert (ORD s' = ORD s) as HO by apply HK.
  assert (forall i, attr_at s' i "MasterOf" = attr_at s i "MasterOf") as HM.
  { intros i. unfold attr_at. destruct (RING s !! i) as [e|] eqn:E.
    - destruct (struck_at _ _ _ _ _ _ HK E) as (e'&->&K). cbn. by apply (solid_kept _ _ _ _ _ "MasterOf" K).
    - destruct (RING s' !! i) as [e'|] eqn:E'; [|done]. apply lookup_lt_Some in E'. destruct HK as (_&_&HL&_). rewrite HL in E'. apply lookup_ge_None in E. lia. }
  assert (forall i, i ∈ oMagnet (ORD s) -> good_magnet s' i) as G. { intros i Hi. apply (HE (OpUpdateMagnets [i])); [|left]. intros j ->%elem_of_list_singleton. auto. }
  unfold in_order, well_addressed. rewrite HO. split; [split; [|split; [exact G|]]|].
  - intros c m m' Hm Hm'. unfold powers, child_of. rewrite !HM. by apply H1.
  - intros i Hi. apply (HE (OpUpdateCavities [i])); [|left]. intros j ->%elem_of_list_singleton. auto.
  - intros p (A1&A2&A3). split; [|split; [|exact A3]].
    + intros i Hi. destruct (A1 i Hi) as [B1 B2]. split; [done|]. apply (HE (OpSetCM [i] DFloat [0%R] false "abs")); [|left].
      split; [left|]. split; [by left|]. intros j ->%elem_of_list_singleton. done.
    + intros n i Hi. destruct (A2 n i Hi) as (B1&B2&B3&B4&B5). split; [done|].
      assert (forall skew, acceptable s' (OpSetMagnet [i] DFloat [0%R] skew n "abs" true)) as HA.
      { intros skew. apply HE. split; [left|]. split; [by left|]. split; [by left|]. intros j ->%elem_of_list_singleton. split; [auto|]. split; [by destruct skew|]. split; [done|]. auto. }
      destruct (HA false) as (_&_&_&Ha). destruct (HA true) as (_&_&_&Hb). destruct (Ha i) as (_&C2&C3&C4); [left|]. destruct (Hb i) as (_&D2&_&_); [left|]. split; [done|]. split; [done|]. split; [done|]. auto.
Qed.

Print Assumptions C97_fields_follow.
Print Assumptions C97_magnets.
Print Assumptions C97_cavities.
Print Assumptions C97_updating.
Print Assumptions C97_errors.
Print Assumptions C97_errors_in_order.

(** * Cases *)
(** Without the hypothesis on what is addressed the fields can be left behind: a corrector call that raises at its second element, a drift,
    has already changed the set-point of the first, and does not come to the update. *)
Definition step_machine {T} {N : Num T} : sc T := snd (update_magnets [1]%nat (snd (register_magnets [1]%nat [] (MkType (Some (Fin (num 9))) None false None None) (ex_sc (T:=T))))).
Theorem C97_finding_left_behind :
  let s := step_machine : sc Q in let r := set_cm_setpoints [1; 0]%nat DFloat [1%Q] false "abs" s in
  in_step s /\ fst r = Err AttributeError /\ attr_at s 1 "SetPointB" = Some (VVec [0; 3]%Q) /\ attr_at (snd r) 1 "SetPointB" = Some (VVec [(-1 # 2)%Q; 3%Q]) /\
  attr_at (snd r) 1 "PolynomB" = attr_at s 1 "PolynomB" /\ ~ in_step (snd r).
Proof.
  cbv zeta. split.
  { split; [|reflexivity]. change (oMagnet (ORD (step_machine : sc Q))) with [1%nat]. unfold step_machine.
    edestruct (ends_ok (update_magnets [1]%nat) (snd (register_magnets [1]%nat [] (MkType (Some (Fin (num 9))) None false None None) (ex_sc (T:=Q)))) tt) as (s'&E&E'); [vm_compute; reflexivity|].
    rewrite <- E'. eapply C18_twice. exact E. } split; [vm_compute; reflexivity|]. split; [vm_compute; reflexivity|]. split; [vm_compute; reflexivity|]. split; [vm_compute; reflexivity|].
  intros [H _]. apply (f_equal (fun r => attr_at (snd r) 1 "PolynomB")) in H. vm_compute in H. discriminate H.
Qed.
Print Assumptions C97_finding_left_behind.

(** the machine of C94 after the updates; the third call raises, as it has three set-points for two magnets *)
Local Open Scope R_scope.
Definition step_camp : list procedure :=
  [SetMagnets [1; 5]%nat DFloat [1/2; 1/3] false 1 "rel" true; SetCavities [4%nat] DFloat [7] false "abs"; SetCorrectors [1; 5]%nat DInt [1; 2; 3] false "abs";
   SetCorrectors [5%nat] DFloat [1] true "add"; TuneScan [1%nat] [5%nat] [1; 2] [1; 3] (1/2) 3 4 true 1; Stitch [] None None None 2 5; RfPhase None None 6;
   CorrectOrbit [] None None None 0 (1/2) 3 (1/4); FakeBba [[3%nat]] [[1%nat]] None None].
Lemma ex_registered : oMagnet (ORD ex_s2) = [1; 5]%nat /\ oRF (ORD ex_s2) = [4%nat] /\ oHCM (ORD ex_s2) = [1; 5]%nat /\ oVCM (ORD ex_s2) = [].
Proof. vm_compute. repeat split. Qed.
Lemma ex_two_a : forallb (fun i => of_two (attr_at ex_s2 i "SetPointA")) [1; 5]%nat = true.
Proof. vm_compute. reflexivity. Qed.
Lemma ex_setpoints_a i e : i ∈ [1; 5]%nat -> RING ex_s2 !! i = Some e -> array e "SetPointA" 2.
Proof.
  intros Hi He. pose proof ex_two_a as H. rewrite forallb_forall in H. apply elem_of_list_In, H in Hi. unfold attr_at in Hi. rewrite He in Hi. cbn in Hi.
  destruct (e !! "SetPointA") as [[]|] eqn:E; try discriminate Hi. destruct l as [|? [|? []]]; try discriminate Hi. eexists. split; [exact E|reflexivity].
Qed.
Lemma ex_in_order : in_order ex_s2.
Proof.
  destruct ex_registered as (E1&E2&_). unfold in_order. rewrite E1, E2. split; [|split].
  - assert (forall i, i ∈ [1; 5]%nat -> forall c, powers ex_s2 i c -> c = i) as H.
    { intros i Hi c [?|(l&Hl&_)]; [assumption|]. exfalso. pose proof ex_masters as Hm. rewrite forallb_forall in Hm. assert (In i (seq 0 7)) as Hin. { rewrite !elem_of_cons, elem_of_nil in Hi. apply in_seq. lia. }
      apply Hm in Hin. rewrite Hl in Hin. discriminate Hin. }
    intros c m m' Hm Hm' P P'. rewrite <- (H m Hm c P). rewrite (H m' Hm' c P'). reflexivity.
  - intros i Hi. apply ex_good; assumption.
  - intros i Hi. apply elem_of_list_singleton in Hi as ->. exact ex_cavity.
Qed.
Lemma ex_corrector i : i ∈ [1; 5]%nat -> i ∈ [1; 5]%nat /\ good_corrector ex_s2 i.
Proof. intros Hi. split; [assumption|]. apply ex_good; assumption. Qed.
Lemma ex_takes i : i ∈ [1; 5]%nat -> i ∈ [1; 5]%nat /\ has_order ex_s2 i false 1 /\ has_order ex_s2 i true 1 /\ maybe_at ex_s2 i "SkewQuadLimit" (fun v => exists l, v = VLim l) /\ (1%nat = 1%nat -> good_bend ex_s2 i).
Proof.
  intros Hi. destruct (ex_good i Hi) as ((A&_)&B&C). split; [assumption|]. destruct A as (m&_&_&Hm&_). split; [|split; [|split; [assumption|intros _; assumption]]].
  - exists m, 2%nat. split; [assumption|]. split; [apply (ex_setpoints i); assumption|lia].
  - exists m, 2%nat. split; [assumption|]. split; [apply (ex_setpoints_a i); assumption|lia].
Qed.
(** for any machine with these registries, so that nothing is computed *)
Lemma camp_addressed (s : sc R) : oMagnet (ORD s) = [1; 5]%nat -> oRF (ORD s) = [4%nat] -> oHCM (ORD s) = [1; 5]%nat -> oVCM (ORD s) = [] ->
  (forall i, i ∈ [1; 5]%nat -> good_corrector s i) ->
  (forall i, i ∈ [1; 5]%nat -> has_order s i false 1 /\ has_order s i true 1 /\ maybe_at s i "SkewQuadLimit" (fun v => exists l, v = VLim l) /\ (1%nat = 1%nat -> good_bend s i)) ->
  forall p, p ∈ step_camp -> well_addressed s p.
Proof.
  intros E1 E2 E3 E4 Hc Ht p Hp. unfold step_camp in Hp.
  assert (forall i, i ∈ oHCM (ORD s) ++ oVCM (ORD s) -> i ∈ [1; 5]%nat) as Hcm by (intros i; by rewrite E3, E4, app_nil_r).
  assert (forall i, i ∈ [1; 5]%nat -> i ∈ [1; 5]%nat /\ good_corrector s i) as Hc' by auto.
  assert (forall i, i ∈ [1; 5]%nat -> i ∈ [1; 5]%nat /\ has_order s i false 1 /\ has_order s i true 1 /\ maybe_at s i "SkewQuadLimit" (fun v => exists l, v = VLim l) /\ (1%nat = 1%nat -> good_bend s i)) as Ht' by auto.
  unfold well_addressed. rewrite E1, E2.
  repeat (apply elem_of_cons in Hp as [->|Hp]; [
    cbn [steered_by settings_of cavities_of both_planes cavities]; (split; [|split])|]); [..|by apply elem_of_nil in Hp].
  all: try (intros i Hi; by apply elem_of_nil in Hi).
  all: try (intros n i Hi; by apply elem_of_nil in Hi).
  all: try (intros i Hi; apply Hc'; first [exact (Hcm i Hi)|exact Hi|apply elem_of_list_singleton in Hi as ->; right; left]).
  all: try (intros n i Hi; apply in_pair in Hi as [-> Hi]; apply Ht'; exact Hi).
  all: try (intros i Hi; first [exact Hi|by rewrite E2 in Hi]).
  all: destruct (Req_EM_T (1 / 4) 0); intros i Hi; first [by apply elem_of_nil in Hi|exact Hi|by rewrite E2 in Hi].
Qed.
Example C97_case : in_order ex_s2 /\ forall p, p ∈ step_camp -> well_addressed ex_s2 p.
Proof.
  split; [exact ex_in_order|]. destruct ex_registered as (E1&E2&E3&E4). apply (camp_addressed ex_s2 E1 E2 E3 E4).
  - intros i Hi. exact (proj2 (ex_corrector i Hi)).
  - intros i Hi. exact (proj2 (ex_takes i Hi)).
Qed.
(** so the campaign, started after the two updates, ends in step for every accelerator physics the world may have *)
Example C97_case_ends w t : exists s1 s2, update_magnets_all ex_s2 = (Ok tt, s1) /\ update_cavities_all s1 = (Ok tt, s2) /\ in_step (campaign w t step_camp s2).
Proof.
  destruct (C97_updating ex_s2 ex_in_order) as (s1&s2&A1&A2&A3&A4&A5). exists s1, s2. split; [exact A1|]. split; [exact A2|].
  apply C97_fields_follow; [exact A4|exact A3|]. intros p Hp. apply A5. apply C97_case. exact Hp.
Qed.
