(** C22 - C24: the sign of corrector kicks, dipole compensation. *)
From Coq Require Import Reals Lra QArith.
From stdpp Require Import base gmap strings list.
From Verif Require Import Num Base Model_Arr Model_SC Model_Err Lemmas Proofs_Reg Proofs_Update Proofs_Setpoint Spec Proofs_CM Proofs_CM2 Proofs_Field
  Examples Properties_Setpoint3 Properties_Setpoint4 Properties_Field Properties_Update.
Local Open Scope string_scope.
Local Open Scope list_scope.

(** * Auxiliary: the expected field only depends on what updating does not write *)
Lemma not_field a : bool_decide (a ∈ field_attributes) = false -> a ∉ field_attributes.
Proof. by intros ?%bool_decide_eq_false. Qed.
Lemma expected_field_same (s s' : sc R) m c skew k :
  (forall i a, a ∉ field_attributes -> attr_at s' i a = attr_at s i a) -> expected_field s' m c skew k = expected_field s m c skew k.
Proof.
  intros H.
  assert (forall i a, bool_decide (a ∈ field_attributes) = false -> attr_at s' i a = attr_at s i a) as HB by (intros; apply H; by apply not_field).
  assert (forall sk j, driven s' m sk j = driven s m sk j) as Hd by (intros sk j; unfold driven, array_of; rewrite !HB by (by destruct sk); done).
  assert (forall sk sk', table_of s' c (systematic_name sk sk') = table_of s c (systematic_name sk sk')) as Ht
    by (intros sk sk'; unfold table_of; rewrite HB by (by destruct sk, sk'); done).
  assert (forall t sk, sum_over t (fun row : nat * list R => driven s' m sk row.1 * at0 row.2 k)%R = sum_over t (fun row => driven s m sk row.1 * at0 row.2 k)%R) as Hs.
  { intros t sk. induction t as [|x t IH]; simpl; [done|]. by rewrite IH, Hd. }
  unfold expected_field, systematic. rewrite Hd, !Ht, !Hs. f_equal; [f_equal; f_equal; unfold array_of; rewrite HB by (by destruct skew); done|].
  destruct skew; [done|]. destruct k; [|done]. unfold bending, number, array_of. rewrite !HB by reflexivity. rewrite Hd. done.
Qed.
Lemma frame_attr (I : nat -> string -> Prop) {T} (s s' : sc T) i a : frame I s s' -> ~ I i a -> attr_at s' i a = attr_at s i a.
Proof. intros F H. rewrite !attr_at_aget. by apply (frame_aget I). Qed.
Lemma update_keeps {T} {N : Num T} ords (s s' : sc T) u : update_magnets ords s = (Ok u, s') ->
  forall i a, a ∉ field_attributes -> attr_at s' i a = attr_at s i a.
Proof.
  intros H i a Ha. pose proof (update_magnets_frame ords s) as F. rewrite H in F. apply (frame_attr _ _ _ _ _ F). intros [Hd _].
  apply Ha. unfold der, DERIVED in Hd. unfold field_attributes. set_solver.
Qed.
Lemma powered_by_same {T} (s s' : sc T) ords m c : (forall i, attr_at s' i "MasterOf" = attr_at s i "MasterOf") -> powered_by s' ords m c <-> powered_by s ords m c.
Proof. intros H. unfold powered_by, child_of. setoid_rewrite H. done. Qed.

(** * C22 *)
Lemma entry_at0 (s : sc R) i a k x : entry s i a k = Some x -> at0 (array_of s i a) k = x.
Proof. unfold entry, array_of, at0. destruct (attr_at s i a) as [[]|]; try discriminate. by intros ->. Qed.

(** what errors add to the dipole component of the field *)
Definition error_terms (s : sc R) i (skew : bool) : R :=
  (at0 (array_of s i (offset_name skew)) 0 + systematic s i i skew 0 + (if skew then 0 else bending s i i))%R.
(** length with the sign of the plane; a thin corrector counts as length one *)
Definition kick_length (s : sc R) i (skew : bool) : option R :=
  match attr_at s i "PassMethod" with
  | Some (VStr pm) => if decide (pm = "CorrectorPass") then Some 1%R
                      else match number s i "Length" with Some len => Some (if skew then len else - len)%R | None => None end
  | _ => None
  end.
Lemma kick_length_norm (s : sc R) i e skew nb : RING s !! i = Some e -> norm_by skew e = Ok nb -> kick_length s i skew = Some nb.
Proof.
  intros He H. unfold norm_by in H. apply rbind_ok in H as (pm&Hpm&H). apply attr_str_ok in Hpm.
  unfold kick_length, number, attr_at. rewrite He. simpl. rewrite Hpm. destruct (decide (pm = "CorrectorPass")); [by injection H as <-|].
  apply rbind_ok in H as (len&Hlen&H). apply attr_num_ok in Hlen. rewrite Hlen. injection H as <-. f_equal. num_R. destruct skew; lra.
Qed.
(** After a corrector call of any kind, the dipole component of the actual field of an addressed corrector is its
    read-back value [v] divided by the length (negative length in the horizontal plane; one for thin correctors),
    times one plus the calibration error, plus the error terms. *)
Theorem C22_field_of_corrector ords dt sps skew method (s s' : sc R) u i v :
  set_cm_setpoints ords dt sps skew method s = (Ok u, s') -> powered_by s ords i i -> fits s i ->
  get_cm_setpoints [i] skew s' = Ok [v] ->
  exists len, kick_length s i skew = Some len /\ len <> 0%R /\
    entry s' i (field_name skew) 0 =
      Some (v / len * (1 + at0 (array_of s i (cal_name skew)) 0) + error_terms s' i skew)%R.
Proof.
  intros H Hp Hfit Hget. pose proof (set_cm_frame ords dt sps skew method s) as F. rewrite H in F. simpl in F.
  apply set_cm_ok in H as (l&s1&Hl&H1&H2).
  assert (forall j a, a ∉ field_attributes -> attr_at s' j a = attr_at s1 j a) as K21 by (by eapply update_keeps).
  assert (forall j a, a <> SP skew -> a ∉ field_attributes -> attr_at s' j a = attr_at s j a) as K20.
  { intros j a Ha Hf. apply (frame_attr _ _ _ _ _ F). intros [[? _]|[Hd _]]; [done|]. apply Hf. unfold der, DERIVED in Hd. unfold field_attributes. set_solver. }
  assert (powered_by s1 ords i i) as Hp1.
  { apply (powered_by_same s s1); [|done]. intros j. rewrite <- K21 by (by apply not_field). apply K20; [by destruct skew|by apply not_field]. }
  apply get_cm_one in Hget as (e'&He'&Hr). apply reading_ok in Hr as (sp&p&nb&Hsp&Hp0&Hnb&->).
  (* the division by the length succeeded in the loop *)
  assert (nb <> 0%R) as Hnz.
  { destruct Hp as (Hi&_). apply check_input_ok in Hl as (_&HL&_).
    assert (exists x, (i, x) ∈ zip ords l) as [x Hx].
    { apply elem_of_list_lookup in Hi as [k Hk]. destruct (lookup_lt_is_Some_2 l k) as [x Hx]; [rewrite HL; by eapply lookup_lt_Some|].
      exists x. apply elem_of_list_lookup. exists k. rewrite lookup_zip_with, Hk. simpl. by rewrite Hx. }
    assert (forall L t t', forM L (fun p : nat * R => on_elem p.1 (set_cm_one skew method dt p.2)) t = (Ok tt, t') -> (i, x) ∈ L ->
              (forall a, a <> SP skew -> attr_at t' i a = attr_at t i a) /\ exists e nb, RING t !! i = Some e /\ norm_by skew e = Ok nb /\ nb <> 0%R) as HLoop.
    { clear. intros L. induction L as [|[j y] L IH]; intros t t' Ht Hin; [by apply elem_of_nil in Hin|].
      cbn [forM] in Ht. apply bind_ok in Ht as (?&t1&Ht1&Ht).
      assert (forall M t2 t3, forM M (fun p : nat * R => on_elem p.1 (set_cm_one skew method dt p.2)) t2 = (Ok tt, t3) -> forall a, a <> SP skew -> attr_at t3 i a = attr_at t2 i a) as Hkeep.
      { intros M t2 t3 HM a Ha. assert (pres (frame (fun _ b => spE skew b)) (forM M (fun p : nat * R => on_elem p.1 (set_cm_one skew method dt p.2)))) as P.
        { apply pres_forM; [exact _|]. intros q _. apply pres_on_elem_frame, pres_set_cm_one. }
        specialize (P t2). rewrite HM in P. apply (frame_attr _ _ _ _ _ P). unfold spE. congruence. }
      assert (forall a, a <> SP skew -> attr_at t1 i a = attr_at t i a) as Hk1.
      { intros a Ha. apply (Hkeep [(j, y)]); [|done]. cbn [forM]. apply bind_ok. exists x0, t1. destruct x0. split; [done|]. reflexivity. }
      split; [intros a Ha; rewrite (Hkeep _ _ _ Ht a Ha); auto|].
      apply elem_of_cons in Hin as [[= <- <-]|Hin].
      - apply on_elem_ok in Ht1 as (e&e2&He&Hs&->). apply set_cm_one_ok in Hs as (l2&Hl2&->). apply cm_new_R in Hl2 as (nb&?&?&?&?&Hnb&Hnz&_). eauto.
      - destruct (IH _ _ Ht Hin) as (_&e&nb&He&Hnb&Hnz). destruct (RING t !! i) as [e0|] eqn:E0.
        + exists e0, nb. split; [done|]. split; [|done]. rewrite <- Hnb. apply norm_by_agree; [pose proof (Hk1 "PassMethod") as X|pose proof (Hk1 "Length") as X];
          unfold attr_at in X; rewrite He, E0 in X; simpl in X; rewrite X; done || (by destruct skew).
        + exfalso. pose proof (Hk1 "PassMethod") as X. unfold attr_at in X. rewrite He, E0 in X. simpl in X.
          unfold norm_by in Hnb. apply rbind_ok in Hnb as (pm&Hpm&_). apply attr_str_ok in Hpm. rewrite X in Hpm by (by destruct skew). discriminate. }
    destruct (HLoop _ _ _ H1 Hx) as (_&e&nb'&He&Hnb'&Hnz). enough (nb' = nb) as -> by done.
    assert (norm_by skew e' = norm_by skew e) as E.
    { apply norm_by_agree; [pose proof (K20 i "PassMethod") as X|pose proof (K20 i "Length") as X]; unfold attr_at in X; rewrite He, He' in X; simpl in X; apply X;
      first [by destruct skew|by apply not_field]. }
    rewrite Hnb, Hnb' in E. by injection E. }
  exists nb. split.
  { rewrite <- (kick_length_norm s' i e' skew nb He' Hnb). unfold kick_length, number. rewrite !K20 by first [by destruct skew|by apply not_field]. done. }
  split; [done|].
  assert (forall a, attr_at s' i a = e' !! a) as Ea by (intros; unfold attr_at; by rewrite He').
  assert (array_of s1 i (setpoint_name skew) = sp) as Esp.
  { unfold array_of. rewrite <- K21 by (apply not_field; by destruct skew). rewrite Ea, <- SP_name, Hsp. done. }
  assert (array_of s1 i (cal_name skew) = array_of s i (cal_name skew)) as Ecal.
  { unfold array_of. rewrite <- K21 by (apply not_field; by destruct skew). rewrite K20; [done|by destruct skew|apply not_field; by destruct skew]. }
  assert (fits s1 i) as Hfit1.
  { intros sk. assert (length (array_of s1 i (setpoint_name sk)) = length (array_of s i (setpoint_name sk)) /\ array_of s1 i (cal_name sk) = array_of s i (cal_name sk)) as [-> ->]; [|apply Hfit].
    split; [|unfold array_of; rewrite <- K21 by (apply not_field; by destruct sk); rewrite K20; [done|by destruct skew, sk|apply not_field; by destruct sk]].
    assert (forall L t t', forM L (fun p : nat * R => on_elem p.1 (set_cm_one skew method dt p.2)) t = (Ok tt, t') ->
              length (array_of t' i (setpoint_name sk)) = length (array_of t i (setpoint_name sk))) as HLoop; [|by apply HLoop in H1].
    { clear. intros L. induction L as [|[j y] L IH]; intros t t' Ht; [cbn in Ht; by injection Ht as <-|].
      cbn [forM] in Ht. apply bind_ok in Ht as (?&t1&Ht1&Ht). rewrite (IH _ _ Ht). apply on_elem_ok in Ht1 as (e&e2&He&Hs&->). simpl in *.
      apply set_cm_one_ok in Hs as (l2&Hl2&->). apply cm_new_R in Hl2 as (nb&sp&?&?&x2&_&_&Hsp&_&_&_&_&_&->).
      unfold array_of, attr_at. simpl. destruct (decide (i = j)) as [->|Hne].
      - rewrite list_lookup_insert by (by eapply lookup_lt_Some). rewrite He. simpl. destruct (decide (setpoint_name sk = SP skew)) as [->|Hsk].
        + rewrite lookup_insert, Hsp. by rewrite insert_length.
        + by rewrite lookup_insert_ne by done.
      - by rewrite list_lookup_insert_ne by done. } }
  destruct (C17_field _ _ _ _ _ _ skew H2 Hp1 Hfit1) as (q&Hq&HL&HK). unfold entry. rewrite Hq.
  assert (at0 q 0 = (p * nb / nb * (1 + at0 (array_of s i (cal_name skew)) 0) + error_terms s' i skew))%R as E0.
  { rewrite HK, <- (expected_field_same s1 s' i i skew 0 K21). unfold expected_field, error_terms, driven.
    assert (array_of s' i (setpoint_name skew) = sp) as -> by (unfold array_of; rewrite Ea, <- SP_name, Hsp; done).
    assert (array_of s' i (cal_name skew) = array_of s i (cal_name skew)) as -> by (unfold array_of; rewrite K20; [done|by destruct skew|apply not_field; by destruct skew]).
    assert (at0 sp 0 = p) as -> by (unfold at0; by rewrite Hp0). field_simplify_eq; [|done]. destruct skew; lra. }
  destruct q as [|q0 q].
  { exfalso. unfold expected_length, longest in HL. simpl in HL. rewrite Esp in HL. apply lookup_lt_Some in Hp0. lia. }
  simpl. f_equal. exact E0.
Qed.
(** the two planes of a thick corrector spelled out, and the thin corrector *)
Corollary C22_thick_horizontal ords dt sps method (s s' : sc R) u i v len pm :
  set_cm_setpoints ords dt sps false method s = (Ok u, s') -> powered_by s ords i i -> fits s i ->
  get_cm_setpoints [i] false s' = Ok [v] -> attr_at s i "PassMethod" = Some (VStr pm) -> pm <> "CorrectorPass" -> number s i "Length" = Some len ->
  entry s' i "PolynomB" 0 = Some (- v / len * (1 + at0 (array_of s i "CalErrorB") 0) + error_terms s' i false)%R.
Proof.
  intros H Hp Hf Hg Hpm Hne Hlen. destruct (C22_field_of_corrector _ _ _ _ _ _ _ _ _ _ H Hp Hf Hg) as (l&Hl&Hnz&He). simpl in He. rewrite He.
  unfold kick_length in Hl. rewrite Hpm, decide_False, Hlen in Hl by done. injection Hl as <-. f_equal. field. lra.
Qed.
Corollary C22_thick_vertical ords dt sps method (s s' : sc R) u i v len pm :
  set_cm_setpoints ords dt sps true method s = (Ok u, s') -> powered_by s ords i i -> fits s i ->
  get_cm_setpoints [i] true s' = Ok [v] -> attr_at s i "PassMethod" = Some (VStr pm) -> pm <> "CorrectorPass" -> number s i "Length" = Some len ->
  entry s' i "PolynomA" 0 = Some (v / len * (1 + at0 (array_of s i "CalErrorA") 0) + error_terms s' i true)%R.
Proof.
  intros H Hp Hf Hg Hpm Hne Hlen. destruct (C22_field_of_corrector _ _ _ _ _ _ _ _ _ _ H Hp Hf Hg) as (l&Hl&Hnz&He). simpl in He. rewrite He.
  unfold kick_length in Hl. rewrite Hpm, decide_False, Hlen in Hl by done. by injection Hl as <-.
Qed.
Corollary C22_thin ords dt sps skew method (s s' : sc R) u i v :
  set_cm_setpoints ords dt sps skew method s = (Ok u, s') -> powered_by s ords i i -> fits s i ->
  get_cm_setpoints [i] skew s' = Ok [v] -> attr_at s i "PassMethod" = Some (VStr "CorrectorPass") ->
  entry s' i (field_name skew) 0 = Some (v * (1 + at0 (array_of s i (cal_name skew)) 0) + error_terms s' i skew)%R /\
  entry s' i "KickAngle" 0 = entry s' i "PolynomB" 0 /\ entry s' i "KickAngle" 1 = entry s' i "PolynomA" 0.
Proof.
  intros H Hp Hf Hg Hpm. destruct (C22_field_of_corrector _ _ _ _ _ _ _ _ _ _ H Hp Hf Hg) as (l&Hl&Hnz&He). rewrite He.
  unfold kick_length in Hl. rewrite Hpm, decide_True in Hl by done. injection Hl as <-. split; [f_equal; field|].
  pose proof (set_cm_frame ords dt sps skew method s) as F. rewrite H in F. simpl in F. apply set_cm_ok in H as (lx&s1&_&_&H2).
  assert (forall j a, a <> SP skew -> a ∉ field_attributes -> attr_at s1 j a = attr_at s j a) as K.
  { intros j a Ha Hn. rewrite <- (update_keeps _ _ _ _ H2 j a Hn). apply (frame_attr _ _ _ _ _ F). intros [[? _]|[Hd _]]; [done|].
    apply Hn. unfold der, DERIVED in Hd. unfold field_attributes. set_solver. }
  assert (powered_by s1 ords i i) as Hp1 by (apply (powered_by_same s s1); [intros; apply K; [by destruct skew|by apply not_field]|done]).
  destruct (C17_order_and_kick _ _ _ _ _ _ H2 Hp1) as (a&b&Ha&Hb&_&Hk&_). destruct Hk as (b0&a0&Hb0&Ha0&Hka).
  { rewrite K; [done|by destruct skew|by apply not_field]. }
  unfold entry. by rewrite Ha, Hb, Hka.
Qed.

(** * C23, C24 *)
(** One compensated call on a bend registered as horizontal corrector, in terms of its set-points. *)
Lemma compensated_step (s s' : sc R) i x method th :
  set_magnet_setpoints [i] DFloat [x] false 1 method true s = (Ok tt, s') ->
  number s i "BendingAngle" = Some th -> th <> 0%R -> i ∈ oHCM (ORD s) ->
  exists sp p0 p1 g nom1 len, attr_at s i "SetPointB" = Some (VVec sp) /\ sp !! 0%nat = Some p0 /\ sp !! 1%nat = Some p1 /\
    entry s i "NomPolynomB" 1 = Some nom1 /\ nom1 <> 0%R /\ kick_length s i false = Some len /\ len <> 0%R /\
    attr_at s' i "SetPointB" = Some (VVec (<[1%nat := g]> (<[0%nat := (clipped (cm_limit s i false) ((g - p1) / nom1 * th + p0 * len) / len)%R]> sp))) /\
    (forall j a, ~ (j = i /\ a = "SetPointB") -> a ∉ field_attributes -> attr_at s' j a = attr_at s j a) /\
    ORD s' = ORD s /\
    exists s1, update_magnets [i] s1 = (Ok tt, s') /\ forall j a, a ∉ field_attributes -> attr_at s' j a = attr_at s1 j a.
Proof.
  intros H Hth Hnz Hi. pose proof (pres_set_magnet [i] DFloat [x] false 1 method true s) as FO. rewrite H in FO. simpl in FO.
  apply set_magnet_ok in H as (l&s1&Hl&Hf&Hu).
  assert (exists g, l = [g]) as [g ->].
  { unfold magnet_targets in Hl. apply rbind_ok in Hl as (sps&Hsps&Hl). apply check_input_ok in Hsps as (_&HL&_). simpl in HL.
    destruct sps as [|y [|? ?]]; simpl in HL; try lia.
    destruct (decide (method = REL)); [|destruct (decide (method = ADD))].
    - apply rbind_ok in Hl as (ns&Hns&Hl). apply rmap_ok in Hns. inversion Hns as [|? n0 ? ns' Hn Hns']; subst. inversion Hns'; subst. simpl in Hl. injection Hl as <-. eauto.
    - apply rbind_ok in Hl as (ns&Hns&Hl). apply rmap_ok in Hns. inversion Hns as [|? n0 ? ns' Hn Hns']; subst. inversion Hns'; subst. simpl in Hl. injection Hl as <-. eauto.
    - injection Hl as <-. eauto. }
  cbn [zip zip_with forM] in Hf. apply bind_ok in Hf as ([]&s1'&Hone&Hr). apply ret_ok in Hr as [_ ->]. simpl in Hone.
  rewrite set_magnet_one_run in Hone. destruct (RING s !! i) as [e|] eqn:Ee; [|discriminate]. cbn [clip_skew andb] in Hone. unfold clip_skew in Hone. simpl in Hone.
  apply bind_ok in Hone as ([]&s2&Hdc&Hset). cbn [when] in Hdc.
  assert (forall a, attr_at s i a = e !! a) as Ea by (intros; unfold attr_at; by rewrite Ee).
  (* the compensation *)
  unfold dipole_compensation in Hdc. apply bind_ok in Hdc as (e0&s2'&He0&Hdc). apply ring_elem_ok in He0 as [He0 ->]. rewrite Ee in He0. injection He0 as <-.
  apply bind_ok in Hdc as (th0&s2'&Hth0&Hdc). apply lift_ok in Hth0 as [Hth0 ->].
  assert (th0 = th) as ->. { unfold number in Hth. rewrite Ea in Hth. destruct (e !! "BendingAngle") as [[]|]; try discriminate. simpl in Hth0. congruence. }
  apply bind_ok in Hdc as (sg&s2'&Hsg&Hdc). apply get_ok in Hsg as [-> ->].
  assert (negb (neqb th n0) = true) as E1. { num_R. destruct (Reqb th 0) eqn:E; [apply Reqb_true in E; done|done]. }
  rewrite E1, bool_decide_true in Hdc by done. cbn [andb] in Hdc.
  apply bind_ok in Hdc as (sp&s2'&Hsp&Hdc). apply lift_ok in Hsp as [Hsp ->]. apply attr_vec_ok in Hsp.
  apply bind_ok in Hdc as (p1&s2'&Hp1&Hdc). apply lift_ok in Hp1 as [Hp1 ->]. apply idx_ok in Hp1.
  apply bind_ok in Hdc as (nom&s2'&Hnom&Hdc). apply lift_ok in Hnom as [Hnom ->]. apply attr_vec_ok in Hnom.
  apply bind_ok in Hdc as (nom1&s2'&Hnom1&Hdc). apply lift_ok in Hnom1 as [Hnom1 ->]. apply idx_ok in Hnom1.
  apply bind_ok in Hdc as (q&s2'&Hq&Hdc). apply lift_ok in Hq as [Hq ->]. apply qdivR_ok in Hq as [-> Hnom1z].
  pose proof (set_cm_frame [i] DFloat [nmul (nsub g p1 / nom1)%R th] false ADD s) as F. rewrite Hdc in F. simpl in F.
  apply set_cm_ok in Hdc as (l2&s3&Hl2&Hcm&Hu2). apply check_input_ok in Hl2 as (_&HL2&Hl2). simpl in HL2.
  assert (l2 = [nmul (nsub g p1 / nom1)%R th]) as ->. { destruct Hl2 as [->|(y&[= <-]&->)]; done. }
  cbn [zip zip_with forM] in Hcm. apply bind_ok in Hcm as ([]&s3'&Hcm&Hr). apply ret_ok in Hr as [_ ->]. simpl in Hcm.
  apply on_elem_ok in Hcm as (e1&e2&He1&Hs&->). rewrite Ee in He1. injection He1 as <-.
  apply set_cm_one_ok in Hs as (l3&Hl3&->). apply cm_new_R in Hl3 as (nb&sp'&p0&x1&x2&Hnb&Hnbz&Hsp'&Hp0&_&Hadd&_&Hcl&->).
  change (SP false) with "SetPointB" in *. rewrite Hsp in Hsp'. injection Hsp' as <-. rewrite (Hadd eq_refl) in Hcl. cbn [store] in Hcl.
  apply clip_cm_float in Hcl. rewrite <- (cm_limit_elim s i e false Ee) in Hcl. subst x2. num_R.
  (* the gradient *)
  assert (attr_at s2 i "SetPointB" = Some (VVec (<[0%nat:=(clipped (cm_limit s i false) ((g - p1) / nom1 * th + p0 * nb) / nb)%R]> sp))) as Hs2.
  { rewrite (update_keeps _ _ _ _ Hu2) by (by apply not_field). unfold attr_at. simpl. rewrite list_lookup_insert by (by eapply lookup_lt_Some).
    simpl. by rewrite lookup_insert. }
  apply on_elem_ok in Hset as (e3&e4&He3&Hse&->). unfold set_sp_entry in Hse. apply bind_ok in Hse as (sp3&e3'&Hsp3&Hse). apply getm_ok in Hsp3 as [Hsp3 ->]. apply attr_vec_ok in Hsp3.
  apply bind_ok in Hse as (sp4&e3'&Hsp4&Hse). apply lift_ok in Hsp4 as [Hsp4 ->]. apply idx_set_ok in Hsp4 as [_ ->]. apply setattr_ok in Hse as ->.
  unfold attr_at in Hs2. rewrite He3 in Hs2. simpl in Hs2. change (SP false) with "SetPointB" in *. rewrite Hsp3 in Hs2. injection Hs2 as ->.
  exists sp, p0, p1, g, nom1, nb. rewrite Ea. do 3 (split; [done|]).
  split; [unfold entry; rewrite Ea, Hnom; done|]. split; [done|]. split; [by eapply kick_length_norm|]. split; [done|].
  split. { rewrite (update_keeps _ _ _ _ Hu) by (by apply not_field). unfold attr_at. simpl. rewrite list_lookup_insert by (by eapply lookup_lt_Some). simpl. by rewrite lookup_insert. }
  split.
  { intros j a Hja Ha. rewrite (update_keeps _ _ _ _ Hu j a Ha).
    assert (attr_at s2 j a = attr_at s j a) as <-.
    { apply (frame_attr _ _ _ _ _ F). intros [[-> Hin]|[Hd _]]; [apply elem_of_list_singleton in Hin as ->; by apply Hja|].
      apply Ha. unfold der, DERIVED in Hd. unfold field_attributes. set_solver. }
    unfold attr_at. simpl. destruct (decide (j = i)) as [->|Hne].
    - rewrite list_lookup_insert by (by eapply lookup_lt_Some). rewrite He3. simpl. apply lookup_insert_ne. intros <-. by apply Hja.
    - by rewrite list_lookup_insert_ne by done. }
  split; [by destruct FO as (_&_&_&?&_)|].
  eexists. split; [exact Hu|]. by eapply update_keeps.
Qed.

(** Specification: the actual dipole field agrees with the set-points and errors (as after any update). *)
Definition up_to_date (s : sc R) i : Prop := entry s i "PolynomB" 0 = Some (expected_field s i i false 0).
Definition combined_function (s : sc R) i : Prop := attr_at s i "CombinedFunction" = Some (VBool true).
Definition within_limit (limit : option R) (x : R) : Prop := match limit with None => True | Some l => (Rabs x <= Rabs l)%R end.
Lemma clipped_within limit x : within_limit limit x -> clipped limit x = x.
Proof. destruct limit as [l|]; simpl; [|done]. intros H. by destruct (Rle_dec (Rabs x) (Rabs l)). Qed.

(** Whatever the flag: what the gradient adds (only with CombinedFunction) minus what the corrector takes away. *)
Theorem C23_dipole_field_any (s s' : sc R) i x method th len v g0 g1 nom1 b0 pm :
  set_magnet_setpoints [i] DFloat [x] false 1 method true s = (Ok tt, s') ->
  up_to_date s i -> fits s i -> table_of s i "SysPolBFromB" = [] ->
  number s i "BendingAngle" = Some th -> th <> 0%R -> number s i "Length" = Some len ->
  attr_at s i "PassMethod" = Some (VStr pm) -> pm <> "CorrectorPass" -> i ∈ oHCM (ORD s) ->
  get_cm_setpoints [i] false s = Ok [v] -> entry s i "SetPointB" 1 = Some g0 -> entry s' i "SetPointB" 1 = Some g1 ->
  entry s i "NomPolynomB" 1 = Some nom1 -> entry s i "PolynomB" 0 = Some b0 ->
  within_limit (cm_limit s i false) (v + (g1 - g0) / nom1 * th)%R ->
  entry s' i "PolynomB" 0 =
    Some (b0 + ((match attr_at s i "CombinedFunction" with Some (VBool true) => 1 + at0 (array_of s i "CalErrorB") 1 | _ => 0 end)
             - (1 + at0 (array_of s i "CalErrorB") 0)) * ((g1 - g0) / nom1 * th / len))%R.
Proof.
  intros H Hup Hfit Htab Hth Hthz Hlen Hpm Hpmn Hi Hget Hg0 Hg1 Hnom Hb0 Hw.
  destruct (compensated_step _ _ _ _ _ _ H Hth Hthz Hi) as (sp&p0&p1&g&nom1'&kl&Hsp&Hp0&Hp1&Hnom'&Hnz&Hkl&Hklz&Hsp'&Hkeep&_&s1&Hu&Hs1).
  rewrite Hnom in Hnom'. injection Hnom' as <-.
  unfold kick_length in Hkl. rewrite Hpm, decide_False, Hlen in Hkl by done. injection Hkl as <-.
  unfold entry in Hg0. rewrite Hsp, Hp1 in Hg0. injection Hg0 as <-.
  unfold entry in Hg1. rewrite Hsp', list_lookup_insert in Hg1 by (rewrite insert_length; by eapply lookup_lt_Some). injection Hg1 as <-.
  assert (v = p0 * - len)%R as ->.
  { apply get_cm_one in Hget as (e&He&Hr). apply reading_ok in Hr as (spx&p&nb&Hspx&Hpx&Hnb&->). apply (kick_length_norm s i e false nb He) in Hnb.
    unfold kick_length in Hnb. rewrite Hpm, decide_False, Hlen in Hnb by done. injection Hnb as <-.
    unfold attr_at in Hsp. rewrite He in Hsp. simpl in Hsp. change (SP false) with "SetPointB" in Hspx. rewrite Hsp in Hspx. injection Hspx as <-. rewrite Hp0 in Hpx. injection Hpx as <-. done. }
  rewrite clipped_within in Hsp' by (rewrite Rplus_comm; exact Hw).
  assert (1 < length sp) as HL by (by eapply lookup_lt_Some).
  assert (array_of s' i "SetPointB" = <[1%nat:=g]> (<[0%nat:=(((g - p1) / nom1 * th + p0 * - len) / - len)%R]> sp)) as Asp by (unfold array_of; by rewrite Hsp').
  assert (forall a, a <> "SetPointB" -> bool_decide (a ∈ field_attributes) = false -> attr_at s' i a = attr_at s i a) as HK.
  { intros a Ha Hf. apply Hkeep; [intros [_ ?]; done|by apply not_field]. }
  assert (powered_by s1 [i] i i) as Hpow.
  { split; [left|]. split; [by left|]. intros m' Hm' _. by apply elem_of_list_singleton in Hm'. }
  assert (fits s1 i) as Hfit1.
  { intros sk. destruct sk; simpl.
    - pose proof (Hfit true) as Hf. simpl in Hf. unfold array_of in *. rewrite <- !Hs1 by (by apply not_field). rewrite !HK by done. exact Hf.
    - right. unfold array_of. rewrite <- Hs1 by (by apply not_field). rewrite Hsp', !insert_length. lia. }
  destruct (C17_field _ _ _ _ _ _ false Hu Hpow Hfit1) as (q&Hq&HLq&HKq). simpl in Hq. unfold entry. rewrite Hq.
  assert (at0 q 0 = b0 + ((match attr_at s i "CombinedFunction" with Some (VBool true) => 1 + at0 (array_of s i "CalErrorB") 1 | _ => 0 end)
             - (1 + at0 (array_of s i "CalErrorB") 0)) * ((g - p1) / nom1 * th / len))%R as E.
  { rewrite HKq, <- (expected_field_same s1 s' i i false 0 Hs1). unfold up_to_date in Hup. rewrite Hb0 in Hup. injection Hup as ->.
    unfold expected_field, systematic, bending.
    assert (forall sk k, sk = true -> driven s' i sk k = driven s i sk k) as Hd.
    { intros sk k ->. unfold driven, array_of. simpl. rewrite !HK by done. done. }
    assert (forall t, sum_over t (fun row : nat * list R => driven s' i true row.1 * at0 row.2 0)%R = sum_over t (fun row => driven s i true row.1 * at0 row.2 0)%R) as Hs.
    { intros t. induction t as [|y t IH]; simpl; [done|]. by rewrite IH, Hd. }
    rewrite Hs. simpl (systematic_name _ _). simpl (offset_name _).
    assert (table_of s' i "SysPolBFromB" = []) as -> by (unfold table_of in *; by rewrite HK).
    assert (table_of s' i "SysPolBFromA" = table_of s i "SysPolBFromA") as -> by (unfold table_of; by rewrite HK).
    assert (array_of s' i "PolynomBOffset" = array_of s i "PolynomBOffset") as -> by (unfold array_of; by rewrite HK).
    rewrite Htab. unfold number in *. rewrite !HK by done.
    destruct (attr_at s i "BendingAngle") as [[]|] eqn:EBA; try discriminate. injection Hth as ->.
    destruct (attr_at s i "Length") as [[]|] eqn:ELen; try discriminate. injection Hlen as ->.
    unfold driven. simpl (setpoint_name _). simpl (cal_name _). simpl (nominal_name _). rewrite Asp.
    assert (array_of s' i "CalErrorB" = array_of s i "CalErrorB") as -> by (unfold array_of; by rewrite HK).
    assert (array_of s' i "NomPolynomB" = array_of s i "NomPolynomB") as -> by (unfold array_of; by rewrite HK).
    rewrite (entry_at0 _ _ _ _ _ Hnom). assert (array_of s i "SetPointB" = sp) as -> by (unfold array_of; by rewrite Hsp).
    assert (at0 sp 0 = p0) as -> by (unfold at0; by rewrite Hp0). assert (at0 sp 1 = p1) as -> by (unfold at0; by rewrite Hp1).
    assert (at0 (<[1%nat:=g]> (<[0%nat:=(((g - p1) / nom1 * th + p0 * - len) / - len)%R]> sp)) 0 = (((g - p1) / nom1 * th + p0 * - len) / - len)%R) as ->.
    { unfold at0. rewrite list_lookup_insert_ne by done. rewrite list_lookup_insert by lia. done. }
    assert (at0 (<[1%nat:=g]> (<[0%nat:=(((g - p1) / nom1 * th + p0 * - len) / - len)%R]> sp)) 1 = g) as ->.
    { unfold at0. rewrite list_lookup_insert by (rewrite insert_length; lia). done. }
    simpl (sum_over [] _).
    destruct (match attr_at s i "BendingAngleError" with Some (VNum x0) => Some x0 | _ => None end);
      destruct (attr_at s i "CombinedFunction") as [[ | | | |[] | | | | | | ]|]; field; lra. }
  destruct q as [|q0 q]; [exfalso|simpl; f_equal; exact E].
  unfold expected_length, longest in HLq. simpl in HLq. assert (array_of s1 i "SetPointB" = array_of s' i "SetPointB") as EE by (unfold array_of; by rewrite Hs1 by (by apply not_field)).
  rewrite EE, Asp, !insert_length in HLq. lia.
Qed.
(** The bend's dipole component changes by the angle difference over the length, times (c1 - c0): nothing when the
    calibration errors of the two components agree. *)
Corollary C23_dipole_field (s s' : sc R) i x method th len v g0 g1 nom1 b0 pm :
  set_magnet_setpoints [i] DFloat [x] false 1 method true s = (Ok tt, s') ->
  up_to_date s i -> fits s i -> combined_function s i -> table_of s i "SysPolBFromB" = [] ->
  number s i "BendingAngle" = Some th -> th <> 0%R -> number s i "Length" = Some len ->
  attr_at s i "PassMethod" = Some (VStr pm) -> pm <> "CorrectorPass" -> i ∈ oHCM (ORD s) ->
  get_cm_setpoints [i] false s = Ok [v] -> entry s i "SetPointB" 1 = Some g0 -> entry s' i "SetPointB" 1 = Some g1 ->
  entry s i "NomPolynomB" 1 = Some nom1 -> entry s i "PolynomB" 0 = Some b0 ->
  within_limit (cm_limit s i false) (v + (g1 - g0) / nom1 * th)%R ->
  entry s' i "PolynomB" 0 =
    Some (b0 + (at0 (array_of s i "CalErrorB") 1 - at0 (array_of s i "CalErrorB") 0) * ((g1 - g0) / nom1 * th / len))%R.
Proof. intros ? ? ? Hcf. intros. erewrite C23_dipole_field_any; eauto. rewrite Hcf. f_equal. lra. Qed.
(** The finding: for a bend that was not registered as combined-function magnet the compensation itself changes the
    bending field, by the full angle difference. *)
Corollary C23_finding_without_flag (s s' : sc R) i x method th len v g0 g1 nom1 b0 pm :
  set_magnet_setpoints [i] DFloat [x] false 1 method true s = (Ok tt, s') ->
  up_to_date s i -> fits s i -> attr_at s i "CombinedFunction" <> Some (VBool true) -> table_of s i "SysPolBFromB" = [] ->
  number s i "BendingAngle" = Some th -> th <> 0%R -> number s i "Length" = Some len ->
  attr_at s i "PassMethod" = Some (VStr pm) -> pm <> "CorrectorPass" -> i ∈ oHCM (ORD s) ->
  get_cm_setpoints [i] false s = Ok [v] -> entry s i "SetPointB" 1 = Some g0 -> entry s' i "SetPointB" 1 = Some g1 ->
  entry s i "NomPolynomB" 1 = Some nom1 -> entry s i "PolynomB" 0 = Some b0 ->
  within_limit (cm_limit s i false) (v + (g1 - g0) / nom1 * th)%R ->
  entry s' i "PolynomB" 0 = Some (b0 - (1 + at0 (array_of s i "CalErrorB") 0) * ((g1 - g0) / nom1 * th / len))%R.
Proof. intros ? ? ? Hcf. intros. erewrite C23_dipole_field_any; eauto. destruct (attr_at s i "CombinedFunction") as [[ | | | |[] | | | | | | ]|]; try done; f_equal; lra. Qed.
Corollary C23_equal_calibration (s s' : sc R) i x method th len v g0 g1 nom1 b0 pm :
  set_magnet_setpoints [i] DFloat [x] false 1 method true s = (Ok tt, s') ->
  up_to_date s i -> fits s i -> combined_function s i -> table_of s i "SysPolBFromB" = [] ->
  number s i "BendingAngle" = Some th -> th <> 0%R -> number s i "Length" = Some len ->
  attr_at s i "PassMethod" = Some (VStr pm) -> pm <> "CorrectorPass" -> i ∈ oHCM (ORD s) ->
  get_cm_setpoints [i] false s = Ok [v] -> entry s i "SetPointB" 1 = Some g0 -> entry s' i "SetPointB" 1 = Some g1 ->
  entry s i "NomPolynomB" 1 = Some nom1 -> entry s i "PolynomB" 0 = Some b0 ->
  within_limit (cm_limit s i false) (v + (g1 - g0) / nom1 * th)%R ->
  at0 (array_of s i "CalErrorB") 1 = at0 (array_of s i "CalErrorB") 0 ->
  entry s' i "PolynomB" 0 = Some b0.
Proof.
  intros. erewrite C23_dipole_field; eauto. f_equal. match goal with E : at0 _ 1 = at0 _ 0 |- _ => rewrite E end. lra.
Qed.

(** * C24 *)
(** a history of compensated gradient changes on one bend; no corrector limit is hit on the way *)
Inductive scan (i : nat) (th : R) : sc R -> sc R -> Prop :=
| scan_none s : scan i th s s
| scan_step s s' s'' x method v g0 g1 nom1 :
    set_magnet_setpoints [i] DFloat [x] false 1 method true s = (Ok tt, s') ->
    get_cm_setpoints [i] false s = Ok [v] -> entry s i "SetPointB" 1 = Some g0 -> entry s' i "SetPointB" 1 = Some g1 ->
    entry s i "NomPolynomB" 1 = Some nom1 -> within_limit (cm_limit s i false) (v + (g1 - g0) / nom1 * th)%R ->
    scan i th s' s'' -> scan i th s s''.
Lemma scan_one (s s' : sc R) i x method th v g0 g1 nom1 :
  set_magnet_setpoints [i] DFloat [x] false 1 method true s = (Ok tt, s') ->
  number s i "BendingAngle" = Some th -> th <> 0%R -> i ∈ oHCM (ORD s) ->
  get_cm_setpoints [i] false s = Ok [v] -> entry s i "SetPointB" 1 = Some g0 -> entry s' i "SetPointB" 1 = Some g1 ->
  entry s i "NomPolynomB" 1 = Some nom1 -> within_limit (cm_limit s i false) (v + (g1 - g0) / nom1 * th)%R ->
  get_cm_setpoints [i] false s' = Ok [(v + (g1 - g0) / nom1 * th)%R] /\ nom1 <> 0%R /\
  number s' i "BendingAngle" = Some th /\ i ∈ oHCM (ORD s') /\ entry s' i "NomPolynomB" 1 = Some nom1.
Proof.
  intros H Hth Hthz Hi Hget Hg0 Hg1 Hnom Hw.
  destruct (compensated_step _ _ _ _ _ _ H Hth Hthz Hi) as (sp&p0&p1&g&nom1'&kl&Hsp&Hp0&Hp1&Hnom'&Hnz&Hkl&Hklz&Hsp'&Hkeep&HO&_).
  rewrite Hnom in Hnom'. injection Hnom' as <-.
  unfold entry in Hg0. rewrite Hsp, Hp1 in Hg0. injection Hg0 as <-.
  unfold entry in Hg1. rewrite Hsp', list_lookup_insert in Hg1 by (rewrite insert_length; by eapply lookup_lt_Some). injection Hg1 as <-.
  assert (forall a, a <> "SetPointB" -> bool_decide (a ∈ field_attributes) = false -> attr_at s' i a = attr_at s i a) as HK.
  { intros a Ha Hf. apply Hkeep; [intros [_ ?]; done|by apply not_field]. }
  apply get_cm_one in Hget as (e&He&Hr). apply reading_ok in Hr as (spx&p&nb&Hspx&Hpx&Hnb&->).
  pose proof (kick_length_norm s i e false nb He Hnb) as Hkl'. rewrite Hkl in Hkl'. injection Hkl' as <-.
  assert (forall a, attr_at s i a = e !! a) as Ea by (intros; unfold attr_at; by rewrite He).
  change (SP false) with "SetPointB" in Hspx. rewrite <- Ea, Hsp in Hspx. injection Hspx as <-. rewrite Hp0 in Hpx. injection Hpx as <-.
  rewrite clipped_within in Hsp' by (rewrite Rplus_comm; exact Hw).
  split; [|split; [done|]; split; [unfold number in *; by rewrite HK|split; [by rewrite HO|unfold entry in *; by rewrite HK]]].
  apply get_cm_one. unfold attr_at in Hsp'. destruct (RING s' !! i) as [e'|] eqn:He'; [|discriminate]. exists e'. split; [done|].
  apply reading_ok. eexists _, _, kl. split; [exact Hsp'|]. split.
  { rewrite list_lookup_insert_ne by done. apply list_lookup_insert. by eapply lookup_lt_Some. }
  split; [|field; done]. rewrite <- Hnb. assert (forall a, attr_at s' i a = e' !! a) as Ea' by (intros; unfold attr_at; by rewrite He').
  apply norm_by_agree; rewrite <- Ea', <- Ea; by apply HK.
Qed.
(** The corrector reading depends only on the gradient reached, so a scan that returns restores it. *)
Theorem C24_corrector_follows_gradient i th (s s' : sc R) v g0 g1 nom1 :
  scan i th s s' -> number s i "BendingAngle" = Some th -> th <> 0%R -> i ∈ oHCM (ORD s) ->
  get_cm_setpoints [i] false s = Ok [v] -> entry s i "SetPointB" 1 = Some g0 -> entry s' i "SetPointB" 1 = Some g1 ->
  entry s i "NomPolynomB" 1 = Some nom1 ->
  get_cm_setpoints [i] false s' = Ok [(v + (g1 - g0) / nom1 * th)%R].
Proof.
  intros Hscan. revert v g0. induction Hscan as [s|s s1 s2 x method v1 a b n H1 H2 H3 H4 H5 H6 Hs IH]; intros v g0 Hth Hthz Hi Hget Hg0 Hg1 Hnom.
  - rewrite Hg0 in Hg1. injection Hg1 as <-. rewrite Hget. do 2 f_equal. unfold Rdiv. ring.
  - rewrite Hget in H2. injection H2 as <-. rewrite Hg0 in H3. injection H3 as <-. rewrite Hnom in H5. injection H5 as <-.
    destruct (scan_one _ _ _ _ _ _ _ _ _ _ H1 Hth Hthz Hi Hget Hg0 H4 Hnom H6) as (G&Hnz&T1&T2&T3).
    rewrite (IH _ _ T1 Hthz T2 G H4 Hg1 T3). do 2 f_equal. field. done.
Qed.
Corollary C24_closed_scan_restores i th (s s' : sc R) v g0 nom1 :
  scan i th s s' -> number s i "BendingAngle" = Some th -> th <> 0%R -> i ∈ oHCM (ORD s) ->
  get_cm_setpoints [i] false s = Ok [v] -> entry s i "SetPointB" 1 = Some g0 -> entry s' i "SetPointB" 1 = Some g0 ->
  entry s i "NomPolynomB" 1 = Some nom1 -> get_cm_setpoints [i] false s' = Ok [v].
Proof.
  intros. erewrite C24_corrector_follows_gradient; eauto. do 2 f_equal. unfold Rdiv. ring.
Qed.

(** * Examples *)
(** ordinate 5: bend (angle 2, length 4, gradient 5) registered as horizontal and vertical corrector *)
Definition comp_machine (cf : bool) {T} `{Num T} : sc T :=
  let s := snd (register_magnets [5; 2]%nat [] (MkType (Some (Fin (num 100))) (Some (Fin (num 100))) cf None None) ex_sc) in
  let b := default ∅ (RING s !! 5%nat) in
  set_RING (<[5%nat := <["CalErrorB" := VVec [num 1; num 2]]> (<["CalErrorA" := VVec [num 1; num 0]]> b)]> (RING s)) s.
Definition comp_started cf : sc Q := snd (update_magnets [5%nat] (comp_machine cf)).
(** corrector calls: thick magnet (length 4, calibration error 1) and thin corrector *)
Example C22_case :
  let s := comp_machine true : sc Q in
  let r := set_cm_setpoints [5; 2]%nat DFloat [3; 7]%Q false "abs" s in
  let r' := set_cm_setpoints [5; 2]%nat DFloat [3; 7]%Q true "abs" s in
  fst r = Ok tt /\ get_cm_setpoints [5%nat] false (snd r) = Ok [3%Q] /\
  (* -3/4 * 2, plus the bending term (15/5 * 2 - 2) / 4 = 1 *)
  attr_at (snd r) 5 "PolynomB" = Some (VVec [-1 # 2; 15]%Q) /\ attr_at (snd r) 2 "KickAngle" = Some (VVec [7; 0]%Q) /\
  fst r' = Ok tt /\ attr_at (snd r') 5 "PolynomA" = Some (VVec [3 # 2; 0]%Q) /\ attr_at (snd r') 2 "KickAngle" = Some (VVec [0; 7]%Q).
Proof. vm_compute. repeat split. Qed.
(** a compensated gradient change 5 -> 10: angle difference 2, corrector reading 2, field change (2 - 1) * 2 / 4 with
    the flag and - (1 + 1) * 2 / 4 without *)
Example C23_case :
  let s := comp_started true in
  let r := set_magnet_setpoints [5%nat] DFloat [2%Q] false 1 "rel" true s in
  fst r = Ok tt /\ attr_at s 5 "PolynomB" = Some (VVec [1; 15]%Q) /\ get_cm_setpoints [5%nat] false s = Ok [0%Q] /\
  get_cm_setpoints [5%nat] false (snd r) = Ok [2%Q] /\ attr_at (snd r) 5 "PolynomB" = Some (VVec [3 # 2; 30]%Q) /\
  cm_limit s 5 false = Some 100%Q /\ attr_at s 5 "CombinedFunction" = Some (VBool true) /\ 5%nat ∈ oHCM (ORD s).
Proof. vm_compute. repeat split. right. left. Qed.
Example C23_case_without_flag :
  let s := comp_started false in
  let r := set_magnet_setpoints [5%nat] DFloat [2%Q] false 1 "rel" true s in
  fst r = Ok tt /\ attr_at s 5 "PolynomB" = Some (VVec [0; 15]%Q) /\
  get_cm_setpoints [5%nat] false (snd r) = Ok [2%Q] /\ attr_at (snd r) 5 "PolynomB" = Some (VVec [-1; 30]%Q).
Proof. vm_compute. repeat split. Qed.
(** a scan 5 -> 10 -> 4 -> 5 by three different methods *)
Example C24_case :
  let s := comp_started true in
  let r1 := set_magnet_setpoints [5%nat] DFloat [2%Q] false 1 "rel" true s in
  let r2 := set_magnet_setpoints [5%nat] DFloat [4%Q] false 1 "abs" true (snd r1) in
  let r3 := set_magnet_setpoints [5%nat] DFloat [1%Q] false 1 "add" true (snd r2) in
  fst r1 = Ok tt /\ fst r2 = Ok tt /\ get_cm_setpoints [5%nat] false (snd r2) = Ok [(-2) # 5]%Q /\
  match attr_at (snd r3) 5 "SetPointB" with Some (VVec [_; g]) => g = 5%Q | _ => False end /\ fst r3 = Ok tt /\
  get_cm_setpoints [5%nat] false (snd r3) = Ok [0%Q].
Proof. vm_compute. repeat split. Qed.
Print Assumptions C22_field_of_corrector.
Print Assumptions C22_thick_horizontal.
Print Assumptions C22_thick_vertical.
Print Assumptions C22_thin.
Print Assumptions C23_dipole_field_any.
Print Assumptions C23_dipole_field.
Print Assumptions C23_finding_without_flag.
Print Assumptions C23_equal_calibration.
Print Assumptions C24_corrector_follows_gradient.
Print Assumptions C24_closed_scan_restores.
