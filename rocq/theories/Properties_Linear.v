(** C75: orbit correction on a machine whose readings depend on the corrector settings by an affine map. *)
From Coq Require Import Reals Lra Lia QArith ZArith Sorting.Sorted.
From stdpp Require Import base gmap strings list.
From Verif Require Import Num Base Model_Arr Model_SC Model_Err Model_Beam Model_Orbit Lemmas Proofs_Update Proofs_Setpoint Proofs_Beam Proofs_Mat Spec Proofs_CM Proofs_CM2 Proofs_Loop2 Properties_Setpoint Properties_Random Properties_Beam Properties_Beam2 Properties_Orbit Properties_Thread.
Local Open Scope string_scope.
Local Open Scope list_scope.
Local Open Scope R_scope.

(** * Specification *)

(** settings of all correctors of both planes *)
Definition settings (cms : list nat * list nat) (s : sc R) (v : list R) : Prop :=
  Forall2 (fun c x => setting false s c = Some x) cms.1 (take (length cms.1) v) /\ Forall2 (fun c x => setting true s c = Some x) cms.2 (drop (length cms.1) v).
(** sums and differences of vectors *)
Notation plus := (zip_with Rplus).
Notation minus := (zip_with Rminus).
(** Wherever the correctors stand, a reading is [o] plus [A] times their settings.  [A] is the true response of the machine, errors
    included, not the matrix given to the correction. *)
Definition affine (w : world R) (bpms : list nat) (cms : list nat * list nat) (o : list R) (A : list (list R)) (s : sc R) : Prop :=
  forall s1 s2 v r, steered (either cms) s s1 -> settings cms s1 v -> bpm_reading w (Some bpms) false s1 = (Ok r, s2) ->
  r_x r ++ r_y r = map Some (plus o (times A v)).
Definition unlimited (cms : list nat * list nat) (s : sc R) : Prop :=
  (forall c, c ∈ cms.1 -> cm_limit s c false = None) /\ (forall c, c ∈ cms.2 -> cm_limit s c true = None).
(** largest entry at most [b] *)
Definition within (b : R) (d : list R) : Prop := Forall (fun x => Rabs x <= b) d.

(** * Proofs *)
Lemma rsum_zip_minus row : forall v u : list R, length v = length u -> rsum (zip_with Rmult row (minus v u)) = rsum (zip_with Rmult row v) - rsum (zip_with Rmult row u).
Proof. induction row as [|x row IH]; intros [|y v] [|z u] H; simpl in *; try lia; try lra. unfold rsum in *. rewrite IH by lia. lra. Qed.
Lemma times_minus A (v u : list R) : length v = length u -> times A (minus v u) = minus (times A v) (times A u).
Proof. intros H. unfold times. induction A as [|row A IH]; [done|]. cbn [map zip_with]. rewrite IH, rsum_zip_minus by done. done. Qed.
Lemma times_length A v : length (times A v) = length A.
Proof. apply map_length. Qed.
Lemma default_somes (l : list R) : map (default 0) (map Some l) = l.
Proof. rewrite map_map. apply map_id. Qed.
Lemma deviation_numbers r (m reference : list R) : r_x r ++ r_y r = map Some m -> deviation r reference = minus m reference.
Proof. intros H. unfold deviation. rewrite H. clear H. revert reference. induction m as [|x m IH]; intros [|y reference]; try done. cbn [map zip_with]. by rewrite IH. Qed.
Lemma minus_lookup (a b : list R) i : minus a b !! i = match a !! i, b !! i with Some x, Some y => Some (x - y) | _, _ => None end.
Proof. rewrite lookup_zip_with. destruct (a !! i); [|done]. cbn. by destruct (b !! i). Qed.
Lemma affine_step (o a e reference : list R) : length a = length o -> length e = length o -> length reference = length o ->
  minus (plus o (minus a e)) reference = minus (minus (plus o a) reference) e.
Proof.
  revert a e reference. induction o as [|x o IH]; intros [|y a] [|z e] [|u reference]; simpl; intros; try lia; try done. f_equal; [lra|]. apply IH; lia.
Qed.

(** one plane *)
Lemma lowered_settings skew ords d (v : list R) (s s' : sc R) : NoDup ords -> length d = length ords -> lowered (fun _ => True) skew ords d s s' ->
  (forall c, c ∈ ords -> cm_limit s c skew = None) -> Forall2 (fun c x => setting skew s c = Some x) ords v -> Forall2 (fun c x => setting skew s' c = Some x) ords (minus v d).
Proof.
  intros Hnd HL HK Hu HF. apply Forall2_same_length_lookup_2; [rewrite zip_with_length; apply Forall2_length in HF; lia|]. intros j c x Hc Hx. rewrite minus_lookup in Hx.
  destruct (v !! j) as [a|] eqn:Ea; [|done]. destruct (d !! j) as [b|] eqn:Eb; [|done]. injection Hx as <-.
  destruct (HK Hnd HL j c b Hc Eb I) as (z&Z1&Z2). pose proof (Forall2_lookup_lr _ _ _ _ _ _ HF Hc Ea) as Ha. cbn beta in Ha. rewrite Ha in Z1. injection Z1 as <-. rewrite Z2. rewrite Hu; [done|]. by eapply elem_of_list_lookup_2.
Qed.
Lemma take_minus n (a b : list R) : take n (minus a b) = minus (take n a) (take n b).
Proof. apply zip_with_take. Qed.
Lemma drop_minus n (a b : list R) : drop n (minus a b) = minus (drop n a) (drop n b).
Proof. apply zip_with_drop. Qed.
(** What one correction step does to the settings. *)
Lemma steering_settings cms d (v : list R) (s s' : sc R) : NoDup cms.1 -> NoDup cms.2 -> length d = (length cms.1 + length cms.2)%nat -> unlimited cms s ->
  steering (fun _ => True) cms d s s' -> settings cms s v -> settings cms s' (minus v d).
Proof.
  intros N1 N2 HL [U1 U2] [K1 K2] [F1 F2]. split; [rewrite take_minus|rewrite drop_minus]; eapply lowered_settings; eauto; [rewrite take_length; lia|rewrite drop_length; lia].
Qed.
Lemma settings_unique cms s (v v' : list R) : settings cms s v -> settings cms s v' -> v = v'.
Proof.
  intros [F1 F2] [G1 G2]. rewrite <- (take_drop (length cms.1) v), <- (take_drop (length cms.1) v'). f_equal.
  - apply list_eq. intros i. pose proof (Forall2_length _ _ _ F1) as L1. pose proof (Forall2_length _ _ _ G1) as L2.
    destruct (take (length cms.1) v !! i) as [x|] eqn:E.
    + destruct (Forall2_lookup_r _ _ _ _ _ F1 E) as (c&Hc&Hx). destruct (Forall2_lookup_l _ _ _ _ _ G1 Hc) as (y&Hy&Hs). cbn beta in *. congruence.
    + symmetry. apply lookup_ge_None. apply lookup_ge_None in E. lia.
  - apply list_eq. intros i. pose proof (Forall2_length _ _ _ F2) as L1. pose proof (Forall2_length _ _ _ G2) as L2.
    destruct (drop (length cms.1) v !! i) as [x|] eqn:E.
    + destruct (Forall2_lookup_r _ _ _ _ _ F2 E) as (c&Hc&Hx). destruct (Forall2_lookup_l _ _ _ _ _ G2 Hc) as (y&Hy&Hs). cbn beta in *. congruence.
    + symmetry. apply lookup_ge_None. apply lookup_ge_None in E. lia.
Qed.
Lemma settings_length cms s (v : list R) : settings cms s v -> length v = (length cms.1 + length cms.2)%nat.
Proof. intros [F1 F2]. apply Forall2_length in F1, F2. rewrite take_length in F1. rewrite drop_length in F2. lia. Qed.
Lemma settings_quiet cms (s s' : sc R) v : RING s' = RING s -> settings cms s v -> settings cms s' v.
Proof.
  intros E [F1 F2]. assert (forall b c, setting b s' c = setting b s c) as H.
  { intros b c. apply setting_agree; [|by rewrite E]. intros i a _. unfold attr_at. by rewrite E. }
  split; (eapply Forall2_impl; [eassumption|]); intros c x Hx; cbn beta; by rewrite H.
Qed.
Lemma unlimited_steered cms (s s' : sc R) : steered (either cms) s s' -> unlimited cms s -> unlimited cms s'.
Proof.
  intros (_&_&_&_&_&H) [U1 U2]. assert (forall c b, cm_limit s' c b = cm_limit s c b) as E.
  { intros c b. unfold cm_limit. rewrite H; [done| | |tauto].
    - intros [[?|?] _]; done.
    - intros [Hf _]. unfold field_attributes in Hf. rewrite !elem_of_cons in Hf. destruct Hf as [?|[?|[?|[?|?%elem_of_nil]]]]; done. }
  split; intros c Hc; rewrite E; auto.
Qed.

Section Correction.
  Context (w : world R) (pinv : list (list R) -> list (list R)).
  Notation correct := (correct w pinv).

  Lemma without_rf P (s s' : sc R) : steered_also (with_rf 0) P s s' -> steered P s s'.
  Proof. intros (H1&H2&H3&H4&H5&H6). unfold steered, steered_also. repeat split_and?; auto. intros i a A1 A2 _. apply H6; auto. intros [? _]. done. Qed.
  Lemma session_nonempty bpms st s rs s' : session w bpms st s rs s' -> rs <> [].
  Proof. destruct 1; [done|]. by destruct rs. Qed.
  Lemma linear_session bpms cms o A P reference s v0 rs s' : NoDup cms.1 -> NoDup cms.2 -> length P = (length cms.1 + length cms.2)%nat ->
    length A = length o -> length reference = length o -> settings cms s v0 -> unlimited cms s -> affine w bpms cms o A s ->
    session w bpms (orbit_correction_step reference P 0 cms) s rs s' ->
    steered (either cms) s s' /\ (exists v r, settings cms s' v /\ last rs = Some r /\ r_x r ++ r_y r = map Some (plus o (times A v))) /\
    (exists r, rs !! 0%nat = Some r /\ r_x r ++ r_y r = map Some (plus o (times A v0))) /\
    forall k r r', rs !! k = Some r -> rs !! S k = Some r' -> deviation r' reference = minus (deviation r reference) (times A (times P (deviation r reference))).
  Proof.
    intros N1 N2 HP HA HR Hv0 HU HAf. induction 1 as [r s' H|rs s1 s2 r s3 H IH Hst Hr].
    - pose proof (pres_run quiet _ _ _ _ (quiet_reading w _ _) H) as Q. assert (steered (either cms) s s) as Hrefl by (unfold steered; reflexivity).
      pose proof (HAf _ _ _ _ Hrefl Hv0 H) as E. split; [by apply steered_quiet|]. split; [|split].
      + exists v0, r. split; [|done]. eapply settings_quiet; [|exact Hv0]. by apply quiet_same in Q as (?&_).
      + by exists r.
      + intros [|k] r1 r2 _ Hk; done.
    - destruct IH as (HS&(v&r1&Hv&Hlast&E1)&Hfirst&Hsteps). destruct Hst as [Hst (r1'&Hl'&Hk&_)]. rewrite Hlast in Hl'. injection Hl' as <-. specialize (Hk eq_refl). apply without_rf in Hst.
      set (d := times P (deviation r1 reference)) in *. assert (length d = length P) as Hd by apply times_length.
      assert (settings cms s2 (minus v d)) as Hv2. { eapply steering_settings; [exact N1|exact N2|lia| |exact Hk|exact Hv]. by eapply unlimited_steered. }
      assert (steered (either cms) s s2) as HS2 by (unfold steered in *; by transitivity s1).
      pose proof (HAf _ _ _ _ HS2 Hv2 Hr) as E2. pose proof (pres_run quiet _ _ _ _ (quiet_reading w _ _) Hr) as Q.
      assert (deviation r reference = minus (deviation r1 reference) (times A d)) as Hdev.
      { rewrite (deviation_numbers _ _ _ E1), (deviation_numbers _ _ _ E2). rewrite times_minus by (rewrite (settings_length _ _ _ Hv); lia). apply affine_step; rewrite ?times_length; done. }
      split; [|split; [|split]].
      + unfold steered in *. transitivity s2; [done|]. by apply steered_quiet.
      + exists (minus v d), r. split; [|by rewrite last_snoc]. eapply settings_quiet; [|exact Hv2]. by apply quiet_same in Q as (?&_).
      + destruct Hfirst as (r0&H0&E0). exists r0. split; [by apply lookup_app_l_Some|done].
      + intros k ra rb Ha Hb. destruct (decide (S k = length rs)) as [Ek|Ek].
        * rewrite lookup_app_r in Hb by lia. replace (S k - length rs)%nat with 0%nat in Hb by lia. injection Hb as <-. rewrite lookup_app_l in Ha by lia.
          rewrite last_lookup in Hlast. replace (pred (length rs)) with k in Hlast by lia. rewrite Ha in Hlast. injection Hlast as ->. done.
        * assert (S k < length rs)%nat as Hlt. { apply lookup_lt_Some in Hb. rewrite app_length in Hb. cbn [length] in Hb. lia. }
          rewrite lookup_app_l in Ha, Hb by lia. by eapply Hsteps.
  Qed.

  Lemma session_prefix bpms st s rs s' : session w bpms st s rs s' -> forall k r, rs !! k = Some r -> exists s1, session w bpms st s (take (S k) rs) s1.
  Proof.
    induction 1 as [r s' H|rs s1 s2 r s3 H IH Hst Hr]; intros k r' Hk.
    - destruct k; [|done]. exists s'. by apply session_first.
    - destruct (decide (k < length rs)%nat) as [Hl|Hl].
      + rewrite lookup_app_l in Hk by done. destruct (IH k r' Hk) as [s4 H4]. exists s4. rewrite take_app_le by lia. done.
      + exists s3. rewrite take_ge by (rewrite app_length; cbn [length]; lia). by eapply session_next.
  Qed.
  Lemma linear_numbers bpms cms o A P reference s v0 rs s' : NoDup cms.1 -> NoDup cms.2 -> length P = (length cms.1 + length cms.2)%nat ->
    length A = length o -> length reference = length o -> settings cms s v0 -> unlimited cms s -> affine w bpms cms o A s ->
    session w bpms (orbit_correction_step reference P 0 cms) s rs s' -> forall k r, rs !! k = Some r -> exists n, r_x r ++ r_y r = map Some n /\ length n = length o.
  Proof.
    intros N1 N2 HP HA HR Hv0 HU HAf HS k r Hk. destruct (session_prefix _ _ _ _ _ HS k r Hk) as [s1 H1].
    destruct (linear_session _ _ _ _ _ _ _ _ _ _ N1 N2 HP HA HR Hv0 HU HAf H1) as (_&(v&r1&_&Hl&E)&_). rewrite (take_S_r _ _ _ Hk), last_snoc in Hl. injection Hl as <-.
    exists (plus o (times A v)). split; [done|]. rewrite zip_with_length, times_length. lia.
  Qed.
  Lemma minus_zero (a b : list R) : length a = length b -> minus a b = replicate (length a) 0 -> a = b.
  Proof. revert b. induction a as [|x a IH]; intros [|y b] HL H; try done. cbn [length replicate zip_with] in *. injection H as H1 H2. f_equal; [lra|]. apply IH; [lia|done]. Qed.

  (** what the theorems are about: orbit correction without dispersion, with correctors that can be read and have no limit, on an affine machine *)
  Definition correcting (m : list (list R)) (reference : option (list R)) (cms : option (list nat * list nat)) (bpms : option (list nat)) (o : list R) (A : list (list R)) (v0 : list R) (s : sc R) : Prop :=
    let B := used_bpms s bpms in let C := used_cms s cms in
    NoDup C.1 /\ NoDup C.2 /\ length (pinv m) = (length C.1 + length C.2)%nat /\ length A = length o /\ length (used_reference m reference) = length o /\
    settings C s v0 /\ unlimited C s /\ affine w B C o A s.

  (** Each step multiplies the deviation by one minus the true response times the pseudo-inverse of the matrix given. *)
  Theorem C75_each_step m reference cms bpms eps target maxsteps (s : sc R) l s' o A v0 :
    correcting m reference cms bpms o A v0 s -> (0 < maxsteps)%nat ->
    correct m reference cms bpms eps target maxsteps 0 s = (Ok l, s') ->
    let dev r := deviation r (used_reference m reference) in
    exists rs r0, session w (used_bpms s bpms) (orbit_correction_step (used_reference m reference) (pinv m) 0 (used_cms s cms)) s rs s' /\
      (2 <= length rs <= S maxsteps)%nat /\ (converged (Nat.min 5 maxsteps) eps rs \/ converged 5 eps rs \/ maxsteps = 1%nat) /\
      rs !! 0%nat = Some r0 /\ dev r0 = minus (plus o (times A v0)) (used_reference m reference) /\
      forall k r r', rs !! k = Some r -> rs !! S k = Some r' -> dev r' = minus (dev r) (times A (times (pinv m) (dev r))).
  Proof.
    intros (N1&N2&HP&HA&HR&Hv0&HU&HAf) Hm H dev. destruct (C45_correct w pinv _ _ _ _ _ _ _ _ _ _ _ Hm H) as (rs&HS&HL&HF&HC&_).
    destruct (linear_session _ _ _ _ _ _ _ _ _ _ N1 N2 HP HA HR Hv0 HU HAf HS) as (_&_&(r0&H0&E0)&Hst). exists rs, r0. split; [done|]. split; [done|]. split; [done|]. split; [done|]. split; [|exact Hst].
    by apply deviation_numbers.
  Qed.

  (** Errors of the response by which the deviation still shrinks: convergence at that rate. *)
  Theorem C75_convergence m reference cms bpms eps target maxsteps (s : sc R) l s' o A v0 q b :
    correcting m reference cms bpms o A v0 s -> (0 < maxsteps)%nat ->
    (forall d c, length d = length o -> 0 <= c -> within c d -> within (q * c) (minus d (times A (times (pinv m) d)))) -> 0 <= q -> 0 <= b ->
    within b (minus (plus o (times A v0)) (used_reference m reference)) ->
    correct m reference cms bpms eps target maxsteps 0 s = (Ok l, s') ->
    exists rs, session w (used_bpms s bpms) (orbit_correction_step (used_reference m reference) (pinv m) 0 (used_cms s cms)) s rs s' /\ (2 <= length rs)%nat /\
      forall k r, rs !! k = Some r -> within (q ^ k * b) (deviation r (used_reference m reference)).
  Proof.
    intros HC Hm Hq Hq0 Hb Hb0 H. destruct (C75_each_step _ _ _ _ _ _ _ _ _ _ _ _ _ HC Hm H) as (rs&r0&HS&HL&_&H0&E0&Hst). exists rs. split; [done|]. split; [lia|].
    destruct HC as (N1&N2&HP&HA&HR&Hv0&HU&HAf).
    assert (forall k r, rs !! k = Some r -> within (q ^ k * b) (deviation r (used_reference m reference)) /\ length (deviation r (used_reference m reference)) = length o) as HG; [|intros k r Hk; apply (HG k r Hk)].
    induction k as [|k IH]; intros r Hk.
    - rewrite H0 in Hk. injection Hk as <-. rewrite E0. split; [|rewrite !zip_with_length, times_length; lia]. cbn [Rpow_def.pow]. by rewrite Rmult_1_l.
    - destruct (rs !! k) as [r1|] eqn:E1; [|apply lookup_ge_None in E1; apply lookup_lt_Some in Hk; lia]. destruct (IH r1 eq_refl) as [I1 I2].
      rewrite (Hst k r1 r E1 Hk). split; [|rewrite zip_with_length, times_length; lia]. cbn [Rpow_def.pow]. rewrite Rmult_assoc. apply Hq; [done| |done]. apply Rmult_le_pos; [by apply pow_le|done].
  Qed.

  (** A matrix whose pseudo-inverse undoes the first deviation: the reference is reached in the first step, and stays. *)
  Lemma exact_rest (d : list R) A P : times A (times P d) = d -> minus d (times A (times P d)) = replicate (length d) 0.
  Proof. intros ->. clear. induction d as [|x d IH]; [done|]. cbn [length replicate zip_with]. rewrite IH. f_equal. lra. Qed.
  Lemma rsum_zeros row n : rsum (zip_with Rmult row (replicate n 0)) = 0.
  Proof. revert n. induction row as [|x row IH]; intros [|n]; try done. cbn [replicate zip_with rsum foldr]. fold (rsum (zip_with Rmult row (replicate n 0))). rewrite IH. lra. Qed.
  Lemma times_zeros A n : times A (replicate n 0) = replicate (length A) 0.
  Proof. unfold times. induction A as [|row A IH]; [done|]. cbn [map length replicate]. by rewrite IH, rsum_zeros. Qed.
  Theorem C75_exact m reference cms bpms eps target maxsteps (s : sc R) l s' o A v0 :
    correcting m reference cms bpms o A v0 s -> (0 < maxsteps)%nat ->
    (let d := minus (plus o (times A v0)) (used_reference m reference) in times A (times (pinv m) d) = d) ->
    correct m reference cms bpms eps target maxsteps 0 s = (Ok l, s') ->
    exists rs, session w (used_bpms s bpms) (orbit_correction_step (used_reference m reference) (pinv m) 0 (used_cms s cms)) s rs s' /\ (2 <= length rs <= S maxsteps)%nat /\
      (converged (Nat.min 5 maxsteps) eps rs \/ converged 5 eps rs \/ maxsteps = 1%nat) /\
      (exists r, rs !! 0%nat = Some r /\ r_x r ++ r_y r = map Some (plus o (times A v0))) /\
      forall k r, rs !! S k = Some r -> r_x r ++ r_y r = map Some (used_reference m reference).
  Proof.
    intros HC Hm Hd H. destruct (C75_each_step _ _ _ _ _ _ _ _ _ _ _ _ _ HC Hm H) as (rs&r0&HS&HL&HCv&H0&E0&Hst). exists rs. split; [done|]. split; [done|]. split; [done|].
    destruct HC as (N1&N2&HP&HA&HR&Hv0&HU&HAf). cbv zeta in Hd. set (ref := used_reference m reference) in *.
    destruct (linear_session _ _ _ _ _ _ _ _ _ _ N1 N2 HP HA HR Hv0 HU HAf HS) as (_&_&Hfirst&_). split; [done|].
    assert (length (minus (plus o (times A v0)) ref) = length o) as HLd by (rewrite !zip_with_length, times_length; lia).
    assert (forall k r, rs !! S k = Some r -> deviation r ref = replicate (length o) 0) as HZ.
    { induction k as [|k IH]; intros r Hk.
      - rewrite (Hst 0%nat r0 r H0 Hk), E0. rewrite exact_rest by done. by rewrite HLd.
      - destruct (rs !! S k) as [r1|] eqn:E1; [|apply lookup_ge_None in E1; apply lookup_lt_Some in Hk; lia].
        rewrite (Hst (S k) r1 r E1 Hk), (IH r1 eq_refl). rewrite !times_zeros, HA. rewrite zip_with_replicate. by rewrite Rminus_0_r. }
    intros k r Hk. specialize (HZ k r Hk).
    destruct (linear_numbers _ _ _ _ _ _ _ _ _ _ N1 N2 HP HA HR Hv0 HU HAf HS _ _ Hk) as (n&En&HLn). rewrite (deviation_numbers _ _ _ En) in HZ. rewrite En. f_equal. apply minus_zero; [congruence|]. by rewrite HLn.
  Qed.

  Lemma map_some_inj (a b : list R) : map Some a = map Some b -> a = b.
  Proof. revert b. induction a as [|x a IH]; intros [|y b] H; try done. cbn [map] in H. injection H as -> H. by rewrite (IH b H). Qed.
  Lemma rms_zero r p n : r_x r ++ r_y r = map Some (replicate n 0) -> rms_of r p -> p = (0, 0).
  Proof.
    intros H (xs&ys&Hx&Hy&->). rewrite Hx, Hy, <- map_app in H. assert (xs ++ ys = replicate n 0) as Hz.
    { clear -H. revert n H. induction (xs ++ ys) as [|x l IH]; intros [|n] H; try done. cbn [map replicate] in H. injection H as -> H. cbn [replicate]. f_equal. by apply IH. }
    assert (forall l : list R, (forall x, x ∈ l -> x = 0) -> R_sqrt.sqrt (avg (map Rsqr l)) = 0) as HA.
    { intros l Hl. assert (foldr Rplus 0 (map Rsqr l) = 0) as E.
      { induction l as [|x l IH]; [done|]. cbn [map foldr]. rewrite IH by (intros y Hy'; apply Hl; by right). rewrite (Hl x) by left. unfold Rsqr. lra. }
      unfold avg. rewrite E. unfold Rdiv. rewrite Rmult_0_l. apply sqrt_0. }
    assert (forall x, x ∈ xs ++ ys -> x = 0) as HE by (rewrite Hz; intros x Hx'; by apply elem_of_replicate in Hx' as [? _]).
    f_equal; apply HA; intros x Hx'; apply HE, elem_of_app; auto.
  Qed.
  Lemma stddev_const (l : list (R * R)) : Forall (fun p => p = (0, 0)) l -> stddev (both l) = 0.
  Proof.
    intros H. assert (forall x, x ∈ both l -> x = 0) as HZ.
    { induction H as [|p l -> H IH]; [intros x ?%elem_of_nil; done|]. intros x Hx. change (both ((0, 0) :: l)) with (0 :: 0 :: both l) in Hx. rewrite !elem_of_cons in Hx. destruct Hx as [?|[?|?]]; auto. }
    assert (forall q : list R, (forall x, x ∈ q -> x = 0) -> foldr Rplus 0 q = 0) as HS.
    { induction q as [|x q IH]; [done|]. intros Hq. cbn [foldr]. rewrite IH by (intros y Hy; apply Hq; by right). rewrite (Hq x) by left. lra. }
    unfold stddev. assert (avg (both l) = 0) as -> by (unfold avg; rewrite (HS _ HZ); unfold Rdiv; lra).
    unfold avg at 1. rewrite HS; [unfold Rdiv; rewrite Rmult_0_l; apply sqrt_0|]. intros x (y&->&Hy)%elem_of_list_fmap. rewrite (HZ y Hy). unfold Rsqr. lra.
  Qed.
  Lemma spread_first a b n eps : (2 <= n <= 5)%nat -> stddev (both ((a, b) :: replicate (n - 1) (0, 0))) < eps -> 2/25 * (a² + b²) < eps².
  Proof.
    intros Hn Hs. assert (0 <= stddev (both ((a, b) :: replicate (n - 1) (0, 0)))) as Hp by (unfold stddev; apply sqrt_pos).
    assert (Rsqr (stddev (both ((a, b) :: replicate (n - 1) (0, 0)))) < eps²) as Hq by (apply Rsqr_incrst_1; lra).
    eapply Rle_lt_trans; [|exact Hq]. clear -Hn. unfold stddev. rewrite Rsqr_sqrt.
    2:{ unfold avg. apply Rmult_le_pos; [|apply Rlt_le, Rinv_0_lt_compat, lt_0_INR; simpl; lia]. generalize (foldr Rplus 0 (both ((a, b) :: replicate (n - 1) (0, 0))) / INR (length (both ((a, b) :: replicate (n - 1) (0, 0))))). intros mu.
        induction (both ((a, b) :: replicate (n - 1) (0, 0))) as [|x q IH]; [simpl; lra|]. cbn [map foldr]. pose proof (Rle_0_sqr (x - mu)). lra. }
    pose proof (Rle_0_sqr (a + b)). pose proof (Rle_0_sqr (a - b)). pose proof (Rle_0_sqr a). pose proof (Rle_0_sqr b).
    destruct n as [|[|[|[|[|[|n]]]]]]; try lia; unfold both, avg; simpl; unfold Rsqr in *; nra.
  Qed.
  (** Finding: a zero orbit reached exactly is a constant history, which is not accepted.  So success needs a history that contains the first
      orbit, and then the first orbit was already no larger than a few times [eps]; or a single step. *)
  Theorem C75_finding_perfect_orbit m cms bpms eps target maxsteps (s : sc R) l s' o A v0 r0 s1 a b :
    correcting m None cms bpms o A v0 s -> (1 < maxsteps)%nat ->
    times A (times (pinv m) (plus o (times A v0))) = plus o (times A v0) ->
    bpm_reading w (Some (used_bpms s bpms)) false s = (Ok r0, s1) -> rms_of r0 (a, b) ->
    correct m None cms bpms eps target maxsteps 0 s = (Ok l, s') ->
    2/25 * (a² + b²) < eps².
  Proof.
    intros HC Hm Hd Hr0 Hrms H.
    assert (minus (plus o (times A v0)) (used_reference m None) = plus o (times A v0)) as Ez.
    { destruct HC as (_&_&_&HA&HR&_). unfold used_reference in *. assert (length (plus o (times A v0)) = length m) as HL by (rewrite zip_with_length, times_length; rewrite replicate_length in HR; lia).
      revert HL. generalize (plus o (times A v0)) (length m). clear. induction l as [|x l IH]; intros n HL; [done|]. destruct n as [|n]; [done|]. cbn [replicate zip_with]. rewrite IH by (simpl in HL; lia). f_equal. lra. }
    assert (0 < maxsteps)%nat as Hm0 by lia. assert (let d := minus (plus o (times A v0)) (used_reference m None) in times A (times (pinv m) d) = d) as Hd' by (cbv zeta; by rewrite Ez).
    destruct (C75_exact _ _ _ _ _ _ _ _ _ _ _ _ _ HC Hm0 Hd' H) as (rs&HS&HL&HCv&Hfirst&Hrest).
    assert (rs !! 0%nat = Some r0) as H0.
    { clear -HS Hr0. induction HS as [r s9 H|rs8 s8 s7 r s6 HS IH _ _]; [simpl; congruence|]. by apply lookup_app_l_Some. }
    assert (forall n tail vals, (2 <= n <= 5)%nat -> recent n rs tail -> Forall2 rms_of tail vals -> 0 < stddev (both vals) < eps -> 2/25 * (a² + b²) < eps²) as HG.
    { intros n tail vals Hn Hrec HF [Hp Hlt]. destruct Hrec as [[? _]|(_&Hlen&front&Ef)]; [lia|].
      assert (forall k r p, tail !! k = Some r -> (front <> [] \/ (0 < k)%nat) -> rms_of r p -> p = (0, 0)) as Hzero.
      { intros k r p Hk Hor Hp'. assert (rs !! (length front + k)%nat = Some r) as Hi by (rewrite Ef, lookup_app_r by lia; by replace (length front + k - length front)%nat with k by lia).
        assert (exists j, (length front + k = S j)%nat) as [j Ej]. { destruct Hor as [Hf|Hk0]; [destruct front; [done|]; cbn [length]; eexists; reflexivity|]. destruct k; [lia|]. exists (length front + k)%nat. lia. }
        rewrite Ej in Hi. specialize (Hrest j r Hi). unfold used_reference in Hrest. by eapply rms_zero. }
      destruct front as [|f front].
      - cbn [app] in Ef. subst tail. destruct rs as [|r rs]; [done|]. injection H0 as ->. destruct vals as [|[a' b'] vals]; [by apply Forall2_length in HF|]. apply Forall2_cons in HF as [Hr HF].
        assert ((a', b') = (a, b)) as [= -> ->].
        { destruct Hr as (x1&y1&X1&Y1&->). destruct Hrms as (x2&y2&X2&Y2&->). rewrite X1 in X2. rewrite Y1 in Y2. apply map_some_inj in X2, Y2. by subst. }
        assert (vals = replicate (n - 1) (0, 0)) as ->.
        { apply Forall2_length in HF as HLv. cbn [length] in Hlen. assert (length vals = (n - 1)%nat) as E by lia. symmetry. apply replicate_as_elem_of. split; [done|].
          intros p [i Hi]%elem_of_list_lookup. destruct (Forall2_lookup_r _ _ _ _ _ HF Hi) as (r&Hr'&Hp'). by eapply (Hzero (S i)); [exact Hr'|right; lia|]. }
        eapply spread_first; eauto.
      - exfalso. rewrite stddev_const in Hp; [lra|]. apply Forall_lookup. intros i p Hi. destruct (Forall2_lookup_r _ _ _ _ _ HF Hi) as (r&Hr'&Hp'). eapply Hzero; [exact Hr'|by left|done]. }
    destruct HCv as [(tail&vals&X1&X2&X3)|[(tail&vals&X1&X2&X3)|?]]; [|eapply (HG 5%nat); eauto; lia|lia]. eapply (HG (Nat.min 5 maxsteps)); eauto. lia.
  Qed.
End Correction.

(** C47, a further finding: the spread is taken over both planes together, so that a constant orbit is accepted exactly if the rms of the two
    planes differ, by less than twice [eps]. *)
Lemma both_replicate k (a b : R) : both (replicate (S k) (a, b)) = a :: b :: both (replicate k (a, b)).
Proof. reflexivity. Qed.
Lemma stddev_planes k (a b : R) : (0 < k)%nat -> stddev (both (replicate k (a, b))) = Rabs (a - b) / 2.
Proof.
  intros Hk. assert (length (both (replicate k (a, b))) = (2 * k)%nat) as HL.
  { clear. induction k as [|k IH]; [done|]. rewrite both_replicate. cbn [length]. lia. }
  assert (0 < INR k) as Hp by (by apply lt_0_INR).
  assert (forall g : R -> R, foldr Rplus 0 (map g (both (replicate k (a, b)))) = INR k * (g a + g b)) as HS.
  { intros g. clear. induction k as [|k IH]; [simpl; lra|]. rewrite both_replicate, S_INR. cbn [map foldr]. rewrite IH. lra. }
  assert (avg (both (replicate k (a, b))) = (a + b) / 2) as Ea.
  { unfold avg. rewrite HL, mult_INR. pose proof (HS (fun x => x)) as E. rewrite map_id in E. rewrite E. simpl (INR 2). field. lra. }
  unfold stddev. rewrite Ea. unfold avg. rewrite map_length, HL, HS, mult_INR. simpl (INR 2).
  replace (INR k * ((a - (a + b) / 2)² + (b - (a + b) / 2)²) / ((1 + 1) * INR k)) with (Rsqr ((a - b) / 2)) by (unfold Rsqr; field; lra).
  rewrite sqrt_Rsqr_abs. unfold Rdiv. rewrite Rabs_mult. f_equal. apply Rabs_right. lra.
Qed.
Theorem C47_finding_planes (n k : nat) (eps a b : R) : (0 < n <= k)%nat ->
  is_stable n eps (replicate k (Some a, Some b)) = true <-> a <> b /\ Rabs (a - b) < 2 * eps.
Proof.
  intros Hn. assert (forall j, as_numbers (replicate j (a, b)) = replicate j (Some a, Some b)) as Has.
  { induction j as [|j IH]; [done|]. cbn [replicate]. unfold as_numbers in *. cbn [map]. by rewrite IH. }
  rewrite C47_criterion. split.
  - intros (l&Hr&Hs). destruct Hr as [[? _]|(_&HL&front&Ef)]; [lia|].
    assert (l = replicate n (a, b)) as ->.
    { symmetry. apply replicate_as_elem_of. split; [unfold as_numbers in HL; by rewrite map_length in HL|]. intros [x y] Hp.
      assert ((Some x, Some y) ∈ replicate k (Some a, Some b)) as Hq. { rewrite Ef. apply elem_of_app. right. unfold as_numbers. apply elem_of_list_fmap. by exists (x, y). }
      apply elem_of_replicate in Hq as [[= -> ->] _]. done. }
    rewrite stddev_planes in Hs by lia. split; [|lra]. intros ->. rewrite Rminus_diag_eq, Rabs_R0 in Hs by done. lra.
  - intros [Hne Hlt]. exists (replicate n (a, b)). split.
    + right. split; [lia|]. rewrite Has, replicate_length. split; [done|]. exists (replicate (k - n) (Some a, Some b)). rewrite <- replicate_add. f_equal. lia.
    + rewrite stddev_planes by lia. assert (0 < Rabs (a - b)) by (apply Rabs_pos_lt; lra). lra.
Qed.

Print Assumptions C47_finding_planes.
Print Assumptions C75_each_step.
Print Assumptions C75_convergence.
Print Assumptions C75_exact.
Print Assumptions C75_finding_perfect_orbit.

(** * Cases *)
(** A thin corrector at 1 (horizontal) and 2 (vertical) and an exact monitor; the orbit there is 3 plus 25 times the horizontal, 4 plus
    20 times the vertical setting. *)
Definition lin_corrector : elem R := Examples.mk [("Length", VNum 0); ("PassMethod", VStr "CorrectorPass"); ("SetPointB", VVec [1]); ("SetPointA", VVec [2])].
Definition lin_bpm : elem R := Examples.mk [("NoiseCO", VVec [0; 0]); ("CalError", VVec [0; 0]); ("Offset", VVec [0; 0]); ("SupportOffset", VVec [0; 0]); ("Roll", VNum 0); ("SupportRoll", VNum 0); ("SumError", VNum 0)].
Definition lin_sc (ring : list (elem R)) : sc R :=
  MkSC ring ring (MkInj 1 (zeros 6) (zeros 6) (replicate 6 (zeros 6)) (zeros 6) 1 1 1 "ORB") (SIG Examples.ex_sc) (MkOrd [1]%nat [] [] [] [0]%nat [0]%nat [] [] []) (replicate 100 0).
Definition lin_machine : sc R := lin_sc [lin_corrector; lin_bpm].
Definition lin_world : world R :=
  MkWorld (fun _ _ _ _ _ _ _ _ => None)
    (fun ring _ _ c => if (c =? 0)%nat then match setting false (lin_sc ring) 0 with Some x => Some (3 + 25 * x) | None => None end
                       else match setting true (lin_sc ring) 0 with Some x => Some (4 + 20 * x) | None => None end)
    (fun _ => ([], [])) (fun Z => Z).
Definition lin_response : list (list R) := [[25; 0]; [0; 20]].
Definition lin_inverse : list (list R) := [[/25; 0]; [0; /20]].
Lemma lin_setting ring b (s : sc R) : RING s = ring -> setting b (lin_sc ring) 0 = setting b s 0.
Proof. intros H. apply setting_agree; [|by rewrite H]. intros i a _. unfold attr_at. by rewrite H. Qed.
Lemma lin_affine : affine lin_world [1]%nat ([0]%nat, [0]%nat) [3; 4] lin_response lin_machine.
Proof.
  intros s1 s2 v r (_&EI&_&EO&EL&EA) [F1 F2] H. cbn [fst snd length] in F1, F2.
  apply Forall2_cons_inv_l in F1 as (h&v1&Hh&F1&Ev1). apply Forall2_nil_inv_l in F1 as ->. apply Forall2_cons_inv_l in F2 as (y&v2&Hy&F2&Ev2). apply Forall2_nil_inv_l in F2 as ->.
  destruct v as [|h' v]; [done|]. cbn [take] in Ev1. rewrite take_0 in Ev1. injection Ev1 as ->. cbn [drop] in Ev2. rewrite drop_0 in Ev2. subst v.
  assert (trackMode (INJ s1) <> "PORB") as Hm by (by rewrite EI). assert (only_registered (oBPM (ORD s1)) [1]%nat = Ok [1]%nat) as Ho by (rewrite EO; reflexivity).
  destruct (C38_reading lin_world (Some [1]%nat) false s1 s2 r [1]%nat Hm Ho H) as (_&L1&L2&_&HC). rewrite EI in *. cbn [nTurns length Nat.mul Nat.add INJ lin_machine lin_sc] in L1, L2, HC.
  destruct (HC 0%nat 0%nat) as (cells&Lc&FC&(x&y'&Hx&Cx&Hy'&Cy)&_); [lia|lia|]. cbn [nShots] in Lc. destruct cells as [|c [|? ?]]; try done. apply Forall_cons in FC as [(s3&E3&HS) _].
  assert (RING s3 = RING s1) as R3 by (by rewrite E3). assert (INJ s3 = INJ lin_machine) as I3 by (rewrite E3; exact EI).
  destruct HS as (q&e&t'&xs&ys&dx&dy&ds&Hq&He&_&HB&_&_&_&HD). injection Hq as <-. rewrite R3 in He.
  unfold beam_at in HB. rewrite I3 in HB. rewrite decide_True in HB by done. destruct HB as (_&->&->).
  assert (w_orbit lin_world (RING s3) [1]%nat 0 0 = Some (3 + 25 * h)) as W1 by (cbn; by rewrite (lin_setting (RING s3) false s1 (eq_sym R3)), Hh).
  assert (w_orbit lin_world (RING s3) [1]%nat 0 2 = Some (4 + 20 * y)) as W2 by (cbn; by rewrite (lin_setting (RING s3) true s1 (eq_sym R3)), Hy).
  rewrite W1, W2 in HD. rewrite I3 in HD.
  specialize (HD (Bpm 0 0 0 0 0 0 0 0)).
  assert (forall a, a ∉ field_attributes -> a <> "SetPointA" -> a <> "SetPointB" -> e !! a = lin_bpm !! a) as Hatt.
  { intros a A1 A2 A3. specialize (EA 1%nat a). unfold attr_at in EA. rewrite He in EA. apply EA; [tauto|tauto|tauto]. }
  destruct HD as (f&(n&Hn&_&Hf)&HD).
  { assert (trackMode (INJ s3) = "ORB") as Ht by (by rewrite I3). unfold noise_of. rewrite decide_True by done.
    unfold bpm_state. cbn [nx ny ox oy cx cy roll se].
    rewrite !Hatt by (try done; unfold field_attributes; rewrite !elem_of_cons; intros [?|[?|[?|[?|?%elem_of_nil]]]]; done).
    repeat split; try reflexivity; [exists 0, 0, 0, 0|exists 0, 0]; repeat split; try reflexivity; lra. }
  apply numbers_somes in Hn. cbn in Hn. subst n. cbn in Hf. cbn [se] in HD. assert (f = 1) as -> by (rewrite Hf; field). cbn [beamLostAt lin_machine lin_sc INJ] in HD.
  destruct HD as [(Hlt&_)|(_&Es&HD)]; [lra|]. destruct HD as [(Hno&_)|(mx&my&(n1&N1&_&M1)&(n2&N2&_&M2)&Ex&Ey)].
  { destruct Hno as [Hno|Hno]; apply numbers_somes in Hno; done. }
  apply numbers_somes in N1, N2. cbn in N1, N2. subst n1 n2. cbn in M1, M2. cbn [roll ox oy cx cy nx ny] in Ex, Ey. rewrite cos_0, sin_0 in Ex, Ey.
  cbn [map] in Cx, Cy. rewrite Ex, Es in Cx. rewrite Ey, Es in Cy.
  assert (forall z m, charge_mean [(Some z, Some (1 * (1 + 0 * ds)))] m -> m = Some z) as HM.
  { intros z m [[[?|Hz] _]|(_&_&u&->&Hu)]; [done|unfold charge in Hz; cbn in Hz; lra|]. unfold charge in Hu. cbn in Hu. f_equal. lra. }
  apply HM in Cx, Cy. destruct (r_x r) as [|x0 [|? ?]]; try done. destruct (r_y r) as [|y0 [|? ?]]; try done. injection Hx as ->. injection Hy' as ->. rewrite Cx, Cy, M1, M2.
  cbn [app map zip_with times lin_response rsum foldr].
  match goal with |- [Some ?a; Some ?b] = [Some ?c; Some ?d] => assert (a = c) as -> by field; assert (b = d) as -> by field; done end.
Qed.
Example C75_hypotheses : correcting lin_world (fun _ => lin_inverse) lin_response None None None [3; 4] lin_response [1; 2] lin_machine /\
  (let d := minus (plus [3; 4] (times lin_response [1; 2])) (used_reference lin_response None) in times lin_response (times lin_inverse d) = d).
Proof.
  split.
  - unfold correcting. cbn [used_bpms used_cms lin_machine lin_sc ORD oBPM oHCM oVCM fst snd]. split; [by apply NoDup_singleton|]. split; [by apply NoDup_singleton|]. split; [done|]. split; [done|]. split; [done|].
    split; [|split; [|exact lin_affine]].
    + split; repeat constructor; unfold setting; rewrite get_cm_reading; cbn; f_equal; lra.
    + split; intros c Hc; apply elem_of_list_singleton in Hc as ->; reflexivity.
  - cbn. repeat f_equal; field.
Qed.

(** The same with numbers: one step reaches zero orbit; with ten steps allowed the orbit is as perfect, but RuntimeError is raised. *)
From Verif Require Import Properties_Bba3.
Local Open Scope Q_scope.
#[local] Instance TrigQ14 : Trig Q := {| ncos _ := 1; nsin _ := 0; nsqrt x := x; npi := 3 |}.
Definition linq_world : world Q :=
  MkWorld (fun _ _ _ _ _ _ _ _ => None)
    (fun ring _ _ c =>
      let kick := default 0%Q (e ← ring !! 0%nat; match (e : elem Q) !! "KickAngle" with Some (VVec l) => l !! (Nat.div c 2) | _ => None end) in
      if (c =? 0)%nat then Some (Qred (3 + 25 * kick)) else Some (Qred (4 + 20 * kick)))
    (fun _ => ([], [])) (fun Z => Z).
Definition linq_machine : sc Q :=
  let ring := [Examples.thin_cm; exact_bpm [0; 0]] in
  let s := MkSC ring ring (MkInj 1 (zeros 6) (zeros 6) (replicate 6 (zeros 6)) (zeros 6) 1 1 1 "ORB") (SIG Examples.ex_sc) (MkOrd [1]%nat [] [] [] [] [] [] [] []) (replicate 200 0) in
  snd (register_magnets [0]%nat [] (MkType (Some PInf) (Some PInf) false None None) s).
Definition linq_run (maxsteps : nat) := correct linq_world (fun _ => [[1#25; 0]; [0; 1#20]]) [[25; 0]; [0; 20]] None None None (1#100) 0 maxsteps 0 linq_machine.
Definition position (s : sc Q) := match fst (bpm_reading linq_world (Some [1]%nat) false s) with Ok r => Some (r_x r, r_y r) | Err _ => None end.
Example C75_case : (match fst (linq_run 1) with Ok _ => true | _ => false end) = true /\ position linq_machine = Some ([Some 3], [Some 4]) /\ position (snd (linq_run 1)) = Some ([Some 0], [Some 0]) /\
  fst (linq_run 10) = Err RuntimeError /\ position (snd (linq_run 10)) = Some ([Some 0], [Some 0]).
Proof. vm_compute. done. Qed.
