(** C47-C49: convergence criterion, choice of correctors, wiggle steps. *)
From Coq Require Import Reals Lra Lia QArith ZArith Sorting.Sorted.
From stdpp Require Import base gmap strings list.
From Verif Require Import Num Base Model_Arr Model_SC Model_Err Model_Beam Model_Orbit Lemmas Proofs_Beam Proofs_Mat Spec Properties_Random.
Local Open Scope string_scope.
Local Open Scope list_scope.
Local Open Scope R_scope.

(** * C47 *)

(** mean and (population) standard deviation *)
Definition avg (l : list R) : R := foldr Rplus 0 l / INR (length l).
Definition stddev (l : list R) : R := R_sqrt.sqrt (avg (map (fun x => Rsqr (x - avg l)) l)).
(** the numbers of the last [n] pairs of a history (of all pairs for n = 0) *)
Definition recent {A} (n : nat) (h tail : list A) : Prop :=
  n = 0%nat /\ tail = h \/ (n <> 0)%nat /\ length tail = n /\ exists front, h = front ++ tail.
Definition both (l : list (R * R)) : list R := concat (map (fun p => [p.1; p.2]) l).
Definition as_numbers (l : list (R * R)) : list (option R * option R) := map (fun p => (Some p.1, Some p.2)) l.

Lemma lastn_recent {A} n (h : list A) : (n <= length h)%nat -> recent n h (lastn n h).
Proof.
  intros H. unfold recent, lastn. destruct n as [|n]; [by left|]. right. split; [done|]. split; [rewrite drop_length; lia|].
  exists (take (length h - S n) h). by rewrite take_drop.
Qed.
Lemma recent_lastn {A} n (h tail : list A) : recent n h tail -> (n <= length h)%nat /\ tail = lastn n h.
Proof.
  intros [[-> ->]|(Hn&HL&front&->)]; [split; [lia|done]|]. rewrite app_length. split; [lia|]. unfold lastn. destruct n as [|n]; [done|].
  rewrite app_length, drop_app_alt by lia. done.
Qed.
Lemma mean_avg (l : list R) : mean l = avg l.
Proof. unfold mean, avg. rewrite nsum_rsum, nofnat_R. done. Qed.
Lemma variance_stddev l : nsqrt (variance l) = stddev l.
Proof. unfold variance, stddev. rewrite !mean_avg. change nsqrt with R_sqrt.sqrt. reflexivity. Qed.
Lemma variance_pos l : 0 <= variance l.
Proof.
  unfold variance. rewrite mean_avg. unfold avg. destruct (map _ l) as [|x k] eqn:E.
  - simpl. unfold Rdiv. lra.
  - rewrite <- E. apply Rmult_le_pos; [apply rsum_nonneg, Forall_map, Forall_forall; intros y _; apply Rle_0_sqr|].
    left. apply Rinv_0_lt_compat. rewrite E. apply lt_0_INR. simpl. lia.
Qed.
Lemma no_gaps_spec (l : list (option R)) l' : no_gaps l = Some l' <-> l = map Some l'.
Proof.
  revert l'. induction l as [|[x|] l IH]; intros l'; simpl.
  - destruct l'; simpl; split; congruence.
  - destruct (no_gaps l) as [m|] eqn:E.
    + specialize (IH m). destruct IH as [IH _]. specialize (IH eq_refl). subst l. split.
      * intros [= <-]. done.
      * destruct l' as [|y l']; [discriminate|]. simpl. intros [= -> H]. f_equal. f_equal. clear E. revert l' H. induction m; intros [|? ?]; simpl; try discriminate; [done|]. intros [= -> H]. f_equal. by apply IHm.
    + split; [discriminate|]. destruct l' as [|y l']; [discriminate|]. intros [= -> H]. specialize (IH l'). destruct IH as [_ IH]. by specialize (IH H).
  - split; [discriminate|]. destruct l'; discriminate.
Qed.
Lemma flat2_numbers l : flat2 (as_numbers l) = map Some (both l).
Proof. induction l as [|p l IH]; [done|]. unfold flat2, both in *. simpl. by rewrite IH. Qed.
Lemma flat2_numbers_inv h l : flat2 h = map Some l -> exists k, h = as_numbers k /\ l = both k.
Proof.
  revert l. induction h as [|[a b] h IH]; intros l H.
  - destruct l; [|discriminate]. by exists [].
  - destruct l as [|x [|y l]]; try discriminate. change (flat2 ((a, b) :: h)) with (a :: b :: flat2 h) in H. simpl in H. injection H as -> -> H.
    apply IH in H as (k&->&->). by exists ((x, y) :: k).
Qed.

(** The criterion holds exactly when there are enough entries, none of the recent ones is NaN, and their standard
    deviation is positive and below [eps]. *)
Theorem C47_criterion (n : nat) (eps : R) (h : list (option R * option R)) :
  is_stable n eps h = true <-> exists l, recent n h (as_numbers l) /\ 0 < stddev (both l) < eps.
Proof.
  unfold is_stable. destruct (length h <? n)%nat eqn:EL.
  - apply Nat.ltb_lt in EL. split; [discriminate|]. intros (l&H&_). apply recent_lastn in H as [H _]. lia.
  - apply Nat.ltb_ge in EL. destruct (no_gaps (flat2 (lastn n h))) as [l|] eqn:E.
    + apply no_gaps_spec in E. apply flat2_numbers_inv in E as (k&Ek&->). rewrite variance_stddev. set (sd := stddev (both k)).
      assert (variance (both k) = sd * sd) as Ev.
      { unfold sd. rewrite <- variance_stddev. change nsqrt with R_sqrt.sqrt. symmetry. apply sqrt_sqrt, variance_pos. }
      assert (0 <= sd) as Hsd by (unfold sd, stddev; apply sqrt_pos).
      change (neqb sd n0) with (Reqb sd 0). change (nltb (ndiv (variance (both k)) sd) eps) with (Rltb (variance (both k) / sd) eps). rewrite Ev.
      assert (exists l, recent n h (as_numbers l) /\ l = k) as (l&Hl&->) by (exists k; split; [rewrite <- Ek; by apply lastn_recent|done]).
      destruct (Reqb sd 0) eqn:E0.
      * apply Reqb_true in E0. split; [discriminate|]. intros (l&H&Hb). apply recent_lastn in H as [_ H]. rewrite Ek in H.
        assert (both l = both k) as Eb.
        { pose proof (f_equal flat2 H) as HF. rewrite !flat2_numbers in HF. clear -HF. revert HF. generalize (both k). induction (both l) as [|x m IH]; intros [|y m'] HF; try discriminate; [done|]. injection HF as -> HF. f_equal. by apply IH. }
        rewrite Eb in Hb. fold sd in Hb. lra.
      * apply Reqb_false in E0. rewrite Rltb_true. replace (sd * sd / sd) with sd by (field; done). split.
        -- intros Hlt. exists k. split; [done|]. fold sd. lra.
        -- intros (l&H&Hb). apply recent_lastn in H as [_ H]. rewrite Ek in H.
           assert (both l = both k) as Eb.
           { pose proof (f_equal flat2 H) as HF. rewrite !flat2_numbers in HF. clear -HF. revert HF. generalize (both k). induction (both l) as [|x m IH]; intros [|y m'] HF; try discriminate; [done|]. injection HF as -> HF. f_equal. by apply IH. }
           rewrite Eb in Hb. fold sd in Hb. lra.
    + split; [discriminate|]. intros (l&H&_). apply recent_lastn in H as [_ H]. exfalso. rewrite <- H in E.
      assert (no_gaps (flat2 (as_numbers l)) = Some (both l)) as E' by (apply no_gaps_spec, flat2_numbers). congruence.
Qed.

Lemma avg_const n x : (0 < n)%nat -> avg (replicate n x) = x.
Proof.
  intros Hn. unfold avg. rewrite replicate_length. assert (foldr Rplus 0 (replicate n x) = INR n * x) as ->.
  { clear. induction n as [|n IH]; [simpl; lra|]. rewrite S_INR. simpl foldr. rewrite IH. lra. }
  field. apply not_0_INR. lia.
Qed.
(** A history that is perfectly constant, the same rms in both planes, is never accepted, whatever [eps] (finding). *)
Theorem C47_finding_constant_history (n k : nat) (eps x : R) :
  is_stable n eps (replicate k (Some x, Some x)) = false.
Proof.
  apply not_true_iff_false. intros H. apply C47_criterion in H as (l&Hr&Hs). apply recent_lastn in Hr as [_ Hr].
  assert (exists j, both l = replicate j x) as [j Hj].
  { assert (Forall (fun p => p = (Some x, Some x)) (as_numbers l)) as HF.
    { rewrite Hr. apply Forall_forall. intros p Hp. unfold lastn in Hp. destruct n; [by apply elem_of_replicate in Hp as [-> _]|].
      apply elem_of_list_lookup in Hp as (i&Hi). rewrite lookup_drop in Hi. apply lookup_replicate in Hi as [<- _]. done. }
    clear -HF. induction l as [|[a b] l IH]; [by exists 0%nat|]. unfold as_numbers in HF. simpl in HF. inversion HF as [|? ? E HF']; subst. injection E as -> ->.
    destruct (IH HF') as [j Hj]. exists (S (S j)). unfold both in *. simpl. by rewrite Hj. }
  rewrite Hj in Hs. unfold stddev in Hs. destruct j as [|j]; [simpl in Hs; unfold avg in Hs; simpl in Hs; unfold Rdiv in Hs; rewrite Rmult_0_l, sqrt_0 in Hs; lra|].
  rewrite avg_const in Hs by lia. assert (map (fun y => Rsqr (y - x)) (replicate (S j) x) = replicate (S j) 0) as E.
  { clear. induction (S j) as [|m IH]; [done|]. simpl. rewrite IH. f_equal. replace (x - x) with 0 by ring. apply Rsqr_0. }
  rewrite E, avg_const, sqrt_0 in Hs by lia. lra.
Qed.

(** * C48 *)
Lemma drop_seq' k a m : drop k (seq a m) = seq (a + k) (m - k).
Proof.
  revert a m. induction k as [|k IH]; intros a m; [rewrite drop_0; f_equal; lia|]. destruct m as [|m]; [done|]. simpl. rewrite IH. f_equal; lia.
Qed.

(** the last [n] elements of a list, or all if there are fewer *)
Definition last_ones {A} (n : nat) (l t : list A) : Prop := exists front, l = front ++ t /\ (length t = n \/ front = [] /\ (length l <= n)%nat).
Lemma lastn_last_ones {A} n (l : list A) : (n <> 0)%nat -> last_ones n l (lastn n l).
Proof.
  intros Hn. unfold lastn. destruct n as [|n]; [done|]. exists (take (length l - S n) l). split; [by rewrite take_drop|].
  rewrite drop_length. destruct (decide (S n <= length l)%nat); [left; lia|]. right. replace (length l - S n)%nat with 0%nat by lia. split; [done|lia].
Qed.
Definition not_downstream (b : nat) (cms l : list nat) : Prop := (forall c, c ∈ l <-> c ∈ cms /\ (c <= b)%nat) /\ exists back, cms = l ++ back.

Lemma sorted_prefix cms b : StronglySorted lt cms ->
  let l := List.filter (fun c => (c <=? b)%nat) cms in not_downstream b cms l /\ List.filter (fun k => match cms !! k with Some c => (c <=? b)%nat | None => false end) (seq 0 (length cms)) = seq 0 (length l).
Proof.
  intros Hs l. subst l. induction Hs as [|x cms Hs IH Hx] using StronglySorted_ind; [split; [split; [intros c; simpl; split; [intros []%elem_of_nil|intros [[]%elem_of_nil _]]|by exists []]|done]|].
  destruct IH as [[IH1 (back&IH2)] IH3].
  assert (forall (f : nat -> bool) n, List.filter f (seq 1 n) = map S (List.filter (fun k => f (S k)) (seq 0 n))) as Hshift.
  { intros f n. rewrite <- seq_shift. induction (seq 0 n) as [|k q IHq]; [done|]. simpl. rewrite IHq. by destruct (f (S k)). }
  change (seq 0 (length (x :: cms))) with (0%nat :: seq 1 (length cms)). simpl. destruct (x <=? b)%nat eqn:E.
  - apply Nat.leb_le in E. split.
    + split; [|exists back; simpl; by rewrite <- IH2]. intros c. rewrite !elem_of_cons, IH1. split; [intros [->|[? ?]]; auto|]. intros [[->|?] ?]; auto.
    + rewrite Hshift. etransitivity; [exact (f_equal (fun q => 0%nat :: map S q) IH3)|]. simpl. f_equal. by rewrite seq_shift.
  - apply Nat.leb_gt in E. assert (List.filter (fun c => (c <=? b)%nat) cms = []) as En.
    { apply elem_of_nil_inv. intros c Hc. apply IH1 in Hc as [Hc Hb]. rewrite Forall_forall in Hx. specialize (Hx c Hc). lia. }
    rewrite En in *. split.
    + split; [|by exists (x :: cms)]. intros c. split; [by intros []%elem_of_nil|]. intros [Hc Hb]. apply elem_of_cons in Hc as [->|Hc]; [lia|]. assert (c ∈ @nil nat) as Hn by (by apply IH1). done.
    + rewrite Hshift. exact (f_equal (map S) IH3).
Qed.

(** For a place [k] within the first turn, and corrector ordinates in increasing order: the correctors returned are the
    last [n] among those not downstream of the BPM; the indices point at them; without one there is RuntimeError. *)
Theorem C48_within_turn (k n b : nat) (bpms cms : list nat) :
  (n <> 0)%nat -> StronglySorted lt cms -> bpms !! k = Some b ->
  match get_last_cm (Z.of_nat k) n bpms cms with
  | Ok (ords, inds) => exists l, not_downstream b cms l /\ l <> [] /\ last_ones n l ords /\ Forall2 (fun o i => (0 <= i)%Z /\ cms !! Z.to_nat i = Some o) ords inds
  | Err e => e = RuntimeError /\ forall c, c ∈ cms -> (b < c)%nat
  end.
Proof.
  intros Hn Hs Hb. unfold get_last_cm. pose proof (lookup_lt_Some _ _ _ Hb) as Hk.
  destruct (Z.of_nat (length bpms) <=? Z.of_nat k)%Z eqn:E1; [apply Z.leb_le in E1; lia|].
  destruct (Z.of_nat k <? 0)%Z eqn:E2; [apply Z.ltb_lt in E2; lia|]. rewrite Nat2Z.id. unfold idx. rewrite Hb. simpl.
  destruct (sorted_prefix cms b Hs) as [Hl Hf]. set (l := List.filter (fun c => (c <=? b)%nat) cms) in *. rewrite Hf. clearbody l. clear Hf.
  assert (seq 0 (length l) = [] <-> l = []) as Hnil by (destruct l; simpl; split; congruence).
  destruct (seq 0 (length l)) as [|i q] eqn:Eq.
  - split; [done|]. intros c Hc. destruct (Nat.le_gt_cases c b) as [Hle|]; [|done]. exfalso. destruct Hl as [Hl _]. assert (c ∈ l) as Hin by (by apply Hl). destruct Hnil as [Hnil _]. rewrite Hnil in Hin by done. by apply elem_of_nil in Hin.
  - rewrite <- Eq. exists l. split; [done|]. split; [intros E; apply Hnil in E; congruence|].
    assert (forall k c, l !! k = Some c -> cms !! k = Some c) as Hpre.
    { destruct Hl as [_ (back&->)]. intros j c Hj. by apply lookup_app_l_Some. }
    assert (lastn n (seq 0 (length l)) = seq (length l - n) (length l - (length l - n))) as Elast.
    { unfold lastn. destruct n as [|n]; [done|]. rewrite seq_length. rewrite drop_seq'. done. }
    rewrite Elast.
    assert (omap (fun k => cms !! k) (seq (length l - n) (length l - (length l - n))) = lastn n l) as Eo.
    { unfold lastn. destruct n as [|n]; [done|]. apply list_eq. intros j.
      assert (forall a m, (a + m <= length l)%nat -> omap (fun k => cms !! k) (seq a m) = take m (drop a l)) as HO.
      { clear -Hpre. intros a m. revert a. induction m as [|m IH]; intros a Ham; [done|]. simpl.
        destruct (l !! a) as [c|] eqn:Ea; [|apply lookup_ge_None in Ea; lia]. rewrite (Hpre _ _ Ea). rewrite IH by lia. rewrite (drop_S l c a) by exact Ea. done. }
      rewrite HO by lia. rewrite take_ge by (rewrite drop_length; lia). done. }
    rewrite Eo. split; [by apply lastn_last_ones|].
    rewrite <- Eo. clear -Hpre. assert (forall a m, (a + m <= length l)%nat -> Forall2 (fun o i => (0 <= i)%Z /\ cms !! Z.to_nat i = Some o) (omap (fun k => cms !! k) (seq a m)) (map Z.of_nat (seq a m))) as HF.
    { intros a m. revert a. induction m as [|m IH]; intros a Ham; [constructor|]. simpl.
      destruct (l !! a) as [c|] eqn:Ea; [|apply lookup_ge_None in Ea; lia]. rewrite (Hpre _ _ Ea). constructor; [|apply IH; lia]. rewrite Nat2Z.id. split; [lia|by apply Hpre]. }
    apply HF. lia.
Qed.
(** Past the first turn: the last [n] of all; indices and ordinates agree when there are at least [n] correctors. *)
Theorem C48_past_turn (k : Z) (n : nat) (bpms cms : list nat) :
  (n <> 0)%nat -> (Z.of_nat (length bpms) <= k)%Z ->
  exists ords inds, get_last_cm k n bpms cms = Ok (ords, inds) /\ last_ones n cms ords /\ length inds = n /\
    ((n <= length cms)%nat -> Forall2 (fun o i => (0 <= i)%Z /\ cms !! Z.to_nat i = Some o) ords inds).
Proof.
  intros Hn Hk. unfold get_last_cm. apply Z.leb_le in Hk. rewrite Hk. eexists _, _. split; [done|]. split; [by apply lastn_last_ones|].
  split; [by rewrite map_length, seq_length|]. intros HL. apply Forall2_same_length_lookup. split.
  - rewrite map_length, seq_length. unfold lastn. destruct n; [done|]. rewrite drop_length. lia.
  - intros i o z Ho Hz. rewrite list_lookup_fmap in Hz. destruct (seq 0 n !! i) as [j|] eqn:Ej; [|discriminate]. apply lookup_seq in Ej as [-> Hi]. injection Hz as <-.
    split; [lia|]. replace (Z.to_nat _) with (length cms - n + i)%nat by lia. unfold lastn in Ho. destruct n; [done|]. rewrite lookup_drop in Ho. done.
Qed.
(** With fewer correctors than asked for, the index list starts below zero and has another length than the list of
    ordinates (finding). *)
Theorem C48_finding_negative_index : get_last_cm 2 3 [5; 9]%nat [4]%nat = Ok ([4]%nat, [-2; -1; 0]%Z).
Proof. reflexivity. Qed.
(** Without any reading ([k = -1]) the last BPM counts as reached (finding). *)
Theorem C48_finding_no_beam : get_last_cm (-1) 2 [5; 9]%nat [2; 4; 8; 12]%nat = Ok ([4; 8]%nat, [1; 2]%Z).
Proof. reflexivity. Qed.
Example C48_case : get_last_cm 0 2 [5; 9]%nat [2; 3; 4; 8; 12]%nat = Ok ([3; 4]%nat, [1; 2]%Z) /\ get_last_cm 0 2 [5; 9]%nat [6; 7]%nat = Err RuntimeError.
Proof. split; reflexivity. Qed.

(** * C49 *)
Definition sum_steps (l : list (R * R)) : R * R := (foldr (fun p a => p.1 + a) 0 l, foldr (fun p a => p.2 + a) 0 l).
Lemma sum_steps_app l1 l2 : sum_steps (l1 ++ l2) = ((sum_steps l1).1 + (sum_steps l2).1, (sum_steps l1).2 + (sum_steps l2).2).
Proof. unfold sum_steps. simpl. f_equal; induction l1 as [|p l1 IH]; simpl; try lra; rewrite IH; lra. Qed.
Lemma donut_prefix r0 r1 n k : (0 < k <= n)%nat -> sum_steps (take k (golden_donut_diffs r0 r1 n)) = donut_pos r0 r1 n (k - 1).
Proof.
  intros [H1 H2]. induction k as [|k IH]; [lia|]. clear H1.
  assert (golden_donut_diffs r0 r1 n !! k = Some (match k with 0%nat => ((donut_pos r0 r1 n 0).1 - 0, (donut_pos r0 r1 n 0).2 - 0) | S k' => ((donut_pos r0 r1 n k).1 - (donut_pos r0 r1 n k').1, (donut_pos r0 r1 n k).2 - (donut_pos r0 r1 n k').2) end)) as Hk.
  { unfold golden_donut_diffs. rewrite list_lookup_fmap, lookup_seq_lt by lia. simpl. by destruct k. }
  erewrite take_S_r by exact Hk. rewrite sum_steps_app. replace (S k - 1)%nat with k by lia. destruct k as [|k].
  - simpl. rewrite surjective_pairing. f_equal; simpl; lra.
  - rewrite IH by lia. replace (S k - 1)%nat with k by lia. rewrite (surjective_pairing (donut_pos r0 r1 n (S k))). unfold sum_steps. simpl. f_equal; lra.
Qed.

(** After the first [k] of [n] steps the correctors are displaced by a vector whose length squared goes linearly from
    [r0]^2 to [r1]^2; so it stays within the annulus, and the whole pass ends at radius [r1], not at the start
    (finding). *)
Theorem C49_annulus (r0 r1 : R) (n k : nat) :
  0 <= r0 <= r1 -> (2 <= n)%nat -> (0 < k <= n)%nat ->
  let p := sum_steps (take k (golden_donut_diffs r0 r1 n)) in
  p.1 * p.1 + p.2 * p.2 = r0 * r0 + (r1 * r1 - r0 * r0) * INR (k - 1) / INR (n - 1) /\
  r0 * r0 <= p.1 * p.1 + p.2 * p.2 <= r1 * r1 /\
  (k = n -> p.1 * p.1 + p.2 * p.2 = r1 * r1).
Proof.
  intros Hr Hn Hk p. subst p. rewrite donut_prefix by done. unfold donut_pos. cbn [fst snd]. rewrite !nofnat_R.
  change (@nsub R _ (INR n) n1) with (INR n - 1). assert (INR n - 1 = INR (n - 1)) as -> by (rewrite minus_INR by lia; simpl; lra).
  set (q := INR (k - 1) / INR (n - 1)).
  assert (0 < INR (n - 1)) as Hn1 by (apply lt_0_INR; lia).
  assert (0 <= q <= 1) as Hq.
  { unfold q. split; [apply Rmult_le_pos; [apply pos_INR|left; by apply Rinv_0_lt_compat]|].
    apply Rmult_le_reg_r with (INR (n - 1)); [done|]. unfold Rdiv. rewrite Rmult_assoc, Rinv_l by lra. rewrite Rmult_1_r, Rmult_1_l. apply le_INR. lia. }
  change ncos with cos. change nsin with sin. change nsqrt with R_sqrt.sqrt. num_R.
  set (X := r0 * r0 + (r1 * r1 - r0 * r0) * INR (k - 1) / INR (n - 1)).
  assert (X = r0 * r0 + (r1 * r1 - r0 * r0) * q) as EX by (unfold X, q, Rdiv; ring).
  assert (0 <= r1 * r1 - r0 * r0) as Hd by (assert (r0 * r0 <= r1 * r1) by (apply Rmult_le_compat; lra); lra).
  assert (0 <= r0 * r0) as H0 by (apply Rle_0_sqr).
  assert (0 <= X) as HX by (rewrite EX; assert (0 <= (r1 * r1 - r0 * r0) * q) by (apply Rmult_le_pos; lra); lra).
  set (a := INR (k - 1) * golden_phi). assert (R_sqrt.sqrt X * cos a * (R_sqrt.sqrt X * cos a) + R_sqrt.sqrt X * sin a * (R_sqrt.sqrt X * sin a) = X) as E.
  { transitivity (R_sqrt.sqrt X * R_sqrt.sqrt X * (Rsqr (sin a) + Rsqr (cos a))); [unfold Rsqr; ring|]. rewrite sin2_cos2, sqrt_sqrt by done. ring. }
  rewrite E. split; [done|]. split.
  - rewrite EX. split.
    + assert (0 <= (r1 * r1 - r0 * r0) * q) by (apply Rmult_le_pos; lra). lra.
    + assert ((r1 * r1 - r0 * r0) * q <= (r1 * r1 - r0 * r0) * 1) by (apply Rmult_le_compat_l; lra). lra.
  - intros ->. rewrite EX. assert (q = 1) as -> by (unfold q; field; lra). ring.
Qed.
(** with the constants of the module: 32 steps between 0.5 and 1 mrad *)
Corollary C49_module_constants (k : nat) : (0 < k <= 32)%nat ->
  let p := sum_steps (take k (golden_donut_diffs WIGGLE_ANGLE_RANGE.1 WIGGLE_ANGLE_RANGE.2 WIGGLE_ANGLE_STEPS)) in
  25 / 100000000 <= p.1 * p.1 + p.2 * p.2 <= 1 / 1000000.
Proof.
  intros Hk p. assert (@WIGGLE_ANGLE_RANGE R _ = (1/2000, 1/1000)) as ER by (unfold WIGGLE_ANGLE_RANGE, micro; num_R; f_equal; field).
  destruct (C49_annulus (1/2000) (1/1000) 32 k) as (_&H&_); [lra|lia|done|]. subst p. rewrite ER. cbn [fst snd]. change WIGGLE_ANGLE_STEPS with 32%nat. lra.
Qed.

Print Assumptions C47_criterion.
Print Assumptions C47_finding_constant_history.
Print Assumptions C48_within_turn.
Print Assumptions C48_past_turn.
Print Assumptions C48_finding_negative_index.
Print Assumptions C48_finding_no_beam.
Print Assumptions C49_annulus.
Print Assumptions C49_module_constants.

(** the criterion on a history of five pairs: standard deviation exactly 1 *)
Example C47_case : is_stable 5 2 (map (fun x => (Some (x + 1), Some (x - 1))) [3; 3; 3; 3; 3]) = true.
Proof.
  apply C47_criterion. exists (map (fun x => (x + 1, x - 1)) [3; 3; 3; 3; 3]). split; [right; split; [done|]; split; [done|]; by exists []|].
  assert (stddev (both (map (fun x => (x + 1, x - 1)) [3; 3; 3; 3; 3])) = 1) as ->; [|lra].
  unfold stddev, both, avg. simpl. match goal with |- R_sqrt.sqrt ?x = _ => replace x with 1 by (unfold Rsqr; field) end. apply sqrt_1.
Qed.
