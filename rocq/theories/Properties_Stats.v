(** C59: weighted statistics. *)
From Coq Require Import Reals Lra Lia QArith ZArith.
From stdpp Require Import base gmap strings list.
From Verif Require Import Num Base Model_Arr Model_SC Model_Err Model_Beam Model_Orbit Model_Stats Lemmas Proofs_Beam Spec Properties_Field Properties_Beam Properties_Orbit.
Local Open Scope list_scope.
Local Open Scope R_scope.

(** * Specification *)

(** errors that are all numbers different from zero *)
Definition usable_errors (es : list (option R)) (l : list R) : Prop := es = map Some l /\ Forall (fun e => e <> 0) l.
(** sum of squared deviations *)
Definition deviations (l : list R) : R := foldr Rplus 0 (map (fun x => Rsqr (x - avg l)) l).

(** * Lemmas *)
Lemma weights_spec es : weights_from_errors es = None \/ exists l, es = Some (map Some l) /\ Forall (fun e => e <> 0) l /\ weights_from_errors es = Some (map (fun e => / (e * e)) l).
Proof.
  unfold weights_from_errors. destruct es as [es|]; [|auto]. destruct (no_gaps es) as [l|] eqn:E; [|auto]. apply no_gaps_spec in E. subst es.
  destruct (existsb _ l) eqn:Ex; [auto|]. right. exists l. split; [done|]. split.
  - apply Forall_forall. intros e He ->. assert (existsb (fun e => neqb e n0) l = true) as Ht; [|congruence].
    apply existsb_exists. exists 0. split; [by apply elem_of_list_In|]. apply Reqb_true. reflexivity.
  - f_equal. apply map_ext. intros e. num_R. unfold Rdiv. lra.
Qed.
Lemma weights_usable l : Forall (fun e => e <> 0) l -> weights_from_errors (Some (map Some l)) = Some (map (fun e => / (e * e)) l).
Proof.
  intros Hl. unfold weights_from_errors. rewrite (proj2 (no_gaps_spec _ l) eq_refl).
  destruct (existsb _ l) eqn:Ex.
  - apply existsb_exists in Ex as (e&He&E). apply Reqb_true in E. apply elem_of_list_In in He. rewrite Forall_forall in Hl. exfalso. by apply (Hl e He).
  - f_equal. apply map_ext. intros e. num_R. unfold Rdiv. lra.
Qed.
Lemma inv_sq_pos e : e <> 0 -> 0 < / (e * e).
Proof. intros H. apply Rinv_0_lt_compat. nra. Qed.
Lemma weights_pos l : Forall (fun e => e <> 0) l -> Forall (fun w => 0 < w) (map (fun e => / (e * e)) l).
Proof. intros H. apply Forall_map. eapply Forall_impl; [exact H|]. intros e. apply inv_sq_pos. Qed.
Lemma rsum_pos l : l <> [] -> Forall (fun w => 0 < w) l -> 0 < rsum l.
Proof. destruct l as [|x l]; [done|]. intros _ H. apply Forall_cons in H as [Hx Hl]. simpl. assert (0 <= rsum l); [apply rsum_nonneg; eapply Forall_impl; [exact Hl|]; intros; lra|lra]. Qed.
Lemma rsum_zip_affine a c (x w : list R) : length x = length w -> rsum (zip_with Rmult (map (fun y => a * y + c) x) w) = a * rsum (zip_with Rmult x w) + c * rsum w.
Proof. revert w. induction x as [|y x IH]; intros [|v w] H; simpl in *; try lia; [lra|]. rewrite IH by lia. lra. Qed.
Lemma rsum_zip_bounds a b (x w : list R) : length x = length w -> Forall (fun w => 0 < w) w -> Forall (fun y => a <= y <= b) x ->
  a * rsum w <= rsum (zip_with Rmult x w) <= b * rsum w.
Proof.
  revert w. induction x as [|y x IH]; intros [|v w] H Hw Hx; simpl in *; try lia; [lra|]. apply Forall_cons in Hw as [? Hw]. apply Forall_cons in Hx as [? Hx].
  specialize (IH w ltac:(lia) Hw Hx). nra.
Qed.
Lemma rsum_bounds a b (x : list R) : Forall (fun y => a <= y <= b) x -> a * INR (length x) <= rsum x <= b * INR (length x).
Proof. induction 1 as [|y x H _ IH]; [simpl; lra|]. cbn [length rsum foldr]. rewrite S_INR. fold (rsum x). lra. Qed.
Lemma average_ok (d : list R) w m : average d w = Ok m ->
  match w with None => d <> [] /\ m = avg d | Some w => length w = length d /\ rsum w <> 0 /\ m = rsum (zip_with Rmult d w) / rsum w end.
Proof.
  unfold average. destruct w as [w|].
  - destruct (length w =? length d)%nat eqn:E; [|done]. apply Nat.eqb_eq in E. rewrite !nsum_rsum. num_R. destruct (Reqb (rsum w) 0) eqn:E0; [done|]. apply Reqb_false in E0. by intros [= <-].
  - destruct (length d =? 0)%nat eqn:E; [done|]. apply Nat.eqb_neq in E. intros H. assert (m = mean d) as -> by congruence. rewrite mean_avg. split; [by destruct d|done].
Qed.
Lemma rsum_replicate (n : nat) (x : R) : rsum (replicate n x) = INR n * x.
Proof. induction n as [|n IH]; [simpl; lra|]. cbn [replicate rsum foldr]. fold (rsum (replicate n x)). rewrite IH, S_INR. lra. Qed.
Lemma rsum_cons x (l : list R) : rsum (x :: l) = x + rsum l.
Proof. reflexivity. Qed.
Lemma kish (w : list R) : Forall (fun w => 0 < w) w -> rsum (map (fun x => x * x) w) <= rsum w * rsum w /\ rsum w * rsum w <= INR (length w) * rsum (map (fun x => x * x) w).
Proof.
  induction 1 as [|x w Hx Hw IH]; [simpl; lra|]. cbn [map length]. rewrite S_INR, !rsum_cons. destruct IH as [I1 I2].
  assert (0 <= rsum w) as Hs by (apply rsum_nonneg; eapply Forall_impl; [exact Hw|]; intros; lra).
  split; [nra|].
  assert (2 * x * rsum w <= INR (length w) * (x * x) + rsum (map (fun x => x * x) w)) as H; [|lra].
  clear -Hx. induction w as [|y w IH]; [simpl; lra|]. cbn [map length]. rewrite S_INR, !rsum_cons. pose proof (Rle_0_sqr (x - y)) as Hq; unfold Rsqr in Hq. lra.
Qed.

(** * The theorems *)

(** weights: one over the squared errors when these are numbers different from zero, else none *)
Theorem C59_weights es l : usable_errors es l -> exists w, weights_from_errors (Some es) = Some w /\ length w = length l /\
  forall i e, l !! i = Some e -> exists v, w !! i = Some v /\ 0 < v /\ v * (e * e) = 1.
Proof.
  intros [-> Hl]. exists (map (fun e => / (e * e)) l). split; [by apply weights_usable|]. split; [by rewrite map_length|]. intros i e He.
  assert (e <> 0) as Hne by (rewrite Forall_forall in Hl; apply Hl; by eapply elem_of_list_lookup_2).
  exists (/ (e * e)). split; [by rewrite list_lookup_fmap, He|]. split; [by apply inv_sq_pos|]. field. done.
Qed.
Theorem C59_no_weights (es : list (option R)) : None ∈ es \/ Some 0 ∈ es -> weights_from_errors (Some es) = None.
Proof.
  intros H. destruct (weights_spec (Some es)) as [?|(l&[= ->]&Hl&_)]; [done|]. exfalso. rewrite Forall_forall in Hl. destruct H as [H|H].
  - apply elem_of_list_fmap in H as (?&?&_). done.
  - apply elem_of_list_fmap in H as (?&[= <-]&H). by apply (Hl 0).
Qed.
(** the weighted mean lies between bounds of the data *)
Theorem C59_between data errors m a b : weighted_mean data errors = Ok m -> Forall (fun x => a <= x <= b) data -> a <= m <= b.
Proof.
  intros H Hd. unfold weighted_mean in H. apply average_ok in H. destruct (weights_spec errors) as [E|(l&->&Hl&E)]; rewrite E in H.
  - destruct H as [Hne ->]. unfold avg. fold (rsum data). pose proof (rsum_bounds _ _ _ Hd) as Hb. assert (0 < INR (length data)) as Hp by (destruct data; [done|]; apply lt_0_INR; simpl; lia).
    split; [apply Rmult_le_reg_r with (INR (length data))|apply Rmult_le_reg_r with (INR (length data))]; try done; unfold Rdiv; rewrite Rmult_assoc, Rinv_l by lra; lra.
  - destruct H as (HL&Hz&->). set (w := map (fun e => / (e * e)) l) in *. assert (Forall (fun w => 0 < w) w) as Hw by (by apply weights_pos).
    assert (0 < rsum w) as Hp by (apply rsum_pos; [intros ->; by apply Hz|done]).
    pose proof (rsum_zip_bounds _ _ _ _ (eq_sym HL) Hw Hd).
    split; (apply Rmult_le_reg_r with (rsum w); [done|]; unfold Rdiv; rewrite Rmult_assoc, Rinv_l by lra; lra).
Qed.
(** the defining equation with errors: the deviations, each divided by its squared error, add up to zero;
    and any number with this property is the weighted mean *)
Theorem C59_balance data l m : Forall (fun e => e <> 0) l -> length data = length l -> data <> [] ->
  weighted_mean data (Some (map Some l)) = Ok m <-> foldr Rplus 0 (zip_with (fun x e => (x - m) / (e * e)) data l) = 0.
Proof.
  intros Hl HL Hne. unfold weighted_mean. rewrite weights_usable by done. set (w := map (fun e => / (e * e)) l).
  assert (length w = length data) as HLw by (unfold w; by rewrite map_length).
  assert (0 < rsum w) as Hp. { apply rsum_pos; [|by apply weights_pos]. unfold w. destruct l; [destruct data; done|done]. }
  assert (foldr Rplus 0 (zip_with (fun x e => (x - m) / (e * e)) data l) = rsum (zip_with Rmult data w) - m * rsum w) as ->.
  { unfold w. clear -HL. revert l HL. induction data as [|x data IH]; intros [|e l] HL; simpl in *; try lia; [lra|]. rewrite IH by lia. unfold Rdiv, rsum. lra. }
  unfold average. rewrite (proj2 (Nat.eqb_eq _ _) HLw), !nsum_rsum. num_R. rewrite (proj2 (Reqb_false (rsum w) 0)) by lra.
  set (S := rsum (zip_with Rmult data w)). split.
  - intros [= <-]. field. lra.
  - intros H. f_equal. replace S with (m * rsum w) by lra. field. lra.
Qed.
(** with equal errors, and when errors cannot be used, it is the plain mean *)
Theorem C59_plain_mean data errors : data <> [] ->
  (errors = None \/ (exists es, errors = Some es /\ (None ∈ es \/ Some 0 ∈ es)) \/ exists e, e <> 0 /\ errors = Some (replicate (length data) (Some e))) ->
  weighted_mean data errors = Ok (avg data).
Proof.
  intros Hne H. assert (length data <> 0%nat) as HL by (by destruct data).
  assert (weights_from_errors errors = None -> weighted_mean data errors = Ok (avg data)) as Hn.
  { intros E. unfold weighted_mean, average. rewrite E, (proj2 (Nat.eqb_neq _ _) HL). by rewrite mean_avg. }
  destruct H as [->|[(es&->&H)|(e&He&->)]].
  - by apply Hn.
  - apply Hn. by apply C59_no_weights.
  - replace (replicate (length data) (Some e)) with (map Some (replicate (length data) e)) by (apply fmap_replicate).
    apply C59_balance; [by apply Forall_replicate|by rewrite replicate_length|done|].
    assert (forall m (d : list R), foldr Rplus 0 (zip_with (fun x e => (x - m) / (e * e)) d (replicate (length d) e)) = (rsum d - m * INR (length d)) / (e * e)) as ->.
    { intros m d. induction d as [|x d IH]; [simpl; unfold Rdiv; lra|]. cbn [length replicate zip_with foldr]. rewrite IH, S_INR. unfold rsum. simpl. field. done. }
    unfold avg. fold (rsum data). assert (INR (length data) <> 0) by (apply not_0_INR; done). field_simplify; [|split; done]. field. done.
Qed.
(** translation and scaling, success and failure alike *)
Theorem C59_equivariant data errors a c :
  weighted_mean (map (fun x => a * x + c) data) errors = match weighted_mean data errors with Ok m => Ok (a * m + c) | Err e => Err e end.
Proof.
  unfold weighted_mean, average. destruct (weights_from_errors errors) as [w|]; rewrite map_length.
  - destruct (length w =? length data)%nat eqn:E; [|done]. apply Nat.eqb_eq in E. rewrite !nsum_rsum. num_R. destruct (Reqb (rsum w) 0) eqn:E0; [done|]. apply Reqb_false in E0.
    f_equal. change (@nmul R _) with Rmult. rewrite rsum_zip_affine by done. field. done.
  - destruct (length data =? 0)%nat eqn:E; [done|]. apply Nat.eqb_neq in E. f_equal. rewrite !mean_avg. unfold avg. rewrite map_length.
    assert (INR (length data) <> 0) as Hn by (by apply not_0_INR).
    assert (foldr Rplus 0 (map (fun x => a * x + c) data) = a * foldr Rplus 0 data + c * INR (length data)) as ->.
    { clear. induction data as [|x d IH]; [simpl; lra|]. cbn [map foldr length]. rewrite IH, S_INR. lra. }
    field. done.
Qed.
(** The finding: without data (and hence without errors) the mean fails instead of being undefined. *)
Theorem C59_finding_empty : weighted_mean (T:=R) [] (Some []) = Err ZeroDivisionError.
Proof.
  unfold weighted_mean, weights_from_errors, average. cbn [no_gaps existsb map length Nat.eqb].
  destruct (neqb (nsum (T:=R) []) n0) eqn:E; [done|]. apply Reqb_false in E. exfalso. by apply E.
Qed.

(** effective sample size: at least two, otherwise at most the number of points, which it is for equal weights *)
Theorem C59_sample_size data w n : Forall (fun v => 0 < v) w -> effective_sample_size data (Some w) = Ok n -> 2 <= n <= Rmax 2 (INR (length w)).
Proof.
  intros Hw H. unfold effective_sample_size in H. apply rbind_ok in H as (q&Hq&H). apply qdivR_ok in Hq as [-> Hz]. rewrite !nsum_rsum in *. injection H as <-.
  change (@nmul R _) with Rmult in *. set (s2 := rsum (map _ w)) in *. destruct (kish w Hw) as [_ HK]. fold s2 in HK.
  assert (0 < s2) as Hp.
  { assert (0 <= s2); [|lra]. unfold s2. apply rsum_nonneg. apply Forall_map. eapply Forall_impl; [exact Hw|]. intros x ?; simpl in *; nra. }
  assert (rsum w * rsum w / s2 <= INR (length w)) as Hle. { apply Rmult_le_reg_r with s2; [done|]. unfold Rdiv. rewrite Rmult_assoc, Rinv_l by lra. lra. }
  unfold ntwo. num_R. replace (1 + 1) with 2 by lra. destruct (Rltb 2 _) eqn:E.
  - apply Rltb_true in E. split; [lra|]. eapply Rle_trans; [exact Hle|]. apply Rmax_r.
  - split; [lra|]. apply Rmax_l.
Qed.
Theorem C59_sample_size_equal data v m : v <> 0 -> effective_sample_size data (Some (replicate (S m) v)) = Ok (Rmax 2 (INR (S m))).
Proof.
  intros Hv. unfold effective_sample_size. unfold qdiv. rewrite !nsum_rsum. change (@nmul R _) with Rmult.
  replace (map (fun x => x * x) (replicate (S m) v)) with (replicate (S m) (v * v)) by (symmetry; apply (fmap_replicate (fun x => x * x))). rewrite !rsum_replicate.
  assert (0 < INR (S m)) as Hm by (apply lt_0_INR; lia). assert (0 < v * v) as Hv2 by nra.
  change (neqb ?a n0) with (Reqb a 0). rewrite (proj2 (Reqb_false (INR (S m) * (v * v)) 0)) by nra. cbn [rbind]. f_equal.
  change (@ndiv R _) with Rdiv. replace (INR (S m) * v * (INR (S m) * v) / (INR (S m) * (v * v))) with (INR (S m)) by (field; split; lra).
  unfold ntwo. num_R. replace (1 + 1) with 2 by lra. destruct (Rltb 2 _) eqn:E; [apply Rltb_true in E; rewrite Rmax_right; lra|apply Rltb_false in E; rewrite Rmax_left; lra].
Qed.
Theorem C59_sample_size_unweighted (data : list R) : effective_sample_size data None = Ok (Rmax 2 (INR (length data))).
Proof.
  unfold effective_sample_size. cbn [rbind]. f_equal. unfold ntwo. rewrite nofnat_R. change (nadd n1 n1) with (1 + 1). replace (1 + 1) with 2 by lra. change (nltb 2 ?a) with (Rltb 2 a).
  destruct (Rltb 2 _) eqn:E; [apply Rltb_true in E; rewrite Rmax_right; lra|apply Rltb_false in E; rewrite Rmax_left; lra].
Qed.
Theorem C59_unbias data w u : unbias_variance (T:=R) data w = Ok u -> exists n, effective_sample_size data w = Ok n /\ u * (n - 1) = n /\ 1 < u <= 2.
Proof.
  unfold unbias_variance. intros H. apply rbind_ok in H as (n&Hn&H). apply qdivR_ok in H as [-> Hz]. exists n. split; [done|].
  assert (2 <= n) as H2. { unfold effective_sample_size in Hn. apply rbind_ok in Hn as (q&_&Hn). injection Hn as <-. unfold ntwo. num_R. replace (1 + 1) with 2 by lra.
    destruct (Rltb 2 q) eqn:E; [apply Rltb_true in E; lra|lra]. }
  num_R. split; [field; lra|]. assert (0 < / (n - 1) <= 1). { split; [apply Rinv_0_lt_compat; lra|]. rewrite <- Rinv_1. apply Rinv_le_contravar; lra. }
  replace (n / (n - 1)) with (1 + / (n - 1)) by (field; lra). lra.
Qed.
(** the error does not depend on the origin *)
Theorem C59_error_translation quantile data errors c : weighted_error quantile (map (fun x => x + c) data) errors = weighted_error (T:=R) quantile data errors.
Proof.
  unfold weighted_error. assert (average (map (fun x => x + c) data) (weights_from_errors errors) = match average data (weights_from_errors errors) with Ok m => Ok (m + c) | Err e => Err e end) as ->.
  { pose proof (C59_equivariant data errors 1 c) as H. unfold weighted_mean in H. replace (map (fun x => x + c) data) with (map (fun x => 1 * x + c) data) by (apply map_ext; intros; lra).
    rewrite H. destruct (average data _); [|reflexivity]. f_equal. lra. }
  destruct (average data _) as [m|]; [|done]. cbn [rbind].
  replace (map (fun x => nmul (nsub x (m + c)) (nsub x (m + c))) (map (fun x => x + c) data)) with (map (fun x => nmul (nsub x m) (nsub x m)) data).
  2:{ rewrite map_map. apply map_ext. intros x. num_R. lra. }
  unfold unbias_variance, effective_sample_size. rewrite map_length. done.
Qed.
(** without errors it is the sample standard deviation times the quantile *)
Theorem C59_error_unweighted quantile (data : list R) : (2 <= length data)%nat ->
  weighted_error quantile data None = Ok (R_sqrt.sqrt (deviations data / (INR (length data) - 1)) * quantile (INR (length data) - 1)).
Proof.
  intros Hd. unfold weighted_error. simpl weights_from_errors. unfold average. rewrite (proj2 (Nat.eqb_neq (length data) 0)) by lia. cbn [rbind]. rewrite map_length, (proj2 (Nat.eqb_neq (length data) 0)) by lia. cbn [rbind].
  assert (2 <= INR (length data)) as Hn. { apply le_INR in Hd. simpl in Hd. lra. }
  unfold unbias_variance. rewrite C59_sample_size_unweighted. cbn [rbind]. rewrite Rmax_right by done. unfold qdiv. change (neqb ?a n0) with (Reqb a 0).
  change (@nsub R _) with Rminus. change (@n1 R _) with 1. change (@nmul R _) with Rmult. change (@ndiv R _) with Rdiv. rewrite (proj2 (Reqb_false (INR (length data) - 1) 0)) by lra. cbn [rbind]. f_equal. f_equal.
  change nsqrt with R_sqrt.sqrt. f_equal. rewrite !mean_avg. unfold deviations. unfold avg at 1. rewrite map_length. unfold Rsqr. field. lra.
Qed.
(** with errors: the squared deviations in units of the errors and one more, over the sum of the weights, corrected for the sample size *)
Definition kish_size (l : list R) : R := Rmax 2 (Rsqr (foldr Rplus 0 (map (fun e => / (e * e)) l)) / foldr Rplus 0 (map (fun e => Rsqr (/ (e * e))) l)).
Theorem C59_error_weighted quantile (data l : list R) : Forall (fun e => e <> 0) l -> length data = length l -> data <> [] ->
  let n := kish_size l in exists m, weighted_mean data (Some (map Some l)) = Ok m /\
  weighted_error quantile data (Some (map Some l)) =
    Ok (R_sqrt.sqrt ((foldr Rplus 0 (zip_with (fun x e => Rsqr ((x - m) / e)) data l) + 1) / foldr Rplus 0 (map (fun e => / (e * e)) l) * (n / (n - 1))) * quantile (n - 1)).
Proof.
  intros Hl HL Hne n. unfold weighted_mean, weighted_error. rewrite weights_usable by done. set (w := map (fun e => / (e * e)) l).
  assert (length w = length data) as HLw by (unfold w; by rewrite map_length).
  assert (w <> []) as Hwne by (unfold w; destruct l; [destruct data; done|done]).
  assert (Forall (fun v => 0 < v) w) as Hw by (by apply weights_pos).
  assert (0 < rsum w) as Hp by (by apply rsum_pos).
  assert (0 < rsum (map (fun v => v * v) w)) as Hp2. { apply rsum_pos; [by destruct w|]. apply Forall_map. eapply Forall_impl; [exact Hw|]. intros v Hv; simpl in *; nra. }
  assert (forall d : list R, length d = length data -> average d (Some w) = Ok (rsum (zip_with Rmult d w) / rsum w)) as Hav.
  { intros d Hd. unfold average. rewrite (proj2 (Nat.eqb_eq (length w) (length d))) by congruence. rewrite !nsum_rsum. num_R. by rewrite (proj2 (Reqb_false (rsum w) 0)) by lra. }
  exists (rsum (zip_with Rmult data w) / rsum w). split; [by apply Hav|]. rewrite Hav by done. cbn [rbind]. set (m := rsum (zip_with Rmult data w) / rsum w). rewrite Hav by (by rewrite map_length). cbn [rbind].
  unfold qdiv at 1. rewrite nsum_rsum. change (neqb (rsum w) n0) with (Reqb (rsum w) 0). rewrite (proj2 (Reqb_false (rsum w) 0)) by lra. cbn [rbind].
  assert (effective_sample_size data (Some w) = Ok n) as Hn.
  { unfold effective_sample_size, qdiv. rewrite !nsum_rsum. change (@nmul R _) with Rmult. change (neqb ?a n0) with (Reqb a 0). rewrite (proj2 (Reqb_false (rsum (map (fun v => v * v) w)) 0)) by lra. cbn [rbind]. f_equal.
    unfold n, kish_size. fold (rsum (map (fun e => / (e * e)) l)). fold w. replace (foldr Rplus 0 (map (fun e => Rsqr (/ (e * e))) l)) with (rsum (map (fun v => v * v) w)) by (unfold w; rewrite map_map; reflexivity).
    unfold Rsqr. change (@ndiv R _) with Rdiv. unfold ntwo. num_R. replace (1 + 1) with 2 by lra. destruct (Rltb 2 _) eqn:E; [apply Rltb_true in E; rewrite Rmax_right; lra|apply Rltb_false in E; rewrite Rmax_left; lra]. }
  assert (2 <= n) as H2 by apply Rmax_l.
  unfold unbias_variance. rewrite Hn. cbn [rbind]. unfold qdiv. change (neqb ?a n0) with (Reqb a 0). change (@nsub R _) with Rminus. change (@n1 R _) with 1. rewrite (proj2 (Reqb_false (n - 1) 0)) by lra. cbn [rbind].
  f_equal. change (@nmul R _) with Rmult. f_equal. change nsqrt with R_sqrt.sqrt. f_equal. change (@nadd R _) with Rplus. change (@ndiv R _) with Rdiv. f_equal.
  fold (rsum w). fold (rsum (zip_with (fun x e => Rsqr ((x - m) / e)) data l)).
  assert (rsum (zip_with Rmult (map (fun x => (x - m) * (x - m)) data) w) = rsum (zip_with (fun x e => Rsqr ((x - m) / e)) data l)) as ->; [|field; lra].
  clearbody m. unfold w. clear -Hl HL. revert data HL. induction l as [|e l IH]; intros [|x data] HL; try done. apply Forall_cons in Hl as [He Hl]. cbn [map zip_with]. simpl in HL. rewrite !rsum_cons, IH by (done || lia). f_equal. unfold Rsqr. field. done.
Qed.
Print Assumptions C59_weights.
Print Assumptions C59_no_weights.
Print Assumptions C59_between.
Print Assumptions C59_balance.
Print Assumptions C59_plain_mean.
Print Assumptions C59_equivariant.
Print Assumptions C59_finding_empty.
Print Assumptions C59_sample_size.
Print Assumptions C59_sample_size_equal.
Print Assumptions C59_sample_size_unweighted.
Print Assumptions C59_unbias.
Print Assumptions C59_error_translation.
Print Assumptions C59_error_unweighted.
Print Assumptions C59_error_weighted.

(** * Cases *)
Local Open Scope Q_scope.
Example C59_case : weighted_mean (T:=Q) [1; 5] (Some [Some 1; Some 2]) = Ok (9#5) /\ weighted_mean (T:=Q) [1; 5] (Some [Some 1; Some 0]) = Ok 3 /\
  effective_sample_size (T:=Q) [1; 5; 2] (Some [1; 1; 1#4]) = Ok (27#11) /\ effective_sample_size (T:=Q) [1] (Some [4]) = Ok 2.
Proof. vm_compute. repeat split. Qed.
