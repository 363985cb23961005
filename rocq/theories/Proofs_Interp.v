(** Interpolation of support offsets. *)
From Coq Require Import Reals Lra QArith.
From stdpp Require Import base gmap strings list.
From Verif Require Import Num Base Model_Arr Model_SC Model_Err Lemmas Proofs_Reg Proofs_Update Proofs_Loop Spec Proofs_CM Proofs_Field Proofs_Err
  Properties_Random Properties_Field Properties_Errors Properties_Circ Properties_Support.
Local Open Scope string_scope.
Local Open Scope list_scope.

(** * numpy.interp and numpy.unique *)
(** the straight line through (x0, f0) and (x1, f1) *)
Definition line (x0 x1 f0 f1 x : R) : R := (f0 + (f1 - f0) * (x - x0) / (x1 - x0))%R.
Lemma line_start x0 x1 f0 f1 : line x0 x1 f0 f1 x0 = f0.
Proof. unfold line. rewrite (Rminus_diag_eq x0 x0) by reflexivity. unfold Rdiv. rewrite Rmult_0_r, Rmult_0_l. lra. Qed.
Lemma line_end x0 x1 f0 f1 : x0 <> x1 -> line x0 x1 f0 f1 x1 = f1.
Proof. intros H. unfold line. field. lra. Qed.
Lemma interp2_line x x0 x1 f0 f1 : (x0 < x1)%R -> (x0 <= x <= x1)%R -> interp2 x x0 x1 f0 f1 = line x0 x1 f0 f1 x.
Proof.
  intros Hlt [H1 H2]. unfold interp2. num_R. destruct (Rleb x1 x) eqn:E1.
  - apply Rleb_true in E1. assert (x = x1) as -> by lra. by rewrite line_end by lra.
  - destruct (Rleb x x0) eqn:E2.
    + apply Rleb_true in E2. assert (x = x0) as -> by lra. by rewrite line_start.
    + unfold line. field. lra.
Qed.
Definition increasing (l : list (R * R)) : Prop := forall i j p q, i < j -> l !! i = Some p -> l !! j = Some q -> (p.1 < q.1)%R.
Lemma increasing_tail p l : increasing (p :: l) -> increasing l.
Proof. intros H i j a b Hij Ha Hb. apply (H (S i) (S j)); [lia|done|done]. Qed.
Lemma interp_at_sample x f l : increasing l -> (x, f) ∈ l -> interp x l = Ok f.
Proof.
  induction l as [|[x0 f0] l IH]; intros Hinc Hin; [inversion Hin|]. cbn [interp]. num_R.
  apply elem_of_cons in Hin as [[= -> ->]|Hin].
  - destruct (Rleb x0 x0) eqn:E; [done|]. apply Rleb_false in E. lra.
  - apply elem_of_list_lookup in Hin as [k Hk]. assert (x0 < x)%R as Hlt by (apply (Hinc 0%nat (S k) (x0, f0) (x, f)); [lia|done|done]).
    destruct (Rleb x x0) eqn:E; [apply Rleb_true in E; lra|]. destruct l as [|[x1 f1] l]; [discriminate|].
    destruct (Rltb x x1) eqn:E1.
    + apply Rltb_true in E1. destruct k as [|k]; [injection Hk as -> ->; lra|].
      assert (x1 < x)%R by (apply (Hinc 1%nat (S (S k)) (x1, f1) (x, f)); [lia|done|done]). lra.
    + apply IH; [by eapply increasing_tail|]. by eapply elem_of_list_lookup_2.
Qed.
Definition uinc (l : list (R * nat)) : Prop := forall i j p q, i < j -> l !! i = Some p -> l !! j = Some q -> (p.1 < q.1)%R.
Lemma uins_lookup (x : R) i l : forall p, p ∈ uins x i l -> p ∈ l \/ (p = (x, i) /\ forall q, q ∈ l -> uinc l -> q.1 <> x).
Proof.
  induction l as [|[y j] l IH]; intros p Hp; cbn [uins] in Hp.
  - apply elem_of_list_singleton in Hp as ->. right. split; [done|]. intros q Hq. inversion Hq.
  - num_R. destruct (Reqb x y) eqn:E; [by left|]. apply Reqb_false in E. destruct (Rltb x y) eqn:E1.
    + apply elem_of_cons in Hp as [->|Hp]; [|by left]. right. split; [done|]. apply Rltb_true in E1. intros q Hq Hinc.
      apply elem_of_list_lookup in Hq as [k Hk]. destruct k as [|k]; [injection Hk as <-; simpl; lra|].
      assert (y < q.1)%R by (apply (Hinc 0%nat (S k) (y, j) q); [lia|done|done]). lra.
    + apply elem_of_cons in Hp as [->|Hp]; [left; left|]. destruct (IH p Hp) as [?|[-> Hq]]; [left; by right|]. right. split; [done|].
      intros q Hin Hinc. apply elem_of_cons in Hin as [->|Hin]; [simpl; lra|]. apply Hq; [done|]. intros a b u v Hab Hu Hv. apply (Hinc (S a) (S b)); [lia|done|done].
Qed.
Lemma uins_keeps (x : R) i l p : p ∈ l -> p ∈ uins x i l.
Proof.
  induction l as [|[y j] l IH]; intros Hp; [inversion Hp|]. cbn [uins]. destruct (neqb x y); [done|]. destruct (nltb x y); [by right|].
  apply elem_of_cons in Hp as [->|Hp]; [left|right; auto].
Qed.
Lemma uins_has (x : R) i l : exists p, p ∈ uins x i l /\ p.1 = x.
Proof.
  induction l as [|[y j] l IH]; cbn [uins]; [exists (x, i); split; [left|done]|]. num_R. destruct (Reqb x y) eqn:E.
  - apply Reqb_true in E as ->. exists (y, j). split; [left|done].
  - destruct (Rltb x y); [exists (x, i); split; [left|done]|]. destruct IH as (p&Hp&<-). exists p. split; [by right|done].
Qed.
Lemma uinc_cons p l : uinc (p :: l) <-> uinc l /\ forall q, q ∈ l -> (p.1 < q.1)%R.
Proof.
  split.
  - intros H. split; [intros a b u v Hab Hu Hv; apply (H (S a) (S b)); [lia|done|done]|]. intros q Hq. apply elem_of_list_lookup in Hq as [k Hk].
    apply (H 0%nat (S k)); [lia|done|done].
  - intros [H1 H2] [|a] [|b] u v Hab Hu Hv; try lia; simpl in *; [injection Hu as <-; apply H2; by eapply elem_of_list_lookup_2|]. apply (H1 a b); [lia|done|done].
Qed.
Lemma uins_inc (x : R) i l : uinc l -> uinc (uins x i l).
Proof.
  induction l as [|[y j] l IH]; intros H; cbn [uins].
  - apply uinc_cons. split; [done|]. intros q Hq. inversion Hq.
  - num_R. pose proof H as H'. apply uinc_cons in H' as [H1 H2]. destruct (Reqb x y) eqn:E; [done|]. apply Reqb_false in E. destruct (Rltb x y) eqn:E1.
    + apply Rltb_true in E1. apply uinc_cons. split; [done|]. intros q Hq. apply elem_of_cons in Hq as [->|Hq]; [done|]. specialize (H2 q Hq). simpl in *. lra.
    + apply Rltb_false in E1. apply uinc_cons. split; [by apply IH|]. intros q Hq. apply uins_lookup in Hq as [Hq|[-> _]]; [by apply H2|]. simpl. lra.
Qed.
(** every value of the list occurs, with its first index *)
Definition first_index (s : list R) (x : R) (i : nat) : Prop := s !! i = Some x /\ forall j, j < i -> s !! j <> Some x.
Lemma unique_from_spec s0 pre acc : uinc acc -> (forall p, p ∈ acc -> first_index (pre ++ s0) p.1 p.2) -> (forall i x, i < length pre -> (pre ++ s0) !! i = Some x -> exists p, p ∈ acc /\ p.1 = x) ->
  let u := unique_index_from (length pre) acc s0 in
  uinc u /\ (forall p, p ∈ u -> first_index (pre ++ s0) p.1 p.2) /\ (forall i x, (pre ++ s0) !! i = Some x -> exists p, p ∈ u /\ p.1 = x).
Proof.
  revert pre acc. induction s0 as [|x s0 IH]; intros pre acc H1 H2 H3; cbn [unique_index_from].
  - split_and!; try done. intros i x Hx. apply (H3 i); [|done]. apply lookup_lt_Some in Hx. rewrite app_nil_r in Hx. done.
  - specialize (IH (pre ++ [x]) (uins x (length pre) acc)). rewrite app_length in IH. simpl in IH. rewrite Nat.add_1_r in IH. rewrite <- app_assoc in IH. simpl in IH. apply IH.
    + by apply uins_inc.
    + intros p Hp. apply uins_lookup in Hp as [Hp|[-> Hn]]; [by apply H2|]. simpl. split; [by rewrite list_lookup_middle|].
      intros j Hj Hx. destruct (H3 j x Hj Hx) as (q&Hq&E). by apply (Hn q Hq H1).
    + intros i y Hi Hy. destruct (decide (i = length pre)) as [->|Hne].
      * rewrite list_lookup_middle in Hy by done. injection Hy as <-. apply uins_has.
      * destruct (H3 i y) as (p&Hp&E); [lia|done|]. exists p. split; [by apply uins_keeps|done].
Qed.
Lemma unique_index_spec s : exists u, unique_index s = map snd u /\ uinc u /\ (forall p, p ∈ u -> first_index s p.1 p.2) /\ (forall i x, s !! i = Some x -> exists p, p ∈ u /\ p.1 = x).
Proof.
  exists (unique_index_from 0 [] s). split; [done|]. pose proof (unique_from_spec s [] []) as H. simpl in H. apply H; [intros ? ? ? ? ? Hx; done| |lia].
  intros p Hp. inversion Hp.
Qed.
Lemma first_index_unique s x i j : first_index s x i -> first_index s x j -> i = j.
Proof. intros [H1 H2] [H3 H4]. destruct (lt_eq_lt_dec i j) as [[?|?]|?]; [by exfalso; eapply H4|done|by exfalso; eapply H2]. Qed.
(** interpolating a row at a sample position returns the row's value at the first index with this position *)
Lemma sample_interp (sp row : list R) x i : first_index sp x i ->
  interp x (zip (map (fun i => default n0 (sp !! i)) (unique_index sp)) (map (fun i => default n0 (row !! i)) (unique_index sp))) = Ok (default 0%R (row !! i)).
Proof.
  intros Hf. destruct (unique_index_spec sp) as (u&->&Hinc&Hfi&Hall).
  assert (zip (map (fun i => default n0 (sp !! i)) (map snd u)) (map (fun i => default n0 (row !! i)) (map snd u)) = map (fun p => (p.1, default 0%R (row !! p.2))) u) as ->.
  { clear Hall Hinc. induction u as [|p u IH]; simpl; [done|]. f_equal; [|apply IH; intros q Hq; apply Hfi; by right].
    f_equal. destruct (Hfi p ltac:(left)) as [-> _]. done. }
  apply interp_at_sample.
  - intros a b p q Hab Hp Hq. rewrite list_lookup_fmap in Hp, Hq. destruct (u !! a) as [p'|] eqn:E1; [|discriminate]. destruct (u !! b) as [q'|] eqn:E2; [|discriminate].
    injection Hp as <-. injection Hq as <-. by apply (Hinc a b p' q').
  - destruct (Hall i x) as (p&Hp&E); [apply Hf|]. apply elem_of_list_fmap. exists p. split; [|done]. subst x. f_equal.
    by rewrite (first_index_unique sp p.1 i p.2) by auto.
Qed.
