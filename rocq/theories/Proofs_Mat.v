(** Matrices over the reals as lists of rows: entries of products and transposes, finite sums. *)
From Coq Require Import Reals Lra Lia.
From stdpp Require Import base gmap strings list.
From Verif Require Import Num Base Model_Arr Proofs_Beam.
Local Open Scope R_scope.

(** * Finite sums *)
Fixpoint sumn (n : nat) (f : nat -> R) : R := match n with O => 0 | S n' => sumn n' f + f n' end.
Lemma sumn_ext n f g : (forall k, (k < n)%nat -> f k = g k) -> sumn n f = sumn n g.
Proof. induction n as [|n IH]; intros H; simpl; [done|]. rewrite IH, H by (intros; try apply H; lia). done. Qed.
Lemma sumn_plus n f g : sumn n (fun k => f k + g k) = sumn n f + sumn n g.
Proof. induction n as [|n IH]; simpl; [lra|]. rewrite IH. lra. Qed.
Lemma sumn_scal n c f : sumn n (fun k => c * f k) = c * sumn n f.
Proof. induction n as [|n IH]; simpl; [lra|]. rewrite IH. lra. Qed.
Lemma sumn_scal_r n c f : sumn n (fun k => f k * c) = sumn n f * c.
Proof. induction n as [|n IH]; simpl; [lra|]. rewrite IH. lra. Qed.
Lemma sumn_zero n f : (forall k, (k < n)%nat -> f k = 0) -> sumn n f = 0.
Proof. induction n as [|n IH]; intros H; simpl; [done|]. rewrite IH, H by (intros; try apply H; lia). lra. Qed.
Lemma sumn_swap n m (f : nat -> nat -> R) : sumn n (fun i => sumn m (fun j => f i j)) = sumn m (fun j => sumn n (fun i => f i j)).
Proof. induction n as [|n IH]; simpl; [symmetry; by apply sumn_zero|]. rewrite IH, sumn_plus. done. Qed.
Definition delta (i j : nat) : R := if (i =? j)%nat then 1 else 0.
Lemma delta_same i : delta i i = 1.
Proof. unfold delta. by rewrite Nat.eqb_refl. Qed.
Lemma delta_ne i j : i <> j -> delta i j = 0.
Proof. intros H. unfold delta. destruct (Nat.eqb_spec i j); [done|done]. Qed.
Lemma delta_sym i j : delta i j = delta j i.
Proof. unfold delta. by rewrite Nat.eqb_sym. Qed.
Lemma sumn_delta n i f : (i < n)%nat -> sumn n (fun k => delta i k * f k) = f i.
Proof.
  induction n as [|n IH]; intros H; [lia|]. simpl. destruct (Nat.eq_dec i n) as [->|Hn].
  - rewrite delta_same, sumn_zero; [lra|]. intros k Hk. rewrite delta_ne by lia. lra.
  - rewrite IH, (delta_ne i n) by lia. lra.
Qed.
Lemma sumn_delta_r n i f : (i < n)%nat -> sumn n (fun k => f k * delta k i) = f i.
Proof. intros H. rewrite <- (sumn_delta n i f H). apply sumn_ext. intros k _. rewrite delta_sym. lra. Qed.
Lemma sumn_pos n f : (forall k, (k < n)%nat -> 0 <= f k) -> 0 <= sumn n f.
Proof. induction n as [|n IH]; intros H; simpl; [lra|]. assert (0 <= f n) by (apply H; lia). assert (0 <= sumn n f) by (apply IH; intros; apply H; lia). lra. Qed.
Lemma sumn_split n m f : sumn (n + m) f = sumn n f + sumn m (fun k => f (n + k)%nat).
Proof. induction m as [|m IH]; simpl; [rewrite Nat.add_0_r; lra|]. rewrite Nat.add_succ_r. simpl. rewrite IH. lra. Qed.
Lemma sumn_front n f : sumn (S n) f = f 0%nat + sumn n (fun k => f (S k)).
Proof. change (S n) with (1 + n)%nat. rewrite sumn_split. simpl. lra. Qed.

(** * Matrices *)
Definition shape (r c : nat) (m : list (list R)) : Prop := length m = r /\ Forall (fun row => length row = c) m.
Definition vget (v : list R) (i : nat) : R := default 0 (v !! i).
Lemma vget_nil i : vget [] i = 0. Proof. done. Qed.

Lemma rsum_sumn (l : list R) : rsum l = sumn (length l) (vget l).
Proof. induction l as [|x l IH]; [done|]. change (length (x :: l)) with (S (length l)). rewrite sumn_front. simpl. by rewrite IH. Qed.
Lemma dot_sumn (u v : list R) n : length u = n -> length v = n -> dot u v = sumn n (fun k => vget u k * vget v k).
Proof.
  intros Hu Hv. unfold dot. rewrite nsum_rsum, rsum_sumn. rewrite zip_with_length, Hu, Hv, Nat.min_id. apply sumn_ext. intros k Hk.
  unfold vget. rewrite lookup_zip_with. destruct (u !! k) as [x|] eqn:E1; [|apply lookup_ge_None in E1; lia]. destruct (v !! k) as [y|] eqn:E2; [|apply lookup_ge_None in E2; lia]. done.
Qed.
Lemma mget_row (m : list (list R)) i j : mget m i j = vget (default [] (m !! i)) j.
Proof. unfold mget, vget. destruct (m !! i); done. Qed.
Lemma shape_row r c m i : shape r c m -> (i < r)%nat -> exists row, m !! i = Some row /\ length row = c.
Proof. intros [HL HF] Hi. destruct (m !! i) as [row|] eqn:E; [|apply lookup_ge_None in E; lia]. exists row. split; [done|]. by eapply Forall_lookup_1 in HF. Qed.
Lemma col_length (m : list (list R)) j : length (col m j) = length m.
Proof. apply map_length. Qed.
Lemma col_get (m : list (list R)) j i : vget (col m j) i = mget m i j.
Proof. rewrite mget_row. unfold vget, col. rewrite list_lookup_fmap. destruct (m !! i); done. Qed.
Lemma shape_mtrans r c m : shape r c m -> (0 < r)%nat -> shape c r (mtrans m).
Proof.
  intros [HL HF] Hr. destruct m as [|row m]; [simpl in HL; lia|]. inversion HF; subst. unfold mtrans. split; [by rewrite map_length, seq_length|].
  apply Forall_map, Forall_forall. intros j _. by rewrite col_length.
Qed.
Lemma mtrans_lookup r c m j : shape r c m -> (0 < r)%nat -> (j < c)%nat -> mtrans m !! j = Some (col m j).
Proof.
  intros [HL HF] Hr Hj. destruct m as [|row m]; [simpl in HL; lia|]. inversion HF; subst. unfold mtrans. rewrite list_lookup_fmap, lookup_seq_lt by done. done.
Qed.
Lemma mget_mtrans r c m i j : shape r c m -> (j < c)%nat -> mget (mtrans m) j i = mget m i j.
Proof.
  intros H Hj. destruct (Nat.eq_dec r 0%nat) as [->|Hr].
  - destruct H as [HL _]. destruct m; [|done]. done.
  - rewrite (mget_row (mtrans m)). rewrite (mtrans_lookup r c) by (done || lia). simpl. by rewrite col_get.
Qed.
Lemma shape_mmul r m c a b : shape r m a -> shape m c b -> (0 < m)%nat -> shape r c (mmul a b).
Proof.
  intros [HLa HFa] Hb Hm. unfold mmul. split; [by rewrite map_length|]. apply Forall_map, Forall_forall. intros row _. rewrite map_length.
  by destruct (shape_mtrans _ _ _ Hb Hm).
Qed.
Lemma mget_mmul r m c a b i j : shape r m a -> shape m c b -> (i < r)%nat -> (j < c)%nat ->
  mget (mmul a b) i j = sumn m (fun k => mget a i k * mget b k j).
Proof.
  intros Ha Hb Hi Hj. destruct (shape_row _ _ _ _ Ha Hi) as (row&Hrow&HL). rewrite mget_row. unfold mmul. rewrite list_lookup_fmap, Hrow. simpl.
  destruct (Nat.eq_dec m 0%nat) as [->|Hm].
  - destruct Hb as [HLb _]. destruct b; [|done]. done.
  - unfold vget. rewrite list_lookup_fmap, (mtrans_lookup m c) by (done || lia). simpl.
    rewrite (dot_sumn _ _ m); [|done|by rewrite col_length; destruct Hb]. apply sumn_ext. intros k _. rewrite col_get, (mget_row a), Hrow. done.
Qed.
Lemma mget_ext r c a b : shape r c a -> shape r c b -> (forall i j, (i < r)%nat -> (j < c)%nat -> mget a i j = mget b i j) -> a = b.
Proof.
  intros Ha Hb H. apply list_eq. intros i. destruct (decide (i < r)%nat) as [Hi|Hi].
  - destruct (shape_row _ _ _ _ Ha Hi) as (ra&Ea&La). destruct (shape_row _ _ _ _ Hb Hi) as (rb&Eb&Lb). rewrite Ea, Eb. f_equal.
    apply list_eq. intros j. destruct (decide (j < c)%nat) as [Hj|Hj].
    + specialize (H i j Hi Hj). rewrite !mget_row, Ea, Eb in H. simpl in H. unfold vget in H.
      destruct (ra !! j) eqn:E1; [|apply lookup_ge_None in E1; lia]. destruct (rb !! j) eqn:E2; [|apply lookup_ge_None in E2; lia]. simpl in H. by subst.
    + rewrite !lookup_ge_None_2 by lia. done.
  - destruct Ha as [La _], Hb as [Lb _]. rewrite !lookup_ge_None_2 by lia. done.
Qed.
Lemma mvec_get r c m v i : shape r c m -> length v = c -> (i < r)%nat -> vget (mvec m v) i = sumn c (fun k => mget m i k * vget v k).
Proof.
  intros Hm Hv Hi. destruct (shape_row _ _ _ _ Hm Hi) as (row&Hrow&HL). unfold vget at 1, mvec. rewrite list_lookup_fmap, Hrow. simpl.
  rewrite (dot_sumn _ _ c) by done. apply sumn_ext. intros k _. by rewrite mget_row, Hrow.
Qed.
