(** Padded sums and the field computed by update_magnets. *)
From Coq Require Import Reals Lra.
From stdpp Require Import base gmap strings list.
From Verif Require Import Num Base Model_Arr Model_SC Model_Err Lemmas Proofs_Update Proofs_Setpoint Spec Proofs_CM.
Local Open Scope string_scope.
Local Open Scope list_scope.

Section Gen.
  Context {T : Type} {N : Num T}.
  (** every update of element [c] caused by updating [ords] comes from [m] *)
  Definition sole_updater (r : list (elem T)) (ords : list nat) (m c : nat) : Prop :=
    m ∈ ords /\ (c = m \/ c ∈ children r m) /\
    forall m', m' ∈ ords -> (c = m' \/ c ∈ children r m') -> m' = m.
  Lemma in_steps r ords p : p ∈ steps r ords <-> p.1 ∈ ords /\ (p.2 = p.1 \/ p.2 ∈ children (T:=T) r p.1).
  Proof.
    unfold steps. rewrite elem_of_list_In, in_concat. split.
    - intros (l&Hl&Hp). apply in_map_iff in Hl as (i&<-&Hi). apply elem_of_list_In in Hi, Hp. unfold steps1 in Hp.
      apply elem_of_cons in Hp as [->|Hp]; [simpl; auto|]. apply elem_of_list_fmap in Hp as (c&->&Hc). simpl. auto.
    - intros [Hi Hc]. exists (steps1 r p.1). split; [apply in_map, elem_of_list_In, Hi|]. apply elem_of_list_In. unfold steps1.
      destruct p as [m c]. simpl in *. destruct Hc as [->|Hc]; [left|right]. apply elem_of_list_fmap. eauto.
  Qed.
  Lemma attr_writes_unique src e ws a v v' : @attr_writes T N src e = Ok ws -> (a, v) ∈ ws -> (a, v') ∈ ws -> v = v'.
  Proof.
    unfold attr_writes. intros H. apply rbind_ok in H as (ab&_&H). apply rbind_ok in H as (pm&_&H). apply rbind_ok in H as (k&Hk&H). injection H as <-.
    assert (k = [] \/ exists x, k = [("KickAngle", x)]) as [->|[x ->]].
    { destruct (bool_decide _); [|injection Hk as <-; auto]. apply rbind_ok in Hk as (b0&_&Hk). apply rbind_ok in Hk as (a0&_&Hk). injection Hk as <-. eauto. }
    - simpl. rewrite !elem_of_cons, !elem_of_nil. intros H1 H2. destruct H1 as [H1|[H1|[H1|[]]]], H2 as [H2|[H2|[H2|[]]]]; congruence.
    - simpl. rewrite !elem_of_cons, !elem_of_nil. intros H1 H2. destruct H1 as [H1|[H1|[H1|[H1|[]]]]], H2 as [H2|[H2|[H2|[H2|[]]]]]; congruence.
  Qed.
  Lemma sole_update ords (s s' : sc T) u m c :
    update_magnets ords s = (Ok u, s') -> sole_updater (RING s) ords m c ->
    exists em ec ws, RING s !! m = Some em /\ RING s !! c = Some ec /\ attr_writes em ec = Ok ws /\
      (forall a v, (a, v) ∈ ws -> attr_at s' c a = Some v) /\ (forall a, (forall v, (a, v) ∉ ws) -> attr_at s' c a = attr_at s c a).
  Proof.
    intros H (Hm&Hc&Hso). apply update_magnets_ok in H as (_&W&HW&->).
    assert ((m, c) ∈ steps (RING s) ords) as Hst by (by apply in_steps).
    destruct (all_writes_some _ _ _ _ HW Hst) as (w1&Hw1&Hsub).
    pose proof Hw1 as Hp. unfold pair_writes in Hp. apply rbind_ok in Hp as (em&Hem&Hp). apply rbind_ok in Hp as (ec&Hec&Hp).
    apply rbind_ok in Hp as (ws&Hws&Hp). injection Hp as Hw1eq. apply idx_ok in Hem, Hec. simpl in *. exists em, ec, ws.
    assert (forall a v, (c, a, v) ∈ W -> (a, v) ∈ ws) as Hback.
    { intros a v Hin. destruct (all_writes_in _ _ _ HW _ Hin) as (p&Hp&E&_&_&w2&Hw2&Hin2). simpl in E. apply in_steps in Hp as [Hp1 Hp2].
      rewrite <- E in Hp2. assert (p = (m, c)) as ->. { destruct p as [m' c']. simpl in *. subst c'. f_equal. by apply Hso. }
      rewrite Hw1 in Hw2. injection Hw2 as <-. rewrite <- Hw1eq in Hin2. apply elem_of_list_fmap in Hin2 as ([a' v']&Ha&?). injection Ha as -> ->. done. }
    do 3 (split; [done|]). split.
    - intros a v Hin. rewrite attr_at_aget. simpl. rewrite aget_writes by (by eapply all_writes_range).
      destruct (last_write_in_any W c a v) as [v' Hv'].
      { apply Hsub. rewrite <- Hw1eq. apply elem_of_list_fmap. by exists (a, v). }
      rewrite Hv'. f_equal. apply last_write_in, Hback in Hv'. by eapply attr_writes_unique.
    - intros a Hno. rewrite !attr_at_aget. simpl. rewrite aget_writes by (by eapply all_writes_range).
      destruct (last_write W c a) as [v|] eqn:E; [|done]. apply last_write_in, Hback in E. by apply Hno in E.
  Qed.
  Lemma sole_fields ords (s s' : sc T) u m c :
    update_magnets ords s = (Ok u, s') -> sole_updater (RING s) ords m c ->
    exists em ec a b, RING s !! m = Some em /\ RING s !! c = Some ec /\ target_fields em ec = Ok (a, b) /\
      attr_at s' c "PolynomA" = Some (VVec a) /\ attr_at s' c "PolynomB" = Some (VVec b) /\
      attr_at s' c "MaxOrder" = Some (VInt (Z.of_nat (length b) - 1)) /\
      exists pm, attr_at s m "PassMethod" = Some (VStr pm) /\
        (pm = "CorrectorPass" -> exists b0 a0, b !! 0%nat = Some b0 /\ a !! 0%nat = Some a0 /\ attr_at s' c "KickAngle" = Some (VVec [b0; a0])) /\
        (pm <> "CorrectorPass" -> attr_at s' c "KickAngle" = attr_at s c "KickAngle").
  Proof.
    intros H Hso. destruct (sole_update _ _ _ _ _ _ H Hso) as (em&ec&ws&Hem&Hec&Hws&Hw&Hno).
    exists em, ec. unfold attr_writes in Hws. apply rbind_ok in Hws as ([a b]&Hab&Hws). exists a, b. simpl in Hws.
    apply rbind_ok in Hws as (pm&Hpm&Hws). apply attr_str_ok in Hpm. apply rbind_ok in Hws as (k&Hk&Hws). injection Hws as <-.
    do 3 (split; [done|]). split; [apply Hw; left|]. split; [apply Hw; right; left|].
    split; [apply Hw; right; right; apply elem_of_app; right; left|].
    exists pm. split; [unfold attr_at; by rewrite Hem|]. split.
    - intros ->. rewrite bool_decide_true in Hk by done. apply rbind_ok in Hk as (b0&Hb0&Hk). apply rbind_ok in Hk as (a0&Ha0&Hk). injection Hk as <-.
      apply idx_ok in Hb0, Ha0. exists b0, a0. do 2 (split; [done|]). apply Hw. right. right. left.
    - intros Hne. rewrite bool_decide_false in Hk by done. injection Hk as <-. apply Hno. intros v. simpl. rewrite !elem_of_cons, elem_of_nil. intros [?|[?|[?|[]]]]; congruence.
  Qed.
End Gen.

(** * Padded sums over the reals *)
(** entry of an array, zero beyond its end *)
Definition at0 (l : list R) (k : nat) : R := default 0%R (l !! k).
Lemma at0_nil k : at0 [] k = 0%R.
Proof. done. Qed.
Lemma at0_ge l k : length l <= k -> at0 l k = 0%R.
Proof. intros. unfold at0. by rewrite lookup_ge_None_2. Qed.
Lemma at0_ext (a b : list R) : length a = length b -> (forall k, at0 a k = at0 b k) -> a = b.
Proof.
  intros HL H. apply list_eq. intros k. specialize (H k). unfold at0 in H. destruct (decide (k < length a)) as [Hk|Hk].
  - destruct (lookup_lt_is_Some_2 a k Hk) as [x Hx]. destruct (lookup_lt_is_Some_2 b k) as [y Hy]; [lia|]. rewrite Hx, Hy in *. simpl in H. by subst.
  - rewrite !lookup_ge_None_2; [done|lia|lia].
Qed.
Lemma add_into_length (z v : list R) : length (add_into z v) = length z.
Proof. revert v. induction z as [|x z IH]; intros [|y v]; simpl; auto. Qed.
Lemma add_into_at (z v : list R) k : k < length z -> at0 (add_into z v) k = (at0 z k + at0 v k)%R.
Proof.
  unfold at0. revert v k. induction z as [|x z IH]; intros [|y v] k Hk; simpl in *; [lia|lia| |].
  - destruct k; simpl; num_R; lra.
  - destruct k; simpl; [num_R; lra|]. apply IH. lia.
Qed.
Lemma zeros_at n k : at0 (@zeros R _ n) k = 0%R.
Proof. unfold at0, zeros. destruct (decide (k < n)); [by rewrite lookup_replicate_2|]. by rewrite lookup_ge_None_2 by (rewrite replicate_length; lia). Qed.
Lemma ones_at n k : k < n -> at0 (@ones R _ n) k = 1%R.
Proof. intros. unfold at0, ones. by rewrite lookup_replicate_2. Qed.
Lemma add_padded1_length (a b : list R) : length (add_padded1 a b) = Nat.max (length a) (length b).
Proof. unfold add_padded1. rewrite !add_into_length. unfold zeros. by rewrite replicate_length. Qed.
Lemma add_padded1_at (a b : list R) k : at0 (add_padded1 a b) k = (at0 a k + at0 b k)%R.
Proof.
  destruct (decide (k < Nat.max (length a) (length b))) as [Hk|Hk].
  - unfold add_padded1. rewrite !add_into_at; rewrite ?add_into_length; unfold zeros; rewrite ?replicate_length; auto.
    fold (@zeros R _ (Nat.max (length a) (length b))). rewrite zeros_at. lra.
  - rewrite !at0_ge; rewrite ?add_padded1_length; try lia. lra.
Qed.
Lemma map_mul_at x (l : list R) k : at0 (map (nmul x) l) k = (x * at0 l k)%R.
Proof. unfold at0. rewrite list_lookup_fmap. destruct (l !! k); simpl; num_R; lra. Qed.
Lemma zip_mul_at (a b : list R) k : length a = length b -> at0 (zip_with nmul a b) k = (at0 a k * at0 b k)%R.
Proof.
  intros HL. unfold at0. rewrite lookup_zip_with. destruct (a !! k) as [x|] eqn:E; simpl; [|lra].
  destruct (b !! k) as [y|] eqn:E'; simpl; [done|]. apply lookup_lt_Some in E. apply lookup_ge_None in E'. lia.
Qed.
Lemma scaled_ok (sp : list R) cal p : scaled_setpoints sp cal = Ok p -> exists c, cal = VVec c /\
  (length c <= length sp \/ length sp <> 1 -> length p = length sp /\ forall k, at0 p k = (at0 sp k * (1 + at0 c k))%R).
Proof.
  unfold scaled_setpoints, add_padded. intros H. apply rbind_ok in H as (c1&Hc&H). destruct cal; try discriminate. injection Hc as <-.
  exists l. split; [done|]. intros Hside. unfold bcast in H. rewrite add_padded1_length in H. unfold ones in H at 1. rewrite replicate_length in H.
  destruct (length sp =? Nat.max (length sp) (length l))%nat eqn:E.
  - apply Nat.eqb_eq in E. injection H as <-. assert (length (add_padded1 (ones (length sp)) l) = length sp) as HL.
    { rewrite add_padded1_length. unfold ones. rewrite replicate_length. lia. }
    split; [rewrite zip_with_length, HL; lia|]. intros k. rewrite zip_mul_at by done. rewrite add_padded1_at.
    destruct (decide (k < length sp)); [by rewrite ones_at|]. rewrite (at0_ge sp) by lia. lra.
  - apply Nat.eqb_neq in E. destruct sp as [|x [|y sp]]; simpl in *.
    + assert (length (add_padded1 (ones 0) l) = length l) as HL by (rewrite add_padded1_length; done).
      destruct (add_padded1 (ones 0) l) as [|? [|? ?]]; simpl in *; try done. injection H as <-. split; [done|]. intros k. rewrite at0_nil. lra.
    + exfalso. destruct Hside; lia.
    + assert (length (add_padded1 (ones (S (S (length sp)))) l) = Nat.max (S (S (length sp))) (length l)) as HL.
      { rewrite add_padded1_length. unfold ones. by rewrite replicate_length. }
      destruct (add_padded1 _ l) as [|? [|? ?]]; simpl in *; try done; lia.
Qed.
