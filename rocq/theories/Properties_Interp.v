(** C32: elements on a support move along the straight line between its endpoints. *)
From Coq Require Import Reals Lra QArith.
From stdpp Require Import base gmap strings list.
From Verif Require Import Num Base Model_Arr Model_SC Model_Err Lemmas Proofs_Reg Proofs_Update Proofs_Loop Spec Proofs_CM Proofs_Field Proofs_Err
  Properties_Random Properties_Field Examples Properties_Errors Properties_Circ Properties_Support Proofs_Interp.
Local Open Scope string_scope.
Local Open Scope list_scope.

(** * Specification *)
Definition on_support (p : nat * nat) (i : nat) : Prop := p.1 <= i <= p.2.
(** [x] is the value of component [comp] at lattice position [i] once the supports of type [t] have moved a machine whose
    displacements were [base]: on a support, the straight line between the moved endpoints *)
Definition displaced (s : sc R) (t : stype) (comp : nat) (base : nat -> R) (i : nat) (x : R) : Prop :=
  (exists p a b, p ∈ oSupport t (ORD s) /\ on_support p i /\ Spec.entry s p.1 (offset_name t) comp = Some a /\ Spec.entry s p.2 (offset_name t) comp = Some b /\
     x = line (position s p.1) (position s p.2) (base p.1 + a) (base p.2 + b) (position s i)) \/
  ((forall p, p ∈ oSupport t (ORD s) -> ~ on_support p i) /\ x = base i).
Definition nonneg_lengths (s : sc R) : Prop := forall i, (0 <= length_at s i)%R.
Definition forward_supports (s : sc R) : Prop := forall t p, p ∈ oSupport t (ORD s) -> p.1 <= p.2 /\ p.2 < length (RING s) /\ (position s p.1 < position s p.2)%R.
(** row [c], column [i] of a matrix *)
Definition cell (m : list (list R)) (c i : nat) : option R := match m !! c with Some row => row !! i | None => None end.

(** * Positions *)
Lemma position_S s i : position s (S i) = (position s i + length_at s i)%R.
Proof. unfold position. rewrite seq_S, sum_over_app. simpl. lra. Qed.
Lemma position_mono s i j : nonneg_lengths s -> i <= j -> (position s i <= position s j)%R.
Proof. intros H Hij. induction Hij as [|j Hij IH]; [lra|]. rewrite position_S. specialize (H j). lra. Qed.
Lemma spos_length (s : sc R) : length (spos (RING s)) = S (length (RING s)).
Proof. unfold spos. assert (forall l (x : R), length (findspos_from x l) = S (length l)) as ->; [|by rewrite map_length]. induction l as [|y l IH]; intros x; simpl; [done|]. by rewrite IH. Qed.

(** * One support *)
Lemma s_interp1_ok s off p f1 f2 off' : nonneg_lengths s -> p.1 <= p.2 -> p.2 < length (RING s) -> (position s p.1 < position s p.2)%R ->
  s_interp1 (spos (RING s)) off p.1 p.2 f1 f2 = Ok off' ->
  length off' = length off /\
  (forall i, on_support p i -> i < length off -> off' !! i = Some (line (position s p.1) (position s p.2) f1 f2 (position s i))) /\
  (forall i, ~ on_support p i -> off' !! i = off !! i).
Proof.
  intros Hnn Hle Hlt Hpos H. unfold s_interp1 in H. apply rbind_ok in H as (s1&Hs1&H). apply rbind_ok in H as (s2&Hs2&H). apply idx_ok in Hs1, Hs2.
  rewrite spos_position in Hs1, Hs2 by lia. injection Hs1 as <-. injection Hs2 as <-. num_R.
  destruct (Reqb (position s p.1) (position s p.2)) eqn:E; [apply Reqb_true in E; lra|]. destruct (Rltb (position s p.1) (position s p.2)) eqn:E2; [|apply Rltb_false in E2; lra].
  injection H as <-. split_and!; [by rewrite imap_length| |].
  - intros i [H1 H2] Hi. rewrite list_lookup_imap. destruct (lookup_lt_is_Some_2 off i Hi) as [x Hx]. rewrite Hx. simpl.
    rewrite (proj2 (Nat.leb_le _ _)), (proj2 (Nat.leb_le _ _)) by done. simpl. rewrite spos_position by lia. simpl. f_equal. unfold Datatypes.id. apply interp2_line; [done|].
    split; by apply position_mono.
  - intros i Hn. rewrite list_lookup_imap. destruct (off !! i) as [x|]; [|done]. simpl. f_equal.
    destruct (p.1 <=? i)%nat eqn:E3; [|done]. destruct (i <=? p.2)%nat eqn:E4; [|done]. apply Nat.leb_le in E3, E4. by destruct Hn.
Qed.

(** * One support type *)
Definition interp_step (sp row : list R) (i : nat) (acc : list R) (x : (nat * nat) * list R * list R) : res (list R) :=
  let '(p, v1, v2) := x in
  let? b1 := idx row p.1 in let? b2 := idx row p.2 in let? d1 := idx v1 i in let? d2 := idx v2 i in
  s_interp1 sp acc p.1 p.2 (nadd b1 d1) (nadd b2 d2).
Lemma interp_steps_ok s c row tmp acc acc' : nonneg_lengths s ->
  (forall x, x ∈ tmp -> x.1.1.1 <= x.1.1.2 /\ x.1.1.2 < length (RING s) /\ (position s x.1.1.1 < position s x.1.1.2)%R) ->
  length acc = S (length (RING s)) ->
  rfold (interp_step (spos (RING s)) row c) tmp acc = Ok acc' ->
  length acc' = length acc /\ forall i, i <= length (RING s) ->
  (exists p v1 v2 b1 b2 d1 d2, (p, v1, v2) ∈ tmp /\ on_support p i /\ row !! p.1 = Some b1 /\ row !! p.2 = Some b2 /\ v1 !! c = Some d1 /\ v2 !! c = Some d2 /\
     acc' !! i = Some (line (position s p.1) (position s p.2) (b1 + d1) (b2 + d2) (position s i))) \/
  ((forall x, x ∈ tmp -> ~ on_support x.1.1 i) /\ acc' !! i = acc !! i).
Proof.
  intros Hnn. revert acc. induction tmp as [|[[p v1] v2] tmp IH]; intros acc Hf Hlen H.
  - simpl in H. injection H as <-. split; [done|]. intros i Hi. right. split; [|done]. intros x Hx. inversion Hx.
  - cbn [rfold] in H. apply rbind_ok in H as (acc1&H1&H). unfold interp_step in H1. apply rbind_ok in H1 as (b1&Hb1&H1). apply rbind_ok in H1 as (b2&Hb2&H1).
    apply rbind_ok in H1 as (d1&Hd1&H1). apply rbind_ok in H1 as (d2&Hd2&H1). apply idx_ok in Hb1, Hb2, Hd1, Hd2.
    destruct (Hf (p, v1, v2) ltac:(left)) as (F1&F2&F3). simpl in F1, F2, F3.
    apply s_interp1_ok in H1 as (L1&L2&L3); [|done..].
    apply IH in H as (M1&M2); [|intros x Hx; apply Hf; by right|by rewrite L1]. split; [congruence|]. intros i Hi.
    destruct (M2 i Hi) as [(q&w1&w2&c1&c2&e1&e2&Hq&Hrest)|[Hno Heq]].
    + left. exists q, w1, w2, c1, c2, e1, e2. split; [by right|done].
    + destruct (decide (p.1 <= i /\ i <= p.2)) as [Hin|Hout].
      * left. exists p, v1, v2, b1, b2, d1, d2. split_and!; try done; [left|]. rewrite Heq, L2; [done|done|lia].
      * right. split; [|rewrite Heq; apply L3; exact Hout]. intros x Hx. apply elem_of_cons in Hx as [->|Hx]; [exact Hout|by apply Hno].
Qed.
Lemma Forall2_elem_r {A B} (P : A -> B -> Prop) l l' y : Forall2 P l l' -> y ∈ l' -> exists x, x ∈ l /\ P x y.
Proof. induction 1; intros Hy; [inversion Hy|]. apply elem_of_cons in Hy as [->|Hy]; [eexists; split; [left|done]|]. destruct IHForall2 as (z&?&?); [done|]. exists z. split; [by right|done]. Qed.
Lemma Forall2_elem_l {A B} (P : A -> B -> Prop) l l' x : Forall2 P l l' -> x ∈ l -> exists y, y ∈ l' /\ P x y.
Proof. induction 1; intros Hy; [inversion Hy|]. apply elem_of_cons in Hy as [->|Hy]; [eexists; split; [left|done]|]. destruct IHForall2 as (z&?&?); [done|]. exists z. split; [by right|done]. Qed.
Definition shaped (s : sc R) (m : list (list R)) : Prop := length m = 3%nat /\ forall row, row ∈ m -> length row = S (length (RING s)).
Lemma type_ok s t m m' : nonneg_lengths s -> forward_supports s -> shaped s m ->
  support_type_offsets (RING s) (spos (RING s)) t (oSupport t (ORD s)) m = Ok m' ->
  shaped s m' /\ forall comp i base, comp < 3 -> i <= length (RING s) -> (forall j, j <= length (RING s) -> cell m comp j = Some (base j)) ->
    exists x, cell m' comp i = Some x /\ displaced s t comp base i x.
Proof.
  intros Hnn Hfw [Hm1 Hm2] H. unfold support_type_offsets in H. apply rbind_ok in H as (tmp&Htmp&H). apply rmap_ok in Htmp, H.
  assert (forall x, x ∈ tmp -> x.1.1 ∈ oSupport t (ORD s) /\ attr_at s x.1.1.1 (offset_name t) = Some (VVec x.1.2) /\ attr_at s x.1.1.2 (offset_name t) = Some (VVec x.2)) as Htm.
  { intros x Hx. destruct (Forall2_elem_r _ _ _ _ Htmp Hx) as (p&Hp&Hy). apply rbind_ok in Hy as (e1&He1&Hy). apply rbind_ok in Hy as (e2&He2&Hy).
    apply rbind_ok in Hy as (v1&Hv1&Hy). apply rbind_ok in Hy as (v2&Hv2&Hy). destruct ((length v1 =? 3)%nat && (length v2 =? 3)%nat); [|discriminate]. injection Hy as <-.
    apply idx_ok in He1, He2. apply attr_vec_ok in Hv1, Hv2. simpl. split; [done|]. unfold attr_at. rewrite He1, He2. done. }
  assert (forall p, p ∈ oSupport t (ORD s) -> exists v1 v2, (p, v1, v2) ∈ tmp) as Hcov.
  { intros p Hp. destruct (Forall2_elem_l _ _ _ _ Htmp Hp) as (x&Hx&Hy). apply rbind_ok in Hy as (e1&He1&Hy). apply rbind_ok in Hy as (e2&He2&Hy).
    apply rbind_ok in Hy as (v1&Hv1&Hy). apply rbind_ok in Hy as (v2&Hv2&Hy). destruct ((length v1 =? 3)%nat && (length v2 =? 3)%nat); [|discriminate]. injection Hy as <-. eauto. }
  assert (forall comp row, m !! comp = Some row -> exists row', m' !! comp = Some row' /\ rfold (interp_step (spos (RING s)) row comp) tmp row = Ok row') as Hrows.
  { intros comp row Hrow. eapply Forall2_lookup_l in H as (row'&Hr'&Hf); [|rewrite list_lookup_imap, Hrow; simpl; reflexivity]. exists row'. split; [done|exact Hf]. }
  assert (forall x, x ∈ tmp -> x.1.1.1 <= x.1.1.2 /\ x.1.1.2 < length (RING s) /\ (position s x.1.1.1 < position s x.1.1.2)%R) as Hfwd.
  { intros x Hx. destruct (Htm x Hx) as (Hp&_). by apply (Hfw t). }
  assert (length m' = 3%nat) as Hm'. { apply Forall2_length in H. by rewrite imap_length, Hm1 in H. }
  split.
  - split; [done|]. intros row' Hr'. apply elem_of_list_lookup in Hr' as [comp Hr']. assert (is_Some (m !! comp)) as [row Hrow].
    { apply lookup_lt_is_Some. apply lookup_lt_Some in Hr'. lia. }
    destruct (Hrows comp row Hrow) as (row2&Hr2&Hf). rewrite Hr' in Hr2. injection Hr2 as <-. apply interp_steps_ok in Hf as [-> _]; [apply Hm2; by eapply elem_of_list_lookup_2|done|done|].
    apply Hm2. by eapply elem_of_list_lookup_2.
  - intros comp i base Hc Hi Hbase. assert (is_Some (m !! comp)) as [row Hrow] by (apply lookup_lt_is_Some; lia). unfold cell in Hbase. rewrite Hrow in Hbase.
    destruct (Hrows comp row Hrow) as (row'&Hr'&Hf). unfold cell. rewrite Hr'.
    apply interp_steps_ok in Hf as [_ Hf]; [|done|done|apply Hm2; by eapply elem_of_list_lookup_2].
    destruct (Hf i Hi) as [(p&v1&v2&b1&b2&d1&d2&Hp&Hon&E1&E2&E3&E4&->)|[Hno ->]].
    + eexists. split; [done|]. left. destruct (Htm _ Hp) as (Hin&A1&A2). simpl in *. exists p, d1, d2. destruct (Hfw t p Hin) as (G1&G2&_).
      rewrite Hbase in E1, E2 by lia. injection E1 as <-. injection E2 as <-. split_and!; try done; unfold Spec.entry; [by rewrite A1|by rewrite A2].
    + exists (base i). split; [by apply Hbase|]. right. split; [|done]. intros p Hp. destruct (Hcov p Hp) as (v1&v2&Hx). apply (Hno _ Hx).
Qed.
Lemma cell_total s m : shaped s m -> exists base : nat -> nat -> R, forall comp j, comp < 3 -> j <= length (RING s) -> cell m comp j = Some (base comp j).
Proof.
  intros [H1 H2]. exists (fun c j => default 0%R (cell m c j)). intros comp j Hc Hj. unfold cell. destruct (m !! comp) as [row|] eqn:E; [|apply lookup_ge_None in E; lia].
  destruct (row !! j) as [x|] eqn:E2; [done|]. apply lookup_ge_None in E2. rewrite (H2 row) in E2 by (by eapply elem_of_list_lookup_2). lia.
Qed.
Lemma zeros_shaped (s : sc R) : shaped s (replicate 3 (zeros (length (spos (RING s))))).
Proof. split; [done|]. intros row Hr. apply elem_of_replicate in Hr as [-> _]. unfold zeros. rewrite replicate_length. apply spos_length. Qed.

(** * C32 *)
(** Section, plinth and girder displacements build on one another, each type moving elements to the straight line between its
    (already displaced) endpoints. *)
Theorem C32_three_types s off roll : nonneg_lengths s -> forward_supports s -> support_offset_and_roll (spos (RING s)) s = Ok (off, roll) ->
  exists sections plinths : nat -> nat -> R, forall comp i, comp < 3 -> i <= length (RING s) ->
    displaced s SSection comp (fun _ => 0%R) i (sections comp i) /\
    displaced s SPlinth comp (sections comp) i (plinths comp i) /\
    exists x, cell off comp i = Some x /\ displaced s SGirder comp (plinths comp) i x.
Proof.
  intros Hnn Hfw H. unfold support_offset_and_roll in H. apply rbind_ok in H as ([o r]&Hall&H).
  assert (list_eqb (spos (RING s)) (spos (RING s)) = true) as Heq.
  { unfold list_eqb. rewrite Nat.eqb_refl. simpl. generalize (spos (RING s)). induction l as [|x l IH]; [done|]. simpl. num_R. rewrite (proj2 (Reqb_true x x)) by done. done. }
  rewrite Heq in H. injection H as -> ->. unfold support_all in Hall. cbn [rfold SUPPORT_TYPES] in Hall.
  apply rbind_ok in Hall as (o3&Ho&Hall). apply rbind_ok in Ho as (o1&Ho1&Ho). apply rbind_ok in Ho as (o2&Ho2&Ho). apply rbind_ok in Ho as (o3'&Ho3&Ho). injection Ho as <-.
  apply rbind_ok in Hall as (r'&_&Hr). injection Hr as -> _.
  apply type_ok in Ho1 as [S1 D1]; [|done|done|apply zeros_shaped]. apply type_ok in Ho2 as [S2 D2]; [|done..]. apply type_ok in Ho3 as [S3 D3]; [|done..].
  destruct (cell_total s o1 S1) as [b1 B1]. destruct (cell_total s o2 S2) as [b2 B2]. exists b1, b2. intros comp i Hc Hi.
  destruct (D1 comp i (fun _ => 0%R) Hc Hi) as (x1&X1&Y1).
  { intros j Hj. unfold cell. rewrite lookup_replicate_2 by done. unfold zeros. rewrite lookup_replicate_2; [done|]. rewrite spos_length. lia. }
  destruct (D2 comp i (b1 comp) Hc Hi) as (x2&X2&Y2); [by intros; apply B1|]. destruct (D3 comp i (b2 comp) Hc Hi) as (x3&X3&Y3); [by intros; apply B2|].
  rewrite B1 in X1 by done. injection X1 as <-. rewrite B2 in X2 by done. injection X2 as <-. eauto.
Qed.
(** only the supports listed in [l] are registered *)
Definition only_supports (s : sc R) (l : list (stype * (nat * nat))) : Prop := forall t p, p ∈ oSupport t (ORD s) <-> (t, p) ∈ l.
Lemma displaced_none s t comp base i x : (forall p, p ∉ oSupport t (ORD s)) -> displaced s t comp base i x -> x = base i.
Proof. intros H [(p&a&b&Hp&_)|[_ ->]]; [by destruct (H p)|done]. Qed.
Lemma displaced_one s t comp base i x p : (forall q, q ∈ oSupport t (ORD s) <-> q = p) -> displaced s t comp base i x ->
  (on_support p i -> exists a b, Spec.entry s p.1 (offset_name t) comp = Some a /\ Spec.entry s p.2 (offset_name t) comp = Some b /\
     x = line (position s p.1) (position s p.2) (base p.1 + a) (base p.2 + b) (position s i)) /\
  (~ on_support p i -> x = base i).
Proof.
  intros H [(q&a&b&Hq&Hon&E)|[Hno ->]].
  - apply H in Hq as ->. split; [|done]. intros _. eauto.
  - split; [|done]. intros Hon. by destruct (Hno p (proj2 (H p) eq_refl)).
Qed.
(** A single support: the straight line between the offsets of its endpoints, zero elsewhere. *)
Theorem C32_single s off roll t p : nonneg_lengths s -> forward_supports s -> only_supports s [(t, p)] -> support_offset_and_roll (spos (RING s)) s = Ok (off, roll) ->
  forall comp i, comp < 3 -> i <= length (RING s) ->
    (on_support p i -> exists a b, Spec.entry s p.1 (offset_name t) comp = Some a /\ Spec.entry s p.2 (offset_name t) comp = Some b /\
       cell off comp i = Some (line (position s p.1) (position s p.2) a b (position s i)) /\
       (i = p.1 -> cell off comp i = Some a) /\ (i = p.2 -> cell off comp i = Some b)) /\
    (~ on_support p i -> cell off comp i = Some 0%R).
Proof.
  intros Hnn Hfw Hon H comp i Hc Hi. destruct (C32_three_types s off roll Hnn Hfw H) as (b1&b2&Hall).
  assert (forall t', (forall q, q ∈ oSupport t' (ORD s) <-> t' = t /\ q = p)) as Hmem.
  { intros t' q. rewrite (Hon t' q), elem_of_list_singleton. split; [by intros [= -> ->]|by intros [-> ->]]. }
  assert (forall t', t' <> t -> forall q, q ∉ oSupport t' (ORD s)) as Hnone. { intros t' Ht q Hq. apply Hmem in Hq as [? _]. done. }
  assert (forall q, q ∈ oSupport t (ORD s) <-> q = p) as Hone. { intros q. rewrite Hmem. naive_solver. }
  destruct (Hfw t p) as (F1&F2&F3); [by apply Hone|].
  assert (exists x, cell off comp i = Some x /\ displaced s t comp (fun _ => 0%R) i x) as (x&Hx&Hd).
  { destruct (Hall comp i Hc Hi) as (Y1&Y2&x&Hx&Y3). destruct (Hall comp p.1 Hc ltac:(lia)) as (Z1&Z2&_). destruct (Hall comp p.2 Hc ltac:(lia)) as (W1&W2&_). exists x. split; [done|]. destruct t.
    - apply displaced_none in Y2; [|by apply Hnone]. apply displaced_none in Y3; [|by apply Hnone]. rewrite Y3, Y2. exact Y1.
    - apply displaced_none in Y1, Z1, W1; [|by apply Hnone..]. apply displaced_none in Y3; [|by apply Hnone]. rewrite Y3.
      pose proof (displaced_one _ _ _ _ _ _ p Hone Y2) as [D1 D2]. destruct (decide (p.1 <= i /\ i <= p.2)) as [Hin|Hout].
      + left. destruct (D1 Hin) as (a&b&Ea&Eb&E). exists p, a, b. split_and!; try done; [by apply Hone|]. rewrite E, Z1, W1. done.
      + right. split; [|rewrite (D2 Hout); exact Y1]. intros q Hq. apply Hone in Hq as ->. exact Hout.
    - apply displaced_none in Y1, Z1, W1; [|by apply Hnone..]. apply displaced_none in Y2, Z2, W2; [|by apply Hnone..].
      pose proof (displaced_one _ _ _ _ _ _ p Hone Y3) as [D1 D2]. destruct (decide (p.1 <= i /\ i <= p.2)) as [Hin|Hout].
      + left. destruct (D1 Hin) as (a&b&Ea&Eb&E). exists p, a, b. split_and!; try done; [by apply Hone|]. rewrite E, Z2, W2, Z1, W1. done.
      + right. split; [|rewrite (D2 Hout), Y2, Y1; done]. intros q Hq. apply Hone in Hq as ->. exact Hout. }
  apply displaced_one with (p := p) in Hd as [D1 D2]; [|done]. rewrite Hx. split.
  - intros Hin. destruct (D1 Hin) as (a&b&Ea&Eb&->). exists a, b. rewrite !Rplus_0_l. split_and!; try done; intros ->; [by rewrite line_start|rewrite line_end; [done|lra]].
  - intros Hout. by rewrite (D2 Hout).
Qed.
(** Nested supports add up: a girder standing on a section. *)
Lemma line_add x0 x1 f0 f1 y0 y1 a b x : (x0 <> x1)%R -> (y0 <> y1)%R ->
  line y0 y1 (line x0 x1 f0 f1 y0 + a) (line x0 x1 f0 f1 y1 + b) x = (line x0 x1 f0 f1 x + line y0 y1 a b x)%R.
Proof. intros H1 H2. unfold line. field. split; lra. Qed.
Theorem C32_nested s off roll t p q : nonneg_lengths s -> forward_supports s -> only_supports s [(SSection, p); (t, q)] -> t <> SSection ->
  p.1 <= q.1 -> q.2 <= p.2 -> support_offset_and_roll (spos (RING s)) s = Ok (off, roll) ->
  exists a b c d, forall comp, comp < 3 ->
    Spec.entry s p.1 (offset_name SSection) comp = Some (a comp) /\ Spec.entry s p.2 (offset_name SSection) comp = Some (b comp) /\
    Spec.entry s q.1 (offset_name t) comp = Some (c comp) /\ Spec.entry s q.2 (offset_name t) comp = Some (d comp) /\
    forall i, i <= length (RING s) ->
      let carrier := line (position s p.1) (position s p.2) (a comp) (b comp) (position s i) in
      let own := line (position s q.1) (position s q.2) (c comp) (d comp) (position s i) in
      (on_support q i -> cell off comp i = Some (carrier + own)%R) /\
      (on_support p i -> ~ on_support q i -> cell off comp i = Some carrier) /\
      (~ on_support p i -> cell off comp i = Some 0%R).
Proof.
  intros Hnn Hfw Hon Ht Hpq1 Hpq2 H. destruct (C32_three_types s off roll Hnn Hfw H) as (b1&b2&Hall).
  assert (forall p', p' ∈ oSupport SSection (ORD s) <-> p' = p) as HoneS.
  { intros p'. rewrite (Hon SSection p'), elem_of_cons, elem_of_list_singleton. split; [intros [[= ->]|[= <- _]]; done|intros ->; by left]. }
  assert (forall p', p' ∈ oSupport t (ORD s) <-> p' = q) as Honet.
  { intros p'. rewrite (Hon t p'), elem_of_cons, elem_of_list_singleton. split; [intros [[= -> _]|[= ->]]; done|intros ->; by right]. }
  assert (forall t', t' <> SSection -> t' <> t -> forall p', p' ∉ oSupport t' (ORD s)) as Hnone.
  { intros t' T1 T2 p' Hp'. apply Hon in Hp'. apply elem_of_cons in Hp' as [[= -> ->]|Hp']; [done|]. apply elem_of_list_singleton in Hp' as [= -> ->]. done. }
  destruct (Hfw SSection p) as (F1&F2&F3); [by apply HoneS|]. destruct (Hfw t q) as (G1&G2&G3); [by apply Honet|].
  assert (forall comp i, comp < 3 -> i <= length (RING s) -> exists x, cell off comp i = Some x /\ displaced s t comp (b1 comp) i x) as Hlast.
  { intros comp i Hc Hi. destruct (Hall comp i Hc Hi) as (Y1&Y2&x&Hx&Y3). exists x. split; [done|]. destruct t; [done| |].
    - apply displaced_none in Y3; [|by apply Hnone]. by rewrite Y3.
    - apply displaced_none in Y2; [|by apply Hnone]. destruct (Hall comp q.1 Hc ltac:(lia)) as (_&Z2&_). destruct (Hall comp q.2 Hc ltac:(lia)) as (_&W2&_).
      apply displaced_none in Z2, W2; [|by apply Hnone..]. destruct (displaced_one _ _ _ _ _ _ q Honet Y3) as [D1 D2]. destruct (decide (q.1 <= i /\ i <= q.2)) as [Hin|Hout].
      + left. destruct (D1 Hin) as (a&b&Ea&Eb&E). exists q, a, b. split_and!; try done; [by apply Honet|]. by rewrite E, Z2, W2.
      + right. split; [|by rewrite (D2 Hout)]. intros q' Hq. apply Honet in Hq as ->. exact Hout. }
  exists (fun c => default 0%R (Spec.entry s p.1 (offset_name SSection) c)), (fun c => default 0%R (Spec.entry s p.2 (offset_name SSection) c)),
         (fun c => default 0%R (Spec.entry s q.1 (offset_name t) c)), (fun c => default 0%R (Spec.entry s q.2 (offset_name t) c)).
  intros comp Hc.
  assert (forall i, i <= length (RING s) -> (on_support p i -> exists a b, Spec.entry s p.1 (offset_name SSection) comp = Some a /\ Spec.entry s p.2 (offset_name SSection) comp = Some b /\
     b1 comp i = line (position s p.1) (position s p.2) (0 + a) (0 + b) (position s i)) /\ (~ on_support p i -> b1 comp i = 0%R)) as Hbase.
  { intros i Hi. destruct (Hall comp i Hc Hi) as (Y1&_). apply (displaced_one _ _ _ _ _ _ p HoneS Y1). }
  destruct (proj1 (Hbase p.1 ltac:(lia))) as (a&b&Ea&Eb&_); [unfold on_support; lia|]. destruct (Hlast comp q.1 Hc ltac:(lia)) as (x0&_&Hd0).
  destruct (proj1 (displaced_one _ _ _ _ _ _ q Honet Hd0)) as (c&d&Ec&Ed&_); [unfold on_support; lia|]. rewrite Ea, Eb, Ec, Ed. cbn [default from_option]. unfold Datatypes.id. split_and!; try done.
  assert (forall i, i <= length (RING s) -> on_support p i -> b1 comp i = line (position s p.1) (position s p.2) a b (position s i)) as Hbase'.
  { intros i Hi Hoi. destruct (proj1 (Hbase i Hi) Hoi) as (a'&b'&Ea'&Eb'&->). rewrite !Rplus_0_l. congruence. }
  intros i Hi. cbv zeta. destruct (Hlast comp i Hc Hi) as (x&Hx&Hd). destruct (displaced_one _ _ _ _ _ _ q Honet Hd) as [D1 D2]. rewrite Hx. split_and!.
  - intros Hq. destruct (D1 Hq) as (c'&d'&Ec'&Ed'&->). assert (c' = c) as -> by congruence. assert (d' = d) as -> by congruence.
    rewrite (Hbase' q.1), (Hbase' q.2) by (unfold on_support; lia). f_equal. apply line_add; lra.
  - intros Hp Hq. rewrite (D2 Hq), Hbase' by done. done.
  - intros Hp. rewrite D2; [|unfold on_support in *; lia]. by rewrite (proj2 (Hbase i Hi) Hp).
Qed.

(** * Rolls *)
(** all supports, in the order sections, plinths, girders *)
Definition supports (s : sc R) : list (stype * (nat * nat)) :=
  map (pair SSection) (oSupport SSection (ORD s)) ++ map (pair SPlinth) (oSupport SPlinth (ORD s)) ++ map (pair SGirder) (oSupport SGirder (ORD s)).
(** the elements a support turns: those on it, but all elements of the ring if the support extends over the end of the lattice *)
Definition turned (p : nat * nat) (i : nat) : Prop := p.2 < p.1 \/ on_support p i.
#[global] Instance turned_dec p i : Decision (turned p i).
Proof. unfold turned, on_support. apply _. Defined.
Definition support_length (s : sc R) (p : nat * nat) : R :=
  if decide (p.2 < p.1) then (total_length s + (position s p.2 - position s p.1))%R else (position s p.2 - position s p.1)%R.
Definition own_roll (s : sc R) (x : stype * (nat * nat)) : R := match Spec.entry s x.2.1 (roll_name x.1) 0 with Some r => r | None => 0%R end.
(** slope of component [comp] along a support *)
Definition slope (s : sc R) (off : list (list R)) (comp : nat) (p : nat * nat) : R :=
  ((default 0 (cell off comp p.2) - default 0 (cell off comp p.1)) / support_length s p)%R.
(** [x] is the value of [f] for the last support of [l] turning [i], or zero *)
Definition last_turning (l : list (stype * (nat * nat))) (i : nat) (f : nat * nat -> R) (x : R) : Prop :=
  (exists l1 y l2, l = l1 ++ y :: l2 /\ turned y.2 i /\ (forall z, z ∈ l2 -> ~ turned z.2 i) /\ x = f y.2) \/
  ((forall z, z ∈ l -> ~ turned z.2 i) /\ x = 0%R).

Definition roll_step (s : sc R) (off roll : list (list R)) (x : stype * (nat * nat)) := support_rolls1 (RING s) (spos (RING s)) off x.1 roll x.2.
Lemma rfold_app {A B} (f : B -> A -> res B) l k b : rfold f (l ++ k) b = (let? c := rfold f l b in rfold f k c).
Proof. revert b. induction l as [|x l IH]; intros b; simpl; [done|]. destruct (f b x); simpl; [apply IH|done]. Qed.
Lemma roll_flat s off t l b : rfold (roll_step s off) (map (pair t) l) b = rfold (support_rolls1 (RING s) (spos (RING s)) off t) l b.
Proof. revert b. induction l as [|x l IH]; intros b; simpl; [done|]. unfold roll_step at 1. simpl. destruct (support_rolls1 _ _ _ _ _ _); simpl; [apply IH|done]. Qed.
Lemma mget_cell m c i : mget m c i = default 0%R (cell m c i).
Proof. unfold mget, cell. destruct (m !! c) as [row|]; simpl; [|done]. unfold Datatypes.id. destruct (row !! i); done. Qed.
Lemma mask_turned p i : support_mask p i = bool_decide (turned p i).
Proof.
  unfold support_mask, turned, on_support. destruct (p.2 <? p.1)%nat eqn:E.
  - apply Nat.ltb_lt in E. rewrite bool_decide_eq_true_2; [done|by left].
  - apply Nat.ltb_ge in E. destruct ((p.1 <=? i)%nat) eqn:E1; simpl; [apply Nat.leb_le in E1|apply Nat.leb_gt in E1; rewrite bool_decide_eq_false_2; [done|lia]].
    destruct ((i <=? p.2)%nat) eqn:E2; simpl; [apply Nat.leb_le in E2; rewrite bool_decide_eq_true_2; [done|lia]|apply Nat.leb_gt in E2; rewrite bool_decide_eq_false_2; [done|lia]].
Qed.
Lemma roll_step_ok s off x roll roll' : roll_step s off roll x = Ok roll' ->
  exists w0 w1 w2 r0, roll = [w0; w1; w2] /\ Spec.entry s x.2.1 (roll_name x.1) 0 = Some r0 /\
    roll' = [imap (fun i y => if support_mask x.2 i then (y + r0)%R else y) w0; imap (fun i y => if support_mask x.2 i then slope s off 1 x.2 else y) w1;
             imap (fun i y => if support_mask x.2 i then slope s off 0 x.2 else y) w2].
Proof.
  intros H. unfold roll_step, support_rolls1 in H. destruct x as [t p]. cbn [fst snd] in *. apply rbind_ok in H as (e1&He1&H). apply rbind_ok in H as (rv&Hrv&H). apply rbind_ok in H as (r0&Hr0&H).
  apply rbind_ok in H as (s1&Hs1&H). apply rbind_ok in H as (s2&Hs2&H). apply rbind_ok in H as (q1&Hq1&H). apply rbind_ok in H as (q2&Hq2&H).
  apply idx_ok in He1, Hr0, Hs1, Hs2. apply attr_vec_ok in Hrv. apply qdiv_R in Hq1 as [_ ->]. apply qdiv_R in Hq2 as [_ ->].
  assert (p.2 <= length (RING s)) as Hp2. { apply lookup_lt_Some in Hs2. rewrite spos_length in Hs2. lia. }
  assert (p.1 <= length (RING s)) as Hp1. { apply lookup_lt_Some in Hs1. rewrite spos_length in Hs1. lia. }
  rewrite spos_position in Hs1, Hs2 by done. injection Hs1 as <-. injection Hs2 as <-. rewrite spos_last, !mget_cell in H.
  destruct roll as [|w0 [|w1 [|w2 [|]]]]; try discriminate. injection H as <-. exists w0, w1, w2, r0. split; [done|]. split.
  { unfold Spec.entry, attr_at, roll_name. rewrite He1. simpl. by rewrite Hrv. }
  unfold slope, support_length. num_R. destruct (decide (p.2 < p.1)) as [Hd|Hd].
  - rewrite (proj2 (Nat.ltb_lt _ _) Hd). done.
  - rewrite (proj2 (Nat.ltb_ge _ _)) by lia. done.
Qed.
Lemma roll_steps_ok s off l roll roll' : rfold (roll_step s off) l roll = Ok roll' -> shaped s roll ->
  shaped s roll' /\ forall i base, i <= length (RING s) -> (forall c, c < 3 -> cell roll c i = Some (base c)) ->
    cell roll' 0 i = Some (base 0%nat + sum_over l (fun x => if decide (turned x.2 i) then own_roll s x else 0))%R /\
    (exists x, cell roll' 1 i = Some x /\ ((exists l1 y l2, l = l1 ++ y :: l2 /\ turned y.2 i /\ (forall z, z ∈ l2 -> ~ turned z.2 i) /\ x = slope s off 1 y.2) \/ ((forall z, z ∈ l -> ~ turned z.2 i) /\ x = base 1%nat))) /\
    (exists x, cell roll' 2 i = Some x /\ ((exists l1 y l2, l = l1 ++ y :: l2 /\ turned y.2 i /\ (forall z, z ∈ l2 -> ~ turned z.2 i) /\ x = slope s off 0 y.2) \/ ((forall z, z ∈ l -> ~ turned z.2 i) /\ x = base 2%nat))).
Proof.
  revert roll. induction l as [|x l IH]; intros roll H Hs.
  - simpl in H. injection H as <-. split; [done|]. intros i base Hi Hb. split_and!; [rewrite Hb by lia; f_equal; simpl; lra| |].
    all: eexists; split; [apply Hb; lia|]; right; split; [|done]; intros z Hz; inversion Hz.
  - cbn [rfold] in H. apply rbind_ok in H as (roll1&H1&H). apply roll_step_ok in H1 as (w0&w1&w2&r0&->&Hr0&->).
    destruct Hs as [_ Hs]. assert (length w0 = S (length (RING s)) /\ length w1 = S (length (RING s)) /\ length w2 = S (length (RING s))) as (L0&L1&L2).
    { split_and!; apply Hs; repeat (first [left; done | right]). }
    apply IH in H as [S1 H].
    2:{ split; [done|]. intros row Hrow. repeat (apply elem_of_cons in Hrow as [->|Hrow]; [by rewrite imap_length|]). inversion Hrow. }
    split; [done|]. intros i base Hi Hb.
    pose proof (Hb 0%nat ltac:(lia)) as B0. pose proof (Hb 1%nat ltac:(lia)) as B1. pose proof (Hb 2%nat ltac:(lia)) as B2. unfold cell in B0, B1, B2. simpl in B0, B1, B2.
    destruct (H i (fun c => if decide (turned x.2 i) then match c with 0%nat => base 0%nat + r0 | 1%nat => slope s off 1 x.2 | _ => slope s off 0 x.2 end else base c)%R Hi) as (G0&(x1&G1&G1')&(x2&G2&G2')).
    { intros c Hc. unfold cell. destruct c as [|[|[|]]]; try lia; simpl; rewrite list_lookup_imap; [rewrite B0|rewrite B1|rewrite B2]; simpl; rewrite mask_turned; f_equal; by case_decide; [rewrite bool_decide_eq_true_2|rewrite bool_decide_eq_false_2]. }
    split_and!.
    + rewrite G0. f_equal. cbn [sum_over]. unfold own_roll at 2. rewrite Hr0. case_decide; lra.
    + exists x1. split; [done|]. destruct G1' as [(l1&y&l2&->&Hy)|[Hno Hx1]].
      * left. exists (x :: l1), y, l2. done.
      * case_decide as Hd; [left; exists [], x, l; done|]. right. split; [|done]. intros z Hz. apply elem_of_cons in Hz as [->|Hz]; [done|by apply Hno].
    + exists x2. split; [done|]. destruct G2' as [(l1&y&l2&->&Hy)|[Hno Hx1]].
      * left. exists (x :: l1), y, l2. done.
      * case_decide as Hd; [left; exists [], x, l; done|]. right. split; [|done]. intros z Hz. apply elem_of_cons in Hz as [->|Hz]; [done|by apply Hno].
Qed.
(** Rolls of the supports add; pitch and yaw are the slopes of the displaced support (of the innermost type). *)
Theorem C32_rolls s off roll : support_offset_and_roll (spos (RING s)) s = Ok (off, roll) -> forall i, i <= length (RING s) ->
  cell roll 0 i = Some (sum_over (supports s) (fun x => if decide (turned x.2 i) then own_roll s x else 0%R)) /\
  (exists x, cell roll 1 i = Some x /\ last_turning (supports s) i (slope s off 1) x) /\
  (exists x, cell roll 2 i = Some x /\ last_turning (supports s) i (slope s off 0) x).
Proof.
  intros H i Hi. unfold support_offset_and_roll in H. apply rbind_ok in H as ([o r]&Hall&H).
  assert (list_eqb (spos (RING s)) (spos (RING s)) = true) as Heq.
  { unfold list_eqb. rewrite Nat.eqb_refl. simpl. generalize (spos (RING s)). induction l as [|x l IH]; [done|]. simpl. num_R. rewrite (proj2 (Reqb_true x x)) by done. done. }
  rewrite Heq in H. injection H as -> ->. unfold support_all in Hall. apply rbind_ok in Hall as (o3&_&Hall). apply rbind_ok in Hall as (r'&Hr&E). injection E as -> ->.
  assert (rfold (roll_step s off) (supports s) (replicate 3 (zeros (length (spos (RING s))))) = Ok roll) as Hf.
  { unfold supports. rewrite !rfold_app, roll_flat. cbn [rfold SUPPORT_TYPES] in Hr. apply rbind_ok in Hr as (r1&R1&Hr). apply rbind_ok in Hr as (r2&R2&Hr). apply rbind_ok in Hr as (r3&R3&Hr). injection Hr as <-.
    rewrite R1. cbn [rbind]. rewrite rfold_app, !roll_flat, R2. cbn [rbind]. by rewrite roll_flat. }
  apply roll_steps_ok in Hf as [_ Hf]; [|apply zeros_shaped]. destruct (Hf i (fun _ => 0%R) Hi) as (H0&H1&H2).
  - intros c Hc. unfold cell. rewrite lookup_replicate_2 by done. unfold zeros. rewrite lookup_replicate_2; [done|]. rewrite spos_length. lia.
  - split_and!; [by rewrite H0, Rplus_0_l| |]; done.
Qed.
