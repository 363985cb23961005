(** C106: the whole figure of the supports. *)
From Coq Require Import Reals Lra Lia QArith ZArith.
From stdpp Require Import base gmap strings list.
From Verif Require Import Num Base Model_Arr Model_SC Model_Err Model_Beam Model_Orbit Model_Scan Model_Plot Model_Figure Model_Marks Lemmas Proofs_Reg Proofs_Update Proofs_Loop Spec Proofs_CM Proofs_Field Proofs_Err
  Properties_Random Properties_Field Examples Properties_Errors Properties_Circ Properties_Support Proofs_Interp Properties_Interp Properties_Plot Properties_Align Properties_Interp2 Properties_Rf.
Local Open Scope string_scope.
Local Open Scope list_scope.
Local Open Scope R_scope.

(** * Specification *)
(** cutting off the decimals *)
Definition truncates (int : R -> Z) : Prop := forall x, (0 <= x -> IZR (int x) <= x < IZR (int x) + 1) /\ (x <= 0 -> IZR (int x) - 1 < x <= IZR (int x)).
(** one mark for each element, at its entrance, at a height in millionths *)
Definition shows (s : sc R) (ords : list nat) (value : nat -> R -> Prop) (l : list (R * R)) : Prop :=
  Forall2 (fun i p => exists x, value i x /\ p = (position s i, 1000000 * x)) ords l.
(** entry [n] of an array of an element; beyond its end, zero *)
Definition has (s : sc R) (name : string) (n : nat) (i : nat) (x : R) : Prop := Spec.entry s i name n = Some x.
Definition has_or_zero (s : sc R) (name : string) (n : nat) (i : nat) (x : R) : Prop := has s name n i x \/ Spec.entry s i name n = None /\ x = 0.
Definition first_or_zero (s : sc R) (name : string) (n : nat) (i : nat) (x : R) : Prop := exists y, number s i name = Some y /\ x = if (n =? 0)%nat then y else 0.
(** the limits of the figure *)
Definition limits_of (lims : option (R * R)) (s : sc R) : R * R := default (0, total_length s) lims.
(** a line of steps over a grid: each step as high as the line at its beginning *)
Definition stepwise (grid line : list R) (l : list (R * R * R)) : Prop :=
  length grid = S (length l) /\
  forall k a b h, l !! k = Some (a, b, h) <-> grid !! k = Some a /\ grid !! S k = Some b /\ exists x, line !! k = Some x /\ h = 1000000 * x.

Lemma million_is : @million R _ = 1000000. Proof. done. Qed.
Lemma marks_ok (s : sc R) ords f (value : nat -> R -> Prop) l : (forall i e x, RING s !! i = Some e -> f e = Ok x -> value i x) -> marks s ords f = Ok l -> shows s ords value l.
Proof.
  intros Hv H. apply rmap_ok in H. unfold shows. eapply Forall2_impl; [exact H|]. intros i p Hp. cbn beta in Hp.
  apply rbind_ok in Hp as (a&Ha&Hp). apply rbind_ok in Hp as (e&He&Hp). apply rbind_ok in Hp as (x&Hx&Hp). apply idx_ok in Ha, He.
  pose proof (lookup_lt_Some _ _ _ He). rewrite spos_position in Ha by lia. exists x. split; [by eapply Hv|].
  apply (f_equal (fun r => match r with Ok x => x | Err _ => p end)) in Hp. cbv beta iota in Hp. rewrite <- Hp. rewrite million_is. num_R. congruence.
Qed.
Lemma component_ok (s : sc R) name n i e x : RING s !! i = Some e -> component name n e = Ok x -> has s name n i x.
Proof.
  intros He H. unfold component in H. apply rbind_ok in H as (v&Hv&H). apply attr_vec_ok in Hv. apply idx_ok in H. unfold has, Spec.entry, attr_at. rewrite He. cbn. rewrite Hv. done.
Qed.
Lemma padded_vec_ok (s : sc R) name n i e x : RING s !! i = Some e -> padded_vec name n e = Ok x -> has_or_zero s name n i x.
Proof.
  intros He H. unfold padded_vec in H. apply rbind_ok in H as (v&Hv&H). apply attr_vec_ok in Hv. apply idx_ok in H. unfold has_or_zero, has, Spec.entry, attr_at. rewrite He. cbn. rewrite Hv.
  apply lookup_app_Some in H as [H|[Hl H]]; [by left|]. right. split; [by apply lookup_ge_None_2|]. apply elem_of_list_lookup_2 in H. apply elem_of_list_singleton in H. by rewrite H.
Qed.
Lemma padded_num_ok (s : sc R) name n i e x : RING s !! i = Some e -> padded_num name n e = Ok x -> first_or_zero s name n i x.
Proof.
  intros He H. unfold padded_num in H. apply rbind_ok in H as (y&Hy&H). apply attr_num_ok in Hy. apply idx_ok in H. exists y. unfold number, attr_at. rewrite He. cbn. rewrite Hy. split; [done|].
  destruct n as [|[|[|n]]]; cbn in H; try done; injection H as <-; done.
Qed.
Lemma combine_lookup {A B} (l : list A) (l' : list B) k a b : combine l l' !! k = Some (a, b) <-> l !! k = Some a /\ l' !! k = Some b.
Proof.
  revert l' k. induction l as [|x l IH]; intros [|y l'] [|k]; cbn [combine lookup list_lookup]; try (split; [done|intros [? ?]; done]).
  - split; [intros H; split; congruence|intros [H1 H2]; congruence].
  - apply IH.
Qed.
Lemma stairs_ok (line grid : list R) l : stairs line grid = Ok l -> stepwise grid line l.
Proof.
  intros H. unfold stairs in H. rewrite map_length, take_length in H. destruct (_ =? _)%nat eqn:E; [|done]. apply Nat.eqb_eq in E.
  apply (f_equal (fun r => match r with Ok x => x | Err _ => [] end)) in H. cbv beta iota in H. subst l. unfold stepwise. rewrite !combine_length, map_length, take_length.
  assert (length (tail grid) = (length grid - 1)%nat) as Lt by (destruct grid; cbn; lia). rewrite Lt. split; [lia|].
  intros k a b h. rewrite !combine_lookup. assert (tail grid !! k = grid !! S k) as -> by (by destruct grid). change (map ?f ?x !! k) with ((f <$> x) !! k). rewrite list_lookup_fmap, million_is. num_R.
  split.
  - intros [[H1 H2] H3]. split; [done|]. split; [done|]. destruct (take _ line !! k) as [x|] eqn:Ex; [|done]. apply lookup_take_Some in Ex as [Ex _]. cbn in H3. exists x. split; [done|]. congruence.
  - intros (H1&H2&x&H3&->). split; [done|]. pose proof (lookup_lt_Some _ _ _ H2). rewrite lookup_take by lia. by rewrite H3.
Qed.

(** * The figure *)
Lemma figure_parts int lims (s : sc R) fig : support_figure int lims s = Ok fig -> exists grid line drawn, support_grid int (limits_of lims s) = Ok grid /\ support_offset_and_roll grid s = Ok line /\
  oMagnet (ORD s) <> [] /\ oBPM (ORD s) <> [] /\ (exists off l, line.1 !! 0%nat = Some off /\ stairs off grid = Ok l) /\ plot_support lims s = Ok drawn /\ rmap (panels_of s grid line drawn) (seq 0 3) = Ok fig.
Proof.
  intros H. unfold support_figure in H. apply rbind_ok in H as (grid&Hg&H). apply rbind_ok in H as (line&Hl&H). apply rbind_ok in H as ([]&Hm&H). apply rbind_ok in H as ([]&Hb&H).
  apply rbind_ok in H as (off&Ho&H). apply rbind_ok in H as (st&Hst&H). apply rbind_ok in H as (drawn&Hd&H). apply idx_ok in Ho. exists grid, line, drawn.
  assert (default 0 (last (spos (RING s))) = total_length s) as E.
  { rewrite last_lookup, spos_length. cbn [pred]. rewrite spos_position by done. reflexivity. }
  split. { unfold limits_of. rewrite <- E. exact Hg. }
  split; [done|]. split; [by destruct (oMagnet (ORD s))|]. split; [by destruct (oBPM (ORD s))|]. eauto 10.
Qed.
Tactic Notation "part" ident(H) ident(x) ident(Hx) := apply rbind_ok in H as (x&Hx&H).
Theorem C106_marks int lims (s : sc R) fig n p : support_figure int lims s = Ok fig -> fig !! n = Some p ->
  shows s (oMagnet (ORD s)) (has s "SupportOffset" n) (support_marks p).1 /\ shows s (oMagnet (ORD s)) (has s "SupportRoll" n) (support_marks p).2 /\
  shows s (oMagnet (ORD s)) (has s "MagnetOffset" n) (single_marks p).1 /\ shows s (oMagnet (ORD s)) (has s "MagnetRoll" n) (single_marks p).2 /\
  (exists col, [0; 2; 5]%nat !! n = Some col /\ shows s (oMagnet (ORD s)) (has s "T2" col) (total_marks p).1) /\
  shows s (oMagnet (ORD s)) (fun i x => exists a b, has s "SupportRoll" n i a /\ has s "MagnetRoll" n i b /\ x = a + b) (total_marks p).2 /\
  shows s (oBPM (ORD s)) (has_or_zero s "Offset" n) (bpm_marks p).1 /\ shows s (oBPM (ORD s)) (first_or_zero s "Roll" n) (bpm_marks p).2 /\
  shows s (oBPM (ORD s)) (has_or_zero s "SupportOffset" n) (bpm_support_marks p).1 /\ shows s (oBPM (ORD s)) (first_or_zero s "SupportRoll" n) (bpm_support_marks p).2.
Proof.
  intros H Hp. apply figure_parts in H as (grid&line&drawn&_&_&_&_&_&_&H). destruct (rmap_lookup _ _ _ _ _ H Hp) as (k&Hk&Hpan). apply lookup_seq in Hk as [-> _]. cbn [Nat.add] in Hpan.
  unfold panels_of in Hpan. cbv zeta in Hpan. part Hpan off E1. part Hpan st E2. part Hpan d E3. part Hpan roll E4. part Hpan st' E5. part Hpan d' E6. part Hpan l E7. part Hpan m E8. part Hpan col E9. part Hpan t E10.
  part Hpan m' E11. part Hpan t' E12. part Hpan b E13. part Hpan bs E14. part Hpan b' E15. part Hpan bs' E16.
  apply (f_equal (fun r => match r with Ok x => x | Err _ => p end)) in Hpan. cbv beta iota in Hpan. subst p. cbn [support_marks single_marks total_marks bpm_marks bpm_support_marks fst snd].
  split_and!.
  - eapply marks_ok; [|exact E3]. intros; by eapply component_ok.
  - eapply marks_ok; [|exact E6]. intros; by eapply component_ok.
  - eapply marks_ok; [|exact E8]. intros; by eapply component_ok.
  - eapply marks_ok; [|exact E11]. intros; by eapply component_ok.
  - apply idx_ok in E9. exists col. split; [done|]. eapply marks_ok; [|exact E10]. intros; by eapply component_ok.
  - eapply marks_ok; [|exact E12]. intros i e x He Hx. cbv beta in Hx. part Hx a Ha. part Hx b0 Hb. exists a, b0. split; [by eapply component_ok|]. split; [by eapply component_ok|].
    apply (f_equal (fun r => match r with Ok x => x | Err _ => x end)) in Hx. cbv beta iota in Hx. rewrite <- Hx. done.
  - eapply marks_ok; [|exact E13]. intros; by eapply padded_vec_ok.
  - eapply marks_ok; [|exact E15]. intros; by eapply padded_num_ok.
  - eapply marks_ok; [|exact E14]. intros; by eapply padded_vec_ok.
  - eapply marks_ok; [|exact E16]. intros; by eapply padded_num_ok.
Qed.
(** There are three rows of panels. *)
Theorem C106_rows int lims (s : sc R) fig : support_figure int lims s = Ok fig -> length fig = 3%nat.
Proof. intros H. apply figure_parts in H as (grid&line&drawn&_&_&_&_&_&_&H). apply rmap_ok, Forall2_length in H. by rewrite <- H. Qed.
Lemma grid_ok int (l : R * R) grid : support_grid int l = Ok grid -> evenly l.1 l.2 (length grid) grid /\ Z.of_nat (length grid) = (100 * int ((l.2 - l.1) / 2)%R)%Z.
Proof.
  unfold support_grid. assert (@ntwo R _ = 2) as -> by (unfold ntwo; num_R; lra). num_R. cbv zeta. destruct (_ <? 0)%Z eqn:E; [done|]. apply Z.ltb_ge in E. destruct (_ =? 0)%Z eqn:E0.
  - apply Z.eqb_eq in E0. intros H. apply (f_equal (fun r => match r with Ok x => x | Err _ => grid end)) in H. cbv beta iota in H. subst grid. split; [|by rewrite E0]. split; [done|]. intros k x Hx. by rewrite lookup_nil in Hx.
  - intros H. apply (f_equal (fun r => match r with Ok x => x | Err _ => grid end)) in H. cbv beta iota in H. subst grid. pose proof (linspace_evenly l.1 l.2 (Z.to_nat (100 * int ((l.2 - l.1) / 2)%R))) as He.
    pose proof He as [HL _]. rewrite HL. split; [done|]. apply Z2Nat.id. lia.
Qed.
(** The steps of the supports: over evenly spaced places from one limit to the other, a hundred for each two whole metres. *)
Theorem C106_steps int lims (s : sc R) fig n p : support_figure int lims s = Ok fig -> fig !! n = Some p ->
  exists grid off roll o r, support_offset_and_roll grid s = Ok (off, roll) /\ off !! n = Some o /\ roll !! n = Some r /\ stepwise grid o (Model_Marks.steps p).1 /\ stepwise grid r (Model_Marks.steps p).2 /\
    evenly (limits_of lims s).1 (limits_of lims s).2 (length grid) grid /\ Z.of_nat (length grid) = (100 * int (((limits_of lims s).2 - (limits_of lims s).1) / 2)%R)%Z.
Proof.
  intros H Hp. apply figure_parts in H as (grid&line&drawn&Hg&Hl&_&_&_&_&H). destruct (rmap_lookup _ _ _ _ _ H Hp) as (k&Hk&Hpan). apply lookup_seq in Hk as [-> _]. cbn [Nat.add] in Hpan.
  unfold panels_of in Hpan. cbv zeta in Hpan. part Hpan off E1. part Hpan st E2. part Hpan d E3. part Hpan roll E4. part Hpan st' E5. part Hpan d' E6. part Hpan l E7. part Hpan m E8. part Hpan col E9. part Hpan t E10.
  part Hpan m' E11. part Hpan t' E12. part Hpan b E13. part Hpan bs E14. part Hpan b' E15. part Hpan bs' E16.
  apply (f_equal (fun r => match r with Ok x => x | Err _ => p end)) in Hpan. cbv beta iota in Hpan. subst p. cbn [Model_Marks.steps fst snd]. apply idx_ok in E1, E4. apply stairs_ok in E2, E5.
  exists grid, line.1, line.2, off, roll. split; [by destruct line|]. split; [done|]. split; [done|]. split; [done|]. split; [done|].
  by apply grid_ok in Hg.
Qed.
(** The lines of the structures are those of the figure without marks. *)
Theorem C106_lines int lims (s : sc R) fig : support_figure int lims s = Ok fig -> exists drawn, plot_support lims s = Ok drawn /\ forall n p, fig !! n = Some p -> drawn !! n = Some (lines p).
Proof.
  intros H. apply figure_parts in H as (grid&line&drawn&_&_&_&_&_&Hd&H). exists drawn. split; [done|]. intros n p Hp.
  destruct (rmap_lookup _ _ _ _ _ H Hp) as (k&Hk&Hpan). apply lookup_seq in Hk as [-> _]. cbn [Nat.add] in Hpan.
  unfold panels_of in Hpan. cbv zeta in Hpan. part Hpan off E1. part Hpan st E2. part Hpan d E3. part Hpan roll E4. part Hpan st' E5. part Hpan d' E6. part Hpan l E7. part Hpan m E8. part Hpan col E9. part Hpan t E10.
  part Hpan m' E11. part Hpan t' E12. part Hpan b E13. part Hpan bs E14. part Hpan b' E15. part Hpan bs' E16.
  apply (f_equal (fun r => match r with Ok x => x | Err _ => p end)) in Hpan. cbv beta iota in Hpan. subst p. cbn [lines]. by apply idx_ok in E7.
Qed.
(** Finding: a figure needs magnets, monitors, and limits two metres apart; the whole of a shorter lattice cannot be drawn. *)
Theorem C106_finding_needs int lims (s : sc R) fig : truncates int -> support_figure int lims s = Ok fig ->
  oMagnet (ORD s) <> [] /\ oBPM (ORD s) <> [] /\ 2 <= (limits_of lims s).2 - (limits_of lims s).1.
Proof.
  intros Hi H. apply figure_parts in H as (grid&line&drawn&Hg&_&Hm&Hb&(off&l&_&Hst)&_). split; [done|]. split; [done|]. apply grid_ok in Hg as [_ Hg]. apply stairs_ok in Hst as [HL _].
  set (d := (limits_of lims s).2 - (limits_of lims s).1) in *. destruct (Hi (d / 2)) as [P Q]. assert (1 <= int (d / 2)%R)%Z as I by lia. apply IZR_le in I. destruct (Rle_dec 0 (d / 2)) as [D|D]; [apply P in D; lra|].
  specialize (Q ltac:(lra)). lra.
Qed.
Lemma limits_default (lims : option (R * R)) (s : sc R) : default (n0, default n0 (last (spos (RING s)))) lims = limits_of lims s.
Proof.
  assert (default 0 (last (spos (RING s))) = total_length s) as E. { rewrite last_lookup, spos_length. cbn [pred]. rewrite spos_position by done. reflexivity. }
  unfold limits_of. rewrite <- E. done.
Qed.
Lemma grid_wide int (l : R * R) : truncates int -> 0 <= l.2 - l.1 -> exists grid, support_grid int l = Ok grid.
Proof.
  intros Hi D. unfold support_grid. assert (@ntwo R _ = 2) as -> by (unfold ntwo; num_R; lra). num_R. cbv zeta. destruct (_ <? 0)%Z eqn:E; [|destruct (_ =? 0)%Z; eauto].
  apply Z.ltb_lt in E. destruct (Hi ((l.2 - l.1) / 2)) as [P _]. specialize (P ltac:(lra)). assert (int ((l.2 - l.1) / 2)%R <= -1)%Z as I by lia. apply IZR_le in I. lra.
Qed.
Lemma grid_narrow int (l : R * R) : truncates int -> -2 < l.2 - l.1 < 2 -> support_grid int l = Ok [].
Proof.
  intros Hi D. unfold support_grid. assert (@ntwo R _ = 2) as -> by (unfold ntwo; num_R; lra). num_R. cbv zeta. assert (int ((l.2 - l.1) / 2)%R = 0%Z) as ->; [|done].
  destruct (Hi ((l.2 - l.1) / 2)) as [P Q]. destruct (Rle_dec 0 ((l.2 - l.1) / 2)) as [E|E].
  - specialize (P E). apply Z.le_antisymm; [apply Z.lt_succ_r|apply Z.lt_succ_r]; apply lt_IZR; rewrite ?succ_IZR; lra.
  - specialize (Q ltac:(lra)). apply Z.le_antisymm; [apply Z.lt_succ_r|apply Z.lt_succ_r]; apply lt_IZR; rewrite ?succ_IZR; lra.
Qed.
Lemma interp_some (x : R) pts : pts <> [] -> exists y, interp x pts = Ok y.
Proof.
  induction pts as [|[x0 f0] pts IH]; [done|]. intros _. cbn [interp]. destruct (nleb x x0); [eauto|]. destruct pts as [|[x1 f1] pts]; [eauto|]. destruct (nltb x x1); [eauto|]. by apply IH.
Qed.
Lemma rmap_some {A B} (f : A -> res B) l : (forall x, exists y, f x = Ok y) -> exists l', rmap f l = Ok l'.
Proof. intros Hf. induction l as [|x l [l' IH]]; [by exists []|]. destruct (Hf x) as [y Hy]. exists (y :: l'). cbn [rmap]. rewrite Hy. cbn [rbind]. rewrite IH. done. Qed.
Lemma places_ok (s : sc R) o off roll : support_offset_and_roll (spos (RING s)) s = Ok (o :: off, roll) -> forall places, exists o off roll, support_offset_and_roll places s = Ok (o :: off, roll).
Proof.
  intros H places. unfold support_offset_and_roll in H. cbv zeta in H. part H all Hall. rewrite list_eqb_refl in H. apply (f_equal (fun r => match r with Ok x => x | Err _ => all end)) in H. cbv beta iota in H. subst all.
  unfold support_offset_and_roll. cbv zeta. rewrite Hall. cbn [rbind]. destruct (list_eqb _ _); [eauto|].
  assert (forall row : list R, zip (map (fun i => default n0 (spos (RING s) !! i)) (unique_index (spos (RING s)))) (map (fun i => default n0 (row !! i)) (unique_index (spos (RING s)))) <> []) as Hne.
  { intros row. destruct (unique_index_spec (spos (RING s))) as (u&->&_&_&Hall'). destruct (Hall' 0%nat (position s 0)) as (p&Hp&_); [apply spos_position; lia|]. destruct u; [by apply elem_of_nil in Hp|done]. }
  set (g := fun row => rmap (fun x => interp x _) places). assert (forall row, exists l, g row = Ok l) as Hg. { intros row. apply rmap_some. intros x. apply interp_some, Hne. }
  cbn [fst snd]. destruct (rmap_some g off Hg) as [off' E]. destruct (rmap_some g roll Hg) as [roll' E']. destruct (Hg o) as [o' Ho]. exists o', off', roll'. cbn [rmap]. rewrite Ho. cbn [rbind]. rewrite E. cbn [rbind]. by rewrite E'.
Qed.
(** In detail, for a machine whose displacements are computed along its own lattice. *)
Theorem C106_finding_refusals int lims (s : sc R) o off roll : truncates int -> support_offset_and_roll (spos (RING s)) s = Ok (o :: off, roll) -> let d := (limits_of lims s).2 - (limits_of lims s).1 in
  (d <= -2 -> support_figure int lims s = Err ValueError) /\
  (-2 < d -> oMagnet (ORD s) = [] -> support_figure int lims s = Err IndexError) /\
  (-2 < d -> oMagnet (ORD s) <> [] -> oBPM (ORD s) = [] -> support_figure int lims s = Err ValueError) /\
  (-2 < d < 2 -> oMagnet (ORD s) <> [] -> oBPM (ORD s) <> [] -> support_figure int lims s = Err ValueError).
Proof.
  intros Hi Hs0 d. pose proof (places_ok _ _ _ _ Hs0) as Hs. clear o off roll Hs0. unfold support_figure. cbv zeta. rewrite limits_default. split_and!.
  - intros D. unfold support_grid. assert (@ntwo R _ = 2) as -> by (unfold ntwo; num_R; lra). num_R. cbv zeta. fold d. destruct (Hi (d / 2)) as [_ Q]. specialize (Q ltac:(lra)).
    assert (int (d / 2)%R < 0)%Z as I by (apply lt_IZR; lra). destruct (_ <? 0)%Z eqn:E; [done|]. apply Z.ltb_ge in E. lia.
  - intros D Hm. assert (exists grid, support_grid int (limits_of lims s) = Ok grid) as [grid ->].
    { destruct (Rle_dec 0 d); [by apply grid_wide|]. exists []. apply grid_narrow; [done|]. unfold d in *. lra. }
    cbn [rbind]. destruct (Hs grid) as (o&off&roll&->). cbn [rbind]. by rewrite Hm.
  - intros D Hm Hb. assert (exists grid, support_grid int (limits_of lims s) = Ok grid) as [grid ->].
    { destruct (Rle_dec 0 d); [by apply grid_wide|]. exists []. apply grid_narrow; [done|]. unfold d in *. lra. }
    cbn [rbind]. destruct (Hs grid) as (o&off&roll&->). cbn [rbind]. rewrite Hb. by destruct (oMagnet (ORD s)).
  - intros D Hm Hb. rewrite grid_narrow by done. cbn [rbind]. destruct (Hs []) as (o&off&roll&->). cbn [rbind]. destruct (oMagnet (ORD s)); [done|]. destruct (oBPM (ORD s)); done.
Qed.
(** * The overall longitudinal offset *)
(** Finding: an unturned magnet displaced by [dz] along the beam, on a straight, is shown displaced by [- dz]: the overall marks are those of the
    transformation behind the magnet, which moves back what the one before it moved. *)
Theorem C106_finding_longitudinal minv (e e' : elem R) so mo sr mr len th dx dy dz :
  misaligned e so mo sr mr -> number_or_absent e "Length" len -> number_or_absent e "BendingAngle" th ->
  zip_with Rplus so mo = [dx; dy; dz] -> zip_with Rplus mr sr = [0; 0; 0]%R -> length so = length mo -> length mr = length sr ->
  update_transformation minv e = (Ok tt, e') ->
  e' !! "T2" = Some (VVec [dx * cos th + dz * sin th; 0; dy; 0; 0; dx * sin th - dz * cos th]%R).
Proof.
  intros (Hso&Hmo&Hsr&Hmr) Hl Hth Hoff Hrl L1 L2. unfold update_transformation.
  rewrite run_getm, (num_default_ok _ _ _ Hl), run_getm, (num_default_ok _ _ _ Hth), run_getm.
  unfold attr. rewrite Hso, Hmo. cbn [rbind nb_op]. unfold bcast. rewrite L1, Nat.eqb_refl. cbn [rbind].
  assert (zip_with nadd so mo = [dx; dy; dz]) as -> by exact Hoff. cbn [three]. rewrite run_getm, Hmr, Hsr. cbn [rbind nb_op]. unfold bcast. rewrite L2, Nat.eqb_refl. cbn [rbind].
  assert (zip_with nadd mr sr = [0; 0; 0]%R) as -> by exact Hrl. cbn [three fst snd].
  rewrite C33_identity. rewrite !(ident3_mvec' x_axis), !(ident3_mvec' y_axis), !(ident3_mvec' z_axis) by done.
  rewrite mtrans_ident3. rewrite translation_ident, r_matrix_drift, !run_lift, run_setattr, run_lift. destruct (minv _) as [iv|]; [|discriminate]. rewrite run_setattr.
  assert (mmul (mtrans (rotation n0 (nopp th) n0)) (mmul ident3 (rotation n0 (nopp th) n0)) = ident3) as ->.
  { rewrite <- mtrans_ident3 at 1. apply bend_conjugate. }
  set (OPp := if neqb th n0 then [n0; n0; len] else _).
  assert (length OPp = 3%nat) as HL3 by (unfold OPp; destruct (neqb th n0); done).
  rewrite (ident3_mvec' OPp) by done.
  assert (zip_with nsub (zip_with nsub OPp OPp) [dx; dy; dz] = [- dx; - dy; - dz]%R) as ->.
  { destruct OPp as [|a [|b [|c []]]]; try discriminate. cbn [zip_with]. num_R. lists; ring. }
  assert (rotation n0 (nopp th) n0 = about_y (- th)%R) as -> by (apply C33_single_axis).
  assert (dot (mvec (about_y (- th)) z_axis) [- dx; - dy; - dz]%R = (dx * sin th - dz * cos th)%R) as ->.
  { unfold about_y. mats. num_R. rewrite sin_neg, cos_neg. ring. }
  rewrite translation_ident, run_lift, run_setattr, r_matrix_drift, run_lift. intros H. apply (f_equal snd) in H. cbn [snd] in H. subst e'. cbn [setattr modify snd]. rewrite lookup_insert_ne by done. rewrite lookup_insert. do 2 f_equal.
  unfold about_y. mats. num_R. rewrite ?sin_neg, ?cos_neg. lists; ring.
Qed.

Print Assumptions C106_marks.
Print Assumptions C106_rows.
Print Assumptions C106_steps.
Print Assumptions C106_lines.
Print Assumptions C106_finding_needs.
Print Assumptions C106_finding_refusals.
Print Assumptions C106_finding_longitudinal.

(** * Cases *)
(** five elements of length 1; a monitor, and a magnet on a girder *)
Section Case.
  Context {T : Type} {N : Num T}.
  Definition marked : list (elem T) :=
    [mk [("Length", VNum (num 1)); ("Offset", VVec [num 4; num 5]); ("Roll", VNum (num 6)); ("SupportOffset", VVec [num 7; num 8]); ("SupportRoll", VNum (num 9))];
     mk [("Length", VNum (num 1)); ("GirderOffset", VVec [num 1; num 0; num 0]); ("GirderRoll", VVec [num 7; num 0; num 0])];
     mk [("Length", VNum (num 1)); ("SupportOffset", VVec [num 1; num 2; num 3]); ("SupportRoll", VVec [num 4; num 5; num 6]); ("MagnetOffset", VVec [num 7; num 8; num 9]);
         ("MagnetRoll", VVec [num 10; num 11; num 12]); ("T2", VVec [num 21; num 22; num 23; num 24; num 25; num 26])];
     mk [("Length", VNum (num 1)); ("GirderOffset", VVec [num 3; num 0; num 0])];
     mk [("Length", VNum (num 1))]].
  Definition marked_sc (mags bpms : list nat) : sc T := set_ORD (set_oMagnet mags (set_oBPM bpms (set_oSupport SGirder [(1%nat, 3%nat)] (ORD (init_sc marked []))))) (init_sc marked []).
End Case.
Definition heights (p : panels Q) : list (list (Q * Q)) :=
  [(support_marks p).1; (support_marks p).2; (single_marks p).1; (single_marks p).2; (total_marks p).1; (total_marks p).2; (bpm_marks p).1; (bpm_marks p).2; (bpm_support_marks p).1; (bpm_support_marks p).2].
Definition shown_marks (r : res (list (panels Q))) : list (list (list (Q * Q))) + exn := match r with Ok fig => inl (map heights fig) | Err e => inr e end.
Definition qint (x : Q) : Z := if Qle_bool 0 x then Qround.Qfloor x else Qround.Qceiling x.
Definition at_magnet (x : Z) : list (Q * Q) := [(2%Q, inject_Z (1000000 * x))].
Definition at_monitor (x : Z) : list (Q * Q) := [(0%Q, inject_Z (1000000 * x))].
Example C106_case :
  shown_marks (support_figure qint None (marked_sc [2%nat] [0%nat])) =
    inl [[at_magnet 1; at_magnet 4; at_magnet 7; at_magnet 10; at_magnet 21; at_magnet 14; at_monitor 4; at_monitor 6; at_monitor 7; at_monitor 9];
         [at_magnet 2; at_magnet 5; at_magnet 8; at_magnet 11; at_magnet 23; at_magnet 16; at_monitor 5; at_monitor 0; at_monitor 8; at_monitor 0];
         [at_magnet 3; at_magnet 6; at_magnet 9; at_magnet 12; at_magnet 26; at_magnet 18; at_monitor 0; at_monitor 0; at_monitor 0; at_monitor 0]] /\
  shown_marks (support_figure qint (Some (1, 2)%Q) (marked_sc [2%nat] [0%nat])) = inr ValueError /\
  shown_marks (support_figure qint (Some (4, 1)%Q) (marked_sc [2%nat] [0%nat])) = inr ValueError /\
  shown_marks (support_figure qint None (marked_sc [] [0%nat])) = inr IndexError /\
  shown_marks (support_figure qint None (marked_sc [2%nat] [])) = inr ValueError.
Proof. vm_compute. done. Qed.
Definition cut (x : R) : Z := if Rle_dec 0 x then Int_part x else (- Int_part (- x))%Z.
Example C106_truncates : truncates cut.
Proof.
  intros x. unfold cut. destruct (Rle_dec 0 x) as [H|H]; split; intros H'.
  - destruct (base_Int_part x). lra.
  - assert (x = 0) as -> by lra. destruct (base_Int_part 0) as [B1 B2]. assert (Int_part 0 = 0%Z) as E; [|rewrite E; lra]. apply Z.le_antisymm; [apply le_IZR; lra|apply Z.lt_succ_r, lt_IZR; rewrite succ_IZR; lra].
  - lra.
  - destruct (base_Int_part (- x)). rewrite opp_IZR. lra.
Qed.
Definition bare_sc : sc R := set_ORD (set_oMagnet [2%nat] (set_oBPM [0%nat] (ORD (init_sc marked [])))) (init_sc marked []).
Example C106_premises : exists o off roll, support_offset_and_roll (spos (RING bare_sc)) bare_sc = Ok (o :: off, roll).
Proof. unfold support_offset_and_roll. cbv zeta. rewrite list_eqb_refl. do 3 eexists. reflexivity. Qed.
(** a straight magnet put 3 forward along the beam: shown 3 back *)
Definition pushed_quad : elem R :=
  {["SupportOffset" := VVec [0; 0; 1]%R; "MagnetOffset" := VVec [0; 0; 2]%R; "SupportRoll" := VVec [0; 0; 0]%R; "MagnetRoll" := VVec [0; 0; 0]%R; "Length" := VNum 5%R]}.
Example C106_pushed minv e' : update_transformation minv pushed_quad = (Ok tt, e') -> e' !! "T2" = Some (VVec [0; 0; 0; 0; 0; -3]%R).
Proof.
  intros H. rewrite (C106_finding_longitudinal minv pushed_quad e' [0; 0; 1]%R [0; 0; 2]%R [0; 0; 0]%R [0; 0; 0]%R 5 0 0 0 3); try done.
  - rewrite sin_0, cos_0. do 2 f_equal. lists; ring.
  - by left.
  - by right.
  - simpl. lists; ring.
  - simpl. lists; ring.
Qed.
