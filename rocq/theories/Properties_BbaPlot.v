(** C98: what the figures of a beam-based alignment show. *)
From Coq Require Import Reals Lra Lia QArith ZArith.
From stdpp Require Import base gmap strings list sorting.
From Verif Require Import Num Base Model_Arr Model_SC Model_Err Model_Beam Model_Orbit Model_Scan Model_Stats Model_Bba Model_Loco Model_Resp Model_Plot Model_Figure Model_BbaPlot Lemmas Proofs_Update Proofs_Beam Spec Properties_Orbit Properties_Bba Properties_Figure.
Local Open Scope string_scope.
Local Open Scope list_scope.
Local Open Scope R_scope.

(** * Specification *)
(** BPMs listed once each, all of them registered *)
Definition distinct_registered (s : sc R) (bpms : list nat) : Prop := NoDup bpms /\ forall b, b ∈ bpms -> b ∈ oBPM (ORD s).
(** column [j] of plane [i] is drawn at the place of its BPM among all registered ones, with the offset and its error in micrometres *)
Definition drawn (s : sc R) (bpm_ords : list (list nat)) (offs errs : list (list (option R))) (i j : nat) (mark : nat * option R * option R) : Prop :=
  exists b off err, in_table bpm_ords i j = Some b /\ in_table offs i j = Some off /\ in_table errs i j = Some err /\
    oBPM (ORD s) !! mark.1.1 = Some b /\ mark.1.2 = option_map (Rmult 1000000) off /\ mark.2 = option_map (Rmult 1000000) err.
(** an offset that apply_bpm_offsets takes over (C54) *)
Definition taken (offs errs : list (list (option R))) (i j : nat) : Prop :=
  exists off err x, in_table offs i j = Some off /\ in_table errs i j = Some err /\ accepted off err x.

(** * Proofs *)
Lemma places_from_spec reg bpms : forall a, Forall2 (fun k b => (a <= k)%nat /\ reg !! (k - a)%nat = Some b) (places_from a reg bpms) (filter (fun b => b ∈ bpms) reg).
Proof.
  induction reg as [|b reg IH]; intros a; [constructor|]. cbn [places_from]. rewrite filter_cons.
  assert (Forall2 (fun k c => (a <= k)%nat /\ (b :: reg) !! (k - a)%nat = Some c) (places_from (S a) reg bpms) (filter (fun b => b ∈ bpms) reg)) as H.
  { eapply Forall2_impl; [apply IH|]. cbn beta. intros k c [H1 H2]. split; [lia|]. replace (k - a)%nat with (S (k - S a)) by lia. done. }
  destruct (bool_decide (b ∈ bpms)) eqn:E; [apply bool_decide_eq_true in E; rewrite decide_True by done|apply bool_decide_eq_false in E; by rewrite decide_False].
  constructor; [|done]. split; [lia|]. by rewrite Nat.sub_diag.
Qed.
Lemma places_spec reg bpms : Forall2 (fun k b => reg !! k = Some b) (places reg bpms) (filter (fun b => b ∈ bpms) reg).
Proof. eapply Forall2_impl; [apply (places_from_spec _ _ 0)|]. cbn beta. intros k b [_ H]. by rewrite Nat.sub_0_r in H. Qed.
Lemma places_length reg bpms : length (places reg bpms) = length (filter (fun b => b ∈ bpms) reg).
Proof. eapply Forall2_length, places_spec. Qed.
Lemma filter_perm (reg bpms : list nat) : NoDup reg -> NoDup bpms -> (forall b, b ∈ bpms -> b ∈ reg) -> filter (fun b => b ∈ bpms) reg ≡ₚ bpms.
Proof. intros H1 H2 H3. apply NoDup_Permutation; [by apply NoDup_filter|done|]. intros b. rewrite elem_of_list_filter. split; [tauto|auto]. Qed.
Lemma places_all reg bpms : NoDup reg -> length (places reg bpms) = length bpms <-> NoDup bpms /\ forall b, b ∈ bpms -> b ∈ reg.
Proof.
  intros Hr. rewrite places_length. split.
  - intros H. assert (filter (fun b => b ∈ bpms) reg ≡ₚ bpms) as P.
    { apply NoDup_Permutation_bis; [by apply NoDup_ListNoDup, NoDup_filter|lia|]. intros b Hb. apply elem_of_list_In, elem_of_list_filter in Hb as [Hb _]. by apply elem_of_list_In. }
    split; [rewrite <- P; by apply NoDup_filter|]. intros b. rewrite <- P at 1. rewrite elem_of_list_filter. tauto.
  - intros [H1 H2]. by rewrite (filter_perm reg bpms).
Qed.
#[local] Instance lt_anti : AntiSymm (=) lt.
Proof. intros x y ? ?. lia. Qed.
Lemma filter_sorted (P : nat -> Prop) `{forall x, Decision (P x)} (l : list nat) : StronglySorted lt l -> StronglySorted lt (filter P l).
Proof.
  induction 1 as [|x l Hl IH Hx]; [constructor|]. rewrite filter_cons. destruct (decide (P x)); [|done]. constructor; [done|]. rewrite Forall_forall in *. intros y Hy.
  apply Hx. apply elem_of_list_filter in Hy. tauto.
Qed.
Lemma filter_is (reg bpms : list nat) : StronglySorted lt reg -> NoDup bpms -> (forall b, b ∈ bpms -> b ∈ reg) -> (StronglySorted lt bpms <-> filter (fun b => b ∈ bpms) reg = bpms).
Proof.
  intros H1 H2 H3. assert (NoDup reg) as H4.
  { clear -H1. induction H1 as [|x l Hl IH Hx]; constructor; [|done]. intros Hin. rewrite Forall_forall in Hx. specialize (Hx _ Hin). lia. }
  split.
  - intros H. apply (StronglySorted_unique lt); [by apply filter_sorted|done|by apply filter_perm].
  - intros <-. by apply filter_sorted.
Qed.
(** selection by masks *)
Lemma selected_combine {A B} (m : list bool) : forall (a : list A) (b : list B), combine (selected m a) (selected m b) = selected m (combine a b).
Proof.
  induction m as [|f m IH]; intros [|x a] [|y b]; try done; cbn [combine selected].
  - by rewrite combine_nil.
  - destruct f; cbn [combine]; by rewrite IH.
Qed.
Lemma selected_elem {A} (m : list bool) : forall (l : list A) x, x ∈ selected m l <-> exists j, m !! j = Some true /\ l !! j = Some x.
Proof.
  induction m as [|f m IH]; intros [|y l] x; cbn [selected].
  1-3: split; [by intros ?%elem_of_nil|intros (j&H1&H2); by rewrite ?lookup_nil in *].
  destruct f; [rewrite elem_of_cons|]; rewrite IH; split.
  - intros [-> |(j&H1&H2)]; [by exists 0%nat|by exists (S j)].
  - intros ([|j]&H1&H2); [left; by injection H2 as <-|right; by exists j].
  - intros (j&H1&H2). by exists (S j).
  - intros ([|j]&H1&H2); [discriminate|by exists j].
Qed.
Lemma selected_split {A} (m : list bool) : forall l : list A, length m = length l -> (length (selected (map negb m) l) + length (selected m l))%nat = length l.
Proof. induction m as [|f m IH]; intros [|y l] H; try done. injection H as H. cbn [map selected]. destruct f; cbn [negb length]; rewrite <- (IH l H); lia. Qed.
Lemma rmap_cases {A B} (f : A -> res B) (e : exn) l : (forall x, x ∈ l -> (exists y, f x = Ok y) \/ f x = Err e) -> (exists ys, rmap f l = Ok ys) \/ rmap f l = Err e.
Proof.
  induction l as [|x l IH]; intros H; [left; by eexists|]. cbn. destruct (H x) as [[y ->]| ->]; [left| |by right]. cbn. destruct IH as [[ys ->]| ->]; [intros z Hz; apply H; by right|left; by eexists|by right].
Qed.

(** ** Results of the alignment *)
Lemma shape_row {A B} (m : list (list A)) (m' : list (list B)) i row : shape m = shape m' -> m' !! i = Some row -> exists r, m !! i = Some r /\ length r = length row.
Proof. apply shape_lookup. Qed.
Lemma million_R : (million : R) = 1000000.
Proof. unfold million. num_R. done. Qed.
Definition flags_of (off err : list (option R)) : list bool := zip_with bba_errored off err.
Definition marks_of (x : list nat) (off err : list (option R)) : list (nat * option R * option R) :=
  combine (combine x (map (fmap (nmul million)) off)) (map (fmap (nmul million)) err).
Lemma error_marks_ok m x (off err : list (option R)) : length off = length m -> length err = length m ->
  error_marks m x off err = if (length m =? length x)%nat then Ok (selected m (marks_of x off err)) else Err IndexError.
Proof.
  intros H1 H2. unfold error_marks, masked. rewrite !map_length, H1, H2, Nat.eqb_refl. destruct (length m =? length x)%nat; [|done]. cbn [rbind].
  by rewrite !selected_combine.
Qed.
Lemma panel_ok n u : panel n = Ok u <-> (n < 2)%nat.
Proof. unfold panel. destruct n as [|[|n]]; cbn; destruct u; split; try done; lia. Qed.
Lemma panel_cases n : (n < 2)%nat /\ panel n = Ok tt \/ (2 <= n)%nat /\ panel n = Err IndexError.
Proof. unfold panel. destruct n as [|[|n]]; [left; split; [lia|done]..|right; split; [lia|done]]. Qed.
Lemma plane_result bpm_ords offs errs (s : sc R) i bpms : shape offs = shape bpm_ords -> shape errs = shape bpm_ords -> bpm_ords !! i = Some bpms ->
  exists off err, offs !! i = Some off /\ errs !! i = Some err /\ length off = length bpms /\ length err = length bpms /\
  let x := places (oBPM (ORD s)) bpms in let f := flags_of off err in
  (let? mask := idx (zip_with (zip_with bba_errored) offs errs) i in let? _ := panel i in let? off := idx offs i in let? err := idx errs i in
   let? good := error_marks (map negb mask) x off err in let? bad := error_marks mask x off err in Ok (good, bad)) =
  if (i <? 2)%nat && (length bpms =? length x)%nat then Ok (selected (map negb f) (marks_of x off err), selected f (marks_of x off err)) else Err IndexError.
Proof.
  intros H1 H2 Hb. destruct (shape_row _ _ _ _ H1 Hb) as (off&Ho&Lo). destruct (shape_row _ _ _ _ H2 Hb) as (err&He&Le). exists off, err. split_and!; try done. cbv zeta.
  assert (idx (zip_with (zip_with bba_errored) offs errs) i = Ok (flags_of off err)) as -> by (apply idx_ok; by rewrite lookup_zip_with, Ho, He).
  assert (length (flags_of off err) = length bpms) as Lf by (unfold flags_of; rewrite zip_with_length; lia).
  cbn [rbind]. apply idx_ok in Ho, He. rewrite Ho, He. cbn [rbind]. destruct (panel_cases i) as [[Hi ->]|[Hi ->]]; cbn [rbind].
  - rewrite !error_marks_ok by (rewrite ?map_length; lia). rewrite map_length, Lf. destruct (Nat.ltb_spec i 2); [|lia]. cbn [andb]. destruct (length bpms =? length _)%nat; done.
  - destruct (Nat.ltb_spec i 2); [lia|]. done.
Qed.
Lemma marks_lookup x off err j (mk : nat * option R * option R) : marks_of x off err !! j = Some mk <-> exists k o e, x !! j = Some k /\ off !! j = Some o /\ err !! j = Some e /\
  mk = (k, option_map (Rmult 1000000) o, option_map (Rmult 1000000) e).
Proof.
  unfold marks_of. assert (forall {A B} (a : list A) (b : list B), combine a b = zip a b) as Hz. { intros A B a. induction a as [|y a IH]; intros [|z b]; done. }
  rewrite !Hz, !lookup_zip_with, !list_lookup_fmap. rewrite million_R. destruct (x !! j) as [k|], (off !! j) as [o|], (err !! j) as [e|]; cbn; (split; [intros [= <-]|intros (?&?&?&[= ->]&[= ->]&[= ->]&->)]); try done.
  exists k, o, e. split_and!; try done.
Qed.

Lemma errored_or off err : bba_errored (T:=R) off err = true <-> ~ exists x, accepted off err x.
Proof. rewrite <- errored_spec. destruct (bba_errored off err); split; congruence. Qed.
Lemma sorted_nodup (l : list nat) : StronglySorted lt l -> NoDup l.
Proof. induction 1 as [|x l Hl IH Hx]; constructor; [|done]. intros Hin. rewrite Forall_forall in Hx. specialize (Hx _ Hin). lia. Qed.
Lemma results_rows bpm_ords offs errs (s : sc R) : shape offs = shape bpm_ords -> shape errs = shape bpm_ords ->
  bba_results bpm_ords offs errs s = rmap (fun p : nat * list nat =>
      let? mask := idx (zip_with (zip_with bba_errored) offs errs) p.1 in let? _ := panel p.1 in let? off := idx offs p.1 in let? err := idx errs p.1 in
      let? good := error_marks (map negb mask) (places (oBPM (ORD s)) p.2) off err in let? bad := error_marks mask (places (oBPM (ORD s)) p.2) off err in Ok (good, bad)) (imap (fun n row => (n, row)) bpm_ords).
Proof.
  intros H1 H2. unfold bba_results, is_bba_errored. rewrite decide_True by congruence. cbn [rbind].
  generalize (imap (fun (n : nat) (row : list nat) => (n, row)) bpm_ords). induction l as [|[i bpms] l IH]; [done|]. cbn [rmap fst snd]. by rewrite IH.
Qed.

(** * Theorems *)
(** The figure is drawn exactly for one or two planes each of which lists registered BPMs, each once; anything else is an IndexError. *)
Theorem C98_returns bpm_ords offs errs (s : sc R) : shape offs = shape bpm_ords -> shape errs = shape bpm_ords -> NoDup (oBPM (ORD s)) ->
  ((exists fig, bba_results bpm_ords offs errs s = Ok fig) <-> (length bpm_ords <= 2)%nat /\ forall bpms, bpms ∈ bpm_ords -> distinct_registered s bpms) /\
  ((exists fig, bba_results bpm_ords offs errs s = Ok fig) \/ bba_results bpm_ords offs errs s = Err IndexError).
Proof.
  intros H1 H2 Hd. rewrite results_rows by done. split.
  - split.
    + intros (fig&H). apply rmap_ok in H. assert (forall i bpms, bpm_ords !! i = Some bpms -> (i < 2)%nat /\ distinct_registered s bpms) as Hr.
      { intros i bpms Hb. assert (imap (fun (n : nat) (row : list nat) => (n, row)) bpm_ords !! i = Some (i, bpms)) as Hi by (by rewrite list_lookup_imap, Hb).
        destruct (Forall2_lookup_l _ _ _ _ _ H Hi) as (y&_&Hy). cbn [fst snd] in Hy. destruct (plane_result bpm_ords offs errs s i bpms H1 H2 Hb) as (off&err&_&_&_&_&E). cbv zeta in E. rewrite E in Hy. clear E.
        destruct (Nat.ltb_spec i 2); [|discriminate]. destruct (Nat.eqb_spec (length bpms) (length (places (oBPM (ORD s)) bpms))) as [El|]; [|discriminate]. split; [done|]. apply places_all; [done|]. done. }
      split; [|intros bpms (i&Hb)%elem_of_list_lookup; by apply (Hr i)]. destruct (decide (length bpm_ords <= 2)%nat) as [|Hn]; [done|]. destruct (lookup_lt_is_Some_2 bpm_ords 2) as [b Hb]; [lia|]. apply Hr in Hb. lia.
    + intros [Hl Hr]. assert (forall l, (forall i bpms, (i, bpms) ∈ l -> bpm_ords !! i = Some bpms) -> exists ys, rmap (fun p : nat * list nat =>
      let? mask := idx (zip_with (zip_with bba_errored) offs errs) p.1 in let? _ := panel p.1 in let? off := idx offs p.1 in let? err := idx errs p.1 in
      let? good := error_marks (map negb mask) (places (oBPM (ORD s)) p.2) off err in let? bad := error_marks mask (places (oBPM (ORD s)) p.2) off err in Ok (good, bad)) l = Ok ys) as Hall.
      { induction l as [|[i bpms] l IH]; intros Hl'; [by eexists|]. cbn [rmap]. assert (bpm_ords !! i = Some bpms) as Hb by (apply Hl'; left). cbn [fst snd].
        destruct (plane_result bpm_ords offs errs s i bpms H1 H2 Hb) as (off&err&_&_&_&_&E). cbv zeta in E. rewrite E. assert (i < length bpm_ords)%nat by (by eapply lookup_lt_Some). destruct (Nat.ltb_spec i 2); [|lia].
        destruct (Hr bpms) as [A1 A2]; [by eapply elem_of_list_lookup_2|]. rewrite (proj2 (places_all (oBPM (ORD s)) bpms Hd)) by done. rewrite Nat.eqb_refl. cbn [andb rbind].
        destruct IH as [ys ->]; [intros; apply Hl'; by right|]. by eexists. }
      apply Hall. intros i bpms Hp. apply elem_of_list_lookup in Hp as (k&Hk). rewrite list_lookup_imap in Hk. destruct (bpm_ords !! k) as [b|] eqn:Hb; [|done]. by injection Hk as -> ->.
  - apply rmap_cases. intros [i bpms] Hp. apply elem_of_list_lookup in Hp as (k&Hk). rewrite list_lookup_imap in Hk. destruct (bpm_ords !! k) as [b|] eqn:Hb; [|done]. injection Hk as -> ->. cbn [fst snd].
    destruct (plane_result bpm_ords offs errs s i bpms H1 H2 Hb) as (off&err&_&_&_&_&E). cbv zeta in E. rewrite E. destruct ((i <? 2)%nat && _); [left; by eexists|by right].
Qed.
Lemma result_plane bpm_ords offs errs (s : sc R) fig i good bad bpms : shape offs = shape bpm_ords -> shape errs = shape bpm_ords ->
  bba_results bpm_ords offs errs s = Ok fig -> fig !! i = Some (good, bad) -> bpm_ords !! i = Some bpms ->
  exists off err, offs !! i = Some off /\ errs !! i = Some err /\ length off = length bpms /\ length err = length bpms /\ length (places (oBPM (ORD s)) bpms) = length bpms /\
  good = selected (map negb (flags_of off err)) (marks_of (places (oBPM (ORD s)) bpms) off err) /\ bad = selected (flags_of off err) (marks_of (places (oBPM (ORD s)) bpms) off err).
Proof.
  intros H1 H2 H Hf Hb. rewrite results_rows in H by done. apply rmap_ok in H. assert (imap (fun (n : nat) (row : list nat) => (n, row)) bpm_ords !! i = Some (i, bpms)) as Hi by (by rewrite list_lookup_imap, Hb).
  destruct (Forall2_lookup_l _ _ _ _ _ H Hi) as (y&Hy'&Hy). rewrite Hf in Hy'. injection Hy' as <-. cbn [fst snd] in Hy. destruct (plane_result bpm_ords offs errs s i bpms H1 H2 Hb) as (off&err&A1&A2&A3&A4&E). cbv zeta in E. rewrite E in Hy. clear E.
  exists off, err. destruct (Nat.ltb_spec i 2); [|discriminate]. destruct (Nat.eqb_spec (length bpms) (length (places (oBPM (ORD s)) bpms))) as [El|]; [|discriminate]. injection Hy as <- <-. split_and!; done.
Qed.
Lemma flags_lookup off err j f : flags_of off err !! j = Some f <-> exists o e, off !! j = Some o /\ err !! j = Some e /\ f = bba_errored o e.
Proof.
  unfold flags_of. rewrite lookup_zip_with. destruct (off !! j) as [o|], (err !! j) as [e|]; cbn; (split; [intros [= <-]; eauto|intros (?&?&[= ->]&[= ->]&->); done]).
Qed.
Lemma taken_iff offs errs i j off err o e : offs !! i = Some off -> errs !! i = Some err -> off !! j = Some o -> err !! j = Some e -> taken offs errs i j <-> bba_errored o e = false.
Proof.
  intros H1 H2 H3 H4. rewrite errored_spec. unfold taken, in_table. rewrite H1, H2. cbn. rewrite H3, H4. split; [intros (?&?&x&[= <-]&[= <-]&?); eauto|intros (x&?); eauto 6].
Qed.
Lemma places_sorted (s : sc R) bpms j k : StronglySorted lt (oBPM (ORD s)) -> distinct_registered s bpms -> StronglySorted lt bpms -> places (oBPM (ORD s)) bpms !! j = Some k ->
  exists b, bpms !! j = Some b /\ oBPM (ORD s) !! k = Some b.
Proof.
  intros H1 [H2 H3] H4 Hk. pose proof (places_spec (oBPM (ORD s)) bpms) as H. rewrite (proj1 (filter_is _ _ H1 H2 H3) H4) in H. destruct (Forall2_lookup_l _ _ _ _ _ H Hk) as (b&?&?). eauto.
Qed.
(** In a plane whose BPMs are listed in increasing order every BPM has one mark, at its own place, of the series of accepted offsets if
    its offset was taken over by apply_bpm_offsets, of the failed ones otherwise. *)
Theorem C98_marks bpm_ords offs errs (s : sc R) fig i good bad bpms : shape offs = shape bpm_ords -> shape errs = shape bpm_ords -> StronglySorted lt (oBPM (ORD s)) ->
  bba_results bpm_ords offs errs s = Ok fig -> fig !! i = Some (good, bad) -> bpm_ords !! i = Some bpms -> StronglySorted lt bpms ->
  (length good + length bad)%nat = length bpms /\
  (forall mark, mark ∈ good <-> exists j, drawn s bpm_ords offs errs i j mark /\ taken offs errs i j) /\
  (forall mark, mark ∈ bad <-> exists j, drawn s bpm_ords offs errs i j mark /\ ~ taken offs errs i j).
Proof.
  intros H1 H2 Hr H Hf Hb Hs. destruct (result_plane _ _ _ _ _ _ _ _ _ H1 H2 H Hf Hb) as (off&err&Ho&He&Lo&Le&Lx&Hg&Hbad).
  assert (distinct_registered s bpms) as Hd by (apply places_all; [by apply sorted_nodup|done]). set (x := places (oBPM (ORD s)) bpms) in *.
  assert (length (flags_of off err) = length (marks_of x off err)) as Lf. { unfold flags_of, marks_of. rewrite zip_with_length, !combine_length, !map_length. lia. }
  assert (forall j mk, marks_of x off err !! j = Some mk <-> drawn s bpm_ords offs errs i j mk) as HM.
  { intros j mk. rewrite marks_lookup. unfold drawn, in_table. rewrite Hb, Ho, He. cbn. split.
    - intros (k&o&e&A1&A2&A3&->). destruct (places_sorted s bpms j k Hr Hd Hs A1) as (b&B1&B2). exists b, o, e. split_and!; done.
    - intros (b&o&e&A1&A2&A3&A4&A5&A6). destruct (lookup_lt_is_Some_2 x j) as [k Hk]; [rewrite Lx; by eapply lookup_lt_Some|]. destruct (places_sorted s bpms j k Hr Hd Hs Hk) as (b'&B1&B2).
      exists k, o, e. split_and!; try done. destruct mk as [[k' y] z]. cbn in *. subst y z. f_equal. f_equal. rewrite B1 in A1. injection A1 as ->. eapply NoDup_lookup; [exact (sorted_nodup _ Hr)|exact A4|exact B2]. }
  assert (forall j mk, drawn s bpm_ords offs errs i j mk -> exists f, flags_of off err !! j = Some f /\ (f = false <-> taken offs errs i j)) as HT.
  { intros j mk (b&o&e&_&A2&A3&_). unfold in_table in A2, A3. rewrite Ho in A2. rewrite He in A3. cbn in A2, A3. exists (bba_errored o e). split; [apply flags_lookup; eauto|]. symmetry. by eapply taken_iff. }
  subst good bad. split; [rewrite selected_split by done; unfold marks_of; rewrite !combine_length, !map_length; lia|]. split; intros mk; rewrite selected_elem; split.
  - intros (j&A1&A2). apply HM in A2. exists j. split; [done|]. destruct (HT _ _ A2) as (f&F1&F2). rewrite list_lookup_fmap, F1 in A1. cbn in A1. destruct f; [discriminate|]. by apply F2.
  - intros (j&A1&A2). exists j. destruct (HT _ _ A1) as (f&F1&F2). rewrite list_lookup_fmap, F1. cbn. apply F2 in A2 as ->. split; [done|]. by apply HM.
  - intros (j&A1&A2). apply HM in A2. exists j. split; [done|]. destruct (HT _ _ A2) as (f&F1&F2). rewrite F1 in A1. injection A1 as ->. rewrite <- F2. done.
  - intros (j&A1&A2). exists j. destruct (HT _ _ A1) as (f&F1&F2). rewrite <- F2 in A2. destruct f; [|done]. split; [done|]. by apply HM.
Qed.
(** Finding: the places are sorted whatever the order of the BPMs.  So when all offsets are accepted, each mark stands at the place of its own BPM only
    if the BPMs were listed in increasing order. *)
Theorem C98_finding_order bpm_ords offs errs (s : sc R) fig i good bad bpms : shape offs = shape bpm_ords -> shape errs = shape bpm_ords -> StronglySorted lt (oBPM (ORD s)) ->
  bba_results bpm_ords offs errs s = Ok fig -> fig !! i = Some (good, bad) -> bpm_ords !! i = Some bpms -> (forall j, (j < length bpms)%nat -> taken offs errs i j) ->
  bad = [] /\ length good = length bpms /\ ((forall j mark, good !! j = Some mark -> drawn s bpm_ords offs errs i j mark) <-> StronglySorted lt bpms).
Proof.
  intros H1 H2 Hr H Hf Hb Ht. destruct (result_plane _ _ _ _ _ _ _ _ _ H1 H2 H Hf Hb) as (off&err&Ho&He&Lo&Le&Lx&Hg&Hbad).
  assert (distinct_registered s bpms) as Hd by (apply places_all; [by apply sorted_nodup|done]). set (x := places (oBPM (ORD s)) bpms) in *.
  assert (flags_of off err = replicate (length bpms) false) as Ef.
  { apply list_eq. intros j. destruct (decide (j < length bpms)%nat) as [Hj|Hj].
    - destruct (lookup_lt_is_Some_2 off j) as [o Xo]; [lia|]. destruct (lookup_lt_is_Some_2 err j) as [e Xe]; [lia|]. rewrite lookup_replicate_2 by done. apply flags_lookup. exists o, e. split; [done|]. split; [done|].
      symmetry. apply (taken_iff offs errs i j off err o e); auto.
    - rewrite !lookup_ge_None_2; [done|rewrite replicate_length; lia|unfold flags_of; rewrite zip_with_length; lia]. }
  assert (forall {A} (l : list A) n, selected (replicate n false) l = []) as S0 by (intros A l n; revert l; induction n as [|n IH]; intros [|? l]; cbn; auto).
  assert (forall {A} (l : list A) n, length l = n -> selected (replicate n true) l = l) as S1 by (intros A l; induction l as [|? l IH]; intros n <-; cbn; [done|]; by rewrite IH).
  assert (length (marks_of x off err) = length bpms) as Lm by (unfold marks_of; rewrite !combine_length, !map_length; lia).
  rewrite Ef in Hg, Hbad. rewrite S0 in Hbad. change (@map bool bool) with (@fmap list _ bool bool) in Hg. rewrite fmap_replicate in Hg. cbn [negb] in Hg. rewrite S1 in Hg by done. subst good bad. split; [done|]. split; [done|]. split.
  - intros Hall. destruct Hd as [D1 D2]. apply (filter_is _ _ Hr D1 D2). pose proof (places_spec (oBPM (ORD s)) bpms) as HF. fold x in HF. pose proof (Forall2_length _ _ _ HF) as LF. apply list_eq. intros j.
    destruct (decide (j < length bpms)%nat) as [Hj|Hj]; [|rewrite !lookup_ge_None_2 by lia; done]. destruct (lookup_lt_is_Some_2 x j) as [k Hk]; [lia|]. destruct (Forall2_lookup_l _ _ _ _ _ HF Hk) as (b&-> &B2).
    destruct (lookup_lt_is_Some_2 (marks_of x off err) j) as [mk Hm]; [lia|]. specialize (Hall j mk Hm) as (b'&o&e&A1&_&_&A4&_). apply marks_lookup in Hm as (k'&?&?&X1&_&_&->). cbn in A4. assert (k' = k) as -> by congruence.
    unfold in_table in A1. rewrite Hb in A1. cbn in A1. congruence.
  - intros Hs j mk Hm. apply marks_lookup in Hm as (k&o&e&A1&A2&A3&->). destruct (places_sorted s bpms j k Hr Hd Hs A1) as (b&B1&B2). exists b, o, e. unfold in_table. rewrite Hb, Ho, He. cbn. split_and!; done.
Qed.

(** ** Distances from the magnets *)
(** the distances of the BPMs from their magnets in a plane (C55) *)
Definition distances (s : sc R) (bpms mags : list nat) (i : nat) : list R := omap (fun p => distance s p.1 p.2 i) (zip bpms mags).
(** edges of [m] bins less one, at equal steps between 1.1 times the greatest size [M] of a distance to either side *)
Definition bin_edge (M : R) (m k : nat) : R := 11 / 10 * M * (-1 + INR k * (2 / INR (m - 1))).
Definition in_bin_of (M : R) (m k : nat) (x : R) : Prop := bin_edge M m k <= x /\ (x < bin_edge M m (S k) \/ (S k = m - 1)%nat /\ x <= bin_edge M m (S k)).
#[local] Instance in_bin_of_dec M m k x : Decision (in_bin_of M m k x).
Proof. unfold in_bin_of. apply and_dec; [apply Rle_dec|]. apply or_dec; [apply Rlt_dec|]. apply and_dec; [apply _|apply Rle_dec]. Defined.

Lemma row_is (s : sc R) bpms mags i row : length row = length bpms -> length mags = length bpms ->
  (forall j b m, bpms !! j = Some b -> mags !! j = Some m -> row !! j = distance s b m i) -> row = distances s bpms mags i.
Proof.
  revert mags row. unfold distances. induction bpms as [|b bpms IH]; intros [|m mags] [|x row] H1 H2 H; try discriminate; [done|]. cbn [zip zip_with omap list_omap fst snd].
  specialize (H 0%nat b m eq_refl eq_refl) as E. cbn in E. rewrite <- E. cbn. f_equal. apply IH; [by injection H1|by injection H2|]. intros j b' m' Hb Hm. by apply (H (S j) b' m').
Qed.
Lemma edges_at M m k : (2 <= m)%nat -> (k < m)%nat -> map (nmul (nmul (ndiv (nofZ 11) (nofZ 10)) M)) (symmetric_steps (n1 : R) m) !! k = Some (bin_edge M m k).
Proof.
  intros Hm Hk. destruct m as [|[|m]]; [lia|lia|]. unfold symmetric_steps. change (@map R R) with (@fmap list _ R R). rewrite list_lookup_fmap. unfold linspace. change (@map nat R) with (@fmap list _ nat R). rewrite list_lookup_fmap, lookup_seq_lt by lia.
  cbn [fmap option_fmap option_map Nat.add]. rewrite !nofnat_R. num_R. f_equal. unfold bin_edge. replace (1 - - (1)) with 2 by lra. replace (- (1) + INR k * (2 / INR (S (S m) - 1))) with (-1 + INR k * (2 / INR (S (S m) - 1))) by lra. done.
Qed.
Lemma edges_length M m : (2 <= m)%nat -> length (map (nmul (nmul (ndiv (nofZ 11) (nofZ 10)) M)) (symmetric_steps (n1 : R) m)) = m.
Proof. intros Hm. destruct m as [|[|m]]; [lia|lia|]. unfold symmetric_steps, linspace. by rewrite !map_length, seq_length. Qed.
Lemma edge_grows M m k : 0 <= M -> (2 <= m)%nat -> bin_edge M m k <= bin_edge M m (S k).
Proof. intros HM Hm. unfold bin_edge. rewrite S_INR. assert (0 < INR (m - 1)) by (apply (lt_INR 0); lia). assert (0 < 2 / INR (m - 1)) by (apply Rdiv_lt_0_compat; lra). nra. Qed.
Lemma bin_iff M m k x edges : (2 <= m)%nat -> edges = map (nmul (nmul (ndiv (nofZ 11) (nofZ 10)) M)) (symmetric_steps (n1 : R) m) -> (k < m - 1)%nat -> in_bin edges (m - 1) k x = true <-> in_bin_of M m k x.
Proof.
  intros Hm -> Hk. unfold in_bin. rewrite !edges_at by lia. num_R. rewrite andb_true_iff, Rleb_true. unfold in_bin_of. destruct (Nat.eqb_spec k (m - 1 - 1)) as [E|E]; [rewrite Rleb_true|rewrite Rltb_true]; (split; [|]); intros [A B]; (split; [done|]).
  - right. split; [lia|done].
  - destruct B as [B|[_ B]]; [lra|done].
  - by left.
  - destruct B as [B|[B _]]; [done|lia].
Qed.
Lemma count_iff {A} (l : list A) (g : A -> bool) (P : A -> Prop) `{forall x, Decision (P x)} : (forall x, g x = true <-> P x) -> length (List.filter g l) = length (filter P l).
Proof.
  intros H'. induction l as [|x l IH]; [done|]. cbn [List.filter]. rewrite filter_cons. destruct (g x) eqn:E; [apply H' in E; rewrite decide_True by done; cbn; by rewrite IH|].
  rewrite decide_False; [done|]. intros Hx. apply H' in Hx. congruence.
Qed.
Lemma counts_total M m row edges : 0 <= M -> (2 <= m)%nat -> edges = map (nmul (nmul (ndiv (nofZ 11) (nofZ 10)) M)) (symmetric_steps (n1 : R) m) -> (forall x, x ∈ row -> Rabs x <= M) ->
  total (bin_counts edges row) = length row.
Proof.
  intros HM Hm He Hx. assert (length edges = m) as HL by (rewrite He; by apply edges_length). unfold bin_counts. rewrite HL. set (g := fun k => length (List.filter (in_bin edges (m - 1) k) row)).
  assert (forall x, x ∈ row -> bin_edge M m 0 <= x <= bin_edge M m (m - 1)) as Hr.
  { intros x Hin. specialize (Hx x Hin). assert (- M <= x <= M) as Hb by (unfold Rabs in Hx; destruct (Rcase_abs x); lra). unfold bin_edge. cbn [INR]. assert (0 < INR (m - 1)) by (apply (lt_INR 0); lia).
    replace (INR (m - 1) * (2 / INR (m - 1))) with 2 by (field; lra). lra. }
  assert (forall k, (k <= m - 1)%nat -> sum_to g k = if decide (k = (m - 1)%nat) then length row else below (bin_edge M m k) row) as Hk.
  { induction k as [|k IH]; intros Hk.
    - rewrite decide_False by lia. cbn [sum_to]. symmetry. apply below_none. intros x Hin. by apply Hr.
    - rewrite sum_to_S, IH by lia. rewrite decide_False by lia. destruct (decide (S k = (m - 1)%nat)) as [E|E].
      + apply below_rest. intros x Hin. rewrite (bin_iff M) by (done || lia). unfold in_bin_of. specialize (Hr x Hin). rewrite E. split; [tauto|]. intros. split; [done|]. right. tauto.
      + apply below_split; [by apply edge_grows|]. intros x Hin. rewrite (bin_iff M) by (done || lia). unfold in_bin_of. split; [intros [? [?|[? _]]]; [done|lia]|tauto]. }
  change (sum_to g (m - 1) = length row). rewrite Hk by lia. by rewrite decide_True.
Qed.
Lemma concat_distances bpm_ords mag_ords (s : sc R) fom x : bpm_offset_from_mag bpm_ords mag_ords s = Ok fom -> x ∈ concat fom <-> exists i bpms mags, bpm_ords !! i = Some bpms /\ mag_ords !! i = Some mags /\ x ∈ distances s bpms mags i.
Proof.
  intros H. assert (length fom = length (zip bpm_ords mag_ords)) as HL. { unfold bpm_offset_from_mag in H. apply rmap_ok in H. apply Forall2_length in H. by rewrite imap_length in H. }
  rewrite elem_of_list_In, in_concat. split.
  - intros (row&Hr&Hx). apply elem_of_list_In in Hr, Hx. apply elem_of_list_lookup in Hr as (i&Hi). assert (i < length (zip bpm_ords mag_ords))%nat as Hlt by (rewrite <- HL; by eapply lookup_lt_Some).
    rewrite zip_with_length in Hlt. destruct (lookup_lt_is_Some_2 bpm_ords i) as [bpms Hb]; [lia|]. destruct (lookup_lt_is_Some_2 mag_ords i) as [mags Hm]; [lia|].
    destruct (distances_row _ _ _ _ _ _ _ H Hb Hm) as (row'&A1&A2&A3&A4). rewrite Hi in A1. injection A1 as <-. exists i, bpms, mags. split; [done|]. split; [done|]. by rewrite <- (row_is s bpms mags i row).
  - intros (i&bpms&mags&Hb&Hm&Hx). destruct (distances_row _ _ _ _ _ _ _ H Hb Hm) as (row&A1&A2&A3&A4). exists row. rewrite (row_is s bpms mags i row) by done. split; [|by apply elem_of_list_In].
    rewrite <- (row_is s bpms mags i row) by done. apply elem_of_list_In. by eapply elem_of_list_lookup_2.
Qed.
Lemma rmap_seq_lookup {B} (f : nat -> res B) n ys i : rmap f (seq 0 n) = Ok ys -> (i < n)%nat -> exists y, ys !! i = Some y /\ f i = Ok y.
Proof. intros H Hi. apply rmap_ok in H. assert (seq 0 n !! i = Some i) as Hs by (by rewrite lookup_seq_lt). destruct (Forall2_lookup_l _ _ _ _ _ H Hs) as (y&?&?). eauto. Qed.
Lemma combine_lookup_Some {A B} (a : list A) (b : list B) : forall k x y, combine a b !! k = Some (x, y) <-> a !! k = Some x /\ b !! k = Some y.
Proof. revert b. induction a as [|u a IH]; intros [|v b] [|k] x y; cbn; rewrite ?lookup_nil; try (split; [done|by intros []]); [split; [by intros [= <- <-]|by intros [[= <-] [= <-]]]|apply IH]. Qed.
Lemma map_snd_combine {A B} (a : list A) (b : list B) : length a = length b -> map snd (combine a b) = b.
Proof. revert b. induction a as [|u a IH]; intros [|v b] H; try done. cbn. f_equal. apply IH. by injection H. Qed.
(** With six BPMs or more per plane the lines are histograms of the distances: every BPM is counted in exactly one bin, drawn at its upper edge. *)
Theorem C98_histogram bpm_ords mag_ords flags (s : sc R) lines marks width : offsets_from_magnets bpm_ords mag_ords flags s = Ok (lines, marks) ->
  (forall bpms, bpms ∈ bpm_ords -> length bpms = width) -> (6 <= width)%nat ->
  let m := (width / 3)%nat in exists M,
    (exists i bpms mags d, bpm_ords !! i = Some bpms /\ mag_ords !! i = Some mags /\ d ∈ distances s bpms mags i /\ M = Rabs d) /\
    forall i bpms mags, bpm_ords !! i = Some bpms -> mag_ords !! i = Some mags ->
      (forall d, d ∈ distances s bpms mags i -> Rabs d <= M) /\ length (distances s bpms mags i) = width /\
      exists line, lines !! i = Some line /\ length line = (m - 1)%nat /\ total (map snd line) = width /\
        forall k x c, line !! k = Some (x, c) -> x = 1000000 * bin_edge M m (S k) /\ c = length (filter (in_bin_of M m k) (distances s bpms mags i)).
Proof.
  intros H Hw H6 m. unfold offsets_from_magnets in H. apply rbind_ok in H as (fom&Hfom&H). destruct bpm_ords as [|row0 rest]; [discriminate|]. cbn [rbind] in H. set (bpm_ords := row0 :: rest) in *.
  rewrite (Hw row0) in H by left. destruct (Nat.eqb_spec width 1) as [|_]; [lia|]. apply rbind_ok in H as (edges&He&H). apply rbind_ok in H as (lines'&Hl&H). apply rbind_ok in H as (marks'&_&H). injection H as -> ->.
  unfold offset_edges in He. apply rbind_ok in He as (M&HM&He'). assert (edges = map (nmul (nmul (ndiv (nofZ 11) (nofZ 10)) M)) (symmetric_steps (n1 : R) m)) as He by (symmetry; apply (f_equal (fun r => match r with Ok l => l | Err _ => edges end)) in He'; exact He'). clear He'. assert (2 <= m)%nat as Hm. { unfold m. change 2%nat with (6 / 3)%nat. by apply Nat.div_le_mono. }
  assert (M ∈ map nabs (concat fom) /\ forall x, x ∈ map nabs (concat fom) -> x <= M) as [M1 M2]. { unfold peak in HM. destruct (map nabs (concat fom)) as [|x0 l0]; [discriminate|]. injection HM as <-. apply fold_max_R. }
  exists M. split.
  { change (@map R R) with (@fmap list _ R R) in M1. apply elem_of_list_fmap in M1 as (d&-> &Hd). apply (concat_distances _ _ _ _ _ Hfom) in Hd as (i&bpms&mags&Hb&Hm'&Hd). exists i, bpms, mags, d. rewrite nabs_R. done. }
  assert (0 <= M) as H0. { change (@map R R) with (@fmap list _ R R) in M1. apply elem_of_list_fmap in M1 as (d&-> &_). rewrite nabs_R. apply Rabs_pos. }
  intros i bpms mags Hb Hm'. destruct (distances_row _ _ _ _ _ _ _ Hfom Hb Hm') as (row&A1&A2&A3&A4). assert (row = distances s bpms mags i) as Er by (by apply row_is). assert (length bpms = width) as Lb by (apply Hw; by eapply elem_of_list_lookup_2).
  assert (forall d, d ∈ row -> Rabs d <= M) as Hd. { intros d Hd. rewrite <- nabs_R. apply M2. change (@map R R) with (@fmap list _ R R). apply elem_of_list_fmap. exists d. split; [done|]. apply elem_of_list_In, in_concat. exists row. split; apply elem_of_list_In; [by eapply elem_of_list_lookup_2|done]. }
  rewrite <- Er. split; [done|]. split; [lia|]. destruct (rmap_seq_lookup _ _ _ i Hl) as (line&L1&L2); [by eapply lookup_lt_Some|]. apply idx_ok in A1. rewrite A1 in L2. cbn [rbind] in L2. injection L2 as L2.
  assert (length edges = m) as Le by (rewrite He; by apply edges_length). assert (length (bin_counts edges row) = (m - 1)%nat) as Lc by (unfold bin_counts; cbv zeta; rewrite map_length, seq_length, Le; reflexivity).
  assert (length (tail edges) = (m - 1)%nat) as Lt by (rewrite <- Le; clear; destruct edges; cbn; lia).
  exists line. split; [done|]. rewrite <- L2. split; [rewrite combine_length, map_length; lia|]. split; [rewrite map_snd_combine by (rewrite map_length; lia); rewrite (counts_total M m) by done; lia|].
  intros k x c Hk. apply combine_lookup_Some in Hk as [K1 K2]. change (@map R R) with (@fmap list _ R R) in K1. rewrite list_lookup_fmap in K1. assert (k < m - 1)%nat as Hlt by (rewrite <- Lc; by eapply lookup_lt_Some).
  assert (tail edges !! k = edges !! S k) as Et by (by destruct edges). rewrite Et in K1. rewrite He in K1. rewrite edges_at in K1 by lia. cbn in K1. injection K1 as <-. split; [by rewrite ?million_R|].
  unfold bin_counts in K2. rewrite Le in K2. change (@map nat nat) with (@fmap list _ nat nat) in K2. rewrite list_lookup_fmap, lookup_seq_lt in K2 by done. cbn in K2. injection K2 as <-. apply count_iff. intros y. by apply (bin_iff M).
Qed.
(** Findings: from two to five BPMs there is no bin and nothing is drawn, and with a single BPM the point lies half a metre beside its distance. *)
Theorem C98_finding_no_histogram bpm_ords mag_ords flags (s : sc R) lines marks width : offsets_from_magnets bpm_ords mag_ords flags s = Ok (lines, marks) ->
  (forall bpms, bpms ∈ bpm_ords -> length bpms = width) -> (2 <= width < 6)%nat -> forall line, line ∈ lines -> line = [].
Proof.
  intros H Hw H6 line Hin. unfold offsets_from_magnets in H. apply rbind_ok in H as (fom&Hfom&H). destruct bpm_ords as [|row0 rest]; [discriminate|]. cbn [rbind] in H. set (bpm_ords := row0 :: rest) in *.
  rewrite (Hw row0) in H by left. destruct (Nat.eqb_spec width 1) as [|_]; [lia|]. apply rbind_ok in H as (edges&He&H). apply rbind_ok in H as (lines'&Hl&H). apply rbind_ok in H as (marks'&_&H). injection H as -> ->.
  assert (tail edges = []) as Et. { unfold offset_edges in He. apply rbind_ok in He as (M&HM&He). apply (f_equal (fun r => match r with Ok l => l | Err _ => edges end)) in He. cbv beta iota in He. rewrite <- He. assert (width / 3 < 2)%nat as Hlt by (apply Nat.div_lt_upper_bound; lia). destruct (width / 3)%nat as [|[|]]; [done|done|lia]. }
  apply rmap_ok in Hl. apply elem_of_list_lookup in Hin as (i&Hi). destruct (Forall2_lookup_r _ _ _ _ _ Hl Hi) as (j&_&Hj). apply rbind_ok in Hj as (row&_&Hj). injection Hj as <-. by rewrite Et.
Qed.
Theorem C98_finding_single bpm_ords mag_ords flags (s : sc R) lines marks i b m d : offsets_from_magnets bpm_ords mag_ords flags s = Ok (lines, marks) ->
  (forall bpms, bpms ∈ bpm_ords -> length bpms = 1%nat) -> bpm_ords !! i = Some [b] -> mag_ords !! i = Some [m] -> distance s b m i = Some d ->
  lines !! i = Some [(1000000 * (d + 1 / 2), 1%nat)].
Proof.
  intros H Hw Hb Hm Hd. unfold offsets_from_magnets in H. apply rbind_ok in H as (fom&Hfom&H). destruct bpm_ords as [|row0 rest]; [discriminate|]. cbn [rbind] in H. set (bpm_ords := row0 :: rest) in *.
  rewrite (Hw row0) in H by left. cbn [Nat.eqb rbind] in H. apply rbind_ok in H as (lines'&Hl&H). apply rbind_ok in H as (marks'&_&H). injection H as -> ->.
  destruct (rmap_seq_lookup _ _ _ i Hl) as (line&L1&L2); [by eapply lookup_lt_Some|]. destruct (distances_row _ _ _ _ _ _ _ Hfom Hb Hm) as (row&A1&A2&A3&A4). specialize (A4 0%nat b m eq_refl eq_refl). rewrite Hd in A4.
  destruct row as [|x [|]]; try discriminate. injection A4 as ->. apply idx_ok in A1. rewrite A1 in L2. cbn [rbind] in L2. rewrite L1. f_equal. unfold histogram in L2. cbn [fold_left] in L2. num_R. cbn [length] in L2.
  change (neqb d d) with (Reqb d d) in L2. assert (Reqb d d = true) as E by (by apply Reqb_true). rewrite E in L2. cbn [rbind fst snd] in L2. symmetry. apply (f_equal (fun r => match r with Ok l => l | Err _ => [] end)) in L2. cbv beta iota in L2. rewrite <- L2. clear L2.
  unfold hist_edges. cbn [seq map app tail combine]. rewrite million_R. cbn [List.filter]. unfold in_bin. cbn [lookup list_lookup]. rewrite !nofnat_R. num_R. cbn [Nat.eqb Nat.sub].
  assert ((ntwo : R) = 2) as -> by (unfold ntwo; num_R; lra).
  assert (Rleb (d - 1 / 2 + INR 0 * (d + 1 / 2 - (d - 1 / 2)) / INR 1) d = true) as -> by (apply Rleb_true; cbn; lra). assert (Rleb d (d + 1 / 2) = true) as -> by (apply Rleb_true; lra). done.
Qed.
Lemma offset_marks_ok m x (row : list R) marks : offset_marks m x row = Ok marks -> length m = length row /\ (selected m row <> [] -> length m = length x) /\ marks = selected m (combine x (map (nmul million) row)).
Proof.
  unfold offset_marks, masked. destruct (Nat.eqb_spec (length m) (length row)) as [E|]; [|discriminate]. cbn [rbind]. intros H. split; [done|].
  assert (forall (g : R -> R) n (l : list R), selected n (map g l) = map g (selected n l)) as Hg. { intros g n. induction n as [|f n IH]; intros [|y l]; try done. cbn. destruct f; cbn; by rewrite IH. }
  destruct (selected m row) as [|y l] eqn:Es.
  - injection H as <-. split; [done|]. rewrite <- selected_combine, Hg, Es. cbn. by rewrite combine_nil.
  - destruct (Nat.eqb_spec (length m) (length x)) as [E'|]; [|discriminate]. cbn [rbind] in H. split; [done|]. rewrite <- selected_combine, Hg, Es. by injection H as <-.
Qed.
(** Every BPM has one mark, at its place among all registered ones when listed in increasing order, with its distance from its magnet in micrometres; of
    the series of failed ones if it was flagged. *)
Theorem C98_distances bpm_ords mag_ords flags (s : sc R) lines marks i good bad bpms mags : StronglySorted lt (oBPM (ORD s)) ->
  offsets_from_magnets bpm_ords mag_ords flags s = Ok (lines, marks) -> marks !! i = Some (good, bad) -> bpm_ords !! i = Some bpms -> mag_ords !! i = Some mags -> StronglySorted lt bpms ->
  (length good + length bad)%nat = length bpms /\
  forall (f : bool) k y, (k, y) ∈ (if f then bad else good) <-> exists j b m d, bpms !! j = Some b /\ mags !! j = Some m /\ in_table flags i j = Some f /\
    oBPM (ORD s) !! k = Some b /\ distance s b m i = Some d /\ y = 1000000 * d.
Proof.
  intros Hr H Hmk Hb Hm Hs. unfold offsets_from_magnets in H. apply rbind_ok in H as (fom&Hfom&H). apply rbind_ok in H as (width&_&H). apply rbind_ok in H as (edges&_&H). apply rbind_ok in H as (lines'&_&H). apply rbind_ok in H as (marks'&Hmm&H).
  injection H as _ ->. apply rmap_ok in Hmm. assert (imap (fun (n : nat) (row : list nat) => (n, row)) bpm_ords !! i = Some (i, bpms)) as Hi by (by rewrite list_lookup_imap, Hb).
  destruct (Forall2_lookup_l _ _ _ _ _ Hmm Hi) as (y&Hy'&Hy). rewrite Hmk in Hy'. injection Hy' as <-. cbn beta iota in Hy. apply rbind_ok in Hy as (flag&Hfl&Hy). apply rbind_ok in Hy as (row&Hrow&Hy). apply rbind_ok in Hy as (u&_&Hy).
  apply rbind_ok in Hy as (good'&Hg&Hy). apply rbind_ok in Hy as (bad'&Hbad&Hy). injection Hy as -> ->. apply idx_ok in Hfl, Hrow.
  destruct (distances_row _ _ _ _ _ _ _ Hfom Hb Hm) as (row'&A1&A2&A3&A4). rewrite Hrow in A1. injection A1 as <-.
  apply offset_marks_ok in Hg as (G1&G2&->), Hbad as (B1&B2&->). rewrite map_length in G1, G2. set (x := places (oBPM (ORD s)) bpms) in *.
  assert (length x = length bpms) as Lx.
  { destruct (decide (length bpms = 0%nat)) as [E0|E0].
    - apply nil_length_inv in E0. unfold x. rewrite E0, places_length. generalize (oBPM (ORD s)). clear. induction l as [|b l IH]; [done|]. rewrite filter_cons, decide_False by (by intros ?%elem_of_nil). exact IH.
    - pose proof (selected_split flag row B1) as HS. destruct (decide (selected flag row = [])) as [E|E]; [|specialize (B2 E); lia].
      rewrite E in HS. cbn in HS. assert (selected (map negb flag) row <> []) as E' by (intros E'; rewrite E' in HS; cbn in HS; lia). specialize (G2 E'). lia. }
  assert (distinct_registered s bpms) as Hd by (apply places_all; [by apply sorted_nodup|done]).
  split; [rewrite selected_split; rewrite combine_length, map_length; lia|].
  assert (forall j k y, combine x (map (nmul million) row) !! j = Some (k, y) <-> exists b m d, bpms !! j = Some b /\ mags !! j = Some m /\ oBPM (ORD s) !! k = Some b /\ distance s b m i = Some d /\ y = 1000000 * d) as HM.
  { intros j k y. rewrite combine_lookup_Some. change (@map R R) with (@fmap list _ R R). rewrite list_lookup_fmap. split.
    - intros [C1 C2]. destruct (places_sorted s bpms j k Hr Hd Hs C1) as (b&D1&D2). destruct (lookup_lt_is_Some_2 mags j) as [m Dm]; [rewrite A3; by eapply lookup_lt_Some|]. rewrite (A4 j b m D1 Dm) in C2. destruct (distance s b m i) as [d|] eqn:Ed; [|discriminate].
      cbn in C2. injection C2 as <-. exists b, m, d. split_and!; try done; by rewrite ?million_R.
    - intros (b&m&d&C1&C2&C3&C4&->). rewrite (A4 j b m C1 C2), C4. destruct (lookup_lt_is_Some_2 x j) as [k' Hk]; [rewrite Lx; by eapply lookup_lt_Some|]. destruct (places_sorted s bpms j k' Hr Hd Hs Hk) as (b'&D1&D2).
      rewrite C1 in D1. injection D1 as <-. assert (k = k') as -> by (eapply NoDup_lookup; [exact (sorted_nodup _ Hr)|exact C3|exact D2]). split; [done|]. cbn [fmap option_fmap option_map]. rewrite million_R. done. }
  intros f k y. assert (((k, y) ∈ (if f then selected flag (combine x (map (nmul million) row)) else selected (map negb flag) (combine x (map (nmul million) row)))) <-> exists j, flag !! j = Some f /\ combine x (map (nmul million) row) !! j = Some (k, y)) as ->.
  { destruct f; rewrite selected_elem; [done|]. apply exist_proper. intros j. change (@map bool bool) with (@fmap list _ bool bool). rewrite list_lookup_fmap. destruct (flag !! j) as [[]|]; cbn; split; intros [? ?]; split; done. }
  unfold in_table. rewrite Hfl. cbn. split.
  - intros (j&F1&F2). apply HM in F2 as (b&m&d&?). exists j, b, m, d. tauto.
  - intros (j&b&m&d&F1&F2&F3&F4). exists j. split; [done|]. apply HM. exists b, m, d. tauto.
Qed.

Print Assumptions C98_returns.
Print Assumptions C98_marks.
Print Assumptions C98_finding_order.
Print Assumptions C98_histogram.
Print Assumptions C98_finding_no_histogram.
Print Assumptions C98_finding_single.
Print Assumptions C98_distances.

(** * Cases *)
Local Open Scope Q_scope.
(** three BPMs are registered; an offset of 2 mm and one below its error have failed *)
Example C98_case :
  bba_results [[0; 2]; [1; 2]]%nat [[Some (1#1000); Some (2#1000)]; [None; Some (1#2000)]] [[Some (1#10000); Some (1#10000)]; [None; Some (1#1000)]] bba_rest =
    Ok [([(0%nat, Some 1000, Some 100)], [(2%nat, Some 2000, Some 100)]); ([], [(1%nat, None, None); (2%nat, Some 500, Some 1000)])] /\
  bba_results [[0; 0]]%nat [[Some 0; Some 0]] [[None; None]] bba_rest = Err IndexError /\
  bba_results [[0; 5]]%nat [[Some 0; Some 0]] [[None; None]] bba_rest = Err IndexError /\
  bba_results [[0]; [1]; [2]]%nat [[Some 0]; [Some 0]; [Some 0]] [[None]; [None]; [None]] bba_rest = Err IndexError.
Proof. vm_compute. repeat split. Qed.
(** Finding: listed in the order 2, 0 the offset of 1 mm of BPM 2 is drawn at the place of BPM 0, and the other way round *)
Example C98_case_order :
  bba_results [[2; 0]]%nat [[Some (1#1000); Some (1#2000)]] [[Some 0; Some 0]] bba_rest = Ok [([(0%nat, Some 1000, Some 0); (2%nat, Some 500, Some 0)], [])].
Proof. vm_compute. reflexivity. Qed.
(** nine BPMs with distances 0, 1, ..., 8 (times 0.1 mm) from the same magnet: the edges are at 0.88 mm to either side and at zero *)
Definition nine_ring : list (elem Q) := map (fun k => Examples.mk [("Offset", VVec [nmul (nofnat k) (1#10000); 0]); ("SupportOffset", VVec [0; 0])]) (seq 0 9) ++ [a_magnet 0 (1#10000)].
Definition nine : sc Q := MkSC nine_ring [] (INJ Examples.ex_sc) (SIG Examples.ex_sc) (MkOrd (seq 0 9) [] [] [] [] [] [] [] []) [].
Definition lines_of (r : res (list (list (Q * nat)) * list (list (nat * Q) * list (nat * Q)))) : res (list (list (Q * nat))) := let? x := r in Ok (map (map (fun p => (Qreduction.Qred p.1, p.2))) x.1).
Definition marks_at (r : res (list (list (Q * nat)) * list (list (nat * Q) * list (nat * Q)))) : res (list (list nat * list nat)) := let? x := r in Ok (map (fun p => (map fst p.1, map fst p.2)) x.2).
Example C98_case_histogram :
  let r := offsets_from_magnets [seq 0 9; seq 0 9] [replicate 9 9%nat; replicate 9 9%nat] [replicate 9 false; true :: replicate 8 false] nine in
  lines_of r = Ok [[(0, 0%nat); (880, 9%nat)]; [(0, 9%nat); (880, 0%nat)]] /\ marks_at r = Ok [(seq 0 9, []); (seq 1 8, [0%nat])].
Proof. vm_compute. split; reflexivity. Qed.
(** the findings: three BPMs, nothing; one BPM at 0.1 mm, drawn at half a metre and 0.1 mm *)
Example C98_case_few :
  lines_of (offsets_from_magnets [[0; 1; 2]]%nat [[9; 9; 9]]%nat [[false; false; false]] nine) = Ok [[]] /\
  lines_of (offsets_from_magnets [[1]]%nat [[9]]%nat [[false]] nine) = Ok [[(500100, 1%nat)]].
Proof. vm_compute. split; reflexivity. Qed.
