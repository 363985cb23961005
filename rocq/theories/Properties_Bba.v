(** C54, C55: which BPM offsets the result of a beam-based alignment changes, and the simulated alignment. *)
From Coq Require Import Reals Lra Lia QArith ZArith.
From stdpp Require Import base gmap strings list.
From Verif Require Import Num Base Model_Arr Model_SC Model_Err Model_Beam Model_Orbit Model_Scan Model_Stats Model_Bba Lemmas Proofs_Update Proofs_Loop2 Proofs_Beam Spec Proofs_CM Properties_Setpoint3 Properties_Random Properties_Beam Properties_Orbit.
Local Open Scope string_scope.
Local Open Scope list_scope.
Local Open Scope R_scope.

(** * Specification *)

(** entry of a table: plane (row), then position in the plane *)
Definition in_table {A} (m : list (list A)) (i j : nat) : option A := m !! i ≫= fun row => row !! j.
(** only entries [p] of the offsets of elements [b] with [P b p] may differ (and the random stream may have been used) *)
Definition only_offsets (P : nat -> nat -> Prop) (s s' : sc R) : Prop :=
  IDEALRING s' = IDEALRING s /\ INJ s' = INJ s /\ SIG s' = SIG s /\ ORD s' = ORD s /\ length (RING s') = length (RING s) /\
  (forall i a, a <> "Offset" -> attr_at s' i a = attr_at s i a) /\
  (forall i p, ~ P i p -> entry s' i "Offset" p = entry s i "Offset" p) /\
  (forall i, (forall p, ~ P i p) -> attr_at s' i "Offset" = attr_at s i "Offset").
#[global] Instance only_offsets_preorder P : PreOrder (only_offsets P).
Proof.
  split; [intros s; unfold only_offsets; by split_and!|].
  intros s1 s2 s3 (A1&A2&A3&A4&A5&A6&A7&A8) (B1&B2&B3&B4&B5&B6&B7&B8). unfold only_offsets.
  split_and!; try congruence; intros; [rewrite B6, A6|rewrite B7, A7|rewrite B8, A8]; done.
Qed.
Lemma only_offsets_mono (P Q : nat -> nat -> Prop) s s' : (forall i p, P i p -> Q i p) -> only_offsets P s s' -> only_offsets Q s s'.
Proof.
  intros H (A1&A2&A3&A4&A5&A6&A7&A8). unfold only_offsets. split_and!; try done; intros.
  - apply A7. auto.
  - apply A8. intros p Hp. eapply H0. eauto.
Qed.
Lemma only_offsets_quiet P s s' : quiet s s' -> only_offsets P s s'.
Proof. intros Hq. unfold quiet in Hq. rewrite Hq. unfold only_offsets. by split_and!. Qed.

(** * Changing one offset *)
Lemma change_offset_only (P : nat -> nat -> Prop) b p (f : R -> R) : P b p -> pres (only_offsets P) (change_offset b p f).
Proof.
  intros HP s. unfold change_offset, on_elem. destruct (RING s !! b) as [e|] eqn:E; [|reflexivity].
  match goal with |- only_offsets _ _ (snd (let '(r, e') := ?m e in _)) => destruct (m e) as [r e'] eqn:Er end. cbn [snd].
  assert (e' = e \/ exists v x, e !! "Offset" = Some (VVec v) /\ v !! p = Some x /\ e' = <["Offset" := VVec (<[p := f x]> v)]> e) as [->|(v&x&Hv&Hx&->)].
  { unfold bind, getm, lift in Er. destruct (attr_vec e "Offset") as [v|] eqn:Ev; [|injection Er as _ <-; by left].
    destruct (idx v p) as [x|] eqn:Ex; [|injection Er as _ <-; by left]. destruct (idx_set v p (f x)) as [v'|] eqn:Ev'; [|injection Er as _ <-; by left].
    right. apply attr_vec_ok in Ev. apply idx_ok in Ex. apply idx_set_ok in Ev' as [_ ->]. exists v, x. injection Er as _ <-. done. }
  - rewrite list_insert_id by done. by destruct s.
  - clear Er. assert (b < length (RING s))%nat as Hb by (by eapply lookup_lt_Some).
    unfold only_offsets, entry, attr_at; cbn. rewrite insert_length. split_and!; try done.
    + intros i a Ha. destruct (decide (i = b)) as [->|Hi]; [|by rewrite list_lookup_insert_ne].
      rewrite list_lookup_insert, E by done. cbn. by rewrite lookup_insert_ne.
    + intros i q Hq. destruct (decide (i = b)) as [->|Hi]; [|by rewrite list_lookup_insert_ne].
      rewrite list_lookup_insert, E by done. cbn. rewrite lookup_insert, Hv. rewrite list_lookup_insert_ne; [done|]. by intros <-.
    + intros i Hi. destruct (decide (i = b)) as [->|Hn]; [|by rewrite list_lookup_insert_ne]. by destruct (Hi p).
Qed.
Lemma change_offset_ok b p (f : R -> R) s u s' : change_offset b p f s = (Ok u, s') ->
  exists o, entry s b "Offset" p = Some o /\ entry s' b "Offset" p = Some (f o).
Proof.
  intros H. unfold change_offset in H. apply on_elem_ok in H as (e&e'&He&H&->).
  apply bind_ok in H as (v&e1&Hv&H). unfold getm in Hv. injection Hv as Hv <-. apply attr_vec_ok in Hv.
  apply bind_ok in H as (x&e2&Hx&H). apply lift_ok in Hx as [Hx ->]. apply idx_ok in Hx.
  apply bind_ok in H as (v'&e3&Hv'&H). apply lift_ok in Hv' as [Hv' ->]. apply idx_set_ok in Hv' as [Hp ->].
  injection H as _ <-. exists x. unfold entry, attr_at; cbn. rewrite He. cbn. rewrite Hv. split; [done|].
  rewrite list_lookup_insert by (by eapply lookup_lt_Some). cbn. rewrite lookup_insert. by apply list_lookup_insert.
Qed.

(** * The positions of a table *)
Lemma elem_of_cells {A} (m : list (list A)) i j x : (i, j, x) ∈ cells m <-> in_table m i j = Some x.
Proof.
  unfold cells, in_table. rewrite elem_of_list_In, in_concat. setoid_rewrite <- elem_of_list_In. split.
  - intros (l&Hl&Hc). apply elem_of_lookup_imap in Hl as (i'&row&->&Hr).
    apply elem_of_lookup_imap in Hc as (j'&x'&[= -> -> ->]&Hx). by rewrite Hr.
  - destruct (m !! i) as [row|] eqn:Hr; [|discriminate]. cbn. intros Hx. eexists. split.
    + apply elem_of_lookup_imap. exists i, row. done.
    + apply elem_of_lookup_imap. eauto.
Qed.
Lemma cells_nodup {A} (m : list (list A)) : NoDup (map fst (cells m)).
Proof.
  unfold cells. assert (forall g : nat -> nat, (forall a b, g a = g b -> a = b) ->
    NoDup (map fst (concat (imap (fun i row => imap (fun j x => (g i, j, x)) row) m)))) as H; [|by apply (H (fun a => a))].
  induction m as [|row m IH]; intros g Hg; [constructor|].
  rewrite imap_cons. cbn [concat]. change (@map) with (@fmap list _) . rewrite fmap_app.
  apply NoDup_app. split; [|split].
  - assert (forall h : nat -> nat, (forall a b, h a = h b -> a = b) -> NoDup (fst <$> imap (fun j (x : A) => (g 0%nat, h j, x)) row)) as H; [|by apply (H (fun a => a))].
    clear IH. induction row as [|x row IH]; intros h Hh; [constructor|]. rewrite imap_cons. cbn. constructor.
    + intros Hin. apply elem_of_list_fmap in Hin as ([[i j] y]&He&Hin). apply elem_of_lookup_imap in Hin as (j'&y'&Hc&_).
      unfold compose in Hc. cbn in He, Hc. injection Hc as -> -> ->. injection He as He. apply Hh in He. done.
    + apply (IH (fun a => h (S a))). intros a b Hab. apply Hh in Hab. lia.
  - intros c Hc Hc'. apply elem_of_list_fmap in Hc as ([[i j] y]&->&Hc). apply elem_of_lookup_imap in Hc as (j'&y'&[= -> -> ->]&_).
    apply elem_of_list_fmap in Hc' as ([[i j] y2]&He&Hc'). cbn in He. injection He as <- <-.
    apply elem_of_list_In, in_concat in Hc' as (l&Hl&Hc'). apply elem_of_list_In in Hl, Hc'.
    apply elem_of_lookup_imap in Hl as (i'&row'&->&_). unfold compose in Hc'. apply elem_of_lookup_imap in Hc' as (j''&y''&Hc'&_).
    injection Hc' as He _ _. apply Hg in He. done.
  - apply (IH (fun a => g (S a))). intros a b Hab. apply Hg in Hab. lia.
Qed.
(** a table is split at one of its positions *)
Lemma cells_split {A} (m : list (list A)) i j x : in_table m i j = Some x ->
  exists l1 l2, cells m = l1 ++ (i, j, x) :: l2 /\ forall i' j' x', (i', j', x') ∈ l1 ++ l2 -> in_table m i' j' = Some x' /\ (i', j') <> (i, j).
Proof.
  intros H. apply elem_of_cells in H. pose proof (cells_nodup m) as Hnd. apply elem_of_list_split in H as (l1&l2&Hl).
  exists l1, l2. split; [done|]. intros i' j' x' Hin. split.
  - apply elem_of_cells. rewrite Hl. apply elem_of_app in Hin as [Hin|Hin]; apply elem_of_app; [by left|right; by right].
  - intros [= -> ->]. rewrite Hl in Hnd. change (@map) with (@fmap list _) in Hnd. rewrite fmap_app, fmap_cons in Hnd.
    apply NoDup_app in Hnd as (_&H1&H2). apply NoDup_cons in H2 as [H2 _]. apply elem_of_app in Hin as [Hin|Hin].
    + apply (H1 (i, j)); [|by left]. apply elem_of_list_fmap. by exists (i, j, x').
    + apply H2. apply elem_of_list_fmap. by exists (i, j, x').
Qed.
Lemma cell_at_ok {A} (m : list (list A)) i j x : cell_at m i j = Ok x <-> in_table m i j = Some x.
Proof.
  unfold cell_at, in_table. rewrite rbind_ok. split.
  - intros (row&Hr&Hx). apply idx_ok in Hr, Hx. by rewrite Hr.
  - destruct (m !! i) as [row|] eqn:Hr; [|discriminate]. intros Hx. exists row. rewrite !idx_ok. done.
Qed.
Lemma in_table_inj (m : list (list nat)) i j j' b : Forall NoDup m -> in_table m i j = Some b -> in_table m i j' = Some b -> j = j'.
Proof.
  unfold in_table. intros Hnd. destruct (m !! i) as [row|] eqn:Hr; [|discriminate]. cbn. intros H1 H2.
  rewrite Forall_forall in Hnd. assert (NoDup row) as Hrow by (apply Hnd; by eapply elem_of_list_lookup_2).
  by eapply NoDup_lookup.
Qed.

(** a loop over the positions of a table, each step touching at most the offset of its own BPM in its own plane *)
Lemma table_loop {A} (m : list (list A)) (bpms : list (list nat)) (body : nat * nat * A -> M (sc R) unit) i j x b s s' :
  Forall NoDup bpms -> in_table m i j = Some x -> in_table bpms i j = Some b ->
  (forall i' j' x', in_table m i' j' = Some x' -> pres (only_offsets (fun b' p => p = i' /\ in_table bpms i' j' = Some b')) (body (i', j', x'))) ->
  forM (cells m) body s = (Ok tt, s') ->
  exists s1 s2, only_offsets (fun b' p => (b', p) <> (b, i)) s s1 /\ body (i, j, x) s1 = (Ok tt, s2) /\ only_offsets (fun b' p => (b', p) <> (b, i)) s2 s'.
Proof.
  intros Hnd Hx Hb Hbody H. destruct (cells_split m i j x Hx) as (l1&l2&Hl&Hother). rewrite Hl, forM_app in H.
  assert (forall l, (forall c, c ∈ l -> c ∈ l1 ++ l2) -> pres (only_offsets (fun b' p => (b', p) <> (b, i))) (forM l body)) as Hpres.
  { intros l Hsub. apply pres_forM; [exact _|]. intros [[i' j'] x'] Hin. apply Hsub, Hother in Hin as [Hin Hne].
    eapply pres_weaken; [|by apply Hbody]. intros t t'. apply only_offsets_mono. intros b' p [-> Hb'] [= -> ->].
    apply Hne. f_equal. by eapply in_table_inj. }
  apply bind_ok in H as ([]&s1&H1&H). cbn [forM] in H. apply bind_ok in H as ([]&s2&H2&H3).
  exists s1, s2. split; [|split; [done|]].
  - eapply pres_run; [|exact H1]. apply Hpres. intros c Hc. apply elem_of_app. by left.
  - eapply pres_run; [|exact H3]. apply Hpres. intros c Hc. apply elem_of_app. by right.
Qed.

(** * C54 *)

(** a measured offset is applied iff it is a number of at most 1.5 mm that is not below 2.5 times its error *)
Definition accepted (off err : option R) (x : R) : Prop :=
  off = Some x /\ Rabs x <= 15 / 10000 /\ forall e, err = Some e -> 5 / 2 * e <= Rabs x.
Definition accepts (bpm_ords : list (list nat)) (offs errs : list (list (option R))) (b p : nat) : Prop :=
  exists j off err x, in_table bpm_ords p j = Some b /\ in_table offs p j = Some off /\ in_table errs p j = Some err /\ accepted off err x.

Lemma errored_spec off err : bba_errored off err = false <-> exists x, accepted off err x.
Proof.
  unfold bba_errored, accepted, OUTLIER_LIMIT, CONFIDENCE_LEVEL_SIGMAS. destruct off as [x|]; num_R.
  - rewrite orb_false_iff. split.
    + intros [H1 H2]. exists x. split; [done|]. apply Rltb_false in H1. split; [lra|]. intros e ->. apply Rltb_false in H2. lra.
    + intros (x'&[= <-]&H1&H2). split; [apply Rltb_false; lra|]. destruct err as [e|]; [|done]. apply Rltb_false. specialize (H2 e eq_refl). lra.
  - split; [discriminate|]. intros (x&?&_). done.
Qed.
Lemma in_table_zip {A B C} (f : A -> B -> C) m1 m2 i j :
  in_table (zip_with (zip_with f) m1 m2) i j = match in_table m1 i j, in_table m2 i j with Some a, Some b => Some (f a b) | _, _ => None end.
Proof.
  unfold in_table. rewrite lookup_zip_with. destruct (m1 !! i) as [r1|]; cbn; [|done].
  destruct (m2 !! i) as [r2|]; cbn; [|by destruct (r1 !! j)]. rewrite lookup_zip_with. destruct (r1 !! j); cbn; [|done]. by destruct (r2 !! j).
Qed.
Lemma change_offset_same_rng b p (f : R -> R) : pres (same (@RNG R)) (change_offset b p f).
Proof. unfold change_offset. by apply pres_on_elem_same. Qed.

(** Every accepted measurement is added once to the offset of its BPM in its plane. *)
Theorem C54_applied bpm_ords offs errs (s s' : sc R) i j b off err x :
  apply_bpm_offsets bpm_ords offs errs s = (Ok tt, s') -> Forall NoDup bpm_ords ->
  in_table bpm_ords i j = Some b -> in_table offs i j = Some off -> in_table errs i j = Some err -> accepted off err x ->
  exists o, entry s b "Offset" i = Some o /\ entry s' b "Offset" i = Some (o + x).
Proof.
  intros H Hnd Hb Hoff Herr Hx. unfold apply_bpm_offsets in H. apply bind_ok in H as (flags&s0&Hf&H). apply lift_ok in Hf as [Hf ->].
  unfold is_bba_errored in Hf. destruct (decide _) as [_|]; [|discriminate]. injection Hf as <-.
  assert (bba_errored off err = false) as Hfl by (apply errored_spec; eauto).
  eapply table_loop in H as (s1&s2&A1&A2&A3); [|exact Hnd|rewrite in_table_zip, Hoff, Herr; reflexivity|exact Hb|].
  - rewrite Hfl in A2. apply bind_ok in A2 as (b'&s3&Hb'&A2). apply lift_ok in Hb' as [Hb' ->]. apply cell_at_ok in Hb'. rewrite Hb in Hb'. injection Hb' as <-.
    apply bind_ok in A2 as (off'&s3&Ho'&A2). apply lift_ok in Ho' as [Ho' ->]. apply cell_at_ok in Ho'. rewrite Hoff in Ho'. injection Ho' as <-.
    destruct Hx as (->&_). apply change_offset_ok in A2 as (o&Ho1&Ho2).
    destruct A1 as (_&_&_&_&_&_&A1&_). destruct A3 as (_&_&_&_&_&_&A3&_).
    exists o. rewrite <- (A1 b i) by (intros Hn; by apply Hn). split; [done|]. rewrite A3 by (intros Hn; by apply Hn). exact Ho2.
  - intros i' j' x' _. destruct x'; [intros t; reflexivity|]. intros t. destruct (cell_at bpm_ords i' j') as [b'|] eqn:Eb; unfold bind, lift; [|reflexivity].
    destruct (cell_at offs i' j') as [[o|]|]; [|reflexivity|reflexivity]. apply cell_at_ok in Eb. apply change_offset_only. done.
Qed.

(** Whatever the outcome, nothing else changes: no offset in a plane without an accepted measurement, no other field, no other
    element, no random number is drawn. *)
Theorem C54_only_accepted bpm_ords offs errs (s s' : sc R) r :
  apply_bpm_offsets bpm_ords offs errs s = (r, s') -> only_offsets (accepts bpm_ords offs errs) s s' /\ RNG s' = RNG s.
Proof.
  intros H. split.
  - eapply pres_run; [|exact H]. unfold apply_bpm_offsets. intros t. unfold bind at 1, lift at 1.
    destruct (is_bba_errored offs errs) as [flags|] eqn:Hf; [|reflexivity]. unfold is_bba_errored in Hf. destruct (decide _) as [_|]; [|discriminate]. injection Hf as <-.
    revert t. change (pres (only_offsets (accepts bpm_ords offs errs)) (forM (cells (zip_with (zip_with bba_errored) offs errs)) (fun c =>
      let '(i, j, flag) := c in if flag : bool then ret tt else let! ord := lift (cell_at bpm_ords i j) in let! x := lift (cell_at offs i j) in
        match x with Some x => change_offset ord i (fun o => nadd o x) | None => ret tt end))).
    apply pres_forM; [exact _|]. intros [[i j] fl] Hin. apply elem_of_cells in Hin. rewrite in_table_zip in Hin.
    destruct (in_table offs i j) as [off|] eqn:Eo; [|discriminate]. destruct (in_table errs i j) as [err|] eqn:Ee; [|discriminate]. injection Hin as Hfl.
    destruct fl; [intros t; reflexivity|]. intros t. unfold bind, lift. destruct (cell_at bpm_ords i j) as [b|] eqn:Eb; [|reflexivity]. apply cell_at_ok in Eb.
    assert (cell_at offs i j = Ok off) as -> by (by apply cell_at_ok). destruct off as [x|]; [|reflexivity]. apply change_offset_only.
    apply errored_spec in Hfl as (x'&Hx'). exists j, (Some x), err, x'. done.
  - refine (pres_run (same (@RNG R)) _ s r s' _ H). unfold apply_bpm_offsets.
    repeat first [ pres_step | apply change_offset_same_rng ].
Qed.

(** The call returns whenever the two tables have the shape of the table of BPMs and these have offsets in the planes. *)
Theorem C54_returns bpm_ords offs errs (s : sc R) : shape offs = shape bpm_ords -> shape errs = shape bpm_ords ->
  (forall i j b, in_table bpm_ords i j = Some b -> is_Some (entry s b "Offset" i)) -> exists s', apply_bpm_offsets bpm_ords offs errs s = (Ok tt, s').
Proof.
  intros H1 H2 Hb. unfold apply_bpm_offsets, is_bba_errored. rewrite decide_True by congruence. unfold bind at 1, lift at 1.
  set (m := zip_with _ _ _).
  assert (forall c, c ∈ cells m -> exists b off, in_table bpm_ords c.1.1 c.1.2 = Some b /\ in_table offs c.1.1 c.1.2 = Some off) as Hc.
  { intros [[i j] fl] Hin. apply elem_of_cells in Hin. unfold m in Hin. rewrite in_table_zip in Hin. cbn [fst snd].
    destruct (in_table offs i j) as [off|] eqn:Eo; [|discriminate]. unfold in_table in *.
    destruct (offs !! i) as [row|] eqn:Er; [|discriminate]. cbn in Eo.
    assert (shape offs !! i = Some (length row)) as Hs by (unfold shape; change (@map) with (@fmap list _); by rewrite list_lookup_fmap, Er).
    rewrite H1 in Hs. unfold shape in Hs. change (@map) with (@fmap list _) in Hs. apply list_lookup_fmap_Some in Hs as (row'&Hrow'&Hlen).
    rewrite Hrow'. cbn. destruct (lookup_lt_is_Some_2 row' j) as [b Hb']; [rewrite <- Hlen; by eapply lookup_lt_Some|]. eauto. }
  clearbody m. assert (forall l (t : sc R), (forall c, c ∈ l -> c ∈ cells m) -> (forall i j b, in_table bpm_ords i j = Some b -> is_Some (entry t b "Offset" i)) ->
    exists s', forM l (fun c => let '(i, j, flag) := c in if flag : bool then ret tt else let! ord := lift (cell_at bpm_ords i j) in let! x := lift (cell_at offs i j) in
        match x with Some x => change_offset ord i (fun o => nadd o x) | None => ret tt end) t = (Ok tt, s')) as Hind; [|apply Hind; auto].
  induction l as [|[[i j] fl] l IH]; intros t Hl Ht; [by eexists|]. cbn [forM].
  destruct (Hc (i, j, fl)) as (b&off&Hbb&Hoff); [apply Hl; by left|]. cbn [fst snd] in *.
  assert (forall c, c ∈ l -> c ∈ cells m) as Hl' by (intros; apply Hl; by right). clear Hl. unfold bind at 1.
  destruct fl; [by apply IH|]. unfold bind at 1, lift at 1. assert (cell_at bpm_ords i j = Ok b) as -> by (by apply cell_at_ok).
  unfold bind at 1, lift at 1. assert (cell_at offs i j = Ok off) as -> by (by apply cell_at_ok). destruct off as [x|]; [|by apply IH].
  destruct (Ht i j b Hbb) as [o Ho].
  assert (exists t', change_offset b i (fun o => nadd o x) t = (Ok tt, t')) as [t' Et].
  { unfold change_offset, on_elem. unfold entry, attr_at in Ho. destruct (RING t !! b) as [e|]; [|discriminate]. cbn in Ho.
    destruct (e !! "Offset") as [v|] eqn:Ev; [|discriminate]. destruct v as [|v| | | | | | | | |]; try discriminate.
    unfold bind, getm, lift. assert (attr_vec e "Offset" = Ok v) as -> by (by apply attr_vec_ok).
    assert (idx v i = Ok o) as -> by (by apply idx_ok). unfold idx_set. rewrite Ho. by eexists. }
  rewrite Et. apply IH; [done|]. intros i' j' b' Hb'. destruct (decide ((b', i') = (b, i))) as [[= -> ->]|Hn].
  - destruct (change_offset_ok _ _ _ _ _ _ Et) as (o'&_&->). eauto.
  - assert (only_offsets (fun b0 p => (b0, p) = (b, i)) t t') as (_&_&_&_&_&_&Hk&_) by (eapply pres_run; [|exact Et]; by apply change_offset_only).
    rewrite Hk by done. by eapply Ht.
Qed.
Theorem C54_wrong_shape bpm_ords offs errs (s : sc R) : shape offs <> shape errs -> apply_bpm_offsets bpm_ords offs errs s = (Err ValueError, s).
Proof. intros H. unfold apply_bpm_offsets, is_bba_errored. by rewrite decide_False. Qed.
(** Finding: a measurement whose error is unknown (NaN) is accepted, however it compares with nothing. *)
Theorem C54_finding_unknown_error x : Rabs x <= 15 / 10000 -> bba_errored (Some x) None = false.
Proof. intros H. apply errored_spec. exists x. by repeat split. Qed.

(** * C55 *)

(** distance of BPM [b] from magnet [m] in plane [i] *)
Definition distance (s : sc R) (b m i : nat) : option R :=
  o ← entry s b "Offset" i; bs ← entry s b "SupportOffset" i; mo ← entry s m "MagnetOffset" i; ms ← entry s m "SupportOffset" i; Some (o + bs - mo - ms).
Definition flagged (errors : option (list (list bool))) (bpm_ords : list (list nat)) (i j : nat) : Prop :=
  match errors with Some m => in_table m i j = Some true | None => is_Some (in_table bpm_ords i j) end.

Lemma randnc1_bound cut (s s' : sc R) x : randnc1 cut s = (Ok x, s') -> Rabs x <= Rabs cut.
Proof.
  intros H. unfold randnc1 in H. apply bind_ok in H as (l&s1&Hl&H). pose proof (randnc_spec cut 1 s) as Hs. rewrite Hl in Hs.
  destruct Hs as (k&Hk&->&Hlen&Hp&Hm). destruct l as [|y [|? ?]]; cbn in Hlen; try lia.
  cbn in H. injection H as -> _. assert (x ∈ List.filter (fun x => negb (too_big cut x)) (take k (RNG s))) as Hx.
  { rewrite <- Hp. by left. }
  apply elem_of_list_In, filter_In in Hx as [_ Hx]. unfold too_big in Hx. num_R. apply negb_true_iff in Hx. apply Rltb_false in Hx. lra.
Qed.
(** the distances of the BPMs of a plane that are not flagged, and their rms *)
Definition good_distances (errors : list (list bool)) (bpm_ords mag_ords : list (list nat)) (s : sc R) (i : nat) : list R :=
  omap (fun j => match in_table errors i j, in_table bpm_ords i j, in_table mag_ords i j with
                 | Some false, Some b, Some m => distance s b m i
                 | _, _, _ => None
                 end) (seq 0 (length (default [] (bpm_ords !! i)))).
(** the size of the remaining distance in a plane: as given, or the rms of the good distances; NaN if there are none *)
Definition size_in (fake : option (list (option R))) (errors : option (list (list bool))) (bpm_ords mag_ords : list (list nat)) (s : sc R) (i : nat) (f : option R) : Prop :=
  match fake, errors with
  | Some l, _ => l !! i = Some f
  | None, Some e =>
      let ds := good_distances e bpm_ords mag_ords s i in
      f = if decide (ds = []) then None else Some (R_sqrt.sqrt (rsum (map (fun d => d * d) ds) / INR (length ds)))
  | None, None => False
  end.

Lemma entry_attr (s : sc R) i a k x : (let? e := idx (RING s) i in let? v := attr_vec e a in idx v k) = Ok x <-> entry s i a k = Some x.
Proof.
  unfold entry, attr_at. rewrite rbind_ok. split.
  - intros (e&He&H). apply rbind_ok in H as (v&Hv&Hx). apply idx_ok in He, Hx. apply attr_vec_ok in Hv. rewrite He. cbn. by rewrite Hv.
  - destruct (RING s !! i) as [e|] eqn:He; [|discriminate]. cbn. destruct (e !! a) as [[|v| | | | | | | | |]|] eqn:Hv; try discriminate. intros Hx.
    exists e. split; [by apply idx_ok|]. apply rbind_ok. exists v. rewrite attr_vec_ok, idx_ok. done.
Qed.
Lemma distances_row bpm_ords mag_ords (s : sc R) table i bpms mags : bpm_offset_from_mag bpm_ords mag_ords s = Ok table ->
  bpm_ords !! i = Some bpms -> mag_ords !! i = Some mags -> exists row, table !! i = Some row /\ length row = length bpms /\ length mags = length bpms /\
  forall j b m, bpms !! j = Some b -> mags !! j = Some m -> row !! j = distance s b m i.
Proof.
  intros H Hb Hm. unfold bpm_offset_from_mag in H. apply rmap_ok in H.
  assert (imap (fun (n : nat) (p : list nat * list nat) => (n, p)) (zip bpm_ords mag_ords) !! i = Some (i, (bpms, mags))) as Hi.
  { rewrite list_lookup_imap, lookup_zip_with, Hb, Hm. done. }
  destruct (Forall2_lookup_l _ _ _ _ _ H Hi) as (row&Hrow&Hr). cbn beta iota in Hr.
  apply rbind_ok in Hr as (a&Ha&Hr). apply rbind_ok in Hr as (b&Hbb&Hr). apply rbind_ok in Hr as (c&Hc&Hr). apply rbind_ok in Hr as (d&Hd&Hr).
  destruct (length bpms =? length mags)%nat eqn:El; [|discriminate]. apply Nat.eqb_eq in El. injection Hr as <-.
  pose proof (field_values_length _ _ _ _ _ Ha) as La. pose proof (field_values_length _ _ _ _ _ Hbb) as Lb.
  pose proof (field_values_length _ _ _ _ _ Hc) as Lc. pose proof (field_values_length _ _ _ _ _ Hd) as Ld.
  eexists. split; [exact Hrow|]. split; [rewrite !zip_with_length; lia|]. split; [lia|]. intros j bj mj Hbj Hmj.
  assert (j < length bpms)%nat as Hj by (by eapply lookup_lt_Some).
  destruct (lookup_lt_is_Some_2 a j) as [xa Xa]; [lia|]. destruct (lookup_lt_is_Some_2 b j) as [xb Xb]; [lia|].
  destruct (lookup_lt_is_Some_2 c j) as [xc Xc]; [lia|]. destruct (lookup_lt_is_Some_2 d j) as [xd Xd]; [lia|].
  rewrite !lookup_zip_with, Xa, Xb, Xc, Xd. cbn. unfold distance.
  assert (forall (l : list nat) (l' : list R) (k : nat) x y, l !! k = Some x -> l' !! k = Some y -> (x, y) ∈ zip l l') as Hz.
  { intros l l' k x y H1 H2. apply elem_of_list_lookup. exists k. rewrite lookup_zip_with, H1, H2. done. }
  rewrite (field_values_ok _ _ _ _ _ bj xa Ha) by (by eapply Hz). rewrite (field_values_ok _ _ _ _ _ bj xb Hbb) by (by eapply Hz).
  rewrite (field_values_ok _ _ _ _ _ mj xc Hc) by (by eapply Hz). rewrite (field_values_ok _ _ _ _ _ mj xd Hd) by (by eapply Hz). done.
Qed.
Lemma omap_zip_seq {A B C} (f : A * B -> option C) (l1 : list A) (l2 : list B) : length l1 = length l2 ->
  omap f (zip l1 l2) = omap (fun j => match l1 !! j, l2 !! j with Some a, Some b => f (a, b) | _, _ => None end) (seq 0 (length l2)).
Proof.
  revert l2. induction l1 as [|a l1 IH]; intros [|b l2] H; try discriminate; [done|]. cbn [length seq zip zip_with omap list_omap].
  injection H as H. rewrite <- seq_shift. cbn.
  assert (forall h : nat -> option C, omap h (map S (seq 0 (length l2))) = omap (fun j => h (S j)) (seq 0 (length l2))) as Hs.
  { intros h. generalize (seq 0 (length l2)). induction l as [|k l IHl]; [done|]. cbn. destruct (h (S k)); by rewrite IHl. }
  rewrite Hs. cbn. rewrite IH by done. done.
Qed.
Lemma omap_ext_seq {C} (f g : nat -> option C) n : (forall j, (j < n)%nat -> f j = g j) -> omap f (seq 0 n) = omap g (seq 0 n).
Proof.
  intros H. assert (forall l : list nat, (forall j, j ∈ l -> (j < n)%nat) -> omap f l = omap g l) as Hl.
  { induction l as [|j l IH]; intros Hj; [done|]. cbn. rewrite H by (apply Hj; by left). rewrite IH; [done|]. intros k Hk. apply Hj. by right. }
  apply Hl. intros j Hj. apply elem_of_seq in Hj. lia.
Qed.
Lemma shape_lookup {A B} (m : list (list A)) (m' : list (list B)) i row : shape m = shape m' -> m' !! i = Some row -> exists row', m !! i = Some row' /\ length row' = length row.
Proof.
  intros H Hr. assert (shape m' !! i = Some (length row)) as Hs by (unfold shape; change (@map) with (@fmap list _); by rewrite list_lookup_fmap, Hr).
  rewrite <- H in Hs. unfold shape in Hs. change (@map) with (@fmap list _) in Hs. apply list_lookup_fmap_Some in Hs as (row'&?&?). eauto.
Qed.
(** the rms computed by the code *)
Lemma rms_spec errors bpm_ords mag_ords (s : sc R) table i f : bpm_offset_from_mag bpm_ords mag_ords s = Ok table -> shape errors = shape table ->
  is_Some (bpm_ords !! i) -> is_Some (mag_ords !! i) ->
  (zip_with unflagged_rms errors table) !! i = Some f <-> size_in None (Some errors) bpm_ords mag_ords s i f.
Proof.
  intros Ht Hs [bpms Hb] [mags Hm]. destruct (distances_row _ _ _ _ _ _ _ Ht Hb Hm) as (row&Hrow&Hlen&Hlm&Hd).
  destruct (shape_lookup _ _ _ _ Hs Hrow) as (fl&Hfl&Hlf).
  assert (unflagged_rms fl row = let ds := good_distances errors bpm_ords mag_ords s i in
     if decide (ds = []) then None else Some (R_sqrt.sqrt (rsum (map (fun d => d * d) ds) / INR (length ds)))) as Hu.
  { unfold unflagged_rms, good_distances. rewrite Hb. change (default [] (Some bpms)) with bpms. rewrite <- Hlen.
    rewrite omap_zip_seq by done. rewrite (omap_ext_seq _ (fun j => match in_table errors i j, in_table bpm_ords i j, in_table mag_ords i j with
                 | Some false, Some b, Some m => distance s b m i | _, _, _ => None end)).
    - set (ds := omap _ _). cbv zeta. destruct ds as [|d ds]; [by rewrite decide_True|]. rewrite decide_False by done. cbn [length Nat.eqb].
      f_equal. change (@nsqrt R TrigR) with R_sqrt.sqrt. f_equal. unfold mean. rewrite nsum_rsum. num_R. change (@map) with (@fmap list _). rewrite fmap_length. done.
    - intros j Hj. unfold in_table. rewrite Hfl, Hb, Hm. cbn.
      destruct (lookup_lt_is_Some_2 bpms j) as [b Eb]; [lia|]. destruct (lookup_lt_is_Some_2 mags j) as [m Em]; [lia|].
      rewrite Eb, Em. rewrite (Hd j b m Eb Em). destruct (fl !! j) as [[]|]; [by destruct (distance s b m i)|by destruct (distance s b m i)|done]. }
  rewrite lookup_zip_with, Hfl, Hrow. cbn [mbind option_bind fmap option_fmap option_map size_in]. rewrite Hu. split; [intros [= <-]; done|]. cbv zeta. intros ->. done.
Qed.

Lemma fake_step_only bpm_ords mag_ords (fake : list (option R)) i j : pres (only_offsets (fun b' p => p = i /\ in_table bpm_ords i j = Some b'))
  (let! m := lift (cell_at mag_ords i j) in
   let! b := lift (cell_at bpm_ords i j) in
   let! s := get in
   let! em := lift (idx (RING s) m) in
   let! eb := lift (idx (RING s) b) in
   let! mo := lift (let? v := attr_vec em "MagnetOffset" in idx v i) in
   let! ms := lift (let? v := attr_vec em "SupportOffset" in idx v i) in
   let! bs := lift (let? v := attr_vec eb "SupportOffset" in idx v i) in
   let! f := lift (idx fake i) in
   let! r := randnc1 ntwo in
   match f with Some f => change_offset b i (fun _ => nadd (nsub (nadd mo ms) bs) (nmul f r)) | None => ret tt end).
Proof.
  intros s. unfold bind at 1, lift at 1. destruct (cell_at mag_ords i j); [|reflexivity].
  unfold bind at 1, lift at 1. destruct (cell_at bpm_ords i j) as [b|] eqn:Eb; [|reflexivity]. apply cell_at_ok in Eb. revert s.
  match goal with |- forall s, ?Rl s (snd (?m s)) => change (pres Rl m) end.
  repeat first [ pres_step | apply change_offset_only; done
    | eapply pres_weaken; [intros t t'; apply only_offsets_quiet|unfold randnc1; repeat first [pres_step|apply quiet_randnc]] ].
Qed.
Lemma default_flags (bpm_ords : list (list nat)) errors i j : flagged errors bpm_ords i j <-> in_table (default (map (map (fun _ => true)) bpm_ords) errors) i j = Some true.
Proof.
  destruct errors as [m|]; cbn; [done|]. unfold in_table. change (@map) with (@fmap list _). rewrite list_lookup_fmap. destruct (bpm_ords !! i) as [row|]; cbn.
  - rewrite list_lookup_fmap. destruct (row !! j); cbn; split; eauto; [intros [? ?]; discriminate|discriminate].
  - split; [intros [? ?]; discriminate|discriminate].
Qed.
(** the shape of a successful call *)
Lemma fake_bba_loop bpm_ords mag_ords errors fake (s s' : sc R) : fake_bba bpm_ords mag_ords errors fake s = (Ok tt, s') ->
  exists fs, (forall i, is_Some (bpm_ords !! i) -> is_Some (mag_ords !! i) -> forall f, size_in fake errors bpm_ords mag_ords s i f <-> fs !! i = Some f) /\
  forM (cells (default (map (map (fun _ => true)) bpm_ords) errors)) (fun c => let '(i, j, flag) := c in if flag : bool then
   (let! m := lift (cell_at mag_ords i j) in
   let! b := lift (cell_at bpm_ords i j) in
   let! s := get in
   let! em := lift (idx (RING s) m) in
   let! eb := lift (idx (RING s) b) in
   let! mo := lift (let? v := attr_vec em "MagnetOffset" in idx v i) in
   let! ms := lift (let? v := attr_vec em "SupportOffset" in idx v i) in
   let! bs := lift (let? v := attr_vec eb "SupportOffset" in idx v i) in
   let! f := lift (idx fs i) in
   let! r := randnc1 ntwo in
   match f with Some f => change_offset b i (fun _ => nadd (nsub (nadd mo ms) bs) (nmul f r)) | None => ret tt end) else ret tt) s = (Ok tt, s').
Proof.
  intros H. unfold fake_bba in H. destruct errors as [e|], fake as [fs|]; [| | |discriminate].
  - apply bind_ok in H as (fs'&s1&Hf&H). apply ret_ok in Hf as [<- <-]. exists fs. done.
  - apply bind_ok in H as (fs'&s1&Hf&H). apply bind_ok in Hf as (s2&s3&Hg&Hf). apply get_ok in Hg as [-> ->].
    apply bind_ok in Hf as (table&s4&Ht&Hf). apply lift_ok in Ht as [Ht ->]. cbn [default] in *. destruct (decide _) as [Hs|]; [|discriminate]. apply ret_ok in Hf as [<- <-].
    eexists. split; [|exact H]. intros i Hb Hm f. symmetry. by apply rms_spec.
  - apply bind_ok in H as (fs'&s1&Hf&H). apply ret_ok in Hf as [<- <-]. exists fs. done.
Qed.
Lemma in_table_row {A} (m : list (list A)) i j x : in_table m i j = Some x -> is_Some (m !! i).
Proof. unfold in_table. destruct (m !! i); [eauto|discriminate]. Qed.

(** A flagged BPM ends within twice the size of the plane from its magnet. *)
Theorem C55_near_magnet bpm_ords mag_ords errors fake (s s' : sc R) i j b m f :
  fake_bba bpm_ords mag_ords errors fake s = (Ok tt, s') -> Forall NoDup bpm_ords ->
  flagged errors bpm_ords i j -> in_table bpm_ords i j = Some b -> in_table mag_ords i j = Some m ->
  size_in fake errors bpm_ords mag_ords s i (Some f) -> exists d, distance s' b m i = Some d /\ Rabs d <= 2 * Rabs f.
Proof.
  intros H Hnd Hfl Hb Hm Hf. apply fake_bba_loop in H as (fs&Hfs&H). apply Hfs in Hf; [|by eapply in_table_row|by eapply in_table_row].
  apply default_flags in Hfl. eapply table_loop in H as (s1&s2&A1&A2&A3); [|exact Hnd|exact Hfl|exact Hb|].
  2: { intros i' j' x' _. destruct x'; [apply fake_step_only|intros t; reflexivity]. }
  assert (only_offsets (fun b' p => p = i /\ in_table bpm_ords i j = Some b') s1 s2) as A4 by (exact (pres_run _ _ _ _ _ (fake_step_only _ _ _ _ _) A2)).
  apply bind_ok in A2 as (m'&t&E1&A2). apply lift_ok in E1 as [E1 ->]. apply cell_at_ok in E1. rewrite Hm in E1. injection E1 as <-.
  apply bind_ok in A2 as (b'&t&E1&A2). apply lift_ok in E1 as [E1 ->]. apply cell_at_ok in E1. rewrite Hb in E1. injection E1 as <-.
  apply bind_ok in A2 as (t1&t&E1&A2). apply get_ok in E1 as [-> ->].
  apply bind_ok in A2 as (em&t&E1&A2). apply lift_ok in E1 as [E1 ->]. apply bind_ok in A2 as (eb&t&E2&A2). apply lift_ok in E2 as [E2 ->].
  apply bind_ok in A2 as (mo&t&E3&A2). apply lift_ok in E3 as [E3 ->]. apply bind_ok in A2 as (ms&t&E4&A2). apply lift_ok in E4 as [E4 ->].
  apply bind_ok in A2 as (bs&t&E5&A2). apply lift_ok in E5 as [E5 ->]. apply bind_ok in A2 as (f'&t&E6&A2). apply lift_ok in E6 as [E6 ->].
  apply idx_ok in E6. rewrite Hf in E6. injection E6 as <-. apply bind_ok in A2 as (r&s3&E7&A2).
  assert (entry s1 m "MagnetOffset" i = Some mo) as F1 by (apply entry_attr; by rewrite E1).
  assert (entry s1 m "SupportOffset" i = Some ms) as F2 by (apply entry_attr; by rewrite E1).
  assert (entry s1 b "SupportOffset" i = Some bs) as F3 by (apply entry_attr; by rewrite E2).
  apply randnc1_bound in E7. apply change_offset_ok in A2 as (o&_&Ho). destruct A3 as (_&_&_&_&_&A3&A3'&_). destruct A4 as (_&_&_&_&_&A4&_).
  assert (forall i a k, a <> "Offset" -> entry s' i a k = entry s1 i a k) as Hsame.
  { intros i' a k Ha. unfold entry. by rewrite A3, A4. }
  unfold distance. rewrite !Hsame by done. rewrite F1, F2, F3. rewrite A3' by (intros Hn; by apply Hn). rewrite Ho. cbn.
  eexists. split; [reflexivity|]. unfold ntwo in E7. num_R. replace (mo + ms - bs + f * r + bs - mo - ms) with (f * r) by ring. rewrite Rabs_mult.
  rewrite (Rabs_right (1 + 1)) in E7 by lra. pose proof (Rabs_pos f). nra.
Qed.
(** If the size of the plane is not a number the offset of the BPM stays. *)
Theorem C55_no_size bpm_ords mag_ords errors fake (s s' : sc R) i j b m :
  fake_bba bpm_ords mag_ords errors fake s = (Ok tt, s') -> Forall NoDup bpm_ords ->
  flagged errors bpm_ords i j -> in_table bpm_ords i j = Some b -> in_table mag_ords i j = Some m ->
  size_in fake errors bpm_ords mag_ords s i None -> entry s' b "Offset" i = entry s b "Offset" i.
Proof.
  intros H Hnd Hfl Hb Hm Hf. apply fake_bba_loop in H as (fs&Hfs&H). apply Hfs in Hf; [|by eapply in_table_row|by eapply in_table_row].
  apply default_flags in Hfl. eapply table_loop in H as (s1&s2&A1&A2&A3); [|exact Hnd|exact Hfl|exact Hb|].
  2: { intros i' j' x' _. destruct x'; [apply fake_step_only|intros t; reflexivity]. }
  destruct A1 as (_&_&_&_&_&_&A1&_). destruct A3 as (_&_&_&_&_&_&A3&_). rewrite A3, <- (A1 b i) by (intros Hn; by apply Hn). clear A1 A3.
  apply bind_ok in A2 as (m'&t&E1&A2). apply lift_ok in E1 as [E1 ->]. apply bind_ok in A2 as (b'&t'&E1'&A2). apply lift_ok in E1' as [E1' ->].
  apply bind_ok in A2 as (t1&t2&E0&A2). apply get_ok in E0 as [-> ->].
  apply bind_ok in A2 as (em&t1&E2&A2). apply lift_ok in E2 as [E2 ->]. apply bind_ok in A2 as (eb&t2&E3&A2). apply lift_ok in E3 as [E3 ->].
  apply bind_ok in A2 as (mo&t1&E4&A2). apply lift_ok in E4 as [E4 ->]. apply bind_ok in A2 as (ms&t1&E5&A2). apply lift_ok in E5 as [E5 ->].
  apply bind_ok in A2 as (bs&t1&E6&A2). apply lift_ok in E6 as [E6 ->]. apply bind_ok in A2 as (f'&t1&E7&A2). apply lift_ok in E7 as [E7 ->].
  apply idx_ok in E7. rewrite Hf in E7. injection E7 as <-. apply bind_ok in A2 as (r&s3&E8&A2). apply ret_ok in A2 as [_ <-].
  assert (quiet s1 s2) as Hq by (refine (pres_run quiet _ _ _ _ _ E8); unfold randnc1; repeat first [pres_step|apply quiet_randnc]).
  unfold quiet in Hq. rewrite Hq. done.
Qed.
(** Whatever the outcome, only offsets of flagged BPMs change. *)
Theorem C55_only_flagged bpm_ords mag_ords errors fake (s s' : sc R) r : fake_bba bpm_ords mag_ords errors fake s = (r, s') ->
  only_offsets (fun b p => exists j, flagged errors bpm_ords p j /\ in_table bpm_ords p j = Some b) s s'.
Proof.
  intros H. eapply pres_run; [|exact H]. clear H. unfold fake_bba.
  assert (forall fs, pres (only_offsets (fun b p => exists j, flagged errors bpm_ords p j /\ in_table bpm_ords p j = Some b))
    (forM (cells (default (map (map (fun _ => true)) bpm_ords) errors)) (fun c => let '(i, j, flag) := c in if flag : bool then
   (let! m := lift (cell_at mag_ords i j) in
   let! b := lift (cell_at bpm_ords i j) in
   let! s := get in
   let! em := lift (idx (RING s) m) in
   let! eb := lift (idx (RING s) b) in
   let! mo := lift (let? v := attr_vec em "MagnetOffset" in idx v i) in
   let! ms := lift (let? v := attr_vec em "SupportOffset" in idx v i) in
   let! bs := lift (let? v := attr_vec eb "SupportOffset" in idx v i) in
   let! f := lift (idx fs i) in
   let! r := randnc1 ntwo in
   match f with Some f => change_offset b i (fun _ => nadd (nsub (nadd mo ms) bs) (nmul f r)) | None => ret tt end) else ret tt))) as Hl.
  { intros fs. apply pres_forM; [exact _|]. intros [[i j] fl] Hin. apply elem_of_cells in Hin. destruct fl; [|intros t; reflexivity].
    eapply pres_weaken; [|apply fake_step_only]. intros t t'. apply only_offsets_mono. intros b p [-> Hb]. exists j. split; [by apply default_flags|done]. }
  destruct errors as [e|], fake as [f|]; [| | |intros t; reflexivity].
  - apply pres_bind; [exact _|intros t; reflexivity|]. intros fs. apply Hl.
  - apply pres_bind; [exact _|repeat pres_step|]. intros fs. apply Hl.
  - apply pres_bind; [exact _|intros t; reflexivity|]. intros fs. apply Hl.
Qed.
Theorem C55_nothing_given bpm_ords mag_ords (s : sc R) : fake_bba bpm_ords mag_ords None None s = (Err ValueError, s).
Proof. done. Qed.

Print Assumptions C54_applied.
Print Assumptions C54_only_accepted.
Print Assumptions C54_returns.
Print Assumptions C54_wrong_shape.
Print Assumptions C54_finding_unknown_error.
Print Assumptions C55_near_magnet.
Print Assumptions C55_no_size.
Print Assumptions C55_only_flagged.
Print Assumptions C55_nothing_given.

(** * Cases *)
Local Open Scope Q_scope.
(** square roots of squares of fractions *)
#[local] Instance TrigQ4 : Trig Q :=
  { ncos := fun _ => 1; nsin := fun _ => 0; nsqrt := fun q => Qred (Z.sqrt (Qnum (Qred q)) # Z.to_pos (Z.sqrt (Zpos (Qden (Qred q))))); npi := 22 # 7 }.
Definition a_bpm (x y : Q) : elem Q := Examples.mk [("Offset", VVec [x; y]); ("SupportOffset", VVec [1#1000; 0])].
Definition a_magnet (x y : Q) : elem Q := Examples.mk [("MagnetOffset", VVec [x; y]); ("SupportOffset", VVec [0; 0])].
(** BPMs 0, 1, 2; magnets 3, 4, 5 *)
Definition bba_ring : list (elem Q) := [a_bpm (1#10000) 0; a_bpm 0 0; a_bpm 0 (1#20000); a_magnet (11#10000) 0; a_magnet 0 (3#10000); a_magnet (2#1000) (1#1000)].
Definition bba_rest : sc Q := MkSC bba_ring [] (INJ Examples.ex_sc) (SIG Examples.ex_sc) (MkOrd [0%nat; 1%nat; 2%nat] [] [] [] [] [] [] [] []) [3; -1; 1#2; -5#2; 2].
(** accepted, too large, lost in its error; the vertical ones: NaN, exactly at the two limits, unknown error *)
Example C54_case :
  let run := apply_bpm_offsets [[0; 1; 2]; [0; 1; 2]]%nat
    [[Some (1#1000); Some (2#1000); Some (-1#10000)]; [None; Some (-15#10000); Some (1#1000000)]]
    [[Some (1#10000); Some 0; Some (1#20000)]; [Some 0; Some (6#10000); None]] bba_rest in
  fst run = Ok tt /\ map (fun i => (entry (snd run) i "Offset" 0, entry (snd run) i "Offset" 1)) [0; 1; 2]%nat =
    [(Some (11#10000), Some 0); (Some 0, Some (-3#2000)); (Some 0, Some (51#1000000))].
Proof. vm_compute. repeat split. Qed.
(** given sizes: BPM 1 in the horizontal plane and BPM 0 in the vertical plane are flagged; the draw 3 is beyond the cut-off *)
Example C55_case_given :
  let run := fake_bba [[0; 1]; [0; 1]]%nat [[3; 4]; [3; 4]]%nat (Some [[false; true]; [true; false]]) (Some [Some (1#10000); Some (2#10000)]) bba_rest in
  fst run = Ok tt /\ map (fun i => (entry (snd run) i "Offset" 0, entry (snd run) i "Offset" 1)) [0; 1]%nat =
    [(Some (1#10000), Some (1#10000)); (Some (-11#10000), Some 0)] /\ RNG (snd run) = [-5#2; 2].
Proof. vm_compute. repeat split. Qed.
(** default sizes: BPM 0 is good in the horizontal plane (distance 11/10000), nothing is good in the vertical plane *)
Example C55_case_default :
  let run := fake_bba [[0; 1]; [0; 1]]%nat [[4; 3]; [3; 4]]%nat (Some [[false; true]; [true; true]]) None bba_rest in
  fst run = Ok tt /\ map (fun i => (entry (snd run) i "Offset" 0, entry (snd run) i "Offset" 1)) [0; 1]%nat =
    [(Some (1#10000), Some 0); (Some (-1#1000), Some 0)] /\ RNG (snd run) = [].
Proof. vm_compute. repeat split. Qed.
