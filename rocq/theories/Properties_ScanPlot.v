(** C99, C100: the figures of the tune scan, of the beam transmission and of the RF scans. *)
From Coq Require Import Reals Lra Lia QArith ZArith.
From stdpp Require Import base gmap strings list.
From Verif Require Import Num Base Model_Arr Model_SC Model_Err Model_Beam Model_Orbit Model_Scan Model_Resp Model_Plot Model_Figure Model_ScanPlot Lemmas Proofs_Update Proofs_Setpoint Proofs_Loop2 Proofs_Beam Spec Proofs_CM Proofs_CM2 Properties_Setpoint3 Properties_Field Properties_Beam Properties_Beam2 Properties_Orbit Properties_Rf Properties_Tune.
Local Open Scope string_scope.
Local Open Scope list_scope.
Local Open Scope R_scope.

(** * C99: transmission *)

Lemma percent_R (x : R) : percent x = 100 * x.
Proof. unfold percent. change (nofnat 100) with (IZR 100). num_R. done. Qed.

Lemma above_count (l : list R) thr : forall k,
  length (List.filter (fun p : nat * R => if Rlt_dec (100 * thr) p.2 then true else false) (imap (fun i f => ((k + i)%nat, 100 * f)) l)) = turns_above thr l.
Proof.
  induction l as [|f l IH]; intros k; [done|]. cbn [imap]. unfold turns_above. cbn [List.filter snd].
  assert (imap ((λ (i : nat) (f0 : R), ((k + i)%nat, 100 * f0)) ∘ S) l = imap (fun i f0 => ((S k + i)%nat, 100 * f0)) l) as ->.
  { apply imap_ext. intros i x _. cbn. f_equal. lia. }
  specialize (IH (S k)). unfold turns_above in IH. destruct (Rlt_dec (100 * thr) (100 * f)), (Rlt_dec thr f); try lra; cbn [length]; by rewrite IH.
Qed.

(** The line of the transmission has one point for each turn, at the height of the surviving fraction in percent, and as many of its
    points lie above the dotted line as turns are reported; everything lies within the limits of the axes. *)
Theorem C99_transmission (w : world R) np nt (s s' : sc R) n frac :
  beam_transmission w np nt s = (Ok (n, frac), s') ->
  let turns := default (nTurns (INJ s)) nt in
  let fig := plot_transmission frac turns (beamLostAt (INJ s)) in
  let level := 100 * (1 - beamLostAt (INJ s)) in
  length (t_line fig) = turns /\ t_dotted fig = [(0%nat, level); (turns, level)] /\
  (forall t f, frac !! t = Some f <-> t_line fig !! t = Some (t, 100 * f)) /\
  length (List.filter (fun p : nat * R => if Rlt_dec level p.2 then true else false) (t_line fig)) = n /\
  (forall t y, (t, y) ∈ t_line fig -> (fst (t_xlim fig) <= t < snd (t_xlim fig))%nat /\ fst (t_ylim fig) <= y <= 100 /\ 100 < snd (t_ylim fig)).
Proof.
  intros H turns fig level. pose proof (C41_transmission _ _ _ _ _ _ _ H) as (_&HL&Hn&Z&s1&_&HF&_). fold turns in HL, HF.
  assert (E : t_line fig = imap (fun i f => (i, 100 * f)) frac).
  { unfold fig, plot_transmission. cbn [t_line]. apply imap_ext. intros i f _. by rewrite percent_R. }
  split; [by rewrite E, imap_length|]. split; [unfold fig, plot_transmission; cbn [t_dotted]; rewrite percent_R; num_R; done|]. split; [|split].
  - intros t f. rewrite E, list_lookup_imap. destruct (frac !! t) as [g|]; cbn; split; intros Hg; try done; injection Hg; intros; subst; [done|f_equal; lra].
  - rewrite E, Hn. apply (above_count frac (1 - beamLostAt (INJ s)) 0).
  - intros t y Hy. rewrite E in Hy. apply elem_of_lookup_imap in Hy as (i&f&[= -> ->]&Hi). pose proof (lookup_lt_Some _ _ _ Hi) as Hlt. rewrite HL in Hlt.
    destruct (HF i Hlt) as (f'&Hf'&_&Hb). rewrite Hi in Hf'. injection Hf' as <-. unfold fig, plot_transmission. cbn [t_xlim t_ylim fst snd]. change (nofnat 103) with (IZR 103). num_R. repeat split; try lia; lra.
Qed.

(** * C99: the map of the tune scan *)

(** the latest result recorded for the pair of settings [p] *)
Definition latest {A} (g : list ((nat * nat) * A)) (p : nat * nat) (o : option A) : Prop :=
  match o with
  | Some r => exists j, g !! j = Some (p, r) /\ forall i q, (i < j)%nat -> g !! i = Some q -> q.1 <> p
  | None => forall q, q ∈ g -> q.1 <> p
  end.
Lemma stored_latest (g : grid R) p : latest g p (stored g p).
Proof.
  unfold stored. induction g as [|[q r] g IH]; [intros q; by rewrite elem_of_nil|]. cbn [List.find fst]. destruct (bool_decide (q = p)) eqn:E.
  - apply bool_decide_eq_true in E as ->. exists 0%nat. split; [done|]. lia.
  - apply bool_decide_eq_false in E. destruct (List.find _ g) as [[q' r']|]; cbn [latest snd] in *.
    + destruct IH as (j&Hj&Hb). exists (S j). split; [done|]. intros [|i] x Hi Hx; [injection Hx as <-; done|]. eapply Hb; [|done]. lia.
    + intros x [->|Hx]%elem_of_cons; [done|]. by apply IH.
Qed.
(** what an image shows at horizontal position [x] and height [y]: the entry in row [y] and column [x] *)
Definition shown {A} (img : list (list A)) (x y : nat) : option A := row ← img !! y; row !! x.
Lemma shown_map {A} (f : nat -> nat -> A) n m x y : (y < n)%nat -> (x < m)%nat -> shown (map (fun a => map (f a) (seq 0 m)) (seq 0 n)) x y = Some (f y x).
Proof.
  intros Hy Hx. unfold shown. change (@map nat (list A)) with (@fmap list _ nat (list A)). rewrite list_lookup_fmap, lookup_seq_lt by done. cbn.
  change (@map nat A) with (@fmap list _ nat A). by rewrite list_lookup_fmap, lookup_seq_lt by done.
Qed.

(** [v] is [x] rounded to five decimals *)
Definition rounded5 (x v : R) : Prop := Rabs (v - x) <= / 200000 /\ exists z : Z, v = IZR z / 100000.
Lemma round5_spec x : rounded5 x (round5 x).
Proof.
  unfold round5. num_R. destruct (nround_spec (x * 100000)) as (z&->&Hz). split; [|by exists z].
  apply Rabs_inv in Hz. apply Rabs_le. split; lra.
Qed.
Lemma tick_labels_ok (rel : list R) l : tick_labels rel = Ok l ->
  exists a b c, l = [a; b; c] /\ forall k v, (k, v) ∈ combine (ticks (length rel)) l -> exists f, rel !! k = Some f /\ rounded5 (f - 1) v.
Proof.
  unfold tick_labels, ticks. intros H. apply rmap_ok in H. set (m := (length rel / 2)%nat) in *. set (e := (length rel - 1)%nat) in *. clearbody m e.
  inversion H as [|? a ? l1 H0 H1]; subst. inversion H1 as [|? b ? l2 H2 H3]; subst. inversion H3 as [|? c ? l3 H4 H5]; subst. inversion H5; subst.
  exists a, b, c. split; [done|]. intros k v Hk. cbn [combine] in Hk.
  assert (forall i x, (let? f := idx rel i in Ok (round5 (nsub f n1))) = Ok x -> exists f, rel !! i = Some f /\ rounded5 (f - 1) x) as D.
  { intros i x Hx. apply rbind_ok in Hx as (f&Hf&Hx). apply idx_ok in Hf. exists f. split; [done|].
    apply (f_equal (fun r => match r with Ok l => l | Err _ => 0 end)) in Hx. cbv beta iota in Hx. rewrite <- Hx. num_R. apply round5_spec. }
  rewrite !elem_of_cons in Hk. destruct Hk as [E|[E|[E|E%elem_of_nil]]]; [| | |done]; injection E as -> ->; auto.
Qed.

Section Scan.
  Variable w : world R.
  Variables (quads1 quads2 : list nat) (rel1 rel2 : list R) (target : R) (nparts nturns : nat) (full_scan : bool) (name1 name2 : string).
  Notation loop := (tune_loop w quads1 quads2 rel1 rel2 target nparts nturns full_scan).
  Notation drawn := (tune_loop_drawn w quads1 quads2 rel1 rel2 target nparts nturns full_scan name1 name2).

  (** the figures of a scan that went through the results [g], latest first: the first shows the first result only, the last all *)
  Definition figure_after (g : grid R) (n_before k : nat) (fig : scan_figure R * transmission_figure R) : Prop :=
    exists gk r lost, gk = drop (length g - n_before - S k) g /\ head gk = Some r /\ step_figures rel1 rel2 nturns name1 name2 gk r.2.2 lost = Ok fig.

  Lemma drawn_ok inds : forall g0 (s s' : sc R) o g figs, drawn inds g0 s = (Ok (o, g, figs), s') ->
    loop inds g0 s = (Ok (o, g), s') /\ exists new, g = new ++ g0 /\ length figs = length new /\ forall k fig, figs !! k = Some fig -> figure_after g (length g0) k fig.
  Proof.
    induction inds as [|[q1 q2] inds IH]; intros g0 s s' o g figs H; cbn [tune_loop_drawn] in H; cbn [tune_loop].
    { apply ret_ok in H as [E ->]. injection E as <- <- <-. split; [done|]. exists []. split; [done|]. split; [done|]. intros k fig; by rewrite lookup_nil. }
    apply bind_ok in H as (f1&u&H1&H). apply lift_ok in H1 as [H1 ->]. unfold bind at 1. unfold lift at 1. rewrite H1.
    apply bind_ok in H as (f2&u&H2&H). apply lift_ok in H2 as [H2 ->]. unfold bind at 1. unfold lift at 1. rewrite H2. cbv zeta in H |- *.
    apply bind_ok in H as ([]&s1&H3&H). unfold bind at 1. rewrite H3.
    apply bind_ok in H as (r&s2&H4&H). unfold bind at 1. rewrite H4.
    apply bind_ok in H as (inv&u&H5&H). apply lift_ok in H5 as [H5 ->]. unfold bind at 1. unfold lift at 1. rewrite H5.
    apply bind_ok in H as ([]&s3&H6&H). unfold bind at 1. rewrite H6.
    apply bind_ok in H as (s4&u&H7&H). apply get_ok in H7 as [-> ->].
    apply bind_ok in H as (fig&u&H7&H). apply lift_ok in H7 as [H7 ->].
    set (g1 := ((q1, q2), r) :: g0) in *.
    assert (K : forall rest s5, drawn inds g1 s3 = (Ok rest, s5) -> (o, g, figs) = (rest.1, fig :: rest.2) ->
      loop inds g1 s3 = (Ok (o, g), s5) /\ exists new, g = new ++ g0 /\ length figs = length new /\ forall k fig, figs !! k = Some fig -> figure_after g (length g0) k fig).
    { intros [[o' g'] figs'] s5 HR E. cbn in E. injection E as -> -> ->. destruct (IH _ _ _ _ _ _ HR) as (HL&new&->&HN&HF). split; [done|].
      exists (new ++ [((q1, q2), r)]). split; [by rewrite <- app_assoc|]. split; [rewrite app_length; cbn; lia|].
      intros [|k] fg Hk; cbn in Hk.
      - injection Hk as <-. exists g1, ((q1, q2), r), (beamLostAt (INJ s3)). split; [|done]. unfold g1. rewrite app_length. cbn [length].
        replace (length new + S (length g0) - length g0 - 1)%nat with (length new) by lia. by rewrite drop_app.
      - destruct (HF k fg Hk) as (gk&r'&lost&->&Hh&Hs). eexists _, r', lost. split; [|split; [exact Hh|exact Hs]]. unfold g1. rewrite app_length. cbn [length]. f_equal. lia. }
    destruct full_scan.
    - apply bind_ok in H as (rest&s5&HR&H). apply ret_ok in H as [E ->]. by eapply K.
    - apply bind_ok in H as (lst&u&H8&H). apply lift_ok in H8 as [H8 ->]. unfold bind at 1. unfold lift at 1. rewrite H8. destruct (nleb target lst).
      + apply bind_ok in H as ([]&s5&H9&H). unfold bind at 1. rewrite H9. apply ret_ok in H as [E ->]. injection E as <- <- <-. split; [done|].
        exists [((q1, q2), r)]. split; [done|]. split; [done|]. intros [|k] fg Hk; cbn in Hk; [|by destruct k]. injection Hk as <-.
        exists g1, ((q1, q2), r), (beamLostAt (INJ s3)). split; [|done]. unfold g1. cbn [length]. by replace (S (length g0) - length g0 - 1)%nat with 0%nat by lia.
      + apply bind_ok in H as (rest&s5&HR&H). apply ret_ok in H as [E ->]. by eapply K.
  Qed.

  (** Drawing changes neither the outcome of the scan nor the machine, and there is one figure for each pair of settings tried. *)
  Theorem C99_only_drawn inds (s s' : sc R) o g figs : drawn inds [] s = (Ok (o, g, figs), s') ->
    loop inds [] s = (Ok (o, g), s') /\ length figs = length g.
  Proof. intros H. apply drawn_ok in H as (H&new&->&HL&_). rewrite app_nil_r in H |- *. done. Qed.

  (** Where the scan without figures returns, the one with figures does, if there is a turn to show. *)
  Lemma tick_labels_runs (rel : list R) : rel <> [] -> exists l, tick_labels rel = Ok l.
  Proof.
    intros Hne. assert (0 < length rel)%nat as Hl by (destruct rel; [done|cbn; lia]). apply rmap_all. intros k Hk.
    assert (k < length rel)%nat as Hkl.
    { unfold ticks in Hk. rewrite !elem_of_cons in Hk. destruct Hk as [->|[->|[->|Hk%elem_of_nil]]]; [done| |lia|done]. apply Nat.div_lt; lia. }
    apply lookup_lt_is_Some_2 in Hkl as [f Hf]. rewrite (proj2 (idx_ok _ _ _) Hf). by eexists.
  Qed.
  Lemma drawn_runs inds : (0 < nturns)%nat -> forall g0 (s s' : sc R) r, loop inds g0 s = (Ok r, s') -> exists figs, drawn inds g0 s = (Ok (r, figs), s').
  Proof.
    intros Ht. induction inds as [|[q1 q2] inds IH]; intros g0 s s' rr H; cbn [tune_loop] in H; cbn [tune_loop_drawn].
    { apply ret_ok in H as [<- ->]. by exists []. }
    apply bind_ok in H as (f1&u&H1&H). apply lift_ok in H1 as [H1 ->]. unfold bind at 1. unfold lift at 1. rewrite H1.
    apply bind_ok in H as (f2&u&H2&H). apply lift_ok in H2 as [H2 ->]. unfold bind at 1. unfold lift at 1. rewrite H2. cbv zeta in H |- *.
    apply bind_ok in H as ([]&s1&H3&H). unfold bind at 1. rewrite H3.
    apply bind_ok in H as (r&s2&H4&H). unfold bind at 1. rewrite H4.
    apply bind_ok in H as (inv&u&H5&H). apply lift_ok in H5 as [H5 ->]. unfold bind at 1. unfold lift at 1. rewrite H5.
    apply bind_ok in H as ([]&s3&H6&H). unfold bind at 1. rewrite H6. unfold bind at 1, get at 1.
    set (g1 := ((q1, q2), r) :: g0) in *.
    assert (exists fig, step_figures rel1 rel2 nturns name1 name2 g1 r.2 (beamLostAt (INJ s3)) = Ok fig) as [fig Hfig].
    { unfold step_figures. assert (nturns =? 0 = false)%nat as -> by (apply Nat.eqb_neq; lia). unfold plot_scan.
      apply idx_ok in H1, H2. destruct (tick_labels_runs rel1) as [l1 ->]; [by intros ->|]. destruct (tick_labels_runs rel2) as [l2 ->]; [by intros ->|].
      cbn [rbind]. by eexists. }
    unfold bind at 1. unfold lift at 1. rewrite Hfig.
    assert (K : loop inds g1 s3 = (Ok rr, s') -> exists figs, (let! rest := drawn inds g1 in ret (rest.1, fig :: rest.2)) s3 = (Ok (rr, figs), s')).
    { intros HR. destruct (IH _ _ _ _ HR) as [figs HD]. unfold bind at 1. rewrite HD. by exists (fig :: figs). }
    destruct full_scan; [by apply K|].
    apply bind_ok in H as (lst&u&H8&H). apply lift_ok in H8 as [H8 ->]. unfold bind at 1. unfold lift at 1. rewrite H8. destruct (nleb target lst); [|by apply K].
    apply bind_ok in H as ([]&s5&H9&H). apply ret_ok in H as [<- <-]. unfold bind at 1. rewrite H9. by exists [fig].
  Qed.
  Theorem C99_drawing_returns inds (s s' : sc R) o g : (0 < nturns)%nat -> loop inds [] s = (Ok (o, g), s') ->
    exists figs, drawn inds [] s = (Ok (o, g, figs), s').
  Proof. intros Ht H. by apply drawn_runs. Qed.

  Lemma step_figures_ok g fr lost fig : step_figures rel1 rel2 nturns name1 name2 g fr lost = Ok fig ->
    exists l1 l2, tick_labels rel1 = Ok l1 /\ tick_labels rel2 = Ok l2 /\
      fig = (MkScanFigure (map (map (fmap percent)) (last_array (length rel1) (length rel2) g)) (turns_array (length rel1) (length rel2) g) name1 name2
               (combine (ticks (length rel1)) l1) (combine (ticks (length rel1)) l2), plot_transmission fr nturns lost).
  Proof.
    unfold step_figures. destruct (_ =? 0)%nat; [done|]. intros H. apply rbind_ok in H as (f&Hf&H). unfold plot_scan in Hf.
    apply rbind_ok in Hf as (l1&H1&Hf). apply rbind_ok in Hf as (l2&H2&Hf). exists l1, l2. split; [done|]. split; [done|].
    apply (f_equal (fun r => match r with Ok l => l | Err _ => f end)) in Hf. cbv beta iota in Hf. subst f.
    apply (f_equal (fun r => match r with Ok l => l | Err _ => fig end)) in H. cbv beta iota in H. done.
  Qed.

  (** The figure after step [k] shows at height [q1] and horizontal position [q2] the latest results so far with the first family at
      its setting [q1] and the second at its setting [q2]; the line below is the transmission of this step. *)
  Theorem C99_cells inds (s s' : sc R) o g figs k fig tfig : drawn inds [] s = (Ok (o, g, figs), s') -> figs !! k = Some (fig, tfig) ->
    let so_far := drop (length g - S k) g in
    (forall q1 q2, (q1 < length rel1)%nat -> (q2 < length rel2)%nat -> exists r, latest so_far (q1, q2) r /\
       shown (s_turns fig) q2 q1 = Some (fst <$> r) /\ shown (s_transmission fig) q2 q1 = Some (Rmult 100 <$> (r ≫= fun r => last r.2))) /\
    (exists r lost, head so_far = Some r /\ tfig = plot_transmission r.2.2 nturns lost).
  Proof.
    intros H Hk so_far. apply drawn_ok in H as (_&new&->&HL&HF). apply HF in Hk as (gk&r&lost&->&Hh&Hs). cbn [length] in *. rewrite Nat.sub_0_r in *. fold so_far in Hh, Hs.
    apply step_figures_ok in Hs as (l1&l2&_&_&E). injection E as -> ->. split; [|by exists r, lost].
    intros q1 q2 H1 H2. exists (stored so_far (q1, q2)). split; [apply stored_latest|]. split.
    - cbn [s_turns]. unfold turns_array. by rewrite (shown_map (fun a b => fst <$> stored so_far (a, b))).
    - cbn [s_transmission]. unfold last_array. change (@map (list (option R)) (list (option R))) with (@fmap list _ (list (option R)) (list (option R))). unfold shown. rewrite list_lookup_fmap.
      pose proof (shown_map (fun a b => stored so_far (a, b) ≫= (fun r => last r.2)) (length rel1) (length rel2) q2 q1 H1 H2) as E. unfold shown in E.
      destruct (_ !! q1) as [row|]; [|done]. cbn in E |- *. change (@map (option R) (option R)) with (@fmap list _ (option R) (option R)). rewrite list_lookup_fmap, E. cbn.
      by do 2 f_equal.
  Qed.

  (** Finding: the axes are exchanged.  The horizontal axis, along which the settings of the second family are laid out, carries the
      name of the first and the relative changes of the first; the vertical axis carries the name of the second family, and its
      labels stand at the positions of the ticks of the first. *)
  Theorem C99_finding_axes inds (s s' : sc R) o g figs k fig tfig : drawn inds [] s = (Ok (o, g, figs), s') -> figs !! k = Some (fig, tfig) ->
    s_xlabel fig = name1 /\ s_ylabel fig = name2 /\
    (forall x v, (x, v) ∈ s_xticks fig -> exists f, rel1 !! x = Some f /\ rounded5 (f - 1) v) /\
    map fst (s_xticks fig) = [0; length rel1 / 2; length rel1 - 1]%nat /\ map fst (s_yticks fig) = map fst (s_xticks fig) /\
    (forall i y v, s_yticks fig !! i = Some (y, v) -> exists j f, [0; length rel2 / 2; length rel2 - 1]%nat !! i = Some j /\ rel2 !! j = Some f /\ rounded5 (f - 1) v).
  Proof.
    intros H Hk. apply drawn_ok in H as (_&new&->&HL&HF). apply HF in Hk as (gk&r&lost&->&Hh&Hs).
    apply step_figures_ok in Hs as (l1&l2&H1&H2&E). injection E as -> ->. cbn [s_xlabel s_ylabel s_xticks s_yticks]. split; [done|]. split; [done|].
    apply tick_labels_ok in H1 as (a&b&c&->&D1). apply tick_labels_ok in H2 as (a'&b'&c'&->&D2). split; [exact D1|]. split; [done|]. split; [done|].
    intros i y v Hi. destruct i as [|[|[|i]]]; cbn in Hi; [..|by destruct i]; injection Hi as _ <-.
    - destruct (D2 0%nat a') as (f&Hf&Hr); [cbn; left|]. by exists 0%nat, f.
    - destruct (D2 (length rel2 / 2)%nat b') as (f&Hf&Hr); [cbn; right; left|]. by exists (length rel2 / 2)%nat, f.
    - destruct (D2 (length rel2 - 1)%nat c') as (f&Hf&Hr); [cbn; right; right; left|]. by exists (length rel2 - 1)%nat, f.
  Qed.
End Scan.

(** * C100: the RF scans *)

Section Rf.
  Variable w : world R.
  Variable line : list R -> list R -> list R -> res (option R * option R).
  Variable sine_fit : list (R * R * option R) -> res (sine R).
  Variable line_fit : list (R * R * option R) -> res (straight R).
  Variable root : (R -> R) -> R -> res (option R).


  Lemma million_R : (million : R) = 1000000.
  Proof. done. Qed.

  Lemma energy_turns_ok bpms (s s' : sc R) y : energy_shift_turns w line bpms s = (Ok y, s') -> energy_shift w line bpms s = (Ok y.1, s').
  Proof.
    unfold energy_shift_turns, energy_shift. intros H. apply bind_ok in H as (r&s1&H1&H). unfold bind at 1. rewrite H1. unfold bind at 1, get at 1. unfold bind at 1, get at 1 in H.
    destruct (negb _); [done|]. cbv zeta in H |- *. destruct (_ <? _)%nat.
    - apply ret_ok in H as [<- ->]. done.
    - apply bind_ok in H as (z&s2&H2&H). apply lift_ok in H2 as [H2 ->]. apply ret_ok in H as [<- ->]. unfold lift. by rewrite H2.
  Qed.
  Lemma energy_turns_back bpms (s s' : sc R) y : energy_shift w line bpms s = (Ok y, s') -> exists m, energy_shift_turns w line bpms s = (Ok (y, m), s').
  Proof.
    unfold energy_shift_turns, energy_shift. intros H. apply bind_ok in H as (r&s1&H1&H). unfold bind at 1. rewrite H1. unfold bind at 1, get at 1. unfold bind at 1, get at 1 in H.
    destruct (negb _); [done|]. cbv zeta in H |- *. destruct (_ <? _)%nat.
    - apply ret_ok in H as [<- ->]. by eexists.
    - apply lift_ok in H as [H ->]. unfold bind, lift. rewrite H. by eexists.
  Qed.

  (** the mean shift of every turn with respect to the first one, a number where all BPMs read this turn and the first *)
  Definition turn_means (r : Model_Beam.reading R) (nb nt : nat) (means : list (option R)) : Prop :=
    length means = nt /\ forall t m, means !! t = Some m -> forall v, m = Some v <->
      exists x0 xs, row r nb 0 = map Some x0 /\ row r nb t = map Some xs /\ xs <> [] /\ v = avg (zip_with Rminus xs x0).
  Lemma energy_means bpms (s s' : sc R) y means : energy_shift_turns w line bpms s = (Ok (y, means), s') ->
    exists r, bpm_reading w (Some bpms) false s = (Ok r, s') /\ turn_means r (length bpms) (nTurns (INJ s)) means.
  Proof.
    unfold energy_shift_turns. intros H. apply bind_ok in H as (r&s1&Hr&H). unfold bind at 1, get at 1 in H.
    assert (INJ s1 = INJ s) as Ei by (apply quiet_same, (pres_run _ _ _ _ _ (quiet_reading _ _ _) Hr)). rewrite Ei in H.
    destruct (negb _); [done|]. cbv zeta in H.
    set (nt := nTurns (INJ s)) in *. set (nb := length bpms) in *. set (rows := chunks nb nt (r_x r)) in *. set (row0 := default [] (rows !! 0%nat)) in *.
    assert (means = map (row_shift row0) rows /\ s' = s1) as [-> ->].
    { destruct (_ <? _)%nat; [by apply ret_ok in H as [[= _ <-] ->]|]. apply bind_ok in H as (z&s2&H2&H). apply lift_ok in H2 as [_ ->]. by apply ret_ok in H as [[= _ <-] ->]. }
    exists r. split; [done|]. split; [unfold rows; by rewrite map_length, chunks_length|]. intros t m Hm v.
    apply list_lookup_fmap_Some in Hm as (rw&Hrw&->). unfold rows in Hrw. rewrite chunks_lookup in Hrw. destruct (decide (t < nt)%nat) as [Ht|]; [|done]. injection Hrw as <-.
    assert (row0 = row r nb 0) as E0 by (unfold row0, rows; rewrite chunks_lookup, decide_True by lia; done). rewrite E0. fold (row r nb t). unfold row_shift. split.
    - destruct (no_gaps (row r nb 0)) as [x0|] eqn:F0; [|done]. destruct (no_gaps (row r nb t)) as [xs|] eqn:F1; [|done]. apply no_gaps_spec in F0, F1.
      destruct xs as [|x xs]; [done|]. intros E. exists x0, (x :: xs). split; [done|]. split; [done|]. split; [done|]. rewrite <- mean_avg.
      apply (f_equal (fun o => match o with Some q => q | None => 0 end)) in E. cbv beta iota in E. by rewrite <- E.
    - intros (x0&xs&H0&H1&Hne&->). rewrite (proj2 (no_gaps_spec _ _) H0), (proj2 (no_gaps_spec _ _) H1). destruct xs as [|x xs]; [done|]. by rewrite <- mean_avg.
  Qed.

  (** the latest shift that could be determined *)
  Definition latest_shift (ys : list (option R * option R)) (v : R) : Prop :=
    exists k e, ys !! k = Some (Some v, e) /\ forall j y, (k < j)%nat -> ys !! j = Some y -> y.1 = None.
  Lemma last_shift ys v : last (omap fst ys) = Some v -> latest_shift ys v.
  Proof.
    induction ys as [|[y e] ys IH] using rev_ind; [done|]. intros H. rewrite omap_app in H. cbn in H. destruct y as [y|]; cbn in H.
    - rewrite last_snoc in H. injection H as <-. exists (length ys), e. split; [by rewrite lookup_app_r, Nat.sub_diag by lia|]. intros j z Hj Hz. apply lookup_lt_Some in Hz. rewrite app_length in Hz. cbn in Hz. lia.
    - rewrite app_nil_r in H. destruct (IH H) as (k&e'&Hk&Hn). exists k, e'. split; [by apply lookup_app_l_Some|].
      intros j z Hj Hz. destruct (decide (j < length ys)%nat); [rewrite lookup_app_l in Hz by done; by eapply Hn|]. rewrite lookup_app_r in Hz by lia.
      destruct (j - length ys)%nat as [|i]; cbn in Hz; [by injection Hz as <-|by destruct i].
  Qed.

  (** one figure of the progress: what is drawn after the results [ys] of the first settings *)
  Definition progress_shows (tests : list R) (ys : list (option R * option R)) (means : list (option R)) (f : progress_figure R) : Prop :=
    (exists v, latest_shift ys v /\ length (p_dashed f) = length means /\ forall t p, p_dashed f !! t = Some p -> p = (t, 1000000 * (INR t * v))) /\
    p_dots f = imap (fun t m => (t, Rmult 1000000 <$> m)) means /\
    length (p_bars f) = length tests /\
    forall k x y e, p_bars f !! k = Some (x, y, e) -> tests !! k = Some x /\
      match ys !! k with Some m => y = Rmult 1000000 <$> m.1 /\ e = Rmult 1000000 <$> m.2 | None => y = None /\ e = None end.
  Lemma plot_progress_ok tests ys means f : (length ys <= length tests)%nat -> plot_progress tests ys means = Ok f -> progress_shows tests ys means f.
  Proof.
    intros HL. unfold plot_progress. destruct (last (omap fst ys)) as [v|] eqn:E; [|done]. intros H.
    apply (f_equal (fun r => match r with Ok l => l | Err _ => f end)) in H. cbv beta iota in H. subst f. split; [|split; [|split]]; cbn [p_dashed p_dots p_bars].
    - exists v. split; [by apply last_shift|]. split; [by rewrite imap_length|]. intros t p Hp. rewrite list_lookup_imap in Hp. destruct (means !! t); [|done]. cbn [fmap option_fmap option_map] in Hp.
      apply (f_equal (fun o => match o with Some q => q | None => p end)) in Hp. cbv beta iota in Hp. rewrite <- Hp, million_R, nofnat_R. num_R. f_equal. lra.
    - apply imap_ext. intros i m _. by rewrite million_R.
    - rewrite zip_with_length_l; [done|]. rewrite app_length, replicate_length. lia.
    - intros k x y e Hk. apply lookup_zip_with_Some in Hk as (x'&m&[= -> -> ->]&Hx&Hm). split; [done|]. rewrite ?million_R. destruct (decide (k < length ys)%nat) as [Hlt|Hge].
      + rewrite lookup_app_l in Hm by done. rewrite Hm. done.
      + rewrite lookup_app_r in Hm by lia. apply lookup_replicate in Hm as [-> _]. rewrite lookup_ge_None_2 by lia. done.
  Qed.

  (** [f] is drawn after [d] was tried, with the result [y], and all results so far were [ys] *)
  Definition drawn_after (cavs bpms : list nat) (param : string) (tests : list R) (ys : list (option R * option R)) (d : R) (y : option R * option R) (f : progress_figure R) : Prop :=
    exists (s0 s1 s2 : sc R) r means, set_cavity_setpoints cavs DFloat [d] param ADD s0 = (Ok tt, s1) /\ energy_shift w line bpms s1 = (Ok y, s2) /\
      bpm_reading w (Some bpms) false s1 = (Ok r, s2) /\ turn_means r (length bpms) (nTurns (INJ s1)) means /\ progress_shows tests ys means f.
  Lemma scan_drawn_ok cavs bpms param tests todo : forall done (s s' : sc R) ys figs, (length done + length todo <= length tests)%nat ->
    rf_scan_drawn w line cavs bpms param tests todo done s = (Ok (ys, figs), s') ->
    exists new, ys = done ++ new /\ rf_scan w line cavs bpms param todo s = (Ok new, s') /\ length figs = length todo /\
      forall k f, figs !! k = Some f -> exists d y, todo !! k = Some d /\ new !! k = Some y /\ drawn_after cavs bpms param tests (take (length done + S k) ys) d y f.
  Proof.
    induction todo as [|d todo IH]; intros dn s s' ys figs HL H; cbn [rf_scan_drawn] in H.
    { apply ret_ok in H as [E ->]. injection E as <- <-. exists []. rewrite app_nil_r. split; [done|]. split; [done|]. split; [done|]. intros k f; by destruct k. }
    apply bind_ok in H as ([]&s1&H1&H). apply bind_ok in H as (y&s2&H2&H). apply bind_ok in H as ([]&s3&H3&H). apply bind_ok in H as (f&u&H4&H). apply lift_ok in H4 as [H4 ->].
    apply bind_ok in H as ([ys' figs']&s4&H5&H). apply ret_ok in H as [E ->]. cbn in E. injection E as <- <-.
    cbn [length] in HL. apply plot_progress_ok in H4; [|rewrite app_length; cbn; lia].
    destruct (IH (dn ++ [y.1]) s3 s4 ys' figs') as (new&->&HS&HN&HF); [rewrite app_length; cbn; lia|done|].
    exists (y.1 :: new). rewrite <- app_assoc. split; [done|]. split.
    { unfold rf_scan in HS |- *. cbn [mapM]. unfold bind at 1. unfold bind at 1. rewrite H1. unfold bind at 1. rewrite (energy_turns_ok _ _ _ _ H2). unfold bind at 1. rewrite H3. unfold ret at 1.
      unfold bind at 1. rewrite HS. done. }
    split; [cbn; by rewrite HN|]. intros [|k] fg Hk; cbn in Hk.
    - injection Hk as <-. exists d, y.1. split; [done|]. split; [done|]. replace (take (length dn + 1) (dn ++ [y.1] ++ new)) with (dn ++ [y.1]) by (rewrite app_assoc, take_app_alt; [done|by rewrite app_length]).
      destruct y as [y means]. destruct (energy_means _ _ _ _ _ H2) as (r&Hr&Hm). exists s, s1, s2, r, means. split; [done|]. split; [exact (energy_turns_ok _ _ _ _ H2)|]. done.
    - destruct (HF k fg Hk) as (d'&y'&Hd'&Hy'&Hm). exists d', y'. split; [done|]. split; [done|]. rewrite app_length in Hm. cbn [length] in Hm. replace (length dn + 1 + S k)%nat with (length dn + S (S k))%nat in Hm by lia.
      rewrite <- app_assoc in Hm. exact Hm.
  Qed.

  (** Showing the progress changes neither the results of the scan nor the machine; there is one figure for each setting, and the
      figure after setting [k] shows the results up to [k] in micrometres over the settings, with nothing for those to come, and a
      dashed line through the origin whose slope is the latest shift that could be determined; the dots are the mean shifts turn by
      turn in the reading this result was taken from. *)
  Theorem C100_progress cavs bpms param tests (s s' : sc R) ys figs : rf_scan_drawn w line cavs bpms param tests tests [] s = (Ok (ys, figs), s') ->
    rf_scan w line cavs bpms param tests s = (Ok ys, s') /\ length figs = length tests /\
    forall k f, figs !! k = Some f -> exists d y, tests !! k = Some d /\ ys !! k = Some y /\ drawn_after cavs bpms param tests (take (S k) ys) d y f.
  Proof. intros H. apply scan_drawn_ok in H as (new&->&HS&HN&HF); [|cbn; lia]. done. Qed.

  (** Finding: without figures a setting at which the beam does not survive three turns only leaves a gap in the data; with figures
      the scan fails with an IndexError if this happens at the first setting - after the setting was taken back. *)
  Theorem C100_finding_first_lost cavs bpms param d tests e ys (s s' s1 s2 s3 : sc R) :
    set_cavity_setpoints cavs DFloat [d] param ADD s = (Ok tt, s1) -> energy_shift w line bpms s1 = (Ok (None, e), s2) ->
    set_cavity_setpoints cavs DFloat [- d] param ADD s2 = (Ok tt, s3) ->
    rf_scan w line cavs bpms param (d :: tests) s = (Ok ys, s') ->
    rf_scan_drawn w line cavs bpms param (d :: tests) (d :: tests) [] s = (Err IndexError, s3).
  Proof.
    intros H1 H2 H3 _. cbn [rf_scan_drawn]. unfold bind at 1. rewrite H1. apply energy_turns_back in H2 as [m H2]. unfold bind at 1. rewrite H2. unfold bind at 1.
    change (nopp d) with (- d). rewrite H3. done.
  Qed.
  (** If the first shift can be determined, showing the progress cannot fail where the plain scan does not. *)
  Lemma scan_drawn_runs cavs bpms param tests todo : forall done (s s' : sc R) new, rf_scan w line cavs bpms param todo s = (Ok new, s') ->
    (exists y, y ∈ done ++ take 1 new /\ y.1 <> None) -> exists figs, rf_scan_drawn w line cavs bpms param tests todo done s = (Ok (done ++ new, figs), s').
  Proof.
    induction todo as [|d todo IH]; intros dn s s' new H Hy.
    { unfold rf_scan in H. cbn [mapM] in H. apply ret_ok in H as [<- ->]. rewrite app_nil_r. by exists []. }
    unfold rf_scan in H. cbn [mapM] in H. apply bind_ok in H as (y&s3&H&HR). apply bind_ok in H as ([]&s1&H1&H). apply bind_ok in H as (y'&s2&H2&H). apply bind_ok in H as ([]&s4&H3&H).
    apply ret_ok in H as [<- <-]. apply bind_ok in HR as (rest&s5&HR&H). apply ret_ok in H as [<- ->].
    apply energy_turns_back in H2 as [m H2]. cbn [rf_scan_drawn]. unfold bind at 1. rewrite H1. unfold bind at 1. rewrite H2. unfold bind at 1. rewrite H3. cbn [fst snd].
    cbn [take] in Hy. assert (exists f, plot_progress tests (dn ++ [y']) m = Ok f) as [f Hf].
    { unfold plot_progress. destruct (last (omap fst (dn ++ [y']))) as [v|] eqn:E; [by eexists|]. exfalso. apply last_None in E. destruct Hy as (z&Hz&Hne). apply Hne.
      destruct z.1 as [v|] eqn:Ez; [|done]. assert (v ∈ omap fst (dn ++ [y'])) as Hv by (apply elem_of_list_omap; exists z; split; [by rewrite take_0 in Hz|done]). rewrite E in Hv. by apply elem_of_nil in Hv. }
    unfold bind at 1, lift at 1. rewrite Hf. destruct (IH (dn ++ [y']) s3 s5 rest) as [figs HD]; [exact HR| |].
    { destruct Hy as (z&Hz&Hne). exists z. split; [|done]. rewrite take_0 in Hz. apply elem_of_app. by left. }
    unfold bind at 1. rewrite HD. cbn. rewrite <- app_assoc. by exists (f :: figs).
  Qed.
  Theorem C100_progress_shown cavs bpms param tests v e ys (s s' : sc R) :
    rf_scan w line cavs bpms param tests s = (Ok ((Some v, e) :: ys), s') ->
    exists figs, rf_scan_drawn w line cavs bpms param tests tests [] s = (Ok ((Some v, e) :: ys, figs), s').
  Proof. intros H. eapply scan_drawn_runs in H as [figs HD]; [exists figs; exact HD|]. exists (Some v, e). split; [cbn; by left|done]. Qed.
  Lemma shown_ok progress cavs bpms param tests (s s' : sc R) ys : rf_scan_shown w line progress cavs bpms param tests s = (Ok ys, s') -> rf_scan w line cavs bpms param tests s = (Ok ys, s').
  Proof.
    unfold rf_scan_shown. destruct progress; [|done]. intros H. apply bind_ok in H as ([ys' figs]&s1&H&H1). apply ret_ok in H1 as [<- ->]. by apply C100_progress in H as [H _].
  Qed.

  (** what the final figure of a scan shows: the measured points and the fitted curve over the settings, the fitted value without
      correction, and the correction at height zero *)
  Definition results_show (data : list (R * R * option R)) (fitted : R -> R) (d : R) (to_axis : R -> R) (fig : results_figure R) : Prop :=
    r_measured fig = map (fun p => (to_axis p.1.1, 1000000 * p.1.2, Rmult 1000000 <$> p.2)) data /\
    r_fit fig = map (fun p => (to_axis p.1.1, 1000000 * fitted p.1.1)) data /\
    r_initial fig = (0, 1000000 * fitted 0) /\ r_corrected fig = (to_axis d, 0).

  (** The final figure of the phase scan: nothing is changed by drawing it; it shows the data the correction was taken from over the
      phase in degrees, between -180 and 180; and the mark of the correction stands on the fitted curve if the solver found a zero
      of it. *)
  Theorem C100_phase progress cavs bpms n (s s' : sc R) fig : let C := used (oRF (ORD s)) cavs in let B := used (oBPM (ORD s)) bpms in
    NoDup C -> correct_rf_phase_drawn w line sine_fit root progress cavs bpms n s = (Ok fig, s') ->
    correct_rf_phase w line sine_fit root cavs bpms n s = (Ok tt, s') /\
    exists c freq lamb tests ys data f x d,
      C !! 0%nat = Some c /\ number s c "FrequencySetPoint" = Some freq /\ freq <> 0 /\ lamb = 299792458 / freq /\
      evenly (- lamb / 2) (lamb / 2) n tests /\ scanned (measures w line B) "TimeLag" C s tests ys /\ data_of tests ys data /\
      sine_fit (map (fun p => (p.1.1 / lamb, p.1.2, p.2)) data) = Ok f /\
      let fitted x := f_a f * sin (2 * PI * (x / lamb) + f_b f) + f_c f in
      (exists start, root fitted start = Ok (Some x)) /\ moved_by "TimeLag" C d s s' /\
      results_show data fitted d (fun x => 360 / lamb * x) fig /\
      (0 < lamb -> (forall p, p ∈ r_measured fig -> -180 <= p.1.1 <= 180) /\ -180 < (r_corrected fig).1 <= 180 /\ (fitted x = 0 -> fitted d = 0)).
  Proof.
    intros C B Hnd H. unfold correct_rf_phase_drawn in H. unfold correct_rf_phase. unfold bind at 1, get at 1. unfold bind at 1, get at 1 in H.
    apply bind_ok in H as ([c b]&s1&H1&H). apply lift_ok in H1 as [H1 ->]. unfold bind at 1. unfold lift at 1. rewrite H1.
    apply inputs_ok in H1 as (->&->&HA). fold C in H |- *. fold B in H |- *.
    apply bind_ok in H as (lamb&s1&Hl&H). apply lift_ok in Hl as [Hl ->]. unfold bind at 1. unfold lift at 1. rewrite Hl.
    apply rbind_ok in Hl as (c&Hc&Hl). apply rbind_ok in Hl as (e&He&Hl). apply rbind_ok in Hl as (freq&Hfreq&Hl).
    apply idx_ok in Hc, He. apply attr_num_ok in Hfreq. apply qdivR_ok in Hl as [El Hne]. change (nofZ SPEED_OF_LIGHT) with 299792458 in El.
    cbv zeta in H |- *. apply bind_ok in H as (ys&s1&Hs&H). apply shown_ok in Hs. unfold bind at 1. rewrite Hs.
    match type of Hs with rf_scan _ _ _ _ _ ?t _ = _ => remember t as tests eqn:Et end.
    apply scan_ok in Hs as [M1 F]; [|done|]; [|subst tests; destruct HA as (_&_&Hn&_); eapply tests_ne; [unfold linspace; rewrite map_length; apply seq_length|done]].
    apply bind_ok in H as (data&s2&Hd&H). apply lift_ok in Hd as [Hd ->]. unfold bind at 1. unfold lift at 1. rewrite Hd.
    apply bind_ok in H as (f&s2&Hf&H). apply lift_ok in Hf as [Hf ->]. unfold bind at 1. unfold lift at 1. rewrite Hf.
    unfold check_data in Hd. destruct (_ <? _)%nat eqn:E3; [done|]. apply (f_equal (fun r => match r with Ok l => l | Err _ => [] end)) in Hd. cbv beta iota in Hd.
    destruct (nltb (nabs (f_a f)) _); [apply bind_ok in H as (?&?&_&H); done|].
    apply bind_ok in H as (k&s2&Hk&H). apply lift_ok in Hk as [Hk ->]. unfold bind at 1. unfold lift at 1. rewrite Hk.
    apply bind_ok in H as (x&s2&Hx&H). apply lift_ok in Hx as [Hx ->]. unfold bind at 1. unfold lift at 1. rewrite Hx.
    destruct (imprecise _ _ _ _); [apply bind_ok in H as (?&?&_&H); done|]. destruct x as [x|]; [|done].
    apply bind_ok in H as ([]&s2&Hset&H). split; [rewrite Hset|].
    { apply bind_ok in H as (sc&s3&Hsc&H). apply lift_ok in Hsc as [_ ->]. by apply ret_ok in H as [_ ->]. }
    apply bind_ok in H as (sc&s3&Hsc&H). apply lift_ok in Hsc as [Hsc ->]. apply ret_ok in H as [Hfig ->]. apply qdivR_ok in Hsc as [-> Hlamb]. change (nofnat 360) with 360 in Hfig.
    assert (EV : evenly (- lamb / 2) (lamb / 2) n tests).
    { subst tests. replace (- lamb / 2) with (lamb * nopp nhalf) by (unfold nhalf, ntwo; num_R; field). replace (lamb / 2) with (lamb * nhalf) by (unfold nhalf, ntwo; num_R; field). apply evenly_scale, linspace_evenly. }
    exists c, freq, lamb, tests, ys, data, f, x, (fold_phase x lamb). split; [done|]. split; [unfold number, attr_at; rewrite He; simpl; by rewrite Hfreq|]. split; [done|]. split; [done|]. split; [exact EV|].
    split; [done|]. split; [rewrite <- Hd; apply usable_data; symmetry; by eapply Forall2_length|]. split; [exact Hf|]. set (fitted := fun x => f_a f * sin (2 * PI * (x / lamb) + f_b f) + f_c f).
    split; [eexists; exact Hx|]. split; [eapply moved_0_pre; [exact M1|]; by apply move_ok|].
    assert (RS : results_show data fitted (fold_phase x lamb) (fun x => 360 / lamb * x) fig).
    { rewrite <- Hfig. unfold results_show, plot_results. cbn [r_measured r_fit r_initial r_corrected]. rewrite !million_R. num_R. split; [done|]. split; [done|]. split; [f_equal; lra|f_equal; lra]. }
    split; [exact RS|]. intros Hpos. destruct RS as (RM&_&_&RC). destruct (C50_folded x lamb Hpos) as [HB [z Hz]].
    assert (D : forall y, - lamb / 2 <= y <= lamb / 2 -> -180 <= 360 / lamb * y <= 180).
    { intros y [Y1 Y2]. assert (0 < 360 / lamb) as Hi by (apply Rdiv_lt_0_compat; lra). split.
      - replace (-180) with (360 / lamb * (- lamb / 2)) by (field; lra). apply Rmult_le_compat_l; lra.
      - replace 180 with (360 / lamb * (lamb / 2)) by (field; lra). apply Rmult_le_compat_l; lra. }
    split; [|split].
    - intros p Hp. rewrite RM in Hp. apply elem_of_list_fmap in Hp as (q&->&Hq). cbn [fst]. apply D. rewrite <- Hd in Hq. unfold usable in Hq.
      apply elem_of_list_omap in Hq as ([t [y e']]&Hin&Hq). destruct y as [y|]; [|done]. cbn in Hq. injection Hq as <-. cbn [fst].
      apply elem_of_list_lookup in Hin as [i Hi]. apply lookup_zip_with_Some in Hi as (t'&y'&[= <- <-]&Ht&_). destruct EV as [LV EV]. pose proof (EV _ _ Ht) as ->.
      destruct HA as (_&_&Hn&_). apply lookup_lt_Some in Ht. rewrite LV in Ht. assert (0 < INR (n - 1)) as Hn1 by (apply lt_0_INR; lia). pose proof (pos_INR i) as Hi0.
      assert (INR i <= INR (n - 1)) as Hi1 by (apply le_INR; lia).
      assert (0 <= INR i / INR (n - 1) <= 1) as [Q0 Q1].
      { split; [apply Rmult_le_pos; [done|left; by apply Rinv_0_lt_compat]|]. apply Rmult_le_reg_r with (INR (n - 1)); [done|]. unfold Rdiv. rewrite Rmult_assoc, Rinv_l by lra. lra. }
      set (q := INR i / INR (n - 1)) in *. replace (INR i * ((lamb / 2 - - lamb / 2) / INR (n - 1))) with (q * lamb) by (unfold q; field; lra).
      split; [|assert (q * lamb <= 1 * lamb) by (apply Rmult_le_compat_r; lra); lra]. assert (0 <= q * lamb) by (apply Rmult_le_pos; lra). lra.
    - rewrite RC. cbn [fst]. destruct HB as [B1 B2]. split; [|apply D; lra]. assert (0 < 360 / lamb) as Hi by (apply Rdiv_lt_0_compat; lra).
      replace (-180) with (360 / lamb * (- lamb / 2)) by (field; lra). apply Rmult_lt_compat_l; lra.
    - intros Hr. rewrite <- Hr. unfold fitted. f_equal. f_equal. rewrite Hz. replace (2 * PI * ((x + IZR z * lamb) / lamb) + f_b f) with (2 * PI * (x / lamb) + f_b f + 2 * IZR z * PI) by (field; lra).
      destruct (Z_le_gt_dec 0 z) as [Hz0|Hz0].
      + rewrite <- (Z2Nat.id z) by done. rewrite <- INR_IZR_INZ. apply sin_period.
      + set (m := Z.to_nat (- z)). replace (IZR z) with (- INR m) by (unfold m; rewrite INR_IZR_INZ, Z2Nat.id by lia; rewrite opp_IZR; lra).
        rewrite <- (sin_period (2 * PI * (x / lamb) + f_b f + 2 * - INR m * PI) m). f_equal. lra.
  Qed.

  (** The final figure of the frequency scan, over the frequency in kHz: the mark of the correction stands on the fitted line, unless
      the measurement was not precise enough: then it stands at the origin. *)
  Theorem C100_frequency progress cavs bpms n f0 f1 (s s' : sc R) fig : let C := used (oRF (ORD s)) cavs in let B := used (oBPM (ORD s)) bpms in
    NoDup C -> correct_rf_frequency_drawn w line line_fit progress cavs bpms n f0 f1 s = (Ok fig, s') ->
    correct_rf_frequency w line line_fit cavs bpms n f0 f1 s = (Ok tt, s') /\
    exists tests ys data f d,
      evenly f0 f1 n tests /\ scanned (measures w line B) "Frequency" C s tests ys /\ data_of tests ys data /\ line_fit data = Ok f /\
      let fitted x := g_a f * x + g_b f in
      moved_by "Frequency" C d s s' /\ results_show data fitted d (fun x => x / 1000) fig /\
      (fitted d = 0 \/ d = 0 /\ (Rabs (g_a f) < 2 * R_sqrt.sqrt (g_va f) \/ Rabs (g_b f) < 2 * R_sqrt.sqrt (g_vb f))).
  Proof.
    intros C B Hnd H. unfold correct_rf_frequency_drawn in H. unfold correct_rf_frequency. unfold bind at 1, get at 1. unfold bind at 1, get at 1 in H.
    apply bind_ok in H as ([c b]&s1&H1&H). apply lift_ok in H1 as [H1 ->]. unfold bind at 1. unfold lift at 1. rewrite H1.
    apply inputs_ok in H1 as (->&->&HA). fold C in H |- *. fold B in H |- *. cbv zeta in H |- *.
    apply bind_ok in H as (ys&s1&Hs&H). apply shown_ok in Hs. unfold bind at 1. rewrite Hs.
    apply scan_ok in Hs as [M1 F]; [|done|]; [|destruct HA as (_&_&Hn&_); unfold linspace; eapply tests_ne; [apply seq_length|done]].
    apply bind_ok in H as (data&s2&Hd&H). apply lift_ok in Hd as [Hd ->]. unfold bind at 1. unfold lift at 1. rewrite Hd.
    apply bind_ok in H as (f&s2&Hf&H). apply lift_ok in Hf as [Hf ->]. unfold bind at 1. unfold lift at 1. rewrite Hf.
    apply bind_ok in H as (d&s2&Hq&H). apply lift_ok in Hq as [Hq ->]. unfold bind at 1. unfold lift at 1. rewrite Hq.
    apply bind_ok in H as ([]&s2&Hset&H). apply ret_ok in H as [Hfig ->]. split; [exact Hset|].
    exists (linspace f0 f1 n), ys, data, f, d. split; [apply linspace_evenly|]. split; [done|].
    unfold check_data in Hd. destruct (_ <? _)%nat eqn:E3; [done|]. apply (f_equal (fun r => match r with Ok l => l | Err _ => [] end)) in Hd. cbv beta iota in Hd. subst data.
    split; [apply usable_data; symmetry; by eapply Forall2_length|]. split; [done|]. set (fitted := fun x => g_a f * x + g_b f). split; [eapply moved_0_pre; [exact M1|]; by apply move_ok|]. split.
    - rewrite <- Hfig. unfold results_show, plot_results. cbn [r_measured r_fit r_initial r_corrected]. rewrite !million_R. num_R. unfold fitted.
      split; [apply map_ext; intros p; do 2 f_equal; lra|]. split; [apply map_ext; intros p; f_equal; lra|]. split; f_equal; lra.
    - unfold imprecise, ntwo in Hq. num_R. change (@nsqrt R _) with R_sqrt.sqrt in Hq. change (1 + 1) with 2 in Hq.
      destruct (Rltb (Rabs (g_a f)) _) eqn:E1; simpl in Hq; [right; injection Hq as <-; split; [done|]; left; by apply Rltb_true in E1|].
      destruct (Rltb (Rabs (g_b f)) _) eqn:E2; simpl in Hq; [right; injection Hq as <-; split; [done|]; right; by apply Rltb_true in E2|].
      left. apply qdivR_ok in Hq as [-> Hne]. unfold fitted. field. done.
  Qed.
  (** Where the corrections without the final figure return, those with it do. *)
  Theorem C100_phase_returned cavs bpms n (s s' : sc R) : correct_rf_phase w line sine_fit root cavs bpms n s = (Ok tt, s') ->
    exists fig, correct_rf_phase_drawn w line sine_fit root false cavs bpms n s = (Ok fig, s').
  Proof.
    unfold correct_rf_phase, correct_rf_phase_drawn, rf_scan_shown. intros H.
    apply bind_ok in H as (s0&u&H1&H). apply get_ok in H1 as [-> ->]. unfold bind at 1, get at 1.
    apply bind_ok in H as ([C B]&u&H1&H). apply lift_ok in H1 as [H1 ->]. unfold bind at 1. unfold lift at 1. rewrite H1.
    apply bind_ok in H as (lamb&u&H2&H). apply lift_ok in H2 as [H2 ->]. unfold bind at 1. unfold lift at 1. rewrite H2. cbv zeta in H |- *.
    apply bind_ok in H as (ys&s1&H3&H). unfold bind at 1. rewrite H3.
    apply bind_ok in H as (data&u&H4&H). apply lift_ok in H4 as [H4 ->]. unfold bind at 1. unfold lift at 1. rewrite H4.
    apply bind_ok in H as (f&u&H5&H). apply lift_ok in H5 as [H5 ->]. unfold bind at 1. unfold lift at 1. rewrite H5.
    destruct (nltb (nabs (f_a f)) (nabs (f_c f))); [by apply bind_ok in H as (?&?&_&H)|].
    apply bind_ok in H as (k&u&H6&H). apply lift_ok in H6 as [H6 ->]. unfold bind at 1. unfold lift at 1. rewrite H6.
    apply bind_ok in H as (x&u&H7&H). apply lift_ok in H7 as [H7 ->]. unfold bind at 1. unfold lift at 1. rewrite H7.
    destruct (imprecise _ _ _ _); [by apply bind_ok in H as (?&?&_&H)|]. destruct x as [x|]; [|done].
    unfold bind at 1. rewrite H. apply rbind_ok in H2 as (c&_&H2). apply rbind_ok in H2 as (e&_&H2). apply rbind_ok in H2 as (fr&_&H2).
    apply qdivR_ok in H2 as [-> Hfr]. unfold bind at 1. unfold lift at 1. destruct (qdiv _ _) as [sc|er] eqn:E; [by eexists|]. exfalso.
    unfold qdiv in E. destruct (neqb _ n0) eqn:E0; [|done]. rewrite neqb_R in E0. apply Reqb_true in E0. unfold SPEED_OF_LIGHT in E0. revert E0. num_R. intros E0.
    apply Rmult_integral in E0 as [E0|E0]; [lra|]. by apply Rinv_neq_0_compat in E0.
  Qed.
  Theorem C100_frequency_returned cavs bpms n f0 f1 (s s' : sc R) : correct_rf_frequency w line line_fit cavs bpms n f0 f1 s = (Ok tt, s') ->
    exists fig, correct_rf_frequency_drawn w line line_fit false cavs bpms n f0 f1 s = (Ok fig, s').
  Proof.
    unfold correct_rf_frequency, correct_rf_frequency_drawn, rf_scan_shown. intros H.
    apply bind_ok in H as (s0&u&H1&H). apply get_ok in H1 as [-> ->]. unfold bind at 1, get at 1.
    apply bind_ok in H as ([C B]&u&H1&H). apply lift_ok in H1 as [H1 ->]. unfold bind at 1. unfold lift at 1. rewrite H1. cbv zeta in H |- *.
    apply bind_ok in H as (ys&s1&H3&H). unfold bind at 1. rewrite H3.
    apply bind_ok in H as (data&u&H4&H). apply lift_ok in H4 as [H4 ->]. unfold bind at 1. unfold lift at 1. rewrite H4.
    apply bind_ok in H as (f&u&H5&H). apply lift_ok in H5 as [H5 ->]. unfold bind at 1. unfold lift at 1. rewrite H5.
    apply bind_ok in H as (d&u&H6&H). apply lift_ok in H6 as [H6 ->]. unfold bind at 1. unfold lift at 1. rewrite H6.
    unfold bind at 1. rewrite H. by eexists.
  Qed.
End Rf.
Print Assumptions C99_transmission.
Print Assumptions C99_only_drawn.
Print Assumptions C99_drawing_returns.
Print Assumptions C99_cells.
Print Assumptions C99_finding_axes.
Print Assumptions C100_progress.
Print Assumptions C100_finding_first_lost.
Print Assumptions C100_progress_shown.
Print Assumptions C100_phase.
Print Assumptions C100_frequency.
Print Assumptions C100_phase_returned.
Print Assumptions C100_frequency_returned.

(** * Cases *)
Local Open Scope Q_scope.

(** The machine of C52 with five settings of the second family: the third point is reached with both families above nominal. *)
#[local] Existing Instance TrigQ2.
Definition five : list Q := [1#4; 1#2; 1; 3#2; 2].
Definition drawn_run := tune_loop_drawn tune_world [1%nat] [2%nat] factors five 1 1 3 false "QF" "QD" [(1, 2); (0, 0); (1, 4); (2, 2)]%nat [] early.
Example C99_case :
  match fst drawn_run with
  | Ok (o, g, figs) => o = Some (1, 2) /\ length g = 3%nat /\ length figs = 3%nat /\
      match figs !! 2%nat with
      | Some (fig, tfig) =>
          s_turns fig = [[Some 0; None; None; None; None]; [None; None; Some 2; None; Some 3]; [None; None; None; None; None]]%nat /\
          s_transmission fig = [[Some 0; None; None; None; None]; [None; None; Some 0; None; Some 100]; [None; None; None; None; None]] /\
          t_line tfig = [(0%nat, 100); (1%nat, 100); (2%nat, 100)] /\ t_dotted tfig = [(0%nat, 50); (3%nat, 50)]
      | None => False
      end
  | Err _ => False
  end.
Proof. vm_compute. repeat split. Qed.
(** the best cell is in column 4, but the horizontal axis, named after the first family, is labelled only up to column 2; the label of
    the last setting of the second family stands at height 2 *)
Example C99_finding_case :
  match fst drawn_run with
  | Ok (_, _, (fig, _) :: _) => s_xlabel fig = "QF" /\ s_ylabel fig = "QD" /\
      s_xticks fig = [(0%nat, -1#2); (1%nat, 0); (2%nat, 1#2)] /\ s_yticks fig = [(0%nat, -3#4); (1%nat, 0); (2%nat, 1)]
  | _ => False
  end.
Proof. vm_compute. repeat split. Qed.

(** C51's frequency scan with figures: the corrected mark stands at 3 Hz, where the fitted line crosses zero. *)
Example C100_case_frequency :
  let run := correct_rf_frequency_drawn rf_world ends (ends_fit 0) true None None 6 (-10) 10 rf_machine in
  match fst run with
  | Ok fig => r_corrected fig = (3#1000, 0) /\ length (r_measured fig) = 6%nat /\ length (r_fit fig) = 6%nat /\ r_initial fig = (0, -3000000)
  | Err _ => False
  end /\ number (snd run) 1 "FrequencySetPoint" = Some 503.
Proof. vm_compute. repeat split. Qed.
(** the phase scan: a root three quarters of a wavelength away is drawn at -90 degrees *)
Example C100_case_phase :
  let run := correct_rf_phase_drawn rf_world ends (a_sine 0) (fun _ _ => Ok (Some (Qred ((3#4) * wavelength)))) false None None 6 rf_machine in
  match fst run with
  | Ok fig => r_corrected fig = (-90, 0) /\ map (fun p => p.1.1) (r_measured fig) = [-180; -108; -36; 36; 108; 180]
  | Err _ => False
  end.
Proof. vm_compute. repeat split. Qed.
(** the progress after the second of three settings: the third is still open *)
Example C100_case_progress :
  match fst (rf_scan_drawn rf_world ends [1%nat] [0%nat] "Frequency" [-1; 0; 1] [-1; 0; 1] [] rf_machine) with
  | Ok (ys, figs) => length ys = 3%nat /\
      match figs !! 1%nat with
      | Some f => map (fun p => p.1.2) (p_bars f) = [Some (-4000000); Some (-3000000); None] /\
          p_dashed f = [(0%nat, 0); (1%nat, -3000000); (2%nat, -6000000); (3%nat, -9000000)]
      | None => False
      end
  | Err _ => False
  end.
Proof. vm_compute. repeat split. Qed.
(** below 502 the beam is lost at once: the plain scan leaves a gap, the one with figures fails *)
Definition rf_world_lossy : world Q :=
  MkWorld (fun ring a b d c p r t =>
      match (e ← ring !! 1%nat; e !! "Frequency") with
      | Some (VNum x) => if Qle_bool 500 x then w_track rf_world ring a b d c p r t else None
      | _ => None end)
    (fun _ _ _ _ => None) (fun _ => ([], [])) (fun Z => Z).
Example C100_finding_case :
  match fst (rf_scan rf_world_lossy ends [1%nat] [0%nat] "Frequency" [-1; 0; 1] rf_machine) with Ok ys => map fst ys = [None; Some (-3); Some (-2)] | _ => False end /\
  fst (rf_scan_drawn rf_world_lossy ends [1%nat] [0%nat] "Frequency" [-1; 0; 1] [-1; 0; 1] [] rf_machine) = Err IndexError.
Proof. vm_compute. repeat split. Qed.
