(** C102: at which phase advance an alignment measures. *)
From Coq Require Import Reals Lra Lia QArith ZArith.
From stdpp Require Import base gmap strings list.
From Verif Require Import Num Base Examples Model_Arr Model_SC Model_Err Model_Beam Model_Orbit Model_Scan Model_Stats Model_Bba Lemmas Proofs_Update Proofs_Setpoint Proofs_Loop2 Proofs_Field Proofs_Beam Spec Proofs_CM Proofs_CM2 Properties_Setpoint3 Properties_Setpoint Properties_Setpoint4 Properties_Field Properties_Beam Properties_Orbit Properties_Thread Properties_Rf Properties_Loco2 Properties_Stats Properties_Bba Properties_Bba2 Properties_Bba3 Properties_Tight8.
Local Open Scope string_scope.
Local Open Scope list_scope.
Local Open Scope R_scope.

(** * Specification *)

(** [k]: the first of the largest ranges; but a missing range counts as larger than any number, the first missing one is taken *)
Definition chosen (ranges : list (option R)) (k : nat) : Prop :=
  (ranges !! k = Some None /\ forall j, (j < k)%nat -> exists x, ranges !! j = Some (Some x)) \/
  exists x, ranges !! k = Some (Some x) /\ forall j r, ranges !! j = Some r -> exists y, r = Some y /\ y <= x /\ ((j < k)%nat -> y < x).

Section Phase.
  Context (w : world R) (polyfit : list R -> list R -> nat -> list R -> res (list R * list (list R))) (quantile : R -> R).
  Context (p : bba_par R) (bpm_ords mag_ords : list (list nat)).
  (** the machine [s] with the magnets that set the phase advance at [q] times their nominal strength *)
  Definition at_phase (q : R) (s s1 : sc R) : Prop :=
    used1 (varied p mag_ords) (varied_with_compensation p mag_ords) (phase_entries p) s s1 /\
    forall i, i ∈ b_q_ords p -> exists nom, entry s i "NomPolynomB" 1 = Some nom /\ entry s1 i "SetPointB" 1 = Some (q * nom).
  (** ranges of the readings of all BPMs in plane [n], with the injection displaced both ways by the largest displacement times the largest of the
      first twenty powers of 4/5 with which the beam reaches the BPM [last] *)
  Definition ranged (s : sc R) (n last : nat) (scale : R) (ranges : list (option R)) : Prop :=
    exists m, (m <= 20)%nat /\ scale = (4 / 5) ^ m /\
    (forall j, (j < m)%nat -> exists plus minus, attempt w s n last (b_max p) ((4 / 5) ^ j) False plus minus) /\
    ((m < 20)%nat -> exists plus minus, attempt w s n last (b_max p) scale True plus minus /\
       length ranges = Nat.min (length plus) (length minus) /\
       forall j x y, plus !! j = Some x -> minus !! j = Some y -> ranges !! j = Some (match x, y with Some x, Some y => Some (Rabs (x - y)) | _, _ => None end)) /\
    (m = 20%nat -> ranges = replicate (length (oBPM (ORD s))) (Some 0)).
  (** one entry of the scan over the settings of the phase advance *)
  Definition scanned (s : sc R) (n last : nat) (q : R) (r : R * list (option R)) : Prop :=
    exists s1, at_phase q s s1 /\ ranged s1 n last r.1 r.2.
  (** the entry of the table for BPM [bpm] next to magnet [m], measured at the chosen setting *)
  Definition aligned_at (s : sc R) (n : nat) (scan : list (R * list (option R))) (bpm m : nat) (str : list R) (res : R * R) : Prop :=
    exists b ranges k q scale s1 s2 rows, oBPM (ORD s) !! b = Some bpm /\
      Forall2 (fun r x => r.2 !! b = Some x) scan ranges /\ chosen ranges k /\ b_q_sps p !! k = Some q /\ fst <$> scan !! k = Some scale /\
      at_phase q s s1 /\
      used1 (varied p mag_ords) (varied_with_compensation p mag_ords) untouched s s2 /\
      length rows = b_steps p /\
      (forall k row, rows !! k = Some row -> Forall2 (fun q x => taken w p m n b scale s1 q (fraction (b_steps p) k) x) str row) /\
      data_evaluation polyfit quantile p str n m rows s2 = Ok res.

  (** * Lemmas *)
  Lemma somes_full (l : list (option R)) : (forall j r, l !! j = Some r -> r <> None) -> l = map Some (somes l).
  Proof.
    induction l as [|[x|] l IH]; intros H; [done| |by destruct (H 0%nat None)]. change (Some x :: l = Some x :: map Some (somes l)). f_equal.
    apply IH. intros j r Hj. exact (H (S j) r Hj).
  Qed.
  Lemma nan_argmax_chosen l k : nan_argmax l = Ok k -> chosen l k.
  Proof.
    unfold nan_argmax. destruct (list_find _ l) as [[i x]|] eqn:E.
    - intros [= <-]. apply list_find_Some in E as (Hi&->&Hf). left. split; [done|]. intros j Hj.
      destruct (l !! j) as [[y|]|] eqn:Ej; [eauto|exfalso; by eapply Hf|]. apply lookup_ge_None in Ej. apply lookup_lt_Some in Hi. lia.
    - intros H. apply list_find_None in E. rewrite Forall_lookup in E. right. pose proof (somes_full l E) as El. apply argmax_spec in H as (x&Hx&Hm). exists x. rewrite El.
      change (map Some (somes l)) with (Some <$> somes l). split; [by rewrite list_lookup_fmap, Hx|]. intros j r Hj. rewrite list_lookup_fmap in Hj. destruct (somes l !! j) as [y|] eqn:Ey; [|done].
      injection Hj as <-. exists y. split; [done|]. by apply (Hm j).
  Qed.
  Lemma phase_setting q (s0 s s1 : sc R) : used1 (varied p mag_ords) (varied_with_compensation p mag_ords) (phase_entries p) s0 s ->
    set_magnet_setpoints (b_q_ords p) DFloat [q] false 1 REL true s = (Ok tt, s1) -> at_phase q s0 s1.
  Proof.
    intros Hu H. assert (used1 (varied p mag_ords) (varied_with_compensation p mag_ords) (phase_entries p) s s1) as Hu1.
    { eapply used1_set_magnet; [|exact H]. intros i Hi. split; [by left|]. split; [done|]. intros _ _. by left. }
    split; [by transitivity s|]. intros i Hi.
    pose proof (C07_single_value_for_all (b_q_ords p) DFloat q REL s) as (_&Hb&_). rewrite Hb in H.
    assert (last (values_for i (b_q_ords p) (replicate (length (b_q_ords p)) q)) = Some q) as Hl.
    { clear -Hi. assert (forall x, x ∈ values_for i (b_q_ords p) (replicate (length (b_q_ords p)) q) -> x = q) as Hq.
      { unfold values_for. intros x Hx. apply elem_of_list_fmap in Hx as ([a y]&->&Hy). apply elem_of_list_filter in Hy as [_ Hy]. apply elem_of_zip_r in Hy. by apply elem_of_replicate in Hy as [-> _]. }
      destruct (last _) as [x|] eqn:E; [f_equal; apply Hq; apply last_Some in E as (l'&->); apply elem_of_app; right; by left|].
      apply last_None in E. exfalso. apply elem_of_list_lookup in Hi as [k Hk]. assert (q ∈ values_for i (b_q_ords p) (replicate (length (b_q_ords p)) q)) as Hin; [|rewrite E in Hin; by apply elem_of_nil in Hin].
      unfold values_for. apply elem_of_list_fmap. exists (i, q). split; [done|]. apply elem_of_list_filter. split; [done|]. apply elem_of_list_lookup. exists k.
      rewrite lookup_zip_with, Hk. cbn. rewrite lookup_replicate_2; [done|]. by eapply lookup_lt_Some. }
    destruct (C12_meaning_with_compensation _ _ _ _ _ _ _ _ i q H ltac:(by rewrite replicate_length) Hl) as (y&Hy&He).
    unfold magnet_request in Hy. rewrite decide_False, decide_True in Hy by done. apply bind_Some in Hy as (nom&Hn&[= <-]). exists nom. split; [|exact He].
    destruct Hu as [Hu _]. unfold entry in *. change (nominal_name false) with "NomPolynomB" in Hn.
    by rewrite (plain_attr "NomPolynomB" ltac:(intros [?|?]; discriminate) ltac:(not_field) _ _ _ _ _ _ Hu) in Hn.
  Qed.
  Lemma phase_scan_scanned n last (s0 s s' : sc R) out : used1 (varied p mag_ords) (varied_with_compensation p mag_ords) untouched s0 s ->
    phase_scan w n last (b_max p) (b_q_ords p) (b_q_sps p) s = (Ok out, s') -> Forall2 (scanned s0 n last) (b_q_sps p) out.
  Proof.
    intros Hu H. unfold phase_scan in H. apply bind_ok in H as (t1&t2&Hg&H). apply get_ok in Hg as [-> ->].
    apply bind_ok in H as (q0&t1&Hq&H). apply lift_ok in Hq as [_ ->]. apply bind_ok in H as (out'&s1&Hm&H). apply bind_ok in H as ([]&s2&Hr&H). apply ret_ok in H as [-> _].
    apply (mapM_both (used1 (varied p mag_ords) (varied_with_compensation p mag_ords) (phase_entries p) s0) (scanned s0 n last)) in Hm as [_ HF]; [exact HF| |].
    - intros q t [scale ranges] t' _ Ht Hf. apply bind_ok in Hf as ([]&t1&H1&H2). pose proof (phase_setting _ _ _ _ Ht H1) as Hp. apply C56_scaling in H2 as (Hqu&Hsc). split.
      + destruct Hp as [Hp _]. transitivity t1; [exact Hp|]. split; [by apply used_quiet|]. by apply quiet_same in Hqu as (_&_&?&_).
      + exists t1. split; [done|exact Hsc].
    - destruct Hu as [Hu ?]. split; [|done]. eapply used_mono; [by intros|by intros| |exact Hu]. by intros.
  Qed.
  Lemma bba_one_at q0 scan n bpm j m mags (s0 s s' : sc R) r : field_values "SetPointB" 1 (b_q_ords p) s0 = Ok q0 ->
    used1 (varied p mag_ords) (varied_with_compensation p mag_ords) untouched s0 s ->
    in_table mag_ords n j = Some m -> within_limit s0 (b_skew p) (b_order p) m ->
    bba_one polyfit quantile w p q0 scan n bpm m mags s = (Ok r, s') -> aligned_at s0 n scan bpm m mags r.
  Proof.
    intros Hq0 Hu Hm Hlim H. pose proof (bba_one_ok w polyfit quantile p mag_ords _ _ _ _ _ _ _ _ _ _ _ Hq0 Hu Hm Hlim H) as Hend.
    unfold bba_one in H. apply bind_ok in H as (t1&t2&Hg&H). apply get_ok in Hg as [-> ->].
    apply bind_ok in H as (bi&t1&Hb&H). apply lift_ok in Hb as [Hb ->]. apply bind_ok in H as (col&t1&Hx&H). apply lift_ok in Hx as [Hcol ->].
    apply bind_ok in H as (k&t1&Hx&H). apply lift_ok in Hx as [Hk ->]. apply bind_ok in H as (q&t1&Hx&H). apply lift_ok in Hx as [Hq ->]. apply idx_ok in Hq.
    apply bind_ok in H as (sca&t1&Hx&H). apply lift_ok in Hx as [Hsca ->]. apply idx_ok in Hsca. apply bind_ok in H as ([]&s1&H1&H). apply bind_ok in H as (data&s2&H2&H).
    apply bind_ok in H as ([]&s3&H3&H). apply bind_ok in H as (t1&t2&Hg&H). apply get_ok in Hg as [-> ->]. apply lift_ok in H as [He ->].
    apply measured_ok in H2. apply bpm_index_ok in Hb. apply nan_argmax_chosen in Hk.
    destruct (by_step_rows (taken w p m n bi sca.1 s1) (b_steps p) mags (linspace (nopp n1) n1 (b_steps p)) data) as [HL Hrows].
    { unfold linspace. by rewrite map_length, seq_length. } { exact H2. }
    exists bi, col, k, q, sca.1, s1, s3, (by_step (b_steps p) data). split_and!; try done.
    - destruct Hu as [(_&_&<-&_) _]. done.
    - apply rmap_ok in Hcol. eapply Forall2_impl; [exact Hcol|]. intros a x Ha. by apply idx_ok in Ha.
    - by rewrite Hsca.
    - eapply phase_setting; [|exact H1]. destruct Hu as [Hu Hi]. split; [|done]. eapply used_mono; [by intros|by intros| |exact Hu]. by intros.
    - intros k' row Hr. destruct (Hrows k' row Hr) as (t&Ht&HF). apply linspace_fraction in Ht as <-. exact HF.
  Qed.

  (** Before the measurements in a plane the ranges are scanned at all settings of the phase advance, with an injection that reaches the last BPM of the
      row of the array; each BPM is then measured at the setting chosen for it, with the injection scaled as at this setting. *)
  Theorem C102_setting strengths (s s' : sc R) table n bpms :
    trajectory_bba polyfit quantile w bpm_ords mag_ords p strengths s = (Ok table, s') -> (forall i, varied p mag_ords i -> within_limit s (b_skew p) (b_order p) i) ->
    bpm_ords !! n = Some bpms ->
    exists lb l scan, last bpms = Some lb /\ oBPM (ORD s) !! l = Some lb /\ Forall2 (scanned s n l) (b_q_sps p) scan /\
    forall j bpm m, bpms !! j = Some bpm -> in_table mag_ords n j = Some m ->
    exists str res, match strengths with inl l => str = l | inr tab => in_table tab n j = Some str end /\
      in_table table n j = Some res /\ aligned_at s n scan bpm m str res.
  Proof.
    intros H Hlim Hbp. unfold trajectory_bba in H. apply bind_ok in H as (t1&t2&Hg&H). apply get_ok in Hg as [-> ->].
    apply bind_ok in H as (str&t1&Hstr&H). apply lift_ok in Hstr as [Hstr ->]. destruct (negb _ || negb _); [discriminate|].
    apply bind_ok in H as (q0&t1&Hq0&H). apply lift_ok in Hq0 as [Hq0 ->]. apply bind_ok in H as (tab&s1&H1&H). apply bind_ok in H as ([]&s2&H2&H). apply ret_ok in H as [-> ->].
    set (I := used1 (varied p mag_ords) (varied_with_compensation p mag_ords) untouched s).
    apply (mapM_both I (fun nb row => exists lb l scan, last nb.2 = Some lb /\ oBPM (ORD s) !! l = Some lb /\ Forall2 (scanned s nb.1 l) (b_q_sps p) scan /\
      forall j bpm m, nb.2 !! j = Some bpm -> in_table mag_ords nb.1 j = Some m ->
      exists st res, in_table str nb.1 j = Some st /\ row !! j = Some res /\ aligned_at s nb.1 scan bpm m st res)) in H1 as [_ HF].
    - assert (zip (seq 0 (length bpm_ords)) bpm_ords !! n = Some (n, bpms)) as Hz.
      { rewrite lookup_zip_with, Hbp, lookup_seq_lt by (by eapply lookup_lt_Some). done. }
      destruct (Forall2_lookup_l _ _ _ _ _ HF Hz) as (row&Hrow&lb&l&scan&Hlb&Hl&Hsc&HP). cbn [fst snd] in *. exists lb, l, scan. split_and!; [done..|].
      intros j bpm m Hj Hm. destruct (HP j bpm m Hj Hm) as (st&res&Hst&Hr&He).
      exists st, res. split_and!; [|unfold in_table; rewrite Hrow; exact Hr|exact He].
      unfold bba_check_input in Hstr. destruct (decide _); [|discriminate]. destruct (2 <? b_fit_order p)%nat; [discriminate|]. injection Hstr as <-.
      destruct strengths as [ll|tt]; [|done]. unfold in_table in Hst. apply bind_Some in Hst as (row1&Hr1&Hst). apply list_lookup_fmap_Some in Hr1 as (row2&_&->). apply list_lookup_fmap_Some in Hst as (x&_&->). done.
    - intros [n' bpms'] t row t' _ Ht Hp. cbn [fst snd]. apply bind_ok in Hp as (mags&t1&Hmg&Hp). apply lift_ok in Hmg as [Hmg ->]. apply idx_ok in Hmg. apply bind_ok in Hp as (st&t1&Hst&Hp). apply lift_ok in Hst as [Hst ->]. apply idx_ok in Hst.
      cbn [fst] in Hmg, Hst. split; [by eapply (bba_plane_ok w polyfit quantile p mag_ords); [exact Hq0|exact Ht|exact Hmg|exact Hlim|exact Hp]|].
      cbn [fst snd] in Hp. unfold bba_plane in Hp. apply bind_ok in Hp as (t1&t2&Hg&Hp). apply get_ok in Hg as [-> ->].
      apply bind_ok in Hp as (b&t1&Hx&Hp). apply lift_ok in Hx as [Hlast ->]. destruct (last bpms') as [b'|] eqn:El; [|discriminate]. injection Hlast as ->.
      apply bind_ok in Hp as (li&t1&Hx&Hp). apply lift_ok in Hx as [Hli ->]. apply bpm_index_ok in Hli.
      apply bind_ok in Hp as (scan&t1&Hs&Hp). pose proof (phase_scan_scanned _ _ _ _ _ _ Ht Hs) as Hscan.
      exists b, li, scan. split_and!; [done|destruct Ht as [(_&_&<-&_) _]; done|done|].
      apply (mapM_both I (fun jb r => exists m st', mags !! jb.1 = Some m /\ st !! jb.1 = Some st' /\ aligned_at s n' scan jb.2 m st' r)) in Hp as [_ HP].
      + intros j' bpm' m' Hj' Hm'. assert (zip (seq 0 (length bpms')) bpms' !! j' = Some (j', bpm')) as Hz.
        { rewrite lookup_zip_with, Hj', lookup_seq_lt by (by eapply lookup_lt_Some). done. }
        destruct (Forall2_lookup_l _ _ _ _ _ HP Hz) as (r&Hr&m2&st'&Hm2&Hst'&He). cbn [fst snd] in *. exists st', r.
        assert (m2 = m') as ->. { unfold in_table in Hm'. rewrite Hmg in Hm'. cbn in Hm'. congruence. }
        split_and!; [unfold in_table; rewrite Hst; exact Hst'|exact Hr|exact He].
      + intros [j' bpm'] u r u' _ Hu Hone. cbn [fst snd] in *. apply bind_ok in Hone as (m'&u1&Hm'&Hone). apply lift_ok in Hm' as [Hm' ->]. apply idx_ok in Hm'. apply bind_ok in Hone as (st'&u1&Hst'&Hone). apply lift_ok in Hst' as [Hst' ->]. apply idx_ok in Hst'.
        assert (in_table mag_ords n' j' = Some m') as Hmt by (unfold in_table; rewrite Hmg; exact Hm').
        assert (within_limit s (b_skew p) (b_order p) m') as Hw by (apply Hlim; right; eauto). split.
        * unfold I. eapply bba_one_ok; [exact Hq0|exact Hu|exact Hmt|exact Hw|exact Hone].
        * exists m', st'. split_and!; [done|done|]. eapply bba_one_at; [exact Hq0|exact Hu|exact Hmt|exact Hw|exact Hone].
      + unfold I. transitivity t; [done|]. eapply phase_scan_ok; [|exact Hs]. intros i Hi. split; by left.
    - unfold I. reflexivity.
  Qed.

  (** At a BPM not beyond the last one of the row every range is a number, so the setting chosen is the one with the largest range. *)
  Theorem C102_largest (s : sc R) n l scan b ranges k : Forall2 (scanned s n l) (b_q_sps p) scan -> Forall2 (fun r x => r.2 !! b = Some x) scan ranges ->
    chosen ranges k -> (b <= l)%nat ->
    exists x, ranges !! k = Some (Some x) /\ forall j r, ranges !! j = Some r -> exists y, r = Some y /\ y <= x /\ ((j < k)%nat -> y < x).
  Proof.
    intros Hs Hr Hk Hb. destruct Hk as [[Hk _]|Hk]; [exfalso|exact Hk].
    destruct (Forall2_lookup_r _ _ _ _ _ Hr Hk) as ([scale rs]&Hsc&Hx). destruct (Forall2_lookup_r _ _ _ _ _ Hs Hsc) as (q&_&s1&_&m&Hm&_&_&Hlt&H20). cbn [fst snd] in *.
    destruct (decide (m = 20%nat)) as [->|Hne].
    - rewrite H20 in Hx by done. by apply lookup_replicate in Hx as [? _].
    - destruct (Hlt ltac:(lia)) as (plus&minus&(_&_&Hok)&HL&Hv). destruct (proj1 Hok ltac:(done)) as [Hp Hmi]. pose proof (lookup_lt_Some _ _ _ Hx) as Hlen. rewrite HL in Hlen.
      destruct (lookup_lt_is_Some_2 plus b ltac:(lia)) as [x Ex]. destruct (lookup_lt_is_Some_2 minus b ltac:(lia)) as [y Ey]. rewrite (Hv b x y Ex Ey) in Hx.
      destruct x as [x|]; [|by apply (Hp b)]. destruct y as [y|]; [|by apply (Hmi b)]. discriminate.
  Qed.
  (** Finding: beyond it the beam need not arrive, and if it does not at one setting, the setting chosen for the BPM is one at which it does not. *)
  Theorem C102_finding_unreached (s : sc R) n l scan b ranges k : Forall2 (scanned s n l) (b_q_sps p) scan -> Forall2 (fun r x => r.2 !! b = Some x) scan ranges ->
    chosen ranges k -> None ∈ ranges ->
    exists q s1 scale plus minus, b_q_sps p !! k = Some q /\ fst <$> scan !! k = Some scale /\ at_phase q s s1 /\
      attempt w s1 n l (b_max p) scale True plus minus /\ (plus !! b = Some None \/ minus !! b = Some None).
  Proof.
    intros Hs Hr Hk Hn. assert (ranges !! k = Some None) as Hkn.
    { destruct Hk as [[Hk _]|(x&_&Hall)]; [done|]. apply elem_of_list_lookup in Hn as [j Hj]. destruct (Hall j None Hj) as (y&?&_). discriminate. }
    destruct (Forall2_lookup_r _ _ _ _ _ Hr Hkn) as ([scale rs]&Hsc&Hx). destruct (Forall2_lookup_r _ _ _ _ _ Hs Hsc) as (q&Hq&s1&Hp&m&Hm&_&_&Hlt&H20). cbn [fst snd] in *.
    destruct (decide (m = 20%nat)) as [->|Hne]; [rewrite H20 in Hx by done; by apply lookup_replicate in Hx as [? _]|].
    destruct (Hlt ltac:(lia)) as (plus&minus&Ha&HL&Hv). exists q, s1, scale, plus, minus. rewrite Hsc. split_and!; try done.
    pose proof (lookup_lt_Some _ _ _ Hx) as Hlen. rewrite HL in Hlen.
    destruct (lookup_lt_is_Some_2 plus b ltac:(lia)) as [x Ex]. destruct (lookup_lt_is_Some_2 minus b ltac:(lia)) as [y Ey]. rewrite (Hv b x y Ex Ey) in Hx. rewrite Ex, Ey.
    destruct x as [x|]; [|by left]. destruct y as [y|]; [discriminate|by right].
  Qed.
End Phase.

Print Assumptions C102_setting.
Print Assumptions C102_largest.
Print Assumptions C102_finding_unreached.

(** Over the rationals: as in [C67_case], but below nine and a half tenths of its nominal strength the first quadrupole lets no beam pass beyond the first BPM, 2. *)
Local Open Scope Q_scope.
#[local] Existing Instance TrigQ5.
Definition phase_world : world Q :=
  MkWorld (fun ring Z n refs c p r t =>
      let k := match (e ← ring !! 0%nat; e !! "SetPointB") with Some (VVec (_ :: b :: _)) => b | _ => 0 end in
      let nom := match (e ← ring !! 0%nat; e !! "NomPolynomB") with Some (VVec (_ :: b :: _)) => b | _ => 0 end in
      if Qltb k ((19#20) * nom) && negb (r =? 0)%nat then None else w_track bba_world ring Z n refs c p r t)
    (fun _ _ _ _ => None) (fun _ => ([], [])) (fun Z => Z).
Definition phase_par (settings : list Q) : bba_par Q := MkPar 5 1 1 false ABS [0%nat] settings 1 (1#1000, 0) true.
Definition centre_of (settings : list Q) (bpms : list nat) : res (list (list Q)) :=
  let? t := fst (trajectory_bba (line_fit (1#1000000000000)) (fun x => x) phase_world [bpms] [map (fun _ => 1%nat) bpms] (phase_par settings) (inl [-1#2; 1#2]) (bba_machine 2)) in
  Ok (map (map fst) t).
(** BPM 4 comes last: a setting with which the beam does not reach it has zero range, the other one is chosen and the centre found; in the other order the setting
    without beam at BPM 4 is chosen and the alignment fails, though with the good setting alone it succeeds *)
Example C102_case :
  centre_of [1; 9#10] [2; 4]%nat = Ok [[3#10000; 1#2000]] /\ centre_of [9#10; 1] [2; 4]%nat = Ok [[3#10000; 1#2000]].
Proof. vm_compute. split; reflexivity. Qed.
Example C102_finding_order :
  centre_of [1] [4; 2]%nat = Ok [[1#2000; 3#10000]] /\ forall x, centre_of [1; 9#10] [4; 2]%nat <> Ok x.
Proof. split; [vm_compute; reflexivity|]. intros x. vm_compute. discriminate. Qed.
