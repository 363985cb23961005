(** C67, C68: what a beam-based alignment measures, per BPM, strength and step, and the centre it finds. *)
From Coq Require Import Reals Lra Lia QArith ZArith.
From stdpp Require Import base gmap strings list.
From Verif Require Import Num Base Examples Model_Arr Model_SC Model_Err Model_Beam Model_Orbit Model_Scan Model_Stats Model_Bba Lemmas Proofs_Update Proofs_Setpoint Proofs_Loop2 Proofs_Field Proofs_Beam Spec Proofs_CM Proofs_CM2 Properties_Setpoint3 Properties_Setpoint Properties_Setpoint4 Properties_Field Properties_Beam Properties_Orbit Properties_Thread Properties_Rf Properties_Loco2 Properties_Stats Properties_Bba Properties_Bba2 Properties_Bba3.
Local Open Scope string_scope.
Local Open Scope list_scope.
Local Open Scope R_scope.
Notation reading := Model_Beam.reading.

(** * Specification *)

(** the [k]-th of [n] values that go in equal steps from -1 to 1 *)
Definition fraction (n k : nat) : R := -1 + INR k * (2 / INR (n - 1)).
(** the readings [l] of [n] consecutive BPMs from the [b]-th on.  When only one is left its reading is used [n] times. *)
Definition consecutive (row : list (option R)) (b n : nat) (l : list (option R)) : Prop :=
  length l = n /\ forall j x, l !! j = Some x -> row !! (b + j)%nat = Some x \/ (length row = S b /\ row !! b = Some x).
(** the magnet [m] and those it powers have the fields that follow from its present set-points (see C17) *)
Definition at_field (s : sc R) (m : nat) : Prop := forall c skew, c = m \/ child_of s c m ->
  exists l, attr_at s c (field_name skew) = Some (VVec l) /\ length l = expected_length s m c skew /\ forall k, at0 l k = expected_field s m c skew k.
Section Spec.
  Context (w : world R) (p : bba_par R).
  Definition own_entry (m : nat) : nat -> bool -> nat -> Prop := fun i sk k => i = m /\ sk = b_skew p /\ k = b_order p.
  Definition phase_entries : nat -> bool -> nat -> Prop := fun i sk k => i ∈ b_q_ords p /\ sk = false /\ k = 1%nat.
  (** One reading: the magnet at the requested strength, the injection displaced by a fraction of the (scaled) maximum; the position at the BPM
      and those at the BPMs from this one on - in the other plane for a skew magnet. *)
  Definition taken (m n b : nat) (scale : R) (s : sc R) (q t : R) (x : option R * list (option R)) : Prop :=
    exists s0 s1 s2 r z y,
    used (eq m) (fun i => b_dipcomp p = true /\ i = m) (own_entry m) s s1 /\
    used (eq m) (fun i => b_dipcomp p = true /\ i = m) (own_entry m) s s0 /\
    magnet_request (b_method p) s0 m (b_skew p) (b_order p) q = Some y /\
    entry s1 m (setpoint_name (b_skew p)) (b_order p) = Some (limited s m (b_skew p) (b_order p) y) /\ (fits s1 m -> at_field s1 m) /\
    displaced n (scale * (b_max p).1 * t) (scale * (b_max p).2 * t) (Z0 (INJ s)) z /\ INJ s1 = with_Z0 z (INJ s) /\
    bpm_reading w None false s1 = (Ok r, s2) /\
    positions n r !! b = Some x.1 /\ consecutive (positions (if b_skew p then 1 - n else n)%nat r) b (b_downstream p) x.2.
End Spec.

(** * Lemmas *)
Definition calm (s s' : sc R) : Prop := exists g z, s' = set_RNG g (set_INJ (with_Z0 z (INJ s)) s).
#[global] Instance calm_preorder : PreOrder calm.
Proof.
  split; [intros s; exists (RNG s), (Z0 (INJ s)); by destruct s as [? ? [] ? ? ?]|].
  intros a b c (g1&z1&->) (g2&z2&->). exists g2, z2. by destruct a as [? ? [] ? ? ?].
Qed.
Lemma linspace_fraction n : forall k x, linspace (nopp n1) n1 n !! k = Some x -> x = fraction n k.
Proof.
  intros k x H. destruct (linspace_evenly (nopp n1) n1 n) as [_ E]. apply E in H. rewrite H. unfold fraction. num_R. unfold Rdiv. ring.
Qed.
Lemma downstream_ok row b n (l : list (option R)) : downstream row b n = Ok l -> consecutive row b n l.
Proof.
  unfold downstream, consecutive. destruct (length (take n (drop b row)) =? n)%nat eqn:E.
  - apply Nat.eqb_eq in E. intros [= <-]. split; [done|]. intros j x Hj. left. apply lookup_take_Some in Hj as [Hj _]. by rewrite lookup_drop in Hj.
  - apply Nat.eqb_neq in E. destruct (take n (drop b row)) as [|x [|]] eqn:El; try discriminate. intros [= <-]. split; [apply replicate_length|].
    intros j y Hy. apply lookup_replicate in Hy as [-> Hj]. right.
    assert (length (take n (drop b row)) = 1%nat) as HL by (by rewrite El). rewrite take_length, drop_length in HL. cbn in E. split; [lia|].
    assert (take n (drop b row) !! 0%nat = Some x) as H0 by (by rewrite El). apply lookup_take_Some in H0 as [H0 _]. rewrite lookup_drop in H0. by rewrite Nat.add_0_r in H0.
Qed.
Lemma used_calm P C E s s' : calm s s' -> used P C E s s'.
Proof. intros (g&z&->). unfold used. by split_and!. Qed.
Lemma entry_calm s s' i a k : calm s s' -> entry s' i a k = entry s i a k.
Proof. by intros (g&z&->). Qed.

(** setting a magnet brings its fields up to date *)
Lemma set_magnet_field m dt sps skew order method dc (s s' : sc R) : set_magnet_setpoints [m] dt sps skew order method dc s = (Ok tt, s') -> fits s' m -> at_field s' m.
Proof.
  intros H Hf. rewrite set_magnet_run in H. destruct (magnet_targets _ _ _ _ _ _ _) as [l|]; [|discriminate]. apply bind_ok in H as (x&s1&_&H).
  pose proof (update_magnets_frame [m] s1) as F. rewrite H in F. cbn [snd] in F.
  assert (forall i a, a ∉ field_attributes -> attr_at s' i a = attr_at s1 i a) as Hat.
  { intros i a Ha. rewrite !attr_at_aget. apply (frame_aget _ _ _ _ _ F). intros [Hd _]. by apply Ha. }
  assert (forall i a, a ∉ field_attributes -> array_of s' i a = array_of s1 i a) as Harr by (intros i a Ha; unfold array_of; by rewrite Hat).
  assert (forall i a, a ∉ field_attributes -> table_of s' i a = table_of s1 i a) as Htab by (intros i a Ha; unfold table_of; by rewrite Hat).
  assert (forall i sk k, driven s' i sk k = driven s1 i sk k) as Hdr by (intros i sk k; unfold driven; rewrite !Harr by (destruct sk; not_field); done).
  intros c sk Hc.
  assert (powered_by s1 [m] m c) as Hp.
  { split; [left|]. split; [destruct Hc as [?|Hc]; [by left|]; right; unfold child_of in *; by rewrite Hat in Hc by not_field|]. intros m' Hm' _. by apply elem_of_list_singleton in Hm'. }
  assert (fits s1 m) as Hf1. { intros sk'. specialize (Hf sk'). rewrite !Harr in Hf by (destruct sk'; not_field). done. }
  destruct (C17_field [m] s1 s' x m c sk) as (p&Hp1&HL&Hk); [by destruct x|done|done|]. exists p. split; [done|]. split.
  - rewrite HL. unfold expected_length. rewrite !Harr by (destruct sk; not_field). rewrite !Htab by (destruct sk; not_field). done.
  - intros k. rewrite Hk. unfold expected_field, systematic, bending, number. rewrite !Hdr, !Hat by not_field. rewrite !Harr by (destruct sk; not_field). rewrite !Htab by (destruct sk; not_field).
    assert (forall t (b : bool), sum_over t (fun row : nat * list R => driven s' m b row.1 * at0 row.2 k)%R = sum_over t (fun row => driven s1 m b row.1 * at0 row.2 k)%R) as Hs.
    { intros t b. induction t as [|y t IH]; simpl; [done|]. by rewrite IH, Hdr. }
    by rewrite !Hs.
Qed.

Section C67.
  Context (w : world R).

  Lemma measured_ok (p : bba_par R) strengths m b n scale (s s' : sc R) data : data_measurement_tbt w p strengths m b n scale s = (Ok data, s') ->
    Forall2 (fun q col => Forall2 (taken w p m n b scale s q) (linspace (nopp n1) n1 (b_steps p)) col) strengths data.
  Proof.
    intros H. unfold data_measurement_tbt in H. apply bind_ok in H as (t1&t2&Hg&H). apply get_ok in Hg as [-> ->].
    apply bind_ok in H as (init&t1&Hq&H). apply lift_ok in Hq as [_ ->]. apply bind_ok in H as (data'&s1&Hm&H).
    apply bind_ok in H as ([]&s2&Hz&H). injection Hz as <-. apply bind_ok in H as ([]&s2&Hr&H). apply ret_ok in H as [-> ->]. clear Hr.
    set (C := fun i => b_dipcomp p = true /\ i = m).
    set (I := fun t => used2 (eq m) C (own_entry p m) s t).
    eapply (mapM_both I) in Hm as [_ Hm]; [exact Hm| |split; [reflexivity|by destruct (INJ s)]].
    clear. intros q t col t' _ Ht H. apply bind_ok in H as ([]&t1&H1&H2).
    assert (used1 (eq m) C (own_entry p m) t t1) as Hu.
    { eapply used1_set_magnet; [|exact H1]. intros i Hi. apply elem_of_list_singleton in Hi as ->. done. }
    destruct (C12_meaning_with_compensation [m] [q] (b_skew p) (b_order p) (b_method p) (b_dipcomp p) t t1 m q H1 eq_refl) as (y&Hy&He).
    { unfold values_for. cbn. by rewrite decide_True. }
    assert (I t1) as It1. { unfold I in *. etransitivity; [exact Ht|by apply used12]. }
    assert (limited t m (b_skew p) (b_order p) y = limited s m (b_skew p) (b_order p) y) as El.
    { unfold limited. destruct (b_skew p); [|done]. destruct (b_order p) as [|[|]]; try done. f_equal. unfold skew_limit.
      destruct Ht as [Ht _]. by rewrite (plain_attr "SkewQuadLimit" ltac:(intros [?|?]; discriminate) ltac:(not_field) _ _ _ _ _ _ Ht). }
    rewrite El in He. clear El.
    eapply (mapM_both (calm t1) (taken w p m n b scale s q)) in H2 as [Hc H2]; [| |reflexivity].
    - split; [|exact H2]. unfold I in *. etransitivity; [exact It1|]. split; [by apply used_calm|]. destruct Hc as (g&z&->). cbn. by destruct (INJ t1).
    - intros k u x u' _ Hc Hu'. unfold measure_step in Hu'. apply bind_ok in Hu' as (z&u1&Hz&Hu'). apply lift_ok in Hz as [Hz ->]. apply kicked_displaced in Hz.
      apply bind_ok in Hu' as ([]&u2&Hmod&Hu'). injection Hmod as <-. apply bind_ok in Hu' as (r&u3&Hrd&Hu'). apply bind_ok in Hu' as (pos&u4&Hp&Hu'). apply lift_ok in Hp as [Hp ->].
      apply bind_ok in Hu' as (l&u4&Hl&Hu'). apply lift_ok in Hl as [Hl ->]. apply ret_ok in Hu' as [<- ->].
      pose proof (pres_run quiet _ _ _ _ (quiet_reading w None false) Hrd) as Hqu.
      set (u1 := set_INJ (with_Z0 z (INJ u)) u) in *.
      assert (calm t1 u1) as Hc1. { destruct Hc as (g&z'&->). exists g, z. unfold u1. by destruct t1 as [? ? [] ? ? ?]. }
      split.
      + destruct Hc1 as (g&z'&E1). unfold quiet in Hqu. rewrite Hqu, E1. exists (RNG u3), z'. by destruct t1 as [? ? [] ? ? ?].
      + exists t, u1, u3, r, z, y. unfold I in *. destruct It1 as [It1 Hi1]. destruct Ht as [Ht Hi]. split_and!.
        * etransitivity; [exact It1|by apply used_calm].
        * exact Ht.
        * exact Hy.
        * by rewrite (entry_calm _ _ _ _ _ Hc1).
        * pose proof (set_magnet_field _ _ _ _ _ _ _ _ _ H1) as Hfield. destruct Hc1 as (g&z'&->). exact Hfield.
        * exact Hz.
        * destruct Hc as (g&z'&->). unfold u1. cbn. rewrite <- Hi1. by destruct (INJ t1).
        * exact Hrd.
        * apply idx_ok in Hp. exact Hp.
        * by apply downstream_ok in Hl.
  Qed.
  (** one row per step, one entry per strength *)
  Lemma by_step_rows {A B} (P : B -> R -> A -> Prop) n (strengths : list B) (ts : list R) data : length ts = n ->
    Forall2 (fun q col => Forall2 (P q) ts col) strengths data ->
    length (by_step n data) = n /\ forall k row, by_step n data !! k = Some row -> exists t, ts !! k = Some t /\ Forall2 (fun q x => P q t x) strengths row.
  Proof.
    intros HL HF. unfold by_step. rewrite map_length, seq_length. split; [done|]. intros k row Hr. apply list_lookup_fmap_Some in Hr as (st&Hst&->).
    apply lookup_seq in Hst as [-> Hk]. cbn [Nat.add]. destruct (lookup_lt_is_Some_2 ts k ltac:(lia)) as [t Ht]. exists t. split; [done|].
    induction HF as [|q col qs data Hc HF IH]; [constructor|]. destruct (Forall2_lookup_l _ _ _ _ _ Hc Ht) as (x&Hx&Hp).
    change (omap (fun c => c !! k) (col :: data)) with (match col !! k with Some y => y :: omap (fun c => c !! k) data | None => omap (fun c => c !! k) data end).
    rewrite Hx. by constructor.
  Qed.
  Lemma bpm_index_ok bpm (s : sc R) b : bpm_index bpm s = Ok b -> oBPM (ORD s) !! b = Some bpm.
  Proof. unfold bpm_index. destruct (list_find _ _) as [[k x]|] eqn:E; [|discriminate]. intros [= <-]. apply list_find_Some in E as (?&->&_). done. Qed.

  Context (polyfit : list R -> list R -> nat -> list R -> res (list R * list (list R))) (quantile : R -> R).
  Context (p : bba_par R) (bpm_ords mag_ords : list (list nat)).

  (** what the entry for a BPM next to magnet [m] is computed from *)
  Definition evaluated (s : sc R) (n bpm m : nat) (str : list R) (res : R * R) : Prop :=
    exists b scale s1 s2 rows, oBPM (ORD s) !! b = Some bpm /\ (exists i, (i <= 20)%nat /\ scale = (4 / 5) ^ i) /\
      used1 (varied p mag_ords) (varied_with_compensation p mag_ords) (phase_entries p) s s1 /\
      used1 (varied p mag_ords) (varied_with_compensation p mag_ords) untouched s s2 /\
      length rows = b_steps p /\
      (forall k row, rows !! k = Some row -> Forall2 (fun q x => taken w p m n b scale s1 q (fraction (b_steps p) k) x) str row) /\
      data_evaluation polyfit quantile p str n m rows s2 = Ok res.

  Definition scaled_down (scan : list (R * list (option R))) : Prop := Forall (fun r => exists i, (i <= 20)%nat /\ r.1 = (4 / 5) ^ i) scan.
  Lemma phase_scan_scaled n last mx q_ords q_sps (s s' : sc R) out : phase_scan w n last mx q_ords q_sps s = (Ok out, s') -> scaled_down out.
  Proof.
    intros H. unfold phase_scan in H. apply bind_ok in H as (t1&t2&Hg&H). apply get_ok in Hg as [-> ->].
    apply bind_ok in H as (q0&t1&Hq&H). apply lift_ok in Hq as [_ ->]. apply bind_ok in H as (out'&s1&Hm&H). apply bind_ok in H as ([]&s2&Hr&H). apply ret_ok in H as [-> _].
    apply (mapM_both (fun _ => True) (fun _ r => exists i, (i <= 20)%nat /\ r.1 = (4 / 5) ^ i)) in Hm as [_ HF]; [|clear|done].
    - clear -HF. unfold scaled_down. induction HF; constructor; done.
    - intros q t [scale ranges] t' _ _ Ht. split; [done|]. apply bind_ok in Ht as ([]&t1&_&H2). apply C56_scaling in H2 as (_&m&Hm&Hs&_). eauto.
  Qed.
  Lemma bba_one_evaluated q0 scan n bpm j m mags (s0 s s' : sc R) r : field_values "SetPointB" 1 (b_q_ords p) s0 = Ok q0 ->
    used1 (varied p mag_ords) (varied_with_compensation p mag_ords) untouched s0 s ->
    in_table mag_ords n j = Some m -> within_limit s0 (b_skew p) (b_order p) m -> scaled_down scan ->
    bba_one polyfit quantile w p q0 scan n bpm m mags s = (Ok r, s') -> evaluated s0 n bpm m mags r.
  Proof.
    intros Hq0 Hu Hm Hlim Hscan H. pose proof (bba_one_ok w polyfit quantile p mag_ords _ _ _ _ _ _ _ _ _ _ _ Hq0 Hu Hm Hlim H) as Hend.
    unfold bba_one in H. apply bind_ok in H as (t1&t2&Hg&H). apply get_ok in Hg as [-> ->].
    apply bind_ok in H as (bi&t1&Hb&H). apply lift_ok in Hb as [Hb ->]. apply bind_ok in H as (col&t1&Hx&H). apply lift_ok in Hx as [_ ->].
    apply bind_ok in H as (k&t1&Hx&H). apply lift_ok in Hx as [_ ->]. apply bind_ok in H as (q&t1&Hx&H). apply lift_ok in Hx as [_ ->].
    apply bind_ok in H as (sca&t1&Hx&H). apply lift_ok in Hx as [Hsca ->]. apply idx_ok in Hsca. apply bind_ok in H as ([]&s1&H1&H). apply bind_ok in H as (data&s2&H2&H).
    apply bind_ok in H as ([]&s3&H3&H). apply bind_ok in H as (t1&t2&Hg&H). apply get_ok in Hg as [-> ->]. apply lift_ok in H as [He ->].
    apply measured_ok in H2. apply bpm_index_ok in Hb.
    destruct (by_step_rows (taken w p m n bi sca.1 s1) (b_steps p) mags (linspace (nopp n1) n1 (b_steps p)) data) as [HL Hrows].
    { unfold linspace. by rewrite map_length, seq_length. } { exact H2. }
    exists bi, sca.1, s1, s3, (by_step (b_steps p) data). split_and!.
    - destruct Hu as [(_&_&<-&_) _]. done.
    - unfold scaled_down in Hscan. rewrite Forall_lookup in Hscan. by apply (Hscan k).
    - destruct Hu as [Hu Hi]. assert (used1 (varied p mag_ords) (varied_with_compensation p mag_ords) (phase_entries p) s s1) as Hu1.
      { eapply used1_set_magnet; [|exact H1]. intros i Hi'. split; [by left|]. split; [done|]. intros _ _. by left. }
      transitivity s; [|exact Hu1]. split; [|done]. eapply used_mono; [by intros|by intros| |exact Hu]. by intros.
    - exact Hend.
    - exact HL.
    - intros k' row Hr. destruct (Hrows k' row Hr) as (t&Ht&HF). apply linspace_fraction in Ht as <-. exact HF.
    - exact He.
  Qed.

  (** Every entry of the table an alignment returns comes from the BPM and the magnet at this place of the two arrays and from its strengths: rows
      of readings, one per step, with one reading per strength. *)
  Theorem C67_measured strengths (s s' : sc R) table n j bpm m :
    trajectory_bba polyfit quantile w bpm_ords mag_ords p strengths s = (Ok table, s') -> (forall i, varied p mag_ords i -> within_limit s (b_skew p) (b_order p) i) ->
    in_table bpm_ords n j = Some bpm -> in_table mag_ords n j = Some m ->
    exists str res, match strengths with inl l => str = l | inr tab => in_table tab n j = Some str end /\
      in_table table n j = Some res /\ evaluated s n bpm m str res.
  Proof.
    intros H Hlim Hb Hm. unfold trajectory_bba in H. apply bind_ok in H as (t1&t2&Hg&H). apply get_ok in Hg as [-> ->].
    apply bind_ok in H as (str&t1&Hstr&H). apply lift_ok in Hstr as [Hstr ->]. destruct (negb _ || negb _); [discriminate|].
    apply bind_ok in H as (q0&t1&Hq0&H). apply lift_ok in Hq0 as [Hq0 ->]. apply bind_ok in H as (tab&s1&H1&H). apply bind_ok in H as ([]&s2&H2&H). apply ret_ok in H as [-> ->].
    set (I := used1 (varied p mag_ords) (varied_with_compensation p mag_ords) untouched s).
    apply (mapM_both I (fun nb row => forall j bpm m, nb.2 !! j = Some bpm -> in_table mag_ords nb.1 j = Some m ->
      exists st res, in_table str nb.1 j = Some st /\ row !! j = Some res /\ evaluated s nb.1 bpm m st res)) in H1 as [_ HF].
    - assert (exists bpms, bpm_ords !! n = Some bpms /\ bpms !! j = Some bpm) as (bpms&Hn&Hj). { unfold in_table in Hb. destruct (bpm_ords !! n) as [l|]; [|discriminate]. exists l. done. }
      assert (zip (seq 0 (length bpm_ords)) bpm_ords !! n = Some (n, bpms)) as Hz.
      { rewrite lookup_zip_with, Hn, lookup_seq_lt by (by eapply lookup_lt_Some). done. }
      destruct (Forall2_lookup_l _ _ _ _ _ HF Hz) as (row&Hrow&HP). destruct (HP j bpm m Hj Hm) as (st&res&Hst&Hr&He).
      exists st, res. split_and!; [|unfold in_table; rewrite Hrow; exact Hr|exact He].
      unfold bba_check_input in Hstr. destruct (decide _); [|discriminate]. destruct (2 <? b_fit_order p)%nat; [discriminate|]. injection Hstr as <-.
      destruct strengths as [l|tt]; [|done]. unfold in_table in Hst. apply bind_Some in Hst as (row1&Hr1&Hst). apply list_lookup_fmap_Some in Hr1 as (row2&_&->). apply list_lookup_fmap_Some in Hst as (x&_&->). done.
    - intros [n' bpms] t row t' _ Ht Hp. cbn [fst snd]. apply bind_ok in Hp as (mags&t1&Hmg&Hp). apply lift_ok in Hmg as [Hmg ->]. apply idx_ok in Hmg. apply bind_ok in Hp as (st&t1&Hst&Hp). apply lift_ok in Hst as [Hst ->]. apply idx_ok in Hst.
      cbn [fst] in Hmg, Hst. split; [by eapply (bba_plane_ok w polyfit quantile p mag_ords); [exact Hq0|exact Ht|exact Hmg|exact Hlim|exact Hp]|].
      cbn [fst snd] in Hp. unfold bba_plane in Hp. apply bind_ok in Hp as (t1&t2&Hg&Hp). apply get_ok in Hg as [-> ->].
      apply bind_ok in Hp as (b&t1&Hx&Hp). apply lift_ok in Hx as [_ ->]. apply bind_ok in Hp as (li&t1&Hx&Hp). apply lift_ok in Hx as [_ ->].
      apply bind_ok in Hp as (scan&t1&Hs&Hp). pose proof (phase_scan_scaled _ _ _ _ _ _ _ _ Hs) as Hscan.
      apply (mapM_both I (fun jb r => exists m st', mags !! jb.1 = Some m /\ st !! jb.1 = Some st' /\ evaluated s n' jb.2 m st' r)) in Hp as [_ HP].
      + intros j' bpm' m' Hj' Hm'. assert (zip (seq 0 (length bpms)) bpms !! j' = Some (j', bpm')) as Hz.
        { rewrite lookup_zip_with, Hj', lookup_seq_lt by (by eapply lookup_lt_Some). done. }
        destruct (Forall2_lookup_l _ _ _ _ _ HP Hz) as (r&Hr&m2&st'&Hm2&Hst'&He). cbn [fst snd] in *. exists st', r.
        assert (m2 = m') as ->. { unfold in_table in Hm'. rewrite Hmg in Hm'. cbn in Hm'. congruence. }
        split_and!; [unfold in_table; rewrite Hst; exact Hst'|exact Hr|exact He].
      + intros [j' bpm'] u r u' _ Hu Hone. cbn [fst snd] in *. apply bind_ok in Hone as (m'&u1&Hm'&Hone). apply lift_ok in Hm' as [Hm' ->]. apply idx_ok in Hm'. apply bind_ok in Hone as (st'&u1&Hst'&Hone). apply lift_ok in Hst' as [Hst' ->]. apply idx_ok in Hst'.
        assert (in_table mag_ords n' j' = Some m') as Hmt by (unfold in_table; rewrite Hmg; exact Hm').
        assert (within_limit s (b_skew p) (b_order p) m') as Hw by (apply Hlim; right; eauto). split.
        * unfold I. eapply bba_one_ok; [exact Hq0|exact Hu|exact Hmt|exact Hw|exact Hone].
        * exists m', st'. split_and!; [done|done|]. eapply bba_one_evaluated; [exact Hq0|exact Hu|exact Hmt|exact Hw|exact Hscan|exact Hone].
      + unfold I. transitivity t; [done|]. eapply phase_scan_ok; [|exact Hs]. intros i Hi. split; by left.
    - unfold I. reflexivity.
  Qed.

  (** * C68: the whole alignment *)
  (** How the machine responds when only the magnet [m], the magnets that set the phase advance, and the injection are varied: without the magnet
      the beam would pass at a position that depends on the displacement of the injection only, and injectively; at the [b]-th BPM it is
      deflected in proportion to the strength and to the distance from [x0]; the positions from there on depend linearly on the strength, with a
      slope that vanishes (order 1) or is extremal (order 2) when the beam passes at [x0]. *)
  Definition responds (s : sc R) (n b m : nat) (x0 : R) (str : list R) : Prop :=
    forall scale s1, used1 (varied p mag_ords) (varied_with_compensation p mag_ords) (phase_entries p) s s1 ->
    exists (beam : R -> R) (g : R) (u : nat -> R -> R) (c d : nat -> R),
    (scale <> 0 -> forall t t', beam t = beam t' -> t = t') /\ 1 + avg str * g <> 0 /\
    forall s2 z r s3 t v,
      used (eq m) (fun i => b_dipcomp p = true /\ i = m) (own_entry p m) s1 s2 -> (fits s2 m -> at_field s2 m) ->
      entry s2 m (setpoint_name (b_skew p)) (b_order p) = Some v ->
      displaced n (scale * (b_max p).1 * t) (scale * (b_max p).2 * t) (Z0 (INJ s1)) z -> INJ s2 = with_Z0 z (INJ s1) ->
      bpm_reading w None false s2 = (Ok r, s3) ->
      (forall x, positions n r !! b = Some (Some x) -> x = beam t + v * g * (beam t - x0)) /\
      forall j y, (j < b_downstream p)%nat -> positions (if b_skew p then 1 - n else n)%nat r !! (b + j)%nat = Some (Some y) ->
        y = u j t + v * slope_law (b_fit_order p) x0 (c j) (d j) (beam t).

  Lemma avg_affine (l : list R) a b : l <> [] -> avg (map (fun v => a + v * b) l) = a + avg l * b.
  Proof.
    intros Hne. unfold avg. rewrite map_length. assert (foldr Rplus 0 (map (fun v => a + v * b) l) = INR (length l) * a + foldr Rplus 0 l * b) as ->.
    { clear Hne. induction l as [|y l IH]; [cbn; ring|]. cbn [map]. change (foldr Rplus 0 (?x :: ?l)) with (x + foldr Rplus 0 l). rewrite IH. change (length (y :: l)) with (S (length l)). rewrite S_INR. cbn [foldr]. ring. }
    field. apply not_0_INR. by destruct l.
  Qed.
  Lemma evaluated_centre s n bpm m b str off err x0 : exact_fit polyfit -> b_fit_order p = 1%nat \/ b_fit_order p = 2%nat -> NoDup str -> (2 <= length str)%nat ->
    b_method p = "abs" -> b_skew p = false \/ b_order p <> 1%nat \/ skew_limit s m = None -> NoDup (oBPM (ORD s)) -> oBPM (ORD s) !! b = Some bpm ->
    trackMode (INJ s) = "TBT" -> nTurns (INJ s) = 2%nat ->
    responds s n b m x0 str -> evaluated s n bpm m str (off, err) ->
    exists sh, bending_shift s (b_dipcomp p) n m sh /\ off = x0 + sh.
  Proof.
    intros Hf Ho Hnd HL Hmeth Hskew HndB Hb Hmode Hturns Hlaw (b'&scale&s1&s2&rows&Hb'&(si&_&Hscale)&Hu1&Hu2&HLr&Hrows&He).
    assert (b' = b) as -> by (eapply NoDup_lookup; eauto).
    destruct (Hlaw scale s1 Hu1) as (pos&g&u&c&d&Hinj&Hg&Hresp).
    assert (scale <> 0) as Hs0 by (rewrite Hscale; apply pow_nonzero; lra). specialize (Hinj Hs0).
    set (T := fun k => pos (fraction (b_steps p) k)).
    assert (forall k row q x v, rows !! k = Some row -> str !! q = Some v -> row !! q = Some x ->
      (forall z, x.1 = Some z -> z = T k + v * (g * (T k - x0))) /\
      forall j y, (j < b_downstream p)%nat -> x.2 !! j = Some (Some y) -> y = u j (fraction (b_steps p) k) + v * slope_law (b_fit_order p) x0 (c j) (d j) (T k)) as Hcell.
    { intros k row q x v Hk Hv Hx. specialize (Hrows k row Hk). destruct (Forall2_lookup_lr _ _ _ _ _ _ Hrows Hv Hx) as (s0&t1&t2&r&z&y&U1&U0&Hy&Hen&Hfd&Hz&Hi&Hr&Hp&Hd).
      assert (limited s1 m (b_skew p) (b_order p) y = v) as Ev.
      { rewrite Hmeth in Hy. unfold magnet_request in Hy. rewrite decide_True in Hy by done. injection Hy as <-. unfold limited. destruct (b_skew p) eqn:Es; [|done]. destruct (b_order p) as [|[|]] eqn:Eo; try done.
        destruct Hskew as [?|[?|Hs]]; [done|done|]. assert (skew_limit s1 m = skew_limit s m) as ->; [|by rewrite Hs].
        unfold skew_limit. destruct Hu1 as [Hu1 _]. by rewrite (plain_attr "SkewQuadLimit" ltac:(intros [?|?]; discriminate) ltac:(not_field) _ _ _ _ _ _ Hu1). }
      rewrite Ev in Hen. destruct (Hresp t1 z r t2 _ v U1 Hfd Hen Hz Hi Hr) as [R1 R2]. split.
      - intros z' Hz'. unfold T. rewrite <- Rmult_assoc. apply R1. by rewrite Hp, Hz'.
      - intros j y' Hj Hy'. apply R2; [done|]. destruct Hd as [_ Hd]. destruct (Hd j _ Hy') as [?|[Hl _]]; [done|]. exfalso.
        assert (ORD t1 = ORD s) as EO by (destruct Hu1 as [(_&_&O1&_) _]; destruct U1 as (_&_&O2&_); congruence).
        assert (trackMode (INJ t1) <> "PORB" /\ nTurns (INJ t1) = 2%nat) as [M1 M2].
        { rewrite Hi. destruct Hu1 as [_ EI]. rewrite EI. cbn. rewrite Hmode. done. }
        destruct (C38_reading w None false t1 t2 r (oBPM (ORD t1)) M1 eq_refl Hr) as (_&L1&L2&_). rewrite M2, EO in L1, L2.
        assert (b < length (oBPM (ORD s)))%nat as Hlt by (by eapply lookup_lt_Some).
        unfold positions in Hl. destruct (if b_skew p then 1 - n else n)%nat; lia. }
    assert (str <> []) as Hne by (by destruct str; cbn in HL; [lia|]).
    assert (forall k row x, rows !! k = Some row -> mean_position row x -> x = T k + avg str * (g * (T k - x0))) as Hmean.
    { intros k row x Hk (ps&Hps&Hpne&->). rewrite <- avg_affine by done. f_equal.
      pose proof (Hrows k row Hk) as HF. apply Forall2_length in HF as HFL.
      assert (length ps = length row) as HLp by (rewrite <- (map_length Some ps), <- Hps; apply map_length).
      apply list_eq. intros q. change (@map) with (@fmap list _). rewrite list_lookup_fmap. destruct (str !! q) as [v|] eqn:Ev.
      - destruct (Forall2_lookup_l _ _ _ _ _ HF Ev) as (xx&Hxx&_). destruct (lookup_lt_is_Some_2 ps q) as [z Hz]; [apply lookup_lt_Some in Hxx; lia|].
        rewrite Hz. cbn. f_equal. apply (proj1 (Hcell k row q xx v Hk Ev Hxx)).
        assert (map fst row !! q = Some (Some z)) as Hfst by (rewrite Hps; change (@map) with (@fmap list _); by rewrite list_lookup_fmap, Hz).
        change (@map) with (@fmap list _) in Hfst. rewrite list_lookup_fmap, Hxx in Hfst. by injection Hfst.
      - cbn. apply lookup_ge_None. apply lookup_ge_None in Ev. lia. }
    assert (forall k x, x = T k + avg str * (g * (T k - x0)) -> T k - x0 = (x - x0) / (1 + avg str * g)) as HT.
    { intros k x ->. field. done. }
    destruct (C68_centre polyfit quantile p str n m rows s2 off err x0 Hf Ho Hnd HL) as (sh&Hsh&Hoff); [| |exact He|].
    - intros i1 i2 row1 row2 x Hr1 Hr2 M1 M2. apply (Hmean _ _ _ Hr1), HT in M1. apply (Hmean _ _ _ Hr2), HT in M2.
      assert (T i1 = T i2) as M3 by lra. unfold T in M3. apply Hinj in M3.
      apply lookup_lt_Some in Hr1, Hr2. rewrite HLr in Hr1, Hr2. unfold fraction in M3.
      destruct (decide (b_steps p = 1%nat)) as [E1|E1]; [lia|]. assert (0 < INR (b_steps p - 1)) as Hpos by (apply lt_0_INR; lia).
      apply INR_eq. apply Rplus_eq_reg_l in M3. apply Rmult_eq_reg_r in M3; [done|]. apply Rgt_not_eq. apply Rdiv_lt_0_compat; lra.
    - intros j Hj. set (D := 1 + avg str * g) in *. exists (match b_fit_order p with 1%nat => c j / D | _ => c j / (D * D) end), (d j).
      intros i row x Hr Hx. apply (Hmean _ _ _ Hr), HT in Hx. exists (u j (fraction (b_steps p) i)).
      intros q v ps l y Hv Hq Hy. rewrite (proj2 (Hcell i row q (ps, l) v Hr Hv Hq) j y Hj Hy). f_equal. f_equal.
      unfold slope_law. destruct Ho as [->| ->]; rewrite Hx; field; done.
    - exists sh. split; [|done]. unfold bending_shift in *. destruct (negb (b_dipcomp p) && (n =? 0)%nat); [|done]. destruct Hu2 as [Hu2 _].
      unfold entry, number in *. rewrite !(plain_attr "NomPolynomB" ltac:(intros [?|?]; discriminate) ltac:(not_field) _ _ _ _ _ _ Hu2) in Hsh.
      rewrite (plain_attr "Length" ltac:(intros [?|?]; discriminate) ltac:(not_field) _ _ _ _ _ _ Hu2) in Hsh.
      by rewrite (plain_attr "BendingAngle" ltac:(intros [?|?]; discriminate) ltac:(not_field) _ _ _ _ _ _ Hu2) in Hsh.
  Qed.

  (** The whole alignment on a machine that responds like this (with an exact fit and absolute strengths): every returned entry is the centre of
      the magnet as seen by the BPM, and when it is accepted the offset of the BPM grows by exactly this. *)
  Theorem C68_alignment strengths (s s' : sc R) table n j bpm b m x0 : exact_fit polyfit -> b_fit_order p = 1%nat \/ b_fit_order p = 2%nat ->
    match strengths with inl l => NoDup l /\ (2 <= length l)%nat | inr tab => forall i k l, in_table tab i k = Some l -> NoDup l /\ (2 <= length l)%nat end ->
    b_method p = "abs" -> b_skew p = false \/ b_order p <> 1%nat \/ skew_limit s m = None -> NoDup (oBPM (ORD s)) -> Forall NoDup bpm_ords ->
    (forall i, varied p mag_ords i -> within_limit s (b_skew p) (b_order p) i) ->
    in_table bpm_ords n j = Some bpm -> in_table mag_ords n j = Some m -> oBPM (ORD s) !! b = Some bpm ->
    (forall str, match strengths with inl l => str = l | inr tab => in_table tab n j = Some str end -> responds s n b m x0 str) ->
    trajectory_bba polyfit quantile w bpm_ords mag_ords p strengths s = (Ok table, s') ->
    exists sh err, bending_shift s (b_dipcomp p) n m sh /\ in_table table n j = Some (x0 + sh, err) /\
      (accepted (Some (x0 + sh)) (Some err) (x0 + sh) -> exists o, entry s bpm "Offset" n = Some o /\ entry s' bpm "Offset" n = Some (o + (x0 + sh))).
  Proof.
    intros Hf Ho Hst Hmeth Hskew HndB Hnd Hlim Hb Hm HbB Hlaw H.
    destruct (C67_measured _ _ _ _ _ _ _ _ H Hlim Hb Hm) as (str&[off err]&Hstr&Ht&He).
    assert (NoDup str /\ (2 <= length str)%nat) as [S1 S2]. { destruct strengths as [l|tab]; [by subst str|by eapply Hst]. }
    assert (trackMode (INJ s) = "TBT" /\ nTurns (INJ s) = 2%nat) as [M1 M2].
    { destruct (decide (trackMode (INJ s) = "TBT")) as [E1|E1]; [destruct (decide (nTurns (INJ s) = 2%nat)) as [E2|E2]; [done|]|]; exfalso;
      rewrite C67_refused in H by tauto; discriminate. }
    destruct (evaluated_centre s n bpm m b str off err x0 Hf Ho S1 S2 Hmeth Hskew HndB HbB M1 M2 (Hlaw str Hstr) He) as (sh&Hsh&->).
    exists sh, err. split; [done|]. split; [done|]. intros Ha.
    destruct (C67_restored w polyfit quantile p bpm_ords mag_ords strengths s s' table H Hlim) as (s1&[Hu _]&_&Happ).
    destruct (Happ Hnd n j bpm _ _ Hb Ht Ha) as (o&Ho1&Ho2). exists o. split; [|done]. rewrite <- Ho1. unfold entry.
    by rewrite (plain_attr "Offset" ltac:(intros [?|?]; discriminate) ltac:(not_field) _ _ _ _ _ _ Hu).
  Qed.
End C67.
Print Assumptions C67_measured.
Print Assumptions C68_alignment.

(** * Case: a machine that responds like this *)
(** reading of an exact BPM: the position of the one particle, relative to the offset *)
Lemma exact_reading (w : world R) (s s' : sc R) r b o e ox oy :
  (forall Z, w_post w Z = Z) -> trackMode (INJ s) = "TBT" -> nParticles (INJ s) = 1%nat -> nShots (INJ s) = 1%nat -> (0 < nTurns (INJ s))%nat ->
  randomInjectionZ (INJ s) = replicate 6 0 -> length (Z0 (INJ s)) = 6%nat -> oBPM (ORD s) !! b = Some o -> RING s !! o = Some e -> bpm_state "Noise" e (Bpm 0 0 ox oy 0 0 0 0) ->
  bpm_reading w None false s = (Ok r, s') ->
  let X c := w_track w (RING s) (map (fun z => [z]) (Z0 (INJ s))) (nTurns (INJ s)) (oBPM (ORD s)) c 0%nat b 0%nat in
  (forall x, r_x r !! b = Some (Some x) -> exists v, X 0%nat = Some v /\ x = v - ox) /\ (forall y, r_y r !! b = Some (Some y) -> exists v, X 2%nat = Some v /\ y = v - oy).
Proof.
  intros Hpost Hmode Hpart Hshots Hturns Hjit HLz Ho He Hst H X.
  assert (trackMode (INJ s) <> "PORB") as Hm by (rewrite Hmode; discriminate).
  destruct (C38_reading w None false s s' r (oBPM (ORD s)) Hm eq_refl H) as (_&_&_&_&Hcells).
  assert (b < length (oBPM (ORD s)))%nat as Hb by (by eapply lookup_lt_Some).
  destruct (Hcells b 0%nat Hb Hturns) as (cells&HL&HF&(x&y&Hx&Cx&Hy&Cy)&_). rewrite Hshots in HL. destruct cells as [|c [|]]; try discriminate. clear HL Hcells.
  cbn [Nat.mul Nat.add] in Hx, Hy. inversion HF as [|? ? (s1&Es1&o'&e'&t'&xs&ys&dx&dy&ds&Ho'&He'&Ht'&Hbeam&_&_&_&Hdoc) _]; subst. clear HF.
  rewrite Ho in Ho'. injection Ho' as <-. rewrite Es1 in He'. cbn in He'. rewrite He in He'. injection He' as <-.
  assert (t' = 0%nat) as ->. { destruct Ht' as [?|[_ ?]]; done. }
  assert (noise_of s1 = "Noise") as En. { rewrite Es1. unfold noise_of. cbn. rewrite Hmode. done. }
  rewrite En in Hdoc. specialize (Hdoc _ Hst). unfold beam_at in Hbeam. rewrite Es1 in Hbeam. cbn [INJ set_RNG RING] in Hbeam. rewrite decide_False in Hbeam by (rewrite Hmode; discriminate).
  destruct Hbeam as (Z&s2&HZ&HLx&HLy&Hp).
  assert (Z = map (fun z => [z]) (Z0 (INJ s))) as ->.
  { rewrite Hpart in HZ. unfold generate_bunches in HZ. apply bind_ok in HZ as (t1&t2&Hg&HZ). apply get_ok in Hg as [-> ->]. apply bind_ok in HZ as (dr&t1&_&HZ).
    apply bind_ok in HZ as (jit&t2&Hj&HZ). apply lift_ok in Hj as [Hj ->]. apply bind_ok in HZ as (z&t2&Hz&HZ). apply lift_ok in Hz as [Hz ->]. cbn [Nat.eqb] in HZ. apply ret_ok in HZ as [<- _]. rewrite Hpost.
    cbn [INJ set_RNG] in Hj, Hz. rewrite Hjit in Hj.
    assert (jit = replicate 6 0) as ->.
    { unfold bcast in Hj. rewrite replicate_length in Hj. destruct (6 =? length dr)%nat eqn:E6.
      - apply Nat.eqb_eq in E6. do 7 (destruct dr as [|? dr]; try discriminate). cbn in Hj. injection Hj as <-. num_R. by rewrite !Rmult_0_l.
      - destruct dr as [|d [|]]; try discriminate. cbn in Hj. injection Hj as <-. num_R. by rewrite !Rmult_0_l. }
    destruct (Z0 (INJ s)) as [|z1 zs]; [discriminate|]. do 6 (destruct zs as [|? zs]; try discriminate). cbn in Hz. injection Hz as <-. num_R. by rewrite !Rplus_0_l. }
  assert (length xs = 1%nat) as E1. { rewrite HLx. destruct (Z0 (INJ s)); [discriminate|done]. }
  destruct xs as [|x1 [|]]; try discriminate. destruct ys as [|y1 [|]]; try discriminate. destruct (Hp 0%nat) as [P1 P2]; [cbn; lia|]. cbn in P1, P2. injection P1 as P1. injection P2 as P2. fold (X 0%nat) in P1, P2. fold (X 2%nat) in P2.
  assert (forall l m v, charge_mean [(l, m)] (Some v) -> l = Some v) as Hcm.
  { intros l m v [[_ ?]|(Hu&Hc&v'&Hv&Hm')]; [discriminate|]. injection Hv as <-. destruct l as [l|], m as [q|]; try done. cbn in Hc, Hm'. f_equal. apply (Rmult_eq_reg_r (q + 0)); lra. }
  assert (forall v m, average_of [v] m -> v = Some m) as Havg.
  { intros v m (ns&Hn&Hne&->). inversion Hn as [|? ? Hn1|? ? ? Hn1]; subst; inversion Hn1; subst; [done|]. cbn. f_equal. field. }
  destruct Hdoc as (f&_&[(_&_&E2&E3)|(_&_&[(_&E2&E3)|(mx&my&A1&A2&E2&E3)])]).
  - split; intros v Hv; [rewrite Hx in Hv; injection Hv as ->; apply Hcm in Cx|rewrite Hy in Hv; injection Hv as ->; apply Hcm in Cy]; congruence.
  - split; intros v Hv; [rewrite Hx in Hv; injection Hv as ->; apply Hcm in Cx|rewrite Hy in Hv; injection Hv as ->; apply Hcm in Cy]; congruence.
  - apply Havg in A1, A2. cbn [nx ny Properties_Beam.ox Properties_Beam.oy cx cy roll se] in E2, E3. rewrite cos_0, sin_0 in E2, E3. split; intros v Hv.
    + rewrite Hx in Hv. injection Hv as ->. apply Hcm in Cx. exists mx. split; [congruence|]. rewrite E2 in Cx. injection Cx as <-. unfold Rdiv. ring.
    + rewrite Hy in Hv. injection Hv as ->. apply Hcm in Cy. exists my. rewrite A1 in P1. rewrite <- P1 in P2. split; [congruence|]. rewrite E3 in Cy. injection Cy as <-. unfold Rdiv. ring.
Qed.
(** the machine of C67_case over the reals, without losses *)
Definition lens_world : world R :=
  MkWorld (fun ring Z _ _ c p r t =>
      let k := match (e ← ring !! 1%nat; e !! "PolynomB") with Some (VVec (_ :: b :: _)) => b | _ => 0 end in
      let x0 := if (c =? 0)%nat then 1 / 2000 else -1 / 4000 in
      x ← (q ← Z !! c; q !! p); Some (x - INR (S r) / 10 * k * (x - x0)))
    (fun _ _ _ _ => None) (fun _ => ([], [])) (fun Z => Z).
Definition lens_magnet : elem R :=
  Examples.mk [("SetPointA", VVec [0; 0]); ("SetPointB", VVec [0; 1]); ("CalErrorA", VVec [0; 0]); ("CalErrorB", VVec [0; 0]); ("NomPolynomA", VVec [0; 0]); ("NomPolynomB", VVec [0; 1]);
    ("PolynomA", VVec [0; 0]); ("PolynomB", VVec [0; 1]); ("MaxOrder", VInt 1); ("PassMethod", VStr "StrMPoleSymplectic4Pass"); ("Length", VNum 1)].
Definition lens_bpm (o : list R) : elem R :=
  Examples.mk [("Noise", VVec [0; 0]); ("NoiseCO", VVec [0; 0]); ("Offset", VVec o); ("SupportOffset", VVec [0; 0]); ("CalError", VVec [0; 0]);
      ("Roll", VNum 0); ("SupportRoll", VNum 0); ("SumError", VNum 0)].
Definition lens_machine (sg : sig R) : sc R :=
  MkSC [lens_magnet; lens_magnet; lens_bpm [1 / 5000; 0]; lens_bpm [0; 0]; lens_bpm [0; 0]] [] (MkInj 1 (replicate 6 0) (replicate 6 0) (replicate 6 (replicate 6 0)) (replicate 6 0) 1 2 1 "TBT")
    sg (MkOrd [2; 3; 4]%nat [] [] [] [] [] [] [] []) (replicate 2000 0).
Definition lens_par : bba_par R := MkPar 5 1 1 false ABS [0%nat] [1; 9 / 10] 3 (1 / 1000, 0) true.
Theorem C68_responding_machine sg : responds lens_world lens_par [[1%nat]] (lens_machine sg) 0 0 1 (1 / 2000 - 1 / 5000) [-1 / 2; 1 / 2].
Proof.
  intros scale s1 [Hu1 Hi1]. set (beam := fun t => scale * (1 / 1000) * t - 1 / 5000).
  exists beam, (- (1 / 10)), (fun j t => beam t + 1 / 5000 - match j with 0%nat => 1 / 5000 | _ => 0 end), (fun j => - (INR (S j) / 10)), (fun _ => 0).
  split; [|split].
  - intros Hs t t' E. unfold beam in E. apply (Rmult_eq_reg_l (scale * (1 / 1000))); [lra|]. apply Rmult_integral_contrapositive_currified; lra.
  - unfold avg. cbn. lra.
  - intros s2 z r s3 t v Hu2 Hfd Hv Hz Hi2 Hr.
    assert (forall i, varied lens_par [[1%nat]] i -> i = 0%nat \/ i = 1%nat) as Hvar.
    { intros i [Hi|(n&j&Hi)]; [left; by apply elem_of_list_singleton in Hi|right]. unfold in_table in Hi. destruct n as [|n]; [|discriminate]. destruct j as [|j]; [|discriminate]. cbn in Hi. congruence. }
    assert (forall i m, child_of (lens_machine sg) i m -> (m <= 1)%nat -> False) as Hch0.
    { intros i m (l&Hl&_) Hm. destruct m as [|[|]]; [vm_compute in Hl; discriminate|vm_compute in Hl; discriminate|lia]. }
    assert (forall i m, child_of s1 i m -> (m <= 1)%nat -> False) as Hch1.
    { intros i m Hc Hm. apply (used_child _ _ _ _ _ _ _ Hu1) in Hc. by eapply Hch0. }
    (* the BPMs *)
    assert (forall o a, (1 < o)%nat -> attr_at s2 o a = attr_at (lens_machine sg) o a) as Hbpm.
    { intros o a Ho. destruct Hu1 as (_&_&_&_&A1&_). destruct Hu2 as (_&_&_&_&A2&_). rewrite A2, A1; [done|..].
      - intros [_ Hp]. apply Hvar in Hp. lia.
      - intros [_ [Hp|(m&Hm&Hc)]]; [apply Hvar in Hp; lia|]. eapply Hch0; [exact Hc|]. apply Hvar in Hm. lia.
      - intros [_ <-]. lia.
      - intros [_ [<-|(m&<-&Hc)]]; [lia|]. by eapply Hch1. }
    assert (ORD s2 = ORD (lens_machine sg)) as HO. { destruct Hu1 as (_&_&O1&_). destruct Hu2 as (_&_&O2&_). congruence. }
    assert (length (RING s2) = 5%nat) as HLR. { destruct Hu1 as (_&_&_&L1&_). destruct Hu2 as (_&_&_&L2&_). rewrite L2, L1. done. }
    assert (forall b o ox oy, oBPM (ORD (lens_machine sg)) !! b = Some o -> RING (lens_machine sg) !! o = Some (lens_bpm [ox; oy]) -> (1 < o)%nat ->
      exists e, RING s2 !! o = Some e /\ bpm_state "Noise" e (Bpm 0 0 ox oy 0 0 0 0)) as Hstate.
    { intros b o ox oy _ Ho Hlt. assert (o < length (RING s2))%nat as Hlo by (rewrite HLR; by apply lookup_lt_Some in Ho).
      destruct (lookup_lt_is_Some_2 _ _ Hlo) as [e He]. exists e. split; [done|].
      assert (forall a, e !! a = lens_bpm [ox; oy] !! a) as Ha.
      { intros a. specialize (Hbpm o a Hlt). unfold attr_at in Hbpm. rewrite He, Ho in Hbpm. exact Hbpm. }
      unfold bpm_state. cbn [nx ny Properties_Beam.ox Properties_Beam.oy cx cy roll se]. rewrite !Ha. split_and!; try reflexivity.
      - exists ox, oy, 0, 0. split_and!; try reflexivity; lra.
      - exists 0, 0. split_and!; try reflexivity; lra. }
    (* the magnet *)
    assert (entry s2 1 "SetPointA" 1 = Some 0) as HspA.
    { pose proof Hu1 as (_&_&_&_&_&E1). pose proof Hu2 as (_&_&_&_&_&E2). pose proof (E2 1%nat true 1%nat) as E2'. pose proof (E1 1%nat true 1%nat) as E1'. cbn [setpoint_name] in E1', E2'.
      rewrite E2', E1'; [reflexivity|..]; unfold phase_entries, own_entry; cbn [b_skew b_order lens_par]; intros Hx; destruct_and? Hx; discriminate. }
    assert (fits s2 1) as Hfits.
    { intros sk. right. unfold entry in Hv, HspA. cbn [lens_par b_skew b_order setpoint_name] in Hv. unfold array_of.
      destruct sk; cbn [setpoint_name]; [destruct (attr_at s2 1 "SetPointA") as [[]|]|destruct (attr_at s2 1 "SetPointB") as [[]|]]; try discriminate;
      [apply lookup_lt_Some in HspA|apply lookup_lt_Some in Hv]; lia. }
    assert (forall a, a ∉ field_attributes -> ~ of_setpoints a -> attr_at s2 1 a = lens_magnet !! a) as Hmag.
    { intros a H1 H2. rewrite (plain_attr a H2 H1 _ _ _ _ _ _ Hu2), (plain_attr a H2 H1 _ _ _ _ _ _ Hu1). reflexivity. }
    destruct (Hfd Hfits 1%nat false (or_introl eq_refl)) as (l&Hl&HLl&Hat). cbn [field_name] in Hl.
    assert (exists l0 l2, l = l0 :: v :: l2) as (l0&l2&->).
    { specialize (Hat 1%nat). unfold expected_field, systematic, driven in Hat. unfold array_of at 2 3 in Hat. unfold table_of in Hat. cbn [cal_name offset_name systematic_name] in Hat.
      rewrite !Hmag in Hat by first [not_field|intros [?|?]; discriminate]. 
      change (lens_magnet !! "CalErrorB") with (Some (VVec [0; 0])) in Hat. change (lens_magnet !! "PolynomBOffset") with (None : option (val R)) in Hat.
      change (lens_magnet !! "SysPolBFromA") with (None : option (val R)) in Hat. change (lens_magnet !! "SysPolBFromB") with (None : option (val R)) in Hat. cbn [sum_over setpoint_name] in Hat.
      unfold entry in Hv. cbn [lens_par b_skew b_order setpoint_name] in Hv. unfold expected_length, array_of in HLl. unfold array_of in Hat. cbn [setpoint_name] in HLl.
      destruct (attr_at s2 1 "SetPointB") as [[]|]; try discriminate. match type of Hv with ?q !! _ = _ => rename q into sp end.
      assert (1 < length l)%nat as H1. { apply lookup_lt_Some in Hv. rewrite HLl. unfold longest. cbn [app map list_max foldr]. lia. }
      destruct l as [|l0 [|l1 l2]]; cbn in H1; [lia|lia|]. exists l0, l2. f_equal. f_equal.
      assert (at0 sp 1 = v) as Esp by (unfold at0; by rewrite Hv). rewrite Esp in Hat. unfold at0 in Hat. cbn in Hat. lra. }
    (* the injection *)
    destruct Hz as (HLz&(z0&z1&Z0&Z1&Z2&Z3)&_). rewrite Hi1 in Z0, HLz, Hi2. cbn in Z0. injection Z0 as <-.
    assert (z !! 0%nat = Some (scale * (1 / 1000) * t)) as Hz0. { cbn in Z2. rewrite Z2. f_equal. ring. }
    assert (forall b x, w_track lens_world (RING s2) (map (fun z => [z]) (Z0 (INJ s2))) (nTurns (INJ s2)) (oBPM (ORD s2)) 0 0 b 0 = Some x ->
      x = scale * (1 / 1000) * t - INR (S b) / 10 * v * (scale * (1 / 1000) * t - 1 / 2000)) as Htrack.
    { intros b x Hx. rewrite Hi2 in Hx. unfold lens_world in Hx. cbn [w_track Z0 with_Z0] in Hx. 
      assert ((e ← RING s2 !! 1%nat; e !! "PolynomB") = Some (VVec (l0 :: v :: l2))) as EP by exact Hl. rewrite EP in Hx.
      change (@map) with (@fmap list _) in Hx. rewrite list_lookup_fmap, Hz0 in Hx. cbn [Nat.eqb] in Hx. by injection Hx as <-. }
    assert (forall b o ox oy x, oBPM (ORD (lens_machine sg)) !! b = Some o -> RING (lens_machine sg) !! o = Some (lens_bpm [ox; oy]) -> (1 < o)%nat ->
      positions 0 r !! b = Some (Some x) -> x = scale * (1 / 1000) * t - INR (S b) / 10 * v * (scale * (1 / 1000) * t - 1 / 2000) - ox) as Hread.
    { intros b o ox oy x Ho He Hlt Hx. destruct (Hstate b o ox oy Ho He Hlt) as (e&He2&Hst).
      destruct (exact_reading lens_world s2 s3 r b o e ox oy) as [Hrx _]; try done.
      - by rewrite Hi2.
      - by rewrite Hi2.
      - by rewrite Hi2.
      - rewrite Hi2. cbn. lia.
      - by rewrite Hi2.
      - rewrite Hi2. cbn. exact HLz.
      - by rewrite HO.
      - destruct (Hrx x Hx) as (y&Hy&->). by rewrite (Htrack b y Hy). }
    split.
    + intros x Hx. rewrite (Hread 0%nat 2%nat (1 / 5000) 0 x eq_refl eq_refl ltac:(lia) Hx). unfold beam. change (INR 1) with 1. field.
    + intros j y Hj Hy. cbn in Hj. unfold slope_law. cbn [lens_par b_fit_order]. destruct j as [|[|[|j]]]; [..|lia].
      * rewrite (Hread 0%nat 2%nat (1 / 5000) 0 y eq_refl eq_refl ltac:(lia) Hy). unfold beam. field.
      * rewrite (Hread 1%nat 3%nat 0 0 y eq_refl eq_refl ltac:(lia) Hy). unfold beam. field.
      * rewrite (Hread 2%nat 4%nat 0 0 y eq_refl eq_refl ltac:(lia) Hy). unfold beam. field.
Qed.
Print Assumptions C68_responding_machine.
