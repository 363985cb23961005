(** C104: the figures of the injection fits. *)
From Coq Require Import Reals Lra Lia ZArith QArith.
From stdpp Require Import base gmap strings list.
From Verif Require Import Num Base Model_Arr Model_SC Model_Err Lemmas Model_Beam Proofs_Beam Model_Orbit Model_Lattice Model_Scan Model_Bba Model_Inject Model_InjectPlot Model_BeamPlot Properties_Orbit Properties_Support Properties_Interp Properties_Inject Properties_BeamPlot Properties_Figure.
Local Open Scope string_scope.
Local Open Scope list_scope.
Local Open Scope R_scope.

(** * Specification *)
(** the readings of a plane, horizontal (0) or vertical (1) *)
Definition seen (plane : nat) (r : reading R) : list (option R) := match plane with O => r_x r | _ => r_y r end.
(** the panel shows the two readings [u], [v] at [a], [b]; a line through both; and the line of the injected coordinates [z] *)
Definition drift_shown (plane : nat) (a b : R) (u v : option R) (z : list R) (p : drift_panel (T:=R)) : Prop :=
  exists x y z0 z1, u = Some x /\ v = Some y /\ z !! (2 * plane)%nat = Some z0 /\ z !! (2 * plane + 1)%nat = Some z1 /\
    j_marks p = [(a, Some (1000 * x)); (b, Some (1000 * y))] /\ j_fit p = [(a, 1000 * x); (b, 1000 * y)] /\
    j_real p = [(a, 1000 * (z0 + z1 * a)); (b, 1000 * (z0 + z1 * b))].
(** the readings [l] of the BPMs numbered [inds], at the places of these *)
Definition shown_at (s : sc R) (inds : list nat) (l : list (option R)) (marks : list (R * option R)) : Prop :=
  length marks = length inds /\ forall k i, inds !! k = Some i -> exists o v, oBPM (ORD s) !! i = Some o /\ l !! i = Some v /\ marks !! k = Some (position s o, millimetres v).

(** * Drift *)
Lemma omilli_mm (x : option R) : omilli x = millimetres x.
Proof. by destruct x. Qed.
Lemma drift_drawn_inv w fit (s s' : sc R) n_dims d ps : fit_injection_drift_drawn w fit n_dims s = (Ok (d, ps), s') ->
  fit_injection_drift w fit s = (Ok d, s') /\ exists r m bx bz ol of sl se sf l, bpm_reading w None false s = (Ok r, s') /\ length (oBPM (ORD s)) = S m /\
    columns [m; S m] (r_x r) = Ok bx /\ columns [m; S m] (r_y r) = Ok bz /\ oBPM (ORD s) !! m = Some ol /\ oBPM (ORD s) !! 0%nat = Some of /\
    spos (RING s) !! ol = Some sl /\ spos (RING s) !! (length (spos (RING s)) - 1)%nat = Some se /\ spos (RING s) !! of = Some sf /\
    rmap (one_drift_panel [sl - se; sf] bx bz d (Z0 (INJ s'))) n_dims = Ok l /\ ps = combine n_dims l.
Proof.
  intros H. unfold fit_injection_drift_drawn in H. unfold fit_injection_drift. apply bind_ok in H as (s0&t&H1&H). apply get_ok in H1 as [-> ->]. unfold bind at 1, get. cbn beta iota.
  apply bind_ok in H as (r&s1&H1&H). unfold bind at 1. rewrite H1. destruct (length (oBPM (ORD s))) as [|m] eqn:Hn; [done|].
  apply bind_ok in H as (bx&t&H2&H). unfold bind at 1. rewrite H2. apply lift_ok in H2 as [H2 ->]. apply bind_ok in H as (bz&t&H3&H). unfold bind at 1. rewrite H3. apply lift_ok in H3 as [H3 ->].
  apply bind_ok in H as (a&t&A&H). unfold bind at 1. rewrite A. apply lift_ok in A as [A ->]. apply idx_ok in A. apply bind_ok in H as (b&t&B&H). unfold bind at 1. rewrite B. apply lift_ok in B as [B ->]. apply idx_ok in B.
  apply bind_ok in H as (sl&t&C&H). unfold bind at 1. rewrite C. apply lift_ok in C as [C ->]. apply idx_ok in C. apply bind_ok in H as (se&t&D&H). unfold bind at 1. rewrite D. apply lift_ok in D as [D ->]. apply idx_ok in D.
  apply bind_ok in H as (sf&t&E&H). unfold bind at 1. rewrite E. apply lift_ok in E as [E ->]. apply idx_ok in E.
  apply bind_ok in H as (dd&t&K&H). unfold bind at 1. rewrite K. apply lift_ok in K as [K ->]. destruct (no_gaps dd) as [d'|] eqn:Hg; [|done].
  apply bind_ok in H as (s2&t&H4&H). apply get_ok in H4 as [-> ->]. apply bind_ok in H as (l&t&H5&H). apply lift_ok in H5 as [H5 ->]. apply ret_ok in H as [H ->].
  pose proof (f_equal fst H) as E1. pose proof (f_equal snd H) as E2. cbn [fst snd] in E1, E2. subst d'.
  split; [done|]. exists r, m, bx, bz, a, b, sl, se, sf, l. split_and!; done.
Qed.
Theorem C104_drift w fit (s s' : sc R) n_dims d ps n first last :
  through_two fit -> oBPM (ORD s) !! 0%nat = Some first -> oBPM (ORD s) !! n = Some last -> length (oBPM (ORD s)) = S n ->
  position s last - position s (length (RING s)) <> position s first ->
  fit_injection_drift_drawn w fit n_dims s = (Ok (d, ps), s') ->
  fit_injection_drift w fit s = (Ok d, s') /\ map fst ps = n_dims /\ exists r, bpm_reading w None false s = (Ok r, s') /\
    forall plane p, (plane, p) ∈ ps -> (plane < 2)%nat /\ exists u v, seen plane r !! n = Some u /\ seen plane r !! S n = Some v /\
      drift_shown plane (position s last - position s (length (RING s))) (position s first) u v (Z0 (INJ s)) p.
Proof.
  intros F Hf Hl Hn Hne H. apply drift_drawn_inv in H as (H&r&m&bx&bz&ol&of&sl&se&sf&l&Hr&Hm&Cx&Cz&A&B&C&D&E&Hps&->). rewrite Hn in Hm. injection Hm as <-. rewrite Hf in B. injection B as <-. rewrite Hl in A. injection A as <-.
  assert (forall i x, spos (RING s) !! i = Some x -> x = position s i) as Hpos.
  { intros i x Hx. pose proof (lookup_lt_Some _ _ _ Hx) as L. rewrite spos_length in L. rewrite spos_position in Hx by lia. congruence. }
  rewrite spos_length in D. replace (S (length (RING s)) - 1)%nat with (length (RING s)) in D by lia.
  pose proof (Hpos _ _ C). pose proof (Hpos _ _ D). pose proof (Hpos _ _ E). subst sl se sf.
  pose proof (C71_drift w fit s s' d n first last _ _ _ F Hf Hl Hn E C D Hne H) as (Q&r'&x&x'&y&y'&Hr'&Ed&X1&X2&Y1&Y2). rewrite Hr in Hr'. injection Hr' as <-.
  apply columns_two in Cx as (xa&xb&Xa&Xb&->). apply columns_two in Cz as (ya&yb&Ya&Yb&->). rewrite X1 in Xa. rewrite X2 in Xb. rewrite Y1 in Ya. rewrite Y2 in Yb. injection Xa as <-. injection Xb as <-. injection Ya as <-. injection Yb as <-.
  destruct (quiet_same _ _ Q) as (_&_&EI&_&_). rewrite EI in Hps. apply rmap_ok in Hps.
  split; [done|]. split. { pose proof (Forall2_length _ _ _ Hps) as L. clear -L. revert l L. induction n_dims as [|a n_dims IH]; intros [|b l] L; try done. cbn. f_equal. apply IH. by injection L. }
  exists r. split; [done|]. intros plane p Hin. apply elem_of_list_lookup in Hin as [k Hk]. rewrite combine_lookup in Hk. destruct (n_dims !! k) as [pl|] eqn:Ek; [|done]. destruct (l !! k) as [q|] eqn:El; [|done]. injection Hk as -> ->.
  pose proof (Forall2_lookup_lr _ _ _ _ _ _ Hps Ek El) as Ho. unfold one_drift_panel in Ho. destruct (2 <=? plane)%nat eqn:E2; [done|]. apply Nat.leb_gt in E2. split; [done|].
  apply rbind_ok in Ho as (d1&D1&Ho). apply rbind_ok in Ho as (d0&D0&Ho). apply rbind_ok in Ho as (z1&Z1&Ho). apply rbind_ok in Ho as (z0&Zz&Ho). apply idx_ok in D1, D0, Z1, Zz.
  apply (f_equal (fun r => match r with Ok l => l | Err _ => p end)) in Ho. cbv beta iota in Ho. subst p d.
  destruct plane as [|[|plane]]; [| |lia]; cbn in D1, D0; injection D1 as <-; injection D0 as <-; cbn [seen].
  - do 2 eexists. split; [exact X1|]. split; [exact X2|]. do 2 eexists. exists z0, z1. split_and!; [reflexivity|reflexivity|done|done|..]; cbn [j_marks j_fit j_real Nat.eqb combine map].
    + unfold omilli. cbn. num_R. done.
    + cbn. num_R. unfold milli. num_R. f_equal; [f_equal; lra|]. f_equal. f_equal. lra.
    + cbn. num_R. unfold milli. num_R. f_equal; [f_equal; lra|]. f_equal. f_equal. lra.
  - do 2 eexists. split; [exact Y1|]. split; [exact Y2|]. do 2 eexists. exists z0, z1. split_and!; [reflexivity|reflexivity|done|done|..]; cbn [j_marks j_fit j_real Nat.eqb combine map].
    + unfold omilli. cbn. num_R. done.
    + cbn. num_R. unfold milli. num_R. f_equal; [f_equal; lra|]. f_equal. f_equal. lra.
    + cbn. num_R. unfold milli. num_R. f_equal; [f_equal; lra|]. f_equal. f_equal. lra.
Qed.
Print Assumptions C104_drift.
Theorem C104_drift_returns w fit (s s' : sc R) n_dims d : fit_injection_drift w fit s = (Ok d, s') -> Forall (fun n => n < 2)%nat n_dims -> (4 <= length (Z0 (INJ s)))%nat ->
  exists ps, fit_injection_drift_drawn w fit n_dims s = (Ok (d, ps), s').
Proof.
  intros H Hd Hz. unfold fit_injection_drift in H. unfold fit_injection_drift_drawn. apply bind_ok in H as (s0&t&H1&H). apply get_ok in H1 as [-> ->]. unfold bind at 1, get. cbn beta iota.
  apply bind_ok in H as (r&s1&H1&H). unfold bind at 1. rewrite H1. destruct (length (oBPM (ORD s))) as [|m] eqn:Hn; [done|].
  apply bind_ok in H as (bx&t&H2&H). unfold bind at 1. rewrite H2. apply lift_ok in H2 as [H2 ->]. apply bind_ok in H as (bz&t&H3&H). unfold bind at 1. rewrite H3. apply lift_ok in H3 as [H3 ->].
  apply bind_ok in H as (a&t&A&H). unfold bind at 1. rewrite A. apply lift_ok in A as [A ->]. apply bind_ok in H as (b&t&B&H). unfold bind at 1. rewrite B. apply lift_ok in B as [B ->].
  apply bind_ok in H as (sl&t&C&H). unfold bind at 1. rewrite C. apply lift_ok in C as [C ->]. apply bind_ok in H as (se&t&D&H). unfold bind at 1. rewrite D. apply lift_ok in D as [D ->].
  apply bind_ok in H as (sf&t&E&H). unfold bind at 1. rewrite E. apply lift_ok in E as [E ->].
  apply bind_ok in H as (dd&t&K&H). unfold bind at 1. rewrite K. apply lift_ok in K as [K ->]. destruct (no_gaps dd) as [d'|] eqn:Hg; [|done]. apply ret_ok in H as [Ed ->]. subst d'.
  unfold bind at 1. unfold bind at 1, lift at 1.
  destruct (quiet_same _ _ (pres_run quiet _ _ _ _ (quiet_reading w None false) H1)) as (_&_&EI&_&_).
  assert (length d = 6%nat) as Ld.
  { unfold fit_bpm_data in K. apply rbind_ok in K as (fx&_&K). apply rbind_ok in K as (fy&_&K). injection K as <-. apply no_gaps_spec in Hg. apply (f_equal length) in Hg. rewrite map_length in Hg. by cbn in Hg. }
  assert (exists l, rmap (one_drift_panel [nsub sl se; sf] bx bz d (Z0 (INJ s1))) n_dims = Ok l) as [l ->]; [|eexists; reflexivity].
  rewrite EI. clear -Hd Hz Ld. induction Hd as [|n l Hn Hl [r Hr]]; [by exists []|]. cbn [rmap]. unfold one_drift_panel at 1. rewrite (proj2 (Nat.leb_gt 2 n)) by lia. unfold idx.
  destruct (lookup_lt_is_Some_2 d (2 * n + 1)) as [? ->]; [lia|]. destruct (lookup_lt_is_Some_2 d (2 * n)) as [? ->]; [lia|].
  destruct (lookup_lt_is_Some_2 (Z0 (INJ s)) (2 * n + 1)) as [? ->]; [lia|]. destruct (lookup_lt_is_Some_2 (Z0 (INJ s)) (2 * n)) as [? ->]; [lia|]. cbn [rbind]. rewrite Hr. cbn [rbind]. eauto.
Qed.
Print Assumptions C104_drift_returns.

(** * Trajectory *)
Lemma shown_at_of (s : sc R) inds refs places l l' : rmap (idx (oBPM (ORD s))) inds = Ok refs -> rmap (idx (spos (RING s))) refs = Ok places -> columns inds l = Ok l' ->
  shown_at s inds l (combine places (map omilli l')).
Proof.
  intros Hr Hp Hl. apply rmap_ok in Hr, Hp, Hl. pose proof (Forall2_length _ _ _ Hr) as L1. pose proof (Forall2_length _ _ _ Hp) as L2. pose proof (Forall2_length _ _ _ Hl) as L3.
  split; [rewrite combine_length, map_length; lia|]. intros k i Hk.
  destruct (Forall2_lookup_l _ _ _ _ _ Hr Hk) as (o&Ho&Eo). destruct (Forall2_lookup_l _ _ _ _ _ Hp Ho) as (x&Hx&Ex). destruct (Forall2_lookup_l _ _ _ _ _ Hl Hk) as (v&Hv&Ev).
  apply idx_ok in Eo, Ex, Ev. exists o, v. split; [done|]. split; [done|]. rewrite combine_lookup, Hx. change (map omilli l') with (omilli <$> l'). rewrite list_lookup_fmap, Hv. cbn [fmap option_fmap option_map].
  pose proof (lookup_lt_Some _ _ _ Ex) as L. rewrite spos_length in L. rewrite spos_position in Ex by lia. injection Ex as ->. by rewrite omilli_mm.
Qed.
(** The figure: the readings before the correction, and those taken with twice the correction.  The machine and the result are those of the fit. *)
Theorem C104_trajectory w fmin (s s' : sc R) inds d p q : length (Z0 (INJ s)) = 6%nat -> fit_injection_trajectory_drawn w fmin inds s = (Ok (d, (p, q)), s') ->
  (exists shown, fit_injection_trajectory w fmin inds true s = (Ok (d, shown), s')) /\
  exists r s1 s2 r2 s3, bpm_reading w None false s = (Ok r, s1) /\ only_Z0 s s2 /\ Z0 (INJ s2) = zip_with Rplus (zip_with Rplus (Z0 (INJ s)) d) d /\ bpm_reading w None false s2 = (Ok r2, s3) /\
    shown_at s inds (r_x r) (j_initial p) /\ shown_at s inds (r_y r) (j_initial q) /\ shown_at s inds (r_x r2) (j_after p) /\ shown_at s inds (r_y r2) (j_after q).
Proof.
  intros Hz H. unfold fit_injection_trajectory_drawn in H. unfold fit_injection_trajectory. apply bind_ok in H as (s0&t&H1&H). apply get_ok in H1 as [-> ->]. unfold bind at 1, get. cbn beta iota.
  apply bind_ok in H as (r&s1&H1&H). unfold bind at 1. rewrite H1. pose proof (pres_run quiet _ _ _ _ (quiet_reading w None false) H1) as Q1.
  apply bind_ok in H as (bx&t&H2&H). unfold bind at 1. rewrite H2. apply lift_ok in H2 as [H2 ->]. apply bind_ok in H as (bz&t&H3&H). unfold bind at 1. rewrite H3. apply lift_ok in H3 as [H3 ->].
  apply bind_ok in H as (refs&t&H4&H). unfold bind at 1. rewrite H4. apply lift_ok in H4 as [H4 ->]. apply bind_ok in H as (x&t&H5&H). unfold bind at 1. rewrite H5. apply lift_ok in H5 as [H5 ->].
  destruct (length x =? 4)%nat eqn:Hx; [|done]. apply Nat.eqb_eq in Hx. cbn [negb] in H |- *.
  destruct (no_gaps _) as [d'|] eqn:Hg; [|done]. apply no_gaps_spec in Hg.
  assert (Ld : length d' = 6%nat) by (apply (f_equal length) in Hg; rewrite app_length, !map_length, Hx in Hg; by cbn in Hg).
  apply bind_ok in H as (z&t&Hz1&H). unfold bind at 1. rewrite Hz1. apply lift_ok in Hz1 as [Hz1 ->]. rewrite bcast_same in Hz1 by congruence. injection Hz1 as <-.
  destruct (quiet_same _ _ Q1) as (E1&E2&E3&E4&E5).
  apply bind_ok in H as ([]&s2&M1&H). unfold bind at 1. rewrite M1. cbv [mod_INJ modify] in M1. injection M1 as <-.
  apply bind_ok in H as (z2&t&Hz2&H). unfold bind at 1. rewrite Hz2. apply lift_ok in Hz2 as [Hz2 ->]. rewrite bcast_same in Hz2 by (rewrite zip_with_length; lia). injection Hz2 as <-.
  apply bind_ok in H as ([]&s2&M1&H). unfold bind at 1. rewrite M1. cbv [mod_INJ modify] in M1. injection M1 as <-.
  apply bind_ok in H as (r2&s2&R2&H). unfold bind at 1. rewrite R2.
  apply bind_ok in H as (nx&t&N1&H). unfold bind at 1. rewrite N1. apply lift_ok in N1 as [N1 ->]. apply bind_ok in H as (ny&t&N2&H). unfold bind at 1. rewrite N2. apply lift_ok in N2 as [N2 ->].
  apply bind_ok in H as (z3&t&Hz3&H). unfold bind at 1. rewrite Hz3. apply lift_ok in Hz3 as [Hz3 ->].
  apply bind_ok in H as ([]&s3&M1&H). unfold bind at 1. rewrite M1. apply bind_ok in H as (places&t&Hpl&H). apply lift_ok in Hpl as [Hpl ->]. apply ret_ok in H as [E ->].
  pose proof (f_equal fst E) as Ea. pose proof (f_equal (fun v => fst (snd v)) E) as Eb. pose proof (f_equal (fun v => snd (snd v)) E) as Ec. cbn [fst snd] in Ea, Eb, Ec. subst d' p q.
  split; [eexists; reflexivity|]. match type of R2 with bpm_reading _ _ _ ?m = _ => exists r, s1, m, r2, s2 end. split; [done|]. split; [|split; [|split; [exact R2|]]].
  - unfold only_Z0. cbn. rewrite E1, E2, E3, E4, E5. done.
  - done.
  - cbn [j_initial j_after]. split_and!; eapply shown_at_of; eassumption.
Qed.
Print Assumptions C104_trajectory.
(** It can be drawn whenever the fit with figure returns and the BPMs are in the ring. *)
Theorem C104_trajectory_returns w fmin (s s' : sc R) inds d shown : (forall o, o ∈ oBPM (ORD s) -> (o < length (RING s))%nat) -> fit_injection_trajectory w fmin inds true s = (Ok (d, shown), s') ->
  exists fig, fit_injection_trajectory_drawn w fmin inds s = (Ok (d, fig), s').
Proof.
  intros Hin H. unfold fit_injection_trajectory in H. unfold fit_injection_trajectory_drawn. apply bind_ok in H as (s0&t&H1&H). apply get_ok in H1 as [-> ->]. unfold bind at 1, get. cbn beta iota.
  apply bind_ok in H as (r&s1&H1&H). unfold bind at 1. rewrite H1.
  apply bind_ok in H as (bx&t&H2&H). unfold bind at 1. rewrite H2. apply lift_ok in H2 as [H2 ->]. apply bind_ok in H as (bz&t&H3&H). unfold bind at 1. rewrite H3. apply lift_ok in H3 as [H3 ->].
  apply bind_ok in H as (refs&t&H4&H). unfold bind at 1. rewrite H4. apply lift_ok in H4 as [H4 ->]. apply bind_ok in H as (x&t&H5&H). unfold bind at 1. rewrite H5. apply lift_ok in H5 as [H5 ->].
  destruct (length x =? 4)%nat eqn:Hx; [|done]. cbn [negb] in H |- *. destruct (no_gaps _) as [d'|] eqn:Hg; [|done].
  apply bind_ok in H as (z&t&Hz1&H). unfold bind at 1. rewrite Hz1. apply lift_ok in Hz1 as [Hz1 ->].
  apply bind_ok in H as ([]&s2&M1&H). unfold bind at 1. rewrite M1.
  apply bind_ok in H as (z2&t&Hz2&H). unfold bind at 1. rewrite Hz2. apply lift_ok in Hz2 as [Hz2 ->].
  apply bind_ok in H as ([]&s3&M2&H). unfold bind at 1. rewrite M2. apply bind_ok in H as (r2&s4&R2&H). unfold bind at 1. rewrite R2.
  apply bind_ok in H as (nx&t&N1&H). unfold bind at 1. rewrite N1. apply lift_ok in N1 as [N1 ->]. apply bind_ok in H as (ny&t&N2&H). unfold bind at 1. rewrite N2. apply lift_ok in N2 as [N2 ->].
  apply bind_ok in H as (z3&t&Hz3&H). unfold bind at 1. rewrite Hz3. apply lift_ok in Hz3 as [Hz3 ->].
  apply bind_ok in H as ([]&s5&M3&H). unfold bind at 1. rewrite M3. apply ret_ok in H as [E ->]. pose proof (f_equal fst E) as Ea. cbn [fst] in Ea. subst d'.
  unfold bind at 1, lift at 1. rewrite (rmap_map_total _ (position s) refs); [eexists; reflexivity|].
  intros o Ho. apply rmap_ok in H4. apply elem_of_list_lookup in Ho as [k Hk]. destruct (Forall2_lookup_r _ _ _ _ _ H4 Hk) as (i&_&Ei). apply idx_ok in Ei.
  unfold idx. rewrite spos_position; [done|]. assert (o < length (RING s))%nat; [|lia]. apply Hin. by eapply elem_of_list_lookup_2.
Qed.
Print Assumptions C104_trajectory_returns.

(** Finding: with readings that depend only on the injected coordinates, affinely, the figure shows as "After correction" the mirror image: every point is twice the
    reading after the correction minus the one before.  A perfect correction is shown as the initial trajectory with opposite sign. *)
Definition affine_at (w : world R) (s : sc R) (i : nat) (f : list R -> R) : Prop :=
  (forall z d, length z = 6%nat -> length d = 6%nat -> f (zip_with Rplus (zip_with Rplus z d) d) = 2 * f (zip_with Rplus z d) - f z) /\
  forall s1 r s2, only_Z0 s s1 -> bpm_reading w None false s1 = (Ok r, s2) -> r_x r !! i = Some (Some (f (Z0 (INJ s1)))).
Theorem C104_finding_mirror w fmin (s s' : sc R) inds d p q k i f : length (Z0 (INJ s)) = 6%nat -> length d = 6%nat -> inds !! k = Some i -> affine_at w s i f ->
  fit_injection_trajectory_drawn w fmin inds s = (Ok (d, (p, q)), s') ->
  exists o, oBPM (ORD s) !! i = Some o /\ j_initial p !! k = Some (position s o, Some (1000 * f (Z0 (INJ s)))) /\
    j_after p !! k = Some (position s o, Some (1000 * (2 * f (Z0 (INJ s')) - f (Z0 (INJ s))))).
Proof.
  intros Hz Hd Hk [Ha Hf] H. pose proof (C104_trajectory _ _ _ _ _ _ _ _ Hz H) as ([shown H']&r&s1&s2&r2&s3&R1&O2&Z2&R2&S1&_&S2&_).
  pose proof (C71_trajectory _ _ _ _ _ _ _ _ Hz H') as (O'&Z'&_).
  destruct S1 as [_ S1]. destruct S2 as [_ S2]. destruct (S1 _ _ Hk) as (o&v&Ho&Hv&Hm). destruct (S2 _ _ Hk) as (o'&v'&Ho'&Hv'&Hm'). rewrite Ho in Ho'. injection Ho' as <-.
  assert (only_Z0 s s) as O1. { unfold only_Z0. split_and!; try done. by destruct (INJ s). }
  pose proof (Hf _ _ _ O1 R1) as F1. pose proof (Hf _ _ _ O2 R2) as F2. rewrite Hv in F1. injection F1 as ->. rewrite Hv' in F2. injection F2 as ->.
  exists o. split; [done|]. split; [exact Hm|]. rewrite Hm', Z2, Ha, Z' by done. done.
Qed.
Print Assumptions C104_finding_mirror.

(** * Cases *)
Local Open Scope Q_scope.
#[local] Existing Instance TrigQ10.
Example C104_case : fst (fit_injection_drift_drawn inj_world fit_two [0; 1]%nat (inj_machine 2)) =
  Ok ([-2; -1; 0; 1; 0; 0], [(0%nat, MkDrift [(-1, Some 1000); (1, Some 3000)] [(-1, 1000); (1, 3000)] [(-1, 1000); (1, 3000)]);
                             (1%nat, MkDrift [(-1, Some 1000); (1, Some (-1000))] [(-1, 1000); (1, -1000)] [(-1, 1000); (1, -1000)])]).
Proof. vm_compute. reflexivity. Qed.
(** the perfect correction is shown with the initial trajectory mirrored *)
Example C104_case_trajectory : fst (fit_injection_trajectory_drawn inj_world (fun _ _ => Ok [Some 2; Some 1; Some 0; Some (-1)]) [0; 1]%nat (inj_machine 1)) =
  Ok ([-2; -1; 0; 1; 0; 0], (MkTraj [(1, Some 3000); (3, Some 5000)] [(1, Some (-3000)); (3, Some (-5000))], MkTraj [(1, Some (-1000)); (3, Some (-3000))] [(1, Some 1000); (3, Some 3000)])).
Proof. vm_compute. reflexivity. Qed.
(** the readings of this machine are those of a straight line, the same whatever the random numbers (which meet no errors) *)
Definition launched (z draws : list Q) : sc Q := let m := set_INJ (with_Z0 z (INJ (inj_machine 1))) (inj_machine 1) in MkSC (RING m) (IDEALRING m) (INJ m) (SIG m) (ORD m) draws.
Definition x_readings (z : list Q) (draws : list Q) := match fst (bpm_reading inj_world None false (launched z draws)) with Ok r => r_x r | Err _ => [] end.
Example C104_case_affine :
  x_readings [2; 1; 0; -1; 0; 0] (replicate 40 0) = [Some 3; Some 5] /\ x_readings (zeros 6) (replicate 40 1) = [Some 0; Some 0] /\ x_readings [-2; -1; 0; 1; 0; 0] (replicate 40 (1#3)) = [Some (-3); Some (-5)] /\
  x_readings [5; 2; 7; -1; 0; 0] (replicate 40 2) = [Some 7; Some 11].
Proof. vm_compute. split_and!; reflexivity. Qed.
