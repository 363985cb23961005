(** C62: measured dispersion.  C70: measured response matrix. *)
From Coq Require Import Reals Lra Lia ZArith.
From stdpp Require Import base gmap strings list.
From Verif Require Import Num Base Model_Arr Model_SC Model_Err Lemmas Spec Proofs_Update Proofs_Setpoint Proofs_CM Proofs_Loop Proofs_Loop2 Properties_Setpoint Properties_Setpoint2 Properties_Setpoint3
  Model_Beam Proofs_Beam Model_Orbit Model_Lattice Model_Scan Model_Loco Model_Resp Proofs_Back Properties_Rf Properties_Loco2.
Local Open Scope string_scope.
Local Open Scope list_scope.
Local Open Scope R_scope.

(** * C62 *)
(** the readings of both planes in one list *)
Definition both (r : breading R) : list (option R) := r_x r ++ r_y r.
Lemma ravel_ok (w : world R) bpms (s s' : sc R) l : ravel_reading w bpms s = (Ok l, s') -> exists r, bpm_reading w (Some bpms) false s = (Ok r, s') /\ l = both r /\ quiet s s'.
Proof.
  unfold ravel_reading. intros H. apply bind_ok in H as (r&s1&H1&H). apply ret_ok in H as [<- ->]. exists r. split; [done|]. split; [done|].
  exact (pres_run quiet _ _ _ _ (quiet_reading w (Some bpms) false) H1).
Qed.
Lemma moved_quiet_l param cavs d (s s0 s1 : sc R) : quiet s s0 -> moved_by param cavs d s0 s1 -> moved_by param cavs d s s1.
Proof.
  intros Hq (A&B&C). destruct (quiet_same _ _ Hq) as (E&_). split; [etransitivity; [by apply only_cavities_quiet|exact A]|]. split; [|done].
  intros i Hi. destruct (B i Hi) as (v&H1&H2). exists v. split; [|done]. rewrite <- H1. unfold number, attr_at. by rewrite E.
Qed.

(** Two steps: every cavity is back at its set-point, with its frequency following from it, and nothing else has changed.  The
    result is the change of the readings between the machine with all cavities moved by the step and the machine itself,
    divided by the step. *)
Theorem C62_two_steps w rf_step bpm_ords cav_ords (s s' : sc R) eta :
  let bpms := default (oBPM (ORD s)) bpm_ords in
  let cavs := default (oRF (ORD s)) cav_ords in
  NoDup cavs -> dispersion w rf_step bpm_ords cav_ords 2 s = (Ok eta, s') ->
  moved_by "Frequency" cavs 0 s s' /\ rf_step <> 0 /\
  exists s0 s1 s2 r0 r1, bpm_reading w (Some bpms) false s = (Ok r0, s0) /\ moved_by "Frequency" cavs rf_step s s1 /\
    bpm_reading w (Some bpms) false s1 = (Ok r1, s2) /\ eta = zip_with (quotient rf_step) (both r1) (both r0).
Proof.
  intros bpms cavs Hnd H. unfold dispersion in H. apply bind_ok in H as (t&s0&H0&H). apply get_ok in H0 as [-> ->]. fold bpms cavs in H.
  apply bind_ok in H as (b0&s0&H0&H). apply ravel_ok in H0 as (r0&H0&->&Q0). cbn [Nat.eqb] in H.
  apply bind_ok in H as ([]&s1&H1&H). pose proof (moved_quiet_l _ _ _ _ _ _ Q0 (move_ok _ _ _ _ _ Hnd H1)) as M1.
  apply bind_ok in H as (b1&s2&H2&H). apply ravel_ok in H2 as (r1&H2&->&Q2).
  apply bind_ok in H as ([]&s3&H3&H). pose proof (move_ok _ _ _ _ _ Hnd H3) as M3.
  change (neqb rf_step n0) with (Reqb rf_step 0) in H. destruct (Reqb rf_step 0) eqn:E; [discriminate|]. apply Reqb_false in E. apply ret_ok in H as [<- ->].
  split; [|split; [done|]].
  - eapply (moved_trans _ _ rf_step (- rf_step)); [lra|eapply moved_quiet_r; [exact M1|exact Q2]|exact M3].
  - exists s0, s1, s2, r0, r1. split; [done|]. split; [done|]. split; [done|]. apply list_eq. intros k. rewrite !lookup_zip_with.
    destruct (both r1 !! k) as [[x|]|]; [| |done]; cbn; destruct (both r0 !! k) as [[y|]|]; done.
Qed.

(** absolute set-points *)
Lemma abs_move cavs fs (s s1 : sc R) : NoDup cavs -> length fs = length cavs -> set_cavity_setpoints cavs DFloat fs "Frequency" ABS s = (Ok tt, s1) ->
  only_cavities "Frequency" cavs s s1 /\ forall i x, (i, x) ∈ zip cavs fs -> number s1 i "FrequencySetPoint" = Some x.
Proof.
  intros Hnd HL H. split.
  - apply only_cavities_frame. pose proof (set_cavity_frame cavs DFloat fs "Frequency" ABS s) as F. by rewrite H in F.
  - intros i x Hx. destruct (C13_meaning cavs fs "Frequency" ABS s s1 Hnd HL H i x Hx) as (y&Hy&Hn). unfold cavity_request in Hy. rewrite decide_True in Hy by done. injection Hy as <-. done.
Qed.
Lemma field_nums_ok name cavs (s : sc R) l : field_nums name cavs s = Ok l -> length l = length cavs /\ forall i x, (i, x) ∈ zip cavs l -> number s i name = Some x.
Proof.
  unfold field_nums. intros H. apply rmap_ok in H. split; [by symmetry; eapply Forall2_length|]. induction H as [|i x cavs l Hx H IH]; cbn; intros j y Hj; [by apply elem_of_nil in Hj|].
  apply elem_of_cons in Hj as [[= -> ->]|Hj]; [|by apply IH]. apply rbind_ok in Hx as (e&He&Hx). apply idx_ok in He. apply attr_num_ok in Hx. unfold number, attr_at. rewrite He. cbn. by rewrite Hx.
Qed.
(** Other numbers of steps: the function never returns.  When all readings and settings succeed every cavity is back at its
    set-point, and the error is raised by the fit at the end. *)
Theorem C62_finding_more_steps w rf_step bpm_ords cav_ords n (s : sc R) :
  let bpms := default (oBPM (ORD s)) bpm_ords in
  let cavs := default (oRF (ORD s)) cav_ords in
  n <> 2%nat -> NoDup cavs ->
  (forall eta s', dispersion w rf_step bpm_ords cav_ords n s <> (Ok eta, s')) /\
  (forall r0 s0 data s', bpm_reading w (Some bpms) false s = (Ok r0, s0) -> dispersion_scan w rf_step bpms cavs n (both r0) s0 = (Ok data, s') ->
     dispersion w rf_step bpm_ords cav_ords n s = (Err GenericException, s') /\ length data = n /\ moved_by "Frequency" cavs 0 s s').
Proof.
  intros bpms cavs Hn Hnd. assert ((n =? 2)%nat = false) as En by (by apply Nat.eqb_neq). split.
  - intros eta s' H. unfold dispersion in H. apply bind_ok in H as (t&s0&H0&H). apply get_ok in H0 as [-> ->]. fold bpms cavs in H. apply bind_ok in H as (b0&s0&H0&H). rewrite En in H.
    apply bind_ok in H as (d&s1&H1&H). discriminate.
  - intros r0 s0 data s' Hr Hs. pose proof (pres_run quiet _ _ _ _ (quiet_reading w (Some bpms) false) Hr) as Q0. split; [|].
    { unfold dispersion. unfold bind at 1, get at 1. cbv beta iota. fold bpms cavs. unfold bind at 1, ravel_reading, bind at 1. rewrite Hr. cbv beta iota. unfold ret at 1. cbv beta iota. rewrite En.
      unfold bind at 1. change (flat_reading r0) with (both r0). rewrite Hs. done. }
    unfold dispersion_scan in Hs. apply bind_ok in Hs as (t&t'&H0&H). apply get_ok in H0 as [-> ->]. apply bind_ok in H as (rf0&t'&H0&H). apply lift_ok in H0 as [H0 ->].
    apply field_nums_ok in H0 as [HL Hrf]. apply bind_ok in H as (dB&s1&H1&H). apply bind_ok in H as ([]&s2&H2&H). apply ret_ok in H as [<- ->].
    apply (mapM_both (only_cavities "Frequency" cavs s0) (fun _ _ => True)) in H1 as [O1 F1]; [| |reflexivity].
    + split; [rewrite <- (Forall2_length _ _ _ F1); destruct n as [|[|n]]; [done|done|]; cbn [symmetric_steps]; unfold linspace; by rewrite map_length, seq_length|].
      destruct (abs_move _ _ _ _ Hnd HL H2) as [O2 N2]. eapply moved_quiet_l; [exact Q0|]. split; [by etransitivity|]. split.
      * intros i Hi. destruct (in_zip_fst cavs rf0 i HL Hi) as [x Hx]. exists x. rewrite Rplus_0_r. split; [by apply Hrf|by apply N2].
      * intros i f Hi Hf. exact (C13_actual_value _ _ _ _ _ _ _ H2 i f Hi Hf).
    + intros x a y b _ Ha Hm. split; [|done]. apply bind_ok in Hm as ([]&a1&Hm1&Hm). apply bind_ok in Hm as (r&a2&Hm2&Hm). apply ret_ok in Hm as [_ ->].
      apply ravel_ok in Hm2 as (?&_&_&Q). destruct (abs_move _ _ _ _ Hnd ltac:(rewrite map_length; exact HL) Hm1) as [O _]. etransitivity; [exact Ha|]. etransitivity; [exact O|]. by apply only_cavities_quiet.
Qed.
Print Assumptions C62_two_steps.
Print Assumptions C62_finding_more_steps.

(** * C70: specification *)
(** Everything but the fields computed from the set-points, and the random stream, is the same. *)
Definition same_settings (s t : sc R) : Prop :=
  IDEALRING t = IDEALRING s /\ INJ t = INJ s /\ SIG t = SIG s /\ ORD t = ORD s /\ length (RING t) = length (RING s) /\
  forall i a, a ∉ field_attributes -> attr_at t i a = attr_at s i a.
(** Corrector [cm] is set to the kick [x], all other settings are those of [s]. *)
Definition kicked (s t : sc R) (cm : nat) (skew : bool) (x : R) : Prop :=
  IDEALRING t = IDEALRING s /\ INJ t = INJ s /\ SIG t = SIG s /\ ORD t = ORD s /\ length (RING t) = length (RING s) /\
  (forall i a, a ∉ field_attributes -> i <> cm \/ a <> setpoint_name skew -> attr_at t i a = attr_at s i a) /\
  (forall k, k <> 0%nat -> entry t cm (setpoint_name skew) k = entry s cm (setpoint_name skew) k) /\
  get_cm_setpoints [cm] skew t = Ok [x].

(** * C70: lemmas *)
Definition kickedI (s t : sc R) (cm : nat) (skew : bool) (x : R) : Prop :=
  IDEALRING t = IDEALRING s /\ INJ t = INJ s /\ SIG t = SIG s /\ ORD t = ORD s /\ length (RING t) = length (RING s) /\
  (forall i a, a ∉ field_attributes -> i <> cm \/ a <> setpoint_name skew -> attr_at t i a = attr_at s i a) /\
  exists l y e nb, attr_at s cm (setpoint_name skew) = Some (VVec l) /\ (0 < length l)%nat /\ attr_at t cm (setpoint_name skew) = Some (VVec (<[0%nat := y]> l)) /\
    RING s !! cm = Some e /\ norm_by skew e = Ok nb /\ nb <> 0 /\ y * nb = x.
Lemma kickedI_get s t cm skew x : kickedI s t cm skew x -> get_cm_setpoints [cm] skew t = Ok [x].
Proof.
  intros (_&_&_&_&HL&Ha&l&y&e&nb&Hl&Hl0&Ht&He&Hnb&_&<-). destruct (RING t !! cm) as [e'|] eqn:He'; [|apply lookup_ge_None in He'; apply lookup_lt_Some in He; lia].
  apply get_cm_one. exists e'. split; [done|]. apply reading_ok. exists (<[0%nat := y]> l), y, nb. split.
  - revert Ht. unfold attr_at. rewrite He', <- SP_name. done.
  - split; [by apply list_lookup_insert|]. split; [|done]. rewrite <- Hnb. apply norm_by_agree.
    + specialize (Ha cm "PassMethod" ltac:(by apply (bool_decide_unpack _)) ltac:(right; by destruct skew)). unfold attr_at in Ha. by rewrite He, He' in Ha.
    + specialize (Ha cm "Length" ltac:(by apply (bool_decide_unpack _)) ltac:(right; by destruct skew)). unfold attr_at in Ha. by rewrite He, He' in Ha.
Qed.
Lemma kickedI_kicked s t cm skew x : kickedI s t cm skew x -> kicked s t cm skew x.
Proof.
  intros H. pose proof (kickedI_get _ _ _ _ _ H) as Hg. destruct H as (?&?&?&?&?&?&l&y&e&nb&Hl&_&Ht&_). repeat (split; [done|]). split; [|done].
  intros k Hk. unfold entry. rewrite Ht, Hl. by rewrite list_lookup_insert_ne.
Qed.
Lemma kickedI_trans s t u cm skew x y : kickedI s t cm skew x -> kickedI t u cm skew y -> kickedI s u cm skew y.
Proof.
  intros (A1&A2&A3&A4&A5&A6&l&z&e&nb&B1&B2&B3&B4&B5&B6&B7) (C1&C2&C3&C4&C5&C6&l'&z'&e'&nb'&D1&D2&D3&D4&D5&D6&D7).
  do 4 (split; [congruence|]). split; [lia|]. split; [intros i a Ha Hi; rewrite C6, A6 by done; done|]. exists l, z', e, nb. rewrite B3 in D1. injection D1 as <-.
  split; [done|]. split; [done|]. split; [by rewrite D3, list_insert_insert|]. split; [done|]. split; [done|]. split; [done|].
  assert (norm_by skew e' = norm_by skew e) as E.
  { apply norm_by_agree.
    - specialize (A6 cm "PassMethod" ltac:(by apply (bool_decide_unpack _)) ltac:(right; by destruct skew)). unfold attr_at in A6. by rewrite B4, D4 in A6.
    - specialize (A6 cm "Length" ltac:(by apply (bool_decide_unpack _)) ltac:(right; by destruct skew)). unfold attr_at in A6. by rewrite B4, D4 in A6. }
  rewrite E, B5 in D5. injection D5 as <-. done.
Qed.
Lemma kickedI_quiet s t u cm skew x : kickedI s t cm skew x -> quiet t u -> kickedI s u cm skew x.
Proof.
  intros (A1&A2&A3&A4&A5&A6&l&y&e&nb&B1&B2&B3&B4) Q. destruct (quiet_same _ _ Q) as (E1&E2&E3&E4&E5). unfold kickedI, attr_at in *. rewrite E1, E2, E3, E4, E5.
  repeat (split; [done|]). exists l, y, e, nb. done.
Qed.
Lemma kickedI_quiet_l s s0 t cm skew x : quiet s s0 -> kickedI s0 t cm skew x -> kickedI s t cm skew x.
Proof.
  intros Q (A1&A2&A3&A4&A5&A6&l&y&e&nb&B). destruct (quiet_same _ _ Q) as (E1&E2&E3&E4&E5). unfold kickedI, attr_at in *. rewrite E1, E2, E3, E4, E5 in *.
  repeat (split; [done|]). exists l, y, e, nb. done.
Qed.
Lemma abs_kick cm x skew (s t : sc R) : set_cm_setpoints [cm] DFloat [x] skew ABS s = (Ok tt, t) -> kickedI s t cm skew (clipped (cm_limit s cm skew) x).
Proof.
  intros H. pose proof (set_cm_frame [cm] DFloat [x] skew ABS s) as F. rewrite H in F. cbn [snd] in F. pose proof F as (F1&F2&F3&F4&_&[F5 _]).
  destruct (set_cm_exists _ _ _ _ _ _ _ _ cm H) as [e He]; [left|].
  destruct (single_cm _ _ _ _ _ _ _ _ cm x e H) as (l&e'&Hc&He'&Ha); [apply NoDup_singleton|done|left|done|].
  apply cm_new_R in Hc as (nb&sp&p&x1&x2&Hnb&Hne&Hsp&Hp&_&_&Hx&Hcl&->). rewrite Hx in Hcl by done. apply clip_cm_float in Hcl.
  repeat (split; [done|]). split.
  - intros i a Hd Hi. rewrite !attr_at_aget. apply (frame_aget _ _ _ _ _ F). rewrite SP_name. intros [[-> ->%elem_of_list_singleton]|[? _]]; [by destruct Hi|done].
  - exists sp, (x2 / nb), e, nb. rewrite <- SP_name. unfold attr_at. rewrite He, He'. cbn. split; [done|]. split; [by eapply lookup_lt_Some|].
    split; [rewrite (Ha (SP skew)) by apply SP_not_der; by rewrite lookup_insert|]. do 3 (split; [done|]). rewrite (cm_limit_elim s cm e), <- Hcl by done. field. done.
Qed.
Lemma kickedI_back s t cm skew v : get_cm_setpoints [cm] skew s = Ok [v] -> kickedI s t cm skew v -> same_settings s t.
Proof.
  intros Hv (A1&A2&A3&A4&A5&A6&l&y&e&nb&B1&B2&B3&B4&B5&B6&B7). do 5 (split; [done|]). intros i a Ha.
  destruct (decide (i = cm /\ a = setpoint_name skew)) as [[-> ->]|Hn]; [|apply A6; [done|]; destruct (decide (i = cm)); [right; tauto|by left]].
  rewrite B1, B3. do 2 f_equal. apply list_insert_id. apply get_cm_one in Hv as (e0&He0&Hr). rewrite B4 in He0. injection He0 as <-.
  apply reading_ok in Hr as (sp&p&nb'&C1&C2&C3&C4). rewrite B5 in C3. injection C3 as <-. unfold attr_at in B1. rewrite B4, <- SP_name in B1. cbn in B1. rewrite C1 in B1. injection B1 as ->.
  rewrite C2. f_equal. apply (Rmult_eq_reg_r nb); [lra|done].
Qed.
#[global] Instance same_settings_preorder : PreOrder same_settings.
Proof.
  split; [done|]. intros a b c (A1&A2&A3&A4&A5&A6) (B1&B2&B3&B4&B5&B6). do 4 (split; [congruence|]). split; [lia|]. intros i x Hx. by rewrite B6, A6.
Qed.
Lemma quiet_settings (s t : sc R) : quiet s t -> same_settings s t.
Proof. intros Q. destruct (quiet_same _ _ Q) as (E1&E2&E3&E4&E5). unfold same_settings, attr_at. by rewrite E1, E2, E3, E4, E5. Qed.
Lemma settings_elem (s t : sc R) i e : same_settings s t -> RING s !! i = Some e -> exists e', RING t !! i = Some e' /\ forall a, a ∉ field_attributes -> e' !! a = e !! a.
Proof.
  intros (_&_&_&_&HL&Ha) He. destruct (RING t !! i) as [e'|] eqn:He'; [|apply lookup_ge_None in He'; apply lookup_lt_Some in He; lia]. exists e'. split; [done|].
  intros a Hx. specialize (Ha i a Hx). unfold attr_at in Ha. by rewrite He, He' in Ha.
Qed.
Lemma settings_get (s t : sc R) cm skew v : same_settings s t -> get_cm_setpoints [cm] skew s = Ok [v] -> get_cm_setpoints [cm] skew t = Ok [v].
Proof.
  intros Hs Hv. apply get_cm_one in Hv as (e&He&Hr). destruct (settings_elem _ _ _ _ Hs He) as (e'&He'&Ha). apply get_cm_one. exists e'. split; [done|].
  apply reading_ok in Hr as (sp&p&nb&C1&C2&C3&C4). apply reading_ok. exists sp, p, nb. split; [by rewrite Ha by (by destruct skew; apply (bool_decide_unpack _))|]. split; [done|]. split; [|done].
  rewrite <- C3. apply norm_by_agree; apply Ha; by apply (bool_decide_unpack _).
Qed.
Lemma settings_limit (s t : sc R) cm skew : same_settings s t -> cm_limit t cm skew = cm_limit s cm skew.
Proof. intros (_&_&_&_&_&Ha). unfold cm_limit. by rewrite Ha by (by apply (bool_decide_unpack _)). Qed.
Lemma kicked_limit (s t : sc R) cm skew x : kickedI s t cm skew x -> cm_limit t cm skew = cm_limit s cm skew.
Proof. intros (_&_&_&_&_&Ha&_). unfold cm_limit. rewrite Ha; [done|by apply (bool_decide_unpack _)|right; by destruct skew]. Qed.
Lemma settings_kicked (s a t : sc R) cm skew x : same_settings s a -> kicked a t cm skew x -> kicked s t cm skew x.
Proof.
  intros (A1&A2&A3&A4&A5&A6) (B1&B2&B3&B4&B5&B6&B7&B8). do 4 (split; [congruence|]). split; [lia|]. split; [intros; by rewrite B6, A6|]. split; [|done].
  intros k Hk. rewrite B7 by done. unfold entry. by rewrite A6 by (by destruct skew; apply (bool_decide_unpack _)).
Qed.
Lemma cm_setpoint_ok cm skew (s s' : sc R) x : cm_setpoint cm skew s = (Ok x, s') -> s' = s /\ get_cm_setpoints [cm] skew s = Ok [x].
Proof.
  unfold cm_setpoint. intros H. apply bind_ok in H as (t&t'&H0&H). apply get_ok in H0 as [-> ->]. apply bind_ok in H as (l&t'&H0&H). apply lift_ok in H0 as [H0 ->]. apply lift_ok in H as [H ->].
  split; [done|]. rewrite H0. pose proof H0 as H1. unfold get_cm_setpoints in H1. apply rmap_ok, Forall2_length in H1. destruct l as [|y [|]]; try done. by injection H as ->.
Qed.
Lemma try_ok w bpms cm start step skew (s s' : sc R) p : try_setpoint w bpms cm start step skew s = (Ok p, s') ->
  kickedI s s' cm skew (clipped (cm_limit s cm skew) (start + p.1)) /\ (p.1 = step \/ p.1 = - step) /\
  (p.1 = step -> step <> 0 -> clipped (cm_limit s cm skew) (start + step) = start + step).
Proof.
  unfold try_setpoint. intros H. apply bind_ok in H as ([]&s1&H1&H). apply abs_kick in H1. apply bind_ok in H as (real&s1'&H2&H). apply cm_setpoint_ok in H2 as [-> Hreal].
  rewrite (kickedI_get _ _ _ _ _ H1) in Hreal. injection Hreal as <-. apply bind_ok in H as (st&s2&H3&H). apply bind_ok in H as (r&s3&H4&H). apply ret_ok in H as [<- ->].
  apply ravel_ok in H4 as (r'&_&_&Q). cbn [fst]. num_R.
  destruct (Reqb (clipped (cm_limit s cm skew) (start + step)) (start + step)) eqn:E.
  - apply ret_ok in H3 as [<- ->]. split; [by eapply kickedI_quiet|]. split; [by left|]. intros _ _. by apply Reqb_true in E.
  - apply bind_ok in H3 as ([]&s2'&H3&H). apply ret_ok in H as [<- ->]. apply abs_kick in H3. rewrite (kicked_limit _ _ _ _ _ H1) in H3. split; [|split; [by right|intros; lra]].
    eapply kickedI_quiet; [|exact Q]. eapply kickedI_trans; [exact H1|exact H3].
Qed.
Lemma kick_loop_ok w n bref bpms cm start amp step skew mode (s s' : sc R) m : kick_loop w (S n) bref bpms cm start amp step skew mode s = (Ok m, s') ->
  (exists x, kickedI s s' cm skew x) /\
  (mode <> "fixedOffset" -> kickedI s s' cm skew (clipped (cm_limit s cm skew) (start + m)) /\ (m = step \/ m = - step) /\ (m = step -> step <> 0 -> clipped (cm_limit s cm skew) (start + step) = start + step)).
Proof.
  revert step s. induction n as [|n IH]; intros step s H.
  - cbn [kick_loop] in H. apply bind_ok in H as (p&s1&H1&H). apply try_ok in H1 as (K1&K2&K3). destruct (_ <=? _)%nat; [|discriminate]. destruct (decide (mode = "fixedOffset")) as [->|Hm].
    + split; [|done]. apply bind_ok in H as (mm&s2&H2&H). apply lift_ok in H2 as [_ ->]. apply bind_ok in H as (st&s2&H2&H). apply lift_ok in H2 as [_ ->]. apply ret_ok in H as [<- ->]. by eexists.
    + apply ret_ok in H as [<- ->]. split; [by eexists|]. done.
  - remember (S n) as n1. cbn [kick_loop] in H. subst n1. apply bind_ok in H as (p&s1&H1&H). apply try_ok in H1 as (K1&K2&K3). destruct (_ <=? _)%nat; [|discriminate]. destruct (decide (mode = "fixedOffset")) as [->|Hm].
    + split; [|done]. apply bind_ok in H as (mm&s2&H2&H). apply lift_ok in H2 as [_ ->]. apply bind_ok in H as (st&s2&H2&H). apply lift_ok in H2 as [_ ->].
      apply IH in H as [(x&Hx) _]. exists x. eapply kickedI_trans; [exact K1|exact Hx].
    + apply ret_ok in H as [<- ->]. split; [by eexists|]. done.
Qed.
Lemma kick_amplitude_ok w bref bpms cm amp skew mode (s s' : sc R) p : kick_amplitude w bref bpms cm amp skew mode s = (Ok p, s') ->
  (exists x, kickedI s s' cm skew x) /\
  (mode = "fixedKick" -> exists v, get_cm_setpoints [cm] skew s = Ok [v] /\ kickedI s s' cm skew (clipped (cm_limit s cm skew) (v + p.1)) /\ (p.1 = amp \/ p.1 = - amp) /\
     (p.1 = amp -> amp <> 0 -> clipped (cm_limit s cm skew) (v + amp) = v + amp)).
Proof.
  unfold kick_amplitude. intros H. apply bind_ok in H as (start&s1&H1&H). apply cm_setpoint_ok in H1 as [-> Hst]. apply bind_ok in H as (n&s1&H1&H). apply lift_ok in H1 as [H1 ->].
  apply bind_ok in H as (step&s1&H2&H). apply bind_ok in H as (r&s2&H3&H). apply ret_ok in H as [<- ->]. apply ravel_ok in H3 as (r'&_&_&Q). cbn [fst].
  unfold kick_iterations in H1. destruct n as [|n]; [repeat destruct (decide _); discriminate|]. apply kick_loop_ok in H2 as [(x&Hx) Hk]. split; [exists x; by eapply kickedI_quiet|].
  intros ->. destruct (Hk ltac:(done)) as (K1&K2&K3). exists start. split; [done|]. split; [by eapply kickedI_quiet|]. done.
Qed.
(** * C70 *)
(** Two steps - the default - and any other number but one: the function never returns (unless there is no corrector at all). *)
Theorem C70_finding_never_returns w amp bpms hcm vcm mode n (s s' : sc R) out : n <> 1%nat -> hcm ++ vcm <> [] ->
  response_matrix w amp bpms hcm vcm mode n s <> (Ok out, s').
Proof.
  intros Hn Hne H.
  assert (forall bref start skew cm a t col u, response_column w bref bpms mode n start skew cm a t <> (Ok col, u)) as Hcol.
  { intros bref start skew cm a t col u Hc. unfold response_column in Hc. apply bind_ok in Hc as (p&t1&_&Hc). apply bind_ok in Hc as (r&t2&Hc&_).
    destruct n as [|[|[|n]]]; [done|done|done|]. apply bind_ok in Hc as (d&t3&_&Hc). discriminate. }
  assert (forall bref skew cms amps t cols u, length amps = length cms -> response_plane w bref bpms mode n skew cms amps t = (Ok cols, u) -> cms = []) as Hpl.
  { intros bref skew cms amps t cols u HL Hp. unfold response_plane in Hp. apply bind_ok in Hp as (t0&t1&H0&Hp). apply get_ok in H0 as [-> ->]. apply bind_ok in Hp as (starts&t1&H0&Hp).
    apply lift_ok in H0 as [H0 ->]. unfold get_cm_setpoints in H0. apply rmap_ok, Forall2_length in H0. destruct cms as [|cm cms]; [done|]. destruct starts as [|v starts]; [done|]. destruct amps as [|a amps]; [done|].
    cbn [zip zip_with mapM] in Hp. apply bind_ok in Hp as (c&t2&Hc&_). by apply Hcol in Hc. }
  unfold response_matrix in H. apply bind_ok in H as (a&s1&H1&H). apply lift_ok in H1 as [H1 ->].
  assert (length a.1 = length hcm /\ length a.2 = length vcm) as [L1 L2].
  { unfold amplitudes in H1. destruct amp as [x|[|x [|]]|h v]; try done.
    - injection H1 as <-. cbn. by rewrite !replicate_length.
    - destruct ((_ =? _)%nat && _) eqn:E; [|done]. injection H1 as <-. apply andb_true_iff in E as [E1%Nat.eqb_eq E2%Nat.eqb_eq]. done. }
  apply bind_ok in H as (bref&s1&_&H). apply bind_ok in H as (t&s2&H2&H). apply get_ok in H2 as [-> ->]. destruct (_ && _); [discriminate|].
  apply bind_ok in H as (h&s3&H3&H). apply Hpl in H3; [|done]. apply bind_ok in H as (v&s4&H4&_). apply Hpl in H4; [|done]. by subst.
Qed.
(** A mode other than the two known ones fails with the first corrector, before any kick. *)
Theorem C70_unknown_mode w amp bpms hcm vcm mode n (s : sc R) : mode <> "fixedKick" -> mode <> "fixedOffset" ->
  (forall bref cm a skew v, get_cm_setpoints [cm] skew s = Ok [v] -> kick_amplitude w bref bpms cm a skew mode s = (Err KeyError, s)) /\
  (hcm ++ vcm <> [] -> forall out s', response_matrix w amp bpms hcm vcm mode n s <> (Ok out, s')).
Proof.
  intros H1 H2. assert (K : kick_iterations mode = Err KeyError). { unfold kick_iterations. by rewrite !decide_False. }
  split.
  - intros bref cm a skew v Hv. unfold kick_amplitude. unfold bind at 1, cm_setpoint. unfold bind at 1, get at 1. cbn beta iota. unfold bind at 1, lift at 1. rewrite Hv.
    unfold bind at 1, lift at 1. cbn [idx lookup list_lookup]. unfold lift at 1. by rewrite K.
  - intros Hne out s' H.
    assert (forall bref start skew cm a t col u, response_column w bref bpms mode n start skew cm a t <> (Ok col, u)) as Hcol.
    { intros bref start skew cm a t col u Hc. unfold response_column in Hc. apply bind_ok in Hc as (p&t1&Hc&_). unfold kick_amplitude in Hc.
      apply bind_ok in Hc as (?&?&_&Hc). apply bind_ok in Hc as (?&?&Hc&_). apply lift_ok in Hc as [Hc _]. congruence. }
    assert (forall bref skew cms amps t cols u, length amps = length cms -> response_plane w bref bpms mode n skew cms amps t = (Ok cols, u) -> cms = []) as Hpl.
    { intros bref skew cms amps t cols u HL Hp. unfold response_plane in Hp. apply bind_ok in Hp as (t0&t1&H0&Hp). apply get_ok in H0 as [-> ->]. apply bind_ok in Hp as (starts&t1&H0&Hp).
      apply lift_ok in H0 as [H0 ->]. unfold get_cm_setpoints in H0. apply rmap_ok, Forall2_length in H0. destruct cms as [|cm cms]; [done|]. destruct starts as [|v starts]; [done|]. destruct amps as [|a amps]; [done|].
      cbn [zip zip_with mapM] in Hp. apply bind_ok in Hp as (c&t2&Hc&_). by apply Hcol in Hc. }
    unfold response_matrix in H. apply bind_ok in H as (a&s1&H0&H). apply lift_ok in H0 as [H0 ->].
    assert (length a.1 = length hcm /\ length a.2 = length vcm) as [L1 L2].
    { unfold amplitudes in H0. destruct amp as [x|[|x [|]]|h v]; try done.
      - injection H0 as <-. cbn. by rewrite !replicate_length.
      - destruct ((_ =? _)%nat && _) eqn:E; [|done]. injection H0 as <-. apply andb_true_iff in E as [E1%Nat.eqb_eq E2%Nat.eqb_eq]. done. }
    apply bind_ok in H as (bref&s2&_&H). apply bind_ok in H as (t&s3&H3&H). apply get_ok in H3 as [-> ->]. destruct (_ && _); [discriminate|].
    apply bind_ok in H as (h&s4&H4&H). apply Hpl in H4; [|done]. apply bind_ok in H as (v&s5&H5&_). apply Hpl in H5; [|done]. by subst.
Qed.
Print Assumptions C70_unknown_mode.
(** With the default settings the first corrector is then left with its kick changed by the amplitude, in one of the two directions. *)
Theorem C70_finding_left_kicked w bref bpms cm start amp skew (s s' : sc R) p :
  kick_amplitude w bref bpms cm amp skew "fixedKick" s = (Ok p, s') ->
  response_column w bref bpms "fixedKick" 2 start skew cm amp s = (Err IndexError, s') /\
  exists v x, get_cm_setpoints [cm] skew s = Ok [v] /\ kicked s s' cm skew x /\ (x = clipped (cm_limit s cm skew) (v + amp) \/ x = clipped (cm_limit s cm skew) (v - amp)).
Proof.
  intros H. split.
  - unfold response_column, bind at 1. rewrite H. done.
  - apply kick_amplitude_ok in H as [_ Hk]. destruct (Hk eq_refl) as (v&Hv&K&Hp&_). exists v, (clipped (cm_limit s cm skew) (v + p.1)). split; [done|]. split; [by apply kickedI_kicked|].
    destruct Hp as [->| ->]; [by left|by right].
Qed.
(** A reach smaller than that of the reference reading makes the message about it fail; the corrector stays kicked. *)
Theorem C70_finding_lost_beam w bref bpms cm start amp step skew (s s' : sc R) n p : try_setpoint w bpms cm start step skew s = (Ok p, s') ->
  (reach p.2 < reach bref)%nat -> kick_loop w (S n) bref bpms cm start amp step skew "fixedKick" s = (Err ValueError, s') /\
  exists x, kicked s s' cm skew x /\ (x = clipped (cm_limit s cm skew) (start + step) \/ x = clipped (cm_limit s cm skew) (start - step)).
Proof.
  intros H Hr. split.
  - cbn [kick_loop]. unfold bind at 1. rewrite H. by rewrite (proj2 (Nat.leb_gt _ _) Hr).
  - apply try_ok in H as (K&Hp&_). exists (clipped (cm_limit s cm skew) (start + p.1)). split; [by apply kickedI_kicked|]. destruct Hp as [->| ->]; [by left|by right].
Qed.

(** One step: all settings are back (initial values within the limits), and every column holds the quotients of the changes of the
    readings and the change [d] of that corrector's kick, with zero where a reading is missing (finding). *)
Definition column_of (w : world R) bpms (s : sc R) (r0 : breading R) (skew : bool) (cm : nat) (c : list R * list R) : Prop :=
  exists v d t1 t2 r1, get_cm_setpoints [cm] skew s = Ok [v] /\ d <> 0 /\ c.2 = [d] /\ kicked s t1 cm skew (v + d) /\ bpm_reading w (Some bpms) false t1 = (Ok r1, t2) /\
    c.1 = zip_with (fun x1 x0 => default 0 (quotient d x1 x0)) (both r1) (both r0).
Lemma column_one w bpms (s a b : sc R) r0 mode skew cm start amp c : same_settings s a ->
  get_cm_setpoints [cm] skew s = Ok [start] -> allows (cm_limit s cm skew) start ->
  response_column w (both r0) bpms mode 1 start skew cm amp a = (Ok c, b) -> same_settings s b /\ column_of w bpms s r0 skew cm (map (default 0) c.1, c.2).
Proof.
  intros Hs Hst Hal H. unfold response_column in H. apply bind_ok in H as (p&a1&H1&H). apply kick_amplitude_ok in H1 as [(x&K1) _].
  apply bind_ok in H as (r&a2&H2&H). apply bind_ok in H as ([]&a3&H3&H). apply ret_ok in H as [<- ->]. cbn [symmetric_steps mapM] in H2.
  apply bind_ok in H2 as (data&a4&H4&H2). apply bind_ok in H4 as (y&a5&H5&H4). apply bind_ok in H4 as (ys&a6&H6&H4). apply ret_ok in H6 as [<- ->]. apply ret_ok in H4 as [<- ->].
  change (nopp p.1) with (- p.1) in *. change (nadd start (- p.1)) with (start + - p.1) in *.
  unfold scan_step in H5. change (neqb (- p.1) n0) with (Reqb (- p.1) 0) in H5. change (neqb (- p.1) p.1) with (Reqb (- p.1) p.1) in H5. destruct (Reqb (- p.1) 0 || Reqb (- p.1) p.1) eqn:E.
  { exfalso. apply ret_ok in H5 as [<- ->]. assert (p.1 = 0) as E0 by (apply orb_true_iff in E as [E|E]; apply Reqb_true in E; lra).
    change (neqb (nsub (start + - p.1) start) n0) with (Reqb (start + - p.1 - start) 0) in H2. replace (start + - p.1 - start) with 0 in H2 by lra. rewrite (proj2 (Reqb_true 0 0) eq_refl) in H2. discriminate. }
  apply bind_ok in H5 as ([]&a6&H6&H5). apply abs_kick in H6. apply bind_ok in H5 as (real&a7&H7&H5). apply cm_setpoint_ok in H7 as [-> Hreal]. apply bind_ok in H5 as (l&a8&H8&H5).
  apply ret_ok in H5 as [<- ->]. apply ravel_ok in H8 as (r1&Hr1&->&Q). rewrite (kickedI_get _ _ _ _ _ H6) in Hreal. injection Hreal as Hreal.
  change (neqb (nsub real start) n0) with (Reqb (real - start) 0) in H2. destruct (Reqb (real - start) 0) eqn:E0; [discriminate|]. apply Reqb_false in E0. apply ret_ok in H2 as [<- ->].
  pose proof (kickedI_trans _ _ _ _ _ _ _ K1 H6) as K2. apply abs_kick in H3.
  pose proof (kickedI_trans _ _ _ _ _ _ _ K2 (kickedI_quiet_l _ _ _ _ _ _ Q H3)) as K3.
  assert (cm_limit a8 cm skew = cm_limit s cm skew) as El.
  { rewrite <- (settings_limit s a cm skew Hs). rewrite <- (kicked_limit _ _ _ _ _ K2). destruct (quiet_same _ _ Q) as (E1&_). unfold cm_limit, attr_at. by rewrite E1. }
  rewrite El in K3. assert (clipped (cm_limit s cm skew) start = start) as Ec.
  { unfold clipped, allows in *. destruct (cm_limit s cm skew) as [lim|]; [|done]. by destruct (Rle_dec _ _). }
  rewrite Ec in K3. split.
  - etransitivity; [exact Hs|]. eapply kickedI_back; [|exact K3]. by eapply settings_get.
  - exists start, (real - start), a6, a8, r1. cbn [fst snd]. split; [done|]. split; [done|]. split; [done|]. split.
    + replace (start + (real - start)) with real by lra. rewrite <- Hreal. eapply settings_kicked; [exact Hs|]. by apply kickedI_kicked.
    + split; [done|]. apply list_eq. intros k. rewrite lookup_zip_with, !list_lookup_fmap, lookup_zip_with.
      destruct (both r1 !! k) as [[x1|]|]; [| |done]; cbn; destruct (both r0 !! k) as [[x0|]|]; try done.
Qed.
Theorem C70_single_step w amp bpms hcm vcm mode (s s' : sc R) out :
  (forall skew cm v, cm ∈ (if skew : bool then vcm else hcm) -> get_cm_setpoints [cm] skew s = Ok [v] -> allows (cm_limit s cm skew) v) ->
  response_matrix w amp bpms hcm vcm mode 1 s = (Ok out, s') ->
  same_settings s s' /\ length out = (length hcm + length vcm)%nat /\
  exists r0 s0, bpm_reading w (Some bpms) false s = (Ok r0, s0) /\
    forall skew j cm, (if skew : bool then vcm else hcm) !! j = Some cm -> exists c, out !! (if skew then length hcm + j else j)%nat = Some c /\ column_of w bpms s r0 skew cm c.
Proof.
  intros Hlim H. unfold response_matrix in H. apply bind_ok in H as (a&s1&H1&H). apply lift_ok in H1 as [H1 ->].
  assert (length a.1 = length hcm /\ length a.2 = length vcm) as [L1 L2].
  { unfold amplitudes in H1. destruct amp as [x|[|x [|]]|h v]; try done.
    - injection H1 as <-. cbn. by rewrite !replicate_length.
    - destruct ((_ =? _)%nat && _) eqn:E; [|done]. injection H1 as <-. apply andb_true_iff in E as [E1%Nat.eqb_eq E2%Nat.eqb_eq]. done. }
  apply bind_ok in H as (bref&s1&H0&H). apply ravel_ok in H0 as (r0&Hr0&->&Q). apply bind_ok in H as (t&s2&H2&H). apply get_ok in H2 as [-> ->]. destruct (_ && _); [discriminate|].
  assert (forall skew cms amps t cols u, (forall cm, cm ∈ cms -> cm ∈ (if skew : bool then vcm else hcm)) -> length amps = length cms -> same_settings s t ->
    response_plane w (both r0) bpms mode 1 skew cms amps t = (Ok cols, u) ->
    same_settings s u /\ Forall2 (fun cm c => column_of w bpms s r0 skew cm (map (default 0) c.1, c.2)) cms cols) as Hpl.
  { intros skew cms amps t cols u Hin HL Ht Hp. unfold response_plane in Hp. apply bind_ok in Hp as (t0&t1&H2&Hp). apply get_ok in H2 as [-> ->]. apply bind_ok in Hp as (starts&t1&H2&Hp).
    apply lift_ok in H2 as [H2 ->]. rewrite get_cm_reading in H2. apply rmap_ok in H2.
    pose proof (Forall2_length _ _ _ H2) as LS.
    apply (mapM_both (same_settings s) (fun q c => column_of w bpms s r0 skew q.1 (map (default 0) c.1, c.2))) in Hp as [I F]; [|intros q b y b' Hq Ib Hb|done].
    - split; [done|]. apply Forall2_same_length_lookup. split.
      + rewrite <- (Forall2_length _ _ _ F), zip_with_length, zip_with_length. lia.
      + intros j cm c Hj Hc. eapply Forall2_lookup_r in F as (q&Hq&Hf); [|exact Hc]. apply lookup_zip_with_Some in Hq as (cm'&q'&->&Hj'&_). rewrite Hj in Hj'. injection Hj' as <-. exact Hf.
    - destruct q as [cm [st am]]. cbn [fst snd] in *. apply elem_of_list_lookup in Hq as (j&Hj). apply lookup_zip_with_Some in Hj as (cm'&q'&Eq&Hj&Hq). injection Eq as <- <-.
      apply lookup_zip_with_Some in Hq as (st'&am'&Eq&Hst&_). injection Eq as <- <-. eapply Forall2_lookup_l in H2 as (st'&Hst'&Hget); [|exact Hj]. rewrite Hst in Hst'. injection Hst' as <-.
      assert (get_cm_setpoints [cm] skew t = Ok [st]) as Hg.
      { apply rbind_ok in Hget as (e&He&Hr). apply idx_ok in He. apply get_cm_one. eauto. }
      assert (same_settings t s) as Hts. { destruct Ht as (?&?&?&?&?&Hat). repeat (split; [done|]). intros i x Hx. symmetry. by apply Hat. }
      assert (get_cm_setpoints [cm] skew s = Ok [st]) as Hgs by (by eapply settings_get).
      eapply column_one; [exact Ib|exact Hgs| |exact Hb]. apply Hlim; [|done]. apply Hin. by eapply elem_of_list_lookup_2. }
  apply bind_ok in H as (h&s2&H2&H). apply Hpl in H2 as [I2 F2]; [|done|done|by apply quiet_settings]. apply bind_ok in H as (v&s3&H3&H). apply Hpl in H3 as [I3 F3]; [|done|done|done].
  apply ret_ok in H as [<- ->]. split; [done|]. split; [by rewrite map_length, app_length, <- (Forall2_length _ _ _ F2), <- (Forall2_length _ _ _ F3)|].
  exists r0, s1. split; [done|]. intros skew j cm Hj. destruct skew.
  - eapply Forall2_lookup_l in F3 as (c&Hc&Hcol); [|exact Hj]. exists (map (default 0) c.1, c.2). split; [|done]. rewrite list_lookup_fmap, lookup_app_r by (rewrite (Forall2_length _ _ _ F2); lia).
    rewrite (Forall2_length _ _ _ F2), Nat.add_comm, Nat.add_sub, Hc. done.
  - eapply Forall2_lookup_l in F2 as (c&Hc&Hcol); [|exact Hj]. exists (map (default 0) c.1, c.2). split; [|done]. rewrite list_lookup_fmap, lookup_app_l by (by eapply lookup_lt_Some). by rewrite Hc.
Qed.
Print Assumptions C70_finding_never_returns.
Print Assumptions C70_finding_left_kicked.
Print Assumptions C70_finding_lost_beam.
Print Assumptions C70_single_step.

(** * Cases *)
(** A quadrupole, a corrector (ordinate 1), an exact monitor and a cavity; the position at the monitor is 25 times the kick plus
    twice the deviation of the frequency from 500. *)
From Coq Require Import QArith.
From Verif Require Import Properties_Bba3.
Local Open Scope Q_scope.
#[local] Instance TrigQ8 : Trig Q := {| ncos _ := 1; nsin _ := 0; nsqrt x := x; npi := 3 |}.
Definition resp_world : world Q :=
  MkWorld (fun _ _ _ _ _ _ _ _ => None)
    (fun ring _ _ c =>
      let kick := default 0%Q (e ← ring !! 1%nat; match (e : elem Q) !! "KickAngle" with Some (VVec l) => l !! c | _ => None end) in
      let freq := default 0%Q (e ← ring !! 3%nat; match (e : elem Q) !! "Frequency" with Some (VNum f) => Some f | _ => None end) in
      if (c =? 0)%nat then Some (Qred (25 * kick + 2 * (freq - 500))) else Some 0)
    (fun _ => ([], [])) (fun Z => Z).
Definition resp_machine (limit : Q) : sc Q :=
  let ring := [Examples.quad; Examples.thin_cm; exact_bpm [0; 0]; Examples.cavity] in
  let s := MkSC ring ring (MkInj 1 (zeros 6) (zeros 6) (replicate 6 (zeros 6)) (zeros 6) 1 1 1 "ORB") (SIG Examples.ex_sc) (MkOrd [2]%nat [] [] [] [] [] [] [] []) (replicate 200 0) in
  snd (register_cavities [3%nat] [] (snd (update_magnets [1]%nat (snd (register_magnets [1]%nat [] (MkType (Some (Fin limit)) (Some (Fin limit)) false None None) s))))).
Example C62_case : let run := dispersion resp_world (1#2) None None 2 (resp_machine 1) in
  fst run = Ok [Some 2; Some 0] /\ number (snd run) 3 "FrequencySetPoint" = Some 500 /\ number (snd run) 3 "Frequency" = Some 500.
Proof. vm_compute. done. Qed.
Example C62_case_three_steps : let run := dispersion resp_world (1#2) None None 3 (resp_machine 1) in
  fst run = Err GenericException /\ number (snd run) 3 "FrequencySetPoint" = Some 500 /\
  fst (dispersion_scan resp_world (1#2) [2]%nat [3]%nat 3 [Some 0; Some 0] (resp_machine 1)) = Ok [[Some (-1); Some 0]; [Some 0; Some 0]; [Some 1; Some 0]].
Proof. vm_compute. done. Qed.
(** one step: the response is right and the corrector is back; the default of two steps: IndexError, the corrector stays at 1/10 *)
Example C70_case :
  let run := response_matrix resp_world (AmpArray [1#10]) [2]%nat [1]%nat [1]%nat "fixedKick" 1 (resp_machine 1) in
  fst run = Ok [([25; 0], [-1#10]); ([0; 0], [-1#10])] /\ get_cm_setpoints [1]%nat false (snd run) = Ok [0] /\
  let run2 := response_matrix resp_world (AmpArray [1#10]) [2]%nat [1]%nat [1]%nat "fixedKick" 2 (resp_machine 1) in
  fst run2 = Err IndexError /\ get_cm_setpoints [1]%nat false (snd run2) = Ok [1#10] /\
  let run3 := response_matrix resp_world (AmpArray [1#10]) [2]%nat [1]%nat [1]%nat "fixedKick" 5 (resp_machine 1) in
  fst run3 = Err ValueError /\ get_cm_setpoints [1]%nat false (snd run3) = Ok [1#20] /\
  fst (response_matrix resp_world (AmpNumber (1#10)) [2]%nat [1]%nat [1]%nat "fixedKick" 1 (resp_machine 1)) = Err TypeError.
Proof. vm_compute. done. Qed.
