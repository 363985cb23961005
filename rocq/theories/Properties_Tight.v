(** Further theorems on properties C62, C70 (response_measurement.py), found necessary by testing against wrong programs. *)
From Coq Require Import Reals Lra Lia ZArith QArith.
From stdpp Require Import base gmap strings list.
From Verif Require Import Num Base Model_Arr Model_SC Model_Err Lemmas Spec Proofs_Update Proofs_Setpoint Proofs_CM Proofs_Loop Proofs_Loop2 Properties_Setpoint Properties_Setpoint2 Properties_Setpoint3
  Model_Beam Proofs_Beam Model_Orbit Model_Lattice Model_Scan Model_Loco Model_Resp Proofs_Back Properties_Rf Properties_Loco2 Properties_Resp Properties_Field.
Local Open Scope string_scope.
Local Open Scope list_scope.
Local Open Scope R_scope.

(** * Measured dispersion with more than two steps *)
Definition difference (x1 x0 : option R) : option R := match x1, x0 with Some a, Some b => Some (a - b) | _, _ => None end.
Lemma ominus_difference l1 l0 : zip_with (ominus (T:=R)) l1 l0 = zip_with difference l1 l0.
Proof. apply list_eq. intros k. rewrite !lookup_zip_with. destruct (l1 !! k) as [[x|]|]; [| |done]; cbn; destruct (l0 !! k) as [[y|]|]; done. Qed.
(** What the scan measures before the fit fails: the changes of the readings with all cavities moved, from minus the step to plus the
    step in equal distances. *)
Theorem C62_scan w rf_step bpms cavs n bref data (s s' : sc R) : (2 <= n)%nat -> NoDup cavs -> dispersion_scan w rf_step bpms cavs n bref s = (Ok data, s') ->
  length data = n /\ forall k row, data !! k = Some row ->
    exists t t' r, moved_by "Frequency" cavs (- rf_step + INR k * (2 * rf_step / INR (n - 1))) s t /\ bpm_reading w (Some bpms) false t = (Ok r, t') /\
      row = zip_with difference (both r) bref.
Proof.
  intros Hn Hnd Hs. unfold dispersion_scan in Hs. apply bind_ok in Hs as (t&t'&H0&H). apply get_ok in H0 as [-> ->]. apply bind_ok in H as (rf0&t'&H0&H). apply lift_ok in H0 as [H0 ->].
  apply field_nums_ok in H0 as [HL Hrf]. apply bind_ok in H as (dB&s1&H1&H). apply bind_ok in H as ([]&s2&H2&H). apply ret_ok in H as [<- ->].
  apply (mapM_both (only_cavities "Frequency" cavs s) (fun d row => exists t t' r, moved_by "Frequency" cavs d s t /\ bpm_reading w (Some bpms) false t = (Ok r, t') /\ row = zip_with difference (both r) bref)) in H1 as [_ F1]; [| |reflexivity].
  - assert (symmetric_steps rf_step n = linspace (- rf_step) rf_step n) as E by (destruct n as [|[|n]]; [lia|lia|done]). rewrite E in F1. destruct (linspace_evenly (- rf_step) rf_step n) as [L1 L2].
    split; [rewrite <- L1; symmetry; by eapply Forall2_length|]. intros k row Hk. eapply Forall2_lookup_r in F1 as (d&Hd&Hr); [|exact Hk]. apply L2 in Hd as ->.
    replace (2 * rf_step) with (rf_step - - rf_step) by lra. exact Hr.
  - intros d a row b _ Ha Hm. apply bind_ok in Hm as ([]&a1&Hm1&Hm). apply bind_ok in Hm as (r&a2&Hm2&Hm). apply ret_ok in Hm as [<- ->].
    apply ravel_ok in Hm2 as (r'&Hr&->&Q). destruct (abs_move _ _ _ _ Hnd ltac:(rewrite map_length; exact HL) Hm1) as [O N]. split; [etransitivity; [exact Ha|]; etransitivity; [exact O|]; by apply only_cavities_quiet|].
    exists a1, a2, r'. split; [|split; [done|apply ominus_difference]]. split; [by etransitivity|]. split.
    + intros i Hi. destruct (in_zip_fst cavs rf0 i HL Hi) as [x Hx]. exists x. split; [by apply Hrf|]. apply N. apply elem_of_list_lookup in Hx as (j&Hj). apply lookup_zip_with_Some in Hj as (i'&x'&E&H3&H4). injection E as <- <-.
      apply elem_of_list_lookup. exists j. apply lookup_zip_with_Some. exists i, (x + d). split; [done|]. split; [done|]. rewrite list_lookup_fmap, H4. done.
    + intros i f Hi Hf. exact (C13_actual_value _ _ _ _ _ _ _ Hm1 i f Hi Hf).
Qed.

(** * Measured response *)
(** In orbit mode a missing orbit at any monitor is refused before any kick, and only that; in the other modes it is not looked at. *)
Theorem C70_orbit_mode w amp a bpms hcm vcm mode n (s s1 : sc R) r : amplitudes amp hcm vcm = Ok a -> bpm_reading w (Some bpms) false s = (Ok r, s1) ->
  (trackMode (INJ s) = "ORB" -> None ∈ both r -> response_matrix w amp bpms hcm vcm mode n s = (Err ValueError, s1)) /\
  (trackMode (INJ s) <> "ORB" \/ None ∉ both r -> hcm = [] -> vcm = [] -> response_matrix w amp bpms hcm vcm mode n s = (Ok [], s1)).
Proof.
  intros Ha Hr. pose proof (pres_run quiet _ _ _ _ (quiet_reading w (Some bpms) false) Hr) as Q. destruct (quiet_same _ _ Q) as (_&_&EI&_).
  assert (ravel_reading w bpms s = (Ok (both r), s1)) as Hv. { unfold ravel_reading, bind. by rewrite Hr. }
  assert (existsb isNone (both r) = true <-> None ∈ both r) as He.
  { rewrite existsb_exists. split; [intros (x&Hx&E); apply elem_of_list_In in Hx; by destruct x|]. intros Hx. exists None. split; [by apply elem_of_list_In|done]. }
  split.
  - intros Hm HN. unfold response_matrix, bind at 1, lift at 1. rewrite Ha. unfold bind at 1. rewrite Hv. unfold bind at 1, get at 1. rewrite EI, bool_decide_true by done. cbn [andb]. by rewrite (proj2 He HN).
  - intros Hc -> ->. unfold response_matrix, bind at 1, lift at 1. rewrite Ha. unfold bind at 1. rewrite Hv. unfold bind at 1, get at 1. rewrite EI.
    assert (bool_decide (trackMode (INJ s) = "ORB") && existsb isNone (both r) = false) as ->; [|done].
    apply andb_false_iff. destruct Hc as [Hc|Hc]; [left; by apply bool_decide_false|]. right. apply not_true_iff_false. by rewrite He.
Qed.

(** the largest absolute value of a list without gaps *)
Definition largest (l : list (option R)) (m : R) : Prop := (exists x, Some x ∈ l /\ m = Rabs x) /\ forall y, y ∈ l -> exists x, y = Some x /\ Rabs x <= m.
Lemma max_abs_largest l m : max_abs (T:=R) l = Ok m -> largest l m.
Proof.
  unfold max_abs. destruct l as [|z l]; [done|]. set (f := fun (x : option R) (acc : res R) => let? y := acc in match x with Some v => Ok (nmax (nabs v) y) | None => Err NonFinite end).
  assert (forall l m, foldr f (Ok n0) l = Ok m -> 0 <= m /\ (forall y, y ∈ l -> exists x, y = Some x /\ Rabs x <= m) /\ (m = 0 \/ exists x, Some x ∈ l /\ m = Rabs x)) as H.
  { clear z l m. induction l as [|y l IH]; intros m H.
    - injection H as <-. num_R. split; [lra|]. split; [intros y Hy; inversion Hy|by left].
    - cbn [foldr] in H. unfold f at 1 in H. apply rbind_ok in H as (m'&Hm'&H). destruct (IH m' Hm') as (I1&I2&I3). destruct y as [v|]; [|done]. injection H as <-. unfold nmax. rewrite nabs_R. num_R.
      pose proof (Rabs_pos v). destruct (Rltb (Rabs v) m') eqn:E; [apply Rltb_true in E|apply Rltb_false in E].
      + split; [lra|]. split; [|destruct I3 as [?|(x&Hx&?)]; [by left|right; exists x; split; [by right|done]]]. intros y [->|Hy]%elem_of_cons; [exists v; split; [done|lra]|by apply I2].
      + split; [lra|]. split; [|right; exists v; split; [left|done]]. intros y [->|Hy]%elem_of_cons; [exists v; split; [done|lra]|]. destruct (I2 y Hy) as (x&->&?). exists x. split; [done|lra]. }
  intros Hm. destruct (H _ _ Hm) as (I1&I2&I3). split; [|done]. destruct I3 as [->|?]; [|done]. destruct (I2 z ltac:(left)) as (x&->&Hx). exists x. split; [left|]. pose proof (Rabs_pos x). lra.
Qed.
(** One trial in mode fixedOffset: the kick is changed by [step], or by [- step] if the limit does not allow [step]; the next step is the
    one that would change the largest reading by [amp]. *)
Definition trial w bpms cm skew (bref : list (option R)) (amp v : R) (s : sc R) (step step' : R) : Prop :=
  exists t t' r d m, (d = step /\ clipped (cm_limit s cm skew) (v + step) = v + step \/ d = - step /\ clipped (cm_limit s cm skew) (v + step) <> v + step) /\
    kicked s t cm skew (clipped (cm_limit s cm skew) (v + d)) /\ bpm_reading w (Some bpms) false t = (Ok r, t') /\ (reach bref <= reach (both r))%nat /\
    largest (zip_with difference (both r) bref) m /\ m <> 0 /\ step' = d * amp / m.
Lemma try_full w bpms cm start step skew (s s' : sc R) p : try_setpoint w bpms cm start step skew s = (Ok p, s') ->
  exists t r, kickedI s t cm skew (clipped (cm_limit s cm skew) (start + p.1)) /\ bpm_reading w (Some bpms) false t = (Ok r, s') /\ p.2 = both r /\ quiet t s' /\
    (p.1 = step /\ clipped (cm_limit s cm skew) (start + step) = start + step \/ p.1 = - step /\ clipped (cm_limit s cm skew) (start + step) <> start + step).
Proof.
  unfold try_setpoint. intros H. apply bind_ok in H as ([]&s1&H1&H). apply abs_kick in H1. apply bind_ok in H as (real&s1'&H2&H). apply cm_setpoint_ok in H2 as [-> Hreal].
  rewrite (kickedI_get _ _ _ _ _ H1) in Hreal. injection Hreal as <-. apply bind_ok in H as (st&s2&H3&H). apply bind_ok in H as (r&s3&H4&H). apply ret_ok in H as [<- ->].
  apply ravel_ok in H4 as (r'&Hr'&->&Q). cbn [fst snd]. num_R. exists s2, r'.
  destruct (Reqb (clipped (cm_limit s cm skew) (start + step)) (start + step)) eqn:E.
  - apply ret_ok in H3 as [<- ->]. apply Reqb_true in E. auto 10.
  - apply bind_ok in H3 as ([]&s2'&H3&H). apply ret_ok in H as [<- ->]. apply abs_kick in H3. rewrite (kicked_limit _ _ _ _ _ H1) in H3. apply Reqb_false in E. split; [|auto 10].
    eapply kickedI_trans; [exact H1|exact H3].
Qed.
(** Mode fixedOffset: four trials.  The corrector is left at the fourth, with the returned readings, while the returned step is the next one (finding). *)
Theorem C70_fixed_offset w bref bpms cm amp skew (s s' : sc R) p : kick_amplitude w bref bpms cm amp skew "fixedOffset" s = (Ok p, s') ->
  exists v x1 x2 x3 t r d, get_cm_setpoints [cm] skew s = Ok [v] /\ trial w bpms cm skew bref amp v s amp x1 /\ trial w bpms cm skew bref amp v s x1 x2 /\ trial w bpms cm skew bref amp v s x2 x3 /\
    trial w bpms cm skew bref amp v s x3 p.1 /\ (d = x3 \/ d = - x3) /\ kicked s t cm skew (clipped (cm_limit s cm skew) (v + d)) /\ kicked s s' cm skew (clipped (cm_limit s cm skew) (v + d)) /\
    bpm_reading w (Some bpms) false t = (Ok r, s') /\ p.2 = zip_with difference (both r) bref.
Proof.
  intros H. unfold kick_amplitude in H. apply bind_ok in H as (start&s1&H1&H). apply cm_setpoint_ok in H1 as [-> Hst]. apply bind_ok in H as (n&s1&H1&H). apply lift_ok in H1 as [H1 ->].
  injection H1 as <-. apply bind_ok in H as (step&s1&H2&H). apply bind_ok in H as (r&s2&H3&H). apply ret_ok in H as [<- ->]. apply ravel_ok in H3 as (r'&Hr'&->&Q). cbn [fst snd].
  set (lim := cm_limit s cm skew).
  assert (forall n (a b : sc R) x y, (a = s \/ exists z, kickedI s a cm skew z) -> kick_loop w (S n) bref bpms cm start amp x skew "fixedOffset" a = (Ok y, b) ->
    exists b' y' d, trial w bpms cm skew bref amp start s x y' /\ (d = x \/ d = - x) /\ kickedI s b' cm skew (clipped lim (start + d)) /\ kick_loop w n bref bpms cm start amp y' skew "fixedOffset" b' = (Ok y, b)) as HS.
  { intros n a b x y Ha HK. cbn [kick_loop] in HK. apply bind_ok in HK as (q&a1&K1&HK). apply try_full in K1 as (t&r&K1&K2&K3&K4&K5).
    assert (cm_limit a cm skew = lim) as El by (destruct Ha as [->|(z&Hz)]; [done|by apply (kicked_limit s a cm skew z)]).
    rewrite El in *. destruct (_ <=? _)%nat eqn:E; [|discriminate]. apply Nat.leb_le in E. rewrite decide_True in HK by done.
    apply bind_ok in HK as (m&a2&H5&HK). apply lift_ok in H5 as [Hm ->]. apply bind_ok in HK as (y'&a2&H5&HK). apply lift_ok in H5 as [Hy ->]. apply max_abs_largest in Hm. apply qdivR_ok in Hy as [-> Hne].
    assert (kickedI s t cm skew (clipped lim (start + q.1))) as KI by (destruct Ha as [->|(z&Hz)]; [done|by eapply kickedI_trans]).
    exists a1, (nmul q.1 amp / m), q.1. split; [|split; [destruct K5 as [[? _]|[? _]]; auto|split; [by eapply kickedI_quiet|done]]].
    exists t, a1, r, q.1, m. fold lim. split; [done|]. split; [by apply kickedI_kicked|]. split; [done|]. rewrite K3 in E, Hm. split; [done|]. rewrite ominus_difference in Hm. done. }
  destruct (HS 3%nat s s1 amp step (or_introl eq_refl) H2) as (b1&x1&d1&T1&_&B1&H4). destruct (HS 2%nat b1 s1 x1 step (or_intror (ex_intro _ _ B1)) H4) as (b2&x2&d2&T2&_&B2&H5).
  destruct (HS 1%nat b2 s1 x2 step (or_intror (ex_intro _ _ B2)) H5) as (b3&x3&d3&T3&_&B3&H6). destruct (HS 0%nat b3 s1 x3 step (or_intror (ex_intro _ _ B3)) H6) as (b4&x4&d4&T4&D4&B4&H7).
  cbn [kick_loop] in H7. apply ret_ok in H7 as [-> ->]. exists start, x1, x2, x3, b4, r', d4. do 5 (split; [done|]). split; [done|]. split; [by apply kickedI_kicked|].
  split; [apply kickedI_kicked; by eapply kickedI_quiet|]. split; [done|]. apply ominus_difference.
Qed.
Print Assumptions C62_scan.
Print Assumptions C70_orbit_mode.
Print Assumptions C70_fixed_offset.

(** The machine of Properties_Resp answers 25 times the kick: asked for a largest reading of 1/10 the four trials settle at the kick 1/250. *)
Local Open Scope Q_scope.
#[local] Instance TrigQ19 : Trig Q := {| ncos _ := 1; nsin _ := 0; nsqrt x := x; npi := 3 |}.
Example C70_case_fixed_offset :
  let run := kick_amplitude resp_world [Some 0; Some 0] [2]%nat 1 (1#10) false "fixedOffset" (resp_machine 1) in
  option_map Qred (match fst run with Ok p => Some p.1 | Err _ => None end) = Some (1#250) /\
  match fst run with Ok p => map (option_map Qred) p.2 = [Some (1#10); Some 0] | Err _ => False end /\
  option_map Qred (entry (snd run) 1 "SetPointB" 0) = Some (1#250).
Proof. vm_compute. done. Qed.
