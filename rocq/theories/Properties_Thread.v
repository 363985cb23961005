(** C44-C46: first-turn threading, stitching, balancing and orbit correction. *)
From Coq Require Import Reals Lra Lia QArith ZArith Sorting.Sorted.
From stdpp Require Import base gmap strings list.
From Verif Require Import Num Base Model_Arr Model_SC Model_Err Model_Beam Model_Orbit Lemmas Proofs_Update Proofs_Setpoint Proofs_Beam Proofs_Mat Spec Proofs_CM Proofs_CM2 Proofs_Loop2 Properties_Setpoint Properties_Random Properties_Beam Properties_Beam2 Properties_Orbit.
Local Open Scope string_scope.
Local Open Scope list_scope.
Local Open Scope R_scope.
From Verif Require Properties_Rf.

Notation reading := Model_Beam.reading.

(** * Specification *)

(** Steering with the correctors in [P]: their set-points, and fields of them and their split-magnet children, may
    change; nothing else but the random stream does.  [X]: further attributes (the RF frequency in orbit correction). *)
Definition steered_also (X : string -> Prop) (P : nat -> Prop) (s s' : sc R) : Prop :=
  IDEALRING s' = IDEALRING s /\ INJ s' = INJ s /\ SIG s' = SIG s /\ ORD s' = ORD s /\ length (RING s') = length (RING s) /\
  forall i a,
    ~ ((a = "SetPointA" \/ a = "SetPointB") /\ P i) ->
    ~ (a ∈ field_attributes /\ (P i \/ exists m, P m /\ child_of s i m)) ->
    ~ X a ->
    attr_at s' i a = attr_at s i a.
Definition steered : (nat -> Prop) -> sc R -> sc R -> Prop := steered_also (fun _ => False).
Definition either (cms : list nat * list nat) (c : nat) : Prop := c ∈ cms.1 \/ c ∈ cms.2.

(** how many places of a reading saw beam, and whether all did *)
Definition seen (r : reading R) : nat := length (List.filter (fun o => match o with Some _ => true | None => false end) (r_x r)).
Definition full (r : reading R) : Prop := Forall is_Some (r_x r).

(** A session: a first reading, then again and again something done to the machine and another reading.  [step] relates
    the readings so far and the machine before and after what was done. *)
Inductive session (w : world R) (bpms : list nat) (step : list (reading R) -> sc R -> sc R -> Prop) (s : sc R) : list (reading R) -> sc R -> Prop :=
| session_first r s' : bpm_reading w (Some bpms) false s = (Ok r, s') -> session w bpms step s [r] s'
| session_next rs s1 s2 r s3 : session w bpms step s rs s1 -> step rs s1 s2 ->
    bpm_reading w (Some bpms) false s2 = (Ok r, s3) -> session w bpms step s (rs ++ [r]) s3.

(** the last [n] readings saw beam at the same number of places *)
Definition reproducible (n : nat) (rs : list (reading R)) : Prop := exists tail k, recent n rs tail /\ Forall (fun r => seen r = k) tail.
Definition full_transmission (n : nat) (rs : list (reading R)) : Prop := exists tail, recent n rs tail /\ Forall full tail.
(** correctors that the beam of reading [r] has passed: not downstream of the last BPM reached, or all when the beam
    survives the first turn *)
Definition passed (bpms : list nat) (cms : list nat * list nat) (r : reading R) (c : nat) : Prop :=
  either cms c /\ ((length bpms < seen r)%nat \/ exists b, bpms !! (seen r - 1)%nat = Some b /\ (c <= b)%nat).
(** the setting of a corrector, as reported *)
Definition setting (skew : bool) (s : sc R) (c : nat) : option R := match get_cm_setpoints [c] skew s with Ok [x] => Some x | _ => None end.
(** the settings of the correctors [P] among [ords] lowered by [d], within their limits *)
Definition lowered (P : nat -> Prop) (skew : bool) (ords : list nat) (d : list R) (s s' : sc R) : Prop :=
  NoDup ords -> length d = length ords -> forall j c y, ords !! j = Some c -> d !! j = Some y -> P c ->
  exists x, setting skew s c = Some x /\ setting skew s' c = Some (clipped (cm_limit s c skew) (x - y)).
Definition steering (P : nat -> Prop) (cms : list nat * list nat) (d : list R) (s s' : sc R) : Prop :=
  lowered P false cms.1 (take (length cms.1) d) s s' /\ lowered P true cms.2 (drop (length cms.1) d) s s'.
(** matrix times vector; the deviation of a reading from the reference, a missing reading counting as zero *)
Definition times (mplus : list (list R)) (v : list R) : list R := map (fun row => rsum (zip_with Rmult row v)) mplus.
Definition deviation (r : reading R) (reference : list R) : list R := zip_with (fun o v => default 0 o - v) (r_x r ++ r_y r) reference.
(** the same for two turns: the second turn shall equal the first, for the first [k] of the [nb] BPMs *)
Definition turn_deviation (nb k : nat) (l : list (option R)) (reference : list R) (i : nat) : R :=
  if decide (i < nb)%nat then match l !! i with Some (Some x) => x | _ => 0 end - default 0 (reference !! i)
  else if decide (i < nb + k)%nat then match l !! i, l !! (i - nb)%nat with Some (Some x), Some (Some y) => x - y | _, _ => 0 end
  else 0.
Definition two_turn_deviation (nb k : nat) (r : reading R) (reference : list R) : list R :=
  map (turn_deviation nb k (r_x r) (take (2 * nb) reference)) (seq 0 (2 * nb)) ++ map (turn_deviation nb k (r_y r) (drop (2 * nb) reference)) (seq 0 (2 * nb)).
(** one step of threading: after 20 readings at the same count any corrector may be wiggled first; then exactly the correctors passed
    are lowered by the matrix times the deviation *)
Definition threading_step (mplus : list (list R)) (reference : list R) (bpms : list nat) (cms : list nat * list nat) (rs : list (reading R)) (s s' : sc R) : Prop :=
  exists r s1, last rs = Some r /\ (0 < seen r)%nat /\
    (s1 = s \/ reproducible 20 rs /\ steered (either cms) s s1) /\ steered (passed bpms cms r) s1 s' /\
    steering (passed bpms cms r) cms (times mplus (deviation r reference)) s1 s'.
(** one step of a correction: all correctors are lowered by the matrix times the deviation *)
Definition correction_step (dev : reading R -> list R) (mplus : list (list R)) (cms : list nat * list nat) (rs : list (reading R)) (s s' : sc R) : Prop :=
  steered (either cms) s s' /\ exists r, last rs = Some r /\ steering (fun _ => True) cms (times mplus (dev r)) s s'.
(** one step of stitching: a correction, or after the first reading, if it does not reach far enough, wiggling *)
Definition stitching_step (nb n : nat) (reference : list R) (mplus : list (list R)) (cms : list nat * list nat) (rs : list (reading R)) (s s' : sc R) : Prop :=
  correction_step (fun r => two_turn_deviation nb n r reference) mplus cms rs s s' \/
  steered (either cms) s s' /\ exists r, rs = [r] /\ (nb <= seen r < nb + n)%nat.
(** one step of orbit correction; with dispersion the last kick belongs to the frequency of the cavities *)
Definition with_rf (scale : R) (a : string) : Prop := scale <> 0 /\ (a = "FrequencySetPoint" \/ a ∈ ["Voltage"; "Frequency"; "TimeLag"]).
Definition orbit_correction_step (reference : list R) (mplus : list (list R)) (scale : R) (cms : list nat * list nat) (rs : list (reading R)) (s s' : sc R) : Prop :=
  steered_also (with_rf scale) (either cms) s s' /\ exists r, last rs = Some r /\
  (scale = 0 -> steering (fun _ => True) cms (times mplus (deviation r reference)) s s') /\
  (scale <> 0 -> exists d x, times mplus (deviation r reference) = d ++ [x] /\ steering (fun _ => True) cms d s s' /\
     (NoDup (oRF (ORD s)) -> forall i, i ∈ oRF (ORD s) -> exists f, number s i "FrequencySetPoint" = Some f /\ number s' i "FrequencySetPoint" = Some (f - scale * x))).

(** root mean square of a reading in both planes *)
Definition rms_of (r : reading R) (p : R * R) : Prop :=
  exists xs ys, r_x r = map Some xs /\ r_y r = map Some ys /\ p = (R_sqrt.sqrt (avg (map Rsqr xs)), R_sqrt.sqrt (avg (map Rsqr ys))).
(** the spread of the rms of the last [n] readings is positive and below [eps] *)
Definition converged (n : nat) (eps : R) (rs : list (reading R)) : Prop :=
  exists tail vals, recent n rs tail /\ Forall2 rms_of tail vals /\ 0 < stddev (both vals) < eps.

(** what the functions work with: given lists or the registered ones *)
Definition used_bpms (s : sc R) (o : option (list nat)) : list nat := match o with Some l => l | None => oBPM (ORD s) end.
Definition used_cms (s : sc R) (o : option (list nat * list nat)) : list nat * list nat := match o with Some p => p | None => (oHCM (ORD s), oVCM (ORD s)) end.
Definition used_reference (m : list (list R)) (o : option (list R)) : list R := match o with Some l => l | None => replicate (length m) 0 end.
Definition shapes_fit (m : list (list R)) (reference : option (list R)) (bpms : list nat) (cms : list nat * list nat) (turns : nat) : Prop :=
  length m = (2 * length bpms * turns)%nat /\ length (default [] (m !! 0%nat)) = (length cms.1 + length cms.2)%nat /\
  match reference with Some v => length v = length m | None => True end.

(** * Proofs *)
Lemma get_cm_agree ords skew (s s' : sc R) : (forall i a, a = setpoint_name skew \/ a = "PassMethod" \/ a = "Length" -> attr_at s' i a = attr_at s i a) -> length (RING s') = length (RING s) ->
  get_cm_setpoints ords skew s' = get_cm_setpoints ords skew s.
Proof.
  intros H HL. rewrite !get_cm_reading. induction ords as [|i ords IH]; [done|]. cbn [rmap]. rewrite IH. f_equal. unfold idx.
  destruct (RING s !! i) as [e|] eqn:E; destruct (RING s' !! i) as [e'|] eqn:E'; try done.
  - cbn [rbind]. assert (forall a, a = setpoint_name skew \/ a = "PassMethod" \/ a = "Length" -> e' !! a = e !! a) as Ha.
    { intros a Hin. specialize (H i a Hin). unfold attr_at in H. rewrite E, E' in H. done. }
    unfold Proofs_CM.reading, norm_by, attr_vec, attr_str, attr_num, attr. rewrite SP_name. rewrite (Ha (setpoint_name skew)), (Ha "PassMethod"), (Ha "Length") by auto. done.
  - apply lookup_ge_None in E'. apply lookup_lt_Some in E. lia.
  - apply lookup_ge_None in E. apply lookup_lt_Some in E'. lia.
Qed.
Lemma setting_agree skew (s s' : sc R) c : (forall i a, a = setpoint_name skew \/ a = "PassMethod" \/ a = "Length" -> attr_at s' i a = attr_at s i a) -> length (RING s') = length (RING s) ->
  setting skew s' c = setting skew s c.
Proof. intros H HL. unfold setting. by rewrite (get_cm_agree _ _ _ _ H HL). Qed.
(** setting one plane leaves the settings of the other and the limits *)
Lemma other_plane ords dt sps skew method (s s' : sc R) u c : set_cm_setpoints ords dt sps (negb skew) method s = (u, s') ->
  setting skew s' c = setting skew s c /\ forall b, cm_limit s' c b = cm_limit s c b.
Proof.
  intros H. pose proof (set_cm_frame ords dt sps (negb skew) method s) as F. rewrite H in F. cbn [snd] in F. split.
  - apply setting_agree; [|destruct F as (_&_&_&_&_&[? _]); done]. intros i a Ha. rewrite !attr_at_aget. apply (frame_aget _ _ _ _ _ F).
    intros [[-> _]|[Hd _]]; [destruct skew; destruct Ha as [?|[?|?]]; done|]. destruct Ha as [->|[->| ->]]; [destruct skew| |]; match goal with H : der ?a |- _ => by apply (not_der a eq_refl) in H end.
  - intros b. unfold cm_limit. assert (attr_at s' c "CMlimit" = attr_at s c "CMlimit") as ->; [|done]. rewrite !attr_at_aget. apply (frame_aget _ _ _ _ _ F).
    intros [[E _]|[Hd _]]; [destruct skew; done|]. by apply (not_der "CMlimit" eq_refl) in Hd.
Qed.
Lemma add_kicks_kicked P ords d skew (s s' : sc R) u : add_kicks ords d skew s = (Ok u, s') -> lowered P skew ords d s s'.
Proof.
  intros H Hnd HL j c y Hc Hy _. destruct u. unfold add_kicks in H.
  assert ((c, - y) ∈ zip ords (map Ropp d)) as Hin. { apply elem_of_list_lookup. exists j. rewrite lookup_zip_with, Hc. cbn. by rewrite list_lookup_fmap, Hy. }
  assert (c ∈ ords) as Hi by (by eapply elem_of_zip_l). destruct (set_cm_exists _ _ _ _ _ _ _ _ _ H Hi) as [e He].
  assert (length (map Ropp d) = length ords) as HL' by (by rewrite map_length).
  destruct (single_cm _ _ _ _ _ _ _ _ _ _ _ H Hnd HL' Hin He) as (l&e'&Hn&He'&Ha).
  apply reading_cm_new in Hn as (p&nb&x1&x2&_&_&Hr&_&Hadd&_&Hc2&Hr2). exists (p * nb). split.
  - unfold setting. assert (get_cm_setpoints [c] skew s = Ok [p * nb]) as ->; [|done]. apply get_cm_one. eauto.
  - unfold setting. assert (get_cm_setpoints [c] skew s' = Ok [x2]) as ->; [apply get_cm_one; exists e'; split; [done|]; by rewrite (reading_agree _ _ _ Ha)|].
    f_equal. specialize (Hadd eq_refl). cbn [store] in Hadd. apply clip_cm_float in Hc2. rewrite Hc2, (cm_limit_elim s c e) by done. f_equal. subst x1. lra.
Qed.
Lemma kicks_times mplus v reference d : kicks mplus v reference = Ok d -> d = times mplus (zip_with Rminus v reference) /\ length v = length reference.
Proof.
  unfold kicks. destruct (Nat.eqb_spec (length v) (length reference)); [|done]. intros [= <-]. split; [|done]. unfold mvec, times. apply map_ext. intros row. unfold dot. by rewrite nsum_rsum.
Qed.
Lemma deviation_gaps r reference : zip_with Rminus (zero_gaps (r_x r ++ r_y r)) reference = deviation r reference.
Proof. unfold deviation, zero_gaps. generalize (r_x r ++ r_y r). intros l. revert reference. induction l as [|o l IH]; intros [|v reference]; [done..|]. cbn. f_equal. apply IH. Qed.
(** both planes, one after the other *)
Lemma both_kicked P h v d1 d2 (s s1 s2 : sc R) u1 u2 : add_kicks h d1 false s = (Ok u1, s1) -> add_kicks v d2 true s1 = (Ok u2, s2) -> lowered P false h d1 s s2 /\ lowered P true v d2 s s2.
Proof.
  intros H1 H2. split; intros Hnd HL j c y Hc Hy HP.
  - destruct (add_kicks_kicked P _ _ _ _ _ _ H1 Hnd HL j c y Hc Hy HP) as (x&A&B). exists x. split; [done|]. rewrite <- B. by apply (other_plane v DFloat (map Ropp d2) false ADD s1 s2 (Ok u2)).
  - destruct (add_kicks_kicked P _ _ _ _ _ _ H2 Hnd HL j c y Hc Hy HP) as (x&A&B). destruct (other_plane h DFloat (map Ropp d1) true ADD s s1 (Ok u1) c H1) as [E1 E2]. exists x. rewrite <- E1, <- E2. done.
Qed.
Lemma session_weaken w bpms (st1 st2 : list (reading R) -> sc R -> sc R -> Prop) s rs s' : session w bpms st1 s rs s' ->
  (forall rs1 rs2 a b, rs = rs1 ++ rs2 -> st1 rs1 a b -> st2 rs1 a b) -> session w bpms st2 s rs s'.
Proof.
  induction 1 as [r s' H|rs s1 s2 r s3 H IH Hst Hr]; intros Hw; [by apply session_first|]. eapply session_next; [|eapply Hw; [reflexivity|exact Hst]|exact Hr].
  apply IH. intros rs1 rs2 a b ->. apply (Hw rs1 (rs2 ++ [r])). by rewrite (assoc_L app).
Qed.
Definition no_master (X : string -> Prop) : Prop := ~ X "MasterOf".
Class NoMaster (X : string -> Prop) := nm : no_master X.
#[global] Instance nm_none : NoMaster (fun _ => False). Proof. unfold NoMaster, no_master. tauto. Qed.
#[global] Instance steered_preorder X `{!NoMaster X} P : PreOrder (steered_also X P).
Proof.
  split; [intros s; repeat split; auto|].
  intros a b c (A1&A2&A3&A4&A5&A6) (B1&B2&B3&B4&B5&B6). unfold steered_also; repeat split_and?; try congruence. intros i x H1 H2 H3.
  rewrite B6, A6; auto. intros [Hx [HP|(m&Hm&l&Hl&Hi)]]; apply H2; split; auto. right. exists m. split; [done|]. exists l. split; [|done].
  rewrite A6 in Hl; [done| | |apply nm].
  - intros [[?|?] _]; discriminate.
  - intros [Hf _]. unfold field_attributes in Hf. rewrite !elem_of_cons in Hf. destruct Hf as [?|[?|[?|[?|?%elem_of_nil]]]]; done.
Qed.
Lemma steered_mono X (P Q : nat -> Prop) s s' : (forall i, P i -> Q i) -> steered_also X P s s' -> steered_also X Q s s'.
Proof.
  intros H (A1&A2&A3&A4&A5&A6). unfold steered_also; repeat split_and?; auto. intros i a H1 H2 H3. apply A6; auto.
  - intros [? ?]. apply H1. auto.
  - intros [? [?|(m&?&?)]]; apply H2; split; auto. right. eauto.
Qed.
Lemma steered_quiet X P (s s' : sc R) : quiet s s' -> steered_also X P s s'.
Proof. intros H. destruct (quiet_same _ _ H) as (E&?&?&?&?). unfold steered_also; repeat split_and?; auto; [by rewrite E|]. intros i a _ _ _. unfold attr_at. by rewrite E. Qed.
Lemma steered_set_cm X `{!NoMaster X} (P : nat -> Prop) ords dt sps skew method : (forall i, i ∈ ords -> P i) -> pres (steered_also X P) (@set_cm_setpoints R _ ords dt sps skew method).
Proof.
  intros HP s. pose proof (set_cm_frame ords dt sps skew method s) as F. set (s' := snd _) in *.
  pose proof F as (F1&F2&F3&F4&F5&[F6 _]). unfold steered_also; repeat split_and?; auto. intros i a H1 H2 _. rewrite !attr_at_aget. apply (frame_aget _ _ _ _ _ F).
  intros [[-> Hi]|[Hd Ht]].
  - apply H1. split; [destruct (SP_cases skew); auto|auto].
  - apply H2. split; [exact Hd|]. destruct Ht as [Hi|(m&Hm&Hc)]; [auto|]. right. exists m. split; [auto|]. unfold child_of. rewrite attr_at_aget.
    unfold children in Hc. destruct (aget (RING s) m "MasterOf") as [[]|]; try by inversion Hc. eauto.
Qed.
Lemma steered_reading X P (w : world R) o e : pres (steered_also X P) (bpm_reading w o e).
Proof. eapply pres_weaken; [|apply quiet_reading]. intros s s'. apply steered_quiet. Qed.
Definition rf_names (a : string) : Prop := a = "FrequencySetPoint" \/ a ∈ RF_PROPERTIES.
#[global] Instance nm_rf : NoMaster rf_names.
Proof. intros [H|H]; [discriminate|]. unfold RF_PROPERTIES in H. rewrite !elem_of_cons in H. destruct H as [?|[?|[?|?%elem_of_nil]]]; done. Qed.
Lemma steered_cavity P ords dt sps method : pres (steered_also rf_names P) (@set_cavity_setpoints R _ ords dt sps "Frequency" method).
Proof.
  eapply pres_weaken; [|apply pres_set_cavity]. intros s s' F. pose proof F as (F1&F2&F3&F4&F5&[F6 _]). unfold steered_also; repeat split_and?; auto.
  intros i a _ _ Hx. rewrite !attr_at_aget. apply (frame_aget _ _ _ _ _ F). exact Hx.
Qed.

(** the log kept along a session *)
Definition logged (rs : list (reading R)) (l : log R) : Prop := l_trans l = map seen rs /\ l_rms l = map rms_orbit rs.
Lemma seen_reached r : reached r = seen r.
Proof. unfold reached, seen. induction (r_x r) as [|[x|] l IH]; [done| |done]. simpl. f_equal. exact IH. Qed.
Lemma read_and_log_ok (w : world R) bpms l (s : sc R) p s' : read_and_log w bpms l s = (Ok p, s') ->
  bpm_reading w (Some bpms) false s = (Ok p.1, s') /\ p.2 = MkLog (l_trans l ++ [seen p.1]) (l_rms l ++ [rms_orbit p.1]).
Proof. unfold read_and_log. intros H. apply bind_ok in H as (r&s1&H1&H). apply ret_ok in H as [<- <-]. simpl. rewrite seen_reached. done. Qed.
Lemma logged_snoc rs l r : logged rs l -> logged (rs ++ [r]) (MkLog (l_trans l ++ [seen r]) (l_rms l ++ [rms_orbit r])).
Proof. intros [H1 H2]. split; simpl; rewrite map_app; simpl; [by rewrite H1|by rewrite H2]. Qed.
Lemma last_trans_logged rs l r : logged rs l -> last rs = Some r -> last_trans l = seen r.
Proof. intros [H _] Hl. unfold last_trans. rewrite H. change (map seen rs) with (seen <$> rs). rewrite fmap_last, Hl. done. Qed.
Lemma map_lastn {A B} (f : A -> B) n l : lastn n (map f l) = map f (lastn n l).
Proof. unfold lastn. destruct n; [done|]. rewrite map_length. symmetry. apply (fmap_drop f). Qed.
Lemma is_repro_spec n rs l : logged rs l -> (n <> 0)%nat -> is_repro (l_trans l) n = true -> (n <= length rs)%nat /\ exists r, last rs = Some r /\ recent n rs (lastn n rs) /\ Forall (fun q => seen q = seen r) (lastn n rs).
Proof.
  intros [H _] Hn. unfold is_repro. rewrite H, map_length. destruct (length rs <? n)%nat eqn:E; [done|]. apply Nat.ltb_ge in E.
  change (map seen rs) with (seen <$> rs). rewrite fmap_last. destruct (last rs) as [r|] eqn:El; simpl.
  - intros HF. split; [done|]. exists r. split; [done|]. split; [by apply lastn_recent|]. change (seen <$> rs) with (map seen rs) in HF. rewrite map_lastn in HF.
    apply forallb_True, Is_true_true in HF || idtac. apply Forall_forall. intros q Hq. rewrite forallb_forall in HF. specialize (HF (seen q)). apply Nat.eqb_eq, HF, in_map, elem_of_list_In, Hq.
  - apply last_None in El. subst. simpl in E. lia.
Qed.

(** readings of a session all have the same format *)
Definition format (n : nat) (r : reading R) : Prop := length (r_x r) = n /\ length (r_y r) = n.
Definition read_places (s : sc R) (bpms : list nat) : nat :=
  match only_registered (oBPM (ORD s)) bpms with
  | Ok ords => if decide (trackMode (INJ s) = "PORB") then length ords else (nTurns (INJ s) * length ords)%nat
  | Err _ => 0%nat
  end.
Lemma reading_format (w : world R) bpms (s s' : sc R) r : bpm_reading w (Some bpms) false s = (Ok r, s') -> format (read_places s bpms) r /\ INJ s' = INJ s /\ ORD s' = ORD s.
Proof.
  intros H. pose proof (pres_run quiet _ _ _ _ (quiet_reading w _ _) H) as Q. destruct (quiet_same _ _ Q) as (_&_&Q1&_&Q2). split; [|done].
  unfold read_places. destruct (only_registered (oBPM (ORD s)) bpms) as [ords|] eqn:E.
  - destruct (decide _) as [D|D].
    + by destruct (C38_pseudo_orbit w (Some bpms) false s s' r ords D E H) as (_&?&?&_).
    + by destruct (C38_reading w (Some bpms) false s s' r ords D E H) as (_&?&?&_).
  - exfalso. unfold bpm_reading in H. apply bind_ok in H as (s0&s1&H0&H). apply get_ok in H0 as [-> ->].
    apply bind_ok in H as (ords'&s2&H1&H). apply lift_ok in H1 as [H1 ->]. congruence.
Qed.
Lemma session_format (w : world R) bpms (step : list (reading R) -> sc R -> sc R -> Prop) s rs s' :
  (forall rs a b, step rs a b -> INJ b = INJ a /\ ORD b = ORD a) -> session w bpms step s rs s' ->
  Forall (format (read_places s bpms)) rs /\ INJ s' = INJ s /\ ORD s' = ORD s.
Proof.
  intros HS H. induction H as [r s' H|rs s1 s2 r s3 H IH Hst Hr].
  - apply reading_format in H as (?&?&?). auto.
  - destruct IH as (IH1&IH2&IH3). apply HS in Hst as [E1 E2]. apply reading_format in Hr as (F&E3&E4).
    assert (read_places s2 bpms = read_places s bpms) as E by (unfold read_places; rewrite E1, E2, IH2, IH3; done). rewrite E in F.
    split; [apply Forall_app; auto|]. split; congruence.
Qed.
Lemma full_seen r : full r <-> seen r = length (r_x r).
Proof.
  unfold full, seen. induction (r_x r) as [|[x|] l IH]; simpl.
  - split; auto.
  - rewrite Forall_cons, IH. split; [intros [_ ->]; done|]. intros [= E]. split; [by eexists|done].
  - split; [intros H; inversion H as [|? ? [? ?]]; discriminate|]. intros E. exfalso.
    assert (length (List.filter (fun o : option R => match o with Some _ => true | None => false end) l) <= length l)%nat; [|lia].
    clear. induction l as [|[x|] l IH]; simpl; lia.
Qed.
Lemma repro_full n rs r k : Forall (format k) rs -> last rs = Some r -> Forall (fun q => seen q = seen r) (lastn n rs) -> seen r = length (r_x r) -> Forall full (lastn n rs).
Proof.
  intros HF Hl HR Hr. apply Forall_forall. intros q Hq. rewrite Forall_forall in HR, HF. apply full_seen. rewrite (HR q Hq), Hr.
  assert (r ∈ rs) as Hin by (apply last_Some_elem_of; done). assert (q ∈ rs) as Hin'.
  { unfold lastn in Hq. destruct n; [done|]. apply elem_of_list_lookup in Hq as (i&Hi). rewrite lookup_drop in Hi. by eapply elem_of_list_lookup_2. }
  destruct (HF _ Hin) as [-> _]. by destruct (HF _ Hin') as [-> _].
Qed.

Section Functions.
  Context (w : world R) (pinv : list (list R) -> list (list R)).
  Notation first_turn := (first_turn w pinv). Notation stitch := (stitch w pinv). Notation balance := (balance w pinv). Notation correct := (correct w pinv).

  Lemma check_ords_ok m reference bpms cms (s s' : sc R) q : check_ords m reference bpms cms s = (Ok q, s') ->
    exists v, q = (used_bpms s bpms, used_cms s cms, v) /\ s' = s /\ shapes_fit m reference (used_bpms s bpms) (used_cms s cms) (nTurns (INJ s)) /\ v = used_reference m reference.
  Proof.
    unfold check_ords, used_reference. intros H. apply bind_ok in H as (s0&s1&H0&H). apply get_ok in H0 as [-> ->].
    change (default (oHCM (ORD s), oVCM (ORD s)) cms) with (used_cms s cms) in H. change (default (oBPM (ORD s)) bpms) with (used_bpms s bpms) in H.
    destruct (Nat.eqb_spec (length m) (2 * length (used_bpms s bpms) * nTurns (INJ s))%nat) as [E1|]; [|discriminate]. simpl in H.
    destruct (Nat.eqb_spec (columns m) (length (used_cms s cms).1 + length (used_cms s cms).2)%nat) as [E2|]; [|discriminate]. simpl in H.
    unfold shapes_fit. unfold columns in E2. destruct reference as [v|].
    - destruct (Nat.eqb_spec (length v) (length m)) as [E3|]; [|discriminate]. apply ret_ok in H as [<- <-]. eexists. split; [done|]. auto.
    - apply ret_ok in H as [<- <-]. eexists. split; [reflexivity|]. split; [reflexivity|]. split; [auto|]. done.
  Qed.
  Lemma check_ords_misfit m reference bpms cms (s : sc R) :
    ~ shapes_fit m reference (used_bpms s bpms) (used_cms s cms) (nTurns (INJ s)) -> check_ords m reference bpms cms s = (Err ValueError, s).
  Proof.
    intros H. unfold check_ords. unfold bind at 1, get. cbn beta iota zeta.
    change (default (oHCM (ORD s), oVCM (ORD s)) cms) with (used_cms s cms). change (default (oBPM (ORD s)) bpms) with (used_bpms s bpms).
    destruct (Nat.eqb_spec (length m) (2 * length (used_bpms s bpms) * nTurns (INJ s))%nat) as [E1|]; [|done].
    destruct (Nat.eqb_spec (columns m) (length (used_cms s cms).1 + length (used_cms s cms).2)%nat) as [E2|]; [|done].
    destruct reference as [v|]; [|exfalso; apply H; done]. destruct (Nat.eqb_spec (length v) (length m)) as [E3|]; [|done].
    exfalso. apply H. done.
  Qed.

  (** ** Frames: whatever the outcome, only the correctors in use have changed *)
  Lemma lastn_sub {A} n (l : list A) x : x ∈ lastn n l -> x ∈ l.
  Proof. unfold lastn. destruct n; [done|]. intros (i&Hi)%elem_of_list_lookup. rewrite lookup_drop in Hi. by eapply elem_of_list_lookup_2. Qed.
  Lemma take_sub {A} n (l : list A) x : x ∈ take n l -> x ∈ l.
  Proof. intros (i&Hi)%elem_of_list_lookup. apply lookup_take_Some in Hi as [Hi _]. by eapply elem_of_list_lookup_2. Qed.
  Lemma get_last_cm_sub z n bpms cms ords inds : get_last_cm z n bpms cms = Ok (ords, inds) -> forall c, c ∈ ords -> c ∈ cms.
  Proof.
    unfold get_last_cm. destruct (Z.leb _ _); [intros [= <- <-]; intros c; apply lastn_sub|]. destruct (idx bpms _) as [b|]; [|discriminate]. cbn [rbind].
    destruct (List.filter _ _) as [|i l]; [discriminate|]. intros [= <- <-] c Hc. apply elem_of_list_omap in Hc as (k&_&Hk). by eapply elem_of_list_lookup_2.
  Qed.
  Lemma steered_read_log X `{!NoMaster X} P bpms l : pres (steered_also X P) (read_and_log w bpms l).
  Proof. unfold read_and_log. repeat first [pres_step|apply steered_reading]. Qed.
  Lemma steered_add X `{!NoMaster X} (P : nat -> Prop) ords d skew : (forall i, i ∈ ords -> P i) -> pres (steered_also X P) (@add_kicks R _ ords d skew).
  Proof. apply steered_set_cm; exact _. Qed.
  Lemma steered_points (P : nat -> Prop) bpms h v limit pts : (forall i, i ∈ h -> P i) -> (forall i, i ∈ v -> P i) -> forall l, pres (steered P) (wiggle_points w bpms h v limit pts l).
  Proof.
    intros Hh Hv. induction pts as [|p pts IH]; intros l; cbn [wiggle_points]; unfold steered;
      repeat first [pres_step|apply steered_read_log; exact _|apply steered_set_cm; [exact _|assumption]|apply IH].
  Qed.
  Lemma steered_nums bpms cms limit nums : forall l, pres (steered (either cms)) (wiggle_nums w bpms cms limit nums l).
  Proof.
    unfold steered. induction nums as [|n nums IH]; intros l; cbn [wiggle_nums]; [pres_step|].
    intros s. unfold bind at 1, lift at 1. destruct (get_last_cm _ n bpms cms.1) as [[ho hi]|] eqn:Eh; [|reflexivity].
    unfold bind at 1, lift at 1. destruct (get_last_cm _ n bpms cms.2) as [[vo vi]|] eqn:Ev; [|reflexivity].
    match goal with |- steered_also _ _ s (snd (?m s)) => assert (pres (steered_also (fun _ => False) (either cms)) m) as HP end; [|apply HP].
    repeat first [pres_step|apply IH]. apply steered_points; intros i Hi; [left|right]; eapply get_last_cm_sub; eauto.
  Qed.
  Lemma steered_wiggling bpms cms limit : pres (steered (either cms)) (wiggling w bpms cms limit).
  Proof. unfold wiggling, steered. repeat first [pres_step|apply steered_read_log; exact _|apply steered_nums]. Qed.
  Lemma steered_first_loop steps mplus reference bpms cms : forall r l, pres (steered (either cms)) (first_turn_loop w steps mplus reference bpms cms r l).
  Proof.
    unfold steered. induction steps as [|steps IH]; intros r l; cbn [first_turn_loop];
    repeat first [pres_step|apply steered_read_log; exact _|apply steered_wiggling|apply IH|apply steered_add; [exact _|intros ? ?%take_sub; unfold either; auto]].
  Qed.
  Lemma steered_stitch_loop steps mplus reference bpms cms k : forall r l, pres (steered (either cms)) (stitch_loop w steps mplus reference bpms cms k r l).
  Proof.
    unfold steered. induction steps as [|steps IH]; intros r l; cbn [stitch_loop];
    repeat first [pres_step|apply steered_read_log; exact _|apply IH|apply steered_add; [exact _|unfold either; auto]].
  Qed.
  Lemma steered_balance_loop steps mplus reference bpms cms eps : forall r l, pres (steered (either cms)) (balance_loop w steps mplus reference bpms cms eps r l).
  Proof.
    unfold steered. induction steps as [|steps IH]; intros r l; cbn [balance_loop];
    repeat first [pres_step|apply steered_read_log; exact _|apply IH|apply steered_add; [exact _|unfold either; auto]].
  Qed.
  Lemma steered_correct_loop steps maxsteps mplus reference bpms cms eps target scale : forall r l,
    pres (steered_also (fun a => scale <> 0 /\ rf_names a) (either cms)) (correct_loop w steps maxsteps mplus reference bpms cms eps target scale r l).
  Proof.
    assert (NoMaster (fun a => scale <> 0 /\ rf_names a)) as HN by (intros [_ H]; by apply (nm_rf H)).
    induction steps as [|steps IH]; intros r l; cbn [correct_loop];
    repeat first [pres_step|apply steered_read_log; exact _|apply IH|apply steered_add; [exact _|unfold either; auto]].
    change (neqb scale n0) with (Reqb scale 0) in *. match goal with H : Reqb scale 0 = false |- _ => apply Reqb_false in H end.
    eapply pres_weaken; [|apply (steered_cavity (either cms))]. intros s s' (A1&A2&A3&A4&A5&A6). unfold steered_also; repeat split_and?; auto.
  Qed.

  Lemma check_state m reference bpms cms (s : sc R) : snd (check_ords m reference bpms cms s) = s.
  Proof. unfold check_ords. unfold bind at 1, get. cbn beta iota zeta. destruct (negb _); [done|]. destruct (negb _); [done|]. destruct reference; [destruct (negb _)|]; done. Qed.

  (** ** The loops *)
  Lemma sorted_lookup_le l : StronglySorted lt l -> forall i j a c, l !! i = Some a -> l !! j = Some c -> (j <= i)%nat -> (c <= a)%nat.
  Proof.
    intros Hs. induction Hs as [|x l Hs IH Hx]; intros i j a c Hi Hj Hle; [done|]. destruct j as [|j], i as [|i]; simpl in *; try lia.
    - injection Hi as <-. injection Hj as <-. done.
    - injection Hj as <-. rewrite Forall_forall in Hx. apply Nat.lt_le_incl, Hx. by eapply elem_of_list_lookup_2.
    - apply (IH i j a c Hi Hj). lia.
  Qed.
  Lemma taken_passed bpms (cms : list nat) r o i0 i1 : StronglySorted lt cms -> (0 < seen r)%nat ->
    get_last_cm (Z.of_nat (seen r) - 1) 1 bpms cms = Ok (o, i0) -> idx i0 0 = Ok i1 ->
    forall c, c ∈ take (Z.to_nat (i1 + 1)) cms -> (length bpms < seen r)%nat \/ exists b, bpms !! (seen r - 1)%nat = Some b /\ (c <= b)%nat.
  Proof.
    intros Hs Hpos HG Hi c Hc. destruct (decide (length bpms < seen r)%nat) as [|Hn]; [by left|]. right.
    destruct (lookup_lt_is_Some_2 bpms (seen r - 1)%nat) as [b Hb]; [lia|]. exists b. split; [done|].
    pose proof (C48_within_turn (seen r - 1) 1 b bpms cms ltac:(lia) Hs Hb) as HC.
    replace (Z.of_nat (seen r - 1)) with (Z.of_nat (seen r) - 1)%Z in HC by lia. rewrite HG in HC. destruct HC as (l&[Hl _]&_&(front&Hf&_)&HF).
    apply idx_ok in Hi. destruct HF as [|o1 i2 o i0 [Hi2 Ho1] HF]; [done|]. injection Hi as ->.
    assert (o1 <= b)%nat as Ho. { apply Hl. rewrite Hf. rewrite elem_of_app. right. constructor. }
    apply elem_of_list_lookup in Hc as (j&Hj). apply lookup_take_Some in Hj as [Hj Hlt].
    assert (c <= o1)%nat by (eapply (sorted_lookup_le cms Hs); eauto; lia). lia.
  Qed.
  (** the correctors passed are among those taken *)
  Lemma passed_taken bpms (cms : list nat) r o i0 i1 j c : StronglySorted lt cms -> (0 < seen r)%nat ->
    get_last_cm (Z.of_nat (seen r) - 1) 1 bpms cms = Ok (o, i0) -> idx i0 0 = Ok i1 -> cms !! j = Some c ->
    ((length bpms < seen r)%nat \/ exists b, bpms !! (seen r - 1)%nat = Some b /\ (c <= b)%nat) -> (j < Z.to_nat (i1 + 1))%nat.
  Proof.
    intros Hs Hpos HG Hi Hj HP. pose proof (lookup_lt_Some _ _ _ Hj) as Hlt. apply idx_ok in Hi. destruct HP as [Hlong|(b&Hb&Hle)].
    - unfold get_last_cm in HG. destruct (Z.leb_spec (Z.of_nat (length bpms)) (Z.of_nat (seen r) - 1)); [|lia]. injection HG as <- <-. cbn in Hi. injection Hi as <-. lia.
    - pose proof (C48_within_turn (seen r - 1) 1 b bpms cms ltac:(lia) Hs Hb) as HC.
      replace (Z.of_nat (seen r - 1)) with (Z.of_nat (seen r) - 1)%Z in HC by lia. rewrite HG in HC. destruct HC as (l&[Hl (back&Hback)]&_&(front&Hf&Hlen)&HF).
      destruct HF as [|o1 i2 o i0 [Hi2 Ho1] HF]; [done|]. injection Hi as ->. assert (o = []) as ->. { destruct o as [|o2 o]; [done|]. exfalso. destruct Hlen as [Hlen|[-> Hlen]]; [cbn in Hlen; lia|]. rewrite Hf in Hlen. cbn in Hlen. lia. }
      assert (c ∈ l) as Hcl by (apply Hl; split; [by eapply elem_of_list_lookup_2|done]).
      assert (c <= o1)%nat as Hco.
      { apply elem_of_list_lookup in Hcl as (q&Hq). assert (cms !! q = Some c) as Hq' by (rewrite Hback; by apply lookup_app_l_Some). assert (cms !! length front = Some o1) as Hq2.
        { rewrite Hback. apply lookup_app_l_Some. rewrite Hf, lookup_app_r, Nat.sub_diag by lia. done. }
        eapply (sorted_lookup_le cms Hs); [exact Hq2|exact Hq'|]. apply lookup_lt_Some in Hq. rewrite Hf, app_length in Hq. cbn in Hq. lia. }
      destruct (decide (j <= Z.to_nat i1)%nat) as [|Hgt]; [lia|]. exfalso. assert (o1 < c)%nat; [|lia].
      destruct (decide (c = o1)) as [->|]; [|pose proof (sorted_lookup_le cms Hs j (Z.to_nat i1) c o1 Hj Ho1 ltac:(lia)); lia].
      assert (NoDup cms) as Hnd. { clear -Hs. induction Hs as [|x l Hs IH Hx]; [constructor|]. constructor; [|done]. intros Hin. rewrite Forall_forall in Hx. specialize (Hx _ Hin). lia. }
      pose proof (NoDup_lookup _ _ _ _ Hnd Hj Ho1). lia.
  Qed.
  Lemma kicked_taken (P : nat -> Prop) n skew ords d (s s' : sc R) : (forall j c, ords !! j = Some c -> P c -> (j < n)%nat) -> lowered P skew (take n ords) (take n d) s s' -> lowered P skew ords d s s'.
  Proof.
    intros HP HK Hnd HL j c y Hc Hy Hp. pose proof (HP j c Hc Hp). refine (HK _ _ j c y _ _ Hp).
    - rewrite <- (take_drop n ords) in Hnd. by apply NoDup_app in Hnd as [? _].
    - rewrite !take_length. lia.
    - by rewrite lookup_take.
    - by rewrite lookup_take.
  Qed.
  Lemma take_take_min {A} n m (l : list A) : (n <= m)%nat -> take n (take m l) = take n l.
  Proof. intros. rewrite take_take. f_equal. lia. Qed.
  Lemma last_cm_range z bpms (cms : list nat) o i0 i1 : get_last_cm z 1 bpms cms = Ok (o, i0) -> idx i0 0 = Ok i1 -> (Z.to_nat (i1 + 1) <= length cms)%nat.
  Proof.
    unfold get_last_cm. intros H Hi. apply idx_ok in Hi. destruct (Z.leb _ _).
    - injection H as <- <-. cbn in Hi. injection Hi as <-. lia.
    - destruct (idx bpms _) as [b|]; [|done]. cbn [rbind] in H. destruct (List.filter _ _) as [|q l] eqn:E; [done|]. assert (i0 = map Z.of_nat (lastn 1 (q :: l))) as -> by congruence.
      assert (forall k, k ∈ lastn 1 (q :: l) -> (k < length cms)%nat) as Hk.
      { intros k Hk%lastn_sub. rewrite <- E in Hk. apply elem_of_list_In, filter_In in Hk as [Hk _]. apply in_seq in Hk. lia. }
      destruct (lastn 1 (q :: l)) as [|k l']; [discriminate Hi|]. cbn in Hi. injection Hi as <-. specialize (Hk k ltac:(left)). lia.
  Qed.
  Lemma step_threading_same mplus reference bpms cms : forall rs a b, threading_step mplus reference bpms cms rs a b -> INJ b = INJ a /\ ORD b = ORD a.
  Proof.
    intros rs a b (r&s1&_&_&[->|[_ (A1&A2&A3&A4&_)]]&(B1&B2&B3&B4&_)&_); split; congruence.
  Qed.
  Lemma step_correction_same dev mplus cms : forall rs a b, correction_step dev mplus cms rs a b -> INJ b = INJ a /\ ORD b = ORD a.
  Proof. intros rs a b [(A1&A2&A3&A4&_) _]. done. Qed.
  Lemma step_stitching_same nb n reference mplus cms : forall rs a b, stitching_step nb n reference mplus cms rs a b -> INJ b = INJ a /\ ORD b = ORD a.
  Proof. intros rs a b [H|[(A1&A2&A3&A4&_) _]]; [by eapply step_correction_same|done]. Qed.
  Lemma step_orbit_same reference mplus scale cms : forall rs a b, orbit_correction_step reference mplus scale cms rs a b -> INJ b = INJ a /\ ORD b = ORD a.
  Proof. intros rs a b [(A1&A2&A3&A4&_) _]. done. Qed.
  Lemma last_snoc' {A} (l : list A) x : last (l ++ [x]) = Some x.
  Proof. apply last_snoc. Qed.

  Lemma first_turn_loop_ok mplus reference bpms cms s0 : StronglySorted lt cms.1 -> StronglySorted lt cms.2 ->
    forall steps rs r l s1 s l' s',
    session w bpms (threading_step mplus reference bpms cms) s0 rs s1 -> logged rs l -> last rs = Some r ->
    (s = s1 \/ reproducible 20 rs /\ steered (either cms) s1 s) ->
    first_turn_loop w steps mplus reference bpms cms r l s = (Ok l', s') ->
    exists rs', session w bpms (threading_step mplus reference bpms cms) s0 rs' s' /\ (length rs' <= length rs + steps)%nat /\ full_transmission 5 rs' /\ logged rs' l'.
  Proof.
    intros Hs1 Hs2. induction steps as [|steps IH]; intros rs r l s1 s l' s' HS HL Hlast HW H; cbn [first_turn_loop] in H; [discriminate|].
    rewrite (last_trans_logged _ _ _ HL Hlast) in H. destruct (Nat.eqb_spec (seen r) 0) as [|Hpos]; [discriminate|].
    apply bind_ok in H as (dphi&s2&Hdphi&H). apply lift_ok in Hdphi as [Hdphi ->]. apply kicks_times in Hdphi as [Hdphi _]. rewrite deviation_gaps in Hdphi.
    apply bind_ok in H as ([ho hi]&s2&Hh&H). apply lift_ok in Hh as [Hh ->].
    apply bind_ok in H as ([vo vi]&s2&Hv&H). apply lift_ok in Hv as [Hv ->].
    apply bind_ok in H as (hk&s2&Hhk&H). apply lift_ok in Hhk as [Hhk ->].
    apply bind_ok in H as (vk&s2&Hvk&H). apply lift_ok in Hvk as [Hvk ->]. cbv zeta in H. cbn [snd] in Hhk, Hvk.
    apply bind_ok in H as (u1&s2&Hk1&H). apply bind_ok in H as (u2&s3&Hk2&H). apply bind_ok in H as (rl&s4&Hr&H).
    apply read_and_log_ok in Hr as [Hr El].
    assert (steered (passed bpms cms r) s s3) as Hst.
    { unfold steered. transitivity s2.
      - refine (pres_run _ _ _ _ _ _ Hk1). apply steered_add; [exact _|]. intros i Hi. split; [left; by apply take_sub in Hi|]. eapply (taken_passed bpms cms.1); eauto. lia.
      - refine (pres_run _ _ _ _ _ _ Hk2). apply steered_add; [exact _|]. intros i Hi. split; [right; by apply take_sub in Hi|]. eapply (taken_passed bpms cms.2); eauto. lia. }
    assert (session w bpms (threading_step mplus reference bpms cms) s0 (rs ++ [rl.1]) s4) as HS'.
    { eapply session_next; [exact HS| |exact Hr]. exists r, s. split; [done|]. split; [lia|]. split; [destruct HW as [->|HW]; auto|]. split; [done|]. rewrite <- Hdphi.
      destruct (both_kicked (passed bpms cms r) _ _ _ _ _ _ _ _ _ Hk1 Hk2) as [K1 K2]. split.
      - eapply kicked_taken; [|rewrite (take_take_min _ _ dphi); [exact K1|by eapply last_cm_range]]. intros j c Hj [_ HP]. eapply (passed_taken bpms cms.1); eauto. lia.
      - eapply kicked_taken; [|exact K2]. intros j c Hj [_ HP]. eapply (passed_taken bpms cms.2); eauto. lia. }
    pose proof (logged_snoc _ _ rl.1 HL) as HL'. rewrite <- El in HL'.
    pose proof (last_snoc' rs rl.1) as Hlast'.
    rewrite (last_trans_logged _ _ _ HL' Hlast') in H.
    destruct (is_repro (l_trans rl.2) NREPRO && (seen rl.1 =? length (r_x rl.1))%nat)%bool eqn:E.
    - apply ret_ok in H as [<- <-]. apply andb_true_iff in E as [E1 E2]. apply Nat.eqb_eq in E2.
      apply (is_repro_spec _ _ _ HL') in E1 as (Hlen&r'&Hr'&Hrec&HF); [|done]. rewrite Hlast' in Hr'. injection Hr' as <-.
      exists (rs ++ [rl.1]). split; [done|]. split; [rewrite app_length; simpl; lia|]. split; [|done]. exists (lastn 5 (rs ++ [rl.1])). split; [done|].
      destruct (session_format w bpms _ _ _ _ (step_threading_same mplus reference bpms cms) HS') as [HFm _]. eapply repro_full; eauto.
    - apply bind_ok in H as (u3&s5&Hw&H).
      destruct (IH (rs ++ [rl.1]) rl.1 rl.2 s4 s5 l' s') as (rs'&A1&A2&A3); auto.
      + destruct (is_repro (l_trans rl.2) WIGGLE_AFTER) eqn:EW.
        * right. split.
          -- apply (is_repro_spec _ _ _ HL') in EW as (_&r'&_&Hrec&HF); [|done]. exists (lastn 20 (rs ++ [rl.1])), (seen r'). done.
          -- refine (pres_run _ _ _ _ _ _ Hw). apply steered_wiggling.
        * left. apply ret_ok in Hw as [_ <-]. done.
      + exists rs'. split; [done|]. split; [|done]. rewrite app_length in A2. simpl in A2. lia.
  Qed.
  Lemma add_kicks_both X `{!NoMaster X} cms d1 d2 s s1 s2 u1 u2 :
    add_kicks cms.1 d1 false s = (Ok u1, s1) -> add_kicks cms.2 d2 true s1 = (Ok u2, s2) -> steered_also X (either cms) s s2.
  Proof.
    intros H1 H2. transitivity s1; [refine (pres_run _ _ _ _ _ _ H1)|refine (pres_run _ _ _ _ _ _ H2)]; apply steered_add; try exact _; unfold either; auto.
  Qed.
  (** the deviation as computed from the prepared reference *)
  Definition raw_deviation (nb k : nat) (ref : list R) (r : reading R) : list R := zip_with Rminus (zero_gaps (two_turns nb k (r_x r) ++ two_turns nb k (r_y r))) ref.
  Lemma prepared_lookup nb (c : nat) (reference : list R) i : c = (2 * nb)%nat -> length reference = (2 * c)%nat -> (i < 2 * nb)%nat ->
    (take nb (take c reference) ++ zeros (T:=R) (c - nb)) !! i = Some (if decide (i < nb)%nat then default 0 (take c reference !! i) else 0) /\
    (take nb (drop c reference) ++ zeros (T:=R) (c - nb)) !! i = Some (if decide (i < nb)%nat then default 0 (drop c reference !! i) else 0).
  Proof.
    intros -> HL Hi. unfold zeros. split.
    - destruct (decide _) as [Hl|Hl].
      + rewrite lookup_app_l by (rewrite !take_length; lia). rewrite lookup_take by done. destruct (lookup_lt_is_Some_2 (take (2 * nb) reference) i) as [x ->]; [rewrite take_length; lia|done].
      + rewrite lookup_app_r by (rewrite !take_length; lia). apply lookup_replicate. split; [done|]. rewrite !take_length. lia.
    - destruct (decide _) as [Hl|Hl].
      + rewrite lookup_app_l by (rewrite take_length, drop_length; lia). rewrite lookup_take by done. destruct (lookup_lt_is_Some_2 (drop (2 * nb) reference) i) as [x ->]; [rewrite drop_length; lia|done].
      + rewrite lookup_app_r by (rewrite take_length, drop_length; lia). apply lookup_replicate. split; [done|]. rewrite take_length, drop_length. lia.
  Qed.
  Lemma two_turns_spec nb k (l : list (option R)) : length l = (2 * nb)%nat -> length (two_turns nb k l) = (2 * nb)%nat /\
    forall i, (i < 2 * nb)%nat -> exists o, two_turns nb k l !! i = Some o /\
      default 0 o = if decide (i < nb)%nat then match l !! i with Some (Some x) => x | _ => 0 end else if decide (i < nb + k)%nat then match l !! i, l !! (i - nb)%nat with Some (Some x), Some (Some y) => x - y | _, _ => 0 end else 0.
  Proof.
    intros HL. unfold two_turns. set (d := zip_with _ _ _).
    assert (length d = Nat.min k nb) as Hd by (unfold d; rewrite zip_with_length, !take_length, drop_length; lia).
    split; [rewrite !app_length, take_length, replicate_length; lia|]. intros i Hi. destruct (decide (i < nb)%nat) as [H1|H1].
    - rewrite lookup_app_l by (rewrite take_length; lia). rewrite lookup_take by done. destruct (lookup_lt_is_Some_2 l i) as [o Ho]; [lia|]. rewrite Ho. exists o. split; [done|]. by destruct o.
    - rewrite lookup_app_r by (rewrite take_length; lia). rewrite take_length. replace (i - nb `min` length l)%nat with (i - nb)%nat by lia. destruct (decide (i < nb + k)%nat) as [H2|H2].
      + rewrite lookup_app_l by lia. unfold d. rewrite lookup_zip_with, !lookup_take, lookup_drop by lia. replace (nb + (i - nb))%nat with i by lia.
        destruct (lookup_lt_is_Some_2 l i) as [o Ho]; [lia|]. destruct (lookup_lt_is_Some_2 l (i - nb)) as [o' Ho']; [lia|]. rewrite Ho, Ho'. cbn. eexists. split; [done|]. by destruct o, o'.
      + rewrite lookup_app_r by lia. exists (Some 0). split; [|done]. apply lookup_replicate. split; [done|lia].
  Qed.
  Lemma raw_two_turn nb k r0 reference ref r : prepare_reference nb r0 reference = Ok ref -> length (r_x r0) = (2 * nb)%nat -> format (2 * nb) r ->
    raw_deviation nb k ref r = two_turn_deviation nb k r reference.
  Proof.
    intros HP HL [F1 F2]. unfold prepare_reference in HP. rewrite HL in HP. destruct (Nat.eqb_spec (length reference) (2 * (2 * nb))) as [E|]; [|done].
    assert (ref = (take nb (take (2 * nb) reference) ++ zeros (2 * nb - nb)) ++ take nb (drop (2 * nb) reference) ++ zeros (2 * nb - nb)) as -> by (rewrite <- (assoc_L app); congruence). clear HP.
    unfold raw_deviation, two_turn_deviation, zero_gaps. rewrite map_app. destruct (two_turns_spec nb k _ F1) as [L1 T1]. destruct (two_turns_spec nb k _ F2) as [L2 T2].
    pose proof (fun i => prepared_lookup nb (2 * nb) reference i eq_refl E) as PL. unfold zeros in *.
    rewrite zip_with_app by (rewrite map_length, L1, app_length, !take_length, replicate_length; lia). f_equal.
    - apply list_eq. intros i. rewrite lookup_zip_with. change (@map) with (@fmap list _). rewrite !list_lookup_fmap. destruct (decide (i < 2 * nb)%nat) as [Hi|Hi].
      + destruct (T1 i Hi) as (o&Ho&Hv). rewrite Ho, (proj1 (PL i Hi)), lookup_seq_lt by done. cbn. f_equal. unfold turn_deviation. rewrite Hv.
        destruct (decide (i < nb)%nat); [done|]. lra.
      + rewrite (lookup_ge_None_2 (two_turns _ _ _)) by lia. rewrite lookup_seq_ge by lia. done.
    - apply list_eq. intros i. rewrite lookup_zip_with. change (@map) with (@fmap list _). rewrite !list_lookup_fmap. destruct (decide (i < 2 * nb)%nat) as [Hi|Hi].
      + destruct (T2 i Hi) as (o&Ho&Hv). rewrite Ho, (proj2 (PL i Hi)), lookup_seq_lt by done. cbn. f_equal. unfold turn_deviation. rewrite Hv.
        destruct (decide (i < nb)%nat); [done|]. lra.
      + rewrite (lookup_ge_None_2 (two_turns _ _ _)) by lia. rewrite lookup_seq_ge by lia. done.
  Qed.
  Lemma prepared_format m reference bpms cms r0 ref : shapes_fit m reference bpms cms 2 -> prepare_reference (length bpms) r0 (used_reference m reference) = Ok ref -> length (r_x r0) = (2 * length bpms)%nat.
  Proof.
    intros (H1&_&H3) H. unfold prepare_reference in H. destruct (Nat.eqb_spec (length (used_reference m reference)) (2 * length (r_x r0))) as [E|]; [|done].
    unfold used_reference in E. destruct reference as [v|]; [|rewrite replicate_length in E]; lia.
  Qed.
  Lemma last_Some_elem_of {A} (l : list A) x : last l = Some x -> x ∈ l.
  Proof. intros [l' ->]%last_Some. apply elem_of_app. right. by left. Qed.
  Lemma stitch_loop_ok (St : list (reading R) -> sc R -> sc R -> Prop) mplus reference bpms cms k s0 :
    (forall rs a b, correction_step (raw_deviation (length bpms) k reference) mplus cms rs a b -> St rs a b) -> (forall rs a b, St rs a b -> INJ b = INJ a /\ ORD b = ORD a) ->
    forall steps rs r l s l' s',
    session w bpms St s0 rs s -> logged rs l -> last rs = Some r ->
    stitch_loop w steps mplus reference bpms cms k r l s = (Ok l', s') ->
    exists rs', session w bpms St s0 rs' s' /\ (length rs' <= length rs + steps)%nat /\ full_transmission 5 rs' /\ logged rs' l'.
  Proof.
    intros HSt Hsame. induction steps as [|steps IH]; intros rs r l s l' s' HS HL Hlast H; cbn [stitch_loop] in H; [discriminate|].
    apply bind_ok in H as (dphi&s2&Hdphi&H). apply lift_ok in Hdphi as [Hdphi ->]. apply kicks_times in Hdphi as [Hdphi _].
    apply bind_ok in H as (u1&s2&Hk1&H). apply bind_ok in H as (u2&s3&Hk2&H). apply bind_ok in H as (rl&s4&Hr&H).
    apply read_and_log_ok in Hr as [Hr El].
    assert (session w bpms St s0 (rs ++ [rl.1]) s4) as HS'.
    { eapply session_next; [exact HS| |exact Hr]. apply HSt. split; [eapply add_kicks_both; eauto; exact _|]. exists r. split; [done|]. unfold raw_deviation. rewrite <- Hdphi. by apply (both_kicked (fun _ => True) _ _ _ _ _ _ _ _ _ Hk1 Hk2). }
    pose proof (logged_snoc _ _ rl.1 HL) as HL'. rewrite <- El in HL'. pose proof (last_snoc' rs rl.1) as Hlast'.
    rewrite (last_trans_logged _ _ _ HL' Hlast') in H.
    destruct (is_repro (l_trans rl.2) NREPRO && (seen rl.1 =? length (r_x rl.1))%nat)%bool eqn:E.
    - apply ret_ok in H as [<- <-]. apply andb_true_iff in E as [E1 E2]. apply Nat.eqb_eq in E2.
      apply (is_repro_spec _ _ _ HL') in E1 as (Hlen&r'&Hr'&Hrec&HF); [|done]. rewrite Hlast' in Hr'. injection Hr' as <-.
      exists (rs ++ [rl.1]). split; [done|]. split; [rewrite app_length; simpl; lia|]. split; [|done]. exists (lastn 5 (rs ++ [rl.1])). split; [done|].
      destruct (session_format w bpms _ _ _ _ Hsame HS') as [HFm _]. eapply repro_full; eauto.
    - destruct (IH (rs ++ [rl.1]) rl.1 rl.2 s4 l' s') as (rs'&A1&A2&A3); auto.
      exists rs'. split; [done|]. split; [|done]. rewrite app_length in A2. simpl in A2. lia.
  Qed.

  (** ** rms and convergence *)
  Lemma rms_spec l a : rms l = Some a -> exists xs, l = map Some xs /\ a = R_sqrt.sqrt (avg (map Rsqr xs)).
  Proof.
    unfold rms. destruct (no_gaps l) as [[|x xs]|] eqn:E; try discriminate. intros [= <-]. apply no_gaps_spec in E. exists (x :: xs). split; [done|].
    transitivity (R_sqrt.sqrt (mean (map Rsqr (x :: xs)))); [reflexivity|]. by rewrite mean_avg.
  Qed.
  Lemma rms_orbit_spec k r a b : full r -> format k r -> rms_orbit r = (Some a, Some b) -> rms_of r (a, b).
  Proof.
    intros HF [H1 H2] H. unfold rms_orbit in H. assert (reached_columns r = zip (r_x r) (r_y r)) as E.
    { unfold reached_columns. unfold full in HF. clear -HF. revert HF. generalize (r_y r). induction (r_x r) as [|o l IH]; intros ys HF; [done|].
      destruct ys as [|y ys]; [done|]. inversion HF as [|? ? [x ->] HF']; subst. simpl. f_equal. by apply IH. }
    rewrite E in H. assert (length (r_x r) = length (r_y r)) as EL by congruence.
    assert (map fst (zip (r_x r) (r_y r)) = r_x r) as E1 by (apply (fst_zip (r_x r) (r_y r)); lia).
    assert (map snd (zip (r_x r) (r_y r)) = r_y r) as E2 by (apply (snd_zip (r_x r) (r_y r)); lia).
    rewrite E1, E2 in H. injection H as Ha Hb. apply rms_spec in Ha as (xs&Hx&->). apply rms_spec in Hb as (ys&Hy&->). exists xs, ys. auto.
  Qed.
  Lemma stable_converged n eps rs l k : logged rs l -> Forall full rs -> Forall (format k) rs -> is_stable n eps (l_rms l) = true -> converged n eps rs.
  Proof.
    intros [_ HL] HF HK H. rewrite HL in H. apply C47_criterion in H as (v&Hr&Hv). apply recent_lastn in Hr as [Hlen Hr]. rewrite map_length in Hlen. rewrite map_lastn in Hr.
    exists (lastn n rs), v. split; [by apply lastn_recent|]. split; [|done].
    assert (forall q, q ∈ lastn n rs -> full q /\ format k q) as Hq by (intros q Hq; apply lastn_sub in Hq; rewrite Forall_forall in HF, HK; auto).
    clear -Hr Hq. revert v Hr. induction (lastn n rs) as [|q m IH]; intros [|[a b] v] Hr; try discriminate; [constructor|].
    unfold as_numbers in Hr. simpl in Hr. injection Hr as E1 E2 Hr. constructor.
    - destruct (Hq q) as [? ?]; [constructor|]. apply (rms_orbit_spec k); [done|done|]. unfold rms_orbit. by rewrite <- E1, <- E2.
    - apply IH; [|done]. intros q' Hq'. apply Hq. by constructor.
  Qed.
  Lemma finite_zero (l : list (option R)) (m : list R) : finite l = Ok m -> m = zero_gaps l.
  Proof. unfold finite. destruct (no_gaps l) as [m'|] eqn:E; [|discriminate]. intros [= <-]. apply no_gaps_spec in E as ->. unfold zero_gaps. rewrite map_map. cbn. symmetry. apply map_id. Qed.
  Lemma balance_loop_ok mplus reference bpms cms eps s0 : let dev := fun r => raw_deviation (length bpms) (length (r_x r) - length bpms) reference r in
    forall steps rs r l s l' s',
    session w bpms (correction_step dev mplus cms) s0 rs s -> logged rs l -> last rs = Some r -> Forall full rs ->
    balance_loop w steps mplus reference bpms cms eps r l s = (Ok l', s') ->
    exists rs', session w bpms (correction_step dev mplus cms) s0 rs' s' /\ (length rs' <= length rs + steps)%nat /\ Forall full rs' /\ converged 5 eps rs' /\ logged rs' l'.
  Proof.
    intros dev. induction steps as [|steps IH]; intros rs r l s l' s' HS HL Hlast HFu H; cbn [balance_loop] in H; [discriminate|]. cbv zeta in H.
    apply bind_ok in H as (meas&s2&Hmeas&H). apply lift_ok in Hmeas as [Hmeas ->]. apply finite_zero in Hmeas as ->.
    apply bind_ok in H as (dphi&s2&Hdphi&H). apply lift_ok in Hdphi as [Hdphi ->]. apply kicks_times in Hdphi as [Hdphi _].
    apply bind_ok in H as (u1&s2&Hk1&H). apply bind_ok in H as (u2&s3&Hk2&H). apply bind_ok in H as (rl&s4&Hr&H).
    apply read_and_log_ok in Hr as [Hr El].
    assert (session w bpms (correction_step dev mplus cms) s0 (rs ++ [rl.1]) s4) as HS'.
    { eapply session_next; [exact HS| |exact Hr]. split; [eapply add_kicks_both; eauto; exact _|]. exists r. split; [done|]. unfold dev, raw_deviation. rewrite <- Hdphi. by apply (both_kicked (fun _ => True) _ _ _ _ _ _ _ _ _ Hk1 Hk2). }
    pose proof (logged_snoc _ _ rl.1 HL) as HL'. rewrite <- El in HL'. pose proof (last_snoc' rs rl.1) as Hlast'.
    rewrite (last_trans_logged _ _ _ HL' Hlast') in H. destruct (Nat.ltb_spec (seen rl.1) (length (r_x rl.1))) as [|Hge]; [discriminate|].
    assert (Forall full (rs ++ [rl.1])) as HFu'.
    { apply Forall_app. split; [done|]. constructor; [|constructor]. apply full_seen. assert (seen rl.1 <= length (r_x rl.1))%nat; [|lia].
      unfold seen. generalize (r_x rl.1). intros q. induction q as [|[x|] q IHq]; simpl; lia. }
    destruct (session_format w bpms _ _ _ _ (step_correction_same dev mplus cms) HS') as [HFm _].
    destruct (is_stable NREPRO eps (l_rms rl.2)) eqn:E.
    - apply ret_ok in H as [<- <-]. exists (rs ++ [rl.1]). split; [done|]. split; [rewrite app_length; simpl; lia|]. split; [done|]. split; [|done]. eapply stable_converged; eauto.
    - destruct (IH (rs ++ [rl.1]) rl.1 rl.2 s4 l' s') as (rs'&A1&A2&A3); auto.
      exists rs'. split; [done|]. split; [|done]. rewrite app_length in A2. simpl in A2. lia.
  Qed.
  Lemma finite_ok (l : list (option R)) (m : list R) : finite l = Ok m -> l = map Some m.
  Proof. unfold finite. destruct (no_gaps l) eqn:E; [|discriminate]. intros [= <-]. by apply no_gaps_spec. Qed.
  Lemma finite_full (r : reading R) (m : list R) : finite (r_x r ++ r_y r) = Ok m -> full r.
  Proof.
    intros H%finite_ok. unfold full. assert (Forall is_Some (r_x r ++ r_y r)) as HF.
    { rewrite H. apply Forall_forall. intros o (x&->&_)%elem_of_list_fmap. by eexists. }
    by apply Forall_app in HF as [? _].
  Qed.
  Lemma existsb_full r : existsb (fun x : option R => match x with None => true | Some _ => false end) (r_x r) = false -> full r.
  Proof. unfold full. induction (r_x r) as [|[x|] l IH]; simpl; intros H; try discriminate; constructor; [by eexists|auto]. Qed.
  #[local] Instance nm_with_rf scale : NoMaster (with_rf scale).
  Proof. intros [_ [H|H]]; [discriminate|]. rewrite !elem_of_cons in H. destruct H as [?|[?|[?|?%elem_of_nil]]]; done. Qed.
  Lemma correct_loop_ok maxsteps mplus reference bpms cms eps target scale s0 : forall steps rs r l s l' s',
    session w bpms (orbit_correction_step reference mplus scale cms) s0 rs s -> logged rs l -> last rs = Some r ->
    (Forall full rs \/ (0 < steps)%nat /\ rs = [r]) ->
    correct_loop w steps maxsteps mplus reference bpms cms eps target scale r l s = (Ok l', s') ->
    exists rs', session w bpms (orbit_correction_step reference mplus scale cms) s0 rs' s' /\ (length rs' <= length rs + steps)%nat /\ (length rs + Nat.min 1 steps <= length rs')%nat /\ Forall full rs' /\
      (converged (Nat.min 5 maxsteps) eps rs' \/ converged 5 eps rs' \/ maxsteps = 1%nat) /\ logged rs' l'.
  Proof.
    induction steps as [|steps IH]; intros rs r l s l' s' HS HL Hlast HFu H; cbn [correct_loop] in H.
    { destruct HFu as [HFu|[? _]]; [|lia]. destruct (is_stable (Nat.min NREPRO maxsteps) eps (l_rms l) || (maxsteps =? 1)%nat)%bool eqn:E; [|discriminate].
      apply ret_ok in H as [<- <-]. exists rs. split; [done|]. split; [lia|]. split; [simpl; lia|]. split; [done|]. split; [|done]. apply orb_true_iff in E as [E|E]; [left|right; right; by apply Nat.eqb_eq].
      destruct (session_format w bpms _ _ _ _ (step_orbit_same reference mplus scale cms) HS) as [HFm _]. eapply stable_converged; eauto. }
    apply bind_ok in H as (meas&s2&H1&H). apply lift_ok in H1 as [Hmeas ->]. pose proof (finite_zero _ _ Hmeas) as ->. apply finite_full in Hmeas.
    assert (Forall full rs) as HFu0 by (destruct HFu as [|[_ ->]]; auto). clear HFu.
    apply bind_ok in H as (dphi&s2&Hdphi&H). apply lift_ok in Hdphi as [Hdphi ->]. apply kicks_times in Hdphi as [Hdphi _]. rewrite deviation_gaps in Hdphi.
    apply bind_ok in H as (dphi'&s1&Hcav&H).
    apply bind_ok in H as (u1&s2&Hk1&H). apply bind_ok in H as (u2&s3&Hk2&H). apply bind_ok in H as (rl&s4&Hr&H).
    apply read_and_log_ok in Hr as [Hr El].
    assert (steered_also (with_rf scale) (either cms) s s1) as Hst1.
    { change (neqb scale n0) with (Reqb scale 0) in Hcav. destruct (Reqb scale 0) eqn:E0; [apply ret_ok in Hcav as [_ <-]; reflexivity|]. apply Reqb_false in E0.
      apply bind_ok in Hcav as (s5&s6&Hg&Hcav). apply get_ok in Hg as [-> ->]. apply bind_ok in Hcav as (d&s6&Hd&Hcav). apply lift_ok in Hd as [_ ->].
      apply bind_ok in Hcav as (u&s6&Hset&Hcav). apply ret_ok in Hcav as [_ <-].
      pose proof (pres_run _ _ _ _ _ (steered_cavity (either cms) _ _ _ _) Hset) as (A1&A2&A3&A4&A5&A6). unfold steered_also; repeat split_and?; auto.
      intros i a B1 B2 B3. apply A6; auto. intros [->|Ha]; apply B3; split; auto. }
    assert (session w bpms (orbit_correction_step reference mplus scale cms) s0 (rs ++ [rl.1]) s4) as HS'.
    { eapply session_next; [exact HS| |exact Hr]. destruct (both_kicked (fun _ => True) _ _ _ _ _ _ _ _ _ Hk1 Hk2) as [K1 K2]. split; [transitivity s1; [done|]; eapply add_kicks_both; eauto; exact _|].
      exists r. split; [done|]. rewrite <- Hdphi. change (neqb scale n0) with (Reqb scale 0) in Hcav. split; intros E0.
      - assert (Reqb scale 0 = true) as Er by (by apply Reqb_true). rewrite Er in Hcav. apply ret_ok in Hcav as [<- <-]. by split.
      - destruct (Reqb scale 0) eqn:Er; [by apply Reqb_true in Er|]. apply bind_ok in Hcav as (s5&s6&Hg&Hcav). apply get_ok in Hg as [-> ->]. apply bind_ok in Hcav as (d&s6&Hd&Hcav). apply lift_ok in Hd as [Hd ->].
        apply bind_ok in Hcav as ([]&s6&Hset&Hcav). apply ret_ok in Hcav as [<- <-]. destruct (last dphi) as [x|] eqn:Elx; [|done]. injection Hd as <-.
        exists (take (length dphi - 1) dphi), x. split; [|split].
        + apply last_Some in Elx as [q Eq]. rewrite Eq, app_length. cbn [length]. rewrite Nat.add_sub. by rewrite take_app.
        + assert (forall c b, setting b s1 c = setting b s c /\ cm_limit s1 c b = cm_limit s c b) as Hsame.
          { intros c b. pose proof (pres_run _ _ _ _ _ (pres_set_cavity _ _ _ _ _) Hset) as F. split.
            - apply setting_agree; [|destruct F as (_&_&_&_&_&[? _]); done]. intros i a Ha. rewrite !attr_at_aget. apply (frame_aget _ _ _ _ _ F). intros [->|Hf]; [destruct b; destruct Ha as [?|[?|?]]; done|].
              unfold RF_PROPERTIES in Hf. rewrite !elem_of_cons in Hf. destruct Hf as [->|[->|[->|?%elem_of_nil]]]; [..|done]; destruct b; destruct Ha as [?|[?|?]]; done.
            - unfold cm_limit. assert (attr_at s1 c "CMlimit" = attr_at s c "CMlimit") as ->; [|done]. rewrite !attr_at_aget. apply (frame_aget _ _ _ _ _ F). intros [?|Hf]; [done|].
              unfold RF_PROPERTIES in Hf. rewrite !elem_of_cons in Hf. destruct Hf as [?|[?|[?|?%elem_of_nil]]]; done. }
          split; intros Hnd HL' j c y Hj Hy _; [destruct (K1 Hnd HL' j c y Hj Hy I) as (z&Z1&Z2)|destruct (K2 Hnd HL' j c y Hj Hy I) as (z&Z1&Z2)];
            destruct (Hsame c false) as [S1 S2], (Hsame c true) as [S3 S4]; exists z; rewrite <- ?S1, <- ?S2, <- ?S3, <- ?S4; done.
        + intros Hnd i Hi. destruct (Properties_Rf.move_ok "Frequency" _ _ _ _ Hnd Hset) as (_&Hm&_). destruct (Hm i Hi) as (f&F1&F2). exists f. split; [done|].
          assert (number s3 i "FrequencySetPoint" = number s1 i "FrequencySetPoint") as ->; [|change ("Frequency" +:+ "SetPoint") with "FrequencySetPoint" in F2; rewrite F2; f_equal; num_R; lra].
          unfold number. assert (attr_at s3 i "FrequencySetPoint" = attr_at s1 i "FrequencySetPoint") as ->; [|done]. 
          pose proof (add_kicks_both (fun _ => False) _ _ _ _ _ _ _ _ Hk1 Hk2) as (_&_&_&_&_&A). apply A; [intros [[?|?] _]; done| |tauto].
          intros [Hf _]. unfold field_attributes in Hf. rewrite !elem_of_cons in Hf. destruct Hf as [?|[?|[?|[?|?%elem_of_nil]]]]; done. }
    pose proof (logged_snoc _ _ rl.1 HL) as HL'. rewrite <- El in HL'. pose proof (last_snoc' rs rl.1) as Hlast'.
    destruct (existsb _ (r_x rl.1)) eqn:Ex; [discriminate|]. apply existsb_full in Ex.
    assert (Forall full (rs ++ [rl.1])) as HFu' by (apply Forall_app; auto).
    destruct (session_format w bpms _ _ _ _ (step_orbit_same reference mplus scale cms) HS') as [HFm _].
    assert (length (rs ++ [rl.1]) = S (length rs)) as Elen by (rewrite app_length; simpl; lia).
    match type of H with (if ?b then _ else _) _ = _ => destruct b eqn:E end.
    { apply ret_ok in H as [<- <-]. apply andb_true_iff in E as [_ E]. exists (rs ++ [rl.1]). split; [done|]. split; [lia|]. split; [lia|]. split; [done|]. split; [|done]. left. eapply stable_converged; eauto. }
    destruct (is_stable NREPRO eps (l_rms rl.2)) eqn:E'.
    { apply ret_ok in H as [<- <-]. exists (rs ++ [rl.1]). split; [done|]. split; [lia|]. split; [lia|]. split; [done|]. split; [|done]. right; left. eapply stable_converged; eauto. }
    destruct (IH (rs ++ [rl.1]) rl.1 rl.2 s4 l' s') as (rs'&A1&A2&A3&A4&A5); auto.
    exists rs'. split; [done|]. split; [lia|]. split; [lia|]. split; done.
  Qed.

  (** ** C44 *)
  (** Success: the machine is the end of a session of a first reading and at most [maxsteps] threading steps, and the
      last five readings have full transmission. *)
  Theorem C44_success m reference cms bpms maxsteps (s : sc R) l s' :
    let B := used_bpms s bpms in let C := used_cms s cms in
    StronglySorted lt C.1 -> StronglySorted lt C.2 ->
    first_turn m reference cms bpms maxsteps s = (Ok l, s') ->
    shapes_fit m reference B C (nTurns (INJ s)) /\
    exists rs, session w B (threading_step (pinv m) (used_reference m reference) B C) s rs s' /\ (length rs <= S maxsteps)%nat /\ full_transmission 5 rs /\ logged rs l.
  Proof.
    intros B C H1 H2 H. unfold Model_Orbit.first_turn in H. apply bind_ok in H as (q&s1&Hq&H). apply check_ords_ok in Hq as (v&->&->&Hf&->). split; [done|].
    apply bind_ok in H as (rl&s1&Hr&H). apply read_and_log_ok in Hr as [Hr El].
    destruct (first_turn_loop_ok (pinv m) (used_reference m reference) B C s H1 H2 maxsteps [rl.1] rl.1 rl.2 s1 s1 l s') as (rs&A1&A2&A3); auto.
    - by apply session_first.
    - rewrite El. split; reflexivity.
    - exists rs. split; [done|]. split; [|done]. simpl in A2. lia.
  Qed.
  (** No beam at the first reading: RuntimeError, with nothing changed but the random stream. *)
  Theorem C44_no_beam m reference cms bpms maxsteps (s s1 : sc R) r :
    shapes_fit m reference (used_bpms s bpms) (used_cms s cms) (nTurns (INJ s)) ->
    bpm_reading w (Some (used_bpms s bpms)) false s = (Ok r, s1) -> seen r = 0%nat -> (0 < maxsteps)%nat ->
    first_turn m reference cms bpms maxsteps s = (Err RuntimeError, s1) /\ s1 = set_RNG (RNG s1) s.
  Proof.
    intros Hf Hr H0 Hm. split; [|exact (pres_run quiet _ _ _ _ (quiet_reading w _ _) Hr)].
    unfold Model_Orbit.first_turn, bind at 1. destruct (check_ords m reference bpms cms s) as [[q|e] s2] eqn:E.
    - apply check_ords_ok in E as (v&->&->&_). unfold bind at 1, read_and_log, bind at 1. rewrite Hr. simpl. destruct maxsteps; [lia|]. cbn [first_turn_loop].
      unfold last_trans. simpl. rewrite seen_reached, H0. done.
    - exfalso. destruct Hf as (F1&F2&F3). unfold check_ords in E. unfold bind at 1, get in E. cbn beta iota zeta in E.
      change (default (oHCM (ORD s), oVCM (ORD s)) cms) with (used_cms s cms) in E. change (default (oBPM (ORD s)) bpms) with (used_bpms s bpms) in E.
      destruct (Nat.eqb_spec (length m) (2 * length (used_bpms s bpms) * nTurns (INJ s))%nat) as [E1|]; [|done]. cbn [negb] in E.
      unfold columns in E. rewrite F2, Nat.eqb_refl in E. cbn [negb] in E. destruct reference as [v|]; [|discriminate]. rewrite F3, Nat.eqb_refl in E. discriminate.
  Qed.
  (** Whatever the outcome, only correctors in use have changed. *)
  Theorem C44_only_these_correctors m reference cms bpms maxsteps (s : sc R) :
    steered (either (used_cms s cms)) s (snd (first_turn m reference cms bpms maxsteps s)).
  Proof.
    unfold Model_Orbit.first_turn. unfold bind at 1. destruct (check_ords m reference bpms cms s) as [[q|e] s1] eqn:E.
    - apply check_ords_ok in E as (v&->&->&_). match goal with |- steered _ s (snd (?m s)) => assert (pres (steered (either (used_cms s cms))) m) as HP end; [|apply HP].
      unfold steered. repeat first [pres_step|apply steered_read_log; exact _|apply steered_first_loop].
    - pose proof (check_state m reference bpms cms s) as Es. rewrite E in Es. simpl in *. subst. unfold steered. reflexivity.
  Qed.

  (** ** C45 *)
  Theorem C45_balance m reference cms bpms eps maxsteps (s : sc R) l s' :
    let B := used_bpms s bpms in let C := used_cms s cms in
    balance m reference cms bpms eps maxsteps s = (Ok l, s') ->
    nTurns (INJ s) = 2%nat /\ shapes_fit m reference B C 2 /\
    exists rs, session w B (correction_step (fun r => two_turn_deviation (length B) (length B) r (used_reference m reference)) (pinv m) C) s rs s' /\ (length rs <= S maxsteps)%nat /\ Forall full rs /\ converged 5 eps rs /\ logged rs l.
  Proof.
    intros B C H. unfold Model_Orbit.balance in H. apply bind_ok in H as (s0&s1&H0&H). apply get_ok in H0 as [-> ->].
    destruct (Nat.eqb_spec (nTurns (INJ s)) 2) as [E2|]; [|discriminate]. cbn [negb] in H. split; [done|].
    apply bind_ok in H as (q&s1&Hq&H). apply check_ords_ok in Hq as (v&->&->&Hf&->). rewrite E2 in Hf. split; [done|].
    apply bind_ok in H as (rl&s1&Hr&H). apply read_and_log_ok in Hr as [Hr El].
    assert (logged [rl.1] rl.2) as HL by (rewrite El; split; reflexivity). rewrite (last_trans_logged _ _ rl.1 HL eq_refl) in H.
    destruct (Nat.ltb_spec (seen rl.1) (length (r_x rl.1))) as [|Hge]; [discriminate|].
    apply bind_ok in H as (ref&s2&Href&H). apply lift_ok in Href as [Href ->].
    destruct (balance_loop_ok (pinv m) ref B C eps s maxsteps [rl.1] rl.1 rl.2 s1 l s') as (rs&A1&A2&A3); auto.
    - by apply session_first.
    - constructor; [|constructor]. apply full_seen. assert (seen rl.1 <= length (r_x rl.1))%nat; [|lia].
      unfold seen. generalize (r_x rl.1). intros q. induction q as [|[x|] q IHq]; simpl; lia.
    - exists rs. split; [|split; [simpl in A2; lia|done]]. pose proof (prepared_format _ _ _ _ _ _ Hf Href) as Ec. destruct (reading_format _ _ _ _ _ Hr) as ((F1&_)&_&_). fold B in F1, Ec.
      destruct (session_format w B _ _ _ _ (step_correction_same _ _ _) A1) as [HFm _]. assert (read_places s B = 2 * length B)%nat as Erp by congruence. rewrite Erp in HFm.
      eapply session_weaken; [exact A1|]. intros rs1 rs2 a b Ers [Hst (r&Hlast&Hk)]. split; [done|]. exists r. split; [done|].
      assert (format (2 * length B) r) as Fr. { rewrite Forall_forall in HFm. apply HFm. rewrite Ers. apply elem_of_app. left. by apply last_Some_elem_of. }
      cbn beta in Hk. rewrite (raw_two_turn _ _ _ _ _ _ Href Ec Fr) in Hk. destruct Fr as [Fr _]. rewrite Fr in Hk. replace (2 * length B - length B)%nat with (length B) in Hk by lia. done.
  Qed.
  Theorem C45_correct m reference cms bpms eps target maxsteps scale (s : sc R) l s' :
    let B := used_bpms s bpms in let C := used_cms s cms in
    (0 < maxsteps)%nat ->
    correct m reference cms bpms eps target maxsteps scale s = (Ok l, s') ->
    exists rs, session w B (orbit_correction_step (used_reference m reference) (pinv m) scale C) s rs s' /\ (2 <= length rs <= S maxsteps)%nat /\ Forall full rs /\
      (converged (Nat.min 5 maxsteps) eps rs \/ converged 5 eps rs \/ maxsteps = 1%nat) /\ logged rs l.
  Proof.
    intros B C Hm H. unfold Model_Orbit.correct in H. apply bind_ok in H as (q&s1&Hq&H). apply check_ords_ok in Hq as (v&->&->&Hf&->).
    match type of H with context [used_reference ?q reference] => assert (used_reference q reference = used_reference m reference) as Em end.
    { unfold used_reference. destruct reference; [done|]. destruct (neqb scale n0); [done|]. by rewrite map_length. }
    rewrite Em in H. apply bind_ok in H as (rl&s1&Hr&H). apply read_and_log_ok in Hr as [Hr El].
    destruct (correct_loop_ok maxsteps (pinv m) (used_reference m reference) B C eps target scale s maxsteps [rl.1] rl.1 rl.2 s1 l s') as (rs&A1&A2&A3&A4&A5); auto.
    - by apply session_first.
    - rewrite El. split; reflexivity.
    - exists rs. split; [done|]. cbn [length] in A2, A3. split; [lia|]. done.
  Qed.
  (** wrong shapes: ValueError and the very same machine *)
  Theorem C45_wrong_shapes m reference cms bpms (s : sc R) :
    ~ shapes_fit m reference (used_bpms s bpms) (used_cms s cms) (nTurns (INJ s)) ->
    (forall maxsteps, first_turn m reference cms bpms maxsteps s = (Err ValueError, s)) /\
    (forall n maxsteps, stitch m reference cms bpms n maxsteps s = (Err ValueError, s)) /\
    (forall eps maxsteps, balance m reference cms bpms eps maxsteps s = (Err ValueError, s)) /\
    (forall eps target maxsteps, correct m reference cms bpms eps target maxsteps 0 s = (Err ValueError, s)).
  Proof.
    intros Hf. apply check_ords_misfit in Hf. split_and!; intros.
    - unfold Model_Orbit.first_turn, bind at 1. by rewrite Hf.
    - unfold Model_Orbit.stitch. unfold bind at 1, get. cbn beta iota. destruct (negb _); [done|]. unfold bind at 1. by rewrite Hf.
    - unfold Model_Orbit.balance. unfold bind at 1, get. cbn beta iota. destruct (negb _); [done|]. unfold bind at 1. by rewrite Hf.
    - unfold Model_Orbit.correct, bind at 1. change (neqb 0 n0) with (Reqb 0 0). assert (Reqb 0 0 = true) as -> by (by apply Reqb_true). by rewrite Hf.
  Qed.
  (** with dispersion the last column of the matrix belongs to the frequency *)
  Theorem C45_wrong_shapes_dispersion m reference cms bpms eps target maxsteps scale (s : sc R) :
    scale <> 0 ->
    ~ shapes_fit (map (fun r => take (length r - 1) r) m) reference (used_bpms s bpms) (used_cms s cms) (nTurns (INJ s)) ->
    correct m reference cms bpms eps target maxsteps scale s = (Err ValueError, s).
  Proof.
    intros H0 Hf. apply check_ords_misfit in Hf. unfold Model_Orbit.correct, bind at 1. change (neqb scale n0) with (Reqb scale 0).
    destruct (Reqb scale 0) eqn:E; [apply Reqb_true in E; done|]. by rewrite Hf.
  Qed.
  (** other than two turns *)
  Theorem C45_two_turns_required m reference cms bpms (s : sc R) : nTurns (INJ s) <> 2%nat ->
    (forall n maxsteps, stitch m reference cms bpms n maxsteps s = (Err ValueError, s)) /\
    (forall eps maxsteps, balance m reference cms bpms eps maxsteps s = (Err ValueError, s)).
  Proof.
    intros H. apply Nat.eqb_neq in H. split; intros; [unfold Model_Orbit.stitch|unfold Model_Orbit.balance]; unfold bind at 1, get; cbn beta iota; by rewrite H.
  Qed.
  (** whatever the outcome *)
  Theorem C45_only_these_correctors m reference cms bpms (s : sc R) :
    (forall eps maxsteps, steered (either (used_cms s cms)) s (snd (balance m reference cms bpms eps maxsteps s))) /\
    (forall eps target maxsteps scale, steered_also (with_rf scale) (either (used_cms s cms)) s (snd (correct m reference cms bpms eps target maxsteps scale s))).
  Proof.
    split; intros.
    - unfold Model_Orbit.balance. unfold bind at 1, get. cbn beta iota. destruct (negb _); [unfold steered; reflexivity|]. unfold bind at 1.
      destruct (check_ords m reference bpms cms s) as [[q|e] s1] eqn:E.
      + apply check_ords_ok in E as (v&->&->&_). match goal with |- steered _ s (snd (?m s)) => assert (pres (steered (either (used_cms s cms))) m) as HP end; [|apply HP].
        unfold steered. repeat first [pres_step|apply steered_read_log; exact _|apply steered_balance_loop].
      + pose proof (check_state m reference bpms cms s) as Es. rewrite E in Es. simpl in *. subst. unfold steered. reflexivity.
    - unfold Model_Orbit.correct, bind at 1. set (m' := if neqb scale n0 then _ else _). destruct (check_ords m' reference bpms cms s) as [[q|e] s1] eqn:E.
      + apply check_ords_ok in E as (v&->&->&_). match goal with |- steered_also _ _ s (snd (?m s)) => assert (pres (steered_also (with_rf scale) (either (used_cms s cms))) m) as HP end; [|apply HP].
        repeat first [pres_step|apply steered_read_log; exact _|apply steered_correct_loop].
      + pose proof (check_state m' reference bpms cms s) as Es. rewrite E in Es. simpl in *. subst. reflexivity.
  Qed.

  (** ** C46 *)
  Theorem C46_success m reference cms bpms n maxsteps (s : sc R) l s' :
    let B := used_bpms s bpms in let C := used_cms s cms in
    stitch m reference cms bpms n maxsteps s = (Ok l, s') ->
    nTurns (INJ s) = 2%nat /\ shapes_fit m reference B C 2 /\
    exists rs, session w B (stitching_step (length B) n (used_reference m reference) (pinv m) C) s rs s' /\ (length rs <= S (S maxsteps))%nat /\ full_transmission 5 rs /\
      (exists r0, rs !! 0%nat = Some r0 /\ length B <= seen r0)%nat /\ logged rs l.
  Proof.
    intros B C H. unfold Model_Orbit.stitch in H. apply bind_ok in H as (s0&s1&H0&H). apply get_ok in H0 as [-> ->].
    destruct (Nat.eqb_spec (nTurns (INJ s)) 2) as [E2|]; [|discriminate]. cbn [negb] in H. split; [done|].
    apply bind_ok in H as (q&s1&Hq&H). apply check_ords_ok in Hq as (v&->&->&Hf&->). rewrite E2 in Hf. split; [done|].
    fold B C in H. cbv zeta in H.
    apply bind_ok in H as (rl&s1&Hr&H). apply read_and_log_ok in Hr as [Hr El].
    assert (logged [rl.1] rl.2) as HL by (rewrite El; split; reflexivity). rewrite (last_trans_logged _ _ rl.1 HL eq_refl) in H.
    destruct (Nat.ltb_spec (seen rl.1) (length B)) as [|Hge]; [discriminate|].
    apply bind_ok in H as (rl'&s2&Hw&H). apply bind_ok in H as (ref&s3&Href&H). apply lift_ok in Href as [Href ->].
    set (St := fun (rs : list (reading R)) (a b : sc R) => correction_step (raw_deviation (length B) n ref) (pinv m) C rs a b \/ steered (either C) a b /\ exists r, rs = [r] /\ (length B <= seen r < length B + n)%nat).
    assert (forall rs a b, St rs a b -> INJ b = INJ a /\ ORD b = ORD a) as Hsame by (intros rs a b [[(?&?&?&?&_) _]|[(?&?&?&?&_) _]]; done).
    assert (exists rs, session w B St s rs s2 /\ logged rs rl'.2 /\ last rs = Some rl'.1 /\ (length rs <= 2)%nat /\ rs !! 0%nat = Some rl.1) as (rs&A1&A2&A3&A4&A5).
    { destruct (Nat.ltb_spec (seen rl.1) (length B + n)%nat) as [Hlt|_].
      - apply bind_ok in Hw as (u&s4&Hw1&Hw). apply bind_ok in Hw as (rl1&s5&Hr1&Hw). apply read_and_log_ok in Hr1 as [Hr1 El1].
        destruct (last_trans rl1.2 <? _)%nat; [discriminate|]. apply ret_ok in Hw as [<- <-]. exists ([rl.1] ++ [rl1.1]). split.
        + eapply session_next; [by apply session_first| |exact Hr1]. right. split; [refine (pres_run _ _ _ _ _ _ Hw1); apply steered_wiggling|]. by exists rl.1.
        + split; [|done]. rewrite El1. by apply logged_snoc.
      - apply ret_ok in Hw as [<- <-]. exists [rl.1]. split; [by apply session_first|]. split; [done|]. split; [done|]. split; [simpl; lia|done]. }
    destruct (stitch_loop_ok St (pinv m) ref B C n s (fun rs a b K => or_introl K) Hsame maxsteps rs rl'.1 rl'.2 s2 l s' A1 A2 A3 H) as (rs'&B1&B2&B3).
    exists rs'. split.
    { destruct (session_format w B _ _ _ _ Hsame A1) as [HF1 _]. destruct (session_format w B _ _ _ _ Hsame B1) as [HFm _].
      pose proof (prepared_format _ _ _ _ _ _ Hf Href) as Ec. assert (read_places s B = 2 * length B)%nat as Erp.
      { rewrite Forall_forall in HF1. destruct (HF1 rl'.1) as [F1 _]; [by apply last_Some_elem_of|]. fold B in Ec. congruence. }
      rewrite Erp in HFm. eapply session_weaken; [exact B1|]. intros rs1 rs2 a b Ers [[Hst (r&Hlast&Hk)]|K]; [left|by right]. split; [done|]. exists r. split; [done|].
      assert (format (2 * length B) r) as Fr. { rewrite Forall_forall in HFm. apply HFm. rewrite Ers. apply elem_of_app. left. by apply last_Some_elem_of. }
      by rewrite (raw_two_turn _ _ _ _ _ _ Href Ec Fr) in Hk. }
    destruct B3 as [B3 B4]. split; [lia|]. split; [done|]. split; [|done]. exists rl.1. split; [|done].
    assert (forall rs' s', session w B St s rs' s' -> rs' !! 0%nat = Some rl.1) as Hhd; [|by eapply Hhd].
    clear -Hr. intros rs' s' HS. induction HS as [r s9 H|rs8 s8 s7 r s6 HS IH _ _]; [simpl; congruence|]. by apply lookup_app_l_Some.
  Qed.
  Theorem C46_only_these_correctors m reference cms bpms n maxsteps (s : sc R) :
    steered (either (used_cms s cms)) s (snd (stitch m reference cms bpms n maxsteps s)).
  Proof.
    unfold Model_Orbit.stitch. unfold bind at 1, get. cbn beta iota. destruct (negb _); [unfold steered; reflexivity|]. unfold bind at 1.
    destruct (check_ords m reference bpms cms s) as [[q|e] s1] eqn:E.
    - apply check_ords_ok in E as (v&->&->&_). match goal with |- steered _ s (snd (?m s)) => assert (pres (steered (either (used_cms s cms))) m) as HP end; [|apply HP].
      unfold steered. repeat first [pres_step|apply steered_read_log; exact _|apply steered_wiggling|apply steered_stitch_loop].
    - pose proof (check_state m reference bpms cms s) as Es. rewrite E in Es. simpl in *. subst. unfold steered. reflexivity.
  Qed.
End Functions.

Print Assumptions C44_success.
Print Assumptions C44_no_beam.
Print Assumptions C44_only_these_correctors.
Print Assumptions C45_balance.
Print Assumptions C45_correct.
Print Assumptions C45_wrong_shapes.
Print Assumptions C45_wrong_shapes_dispersion.
Print Assumptions C45_two_turns_required.
Print Assumptions C45_only_these_correctors.
Print Assumptions C46_success.
Print Assumptions C46_only_these_correctors.

(** * Cases
    Over the rationals: a thin corrector, then two BPMs without errors; the beam goes straight, offset by start position
    and kick.  A particle that starts at x above 3/2 is lost: above 2 at once, else in the second turn. *)
Local Open Scope Q_scope.
#[local] Instance TrigQ1 : Trig Q :=
  { ncos := fun x => if Qeq_bool x 0 then 1 else 0; nsin := fun _ => 0; nsqrt := fun x => Qred (Z.sqrt (Qnum x) # Z.to_pos (Z.sqrt (Zpos (Qden x)))); npi := 0 }.
Definition clean_bpm : elem Q :=
  Examples.mk [("Noise", VVec [0; 0]); ("NoiseCO", VVec [0; 0]); ("Offset", VVec [0; 0]); ("SupportOffset", VVec [0; 0]); ("CalError", VVec [0; 0]);
      ("Roll", VNum 0); ("SupportRoll", VNum 0); ("SumError", VNum 0)].
Definition line_world : world Q :=
  MkWorld (fun ring Z _ _ c p r t =>
      let kick := match (e ← ring !! 0%nat; e !! "KickAngle") with Some (VVec [a; b]) => if (c =? 0)%nat then a else b | _ => 0 end in
      x ← (q ← Z !! 0%nat; q !! p);
      if (Qltb (3#2) x && (1 <=? t)%nat) || Qltb 2 x then None else q ← Z !! c; v ← q !! p; Some (Qred (v + kick)))
    (fun _ _ _ _ => None) (fun _ => ([], [])) (fun Z => Z).
Definition line_machine (x y : Q) (turns : nat) (rng : list Q) : sc Q :=
  let s := MkSC [Examples.thin_cm; clean_bpm; Examples.drift 2; clean_bpm] [] (MkInj 1 (zeros 6) [x; 0; y; 0; 0; 0] (replicate 6 (zeros 6)) [1; 0; 0; 0; 0; 0] 1 turns 1 "TBT")
             (SIG Examples.ex_sc) (MkOrd [1; 3]%nat [] [] [] [] [] [] [] []) rng in
  snd (register_magnets [0%nat] [] (MkType (Some (Fin 4)) (Some (Fin 5)) false None None) s).
(** response of one turn and of two turns, and inverses *)
Definition rm1 : list (list Q) := [[1; 0]; [1; 0]; [0; 1]; [0; 1]].
Definition rm2 : list (list Q) := [[1; 0]; [1; 0]; [1; 0]; [1; 0]; [0; 1]; [0; 1]; [0; 1]; [0; 1]].
Definition some_inverse (m : list (list Q)) : list (list Q) := map (map (Qmult (1#2))) (mtrans m).

(** four corrections: the kicks compensate the start position (1, 3), all five readings are complete *)
Example C44_case :
  let run := first_turn line_world some_inverse rm1 None None None 4 (line_machine 1 3 1 (replicate 100 0)) in
  fst run = Ok (MkLog [2; 2; 2; 2; 2]%nat [(Some 1, Some 3); (Some 0, Some 0); (Some 0, Some 0); (Some 0, Some 0); (Some 0, Some 0)]) /\
  attr_at (snd run) 0 "KickAngle" = Some (VVec [-1; -3]).
Proof. vm_compute. split; reflexivity. Qed.
Example C44_case_no_beam :
  fst (first_turn line_world some_inverse rm1 None None None 4 (line_machine 3 0 1 (replicate 100 0))) = Err RuntimeError.
Proof. vm_compute. reflexivity. Qed.
(** readings at the reference (1, 3): rms 1 and 3, standard deviation 1 *)
Example C45_case_balance :
  (exists l, fst (balance line_world some_inverse rm2 (Some [1; 1; 5; 6; 3; 3; 7; 8]) None None 2 4 (line_machine 1 3 2 (replicate 100 0))) = Ok l) /\
  fst (balance line_world some_inverse rm2 (Some [1; 1; 5; 6; 3; 3; 7; 8]) None None 1 4 (line_machine 1 3 2 (replicate 100 0))) = Err RuntimeError.
Proof. split; [eexists|]; vm_compute; reflexivity. Qed.
Example C45_case_correct :
  (exists l, fst (correct line_world some_inverse rm1 (Some [1; 1; 3; 3]) None None 2 0 4 0 (line_machine 1 3 1 (replicate 100 0))) = Ok l) /\
  fst (correct line_world some_inverse rm1 (Some [1; 1; 3; 3]) None None 1 0 4 0 (line_machine 1 3 1 (replicate 100 0))) = Err RuntimeError /\
  fst (correct line_world some_inverse rm1 (Some [1; 1; 3]) None None 1 0 4 0 (line_machine 1 3 1 (replicate 100 0))) = Err ValueError.
Proof. split; [eexists|split]; vm_compute; reflexivity. Qed.
(** The beam of the second reading is lost in the second turn: the count drops from 4 to 2; stitching goes on and
    reports success five readings later (finding: the exception for a setback is never raised). *)
Theorem C46_finding_setback :
  exists l, fst (stitch line_world some_inverse rm2 None None None 1 6 (line_machine 0 0 2 (replicate 18 0 ++ 2 :: replicate 200 0))) = Ok l /\
    l_trans l = [4; 2; 4; 4; 4; 4; 4]%nat.
Proof. eexists. split; vm_compute; reflexivity. Qed.
Print Assumptions C46_finding_setback.
