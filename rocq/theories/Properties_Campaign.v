(** C82: whole commissioning campaigns. *)
From Coq Require Import Reals Lra Lia QArith ZArith.
From stdpp Require Import base gmap strings list.
From Verif Require Import Num Base Model_Arr Model_SC Model_Err Model_Beam Model_Orbit Model_Scan Model_Bba Model_OrbBba Model_Lattice Model_Loco Model_Resp Model_Inject Model_Wrap Model_Matlab
  Lemmas Spec Proofs_Update Proofs_Setpoint Proofs_Err Proofs_Beam Proofs_CM Proofs_CM2 Properties_Setpoint Properties_Setpoint3 Properties_Setpoint4 Properties_Thread Properties_OrbBba Proofs_Campaign Examples.
Local Open Scope string_scope.
Local Open Scope list_scope.
Local Open Scope R_scope.

(** * Campaigns *)

(** the numerical routines used by the procedures: pseudo-inverse, line fits, sine fit, root finding, optics, minimisation *)
Record tools := MkTools {
  t_pinv : list (list R) -> list (list R);
  t_line : list R -> list R -> list R -> res (option R * option R);
  t_sine : list (R * R * option R) -> res (sine R);
  t_straight : list (R * R * option R) -> res (straight R);
  t_root : (R -> R) -> R -> res (option R);
  t_optics : list (elem R) -> res (list (option R));
  t_chrom : list (elem R) -> list (option R);
  t_strategy : list (list R * option R) -> option (list R);
  t_polyfit : list R -> list R -> nat -> list R -> res (list R * list (list R));
  t_quantile : R -> R;
  t_polyfit1 : list R -> list (option R) -> res (option R * option R);
  t_fmin : (list R -> option R) -> list R -> res (list (option R)) }.

(** the calls a campaign is made of, with their arguments *)
Inductive procedure :=
| SetCorrectors (ords : list nat) (dt : dtype) (sps : list R) (skew : bool) (method : string)
| SetMagnets (ords : list nat) (dt : dtype) (sps : list R) (skew : bool) (order : nat) (method : string) (dipcomp : bool)
| SetCavities (ords : list nat) (dt : dtype) (sps : list R) (time_lag : bool) (method : string)
| Reading (bpms : option (list nat)) (errors : bool)
| AllElements
| Transmission (nparts nturns : option nat)
| FirstTurn (m : list (list R)) (reference : option (list R)) (cms : option (list nat * list nat)) (bpms : option (list nat)) (maxsteps : nat)
| Stitch (m : list (list R)) (reference : option (list R)) (cms : option (list nat * list nat)) (bpms : option (list nat)) (n maxsteps : nat)
| Balance (m : list (list R)) (reference : option (list R)) (cms : option (list nat * list nat)) (bpms : option (list nat)) (eps : R) (maxsteps : nat)
| CorrectOrbit (m : list (list R)) (reference : option (list R)) (cms : option (list nat * list nat)) (bpms : option (list nat)) (eps target : R) (maxsteps : nat) (scale : R)
| RfPhase (cavs bpms : option (list nat)) (n : nat)
| RfFrequency (cavs bpms : option (list nat)) (n : nat) (f0 f1 : R)
| SynchPhase (cavs : option (list nat)) (n nturns : nat)
| SynchEnergy (cavs : option (list nat)) (f0 f1 : R) (n nturns minturns : nat)
| TuneScan (quads1 quads2 : list nat) (rel1 rel2 : list R) (target : R) (nparts nturns : nat) (full_scan : bool) (n : nat)
| FitTune (q_ords : list (list nat)) (target : option (list R))
| FitChroma (fuel : nat) (s_ords : list (list nat)) (target : option (list (option R)))
| FakeBba (bpm_ords mag_ords : list (list nat)) (errors : option (list (list bool))) (fake : option (list (option R)))
| TrajectoryBba (bpm_ords mag_ords : list (list nat)) (p : bba_par R) (strengths : list R + list (list (list R)))
| OrbitBba (bpm_ords mag_ords : list (list nat)) (p : bba_par R) (strengths : list R + list (list (list R))) (rm : option rm_struct) (use_reading : bool) (plot : option bool)
| MeasureClosedOrbit (bpms hcm vcm : list nat) (dkick : R)
| ApplyFit (r : list R) (elems : list nat + list (list nat)) (skew : bool) (order : nat) (method : string) (dipcomp : bool)
| LatticeCorrection (p : fit_parameters R) (dipcomp : bool) (damping : R)
| DiagnosticCorrection (step : step_arg R) (c : cm_data R) (b : bpm_data R) (to_zero : bool) (out : outlier_arg R)
| LocoMeasurement (amp : amplitude R) (rf : R) (bpms hcm vcm : list nat) (kwargs : list string)
| ResponseMatrix (amp : amplitude R) (bpms hcm vcm : list nat) (mode : string) (n : nat)
| Dispersion (rf : R) (bpms cavs : option (list nat)) (n : nat)
| FitInjectionDrift
| FitInjectionTrajectory (inds : list nat) (plot : bool).

Definition ignore {A} (m : M (sc R) A) : M (sc R) unit := let! _ := m in ret tt.
(** the function each call runs; each is defined, with the lines it models, in the Model files *)
Definition perform (w : world R) (t : tools) (p : procedure) : M (sc R) unit :=
  match p with
  | SetCorrectors ords dt sps skew method => set_cm_setpoints ords dt sps skew method
  | SetMagnets ords dt sps skew order method dc => set_magnet_setpoints ords dt sps skew order method dc
  | SetCavities ords dt sps b method => set_cavity_setpoints ords dt sps (if b then "TimeLag" else "Frequency") method
  | Reading b e => ignore (bpm_reading w b e)
  | AllElements => ignore (all_elements_reading w)
  | Transmission a b => ignore (beam_transmission w a b)
  | FirstTurn m r c b n => ignore (first_turn w (t_pinv t) m r c b n)
  | Stitch m r c b k n => ignore (stitch w (t_pinv t) m r c b k n)
  | Balance m r c b e n => ignore (balance w (t_pinv t) m r c b e n)
  | CorrectOrbit m r c b e tg n sc => ignore (correct w (t_pinv t) m r c b e tg n sc)
  | RfPhase c b n => correct_rf_phase w (t_line t) (t_sine t) (t_root t) c b n
  | RfFrequency c b n f0 f1 => correct_rf_frequency w (t_line t) (t_straight t) c b n f0 f1
  | SynchPhase c n nt => SCsynchPhaseCorrection w (t_line t) (t_sine t) (t_root t) c n nt
  | SynchEnergy c f0 f1 n nt mt => SCsynchEnergyCorrection c f0 f1 n nt mt
  | TuneScan q1 q2 r1 r2 tg np nt full n => ignore (tune_scan w q1 q2 r1 r2 tg np nt full n)
  | FitTune q tg => fit_tune (t_optics t) q tg
  | FitChroma f s tg => ignore (fit_chroma (t_chrom t) (t_strategy t) f s tg)
  | FakeBba b m e f => fake_bba b m e f
  | TrajectoryBba b m p str => ignore (trajectory_bba (t_polyfit t) (t_quantile t) w b m p str)
  | OrbitBba b m p str rm u pl => orbit_bba w b m p str rm u pl
  | MeasureClosedOrbit b h v d => ignore (measure_response w b h v d)
  | ApplyFit r e sk o m dc => set_correction r e sk o m dc
  | LatticeCorrection p dc d => apply_lattice_correction p dc d
  | DiagnosticCorrection st c b z out => ignore (apply_diagnostic_correction st c b z out)
  | LocoMeasurement a rf b h v k => ignore (loco_measurement w a rf b h v k)
  | ResponseMatrix a b h v m n => ignore (response_matrix w a b h v m n)
  | Dispersion rf b c n => ignore (dispersion w rf b c n)
  | FitInjectionDrift => ignore (fit_injection_drift w (t_polyfit1 t))
  | FitInjectionTrajectory i pl => ignore (fit_injection_trajectory w (t_fmin t) i pl)
  end.
(** a campaign: one call after the other, whatever they return or raise *)
Definition campaign (w : world R) (t : tools) (ps : list procedure) (s : sc R) : sc R := fold_left (fun s p => snd (perform w t p s)) ps s.

(** * Specification: what a call is allowed to touch *)

Definition both_planes (cms : option (list nat * list nat)) (o : indices) : list nat := match cms with Some c => c.1 ++ c.2 | None => oHCM o ++ oVCM o end.
Definition cavities (cavs : option (list nat)) (o : indices) : list nat := match cavs with Some c => c | None => oRF o end.
(** the magnets named in the call, or taken from the registry: their set-points may change *)
Definition magnets_of (p : procedure) (o : indices) : list nat :=
  match p with
  | SetCorrectors ords _ _ _ _ => ords
  | SetMagnets ords _ _ _ _ _ _ => ords
  | FirstTurn _ _ cms _ _ | Stitch _ _ cms _ _ _ | Balance _ _ cms _ _ _ | CorrectOrbit _ _ cms _ _ _ _ _ => both_planes cms o
  | TuneScan q1 q2 _ _ _ _ _ _ _ => q1 ++ q2
  | FitChroma _ s _ => concat s
  | TrajectoryBba _ mags p _ => concat mags ++ b_q_ords p
  | MeasureClosedOrbit _ h v _ | LocoMeasurement _ _ _ h v _ | ResponseMatrix _ _ h v _ _ => h ++ v
  | ApplyFit _ (inl l) _ _ _ _ => l
  | ApplyFit _ (inr ls) _ _ _ _ => concat ls
  | LatticeCorrection p _ _ => map fst (concat (f_groups p))
  | _ => []
  end.
(** magnets whose fields are computed again *)
Definition refreshed_by (p : procedure) (o : indices) : list nat := match p with LatticeCorrection _ _ _ => oMagnet o | _ => magnets_of p o end.
Definition cavities_of (p : procedure) (o : indices) : list nat :=
  match p with
  | SetCavities ords _ _ _ _ => ords
  | CorrectOrbit _ _ _ _ _ _ _ scale => if Req_EM_T scale 0 then [] else oRF o
  | RfPhase c _ _ | RfFrequency c _ _ _ _ | SynchPhase c _ _ | Dispersion _ _ c _ => cavities c o
  | LocoMeasurement _ _ _ _ _ _ => oRF o
  | _ => []
  end.
(** monitors whose offset may change *)
Definition monitors_of (p : procedure) : list nat :=
  match p with FakeBba b _ _ _ => concat b | TrajectoryBba b _ _ _ => concat b | OrbitBba b _ _ _ _ _ _ => concat b | _ => [] end.
(** monitors whose calibration or roll may change *)
Definition calibrated_by (p : procedure) : list nat := match p with DiagnosticCorrection _ _ b _ _ => b_index b | _ => [] end.
(** calls that move the injected beam, or the settings of the tracking *)
Definition moves_injection (p : procedure) : Prop :=
  match p with SynchPhase _ _ _ | SynchEnergy _ _ _ _ _ _ | TrajectoryBba _ _ _ _ | MeasureClosedOrbit _ _ _ _ | FitInjectionTrajectory _ _ => True | _ => False end.
Definition any {A} (f : procedure -> list A) (ps : list procedure) (x : A) : Prop := exists p, p ∈ ps /\ x ∈ f p.

Definition cavity_attributes : list string := ["FrequencySetPoint"; "TimeLagSetPoint"; "Voltage"; "Frequency"; "TimeLag"].
(** attribute [a] of element [i] may be changed by one of the calls; [s]: the machine at the beginning *)
Definition may_change (ps : list procedure) (s : sc R) (i : nat) (a : string) : Prop :=
  (a ∈ ["SetPointA"; "SetPointB"] /\ any (fun p => magnets_of p (ORD s)) ps i) \/
  (a ∈ field_attributes /\ (any (fun p => magnets_of p (ORD s) ++ refreshed_by p (ORD s)) ps i \/ exists m, any (fun p => magnets_of p (ORD s) ++ refreshed_by p (ORD s)) ps m /\ child_of s i m)) \/
  (a ∈ cavity_attributes /\ any (fun p => cavities_of p (ORD s)) ps i) \/
  (a = "Offset" /\ any monitors_of ps i) \/
  ((a = "CalError" \/ a = "Roll") /\ any calibrated_by ps i).

(** * Proofs *)
(** [worked]: only through these; the relation between the machine before and after *)
Definition inj_kept (i i' : inj R) : Prop :=
  beamLostAt i' = beamLostAt i /\ Z0ideal i' = Z0ideal i /\ beamSize i' = beamSize i /\ randomInjectionZ i' = randomInjectionZ i /\ nShots i' = nShots i.
Section Worked.
  Context (o : indices) (P F C B D : nat -> Prop) (mv : Prop).
  Definition allowed (s : sc R) (i : nat) (a : string) : Prop :=
    (a ∈ ["SetPointA"; "SetPointB"] /\ P i) \/ (a ∈ field_attributes /\ (F i \/ exists m, F m /\ child_of s i m)) \/
    (a ∈ cavity_attributes /\ C i) \/ (a = "Offset" /\ B i) \/ ((a = "CalError" \/ a = "Roll") /\ D i).
  Definition worked (s s' : sc R) : Prop := ORD s = o ->
    IDEALRING s' = IDEALRING s /\ SIG s' = SIG s /\ ORD s' = ORD s /\ length (RING s') = length (RING s) /\
    inj_kept (INJ s) (INJ s') /\ (~ mv -> INJ s' = INJ s) /\
    forall i a, ~ allowed s i a -> attr_at s' i a = attr_at s i a.
  Lemma allowed_master s i : ~ allowed s i "MasterOf".
  Proof.
    unfold allowed, field_attributes, cavity_attributes. rewrite !elem_of_cons, !elem_of_nil.
    intros [[H _]|[[H _]|[[H _]|[[H _]|[H _]]]]]; repeat destruct H as [H|H]; try done.
  Qed.
  #[export] Instance worked_preorder : PreOrder worked.
  Proof.
    split; [intros s _; repeat split; auto|]. intros a b c H1 H2 E. destruct (H1 E) as (A1&A2&A3&A4&(A5&A6&A7&A8&A9)&A10&A11).
    destruct (H2 ltac:(congruence)) as (B1&B2&B3&B4&(B5&B6&B7&B8&B9)&B10&B11). unfold inj_kept. repeat split; try congruence.
    - intros Hm. rewrite B10, A10; auto.
    - intros i x Hx. rewrite B11, A11; auto. intros Hb. apply Hx. destruct Hb as [?|[[Hf Hb]|?]]; [by left| |by right; right]. right; left. split; [done|].
      destruct Hb as [Hb|(m&Hm&l&Hl&Hi)]; [by left|]. right. exists m. split; [done|]. exists l. split; [|done]. rewrite <- Hl. symmetry. apply A11, allowed_master.
  Qed.
  Lemma worked_get A (k : sc R -> M (sc R) A) : (forall s, ORD s = o -> pres worked (k s)) -> pres worked (bind get k).
  Proof. intros H s Ho. change (bind get k s) with (k s s). by apply H. Qed.
  Lemma worked_quiet (s s' : sc R) : quiet s s' -> worked s s'.
  Proof. intros H _. destruct (quiet_same _ _ H) as (E&?&Ei&?&?). unfold inj_kept. rewrite Ei. repeat split; auto; [by rewrite E|]. intros i a _. unfold attr_at. by rewrite E. Qed.
  Lemma worked_frame (I : nat -> string -> Prop) (s s' : sc R) : (forall i a, I i a -> allowed s i a) -> frame I s s' -> worked s s'.
  Proof.
    intros HI Fr _. pose proof Fr as (F1&F2&F3&F4&F5&[F6 _]). unfold inj_kept. rewrite F2. repeat split; auto. intros i a Ha. rewrite !attr_at_aget. apply (frame_aget _ _ _ _ _ Fr). auto.
  Qed.
  Lemma worked_touched (s : sc R) ords i : touched (RING s) ords i -> (forall j, j ∈ ords -> F j) -> F i \/ exists m, F m /\ child_of s i m.
  Proof.
    intros [Hi|(m&Hm&Hc)] H; [auto|]. right. exists m. split; [auto|]. unfold child_of. rewrite attr_at_aget.
    unfold children in Hc. destruct (aget (RING s) m "MasterOf") as [[]|]; try by inversion Hc. eauto.
  Qed.
  Lemma SP_in skew : SP skew ∈ ["SetPointA"; "SetPointB"].
  Proof. destruct skew; rewrite !elem_of_cons; auto. Qed.
  Context (PF : forall i, P i -> F i).
  Lemma worked_cm ords dt sps skew method : (forall i, i ∈ ords -> P i) -> pres worked (@set_cm_setpoints R _ ords dt sps skew method).
  Proof.
    intros HP s. eapply worked_frame; [|apply set_cm_frame]. intros i a [[-> Hi]|[Hd Ht]]; [left; split; [apply SP_in|auto]|].
    right; left. split; [exact Hd|]. eapply worked_touched; eauto.
  Qed.
  Lemma worked_update ords : (forall i, i ∈ ords -> F i) -> pres worked (@update_magnets R _ ords).
  Proof. intros HP s. eapply worked_frame; [|apply update_magnets_frame]. intros i a [Hd Ht]. right; left. split; [exact Hd|]. eapply worked_touched; eauto. Qed.
  Lemma worked_elem i (m : M (elem R) unit) (I : string -> Prop) : (forall s a, I a -> allowed s i a) -> pres (eagree I) m -> pres worked (on_elem i m).
  Proof.
    intros HI Hm s. apply (worked_frame (fun j a => j = i /\ I a)); [intros j a [-> Ha]; auto|].
    apply (pres_on_elem_frame (fun j a => j = i /\ I a)). eapply pres_weaken; [|exact Hm]. intros e e' He a Ha. apply He. intros HIa. apply Ha. done.
  Qed.
  Lemma worked_magnet ords dt sps skew order method dc : (forall i, i ∈ ords -> P i) -> pres worked (@set_magnet_setpoints R _ ords dt sps skew order method dc).
  Proof.
    intros HP. unfold set_magnet_setpoints. repeat first [pres_step|apply worked_update; auto].
    match goal with Hin : ?p ∈ zip _ _ |- _ => destruct p as [i x]; apply elem_of_zip_l in Hin; cbn [fst snd]; rename Hin into Hin' end.
    unfold set_magnet_one, dipole_compensation.
    repeat first [pres_step|apply pres_ring_elem; exact _|(apply worked_cm; intros j ->%elem_of_list_singleton; auto; fail)].
    apply (worked_elem _ _ (spE skew)); [|apply pres_set_sp_entry]. intros ? b Hb. unfold spE in Hb. left. rewrite Hb. split; [apply SP_in|auto].
  Qed.
  Lemma worked_cavity ords dt sps param method : (forall i, i ∈ ords -> C i) -> param = "Frequency" \/ param = "TimeLag" -> pres worked (@set_cavity_setpoints R _ ords dt sps param method).
  Proof.
    intros HC Hp. unfold set_cavity_setpoints, update_cavities, update_cavity. repeat pres_step.
    - match goal with Hin : ?p ∈ zip _ _ |- _ => destruct p as [i x]; apply elem_of_zip_l in Hin end. cbn [fst snd].
      apply (worked_elem _ _ (fun a => a = param +:+ "SetPoint")); [|apply pres_setattr; done]. intros ? ? ->. right; right; left. split; [|auto].
      unfold cavity_attributes. rewrite !elem_of_cons. destruct Hp as [-> | ->]; auto.
    - apply (worked_elem _ _ (fun a => a ∈ RF_PROPERTIES)); [|repeat first [pres_step|apply pres_setattr; done]].
      intros ? b Ha. right; right; left. split; [|auto]. unfold RF_PROPERTIES in Ha. unfold cavity_attributes. rewrite !elem_of_cons, elem_of_nil in Ha. rewrite !elem_of_cons. tauto.
  Qed.
  Lemma worked_offset i d f : B i -> pres worked (@change_offset R i d f).
  Proof. intros HB. unfold change_offset. apply (worked_elem _ _ (fun a => a = "Offset")); [|repeat first [pres_step|apply pres_setattr; done]]. intros ? ? ->. do 3 right. by left. Qed.
  Lemma worked_gain i d y : D i -> pres worked (on_elem i (add_gain (T:=R) d y)).
  Proof. intros HD. unfold add_gain. apply (worked_elem _ _ (fun a => a = "CalError")); [|repeat first [pres_step|apply pres_setattr; done]]. intros ? ? ->. do 4 right. auto. Qed.
  Lemma worked_roll i x : D i -> pres worked (on_elem i (lower_roll (T:=R) x)).
  Proof. intros HD. unfold lower_roll. apply (worked_elem _ _ (fun a => a = "Roll")); [|repeat first [pres_step|apply pres_setattr; done]]. intros ? ? ->. do 4 right. auto. Qed.
  Lemma worked_inj (f : inj R -> inj R) : mv -> (forall i, inj_kept i (f i)) -> pres worked (@mod_INJ R f).
  Proof. intros Hm Hf s _. cbn. repeat split; auto; try apply Hf. intros H. contradiction. Qed.
  Lemma worked_trackMode m : mv -> pres worked (@on_INJ R unit (set_trackMode m)).
  Proof.
    intros Hm s _. unfold on_INJ, set_trackMode. destruct (decide (m ∈ TRACKING_MODES)); cbn.
    - destruct (decide (m = "ORB")); cbn; repeat split; auto; intros H; contradiction.
    - repeat split; auto.
  Qed.
End Worked.

Ltac each := intros ? ?; apply elem_of_app; auto.
(** the order of the set-points named in the call *)
Definition order_of (p : procedure) : option nat :=
  match p with SetMagnets _ _ _ _ order _ _ => Some order | TrajectoryBba _ _ p _ => Some (b_order p) | ApplyFit _ _ _ order _ _ => Some order | _ => None end.
(** the correctors the call may steer *)
Definition steered_by (p : procedure) (o : indices) : list nat :=
  match p with
  | SetCorrectors ords _ _ _ _ => ords
  | FirstTurn _ _ cms _ _ | Stitch _ _ cms _ _ _ | Balance _ _ cms _ _ _ | CorrectOrbit _ _ cms _ _ _ _ _ => both_planes cms o
  | MeasureClosedOrbit _ h v _ | LocoMeasurement _ _ _ h v _ | ResponseMatrix _ _ h v _ _ => h ++ v
  | _ => []
  end.
(** the magnets the call may set otherwise, each with the order of the set-point *)
Definition settings_of (p : procedure) : list (nat * nat) :=
  match p with
  | SetMagnets ords _ _ _ order _ _ => map (pair order) ords
  | TuneScan q1 q2 _ _ _ _ _ _ _ => map (pair 1%nat) (q1 ++ q2)
  | FitChroma _ s _ => map (pair 2%nat) (concat s)
  | TrajectoryBba _ mags p _ => map (pair (b_order p)) (concat mags) ++ map (pair 1%nat) (b_q_ords p)
  | ApplyFit _ (inl l) _ order _ _ => map (pair order) l
  | ApplyFit _ (inr ls) _ order _ _ => map (pair order) (concat ls)
  | LatticeCorrection p _ _ => map (pair 1%nat) (map fst (concat (f_groups p)))
  | _ => []
  end.
Lemma in_pair (n m i : nat) (l : list nat) : (n, i) ∈ map (pair m) l <-> n = m /\ i ∈ l.
Proof. rewrite elem_of_list_fmap. split; [intros (x&E&H); injection E as -> ->; done|intros [-> H]; eauto]. Qed.
Lemma steered_magnets p o i : i ∈ steered_by p o -> i ∈ magnets_of p o.
Proof. destruct p; try done; cbn [steered_by]; by rewrite elem_of_nil. Qed.
Lemma settings_magnets p o n i : (n, i) ∈ settings_of p -> i ∈ magnets_of p o.
Proof.
  destruct p; cbn [settings_of magnets_of]; rewrite ?elem_of_nil; try done; try (destruct elems); rewrite ?elem_of_app, ?in_pair, ?elem_of_app; tauto.
Qed.
Lemma settings_orders p n i : (n, i) ∈ settings_of p -> n = 1%nat \/ n = 2%nat \/ order_of p = Some n.
Proof.
  destruct p; cbn [settings_of order_of]; rewrite ?elem_of_nil; try done; try (destruct elems); rewrite ?elem_of_app, ?in_pair; intuition; subst; auto.
Qed.
(** the generic lemmas, one call of the campaign *)
Section Perform.
  Context (w : world R) (t : tools) (Rel : sc R -> sc R -> Prop) `{PO : !PreOrder Rel} (o : indices).
  Context (P F C B D : nat -> Prop) (V : nat -> nat -> Prop) (mv : Prop).
  Hypothesis Hget : forall A (k : sc R -> M (sc R) A), (forall s, ORD s = o -> pres Rel (k s)) -> pres Rel (bind get k).
  Hypothesis Hq : forall s s', quiet s s' -> Rel s s'.
  Hypothesis Hcm : forall ords dt sps skew method, (forall i, i ∈ ords -> P i) -> pres Rel (@set_cm_setpoints R _ ords dt sps skew method).
  Hypothesis Hmag : forall ords dt sps skew order method dc, (forall i, i ∈ ords -> V order i) -> pres Rel (@set_magnet_setpoints R _ ords dt sps skew order method dc).
  Hypothesis Hup : forall ords, (forall i, i ∈ ords -> F i) -> pres Rel (@update_magnets R _ ords).
  Hypothesis Hcav : forall ords dt sps param method, (forall i, i ∈ ords -> C i) -> param = "Frequency" \/ param = "TimeLag" -> pres Rel (@set_cavity_setpoints R _ ords dt sps param method).
  Hypothesis Hoff : forall i d f, B i -> pres Rel (@change_offset R i d f).
  Hypothesis Hgain : forall i d y, D i -> pres Rel (on_elem i (add_gain (T:=R) d y)).
  Hypothesis Hroll : forall i x, D i -> pres Rel (on_elem i (lower_roll (T:=R) x)).
  Hypothesis Hz : mv -> forall z, pres Rel (@mod_INJ R (with_Z0 z)).
  Hypothesis Hn : mv -> forall n, pres Rel (@mod_INJ R (with_nTurns n)).
  Hypothesis Htm : mv -> forall m, pres Rel (@on_INJ R unit (set_trackMode m)).
  Lemma g_ignore {A} (m : M (sc R) A) : pres Rel m -> pres Rel (ignore m).
  Proof. intros H. unfold ignore. apply pres_bind; [exact _|exact H|]. intros _. apply pres_ret. exact _. Qed.
  Lemma g_perform p : (forall i, i ∈ steered_by p o -> P i) -> (forall i, i ∈ refreshed_by p o -> F i) -> (forall i, i ∈ cavities_of p o -> C i) -> (forall i, i ∈ monitors_of p -> B i) ->
    (forall i, i ∈ calibrated_by p -> D i) -> (forall n i, (n, i) ∈ settings_of p -> V n i) -> (moves_injection p -> mv) -> pres Rel (perform w t p).
  Proof.
    intros HP HF HC HB HD HV Hm. destruct p; cbn [perform steered_by settings_of refreshed_by cavities_of monitors_of calibrated_by moves_injection] in *; try apply g_ignore.
    - by apply Hcm.
    - apply Hmag. intros i Hi. apply HV, in_pair. auto.
    - apply Hcav; [done|]. destruct time_lag; auto.
    - by eapply g_reading.
    - by eapply g_all.
    - by eapply g_transmission.
    - eapply g_first_turn; eauto. unfold pair_in. destruct cms; exact HP.
    - eapply g_stitch; eauto. unfold pair_in. destruct cms; exact HP.
    - eapply g_balance; eauto. unfold pair_in. destruct cms; exact HP.
    - eapply g_correct; eauto; [unfold pair_in; destruct cms; exact HP|]. intros Hs. by destruct (Req_EM_T scale 0).
    - eapply g_rf_phase; eauto; by destruct cavs.
    - eapply g_rf_frequency; eauto; by destruct cavs.
    - eapply g_synch_phase; eauto; by destruct cavs.
    - eapply g_synch_energy; eauto.
    - eapply g_tune_scan; eauto. intros i Hi. apply HV, in_pair. auto.
    - eapply g_fit_tune; eauto.
    - eapply g_fit_chroma; eauto. intros i Hi. apply HV, in_pair. auto.
    - eapply g_fake; eauto.
    - eapply g_trajectory_bba; eauto; intros i Hi; apply HV; rewrite elem_of_app, !in_pair; auto.
    - eapply g_orbit_bba; eauto.
    - eapply g_measure_response; eauto.
    - eapply g_set_correction; eauto. intros i Hi. apply HV. destruct elems; apply in_pair; auto.
    - eapply g_lattice_correction; eauto. intros i Hi. apply HV, in_pair. auto.
    - eapply g_diagnostic; eauto.
    - eapply g_loco_measurement; eauto.
    - eapply g_response_matrix; eauto.
    - eapply g_dispersion; eauto; by destruct cavs.
    - eapply g_drift; eauto.
    - eapply g_trajectory; eauto.
  Qed.
  Lemma g_campaign ps s : (forall p, p ∈ ps -> (forall i, i ∈ steered_by p o -> P i) /\ (forall i, i ∈ refreshed_by p o -> F i) /\ (forall i, i ∈ cavities_of p o -> C i) /\
    (forall i, i ∈ monitors_of p -> B i) /\ (forall i, i ∈ calibrated_by p -> D i) /\ (forall n i, (n, i) ∈ settings_of p -> V n i) /\ (moves_injection p -> mv)) -> Rel s (campaign w t ps s).
  Proof.
    unfold campaign. revert s. induction ps as [|p ps IH]; intros s H; [reflexivity|]. cbn [fold_left]. etransitivity; [|apply IH; intros q Hq'; apply H; by right].
    destruct (H p ltac:(left)) as (H1&H2&H3&H4&H5&H6&H7). by apply g_perform.
  Qed.
End Perform.

(** * Theorems *)
(** Whatever calls are made, in any order, with any arguments and on any machine, returning or raising: the design ring, the
    uncertainties, the registry and the number of elements stay; of the injection only launch point, turns, particles and mode
    can change, and nothing if no call moves it; and every attribute stays that no call may change. *)
Theorem C82_only_what_was_asked w t ps (s : sc R) :
  let s' := campaign w t ps s in
  IDEALRING s' = IDEALRING s /\ SIG s' = SIG s /\ ORD s' = ORD s /\ length (RING s') = length (RING s) /\
  beamLostAt (INJ s') = beamLostAt (INJ s) /\ Z0ideal (INJ s') = Z0ideal (INJ s) /\ beamSize (INJ s') = beamSize (INJ s) /\
  randomInjectionZ (INJ s') = randomInjectionZ (INJ s) /\ nShots (INJ s') = nShots (INJ s) /\
  ((forall p, p ∈ ps -> ~ moves_injection p) -> INJ s' = INJ s) /\
  forall i a, ~ may_change ps s i a -> attr_at s' i a = attr_at s i a.
Proof.
  cbv zeta. set (o := ORD s).
  set (P := any (fun p => magnets_of p o) ps). set (F := any (fun p => magnets_of p o ++ refreshed_by p o) ps). set (C := any (fun p => cavities_of p o) ps).
  set (B := any monitors_of ps). set (D := any calibrated_by ps). set (mv := exists p, p ∈ ps /\ moves_injection p).
  assert (forall i, P i -> F i) as PF. { intros i (p&Hp&Hi). exists p. split; [done|]. apply elem_of_app. by left. }
  assert (worked o P F C B D mv s (campaign w t ps s)) as W.
  { apply (g_campaign w t (worked o P F C B D mv) o P F C B D (fun _ => P) mv); auto.
    - apply worked_get.
    - apply worked_quiet.
    - intros. by apply worked_cm.
    - intros. by apply worked_magnet.
    - intros. by apply worked_update.
    - intros. by apply worked_cavity.
    - intros. by apply worked_offset.
    - intros. by apply worked_gain.
    - intros. by apply worked_roll.
    - intros. by apply worked_inj.
    - intros. by apply worked_inj.
    - intros. by apply worked_trackMode.
    - intros p Hp. repeat split; try (intros i Hi; exists p; by split); auto.
      + intros i Hi. exists p. split; [done|]. by apply steered_magnets.
      + intros i Hi. exists p. split; [done|]. apply elem_of_app. by right.
      + intros n i Hi. exists p. split; [done|]. by eapply settings_magnets.
      + intros Hm. exists p. done. }
  destruct (W eq_refl) as (A1&A2&A3&A4&(A5&A6&A7&A8&A9)&A10&A11). repeat split; auto.
  intros H. apply A10. intros (p&Hp&Hm). by apply (H p).
Qed.
(** attributes that describe how the machine was built: errors, limits, magnet splitting, geometry *)
Definition built_in : list string :=
  ["CalErrorA"; "CalErrorB"; "PolynomAOffset"; "PolynomBOffset"; "SysPolAFromA"; "SysPolAFromB"; "SysPolBFromA"; "SysPolBFromB"; "NomPolynomA"; "NomPolynomB";
   "MagnetOffset"; "MagnetRoll"; "SupportOffset"; "SupportRoll"; "BendingAngleError"; "BendingAngle"; "CMlimit"; "SkewQuadLimit"; "MasterOf"; "Length"; "PassMethod";
   "Noise"; "NoiseCO"; "SumError"; "VoltageSetPoint"; "VoltageCalError"; "FrequencyCalError"; "TimeLagCalError"; "VoltageOffset"; "FrequencyOffset"; "TimeLagOffset";
   "T1"; "T2"; "R1"; "R2"; "EApertures"; "RApertures";
   "GirderOffset"; "GirderRoll"; "PlinthOffset"; "PlinthRoll"; "SectionOffset"; "SectionRoll"].
Theorem C82_errors_are_never_touched w t ps (s : sc R) i a : a ∈ built_in -> attr_at (campaign w t ps s) i a = attr_at s i a.
Proof.
  intros Ha. apply (C82_only_what_was_asked w t ps s). intros H.
  assert (a ∈ ["SetPointA"; "SetPointB"] ++ field_attributes ++ cavity_attributes ++ ["Offset"; "CalError"; "Roll"]) as Hc.
  { rewrite !elem_of_app. destruct H as [[H _]|[[H _]|[[H _]|[[H _]|[[H|H] _]]]]]; auto; subst a; do 3 right; by apply (bool_decide_eq_true_1 _). }
  assert (forallb (fun x => negb (bool_decide (x ∈ ["SetPointA"; "SetPointB"] ++ field_attributes ++ cavity_attributes ++ ["Offset"; "CalError"; "Roll"]))) built_in = true) as Hb by (vm_compute; reflexivity).
  rewrite forallb_forall in Hb. specialize (Hb a (proj1 (elem_of_list_In _ _) Ha)). by rewrite bool_decide_eq_true_2 in Hb.
Qed.

(** ** Limits *)
(** an invariant of the elements that every elementary call keeps is kept by a campaign *)
Lemma no_magnets dt sps skew order method dc (s : sc R) : RING (snd (@set_magnet_setpoints R _ [] dt sps skew order method dc s)) = RING s.
Proof.
  unfold set_magnet_setpoints. change (RING (snd (bind (lift (magnet_targets [] dt sps skew order method s)) (fun sps0 => forM (zip [] sps0) (fun p => set_magnet_one skew order dt dc p.1 p.2) ;;; update_magnets []) s)) = RING s).
  destruct (magnet_targets [] dt sps skew order method s); reflexivity.
Qed.
Section Keeps.
  Context (w : world R) (t : tools) (K : sc R -> sc R -> Prop) `{KO : !PreOrder K} (V : nat -> Prop).
  Definition every : nat -> Prop := fun _ => True.
  Definition also (o : indices) (s s' : sc R) : Prop := worked o every every every every every True s s' /\ (ORD s = o -> K s s').
  #[local] Instance also_preorder o : PreOrder (also o).
  Proof.
    split; [intros s; split; [reflexivity|intros _; reflexivity]|]. intros a b c [H1 H2] [H3 H4]. split; [etransitivity; eassumption|]. intros E.
    destruct (H1 E) as (_&_&E'&_). etransitivity; [by apply H2|apply H4; congruence].
  Qed.
  Hypothesis V1 : V 1%nat.
  Hypothesis V2 : V 2%nat.
  Hypothesis Kring : forall s s' : sc R, RING s' = RING s -> K s s'.
  Hypothesis Kcm : forall ords dt sps skew method, pres K (@set_cm_setpoints R _ ords dt sps skew method).
  Hypothesis Kmag : forall ords dt sps skew order method dc, V order -> pres K (@set_magnet_setpoints R _ ords dt sps skew order method dc).
  Hypothesis Kup : forall ords, pres K (@update_magnets R _ ords).
  Hypothesis Kcav : forall ords dt sps param method, pres K (@set_cavity_setpoints R _ ords dt sps param method).
  Hypothesis Kother : forall i (m : M (elem R) unit), pres (eagree (fun a => a = "Offset" \/ a = "CalError" \/ a = "Roll")) m -> pres K (on_elem i m).
  Lemma campaign_keeps ps s : (forall p n, p ∈ ps -> order_of p = Some n -> V n) -> K s (campaign w t ps s).
  Proof.
    intros HV. assert (also (ORD s) s (campaign w t ps s)) as [_ H]; [|by apply H].
    apply (g_campaign w t (also (ORD s)) (ORD s) every every every every every (fun n _ => n = 1%nat \/ n = 2%nat \/ V n) True); auto; try exact _.
    - intros A k H s0. split; [apply worked_get; intros s1 E s2; by apply H|]. intros E. change (bind get k s0) with (k s0 s0). by apply H.
    - intros a b H. split; [by apply worked_quiet|]. intros _. apply Kring. by destruct (quiet_same _ _ H) as (?&_).
    - intros. split; [by apply worked_cm|intros _; apply Kcm].
    - intros ords dt sps skew order method dc H s0. split; [by apply worked_magnet|intros E]. destruct ords as [|i ords]; [|apply Kmag; destruct (H i) as [->|[->|?]]; [left|..]; done].
      apply Kring. rewrite no_magnets. done.
    - intros. split; [by apply worked_update|intros _; apply Kup].
    - intros. split; [by apply worked_cavity|intros _; apply Kcav].
    - intros i d f _ s0. split; [by apply worked_offset|intros _]. unfold change_offset. apply Kother. repeat first [pres_step|apply pres_setattr; auto].
    - intros i d y _ s0. split; [by apply worked_gain|intros _]. unfold add_gain. apply Kother. repeat first [pres_step|apply pres_setattr; auto].
    - intros i x _ s0. split; [by apply worked_roll|intros _]. unfold lower_roll. apply Kother. repeat first [pres_step|apply pres_setattr; auto].
    - intros. split; [by apply worked_inj|intros _; by apply Kring].
    - intros. split; [by apply worked_inj|intros _; by apply Kring].
    - intros _ m s0. split; [by apply worked_trackMode|intros _]. apply Kring. apply (pres_trackMode (fun _ _ => False) m).
    - intros p Hp. repeat split; auto. intros n i Hi. destruct (settings_orders _ _ _ Hi) as [?|[?|?]]; eauto.
  Qed.
End Keeps.

(** Correctors within their limits stay within them through any campaign, raising calls included, in which no magnet call is aimed
    at the dipole component (order 0). *)
Theorem C82_limits w t ps (s : sc R) i skew : (forall p n, p ∈ ps -> order_of p = Some n -> n <> 0%nat) -> respects_limit s i skew -> respects_limit (campaign w t ps s) i skew.
Proof.
  intros HV. rewrite !respects_within. apply (campaign_keeps w t (keeps skew i) (fun n => n <> 0%nat)); auto.
  - intros a b E H e He. rewrite E in He. by apply H.
  - intros. apply set_cm_keeps.
  - intros. by apply set_magnet_keeps.
  - intros. apply update_magnets_keeps.
  - intros. apply set_cavity_keeps.
  - intros j m Hm. apply on_elem_keeps. intros e. apply ewithin_agree. intros a Ha. apply Hm. unfold cmattr in Ha. rewrite !elem_of_cons, elem_of_nil in Ha.
    intros [->|[->| ->]]; repeat (destruct Ha as [Ha|Ha]; [done|]); done.
Qed.

(** the skew gradient set-point within the limit declared for it *)
Definition respects_skew_limit (s : sc R) (i : nat) : Prop := forall x l, entry s i "SetPointA" 1 = Some x -> skew_limit s i = Some l -> Rabs x <= l.
Definition eskew (e : elem R) : Prop := forall l x k, e !! "SetPointA" = Some (VVec l) -> l !! 1%nat = Some x -> e !! "SkewQuadLimit" = Some (VLim (Fin k)) -> 0 <= k -> Rabs x <= k.
Definition wskew (i : nat) (s : sc R) : Prop := forall e, RING s !! i = Some e -> eskew e.
Definition skeeps (i : nat) (s s' : sc R) : Prop := wskew i s -> wskew i s'.
#[global] Instance skeeps_preorder i : PreOrder (skeeps i).
Proof. split; [intros ? ?; done|]. intros a b c H1 H2 H. auto. Qed.
Lemma wskew_spec s i : (forall l, skew_limit s i = Some l -> 0 <= l) -> respects_skew_limit s i <-> wskew i s.
Proof.
  unfold respects_skew_limit, wskew, eskew, entry, skew_limit, attr_at. intros Hpos. split.
  - intros H e He l x k H1 H2 H3 _. apply H; rewrite He; simpl; [by rewrite H1|by rewrite H3].
  - intros H x l Hx Hl. specialize (Hpos l Hl). destruct (RING s !! i) as [e|]; [|done]. simpl in *. destruct (e !! "SetPointA") as [[]|] eqn:E; try done. eapply H; eauto.
    destruct (e !! "SkewQuadLimit") as [[]|]; try discriminate. destruct l1; try discriminate. by injection Hl as ->.
Qed.
Lemma eskew_agree (e e' : elem R) : (forall a, a = "SetPointA" \/ a = "SkewQuadLimit" -> e' !! a = e !! a) -> eskew e -> eskew e'.
Proof. intros H He l x k. rewrite !H by auto. apply He. Qed.
Lemma frame_skeeps (I : nat -> string -> Prop) i s s' : (forall a, a = "SetPointA" \/ a = "SkewQuadLimit" -> ~ I i a) -> frame I s s' -> skeeps i s s'.
Proof.
  intros HI (_&_&_&_&_&[HL H]) Hw e' He'. destruct (RING s !! i) as [e|] eqn:E.
  - apply (eskew_agree e); [|by apply Hw]. intros a Ha. apply (H i e e'); auto.
  - apply lookup_ge_None in E. apply lookup_lt_Some in He'. lia.
Qed.
Lemma on_elem_skeeps i j (m : M (elem R) unit) : (forall e, eskew e -> eskew (snd (m e))) -> pres (skeeps i) (on_elem j m).
Proof.
  intros H s Hw e' He'. unfold on_elem in He'. destruct (RING s !! j) as [e|] eqn:E; [|by apply Hw].
  specialize (H e). destruct (m e) as [r e1] eqn:Em. simpl in *. destruct (decide (j = i)) as [->|Hne].
  - rewrite list_lookup_insert in He' by (by eapply lookup_lt_Some). simplify_eq. apply H. by apply Hw.
  - rewrite list_lookup_insert_ne in He' by done. by apply Hw.
Qed.
Lemma update_skeeps i ords : pres (skeeps i) (@update_magnets R _ ords).
Proof. intros s. eapply frame_skeeps; [|apply update_magnets_frame]. intros a [-> | ->] [Hd _]; by apply not_der in Hd. Qed.
Lemma set_cm_one_skew skew method dt x (e : elem R) : eskew e -> eskew (snd (set_cm_one skew method dt x e)).
Proof.
  intros Hw. rewrite set_cm_one_spec. destruct (cm_new skew method dt x e) as [l|] eqn:E; [|done]. simpl. destruct skew.
  - apply cm_new_R in E as (nb&sp&p&x1&x2&_&_&Hsp&_&_&_&_&_&->). intros l y k H1 H2 H3. rewrite lookup_insert in H1. injection H1 as <-.
    rewrite list_lookup_insert_ne in H2 by done. rewrite lookup_insert_ne in H3 by done. by eapply Hw.
  - apply (eskew_agree e); [|done]. intros a [-> | ->]; by rewrite lookup_insert_ne.
Qed.
Lemma set_cm_skeeps i ords dt sps skew method : pres (skeeps i) (@set_cm_setpoints R _ ords dt sps skew method).
Proof.
  unfold set_cm_setpoints. apply pres_bind; [exact _|apply pres_lift; exact _|]. intros l. apply pres_bind; [exact _| |intros _; apply update_skeeps].
  apply pres_forM; [exact _|]. intros p _. apply on_elem_skeeps. intros e. apply set_cm_one_skew.
Qed.
Lemma set_sp_entry_skew skew order x (e : elem R) : (skew = true -> order = 1%nat -> forall k, e !! "SkewQuadLimit" = Some (VLim (Fin k)) -> 0 <= k -> Rabs x <= k) ->
  eskew e -> eskew (snd (set_sp_entry (SP skew) order x e)).
Proof.
  intros Hx Hw. unfold set_sp_entry. rewrite run_getm. destruct (attr_vec e (SP skew)) as [sp|] eqn:E; [|done].
  rewrite run_lift. destruct (idx_set sp order x) as [sp'|] eqn:E2; [|done]. minv E2. minv E. simpl. destruct skew; simpl in *.
  - intros l y k H1 H2 H3 Hk. rewrite lookup_insert in H1. injection H1 as <-. rewrite lookup_insert_ne in H3 by done. destruct (decide (order = 1%nat)) as [->|Hne].
    + rewrite list_lookup_insert in H2 by (by eapply lookup_lt_Some in H2; rewrite insert_length in H2). injection H2 as <-. by apply Hx.
    + rewrite list_lookup_insert_ne in H2 by done. by eapply Hw.
  - apply (eskew_agree e); [|done]. intros a [-> | ->]; by rewrite lookup_insert_ne.
Qed.
Lemma set_magnet_one_skeeps i skew order dt dc j x : pres (skeeps i) (@set_magnet_one R _ skew order dt dc j x).
Proof.
  intros s Hw. rewrite set_magnet_one_run. destruct (RING s !! j) as [e|] eqn:E; [|done]. destruct (clip_skew skew order dt e x) as [x1|] eqn:Ec; [|done]. unfold bind.
  assert (pres (skeeps i) (when (dc && (order =? 1)%nat) (dipole_compensation (T:=R) j x1))) as P.
  { unfold dipole_compensation. repeat first [pres_step|apply pres_ring_elem; exact _|apply set_cm_skeeps]. }
  assert (pres (frame spI) (when (dc && (order =? 1)%nat) (dipole_compensation (T:=R) j x1))) as Q.
  { unfold dipole_compensation. repeat first [pres_step|apply pres_ring_elem; exact _|apply pres_set_cm_spI]. }
  specialize (P s Hw). specialize (Q s). destruct (when _ _ s) as [[u|er] s1]; [|done]. cbn [snd] in *.
  intros e' He'. unfold on_elem in He'. destruct (RING s1 !! j) as [e1|] eqn:E1; [|by apply P].
  destruct (set_sp_entry (SP skew) order x1 e1) as [r e2] eqn:Em. cbn [snd] in He'. destruct (decide (j = i)) as [->|Hne].
  - simpl in He'. rewrite list_lookup_insert in He' by (by eapply lookup_lt_Some). injection He' as <-.
    replace e2 with (snd (set_sp_entry (SP skew) order x1 e1)) by (by rewrite Em). apply set_sp_entry_skew; [|by apply P]. intros -> -> k Hk Hpos.
    eapply clip_skew_bound; [exact Ec| |done]. rewrite <- Hk. destruct Q as (_&_&_&_&_&[_ Q]). symmetry. apply (Q i e e1); auto. intros [?|[?|Hd]]; [done|done|]. by apply not_der in Hd.
  - simpl in He'. rewrite list_lookup_insert_ne in He' by done. by apply P.
Qed.
(** Skew-quadrupole set-points within the limit declared for them stay within it, whatever the orders. *)
Theorem C82_skew_limits w t ps (s : sc R) i : (forall l, skew_limit s i = Some l -> 0 <= l) -> respects_skew_limit s i -> respects_skew_limit (campaign w t ps s) i.
Proof.
  intros Hpos. assert (skew_limit (campaign w t ps s) i = skew_limit s i) as E.
  { unfold skew_limit. rewrite C82_errors_are_never_touched; [done|]. by apply (bool_decide_eq_true_1 _). }
  rewrite !wskew_spec by (rewrite ?E; done). apply (campaign_keeps w t (skeeps i) (fun _ => True)); auto.
  - intros a b Er H e He. rewrite Er in He. by apply H.
  - intros. apply set_cm_skeeps.
  - intros. unfold set_magnet_setpoints. repeat first [pres_step|apply set_magnet_one_skeeps|apply update_skeeps].
  - intros. apply update_skeeps.
  - intros ords dt sps param method. eapply pres_weaken; [|apply pres_set_cavity]. intros a b. apply frame_skeeps.
    intros x Hx [Hc|Hc]; [symmetry in Hc; apply last_app_SetPoint in Hc; destruct Hx as [-> | ->]; tauto|].
    destruct Hx as [-> | ->]; unfold RF_PROPERTIES in Hc; rewrite !elem_of_cons, elem_of_nil in Hc; repeat (destruct Hc as [Hc|Hc]; [done|]); done.
  - intros j m Hm. apply on_elem_skeeps. intros e. apply eskew_agree. intros a Ha. apply Hm. destruct Ha as [-> | ->]; intros [?|[?|?]]; done.
Qed.

(** The restriction to orders other than 0 is needed: one call is enough to leave the limit. *)
Theorem C82_finding_order_zero w t : respects_limit cm_machine 2 false /\
  ~ respects_limit (campaign w t [SetMagnets [2%nat] DFloat [7] false 0 "abs" false] cm_machine) 2 false.
Proof.
  split.
  - intros v l Hv Hl. vm_compute in Hv, Hl. injection Hv as <-. injection Hl as <-. change (Rabs (0 + 0) <= Rabs 1); rewrite Rplus_0_r, Rabs_R0; apply Rabs_pos.
  - intros H. assert (get_cm_setpoints [2%nat] false (campaign w t [SetMagnets [2%nat] DFloat [7] false 0 "abs" false] cm_machine) = Ok [7]) as Hg by (vm_compute; reflexivity).
    assert (cm_limit (campaign w t [SetMagnets [2%nat] DFloat [7] false 0 "abs" false] cm_machine) 2 false = Some 1) as Hl by (vm_compute; reflexivity).
    specialize (H _ _ Hg Hl). revert H. rewrite !Rabs_right by lra. lra.
Qed.

(** * Examples *)
(** a machine with a corrector (2), a monitor (3) and a cavity (4); the second, third and fourth calls raise *)
Definition camp_machine : sc R := snd (register_cavities [4%nat] [] (snd (register_bpms [3%nat] [] (cm_machine (T:=R))))).
Definition camp : list procedure :=
  [SetCavities [4%nat] DFloat [7] false "abs"; SetCavities [4%nat] DFloat [8] true "no such method"; AllElements;
   SetCorrectors [2%nat] DInt [1; 2; 3] true "abs"; FakeBba [[3%nat]] [[2%nat]] None None; SetCavities [4%nat] DFloat [9] true "abs"].
Example C82_example w t :
  (** calls do change things, also after a raising one *)
  fst (perform w t (SetCavities [4%nat] DFloat [8] true "no such method") camp_machine) = Err ValueError /\
  fst (perform w t (SetCorrectors [2%nat] DInt [1; 2; 3] true "abs") camp_machine) = Err ValueError /\
  attr_at camp_machine 4 "FrequencySetPoint" = Some (VNum 500) /\ attr_at camp_machine 4 "TimeLagSetPoint" = Some (VNum 0) /\
  attr_at (campaign w t camp camp_machine) 4 "FrequencySetPoint" = Some (VNum 7) /\ attr_at (campaign w t camp camp_machine) 4 "TimeLagSetPoint" = Some (VNum 9) /\
  (** the offset of the monitor may change, its roll may not; nor may the set-points of the quadrupole, which nobody addressed *)
  may_change camp camp_machine 3 "Offset" /\ ~ may_change camp camp_machine 3 "Roll" /\ ~ may_change camp camp_machine 1 "SetPointB" /\
  (forall p n, p ∈ camp -> order_of p = Some n -> n <> 0%nat) /\ respects_limit camp_machine 2 false.
Proof.
  split; [vm_compute; reflexivity|]. split; [vm_compute; reflexivity|]. split; [vm_compute; reflexivity|]. split; [vm_compute; reflexivity|].
  split; [vm_compute; reflexivity|]. split; [vm_compute; reflexivity|]. split.
  { do 3 right. left. split; [done|]. exists (FakeBba [[3%nat]] [[2%nat]] None None). split; [|left]. unfold camp. rewrite !elem_of_cons. tauto. }
  assert (forall q, q ∈ camp -> calibrated_by q = []) as Hc.
  { intros q Hq. unfold camp in Hq. rewrite !elem_of_cons, elem_of_nil in Hq. repeat (destruct Hq as [->|Hq]; [done|]). done. }
  split.
  { intros [[H _]|[[H _]|[[H _]|[[H _]|[_ (q&Hq&Hi)]]]]]; try (unfold field_attributes, cavity_attributes in H; rewrite !elem_of_cons, elem_of_nil in H; repeat (destruct H as [H|H]; [discriminate|]); done); [discriminate|].
    rewrite (Hc q Hq) in Hi. inversion Hi. }
  split.
  { intros [[_ (q&Hq&Hi)]|[[H _]|[[H _]|[[H _]|[[H|H] _]]]]]; try discriminate; try (unfold field_attributes, cavity_attributes in H; rewrite !elem_of_cons, elem_of_nil in H; repeat (destruct H as [H|H]; [discriminate|]); done).
    unfold camp in Hq. rewrite !elem_of_cons, elem_of_nil in Hq. repeat (destruct Hq as [->|Hq]; [cbn in Hi; first [by apply elem_of_nil in Hi|by apply elem_of_list_singleton in Hi]|]). done. }
  split.
  { intros q n Hq. unfold camp in Hq. rewrite !elem_of_cons, elem_of_nil in Hq. repeat (destruct Hq as [->|Hq]; [done|]). done. }
  intros v l Hv Hl. vm_compute in Hv, Hl. injection Hv as <-. injection Hl as <-. change (Rabs (0 + 0) <= Rabs 1); rewrite Rplus_0_r, Rabs_R0; apply Rabs_pos.
Qed.
Print Assumptions C82_only_what_was_asked.
Print Assumptions C82_errors_are_never_touched.
Print Assumptions C82_limits.
Print Assumptions C82_skew_limits.
Print Assumptions C82_finding_order_zero.
