(** C74: the beam-based alignment with closed-orbit bumps. *)
From Coq Require Import Reals Lra Lia ZArith.
From stdpp Require Import base gmap strings list.
From Verif Require Import Num Base Model_Arr Model_SC Model_Err Lemmas Spec Proofs_Update Proofs_Setpoint Proofs_CM Proofs_Loop Proofs_Err Properties_Setpoint Properties_Setpoint2 Properties_Setpoint3 Properties_Setpoint4
  Model_Beam Proofs_Beam Model_Orbit Model_Stats Model_Bba Model_OrbBba Properties_Wrap.
Local Open Scope string_scope.
Local Open Scope list_scope.
Local Open Scope R_scope.

(** * C74 *)
(** orbit_bba never returns for tables with an entry, nor without plot_results among its arguments; the machine is as before but for
    random numbers used. *)
Lemma quiet_run {A} (m : M (sc R) A) s r s' : pres quiet m -> m s = (r, s') -> quiet s s'.
Proof. intros P H. specialize (P s). by rewrite H in P. Qed.
Lemma bump_fails w rm u bpm n (s : sc R) : exists e s', orbit_bump w rm u bpm n s = (Err e, s') /\ quiet s s'.
Proof.
  unfold orbit_bump. destruct rm as [st|]; [|by eexists _, _; split; [|reflexivity]]. destruct u.
  - unfold bind at 1. unfold bind at 1. destruct (bpm_reading w None false s) as [r s1] eqn:E. pose proof (quiet_run _ _ _ _ (quiet_reading w None false) E) as Q.
    destruct r; by eexists _, _.
  - unfold bind at 1, ret at 1. unfold bind at 1. destruct (1 <? n)%nat; [by eexists _, _; split; [|reflexivity]|]. cbn [ret]. destruct (1 <? _)%nat; by eexists _, _; split; [|reflexivity].
Qed.
Lemma no_offsets bpms (m m' : list (list nat)) errs : pres eq (apply_bpm_offsets (T:=R) bpms (map (map (fun _ => None)) m) errs).
Proof.
  unfold apply_bpm_offsets. apply pres_bind; [exact _|apply pres_lift; exact _|intros flags]. apply pres_forM; [exact _|]. intros [[i j] flag] _. destruct flag; [apply pres_ret; exact _|].
  apply pres_bind; [exact _|apply pres_lift; exact _|intros ord]. intros s. unfold bind, lift. destruct (cell_at _ i j) as [x|] eqn:E; [|done].
  assert (x = None) as ->; [|done]. unfold cell_at in E. apply rbind_ok in E as (row&Hr&E). apply idx_ok in Hr, E. rewrite list_lookup_fmap in Hr. destruct (m !! i); [|done]. cbn in Hr. injection Hr as <-.
  rewrite list_lookup_fmap in E. destruct (_ !! j); [|done]. by injection E as <-.
Qed.
Theorem C74_finding_never_returns w bpm_ords mag_ords p str rm u plot (s s' : sc R) r :
  orbit_bba w bpm_ords mag_ords p str rm u plot s = (r, s') ->
  quiet s s' /\ ((exists row c, bpm_ords !! 0%nat = Some (c :: row)) \/ plot = None -> exists e, r = Err e).
Proof.
  intros H. unfold orbit_bba in H. unfold bind at 1, get at 1 in H. cbn beta iota in H. unfold bind at 1, lift at 1 in H.
  destruct (bba_check_input bpm_ords mag_ords p str) as [str'|e]; [|injection H as <- <-; split; [reflexivity|eauto]].
  case_bool_decide; [injection H as <- <-; split; [reflexivity|eauto]|].
  assert (forall n j (t : sc R), exists e t', (let! s := get in let! bpm := lift (cell_at bpm_ords n j) in let! bpm_ind := lift (bpm_index bpm s) in let! m_ord := lift (cell_at mag_ords n j) in
          let! bump := orbit_bump w rm u bpm n in let! st := lift (cell_at str' n j) in let! data := data_measurement_orb w p st m_ord bpm_ind n bump.1 bump.2 in
          (raise AttributeError : M (sc R) unit)) t = (Err e, t') /\ quiet t t') as Hcell.
  { intros n j t. unfold bind at 1, get at 1. cbn beta iota. unfold bind at 1, lift at 1. destruct (cell_at bpm_ords n j) as [bpm|]; [|by eexists _, _; split; [|reflexivity]].
    unfold bind at 1, lift at 1. destruct (bpm_index bpm t) as [bi|]; [|by eexists _, _; split; [|reflexivity]]. unfold bind at 1, lift at 1. destruct (cell_at mag_ords n j) as [mo|]; [|by eexists _, _; split; [|reflexivity]].
    unfold bind at 1. destruct (bump_fails w rm u bpm n t) as (e&t'&->&Q). by exists e, t'. }
  destruct bpm_ords as [|[|c row] rows].
  - cbn [seq forM] in H. unfold bind at 1, ret at 1 in H. cbn [map] in H. unfold bind at 1 in H. cbn in H. destruct plot; injection H as <- <-; (split; [reflexivity|]); [|by eauto].
    intros [(?&?&?)|?]; done.
  - cbn [seq forM length] in H. unfold bind at 1, ret at 1 in H. unfold bind at 1 in H. 
    destruct (apply_bpm_offsets _ _ _ s) as [q s1] eqn:E. 
    assert (s1 = s) as ->.
    { pose proof (no_offsets ([] :: rows) ([] :: rows) [] (map (map (fun _ => None)) ([] :: rows)) s) as P. rewrite E in P. by symmetry. }
    destruct q; [|injection H as <- <-; split; [reflexivity|eauto]]. destruct plot; injection H as <- <-; (split; [reflexivity|]); [|by eauto].
    intros [(?&?&?)|?]; done.
  - cbn [length seq forM] in H. unfold bind at 1 in H. unfold bind at 1 in H. unfold bind at 1 in H. destruct (Hcell 0%nat 0%nat s) as (e&t&E&Q). rewrite E in H. injection H as <- <-. split; [done|eauto].
Qed.
Print Assumptions C74_finding_never_returns.
(** Turn-by-turn mode is refused, tables of different shapes and fits of an order above two are as well; in any other mode the first monitor
    decides: without a structure of the response matrix AttributeError, with one (and the monitor in it no more than once) TypeError. *)
Lemma first_monitor w bpm row rows mag_ords p str rm u plot (s s1 : sc R) e : trackMode (INJ s) <> "TBT" -> map length ((bpm :: row) :: rows) = map length mag_ords -> (b_fit_order p <= 2)%nat ->
  bpm ∈ oBPM (ORD s) -> orbit_bump w rm u bpm 0 s = (Err e, s1) -> orbit_bba w ((bpm :: row) :: rows) mag_ords p str rm u plot s = (Err e, s1).
Proof.
  intros Ht HL Hf Hb E. unfold orbit_bba. unfold bind at 1, get at 1. cbn beta iota. unfold bind at 1, lift at 1, bba_check_input, Model_Bba.shape.
  destruct (decide _) as [_|?]; [|done]. rewrite (proj2 (Nat.ltb_ge _ _)) by done. rewrite bool_decide_false by done. cbn [length seq forM]. unfold bind at 1. unfold bind at 1. unfold bind at 1.
  unfold bind at 1, get at 1. cbn beta iota. unfold bind at 1, lift at 1, cell_at at 1. cbn [rbind idx lookup list_lookup].
  unfold bind at 1, lift at 1, bpm_index. destruct (list_find_elem_of (fun b => b = bpm) (oBPM (ORD s)) bpm Hb eq_refl) as [[k x] ->].
  destruct mag_ords as [|[|m mrow] mrows]; [done..|]. unfold bind at 1, lift at 1, cell_at at 1. cbn [rbind idx lookup list_lookup].
  unfold bind at 1. by rewrite E.
Qed.
Theorem C74_finding_outcomes w bpm_ords mag_ords p str rm plot (s : sc R) :
  (trackMode (INJ s) = "TBT" \/ map length bpm_ords <> map length mag_ords \/ (2 < b_fit_order p)%nat -> forall u, orbit_bba w bpm_ords mag_ords p str rm u plot s = (Err ValueError, s)) /\
  (trackMode (INJ s) <> "TBT" -> map length bpm_ords = map length mag_ords -> (b_fit_order p <= 2)%nat -> forall bpm row rows, bpm_ords = (bpm :: row) :: rows -> bpm ∈ oBPM (ORD s) ->
     (rm = None -> forall u, orbit_bba w bpm_ords mag_ords p str rm u plot s = (Err AttributeError, s)) /\
     (forall st, rm = Some st -> NoDup (rm_bpms st) -> orbit_bba w bpm_ords mag_ords p str rm false plot s = (Err TypeError, s))).
Proof.
  split.
  - intros Ht u. unfold orbit_bba. unfold bind at 1, get at 1. cbn beta iota. unfold bind at 1, lift at 1, bba_check_input, Model_Bba.shape.
    destruct (decide _) as [E|]; [|done]. destruct (2 <? b_fit_order p)%nat eqn:F; [done|]. apply Nat.ltb_ge in F. rewrite bool_decide_true; [done|]. destruct Ht as [?|[?|?]]; [done|done|lia].
  - intros Ht HL Hf bpm row rows -> Hb. split.
    + intros -> u. by apply first_monitor.
    + intros st -> ND. apply first_monitor; [done..|]. unfold orbit_bump. unfold bind at 1, ret at 1. unfold bind at 1. change (1 <? 0)%nat with false. cbn [ret].
      rewrite (proj2 (Nat.ltb_ge 1 _)); [done|]. clear -ND. induction ND as [|x l Hx ND IH]; [cbn; lia|]. rewrite filter_cons. destruct (decide (x = bpm)) as [->|]; [|done].
      cbn [length]. enough (filter (fun b => b = bpm) l = []) as -> by done. clear -Hx. induction l as [|y l IH]; [done|]. rewrite filter_cons. apply not_elem_of_cons in Hx as [A B].
      destruct (decide (y = bpm)); [congruence|auto].
Qed.
Print Assumptions C74_finding_outcomes.

(** * The measurement *)
Lemma mapM_snoc {S A B} (f : A -> M S B) l x s ys s' : mapM (l ++ [x]) f s = (Ok ys, s') -> exists t zs y, mapM l f s = (Ok zs, t) /\ f x t = (Ok y, s').
Proof.
  revert s ys. induction l as [|a l IH]; intros s ys H; cbn [mapM app] in H.
  - apply bind_ok in H as (y&s1&H1&H). apply bind_ok in H as (?&?&H2&H). apply ret_ok in H2 as [<- ->]. apply ret_ok in H as [_ ->]. by exists s, [], y.
  - apply bind_ok in H as (y&s1&H1&H). apply bind_ok in H as (ys'&?&H2&H). apply ret_ok in H as [_ ->]. apply IH in H2 as (t&zs&y'&A1&A2).
    exists t, (y :: zs), y'. split; [|done]. cbn [mapM]. unfold bind at 1. rewrite H1. unfold bind at 1. by rewrite A1.
Qed.
(** attributes a measurement may change *)
Definition settable (a : string) : Prop := a = "SetPointA" \/ a = "SetPointB" \/ a ∈ DERIVED.
Lemma upto_frame (I : nat -> string -> Prop) (s s' : sc R) : frame I s s' -> (forall i a, I i a -> settable a) -> upto settable s s'.
Proof.
  intros F HI. split; [destruct F as (_&_&_&_&_&[L _]); done|]. intros i a Ha. rewrite !attr_at_aget. apply (frame_aget _ _ _ i a F). intros Hi. by apply Ha, (HI i).
Qed.
Lemma upto_quiet (s s' : sc R) : quiet s s' -> upto settable s s'.
Proof. intros Q. apply quiet_same in Q as (E&_). unfold upto, attr_at. by rewrite E. Qed.
Lemma upto_set_cm ords sps skew : pres (upto settable) (@set_cm_setpoints R _ ords DFloat sps skew ABS).
Proof. intros s. eapply upto_frame; [apply set_cm_frame|]. intros i a [[-> _]|[Hd _]]; [destruct skew; [left|right; left]; done|by right; right]. Qed.
Lemma kept_quiet P (s s' : sc R) : quiet s s' -> kept P s s'.
Proof. intros Q i a k _ _. apply quiet_same in Q as (E&_). unfold entry, attr_at. by rewrite E. Qed.
Lemma kept_set_cm (P : nat -> string -> nat -> Prop) ords sps skew method : (forall i, P i (SP skew) 0%nat) -> pres (kept P) (@set_cm_setpoints R _ ords DFloat sps skew method).
Proof.
  intros HP. unfold set_cm_setpoints. apply pres_bind; [exact _|apply pres_lift; exact _|intros l]. apply pres_bind; [exact _| |intros []; apply kept_update].
  apply pres_forM; [exact _|]. intros [i x] _. apply kept_cm_one. apply HP.
Qed.
Lemma get_cm_upto ords skew (s s' : sc R) : (forall i a, a = setpoint_name skew \/ a = "PassMethod" \/ a = "Length" -> attr_at s' i a = attr_at s i a) -> length (RING s') = length (RING s) ->
  get_cm_setpoints ords skew s' = get_cm_setpoints ords skew s.
Proof.
  intros H HL. rewrite !get_cm_reading. induction ords as [|i ords IH]; [done|]. cbn [rmap]. rewrite IH. f_equal. unfold idx.
  destruct (RING s !! i) as [e|] eqn:E; destruct (RING s' !! i) as [e'|] eqn:E'; try done.
  - cbn [rbind]. assert (forall a, a = setpoint_name skew \/ a = "PassMethod" \/ a = "Length" -> e' !! a = e !! a) as Ha.
    { intros a Hin. specialize (H i a Hin). unfold attr_at in H. rewrite E, E' in H. done. }
    unfold Proofs_CM.reading, norm_by, attr_vec, attr_str, attr_num, attr. rewrite SP_name. rewrite (Ha (setpoint_name skew)), (Ha "PassMethod"), (Ha "Length") by auto. done.
  - apply lookup_ge_None in E'. apply lookup_lt_Some in E. lia.
  - apply lookup_ge_None in E. apply lookup_lt_Some in E'. lia.
Qed.
Section Measurement.
  Context (w : world R).
  Lemma step_upto n_dim md bi cm h v : pres (upto settable) (orbit_step w n_dim md bi cm h v).
  Proof.
    unfold orbit_step. apply pres_bind; [exact _|apply upto_set_cm|intros []]. apply pres_bind; [exact _|apply upto_set_cm|intros []].
    apply pres_bind; [exact _|intros s; apply upto_quiet, quiet_reading|intros r]. repeat pres_step.
  Qed.
  Lemma step_kept (P : nat -> string -> nat -> Prop) n_dim md bi cm h v : (forall i a, P i a 0%nat) -> pres (kept P) (orbit_step w n_dim md bi cm h v).
  Proof.
    intros HP. unfold orbit_step. apply pres_bind; [exact _|apply kept_set_cm; intros; apply HP|intros []]. apply pres_bind; [exact _|apply kept_set_cm; intros; apply HP|intros []].
    apply pres_bind; [exact _|intros s; apply kept_quiet, quiet_reading|intros r]. repeat pres_step.
  Qed.
  Definition measurement_step (vec : list (list R) * list (list R)) (p : bba_par R) n_dim bi cm (k : nat) : M (sc R) (option R * list (option R)) :=
    let! h := lift (idx vec.1 k) in let! v := lift (idx vec.2 k) in orbit_step w n_dim (if b_skew p then 1 - n_dim else n_dim)%nat bi cm h v.
  Lemma mstep_upto vec p n_dim bi cm k : pres (upto settable) (measurement_step vec p n_dim bi cm k).
  Proof. unfold measurement_step. repeat pres_step. apply step_upto. Qed.
  Lemma set_magnet_upto ords sps skew order method dc : pres (upto settable) (@set_magnet_setpoints R _ ords DFloat sps skew order method dc).
  Proof. intros s. eapply upto_frame; [apply pres_set_magnet|]. done. Qed.
End Measurement.

(** After the measurement (with quadrupoles, say: order at least one, and settings given absolutely or relative to the nominal strength) the magnet has
    been left at the last strength, and the correctors at the last step of the bump (finding); the injection is as before. *)
Theorem C74_finding_left_behind w p strengths q m_ord bi n_dim cm h v lh lv (s s' : sc R) data y :
  b_order p <> 0%nat -> b_method p = "abs" \/ b_method p = "rel" -> length h = length v ->
  magnet_request (b_method p) s m_ord (b_skew p) (b_order p) q = Some y ->
  NoDup cm.1 -> NoDup cm.2 -> length lh = length cm.1 -> length lv = length cm.2 ->
  data_measurement_orb w p (strengths ++ [q]) m_ord bi n_dim cm (h ++ [lh], v ++ [lv]) s = (Ok data, s') ->
  entry s' m_ord (setpoint_name (b_skew p)) (b_order p) = Some (limited s m_ord (b_skew p) (b_order p) y) /\
  get_cm_setpoints cm.1 false s' = Ok (zip_with (fun i x => clipped (cm_limit s i false) x) cm.1 lh) /\
  get_cm_setpoints cm.2 true s' = Ok (zip_with (fun i x => clipped (cm_limit s i true) x) cm.2 lv) /\
  Z0 (INJ s') = Z0 (INJ s) /\ upto settable s s'.
Proof.
  intros Ho Hm HL Hy N1 N2 L1 L2 H. unfold data_measurement_orb in H. apply bind_ok in H as (?&?&Hg&H). apply get_ok in Hg as [-> ->]. cbn [fst snd] in H.
  assert (length (if (n_dim =? 0)%nat then h ++ [lh] else v ++ [lv]) = S (length h)) as En by (destruct (n_dim =? 0)%nat; rewrite app_length; cbn; lia). rewrite En in H. clear En.
  apply bind_ok in H as (d&s1&H1&H). apply bind_ok in H as ([]&s2&H2&H). apply ret_ok in H as [_ ->]. cbv [mod_INJ modify] in H2. injection H2 as <-.
  change (mapM (strengths ++ [q]) (fun q => bind (set_magnet_setpoints [m_ord] DFloat [q] (b_skew p) (b_order p) (b_method p) (b_dipcomp p)) (fun _ =>
    mapM (seq 0 (S (length h))) (measurement_step w (h ++ [lh], v ++ [lv]) p n_dim bi cm))) s = (Ok d, s1)) in H1.
  apply mapM_snoc in H1 as (t&zs&y0&A&B).
  assert (upto settable s t) as U.
  { eapply (pres_run (upto settable)); [|exact A]. apply pres_mapM; [exact _|]. intros q' _. apply pres_bind; [exact _|apply set_magnet_upto|intros []]. apply pres_mapM; [exact _|]. intros k _. apply mstep_upto. }
  apply bind_ok in B as ([]&t1&B1&B2). pose proof (pres_run (upto settable) _ _ _ _ (set_magnet_upto _ _ _ _ _ _) B1) as U1.
  assert (forall a, ~ settable a -> attr_at t m_ord a = attr_at s m_ord a) as Ua by (intros a Ha; by apply U).
  assert (~ settable "NomPolynomA" /\ ~ settable "NomPolynomB" /\ ~ settable "SkewQuadLimit" /\ ~ settable "CMlimit" /\ ~ settable "PassMethod" /\ ~ settable "Length") as (NA&NB&NS&NC&NP&NL).
  { split_and!; intros [?|[?|Hd]]; try done; match goal with H : ?a ∈ DERIVED |- _ => by apply (not_der a eq_refl) in H end. }
  assert (entry t1 m_ord (setpoint_name (b_skew p)) (b_order p) = Some (limited s m_ord (b_skew p) (b_order p) y)) as E1.
  { destruct (C12_meaning_with_compensation _ _ _ _ _ _ _ _ m_ord q B1 eq_refl) as (y'&Hy'&He); [cbn; by rewrite decide_True|]. rewrite He. f_equal.
    assert (magnet_request (b_method p) t m_ord (b_skew p) (b_order p) q = magnet_request (b_method p) s m_ord (b_skew p) (b_order p) q) as Er.
    { unfold magnet_request. destruct Hm as [-> | ->]; [by rewrite !decide_True|]. rewrite !decide_False, !decide_True by done. unfold entry. destruct (b_skew p); cbn [nominal_name]; by rewrite Ua. }
    rewrite Er, Hy in Hy'. injection Hy' as <-. unfold limited, skew_limit. by rewrite Ua. }
  assert (kept (fun _ _ k => k = 0%nat) t1 s1) as K.
  { eapply (pres_run (kept _)); [|exact B2]. apply pres_mapM; [exact _|]. intros k _. unfold measurement_step. repeat pres_step. by apply step_kept. }
  rewrite seq_S, Nat.add_0_l in B2. apply mapM_snoc in B2 as (u&zs'&y1&C1&C2).
  assert (upto settable t1 u) as U2. { eapply (pres_run (upto settable)); [|exact C1]. apply pres_mapM; [exact _|]. intros k _. apply mstep_upto. }
  pose proof (pres_run (upto settable) _ _ _ _ (mstep_upto w _ _ _ _ _ _) C2) as U3.
  assert (upto settable s u) as Us by (etransitivity; [exact U|]; by etransitivity). assert (forall i, attr_at u i "CMlimit" = attr_at s i "CMlimit") as Ul by (intros i; by apply Us).
  unfold measurement_step in C2. apply bind_ok in C2 as (h'&?&D1&C2). apply lift_ok in D1 as [D1 ->]. apply idx_ok in D1. cbn [fst snd] in D1. rewrite lookup_app_r, Nat.sub_diag in D1 by lia. injection D1 as <-.
  apply bind_ok in C2 as (v'&?&D1&C2). apply lift_ok in D1 as [D1 ->]. apply idx_ok in D1. cbn [fst snd] in D1. rewrite HL, lookup_app_r, Nat.sub_diag in D1 by lia. injection D1 as <-.
  unfold orbit_step in C2. apply bind_ok in C2 as ([]&u1&F1&C2). apply bind_ok in C2 as ([]&u2&F2&C2). apply bind_ok in C2 as (r&u3&F3&C2). pose proof (quiet_run _ _ _ _ (quiet_reading w None false) F3) as Q.
  assert (s1 = u3) as ->.
  { apply bind_ok in C2 as (?&?&D1&C2). apply lift_ok in D1 as [_ ->]. cbv zeta in C2. apply bind_ok in C2 as (?&?&D1&C2). apply get_ok in D1 as [-> ->]. destruct (_ =? _)%nat; [by apply ret_ok in C2 as [_ ->]|].
    destruct (plane_row _ r) as [|? [|? ?]]; try discriminate. by apply ret_ok in C2 as [_ ->]. }
  pose proof (C08_readback _ _ _ _ _ N1 L1 F1) as R1. pose proof (C08_readback _ _ _ _ _ N2 L2 F2) as R2. apply quiet_same in Q as (QR&_&QI&_).
  pose proof (set_cm_frame cm.2 DFloat lv true ABS u1) as Fv. rewrite F2 in Fv. cbn [snd] in Fv. pose proof (pres_run (upto settable) _ _ _ _ (upto_set_cm _ _ _) F1) as U4.
  split; [|split; [|split; [|split]]].
  - change (entry u3 m_ord (setpoint_name (b_skew p)) (b_order p) = Some (limited s m_ord (b_skew p) (b_order p) y)). rewrite K; [done|done|]. apply field_not_derived. destruct (b_skew p); [by left|by right].
  - assert (get_cm_setpoints cm.1 false u2 = get_cm_setpoints cm.1 false u1) as E.
    { apply get_cm_upto; [|destruct Fv as (_&_&_&_&_&[? _]); done]. intros i a Ha. rewrite !attr_at_aget. apply (frame_aget _ _ _ _ _ Fv).
      intros [[-> _]|[Hd _]]; [destruct Ha as [?|[?|?]]; done|]. destruct Ha as [->|[->| ->]]; match goal with H : der ?a |- _ => by apply (not_der a eq_refl) in H end. }
    transitivity (get_cm_setpoints cm.1 false u2); [by rewrite !get_cm_reading; cbn [RING set_INJ]; rewrite QR|]. rewrite E, R1. f_equal.
    apply zip_with_ext; [|done|done]. intros i x. unfold cm_limit. by rewrite Ul.
  - transitivity (get_cm_setpoints cm.2 true u2); [by rewrite !get_cm_reading; cbn [RING set_INJ]; rewrite QR|]. rewrite R2. f_equal.
    apply zip_with_ext; [|done|done]. intros i x. unfold cm_limit. assert (attr_at u1 i "CMlimit" = attr_at u i "CMlimit") as -> by (by apply U4). by rewrite Ul.
  - done.
  - change (upto settable s u3). etransitivity; [exact Us|exact U3].
Qed.
Print Assumptions C74_finding_left_behind.

(** * Cases *)
(** A quadrupole (ordinate 0, registered), a corrector and an exact monitor, whose position is 25 times the kick. *)
From Coq Require Import QArith.
From Verif Require Import Properties_Bba3 Properties_Resp.
Local Open Scope Q_scope.
#[local] Instance TrigQ13 : Trig Q := {| ncos _ := 1; nsin _ := 0; nsqrt x := x; npi := 3 |}.
Definition orb_machine : sc Q := snd (register_magnets [0]%nat [] (MkType None None false None None) (resp_machine 1)).
Definition orb_par : bba_par Q := MkPar 2 1 1 false "rel" [] [] 1 (1, 1) false.
Example C74_case : let run := data_measurement_orb resp_world orb_par [1; 6#5] 0 0 0 ([1], [1])%nat ([[1#10]; [2]], [[0]; [1#5]]) orb_machine in
  fst run = Ok [[(Some (5#2), [Some (5#2)]); (Some 25, [Some 25])]; [(Some (5#2), [Some (5#2)]); (Some 25, [Some 25])]] /\
  entry (snd run) 0 "SetPointB" 1 = Some (18#5) /\ entry orb_machine 0 "SetPointB" 1 = Some 3 /\
  get_cm_setpoints [1]%nat false (snd run) = Ok [1] /\ get_cm_setpoints [1]%nat true (snd run) = Ok [1#5] /\ get_cm_setpoints [1]%nat false orb_machine = Ok [0].
Proof. vm_compute. done. Qed.
Example C74_case_never_returns :
  fst (orbit_bba resp_world [[2]]%nat [[0]]%nat orb_par (inl [1; 6#5]) (Some (MkRM ([1], [1])%nat [2]%nat)) false (Some false) orb_machine) = Err TypeError /\
  fst (orbit_bba resp_world [[2]]%nat [[0]]%nat orb_par (inl [1; 6#5]) None false (Some false) orb_machine) = Err AttributeError /\
  fst (orbit_bba resp_world [[2]]%nat [[0]]%nat orb_par (inl [1; 6#5]) (Some (MkRM ([1], [1])%nat [2]%nat)) true (Some false) orb_machine) = Err TypeError /\
  fst (orbit_bba resp_world [[2]; [2]]%nat [[0]]%nat orb_par (inl [1; 6#5]) None false (Some false) orb_machine) = Err ValueError.
Proof. vm_compute. done. Qed.
