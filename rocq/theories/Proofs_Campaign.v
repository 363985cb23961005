(** Every procedure of the correction modules changes the machine only through a few basic operations; what these preserve, the
    procedures preserve. *)
From Coq Require Import Reals Lra Lia ZArith.
From stdpp Require Import base gmap strings list.
From Verif Require Import Num Base Model_Arr Model_SC Model_Err Model_Beam Model_Orbit Model_Scan Model_Bba Model_OrbBba Model_Lattice Model_Loco Model_Resp Model_Inject Model_Wrap Model_Matlab
  Lemmas Proofs_Update Proofs_Setpoint Proofs_Beam Proofs_CM2 Properties_Thread Properties_OrbBba.
Local Open Scope string_scope.
Local Open Scope list_scope.

Lemma elem_take {A} n (l : list A) x : x ∈ take n l -> x ∈ l.
Proof. intros H. rewrite <- (take_drop n l). apply elem_of_app. by left. Qed.
Lemma elem_concat {A} (ls : list (list A)) l x : x ∈ l -> l ∈ ls -> x ∈ concat ls.
Proof. intros H1 H2. apply elem_of_list_In, in_concat. exists l. split; by apply elem_of_list_In. Qed.
Lemma cell_in {A} (ls : list (list A)) i j x : cell_at ls i j = Ok x -> x ∈ concat ls.
Proof. unfold cell_at. intros H. apply rbind_ok in H as (row&Hr&Hi). apply idx_ok in Hr, Hi. eapply elem_concat; by eapply elem_of_list_lookup_2. Qed.
Lemma pres_fails {S A B} (Rel : S -> S -> Prop) (m : M S A) (k : A -> M S B) : (forall s, exists e s', m s = (Err e, s') /\ Rel s s') -> pres Rel (bind m k).
Proof. intros H s. destruct (H s) as (e&s'&E&HR). unfold bind. by rewrite E. Qed.
Section Generic.
  Context (w : world R) (Rel : sc R -> sc R -> Prop) `{PO : !PreOrder Rel} (o : indices).
  (** what may be used: correctors (dipole set-points), magnets (fields only), cavities, monitors (offset), monitors (calibration and roll),
      magnets with the order of the set-point, and whether the injection may be moved *)
  Context (P F C B D : nat -> Prop) (V : nat -> nat -> Prop) (mv : Prop).
  Hypothesis Hget : forall A (k : sc R -> M (sc R) A), (forall s, ORD s = o -> pres Rel (k s)) -> pres Rel (bind get k).
  Hypothesis Hq : forall s s', quiet s s' -> Rel s s'.
  Hypothesis Hcm : forall ords dt sps skew method, (forall i, i ∈ ords -> P i) -> pres Rel (@set_cm_setpoints R _ ords dt sps skew method).
  Hypothesis Hmag : forall ords dt sps skew order method dc, (forall i, i ∈ ords -> V order i) -> pres Rel (@set_magnet_setpoints R _ ords dt sps skew order method dc).
  Hypothesis Hup : forall ords, (forall i, i ∈ ords -> F i) -> pres Rel (@update_magnets R _ ords).
  Hypothesis Hcav : forall ords dt sps param method, (forall i, i ∈ ords -> C i) -> param = "Frequency" \/ param = "TimeLag" -> pres Rel (@set_cavity_setpoints R _ ords dt sps param method).
  Hypothesis Hoff : forall i d f, B i -> pres Rel (@change_offset R i d f).
  Hypothesis Hgain : forall i d y, D i -> pres Rel (on_elem i (add_gain (T:=R) d y)).
  Hypothesis Hroll : forall i x, D i -> pres Rel (on_elem i (lower_roll (T:=R) x)).
  Hypothesis Hz : mv -> forall z, pres Rel (@mod_INJ R (with_Z0 z)).
  Hypothesis Hn : mv -> forall n, pres Rel (@mod_INJ R (with_nTurns n)).
  Hypothesis Htm : mv -> forall m, pres Rel (@on_INJ R unit (set_trackMode m)).

  Lemma g_quiet {A} (m : M (sc R) A) : pres (@quiet R) m -> pres Rel m.
  Proof. intros H s. apply Hq, H. Qed.
  Lemma g_reading b e : pres Rel (bpm_reading w b e).
  Proof. apply g_quiet, quiet_reading. Qed.
  Lemma g_all : pres Rel (all_elements_reading w).
  Proof. apply g_quiet, quiet_all_elements. Qed.
  Lemma g_transmission a b : pres Rel (beam_transmission w a b).
  Proof. apply g_quiet, quiet_transmission. Qed.
  Lemma g_randnc1 cut : pres Rel (randnc1 (T:=R) cut).
  Proof. apply g_quiet. unfold randnc1. repeat first [pres_step|apply quiet_randnc]. Qed.

  Lemma pres_lift_bind {A A2} (m : res A) (k : A -> M (sc R) A2) : (forall x, m = Ok x -> pres Rel (k x)) -> pres Rel (bind (lift m) k).
  Proof. intros H s. unfold bind, lift. destruct m as [x|e] eqn:E; [by apply H|reflexivity]. Qed.

  Ltac gstep := first
    [ match goal with
      | |- pres _ (bind get _) => apply Hget; intros ? ?Ho
      | |- pres _ (bind (lift _) _) => apply pres_lift_bind; intros ? ?E
      end
    | pres_step | apply g_reading | apply g_all | apply g_transmission | apply g_randnc1
    | (apply Hcm; auto; fail) | (apply Hmag; auto; fail) | (apply Hcav; auto; fail) | (apply Hup; auto; fail) | (apply Hz; assumption) | (apply Hn; assumption) | (apply Htm; assumption) ].
  Ltac gtac := repeat gstep.

  (** * Threading and orbit *)
  Section Orbit.
    Context (pinv : list (list R) -> list (list R)).
    Lemma g_log bpms l : pres Rel (read_and_log w bpms l).
    Proof. unfold read_and_log. gtac. Qed.
    Lemma g_add ords d skew : (forall i, i ∈ ords -> P i) -> pres Rel (@add_kicks R _ ords d skew).
    Proof. intros H. unfold add_kicks. gtac. Qed.
    Definition pair_in (cms : list nat * list nat) : Prop := forall i, i ∈ cms.1 ++ cms.2 -> P i.
    Lemma pair_1 cms : pair_in cms -> forall i, i ∈ cms.1 -> P i.
    Proof. intros H i Hi. apply H, elem_of_app. by left. Qed.
    Lemma pair_2 cms : pair_in cms -> forall i, i ∈ cms.2 -> P i.
    Proof. intros H i Hi. apply H, elem_of_app. by right. Qed.
    Hint Resolve pair_1 pair_2 : core.
    Lemma g_points bpms h v limit pts : (forall i, i ∈ h -> P i) -> (forall i, i ∈ v -> P i) -> forall l, pres Rel (wiggle_points w bpms h v limit pts l).
    Proof.
      intros Hh Hv. induction pts as [|p pts IH]; intros l; [cbn; gtac|]. cbn [wiggle_points]. repeat first [apply g_log|apply IH|gstep].
    Qed.
    Lemma g_nums bpms cms limit nums : pair_in cms -> forall l, pres Rel (wiggle_nums w bpms cms limit nums l).
    Proof.
      intros HP. induction nums as [|n nums IH]; intros l; cbn [wiggle_nums]; [gtac|]. repeat first [apply IH|gstep].
      repeat match goal with x : (list nat * list Z)%type |- _ => destruct x end. apply g_points; intros i Hi;
        [apply (pair_1 _ HP)|apply (pair_2 _ HP)]; eapply get_last_cm_sub; eauto.
    Qed.
    Lemma g_wiggling bpms cms limit : pair_in cms -> pres Rel (wiggling w bpms cms limit).
    Proof. intros HP. unfold wiggling. repeat first [apply g_log|by apply g_nums|gstep]. Qed.
    Lemma g_check {A} m reference bpms cms (k : _ -> M (sc R) A) :
      (forall b r, pres Rel (k (b, default (oHCM o, oVCM o) cms, r))) -> pres Rel (bind (check_ords (T:=R) m reference bpms cms) k).
    Proof.
      intros H. match goal with |- pres _ (bind (check_ords ?m ?r ?b ?c) _) =>
        change (pres Rel (bind get (fun s => bind (let cms' := default (oHCM (ORD s), oVCM (ORD s)) c in
          let bpms' := default (oBPM (ORD s)) b in
          if negb (length m =? 2 * length bpms' * nTurns (INJ s))%nat then raise ValueError
          else if negb (Model_Orbit.columns m =? length cms'.1 + length cms'.2)%nat then raise ValueError
          else match r with
               | None => ret (bpms', cms', zeros (length m))
               | Some r => if negb (length r =? length m)%nat then raise ValueError else ret (bpms', cms', r)
               end) k))) end.
      apply Hget. intros s Ho. cbv zeta. rewrite Ho. intros t. unfold bind.
      repeat match goal with |- context [if ?b then _ else _] => destruct b; cbn [raise]; [reflexivity|] end.
      destruct reference as [r|]; [|apply H]. destruct (negb _); cbn [raise]; [reflexivity|apply H].
    Qed.
    Lemma g_first_loop steps mplus reference bpms cms : pair_in cms -> forall r l, pres Rel (first_turn_loop w steps mplus reference bpms cms r l).
    Proof.
      intros HP. induction steps as [|n IH]; intros r l; cbn [first_turn_loop]; [gtac|].
      repeat first [apply g_log|by apply g_wiggling|apply IH|(apply g_add; intros i Hi; apply elem_take in Hi; eauto; fail)|gstep].
    Qed.
    Lemma g_first_turn m reference cms bpms maxsteps : pair_in (default (oHCM o, oVCM o) cms) -> pres Rel (first_turn w pinv m reference cms bpms maxsteps).
    Proof. intros HP. unfold first_turn. apply g_check. intros b r. repeat first [apply g_log|by apply g_first_loop|gstep]. Qed.
    Lemma g_stitch_loop steps mplus reference bpms cms n : pair_in cms -> forall r l, pres Rel (stitch_loop w steps mplus reference bpms cms n r l).
    Proof.
      intros HP. induction steps as [|k IH]; intros r l; cbn [stitch_loop]; [gtac|]. repeat first [apply g_log|apply IH|apply g_add; eauto; fail|gstep].
    Qed.
    Lemma g_stitch m reference cms bpms n maxsteps : pair_in (default (oHCM o, oVCM o) cms) -> pres Rel (stitch w pinv m reference cms bpms n maxsteps).
    Proof.
      intros HP. unfold stitch. gstep. gstep; [gstep|]. apply g_check. intros b r. repeat first [apply g_log|by apply g_wiggling|by apply g_stitch_loop|gstep].
    Qed.
    Lemma g_balance_loop steps mplus reference bpms cms eps : pair_in cms -> forall r l, pres Rel (balance_loop w steps mplus reference bpms cms eps r l).
    Proof.
      intros HP. induction steps as [|k IH]; intros r l; cbn [balance_loop]; [gtac|]. repeat first [apply g_log|apply IH|apply g_add; eauto; fail|gstep].
    Qed.
    Lemma g_balance m reference cms bpms eps maxsteps : pair_in (default (oHCM o, oVCM o) cms) -> pres Rel (balance w pinv m reference cms bpms eps maxsteps).
    Proof.
      intros HP. unfold balance. gstep. gstep; [gstep|]. apply g_check. intros b r. repeat first [apply g_log|by apply g_balance_loop|gstep].
    Qed.
    Lemma g_correct_loop steps maxsteps mplus reference bpms cms eps target (scale : R) : pair_in cms -> (scale <> 0%R -> forall i, i ∈ oRF o -> C i) ->
      forall r l, pres Rel (correct_loop w steps maxsteps mplus reference bpms cms eps target scale r l).
    Proof.
      intros HP HC. induction steps as [|k IH]; intros r l; cbn [correct_loop]; [gtac|].
      apply pres_lift_bind; intros meas _. apply pres_lift_bind; intros dphi _. apply pres_bind; [exact _| |intros d'].
      - destruct (neqb scale n0) eqn:En; [gtac|]. apply Reqb_false in En. gstep. gstep. gstep; [|gtac]. apply Hcav; [|auto]. rewrite Ho. auto.
      - repeat first [apply g_log|apply IH|apply g_add; eauto; fail|gstep].
    Qed.
    Lemma g_correct m reference cms bpms eps target maxsteps (scale : R) : pair_in (default (oHCM o, oVCM o) cms) -> (scale <> 0%R -> forall i, i ∈ oRF o -> C i) ->
      pres Rel (correct w pinv m reference cms bpms eps target maxsteps scale).
    Proof. intros HP HC. unfold correct. apply g_check. intros b r. repeat first [apply g_log|by apply g_correct_loop|gstep]. Qed.
  End Orbit.

  (** * RF *)
  Section Rf.
    Context (line : list R -> list R -> list R -> res (option R * option R)) (sine_fit : list (R * R * option R) -> res (sine R)) (line_fit : list (R * R * option R) -> res (straight R))
            (root : (R -> R) -> R -> res (option R)).
    Lemma g_shift bpms : pres Rel (energy_shift w line bpms).
    Proof. unfold energy_shift. gtac. Qed.
    Lemma g_rf_scan cavs bpms param tests : (forall i, i ∈ cavs -> C i) -> param = "Frequency" \/ param = "TimeLag" -> pres Rel (rf_scan w line cavs bpms param tests).
    Proof. intros H HP. unfold rf_scan. repeat first [apply g_shift|gstep]. Qed.
    Lemma rf_inputs (cavs bpms : option (list nat)) n (s : sc R) c b : rf_check_inputs cavs bpms n s = Ok (c, b) -> ORD s = o -> c = default (oRF o) cavs.
    Proof.
      unfold rf_check_inputs. intros H <-. repeat match goal with
        | H : (if ?x then _ else _) = Ok _ |- _ => destruct x; try discriminate H
        | H : rbind _ _ = Ok _ |- _ => apply rbind_ok in H as (?&_&H)
        | H : (let _ := _ in _) = Ok _ |- _ => cbv zeta in H
        end. all: congruence.
    Qed.
    Lemma g_rf_phase cavs bpms n : (forall i, i ∈ default (oRF o) cavs -> C i) -> pres Rel (correct_rf_phase w line sine_fit root cavs bpms n).
    Proof.
      intros H. unfold correct_rf_phase. gstep. gstep. destruct x as [c b]. apply rf_inputs in E; [|done]. subst c. repeat first [apply g_rf_scan; auto; fail|gstep].
    Qed.
    Lemma g_rf_frequency cavs bpms n f0 f1 : (forall i, i ∈ default (oRF o) cavs -> C i) -> pres Rel (correct_rf_frequency w line line_fit cavs bpms n f0 f1).
    Proof.
      intros H. unfold correct_rf_frequency. gstep. gstep. destruct x as [c b]. apply rf_inputs in E; [|done]. subst c. repeat first [apply g_rf_scan; auto; fail|gstep].
    Qed.
    Lemma g_synch_phase cavs n nt : mv -> (forall i, i ∈ default (oRF o) cavs -> C i) -> pres Rel (SCsynchPhaseCorrection w line sine_fit root cavs n nt).
    Proof. intros Hm H. unfold SCsynchPhaseCorrection. repeat first [by apply g_rf_phase|gstep]. Qed.
    Lemma g_synch_energy cavs f0 f1 n nt mt : mv -> pres Rel (SCsynchEnergyCorrection cavs f0 f1 n nt mt).
    Proof. intros Hm. unfold SCsynchEnergyCorrection, unexpected_keyword. gtac. Qed.
  End Rf.

  (** * Tune and chromaticity *)
  Lemma g_quads q1 q2 sps : (forall i, i ∈ q1 ++ q2 -> V 1%nat i) -> pres Rel (set_quads (T:=R) q1 q2 sps).
  Proof. intros H. unfold set_quads. gtac. Qed.
  Lemma g_tune_loop q1 q2 rel1 rel2 target np nt full inds : (forall i, i ∈ q1 ++ q2 -> V 1%nat i) -> forall g, pres Rel (tune_loop (T:=R) w q1 q2 rel1 rel2 target np nt full inds g).
  Proof.
    intros H. induction inds as [|[a b] inds IH]; intros g; cbn [tune_loop]; [gtac|]. repeat first [apply IH|by apply g_quads|gstep].
  Qed.
  Lemma g_tune_scan q1 q2 rel1 rel2 target np nt full n : (forall i, i ∈ q1 ++ q2 -> V 1%nat i) -> pres Rel (tune_scan (T:=R) w q1 q2 rel1 rel2 target np nt full n).
  Proof. intros H. unfold tune_scan. repeat first [by apply g_tune_loop|by apply g_quads|gstep]. Qed.
  Lemma g_fit_tune optics q target : pres Rel (fit_tune (T:=R) optics q target).
  Proof. unfold fit_tune. gtac. Qed.
  Section Chroma.
    Context (chrom : list (elem R) -> list (option R)) (strategy : list (list R * option R) -> option (list R)).
    Lemma g_fmin fuel f : (forall x, pres Rel (f x)) -> forall evals, pres Rel (fmin (T:=R) strategy fuel f evals).
    Proof. intros H. induction fuel as [|n IH]; intros evals; cbn [fmin]; repeat first [apply IH|apply H|gstep]. Qed.
    Lemma g_fit_chroma fuel s_ords target : (forall i, i ∈ concat s_ords -> V 2%nat i) -> pres Rel (fit_chroma (T:=R) chrom strategy fuel s_ords target).
    Proof.
      intros H. unfold fit_chroma. repeat first [apply g_fmin; intros ?|gstep]. unfold fit_chroma_fun. repeat gstep. apply Hmag.
      match goal with Hin : ?p ∈ zip _ (zip s_ords _) |- _ => destruct p as [k [fam ini]]; apply elem_of_zip_r, elem_of_zip_l in Hin; intros i Hi; apply H; eapply elem_concat; eauto end.
    Qed.
  End Chroma.

  (** * Beam-based alignment *)
  Lemma g_apply_offsets bpm_ords offs errs : (forall i, i ∈ concat bpm_ords -> B i) -> pres Rel (apply_bpm_offsets (T:=R) bpm_ords offs errs).
  Proof.
    intros H. unfold apply_bpm_offsets. repeat gstep. apply Hoff. apply H. eapply cell_in; eassumption.
  Qed.
  Lemma g_fake bpm_ords mag_ords errors fake : (forall i, i ∈ concat bpm_ords -> B i) -> pres Rel (fake_bba (T:=R) bpm_ords mag_ords errors fake).
  Proof.
    intros H. unfold fake_bba. repeat gstep. all: apply Hoff; apply H; eapply cell_in; eassumption.
  Qed.
  Lemma g_trial n z a b : mv -> pres Rel (injection_trial w n z a b).
  Proof. intros Hm. unfold injection_trial. gtac. Qed.
  Lemma g_scale_loop k n l mx z nt : mv -> forall sc, pres Rel (scale_loop w k n l mx z nt sc).
  Proof. intros Hm. induction k as [|k IH]; intros sc; cbn [scale_loop]; repeat first [apply IH|by apply g_trial|gstep]. Qed.
  Lemma g_scale_injection n l mx : mv -> pres Rel (scale_injection w n l mx).
  Proof. intros Hm. unfold scale_injection. repeat first [by apply g_scale_loop|gstep]. Qed.
  Lemma g_phase_scan n l mx q sps : mv -> (forall i, i ∈ q -> V 1%nat i) -> pres Rel (phase_scan w n l mx q sps).
  Proof. intros Hm H. unfold phase_scan. repeat first [by apply g_scale_injection|gstep]. Qed.
  Lemma g_measure_step p n b z sc k : mv -> pres Rel (measure_step w p n b z sc k).
  Proof. intros Hm. unfold measure_step. gtac. Qed.
  Lemma g_measure_tbt p str m b n sc : mv -> V (b_order p) m -> pres Rel (data_measurement_tbt w p str m b n sc).
  Proof.
    intros Hm HV. assert (forall i, i ∈ [m] -> V (b_order p) i) as H by (intros i ->%elem_of_list_singleton; done).
    unfold data_measurement_tbt. repeat first [by apply g_measure_step|gstep].
  Qed.
  Section Bba.
    Context (polyfit : list R -> list R -> nat -> list R -> res (list R * list (list R))) (quantile : R -> R).
    Lemma g_bba_one p q0 scan n b m mags : mv -> V (b_order p) m -> (forall i, i ∈ b_q_ords p -> V 1%nat i) -> pres Rel (bba_one polyfit quantile w p q0 scan n b m mags).
    Proof. intros Hm HP H. unfold bba_one. repeat first [by apply g_measure_tbt|gstep]. Qed.
    Lemma g_bba_plane p q0 n bpms mags str : mv -> (forall i, i ∈ mags -> V (b_order p) i) -> (forall i, i ∈ b_q_ords p -> V 1%nat i) -> pres Rel (bba_plane polyfit quantile w p q0 n bpms mags str).
    Proof.
      intros Hm HP H. unfold bba_plane. repeat first [by apply g_phase_scan|gstep]. apply g_bba_one; auto. apply HP.
      match goal with Hc : idx mags _ = Ok _ |- _ => apply idx_ok in Hc; by eapply elem_of_list_lookup_2 end.
    Qed.
    Lemma g_trajectory_bba bpm_ords mag_ords p str : mv -> (forall i, i ∈ concat mag_ords -> V (b_order p) i) -> (forall i, i ∈ b_q_ords p -> V 1%nat i) -> (forall i, i ∈ concat bpm_ords -> B i) ->
      pres Rel (trajectory_bba polyfit quantile w bpm_ords mag_ords p str).
    Proof.
      intros Hm HP H HB. unfold trajectory_bba. repeat first [by apply g_apply_offsets|gstep]. apply g_bba_plane; auto. intros i Hi. apply HP.
      match goal with Hc : idx mag_ords _ = Ok _ |- _ => apply idx_ok, elem_of_list_lookup_2 in Hc end. by eapply elem_concat.
    Qed.
    Lemma g_orbit_bba bpm_ords mag_ords p str rm u plot : (forall i, i ∈ concat bpm_ords -> B i) -> pres Rel (orbit_bba w bpm_ords mag_ords p str rm u plot).
    Proof.
      intros HB. unfold orbit_bba. repeat first [by apply g_apply_offsets|match goal with |- pres _ (bind (orbit_bump _ _ _ ?bb ?nn) _) => apply pres_fails; intros t;
        destruct (bump_fails w rm u bb nn t) as (e&s'&Hb&Hqt); exists e, s'; split; [exact Hb|by apply Hq] end|gstep].
    Qed.
  End Bba.

  (** * Optics fit *)
  Lemma g_measure_column bpms dk orb skew cm : P cm -> pres Rel (measure_column w bpms dk orb skew cm).
  Proof. intros HP. assert (forall i, i ∈ [cm] -> P i) as H by (intros i ->%elem_of_list_singleton; done). unfold measure_column. gtac. Qed.
  Lemma g_measure_response bpms hcm vcm dk : mv -> (forall i, i ∈ hcm ++ vcm -> P i) -> pres Rel (measure_response w bpms hcm vcm dk).
  Proof.
    intros Hm H. unfold measure_response. repeat first [apply g_measure_column; apply H; apply elem_of_app; auto; fail|gstep].
  Qed.
  Lemma g_set_correction r elems skew order method dc : (forall i, i ∈ match elems with inl l => l | inr ls => concat ls end -> V order i) ->
    pres Rel (set_correction (T:=R) r elems skew order method dc).
  Proof.
    intros H. unfold set_correction. destruct elems as [l|ls]; [gtac|]. repeat gstep. apply Hmag.
    match goal with Hin : ?p ∈ zip _ ls |- _ => destruct p as [k fam]; apply elem_of_zip_r in Hin; intros i Hi; apply H; eapply elem_concat; eauto end.
  Qed.
  Lemma g_apply_member p dc damping k m : V 1%nat m.1 -> pres Rel (apply_member (T:=R) p dc damping k m).
  Proof. intros HP. assert (forall i, i ∈ [m.1] -> V 1%nat i) as H by (intros i ->%elem_of_list_singleton; done). unfold apply_member. gtac. Qed.
  Lemma g_lattice_correction p dc damping : (forall i, i ∈ map fst (concat (f_groups p)) -> V 1%nat i) -> (forall i, i ∈ oMagnet o -> F i) -> pres Rel (apply_lattice_correction (T:=R) p dc damping).
  Proof.
    intros HP HF. unfold apply_lattice_correction, update_magnets_all. repeat gstep.
    - apply g_apply_member. apply HP. match goal with Hin : ?g ∈ zip _ (f_groups p), Hm : ?m ∈ ?g.2 |- _ => destruct g as [k grp]; apply elem_of_zip_r in Hin; apply elem_of_list_fmap; exists m; split; [done|]; eapply elem_concat; eauto end.
    - apply Hup. rewrite Ho. done.
  Qed.

  Lemma g_fit_gains out tz b d : (forall i, i ∈ b_index b -> D i) -> pres Rel (fit_gains (T:=R) out tz b d).
  Proof.
    intros H. unfold fit_gains. repeat gstep. apply Hgain. apply H.
    match goal with Hr : rmap (idx (b_index b)) _ = Ok ?l, Hin : ?p ∈ zip (seq 0 (length ?l)) ?l |- _ => apply rmap_ok in Hr; destruct p as [k i]; apply elem_of_zip_r in Hin; cbn [snd];
      apply elem_of_list_lookup in Hin as [q Hq']; destruct (Forall2_lookup_r _ _ _ _ _ Hr Hq') as (y&_&Hy); apply idx_ok in Hy; by eapply elem_of_list_lookup_2 end.
  Qed.
  Lemma g_fit_kicks l : pres Rel (fit_kicks (T:=R) l).
  Proof. unfold fit_kicks. gtac. Qed.
  Lemma g_fit_coupling b : (forall i, i ∈ b_index b -> D i) -> pres Rel (fit_coupling (T:=R) b).
  Proof.
    intros H. unfold fit_coupling. repeat gstep. apply Hroll. apply H. match goal with Hin : ?p ∈ zip _ (b_index b) |- _ => destruct p; by apply elem_of_zip_r in Hin end.
  Qed.
  Lemma g_diagnostic step c b tz out : (forall i, i ∈ b_index b -> D i) -> pres Rel (apply_diagnostic_correction (T:=R) step c b tz out).
  Proof. intros H. unfold apply_diagnostic_correction. repeat first [apply g_fit_kicks|by apply g_fit_gains|by apply g_fit_coupling|gstep]. Qed.

  (** * Measured response *)
  Lemma g_ravel bpms : pres Rel (ravel_reading w bpms).
  Proof. unfold ravel_reading. gtac. Qed.
  Lemma g_cm_setpoint cm skew : pres Rel (cm_setpoint (T:=R) cm skew).
  Proof. unfold cm_setpoint. gtac. Qed.
  Section Response.
    Context (cm : nat) (HP : P cm).
    Lemma g_one : forall i, i ∈ [cm] -> P i. Proof. intros i ->%elem_of_list_singleton. done. Qed.
    Hint Resolve g_one : core.
    Lemma g_try bpms start step skew : pres Rel (try_setpoint w bpms cm start step skew).
    Proof. unfold try_setpoint. repeat first [apply g_ravel|apply g_cm_setpoint|gstep]. Qed.
    Lemma g_kick_loop n bref bpms start amp skew mode : forall step, pres Rel (kick_loop w n bref bpms cm start amp step skew mode).
    Proof. induction n as [|n IH]; intros step; cbn [kick_loop]; repeat first [apply g_try|apply IH|gstep]. Qed.
    Lemma g_kick_amplitude bref bpms amp skew mode : pres Rel (kick_amplitude w bref bpms cm amp skew mode).
    Proof. unfold kick_amplitude. repeat first [apply g_ravel|apply g_cm_setpoint|apply g_kick_loop|gstep]. Qed.
    Lemma g_scan_step bref bpms start skew mx step : pres Rel (scan_step w bref bpms cm start skew mx step).
    Proof. unfold scan_step. repeat first [apply g_ravel|apply g_cm_setpoint|gstep]. Qed.
    Lemma g_column bref bpms mode n start skew amp : pres Rel (response_column w bref bpms mode n start skew cm amp).
    Proof. unfold response_column. repeat first [apply g_kick_amplitude|apply g_scan_step|gstep]. Qed.
  End Response.
  Lemma g_plane bref bpms mode n skew cms amps : (forall i, i ∈ cms -> P i) -> pres Rel (response_plane w bref bpms mode n skew cms amps).
  Proof.
    intros H. unfold response_plane. repeat gstep. apply g_column. apply H. match goal with Hin : ?p ∈ zip cms _ |- _ => destruct p; by apply elem_of_zip_l in Hin end.
  Qed.
  Lemma g_response_matrix amp bpms hcm vcm mode n : (forall i, i ∈ hcm ++ vcm -> P i) -> pres Rel (response_matrix w amp bpms hcm vcm mode n).
  Proof.
    intros H. unfold response_matrix. repeat first [apply g_ravel|(apply g_plane; intros i Hi; apply H; apply elem_of_app; auto; fail)|gstep].
  Qed.
  Lemma g_dispersion_scan rf bpms cavs n bref : (forall i, i ∈ cavs -> C i) -> pres Rel (dispersion_scan w rf bpms cavs n bref).
  Proof. intros H. unfold dispersion_scan. repeat first [apply g_ravel|gstep]. Qed.
  Lemma g_dispersion rf bpms cavs n : (forall i, i ∈ default (oRF o) cavs -> C i) -> pres Rel (dispersion w rf bpms cavs n).
  Proof.
    intros H. unfold dispersion. gstep. cbv zeta. rewrite !Ho. repeat first [apply g_ravel|by apply g_dispersion_scan|gstep].
  Qed.
  Lemma g_loco_measurement amp rf bpms hcm vcm kwargs : (forall i, i ∈ hcm ++ vcm -> P i) -> (forall i, i ∈ oRF o -> C i) -> pres Rel (loco_measurement w amp rf bpms hcm vcm kwargs).
  Proof.
    intros H HC. unfold loco_measurement. repeat first [by apply g_response_matrix|by apply g_dispersion|gstep].
  Qed.

  (** * Injection *)
  Lemma g_drift polyfit1 : pres Rel (fit_injection_drift (T:=R) w polyfit1).
  Proof. unfold fit_injection_drift. gtac. Qed.
  Lemma g_trajectory fm inds plot : mv -> pres Rel (fit_injection_trajectory (T:=R) w fm inds plot).
  Proof. intros Hm. unfold fit_injection_trajectory. gtac. Qed.
End Generic.
