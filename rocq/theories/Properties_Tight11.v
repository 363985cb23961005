(** More about injection, wiggling and the fit (C28, C44, C46, C60). *)
From Coq Require Import Reals Lra Lia QArith ZArith.
From stdpp Require Import base gmap strings list.
From Verif Require Import Num Base Model_Arr Model_SC Model_Err Model_Beam Model_Orbit Model_Loco Model_Aper Lemmas Proofs_Reg Proofs_Beam Proofs_Setpoint Properties_Random Properties_Errors Properties_Field Properties_Beam Properties_Orbit Properties_Thread Properties_Loco Spec Examples.
Local Open Scope string_scope.
Local Open Scope list_scope.
Local Open Scope R_scope.

(** * C28: uncertainties of the injection and the circumference are zero until they are set *)
Definition ideal_injection (s : sc R) : Prop :=
  sStatZ (SIG s) = replicate 6 0 /\ sRandZ (SIG s) = replicate 6 0 /\ sCirc (SIG s) = 0 /\
  Z0ideal (INJ s) = replicate 6 0 /\ Z0 (INJ s) = replicate 6 0 /\ randomInjectionZ (INJ s) = replicate 6 0 /\ beamSize (INJ s) = replicate 6 (replicate 6 0).
Definition keeps_ideal (s s' : sc R) : Prop := ideal_injection s -> ideal_injection s'.
#[local] Instance keeps_ideal_preorder : PreOrder keeps_ideal.
Proof. split; [by intros s H|]. intros a b c H1 H2 H. auto. Qed.
Definition beam_part (s : sc R) := (INJ s, sStatZ (SIG s), sRandZ (SIG s), sCirc (SIG s)).
Lemma ideal_same {A} (m : M (sc R) A) : pres (same beam_part) m -> pres keeps_ideal m.
Proof. intros H s Hs. specialize (H s). unfold same, beam_part in H. injection H as E1 E2 E3 E4. unfold ideal_injection in *. by rewrite E1, E2, E3, E4. Qed.
Lemma ideal_apply_injection nsig : pres keeps_ideal (apply_injection (T:=R) nsig).
Proof.
  intros s Hs. unfold apply_injection, bind at 1, get. unfold bind at 1. destruct (randnc nsig 6 s) as [[d|e] s1] eqn:E.
  - pose proof (same_randnc beam_part (fun _ _ => eq_refl) nsig 6 s) as P. rewrite E in P. unfold same, beam_part in P. cbn [snd] in P. injection P as E1 E2 E3 E4.
    destruct Hs as (A1&A2&A3&A4&A5&A6&A7). apply randnc_bound in E as [HL _].
    destruct d as [|d0 [|d1 [|d2 [|d3 [|d4 [|d5 [|]]]]]]]; try discriminate HL. rewrite A1, A4. cbn. unfold ideal_injection. cbn. rewrite E1, E2, E3, E4. split_and!; first [exact A1|exact A2|exact A3|exact A4|exact A5|exact A6|exact A7|idtac].
    assert (forall x, 0 + 0 * x = 0) as Z by (intros; ring). by rewrite !Z.
  - pose proof (same_randnc beam_part (fun _ _ => eq_refl) nsig 6 s) as P. rewrite E in P. cbn. unfold same, beam_part in P. cbn [snd] in P. injection P as E1 E2 E3 E4. unfold ideal_injection in *. by rewrite E1, E2, E3, E4.
Qed.
Ltac fin := try (intros; reflexivity).
Lemma ideal_apply_errors minv nsig : pres keeps_ideal (apply_errors minv nsig).
Proof.
  unfold apply_errors, apply_rf, apply_bpm, apply_magnet, apply_circumference, randnc1, update_magnets_all, update_cavities_all.
  repeat first [ pres_step | apply ideal_apply_injection | apply ideal_same; first [apply pres_on_elem_same; fin | apply same_randn_cutoff; fin | apply same_randnc; fin | apply same_scale_circumference; fin | apply same_support_alignment; fin
    | apply same_update_supports; fin | apply same_update_magnets; fin | apply same_update_cavities; fin ] ].
Qed.
Lemma ideal_trackMode mode : pres keeps_ideal (on_INJ (set_trackMode mode)).
Proof.
  intros s Hs. unfold on_INJ, set_trackMode. destruct (decide _); [|exact Hs]. by destruct (decide (mode = "ORB")).
Qed.
Lemma ideal_injection_call minv o : pres keeps_ideal (call minv o).
Proof.
  destruct o; unfold call.
  - apply ideal_same. unfold register_bpms, mod_ORD, mod_SIG, check_kwargs. repeat first [pres_step | apply pres_on_elem_same; fin | apply pres_modify; fin].
  - apply ideal_same. unfold register_cavities, mod_ORD, mod_SIG, check_kwargs. repeat first [pres_step | apply pres_on_elem_same; fin | apply pres_modify; fin].
  - apply ideal_same. unfold register_magnets, mod_ORD, mod_SIG, check_kwargs. repeat first [pres_step | apply pres_on_elem_same; fin | apply pres_modify; fin].
  - apply ideal_same. unfold register_supports, mod_ORD, mod_SIG, check_kwargs. repeat first [pres_step | apply pres_on_elem_same; fin | apply pres_modify; fin].
  - apply ideal_same, same_sys_multipole; fin.
  - apply ideal_same, same_rand_multipole; fin.
  - apply ideal_apply_errors.
  - apply ideal_same, same_set_cm; fin.
  - apply ideal_same, same_set_magnet; fin.
  - apply ideal_same, same_set_cavity; fin.
  - apply ideal_same, same_update_magnets; fin.
  - apply ideal_same, same_update_cavities; fin.
  - apply ideal_same, same_update_supports; fin.
  - apply ideal_trackMode.
Qed.
(** Whatever has been called, with whatever random numbers, a machine whose injection the user has not changed injects at the origin. *)
Theorem C28_unset_injection minv ops ring rng : ideal_injection (run minv ops (init_sc (T:=R) ring rng)).
Proof.
  induction ops as [|o ops IH] using rev_ind; [by split_and!|]. rewrite run_snoc. exact (ideal_injection_call minv o _ IH).
Qed.
Corollary C28_first_particle (w : world R) minv ops ring rng Z s' :
  generate_bunches w 1 (run minv ops (init_sc (T:=R) ring rng)) = (Ok Z, s') -> Z = w_post w (replicate 6 [0]).
Proof.
  pose proof (C28_unset_injection minv ops ring rng) as HI. set (s := run minv ops (init_sc ring rng)) in *. clearbody s. intros H. destruct HI as (_&_&_&_&A5&A6&_).
  unfold generate_bunches in H. apply bind_ok in H as (s0&s1&H0&H). apply get_ok in H0 as [-> ->]. apply bind_ok in H as (d&s2&Hd&H). apply randnc_bound in Hd as [HL _].
  destruct d as [|d0 [|d1 [|d2 [|d3 [|d4 [|d5 [|]]]]]]]; try discriminate HL. rewrite A5, A6 in H. cbn in H. apply ret_ok in H as [<- _]. f_equal.
  assert (forall x, 0 * x + 0 = 0) as E by (intros; ring). cbn. by rewrite !E.
Qed.
Print Assumptions C28_unset_injection.
Print Assumptions C28_first_particle.

(** * C44, C46: wiggling ends with a reading that goes far enough *)
Section Wiggling.
  Context (w : world R).
  (** the last thing that happened was a reading that saw beam at [n] places *)
  Definition just_read (bpms : list nat) (n : nat) (s : sc R) : Prop := exists s0 r, bpm_reading w (Some bpms) false s0 = (Ok r, s) /\ seen r = n.
  Definition noted (bpms : list nat) (l : log R) (s : sc R) : Prop := just_read bpms (last_trans l) s.
  Lemma note_reading bpms l s p s' : read_and_log w bpms l s = (Ok p, s') -> noted bpms p.2 s' /\ l_trans p.2 = l_trans l ++ [last_trans p.2].
  Proof.
    intros H. apply read_and_log_ok in H as [H E]. rewrite E. unfold noted, last_trans. cbn [l_trans]. rewrite last_snoc. cbn. split; [|done]. by exists s, p.1.
  Qed.
  Lemma repro_third l x y z : is_repro ((l ++ [x]) ++ [y] ++ [z]) 5 = true -> x = z.
  Proof.
    unfold is_repro. destruct (_ <? _)%nat eqn:E; [done|]. apply Nat.ltb_ge in E. rewrite (assoc_L app), last_snoc. intros H. rewrite forallb_forall in H.
    specialize (H x). apply Nat.eqb_eq, H. apply elem_of_list_In. rewrite !app_length in E. cbn in E. unfold lastn. rewrite <- !(assoc_L app), drop_app_le by (rewrite !app_length; cbn; lia).
    apply elem_of_app. right. constructor.
  Qed.
  Lemma points_end bpms h v limit pts : forall l s b l' s', noted bpms l s -> wiggle_points w bpms h v limit pts l s = (Ok (b, l'), s') ->
    noted bpms l' s' /\ (b = true -> (limit <= last_trans l')%nat).
  Proof.
    induction pts as [|p pts IH]; intros l s b l' s' Hn H; cbn [wiggle_points] in H.
    { apply ret_ok in H as [E <-]. injection E as <- <-. split; [done|discriminate]. }
    apply bind_ok in H as (?&s1&_&H). apply bind_ok in H as (?&s2&_&H). apply bind_ok in H as (rl&s3&R1&H). apply note_reading in R1 as [N1 T1].
    destruct (limit <=? last_trans rl.2)%nat eqn:El; [|by eapply IH]. apply Nat.leb_le in El.
    apply bind_ok in H as (rl1&s4&R2&H). apply note_reading in R2 as [N2 T2]. apply bind_ok in H as (rl2&s5&R3&H). apply note_reading in R3 as [N3 T3].
    destruct (is_repro (l_trans rl2.2) NREPRO) eqn:Er; [|by eapply IH]. apply ret_ok in H as [E <-]. injection E as <- <-. split; [done|]. intros _.
    rewrite T3, T2, T1, <- (assoc_L app) in Er. apply repro_third in Er. lia.
  Qed.
  Lemma nums_end bpms cms limit nums : forall l s b l' s', noted bpms l s -> wiggle_nums w bpms cms limit nums l s = (Ok (b, l'), s') ->
    noted bpms l' s' /\ (b = true -> (limit <= last_trans l')%nat).
  Proof.
    induction nums as [|n nums IH]; intros l s b l' s' Hn H; cbn [wiggle_nums] in H.
    { apply ret_ok in H as [E <-]. injection E as <- <-. split; [done|discriminate]. }
    apply bind_ok in H as (?&s1&H1&H). apply lift_ok in H1 as [_ ->]. apply bind_ok in H as (?&s1&H1&H). apply lift_ok in H1 as [_ ->]. apply bind_ok in H as ([b1 l1]&s1&H1&H).
    apply points_end in H1 as [N1 L1]; [|done]. cbn [fst snd] in H. destruct b1; [|by eapply IH]. apply ret_ok in H as [E <-]. injection E as <- <-. auto.
  Qed.
  Theorem C44_wiggling bpms cms limit (s s' : sc R) u : wiggling w bpms cms limit s = (Ok u, s') -> exists n, (limit <= n)%nat /\ just_read bpms n s'.
  Proof.
    intros H. unfold wiggling in H. apply bind_ok in H as (rl&s1&R1&H). apply note_reading in R1 as [N1 _]. apply bind_ok in H as ([b l]&s2&H2&H). apply nums_end in H2 as [N2 L2]; [|done]. cbn [fst snd] in H.
    exists (last_trans l). destruct b.
    - apply ret_ok in H as [_ <-]. auto.
    - destruct (limit <=? last_trans l)%nat eqn:E; [|discriminate]. apply Nat.leb_le in E. by apply ret_ok in H as [_ <-].
  Qed.
End Wiggling.
Print Assumptions C44_wiggling.

(** * C60: parameters and slices of the jacobian must match *)
Theorem C60_objective_refused p resid js (w : weights R) : length p <> length js -> length p <> 1%nat -> length js <> 1%nat -> objective (T:=R) p resid js w = Err ValueError.
Proof. intros H _ _. unfold objective. by rewrite (proj2 (Nat.eqb_neq _ _) H). Qed.
Print Assumptions C60_objective_refused.

(** * C63: asked to launch on the closed orbit, the dynamic aperture always fails, and how depends on the kind of orbit (finding) *)
Theorem C63_finding_launch_on_orbit (track : list (list R) -> nat -> res _) fuel turns dE b0 b1 thetas acc center use6 :
  dynamic_aperture track fuel turns dE b0 b1 thetas acc true center use6 = Err (if use6 then IndexError else ValueError).
Proof. unfold dynamic_aperture. destruct (sort2 b0 b1). by destruct use6. Qed.
Print Assumptions C63_finding_launch_on_orbit.

(** * Cases *)
Local Open Scope Q_scope.
#[local] Instance TrigQ26 : Trig Q := { ncos := fun _ => 1; nsin := fun _ => 0; nsqrt := fun x => x; npi := 0 }.
(** a registered quadrupole with an alignment uncertainty: the random numbers displace it, not the injected beam *)
Example C28_case_unset :
  let s := snd (register_magnets [1%nat] [("MagnetOffset", SPlain (VVec [1; 1; 1]))] (MkType None None false None None) (init_sc ex_ring (replicate 60 (1 # 2)))) in
  let a := apply_magnet 2 s in let b := apply_injection 2 (snd a) in
  fst a = Ok tt /\ fst b = Ok tt /\ attr_at (snd a) 1 "MagnetOffset" = Some (VVec [1 # 2; 1 # 2; 1 # 2]) /\
  Z0 (INJ (snd b)) = [0; 0; 0; 0; 0; 0] /\ randomInjectionZ (INJ (snd b)) = [0; 0; 0; 0; 0; 0].
Proof. vm_compute. done. Qed.
(** the second BPM sees the beam only with a kick: the first point of the spiral opens the way; with a way that stays closed it fails *)
Definition gate_world (open : Q -> bool) : world Q :=
  MkWorld (fun ring Z _ _ c p r t =>
      let kick := match (e ← ring !! 0%nat; e !! "KickAngle") with Some (VVec [a; b]) => a | _ => 0 end in
      if (r =? 0)%nat || open kick then q ← Z !! c; q !! p else None)
    (fun _ _ _ _ => None) (fun _ => ([], [])) (fun Z => Z).
Example C44_case_wiggling :
  fst (wiggling (gate_world (fun k => negb (Qeq_bool k 0))) [1; 3]%nat ([0], [0])%nat 2 (line_machine 0 0 1 (replicate 400 0))) = Ok tt /\
  fst (wiggling (gate_world (fun k => Qltb 5 k)) [1; 3]%nat ([0], [0])%nat 2 (line_machine 0 0 1 (replicate (60 * 100) 0))) = Err RuntimeError.
Proof. vm_compute. done. Qed.
