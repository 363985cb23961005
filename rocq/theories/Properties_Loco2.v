(** C61: the measured closed-orbit response matrix.  C69: applying the result of the optics fit. *)
From Coq Require Import Reals Lra Lia ZArith.
From stdpp Require Import base gmap strings list.
From Verif Require Import Num Base Model_Arr Model_SC Model_Err Lemmas Spec Proofs_Update Proofs_Setpoint Proofs_CM Proofs_Loop Properties_Setpoint Properties_Setpoint2 Properties_Setpoint3
  Model_Beam Proofs_Beam Model_Orbit Model_Lattice Model_Loco Proofs_Back.
Local Open Scope string_scope.
Local Open Scope list_scope.
Local Open Scope R_scope.
Notation breading := (Model_Beam.reading).

(** * Specification *)
(** injection settings in closed-orbit mode *)
Definition orbit_injection (i : inj R) : inj R := MkInj (beamLostAt i) (Z0ideal i) (Z0 i) (beamSize i) (randomInjectionZ i) 1 1 (nShots i) "ORB".
(** what a column holds: the quotient where both readings exist *)
Definition quotient (dk : R) (x1 x0 : option R) : option R := match x1, x0 with Some a, Some b => Some ((a - b) / dk) | _, _ => None end.

(** * Loop *)
Lemma mapM_both {S A B} (I : S -> Prop) (P : A -> B -> Prop) (f : A -> M S B) l s ys s' :
  (forall x a y b, x ∈ l -> I a -> f x a = (Ok y, b) -> I b /\ P x y) -> I s -> mapM l f s = (Ok ys, s') -> I s' /\ Forall2 P l ys.
Proof.
  revert s ys. induction l as [|x l IH]; intros s ys Hf Hs H; cbn [mapM] in H.
  - apply ret_ok in H as [<- ->]. split; [done|constructor].
  - apply bind_ok in H as (y&s1&H1&H). apply bind_ok in H as (ys'&s2&H2&H). apply ret_ok in H as [<- ->].
    destruct (Hf x s y s1 ltac:(left) Hs H1) as [I1 P1]. destruct (IH s1 ys') as [I2 P2]; [|done|done|split; [done|by constructor]].
    intros z a y' b Hz. apply Hf. by right.
Qed.
Lemma quiet_relabel (o : inj R) g s t : quiet (relabel o g s) t -> t = relabel o (RNG t) s.
Proof. unfold quiet. intros H. rewrite H. done. Qed.
Lemma relabel_relabel (o o' : inj R) g g' s : relabel o g (relabel o' g' s) = relabel o g s. Proof. done. Qed.

(** one column, taken on the machine [s] (in closed-orbit mode [o], with random numbers [g]) *)
Lemma column_ok w bpms dkick (orbit0 : list (option R)) skew cm (o : inj R) g (s : sc R) col t' :
  measure_column w bpms dkick orbit0 skew cm (relabel o g s) = (Ok col, t') ->
  exists s1 g' r1 s2, set_cm_setpoints [cm] DFloat [dkick] skew ADD s = (Ok tt, s1) /\
    bpm_reading w (Some bpms) false (relabel o g s1) = (Ok r1, relabel o g' s1) /\
    set_cm_setpoints [cm] DFloat [- dkick] skew ADD s1 = (Ok tt, s2) /\ t' = relabel o g' s2 /\
    dkick <> 0 /\ col = zip_with (odiff dkick) (r_x r1 ++ r_y r1) orbit0 /\ length col = (2 * length bpms)%nat.
Proof.
  intros H. unfold measure_column in H. apply bind_ok in H as ([]&t1&H1&H). apply blind_run in H1 as [H1 ->]; [|apply blind_set_cm]. set (s1 := snd (set_cm_setpoints [cm] DFloat [dkick] skew ADD s)) in *.
  apply bind_ok in H as (r1&t2&H2&H). pose proof (pres_run quiet _ _ _ _ (quiet_reading w (Some bpms) false) H2) as Q. apply quiet_relabel in Q. remember (RNG t2) as g' eqn:Eg. clear Eg. subst t2.
  apply bind_ok in H as ([]&t3&H3&H). apply blind_run in H3 as [H3 ->]; [|apply blind_set_cm]. set (s2 := snd (set_cm_setpoints [cm] DFloat [nopp dkick] skew ADD s1)) in *.
  change (neqb dkick n0) with (Reqb dkick 0) in H. destruct (Reqb dkick 0) eqn:Ed; [discriminate|]. apply Reqb_false in Ed. destruct (_ =? _)%nat eqn:EL; [|discriminate]. apply Nat.eqb_eq in EL.
  apply ret_ok in H as [<- ->]. exists s1, g', r1, s2. done.
Qed.

(** * C61 *)
(** After a measurement all attributes that are not computed by update_magnets have their old values - the set-points among them -
    if the limits admit the kick; the injection is left in closed-orbit mode with one turn and one particle (finding). *)
Theorem C61_restored w bpms hcm vcm dkick (s : sc R) cols s' :
  (forall skew cm v, cm ∈ (if skew : bool then vcm else hcm) -> get_cm_setpoints [cm] skew s = Ok [v] -> allows (cm_limit s cm skew) v /\ allows (cm_limit s cm skew) (v + dkick)) ->
  measure_response w bpms hcm vcm dkick s = (Ok cols, s') ->
  INJ s' = orbit_injection (INJ s) /\ IDEALRING s' = IDEALRING s /\ SIG s' = SIG s /\ ORD s' = ORD s /\ length (RING s') = length (RING s) /\
  (forall i a, a ∉ DERIVED -> attr_at s' i a = attr_at s i a) /\ length cols = (length hcm + length vcm)%nat.
Proof.
  intros Hlim H. unfold measure_response in H. apply bind_ok in H as ([]&t0&H0&H). unfold on_INJ in H0. cbn in H0. injection H0 as <-.
  apply bind_ok in H as (r0&t1&H1&H). pose proof (pres_run quiet _ _ _ _ (quiet_reading w (Some bpms) false) H1) as Q.
  apply bind_ok in H as (h&t2&H2&H). apply bind_ok in H as (v&t3&H3&H). apply ret_ok in H as [<- ->].
  set (o := orbit_injection (INJ s)). set (I := fun t : sc R => exists r, ragD (RING s) r /\ t = relabel o (RNG t) (set_RING r s)).
  assert (forall skew cm a y b, cm ∈ (if skew : bool then vcm else hcm) -> I a -> measure_column w bpms dkick (flat_reading r0) skew cm a = (Ok y, b) -> I b) as Hstep.
  { intros skew cm a y b Hcm (r&Hr&Ha) Hm. rewrite Ha in Hm. apply column_ok in Hm as (s1&g'&r1&s2&A1&A2&A3&->&_).
    assert (forall i x, bool_decide (x ∈ DERIVED) = false -> attr_at (set_RING r s) i x = attr_at s i x) as Hattr.
    { intros i x Hx. rewrite !attr_at_aget. by apply (ragD_aget (RING s) r). }
    pose proof (cm_add_restores DFloat [cm] [dkick] skew (set_RING r s) s1 s2 eq_refl ltac:(apply NoDup_singleton) eq_refl) as Hb.
    assert (update_magnets [cm] (set_RING r s) = (Ok tt, s2)) as Hu.
    { apply Hb; [|exact A1|exact A3]. intros i d v0 Hin Hv0. cbn in Hin. apply elem_of_list_singleton in Hin. injection Hin as -> ->.
      assert (cm_limit (set_RING r s) cm skew = cm_limit s cm skew) as -> by (unfold cm_limit; by rewrite Hattr). apply Hlim; [done|].
      apply get_cm_one in Hv0 as (e&He&Hre). destruct Hr as [HL Hag]. cbn [RING set_RING] in He. destruct (RING s !! cm) as [e0|] eqn:E0; [|apply lookup_ge_None in E0; apply lookup_lt_Some in He; lia].
      apply get_cm_one. exists e0. split; [done|]. rewrite <- Hre. specialize (Hag _ _ _ E0 He). unfold Proofs_CM.reading, norm_by, attr_vec, attr_str, attr_num, attr.
      by rewrite (Hag (SP skew) (SP_not_der skew)), (Hag "PassMethod" (not_der "PassMethod" eq_refl)), (Hag "Length" (not_der "Length" eq_refl)). }
    apply update_magnets_ok in Hu as (_&ws&Hws&->). cbn [RING set_RING] in *. exists (foldl rwr r ws). split; [|done].
    apply all_writes_ragD in Hws. destruct Hr as [L1 G1], Hws as [L2 G2]. split; [lia|]. intros i e e' He He' x Hx. destruct (r !! i) as [e1|] eqn:E1; [|apply lookup_ge_None in E1; apply lookup_lt_Some in He; lia].
    rewrite (G2 _ _ _ E1 He' x Hx). by apply (G1 i). }
  assert (I t1) as I1.
  { exists (RING s). split; [split; [done|intros i e e' He He' x _; congruence]|]. unfold quiet in Q. rewrite Q. destruct s. done. }
  apply (mapM_both I (fun _ _ => True)) in H2 as [I2 F2]; [|intros x a y b Hx Ha Hm; split; [by eapply (Hstep false)|done]|done].
  apply (mapM_both I (fun _ _ => True)) in H3 as [I3 F3]; [|intros x a y b Hx Ha Hm; split; [by eapply (Hstep true)|done]|done].
  destruct I3 as (r&Hr&E). rewrite E. cbn. split_and!; try done.
  - destruct Hr as [-> _]. done.
  - intros i a Ha. change (attr_at (set_RING r s) i a = attr_at s i a). rewrite !attr_at_aget. apply (ragD_aget (RING s) r); [done|]. by apply bool_decide_eq_false.
  - rewrite app_length, <- (Forall2_length _ _ _ F2), <- (Forall2_length _ _ _ F3). done.
Qed.

(** If moreover the fields are up to date, the whole machine is as before, and every column is the difference quotient of two
    readings: of the machine with only this corrector kicked, and of the machine itself. *)
Theorem C61_columns w bpms hcm vcm dkick (s : sc R) cols s' :
  (forall skew cm, cm ∈ (if skew : bool then vcm else hcm) -> update_magnets [cm] s = (Ok tt, s) /\
     forall v, get_cm_setpoints [cm] skew s = Ok [v] -> allows (cm_limit s cm skew) v /\ allows (cm_limit s cm skew) (v + dkick)) ->
  measure_response w bpms hcm vcm dkick s = (Ok cols, s') ->
  let o := orbit_injection (INJ s) in
  s' = relabel o (RNG s') s /\ length cols = (length hcm + length vcm)%nat /\
  exists r0 g0, bpm_reading w (Some bpms) false (relabel o (RNG s) s) = (Ok r0, relabel o g0 s) /\
  forall skew j cm, (if skew : bool then vcm else hcm) !! j = Some cm ->
    exists s1 g g' r1 col, set_cm_setpoints [cm] DFloat [dkick] skew ADD s = (Ok tt, s1) /\ bpm_reading w (Some bpms) false (relabel o g s1) = (Ok r1, relabel o g' s1) /\
      cols !! (if skew then length hcm + j else j)%nat = Some col /\ length col = (2 * length bpms)%nat /\ dkick <> 0 /\
      forall k, (k < 2 * length bpms)%nat -> exists x1 x0, (r_x r1 ++ r_y r1) !! k = Some x1 /\ (r_x r0 ++ r_y r0) !! k = Some x0 /\ col !! k = Some (quotient dkick x1 x0).
Proof.
  intros Hlim H. cbv zeta. set (o := orbit_injection (INJ s)). unfold measure_response in H. apply bind_ok in H as ([]&t0&H0&H). unfold on_INJ in H0. cbn in H0. injection H0 as <-.
  apply bind_ok in H as (r0&t1&H1&H). pose proof (pres_run quiet _ _ _ _ (quiet_reading w (Some bpms) false) H1) as Q.
  apply bind_ok in H as (h&t2&H2&H). apply bind_ok in H as (v&t3&H3&H). apply ret_ok in H as [<- ->].
  assert (t1 = relabel o (RNG t1) s) as E1 by (unfold quiet in Q; rewrite Q; by destruct s).
  set (I := fun t : sc R => t = relabel o (RNG t) s).
  set (P := fun skew cm col => exists s1 g g' r1, set_cm_setpoints [cm] DFloat [dkick] skew ADD s = (Ok tt, s1) /\ bpm_reading w (Some bpms) false (relabel o g s1) = (Ok r1, relabel o g' s1) /\
      length col = (2 * length bpms)%nat /\ dkick <> 0 /\
      forall k, (k < 2 * length bpms)%nat -> exists x1 x0, (r_x r1 ++ r_y r1) !! k = Some x1 /\ (r_x r0 ++ r_y r0) !! k = Some x0 /\ col !! k = Some (quotient dkick x1 x0)).
  assert (forall skew cm a y b, cm ∈ (if skew : bool then vcm else hcm) -> I a -> measure_column w bpms dkick (flat_reading r0) skew cm a = (Ok y, b) -> I b /\ P skew cm y) as Hstep.
  { intros skew cm a y b Hcm Ha Hm. unfold I in Ha. rewrite Ha in Hm. apply column_ok in Hm as (s1&g'&r1&s2&A1&A2&A3&->&Hd&->&HL). destruct (Hlim skew cm Hcm) as [Hup Hal].
    pose proof (cm_add_restores DFloat [cm] [dkick] skew s s1 s2 eq_refl ltac:(apply NoDup_singleton) eq_refl) as Hb.
    assert (s2 = s) as ->.
    { assert (update_magnets [cm] s = (Ok tt, s2)) as Hu; [|rewrite Hup in Hu; by injection Hu]. apply Hb; [|exact A1|exact A3].
      intros i d v0 Hin. cbn in Hin. apply elem_of_list_singleton in Hin. injection Hin as -> ->. apply Hal. }
    split; [done|]. exists s1, (RNG a), g', r1. split; [done|]. split; [done|]. split; [done|]. split; [done|]. intros k Hk. rewrite <- HL in Hk. apply lookup_lt_is_Some in Hk as [x Hx]. rewrite Hx.
    rewrite lookup_zip_with in Hx. unfold flat_reading in Hx. destruct ((r_x r1 ++ r_y r1) !! k) as [x1|]; [|done]. cbn in Hx. destruct ((r_x r0 ++ r_y r0) !! k) as [x0|]; [|done]. cbn in Hx. injection Hx as <-.
    exists x1, x0. split; [done|]. split; [done|]. destruct x1, x0; done. }
  apply (mapM_both I (P false)) in H2 as [I2 F2]; [|intros x a y b Hx Ha Hm; by eapply (Hstep false)|done].
  apply (mapM_both I (P true)) in H3 as [I3 F3]; [|intros x a y b Hx Ha Hm; by eapply (Hstep true)|done].
  split; [done|]. split; [by rewrite app_length, <- (Forall2_length _ _ _ F2), <- (Forall2_length _ _ _ F3)|].
  exists r0, (RNG t1). split.
  { rewrite <- E1, <- H1. f_equal. }
  intros skew j cm Hj. destruct skew.
  - eapply Forall2_lookup_l in F3 as (col&Hcol&s1&g&g'&r1&A1&A2&A3&A4&A5); [|exact Hj]. exists s1, g, g', r1, col. split; [done|]. split; [done|]. split; [|done].
    rewrite lookup_app_r, <- (Forall2_length _ _ _ F2) by (rewrite <- (Forall2_length _ _ _ F2); lia). by rewrite Nat.add_comm, Nat.add_sub.
  - eapply Forall2_lookup_l in F2 as (col&Hcol&s1&g&g'&r1&A1&A2&A3&A4&A5); [|exact Hj]. exists s1, g, g', r1, col. split; [done|]. split; [done|]. split; [|done].
    rewrite lookup_app_l; [done|]. by eapply lookup_lt_Some.
Qed.
Print Assumptions C61_restored.
Print Assumptions C61_columns.

(** * C69 *)
(** Individual correction: every magnet's set-point is lowered by its value, and nothing else is set. *)
Theorem C69_individual r ords skew order (s s' : sc R) : NoDup ords -> length r = length ords ->
  set_correction r (inl ords) skew order ADD false s = (Ok tt, s') ->
  (forall i x, (i, x) ∈ zip ords r -> exists v, entry s i (setpoint_name skew) order = Some v /\ entry s' i (setpoint_name skew) order = Some (limited s i skew order (v - x))) /\
  (forall i k, k <> order \/ i ∉ ords -> entry s' i (setpoint_name skew) k = entry s i (setpoint_name skew) k).
Proof.
  intros Hnd HL H. unfold set_correction in H. destruct (C12_meaning _ _ _ _ _ _ _ Hnd ltac:(rewrite map_length; exact HL) H) as [H1 H2]. split; [|done].
  intros i x Hx. assert ((i, (- x)%R) ∈ zip ords (map Ropp r)) as Hx'.
  { clear -Hx. revert r Hx. induction ords as [|j ords IH]; intros [|y r] Hx; cbn in *; try (by apply elem_of_nil in Hx). apply elem_of_cons in Hx as [[= -> ->]|Hx]; [left|right; by apply IH]. }
  destruct (H1 i _ Hx') as (y&Hy&He). unfold magnet_request in Hy. rewrite decide_False, decide_False, decide_True in Hy by done.
  destruct (entry s i (setpoint_name skew) order) as [v|]; [|done]. cbn in Hy. injection Hy as <-. exists v. split; [done|]. rewrite He. done.
Qed.
(** Correction by families: every member of family [k] is lowered by value [k]. *)
Lemma broadcast_run ords x skew order method (s s' : sc R) : set_magnet_setpoints ords DFloat [x] skew order method false s = (Ok tt, s') ->
  set_magnet_setpoints ords DFloat (replicate (length ords) x) skew order method false s = (Ok tt, s').
Proof.
  intros H. apply set_magnet_plain in H as (l&s1&Hl&H). apply set_magnet_plain. exists l, s1. split; [|done]. rewrite <- Hl. unfold magnet_targets.
  assert (check_input_and_setpoints method ords [x] = check_input_and_setpoints method ords (replicate (length ords) x)) as ->; [|done].
  unfold check_input_and_setpoints. destruct (decide _); [|done]. rewrite replicate_length, Nat.eqb_refl. destruct ords as [|o [|o1 ords]]; cbn [length Nat.eqb orb replicate]; try done. by rewrite Nat.eqb_refl.
Qed.
Lemma limited_kept ords dt sps skew order method (s s' : sc R) u i y : set_magnet_setpoints ords dt sps skew order method false s = (Ok u, s') -> limited s' i skew order y = limited s i skew order y.
Proof.
  intros H. pose proof (set_magnet_frame ords dt sps skew order method s) as F. rewrite H in F. cbn [snd] in F.
  unfold limited, skew_limit. assert (attr_at s' i "SkewQuadLimit" = attr_at s i "SkewQuadLimit") as ->; [|done].
  rewrite !attr_at_aget. apply (frame_aget _ _ _ _ _ F). intros [[? _]|[Hf _]]; [by destruct skew|]. by apply (not_der "SkewQuadLimit" eq_refl) in Hf.
Qed.
Theorem C69_families r fams skew order (s s' : sc R) : NoDup (concat fams) ->
  set_correction r (inr fams) skew order ADD false s = (Ok tt, s') ->
  (forall k fam i, fams !! k = Some fam -> i ∈ fam -> exists x v, r !! k = Some x /\ entry s i (setpoint_name skew) order = Some v /\ entry s' i (setpoint_name skew) order = Some (limited s i skew order (v - x))) /\
  (forall i k, k <> order \/ i ∉ concat fams -> entry s' i (setpoint_name skew) k = entry s i (setpoint_name skew) k).
Proof.
  unfold set_correction. assert (forall k0 s, NoDup (concat fams) ->
    forM (zip (seq k0 (length fams)) fams) (fun p => let! x := lift (idx r p.1) in set_magnet_setpoints p.2 DFloat [nopp x] skew order ADD false) s = (Ok tt, s') ->
    (forall k fam i, fams !! k = Some fam -> i ∈ fam -> exists x v, r !! (k0 + k)%nat = Some x /\ entry s i (setpoint_name skew) order = Some v /\ entry s' i (setpoint_name skew) order = Some (limited s i skew order (v - x))) /\
    (forall i k, k <> order \/ i ∉ concat fams -> entry s' i (setpoint_name skew) k = entry s i (setpoint_name skew) k)) as Hg.
  { clear s. induction fams as [|fam fams IH]; intros k0 s Hnd H; cbn [length seq zip zip_with forM concat] in *.
    - apply ret_ok in H as [_ ->]. split; [done|done].
    - apply bind_ok in H as ([]&s1&H1&H). apply bind_ok in H1 as (x&s2&Hx&H1). apply lift_ok in Hx as [Hx ->]. apply idx_ok in Hx. cbn [fst snd] in *. apply NoDup_app in Hnd as (Hn1&Hn2&Hn3).
      pose proof H1 as Hrun. apply broadcast_run in H1. destruct (C12_meaning _ _ _ _ _ _ _ Hn1 ltac:(by rewrite replicate_length) H1) as [A1 A2].
      destruct (IH (S k0) s1 Hn3 H) as [B1 B2]. split.
      + intros [|k] fam' i Hf Hi; cbn in Hf.
        * injection Hf as <-. rewrite Nat.add_0_r. assert ((i, nopp x) ∈ zip fam (replicate (length fam) (nopp x))) as Hin.
          { clear -Hi. induction fam as [|j fam IHf]; [by apply elem_of_nil in Hi|]. cbn. apply elem_of_cons in Hi as [->|Hi]; [left|right; by apply IHf]. }
          destruct (A1 i _ Hin) as (y&Hy&He). unfold magnet_request in Hy. rewrite decide_False, decide_False, decide_True in Hy by done.
          destruct (entry s i (setpoint_name skew) order) as [v|]; [|done]. cbn in Hy. injection Hy as <-. exists x, v. split; [done|]. split; [done|].
          rewrite B2; [rewrite He; done|]. right. by apply Hn2.
        * destruct (B1 k fam' i Hf Hi) as (x'&v&Hx'&Hv&He). exists x', v. split; [by rewrite Nat.add_succ_r|]. rewrite A2 in Hv.
          -- split; [done|]. rewrite He. f_equal. by eapply limited_kept.
          -- right. intros Hi'. apply (Hn2 i Hi'). apply elem_of_list_In, in_concat. exists fam'. split; apply elem_of_list_In; [by eapply elem_of_list_lookup_2|done].
      + intros i k Hk. rewrite B2, A2; [done| |]; destruct Hk as [?|Hk]; [by left|right|by left|right]; intros Hi; apply Hk; apply elem_of_app; auto. }
  intros Hnd H. exact (Hg 0%nat s Hnd H).
Qed.

(** Equally spaced elements: the first one and every [step]-th after it, [step] being the length divided by one less than the number asked
    for, rounded down. *)
Lemma every_lookup {A} step (l : list A) j k : (0 < step)%nat -> every step j l !! k = l !! (j + k * step)%nat.
Proof.
  intros Hs. revert j k. induction l as [|x l IH]; intros j k; [done|]. destruct j as [|j]; cbn [every].
  - destruct k as [|k]; [done|]. cbn [lookup list_lookup]. rewrite IH. replace (0 + S k * step)%nat with (S (step - 1 + k * step))%nat by lia. done.
  - rewrite IH. done.
Qed.
Theorem C69_equally_spaced {A} (l : list A) num out : (2 <= num)%nat -> select_equally_spaced l num = Ok out ->
  let step := (length l / (num - 1))%nat in (0 < step)%nat /\ (num - 1 <= length out)%nat /\ forall k, out !! k = l !! (k * step)%nat.
Proof.
  intros Hn H. destruct num as [|[|n]]; try lia. cbv zeta. replace (S (S n) - 1)%nat with (S n) by lia. cbn [select_equally_spaced] in H.
  destruct (Nat.eqb_spec (length l / S n) 0) as [|Hs]; [done|]. injection H as <-. set (step := (length l / S n)%nat) in *. split; [lia|].
  assert (forall k, every step 0 l !! k = l !! (k * step)%nat) as Hk by (intros k; rewrite every_lookup by lia; done). split; [|done].
  destruct (decide (S n <= length (every step 0 l))%nat) as [|Hlt]; [done|]. exfalso. assert (every step 0 l !! n = None) as Hnone by (apply lookup_ge_None; lia).
  rewrite Hk in Hnone. apply lookup_ge_None in Hnone. assert (S n * step <= length l)%nat by (apply Nat.mul_div_le; lia). lia.
Qed.
(** One element asked for fails with a division by zero, more than the list has (plus one) with ValueError. *)
Theorem C69_finding_spacing {A} (l : list A) num :
  select_equally_spaced l 1 = Err ZeroDivisionError /\ ((length l + 1 < num)%nat -> select_equally_spaced l num = Err ValueError).
Proof.
  split; [done|]. intros H. destruct num as [|[|n]]; try lia. cbn [select_equally_spaced]. rewrite Nat.div_small by lia. done.
Qed.
Print Assumptions C69_individual.
Print Assumptions C69_families.
Print Assumptions C69_equally_spaced.
Print Assumptions C69_finding_spacing.

(** * Cases *)
(** asked for four elements, three are returned; asked for five, six *)
Example C69_case_spacing : select_equally_spaced [0; 1; 2; 3; 4; 5; 6; 7; 8]%nat 4 = Ok [0; 3; 6]%nat /\
  select_equally_spaced [0; 1; 2; 3; 4; 5; 6; 7; 8; 9; 10]%nat 5 = Ok [0; 2; 4; 6; 8; 10]%nat /\ select_equally_spaced [0; 1; 2; 3]%nat 4 = Ok [0; 1; 2; 3]%nat.
Proof. done. Qed.

(** A ring of two quadrupoles, a corrector (ordinate 2) and an exact monitor: the corrector's kick displaces the beam at the monitor in
    proportion to 1 + 3 K0 + 5 K1. *)
From Coq Require Import QArith.
From Verif Require Import Properties_Bba3 Properties_Loco.
Local Open Scope Q_scope.
#[local] Instance TrigQ7 : Trig Q := {| ncos _ := 1; nsin _ := 0; nsqrt x := x; npi := 3 |}.
Definition measured_machine : sc Q :=
  let ring := [Examples.quad; Examples.quad; Examples.thin_cm; exact_bpm [0; 0]] in
  let s := MkSC ring ring (MkInj 1 (zeros 6) (zeros 6) (replicate 6 (zeros 6)) (zeros 6) 3 4 1 "TBT") (SIG Examples.ex_sc) (MkOrd [3]%nat [] [] [] [] [] [] [] []) (replicate 200 0) in
  snd (update_magnets [0; 1; 2]%nat (snd (register_magnets [2]%nat [] (MkType (Some (Fin 1)) (Some (Fin 1)) false None None) (snd (register_magnets [0; 1]%nat [] (MkType None None false None None) s))))).
Example C61_case : fst (measure_response loco_world [3]%nat [2]%nat [2]%nat (1#10) measured_machine) = Ok [[Some 25; Some 0]; [Some 0; Some 0]] /\
  let s' := snd (measure_response loco_world [3]%nat [2]%nat [2]%nat (1#10) measured_machine) in
  map (fun e => e !! "SetPointB") (RING s') = map (fun e => e !! "SetPointB") (RING measured_machine) /\
  map (fun e => e !! "KickAngle") (RING s') = map (fun e => e !! "KickAngle") (RING measured_machine) /\
  (trackMode (INJ measured_machine), nTurns (INJ measured_machine)) = ("TBT", 4%nat) /\ (trackMode (INJ s'), nTurns (INJ s')) = ("ORB", 1%nat).
Proof. vm_compute. done. Qed.
(** the family {0, 1} is lowered by 1/2, the corrector by 1/4 *)
Example C69_case_families : let run := set_correction [1#2; 1#4] (inr [[0; 1]; [2]]%nat) false 0 ADD false measured_machine in
  fst run = Ok tt /\ map (fun i => entry (snd run) i "SetPointB" 0) [0; 1; 2]%nat = [Some (-1#2); Some (-1#2); Some (-1#4)] /\
  map (fun i => entry measured_machine i "SetPointB" 0) [0; 1; 2]%nat = [Some 0; Some 0; Some 0].
Proof. vm_compute. done. Qed.
Example C69_case_individual : let run := set_correction [1#2; 1#4] (inl [0; 1]%nat) false 1 ADD false measured_machine in
  fst run = Ok tt /\ map (fun i => entry (snd run) i "SetPointB" 1) [0; 1; 2]%nat = [Some (5#2); Some (11#4); None].
Proof. vm_compute. done. Qed.
