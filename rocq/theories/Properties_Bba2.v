(** C56: scaling of the injection variation before a beam-based alignment.  C67: what the alignment leaves changed. *)
From Coq Require Import Reals Lra Lia QArith ZArith.
From stdpp Require Import base gmap strings list.
From Verif Require Import Num Base Model_Arr Model_SC Model_Err Model_Beam Model_Orbit Model_Scan Model_Stats Model_Bba Lemmas Proofs_Update Proofs_Setpoint Proofs_Loop2 Proofs_Beam Spec Proofs_CM Proofs_CM2 Properties_Setpoint3 Properties_Setpoint Properties_Setpoint4 Properties_Field Properties_Beam Properties_Orbit Properties_Thread Properties_Rf Properties_Tune Properties_Bba.
Local Open Scope string_scope.
Local Open Scope list_scope.
Local Open Scope R_scope.
Notation reading := Model_Beam.reading.

(** * C56 *)

(** the injected position and angle of plane [n] displaced by [a] and [b], the other coordinates as before *)
Definition displaced (n : nat) (a b : R) (z z' : list R) : Prop :=
  length z' = length z /\ (exists x y, z !! (2 * n)%nat = Some x /\ z !! (2 * n + 1)%nat = Some y /\ z' !! (2 * n)%nat = Some (x + a) /\ z' !! (2 * n + 1)%nat = Some (y + b)) /\
  forall i, i <> (2 * n)%nat -> i <> (2 * n + 1)%nat -> z' !! i = z !! i.
(** the machine with a displaced injection and a number of turns to be tracked *)
Definition injecting (z : list R) (turns : nat) (s : sc R) : sc R :=
  set_INJ (MkInj (beamLostAt (INJ s)) (Z0ideal (INJ s)) z (beamSize (INJ s)) (randomInjectionZ (INJ s)) (nParticles (INJ s)) turns (nShots (INJ s)) (trackMode (INJ s))) s.
Definition positions (n : nat) (r : reading R) : list (option R) := match n with 0%nat => r_x r | _ => r_y r end.
(** [row]: single-turn readings in plane [n] with the injection displaced by [c] times the largest displacement [mx] *)
Definition read_with (w : world R) (s : sc R) (n : nat) (mx : R * R) (c : R) (row : list (option R)) : Prop :=
  exists z' g r s', displaced n (c * mx.1) (c * mx.2) (Z0 (INJ s)) z' /\ bpm_reading w None false (set_RNG g (injecting z' 1 s)) = (Ok r, s') /\ row = positions n r.
(** numbers at the BPMs up to [last] *)
Definition reaches (last : nat) (row : list (option R)) : Prop := forall j, (j <= last)%nat -> row !! j <> Some None.
Definition attempt (w : world R) (s : sc R) (n last : nat) (mx : R * R) (c : R) (ok : Prop) (plus minus : list (option R)) : Prop :=
  read_with w s n mx c plus /\ read_with w s n mx (- c) minus /\ (ok <-> reaches last plus /\ reaches last minus).

Lemma kicked_displaced n (z z' : list R) a b : kicked n z a b = Ok z' -> displaced n a b z z'.
Proof.
  intros H. unfold kicked in H. apply rbind_ok in H as (x&Hx&H). apply rbind_ok in H as (y&Hy&H). apply rbind_ok in H as (z1&H1&H).
  apply idx_ok in Hx, Hy. apply idx_set_ok in H1 as [L1 ->]. apply idx_set_ok in H as [L2 ->]. rewrite insert_length in L2.
  unfold displaced. rewrite !insert_length. split; [done|]. split.
  - exists x, y. split_and!; try done.
    + rewrite list_lookup_insert_ne by lia. by rewrite list_lookup_insert.
    + rewrite list_lookup_insert by (by rewrite insert_length). done.
  - intros i H1 H2. rewrite !list_lookup_insert_ne by lia. done.
Qed.
Lemma reaches_spec last row : existsb is_nan (take (S last) row) = false <-> reaches last row.
Proof.
  unfold reaches. split.
  - intros H j Hj Hn. assert (existsb is_nan (take (S last) row) = true) as Ht; [|congruence].
    apply existsb_exists. exists None. split; [|done]. apply elem_of_list_In, elem_of_list_lookup. exists j. rewrite lookup_take by lia. done.
  - intros H. apply not_true_iff_false. intros (x&Hx&Hn)%existsb_exists. destruct x; [discriminate|]. apply elem_of_list_In, elem_of_list_lookup in Hx as [j Hj].
    apply lookup_take_Some in Hj as [Hj Hlt]. apply (H j); [lia|done].
Qed.

Section C56.
  Context (w : world R).

  Lemma trial_ok n z0 a b (t t' : sc R) row : injection_trial w n z0 a b t = (Ok row, t') ->
    exists z' r, displaced n a b z0 z' /\ bpm_reading w None false (set_INJ (with_Z0 z' (INJ t)) t) = (Ok r, t') /\ row = positions n r /\ quiet (set_INJ (with_Z0 z' (INJ t)) t) t'.
  Proof.
    intros H. unfold injection_trial in H. apply bind_ok in H as (z'&t1&Hz&H). apply lift_ok in Hz as [Hz ->]. apply kicked_displaced in Hz.
    apply bind_ok in H as ([]&t2&Hm&H). injection Hm as <-. apply bind_ok in H as (r&t3&Hr&H). apply ret_ok in H as [<- <-].
    exists z', r. split_and!; try done. exact (pres_run quiet _ _ _ _ (quiet_reading w None false) Hr).
  Qed.

  Lemma scale_loop_ok (s : sc R) n last mx k : forall c g (t' : sc R) scale ranges,
    scale_loop w k n last mx (Z0 (INJ s)) (nTurns (INJ s)) c (set_RNG g (injecting (Z0 (INJ s)) 1 s)) = (Ok (scale, ranges), t') ->
    quiet s t' /\ exists m, (m <= k)%nat /\ scale = c * (4 / 5) ^ m /\
    (forall j, (j < m)%nat -> exists plus minus, attempt w s n last mx (c * (4 / 5) ^ j) False plus minus) /\
    ((m < k)%nat -> exists plus minus, attempt w s n last mx scale True plus minus /\ ranges = zip_with spread plus minus) /\
    (m = k -> ranges = replicate (length (oBPM (ORD s))) (Some 0)).
  Proof.
    induction k as [|k IH]; intros c g t' scale ranges H.
    - cbn [scale_loop] in H. apply bind_ok in H as ([]&t1&Hm&H). injection Hm as <-. apply bind_ok in H as (t2&t3&Hg&H). apply get_ok in Hg as [-> ->].
      apply ret_ok in H as [H ->]. injection H as <- <-. split; [by destruct s as [? ? [] ? ? ?]|]. exists 0%nat. cbn [Rpow_def.pow]. split_and!; [lia|lra|intros; lia|intros; lia|done].
    - cbn [scale_loop] in H. apply bind_ok in H as (plus&t1&Hp&H). apply bind_ok in H as (minus&t2&Hmi&H). apply bind_ok in H as ([]&t3&Hm&H). injection Hm as <-.
      apply trial_ok in Hp as (zp&rp&Dp&Rp&Ep&Qp). apply trial_ok in Hmi as (zm&rm&Dm&Rm&Em&Qm). num_R.
      assert (t1 = set_RNG (RNG t1) (injecting zp 1 s)) as E1. { unfold quiet in Qp. rewrite Qp. by destruct s as [? ? [] ? ? ?]. }
      assert (t2 = set_RNG (RNG t2) (injecting zm 1 s)) as E2. { unfold quiet in Qm. rewrite Qm, E1. by destruct s as [? ? [] ? ? ?]. }
      assert (read_with w s n mx c plus) as A1. { exists zp, g, rp, t1. split_and!; done. }
      assert (read_with w s n mx (- c) minus) as A2.
      { exists zm, (RNG t1), rm, t2. split_and!; [by replace (- c * mx.1) with (-1 * (c * mx.1)) by ring; replace (- c * mx.2) with (-1 * (c * mx.2)) by ring| |done].
        rewrite E1 in Rm. exact Rm. }
      assert (set_INJ (with_Z0 (Z0 (INJ s)) (INJ t2)) t2 = set_RNG (RNG t2) (injecting (Z0 (INJ s)) 1 s)) as E3. { rewrite E2. by destruct s as [? ? [] ? ? ?]. }
      rewrite E3 in H. clear E1 E2 E3 Qp Qm.
      destruct (existsb is_nan (take (S last) plus) || existsb is_nan (take (S last) minus)) eqn:Ex.
      + apply IH in H as (Hq&m&Hmk&Hsc&Hfail&Hgood&Hnone). split; [done|]. exists (S m).
        assert (attempt w s n last mx c False plus minus) as Ha.
        { split_and!; [done|done|]. split; [done|]. intros [R1 R2]. apply reaches_spec in R1, R2. rewrite R1, R2 in Ex. discriminate. }
        unfold shrink in *. num_R. split_and!; [lia|rewrite Hsc; cbn [Rpow_def.pow]; field| | |].
        * intros [|j] Hj; [exists plus, minus; cbn [Rpow_def.pow]; by rewrite Rmult_1_r|]. destruct (Hfail j) as (p'&m'&Hx); [lia|]. exists p', m'.
          replace (c * (4 / 5) ^ S j) with (c * (4 / 5) * (4 / 5) ^ j) by (cbn [Rpow_def.pow]; field). done.
        * intros Hl. apply Hgood. lia.
        * intros Hl. apply Hnone. lia.
      + apply orb_false_iff in Ex as [X1 X2]. apply reaches_spec in X1, X2. apply bind_ok in H as (t3&t4&Hg&H). apply get_ok in Hg as [-> ->].
        apply bind_ok in H as ([]&t4&Hz&H). destruct (length _ =? 0)%nat; [discriminate|]. apply ret_ok in Hz as [_ ->].
        apply bind_ok in H as ([]&t5&Hm&H). injection Hm as <-. apply ret_ok in H as [H ->]. injection H as <- <-.
        split; [by destruct s as [? ? [] ? ? ?]|]. exists 0%nat. cbn [Rpow_def.pow]. split_and!; [lia|lra|intros; lia| |intros; lia].
        intros _. exists plus, minus. split; [|done]. by split_and!.
  Qed.

  (** The injection and the machine come back unchanged (only random numbers have been drawn).  The scale is a power of 4/5; at every larger one
      the beam was lost before the last BPM for one of the signs, and at the returned one it was not - unless twenty attempts failed, then
      all ranges are zero.  The ranges are the distances between the readings of the two signs, NaN where one of them is. *)
  Theorem C56_scaling (s s' : sc R) n last mx scale ranges : scale_injection w n last mx s = (Ok (scale, ranges), s') ->
    quiet s s' /\ exists m, (m <= 20)%nat /\ scale = (4 / 5) ^ m /\
    (forall j, (j < m)%nat -> exists plus minus, attempt w s n last mx ((4 / 5) ^ j) False plus minus) /\
    ((m < 20)%nat -> exists plus minus, attempt w s n last mx scale True plus minus /\
       length ranges = Nat.min (length plus) (length minus) /\
       forall j x y, plus !! j = Some x -> minus !! j = Some y -> ranges !! j = Some (match x, y with Some x, Some y => Some (Rabs (x - y)) | _, _ => None end)) /\
    (m = 20%nat -> ranges = replicate (length (oBPM (ORD s))) (Some 0)).
  Proof.
    intros H. unfold scale_injection in H. apply bind_ok in H as (t1&t2&Hg&H). apply get_ok in Hg as [-> ->].
    apply bind_ok in H as ([]&t3&Hm&H). injection Hm as <-.
    assert (set_INJ (with_nTurns 1 (INJ s)) s = set_RNG (RNG s) (injecting (Z0 (INJ s)) 1 s)) as E by (by destruct s as [? ? [] ? ? ?]).
    rewrite E in H. apply scale_loop_ok in H as (Hq&m&Hm&Hsc&Hf&Hgood&Hnone). num_R. split; [done|]. exists m. rewrite Rmult_1_l in Hsc. split_and!; [done|done| | |done].
    - intros j Hj. specialize (Hf j Hj). by rewrite Rmult_1_l in Hf.
    - intros Hl. destruct (Hgood Hl) as (plus&minus&Ha&->). exists plus, minus. split; [done|]. split; [by rewrite zip_with_length|].
      intros j x y Hx Hy. rewrite lookup_zip_with, Hx, Hy. cbn. f_equal. destruct x as [x|], y as [y|]; try done. unfold spread, nmax, nmin. num_R. f_equal.
      repeat match goal with |- context [Rltb ?a ?b] => destruct (Rltb a b) eqn:?E end; repeat match goal with H : Rltb _ _ = true |- _ => apply Rltb_true in H | H : Rltb _ _ = false |- _ => apply Rltb_false in H end;
      unfold Rabs; destruct (Rcase_abs _); lra.
  Qed.
End C56.

(** * C67: what is left changed *)

(** a bending magnet registered as horizontal corrector: setting its gradient with dipole compensation moves its kick *)
Definition compensated (s : sc R) (i : nat) : Prop := i ∈ oHCM (ORD s) /\ exists th, number s i "BendingAngle" = Some th /\ th <> 0.
Definition of_setpoints (a : string) : Prop := a = "SetPointA" \/ a = "SetPointB".
(** Magnets in [P] have been used.  Of the set-points only those entries differ that [E] allows and the kick of compensated bending magnets
    in [C]; fields of the used magnets and of their split-magnet children may differ; nothing else does (apart from the injection and the random stream). *)
Definition used (P C : nat -> Prop) (E : nat -> bool -> nat -> Prop) (s s' : sc R) : Prop :=
  IDEALRING s' = IDEALRING s /\ SIG s' = SIG s /\ ORD s' = ORD s /\ length (RING s') = length (RING s) /\
  (forall i a, ~ (of_setpoints a /\ P i) -> ~ (a ∈ field_attributes /\ (P i \/ exists m, P m /\ child_of s i m)) -> attr_at s' i a = attr_at s i a) /\
  (forall i sk k, ~ E i sk k -> ~ (C i /\ compensated s i /\ sk = false /\ k = 0%nat) -> entry s' i (setpoint_name sk) k = entry s i (setpoint_name sk) k).

Lemma plain_attr a : (of_setpoints a -> False) -> a ∉ field_attributes -> forall P C E s s' i, used P C E s s' -> attr_at s' i a = attr_at s i a.
Proof. intros H1 H2 P C E s s' i (_&_&_&_&H&_). apply H; tauto. Qed.
Ltac not_field := unfold field_attributes; rewrite !elem_of_cons; intros [?|[?|[?|[?|?%elem_of_nil]]]]; done.
Lemma used_child P C E s s' i m : used P C E s s' -> child_of s' i m <-> child_of s i m.
Proof. intros H. unfold child_of. by rewrite (plain_attr "MasterOf" ltac:(intros [?|?]; discriminate) ltac:(not_field) _ _ _ _ _ _ H). Qed.
Lemma used_compensated P C E s s' i : used P C E s s' -> compensated s' i <-> compensated s i.
Proof.
  intros H. pose proof H as (_&_&HO&_). unfold compensated, number. rewrite HO.
  by rewrite (plain_attr "BendingAngle" ltac:(intros [?|?]; discriminate) ltac:(not_field) _ _ _ _ _ _ H).
Qed.
#[global] Instance used_preorder P C E : PreOrder (used P C E).
Proof.
  split; [intros s; unfold used; by split_and!|]. intros a b c Hab Hbc.
  pose proof Hab as (A1&A2&A3&A4&A5&A6). pose proof Hbc as (B1&B2&B3&B4&B5&B6). unfold used. split_and!; try congruence.
  - intros i x H1 H2. rewrite B5, A5; [done|done|done|done|]. intros [Hf [Hp|(m&Hm&Hc)]]; apply H2; split; try done; [by left|].
    right. exists m. split; [done|]. by apply (used_child _ _ _ _ _ _ _ Hab) in Hc.
  - intros i sk k H1 H2. rewrite B6, A6; [done|done|done|done|]. intros (Hc&Hk&->&->). apply H2. split_and!; try done. by apply (used_compensated _ _ _ _ _ _ Hab) in Hk.
Qed.
Lemma used_mono (P Q C D : nat -> Prop) (E F : nat -> bool -> nat -> Prop) s s' : (forall i, P i -> Q i) -> (forall i, C i -> D i) -> (forall i sk k, E i sk k -> F i sk k) -> used P C E s s' -> used Q D F s s'.
Proof.
  intros HP HC HE (A1&A2&A3&A4&A5&A6). unfold used. split_and!; try done.
  - intros i a H1 H2. apply A5; [intros [? ?]; apply H1; auto|]. intros [? [?|(m&?&?)]]; apply H2; split; auto. right. eauto.
  - intros i sk k H1 H2. apply A6; [auto|]. intros (?&?&?&?). apply H2. auto.
Qed.
Lemma used_quiet P C E s s' : quiet s s' -> used P C E s s'.
Proof. unfold quiet. intros ->. unfold used. by split_and!. Qed.
Lemma used_INJ P C E s i : used P C E s (set_INJ i s).
Proof. unfold used. by split_and!. Qed.
Lemma used_steered (P : nat -> Prop) s s' : steered P s s' -> used P (fun _ => False) (fun i _ _ => P i) s s'.
Proof.
  intros (A1&A2&A3&A4&A5&A6). unfold used. split_and!; try done.
  - intros i a H1 H2. apply A6; tauto.
  - intros i sk k H1 _. unfold entry. rewrite A6; [done|tauto| |tauto]. intros [Hf _]. destruct sk; revert Hf; not_field.
Qed.
(** two views of the same step *)
Lemma used_both P C C' E E' F s s' : used P C E s s' -> used P C' E' s s' -> (forall i sk k, ~ F i sk k -> ~ (C i /\ compensated s i /\ sk = false /\ k = 0%nat) -> ~ E i sk k \/ (~ E' i sk k /\ ~ C' i)) -> used P C F s s'.
Proof.
  intros (A1&A2&A3&A4&A5&A6) (_&_&_&_&_&B6) H. unfold used. split_and!; try done.
  intros i sk k H1 H2. destruct (H i sk k H1 H2) as [H3|[H3 H4]]; [by apply A6|apply B6; [done|tauto]].
Qed.

(** one element *)
Lemma used_on_elem (P C : nat -> Prop) (E : nat -> bool -> nat -> Prop) j {A} (m : M (elem R) A) : P j ->
  (forall e, let e' := snd (m e) in (forall a, ~ of_setpoints a -> e' !! a = e !! a) /\
     forall sk k, ~ E j sk k -> match e' !! setpoint_name sk with Some (VVec l) => l !! k | _ => None end = match e !! setpoint_name sk with Some (VVec l) => l !! k | _ => None end) ->
  pres (used P C E) (on_elem j m).
Proof.
  intros HP Hm s. unfold on_elem. destruct (RING s !! j) as [e|] eqn:E0; [|reflexivity]. specialize (Hm e). destruct (m e) as [r e'] eqn:Em. cbn [snd] in *. destruct Hm as [H1 H2].
  unfold used, attr_at, entry, attr_at; cbn. rewrite insert_length. assert (j < length (RING s))%nat as Hj by (by eapply lookup_lt_Some). split_and!; try done.
  - intros i a Hn _. destruct (decide (i = j)) as [->|Hi]; [|by rewrite list_lookup_insert_ne]. rewrite list_lookup_insert, E0 by done. cbn. apply H1. tauto.
  - intros i sk k Hn _. destruct (decide (i = j)) as [->|Hi]; [|by rewrite list_lookup_insert_ne]. rewrite list_lookup_insert, E0 by done. cbn. by apply H2.
Qed.
Lemma used_update (P C : nat -> Prop) E ords : (forall i, i ∈ ords -> P i) -> pres (used P C E) (@update_magnets R _ ords).
Proof.
  intros HP s. pose proof (update_magnets_frame ords s) as F. set (s' := snd _) in *. pose proof F as (F1&F2&F3&F4&F5&[F6 _]). unfold used. split_and!; try done.
  - intros i a _ H2. rewrite !attr_at_aget. apply (frame_aget _ _ _ _ _ F). intros [Hd Ht]. apply H2. split; [exact Hd|].
    destruct Ht as [Hi|(m&Hm&Hc)]; [auto|]. right. exists m. split; [auto|]. unfold child_of. rewrite attr_at_aget.
    unfold children in Hc. destruct (aget (RING s) m "MasterOf") as [[]|]; try by inversion Hc. eauto.
  - intros i sk k _ _. unfold entry. rewrite !attr_at_aget. rewrite (frame_aget _ _ _ _ _ F); [done|]. intros [Hd _]. rewrite <- SP_name in Hd. by apply SP_not_der in Hd.
Qed.
Lemma setpoint_name_inj a b : setpoint_name a = setpoint_name b -> a = b.
Proof. by destruct a, b. Qed.
Lemma of_setpoints_SP sk : of_setpoints (setpoint_name sk).
Proof. destruct sk; [by left|by right]. Qed.
Lemma used_set_sp (P C : nat -> Prop) (E : nat -> bool -> nat -> Prop) j skew order (x : R) : P j -> E j skew order -> pres (used P C E) (on_elem j (set_sp_entry (SP skew) order x)).
Proof.
  intros HP HE. apply used_on_elem; [done|]. intros e. cbv zeta. unfold set_sp_entry, bind, getm, lift. rewrite SP_name.
  destruct (attr_vec e (setpoint_name skew)) as [v|] eqn:Ev; [|done]. destruct (idx_set v order x) as [v'|] eqn:Ei; [|done]. apply idx_set_ok in Ei as [_ ->]. apply attr_vec_ok in Ev. cbn [snd setattr modify].
  split.
  - intros a Ha. cbn. rewrite lookup_insert_ne; [done|]. intros <-. by apply Ha, of_setpoints_SP.
  - intros sk k Hn. cbn. destruct (decide (sk = skew)) as [->|Hs].
    + rewrite lookup_insert, Ev. rewrite list_lookup_insert_ne; [done|]. by intros <-.
    + rewrite lookup_insert_ne; [done|]. intros Hx. by apply setpoint_name_inj in Hx.
Qed.
Lemma used_set_cm (P C : nat -> Prop) (E : nat -> bool -> nat -> Prop) ords dt sps skew method : (forall i, i ∈ ords -> P i /\ E i skew 0%nat) -> pres (used P C E) (@set_cm_setpoints R _ ords dt sps skew method).
Proof.
  intros H. unfold set_cm_setpoints. repeat pres_step; [|apply used_update; intros i Hi; by apply H].
  match goal with Hin : ?p ∈ zip ords _ |- _ => destruct p as [j y]; apply elem_of_zip_l in Hin as Hj end. cbn [fst snd]. apply used_on_elem; [by apply H|].
  intros e. cbv zeta. rewrite set_cm_one_spec, SP_name. destruct (cm_new _ _ _ _ _) as [l|] eqn:En; [|done]. cbn [snd]. split.
  - intros b Hb. rewrite lookup_insert_ne; [done|]. intros <-. by apply Hb, of_setpoints_SP.
  - intros sk k Hn. destruct (decide (sk = skew)) as [->|Hs].
    + rewrite lookup_insert. unfold cm_new in En. apply rbind_ok in En as (nb&_&En). apply rbind_ok in En as (x1&_&En). apply rbind_ok in En as (x2&_&En).
      apply rbind_ok in En as (sp&Hsp&En). apply rbind_ok in En as (z&_&En). apply idx_set_ok in En as [_ ->]. rewrite SP_name in Hsp. apply attr_vec_ok in Hsp. rewrite Hsp.
      rewrite list_lookup_insert_ne; [done|]. intros <-. apply Hn. by apply H.
    + rewrite lookup_insert_ne; [done|]. intros Hx. by apply setpoint_name_inj in Hx.
Qed.
Lemma used_compensation (P C : nat -> Prop) (E : nat -> bool -> nat -> Prop) j (x : R) : P j -> C j -> pres (used P C E) (dipole_compensation j x).
Proof.
  intros HP HC s. unfold dipole_compensation. unfold bind at 1. assert (ring_elem j s = (idx (RING s) j, s)) as -> by (by unfold ring_elem, bind, get, lift; destruct (idx (RING s) j)).
  unfold idx at 1. destruct (RING s !! j) as [e|] eqn:He; [|reflexivity]. unfold bind at 1, lift at 1. destruct (match e !! "BendingAngle" with None => Ok n0 | Some v => as_num v end) as [th|] eqn:Eth; [|reflexivity].
  unfold bind at 1, get at 1. cbn beta iota zeta. destruct (negb (neqb th n0) && bool_decide (j ∈ oHCM (ORD s))) eqn:Ec; [|reflexivity].
  apply andb_true_iff in Ec as [Ec1 Ec2]. apply negb_true_iff in Ec1. change (neqb th n0) with (Reqb th 0) in Ec1. apply Reqb_false in Ec1. apply bool_decide_eq_true in Ec2.
  assert (compensated s j) as Hcomp.
  { split; [done|]. exists th. split; [|done]. unfold number, attr_at. rewrite He. cbn. destruct (e !! "BendingAngle") as [v|]; [apply as_num_ok in Eth as ->; done|]. injection Eth as <-. done. }
  assert (used P (fun _ => False) (fun i sk k => E i sk k \/ (i = j /\ sk = false /\ k = 0%nat)) s (snd (( let! sp := lift (attr_vec e "SetPointB") in
      let! sp1 := lift (idx sp 1) in
      let! nom := lift (attr_vec e "NomPolynomB") in
      let! nom1 := lift (idx nom 1) in
      let! q := lift (qdiv (nsub x sp1) nom1) in
      set_cm_setpoints [j] DFloat [nmul q th] false ADD) s))) as (A1&A2&A3&A4&A5&A6).
  { revert s He Ec2 Hcomp. intros s _ _ _. revert s. match goal with |- forall s, used ?P ?C ?E s (snd (?m s)) => change (pres (used P C E) m) end.
    repeat pres_step. apply used_set_cm. intros i Hi. apply elem_of_list_singleton in Hi as ->. split; [done|]. right. done. }
  unfold used. split_and!; try done. intros i sk k H1 H2. apply A6; [|tauto]. intros [?|(->&->&->)]; [done|]. apply H2. done.
Qed.
Lemma used_set_magnet (P C : nat -> Prop) (E : nat -> bool -> nat -> Prop) ords dt sps skew order method dc :
  (forall i, i ∈ ords -> P i /\ E i skew order /\ (dc = true -> order = 1%nat -> C i)) -> pres (used P C E) (@set_magnet_setpoints R _ ords dt sps skew order method dc).
Proof.
  intros H s. rewrite set_magnet_run. destruct (magnet_targets _ _ _ _ _ _ _) as [l|]; [|reflexivity]. revert s.
  match goal with |- forall s, used ?P ?C ?E s (snd (?m s)) => change (pres (used P C E) m) end.
  apply pres_bind; [exact _| |intros _; apply used_update; intros i Hi; by apply H].
  apply pres_forM; [exact _|]. intros [j y] Hp. apply elem_of_zip_l in Hp. destruct (H j Hp) as (HP&HE&HC). cbn [fst snd].
  intros s. rewrite set_magnet_one_run. destruct (RING s !! j) as [e|]; [|reflexivity]. destruct (clip_skew _ _ _ _ _) as [x1|]; [|reflexivity]. revert s.
  match goal with |- forall s, used ?P ?C ?E s (snd (?m s)) => change (pres (used P C E) m) end.
  apply pres_bind; [exact _| |intros _; by apply used_set_sp]. destruct (dc && (order =? 1)%nat) eqn:Ed; [|intros s; reflexivity]. cbn [when].
  apply andb_true_iff in Ed as [Ed1 Ed2]. apply Nat.eqb_eq in Ed2. apply used_compensation; auto.
Qed.
(** writing absolute values that were read from the machine [s0] *)
Lemma restored ords skew order q0 dc (s0 s s' : sc R) i : field_values (setpoint_name skew) order ords s0 = Ok q0 -> i ∈ ords ->
  set_magnet_setpoints ords DFloat q0 skew order ABS dc s = (Ok tt, s') ->
  exists x, entry s0 i (setpoint_name skew) order = Some x /\
  (skew = false \/ order <> 1%nat \/ skew_limit s i = None \/ (exists l, skew_limit s i = Some l /\ Rabs x <= l) -> entry s' i (setpoint_name skew) order = Some x).
Proof.
  intros Hf Hi H. pose proof (field_values_length _ _ _ _ _ Hf) as HL.
  pose proof (values_for_in i ords q0 Hi HL) as Hne. destruct (last (values_for i ords q0)) as [x|] eqn:Hl; [|by apply last_None in Hl].
  assert ((i, x) ∈ zip ords q0) as Hin.
  { apply last_Some_elem_of in Hl. unfold values_for in Hl. apply elem_of_list_fmap in Hl as ([i' x']&->&Hl). apply elem_of_list_filter in Hl as [Hx Hl]. cbn in *. by subst i'. }
  exists x. split; [by eapply field_values_ok|]. intros Hc. eapply C16_not_clipped; [exact H|done|exact Hl| |exact Hc]. done.
Qed.

Definition untouched : nat -> bool -> nat -> Prop := fun _ _ _ => False.
Definition used1 (P C : nat -> Prop) (E : nat -> bool -> nat -> Prop) (s s' : sc R) : Prop := used P C E s s' /\ INJ s' = INJ s.
#[global] Instance used1_preorder P C E : PreOrder (used1 P C E).
Proof. split; [intros s; split; [reflexivity|done]|]. intros a b c [H1 H2] [H3 H4]. split; [by transitivity b|congruence]. Qed.
(** the injected coordinates may have been replaced, nothing else of the injection *)
Definition used2 (P C : nat -> Prop) (E : nat -> bool -> nat -> Prop) (s s' : sc R) : Prop := used P C E s s' /\ with_Z0 (Z0 (INJ s)) (INJ s') = INJ s.
#[global] Instance used2_preorder P C E : PreOrder (used2 P C E).
Proof.
  split; [intros s; split; [reflexivity|by destruct (INJ s)]|]. intros a b c [H1 H2] [H3 H4]. split; [by transitivity b|].
  rewrite <- H2 at 2. rewrite <- H4. by destruct (INJ a), (INJ b), (INJ c).
Qed.
Lemma used12 P C E s s' : used1 P C E s s' -> used2 P C E s s'.
Proof. intros [H Hi]. split; [done|]. rewrite Hi. by destruct (INJ s). Qed.
Lemma mapM_success {A B} (R : sc R -> sc R -> Prop) `{!PreOrder R} (f : A -> M (sc Rdefinitions.R) B) l : forall s ys s',
  (forall x s y s', x ∈ l -> f x s = (Ok y, s') -> R s s') -> mapM l f s = (Ok ys, s') -> R s s'.
Proof.
  induction l as [|x l IH]; intros s ys s' Hf H; cbn [mapM] in H.
  - apply ret_ok in H as [_ ->]. reflexivity.
  - apply bind_ok in H as (y&s1&H1&H). apply bind_ok in H as (ys'&s2&H2&H). apply ret_ok in H as [_ ->].
    transitivity s1; [eapply Hf; [by left|exact H1]|]. eapply IH; [|exact H2]. intros z t u t' Hz. apply Hf. by right.
Qed.
Lemma set_magnet_INJ ords dt sps skew order method dc (s s' : sc R) r : set_magnet_setpoints ords dt sps skew order method dc s = (r, s') -> INJ s' = INJ s.
Proof. intros H. pose proof (pres_set_magnet ords dt sps skew order method dc s) as F. rewrite H in F. by destruct F as (_&F&_). Qed.
Lemma used1_set_magnet (P C : nat -> Prop) (E : nat -> bool -> nat -> Prop) ords dt sps skew order method dc (s s' : sc R) r :
  (forall i, i ∈ ords -> P i /\ E i skew order /\ (dc = true -> order = 1%nat -> C i)) -> set_magnet_setpoints ords dt sps skew order method dc s = (r, s') -> used1 P C E s s'.
Proof. intros H Hr. split; [exact (pres_run _ _ _ _ _ (used_set_magnet P C E _ _ _ _ _ _ _ H) Hr)|by eapply set_magnet_INJ]. Qed.
(** entries that have been written come back *)
Lemma used_closed (P C : nat -> Prop) (ords : list nat) skew order s s' : used P C (fun i sk k => i ∈ ords /\ sk = skew /\ k = order) s s' ->
  (forall i, i ∈ ords -> entry s' i (setpoint_name skew) order = entry s i (setpoint_name skew) order) -> used P C untouched s s'.
Proof.
  intros (A1&A2&A3&A4&A5&A6) H. unfold used. split_and!; try done. intros i sk k _ H2.
  destruct (decide (i ∈ ords)) as [Hi|Hi]; [|apply A6; [tauto|done]]. destruct (decide (sk = skew)) as [->|Hs]; [|apply A6; [tauto|done]].
  destruct (decide (k = order)) as [->|Hk]; [|apply A6; [tauto|done]]. by apply H.
Qed.
(** a skew quadrupole within its limit (others are not limited) *)
Definition within_limit (s : sc R) (skew : bool) (order i : nat) : Prop :=
  skew = false \/ order <> 1%nat \/ skew_limit s i = None \/ exists l x, skew_limit s i = Some l /\ entry s i "SetPointA" 1 = Some x /\ Rabs x <= l.

Section C67.
  Context (w : world R).

  Lemma phase_restored (P C : nat -> Prop) q_ords q0 (s0 s s' : sc R) : (forall i, i ∈ q_ords -> P i /\ C i) -> field_values "SetPointB" 1 q_ords s0 = Ok q0 ->
    used1 P C (fun i sk k => i ∈ q_ords /\ sk = false /\ k = 1%nat) s0 s ->
    (if (length q0 =? 0)%nat then ret tt else set_magnet_setpoints q_ords DFloat q0 false 1 ABS true) s = (Ok tt, s') -> used1 P C untouched s0 s'.
  Proof.
    intros HP Hq0 [Hu Hi] H. pose proof (field_values_length _ _ _ _ _ Hq0) as HL. destruct (length q0 =? 0)%nat eqn:E0.
    - apply Nat.eqb_eq in E0. rewrite E0 in HL. destruct q_ords; [|discriminate]. apply ret_ok in H as [_ ->]. split; [|done].
      eapply used_mono; [by intros|by intros| |exact Hu]. intros i sk k (Hx&_). by inversion Hx.
    - assert (used1 P C (fun i sk k => i ∈ q_ords /\ sk = false /\ k = 1%nat) s s') as [Hu2 Hi2].
      { eapply used1_set_magnet; [|exact H]. intros i Hx. destruct (HP i Hx). done. }
      split; [|congruence]. eapply (used_closed P C q_ords false 1); [by transitivity s|]. intros i Hx.
      destruct (restored q_ords false 1 q0 true s0 s s' i Hq0 Hx H) as (x&->&Hr). apply Hr. by left.
  Qed.
  Lemma phase_scan_ok (P C : nat -> Prop) n last mx q_ords q_sps (s s' : sc R) out : (forall i, i ∈ q_ords -> P i /\ C i) ->
    phase_scan w n last mx q_ords q_sps s = (Ok out, s') -> used1 P C untouched s s'.
  Proof.
    intros HP H. unfold phase_scan in H. apply bind_ok in H as (t1&t2&Hg&H). apply get_ok in Hg as [-> ->].
    apply bind_ok in H as (q0&t1&Hq&H). apply lift_ok in Hq as [Hq ->]. apply bind_ok in H as (out'&s1&Hm&H). apply bind_ok in H as ([]&s2&Hr&H). apply ret_ok in H as [_ ->].
    eapply (phase_restored P C); [exact HP|exact Hq| |exact Hr]. eapply (mapM_success (used1 P C _)); [|exact Hm].
    intros q t [scale ranges] t' _ Ht. apply bind_ok in Ht as ([]&t1&H1&H2). apply C56_scaling in H2 as [H2 _]. transitivity t1.
    - eapply used1_set_magnet; [|exact H1]. intros i Hi. destruct (HP i Hi). done.
    - split; [by apply used_quiet|]. by apply quiet_same in H2 as (_&_&?&_).
  Qed.
  Lemma measurement_ok (p : bba_par R) strengths m bpm n scale (s s' : sc R) data :
    data_measurement_tbt w p strengths m bpm n scale s = (Ok data, s') -> within_limit s (b_skew p) (b_order p) m ->
    used1 (eq m) (fun i => b_dipcomp p = true /\ i = m) untouched s s'.
  Proof.
    intros H Hlim. unfold data_measurement_tbt in H. apply bind_ok in H as (t1&t2&Hg&H). apply get_ok in Hg as [-> ->].
    apply bind_ok in H as (init&t1&Hq&H). apply lift_ok in Hq as [Hq ->]. rewrite SP_name in Hq. apply bind_ok in H as (data'&s1&Hm&H).
    apply bind_ok in H as ([]&s2&Hz&H). injection Hz as <-. apply bind_ok in H as ([]&s2&Hr&H). apply ret_ok in H as [_ ->].
    set (E := fun (i : nat) (sk : bool) (k : nat) => i ∈ [m] /\ sk = b_skew p /\ k = b_order p).
    set (C := fun i => b_dipcomp p = true /\ i = m).
    assert (forall i, i ∈ [m] -> m = i /\ E i (b_skew p) (b_order p) /\ (b_dipcomp p = true -> b_order p = 1%nat -> C i)) as HE.
    { intros i Hi. pose proof Hi as Hi'. apply elem_of_list_singleton in Hi' as ->. split_and!; try done. }
    assert (used2 (eq m) C E s s1) as [Hu1 Hz1].
    { eapply (mapM_success (used2 (eq m) C E)); [|exact Hm]. intros q t ys t' _ Ht. apply bind_ok in Ht as ([]&t1&H1&H2). transitivity t1.
      - apply used12. by eapply used1_set_magnet.
      - eapply (mapM_success (used2 (eq m) C E)); [|exact H2]. intros k u y u' _ Hu. unfold measure_step in Hu. apply bind_ok in Hu as (z&u1&Hz&Hu). apply lift_ok in Hz as [_ ->].
        apply bind_ok in Hu as ([]&u2&Hz&Hu). injection Hz as <-. apply bind_ok in Hu as (r&u3&Hrd&Hu). apply bind_ok in Hu as (pos&u4&Hp&Hu). apply lift_ok in Hp as [_ ->].
        apply bind_ok in Hu as (l&u4&Hp&Hu). apply lift_ok in Hp as [_ ->]. apply ret_ok in Hu as [_ ->].
        pose proof (pres_run quiet _ _ _ _ (quiet_reading w None false) Hrd) as Hqu. transitivity (set_INJ (with_Z0 z (INJ u)) u).
        + split; [apply used_INJ|]. by destruct (INJ u).
        + split; [by apply used_quiet|]. apply quiet_same in Hqu as (_&_&->&_). cbn. by destruct (INJ u). }
    set (s2' := set_INJ (with_Z0 (Z0 (INJ s)) (INJ s1)) s1) in *.
    assert (used1 (eq m) C E s s2') as Hu2.
    { split; [|exact Hz1]. transitivity s1; [done|apply used_INJ]. }
    assert (used1 (eq m) C E s2' s2) as Hu3 by (by eapply used1_set_magnet).
    destruct Hu2 as [Hu2 Hi2]. destruct Hu3 as [Hu3 Hi3]. split; [|congruence].
    eapply (used_closed _ _ [m] (b_skew p) (b_order p)); [by transitivity s2'|]. intros i Hi. 
    assert (field_values (setpoint_name (b_skew p)) (b_order p) [m] s = Ok [init]) as Hfv.
    { unfold field_values. cbn [rmap]. apply rbind_ok in Hq as (e&He&Hq). rewrite He. cbn [rbind]. rewrite Hq. done. }
    destruct (restored [m] (b_skew p) (b_order p) [init] (b_dipcomp p) s s2' s2 i Hfv Hi Hr) as (x&Hx&Hrest). rewrite Hx. apply Hrest.
    apply elem_of_list_singleton in Hi as ->.
    assert (skew_limit s2' m = skew_limit s m) as ->.
    { unfold skew_limit. by rewrite (plain_attr "SkewQuadLimit" ltac:(intros [?|?]; discriminate) ltac:(not_field) _ _ _ _ _ _ Hu2). }
    destruct Hlim as [?|[?|[?|(l&y&Hl&Hy&Hle)]]]; [by left|by right; left|by right; right; left|].
    destruct (b_skew p) eqn:Es; [|by left]. destruct (decide (b_order p = 1%nat)) as [Ho|]; [|by right; left].
    right; right; right. exists l. split; [done|]. rewrite Ho in Hx. cbn in Hx. rewrite Hy in Hx. injection Hx as <-. done.
  Qed.

  Context (polyfit : list R -> list R -> nat -> list R -> res (list R * list (list R))) (quantile : R -> R).
  Context (p : bba_par R) (bpm_ords mag_ords : list (list nat)).
  (** magnets varied, and those of them varied with dipole compensation *)
  Definition varied (i : nat) : Prop := i ∈ b_q_ords p \/ exists n j, in_table mag_ords n j = Some i.
  Definition varied_with_compensation (i : nat) : Prop := i ∈ b_q_ords p \/ (b_dipcomp p = true /\ exists n j, in_table mag_ords n j = Some i).

  Lemma bba_one_ok q0 scan n bpm j m mags (s0 s s' : sc R) r : field_values "SetPointB" 1 (b_q_ords p) s0 = Ok q0 -> used1 varied varied_with_compensation untouched s0 s ->
    in_table mag_ords n j = Some m -> within_limit s0 (b_skew p) (b_order p) m ->
    bba_one polyfit quantile w p q0 scan n bpm m mags s = (Ok r, s') -> used1 varied varied_with_compensation untouched s0 s'.
  Proof.
    intros Hq0 Hu Hm Hlim H. unfold bba_one in H. apply bind_ok in H as (t1&t2&Hg&H). apply get_ok in Hg as [-> ->].
    apply bind_ok in H as (bi&t1&Hx&H). apply lift_ok in Hx as [_ ->]. apply bind_ok in H as (col&t1&Hx&H). apply lift_ok in Hx as [_ ->].
    apply bind_ok in H as (k&t1&Hx&H). apply lift_ok in Hx as [_ ->]. apply bind_ok in H as (q&t1&Hx&H). apply lift_ok in Hx as [_ ->].
    apply bind_ok in H as (sca&t1&Hx&H). apply lift_ok in Hx as [_ ->]. apply bind_ok in H as ([]&s1&H1&H). apply bind_ok in H as (data&s2&H2&H).
    apply bind_ok in H as ([]&s3&H3&H). apply bind_ok in H as (t1&t2&Hg&H). apply get_ok in Hg as [-> ->]. apply lift_ok in H as [_ ->].
    set (E1 := fun (i : nat) (sk : bool) (k : nat) => i ∈ b_q_ords p /\ sk = false /\ k = 1%nat).
    assert (used1 varied varied_with_compensation E1 s s1) as Hu1.
    { eapply used1_set_magnet; [|exact H1]. intros i Hi. split; [by left|]. split; [done|]. intros _ _. by left. }
    assert (used1 varied varied_with_compensation E1 s0 s1) as Hu01.
    { transitivity s; [|done]. destruct Hu as [Hu ?]. split; [|done]. eapply used_mono; [by intros|by intros| |exact Hu]. by intros. }
    assert (within_limit s1 (b_skew p) (b_order p) m) as Hlim1.
    { destruct Hu01 as [Hu01 _]. unfold within_limit in *.
      assert (skew_limit s1 m = skew_limit s0 m) as ->.
      { unfold skew_limit. by rewrite (plain_attr "SkewQuadLimit" ltac:(intros [?|?]; discriminate) ltac:(not_field) _ _ _ _ _ _ Hu01). }
      destruct Hu01 as (_&_&_&_&_&A6). pose proof (A6 m true 1%nat) as A7. cbn [setpoint_name] in A7. rewrite A7; [done| |]; [intros (_&?&_); discriminate|intros (_&_&?&_); discriminate]. }
    assert (used1 varied varied_with_compensation untouched s1 s2) as [Hu2 Hi2].
    { apply measurement_ok in H2 as [H2 ?]; [|done]. split; [|done]. eapply used_mono; [| | |exact H2]; [intros i <-; right; eauto|intros i [? ->]; right; eauto|by intros]. }
    eapply (phase_restored varied varied_with_compensation); [|exact Hq0| |exact H3]; [intros i Hi; split; by left|].
    transitivity s1; [exact Hu01|]. split; [|done]. eapply used_mono; [by intros|by intros| |exact Hu2]. by intros.
  Qed.

  Lemma mapM_inv {A B} (I : sc R -> Prop) (f : A -> M (sc R) B) l : forall s ys s',
    (forall x s y s', x ∈ l -> I s -> f x s = (Ok y, s') -> I s') -> I s -> mapM l f s = (Ok ys, s') -> I s'.
  Proof.
    induction l as [|x l IH]; intros s ys s' Hf Hs H; cbn [mapM] in H.
    - by apply ret_ok in H as [_ ->].
    - apply bind_ok in H as (y&s1&H1&H). apply bind_ok in H as (ys'&s2&H2&H). apply ret_ok in H as [_ ->].
      eapply IH; [|eapply Hf; [by left|exact Hs|exact H1]|exact H2]. intros z t u t' Hz. apply Hf. by right.
  Qed.
  Lemma bba_plane_ok q0 n bpms mags strengths (s0 s s' : sc R) r : field_values "SetPointB" 1 (b_q_ords p) s0 = Ok q0 -> used1 varied varied_with_compensation untouched s0 s ->
    mag_ords !! n = Some mags -> (forall i, varied i -> within_limit s0 (b_skew p) (b_order p) i) ->
    bba_plane polyfit quantile w p q0 n bpms mags strengths s = (Ok r, s') -> used1 varied varied_with_compensation untouched s0 s'.
  Proof.
    intros Hq0 Hu Hn Hlim H. unfold bba_plane in H. apply bind_ok in H as (t1&t2&Hg&H). apply get_ok in Hg as [-> ->].
    apply bind_ok in H as (b&t1&Hx&H). apply lift_ok in Hx as [_ ->]. apply bind_ok in H as (li&t1&Hx&H). apply lift_ok in Hx as [_ ->].
    apply bind_ok in H as (scan&s1&H1&H). eapply (mapM_inv (used1 varied varied_with_compensation untouched s0)); [| |exact H].
    - intros [j bpm] t y t' _ Ht Hb. apply bind_ok in Hb as (m&t1&Hm&Hb). apply lift_ok in Hm as [Hm ->]. apply idx_ok in Hm. apply bind_ok in Hb as (st&t1&Hx&Hb). apply lift_ok in Hx as [_ ->].
      assert (in_table mag_ords n j = Some m) as Hmt by (unfold in_table; rewrite Hn; exact Hm).
      eapply bba_one_ok; [exact Hq0|exact Ht|exact Hmt|apply Hlim; right; eauto|exact Hb].
    - transitivity s; [done|]. eapply phase_scan_ok; [|exact H1]. intros i Hi. split; by left.
  Qed.

  (** After a successful alignment the injection is as before; of the set-points only the kicks of compensated bending magnets may differ; and the
      offsets of BPMs differ by the accepted measurements that are returned. *)
  Theorem C67_restored strengths (s s' : sc R) table :
    trajectory_bba polyfit quantile w bpm_ords mag_ords p strengths s = (Ok table, s') -> (forall i, varied i -> within_limit s (b_skew p) (b_order p) i) ->
    exists s1, used1 varied varied_with_compensation untouched s s1 /\
      only_offsets (accepts bpm_ords (map (map (fun x => Some x.1)) table) (map (map (fun x => Some x.2)) table)) s1 s' /\
      (Forall NoDup bpm_ords -> forall i j b x e, in_table bpm_ords i j = Some b -> in_table table i j = Some (x, e) -> accepted (Some x) (Some e) x ->
         exists o, entry s1 b "Offset" i = Some o /\ entry s' b "Offset" i = Some (o + x)).
  Proof.
    intros H Hlim. unfold trajectory_bba in H. apply bind_ok in H as (t1&t2&Hg&H). apply get_ok in Hg as [-> ->].
    apply bind_ok in H as (str&t1&Hx&H). apply lift_ok in Hx as [_ ->]. destruct (negb _ || negb _); [discriminate|].
    apply bind_ok in H as (q0&t1&Hq0&H). apply lift_ok in Hq0 as [Hq0 ->]. apply bind_ok in H as (tab&s1&H1&H). apply bind_ok in H as ([]&s2&H2&H). apply ret_ok in H as [-> ->].
    exists s1. split; [|split].
    - eapply (mapM_inv (used1 varied varied_with_compensation untouched s)); [| |exact H1].
      + intros [n bpms] t y t' _ Ht Hb. apply bind_ok in Hb as (mags&t1&Hm&Hb). apply lift_ok in Hm as [Hm ->]. apply idx_ok in Hm. apply bind_ok in Hb as (st&t1&Hx&Hb). apply lift_ok in Hx as [_ ->].
        eapply bba_plane_ok; [exact Hq0|exact Ht|exact Hm|exact Hlim|exact Hb].
      + reflexivity.
    - by apply C54_only_accepted in H2 as [H2 _].
    - intros Hnd i j b x e Hb Ht Ha.
      assert (forall {A} (f : R * R -> A), in_table (map (map f) table) i j = Some (f (x, e))) as Hmap.
      { intros A f. unfold in_table in *. change (@map) with (@fmap list _). rewrite list_lookup_fmap. destruct (table !! i) as [row|]; [|discriminate]. cbn in *. by rewrite list_lookup_fmap, Ht. }
      eapply C54_applied; [exact H2|exact Hnd|exact Hb|exact (Hmap _ (fun x => Some x.1))|exact (Hmap _ (fun x => Some x.2))|exact Ha].
  Qed.
  (** Wrong shapes, a fit of higher than second order, or another mode than two turns of trajectories are refused, nothing changed. *)
  Theorem C67_refused strengths (s : sc R) : shape bpm_ords <> shape mag_ords \/ (2 < b_fit_order p)%nat \/ trackMode (INJ s) <> "TBT" \/ nTurns (INJ s) <> 2%nat ->
    trajectory_bba polyfit quantile w bpm_ords mag_ords p strengths s = (Err ValueError, s).
  Proof.
    intros H. unfold trajectory_bba. unfold bind at 1, get. unfold bind at 1, lift at 1. unfold bba_check_input.
    destruct (decide (shape bpm_ords = shape mag_ords)) as [Hs|]; [|done]. destruct (2 <? b_fit_order p)%nat eqn:Ef; [done|]. apply Nat.ltb_ge in Ef.
    destruct (negb (bool_decide (trackMode (INJ s) = "TBT")) || negb (nTurns (INJ s) =? 2)%nat) eqn:Em; [done|].
    apply orb_false_iff in Em as [E1 E2]. apply negb_false_iff in E1, E2. apply bool_decide_eq_true in E1. apply Nat.eqb_eq in E2. exfalso. destruct H as [?|[?|[?|?]]]; [done|lia|done|done].
  Qed.
End C67.

Print Assumptions C56_scaling.
Print Assumptions C67_restored.
Print Assumptions C67_refused.
