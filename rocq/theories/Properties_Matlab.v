(** C76-C78, C80, C81: the functions with Matlab names. *)
From Coq Require Import Reals Lra Lia QArith ZArith Sorting.Sorted.
From stdpp Require Import base gmap strings list.
From Verif Require Import Num Base Model_Arr Model_SC Model_Err Model_Beam Model_Pinv Model_Orbit Model_Bba Model_OrbBba Model_Inject Model_Scan Model_Matlab Lemmas Proofs_Update Proofs_Beam Proofs_Mat Proofs_Penrose Spec.
From Verif Require Properties_Rf Properties_Thread Properties_Setpoint Properties_Setpoint3 Properties_Setpoint4 Properties_Align Properties_Pinv Properties_Bba.
Local Open Scope string_scope.
Local Open Scope list_scope.

(** * C76: set-points with the numbers of Matlab *)
(** Matlab numbers planes from one: 1 horizontal (normal component), 2 vertical (skew component) *)
Definition plane_of (nDim : Z) : option bool := match nDim with 1%Z => Some false | 2%Z => Some true | _ => None end.
(** and the type of a magnet component: 1 skew, 2 normal *)
Definition component_of (type : Z) : option bool := match type with 1%Z => Some true | 2%Z => Some false | _ => None end.
Lemma plane_cases n : match plane_of n with
  | Some skew => one_or_two n = true /\ (n =? 2)%Z = skew
  | None => one_or_two n = false end.
Proof. unfold one_or_two. destruct n as [|[p|[]|]|]; try done; by destruct p. Qed.
Lemma component_cases n : match component_of n with
  | Some skew => one_or_two n = true /\ (n =? 1)%Z = skew
  | None => one_or_two n = false end.
Proof. unfold one_or_two. destruct n as [|[p|[]|]|]; try done; by destruct p. Qed.

Section C76.
  Context {T : Type} {N : Num T}.
  Theorem C76_rejected ords dt (sps : list T) n mode dc (s : sc T) :
    (plane_of n = None -> SCgetCMSetPoints ords n s = Err ValueError /\ SCsetCMs2SetPoints ords dt sps n mode s = (Err ValueError, s)) /\
    (component_of n = None -> forall order, SCsetMags2SetPoints ords dt n order sps mode dc s = (Err ValueError, s)).
  Proof.
    split.
    - intros H. pose proof (plane_cases n) as P. rewrite H in P. unfold SCgetCMSetPoints, SCsetCMs2SetPoints. by rewrite P.
    - intros H order. pose proof (component_cases n) as P. rewrite H in P. unfold SCsetMags2SetPoints. by rewrite P.
  Qed.
  (** reading back never changes the machine, so a returning call of the setter leaves the machine of the plain method *)
  Theorem C76_same_machine ords dt (sps : list T) n skew mode (s s' : sc T) l : plane_of n = Some skew ->
    SCsetCMs2SetPoints ords dt sps n mode s = (Ok l, s') ->
    set_cm_setpoints ords dt sps skew mode s = (Ok tt, s') /\ SCgetCMSetPoints ords n s' = Ok l.
  Proof.
    intros Hn H. pose proof (plane_cases n) as P. rewrite Hn in P. destruct P as [P1 P2]. unfold SCsetCMs2SetPoints, SCgetCMSetPoints in *. rewrite P1, P2 in *.
    apply bind_ok in H as ([]&s1&H1&H). apply bind_ok in H as (s2&s3&H2&H). apply get_ok in H2 as [-> ->]. apply lift_ok in H as [H ->]. done.
  Qed.
End C76.
(** correctors: the returned list is what has been asked for, cut at the limit of each corrector in that plane *)
Theorem C76_correctors ords sps n skew (s s' : sc R) l : plane_of n = Some skew -> NoDup ords -> length sps = length ords ->
  SCsetCMs2SetPoints ords DFloat sps n "abs" s = (Ok l, s') ->
  l = zip_with (fun i x => clipped (cm_limit s i skew) x) ords sps /\ SCgetCMSetPoints ords n s' = Ok l.
Proof.
  intros Hn Hnd HL H. destruct (C76_same_machine _ _ _ _ _ _ _ _ _ Hn H) as [H1 H2]. split; [|done].
  pose proof (Properties_Setpoint.C08_readback _ _ _ _ _ Hnd HL H1) as Hr. pose proof (plane_cases n) as P. rewrite Hn in P. destruct P as [P1 P2].
  unfold SCgetCMSetPoints in H2. rewrite P1, P2, Hr in H2. by injection H2 as <-.
Qed.
(** magnets: component [order - 1] of the normal or skew set-points *)
Theorem C76_magnets ords sps type skew order method dc (s s' : sc R) : component_of type = Some skew -> (1 <= order)%nat -> length sps = length ords ->
  SCsetMags2SetPoints ords DFloat type order sps method dc s = (Ok tt, s') ->
  (forall i x, last (Properties_Setpoint.values_for i ords sps) = Some x -> exists y, Properties_Setpoint3.magnet_request method s i skew (order - 1) x = Some y /\
     entry s' i (if skew then "SetPointA" else "SetPointB") (order - 1) = Some (Properties_Setpoint3.limited s i skew (order - 1) y)) /\
  (dc = false -> NoDup ords -> forall i k, k <> (order - 1)%nat \/ i ∉ ords ->
     entry s' i (if skew then "SetPointA" else "SetPointB") k = entry s i (if skew then "SetPointA" else "SetPointB") k).
Proof.
  intros Hn Ho HL H. pose proof (component_cases type) as P. rewrite Hn in P. destruct P as [P1 P2]. unfold SCsetMags2SetPoints in H. rewrite P1, P2 in H. split.
  - intros i x Hx. exact (Properties_Setpoint4.C12_meaning_with_compensation _ _ _ _ _ _ _ _ _ _ H HL Hx).
  - intros -> Hnd. exact (proj2 (Properties_Setpoint3.C12_meaning _ _ _ _ _ _ _ Hnd HL H)).
Qed.
Print Assumptions C76_rejected.
Print Assumptions C76_same_machine.
Print Assumptions C76_correctors.
Print Assumptions C76_magnets.

(** * C77: the RF corrections under their Matlab names *)
Section C77.
  Context {T : Type} {N : Num T} {G : Trig T}.
  (** Finding: the energy correction never runs; all that is left of the call is the changed number of turns. *)
  Theorem C77_finding_energy cavOrd (f0 f1 : T) nSteps nturns minTurns (s : sc T) :
    exists s', SCsynchEnergyCorrection cavOrd f0 f1 nSteps nturns minTurns s = (Err TypeError, s') /\ s' = set_INJ (INJ s') s /\
      nTurns (INJ s') = nturns /\ with_nTurns (nTurns (INJ s)) (INJ s') = INJ s.
  Proof.
    eexists. split; [reflexivity|]. destruct s as [? ? [] ? ? ?]. simpl. done.
  Qed.
End C77.
Local Open Scope R_scope.
Section C77R.
  Context (w : world R) (line : list R -> list R -> list R -> res (option R * option R)) (sine_fit : list (R * R * option R) -> res (sine R)) (root : (R -> R) -> R -> res (option R)).
  Definition with_turns (n : nat) (s : sc R) : sc R := set_INJ (MkInj (beamLostAt (INJ s)) (Z0ideal (INJ s)) (Z0 (INJ s)) (beamSize (INJ s)) (randomInjectionZ (INJ s)) (nParticles (INJ s)) n (nShots (INJ s)) (trackMode (INJ s))) s.
  (** A returning phase correction is the correction of the machine with the given number of turns, and the number of turns is the old one
      again; a failing one keeps the number of turns of the call. *)
  Theorem C77_phase cavs n turns (s s' : sc R) r : SCsynchPhaseCorrection w line sine_fit root cavs n turns s = (r, s') ->
    exists s1, correct_rf_phase w line sine_fit root cavs None n (with_turns turns s) = (r, s1) /\
      match r with Ok _ => s' = with_turns (nTurns (INJ s)) s1 | Err _ => s' = s1 end.
  Proof.
    unfold SCsynchPhaseCorrection. unfold bind at 1, get. unfold bind at 1. unfold mod_INJ at 1, modify at 1. cbn beta iota. unfold bind at 1.
    change (set_INJ (with_nTurns turns (INJ s)) s) with (with_turns turns s).
    destruct (correct_rf_phase w line sine_fit root cavs None n (with_turns turns s)) as [[[]|e] s1]; intros [= <- <-]; exists s1; done.
  Qed.
  (** What a returning call has done: the cavities are moved by one delay within half a wavelength, everything else, the number of turns
      included, is as before. *)
  Theorem C77_phase_effect cavs n turns (s s' : sc R) : let C := Properties_Rf.used (oRF (ORD s)) cavs in NoDup C ->
    SCsynchPhaseCorrection w line sine_fit root cavs n turns s = (Ok tt, s') ->
    (3 <= turns)%nat /\ exists c freq d, C !! 0%nat = Some c /\ number s c "FrequencySetPoint" = Some freq /\ freq <> 0 /\
      (0 < freq -> - (299792458 / freq) / 2 < d <= 299792458 / freq / 2) /\ Properties_Rf.moved_by "TimeLag" C d s s'.
  Proof.
    intros C Hnd H. destruct (C77_phase _ _ _ _ _ _ H) as (s1&H1&->).
    destruct (Properties_Rf.C51_phase w line sine_fit root cavs None n (with_turns turns s) s1 Hnd H1) as [(Ht&_) (c&freq&lamb&tests&ys&data&f&Hc&Hf&Hne&El&_&_&_&_&_&_&_&_&first&top&x&d&_&_&_&_&Hd&Hm)].
    split; [exact Ht|]. exists c, freq, d. change (number (with_turns turns s) c "FrequencySetPoint") with (number s c "FrequencySetPoint") in Hf. do 3 (split; [done|]). split.
    - intros Hpos. subst lamb. apply Hd. apply Rdiv_lt_0_compat; [lra|done].
    - destruct Hm as ((A1&A2&A3&A4&A5&A6)&B&D). split; [|split; [exact B|exact D]]. split; [exact A1|]. split; [|exact (conj A3 (conj A4 (conj A5 A6)))].
      change (INJ (with_turns (nTurns (INJ s)) s1)) with (with_nTurns (nTurns (INJ s)) (INJ s1)). rewrite A2. by destruct s as [? ? [] ? ? ?].
  Qed.
End C77R.
Print Assumptions C77_finding_energy.
Print Assumptions C77_phase.
Print Assumptions C77_phase_effect.

(** * C78: feedback with a given pseudo-inverse *)
Section C78.
  Context (w : world R) (npinv : list (list R) -> list (list R)) (svd : list (list R) -> list (list R) * list R * list (list R)).
  Notation spinv := (fun m => Model_Pinv.pinv svd m 0 0 1).
  (** The matrix given ([n] correctors times [m] readings) is inverted by numpy and again by the function called: both are right on it. *)
  Definition inverted_twice (n m : nat) (Mplus : list (list R)) : Prop :=
    penrose n m Mplus (npinv Mplus) /\ Properties_Pinv.is_svd m n (npinv Mplus) (svd (npinv Mplus)).1.1 (svd (npinv Mplus)).1.2 (svd (npinv Mplus)).2.
  (** The matrix used is the matrix given, whatever its rank and however it has been regularised. *)
  Theorem C78_same_matrix n m Mplus : inverted_twice n m Mplus -> spinv (npinv Mplus) = Mplus.
  Proof.
    intros [P S]. unfold Model_Pinv.pinv. destruct (svd (npinv Mplus)) as [[u sv] vt] eqn:E. simpl in S.
    destruct (Properties_Pinv.svd_pos _ _ _ _ _ _ S) as (Hm&Hn&_).
    apply (penrose_unique m n (npinv Mplus)); [done|done| |by apply penrose_sym].
    pose proof (Properties_Pinv.C58_penrose m n (npinv Mplus) u sv vt S) as (A&B&C&D&F).
    exact (conj (Properties_Pinv.svd_a _ _ _ _ _ _ S) (conj A (conj B (conj C (conj D F))))).
  Qed.
  (** what a call without a reference compares with: zero for every reading *)
  Definition reference_of (m : nat) (R0 : option (list R)) : list R := match R0 with Some r => r | None => replicate m 0 end.
  Lemma used_reference_of n m Mplus R0 : inverted_twice n m Mplus -> Properties_Thread.used_reference (npinv Mplus) R0 = reference_of m R0.
  Proof. intros [(_&[L _]&_) _]. unfold Properties_Thread.used_reference. destruct R0; [done|]. simpl. by rewrite L. Qed.
  Notation session := Properties_Thread.session.
  Theorem C78_first_turn n m Mplus R0 cms bpms maxsteps (s s' : sc R) l :
    let B := Properties_Thread.used_bpms s bpms in let C := Properties_Thread.used_cms s cms in
    inverted_twice n m Mplus -> StronglySorted lt C.1 -> StronglySorted lt C.2 ->
    SCfeedbackFirstTurn w npinv spinv Mplus R0 cms bpms maxsteps s = (Ok l, s') ->
    exists rs, session w B (Properties_Thread.threading_step Mplus (reference_of m R0) B C) s rs s' /\ (length rs <= S maxsteps)%nat /\ Properties_Thread.full_transmission 5 rs.
  Proof.
    intros B C Hi H1 H2 H. destruct (Properties_Thread.C44_success w spinv _ _ _ _ _ _ _ _ H1 H2 H) as (_&rs&A&A2&A3&_).
    cbv beta in A. rewrite (C78_same_matrix n m) in A by done. rewrite (used_reference_of n m) in A by done. by exists rs.
  Qed.
  Theorem C78_stitch n m Mplus R0 cms bpms k maxsteps (s s' : sc R) l :
    let B := Properties_Thread.used_bpms s bpms in let C := Properties_Thread.used_cms s cms in
    inverted_twice n m Mplus -> SCfeedbackStitch w npinv spinv Mplus R0 cms bpms k maxsteps s = (Ok l, s') ->
    nTurns (INJ s) = 2%nat /\ exists rs, session w B (Properties_Thread.stitching_step (length B) k (reference_of m R0) Mplus C) s rs s' /\
      (length rs <= S (S maxsteps))%nat /\ Properties_Thread.full_transmission 5 rs.
  Proof.
    intros B C Hi H. destruct (Properties_Thread.C46_success w spinv _ _ _ _ _ _ _ _ _ H) as (A1&_&rs&A2&A3&A4&_).
    cbv beta in A2. rewrite (C78_same_matrix n m) in A2 by done. rewrite (used_reference_of n m) in A2 by done. split; [done|]. by exists rs.
  Qed.
  Theorem C78_balance n m Mplus R0 cms bpms eps maxsteps (s s' : sc R) l :
    let B := Properties_Thread.used_bpms s bpms in let C := Properties_Thread.used_cms s cms in
    inverted_twice n m Mplus -> SCfeedbackBalance w npinv spinv Mplus R0 cms bpms eps maxsteps s = (Ok l, s') ->
    nTurns (INJ s) = 2%nat /\ exists rs, session w B (Properties_Thread.correction_step (fun r => Properties_Thread.two_turn_deviation (length B) (length B) r (reference_of m R0)) Mplus C) s rs s' /\
      (length rs <= S maxsteps)%nat.
  Proof.
    intros B C Hi H. destruct (Properties_Thread.C45_balance w spinv _ _ _ _ _ _ _ _ _ H) as (A1&_&rs&A2&A3&_).
    cbv beta in A2. rewrite (C78_same_matrix n m) in A2 by done. rewrite (used_reference_of n m) in A2 by done. split; [done|]. by exists rs.
  Qed.
  Theorem C78_run n m Mplus R0 cms bpms eps target maxsteps scale (s s' : sc R) l :
    let B := Properties_Thread.used_bpms s bpms in let C := Properties_Thread.used_cms s cms in
    inverted_twice n m Mplus -> (0 < maxsteps)%nat -> SCfeedbackRun w npinv spinv Mplus R0 cms bpms eps target maxsteps scale s = (Ok l, s') ->
    exists rs, session w B (Properties_Thread.orbit_correction_step (reference_of m R0) Mplus scale C) s rs s' /\ (2 <= length rs <= S maxsteps)%nat /\
      (Properties_Thread.converged (Nat.min 5 maxsteps) eps rs \/ Properties_Thread.converged 5 eps rs \/ maxsteps = 1%nat).
  Proof.
    intros B C Hi Hm H. destruct (Properties_Thread.C45_correct w spinv _ _ _ _ _ _ _ _ _ _ _ Hm H) as (rs&A2&A3&_&A4&_).
    cbv beta in A2. rewrite (C78_same_matrix n m) in A2 by done. rewrite (used_reference_of n m) in A2 by done. by exists rs.
  Qed.
End C78.
Print Assumptions C78_same_matrix.
Print Assumptions C78_first_turn.
Print Assumptions C78_stitch.
Print Assumptions C78_balance.
Print Assumptions C78_run.

(** * C80: the transformation of a misaligned magnet *)
Definition total (e : elem R) (a b : string) (x y z : R) : Prop :=
  exists p q, e !! a = Some (VVec p) /\ e !! b = Some (VVec q) /\ length p = length q /\ zip_with Rplus p q = [x; y; z].
Lemma total_three (e : elem R) a b x y z : total e a b x y z -> (let? p := attr e a in let? q := attr e b in let? c := nb_op nadd p q in three c) = Ok (x, y, z).
Proof.
  intros (p&q&Hp&Hq&HL&HE). unfold attr. rewrite Hp, Hq. cbn [rbind nb_op]. unfold bcast. rewrite HL, Nat.eqb_refl. cbn [rbind].
  assert (zip_with nadd p q = [x; y; z]) as -> by exact HE. done.
Qed.
(** [e'] carries the four fields of the transformation *)
Definition transformed (e' : elem R) (t1 t2 : list R) (r1 r2 : list (list R)) : Prop :=
  e' !! "T1" = Some (VVec t1) /\ e' !! "T2" = Some (VVec t2) /\ e' !! "R1" = Some (VMat r1) /\ e' !! "R2" = Some (VMat r2).
Lemma transformation_reads minv (e1 e2 : elem R) len th dx dy dz rz rx ry :
  Properties_Align.number_or_absent e1 "Length" len -> Properties_Align.number_or_absent e2 "Length" len ->
  Properties_Align.number_or_absent e1 "BendingAngle" th -> Properties_Align.number_or_absent e2 "BendingAngle" th ->
  total e1 "SupportOffset" "MagnetOffset" dx dy dz -> total e2 "SupportOffset" "MagnetOffset" dx dy dz ->
  total e1 "MagnetRoll" "SupportRoll" rz rx ry -> total e2 "MagnetRoll" "SupportRoll" rz rx ry ->
  match update_transformation minv e1, update_transformation minv e2 with
  | (Ok _, e1'), (Ok _, e2') => exists t1 t2 r1 r2, transformed e1' t1 t2 r1 r2 /\ transformed e2' t1 t2 r1 r2
  | (Err x, _), (Err y, _) => x = y
  | _, _ => False
  end.
Proof.
  intros L1 L2 A1 A2 O1 O2 R1 R2. unfold update_transformation.
  rewrite !run_getm, (Properties_Align.num_default_ok _ _ _ L1), (Properties_Align.num_default_ok _ _ _ L2).
  rewrite !run_getm, (Properties_Align.num_default_ok _ _ _ A1), (Properties_Align.num_default_ok _ _ _ A2).
  rewrite !run_getm, (total_three _ _ _ _ _ _ O1), (total_three _ _ _ _ _ _ O2).
  rewrite !run_getm, (total_three _ _ _ _ _ _ R1), (total_three _ _ _ _ _ _ R2). cbn [fst snd].
  rewrite !run_lift. destruct (translation_vector _ _ _ _ _) as [tv|]; [|done].
  rewrite !run_lift. destruct (r_matrix _ _) as [r1|]; [|done].
  rewrite !run_setattr, !run_lift. destruct (minv r1) as [inv|]; [|done].
  rewrite !run_setattr. rewrite !run_lift. destruct (translation_vector _ _ _ _ _) as [t2|]; [|done].
  rewrite !run_setattr. rewrite !run_lift. destruct (r_matrix _ _) as [r2|]; [|done].
  unfold setattr, modify. exists (mvec inv tv), t2, r1, r2.
  split; (split; [|split; [|split]]); repeat (rewrite lookup_insert_ne by done); by rewrite lookup_insert.
Qed.
Theorem C80_not_implemented minv (dx dy dz ax ay az th len : R) : SCgetTransformation minv dx dy dz ax ay az th len "center" = Err RuntimeError.
Proof. reflexivity. Qed.
(** Any other reference point: the transformation that update_supports stores on a magnet of this length and bending angle with these
    offsets in total and these angles about x, y and z in total (the first component of a roll is the one about z). *)
Theorem C80_transformation minv (dx dy dz ax ay az th len : R) ref (e : elem R) : ref <> "center" ->
  Properties_Align.number_or_absent e "Length" len -> Properties_Align.number_or_absent e "BendingAngle" th ->
  total e "SupportOffset" "MagnetOffset" dx dy dz -> total e "MagnetRoll" "SupportRoll" az ax ay ->
  forall t1 t2 r1 r2, SCgetTransformation minv dx dy dz ax ay az th len ref = Ok (t1, t2, r1, r2) <->
    exists e', update_transformation minv e = (Ok tt, e') /\ transformed e' t1 t2 r1 r2.
Proof.
  intros Hr L2 A2 O2 R2 t1 t2 r1 r2. unfold SCgetTransformation. rewrite bool_decide_false by done.
  set (e1 := list_to_map _). assert (Properties_Align.number_or_absent e1 "Length" len) as L1 by (left; reflexivity).
  assert (Properties_Align.number_or_absent e1 "BendingAngle" th) as A1 by (left; reflexivity).
  assert (total e1 "SupportOffset" "MagnetOffset" dx dy dz) as O1.
  { exists [0; 0; 0], [dx; dy; dz]. split; [reflexivity|]. split; [reflexivity|]. split; [done|]. simpl. by rewrite !Rplus_0_l. }
  assert (total e1 "MagnetRoll" "SupportRoll" az ax ay) as R1.
  { exists [az; ax; ay], [0; 0; 0]. split; [reflexivity|]. split; [reflexivity|]. split; [done|]. simpl. by rewrite !Rplus_0_r. }
  clearbody e1. pose proof (transformation_reads minv e1 e len th dx dy dz az ax ay L1 L2 A1 A2 O1 O2 R1 R2) as H.
  destruct (update_transformation minv e1) as [[[]|x1] e1'], (update_transformation minv e) as [[[]|x2] e2']; try done.
  - destruct H as (a&b&c&d&(P1&P2&P3&P4)&(Q1&Q2&Q3&Q4)). unfold attr_vec, attr_mat, attr. rewrite P1, P2, P3, P4. cbn [rbind as_vec]. split.
    + intros [= -> -> -> ->]. exists e2'. done.
    + intros (e'&[= <-]&S1&S2&S3&S4). congruence.
  - subst. split; [done|]. by intros (?&?&_).
Qed.
Print Assumptions C80_not_implemented.
Print Assumptions C80_transformation.

(** * C81: choosing by name *)
Section C81.
  Context {T : Type} {N : Num T} {G : Trig T}.
  (** Beam-based alignment.  Finding: an unknown mode is no error, nothing is done. *)
  Theorem C81_bba {A} (traj orb : M (sc T) A) (s : sc T) :
    SCBBA traj orb None s = (Err KeyError, s) /\
    (forall s' r, SCBBA traj orb (Some "TBT") s = (Ok r, s') <-> exists x, r = Some x /\ traj s = (Ok x, s')) /\
    (forall s' r, SCBBA traj orb (Some "ORB") s = (Ok r, s') <-> exists x, r = Some x /\ orb s = (Ok x, s')) /\
    (forall s' e, SCBBA traj orb (Some "TBT") s = (Err e, s') <-> traj s = (Err e, s')) /\
    (forall s' e, SCBBA traj orb (Some "ORB") s = (Err e, s') <-> orb s = (Err e, s')) /\
    (forall m, m <> "TBT" -> m <> "ORB" -> SCBBA traj orb (Some m) s = (Ok None, s)).
  Proof.
    split; [done|]. unfold SCBBA. rewrite bool_decide_true by done. rewrite (bool_decide_false ("ORB" = "TBT")) by done. rewrite (bool_decide_true ("ORB" = "ORB")) by done.
    split; [|split; [|split; [|split]]].
    - intros s' r. unfold bind, ret. destruct (traj s) as [[x|e] s1]; split; try (intros [= <- <-]; by exists x); by intros (y&->&[= <- <-]) || (intros (y&->&?); congruence) || done.
    - intros s' r. unfold bind, ret. destruct (orb s) as [[x|e] s1]; split; try (intros [= <- <-]; by exists x); by intros (y&->&[= <- <-]) || (intros (y&->&?); congruence) || done.
    - intros s' e. unfold bind, ret. destruct (traj s) as [[x|e'] s1]; split; intros [=]; by subst.
    - intros s' e. unfold bind, ret. destruct (orb s) as [[x|e'] s1]; split; intros [=]; by subst.
    - intros m H1 H2. rewrite !bool_decide_false by done. done.
  Qed.
  Theorem C81_fit {A} (trajectory drift : M (sc T) A) (s : sc T) :
    SCfitInjectionZ trajectory drift "fitTrajectory" s = trajectory s /\ SCfitInjectionZ trajectory drift "injectionDrift" s = drift s /\
    forall m, m <> "fitTrajectory" -> m <> "injectionDrift" -> SCfitInjectionZ trajectory drift m s = (Err ValueError, s).
  Proof. split; [done|]. split; [done|]. intros m H1 H2. unfold SCfitInjectionZ. rewrite !bool_decide_false by done. done. Qed.
End C81.
(** Pseudo alignment: every BPM of the table ends within twice the given size of its plane from its magnet. *)
Theorem C81_pseudo bpm_ords mag_ords offset (s s' : sc R) : SCpseudoBBA bpm_ords mag_ords (Some offset) s = (Ok tt, s') -> Forall NoDup bpm_ords ->
  forall i j b m f, Properties_Bba.in_table bpm_ords i j = Some b -> Properties_Bba.in_table mag_ords i j = Some m -> offset !! i = Some (Some f) ->
    exists d, Properties_Bba.distance s' b m i = Some d /\ Rabs d <= 2 * Rabs f.
Proof.
  intros H Hnd i j b m f Hb Hm Hf. unfold SCpseudoBBA in H. eapply Properties_Bba.C55_near_magnet; [exact H|exact Hnd| |exact Hb|exact Hm|exact Hf].
  exists b. exact Hb.
Qed.
(** with no size the call is rejected; whatever happens only offsets of listed BPMs change *)
Theorem C81_pseudo_only bpm_ords mag_ords offset (s s' : sc R) r : SCpseudoBBA bpm_ords mag_ords offset s = (r, s') ->
  Properties_Bba.only_offsets (fun b p => exists j, Properties_Bba.in_table bpm_ords p j = Some b) s s' /\ (offset = None -> r = Err ValueError /\ s' = s).
Proof.
  intros H. split.
  - eapply Properties_Bba.only_offsets_mono; [|exact (Properties_Bba.C55_only_flagged _ _ _ _ _ _ _ H)]. intros b p (j&_&Hj). by exists j.
  - intros ->. unfold SCpseudoBBA in H. rewrite Properties_Bba.C55_nothing_given in H. by injection H as <- <-.
Qed.
Print Assumptions C81_bba.
Print Assumptions C81_fit.
Print Assumptions C81_pseudo.
Print Assumptions C81_pseudo_only.

(** * Cases *)
(** a rank-deficient matrix for three correctors and two readings *)
Example C78_case :
  let given := [[0; 0]; [3/25; 4/25]; [0; 0]] in
  inverted_twice (fun _ => [[0; 3; 0]; [0; 4; 0]]) (fun _ => ([[3/5; 4/5]; [4/5; -(3/5)]], [5; 0], [[0; 1; 0]; [1; 0; 0]])) 3 2 given.
Proof.
  split; [|exact Properties_Pinv.C58_svd_case]. split; [split; [done|repeat constructor]|]. split; [split; [done|repeat constructor]|].
  split; [|split; [|split]]; cbv [mvec mmul mtrans col mget dot nsum map seq length zip_with fold_left default lookup list_lookup mbind option_bind mret option_ret from_option Datatypes.id fst snd]; num_R; Properties_Align.lists; lra.
Qed.
(** the magnet of C34: the girder by (1, 2, 0), the magnet on it by (2, -3, 0) *)
Example C80_case minv : Properties_Align.inverts_identity minv ->
  exists r2, SCgetTransformation minv 3 (-1) 0 0 0 0 0 5 "entrance" = Ok ([- 3; 0; - -1; 0; 0; 0], [3; 0; -1; 0; 0; 0], Properties_Align.ident6, r2).
Proof.
  intros Hi. destruct (Properties_Align.C34_straight minv Properties_Align.shifted_quad [1; 2; 0] [2; -3; 0] [0; 0; 0] [0; 0; 0] 5 3 (-1)) as (e'&E&E0&E1&Er&E2); try done.
  - by left.
  - right. done.
  - simpl. repeat f_equal; ring.
  - simpl. repeat f_equal; ring.
  - eexists. apply (C80_transformation minv 3 (-1) 0 0 0 0 0 5 "entrance" Properties_Align.shifted_quad); [done|by left|by right| | |].
    + exists [1; 2; 0], [2; -3; 0]. repeat split; try reflexivity. simpl. repeat f_equal; ring.
    + exists [0; 0; 0], [0; 0; 0]. repeat split; try reflexivity. simpl. repeat f_equal; ring.
    + exists e'. split; [done|]. split; [exact E1|]. split; [exact E2|]. split; [exact E0|exact Er].
Qed.
Local Open Scope Q_scope.
#[local] Instance TrigQ15 : Trig Q := 
  { ncos := fun x => if Qeq_bool x 0 then 1 else 0; nsin := fun _ => 0; nsqrt := fun x => Qred (Z.sqrt (Qnum x) # Z.to_pos (Z.sqrt (Zpos (Qden x)))); npi := 0 }.
(** corrector 2 has the limit 1; the plane of nDim = 2 is the vertical one *)
Example C76_case_correctors :
  let r := SCsetCMs2SetPoints [1; 2]%nat DFloat [-3; 7] 2 "abs" (Properties_Setpoint.two_cms : sc Q) in
  fst r = Ok [-3; 1] /\ get_cm_setpoints [1; 2]%nat true (snd r) = Ok [-3; 1] /\ get_cm_setpoints [1; 2]%nat false (snd r) = get_cm_setpoints [1; 2]%nat false (Properties_Setpoint.two_cms : sc Q).
Proof. vm_compute. auto. Qed.
(** quadrupoles: type 2 (normal), order 2 *)
Example C76_case_magnets :
  let r := SCsetMags2SetPoints [1; 5]%nat DFloat 2 2 [7; 8] "abs" false (Properties_Setpoint3.sp_machine : sc Q) in
  fst r = Ok tt /\ entry (snd r) 1 "SetPointB" 1 = Some 7 /\ entry (snd r) 5 "SetPointB" 1 = Some 8 /\
  fst (SCsetMags2SetPoints [1; 5]%nat DFloat 3 2 [7; 8] "abs" false (Properties_Setpoint3.sp_machine : sc Q)) = Err ValueError.
Proof. vm_compute. auto. Qed.
(** the machine of C51 with one turn asked for back: the correction runs with its own number of turns *)
Example C77_case_phase :
  let one := set_RNG (replicate 2000 0) (set_INJ (with_nTurns 1 (INJ Properties_Rf.rf_machine)) Properties_Rf.rf_machine) in
  let run := SCsynchPhaseCorrection Properties_Rf.rf_world Properties_Rf.ends (Properties_Rf.a_sine 0) (fun _ _ => Ok (Some (Qred ((3#4) * Properties_Rf.wavelength)))) None 6 20 one in
  let bad := SCsynchPhaseCorrection Properties_Rf.rf_world Properties_Rf.ends (Properties_Rf.a_sine 4) (fun _ _ => Ok (Some 1)) None 6 20 one in
  fst run = Ok tt /\ nTurns (INJ (snd run)) = 1%nat /\ number (snd run) 1 "TimeLagSetPoint" = Some (Qred (- (1#4) * Properties_Rf.wavelength)) /\
  fst bad = Err TypeError /\ nTurns (INJ (snd bad)) = 20%nat.
Proof. vm_compute. repeat split. Qed.
Example C81_case_pseudo :
  let run := SCpseudoBBA [[0; 1]; [0; 1]]%nat [[3; 4]; [3; 4]]%nat (Some [Some (1#10000); Some 0]) (set_RNG [1; 3; -1; 0; 2] Properties_Bba.bba_rest) in
  fst run = Ok tt /\ map (fun i => (entry (snd run) i "Offset" 0, entry (snd run) i "Offset" 1)) [0; 1]%nat =
    [(Some (1#5000), Some 0); (Some (-11#10000), Some (3#10000))].
Proof. vm_compute. repeat split. Qed.
