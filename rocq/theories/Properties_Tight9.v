(** C66 and C38, further: the merit that the chromaticity fit minimises; the trajectories returned with the readings. *)
From Coq Require Import Reals Lra Lia.
From stdpp Require Import base gmap strings list.
From Verif Require Import Num Base Model_Arr Model_SC Model_Err Model_Beam Model_Orbit Model_Scan Lemmas Proofs_Beam Spec Properties_Beam Properties_Orbit Properties_Tune Properties_Tight6.
Local Open Scope string_scope.
Local Open Scope list_scope.
Local Open Scope R_scope.

(** Specification: root of the mean of the squared distances from the goal, missing if one of the numbers is. *)
Definition distance_from (nu : list (option R)) (goal : list R) (y : option R) : Prop :=
  length nu = length goal /\
  ((None ∈ nu /\ y = None) \/ exists l, nu = map Some l /\ y = Some (R_sqrt.sqrt (avg (zip_with (fun a b => Rsqr (a - b)) l goal)))).
Lemma gap_or_all (nu : list (option R)) : None ∈ nu \/ exists l, nu = map Some l.
Proof.
  induction nu as [|[x|] nu [IH|[l ->]]]; [right; by exists []|left; by constructor|right; by exists (x :: l)|left; constructor..].
Qed.
Lemma rms_diff_spec nu goal y : rms_diff nu goal = Ok y <-> distance_from nu goal y.
Proof.
  assert (forall l, nsqrt (mean (map (fun x : R => nmul x x) (zip_with nsub l goal))) = R_sqrt.sqrt (avg (zip_with (fun a b => Rsqr (a - b)) l goal))) as Em.
  { intros l. change (nsqrt (T:=R)) with R_sqrt.sqrt. f_equal. rewrite mean_avg. f_equal. clear. revert goal. induction l as [|x l IH]; intros [|g goal]; try done. cbn [zip_with map]. by rewrite IH. }
  unfold rms_diff, distance_from. destruct (Nat.eqb_spec (length nu) (length goal)) as [HL|HL]; [|split; [done|intros [? _]; done]]. split.
  - destruct (no_gaps nu) as [l|] eqn:E; intros H; apply (f_equal (fun r => match r with Ok x => x | Err _ => None end)) in H; cbv beta iota in H; rewrite <- H; split; try done.
    + right. apply no_gaps_spec in E. exists l. split; [done|]. by rewrite Em.
    + left. destruct (gap_or_all nu) as [?|[l ->]]; [done|]. by rewrite (proj2 (no_gaps_spec _ l) eq_refl) in E.
  - intros [_ [[Hn ->]|(l&->&->)]].
    + destruct (no_gaps nu) as [l|] eqn:E; [|done]. apply no_gaps_spec in E as ->. apply elem_of_list_fmap in Hn as (?&?&_). done.
    + rewrite (proj2 (no_gaps_spec _ l) eq_refl). by rewrite Em.
Qed.
(** What the fit reports for the trial it leaves behind is the distance of the chromaticities of the machine it leaves from the goal. *)
Theorem C66_merit chrom strategy fuel s_ords target (s s' : sc R) trials x y :
  NoDup (concat s_ords) -> fit_chroma chrom strategy fuel s_ords target s = (Ok trials, s') -> last trials = Some (x, y) ->
  exists goal, map Some goal = default (take 2 (chrom (IDEALRING s))) target /\ distance_from (take 2 (chrom (RING s'))) goal y.
Proof.
  intros Hnd H Hl. apply C66_last_trial in H as (_&_&_&H); [|done]. destruct (H x y Hl) as (_&goal&Hg&Hm). exists goal. split; [done|]. by apply rms_diff_spec.
Qed.
(** A goal with more or fewer numbers than the machine has chromaticities is refused at the first evaluation. *)
Theorem C66_goal_length chrom strategy fuel s_ords goal (s s' : sc R) trials : NoDup (concat s_ords) -> (forall ring, length (take 2 (chrom ring)) <> length goal) ->
  fit_chroma chrom strategy fuel s_ords (Some (map Some goal)) s = (Ok trials, s') -> trials = [] /\ s' = s.
Proof.
  intros Hnd HL H. apply C66_last_trial in H as (_&_&H0&H); [|done]. destruct (last trials) as [[x y]|] eqn:E.
  - destruct (H x y eq_refl) as (_&g&Hg&Hm). apply rms_diff_spec in Hm as [Hm _]. simpl in Hg. apply (f_equal (@length _)) in Hg. rewrite !map_length in Hg. by destruct (HL (RING s')); rewrite Hg in Hm.
  - apply last_None in E as ->. auto.
Qed.
(** The trajectories returned along with the readings of all elements: one per shot, the beam at every element and turn. *)
Definition trajectory (tk : tracked R) (r t : nat) (plane : nat) : list (option R) := map (fun p => t_pos tk plane p r t) (seq 0 (t_parts tk)).
Theorem C38_trajectories (w : world R) (s s' : sc R) xs ys tks : all_elements_reading w s = (Ok (xs, ys, tks), s') ->
  length tks = nShots (INJ s) /\
  Forall (fun tk => exists s1, s1 = set_RNG (RNG s1) s /\ t_turns tk = (if decide (trackMode (INJ s) = "ORB") then 1 else nTurns (INJ s))%nat /\
    forall r t, (t < t_turns tk)%nat -> beam_at w s1 (seq 0 (S (length (RING s)))) r t (trajectory tk r t 0) (trajectory tk r t 1)) tks.
Proof.
  intros H. pose proof H as H'. apply C38_all_elements in H' as (_&HL&_). split; [done|].
  unfold all_elements_reading in H. apply bind_ok in H as (s0&s1&H0&H). apply get_ok in H0 as [-> ->].
  apply bind_ok in H as (shots&s2&H2&H). apply ret_ok in H as [[= <- <- <-] _].
  assert (Forall (fun p => exists sa sb, quiet s sa /\ all_elements_shot w sa = (Ok p, sb)) shots) as HS.
  { apply (mapM_trace quiet) in H2 as [_ HF]; [|intros x; apply quiet_all_shot]. clear -HF. induction HF as [|x y l l' Hxy HF IH]; constructor; [|done]. destruct Hxy as (sa&sb&?&?). eauto. }
  apply Forall_fmap. eapply Forall_impl; [exact HS|]. intros [rows tk] (sa&sb&Q&E). pose proof Q as Q'. apply quiet_same in Q' as (QR&_&QI&_&_). exists sa. split; [exact Q|]. cbn [snd].
  unfold all_elements_shot in E. apply bind_ok in E as (s0&s3&H0&E). apply get_ok in H0 as [-> ->].
  apply bind_ok in E as (tk'&s3&H1&E). apply bind_ok in E as (raw&s4&_&E). apply bind_ok in E as (rows'&s5&_&E). apply ret_ok in E as [[= _ ->] _].
  unfold tracking in H1. apply bind_ok in H1 as (s0&s6&H0&H1). apply get_ok in H0 as [-> ->]. rewrite <- QI, <- QR. unfold beam_at.
  destruct (decide (trackMode (INJ sa) = "ORB")) as [Hm|Hm].
  - apply ret_ok in H1 as [<- _]. split; [done|]. intros r t Ht. cbn in Ht. split; [lia|]. by split.
  - apply bind_ok in H1 as (Z&s7&HZ&H1). apply ret_ok in H1 as [<- _]. split; [done|]. intros r t Ht. exists Z, s7. split; [exact HZ|]. unfold trajectory. cbn [t_parts].
    rewrite !map_length, !seq_length. split; [done|]. split; [done|]. intros p Hp. rewrite !list_lookup_fmap, !lookup_seq_lt by done. done.
Qed.
Print Assumptions C38_trajectories.
Print Assumptions C66_merit.
Print Assumptions C66_goal_length.
(** Cases *)
Example distance_case : distance_from [Some 3; Some 1] [0; 5] (Some (R_sqrt.sqrt (25 / 2))).
Proof. split; [done|]. right. exists [3; 1]. split; [done|]. do 2 f_equal. unfold avg, Rsqr. cbn. field. Qed.
