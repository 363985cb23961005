(** C70, for the whole call: what happens at the first corrector decides. *)
From Coq Require Import Reals Lra Lia ZArith QArith.
From stdpp Require Import base gmap strings list.
From Verif Require Import Num Base Model_Arr Model_SC Model_Err Lemmas Spec Proofs_Update Proofs_Setpoint Proofs_CM Proofs_Loop Proofs_Loop2 Properties_Setpoint Properties_Setpoint2 Properties_Setpoint3
  Model_Beam Proofs_Beam Model_Orbit Model_Lattice Model_Scan Model_Loco Model_Resp Proofs_Back Properties_Rf Properties_Loco2 Properties_Resp Properties_Field Properties_Tight.
Local Open Scope string_scope.
Local Open Scope list_scope.
Local Open Scope R_scope.

(** the first corrector that is used: plane, element, amplitude; the horizontal ones come first *)
Definition first_corrector (hcm vcm : list nat) (a : list R * list R) : option (bool * nat * R) :=
  match hcm, a.1 with
  | cm :: _, x :: _ => Some (false, cm, x)
  | [], _ => match vcm, a.2 with cm :: _, x :: _ => Some (true, cm, x) | _, _ => None end
  | _, _ => None
  end.
(** the measurement gets as far as the first corrector: amplitudes accepted, a reference reading (in orbit mode without gaps), all set-points readable *)
Definition started (w : world R) (amp : amplitude R) bpms hcm vcm (s s1 : sc R) r a : Prop :=
  amplitudes amp hcm vcm = Ok a /\ bpm_reading w (Some bpms) false s = (Ok r, s1) /\ (trackMode (INJ s) <> "ORB" \/ None ∉ both r) /\
  (exists l, get_cm_setpoints hcm false s = Ok l) /\ (exists l, get_cm_setpoints vcm true s = Ok l).

Lemma first_fails w amp bpms hcm vcm mode n (s s1 : sc R) r a skew cm x e s' : started w amp bpms hcm vcm s s1 r a -> first_corrector hcm vcm a = Some (skew, cm, x) ->
  (forall start, response_column w (both r) bpms mode n start skew cm x s1 = (Err e, s')) -> response_matrix w amp bpms hcm vcm mode n s = (Err e, s').
Proof.
  intros (Ha&Hr&Hc&[lh Hh]&[lv Hv]) Hf Hcol. pose proof (pres_run quiet _ _ _ _ (quiet_reading w (Some bpms) false) Hr) as Q. destruct (quiet_same _ _ Q) as (ER&_&EI&_).
  assert (ravel_reading w bpms s = (Ok (both r), s1)) as Hv'. { unfold ravel_reading, bind. by rewrite Hr. }
  assert (forall cms sk, get_cm_setpoints cms sk s1 = get_cm_setpoints cms sk s) as Hg by (intros; unfold get_cm_setpoints; by rewrite ER).
  unfold response_matrix, bind at 1, lift at 1. rewrite Ha. unfold bind at 1. rewrite Hv'. unfold bind at 1, get at 1. rewrite EI.
  assert (bool_decide (trackMode (INJ s) = "ORB") && existsb isNone (both r) = false) as ->.
  { apply andb_false_iff. destruct Hc as [Hc|Hc]; [left; by apply bool_decide_false|]. right. apply not_true_iff_false. rewrite existsb_exists. intros (y&Hy&E). apply elem_of_list_In in Hy. by destruct y. }
  assert (forall sk c cms y ys l, get_cm_setpoints (c :: cms) sk s = Ok l -> (forall start, response_column w (both r) bpms mode n start sk c y s1 = (Err e, s')) -> response_plane w (both r) bpms mode n sk (c :: cms) (y :: ys) s1 = (Err e, s')) as Hp.
  { intros sk c cms y ys l Hl Hcc. unfold response_plane, bind at 1, get at 1. unfold bind at 1, lift at 1. rewrite Hg, Hl. unfold get_cm_setpoints in Hl. apply rmap_ok in Hl. destruct l as [|v l]; [by inversion Hl|].
    cbn [zip zip_with mapM]. unfold bind at 1. cbn [fst snd]. by rewrite Hcc. }
  unfold first_corrector in Hf. destruct hcm as [|c hcm].
  - destruct vcm as [|c vcm]; [done|]. destruct a as [a1 [|y ys]]; [done|]. cbn [snd] in Hf. injection Hf as <- <- <-.
    unfold bind at 1. unfold response_plane at 1. unfold bind at 1, get at 1. unfold bind at 1, lift at 1. rewrite Hg, Hh. unfold get_cm_setpoints in Hh. cbn [rmap] in Hh. injection Hh as <-. cbn [zip zip_with mapM]. unfold ret at 1.
    unfold bind at 1. cbn [snd]. by rewrite (Hp _ _ _ _ _ _ Hv Hcol).
  - destruct a as [[|y ys] a2]; [done|]. cbn [fst] in Hf. injection Hf as <- <- <-. unfold bind at 1. cbn [fst]. by rewrite (Hp _ _ _ _ _ _ Hh Hcol).
Qed.

(** By default the call fails at the first corrector and leaves it kicked by the amplitude, up or down as the limit allows; everything else is as before. *)
Theorem C70_finding_default w amp bpms hcm vcm (s s1 s' : sc R) r a skew cm x p : started w amp bpms hcm vcm s s1 r a -> first_corrector hcm vcm a = Some (skew, cm, x) ->
  kick_amplitude w (both r) bpms cm x skew "fixedKick" s1 = (Ok p, s') ->
  response_matrix w amp bpms hcm vcm "fixedKick" 2 s = (Err IndexError, s') /\
  exists v y, get_cm_setpoints [cm] skew s = Ok [v] /\ kicked s s' cm skew y /\ (y = clipped (cm_limit s cm skew) (v + x) \/ y = clipped (cm_limit s cm skew) (v - x)).
Proof.
  intros Hs Hf Hk. split.
  - eapply first_fails; [exact Hs|exact Hf|]. intros start. by destruct (C70_finding_left_kicked w (both r) bpms cm start x skew s1 s' p Hk).
  - destruct Hs as (_&Hr&_). pose proof (pres_run quiet _ _ _ _ (quiet_reading w (Some bpms) false) Hr) as Q. destruct (quiet_same _ _ Q) as (ER&_).
    destruct (C70_finding_left_kicked w (both r) bpms cm 0 x skew s1 s' p Hk) as (_&v&y&Hv&K&Hy). exists v, y.
    assert (cm_limit s1 cm skew = cm_limit s cm skew) as <- by (apply settings_limit; by apply quiet_settings).
    split; [unfold get_cm_setpoints in *; by rewrite <- ER|]. split; [|done]. eapply settings_kicked; [by apply quiet_settings|done].
Qed.
(** If the beam does not reach as far as in the reference, the call raises ValueError, whatever the number of steps, and leaves the first corrector kicked. *)
Theorem C70_finding_lost_at_first w amp bpms hcm vcm n (s s1 s' : sc R) r a skew cm x v p : started w amp bpms hcm vcm s s1 r a -> first_corrector hcm vcm a = Some (skew, cm, x) ->
  get_cm_setpoints [cm] skew s = Ok [v] -> try_setpoint w bpms cm v x skew s1 = (Ok p, s') -> (reach p.2 < reach (both r))%nat ->
  response_matrix w amp bpms hcm vcm "fixedKick" n s = (Err ValueError, s') /\
  exists y, kicked s s' cm skew y /\ (y = clipped (cm_limit s cm skew) (v + x) \/ y = clipped (cm_limit s cm skew) (v - x)).
Proof.
  intros Hs Hf Hv Ht Hlt. pose proof Hs as (_&Hr&_). pose proof (pres_run quiet _ _ _ _ (quiet_reading w (Some bpms) false) Hr) as Q. destruct (quiet_same _ _ Q) as (ER&_).
  destruct (C70_finding_lost_beam w (both r) bpms cm v x x skew s1 s' 19 p Ht Hlt) as (Hl&y&K&Hy). split.
  - eapply first_fails; [exact Hs|exact Hf|]. intros start. unfold response_column, bind at 1. unfold kick_amplitude. unfold bind at 1, cm_setpoint. unfold bind at 1, get at 1. cbn beta iota. unfold bind at 1, lift at 1.
    assert (get_cm_setpoints [cm] skew s1 = Ok [v]) as -> by (unfold get_cm_setpoints in *; by rewrite ER). unfold lift at 1. cbn [idx lookup list_lookup]. unfold bind at 1, lift at 1.
    change (kick_iterations "fixedKick") with (@Ok nat 20%nat). cbn beta iota. unfold bind at 1. by rewrite Hl.
  - exists y. assert (cm_limit s1 cm skew = cm_limit s cm skew) as <- by (apply settings_limit; by apply quiet_settings). split; [|done]. eapply settings_kicked; [by apply quiet_settings|done].
Qed.
(** An unknown mode is refused with KeyError, after the reference reading and before any kick. *)
Theorem C70_unknown_mode_call w amp bpms hcm vcm mode n (s s1 : sc R) r a skew cm x v : mode <> "fixedKick" -> mode <> "fixedOffset" -> started w amp bpms hcm vcm s s1 r a ->
  first_corrector hcm vcm a = Some (skew, cm, x) -> get_cm_setpoints [cm] skew s = Ok [v] ->
  response_matrix w amp bpms hcm vcm mode n s = (Err KeyError, s1) /\ same_settings s s1.
Proof.
  intros H1 H2 Hs Hf Hv. pose proof Hs as (_&Hr&_). pose proof (pres_run quiet _ _ _ _ (quiet_reading w (Some bpms) false) Hr) as Q. destruct (quiet_same _ _ Q) as (ER&_). split; [|by apply quiet_settings].
  eapply first_fails; [exact Hs|exact Hf|]. intros start. unfold response_column, bind at 1.
  rewrite (proj1 (C70_unknown_mode w amp bpms hcm vcm mode n s1 H1 H2) (both r) cm x skew v); [done|]. unfold get_cm_setpoints in *; by rewrite ER.
Qed.
Print Assumptions C70_finding_default.
Print Assumptions C70_finding_lost_at_first.
Print Assumptions C70_unknown_mode_call.

(** * Cases *)
Local Open Scope Q_scope.
#[local] Existing Instance TrigQ19.
Example C70_case_default :
  let run := response_matrix resp_world (AmpArray [1#10]) [2]%nat [1]%nat [1]%nat "fixedKick" 2 (resp_machine 1) in
  fst run = Err IndexError /\ get_cm_setpoints [1]%nat false (snd run) = Ok [1#10] /\ get_cm_setpoints [1]%nat true (snd run) = get_cm_setpoints [1]%nat true (resp_machine 1) /\
  let run2 := response_matrix resp_world (AmpArray [1#10]) [2]%nat [1]%nat [1]%nat "fixedkick" 2 (resp_machine 1) in
  fst run2 = Err KeyError /\ get_cm_setpoints [1]%nat false (snd run2) = get_cm_setpoints [1]%nat false (resp_machine 1).
Proof. vm_compute. split_and!; reflexivity. Qed.
(** a machine whose beam is lost as soon as the corrector is off zero *)
Definition lossy_world : world Q :=
  MkWorld (fun _ _ _ _ _ _ _ _ => None)
    (fun ring _ _ c =>
      let kick := default 0%Q (e ← ring !! 1%nat; match (e : elem Q) !! "KickAngle" with Some (VVec l) => l !! 0%nat | _ => None end) in
      if Qeq_bool kick 0 then Some 0 else None)
    (fun _ => ([], [])) (fun Z => Z).
Example C70_case_lost :
  let run := response_matrix lossy_world (AmpArray [1#10]) [2]%nat [1]%nat [1]%nat "fixedKick" 1 (resp_machine 1) in
  fst run = Err ValueError /\ get_cm_setpoints [1]%nat false (snd run) = Ok [1#10].
Proof. vm_compute. split_and!; reflexivity. Qed.
