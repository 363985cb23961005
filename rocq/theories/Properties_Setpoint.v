(** Properties C07-C16: set-points of correctors, magnets and cavities. *)
From Coq Require Import Reals Lra QArith.
From stdpp Require Import base gmap strings list.
From Verif Require Import Num Base Model_Arr Model_SC Model_Err Lemmas Proofs_Update Proofs_Setpoint Spec Proofs_CM Proofs_CM2
  Proofs_Loop Proofs_Loop2 Examples.
Local Open Scope string_scope.
Local Open Scope list_scope.

(** * Specification vocabulary *)
(** a request is not above the limit *)
Definition allows (limit : option R) (x : R) : Prop := match limit with None => True | Some l => (Rabs x <= Rabs l)%R end.
(** the corrector reads at most its limit *)
Definition respects_limit (s : sc R) (i : nat) (skew : bool) : Prop :=
  forall v l, get_cm_setpoints [i] skew s = Ok [v] -> cm_limit s i skew = Some l -> (Rabs v <= Rabs l)%R.
(** calls after which the limit is still respected *)
Definition limit_keeping (o : op R) : Prop :=
  match o with
  | OpSetCM _ _ _ _ _ | OpSetCavity _ _ _ _ _ | OpUpdateMagnets _ | OpUpdateCavities _ | OpUpdateSupports _ _ | OpTrackMode _ => True
  | OpSetMagnet _ _ _ _ order _ _ => order <> 0%nat
  | _ => False
  end.
(** values of a parallel list addressed to one ordinate *)
Definition values_for {A} (i : nat) (ords : list nat) (l : list A) : list A := (filter (fun p => p.1 = i) (zip ords l)).*2.
Definition sumR (l : list R) : R := fold_right Rplus 0%R l.
(** rounding towards zero *)
Definition towards_zero (x : R) : R := if Rlt_dec x 0 then (- IZR (Int_part (- x)))%R else IZR (Int_part x).

(** * C07 *)
Section C07.
  Context {T : Type} {N : Num T}.
  Theorem C07_bad_input_rejected ords dt (sps : list T) method (s : sc T) :
    method ∉ ["abs"; "rel"; "add"] \/ (length sps <> 1 /\ length sps <> length ords)%nat ->
    (forall skew, set_cm_setpoints ords dt sps skew method s = (Err ValueError, s)) /\
    (forall skew order dc, set_magnet_setpoints ords dt sps skew order method dc s = (Err ValueError, s)) /\
    (forall param, set_cavity_setpoints ords dt sps param method s = (Err ValueError, s)).
  Proof.
    intros H. apply check_input_bad in H. split; [|split]; intros.
    - unfold set_cm_setpoints. by rewrite run_lift, H.
    - unfold set_magnet_setpoints, bind, get, lift, magnet_targets. by rewrite H.
    - unfold set_cavity_setpoints, bind, get, lift, cavity_targets. by rewrite H.
  Qed.
  Theorem C07_single_value_for_all ords dt (x : T) method (s : sc T) :
    (forall skew, set_cm_setpoints ords dt [x] skew method s = set_cm_setpoints ords dt (replicate (length ords) x) skew method s) /\
    (forall skew order dc, set_magnet_setpoints ords dt [x] skew order method dc s =
                           set_magnet_setpoints ords dt (replicate (length ords) x) skew order method dc s) /\
    (forall param, set_cavity_setpoints ords dt [x] param method s = set_cavity_setpoints ords dt (replicate (length ords) x) param method s).
  Proof.
    split; [|split]; intros.
    - unfold set_cm_setpoints. by rewrite check_input_single.
    - unfold set_magnet_setpoints, magnet_targets. by rewrite check_input_single.
    - unfold set_cavity_setpoints, cavity_targets. by rewrite check_input_single.
  Qed.
End C07.

(** * C08 *)
Lemma single_cm ords dt sps skew method (s s' : sc R) u i x e :
  set_cm_setpoints ords dt sps skew method s = (Ok u, s') -> NoDup ords -> length sps = length ords -> (i, x) ∈ zip ords sps ->
  RING s !! i = Some e ->
  exists l e', cm_new skew method dt x e = Ok l /\ RING s' !! i = Some e' /\ eagree der (<[SP skew := VVec l]> e) e'.
Proof.
  intros H Hnd HL Hi He. pose proof H as H0. eapply set_cm_elem in H as (l&e1&e'&Hl&Hf&He'&Ha); [|exact He].
  assert (method ∈ SETTING_METHODS) as Hm by (apply check_input_ok in Hl; tauto).
  rewrite check_input_full in Hl by done. injection Hl as <-.
  rewrite (addressed_single i x) in Hf by (rewrite ?zip_fst; auto). simpl in Hf.
  apply bind_ok in Hf as (u1&e2&Hf&Hr). minv Hr. apply set_cm_one_ok in Hf as (l&Hc&->). eauto.
Qed.
Theorem C08_readback ords sps skew (s s' : sc R) :
  NoDup ords -> length sps = length ords ->
  set_cm_setpoints ords DFloat sps skew "abs" s = (Ok tt, s') ->
  get_cm_setpoints ords skew s' = Ok (zip_with (fun i x => clipped (cm_limit s i skew) x) ords sps).
Proof.
  intros Hnd HL H. rewrite get_cm_reading, rmap_ok.
  assert (forall i x, (i, x) ∈ zip ords sps -> (let? e := idx (RING s') i in reading skew e) = Ok (clipped (cm_limit s i skew) x)) as P.
  { intros i x Hix. assert (i ∈ ords) as Hi by (by eapply elem_of_zip_l).
    destruct (set_cm_exists _ _ _ _ _ _ _ _ _ H Hi) as [e He].
    destruct (single_cm _ _ _ _ _ _ _ _ _ _ _ H Hnd HL Hix He) as (l&e'&Hc&He'&Ha).
    unfold idx. rewrite He'. cbn [rbind]. rewrite (reading_agree _ _ _ Ha).
    apply reading_cm_new in Hc as (p&nb&x1&x2&_&_&_&_&_&Hx1&Hc&->). rewrite Hx1 in Hc by done.
    apply clip_cm_float in Hc. rewrite (cm_limit_elim s i e) by done. by subst. }
  clear H Hnd. revert sps HL P. induction ords as [|i ords IH]; intros [|x sps] HL P; try discriminate HL; simpl; constructor.
  - apply P. left.
  - apply IH; [simpl in HL; lia|]. intros j y Hj. apply P. by right.
Qed.
(** without a limit, or within it, exactly the request is read back *)
Corollary C08_readback_within ords sps skew (s s' : sc R) :
  NoDup ords -> length sps = length ords ->
  (forall i x, (i, x) ∈ zip ords sps -> allows (cm_limit s i skew) x) ->
  set_cm_setpoints ords DFloat sps skew "abs" s = (Ok tt, s') ->
  get_cm_setpoints ords skew s' = Ok sps.
Proof.
  intros Hnd HL Hx H. rewrite (C08_readback ords sps skew s s') by done. f_equal. clear Hnd H.
  revert sps HL Hx. induction ords as [|i ords IH]; intros [|x sps] HL Hx; try discriminate HL; simpl; [done|]. f_equal.
  - specialize (Hx i x ltac:(left)). unfold clipped, allows in *. destruct (cm_limit s i skew) as [l|]; [|done]. by destruct (Rle_dec _ _).
  - apply IH; [simpl in HL; lia|]. intros j y Hj. apply Hx. by right.
Qed.

(** * C09 *)
Lemma respects_within s i skew : respects_limit s i skew <-> within skew i s.
Proof.
  unfold respects_limit, within, ewithin. split.
  - intros H e He v l Hr Hl. apply H; [apply get_cm_one; eauto|]. by rewrite (cm_limit_elim s i e).
  - intros H v l Hv Hl. apply get_cm_one in Hv as (e&He&Hr). rewrite (cm_limit_elim s i e) in Hl by done. eauto.
Qed.
Lemma call_keeps minv o skew i : limit_keeping o -> pres (keeps skew i) (call minv o).
Proof.
  destruct o; simpl; intros H; try done.
  - apply set_cm_keeps.
  - by apply set_magnet_keeps.
  - apply set_cavity_keeps.
  - apply update_magnets_keeps.
  - apply update_cavities_keeps.
  - apply update_supports_keeps.
  - apply trackMode_keeps.
Qed.
Theorem C09_limit_respected minv ords dt sps skew method (s s' : sc R) (later : list (op R)) :
  set_cm_setpoints ords dt sps skew method s = (Ok tt, s') -> Forall limit_keeping later ->
  forall i, i ∈ ords -> respects_limit (run minv later s') i skew.
Proof.
  intros H Hl i Hi. apply respects_within. assert (within skew i s') as Hw by (by eapply set_cm_within).
  clear H. revert s' Hw. induction later as [|o later IH]; intros s1 Hw; [done|]. inversion Hl; subst.
  change (within skew i (run minv later (snd (call minv o s1)))). apply IH; [done|]. by apply call_keeps.
Qed.
(** Correctors not addressed keep respecting their limit. *)
Theorem C09_limit_invariant minv (ops : list (op R)) (s : sc R) i skew :
  Forall limit_keeping ops -> respects_limit s i skew -> respects_limit (run minv ops s) i skew.
Proof.
  intros Hl Hs. rewrite respects_within in *. revert s Hs. induction ops as [|o ops IH]; intros s Hw; [done|]. inversion Hl; subst.
  change (within skew i (run minv ops (snd (call minv o s)))). apply IH; [done|]. by apply call_keeps.
Qed.
(** The finding: set_magnet_setpoints at order 0 ignores the limit. *)
Definition cm_machine {T} `{Num T} : sc T :=
  snd (register_magnets [2%nat] [] (MkType (Some (Fin (num 1))) (Some (Fin (num 1))) false None None) ex_sc).
Theorem C09_finding_dipole_component_unlimited :
  cm_limit (cm_machine : sc Q) 2 false = Some 1%Q /\
  let r := set_magnet_setpoints [2%nat] DFloat [7%Q] false 0 "abs" false (cm_machine : sc Q) in
  fst r = Ok tt /\ cm_limit (snd r) 2 false = Some 1%Q /\ get_cm_setpoints [2%nat] false (snd r) = Ok [7%Q].
Proof. vm_compute. auto. Qed.

(** * C10 *)
Section C10.
  Context {T : Type} {N : Num T}.
  Definition same_tail (s s' : sc T) : Prop :=
    forall i skew k, k <> 0%nat -> entry s' i (setpoint_name skew) k = entry s i (setpoint_name skew) k.
  #[local] Instance same_tail_preorder : PreOrder same_tail.
  Proof. split; [done|]. intros a b c H1 H2 i skew k Hk. rewrite H2, H1; auto. Qed.
  Lemma frame_same_tail (I : nat -> string -> Prop) (s s' : sc T) : (forall i skew, ~ I i (setpoint_name skew)) -> frame I s s' -> same_tail s s'.
  Proof. intros HI H i skew k Hk. unfold entry. rewrite !attr_at_aget. by rewrite (frame_aget I s s') by auto. Qed.
  Lemma set_cm_tail ords dt sps skew method : pres same_tail (@set_cm_setpoints T N ords dt sps skew method).
  Proof.
    unfold set_cm_setpoints. apply pres_bind; [exact _|apply pres_lift; exact _|]. intros l.
    apply pres_bind; [exact _| |].
    - apply pres_forM; [exact _|]. intros [j x] _ s i skew' k Hk. simpl. unfold on_elem.
      destruct (RING s !! j) as [e|] eqn:E; [|done]. rewrite set_cm_one_spec.
      destruct (cm_new skew method dt x e) as [l'|] eqn:Hc; [|simpl; by rewrite list_insert_id, set_RING_id]. simpl.
      unfold entry, attr_at. simpl. destruct (decide (i = j)) as [->|]; [|by rewrite list_lookup_insert_ne].
      rewrite list_lookup_insert by (by eapply lookup_lt_Some). rewrite E. simpl. rewrite <- SP_name.
      destruct (decide (skew = skew')) as [->|].
      + rewrite lookup_insert. unfold cm_new in Hc. apply rbind_ok in Hc as (nb&_&Hc). apply rbind_ok in Hc as (x1&_&Hc).
        apply rbind_ok in Hc as (x2&_&Hc). apply rbind_ok in Hc as (sp&Hsp&Hc). apply attr_vec_ok in Hsp. rewrite Hsp.
        apply rbind_ok in Hc as (y&_&Hc). apply idx_set_ok in Hc as [_ ->]. by rewrite list_lookup_insert_ne.
      + rewrite lookup_insert_ne; [done|]. by destruct skew, skew'.
    - intros _ s. eapply frame_same_tail; [|apply update_magnets_frame]. intros i skew' [Hd _].
      rewrite <- SP_name in Hd. by apply (SP_not_der skew').
  Qed.
  Theorem C10_only_addressed_change ords dt (sps : list T) skew method (s : sc T) :
    let s' := snd (set_cm_setpoints ords dt sps skew method s) in
    same_but_ring s s' /\ length (RING s') = length (RING s) /\
    (forall i a, attr_at s' i a <> attr_at s i a ->
       (a = setpoint_name skew /\ i ∈ ords) \/
       (a ∈ field_attributes /\ (i ∈ ords \/ exists m, m ∈ ords /\ child_of s i m))) /\
    (forall i k, k <> 0%nat -> entry s' i (setpoint_name skew) k = entry s i (setpoint_name skew) k).
  Proof.
    intros s'. pose proof (set_cm_frame ords dt sps skew method s) as F. fold s' in F. split; [|split; [|split]].
    - destruct F as (?&?&?&?&?&_). split; auto.
    - by destruct F as (_&_&_&_&_&[? _]).
    - intros i a Hne. rewrite !attr_at_aget in Hne.
      destruct (decide (a = SP skew /\ i ∈ ords)) as [[-> ?]|Hn]; [left; by rewrite SP_name|right].
      assert (der a /\ touched (RING s) ords i) as [Hd Ht].
      { destruct (decide (a ∈ DERIVED)) as [Hd|Hd].
        - split; [done|]. destruct (decide (Exists (fun m => i ∈ children (RING s) m) ords)) as [Hex|Hex].
          + apply Exists_exists in Hex as (m&?&?). right. eauto.
          + destruct (decide (i ∈ ords)); [by left|]. exfalso. apply Hne, (frame_aget _ _ _ _ _ F).
            intros [?|[_ [?|(m&?&?)]]]; [tauto|done|]. apply Hex, Exists_exists. eauto.
        - exfalso. apply Hne, (frame_aget _ _ _ _ _ F). intros [?|[? _]]; [tauto|done]. }
      split; [exact Hd|]. destruct Ht as [?|(m&Hm&Hc)]; [by left|right]. exists m. split; [done|].
      unfold children in Hc. unfold child_of. rewrite attr_at_aget. destruct (aget (RING s) m "MasterOf") as [[]|]; try by inversion Hc. eauto.
    - intros i k Hk. by apply (set_cm_tail ords dt sps skew method s).
  Qed.
End C10.

(** * Examples (over the rationals: the same program, executable) *)
(** ordinate 1 is a thick corrector of length 2 (limits 4 and 5), ordinate 2 a thin one (limits 1 and 1) *)
Definition two_cms {T} `{Num T} : sc T :=
  snd (register_magnets [1%nat] [] (MkType (Some (Fin (num 4))) (Some (Fin (num 5))) false None None) cm_machine).
Example C07_example :
  fst (set_cm_setpoints [1; 2]%nat DFloat [1%Q; 2%Q; 3%Q] false "abs" two_cms) = Err ValueError /\
  fst (set_cm_setpoints [1; 2]%nat DFloat [1%Q] false "set" two_cms) = Err ValueError /\
  fst (set_cm_setpoints [1; 2]%nat DFloat [1%Q] false "abs" two_cms) = Ok tt.
Proof. vm_compute. auto. Qed.
Example C08_example :
  let r := set_cm_setpoints [1; 2]%nat DFloat [(-3)%Q; 7%Q] false "abs" (two_cms : sc Q) in
  fst r = Ok tt /\ get_cm_setpoints [1; 2]%nat false (snd r) = Ok [(-3)%Q; 1%Q] /\
  entry (snd r) 1 "PolynomB" 0 = Some (3 # 2)%Q /\ entry (snd r) 2 "KickAngle" 0 = Some 1%Q.
Proof. vm_compute. auto. Qed.
Example C09_example :
  let r := set_cm_setpoints [1; 2]%nat DFloat [9%Q; (-9)%Q] true "add" (two_cms : sc Q) in
  fst r = Ok tt /\ get_cm_setpoints [1; 2]%nat true (snd r) = Ok [5%Q; (-1)%Q].
Proof. vm_compute. auto. Qed.
Example C10_example :
  let r := set_cm_setpoints [1%nat] DFloat [3%Q] false "abs" (two_cms : sc Q) in
  attr_at (snd r) 1 "SetPointB" = Some (VVec [(-3 # 2)%Q; 3%Q]) /\ attr_at (snd r) 1 "SetPointA" = attr_at two_cms 1 "SetPointA" /\
  RING (snd r) !! 2%nat = RING two_cms !! 2%nat.
Proof. vm_compute. auto. Qed.

Print Assumptions C07_bad_input_rejected.
Print Assumptions C07_single_value_for_all.
Print Assumptions C08_readback.
Print Assumptions C08_readback_within.
Print Assumptions C09_limit_respected.
Print Assumptions C09_limit_invariant.
Print Assumptions C09_finding_dipole_component_unlimited.
Print Assumptions C10_only_addressed_change.
