(** C73: applying the result of the optics fit through loco_wrapper. *)
From Coq Require Import Reals Lra Lia ZArith.
From stdpp Require Import base gmap strings list.
From Verif Require Import Num Base Model_Arr Model_SC Model_Err Lemmas Spec Proofs_Update Proofs_Setpoint Proofs_CM Proofs_Loop Properties_Setpoint Properties_Setpoint2 Properties_Setpoint3 Properties_Setpoint4
  Model_Beam Proofs_Beam Model_Orbit Properties_Orbit Model_Resp Properties_Resp Model_Wrap.
Local Open Scope string_scope.
Local Open Scope list_scope.
Local Open Scope R_scope.

(** * Entries that keep their values *)
Definition kept (P : nat -> string -> nat -> Prop) (s s' : sc R) : Prop :=
  forall i a k, ~ P i a k -> bool_decide (a ∈ DERIVED) = false -> entry s' i a k = entry s i a k.
#[global] Instance kept_preorder P : PreOrder (kept P).
Proof. split; [by intros s i a k _ _|]. intros s1 s2 s3 H1 H2 i a k Hn Ha. rewrite (H2 i a k Hn Ha). by apply H1. Qed.
Lemma entry_aget (s : sc R) i a k : entry s i a k = match aget (RING s) i a with Some (VVec l) => l !! k | _ => None end.
Proof. unfold entry. by rewrite attr_at_aget. Qed.
Lemma kept_frame P I s s' : frame I s s' -> (forall i a, I i a -> bool_decide (a ∈ DERIVED) = true) -> kept P s s'.
Proof.
  intros F HI i a k _ Ha. rewrite !entry_aget. rewrite (frame_aget _ _ _ i a F); [done|]. intros Hi. apply HI in Hi. congruence.
Qed.
Lemma kept_update P ords : pres (kept P) (update_magnets ords).
Proof. intros s. eapply kept_frame; [apply update_magnets_frame|]. intros i a [Hd _]. apply bool_decide_eq_true. exact Hd. Qed.
(** writing one entry of a vector attribute *)
Lemma kept_on_elem (P : nat -> string -> nat -> Prop) i (m : M (elem R) unit) a0 k0 :
  (forall e e', snd (m e) = e' -> e' = e \/ exists l x l', e !! a0 = Some (VVec l) /\ idx_set l k0 x = Ok l' /\ e' = <[a0 := VVec l']> e) ->
  P i a0 k0 -> pres (kept P) (on_elem i m).
Proof.
  intros Hm HP s. unfold on_elem. destruct (RING s !! i) as [e|] eqn:E; [|reflexivity]. specialize (Hm e). destruct (m e) as [r e']. cbn [snd] in *. specialize (Hm e' eq_refl).
  intros j a k Hn _. unfold entry. unfold attr_at. cbn [RING set_RING]. destruct (decide (j = i)) as [->|Hj]; [|by rewrite list_lookup_insert_ne].
  rewrite list_lookup_insert by (by eapply lookup_lt_Some). rewrite E. cbn. destruct Hm as [->|(l&x&l'&H1&H2&->)]; [done|].
  destruct (decide (a = a0)) as [->|Ha]; [|by rewrite lookup_insert_ne]. rewrite lookup_insert, H1. apply idx_set_ok in H2 as [_ ->].
  destruct (decide (k = k0)) as [->|Hk]; [done|]. by rewrite list_lookup_insert_ne.
Qed.
Ltac stepH H := first [unfold bind at 1, getm at 1 in H | unfold bind at 1, lift at 1 in H]; cbn beta iota in H;
  match type of H with context [match ?b with Ok _ => _ | Err _ => _ end] => destruct b eqn:?; [|cbn in H; left; by symmetry] end.
Lemma kept_set_entry (P : nat -> string -> nat -> Prop) skew order x i : P i (SP skew) order -> pres (kept P) (on_elem i (set_sp_entry (SP skew) order x)).
Proof.
  intros HP. apply (kept_on_elem P i _ (SP skew) order); [|done]. intros e e' H. unfold set_sp_entry in H. do 2 stepH H. right.
  match goal with H1 : attr_vec _ _ = Ok ?l, H2 : idx_set _ _ _ = Ok ?l' |- _ => apply attr_vec_ok in H1; exists l, x, l' end. done.
Qed.
Lemma kept_cm_one (P : nat -> string -> nat -> Prop) skew method dt x i : P i (SP skew) 0%nat -> pres (kept P) (on_elem i (set_cm_one skew method dt x)).
Proof.
  intros HP. apply (kept_on_elem P i _ (SP skew) 0%nat); [|done]. intros e e' H. unfold set_cm_one in H. do 6 stepH H. right.
  match goal with H1 : attr_vec _ _ = Ok ?l, H2 : idx_set _ _ ?y = Ok ?l' |- _ => apply attr_vec_ok in H1; exists l, y, l' end. done.
Qed.
Lemma kept_set_magnet (P : nat -> string -> nat -> Prop) ords sps skew order method dc :
  (forall i, i ∈ ords -> P i (SP skew) order) -> (dc = true -> forall i, i ∈ ords -> P i "SetPointB" 0%nat) ->
  pres (kept P) (set_magnet_setpoints ords DFloat sps skew order method dc).
Proof.
  intros H1 H2. unfold set_magnet_setpoints. apply pres_bind; [exact _|apply pres_get; exact _|intros s]. apply pres_bind; [exact _|apply pres_lift; exact _|intros l].
  apply pres_bind; [exact _| |intros []; apply kept_update]. apply pres_forM; [exact _|]. intros [i x] Hin. apply elem_of_zip_l in Hin. cbn [fst snd] in *.
  unfold set_magnet_one, dipole_compensation, set_cm_setpoints. destruct dc; cbn [andb when].
  - repeat first [ pres_step | apply pres_ring_elem; exact _ | apply kept_update | apply kept_set_entry; by apply H1 ].
    match goal with H : ?p ∈ zip _ _ |- _ => destruct p; apply elem_of_zip_l, elem_of_list_singleton in H as -> end. apply kept_cm_one. by apply H2.
  - repeat first [ pres_step | apply pres_ring_elem; exact _ | apply kept_set_entry; by apply H1 ].
Qed.
(** one set-point of one magnet *)
Lemma set_one j x skew dc (s s' : sc R) : set_magnet_setpoints [j] DFloat [x] skew 1 ABS dc s = (Ok tt, s') ->
  entry s' j (setpoint_name skew) 1 = Some (limited s j skew 1 x) /\
  kept (fun i a k => (i = j /\ a = setpoint_name skew /\ k = 1%nat) \/ (dc = true /\ i = j /\ a = "SetPointB" /\ k = 0%nat)) s s' /\ frame spI s s'.
Proof.
  intros H. split; [|split].
  - destruct (C12_meaning_with_compensation _ _ _ _ _ _ _ _ j x H eq_refl) as (y&Hy&He); [cbn; by rewrite decide_True|]. rewrite He. unfold magnet_request in Hy. by injection Hy as <-.
  - assert (pres (kept (fun i a k => (i = j /\ a = setpoint_name skew /\ k = 1%nat) \/ (dc = true /\ i = j /\ a = "SetPointB" /\ k = 0%nat))) (set_magnet_setpoints [j] DFloat [x] skew 1 ABS dc)) as Hp.
    { apply kept_set_magnet; intros; repeat match goal with H : _ ∈ [_] |- _ => apply elem_of_list_singleton in H as -> end; [left; by rewrite SP_name|by right]. }
    specialize (Hp s). by rewrite H in Hp.
  - pose proof (pres_set_magnet [j] DFloat [x] skew 1 ABS dc s) as Hp. by rewrite H in Hp.
Qed.
Lemma limited_frame (s s' : sc R) i skew order y : frame spI s s' -> limited s' i skew order y = limited s i skew order y.
Proof.
  intros F. unfold limited, skew_limit. assert (attr_at s' i "SkewQuadLimit" = attr_at s i "SkewQuadLimit") as ->; [|done].
  rewrite !attr_at_aget. apply (frame_aget _ _ _ _ _ F). intros [?|[?|Hf]]; [done|done|]. by apply (not_der "SkewQuadLimit" eq_refl) in Hf.
Qed.

(** * Specification *)
Definition is_field (a : string) : Prop := a = "SetPointA" \/ a = "SetPointB".
(** the value wanted for the members of group [k] *)
Definition wanted (p : fit_parameters R) (damping : R) (k : nat) : option R :=
  match f_orig p !! k, f_ideal p !! k, f_values p !! k with Some o, Some i, Some v => Some (o + damping * (i - v)) | _, _, _ => None end.
(** the entries a correction of the members [ms] may change: their quadrupole component, and with dipole compensation the
    dipole component of the normal ones *)
Definition corrected (dc : bool) (ms : list (nat * string)) (i : nat) (a : string) (k : nat) : Prop :=
  ((i, a) ∈ ms /\ k = 1%nat) \/ (dc = true /\ (i, "SetPointB") ∈ ms /\ a = "SetPointB" /\ k = 0%nat).
Lemma kept_mono (P Q : nat -> string -> nat -> Prop) s s' : (forall i a k, P i a k -> Q i a k) -> kept P s s' -> kept Q s s'.
Proof. intros HPQ H i a k Hn. apply H. intros Hp. by apply Hn, HPQ. Qed.
Lemma corrected_mono dc ms ms' : (forall m, m ∈ ms -> m ∈ ms') -> forall i a k, corrected dc ms i a k -> corrected dc ms' i a k.
Proof. intros H i a k [[? ?]|(?&?&?&?)]; [left; auto|right; auto]. Qed.

Lemma apply_member_ok p dc damping k m (s s' : sc R) : apply_member p dc damping k m s = (Ok tt, s') ->
  (is_field m.2 -> exists x, wanted p damping k = Some x /\ entry s' m.1 m.2 1 = Some (limited s m.1 (bool_decide (m.2 = "SetPointA")) 1 x)) /\
  kept (corrected dc [m]) s s' /\ frame spI s s'.
Proof.
  intros H. unfold apply_member in H. apply bind_ok in H as (o&?&H1&H). apply lift_ok in H1 as [H1 ->]. apply idx_ok in H1.
  apply bind_ok in H as (id&?&H2&H). apply lift_ok in H2 as [H2 ->]. apply idx_ok in H2. apply bind_ok in H as (v&?&H3&H). apply lift_ok in H3 as [H3 ->]. apply idx_ok in H3.
  unfold wanted. rewrite H1, H2, H3. destruct m as [i a]. cbn [fst snd] in *. case_bool_decide as Eb; [|case_bool_decide as Ea].
  - subst a. apply set_one in H as (A&B&C). split; [|split; [|done]].
    + intros _. eexists. split; [done|]. exact A.
    + revert B. apply kept_mono. intros j b l [(->&->&->)|(Hd&->&->&->)]; [left; split; [apply elem_of_list_singleton|]; done|right; split_and!; try done; by apply elem_of_list_singleton].
  - subst a. apply set_one in H as (A&B&C). split; [|split; [|done]].
    + intros _. eexists. split; [done|]. exact A.
    + revert B. apply kept_mono. intros j b l [(->&->&->)|(Hd&_)]; [left; split; [apply elem_of_list_singleton|]; done|done].
  - apply ret_ok in H as [_ ->]. split; [|split; reflexivity]. intros [?|?]; done.
Qed.
Lemma field_not_derived a : is_field a -> bool_decide (a ∈ DERIVED) = false.
Proof. intros [->| ->]; by vm_compute. Qed.
Lemma apply_members_ok p dc damping k ms (s s' : sc R) : NoDup ms -> forM ms (apply_member p dc damping k) s = (Ok tt, s') ->
  (forall i a, (i, a) ∈ ms -> is_field a -> exists x, wanted p damping k = Some x /\ entry s' i a 1 = Some (limited s i (bool_decide (a = "SetPointA")) 1 x)) /\
  kept (corrected dc ms) s s' /\ frame spI s s'.
Proof.
  revert s. induction ms as [|m ms IH]; intros s Hnd H; cbn [forM] in H.
  - apply ret_ok in H as [_ ->]. split; [|split; reflexivity]. intros i a Hin. by apply elem_of_nil in Hin.
  - apply bind_ok in H as ([]&s1&H1&H). apply NoDup_cons in Hnd as [Hm Hnd]. apply apply_member_ok in H1 as (A1&A2&A3). apply IH in H as (B1&B2&B3); [|done].
    split; [|split; [|by etransitivity]].
    + intros i a Hin Hf. apply elem_of_cons in Hin as [<-|Hin].
      * cbn [fst snd] in *. destruct (A1 Hf) as (x&Hx&He). exists x. split; [done|]. rewrite B2; [done| |by apply field_not_derived]. intros [[Hin _]|(_&_&_&?)]; done.
      * destruct (B1 i a Hin Hf) as (x&Hx&He). exists x. split; [done|]. rewrite He. f_equal. by apply limited_frame.
    + etransitivity; [eapply kept_mono; [|exact A2]|eapply kept_mono; [|exact B2]]; intros i a l; apply corrected_mono; intros m'.
      * intros ->%elem_of_list_singleton. left.
      * by right.
Qed.

(** * C73 *)
(** After apply_lattice_correction the quadrupole component of every member is what its group asks for, original value plus damping times
    (ideal minus fitted value), within the skew limit; no other entry of a set-point has changed (with dipole compensation the
    dipole components of the normal members excepted), and no other attribute except the fields derived from set-points. *)
Theorem C73_lattice p dc damping (s s' : sc R) : NoDup (concat (f_groups p)) -> apply_lattice_correction p dc damping s = (Ok tt, s') ->
  (forall k ms i a, f_groups p !! k = Some ms -> (i, a) ∈ ms -> is_field a ->
     exists o id v, f_orig p !! k = Some o /\ f_ideal p !! k = Some id /\ f_values p !! k = Some v /\
       entry s' i a 1 = Some (limited s i (bool_decide (a = "SetPointA")) 1 (o + damping * (id - v)))) /\
  kept (corrected dc (concat (f_groups p))) s s' /\ frame spI s s'.
Proof.
  intros Hnd H. unfold apply_lattice_correction in H. apply bind_ok in H as ([]&s1&H1&H2).
  assert (kept (corrected dc (concat (f_groups p))) s1 s' /\ kept (fun _ _ _ => False) s1 s' /\ frame spI s1 s') as (U1&U2&U3).
  { unfold update_magnets_all in H2. apply bind_ok in H2 as (t&t1&Hg&H2). apply get_ok in Hg as [-> ->]. split_and!.
    - pose proof (kept_update (corrected dc (concat (f_groups p))) (oMagnet (ORD s1)) s1) as K. by rewrite H2 in K.
    - pose proof (kept_update (fun _ _ _ => False) (oMagnet (ORD s1)) s1) as K. by rewrite H2 in K.
    - pose proof (pres_update_magnets_spI (oMagnet (ORD s1)) s1) as K. by rewrite H2 in K. }
  assert (forall groups k0 s, NoDup (concat groups) -> forM (zip (seq k0 (length groups)) groups) (fun g => forM g.2 (apply_member p dc damping g.1)) s = (Ok tt, s1) ->
    (forall k ms i a, groups !! k = Some ms -> (i, a) ∈ ms -> is_field a -> exists x, wanted p damping (k0 + k) = Some x /\
       entry s1 i a 1 = Some (limited s i (bool_decide (a = "SetPointA")) 1 x)) /\ kept (corrected dc (concat groups)) s s1 /\ frame spI s s1) as Hg.
  { clear. induction groups as [|g groups IH]; intros k0 s Hnd H; cbn [length seq zip zip_with forM concat] in *.
    - apply ret_ok in H as [_ ->]. split; [done|]. split; reflexivity.
    - apply bind_ok in H as ([]&s2&H1&H). apply NoDup_app in Hnd as (Hn1&Hn2&Hn3). cbn [fst snd] in H1. apply apply_members_ok in H1 as (A1&A2&A3); [|done].
      apply IH in H as (B1&B2&B3); [|done]. split; [|split; [|by etransitivity]].
      + intros [|k] ms i a Hms Hin Hf; cbn in Hms.
        * injection Hms as <-. rewrite Nat.add_0_r. destruct (A1 i a Hin Hf) as (x&Hx&He). exists x. split; [done|]. rewrite B2; [done| |by apply field_not_derived].
          intros [[Hin' _]|(_&_&_&?)]; [|done]. by apply (Hn2 (i, a)).
        * destruct (B1 k ms i a Hms Hin Hf) as (x&Hx&He). exists x. split; [by rewrite Nat.add_succ_r|]. rewrite He. f_equal. by apply limited_frame.
      + etransitivity; [eapply kept_mono; [|exact A2]|eapply kept_mono; [|exact B2]]; intros i a l; apply corrected_mono; intros m' Hm'; apply elem_of_app; auto. }
  destruct (Hg _ 0%nat s Hnd H1) as (A1&A2&A3). split; [|split; [by etransitivity|by etransitivity]].
  intros k ms i a Hms Hin Hf. destruct (A1 k ms i a Hms Hin Hf) as (x&Hx&He). cbn in Hx. unfold wanted in Hx.
  destruct (f_orig p !! k) as [o|]; [|done]. destruct (f_ideal p !! k) as [id|]; [|done]. destruct (f_values p !! k) as [v|]; [|done]. injection Hx as <-.
  exists o, id, v. split; [done|]. split; [done|]. split; [done|]. rewrite U2; [done|tauto|by apply field_not_derived].
Qed.
(** A fit that finds the ideal values gives back the original set-points. *)
Corollary C73_lattice_ideal p dc damping (s s' : sc R) : NoDup (concat (f_groups p)) -> f_values p = f_ideal p -> apply_lattice_correction p dc damping s = (Ok tt, s') ->
  forall k ms i o, f_groups p !! k = Some ms -> (i, "SetPointB") ∈ ms -> f_orig p !! k = Some o -> entry s' i "SetPointB" 1 = Some o.
Proof.
  intros Hnd Hv H k ms i o Hms Hin Ho. destruct (C73_lattice _ _ _ _ _ Hnd H) as [A _]. destruct (A k ms i _ Hms Hin ltac:(by right)) as (o'&id&v&H1&H2&H3&He). rewrite Hv in H3.
  assert (v = id) as -> by congruence. assert (o' = o) as -> by congruence. rewrite He. change (Some (o + damping * (id - id)) = Some o). f_equal. lra.
Qed.
Print Assumptions C73_lattice.
Print Assumptions C73_lattice_ideal.

(** * Diagnostic errors *)
(** a gain as it is used: replaced by one if too far off *)
Definition cleaned (out : outlier_arg R) (x : R) : R := match out with OutAt l => if Rle_dec l (Rabs (1 - x)) then 1 else x | _ => x end.
(** with [meanToZero] all gains are moved by the same amount, to an average of one *)
Definition gains_used (out : outlier_arg R) (to_zero : bool) (g : list R) : list R :=
  let c := map (cleaned out) g in if to_zero then map (fun x => x + avg (map (Rminus 1) c)) c else c.
Definition plane_index (b : bpm_data R) (d : nat) : list nat := if (d =? 0)%nat then b_h_index b else b_v_index b.
Definition plane_gain (b : bpm_data R) (d : nat) : list R := if (d =? 0)%nat then b_h_gain b else b_v_gain b.
(** element [i] is the monitor number [k] of plane [d] *)
Definition monitor (b : bpm_data R) (d k i : nat) : Prop := exists j, plane_index b d !! k = Some j /\ b_index b !! j = Some i.

Lemma without_outliers_R out (g g' : list R) : without_outliers out g = Ok g' -> g' = map (cleaned out) g /\ (out = OutNone -> g = []).
Proof.
  destruct out as [| |l]; cbn.
  - destruct g; [|done]. intros [= <-]. done.
  - intros [= <-]. split; [|done]. symmetry. by rewrite map_id.
  - intros [= <-]. split; [|done]. apply map_ext. intros x. change (nleb l (nabs (nsub 1 x))) with (Rleb l (nabs (nsub 1 x))). rewrite nabs_R. unfold cleaned. change (nsub 1 x) with (1 - x). destruct (Rleb l (Rabs (1 - x))) eqn:E.
    + apply Rleb_true in E. by destruct (Rle_dec l (Rabs (1 - x))).
    + apply Rleb_false in E. destruct (Rle_dec l (Rabs (1 - x))); [lra|done].
Qed.
Lemma to_mean_one_R tz (g : list R) : to_mean_one tz g = if tz then map (fun x => x + avg (map (Rminus 1) g)) g else g.
Proof. unfold to_mean_one. destruct tz; [|done]. destruct g as [|x g]; [done|]. by rewrite mean_avg. Qed.

(** writing in a loop over distinct elements *)
Lemma add_gain_loop (fit : list R) d ords k0 (s s' : sc R) : NoDup ords ->
  forM (zip (seq k0 (length ords)) ords) (fun p =>
      let! s := get in let! e := lift (idx (RING s) p.2) in let! c := lift (attr_vec e "CalError") in let! x := lift (idx c d) in let! y := lift (idx fit p.1) in
      on_elem p.2 (add_gain d y)) s = (Ok tt, s') ->
  (forall k i, ords !! k = Some i -> exists g c, fit !! (k0 + k)%nat = Some g /\ entry s i "CalError" d = Some c /\ entry s' i "CalError" d = Some (c + (1 - g))) /\
  kept (fun i a k => i ∈ ords /\ a = "CalError" /\ k = d) s s' /\ frame (fun i a => i ∈ ords /\ a = "CalError") s s'.
Proof.
  revert k0 s. induction ords as [|o ords IH]; intros k0 s Hnd H; cbn [length seq zip zip_with forM] in H.
  - apply ret_ok in H as [_ ->]. split; [done|]. split; reflexivity.
  - apply NoDup_cons in Hnd as [Ho Hnd]. apply bind_ok in H as ([]&s1&H1&H). cbn [fst snd] in H1. apply bind_ok in H1 as (?&?&Hg&H1). apply get_ok in Hg as [-> ->].
    apply bind_ok in H1 as (e&?&He&H1). apply lift_ok in He as [He ->]. apply idx_ok in He. apply bind_ok in H1 as (c&?&Hc&H1). apply lift_ok in Hc as [Hc ->].
    apply bind_ok in H1 as (x&?&Hx&H1). apply lift_ok in Hx as [Hx ->]. apply bind_ok in H1 as (y&?&Hy&H1). apply lift_ok in Hy as [Hy ->]. apply idx_ok in Hy.
    assert (entry s o "CalError" d = Some x /\ entry s1 o "CalError" d = Some (x + (1 - y)) /\
            kept (fun i a k => i ∈ o :: ords /\ a = "CalError" /\ k = d) s s1 /\ kept (fun i a k => i = o /\ a = "CalError" /\ k = d) s s1 /\ frame (fun i a => i ∈ o :: ords /\ a = "CalError") s s1) as (E1&E2&K&K'&F).
    { assert (forall P : nat -> string -> nat -> Prop, P o "CalError" d -> pres (kept P) (on_elem o (add_gain d y))) as Kg.
      { intros P HP. apply (kept_on_elem P o _ "CalError" d); [|done]. clear. intros e e' H. unfold add_gain in H. do 3 stepH H. right.
        match goal with H1 : attr_vec _ _ = Ok ?l, H2 : idx_set _ _ ?y = Ok ?l' |- _ => apply attr_vec_ok in H1; exists l, y, l' end. done. }
      split_and!.
      - unfold entry, attr_at. rewrite He. cbn. apply attr_vec_ok in Hc. rewrite Hc. by apply idx_ok.
      - apply on_elem_ok in H1 as (e0&e1&He0&Hm&->). assert (e0 = e) as -> by congruence. unfold add_gain in Hm.
        unfold bind at 1, getm in Hm. rewrite Hc in Hm. unfold bind at 1, lift at 1 in Hm. rewrite Hx in Hm. apply bind_ok in Hm as (c'&?&Hc'&Hm). apply lift_ok in Hc' as [Hc' ->].
        cbv [setattr modify] in Hm. injection Hm as <-. apply idx_set_ok in Hc' as [Hlt ->]. unfold entry, attr_at. cbn [RING set_RING]. rewrite list_lookup_insert by (by eapply lookup_lt_Some). cbn.
        rewrite lookup_insert. apply list_lookup_insert. done.
      - pose proof (Kg (fun i a k => i ∈ o :: ords /\ a = "CalError" /\ k = d) ltac:(split; [left|done]) s) as K. by rewrite H1 in K.
      - pose proof (Kg (fun i a k => i = o /\ a = "CalError" /\ k = d) ltac:(done) s) as K. by rewrite H1 in K.
      - assert (pres (frame (fun i a => i ∈ o :: ords /\ a = "CalError")) (on_elem o (add_gain d y))) as K.
        { apply pres_on_elem_frame. unfold add_gain. repeat pres_step. apply pres_setattr. split; [left|done]. }
        specialize (K s). by rewrite H1 in K. }
    apply IH in H as (B1&B2&B3); [|done]. split; [|split].
    + intros [|k] i Hi; cbn in Hi.
      * injection Hi as <-. rewrite Nat.add_0_r. exists y, x. split; [done|]. split; [done|]. rewrite B2; [done| |by vm_compute]. by intros (?&_).
      * destruct (B1 k i Hi) as (g&c0&Hg&Hc0&He0). exists g, c0. split; [by rewrite Nat.add_succ_r|]. split; [|done]. rewrite <- Hc0. symmetry. apply K'; [|by vm_compute].
        intros (->&_). apply Ho. by eapply elem_of_list_lookup_2.
    + etransitivity; [exact K|]. revert B2. apply kept_mono. intros i a k (?&?&?). split; [by right|done].
    + etransitivity; [exact F|]. eapply frame_mono; [|exact B3]. intros i a [? ?]. split; [by right|done].
Qed.
Lemma fit_gains_ok out tz b d (s s' : sc R) g : NoDup (b_index b) -> NoDup (plane_index b d) -> fit_gains out tz b d s = (Ok g, s') ->
  g = map (cleaned out) (plane_gain b d) /\
  (forall k i, monitor b d k i -> exists y c, gains_used out tz (plane_gain b d) !! k = Some y /\ entry s i "CalError" d = Some c /\ entry s' i "CalError" d = Some (c + (1 - y))) /\
  kept (fun i a k => (exists j, monitor b d j i) /\ a = "CalError" /\ k = d) s s' /\ frame (fun i a => (exists j, monitor b d j i) /\ a = "CalError") s s'.
Proof.
  intros N1 N2 H. unfold fit_gains in H. apply bind_ok in H as (g0&?&H1&H). apply lift_ok in H1 as [H1 ->]. apply without_outliers_R in H1 as [Hg0 _].
  apply bind_ok in H as (ords&?&H1&H). apply lift_ok in H1 as [H1 ->]. apply rmap_ok in H1. fold (plane_index b d) in H1. fold (plane_gain b d) in Hg0.
  apply bind_ok in H as ([]&?&H2&H). apply ret_ok in H as [<- <-]. rewrite to_mean_one_R in H2. 
  assert (forall k i, ords !! k = Some i <-> monitor b d k i) as Hm.
  { intros k i. split.
    - intros Hi. eapply Forall2_lookup_r in H1 as (j&Hj&E); [|exact Hi]. apply idx_ok in E. by exists j.
    - intros (j&Hj&Hi). eapply Forall2_lookup_l in H1 as (o&Ho&E); [|exact Hj]. apply idx_ok in E. congruence. }
  assert (NoDup ords) as N3.
  { apply NoDup_alt. intros k k' i A B. apply Hm in A as (j&A1&A2), B as (j'&B1&B2). pose proof (NoDup_lookup _ _ _ _ N1 A2 B2) as <-. by apply (NoDup_lookup _ _ _ _ N2 A1). }
  apply add_gain_loop in H2 as (A&B&C); [|done]. split; [done|]. split; [|split].
  - intros k i Hk. apply Hm in Hk. destruct (A k i Hk) as (y&c&Hy&Hc&He). exists y, c. split; [|done]. cbn in Hy. unfold gains_used. by rewrite <- Hg0.
  - revert B. apply kept_mono. intros i a k (Hi&?&?). split; [|done]. apply elem_of_list_lookup in Hi as [j Hj]. exists j. by apply Hm.
  - eapply frame_mono; [|exact C]. intros i a (Hi&?). split; [|done]. apply elem_of_list_lookup in Hi as [j Hj]. exists j. by apply Hm.
Qed.
Lemma lower_roll_loop (d : list R) ords k0 (s s' : sc R) : NoDup ords ->
  forM (zip (seq k0 (length ords)) ords) (fun p =>
      let! s := get in let! e := lift (idx (RING s) p.2) in let! r := lift (attr_num e "Roll") in let! x := lift (idx d p.1) in
      on_elem p.2 (lower_roll (ndiv x ntwo))) s = (Ok tt, s') ->
  (forall k i, ords !! k = Some i -> exists x r, d !! (k0 + k)%nat = Some x /\ number s i "Roll" = Some r /\ number s' i "Roll" = Some (r - x / 2)) /\
  frame (fun i a => i ∈ ords /\ a = "Roll") s s'.
Proof.
  revert k0 s. induction ords as [|o ords IH]; intros k0 s Hnd H; cbn [length seq zip zip_with forM] in H.
  - apply ret_ok in H as [_ ->]. split; [done|]. reflexivity.
  - apply NoDup_cons in Hnd as [Ho Hnd]. apply bind_ok in H as ([]&s1&H1&H). cbn [fst snd] in H1. apply bind_ok in H1 as (?&?&Hg&H1). apply get_ok in Hg as [-> ->].
    apply bind_ok in H1 as (e&?&He&H1). apply lift_ok in He as [He ->]. apply idx_ok in He. apply bind_ok in H1 as (r&?&Hr&H1). apply lift_ok in Hr as [Hr ->].
    apply bind_ok in H1 as (x&?&Hx&H1). apply lift_ok in Hx as [Hx ->]. apply idx_ok in Hx.
    assert (number s o "Roll" = Some r /\ number s1 o "Roll" = Some (r - x / 2) /\ frame (fun i a => i = o /\ a = "Roll") s s1) as (E1&E2&F).
    { split_and!.
      - unfold number, attr_at. rewrite He. cbn. apply attr_num_ok in Hr. by rewrite Hr.
      - apply on_elem_ok in H1 as (e0&e1&He0&Hm&->). assert (e0 = e) as -> by congruence. unfold lower_roll in Hm.
        unfold bind at 1, getm in Hm. rewrite Hr in Hm. cbv [setattr modify] in Hm. injection Hm as <-.
        unfold number, attr_at. cbn [RING set_RING]. rewrite list_lookup_insert by (by eapply lookup_lt_Some). cbn.
        rewrite lookup_insert. reflexivity.
      - assert (pres (frame (fun i a => i = o /\ a = "Roll")) (on_elem o (lower_roll (ndiv x ntwo)))) as K.
        { apply pres_on_elem_frame. unfold lower_roll. repeat pres_step. apply pres_setattr. done. }
        specialize (K s). by rewrite H1 in K. }
    apply IH in H as (B1&B2); [|done]. split.
    + intros [|k] i Hi; cbn in Hi.
      * injection Hi as <-. rewrite Nat.add_0_r. exists x, r. split; [done|]. split; [done|]. rewrite <- E2. unfold number. rewrite !attr_at_aget. by rewrite (frame_aget _ _ _ o "Roll" B2) by (intros (?&_); done).
      * destruct (B1 k i Hi) as (x'&r'&Hx'&Hr'&He'). exists x', r'. split; [by rewrite Nat.add_succ_r|]. split; [|done]. rewrite <- Hr'. unfold number. rewrite !attr_at_aget.
        rewrite (frame_aget _ _ _ i "Roll" F); [done|]. intros (->&_). apply Ho. by eapply elem_of_list_lookup_2.
    + etransitivity; [eapply frame_mono; [|exact F]|eapply frame_mono; [|exact B2]].
      * intros i a [-> ?]. split; [left|done].
      * intros i a [? ?]. split; [by right|done].
Qed.

(** When applyDiagnosticCorrection returns, with gains fitted: the calibration error of every monitor has grown by one minus the gain used, the
    dictionary holds the gains without outliers; every other entry of a calibration error and every other attribute but the roll are as before. *)
Theorem C73_gains step c b tz out (s s' : sc R) g : b_fit b = true -> NoDup (b_index b) -> NoDup (b_h_index b) -> NoDup (b_v_index b) ->
  apply_diagnostic_correction step c b tz out s = (Ok g, s') ->
  g = (map (cleaned out) (b_h_gain b), map (cleaned out) (b_v_gain b)) /\
  (forall d k i, (d < 2)%nat -> monitor b d k i -> exists y c, gains_used out tz (plane_gain b d) !! k = Some y /\
     entry s i "CalError" d = Some c /\ entry s' i "CalError" d = Some (c + (1 - y))) /\
  kept (fun i a d => exists k, monitor b d k i /\ a = "CalError") s s' /\
  frame (fun i a => i ∈ b_index b /\ (a = "CalError" \/ a = "Roll" /\ b_coupling b = Some true)) s s'.
Proof.
  intros Hb N1 N2 N3 H. unfold apply_diagnostic_correction in H. rewrite Hb in H. apply bind_ok in H as (?&?&H1&H). apply lift_ok in H1 as [_ ->].
  assert (forall ords (a a' : sc R), when (c_fit c) (fit_kicks ords) a = (Ok tt, a') -> a' = a) as Hk.
  { intros ords a a' Hw. apply when_ok in Hw as [[_ Hw]|[_ ?]]; [|done]. unfold fit_kicks in Hw. destruct ords as [|o l]; [by apply ret_ok in Hw as [_ ->]|]. cbn [forM] in Hw.
    apply bind_ok in Hw as (?&?&Hw&_). apply bind_ok in Hw as (?&?&_&Hw). apply bind_ok in Hw as (?&?&_&Hw). discriminate. }
  apply bind_ok in H as ([]&?&H1&H). apply Hk in H1 as ->. apply bind_ok in H as (h&s1&Hh&H). apply bind_ok in H as ([]&?&H1&H). apply Hk in H1 as ->.
  apply bind_ok in H as (v&s2&Hv&H). apply bind_ok in H as ([]&s3&Hc&H). apply ret_ok in H as [<- ->].
  apply fit_gains_ok in Hh as (G1&A1&K1&F1); [|done|exact N2]. apply fit_gains_ok in Hv as (G2&A2&K2&F2); [|done|exact N3].
  assert (frame (fun i a => i ∈ b_index b /\ a = "Roll" /\ b_coupling b = Some true) s2 s3) as F3.
  { unfold fit_coupling in Hc. destruct (b_coupling b) as [[]|]; [|by apply ret_ok in Hc as [_ ->]|done]. apply bind_ok in Hc as (dd&?&H1&Hc). apply lift_ok in H1 as [_ ->].
    apply lower_roll_loop in Hc as [_ F]; [|done]. eapply frame_mono; [|exact F]. intros i a [? ?]. done. }
  assert (forall i k, entry s3 i "CalError" k = entry s2 i "CalError" k) as E3.
  { intros i k. rewrite !entry_aget. rewrite (frame_aget _ _ _ i "CalError" F3); [done|]. by intros (_&?&_). }
  assert (forall i k d, monitor b d k i -> i ∈ b_index b) as Hmem by (intros i k d (j&_&?); by eapply elem_of_list_lookup_2).
  split; [by rewrite G1, G2|]. split; [|split].
  - intros d k i Hd Hm. destruct d as [|[|d]]; [| |lia].
    + destruct (A1 k i Hm) as (y&c0&Hy&Hc0&He). exists y, c0. split; [done|]. split; [done|]. rewrite E3, K2; [done| |by vm_compute]. by intros (_&_&?).
    + destruct (A2 k i Hm) as (y&c0&Hy&Hc0&He). exists y, c0. split; [done|]. split; [|by rewrite E3]. rewrite <- Hc0. symmetry. apply K1; [|by vm_compute]. by intros (_&_&?).
  - intros i a d Hn Ha. transitivity (entry s2 i a d); [|transitivity (entry s1 i a d)].
    + destruct (decide (a = "Roll")) as [->|Hr]; [|rewrite !entry_aget, (frame_aget _ _ _ i a F3); [done|]; by intros (_&?&_)].
      unfold fit_coupling in Hc. destruct (b_coupling b) as [[]|]; [|by apply ret_ok in Hc as [_ ->]|done]. apply bind_ok in Hc as (dd&?&H1&Hc). apply lift_ok in H1 as [_ ->].
      apply lower_roll_loop in Hc as [L F]; [|done]. destruct (decide (i ∈ b_index b)) as [Hi|Hi]; [|rewrite !entry_aget, (frame_aget _ _ _ i "Roll" F); [done|]; by intros (?&_)].
      apply elem_of_list_lookup in Hi as [k Hi]. destruct (L k i Hi) as (xr&r&_&R1&R2). unfold number in R1, R2. unfold entry. destruct (attr_at s2 i "Roll") as [[]|]; try done. by destruct (attr_at s3 i "Roll") as [[]|].
    + apply K2; [|done]. intros ((k&Hm)&->&->). apply Hn. by exists k.
    + apply K1; [|done]. intros ((k&Hm)&->&->). apply Hn. by exists k.
  - etransitivity; [eapply frame_mono; [|exact F1]|etransitivity; [eapply frame_mono; [|exact F2]|eapply frame_mono; [|exact F3]]].
    + intros i a [[k Hm] ->]. split; [by eapply Hmem|by left].
    + intros i a [[k Hm] ->]. split; [by eapply Hmem|by left].
    + intros i a (Hi&->&Hr). split; [done|by right].
Qed.
(** A monitor whose fitted gain is its actual one is calibrated exactly. *)
Corollary C73_gain_exact step c b l (s s' : sc R) g d k i y : b_fit b = true -> NoDup (b_index b) -> NoDup (b_h_index b) -> NoDup (b_v_index b) ->
  apply_diagnostic_correction step c b false (OutAt l) s = (Ok g, s') -> (d < 2)%nat -> monitor b d k i ->
  plane_gain b d !! k = Some (1 + y) -> entry s i "CalError" d = Some y -> Rabs y < l -> entry s' i "CalError" d = Some 0.
Proof.
  intros Hb N1 N2 N3 H Hd Hm Hg Hc Hy. destruct (C73_gains _ _ _ _ _ _ _ _ Hb N1 N2 N3 H) as (_&A&_). destruct (A d k i Hd Hm) as (z&c0&Hz&Hc0&He).
  assert (c0 = y) as -> by congruence. unfold gains_used in Hz. rewrite list_lookup_fmap in Hz. rewrite Hg in Hz. cbn in Hz. injection Hz as <-.
  replace (1 - (1 + y)) with (- y) in He by lra. rewrite Rabs_Ropp in He. destruct (Rle_dec l (Rabs y)); [lra|]. rewrite He. f_equal. lra.
Qed.
(** With [meanToZero] the gains used have average one: the calibration errors of a plane change by zero on average. *)
Lemma sum_shift (a : R) l : foldr Rplus 0 (map (fun x => x + a) l) = foldr Rplus 0 l + INR (length l) * a.
Proof. induction l as [|x l IH]; [cbn; lra|]. cbn [map foldr length]. rewrite IH, S_INR. lra. Qed.
Lemma sum_one_minus l : foldr Rplus 0 (map (Rminus 1) l) = INR (length l) - foldr Rplus 0 l.
Proof. induction l as [|x l IH]; [cbn; lra|]. cbn [map foldr length]. rewrite IH, S_INR. lra. Qed.
Theorem C73_mean_one out g : g <> [] -> avg (gains_used out true g) = 1.
Proof.
  intros Hg. unfold gains_used. set (c := map (cleaned out) g). assert (0 < INR (length c)) as Hp.
  { unfold c. rewrite map_length. apply lt_0_INR. destruct g; [done|cbn; lia]. }
  unfold avg at 1. rewrite sum_shift, map_length. unfold avg. rewrite map_length, sum_one_minus. field. lra.
Qed.
(** When it returns with the coupling fitted, the roll of every monitor is lowered by half the difference of the couplings. *)
Theorem C73_rolls step c b tz out (s s' : sc R) g : NoDup (b_index b) -> length (b_v_coupling b) = length (b_h_coupling b) -> b_coupling b = Some true ->
  apply_diagnostic_correction step c b tz out s = (Ok g, s') ->
  forall k i, b_index b !! k = Some i -> exists x z r, b_v_coupling b !! k = Some x /\ b_h_coupling b !! k = Some z /\
    number s i "Roll" = Some r /\ number s' i "Roll" = Some (r - (x - z) / 2).
Proof.
  intros N1 HL Hcp H k i Hi. unfold apply_diagnostic_correction in H. apply bind_ok in H as (?&?&H1&H). apply lift_ok in H1 as [_ ->].
  set (I := fun (j : nat) (a : string) => a = "CalError").
  assert (forall d, pres (frame I) (fit_gains out tz b d)) as Pg.
  { intros d. unfold fit_gains, add_gain. repeat pres_step. apply pres_on_elem_frame. repeat pres_step. apply pres_setattr. done. }
  assert (forall ords, pres (frame I) (fit_kicks (T:=R) ords)) as Pk by (intros ords; unfold fit_kicks; repeat pres_step).
  apply bind_ok in H as ([]&s1&H1&H). apply bind_ok in H as (h&s2&H2&H). apply bind_ok in H as ([]&s3&H3&H). apply bind_ok in H as (v&s4&H4&H). apply bind_ok in H as ([]&s5&H5&H). apply ret_ok in H as [_ ->].
  assert (frame I s s4) as F.
  { etransitivity; [|etransitivity; [|etransitivity]].
    - eapply (pres_run (frame I)); [|exact H1]. apply pres_when; [exact _|apply Pk].
    - eapply (pres_run (frame I)); [|exact H2]. destruct (b_fit b); [apply Pg|apply pres_ret; exact _].
    - eapply (pres_run (frame I)); [|exact H3]. apply pres_when; [exact _|apply Pk].
    - eapply (pres_run (frame I)); [|exact H4]. destruct (b_fit b); [apply Pg|apply pres_ret; exact _]. }
  unfold fit_coupling in H5. rewrite Hcp in H5. apply bind_ok in H5 as (d&?&Hd&H5). apply lift_ok in Hd as [Hd ->]. unfold bcast in Hd. rewrite HL, Nat.eqb_refl in Hd. injection Hd as <-.
  apply lower_roll_loop in H5 as [L _]; [|done]. destruct (L k i Hi) as (y&r&Hy&Hr&He). cbn [Nat.add] in Hy. rewrite lookup_zip_with in Hy.
  destruct (b_v_coupling b !! k) as [xv|]; [|done]. cbn in Hy. destruct (b_h_coupling b !! k) as [z|]; [|done]. cbn in Hy. injection Hy as <-. exists xv, z, r. split; [done|]. split; [done|]. split; [|exact He].
  rewrite <- Hr. unfold number. rewrite !attr_at_aget. by rewrite (frame_aget _ _ _ i "Roll" F).
Qed.

(** * Findings *)
(** applyDiagnosticCorrection never returns for a number as step, with any corrector to be fitted, with the default of [outlierRemovalAt] and gains to be
    fitted, or for the monitor structure that loco_bpm_structure makes. *)
Theorem C73_finding_diagnostics step c b tz out (s s' : sc R) g : apply_diagnostic_correction step c b tz out s = (Ok g, s') ->
  (forall x, step <> StepNumber x) /\ (c_fit c = true -> c_h_index c = [] /\ c_v_index c = []) /\
  (b_fit b = true -> out = OutNone -> b_h_gain b = [] /\ b_v_gain b = []) /\ (forall ords t, b <> loco_bpm_structure ords t).
Proof.
  intros H. unfold apply_diagnostic_correction in H. apply bind_ok in H as (?&?&H1&H). apply lift_ok in H1 as [H1 ->].
  assert (forall ords (a a' : sc R), when (c_fit c) (fit_kicks ords) a = (Ok tt, a') -> c_fit c = true -> ords = []) as Hk.
  { intros ords a a' Hw Ht. apply when_ok in Hw as [[_ Hw]|[? _]]; [|congruence]. unfold fit_kicks in Hw. destruct ords as [|o l]; [done|]. cbn [forM] in Hw.
    apply bind_ok in Hw as (?&?&Hw&_). apply bind_ok in Hw as (?&?&_&Hw). apply bind_ok in Hw as (?&?&_&Hw). discriminate. }
  assert (forall d (a a' : sc R) l, fit_gains out tz b d a = (Ok l, a') -> out = OutNone -> plane_gain b d = []) as Hgn.
  { intros d a a' l Hf Ho. unfold fit_gains in Hf. apply bind_ok in Hf as (?&?&Hf&_). apply lift_ok in Hf as [Hf _]. apply without_outliers_R in Hf as [_ Hf]. by apply Hf. }
  apply bind_ok in H as ([]&s1&H2&H). apply bind_ok in H as (h&s2&H3&H). apply bind_ok in H as ([]&s3&H4&H). apply bind_ok in H as (v&s4&H5&H). apply bind_ok in H as ([]&s5&H6&H).
  split_and!.
  - intros x0 ->. done.
  - intros Ht. split; by eapply Hk.
  - intros Ht Ho. rewrite Ht in *. split; [by apply (Hgn 0%nat _ _ _ H3)|by apply (Hgn 1%nat _ _ _ H5)].
  - intros ords t ->. discriminate.
Qed.
(** loco_measurement never returns. *)
Theorem C73_finding_measurement w amp rf bpms hcm vcm kwargs (s s' : sc R) out : loco_measurement w amp rf bpms hcm vcm kwargs s <> (Ok out, s').
Proof.
  intros H. unfold loco_measurement in H. apply bind_ok in H as (?&?&_&H). apply bind_ok in H as (?&?&_&H). apply bind_ok in H as (?&?&_&H). apply bind_ok in H as (?&?&_&H).
  apply bind_ok in H as (?&?&_&H). unfold dispersion in H. apply bind_ok in H as (?&?&_&H). cbv zeta in H. apply bind_ok in H as (?&?&_&H). cbn [Nat.eqb] in H.
  apply bind_ok in H as (?&?&_&H). discriminate.
Qed.
(** With a corrector it already fails while measuring the response matrix, whatever keyword arguments are given. *)
Theorem C73_finding_measurement_response w amp rf bpms hcm vcm kwargs (s : sc R) : hcm ++ vcm <> [] ->
  forall f, loco_measurement w amp rf bpms hcm vcm kwargs s = f -> exists e s1, f = (Err e, s1) /\
    (kwargs = [] -> forall e1 cav, oRF (ORD s) !! 0%nat = Some cav -> RING s !! cav = Some e1 -> (exists x, attr_num e1 "Frequency" = Ok x) ->
       response_matrix w amp bpms hcm vcm "fixedKick" 2 s = (Err e, s1)).
Proof.
  intros Hne f <-. destruct (loco_measurement w amp rf bpms hcm vcm kwargs s) as [[out|e] s1] eqn:H; [by apply C73_finding_measurement in H|]. exists e, s1. split; [done|].
  intros -> e1 cav Hcav He1 [x Hx]. unfold loco_measurement in H. unfold bind at 1, get in H. cbn beta iota in H. unfold bind at 1, lift at 1, idx at 1 in H. rewrite Hcav in H.
  unfold bind at 1, lift at 1, idx at 1 in H. rewrite He1 in H. unfold bind at 1, lift at 1 in H. rewrite Hx in H. unfold bind at 1 in H.
  destruct (response_matrix w amp bpms hcm vcm "fixedKick" 2 s) as [[o|e'] s2] eqn:Er; [|by injection H as <- <-]. exfalso. eapply C70_finding_never_returns; [|exact Hne|exact Er]. done.
Qed.
(** loco_fit_parameters fails for every element, loco_cm_structure for the default of [cm_steps], an empty sequence, and one array in a sequence. *)
Theorem C73_finding_structures fams i nh nv l : i ∈ concat fams -> loco_fit_parameters fams = Err AttributeError /\ loco_cm_structure (T:=R) nh nv CmNone = Err TypeError /\
  loco_cm_structure (T:=R) nh nv (CmOneArray l) = Err ValueError /\ loco_cm_structure (T:=R) nh nv CmEmpty = Err IndexError.
Proof. intros Hi. split; [|done]. unfold loco_fit_parameters. destruct (concat fams); [by apply elem_of_nil in Hi|done]. Qed.
(** What loco_cm_structure makes of the steps: one step and one kick per corrector, the kicks 2000 times the steps.  A single number counts for every
    corrector; two arrays are taken as they are and must have one entry per corrector of their plane, or one entry alone - the steps then
    keep their single entry (finding). *)
Definition kicks_of (n : nat) (steps kicks : list R) : Prop :=
  length kicks = n /\ ((length steps = n /\ forall k x, steps !! k = Some x -> kicks !! k = Some (2000 * x)) \/
                      (exists x, steps = [x] /\ forall k, (k < n)%nat -> kicks !! k = Some (2000 * x))).
Lemma map_replicate' {A B} (f : A -> B) n x : map f (replicate n x) = replicate n (f x).
Proof. induction n as [|n IH]; [done|]. cbn [replicate map]. by rewrite IH. Qed.
Lemma times_in_place_R n (st k : list R) : times_in_place (map (nmul (nofZ 2000)) (ones n)) st = Ok k -> kicks_of n st k.
Proof.
  assert (E : map (nmul (nofZ 2000)) (ones n) = replicate n 2000).
  { unfold ones. rewrite map_replicate'. f_equal. num_R. lra. }
  rewrite E. unfold times_in_place. intros H. apply rbind_ok in H as (c&Hc&H). rewrite replicate_length in H. destruct (_ =? _)%nat eqn:L; [|done]. injection H as <-. apply Nat.eqb_eq in L.
  split; [done|]. unfold bcast in Hc. rewrite replicate_length in Hc. destruct (n =? length st)%nat eqn:L2.
  - apply Nat.eqb_eq in L2. injection Hc as <-. left. split; [done|]. intros j x Hx. rewrite lookup_zip_with. rewrite lookup_replicate_2 by (rewrite L2; by eapply lookup_lt_Some). cbn. by rewrite Hx.
  - apply Nat.eqb_neq in L2. destruct n as [|[|n]]; cbn [replicate] in Hc.
    + destruct st as [|x [|]]; [done| |done]. right. exists x. split; [done|lia].
    + injection Hc as <-. rewrite map_length in L. lia.
    + destruct st as [|x [|]]; [done| |done]. right. exists x. split; [done|]. intros k Hk. injection Hc as <-. change (2000 :: 2000 :: replicate n 2000) with (replicate (S (S n)) 2000).
      rewrite map_replicate'. exact (lookup_replicate_2 (S (S n)) (2000 * x) k Hk).
Qed.
Theorem C73_structure nh nv (a : cm_steps_arg R) st kicks : loco_cm_structure nh nv a = Ok (st, kicks) ->
  kicks_of nh st.1 kicks.1 /\ kicks_of nv st.2 kicks.2 /\
  (forall x, a = CmNumber x \/ a = CmOne x -> st = (replicate nh x, replicate nv x)) /\ (forall h v, a = CmArrays h v -> st = (h, v)).
Proof.
  intros H. unfold loco_cm_structure in H. apply rbind_ok in H as (st'&Hs&H). apply rbind_ok in H as (kh&Hh&H). apply rbind_ok in H as (kv&Hv&H). injection H as -> <-.
  apply times_in_place_R in Hh, Hv. split; [done|]. split; [done|]. split.
  - intros x Ha. assert (Hs' : Ok (map (fun o => nmul o x) (ones nh), map (fun o => nmul o x) (ones nv)) = Ok st) by (by destruct Ha as [-> | ->]). injection Hs' as <-.
    assert (E : forall n, map (fun o : R => nmul o x) (ones n) = replicate n x).
    { intros n. unfold ones. rewrite map_replicate'. f_equal. num_R. lra. }
    by rewrite !E.
  - intros h v ->. by injection Hs as <-.
Qed.
Print Assumptions C73_structure.
Print Assumptions C73_gains.
Print Assumptions C73_gain_exact.
Print Assumptions C73_mean_one.
Print Assumptions C73_rolls.
Print Assumptions C73_finding_diagnostics.
Print Assumptions C73_finding_measurement.
Print Assumptions C73_finding_measurement_response.
Print Assumptions C73_finding_structures.

(** * Cases *)
(** Two quadrupoles corrected as one group with damping 1/2, and the same quadrupoles' skew components; two monitors, one with a gain of 11/10
    found exactly and one with an impossible gain. *)
From Coq Require Import QArith.
Local Open Scope Q_scope.
#[local] Instance TrigQ12 : Trig Q := {| ncos _ := 1; nsin _ := 0; nsqrt x := x; npi := 3 |}.
Definition wrap_monitor (c r : Q) : elem Q := Examples.mk [("CalError", VVec [c; 0]); ("Roll", VNum r)].
Definition wrap_machine : sc Q :=
  let ring := [Examples.quad; Examples.quad; wrap_monitor (1#10) (1#4); wrap_monitor 0 0] in
  let s := MkSC ring ring (MkInj 1 (zeros 6) (zeros 6) (replicate 6 (zeros 6)) (zeros 6) 1 1 1 "ORB") (SIG Examples.ex_sc) (MkOrd [2; 3]%nat [] [] [] [] [] [] [] []) [] in
  snd (register_magnets [0; 1]%nat [] (MkType None None false None None) s).
Definition wrap_fit : fit_parameters Q := MkFit [[(0, "SetPointB"); (1, "SetPointB")]; [(0, "SetPointA")]]%nat [3; 0] [3; 0] [4; 1#5].
Example C73_case_lattice : let run := apply_lattice_correction wrap_fit true (1#2) wrap_machine in
  fst run = Ok tt /\ map (fun i => entry (snd run) i "SetPointB" 1) [0; 1]%nat = [Some (5#2); Some (5#2)] /\
  map (fun i => entry (snd run) i "SetPointA" 1) [0; 1]%nat = [Some (-1#10); Some 0] /\
  map (fun i => entry wrap_machine i "SetPointB" 1) [0; 1]%nat = [Some 3; Some 3].
Proof. vm_compute. done. Qed.
Definition wrap_bpms (gain : list Q) : bpm_data Q := MkBpmData [2; 3]%nat true [0; 1]%nat [0; 1]%nat gain [1; 1] (Some true) [0; 0] [1#2; 0].
Example C73_case_gains : let run := apply_diagnostic_correction (StepSeq [1]) (MkCmData [] [] false [] []) (wrap_bpms [11#10; 5]) false (OutAt (1#2)) wrap_machine in
  fst run = Ok ([11#10; 1], [1; 1]) /\ map (fun i => entry (snd run) i "CalError" 0) [2; 3]%nat = [Some 0; Some 0] /\
  map (fun i => entry wrap_machine i "CalError" 0) [2; 3]%nat = [Some (1#10); Some 0] /\ map (fun i => number (snd run) i "Roll") [2; 3]%nat = [Some 0; Some 0].
Proof. vm_compute. done. Qed.
(** The structure made by loco_bpm_structure, with gains to be fitted: the call fails after having changed the calibration. *)
Example C73_case_default : let b := loco_bpm_structure None wrap_machine in
  let b := MkBpmData (b_index b) true (b_h_index b) (b_v_index b) [11#10; 1] (b_v_gain b) (b_coupling b) (b_h_coupling b) (b_v_coupling b) in
  let run := apply_diagnostic_correction (StepSeq [1]) (MkCmData [] [] false [] []) b false (OutAt (1#2)) wrap_machine in
  fst run = Err AttributeError /\ entry (snd run) 2 "CalError" 0 = Some 0.
Proof. vm_compute. done. Qed.
(** Two horizontal correctors and one vertical corrector: one number, two arrays, and arrays with too many entries. *)
Example C73_case_structure : loco_cm_structure 2 1 (CmNumber (1#10)) = Ok (([1#10; 1#10], [1#10]), ([200; 200], [200])) /\
  loco_cm_structure 2 1 (CmArrays [1; 2] [3]) = Ok (([1; 2], [3]), ([2000; 4000], [6000])) /\ loco_cm_structure 2 1 (CmArrays [1; 2] [3; 4]) = Err ValueError.
Proof. vm_compute. done. Qed.
