(** C28: zero uncertainty means zero error; C20: plain-number calibration uncertainties. *)
From Coq Require Import Reals Lra QArith.
From stdpp Require Import base gmap strings list.
From Verif Require Import Num Base Model_Arr Model_SC Model_Err Lemmas Proofs_Reg Proofs_Update Proofs_Loop Spec Proofs_CM Proofs_Field Proofs_Err
  Properties_Random Properties_Field Properties_Update Examples Properties_Errors Properties_Circ Properties_Support Proofs_Interp Properties_Interp Properties_Interp2.
Local Open Scope string_scope.
Local Open Scope list_scope.

(** * Specification *)
(** a number, vector or matrix of zeros *)
Definition zero_val (v : val R) : Prop :=
  match v with
  | VNum x => x = 0%R
  | VVec l => Forall (fun x => x = 0%R) l
  | VMat m => Forall (Forall (fun x => x = 0%R)) m
  | _ => False
  end.
(** the same shape *)
Definition same_shape (v w : val R) : Prop :=
  match v, w with
  | VNum _, VNum _ => True
  | VVec l, VVec k => length l = length k
  | VMat l, VMat k => Forall2 (fun r q => length r = length q) l k
  | _, _ => False
  end.
Definition sigma_value (sg : sigval R) : val R := match sg with SPlain v | SCut v _ => v end.
Definition zero_registry (m : gmap nat (dict (sigval R))) : Prop := forall i d k sg, m !! i = Some d -> (k, sg) ∈ d -> zero_val (sigma_value sg).
Definition zero_uncertainties (s : sc R) : Prop :=
  zero_registry (sRF (SIG s)) /\ zero_registry (sBPM (SIG s)) /\ zero_registry (sMagnet (SIG s)) /\ zero_registry (sSupport (SIG s)) /\
  Forall (fun x => x = 0%R) (sStatZ (SIG s)) /\ sCirc (SIG s) = 0%R.
(** no support is displaced *)
Definition at_rest (s : sc R) : Prop := forall i t x v, x ∈ ["Offset"; "Roll"] -> attr_at s i (stype_str t +:+ x) = Some v -> zero_val v.

(** * Bounds of zero *)
Lemma at_most_zero cut x y : x = 0%R -> at_most cut x y -> y = 0%R.
Proof. intros -> H. unfold at_most in H. rewrite Rabs_R0, Rmult_0_l in H. destruct (Req_dec y 0) as [->|Hn]; [done|]. apply Rabs_pos_lt in Hn. lra. Qed.
Lemma at_most_zeros cut l k : Forall (fun x => x = 0%R) l -> Forall2 (at_most cut) l k -> Forall (fun x => x = 0%R) k /\ length l = length k.
Proof. intros H1 H2. induction H2 as [|x y l k H H2 IH]; [done|]. inversion H1; subst. destruct IH as [I1 I2]; [done|]. split; [constructor; [by eapply at_most_zero|done]|simpl; lia]. Qed.
Lemma bounded_zero cut sg v : zero_val sg -> bounded cut sg v -> zero_val v /\ same_shape sg v.
Proof.
  destruct sg, v; simpl; try done.
  - intros -> H. split; [by eapply at_most_zero|done].
  - apply at_most_zeros.
  - intros H1 H2. induction H2 as [|x y l k H H2 IH]; [by split; constructor|]. inversion H1; subst. destruct IH as [I1 I2]; [done|]. destruct (at_most_zeros _ _ _ H4 H). split; constructor; done.
Qed.
Lemma error_bounded_zero nsig sg v : zero_val (sigma_value sg) -> error_bounded nsig sg v -> zero_val v /\ same_shape (sigma_value sg) v.
Proof. destruct sg; simpl; apply bounded_zero. Qed.

(** * C28 *)
Lemma zero_sigma m i k sg : zero_registry m -> sigma_of m i k = Some sg -> zero_val (sigma_value sg).
Proof. intros H Hs. apply sigma_of_elem in Hs as (d&Hd&Hk). by eapply H. Qed.
(** Cavities, magnets and BPMs: every attribute with an uncertainty is zero, of the shape of the uncertainty. *)
Theorem C28_errors_zero minv nsig (s s' : sc R) u : well_registered s -> zero_uncertainties s -> apply_errors minv nsig s = (Ok u, s') ->
  (forall i k sg, sigma_of (sRF (SIG s)) i k = Some sg -> exists v, attr_at s' i k = Some v /\ zero_val v /\ same_shape (sigma_value sg) v) /\
  (forall i k sg, sigma_of (sMagnet (SIG s)) i k = Some sg -> exists v, attr_at s' i (magnet_error_name k) = Some v /\ zero_val v /\ same_shape (sigma_value sg) v) /\
  (forall i k sg, sigma_of (sBPM (SIG s)) i k = Some sg -> ~ noise_name k -> exists v, attr_at s' i k = Some v /\ zero_val v /\ same_shape (sigma_value sg) v) /\
  (forall i k sg, sigma_of (sBPM (SIG s)) i k = Some (SPlain sg) -> noise_name k -> attr_at s' i k = Some sg /\ zero_val sg).
Proof.
  intros Hw (Z1&Z2&Z3&_) H. destruct (C27_errors_bounded minv nsig s s' u Hw H) as (B1&B2&B3&B4). split_and!.
  - intros i k sg Hs. destruct (B1 i k sg Hs) as (v&Hv&Hb). exists v. split; [done|]. apply (error_bounded_zero nsig); [|done]. by eapply zero_sigma, Hs.
  - intros i k sg Hs. destruct (B2 i k sg Hs) as (v&Hv&Hb). exists v. split; [done|]. apply (error_bounded_zero nsig); [|done]. by eapply zero_sigma, Hs.
  - intros i k sg Hs Hn. destruct (B3 i k sg Hs Hn) as (v&Hv&Hb). exists v. split; [done|]. apply (error_bounded_zero nsig); [|done]. by eapply zero_sigma, Hs.
  - intros i k sg Hs Hn. split; [by apply B4|]. by apply (zero_sigma _ _ _ _ Z2 Hs).
Qed.
(** The injected position is the ideal one. *)
Theorem C28_injection minv nsig (s s' : sc R) u : well_registered s -> zero_uncertainties s -> length (Z0ideal (INJ s)) = 6%nat -> length (sStatZ (SIG s)) = 6%nat ->
  apply_errors minv nsig s = (Ok u, s') -> forall k, k < 6 -> Z0 (INJ s') !! k = Z0ideal (INJ s) !! k.
Proof.
  intros Hw (_&_&_&_&Z&_) L1 L2 H k Hk. destruct (lookup_lt_is_Some_2 (Z0ideal (INJ s)) k) as [z0 Hz]; [lia|]. destruct (lookup_lt_is_Some_2 (sStatZ (SIG s)) k) as [st Hst]; [lia|].
  destruct (C27_injection_bounded minv nsig s s' u k z0 st Hw H L1 L2 Hz Hst) as (z&E&Hb). rewrite E, Hz. f_equal.
  rewrite Forall_forall in Z. rewrite (Z st) in Hb by (by eapply elem_of_list_lookup_2). rewrite Rabs_R0, Rmult_0_l in Hb.
  destruct (Req_dec (z - z0) 0) as [?|Hn]; [lra|]. apply Rabs_pos_lt in Hn. lra.
Qed.

Lemma errors_stages minv nsig (s s' : sc R) u : well_registered s -> apply_errors minv nsig s = (Ok u, s') ->
  exists s1 s2 s3 s4, SIG s1 = SIG s /\ ORD s1 = ORD s /\ length (RING s1) = length (RING s) /\ (forall i, attr_at s1 i "Length" = attr_at s i "Length") /\
    (forall i t x, x ∈ ["Offset"; "Roll"] -> attr_at s1 i (stype_str t +:+ x) = attr_at s i (stype_str t +:+ x)) /\
    apply_circumference nsig s1 = (Ok tt, s2) /\ apply_support_alignment_error nsig s2 = (Ok tt, s3) /\ update_supports minv true true s3 = (Ok tt, s4) /\
    (forall i a, a ∉ DERIVED ++ CAVITY_FIELDS -> attr_at s' i a = attr_at s4 i a) /\
    (oMagnet (ORD s4) <> [] -> exists s5, update_magnets (oMagnet (ORD s4)) s4 = (Ok tt, s5)).
Proof.
  intros Hw H. destruct Hw as (B1&B2&F1&F2&M1&M2). apply apply_errors_ok in H as (s1&s2&s3&H1&H2&H3&H4).
  assert (forall x, pres (same (@RING R)) (randn_cutoff x nsig)) as PR by (intros; by apply same_randn_cutoff).
  assert (forall x, pres (same (@os R)) (randn_cutoff x nsig)) as PO by (intros; by apply same_randn_cutoff).
  rewrite apply_rf_loop in H1. apply (err_loop_ok os _ _ RF_ERROR_FIELDS) in H1 as (U1&O1&_); try done.
  unfold os in O1. injection O1 as OO1 OS1.
  rewrite apply_bpm_loop, OO1, OS1 in H2. apply (err_loop_ok os _ _ BPM_ERROR_FIELDS) in H2 as (U2&O2&_); try done;
    [|intros [??]; unfold bpm_body; repeat pres_step; apply PR|intros [??]; unfold bpm_body; repeat pres_step; apply PO].
  unfold os in O2. injection O2 as OO2 OS2.
  rewrite apply_magnet_loop, OO2, OS2, OO1, OS1 in H3. apply (err_loop_ok os _ _ MAGNET_ERROR_FIELDS) in H3 as (U3&O3&_); try done; [|apply magnet_error_name_inj].
  unfold os in O3. injection O3 as OO3 OS3.
  unfold tail_of_errors in H4. apply bind_ok in H4 as ([]&s5&H5&H4). apply bind_ok in H4 as ([]&s6&H6&H4). apply bind_ok in H4 as ([]&s7&H7&H4). apply bind_ok in H4 as ([]&s8&H8&H4).
  assert (pres (same (@os R)) (apply_injection nsig)) as PI.
  { unfold apply_injection, mod_INJ. repeat first [pres_step|apply same_randnc; done|apply pres_modify; done]. }
  specialize (PI s3). rewrite H5 in PI. unfold same, os in PI. simpl in PI. injection PI as OO5 OS5.
  pose proof (upto_injection (fun _ => False) nsig s3) as U5. rewrite H5 in U5. simpl in U5.
  assert (upto (fun a => a ∈ DERIVED ++ CAVITY_FIELDS) s8 s') as U8.
  { match type of H4 with ?m s8 = _ => assert (pres (upto (fun a => a ∈ DERIVED ++ CAVITY_FIELDS)) m) as Hp end.
    - unfold update_magnets_all, update_cavities_all. repeat first [ pres_step | apply upto_update_magnets; intros; rewrite !elem_of_app; tauto | apply upto_update_cavities; intros; rewrite !elem_of_app; tauto ].
    - specialize (Hp s8). by rewrite H4 in Hp. }
  assert (forall i a, bool_decide (a ∈ RF_ERROR_FIELDS ++ BPM_ERROR_FIELDS ++ map magnet_error_name MAGNET_ERROR_FIELDS) = false -> attr_at s5 i a = attr_at s i a) as Hkeep.
  { intros i a Ha. apply bool_decide_eq_false in Ha. rewrite !elem_of_app in Ha. destruct U1 as [_ U1], U2 as [_ U2], U3 as [_ U3], U5 as [_ U5]. rewrite U5, U3, U2, U1; [done|..]; try tauto.
    - intros (k&Hk&->). apply Ha. left. done.
    - intros (k&Hk&->). apply Ha. right. left. done.
    - intros (k&Hk&->). apply Ha. right. right. apply elem_of_list_fmap. by exists k. }
  exists s5, s6, s7, s8. split_and!; try done; try congruence.
  - rewrite (proj1 U5), (proj1 U3), (proj1 U2). apply U1.
  - intros i. by apply Hkeep.
  - intros i t x Hx. apply Hkeep. apply elem_of_cons in Hx as [->|Hx]; [|apply elem_of_list_singleton in Hx as ->]; by destruct t.
  - intros i a Ha. apply U8. exact Ha.
  - intros Hne. apply bind_ok in H4 as ([]&s9&H9&_). apply bind_ok in H9 as (?&?&Hg&H9). apply get_ok in Hg as [-> ->].
    assert (length (oMagnet (ORD s8)) =? 0 = false)%nat as El by (apply Nat.eqb_neq; destruct (oMagnet (ORD s8)); [done|simpl; lia]). rewrite El in H9. by exists s9.
Qed.
Lemma circumference_one nsig (s s' : sc R) u : sCirc (SIG s) = 0%R -> apply_circumference nsig s = (Ok u, s') -> SIG s' = SIG s /\ ORD s' = ORD s /\ forall i a, attr_at s' i a = attr_at s i a.
Proof.
  intros Hz H. assert (pres (same (@os R)) (apply_circumference nsig)) as PC.
  { unfold apply_circumference, randnc1. repeat first [pres_step|apply same_randnc; done|apply same_scale_circumference; done]. }
  specialize (PC s). rewrite H in PC. unfold same, os in PC. simpl in PC. injection PC as OO OS. split_and!; try done.
  unfold apply_circumference in H. apply bind_ok in H as (d&s1&H1&H). apply bind_ok in H as (?&?&Hg&H). apply get_ok in Hg as [-> ->].
  assert (RING s1 = RING s /\ SIG s1 = SIG s) as [R1 G1].
  { unfold randnc1 in H1. assert (pres (same (fun s : sc R => (RING s, SIG s))) (let! l := randnc nsig 1 in lift (idx l 0))) as Hp by (repeat first [pres_step|apply same_randnc; done]).
    specialize (Hp s). rewrite H1 in Hp. unfold same in Hp. simpl in Hp. by injection Hp. }
  rewrite G1, Hz in H. num_R. rewrite Rmult_0_l, Rplus_0_r in H.
  intros i a. assert (attr_at s1 i a = attr_at s i a) as <- by (unfold attr_at; by rewrite R1).
  destruct (decide (a = "Length")) as [->|Ha].
  2:{ pose proof (upto_scale_circumference (eq "Length") 1%R "rel" eq_refl s1) as U. rewrite H in U. apply (proj2 U). congruence. }
  destruct (List.existsb (is_drift_at s1) (seq 0 (length (RING s1)))) eqn:Ed.
  - apply existsb_exists in Ed as (j&_&Hj). apply is_drift_at_true in Hj. destruct (scale_ok 1%R "rel" s1 s' u H) as (Hnz&f&(_&_&Hs1&Hs2)&[[? _]|[_ Hf]]); [by exists j|discriminate|].
    assert (f = 1%R) as -> by (rewrite Hf; field; done). destruct (decide (i < length (RING s1))) as [Hi|Hi].
    + destruct (is_drift_at s1 i) eqn:Ei; [|apply Hs2; intros [Hdr _]; apply is_drift_at_true in Hdr; congruence]. apply is_drift_at_true in Ei. destruct (Hs1 i Hi Ei) as (l&->&->). by rewrite Rmult_1_r.
    + apply Hs2. intros [Hdr _]. unfold drift_at, attr_at in Hdr. rewrite lookup_ge_None_2 in Hdr by lia. discriminate.
  - assert (forall j, ~ drift_at s1 j) as Hno.
    { intros j Hj. assert (j < length (RING s1)) as Hl. { unfold drift_at, attr_at in Hj. destruct (RING s1 !! j) eqn:Ej; [by eapply lookup_lt_Some|discriminate]. }
      apply is_drift_at_true in Hj. assert (existsb (is_drift_at s1) (seq 0 (length (RING s1))) = true) as Hex; [|congruence]. apply existsb_exists. exists j. split; [|done]. apply in_seq. lia. }
    unfold scale_circumference in H. rewrite decide_True in H by (by right). apply bind_ok in H as (?&?&Hg&H). apply get_ok in Hg as [-> ->]. apply bind_ok in H as (hd&?&Hh&H). apply lift_ok in Hh as [Hh ->].
    apply drift_sum_ok in Hh as [E1 E2]. destruct (hd.1) eqn:Eh; [destruct (proj1 E2 eq_refl) as [j Hj]; by apply Hno in Hj|]. by injection H as _ <-.
Qed.

(** the support stage *)
Lemma zero_draw nsig sg (s s' : sc R) v : zero_val (sigma_value sg) -> randn_cutoff sg nsig s = (Ok v, s') -> zero_val v.
Proof. intros Hz H. apply randn_cutoff_bound in H. by apply (error_bounded_zero nsig sg). Qed.
Lemma rest_draws t p nsig l s u s' : (forall k sg, (k, sg) ∈ l -> zero_val (sigma_value sg)) -> forM l (draw_step t p nsig) s = (Ok u, s') -> at_rest s -> at_rest s'.
Proof.
  revert s. induction l as [|kv l IH]; intros s Hz H Hr; cbn [forM] in H; [by apply ret_ok in H as [_ ->]|].
  apply bind_ok in H as ([]&s1&H1&H2). apply (IH s1); [intros k sg Hin; apply (Hz k); by right|done|].
  apply draw_step_ok in H1 as [[_ ->]|(_&_&d1&v0&v1&sa&sb&_&Hv0&Hv1&_&_&A)]; [done|].
  assert (zero_val (sigma_value kv.2)) as Hk by (apply (Hz kv.1); destruct kv; left).
  assert (zero_val v0) as Z0' by (by eapply zero_draw). assert (zero_val v1) as Z1'. { destruct Hv1 as [(_&sc'&sd'&Hv1)|[_ ->]]; [by eapply zero_draw|done]. }
  intros i t' x v Hx Ha. rewrite A in Ha. repeat case_decide; try (by injection Ha as <-); by eapply Hr.
Qed.
Lemma zeros_insert (l : list R) k x : x = 0%R -> Forall (fun x => x = 0%R) l -> Forall (fun x => x = 0%R) (<[k:=x]> l).
Proof. intros -> H. by apply Forall_insert. Qed.
Lemma one_angle_zero comp rollidx len ho rolls off0 off1 y : Forall (fun x => x = 0%R) rolls -> Forall (fun x => x = 0%R) off0 -> Forall (fun x => x = 0%R) off1 ->
  one_angle comp rollidx len ho (rolls, off0, off1) = Ok y -> Forall (fun x => x = 0%R) y.1.1 /\ Forall (fun x => x = 0%R) y.1.2 /\ Forall (fun x => x = 0%R) y.2.
Proof.
  intros Z1 Z2 Z3 H. unfold one_angle in H. apply rbind_ok in H as (r&Hr&H). apply rbind_ok in H as (a&Ha&H). apply rbind_ok in H as (b&Hb&H). apply idx_ok in Hr, Ha, Hb.
  rewrite Forall_forall in Z1, Z2, Z3. assert (r = 0%R) as -> by (apply Z1; by eapply elem_of_list_lookup_2). assert (a = 0%R) as -> by (apply Z2; by eapply elem_of_list_lookup_2). assert (b = 0%R) as -> by (apply Z3; by eapply elem_of_list_lookup_2).
  num_R. rewrite (proj2 (Reqb_true 0 0)) in H by done. simpl in H. apply rbind_ok in H as (q&Hq&H). injection H as <-. apply qdiv_R in Hq as [_ ->]. cbn [fst snd].
  rewrite <- Forall_forall in Z1, Z2, Z3. split_and!; try done. apply zeros_insert; [|done]. unfold Rdiv. ring.
Qed.
Lemma rest_set s i t x v u s' : on_elem i (setattr (stype_str t +:+ x) v) s = (Ok u, s') -> zero_val v -> at_rest s -> at_rest s'.
Proof. intros H Hz Hr. apply attr_at_set in H as [_ A]. intros j t' x' w Hx Hw. rewrite A in Hw. case_decide; [by injection Hw as <-|by eapply Hr]. Qed.
Lemma rest_angles sp t p (s s' : sc R) u : support_angles sp t p s = (Ok u, s') -> at_rest s -> at_rest s'.
Proof.
  intros H Hr. unfold support_angles in H.
  apply bind_ok in H as (x1&?&H1&H). apply lift_ok in H1 as [H1 ->]. apply bind_ok in H as (x2&?&H2&H). apply lift_ok in H2 as [H2 ->].
  apply bind_ok in H as (len&?&H3&H). apply lift_ok in H3 as [H3 ->].
  apply bind_ok in H as (e0&?&He0&H). apply ring_elem_ok in He0 as [He0 ->]. apply bind_ok in H as (e1&?&He1&H). apply ring_elem_ok in He1 as [He1 ->].
  apply bind_ok in H as (rolls&?&H4&H). apply lift_ok in H4 as [H4 ->]. apply attr_vec_ok in H4.
  apply bind_ok in H as (off0&?&H5&H). apply lift_ok in H5 as [H5 ->]. apply attr_vec_ok in H5.
  apply bind_ok in H as (off1&?&H6&H). apply lift_ok in H6 as [H6 ->]. apply attr_vec_ok in H6.
  assert (zero_val (VVec rolls)) as Z1 by (apply (Hr p.1 t "Roll"); [right; left|unfold attr_at; by rewrite He0]).
  assert (zero_val (VVec off0)) as Z2 by (apply (Hr p.1 t "Offset"); [left|unfold attr_at; by rewrite He0]).
  assert (zero_val (VVec off1)) as Z3 by (apply (Hr p.2 t "Offset"); [left|unfold attr_at; by rewrite He1]).
  apply bind_ok in H as (?&?&Hg&H). apply get_ok in Hg as [-> ->]. apply bind_ok in H as (d1&?&H7&H). apply lift_ok in H7 as [H7 ->].
  apply bind_ok in H as (y1&?&H8&H). apply lift_ok in H8 as [H8 ->]. apply bind_ok in H as (y2&?&H9&H). apply lift_ok in H9 as [H9 ->].
  apply one_angle_zero in H8 as (W1&W2&W3); [|done..]. destruct y1 as [[y11 y12] y13]. apply one_angle_zero in H9 as (V1&V2&V3); [|done..]. destruct y2 as [[y21 y22] y23].
  apply bind_ok in H as (?&s1&HA&H). apply bind_ok in H as (?&s2&HB&HC). eapply rest_set; [exact HC|done|]. eapply rest_set; [exact HB|done|]. by eapply rest_set; [exact HA|..].
Qed.
Lemma rest_stage nsig (s s' : sc R) u : zero_registry (sSupport (SIG s)) -> apply_support_alignment_error nsig s = (Ok u, s') -> at_rest s -> at_rest s'.
Proof.
  intros Hz H Hr. unfold apply_support_alignment_error in H. apply bind_ok in H as (?&?&Hg&H). apply get_ok in Hg as [-> ->]. revert H. generalize (spos (RING s)). intros sp H.
  assert (forall A (l : list A) (f : A -> M (sc R) unit), (forall x s s' u, x ∈ l -> f x s = (Ok u, s') -> zero_registry (sSupport (SIG s)) -> at_rest s -> zero_registry (sSupport (SIG s')) /\ at_rest s') ->
    forall s s' u, forM l f s = (Ok u, s') -> zero_registry (sSupport (SIG s)) -> at_rest s -> zero_registry (sSupport (SIG s')) /\ at_rest s') as Hloop.
  { clear. intros A l f. induction l as [|x l IH]; intros Hf s s' u H Hz Hr; cbn [forM] in H; [by apply ret_ok in H as [_ ->]|].
    apply bind_ok in H as ([]&s1&H1&H2). apply Hf in H1 as [Z1 R1]; [|left|done|done]. eapply IH; [|exact H2|done|done]. intros. eapply Hf; [right|..]; done. }
  eapply (Hloop stype) in H as [_ H]; [exact H| |done|done]. clear s Hz Hr H. intros t s s1 u1 _ H Hz Hr. apply bind_ok in H as (?&?&Hg&H). apply get_ok in Hg as [-> ->].
  eapply (Hloop (nat * nat)%type); [|exact H|done|done]. clear H Hz Hr. intros p sa sb u2 _ H Hz Hr. apply bind_ok in H as (?&?&Hg&H). apply get_ok in Hg as [-> ->].
  destruct (isSome (sSupport (SIG sa) !! p.1)) eqn:Ei; [|by apply ret_ok in H as [_ ->]]. apply bind_ok in H as ([]&s2&H1&H2).
  pose proof (only_draws t p nsig sa) as O1. rewrite H1 in O1. destruct O1 as (G1&_). pose proof (only_angles sp t p s2) as O2.
  rewrite H2 in O2. destruct O2 as (G2&_). simpl in G1, G2. split; [by rewrite G2, G1|].
  eapply rest_angles; [exact H2|]. rewrite support_draws_loop in H1. eapply rest_draws; [|exact H1|done]. intros k sg Hin.
  destruct (sSupport (SIG sa) !! p.1) as [d|] eqn:Ed; [|inversion Hin]. by eapply Hz.
Qed.

(** * Supports at rest displace nothing *)
Definition all_zero (m : list (list R)) : Prop := Forall (Forall (fun x => x = 0%R)) m.
Lemma interp2_zero x s1 s2 : interp2 x s1 s2 0%R 0%R = 0%R.
Proof. unfold interp2. num_R. destruct (Rleb _ _); [done|]. destruct (Rleb _ _); [done|]. unfold Rdiv. ring. Qed.
Lemma s_interp1_zero sp off o1 o2 off' : Forall (fun x => x = 0%R) off -> s_interp1 sp off o1 o2 0%R 0%R = Ok off' -> Forall (fun x => x = 0%R) off'.
Proof.
  intros Hz H. unfold s_interp1 in H. apply rbind_ok in H as (x1&_&H). apply rbind_ok in H as (x2&_&H).
  assert (forall f, (forall i x, x = 0%R -> f i x = 0%R) -> Forall (fun x => x = 0%R) (imap f off)) as Him.
  { intros f Hf. apply Forall_forall. intros y Hy. apply elem_of_lookup_imap in Hy as (i&x&->&Hx). apply Hf. rewrite Forall_forall in Hz. apply Hz. by eapply elem_of_list_lookup_2. }
  repeat match type of H with context [if ?b then _ else _] => destruct b end; try discriminate; injection H as <-; apply Him; intros i x Hx; repeat case_match; try done; apply interp2_zero.
Qed.
Lemma type_zero s t pairs m m' : at_rest s -> all_zero m -> support_type_offsets (RING s) (spos (RING s)) t pairs m = Ok m' -> all_zero m'.
Proof.
  intros Hr Hz H. unfold support_type_offsets in H. apply rbind_ok in H as (tmp&Ht&H). apply rmap_ok in H, Ht.
  assert (forall x, x ∈ tmp -> Forall (fun x => x = 0%R) x.1.2 /\ Forall (fun x => x = 0%R) x.2) as Htmp.
  { intros x Hx. destruct (Forall2_elem_r _ _ _ _ Ht Hx) as (p&_&Hp). apply rbind_ok in Hp as (e1&He1&Hp). apply rbind_ok in Hp as (e2&He2&Hp). apply rbind_ok in Hp as (v1&Hv1&Hp). apply rbind_ok in Hp as (v2&Hv2&Hp).
    destruct (_ && _); [|discriminate]. injection Hp as <-. apply idx_ok in He1, He2. apply attr_vec_ok in Hv1, Hv2. cbn [fst snd]. split.
    - apply (Hr p.1 t "Offset" (VVec v1)); [left|unfold attr_at; by rewrite He1].
    - apply (Hr p.2 t "Offset" (VVec v2)); [left|unfold attr_at; by rewrite He2]. }
  apply Forall_forall. intros row' Hrow'. destruct (Forall2_elem_r _ _ _ _ H Hrow') as ([k row]&Hin&Hf). change (rfold (interp_step (spos (RING s)) row k) tmp row = Ok row') in Hf.
  apply elem_of_lookup_imap in Hin as (i&x&[= -> ->]&Hx). unfold all_zero in Hz. rewrite Forall_forall in Hz. pose proof (Hz x ltac:(by eapply elem_of_list_lookup_2)) as Hxz.
  clear Ht H Hz Hrow' m m' Hx. revert Hf. generalize Hxz. generalize x at 1 3 as acc. induction tmp as [|[[p v1] v2] tmp IH]; intros acc Hacc Hf; cbn [rfold] in Hf; [by injection Hf as <-|].
  apply rbind_ok in Hf as (acc1&H1&Hf). apply (IH ltac:(intros y Hy; apply Htmp; by right) acc1); [|done]. unfold interp_step in H1.
  apply rbind_ok in H1 as (b1&Hb1&H1). apply rbind_ok in H1 as (b2&Hb2&H1). apply rbind_ok in H1 as (d1&Hd1&H1). apply rbind_ok in H1 as (d2&Hd2&H1). apply idx_ok in Hb1, Hb2, Hd1, Hd2.
  destruct (Htmp (p, v1, v2) ltac:(left)) as [T1 T2]. cbn [fst snd] in T1, T2. rewrite Forall_forall in T1, T2. rewrite Forall_forall in Hxz.
  rewrite (Hxz b1), (Hxz b2), (T1 d1), (T2 d2) in H1 by (by eapply elem_of_list_lookup_2). num_R. rewrite Rplus_0_l in H1. by apply s_interp1_zero in H1.
Qed.
Lemma zero_cell m c i : all_zero m -> default 0%R (cell m c i) = 0%R.
Proof.
  intros H. unfold cell. destruct (m !! c) as [row|] eqn:E; [|done]. destruct (row !! i) as [x|] eqn:E2; [|done]. simpl. unfold all_zero in H. rewrite Forall_forall in H.
  specialize (H row ltac:(by eapply elem_of_list_lookup_2)). rewrite Forall_forall in H. apply H. by eapply elem_of_list_lookup_2.
Qed.
Lemma support_all_zero (s : sc R) off roll : at_rest s -> support_all s = Ok (off, roll) -> all_zero off /\ all_zero roll.
Proof.
  intros Hr H. unfold support_all in H. apply rbind_ok in H as (o&Ho&H). apply rbind_ok in H as (r&Hrr&H). injection H as -> ->.
  assert (all_zero (replicate 3 (zeros (length (spos (RING s)))))) as Hz0. { apply Forall_forall. intros row Hrow. apply elem_of_replicate in Hrow as [-> _]. apply Forall_forall. intros x Hx. by apply elem_of_replicate in Hx as [-> _]. }
  assert (all_zero off) as Hz.
  { cbn [rfold SUPPORT_TYPES] in Ho. apply rbind_ok in Ho as (o1&H1&Ho). apply rbind_ok in Ho as (o2&H2&Ho). apply rbind_ok in Ho as (o3&H3&Ho). injection Ho as <-.
    eapply type_zero, H3; [done|]. eapply type_zero, H2; [done|]. eapply type_zero, H1; done. }
  split; [done|].
  assert (rfold (roll_step s off) (supports s) (replicate 3 (zeros (length (spos (RING s))))) = Ok roll) as Hf.
  { unfold supports. rewrite !rfold_app, roll_flat. cbn [rfold SUPPORT_TYPES] in Hrr. apply rbind_ok in Hrr as (r1&R1&Hrr). apply rbind_ok in Hrr as (r2&R2&Hrr). apply rbind_ok in Hrr as (r3&R3&Hrr). injection Hrr as <-.
    rewrite R1. cbn [rbind]. rewrite rfold_app, !roll_flat, R2. cbn [rbind]. by rewrite roll_flat. }
  revert Hf Hz0. generalize (replicate 3 (zeros (T:=R) (length (spos (RING s))))). generalize (supports s). intros l. clear -Hr Hz. induction l as [|x l IH]; intros roll0 Hf Hz0; cbn [rfold] in Hf; [by injection Hf as <-|].
  apply rbind_ok in Hf as (roll1&H1&Hf). apply (IH roll1 Hf). apply roll_step_ok in H1 as (w0&w1&w2&r0&->&Hr0&->).
  assert (r0 = 0%R) as ->.
  { unfold Spec.entry in Hr0. destruct (attr_at s x.2.1 (roll_name x.1)) as [[]|] eqn:Ea; try discriminate. apply (Hr _ _ "Roll") in Ea; [|right; left]. simpl in Ea. rewrite Forall_forall in Ea. apply Ea. by eapply elem_of_list_lookup_2. }
  assert (forall c p, slope s off c p = 0%R) as Hs by (intros c p; unfold slope; rewrite !zero_cell by done; unfold Rdiv; ring).
  rewrite !Hs. unfold all_zero in *. rewrite !Forall_cons in Hz0. destruct Hz0 as (Z0'&Z1'&Z2'&_).
  assert (forall w f, Forall (fun x => x = 0%R) w -> (forall i x, x = 0%R -> f i x = 0%R) -> Forall (fun x => x = 0%R) (imap f w)) as Him.
  { intros w f Hw Hf'. apply Forall_forall. intros y Hy. apply elem_of_lookup_imap in Hy as (i&y'&->&Hx). apply Hf'. rewrite Forall_forall in Hw. apply Hw. by eapply elem_of_list_lookup_2. }
  repeat (apply Forall_cons; split); [..|constructor]; apply Him; try done; intros i y Hy; case_match; rewrite ?Hy; try done; lra.
Qed.
Lemma column_zero m j v : all_zero m -> column3 m j v -> v = [0; 0; 0]%R.
Proof.
  intros Hz [L H]. destruct v as [|a [|b [|c [|]]]]; try discriminate.
  assert (forall k x, k < 3 -> [a; b; c] !! k = Some x -> x = 0%R) as Hk. { intros k x Hk Hx. rewrite H in Hx by done. pose proof (zero_cell m k j Hz) as Hc. rewrite Hx in Hc. exact Hc. }
  rewrite (Hk 0%nat a), (Hk 1%nat b), (Hk 2%nat c) by (done || lia). done.
Qed.
Lemma first_there_exists (s : sc R) i : exists j, first_there s i j.
Proof.
  induction i as [i IH] using lt_wf_ind. destruct (decide (Forall (fun k => Reqb (position s k) (position s i) = false) (seq 0 i))) as [Hf|Hf].
  - exists i. split_and!; try done. intros k Hk. rewrite Forall_forall in Hf. apply Reqb_false, Hf, elem_of_seq. lia.
  - apply not_Forall_Exists in Hf; [|intros x; destruct (Reqb _ _); [right|left]; done]. apply Exists_exists in Hf as (k&Hk&Hn). apply elem_of_seq in Hk. assert (position s k = position s i) as E. { simpl in Hn. destruct (Reqb (position s k) (position s i)) eqn:E; [by apply Reqb_true in E|done]. }
    destruct (IH k ltac:(lia)) as (j&J1&J2&J3). exists j. split_and!; [lia|congruence|]. intros m Hm. rewrite <- E. by apply J3.
Qed.
(** Lengths do not change, supports stay at rest, and magnets and BPMs are not displaced. *)
Theorem C28_geometry minv nsig (s s' : sc R) u : well_registered s -> zero_uncertainties s -> at_rest s -> apply_errors minv nsig s = (Ok u, s') ->
  (forall i, attr_at s' i "Length" = attr_at s i "Length") /\ at_rest s' /\
  (in_ring s (oMagnet (ORD s)) -> forall i, i ∈ oMagnet (ORD s) -> i ∉ oBPM (ORD s) ->
     attr_at s' i "SupportOffset" = Some (VVec [0; 0; 0]%R) /\ attr_at s' i "SupportRoll" = Some (VVec [0; 0; 0]%R)) /\
  (in_ring s (oMagnet (ORD s)) -> in_ring s (oBPM (ORD s)) -> forall i, i ∈ oBPM (ORD s) ->
     attr_at s' i "SupportOffset" = Some (VVec [0; 0]%R) /\ attr_at s' i "SupportRoll" = Some (VNum 0%R)).
Proof.
  intros Hw (_&_&_&Z4&_&Z6) Hr H. destruct (errors_stages minv nsig s s' u Hw H) as (s1&s2&s3&s4&G1&O1&L1&K1&K2&H1&H2&H3&H4&_).
  assert (at_rest s1) as R1. { intros i t x v Hx Hv. rewrite K2 in Hv by done. by eapply Hr. }
  destruct (circumference_one nsig s1 s2 tt) as (G2&O2&A2); [by rewrite G1|done|].
  assert (at_rest s2) as R2. { intros i t x v Hx Hv. rewrite A2 in Hv. by eapply R1. }
  assert (at_rest s3) as R3. { eapply rest_stage; [|exact H2|done]. by rewrite G2, G1. }
  assert (length (RING s2) = length (RING s1)) as L2.
  { assert (pres (upto (eq "Length")) (apply_circumference nsig)) as PL.
    { unfold apply_circumference, randnc1. repeat first [pres_step|apply upto_scale_circumference; done|apply pres_upto_same, same_randnc; done]. }
    specialize (PL s1). rewrite H1 in PL. apply PL. }
  assert (forall i, attr_at s3 i "Length" = attr_at s2 i "Length") as K3. { intros i. pose proof (length_kept nsig s2 i) as K. rewrite H2 in K. exact K. }
  assert (length (RING s3) = length (RING s2)) as L3. { pose proof (alignment_len nsig s2) as L. rewrite H2 in L. exact L. }
  pose proof (upto_update_supports minv (fun a => a ∈ ALIGN_FIELDS) true true (fun _ Ha => Ha) s3) as [L4 U4]. rewrite H3 in L4, U4. simpl in L4, U4.
  assert (ORD s3 = ORD s2) as O3.
  { pose proof (same_support_alignment (@ORD R)) as P. specialize (P ltac:(done) ltac:(done) nsig s2). rewrite H2 in P. exact P. }
  assert (forall a, bool_decide (a ∈ DERIVED ++ CAVITY_FIELDS) = false -> forall i, attr_at s' i a = attr_at s4 i a) as K4. { intros a Ha i. apply H4. by apply bool_decide_eq_false in Ha. }
  assert (forall off roll, support_offset_and_roll (spos (RING s3)) s3 = Ok (off, roll) -> all_zero off /\ all_zero roll) as Hzero.
  { intros off roll Ho. unfold support_offset_and_roll in Ho. apply rbind_ok in Ho as ([o r]&Hall&Ho). rewrite list_eqb_refl in Ho. injection Ho as -> ->. by eapply support_all_zero. }
  split_and!.
  - intros i. rewrite K4 by done. rewrite U4; [by rewrite K3, A2, K1|]. intros Hin. match type of Hin with ?g => apply (bool_decide_eq_true_2 g) in Hin; vm_compute in Hin; discriminate end.
  - intros i t x v Hx Hv. rewrite K4 in Hv; [|apply elem_of_cons in Hx as [->|Hx]; [|apply elem_of_list_singleton in Hx as ->]; by destruct t].
    rewrite U4 in Hv; [by eapply R3|]. apply elem_of_cons in Hx as [->|Hx]; [|apply elem_of_list_singleton in Hx as ->]; apply align_stype; auto.
  - intros [N1 N2] i Hi Hb. destruct (first_there_exists s3 i) as [j Hj]. rewrite !K4 by done.
    destruct (C32_magnets minv s3 s4 true tt i j H3) as (off&roll&v&w&Ho&E1&C1&E2&C2); [split; [by rewrite O3, O2, O1|rewrite O3, O2, O1, L3, L2, L1; exact N2]|by rewrite O3, O2, O1|intros _; by rewrite O3, O2, O1|done|].
    destruct (Hzero _ _ Ho) as [Z1 Z2]. rewrite E1, E2. rewrite (column_zero _ _ _ Z1 C1), (column_zero _ _ _ Z2 C2). done.
  - intros [N1 N2] [M1 M2] i Hi. destruct (first_there_exists s3 i) as [j Hj]. rewrite !K4 by done.
    destruct (C32_bpms minv s3 s4 true tt i j H3) as (off&roll&x&y&r&Ho&C1&C2&C3&E1&E2); [split; [by rewrite O3, O2, O1|rewrite O3, O2, O1, L3, L2, L1; exact N2]|split; [by rewrite O3, O2, O1|rewrite O3, O2, O1, L3, L2, L1; exact M2]|by rewrite O3, O2, O1|done|].
    destruct (Hzero _ _ Ho) as [Z1 Z2]. rewrite E1, E2. pose proof (zero_cell _ 0 j Z1) as Q1. pose proof (zero_cell _ 1 j Z1) as Q2. pose proof (zero_cell _ 0 j Z2) as Q3. rewrite C1 in Q1. rewrite C2 in Q2. rewrite C3 in Q3. simpl in Q1, Q2, Q3. by subst.
Qed.

(** * C20: what apply_errors does with a plain-number calibration uncertainty *)
Lemma update_needs_arrays (s s' : sc R) i ords u : update_magnets ords s = (Ok u, s') -> i ∈ ords ->
  (exists a, attr_at s i "CalErrorA" = Some (VVec a)) /\ (exists b, attr_at s i "CalErrorB" = Some (VVec b)).
Proof.
  intros H Hi. apply elem_of_list_split_l in Hi as (l1&l2&->&_).
  assert (update_magnets (l1 ++ i :: l2) s = bind (update_magnets l1) (fun _ => update_magnets (i :: l2)) s) as E by (unfold update_magnets; by rewrite forM_app).
  rewrite E in H. apply bind_ok in H as (v&s1&H1&H). clear E.
  pose proof (upto_update_magnets (fun a => a ∈ DERIVED) l1 (fun _ Ha => Ha) s) as [_ U]. rewrite H1 in U. simpl in U.
  rewrite <- !U by (intros Hin; match type of Hin with ?g => apply (bool_decide_eq_true_2 g) in Hin; vm_compute in Hin; discriminate end).
  unfold update_magnets in H. cbn [forM] in H. apply bind_ok in H as (v2&s2&H2&_). apply bind_ok in H2 as (v3&s3&H3&_).
  unfold update_magnet in H3. apply bind_ok in H3 as (e&?&He&H3). apply ring_elem_ok in He as [He ->]. unfold on_elem in H3. rewrite He in H3.
  destruct (update_target e e) as [[u1|?] e'] eqn:Et; [|discriminate]. unfold update_target in Et.
  apply bind_ok in Et as (spa&?&Hx&Et). apply lift_ok in Hx as [_ ->]. apply bind_ok in Et as (spb&?&Hx&Et). apply lift_ok in Hx as [_ ->].
  apply bind_ok in Et as (pa&?&Hpa&Et). apply lift_ok in Hpa as [Hpa ->]. apply bind_ok in Et as (pb&?&Hpb&Et). apply lift_ok in Hpb as [Hpb ->].
  apply rbind_ok in Hpa as (ca&Hca&Hpa). apply rbind_ok in Hpb as (cb&Hcb&Hpb). apply scaled_ok in Hpa as (a&->&_). apply scaled_ok in Hpb as (b&->&_). apply attr_ok in Hca, Hcb. unfold attr_at. rewrite He. simpl. eauto.
Qed.
(** A calibration uncertainty registered as a plain number: apply_errors never succeeds. *)
Theorem C20_apply_errors minv nsig (s s' : sc R) u i k sg x : well_registered s -> i ∈ oMagnet (ORD s) -> sigma_of (sMagnet (SIG s)) i k = Some sg ->
  k = "CalErrorA" \/ k = "CalErrorB" -> sigma_value sg = VNum x -> apply_errors minv nsig s <> (Ok u, s').
Proof.
  intros Hw Hi Hs Hk Hsg H. destruct (C27_errors_bounded minv nsig s s' u Hw H) as (_&B&_). destruct (B i k sg Hs) as (v&Hv&Hb).
  assert (magnet_error_name k = k) as Ek by (by destruct Hk as [->| ->]). rewrite Ek in Hv.
  assert (exists y, v = VNum y) as [y ->]. { destruct sg as [sv|sv c]; simpl in Hsg; subst sv; simpl in Hb; destruct v; try done; eauto. }
  destruct (errors_stages minv nsig s s' u Hw H) as (s1&s2&s3&s4&G1&O1&L1&K1&K2&H1&H2&H3&H4&H5).
  assert (ORD s4 = ORD s) as O4.
  { assert (ORD s2 = ORD s1) as O2. { assert (pres (same (@ORD R)) (apply_circumference nsig)) as PC by (unfold apply_circumference, randnc1; repeat first [pres_step|apply same_randnc; done|apply same_scale_circumference; done]).
      specialize (PC s1). rewrite H1 in PC. exact PC. }
    pose proof (same_support_alignment (@ORD R)) as P3. specialize (P3 ltac:(done) ltac:(done) nsig s2). rewrite H2 in P3.
    pose proof (same_update_supports (@ORD R)) as P4. specialize (P4 ltac:(done) minv true true s3). rewrite H3 in P4. unfold same in P3, P4. simpl in P3, P4. congruence. }
  destruct H5 as (s5&H5); [rewrite O4; intros E; rewrite E in Hi; inversion Hi|]. rewrite O4 in H5. destruct (update_needs_arrays _ _ i _ _ H5 Hi) as [[a Ha] [b Hb']].
  rewrite H4 in Hv; [destruct Hk as [->| ->]; congruence|]. destruct Hk as [->| ->]; intros Hin; match type of Hin with ?g => apply (bool_decide_eq_true_2 g) in Hin; vm_compute in Hin; discriminate end.
Qed.

(** * Cases *)
Local Open Scope Q_scope.
(** zero uncertainties on a girder and on a magnet, with non-zero random numbers *)
Example C28_case :
  let r := apply_support_alignment_error 10 (girder [("Offset", SPlain (VMat [[0; 0; 0]; [0; 0; 0]])); ("Roll", SPlain (VVec [0; 0; 0]))] [1; 1; 1; 2; 3; 4; 5; 6; 7]) in
  fst r = Ok tt /\ attr_at (snd r) 1 "GirderOffset" = Some (VVec [0; 0; 0]) /\ attr_at (snd r) 3 "GirderOffset" = Some (VVec [0; 0; 0]) /\ attr_at (snd r) 1 "GirderRoll" = Some (VVec [0; 0; 0]).
Proof. vm_compute. repeat split. Qed.
Print Assumptions C28_errors_zero.
Print Assumptions C28_injection.
Print Assumptions C28_geometry.
Print Assumptions C20_apply_errors.
