(** C27, C28: bounds on applied errors; C20: plain-number calibration errors. *)
From Coq Require Import Reals Lra QArith.
From stdpp Require Import base gmap strings list.
From Verif Require Import Num Base Model_Arr Model_SC Model_Err Lemmas Proofs_Reg Proofs_Update Proofs_Loop Spec Proofs_CM Proofs_Field Proofs_Err
  Properties_Random Properties_Field Properties_Update Examples.
Local Open Scope string_scope.
Local Open Scope list_scope.

(** * Specification *)
(** [y] is at most [|x| * |cut|] in absolute value, component by component *)
Definition at_most (cut x y : R) : Prop := (Rabs y <= Rabs x * Rabs cut)%R.
Definition bounded (cut : R) (sigma v : val R) : Prop :=
  match sigma, v with
  | VNum x, VNum y => at_most cut x y
  | VVec l, VVec l' => Forall2 (at_most cut) l l'
  | VMat r, VMat r' => Forall2 (Forall2 (at_most cut)) r r'
  | _, _ => False
  end.
(** with the individual cut-off of an uncertainty [value, cut-off] in place of the global one *)
Definition error_bounded (nsigma : R) (sg : sigval R) (v : val R) : Prop :=
  match sg with SPlain x => bounded nsigma x v | SCut x cut => bounded cut x v end.
(** the attribute in which the error belonging to an uncertainty of a magnet is stored *)
Definition magnet_error_name (k : string) : string := if decide (k = "BendingAngle") then "BendingAngleError" else k.
Definition noise_name (k : string) : Prop := k = "Noise" \/ k = "NoiseCO".

(** * Random numbers *)
Lemma randnc_bound cut n (s s' : sc R) l : randnc cut n s = (Ok l, s') -> length l = n /\ Forall (fun d => (Rabs d <= Rabs cut)%R) l.
Proof.
  intros H. pose proof (randnc_spec cut n s) as HS. rewrite H in HS. destruct HS as (k&_&_&HL&HP&_). split; [done|].
  apply Forall_forall. intros d Hd. rewrite HP, <- within_cut_acc in Hd. unfold within_cut in Hd. by apply elem_of_list_filter in Hd as [? _].
Qed.
Lemma at_most_mul cut x d : (Rabs d <= Rabs cut)%R -> at_most cut x (x * d).
Proof. intros H. unfold at_most. rewrite Rabs_mult. apply Rmult_le_compat_l; [apply Rabs_pos|done]. Qed.
Lemma zip_mul_bound cut l d : length d = length l -> Forall (fun d => (Rabs d <= Rabs cut)%R) d -> Forall2 (at_most cut) l (zip_with nmul l d).
Proof.
  revert d. induction l as [|x l IH]; intros [|y d] HL Hd; simpl in *; try lia; [constructor|]. inversion Hd; subst.
  constructor; [by apply at_most_mul|]. apply IH; [lia|done].
Qed.
Lemma zip_app {A B C} (f : A -> B -> C) l1 l2 k : zip_with f (l1 ++ l2) k = zip_with f l1 (take (length l1) k) ++ zip_with f l2 (drop (length l1) k).
Proof. revert k. induction l1 as [|x l1 IH]; intros [|y k]; simpl; try done; [by destruct l2|]. by rewrite IH. Qed.
Lemma mat_bound cut rows d : length d = length (concat rows) -> Forall (fun d => (Rabs d <= Rabs cut)%R) d ->
  Forall2 (Forall2 (at_most cut)) rows (reshape rows (zip_with nmul (concat rows) d)).
Proof.
  revert d. induction rows as [|r rows IH]; intros d HL Hd; simpl in *; [constructor|]. rewrite app_length in HL.
  rewrite zip_app. assert (length (zip_with nmul r (take (length r) d)) = length r) as L1 by (rewrite zip_with_length, take_length; lia).
  rewrite take_app_alt, drop_app_alt by done. constructor.
  - apply zip_mul_bound; [rewrite take_length; lia|by apply Forall_take].
  - apply IH; [rewrite drop_length; lia|by apply Forall_drop].
Qed.
Lemma randnc1_bound cut (s s' : sc R) d : randnc1 cut s = (Ok d, s') -> (Rabs d <= Rabs cut)%R.
Proof.
  unfold randnc1. intros H. apply bind_ok in H as (l&s1&H1&H2). apply randnc_bound in H1 as [HL HF]. apply lift_ok in H2 as [H2 _]. apply idx_ok in H2.
  rewrite Forall_forall in HF. apply HF. by eapply elem_of_list_lookup_2.
Qed.
Lemma randn_cutoff_bound nsig sg (s s' : sc R) v : randn_cutoff sg nsig s = (Ok v, s') -> error_bounded nsig sg v.
Proof.
  assert (forall x cut, scaled_draw x cut s = (Ok v, s') -> bounded cut x v) as HS.
  { intros x cut. unfold scaled_draw. destruct x as [x|l|rows| | | | | | | |]; try discriminate.
    - intros H. apply bind_ok in H as (d&s1&H1&H2). apply ret_ok in H2 as [<- _]. simpl. apply randnc1_bound in H1. by apply at_most_mul.
    - destruct l as [|y l]; intros H; apply bind_ok in H as (d&s1&H1&H2); apply ret_ok in H2 as [<- _]; [constructor|].
      apply randnc_bound in H1 as [HL HF]. apply (zip_mul_bound cut (y :: l)); done.
    - intros H. apply bind_ok in H as (d&s1&H1&H2). apply ret_ok in H2 as [<- _]. apply randnc_bound in H1 as [HL HF]. by apply mat_bound. }
  destruct sg; simpl; apply HS.
Qed.

(** * The three stages *)
Lemma attr_not_later a : bool_decide (a ∈ BPM_ERROR_FIELDS ++ RF_ERROR_FIELDS ++ map magnet_error_name MAGNET_ERROR_FIELDS) = true -> ~ later a.
Proof.
  intros H Hl. apply bool_decide_eq_true in H.
  assert (Forall (fun a => a <> "Length" /\ forallb (fun t => negb (substring (stype_str t) a)) [SSection; SPlinth; SGirder] = true /\ bool_decide (a ∈ ALIGN_FIELDS ++ DERIVED ++ CAVITY_FIELDS) = false)
            (BPM_ERROR_FIELDS ++ RF_ERROR_FIELDS ++ map magnet_error_name MAGNET_ERROR_FIELDS)) as HF.
  { repeat (apply Forall_cons; split; [split_and!; [discriminate|reflexivity|reflexivity]|]). constructor. }
  rewrite Forall_forall in HF. destruct (HF a H) as (H1&H2&H3). apply bool_decide_eq_false in H3. rewrite !elem_of_app in H3.
  destruct Hl as [?|[[t Ht]|[?|[?|?]]]]; try tauto. cbn [forallb] in H2. rewrite !andb_true_iff, !negb_true_iff in H2. destruct H2 as (Hs&Hp&Hg&_). destruct t; congruence.
Qed.
Definition apartb (L K : list string) : bool := forallb (fun x => negb (bool_decide (x ∈ K))) L.
Lemma apart L K x : apartb L K = true -> x ∈ L -> x ∈ K -> False.
Proof.
  unfold apartb. rewrite forallb_forall. intros H Hx HK. apply elem_of_list_In, H in Hx. apply negb_true_iff, bool_decide_eq_false in Hx. done.
Qed.
Lemma magnet_error_name_inj k k' : k ∈ MAGNET_ERROR_FIELDS -> k' ∈ MAGNET_ERROR_FIELDS -> magnet_error_name k = magnet_error_name k' -> k = k'.
Proof.
  assert (forallb (fun k => forallb (fun k' => negb (bool_decide (magnet_error_name k = magnet_error_name k')) || bool_decide (k = k')) MAGNET_ERROR_FIELDS) MAGNET_ERROR_FIELDS = true) as H by reflexivity.
  rewrite forallb_forall in H. intros Hk Hk' E. apply elem_of_list_In, H in Hk. rewrite forallb_forall in Hk. apply elem_of_list_In, Hk in Hk'.
  apply orb_true_iff in Hk' as [Hk'|Hk']; [|by apply bool_decide_eq_true in Hk']. apply negb_true_iff, bool_decide_eq_false in Hk'. done.
Qed.

Section Applied.
  Context {T : Type} {N : Num T} {Tr : Trig T} (minv : list (list T) -> res (list (list T))).
  Lemma errors_applied nsig (s s' : sc T) u : well_registered s -> apply_errors minv nsig s = (Ok u, s') ->
    (forall i d k sg, sRF (SIG s) !! i = Some d -> (k, sg) ∈ d -> exists v s0 s1, randn_cutoff sg nsig s0 = (Ok v, s1) /\ attr_at s' i k = Some v) /\
    (forall i d k sg, sBPM (SIG s) !! i = Some d -> (k, sg) ∈ d -> exists v s0 s1, bpm_body nsig (k, sg) s0 = (Ok v, s1) /\ attr_at s' i k = Some v) /\
    (forall i d k sg, sMagnet (SIG s) !! i = Some d -> (k, sg) ∈ d ->
       exists v s0 s1, randn_cutoff sg nsig s0 = (Ok v, s1) /\ attr_at s' i (magnet_error_name k) = Some v).
  Proof.
    intros (B1&B2&F1&F2&M1&M2) H. apply apply_errors_ok in H as (s1&s2&s3&H1&H2&H3&H4).
    assert (forall x, pres (same (@RING T)) (randn_cutoff x nsig)) as PR by (intros; by apply same_randn_cutoff).
    assert (forall x, pres (same (@os T)) (randn_cutoff x nsig)) as PO by (intros; by apply same_randn_cutoff).
    rewrite apply_rf_loop in H1. apply (err_loop_ok os _ _ RF_ERROR_FIELDS) in H1 as (U1&O1&E1); try done.
    unfold os in O1. injection O1 as OO1 OS1.
    rewrite apply_bpm_loop, OO1, OS1 in H2. apply (err_loop_ok os _ _ BPM_ERROR_FIELDS) in H2 as (U2&O2&E2); try done;
      [|intros [??]; unfold bpm_body; repeat pres_step; apply PR|intros [??]; unfold bpm_body; repeat pres_step; apply PO].
    unfold os in O2. injection O2 as OO2 OS2.
    rewrite apply_magnet_loop, OO2, OS2, OO1, OS1 in H3. apply (err_loop_ok os _ _ MAGNET_ERROR_FIELDS) in H3 as (U3&O3&E3); try done;
      [|apply magnet_error_name_inj].
    pose proof (upto_tail minv nsig s3) as U4. rewrite H4 in U4. simpl in U4.
    assert (forall m i d k sg L (ords : list nat), registry_ok (T:=T) L ords m -> m !! i = Some d -> (k, sg) ∈ d -> k ∈ L) as Hin.
    { intros m i d k sg L ords HR Hd Hk. destruct (HR _ _ Hd) as (_&Ha&_). apply Ha. unfold dkeys. apply elem_of_list_fmap. by exists (k, sg). }
    split_and!; intros i d k sg Hd Hk.
    - pose proof (Hin _ _ _ _ _ _ _ F1 Hd Hk) as HL. destruct (E1 _ _ _ _ Hd Hk) as (_&v&sa&sb&Hr&_&Hv). exists v, sa, sb. split; [done|].
      destruct U2 as [_ U2], U3 as [_ U3], U4 as [_ U4]. rewrite U4, U3, U2; [done| | |].
      + intros (k'&Hk'&->). by apply (apart RF_ERROR_FIELDS BPM_ERROR_FIELDS k').
      + intros (k'&Hk'&->). apply (apart RF_ERROR_FIELDS (map magnet_error_name MAGNET_ERROR_FIELDS) (magnet_field k')); [done|done|]. apply elem_of_list_fmap. by exists k'.
      + apply attr_not_later. apply bool_decide_eq_true. rewrite !elem_of_app. auto.
    - pose proof (Hin _ _ _ _ _ _ _ B1 Hd Hk) as HL. destruct (E2 _ _ _ _ Hd Hk) as (_&v&sa&sb&Hr&_&Hv). exists v, sa, sb. split; [done|].
      destruct U3 as [_ U3], U4 as [_ U4]. rewrite U4, U3; [done| |].
      + intros (k'&Hk'&->). apply (apart BPM_ERROR_FIELDS (map magnet_error_name MAGNET_ERROR_FIELDS) (magnet_field k')); [done|done|]. apply elem_of_list_fmap. by exists k'.
      + apply attr_not_later. apply bool_decide_eq_true. rewrite !elem_of_app. auto.
    - pose proof (Hin _ _ _ _ _ _ _ M1 Hd Hk) as HL. destruct (E3 _ _ _ _ Hd Hk) as (_&v&sa&sb&Hr&_&Hv). exists v, sa, sb. split; [done|].
      destruct U4 as [_ U4]. rewrite U4; [done|].
      apply attr_not_later. apply bool_decide_eq_true. rewrite !elem_of_app. right. right. apply elem_of_list_fmap. by exists k.
  Qed.
End Applied.

(** * C27 *)
Lemma dget_elem {A} (d : dict A) k v : dget d k = Some v -> (k, v) ∈ d.
Proof.
  induction d as [|[k0 v0] d IH]; simpl; [discriminate|]. destruct (decide (k = k0)) as [->|]; [intros [= ->]; left|intros H; right; auto].
Qed.
Lemma sigma_of_elem {A} (m : gmap nat (dict A)) i k v : sigma_of m i k = Some v -> exists d, m !! i = Some d /\ (k, v) ∈ d.
Proof. unfold sigma_of. destruct (m !! i) as [d|]; [|discriminate]. simpl. intros H. exists d. split; [done|]. by apply dget_elem. Qed.
Lemma noise_name_spec k : k ∈ BPM_ERROR_FIELDS -> (substring "Noise" k = true <-> noise_name k).
Proof.
  intros Hk. unfold noise_name. do 6 (apply elem_of_cons in Hk as [->|Hk]; [vm_compute; split; intros H; try done; try (by left); try (by right); destruct H; done|]). inversion Hk.
Qed.

(** After a successful apply_errors every error attribute that has an uncertainty is bounded by it. *)
Theorem C27_errors_bounded minv nsig (s s' : sc R) u : well_registered s -> apply_errors minv nsig s = (Ok u, s') ->
  (forall i k sg, sigma_of (sRF (SIG s)) i k = Some sg -> exists v, attr_at s' i k = Some v /\ error_bounded nsig sg v) /\
  (forall i k sg, sigma_of (sMagnet (SIG s)) i k = Some sg -> exists v, attr_at s' i (magnet_error_name k) = Some v /\ error_bounded nsig sg v) /\
  (forall i k sg, sigma_of (sBPM (SIG s)) i k = Some sg -> ~ noise_name k -> exists v, attr_at s' i k = Some v /\ error_bounded nsig sg v) /\
  (forall i k sigma, sigma_of (sBPM (SIG s)) i k = Some (SPlain sigma) -> noise_name k -> attr_at s' i k = Some sigma).
Proof.
  intros Hw H. pose proof Hw as (B1&_). destruct (errors_applied minv nsig s s' u Hw H) as (HF&HB&HM). split_and!.
  - intros i k sg Hs. apply sigma_of_elem in Hs as (d&Hd&Hk). destruct (HF _ _ _ _ Hd Hk) as (v&s0&s1&Hr&Hv). exists v. split; [done|]. by eapply randn_cutoff_bound.
  - intros i k sg Hs. apply sigma_of_elem in Hs as (d&Hd&Hk). destruct (HM _ _ _ _ Hd Hk) as (v&s0&s1&Hr&Hv). exists v. split; [done|]. by eapply randn_cutoff_bound.
  - intros i k sg Hs Hn. apply sigma_of_elem in Hs as (d&Hd&Hk). destruct (HB _ _ _ _ Hd Hk) as (v&s0&s1&Hr&Hv). exists v. split; [done|].
    destruct (B1 _ _ Hd) as (_&Ha&_). assert (k ∈ BPM_ERROR_FIELDS) as Hk' by (apply Ha; unfold dkeys; apply elem_of_list_fmap; by exists (k, sg)).
    unfold bpm_body in Hr. simpl in Hr. destruct (substring "Noise" k) eqn:E; [by apply noise_name_spec in E|]. by eapply randn_cutoff_bound.
  - intros i k sg Hs Hn. apply sigma_of_elem in Hs as (d&Hd&Hk). destruct (HB _ _ _ _ Hd Hk) as (v&s0&s1&Hr&Hv).
    destruct (B1 _ _ Hd) as (_&Ha&_). assert (k ∈ BPM_ERROR_FIELDS) as Hk' by (apply Ha; unfold dkeys; apply elem_of_list_fmap; by exists (k, SPlain sg)).
    unfold bpm_body in Hr. simpl in Hr. apply noise_name_spec in Hn; [|done]. rewrite Hn in Hr. apply ret_ok in Hr as [<- _]. done.
Qed.
(** The finding: a noise level given as [value, cut-off] is stored as this list, not as a number array. *)
Theorem C27_finding_noise_with_cut minv nsig (s s' : sc R) u i k sigma cut : well_registered s -> apply_errors minv nsig s = (Ok u, s') ->
  sigma_of (sBPM (SIG s)) i k = Some (SCut sigma cut) -> noise_name k -> attr_at s' i k = Some (VList sigma cut).
Proof.
  intros Hw H Hs Hn. pose proof Hw as (B1&_). destruct (errors_applied minv nsig s s' u Hw H) as (_&HB&_).
  apply sigma_of_elem in Hs as (d&Hd&Hk). destruct (HB _ _ _ _ Hd Hk) as (v&s0&s1&Hr&Hv).
  destruct (B1 _ _ Hd) as (_&Ha&_). assert (k ∈ BPM_ERROR_FIELDS) as Hk' by (apply Ha; unfold dkeys; apply elem_of_list_fmap; by exists (k, SCut sigma cut)).
  unfold bpm_body in Hr. simpl in Hr. apply noise_name_spec in Hn; [|done]. rewrite Hn in Hr. apply ret_ok in Hr as [<- _]. done.
Qed.
(** Everything a history of calls can register is well registered. *)
Theorem C27_reachable minv ops ring rng : (forall o, o ∈ ops -> distinct_keywords o) -> well_registered (run minv ops (init_sc (T:=R) ring rng)).
Proof. intros H. apply well_registered_run; [done|]. apply well_registered_init. Qed.

(** The injected position. *)
Section Tail.
  Context {T : Type} {N : Num T} {Tr : Trig T} (minv : list (list T) -> res (list (list T))).
  Lemma inj_tail nsig s u s' : tail_of_errors minv nsig s = (Ok u, s') ->
    exists d s1, randnc nsig 6 s = (Ok d, s1) /\ exists x z, bcast nmul (sStatZ (SIG s)) d = Ok x /\ bcast nadd (Z0ideal (INJ s)) x = Ok z /\
      Z0 (INJ s') = z /\ randomInjectionZ (INJ s') = sRandZ (SIG s) /\ Z0ideal (INJ s') = Z0ideal (INJ s).
  Proof.
    unfold tail_of_errors. intros H. apply bind_ok in H as ([]&s1&H1&H).
    assert (INJ s' = INJ s1) as E.
    { assert (pres (same (@INJ T)) (apply_circumference nsig ;;; apply_support_alignment_error nsig ;;; update_supports minv true true ;;;
        (let! s := get in when (negb (length (oMagnet (ORD s)) =? 0)%nat) update_magnets_all) ;;;
        (let! s := get in when (negb (length (oRF (ORD s)) =? 0)%nat && negb (bool_decide (sRF (SIG s) = ∅))) update_cavities_all))) as P.
      { unfold apply_circumference, randnc1, update_magnets_all, update_cavities_all.
        repeat first [ pres_step | apply same_randnc; done | apply same_scale_circumference; done | apply same_support_alignment; done
                     | apply same_update_supports; done | apply same_update_magnets; done | apply same_update_cavities; done ]. }
      specialize (P s1). rewrite H in P. exact P. }
    unfold apply_injection in H1. apply bind_ok in H1 as (?&?&Hg&H1). apply get_ok in Hg as [-> ->].
    apply bind_ok in H1 as (d&s2&Hd&H1). apply bind_ok in H1 as (x&?&Hx&H1). apply lift_ok in Hx as [Hx ->].
    apply bind_ok in H1 as (z&?&Hz&H1). apply lift_ok in Hz as [Hz ->]. apply bind_ok in H1 as (?&s3&H2&H3).
    unfold mod_INJ in H2, H3. apply modify_ok in H2 as ->. apply modify_ok in H3 as ->. exists d, s2. split; [done|]. exists x, z.
    assert (Z0ideal (INJ s2) = Z0ideal (INJ s)) as E2.
    { pose proof (same_randnc (fun s : sc T => Z0ideal (INJ s)) (fun _ _ => eq_refl) nsig 6 s) as P. rewrite Hd in P. exact P. }
    rewrite E. simpl. auto.
  Qed.
End Tail.
Theorem C27_injection_bounded minv nsig (s s' : sc R) u k z0 st : well_registered s -> apply_errors minv nsig s = (Ok u, s') ->
  length (Z0ideal (INJ s)) = 6%nat -> length (sStatZ (SIG s)) = 6%nat ->
  Z0ideal (INJ s) !! k = Some z0 -> sStatZ (SIG s) !! k = Some st ->
  exists z, Z0 (INJ s') !! k = Some z /\ (Rabs (z - z0) <= Rabs st * Rabs nsig)%R.
Proof.
  intros Hw H L1 L2 Hz Hst. apply apply_errors_ok in H as (s1&s2&s3&H1&H2&H3&H4).
  assert (forall (m : M (sc R) unit) a b, pres (same (fun s : sc R => (INJ s, SIG s))) m -> m a = (Ok tt, b) -> INJ b = INJ a /\ SIG b = SIG a) as P.
  { intros m a b Hm E. specialize (Hm a). rewrite E in Hm. unfold same in Hm. simpl in Hm. by injection Hm as -> ->. }
  assert (forall x, pres (same (fun s : sc R => (INJ s, SIG s))) (randn_cutoff x nsig)) as PR by (intros; by apply same_randn_cutoff).
  apply P in H1 as [I1 G1]; [|unfold apply_rf; repeat first [pres_step|apply PR|apply pres_on_elem_same; done]].
  apply P in H2 as [I2 G2]; [|unfold apply_bpm; repeat first [pres_step|apply PR|apply pres_on_elem_same; done]].
  apply P in H3 as [I3 G3]; [|unfold apply_magnet; repeat first [pres_step|apply PR|apply pres_on_elem_same; done]].
  apply inj_tail in H4 as (d&s4&Hd&x&z&Hx&Hzz&HZ&_). rewrite G3, G2, G1 in Hx. rewrite I3, I2, I1 in Hzz. apply randnc_bound in Hd as [HL HF].
  unfold bcast in Hx. rewrite HL, L2 in Hx. simpl in Hx. injection Hx as <-. unfold bcast in Hzz. rewrite zip_with_length, L1, L2, HL in Hzz. simpl in Hzz. injection Hzz as <-.
  destruct (lookup_lt_is_Some_2 d k) as [dk Hdk]; [rewrite HL, <- L2; by eapply lookup_lt_Some|].
  exists (z0 + st * dk)%R. rewrite HZ. split; [by rewrite !lookup_zip_with, Hz, Hst, Hdk|].
  replace (z0 + st * dk - z0)%R with (st * dk)%R by lra. apply at_most_mul. rewrite Forall_forall in HF. apply HF. by eapply elem_of_list_lookup_2.
Qed.

(** * Cases *)
Local Open Scope Q_scope.
(** A magnet with a calibration uncertainty [2; 3] and a roll uncertainty with its own cut-off 1: the draws 5 and -4 are
    outside the global cut-off 3 and are replaced, the draw 2 is outside the individual cut-off 1. *)
Definition quad_with_sigmas : sc Q :=
  snd (register_magnets [0%nat] [("CalErrorB", SPlain (VVec [2; 3])); ("MagnetRoll", SCut (VVec [1; 1; 1]) 1)] (MkType None None false None None)
    (init_sc [{["Length" := VNum 1; "PolynomA" := VVec [0; 0]; "PolynomB" := VVec [0; 1]; "PassMethod" := VStr "StrMPoleSymplectic4Pass"]}] [5; -(4); (1#2); 1; 2; (1#4); -(1#4); (3#4)])).
Example C27_case :
  let r := apply_magnet 3 quad_with_sigmas in
  fst r = Ok tt /\ attr_at (snd r) 0 "CalErrorB" = Some (VVec [1; 3]) /\ attr_at (snd r) 0 "MagnetRoll" = Some (VVec [(3#4); (1#4); -(1#4)]).
Proof. vm_compute. repeat split. Qed.
Print Assumptions C27_errors_bounded.
Print Assumptions C27_finding_noise_with_cut.
Print Assumptions C27_reachable.
Print Assumptions C27_injection_bounded.
