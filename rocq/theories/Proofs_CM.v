(** Correctors over the real numbers. *)
From Coq Require Import Reals Lra.
From stdpp Require Import base gmap strings list.
From Verif Require Import Num Base Model_Arr Model_SC Model_Err Lemmas Proofs_Update Proofs_Setpoint Spec.
Local Open Scope string_scope.
Local Open Scope list_scope.

Lemma SP_name skew : SP skew = setpoint_name skew.
Proof. by destruct skew. Qed.
Lemma attr_at_aget {T} (s : sc T) i a : attr_at s i a = aget (RING s) i a.
Proof. reflexivity. Qed.

Lemma nsign_sign x : @nsign R _ x = sign x.
Proof.
  unfold nsign, sign. num_R. destruct (Rltb x 0) eqn:E.
  - apply Rltb_true in E. destruct (Rlt_dec x 0); [reflexivity|lra].
  - apply Rltb_false in E. destruct (Rlt_dec x 0); [lra|]. destruct (Rltb 0 x) eqn:E2.
    + apply Rltb_true in E2. destruct (Rlt_dec 0 x); [reflexivity|lra].
    + apply Rltb_false in E2. destruct (Rlt_dec 0 x); [lra|reflexivity].
Qed.
Lemma sign_abs x : (Rabs (sign x) <= 1)%R.
Proof. rewrite <- nsign_sign. apply nsign_R_le1. Qed.
Lemma clipped_le l x : (Rabs (clipped (Some l) x) <= Rabs l)%R.
Proof.
  simpl. destruct (Rle_dec _ _); [done|]. rewrite Rabs_mult. pose proof (sign_abs x). pose proof (Rabs_pos l).
  rewrite <- (Rmult_1_l (Rabs l)) at 2. by apply Rmult_le_compat_r.
Qed.
Lemma ntrunc_abs x : (Rabs (@ntrunc R _ x) <= Rabs x)%R.
Proof.
  unfold ntrunc. num_R. rewrite !nfloor_R. destruct (Rltb x 0) eqn:E.
  - apply Rltb_true in E. rewrite Rabs_Ropp. destruct (base_Int_part (- x)) as [H1 H2].
    assert (0 <= IZR (Int_part (-x)))%R.
    { assert (-1 < Int_part (-x))%Z by (apply lt_IZR; lra). apply IZR_le. lia. }
    rewrite (Rabs_right (IZR _)), (Rabs_left x); lra.
  - apply Rltb_false in E. destruct (base_Int_part x) as [H1 H2].
    assert (0 <= IZR (Int_part x))%R.
    { assert (-1 < Int_part x)%Z by (apply lt_IZR; lra). apply IZR_le. lia. }
    rewrite !Rabs_right; lra.
Qed.
Lemma store_abs dt x : (Rabs (@store R _ dt x) <= Rabs x)%R.
Proof. destruct dt; simpl; [apply ntrunc_abs|lra]. Qed.

Section CM.
  Notation elemR := (elem R).
  Definition elim (skew : bool) (e : elemR) : option R :=
    match e !! "CMlimit" with
    | Some (VLims ls) => match ls !! (if skew then 1%nat else 0%nat) with Some (Fin l) => Some l | _ => None end
    | _ => None
    end.
  Lemma cm_limit_elim s i e skew : RING s !! i = Some e -> cm_limit s i skew = elim skew e.
  Proof. intros H. unfold cm_limit, attr_at. by rewrite H. Qed.

  (** the clipping step *)
  Lemma clip_cm_R skew dt (e : elemR) x y : clip_cm skew dt e x = Ok y ->
    (forall l, elim skew e = Some l -> (Rabs x <= Rabs l)%R -> y = x) /\
    (forall l, elim skew e = Some l -> (Rabs l < Rabs x)%R -> y = store dt (sign x * l)%R) /\
    (elim skew e = None -> y = x).
  Proof.
    unfold clip_cm, elim. destruct (e !! "CMlimit") as [v|]; [|intros H; simplify_eq; naive_solver].
    destruct v; try discriminate. cbn [as_lims rbind]. unfold idx. destruct (l !! _) as [ [l0|] | ]; cbn [rbind]; [| |discriminate].
    - rewrite !nabs_R. rewrite nltb_R. destruct (Rltb (Rabs l0) (Rabs x)) eqn:E; intros H; injection H as <-.
      + apply Rltb_true in E. split; [intros; simplify_eq; lra|]. split; [intros; simplify_eq; by rewrite nsign_sign|discriminate].
      + apply Rltb_false in E. split; [done|]. split; [intros; simplify_eq; lra|discriminate].
    - intros H. injection H as <-. naive_solver.
  Qed.
  Lemma clip_cm_float skew (e : elemR) x y : clip_cm skew DFloat e x = Ok y -> y = clipped (elim skew e) x.
  Proof.
    intros H. apply clip_cm_R in H as (H1&H2&H3). destruct (elim skew e) as [l|]; simpl; [|auto].
    destruct (Rle_dec (Rabs x) (Rabs l)); [eauto|]. apply (H2 l); [done|lra].
  Qed.
  Lemma clip_cm_bound skew dt (e : elemR) x y l : clip_cm skew dt e x = Ok y -> elim skew e = Some l -> (Rabs y <= Rabs l)%R.
  Proof.
    intros H El. apply clip_cm_R in H as (H1&H2&H3). destruct (Rle_dec (Rabs x) (Rabs l)).
    - by rewrite (H1 l).
    - rewrite (H2 l) by (done || lra). eapply Rle_trans; [apply store_abs|]. pose proof (clipped_le l x) as H.
      simpl in H. destruct (Rle_dec _ _); [lra|done].
  Qed.

  Definition factor (skew : bool) (e : elemR) : res R := norm_by skew e.
  Definition reading (skew : bool) (e : elemR) : res R :=
    let? sp := attr_vec e (SP skew) in
    let? x := idx sp 0 in
    let? nb := norm_by skew e in Ok (x * nb)%R.
  Lemma get_cm_reading ords skew s : get_cm_setpoints ords skew s = rmap (fun i => let? e := idx (RING s) i in reading skew e) ords.
  Proof.
    unfold get_cm_setpoints. induction ords as [|i ords IH]; simpl; [done|]. rewrite <- IH. f_equal.
    destruct (idx (RING s) i) as [e|]; [|done]. cbn [rbind]. unfold reading, norm_by.
    destruct (attr_vec e (SP skew)) as [sp|]; [|done]. cbn [rbind]. destruct (idx sp 0) as [x|]; [|done]. cbn [rbind].
    destruct (attr_str e "PassMethod") as [pm|]; [|done]. cbn [rbind]. destruct (decide (pm = "CorrectorPass")); cbn [rbind].
    - num_R. by rewrite Rmult_1_r.
    - destruct (attr_num e "Length"); reflexivity.
  Qed.
  Lemma get_cm_one i skew s v : get_cm_setpoints [i] skew s = Ok [v] <-> exists e, RING s !! i = Some e /\ reading skew e = Ok v.
  Proof.
    rewrite get_cm_reading. simpl. split.
    - intros H. minv H. eauto.
    - intros (e&He&Hr). unfold idx. rewrite He. simpl. by rewrite Hr.
  Qed.
  Lemma reading_ok skew e v : reading skew e = Ok v <->
    exists sp p nb, e !! SP skew = Some (VVec sp) /\ sp !! 0%nat = Some p /\ norm_by skew e = Ok nb /\ v = (p * nb)%R.
  Proof.
    unfold reading. split.
    - intros H. minv H. eauto 10.
    - intros (sp&p&nb&H1&H2&H3&->). apply rbind_ok. exists sp. split; [by apply attr_vec_ok|].
      apply rbind_ok. exists p. split; [by apply idx_ok|]. by rewrite H3.
  Qed.
  Lemma norm_by_agree skew (e e' : elemR) : e' !! "PassMethod" = e !! "PassMethod" -> e' !! "Length" = e !! "Length" ->
    norm_by skew e' = norm_by skew e.
  Proof. intros H1 H2. unfold norm_by, attr_str, attr_num, attr. by rewrite H1, H2. Qed.
  Lemma norm_by_insert skew (e : elemR) v : norm_by skew (<[SP skew := v]> e) = norm_by skew e.
  Proof. apply norm_by_agree; apply lookup_insert_ne; by destruct skew. Qed.

  (** the value read after one corrector is set *)
  Lemma cm_new_R skew method dt x (e : elemR) l : cm_new skew method dt x e = Ok l ->
    exists nb sp p x1 x2, norm_by skew e = Ok nb /\ nb <> 0%R /\ e !! SP skew = Some (VVec sp) /\ sp !! 0%nat = Some p /\
      (method = REL -> x1 = store dt (x * (p * nb))%R) /\ (method = ADD -> x1 = store dt (x + p * nb)%R) /\
      (method <> REL -> method <> ADD -> x1 = x) /\ clip_cm skew dt e x1 = Ok x2 /\ l = <[0%nat := (x2 / nb)%R]> sp.
  Proof.
    unfold cm_new. intros H. apply rbind_ok in H as (nb&Hnb&H). apply rbind_ok in H as (x1&Hx1&H).
    apply rbind_ok in H as (x2&Hx2&H). apply rbind_ok in H as (sp&Hsp&H). minv Hsp. apply rbind_ok in H as (y&Hy&H).
    minv Hy. minv H. num_R. apply Reqb_false in Hy.
    destruct sp as [|p sp]; [simpl in H; lia|].
    exists nb, (p :: sp), p, x1, x2. do 4 (split; [done|]).
    unfold cm_target in Hx1. destruct (decide (method = REL)) as [->|Hne1].
    - minv Hx1. simplify_eq. num_R. simpl in *. simplify_eq. naive_solver.
    - destruct (decide (method = ADD)) as [->|Hne2].
      + minv Hx1. simplify_eq. simpl in *. simplify_eq. naive_solver.
      + minv Hx1. naive_solver.
  Qed.
  Lemma reading_cm_new skew method dt x (e : elemR) l : cm_new skew method dt x e = Ok l ->
    exists p nb x1 x2, norm_by skew e = Ok nb /\ nb <> 0%R /\ reading skew e = Ok (p * nb)%R /\
      (method = REL -> x1 = store dt (x * (p * nb))%R) /\ (method = ADD -> x1 = store dt (x + p * nb)%R) /\
      (method <> REL -> method <> ADD -> x1 = x) /\ clip_cm skew dt e x1 = Ok x2 /\
      reading skew (<[SP skew := VVec l]> e) = Ok x2.
  Proof.
    intros H. apply cm_new_R in H as (nb&sp&p&x1&x2&Hnb&Hne&Hsp&Hp&H1&H2&H3&Hc&->).
    exists p, nb, x1, x2. do 2 (split; [done|]). split; [apply reading_ok; eauto 10|]. do 4 (split; [done|]).
    apply reading_ok. exists (<[0%nat := (x2/nb)%R]> sp), (x2/nb)%R, nb. rewrite lookup_insert. split; [done|]. split.
    - apply list_lookup_insert. destruct sp; simpl in *; [done|lia].
    - rewrite norm_by_insert. split; [done|]. field. done.
  Qed.
End CM.
