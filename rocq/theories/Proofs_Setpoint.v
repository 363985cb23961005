(** Set-points of correctors, magnets and cavities. *)
From stdpp Require Import base gmap strings list.
From Verif Require Import Num Base Model_Arr Model_SC Model_Err Lemmas Proofs_Update.
Local Open Scope string_scope.
Local Open Scope list_scope.

Section Setpoint.
  Context {T : Type} {N : Num T}.
  Notation ring := (list (elem T)).

  Lemma check_input_ok method ords (sps l : list T) : check_input_and_setpoints method ords sps = Ok l ->
    method ∈ SETTING_METHODS /\ length l = length ords /\
    (l = sps \/ exists x, sps = [x] /\ l = replicate (length ords) x).
  Proof.
    unfold check_input_and_setpoints. destruct (decide _); [|discriminate].
    destruct ((length sps =? 1)%nat || (length sps =? length ords)%nat) eqn:E; [|discriminate].
    intros H. injection H as <-. split; [done|].
    rewrite orb_true_iff, !Nat.eqb_eq in E.
    destruct sps as [|x [|y sps]].
    - simpl in *. split; [lia|auto].
    - rewrite replicate_length. eauto.
    - simpl in *. split; [lia|auto].
  Qed.
  Lemma check_input_full method ords (sps : list T) :
    method ∈ SETTING_METHODS -> length sps = length ords -> check_input_and_setpoints method ords sps = Ok sps.
  Proof.
    intros Hm HL. unfold check_input_and_setpoints. rewrite decide_True by done.
    rewrite (proj2 (Nat.eqb_eq _ _) HL), orb_true_r. destruct sps as [|x [|y sps]]; auto. simpl in HL. by rewrite <- HL.
  Qed.
  Lemma check_input_bad method ords (sps : list T) :
    method ∉ SETTING_METHODS \/ (length sps <> 1 /\ length sps <> length ords) ->
    check_input_and_setpoints method ords sps = Err ValueError.
  Proof.
    intros H. unfold check_input_and_setpoints. destruct (decide _) as [Hm|Hm]; [|done].
    destruct H as [H|[H1 H2]]; [done|]. apply Nat.eqb_neq in H1, H2. by rewrite H1, H2.
  Qed.
  Lemma check_input_single method ords (x : T) :
    check_input_and_setpoints method ords [x] = check_input_and_setpoints method ords (replicate (length ords) x).
  Proof.
    unfold check_input_and_setpoints. destruct (decide _) as [Hm|Hm]; [|done]. simpl.
    rewrite replicate_length, Nat.eqb_refl, orb_true_r. by destruct (length ords) as [|[|n]].
  Qed.

  (** * Correctors *)
  Definition cm_target (skew : bool) (method : string) (dt : dtype) (x nb : T) (e : elem T) : res T :=
    if decide (method = REL) then
      let? sp := attr_vec e (SP skew) in let? p := idx sp 0 in Ok (store dt (nmul x (nmul p nb)))
    else if decide (method = ADD) then
      let? sp := attr_vec e (SP skew) in let? p := idx sp 0 in Ok (store dt (nadd x (nmul p nb)))
    else Ok x.
  Definition cm_new (skew : bool) (method : string) (dt : dtype) (x : T) (e : elem T) : res (list T) :=
    let? nb := norm_by skew e in
    let? x1 := cm_target skew method dt x nb e in
    let? x2 := clip_cm skew dt e x1 in
    let? sp := attr_vec e (SP skew) in
    let? y := qdiv x2 nb in
    idx_set sp 0 y.
  Lemma set_cm_one_spec skew method dt x e :
    set_cm_one skew method dt x e =
    match cm_new skew method dt x e with Ok l => (Ok tt, <[SP skew := VVec l]> e) | Err er => (Err er, e) end.
  Proof.
    unfold set_cm_one, cm_new.
    rewrite run_getm. destruct (norm_by skew e) as [nb|]; [|done]. cbn [rbind].
    rewrite run_getm. fold (cm_target skew method dt x nb e). destruct (cm_target skew method dt x nb e) as [x1|]; [|done]. cbn [rbind].
    rewrite run_getm. destruct (clip_cm skew dt e x1) as [x2|]; [|done]. cbn [rbind].
    rewrite run_getm. destruct (attr_vec e (SP skew)) as [sp|]; [|done]. cbn [rbind].
    rewrite run_lift. destruct (qdiv x2 nb) as [y|]; [|done]. cbn [rbind].
    rewrite run_lift. destruct (idx_set sp 0 y); done.
  Qed.
  Lemma set_cm_one_ok skew method dt x e u e' : set_cm_one skew method dt x e = (Ok u, e') <->
    exists l, cm_new skew method dt x e = Ok l /\ e' = <[SP skew := VVec l]> e.
  Proof.
    rewrite set_cm_one_spec. destruct (cm_new skew method dt x e) as [l|]; destruct u; split; intros H; simplify_eq; eauto.
    - destruct H as (?&?&->). by simplify_eq.
    - destruct H as (?&?&?). by simplify_eq.
  Qed.
  Definition spE (skew : bool) (a : string) : Prop := a = SP skew.
  Lemma pres_set_cm_one skew method dt x : pres (eagree (spE skew)) (set_cm_one skew method dt x).
  Proof.
    intros e. rewrite set_cm_one_spec. destruct (cm_new _ _ _ _ _); simpl; [|reflexivity].
    intros b Hb. apply lookup_insert_ne. unfold spE in Hb. congruence.
  Qed.
  Lemma SP_cases skew : SP skew = "SetPointA" \/ SP skew = "SetPointB".
  Proof. destruct skew; auto. Qed.
  Lemma SP_not skew a : a <> "SetPointA" -> a <> "SetPointB" -> SP skew <> a.
  Proof. destruct skew; simpl; auto. Qed.
  Lemma SP_not_der skew : ~ der (SP skew).
  Proof. apply not_der. by destruct skew. Qed.

  (** frame of set_cm_setpoints *)
  Lemma set_cm_frame ords dt sps skew method s :
    frame (fun i a => (a = SP skew /\ i ∈ ords) \/ (der a /\ touched (RING s) ords i)) s
          (snd (set_cm_setpoints ords dt sps skew method s)).
  Proof.
    set (I := fun i a => (a = SP skew /\ i ∈ ords) \/ (der a /\ touched (RING s) ords i)).
    unfold set_cm_setpoints. rewrite run_lift.
    destruct (check_input_and_setpoints method ords sps) as [l|]; [|reflexivity].
    assert (inv (frame I s) (bind (forM (zip ords l) (fun p => on_elem p.1 (set_cm_one skew method dt p.2))) (fun _ => update_magnets ords)) (fun _ => True)) as H.
    { eapply inv_bind.
      - apply inv_forM. intros [i x] Hi. apply (inv_pres _ (frame I)); [intros; by etransitivity|].
        apply pres_on_elem_frame. eapply pres_weaken; [|apply pres_set_cm_one]. intros e e' Hag a Ha. apply Hag.
        intros ->. apply Ha. left. split; [done|]. by eapply elem_of_zip_l.
      - intros _ _. apply update_magnets_inv.
        + intros. right. auto.
        + intros i [[Hs _]|[Hd _]]; [by destruct skew|]. by apply not_der in Hd. }
    apply H. reflexivity.
  Qed.
  Lemma set_cm_ok ords dt sps skew method s u s' :
    set_cm_setpoints ords dt sps skew method s = (Ok u, s') <->
    exists l s1, check_input_and_setpoints method ords sps = Ok l /\
      forM (zip ords l) (fun p => on_elem p.1 (set_cm_one skew method dt p.2)) s = (Ok tt, s1) /\
      update_magnets ords s1 = (Ok u, s').
  Proof.
    unfold set_cm_setpoints. rewrite bind_ok. split.
    - intros (l&s1&H1&H). minv H1. apply bind_ok in H as (u1&s2&H2&H). destruct u1. eauto 10.
    - intros (l&s1&H1&H2&H3). eexists _, _. split; [by apply lift_ok|]. apply bind_ok. eauto.
  Qed.
End Setpoint.
