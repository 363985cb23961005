(** Loops over (possibly repeated) ordinates, magnet and cavity set-points. *)
From Coq Require Import Reals Lra.
From stdpp Require Import base gmap strings list.
From Verif Require Import Num Base Model_Arr Model_SC Model_Err Lemmas Proofs_Update Proofs_Setpoint Spec Proofs_CM Proofs_CM2.
Local Open Scope string_scope.
Local Open Scope list_scope.

Section Loop.
  Context {T : Type} {N : Num T}.

  (** values addressed to ordinate [i], in order *)
  Definition addressed {A} (i : nat) (l : list (nat * A)) : list A := (filter (fun p => p.1 = i) l).*2.
  Lemma addressed_cons {A} i (p : nat * A) l : addressed i (p :: l) = if decide (p.1 = i) then p.2 :: addressed i l else addressed i l.
  Proof. unfold addressed. rewrite filter_cons. by destruct (decide _). Qed.
  Lemma addressed_nil {A} i (l : list (nat * A)) : i ∉ l.*1 -> addressed i l = [].
  Proof.
    induction l as [|p l IH]; intros H; [done|]. rewrite fmap_cons, not_elem_of_cons in H. destruct H as [H1 H2].
    rewrite addressed_cons, decide_False by congruence. auto.
  Qed.
  Lemma addressed_single {A} i (x : A) l : NoDup (l.*1) -> (i, x) ∈ l -> addressed i l = [x].
  Proof.
    induction l as [|p l IH]; intros Hnd H; [inversion H|]. rewrite fmap_cons, NoDup_cons in Hnd. destruct Hnd as [H1 H2].
    rewrite addressed_cons. apply elem_of_cons in H as [<-|H].
    - rewrite decide_True by done. simpl. by rewrite addressed_nil.
    - rewrite decide_False; [auto|]. intros <-. apply H1. apply elem_of_list_fmap. by exists (p.1, x).
  Qed.
  Lemma forM_seq {A} (l : list (nat * A)) (f : A -> M (elem T) unit) (s s' : sc T) u :
    forM l (fun p => on_elem p.1 (f p.2)) s = (Ok u, s') ->
    (exists r, s' = set_RING r s) /\ length (RING s') = length (RING s) /\
    (forall i, i ∈ l.*1 -> is_Some (RING s !! i)) /\
    forall i e, RING s !! i = Some e -> exists e', RING s' !! i = Some e' /\ forM (addressed i l) f e = (Ok tt, e').
  Proof.
    revert s. induction l as [|[j x] l IH]; intros s H; simpl in *.
    - minv H. split; [exists (RING s); by rewrite set_RING_id|]. split; [done|]. split; [intros i Hi; inversion Hi|].
      intros i e He. exists e. auto.
    - apply bind_ok in H as (u1&s1&H1&H). apply on_elem_ok in H1 as (e&e'&He&Hf&->). destruct u1.
      destruct (IH _ H) as ((r&Hr)&HL&Hin&Hs). simpl in *. split; [exists r; rewrite Hr; by destruct s|].
      rewrite insert_length in HL. split; [done|]. split.
      + intros i Hi. apply elem_of_cons in Hi as [->|Hi]; [eauto|]. destruct (Hin i Hi) as [e1 He1].
        destruct (decide (i = j)) as [->|]; [eauto|]. rewrite list_lookup_insert_ne in He1 by done. eauto.
      + intros i e1 He1. rewrite addressed_cons. simpl. destruct (decide (j = i)) as [->|Hne].
        * simplify_eq. destruct (Hs i e') as (e2&H2&H3); [apply list_lookup_insert; by eapply lookup_lt_Some|].
          exists e2. split; [done|]. simpl. apply bind_ok. eauto.
        * apply Hs. by rewrite list_lookup_insert_ne.
  Qed.
  Lemma forM_other {A} (l : list (nat * A)) (f : A -> M (elem T) unit) (s s' : sc T) u i :
    forM l (fun p => on_elem p.1 (f p.2)) s = (Ok u, s') -> i ∉ l.*1 -> RING s' !! i = RING s !! i.
  Proof.
    intros H Hi. destruct (forM_seq _ _ _ _ _ H) as (_&HL&_&Hs). destruct (RING s !! i) as [e|] eqn:E.
    - destruct (Hs i e E) as (e'&He'&Hf). rewrite addressed_nil in Hf by done. simpl in Hf. minv Hf. done.
    - apply lookup_ge_None in E. apply lookup_ge_None. lia.
  Qed.
  Lemma set_RING_ring (r : list (elem T)) s : RING (set_RING r s) = r.
  Proof. done. Qed.

  (** * Magnets without dipole compensation *)
  Definition magnet_step (skew : bool) (order : nat) (dt : dtype) (x : T) : M (elem T) unit :=
    let! x1 := getm (fun e => clip_skew skew order dt e x) in set_sp_entry (SP skew) order x1.
  Lemma set_magnet_one_plain skew order dt i x (s : sc T) :
    set_magnet_one skew order dt false i x s = on_elem i (magnet_step skew order dt x) s.
  Proof.
    unfold set_magnet_one, magnet_step. unfold bind at 1. unfold ring_elem, idx, on_elem.
    destruct (RING s !! i) as [e|] eqn:E; [|done]. rewrite run_lift, run_getm.
    destruct (clip_skew skew order dt e x) as [x1|].
    - simpl. unfold bind, ret. by rewrite E.
    - by rewrite list_insert_id, set_RING_id.
  Qed.
  Lemma forM_ext {S A} (l : list A) (f g : A -> M S unit) : (forall x s, f x s = g x s) -> forall s, forM l f s = forM l g s.
  Proof. intros H. induction l as [|x l IH]; intros s; simpl; [done|]. unfold bind. rewrite H. destruct (g x s) as [[]]; auto. Qed.
  Lemma set_magnet_plain ords dt sps skew order method (s : sc T) u s' :
    set_magnet_setpoints ords dt sps skew order method false s = (Ok u, s') <->
    exists l s1, magnet_targets ords dt sps skew order method s = Ok l /\
      forM (zip ords l) (fun p => on_elem p.1 (magnet_step skew order dt p.2)) s = (Ok tt, s1) /\
      update_magnets ords s1 = (Ok u, s').
  Proof.
    rewrite set_magnet_ok. split; intros (l&s1&H1&H2&H3); exists l, s1; (split; [done|split; [|done]]); rewrite <- H2;
      [symmetry|]; apply forM_ext; intros p s0; apply set_magnet_one_plain.
  Qed.
  Lemma magnet_step_ok skew order dt x e u e' : magnet_step skew order dt x e = (Ok u, e') <->
    exists x1 sp, clip_skew skew order dt e x = Ok x1 /\ e !! SP skew = Some (VVec sp) /\ order < length sp /\
      e' = <[SP skew := VVec (<[order := x1]> sp)]> e.
  Proof.
    unfold magnet_step, set_sp_entry. split.
    - intros H. apply bind_ok in H as (x1&e1&H1&H). minv H1. apply bind_ok in H as (sp&e1&H2&H). minv H2.
      apply bind_ok in H as (sp'&e1&H3&H). minv H3. minv H. eauto 10.
    - intros (x1&sp&H1&H2&H3&->). rewrite run_getm, H1, run_getm. rewrite (proj2 (attr_vec_ok _ _ _) H2), run_lift.
      rewrite (proj2 (idx_set_ok _ _ _ _) (conj H3 eq_refl)). by destruct u.
  Qed.
  Lemma magnet_targets_ok ords dt sps skew order method (s : sc T) l :
    magnet_targets ords dt sps skew order method s = Ok l ->
    length l = length ords /\ method ∈ SETTING_METHODS /\
    exists l0, check_input_and_setpoints method ords sps = Ok l0 /\
      (method = ABS -> l = l0) /\
      (method = REL -> dt = DFloat /\ exists noms, field_values ("NomPolynom" +:+ letter skew) order ords s = Ok noms /\ l = zip_with nmul l0 noms) /\
      (method = ADD -> dt = DFloat /\ exists cur, field_values (SP skew) order ords s = Ok cur /\ l = zip_with nadd l0 cur).
  Proof.
    unfold magnet_targets. intros H. apply rbind_ok in H as (l0&Hl0&H). pose proof Hl0 as Hl0'. apply check_input_ok in Hl0' as (Hm&HL&_).
    assert (forall n (k : list T), field_values n order ords s = Ok k -> length k = length ords) as HF.
    { intros n k Hk. apply rmap_ok, Forall2_length in Hk. done. }
    unfold SETTING_METHODS in Hm. destruct (decide (method = REL)) as [->|].
    - apply rbind_ok in H as (noms&Hn&H). destruct dt; [discriminate|]. injection H as <-.
      split; [rewrite zip_with_length, (HF _ _ Hn); lia|]. split; [done|]. exists l0. split; [done|]. split; [done|].
      split; [eauto|done].
    - destruct (decide (method = ADD)) as [->|].
      + apply rbind_ok in H as (noms&Hn&H). destruct dt; [discriminate|]. injection H as <-.
        split; [rewrite zip_with_length, (HF _ _ Hn); lia|]. split; [done|]. exists l0. split; [done|]. split; [done|].
        split; [done|eauto].
      + injection H as <-. split; [done|]. split; [done|]. exists l0. split; [done|]. split; [done|]. split; done.
  Qed.

  (** * Cavities *)
  Lemma set_cavity_ok ords dt sps param method (s : sc T) u s' :
    set_cavity_setpoints ords dt sps param method s = (Ok u, s') <->
    exists l s1, cavity_targets ords dt sps param method s = Ok l /\
      forM (zip ords l) (fun p => on_elem p.1 (setattr (param +:+ "SetPoint") (VNum p.2))) s = (Ok tt, s1) /\
      update_cavities ords s1 = (Ok u, s').
  Proof.
    unfold set_cavity_setpoints. rewrite bind_ok. split.
    - intros (s0&s1&H1&H). minv H1. apply bind_ok in H as (l&s2&H2&H). minv H2. apply bind_ok in H as (u1&s3&H3&H). destruct u1. eauto 10.
    - intros (l&s1&H1&H2&H3). eexists _, _. split; [by apply get_ok|]. apply bind_ok. eexists _, _. split; [by apply lift_ok|].
      apply bind_ok. eauto.
  Qed.
  Lemma cavity_targets_ok ords dt sps param method (s : sc T) l :
    cavity_targets ords dt sps param method s = Ok l ->
    length l = length ords /\ method ∈ SETTING_METHODS /\
    exists l0, check_input_and_setpoints method ords sps = Ok l0 /\
      (method = ABS -> l = l0) /\
      (method = REL -> dt = DFloat /\ exists cur, field_nums (param +:+ "SetPoint") ords s = Ok cur /\ l = zip_with nmul l0 cur) /\
      (method = ADD -> dt = DFloat /\ exists cur, field_nums (param +:+ "SetPoint") ords s = Ok cur /\ l = zip_with nadd l0 cur).
  Proof.
    unfold cavity_targets. intros H. apply rbind_ok in H as (l0&Hl0&H). pose proof Hl0 as Hl0'. apply check_input_ok in Hl0' as (Hm&HL&_).
    assert (forall n (k : list T), field_nums n ords s = Ok k -> length k = length ords) as HF.
    { intros n k Hk. apply rmap_ok, Forall2_length in Hk. done. }
    destruct (decide (method = REL)) as [->|].
    - apply rbind_ok in H as (noms&Hn&H). destruct dt; [discriminate|]. injection H as <-.
      split; [rewrite zip_with_length, (HF _ _ Hn); lia|]. split; [done|]. exists l0. split; [done|]. split; [done|].
      split; [eauto|done].
    - destruct (decide (method = ADD)) as [->|].
      + apply rbind_ok in H as (noms&Hn&H). destruct dt; [discriminate|]. injection H as <-.
        split; [rewrite zip_with_length, (HF _ _ Hn); lia|]. split; [done|]. exists l0. split; [done|]. split; [done|].
        split; [done|eauto].
      + injection H as <-. split; [done|]. split; [done|]. exists l0. split; [done|]. split; [done|]. split; done.
  Qed.
  Lemma zip_with_zip {A B C D} (f : B -> C -> D) (l : list A) (a : list B) (b : list C) i z :
    (i, z) ∈ zip l (zip_with f a b) -> exists x y, (i, x) ∈ zip l a /\ (i, y) ∈ zip l b /\ z = f x y.
  Proof.
    rewrite !elem_of_list_lookup. intros (k&Hk). rewrite lookup_zip_with in Hk.
    destruct (l !! k) as [i0|] eqn:E1; [|discriminate]. simpl in Hk. rewrite lookup_zip_with in Hk.
    destruct (a !! k) as [x|] eqn:E2; [|discriminate]. simpl in Hk. destruct (b !! k) as [y|] eqn:E3; [|discriminate]. simpl in Hk.
    simplify_eq. exists x, y. split; [|split; [|done]]; apply elem_of_list_lookup; exists k; rewrite lookup_zip_with, E1; simpl;
      [rewrite E2|rewrite E3]; done.
  Qed.
  Lemma rmap_zip {A B} (f : A -> res B) l l' i y : rmap f l = Ok l' -> (i, y) ∈ zip l l' -> f i = Ok y.
  Proof.
    rewrite rmap_ok. intros H Hi. apply elem_of_list_lookup in Hi as (k&Hk). rewrite lookup_zip_with in Hk.
    destruct (l !! k) as [i0|] eqn:E1; [|discriminate]. simpl in Hk. destruct (l' !! k) as [x|] eqn:E2; [|discriminate]. simpl in Hk.
    simplify_eq. by eapply Forall2_lookup_lr in H.
  Qed.
End Loop.
