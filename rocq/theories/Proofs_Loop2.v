(** Set-point calls seen from one element. *)
From Coq Require Import Reals Lra.
From stdpp Require Import base gmap strings list.
From Verif Require Import Num Base Model_Arr Model_SC Model_Err Lemmas Proofs_Update Proofs_Setpoint Spec Proofs_CM Proofs_CM2 Proofs_Loop.
Local Open Scope string_scope.
Local Open Scope list_scope.

Section Gen.
  Context {T : Type} {N : Num T}.
  Lemma update_magnets_elem ords (s s' : sc T) u i e : update_magnets ords s = (Ok u, s') -> RING s !! i = Some e ->
    exists e', RING s' !! i = Some e' /\ eagree der e e'.
  Proof.
    intros H He. apply update_magnets_ok in H as (_&ws&Hws&->). eapply ragD_some; [by eapply all_writes_ragD|done].
  Qed.
  Lemma set_cm_elem ords dt sps skew method (s s' : sc T) u i e :
    set_cm_setpoints ords dt sps skew method s = (Ok u, s') -> RING s !! i = Some e ->
    exists l e1 e', check_input_and_setpoints method ords sps = Ok l /\
      forM (addressed i (zip ords l)) (set_cm_one skew method dt) e = (Ok tt, e1) /\ RING s' !! i = Some e' /\ eagree der e1 e'.
  Proof.
    intros H He. apply set_cm_ok in H as (l&s1&Hl&H1&H2). destruct (forM_seq _ _ _ _ _ H1) as (_&_&_&Hs).
    destruct (Hs i e He) as (e1&He1&Hf). destruct (update_magnets_elem _ _ _ _ _ _ H2 He1) as (e'&He'&Ha). eauto 10.
  Qed.
  Lemma set_magnet_elem ords dt sps skew order method (s s' : sc T) u i e :
    set_magnet_setpoints ords dt sps skew order method false s = (Ok u, s') -> RING s !! i = Some e ->
    exists l e1 e', magnet_targets ords dt sps skew order method s = Ok l /\
      forM (addressed i (zip ords l)) (magnet_step skew order dt) e = (Ok tt, e1) /\ RING s' !! i = Some e' /\ eagree der e1 e'.
  Proof.
    intros H He. apply set_magnet_plain in H as (l&s1&Hl&H1&H2). destruct (forM_seq _ _ _ _ _ H1) as (_&_&_&Hs).
    destruct (Hs i e He) as (e1&He1&Hf). destruct (update_magnets_elem _ _ _ _ _ _ H2 He1) as (e'&He'&Ha). eauto 10.
  Qed.
  Lemma in_zip_fst {A} (ords : list nat) (l : list A) i : length l = length ords -> i ∈ ords -> exists x, (i, x) ∈ zip ords l.
  Proof.
    intros HL Hi. apply elem_of_list_lookup in Hi as (k&Hk). assert (k < length l) as Hlt by (rewrite HL; by eapply lookup_lt_Some).
    apply lookup_lt_is_Some in Hlt as [x Hx]. exists x. apply elem_of_list_lookup. exists k. by rewrite lookup_zip_with, Hk, Hx.
  Qed.
  Lemma set_cm_exists ords dt sps skew method (s s' : sc T) u i :
    set_cm_setpoints ords dt sps skew method s = (Ok u, s') -> i ∈ ords -> is_Some (RING s !! i).
  Proof.
    intros H Hi. apply set_cm_ok in H as (l&s1&Hl&H1&H2). destruct (forM_seq _ _ _ _ _ H1) as (_&_&Hs&_).
    apply check_input_ok in Hl as (_&HL&_). apply Hs. by rewrite zip_fst.
  Qed.
  Lemma set_magnet_exists ords dt sps skew order method (s s' : sc T) u i :
    set_magnet_setpoints ords dt sps skew order method false s = (Ok u, s') -> i ∈ ords -> is_Some (RING s !! i).
  Proof.
    intros H Hi. apply set_magnet_plain in H as (l&s1&Hl&H1&H2). destruct (forM_seq _ _ _ _ _ H1) as (_&_&Hs&_).
    apply magnet_targets_ok in Hl as (HL&_). apply Hs. by rewrite zip_fst.
  Qed.
  (** cavities *)
  Lemma update_cavities_elem ords (s s' : sc T) u i e : update_cavities ords s = (Ok u, s') -> RING s !! i = Some e ->
    exists e', RING s' !! i = Some e' /\ eagree (fun a => a ∈ RF_PROPERTIES) e e' /\ (i ∉ ords -> e' = e) /\
      (i ∈ ords -> update_cavity e' = (Ok tt, e')).
  Proof.
    intros H He.
    assert (forM (map (fun j => (j, tt)) ords) (fun p => on_elem p.1 (@update_cavity T N)) s = (Ok u, s')) as H'.
    { rewrite <- H. unfold update_cavities. clear. revert s. induction ords as [|j ords IH]; intros s; [done|]. simpl.
      unfold bind. destruct (on_elem j update_cavity s) as [[]]; auto. }
    clear H. destruct (forM_seq _ (fun _ => @update_cavity T N) _ _ _ H') as (_&_&_&Hs). destruct (Hs i e He) as (e'&He'&Hf). exists e'. split; [done|].
    clear Hs H'.
    assert (forall x e1 e2 u, @update_cavity T N e1 = (Ok u, e2) -> e2 !! x = e1 !! x \/ x ∈ RF_PROPERTIES) as Hfr.
    { intros x e1 e2 u0 Hu. destruct (decide (x ∈ RF_PROPERTIES)); [by right|left].
      assert (pres (eagree (fun a => a ∈ RF_PROPERTIES)) (@update_cavity T N)) as P.
      { unfold update_cavity. apply pres_forM; [exact _|]. intros f Hx. repeat first [pres_step|apply pres_setattr; exact Hx]. }
      specialize (P e1). rewrite Hu in P. by apply P. }
    assert (forall e1 e2 u, @update_cavity T N e1 = (Ok u, e2) -> update_cavity e2 = (Ok tt, e2)) as Hid.
    { intros e1 e2 u0. unfold update_cavity, RF_PROPERTIES. cbn [forM]. intros Hu.
      repeat (rewrite run_bind, run_getm in Hu;
        match type of Hu with match ?x with _ => _ end = _ => destruct x eqn:?; [|discriminate] end; rewrite run_setattr in Hu).
      injection Hu as _ <-.
      repeat (match goal with H : rbind _ _ = Ok _ |- _ => apply rbind_ok in H as (?&?&H) | H : Ok _ = Ok _ |- _ => injection H as <- end).
      repeat match goal with H : attr_num _ _ = Ok _ |- _ => apply attr_num_ok in H; simpl in H; repeat rewrite lookup_insert_ne in H by done end.
      rewrite run_bind, run_getm. unfold attr_num, attr. simpl.
      repeat first [rewrite lookup_insert_ne by done]. simplify_option_eq.
      unfold bind, setattr, modify, getm, attr_num, attr. simpl.
      repeat first [progress simplify_option_eq | rewrite lookup_insert_ne by done | progress (cbn [rbind as_num])].
      f_equal. apply map_eq. intros k.
      destruct (decide (k = "Voltage")) as [->|]; [by simplify_map_eq|].
      destruct (decide (k = "Frequency")) as [->|]; [by simplify_map_eq|].
      destruct (decide (k = "TimeLag")) as [->|]; by simplify_map_eq. }
    set (xs := addressed i (map (fun j => (j, tt)) ords)) in *.
    assert ((i ∉ ords -> xs = []) /\ (i ∈ ords -> xs <> [])) as [Hx1 Hx2].
    { subst xs. split.
      - intros Hi. apply addressed_nil. by rewrite <- list_fmap_compose, list_fmap_id.
      - clear. induction ords as [|j ords IH]; intros Hi; [inversion Hi|]. simpl. rewrite addressed_cons. simpl.
        destruct (decide (j = i)); [done|]. apply elem_of_cons in Hi as [->|Hi]; [done|auto]. }
    clearbody xs.
    assert (eagree (fun a => a ∈ RF_PROPERTIES) e e' /\ (xs = [] -> e' = e) /\ (xs <> [] -> update_cavity e' = (Ok tt, e'))) as (A1&A2&A3);
      [|naive_solver].
    clear He Hx1 Hx2. revert e Hf. induction xs as [|[] xs IH]; intros e Hf; simpl in Hf.
    - minv Hf. split; [reflexivity|]. done.
    - apply bind_ok in Hf as (u1&e1&Hu&Hf). destruct (IH _ Hf) as (B1&B2&B3). split.
      + etransitivity; [|exact B1]. intros a Ha. destruct (Hfr a _ _ _ Hu); [done|tauto].
      + split; [done|]. intros _. destruct xs; [rewrite (B2 eq_refl); by eapply Hid|by apply B3].
  Qed.
  Lemma update_cavity_fix (e : elem T) : update_cavity e = (Ok tt, e) -> forall f, f ∈ RF_PROPERTIES ->
    exists sp cal off, e !! (f +:+ "SetPoint") = Some (VNum sp) /\ e !! (f +:+ "CalError") = Some (VNum cal) /\
      e !! (f +:+ "Offset") = Some (VNum off) /\ e !! f = Some (VNum (nadd (nmul sp (nadd n1 cal)) off)).
  Proof.
    unfold update_cavity, RF_PROPERTIES. cbn [forM]. intros Hu f Hf.
    repeat (rewrite run_bind, run_getm in Hu;
        match type of Hu with match ?x with _ => _ end = _ => destruct x eqn:?; [|discriminate] end; rewrite run_setattr in Hu).
    injection Hu as Hu.
    repeat (match goal with H : rbind _ _ = Ok _ |- _ => apply rbind_ok in H as (?&?&H) | H : Ok _ = Ok _ |- _ => injection H as <- end).
    repeat match goal with H : attr_num _ _ = Ok _ |- _ => apply attr_num_ok in H; simpl in H; repeat rewrite lookup_insert_ne in H by done end.
    rewrite !elem_of_cons, elem_of_nil in Hf. destruct Hf as [->|[->|[->|[]]]]; simpl; eexists _, _, _;
      (split; [eassumption|]); (split; [eassumption|]); (split; [eassumption|]); rewrite <- Hu; by simplify_map_eq.
  Qed.
  Lemma set_cavity_elem ords dt sps param method (s s' : sc T) u i e :
    set_cavity_setpoints ords dt sps param method s = (Ok u, s') -> RING s !! i = Some e ->
    exists l e1 e', cavity_targets ords dt sps param method s = Ok l /\
      forM (addressed i (zip ords l)) (fun x => setattr (param +:+ "SetPoint") (VNum x)) e = (Ok tt, e1) /\
      RING s' !! i = Some e' /\ eagree (fun a => a ∈ RF_PROPERTIES) e1 e' /\ (i ∉ ords -> e' = e1) /\ (i ∈ ords -> update_cavity e' = (Ok tt, e')).
  Proof.
    intros H He. apply set_cavity_ok in H as (l&s1&Hl&H1&H2). destruct (forM_seq _ (fun x => setattr (param +:+ "SetPoint") (VNum x)) _ _ _ H1) as (_&_&_&Hs).
    destruct (Hs i e He) as (e1&He1&Hf). destruct (update_cavities_elem _ _ _ _ _ _ H2 He1) as (e'&He'&Ha). eauto 10.
  Qed.
  Lemma set_cavity_exists ords dt sps param method (s s' : sc T) u i :
    set_cavity_setpoints ords dt sps param method s = (Ok u, s') -> i ∈ ords -> is_Some (RING s !! i).
  Proof.
    intros H Hi. apply set_cavity_ok in H as (l&s1&Hl&H1&H2).
    destruct (forM_seq _ (fun x => setattr (param +:+ "SetPoint") (VNum x)) _ _ _ H1) as (_&_&Hs&_).
    apply cavity_targets_ok in Hl as (HL&_). apply Hs. by rewrite zip_fst.
  Qed.
  (** [param +:+ "SetPoint"] is never one of the three cavity values *)
  Lemma setpoint_not_rf param : (param +:+ "SetPoint") ∉ RF_PROPERTIES.
  Proof.
    unfold RF_PROPERTIES. rewrite !elem_of_cons, elem_of_nil. intros [H|[H|[H|[]]]];
      repeat (destruct param as [|? param]; simpl in H; [discriminate H|injection H as _ H]); destruct param; discriminate H.
  Qed.
  Lemma foldl_setattr {A} (f : A -> val T) a xs (e e1 : elem T) u :
    forM xs (fun x => setattr a (f x)) e = (Ok u, e1) ->
    e1 = match last xs with None => e | Some x => <[a := f x]> e end.
  Proof.
    revert e. induction xs as [|x xs IH]; intros e H; simpl in H; [by minv H|].
    rewrite run_setattr in H. apply IH in H. subst e1. rewrite last_cons. destruct (last xs); [by rewrite insert_insert|done].
  Qed.
End Gen.

Section Real.
  Lemma reading_agree skew (e e' : elem R) : eagree der e e' -> reading skew e' = reading skew e.
  Proof.
    intros H. unfold reading, attr_vec, attr. rewrite (eag _ _ _ H) by (by destruct skew).
    rewrite (norm_by_agree skew e e'); [done| |]; by apply eag.
  Qed.
  Lemma elim_agree skew (e e' : elem R) : eagree der e e' -> elim skew e' = elim skew e.
  Proof. intros H. unfold elim. by rewrite (eag _ _ _ H). Qed.
  Lemma elim_sp skew skew' v (e : elem R) : elim skew (<[SP skew' := v]> e) = elim skew e.
  Proof. unfold elim. rewrite lookup_insert_ne; [done|by destruct skew']. Qed.
End Real.
