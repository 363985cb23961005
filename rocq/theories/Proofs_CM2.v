(** Histories of set-point calls. *)
From Coq Require Import Reals Lra.
From stdpp Require Import base gmap strings list.
From Verif Require Import Num Base Model_Arr Model_SC Model_Err Lemmas Proofs_Update Proofs_Setpoint Spec Proofs_CM.
Local Open Scope string_scope.
Local Open Scope list_scope.

Definition GEOM : list string := ["SupportOffset"; "SupportRoll"; "T1"; "T2"; "R1"; "R2"].
Section Frames.
  Context {T : Type} {N : Num T} {Tr : Trig T} (minv : list (list T) -> res (list (list T))).
  Definition geom (_ : nat) (a : string) : Prop := a ∈ GEOM.
  Lemma in_geom i a : bool_decide (a ∈ GEOM) = true -> geom i a.
  Proof. apply bool_decide_eq_true. Qed.
  Lemma geom_cases a : a ∈ ["T1"; "T2"; "R1"; "R2"] -> a ∈ GEOM.
  Proof. unfold GEOM. rewrite !elem_of_cons. tauto. Qed.
  Lemma pres_update_supports b m : pres (@frame T geom) (update_supports minv b m).
  Proof.
    assert (forall i, pres (eagree (geom i)) (update_transformation minv)) as U.
    { intros i. unfold update_transformation. repeat first [pres_step|apply pres_setattr, in_geom; reflexivity]. }
    unfold update_supports.
    repeat first [ pres_step | apply pres_ring_elem; exact _ | apply pres_on_elem_frame | apply U
                 | apply pres_setattr, in_geom; reflexivity | apply pres_setattr; apply geom_cases; assumption ].
  Qed.
  Definition rf_attr (_ : nat) (a : string) : Prop := a ∈ RF_PROPERTIES.
  Lemma pres_update_cavities ords : pres (@frame T rf_attr) (update_cavities ords).
  Proof.
    unfold update_cavities. apply pres_forM; [exact _|]. intros i _. apply pres_on_elem_frame. unfold update_cavity.
    apply pres_forM; [exact _|]. intros f Hf. repeat first [pres_step|apply pres_setattr; exact Hf].
  Qed.
  (** the set-point attribute of a cavity parameter is none of the attributes of a corrector *)
  Lemma last_app_SetPoint (p : string) : forall a, p +:+ "SetPoint" = a ->
    a <> "SetPointA" /\ a <> "SetPointB" /\ a <> "CMlimit" /\ a <> "Length" /\ a <> "PassMethod" /\ a <> "SkewQuadLimit" /\ a <> "MasterOf".
  Proof.
    intros a <-. repeat split; intros H;
      repeat (destruct p as [|? p]; simpl in H; [discriminate H|injection H as _ H]); destruct p; discriminate H.
  Qed.
  Definition cav_attr (param : string) (_ : nat) (a : string) : Prop := a = param +:+ "SetPoint" \/ a ∈ RF_PROPERTIES.
  Lemma pres_set_cavity ords dt sps param method : pres (@frame T (cav_attr param)) (set_cavity_setpoints ords dt sps param method).
  Proof.
    unfold set_cavity_setpoints. apply pres_bind; [exact _|apply pres_get; exact _|]. intros s.
    apply pres_bind; [exact _|apply pres_lift; exact _|]. intros l. apply pres_bind; [exact _| |intros _].
    - apply pres_forM; [exact _|]. intros p _. apply pres_on_elem_frame, pres_setattr. by left.
    - eapply pres_weaken; [|apply pres_update_cavities]. intros s1 s2. apply frame_mono. intros i a Ha. by right.
  Qed.
  Lemma pres_trackMode (I : nat -> string -> Prop) mode : pres (same (@RING T)) (on_INJ (set_trackMode mode)).
  Proof.
    intros s. unfold on_INJ, set_trackMode. destruct (decide _); [|reflexivity]. simpl. reflexivity.
  Qed.

  (** dipole compensation and magnet set-points *)
  Lemma set_magnet_ok ords dt sps skew order method dc (s : sc T) u s' :
    set_magnet_setpoints ords dt sps skew order method dc s = (Ok u, s') <->
    exists l s1, magnet_targets ords dt sps skew order method s = Ok l /\
      forM (zip ords l) (fun p => set_magnet_one skew order dt dc p.1 p.2) s = (Ok tt, s1) /\
      update_magnets ords s1 = (Ok u, s').
  Proof.
    unfold set_magnet_setpoints. rewrite bind_ok. split.
    - intros (s0&s1&H1&H). minv H1. apply bind_ok in H as (l&s2&H2&H). minv H2. apply bind_ok in H as (u1&s3&H3&H). destruct u1. eauto 10.
    - intros (l&s1&H1&H2&H3). eexists _, _. split; [by apply get_ok|]. apply bind_ok. eexists _, _. split; [by apply lift_ok|].
      apply bind_ok. eauto.
  Qed.
End Frames.

(** * The corrector limit as an invariant *)
Section Within.
  Definition ewithin (skew : bool) (e : elem R) : Prop :=
    forall v l, reading skew e = Ok v -> elim skew e = Some l -> (Rabs v <= Rabs l)%R.
  Definition within (skew : bool) (i : nat) (s : sc R) : Prop := forall e, RING s !! i = Some e -> ewithin skew e.
  Definition keeps (skew : bool) (i : nat) (s s' : sc R) : Prop := within skew i s -> within skew i s'.
  #[global] Instance keeps_preorder skew i : PreOrder (keeps skew i).
  Proof. split; [intros ? ?; done|]. intros a b c H1 H2 H. auto. Qed.

  Definition cmattr (a : string) : Prop := a ∈ ["SetPointA"; "SetPointB"; "CMlimit"; "Length"; "PassMethod"].
  Lemma ewithin_agree skew (e e' : elem R) : (forall a, cmattr a -> e' !! a = e !! a) -> ewithin skew e -> ewithin skew e'.
  Proof.
    intros H Hw v l Hr Hl. apply (Hw v l).
    - rewrite <- Hr. unfold reading, attr_vec, attr.
      rewrite (H (SP skew)) by (destruct skew; unfold cmattr; rewrite !elem_of_cons; auto).
      rewrite (norm_by_agree skew e e'); [done| |]; apply H; unfold cmattr; rewrite !elem_of_cons; auto 10.
    - rewrite <- Hl. unfold elim. rewrite H; [done|]. unfold cmattr. rewrite !elem_of_cons. auto.
  Qed.
  Lemma frame_keeps (I : nat -> string -> Prop) skew i s s' : (forall a, cmattr a -> ~ I i a) -> frame I s s' -> keeps skew i s s'.
  Proof.
    intros HI (_&_&_&_&_&[HL H]) Hw e' He'. destruct (RING s !! i) as [e|] eqn:E.
    - apply (ewithin_agree skew e); [|by apply Hw]. intros a Ha. apply (H i e e'); auto.
    - apply lookup_ge_None in E. apply lookup_lt_Some in He'. lia.
  Qed.
  Lemma cm_not_der a : cmattr a -> ~ der a.
  Proof. unfold cmattr, der, DERIVED. rewrite !elem_of_cons, !elem_of_nil. intros H H'. naive_solver. Qed.
  Lemma update_magnets_keeps skew i ords : pres (keeps skew i) (update_magnets ords).
  Proof.
    intros s. eapply frame_keeps; [|apply update_magnets_frame]. simpl. intros a Ha [Hd _]. by apply (cm_not_der a).
  Qed.
  (** setting a corrector establishes the bound, in its plane, and keeps it in the other *)
  Lemma set_cm_one_within skew' skew method dt x (e : elem R) :
    ewithin skew e -> ewithin skew (snd (set_cm_one skew' method dt x e)).
  Proof.
    intros Hw. rewrite set_cm_one_spec. destruct (cm_new skew' method dt x e) as [l|] eqn:E; [|done]. simpl.
    destruct (decide (skew' = skew)) as [->|Hne].
    - apply reading_cm_new in E as (p&nb&x1&x2&_&_&_&_&_&_&Hc&Hr). intros v lm Hv Hl. rewrite Hr in Hv. injection Hv as <-.
      eapply clip_cm_bound; [exact Hc|]. rewrite <- Hl. unfold elim. rewrite lookup_insert_ne; [done|by destruct skew].
    - intros v lm Hv Hl. apply (Hw v lm).
      + rewrite <- Hv. unfold reading, attr_vec, attr. rewrite lookup_insert_ne by (by destruct skew, skew').
        rewrite (norm_by_agree skew e (<[SP skew' := VVec l]> e)); [done| |]; apply lookup_insert_ne; by destruct skew'.
      + rewrite <- Hl. unfold elim. rewrite lookup_insert_ne; [done|by destruct skew'].
  Qed.
  Lemma set_cm_one_gives skew method dt x (e : elem R) u e' : set_cm_one skew method dt x e = (Ok u, e') -> ewithin skew e'.
  Proof.
    intros H. apply set_cm_one_ok in H as (l&E&->).
    apply reading_cm_new in E as (p&nb&x1&x2&_&_&_&_&_&_&Hc&Hr). intros v lm Hv Hl. rewrite Hr in Hv. injection Hv as <-.
    eapply clip_cm_bound; [exact Hc|]. rewrite <- Hl. unfold elim. rewrite lookup_insert_ne; [done|by destruct skew].
  Qed.
  Lemma on_elem_keeps skew i j (m : M (elem R) unit) :
    (forall e, ewithin skew e -> ewithin skew (snd (m e))) -> pres (keeps skew i) (on_elem j m).
  Proof.
    intros H s Hw e' He'. unfold on_elem in He'. destruct (RING s !! j) as [e|] eqn:E; [|by apply Hw].
    specialize (H e). destruct (m e) as [r e1] eqn:Em. simpl in *. destruct (decide (j = i)) as [->|Hne].
    - rewrite list_lookup_insert in He' by (by eapply lookup_lt_Some). simplify_eq. apply H. by apply Hw.
    - rewrite list_lookup_insert_ne in He' by done. by apply Hw.
  Qed.
  Lemma set_cm_keeps skew i ords dt sps skew' method : pres (keeps skew i) (set_cm_setpoints ords dt sps skew' method).
  Proof.
    unfold set_cm_setpoints. apply pres_bind; [exact _|apply pres_lift; exact _|]. intros l.
    apply pres_bind; [exact _| |intros _; apply update_magnets_keeps].
    apply pres_forM; [exact _|]. intros p _. apply on_elem_keeps. intros e. apply set_cm_one_within.
  Qed.
  Lemma forM_cm_gives (l : list (nat * R)) skew method dt s s' i :
    forM l (fun p => on_elem p.1 (set_cm_one skew method dt p.2)) s = (Ok tt, s') -> i ∈ l.*1 -> within skew i s'.
  Proof.
    revert s. induction l as [|[j x] l IH]; intros s H Hi; [inversion Hi|].
    simpl in H. apply bind_ok in H as (u1&s1&H1&H). destruct (decide (i ∈ l.*1)) as [Hin|Hnin]; [eauto|].
    simpl in Hi. apply elem_of_cons in Hi as [->|Hi]; [|done]. clear IH Hnin.
    assert (within skew j s1) as Hw.
    { apply on_elem_ok in H1 as (e&e1&He&Hs&->). intros e2 He2. simpl in He2.
      rewrite list_lookup_insert in He2 by (by eapply lookup_lt_Some). simplify_eq. by eapply set_cm_one_gives. }
    assert (pres (keeps skew j) (forM l (fun p => on_elem p.1 (set_cm_one skew method dt p.2)))) as P.
    { apply pres_forM; [exact _|]. intros p _. apply on_elem_keeps. intros e. apply set_cm_one_within. }
    specialize (P s1 Hw). by rewrite H in P.
  Qed.
  Lemma set_cm_within ords dt sps skew method s u s' i :
    set_cm_setpoints ords dt sps skew method s = (Ok u, s') -> i ∈ ords -> within skew i s'.
  Proof.
    intros H Hi. apply set_cm_ok in H as (l&s1&Hl&H1&H2).
    apply check_input_ok in Hl as (_&HL&_).
    eapply forM_cm_gives in H1; [|rewrite zip_fst by done; exact Hi].
    pose proof (update_magnets_keeps skew i ords s1 H1) as P. by rewrite H2 in P.
  Qed.
  (** magnet set-points of any order but the dipole one *)
  Lemma set_sp_entry_within skew skew' order x (e : elem R) : order <> 0%nat ->
    ewithin skew e -> ewithin skew (snd (set_sp_entry (SP skew') order x e)).
  Proof.
    intros Ho Hw. unfold set_sp_entry. rewrite run_getm. destruct (attr_vec e (SP skew')) as [sp|] eqn:E; [|done].
    rewrite run_lift. destruct (idx_set sp order x) as [sp'|] eqn:E2; [|done]. minv E2. minv E. simpl.
    intros v lm Hv Hl. apply (Hw v lm).
    - apply reading_ok in Hv as (spv&p&nb&H1&H2&H3&->). rewrite (norm_by_agree skew e (<[SP skew' := VVec (<[order := x]> sp)]> e)) in H3
        by (apply lookup_insert_ne; by destruct skew').
      apply reading_ok. destruct (decide (skew = skew')) as [->|].
      + rewrite lookup_insert in H1. simplify_eq. rewrite list_lookup_insert_ne in H2 by done. eauto 10.
      + rewrite lookup_insert_ne in H1 by (by destruct skew, skew'). eauto 10.
    - rewrite <- Hl. unfold elim. rewrite lookup_insert_ne; [done|by destruct skew'].
  Qed.
  Lemma set_magnet_keeps skew i ords dt sps skew' order method dc : order <> 0%nat ->
    pres (keeps skew i) (set_magnet_setpoints ords dt sps skew' order method dc).
  Proof.
    intros Ho. unfold set_magnet_setpoints, set_magnet_one, dipole_compensation.
    repeat first [ pres_step | apply pres_ring_elem; exact _ | apply update_magnets_keeps | apply set_cm_keeps
                 | apply on_elem_keeps; intros e; by apply set_sp_entry_within ].
  Qed.
  Lemma cmattr_not_geom i a : cmattr a -> ~ geom i a.
  Proof. unfold cmattr, geom, GEOM. rewrite !elem_of_cons, !elem_of_nil. intros H H'. naive_solver. Qed.
  Lemma cmattr_not_rf a : cmattr a -> a ∉ RF_PROPERTIES.
  Proof. unfold cmattr, RF_PROPERTIES. rewrite !elem_of_cons, !elem_of_nil. intros H H'. naive_solver. Qed.
  Lemma set_cavity_keeps skew i ords dt sps param method : pres (keeps skew i) (set_cavity_setpoints ords dt sps param method).
  Proof.
    eapply pres_weaken; [|apply pres_set_cavity]. intros s s'. apply frame_keeps.
    intros a Ha [Hc|Hc]; [|by apply (cmattr_not_rf a)]. symmetry in Hc. apply last_app_SetPoint in Hc.
    unfold cmattr in Ha. rewrite !elem_of_cons, elem_of_nil in Ha. naive_solver.
  Qed.
  Lemma update_cavities_keeps skew i ords : pres (keeps skew i) (update_cavities ords).
  Proof.
    eapply pres_weaken; [|apply pres_update_cavities]. intros s s'. apply frame_keeps. intros a Ha Hr. by apply (cmattr_not_rf a).
  Qed.
  Lemma update_supports_keeps minv skew i b m : pres (keeps skew i) (update_supports minv b m).
  Proof.
    eapply pres_weaken; [|apply pres_update_supports]. intros s s'. apply frame_keeps. intros a Ha Hr. by apply (cmattr_not_geom i a).
  Qed.
  Lemma trackMode_keeps skew i mode : pres (keeps skew i) (on_INJ (set_trackMode mode)).
  Proof.
    intros s Hw e He. pose proof (pres_trackMode (fun _ _ => False) mode s) as H. unfold same in H. rewrite H in He. auto.
  Qed.
End Within.
