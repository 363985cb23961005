(** Properties C15, C16: integer set-points, skew-quadrupole limits. *)
From Coq Require Import Reals Lra QArith.
From stdpp Require Import base gmap strings list.
From Verif Require Import Num Base Model_Arr Model_SC Model_Err Lemmas Proofs_Update Proofs_Setpoint Spec Proofs_CM Proofs_CM2
  Proofs_Loop Proofs_Loop2 Examples Properties_Setpoint Properties_Setpoint2 Properties_Setpoint3.
Local Open Scope string_scope.
Local Open Scope list_scope.

(** * C15 *)
Lemma ntrunc_towards (x : R) : ntrunc x = towards_zero x.
Proof.
  unfold ntrunc, towards_zero. num_R. cbn [nfloor NumR]. destruct (Rltb x 0) eqn:E.
  - apply Rltb_true in E. by destruct (Rlt_dec x 0).
  - apply Rltb_false in E. destruct (Rlt_dec x 0); [lra|done].
Qed.
(** what is stored for an integer array: towards zero, also after clipping *)
Definition clipped_int (limit : option R) (x : R) : R :=
  match limit with
  | None => x
  | Some l => if Rle_dec (Rabs x) (Rabs l) then x else towards_zero (sign x * l)
  end.
Theorem C15_corrector_integers_truncated i x skew method (s s' : sc R) v :
  get_cm_setpoints [i] skew s = Ok [v] ->
  set_cm_setpoints [i] DInt [x] skew method s = (Ok tt, s') ->
  (method = "add" -> get_cm_setpoints [i] skew s' = Ok [clipped_int (cm_limit s i skew) (towards_zero (v + x))]) /\
  (method = "rel" -> get_cm_setpoints [i] skew s' = Ok [clipped_int (cm_limit s i skew) (towards_zero (x * v))]) /\
  (method = "abs" -> get_cm_setpoints [i] skew s' = Ok [clipped_int (cm_limit s i skew) x]).
Proof.
  intros Hv H. apply cm_step_reading in H as (v'&x1&x2&Hv'&Hadd&Hrel&Habs&(Hc1&Hc2&Hc3)&Hr&_). assert (v' = v) as -> by congruence.
  assert (x2 = clipped_int (cm_limit s i skew) x1) as ->.
  { unfold clipped_int. destruct (cm_limit s i skew) as [l|]; [|auto]. destruct (Rle_dec (Rabs x1) (Rabs l)); [by apply (Hc1 l)|].
    rewrite <- ntrunc_towards. apply (Hc2 l); [done|lra]. }
  rewrite Hr. cbn [store] in *. split; [|split]; intros E.
  - rewrite (Hadd E), ntrunc_towards. by rewrite Rplus_comm.
  - by rewrite (Hrel E), ntrunc_towards.
  - by rewrite (Habs E).
Qed.
(** a corrector at 0.7 plus the integer 0 becomes 0 *)
Corollary C15_finding_adding_integer_zero i skew (s s' : sc R) :
  get_cm_setpoints [i] skew s = Ok [(7 / 10)%R] ->
  set_cm_setpoints [i] DInt [0%R] skew "add" s = (Ok tt, s') ->
  get_cm_setpoints [i] skew s' = Ok [0%R].
Proof.
  intros Hv H. destruct (C15_corrector_integers_truncated _ _ _ _ _ _ _ Hv H) as (Ha&_). rewrite (Ha eq_refl).
  assert (towards_zero (7 / 10 + 0) = 0%R) as ->.
  { unfold towards_zero. destruct (Rlt_dec _ _); [lra|]. rewrite Rplus_0_r.
    assert (Int_part (7 / 10) = 0%Z) as ->; [|done]. unfold Int_part. rewrite <- (tech_up (7 / 10) 1); [done|lra|lra]. }
  unfold clipped_int. destruct (cm_limit s i skew) as [l|]; [|done]. destruct (Rle_dec _ _) as [|n]; [done|].
  exfalso. apply n. rewrite Rabs_R0. apply Rabs_pos.
Qed.
Section C15gen.
  Context {T : Type} {N : Num T}.
  (** every component to be read is there *)
  Definition all_present (s : sc T) (ords : list nat) (a : string) (k : nat) : Prop := forall i, i ∈ ords -> is_Some (entry s i a k).
  Definition all_numbers (s : sc T) (ords : list nat) (a : string) : Prop := forall i, i ∈ ords -> is_Some (number s i a).
  Lemma field_values_present a k ords (s : sc T) : all_present s ords a k -> exists l, field_values a k ords s = Ok l.
  Proof.
    induction ords as [|i ords IH]; intros H; [by eexists|]. destruct IH as [l Hl]; [intros j Hj; apply H; by right|].
    destruct (H i) as [x Hx]; [left|]. exists (x :: l). apply rmap_ok. constructor; [|by apply rmap_ok].
    unfold entry, attr_at in Hx. destruct (RING s !! i) as [e|] eqn:E; [|done]. simpl in Hx. apply rbind_ok. exists e. split; [by apply idx_ok|].
    destruct (e !! a) as [[]|] eqn:Ea; try done. apply rbind_ok. eexists. split; [by apply attr_vec_ok|]. by apply idx_ok.
  Qed.
  Lemma field_nums_present a ords (s : sc T) : all_numbers s ords a -> exists l, field_nums a ords s = Ok l.
  Proof.
    induction ords as [|i ords IH]; intros H; [by eexists|]. destruct IH as [l Hl]; [intros j Hj; apply H; by right|].
    destruct (H i) as [x Hx]; [left|]. exists (x :: l). apply rmap_ok. constructor; [|by apply rmap_ok].
    unfold number, attr_at in Hx. destruct (RING s !! i) as [e|] eqn:E; [|done]. simpl in Hx. apply rbind_ok. exists e. split; [by apply idx_ok|].
    destruct (e !! a) as [[]|] eqn:Ea; try done. apply attr_num_ok. congruence.
  Qed.
  Theorem C15_magnet_cavity_integers_rejected ords (sps : list T) method (s : sc T) :
    method = "add" \/ method = "rel" -> length sps = 1%nat \/ length sps = length ords ->
    (forall skew order dc, (exists er, set_magnet_setpoints ords DInt sps skew order method dc s = (Err er, s)) /\
       (all_present s ords (if decide (method = "rel") then nominal_name skew else setpoint_name skew) order ->
        set_magnet_setpoints ords DInt sps skew order method dc s = (Err TypeError, s))) /\
    (forall param, (exists er, set_cavity_setpoints ords DInt sps param method s = (Err er, s)) /\
       (all_numbers s ords (param +:+ "SetPoint") -> set_cavity_setpoints ords DInt sps param method s = (Err TypeError, s))).
  Proof.
    intros Hm HL.
    assert (exists l, check_input_and_setpoints method ords sps = Ok l) as [l Hl].
    { unfold check_input_and_setpoints. rewrite decide_True by (destruct Hm as [-> | ->]; [right; right; left|right; left]).
      destruct HL as [E|E]; rewrite (proj2 (Nat.eqb_eq _ _) E), ?orb_true_r; eauto. }
    split.
    - intros skew order dc. unfold set_magnet_setpoints, bind, get, lift, magnet_targets. rewrite Hl. cbn [rbind].
      destruct Hm as [-> | ->]; simpl.
      + split.
        * destruct (field_values _ _ _ _); simpl; eauto.
        * intros Hp. rewrite SP_name. apply field_values_present in Hp as [l' ->]. done.
      + split.
        * destruct (field_values _ _ _ _); simpl; eauto.
        * intros Hp. apply field_values_present in Hp as [l' Hp']. rewrite <- NOM_name in Hp'. simpl in Hp'. by rewrite Hp'.
    - intros param. unfold set_cavity_setpoints, bind, get, lift, cavity_targets. rewrite Hl. cbn [rbind].
      destruct Hm as [-> | ->]; simpl; (split; [destruct (field_nums _ _ _); simpl; eauto|]);
        intros Hp; apply field_nums_present in Hp as [l' ->]; done.
  Qed.
  Lemma forM_ext_inv {S A} (P : S -> Prop) (l : list A) (f g : A -> M S unit) :
    (forall x s, x ∈ l -> P s -> f x s = g x s) -> (forall x s, x ∈ l -> P s -> P (snd (f x s))) ->
    forall s, P s -> forM l f s = forM l g s.
  Proof.
    induction l as [|x l IH]; intros He Hp s Hs; [done|]. simpl. unfold bind. rewrite <- (He x s) by (done || left).
    pose proof (Hp x s ltac:(left) Hs) as Hs'. destruct (f x s) as [[a|er] s']; [|done]. simpl in Hs'.
    apply IH; [| |done]; intros y t Hy Ht; [apply He|apply Hp]; try done; by right.
  Qed.
End C15gen.
Section MagnetFrame.
  Context {T : Type} {N : Num T}.
  Definition spI (_ : nat) (a : string) : Prop := a = "SetPointA" \/ a = "SetPointB" \/ der a.
  Lemma spI_SP i skew : spI i (SP skew).
  Proof. destruct skew; [by left|by right; left]. Qed.
  Lemma pres_update_magnets_spI ords : pres (@frame T spI) (update_magnets ords).
  Proof. intros s. eapply frame_mono; [|apply update_magnets_frame]. intros i a [? _]. by right; right. Qed.
  Lemma pres_set_cm_spI ords dt sps skew method : pres (@frame T spI) (set_cm_setpoints ords dt sps skew method).
  Proof. intros s. eapply frame_mono; [|apply set_cm_frame]. intros i a [[-> _]|[? _]]; [apply spI_SP|by right; right]. Qed.
  Lemma pres_set_sp_entry skew order (x : T) : pres (eagree (spE skew)) (set_sp_entry (SP skew) order x).
  Proof.
    intros e a Ha. unfold set_sp_entry. rewrite run_getm. destruct (attr_vec _ _); [|done]. rewrite run_lift. destruct (idx_set _ _ _); [|done].
    simpl. apply lookup_insert_ne. intros <-. by apply Ha.
  Qed.
  Lemma pres_set_magnet_one skew order dt dc i (x : T) : pres (@frame T spI) (set_magnet_one skew order dt dc i x).
  Proof.
    unfold set_magnet_one, dipole_compensation.
    repeat first [ pres_step | apply pres_ring_elem; exact _ | apply pres_set_cm_spI
                 | apply pres_on_elem_frame; eapply pres_weaken; [|apply pres_set_sp_entry]; intros e e' Hag b Hb; apply Hag; intros ->; apply Hb, spI_SP ].
  Qed.
  Lemma pres_set_magnet ords dt sps skew order method dc : pres (@frame T spI) (set_magnet_setpoints ords dt sps skew order method dc).
  Proof.
    unfold set_magnet_setpoints.
    repeat first [ pres_step | apply pres_set_magnet_one | apply pres_update_magnets_spI ].
  Qed.
  Lemma set_magnet_run ords dt sps skew order method dc (s : sc T) :
    set_magnet_setpoints ords dt sps skew order method dc s =
    match magnet_targets ords dt sps skew order method s with
    | Ok l => bind (forM (zip ords l) (fun p => set_magnet_one skew order dt dc p.1 p.2)) (fun _ => update_magnets ords) s
    | Err x => (Err x, s)
    end.
  Proof. unfold set_magnet_setpoints. rewrite run_eq. cbn [get]. by rewrite run_lift. Qed.
  Lemma set_magnet_one_run skew order dt dc i x (s : sc T) :
    set_magnet_one skew order dt dc i x s =
    match RING s !! i with
    | None => (Err IndexError, s)
    | Some e => match clip_skew skew order dt e x with
                | Ok x1 => bind (when (dc && (order =? 1)%nat) (dipole_compensation i x1)) (fun _ => on_elem i (set_sp_entry (SP skew) order x1)) s
                | Err er => (Err er, s)
                end
    end.
  Proof. unfold set_magnet_one. rewrite run_eq. unfold ring_elem, idx. destruct (RING s !! i); [|done]. by rewrite run_lift. Qed.
End MagnetFrame.
(** with 'abs' and requests within the limits integers behave as the equal floats *)
Theorem C15_abs_within_limits ords sps (s : sc R) : length sps = length ords ->
  (forall skew, (forall i x, (i, x) ∈ zip ords sps -> allows (cm_limit s i skew) x) ->
     set_cm_setpoints ords DInt sps skew "abs" s = set_cm_setpoints ords DFloat sps skew "abs" s) /\
  (forall skew order dc,
     (forall i x l, skew = true -> order = 1%nat -> (i, x) ∈ zip ords sps -> skew_limit s i = Some l -> (Rabs x <= l)%R) ->
     set_magnet_setpoints ords DInt sps skew order "abs" dc s = set_magnet_setpoints ords DFloat sps skew order "abs" dc s) /\
  (forall param, set_cavity_setpoints ords DInt sps param "abs" s = set_cavity_setpoints ords DFloat sps param "abs" s).
Proof.
  intros HL. split; [|split].
  - intros skew Hx. unfold set_cm_setpoints. rewrite !run_lift, check_input_full by (done || left).
    unfold bind.
    set (P := fun t : sc R => forall i, cm_limit t i skew = cm_limit s i skew).
    rewrite (forM_ext_inv P _ _ (fun p => on_elem p.1 (set_cm_one skew "abs" DFloat p.2))); [done| | |done].
    + intros [i x] t Hp Ht. simpl. unfold on_elem. destruct (RING t !! i) as [e|] eqn:E; [|done].
      assert (set_cm_one skew "abs" DInt x e = set_cm_one skew "abs" DFloat x e) as ->; [|done].
      rewrite !set_cm_one_spec. assert (cm_new skew "abs" DInt x e = cm_new skew "abs" DFloat x e) as ->; [|done].
      unfold cm_new. destruct (norm_by skew e); [|done]. cbn [rbind]. unfold cm_target. cbn [rbind]. simpl.
      assert (clip_cm skew DInt e x = clip_cm skew DFloat e x) as ->; [|done].
      specialize (Hx i x Hp). rewrite <- (Ht i), (cm_limit_elim t i e) in Hx by done. unfold elim in Hx. unfold clip_cm.
      destruct (e !! "CMlimit") as [[]|]; try done. simpl. unfold idx. destruct (l !! _) as [[y|]|]; try done. simpl in *. num_R.
      destruct (Rltb (Rabs y) (Rabs x)) eqn:El; [|done]. apply Rltb_true in El. lra.
    + intros [i x] t Hp Ht j. simpl. rewrite <- (Ht j).
      assert (frame (fun _ a => a = SP skew) t (snd (on_elem i (set_cm_one skew "abs" DInt x) t))) as F.
      { apply (pres_on_elem_frame (fun _ a => a = SP skew)). apply pres_set_cm_one. }
      unfold cm_limit. rewrite !attr_at_aget, (frame_aget _ _ _ _ _ F); [done|]. by destruct skew.
  - intros skew order dc Hx. rewrite !set_magnet_run. unfold magnet_targets. rewrite check_input_full by (done || left).
    cbn [rbind]. rewrite !decide_False by done. unfold bind.
    set (P := fun t : sc R => forall i, skew_limit t i = skew_limit s i).
    rewrite (forM_ext_inv P _ _ (fun p => set_magnet_one skew order DFloat dc p.1 p.2)); [done| | |done].
    + intros [i x] t Hp Ht. simpl. rewrite !set_magnet_one_run. destruct (RING t !! i) as [e|] eqn:E; [|done].
      assert (clip_skew skew order DInt e x = clip_skew skew order DFloat e x) as ->; [|done].
      unfold clip_skew. destruct skew; [|done]. simpl. destruct (order =? 1)%nat eqn:Eo; [|done]. apply Nat.eqb_eq in Eo.
      specialize (Hx i x). rewrite <- (Ht i) in Hx. unfold skew_limit, attr_at in Hx. rewrite E in Hx. simpl in Hx.
      destruct (e !! "SkewQuadLimit") as [[]|]; try done. simpl. destruct l as [y|]; [|done]. num_R.
      destruct (Rltb y (Rabs x)) eqn:El; [|done]. apply Rltb_true in El. specialize (Hx y eq_refl Eo Hp eq_refl). lra.
    + intros [i x] t Hp Ht j. rewrite <- (Ht j).
      assert (frame (fun _ a => a = "SetPointA" \/ a = "SetPointB" \/ der a) t (snd (set_magnet_one skew order DInt dc i x t))) as F.
      { apply pres_set_magnet_one. }
      unfold skew_limit. rewrite !attr_at_aget. simpl. rewrite (frame_aget _ _ _ _ _ F); [done|]. intros [?|[?|Hd]]; [done|done|]. by apply not_der in Hd.
  - intros param. unfold set_cavity_setpoints, cavity_targets. unfold get, bind, lift. simpl. by destruct (check_input_and_setpoints _ _ _).
Qed.

(** * C16 *)
Section OneMagnet.
  Context {T : Type} {N : Num T}.
  Definition oneI (j : nat) (k : nat) (a : string) : Prop := (k = j /\ (a = "SetPointA" \/ a = "SetPointB")) \/ der a.
  Lemma oneI_SP j skew : oneI j j (SP skew).
  Proof. left. split; [done|]. destruct skew; auto. Qed.
  Lemma pres_one_magnet skew order dt dc j (x : T) : pres (@frame T (oneI j)) (set_magnet_one skew order dt dc j x).
  Proof.
    unfold set_magnet_one, dipole_compensation.
    repeat first [ pres_step | apply pres_ring_elem; exact _
                 | intros s; eapply frame_mono; [|apply set_cm_frame]; intros k b [[-> Hk]|[? _]];
                   [apply elem_of_list_singleton in Hk as ->; apply oneI_SP|by right]
                 | apply pres_on_elem_frame; eapply pres_weaken; [|apply pres_set_sp_entry]; intros e e' Hag b Hb; apply Hag; intros ->; apply Hb, oneI_SP ].
  Qed.
  Lemma aget_some (r : list (elem T)) i e a : r !! i = Some e -> aget r i a = e !! a.
  Proof. intros H. unfold aget. by rewrite H. Qed.
  Lemma clip_skew_frame skew order dt (s s' : sc T) i e e' x :
    frame spI s s' -> RING s !! i = Some e -> RING s' !! i = Some e' -> clip_skew skew order dt e' x = clip_skew skew order dt e x.
  Proof.
    intros F He He'. unfold clip_skew. pose proof (frame_aget _ _ _ i "SkewQuadLimit" F) as Hg.
    rewrite (aget_some _ _ _ _ He), (aget_some _ _ _ _ He') in Hg. rewrite Hg; [done|].
    intros [?|[?|Hd]]; [done|done|]. by apply not_der in Hd.
  Qed.
  Lemma set_magnet_ones_entry skew order dt dc (l : list (nat * T)) (s s' : sc T) i z e :
    forM l (fun p => set_magnet_one skew order dt dc p.1 p.2) s = (Ok tt, s') -> RING s !! i = Some e ->
    last (addressed i l) = Some z -> exists x1, clip_skew skew order dt e z = Ok x1 /\ entry s' i (SP skew) order = Some x1.
  Proof.
    revert s'. induction l as [|[j y] l IH] using rev_ind; intros s' H He Hz; [done|].
    rewrite forM_app in H. apply bind_ok in H as ([]&t&H1&H2). simpl in H2. apply bind_ok in H2 as ([]&t'&H2&Hr). minv Hr.
    assert (frame spI s t) as Ft.
    { pose proof (pres_forM (@frame T spI) l (fun p => set_magnet_one skew order dt dc p.1 p.2)) as P.
      specialize (P ltac:(intros; apply pres_set_magnet_one) s). by rewrite H1 in P. }
    destruct (decide (j = i)) as [->|Hne].
    - assert (z = y) as ->.
      { unfold addressed in Hz. rewrite filter_app in Hz. rewrite filter_cons in Hz. simpl in Hz. rewrite decide_True in Hz by done.
        rewrite fmap_app in Hz. simpl in Hz. rewrite last_snoc in Hz. congruence. }
      rewrite set_magnet_one_run in H2. destruct (RING t !! i) as [et|] eqn:Et; [|done].
      rewrite (clip_skew_frame skew order dt s t i e et) in H2 by done.
      destruct (clip_skew skew order dt e y) as [x1|] eqn:Ec; [|done]. exists x1. split; [done|].
      apply bind_ok in H2 as ([]&t2&_&H2). apply on_elem_ok in H2 as (e2&e3&He2&H2&->). unfold entry, attr_at. simpl.
      rewrite list_lookup_insert by (by eapply lookup_lt_Some). simpl. unfold set_sp_entry in H2. rewrite run_getm in H2.
      destruct (attr_vec e2 (SP skew)) as [sp|]; [|done]. rewrite run_lift in H2. destruct (idx_set sp order x1) as [sp'|] eqn:Ei; [|done].
      apply idx_set_ok in Ei as [Hlt ->]. apply setattr_ok in H2 as ->. rewrite lookup_insert. by apply list_lookup_insert.
    - assert (last (addressed i l) = Some z) as Hz'.
      { unfold addressed in *. rewrite filter_app in Hz. rewrite filter_cons in Hz. simpl in Hz. rewrite decide_False in Hz by done.
        by rewrite app_nil_r in Hz. }
      destruct (IH t H1 He Hz') as (x1&Hc&Hx). exists x1. split; [done|]. rewrite <- Hx.
      pose proof (pres_one_magnet skew order dt dc j y t) as F. rewrite H2 in F. unfold entry. rewrite !attr_at_aget. simpl in F.
      rewrite (frame_aget _ _ _ _ _ F); [done|]. intros [[? _]|Hd]; [congruence|]. by apply SP_not_der in Hd.
  Qed.
  Lemma set_magnet_entry ords dt sps skew order method dc (s s' : sc T) i x :
    set_magnet_setpoints ords dt sps skew order method dc s = (Ok tt, s') -> length sps = length ords ->
    last (values_for i ords sps) = Some x ->
    exists e z x1, RING s !! i = Some e /\ clip_skew skew order dt e z = Ok x1 /\ entry s' i (SP skew) order = Some x1 /\
      (method = ABS -> z = x) /\
      (method = REL -> exists n, entry s i ("NomPolynom" +:+ letter skew) order = Some n /\ z = nmul x n) /\
      (method = ADD -> exists o, entry s i (SP skew) order = Some o /\ z = nadd x o) /\ method ∈ SETTING_METHODS.
  Proof.
    intros H HL Hx. pose proof (values_for_last_in _ _ _ _ Hx) as Hi. rewrite set_magnet_run in H.
    destruct (magnet_targets ords dt sps skew order method s) as [l|] eqn:Hl; [|done].
    apply bind_ok in H as ([]&s1&Hf&Hu). destruct (magnet_targets_for _ _ _ _ _ _ _ _ i Hl HL Hi) as (f&Hv&Habs&Hrel&Hadd).
    assert (is_Some (RING s !! i)) as [e He].
    { destruct (RING s !! i) eqn:E; [done|]. exfalso. pose proof (magnet_targets_ok _ _ _ _ _ _ _ _ Hl) as (HLl&_).
      destruct (in_zip_fst ords l i HLl Hi) as [y Hy]. clear - Hf Hy E.
      revert s E Hf. induction (zip ords l) as [|[j z] q IH]; intros s E Hf; [inversion Hy|].
      apply bind_ok in Hf as ([]&t&H1&H2). pose proof (pres_set_magnet_one skew order dt dc j z s) as F. simpl in H1. rewrite H1 in F.
      destruct F as (_&_&_&_&_&[HL _]). simpl in HL. apply elem_of_cons in Hy as [Hy|Hy].
      - injection Hy as <- <-. rewrite set_magnet_one_run, E in H1. done.
      - apply (IH Hy t); [|done]. apply lookup_ge_None in E. apply lookup_ge_None. lia. }
    destruct (set_magnet_ones_entry _ _ _ _ _ _ _ i (f x) e Hf He) as (x1&Hc&Hx1).
    { rewrite addressed_values, Hv, fmap_last, Hx. done. }
    exists e, (f x), x1. split; [done|]. split; [done|]. split.
    { rewrite <- Hx1. eapply update_magnets_entry; [done|apply SP_not_der]. }
    split; [auto|]. split; [|split].
    - intros E. destruct (Hrel E) as (n&Hn&Hf'). eauto.
    - intros E. destruct (Hadd E) as (n&Hn&Hf'). eauto.
    - apply magnet_targets_ok in Hl. tauto.
  Qed.
End OneMagnet.
(** C12 also holds with dipole compensation *)
Theorem C12_meaning_with_compensation ords sps skew order method dc (s s' : sc R) i x :
  set_magnet_setpoints ords DFloat sps skew order method dc s = (Ok tt, s') -> length sps = length ords ->
  last (values_for i ords sps) = Some x ->
  exists y, magnet_request method s i skew order x = Some y /\
    entry s' i (setpoint_name skew) order = Some (limited s i skew order y).
Proof.
  intros H HL Hx. destruct (set_magnet_entry _ _ _ _ _ _ _ _ _ _ _ H HL Hx) as (e&z&x1&He&Hc&Hen&Ha&Hr&Hd&Hm).
  exists z. rewrite <- SP_name. rewrite Hen. apply (clip_skew_R _ _ s i) in Hc; [|done]. subst x1. split; [|done].
  unfold magnet_request. apply elem_of_cons in Hm as [->|Hm]; [|apply elem_of_cons in Hm as [->|Hm]; [|apply elem_of_list_singleton in Hm as ->]].
  - rewrite decide_True by done. by rewrite Ha.
  - rewrite decide_False, decide_True by done. destruct (Hr eq_refl) as (n&Hn&->). rewrite NOM_name in Hn. by rewrite Hn.
  - rewrite !decide_False, decide_True by done. destruct (Hd eq_refl) as (n&Hn&->). rewrite SP_name in Hn. rewrite Hn. simpl. f_equal. num_R. lra.
Qed.
Lemma clip_skew_bound dt (e : elem R) x y l : clip_skew true 1 dt e x = Ok y -> e !! "SkewQuadLimit" = Some (VLim (Fin l)) -> (0 <= l)%R -> (Rabs y <= l)%R.
Proof.
  unfold clip_skew. simpl. intros H E Hl. rewrite E in H. simpl in H. injection H as <-. num_R.
  destruct (Rltb l (Rabs x)) eqn:El; [|by apply Rltb_false in El].
  eapply Rle_trans; [apply store_abs|]. rewrite Rabs_mult, nsign_sign. rewrite (Rabs_right l) by lra.
  pose proof (sign_abs x). rewrite <- (Rmult_1_l l) at 2. by apply Rmult_le_compat_r.
Qed.
Theorem C16_skew_limit_respected ords dt sps method dc (s s' : sc R) i l :
  set_magnet_setpoints ords dt sps true 1 method dc s = (Ok tt, s') -> length sps = length ords ->
  i ∈ ords -> skew_limit s i = Some l -> (0 <= l)%R ->
  exists v, entry s' i "SetPointA" 1 = Some v /\ (Rabs v <= l)%R.
Proof.
  intros H HL Hi Hl Hpos. pose proof (values_for_in i ords sps Hi HL) as Hne.
  destruct (last (values_for i ords sps)) as [x|] eqn:Hx; [|by apply last_None in Hx].
  destruct (set_magnet_entry _ _ _ _ _ _ _ _ _ _ _ H HL Hx) as (e&z&x1&He&Hc&Hen&_).
  exists x1. split; [exact Hen|]. eapply clip_skew_bound; [exact Hc| |done].
  unfold skew_limit, attr_at in Hl. rewrite He in Hl. simpl in Hl. destruct (e !! "SkewQuadLimit") as [[]|]; try discriminate. destruct l0; try discriminate. by injection Hl as ->.
Qed.
(** requests within the limit, magnets without a limit, normal components and other orders are stored as requested *)
Theorem C16_not_clipped ords sps skew order method dc (s s' : sc R) i x y :
  set_magnet_setpoints ords DFloat sps skew order method dc s = (Ok tt, s') -> length sps = length ords ->
  last (values_for i ords sps) = Some x -> magnet_request method s i skew order x = Some y ->
  skew = false \/ order <> 1%nat \/ skew_limit s i = None \/ (exists l, skew_limit s i = Some l /\ (Rabs y <= l)%R) ->
  entry s' i (setpoint_name skew) order = Some y.
Proof.
  intros H HL Hx Hy Hc. destruct (C12_meaning_with_compensation _ _ _ _ _ _ _ _ _ _ H HL Hx) as (y'&Hy'&He).
  assert (y' = y) as -> by congruence. rewrite He. f_equal. unfold limited. destruct skew; [|done].
  destruct order as [|[|n]]; try done. destruct Hc as [?|[?|[E|(l&E&Hle)]]]; [done|done|by rewrite E|]. rewrite E.
  unfold clipped_skew. by destruct (Rle_dec _ _).
Qed.
(** A negative limit is not a bound (it is taken with its sign). *)
Theorem C16_finding_negative_limit :
  let s := snd (register_magnets [1%nat] [] (MkType None None false (Some (Fin (num (-1)))) None) (ex_sc : sc Q)) in
  let r := set_magnet_setpoints [1%nat] DFloat [(1 # 2)%Q] true 1 "abs" false s in
  skew_limit s 1 = Some (-1)%Q /\ fst r = Ok tt /\ entry (snd r) 1 "SetPointA" 1 = Some (-1)%Q.
Proof. vm_compute. auto. Qed.

(** * Examples *)
Example C15_example :
  let s := snd (set_cm_setpoints [1; 2]%nat DFloat [(7 # 10)%Q; (-7 # 10)%Q] false "abs" (two_cms : sc Q)) in
  let a := set_cm_setpoints [1; 2]%nat DInt [0%Q; (-1)%Q] false "add" s in
  fst a = Ok tt /\ get_cm_setpoints [1; 2]%nat false (snd a) = Ok [0%Q; (-1)%Q] /\
  fst (set_magnet_setpoints [1%nat] DInt [2%Q] false 1 "add" false s) = Err TypeError /\
  fst (set_magnet_setpoints [1%nat] DInt [2%Q] false 1 "abs" false s) = Ok tt /\
  fst (set_cavity_setpoints [4%nat] DInt [2%Q] "Voltage" "rel" (sp_machine : sc Q)) = Err TypeError.
Proof. vm_compute. repeat split. Qed.
Example C16_example :
  let s := sp_machine : sc Q in
  let a := set_magnet_setpoints [1; 5]%nat DFloat [9%Q; 1%Q] true 1 "add" true s in
  let b := set_magnet_setpoints [1%nat] DFloat [9%Q] false 1 "add" true s in
  fst a = Ok tt /\ entry (snd a) 1 "SetPointA" 1 = Some 2%Q /\ entry (snd a) 5 "SetPointA" 1 = Some 1%Q /\
  fst b = Ok tt /\ entry (snd b) 1 "SetPointB" 1 = Some 12%Q.
Proof. vm_compute. repeat split. Qed.
Print Assumptions C12_meaning_with_compensation.
Print Assumptions C15_corrector_integers_truncated.
Print Assumptions C15_finding_adding_integer_zero.
Print Assumptions C15_magnet_cavity_integers_rejected.
Print Assumptions C15_abs_within_limits.
Print Assumptions C16_skew_limit_respected.
Print Assumptions C16_not_clipped.
Print Assumptions C16_finding_negative_limit.
