(** Properties C12-C16: meaning of the setting methods, repeated ordinates, integer set-points, skew limits. *)
From Coq Require Import Reals Lra QArith.
From stdpp Require Import base gmap strings list.
From Verif Require Import Num Base Model_Arr Model_SC Model_Err Lemmas Proofs_Update Proofs_Setpoint Spec Proofs_CM Proofs_CM2
  Proofs_Loop Proofs_Loop2 Examples Properties_Setpoint Properties_Setpoint2.
Local Open Scope string_scope.
Local Open Scope list_scope.

(** * Specification vocabulary *)
(** the value a call asks for, before any limit *)
Definition magnet_request (method : string) (s : sc R) (i : nat) (skew : bool) (order : nat) (x : R) : option R :=
  if decide (method = "abs") then Some x
  else if decide (method = "rel") then n ← entry s i (nominal_name skew) order; Some (x * n)%R
  else if decide (method = "add") then o ← entry s i (setpoint_name skew) order; Some (o + x)%R
  else None.
Definition cavity_request (method : string) (s : sc R) (i : nat) (param : string) (x : R) : option R :=
  if decide (method = "abs") then Some x
  else if decide (method = "rel") then o ← number s i (param +:+ "SetPoint"); Some (x * o)%R
  else if decide (method = "add") then o ← number s i (param +:+ "SetPoint"); Some (o + x)%R
  else None.
(** the skew-quadrupole limit applies to the skew quadrupole component only *)
Definition limited (s : sc R) (i : nat) (skew : bool) (order : nat) (y : R) : R :=
  if skew then match order with 1%nat => clipped_skew (skew_limit s i) y | _ => y end else y.

(** * Lemmas *)
Section Gen.
  Context {T : Type} {N : Num T}.
  Lemma addressed_values {A} i (ords : list nat) (l : list A) : addressed i (zip ords l) = values_for i ords l.
  Proof. done. Qed.
  Lemma values_for_map {A B} (f : A -> B) i ords l : values_for i ords (map f l) = map f (values_for i ords l).
  Proof.
    unfold values_for. revert l. induction ords as [|j ords IH]; intros [|x l]; simpl; auto. rewrite !filter_cons. simpl.
    destruct (decide (j = i)); simpl; rewrite IH; done.
  Qed.
  Lemma values_for_zip {A B C} (f : A -> B -> C) i ords l m y :
    length l = length ords -> length m = length ords -> (forall j z, (j, z) ∈ zip ords m -> j = i -> z = y) ->
    values_for i ords (zip_with f l m) = map (fun x => f x y) (values_for i ords l).
  Proof.
    unfold values_for. revert l m. induction ords as [|j ords IH]; intros [|x l] [|z m] HL HM Hz; try discriminate; simpl; auto.
    rewrite !filter_cons. simpl. destruct (decide (j = i)) as [Hj|Hj]; simpl.
    - rewrite (Hz j z) by (done || left). f_equal. apply IH; [simpl in *; lia|simpl in *; lia|]. intros k w Hk. apply Hz. by right.
    - apply IH; [simpl in *; lia|simpl in *; lia|]. intros k w Hk. apply Hz. by right.
  Qed.
  Lemma values_for_single {A} i (x : A) ords l : NoDup ords -> length l = length ords -> (i, x) ∈ zip ords l -> values_for i ords l = [x].
  Proof. intros. rewrite <- addressed_values. apply addressed_single; [by rewrite zip_fst|done]. Qed.
  Lemma values_for_none {A} i ords (l : list A) : i ∉ ords -> length l = length ords -> values_for i ords l = [].
  Proof. intros. rewrite <- addressed_values. apply addressed_nil. by rewrite zip_fst. Qed.

  (** the loop of magnet steps on one element *)
  Lemma magnet_steps skew order dt xs (e e1 : elem T) :
    forM xs (magnet_step skew order dt) e = (Ok tt, e1) ->
    eagree (spE skew) e e1 /\
    (xs = [] -> e1 = e) /\
    (forall sp, e !! SP skew = Some (VVec sp) -> xs <> [] -> exists x x1, last xs = Some x /\ clip_skew skew order dt e x = Ok x1 /\ order < length sp /\
       e1 = <[SP skew := VVec (<[order := x1]> sp)]> e) /\
    (xs <> [] -> exists sp, e !! SP skew = Some (VVec sp)).
  Proof.
    revert e. induction xs as [|x xs IH]; intros e H; simpl in H.
    - minv H. split; [done|]. split; [done|]. split; [|done]. intros; done.
    - apply bind_ok in H as ([]&e2&H1&H2). apply magnet_step_ok in H1 as (x1&sp&Hx&Hsp&Ho&->).
      destruct (IH _ H2) as (Ha&Hn&Hs&_). split; [|split; [done|split; [|eauto]]].
      + etransitivity; [|exact Ha]. intros a Hne. apply lookup_insert_ne. intros <-. by apply Hne.
      + intros sp' Hsp' _. assert (sp' = sp) as -> by congruence. destruct xs as [|y ys].
        * rewrite Hn by done. exists x, x1. auto.
        * specialize (Hs (<[order := x1]> sp)). rewrite lookup_insert in Hs. destruct (Hs eq_refl) as (z&z1&Hl&Hc&Ho'&->); [done|].
          exists z, z1. split; [by rewrite last_cons, Hl|]. split.
          { rewrite <- Hc. unfold clip_skew. rewrite lookup_insert_ne; [done|]. by destruct skew. }
          split; [done|]. rewrite insert_insert, list_insert_insert. done.
  Qed.
  Lemma set_magnet_frame ords dt sps skew order method (s : sc T) :
    frame (fun i a => (a = SP skew /\ i ∈ ords) \/ (der a /\ touched (RING s) ords i)) s
          (snd (set_magnet_setpoints ords dt sps skew order method false s)).
  Proof.
    set (I := fun i a => (a = SP skew /\ i ∈ ords) \/ (der a /\ touched (RING s) ords i)).
    unfold set_magnet_setpoints. unfold get at 1. unfold bind at 1. simpl. rewrite run_lift.
    destruct (magnet_targets ords dt sps skew order method s) as [l|]; [|reflexivity].
    assert (inv (frame I s) (bind (forM (zip ords l) (fun p => set_magnet_one skew order dt false p.1 p.2)) (fun _ => update_magnets ords)) (fun _ => True)) as H.
    { eapply inv_bind.
      - apply inv_forM. intros [i x] Hi. apply (inv_pres _ (frame I)); [intros; by etransitivity|].
        intros t. rewrite set_magnet_one_plain. apply (pres_on_elem_frame I i).
        intros e a Ha. unfold magnet_step. rewrite run_getm. destruct (clip_skew _ _ _ _ _); [|done].
        unfold set_sp_entry. rewrite run_getm. destruct (attr_vec _ _); [|done]. rewrite run_lift. destruct (idx_set _ _ _); [|done].
        simpl. apply lookup_insert_ne. intros <-. apply Ha. left. split; [done|]. by eapply elem_of_zip_l.
      - intros _ _. apply update_magnets_inv.
        + intros. right. auto.
        + intros i [[Hs _]|[Hd _]]; [by destruct skew|]. by apply not_der in Hd. }
    apply H. reflexivity.
  Qed.
  Lemma field_values_ok name order ords (s : sc T) l i y : field_values name order ords s = Ok l -> (i, y) ∈ zip ords l -> entry s i name order = Some y.
  Proof.
    intros H Hi. eapply rmap_zip in H; [|exact Hi]. simpl in H. apply rbind_ok in H as (e&He&H). apply idx_ok in He.
    apply rbind_ok in H as (v&Hv&H). apply attr_vec_ok in Hv. apply idx_ok in H. unfold entry, attr_at. by rewrite He; simpl; rewrite Hv.
  Qed.
  Lemma field_values_frame (I : string -> Prop) name order ords (s s' : sc T) :
    ~ I name -> frame (fun _ => I) s s' -> field_values name order ords s' = field_values name order ords s.
  Proof.
    intros HI (_&_&_&_&_&[HL Hr]). unfold field_values. induction ords as [|i ords IH]; [done|]. simpl. rewrite IH. f_equal.
    unfold idx. destruct (RING s !! i) as [e|] eqn:He.
    - destruct (lookup_lt_is_Some_2 (RING s') i) as [e' He']; [rewrite HL; by eapply lookup_lt_Some|]. rewrite He'. simpl.
      unfold attr_vec, attr. by rewrite (Hr i e e' He He' name).
    - apply lookup_ge_None in He. assert (RING s' !! i = None) as -> by (apply lookup_ge_None; lia). done.
  Qed.
  Lemma field_values_length name order ords (s : sc T) l : field_values name order ords s = Ok l -> length l = length ords.
  Proof. intros H. apply rmap_ok, Forall2_length in H. done. Qed.
  Lemma field_nums_ok name ords (s : sc T) l i y : field_nums name ords s = Ok l -> (i, y) ∈ zip ords l -> number s i name = Some y.
  Proof.
    intros H Hi. eapply rmap_zip in H; [|exact Hi]. simpl in H. apply rbind_ok in H as (e&He&H). apply idx_ok in He.
    apply attr_num_ok in H. unfold number, attr_at. by rewrite He; simpl; rewrite H.
  Qed.
  Lemma field_nums_length name ords (s : sc T) l : field_nums name ords s = Ok l -> length l = length ords.
  Proof. intros H. apply rmap_ok, Forall2_length in H. done. Qed.
  (** reading all old values first: what every addressed ordinate is asked to become *)
  Lemma magnet_targets_for ords dt sps skew order method (s : sc T) l i :
    magnet_targets ords dt sps skew order method s = Ok l -> length sps = length ords -> i ∈ ords ->
    exists f, values_for i ords l = map f (values_for i ords sps) /\
      (method = ABS -> forall x, f x = x) /\
      (method = REL -> exists n, entry s i ("NomPolynom" +:+ letter skew) order = Some n /\ forall x, f x = nmul x n) /\
      (method = ADD -> exists o, entry s i (SP skew) order = Some o /\ forall x, f x = nadd x o).
  Proof.
    intros H HL Hi. apply magnet_targets_ok in H as (Hl&Hm&l0&Hc&Ha&Hr&Hd).
    rewrite check_input_full in Hc by done. injection Hc as <-.
    apply elem_of_cons in Hm as [->|Hm]; [|apply elem_of_cons in Hm as [->|Hm]; [|apply elem_of_list_singleton in Hm as ->]].
    - exists (fun x => x). rewrite map_id, Ha by done. split; [done|]. split; [done|]. by split.
    - destruct (Hr eq_refl) as (->&noms&Hn&->). pose proof (field_values_length _ _ _ _ _ Hn) as HLn.
      destruct (in_zip_fst ords noms i HLn Hi) as [n Hin]. exists (fun x => nmul x n). split.
      + apply values_for_zip; [done|done|]. intros j z Hj ->. eapply (field_values_ok _ _ _ _ _ _ _ Hn) in Hj. eapply (field_values_ok _ _ _ _ _ _ _ Hn) in Hin. congruence.
      + split; [done|]. split; [|done]. intros _. exists n. split; [|done]. by eapply field_values_ok.
    - destruct (Hd eq_refl) as (->&noms&Hn&->). pose proof (field_values_length _ _ _ _ _ Hn) as HLn.
      destruct (in_zip_fst ords noms i HLn Hi) as [n Hin]. exists (fun x => nadd x n). split.
      + apply values_for_zip; [done|done|]. intros j z Hj ->. eapply (field_values_ok _ _ _ _ _ _ _ Hn) in Hj. eapply (field_values_ok _ _ _ _ _ _ _ Hn) in Hin. congruence.
      + split; [done|]. split; [done|]. intros _. exists n. split; [|done]. by eapply field_values_ok.
  Qed.
  Lemma cavity_targets_for ords dt sps param method (s : sc T) l i :
    cavity_targets ords dt sps param method s = Ok l -> length sps = length ords -> i ∈ ords ->
    exists f, values_for i ords l = map f (values_for i ords sps) /\
      (method = ABS -> forall x, f x = x) /\
      (method = REL -> exists n, number s i (param +:+ "SetPoint") = Some n /\ forall x, f x = nmul x n) /\
      (method = ADD -> exists o, number s i (param +:+ "SetPoint") = Some o /\ forall x, f x = nadd x o).
  Proof.
    intros H HL Hi. apply cavity_targets_ok in H as (Hl&Hm&l0&Hc&Ha&Hr&Hd).
    rewrite check_input_full in Hc by done. injection Hc as <-.
    apply elem_of_cons in Hm as [->|Hm]; [|apply elem_of_cons in Hm as [->|Hm]; [|apply elem_of_list_singleton in Hm as ->]].
    - exists (fun x => x). rewrite map_id, Ha by done. split; [done|]. split; [done|]. by split.
    - destruct (Hr eq_refl) as (->&noms&Hn&->). pose proof (field_nums_length _ _ _ _ Hn) as HLn.
      destruct (in_zip_fst ords noms i HLn Hi) as [n Hin]. exists (fun x => nmul x n). split.
      + apply values_for_zip; [done|done|]. intros j z Hj ->. eapply (field_nums_ok _ _ _ _ _ _ Hn) in Hj. eapply (field_nums_ok _ _ _ _ _ _ Hn) in Hin. congruence.
      + split; [done|]. split; [|done]. intros _. exists n. split; [|done]. by eapply field_nums_ok.
    - destruct (Hd eq_refl) as (->&noms&Hn&->). pose proof (field_nums_length _ _ _ _ Hn) as HLn.
      destruct (in_zip_fst ords noms i HLn Hi) as [n Hin]. exists (fun x => nadd x n). split.
      + apply values_for_zip; [done|done|]. intros j z Hj ->. eapply (field_nums_ok _ _ _ _ _ _ Hn) in Hj. eapply (field_nums_ok _ _ _ _ _ _ Hn) in Hin. congruence.
      + split; [done|]. split; [done|]. intros _. exists n. split; [|done]. by eapply field_nums_ok.
  Qed.
  Lemma values_for_in {A} i ords (l : list A) : i ∈ ords -> length l = length ords -> values_for i ords l <> [].
  Proof.
    intros Hi HL. destruct (in_zip_fst ords l i HL Hi) as [x Hx]. unfold values_for. intros E.
    assert (x ∈ (filter (fun p : nat * A => p.1 = i) (zip ords l)).*2) as Hin; [|rewrite E in Hin; inversion Hin].
    apply elem_of_list_fmap. exists (i, x). split; [done|]. by apply elem_of_list_filter.
  Qed.
  Lemma NOM_name skew : "NomPolynom" +:+ letter skew = nominal_name skew.
  Proof. by destruct skew. Qed.
  Lemma update_magnets_entry ords (s s' : sc T) u i a k :
    update_magnets ords s = (Ok u, s') -> ~ der a -> entry s' i a k = entry s i a k.
  Proof.
    intros H Hd. pose proof (update_magnets_frame ords s) as F. rewrite H in F. unfold entry. rewrite !attr_at_aget.
    rewrite (frame_aget _ _ _ _ _ F); [done|]. tauto.
  Qed.
  Lemma values_for_last_in {A} i ords (l : list A) x : last (values_for i ords l) = Some x -> i ∈ ords.
  Proof.
    intros H. apply last_Some in H as [l' H]. assert (x ∈ values_for i ords l) as Hx by (rewrite H; apply elem_of_app; right; left).
    unfold values_for in Hx. apply elem_of_list_fmap in Hx as ([j y]&->&Hj). apply elem_of_list_filter in Hj as [Hj Hz]. simpl in *. subst.
    by eapply elem_of_zip_l.
  Qed.
End Gen.

(** limit clipping over the reals *)
Lemma clip_skew_R skew order (s : sc R) i e x y : RING s !! i = Some e -> clip_skew skew order DFloat e x = Ok y -> y = limited s i skew order x.
Proof.
  intros He. unfold clip_skew, limited, skew_limit, attr_at. rewrite He. simpl. destruct skew; simpl; [|by intros [= ->]].
  destruct order as [|[|n]]; simpl; try by intros [= ->].
  destruct (e !! "SkewQuadLimit") as [v|]; [|by intros [= ->]]. destruct v; try discriminate. simpl.
  destruct l as [l|]; intros [= <-]; [|done]. unfold clipped_skew. num_R.
  destruct (Rltb l (Rabs x)) eqn:E.
  - apply Rltb_true in E. destruct (Rle_dec (Rabs x) l); [lra|]. cbn [store]. by rewrite nsign_sign.
  - apply Rltb_false in E. destruct (Rle_dec (Rabs x) l); [done|lra].
Qed.

(** * C14 (magnets): old values are read first, the last value takes effect *)
Theorem C14_magnets_last_value_only ords sps skew order method (s s' : sc R) i x :
  set_magnet_setpoints ords DFloat sps skew order method false s = (Ok tt, s') -> length sps = length ords ->
  last (values_for i ords sps) = Some x ->
  exists y, magnet_request method s i skew order x = Some y /\
    entry s' i (setpoint_name skew) order = Some (limited s i skew order y).
Proof.
  intros H HL Hx. pose proof (values_for_last_in _ _ _ _ Hx) as Hi.
  destruct (set_magnet_exists _ _ _ _ _ _ _ _ _ _ H Hi) as [e He].
  destruct (set_magnet_elem _ _ _ _ _ _ _ _ _ _ _ H He) as (l&e1&e'&Hl&Hf&He'&Ha).
  destruct (magnet_targets_for _ _ _ _ _ _ _ _ i Hl HL Hi) as (f&Hv&Habs&Hrel&Hadd).
  rewrite addressed_values, Hv in Hf. apply magnet_steps in Hf as (_&_&Hs&Hsp).
  assert (map f (values_for i ords sps) <> []) as Hne by (by destruct (values_for i ords sps)).
  destruct (Hsp Hne) as [sp Hsp']. destruct (Hs sp Hsp' Hne) as (z&z1&Hlast&Hc&Ho&->).
  rewrite fmap_last, Hx in Hlast. simpl in Hlast. injection Hlast as <-.
  exists (f x). split.
  - unfold magnet_request. assert (method ∈ SETTING_METHODS) as Hm by (apply magnet_targets_ok in Hl; tauto).
    apply elem_of_cons in Hm as [->|Hm]; [|apply elem_of_cons in Hm as [->|Hm]; [|apply elem_of_list_singleton in Hm as ->]].
    + rewrite decide_True by done. by rewrite Habs.
    + rewrite decide_False, decide_True by done. destruct (Hrel eq_refl) as (n&Hn&->). rewrite NOM_name in Hn. by rewrite Hn.
    + rewrite !decide_False, decide_True by done. destruct (Hadd eq_refl) as (n&Hn&->). rewrite SP_name in Hn. rewrite Hn. simpl. f_equal. num_R. lra.
  - apply (clip_skew_R _ _ s i) in Hc; [|done]. unfold entry, attr_at. rewrite He'. simpl. rewrite <- SP_name.
    rewrite (Ha (SP skew)) by apply SP_not_der. rewrite lookup_insert, list_lookup_insert by done. by rewrite Hc.
Qed.

(** * C12 *)
Theorem C12_meaning ords sps skew order method (s s' : sc R) :
  NoDup ords -> length sps = length ords ->
  set_magnet_setpoints ords DFloat sps skew order method false s = (Ok tt, s') ->
  (forall i x, (i, x) ∈ zip ords sps -> exists y, magnet_request method s i skew order x = Some y /\
      entry s' i (setpoint_name skew) order = Some (limited s i skew order y)) /\
  (forall i k, k <> order \/ i ∉ ords -> entry s' i (setpoint_name skew) k = entry s i (setpoint_name skew) k).
Proof.
  intros Hnd HL H. split.
  - intros i x Hx. eapply C14_magnets_last_value_only; [done|done|]. by rewrite (values_for_single i x).
  - intros i k Hk. unfold entry, attr_at. destruct (RING s !! i) as [e|] eqn:He.
    + destruct (set_magnet_elem _ _ _ _ _ _ _ _ _ _ _ H He) as (l&e1&e'&Hl&Hf&He'&Ha). rewrite He'. simpl.
      rewrite <- SP_name, (Ha (SP skew)) by apply SP_not_der.
      pose proof (magnet_targets_ok _ _ _ _ _ _ _ _ Hl) as (HLl&_). rewrite addressed_values in Hf. apply magnet_steps in Hf as (_&Hn&Hs&Hsp).
      destruct (decide (i ∈ ords)) as [Hi|Hi].
      * pose proof (values_for_in i ords l Hi HLl) as Hne. destruct (Hsp Hne) as [sp Hsp']. destruct (Hs sp Hsp' Hne) as (z&z1&_&_&_&->).
        rewrite lookup_insert, Hsp'. apply list_lookup_insert_ne. destruct Hk; [done|contradiction].
      * rewrite Hn by (by apply values_for_none). done.
    + pose proof (set_magnet_frame ords DFloat sps skew order method s) as F. rewrite H in F. destruct F as (_&_&_&_&_&[HLr _]). simpl in HLr.
      apply lookup_ge_None in He. assert (RING s' !! i = None) as -> by (apply lookup_ge_None; lia). done.
Qed.
Section C12gen.
  Context {T : Type} {N : Num T}.
  Theorem C12_only_addressed_change ords dt (sps : list T) skew order method (s : sc T) :
    let s' := snd (set_magnet_setpoints ords dt sps skew order method false s) in
    same_but_ring s s' /\ length (RING s') = length (RING s) /\
    (forall i a, attr_at s' i a <> attr_at s i a ->
       (a = setpoint_name skew /\ i ∈ ords) \/
       (a ∈ field_attributes /\ (i ∈ ords \/ exists m, m ∈ ords /\ child_of s i m))).
  Proof.
    intros s'. pose proof (set_magnet_frame ords dt sps skew order method s) as F. fold s' in F. split; [|split].
    - destruct F as (?&?&?&?&?&_). split; auto.
    - by destruct F as (_&_&_&_&_&[? _]).
    - intros i a Hne. rewrite !attr_at_aget in Hne.
      destruct (decide (a = SP skew /\ i ∈ ords)) as [[-> ?]|Hn]; [left; by rewrite SP_name|right].
      assert (der a /\ touched (RING s) ords i) as [Hd Ht].
      { destruct (decide (a ∈ DERIVED)) as [Hd|Hd].
        - split; [done|]. destruct (decide (Exists (fun m => i ∈ children (RING s) m) ords)) as [Hex|Hex].
          + apply Exists_exists in Hex as (m&?&?). right. eauto.
          + destruct (decide (i ∈ ords)); [by left|]. exfalso. apply Hne, (frame_aget _ _ _ _ _ F).
            intros [?|[_ [?|(m&?&?)]]]; [tauto|done|]. apply Hex, Exists_exists. eauto.
        - exfalso. apply Hne, (frame_aget _ _ _ _ _ F). intros [?|[? _]]; [tauto|done]. }
      split; [exact Hd|]. destruct Ht as [?|(m&Hm&Hc)]; [by left|right]. exists m. split; [done|].
      unfold children in Hc. unfold child_of. rewrite attr_at_aget. destruct (aget (RING s) m "MasterOf") as [[]|]; try by inversion Hc. eauto.
  Qed.
  (** abs and rel: the second identical call changes nothing *)
  Theorem C12_idempotent ords dt (sps : list T) skew order method (s s' : sc T) :
    NoDup ords -> length sps = length ords -> method = "abs" \/ method = "rel" ->
    set_magnet_setpoints ords dt sps skew order method false s = (Ok tt, s') ->
    set_magnet_setpoints ords dt sps skew order method false s' = (Ok tt, s').
  Proof.
    intros Hnd HL Hm H. pose proof H as H0. pose proof (set_magnet_frame ords dt sps skew order method s) as F. rewrite H in F. simpl in F.
    apply set_magnet_plain in H as (l&s1&Hl&Hf&Hu). apply set_magnet_plain. exists l, s'. split; [|split].
    - rewrite <- Hl. unfold magnet_targets. destruct (check_input_and_setpoints method ords sps); [|done]. simpl.
      destruct Hm as [->| ->]; [done|]. rewrite !decide_True by done. f_equal. unfold field_values.
      apply (field_values_frame (fun a => a = SP skew \/ der a)).
      + intros [?|Hd]; [by destruct skew|]. apply not_der in Hd; [done|by destruct skew].
      + eapply frame_mono; [|exact F]. intros j b [[? _]|[? _]]; auto.
    - assert (length l = length ords) as HLl by (by apply magnet_targets_ok in Hl as [? _]).
      assert (forall p, p ∈ zip ords l -> on_elem p.1 (magnet_step skew order dt p.2) s' = (Ok tt, s')) as P.
      { intros [i x] Hp. simpl. assert (i ∈ ords) as Hi by (by eapply elem_of_zip_l).
        destruct (set_magnet_exists _ _ _ _ _ _ _ _ _ _ H0 Hi) as [e He].
        destruct (set_magnet_elem _ _ _ _ _ _ _ _ _ _ _ H0 He) as (l'&e1&e'&Hl'&Hf'&He'&Ha). assert (l' = l) as -> by congruence.
        rewrite addressed_values, (values_for_single i x) in Hf' by done. apply magnet_steps in Hf' as (Hag&_&Hs&Hsp).
        destruct Hsp as [sp Hsp]; [done|]. destruct (Hs sp Hsp) as (z&z1&Hz&Hc&Ho&->); [done|]. injection Hz as <-.
        unfold on_elem. rewrite He'. 
        assert (magnet_step skew order dt x e' = (Ok tt, e')) as ->.
        { apply magnet_step_ok. exists z1, (<[order:=z1]> sp). rewrite insert_length, list_insert_insert.
          rewrite (Ha (SP skew)) by apply SP_not_der. rewrite lookup_insert. split; [|split; [done|split; [done|]]].
          - rewrite <- Hc. unfold clip_skew. rewrite (Ha "SkewQuadLimit") by (by apply not_der). rewrite lookup_insert_ne; [done|]. by destruct skew.
          - symmetry. apply insert_id. rewrite (Ha (SP skew)) by apply SP_not_der. by rewrite lookup_insert. }
        rewrite list_insert_id by done. by rewrite set_RING_id. }
      clear - P. induction (zip ords l) as [|p q IH]; [done|]. simpl. apply bind_ok. exists tt, s'. split; [apply P; left|].
      apply IH. intros p' Hp'. apply P. by right.
    - by apply update_magnets_twice in Hu.
  Qed.
End C12gen.

(** * C13 and C14 (cavities) *)
Theorem C14_cavities_last_value_only ords sps param method (s s' : sc R) i x :
  set_cavity_setpoints ords DFloat sps param method s = (Ok tt, s') -> length sps = length ords ->
  last (values_for i ords sps) = Some x ->
  exists y, cavity_request method s i param x = Some y /\ number s' i (param +:+ "SetPoint") = Some y.
Proof.
  intros H HL Hx. pose proof (values_for_last_in _ _ _ _ Hx) as Hi.
  destruct (set_cavity_exists _ _ _ _ _ _ _ _ _ H Hi) as [e He].
  destruct (set_cavity_elem _ _ _ _ _ _ _ _ _ _ H He) as (l&e1&e'&Hl&Hf&He'&Ha&_).
  destruct (cavity_targets_for _ _ _ _ _ _ _ i Hl HL Hi) as (f&Hv&Habs&Hrel&Hadd).
  rewrite addressed_values, Hv in Hf. apply foldl_setattr in Hf. rewrite fmap_last, Hx in Hf. simpl in Hf. subst e1.
  exists (f x). split.
  - unfold cavity_request. assert (method ∈ SETTING_METHODS) as Hm by (apply cavity_targets_ok in Hl; tauto).
    apply elem_of_cons in Hm as [->|Hm]; [|apply elem_of_cons in Hm as [->|Hm]; [|apply elem_of_list_singleton in Hm as ->]].
    + rewrite decide_True by done. by rewrite Habs.
    + rewrite decide_False, decide_True by done. destruct (Hrel eq_refl) as (n&Hn&->). by rewrite Hn.
    + rewrite !decide_False, decide_True by done. destruct (Hadd eq_refl) as (n&Hn&->). rewrite Hn. simpl. f_equal. num_R. lra.
  - unfold number, attr_at. rewrite He'. simpl. rewrite (Ha (param +:+ "SetPoint")) by apply setpoint_not_rf. by rewrite lookup_insert.
Qed.
Theorem C13_meaning ords sps param method (s s' : sc R) :
  NoDup ords -> length sps = length ords ->
  set_cavity_setpoints ords DFloat sps param method s = (Ok tt, s') ->
  forall i x, (i, x) ∈ zip ords sps ->
    exists y, cavity_request method s i param x = Some y /\ number s' i (param +:+ "SetPoint") = Some y.
Proof. intros Hnd HL H i x Hx. eapply C14_cavities_last_value_only; [done|done|]. by rewrite (values_for_single i x). Qed.
(** the actual values of every addressed cavity follow its set-points, for all three quantities *)
Theorem C13_actual_value ords dt sps param method (s s' : sc R) :
  set_cavity_setpoints ords dt sps param method s = (Ok tt, s') ->
  forall i f, i ∈ ords -> f ∈ ["Voltage"; "Frequency"; "TimeLag"] ->
  exists sp cal off, number s' i (f +:+ "SetPoint") = Some sp /\ number s' i (f +:+ "CalError") = Some cal /\
    number s' i (f +:+ "Offset") = Some off /\ number s' i f = Some (sp * (1 + cal) + off)%R.
Proof.
  intros H i f Hi Hf. destruct (set_cavity_exists _ _ _ _ _ _ _ _ _ H Hi) as [e He].
  destruct (set_cavity_elem _ _ _ _ _ _ _ _ _ _ H He) as (l&e1&e'&Hl&_&He'&_&_&Hfix).
  destruct (update_cavity_fix _ (Hfix Hi) f Hf) as (sp&cal&off&H1&H2&H3&H4). exists sp, cal, off. unfold number, attr_at. rewrite He'. simpl.
  by rewrite H1, H2, H3, H4.
Qed.
Section C13gen.
  Context {T : Type} {N : Num T}.
  Definition cavI (param : string) (ords : list nat) (i : nat) (a : string) : Prop :=
    i ∈ ords /\ (a = param +:+ "SetPoint" \/ a ∈ RF_PROPERTIES).
  Lemma set_cavity_frame ords dt (sps : list T) param method (s : sc T) :
    frame (cavI param ords) s (snd (set_cavity_setpoints ords dt sps param method s)).
  Proof.
    revert s. change (pres (frame (cavI param ords)) (@set_cavity_setpoints T N ords dt sps param method)).
    unfold set_cavity_setpoints. apply pres_bind; [exact _|apply pres_get; exact _|]. intros s.
    apply pres_bind; [exact _|apply pres_lift; exact _|]. intros l. apply pres_bind; [exact _| |].
    - apply pres_forM; [exact _|]. intros [i x] Hp. apply pres_on_elem_frame, pres_setattr. split; [by eapply elem_of_zip_l|by left].
    - intros _. unfold update_cavities. apply pres_forM; [exact _|]. intros i Hi. apply pres_on_elem_frame.
      unfold update_cavity. apply pres_forM; [exact _|]. intros f Hf. apply pres_bind; [exact _|apply pres_getm; exact _|].
      intros v. apply pres_setattr. split; [done|by right].
  Qed.
  Theorem C13_only_addressed_change ords dt (sps : list T) param method (s : sc T) :
    let s' := snd (set_cavity_setpoints ords dt sps param method s) in
    same_but_ring s s' /\ length (RING s') = length (RING s) /\
    (forall i a, attr_at s' i a <> attr_at s i a ->
       i ∈ ords /\ (a = param +:+ "SetPoint" \/ a ∈ ["Voltage"; "Frequency"; "TimeLag"])).
  Proof.
    intros s'. pose proof (set_cavity_frame ords dt sps param method s) as F. fold s' in F. split; [|split].
    - destruct F as (?&?&?&?&?&_). split; auto.
    - by destruct F as (_&_&_&_&_&[? _]).
    - intros i a Hne. rewrite !attr_at_aget in Hne.
      destruct (decide (i ∈ ords)) as [Hi|Hi]; [split; [done|]|].
      + destruct (decide (a = param +:+ "SetPoint")); [by left|]. destruct (decide (a ∈ RF_PROPERTIES)); [by right|].
        exfalso. apply Hne, (frame_aget _ _ _ _ _ F). intros [_ [?|?]]; done.
      + exfalso. apply Hne, (frame_aget _ _ _ _ _ F). by intros [? _].
  Qed.
End C13gen.
(** The finding: factors compound, since 'rel' refers to the current set-point. *)
Theorem C13_finding_rel_compounds i param f g v (s s1 s2 : sc R) :
  number s i (param +:+ "SetPoint") = Some v ->
  set_cavity_setpoints [i] DFloat [f] param "rel" s = (Ok tt, s1) ->
  set_cavity_setpoints [i] DFloat [g] param "rel" s1 = (Ok tt, s2) ->
  number s2 i (param +:+ "SetPoint") = Some (g * (f * v))%R.
Proof.
  intros Hv H1 H2.
  destruct (C13_meaning [i] [f] param "rel" s s1 (NoDup_singleton i) eq_refl H1 i f) as (y&Hy&H1'); [left|].
  destruct (C13_meaning [i] [g] param "rel" s1 s2 (NoDup_singleton i) eq_refl H2 i g) as (z&Hz&H2'); [left|].
  unfold cavity_request in Hy, Hz. simpl in Hy, Hz. rewrite Hv in Hy. rewrite H1' in Hz. simpl in *. injection Hy as <-. injection Hz as <-. done.
Qed.
Corollary C13_finding_two_halves_make_a_quarter i param v (s s1 s2 : sc R) :
  number s i (param +:+ "SetPoint") = Some v ->
  set_cavity_setpoints [i] DFloat [(/ 2)%R] param "rel" s = (Ok tt, s1) ->
  set_cavity_setpoints [i] DFloat [(/ 2)%R] param "rel" s1 = (Ok tt, s2) ->
  number s2 i (param +:+ "SetPoint") = Some (v / 4)%R.
Proof. intros Hv H1 H2. rewrite (C13_finding_rel_compounds _ _ _ _ _ _ _ _ Hv H1 H2). f_equal. lra. Qed.

(** * C14 (correctors): repeated values add up *)
Lemma cm_adds skew xs (e e1 : elem R) v : elim skew e = None -> reading skew e = Ok v ->
  forM xs (set_cm_one skew "add" DFloat) e = (Ok tt, e1) -> reading skew e1 = Ok (v + sumR xs)%R.
Proof.
  revert e v. induction xs as [|x xs IH]; intros e v Hn Hr H; simpl in H.
  - minv H. rewrite Hr. f_equal. unfold sumR. simpl. lra.
  - apply bind_ok in H as ([]&e2&H1&H2). apply set_cm_one_ok in H1 as (l&Hc&->).
    apply reading_cm_new in Hc as (p&nb&x1&x2&Hnb&Hne&Hr0&_&Hadd&_&Hcl&Hr'). assert (v = p * nb)%R as -> by congruence.
    apply clip_cm_R in Hcl as (_&_&Hcl). specialize (Hcl Hn). specialize (Hadd eq_refl). cbn [store] in Hadd. subst x2 x1.
    rewrite (IH _ _ ltac:(by rewrite elim_sp) Hr' H2). f_equal. unfold sumR. simpl. lra.
Qed.
Theorem C14_correctors_accumulate ords sps skew (s s' : sc R) i v :
  set_cm_setpoints ords DFloat sps skew "add" s = (Ok tt, s') -> length sps = length ords ->
  cm_limit s i skew = None -> get_cm_setpoints [i] skew s = Ok [v] ->
  get_cm_setpoints [i] skew s' = Ok [(v + sumR (values_for i ords sps))%R].
Proof.
  intros H HL Hn Hv. apply get_cm_one in Hv as (e&He&Hr).
  destruct (set_cm_elem _ _ _ _ _ _ _ _ _ _ H He) as (l&e1&e'&Hl&Hf&He'&Ha).
  rewrite check_input_full in Hl by (done || (right; right; left)). injection Hl as <-. rewrite addressed_values in Hf.
  rewrite (cm_limit_elim s i e) in Hn by done. apply get_cm_one. exists e'. split; [done|]. rewrite (reading_agree _ _ _ Ha).
  by eapply cm_adds.
Qed.
(** on a repeated ordinate the two behaviours differ *)
Corollary C14_difference i a b (s s1 s2 : sc R) v :
  cm_limit s i false = None -> get_cm_setpoints [i] false s = Ok [v] ->
  set_cm_setpoints [i; i] DFloat [a; b] false "add" s = (Ok tt, s1) ->
  set_magnet_setpoints [i; i] DFloat [a; b] false 1 "add" false s = (Ok tt, s2) ->
  get_cm_setpoints [i] false s1 = Ok [(v + a + b)%R] /\
  exists o, entry s i "SetPointB" 1 = Some o /\ entry s2 i "SetPointB" 1 = Some (o + b)%R.
Proof.
  intros Hn Hv H1 H2. split.
  - rewrite (C14_correctors_accumulate _ _ _ _ _ _ _ H1 eq_refl Hn Hv). unfold values_for. simpl. rewrite !filter_cons. simpl.
    rewrite !decide_True by done. simpl. unfold sumR. simpl. do 2 f_equal. lra.
  - destruct (C14_magnets_last_value_only [i; i] [a; b] false 1 "add" s s2 i b H2 eq_refl) as (y&Hy&H).
    + unfold values_for. simpl. rewrite !filter_cons. simpl. by rewrite !decide_True.
    + unfold magnet_request in Hy. simpl in Hy. destruct (entry s i "SetPointB" 1) as [o|] eqn:E; [|discriminate Hy]. simpl in Hy. injection Hy as <-. eauto.
Qed.

(** * Examples *)
(** the quadrupole (nominal gradient 3) with a skew limit 2, and the cavity (voltage 8) *)
Definition sp_machine {T} `{Num T} : sc T :=
  snd (register_cavities [4%nat] []
    (snd (register_magnets [1; 5]%nat [] (MkType None None false (Some (Fin (num 2))) None) ex_sc))).
Example C12_example :
  let s := sp_machine : sc Q in
  let a := set_magnet_setpoints [1; 5]%nat DFloat [7%Q; 8%Q] false 1 "abs" false s in
  let b := set_magnet_setpoints [1; 5]%nat DFloat [2%Q; (1 # 5)%Q] false 1 "rel" false (snd a) in
  let c := set_magnet_setpoints [1; 5]%nat DFloat [2%Q; 1%Q] false 1 "add" false (snd a) in
  let d := set_magnet_setpoints [1%nat] DFloat [(-9)%Q] true 1 "abs" false (snd a) in
  fst a = Ok tt /\ entry (snd a) 1 "SetPointB" 1 = Some 7%Q /\ entry (snd a) 5 "SetPointB" 1 = Some 8%Q /\
  fst b = Ok tt /\ entry (snd b) 1 "SetPointB" 1 = Some 6%Q /\ entry (snd b) 5 "SetPointB" 1 = Some 1%Q /\
  fst c = Ok tt /\ entry (snd c) 1 "SetPointB" 1 = Some 9%Q /\ entry (snd c) 5 "SetPointB" 1 = Some 9%Q /\
  fst d = Ok tt /\ entry (snd d) 1 "SetPointA" 1 = Some (-2)%Q.
Proof. vm_compute. repeat split. Qed.
Example C13_example :
  let s := sp_machine : sc Q in
  let a := set_cavity_setpoints [4%nat] DFloat [(1 # 2)%Q] "Voltage" "rel" s in
  let b := set_cavity_setpoints [4%nat] DFloat [(1 # 2)%Q] "Voltage" "rel" (snd a) in
  let c := set_cavity_setpoints [4%nat] DFloat [3%Q] "Frequency" "add" s in
  fst a = Ok tt /\ fst b = Ok tt /\ number (snd b) 4 "VoltageSetPoint" = Some 2%Q /\ number (snd b) 4 "Voltage" = Some 2%Q /\
  fst c = Ok tt /\ number (snd c) 4 "FrequencySetPoint" = Some 503%Q.
Proof. vm_compute. repeat split. Qed.
Example C14_example :
  let s := snd (register_magnets [1%nat] [] (MkType None None false None None) (sp_machine : sc Q)) in
  let a := set_cm_setpoints [1; 1]%nat DFloat [1%Q; 2%Q] false "add" s in
  let b := set_magnet_setpoints [1; 1]%nat DFloat [1%Q; 2%Q] false 1 "add" false s in
  let c := set_cavity_setpoints [4; 4]%nat DFloat [1%Q; 2%Q] "Voltage" "add" s in
  fst a = Ok tt /\ get_cm_setpoints [1%nat] false (snd a) = Ok [3%Q] /\
  fst b = Ok tt /\ entry (snd b) 1 "SetPointB" 1 = Some 5%Q /\
  fst c = Ok tt /\ number (snd c) 4 "VoltageSetPoint" = Some 10%Q.
Proof. vm_compute. repeat split. Qed.
Print Assumptions C12_meaning.
Print Assumptions C12_only_addressed_change.
Print Assumptions C12_idempotent.
Print Assumptions C13_meaning.
Print Assumptions C13_actual_value.
Print Assumptions C13_only_addressed_change.
Print Assumptions C13_finding_rel_compounds.
Print Assumptions C13_finding_two_halves_make_a_quarter.
Print Assumptions C14_magnets_last_value_only.
Print Assumptions C14_cavities_last_value_only.
Print Assumptions C14_correctors_accumulate.
Print Assumptions C14_difference.
