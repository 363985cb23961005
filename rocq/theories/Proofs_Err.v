(** Error application: what its stages write, and well-formed registrations. *)
From stdpp Require Import base gmap strings list.
From Verif Require Import Num Base Model_Arr Model_SC Model_Err Lemmas Proofs_Reg Proofs_Update Proofs_Loop Spec Proofs_CM Proofs_Setpoint.
From Coq Require Import Sorted.
Local Open Scope string_scope.
Local Open Scope list_scope.

(** The ring agrees outside attributes whose name satisfies [P]; nothing is said about the rest of the machine. *)
Definition upto {T} (P : string -> Prop) (s s' : sc T) : Prop :=
  length (RING s') = length (RING s) /\ forall i a, ~ P a -> attr_at s' i a = attr_at s i a.
#[global] Instance upto_preorder {T} P : PreOrder (@upto T P).
Proof.
  split; [done|]. intros a b c [L1 H1] [L2 H2]. split; [congruence|]. intros i x Hx. rewrite H2, H1; done.
Qed.
Lemma upto_mono {T} (P Q : string -> Prop) (s s' : sc T) : (forall a, P a -> Q a) -> upto P s s' -> upto Q s s'.
Proof. intros H [L F]. split; [done|]. intros i a Ha. apply F. auto. Qed.
Lemma upto_same {T} P (s s' : sc T) : RING s' = RING s -> upto P s s'.
Proof. intros H. unfold upto, attr_at. by rewrite H. Qed.
Lemma attr_at_insert {T} (s : sc T) j e e' i a : RING s !! j = Some e ->
  attr_at (set_RING (<[j := e']> (RING s)) s) i a = if decide (i = j) then e' !! a else attr_at s i a.
Proof.
  intros He. unfold attr_at. simpl. destruct (decide (i = j)) as [->|Hne].
  - rewrite list_lookup_insert by (by eapply lookup_lt_Some). done.
  - by rewrite list_lookup_insert_ne by done.
Qed.
Lemma pres_on_elem_upto {T A} (P : string -> Prop) i (m : M (elem T) A) : pres (eagree P) m -> pres (upto P) (on_elem i m).
Proof.
  intros Hm s. unfold on_elem. destruct (RING s !! i) as [e|] eqn:E; [|reflexivity].
  specialize (Hm e). destruct (m e) as [r e']. simpl in *. split; [simpl; by rewrite insert_length|].
  intros j a Ha. rewrite (attr_at_insert _ _ e) by done. destruct (decide (j = i)) as [->|]; [|done].
  rewrite (Hm a Ha). unfold attr_at. by rewrite E.
Qed.
Lemma pres_upto_same {T A} P (m : M (sc T) A) : pres (same (@RING T)) m -> pres (upto P) m.
Proof. intros Hm s. apply upto_same, Hm. Qed.
Lemma frame_upto {T} (I : nat -> string -> Prop) (P : string -> Prop) (s s' : sc T) :
  (forall i a, I i a -> P a) -> frame I s s' -> upto P s s'.
Proof.
  intros HI F. split; [by destruct F as (_&_&_&_&_&[L _])|]. intros i a Ha.
  rewrite !attr_at_aget. apply (frame_aget I); [done|]. intros H. by apply Ha, (HI i).
Qed.

Lemma forM_map {S A B} (h : A -> B) (l : list A) (f : B -> M S unit) s : forM (map h l) f s = forM l (fun x => f (h x)) s.
Proof. revert s. induction l as [|x l IH]; intros s; simpl; [done|]. unfold bind. destruct (f (h x) s) as [[[]|] ?]; [apply IH|done]. Qed.
Lemma forM_concat {S A} (ls : list (list A)) (f : A -> M S unit) s : forM (concat ls) f s = forM ls (fun l => forM l f) s.
Proof.
  revert s. induction ls as [|l ls IH]; intros s; simpl; [done|]. rewrite forM_app. unfold bind. destruct (forM l f s) as [[[]|] ?]; [apply IH|done].
Qed.

Section Cells.
  Context {T : Type} {N : Num T}.
  (** a sequence of attribute assignments whose values are computed without touching the ring *)
  Lemma cells_ok {A} (f : sc T -> A) {B} (cells : list (nat * string * B)) (body : B -> M (sc T) (val T)) s u s' :
    (forall x, pres (same (@RING T)) (body x)) -> (forall x, pres (same f) (body x)) -> (forall r s, f (set_RING r s) = f s) ->
    NoDup (map fst cells) ->
    forM cells (fun c => let! v := body c.2 in on_elem c.1.1 (setattr c.1.2 v)) s = (Ok u, s') ->
    length (RING s') = length (RING s) /\ f s' = f s /\
    (forall c, c ∈ cells -> c.1.1 < length (RING s) /\ exists v s0 s1, body c.2 s0 = (Ok v, s1) /\ f s0 = f s /\ attr_at s' c.1.1 c.1.2 = Some v) /\
    (forall i a, (i, a) ∉ map fst cells -> attr_at s' i a = attr_at s i a).
  Proof.
    intros HR Hf Hset. revert s. induction cells as [|c cells IH]; intros s Hnd H; simpl in *.
    - apply ret_ok in H as [_ ->]. repeat split; auto. all: match goal with H : _ ∈ [] |- _ => inversion H end.
    - inversion Hnd as [|? ? Hni Hnd']; subst. apply bind_ok in H as ([]&s1&H1&H2).
      apply bind_ok in H1 as (v&s0&Hb&Ho). pose proof (HR c.2 s) as E. rewrite Hb in E. unfold same in E. simpl in E.
      pose proof (Hf c.2 s) as Ef. rewrite Hb in Ef. unfold same in Ef. simpl in Ef.
      apply on_elem_ok in Ho as (e&e'&He&Hset'&->). apply setattr_ok in Hset' as ->.
      destruct (IH _ Hnd' H2) as (L&F&IH1&IH2). simpl in L. rewrite insert_length in L. rewrite Hset in F.
      split; [by rewrite L, E|]. split; [by rewrite F|].
      assert (forall i a, attr_at (set_RING (<[c.1.1:=<[c.1.2:=v]> e]> (RING s0)) s0) i a = if decide (i = c.1.1 /\ a = c.1.2) then Some v else attr_at s i a) as Hat.
      { intros i a. rewrite (attr_at_insert _ _ e) by done. destruct (decide (i = c.1.1)) as [->|].
        - destruct (decide (a = c.1.2)) as [->|Hne]; [rewrite decide_True by done; by rewrite lookup_insert|].
          rewrite decide_False by naive_solver. rewrite lookup_insert_ne by done. unfold attr_at. by rewrite <- E, He.
        - rewrite decide_False by naive_solver. unfold attr_at. by rewrite E. }
      split.
      + intros c' Hc'. apply elem_of_cons in Hc'. destruct Hc' as [->|Hc'].
        * split; [rewrite <- E; by eapply lookup_lt_Some|]. exists v, s, s0. split; [done|]. split; [done|].
          rewrite IH2 by (by destruct c as [[??]?]). rewrite Hat. by rewrite decide_True.
        * destruct (IH1 c' Hc') as (Hl&v'&s2&s3&?&Hfs&?). simpl in Hl. rewrite insert_length, E in Hl. split; [done|]. exists v', s2, s3. split; [done|]. split; [|done]. by rewrite Hfs, Hset.
      + intros i a Hia. rewrite IH2 by (intros ?; apply Hia; by right). rewrite Hat. rewrite decide_False; [done|].
        intros [-> ->]. apply Hia. destruct c as [[??]?]. left.
  Qed.
End Cells.

(** * Well-formed registrations *)
(** Specification: what the registration methods guarantee about uncertainties. *)
Definition registry_ok {T} (fields : list string) (ords : list nat) (m : gmap nat (dict (sigval T))) : Prop :=
  forall i d, m !! i = Some d -> i ∈ ords /\ allowed d fields /\ NoDup (dkeys d).
Definition well_registered {T} (s : sc T) : Prop :=
  registry_ok BPM_ERROR_FIELDS (oBPM (ORD s)) (sBPM (SIG s)) /\ NoDup (oBPM (ORD s)) /\
  registry_ok RF_ERROR_FIELDS (oRF (ORD s)) (sRF (SIG s)) /\ NoDup (oRF (ORD s)) /\
  registry_ok MAGNET_ERROR_FIELDS (oMagnet (ORD s)) (sMagnet (SIG s)) /\ NoDup (oMagnet (ORD s)).
(** Python's keyword arguments have distinct names *)
Definition distinct_keywords {T} (o : op T) : Prop :=
  match o with
  | OpBPM _ kw => NoDup (dkeys kw)
  | OpRF _ kw => NoDup (dkeys kw)
  | OpMagnet _ kw _ => NoDup (dkeys kw)
  | OpSupport _ _ kw => NoDup (dkeys kw)
  | _ => True
  end.
Lemma dkeys_dset {A} (d : dict A) k v : dkeys (dset d k v) = if decide (k ∈ dkeys d) then dkeys d else dkeys d ++ [k].
Proof.
  induction d as [|[k0 v0] d IH]; simpl; [done|]. destruct (decide (k = k0)) as [->|Hne]; simpl.
  - rewrite decide_True by left. done.
  - unfold dkeys in *. rewrite IH. destruct (decide (k ∈ map fst d)) as [Hi|Hi].
    + rewrite decide_True by (by right). done.
    + rewrite decide_False; [done|]. intros H. apply elem_of_cons in H as [?|?]; done.
Qed.
Lemma dset_nodup {A} (d : dict A) k v : NoDup (dkeys d) -> NoDup (dkeys (dset d k v)).
Proof.
  intros H. rewrite dkeys_dset. destruct (decide (k ∈ dkeys d)); [done|]. apply NoDup_app. split; [done|]. split; [|apply NoDup_singleton].
  intros x Hx Hk. apply elem_of_list_singleton in Hk as ->. done.
Qed.
Lemma dset_allowed {A} (d : dict A) k v L : allowed d L -> k ∈ L -> allowed (dset d k v) L.
Proof.
  intros H Hk x Hx. rewrite dkeys_dset in Hx. destruct (decide (k ∈ dkeys d)); [auto|]. apply elem_of_app in Hx as [?|Hx]; [auto|].
  by apply elem_of_list_singleton in Hx as ->.
Qed.
Lemma dupdate_ok {A} (kw d : dict A) L : allowed d L -> NoDup (dkeys d) -> allowed kw L -> allowed (dupdate d kw) L /\ NoDup (dkeys (dupdate d kw)).
Proof.
  unfold dupdate. revert d. induction kw as [|[k v] kw IH]; intros d Hd Hn Hk; simpl; [done|].
  apply IH; [apply dset_allowed; [done|apply Hk; left]|by apply dset_nodup|]. intros x Hx. apply Hk. by right.
Qed.
Lemma registry_update {T} L ords (m : gmap nat (dict (sigval T))) i kw :
  registry_ok L ords m -> i ∈ ords -> allowed kw L -> registry_ok L ords (sig_update m i kw).
Proof.
  intros H Hi Hk j d Hd. unfold sig_update in Hd. destruct (decide (i = j)) as [->|Hne].
  - rewrite lookup_insert in Hd. injection Hd as <-. split; [done|]. apply dupdate_ok; [| |done].
    + destruct (m !! j) as [d0|] eqn:E; [by eapply H|]. intros x Hx. inversion Hx.
    + destruct (m !! j) as [d0|] eqn:E; [by eapply H|]. constructor.
  - rewrite lookup_insert_ne in Hd by done. by apply H.
Qed.
Lemma registry_more {T} L ords ords' (m : gmap nat (dict (sigval T))) :
  (forall i, i ∈ ords -> i ∈ ords') -> registry_ok L ords m -> registry_ok L ords' m.
Proof. intros Hs H i d Hd. destruct (H i d Hd) as [? ?]. auto. Qed.
Lemma unique_nodup l : NoDup (unique l).
Proof.
  pose proof (unique_sorted l) as H. induction H as [|x k Hs IH Hf]; constructor; [|done].
  intros Hx. rewrite Forall_forall in Hf. apply Hf in Hx. lia.
Qed.

Section Reach.
  Context {T : Type} {N : Num T} {Tr : Trig T} (minv : list (list T) -> res (list (list T))).
  Definition keeps (P : sc T -> Prop) (s s' : sc T) : Prop := P s -> P s'.
  #[local] Instance keeps_preorder P : PreOrder (keeps P).
  Proof. split; [by intros ??|]. intros a b c H1 H2 H. auto. Qed.
  Lemma keeps_same (f : sc T -> indices * sig T) A (m : M (sc T) A) :
    (forall s, f s = (ORD s, SIG s)) -> pres (same f) m -> pres (keeps well_registered) m.
  Proof.
    intros Hf Hm s H. specialize (Hm s). unfold same in Hm. rewrite !Hf in Hm. injection Hm as E1 E2. unfold well_registered. by rewrite E1, E2.
  Qed.
  Definition os (s : sc T) : indices * sig T := (ORD s, SIG s).
  Ltac kp := repeat first
    [ pres_step | apply (keeps_same os); [done|apply pres_on_elem_same; done] ].
  Lemma well_registered_call o : distinct_keywords o -> forall s, well_registered s -> well_registered (snd (call minv o s)).
  Proof.
    intros Hkw.
    assert (forall A (m : M (sc T) A) s, pres (same os) m -> well_registered s -> well_registered (snd (m s))) as Q.
    { intros A m s Hm. by apply (keeps_same os). }
    intros s Hs.
    destruct o; unfold call; try (apply Q; [|done]; first
      [ apply same_sys_multipole | apply same_rand_multipole | apply same_apply_errors | apply same_set_cm | apply same_set_magnet
      | apply same_set_cavity | apply same_update_magnets | apply same_update_cavities | apply same_update_supports | apply same_trackMode ];
      intros; reflexivity).
    - unfold register_bpms. rewrite bind_snd. destruct (check_kwargs_spec kw BPM_ERROR_FIELDS s) as [[Ha ->]|[Ha ->]]; [|done].
      unfold mod_ORD. rewrite bind_snd. simpl.
      set (P := fun s' : sc T => well_registered s' /\ forall i, i ∈ unique ords -> i ∈ oBPM (ORD s')).
      assert (P (set_ORD (set_oBPM (unique (oBPM (ORD s) ++ ords)) (ORD s)) s)) as HP.
      { destruct Hs as (H1&H2&H3&H4&H5&H6). split; [split_and!; simpl; try done|].
        - eapply registry_more; [|done]. intros i Hi. apply unique_elem, elem_of_app. by left.
        - apply unique_nodup.
        - intros i Hi. simpl. apply unique_elem, elem_of_app. right. by apply unique_elem. }
      assert (forall A (m : M (sc T) A) Q0 s, inv P m Q0 -> P s -> well_registered (snd (m s))) as HX by (intros A m Q0 s0 Hm Hp; by apply (Hm s0 Hp)).
      eapply HX; [|exact HP]. apply inv_forM.
      intros i Hi. eapply inv_bind; [|intros _ _].
      + apply (inv_pres P (keeps P)); [auto|]. unfold mod_SIG. apply pres_modify. intros s0 [(H1&H2&H3&H4&H5&H6) H7].
        split; [|done]. split_and!; simpl; try done. apply registry_update; auto.
      + apply (inv_pres P (same os)); [|apply pres_on_elem_same; done].
        intros s0 s1 E [H7 H8]. unfold same, os in E. injection E as E1 E2. unfold P, well_registered. by rewrite E1, E2.
    - unfold register_cavities. rewrite bind_snd. destruct (check_kwargs_spec kw RF_ERROR_FIELDS s) as [[Ha ->]|[Ha ->]]; [|done].
      unfold mod_ORD. rewrite bind_snd. simpl.
      set (P := fun s' : sc T => well_registered s' /\ forall i, i ∈ unique ords -> i ∈ oRF (ORD s')).
      assert (P (set_ORD (set_oRF (unique (oRF (ORD s) ++ ords)) (ORD s)) s)) as HP.
      { destruct Hs as (H1&H2&H3&H4&H5&H6). split; [split_and!; simpl; try done|].
        - eapply registry_more; [|done]. intros i Hi. apply unique_elem, elem_of_app. by left.
        - apply unique_nodup.
        - intros i Hi. simpl. apply unique_elem, elem_of_app. right. by apply unique_elem. }
      assert (forall A (m : M (sc T) A) Q0 s, inv P m Q0 -> P s -> well_registered (snd (m s))) as HX by (intros A m Q0 s0 Hm Hp; by apply (Hm s0 Hp)).
      eapply HX; [|exact HP]. apply inv_forM.
      intros i Hi. eapply inv_bind; [|intros _ _].
      + apply (inv_pres P (keeps P)); [auto|]. unfold mod_SIG. apply pres_modify. intros s0 [(H1&H2&H3&H4&H5&H6) H7].
        split; [|done]. split_and!; simpl; try done. apply registry_update; auto.
      + apply (inv_pres P (same os)); [|apply pres_on_elem_same; done].
        intros s0 s1 E [H7 H8]. unfold same, os in E. injection E as E1 E2. unfold P, well_registered. by rewrite E1, E2.
    - unfold register_magnets. rewrite bind_snd. destruct (check_kwargs_spec errs MAGNET_ERROR_FIELDS s) as [[Ha ->]|[Ha ->]]; [|done].
      unfold mod_ORD. rewrite bind_snd. simpl.
      set (P := fun s' : sc T => well_registered s' /\ forall i, i ∈ unique ords -> i ∈ oMagnet (ORD s')).
      assert (P (set_ORD (set_oMagnet (unique (oMagnet (ORD s) ++ ords)) (ORD s)) s)) as HP.
      { destruct Hs as (H1&H2&H3&H4&H5&H6). split; [split_and!; simpl; try done|].
        - eapply registry_more; [|done]. intros i Hi. apply unique_elem, elem_of_app. by left.
        - apply unique_nodup.
        - intros i Hi. simpl. apply unique_elem, elem_of_app. right. by apply unique_elem. }
      revert HP. generalize (set_ORD (set_oMagnet (unique (oMagnet (ORD s) ++ ords)) (ORD s)) s). intros s1 HP.
      set (Q1 := fun o o' : indices => oBPM o' = oBPM o /\ oRF o' = oRF o /\ oMagnet o' = oMagnet o).
      assert (forall b (f : indices -> indices), (forall o, Q1 o (f o)) -> inv P (when b (modify (fun s => set_ORD (f (ORD s)) s))) (fun _ => True)) as HW.
      { intros b f Hf. apply (inv_pres P (keeps P)); [auto|]. apply pres_when; [exact _|]. apply pres_modify.
        intros s0 [H7 H8]. destruct (Hf (ORD s0)) as (E1&E2&E3). unfold P, well_registered. simpl. by rewrite E1, E2, E3. }
      assert (forall A (m : M (sc T) A) Q0 s, inv P m Q0 -> P s -> well_registered (snd (m s))) as HX by (intros A m Q0 s0 Hm Hp; by apply (Hm s0 Hp)).
      eapply HX; [|exact HP]. clear HX HP s1.
      eapply inv_bind; [apply (HW _ (fun o => set_oSkewQuad (unique (oSkewQuad o ++ ords)) o)); intros o; split_and!; reflexivity|intros _ _].
      eapply inv_bind; [apply (HW _ (fun o => set_oHCM (unique (oHCM o ++ ords)) o)); intros o; split_and!; reflexivity|intros _ _].
      eapply inv_bind; [apply (HW _ (fun o => set_oVCM (unique (oVCM o ++ ords)) o)); intros o; split_and!; reflexivity|intros _ _].
      apply inv_forM. intros i Hi. eapply inv_bind; [|intros _ _].
      + apply (inv_pres P (keeps P)); [auto|]. unfold mod_SIG. apply pres_modify. intros s0 [(H1&H2&H3&H4&H5&H6) H7].
        split; [|done]. split_and!; simpl; try done. apply registry_update; [done|by apply H7, unique_elem|done].
      + apply (inv_pres P (same os)); [|apply pres_bind; [exact _|apply pres_on_elem_same; done|intros _; apply pres_on_elem_same; done]].
        intros s0 s1 E [H7 H8]. unfold same, os in E. injection E as E1 E2. unfold P, well_registered. by rewrite E1, E2.
    - apply (fun H : pres (keeps well_registered) (register_supports rows t kw) => H s Hs).
      unfold register_supports, mod_ORD, mod_SIG, check_kwargs.
      repeat first [ pres_step | apply (keeps_same os); [done|apply pres_on_elem_same; done]
        | apply pres_modify; intros sx HH; exact HH
        | apply pres_modify; intros sx HH; match goal with |- context [set_oSupport ?st] => destruct st end; exact HH ].
  Qed.
  Lemma well_registered_run ops s : (forall o, o ∈ ops -> distinct_keywords o) -> well_registered s -> well_registered (run minv ops s).
  Proof.
    intros Hk Hs. induction ops as [|o ops IH] using rev_ind; [done|]. rewrite run_snoc. apply well_registered_call.
    - apply Hk, elem_of_app. right. left.
    - apply IH. intros o' Ho'. apply Hk, elem_of_app. by left.
  Qed.
  Lemma well_registered_init ring rng : well_registered (init_sc ring rng).
  Proof. split_and!; simpl; try (by apply NoDup_nil); intros i d Hd; by rewrite lookup_empty in Hd. Qed.
End Reach.

(** * The stages of apply_errors *)
Definition any (L : list string) (a : string) : Prop := a ∈ L.
(** attributes of supports *)
Definition support_name (a : string) : Prop := exists t, substring (stype_str t) a = true.
Definition CAVITY_FIELDS : list string := ["Voltage"; "Frequency"; "TimeLag"].
Definition ALIGN_FIELDS : list string := ["SupportOffset"; "SupportRoll"; "T1"; "T2"; "R1"; "R2"].
(** what is written after the three random stages *)
Definition later (a : string) : Prop :=
  a = "Length" \/ support_name a \/ a ∈ ALIGN_FIELDS \/ a ∈ DERIVED \/ a ∈ CAVITY_FIELDS.

Section Stages.
  Context {T : Type} {N : Num T}.
  Ltac eag := repeat first [ pres_step | apply pres_setattr ].

  Definition err_cells (name : string -> string) (ords : list nat) (m : gmap nat (dict (sigval T))) : list (nat * string * (string * sigval T)) :=
    concat (map (fun i => map (fun kv => (i, name kv.1, kv)) (default [] (m !! i))) (registered ords m)).
  Lemma elem_of_err_cells name ords m c :
    c ∈ err_cells name ords m <-> exists d, c.1.1 ∈ ords /\ m !! c.1.1 = Some d /\ c.2 ∈ d /\ c.1.2 = name c.2.1.
  Proof.
    unfold err_cells. rewrite elem_of_list_In, in_concat. split.
    - intros (l&Hl&Hc). apply in_map_iff in Hl as (i&<-&Hi). apply in_map_iff in Hc as (kv&<-&Hkv).
      unfold registered in Hi. apply filter_In in Hi as [Hi Hs]. simpl. destruct (m !! i) as [d|]; [|discriminate].
      exists d. repeat split; auto; by apply elem_of_list_In.
    - intros (d&Hi&Hm&Hkv&Hn). destruct c as [[i a] kv]. simpl in *. subst a. exists (map (fun kv => (i, name kv.1, kv)) (default [] (m !! i))).
      split; [apply in_map_iff; exists i; split; [reflexivity|]|].
      + unfold registered. apply filter_In. split; [by apply elem_of_list_In|]. by rewrite Hm.
      + unfold dict in *. rewrite Hm. apply in_map_iff. exists kv. split; [done|]. by apply elem_of_list_In.
  Qed.
  Lemma err_cells_nodup name L ords m : NoDup ords -> registry_ok L ords m ->
    (forall k k', k ∈ L -> k' ∈ L -> name k = name k' -> k = k') -> NoDup (map fst (err_cells name ords m)).
  Proof.
    intros Hnd Hreg Hinj. unfold err_cells.
    assert (NoDup (registered ords m)) as Hr.
    { unfold registered. clear Hreg. induction Hnd as [|x l Hx Hnd IH]; simpl; [constructor|]. destruct (isSome (m !! x)); [|done].
      constructor; [|done]. intros H. apply elem_of_list_In, filter_In in H as [H _]. apply elem_of_list_In in H. done. }
    revert Hr. generalize (registered ords m). intros l Hr. induction Hr as [|i l Hi Hr IH]; simpl; [constructor|].
    rewrite map_app. apply NoDup_app. split.
    - destruct (m !! i) as [d|] eqn:E; simpl; [|constructor]. destruct (Hreg i d E) as (_&Ha&Hd). rewrite map_map. simpl.
      clear E. induction d as [|[k v] d IHd]; simpl; [constructor|]. inversion Hd as [|? ? Hk Hd']; subst. constructor.
      + intros H. apply elem_of_list_fmap in H as ([k' v']&[= Hn]&Hin). apply Hk.
        assert (k' ∈ dkeys d) by (unfold dkeys; apply elem_of_list_fmap; by exists (k', v')).
        rewrite (Hinj k k'); [done|apply Ha; left|apply Ha; by right|done].
      + apply IHd; [|done]. intros x Hx. apply Ha. by right.
    - split; [|done]. intros [j a] H1 H2. apply elem_of_list_fmap in H1 as (c1&E1&H1). apply elem_of_list_fmap in H1 as (kv&->&_). simpl in E1. injection E1 as -> ->.
      apply elem_of_list_fmap in H2 as (c2&E2&H2). apply elem_of_list_In, in_concat in H2 as (l2&Hl2&Hc2). apply in_map_iff in Hl2 as (i2&<-&Hi2).
      apply in_map_iff in Hc2 as (kv2&<-&_). simpl in E2. injection E2 as -> _. apply elem_of_list_In in Hi2. done.
  Qed.

  Definition err_loop (name : string -> string) (body : string * sigval T -> M (sc T) (val T)) (ords : list nat) (m : gmap nat (dict (sigval T))) : M (sc T) unit :=
    forM (registered ords m) (fun ind => forM (default [] (m !! ind)) (fun kv => let! v := body kv in on_elem ind (setattr (name kv.1) v))).
  Lemma err_loop_ok {A} (f : sc T -> A) name body L ords m s u s' :
    (forall x, pres (same (@RING T)) (body x)) -> (forall x, pres (same f) (body x)) -> (forall r s, f (set_RING r s) = f s) ->
    NoDup ords -> registry_ok L ords m -> (forall k k', k ∈ L -> k' ∈ L -> name k = name k' -> k = k') ->
    err_loop name body ords m s = (Ok u, s') ->
    upto (fun a => exists k, k ∈ L /\ a = name k) s s' /\ f s' = f s /\
    (forall i d k sg, m !! i = Some d -> (k, sg) ∈ d ->
       i < length (RING s) /\ exists v s0 s1, body (k, sg) s0 = (Ok v, s1) /\ f s0 = f s /\ attr_at s' i (name k) = Some v).
  Proof.
    intros HR Hf Hset Hnd Hreg Hinj H. unfold err_loop in H.
    assert (forM (err_cells name ords m) (fun c => let! v := body c.2 in on_elem c.1.1 (setattr c.1.2 v)) s = (Ok u, s')) as H'.
    { rewrite <- H. unfold err_cells. rewrite forM_concat, forM_map. apply forM_ext. intros i s0. rewrite forM_map. by apply forM_ext. }
    apply (cells_ok f) in H' as (HL&Hfs&H1&H2); try done; [|by eapply err_cells_nodup].
    split; [|split; [done|]].
    - split; [done|]. intros i a Ha. apply H2. intros Hin. apply elem_of_list_fmap in Hin as (c&E&Hc). apply elem_of_err_cells in Hc as (d&_&Hd&Hkv&Hn).
      apply Ha. exists c.2.1. destruct c as [[i' a'] [k sg]]. simpl in *. injection E as -> ->. split; [|done].
      destruct (Hreg _ _ Hd) as (_&Hal&_). apply Hal. unfold dkeys. apply elem_of_list_fmap. by exists (k, sg).
    - intros i d k sg Hd Hk. destruct (Hreg _ _ Hd) as (Hi&_&_).
      destruct (H1 (i, name k, (k, sg))) as (Hl&v&s0&s1&?&?&?); [apply elem_of_err_cells; exists d; done|]. simpl in *. eauto 10.
  Qed.

  Definition bpm_body (nsig : T) (kv : string * sigval T) : M (sc T) (val T) :=
    if substring "Noise" kv.1 then ret (raw_sigma kv.2) else randn_cutoff kv.2 nsig.
  Lemma apply_rf_loop nsig s : apply_rf nsig s = err_loop (fun a => a) (fun kv => randn_cutoff kv.2 nsig) (oRF (ORD s)) (sRF (SIG s)) s.
  Proof. reflexivity. Qed.
  Lemma apply_magnet_loop nsig s : apply_magnet nsig s = err_loop magnet_field (fun kv => randn_cutoff kv.2 nsig) (oMagnet (ORD s)) (sMagnet (SIG s)) s.
  Proof. reflexivity. Qed.
  Lemma apply_bpm_loop nsig s : apply_bpm nsig s = err_loop (fun a => a) (bpm_body nsig) (oBPM (ORD s)) (sBPM (SIG s)) s.
  Proof.
    unfold apply_bpm, err_loop. unfold bind at 1, get. apply forM_ext. intros i s0. apply forM_ext. intros kv s1. unfold bpm_body.
    destruct (substring "Noise" kv.1); [|done]. unfold bind, ret. done.
  Qed.
End Stages.

Section Later.
  Context {T : Type} {N : Num T} {Tr : Trig T} (minv : list (list T) -> res (list (list T))).
  Lemma upto_update_magnets (P : string -> Prop) ords : (forall a, a ∈ DERIVED -> P a) -> pres (@upto T P) (update_magnets ords).
  Proof. intros HP s. eapply frame_upto; [|apply update_magnets_frame]. intros i a [Hd _]. by apply HP. Qed.
  Lemma upto_update_cavities (P : string -> Prop) ords : (forall a, a ∈ CAVITY_FIELDS -> P a) -> pres (@upto T P) (update_cavities ords).
  Proof.
    intros HP. unfold update_cavities. repeat pres_step. apply pres_on_elem_upto. unfold update_cavity. repeat pres_step. apply pres_setattr. apply HP.
    unfold RF_PROPERTIES in *. unfold CAVITY_FIELDS. assumption.
  Qed.
  Lemma upto_scale_circumference (P : string -> Prop) c mode : P "Length" -> pres (@upto T P) (scale_circumference c mode).
  Proof.
    intros HP. unfold scale_circumference. repeat first [pres_step|apply pres_on_elem_upto]. unfold scale_drift. repeat pres_step. by apply pres_setattr.
  Qed.
  Lemma upto_randn (P : string -> Prop) v cut : pres (@upto T P) (randn_cutoff v cut).
  Proof. apply pres_upto_same, same_randn_cutoff. done. Qed.
  Lemma stype_name (t : stype) x : support_name (stype_str t +:+ x).
  Proof. exists t. destruct t, x; reflexivity. Qed.
  Lemma upto_support_alignment (P : string -> Prop) nsig : (forall a, support_name a -> P a) -> pres (@upto T P) (apply_support_alignment_error nsig).
  Proof.
    intros HP. unfold apply_support_alignment_error, support_draws, support_angles.
    repeat first [ pres_step | apply pres_ring_elem; exact _ | apply upto_randn
                 | apply pres_on_elem_upto; apply pres_setattr; apply HP; first [apply stype_name | eexists; eassumption] ].
  Qed.
  Lemma upto_update_supports (P : string -> Prop) b m : (forall a, a ∈ ALIGN_FIELDS -> P a) -> pres (@upto T P) (update_supports minv b m).
  Proof.
    intros HP. assert (forall a, bool_decide (a ∈ ALIGN_FIELDS) = true -> P a) as HB by (intros a Ha; apply HP; by apply bool_decide_eq_true in Ha).
    unfold update_supports, update_transformation.
    repeat first [ pres_step | apply pres_ring_elem; exact _ | apply pres_on_elem_upto | apply pres_setattr; (by apply HB) ].
    all: try (apply pres_setattr; apply HP; unfold ALIGN_FIELDS; set_solver).
  Qed.
  Lemma upto_injection (P : string -> Prop) nsig : pres (@upto T P) (apply_injection nsig).
  Proof.
    apply pres_upto_same. unfold apply_injection, mod_INJ. repeat first [pres_step|apply same_randnc; done|apply pres_modify; done].
  Qed.
  Definition tail_of_errors (nsig : T) : M (sc T) unit :=
    apply_injection nsig ;;; apply_circumference nsig ;;; apply_support_alignment_error nsig ;;; update_supports minv true true ;;;
    (let! s := get in when (negb (length (oMagnet (ORD s)) =? 0)%nat) update_magnets_all) ;;;
    (let! s := get in when (negb (length (oRF (ORD s)) =? 0)%nat && negb (bool_decide (sRF (SIG s) = ∅))) update_cavities_all).
  Lemma upto_tail nsig : pres (upto later) (tail_of_errors nsig).
  Proof.
    unfold tail_of_errors, apply_circumference, randnc1, update_magnets_all, update_cavities_all.
    repeat first [ pres_step | apply upto_injection | apply upto_scale_circumference; by left | apply upto_support_alignment; intros; right; by left
                 | apply upto_update_supports; unfold later; tauto | apply upto_update_magnets; unfold later; tauto
                 | apply upto_update_cavities; unfold later; tauto | apply pres_upto_same, same_randnc; done ].
  Qed.
  Lemma apply_errors_ok nsig s u s' : apply_errors minv nsig s = (Ok u, s') <->
    exists s1 s2 s3, apply_rf nsig s = (Ok tt, s1) /\ apply_bpm nsig s1 = (Ok tt, s2) /\ apply_magnet nsig s2 = (Ok tt, s3) /\ tail_of_errors nsig s3 = (Ok u, s').
  Proof.
    unfold apply_errors. split.
    - intros H. apply bind_ok in H as ([]&s1&H1&H). apply bind_ok in H as ([]&s2&H2&H). apply bind_ok in H as ([]&s3&H3&H). eauto 10.
    - intros (s1&s2&s3&H1&H2&H3&H4). unfold bind at 1. rewrite H1. unfold bind at 1. rewrite H2. unfold bind at 1. rewrite H3. exact H4.
  Qed.
End Later.
