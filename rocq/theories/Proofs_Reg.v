(** Registration: ordinate lists, keyword checks, uncertainties, the design ring. *)
From stdpp Require Import base gmap strings list.
From Verif Require Import Num Base Model_Arr Model_SC Model_Err Lemmas.
From Coq Require Import Sorted.
Local Open Scope string_scope.
Local Open Scope list_scope.

(** * Projections that the modelled methods leave alone *)
Section SameProj.
  Context {T : Type} {N : Num T} {Tr : Trig T} {B : Type} (f : sc T -> B).
  Hypothesis Hring : forall r s, f (set_RING r s) = f s.
  Hypothesis Hrng : forall r s, f (set_RNG r s) = f s.
  Hypothesis Hinj : forall r s, f (set_INJ r s) = f s.
  Hypothesis Hsig : forall r s, f (set_SIG r s) = f s.

  Lemma same_draw n : pres (same f) (draw n).
  Proof. intros s. unfold draw. destruct (_ <? _)%nat; [reflexivity|apply Hrng]. Qed.
  Lemma same_randnc_loop fuel cut out : pres (same f) (randnc_loop fuel cut out).
  Proof.
    revert out. induction fuel as [|fuel IH]; intros out; simpl; repeat pres_step.
    - apply same_draw.
    - apply IH.
  Qed.
  Lemma same_randnc cut n : pres (same f) (randnc cut n).
  Proof. unfold randnc. repeat pres_step; [apply same_draw|apply same_randnc_loop]. Qed.
  Ltac st1 := first
    [ pres_step | apply pres_on_elem_same; exact Hring | apply same_randnc | apply pres_ring_elem; exact _
    | apply pres_modify; intros; apply Hsig | apply pres_modify; intros; apply Hinj ].
  Ltac st := repeat st1.
  Lemma same_scaled_draw v cut : pres (same f) (scaled_draw v cut).
  Proof. unfold scaled_draw, randnc1. st. Qed.
  Lemma same_randn_cutoff v cut : pres (same f) (randn_cutoff v cut).
  Proof. unfold randn_cutoff. destruct v; apply same_scaled_draw. Qed.
  Ltac st2 := repeat first [ st1 | apply same_randn_cutoff ].
  Lemma same_update_magnets ords : pres (same f) (update_magnets ords).
  Proof. unfold update_magnets, update_magnet. st. Qed.
  Lemma same_update_cavities ords : pres (same f) (update_cavities ords).
  Proof. unfold update_cavities. st. Qed.
  Lemma same_set_cm ords dt sps skew method : pres (same f) (set_cm_setpoints ords dt sps skew method).
  Proof. unfold set_cm_setpoints. st. apply same_update_magnets. Qed.
  Lemma same_dipcomp ord x : pres (same f) (dipole_compensation ord x).
  Proof. unfold dipole_compensation. st; apply same_set_cm. Qed.
  Lemma same_set_magnet ords dt sps skew order method dc : pres (same f) (set_magnet_setpoints ords dt sps skew order method dc).
  Proof. unfold set_magnet_setpoints, set_magnet_one. st; first [apply same_dipcomp|apply same_update_magnets]. Qed.
  Lemma same_set_cavity ords dt sps param method : pres (same f) (set_cavity_setpoints ords dt sps param method).
  Proof. unfold set_cavity_setpoints. st. apply same_update_cavities. Qed.
  Lemma same_scale_circumference c mode : pres (same f) (scale_circumference c mode).
  Proof. unfold scale_circumference. st. Qed.
  Lemma same_update_supports minv b m : pres (same f) (update_supports minv b m).
  Proof. unfold update_supports. st. Qed.
  Lemma same_support_alignment nsig : pres (same f) (apply_support_alignment_error nsig).
  Proof. unfold apply_support_alignment_error, support_draws, support_angles. st2. Qed.
  Lemma same_apply_errors minv nsig : pres (same f) (apply_errors minv nsig).
  Proof.
    unfold apply_errors, apply_rf, apply_bpm, apply_magnet, apply_injection, apply_circumference, randnc1, mod_INJ, update_magnets_all, update_cavities_all.
    repeat first [ st1 | apply same_randn_cutoff | apply same_scale_circumference | apply same_support_alignment | apply same_update_supports
                 | apply same_update_magnets | apply same_update_cavities ].
  Qed.
  Lemma same_sys_multipole ords BA order skew : pres (same f) (set_systematic_multipole_errors ords BA order skew).
  Proof. unfold set_systematic_multipole_errors. st. Qed.
  Lemma same_rand_multipole ords BA : pres (same f) (set_random_multipole_errors ords BA).
  Proof. unfold set_random_multipole_errors. st. Qed.
  Lemma same_trackMode mode : pres (same f) (on_INJ (set_trackMode mode)).
  Proof. intros s. unfold on_INJ. destruct (set_trackMode mode (INJ s)). apply Hinj. Qed.

  (** the loops of the registration methods *)
  Lemma same_bpm_loop ords kw :
    pres (same f) (forM ords (fun ind =>
      mod_SIG (fun g => set_sBPM (sig_update (sBPM g) ind kw) g) ;;; on_elem ind bpm_init)).
  Proof. unfold mod_SIG. st. Qed.
  Lemma same_rf_loop ords kw :
    pres (same f) (forM ords (fun ind =>
      mod_SIG (fun g => set_sRF (sig_update (sRF g) ind kw) g) ;;; on_elem ind rf_init)).
  Proof. unfold mod_SIG. st. Qed.
  Lemma same_magnet_loop l ords errs k :
    pres (same f) (forM l (fun ind =>
      mod_SIG (fun g => set_sMagnet (sig_update (sMagnet g) ind errs) g) ;;;
      on_elem ind magnet_init ;;; on_elem ind (optional_magnet_fields ind ords k))).
  Proof. unfold mod_SIG. st. Qed.
  Lemma same_check_kwargs {A} (kw : dict A) l : pres (same f) (check_kwargs kw l).
  Proof. unfold check_kwargs. st. Qed.
End SameProj.

(** the design ring: also registration leaves it alone *)
Section Ideal.
  Context {T : Type} {N : Num T} {Tr : Trig T}.
  Notation same_id := (same (@IDEALRING T)).
  Ltac fin := try (intros; reflexivity).
  Ltac st := repeat first
    [ pres_step | apply pres_on_elem_same; fin | apply pres_ring_elem; exact _
    | apply pres_modify; fin | apply same_check_kwargs ].
  Lemma ideal_call minv o : pres same_id (call minv o).
  Proof.
    destruct o; unfold call.
    - unfold register_bpms, mod_ORD, mod_SIG, check_kwargs. st.
    - unfold register_cavities, mod_ORD, mod_SIG, check_kwargs. st.
    - unfold register_magnets, mod_ORD, mod_SIG, check_kwargs. st.
    - unfold register_supports, mod_ORD, mod_SIG, check_kwargs. st.
    - apply same_sys_multipole; fin.
    - apply same_rand_multipole; fin.
    - apply same_apply_errors; fin.
    - apply same_set_cm; fin.
    - apply same_set_magnet; fin.
    - apply same_set_cavity; fin.
    - apply same_update_magnets; fin.
    - apply same_update_cavities; fin.
    - apply same_update_supports; fin.
    - apply same_trackMode; fin.
  Qed.
End Ideal.

Section Run.
  Context {T : Type} {N : Num T} {Tr : Trig T} (minv : list (list T) -> res (list (list T))).

  Lemma run_snoc ops o s : run minv (ops ++ [o]) s = snd (call minv o (run minv ops s)).
  Proof. unfold run. by rewrite fold_left_app. Qed.
  Lemma run_nil s : run minv [] s = s.
  Proof. reflexivity. Qed.

  Lemma ideal_run ops s : IDEALRING (run minv ops s) = IDEALRING s.
  Proof.
    induction ops as [|o ops IH] using rev_ind; [reflexivity|].
    rewrite run_snoc. etransitivity; [apply (ideal_call minv o)|exact IH].
  Qed.
End Run.

(** * np.unique *)
Lemma uinsert_elem x l y : y ∈ uinsert x l <-> y = x \/ y ∈ l.
Proof.
  induction l as [|z l IH]; simpl.
  - rewrite elem_of_list_singleton, elem_of_nil. naive_solver.
  - destruct (Nat.ltb_spec x z); [rewrite !elem_of_cons; naive_solver|].
    destruct (Nat.eqb_spec x z).
    + subst. rewrite !elem_of_cons. naive_solver.
    + rewrite !elem_of_cons, IH. naive_solver.
Qed.
Lemma unique_elem l x : x ∈ unique l <-> x ∈ l.
Proof. unfold unique. induction l as [|y l IH]; simpl; [done|]. rewrite uinsert_elem, elem_of_cons, IH. done. Qed.
Lemma uinsert_sorted x l : StronglySorted lt l -> StronglySorted lt (uinsert x l).
Proof.
  induction 1 as [|y l Hs IH Hf]; simpl.
  - repeat constructor.
  - destruct (Nat.ltb_spec x y).
    + constructor; [by constructor|]. constructor; auto. eapply Forall_impl; eauto. intros; simpl in *; lia.
    + destruct (Nat.eqb_spec x y); [by constructor|]. constructor; auto.
      apply Forall_forall. intros z Hz. apply uinsert_elem in Hz as [->|Hz]; [lia|].
      rewrite Forall_forall in Hf. auto.
Qed.
Lemma unique_sorted l : StronglySorted lt (unique l).
Proof. unfold unique. induction l; simpl; [constructor|by apply uinsert_sorted]. Qed.

(** * Ordinates *)
Definition allowed {A} (kw : dict A) (names : list string) : Prop := forall k, k ∈ dkeys kw -> k ∈ names.
Lemma check_kwargs_spec {T A} (kw : dict A) l (s : sc T) :
  (allowed kw l /\ check_kwargs kw l s = (Ok tt, s)) \/ (~ allowed kw l /\ check_kwargs kw l s = (Err ValueError, s)).
Proof.
  unfold check_kwargs. destruct (forallb _ _) eqn:E.
  - left. split; [|reflexivity]. intros k Hk.
    rewrite forallb_forall in E. apply elem_of_list_In in Hk. specialize (E k Hk). by apply bool_decide_eq_true in E.
  - right. split; [|reflexivity]. intros H. apply not_true_iff_false in E. apply E.
    apply forallb_forall. intros k Hk. apply bool_decide_eq_true. apply H. by apply elem_of_list_In.
Qed.
#[global] Instance allowed_dec {A} (kw : dict A) names : Decision (allowed kw names).
Proof.
  destruct (forallb (fun k => bool_decide (k ∈ names)) (dkeys kw)) eqn:E.
  - left. intros k Hk. rewrite forallb_forall in E. apply elem_of_list_In in Hk. specialize (E k Hk). by apply bool_decide_eq_true in E.
  - right. intros H. apply not_true_iff_false in E. apply E. apply forallb_forall. intros k Hk.
    apply bool_decide_eq_true. apply H. by apply elem_of_list_In.
Defined.

Section OrdEffect.
  Context {T : Type} {N : Num T} {Tr : Trig T} (minv : list (list T) -> res (list (list T))).

  Definition add_if (b : bool) (l ords : list nat) : list nat := if b then unique (l ++ ords) else l.

  Definition ord_effect (o : op T) (d : indices) : indices :=
    match o with
    | OpBPM ords kw => if decide (allowed kw BPM_ERROR_FIELDS) then set_oBPM (unique (oBPM d ++ ords)) d else d
    | OpRF ords kw => if decide (allowed kw RF_ERROR_FIELDS) then set_oRF (unique (oRF d ++ ords)) d else d
    | OpMagnet ords errs k =>
        if decide (allowed errs MAGNET_ERROR_FIELDS) then
          MkOrd (oBPM d) (oRF d) (unique (oMagnet d ++ ords)) (add_if (isSome (kSkewQuad k)) (oSkewQuad d) ords)
                (add_if (isSome (kHCM k)) (oHCM d) ords) (add_if (isSome (kVCM k)) (oVCM d) ords)
                (oSection d) (oPlinth d) (oGirder d)
        else d
    | OpSupport [a; b] t kw =>
        match stype_of t with
        | Some st => if decide (allowed kw SUPPORT_ERROR_FIELDS)
                     then if (length a =? length b)%nat
                          then set_oSupport st (update_double_ordinates (oSupport st d) (zip a b)) d else d
                     else d
        | None => d
        end
    | _ => d
    end.

  Lemma bind_snd {S A B} (m : M S A) (f : A -> M S B) s :
    snd (bind m f s) = match m s with (Ok a, s') => snd (f a s') | (Err _, s') => s' end.
  Proof. unfold bind. destruct (m s) as [[a|e] s1]; reflexivity. Qed.

  Lemma call_ord o s : ORD (snd (call minv o s)) = ord_effect o (ORD s).
  Proof.
    assert (forall A (m : M (sc T) A) s, pres (same (@ORD T)) m -> ORD (snd (m s)) = ORD s) as P by (intros ? ? ? H; apply H).
    destruct o; simpl ord_effect; try (apply P; first
      [ apply same_sys_multipole | apply same_rand_multipole | apply same_apply_errors | apply same_set_cm | apply same_set_magnet
      | apply same_set_cavity | apply same_update_magnets | apply same_update_cavities | apply same_update_supports | apply same_trackMode ];
      intros; reflexivity).
    - simpl. unfold register_bpms. rewrite bind_snd.
      destruct (check_kwargs_spec kw BPM_ERROR_FIELDS s) as [[Ha ->]|[Ha ->]]; [rewrite decide_True by done|by rewrite decide_False].
      unfold mod_ORD. rewrite bind_snd. simpl. rewrite P; [reflexivity|]. apply same_bpm_loop; intros; reflexivity.
    - simpl. unfold register_cavities. rewrite bind_snd.
      destruct (check_kwargs_spec kw RF_ERROR_FIELDS s) as [[Ha ->]|[Ha ->]]; [rewrite decide_True by done|by rewrite decide_False].
      unfold mod_ORD. rewrite bind_snd. simpl. rewrite P; [reflexivity|]. apply same_rf_loop; intros; reflexivity.
    - simpl. unfold register_magnets. rewrite bind_snd.
      destruct (check_kwargs_spec errs MAGNET_ERROR_FIELDS s) as [[Ha ->]|[Ha ->]]; [rewrite decide_True by done|by rewrite decide_False].
      unfold mod_ORD. rewrite bind_snd. simpl.
      destruct (isSome (kSkewQuad k)), (isSome (kHCM k)), (isSome (kVCM k)); simpl; rewrite !bind_snd; simpl; rewrite ?bind_snd; simpl;
        rewrite ?bind_snd; simpl; (rewrite P; [reflexivity|]); apply same_magnet_loop; intros; reflexivity.
    - simpl. unfold register_supports. destruct (stype_of t) as [st|]; [|destruct rows as [|? [|? [|]]]; reflexivity].
      rewrite bind_snd.
      destruct (check_kwargs_spec kw SUPPORT_ERROR_FIELDS s) as [[Ha ->]|[Ha ->]];
        [|destruct rows as [|? [|? [|]]]; try reflexivity; by rewrite decide_False].
      destruct rows as [|a [|b [|]]]; try reflexivity. rewrite decide_True by done.
      destruct (length a =? length b)%nat eqn:E; [|reflexivity].
      unfold mod_ORD. simpl. rewrite bind_snd. simpl. rewrite P; [reflexivity|].
      unfold mod_SIG. repeat first [pres_step|apply pres_on_elem_same; intros; reflexivity|apply pres_modify; intros; reflexivity].
  Qed.

  (** a list of ordinates kept through a history *)
  Lemma run_list {A} (lt : A -> A -> Prop) (proj : indices -> list A) (kept : op T -> A -> Prop) :
    (forall o d, (StronglySorted lt (proj (ord_effect o d)) \/ proj (ord_effect o d) = proj d) /\
                 (forall x, x ∈ proj (ord_effect o d) <-> x ∈ proj d \/ kept o x)) ->
    forall ops s, StronglySorted lt (proj (ORD s)) ->
    StronglySorted lt (proj (ORD (run minv ops s))) /\
    forall x, x ∈ proj (ORD (run minv ops s)) <-> x ∈ proj (ORD s) \/ exists o, o ∈ ops /\ kept o x.
  Proof.
    intros H ops s Hs. induction ops as [|o ops [IH1 IH2]] using rev_ind.
    - rewrite run_nil. split; auto. intros x. split; auto. intros [?|(o&Ho&_)]; auto. inversion Ho.
    - rewrite run_snoc, call_ord. destruct (H o (ORD (run minv ops s))) as [H1 H2]. split.
      + destruct H1 as [?|E]; [done|]. by rewrite E.
      + intros x. rewrite H2, IH2. split.
        * intros [ [?|(o'&?&?)] | ? ]; auto; right; [exists o'|exists o]; rewrite elem_of_app, ?elem_of_list_singleton; auto.
        * intros [?|(o'&Ho&?)]; auto. rewrite elem_of_app, elem_of_list_singleton in Ho.
          destruct Ho as [?| ->]; eauto.
  Qed.
End OrdEffect.

(** * Uncertainties *)
Lemma dget_dset {A} (d : dict A) k v k' : dget (dset d k v) k' = if decide (k' = k) then Some v else dget d k'.
Proof.
  induction d as [|[k0 v0] d IH]; simpl.
  - destruct (decide (k' = k)); auto.
  - destruct (decide (k = k0)) as [->|Hne]; simpl.
    + destruct (decide (k' = k0)); auto.
    + destruct (decide (k' = k0)) as [->|]; [by rewrite decide_False by congruence|]. apply IH.
Qed.
Lemma dget_None_keys {A} (d : dict A) k : dget d k = None <-> k ∉ dkeys d.
Proof.
  induction d as [|[k0 v0] d IH]; simpl; [split; [intros _ H; inversion H|auto]|].
  destruct (decide (k = k0)) as [->|]; [split; [discriminate|intros H; exfalso; apply H; left]|].
  rewrite IH, not_elem_of_cons. naive_solver.
Qed.
Lemma dget_Some_keys {A} (d : dict A) k v : dget d k = Some v -> k ∈ dkeys d.
Proof. intros H. destruct (decide (k ∈ dkeys d)); auto. apply dget_None_keys in n. congruence. Qed.
Lemma dget_dupdate {A} (kw d : dict A) k :
  NoDup (dkeys kw) -> dget (dupdate d kw) k = match dget kw k with Some v => Some v | None => dget d k end.
Proof.
  unfold dupdate. revert d. induction kw as [|[k0 v0] kw IH]; intros d Hnd; simpl; [done|].
  inversion Hnd as [|? ? Hni Hnd']; subst. rewrite IH by done. rewrite dget_dset.
  destruct (decide (k = k0)) as [->|]; [|done].
  destruct (dget kw k0) eqn:E; [|done]. apply dget_Some_keys in E. done.
Qed.

Lemma dget_in {A} (d : dict A) k v : NoDup (map fst d) -> (k, v) ∈ d -> dget d k = Some v.
Proof.
  induction d as [|[k0 v0] d IH]; intros Hnd Hin; [inversion Hin|]. simpl. inversion Hnd as [|? ? Hni Hnd']; subst.
  apply elem_of_cons in Hin. destruct Hin as [Hin|Hin].
  - injection Hin as -> ->. by rewrite decide_True.
  - rewrite decide_False; [auto|]. intros ->. apply Hni, elem_of_list_fmap. exists (k0, v). auto.
Qed.

Definition sigma_of {A} (m : gmap nat (dict A)) (i : nat) (k : string) : option A := m !! i ≫= fun d => dget d k.

Section SigLoop.
  Context {T : Type}.
  Lemma loop_sig (f : nat -> M (sc T) unit) (g : nat -> sig T -> sig T) l s u s' :
    (forall i s u s', f i s = (Ok u, s') -> SIG s' = g i (SIG s)) ->
    forM l f s = (Ok u, s') -> SIG s' = foldl (fun x i => g i x) (SIG s) l.
  Proof.
    intros Hf. revert s. induction l as [|i l IH]; intros s H; simpl in *; [by minv H|].
    apply bind_ok in H as (u1&s1&H1&H2). rewrite (IH _ H2). by rewrite (Hf _ _ _ _ H1).
  Qed.
  Lemma fold_sig_update (kw : dict (sigval T)) l m :
    NoDup (dkeys kw) ->
    let m' := foldl (fun x i => sig_update x i kw) m l in
    (forall i, i ∉ l -> m' !! i = m !! i) /\
    (forall i k, i ∈ l -> sigma_of m' i k = match dget kw k with Some v => Some v | None => sigma_of m i k end).
  Proof.
    intros Hnd. revert m. induction l as [|j l IH]; intros m; simpl.
    - split; [auto|]. intros i k Hi. inversion Hi.
    - destruct (IH (sig_update m j kw)) as [H1 H2]. split.
      + intros i Hi. apply not_elem_of_cons in Hi as [Hi1 Hi2]. rewrite H1 by done.
        unfold sig_update. by rewrite lookup_insert_ne.
      + assert (forall i k, i = j -> sigma_of (sig_update m j kw) i k =
                 match dget kw k with Some v => Some v | None => sigma_of m i k end) as Hj.
        { intros i k ->. unfold sigma_of, sig_update. rewrite lookup_insert. simpl. rewrite dget_dupdate by done.
          destruct (dget kw k); auto. destruct (m !! j); auto. }
        intros i k Hi. destruct (decide (i ∈ l)) as [Hl|Hl].
        * rewrite H2 by done. destruct (dget kw k) eqn:E; auto.
          destruct (decide (i = j)) as [Hij|Hij].
          -- rewrite (Hj i k Hij). by rewrite E.
          -- unfold sigma_of, sig_update. by rewrite lookup_insert_ne.
        * apply elem_of_cons in Hi as [->|?]; [|done].
          unfold sigma_of at 1. rewrite H1 by done. apply (Hj j k eq_refl).
  Qed.
End SigLoop.

Section SigRegister.
  Context {T : Type} {N : Num T}.
  Ltac kw s E H := let Ha := fresh in destruct (check_kwargs_spec E H s) as [[Ha ->]|[Ha ->]].

  Definition merged (m m' : gmap nat (dict (sigval T))) (ords : list nat) (kw : dict (sigval T)) : Prop :=
    (forall i, i ∉ ords -> m' !! i = m !! i) /\
    (forall i k, i ∈ ords -> sigma_of m' i k = match dget kw k with Some v => Some v | None => sigma_of m i k end).

  Lemma on_elem_SIG {A} i (m : M (elem T) A) s r s' : on_elem i m s = (r, s') -> SIG s' = SIG s.
  Proof. intros H. pose proof (pres_on_elem_same (@SIG T) i m (fun _ _ => eq_refl) s) as P. rewrite H in P. exact P. Qed.

  Lemma register_bpms_sig ords kw s u s' :
    NoDup (dkeys kw) -> register_bpms ords kw s = (Ok u, s') -> merged (sBPM (SIG s)) (sBPM (SIG s')) ords kw.
  Proof.
    intros Hnd H. unfold register_bpms in H. apply bind_ok in H as (u1&s1&H1&H).
    destruct (check_kwargs_spec kw BPM_ERROR_FIELDS s) as [[Ha E]|[Ha E]]; rewrite E in H1; [|discriminate]. injection H1 as _ <-.
    apply bind_ok in H as (u2&s2&H2&H). unfold mod_ORD in H2. minv H2.
    apply (loop_sig _ (fun i g => set_sBPM (sig_update (sBPM g) i kw) g)) in H.
    - rewrite H. simpl. set (l := unique ords).
      assert (sBPM (foldl (fun x i => set_sBPM (sig_update (sBPM x) i kw) x) (SIG s) l) = foldl (fun x i => sig_update x i kw) (sBPM (SIG s)) l) as ->.
      { generalize (SIG s). induction l as [|i l IH]; intros g; simpl; [done|]. by rewrite IH. }
      destruct (fold_sig_update kw l (sBPM (SIG s)) Hnd) as [F1 F2]. split.
      + intros i Hi. apply F1. unfold l. by rewrite unique_elem.
      + intros i k Hi. apply F2. unfold l. by rewrite unique_elem.
    - clear. intros i s u s' H. apply bind_ok in H as (u2&s2&H2&H). unfold mod_SIG in H2. minv H2.
      by apply on_elem_SIG in H.
  Qed.
  Lemma register_cavities_sig ords kw s u s' :
    NoDup (dkeys kw) -> register_cavities ords kw s = (Ok u, s') -> merged (sRF (SIG s)) (sRF (SIG s')) ords kw.
  Proof.
    intros Hnd H. unfold register_cavities in H. apply bind_ok in H as (u1&s1&H1&H).
    destruct (check_kwargs_spec kw RF_ERROR_FIELDS s) as [[Ha E]|[Ha E]]; rewrite E in H1; [|discriminate]. injection H1 as _ <-.
    apply bind_ok in H as (u2&s2&H2&H). unfold mod_ORD in H2. minv H2.
    apply (loop_sig _ (fun i g => set_sRF (sig_update (sRF g) i kw) g)) in H.
    - rewrite H. simpl. set (l := unique ords).
      assert (sRF (foldl (fun x i => set_sRF (sig_update (sRF x) i kw) x) (SIG s) l) = foldl (fun x i => sig_update x i kw) (sRF (SIG s)) l) as ->.
      { generalize (SIG s). induction l as [|i l IH]; intros g; simpl; [done|]. by rewrite IH. }
      destruct (fold_sig_update kw l (sRF (SIG s)) Hnd) as [F1 F2]. split.
      + intros i Hi. apply F1. unfold l. by rewrite unique_elem.
      + intros i k Hi. apply F2. unfold l. by rewrite unique_elem.
    - clear. intros i s u s' H. apply bind_ok in H as (u2&s2&H2&H). unfold mod_SIG in H2. minv H2.
      by apply on_elem_SIG in H.
  Qed.
  Lemma register_magnets_sig ords kw k s u s' :
    NoDup (dkeys kw) -> register_magnets ords kw k s = (Ok u, s') -> merged (sMagnet (SIG s)) (sMagnet (SIG s')) ords kw.
  Proof.
    intros Hnd H. unfold register_magnets in H. apply bind_ok in H as (u1&s1&H1&H).
    destruct (check_kwargs_spec kw MAGNET_ERROR_FIELDS s) as [[Ha E]|[Ha E]]; rewrite E in H1; [|discriminate]. injection H1 as _ <-.
    apply bind_ok in H as (?&sa&Ha1&H). apply bind_ok in H as (?&sb&Hb1&H). apply bind_ok in H as (?&sd&Hd1&H). apply bind_ok in H as (?&se&He1&H).
    assert (SIG se = SIG s) as E3.
    { clear H. unfold mod_ORD in *. minv Ha1.
      destruct (isSome (kSkewQuad k)), (isSome (kHCM k)), (isSome (kVCM k)); simpl in *; unfold modify, ret in *; simplify_eq; reflexivity. }
    apply (loop_sig _ (fun i g => set_sMagnet (sig_update (sMagnet g) i kw) g)) in H.
    - rewrite H, E3.
      assert (forall l g, sMagnet (foldl (fun x i => set_sMagnet (sig_update (sMagnet x) i kw) x) g l) = foldl (fun x i => sig_update x i kw) (sMagnet g) l) as ->.
      { clear. intros l. induction l as [|i l IH]; intros g; simpl; [done|]. by rewrite IH. }
      apply fold_sig_update, Hnd.
    - clear. intros i s u s' H. apply bind_ok in H as (u2&s2&H2&H). unfold mod_SIG in H2. minv H2.
      apply bind_ok in H as (u3&s3&H3&H). apply on_elem_SIG in H, H3. by rewrite H, H3.
  Qed.
End SigRegister.
