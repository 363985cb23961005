(** Properties of the optics fit (pySC/correction/loco.py): C60. *)
From Coq Require Import Reals Lra Lia ZArith.
From stdpp Require Import base gmap strings list.
From Verif Require Import Num Base Model_Arr Model_SC Model_Err Lemmas Spec Proofs_Update Proofs_Setpoint Proofs_Loop Properties_Setpoint Properties_Setpoint3
  Model_Beam Proofs_Beam Proofs_Mat Model_Pinv Properties_Pinv Model_Orbit Model_Lattice Model_Loco Proofs_Field Properties_Field Proofs_Back.
Local Open Scope string_scope.
Local Open Scope list_scope.
Local Open Scope R_scope.

(** * Mask *)
(** The mask covers the quadrupoles, then the correctors, then the BPMs, and is set exactly on the groups named. *)
Theorem C60_mask names quads corr bpm k :
  parameters_mask names (quads, corr, bpm) !! k =
  if (k <? quads)%nat then Some (bool_decide ("quads" ∈ names))
  else if (k <? quads + corr)%nat then Some (bool_decide ("cor" ∈ names))
  else if (k <? quads + corr + bpm)%nat then Some (bool_decide ("bpm" ∈ names))
  else None.
Proof.
  unfold parameters_mask. destruct (Nat.ltb_spec k quads).
  - rewrite lookup_app_l by (by rewrite replicate_length). by apply lookup_replicate_2.
  - rewrite lookup_app_r by (rewrite replicate_length; lia). rewrite replicate_length. destruct (Nat.ltb_spec k (quads + corr)).
    + rewrite lookup_app_l by (rewrite replicate_length; lia). apply lookup_replicate_2. lia.
    + rewrite lookup_app_r by (rewrite replicate_length; lia). rewrite replicate_length. destruct (Nat.ltb_spec k (quads + corr + bpm)).
      * apply lookup_replicate_2. lia.
      * apply lookup_ge_None_2. rewrite replicate_length. lia.
Qed.
(** Selecting by the mask keeps the order and exactly the entries of the groups named. *)
Theorem C60_selected {A} names (lq lc lb : list A) :
  masked (parameters_mask names (length lq, length lc, length lb)) (lq ++ lc ++ lb) =
  Ok ((if bool_decide ("quads" ∈ names) then lq else []) ++ (if bool_decide ("cor" ∈ names) then lc else []) ++ (if bool_decide ("bpm" ∈ names) then lb else [])).
Proof.
  unfold masked, parameters_mask. rewrite !app_length, !replicate_length, Nat.eqb_refl. f_equal.
  assert (forall (b : bool) (l : list A) m l', selected (replicate (length l) b ++ m) (l ++ l') = (if b then l else []) ++ selected m l') as Hs.
  { intros b l m l'. induction l as [|x l IH]; [by destruct b|]. cbn. rewrite IH. by destruct b. }
  rewrite !Hs. do 2 f_equal. pose proof (Hs (bool_decide ("bpm" ∈ names)) lb [] []) as E. rewrite !app_nil_r in E. cbn [selected] in E. exact E.
Qed.
(** A guess or jacobian of another length is refused. *)
Theorem C60_wrong_length {A} names quads corr bpm (l : list A) : length l <> (quads + corr + bpm)%nat -> masked (parameters_mask names (quads, corr, bpm)) l = Err IndexError.
Proof.
  intros H. unfold masked, parameters_mask. rewrite !app_length, !replicate_length. destruct (Nat.eqb_spec (quads + (corr + bpm)) (length l)); [lia|done].
Qed.
Print Assumptions C60_mask.
Print Assumptions C60_selected.
Print Assumptions C60_wrong_length.

(** * Tables *)
Section Tables.
  Notation matrix := (list (list R)).
  Lemma shape_table r c f : shape r c (table r c f : matrix).
  Proof. unfold table. split; [by rewrite map_length, seq_length|]. apply Forall_forall. intros row Hr. apply elem_of_list_fmap in Hr as (i&->&_). by rewrite map_length, seq_length. Qed.
  Lemma get_table r c f i j : (i < r)%nat -> (j < c)%nat -> mget (table r c f : matrix) i j = f i j.
  Proof. intros Hi Hj. unfold table. apply (mget_table f (seq 0 r) c i j i); [by apply lookup_seq_lt|done]. Qed.
  Lemma shape_width r c (m : matrix) : shape r c m -> (0 < r)%nat -> width m = c.
  Proof. intros [H1 H2] Hr. destruct m; [cbn in H1; lia|]. by inversion H2. Qed.
  Lemma shape_map r c (f : R -> R) (m : matrix) : shape r c m -> shape r c (map (map f) m).
  Proof. intros [H1 H2]. split; [by rewrite map_length|]. apply Forall_map. eapply Forall_impl; [exact H2|]. intros l Hl. cbn. by rewrite map_length. Qed.
  Lemma get_map r c (f : R -> R) (m : matrix) i j : shape r c m -> (i < r)%nat -> (j < c)%nat -> mget (map (map f) m) i j = f (mget m i j).
  Proof.
    intros H Hi Hj. destruct (shape_row _ _ _ _ H Hi) as (row&Hrow&HL). unfold mget. change (@map) with (@fmap list _). rewrite list_lookup_fmap, Hrow. cbn [fmap option_fmap option_map mbind option_bind].
    rewrite list_lookup_fmap. destruct (row !! j) eqn:E; [done|]. apply lookup_ge_None in E. lia.
  Qed.
  Lemma rows_of_concat r c (m : matrix) : shape r c m -> rows_of c r (concat m) = m.
  Proof.
    intros [H1 H2]. subst r. induction m as [|row m IH]; [done|]. inversion H2; subst. cbn. rewrite take_app, drop_app. by rewrite IH.
  Qed.
  Lemma concat_length r c (m : matrix) : shape r c m -> length (concat m) = (r * c)%nat.
  Proof. intros [H1 H2]. subst r. induction m as [|row m IH]; [done|]. inversion H2; subst. cbn. rewrite app_length, IH by done. done. Qed.
  Lemma concat_get r c (m : matrix) i j : shape r c m -> (i < r)%nat -> (j < c)%nat -> concat m !! (i * c + j)%nat = Some (mget m i j).
  Proof.
    intros [H1 H2] Hi Hj. subst r. revert i Hi. induction m as [|row m IH]; intros i Hi; [cbn in Hi; lia|]. inversion H2; subst. cbn [concat]. destruct i as [|i].
    - cbn [Nat.mul Nat.add]. rewrite lookup_app_l by done. unfold mget. cbn. destruct (row !! j) eqn:E; [done|]. apply lookup_ge_None in E. lia.
    - rewrite lookup_app_r by (cbn; lia). replace (S i * length row + j - length row)%nat with (i * length row + j)%nat by (cbn; lia). rewrite IH; [done|done|cbn in Hi; lia].
  Qed.
  Lemma nsum_sumn (l : list R) : nsum l = sumn (length l) (vget l).
  Proof. by rewrite nsum_rsum, rsum_sumn. Qed.
  Lemma nsum_total r c (m : matrix) : shape r c m -> nsum (map nsum m) = sumn r (fun i => sumn c (mget m i)).
  Proof.
    intros H. destruct H as [H1 H2] eqn:E. rewrite nsum_sumn, map_length, H1. apply sumn_ext. intros i Hi. destruct (shape_row _ _ _ _ H Hi) as (row&Hrow&HL).
    unfold vget. change (@map) with (@fmap list _). rewrite list_lookup_fmap, Hrow. cbn. rewrite nsum_sumn, HL. apply sumn_ext. intros j _. by rewrite mget_row, Hrow.
  Qed.
End Tables.

(** * Jacobian of the gains *)
Section Gains.
  Notation matrix := (list (list R)).
  (** slice [i] of the jacobian as a function; outside of the jacobian zero *)
  Definition slice (js : list matrix) (i r c : nat) : R := mget (default [] (js !! i)) r c.

  (** The jacobian holds one slice per quadrupole, then one per corrector, with only the column of this corrector, then one
      per BPM and plane, with only the row of it. *)
  Theorem C60_gain_slices copies w chunks bpms hcm vcm mode dkick ideal cm skew order method dk (s : sc R) js nr nc :
    shape nr nc cm -> (0 < nr)%nat -> calculate_jacobian copies w chunks bpms hcm vcm mode dkick ideal cm skew order method dk true s = Ok js ->
    let nq := length (concat chunks) in
    length js = (nq + (length hcm + length vcm) + length bpms * 2)%nat /\
    (forall i r c, (i < length hcm + length vcm)%nat -> (r < nr)%nat -> (c < nc)%nat -> slice js (nq + i) r c = if (c =? i)%nat then mget cm r c else 0) /\
    (forall i r c, (i < length bpms * 2)%nat -> (r < nr)%nat -> (c < nc)%nat -> slice js (nq + (length hcm + length vcm) + i) r c = if (r =? i)%nat then mget cm r c else 0).
  Proof.
    intros Hc Hr0 H. unfold calculate_jacobian in H. apply rbind_ok in H as (pc&Hpc&H). apply rbind_ok in H as (res&Hres&H). apply rbind_ok in H as (jc&Hjc&H). apply rbind_ok in H as (jb&Hjb&H).
    assert (js = res ++ jc ++ jb) as -> by (destruct res; [discriminate|by injection H as <-]). apply rmap_ok in Hpc, Hres, Hjc, Hjb. cbv zeta.
    assert (length res = length (concat chunks)) as HLr.
    { rewrite <- (Forall2_length _ _ _ Hres). clear -Hpc. induction Hpc as [|q p chunks pc Hp Hpc IH]; [done|]. cbn. rewrite !app_length, IH. f_equal.
      destruct (mapM q _ s) as [x t] eqn:E. cbn in Hp. subst x. clear -E. revert s t p E. induction q as [|a q IH]; intros s t p E; cbn in E; [by minv E|].
      apply bind_ok in E as (y&s1&_&E). apply bind_ok in E as (ys&s2&E&E2). minv E2. cbn. f_equal. by eapply IH. }
    pose proof (Forall2_length _ _ _ Hjc) as HLc. pose proof (Forall2_length _ _ _ Hjb) as HLb. rewrite seq_length in HLc, HLb.
    destruct Hc as [Hlen Hrows] eqn:E. pose proof (shape_width _ _ _ Hc Hr0) as Hw.
    split; [rewrite !app_length; lia|]. split; intros i r c Hi Hr Hcc; unfold slice.
    - rewrite <- HLr, lookup_app_r, Nat.add_comm, Nat.add_sub by lia. rewrite lookup_app_l by lia.
      destruct (jc !! i) as [m|] eqn:Em; [|apply lookup_ge_None in Em; lia]. eapply Forall2_lookup_r in Hjc as (k&Hk&Hm); [|exact Em]. apply lookup_seq in Hk as [-> _].
      unfold corrector_slice in Hm. destruct (_ <? _)%nat; [|discriminate]. injection Hm as <-. unfold from_option, Datatypes.id. rewrite Hlen, Hw. rewrite get_table by done. done.
    - rewrite <- HLr, HLc, lookup_app_r by lia. rewrite lookup_app_r by lia. replace (_ - length jc)%nat with i by lia.
      destruct (jb !! i) as [m|] eqn:Em; [|apply lookup_ge_None in Em; lia]. eapply Forall2_lookup_r in Hjb as (k&Hk&Hm); [|exact Em]. apply lookup_seq in Hk as [-> _].
      unfold bpm_slice in Hm. destruct (_ <? _)%nat; [|discriminate]. injection Hm as <-. unfold from_option, Datatypes.id. rewrite Hlen, Hw. rewrite get_table by done. done.
  Qed.
  (** What these slices stand for: a response matrix seen with gain errors [h] of the BPMs and [g] of the correctors differs from
      the model by the combination of the slices with the errors as coefficients, up to the product of the two errors. *)
  Theorem C60_gain_model copies w chunks bpms hcm vcm mode dkick ideal cm skew order method dk (s : sc R) js (g h : nat -> R) r c :
    shape (length bpms * 2) (length hcm + length vcm) cm -> calculate_jacobian copies w chunks bpms hcm vcm mode dkick ideal cm skew order method dk true s = Ok js ->
    (r < length bpms * 2)%nat -> (c < length hcm + length vcm)%nat ->
    let nq := length (concat chunks) in let nc := (length hcm + length vcm)%nat in
    (1 + h r) * mget cm r c * (1 + g c) - mget cm r c =
    sumn nc (fun i => g i * slice js (nq + i) r c) + sumn (length bpms * 2) (fun i => h i * slice js (nq + nc + i) r c) + h r * g c * mget cm r c.
  Proof.
    intros Hs H Hr Hc. cbv zeta. destruct (C60_gain_slices _ _ _ _ _ _ _ _ _ _ _ _ _ _ _ _ _ _ Hs ltac:(lia) H) as (_&H1&H2).
    rewrite (sumn_ext _ (fun i => g i * slice js (length (concat chunks) + i) r c) (fun i => delta c i * (g i * mget cm r c))).
    - rewrite sumn_delta by done. rewrite (sumn_ext _ (fun i => h i * _) (fun i => delta r i * (h i * mget cm r c))).
      + rewrite sumn_delta by done. ring.
      + intros i Hi. rewrite H2 by done. unfold delta. destruct (r =? i)%nat; ring.
    - intros i Hi. rewrite H1 by done. unfold delta. destruct (c =? i)%nat; ring.
  Qed.
End Gains.
Print Assumptions C60_gain_slices.
Print Assumptions C60_gain_model.

(** * The objective *)
Section Objective.
  Notation matrix := (list (list R)).
  (** what parameters [p] leave unexplained of the difference between measured and modelled response, with slices [js] *)
  Definition unexplained (measured model : matrix) (js : list matrix) (p : list R) (r c : nat) : R :=
    mget measured r c - mget model r c - sumn (length js) (fun i => vget p i * slice js i r c).

  Lemma modelled_sumn (js : list matrix) (p : list R) r c : length p = length js -> modelled js p r c = sumn (length js) (fun i => vget p i * slice js i r c).
  Proof.
    intros HL. unfold modelled. rewrite nsum_sumn, zip_with_length, HL, Nat.min_id. apply sumn_ext. intros i Hi. unfold vget, slice. rewrite lookup_zip_with.
    destruct (p !! i) eqn:E1; [|apply lookup_ge_None in E1; lia]. destruct (js !! i) eqn:E2; [|apply lookup_ge_None in E2; lia]. done.
  Qed.
  Lemma same_shape_true nr nc (a b : matrix) : shape nr nc a -> shape nr nc b -> (0 < nr)%nat -> same_shape a b = true.
  Proof. intros Ha Hb Hr. unfold same_shape. rewrite (shape_width _ _ _ Ha Hr), (shape_width _ _ _ Hb Hr). destruct Ha as [-> _], Hb as [-> _]. by rewrite !Nat.eqb_refl. Qed.
  Lemma mminus_table nr nc (a b : matrix) : shape nr nc a -> shape nr nc b -> (0 < nr)%nat -> mminus a b = Ok (table nr nc (fun r c => mget a r c - mget b r c)).
  Proof.
    intros Ha Hb Hr. unfold mminus. rewrite (same_shape_true nr nc) by done. rewrite (shape_width _ _ _ Ha Hr). by destruct Ha as [-> _].
  Qed.
  Lemma objective_value measured model js p w nr nc resid : shape nr nc measured -> shape nr nc model -> Forall (shape nr nc) js -> (0 < nr)%nat -> length p = length js ->
    mminus measured model = Ok resid ->
    exists m, objective p resid js (inl w) = Ok (concat m) /\ shape nc nr m /\ forall r c, (r < nr)%nat -> (c < nc)%nat -> mget m c r = R_sqrt.sqrt w * unexplained measured model js p r c.
  Proof.
    intros Hm Hc Hj Hr HL E. rewrite (mminus_table nr nc) in E by done. injection E as <-. unfold objective. rewrite HL, Nat.eqb_refl.
    assert (forallb (same_shape (table nr nc (fun r c => mget measured r c - mget model r c))) js = true) as ->.
    { apply forallb_forall. intros j Hin. apply (same_shape_true nr nc); [apply shape_table| |done]. eapply Forall_forall; [exact Hj|]. by apply elem_of_list_In. }
    cbn [andb]. cbn [weigh sqrt_weights rbind]. assert (shape nr nc (misfit (table nr nc (fun r c => mget measured r c - mget model r c)) js p)) as Hs.
    { unfold misfit. rewrite (shape_width nr nc) by (done || apply shape_table). rewrite (proj1 (shape_table nr nc _)). apply shape_table. }
    eexists. split; [reflexivity|]. split; [apply shape_map; by apply shape_mtrans|]. intros r c Hrr Hcc.
    rewrite (get_map nc nr) by (done || by apply shape_mtrans). rewrite (mget_mtrans nr nc) by done. unfold misfit. rewrite (shape_width nr nc) by (done || apply shape_table). rewrite (proj1 (shape_table nr nc _)).
    rewrite get_table by done. rewrite get_table by done. rewrite modelled_sumn by done. unfold unexplained. num_R. cbn. ring.
  Qed.

  (** The objective lists, corrector by corrector and within it BPM by BPM, what the parameters leave unexplained, times the
      root of the weight. *)
  Theorem C60_objective measured model js p w nr nc resid : shape nr nc measured -> shape nr nc model -> Forall (shape nr nc) js -> (0 < nr)%nat -> length p = length js ->
    mminus measured model = Ok resid ->
    exists l, objective p resid js (inl w) = Ok l /\ length l = (nc * nr)%nat /\
      forall r c, (r < nr)%nat -> (c < nc)%nat -> l !! (c * nr + r)%nat = Some (R_sqrt.sqrt w * unexplained measured model js p r c).
  Proof.
    intros Hm Hc Hj Hr HL E. destruct (objective_value measured model js p w nr nc resid Hm Hc Hj Hr HL E) as (m&H1&H2&H3).
    exists (concat m). split; [done|]. split; [by apply concat_length|]. intros r c Hrr Hcc. rewrite <- H3 by done. by apply (concat_get nc nr).
  Qed.
  (** It vanishes exactly for the parameters that explain the whole difference. *)
  Theorem C60_objective_zero measured model js p w nr nc resid : shape nr nc measured -> shape nr nc model -> Forall (shape nr nc) js -> (0 < nr)%nat -> length p = length js -> 0 < w ->
    mminus measured model = Ok resid ->
    (exists l, objective p resid js (inl w) = Ok l /\ Forall (fun x => x = 0) l) <->
    forall r c, (r < nr)%nat -> (c < nc)%nat -> mget measured r c = mget model r c + sumn (length js) (fun i => vget p i * slice js i r c).
  Proof.
    intros Hm Hc Hj Hr HL Hw E. destruct (C60_objective measured model js p w nr nc resid Hm Hc Hj Hr HL E) as (l&H1&H2&H3). pose proof (sqrt_lt_R0 w Hw) as Hsq. split.
    - intros (l'&E'&Hz) r c Hrr Hcc. rewrite H1 in E'. injection E' as <-. specialize (H3 r c Hrr Hcc). eapply Forall_lookup_1 in Hz; [|exact H3]. cbn in Hz.
      apply Rmult_integral in Hz as [Hz|Hz]; [lra|]. unfold unexplained in Hz. lra.
    - intros Hall. exists l. split; [done|]. apply Forall_lookup. intros k x Hk. pose proof (lookup_lt_Some _ _ _ Hk) as Hlt. rewrite H2 in Hlt.
      assert (k = ((k / nr) * nr + k mod nr))%nat as Ek by (rewrite Nat.mul_comm; apply Nat.div_mod; lia). pose proof (Nat.mod_upper_bound k nr ltac:(lia)) as Hmod.
      assert (k / nr < nc)%nat as Hd by (apply Nat.div_lt_upper_bound; lia). specialize (H3 _ _ Hmod Hd). rewrite <- Ek, Hk in H3. injection H3 as ->.
      unfold unexplained. rewrite Hall by done. ring.
  Qed.
End Objective.
Print Assumptions C60_objective.
Print Assumptions C60_objective_zero.

(** * The step *)
Section Step.
  Notation matrix := (list (list R)).
  (** sum of a row of a slice, over the correctors *)
  Definition rowsum (js : list matrix) (nc i r : nat) : R := sumn nc (slice js i r).
  Definition restsum (measured model : matrix) (js : list matrix) (p : list R) (nc r : nat) : R := sumn nc (unexplained measured model js p r).
  (** the normal matrix of the row sums *)
  Definition normal (js : list matrix) (nr nc i j : nat) : R := sumn nr (fun r => rowsum js nc i r * rowsum js nc j r).
  Definition damped (js : list matrix) (nr nc : nat) (lambda : R) (i j : nat) : R := normal js nr nc i j + lambda * (if (i =? j)%nat then normal js nr nc i j else 0).

  (** A generalised inverse [x] of a matrix [n + d], [n] the squares of [a], [d] a non-negative diagonal, solves the equations whose
      right-hand side comes from [a]. *)
  Lemma solves n nr (a : nat -> nat -> R) (d : nat -> R) (mm x : nat -> nat -> R) (rho : nat -> R) :
    (forall i j, (i < n)%nat -> (j < n)%nat -> mm i j = sumn nr (fun r => a i r * a j r) + d i * delta i j) -> (forall i, (i < n)%nat -> 0 <= d i) ->
    (forall i j, (i < n)%nat -> (j < n)%nat -> sumn n (fun k => sumn n (fun l => mm i l * x l k) * mm k j) = mm i j) ->
    forall i, (i < n)%nat -> sumn n (fun l => mm i l * sumn n (fun k => x l k * sumn nr (fun r => a k r * rho r))) = sumn nr (fun r => a i r * rho r).
  Proof.
    intros Hm Hd Hx i Hi. set (W := fun k => delta i k - sumn n (fun l => mm i l * x l k)).
    assert (forall j, (j < n)%nat -> sumn n (fun k => W k * mm k j) = 0) as HW.
    { intros j Hj. transitivity (sumn n (fun k => delta i k * mm k j) + sumn n (fun k => (-1) * (sumn n (fun l => mm i l * x l k) * mm k j))).
      - rewrite <- sumn_plus. apply sumn_ext. intros k _. unfold W. ring.
      - rewrite sumn_delta, sumn_scal, Hx by done. ring. }
    assert (sumn n (fun j => W j * sumn n (fun k => W k * mm k j)) = 0) as HQ.
    { apply sumn_zero. intros j Hj. rewrite HW by done. ring. }
    assert (sumn nr (fun r => sumn n (fun k => W k * a k r) * sumn n (fun k => W k * a k r)) + sumn n (fun j => d j * (W j * W j)) = 0) as HS.
    { rewrite <- HQ. transitivity (sumn n (fun j => W j * sumn n (fun k => W k * sumn nr (fun r => a k r * a j r)) + d j * (W j * W j))).
      - rewrite sumn_plus. f_equal. transitivity (sumn nr (fun r => sumn n (fun j => sumn n (fun k => W j * a j r * (W k * a k r))))).
        + apply sumn_ext. intros r _. rewrite <- sumn_scal_r. apply sumn_ext. intros j _. by rewrite sumn_scal.
        + rewrite sumn_swap. apply sumn_ext. intros j _. rewrite sumn_swap. rewrite <- sumn_scal. apply sumn_ext. intros k _. rewrite <- !sumn_scal. apply sumn_ext. intros r _. ring.
      - apply sumn_ext. intros j Hj. transitivity (W j * (sumn n (fun k => W k * sumn nr (fun r => a k r * a j r)) + d j * W j)); [ring|]. f_equal.
        rewrite (sumn_ext n (fun k => W k * mm k j) (fun k => W k * sumn nr (fun r => a k r * a j r) + (d k * W k) * delta k j)).
        + rewrite sumn_plus, sumn_delta_r by done. ring.
        + intros k Hk. rewrite Hm by done. ring. }
    assert (0 <= sumn n (fun j => d j * (W j * W j))) as Hp.
    { apply sumn_pos. intros k Hk. apply Rmult_le_pos; [by apply Hd|]. pose proof (Rle_0_sqr (W k)). done. }
    pose proof (sumn_sq_nonneg nr (fun r => sumn n (fun k => W k * a k r))) as Hp2. cbn beta in Hp2.
    pose proof (sumn_sq_zero nr (fun r => sumn n (fun k => W k * a k r)) ltac:(cbn beta; lra)) as HA. cbn beta in HA.
    transitivity (sumn nr (fun r => (a i r - sumn n (fun k => W k * a k r)) * rho r)).
    2: { apply sumn_ext. intros r Hr. rewrite HA by done. ring. }
    transitivity (sumn nr (fun r => sumn n (fun k => sumn n (fun l => mm i l * x l k) * a k r) * rho r)).
    2: { apply sumn_ext. intros r Hr. f_equal. transitivity (sumn n (fun k => delta i k * a k r) - sumn n (fun k => W k * a k r)); [|by rewrite sumn_delta].
         unfold Rminus. replace (- sumn n (fun k => W k * a k r)) with ((-1) * sumn n (fun k => W k * a k r)) by ring.
         rewrite <- sumn_scal, <- sumn_plus. apply sumn_ext. intros k _. unfold W. ring. }
    transitivity (sumn n (fun k => sumn n (fun l => mm i l * x l k) * sumn nr (fun r => a k r * rho r))).
    - transitivity (sumn n (fun l => sumn n (fun k => mm i l * x l k * sumn nr (fun r => a k r * rho r)))).
      + apply sumn_ext. intros l _. rewrite <- sumn_scal. apply sumn_ext. intros k _. ring.
      + rewrite sumn_swap. apply sumn_ext. intros k _. by rewrite sumn_scal_r.
    - transitivity (sumn nr (fun r => sumn n (fun k => sumn n (fun l => mm i l * x l k) * (a k r * rho r)))).
      + rewrite sumn_swap. apply sumn_ext. intros k _. by rewrite sumn_scal.
      + apply sumn_ext. intros r _. rewrite <- sumn_scal_r. apply sumn_ext. intros k _. ring.
  Qed.
  Lemma normal_minimises n nr (a : nat -> nat -> R) (rho x y : nat -> R) :
    (forall i, (i < n)%nat -> sumn n (fun j => sumn nr (fun r => a i r * a j r) * x j) = sumn nr (fun r => a i r * rho r)) ->
    sumn nr (fun r => (rho r - sumn n (fun i => x i * a i r)) * (rho r - sumn n (fun i => x i * a i r))) <= sumn nr (fun r => (rho r - sumn n (fun i => y i * a i r)) * (rho r - sumn n (fun i => y i * a i r))).
  Proof.
    intros Hx. set (ex := fun r => rho r - sumn n (fun i => x i * a i r)). set (d := fun r => sumn n (fun i => (y i - x i) * a i r)).
    assert (forall r, rho r - sumn n (fun i => y i * a i r) = ex r - d r) as Hy.
    { intros r. unfold ex, d. rewrite (sumn_ext n (fun i => (y i - x i) * a i r) (fun i => y i * a i r + (-1) * (x i * a i r))) by (intros; ring). rewrite sumn_plus, sumn_scal. ring. }
    assert (sumn nr (fun r => ex r * d r) = 0) as Hc.
    { transitivity (sumn n (fun i => (y i - x i) * (sumn nr (fun r => a i r * rho r) - sumn n (fun j => sumn nr (fun r => a i r * a j r) * x j)))).
      - transitivity (sumn nr (fun r => sumn n (fun i => (y i - x i) * (a i r * ex r)))).
        + apply sumn_ext. intros r _. unfold d. rewrite <- sumn_scal. apply sumn_ext. intros; ring.
        + rewrite sumn_swap. apply sumn_ext. intros i _. rewrite sumn_scal. f_equal. unfold ex.
          rewrite (sumn_ext nr _ (fun r => a i r * rho r + (-1) * (a i r * sumn n (fun j => x j * a j r)))) by (intros; ring). rewrite sumn_plus, sumn_scal.
          rewrite (sumn_ext n (fun j => sumn nr (fun r => a i r * a j r) * x j) (fun j => sumn nr (fun r => a i r * (x j * a j r)))).
          * rewrite sumn_swap. rewrite (sumn_ext nr (fun r => a i r * sumn n _) (fun r => sumn n (fun j => a i r * (x j * a j r)))) by (intros r _; by rewrite sumn_scal). ring.
          * intros j _. rewrite <- sumn_scal_r. apply sumn_ext. intros; ring.
      - apply sumn_zero. intros i Hi. rewrite Hx by done. ring. }
    rewrite (sumn_ext nr (fun r => (rho r - sumn n (fun i => y i * a i r)) * _) (fun r => ex r * ex r + (-2) * (ex r * d r) + d r * d r)) by (intros r _; rewrite Hy; ring).
    rewrite !sumn_plus, sumn_scal, Hc. pose proof (sumn_sq_nonneg nr d). match goal with |- _ <= ?b => change (sumn nr (fun r => ex r * ex r) <= b) end. lra.
  Qed.
  Lemma normal_kernel n nr (a : nat -> nat -> R) (z : nat -> R) :
    (forall i, (i < n)%nat -> sumn n (fun j => sumn nr (fun r => a i r * a j r) * z j) = 0) -> forall r, (r < nr)%nat -> sumn n (fun i => z i * a i r) = 0.
  Proof.
    intros Hz. apply (sumn_sq_zero nr (fun r => sumn n (fun i => z i * a i r))). transitivity (sumn n (fun i => z i * sumn n (fun j => sumn nr (fun r => a i r * a j r) * z j))).
    - transitivity (sumn nr (fun r => sumn n (fun i => sumn n (fun j => z i * (a i r * a j r * z j))))).
      + apply sumn_ext. intros r _. rewrite <- sumn_scal_r. apply sumn_ext. intros i _. rewrite <- sumn_scal. apply sumn_ext. intros; ring.
      + rewrite sumn_swap. apply sumn_ext. intros i _. rewrite sumn_swap. rewrite <- sumn_scal. apply sumn_ext. intros j _. rewrite sumn_scal. f_equal. by rewrite sumn_scal_r.
    - apply sumn_zero. intros i Hi. rewrite Hz by done. ring.
  Qed.

  Lemma column_sums_shape js nr nc : Forall (shape nr nc) js -> shape (length js) nr (column_sums js).
  Proof.
    intros H. unfold column_sums. split; [by rewrite map_length|]. apply Forall_map. eapply Forall_impl; [exact H|]. intros j [Hj _]. cbn. by rewrite map_length.
  Qed.
  Lemma slice_shape js nr nc i : Forall (shape nr nc) js -> (i < length js)%nat -> exists j, js !! i = Some j /\ shape nr nc j /\ forall r c, slice js i r c = mget j r c.
  Proof.
    intros H Hi. destruct (js !! i) as [j|] eqn:E; [|apply lookup_ge_None in E; lia]. exists j. split; [done|]. split; [by eapply Forall_lookup_1|]. intros r c. unfold slice. by rewrite E.
  Qed.
  Lemma rowsum_get (j : matrix) nr nc r : shape nr nc j -> (r < nr)%nat -> vget (map nsum j) r = sumn nc (mget j r).
  Proof.
    intros H Hr. destruct (shape_row _ _ _ _ H Hr) as (row&Hrow&HL). unfold vget. change (@map) with (@fmap list _). rewrite list_lookup_fmap, Hrow. cbn. rewrite nsum_sumn, HL.
    apply sumn_ext. intros c _. by rewrite mget_row, Hrow.
  Qed.
  Lemma column_sums_get js nr nc i r : Forall (shape nr nc) js -> (i < length js)%nat -> (r < nr)%nat -> mget (column_sums js) i r = rowsum js nc i r.
  Proof.
    intros H Hi Hr. destruct (slice_shape _ _ _ _ H Hi) as (j&Hj&Hsj&Hg). rewrite mget_row. unfold column_sums. change (@map (list (list R))) with (@fmap list _ (list (list R))). rewrite list_lookup_fmap, Hj.
    cbn [fmap option_fmap option_map from_option]. unfold Datatypes.id. rewrite (rowsum_get j nr nc) by done. apply sumn_ext. intros c _. by rewrite Hg.
  Qed.
  Lemma selected_prefix {A} n m (l : list A) : length l = (n + m)%nat -> masked (replicate n true ++ replicate m false) l = Ok (take n l).
  Proof.
    intros HL. unfold masked. rewrite app_length, !replicate_length, HL, Nat.eqb_refl. f_equal. revert l HL. induction n as [|n IH]; intros l HL.
    - cbn. clear HL. revert l. induction m as [|m IH]; intros l; [done|]. destruct l; [done|]. cbn. apply IH.
    - destruct l as [|x l]; [cbn in HL; lia|]. cbn. f_equal. apply IH. cbn in HL. lia.
  Qed.
  Lemma rmap_table {A} (f : nat -> res A) (g : nat -> A) n : (forall i, (i < n)%nat -> f i = Ok (g i)) -> rmap f (seq 0 n) = Ok (map g (seq 0 n)).
  Proof.
    intros H. assert (forall l, (forall i, i ∈ l -> f i = Ok (g i)) -> rmap f l = Ok (map g l)) as Hl.
    { induction l as [|a l IH]; intros Hl; [done|]. cbn. rewrite (Hl a) by left. cbn. rewrite IH; [done|]. intros i Hi. apply Hl. by right. }
    apply Hl. intros i Hi. apply elem_of_seq in Hi. apply H. lia.
  Qed.
  Lemma vget_seq (g : nat -> R) n i : (i < n)%nat -> vget (map g (seq 0 n)) i = g i.
  Proof. intros Hi. unfold vget. change (@map) with (@fmap list _). rewrite list_lookup_fmap, lookup_seq_lt by done. done. Qed.

  Section Correction.
    Context (svd : matrix -> matrix * list R * matrix) (guess : list R) (model measured : matrix) (jac : list matrix) (lengths : nat * nat * nat) (names : list string) (s_cut : nat) (w lambda : R)
            (nr nc n m : nat).
    Context (Hmodel : shape nr nc model) (Hmeas : shape nr nc measured) (Hjac : Forall (shape nr nc) jac) (Hnr : (0 < nr)%nat) (Hnc : (0 < nc)%nat) (Hn : (0 < n)%nat)
            (Hguess : length guess = (n + m)%nat) (Hlen : length jac = (n + m)%nat)
            (Hmask : parameters_mask names lengths = replicate n true ++ replicate m false) (Hcut : (n <= s_cut)%nat) (Hw : 0 < w) (Hlambda : 0 <= lambda).
    Notation js := (take n jac).
    Notation p := (take n guess).
    Notation rho := (restsum measured model js p nc).
    Notation target := (table n n (fun i j => w * damped js nr nc lambda i j)).
    Context (u : matrix) (sv : list R) (vt : matrix) (Hsvd : svd target = (u, sv, vt)) (Hdec : is_svd n n target u sv vt).

    Lemma js_len : length js = n. Proof. rewrite take_length. lia. Qed.
    Lemma js_shape : Forall (shape nr nc) js. Proof. by apply Forall_take. Qed.
    Lemma rhs_value mm i : shape nc nr mm -> (forall r c, (r < nr)%nat -> (c < nc)%nat -> mget mm c r = R_sqrt.sqrt w * unexplained measured model js p r c) -> (i < n)%nat ->
      ng_rhs jac mm (inl w) i = Ok (w * R_sqrt.sqrt w * sumn nr (fun r => rowsum js nc i r * rho r)).
    Proof.
      intros Hmm Hget Hi. pose proof js_len as HLj. destruct (slice_shape js nr nc i js_shape ltac:(lia)) as (j&Hj&Hsj&Hg). rewrite lookup_take in Hj by done.
      unfold ng_rhs, idx. rewrite Hj. cbn [rbind weigh]. f_equal.
      assert (shape nc nr (map (map (fun y => nmul y w)) (mtrans j))) as H1 by (apply shape_map; by apply shape_mtrans). assert (shape nr nc (mtrans mm)) as H2 by (by apply shape_mtrans).
      rewrite (nsum_total nc nc) by (by eapply shape_mmul).
      transitivity (sumn nc (fun a => sumn nc (fun b => sumn nr (fun k => (w * R_sqrt.sqrt w) * (slice js i k a * unexplained measured model js p k b))))).
      - apply sumn_ext. intros a Ha. apply sumn_ext. intros b Hb. rewrite (mget_mmul nc nr nc) by done. apply sumn_ext. intros k Hk. rewrite (get_map nc nr) by (done || by apply shape_mtrans).
        rewrite (mget_mtrans nr nc) by done. rewrite (mget_mtrans nc nr) by done. rewrite Hget by done. rewrite Hg. num_R. ring.
      - rewrite <- sumn_scal. transitivity (sumn nc (fun a => sumn nr (fun k => (w * R_sqrt.sqrt w) * (slice js i k a * rho k)))).
        + apply sumn_ext. intros a Ha. rewrite sumn_swap. apply sumn_ext. intros k Hk. rewrite sumn_scal. f_equal. rewrite sumn_scal. done.
        + rewrite sumn_swap. apply sumn_ext. intros k Hk. rewrite sumn_scal. f_equal. by rewrite sumn_scal_r.
    Qed.
    Lemma matrix_value : with_diagonal lambda (mmul (map (map (fun y => nmul y w)) (column_sums js)) (mtrans (column_sums js))) = target.
    Proof.
      pose proof js_len as HLj. pose proof (column_sums_shape js nr nc js_shape) as Hs. rewrite HLj in Hs. pose proof (shape_map n nr (fun y => nmul y w) _ Hs) as Hsw.
      pose proof (shape_mtrans _ _ _ Hs Hn) as Ht. pose proof (shape_mmul _ _ _ _ _ Hsw Ht Hnr) as Hp.
      assert (forall i j, (i < n)%nat -> (j < n)%nat -> mget (mmul (map (map (fun y => nmul y w)) (column_sums js)) (mtrans (column_sums js))) i j = w * normal js nr nc i j) as Hv.
      { intros i j Hi Hj. rewrite (mget_mmul n nr n) by done. unfold normal. rewrite <- sumn_scal. apply sumn_ext. intros k Hk. rewrite (get_map n nr) by done. rewrite (mget_mtrans n nr) by done.
        rewrite !(column_sums_get js nr nc) by (done || lia || apply js_shape). num_R. ring. }
      unfold with_diagonal. destruct Hp as [Hpl Hpr] eqn:E. rewrite Hpl. apply (mget_ext n n); [apply shape_table|apply shape_table|]. intros i j Hi Hj. rewrite !get_table by done. rewrite Hv by done.
      unfold damped. num_R. destruct (i =? j)%nat; ring.
    Qed.

    (** The step solves the equations of Levenberg and Marquardt (for lambda zero the normal equations) for the sums over the
        correctors, with the right-hand side multiplied by the root of the weight - also when the matrix is singular. *)
    Theorem C60_step : exists x, loco_correction_ng svd guess model measured jac lengths names s_cut (inl w) lambda = Ok x /\ length x = n /\
      (forall i, (i < n)%nat -> sumn n (fun j => damped js nr nc lambda i j * vget x j) = R_sqrt.sqrt w * sumn nr (fun r => rowsum js nc i r * rho r)) /\
      ((forall r, (r < nr)%nat -> rho r = 0) -> forall i, (i < n)%nat -> vget x i = 0).
    Proof.
      pose proof js_len as HLj. unfold loco_correction_ng. rewrite Hmask. rewrite !selected_prefix by done. cbn [rbind].
      rewrite (mminus_table nr nc) by done. cbn [rbind].
      destruct (objective_value measured model js p w nr nc _ Hmeas Hmodel js_shape Hnr ltac:(rewrite !take_length; lia) (mminus_table nr nc _ _ Hmeas Hmodel Hnr)) as (mm&Ho&Hmm&Hget).
      rewrite Ho. cbn [rbind]. pose proof (shape_mtrans _ _ _ Hmodel Hnr) as [Ht _]. destruct Hmodel as [Hml Hmr] eqn:Em. rewrite Ht, Hml. rewrite (concat_length nc nr) by done. rewrite Nat.eqb_refl.
      rewrite (rows_of_concat nc nr) by done. rewrite take_length, Hguess, Nat.min_l by lia.
      rewrite (rmap_table _ (fun i => w * R_sqrt.sqrt w * sumn nr (fun r => rowsum js nc i r * rho r)) n) by (intros i Hi; by apply rhs_value). cbn [rbind].
      unfold get_inverse. cbn [weigh rbind]. rewrite matrix_value. rewrite HLj, Nat.min_l, Nat.sub_diag by lia. unfold pinv. rewrite Hsvd.
      destruct (C58_penrose _ _ _ _ _ _ Hdec) as (Hsx&Hx&_). cbv zeta in *. change (Z.of_nat 0) with 0%Z. change (@n0 R NumR) with 0. change (@n1 R NumR) with 1.
      set (X := pinv_of 0 0 1 u sv vt) in *. eexists. split; [reflexivity|]. destruct Hsx as [HxL HxF] eqn:EX. split; [by rewrite mvec_length|].
      set (b := fun k => sumn nr (fun r => rowsum js nc k r * rho r)).
      assert (forall l, (l < n)%nat -> vget (mvec X (map (fun i => w * R_sqrt.sqrt w * b i) (seq 0 n))) l = w * R_sqrt.sqrt w * sumn n (fun k => mget X l k * b k)) as Hxv.
      { intros l Hl. rewrite (mvec_get n n) by (done || by rewrite map_length, seq_length). rewrite <- sumn_scal. apply sumn_ext. intros k Hk. rewrite vget_seq by done. ring. }
      split; [|intros Hz l Hl; rewrite Hxv by done; rewrite (sumn_zero n); [ring|]; intros k Hk; unfold b; rewrite (sumn_zero nr); [ring|]; intros r Hr; rewrite Hz by done; ring].
      intros i Hi. pose proof (svd_a _ _ _ _ _ _ Hdec) as Hst.
      pose proof (solves n nr (fun i r => R_sqrt.sqrt w * rowsum js nc i r) (fun i => lambda * w * normal js nr nc i i) (fun i j => w * damped js nr nc lambda i j) (mget X) (fun r => rho r)) as HS. cbn beta in HS.
      assert (R_sqrt.sqrt w * R_sqrt.sqrt w = w) as Hsq by (apply sqrt_sqrt; lra). pose proof (sqrt_lt_R0 w Hw) as Hsp.
      specialize (HS ltac:(
        intros i' j' Hi' Hj'; rewrite (sumn_ext nr _ (fun r => w * (rowsum js nc i' r * rowsum js nc j' r))) by (intros r _; rewrite <- Hsq at 3; ring); rewrite sumn_scal; fold (normal js nr nc i' j');
        unfold damped, delta; destruct (Nat.eqb_spec i' j') as [->|]; ring)).
      specialize (HS ltac:(intros i' Hi'; apply Rmult_le_pos; [apply Rmult_le_pos; lra|apply sumn_sq_nonneg])).
      assert (forall i0 j0, (i0 < n)%nat -> (j0 < n)%nat -> sumn n (fun k => sumn n (fun l => w * damped js nr nc lambda i0 l * mget X l k) * (w * damped js nr nc lambda k j0)) = w * damped js nr nc lambda i0 j0) as HX.
      { intros i0 j0 Hi0 Hj0. transitivity (mget target i0 j0); [|by rewrite get_table]. rewrite <- Hx at 1. rewrite (mget_mmul n n n) by (done || by eapply shape_mmul).
        apply sumn_ext. intros k Hk. rewrite get_table by done. f_equal. rewrite (mget_mmul n n n) by done. apply sumn_ext. intros l Hl. by rewrite get_table. }
      specialize (HS HX i Hi). apply (Rmult_eq_reg_l w); [|lra].
      transitivity (w * (sumn n (fun l => w * damped js nr nc lambda i l * sumn n (fun k => mget X l k * sumn nr (fun r => R_sqrt.sqrt w * rowsum js nc k r * rho r))))).
      - rewrite <- !sumn_scal. apply sumn_ext. intros l Hl. rewrite Hxv by done.
        rewrite (sumn_ext n (fun k => mget X l k * sumn nr _) (fun k => R_sqrt.sqrt w * (mget X l k * b k))); [rewrite sumn_scal; ring|].
        intros k Hk. unfold b. rewrite (sumn_ext nr _ (fun r => R_sqrt.sqrt w * (rowsum js nc k r * rho r))) by (intros; ring). rewrite sumn_scal. ring.
      - rewrite HS. f_equal. rewrite <- sumn_scal. apply sumn_ext. intros r _. ring.
    Qed.

    Lemma damped_zero i j : lambda = 0 -> damped js nr nc lambda i j = normal js nr nc i j.
    Proof. intros ->. unfold damped. ring. Qed.
    (** With lambda zero the step minimises the squares of what is left of the sums over the correctors (for weight one). *)
    Theorem C60_minimises y : lambda = 0 ->
      let left (x : nat -> R) := sumn nr (fun r => (R_sqrt.sqrt w * rho r - sumn n (fun i => x i * rowsum js nc i r)) * (R_sqrt.sqrt w * rho r - sumn n (fun i => x i * rowsum js nc i r))) in
      exists x, loco_correction_ng svd guess model measured jac lengths names s_cut (inl w) lambda = Ok x /\ length x = n /\ left (vget x) <= left y.
    Proof.
      intros Hl0. destruct C60_step as (x&Hx&HL&He&_). exists x. split; [done|]. split; [done|]. apply normal_minimises. intros i Hi.
      rewrite (sumn_ext nr _ (fun r => R_sqrt.sqrt w * (rowsum js nc i r * rho r))) by (intros; ring). rewrite sumn_scal. rewrite <- He by done.
      apply sumn_ext. intros j _. by rewrite damped_zero.
    Qed.
    (** If the parameters [best] explain the measurement completely and the sums over the correctors are independent, one step leads
        there from everywhere: for weight one; otherwise the step is too long by the root of the weight (finding). *)
    Theorem C60_exact (best : list R) : lambda = 0 -> length best = n ->
      (forall z, (forall r, (r < nr)%nat -> sumn n (fun i => z i * rowsum js nc i r) = 0) -> forall i, (i < n)%nat -> z i = 0) ->
      (forall r c, (r < nr)%nat -> (c < nc)%nat -> mget measured r c = mget model r c + sumn n (fun i => vget best i * slice js i r c)) ->
      exists x, loco_correction_ng svd guess model measured jac lengths names s_cut (inl w) lambda = Ok x /\ length x = n /\
        forall i, (i < n)%nat -> vget x i = R_sqrt.sqrt w * (vget best i - vget guess i).
    Proof.
      intros Hl0 Hbl Hind Hbest. destruct C60_step as (x&Hx&HL&He&_). exists x. split; [done|]. split; [done|].
      assert (forall r, (r < nr)%nat -> rho r = sumn n (fun i => (vget best i - vget guess i) * rowsum js nc i r)) as Hrho.
      { intros r Hr. unfold restsum. transitivity (sumn nc (fun c => sumn n (fun i => (vget best i - vget guess i) * slice js i r c))).
        - apply sumn_ext. intros c Hc. unfold unexplained. rewrite Hbest by done. rewrite js_len. transitivity (sumn n (fun i => vget best i * slice js i r c) + (-1) * sumn n (fun i => vget p i * slice js i r c)); [ring|].
          rewrite <- sumn_scal, <- sumn_plus. apply sumn_ext. intros i Hi. unfold vget at 2. rewrite lookup_take by done. fold (vget guess i). ring.
        - rewrite sumn_swap. apply sumn_ext. intros i _. by rewrite sumn_scal. }
      intros i Hi. enough (vget x i - R_sqrt.sqrt w * (vget best i - vget guess i) = 0) by lra. revert i Hi.
      apply (Hind (fun i => vget x i - R_sqrt.sqrt w * (vget best i - vget guess i))). apply (normal_kernel n nr (rowsum js nc)). intros i Hi.
      transitivity (sumn n (fun j => normal js nr nc i j * vget x j) + (-1) * (R_sqrt.sqrt w * sumn n (fun j => normal js nr nc i j * (vget best j - vget guess j)))).
      - rewrite <- !sumn_scal, <- sumn_plus. apply sumn_ext. intros j _. unfold normal. ring.
      - rewrite (sumn_ext n (fun j => normal js nr nc i j * vget x j) (fun j => damped js nr nc lambda i j * vget x j)) by (intros j _; by rewrite damped_zero).
        rewrite He by done. rewrite (sumn_ext nr _ (fun r => sumn n (fun j => (rowsum js nc i r * rowsum js nc j r) * (vget best j - vget guess j)))).
        + rewrite sumn_swap. rewrite (sumn_ext n _ (fun j => normal js nr nc i j * (vget best j - vget guess j))); [ring|]. intros j _. by rewrite sumn_scal_r.
        + intros r Hr. rewrite Hrho by done. rewrite <- sumn_scal. apply sumn_ext. intros j _. ring.
    Qed.
    (** Deviations that cancel over the correctors, at every BPM, are not seen: the step is zero although the objective is not. *)
    Theorem C60_finding_cancel : (forall r, (r < nr)%nat -> rho r = 0) ->
      loco_correction_ng svd guess model measured jac lengths names s_cut (inl w) lambda = Ok (replicate n 0).
    Proof.
      intros Hz. destruct C60_step as (x&Hx&HL&_&H0). rewrite Hx. f_equal. apply (vget_ext _ _ n); [done|by rewrite replicate_length|]. intros i Hi. rewrite H0 by done.
      unfold vget. by rewrite lookup_replicate_2.
    Qed.
  End Correction.
End Step.
Print Assumptions C60_step.
Print Assumptions C60_minimises.
Print Assumptions C60_exact.
Print Assumptions C60_finding_cancel.

(** * Jacobian of the quadrupoles *)
Section Quads.
  Notation matrix := (list (list R)).
  Lemma model_element_copy rf ord (s s' : sc R) ring ring' x : model_element true rf ord (s, ring) = (x, (s', ring')) -> s' = s.
  Proof.
    unfold model_element. destruct (RING s !! ord) as [e|]; [|by intros [= _ <- _]].
    destruct (_ && _).
    - destruct (attr_vec e "SetPointA") as [a|]; [|by intros [= _ <- _]]. destruct (attr_vec e "SetPointB") as [b|]; [|by intros [= _ <- _]].
      destruct (ring !! ord) as [m|]; [|by intros [= _ <- _]]. destruct (zero_first a) as [a'|]; [|by intros [= _ <- _]]. destruct (zero_first b) as [b'|]; [|by intros [= _ <- _]].
      destruct (_ && _); [|by intros [= _ <- _]]. destruct (forM _ _ _). by intros [= _ <- _].
    - destruct (_ && _); [|by intros [= _ <- _]]. destruct (forM _ _ _). by intros [= _ <- _].
  Qed.
  Lemma model_ring_copy (s : sc R) : snd (model_ring true s) = s.
  Proof.
    unfold model_ring. assert (forall rf l (st : sc R * list (elem R)), fst (snd (forM l (model_element true rf) st)) = fst st) as Hf.
    { intros rf l. induction l as [|i l IH]; intros [s0 r0]; [done|]. cbn. unfold bind. destruct (model_element true rf i (s0, r0)) as [[u|x] [s1 r1]] eqn:E; apply model_element_copy in E; subst; [apply IH|done]. }
    match goal with |- context [forM ?l (model_element true ?rf) ?st] => specialize (Hf rf l st); destruct (forM l (model_element true rf) st) as [[u|x] [s1 r1]] end; exact Hf.
  Qed.
  Lemma model_rm_copy w bpms hcm vcm mode z nt dkick ideal (s : sc R) : snd (SCgetModelRM true w bpms hcm vcm mode z nt dkick ideal s) = s.
  Proof.
    unfold SCgetModelRM, bind, get, lift. destruct ideal; unfold ret.
    - destruct (track_method w mode); done.
    - pose proof (model_ring_copy s) as H. destruct (model_ring true s) as [[r|x] s1]; cbn in H; subst; [|done]. destruct (track_method w mode); done.
  Qed.
  Lemma model_rm_ideal copies w bpms hcm vcm mode z nt dkick (s : sc R) : snd (SCgetModelRM copies w bpms hcm vcm mode z nt dkick true s) = s.
  Proof. unfold SCgetModelRM, bind, get, lift, ret. destruct (track_method w mode); done. Qed.
  Lemma model_rm_ideal_same copies w bpms hcm vcm mode z nt dkick (s t : sc R) : IDEALRING s = IDEALRING t ->
    fst (SCgetModelRM copies w bpms hcm vcm mode z nt dkick true s) = fst (SCgetModelRM copies w bpms hcm vcm mode z nt dkick true t).
  Proof. intros E. unfold SCgetModelRM, bind, get, lift, ret. rewrite E. destruct (track_method w mode); done. Qed.
  Lemma set_magnet_ideal ords dt sps skew order method (s s' : sc R) u : set_magnet_setpoints ords dt sps skew order method false s = (Ok u, s') -> exists r, s' = set_RING r s.
  Proof.
    intros H. apply set_magnet_plain in H as (l&s1&_&H2&H3). destruct (forM_seq _ (magnet_step skew order dt) _ _ _ H2) as ((r&->)&_).
    apply update_magnets_ok in H3 as (_&ws&_&->). eexists. reflexivity.
  Qed.

  (** one quadrupole: the values [m] and the state left behind *)
  Lemma finite_lookup (l : list (option R)) l' k : finite l = Ok l' -> l !! k = Some <$> l' !! k.
  Proof.
    unfold finite. destruct (no_gaps l) as [l0|] eqn:E; [|discriminate]. intros [= <-]. revert l0 E k. induction l as [|[x|] l IH]; intros l0 E k; cbn in E.
    - by injection E as <-.
    - destruct (no_gaps l) as [l1|]; [|discriminate]. injection E as <-. destruct k; [done|]. cbn. by apply IH.
    - discriminate.
  Qed.
  Lemma quad_response_ok copies w bpms hcm vcm mode dkick ideal (cm : matrix) skew order method dk q (s s' : sc R) m :
    quad_response copies w bpms hcm vcm mode dkick ideal cm skew order method dk q s = (Ok m, s') ->
    exists s1 s2 cols, set_magnet_setpoints [q] DFloat [dk] skew order method false s = (Ok tt, s1) /\
      SCgetModelRM copies w bpms hcm vcm mode (zeros 6) 1 dkick ideal s1 = (Ok cols, s2) /\
      set_magnet_setpoints [q] DFloat [- dk] skew order method false s2 = (Ok tt, s') /\
      shape (length cm) (width cm) m /\ length cols = width cm /\
      forall r c, (r < length cm)%nat -> (c < width cm)%nat -> exists col x, cols !! c = Some col /\ col !! r = Some (Some x) /\ mget m r c = x - mget cm r c.
  Proof.
    intros H. unfold quad_response in H. apply bind_ok in H as ([]&s1&H1&H). apply bind_ok in H as (cols&s2&H2&H). apply bind_ok in H as ([]&s3&H3&H). apply bind_ok in H as (cs&s4&H4&H).
    apply lift_ok in H4 as [Hcs ->]. destruct (_ && _) eqn:Ec; [|discriminate]. apply ret_ok in H as [<- ->]. apply andb_true_iff in Ec as [E1 E2]. apply Nat.eqb_eq in E1.
    apply rmap_ok in Hcs. pose proof (Forall2_length _ _ _ Hcs) as HLc.
    exists s1, s2, cols. do 3 (split; [done|]). split; [apply shape_table|]. split; [lia|]. intros r c Hr Hc.
    rewrite get_table by done. destruct (cs !! c) as [l|] eqn:El; [|apply lookup_ge_None in El; lia]. eapply Forall2_lookup_r in Hcs as (col&Hcol&Hf); [|exact El].
    rewrite forallb_forall in E2. specialize (E2 l). assert (length l = length cm) as Hll.
    { apply Nat.eqb_eq. apply E2. apply elem_of_list_In. eapply elem_of_list_lookup_2. exact El. }
    destruct (l !! r) as [x|] eqn:Ex; [|apply lookup_ge_None in Ex; lia]. exists col, x. split; [done|]. split; [by rewrite (finite_lookup _ _ _ Hf), Ex|].
    unfold mget at 1. rewrite El. cbn [mbind option_bind]. rewrite Ex. done.
  Qed.
  Lemma divided dk (m m' : matrix) r c nr nc : rmap (fun row => rmap (fun x => qdiv x dk) row) m = Ok m' -> shape nr nc m -> (r < nr)%nat -> (c < nc)%nat -> dk <> 0 /\ mget m' r c = mget m r c / dk.
  Proof.
    intros H Hs Hr Hc. apply rmap_ok in H. destruct (shape_row _ _ _ _ Hs Hr) as (row&Hrow&HL). eapply Forall2_lookup_l in H as (row'&Hrow'&H); [|exact Hrow]. apply rmap_ok in H.
    destruct (row !! c) as [x|] eqn:Ex; [|apply lookup_ge_None in Ex; lia]. eapply Forall2_lookup_l in H as (x'&Hx'&H); [|exact Ex].
    apply Properties_Field.qdivR_ok in H as [-> Hd]. split; [done|]. unfold mget. rewrite Hrow, Hrow'. cbn [mbind option_bind]. by rewrite Ex, Hx'.
  Qed.

  (** What a worker process does with its part, when every quadrupole's response leaves the machine as it was. *)
  Lemma chunk_keep {B} (f : nat -> M (sc R) B) (s : sc R) quads ys : (forall q y s', q ∈ quads -> f q s = (Ok y, s') -> s' = s) -> fst (mapM quads f s) = Ok ys ->
    Forall2 (fun q y => f q s = (Ok y, s)) quads ys.
  Proof.
    intros Hk H. destruct (mapM quads f s) as [x s'] eqn:E. cbn in H. subst x. revert ys s' E. induction quads as [|q quads IH]; intros ys s' E; cbn in E.
    - minv E. constructor.
    - apply bind_ok in E as (y&s1&H1&E). apply bind_ok in E as (ys1&s2&E&E2). minv E2. pose proof (Hk q y s1 ltac:(left) H1) as ->. constructor; [done|].
      eapply IH; [|exact E]. intros q' y' t' Hq'. apply Hk. by right.
  Qed.
  Lemma chunks_keep {B} (f : nat -> M (sc R) B) (s : sc R) chunks yss : (forall q y s', q ∈ concat chunks -> f q s = (Ok y, s') -> s' = s) ->
    rmap (fun quads => fst (mapM quads f s)) chunks = Ok yss -> Forall2 (fun q y => f q s = (Ok y, s)) (concat chunks) (concat yss).
  Proof.
    intros Hk H. apply rmap_ok in H. induction H as [|quads ys chunks yss H1 H2 IH]; [constructor|]. cbn in *. apply Forall2_app.
    - apply chunk_keep; [|done]. intros q y s' Hq. apply Hk. apply elem_of_app. by left.
    - apply IH. intros q y s' Hq. apply Hk. apply elem_of_app. by right.
  Qed.

  (** Slice [i] is the difference quotient of the model response to a change of quadrupole [i] alone, on the machine as it was
      before the call, whatever the division of the work among the processes: provided that the fields are up to date, the
      limits admit the change, and AT copies what is assigned to it. *)
  Theorem C60_quad_slices w chunks bpms hcm vcm mode dkick ideal cm skew order dk full (s : sc R) js nr nc :
    (forall q, q ∈ concat chunks -> update_magnets [q] s = (Ok tt, s) /\ exists v, entry s q (SP skew) order = Some v /\ limited s q skew order v = v /\ limited s q skew order (v + dk) = v + dk) ->
    shape nr nc cm -> (0 < nr)%nat -> (0 < nc)%nat ->
    calculate_jacobian true w chunks bpms hcm vcm mode dkick ideal cm skew order ADD dk full s = Ok js ->
    forall i q, concat chunks !! i = Some q -> dk <> 0 /\
      exists s1 cols, set_magnet_setpoints [q] DFloat [dk] skew order ADD false s = (Ok tt, s1) /\
        fst (SCgetModelRM true w bpms hcm vcm mode (zeros 6) 1 dkick ideal s1) = Ok cols /\ length cols = nc /\
        forall r c, (r < nr)%nat -> (c < nc)%nat -> exists col x, cols !! c = Some col /\ col !! r = Some (Some x) /\ slice js i r c = (x - mget cm r c) / dk.
  Proof.
    intros Hq Hcm Hr0 Hc0 H i q Hi. pose proof (shape_width _ _ _ Hcm Hr0) as Hw. destruct Hcm as [Hl Hrows] eqn:Ecm.
    unfold calculate_jacobian in H. apply rbind_ok in H as (pc&Hpc&H). apply rbind_ok in H as (res&Hres&H).
    assert (exists rest, js = res ++ rest) as [rest ->].
    { destruct full; [|injection H as <-; exists []; by rewrite app_nil_r]. apply rbind_ok in H as (jc&_&H). apply rbind_ok in H as (jb&_&H). exists (jc ++ jb). destruct res; [discriminate|by injection H as <-]. }
    apply chunks_keep in Hpc.
    2: { intros q' m s' Hq' Hm. destruct (Hq q' Hq') as (Hup&v&Hv&Hlv&Hlvd). apply quad_response_ok in Hm as (s1&s2&cols&H1&H2&H3&_).
         pose proof (model_rm_copy w bpms hcm vcm mode (zeros 6) 1 dkick ideal s1) as Hk. rewrite H2 in Hk. cbn in Hk. subst s2.
         pose proof (magnet_add_restores _ _ _ _ _ _ _ _ Hv Hlv Hlvd H1 H3) as Hb. rewrite Hup in Hb. by injection Hb as <-. }
    eapply Forall2_lookup_l in Hpc as (m&Hm&Hrun); [|exact Hi]. apply rmap_ok in Hres. eapply Forall2_lookup_l in Hres as (m'&Hm'&Hdiv); [|exact Hm].
    apply quad_response_ok in Hrun as (s1&s2&cols&H1&H2&_&Hsh&HLc&Hval). rewrite Hl, Hw in *.
    split; [by destruct (divided dk m m' 0 0 nr nc Hdiv Hsh Hr0 Hc0)|]. exists s1, cols. split; [done|]. split; [by rewrite H2|]. split; [done|]. intros r c Hr Hc.
    destruct (Hval r c Hr Hc) as (col&x&Hcol&Hx&Hg). exists col, x. split; [done|]. split; [done|]. unfold slice. rewrite lookup_app_l by (by eapply lookup_lt_Some).
    rewrite Hm'. unfold from_option, Datatypes.id. destruct (divided dk m m' r c nr nc Hdiv Hsh Hr Hc) as [_ ->]. by rewrite Hg.
  Qed.

  (** Finding: with the ideal lattice (the default) the model response does not know of the quadrupoles' change: all quadrupole slices
      are equal, and zero if the model matrix is that of the ideal lattice. *)
  Theorem C60_finding_ideal copies w chunks bpms hcm vcm mode dkick cm skew order method dk full (s : sc R) js nr nc :
    shape nr nc cm -> (0 < nr)%nat -> (0 < nc)%nat -> concat chunks <> [] ->
    calculate_jacobian copies w chunks bpms hcm vcm mode dkick true cm skew order method dk full s = Ok js ->
    exists cols, fst (SCgetModelRM copies w bpms hcm vcm mode (zeros 6) 1 dkick true s) = Ok cols /\
      forall i r c, (i < length (concat chunks))%nat -> (r < nr)%nat -> (c < nc)%nat -> exists col x, cols !! c = Some col /\ col !! r = Some (Some x) /\ slice js i r c = (x - mget cm r c) / dk.
  Proof.
    intros Hcm Hr0 Hc0 Hne H. pose proof (shape_width _ _ _ Hcm Hr0) as Hw. destruct Hcm as [Hl Hrows] eqn:Ecm.
    unfold calculate_jacobian in H. apply rbind_ok in H as (pc&Hpc&H). apply rbind_ok in H as (res&Hres&H).
    assert (exists rest, js = res ++ rest) as [rest ->].
    { destruct full; [|injection H as <-; exists []; by rewrite app_nil_r]. apply rbind_ok in H as (jc&_&H). apply rbind_ok in H as (jb&_&H). exists (jc ++ jb). destruct res; [discriminate|by injection H as <-]. }
    set (P := fun m : matrix => exists cols, fst (SCgetModelRM copies w bpms hcm vcm mode (zeros 6) 1 dkick true s) = Ok cols /\ shape nr nc m /\
      forall r c, (r < nr)%nat -> (c < nc)%nat -> exists col x, cols !! c = Some col /\ col !! r = Some (Some x) /\ mget m r c = x - mget cm r c).
    assert (forall quads (t : sc R) ys, IDEALRING t = IDEALRING s -> fst (mapM quads (quad_response copies w bpms hcm vcm mode dkick true cm skew order method dk) t) = Ok ys -> Forall P ys /\ length ys = length quads) as Hrun.
    { induction quads as [|q quads IH]; intros t ys Ht Hys; cbn in Hys; [injection Hys as <-; by split; [constructor|]|].
      destruct (bind _ _ t) as [x t'] eqn:E. cbn in Hys. subst x. apply bind_ok in E as (y&t1&H1&E). apply bind_ok in E as (ys1&t2&E&E2). apply ret_ok in E2 as [<- ->].
      apply quad_response_ok in H1 as (s1&s2&cols&H1&H2&H3&Hsh&_&Hval). destruct (set_magnet_ideal _ _ _ _ _ _ _ _ _ H1) as [r1 ->].
      pose proof (model_rm_ideal copies w bpms hcm vcm mode (zeros 6) 1 dkick (set_RING r1 t)) as Hk. rewrite H2 in Hk. cbn in Hk. subst s2.
      destruct (set_magnet_ideal _ _ _ _ _ _ _ _ _ H3) as [r2 ->]. destruct (IH (set_RING r2 (set_RING r1 t)) ys1 Ht (f_equal fst E)) as [IH1 IH2]. split; [|cbn; lia]. constructor; [|done].
      exists cols. rewrite Hl, Hw in *. split; [|by split]. rewrite (model_rm_ideal_same _ _ _ _ _ _ _ _ _ s (set_RING r1 t)) by (symmetry; exact Ht). by rewrite H2. }
    assert (Forall P (concat pc) /\ length (concat pc) = length (concat chunks)) as [HP HLp].
    { apply rmap_ok in Hpc. clear -Hpc Hrun. induction Hpc as [|quads ys chunks pc H1 H2 [IH1 IH2]]; [by split; [constructor|]|]. cbn. destruct (Hrun quads s ys eq_refl H1) as [A1 A2]. split; [by apply Forall_app|]. rewrite !app_length. lia. }
    apply rmap_ok in Hres. destruct (concat pc) as [|m0 ms] eqn:Epc; [cbn in HLp; by destruct (concat chunks)|]. pose proof HP as HP'. inversion HP' as [|? ? (cols&Hcols&_) _]; subst. exists cols. split; [done|].
    intros i r c Hi Hr Hc. rewrite <- HLp in Hi. destruct ((m0 :: ms) !! i) as [m|] eqn:Em; [|apply lookup_ge_None in Em; lia]. eapply Forall_lookup_1 in HP as (cols'&Hcols'&Hsh&Hval); [|exact Em].
    rewrite Hcols in Hcols'. injection Hcols' as <-. destruct (Hval r c Hr Hc) as (col&x&Hcol&Hx&Hg). exists col, x. split; [done|]. split; [done|].
    eapply Forall2_lookup_l in Hres as (m'&Hm'&Hdiv); [|exact Em]. unfold slice. rewrite lookup_app_l by (by eapply lookup_lt_Some). rewrite Hm'. unfold from_option, Datatypes.id.
    destruct (divided dk m m' r c _ _ Hdiv Hsh Hr Hc) as [_ ->]. by rewrite Hg.
  Qed.
End Quads.
Print Assumptions C60_quad_slices.
Print Assumptions C60_finding_ideal.

(** * Cases *)
Example C60_case_mask : parameters_mask ["cor"; "other"] (2, 1, 1)%nat = [false; false; true; false] /\ masked (parameters_mask ["bpm"; "quads"] (2, 1, 1)%nat) [5; 6; 7; 8]%nat = Ok [5; 6; 8]%nat.
Proof. done. Qed.
(** one quadrupole, two BPM readings, two correctors; the measured response is the model plus seven times the slice *)
Definition case_jac : list (list (list R)) := [[[1; 2]; [0; 1]]].
Definition case_svd : list (list R) -> list (list R) * list R * list (list R) := fun _ => ([[1]], [10], [[1]]).
Example C60_case_exact :
  loco_correction_ng case_svd [3] [[1; 1]; [1; 1]] [[8; 15]; [1; 8]] case_jac (1, 0, 0)%nat ["quads"] 1 (inl 1) 0 = Ok [4].
Proof.
  assert (table 1 1 (fun i j => 1 * damped (take 1 case_jac) 2 2 0 i j) = [[10]]) as Et.
  { unfold table, damped, normal, rowsum, slice, mget. cbn. do 2 f_equal. lra. }
  destruct (C60_exact case_svd [3] [[1; 1]; [1; 1]] [[8; 15]; [1; 8]] case_jac (1, 0, 0)%nat ["quads"] 1 1 0 2 2 1 0) with (u := [[1]]) (sv := [10]) (vt := [[1]]) (best := [7]) as (x&Hx&HL&Hv);
    try done; try lia; try lra; try (split; [done|repeat constructor]).
  - repeat constructor.
  - rewrite Et. split; try (split; [done|repeat constructor]); try (cbn; lia).
    + intros k l Hk Hl. cbn in Hk, Hl. assert (k = 0%nat /\ l = 0%nat) as [-> ->] by lia. unfold delta, mget. cbn. lra.
    + intros k l Hk Hl. cbn in Hk, Hl. assert (k = 0%nat /\ l = 0%nat) as [-> ->] by lia. unfold delta, mget. cbn. lra.
    + intros k l Hk Hl. cbn in Hl. assert (k = 0%nat /\ l = 0%nat) as [-> ->] by lia. unfold vget. cbn. lra.
    + intros i j Hi Hj. assert (i = 0%nat /\ j = 0%nat) as [-> ->] by lia. unfold vget, mget. cbn. lra.
  - intros z Hz i Hi. assert (i = 0%nat) as -> by lia. specialize (Hz 1%nat ltac:(lia)). unfold rowsum, slice, mget in Hz. cbn in Hz. lra.
  - intros [|[|r]] [|[|c]] Hr Hc; try lia; unfold slice, mget, vget; cbn; lra.
  - rewrite Hx. f_equal. destruct x as [|x [|]]; try (cbn in HL; lia). f_equal. specialize (Hv 0%nat ltac:(lia)). unfold vget in Hv. cbn in Hv. rewrite sqrt_1 in Hv. lra.
Qed.

From Coq Require Import QArith.
From Verif Require Examples.
Local Open Scope Q_scope.
#[local] Instance TrigQ6 : Trig Q := {| ncos := fun _ => 1; nsin := fun _ => 0; nsqrt := fun x => if Qeq_bool x 4 then 2 else x; npi := 3 |}.
Definition svd1 (m : list (list Q)) : list (list Q) * list Q * list (list Q) := ([[1]], [mget m 0 0], [[1]]).
Definition quad_slice : list (list Q) := [[1; 2]; [0; 1]].
Definition cor_slice : list (list Q) := [[5; 0]; [7; 0]].
(** the same with weight four: twice the step *)
Example C60_case_weight :
  loco_correction_ng svd1 [3] [[1; 1]; [1; 1]] [[8; 15]; [1; 8]] [quad_slice] (1, 0, 0)%nat ["quads"] 1 (inl 1) 0 = Ok [4] /\
  loco_correction_ng svd1 [3] [[1; 1]; [1; 1]] [[8; 15]; [1; 8]] [quad_slice] (1, 0, 0)%nat ["quads"] 1 (inl 4) 0 = Ok [8].
Proof. vm_compute. done. Qed.
(** deviations that cancel over the correctors *)
Example C60_case_cancel :
  loco_correction_ng svd1 [0] [[1; 1]; [1; 1]] [[4; -2]; [2; 0]] [quad_slice] (1, 0, 0)%nat ["quads"] 1 (inl 1) 0 = Ok [0].
Proof. vm_compute. done. Qed.
(** Finding: a gain error of 3 of the first corrector, fitted alone, is found only when nothing stands before the correctors in the jacobian: otherwise
    the right-hand side belongs to the quadrupole. *)
Example C60_case_unmasked :
  loco_correction_ng svd1 [0] [[5; 1]; [7; 1]] [[20; 1]; [28; 1]] [cor_slice] (0, 1, 0)%nat ["cor"] 1 (inl 1) 0 = Ok [3] /\
  loco_correction_ng svd1 [0; 0] [[5; 1]; [7; 1]] [[20; 1]; [28; 1]] [quad_slice; cor_slice] (1, 1, 0)%nat ["cor"] 1 (inl 1) 0 = Ok [33#37].
Proof. vm_compute. done. Qed.

(** two quadrupoles, a corrector, a BPM; the response to the corrector is 1 + 3 k1 + 5 k2 horizontally *)
Definition loco_world : world Q :=
  MkWorld (fun _ _ _ _ _ _ _ _ => None)
    (fun ring _ _ c =>
      let field i a k := default 0%Q (e ← ring !! i; match (e : elem Q) !! a with Some (VVec l) => l !! k | _ => None end) in
      if (c =? 0)%nat then Some (Qred (field 2%nat "KickAngle" 0%nat * (1 + 3 * field 0%nat "PolynomB" 1%nat + 5 * field 1%nat "PolynomB" 1%nat))) else Some 0)
    (fun _ => ([], [])) (fun Z => Z).
Definition loco_machine : sc Q :=
  let ring := [Examples.quad; Examples.quad; Examples.thin_cm; Examples.bpm] in
  let s := MkSC ring ring (MkInj 1 (zeros 6) (zeros 6) (replicate 6 (zeros 6)) (zeros 6) 1 1 1 "ORB") (SIG Examples.ex_sc) (MkOrd [3]%nat [] [] [] [] [] [] [] []) [] in
  snd (update_magnets [0; 1]%nat (snd (register_magnets [0; 1]%nat [] (MkType None None false None None) s))).
Definition loco_columns (s : sc Q) := fst (SCgetModelRM true loco_world [3%nat] [2%nat] [] "ORB" (zeros 6) 1 (1#10) false s).
Example C60_case_jacobian :
  loco_columns loco_machine = Ok [[Some 25; Some 0]] /\
  calculate_jacobian true loco_world [[0]; [1]]%nat [3%nat] [2%nat] [] "ORB" (1#10) false [[25]; [0]] false 1 ADD (1#100) true loco_machine =
    Ok [[[3]; [0]]; [[5]; [0]]; [[25]; [0]]; [[25]; [0]]; [[0]; [0]]] /\
  calculate_jacobian true loco_world [[0; 1]]%nat [3%nat] [2%nat] [] "ORB" (1#10) false [[25]; [0]] false 1 ADD (1#100) false loco_machine = Ok [[[3]; [0]]; [[5]; [0]]] /\
  calculate_jacobian true loco_world [[0; 1]]%nat [3%nat] [2%nat] [] "ORB" (1#10) true [[25]; [0]] false 1 ADD (1#100) false loco_machine = Ok [[[0]; [0]]; [[0]; [0]]].
Proof. vm_compute. done. Qed.
(** the fields of this machine are up to date *)
Definition fields_of (s : sc Q) := map (fun e => (e !! "PolynomA", e !! "PolynomB")) (RING s).
Example C60_case_up_to_date : fst (update_magnets [0; 1]%nat loco_machine) = Ok tt /\ fields_of (snd (update_magnets [0; 1]%nat loco_machine)) = fields_of loco_machine.
Proof. vm_compute. done. Qed.
