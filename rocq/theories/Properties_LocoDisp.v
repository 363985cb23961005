(** Properties of the jacobian of the optics fit with dispersion (pySC/correction/loco.py): C91. *)
From Coq Require Import Reals Lra Lia ZArith.
From stdpp Require Import base gmap strings list.
From Verif Require Import Num Base Model_Arr Model_SC Model_Err Lemmas Spec Proofs_Update Proofs_Setpoint Proofs_Loop
  Model_Beam Proofs_Beam Proofs_Mat Model_Orbit Model_Lattice Model_Loco Model_LocoDisp Properties_Field Properties_Loco Properties_Lattice Properties_Model Properties_Tight5.
Local Open Scope string_scope.
Local Open Scope list_scope.
Local Open Scope R_scope.
Notation matrix := (list (list R)).

(** * Specification *)
(** the dispersion of a lattice at a BPM, in a plane (0 horizontal, 1 vertical): the change of the closed orbit by the detuning of
    the cavities by [d], divided by [d] *)
Definition dispersion_of (w : world R) (ring : list (elem R)) (bpms cavs : list nat) (d : R) (p b : nat) : option R :=
  match position_in w "ORB" ring (zeros 6) 1 bpms p b 0, position_in w "ORB" (detuned cavs d ring) (zeros 6) 1 bpms p b 0 with
  | Some x0, Some x => Some ((x - x0) / d)
  | _, _ => None
  end.
(** the row of a BPM and a plane *)
Definition bpm_row (bpms : list nat) (p b : nat) : nat := (p * length bpms + b)%nat.

(** * Proofs *)
Lemma quad_dispersion_ok copies w bpms cavs d (s s' : sc R) eta :
  quad_dispersion copies w bpms cavs d s = (Ok eta, s') ->
  s' = s /\ exists c, cavs = Some c /\ d <> 0 /\ length eta = (2 * length bpms)%nat /\
    forall p b, (p < 2)%nat -> (b < length bpms)%nat -> eta !! bpm_row bpms p b = Some (dispersion_of w (IDEALRING s) bpms c d p b).
Proof.
  intros H. unfold quad_dispersion in H. destruct cavs as [c|].
  2: { apply bind_ok in H as (u&s1&_&H). discriminate. }
  apply C57_dispersion in H as (ring&[-> ->]&Hd&HL&H). split; [done|]. exists c. split; [done|]. split; [done|]. change (turns_of "ORB" 1) with 1%nat in *.
  split; [lia|]. intros p b Hp Hb. destruct (H p b 0%nat Hp Hb ltac:(lia)) as (x0&E0&E). unfold row in E. unfold bpm_row.
  replace (p * (1 * length bpms) + 0 * length bpms + b)%nat with (p * length bpms + b)%nat in E by lia. rewrite E. unfold dispersion_of. rewrite E0. done.
Qed.
Lemma row_of nb r : (r < 2 * nb)%nat -> exists p b, (p < 2)%nat /\ (b < nb)%nat /\ r = (p * nb + b)%nat.
Proof.
  intros H. destruct (Nat.ltb_spec r nb); [exists 0%nat, r; lia|]. exists 1%nat, (r - nb)%nat. lia.
Qed.
(** the column added to the response matrix *)
Definition added (w : world R) (ring : list (elem R)) (bpms : list nat) (cavs : option (list nat)) (rf : R) (m0 m : matrix) : Prop :=
  exists c col, cavs = Some c /\ hstack m0 col = Ok m /\ length col = (2 * length bpms)%nat /\
    forall p b, (p < 2)%nat -> (b < length bpms)%nat -> exists e1 e0, dispersion_of w ring bpms c rf p b = Some e1 /\ dispersion_of w ring bpms c 1000 p b = Some e0 /\ col !! bpm_row bpms p b = Some (e1 - e0).
Lemma finite_length (l : list (option R)) l' : finite l = Ok l' -> length l' = length l.
Proof.
  intros H. assert (forall k, l !! k = Some <$> l' !! k) as E by (intros k; by apply finite_lookup). clear H.
  assert (~ (length l' < length l)%nat /\ ~ (length l < length l')%nat) as [? ?]; [|lia]. split; intros Hk.
  - apply lookup_lt_is_Some_2 in Hk as [x Hx]. rewrite E in Hx. rewrite (lookup_ge_None_2 l') in Hx by lia. done.
  - destruct (lookup_lt_is_Some_2 _ _ Hk) as [x Hx]. specialize (E (length l)). rewrite Hx, (lookup_ge_None_2 l) in E by lia. done.
Qed.
Lemma model_element_design copies rf o (st st' : sc R * list (elem R)) u : model_element copies rf o st = (u, st') -> IDEALRING (fst st') = IDEALRING (fst st).
Proof.
  destruct st as [s ring]. unfold model_element. destruct (RING s !! o) as [e|]; [|intros [= _ <-]; done].
  set (step1 := if _ && _ then _ else _). assert (IDEALRING (fst (snd step1)) = IDEALRING s) as H1.
  { unfold step1. destruct (_ && _); [|done]. destruct (attr_vec e "SetPointA"), (attr_vec e "SetPointB"), (ring !! o); try done. repeat case_match; by try destruct copies. }
  destruct step1 as [[v|x] [s1 r1]]; [|intros [= _ <-]; done]. destruct (_ && _); [|intros [= _ <-]; done]. destruct (forM _ _ r1) as [v' r2]. intros [= _ <-]. done.
Qed.
Lemma model_ring_design copies (s s' : sc R) u : model_ring copies s = (u, s') -> IDEALRING s' = IDEALRING s.
Proof.
  unfold model_ring. assert (forall rf l (st : sc R * list (elem R)), IDEALRING (fst (snd (forM l (model_element copies rf) st))) = IDEALRING (fst st)) as Hf.
  { intros rf l. induction l as [|o l IH]; intros st; [done|]. cbn. unfold bind. destruct (model_element copies rf o st) as [[v|x] st1] eqn:E; apply model_element_design in E; [by rewrite IH|done]. }
  specialize (Hf (0 <? length (oRF (ORD s)))%nat (seq 0 (length (RING s))) (s, IDEALRING s)). destruct (forM _ _ _) as [[v|x] [s1 r1]]; intros [= _ <-]; done.
Qed.
Lemma response_design copies w bpms hcm vcm mode z nt dkick ideal (s s' : sc R) cols : SCgetModelRM copies w bpms hcm vcm mode z nt dkick ideal s = (Ok cols, s') ->
  IDEALRING s' = IDEALRING s /\ length cols = (length hcm + length vcm)%nat.
Proof.
  intros H. apply C57_response in H as (ring&H1&H2&_). split; [|done]. destruct ideal; [by destruct H1 as [_ ->]|by eapply model_ring_design].
Qed.
Lemma quad_response_dispersion_ok copies w bpms hcm vcm mode dkick ideal (cm : matrix) skew order method dk rf cavs q (s s' : sc R) m :
  quad_response_dispersion copies w bpms hcm vcm mode dkick ideal cm skew order method dk rf cavs q s = (Ok m, s') ->
  IDEALRING s' = IDEALRING s /\ (length hcm + length vcm)%nat = width cm /\
  exists m0, quad_response copies w bpms hcm vcm mode dkick ideal cm skew order method dk q s = (Ok m0, s') /\ shape (length cm) (width cm) m0 /\ added w (IDEALRING s) bpms cavs rf m0 m.
Proof.
  intros H. unfold quad_response_dispersion in H. apply bind_ok in H as (eta0&sa&H0&H). apply quad_dispersion_ok in H0 as (->&c&->&_&L0&E0).
  apply bind_ok in H as ([]&s1&H1&H). apply bind_ok in H as (cols&s2&H2&H). apply bind_ok in H as (eta1&sb&H3&H). apply quad_dispersion_ok in H3 as (->&c'&[= <-]&_&L1&E1).
  apply bind_ok in H as ([]&s3&H3&H). apply bind_ok in H as (cs&s4&H4&H). apply lift_ok in H4 as [Hcs ->].
  apply bind_ok in H as (e1&s4&H4&H). apply lift_ok in H4 as [He1 ->]. apply bind_ok in H as (e0&s4&H4&H). apply lift_ok in H4 as [He0 ->].
  destruct (_ && _) eqn:Ec; [|discriminate]. apply lift_ok in H as [H ->].
  destruct (set_magnet_ideal _ _ _ _ _ _ _ _ _ H1) as [r1 ->]. destruct (response_design _ _ _ _ _ _ _ _ _ _ _ _ _ H2) as [I2 Lc]. destruct (set_magnet_ideal _ _ _ _ _ _ _ _ _ H3) as [r2 ->].
  cbn in I2. rewrite I2 in E1. split; [done|]. pose proof (proj1 (rmap_ok _ _ _) Hcs) as Hcs'. apply Forall2_length in Hcs'. apply andb_true_iff in Ec as [Ec1 Ec2]. pose proof (proj1 (Nat.eqb_eq _ _) Ec1) as Ew. split; [lia|].
  eexists. split; [|split; [apply shape_table|]].
  - unfold quad_response, bind. rewrite H1, H2, H3. unfold lift. rewrite Hcs, Ec1, Ec2. done.
  - exists c, (zip_with nsub e1 e0). split; [done|]. split; [exact H|]. pose proof (finite_length _ _ He1). pose proof (finite_length _ _ He0). split; [rewrite zip_with_length; lia|].
    intros p b Hp Hb. specialize (E0 p b Hp Hb). specialize (E1 p b Hp Hb). rewrite (finite_lookup _ _ _ He0) in E0. rewrite (finite_lookup _ _ _ He1) in E1.
    destruct (e0 !! bpm_row bpms p b) as [x0|] eqn:X0; [|done]. destruct (e1 !! bpm_row bpms p b) as [x1|] eqn:X1; [|done]. exists x1, x0. cbn in E0, E1. injection E0 as E0. injection E1 as E1.
    split; [done|]. split; [exact (eq_sym E0)|]. rewrite lookup_zip_with, X0, X1. done.
Qed.
Section Chunks.
  Context (copies : bool) (w : world R) (bpms hcm vcm : list nat) (mode : string) (dkick : R) (ideal : bool) (cm : matrix) (skew : bool) (order : nat) (method : string) (dk rf : R) (cavs : option (list nat)).
  Notation qrd := (quad_response_dispersion copies w bpms hcm vcm mode dkick ideal cm skew order method dk rf cavs).
  Notation qr := (quad_response copies w bpms hcm vcm mode dkick ideal cm skew order method dk).
  Definition extends (ring : list (elem R)) (m0 m : matrix) : Prop := shape (length cm) (width cm) m0 /\ (length hcm + length vcm)%nat = width cm /\ added w ring bpms cavs rf m0 m.
  Lemma chunk_extends quads (s s' : sc R) ms : mapM quads qrd s = (Ok ms, s') -> exists ms0, mapM quads qr s = (Ok ms0, s') /\ length ms0 = length quads /\ Forall2 (extends (IDEALRING s)) ms0 ms.
  Proof.
    revert s s' ms. induction quads as [|q quads IH]; intros s s' ms H; cbn in H |- *.
    - apply ret_ok in H as [<- ->]. exists []. split; [done|]. split; [done|constructor].
    - apply bind_ok in H as (m&s1&H1&H). apply bind_ok in H as (ms1&s2&H2&H). apply ret_ok in H as [<- ->]. apply quad_response_dispersion_ok in H1 as (I1&Hw&m0&H1&Hs&Ha).
      destruct (IH _ _ _ H2) as (ms0&H0&HL&HF). rewrite I1 in HF. exists (m0 :: ms0). split; [unfold bind; rewrite H1, H0; done|]. split; [cbn; lia|]. constructor; [|done]. split; [done|by split].
  Qed.
  Lemma chunks_extend chunks (s : sc R) yss : rmap (fun quads => fst (mapM quads qrd s)) chunks = Ok yss ->
    exists zss, rmap (fun quads => fst (mapM quads qr s)) chunks = Ok zss /\ length (concat zss) = length (concat chunks) /\ Forall2 (extends (IDEALRING s)) (concat zss) (concat yss).
  Proof.
    revert yss. induction chunks as [|quads chunks IH]; intros yss H; cbn in H |- *.
    - injection H as <-. exists []. split; [done|]. split; [done|constructor].
    - apply rbind_ok in H as (ys&H1&H). apply rbind_ok in H as (yss1&H2&H). injection H as <-. destruct (mapM quads qrd s) as [x s'] eqn:E. cbn in H1. subst x.
      destruct (chunk_extends _ _ _ _ E) as (zs&Hz&HL&HF). destruct (IH _ H2) as (zss&Hzs&HLs&HFs). exists (zs :: zss). rewrite Hz. cbn [fst rbind]. rewrite Hzs. split; [done|]. cbn. rewrite !app_length. split; [lia|]. by apply Forall2_app.
  Qed.
End Chunks.
(** division of all entries by [dk] *)
Notation over dk := (rmap (rmap (fun x : R => qdiv x dk))).
Lemma over_ok dk (m m' : matrix) : over dk m = Ok m' -> m' = map (map (fun x => x / dk)) m.
Proof.
  intros H. apply rmap_ok in H. induction H as [|row row' m m' H1 H2 IH]; [done|]. cbn. f_equal; [|done]. apply rmap_ok in H1. clear -H1.
  induction H1 as [|x x' row row' H _ IH]; [done|]. cbn. apply qdivR_ok in H as [-> _]. by f_equal.
Qed.
Lemma over_total dk (m : matrix) : dk <> 0 -> over dk m = Ok (map (map (fun x => x / dk)) m).
Proof.
  intros Hd. apply rmap_ok. induction m as [|row m IH]; [constructor|]. constructor; [|done]. apply rmap_ok. clear IH. induction row as [|x row IH]; [constructor|]. constructor; [|done].
  unfold qdiv. cbn. destruct (Reqb dk 0) eqn:E; [by apply Reqb_true in E|done].
Qed.
Lemma mget_divided dk (m : matrix) r c nr nc : shape nr nc m -> (r < nr)%nat -> (c < nc)%nat -> mget (map (map (fun x => x / dk)) m) r c = mget m r c / dk.
Proof.
  intros Hs Hr Hc. destruct (shape_row _ _ _ _ Hs Hr) as (row&Hrow&HL). unfold mget. change (@map) with (@fmap list _). rewrite list_lookup_fmap, Hrow. cbn [fmap option_fmap option_map mbind option_bind].
  destruct (row !! c) as [x|] eqn:Ex; [|apply lookup_ge_None in Ex; lia]. change (list_fmap R R (λ x : R, x / dk) row) with ((λ x : R, x / dk) <$> row). rewrite list_lookup_fmap, Ex. done.
Qed.
Lemma hstack_shape nr nc (m0 m : matrix) col : hstack m0 col = Ok m -> shape nr nc m0 -> length col = nr /\ shape nr (S nc) m /\
  forall r c, (r < nr)%nat -> mget m r c = if (c =? nc)%nat then vget col r else mget m0 r c.
Proof.
  unfold hstack. destruct (Nat.eqb_spec (length m0) (length col)) as [E|]; [|done]. intros [= <-] Hs. pose proof Hs as [HL HF]. split; [lia|]. split.
  - split; [rewrite zip_with_length; lia|]. apply Forall_lookup. intros k row Hk. apply lookup_zip_with_Some in Hk as (row0&x&->&H0&_). rewrite app_length. cbn. eapply Forall_lookup_1 in HF; [|exact H0]. lia.
  - intros r c Hr. destruct (shape_row _ _ _ _ Hs Hr) as (row&Hrow&HLr). unfold mget. rewrite lookup_zip_with, Hrow. cbn [mbind option_bind]. unfold vget.
    destruct (col !! r) as [x|] eqn:Ex; [|apply lookup_ge_None in Ex; lia]. cbn [mbind option_bind]. destruct (Nat.eqb_spec c nc) as [-> |Hc].
    + rewrite lookup_app_r by lia. rewrite HLr, Nat.sub_diag. done.
    + destruct (Nat.ltb_spec c nc); [by rewrite lookup_app_l by lia|]. rewrite lookup_app_r by lia. destruct (c - length row)%nat as [|[|k]] eqn:Ek; [lia| |]; by rewrite (lookup_ge_None_2 row) by lia.
Qed.

Section Theorems.
  Context (copies : bool) (w : world R) (chunks : list (list nat)) (bpms hcm vcm : list nat) (mode : string) (dkick : R) (ideal : bool) (cm : matrix) (skew : bool) (order : nat) (method : string) (dk rf : R) (cavs : option (list nat)).
  Context (nr nc : nat).
  Notation jacobian := (calculate_jacobian copies w chunks bpms hcm vcm mode dkick ideal cm skew order method dk).
  Notation jacobian_dispersion := (calculate_jacobian_dispersion copies w chunks bpms hcm vcm mode dkick ideal cm skew order method dk rf cavs).

  Lemma parts (s : sc R) js : shape nr nc cm -> (0 < nr)%nat -> jacobian_dispersion false s = Ok js ->
    exists ms0 ms, jacobian false s = Ok (map (map (map (fun x => x / dk))) ms0) /\ js = map (map (map (fun x => x / dk))) ms /\ length ms0 = length (concat chunks) /\ (concat chunks <> [] -> dk <> 0) /\
      Forall2 (extends w bpms hcm vcm cm rf cavs (IDEALRING s)) ms0 ms.
  Proof.
    intros Hs Hr H. unfold calculate_jacobian_dispersion in H. apply rbind_ok in H as (yss&Hy&H). apply rbind_ok in H as (res&Hres&H). injection H as <-.
    destruct (chunks_extend _ _ _ _ _ _ _ _ _ _ _ _ _ _ _ _ _ _ Hy) as (zss&Hz&HL&HF). exists (concat zss), (concat yss).
    assert (concat chunks <> [] -> dk <> 0) as Hdk.
    { intros Hne. apply rmap_ok in Hres. destruct HF as [|m0 m ms0 ms (S0&_&c&col&_&Hh&_)]; [by destruct (concat chunks)|]. inversion Hres as [|? m' ? ? Hd]; subst.
      pose proof (hstack_shape _ _ _ _ _ Hh S0) as (_&S1&_). destruct (divided dk m m' 0 (width cm) (length cm) (S (width cm)) Hd S1) as [? _]; [destruct Hs; lia|lia|done]. }
    assert (res = map (map (map (fun x => x / dk))) (concat yss)) as ->.
    { apply rmap_ok in Hres. clear -Hres. induction Hres as [|m m' ms ms' H _ IH]; [done|]. cbn. apply over_ok in H as ->. by f_equal. }
    split; [|split; [done|split; [done|split; [done|done]]]].
    unfold calculate_jacobian. rewrite Hz. cbn [rbind]. assert (rmap (fun m => over dk m) (concat zss) = Ok (map (map (map (fun x => x / dk))) (concat zss))) as ->; [|done].
    apply rmap_ok. destruct (decide (concat chunks = [])) as [E|E]; [rewrite E in HL; destruct (concat zss); [constructor|done]|].
    clear -Hdk E. induction (concat zss) as [|m ms IH]; [constructor|]. constructor; [by apply over_total, Hdk|done].
  Qed.
  Lemma slice_of (ms : list matrix) i m r c nr' nc' : ms !! i = Some m -> shape nr' nc' m -> (r < nr')%nat -> (c < nc')%nat -> slice (map (map (map (fun x => x / dk))) ms) i r c = mget m r c / dk.
  Proof.
    intros Hm Hs Hr Hc. unfold slice. change (@map matrix) with (@fmap list _ matrix). rewrite list_lookup_fmap, Hm. cbn [fmap option_fmap option_map from_option Datatypes.id]. by eapply mget_divided.
  Qed.
  (** With dispersion, every quadrupole slice has one more column; the others are those computed without dispersion. *)
  Theorem C91_response_columns (s : sc R) js : shape nr nc cm -> (0 < nr)%nat -> jacobian_dispersion false s = Ok js ->
    exists js0, jacobian false s = Ok js0 /\ length js0 = length (concat chunks) /\ length js = length (concat chunks) /\
      forall i, (i < length (concat chunks))%nat -> shape nr (S nc) (default [] (js !! i)) /\ forall r c, (r < nr)%nat -> (c < nc)%nat -> slice js i r c = slice js0 i r c.
  Proof.
    intros Hs Hr H. pose proof (shape_width _ _ _ Hs Hr) as Hw. apply parts in H as (ms0&ms&H0&->&HL&_&HF); [|done|done]. eexists. split; [exact H0|]. pose proof (Forall2_length _ _ _ HF). rewrite !map_length.
    split; [done|]. split; [lia|]. intros i Hi. destruct (ms0 !! i) as [m0|] eqn:E0; [|apply lookup_ge_None in E0; lia]. eapply Forall2_lookup_l in HF as (m&Em&S0&_&c'&col&_&Hh&_); [|exact E0].
    rewrite Hw in S0. replace (length cm) with nr in S0 by (by destruct Hs). destruct (hstack_shape _ _ _ _ _ Hh S0) as (_&S1&Hg). split.
    - change (@map matrix) with (@fmap list _ matrix). rewrite list_lookup_fmap, Em. cbn. by apply shape_map.
    - intros r c Hr' Hc. rewrite (slice_of _ _ _ _ _ _ _ Em S1) by lia. rewrite (slice_of _ _ _ _ _ _ _ E0 S0) by lia. rewrite Hg by done. destruct (Nat.eqb_spec c nc); [lia|done].
  Qed.
  (** The last column: the difference of the dispersions of the design lattice found with the step given and with the step 1000, over the change of the quadrupole. *)
  Theorem C91_dispersion_column (s : sc R) js : shape nr nc cm -> (0 < nr)%nat -> concat chunks <> [] -> jacobian_dispersion false s = Ok js ->
    exists c, cavs = Some c /\ dk <> 0 /\ nr = (2 * length bpms)%nat /\
      forall i p b, (i < length (concat chunks))%nat -> (p < 2)%nat -> (b < length bpms)%nat ->
        exists e1 e0, dispersion_of w (IDEALRING s) bpms c rf p b = Some e1 /\ dispersion_of w (IDEALRING s) bpms c 1000 p b = Some e0 /\ slice js i (bpm_row bpms p b) nc = (e1 - e0) / dk.
  Proof.
    intros Hs Hr Hne H. pose proof (shape_width _ _ _ Hs Hr) as Hw. apply parts in H as (ms0&ms&_&->&HL&Hdk&HF); [|done|done].
    assert (length cm = nr) as HLc by (by destruct Hs).
    assert (exists c, cavs = Some c /\ nr = (2 * length bpms)%nat) as (c&Hc&Hnr).
    { inversion HF as [E1 E2|m0 m ms0' ms' (S0&_&c&col&Hc&Hh&Hlc&_)]; subst; [by destruct (concat chunks)|]. exists c. split; [done|]. destruct (hstack_shape _ _ _ _ _ Hh S0). lia. }
    exists c. split; [done|]. split; [by apply Hdk|]. split; [done|]. intros i p b Hi Hp Hb. destruct (ms0 !! i) as [m0|] eqn:E0; [|apply lookup_ge_None in E0; lia].
    eapply Forall2_lookup_l in HF as (m&Em&S0&_&c'&col&Hc'&Hh&_&Hcol); [|exact E0]. rewrite Hc in Hc'. injection Hc' as <-. rewrite Hw, HLc in S0.
    destruct (hstack_shape _ _ _ _ _ Hh S0) as (_&S1&Hg). destruct (Hcol p b Hp Hb) as (e1&e0&D1&D0&Hx). exists e1, e0. split; [done|]. split; [done|].
    assert (bpm_row bpms p b < nr)%nat by (unfold bpm_row; nia). rewrite (slice_of _ _ _ _ _ _ _ Em S1) by lia. rewrite Hg by done. rewrite Nat.eqb_refl. unfold vget. by rewrite Hx.
  Qed.
  (** Finding: the added column does not know of the quadrupole: it is the same for all of them, and zero with the default step. *)
  Theorem C91_finding_blind (s : sc R) js : shape nr nc cm -> (0 < nr)%nat -> jacobian_dispersion false s = Ok js ->
    forall i j r, (i < length (concat chunks))%nat -> (j < length (concat chunks))%nat -> (r < nr)%nat -> slice js i r nc = slice js j r nc /\ (rf = 1000 -> slice js i r nc = 0).
  Proof.
    intros Hs Hr0 H i j r Hi Hj Hr. assert (concat chunks <> []) as Hne by (by intros E; rewrite E in Hi; cbn in Hi; lia).
    destruct (C91_dispersion_column _ _ Hs Hr0 Hne H) as (c&_&_&Hn&Hd). rewrite Hn in Hr. apply row_of in Hr as (p&b&Hp&Hb&->).
    destruct (Hd i p b Hi Hp Hb) as (e1&e0&D1&D0&E). destruct (Hd j p b Hj Hp Hb) as (e1'&e0'&D1'&D0'&E'). unfold bpm_row in *. rewrite E, E'. rewrite D1 in D1'. rewrite D0 in D0'. injection D1' as <-. injection D0' as <-.
    split; [done|]. intros ->. rewrite D1 in D0. injection D0 as <-. unfold Rdiv. ring.
  Qed.
  (** Finding: the slices of the gains have no such column, so that the complete jacobian with dispersion cannot be put together. *)
  Theorem C91_finding_full (s : sc R) : shape nr nc cm -> (0 < nr)%nat ->
    (forall js, jacobian_dispersion true s <> Ok js) /\ (forall js, concat chunks <> [] -> jacobian_dispersion false s = Ok js -> jacobian_dispersion true s = Err ValueError).
  Proof.
    intros Hs Hr. pose proof (shape_width _ _ _ Hs Hr) as Hw. assert (length cm = nr) as HLc by (by destruct Hs).
    assert (forall js jc, (0 < length (concat chunks))%nat -> jacobian_dispersion false s = Ok js -> length bpms * 2 <> 0 ->
      stack js jc (map (fun i => table (length cm) (width cm) (fun r c => if (r =? i)%nat then mget cm r c else n0)) (seq 0 (length bpms * 2))) = Err ValueError)%nat as Hstack.
    { intros js jc Hi H Hb. destruct (C91_response_columns _ _ Hs Hr H) as (js0&_&_&HL&Hsh). destruct (Hsh 0%nat Hi) as [S1 _]. destruct js as [|m js]; [cbn in HL; lia|]. cbn in S1. unfold stack.
      destruct (forallb _ _) eqn:E; [|done]. exfalso. rewrite !forallb_app in E. apply andb_true_iff in E as [_ E]. apply andb_true_iff in E as [_ E]. destruct (length bpms * 2)%nat; [done|]. cbn [seq map forallb] in E.
      apply andb_true_iff in E as [E _]. unfold same_shape in E. apply andb_true_iff in E as [_ E]. apply Nat.eqb_eq in E. rewrite (shape_width _ _ _ S1 Hr) in E. rewrite (shape_width _ _ _ (shape_table _ _ _)) in E by lia. lia. }
    assert (forall js, jacobian_dispersion true s = Ok js -> exists js1, jacobian_dispersion false s = Ok js1) as Hdown.
    { intros js. unfold calculate_jacobian_dispersion. intros H. apply rbind_ok in H as (y&->&H). apply rbind_ok in H as (r&Hr'&_). cbn [rbind]. rewrite Hr'. cbn. eauto. }
    assert (forall js jb, jacobian_dispersion false s = Ok js -> rmap (bpm_slice cm) (seq 0 (length bpms * 2)) = Ok jb ->
      jb = map (fun i => table (length cm) (width cm) (fun r c => if (r =? i)%nat then mget cm r c else n0)) (seq 0 (length bpms * 2)))%nat as Hjb.
    { intros js jb _ H. apply rmap_ok in H. clear -H. induction H as [|i m l l' H _ IH]; [done|]. cbn [map]. unfold bpm_slice in H. destruct (_ <? _)%nat; [|done]. injection H as <-. by f_equal. }
    split.
    - intros js H. destruct (Hdown _ H) as [js1 H1]. unfold calculate_jacobian_dispersion in H, H1. apply rbind_ok in H as (y&Hy&H). apply rbind_ok in H as (r&Hr'&H). rewrite Hy in H1. cbn [rbind] in H1. rewrite Hr' in H1. cbn [rbind] in H1. injection H1 as <-.
      apply rbind_ok in H as (jc&Hjc&H). apply rbind_ok in H as (jb&Hjb'&H). destruct r as [|m r]; [done|].
      assert (jacobian_dispersion false s = Ok (m :: r)) as H1. { unfold calculate_jacobian_dispersion. rewrite Hy. cbn [rbind]. rewrite Hr'. done. }
      pose proof (Hjb _ _ H1 Hjb') as ->. destruct (C91_response_columns _ _ Hs Hr H1) as (js0&_&_&HL&_). assert (concat chunks <> []) as Hne by (by intros E; rewrite E in HL).
      destruct (C91_dispersion_column _ _ Hs Hr Hne H1) as (c&_&_&Hn&_). rewrite Hstack in H; [done|cbn in HL; lia|done|lia].
    - intros js Hne H. destruct (C91_dispersion_column _ _ Hs Hr Hne H) as (c&_&_&Hn&_). assert (0 < length (concat chunks))%nat as Hi by (destruct (concat chunks); [done|cbn; lia]).
      pose proof (parts _ _ Hs Hr H) as (ms0&ms&_&_&HL&_&HF). assert (length hcm + length vcm = width cm)%nat as Hcor by (destruct HF as [|? ? ? ? (_&E&_)]; [cbn in HL; lia|done]).
      pose proof H as H'. unfold calculate_jacobian_dispersion in H' |- *. apply rbind_ok in H' as (y&->&H'). apply rbind_ok in H' as (r&Hr'&H'). injection H' as ->. cbn [rbind]. rewrite Hr'. cbn [rbind].
      assert (rmap (corrector_slice cm) (seq 0 (length hcm + length vcm)) = Ok (map (fun i => table (length cm) (width cm) (fun r c => if (c =? i)%nat then mget cm r c else n0)) (seq 0 (length hcm + length vcm)))) as ->.
      { rewrite Hcor. assert (forall l, Forall (fun i => (i < width cm)%nat) l -> rmap (corrector_slice cm) l = Ok (map (fun i => table (length cm) (width cm) (fun r c => if (c =? i)%nat then mget cm r c else n0)) l)) as X.
        - intros l Hl. apply rmap_ok. induction Hl as [|i l Hi' _ IH]; [constructor|]. constructor; [|done]. unfold corrector_slice. by rewrite (proj2 (Nat.ltb_lt _ _) Hi').
        - apply X, Forall_forall. intros i Hi'. apply elem_of_seq in Hi'. lia. }
      cbn [rbind].
      assert (rmap (bpm_slice cm) (seq 0 (length bpms * 2)) = Ok (map (fun i => table (length cm) (width cm) (fun r c => if (r =? i)%nat then mget cm r c else n0)) (seq 0 (length bpms * 2)))) as ->.
      { assert (forall l, Forall (fun i => (i < length cm)%nat) l -> rmap (bpm_slice cm) l = Ok (map (fun i => table (length cm) (width cm) (fun r c => if (r =? i)%nat then mget cm r c else n0)) l)) as X.
        - intros l Hl. apply rmap_ok. induction Hl as [|i l Hi' _ IH]; [constructor|]. constructor; [|done]. unfold bpm_slice. by rewrite (proj2 (Nat.ltb_lt _ _) Hi').
        - apply X, Forall_forall. intros i Hi'. apply elem_of_seq in Hi'. lia. }
      cbn [rbind]. apply Hstack; [done|done|lia].
  Qed.
End Theorems.
(** Finding: the default (no cavities given) is refused. *)
Theorem C91_finding_no_cavities copies w chunks bpms hcm vcm mode dkick ideal cm skew order method dk rf full (s : sc R) q quads : (q :: quads) ∈ chunks ->
  (forall p b, (p < 2)%nat -> (b < length bpms)%nat -> position_in w "ORB" (IDEALRING s) (zeros 6) 1 bpms p b 0 <> None) ->
  calculate_jacobian_dispersion copies w chunks bpms hcm vcm mode dkick ideal cm skew order method dk rf None full s = Err TypeError.
Proof.
  intros Hq Horb. unfold calculate_jacobian_dispersion.
  assert (forall q0, fst (quad_response_dispersion copies w bpms hcm vcm mode dkick ideal cm skew order method dk rf None q0 s) = Err TypeError) as H1.
  { intros q0. unfold quad_response_dispersion. cbn [quad_dispersion]. unfold bind, SCgetModelDispersion, get, ret, lift. cbn [bind].
    change (track_method w "ORB") with (Ok (fun (ring : list (elem R)) (_ : list R) (_ : nat) (refs : list nat) (c b _ : nat) => w_orbit w ring refs b c)). cbn [fst snd].
    unfold bind. rewrite decide_True by done. destruct (forallb _ _) eqn:E.
    - cbn. destruct (Reqb 1 0) eqn:E1; [apply Reqb_true in E1; lra|done].
    - exfalso. apply not_true_iff_false in E. apply E. clear E. rewrite forallb_forall. intros c Hc. rewrite forallb_forall. intros b Hb. apply in_seq in Hb. cbn. rewrite andb_true_r.
      assert (exists p, (p < 2)%nat /\ c = (2 * p)%nat) as (p&Hp&->) by (destruct Hc as [<-|[<-|[]]]; [exists 0%nat|exists 1%nat]; lia).
      specialize (Horb p b Hp ltac:(lia)). unfold position_in in Horb. rewrite decide_True in Horb by done. destruct (w_orbit w (IDEALRING s) bpms b (2 * p)); done. }
  assert (rmap (fun quads => fst (mapM quads (quad_response_dispersion copies w bpms hcm vcm mode dkick ideal cm skew order method dk rf None) s)) chunks = Err TypeError) as ->; [|done].
  clear -H1 Hq. induction chunks as [|l chunks IH]; [by apply elem_of_nil in Hq|]. cbn [rmap]. destruct l as [|q0 l].
  - cbn. apply elem_of_cons in Hq as [?|Hq]; [done|]. by rewrite IH.
  - cbn [mapM]. unfold bind at 1. specialize (H1 q0). destruct (quad_response_dispersion _ _ _ _ _ _ _ _ _ _ _ _ _ _ _ q0 s) as [[]]; cbn in H1; [done|]. injection H1 as ->. done.
Qed.
Print Assumptions C91_response_columns.
Print Assumptions C91_dispersion_column.
Print Assumptions C91_finding_blind.
Print Assumptions C91_finding_full.
Print Assumptions C91_finding_no_cavities.

(** two quadrupoles, a corrector, a BPM, a cavity; the orbit depends on the quadrupoles and quadratically on the frequency *)
From Coq Require Import QArith.
From Verif Require Examples.
Local Open Scope Q_scope.
#[local] Instance TrigQ22 : Trig Q := {| ncos := fun _ => 1; nsin := fun _ => 0; nsqrt := fun x => x; npi := 3 |}.
Definition disp_world : world Q :=
  MkWorld (fun _ _ _ _ _ _ _ _ => None)
    (fun ring _ _ c =>
      let field i a k := default 0%Q (e ← ring !! i; match (e : elem Q) !! a with Some (VVec l) => l !! k | _ => None end) in
      let f := default 0%Q (e ← ring !! 4%nat; match (e : elem Q) !! "Frequency" with Some (VNum x) => Some x | _ => None end) in
      if (c =? 0)%nat then Some (Qred (field 2%nat "KickAngle" 0%nat * (1 + 3 * field 0%nat "PolynomB" 1%nat + 5 * field 1%nat "PolynomB" 1%nat) + (f * f) * (1 + field 0%nat "PolynomB" 1%nat))) else Some 0)
    (fun _ => ([], [])) (fun Z => Z).
Definition plain_cavity : elem Q := <["Frequency" := VNum 0%Q]> (<["PassMethod" := VStr "RFCavityPass"]> ∅).
Definition disp_machine : sc Q :=
  let ring := [Examples.quad; Examples.quad; Examples.thin_cm; Examples.bpm; plain_cavity] in
  let s := MkSC ring ring (MkInj 1 (zeros 6) (zeros 6) (replicate 6 (zeros 6)) (zeros 6) 1 1 1 "ORB") (SIG Examples.ex_sc) (MkOrd [3]%nat [] [] [] [] [] [] [] []) [] in
  snd (update_magnets [0; 1]%nat (snd (register_magnets [0; 1]%nat [] (MkType None None false None None) s))).
Definition disp_jacobian (rf : Q) (cavs : option (list nat)) (full : bool) :=
  calculate_jacobian_dispersion true disp_world [[0]; [1]]%nat [3%nat] [2%nat] [] "ORB" (1#10) false [[25]; [0]] false 1 ADD (1#100) rf cavs full disp_machine.
(** the dispersion does change with the first quadrupole, but the column is zero, or the same for both *)
Example C91_case :
  disp_jacobian 1000 (Some [4%nat]) false = Ok [[[3; 0]; [0; 0]]; [[5; 0]; [0; 0]]] /\
  disp_jacobian 2000 (Some [4%nat]) false = Ok [[[3; 400000]; [0; 0]]; [[5; 400000]; [0; 0]]] /\
  disp_jacobian 1000 (Some [4%nat]) true = Err ValueError /\
  disp_jacobian 1000 None false = Err TypeError.
Proof. vm_compute. done. Qed.
