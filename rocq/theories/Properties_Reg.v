(** C01-C06: registration. *)
From stdpp Require Import base gmap strings list.
From Verif Require Import Num Base Model_Arr Model_SC Model_Err Lemmas Proofs_Reg Proofs_Support Examples.
From Coq Require Import Sorted QArith Reals.
Local Open Scope string_scope.
Local Open Scope list_scope.

(** * Specification *)
(** The documented keywords. *)
Definition doc_bpm : list string := ["Noise"; "NoiseCO"; "Offset"; "Roll"; "CalError"; "SumError"].
Definition doc_rf : list string :=
  ["VoltageSetpoint"; "VoltageOffset"; "VoltageCalError"; "FrequencySetpoint"; "FrequencyOffset"; "FrequencyCalError";
   "TimeLagSetpoint"; "TimeLagOffset"; "TimeLagCalError"].
Definition doc_magnet : list string := ["MagnetOffset"; "MagnetRoll"; "CalErrorA"; "CalErrorB"; "BendingAngle"].
Definition doc_support : list string := ["Offset"; "Roll"].
Definition only_documented {A} (kw : dict A) (doc : list string) : Prop := forall k v, (k, v) ∈ kw -> k ∈ doc.

(** Which ordinates a call adds to which list. *)
Definition adds_BPM {T} (o : op T) (x : nat) : Prop :=
  match o with OpBPM ords kw => only_documented kw doc_bpm /\ x ∈ ords | _ => False end.
Definition adds_RF {T} (o : op T) (x : nat) : Prop :=
  match o with OpRF ords kw => only_documented kw doc_rf /\ x ∈ ords | _ => False end.
Definition adds_Magnet {T} (o : op T) (x : nat) : Prop :=
  match o with OpMagnet ords kw k => only_documented kw doc_magnet /\ x ∈ ords | _ => False end.
Definition adds_HCM {T} (o : op T) (x : nat) : Prop :=
  match o with OpMagnet ords kw k => only_documented kw doc_magnet /\ x ∈ ords /\ kHCM k <> None | _ => False end.
Definition adds_VCM {T} (o : op T) (x : nat) : Prop :=
  match o with OpMagnet ords kw k => only_documented kw doc_magnet /\ x ∈ ords /\ kVCM k <> None | _ => False end.
Definition adds_Skew {T} (o : op T) (x : nat) : Prop :=
  match o with OpMagnet ords kw k => only_documented kw doc_magnet /\ x ∈ ords /\ kSkewQuad k <> None | _ => False end.
Definition adds_support {T} (name : string) (o : op T) (p : nat * nat) : Prop :=
  match o with
  | OpSupport [starts; ends] n kw =>
      n = name /\ only_documented kw doc_support /\ length starts = length ends /\ p ∈ zip starts ends
  | _ => False
  end.

(** Strictly increasing, and exactly the union of what the calls of the history added. *)
Definition union_of {T A} (lt : A -> A -> Prop) (l : list A) (ops : list (op T)) (adds : op T -> A -> Prop) : Prop :=
  StronglySorted lt l /\ forall x, x ∈ l <-> exists o, o ∈ ops /\ adds o x.

(** Per-element records of uncertainties: those of [ords] take over the given keywords and keep the others, the
    records of other elements stay as they are. *)
Definition sigmas_merged {A} (m m' : gmap nat (dict A)) (ords : list nat) (kw : dict A) : Prop :=
  (forall i, i ∉ ords -> m' !! i = m !! i) /\
  (forall i, i ∈ ords ->
     (forall k v, (k, v) ∈ kw -> sigma_of m' i k = Some v) /\
     (forall k, k ∉ map fst kw -> sigma_of m' i k = sigma_of m i k)).

Lemma documented_allowed {A} (kw : dict A) doc : only_documented kw doc <-> allowed kw doc.
Proof.
  unfold only_documented, allowed, dkeys. split.
  - intros H k Hk. apply elem_of_list_fmap in Hk as ([k' v]&->&Hk). simpl. eauto.
  - intros H k v Hk. apply H. apply elem_of_list_fmap. exists (k, v). auto.
Qed.
Lemma doc_bpm_iff {A} (kw : dict A) : only_documented kw doc_bpm <-> allowed kw BPM_ERROR_FIELDS.
Proof. apply documented_allowed. Qed.
Lemma doc_rf_iff {A} (kw : dict A) : only_documented kw doc_rf <-> allowed kw RF_ERROR_FIELDS.
Proof. apply documented_allowed. Qed.
Lemma doc_magnet_iff {A} (kw : dict A) : only_documented kw doc_magnet <-> allowed kw MAGNET_ERROR_FIELDS.
Proof. apply documented_allowed. Qed.
Lemma doc_support_iff {A} (kw : dict A) : only_documented kw doc_support <-> allowed kw SUPPORT_ERROR_FIELDS.
Proof. apply documented_allowed. Qed.
Lemma isSome_spec {A} (o : option A) : isSome o = true <-> o <> None.
Proof. destruct o; simpl; split; congruence. Qed.

Section Reg.
  Context {T : Type} {N : Num T} {Tr : Trig T} (minv : list (list T) -> res (list (list T))).

  Ltac docs := rewrite ?doc_bpm_iff, ?doc_rf_iff, ?doc_magnet_iff, ?doc_support_iff.
  Ltac unchanged := solve [split; [right; reflexivity|intros x; simpl; docs; first [tauto|intuition congruence]]].
  Ltac changed := solve [split; [left; apply unique_sorted|intros x; simpl; rewrite unique_elem, elem_of_app; docs; first [tauto|intuition congruence]]].
  Ltac effect :=
    intros o d; destruct o; cbn [ord_effect];
    repeat lazymatch goal with
    | |- context [decide (allowed ?kw ?l)] => destruct (decide (allowed kw l))
    | |- context [add_if (isSome ?x)] => let E := fresh in destruct x eqn:E; cbn [add_if isSome]
    | |- context [match ?rows with [] => _ | _ => _ end] => destruct rows as [|? [|? [|? ?]]]
    | |- context [stype_of ?t] => destruct (stype_of t) as [ [] | ]
    | |- context [(length ?a =? length ?b)%nat] => destruct (length a =? length b)%nat
    end; first [unchanged|changed].

  (** ** C01 *)
  Theorem C01_ordinates_sorted_union ring rng (ops : list (op T)) :
    let o := ORD (run minv ops (init_sc ring rng)) in
    union_of lt (oBPM o) ops adds_BPM /\ union_of lt (oRF o) ops adds_RF /\
    union_of lt (oMagnet o) ops adds_Magnet /\ union_of lt (oSkewQuad o) ops adds_Skew /\
    union_of lt (oHCM o) ops adds_HCM /\ union_of lt (oVCM o) ops adds_VCM.
  Proof.
    assert (forall (proj : indices -> list nat) (adds : op T -> nat -> Prop), proj init_ord = [] ->
      (forall o d, (StronglySorted lt (proj (ord_effect o d)) \/ proj (ord_effect o d) = proj d) /\
                   (forall x, x ∈ proj (ord_effect o d) <-> x ∈ proj d \/ adds o x)) ->
      union_of lt (proj (ORD (run minv ops (init_sc ring rng)))) ops adds) as P.
    { intros proj adds H0 H. destruct (run_list minv lt proj adds H ops (init_sc ring rng)) as [H1 H2].
      - simpl. rewrite H0. constructor.
      - split; [done|]. intros x. rewrite H2. simpl. rewrite H0. rewrite elem_of_nil. naive_solver. }
    split; [apply P; [reflexivity|effect]|]. split; [apply P; [reflexivity|effect]|]. split; [apply P; [reflexivity|effect]|].
    split; [apply P; [reflexivity|effect]|]. split; [apply P; [reflexivity|effect]|]. apply P; [reflexivity|effect].
  Qed.

  (** ** C05 *)
  Theorem C05_support_registry_sorted_union ring rng (ops : list (op T)) :
    let o := ORD (run minv ops (init_sc ring rng)) in
    union_of pair_lt (oSection o) ops (adds_support "Section") /\
    union_of pair_lt (oPlinth o) ops (adds_support "Plinth") /\
    union_of pair_lt (oGirder o) ops (adds_support "Girder").
  Proof.
    assert (forall (proj : indices -> list (nat * nat)) (adds : op T -> (nat * nat) -> Prop), proj init_ord = [] ->
      (forall o d, (StronglySorted pair_lt (proj (ord_effect o d)) \/ proj (ord_effect o d) = proj d) /\
                   (forall x, x ∈ proj (ord_effect o d) <-> x ∈ proj d \/ adds o x)) ->
      union_of pair_lt (proj (ORD (run minv ops (init_sc ring rng)))) ops adds) as P.
    { intros proj adds H0 H. destruct (run_list minv pair_lt proj adds H ops (init_sc ring rng)) as [H1 H2].
      - simpl. rewrite H0. constructor.
      - split; [done|]. intros x. rewrite H2. simpl. rewrite H0. rewrite elem_of_nil. naive_solver. }
    assert (forall t, (stype_of t = Some SSection <-> t = "Section") /\ (stype_of t = Some SPlinth <-> t = "Plinth") /\
                      (stype_of t = Some SGirder <-> t = "Girder")) as E.
    { intros t. unfold stype_of. repeat case_decide; naive_solver. }
    split; [|split]; (apply P; [reflexivity|]); intros o d;
      (destruct o; try (cbn [ord_effect]; repeat case_decide; unchanged));
      (destruct rows as [|a [|b [|? ?]]]; try unchanged); destruct (E t) as (E1&E2&E3); cbn [ord_effect adds_support];
      (destruct (stype_of t) as [st|] eqn:Et; [|split; [right; reflexivity|intros x; split; [tauto|]; intros [?|(?&?)]; [done|intuition congruence]]]);
      (destruct (decide (allowed kw SUPPORT_ERROR_FIELDS)); [|unchanged]);
      (destruct (Nat.eqb_spec (length a) (length b)); [|unchanged]);
      destruct st; cbn [set_oSupport oSupport oSection oPlinth oGirder];
      first [ split; [right; reflexivity|intros x; rewrite doc_support_iff; intuition congruence]
            | split; [left; apply update_double_sorted|intros x; rewrite update_double_elem, doc_support_iff; intuition congruence] ].
  Qed.

  (** ** C02 *)
  Theorem C02_unknown_keyword_rejected (s : sc T) :
    (forall ords kw, ~ only_documented kw doc_bpm -> register_bpms ords kw s = (Err ValueError, s)) /\
    (forall ords kw, ~ only_documented kw doc_rf -> register_cavities ords kw s = (Err ValueError, s)) /\
    (forall ords kw k, ~ only_documented kw doc_magnet -> register_magnets ords kw k s = (Err ValueError, s)) /\
    (forall rows t kw, ~ only_documented kw doc_support -> register_supports rows t kw s = (Err ValueError, s)) /\
    (forall rows t kw, t ∉ ["Section"; "Plinth"; "Girder"] -> register_supports rows t kw s = (Err ValueError, s)) /\
    (forall rows t kw, length rows <> 2%nat -> register_supports rows t kw s = (Err ValueError, s)).
  Proof.
    setoid_rewrite doc_bpm_iff. setoid_rewrite doc_rf_iff. setoid_rewrite doc_magnet_iff. setoid_rewrite doc_support_iff.
    split; [|split; [|split; [|split; [|split]]]].
    - intros ords kw H. unfold register_bpms, bind.
      destruct (check_kwargs_spec kw BPM_ERROR_FIELDS s) as [[? _]|[_ ->]]; [done|reflexivity].
    - intros ords kw H. unfold register_cavities, bind.
      destruct (check_kwargs_spec kw RF_ERROR_FIELDS s) as [[? _]|[_ ->]]; [done|reflexivity].
    - intros ords kw k H. unfold register_magnets, bind.
      destruct (check_kwargs_spec kw MAGNET_ERROR_FIELDS s) as [[? _]|[_ ->]]; [done|reflexivity].
    - intros rows t kw H. unfold register_supports. destruct (stype_of t); [|reflexivity]. unfold bind.
      destruct (check_kwargs_spec kw SUPPORT_ERROR_FIELDS s) as [[? _]|[_ ->]]; [done|reflexivity].
    - intros rows t kw H. unfold register_supports.
      assert (stype_of t = None) as ->; [|reflexivity]. unfold stype_of.
      rewrite !not_elem_of_cons in H. rewrite !decide_False by naive_solver. done.
    - intros rows t kw H. unfold register_supports. destruct (stype_of t); [|reflexivity]. unfold bind at 1.
      destruct (check_kwargs_spec kw SUPPORT_ERROR_FIELDS s) as [[_ ->]|[_ ->]]; [|reflexivity].
      destruct rows as [|? [|? [|? ?]]]; try reflexivity. simpl in H. congruence.
  Qed.

  (** ** C03 *)
  Lemma merged_spec (m m' : gmap nat (dict (sigval T))) ords kw :
    NoDup (map fst kw) -> merged m m' ords kw -> sigmas_merged m m' ords kw.
  Proof.
    intros Hnd [H1 H2]. split; [done|]. intros i Hi. split.
    - intros k v Hin. rewrite H2 by done. by rewrite (dget_in kw k v Hnd Hin).
    - intros k Hk. rewrite H2 by done. apply dget_None_keys in Hk. by rewrite Hk.
  Qed.
  Theorem C03_registering_again_merges (s s' : sc T) ords kw u :
    NoDup (map fst kw) ->
    (register_bpms ords kw s = (Ok u, s') -> sigmas_merged (sBPM (SIG s)) (sBPM (SIG s')) ords kw) /\
    (register_cavities ords kw s = (Ok u, s') -> sigmas_merged (sRF (SIG s)) (sRF (SIG s')) ords kw) /\
    (forall k, register_magnets ords kw k s = (Ok u, s') -> sigmas_merged (sMagnet (SIG s)) (sMagnet (SIG s')) ords kw).
  Proof.
    intros H. split; [|split].
    - intros E. apply merged_spec, (register_bpms_sig _ _ _ u); auto.
    - intros E. apply merged_spec, (register_cavities_sig _ _ _ u); auto.
    - intros k E. apply merged_spec; [done|]. by apply (register_magnets_sig _ _ k _ u).
  Qed.

  (** ** C04 *)
  Theorem C04_design_ring_never_modified (ops : list (op T)) (s : sc T) : IDEALRING (run minv ops s) = IDEALRING s.
  Proof. apply ideal_run. Qed.

  (** ** C06 *)
  Theorem C06_support_wipes_other_sigmas (s s' : sc T) starts ends name kw u :
    register_supports [starts; ends] name kw s = (Ok u, s') ->
    (forall i, i ∉ starts ++ ends -> sSupport (SIG s') !! i = sSupport (SIG s) !! i) /\
    (forall i k v, i ∈ starts ++ ends -> sigma_of (sSupport (SIG s')) i k = Some v ->
       exists f, k = name +:+ f /\ f ∈ map fst kw).
  Proof.
    intros H. destruct (stype_of name) as [t|] eqn:Et.
    2:{ unfold register_supports in H. rewrite Et in H. discriminate. }
    assert (name = stype_str t) as ->.
    { unfold stype_of in Et. repeat case_decide; simplify_eq; reflexivity. }
    destruct (register_supports_sig t starts ends _ kw s u s' Et H) as (HL&m1&M1&M2&E).
    rewrite E. split.
    - intros i Hi. rewrite writes_other; [by apply M2|].
      intros [[j k] v] Hw. simpl. intros ->. apply writes_in in Hw as (p&kv&a&ob&Hp&_&_&_&Hi').
      destruct p as [p1 p2]. apply elem_of_zip_l in Hp as Hp1. apply elem_of_zip_r in Hp as Hp2.
      apply Hi. rewrite elem_of_app. simpl in Hi'. naive_solver.
    - intros i k v Hi Hs. apply writes_some_any in Hs as [Hs|Hs].
      + unfold sigma_of in Hs. rewrite M1 in Hs by done. discriminate.
      + apply writes_in in Hs as (p&kv&a&ob&_&Hkv&_&->&_). exists kv.1. split; [done|].
        apply elem_of_list_fmap. eauto.
  Qed.

  (** What the call stores: a one-row uncertainty on the start element only, the two rows of a two-row
      uncertainty on start and end. *)
  Theorem C06_support_sigmas_stored (s s' : sc T) starts ends name kw u p f :
    register_supports [starts; ends] name kw s = (Ok u, s') ->
    NoDup (starts ++ ends) -> NoDup (map fst kw) -> p ∈ zip starts ends ->
    (forall l, (f, SPlain (VVec l)) ∈ kw ->
       sigma_of (sSupport (SIG s')) p.1 (name +:+ f) = Some (SPlain (VVec l)) /\ sigma_of (sSupport (SIG s')) p.2 (name +:+ f) = None) /\
    (forall l c, (f, SCut (VVec l) c) ∈ kw ->
       sigma_of (sSupport (SIG s')) p.1 (name +:+ f) = Some (SCut (VVec l) c) /\ sigma_of (sSupport (SIG s')) p.2 (name +:+ f) = None) /\
    (forall r0 r1, (f, SPlain (VMat [r0; r1])) ∈ kw ->
       sigma_of (sSupport (SIG s')) p.1 (name +:+ f) = Some (SPlain (VVec r0)) /\ sigma_of (sSupport (SIG s')) p.2 (name +:+ f) = Some (SPlain (VVec r1))) /\
    (forall r0 r1 c, (f, SCut (VMat [r0; r1]) c) ∈ kw ->
       sigma_of (sSupport (SIG s')) p.1 (name +:+ f) = Some (SCut (VVec r0) c) /\ sigma_of (sSupport (SIG s')) p.2 (name +:+ f) = Some (SCut (VVec r1) c)).
  Proof.
    intros H Hnd Hndk Hp. destruct (stype_of name) as [t|] eqn:Et.
    2:{ unfold register_supports in H. rewrite Et in H. discriminate. }
    assert (name = stype_str t) as ->.
    { unfold stype_of in Et. repeat case_decide; simplify_eq; reflexivity. }
    destruct (register_supports_sig t starts ends _ kw s u s' Et H) as (HL&m1&M1&M2&E). rewrite E. clear E H.
    apply NoDup_app in Hnd as (Hn1&Hn2&Hn3).
    assert (forall q, q ∈ zip starts ends -> q.1 ∈ starts /\ q.2 ∈ ends) as Hz.
    { intros [x y] Hq. split; [eapply elem_of_zip_l|eapply elem_of_zip_r]; eauto. }
    assert (forall q, q ∈ zip starts ends -> q.1 <> p.2 /\ q.2 <> p.1) as Hne.
    { intros q Hq. destruct (Hz _ Hq), (Hz _ Hp). split; intros Heq.
      - apply (Hn2 (q.1)); [done|]. by rewrite Heq.
      - apply (Hn2 (p.1)); [done|]. by rewrite <- Heq. }
    assert (forall v v', (f, v) ∈ kw -> (f, v') ∈ kw -> v = v') as Hf.
    { clear -Hndk. intros v v' H1 H2. induction kw as [|[k x] kw IH]; [inversion H1|]. simpl in Hndk. inversion Hndk as [|? ? Hni Hnd]; subst.
      apply elem_of_cons in H1. apply elem_of_cons in H2. destruct H1 as [H1|H1], H2 as [H2|H2]; simplify_eq; auto.
      all: exfalso; apply Hni, elem_of_list_fmap; eexists; (split; [|eassumption]); reflexivity. }
    assert (forall v a, (f, v) ∈ kw -> endpoint_sigmas v = Ok (a, None) ->
      sigma_of (foldl wr m1 (writes t kw (zip starts ends))) p.1 (stype_str t +:+ f) = Some a /\
      sigma_of (foldl wr m1 (writes t kw (zip starts ends))) p.2 (stype_str t +:+ f) = None) as P1.
    { intros v a Hin Hv. split.
      - apply writes_some.
        + apply writes_in. exists p, (f, v), a, None. eauto 10.
        + intros v' Hw. apply writes_in in Hw as (q&[k' x]&b&ob&Hq&Hx&Hb&Hk&Hc). simpl in *. apply str_app_inj in Hk as <-.
          assert (v = x) as <- by eauto. destruct Hc as [[_ ->]|[Hc _]]; [congruence|]. by destruct (Hne q Hq) as [_ ?].
      - rewrite writes_none.
        + unfold sigma_of. rewrite M1; [done|]. rewrite elem_of_app. right. by apply Hz.
        + intros v' Hw. apply writes_in in Hw as (q&[k' x]&b&ob&Hq&Hx&Hb&Hk&Hc). simpl in *. apply str_app_inj in Hk as <-.
          assert (v = x) as <- by eauto. destruct Hc as [[Hc _]|[_ Hc]]; [by destruct (Hne q Hq) as [? _]|congruence]. }
    assert (forall v a b, (f, v) ∈ kw -> endpoint_sigmas v = Ok (a, Some b) ->
      sigma_of (foldl wr m1 (writes t kw (zip starts ends))) p.1 (stype_str t +:+ f) = Some a /\
      sigma_of (foldl wr m1 (writes t kw (zip starts ends))) p.2 (stype_str t +:+ f) = Some b) as P2.
    { intros v a b Hin Hv. split.
      - apply writes_some.
        + apply writes_in. exists p, (f, v), a, (Some b). eauto 10.
        + intros v' Hw. apply writes_in in Hw as (q&[k' x]&b'&ob&Hq&Hx&Hb&Hk&Hc). simpl in *. apply str_app_inj in Hk as <-.
          assert (v = x) as <- by eauto. destruct Hc as [[_ ->]|[Hc _]]; [congruence|]. by destruct (Hne q Hq) as [_ ?].
      - apply writes_some.
        + apply writes_in. exists p, (f, v), a, (Some b). eauto 10.
        + intros v' Hw. apply writes_in in Hw as (q&[k' x]&b'&ob&Hq&Hx&Hb&Hk&Hc). simpl in *. apply str_app_inj in Hk as <-.
          assert (v = x) as <- by eauto. destruct Hc as [[Hc _]|[_ Hc]]; [by destruct (Hne q Hq) as [? _]|congruence]. }
    split; [|split; [|split]]; intros; eauto.
  Qed.
End Reg.

(** The finding of C06: a Girder starting where a Section starts removes the Section's uncertainty. *)
Definition c06_machine : sc Q :=
  snd (register_supports [[1%nat]; [5%nat]] "Section" [("Offset", SPlain (VVec [1; 1; 1]%Q))] (ex_sc : sc Q)).
Theorem C06_finding_section_sigma_lost :
  sigma_of (sSupport (SIG c06_machine)) 1%nat "SectionOffset" = Some (SPlain (VVec [1; 1; 1]%Q)) /\
  let r := register_supports [[1%nat]; [3%nat]] "Girder" [("Roll", SPlain (VVec [1; 0; 0]%Q))] c06_machine in
  fst r = Ok tt /\ sigma_of (sSupport (SIG (snd r))) 1%nat "SectionOffset" = None.
Proof. vm_compute. auto. Qed.

(** * Concrete cases *)
Section ExamplesReg.
  Context (minv : list (list R) -> res (list (list R))).
  (** a history with repeated, unsorted and rejected calls *)
  Example C01_ex : oBPM (ORD (run minv [OpBPM [5; 3; 3]%nat []; OpBPM [4]%nat [("Wrong", SPlain (VNum 1%R))]; OpBPM [3; 1]%nat []] (ex_sc : sc R))) = [1; 3; 5]%nat.
  Proof. reflexivity. Qed.
  Example C05_ex : oGirder (ORD (run minv [OpSupport [[4; 1]; [5; 3]]%nat "Girder" []; OpSupport [[1; 0]; [3; 3]]%nat "Girder" []] (ex_sc : sc R))) = [(0, 3); (1, 3); (4, 5)]%nat.
  Proof. reflexivity. Qed.
End ExamplesReg.
Example C02_ex : ~ only_documented [("VoltageSetPoint", SPlain (VNum 1%R))] doc_rf.
Proof.
  intros H. assert ("VoltageSetPoint" ∈ doc_rf) as H' by (eapply H; left).
  apply (bool_decide_eq_true_2 ("VoltageSetPoint" ∈ doc_rf)) in H'. vm_compute in H'. discriminate.
Qed.
Example C03_ex :
  let s' := snd (register_bpms [3%nat] [("Roll", SPlain (VNum 1%Q))] (ex_sc : sc Q)) in
  let r := register_bpms [3; 3]%nat [("SumError", SPlain (VNum 2%Q))] s' in
  fst r = Ok tt /\
  sigma_of (sBPM (SIG (snd r))) 3%nat "Roll" = Some (SPlain (VNum 1%Q)) /\ sigma_of (sBPM (SIG (snd r))) 3%nat "SumError" = Some (SPlain (VNum 2%Q)).
Proof. vm_compute. auto. Qed.
Example C06_ex :
  fst (register_supports [[1%nat]; [3%nat]] "Plinth" [("Offset", SPlain (VMat [[1; 1; 1]; [2; 2; 2]]%Q))] c06_machine) = Ok tt.
Proof. vm_compute. reflexivity. Qed.

Print Assumptions C01_ordinates_sorted_union.
Print Assumptions C02_unknown_keyword_rejected.
Print Assumptions C03_registering_again_merges.
Print Assumptions C04_design_ring_never_modified.
Print Assumptions C05_support_registry_sorted_union.
Print Assumptions C06_support_wipes_other_sigmas.
Print Assumptions C06_support_sigmas_stored.
Print Assumptions C06_finding_section_sigma_lost.
