(** C95: what the registration of BPMs and cavities leaves on the elements. *)
From Coq Require Import Reals Lra Lia QArith.
From stdpp Require Import base gmap strings list.
From Verif Require Import Num Base Model_Arr Model_SC Model_Err Model_Beam Lemmas Proofs_Reg Proofs_Update Spec Proofs_Field Proofs_Err
  Properties_Reg Properties_Beam Properties_Beam2 Examples.
Local Open Scope string_scope.
Local Open Scope list_scope.

(** * Specification *)
(** the attributes of a BPM without any error *)
Definition PERFECT {T} `{Num T} : list (string * val T) :=
  [("Noise", VVec [n0; n0]); ("NoiseCO", VVec [n0; n0]); ("Offset", VVec [n0; n0]); ("SupportOffset", VVec [n0; n0]);
   ("CalError", VVec [n0; n0]); ("Roll", VNum n0); ("SupportRoll", VNum n0); ("SumError", VNum n0)].
Definition perfect_bpm {T} `{Num T} (s : sc T) (i : nat) : Prop := forall a v, (a, v) ∈ PERFECT -> attr_at s i a = Some v.
(** a cavity without any error, whose set-points are what the lattice [s] has for it *)
Definition RF_NAMES : list string := ["Voltage"; "Frequency"; "TimeLag"].
Definition ideal_cavity {T} `{Num T} (s s' : sc T) (i : nat) : Prop := forall f, f ∈ RF_NAMES ->
  attr_at s i f <> None /\ attr_at s' i f = attr_at s i f /\ attr_at s' i (f +:+ "SetPoint") = attr_at s i f /\
  attr_at s' i (f +:+ "Offset") = Some (VNum n0) /\ attr_at s' i (f +:+ "CalError") = Some (VNum n0).
Definition RF_NEW : list string :=
  ["VoltageSetPoint"; "VoltageOffset"; "VoltageCalError"; "FrequencySetPoint"; "FrequencyOffset"; "FrequencyCalError"; "TimeLagSetPoint"; "TimeLagOffset"; "TimeLagCalError"].

(** * Proofs *)
Section Fresh.
  Context {T : Type} `{Num T}.

  (** initialising elements one after the other *)
  Lemma inits_ok (g : nat -> @sig T -> @sig T) (m : M (elem T) unit) l (s s' : sc T) u :
    NoDup l -> forM l (fun i => mod_SIG (g i) ;;; on_elem i m) s = (Ok u, s') ->
    length (RING s') = length (RING s) /\
    (forall i, i ∈ l -> exists e e', RING s !! i = Some e /\ m e = (Ok tt, e') /\ RING s' !! i = Some e') /\
    (forall i, i ∉ l -> RING s' !! i = RING s !! i).
  Proof.
    revert s. induction l as [|i l IH]; intros s Hnd E; cbn [forM] in E.
    - apply ret_ok in E as [_ ->]. split; [done|]. split; [intros i Hi; by apply elem_of_nil in Hi|done].
    - inversion Hnd as [|? ? Hi Hnd']; subst. apply bind_ok in E as (u1&s1&E1&E). apply bind_ok in E1 as (u0&s0&E0&E1). apply modify_ok in E0 as ->.
      apply on_elem_ok in E1 as (e&e'&He&Hm&->). cbn in He. destruct u1. destruct (IH _ Hnd' E) as (L&I&O). cbn in L, I, O. rewrite insert_length in L. split; [done|]. split.
      + intros j Hj. apply elem_of_cons in Hj as [->|Hj].
        * exists e, e'. split; [done|]. split; [done|]. rewrite O by done. apply list_lookup_insert. by eapply lookup_lt_Some.
        * destruct (I j Hj) as (x&x'&Hx&Hmx&Hx'). rewrite list_lookup_insert_ne in Hx by (intros ->; done). eauto.
      + intros j Hj. apply not_elem_of_cons in Hj as [Hne Hj]. rewrite O by done. by apply list_lookup_insert_ne.
  Qed.
  Lemma inits_total (g : nat -> @sig T -> @sig T) (m : M (elem T) unit) l (s : sc T) :
    NoDup l -> (forall i, i ∈ l -> exists e e', RING s !! i = Some e /\ m e = (Ok tt, e')) ->
    exists s', forM l (fun i => mod_SIG (g i) ;;; on_elem i m) s = (Ok tt, s').
  Proof.
    revert s. induction l as [|i l IH]; intros s Hnd Hl; cbn [forM]; [by exists s|]. inversion Hnd as [|? ? Hi Hnd']; subst.
    destruct (Hl i) as (e&e'&He&Hm); [left|]. set (s1 := set_RING (<[i := e']> (RING s)) (set_SIG (g i (SIG s)) s)).
    destruct (IH s1 Hnd') as [s' E].
    { intros j Hj. destruct (Hl j) as (x&x'&Hx&Hmx); [by right|]. exists x, x'. split; [|done]. unfold s1. cbn. rewrite list_lookup_insert_ne; [done|]. intros ->. done. }
    exists s'. apply bind_ok. exists tt, s1. split; [|done]. apply bind_ok. exists tt, (set_SIG (g i (SIG s)) s). split; [done|]. unfold on_elem. cbn. by rewrite He, Hm.
  Qed.
  Lemma bpm_init_run (e : elem T) : exists e', bpm_init e = (Ok tt, e') /\ (forall a v, (a, v) ∈ PERFECT -> e' !! a = Some v) /\
    (forall a, a ∉ PERFECT.*1 -> e' !! a = e !! a).
  Proof.
    eexists. split; [reflexivity|]. split.
    - intros a v Hin. unfold PERFECT in Hin. rewrite !elem_of_cons, elem_of_nil in Hin.
      repeat (destruct Hin as [[= -> ->]|Hin]; [repeat (rewrite lookup_insert_ne by done); by rewrite lookup_insert|]). done.
    - intros a Ha. unfold PERFECT in Ha. cbn in Ha. rewrite !not_elem_of_cons in Ha. destruct Ha as (A1&A2&A3&A4&A5&A6&A7&A8&_).
      by rewrite !lookup_insert_ne by done.
  Qed.
  Definition rf_step (f : string) : M (elem T) unit :=
    let! v := getm (fun e => attr e f) in
    setattr (f +:+ "SetPoint") v ;;; setattr (f +:+ "Offset") (VNum n0) ;;; setattr (f +:+ "CalError") (VNum n0).
  Lemma rf_step_ok f (e e' : elem T) u : rf_step f e = (Ok u, e') <->
    exists v, e !! f = Some v /\ e' = <[f +:+ "CalError" := VNum n0]> (<[f +:+ "Offset" := VNum n0]> (<[f +:+ "SetPoint" := v]> e)).
  Proof.
    destruct u. unfold rf_step, bind, getm, attr, setattr, modify. destruct (e !! f) as [v|]; split.
    - intros [= <-]. eauto.
    - intros (w&[= <-]&->). done.
    - discriminate.
    - intros (w&[=]&_).
  Qed.
  Lemma rf_init_steps (e : elem T) : rf_init e = (rf_step "Voltage" ;;; rf_step "Frequency" ;;; rf_step "TimeLag" ;;; ret tt) e.
  Proof. reflexivity. Qed.
  Definition ideal_elem (e e' : elem T) : Prop := (forall f, f ∈ RF_NAMES -> e !! f <> None /\ e' !! f = e !! f /\ e' !! (f +:+ "SetPoint") = e !! f /\
    e' !! (f +:+ "Offset") = Some (VNum n0) /\ e' !! (f +:+ "CalError") = Some (VNum n0)) /\ forall a, a ∉ RF_NEW -> e' !! a = e !! a.
  Lemma rf_init_ok (e e' : elem T) : rf_init e = (Ok tt, e') -> ideal_elem e e'.
  Proof.
    rewrite rf_init_steps. intros E. apply bind_ok in E as (?&e1&E1&E). apply bind_ok in E as (?&e2&E2&E). apply bind_ok in E as (?&e3&E3&E). apply ret_ok in E as [_ ->].
    apply rf_step_ok in E1 as (v&V&E1). apply rf_step_ok in E2 as (f&F&E2). apply rf_step_ok in E3 as (t&L&E3). cbn in E1, E2, E3.
    assert (e !! "Frequency" = Some f) as F0 by (rewrite <- F, E1; by rewrite !lookup_insert_ne by done).
    assert (e !! "TimeLag" = Some t) as L0 by (rewrite <- L, E2, E1; by rewrite !lookup_insert_ne by done). clear F L. split.
    - intros y Hy. unfold RF_NAMES in Hy. rewrite !elem_of_cons, elem_of_nil in Hy. destruct Hy as [-> | [-> | [-> | []]]]; cbn; rewrite ?V, ?F0, ?L0; (split; [done|]); rewrite E3, E2, E1;
        repeat split; repeat (rewrite lookup_insert_ne by done); rewrite ?lookup_insert; done.
    - intros a Ha. unfold RF_NEW in Ha. rewrite !not_elem_of_cons in Ha. destruct Ha as (A1&A2&A3&A4&A5&A6&A7&A8&A9&_). rewrite E3, E2, E1. by rewrite !lookup_insert_ne by done.
  Qed.
  Lemma rf_init_total (e : elem T) : (forall f, f ∈ RF_NAMES -> e !! f <> None) -> exists e', rf_init e = (Ok tt, e').
  Proof.
    intros Hf. destruct (e !! "Voltage") as [v|] eqn:EV; [|by destruct (Hf "Voltage"); [left|]]. destruct (e !! "Frequency") as [f|] eqn:EF; [|by destruct (Hf "Frequency"); [right; left|]].
    destruct (e !! "TimeLag") as [t|] eqn:ET; [|by destruct (Hf "TimeLag"); [right; right; left|]].
    eexists. rewrite rf_init_steps. apply bind_ok. eexists tt, _. split; [apply rf_step_ok; exists v; split; [done|reflexivity]|]. cbn.
    apply bind_ok. eexists tt, _. split; [apply rf_step_ok; exists f; split; [by rewrite !lookup_insert_ne by done|reflexivity]|]. cbn.
    apply bind_ok. eexists tt, _. split; [apply rf_step_ok; exists t; split; [by rewrite !lookup_insert_ne by done|reflexivity]|]. reflexivity.
  Qed.
  Lemma check_ok {A} (kw : dict A) doc (s s' : sc T) u : check_kwargs kw doc s = (Ok u, s') <-> allowed kw doc /\ s' = s.
  Proof.
    destruct u. destruct (check_kwargs_spec kw doc s) as [[B ->]|[B ->]]; split.
    - by intros [= <-].
    - by intros [_ ->].
    - discriminate.
    - by intros [? _].
  Qed.
  Lemma inits_fail (g : nat -> @sig T -> @sig T) (m : M (elem T) unit) l (s : sc T) : (forall e, exists e', m e = (Ok tt, e')) ->
    exists r s', forM l (fun i => mod_SIG (g i) ;;; on_elem i m) s = (r, s') /\ ORD s' = ORD s /\ (r = Ok tt \/ r = Err IndexError).
  Proof.
    intros Hm. revert s. induction l as [|i l IH]; intros s; cbn [forM]; [exists (Ok tt), s; auto|]. unfold bind at 1, bind at 1. cbn. unfold on_elem. cbn. destruct (RING s !! i) as [e|]; [|eexists _, _; split; [reflexivity|]; split; [done|]; by right].
    destruct (Hm e) as [e' ->]. destruct (IH (set_RING (<[i := e']> (RING s)) (set_SIG (g i (SIG s)) s))) as (r&s'&E&O&R). exists r, s'. split; [exact E|]. done.
  Qed.

  (** * Theorems *)
  (** Registering BPMs leaves every one of them without errors, whatever it carried before, and changes nothing else of the lattice. *)
  Theorem C95_bpms ords kw (s s' : sc T) u : register_bpms ords kw s = (Ok u, s') ->
    length (RING s') = length (RING s) /\ (forall i, i ∈ ords -> perfect_bpm s' i) /\
    forall i a, i ∉ ords \/ a ∉ ["Noise"; "NoiseCO"; "Offset"; "SupportOffset"; "CalError"; "Roll"; "SupportRoll"; "SumError"] -> attr_at s' i a = attr_at s i a.
  Proof.
    intros E. apply bind_ok in E as (?&s0&E0&E). apply check_ok in E0 as [_ ->]. apply bind_ok in E as (?&s1&E1&E). apply modify_ok in E1 as ->.
    apply inits_ok in E as (L&I&O); [|apply unique_nodup]. cbn [RING set_ORD] in L, I, O. split; [done|]. split.
    - intros i Hi a v Hav. destruct (I i) as (e&e'&He&Hm&He'); [by apply unique_elem|]. destruct (bpm_init_run e) as (e2&E2&P&_). rewrite E2 in Hm. injection Hm as <-.
      unfold attr_at. rewrite He'. by apply P.
    - intros i a Hia. unfold attr_at. destruct (decide (i ∈ ords)) as [Hi|Hi].
      + destruct Hia as [?|Ha]; [done|]. destruct (I i) as (e&e'&He&Hm&He'); [by apply unique_elem|]. destruct (bpm_init_run e) as (e2&E2&_&Q). rewrite E2 in Hm. injection Hm as <-.
        rewrite He, He'. cbn. by apply Q.
      + rewrite O; [done|]. by rewrite unique_elem.
  Qed.
  (** It returns exactly if all keywords are documented and all ordinates are in the lattice. *)
  Theorem C95_bpms_return ords kw (s : sc T) : (exists s', register_bpms ords kw s = (Ok tt, s')) <->
    only_documented kw doc_bpm /\ forall i, i ∈ ords -> i < length (RING s).
  Proof.
    rewrite doc_bpm_iff. split.
    - intros [s' E]. apply bind_ok in E as (?&s0&E0&E). apply check_ok in E0 as [A ->]. split; [done|]. apply bind_ok in E as (?&s1&E1&E). apply modify_ok in E1 as ->.
      apply inits_ok in E as (L&I&O); [|apply unique_nodup]. intros i Hi. destruct (I i) as (e&e'&He&_); [by apply unique_elem|]. by eapply lookup_lt_Some.
    - intros [A Hr]. destruct (inits_total (fun ind g => set_sBPM (sig_update (sBPM g) ind kw) g) bpm_init (unique ords) (set_ORD (set_oBPM (unique (oBPM (ORD s) ++ ords)) (ORD s)) s)) as [s' E].
      { apply unique_nodup. }
      { intros i Hi. rewrite unique_elem in Hi. apply Hr in Hi. apply lookup_lt_is_Some in Hi as [e He]. destruct (bpm_init_run e) as (e'&E&_). eauto. }
      exists s'. apply bind_ok. exists tt, s. split; [by apply check_ok|]. apply bind_ok. eexists tt, _. split; [reflexivity|]. exact E.
  Qed.
  (** Registering cavities takes the set-points from the lattice and leaves every cavity without errors; nothing else changes. *)
  Theorem C95_cavities ords kw (s s' : sc T) u : register_cavities ords kw s = (Ok u, s') ->
    length (RING s') = length (RING s) /\ (forall i, i ∈ ords -> ideal_cavity s s' i) /\
    forall i a, i ∉ ords \/ a ∉ RF_NEW -> attr_at s' i a = attr_at s i a.
  Proof.
    intros E. apply bind_ok in E as (?&s0&E0&E). apply check_ok in E0 as [_ ->]. apply bind_ok in E as (?&s1&E1&E). apply modify_ok in E1 as ->.
    apply inits_ok in E as (L&I&O); [|apply unique_nodup]. cbn [RING set_ORD] in L, I, O. split; [done|]. split.
    - intros i Hi f Hf. destruct (I i) as (e&e'&He&Hm&He'); [by apply unique_elem|]. apply rf_init_ok in Hm as [P _]. unfold attr_at. rewrite He, He'. by apply P.
    - intros i a Hia. unfold attr_at. destruct (decide (i ∈ ords)) as [Hi|Hi].
      + destruct Hia as [?|Ha]; [done|]. destruct (I i) as (e&e'&He&Hm&He'); [by apply unique_elem|]. apply rf_init_ok in Hm as [_ Q]. rewrite He, He'. by apply Q.
      + rewrite O; [done|]. by rewrite unique_elem.
  Qed.
  (** It returns exactly if all keywords are documented and all ordinates are elements with voltage, frequency and time lag. *)
  Theorem C95_cavities_return ords kw (s : sc T) : (exists s', register_cavities ords kw s = (Ok tt, s')) <->
    only_documented kw doc_rf /\ forall i f, i ∈ ords -> f ∈ RF_NAMES -> attr_at s i f <> None.
  Proof.
    rewrite doc_rf_iff. split.
    - intros [s' E]. assert (allowed kw RF_ERROR_FIELDS) as A. { apply bind_ok in E as (?&s0&E0&_). by apply check_ok in E0 as [A _]. }
      split; [done|]. intros i f Hi Hf. apply C95_cavities in E as (_&I&_). by apply (I i Hi f Hf).
    - intros [A Hr]. destruct (inits_total (fun ind g => set_sRF (sig_update (sRF g) ind kw) g) rf_init (unique ords) (set_ORD (set_oRF (unique (oRF (ORD s) ++ ords)) (ORD s)) s)) as [s' E].
      { apply unique_nodup. }
      { intros i Hi. rewrite unique_elem in Hi. destruct (RING s !! i) as [e|] eqn:He.
        - destruct (rf_init_total e) as [e' E]; [|by exists e, e']. intros f Hf. specialize (Hr i f Hi Hf). unfold attr_at in Hr. by rewrite He in Hr.
        - exfalso. apply (Hr i "Voltage" Hi); [left|]. unfold attr_at. by rewrite He. }
      exists s'. apply bind_ok. exists tt, s. split; [by apply check_ok|]. apply bind_ok. eexists tt, _. split; [reflexivity|]. exact E.
  Qed.
  (** A registration that fails because an ordinate is not in the lattice leaves that ordinate registered. *)
  Theorem C95_finding_failed_registration ords kw (s : sc T) i : only_documented kw doc_bpm -> i ∈ ords -> length (RING s) <= i ->
    exists s', register_bpms ords kw s = (Err IndexError, s') /\ i ∈ oBPM (ORD s').
  Proof.
    intros A Hi Hl. apply doc_bpm_iff in A as A'. set (s1 := set_ORD (set_oBPM (unique (oBPM (ORD s) ++ ords)) (ORD s)) s).
    destruct (inits_fail (fun ind g => set_sBPM (sig_update (sBPM g) ind kw) g) bpm_init (unique ords) s1) as (r&s'&E&O&R).
    { intros e. destruct (bpm_init_run e) as (e'&E&_). eauto. }
    assert (register_bpms ords kw s = (r, s')) as E'.
    { unfold register_bpms, bind at 1. destruct (check_kwargs_spec kw BPM_ERROR_FIELDS s) as [[_ ->]|[C _]]; [|done]. exact E. }
    exists s'. destruct R as [-> | ->].
    - exfalso. destruct (proj1 (C95_bpms_return ords kw s)) as [_ C]; [eauto|]. apply C in Hi. lia.
    - split; [done|]. rewrite O. cbn. apply unique_elem. apply elem_of_app. by right.
  Qed.
End Fresh.

(** ** What is read and what the cavities do after the registration *)
(** A BPM without errors reads the mean position of the particles that arrive, and the fraction of them; below the
    threshold for lost beam it reads nothing. *)
Theorem C95_reads_the_beam (w : world R) ords nt (s s' : sc R) rows b t row c i : (forall i, i ∈ ords -> perfect_bpm s i) ->
  nt = nTurns (INJ s) -> one_shot w ords nt s = (Ok rows, s') -> rows !! b = Some row -> row !! t = Some c -> ords !! b = Some i ->
  exists t' xs ys f, (t' = t \/ trackMode (INJ s) = "ORB" /\ t' = 0) /\ beam_at w s ords b t' xs ys /\ fraction_of xs f /\
    ((f < 1 - beamLostAt (INJ s))%R /\ c_x c = None /\ c_y c = None /\ c_sum c = None \/
     (1 - beamLostAt (INJ s) <= f)%R /\ c_sum c = Some f /\
       ((numbers xs [] \/ numbers ys []) /\ c_x c = None /\ c_y c = None \/
        exists mx my, average_of xs mx /\ average_of ys my /\ c_x c = Some mx /\ c_y c = Some my)).
Proof.
  intros Hp Hnt E Hrow Hc Hi. destruct (C37_shot w ords nt s s' rows Hnt E) as (_&_&_&H). destruct (H b t row c Hrow Hc) as (o&e&t'&xs&ys&dx&dy&ds&Ho&He&Ht&Hb&_&_&_&D).
  rewrite Hi in Ho. injection Ho as <-. specialize (Hp i (elem_of_list_lookup_2 _ _ _ Hi)).
  assert (forall a v, (a, v) ∈ PERFECT -> e !! a = Some v) as P. { intros a v Hav. specialize (Hp a v Hav). unfold attr_at in Hp. by rewrite He in Hp. }
  destruct (D (Bpm 0 0 0 0 0 0 0 0)) as (f&Hf&Hd).
  { unfold bpm_state. cbn. assert (e !! noise_of s = Some (VVec [0%R; 0%R])) as HN. { unfold noise_of. destruct (decide _); apply P; [right; left|left]. }
    split; [done|]. split; [apply P; do 4 right; left|]. split; [|split].
    - exists 0%R, 0%R, 0%R, 0%R. split; [apply P; do 2 right; left|]. split; [apply P; do 3 right; left|]. split; ring.
    - exists 0%R, 0%R. split; [apply P; do 5 right; left|]. split; [apply P; do 6 right; left|]. ring.
    - apply P; do 7 right; left. }
  exists t', xs, ys, f. split; [done|]. split; [done|]. split; [done|]. cbn in Hd. rewrite !Rmult_0_l, !Rplus_0_r, !Rmult_1_r in Hd. destruct Hd as [(D1&D2&D3&D4)|(D1&D2&D3)]; [left; auto|right].
  split; [done|]. split; [done|]. destruct D3 as [D3|(mx&my&Mx&My&X&Y)]; [by left|right]. exists mx, my. split; [done|]. split; [done|]. rewrite X, Y, cos_0, sin_0.
  unfold Rdiv. rewrite !Rmult_0_l. split; f_equal; ring.
Qed.
(** So right after the registration the readings are the beam. *)
Theorem C95_registered_reads_the_beam (w : world R) ords kw nt (s s1 s' : sc R) u rows b t row c : register_bpms ords kw s = (Ok u, s1) ->
  nt = nTurns (INJ s1) -> one_shot w ords nt s1 = (Ok rows, s') -> rows !! b = Some row -> row !! t = Some c -> b < length ords ->
  exists t' xs ys f, (t' = t \/ trackMode (INJ s1) = "ORB" /\ t' = 0) /\ beam_at w s1 ords b t' xs ys /\ fraction_of xs f /\
    ((f < 1 - beamLostAt (INJ s1))%R /\ c_x c = None /\ c_y c = None /\ c_sum c = None \/
     (1 - beamLostAt (INJ s1) <= f)%R /\ c_sum c = Some f /\
       ((numbers xs [] \/ numbers ys []) /\ c_x c = None /\ c_y c = None \/
        exists mx my, average_of xs mx /\ average_of ys my /\ c_x c = Some mx /\ c_y c = Some my)).
Proof.
  intros HR Hnt E Hrow Hc Hb. apply lookup_lt_is_Some in Hb as [i Hi]. apply C95_bpms in HR as (_&P&_). by eapply C95_reads_the_beam.
Qed.

Lemma update_ideal (e : elem R) : (forall f, f ∈ RF_NAMES -> exists x : R, e !! f = Some (VNum x) /\ e !! (f +:+ "SetPoint") = Some (VNum x) /\
    e !! (f +:+ "Offset") = Some (VNum n0) /\ e !! (f +:+ "CalError") = Some (VNum n0)) -> update_cavity e = (Ok tt, e).
Proof.
  intros Hf. unfold update_cavity. change RF_PROPERTIES with RF_NAMES.
  assert (forall l, (forall f, f ∈ l -> f ∈ RF_NAMES) -> forM l (fun field => let! v := getm (fun e : elem R => let? sp := attr_num e (field +:+ "SetPoint") in
      let? cal := attr_num e (field +:+ "CalError") in let? off := attr_num e (field +:+ "Offset") in Ok (nadd (nmul sp (nadd n1 cal)) off)) in setattr field (VNum v)) e = (Ok tt, e)) as HL; [|by apply HL].
  induction l as [|f l IH]; intros Hl; cbn [forM]; [done|]. destruct (Hf f) as (x&X&S&O&C); [apply Hl; left|].
  apply bind_ok. exists tt, e. split; [|apply IH; intros g Hg; apply Hl; by right]. apply bind_ok. exists x, e. split.
  - apply getm_ok. split; [|done]. unfold attr_num, attr. rewrite S, C, O. cbn. f_equal. change ((x * (1 + 0) + 0)%R = x). ring.
  - apply setattr_ok. symmetry. by apply insert_id.
Qed.
(** Right after the registration of cavities with numeric attributes, updating them returns and changes nothing at all: the
    cavities are as designed. *)
Theorem C95_cavities_as_designed ords kw (s s' : sc R) u : register_cavities ords kw s = (Ok u, s') ->
  (forall i f, i ∈ ords -> f ∈ RF_NAMES -> exists x : R, attr_at s i f = Some (VNum x)) -> update_cavities ords s' = (Ok tt, s').
Proof.
  intros E Hnum. apply C95_cavities in E as (_&I&_). unfold update_cavities.
  assert (forall l, (forall i, i ∈ l -> i ∈ ords) -> forM l (fun ind => on_elem ind update_cavity) s' = (Ok tt, s')) as HL; [|by apply HL].
  induction l as [|i l IH]; intros Hl; cbn [forM]; [done|]. apply bind_ok. exists tt, s'. split; [|apply IH; intros j Hj; apply Hl; by right].
  assert (i ∈ ords) as Hi by (apply Hl; left). destruct (RING s' !! i) as [e|] eqn:He.
  2: { exfalso. destruct (I i Hi "Voltage") as (_&_&_&_&A); [left|]. unfold attr_at in A. by rewrite He in A. }
  apply on_elem_ok. exists e, e. split; [done|]. split.
  - apply update_ideal. intros f Hf. destruct (Hnum i f Hi Hf) as [x Hx]. destruct (I i Hi f Hf) as (_&A1&A2&A3&A4). unfold attr_at in A1, A2, A3, A4 |- *. rewrite He in A1, A2, A3, A4. cbn in A1, A2, A3, A4.
    exists x. unfold attr_at in Hx. rewrite Hx in A1, A2. done.
  - rewrite list_insert_id by done. by destruct s'.
Qed.

Print Assumptions C95_bpms.
Print Assumptions C95_bpms_return.
Print Assumptions C95_cavities.
Print Assumptions C95_cavities_return.
Print Assumptions C95_finding_failed_registration.
Print Assumptions C95_reads_the_beam.
Print Assumptions C95_registered_reads_the_beam.
Print Assumptions C95_cavities_as_designed.

(** * Cases *)
Local Open Scope Q_scope.
#[local] Instance TrigQ24 : Trig Q :=
  { ncos := fun x => if Qeq_bool x 0 then 1 else 0; nsin := fun _ => 0; nsqrt := fun x => Qred (Z.sqrt (Qnum x) # Z.to_pos (Z.sqrt (Zpos (Qden x)))); npi := 0 }.
(** The BPMs of this machine carry errors and read a wrong position; after they are registered once more they read the beam,
    and the uncertainties given at the first registration are still there (finding: registering again undoes the errors applied). *)
Definition ex_bad : sc Q := ex_machine (ex_inj (1#2) 1 1 1 "TBT") [1; 0; 1; 0; 0; 0;  1; 1;  2].
Definition ex_known : sc Q := snd (register_bpms [3; 1]%nat [("Noise", SPlain (VVec [1; 2]))] ex_bad).
Example C95_finding_again :
  fst (bpm_reading ex_world (Some [1%nat]) false ex_bad) = Ok (MkReading [Some (1#2)] [Some 1] [2] None) /\
  fst (register_bpms [3; 1]%nat [] ex_known) = Ok tt /\
  fst (bpm_reading ex_world (Some [1%nat]) false (snd (register_bpms [3; 1]%nat [] ex_known))) = Ok (MkReading [Some 1] [Some 1] [1] None) /\
  sBPM (SIG (snd (register_bpms [3; 1]%nat [] ex_known))) !! 3%nat = Some [("Noise", SPlain (VVec [1; 2]))].
Proof. vm_compute. repeat split; reflexivity. Qed.
(** an ordinate outside of the lattice: the call fails, the BPM is registered nevertheless *)
Example C95_finding_case :
  fst (register_bpms [3; 9]%nat [] (ex_sc (T:=Q))) = Err IndexError /\ oBPM (ORD (snd (register_bpms [3; 9]%nat [] (ex_sc (T:=Q))))) = [3; 9]%nat.
Proof. vm_compute. split; reflexivity. Qed.
Example C95_cavity_case :
  fst (register_cavities [4]%nat [] (ex_sc (T:=Q))) = Ok tt /\
  attr_at (snd (register_cavities [4]%nat [] (ex_sc (T:=Q)))) 4 "FrequencySetPoint" = Some (VNum 500) /\
  fst (register_cavities [3]%nat [] (ex_sc (T:=Q))) = Err AttributeError.
Proof. vm_compute. repeat split; reflexivity. Qed.
(** over the reals, for the theorem about the updates *)
Example C95_cavity_hypotheses : (exists s', register_cavities [4]%nat [] (ex_sc (T:=R)) = (Ok tt, s')) /\
  forall i f, i ∈ [4]%nat -> f ∈ RF_NAMES -> exists x : R, attr_at (ex_sc (T:=R)) i f = Some (VNum x).
Proof.
  split.
  - apply C95_cavities_return. split; [intros k v Hk; by apply elem_of_nil in Hk|]. intros i f Hi Hf. apply elem_of_list_singleton in Hi as ->.
    unfold RF_NAMES in Hf. rewrite !elem_of_cons, elem_of_nil in Hf. destruct Hf as [-> | [-> | [-> | []]]]; done.
  - intros i f Hi Hf. apply elem_of_list_singleton in Hi as ->. unfold RF_NAMES in Hf. rewrite !elem_of_cons, elem_of_nil in Hf.
    destruct Hf as [-> | [-> | [-> | []]]]; eexists; reflexivity.
Qed.
