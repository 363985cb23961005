(** C18 - C21: repeated updates, fresh registration, scalar calibration errors, split magnets. *)
From Coq Require Import Reals Lra QArith.
From stdpp Require Import base gmap strings list.
From Verif Require Import Num Base Model_Arr Model_SC Model_Err Lemmas Proofs_Reg Proofs_Update Proofs_Setpoint Spec Proofs_CM Proofs_Field Examples Properties_Field.
Local Open Scope string_scope.
Local Open Scope list_scope.

(** * C18 *)
Theorem C18_twice {T} {N : Num T} ords (s s' : sc T) u : update_magnets ords s = (Ok u, s') -> update_magnets ords s' = (Ok u, s').
Proof. apply update_magnets_twice. Qed.

(** Specification: magnet [m] powers element [c]; no element is powered by two of the listed magnets. *)
Definition powers {T} (s : sc T) (m c : nat) : Prop := c = m \/ child_of s c m.
Definition no_sharing {T} (s : sc T) (ords : list nat) : Prop :=
  forall c m m', m ∈ ords -> m' ∈ ords -> powers s m c -> powers s m' c -> m = m'.

Lemma all_writes_total {T} {N : Num T} (r : list (elem T)) ps :
  (forall p, p ∈ ps -> exists w, pair_writes r p = Ok w) -> exists ws, all_writes r ps = Ok ws.
Proof.
  induction ps as [|p ps IH]; intros H; [by exists []|].
  destruct (H p) as [w Hw]; [left|]. destruct IH as [ws Hws]; [intros q Hq; apply H; by right|].
  exists (w ++ ws). apply all_writes_cons. eauto 10.
Qed.
Lemma pair_writes_unique {T} {N : Num T} (r : list (elem T)) p w i a v v' :
  pair_writes r p = Ok w -> (i, a, v) ∈ w -> (i, a, v') ∈ w -> v = v'.
Proof.
  unfold pair_writes. intros H. apply rbind_ok in H as (em&_&H). apply rbind_ok in H as (ec&_&H). apply rbind_ok in H as (ws&Hws&H). injection H as <-.
  intros H1 H2. apply elem_of_list_fmap in H1 as ([a1 v1]&E1&H1). apply elem_of_list_fmap in H2 as ([a2 v2]&E2&H2).
  unfold at_place in *. simplify_eq/=. by eapply attr_writes_unique.
Qed.
(** The list of magnets matters only as a set. *)
Theorem C18_order_irrelevant {T} {N : Num T} ords ords' (s s' : sc T) u :
  (forall i, i ∈ ords <-> i ∈ ords') -> no_sharing s ords ->
  update_magnets ords s = (Ok u, s') -> update_magnets ords' s = (Ok u, s').
Proof.
  intros Hset Hno H. apply update_magnets_ok in H as (Hm&W&HW&->). apply update_magnets_ok.
  split; [intros i v Hi; apply Hm; by apply Hset|].
  assert (forall p, p ∈ steps (RING s) ords <-> p ∈ steps (RING s) ords') as Hst by (intros p; by rewrite !in_steps, Hset).
  destruct (all_writes_total (RING s) (steps (RING s) ords')) as [W' HW'].
  { intros p Hp. apply Hst in Hp. destruct (all_writes_some _ _ _ _ HW Hp) as (w&?&_). eauto. }
  exists W'. split; [done|]. f_equal. apply ring_eq; [by rewrite !rwr_length|]. intros i a.
  rewrite !aget_writes by (by eapply all_writes_range).
  assert (forall X Y o o', all_writes (RING s) (steps (RING s) o) = Ok X -> all_writes (RING s) (steps (RING s) o') = Ok Y ->
    (forall j, j ∈ o -> j ∈ o') -> no_sharing s o' -> forall v, last_write X i a = Some v -> last_write Y i a = Some v) as Hhalf.
  { intros X Y o o' HX HY Hoo Hns v Hv. apply last_write_in in Hv.
    destruct (all_writes_in _ _ _ HX _ Hv) as (p&Hp&E&_&_&w&Hw&Hin). simpl in E.
    assert (p ∈ steps (RING s) o') as Hp'. { rewrite in_steps in *. destruct Hp. auto. }
    destruct (all_writes_some _ _ _ _ HY Hp') as (w'&Hw'&Hsub). rewrite Hw in Hw'. injection Hw' as <-.
    destruct (last_write_in_any Y i a v) as [v' Hv']; [by apply Hsub|]. rewrite Hv'. f_equal. apply last_write_in in Hv'.
    destruct (all_writes_in _ _ _ HY _ Hv') as (q&Hq&E'&_&_&w2&Hw2&Hin2). simpl in E'.
    assert (q = p) as ->.
    { apply in_steps in Hp' as [P1 P2], Hq as [Q1 Q2]. destruct p as [m c], q as [m' c']. simpl in *. subst c c'. f_equal.
      apply (Hns i); auto; unfold powers; by rewrite child_of_children. }
    rewrite Hw in Hw2. injection Hw2 as <-. by eapply pair_writes_unique. }
  assert (no_sharing s ords') as Hno'. { intros c m m' H1 H2. apply Hno; by apply Hset. }
  destruct (last_write W i a) as [v|] eqn:E.
  - by rewrite (Hhalf W W' ords ords' HW HW' (fun j => proj1 (Hset j)) Hno' v E).
  - destruct (last_write W' i a) as [v|] eqn:E'; [|done].
    rewrite (Hhalf W' W ords' ords HW' HW (fun j => proj2 (Hset j)) Hno v E') in E. discriminate.
Qed.
Theorem C18_two_lists {T} {N : Num T} ords ords' (s s1 s2 : sc T) u1 u2 :
  no_sharing s (ords ++ ords') ->
  update_magnets ords s = (Ok u1, s1) -> update_magnets ords' s1 = (Ok u2, s2) ->
  exists s1', update_magnets ords' s = (Ok u2, s1') /\ update_magnets ords s1' = (Ok u1, s2).
Proof.
  intros Hno H1 H2.
  assert (update_magnets (ords ++ ords') s = (Ok u2, s2)) as H. { unfold update_magnets. rewrite forM_app. apply bind_ok. exists u1, s1. done. }
  apply (C18_order_irrelevant _ (ords' ++ ords)) in H; [|set_solver|done].
  unfold update_magnets in H. rewrite forM_app in H. apply bind_ok in H as (v&s1'&Ha&Hb). destruct u1, u2, v. exists s1'. done.
Qed.
(** quadrupole 1 and bend 5 both registered as master of the drift-like element 6 *)
Definition shared_machine {T} `{Num T} : sc T :=
  let r := [drift (num 1); quad; thin_cm; bpm; cavity; bend; quad] in
  snd (register_magnets [1; 5]%nat [] (MkType None None false None (Some [[6; 6]%nat])) (init_sc r [])).
(** Without the hypothesis the order matters: a child with two masters takes the field of the last one. *)
Theorem C18_finding_shared_child :
  let s := shared_machine : sc Q in
  let a := update_magnets [1; 5]%nat s in
  let b := update_magnets [5; 1]%nat s in
  fst a = Ok tt /\ fst b = Ok tt /\
  attr_at (snd a) 6 "PolynomB" = Some (VVec [0; 5]%Q) /\ attr_at (snd b) 6 "PolynomB" = Some (VVec [0; 3]%Q).
Proof. vm_compute. repeat split. Qed.

(** * C19 *)
Definition REGISTERED : list string :=
  ["NomPolynomA"; "SetPointA"; "CalErrorA"; "NomPolynomB"; "SetPointB"; "CalErrorB"; "MagnetOffset"; "SupportOffset";
   "MagnetRoll"; "SupportRoll"; "T1"; "T2"; "CombinedFunction"; "CMlimit"; "SkewQuadLimit"; "MasterOf"].
Definition rring {T} (I : nat -> string -> Prop) (s s' : sc T) : Prop := ragree I (RING s) (RING s').
#[global] Instance rring_preorder {T} I : PreOrder (@rring T I).
Proof. split; [intros s; unfold rring; reflexivity|]. intros a b c. unfold rring. intros H1 H2. etransitivity; eauto. Qed.
Lemma pres_on_elem_rring {T A} (I : nat -> string -> Prop) i (m : M (elem T) A) : pres (eagree (I i)) m -> pres (rring I) (on_elem i m).
Proof. intros H. apply (pres_weaken (frame I)); [|by apply pres_on_elem_frame]. intros s s' (_&_&_&_&_&?). done. Qed.
Lemma regI a : bool_decide (a ∈ REGISTERED) = true -> a ∈ REGISTERED.
Proof. by intros ?%bool_decide_eq_true. Qed.
Lemma pres_magnet_init {T} {N : Num T} : pres (eagree (fun a => a ∈ REGISTERED)) (magnet_init (T:=T)).
Proof. unfold magnet_init. repeat first [pres_step | apply pres_setattr; apply regI; reflexivity]. Qed.
Definition OPTIONAL : list string := ["CombinedFunction"; "CMlimit"; "SkewQuadLimit"; "MasterOf"].
Lemma optI a : bool_decide (a ∈ OPTIONAL) = true -> a ∈ OPTIONAL.
Proof. by intros ?%bool_decide_eq_true. Qed.
Lemma pres_optional {T} {N : Num T} ind ords k : pres (eagree (fun a => a ∈ OPTIONAL)) (optional_magnet_fields (T:=T) ind ords k).
Proof. unfold optional_magnet_fields. repeat first [pres_step | apply pres_setattr; apply optI; reflexivity]. Qed.
Lemma optional_registered a : a ∈ OPTIONAL -> a ∈ REGISTERED.
Proof. unfold OPTIONAL, REGISTERED. set_solver. Qed.

Definition recorded (e : elem R) : Prop := exists pa pb,
  e !! "PolynomA" = Some (VVec pa) /\ e !! "PolynomB" = Some (VVec pb) /\
  e !! "NomPolynomA" = Some (VVec pa) /\ e !! "NomPolynomB" = Some (VVec pb) /\
  e !! "SetPointA" = Some (VVec pa) /\ e !! "SetPointB" = Some (VVec pb) /\
  e !! "CalErrorA" = Some (VVec (zeros (length pa))) /\ e !! "CalErrorB" = Some (VVec (zeros (length pb))).
Lemma zero_plus (l : list R) : zip_with nadd (zeros (length l)) l = l.
Proof. unfold zeros. induction l as [|x l IH]; [done|]. change (nadd n0 x :: zip_with nadd (replicate (length l) n0) l = x :: l). rewrite IH. num_R. f_equal. lra. Qed.
Lemma magnet_init_recorded (e e' : elem R) u : magnet_init e = (Ok u, e') -> recorded e'.
Proof.
  unfold magnet_init. intros H. apply bind_ok in H as (pa&e1&Hpa&H). apply getm_ok in Hpa as [Hpa ->]. apply attr_vec_ok in Hpa.
  do 3 (apply bind_ok in H as (?&?&Hs&H); apply setattr_ok in Hs as ->).
  apply bind_ok in H as (pb&e1&Hpb&H). apply getm_ok in Hpb as [Hpb ->]. apply attr_vec_ok in Hpb.
  do 12 (apply bind_ok in H as (?&?&Hs&H); apply setattr_ok in Hs as ->). apply setattr_ok in H as ->.
  rewrite !lookup_insert_ne in Hpb by done. rewrite !zero_plus. exists pa, pb.
  repeat split; repeat first [rewrite lookup_insert | rewrite lookup_insert_ne by done]; done.
Qed.
Lemma recorded_agree (e e' : elem R) : eagree (fun a => a ∈ OPTIONAL) e e' -> recorded e -> recorded e'.
Proof.
  intros Ha (pa&pb&H). exists pa, pb.
  rewrite !Ha by (unfold OPTIONAL; rewrite !elem_of_cons, elem_of_nil; intros [?|[?|[?|[?|[]]]]]; discriminate). done.
Qed.
Definition magnet_loop {T} {N : Num T} (ords : list nat) errs (k : magtype T) (l : list nat) : M (sc T) unit :=
  forM l (fun ind => mod_SIG (fun g => set_sMagnet (sig_update (sMagnet g) ind errs) g) ;;;
                     on_elem ind magnet_init ;;; on_elem ind (optional_magnet_fields ind ords k)).
Lemma magnet_loop_rring {T} {N : Num T} ords errs k l :
  pres (rring (fun i a => i ∈ l /\ a ∈ REGISTERED)) (magnet_loop (T:=T) ords errs k l).
Proof.
  unfold magnet_loop. apply pres_forM; [exact _|]. intros i Hi. apply pres_bind; [exact _| |intros _; apply pres_bind; [exact _| |intros _]].
  - apply pres_modify. intros s. unfold rring. simpl. reflexivity.
  - apply pres_on_elem_rring. eapply pres_weaken; [|apply pres_magnet_init]. intros e e' Hag a Ha. apply Hag. intros ?. apply Ha. done.
  - apply pres_on_elem_rring. eapply pres_weaken; [|apply pres_optional]. intros e e' Hag a Ha. apply Hag. intros Hin. apply Ha. split; [done|]. by apply optional_registered.
Qed.
Lemma magnet_loop_recorded ords errs k l (s s' : sc R) u : magnet_loop ords errs k l s = (Ok u, s') ->
  (forall i e, i ∈ l -> RING s' !! i = Some e -> recorded e) /\ (forall i, i ∈ l -> i < length (RING s')).
Proof.
  revert s. induction l as [|i l IH]; intros s H; [split; intros j; intros; by set_solver|].
  unfold magnet_loop in H. cbn [forM] in H. apply bind_ok in H as (u1&s1&H1&H). destruct (IH _ H) as [IH1 IH2].
  pose proof (magnet_loop_rring ords errs k l s1) as P. unfold magnet_loop in P at 1. rewrite H in P. simpl in P. destruct P as [PL PA].
  apply bind_ok in H1 as (?&sa&Ha&H1). apply bind_ok in H1 as (?&sb&Hb&H1).
  apply on_elem_ok in Hb as (e1&e2&He1&Hi1&->). apply on_elem_ok in H1 as (e3&e4&He3&Hi2&->). simpl in *.
  rewrite list_lookup_insert in He3 by (by eapply lookup_lt_Some). injection He3 as <-.
  assert (recorded e4) as Hr4.
  { apply magnet_init_recorded in Hi1. pose proof (pres_optional i ords k e2) as Po. rewrite Hi2 in Po. simpl in Po. by eapply recorded_agree. }
  split.
  - intros j e Hj He. destruct (decide (j ∈ l)) as [Hjl|Hjl]; [by eapply IH1|]. apply elem_of_cons in Hj as [->|Hj]; [|done].
    assert (eagree (fun a => False) e4 e) as Hag.
    { intros a _. apply (PA i e4 e); [|done|intros [? _]; done]. apply list_lookup_insert. rewrite insert_length. by eapply lookup_lt_Some. }
    eapply recorded_agree; [|exact Hr4]. intros a Ha2. apply Hag. auto.
  - intros j Hj. rewrite PL, !insert_length. apply elem_of_cons in Hj as [->|Hj]; [by eapply lookup_lt_Some|].
    pose proof (IH2 j Hj) as HL. rewrite PL, !insert_length in HL. done.
Qed.
Lemma register_magnets_loop {T} {N : Num T} ords errs k (s s' : sc T) u : register_magnets ords errs k s = (Ok u, s') ->
  exists s1, RING s1 = RING s /\ magnet_loop ords errs k ords s1 = (Ok u, s').
Proof.
  intros H. unfold register_magnets in H. apply bind_ok in H as (u1&s1&H1&H).
  destruct (check_kwargs_spec errs MAGNET_ERROR_FIELDS s) as [[Ha E]|[Ha E]]; rewrite E in H1; [|discriminate]. injection H1 as _ <-.
  apply bind_ok in H as (?&sa&Ha1&H). apply bind_ok in H as (?&sb&Hb1&H). apply bind_ok in H as (?&sd&Hd1&H). apply bind_ok in H as (?&se&He1&H).
  exists se. split; [|done].
  assert (forall b f (sx sy : sc T) v, when b (mod_ORD f) sx = (Ok v, sy) -> RING sy = RING sx) as Hw.
  { intros b f sx sy v Hb. apply when_ok in Hb as [[_ Hb]|[_ ->]]; [|done]. unfold mod_ORD in Hb. by apply modify_ok in Hb as ->. }
  rewrite (Hw _ _ _ _ _ He1), (Hw _ _ _ _ _ Hd1), (Hw _ _ _ _ _ Hb1). unfold mod_ORD in Ha1. by apply modify_ok in Ha1 as ->.
Qed.

(** Set-points and nominal fields record the field at the time of registration; nothing outside the magnet
    bookkeeping changes.  Registering a machine whose field already contains errors records those too (finding). *)
Theorem C19_registration_records_the_field ords errs k (s s' : sc R) u i :
  register_magnets ords errs k s = (Ok u, s') -> i ∈ ords ->
  exists pa pb, attr_at s i "PolynomA" = Some (VVec pa) /\ attr_at s i "PolynomB" = Some (VVec pb) /\
    attr_at s' i "PolynomA" = Some (VVec pa) /\ attr_at s' i "PolynomB" = Some (VVec pb) /\
    attr_at s' i "NomPolynomA" = Some (VVec pa) /\ attr_at s' i "NomPolynomB" = Some (VVec pb) /\
    attr_at s' i "SetPointA" = Some (VVec pa) /\ attr_at s' i "SetPointB" = Some (VVec pb) /\
    attr_at s' i "CalErrorA" = Some (VVec (replicate (length pa) 0%R)) /\ attr_at s' i "CalErrorB" = Some (VVec (replicate (length pb) 0%R)) /\
    forall j a, a ∉ REGISTERED \/ j ∉ ords -> attr_at s' j a = attr_at s j a.
Proof.
  intros H Hi. apply register_magnets_loop in H as (s1&E1&H). destruct (magnet_loop_recorded _ _ _ _ _ _ _ H) as [Hrec Hlen].
  pose proof (magnet_loop_rring ords errs k ords s1) as P. rewrite H in P. simpl in P.
  assert (forall j a, a ∉ REGISTERED \/ j ∉ ords -> attr_at s' j a = attr_at s j a) as Hout.
  { intros j a Ha. unfold attr_at. rewrite <- E1. destruct P as [PL PA]. destruct (RING s1 !! j) as [e|] eqn:Ee.
    - destruct (RING s' !! j) as [e'|] eqn:Ee'.
      + simpl. apply (PA j e e'); [done|done|]. intros [? ?]. destruct Ha; done.
      + apply lookup_ge_None in Ee'. apply lookup_lt_Some in Ee. lia.
    - apply lookup_ge_None in Ee. rewrite (lookup_ge_None_2 (RING s') j) by lia. done. }
  destruct (lookup_lt_is_Some_2 (RING s') i (Hlen i Hi)) as [e He].
  destruct (Hrec i e Hi He) as (pa&pb&R1&R2&R3&R4&R5&R6&R7&R8). exists pa, pb.
  assert (forall a, attr_at s' i a = e !! a) as Ea by (intros; unfold attr_at; by rewrite He).
  rewrite <- !Ea in *.
  assert (forall a, bool_decide (a ∈ REGISTERED) = false -> attr_at s i a = attr_at s' i a) as Hkeep.
  { intros a Ha%bool_decide_eq_false. symmetry. apply Hout. by left. }
  rewrite (Hkeep "PolynomA"), (Hkeep "PolynomB") by reflexivity. repeat (split; [done|]). done.
Qed.

Lemma target_fields_divides (src e : elem R) ab v :
  target_fields src e = Ok ab -> src !! "BendingAngle" = Some v -> src !! "CombinedFunction" = Some (VBool true) ->
  exists nom nom1, src !! "NomPolynomB" = Some (VVec nom) /\ nom !! 1%nat = Some nom1 /\ nom1 <> 0%R.
Proof.
  unfold target_fields. intros H Hv Hcf. rewrite Hv, Hcf in H.
  do 7 (apply rbind_ok in H as (?&_&H)). apply rbind_ok in H as (b2&Hb2&_).
  apply rbind_ok in Hb2 as (d&Hd&_). do 3 (apply rbind_ok in Hd as (?&_&Hd)).
  apply rbind_ok in Hd as (nom&Hnom&Hd). apply attr_vec_ok in Hnom. apply rbind_ok in Hd as (nom1&Hnom1&Hd). apply idx_ok in Hnom1.
  apply rbind_ok in Hd as (alpha&Hal&_). apply qdivR_ok in Hal as [_ Hnz]. eauto.
Qed.
(** attributes that carry magnet errors besides the calibration errors *)
Definition error_attributes : list string :=
  ["PolynomAOffset"; "PolynomBOffset"; "SysPolAFromA"; "SysPolAFromB"; "SysPolBFromA"; "SysPolBFromB"; "BendingAngleError"].

Lemma sum_over_nil {A} (f : A -> R) : sum_over [] f = 0%R.
Proof. done. Qed.
Theorem C19_fresh_magnet_keeps_its_field ords errs k (s s1 s2 : sc R) u u' ords' i skew :
  register_magnets ords errs k s = (Ok u, s1) -> i ∈ ords ->
  (forall a, a ∈ error_attributes -> attr_at s i a = None) ->
  update_magnets ords' s1 = (Ok u', s2) -> powered_by s1 ords' i i ->
  attr_at s2 i (field_name skew) = attr_at s i (field_name skew).
Proof.
  intros Hreg Hi Herr Hup Hp. destruct (C19_registration_records_the_field _ _ _ _ _ _ _ Hreg Hi) as (pa&pb&A0&B0&A1&B1&NA&NB&SA&SB&CA&CB&Hout).
  assert (forall a, bool_decide (a ∈ error_attributes) = true -> attr_at s1 i a = None) as Hnone.
  { intros a Ha%bool_decide_eq_true. rewrite Hout; [by apply Herr|]. left. unfold error_attributes in Ha.
    do 7 (apply elem_of_cons in Ha as [->|Ha]; [apply (bool_decide_eq_false_1 _); reflexivity|]). by apply elem_of_nil in Ha. }
  assert (fits s1 i) as Hfit. { intros sk. left. unfold array_of. destruct sk; simpl; rewrite ?SA, ?SB, ?CA, ?CB, replicate_length; done. }
  destruct (C17_field _ _ _ _ _ _ skew Hup Hp Hfit) as (p&Hpp&HL&HK). rewrite Hpp.
  assert (forall sk, array_of s1 i (offset_name sk) = []) as Ho. { intros sk. unfold array_of. destruct sk; simpl; rewrite Hnone by reflexivity; done. }
  assert (forall sk sk', table_of s1 i (systematic_name sk sk') = []) as Ht. { intros [] []; unfold table_of; simpl; rewrite Hnone by reflexivity; done. }
  assert (forall sk k, driven s1 i sk k = at0 (if sk then pa else pb) k) as Hd.
  { intros sk j. unfold driven, array_of. destruct sk; simpl; rewrite ?SA, ?SB, ?CA, ?CB.
    - replace (at0 (replicate (length pa) 0%R) j) with 0%R by (symmetry; apply (zeros_at (length pa) j)). lra.
    - replace (at0 (replicate (length pb) 0%R) j) with 0%R by (symmetry; apply (zeros_at (length pb) j)). lra. }
  assert (forall j, at0 p j = at0 (if skew then pa else pb) j + (if skew then 0 else match j with O => bending s1 i i | S _ => 0 end))%R as HK'.
  { intros j. rewrite HK. unfold expected_field, systematic. rewrite Hd, Ho, !Ht, !sum_over_nil, at0_nil. lra. }
  assert (length p = length (if skew then pa else pb)) as HL'.
  { rewrite HL. unfold expected_length. rewrite Ho, !Ht. unfold longest, array_of. destruct skew; simpl; rewrite ?SA, ?SB; simpl; lia. }
  destruct skew; simpl in *.
  - rewrite A0. do 2 f_equal. apply at0_ext; [done|]. intros j. rewrite HK'. lra.
  - rewrite B0. do 2 f_equal. apply at0_ext; [done|]. intros j. rewrite HK'. destruct j; [|lra].
    assert (bending s1 i i = 0%R) as ->; [|lra].
    unfold bending. assert (number s1 i "BendingAngleError" = None) as -> by (unfold number; by rewrite Hnone by reflexivity).
    destruct (number s1 i "BendingAngle") as [th|]; [|done]. destruct (number s1 i "Length") as [len|]; [|done].
    destruct (attr_at s1 i "BendingAngle") as [v|] eqn:EBA; [|lra]. destruct (attr_at s1 i "CombinedFunction") as [[| | | |[]| | | | | |]|] eqn:ECF; try lra.
    rewrite Hd. unfold array_of. simpl. rewrite NB.
    (* the update has divided by the nominal gradient, so it is not zero *)
    assert (at0 pb 1 <> 0%R) as Hnz.
    { apply powered_by_sole in Hp. destruct (sole_fields _ _ _ _ _ _ Hup Hp) as (em&ec&a&b&Em&_&Htf&_).
      assert (forall x, em !! x = attr_at s1 i x) as Ea by (intros; unfold attr_at; by rewrite Em).
      destruct (target_fields_divides em ec (a, b) v Htf) as (nom&nom1&Hn&Hn1&Hnz); [by rewrite Ea|by rewrite Ea|].
      rewrite Ea, NB in Hn. injection Hn as <-. unfold at0. by rewrite Hn1. }
    replace (at0 pb 1 / at0 pb 1)%R with 1%R by (by field). lra.
Qed.

(** * C20 *)
(** Specification: a magnet one of whose calibration errors is a plain number. *)
Definition scalar_calibration {T} (s : sc T) (i : nat) : Prop :=
  exists a b ca cb, attr_at s i "SetPointA" = Some (VVec a) /\ attr_at s i "SetPointB" = Some (VVec b) /\
    attr_at s i "CalErrorA" = Some ca /\ attr_at s i "CalErrorB" = Some cb /\
    ((exists x, ca = VNum x) \/ (exists l x, ca = VVec l /\ cb = VNum x)).
Lemma scaled_error {T} {N : Num T} (sp l : list T) : (exists p, scaled_setpoints sp (VVec l) = Ok p) \/ scaled_setpoints sp (VVec l) = Err ValueError.
Proof.
  unfold scaled_setpoints. simpl. unfold bcast. destruct (_ =? _)%nat; [eauto|]. destruct sp as [|x [|y sp]], (add_padded1 _ l) as [|? [|? ?]]; eauto.
Qed.
Lemma update_raises {T} {N : Num T} (s : sc T) i : scalar_calibration s i -> update_magnet i i s = (Err ValueError, s).
Proof.
  intros (a&b&ca&cb&Ha&Hb&Hca&Hcb&Hsc). unfold attr_at in *. destruct (RING s !! i) as [e|] eqn:E; [|discriminate]. simpl in *.
  unfold update_magnet. unfold bind, ring_elem, idx. rewrite E. unfold on_elem. rewrite E.
  assert (update_target e e = (Err ValueError, e)) as ->; [|by rewrite list_insert_id; [destruct s|]].
  unfold update_target, bind, lift, attr_vec, attr. rewrite Ha, Hb, Hca, Hcb. simpl.
  destruct Hsc as [[x ->]|(l&x&->&->)]; [done|]. destruct (scaled_error a l) as [[p ->]| ->]; done.
Qed.
Theorem C20_raises {T} {N : Num T} (s : sc T) i rest : scalar_calibration s i -> update_magnets (i :: rest) s = (Err ValueError, s).
Proof. intros H. unfold update_magnets. cbn [forM]. unfold bind at 1 2. by rewrite (update_raises s i H). Qed.
Lemma scalar_calibration_same {T} (s s' : sc T) i :
  (forall a, attr_at s' i a = attr_at s i a) -> scalar_calibration s i -> scalar_calibration s' i.
Proof. intros H (a&b&ca&cb&Hx). exists a, b, ca, cb. by rewrite !H. Qed.
(** In any list of magnets: the call raises, and the magnet keeps its field. *)
Theorem C20_any_list {T} {N : Num T} (s : sc T) i ords : scalar_calibration s i -> i ∈ ords -> (forall m, m ∈ ords -> ~ child_of s i m) ->
  (exists e, fst (update_magnets ords s) = Err e) /\ forall a, attr_at (snd (update_magnets ords s)) i a = attr_at s i a.
Proof.
  intros Hsc Hi Hch. apply elem_of_list_split_l in Hi as (l1&l2&->&Hni).
  assert (forall a, attr_at (snd (update_magnets l1 s)) i a = attr_at s i a) as Hkeep.
  { intros a. pose proof (update_magnets_frame l1 s) as F. rewrite !attr_at_aget. apply (frame_aget _ _ _ _ _ F).
    intros [_ [Hin|(m&Hm&Hc)]]; [done|]. apply (Hch m); [set_solver|]. by apply child_of_children. }
  assert (update_magnets (l1 ++ i :: l2) s = bind (update_magnets l1) (fun _ => update_magnets (i :: l2)) s) as ->.
  { unfold update_magnets. by rewrite forM_app. }
  unfold bind. destruct (update_magnets l1 s) as [[u|e] s1] eqn:E1; simpl in Hkeep.
  - rewrite (C20_raises s1 i l2) by (by eapply scalar_calibration_same). simpl. eauto.
  - simpl. eauto.
Qed.

(** * C21 *)
(** attributes of an element, besides those of its master, that enter its field *)
Definition own_terms : list string :=
  ["PolynomAOffset"; "PolynomBOffset"; "SysPolAFromA"; "SysPolAFromB"; "SysPolBFromA"; "SysPolBFromB"; "BendingAngle"; "Length"].
Definition no_bending_terms {T} (s : sc T) (m : nat) : Prop :=
  attr_at s m "BendingAngleError" = None /\ (attr_at s m "BendingAngle" = None \/ attr_at s m "CombinedFunction" <> Some (VBool true)).
Lemma new_polynom_ext {T} {N : Num T} (e e' : elem T) t pa pb : t = "A" \/ t = "B" ->
  (forall a, a ∈ ["PolynomAOffset"; "PolynomBOffset"; "SysPolAFromA"; "SysPolAFromB"; "SysPolBFromA"; "SysPolBFromB"] -> e !! a = e' !! a) ->
  new_polynom e t pa pb = new_polynom e' t pa pb.
Proof.
  intros Ht H. unfold new_polynom. cbn [rfold].
  assert (e !! ("Polynom" +:+ t +:+ "Offset") = e' !! ("Polynom" +:+ t +:+ "Offset")) as ->.
  { apply H. destruct Ht as [-> | ->]; apply (bool_decide_eq_true_1 _); reflexivity. }
  assert (e !! ("SysPol" +:+ t +:+ "From" +:+ "A") = e' !! ("SysPol" +:+ t +:+ "From" +:+ "A")) as ->.
  { apply H. destruct Ht as [-> | ->]; apply (bool_decide_eq_true_1 _); reflexivity. }
  assert (e !! ("SysPol" +:+ t +:+ "From" +:+ "B") = e' !! ("SysPol" +:+ t +:+ "From" +:+ "B")) as ->.
  { apply H. destruct Ht as [-> | ->]; apply (bool_decide_eq_true_1 _); reflexivity. }
  done.
Qed.
Lemma target_fields_ext {T} {N : Num T} (src e e' : elem T) : (forall a, a ∈ own_terms -> e !! a = e' !! a) -> target_fields src e = target_fields src e'.
Proof.
  intros H. unfold target_fields.
  assert (forall t pa pb, t = "A" \/ t = "B" -> new_polynom e t pa pb = new_polynom e' t pa pb) as Hp.
  { intros. apply new_polynom_ext; [done|]. intros a Ha. apply H. unfold own_terms. set_solver. }
  assert (attr_num e "BendingAngle" = attr_num e' "BendingAngle") as Eth by (unfold attr_num, attr; rewrite H; [done|]; apply (bool_decide_eq_true_1 _); reflexivity).
  assert (attr_num e "Length" = attr_num e' "Length") as Elen by (unfold attr_num, attr; rewrite H; [done|]; apply (bool_decide_eq_true_1 _); reflexivity).
  rewrite Eth, Elen. destruct (attr_vec src "SetPointA"); [|done]. cbn [rbind]. destruct (attr_vec src "SetPointB"); [|done]. cbn [rbind].
  destruct (let? c := attr src "CalErrorA" in _); [|done]. cbn [rbind]. destruct (let? c := attr src "CalErrorB" in _); [|done]. cbn [rbind].
  rewrite !Hp by auto. done.
Qed.
Lemma target_fields_ext_nobend {T} {N : Num T} (src e e' : elem T) :
  src !! "BendingAngleError" = None -> (src !! "BendingAngle" = None \/ src !! "CombinedFunction" <> Some (VBool true)) ->
  (forall a, a ∈ ["PolynomAOffset"; "PolynomBOffset"; "SysPolAFromA"; "SysPolAFromB"; "SysPolBFromA"; "SysPolBFromB"] -> e !! a = e' !! a) ->
  target_fields src e = target_fields src e'.
Proof.
  intros Hbe Hcf H. unfold target_fields. rewrite Hbe.
  assert (forall t pa pb, t = "A" \/ t = "B" -> new_polynom e t pa pb = new_polynom e' t pa pb) as Hp by (intros; by apply new_polynom_ext).
  destruct (attr_vec src "SetPointA"); [|done]. cbn [rbind]. destruct (attr_vec src "SetPointB"); [|done]. cbn [rbind].
  destruct (let? c := attr src "CalErrorA" in _); [|done]. cbn [rbind]. destruct (let? c := attr src "CalErrorB" in _); [|done]. cbn [rbind].
  rewrite !Hp by auto. destruct (new_polynom e' "A" _ _); [|done]. cbn [rbind]. destruct (new_polynom e' "B" _ _); [|done]. cbn [rbind].
  destruct (src !! "BendingAngle"); [|done]. destruct (src !! "CombinedFunction") as [[| | | |[]| | | | | |]|]; try done. destruct Hcf; done.
Qed.
(** A child whose own error terms (and, when there are bending terms, angle and length) are those of its master
    gets exactly the master's field. *)
Theorem C21_children_mirror_master {T} {N : Num T} ords (s s' : sc T) u m c skew :
  update_magnets ords s = (Ok u, s') -> powered_by s ords m m -> powered_by s ords m c ->
  (no_bending_terms s m /\ forall a, a ∈ own_terms -> a ∉ ["BendingAngle"; "Length"] -> attr_at s c a = attr_at s m a) \/
  (forall a, a ∈ own_terms -> attr_at s c a = attr_at s m a) ->
  attr_at s' c (field_name skew) = attr_at s' m (field_name skew) /\ attr_at s' c "MaxOrder" = attr_at s' m "MaxOrder".
Proof.
  intros H Hm Hc Hown. apply powered_by_sole in Hm, Hc.
  destruct (sole_fields _ _ _ _ _ _ H Hm) as (em&em'&a&b&Em&Em'&Ht&Ha&Hb&Ho&_).
  destruct (sole_fields _ _ _ _ _ _ H Hc) as (em''&ec&a'&b'&Em''&Ec&Ht'&Ha'&Hb'&Ho'&_).
  rewrite Em in Em', Em''. injection Em' as <-. injection Em'' as <-.
  assert (forall x, attr_at s c x = ec !! x) as Xc by (intros; unfold attr_at; by rewrite Ec).
  assert (forall x, attr_at s m x = em !! x) as Xm by (intros; unfold attr_at; by rewrite Em).
  assert ((a, b) = (a', b')) as E.
  { assert (target_fields em ec = target_fields em em) as Hx; [|rewrite Ht, Ht' in Hx; by injection Hx as -> ->].
    destruct Hown as [[Hnb Hown1]|Hall].
    - pose proof Hnb as [B1 B2]. rewrite Xm in B1. rewrite !Xm in B2. apply target_fields_ext_nobend; [done|done|]. intros x Hx. rewrite <- Xc, <- Xm.
      apply Hown1; [unfold own_terms; set_solver|].
      do 6 (apply elem_of_cons in Hx as [->|Hx]; [apply (bool_decide_eq_false_1 _); reflexivity|]). by apply elem_of_nil in Hx.
    - apply target_fields_ext. intros x Hx. rewrite <- Xc, <- Xm. by apply Hall. }
  injection E as -> ->. rewrite Ho, Ho'. destruct skew; simpl; rewrite ?Ha, ?Ha', ?Hb, ?Hb'; done.
Qed.
(** Updating touches nothing but the computed field attributes of the listed magnets and their children;
    in particular no set-point, whatever the outcome of the call. *)
Theorem C21_setpoints_untouched {T} {N : Num T} ords (s : sc T) :
  let s' := snd (update_magnets ords s) in same_but_ring s s' /\
  forall i a, ~ (a ∈ field_attributes /\ exists m, m ∈ ords /\ powers s m i) -> attr_at s' i a = attr_at s i a.
Proof.
  intros s'. pose proof (update_magnets_frame ords s) as F. fold s' in F. split; [destruct F as (?&?&?&?&?&?); done|].
  intros i a Hno. rewrite !attr_at_aget. apply (frame_aget _ _ _ _ _ F). intros [Hd Ht]. apply Hno. split.
  - unfold der, DERIVED in Hd. unfold field_attributes. set_solver.
  - destruct Ht as [Hi|(m&Hm&Hc)]; [exists i; split; [done|by left]|]. exists m. split; [done|]. right. by apply child_of_children.
Qed.

(** * Examples *)
Definition split_machine {T} `{Num T} : sc T :=
  let r := [drift (num 1); quad; thin_cm; bpm; cavity; bend; quad] in
  let s := snd (register_magnets [1]%nat [] (MkType None None false None (Some [[6]%nat; [2]%nat])) (init_sc r [])) in
  let q := default ∅ (RING s !! 1%nat) in
  set_RING (<[1%nat := <["CalErrorB" := VVec [num 0; num 1]]> q]> (RING s)) s.
Example C21_case :
  let r := update_magnets [1%nat] (split_machine : sc Q) in
  fst r = Ok tt /\ attr_at (snd r) 1 "PolynomB" = Some (VVec [0; 6]%Q) /\
  attr_at (snd r) 6 "PolynomB" = Some (VVec [0; 6]%Q) /\ attr_at (snd r) 2 "PolynomB" = Some (VVec [0; 6]%Q).
Proof. vm_compute. repeat split. Qed.
Example C21_case_hypotheses : powered_by (split_machine : sc Q) [1%nat] 1 6 /\ powered_by (split_machine : sc Q) [1%nat] 1 1 /\ no_bending_terms (split_machine : sc Q) 1.
Proof.
  split_and!.
  - split; [set_solver|]. split; [right; exists [6; 2]%nat; split; [vm_compute; done|left]|]. intros m Hm _. by apply elem_of_list_singleton in Hm.
  - split; [set_solver|]. split; [by left|]. intros m Hm _. by apply elem_of_list_singleton in Hm.
  - split; [vm_compute; done|left; vm_compute; done].
Qed.
(** a combined-function bend keeps its field when registered and updated; re-registering after an update with
    calibration errors makes the erroneous gradient the nominal one *)
Example C19_case :
  let s := ex_sc : sc Q in
  let s1 := snd (register_magnets [5; 1]%nat [] (MkType None None true None None) s) in
  let r := update_magnets [1; 5]%nat s1 in
  let r' := update_magnets [1; 5]%nat (field_machine : sc Q) in
  let s2 := snd (register_magnets [5%nat] [] (MkType None None true None None) (snd r')) in
  fst r = Ok tt /\ attr_at (snd r) 5 "PolynomB" = attr_at s 5 "PolynomB" /\ attr_at (snd r) 1 "PolynomB" = attr_at s 1 "PolynomB" /\
  attr_at s 5 "PolynomB" = Some (VVec [0; 5]%Q) /\ attr_at s2 5 "NomPolynomB" = Some (VVec [2; 10]%Q).
Proof. vm_compute. repeat split. Qed.
(** CalErrorB given as a plain number: the magnet stage of apply_errors stores a plain
    number, and the update at its end raises *)
Example C20_case :
  let s := snd (register_magnets [1%nat] [("CalErrorB", SPlain (VNum 1%Q))] (MkType None None false None None) (init_sc ex_ring (replicate 40 (1 # 2)%Q))) in
  let r := apply_magnet 2%Q s in
  fst r = Ok tt /\ fst (update_magnets_all (snd r)) = Err ValueError /\ attr_at (snd r) 1 "CalErrorB" = Some (VNum (1 # 2)%Q) /\
  fst (set_magnet_setpoints [1%nat] DFloat [4%Q] false 1 "abs" false (snd r)) = Err ValueError.
Proof. vm_compute. repeat split. Qed.
Print Assumptions C18_twice.
Print Assumptions C18_order_irrelevant.
Print Assumptions C18_two_lists.
Print Assumptions C18_finding_shared_child.
Print Assumptions C19_registration_records_the_field.
Print Assumptions C19_fresh_magnet_keeps_its_field.
Print Assumptions C20_raises.
Print Assumptions C20_any_list.
Print Assumptions C21_children_mirror_master.
Print Assumptions C21_setpoints_untouched.
