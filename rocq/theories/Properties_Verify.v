(** C83: the check of a machine. *)
From Coq Require Import QArith ZArith Lia Sorted.
From stdpp Require Import base gmap strings list.
From Verif Require Import Num Base Model_Arr Model_SC Model_Err Model_Verify Lemmas Spec Proofs_Reg Proofs_Setpoint Proofs_Update Properties_Reg Properties_Update Examples.
Local Open Scope string_scope.
Local Open Scope list_scope.

(** * Specification *)
Section Spec.
  Context {T : Type} {N : Num T}.
  (** number of entries of an attribute, if it is a sequence *)
  Definition size (v : val T) : option nat :=
    match v with
    | VVec l => Some (length l) | VMat r => Some (length r) | VOrds l => Some (length l) | VTab t => Some (length t) | VLims l => Some (length l)
    | VStr x => Some (String.length x) | VList _ _ => Some 2%nat | _ => None
    end.
  Definition size_at (s : sc T) (i : nat) (a : string) : option nat := attr_at s i a ≫= size.
  Definition same_size (s : sc T) (i : nat) (a b : string) : Prop := exists n, size_at s i a = Some n /\ size_at s i b = Some n.
  Definition present (s : sc T) (i : nat) (a : string) : Prop := exists v, attr_at s i a = Some v.
  Definition is_zero (x : T) : Prop := neqb x n0 = true.
  (** marked as combined-function magnet *)
  Definition combined (s : sc T) (i : nat) : Prop :=
    match attr_at s i "CombinedFunction" with Some (VBool b) => b = true | Some (VNum x) => ~ is_zero x | Some (VInt z) => z <> 0%Z | Some _ => True | None => False end.
  Definition limit_at (s : sc T) (i plane : nat) (l : lim T) : Prop := exists ls, attr_at s i "CMlimit" = Some (VLims ls) /\ ls !! plane = Some l.
  Definition magnet_sound (s : sc T) (i : nat) : Prop :=
    same_size s i "PolynomB" "PolynomA" /\ same_size s i "SetPointB" "CalErrorB" /\ same_size s i "SetPointA" "CalErrorA" /\
    (present s i "PolynomBOffset" -> same_size s i "PolynomBOffset" "PolynomAOffset") /\
    (combined s i -> (exists b, number s i "BendingAngle" = Some b) /\ exists k, entry s i "NomPolynomB" 1 = Some k) /\
    (exists d : dict (sigval T), sMagnet (SIG s) !! i = Some d) /\
    (present s i "MasterOf" -> attr_at s i "MasterOf" = Some (VOrds [])).
  Definition sound (s : sc T) : Prop :=
    (oGirder (ORD s) = [] -> oPlinth (ORD s) = [] /\ oSection (ORD s) = []) /\
    (forall i, i ∈ oHCM (ORD s) -> exists l, limit_at s i 0 l) /\ (forall i, i ∈ oVCM (ORD s) -> exists l, limit_at s i 1 l) /\
    (forall i, i ∈ oMagnet (ORD s) -> magnet_sound s i) /\
    (forall i, i ∈ oRF (ORD s) -> exists d : dict (sigval T), sRF (SIG s) !! i = Some d /\ (d <> [] -> (i < length (RING s))%nat)) /\
    length (beamSize (INJ s)) = 6%nat /\ (forall r, r ∈ beamSize (INJ s) -> length r = 6%nat) /\
    length (sRandZ (SIG s)) = 6%nat /\ length (sStatZ (SIG s)) = 6%nat.
  (** which warnings are deserved *)
  Definition deserved (s : sc T) (w : warning) : Prop :=
    match w with
    | NoBpm => oBPM (ORD s) = [] | BpmTwice => ~ NoDup (oBPM (ORD s))
    | NoHcm => oHCM (ORD s) = [] | HcmTwice => ~ NoDup (oHCM (ORD s))
    | NoVcm => oVCM (ORD s) = [] | VcmTwice => ~ NoDup (oVCM (ORD s))
    | ZeroHcmLimit i => i ∈ oHCM (ORD s) /\ exists x, limit_at s i 0 (Fin x) /\ is_zero x
    | ZeroVcmLimit i => i ∈ oVCM (ORD s) /\ exists x, limit_at s i 1 (Fin x) /\ is_zero x
    | ZeroGradient i => i ∈ oMagnet (ORD s) /\ combined s i /\ exists x, entry s i "NomPolynomB" 1 = Some x /\ is_zero x
    | ZeroAngle i => i ∈ oMagnet (ORD s) /\ combined s i /\ exists x, number s i "BendingAngle" = Some x /\ is_zero x
    | MagnetField i f => i ∈ oMagnet (ORD s) /\ (exists (d : dict (sigval T)) v, sMagnet (SIG s) !! i = Some d /\ (f, v) ∈ d) /\ ~ present s i f
    | NoCavity => oRF (ORD s) = [] | CavityTwice => ~ NoDup (oRF (ORD s))
    | CavityField i f => i ∈ oRF (ORD s) /\ (exists (d : dict (sigval T)) v, sRF (SIG s) !! i = Some d /\ (f, v) ∈ d) /\ ~ present s i f
    | BothApertures i => present s i "EApertures" /\ present s i "RApertures"
    | NoAperture => forall i, ~ present s i "EApertures" /\ ~ present s i "RApertures"
    end.
End Spec.

(** * Proofs *)
(** [m] adds warnings to the log; it returns exactly if [P], and then has logged exactly the warnings in [W] *)
Definition behaves (m : M (list warning) unit) (P : Prop) (W : warning -> Prop) : Prop :=
  forall l, exists r l', m l = (r, l ++ l') /\ (r = Ok tt <-> P) /\ (r = Ok tt -> forall w, w ∈ l' <-> W w).
Lemma behaves_iff m (P P' : Prop) (W W' : warning -> Prop) : (P <-> P') -> (P -> forall w, W w <-> W' w) -> behaves m P W -> behaves m P' W'.
Proof.
  intros HP HW H l. destruct (H l) as (r&l'&E&H1&H2). exists r, l'. split; [done|]. split; [by rewrite H1|]. intros Hr w. rewrite H2 by done. apply HW. by apply H1.
Qed.
Lemma behaves_ret : behaves (ret tt) True (fun _ => False).
Proof. intros l. exists (Ok tt), []. rewrite app_nil_r. split; [done|]. split; [done|]. intros _ w. by rewrite elem_of_nil. Qed.
Lemma behaves_raise e (P : Prop) W : ~ P -> behaves (raise e) P W.
Proof. intros H l. exists (Err e), []. rewrite app_nil_r. split; [done|]. split; [split; [done|tauto]|done]. Qed.
Lemma behaves_warn w : behaves (warn w) True (fun x => x = w).
Proof. intros l. exists (Ok tt), [w]. split; [done|]. split; [done|]. intros _ x. by rewrite elem_of_list_singleton. Qed.
Lemma behaves_bind m k (P P' : Prop) (W W' : warning -> Prop) : behaves m P W -> (P -> behaves k P' W') -> behaves (m ;;; k) (P /\ P') (fun w => W w \/ W' w).
Proof.
  intros H1 H2 l. destruct (H1 l) as (r&l1&E1&A1&B1). unfold bind. rewrite E1. destruct r as [[]|e].
  - destruct (H2 ltac:(by apply A1) (l ++ l1)) as (r&l2&E2&A2&B2). exists r, (l1 ++ l2). rewrite E2, app_assoc. split; [done|]. split; [pose proof (proj1 A1 eq_refl); tauto|].
    intros Hr w. rewrite elem_of_app, B1, B2 by done. done.
  - exists (Err e), l1. split; [done|]. split; [|done]. split; [done|]. intros [HP _]. apply A1 in HP. done.
Qed.
Lemma behaves_lift {A} (r : res A) k (P : Prop) W : (forall x, r = Ok x -> behaves (k x) P W) -> ((forall x, r <> Ok x) -> ~ P) -> behaves (let! x := lift r in k x) P W.
Proof.
  intros H1 H2 l. unfold bind, lift. destruct r as [x|e]; [by apply H1|]. exists (Err e), []. rewrite app_nil_r. split; [done|]. split; [|done]. split; [done|]. intros HP. by destruct H2.
Qed.
Lemma behaves_when (b : bool) m (Q P : Prop) W : (b = true <-> Q) -> behaves m P W -> behaves (when b m) (Q -> P) (fun w => Q /\ W w).
Proof.
  intros Hb H. destruct b; simpl.
  - eapply behaves_iff; [| |exact H]; [tauto|]. intros _ w. tauto.
  - assert (~ Q) as Hn by (intros HQ; by apply Hb in HQ). eapply behaves_iff; [| |apply behaves_ret]; tauto.
Qed.
Lemma behaves_warn_when (b : bool) (Q : Prop) w : (b = true <-> Q) -> behaves (when b (warn w)) True (fun x => Q /\ x = w).
Proof. intros H. eapply behaves_iff; [| |apply (behaves_when b _ Q True (fun x => x = w) H), behaves_warn]; [tauto|done]. Qed.
Lemma behaves_if (b : bool) e (P : Prop) : (b = true <-> P) -> behaves (if b then ret tt else raise e) P (fun _ => False).
Proof.
  intros H. destruct b; [|apply behaves_raise; intros HP; by apply H in HP]. eapply behaves_iff; [| |apply behaves_ret]; tauto.
Qed.
Lemma behaves_forM {A} (l : list A) f (P : A -> Prop) (W : A -> warning -> Prop) : (forall x, x ∈ l -> behaves (f x) (P x) (W x)) ->
  behaves (forM l f) (forall x, x ∈ l -> P x) (fun w => exists x, x ∈ l /\ W x w).
Proof.
  induction l as [|x l IH]; intros H; cbn [forM].
  - eapply behaves_iff; [| |apply behaves_ret]; [split; [intros _ y Hy; inversion Hy|done]|]. intros _ w. split; [done|]. intros (y&Hy&_). inversion Hy.
  - eapply behaves_iff; [| |apply behaves_bind; [apply H; left|intros _; apply IH; intros y Hy; apply H; by right]].
    + split; [intros [Hx Hl] y [->|Hy]%elem_of_cons; auto|]. intros Hl. split; [apply Hl; left|]. intros y Hy. apply Hl. by right.
    + intros _ w. split.
      * intros [Hw|(y&Hy&Hw)]; [exists x; split; [left|done]|]. exists y. split; [by right|done].
      * intros (y&[->|Hy]%elem_of_cons&Hw); [by left|]. right. eauto.
Qed.

Ltac pick := first [solve [eauto 12]|left; pick|right; pick].
Section Proofs.
  Context {T : Type} {N : Num T}.
  Implicit Types (s : sc T) (e : elem T).
  Lemma zero_length {A} (l : list A) : (length l =? 0)%nat = true <-> l = [].
  Proof. rewrite Nat.eqb_eq. by destruct l. Qed.
  Lemma unique_length (l : list nat) : negb (length (unique l) =? length l)%nat = true <-> ~ NoDup l.
  Proof.
    assert (forall x (u : list nat), StronglySorted lt u -> length (uinsert x u) = if decide (x ∈ u) then length u else S (length u)) as Hu.
    { intros x u Hs. induction Hs as [|y u Hs IH Hf]; [by rewrite decide_False by apply not_elem_of_nil|]. rewrite Forall_forall in Hf. cbn [uinsert]. destruct (Nat.ltb_spec x y).
      - rewrite decide_False; [done|]. rewrite elem_of_cons. intros [->|Hx]; [lia|]. apply Hf in Hx. lia.
      - destruct (Nat.eqb_spec x y) as [->|Hne]; [by rewrite decide_True by left|]. cbn [length]. rewrite IH. destruct (decide (x ∈ u)); [rewrite decide_True by (by right)|rewrite decide_False by (rewrite elem_of_cons; tauto)]; done. }
    assert (length (unique l) <= length l /\ (length (unique l) = length l <-> NoDup l))%nat as [_ H].
    { induction l as [|x l [IH1 IH2]]; [simpl; split; [done|]; split; [constructor|done]|]. cbn [unique foldr length]. fold (unique l). rewrite (Hu _ _ (unique_sorted l)), NoDup_cons.
      destruct (decide (x ∈ unique l)) as [Hx|Hx]; rewrite unique_elem in Hx.
      - split; [lia|]. split; [lia|]. tauto.
      - split; [lia|]. rewrite <- IH2. split; [intros; split; [done|lia]|]. intros [_ ?]. lia. }
    rewrite negb_true_iff, Nat.eqb_neq, H. done.
  Qed.
  Lemma behaves_count ords none twice : behaves (count_checked ords none twice) True (fun w => (ords = [] /\ w = none) \/ (~ NoDup ords /\ w = twice)).
  Proof.
    unfold count_checked. destruct (length ords =? 0)%nat eqn:E.
    - apply zero_length in E as ->. eapply behaves_iff; [| |apply behaves_warn]; [done|]. intros _ w. split; [auto|]. intros [[_ ?]|[H _]]; [done|]. destruct H. constructor.
    - eapply behaves_iff; [| |apply behaves_warn_when, unique_length]; [done|]. intros _ w. split; [auto|]. intros [[-> _]|?]; done.
  Qed.
  Lemma at_elem s i e a : RING s !! i = Some e -> attr_at s i a = e !! a.
  Proof. intros H. unfold attr_at. by rewrite H. Qed.
  Lemma no_elem s i a : RING s !! i = None -> attr_at s i a = None.
  Proof. intros H. unfold attr_at. by rewrite H. Qed.
  Lemma has_present s i e a : RING s !! i = Some e -> hasattr e a = true <-> present s i a.
  Proof. intros H. unfold present, hasattr. rewrite (at_elem s i e) by done. destruct (e !! a); split; eauto; try done. by intros [? ?]. Qed.
  Lemma len_size (v : val T) n : len_of v = Ok n <-> size v = Some n.
  Proof. destruct v; simpl; split; congruence. Qed.
  Lemma attr_len_size s i e a n : RING s !! i = Some e -> attr_len e a = Ok n <-> size_at s i a = Some n.
  Proof.
    intros H. unfold attr_len, size_at, attr. rewrite (at_elem s i e) by done. destruct (e !! a) as [v|]; simpl; [apply len_size|done].
  Qed.
  Lemma behaves_lengths s i e a b : RING s !! i = Some e -> behaves (equal_lengths e a b) (same_size s i a b) (fun _ => False).
  Proof.
    intros H. unfold equal_lengths, same_size. apply behaves_lift.
    - intros n Hn. rewrite (attr_len_size s i) in Hn by done. apply behaves_lift.
      + intros m Hm. rewrite (attr_len_size s i) in Hm by done. apply behaves_if. rewrite Nat.eqb_eq, Hn, Hm. split; [intros ->; eauto|]. intros (k&?&?). congruence.
      + intros Hm (k&_&Hk). apply (Hm k). by apply (attr_len_size s i).
    - intros Hn (k&Hk&_). apply (Hn k). by apply (attr_len_size s i).
  Qed.
  Lemma behaves_limit s plane w i : behaves (limit_checked s plane w i) (exists l, limit_at s i plane l) (fun x => (exists y, limit_at s i plane (Fin y) /\ is_zero y) /\ x = w i).
  Proof.
    unfold limit_checked, limit_at. apply behaves_lift; [|].
    2: { intros H (l&ls&Ha&_). destruct (RING s !! i) as [e|] eqn:E; [|by rewrite no_elem in Ha]. apply (H e). by apply idx_ok. }
    intros e He%idx_ok. rewrite (at_elem s i e) by done. apply behaves_lift.
    2: { intros H (l&ls&Ha&_). apply (H (VLims ls)). unfold attr. by rewrite Ha. }
    intros v Hv. unfold attr in Hv. destruct (e !! "CMlimit") as [v'|] eqn:Ev; [|done]. injection Hv as ->. apply behaves_lift.
    2: { intros H (l&ls&Ha&_). injection Ha as ->. by apply (H ls). }
    intros ls Hls. destruct v; try done. injection Hls as ->. apply behaves_lift.
    2: { intros H (l&ls'&Ha&Hl). injection Ha as ->. apply (H l). by apply idx_ok. }
    intros x Hx%idx_ok. destruct x as [y|].
    - eapply behaves_iff; [| |apply (behaves_warn_when _ (neqb y n0 = true)); done].
      + split; [intros _; eauto|done].
      + intros _ x. split; [intros [Hy ->]; split; [eauto|done]|]. intros [(z&(ls'&Ha&Hl)&Hz) ->]. injection Ha as <-. rewrite Hx in Hl. injection Hl as <-. done.
    - eapply behaves_iff; [| |apply behaves_ret].
      + split; [intros _; eauto|done].
      + intros _ x. split; [done|]. intros [(z&(ls'&Ha&Hl)&Hz) _]. injection Ha as <-. congruence.
  Qed.
  Lemma behaves_fields s (m : gmap nat (dict (sigval T))) i e w : RING s !! i = Some e ->
    behaves (fields_checked m i e w) (exists d : dict (sigval T), m !! i = Some d) (fun x => exists f (d : dict (sigval T)) v, m !! i = Some d /\ (f, v) ∈ d /\ ~ present s i f /\ x = w i f).
  Proof.
    intros He. unfold fields_checked. destruct (m !! i) as [d|] eqn:E; [|apply behaves_raise; by intros [? ?]].
    eapply behaves_iff; [| |apply behaves_forM; intros f Hf; apply (behaves_warn_when _ (~ present s i f))].
    - split; [eauto|done].
    - intros _ x. split.
      + intros (f&Hf&Hp&->). apply elem_of_list_fmap in Hf as ([f' v]&->&Hf). exists f', d, v. done.
      + intros (f&d'&v&Hd&Hf&Hp&->). injection Hd as <-. exists f. split; [|done]. apply elem_of_list_fmap. by exists (f, v).
    - rewrite negb_true_iff. rewrite <- (has_present s i e) by done. by rewrite not_true_iff_false.
  Qed.
  Lemma behaves_combined s i e : RING s !! i = Some e ->
    behaves (combined_checked i e) (combined s i -> (exists b, number s i "BendingAngle" = Some b) /\ exists k, entry s i "NomPolynomB" 1 = Some k)
      (fun w => combined s i /\ ((exists x, entry s i "NomPolynomB" 1 = Some x /\ is_zero x /\ w = ZeroGradient i) \/ (exists x, number s i "BendingAngle" = Some x /\ is_zero x /\ w = ZeroAngle i))).
  Proof.
    intros He. unfold combined_checked. destruct (e !! "CombinedFunction") as [v|] eqn:Ev.
    2: { assert (~ combined s i) as Hn by (unfold combined; rewrite (at_elem s i e) by done; rewrite Ev; auto). eapply behaves_iff; [| |apply behaves_ret]; tauto. }
    assert (truth v = true <-> combined s i) as Hv.
    { unfold combined. rewrite (at_elem s i e) by done. rewrite Ev. unfold is_zero. destruct v; simpl; try tauto; rewrite ?negb_true_iff, ?not_true_iff_false; try done. by rewrite Z.eqb_neq. }
    destruct (truth v); [|assert (~ combined s i) as Hn by (intros H; apply Hv in H; done); eapply behaves_iff; [| |apply behaves_ret]; tauto].
    assert (combined s i) as Hc by (by apply Hv). clear Hv.
    unfold number, entry. rewrite !(at_elem s i e) by done. unfold hasattr.
    destruct (e !! "BendingAngle") as [b|] eqn:Eb; [|apply behaves_raise; intros H; destruct (H Hc) as [[? ?] _]; done].
    eapply (behaves_iff _ ((exists k, entry s i "NomPolynomB" 1 = Some k) /\ exists x, b = VNum x) _
      (fun w => (exists x, entry s i "NomPolynomB" 1 = Some x /\ is_zero x /\ w = ZeroGradient i) \/ (exists x, b = VNum x /\ is_zero x /\ w = ZeroAngle i))).
    - unfold entry. rewrite (at_elem s i e) by done. split.
      + intros [H1 [x ->]] _. eauto.
      + intros H. destruct (H Hc) as [[x Hx] Hk]. split; [done|]. destruct b; try done. eauto.
    - intros _ w. unfold entry. rewrite (at_elem s i e) by done. split.
      + intros [H|(x&->&H)]; (split; [done|]); [by left|]. right. eauto.
      + intros [_ [H|(x&Hx&H)]]; [by left|]. right. destruct b; try done. injection Hx as ->. eauto.
    - apply behaves_lift.
      2: { intros H [[k Hk] _]. unfold entry in Hk. rewrite (at_elem s i e) in Hk by done. destruct (e !! "NomPolynomB") as [[]|] eqn:E; try done. apply (H l). by apply attr_vec_ok. }
      intros p Hp%attr_vec_ok. apply behaves_lift.
      2: { intros H [[k Hk] _]. unfold entry in Hk. rewrite (at_elem s i e) in Hk by done. rewrite Hp in Hk. apply (H k). by apply idx_ok. }
      intros k Hk%idx_ok. assert (entry s i "NomPolynomB" 1 = Some k) as Ek by (unfold entry; rewrite (at_elem s i e) by done; by rewrite Hp).
      eapply behaves_iff; [| |apply behaves_bind; [apply (behaves_warn_when _ (is_zero k)); done|]; intros _;
        apply (behaves_lift _ _ (exists x, b = VNum x) (fun w => exists x, b = VNum x /\ is_zero x /\ w = ZeroAngle i))].
      + split; [intros [_ H]; split; [eauto|done]|]. intros [_ H]. done.
      + intros _ w. split; (intros [H|H]; [left|by right]); [destruct H as [H ->]; eauto|]. destruct H as (x&Hx&Hz&->). rewrite Ek in Hx. injection Hx as <-. done.
      + intros x Hx. unfold attr_num, attr in Hx. rewrite Eb in Hx. simpl in Hx. destruct b; try done. injection Hx as ->.
        eapply behaves_iff; [| |apply (behaves_warn_when _ (is_zero x)); done]; [split; [eauto|done]|]. intros _ w. split; [intros [? ->]; eauto|]. intros (y&Hy&?&->). by injection Hy as ->.
      + intros H [x ->]. apply (H x). unfold attr_num, attr. by rewrite Eb.
  Qed.
  Lemma behaves_children s i e : RING s !! i = Some e -> behaves (children_checked s e) (present s i "MasterOf" -> attr_at s i "MasterOf" = Some (VOrds [])) (fun _ => False).
  Proof.
    intros He. unfold children_checked, present. rewrite (at_elem s i e) by done. destruct (e !! "MasterOf") as [v|].
    2: { eapply behaves_iff; [| |apply behaves_ret]; [|done]. split; [intros _ [? ?]; done|done]. }
    apply behaves_lift.
    - intros cs Hcs. destruct v; try done. injection Hcs as ->. destruct cs as [|c cs].
      + eapply behaves_iff; [| |apply behaves_ret]; [|done]. split; done.
      + cbn [forM]. assert (~ ((exists v, Some (VOrds (T:=T) (c :: cs)) = Some v) -> Some (VOrds (T:=T) (c :: cs)) = Some (VOrds []))) as Hn by (intros H; specialize (H ltac:(eauto)); discriminate).
        intros l. unfold bind, lift, raise. destruct (idx (RING s) c) as [x|er]; eexists (Err _), []; rewrite app_nil_r; (split; [done|]); (split; [|done]); (split; [done|]); intros H; by destruct Hn.
    - intros H Hn. specialize (Hn ltac:(eauto)). injection Hn as ->. by apply (H []).
  Qed.
  Lemma behaves_magnet s i : behaves (magnet_checked s i) (magnet_sound s i)
    (fun w => combined s i /\ ((exists x, entry s i "NomPolynomB" 1 = Some x /\ is_zero x /\ w = ZeroGradient i) \/ (exists x, number s i "BendingAngle" = Some x /\ is_zero x /\ w = ZeroAngle i)) \/
       exists f (d : dict (sigval T)) v, sMagnet (SIG s) !! i = Some d /\ (f, v) ∈ d /\ ~ present s i f /\ w = MagnetField i f).
  Proof.
    unfold magnet_checked, magnet_sound. apply behaves_lift.
    2: { intros H ((n&Hn&_)&_). unfold size_at in Hn. destruct (RING s !! i) as [e|] eqn:E; [|by rewrite no_elem in Hn]. apply (H e). by apply idx_ok. }
    intros e He%idx_ok.
    eapply behaves_iff; [| |repeat (apply behaves_bind; [|intros _]);
      [by apply behaves_lengths|by apply behaves_lengths|by apply behaves_lengths|apply behaves_when; [by apply (has_present s i)|by apply behaves_lengths]|by apply behaves_combined|by apply behaves_fields|by apply behaves_children]].
    - done.
    - intros _ w. tauto.
  Qed.
  Lemma behaves_cavity s i : behaves (cavity_checked s i) (exists d : dict (sigval T), sRF (SIG s) !! i = Some d /\ (d <> [] -> (i < length (RING s))%nat))
    (fun w => exists f (d : dict (sigval T)) v, sRF (SIG s) !! i = Some d /\ (f, v) ∈ d /\ ~ present s i f /\ w = CavityField i f).
  Proof.
    unfold cavity_checked. apply behaves_lift; [|intros H (d&Hd&_); apply (H d); by rewrite Hd]. intros d Hd. destruct (sRF (SIG s) !! i) as [d'|]; [|done]. injection Hd as ->.
    eapply behaves_iff; [| |apply (behaves_forM _ _ (fun _ => (i < length (RING s))%nat) (fun f w => ~ present s i f /\ w = CavityField i f))].
    - split.
      + intros H. exists d. split; [done|]. intros Hd. destruct d as [|[f v] d]; [done|]. apply (H f). left.
      + intros (d'&Hd&H) f Hf. injection Hd as <-. apply H. intros ->. inversion Hf.
    - intros _ w. split.
      + intros (f&Hf&Hp&->). apply elem_of_list_fmap in Hf as ([f' v]&->&Hf). exists f', d, v. done.
      + intros (f&d'&v&Hd&Hf&Hp&->). injection Hd as <-. exists f. split; [|done]. apply elem_of_list_fmap. by exists (f, v).
    - intros f _. apply behaves_lift.
      + intros e He%idx_ok. eapply behaves_iff; [| |apply (behaves_warn_when _ (~ present s i f))]; [split; [intros _; by eapply lookup_lt_Some|done]|done|].
        rewrite negb_true_iff. rewrite <- (has_present s i e) by done. by rewrite not_true_iff_false.
      + intros H Hi. apply lookup_lt_is_Some in Hi as [e He]. apply (H e). by apply idx_ok.
  Qed.
  Lemma girder_iff s : negb ((length (oGirder (ORD s)) =? 0)%nat && negb ((length (oPlinth (ORD s)) =? 0)%nat && (length (oSection (ORD s)) =? 0)%nat)) = true <->
    (oGirder (ORD s) = [] -> oPlinth (ORD s) = [] /\ oSection (ORD s) = []).
  Proof.
    rewrite negb_true_iff, andb_false_iff, negb_false_iff, andb_true_iff, !zero_length, <- not_true_iff_false, zero_length. split; [tauto|].
    intros H. destruct (oGirder (ORD s)); [right; auto|by left].
  Qed.
  Lemma shape_iff n m (a : list (list T)) : is_shape n m a = true <-> length a = n /\ forall r, r ∈ a -> length r = m.
  Proof.
    unfold is_shape. rewrite andb_true_iff, Nat.eqb_eq, forallb_forall. split; intros [H1 H2]; (split; [done|]); intros r Hr.
    - apply Nat.eqb_eq, H2. by apply elem_of_list_In.
    - apply Nat.eqb_eq, H2. by apply elem_of_list_In.
  Qed.
  Lemma behaves_apertures s : behaves (forM (imap pair (RING s)) both_checked) True (fun w => exists i, present s i "EApertures" /\ present s i "RApertures" /\ w = BothApertures i).
  Proof.
    eapply behaves_iff; [| |apply (behaves_forM _ _ (fun _ => True) (fun p w => (hasattr p.2 "EApertures" = true /\ hasattr p.2 "RApertures" = true) /\ w = BothApertures p.1))].
    - done.
    - intros _ w. split.
      + intros ([i e]&Hp&[H1 H2]&->). apply elem_of_lookup_imap in Hp as (j&e'&[= -> ->]&He). exists j. simpl in *. split; [by apply (has_present s j e')|]. split; [by apply (has_present s j e')|done].
      + intros (i&H1&H2&->). destruct (RING s !! i) as [e|] eqn:E; [|destruct H1 as [v Hv]; by rewrite no_elem in Hv].
        exists (i, e). split; [apply elem_of_lookup_imap; eauto|]. simpl. split; [|done]. split; by apply (has_present s i e).
    - intros p _. apply behaves_warn_when. by rewrite andb_true_iff.
  Qed.
  Lemma none_iff s : negb (existsb aperture (RING s)) = true <-> forall i, ~ present s i "EApertures" /\ ~ present s i "RApertures".
  Proof.
    rewrite negb_true_iff, <- not_true_iff_false, existsb_exists. split.
    - intros H i. split; intros Hp; apply H; (destruct (RING s !! i) as [e|] eqn:E; [|destruct Hp as [v Hv]; by rewrite no_elem in Hv]); exists e; (split; [by eapply elem_of_list_In, elem_of_list_lookup_2|]);
        unfold aperture; apply orb_true_iff; [left|right]; by apply (has_present s i e).
    - intros H (e&He&Ha). apply elem_of_list_In, elem_of_list_lookup in He as [i Hi]. destruct (H i) as [H1 H2]. unfold aperture in Ha. apply orb_true_iff in Ha as [Ha|Ha]; [apply H1|apply H2]; by apply (has_present s i e).
  Qed.
  Lemma behaves_swap (b : bool) (e : exn) (P : Prop) : (negb b = true <-> P) -> behaves (if b then raise e else ret tt) P (fun _ => False).
  Proof. intros H. destruct b; [apply behaves_raise; intros HP; by apply H in HP|]. eapply behaves_iff; [| |apply behaves_ret]; tauto. Qed.
  Lemma behaves_all s : behaves (verify_structure s) (sound s) (deserved s).
  Proof.
    unfold verify_structure.
    eapply behaves_iff; [| |
      apply behaves_bind; [apply behaves_count|intros _];
      apply behaves_bind; [apply behaves_swap, girder_iff|intros _];
      apply behaves_bind; [apply behaves_count|intros _]; apply behaves_bind; [apply behaves_count|intros _];
      apply behaves_bind; [apply behaves_forM; intros i _; apply behaves_limit|intros _];
      apply behaves_bind; [apply behaves_forM; intros i _; apply behaves_limit|intros _];
      apply behaves_bind; [apply behaves_forM; intros i _; apply behaves_magnet|intros _];
      apply behaves_bind; [apply behaves_warn_when, zero_length|intros _];
      apply behaves_bind; [apply behaves_warn_when, unique_length|intros _];
      apply behaves_bind; [apply behaves_forM; intros i _; apply behaves_cavity|intros _];
      apply behaves_bind; [apply behaves_if, shape_iff|intros _];
      apply behaves_bind; [apply behaves_if, Nat.eqb_eq|intros _];
      apply behaves_bind; [apply behaves_if, Nat.eqb_eq|intros _];
      apply behaves_bind; [apply behaves_apertures|intros _]; apply behaves_warn_when, none_iff].
    - unfold sound. tauto.
    - intros _ w. split.
      + intros [[[? ->]|[? ->]]|[[]|[[[? ->]|[? ->]]|[[[? ->]|[? ->]]|[(i&Hi&H&->)|[(i&Hi&H&->)|[(i&Hi&H)|[[? ->]|[[? ->]|[(i&Hi&f&d&v&H1&H2&H3&->)|[[]|[[]|[[]|[(i&H1&H2&->)|[? ->]]]]]]]]]]]]]]]; try (cbn; eauto 10; fail).
        destruct H as [[Hc [(x&Hx&Hz&->)|(x&Hx&Hz&->)]]|(f&d&v&H1&H2&H3&->)]; cbn; eauto 10.
      + destruct w; cbn [deserved]; intros H; repeat match type of H with _ /\ _ => destruct H as [? H] | ex _ => destruct H as [? H] end;
          repeat match goal with K : ex _ |- _ => destruct K as [? K] | K : _ /\ _ |- _ => destruct K end;
          pick.
  Qed.
  (** * Theorems *)
  (** The check accepts exactly the sound machines... *)
  Theorem C83_accepts s : fst (verify_structure s []) = Ok tt <-> sound s.
  Proof. destruct (behaves_all s []) as (r&l&E&H&_). by rewrite E. Qed.
  (** ... and then has logged exactly the deserved warnings. *)
  Theorem C83_warnings s l : verify_structure s [] = (Ok tt, l) -> forall w, w ∈ l <-> deserved s w.
  Proof. intros H. destruct (behaves_all s []) as (r&l'&E&_&H'). rewrite H in E. injection E as <- ->. by apply H'. Qed.
End Proofs.

(** ** Refusals *)
Section Refusals.
  Context {T : Type} {N : Num T}.
  Implicit Types (s : sc T).
  (** Plinths or sections without a girder: ValueError, before correctors and magnets are looked at. *)
  Theorem C83_girder_required s : oGirder (ORD s) = [] -> oPlinth (ORD s) <> [] \/ oSection (ORD s) <> [] -> fst (verify_structure s []) = Err ValueError.
  Proof.
    intros Hg Hps. unfold verify_structure. destruct (behaves_count (oBPM (ORD s)) NoBpm BpmTwice []) as (r&l&E&H&_). apply proj2 in H. rewrite H in E by done.
    unfold bind at 1. rewrite E. rewrite Hg. cbn [length Nat.eqb andb].
    assert (negb ((length (oPlinth (ORD s)) =? 0)%nat && (length (oSection (ORD s)) =? 0)%nat) = true) as ->; [|done].
    apply negb_true_iff, not_true_iff_false. rewrite andb_true_iff, !zero_length. tauto.
  Qed.
  (** Magnets registered with children are never accepted (finding): the loop over the fields of a child cannot run. *)
  Theorem C83_finding_split_magnets s m i : m ∈ oMagnet (ORD s) -> child_of s i m -> fst (verify_structure s []) <> Ok tt.
  Proof.
    intros Hm (l&Hl&Hi) H. apply C83_accepts in H as (_&_&_&H&_). destruct (H m Hm) as (_&_&_&_&_&_&Hc). rewrite Hc in Hl by (by eexists). injection Hl as <-. inversion Hi.
  Qed.
  (** A calibration error given as a number is refused. *)
  Theorem C83_scalar_calibration s i x : i ∈ oMagnet (ORD s) -> number s i "CalErrorA" = Some x \/ number s i "CalErrorB" = Some x -> fst (verify_structure s []) <> Ok tt.
  Proof.
    intros Hi Hx H. apply C83_accepts in H as (_&_&_&H&_). destruct (H i Hi) as (_&(n&_&Hb)&(m&_&Ha)&_). unfold number in Hx. unfold size_at in Ha, Hb.
    destruct Hx as [Hx|Hx]; [destruct (attr_at s i "CalErrorA") as [[]|]|destruct (attr_at s i "CalErrorB") as [[]|]]; done.
  Qed.
  (** A combined-function magnet needs a bending angle and a design gradient. *)
  Theorem C83_combined_function s i : i ∈ oMagnet (ORD s) -> combined s i -> number s i "BendingAngle" = None \/ entry s i "NomPolynomB" 1 = None -> fst (verify_structure s []) <> Ok tt.
  Proof.
    intros Hi Hc Hn H. apply C83_accepts in H as (_&_&_&H&_). destruct (H i Hi) as (_&_&_&_&Hx&_). destruct (Hx Hc) as [[b Hb] [k Hk]]. destruct Hn; congruence.
  Qed.
  (** The warnings about lists with repeated entries are never given, whatever was registered. *)
  Lemma sorted_nodup (l : list nat) : StronglySorted lt l -> NoDup l.
  Proof. induction 1 as [|x l Hs IH Hf]; constructor; [|done]. intros Hx. rewrite Forall_forall in Hf. apply Hf in Hx. lia. Qed.
  Theorem C83_never_twice {Tr : Trig T} minv ring rng (ops : list (op T)) l w :
    verify_structure (run minv ops (init_sc ring rng)) [] = (Ok tt, l) -> w ∈ [BpmTwice; HcmTwice; VcmTwice; CavityTwice] -> w ∉ l.
  Proof.
    intros H Hw Hl. rewrite (C83_warnings _ _ H) in Hl. destruct (C01_ordinates_sorted_union minv ring rng ops) as ([A _]&[B _]&_&_&[C _]&[D _]).
    apply sorted_nodup in A, B, C, D. rewrite !elem_of_cons, elem_of_nil in Hw. destruct Hw as [->|[->|[->|[->|[]]]]]; by apply Hl.
  Qed.
End Refusals.

(** ** Machines set up by registration *)
Section Registered.
  Context {T : Type} {N : Num T} {Tr : Trig T} (minv : list (list T) -> res (list (list T))).
  (** elements of the bare lattice: no marks, both polynomials of equal length *)
  Definition bare (e : elem T) : Prop :=
    e !! "CombinedFunction" = None /\ e !! "MasterOf" = None /\ e !! "PolynomBOffset" = None /\ e !! "CMlimit" = None /\
    forall a b, e !! "PolynomA" = Some (VVec a) -> e !! "PolynomB" = Some (VVec b) -> length a = length b.
  (** calls of registration, magnets neither split nor of combined function *)
  Definition registers (o : op T) : Prop :=
    match o with OpBPM _ _ | OpRF _ _ | OpSupport _ _ _ => True | OpMagnet _ _ k => kCF k = false /\ kMasterOf k = None | _ => False end.
  Fixpoint all_return (ops : list (op T)) (s : sc T) : Prop :=
    match ops with [] => True | o :: ops' => fst (call minv o s) = Ok tt /\ all_return ops' (snd (call minv o s)) end.
  (** proof: invariants of the elements *)
  Definition plain (e : elem T) : Prop :=
    e !! "CombinedFunction" = None /\ e !! "MasterOf" = None /\ e !! "PolynomBOffset" = None /\ (forall v, e !! "CMlimit" = Some v -> exists a b, v = VLims [a; b]) /\
    forall a b, e !! "PolynomA" = Some (VVec a) -> e !! "PolynomB" = Some (VVec b) -> length a = length b.
  Definition regd (e : elem T) : Prop := exists a b sa sb ca cb, e !! "PolynomA" = Some (VVec a) /\ e !! "PolynomB" = Some (VVec b) /\ e !! "SetPointA" = Some (VVec sa) /\ e !! "SetPointB" = Some (VVec sb) /\
    e !! "CalErrorA" = Some (VVec ca) /\ e !! "CalErrorB" = Some (VVec cb) /\ length sa = length ca /\ length sb = length cb.
  Definition limd (e : elem T) : Prop := exists a b, e !! "CMlimit" = Some (VLims [a; b]).
  Definition egrow (e e' : elem T) : Prop := plain e -> plain e' /\ (regd e -> regd e') /\ (limd e -> limd e').
  #[local] Instance egrow_pre : PreOrder egrow.
  Proof. split; [intros e H; auto|]. intros a b c H1 H2 H. destruct (H1 H) as (A&B&C). destruct (H2 A) as (D&E&F). auto. Qed.
  Definition good (s : sc T) : Prop := forall i e, RING s !! i = Some e -> plain e.
  Definition grow (s s' : sc T) : Prop := good s -> good s' /\ length (RING s') = length (RING s) /\ INJ s' = INJ s /\ sRandZ (SIG s') = sRandZ (SIG s) /\ sStatZ (SIG s') = sStatZ (SIG s) /\
    (forall i e, RING s !! i = Some e -> exists e', RING s' !! i = Some e' /\ (regd e -> regd e') /\ (limd e -> limd e')) /\
    (forall i, is_Some (sMagnet (SIG s) !! i) -> is_Some (sMagnet (SIG s') !! i)) /\ (forall i, is_Some (sRF (SIG s) !! i) -> is_Some (sRF (SIG s') !! i)).
  #[local] Instance grow_pre : PreOrder grow.
  Proof.
    split; [intros s H; repeat (split; [done|]); split; [intros i e He; exists e; auto|]; auto|]. intros a b c G1 G2 G0. destruct (G1 G0) as (A1&A2&A3&A4&A5&A6&A7&A8). destruct (G2 A1) as (B1&B2&B3&B4&B5&B6&B7&B8).
    split; [done|]. do 4 (split; [congruence|]). split; [|split; auto]. intros i e He. destruct (A6 i e He) as (e1&He1&?&?). destruct (B6 i e1 He1) as (e2&He2&?&?). eauto 10.
  Qed.
  Lemma grow_on_elem {A} i (m : M (elem T) A) : pres egrow m -> pres grow (on_elem i m).
  Proof.
    intros Hm s Hg. unfold on_elem. destruct (RING s !! i) as [e|] eqn:E; [|by apply (reflexivity (R:=grow))]. specialize (Hm e). destruct (m e) as [r e']. cbn [snd] in *.
    destruct (Hm (Hg i e E)) as (P&Q&L). simpl. split.
    { intros j x Hx. simpl in Hx. destruct (decide (i = j)) as [->|Hne]; [rewrite list_lookup_insert in Hx by (by eapply lookup_lt_Some); by injection Hx as <-|]. rewrite list_lookup_insert_ne in Hx by done. by apply (Hg j). }
    split; [by rewrite insert_length|]. do 3 (split; [done|]). split; [|done].
    intros j x Hx. destruct (decide (i = j)) as [->|Hne]; [rewrite list_lookup_insert by (by eapply lookup_lt_Some); rewrite E in Hx; injection Hx as <-; eauto|]. rewrite list_lookup_insert_ne by done. eauto.
  Qed.
  Definition inner (a : string) : Prop := a ∈ ["CombinedFunction"; "MasterOf"; "PolynomBOffset"; "CMlimit"; "PolynomA"; "PolynomB"; "SetPointA"; "SetPointB"; "CalErrorA"; "CalErrorB"].
  Lemma egrow_agree (e e' : elem T) : (forall a, inner a -> e' !! a = e !! a) -> egrow e e'.
  Proof.
    intros H (A1&A2&A3&A4&A5). unfold plain, regd, limd. assert (forall a, bool_decide (inner a) = true -> e' !! a = e !! a) as G by (intros a Ha; apply H; by apply bool_decide_eq_true in Ha).
    rewrite !G by done. repeat split; auto.
  Qed.
  Lemma egrow_setattr a (v : val T) : bool_decide (inner a) = false -> pres egrow (setattr a v).
  Proof. intros Ha e. apply egrow_agree. intros b Hb. simpl. apply lookup_insert_ne. intros ->. apply bool_decide_eq_false in Ha. done. Qed.
  Ltac est := repeat first [pres_step|apply egrow_setattr; reflexivity].
  Lemma egrow_bpm : pres egrow bpm_init.
  Proof. unfold bpm_init. est. Qed.
  Lemma egrow_rf : pres egrow rf_init.
  Proof. unfold rf_init, RF_PROPERTIES. cbn [forM]. est. Qed.
  Lemma egrow_support t : pres egrow (setattr (stype_str t +:+ "Offset") (VVec (zeros 3)) ;;; setattr (stype_str t +:+ "Roll") (VVec (zeros 3))).
  Proof. destruct t; est. Qed.
  (** what magnet_init leaves of the attributes looked at *)
  Lemma magnet_init_run e : magnet_init e =
    match attr_vec e "PolynomA" with
    | Err x => (Err x, e)
    | Ok pa =>
        match attr_vec e "PolynomB" with
        | Err x => (Err x, snd (magnet_init e))
        | Ok pb => (Ok tt, snd (magnet_init e))
        end
    end.
  Proof.
    unfold magnet_init. rewrite run_getm. destruct (attr_vec e "PolynomA") as [pa|x]; [|done]. rewrite !run_setattr, run_getm.
    assert (forall v1 v2 v3, attr_vec (<["CalErrorA" := v1]> (<["SetPointA" := v2]> (<["NomPolynomA" := v3]> e))) "PolynomB" = attr_vec e "PolynomB") as ->.
    { intros. unfold attr_vec, attr. rewrite !lookup_insert_ne by done. done. }
    destruct (attr_vec e "PolynomB") as [pb|x]; done.
  Qed.
  Lemma magnet_init_kept e a : bool_decide (a ∈ ["CombinedFunction"; "MasterOf"; "PolynomBOffset"; "CMlimit"; "PolynomA"; "PolynomB"]) = true -> snd (magnet_init e) !! a = e !! a.
  Proof.
    intros Ha%bool_decide_eq_true. assert (pres (fun e e' : elem T => e' !! a = e !! a) magnet_init) as H; [|apply H].
    assert (forall k v, bool_decide (k ∈ ["CombinedFunction"; "MasterOf"; "PolynomBOffset"; "CMlimit"; "PolynomA"; "PolynomB"]) = false -> pres (fun e e' : elem T => e' !! a = e !! a) (setattr k v)) as Hk.
    { intros k v Hk%bool_decide_eq_false x. simpl. apply lookup_insert_ne. by intros ->. }
    assert (PreOrder (fun e e' : elem T => e' !! a = e !! a)) as HP by (split; [done|intros ? ? ? ? ?; congruence]).
    unfold magnet_init. repeat first [pres_step|apply Hk; reflexivity].
  Qed.
  Lemma magnet_init_regd e e' : magnet_init e = (Ok tt, e') -> regd e'.
  Proof.
    intros H. assert (exists pa pb, e !! "PolynomA" = Some (VVec pa) /\ e !! "PolynomB" = Some (VVec pb)) as (pa&pb&Ha&Hb).
    { rewrite magnet_init_run in H. destruct (attr_vec e "PolynomA") as [pa|] eqn:E1; [|done]. destruct (attr_vec e "PolynomB") as [pb|] eqn:E2; [|done]. apply attr_vec_ok in E1, E2. eauto. }
    pose proof (magnet_init_kept e "PolynomA" eq_refl) as KA. pose proof (magnet_init_kept e "PolynomB" eq_refl) as KB. rewrite H in KA, KB. cbn [snd] in KA, KB.
    exists pa, pb, (zip_with nadd (zeros (length pa)) pa), (zip_with nadd (zeros (length pb)) pb), (zeros (length pa)), (zeros (length pb)).
    split; [congruence|]. split; [congruence|]. clear KA KB. unfold magnet_init in H. rewrite run_getm in H. apply attr_vec_ok in Ha, Hb. rewrite Ha, !run_setattr, run_getm in H.
    match type of H with context [attr_vec ?x "PolynomB"] => assert (attr_vec x "PolynomB" = Ok pb) as E by (unfold attr_vec, attr in *; rewrite !lookup_insert_ne by done; done) end.
    rewrite E, !run_setattr in H. apply setattr_ok in H as ->.
    do 4 (split; [repeat first [rewrite lookup_insert_ne by done]; apply lookup_insert|]).
    unfold zeros. rewrite !zip_with_length, !replicate_length. split; lia.
  Qed.
  Lemma egrow_magnet_init : pres egrow magnet_init.
  Proof.
    intros e (A1&A2&A3&A4&A5). split; [|split].
    - unfold plain. rewrite !magnet_init_kept by done. auto.
    - intros (a&b&sa&sb&ca&cb&Ha&Hb&_). apply (magnet_init_regd e). rewrite (surjective_pairing (magnet_init e)). f_equal. rewrite magnet_init_run. apply attr_vec_ok in Ha, Hb. by rewrite Ha, Hb.
    - unfold limd. by rewrite magnet_init_kept.
  Qed.
  Lemma egrow_cmlimit l1 l2 : pres egrow (setattr "CMlimit" (VLims [l1; l2])).
  Proof.
    intros e (A1&A2&A3&A4&A5). unfold setattr, modify, plain, regd, limd. cbn [snd]. rewrite !lookup_insert, !(lookup_insert_ne e) by done.
    split; [|split; eauto]. repeat (split; [done|]). split; [|done]. intros v [= <-]. eauto.
  Qed.
  Definition set_limit (n : nat) (l : lim T) : M (elem T) unit :=
    let! v := getm (fun e => attr e "CMlimit") in let! ls := lift (as_lims v) in let! ls' := lift (idx_set ls n l) in setattr "CMlimit" (VLims ls').
  Lemma egrow_set_limit n l : pres egrow (set_limit n l).
  Proof.
    intros e He. unfold set_limit. rewrite run_getm. unfold attr. destruct (e !! "CMlimit") as [v|] eqn:E; [|by apply (reflexivity (R:=egrow))].
    destruct He as (A1&A2&A3&A4&A5). destruct (A4 v E) as (a&b&->). unfold bind at 1, lift at 1. cbn [as_lims].
    destruct n as [|[|n]]; [apply (egrow_cmlimit l b); by split_and!|apply (egrow_cmlimit a l); by split_and!|]. apply (reflexivity (R:=egrow)). by split_and!.
  Qed.
  Lemma set_limit_limd n l e u e' : plain e -> set_limit n l e = (Ok u, e') -> limd e'.
  Proof.
    intros (A1&A2&A3&A4&A5). unfold set_limit. rewrite run_getm. unfold attr. destruct (e !! "CMlimit") as [v|] eqn:E; [|done]. destruct (A4 v eq_refl) as (a&b&->). unfold bind at 1, lift at 1. cbn [as_lims].
    destruct n as [|[|n]]; [| |done]; intros [= _ <-]; unfold limd; rewrite lookup_insert; eauto.
  Qed.
  Lemma egrow_optional i ords k : kCF k = false -> kMasterOf k = None -> pres egrow (optional_magnet_fields i ords k).
  Proof.
    intros H1 H2. unfold optional_magnet_fields. rewrite H1, H2. unfold when at 1. destruct (kHCM k) as [l|]; [fold (set_limit 0 l)|]; (destruct (kVCM k) as [l'|]; [fold (set_limit 1 l')|]); destruct (kSkewQuad k);
      repeat first [apply egrow_cmlimit|apply egrow_set_limit|apply egrow_setattr; reflexivity|pres_step].
  Qed.
  Lemma optional_limd i ords k e e' : kCF k = false -> kMasterOf k = None -> isSome (kHCM k) || isSome (kVCM k) = true -> plain e -> optional_magnet_fields i ords k e = (Ok tt, e') -> limd e'.
  Proof.
    intros H1 H2 H3 Hp. unfold optional_magnet_fields. rewrite H1, H2, H3. unfold when at 1. intros H. apply bind_ok in H as (?&e1&R1&H). apply bind_ok in H as (?&e2&R2&H). apply bind_ok in H as (?&e3&R3&H). apply bind_ok in H as (?&e4&R4&H). apply bind_ok in H as (?&e5&R5&H).
    apply ret_ok in R1 as [_ ->]. apply ret_ok in H as [_ ->]. rewrite run_getm in R2.
    assert (plain e2) as P2.
    { cbn [negb] in R2. destruct (hasattr e "CMlimit"); cbn in R2; [injection R2 as <- <-; done|]. injection R2 as <- <-. apply (egrow_cmlimit (Fin n0) (Fin n0) e Hp). }
    assert (limd e4 -> limd e5) as G5.
    { destruct (kSkewQuad k); [|apply ret_ok in R5 as [_ ->]; done]. apply setattr_ok in R5 as ->. unfold limd. by rewrite lookup_insert_ne. }
    apply G5. destruct (kHCM k) as [l|].
    - fold (set_limit 0 l) in R3. pose proof (set_limit_limd _ _ _ _ _ P2 R3) as L3. destruct (kVCM k) as [l'|]; [|apply ret_ok in R4 as [_ ->]; done].
      fold (set_limit 1 l') in R4. eapply (set_limit_limd 1 l' e3 _ e4); [|done]. pose proof (egrow_set_limit 0 l e2 P2) as G. rewrite R3 in G. apply G.
    - apply ret_ok in R3 as [_ ->]. destruct (kVCM k) as [l'|]; [|done]. by eapply (set_limit_limd 1 l' e2 _ e4).
  Qed.
  (** the calls *)
  Lemma grow_ord f : pres grow (mod_ORD f).
  Proof. apply pres_modify. intros s. exact (reflexivity (R:=grow) s). Qed.
  Lemma grow_sig f : (forall g : sig T, sRandZ (f g) = sRandZ g /\ sStatZ (f g) = sStatZ g /\ (forall i, is_Some (sMagnet g !! i) -> is_Some (sMagnet (f g) !! i)) /\ (forall i, is_Some (sRF g !! i) -> is_Some (sRF (f g) !! i))) -> pres grow (mod_SIG f).
  Proof.
    intros Hf. apply pres_modify. intros s Hg. destruct (Hf (SIG s)) as (A&B&C&D). simpl. split; [done|]. split; [done|]. split; [done|]. split; [done|]. split; [done|]. split; [intros i e He; eauto|]. auto.
  Qed.
  Lemma sig_update_some (m : gmap nat (dict (sigval T))) i kw j : is_Some (m !! j) -> is_Some (sig_update m i kw !! j).
  Proof. unfold sig_update. intros H. destruct (decide (i = j)) as [->|]; [rewrite lookup_insert; eauto|by rewrite lookup_insert_ne]. Qed.
  Lemma grow_check {A} (kw : dict A) l : pres grow (check_kwargs kw l).
  Proof. unfold check_kwargs. repeat pres_step. Qed.
  Ltac gst := repeat first [apply grow_check|apply grow_ord|apply grow_sig; intros; split; [done|split; [done|split; [done|try done]]]|apply grow_on_elem|pres_step].
  Definition magnet_loop_body (ords : list nat) errs (k : magtype T) (ind : nat) : M (sc T) unit :=
    mod_SIG (fun g => set_sMagnet (sig_update (sMagnet g) ind errs) g) ;;; on_elem ind magnet_init ;;; on_elem ind (optional_magnet_fields ind ords k).
  Definition rf_loop_body (kw : dict (sigval T)) (ind : nat) : M (sc T) unit :=
    mod_SIG (fun g => set_sRF (sig_update (sRF g) ind kw) g) ;;; on_elem ind rf_init.
  Lemma grow_magnet_body ords errs k i : kCF k = false -> kMasterOf k = None -> pres grow (magnet_loop_body ords errs k i).
  Proof.
    intros H1 H2. unfold magnet_loop_body. apply pres_bind; [exact _| |intros _; apply pres_bind; [exact _| |intros _]].
    - apply grow_sig. intros g. split; [done|]. split; [done|]. split; [|done]. intros j. apply sig_update_some.
    - apply grow_on_elem, egrow_magnet_init.
    - by apply grow_on_elem, egrow_optional.
  Qed.
  Lemma grow_rf_body kw i : pres grow (rf_loop_body kw i).
  Proof.
    unfold rf_loop_body. apply pres_bind; [exact _| |intros _].
    - apply grow_sig. intros g. split; [done|]. split; [done|]. split; [done|]. intros j. apply sig_update_some.
    - apply grow_on_elem, egrow_rf.
  Qed.
  Lemma grow_registers o : registers o -> pres grow (call minv o).
  Proof.
    destruct o; try done; simpl.
    - intros _. unfold register_bpms. apply pres_bind; [exact _|apply grow_check|intros _]. apply pres_bind; [exact _|apply grow_ord|intros _]. apply pres_forM; [exact _|]. intros i _.
      apply pres_bind; [exact _| |intros _; apply grow_on_elem, egrow_bpm]. apply grow_sig. done.
    - intros _. unfold register_cavities. apply pres_bind; [exact _|apply grow_check|intros _]. apply pres_bind; [exact _|apply grow_ord|intros _]. apply pres_forM; [exact _|]. intros i _. apply grow_rf_body.
    - intros [H1 H2]. unfold register_magnets. apply pres_bind; [exact _|apply grow_check|intros _]. apply pres_bind; [exact _|apply grow_ord|intros _].
      do 3 (apply pres_bind; [exact _|apply pres_when; [exact _|apply grow_ord]|intros _]). apply pres_forM; [exact _|]. intros i _. by apply grow_magnet_body.
    - intros _. unfold register_supports. destruct (stype_of t) as [st|]; [|pres_step]. apply pres_bind; [exact _|apply grow_check|intros _].
      destruct rows as [|a [|b [|]]]; [pres_step|pres_step| |pres_step]. destruct (negb _); [pres_step|]. cbv zeta. apply pres_bind; [exact _|apply grow_ord|intros _].
      repeat first [apply grow_on_elem, egrow_support|apply grow_sig; done|pres_step].
  Qed.
  (** every pass of a loop leaves what the calls before have established *)
  Lemma forM_post {A} (l : list A) (f : A -> M (sc T) unit) (Q : A -> sc T -> Prop) s s' :
    (forall x, pres grow (f x)) -> (forall x t t', good t -> f x t = (Ok tt, t') -> Q x t') -> (forall x t t', good t -> grow t t' -> Q x t -> Q x t') ->
    good s -> forM l f s = (Ok tt, s') -> forall x, x ∈ l -> Q x s'.
  Proof.
    intros Hp HQ Hk. revert s. induction l as [|y l IH]; intros s Hg H x Hx; [inversion Hx|]. cbn [forM] in H. apply bind_ok in H as (u&s1&R1&R2). destruct u.
    pose proof (Hp y s) as G1. rewrite R1 in G1. cbn [snd] in G1. destruct (G1 Hg) as (Hg1&_). apply elem_of_cons in Hx as [->|Hx]; [|by apply (IH s1)].
    pose proof (pres_forM grow l f (fun z _ => Hp z) s1) as G2. rewrite R2 in G2. apply (Hk y s1); [done|exact G2|]. by apply (HQ y s).
  Qed.
  Definition magnet_there (lims : bool) (i : nat) (s : sc T) : Prop := (exists e, RING s !! i = Some e /\ regd e /\ (lims = true -> limd e)) /\ is_Some (sMagnet (SIG s) !! i).
  Definition cavity_there (i : nat) (s : sc T) : Prop := (i < length (RING s))%nat /\ is_Some (sRF (SIG s) !! i).
  Lemma magnet_there_grow b i s s' : good s -> grow s s' -> magnet_there b i s -> magnet_there b i s'.
  Proof.
    intros Hg G [(e&He&Hr&Hl) Hs]. destruct (G Hg) as (_&_&_&_&_&GE&GM&_). split; [|auto]. destruct (GE i e He) as (e'&He'&R'&L'). exists e'. auto.
  Qed.
  Lemma cavity_there_grow i s s' : good s -> grow s s' -> cavity_there i s -> cavity_there i s'.
  Proof. intros Hg G [Hl Hs]. destruct (G Hg) as (_&GL&_&_&_&_&_&GR). split; [lia|auto]. Qed.
  Lemma magnet_body_there ords errs k i s s' : kCF k = false -> kMasterOf k = None -> good s -> magnet_loop_body ords errs k i s = (Ok tt, s') -> magnet_there (isSome (kHCM k) || isSome (kVCM k)) i s'.
  Proof.
    intros H1 H2 Hg H. unfold magnet_loop_body in H. apply bind_ok in H as (u1&s1&R1&H). apply bind_ok in H as (u2&s2&R2&H). destruct u2. apply modify_ok in R1 as ->.
    apply on_elem_ok in R2 as (e&e1&He&R2&->). apply on_elem_ok in H as (e1'&e2&He1&R3&->). simpl in He, He1. pose proof (lookup_lt_Some _ _ _ He) as Hi. rewrite list_lookup_insert in He1 by done. injection He1 as <-.
    pose proof (Hg i e He) as P0. pose proof (egrow_magnet_init e P0) as (P1&_). rewrite R2 in P1. cbn [snd] in P1.
    pose proof (egrow_optional i ords k H1 H2 e1 P1) as (P2&G2&_). rewrite R3 in P2, G2. cbn [snd] in P2, G2. split.
    - exists e2. simpl. rewrite list_lookup_insert by (by rewrite insert_length). split; [done|]. split; [apply G2; by apply (magnet_init_regd e)|]. intros Hb. by apply (optional_limd i ords k e1).
    - simpl. unfold sig_update. rewrite lookup_insert. eauto.
  Qed.
  Lemma rf_body_there kw i s s' : rf_loop_body kw i s = (Ok tt, s') -> cavity_there i s'.
  Proof.
    intros H. unfold rf_loop_body in H. apply bind_ok in H as (u1&s1&R1&H). apply modify_ok in R1 as ->. apply on_elem_ok in H as (e&e1&He&R2&->). simpl in He. split; simpl.
    - rewrite insert_length. by eapply lookup_lt_Some.
    - unfold sig_update. rewrite lookup_insert. eauto.
  Qed.
  (** what holds after any registrations that returned *)
  Definition set_up (s : sc T) : Prop :=
    good s /\ (forall i, i ∈ oMagnet (ORD s) -> magnet_there false i s) /\ (forall i, i ∈ oHCM (ORD s) \/ i ∈ oVCM (ORD s) -> magnet_there true i s) /\ (forall i, i ∈ oRF (ORD s) -> cavity_there i s) /\
    beamSize (INJ s) = replicate 6 (zeros 6) /\ length (sRandZ (SIG s)) = 6%nat /\ length (sStatZ (SIG s)) = 6%nat.
  Lemma add_if_elem b l ords i : i ∈ add_if b l ords <-> i ∈ l \/ (b = true /\ i ∈ ords).
  Proof. destruct b; simpl; [rewrite unique_elem, elem_of_app; tauto|]. split; [auto|]. intros [?|[? _]]; done. Qed.
  Lemma set_up_call o s : registers o -> set_up s -> fst (call minv o s) = Ok tt -> set_up (snd (call minv o s)).
  Proof.
    intros Hr (I1&I2&I3&I4&I5&I6&I7) Hok. pose proof (grow_registers o Hr s) as G. pose proof (call_ord minv o s) as EO.
    destruct (G I1) as (G1&G2&G3&G4&G5&_).
    assert (set_up (snd (call minv o s)) <-> (forall i, i ∈ oMagnet (ord_effect o (ORD s)) -> magnet_there false i (snd (call minv o s))) /\
      (forall i, i ∈ oHCM (ord_effect o (ORD s)) \/ i ∈ oVCM (ord_effect o (ORD s)) -> magnet_there true i (snd (call minv o s))) /\ (forall i, i ∈ oRF (ord_effect o (ORD s)) -> cavity_there i (snd (call minv o s)))) as ->.
    { unfold set_up. rewrite EO, G3, G4, G5. tauto. }
    assert (oMagnet (ord_effect o (ORD s)) = oMagnet (ORD s) -> forall i, i ∈ oMagnet (ord_effect o (ORD s)) -> magnet_there false i (snd (call minv o s))) as K2.
    { intros -> i Hi. apply (magnet_there_grow false i s); auto. }
    assert (oHCM (ord_effect o (ORD s)) = oHCM (ORD s) -> oVCM (ord_effect o (ORD s)) = oVCM (ORD s) -> forall i, i ∈ oHCM (ord_effect o (ORD s)) \/ i ∈ oVCM (ord_effect o (ORD s)) -> magnet_there true i (snd (call minv o s))) as K3.
    { intros -> -> i Hi. apply (magnet_there_grow true i s); auto. }
    assert (oRF (ord_effect o (ORD s)) = oRF (ORD s) -> forall i, i ∈ oRF (ord_effect o (ORD s)) -> cavity_there i (snd (call minv o s))) as K4.
    { intros -> i Hi. apply (cavity_there_grow i s); auto. }
    destruct o; try done.
    - simpl ord_effect in *. split; [|split]; [apply K2|apply K3|apply K4]; by destruct (decide _).
    - split; [|split]; [apply K2; simpl; by destruct (decide _)|apply K3; simpl; by destruct (decide _)|]. clear K2 K3 K4.
      simpl in *. unfold register_cavities in *. rewrite bind_snd. unfold bind in Hok at 1.
      destruct (check_kwargs_spec kw RF_ERROR_FIELDS s) as [[Ha E]|[Ha E]]; rewrite E in *; [|done]. rewrite decide_True in * by done. unfold mod_ORD in *. rewrite bind_snd. simpl.
      unfold bind at 1, modify at 1 in Hok. set (s1 := set_ORD _ s) in *. fold (rf_loop_body kw) in *. intros i Hi. simpl in Hi. rewrite unique_elem, elem_of_app in Hi.
      destruct Hi as [Hi|Hi].
      + apply (cavity_there_grow i s1); [exact I1| |exact (I4 i Hi)]. apply pres_forM; [exact _|]. intros; apply grow_rf_body.
      + destruct (forM (unique ords) (rf_loop_body kw) s1) as [r s2] eqn:E2. simpl in Hok. subst r. cbn [snd].
        refine (forM_post _ _ (fun i t => cavity_there i t) s1 s2 _ _ _ I1 E2 i _); [apply grow_rf_body|intros x t t' _; apply rf_body_there|intros x t t'; apply cavity_there_grow|by rewrite unique_elem].
    - destruct Hr as [H1 H2]. assert (forall b i, (i ∈ ords -> b = true -> isSome (kHCM k) || isSome (kVCM k) = true) -> i ∈ ords \/ magnet_there b i s -> magnet_there b i (snd (call minv (OpMagnet ords errs k) s))) as K.
      { intros b i Hb. intros [Hi|Hi]; [|by apply (magnet_there_grow b i s)]. destruct (call minv (OpMagnet ords errs k) s) as [r s'] eqn:E. cbn [fst snd] in *. subst r.
        destruct (register_magnets_loop ords errs k s s' tt E) as (s1&E1&E2). refine (let Q := forM_post _ _ (fun i t => magnet_there b i t) s1 s' _ _ _ _ E2 i Hi in Q).
        - intros x. by apply grow_magnet_body.
        - intros x t t' Ht Hx. destruct (magnet_body_there ords errs k x t t' H1 H2 Ht Hx) as [(e&He&Re&Le) S]. split; [|done]. exists e. auto.
        - intros x t t'. apply magnet_there_grow.
        - intros j e. unfold good in I1. rewrite E1. apply I1. }
      assert (call minv (OpMagnet ords errs k) s = register_magnets ords errs k s) as EC by done.
      split; [|split]; [| |apply K4; simpl; by destruct (decide _)]; clear K2 K3 K4; intros i; simpl ord_effect; (destruct (decide (allowed errs MAGNET_ERROR_FIELDS)); cbn [oMagnet oHCM oVCM]).
      + rewrite unique_elem, elem_of_app. intros Hi. apply K; [done|]. destruct Hi; auto.
      + intros Hi. apply K; [done|]. auto.
      + rewrite !add_if_elem. intros [[Hi|[Hb Hi]]|[Hi|[Hb Hi]]].
        * apply (magnet_there_grow true i s); auto.
        * apply K; [intros _ _; by rewrite Hb|by left].
        * apply (magnet_there_grow true i s); auto.
        * apply K; [intros _ _; by rewrite Hb, orb_true_r|by left].
      + intros Hi. apply (magnet_there_grow true i s); auto.
    - simpl ord_effect in *. assert (forall (f : indices -> list nat), (forall st l d, f (set_oSupport st l d) = f d) -> f (match rows with [a; b] => match stype_of t with Some st => if decide (allowed kw SUPPORT_ERROR_FIELDS) then if (length a =? length b)%nat then set_oSupport st (update_double_ordinates (oSupport st (ORD s)) (zip a b)) (ORD s) else ORD s else ORD s | None => ORD s end | _ => ORD s end) = f (ORD s)) as Hf.
      { intros f Hf. destruct rows as [|a [|b [|]]]; try done. destruct (stype_of t) as [st|]; [|done]. destruct (decide _); [|done]. destruct (_ =? _)%nat; [apply Hf|done]. }
      split; [|split]; [apply K2|apply K3|apply K4]; apply Hf; intros [] ? ?; reflexivity.
  Qed.
  Lemma set_up_run ops s : Forall registers ops -> set_up s -> all_return ops s -> set_up (run minv ops s).
  Proof.
    intros H. revert s. induction H as [|o ops Ho Hops IH]; intros s Hs; [done|]. intros [R1 R2]. change (run minv (o :: ops) s) with (run minv ops (snd (call minv o s))). apply IH; [|done]. by apply set_up_call.
  Qed.
  Lemma set_up_init ring rng : Forall bare ring -> set_up (init_sc ring rng).
  Proof.
    intros H. rewrite Forall_forall in H. split.
    { intros i e He. destruct (H e) as (A1&A2&A3&A4&A5); [by eapply elem_of_list_lookup_2|]. repeat (split; [done|]). split; [|done]. by rewrite A4. }
    split; [intros i Hi; inversion Hi|]. split; [intros i [Hi|Hi]; inversion Hi|]. split; [intros i Hi; inversion Hi|]. done.
  Qed.
  (** a machine set up by calls of registration that all returned is accepted, apart from the order of the support layers *)
  Theorem C83_registered_accepted ring rng ops : Forall bare ring -> Forall registers ops -> all_return ops (init_sc ring rng) ->
    let s := run minv ops (init_sc ring rng) in
    (oGirder (ORD s) = [] -> oPlinth (ORD s) = [] /\ oSection (ORD s) = []) -> fst (verify_structure s []) = Ok tt.
  Proof.
    intros Hb Ho Hr s Hs. apply C83_accepts. destruct (set_up_run ops _ Ho (set_up_init ring rng Hb) Hr) as (I1&I2&I3&I4&I5&I6&I7). fold s in I1, I2, I3, I4, I5, I6, I7.
    assert (forall i, magnet_there true i s -> exists a b, attr_at s i "CMlimit" = Some (VLims [a; b])) as HL.
    { intros i [(e&He&_&Hl) _]. destruct (Hl eq_refl) as (a&b&E). exists a, b. by rewrite (at_elem s i e). }
    split; [done|]. split. { intros i Hi. destruct (HL i) as (a&b&E); [auto|]. exists a, [a; b]. auto. }
    split. { intros i Hi. destruct (HL i) as (a&b&E); [auto|]. exists b, [a; b]. auto. }
    split.
    { intros i Hi. destruct (I2 i Hi) as [(e&He&(a&b&sa&sb&ca&cb&Ha&Hb'&Hsa&Hsb&Hca&Hcb&L1&L2)&_) [d Hd]]. destruct (I1 i e He) as (A1&A2&A3&A4&A5).
      unfold magnet_sound, same_size, size_at, present, combined. rewrite !(at_elem s i e) by done. rewrite Ha, Hb', Hsa, Hsb, Hca, Hcb, A1, A2, A3. simpl.
      split; [exists (length b); split; [done|]; f_equal; by apply A5|]. split; [eauto|]. split; [eauto|]. split; [by intros [? ?]|]. split; [done|]. split; [eauto|]. by intros [? ?]. }
    split. { intros i Hi. destruct (I4 i Hi) as [Hl [d Hd]]. eauto. }
    rewrite I5. split; [done|]. split; [|done]. intros r Hr'. apply elem_of_replicate in Hr' as [-> _]. done.
  Qed.
End Registered.

(** * Examples *)
#[local] Instance TrigQ16 : Trig Q := {| ncos _ := 1%Q; nsin _ := 0%Q; nsqrt x := x; npi := 3%Q |}.
Definition nominv (m : list (list Q)) : res (list (list Q)) := Ok m.
Definition v_cm : magtype Q := MkType (Some (Fin 1%Q)) (Some (Fin 0%Q)) false None None.
Definition v_plain : magtype Q := MkType None None false None None.
Definition v_ops : list (op Q) :=
  [OpBPM [3] [("Noise", SPlain (VVec [1%Q; 1%Q]))]; OpMagnet [1] [("CalErrorB", SPlain (VVec [0%Q; 1%Q]))] v_plain; OpMagnet [2] [("BendingAngle", SPlain (VNum 1%Q))] v_cm;
   OpRF [4] [("VoltageSetpoint", SPlain (VNum 1%Q)); ("TimeLagOffset", SPlain (VNum 1%Q))]; OpSupport [[0]; [6]] "Girder" []].
Definition v_sc (ops : list (op Q)) : sc Q := run nominv ops (init_sc ex_ring [1%Q; 1%Q; 1%Q; 1%Q; 1%Q; 1%Q; 1%Q; 1%Q; 1%Q; 1%Q]).
(** A usual set-up is accepted.  Of the warnings, the one on the cavity is a finding: the uncertainty of a set-point has to be registered
    under "VoltageSetpoint" (constants.py) while the attribute is "VoltageSetPoint", so no such registration passes without a warning. *)
Example C83_example : Forall bare ex_ring /\ Forall registers v_ops /\ all_return nominv v_ops (init_sc ex_ring [1%Q; 1%Q; 1%Q; 1%Q; 1%Q; 1%Q; 1%Q; 1%Q; 1%Q; 1%Q]) /\
  verify_structure (v_sc v_ops) [] = (Ok tt, [ZeroVcmLimit 2; MagnetField 2 "BendingAngle"; CavityField 4 "VoltageSetpoint"; NoAperture]).
Proof.
  split; [|split; [|split]].
  - repeat constructor; vm_compute; intros a b H1 H2; simplify_eq; done.
  - repeat constructor.
  - repeat split.
  - vm_compute. reflexivity.
Qed.
(** a layer above the girders without girders *)
Example C83_example_girder : fst (verify_structure (v_sc [OpSupport [[0]; [6]] "Plinth" []]) []) = Err ValueError.
Proof. vm_compute. reflexivity. Qed.
(** split magnets; the registration returns *)
Example C83_example_split : fst (call nominv (OpMagnet [1] [] (MkType None None false None (Some [[5]]))) (v_sc [])) = Ok tt /\
  fst (verify_structure (v_sc [OpMagnet [1] [] (MkType None None false None (Some [[5]]))]) []) = Err TypeError.
Proof. vm_compute. split; reflexivity. Qed.
(** a calibration uncertainty given as a number: accepted before the errors are drawn; drawing them raises ValueError and leaves a machine that is refused with TypeError *)
Example C83_example_scalar : fst (verify_structure (v_sc [OpMagnet [1] [("CalErrorB", SPlain (VNum 1%Q))] v_plain]) []) = Ok tt /\
  fst (call nominv (OpApplyErrors 2%Q) (v_sc [OpMagnet [1] [("CalErrorB", SPlain (VNum 1%Q))] v_plain])) = Err ValueError /\
  fst (verify_structure (v_sc [OpMagnet [1] [("CalErrorB", SPlain (VNum 1%Q))] v_plain; OpApplyErrors 2%Q]) []) = Err TypeError.
Proof. vm_compute. split; [|split]; reflexivity. Qed.
(** combined function on a magnet without bending angle *)
Example C83_example_combined : fst (verify_structure (v_sc [OpMagnet [1] [] (MkType None None true None None)]) []) = Err ValueError /\
  verify_structure (v_sc [OpMagnet [5] [] (MkType None None true None None)]) [] = (Ok tt, [NoBpm; NoHcm; NoVcm; NoCavity; NoAperture]).
Proof. vm_compute. split; reflexivity. Qed.
Print Assumptions C83_accepts.
Print Assumptions C83_warnings.
Print Assumptions C83_girder_required.
Print Assumptions C83_finding_split_magnets.
Print Assumptions C83_scalar_calibration.
Print Assumptions C83_combined_function.
Print Assumptions C83_never_twice.
Print Assumptions C83_registered_accepted.
