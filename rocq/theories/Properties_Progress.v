(** C94: set-point calls on a machine in good order always return, and leave it in good order. *)
From Coq Require Import Reals Lra Lia QArith.
From stdpp Require Import base gmap strings list.
From Verif Require Import Num Base Model_Arr Model_SC Model_Err Lemmas Proofs_Reg Proofs_Update Proofs_Loop Spec Proofs_CM Proofs_Field Proofs_Err
  Properties_Random Properties_Field Examples Properties_Errors Properties_Update Properties_Tight10 Properties_Circ Properties_Zero Properties_Fresh.
Local Open Scope string_scope.
Local Open Scope list_scope.

(** * Specification *)
(** an array with this many entries *)
Definition array (e : elem R) (a : string) (n : nat) : Prop := exists l, e !! a = Some (VVec l) /\ length l = n.
Definition scalar (e : elem R) (a : string) : Prop := exists x : R, e !! a = Some (VNum x).
Definition maybe (e : elem R) (a : string) (P : val R -> Prop) : Prop := match e !! a with None => True | Some v => P v end.
Definition maybe_at (s : sc R) (i : nat) (a : string) (P : val R -> Prop) : Prop := exists m, RING s !! i = Some m /\ maybe m a P.
Definition any_array (v : val R) : Prop := exists l, v = VVec l.
(** a table of systematic multipoles for components below [n] *)
Definition table_of (n : nat) (v : val R) : Prop := exists t, v = VTab t /\ Forall (fun p => p.1 < n) t.
(** a magnet whose bending angle enters the dipole field: it has an error of the bending angle, or is a combined-function bend *)
Definition bends (m : elem R) : Prop := m !! "BendingAngleError" <> None \/ (m !! "BendingAngle" <> None /\ m !! "CombinedFunction" = Some (VBool true)).

(** what a magnet with [na] skew and [nb] normal components must carry *)
Record magnet_fields (m : elem R) (na nb : nat) : Prop := {
  f_na : 0 < na; f_nb : 0 < nb;
  f_spa : array m "SetPointA" na; f_spb : array m "SetPointB" nb;
  f_noma : array m "NomPolynomA" na; f_nomb : array m "NomPolynomB" nb;
  f_cala : exists n, n <= na /\ array m "CalErrorA" n; f_calb : exists n, n <= nb /\ array m "CalErrorB" n;
  f_err : maybe m "BendingAngleError" (fun v => exists x, v = VNum x);
  f_cf : m !! "BendingAngle" <> None -> m !! "CombinedFunction" = Some (VBool true) ->
         (exists n, 1 < n /\ array m "CalErrorB" n) /\ exists nom q, m !! "NomPolynomB" = Some (VVec nom) /\ nom !! 1 = Some q /\ q <> 0%R;
  f_pass : exists p, m !! "PassMethod" = Some (VStr p) }.
(** what an element that takes its field from the magnet [m] must carry *)
Record part_fields (m c : elem R) (na nb : nat) : Prop := {
  p_offa : maybe c "PolynomAOffset" any_array; p_offb : maybe c "PolynomBOffset" any_array;
  p_aa : maybe c "SysPolAFromA" (table_of na); p_ab : maybe c "SysPolAFromB" (table_of nb);
  p_ba : maybe c "SysPolBFromA" (table_of na); p_bb : maybe c "SysPolBFromB" (table_of nb);
  p_bend : bends m -> scalar c "BendingAngle" /\ exists len, c !! "Length" = Some (VNum len) /\ len <> 0%R }.
(** a magnet in good order, with its parts *)
Definition good_magnet (s : sc R) (i : nat) : Prop := exists m na nb, RING s !! i = Some m /\ magnet_fields m na nb /\ part_fields m m na nb /\
  maybe m "MasterOf" (fun v => exists l, v = VOrds l /\ forall c, c ∈ l -> exists e, RING s !! c = Some e /\ part_fields m e na nb).
(** a magnet in good order that can steer: it is a thin corrector or has a length, and has a limit for both planes if it has any *)
Definition steerable (m : elem R) : Prop :=
  (m !! "PassMethod" = Some (VStr "CorrectorPass") \/ exists len, m !! "Length" = Some (VNum len) /\ len <> 0%R) /\
  maybe m "CMlimit" (fun v => exists l, v = VLims l /\ 2 <= length l).
Definition good_corrector (s : sc R) (i : nat) : Prop := good_magnet s i /\ exists m, RING s !! i = Some m /\ steerable m.
(** a magnet in good order whose dipole kick can be compensated, if compensation applies to it *)
Definition good_bend (s : sc R) (i : nat) : Prop := exists m, RING s !! i = Some m /\ maybe m "BendingAngle" (fun v => exists x, v = VNum x /\
  (x <> 0%R -> i ∈ oHCM (ORD s) -> steerable m /\ exists nom q, m !! "NomPolynomB" = Some (VVec nom) /\ nom !! 1 = Some q /\ q <> 0%R)).
(** a cavity in good order *)
Definition good_cavity (s : sc R) (i : nat) : Prop := exists e, RING s !! i = Some e /\
  forall f a, f ∈ ["Voltage"; "Frequency"; "TimeLag"] -> a ∈ ["SetPoint"; "CalError"; "Offset"] -> scalar e (f +:+ a).
(** one set-point for all elements, or one for each *)
Definition fitting (ords : list nat) (sps : list R) : Prop := length sps = 1 \/ length sps = length ords.
Definition a_method (m : string) : Prop := m ∈ ["abs"; "rel"; "add"].
(** the order is one of the components of the magnet *)
Definition has_order (s : sc R) (i : nat) (skew : bool) (order : nat) : Prop :=
  exists m n, RING s !! i = Some m /\ array m (if skew then "SetPointA" else "SetPointB") n /\ order < n.
(** set-point calls and field updates that the machine must accept *)
Definition acceptable (s : sc R) (o : op R) : Prop :=
  match o with
  | OpSetCM ords _ sps _ method => a_method method /\ fitting ords sps /\ forall i, i ∈ ords -> good_corrector s i
  | OpSetMagnet ords dt sps skew order method comp => a_method method /\ fitting ords sps /\ (dt = DFloat \/ method = "abs") /\
      forall i, i ∈ ords -> good_magnet s i /\ has_order s i skew order /\ maybe_at s i "SkewQuadLimit" (fun v => exists l, v = VLim l) /\ (comp = true -> order = 1 -> good_bend s i)
  | OpSetCavity ords dt sps param method => a_method method /\ fitting ords sps /\ (dt = DFloat \/ method = "abs") /\ param ∈ ["Voltage"; "Frequency"; "TimeLag"] /\
      forall i, i ∈ ords -> good_cavity s i
  | OpUpdateMagnets ords => forall i, i ∈ ords -> good_magnet s i
  | OpUpdateCavities ords => forall i, i ∈ ords -> good_cavity s i
  | OpTrackMode mode => mode ∈ ["TBT"; "ORB"; "PORB"]
  | _ => False
  end.
(** how the calls of a history end, one after the other *)
Fixpoint outcomes (minv : list (list R) -> res (list (list R))) (ops : list (op R)) (s : sc R) : list (res unit) :=
  match ops with
  | [] => []
  | o :: ops' => fst (call minv o s) :: outcomes minv ops' (snd (call minv o s))
  end.

(** * Proofs *)
Definition goes {S A} (m : M S A) (s : S) (Q : A -> S -> Prop) : Prop := exists a s', m s = (Ok a, s') /\ Q a s'.
Lemma goes_bind {S A B} (m : M S A) (f : A -> M S B) s Q P : goes m s Q -> (forall a s', Q a s' -> goes (f a) s' P) -> goes (bind m f) s P.
Proof. intros (a&s1&E&H) Hf. destruct (Hf _ _ H) as (b&s2&E2&H2). exists b, s2. split; [|done]. apply bind_ok. eauto. Qed.
Lemma goes_lift {S A} (r : res A) (s : S) a (Q : A -> S -> Prop) : r = Ok a -> Q a s -> goes (lift r) s Q.
Proof. intros -> H. exists a, s. done. Qed.
Lemma goes_getm {A} (f : elem R -> res A) e a (Q : A -> elem R -> Prop) : f e = Ok a -> Q a e -> goes (getm f) e Q.
Proof. intros E H. exists a, e. split; [|done]. by apply getm_ok. Qed.
Lemma goes_ret {S A} (x : A) (s : S) (Q : A -> S -> Prop) : Q x s -> goes (ret x) s Q.
Proof. intros H. exists x, s. done. Qed.
Lemma goes_weaken {S A} (m : M S A) s (Q P : A -> S -> Prop) : (forall a s', Q a s' -> P a s') -> goes m s Q -> goes m s P.
Proof. intros H (a&s'&E&HQ). exists a, s'. auto. Qed.
Lemma goes_forM {S A} (I : S -> S -> Prop) `{!PreOrder I} (l : list A) (f : A -> M S unit) s :
  (forall x s', x ∈ l -> I s s' -> goes (f x) s' (fun _ s'' => I s' s'')) -> goes (forM l f) s (fun _ s' => I s s').
Proof.
  revert s. induction l as [|x l IH]; intros s H; cbn [forM]; [by apply goes_ret|].
  eapply goes_bind; [apply (H x s); [left|reflexivity]|]. intros u s1 H1. cbn beta in H1.
  eapply goes_weaken; [|apply IH]; [intros u2 s2 H2; cbn beta in H2; by etransitivity|]. intros y s2 Hy H2. apply H; [by right|by etransitivity].
Qed.

Definition rewritten : list string :=
  ["PolynomA"; "PolynomB"; "KickAngle"; "MaxOrder"; "Voltage"; "Frequency"; "TimeLag"; "SetPointA"; "SetPointB"; "VoltageSetPoint"; "FrequencySetPoint"; "TimeLagSetPoint";
   "Offset"; "CalError"; "Roll"].
Definition kept_elem (e e' : elem R) : Prop :=
  (forall a, a ∉ rewritten -> e' !! a = e !! a) /\
  (forall a n, a ∈ ["SetPointA"; "SetPointB"] -> array e a n -> array e' a n) /\
  (forall a, a ∈ ["VoltageSetPoint"; "FrequencySetPoint"; "TimeLagSetPoint"] -> scalar e a -> scalar e' a).
#[local] Instance kept_elem_preorder : PreOrder kept_elem.
Proof.
  split; [done|]. intros a b c (A1&A2&A3) (B1&B2&B3). split; [|split]; [intros x Hx; by rewrite B1, A1|intros x n Hx Hn; auto|intros x Hx Hn; auto].
Qed.
Definition kept (s s' : sc R) : Prop := ORD s' = ORD s /\ length (RING s') = length (RING s) /\ forall i e e', RING s !! i = Some e -> RING s' !! i = Some e' -> kept_elem e e'.
#[local] Instance kept_preorder : PreOrder kept.
Proof.
  split; [split; [done|]; split; [done|]; intros i e e' H H'; rewrite H in H'; by injection H' as <-|].
  intros a b c (A1&A2&A3) (B1&B2&B3). split; [congruence|]. split; [congruence|]. intros i e e' H H'.
  destruct (lookup_lt_is_Some_2 (RING b) i) as [x Hx]; [rewrite A2; by eapply lookup_lt_Some|]. etransitivity; eauto.
Qed.
Lemma kept_at s s' i e : kept s s' -> RING s !! i = Some e -> exists e', RING s' !! i = Some e' /\ kept_elem e e'.
Proof.
  intros (_&L&H) He. destruct (lookup_lt_is_Some_2 (RING s') i) as [x Hx]; [rewrite L; by eapply lookup_lt_Some|]. exists x. eauto.
Qed.
Lemma goes_on_elem {A} (m : M (elem R) A) s i e : RING s !! i = Some e -> goes m e (fun _ e' => kept_elem e e') -> goes (on_elem i m) s (fun _ s' => kept s s').
Proof.
  intros He (a&e'&E&H). exists a, (set_RING (<[i := e']> (RING s)) s). unfold on_elem. rewrite He, E. split; [done|]. cbn beta in H.
  split; [done|]. split; [cbn; by rewrite insert_length|]. cbn. intros j x x' Hx Hx'. destruct (decide (i = j)) as [->|Hne].
  - rewrite list_lookup_insert in Hx' by (by eapply lookup_lt_Some). congruence.
  - rewrite list_lookup_insert_ne in Hx' by done. assert (x = x') as -> by congruence. reflexivity.
Qed.
Ltac not_in := let H := fresh in intros H; by apply (bool_decide_eq_true_2 _) in H.
Ltac kept_as H a := rewrite (proj1 H a) by not_in.

(** the conditions only look at what is kept *)
Lemma maybe_kept e e' a P : kept_elem e e' -> a ∉ rewritten -> maybe e a P -> maybe e' a P.
Proof. intros [H _] Ha. unfold maybe. by rewrite H. Qed.
Lemma array_kept e e' a n : kept_elem e e' -> a ∉ rewritten -> array e a n -> array e' a n.
Proof. intros [H _] Ha. unfold array. by rewrite H. Qed.
Lemma bends_kept e e' : kept_elem e e' -> bends e' -> bends e.
Proof. intros H. unfold bends. kept_as H "BendingAngleError". kept_as H "BendingAngle". by kept_as H "CombinedFunction". Qed.
Lemma fields_kept e e' na nb : kept_elem e e' -> magnet_fields e na nb -> magnet_fields e' na nb.
Proof.
  intros H [A1 A2 A3 A4 A5 A6 (n1&L1&A7) (n2&L2&A8) A9 A10 A11]. split; try done.
  - apply (proj1 (proj2 H)); [left|done].
  - apply (proj1 (proj2 H)); [right; left|done].
  - eapply array_kept; [done|not_in|done].
  - eapply array_kept; [done|not_in|done].
  - exists n1. split; [done|]. eapply array_kept; [done|not_in|done].
  - exists n2. split; [done|]. eapply array_kept; [done|not_in|done].
  - eapply maybe_kept; [done|not_in|done].
  - kept_as H "BendingAngle". kept_as H "CombinedFunction". intros Hb Hc. destruct (A10 Hb Hc) as [(n&Hn&Hn') Hx]. split.
    + exists n. split; [done|]. eapply array_kept; [done|not_in|done].
    + by kept_as H "NomPolynomB".
  - by kept_as H "PassMethod".
Qed.
Lemma part_kept m m' c c' na nb : kept_elem m m' -> kept_elem c c' -> part_fields m c na nb -> part_fields m' c' na nb.
Proof.
  intros Hm Hc [A1 A2 A3 A4 A5 A6 A7]. split; try (eapply maybe_kept; [done|not_in|done]).
  intros Hb. destruct (A7 (bends_kept _ _ Hm Hb)) as [B1 B2]. split; [unfold scalar; by kept_as Hc "BendingAngle"|by kept_as Hc "Length"].
Qed.
Lemma steerable_kept e e' : kept_elem e e' -> steerable e -> steerable e'.
Proof.
  intros H [A1 A2]. split; [|eapply maybe_kept; [done|not_in|done]]. kept_as H "PassMethod". by kept_as H "Length".
Qed.
Lemma good_magnet_kept s s' i : kept s s' -> good_magnet s i -> good_magnet s' i.
Proof.
  intros H (m&na&nb&Hm&Hf&Hp&Hc). destruct (kept_at _ _ _ _ H Hm) as (m'&Hm'&K). exists m', na, nb. split; [done|].
  split; [by eapply fields_kept|]. split; [by eapply part_kept|]. unfold maybe. kept_as K "MasterOf". unfold maybe in Hc. destruct (m !! "MasterOf") as [v|]; [|done].
  destruct Hc as (l&->&Hl). exists l. split; [done|]. intros c Hin. destruct (Hl c Hin) as (e&He&Hpe). destruct (kept_at _ _ _ _ H He) as (e'&He'&Ke). exists e'. split; [done|]. by eapply part_kept.
Qed.
Lemma good_corrector_kept s s' i : kept s s' -> good_corrector s i -> good_corrector s' i.
Proof.
  intros H [Hg (m&Hm&Hs)]. split; [by eapply good_magnet_kept|]. destruct (kept_at _ _ _ _ H Hm) as (m'&Hm'&K). exists m'. split; [done|]. by eapply steerable_kept.
Qed.
Lemma good_bend_kept s s' i : kept s s' -> good_bend s i -> good_bend s' i.
Proof.
  intros H (m&Hm&Hb). destruct (kept_at _ _ _ _ H Hm) as (m'&Hm'&K). exists m'. split; [done|]. unfold maybe in *. kept_as K "BendingAngle".
  destruct (m !! "BendingAngle") as [v|]; [|done]. destruct Hb as (x&->&Hx). exists x. split; [done|]. rewrite (proj1 H). intros Hne Hin. destruct (Hx Hne Hin) as [Hs Hq].
  split; [by eapply steerable_kept|]. by kept_as K "NomPolynomB".
Qed.
Lemma good_cavity_kept s s' i : kept s s' -> good_cavity s i -> good_cavity s' i.
Proof.
  intros H (m&Hm&Hb). destruct (kept_at _ _ _ _ H Hm) as (m'&Hm'&K). exists m'. split; [done|]. intros f a Hf Ha. specialize (Hb f a Hf Ha).
  rewrite !elem_of_cons, elem_of_nil in Hf, Ha. destruct K as (K1&_&K3).
  destruct Hf as [-> | [-> | [-> | []]]], Ha as [-> | [-> | [-> | []]]];
    first [apply K3; [apply (bool_decide_eq_true_1 _); vm_compute; reflexivity|exact Hb]
          |unfold scalar; rewrite K1 by not_in; exact Hb].
Qed.
Lemma has_order_kept s s' i skew order : kept s s' -> has_order s i skew order -> has_order s' i skew order.
Proof.
  intros H (m&n&Hm&Ha&Hn). destruct (kept_at _ _ _ _ H Hm) as (m'&Hm'&K). exists m', n. split; [done|]. split; [|done]. apply (proj1 (proj2 K)); [|done]. destruct skew; [left|right; left].
Qed.
Lemma maybe_at_kept s s' i a P : kept s s' -> a ∉ rewritten -> maybe_at s i a P -> maybe_at s' i a P.
Proof. intros H Ha (m&Hm&Hp). destruct (kept_at _ _ _ _ H Hm) as (m'&Hm'&K). exists m'. split; [done|]. by eapply maybe_kept. Qed.
Lemma acceptable_kept s s' o : kept s s' -> acceptable s o -> acceptable s' o.
Proof.
  intros H. destruct o; cbn [acceptable]; try done.
  - intros (A1&A2&A3). split; [done|]. split; [done|]. intros i Hi. eapply good_corrector_kept; eauto.
  - intros (A1&A2&A3&A4). split; [done|]. split; [done|]. split; [done|]. intros i Hi. destruct (A4 i Hi) as (B1&B2&B3&B4).
    split; [by eapply good_magnet_kept|]. split; [by eapply has_order_kept|]. split; [eapply maybe_at_kept; [done|not_in|done]|]. intros C1 C2. eapply good_bend_kept; eauto.
  - intros (A1&A2&A3&A4&A5). split; [done|]. split; [done|]. split; [done|]. split; [done|]. intros i Hi. eapply good_cavity_kept; eauto.
  - intros A i Hi. eapply good_magnet_kept; eauto.
  - intros A i Hi. eapply good_cavity_kept; eauto.
Qed.

(** storing attributes *)
Lemma keep_field e a v : a ∈ ["PolynomA"; "PolynomB"; "KickAngle"; "MaxOrder"; "Voltage"; "Frequency"; "TimeLag"] -> kept_elem e (<[a := v]> e).
Proof.
  intros Ha. assert (forall b, b ∈ rewritten -> True) as _ by done. split; [|split].
  - intros b Hb. apply lookup_insert_ne. intros <-. apply Hb. unfold rewritten. change (a ∈ ["PolynomA"; "PolynomB"; "KickAngle"; "MaxOrder"; "Voltage"; "Frequency"; "TimeLag"] ++ ["SetPointA"; "SetPointB"; "VoltageSetPoint"; "FrequencySetPoint"; "TimeLagSetPoint"; "Offset"; "CalError"; "Roll"]).
    apply elem_of_app. by left.
  - intros b n Hb (l&Hl&Hn). exists l. split; [|done]. rewrite lookup_insert_ne; [done|]. intros <-. revert Ha. rewrite !elem_of_cons, elem_of_nil in Hb. destruct Hb as [-> | [-> | []]]; not_in.
  - intros b Hb (x&Hx). exists x. rewrite lookup_insert_ne; [done|]. intros <-. revert Ha. rewrite !elem_of_cons, elem_of_nil in Hb. destruct Hb as [-> | [-> | [-> | []]]]; not_in.
Qed.
Lemma keep_setpoint e a l l' : a ∈ ["SetPointA"; "SetPointB"] -> e !! a = Some (VVec l) -> length l' = length l -> kept_elem e (<[a := VVec l']> e).
Proof.
  intros Ha El HL. split; [|split].
  - intros b Hb. apply lookup_insert_ne. intros <-. apply Hb. rewrite !elem_of_cons, elem_of_nil in Ha. apply (bool_decide_eq_true_1 _). destruct Ha as [-> | [-> | []]]; vm_compute; reflexivity.
  - intros b n Hb (k&Hk&Hn). destruct (decide (a = b)) as [->|Hne]; [|exists k; by rewrite lookup_insert_ne]. exists l'. rewrite lookup_insert. split; [done|]. congruence.
  - intros b Hb (x&Hx). exists x. rewrite lookup_insert_ne; [done|]. intros <-. congruence.
Qed.
Lemma keep_cavity e a x : a ∈ ["VoltageSetPoint"; "FrequencySetPoint"; "TimeLagSetPoint"] -> kept_elem e (<[a := VNum x]> e).
Proof.
  intros Ha. split; [|split].
  - intros b Hb. apply lookup_insert_ne. intros <-. apply Hb. rewrite !elem_of_cons, elem_of_nil in Ha. apply (bool_decide_eq_true_1 _). destruct Ha as [-> | [-> | [-> | []]]]; vm_compute; reflexivity.
  - intros b n Hb (l&Hl&Hn). exists l. split; [|done]. rewrite lookup_insert_ne; [done|]. intros <-. revert Ha. rewrite !elem_of_cons, elem_of_nil in Hb. destruct Hb as [-> | [-> | []]]; not_in.
  - intros b Hb (y&Hy). destruct (decide (a = b)) as [->|Hne]; [exists x; by rewrite lookup_insert|exists y; by rewrite lookup_insert_ne].
Qed.

(** the new field *)
Lemma scaled_goes (sp c : list R) : length c <= length sp -> exists p, scaled_setpoints sp (VVec c) = Ok p /\ length p = length sp.
Proof.
  intros H. unfold scaled_setpoints. cbn [add_padded rbind]. assert (length (add_padded1 (ones (length sp)) c) = length sp) as E. { rewrite add_padded1_length. unfold ones. rewrite replicate_length. lia. }
  unfold bcast. rewrite E, Nat.eqb_refl. eexists. split; [done|]. rewrite zip_with_length, E. lia.
Qed.
Lemma table_goes (P : list R) t acc : Forall (fun p => p.1 < length P) t -> 0 < length acc ->
  exists out, rfold (fun acc nv => let? x := idx P nv.1 in add_padded (VVec acc) (VVec (map (nmul x) nv.2))) t acc = Ok out /\ 0 < length out.
Proof.
  revert acc. induction t as [|[n v] t IH]; intros acc Ht Ha; cbn [rfold]; [by exists acc|]. inversion Ht as [|? ? Hn Ht']; subst. cbn [fst] in Hn.
  destruct (lookup_lt_is_Some_2 _ _ Hn) as [x Hx]. unfold idx. cbn [fst snd]. rewrite Hx. cbn [rbind add_padded]. apply IH; [done|]. rewrite add_padded1_length. lia.
Qed.
Lemma polynom_goes (e : elem R) t pa pb : (t = "A" \/ t = "B") -> 0 < length pa -> 0 < length pb -> maybe e ("Polynom" +:+ t +:+ "Offset") any_array ->
  maybe e ("SysPol" +:+ t +:+ "From" +:+ "A") (table_of (length pa)) -> maybe e ("SysPol" +:+ t +:+ "From" +:+ "B") (table_of (length pb)) ->
  exists p, new_polynom e t pa pb = Ok p /\ 0 < length p.
Proof.
  intros Ht Ha Hb Ho HA HB. unfold new_polynom, maybe in *. set (p0 := if decide (t = "A") then pa else pb).
  assert (0 < length p0) as H0 by (subst p0; by destruct (decide _)).
  assert (exists p1, match e !! ("Polynom" +:+ t +:+ "Offset") with Some off => add_padded (VVec p0) off | None => Ok p0 end = Ok p1 /\ 0 < length p1) as (p1&E1&H1).
  { destruct (e !! ("Polynom" +:+ t +:+ "Offset")) as [v|]; [|by exists p0]. destruct Ho as [l ->]. cbn. eexists. split; [done|]. rewrite add_padded1_length. lia. }
  rewrite E1. cbn [rbind rfold]. clear E1.
  assert (forall x P p1, (x = "A" /\ P = pa \/ x = "B" /\ P = pb) -> 0 < length p1 -> match e !! ("SysPol" +:+ t +:+ "From" +:+ x) with None => True | Some v => table_of (length P) v end ->
    exists p2, match e !! ("SysPol" +:+ t +:+ "From" +:+ x) with None => Ok p1 | Some v => let? tb := as_tab v in
      rfold (fun acc nv => let? y := idx (if decide (x = "A") then pa else pb) nv.1 in add_padded (VVec acc) (VVec (map (nmul y) nv.2))) tb p1 end = Ok p2 /\ 0 < length p2) as Hstep.
  { intros x P q Hx Hq HT. destruct (e !! ("SysPol" +:+ t +:+ "From" +:+ x)) as [v|]; [|by exists q]. destruct HT as (tb&->&Htb). cbn [as_tab rbind].
    replace (if decide (x = "A") then pa else pb) with P; [by apply table_goes|]. destruct Hx as [[-> ->]|[-> ->]]; destruct (decide _); done. }
  destruct (Hstep "A" pa p1 (or_introl (conj eq_refl eq_refl)) H1 HA) as (p2&E2&H2). cbn beta in E2 |- *. rewrite E2. cbn [rbind].
  destruct (Hstep "B" pb p2 (or_intror (conj eq_refl eq_refl)) H2 HB) as (p3&E3&H3). cbn beta in E3 |- *. rewrite E3. cbn [rbind]. by exists p3.
Qed.

Definition fielded (e e' : elem R) : Prop := kept_elem e e' /\ exists a b, e' !! "PolynomA" = Some (VVec a) /\ 0 < length a /\ e' !! "PolynomB" = Some (VVec b) /\ 0 < length b.
Lemma add_to_B0_goes e e1 x : fielded e e1 -> goes (add_to_B0 x) e1 (fun _ e2 => fielded e e2).
Proof.
  intros [K (a&b&Ha&La&Hb&Lb)]. unfold add_to_B0. eapply goes_bind; [eapply goes_getm with (Q := fun v e' => v = b /\ e' = e1); [|done]; unfold attr_vec, attr; by rewrite Hb|]. intros ? ? [-> ->].
  destruct (lookup_lt_is_Some_2 _ _ Lb) as [b0 Hb0]. eapply goes_bind; [eapply goes_lift with (Q := fun v e' => v = b0 /\ e' = e1); [by apply idx_ok|done]|]. intros ? ? [-> ->].
  eexists tt, _. split; [by apply setattr_ok|]. split; [etransitivity; [exact K|]; apply keep_field; right; left|]. exists a, (<[0 := nadd b0 x]> b). rewrite lookup_insert, lookup_insert_ne by done. by rewrite insert_length.
Qed.
Lemma update_target_goes (m e : elem R) na nb : magnet_fields m na nb -> part_fields m e na nb -> goes (update_target m) e (fun _ e' => kept_elem e e').
Proof.
  intros [F1 F2 (spa&SA&LA) (spb&SB&LB) F5 (nom&NB&LN) (na'&Hna&ca&CA&LCA) (nb'&Hnb&cb&CB&LCB) F9 F10 (pm&PM)] [P1 P2 P3 P4 P5 P6 P7]. unfold update_target.
  eapply goes_bind; [eapply goes_lift with (a := spa) (Q := fun v e' => v = spa /\ e' = e); [unfold attr_vec, attr; by rewrite SA|done]|]. intros ? ? [-> ->].
  eapply goes_bind; [eapply goes_lift with (a := spb) (Q := fun v e' => v = spb /\ e' = e); [unfold attr_vec, attr; by rewrite SB|done]|]. intros ? ? [-> ->].
  destruct (scaled_goes spa ca) as (pa&EA&LPA); [lia|]. destruct (scaled_goes spb cb) as (pb&EB&LPB); [lia|].
  eapply goes_bind; [eapply goes_lift with (a := pa) (Q := fun v e' => v = pa /\ e' = e); [unfold attr; rewrite CA; exact EA|done]|]. intros ? ? [-> ->].
  eapply goes_bind; [eapply goes_lift with (a := pb) (Q := fun v e' => v = pb /\ e' = e); [unfold attr; rewrite CB; exact EB|done]|]. intros ? ? [-> ->].
  assert (forall e1, kept_elem e e1 -> part_fields m e1 na nb) as HP. { intros e1 K. eapply part_kept; [reflexivity|exact K|by split]. }
  eapply goes_bind with (Q := fun _ e1 => kept_elem e e1 /\ exists a, e1 !! "PolynomA" = Some (VVec a) /\ 0 < length a).
  { destruct (polynom_goes e "A" pa pb) as (p&Ep&Lp); [by left|lia|lia|done|by rewrite LPA, LA|by rewrite LPB, LB|].
    eapply goes_bind; [eapply goes_getm with (Q := fun v e' => v = p /\ e' = e); [exact Ep|done]|]. intros ? ? [-> ->]. eexists tt, _. split; [by apply setattr_ok|]. split; [apply keep_field; left|].
    exists p. by rewrite lookup_insert. }
  intros _u e1 [K1 (a1&Ha1&La1)]. clear _u.
  eapply goes_bind with (Q := fun _ e2 => fielded e e2).
  { destruct (HP e1 K1) as [Q1 Q2 Q3 Q4 Q5 Q6 Q7]. destruct (polynom_goes e1 "B" pa pb) as (p&Ep&Lp); [by right|lia|lia|done|by rewrite LPA, LA|by rewrite LPB, LB|].
    eapply goes_bind; [eapply goes_getm with (Q := fun v e' => v = p /\ e' = e1); [exact Ep|done]|]. intros ? ? [-> ->]. eexists tt, _. split; [by apply setattr_ok|].
    split; [etransitivity; [exact K1|]; apply keep_field; right; left|]. exists a1, p. by rewrite lookup_insert, lookup_insert_ne. }
  intros _u e2 H2. clear _u K1 Ha1 La1 e1 a1.
  eapply goes_bind with (Q := fun _ e3 => fielded e e3).
  { destruct (m !! "BendingAngleError") as [v|] eqn:Ev; [|by apply goes_ret]. unfold maybe in F9. rewrite Ev in F9. destruct F9 as [x ->].
    destruct (HP e2 (proj1 H2)) as [_ _ _ _ _ _ Q7]. destruct Q7 as [[th Hth] (len&Hlen&Hne)]; [left; by rewrite Ev|].
    eapply goes_bind; [eapply goes_getm with (a := ((x * th) / len)%R) (Q := fun v e' => v = ((x * th) / len)%R /\ e' = e2); [|done]|].
    - cbn [as_num rbind]. unfold attr_num, attr. rewrite Hth, Hlen. cbn [rbind as_num]. unfold qdiv. destruct (neqb len n0) eqn:E; [|done]. apply Reqb_true in E. destruct (Hne E).
    - intros ? ? [-> ->]. by apply add_to_B0_goes. }
  intros _u e3 H3. clear _u H2 e2.
  eapply goes_bind with (Q := fun _ e4 => fielded e e4).
  { destruct (m !! "BendingAngle") as [v|] eqn:Ev; [|by apply goes_ret]. destruct (m !! "CombinedFunction") as [w|] eqn:Ew; [|by apply goes_ret]. destruct w as [| | | |[]| | | | | |]; try (by apply goes_ret).
    destruct F10 as [(n&Hn&cb'&CB'&LCB') (nom'&q&NB'&Hq&Hq0)]; [done|done|]. rewrite CB in CB'. injection CB' as <-. rewrite NB in NB'. injection NB' as <-.
    destruct (HP e3 (proj1 H3)) as [_ _ _ _ _ _ Q7]. destruct Q7 as [[th Hth] (len&Hlen&Hne)]; [right; by rewrite Ev|].
    destruct (lookup_lt_is_Some_2 cb 1) as [c1 Hc1]; [lia|]. destruct (lookup_lt_is_Some_2 spb 1) as [s1 Hs1]; [apply lookup_lt_Some in Hq; lia|].
    eapply goes_bind; [eapply goes_getm with (Q := fun v e' => e' = e3); [|done]|].
    - unfold attr_num, attr_vec, attr, idx. rewrite Hs1. cbn [rbind]. rewrite CB. cbn [rbind as_vec]. rewrite Hc1. cbn [rbind]. rewrite NB. cbn [rbind as_vec]. rewrite Hq. cbn [rbind].
      unfold qdiv at 1. destruct (neqb q n0) eqn:E; [apply Reqb_true in E; destruct (Hq0 E)|]. cbn [rbind]. rewrite Hth. cbn [rbind as_num]. rewrite Hlen. cbn [rbind as_num].
      unfold qdiv. destruct (neqb len n0) eqn:E'; [apply Reqb_true in E'; destruct (Hne E')|]. reflexivity.
    - intros d ? ->. by apply add_to_B0_goes. }
  intros _u e4 H4. clear _u H3 e3.
  eapply goes_bind with (Q := fun _ e5 => fielded e e5).
  { eapply goes_bind; [eapply goes_lift with (a := pm) (Q := fun v e' => v = pm /\ e' = e4); [unfold attr_str, attr; by rewrite PM|done]|]. intros ? ? [-> ->].
    destruct (bool_decide (pm = "CorrectorPass")); cbn [when]; [|by apply goes_ret]. destruct H4 as [K (a&b&Ha&La&Hb&Lb)].
    destruct (lookup_lt_is_Some_2 _ _ La) as [a0 Ha0]. destruct (lookup_lt_is_Some_2 _ _ Lb) as [b0 Hb0].
    eapply goes_bind; [eapply goes_getm with (a := [b0; a0]) (Q := fun v e' => v = [b0; a0] /\ e' = e4); [|done]|].
    - unfold attr_vec, attr, idx. rewrite Hb. cbn [rbind as_vec]. rewrite Hb0. cbn [rbind]. rewrite Ha. cbn [rbind as_vec]. by rewrite Ha0.
    - intros ? ? [-> ->]. eexists tt, _. split; [by apply setattr_ok|]. split; [etransitivity; [exact K|]; apply keep_field; right; right; left|]. exists a, b. by rewrite !lookup_insert_ne. }
  intros _u e5 [K (a&b&Ha&La&Hb&Lb)]. clear _u H4 e4.
  eapply goes_bind; [eapply goes_getm with (a := b) (Q := fun v e' => v = b /\ e' = e5); [unfold attr_vec, attr; by rewrite Hb|done]|]. intros ? ? [-> ->].
  eexists tt, _. split; [by apply setattr_ok|]. etransitivity; [exact K|]. apply keep_field. right; right; right; left.
Qed.

Lemma update_magnets_goes (s : sc R) ords : (forall i, i ∈ ords -> good_magnet s i) -> goes (update_magnets ords) s (fun _ s' => kept s s').
Proof.
  intros H. unfold update_magnets. apply goes_forM; [exact _|]. intros i s1 Hi K1. assert (good_magnet s1 i) as Hg by (eapply good_magnet_kept; eauto). clear H Hi K1 s. rename s1 into s.
  eapply goes_bind with (Q := fun _ s' => kept s s').
  { destruct Hg as (m&na&nb&Hm&Hf&Hp&_). unfold update_magnet. eapply goes_bind with (Q := fun v s' => v = m /\ s' = s); [exists m, s; split; [by apply ring_elem_ok|done]|].
    intros ? ? [-> ->]. eapply goes_on_elem; [done|]. by eapply update_target_goes. }
  intros _u s1 K1. clear _u. cbn beta in K1. pose proof (good_magnet_kept _ _ _ K1 Hg) as (m&na&nb&Hm&Hf&Hp&Hc).
  eapply goes_bind with (Q := fun v s' => v = m /\ s' = s1); [exists m, s1; split; [by apply ring_elem_ok|done]|]. intros ? ? [-> ->].
  unfold maybe in Hc. destruct (m !! "MasterOf") as [v|] eqn:Ev; [|by apply goes_ret]. destruct Hc as (l&->&Hl). cbn [as_ords].
  eapply goes_bind with (Q := fun v s' => v = l /\ s' = s1); [by apply goes_lift with (a := l)|]. intros ? ? [-> ->].
  eapply goes_weaken; [|eapply (goes_forM kept)].
  - intros u s2 K2. cbn beta in K2. by etransitivity.
  - intros c s2 Hin K2. destruct (Hl c Hin) as (e&He&Hpe). destruct (kept_at _ _ _ _ K2 Hm) as (m2&Hm2&Km). destruct (kept_at _ _ _ _ K2 He) as (e2&He2&Ke).
    unfold update_magnet. eapply goes_bind with (Q := fun v s' => v = m2 /\ s' = s2); [exists m2, s2; split; [by apply ring_elem_ok|done]|]. intros ? ? [-> ->].
    eapply goes_on_elem; [done|]. eapply update_target_goes; [by eapply fields_kept|by eapply part_kept].
Qed.

Lemma check_goes (ords : list nat) (sps : list R) method : a_method method -> fitting ords sps -> exists x, check_input_and_setpoints method ords sps = Ok x /\ length x = length ords.
Proof.
  intros Hm Hf. unfold check_input_and_setpoints. rewrite decide_True by exact Hm.
  replace ((length sps =? 1) || (length sps =? length ords))%nat with true by (symmetry; apply orb_true_iff; rewrite !Nat.eqb_eq; exact Hf).
  eexists. split; [done|]. destruct Hf as [H|H]; destruct sps as [|x [|y sps]]; try done. all: apply replicate_length.
Qed.
Lemma norm_goes skew (e : elem R) : (exists p, e !! "PassMethod" = Some (VStr p)) -> steerable e -> exists b, norm_by skew e = Ok b /\ b <> 0%R.
Proof.
  intros [p Hp] [Hs _]. unfold norm_by, attr_str, attr_num, attr. rewrite Hp. cbn [rbind as_str]. destruct (decide (p = "CorrectorPass")) as [->|Hne]; [exists 1%R; split; [done|lra]|].
  destruct Hs as [Hs|(len&Hl&H0)]; [congruence|]. rewrite Hl. cbn [rbind as_num]. eexists. split; [done|]. num_R. destruct skew; lra.
Qed.
Lemma sp_array (e : elem R) na nb skew : magnet_fields e na nb -> exists l, e !! SP skew = Some (VVec l) /\ 0 < length l.
Proof. intros [F1 F2 (a&Ha&La) (b&Hb&Lb) _ _ _ _ _ _ _]. destruct skew; [exists a|exists b]; (split; [done|lia]). Qed.
Lemma set_cm_one_goes skew method dt x (e : elem R) na nb : magnet_fields e na nb -> steerable e -> goes (set_cm_one skew method dt x) e (fun _ e' => kept_elem e e').
Proof.
  intros Hf Hs. unfold set_cm_one. destruct (norm_goes skew e (f_pass _ _ _ Hf) Hs) as (b&Eb&Hb). destruct (sp_array e na nb skew Hf) as (l&El&Hl). destruct (lookup_lt_is_Some_2 _ _ Hl) as [l0 Hl0].
  assert (attr_vec e (SP skew) = Ok l) as Ev by (unfold attr_vec, attr; by rewrite El). assert (idx l 0 = Ok l0) as Ei by (by apply idx_ok).
  eapply goes_bind; [eapply goes_getm with (Q := fun v e' => v = b /\ e' = e); [exact Eb|done]|]. intros ? ? [-> ->].
  eapply goes_bind with (Q := fun _ e' => e' = e).
  { eapply ex_intro. eexists. split; [apply getm_ok; split; [|reflexivity]|reflexivity]. rewrite Ev. cbn [rbind]. rewrite Ei. cbn [rbind].
    instantiate (1 := if decide (method = REL) then store dt (nmul x (nmul l0 b)) else if decide (method = ADD) then store dt (nadd x (nmul l0 b)) else x). repeat destruct (decide _); done. }
  intros x1 ? ->. eapply goes_bind with (Q := fun _ e' => e' = e).
  { assert (exists y, clip_cm skew dt e x1 = Ok y) as [y Hy]; [|eapply goes_getm; [exact Hy|done]]. unfold clip_cm. destruct Hs as [_ HL]. unfold maybe in HL. destruct (e !! "CMlimit") as [v|]; [|eauto].
    destruct HL as (ls&->&H2). cbn [as_lims rbind]. destruct (lookup_lt_is_Some_2 ls (if skew then 1 else 0)) as [lm Hlm]; [destruct skew; lia|]. unfold idx. rewrite Hlm. cbn [rbind]. destruct lm; eauto. }
  intros x2 ? ->. eapply goes_bind; [eapply goes_getm with (Q := fun v e' => v = l /\ e' = e); [exact Ev|done]|]. intros ? ? [-> ->].
  eapply goes_bind with (Q := fun _ e' => e' = e). { eapply goes_lift; [|done]. unfold qdiv. destruct (neqb b n0) eqn:E; [|reflexivity]. apply Reqb_true in E. destruct (Hb E). }
  intros y ? ->. eapply goes_bind with (Q := fun v e' => v = <[0 := y]> l /\ e' = e). { eapply goes_lift; [|done]. by apply idx_set_ok. } intros ? ? [-> ->].
  eexists tt, _. split; [by apply setattr_ok|]. eapply keep_setpoint; [|exact El|by rewrite insert_length]. destruct skew; [left|right; left].
Qed.
Lemma set_cm_goes (s : sc R) ords dt sps skew method : a_method method -> fitting ords sps -> (forall i, i ∈ ords -> good_corrector s i) ->
  goes (set_cm_setpoints ords dt sps skew method) s (fun _ s' => kept s s').
Proof.
  intros Hm Hf Hg. unfold set_cm_setpoints. destruct (check_goes _ _ _ Hm Hf) as (x&Ex&Lx). eapply goes_bind with (Q := fun v s' => v = x /\ s' = s); [by eapply goes_lift|]. intros ? ? [-> ->].
  eapply goes_bind with (Q := fun _ s' => kept s s').
  { apply goes_forM; [exact _|]. intros [i y] s1 Hin K. cbn [fst snd]. apply elem_of_zip_l in Hin. destruct (good_corrector_kept _ _ _ K (Hg i Hin)) as [(m&na&nb&Hmi&F&_) (m'&Hm'&Hs)].
    rewrite Hmi in Hm'. injection Hm' as <-. eapply goes_on_elem; [done|]. by eapply set_cm_one_goes. }
  intros u s1 K. cbn beta in K. eapply goes_weaken; [|apply update_magnets_goes].
  - intros u2 s2 K2. cbn beta in K2. by etransitivity.
  - intros i Hi. eapply good_magnet_kept; [exact K|]. by apply Hg.
Qed.

Lemma compensation_goes (s : sc R) i y : good_magnet s i -> good_bend s i -> goes (dipole_compensation i y) s (fun _ s' => kept s s').
Proof.
  intros Hg (m&Hm&Hb). pose proof Hg as (m'&na&nb&Hm'&Hf&_). rewrite Hm in Hm'. injection Hm' as <-. unfold dipole_compensation.
  eapply goes_bind with (Q := fun v s' => v = m /\ s' = s); [exists m, s; split; [by apply ring_elem_ok|done]|]. intros ? ? [-> ->]. unfold maybe in Hb.
  destruct (m !! "BendingAngle") as [v|] eqn:Ev.
  - destruct Hb as (th&->&Hth). eapply goes_bind with (Q := fun v s' => v = th /\ s' = s); [by eapply goes_lift|]. intros ? ? [-> ->].
    eapply goes_bind with (Q := fun v s' => v = s /\ s' = s); [by exists s, s|]. intros ? ? [-> ->]. destruct (neqb th n0) eqn:E0; cbn [negb andb]; [by apply goes_ret|].
    destruct (bool_decide (i ∈ oHCM (ORD s))) eqn:EH; [|by apply goes_ret]. apply bool_decide_eq_true in EH. apply Reqb_false in E0. destruct (Hth E0 EH) as [Hs (nom&q&Hnom&Hq&Hq0)].
    destruct Hf as [F1 F2 F3 (spb&Hspb&Lspb) F5 (nom'&Hnom'&Lnom) F7 F8 F9 F10 F11]. rewrite Hnom in Hnom'. injection Hnom' as <-.
    destruct (lookup_lt_is_Some_2 spb 1) as [s1 Hs1]; [apply lookup_lt_Some in Hq; lia|].
    eapply goes_bind with (Q := fun v s' => v = spb /\ s' = s); [eapply goes_lift; [unfold attr_vec, attr; by rewrite Hspb|done]|]. intros ? ? [-> ->].
    eapply goes_bind with (Q := fun v s' => v = s1 /\ s' = s); [eapply goes_lift; [by apply idx_ok|done]|]. intros ? ? [-> ->].
    eapply goes_bind with (Q := fun v s' => v = nom /\ s' = s); [eapply goes_lift; [unfold attr_vec, attr; by rewrite Hnom|done]|]. intros ? ? [-> ->].
    eapply goes_bind with (Q := fun v s' => v = q /\ s' = s); [eapply goes_lift; [by apply idx_ok|done]|]. intros ? ? [-> ->].
    eapply goes_bind with (Q := fun _ s' => s' = s). { eapply goes_lift; [|done]. unfold qdiv. destruct (neqb q n0) eqn:E; [|reflexivity]. apply Reqb_true in E. destruct (Hq0 E). }
    intros k ? ->. apply set_cm_goes; [right; right; left|by left|]. intros j ->%elem_of_list_singleton. split; [done|]. by exists m.
  - eapply goes_bind with (Q := fun v s' => v = n0 /\ s' = s); [by eapply goes_lift|]. intros ? ? [-> ->]. eapply goes_bind with (Q := fun v s' => v = s /\ s' = s); [by exists s, s|]. intros ? ? [-> ->].
    assert (neqb (n0 : R) n0 = true) as -> by (by apply Reqb_true). cbn [negb andb]. by apply goes_ret.
Qed.
Lemma rmap_goes {A B} (f : A -> res B) l : (forall x, x ∈ l -> exists y, f x = Ok y) -> exists ys, rmap f l = Ok ys /\ length ys = length l.
Proof.
  induction l as [|x l IH]; intros H; cbn [rmap]; [by exists []|]. destruct (H x) as [y Hy]; [left|]. destruct IH as (ys&Hys&L); [intros z Hz; apply H; by right|].
  rewrite Hy. cbn [rbind]. rewrite Hys. cbn [rbind]. exists (y :: ys). split; [done|]. cbn. by rewrite L.
Qed.
Lemma targets_goes (s : sc R) ords dt sps skew order method : a_method method -> fitting ords sps -> (dt = DFloat \/ method = "abs") -> (forall i, i ∈ ords -> good_magnet s i /\ has_order s i skew order) ->
  exists x, magnet_targets ords dt sps skew order method s = Ok x.
Proof.
  intros Hm Hf Hd Hg. unfold magnet_targets. destruct (check_goes _ _ _ Hm Hf) as (x&Ex&Lx). rewrite Ex. cbn [rbind].
  assert (forall a, a = "NomPolynom" +:+ letter skew \/ a = SP skew -> exists y, field_values a order ords s = Ok y) as Hfv.
  { intros a Ha. unfold field_values. edestruct @rmap_goes as (ys&Hys&_); [|by exists ys]. intros i Hi. cbn beta. destruct (Hg i Hi) as [(m&na&nb&Hmi&F&_) (m'&n&Hm'&(sp&Hsp&Lsp)&Hn)]. rewrite Hmi in Hm'. injection Hm' as <-.
    unfold idx at 1. rewrite Hmi. cbn [rbind]. assert (exists v, m !! a = Some (VVec v) /\ order < length v) as (v&Hv&Lv).
    { destruct F as [F1 F2 (a3&A3&L3) (a4&A4&L4) (a5&A5&L5) (a6&A6&L6) F7 F8 F9 F10 F11]. unfold SP, letter in *. destruct skew.
      - rewrite A3 in Hsp. injection Hsp as <-. destruct Ha as [-> | ->]; [exists a5|exists a3]; (split; [done|lia]).
      - rewrite A4 in Hsp. injection Hsp as <-. destruct Ha as [-> | ->]; [exists a6|exists a4]; (split; [done|lia]). }
    unfold attr_vec, attr. rewrite Hv. cbn [rbind as_vec]. destruct (lookup_lt_is_Some_2 _ _ Lv) as [y Hy]. exists y. by apply idx_ok. }
  destruct (Hfv _ (or_introl eq_refl)) as [y1 Hy1]. destruct (Hfv _ (or_intror eq_refl)) as [y2 Hy2]. rewrite Hy1, Hy2. cbn [rbind].
  destruct (decide (method = REL)) as [->|]; [destruct Hd as [->|?]; [cbn; eauto|done]|]. destruct (decide (method = ADD)) as [->|]; [destruct Hd as [->|?]; [cbn; eauto|done]|]. eauto.
Qed.
Lemma set_magnet_goes (s : sc R) ords dt sps skew order method comp : acceptable s (OpSetMagnet ords dt sps skew order method comp) ->
  goes (set_magnet_setpoints ords dt sps skew order method comp) s (fun _ s' => kept s s').
Proof.
  intros (Hm&Hf&Hd&Hg). unfold set_magnet_setpoints. eapply goes_bind with (Q := fun v s' => v = s /\ s' = s); [by exists s, s|]. intros ? ? [-> ->].
  destruct (targets_goes s ords dt sps skew order method) as [x Hx]; try done. { intros i Hi. by destruct (Hg i Hi) as (?&?&_). }
  eapply goes_bind with (Q := fun v s' => v = x /\ s' = s); [by eapply goes_lift|]. intros ? ? [-> ->].
  eapply goes_bind with (Q := fun _ s' => kept s s').
  { apply goes_forM; [exact _|]. intros [i y] s1 Hin K. cbn [fst snd]. apply elem_of_zip_l in Hin. destruct (Hg i Hin) as (G1&G2&G3&G4). apply (good_magnet_kept _ _ _ K) in G1. apply (has_order_kept _ _ _ _ _ K) in G2.
    eapply maybe_at_kept in G3; [|exact K|not_in]. assert (comp = true -> order = 1 -> good_bend s1 i) as G4' by (intros; eapply good_bend_kept; eauto). clear G4 K Hg Hx. rename s1 into t.
    unfold set_magnet_one. destruct G3 as (m&Hmi&HS). eapply goes_bind with (Q := fun v s' => v = m /\ s' = t); [exists m, t; split; [by apply ring_elem_ok|done]|]. intros ? ? [-> ->].
    eapply goes_bind with (Q := fun _ s' => s' = t).
    { assert (exists z, clip_skew skew order dt m y = Ok z) as [z Hz]; [|by eapply goes_lift]. unfold clip_skew. destruct (skew && (order =? 1)%nat); [|eauto]. unfold maybe in HS.
      destruct (m !! "SkewQuadLimit") as [v|]; [|eauto]. destruct HS as [l ->]. cbn [as_lim rbind]. destruct l; eauto. }
    intros z ? ->. eapply goes_bind with (Q := fun _ s' => kept t s').
    { destruct comp; cbn [andb when]; [|by apply goes_ret]. destruct (order =? 1)%nat eqn:E; cbn [when]; [|by apply goes_ret]. apply Nat.eqb_eq in E. apply compensation_goes; auto. }
    intros u t2 K2. cbn beta in K2. apply (has_order_kept _ _ _ _ _ K2) in G2. destruct G2 as (m2&n&Hm2&(sp&Hsp&Lsp)&Hn).
    eapply goes_weaken; [|eapply goes_on_elem; [exact Hm2|]]. { intros u3 s3 K3. cbn beta in K3. by etransitivity. }
    assert (m2 !! SP skew = Some (VVec sp)) as Hsp' by (by destruct skew). unfold set_sp_entry.
    eapply goes_bind with (Q := fun v e' => v = sp /\ e' = m2); [eapply goes_getm; [unfold attr_vec, attr; by rewrite Hsp'|done]|]. intros ? ? [-> ->].
    eapply goes_bind with (Q := fun v e' => v = <[order := z]> sp /\ e' = m2). { eapply goes_lift; [|done]. apply idx_set_ok. split; [lia|done]. } intros ? ? [-> ->].
    eexists tt, _. split; [by apply setattr_ok|]. eapply keep_setpoint; [|exact Hsp'|by rewrite insert_length]. destruct skew; [left|right; left]. }
  intros u s1 K. cbn beta in K. eapply goes_weaken; [|apply update_magnets_goes].
  - intros u2 s2 K2. cbn beta in K2. by etransitivity.
  - intros i Hi. eapply good_magnet_kept; [exact K|]. by apply Hg.
Qed.

Lemma update_cavities_goes (s : sc R) ords : (forall i, i ∈ ords -> good_cavity s i) -> goes (update_cavities ords) s (fun _ s' => kept s s').
Proof.
  intros Hg. unfold update_cavities. apply goes_forM; [exact _|]. intros i s1 Hi K. pose proof (good_cavity_kept _ _ _ K (Hg i Hi)) as (e&He&H). eapply goes_on_elem; [done|]. unfold update_cavity.
  apply goes_forM; [exact _|]. intros f e1 Hf Ke.
  assert (forall a, a ∈ ["SetPoint"; "CalError"; "Offset"] -> scalar e1 (f +:+ a)) as H1.
  { intros a Ha. specialize (H f a Hf Ha). destruct Ke as (K1&_&K3). unfold RF_PROPERTIES in Hf. rewrite !elem_of_cons, elem_of_nil in Hf, Ha.
    destruct Hf as [-> | [-> | [-> | []]]], Ha as [-> | [-> | [-> | []]]];
      first [apply K3; [apply (bool_decide_eq_true_1 _); vm_compute; reflexivity|exact H] |unfold scalar; rewrite K1 by not_in; exact H]. }
  destruct (H1 "SetPoint") as [x Hx]; [left|]. destruct (H1 "CalError") as [y Hy]; [right; left|]. destruct (H1 "Offset") as [z Hz]; [right; right; left|].
  eapply goes_bind with (Q := fun _ e' => e' = e1).
  { eapply goes_getm; [|done]. unfold attr_num, attr. rewrite Hx. cbn [rbind as_num]. rewrite Hy. cbn [rbind as_num]. rewrite Hz. cbn [rbind as_num]. reflexivity. }
  intros v ? ->. eexists tt, _. split; [by apply setattr_ok|]. apply keep_field. unfold RF_PROPERTIES in Hf. do 4 right. exact Hf.
Qed.
Lemma set_cavity_goes (s : sc R) ords dt sps param method : acceptable s (OpSetCavity ords dt sps param method) -> goes (set_cavity_setpoints ords dt sps param method) s (fun _ s' => kept s s').
Proof.
  intros (Hm&Hf&Hd&Hp&Hg). unfold set_cavity_setpoints. eapply goes_bind with (Q := fun v s' => v = s /\ s' = s); [by exists s, s|]. intros ? ? [-> ->].
  assert (exists x, cavity_targets ords dt sps param method s = Ok x) as [x Hx].
  { unfold cavity_targets. destruct (check_goes _ _ _ Hm Hf) as (x&Ex&Lx). rewrite Ex. cbn [rbind].
    assert (exists y, field_nums (param +:+ "SetPoint") ords s = Ok y) as [y Hy].
    { unfold field_nums. edestruct @rmap_goes as (ys&Hys&_); [|by exists ys]. intros i Hi. cbn beta. destruct (Hg i Hi) as (e&He&H). unfold idx. rewrite He. cbn [rbind].
      destruct (H param "SetPoint") as [v Hv]; [done|left|]. exists v. unfold attr_num, attr. by rewrite Hv. }
    rewrite Hy. cbn [rbind]. destruct (decide (method = REL)) as [->|]; [destruct Hd as [->|?]; [cbn; eauto|done]|]. destruct (decide (method = ADD)) as [->|]; [destruct Hd as [->|?]; [cbn; eauto|done]|]. eauto. }
  eapply goes_bind with (Q := fun v s' => v = x /\ s' = s); [by eapply goes_lift|]. intros ? ? [-> ->].
  eapply goes_bind with (Q := fun _ s' => kept s s').
  { apply goes_forM; [exact _|]. intros [i y] s1 Hin K. cbn [fst snd]. apply elem_of_zip_l in Hin. destruct (good_cavity_kept _ _ _ K (Hg i Hin)) as (e&He&_). eapply goes_on_elem; [done|].
    eexists tt, _. split; [by apply setattr_ok|]. apply keep_cavity. rewrite !elem_of_cons, elem_of_nil in Hp. destruct Hp as [-> | [-> | [-> | []]]]; [left|right; left|right; right; left]. }
  intros u s1 K. cbn beta in K. eapply goes_weaken; [|apply update_cavities_goes].
  - intros u2 s2 K2. cbn beta in K2. by etransitivity.
  - intros i Hi. eapply good_cavity_kept; eauto.
Qed.
Lemma call_goes minv (s : sc R) o : acceptable s o -> goes (call minv o) s (fun _ s' => kept s s').
Proof.
  destruct o; cbn [acceptable call]; try done.
  - intros (A1&A2&A3). by apply set_cm_goes.
  - apply set_magnet_goes.
  - apply set_cavity_goes.
  - apply update_magnets_goes.
  - apply update_cavities_goes.
  - intros Hm. eexists tt, _. split; [unfold on_INJ, set_trackMode; rewrite decide_True by exact Hm; reflexivity|]. split; [done|]. split; [done|]. cbn. intros i e e' H H'. rewrite H in H'. injection H' as <-. reflexivity.
Qed.

(** * C94 *)
(** A call that is acceptable returns; it registers nothing new, and whatever was acceptable before it is acceptable after it. *)
Theorem C94_call_returns minv (s : sc R) o : acceptable s o -> exists s', call minv o s = (Ok tt, s') /\ ORD s' = ORD s /\ length (RING s') = length (RING s) /\ forall p, acceptable s p -> acceptable s' p.
Proof. intros H. destruct (call_goes minv s o H) as ([]&s'&E&K). cbn beta in K. exists s'. split; [done|]. split; [apply K|]. split; [apply K|]. intros p. by apply acceptable_kept. Qed.
(** So in a history of calls that were acceptable at its beginning, whatever their number and order, none fails, and they all stay acceptable. *)
Theorem C94_histories_return minv (s : sc R) ops : Forall (acceptable s) ops -> Forall (fun r => r = Ok tt) (outcomes minv ops s) /\ length (outcomes minv ops s) = length ops /\ forall p, acceptable s p -> acceptable (run minv ops s) p.
Proof.
  revert s. induction ops as [|o ops IH]; intros s H; cbn [outcomes]; [split; [constructor|]; done|]. inversion H as [|? ? Ho Hops]; subst.
  destruct (C94_call_returns minv s o Ho) as (s'&E&_&_&Hk). unfold run. cbn [fold_left]. fold (run minv ops (snd (call minv o s))). rewrite E. cbn [fst snd]. destruct (IH s') as (I1&I2&I3).
  { eapply Forall_impl; [exact Hops|]. exact Hk. }
  split; [by constructor|]. split; [cbn; by rewrite I2|]. intros p Hp. auto.
Qed.

(** ** Registration *)
(** an element of the design lattice that can be registered as a magnet *)
Definition never_set : list string := ["PolynomAOffset"; "PolynomBOffset"; "SysPolAFromA"; "SysPolAFromB"; "SysPolBFromA"; "SysPolBFromB"; "BendingAngleError"; "CombinedFunction"; "MasterOf"; "CMlimit"; "SkewQuadLimit"].
Definition long (e : elem R) : Prop := exists len, e !! "Length" = Some (VNum len) /\ len <> 0%R.
Definition gradient (e : elem R) : Prop := exists p q, e !! "PolynomB" = Some (VVec p) /\ p !! 1 = Some q /\ q <> 0%R.
Record designed (e : elem R) : Prop := {
  d_a : exists n, 0 < n /\ array e "PolynomA" n; d_b : exists n, 0 < n /\ array e "PolynomB" n;
  d_pass : exists p, e !! "PassMethod" = Some (VStr p) /\ (p = "CorrectorPass" \/ long e);
  d_bend : maybe e "BendingAngle" (fun v => (exists x, v = VNum x) /\ long e);
  d_none : forall a, a ∈ never_set -> e !! a = None }.
(** a design element that may be a part of a magnet registered with these keywords *)
Definition fit_part (k : magtype R) (e : elem R) : Prop :=
  (forall a, a ∈ ["PolynomAOffset"; "PolynomBOffset"; "SysPolAFromA"; "SysPolAFromB"; "SysPolBFromA"; "SysPolBFromB"] -> e !! a = None) /\ (kCF k = true -> scalar e "BendingAngle" /\ long e).

Ltac in_list := apply (bool_decide_eq_true_1 _); vm_compute; reflexivity.
(** Registration brings elements of the design lattice into good order: as magnets, as correctors, as skew quadrupoles with or without a limit, and for the dipole compensation if the bends have a gradient. *)
Theorem C94_registration ords errs k (s s' : sc R) u : register_magnets ords errs k s = (Ok u, s') ->
  forall i e, i ∈ ords -> RING s !! i = Some e -> designed e -> (kCF k = true -> e !! "BendingAngle" <> None -> gradient e) ->
  (forall rows row p, kMasterOf k = Some rows -> row ∈ rows -> p ∈ row -> exists c, RING s !! p = Some c /\ fit_part k c) ->
  good_corrector s' i /\ maybe_at s' i "SkewQuadLimit" (fun v => exists l, v = VLim l) /\ ((e !! "BendingAngle" <> None -> gradient e) -> good_bend s' i).
Proof.
  intros H i e Hi He [(na&Hna&pa0&PA&LA) (nb&Hnb&pb0&PB&LB) (pm&PM&Hlen) Hbend Hnone] Hcf Hparts.
  destruct (C19_registration_records_the_field _ _ _ _ _ _ _ H Hi) as (pa&pb&A0&B0&A1&B1&NA&NB&SA&SB&CA&CB&Hout).
  destruct (C19_registration_keywords _ _ _ _ _ _ _ H Hi) as (CF&SK&_).
  assert (exists e', RING s' !! i = Some e') as [e' He']. { unfold attr_at in A1. destruct (RING s' !! i) as [e'|]; [by exists e'|done]. }
  assert (forall a, attr_at s i a = e !! a) as Ea by (intros a; unfold attr_at; by rewrite He). assert (forall a, attr_at s' i a = e' !! a) as Ea' by (intros a; unfold attr_at; by rewrite He').
  rewrite Ea in A0, B0. rewrite A0 in PA. injection PA as <-. rewrite B0 in PB. injection PB as <-. rewrite Ea' in A1, B1, NA, NB, SA, SB, CA, CB. rewrite Ea', Ea in CF, SK.
  assert (forall a, a ∉ REGISTERED -> e' !! a = e !! a) as Hk. { intros a Ha. rewrite <- Ea', <- Ea. apply Hout. by left. }
  assert (e' !! "BendingAngle" = e !! "BendingAngle") as KB by (apply Hk; not_in). assert (e' !! "Length" = e !! "Length") as KL by (apply Hk; not_in). assert (e' !! "PassMethod" = e !! "PassMethod") as KP by (apply Hk; not_in).
  assert (e' !! "BendingAngleError" = None) as KE by (rewrite Hk by not_in; apply Hnone; in_list).
  assert (long e -> long e') as Hlong by (unfold long; by rewrite KL).
  rewrite (Hnone "CombinedFunction") in CF by in_list. rewrite (Hnone "SkewQuadLimit") in SK by in_list.
  assert (magnet_fields e' na nb) as HF.
  { split; try done.
    - exists pa. done. - exists pb. done. - exists pa. done. - exists pb. done.
    - exists na. split; [lia|]. exists (replicate (length pa) 0%R). rewrite replicate_length. done.
    - exists nb. split; [lia|]. exists (replicate (length pb) 0%R). rewrite replicate_length. done.
    - unfold maybe. by rewrite KE.
    - rewrite KB, CF. intros Hb Hc. destruct (kCF k); [|done]. destruct (Hcf eq_refl Hb) as (p&q&Hp&Hq&Hq0). rewrite B0 in Hp. injection Hp as <-. split.
      + exists (length pb). split; [by apply lookup_lt_Some in Hq|]. exists (replicate (length pb) 0%R). by rewrite replicate_length.
      + exists pb, q. done.
    - exists pm. by rewrite KP. }
  assert (forall c c', (forall a, a ∉ REGISTERED -> c' !! a = c !! a) -> fit_part k c -> part_fields e' c' na nb) as HPart.
  { intros c c' Hc [Hn Hb]. split; try (unfold maybe; rewrite Hc by not_in; rewrite Hn by in_list; done).
    intros [Hb'|[Hb1 Hb2]]; [by rewrite KE in Hb'|]. rewrite CF in Hb2. destruct (kCF k); [|done]. destruct (Hb eq_refl) as [X1 X2]. split; [unfold scalar; by rewrite Hc by not_in|unfold long in X2; by rewrite Hc by not_in]. }
  assert (steerable e') as HS.
  { split.
    - rewrite KP. destruct Hlen as [->|Hlen]; [by left|right; by apply Hlong].
    - destruct (C19_registration_keywords _ _ _ _ _ _ _ H Hi) as (_&_&L0&L1&_). unfold limited, plane_limit in L0, L1. rewrite !Ea', !Ea, (Hnone "CMlimit") in L0, L1 by in_list. unfold maybe.
      pose proof H as H'. apply register_magnets_loop in H' as (s1&E1&H'). destruct (magnet_loop_options _ _ _ _ _ _ _ H') as [_ HO]. rewrite E1 in HO. destruct (HO i e e' He He') as [X _]. destruct (X Hi) as [[_ Y _ _ _ _] _].
      rewrite Y, (Hnone "CMlimit") by in_list. unfold limits_after. destruct (kHCM k), (kVCM k); cbn; try done; eexists; (split; [done|]); cbn; lia. }
  assert (fit_part k e \/ (kCF k = true /\ e !! "BendingAngle" = None)) as Hself.
  { destruct (e !! "BendingAngle") as [v|] eqn:Ev.
    - left. split; [intros a Ha; apply Hnone; rewrite !elem_of_cons, elem_of_nil in Ha; destruct Ha as [-> | [-> | [-> | [-> | [-> | [-> | []]]]]]]; in_list|]. intros _. unfold maybe in Hbend. rewrite Ev in Hbend. destruct Hbend as [[x ->] Hl]. split; [by exists x|done].
    - destruct (kCF k) eqn:Ek; [by right|left]. split; [|by rewrite Ek]. intros a Ha; apply Hnone; rewrite !elem_of_cons, elem_of_nil in Ha; destruct Ha as [-> | [-> | [-> | [-> | [-> | [-> | []]]]]]]; in_list. }
  assert (part_fields e' e' na nb) as HPS.
  { destruct Hself as [Hs|[Hk1 Hk2]]; [by eapply HPart|]. split; try (unfold maybe; rewrite Hk by not_in; rewrite Hnone by in_list; done). intros [Hb|[Hb _]]; [by rewrite KE in Hb|]. by rewrite KB in Hb. }
  assert (good_magnet s' i) as HG.
  { exists e', na, nb. split; [done|]. split; [done|]. split; [done|]. unfold maybe. destruct (kMasterOf k) as [rows|] eqn:Ekm.
    - destruct (C21_registered_parts _ _ _ _ _ _ _ H Ekm) as [_ HP]. apply elem_of_list_lookup in Hi as [j Hj]. destruct (HP j i Hj) as (parts&Hpa&Lp&Hr). rewrite Ea' in Hpa. rewrite Hpa. exists parts. split; [done|].
      intros c Hc. apply elem_of_list_lookup in Hc as [r Hc]. destruct (lookup_lt_is_Some_2 rows r) as [row Hrow]; [rewrite <- Lp; by eapply lookup_lt_Some|]. destruct (Hr r row Hrow) as (p&Hp&Hp').
      rewrite Hc in Hp'. injection Hp' as <-. destruct (Hparts rows row c eq_refl) as (x&Hx&Hfit); [by eapply elem_of_list_lookup_2|by eapply elem_of_list_lookup_2|].
      assert (exists x', RING s' !! c = Some x') as [x' Hx'].
      { pose proof H as H'. apply register_magnets_loop in H' as (s1&E1&H'). destruct (magnet_loop_options _ _ _ _ _ _ _ H') as [HL _]. rewrite E1 in HL. destruct (lookup_lt_is_Some_2 (RING s') c) as [x' Hx']; [rewrite HL; by eapply lookup_lt_Some|eauto]. }
      exists x'. split; [done|]. eapply HPart; [|exact Hfit]. intros a Ha. pose proof (Hout c a (or_introl Ha)) as Hca. unfold attr_at in Hca. rewrite Hx, Hx' in Hca. exact Hca.
    - pose proof H as H'. apply register_magnets_loop in H' as (s1&E1&H'). destruct (magnet_loop_options _ _ _ _ _ _ _ H') as [_ HO]. rewrite E1 in HO. destruct (HO i e e' He He') as [X _]. destruct (X Hi) as [[_ _ _ _ _ Y] _]. rewrite Ekm in Y. by rewrite Y, (Hnone "MasterOf") by in_list. }
  split; [split; [done|by exists e']|]. split.
  - exists e'. split; [done|]. unfold maybe. rewrite SK. destruct (kSkewQuad k); [eauto|done].
  - intros Hgr. exists e'. split; [done|]. unfold maybe. rewrite KB. unfold maybe in Hbend. destruct (e !! "BendingAngle") as [v|]; [|done]. destruct Hbend as [[x ->] _]. exists x. split; [done|]. intros _ _. split; [done|].
    destruct Hgr as (p&q&Hp&Hq&Hq0); [done|]. rewrite B0 in Hp. injection Hp as <-. exists pb, q. done.
Qed.

(** ** Errors *)
(** uncertainties of the right shape: those of a calibration have at most as many entries as the magnet has components (and an entry for the gradient of a combined-function bend), those of the bending angle
    are numbers and belong to magnets that bend and have a length, with their parts; those of cavities are numbers; and no magnet in good order, nor a part of one, is a drift *)
Definition sane_calibration (m : elem R) (a : string) (sg : sigval R) : Prop :=
  exists l n, sigma_value sg = VVec l /\ array m a n /\ length l <= n.
Definition straight_or_long (e : elem R) : Prop := scalar e "BendingAngle" /\ long e.
Record sane (s : sc R) : Prop := {
  n_drift : forall i, good_magnet s i -> ~ drift_at s i /\ forall c, child_of s c i -> ~ drift_at s c;
  n_mag : forall i d k sg m, sMagnet (SIG s) !! i = Some d -> (k, sg) ∈ d -> RING s !! i = Some m ->
    (k = "CalErrorA" -> sane_calibration m "SetPointA" sg) /\
    (k = "CalErrorB" -> sane_calibration m "SetPointB" sg /\ (m !! "BendingAngle" <> None -> m !! "CombinedFunction" = Some (VBool true) -> exists l, sigma_value sg = VVec l /\ 1 < length l)) /\
    (k = "BendingAngle" -> (exists x, sigma_value sg = VNum x) /\ straight_or_long m /\ forall c, child_of s c i -> exists e, RING s !! c = Some e /\ straight_or_long e);
  n_rf : forall i d k sg, sRF (SIG s) !! i = Some d -> (k, sg) ∈ d -> exists x, sigma_value sg = VNum x }.

Definition solid : list string := ["SetPointA"; "SetPointB"; "NomPolynomA"; "NomPolynomB"; "PassMethod"; "BendingAngle"; "CombinedFunction"; "MasterOf"; "PolynomAOffset"; "PolynomBOffset";
  "SysPolAFromA"; "SysPolAFromB"; "SysPolBFromA"; "SysPolBFromB"; "CMlimit"; "SkewQuadLimit"; "VoltageSetPoint"; "FrequencySetPoint"; "TimeLagSetPoint"].
Definition magnet_errors : list string := ["CalErrorA"; "CalErrorB"; "BendingAngleError"].
Definition cavity_errors : list string := ["VoltageOffset"; "VoltageCalError"; "FrequencyOffset"; "FrequencyCalError"; "TimeLagOffset"; "TimeLagCalError"].
Definition drawn (g : gmap nat (dict (sigval R))) (name : string -> string) (i : nat) (a : string) (v : val R) : Prop :=
  exists d k sg, g !! i = Some d /\ (k, sg) ∈ d /\ a = name k /\ same_shape (sigma_value sg) v.
Definition hit (gm gf : gmap nat (dict (sigval R))) (i : nat) (e e' : elem R) : Prop :=
  (forall a, a ∈ solid -> e' !! a = e !! a) /\ (e !! "PassMethod" <> Some (VStr "DriftPass") -> e' !! "Length" = e !! "Length") /\
  (forall a, a ∈ magnet_errors -> e' !! a = e !! a \/ exists v, e' !! a = Some v /\ drawn gm magnet_field i a v) /\
  (forall a, a ∈ cavity_errors -> e' !! a = e !! a \/ exists v, e' !! a = Some v /\ drawn gf (fun k => k) i a v).
#[local] Instance hit_preorder gm gf i : PreOrder (hit gm gf i).
Proof.
  split; [split; [done|]; split; [done|]; split; intros a _; by left|].
  intros a b c (A1&A2&A3&A4) (B1&B2&B3&B4). assert (b !! "PassMethod" = a !! "PassMethod") as Ep by (apply A1; in_list). split; [|split; [|split]].
  - intros x Hx. by rewrite B1, A1.
  - intros Hd. rewrite B2, A2; [done|done|by rewrite Ep].
  - intros x Hx. destruct (B3 x Hx) as [->|?]; [by apply A3|by right].
  - intros x Hx. destruct (B4 x Hx) as [->|?]; [by apply A4|by right].
Qed.
Definition struck gm gf (s s' : sc R) : Prop := ORD s' = ORD s /\ SIG s' = SIG s /\ length (RING s') = length (RING s) /\ forall i e e', RING s !! i = Some e -> RING s' !! i = Some e' -> hit gm gf i e e'.
#[local] Instance struck_preorder gm gf : PreOrder (struck gm gf).
Proof.
  split; [split; [done|]; split; [done|]; split; [done|]; intros i e e' H H'; rewrite H in H'; injection H' as <-; reflexivity|].
  intros a b c (A1&A2&A3&A4) (B1&B2&B3&B4). split; [congruence|]. split; [congruence|]. split; [congruence|]. intros i e e' H H'.
  destruct (lookup_lt_is_Some_2 (RING b) i) as [x Hx]; [rewrite A3; by eapply lookup_lt_Some|]. etransitivity; eauto.
Qed.
Lemma struck_on_elem gm gf i (m : M (elem R) unit) : pres (hit gm gf i) m -> pres (struck gm gf) (on_elem i m).
Proof.
  intros Hm s. unfold on_elem. destruct (RING s !! i) as [e|] eqn:He; [|reflexivity]. specialize (Hm e). destruct (m e) as [r e']. cbn [snd] in *.
  split; [done|]. split; [done|]. split; [cbn; by rewrite insert_length|]. cbn. intros j x x' Hx Hx'. destruct (decide (i = j)) as [->|Hne].
  - rewrite list_lookup_insert in Hx' by (by eapply lookup_lt_Some). congruence.
  - rewrite list_lookup_insert_ne in Hx' by done. assert (x = x') as -> by congruence. reflexivity.
Qed.
Lemma hit_set gm gf i e a v : a ∉ solid -> a <> "Length" -> (a ∈ magnet_errors -> drawn gm magnet_field i a v) -> (a ∈ cavity_errors -> drawn gf (fun k => k) i a v) -> hit gm gf i e (<[a := v]> e).
Proof.
  intros H1 H2 H3 H4. split; [|split; [|split]].
  - intros b Hb. apply lookup_insert_ne. intros <-. done.
  - intros _. by apply lookup_insert_ne.
  - intros b Hb. destruct (decide (a = b)) as [<-|Hne]; [right; exists v; rewrite lookup_insert; auto|left; by apply lookup_insert_ne].
  - intros b Hb. destruct (decide (a = b)) as [<-|Hne]; [right; exists v; rewrite lookup_insert; auto|left; by apply lookup_insert_ne].
Qed.
Definition watched : list string := solid ++ "Length" :: magnet_errors ++ cavity_errors.
Lemma struck_upto gm gf {A} (P : string -> Prop) (m : M (sc R) A) : (forall a, a ∈ watched -> ~ P a) -> pres (upto P) m -> pres (same (@ORD R)) m -> pres (same (@SIG R)) m -> pres (struck gm gf) m.
Proof.
  intros HP Hm HO HS s. specialize (Hm s). specialize (HO s). specialize (HS s). destruct Hm as [HL Ha]. split; [done|]. split; [done|]. split; [done|]. intros i e e' He He'.
  assert (forall a, a ∈ watched -> e' !! a = e !! a) as Hk. { intros a Hw. specialize (Ha i a (HP a Hw)). unfold attr_at in Ha. by rewrite He, He' in Ha. }
  unfold watched in Hk. split; [|split; [|split]].
  - intros a Hx. apply Hk. apply elem_of_app. by left.
  - intros _. apply Hk. apply elem_of_app. right. left.
  - intros a Hx. left. apply Hk. apply elem_of_app. right. right. apply elem_of_app. by left.
  - intros a Hx. left. apply Hk. apply elem_of_app. right. right. apply elem_of_app. by right.
Qed.
Lemma bounded_shape cut (x v : val R) : bounded cut x v -> same_shape x v.
Proof. destruct x, v; cbn; try done; [apply Forall2_length|]. intros H. eapply Forall2_impl; [exact H|]. intros ? ?. apply Forall2_length. Qed.
Lemma error_shape nsig sg (v : val R) : error_bounded nsig sg v -> same_shape (sigma_value sg) v.
Proof. destruct sg; apply bounded_shape. Qed.
Lemma struck_draw gm gf nsig i (kv : string * sigval R) a : (forall v e, same_shape (sigma_value kv.2) v -> hit gm gf i e (<[a := v]> e)) -> pres (struck gm gf) (let! v := randn_cutoff kv.2 nsig in on_elem i (setattr a v)).
Proof.
  intros H s. unfold bind. pose proof (same_randn_cutoff (fun s : sc R => (RING s, ORD s, SIG s)) ltac:(done) kv.2 nsig s) as E. destruct (randn_cutoff kv.2 nsig s) as [[v|x] s1] eqn:Er; cbn [snd] in *; unfold same in E; injection E as E1 E2 E3.
  - apply randn_cutoff_bound, error_shape in Er. assert (struck gm gf s s1) as K.
    { split; [done|]. split; [done|]. split; [by rewrite E1|]. rewrite E1. intros j y y' Hy Hy'. rewrite Hy in Hy'. injection Hy' as <-. reflexivity. }
    etransitivity; [exact K|]. apply struck_on_elem. intros e. apply H. exact Er.
  - split; [done|]. split; [done|]. split; [by rewrite E1|]. rewrite E1. intros j y y' Hy Hy'. rewrite Hy in Hy'. injection Hy' as <-. reflexivity.
Qed.
Lemma apart' (L K : list string) x : apartb L K = true -> x ∈ L -> x ∉ K.
Proof. intros H Hx HK. by eapply apart. Qed.
Lemma struck_rf gm nsig (s : sc R) : well_registered s -> struck gm (sRF (SIG s)) s (snd (apply_rf nsig s)).
Proof.
  intros (_&_&F1&_). unfold apply_rf. unfold bind at 1, get at 1. cbn iota. apply (pres_forM (struck gm (sRF (SIG s)))). intros i Hi. apply pres_forM; [exact _|]. intros kv Hkv. apply struck_draw. intros v e Hv.
  destruct (sRF (SIG s) !! i) as [d|] eqn:Ed; cbn [default] in Hkv; [|by apply elem_of_nil in Hkv]. destruct (F1 _ _ Ed) as (_&Ha&_). assert (kv.1 ∈ RF_ERROR_FIELDS) as HL. { apply Ha. unfold dkeys. apply elem_of_list_fmap. by exists kv. }
  apply hit_set.
  - by apply (apart' RF_ERROR_FIELDS).
  - intros E. revert HL. rewrite E. not_in.
  - intros Hm. exfalso. revert Hm. by apply (apart' RF_ERROR_FIELDS).
  - intros _. exists d, kv.1, kv.2. split; [done|]. split; [by destruct kv|]. done.
Qed.
Lemma struck_bpm gm gf nsig (s : sc R) : well_registered s -> struck gm gf s (snd (apply_bpm nsig s)).
Proof.
  intros (B1&_). unfold apply_bpm. unfold bind at 1, get at 1. cbn iota. apply (pres_forM (struck gm gf)). intros i Hi. apply pres_forM; [exact _|]. intros kv Hkv.
  destruct (sBPM (SIG s) !! i) as [d|] eqn:Ed; cbn [default] in Hkv; [|by apply elem_of_nil in Hkv]. destruct (B1 _ _ Ed) as (_&Ha&_). assert (kv.1 ∈ BPM_ERROR_FIELDS) as HL. { apply Ha. unfold dkeys. apply elem_of_list_fmap. by exists kv. }
  assert (forall v e, hit gm gf i e (<[kv.1 := v]> e)) as Hs.
  { intros v e. apply hit_set.
    - by apply (apart' BPM_ERROR_FIELDS).
    - intros E. revert HL. rewrite E. not_in.
    - intros Hm. exfalso. revert Hm. by apply (apart' BPM_ERROR_FIELDS).
    - intros Hm. exfalso. revert Hm. by apply (apart' BPM_ERROR_FIELDS). }
  destruct (substring "Noise" kv.1); [apply struck_on_elem; intros e; apply Hs|]. apply struck_draw. intros v e _. apply Hs.
Qed.
Lemma struck_magnet gf nsig (s : sc R) : well_registered s -> struck (sMagnet (SIG s)) gf s (snd (apply_magnet nsig s)).
Proof.
  intros (_&_&_&_&M1&_). unfold apply_magnet. unfold bind at 1, get at 1. cbn iota. apply (pres_forM (struck (sMagnet (SIG s)) gf)). intros i Hi. apply pres_forM; [exact _|]. intros kv Hkv. apply struck_draw. intros v e Hv.
  destruct (sMagnet (SIG s) !! i) as [d|] eqn:Ed; cbn [default] in Hkv; [|by apply elem_of_nil in Hkv]. destruct (M1 _ _ Ed) as (_&Ha&_). assert (magnet_field kv.1 ∈ map magnet_field MAGNET_ERROR_FIELDS) as HL.
  { apply elem_of_list_fmap. exists kv.1. split; [done|]. apply Ha. unfold dkeys. apply elem_of_list_fmap. by exists kv. }
  apply hit_set.
  - by apply (apart' (map magnet_field MAGNET_ERROR_FIELDS)).
  - intros E. revert HL. rewrite E. not_in.
  - intros _. exists d, kv.1, kv.2. split; [done|]. split; [by destruct kv|]. done.
  - intros Hm. exfalso. revert Hm. by apply (apart' (map magnet_field MAGNET_ERROR_FIELDS)).
Qed.
Lemma struck_scale gm gf c mode : pres (struck gm gf) (scale_circumference c mode).
Proof.
  unfold scale_circumference. repeat first [pres_step]. apply struck_on_elem. intros e. unfold scale_drift, bind, getm at 1. destruct (is_drift e) as [[|]|] eqn:Ed; cbn [when snd ret]; try reflexivity.
  destruct (attr_num e "Length") as [l|] eqn:El; unfold getm; rewrite El; cbn [snd]; [|reflexivity].
  assert (e !! "PassMethod" = Some (VStr "DriftPass")) as Hd. { unfold is_drift in Ed. apply rbind_ok in Ed as (p&Hp&Ed). apply attr_str_ok in Hp. injection Ed as Ed. apply bool_decide_eq_true in Ed. by subst p. }
  split; [intros b Hb; apply lookup_insert_ne; intros <-; revert Hb; not_in|]. split; [done|]. split; intros b Hb; left; apply lookup_insert_ne; intros <-; revert Hb; not_in.
Qed.
Lemma watched_not_support a : a ∈ watched -> ~ support_name a.
Proof.
  assert (Forall (fun a => forallb (fun t => negb (substring (stype_str t) a)) [SSection; SPlinth; SGirder] = true) watched) as HF by (repeat (apply Forall_cons; split; [reflexivity|]); constructor).
  rewrite Forall_forall in HF. intros Ha [t Ht]. specialize (HF a Ha). cbn [forallb] in HF. rewrite !andb_true_iff, !negb_true_iff in HF. destruct HF as (Hs&Hp&Hg&_). destruct t; congruence.
Qed.
Lemma struck_errors minv nsig (s : sc R) : well_registered s -> struck (sMagnet (SIG s)) (sRF (SIG s)) s (snd (apply_errors minv nsig s)).
Proof.
  intros Hw. set (gm := sMagnet (SIG s)). set (gf := sRF (SIG s)).
  assert (forall s1, struck gm gf s s1 -> well_registered s1) as HW. { intros s1 (E1&E2&_). unfold well_registered. rewrite E1, E2. exact Hw. }
  unfold apply_errors. unfold bind at 1. pose proof (struck_rf gm nsig s Hw) as K1. fold gf in K1. destruct (apply_rf nsig s) as [[u1|x] s1] eqn:E1; cbn [snd] in *; [|done].
  unfold bind at 1. pose proof (struck_bpm gm gf nsig s1 (HW _ K1)) as K2. destruct (apply_bpm nsig s1) as [[u2|x] s2] eqn:E2; cbn [snd] in *; [|by etransitivity].
  assert (struck gm gf s s2) as K12 by (by etransitivity).
  unfold bind at 1. pose proof (struck_magnet gf nsig s2 (HW _ K12)) as K3. assert (sMagnet (SIG s2) = gm) as Eg by (by rewrite (proj1 (proj2 K12))). rewrite Eg in K3.
  destruct (apply_magnet nsig s2) as [[u3|x] s3] eqn:E3; cbn [snd] in *; [|by etransitivity].
  assert (struck gm gf s s3) as K13 by (by etransitivity). etransitivity; [exact K13|]. clear K1 K2 K3 K12 K13 E1 E2 E3 HW Eg s1 s2 u1 u2 u3. revert s3.
  match goal with |- forall s3, struck gm gf s3 (snd (?m s3)) => change (pres (struck gm gf) m) end.
  apply pres_bind; [exact _| |intros _].
  { apply (struck_upto _ _ (fun _ => False)); [intros ? _ []|apply upto_injection| |]; unfold apply_injection, mod_INJ; repeat first [pres_step|apply same_randnc; done|apply pres_modify; done]. }
  apply pres_bind; [exact _| |intros _].
  { unfold apply_circumference, randnc1. repeat first [pres_step|apply struck_scale]. apply (struck_upto _ _ (fun _ => False)); [intros ? _ []|apply pres_upto_same; apply same_randnc; done|apply same_randnc; done|apply same_randnc; done]. }
  apply pres_bind; [exact _| |intros _].
  { apply (struck_upto _ _ support_name); [apply watched_not_support|apply upto_support_alignment; done|apply same_support_alignment; done|apply same_support_alignment; done]. }
  apply pres_bind; [exact _| |intros _].
  { apply (struck_upto _ _ (fun a => a ∈ ALIGN_FIELDS)); [intros ? Ha Hb; by eapply (apart' watched ALIGN_FIELDS)|apply upto_update_supports; done|apply same_update_supports; done|apply same_update_supports; done]. }
  apply pres_bind; [exact _| |intros _].
  { unfold update_magnets_all. repeat pres_step. apply (struck_upto _ _ (fun a => a ∈ DERIVED)); [intros ? Ha Hb; by eapply (apart' watched DERIVED)|apply upto_update_magnets; done|apply same_update_magnets; done|apply same_update_magnets; done]. }
  unfold update_cavities_all. repeat pres_step. apply (struck_upto _ _ (fun a => a ∈ CAVITY_FIELDS)); [intros ? Ha Hb; by eapply (apart' watched CAVITY_FIELDS)|apply upto_update_cavities; done|apply same_update_cavities; done|apply same_update_cavities; done].
Qed.

Lemma struck_at gm gf s s' i e : struck gm gf s s' -> RING s !! i = Some e -> exists e', RING s' !! i = Some e' /\ hit gm gf i e e'.
Proof. intros (_&_&L&H) He. destruct (lookup_lt_is_Some_2 (RING s') i) as [x Hx]; [rewrite L; by eapply lookup_lt_Some|]. exists x. eauto. Qed.
Lemma array_length e a n k : array e a n -> array e a k -> n = k.
Proof. intros (l&Hl&<-) (l'&Hl'&<-). rewrite Hl in Hl'. by injection Hl' as <-. Qed.
Lemma shape_vec l v : same_shape (VVec l) v -> exists k, v = VVec k /\ length k = length l.
Proof. destruct v; cbn; try done. intros H. eexists. split; [done|]. by symmetry. Qed.
Lemma shape_num x v : same_shape (VNum x) v -> exists y, v = VNum y.
Proof. destruct v; cbn; try done. eauto. Qed.
Lemma drawn_name (s : sc R) i a v k0 : drawn (sMagnet (SIG s)) magnet_field i a v -> (forall k, magnet_field k = a -> k = k0) -> exists d sg, sMagnet (SIG s) !! i = Some d /\ (k0, sg) ∈ d /\ same_shape (sigma_value sg) v.
Proof. intros (d&k&sg&Hd&Hk&->&Hv) Hn. rewrite (Hn k eq_refl) in Hk. eauto. Qed.
Lemma field_A k : magnet_field k = "CalErrorA" -> k = "CalErrorA". Proof. unfold magnet_field. by destruct (decide _). Qed.
Lemma field_B k : magnet_field k = "CalErrorB" -> k = "CalErrorB". Proof. unfold magnet_field. by destruct (decide _). Qed.
Lemma solid_kept gm gf i e e' a : hit gm gf i e e' -> bool_decide (a ∈ solid) = true -> e' !! a = e !! a.
Proof. intros [H _] Ha. apply H. by apply bool_decide_eq_true in Ha. Qed.
Ltac kept_by H a := rewrite (solid_kept _ _ _ _ _ a H) by reflexivity.

Section Struck.
  Variables s s' : sc R.
  Let gm := sMagnet (SIG s).
  Let gf := sRF (SIG s).
  Hypothesis Hok : sane s.
  (** an error of the bending angle comes from an uncertainty of the bending angle (a registration under the name BendingAngleError is refused) *)
  Hypothesis Hname : forall i d k sg, gm !! i = Some d -> (k, sg) ∈ d -> k <> "BendingAngleError".
  Hypothesis HS : struck gm gf s s'.
  Lemma hit_fields i m m' na nb : RING s !! i = Some m -> RING s' !! i = Some m' -> magnet_fields m na nb -> magnet_fields m' na nb.
  Proof.
    intros Hm Hm' [F1 F2 F3 F4 F5 F6 (n1&L1&F7) (n2&L2&F8) F9 F10 F11]. pose proof (proj2 (proj2 (proj2 HS)) i m m' Hm Hm') as H. pose proof H as (_&_&HE&_).
    assert (exists n, n <= nb /\ array m' "CalErrorB" n /\ (m !! "BendingAngle" <> None -> m !! "CombinedFunction" = Some (VBool true) -> 1 < n)) as (n2'&L2'&F8'&F8c).
    { destruct (HE "CalErrorB") as [E|(v&Hv&Hd)]; [in_list| |].
      - exists n2. split; [done|]. split; [unfold array; by rewrite E|]. intros Hb Hc. destruct (F10 Hb Hc) as [(n&Hn&Ha) _]. by rewrite (array_length _ _ _ _ F8 Ha).
      - destruct (drawn_name _ _ _ _ "CalErrorB" Hd field_B) as (d&sg&Hd'&Hk&Hsh). destruct (n_mag _ Hok _ _ _ _ _ Hd' Hk Hm) as (_&HB&_). destruct (HB eq_refl) as [(l&n&Hl&Ha&Hle) Hcf]. rewrite Hl in Hsh. apply shape_vec in Hsh as (k&->&Lk).
        rewrite (array_length _ _ _ _ Ha F4) in Hle. exists (length k). split; [lia|]. split; [by exists k|]. intros Hb Hc. destruct (Hcf Hb Hc) as (l'&Hl'&H1). rewrite Hl in Hl'. injection Hl' as <-. lia. }
    split; try done.
    - unfold array. kept_by H "SetPointA". exact F3.
    - unfold array. kept_by H "SetPointB". exact F4.
    - unfold array. kept_by H "NomPolynomA". exact F5.
    - unfold array. kept_by H "NomPolynomB". exact F6.
    - destruct (HE "CalErrorA") as [E|(v&Hv&Hd)]; [in_list| |].
      + exists n1. split; [done|]. unfold array. by rewrite E.
      + destruct (drawn_name _ _ _ _ "CalErrorA" Hd field_A) as (d&sg&Hd'&Hk&Hsh). destruct (n_mag _ Hok _ _ _ _ _ Hd' Hk Hm) as (HA&_&_). destruct (HA eq_refl) as (l&n&Hl&Ha&Hle). rewrite Hl in Hsh. apply shape_vec in Hsh as (k&->&Lk).
        rewrite (array_length _ _ _ _ Ha F3) in Hle. exists (length k). split; [lia|]. by exists k.
    - by exists n2'.
    - unfold maybe in *. destruct (HE "BendingAngleError") as [E|(v&Hv&Hd)]; [in_list|by rewrite E|]. rewrite Hv. destruct Hd as (d&k&sg&Hd'&Hk&Hkn&Hsh).
      assert (k = "BendingAngle") as ->. { unfold magnet_field in Hkn. destruct (decide (k = "BendingAngle")); [done|]. destruct (Hname _ _ _ _ Hd' Hk). done. }
      destruct (n_mag _ Hok _ _ _ _ _ Hd' Hk Hm) as (_&_&HB). destruct (HB eq_refl) as ([x Hx]&_). rewrite Hx in Hsh. by eapply shape_num.
    - kept_by H "BendingAngle". kept_by H "CombinedFunction". intros Hb Hc. destruct (F10 Hb Hc) as [_ Hq]. split; [exists n2'; split; [by apply F8c|done]|]. kept_by H "NomPolynomB". exact Hq.
    - kept_by H "PassMethod". exact F11.
  Qed.
  Lemma hit_long i e e' : RING s !! i = Some e -> RING s' !! i = Some e' -> ~ drift_at s i -> long e -> long e'.
  Proof.
    intros He He' Hd. pose proof (proj2 (proj2 (proj2 HS)) i e e' He He') as (_&HL&_). unfold long. rewrite HL; [done|]. intros E. apply Hd. unfold drift_at, attr_at. by rewrite He.
  Qed.
  Lemma hit_part i j m m' c c' na nb : RING s !! i = Some m -> RING s' !! i = Some m' -> RING s !! j = Some c -> RING s' !! j = Some c' -> good_magnet s i -> (j = i \/ child_of s j i) -> part_fields m c na nb -> part_fields m' c' na nb.
  Proof.
    intros Hm Hm' Hc Hc' Hg Hj [P1 P2 P3 P4 P5 P6 P7]. pose proof (proj2 (proj2 (proj2 HS)) i m m' Hm Hm') as H. pose proof (proj2 (proj2 (proj2 HS)) j c c' Hc Hc') as K.
    assert (~ drift_at s j) as Hnd. { destruct (n_drift _ Hok i Hg) as [D1 D2]. destruct Hj as [->|Hj]; [done|by apply D2]. }
    split.
    - unfold maybe. kept_by K "PolynomAOffset". exact P1.
    - unfold maybe. kept_by K "PolynomBOffset". exact P2.
    - unfold maybe. kept_by K "SysPolAFromA". exact P3.
    - unfold maybe. kept_by K "SysPolAFromB". exact P4.
    - unfold maybe. kept_by K "SysPolBFromA". exact P5.
    - unfold maybe. kept_by K "SysPolBFromB". exact P6.
    - intros Hb. assert (straight_or_long c) as [B1 B2].
      { destruct Hb as [Hb|[Hb1 Hb2]].
        - destruct (proj1 (proj2 (proj2 H)) "BendingAngleError") as [E|(v&Hv&Hd)]; [in_list| |].
          + apply P7. left. by rewrite <- E.
          + destruct Hd as (d&k&sg&Hd'&Hk&Hkn&Hsh). assert (k = "BendingAngle") as ->. { unfold magnet_field in Hkn. destruct (decide (k = "BendingAngle")); [done|]. destruct (Hname _ _ _ _ Hd' Hk). done. }
            destruct (n_mag _ Hok _ _ _ _ _ Hd' Hk Hm) as (_&_&HB). destruct (HB eq_refl) as (_&Hl&Hch). destruct Hj as [->|Hj]; [rewrite Hm in Hc; by injection Hc as <-|]. destruct (Hch j Hj) as (e&He&Hx). rewrite Hc in He. by injection He as <-.
        - apply P7. right. rewrite (solid_kept _ _ _ _ _ "BendingAngle" H) in Hb1 by reflexivity. rewrite (solid_kept _ _ _ _ _ "CombinedFunction" H) in Hb2 by reflexivity. done. }
      split; [unfold scalar; by kept_by K "BendingAngle"|]. by eapply hit_long.
  Qed.
  Lemma hit_good i : good_magnet s i -> good_magnet s' i.
  Proof.
    intros Hg. pose proof Hg as (m&na&nb&Hm&Hf&Hp&Hc). destruct (struck_at _ _ _ _ _ _ HS Hm) as (m'&Hm'&K). exists m', na, nb. split; [done|]. split; [by eapply hit_fields|]. split; [eapply (hit_part i i); eauto|].
    unfold maybe in *. kept_by K "MasterOf". destruct (m !! "MasterOf") as [v|] eqn:Ev; [|done]. destruct Hc as (l&->&Hl). exists l. split; [done|]. intros c Hin. destruct (Hl c Hin) as (e&He&Hpe).
    destruct (struck_at _ _ _ _ _ _ HS He) as (e'&He'&Ke). exists e'. split; [done|]. eapply (hit_part i c); eauto. right. exists l. split; [unfold attr_at; by rewrite Hm|done].
  Qed.
  Lemma hit_steerable i e e' : RING s !! i = Some e -> RING s' !! i = Some e' -> ~ drift_at s i -> steerable e -> steerable e'.
  Proof.
    intros He He' Hd [S1 S2]. pose proof (proj2 (proj2 (proj2 HS)) i e e' He He') as K. split.
    - kept_by K "PassMethod". destruct S1 as [?|S1]; [by left|right]. by eapply hit_long.
    - unfold maybe. kept_by K "CMlimit". exact S2.
  Qed.
  Lemma hit_acceptable o : acceptable s o -> acceptable s' o.
  Proof.
    assert (forall i, good_corrector s i -> good_corrector s' i) as GC.
    { intros i [Hg (m&Hm&Hs)]. split; [by apply hit_good|]. destruct (struck_at _ _ _ _ _ _ HS Hm) as (m'&Hm'&K). exists m'. split; [done|]. eapply hit_steerable; eauto. by apply (n_drift _ Hok). }
    assert (forall i, good_magnet s i -> good_bend s i -> good_bend s' i) as GB.
    { intros i Hg (m&Hm&Hb). destruct (struck_at _ _ _ _ _ _ HS Hm) as (m'&Hm'&K). exists m'. split; [done|]. unfold maybe in *. kept_by K "BendingAngle". destruct (m !! "BendingAngle") as [v|]; [|done].
      destruct Hb as (x&->&Hx). exists x. split; [done|]. rewrite (proj1 HS). intros H1 H2. destruct (Hx H1 H2) as [Hs Hq]. split; [eapply hit_steerable; eauto; by apply (n_drift _ Hok)|]. kept_by K "NomPolynomB". exact Hq. }
    assert (forall i, good_cavity s i -> good_cavity s' i) as GF.
    { intros i (e&He&H). destruct (struck_at _ _ _ _ _ _ HS He) as (e'&He'&K). exists e'. split; [done|]. intros f a Hf Ha. specialize (H f a Hf Ha).
      assert (forall b, b ∈ cavity_errors -> scalar e b -> scalar e' b) as HC.
      { intros b Hb [x Hx]. destruct (proj2 (proj2 (proj2 K)) b Hb) as [E|(v&Hv&(d&k&sg&Hd&Hk&_&Hsh))]; [exists x; by rewrite E|]. destruct (n_rf _ Hok _ _ _ _ Hd Hk) as [y Hy]. rewrite Hy in Hsh. apply shape_num in Hsh as [z ->]. by exists z. }
      rewrite !elem_of_cons, elem_of_nil in Hf, Ha.
      destruct Hf as [-> | [-> | [-> | []]]], Ha as [-> | [-> | [-> | []]]];
        first [apply HC; [in_list|exact H] | unfold scalar; rewrite (proj1 K) by in_list; exact H]. }
    destruct o; cbn [acceptable]; try done.
    - intros (A1&A2&A3). split; [done|]. split; [done|]. intros i Hi. auto.
    - intros (A1&A2&A3&A4). split; [done|]. split; [done|]. split; [done|]. intros i Hi. destruct (A4 i Hi) as (B1&(m&n&Hm&Ha&Hn)&(m1&Hm1&B3)&B4). rewrite Hm in Hm1. injection Hm1 as <-.
      destruct (struck_at _ _ _ _ _ _ HS Hm) as (m'&Hm'&K). split; [by apply hit_good|]. split; [exists m', n; split; [done|]; split; [|done]|].
      + unfold array. destruct skew; [kept_by K "SetPointA"|kept_by K "SetPointB"]; exact Ha.
      + split; [exists m'; split; [done|]; unfold maybe; kept_by K "SkewQuadLimit"; exact B3|]. intros C1 C2. auto.
    - intros (A1&A2&A3&A4&A5). split; [done|]. split; [done|]. split; [done|]. split; [done|]. intros i Hi. auto.
    - intros A i Hi. by apply hit_good, A.
    - intros A i Hi. auto.
  Qed.
End Struck.
(** Applying the errors, whether it returns or not, leaves every acceptable call acceptable if the uncertainties have the right shape. *)
Theorem C94_errors minv nsig (s : sc R) : well_registered s -> sane s -> forall o, acceptable s o -> acceptable (snd (apply_errors minv nsig s)) o.
Proof.
  intros Hw Hok o. eapply hit_acceptable; [exact Hok| |by apply struck_errors].
  intros i d k sg Hd Hk ->. destruct Hw as (_&_&_&_&M1&_). destruct (M1 _ _ Hd) as (_&Ha&_). assert ("BendingAngleError" ∈ MAGNET_ERROR_FIELDS) as Hin. { apply Ha. unfold dkeys. apply elem_of_list_fmap. by exists ("BendingAngleError", sg). }
  revert Hin. not_in.
Qed.
(** Registration brings cavities with numeric parameters into good order. *)
Theorem C94_cavities ords kw (s s' : sc R) u : register_cavities ords kw s = (Ok u, s') ->
  forall i e, i ∈ ords -> RING s !! i = Some e -> (forall f, f ∈ ["Voltage"; "Frequency"; "TimeLag"] -> scalar e f) -> good_cavity s' i.
Proof.
  intros E i e Hi He Hnum. apply C95_cavities in E as (L&I&_). destruct (lookup_lt_is_Some_2 (RING s') i) as [e' He']; [rewrite L; by eapply lookup_lt_Some|].
  exists e'. split; [done|]. intros f a Hf Ha. destruct (Hnum f Hf) as [x Hx]. destruct (I i Hi f Hf) as (_&_&A1&A2&A3). unfold attr_at in A1, A2, A3. rewrite He, He' in *. cbn in A1, A2, A3.
  rewrite Hx in A1. rewrite !elem_of_cons, elem_of_nil in Ha. destruct Ha as [-> | [-> | [-> | []]]]; eexists; eassumption.
Qed.

Print Assumptions C94_call_returns.
Print Assumptions C94_histories_return.
Print Assumptions C94_registration.
Print Assumptions C94_cavities.
Print Assumptions C94_errors.

(** * Cases *)
(** a quadrupole, a bend with a gradient and a cavity, registered with uncertainties; the magnets are horizontal correctors with a limit *)
Local Open Scope R_scope.
Definition ex_minv : list (list R) -> res (list (list R)) := fun m => Ok m.
Definition ex_hcm : magtype R := MkType (Some (Fin 2)) None false None None.
Definition ex_sigma : dict (sigval R) := [("CalErrorB", SPlain (VVec [1; 2]))].
Definition ex_s1 : sc R := snd (register_cavities [4]%nat [("VoltageOffset", SPlain (VNum 1))] ex_sc).
Definition ex_s2 : sc R := snd (register_magnets [1; 5]%nat ex_sigma ex_hcm ex_s1).
Definition ex_setup : list (op R) := [OpRF [4]%nat [("VoltageOffset", SPlain (VNum 1))]; OpMagnet [1; 5]%nat ex_sigma ex_hcm].
Definition ex_history : list (op R) :=
  [OpSetCM [1; 5]%nat DFloat [3] false "add"; OpSetMagnet [1; 5]%nat DFloat [1/2; 1/3] false 1 "rel" true; OpSetCavity [4]%nat DInt [7] "Voltage" "abs"; OpUpdateMagnets [5; 1]%nat; OpSetCM [5]%nat DFloat [1] true "rel"].
Lemma ex_run : run ex_minv ex_setup ex_sc = ex_s2.
Proof. unfold run, ex_setup, ex_s2, ex_s1. cbn [fold_left]. unfold call. reflexivity. Qed.
Lemma ex_reg : register_magnets [1; 5]%nat ex_sigma ex_hcm ex_s1 = (Ok tt, ex_s2).
Proof. edestruct (ends_ok (register_magnets [1; 5]%nat ex_sigma ex_hcm) ex_s1 tt) as (s'&E&->); [vm_compute; reflexivity|exact E]. Qed.
Lemma ex_designed_quad : designed (quad (T:=R)).
Proof.
  split.
  - exists 2%nat. split; [lia|]. eexists. split; reflexivity.
  - exists 2%nat. split; [lia|]. eexists. split; reflexivity.
  - eexists. split; [reflexivity|]. right. exists 2. split; [reflexivity|lra].
  - done.
  - intros a Ha. unfold never_set in Ha. rewrite !elem_of_cons, elem_of_nil in Ha. repeat (destruct Ha as [-> |Ha]; [reflexivity|]). done.
Qed.
Lemma ex_designed_bend : designed (bend (T:=R)).
Proof.
  assert (long (bend (T:=R))) as HL by (exists 4; split; [reflexivity|lra]). split.
  - exists 2%nat. split; [lia|]. eexists. split; reflexivity.
  - exists 2%nat. split; [lia|]. eexists. split; reflexivity.
  - eexists. split; [reflexivity|]. by right.
  - split; [|done]. eexists. reflexivity.
  - intros a Ha. unfold never_set in Ha. rewrite !elem_of_cons, elem_of_nil in Ha. repeat (destruct Ha as [-> |Ha]; [reflexivity|]). done.
Qed.
Lemma ex_good i : i ∈ [1; 5]%nat -> good_corrector ex_s2 i /\ maybe_at ex_s2 i "SkewQuadLimit" (fun v => exists l, v = VLim l) /\ good_bend ex_s2 i.
Proof.
  intros Hi. assert (exists e, RING ex_s1 !! i = Some e /\ designed e /\ (e !! "BendingAngle" <> None -> gradient e)) as (e&He&D&G).
  { rewrite !elem_of_cons, elem_of_nil in Hi. destruct Hi as [-> | [-> | []]].
    - exists quad. split; [reflexivity|]. split; [exact ex_designed_quad|]. intros C. by destruct C.
    - exists bend. split; [reflexivity|]. split; [exact ex_designed_bend|]. intros _. eexists _, _. split; [reflexivity|]. split; [reflexivity|]. change (num 5 : R) with 5. lra. }
  destruct (C94_registration _ _ _ _ _ _ ex_reg i e Hi He D) as (A&B&C); [done|done|]. split; [done|]. split; [done|]. by apply C.
Qed.
Definition numeric (v : option (val R)) : bool := match v with Some (VNum _) => true | _ => false end.
Definition of_two (v : option (val R)) : bool := match v with Some (VVec [_; _]) => true | _ => false end.
Definition absent (v : option (val R)) : bool := match v with None => true | _ => false end.
Lemma ex_length : length (RING ex_s2) = 7%nat.
Proof. vm_compute. reflexivity. Qed.
Lemma ex_numeric : forallb (fun f => forallb (fun a => numeric (attr_at ex_s2 4 (f +:+ a))) ["SetPoint"; "CalError"; "Offset"]) ["Voltage"; "Frequency"; "TimeLag"] = true.
Proof. vm_compute. reflexivity. Qed.
Lemma ex_two : forallb (fun i => of_two (attr_at ex_s2 i "SetPointB")) [1; 5]%nat = true.
Proof. vm_compute. reflexivity. Qed.
Lemma ex_masters : forallb (fun i => absent (attr_at ex_s2 i "MasterOf")) (seq 0 7) = true.
Proof. vm_compute. reflexivity. Qed.
Lemma ex_drifts : forallb (fun i => absent (attr_at ex_s2 i "SetPointA") || negb (is_drift_at ex_s2 i)) (seq 0 7) = true.
Proof. vm_compute. reflexivity. Qed.
Lemma ex_sigmas : sMagnet (SIG ex_s2) = <[5%nat := ex_sigma]> (<[1%nat := ex_sigma]> (∅ : gmap nat (dict (sigval R)))) /\
  sRF (SIG ex_s2) = <[4%nat := [("VoltageOffset", SPlain (VNum 1))]]> (∅ : gmap nat (dict (sigval R))).
Proof. vm_compute. split; reflexivity. Qed.
#[local] Opaque ex_s2.
Lemma ex_cavity : good_cavity ex_s2 4.
Proof.
  destruct (lookup_lt_is_Some_2 (RING ex_s2) 4) as [e He]; [rewrite ex_length; lia|]. exists e. split; [assumption|]. intros f a Hf Ha.
  pose proof ex_numeric as H. rewrite forallb_forall in H. apply elem_of_list_In, H in Hf. rewrite forallb_forall in Hf. apply elem_of_list_In, Hf in Ha. unfold attr_at in Ha. rewrite He in Ha. cbn in Ha.
  unfold scalar. destruct (e !! (f +:+ a)) as [[]|]; try discriminate Ha. eexists; reflexivity.
Qed.
Lemma ex_setpoints i e : i ∈ [1; 5]%nat -> RING ex_s2 !! i = Some e -> array e "SetPointB" 2.
Proof.
  intros Hi He. pose proof ex_two as H. rewrite forallb_forall in H. apply elem_of_list_In, H in Hi. unfold attr_at in Hi. rewrite He in Hi. cbn in Hi.
  destruct (e !! "SetPointB") as [[]|] eqn:E; try discriminate Hi. destruct l as [|? [|? []]]; try discriminate Hi. eexists. split; [exact E|reflexivity].
Qed.
(** every one of these calls is acceptable, so by [C94_histories_return] the history returns whatever the limits say about the set-points *)
Example C94_case_history : Forall (acceptable ex_s2) ex_history.
Proof.
  unfold ex_history. rewrite !Forall_cons, Forall_nil. split_and!; [| | | | |exact I]; cbn [acceptable].
  - split; [unfold a_method; in_list|]. split; [left; reflexivity|]. intros i Hi. apply ex_good; assumption.
  - split; [unfold a_method; in_list|]. split; [right; reflexivity|]. split; [left; reflexivity|]. intros i Hi. destruct (ex_good i Hi) as ((A&_)&B&C). split; [assumption|]. split; [|split; [assumption|intros _ _; assumption]].
    destruct A as (m&_&_&Hm&_). exists m, 2%nat. split; [assumption|]. split; [apply (ex_setpoints i); assumption|lia].
  - split; [unfold a_method; in_list|]. split; [left; reflexivity|]. split; [right; reflexivity|]. split; [in_list|]. intros i Hi. apply elem_of_list_singleton in Hi as ->. exact ex_cavity.
  - intros i Hi. apply ex_good. rewrite !elem_of_cons, elem_of_nil in Hi |- *. tauto.
  - split; [unfold a_method; in_list|]. split; [left; reflexivity|]. intros i Hi. apply ex_good. apply elem_of_list_singleton in Hi as ->. right. left.
Qed.
(** the machine meets the hypotheses of [C94_errors] *)
Example C94_case_errors : well_registered ex_s2 /\ sane ex_s2.
Proof.
  split.
  - rewrite <- ex_run. apply C27_reachable. intros o Ho. unfold ex_setup in Ho. rewrite !elem_of_cons, elem_of_nil in Ho. destruct Ho as [-> | [-> | []]]; apply (bool_decide_eq_true_1 (NoDup _)); vm_compute; reflexivity.
  - split.
    + intros i (m&na&nb&Hm&[_ _ (l&Hl&_) _ _ _ _ _ _ _ _]&_). assert (In i (seq 0 7)) as Hi. { apply lookup_lt_Some in Hm. rewrite ex_length in Hm. apply in_seq. lia. }
      split.
      * intros Hd. pose proof ex_drifts as H. rewrite forallb_forall in H. apply H in Hi. unfold drift_at in Hd. unfold is_drift_at in Hi. rewrite Hd in Hi. cbn in Hi. unfold attr_at in Hi. rewrite Hm in Hi. cbn in Hi. rewrite Hl in Hi. discriminate Hi.
      * intros c (k&Hk&_). pose proof ex_masters as H. rewrite forallb_forall in H. apply H in Hi. rewrite Hk in Hi. discriminate Hi.
    + intros i d k sg m Hd Hk Hm. assert (d = ex_sigma /\ i ∈ [1; 5]%nat) as [-> Hi].
      { rewrite (proj1 ex_sigmas) in Hd. apply lookup_insert_Some in Hd as [[<- <-]|[_ Hd]]; [split; [reflexivity|right; left]|].
        apply lookup_insert_Some in Hd as [[<- <-]|[_ Hd]]; [split; [reflexivity|left]|]. rewrite lookup_empty in Hd; discriminate Hd. }
      apply elem_of_list_singleton in Hk as [= -> ->]. split; [intros C; discriminate C|]. split; [|intros C; discriminate C]. intros _. split.
      * exists [1; 2], 2%nat. split; [reflexivity|]. split; [by eapply ex_setpoints|cbn; lia].
      * intros _ _. exists [1; 2]. split; [reflexivity|cbn; lia].
    + intros i d k sg Hd Hk. rewrite (proj2 ex_sigmas) in Hd.
      apply lookup_insert_Some in Hd as [[<- <-]|[_ Hd]]; [|rewrite lookup_empty in Hd; discriminate Hd]. apply elem_of_list_singleton in Hk as [= -> ->]. exists 1. reflexivity.
Qed.
(** a call that is not acceptable fails: the drift was never registered and has no set-points *)
Example C94_case_refused : fst (set_cm_setpoints (T:=R) [0]%nat DFloat [1] false "abs" ex_s1) = Err AttributeError.
Proof. vm_compute. reflexivity. Qed.
