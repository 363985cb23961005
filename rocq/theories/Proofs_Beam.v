(** Readings touch nothing but the random stream; sums over the reals. *)
From Coq Require Import Reals Lra Lia.
From stdpp Require Import base gmap strings list.
From Verif Require Import Num Base Model_Arr Model_SC Model_Err Model_Beam Lemmas.
Local Open Scope string_scope.
Local Open Scope list_scope.

(** Only the random stream may differ. *)
Definition quiet {T} (s s' : sc T) : Prop := s' = set_RNG (RNG s') s.
#[global] Instance quiet_preorder {T} : PreOrder (@quiet T).
Proof.
  split; [intros []; done|]. intros a b c H1 H2. unfold quiet in *. rewrite H1 in H2. destruct a, b, c. simpl in *. by injection H2 as -> -> -> -> ->.
Qed.
Lemma quiet_same {T} (s s' : sc T) : quiet s s' -> RING s' = RING s /\ IDEALRING s' = IDEALRING s /\ INJ s' = INJ s /\ SIG s' = SIG s /\ ORD s' = ORD s.
Proof. unfold quiet. intros ->. done. Qed.

Section Quiet.
  Context {T : Type} {N : Num T} {G : Trig T}.
  Lemma quiet_draw n : pres (@quiet T) (draw n).
  Proof. intros s. unfold draw, quiet. destruct (_ <? _)%nat; simpl; by destruct s. Qed.
  Lemma quiet_randnc_loop fuel cut out : pres (@quiet T) (randnc_loop fuel cut out).
  Proof. revert out. induction fuel as [|fuel IH]; intros out; simpl; repeat pres_step; [apply quiet_draw|apply IH]. Qed.
  Lemma quiet_randnc cut n : pres (@quiet T) (randnc cut n).
  Proof. unfold randnc. repeat pres_step; [apply quiet_draw|apply quiet_randnc_loop]. Qed.
  Lemma quiet_bunches (w : world T) n : pres (@quiet T) (generate_bunches w n).
  Proof. unfold generate_bunches. repeat first [pres_step|apply quiet_randnc]. Qed.
  Lemma quiet_tracking (w : world T) refs : pres (@quiet T) (tracking w refs).
  Proof. unfold tracking. repeat first [pres_step|apply quiet_bunches]. Qed.
  Lemma quiet_real tk ords : pres (@quiet T) (real_bpm_reading tk ords).
  Proof. unfold real_bpm_reading. repeat first [pres_step|apply quiet_randnc]. Qed.
  Lemma quiet_one_shot (w : world T) ords nt : pres (@quiet T) (one_shot w ords nt).
  Proof. unfold one_shot. repeat first [pres_step|apply quiet_tracking|apply quiet_real]. Qed.
  Lemma quiet_reading (w : world T) o e : pres (@quiet T) (bpm_reading w o e).
  Proof. unfold bpm_reading. repeat first [pres_step|apply quiet_one_shot]. Qed.
  Lemma quiet_all_elements (w : world T) : pres (@quiet T) (all_elements_reading w).
  Proof. unfold all_elements_reading, all_elements_shot. repeat first [pres_step|apply quiet_tracking|apply quiet_real]. Qed.
  Lemma quiet_transmission (w : world T) a b : pres (@quiet T) (beam_transmission w a b).
  Proof. unfold beam_transmission. repeat first [pres_step|apply quiet_bunches]. Qed.
End Quiet.

Lemma pres_run {S A} (R : S -> S -> Prop) (m : M S A) s r s' : pres R m -> m s = (r, s') -> R s s'.
Proof. intros H E. specialize (H s). by rewrite E in H. Qed.

(** * Sums *)
Definition rsum (l : list R) : R := foldr Rplus 0%R l.
Lemma nsum_acc (l : list R) a : fold_left Rplus l a = (a + rsum l)%R.
Proof. revert a. induction l as [|x l IH]; intros a; simpl; [lra|]. rewrite IH. simpl. lra. Qed.
Lemma nsum_rsum (l : list R) : nsum l = rsum l.
Proof. unfold nsum. change (@nadd R NumR) with Rplus. rewrite nsum_acc. change (@n0 R NumR) with 0%R. lra. Qed.
Lemma rsum_app l1 l2 : rsum (l1 ++ l2) = (rsum l1 + rsum l2)%R.
Proof. induction l1 as [|x l IH]; simpl; [lra|]. rewrite IH. lra. Qed.
Lemma rsum_nonneg l : Forall (fun x => (0 <= x)%R) l -> (0 <= rsum l)%R.
Proof. induction 1 as [|x l Hx Hl IH]; simpl; lra. Qed.
Lemma rsum_scale c l : rsum (map (Rmult c) l) = (c * rsum l)%R.
Proof. induction l as [|x l IH]; simpl; [lra|]. rewrite IH. lra. Qed.

(** a loop that collects, run by run *)
Lemma mapM_trace {S A B} (R : S -> S -> Prop) `{!PreOrder R} (f : A -> M S B) l s s' ys :
  (forall x, pres R (f x)) -> mapM l f s = (Ok ys, s') ->
  R s s' /\ Forall2 (fun x y => exists s1 s2, R s s1 /\ f x s1 = (Ok y, s2)) l ys.
Proof.
  intros Hp. revert s ys. induction l as [|x l IH]; intros s ys H; simpl in H.
  - apply ret_ok in H as [<- ->]. split; [reflexivity|constructor].
  - apply bind_ok in H as (y&s1&H1&H). apply bind_ok in H as (ys1&s2&H2&H). apply ret_ok in H as [<- ->].
    pose proof (pres_run _ _ _ _ _ (Hp x) H1) as R1. apply IH in H2 as [R2 F]. split; [by etransitivity|].
    constructor; [exists s, s1; split; [reflexivity|done]|]. eapply Forall2_impl; [exact F|]. intros a b (t1&t2&Ht&E). exists t1, t2. split; [by etransitivity|done].
Qed.
