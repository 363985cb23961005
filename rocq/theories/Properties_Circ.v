(** C29: scaling of the circumference. *)
From Coq Require Import Reals Lra QArith.
From stdpp Require Import base gmap strings list.
From Verif Require Import Num Base Model_Arr Model_SC Model_Err Lemmas Proofs_Reg Proofs_Update Proofs_Loop Spec Proofs_CM Proofs_Field Examples Properties_Field.
Local Open Scope string_scope.
Local Open Scope list_scope.

(** * Specification *)
Definition length_at (s : sc R) (i : nat) : R := match number s i "Length" with Some l => l | None => 0%R end.
Definition positions (s : sc R) : list nat := seq 0 (length (RING s)).
Definition total_length (s : sc R) : R := sum_over (positions s) (length_at s).
Definition drift_at {T} (s : sc T) (i : nat) : Prop := attr_at s i "PassMethod" = Some (VStr "DriftPass").
Definition is_drift_at {T} (s : sc T) (i : nat) : bool :=
  match attr_at s i "PassMethod" with Some (VStr pm) => bool_decide (pm = "DriftPass") | _ => false end.
Definition drift_length (s : sc R) : R := sum_over (positions s) (fun i => if is_drift_at s i then length_at s i else 0%R).
(** every element has a pass method and every drift has a length *)
Definition proper_lattice {T} (s : sc T) : Prop :=
  forall i, i < length (RING s) -> (exists pm, attr_at s i "PassMethod" = Some (VStr pm)) /\ (drift_at s i -> exists l, attr_at s i "Length" = Some (VNum l)).
(** lengths of drifts are multiplied by [f]; nothing else changes anywhere *)
Definition only_drifts_scaled (f : R) (s s' : sc R) : Prop :=
  same_but_ring s s' /\ length (RING s') = length (RING s) /\
  (forall i, i < length (RING s) -> drift_at s i -> exists l, attr_at s i "Length" = Some (VNum l) /\ attr_at s' i "Length" = Some (VNum (l * f)%R)) /\
  (forall i a, ~ (drift_at s i /\ a = "Length") -> attr_at s' i a = attr_at s i a).

Lemma is_drift_at_true {T} (s : sc T) i : is_drift_at s i = true <-> drift_at s i.
Proof.
  unfold is_drift_at, drift_at. destruct (attr_at s i "PassMethod") as [[]|]; try (split; discriminate). rewrite bool_decide_eq_true. split; congruence.
Qed.
Lemma sum_over_ext {A} (l : list A) f g : (forall x, x ∈ l -> f x = g x) -> sum_over l f = sum_over l g.
Proof. induction l as [|x l IH]; intros H; simpl; [done|]. rewrite (H x) by left. rewrite IH; [done|]. intros y Hy. apply H. by right. Qed.
Lemma sum_over_linear {A} (l : list A) f g c : (sum_over l (fun x => f x + c * g x) = sum_over l f + c * sum_over l g)%R.
Proof. induction l as [|x l IH]; simpl; [lra|]. rewrite IH. lra. Qed.
Lemma sum_over_seq {A} (h : A -> R) d (l : list A) n (g : nat -> R) :
  (forall i x, l !! i = Some x -> g (n + i)%nat = h x) -> sum_over (seq n (length l)) g = d -> foldr (fun x acc => h x + acc)%R 0%R l = d.
Proof.
  intros H <-. revert n H. induction l as [|x l IH]; intros n H; simpl; [done|]. rewrite (IH (S n)).
  - rewrite <- (H 0%nat x) by done. by rewrite Nat.add_0_r.
  - intros i y Hy. rewrite <- (H (S i) y) by done. f_equal. lia.
Qed.
Lemma last_findspos (x : R) l : last (findspos_from x l) = Some (x + foldr Rplus 0 l)%R.
Proof.
  revert x. induction l as [|y l IH]; intros x; simpl; [f_equal; lra|]. specialize (IH (x + y)%R).
  change (nadd x y) with (x + y)%R. destruct (findspos_from (x + y)%R l) as [|z k] eqn:E; [destruct l; discriminate|]. rewrite last_cons, IH. f_equal. lra.
Qed.
Lemma circumference_total (s : sc R) : circumference (RING s) = total_length s.
Proof.
  unfold circumference, spos. rewrite last_findspos. simpl. rewrite Rplus_0_l.
  assert (foldr Rplus 0%R (map elem_length (RING s)) = foldr (fun x acc => elem_length x + acc)%R 0%R (RING s)) as ->.
  { generalize (RING s). intros r. induction r as [|e r IH]; simpl; [done|]. by rewrite IH. }
  apply (sum_over_seq elem_length _ _ 0 (length_at s)); [|done]. intros i e He. simpl. unfold length_at, number, attr_at, elem_length. rewrite He. simpl.
  destruct (e !! "Length") as [[]|]; done.
Qed.
Lemma drift_sum_ok (s : sc R) x : drift_sum (RING s) = Ok x -> x.2 = drift_length s /\ (x.1 = true <-> exists i, drift_at s i).
Proof.
  intros H. unfold drift_sum in H.
  assert (forall r acc x, rfold (fun acc e => let? d := is_drift e in if d then let? l := attr_num e "Length" in Ok (true, nadd acc.2 l) else Ok acc) r acc = Ok x ->
    x.2 = (acc.2 + foldr (fun e a => (if match e !! "PassMethod" with Some (VStr pm) => bool_decide (pm = "DriftPass") | _ => false end then elem_length e else 0) + a) 0 r)%R /\
    (x.1 = true <-> acc.1 = true \/ exists e, e ∈ r /\ e !! "PassMethod" = Some (VStr "DriftPass"))) as HG.
  { clear. induction r as [|e r IH]; intros acc x H; simpl in *.
    - injection H as <-. split; [lra|]. split; [auto|]. intros [?|(e&He&_)]; [done|inversion He].
    - apply rbind_ok in H as (acc1&H1&H2). apply IH in H2 as [E1 E2]. apply rbind_ok in H1 as (d&Hd&H1). unfold is_drift in Hd.
      apply rbind_ok in Hd as (pm&Hpm&Hd). apply attr_str_ok in Hpm. injection Hd as <-. rewrite Hpm.
      destruct (bool_decide (pm = "DriftPass")) eqn:Eb.
      + apply rbind_ok in H1 as (l&Hl&H1). apply attr_num_ok in Hl. injection H1 as <-. simpl in *. rewrite E1. unfold elem_length at 2. rewrite Hl. num_R. split; [lra|].
        rewrite E2. apply bool_decide_eq_true in Eb as ->. split; [|auto]. intros _. right. exists e. split; [left|done].
      + injection H1 as <-. rewrite E1. split; [lra|]. rewrite E2. apply bool_decide_eq_false in Eb.
        split; intros [?|(e'&He'&Hp)]; auto; right.
        * exists e'. split; [by right|done].
        * apply elem_of_cons in He' as [->|He']; [congruence|]. eauto. }
  apply HG in H as [E1 E2]. simpl in *. rewrite E1. change (n0 : R) with 0%R. split.
  - rewrite Rplus_0_l. unfold drift_length, positions.
    apply (sum_over_seq (fun e => if match e !! "PassMethod" with Some (VStr pm) => bool_decide (pm = "DriftPass") | _ => false end then elem_length e else 0%R) _ _ 0
            (fun i => if is_drift_at s i then length_at s i else 0%R)); [|done].
    intros i e He. simpl. unfold length_at, is_drift_at, number, attr_at, elem_length. rewrite He. simpl. destruct (e !! "Length") as [[]|]; done.
  - rewrite E2. unfold drift_at, attr_at. split.
    + intros [?|(e&He&Hp)]; [done|]. apply elem_of_list_lookup in He as [i Hi]. exists i. by rewrite Hi.
    + intros [i Hi]. right. destruct (RING s !! i) as [e|] eqn:E; [|discriminate]. exists e. split; [by eapply elem_of_list_lookup_2|done].
Qed.
Lemma scale_loop f (s s' : sc R) u : forM (seq 0 (length (RING s))) (fun i => on_elem i (scale_drift f)) s = (Ok u, s') -> only_drifts_scaled f s s'.
Proof.
  intros H.
  assert (forM (map (fun i => (i, tt)) (seq 0 (length (RING s)))) (fun p => on_elem p.1 ((fun _ : unit => scale_drift f) p.2)) s = (Ok u, s')) as H'.
  { rewrite <- H. generalize (seq 0 (length (RING s))). intros l. clear H. revert s. induction l as [|i l IH]; intros s; simpl; [done|]. unfold bind.
    destruct (on_elem i (scale_drift f) s) as [[[]|] ?]; [apply IH|done]. }
  assert (forall l : list nat, (map (fun i => (i, tt)) l).*1 = l) as Hm by (intros l; induction l as [|? ? IH]; [done|simpl; f_equal; exact IH]).
  apply forM_on_elem_ok in H' as ((r&Hr)&HL&Hin&_); [|rewrite Hm; apply NoDup_seq]. split; [by rewrite Hr|]. split; [done|].
  assert (forall i, i < length (RING s) -> exists e e', RING s !! i = Some e /\ RING s' !! i = Some e' /\
    ((e !! "PassMethod" = Some (VStr "DriftPass") /\ exists l, e !! "Length" = Some (VNum l) /\ e' = <["Length" := VNum (l * f)%R]> e) \/
     (e !! "PassMethod" <> Some (VStr "DriftPass") /\ e' = e))) as HE.
  { intros i Hi. destruct (Hin (i, tt)) as (e&e'&He&Hs&He'); [apply elem_of_list_fmap; exists i; split; [done|]; apply elem_of_seq; lia|]. simpl in *.
    exists e, e'. split; [done|]. split; [done|].
    unfold scale_drift in Hs. apply bind_ok in Hs as (d&e1&Hd&Hs). apply getm_ok in Hd as [Hd ->]. unfold is_drift in Hd. apply rbind_ok in Hd as (pm&Hpm&Hd). apply attr_str_ok in Hpm.
    injection Hd as <-. rewrite Hpm. unfold when in Hs. destruct (bool_decide (pm = "DriftPass")) eqn:Eb.
    - apply bind_ok in Hs as (l&e1&Hl&Hs). apply getm_ok in Hl as [Hl ->]. apply attr_num_ok in Hl. apply setattr_ok in Hs as ->.
      left. apply bool_decide_eq_true in Eb as ->. eauto.
    - apply ret_ok in Hs as [_ ->]. right. apply bool_decide_eq_false in Eb. split; [congruence|done]. }
  split.
  - intros i Hi Hd. destruct (HE i Hi) as (e&e'&He&He'&[(_&l&Hl&->)|[Hn _]]); unfold drift_at, attr_at in *; rewrite He in *; [|done].
    exists l. split; [done|]. rewrite He'. simpl. by rewrite lookup_insert.
  - intros i a Hn. destruct (decide (i < length (RING s))) as [Hi|Hi].
    + destruct (HE i Hi) as (e&e'&He&He'&[(Hd&l&Hl&->)|[_ ->]]); unfold drift_at, attr_at in *; rewrite He, He' in *; simpl in *; [|done].
      rewrite lookup_insert_ne; [done|]. intros <-. by apply Hn.
    + unfold attr_at. rewrite !lookup_ge_None_2 by lia. done.
Qed.
Lemma scaled_total f (s s' : sc R) : only_drifts_scaled f s s' -> (total_length s' = total_length s + (f - 1) * drift_length s)%R.
Proof.
  intros (_&HL&HD&HN). unfold total_length, drift_length, positions. rewrite HL, <- sum_over_linear. apply sum_over_ext. intros i Hi. apply elem_of_seq in Hi.
  unfold length_at, number. destruct (is_drift_at s i) eqn:E.
  - apply is_drift_at_true in E. destruct (HD i ltac:(lia) E) as (l&H1&H2). rewrite H1, H2. simpl. lra.
  - rewrite HN; [lra|]. intros [Hd _]. apply is_drift_at_true in Hd. congruence.
Qed.

(** * C29 *)
Lemma qdiv_R (a b q : R) : qdiv a b = Ok q -> b <> 0%R /\ q = (a / b)%R.
Proof. unfold qdiv. num_R. destruct (Reqb b 0) eqn:E; [discriminate|]. intros [= <-]. apply Reqb_false in E. done. Qed.
Lemma scale_ok c mode (s s' : sc R) u : scale_circumference c mode s = (Ok u, s') -> (exists i, drift_at s i) ->
  drift_length s <> 0%R /\ exists f, only_drifts_scaled f s s' /\ ((mode = "abs" /\ f = (1 - (total_length s - c) / drift_length s)%R) \/ (mode = "rel" /\ f = (1 - ((1 - c) * total_length s) / drift_length s)%R)).
Proof.
  intros H Hd. unfold scale_circumference in H. destruct (decide (mode = "abs" \/ mode = "rel")) as [Hm|Hm]; [|discriminate].
  apply bind_ok in H as (?&?&Hg&H). apply get_ok in Hg as [-> ->]. apply bind_ok in H as (hd&?&Hh&H). apply lift_ok in Hh as [Hh ->].
  apply drift_sum_ok in Hh as [E1 E2]. destruct hd as [[] x]; [|by apply E2 in Hd]. simpl in *. subst x.
  apply bind_ok in H as (f&?&Hf&H). apply lift_ok in Hf as [Hf ->]. apply scale_loop in H. rewrite circumference_total in Hf.
  destruct (decide (mode = "rel")) as [->|Hr]; apply rbind_ok in Hf as (q&Hq&Hf); injection Hf as <-; apply qdiv_R in Hq as [Hnz ->]; (split; [done|]); eexists; (split; [exact H|]).
  - right. split; [done|]. num_R. reflexivity.
  - left. split; [tauto|]. num_R. reflexivity.
Qed.
Theorem C29_abs c (s s' : sc R) u : (exists i, drift_at s i) -> scale_circumference c "abs" s = (Ok u, s') ->
  total_length s' = c /\ exists f, only_drifts_scaled f s s'.
Proof.
  intros Hd H. apply scale_ok in H as (Hnz&f&HS&[[_ ->]|[? _]]); [|discriminate|done]. split; [|by eexists]. rewrite (scaled_total _ _ _ HS). field. done.
Qed.
Theorem C29_rel c (s s' : sc R) u : (exists i, drift_at s i) -> scale_circumference c "rel" s = (Ok u, s') ->
  total_length s' = (total_length s * c)%R /\ exists f, only_drifts_scaled f s s'.
Proof.
  intros Hd H. apply scale_ok in H as (Hnz&f&HS&[[? _]|[_ ->]]); [discriminate| |done]. split; [|by eexists]. rewrite (scaled_total _ _ _ HS). field. done.
Qed.
Theorem C29_mode c mode (s : sc R) : mode <> "abs" -> mode <> "rel" -> scale_circumference c mode s = (Err ValueError, s).
Proof. intros H1 H2. unfold scale_circumference. rewrite decide_False; [done|tauto]. Qed.
(** With drifts of nonzero total length and a known mode the call succeeds. *)
Lemma drift_sum_proper (s : sc R) : proper_lattice s -> exists x, drift_sum (RING s) = Ok x.
Proof.
  intros HP. unfold drift_sum.
  assert (forall e, e ∈ RING s -> (exists pm, e !! "PassMethod" = Some (VStr pm)) /\ (e !! "PassMethod" = Some (VStr "DriftPass") -> exists l, e !! "Length" = Some (VNum l))) as HE.
  { intros e He. apply elem_of_list_lookup in He as [i Hi]. specialize (HP i ltac:(by eapply lookup_lt_Some)). unfold drift_at, attr_at in HP. by rewrite Hi in HP. }
  clear HP. revert HE. generalize (false, (n0 : R)). generalize (RING s). intros r. induction r as [|e r IH]; intros acc HE; simpl; [by eexists|].
  destruct (HE e) as [[pm Hpm] Hl]; [left|]. unfold is_drift, attr_str, attr. rewrite Hpm. simpl. destruct (bool_decide (pm = "DriftPass")) eqn:Eb.
  - apply bool_decide_eq_true in Eb as ->. destruct (Hl Hpm) as [l El]. unfold attr_num, attr. rewrite El. simpl. apply IH. intros e' He'. apply HE. by right.
  - simpl. apply IH. intros e' He'. apply HE. by right.
Qed.
Lemma scale_drift_succeeds f (e : elem R) pm : e !! "PassMethod" = Some (VStr pm) -> (pm = "DriftPass" -> exists l, e !! "Length" = Some (VNum l)) ->
  exists e', scale_drift f e = (Ok tt, e') /\ (e' = e \/ exists l, e' = <["Length" := VNum l]> e).
Proof.
  intros Hpm Hl. unfold scale_drift. rewrite run_getm. unfold is_drift, attr_str, attr. rewrite Hpm. simpl.
  destruct (bool_decide (pm = "DriftPass")) eqn:Eb; simpl; [|eauto]. apply bool_decide_eq_true in Eb. destruct (Hl Eb) as [x Hx].
  rewrite run_getm. unfold attr_num, attr. rewrite Hx. simpl. eexists. split; [reflexivity|]. eauto.
Qed.
Lemma scale_loop_succeeds f l (s : sc R) : proper_lattice s -> (forall i, i ∈ l -> i < length (RING s)) ->
  exists s', forM l (fun i => on_elem i (scale_drift f)) s = (Ok tt, s').
Proof.
  revert s. induction l as [|i l IH]; intros s HP HL; [by eexists|]. cbn [forM].
  destruct (lookup_lt_is_Some_2 (RING s) i) as [e He]; [apply HL; left|]. rewrite run_eq. unfold on_elem at 1. rewrite He.
  pose proof (HP i ltac:(apply HL; left)) as [[pm Hpm] Hl]. unfold drift_at, attr_at in *. rewrite He in *. simpl in Hpm, Hl.
  destruct (scale_drift_succeeds f e pm Hpm) as (e'&E'&Ha); [intros ->; auto|]. rewrite E'. apply IH.
  - intros k Hk. simpl in Hk. rewrite insert_length in Hk. destruct (HP k Hk) as [HP1 HP2]. unfold drift_at, attr_at in *. simpl. destruct (decide (i = k)) as [<-|Hne].
    + rewrite list_lookup_insert by done. rewrite He in *. simpl in *. destruct Ha as [->|[x ->]]; [done|]. rewrite !lookup_insert, !lookup_insert_ne by done. eauto.
    + by rewrite list_lookup_insert_ne.
  - intros k Hk. simpl. rewrite insert_length. apply HL. by right.
Qed.
Theorem C29_succeeds c mode (s : sc R) : proper_lattice s -> drift_length s <> 0%R -> mode = "abs" \/ mode = "rel" ->
  exists s', scale_circumference c mode s = (Ok tt, s').
Proof.
  intros HP HD Hm. unfold scale_circumference. rewrite decide_True by done. rewrite run_eq. cbn [get]. rewrite run_lift.
  destruct (drift_sum_proper s HP) as [hd Hh]. rewrite Hh. apply drift_sum_ok in Hh as [E1 E2]. destruct (hd.1); [|by eexists]. rewrite E1, run_lift.
  assert (forall a, qdiv a (drift_length s) = Ok (a / drift_length s)%R) as Hq.
  { intros a. unfold qdiv. num_R. destruct (Reqb (drift_length s) 0) eqn:E; [by apply Reqb_true in E|done]. }
  rewrite !Hq. destruct (decide (mode = "rel")); simpl; (apply scale_loop_succeeds; [done|]); intros i Hi; apply elem_of_seq in Hi; lia.
Qed.
(** Finding: a lattice without drifts is silently left as it is, whatever circumference is requested. *)
Theorem C29_finding_no_drift c mode (s : sc R) : proper_lattice s -> (forall i, ~ drift_at s i) -> mode = "abs" \/ mode = "rel" ->
  scale_circumference c mode s = (Ok tt, s).
Proof.
  intros HP HD Hm. unfold scale_circumference. rewrite decide_True by done. rewrite run_eq. cbn [get]. rewrite run_lift.
  destruct (drift_sum_proper s HP) as [hd Hh]. rewrite Hh. apply drift_sum_ok in Hh as [E1 E2]. destruct (hd.1); [|done].
  destruct (proj1 E2 eq_refl) as [i Hi]. by apply HD in Hi.
Qed.

(** A case: magnet of length 1 between drifts of lengths 2 and 3, scaled to 10 and by 3/2. *)
Definition drift_elem (l : Q) : elem Q := {["PassMethod" := VStr "DriftPass"; "Length" := VNum l]}.
Definition magnet_elem (l : Q) : elem Q := {["PassMethod" := VStr "StrMPoleSymplectic4Pass"; "Length" := VNum l]}.
Definition three_elems : sc Q := init_sc [drift_elem 2; magnet_elem 1; drift_elem 3] [].
Example C29_case :
  proper_lattice three_elems /\
  circumference (RING three_elems) = 6%Q /\
  circumference (RING (snd (scale_circumference 11%Q "abs" three_elems))) = 11%Q /\
  circumference (RING (snd (scale_circumference (3 # 2)%Q "rel" three_elems))) = 9%Q /\
  map elem_length (RING (snd (scale_circumference 11%Q "abs" three_elems))) = [4%Q; 1%Q; 6%Q].
Proof.
  split; [|vm_compute; repeat split]. intros i Hi. simpl in Hi. destruct i as [|[|[|]]]; [| | |lia]; vm_compute; split; eauto.
Qed.
Print Assumptions C29_abs.
Print Assumptions C29_rel.
Print Assumptions C29_mode.
Print Assumptions C29_succeeds.
Print Assumptions C29_finding_no_drift.
