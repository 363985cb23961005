(** C26: random numbers with a cut-off. *)
From Coq Require Import Reals Lra QArith.
From stdpp Require Import base gmap strings list.
From Verif Require Import Num Base Model_Arr Model_SC Model_Err Lemmas Examples.
Local Open Scope string_scope.
Local Open Scope list_scope.

Section Loop.
  Context {T : Type} {N : Num T}.
  Notation acc cut := (fun x => negb (too_big cut x)).
  Notation cnt cut l := (length (List.filter (acc cut) l)).

  Lemma filter_count cut (l : list T) : (cnt cut l + length (List.filter (too_big cut) l))%nat = length l.
  Proof. induction l as [|x l IH]; simpl; [done|]. destruct (too_big cut x); simpl; lia. Qed.
  Lemma refill_length cut (out fresh : list T) : length (refill cut out fresh) = length out.
  Proof. revert fresh. induction out as [|x out IH]; intros fresh; simpl; [done|]. destruct (too_big cut x); [destruct fresh|]; simpl; by rewrite IH. Qed.
  Lemma refill_acc cut (out fresh : list T) : length fresh = length (List.filter (too_big cut) out) ->
    List.filter (acc cut) (refill cut out fresh) ≡ₚ List.filter (acc cut) out ++ List.filter (acc cut) fresh.
  Proof.
    revert fresh. induction out as [|x out IH]; intros fresh HL; simpl in *.
    - by destruct fresh.
    - destruct (too_big cut x) eqn:E; simpl in *.
      + destruct fresh as [|y fresh]; [discriminate|]. simpl in *. injection HL as HL.
        destruct (too_big cut y); simpl; rewrite IH by done; [done|]. by rewrite Permutation_middle.
      + rewrite E. simpl. by rewrite IH.
  Qed.
  Lemma filter_app_l {A} (f : A -> bool) l1 l2 : List.filter f (l1 ++ l2) = List.filter f l1 ++ List.filter f l2.
  Proof. induction l1 as [|x l IH]; simpl; [done|]. destruct (f x); simpl; by rewrite IH. Qed.
  Lemma filter_len {A} (f : A -> bool) l : length (List.filter f l) <= length l.
  Proof. induction l as [|x l IH]; simpl; [done|]. destruct (f x); simpl; lia. Qed.

  (** [pre] has been consumed, [rest] is left *)
  Lemma loop_spec fuel cut (out pre rest : list T) (s : sc T) :
    RNG s = rest -> length rest < fuel ->
    List.filter (acc cut) out ≡ₚ List.filter (acc cut) pre ->
    (forall j, j < length pre -> cnt cut (take j pre) < length out) ->
    match randnc_loop fuel cut out s with
    | (Ok l, s') => exists k, k <= length rest /\ s' = set_RNG (drop k rest) s /\ length l = length out /\
        l ≡ₚ List.filter (acc cut) (pre ++ take k rest) /\ forall j, j < length pre + k -> cnt cut (take j (pre ++ rest)) < length out
    | (Err e, _) => e = OutOfDraws /\ cnt cut (pre ++ rest) < length out
    end.
  Proof.
    revert out pre rest s. induction fuel as [|fuel IH]; intros out pre rest s Hr Hf Hp Hj; [lia|].
    simpl. destruct (length (List.filter (too_big cut) out) =? 0)%nat eqn:E.
    - apply Nat.eqb_eq in E. simpl. exists 0%nat. split; [lia|]. split; [destruct s; simpl in *; by rewrite drop_0, <- Hr|].
      split; [done|]. split.
      + rewrite take_0, app_nil_r, <- Hp. clear -E. induction out as [|x out IH]; simpl in *; [done|]. destruct (too_big cut x); [discriminate|]. simpl. by rewrite <- IH.
      + intros j Hlt. rewrite take_app_le by lia. apply Hj. lia.
    - apply Nat.eqb_neq in E. set (n := length (List.filter (too_big cut) out)) in *.
      pose proof (filter_count cut out) as HC. fold n in HC.
      assert (cnt cut out = cnt cut pre) as HP by (by rewrite Hp).
      unfold bind, draw. rewrite Hr. destruct (length rest <? n)%nat eqn:EL.
      + split; [done|]. apply Nat.ltb_lt in EL. rewrite filter_app_l, app_length.
        pose proof (filter_len (acc cut) rest). lia.
      + apply Nat.ltb_ge in EL. specialize (IH (refill cut out (take n rest)) (pre ++ take n rest) (drop n rest) (set_RNG (drop n rest) s) eq_refl).
        rewrite drop_length in IH. specialize (IH ltac:(lia)).
        assert (length (take n rest) = n) as HT by (rewrite take_length; lia).
        assert (List.filter (acc cut) (refill cut out (take n rest)) ≡ₚ List.filter (acc cut) (pre ++ take n rest)) as HX.
        { rewrite refill_acc by done. by rewrite filter_app_l, Hp. }
        specialize (IH HX). rewrite refill_length in IH.
        assert (forall j, j < length (pre ++ take n rest) -> cnt cut (take j (pre ++ take n rest)) < length out) as HJ.
        { intros j Hlt. rewrite app_length, HT in Hlt. destruct (decide (j < length pre)) as [Hl|Hl].
          - rewrite take_app_le by lia. by apply Hj.
          - rewrite take_app_ge by lia. rewrite filter_app_l, app_length.
            pose proof (filter_len (acc cut) (take (j - length pre) (take n rest))) as HH. rewrite take_length, HT in HH. lia. }
        specialize (IH HJ). rewrite <- !app_assoc, take_drop in IH.
        destruct (randnc_loop _ _ _ _) as [[l|e] s']; [|done].
        destruct IH as (k&Hk&->&Hlen&Hperm&Hmin). exists (n + k)%nat. split; [lia|]. split; [by rewrite drop_drop; destruct s|]. split; [done|].
        split.
        * rewrite Hperm, <- app_assoc, take_take_drop. done.
        * intros j Hlt. apply Hmin. rewrite app_length, HT. lia.
  Qed.
  Lemma randnc_spec cut n (s : sc T) :
    match randnc cut n s with
    | (Ok l, s') => exists k, k <= length (RNG s) /\ s' = set_RNG (drop k (RNG s)) s /\ length l = n /\
        l ≡ₚ List.filter (acc cut) (take k (RNG s)) /\ forall j, j < k -> cnt cut (take j (RNG s)) < n
    | (Err e, _) => e = OutOfDraws /\ cnt cut (RNG s) < n
    end.
  Proof.
    unfold randnc, bind, draw at 1. destruct (length (RNG s) <? n)%nat eqn:EL.
    - apply Nat.ltb_lt in EL. split; [done|]. pose proof (filter_len (acc cut) (RNG s)). lia.
    - apply Nat.ltb_ge in EL. unfold get.
      assert (length (take n (RNG s)) = n) as HT by (rewrite take_length; lia).
      pose proof (loop_spec (S (length (drop n (RNG s)))) cut (take n (RNG s)) (take n (RNG s)) (drop n (RNG s)) (set_RNG (drop n (RNG s)) s) eq_refl (Nat.lt_succ_diag_r _) (Permutation_refl _)) as H.
      rewrite HT in H.
      assert (forall j, j < n -> cnt cut (take j (take n (RNG s))) < n) as HJ.
      { intros j Hj. pose proof (filter_len (acc cut) (take j (take n (RNG s)))) as HH. rewrite take_length, HT in HH. lia. }
      specialize (H HJ). rewrite take_drop in H. simpl RNG.
      destruct (randnc_loop _ _ _ _) as [[l|e] s']; [|done].
      destruct H as (k&Hk&->&Hlen&Hperm&Hmin). rewrite drop_length in Hk. exists (n + k)%nat. split; [lia|].
      split; [rewrite drop_drop; by destruct s|]. split; [done|]. split; [by rewrite Hperm, take_take_drop|]. exact Hmin.
  Qed.
End Loop.

(** * Specification *)
(** the values of a stream that respect the cut-off, in order *)
#[global] Instance Rle_decision x y : Decision (x <= y)%R := Rle_dec x y.
Definition within_cut (cut : R) (l : list R) : list R := filter (fun x => (Rabs x <= Rabs cut)%R) l.
Lemma within_cut_acc cut l : within_cut cut l = List.filter (fun x => negb (too_big cut x)) l.
Proof.
  unfold within_cut. induction l as [|x l IH]; [done|]. rewrite filter_cons. simpl List.filter. rewrite IH. unfold too_big. num_R.
  destruct (Rltb (Rabs cut) (Rabs x)) eqn:E; simpl.
  - apply Rltb_true in E. by rewrite decide_False by lra.
  - apply Rltb_false in E. by rewrite decide_True by lra.
Qed.
(** number of values asked for by a shape; one for the shape () and for shapes with only zeros *)
Definition values_for (shape : list Z) : nat :=
  if decide (Forall (eq 0%Z) shape) then 1%nat else Z.to_nat (foldr Z.mul 1%Z shape).
Definition values {A} (x : A + list A) : list A := match x with inl y => [y] | inr l => l end.

(** A returning call takes the shortest beginning of the stream with enough values within the cut-off, and its result
    consists of exactly these values; nothing else of the machine changes.  If the stream does not have enough such values the call
    does not return (the pseudo-exception says that the whole stream has been used up). *)
Theorem C26_randnc cut shape (s : sc R) : Forall (Z.le 0) shape ->
  match randnc_shape cut shape s with
  | (Ok x, s') => exists k, k <= length (RNG s) /\ s' = set_RNG (drop k (RNG s)) s /\
      length (values x) = values_for shape /\ values x ≡ₚ within_cut cut (take k (RNG s)) /\
      (forall j, j < k -> length (within_cut cut (take j (RNG s))) < values_for shape) /\
      (forall y, x = inl y <-> values x = [y] /\ Forall (eq 0%Z) shape)
  | (Err e, _) => e = OutOfDraws /\ length (within_cut cut (RNG s)) < values_for shape
  end.
Proof.
  intros Hs. unfold randnc_shape.
  assert (existsb (fun d => (d <? 0)%Z) shape = false) as ->.
  { apply not_true_iff_false. intros (d&Hd&Hlt)%existsb_exists. rewrite Forall_forall in Hs. apply elem_of_list_In in Hd. apply Hs in Hd. lia. }
  assert ((foldr Z.add 0%Z shape <? 1)%Z = true <-> Forall (eq 0%Z) shape) as Hz.
  { rewrite Z.ltb_lt. induction Hs as [|d shape Hd Hs IH]; simpl; [split; [constructor|lia]|].
    assert (0 <= foldr Z.add 0%Z shape)%Z by (clear -Hs; induction Hs; simpl; lia).
    rewrite Forall_cons, <- IH. lia. }
  unfold values_for. destruct (foldr Z.add 0%Z shape <? 1)%Z.
  - rewrite decide_True by (by apply Hz). unfold randnc1. rewrite <- ?within_cut_acc. unfold bind.
    pose proof (randnc_spec cut 1 s) as H. destruct (randnc cut 1 s) as [[l|e] s']; [|rewrite <- within_cut_acc in H; exact H].
    destruct H as (k&Hk&->&Hlen&Hp&Hm). destruct l as [|y [|? ?]]; simpl in Hlen; try lia. simpl. exists k.
    rewrite within_cut_acc. repeat (split; [done|]). split; [intros j Hj; rewrite within_cut_acc; by apply Hm|].
    intros y'. split; [intros [= ->]; split; [done|by apply Hz]|]. by intros [[= ->] _].
  - rewrite decide_False by (by rewrite <- Hz). unfold bind.
    pose proof (randnc_spec cut (Z.to_nat (foldr Z.mul 1%Z shape)) s) as H. destruct (randnc _ _ s) as [[l|e] s']; [|rewrite <- within_cut_acc in H; exact H].
    destruct H as (k&Hk&->&Hlen&Hp&Hm). simpl. exists k. rewrite within_cut_acc. repeat (split; [done|]).
    split; [intros j Hj; rewrite within_cut_acc; by apply Hm|]. intros y. split; [discriminate|]. intros [_ HF]. apply Hz in HF. discriminate.
Qed.
(** the bound, and that every value comes from the stream *)
Corollary C26_bound cut shape (s s' : sc R) x y :
  randnc_shape cut shape s = (Ok x, s') -> y ∈ values x -> (Rabs y <= Rabs cut)%R /\ y ∈ RNG s.
Proof.
  intros H Hy. destruct (decide (Forall (Z.le 0) shape)) as [Hs|Hs].
  - pose proof (C26_randnc cut shape s Hs) as HC. rewrite H in HC. destruct HC as (k&_&_&_&Hp&_). rewrite Hp in Hy.
    unfold within_cut in Hy. apply elem_of_list_filter in Hy as [Hy Hin]. split; [done|]. apply elem_of_take in Hin as (i&Hi&_). by eapply elem_of_list_lookup_2.
  - unfold randnc_shape in H. destruct (existsb _ _) eqn:E; [discriminate|]. exfalso. apply Hs. apply Forall_forall. intros d Hd.
    destruct (decide (0 <= d)%Z); [done|]. apply not_true_iff_false in E. exfalso. apply E. apply existsb_exists. exists d. split; [by apply elem_of_list_In|]. lia.
Qed.
(** if no value of the stream respects the cut-off the call never returns (asking for at least one value) *)
Corollary C26_never_returns cut shape (s : sc R) : Forall (Z.le 0) shape -> values_for shape <> 0%nat ->
  (forall y, y ∈ RNG s -> (Rabs cut < Rabs y)%R) -> fst (randnc_shape cut shape s) = Err OutOfDraws.
Proof.
  intros Hs Hn Hbig. pose proof (C26_randnc cut shape s Hs) as HC. destruct (randnc_shape cut shape s) as [[x|e] s']; simpl.
  - exfalso. destruct HC as (k&_&_&Hlen&Hp&_). destruct (values x) as [|y l] eqn:E; [by rewrite <- Hlen in Hn|].
    assert (y ∈ within_cut cut (take k (RNG s))) as Hy by (rewrite <- Hp; left). unfold within_cut in Hy. apply elem_of_list_filter in Hy as [Hy Hin].
    apply elem_of_take in Hin as (i&Hi&_). apply elem_of_list_lookup_2 in Hi. apply Hbig in Hi. lra.
  - by destruct HC as [-> _].
Qed.
(** the call returns as soon as the stream has enough values within the cut-off *)
Corollary C26_returns cut shape (s : sc R) : Forall (Z.le 0) shape ->
  values_for shape <= length (within_cut cut (RNG s)) -> exists x, fst (randnc_shape cut shape s) = Ok x.
Proof.
  intros Hs Hn. pose proof (C26_randnc cut shape s Hs) as HC. destruct (randnc_shape cut shape s) as [[x|e] s']; simpl; [eauto|]. lia.
Qed.
Theorem C26_negative_shape cut shape (s : sc R) : ~ Forall (Z.le 0) shape -> randnc_shape cut shape s = (Err ValueError, s).
Proof.
  intros Hs. unfold randnc_shape. destruct (existsb _ _) eqn:E; [done|]. exfalso. apply Hs. apply Forall_forall. intros d Hd.
  destruct (decide (0 <= d)%Z); [done|]. apply not_true_iff_false in E. exfalso. apply E. apply existsb_exists. exists d. split; [by apply elem_of_list_In|]. lia.
Qed.

(** shape (2, 2), cut-off 2: the second value is replaced by the fifth, which is too big again and replaced by the sixth *)
Example C26_case :
  let s := init_sc [] [1; 3; -2; 0; 5; -1; 7]%Q in
  let r := randnc_shape 2%Q [2; 2]%Z s in
  fst r = Ok (inr [1; -1; -2; 0]%Q) /\ RNG (snd r) = [7%Q] /\
  fst (randnc_shape (-2)%Q [] s) = Ok (inl 1%Q) /\ fst (randnc_shape 2%Q [0]%Z s) = Ok (inl 1%Q) /\
  fst (randnc_shape 2%Q [2; 0]%Z s) = Ok (inr []) /\ fst (randnc_shape (1 # 2)%Q [2]%Z s) = Err OutOfDraws.
Proof. vm_compute. repeat split. Qed.
Print Assumptions C26_randnc.
Print Assumptions C26_bound.
Print Assumptions C26_never_returns.
Print Assumptions C26_returns.
Print Assumptions C26_negative_shape.
