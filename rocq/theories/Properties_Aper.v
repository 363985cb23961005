(** C63: dynamic and momentum aperture. *)
From Coq Require Import Reals Lra Lia ZArith QArith.
From stdpp Require Import base strings list.
From Verif Require Import Num Base Model_SC Lemmas Spec Proofs_CM Model_Aper.
Local Open Scope string_scope.
Local Open Scope list_scope.
Local Open Scope R_scope.

(** [r] lies between [a] and [b], in either direction *)
Definition between (a r b : R) : Prop := a <= r <= b \/ b <= r <= a.
(** the particle launched at radius [r] and angle [theta], its other coordinates those of [z] *)
Definition launched (z : list R) (r theta : R) : list R := <[2%nat := r * sin theta]> (<[0%nat := r * cos theta]> z).
(** the two lists agree but for the transverse positions *)
Definition same_but_xy (z z' : list R) : Prop := length z' = length z /\ forall i, i <> 0%nat -> i <> 2%nat -> z' !! i = z !! i.

Lemma same_but_xy_launched z z' r theta : same_but_xy z z' -> (2 < length z)%nat -> launched z' r theta = launched z r theta.
Proof.
  intros [L H] Hz. apply list_eq. intros i. unfold launched.
  destruct (decide (i = 2%nat)) as [->|N2]; [rewrite !list_lookup_insert; [done|rewrite insert_length; lia..]|].
  rewrite !(list_lookup_insert_ne _ 2%nat) by done.
  destruct (decide (i = 0%nat)) as [->|N0]; [rewrite !list_lookup_insert; [done|lia..]|].
  rewrite !(list_lookup_insert_ne _ 0%nat) by done. by apply H.
Qed.
Lemma launched_same z r theta : (2 < length z)%nat -> same_but_xy z (launched z r theta).
Proof.
  intros _. split; [unfold launched; by rewrite !insert_length|]. intros i A B. unfold launched. by rewrite !list_lookup_insert_ne by done.
Qed.
#[local] Instance same_but_xy_trans : PreOrder same_but_xy.
Proof.
  split; [intros z; by split|]. intros a b c [L H] [L' H']. split; [congruence|]. intros i A B. rewrite H', H by done. done.
Qed.
Lemma set_xy_ok z r theta z' : set_xy z r theta = Ok z' -> z' = launched z r theta /\ (2 < length z)%nat.
Proof.
  unfold set_xy. intros H. apply rbind_ok in H as (z1&H1&H). apply idx_set_ok in H1 as [H1 ->]. apply idx_set_ok in H as [H ->].
  split; [done|]. by rewrite insert_length in H.
Qed.

(** * Shape of the search *)
Section Any.
  Variable track : list (list R) -> nat -> res (array R).

  (** The verdict on one particle: whether the horizontal position it is judged by is not a number. *)
  Definition lost (z : list R) (turns : nat) (b : bool) : Prop :=
    exists out n m sh, track [z] turns = Ok out /\ a_shape out = n :: m :: sh /\ (0 < n)%nat /\ (n - 1 < m)%nat /\ Forall (eq 1%nat) sh /\
      (b = true <-> a_get out (0%nat :: (n - 1)%nat :: map (fun _ => 0%nat) sh) = None).

  Lemma prod_one l : foldr Nat.mul 1%nat l = 1%nat -> Forall (eq 1%nat) l.
  Proof. induction l as [|a l IH]; [done|]. cbn. intros H. apply Nat.eq_mul_1 in H as [-> H]. constructor; auto. Qed.

  Lemma refine_ok turns theta lo hi z z' b :
    refine_bounds_xy track turns theta lo hi z = (Ok b, z') ->
    (2 < length z)%nat /\ z' = launched z ((lo + hi) / 2) theta /\ exists v, lost z' turns v /\ b = (if v then (lo, (lo + hi) / 2) else ((lo + hi) / 2, hi)).
  Proof.
    unfold refine_bounds_xy. intros H. apply bind_ok in H as (z0&s1&H1&H). apply get_ok in H1 as [-> ->].
    apply bind_ok in H as (z1&s1&H1&H). apply lift_ok in H1 as [H1 ->]. apply set_xy_ok in H1 as [-> Hz].
    apply bind_ok in H as ([]&s1&H1&H). cbv [modify] in H1. injection H1 as <-.
    apply bind_ok in H as (out&s1&H1&H). apply lift_ok in H1 as [Ho ->].
    apply bind_ok in H as (v&s1&H1&H). apply lift_ok in H1 as [Hv ->]. apply ret_ok in H as [<- ->].
    assert (E : mean2 lo hi = (lo + hi) / 2) by (unfold mean2, ntwo; num_R; lra). rewrite E in *.
    split; [done|]. split; [done|]. exists v. split; [|done].
    apply rbind_ok in Hv as (l&H1&Hv). apply rbind_ok in Hv as (x&H2&Hv).
    unfold at_second, first_length in H1. destruct (a_shape out) as [|n [|m sh]] eqn:Es; [done..|].
    destruct (_ <? m)%nat eqn:Em in H1; [|done]. injection H1 as <-. apply Nat.ltb_lt in Em. unfold at_first in H2. cbn [a_shape] in H2.
    destruct (0 <? n)%nat eqn:En in H2; [|done]. injection H2 as <-. apply Nat.ltb_lt in En.
    unfold truth_nan in Hv. cbn [a_shape a_get] in Hv. destruct (_ =? 1)%nat eqn:E1 in Hv; [|done]. apply Nat.eqb_eq, prod_one in E1.
    exists out, n, m, sh. repeat (split; [done|]). injection Hv as <-. by destruct (a_get out _).
  Qed.

  (** Each refinement keeps one of the two halves, judged by the particle launched at the midpoint: the inner half if that
      particle is lost, the outer half if it survives.  The other coordinates of the reference particle are not touched. *)
  Theorem C63_halves turns theta lo hi z z' lo' hi' :
    refine_bounds_xy track turns theta lo hi z = (Ok (lo', hi'), z') ->
    let mid := (lo + hi) / 2 in
    same_but_xy z z' /\ hi' - lo' = (hi - lo) / 2 /\
    ((lost (launched z mid theta) turns true /\ lo' = lo /\ hi' = mid) \/ (lost (launched z mid theta) turns false /\ lo' = mid /\ hi' = hi)).
  Proof.
    intros H mid. apply refine_ok in H as (Hz&->&v&Hv&E). split; [by apply launched_same|]. fold mid in Hv, E.
    destruct v; injection E as -> ->; unfold mid; (split; [lra|]); [left|right]; done.
  Qed.

  (** [r0] is the stability limit along [theta]: judged from the side of [lo], a lost particle is beyond it and a surviving one is not. *)
  Definition limit (z : list R) (turns : nat) (theta lo hi r0 : R) : Prop :=
    forall r, between lo r hi -> (lost (launched z r theta) turns true -> between lo r0 r) /\ (lost (launched z r theta) turns false -> between r r0 hi).

  Lemma refine_loop_ok fuel turns theta acc lo hi z z' c :
    refine_loop track fuel turns theta acc lo hi z = (Ok c, z') ->
    same_but_xy z z' /\ between lo c.1 hi /\ between lo c.2 hi /\ Rabs (c.2 - c.1) <= acc /\
    (exists k, (k < fuel)%nat /\ c.2 - c.1 = (hi - lo) / 2 ^ k) /\
    (forall r0, between lo r0 hi -> limit z turns theta lo hi r0 -> between c.1 r0 c.2).
  Proof.
    revert lo hi z. induction fuel as [|fuel IH]; [done|]. intros lo hi z. cbn [refine_loop].
    change (nltb acc (nabs (nsub hi lo))) with (Rltb acc (nabs (hi - lo))). rewrite nabs_R.
    destruct (Rltb acc (Rabs (hi - lo))) eqn:E.
    2:{ intros H. apply ret_ok in H as [<- ->]. apply Rltb_false in E. split; [done|]. cbn. split; [unfold between; lra|]. split; [unfold between; lra|].
        split; [done|]. split; [exists 0%nat; split; [lia|cbn; lra]|]. intros r0 B _. exact B. }
    intros H. apply bind_ok in H as (b&s1&H1&H). destruct b as [lo1 hi1]. cbn in H.
    pose proof H1 as H1'. apply C63_halves in H1' as (S1&W1&C1). apply refine_ok in H1 as (Hz&_&_).
    specialize (IH _ _ _ H) as (S2&B1&B2&A&(k&Hk&Ek)&L).
    split; [by etransitivity|].
    assert (Hs : between lo lo1 hi /\ between lo hi1 hi).
    { destruct C1 as [(_&->&->)|(_&->&->)]; unfold between; split; lra. }
    destruct Hs as [Hs1 Hs2].
    assert (Tr : forall r, between lo1 r hi1 -> between lo r hi) by (unfold between in *; intros r Hr; lra).
    split; [by apply Tr|]. split; [by apply Tr|]. split; [done|].
    split. { exists (S k). split; [lia|]. rewrite Ek, W1. cbn [Rpow_def.pow]. field. apply pow_nonzero. lra. }
    intros r0 Br Hl. apply L.
    - destruct (Hl ((lo + hi) / 2)) as [Ha Hb]; [unfold between; lra|]. destruct C1 as [(V&->&->)|(V&->&->)]; auto.
    - intros r Hr. rewrite (same_but_xy_launched z) by (done || lia). destruct (Hl r (Tr r Hr)) as [Ha Hb].
      assert (Br1 : between lo1 r0 hi1).
      { destruct (Hl ((lo + hi) / 2)) as [Ha' Hb']; [unfold between; lra|]. destruct C1 as [(V&->&->)|(V&->&->)]; auto. }
      split; intros V; [specialize (Ha V)|specialize (Hb V)]; clear -C1 Hr Ha Hb Br1 Br;
        destruct C1 as [(_&->&->)|(_&->&->)]; unfold between in *; lra.
  Qed.

  (** The refinement stops with an interval no wider than the accuracy, whose width is the initial one halved k times; the
      stability limit stays between its ends, hence the mean of the ends is within half the accuracy of it. *)
  Theorem C63_limit_found fuel turns theta acc lo hi z z' c r0 :
    between lo r0 hi -> limit z turns theta lo hi r0 ->
    refine_loop track fuel turns theta acc lo hi z = (Ok c, z') ->
    Rabs ((c.1 + c.2) / 2 - r0) <= acc / 2 /\ (exists k, c.2 - c.1 = (hi - lo) / 2 ^ k /\ Rabs ((c.1 + c.2) / 2 - r0) <= Rabs (hi - lo) / 2 ^ S k).
  Proof.
    intros B L H. apply refine_loop_ok in H as (_&_&_&A&(k&_&Ek)&Hl). specialize (Hl r0 B L).
    assert (D : Rabs ((c.1 + c.2) / 2 - r0) <= Rabs (c.2 - c.1) / 2).
    { unfold between in Hl. unfold Rabs. repeat destruct Rcase_abs; lra. }
    split; [lra|]. exists k. split; [done|]. eapply Rle_trans; [exact D|]. rewrite Ek.
    unfold Rdiv at 2. rewrite Rabs_mult, (Rabs_right (/ 2 ^ k)); [|apply Rle_ge, Rlt_le, Rinv_0_lt_compat, pow_lt; lra].
    right. cbn [Rpow_def.pow]. field. apply pow_nonzero. lra.
  Qed.

  (** Enough fuel: the number of refinements is bounded by the number of halvings needed (the searches end). *)
  Theorem C63_ends fuel turns theta acc lo hi z :
    (2 < length z)%nat -> Rabs (hi - lo) <= acc * 2 ^ fuel ->
    (forall z, exists v, lost z turns v) ->
    exists c z', refine_loop track (S fuel) turns theta acc lo hi z = (Ok c, z').
  Proof.
    intros Hz W Ht. revert lo hi z Hz W. induction fuel as [|fuel IH]; intros lo hi z Hz W.
    - cbn [refine_loop]. change (nltb acc (nabs (nsub hi lo))) with (Rltb acc (nabs (hi - lo))). rewrite nabs_R.
      destruct (Rltb _ _) eqn:E; [apply Rltb_true in E; cbn in W; lra|]. by eexists _, _.
    - remember (S fuel) as f eqn:Ef. cbn [refine_loop]. change (nltb acc (nabs (nsub hi lo))) with (Rltb acc (nabs (hi - lo))). rewrite nabs_R.
      destruct (Rltb _ _) eqn:E; [|by eexists _, _].
      assert (Hr : exists b z1, refine_bounds_xy track turns theta lo hi z = (Ok b, z1)).
      { unfold refine_bounds_xy. unfold bind at 1, get. cbn beta iota.
        assert (Hs : set_xy z (mean2 lo hi) theta = Ok (launched z (mean2 lo hi) theta)).
        { unfold set_xy, idx_set. destruct (z !! 0%nat) eqn:E0; [|apply lookup_ge_None in E0; lia]. cbn [rbind].
          destruct (<[0%nat := _]> z !! 2%nat) eqn:E2; [|apply lookup_ge_None in E2; rewrite insert_length in E2; lia]. done. }
        rewrite Hs. unfold bind at 1, lift at 1. cbn beta iota. unfold bind at 1, modify. cbn beta iota.
        set (z1 := launched z (mean2 lo hi) theta). destruct (Ht z1) as (v&out&n&m&sh&Ho&Es&Hn&Hm&F&Hv). rewrite Ho.
        unfold bind at 1, lift at 1. cbn beta iota. unfold bind at 1, lift at 1. unfold at_second, first_length. rewrite Es.
        rewrite (proj2 (Nat.ltb_lt _ _) Hm). cbn [rbind]. unfold at_first. cbn [a_shape]. rewrite (proj2 (Nat.ltb_lt _ _) Hn). cbn [rbind].
        unfold truth_nan. cbn [a_shape a_get].
        assert (P : foldr Nat.mul 1%nat sh = 1%nat) by (clear -F; induction F as [|? ? <- _ IH]; [done|]; cbn; lia). rewrite P. cbn [Nat.eqb].
        by eexists _, _. }
      destruct Hr as ([lo1 hi1]&z1&Hr). unfold bind. rewrite Hr. cbn [fst snd]. apply C63_halves in Hr as (S1&W1&_). subst f. apply IH.
      + destruct S1 as [-> _]. done.
      + rewrite W1. unfold Rdiv. rewrite Rabs_mult, (Rabs_right (/ 2)) by lra. cbn [Rpow_def.pow] in W. lra.
  Qed.

  (** The initial bounds are never found to bracket the limit: both trial particles are the same array, and only one particle of
      the result is looked at. *)
  Theorem C63_finding_never_bracketed turns theta lo hi z z' : check_bounds_xy track turns theta lo hi z <> (Ok true, z').
  Proof.
    unfold check_bounds_xy. intros H. apply bind_ok in H as (z0&s1&_&H). apply bind_ok in H as (z1&s2&_&H). apply bind_ok in H as ([]&s3&_&H).
    apply bind_ok in H as (z2&s4&_&H). apply bind_ok in H as ([]&s5&_&H). apply bind_ok in H as (out&s6&_&H). apply lift_ok in H as [H _].
    apply rbind_ok in H as (l&H1&H). apply rbind_ok in H as (row&H2&H). apply rbind_ok in H as (c0&_&H). apply rbind_ok in H as (b&_&H).
    destruct b; [done|]. apply rbind_ok in H as (c1&H3&_).
    unfold slice_second in H1. destruct (a_shape out) as [|n [|m sh]] eqn:Es; [done..|]. injection H1 as <-.
    unfold at_first in H2. cbn [a_shape] in H2. case_match; [|done]. injection H2 as <-. unfold at_first in H3. cbn [a_shape] in H3.
    destruct (1 <? _)%nat eqn:E in H3; [|done]. apply Nat.ltb_lt in E. unfold first_length in E. rewrite Es in E. lia.
  Qed.
  (** Both trial particles start at the upper bound, whatever the lower one is, and the reference particle is left there. *)
  Theorem C63_finding_both_at_upper turns theta lo lo2 hi z : (2 < length z)%nat ->
    snd (check_bounds_xy track turns theta lo hi z) = launched z hi theta /\
    fst (check_bounds_xy track turns theta lo hi z) = fst (check_bounds_xy track turns theta lo2 hi z) /\
    (forall e, track [launched z hi theta; launched z hi theta] turns = Err e -> fst (check_bounds_xy track turns theta lo hi z) = Err e).
  Proof.
    intros Hz. assert (S2 : forall z r, (2 < length z)%nat -> set_xy z r theta = Ok (launched z r theta)).
    { clear. intros z r Hz. unfold set_xy, idx_set. destruct (lookup_lt_is_Some_2 z 0) as [x ->]; [lia|]. cbn [rbind]. rewrite list_lookup_insert_ne by done.
      destruct (lookup_lt_is_Some_2 z 2) as [y ->]; [lia|]. done. }
    assert (L2 : forall z r q, (2 < length z)%nat -> launched (launched z r theta) q theta = launched z q theta).
    { clear. intros z r q Hz. unfold launched. destruct z as [|a [|b [|c z]]]; cbn in Hz; [lia..|]. done. }
    assert (E : forall lo, check_bounds_xy track turns theta lo hi z = (fst (check_bounds_xy track turns theta lo2 hi z), launched z hi theta) /\
        (forall e, track [launched z hi theta; launched z hi theta] turns = Err e -> check_bounds_xy track turns theta lo hi z = (Err e, launched z hi theta))).
    { intros lo'. unfold check_bounds_xy, bind, get, lift, modify, fst. rewrite !(S2 z) by done. rewrite !S2 by (unfold launched; by rewrite !insert_length). rewrite !L2 by done.
      destruct (track _ _) as [out|e]; [|by split; [|intros ? [= ->]]]. split; [done|by intros]. }
    destruct (E lo) as [E1 E2]. split; [by rewrite E1|]. split; [by rewrite E1|]. intros e He. by rewrite (E2 e He).
  Qed.
  (** Hence the bounds are always scaled sixteen times before they are refined. *)
  Definition ten_times (b : R * R) : R * R := scale_bounds b.1 b.2 10.
  Theorem C63_finding_always_scaled turns theta lo hi z z' b : scale_loop track 16 turns theta lo hi z = (Ok b, z') -> b = Nat.iter 16 ten_times (lo, hi).
  Proof.
    assert (H : forall n lo hi z, scale_loop track n turns theta lo hi z = (Ok b, z') -> b = Nat.iter n ten_times (lo, hi)).
    { clear. induction n as [|n IH]; intros lo hi z H; [apply ret_ok in H as [<- _]; done|]. cbn [scale_loop] in H.
      apply bind_ok in H as (ok&s1&H1&H). destruct ok; [by apply C63_finding_never_bracketed in H1|].
      change (nofnat 10) with (@nofnat R _ 10) in H. rewrite nofnat_R in H. replace (INR 10) with 10 in H by (cbn; lra).
      destruct (scale_bounds lo hi 10) as [lo' hi'] eqn:E. apply IH in H. rewrite Nat.iter_succ_r. unfold ten_times at 2. cbn [fst snd]. by rewrite E. }
    apply H.
  Qed.
End Any.
Print Assumptions C63_halves.
Print Assumptions C63_limit_found.
Print Assumptions C63_ends.
Print Assumptions C63_finding_never_bracketed.
Print Assumptions C63_finding_always_scaled.
Print Assumptions C63_finding_both_at_upper.

(** * Scaling *)
Lemma sign_eq_1 x : 0 < x -> sign x = 1.
Proof. intros H. unfold sign. destruct (Rlt_dec x 0); [lra|]. destruct (Rlt_dec 0 x); [done|lra]. Qed.
Lemma sign_eq_m1 x : x < 0 -> sign x = -1.
Proof. intros H. unfold sign. destruct (Rlt_dec x 0); [done|lra]. Qed.
Lemma sign_0 : sign 0 = 0.
Proof. unfold sign. destruct (Rlt_dec 0 0); [lra|]. destruct (Rlt_dec 0 0); [lra|done]. Qed.
Lemma scale_R lo hi alpha : scale_bounds lo hi alpha =
  let m := (lo + hi) / 2 in let l := m - (m - lo) * alpha in let u := m - (m - hi) * alpha in
  ((if Reqb (sign l) (sign lo) then l else 0), (if Reqb (sign u) (sign hi) then u else 0)).
Proof. unfold scale_bounds, mean2, ntwo. rewrite !nsign_sign. num_R. done. Qed.
Lemma Reqb_neq x y : Reqb x y = false -> x <> y.
Proof. intros H ->. rewrite (proj2 (Reqb_true y y) eq_refl) in H. done. Qed.
(** The scaled interval contains the given one and does not reach to the other side of zero. *)
Theorem C63_scaled lo hi alpha lo' hi' : 1 <= alpha -> scale_bounds lo hi alpha = (lo', hi') ->
  (0 <= lo < hi -> 0 <= lo' <= lo /\ hi <= hi' /\ (lo = 0 -> lo' = 0)) /\ (hi < lo <= 0 -> lo <= lo' <= 0 /\ hi' <= hi /\ (lo = 0 -> lo' = 0)).
Proof.
  intros Ha. rewrite scale_R. cbn zeta. set (l := (lo + hi) / 2 - _ * alpha). set (u := (lo + hi) / 2 - ((lo + hi) / 2 - hi) * alpha).
  intros E. injection E as <- <-. split; intros [H1 H2].
  - assert (U : hi <= u) by (unfold u; nra). assert (L : l <= lo) by (unfold l; nra).
    assert (Su : sign u = sign hi) by (rewrite !sign_eq_1; lra). rewrite (proj2 (Reqb_true _ _) Su).
    destruct (Reqb (sign l) (sign lo)) eqn:E.
    + apply Reqb_true in E. destruct (Req_dec lo 0) as [->|N].
      * rewrite sign_0 in E. destruct (Rtotal_order l 0) as [Hl|[Hl|Hl]]; [rewrite sign_eq_m1 in E; lra|lra|lra].
      * rewrite (sign_eq_1 lo) in E by lra. destruct (Rtotal_order l 0) as [Hl|[Hl|Hl]]; [rewrite sign_eq_m1 in E; lra|rewrite Hl, sign_0 in E; lra|lra].
    + lra.
  - assert (U : u <= hi) by (unfold u; nra). assert (L : lo <= l) by (unfold l; nra).
    assert (Su : sign u = sign hi) by (rewrite !sign_eq_m1; lra). rewrite (proj2 (Reqb_true _ _) Su).
    destruct (Reqb (sign l) (sign lo)) eqn:E.
    + apply Reqb_true in E. destruct (Req_dec lo 0) as [->|N].
      * rewrite sign_0 in E. destruct (Rtotal_order l 0) as [Hl|[Hl|Hl]]; [lra|lra|rewrite sign_eq_1 in E; lra].
      * rewrite (sign_eq_m1 lo) in E by lra. destruct (Rtotal_order l 0) as [Hl|[Hl|Hl]]; [lra|rewrite Hl, sign_0 in E; lra|rewrite sign_eq_1 in E; lra].
    + lra.
Qed.
Print Assumptions C63_scaled.
(** From zero the upper bound grows by 5.5 each time, so the default upper bound of 1e-3 always becomes more than 5e8. *)
Theorem C63_finding_scaled_from_zero hi n : 0 < hi -> Nat.iter n ten_times (0, hi) = (0, (11 / 2) ^ n * hi).
Proof.
  intros H. induction n as [|n IH]; [cbn; f_equal; lra|]. rewrite Nat.iter_succ, IH. unfold ten_times. cbn [fst snd].
  set (h := (11 / 2) ^ n * hi). assert (0 < h) by (unfold h; apply Rmult_lt_0_compat; [apply pow_lt; lra|done]).
  rewrite scale_R. cbn zeta. replace ((0 + h) / 2 - ((0 + h) / 2 - 0) * 10) with (- (9 / 2) * h) by lra.
  replace ((0 + h) / 2 - ((0 + h) / 2 - h) * 10) with (11 / 2 * h) by lra.
  rewrite (sign_eq_1 h), (sign_eq_1 (11 / 2 * h)), (sign_eq_m1 (- (9 / 2) * h)), sign_0 by lra. rewrite (proj2 (Reqb_true 1 1) eq_refl).
  destruct (Reqb (-1) 0) eqn:E; [apply Reqb_true in E; lra|]. f_equal. unfold h. cbn [Rpow_def.pow]. lra.
Qed.
Corollary C63_finding_default_bounds : snd (Nat.iter 16 ten_times (0, 1 / 1000)) > 500000000.
Proof. rewrite C63_finding_scaled_from_zero by lra. cbn [snd]. cbn [Rpow_def.pow]. lra. Qed.
Print Assumptions C63_finding_scaled_from_zero.

(** * The area *)
(** The area is that enclosed by the points found and the origin - the sum of the signed triangles between neighbouring points, half the cross
    product of each with the next -, the triangle from the last point back to the first not included. *)
Definition point (t r : R) : R * R := (r * cos t, r * sin t).
Definition cross (p q : R * R) : R := p.1 * q.2 - q.1 * p.2.
Fixpoint fan (l : list (R * R)) : R := match l with p :: (q :: _) as l' => cross p q / 2 + fan l' | _ => 0 end.
Theorem C63_area thetas radii : length thetas = length radii -> area thetas radii = fan (zip_with point thetas radii).
Proof.
  revert radii. induction thetas as [|t0 [|t1 ts] IH]; intros [|r0 [|r1 rs]] HL; try done.
  specialize (IH (r1 :: rs) ltac:(cbn in *; lia)). cbn [area zip_with fan] in *. rewrite IH. f_equal.
  unfold cross, point. cbn [fst snd]. num_R. change (nsin (t1 - t0)) with (sin (t1 - t0)). rewrite sin_minus. unfold ntwo. num_R. field.
Qed.
(** For the default angles, from zero to two pi, nothing is missing if the two measurements along the horizontal axis agree. *)
Lemma fan_snoc l p q : fan (l ++ [p; q]) = fan (l ++ [p]) + cross p q / 2.
Proof.
  induction l as [|a l IH]; [cbn; lra|]. destruct l as [|b l]; [cbn; lra|].
  change (cross a b / 2 + fan ((b :: l) ++ [p; q]) = cross a b / 2 + fan ((b :: l) ++ [p]) + cross p q / 2). rewrite IH. lra.
Qed.
Theorem C63_area_closed t0 r0 t1 r1 ts rs : length ts = length rs -> point t1 r1 = point t0 r0 ->
  forall ps p, zip_with point (t0 :: ts) (r0 :: rs) = ps ++ [p] -> area (t0 :: ts ++ [t1]) (r0 :: rs ++ [r1]) = fan (ps ++ [p]) + cross p (point t0 r0) / 2.
Proof.
  intros HL E ps p Hp. rewrite C63_area by (cbn [length]; rewrite !app_length; cbn; lia).
  change (t0 :: ts ++ [t1]) with ((t0 :: ts) ++ [t1]). change (r0 :: rs ++ [r1]) with ((r0 :: rs) ++ [r1]). rewrite zip_with_app by (cbn; lia).
  rewrite Hp. cbn [zip_with]. rewrite E, <- app_assoc. cbn [app]. apply fan_snoc.
Qed.
Print Assumptions C63_area.
Print Assumptions C63_area_closed.
(** * The layout of the tracking results: coordinates, particles, reference points, turns *)
Definition real_layout (track : list (list R) -> nat -> res (array R)) : Prop :=
  forall zs turns out, track zs turns = Ok out -> a_shape out = [6; length zs; 1; turns]%nat.

Lemma refine_err track turns theta lo hi z : real_layout track -> forall b z', refine_bounds_xy track turns theta lo hi z <> (Ok b, z').
Proof.
  intros L b z' H. apply refine_ok in H as (_&_&v&(out&n&m&sh&Ho&Es&_&Hm&_)&_). apply L in Ho. rewrite Ho in Es. cbn in Es. simplify_eq. lia.
Qed.
Lemma check_err track turns theta lo hi z : real_layout track -> forall b z', check_bounds_xy track turns theta lo hi z <> (Ok b, z').
Proof.
  intros L b z' H. unfold check_bounds_xy in H. apply bind_ok in H as (z0&s1&_&H). apply bind_ok in H as (z1&s2&_&H). apply bind_ok in H as ([]&s3&_&H).
  apply bind_ok in H as (z2&s4&_&H). apply bind_ok in H as ([]&s5&_&H). apply bind_ok in H as (out&s6&H1&H). apply lift_ok in H1 as [H1 _]. apply lift_ok in H as [H _].
  apply L in H1. cbn in H1. unfold slice_second, first_length in H. rewrite H1 in H. cbn in H. done.
Qed.
(** No dynamic aperture is ever returned for a nonempty list of angles, whatever the other arguments, and none at all with the
    default arguments (centerOnOrbit). *)
Theorem C63_finding_dynamic_never_returns track fuel turns dE b0 b1 thetas acc launch center use6 r :
  real_layout track -> thetas <> [] \/ center = true \/ launch = true -> dynamic_aperture track fuel turns dE b0 b1 thetas acc launch center use6 <> Ok r.
Proof.
  intros L Hc H. unfold dynamic_aperture in H. destruct (sort2 b0 b1) as [lo hi]. destruct launch; [by destruct use6|]. cbn [rbind] in H.
  apply rbind_ok in H as (radii&H1&H). destruct center; [done|]. destruct Hc as [Hc|[Hc|Hc]]; [|done..].
  destruct thetas as [|t ts]; [done|]. destruct (mapM _ _ _) as [q s'] eqn:E in H1. cbn in H1. subst q.
  cbn [mapM] in E. apply bind_ok in E as (y&s1&E&_). unfold radius in E. apply bind_ok in E as (b&s2&E&_).
  cbn [scale_loop] in E. apply bind_ok in E as (ok&s3&E&_). by apply check_err in E.
Qed.
Print Assumptions C63_finding_dynamic_never_returns.

(** The bounds given are taken in the order of their magnitudes. *)
Theorem C63_bounds_sorted b0 b1 lo hi : sort2 b0 b1 = (lo, hi) -> ((lo, hi) = (b0, b1) \/ (lo, hi) = (b1, b0)) /\ Rabs lo <= Rabs hi.
Proof.
  unfold sort2. rewrite !nabs_R. change (nltb (Rabs b1) (Rabs b0)) with (Rltb (Rabs b1) (Rabs b0)). destruct (Rltb _ _) eqn:E; intros [= <- <-].
  - apply Rltb_true in E. split; [by right|lra].
  - apply Rltb_false in E. split; [by left|lra].
Qed.
Theorem C63_bounds_either_way track fuel turns dE b0 b1 thetas acc launch center use6 : Rabs b0 <> Rabs b1 ->
  dynamic_aperture track fuel turns dE b0 b1 thetas acc launch center use6 = dynamic_aperture track fuel turns dE b1 b0 thetas acc launch center use6.
Proof.
  intros H. unfold dynamic_aperture. assert (sort2 b0 b1 = sort2 b1 b0) as ->; [|done]. unfold sort2. rewrite !nabs_R.
  change (nltb (Rabs b1) (Rabs b0)) with (Rltb (Rabs b1) (Rabs b0)). change (nltb (Rabs b0) (Rabs b1)) with (Rltb (Rabs b0) (Rabs b1)).
  destruct (Rltb (Rabs b1) (Rabs b0)) eqn:E1, (Rltb (Rabs b0) (Rabs b1)) eqn:E2; try done; [apply Rltb_true in E1, E2|apply Rltb_false in E1, E2]; lra.
Qed.
Print Assumptions C63_bounds_sorted.
Print Assumptions C63_bounds_either_way.

(** * Momentum aperture *)
(** No momentum aperture is ever returned: what the orbit finder returns is a pair and not an array.  An array would not help, the
    check of the bounds never returns. *)
Theorem C63_finding_momentum_never_returns (track : list (list R) -> nat -> res (array R)) fuel turns acc step b0 b1 zcos n r :
  momentum_aperture track fuel turns acc step b0 b1 zcos n = Ok r ->
  exists a, zcos = inr a /\ ((exists z, z ∈ a /\ None ∈ z) \/ n = 0%nat).
Proof.
  unfold momentum_aperture. intros H. destruct zcos as [o|a]; [done|]. cbn [flatten rbind] in H. exists a. split; [done|].
  destruct (existsb _ _) eqn:E.
  - left. apply existsb_exists in E as (v&Hv&Ev). destruct v; [done|]. apply in_concat in Hv as (z&A&B). exists z. by rewrite !elem_of_list_In.
  - right. destruct n as [|n]; [done|]. cbn [seq rmap] in H. apply rbind_ok in H as (y&H&_). apply rbind_ok in H as (z&_&H).
    unfold momentum_one in H. apply rbind_ok in H as (b&H&_). destruct fuel; [done|]. cbn in H. done.
Qed.
(** An orbit that is not finite at any of the reference points gives zero for all of them. *)
Theorem C63_momentum_no_orbit (track : list (list R) -> nat -> res (array R)) fuel turns acc step b0 b1 a z n : z ∈ a -> None ∈ z ->
  momentum_aperture track fuel turns acc step b0 b1 (inr a) n = Ok (replicate n (0, 0)).
Proof.
  intros Hz HN. unfold momentum_aperture. cbn [flatten rbind]. assert (existsb (fun v : option R => match v with None => true | Some _ => false end) (concat a) = true) as ->; [|done].
  apply existsb_exists. exists None. split; [|done]. apply in_concat. exists z. by rewrite <- !elem_of_list_In.
Qed.
Print Assumptions C63_momentum_no_orbit.
Theorem C63_finding_momentum_pair (track : list (list R) -> nat -> res (array R)) fuel turns acc step b0 b1 o n : momentum_aperture track fuel turns acc step b0 b1 (inl o) n = Err AttributeError.
Proof. done. Qed.
(** The refinement, called by itself: for one turn it halves the interval; for more it raises.  It moves the reference particle
    by the middle of the bounds, so that a second call judges the sum of both middles rather than the new middle. *)
Lemma m_refine_ok track turns b0 b1 z st :
  refine_bounds track turns ((b0, b1), z) = (Ok tt, st) ->
  exists e out x v, z !! 4%nat = Some e /\ let z' := <[4%nat := e + (b0 + b1) / 2]> z in
    track [z'] turns = Ok out /\ at_first out 0 = Ok x /\ truth_nan x = Ok v /\ st = ((if v : bool then (b0, (b0 + b1) / 2) else ((b0 + b1) / 2, b1)), z').
Proof.
  unfold refine_bounds. intros H. apply bind_ok in H as (s0&s1&H1&H). apply get_ok in H1 as [-> ->]. cbn beta iota zeta in H.
  apply bind_ok in H as (e&s1&H1&H). apply lift_ok in H1 as [H1 ->]. apply idx_ok in H1. apply bind_ok in H as (z'&s1&H2&H). apply lift_ok in H2 as [H2 ->].
  apply bind_ok in H as ([]&s1&H3&H). cbv [modify] in H3. injection H3 as <-. apply bind_ok in H as (v&s1&H3&H). apply lift_ok in H3 as [H3 ->].
  cbv [modify] in H. injection H as <-.
  assert (E : mean2 b0 b1 = (b0 + b1) / 2) by (unfold mean2, ntwo; num_R; lra). rewrite E in *.
  unfold idx_set in H2. rewrite H1 in H2. injection H2 as <-. apply rbind_ok in H3 as (out&Ho&H3). apply rbind_ok in H3 as (x&Hx&Hv).
  exists e, out, x, v. done.
Qed.
Theorem C63_momentum_halves track turns b0 b1 z b0' b1' z' :
  refine_bounds track turns ((b0, b1), z) = (Ok tt, ((b0', b1'), z')) ->
  b1' - b0' = (b1 - b0) / 2 /\ (b0' = b0 \/ b1' = b1) /\ exists e, z !! 4%nat = Some e /\ z' = <[4%nat := e + (b0 + b1) / 2]> z.
Proof. intros H. apply m_refine_ok in H as (e&out&x&v&H1&_&_&_&E). destruct v; simplify_eq; (split; [lra|]; split; [auto|]; eauto). Qed.
Theorem C63_finding_momentum_accumulates track turns b0 b1 z b0' b1' z' st :
  refine_bounds track turns ((b0, b1), z) = (Ok tt, ((b0', b1'), z')) -> refine_bounds track turns ((b0', b1'), z') = (Ok tt, st) ->
  exists e, z !! 4%nat = Some e /\ st.2 !! 4%nat = Some (e + (b0 + b1) / 2 + (b0' + b1') / 2).
Proof.
  intros H1 H2. apply m_refine_ok in H1 as (e&o&x&v&H1&_&_&_&E). apply m_refine_ok in H2 as (e'&o'&x'&v'&H2&_&_&_&E'). simplify_eq.
  exists e. split; [done|]. apply lookup_lt_Some in H1 as Hl. rewrite list_lookup_insert in H2 by done. simplify_eq. cbn.
  rewrite list_lookup_insert by (rewrite insert_length; done). done.
Qed.
Theorem C63_finding_momentum_turns track turns b0 b1 z : real_layout track -> turns <> 1%nat -> forall st, refine_bounds track turns ((b0, b1), z) <> (Ok tt, st).
Proof.
  intros L Ht st H. apply m_refine_ok in H as (e&o&x&v&_&H&Hx&Hv&_). apply L in H. unfold at_first in Hx. rewrite H in Hx. cbn in Hx. injection Hx as <-.
  unfold truth_nan in Hv. cbn [a_shape foldr length] in Hv. destruct (_ =? 1)%nat eqn:E in Hv; [|done]. apply Nat.eqb_eq in E. lia.
Qed.
(** The bounds are widened by the step, in magnitude, on both sides. *)
Theorem C63_incremented b0 b1 step b0' b1' : increment_bounds b0 b1 step = (b0', b1') ->
  (0 <= b0 -> 0 <= b1 -> b0' = b0 - step /\ b1' = b1 + step) /\ (b0 < 0 -> b1 < 0 -> b0' = b0 + step /\ b1' = b1 - step).
Proof.
  unfold increment_bounds, mysign. num_R. intros E. injection E as <- <-.
  split; intros H0 H1; repeat (destruct (Rltb _ 0) eqn:?; [rewrite ?Rltb_true in *|rewrite ?Rltb_false in *]); split; lra.
Qed.
Print Assumptions C63_finding_momentum_never_returns.
Print Assumptions C63_momentum_halves.
Print Assumptions C63_finding_momentum_accumulates.
Print Assumptions C63_finding_momentum_turns.
Print Assumptions C63_incremented.

(** * Cases *)
(** A tracking result whose sixth turn is the last: the particle is lost beyond a horizontal position of 3. *)
#[local] Instance TrigQ9 : Trig Q := { ncos := fun _ => 1%Q; nsin := fun _ => 0%Q; nsqrt := fun x => x; npi := 3%Q }.
Definition ap_track (zs : list (list Q)) (_ : nat) : res (array Q) :=
  Ok (MkArray [6; 6; 1]%nat (fun l => match zs with z :: _ => match z !! 0%nat with Some x => if Qltb 3 x then None else Some x | None => None end | [] => None end)).
Example C63_case : (refine_loop ap_track 20 1000 0 (1 # 4) 0 8 [0; 0; 0; 0; 0; 0])%Q = (Ok (3, 13 # 4)%Q, [13 # 4; 0; 0; 0; 0; 0]%Q).
Proof. vm_compute. done. Qed.
Example C63_scaled_case : @scale_bounds Q _ (1 # 10) (1 # 5) 10%Q = (0, 13 # 20)%Q /\ @increment_bounds Q _ (1 # 10) (1 # 5) (1 # 10) = (0, 3 # 10)%Q.
Proof. vm_compute. done. Qed.
(** four-dimensional results, one turn: the second call judges 4 + 6 although the middle of the bounds is 6 *)
Definition ap_real (zs : list (list Q)) (turns : nat) : res (array Q) :=
  Ok (MkArray [6; length zs; 1; turns]%nat (fun l => match l with i :: p :: _ => match zs !! p with Some z => match z !! 4%nat with Some x => if Qltb 7 x then None else z !! i | None => None end | None => None end | [] => None | [_] => None end)).
Example C63_momentum_case :
  let r1 := refine_bounds ap_real 1 ((0, 8), [0; 0; 0; 0; 0; 0])%Q in
  r1 = (Ok tt, ((4, 8), [0; 0; 0; 0; 4; 0]))%Q /\ refine_bounds ap_real 1 r1.2 = (Ok tt, ((4, 6), [0; 0; 0; 0; 10; 0]))%Q /\
  (snd (refine_bounds ap_real 1 ((4, 8), [0; 0; 0; 0; 0; 0])%Q)).1 = (6, 8)%Q /\ fst (refine_bounds ap_real 2 ((0, 8), [0; 0; 0; 0; 0; 0])%Q) = Err ValueError.
Proof. vm_compute. done. Qed.
