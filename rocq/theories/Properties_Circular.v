(** C85: circular statistics. *)
From Coq Require Import Reals Lra Lia QArith ZArith.
From stdpp Require Import base gmap strings list.
From Verif Require Import Num Base Model_Arr Model_SC Model_Err Model_Beam Model_Orbit Model_Stats Model_Circular Lemmas Proofs_Beam Spec Properties_Field Properties_Beam Properties_Orbit Properties_Stats.
Local Open Scope list_scope.
Local Open Scope R_scope.

(** * Specification *)
(** the argument of a complex number, zero for the number zero *)
Definition is_angle (angle : R -> R -> R) : Prop :=
  angle 0 0 = 0 /\ forall x y, - PI < angle x y <= PI /\ x = R_sqrt.sqrt (x * x + y * y) * cos (angle x y) /\ y = R_sqrt.sqrt (x * x + y * y) * sin (angle x y).
(** the weights of the data: inverse squares of the errors if they can be used, else one *)
Definition weighing (errors : option (list (option R))) (n : nat) (w : list R) : Prop :=
  (exists es l, errors = Some es /\ usable_errors es l /\ length l = n /\ w = map (fun e => / (e * e)) l) \/
  ((forall es l, errors = Some es -> ~ usable_errors es l) /\ w = replicate n 1).
(** sums of the sines and cosines of the deviations from [m], as phases *)
Definition torque (p : R) (w data : list R) (m : R) : R := rsum (zip_with (fun w x => w * sin (2 * PI * (x - m) / p)) w data).
Definition alignment (p : R) (w data : list R) (m : R) : R := rsum (zip_with (fun w x => w * cos (2 * PI * (x - m) / p)) w data).
(** total distance, as length of the chords *)
Definition spread_about (p : R) (w data : list R) (m : R) : R := rsum (zip_with (fun w x => w * (1 - cos (2 * PI * (x - m) / p))) w data).
Definition same_mod (p x y : R) : Prop := exists k : Z, y = x + IZR k * p.

(** * Angles *)
Lemma sin_turns x k : sin (x + IZR k * (2 * PI)) = sin x.
Proof.
  assert (forall n x, sin (x + INR n * (2 * PI)) = sin x) as H.
  { intros n y. replace (y + INR n * (2 * PI)) with (y + 2 * INR n * PI) by ring. apply sin_period. }
  destruct (Z_le_dec 0 k) as [Hk|Hk].
  - rewrite <- (Z2Nat.id k Hk), <- INR_IZR_INZ. apply H.
  - rewrite <- (H (Z.to_nat (- k)) (x + IZR k * (2 * PI))). f_equal. rewrite INR_IZR_INZ, Z2Nat.id by lia. rewrite opp_IZR. ring.
Qed.
Lemma cos_turns x k : cos (x + IZR k * (2 * PI)) = cos x.
Proof.
  assert (forall n x, cos (x + INR n * (2 * PI)) = cos x) as H.
  { intros n y. replace (y + INR n * (2 * PI)) with (y + 2 * INR n * PI) by ring. apply cos_period. }
  destruct (Z_le_dec 0 k) as [Hk|Hk].
  - rewrite <- (Z2Nat.id k Hk), <- INR_IZR_INZ. apply H.
  - rewrite <- (H (Z.to_nat (- k)) (x + IZR k * (2 * PI))). f_equal. rewrite INR_IZR_INZ, Z2Nat.id by lia. rewrite opp_IZR. ring.
Qed.
(** the number in the half-open period *)
Lemma reduced (p x : R) : 0 < p -> exists k, - (p / 2) < x + IZR k * p <= p / 2.
Proof.
  intros Hp. exists (up ((- x - p / 2) / p))%Z. destruct (archimed ((- x - p / 2) / p)) as [H1 H2]. set (u := IZR (up ((- x - p / 2) / p))) in *. set (q := (- x - p / 2) / p) in *.
  assert (q * p = - x - p / 2) as E by (unfold q; field; lra). split; nra.
Qed.
Lemma reduced_unique (p x y : R) : 0 < p -> - (p / 2) < x <= p / 2 -> - (p / 2) < y <= p / 2 -> same_mod p x y -> x = y.
Proof.
  intros Hp Hx Hy (k&->). assert (- 1 < IZR k < 1) as [K1 K2] by (split; nra). apply (lt_IZR (-1)) in K1. apply (lt_IZR k 1) in K2. assert (k = 0)%Z as -> by lia. lra.
Qed.
Lemma cos_pos_near t : 0 < cos t -> exists k, - (PI / 2) < t + IZR k * (2 * PI) < PI / 2.
Proof.
  intros H. pose proof PI_RGT_0 as HP. destruct (reduced (2 * PI) t) as [k Hk]; [lra|]. exists k. rewrite <- (cos_turns t k) in H. set (u := t + IZR k * (2 * PI)) in *.
  destruct (Rlt_le_dec u (PI / 2)) as [H1|H1]; [destruct (Rlt_le_dec (- (PI / 2)) u) as [H2|H2]; [lra|]|].
  - exfalso. rewrite <- cos_neg in H. assert (cos (- u) <= 0); [|lra]. apply cos_le_0; lra.
  - exfalso. assert (cos u <= 0); [|lra]. apply cos_le_0; lra.
Qed.

(** * The average vector *)
Lemma PI2_R : PI2 (T:=R) = 2 * PI.
Proof. unfold PI2, ntwo. num_R. cbn [npi TrigR]. ring. Qed.
Lemma average_weights (d : list R) w m : average d w = Ok m ->
  exists v, length v = length d /\ v = match w with None => replicate (length d) 1 | Some w => w end /\ rsum v <> 0 /\ m = rsum (zip_with Rmult v d) / rsum v.
Proof.
  intros H. apply average_ok in H. eexists. split; [|split; [reflexivity|]].
  - destruct w; [by destruct H|apply replicate_length].
  - destruct w as [w|].
    + destruct H as (HL&Hn&->). split; [done|]. f_equal. clear Hn. revert w HL. induction d as [|x d IH]; intros [|v w] HL; try done. cbn [zip_with]. rewrite !rsum_cons, IH by (simpl in HL; lia). ring.
    + destruct H as (Hd&->). rewrite rsum_replicate, Rmult_1_r. split; [apply not_0_INR; by destruct d|]. unfold avg. f_equal. fold (rsum d). clear Hd. induction d as [|x d IH]; [done|].
      cbn [length replicate zip_with]. rewrite !rsum_cons, <- IH. ring.
Qed.
Lemma weights_weighing errors p W : p <> 0 -> period_weights errors p = Ok W -> forall n w, length w = n -> w = match W with None => replicate n 1 | Some w => w end -> 
  exists c w', 0 < c /\ weighing errors n w' /\ w = map (Rmult c) w' /\ Forall (fun v => 0 < v) w' /\ (W = None -> c = 1) .
Proof.
  intros Hp H n w HL ->. pose proof PI_RGT_0 as HP. unfold period_weights in H. destruct (weights_spec errors) as [E|(l&->&Hl&E)]; rewrite E in H.
  - injection H as <-. exists 1, (replicate n 1). split; [lra|]. split; [right; split; [|done]|].
    + intros es l -> [-> Hu]. rewrite weights_usable in E by done. done.
    + split; [|split; [apply Forall_replicate; lra|done]]. clear. induction n as [|n IH]; [done|]. cbn [replicate map]. rewrite <- IH, Rmult_1_r. done.
  - destruct (neqb p n0) eqn:Ep; [done|]. change (default [] (Some (map Some l))) with (map Some l) in H. rewrite (proj2 (no_gaps_spec _ l) eq_refl) in H. cbn [mbind option_bind] in H. injection H as <-.
    exists (p * p / (2 * PI * (2 * PI))), (map (fun e => / (e * e)) l). split; [apply Rdiv_lt_0_compat; nra|]. split; [left; exists (map Some l), l; rewrite map_length in HL; done|].
    split; [|split; [by apply weights_pos|done]]. rewrite map_map. apply map_ext_in. intros e He. rewrite <- elem_of_list_In in He. rewrite Forall_forall in Hl. specialize (Hl e He). num_R. field. repeat split; lra.
Qed.
Section Angle.
  Context (angle : R -> R -> R) (HA : is_angle angle).

  Lemma zip_map_r (f : R -> R) (v d : list R) : zip_with Rmult v (map f d) = zip_with (fun w x => w * f x) v d.
  Proof. revert d. induction v as [|w v IH]; intros [|x d]; try done. cbn. by rewrite IH. Qed.
  Lemma zip_scaled c (f : R -> R) (v d : list R) : rsum (zip_with (fun w x => w * f x) (map (Rmult c) v) d) = c * rsum (zip_with (fun w x => w * f x) v d).
  Proof. revert d. induction v as [|w v IH]; intros [|x d]; try (cbn; ring). cbn [map zip_with]. rewrite !rsum_cons, IH. ring. Qed.
  Lemma rsum_scaled c (v : list R) : rsum (map (Rmult c) v) = c * rsum v.
  Proof. induction v as [|w v IH]; [cbn; ring|]. cbn [map]. rewrite !rsum_cons, IH. ring. Qed.
  (** the sums for the deviations from [m], by those for the deviations from [m'] *)
  Lemma alignment_turn p w data m m' : p <> 0 -> alignment p w data m' = alignment p w data m * cos (2 * PI * (m - m') / p) - torque p w data m * sin (2 * PI * (m - m') / p).
  Proof.
    intros Hp. unfold alignment, torque. revert data. induction w as [|v w IH]; intros [|x data]; try (cbn; ring). cbn [zip_with]. rewrite !rsum_cons, IH.
    replace (2 * PI * (x - m') / p) with (2 * PI * (x - m) / p + 2 * PI * (m - m') / p) by (field; done). rewrite cos_plus. ring.
  Qed.
  Lemma torque_turn p w data m m' : p <> 0 -> torque p w data m' = torque p w data m * cos (2 * PI * (m - m') / p) + alignment p w data m * sin (2 * PI * (m - m') / p).
  Proof.
    intros Hp. unfold alignment, torque. revert data. induction w as [|v w IH]; intros [|x data]; try (cbn; ring). cbn [zip_with]. rewrite !rsum_cons, IH.
    replace (2 * PI * (x - m') / p) with (2 * PI * (x - m) / p + 2 * PI * (m - m') / p) by (field; done). rewrite sin_plus. ring.
  Qed.
  Lemma average_vector data p errors ph W z : p <> 0 -> phases data p = Ok ph -> period_weights errors p = Ok W -> complex_average ph W = Ok z ->
    exists w, weighing errors (length data) w /\ Forall (fun v => 0 < v) w /\ length w = length data /\ 0 < rsum w /\ z = (alignment p w data 0 / rsum w, torque p w data 0 / rsum w).
  Proof.
    intros Hp H1 H2 H3. unfold phases in H1. destruct (neqb p n0); [done|]. injection H1 as <-. unfold complex_average in H3. apply rbind_ok in H3 as (c&Hc&H3). apply rbind_ok in H3 as (s&Hs&H3). injection H3 as <-.
    apply average_weights in Hc as (v&Lv&Ev&Hv&->). apply average_weights in Hs as (v'&_&Ev'&_&->). rewrite !map_length in Lv, Ev, Ev'. assert (v' = v) as -> by congruence. clear Ev'.
    destruct (weights_weighing errors p W Hp H2 (length data) v Lv Ev) as (k&w&Hk&Hw&->&Pw&_). rewrite map_length in Lv.
    assert (0 < rsum w) as Hs. { apply rsum_pos; [|done]. intros ->. by rewrite rsum_scaled in Hv; cbn in Hv; lra. }
    exists w. split; [done|]. split; [done|]. split; [done|]. split; [done|]. rewrite !map_map, !zip_map_r, !zip_scaled, rsum_scaled. unfold alignment, torque. change (PI2 (T:=R)) with (2 * PI) in *; change ((1 + 1) * PI) with (2 * PI) in *; num_R. cbn [ncos nsin TrigR].
    assert (forall f, zip_with (fun w x => w * f (x * (2 * PI) / p)) w data = zip_with (fun w x => w * f (2 * PI * (x - 0) / p)) w data) as E.
    { intros f. clear. revert data. induction w as [|v w IH]; intros [|x data]; try done. cbn. rewrite IH. do 3 f_equal. lra. }
    rewrite !E. f_equal; field; lra.
  Qed.
  (** The mean is in the half-open period about zero; the sines of the deviations from it, weighted, cancel, and the cosines do not point away from it. *)
  Theorem C85_mean data p errors m : 0 < p -> circular_mean angle data p errors = Ok m ->
    data <> [] /\ - (p / 2) < m <= p / 2 /\ exists w, weighing errors (length data) w /\ Forall (fun v => 0 < v) w /\ torque p w data m = 0 /\ 0 <= alignment p w data m /\ (alignment p w data m = 0 -> m = 0).
  Proof.
    intros Hp H. unfold circular_mean in H. apply rbind_ok in H as (ph&H1&H). apply rbind_ok in H as (W&H2&H). apply rbind_ok in H as (z&H3&H). injection H as <-. pose proof PI_RGT_0 as HP.
    destruct (average_vector data p errors ph W z) as (w&Hw&Pw&Lw&Sw&->); try done; [lra|]. split; [intros ->; destruct w; [cbn in Sw; lra|done]|].
    destruct HA as [A0 A1]. cbn [fst snd]. set (C := alignment p w data 0 / rsum w). set (S := torque p w data 0 / rsum w). destruct (A1 C S) as (B1&B2&B3). set (a := angle C S) in *. set (r := R_sqrt.sqrt (C * C + S * S)) in *.
    change (PI2 (T:=R)) with (2 * PI) in *; change ((1 + 1) * PI) with (2 * PI) in *; num_R. set (m := a * p / (2 * PI)). assert (a = 2 * PI * m / p) as Ea by (unfold m; field; lra).
    assert (m * (2 * PI) = a * p) as Em by (unfold m; field; lra).
    split; [split; [apply (Rmult_lt_reg_r (2 * PI)); nra|apply (Rmult_le_reg_r (2 * PI)); nra]|]. exists w. split; [done|]. split; [done|].
    assert (alignment p w data 0 = rsum w * C) as EC by (unfold C; field; lra). assert (torque p w data 0 = rsum w * S) as ES by (unfold S; field; lra).
    assert (2 * PI * (0 - m) / p = - a) as En by (rewrite Ea; field; lra).
    assert (alignment p w data m = rsum w * r) as E1.
    { rewrite (alignment_turn p w data 0 m) by lra. rewrite En, cos_neg, sin_neg, EC, ES. rewrite B2, B3 at 1. pose proof (sin2_cos2 a) as E2. unfold Rsqr in E2.
      replace (rsum w * (r * cos a) * cos a - rsum w * (r * sin a) * - sin a) with (rsum w * r * (sin a * sin a + cos a * cos a)) by ring. rewrite E2. ring. }
    assert (0 <= r) as Hr by apply sqrt_pos.
    split; [|split].
    - rewrite (torque_turn p w data 0 m) by lra. rewrite En, cos_neg, sin_neg, EC, ES. rewrite B2, B3 at 1. ring.
    - rewrite E1. nra.
    - rewrite E1. intros Hz. assert (r = 0) as Hr0 by nra. assert (C = 0) as C0 by (rewrite B2, Hr0; ring). assert (S = 0) as S0 by (rewrite B3, Hr0; ring).
      assert (a = 0) as -> by (unfold a; rewrite C0, S0; exact A0). unfold m. field. lra.
  Qed.
  (** Whenever the vectors do not cancel only one number is like that ... *)
  Theorem C85_unique data p w m m' : 0 < p -> torque p w data m = 0 -> 0 < alignment p w data m -> torque p w data m' = 0 -> 0 <= alignment p w data m' -> same_mod p m m'.
  Proof.
    intros Hp H1 H2 H3 H4. rewrite (torque_turn p w data m m') in H3 by lra. rewrite (alignment_turn p w data m m') in H4 by lra. rewrite H1 in H3, H4.
    pose proof PI_RGT_0 as HP. set (d := 2 * PI * (m - m') / p) in *. assert (sin d = 0) as Hs by nra. assert (0 <= cos d) as Hc by nra.
    pose proof (sin2_cos2 d) as E. rewrite Hs in E. unfold Rsqr in E. assert (0 < cos d) as Hc' by nra. destruct (cos_pos_near d Hc') as [k Hk]. rewrite <- (sin_turns d k) in Hs. set (u := d + IZR k * (2 * PI)) in *.
    assert (u = 0) as Hu. { destruct (Rtotal_order u 0) as [Hn|[?|Hn]]; [|done|]; [assert (sin u < 0) by (apply sin_lt_0_var; lra)|assert (0 < sin u) by (apply sin_gt_0; lra)]; lra. }
    exists k. assert (d * p = 2 * PI * (m - m')) as Ed by (unfold d; field; lra). unfold u in Hu. assert (d = - IZR k * (2 * PI)) as Ed' by lra. rewrite Ed' in Ed. nra.
  Qed.
  (** ... and it is the number nearest to the data: no other has a smaller sum of squared chords. *)
  Theorem C85_nearest data p errors m : 0 < p -> circular_mean angle data p errors = Ok m ->
    exists w, weighing errors (length data) w /\ forall m', spread_about p w data m <= spread_about p w data m'.
  Proof.
    intros Hp H. apply C85_mean in H as (_&_&w&Hw&Pw&H1&H2&_); [|done]. exists w. split; [done|]. intros m'.
    assert (forall m, spread_about p w data m = rsum (zip_with (fun w _ => w) w data) - alignment p w data m) as E.
    { intros u. unfold spread_about, alignment. clear. revert data. induction w as [|v w IH]; intros [|x data]; try (cbn; ring). cbn [zip_with]. rewrite !rsum_cons, IH. ring. }
    rewrite !E, (alignment_turn p w data m m'), H1 by lra. pose proof (COS_bound (2 * PI * (m - m') / p)). nra.
  Qed.
  (** Whole periods make no difference, neither to the mean nor to its error. *)
  Theorem C85_periodic data data' p errors quantile t : 0 < p -> Forall2 (same_mod p) data data' ->
    circular_mean angle data' p errors = circular_mean angle data p errors /\ circular_error quantile data' p errors t = circular_error quantile data p errors t.
  Proof.
    intros Hp HF. pose proof PI_RGT_0 as HP.
    assert (length data' = length data) as HL by (symmetry; by eapply Forall2_length).
    assert (Forall2 (fun x y => cos (x * (2 * PI) / p) = cos (y * (2 * PI) / p) /\ sin (x * (2 * PI) / p) = sin (y * (2 * PI) / p)) data' data) as F2.
    { induction HF as [|x y l l' (k&->) _ IH]; constructor; [|apply IH; simpl in HL; lia]. replace ((x + IZR k * p) * (2 * PI) / p) with (x * (2 * PI) / p + IZR k * (2 * PI)) by (field; lra). by rewrite cos_turns, sin_turns. }
    unfold circular_error, circular_error_of, circular_mean. rewrite HL. unfold phases. destruct (neqb p n0); [done|]. cbn [rbind]. destruct (period_weights errors p) as [W|e]; [|done]. cbn [rbind].
    assert (forall g : R -> R -> R, map (fun x => g (cos x) (sin x)) (map (fun x => nmul x PI2 / p) data') = map (fun x => g (cos x) (sin x)) (map (fun x => nmul x PI2 / p) data)) as E.
    { intros g. rewrite !map_map. clear -F2. induction F2 as [|x y l l' [H1 H2] _ IH]; [done|]. cbn [map]. rewrite IH. f_equal. change (PI2 (T:=R)) with (2 * PI) in *; change ((1 + 1) * PI) with (2 * PI) in *; num_R. by rewrite H1, H2. }
    assert (forall W, complex_average (map (fun x => nmul x PI2 / p) data') W = complex_average (map (fun x => nmul x PI2 / p) data) W) as EC.
    { intros V. unfold complex_average. pose proof (E (fun c s => c)) as E1. pose proof (E (fun c s => s)) as E2. cbv beta in E1, E2. change (ncos (T:=R)) with cos. change (nsin (T:=R)) with sin.
      change (map cos ?l) with (map (fun x => cos x) l). change (map sin ?l) with (map (fun x => sin x) l). by rewrite E1, E2. }
    change (ndiv (T:=R)) with Rdiv. rewrite EC. split; [done|]. destruct (complex_average _ W) as [z|e]; [|done]. cbn [rbind].
    pose proof (E (fun c s => nadd (nmul (nsub c z.1) (nsub c z.1)) (nmul (nsub s z.2) (nsub s z.2)))) as E3. cbv beta in E3. change (ncos (T:=R)) with cos. change (nsin (T:=R)) with sin. cbv zeta. by rewrite E3.
  Qed.
  (** Moving all data moves the mean. *)
  Theorem C85_shift data p errors d m m' w : 0 < p -> circular_mean angle data p errors = Ok m -> circular_mean angle (map (fun x => x + d) data) p errors = Ok m' ->
    weighing errors (length data) w -> alignment p w data m <> 0 -> same_mod p (m + d) m'.
  Proof.
    intros Hp H H' Hw Hn. apply C85_mean in H as (_&_&w1&Hw1&_&T1&A1&_); [|done]. apply C85_mean in H' as (_&_&w2&Hw2&_&T2&A2&_); [|done]. rewrite map_length in Hw2.
    assert (forall n a b, weighing errors n a -> weighing errors n b -> a = b) as U.
    { intros n a b [(es&l&->&[-> Hl]&L&->)|[N ->]] [(es'&l'&E&[-> Hl']&L'&->)|[N' ->]]; try done.
      - injection E as E. assert (l = l') as ->; [|done]. clear -E. revert l' E. induction l as [|x l IH]; intros [|y l'] E; try done. cbn in E. injection E as -> E. f_equal. by apply IH.
      - destruct (N' _ l eq_refl). done.
      - destruct (N _ l' E). done. }
    rewrite (U _ _ _ Hw1 Hw) in *. rewrite (U _ _ _ Hw2 Hw) in *. clear Hw1 Hw2.
    assert (forall u, torque p w (map (fun x => x + d) data) (u + d) = torque p w data u /\ alignment p w (map (fun x => x + d) data) (u + d) = alignment p w data u) as E.
    { intros u. unfold torque, alignment. clear. revert data. induction w as [|v w IH]; intros [|x data]; try done. cbn [map zip_with]. rewrite !rsum_cons. destruct (IH data) as [-> ->].
      replace (x + d - (u + d)) with (x - u) by ring. done. }
    destruct (E m) as [E1 E2]. apply (C85_unique (map (fun x => x + d) data) p w); try done; [by rewrite E1|rewrite E2; lra].
  Qed.
  (** Data within less than half a period of each other have their mean between them. *)
  Theorem C85_between data p errors m a b : 0 < p -> b - a < p / 2 -> Forall (fun x => a <= x <= b) data -> circular_mean angle data p errors = Ok m ->
    exists y, same_mod p m y /\ a <= y <= b.
  Proof.
    intros Hp Hab HF H. apply C85_mean in H as (Hne&_&w&Hw&Pw&T1&A1&_); [|done]. pose proof PI_RGT_0 as HP.
    assert (length w = length data) as HL.
    { destruct Hw as [(es&l&_&_&L&->)|[_ ->]]; [by rewrite map_length|apply replicate_length]. }
    assert (a <= b) as Hab'. { destruct data as [|x data]; [done|]. apply Forall_cons in HF as [? _]. lra. }
    set (c := (a + b) / 2).
    assert (0 < alignment p w data c) as HC.
    { unfold alignment. clear T1 A1 Hw. revert w HL Pw. induction data as [|x data IH]; [done|]. intros [|v w] HL Pw; [done|]. apply Forall_cons in HF as [Hx HF]. apply Forall_cons in Pw as [Hv Pw]. cbn [zip_with]. rewrite rsum_cons.
      assert (0 < cos (2 * PI * (x - c) / p)) as Hcos.
      { assert (2 * PI * (x - c) / p * p = 2 * PI * (x - c)) as E by (field; lra). set (u := 2 * PI * (x - c) / p) in *. apply cos_gt_0; unfold c in *; nra. }
      assert (0 <= rsum (zip_with (fun w x => w * cos (2 * PI * (x - c) / p)) w data)) as H0; [|nra].
      destruct data as [|y data]; [destruct w; cbn; lra|]. left. apply IH; [done|done|simpl in *; lia|done]. }
    assert (forall e, (forall x, a <= x <= b -> 0 <= sin (2 * PI * (e * (x - (c - e * (b - a) / 2))) / p)) -> (e = 1 \/ e = -1) -> 0 <= e * torque p w data (c - e * (b - a) / 2)) as HT.
    { intros e He Hee. unfold torque. clear T1 A1 Hw HC. revert w HL Pw. clear Hne. induction data as [|x data IH]; intros [|v w] HL Pw; try (cbn; lra). apply Forall_cons in HF as [Hx HF]. apply Forall_cons in Pw as [Hv Pw]. cbn [zip_with]. rewrite rsum_cons.
      specialize (IH HF w ltac:(simpl in *; lia) Pw). specialize (He x Hx). set (g := c - e * (b - a) / 2) in *.
      assert (sin (2 * PI * (e * (x - g)) / p) = e * sin (2 * PI * (x - g) / p)) as Es.
      { destruct Hee as [->| ->]; [rewrite !Rmult_1_l; done|]. replace (2 * PI * (-1 * (x - g)) / p) with (- (2 * PI * (x - g) / p)) by (field; lra). rewrite sin_neg. ring. }
      rewrite Es in He. nra. }
    assert (0 <= torque p w data a) as Ha.
    { specialize (HT 1). replace (c - 1 * (b - a) / 2) with a in HT by (unfold c; field). rewrite Rmult_1_l in HT. apply HT; [|by left]. intros x Hx. rewrite Rmult_1_l.
      assert (2 * PI * (x - a) / p * p = 2 * PI * (x - a)) as E by (field; lra). set (u := 2 * PI * (x - a) / p) in *. apply sin_ge_0; nra. }
    assert (torque p w data b <= 0) as Hb.
    { specialize (HT (-1)). replace (c - -1 * (b - a) / 2) with b in HT by (unfold c; field). assert (0 <= -1 * torque p w data b); [|lra]. apply HT; [|by right]. intros x Hx.
      assert (2 * PI * (-1 * (x - b)) / p * p = 2 * PI * (b - x)) as E by (field; lra). set (u := 2 * PI * (-1 * (x - b)) / p) in *. apply sin_ge_0; nra. }
    rewrite (alignment_turn p w data m c) in HC by lra. rewrite T1 in HC. rewrite (torque_turn p w data m a) in Ha by lra. rewrite (torque_turn p w data m b) in Hb by lra. rewrite T1 in Ha, Hb.
    set (A := alignment p w data m) in *. assert (A <> 0) as An by (intros E0; rewrite E0 in HC; lra). assert (0 < A) as Ap by lra.
    assert (0 < cos (2 * PI * (m - c) / p)) as Hcos by nra. assert (0 <= sin (2 * PI * (m - a) / p)) as Hsa by nra. assert (sin (2 * PI * (m - b) / p) <= 0) as Hsb by nra.
    destruct (cos_pos_near _ Hcos) as [k Hk]. exists (m + IZR k * p). split; [by exists k|].
    assert (forall g, 2 * PI * (m + IZR k * p - g) / p = 2 * PI * (m - g) / p + IZR k * (2 * PI)) as EK by (intros g; field; lra).
    rewrite <- (sin_turns _ k), <- EK in Hsa. rewrite <- (sin_turns _ k), <- EK in Hsb. rewrite <- EK in Hk. set (y := m + IZR k * p) in *.
    assert (forall g, 2 * PI * (y - g) / p * p = 2 * PI * (y - g)) as EG by (intros g; field; lra). pose proof (EG a) as Ga. pose proof (EG b) as Gb. pose proof (EG c) as Gc.
    set (ua := 2 * PI * (y - a) / p) in *. set (ub := 2 * PI * (y - b) / p) in *. set (uc := 2 * PI * (y - c) / p) in *. 
    assert (- (p / 4) < y - c < p / 4) as Hyc by (split; nra). unfold c in Hyc.
    split.
    - destruct (Rle_lt_dec a y) as [?|Hy]; [done|]. exfalso. assert (sin ua < 0); [|lra]. apply sin_lt_0_var; nra.
    - destruct (Rle_lt_dec y b) as [?|Hy]; [done|]. exfalso. assert (0 < sin ub); [|lra]. apply sin_gt_0; nra.
  Qed.
  (** Equal data: the mean is that number, in the period about zero. *)
  Theorem C85_constant n x p errors m : 0 < p -> circular_mean angle (replicate n x) p errors = Ok m -> same_mod p m x /\ - (p / 2) < m <= p / 2.
  Proof.
    intros Hp H. pose proof H as H'. apply C85_mean in H' as (_&Hm&_); [|done]. split; [|done].
    destruct (C85_between (replicate n x) p errors m x x) as (y&Hy&Hxy); try done; [lra|apply Forall_replicate; lra|]. by replace x with y by lra.
  Qed.
  (** Finding: data that cancel, and so have no mean, have the mean zero, wherever they are. *)
  Theorem C85_finding_cancelling x p m : 0 < p -> circular_mean angle [x; x + p / 2] p None = Ok m -> m = 0.
  Proof.
    intros Hp H. apply C85_mean in H as (_&_&w&Hw&_&T1&_&A1); [|done]. destruct Hw as [(es&l&?&_)|[_ ->]]; [done|]. pose proof PI_RGT_0 as HP. apply A1. unfold alignment, torque in *. cbn in T1 |- *.
    replace (2 * PI * (x + p / 2 - m) / p) with (2 * PI * (x - m) / p + PI) in * by (field; lra). rewrite neg_cos. ring.
  Qed.
End Angle.

(** * The argument of a complex number exists *)
Definition atan2 (x y : R) : R :=
  if Rlt_dec 0 x then atan (y / x) else if Rlt_dec x 0 then if Rle_dec 0 y then atan (y / x) + PI else atan (y / x) - PI
  else if Rlt_dec 0 y then PI / 2 else if Rlt_dec y 0 then - (PI / 2) else 0.
Lemma modulus_atan x y : x <> 0 -> R_sqrt.sqrt (x * x + y * y) * cos (atan (y / x)) = Rabs x /\ R_sqrt.sqrt (x * x + y * y) * sin (atan (y / x)) = Rabs x * (y / x).
Proof.
  intros Hx. rewrite cos_atan, sin_atan. assert (0 < Rabs x) as Hp by (by apply Rabs_pos_lt). assert (0 <= Rsqr (y / x)) as Hq by apply Rle_0_sqr.
  assert (x * x + y * y = Rsqr x * (1 + Rsqr (y / x))) as -> by (unfold Rsqr; field; done). rewrite sqrt_mult by (lra || apply Rle_0_sqr). rewrite sqrt_Rsqr_abs.
  assert (0 < R_sqrt.sqrt (1 + (y / x)²)) as Hs by (apply sqrt_lt_R0; lra). split; field; try (repeat split); try done; lra.
Qed.
Theorem C85_angle : is_angle atan2.
Proof.
  pose proof PI_RGT_0 as HP. unfold is_angle, atan2. split.
  { destruct (Rlt_dec 0 0); [lra|]. done. }
  intros x y. destruct (Rlt_dec 0 x) as [Hx|Hx].
  - destruct (modulus_atan x y) as [-> ->]; [lra|]. pose proof (atan_bound (y / x)). rewrite Rabs_pos_eq by lra. split; [lra|]. split; [done|]. field. lra.
  - destruct (Rlt_dec x 0) as [Hx'|Hx'].
    + destruct (modulus_atan x y) as [E1 E2]; [lra|]. pose proof (atan_bound (y / x)) as B. rewrite (Rabs_left x Hx') in E1, E2. destruct (Rle_dec 0 y) as [Hy|Hy].
      * assert (atan (y / x) <= 0) as Ha.
        { assert (y / x <= 0) as Hq by (unfold Rdiv; pose proof (Rinv_lt_0_compat x Hx'); nra). destruct Hq as [Hq|Hq]; [left; rewrite <- atan_0; by apply atan_increasing|rewrite Hq, atan_0; lra]. }
        split; [lra|]. rewrite neg_cos, neg_sin. split; [replace (R_sqrt.sqrt (x * x + y * y) * - cos (atan (y / x))) with (- (R_sqrt.sqrt (x * x + y * y) * cos (atan (y / x)))) by ring; rewrite E1; ring|].
        replace (R_sqrt.sqrt (x * x + y * y) * - sin (atan (y / x))) with (- (R_sqrt.sqrt (x * x + y * y) * sin (atan (y / x)))) by ring. rewrite E2. field. lra.
      * assert (0 < atan (y / x)) as Ha.
        { assert (0 < y / x) as Hq by (unfold Rdiv; pose proof (Rinv_lt_0_compat x Hx'); nra). rewrite <- atan_0. by apply atan_increasing. }
        split; [lra|]. rewrite cos_minus, sin_minus, cos_PI, sin_PI.
        split; [replace (R_sqrt.sqrt (x * x + y * y) * (cos (atan (y / x)) * -1 + sin (atan (y / x)) * 0)) with (- (R_sqrt.sqrt (x * x + y * y) * cos (atan (y / x)))) by ring; rewrite E1; ring|].
        replace (R_sqrt.sqrt (x * x + y * y) * (sin (atan (y / x)) * -1 - cos (atan (y / x)) * 0)) with (- (R_sqrt.sqrt (x * x + y * y) * sin (atan (y / x)))) by ring. rewrite E2. field. lra.
    + assert (x = 0) as -> by lra. replace (0 * 0 + y * y) with (Rsqr y) by (unfold Rsqr; ring). rewrite sqrt_Rsqr_abs. destruct (Rlt_dec 0 y) as [Hy|Hy].
      * rewrite cos_PI2, sin_PI2, Rabs_pos_eq by lra. lra.
      * destruct (Rlt_dec y 0) as [Hy'|Hy'].
        -- rewrite cos_neg, sin_neg, cos_PI2, sin_PI2, (Rabs_left y) by lra. lra.
        -- assert (y = 0) as -> by lra. rewrite Rabs_R0, cos_0, sin_0. lra.
Qed.

(** * Error of the mean *)
(** length of the average of the unit vectors *)
Definition coherence (p : R) (w data : list R) : R := R_sqrt.sqrt (Rsqr (alignment p w data 0 / rsum w) + Rsqr (torque p w data 0 / rsum w)).
Definition usable (errors : option (list (option R))) : Prop := exists es l, errors = Some es /\ usable_errors es l.
(** what is added to the variance for the errors of the data, as phases *)
Definition error_part (errors : option (list (option R))) (p : R) (w : list R) (x : R) : Prop := (usable errors /\ x = / (rsum w * Rsqr (p / (2 * PI)))) \/ (~ usable errors /\ x = 0).
(** the sample size, by Kish's formula or by counting *)
Definition size (errors : option (list (option R))) (n : nat) (w : list R) (N : R) : Prop :=
  (usable errors /\ N = Rmax 2 (rsum w * rsum w / rsum (map (fun x => x * x) w))) \/ (~ usable errors /\ N = Rmax 2 (INR n)).

Lemma zip_total (w data : list R) : length w = length data -> rsum (zip_with (fun w _ => w) w data) = rsum w.
Proof. revert data. induction w as [|v w IH]; intros [|x data] H; try done. cbn [zip_with]. rewrite !rsum_cons, IH by (simpl in H; lia). done. Qed.
Lemma variance_identity p (w data : list R) : length w = length data -> 0 < rsum w -> let C := alignment p w data 0 / rsum w in let S := torque p w data 0 / rsum w in
  rsum (zip_with (fun w x => w * ((cos (2 * PI * (x - 0) / p) - C) * (cos (2 * PI * (x - 0) / p) - C) + (sin (2 * PI * (x - 0) / p) - S) * (sin (2 * PI * (x - 0) / p) - S))) w data) / rsum w = 1 - (Rsqr C + Rsqr S).
Proof.
  intros HL HW C S.
  assert (forall a b, rsum (zip_with (fun w x => w * ((cos (2 * PI * (x - 0) / p) - a) * (cos (2 * PI * (x - 0) / p) - a) + (sin (2 * PI * (x - 0) / p) - b) * (sin (2 * PI * (x - 0) / p) - b))) w data) =
    rsum w * (1 + a * a + b * b) - 2 * a * alignment p w data 0 - 2 * b * torque p w data 0) as E.
  { intros a b. unfold alignment, torque. clear C S HW. revert data HL. induction w as [|v w IH]; intros [|x data] HL; try done; [cbn; ring|]. cbn [zip_with]. rewrite !rsum_cons, IH by (simpl in HL; lia).
    set (u := 2 * PI * (x - 0) / p). pose proof (sin2_cos2 u) as E. unfold Rsqr in E.
    replace (v * ((cos u - a) * (cos u - a) + (sin u - b) * (sin u - b))) with (v * ((sin u * sin u + cos u * cos u) + a * a + b * b - 2 * a * cos u - 2 * b * sin u)) by ring. rewrite E. ring. }
  rewrite E. assert (alignment p w data 0 = C * rsum w) as -> by (unfold C; field; lra). assert (torque p w data 0 = S * rsum w) as -> by (unfold S; field; lra). unfold Rsqr. field. lra.
Qed.
(** The error as a function of the coherence: the larger the less the unit vectors agree; beyond a quarter of a turn it is three tenths of the period.  *)
Theorem C85_error quantile n data p errors t e : 0 < p -> circular_error_of quantile n data p errors t = Ok e ->
  exists w N x, weighing errors (length data) w /\ size errors n w N /\ error_part errors p w x /\
    let L := coherence p w data in
    (L = 0 -> e = 3 / 10 * p) /\
    (L <> 0 -> let eps := R_sqrt.sqrt ((1 - Rsqr L + x) * (N / (N - 1))) / L * (if t then quantile (N - 1) else 1) in
      (PI / 2 < eps -> e = 3 / 10 * p) /\ (eps <= PI / 2 -> e = eps * p / (2 * PI))).
Proof.
  intros Hp H. pose proof PI_RGT_0 as HP. unfold circular_error_of in H. apply rbind_ok in H as (ph&H1&H). apply rbind_ok in H as (W&H2&H). apply rbind_ok in H as (z&H3&H). apply rbind_ok in H as (v&H4&H).
  apply rbind_ok in H as (v'&H5&H). apply rbind_ok in H as (m&H6&H). apply rbind_ok in H as (u&H7&H). apply qdivR_ok in H7 as [-> Hu].
  pose proof H3 as H3'. unfold complex_average in H3'. apply rbind_ok in H3' as (c&Hc&H3'). clear H3'. apply average_weights in Hc as (a&La&Ea&Sa&_). rewrite map_length in La, Ea.
  assert (length ph = length data) as Lph. { unfold phases in H1. destruct (neqb p n0); [done|]. injection H1 as <-. by rewrite map_length. }
  rewrite Lph in La, Ea.
  destruct (weights_weighing errors p W ltac:(lra) H2 (length data) a La Ea) as (k&w&Hk&Hw&Eaw&Pw&Hone). 
  assert (length w = length data) as Lw by (rewrite <- La, Eaw; by rewrite map_length).
  assert (0 < rsum w) as Sw. { apply rsum_pos; [|done]. intros ->. cbn in Eaw. rewrite Eaw in Sa. cbn in Sa. lra. }
  destruct (average_vector data p errors ph W z) as (w2&Hw2&_&_&_&Ez); try done; [lra|].
  assert (w2 = w) as ->.
  { clear -Hw Hw2. destruct Hw as [(es&l&->&[-> Hl]&L&->)|[N ->]], Hw2 as [(es'&l'&E&[-> Hl']&L'&->)|[N' ->]]; try done.
    - injection E as E. assert (l = l') as ->; [|done]. clear -E. revert l' E. induction l as [|x l IH]; intros [|y l'] E; try done. cbn in E. injection E as -> E. f_equal. by apply IH.
    - destruct (N' _ l eq_refl). done.
    - destruct (N _ l' E). done. }
  assert (rsum a = k * rsum w) as Ska by (by rewrite Eaw, rsum_scaled).
  assert (v = 1 - Rsqr (coherence p w data)) as Ev.
  { apply average_weights in H4 as (a'&La'&Ea'&_&->). rewrite map_length, Lph in La', Ea'. assert (a' = a) as -> by congruence. rewrite Eaw, zip_map_r, zip_scaled, rsum_scaled.
    unfold phases in H1. destruct (neqb p n0); [done|]. injection H1 as <-. unfold coherence. rewrite Rsqr_sqrt by (pose proof (Rle_0_sqr (alignment p w data 0 / rsum w)); pose proof (Rle_0_sqr (torque p w data 0 / rsum w)); lra).
    rewrite <- (variance_identity p w data Lw Sw). rewrite Ez. cbn [fst snd]. set (C := alignment p w data 0 / rsum w). set (S := torque p w data 0 / rsum w).
    assert (forall f : R -> R, zip_with (fun w x => w * f x) w (map (fun x => nmul x PI2 / p) data) = zip_with (fun w x => w * f (2 * PI * (x - 0) / p)) w data) as E.
    { intros f. clear. revert data. induction w as [|b w IH]; intros [|x data]; try done. cbn [map zip_with]. rewrite IH. change (PI2 (T:=R)) with (2 * PI). num_R. do 3 f_equal. lra. }
    change (ndiv (T:=R)) with Rdiv. rewrite E. num_R. cbn [ncos nsin TrigR]. field. lra. }
  assert (modulus z = coherence p w data) as Emod by (rewrite Ez; reflexivity).
  (* the weights, whether there are any *)
  assert ((W = None /\ ~ usable errors) \/ (W = Some a /\ usable errors /\ k = Rsqr (p / (2 * PI)))) as HW.
  { unfold period_weights in H2. destruct (weights_spec errors) as [E|(l&->&Hl&E)]; rewrite E in H2.
    - left. injection H2 as <-. split; [done|]. intros (es&l&->&->&Hl). by rewrite weights_usable in E.
    - right. destruct (neqb p n0); [done|]. change (default [] (Some (map Some l))) with (map Some l) in H2. rewrite (proj2 (no_gaps_spec _ l) eq_refl) in H2. cbn [mbind option_bind] in H2.
      injection H2 as H2. rewrite <- H2 in Ea. split; [rewrite Ea; by rewrite H2|]. split; [by exists (map Some l), l|]. clear H2. rename Ea into H2. symmetry in H2.
      destruct Hw as [(es&l'&E'&[-> Hl']&L'&->)|[N _]]; [|by destruct (N (map Some l) l eq_refl)]. injection E' as E'. assert (l' = l) as ->.
      { clear -E'. revert l' E'. induction l as [|x l IH]; intros [|y l'] E'; try done. cbn in E'. injection E' as -> E'. f_equal. by apply IH. }
      destruct l as [|e0 l]; [cbn in Sw; lra|]. apply Forall_cons in Hl as [He0 _]. rewrite Eaw in H2. cbn [map] in H2. injection H2 as H2 _. clear -H2 He0 Hp HP. num_R. unfold Rsqr.
      change ((1 + 1) * PI) with (2 * PI) in H2. change (PI2 (T:=R)) with (2 * PI) in H2.
      assert (k = k * / (e0 * e0) * (e0 * e0)) as -> by (field; done). rewrite <- H2. field. repeat split; lra. }
  exists w, m, (v' - v). split; [done|]. split; [|split].
  - unfold sample_size in H6. apply rbind_ok in H6 as (q&Hq&H6). injection H6 as <-. assert (forall q : R, (if nltb ntwo q then q else ntwo) = Rmax 2 q) as Emax.
    { intros q'. change (ntwo (T:=R)) with 2. destruct (nltb 2 q') eqn:E; [apply Rltb_true in E; rewrite Rmax_right by lra; done|apply Rltb_false in E; rewrite Rmax_left by lra; done]. }
    rewrite Emax. destruct HW as [[-> HU]|(->&HU&_)].
    + right. split; [done|]. injection Hq as <-. by rewrite INR_IZR_INZ.
    + left. split; [done|]. apply qdivR_ok in Hq as [-> _]. f_equal. rewrite !nsum_rsum. rewrite Eaw, rsum_scaled, map_map. change (nmul (T:=R)) with Rmult.
      assert (rsum (map (fun x => k * x * (k * x)) w) = k * k * rsum (map (fun x => x * x) w)) as ->. { clear. induction w as [|b w IH]; [cbn; ring|]. cbn [map]. rewrite !rsum_cons, IH. ring. }
      assert (0 < rsum (map (fun x => x * x) w)). { apply rsum_pos; [destruct w; [cbn in Sw; lra|done]|]. apply Forall_map. eapply Forall_impl; [exact Pw|]. intros b Hb. cbn. nra. }
      field. split; lra.
  - destruct HW as [[-> HU]|(->&HU&Ek)].
    + right. split; [done|]. injection H5 as <-. lra.
    + left. split; [done|]. apply rbind_ok in H5 as (i&Hi&H5). apply qdivR_ok in Hi as [-> _]. injection H5 as <-. rewrite nsum_rsum, Ska, Ek. change (n1 (T:=R)) with 1. num_R.
      assert (0 < Rsqr (p / (2 * PI))) by (rewrite <- Ek; lra). field. split; lra.
  - cbv zeta. rewrite Emod in H. set (L := coherence p w data) in *. rewrite <- Ev. replace (v + (v' - v)) with v' by ring.
    destruct (neqb L n0) eqn:EL.
    + apply Reqb_true in EL. apply (f_equal (fun r => match r with Ok x => x | Err _ => 0 end)) in H. cbv beta iota zeta in H. rewrite <- H. clear H. split; [intros _; rewrite !nofnat_R; cbn [INR]; num_R; lra|]. intros Hn. by destruct Hn.
    + apply Reqb_false in EL. split; [intros E0; by destruct EL|]. intros _. apply (f_equal (fun r => match r with Ok x => x | Err _ => 0 end)) in H. cbv beta iota zeta in H. rewrite <- H. clear H.
      assert ((if t then nmul (nsqrt (nmul v' (m / nsub m n1)) / L) (quantile (nsub m n1)) else nsqrt (nmul v' (m / nsub m n1)) / L) = R_sqrt.sqrt (v' * (m / (m - 1))) / L * (if t then quantile (m - 1) else 1)) as Ee.
      { destruct t; [done|]. rewrite Rmult_1_r. done. }
      change (ndiv (T:=R)) with Rdiv. rewrite Ee. set (eps := R_sqrt.sqrt (v' * (m / (m - 1))) / L * (if t then quantile (m - 1) else 1)) in *.
      assert (nmul (n1 / nofnat 4) PI2 = PI / 2) as Eq by (rewrite nofnat_R; change (PI2 (T:=R)) with (2 * PI); cbn [INR]; num_R; field).
      rewrite Eq. change (nltb (PI / 2) eps) with (Rltb (PI / 2) eps). split; intros He.
      * rewrite (proj2 (Rltb_true (PI / 2) eps) He). rewrite !nofnat_R. cbn [INR]. num_R. lra.
      * rewrite (proj2 (Rltb_false (PI / 2) eps) He). reflexivity.
Qed.
(** So the error is at most a quarter of the period, or three tenths. *)
Theorem C85_error_range quantile n data p errors t e : 0 < p -> (forall x, 0 <= quantile x) -> circular_error_of quantile n data p errors t = Ok e -> 0 <= e <= p / 4 \/ e = 3 / 10 * p.
Proof.
  intros Hp Hq H. pose proof PI_RGT_0 as HP. apply C85_error in H as (w&N&x&_&_&_&H); [|done]. cbv zeta in H. set (L := coherence p w data) in *. destruct H as [H1 H2].
  destruct (Req_dec L 0) as [HL|HL]; [right; by apply H1|]. destruct (H2 HL) as [H3 H4]. set (eps := R_sqrt.sqrt _ / L * _) in *.
  destruct (Rle_lt_dec eps (PI / 2)) as [He|He]; [|right; by apply H3]. left. rewrite (H4 He).
  assert (0 <= L) as HL0 by apply sqrt_pos. assert (0 <= eps) as He0.
  { unfold eps. apply Rmult_le_pos; [|destruct t; [apply Hq|lra]]. apply Rmult_le_pos; [apply sqrt_pos|]. left. apply Rinv_0_lt_compat. lra. }
  assert (eps * p / (2 * PI) * (2 * PI) = eps * p) as E by (field; lra). set (y := eps * p / (2 * PI)) in *. split; [apply (Rmult_le_reg_r (2 * PI)); nra|apply (Rmult_le_reg_r (2 * PI)); nra].
Qed.
(** Data that agree up to whole periods, without errors of their own, have the error zero. *)
Theorem C85_error_agreeing quantile n x data p t e : 0 < p -> Forall (same_mod p x) data -> circular_error_of quantile n data p None t = Ok e -> e = 0.
Proof.
  intros Hp HF H. pose proof PI_RGT_0 as HP. pose proof H as H'. apply C85_error in H as (w&N&y&Hw&_&Hy&H); [|done]. cbv zeta in H.
  assert (y = 0) as ->. { destruct Hy as [[(es&l&?&_) _]|[_ ?]]; done. }
  destruct Hw as [(es&l&?&_)|[_ Ew]]; [done|].
  assert (data <> []) as Hne.
  { intros ->. unfold circular_error_of in H'. apply rbind_ok in H' as (ph&H1&H'). apply rbind_ok in H' as (W&H2&H'). apply rbind_ok in H' as (z&H3&_).
    unfold phases in H1. destruct (neqb p n0); [done|]. injection H1 as <-. injection H2 as <-. done. }
  assert (coherence p w data = 1) as HL.
  { assert (0 < rsum w) as Sw. { rewrite Ew, rsum_replicate. rewrite Rmult_1_r. apply lt_0_INR. destruct data; [done|simpl; lia]. }
    assert (alignment p w data 0 = rsum w * cos (2 * PI * x / p) /\ torque p w data 0 = rsum w * sin (2 * PI * x / p)) as [E1 E2].
    { rewrite Ew. clear -HF Hp. unfold alignment, torque. induction HF as [|d data (k&->) HF [I1 I2]]; [cbn; split; ring|]. cbn [length replicate zip_with]. rewrite !rsum_cons, I1, I2.
      replace (2 * PI * (x + IZR k * p - 0) / p) with (2 * PI * x / p + IZR k * (2 * PI)) by (field; lra). rewrite cos_turns, sin_turns. split; ring. }
    unfold coherence. rewrite E1, E2. replace (rsum w * cos (2 * PI * x / p) / rsum w) with (cos (2 * PI * x / p)) by (field; lra). replace (rsum w * sin (2 * PI * x / p) / rsum w) with (sin (2 * PI * x / p)) by (field; lra).
    rewrite Rplus_comm, sin2_cos2. apply sqrt_1. }
  rewrite HL in H. destruct H as [_ H]. destruct H as [_ H]; [lra|].
  replace ((1 - 1² + 0) * (N / (N - 1))) with 0 in H by (unfold Rsqr; ring). rewrite sqrt_0 in H. replace (0 / 1 * (if t then quantile (N - 1) else 1)) with 0 in H by (unfold Rdiv; ring). rewrite H by lra. field. lra.
Qed.

(** * Missing values *)
Lemma present_app (a b : list (option R)) : present (a ++ b) = present a ++ present b.
Proof. unfold present. induction a as [|[x|] a IH]; [done|..]; cbn; by rewrite IH. Qed.
Lemma present_errors_drop (a b ea eb : list (option R)) e : length ea = length a -> present_errors (a ++ None :: b) (ea ++ e :: eb) = present_errors (a ++ b) (ea ++ eb).
Proof. unfold present_errors. revert ea. induction a as [|[x|] a IH]; intros [|y ea] H; try done; cbn [app zip zip_with omap list_omap fst snd]; [|]; simpl in H; rewrite IH by lia; done. Qed.
(** A missing value, with whatever error, has no part in the means ... *)
Theorem C85_missing angle (a b ea eb : list (option R)) e p : length ea = length a ->
  circular_nanmean angle (a ++ None :: b) p None = circular_nanmean angle (a ++ b) p None /\
  weighted_nanmean (a ++ None :: b) None = weighted_nanmean (a ++ b) None /\ weighted_nanrms (a ++ None :: b) None = weighted_nanrms (a ++ b) None /\
  circular_nanmean angle (a ++ None :: b) p (Some (ea ++ e :: eb)) = circular_nanmean angle (a ++ b) p (Some (ea ++ eb)) /\
  weighted_nanmean (a ++ None :: b) (Some (ea ++ e :: eb)) = weighted_nanmean (a ++ b) (Some (ea ++ eb)) /\ weighted_nanrms (a ++ None :: b) (Some (ea ++ e :: eb)) = weighted_nanrms (a ++ b) (Some (ea ++ eb)).
Proof.
  intros HL. assert (present (a ++ None :: b) = present (a ++ b)) as E by (rewrite !present_app; done).
  assert (masked_errors (a ++ None :: b) (Some (ea ++ e :: eb)) = masked_errors (a ++ b) (Some (ea ++ eb))) as E'.
  { unfold masked_errors. rewrite present_errors_drop by done. rewrite !app_length. cbn [length]. destruct (Nat.eqb_spec (length ea + length eb) (length a + length b)) as [Hq|Hq].
    - by rewrite (proj2 (Nat.eqb_eq _ _)) by lia.
    - by rewrite (proj2 (Nat.eqb_neq _ _)) by lia. }
  unfold circular_nanmean, weighted_nanmean, weighted_nanrms. rewrite E'. cbn [masked_errors rbind]. rewrite E. done.
Qed.
(** ... and without missing values the variants are the plain functions. *)
Theorem C85_nothing_missing angle quantile (data : list R) p errors t : (forall es, errors = Some es -> length es = length data) ->
  circular_nanmean angle (map Some data) p errors = circular_mean angle data p errors /\ weighted_nanmean (map Some data) errors = weighted_mean data errors /\
  weighted_nanrms (map Some data) errors = weighted_rms data errors /\ circular_nanerror quantile (map Some data) p errors t = circular_error quantile data p errors t.
Proof.
  intros HL. assert (present (map Some data) = data) as E by (unfold present; clear; induction data as [|x data IH]; [done|]; cbn; by rewrite IH).
  assert (masked_errors (map Some data) errors = Ok errors) as E'.
  { unfold masked_errors. destruct errors as [es|]; [|done]. rewrite map_length, (HL es eq_refl), Nat.eqb_refl. do 2 f_equal. specialize (HL es eq_refl). clear -HL. unfold present_errors. revert es HL.
    induction data as [|x data IH]; intros [|y es] HL; try done. cbn. rewrite IH; [done|simpl in HL; lia]. }
  unfold circular_nanmean, weighted_nanmean, weighted_nanrms, circular_nanerror, circular_error. rewrite E'. cbn [rbind]. by rewrite E, map_length.
Qed.
(** Finding: in the error of the mean a missing value is counted.  Without the correction by Student's quantile, two equal sets of present values
    whose numbers with the missing ones are n and n' have errors in the ratio of the roots of n/(n-1) and n'/(n'-1): the more is missing, the better it looks. *)
Theorem C85_finding_missing_counted quantile (data data' : list (option R)) p e e' : 0 < p -> present data = present data' -> (2 <= length data <= length data')%nat ->
  circular_nanerror quantile data p None false = Ok e -> circular_nanerror quantile data' p None false = Ok e' -> e <> 3 / 10 * p ->
  e' * R_sqrt.sqrt (INR (length data) / (INR (length data) - 1)) = e * R_sqrt.sqrt (INR (length data') / (INR (length data') - 1)) /\ e' <= e.
Proof.
  intros Hp HE HL H H' Hne. pose proof PI_RGT_0 as HP. unfold circular_nanerror in H, H'. cbn [masked_errors rbind] in H, H'. rewrite <- HE in H'.
  apply C85_error in H as (w&N&x&Hw&HN&Hx&H); [|done]. apply C85_error in H' as (w'&N'&x'&Hw'&HN'&Hx'&H'); [|done]. cbv zeta in H, H'.
  assert (~ usable None) as HU by (intros (es&l&?&_); done).
  destruct Hw as [(es&l&?&_)|[_ Ew]]; [done|]. destruct Hw' as [(es&l&?&_)|[_ Ew']]; [done|]. assert (w' = w) as -> by congruence. clear Ew Ew'.
  destruct Hx as [[? _]|[_ ->]]; [done|]. destruct Hx' as [[? _]|[_ ->]]; [done|]. destruct HN as [[? _]|[_ ->]]; [done|]. destruct HN' as [[? _]|[_ ->]]; [done|].
  assert (2 <= INR (length data)) as G1 by (apply (le_INR 2); lia). assert (INR (length data) <= INR (length data')) as G2 by (apply le_INR; lia).
  rewrite !Rmax_right in H by lra. rewrite !Rmax_right in H' by lra. set (n := INR (length data)) in *. set (n' := INR (length data')) in *. set (L := coherence p w (present data)) in *.
  destruct H as [HA HB]. destruct H' as [_ HB']. destruct (Req_dec L 0) as [HL0|HL0]; [by destruct Hne; apply HA|].
  destruct (HB HL0) as [HC HD]. destruct (HB' HL0) as [HC' HD']. rewrite !Rmult_1_r, !Rplus_0_r in *.
  assert (0 <= L) as HLp by apply sqrt_pos. assert (0 < / L) as HLi by (apply Rinv_0_lt_compat; lra).
  assert (0 <= n / (n - 1)) as Q1 by (left; apply Rdiv_lt_0_compat; lra). assert (0 <= n' / (n' - 1)) as Q2 by (left; apply Rdiv_lt_0_compat; lra).
  assert (n' / (n' - 1) <= n / (n - 1)) as Q3.
  { assert (n / (n - 1) = 1 + / (n - 1)) as -> by (field; lra). assert (n' / (n' - 1) = 1 + / (n' - 1)) as -> by (field; lra). apply Rplus_le_compat_l. apply Rinv_le_contravar; lra. }
  destruct (Rle_lt_dec (1 - L²) 0) as [Hv|Hv].
  - assert (forall q, 0 <= q -> R_sqrt.sqrt ((1 - L²) * q) = 0) as Z by (intros q Hq; apply sqrt_neg_0; nra). rewrite Z in HD by done. rewrite Z in HD' by done.
    assert (0 / L = 0) as Z0 by (unfold Rdiv; ring). rewrite Z0 in HD, HD'. rewrite HD, HD' by lra. unfold Rdiv. split; [ring|]. lra.
  - rewrite sqrt_mult in HC, HD by lra. rewrite sqrt_mult in HC', HD' by lra. set (V := R_sqrt.sqrt (1 - L²)) in *. assert (0 <= V) as HV by apply sqrt_pos.
    pose proof (sqrt_le_1 _ _ Q2 Q1 Q3) as Q4. set (r := R_sqrt.sqrt (n / (n - 1))) in *. set (r' := R_sqrt.sqrt (n' / (n' - 1))) in *.
    assert (V * r / L <= PI / 2) as He. { destruct (Rle_lt_dec (V * r / L) (PI / 2)) as [?|Hc]; [done|]. by destruct Hne; apply HC. }
    assert (V * r' / L <= V * r / L) as He'. { unfold Rdiv. apply Rmult_le_compat_r; [lra|]. apply Rmult_le_compat_l; lra. }
    rewrite HD by done. rewrite HD' by lra. split; [field; lra|]. unfold Rdiv in *. apply Rmult_le_compat_r; [left; apply Rinv_0_lt_compat; lra|]. apply Rmult_le_compat_r; lra.
Qed.

(** * Finding: the circular root mean square *)
Section Rms.
  Context (angle : R -> R -> R) (HA : is_angle angle).
  (** For equal data it is the magnitude divided by the root of the period, as long as the square of the ratio to the period is at most one half ... *)
  Theorem C85_finding_rms n x p r : 0 < p -> x * x <= p * p / 2 -> circular_rms angle (replicate n x) p = Ok r -> r = Rabs x / R_sqrt.sqrt p.
  Proof.
    intros Hp Hx H. unfold circular_rms in H. destruct (neqb p n0) eqn:E0; [done|]. apply rbind_ok in H as (m&Hm&H). change (@map R R) with (@fmap list _ R R) in Hm. rewrite fmap_replicate in Hm.
    apply C85_constant in Hm as [Hs Hr]; [|done|change (n1 (T:=R)) with 1; lra]. change (n1 (T:=R)) with 1 in Hs, Hr. num_R.
    assert (x / p * (x / p) * (p * p) = x * x) as E by (field; lra).
    assert (m = x / p * (x / p)) as Em.
    { apply (reduced_unique 1); [lra|done| |done]. split.
      - assert (0 <= x / p * (x / p)) by nra. lra.
      - apply (Rmult_le_reg_r (p * p)); nra. }
    destruct (Rltb (m * p) 0) eqn:En; [done|]. injection H as <-. rewrite Em. replace (x / p * (x / p) * p) with (Rsqr x / p) by (unfold Rsqr; field; lra). change (nsqrt (T:=R)) with R_sqrt.sqrt.
    rewrite sqrt_div_alt by lra. by rewrite sqrt_Rsqr_abs.
  Qed.
  (** ... and NaN for a little more. *)
  Theorem C85_finding_rms_nan n x p : 0 < p -> p * p / 2 < x * x < p * p -> forall r, circular_rms angle (replicate n x) p <> Ok r.
  Proof.
    intros Hp Hx r H. unfold circular_rms in H. destruct (neqb p n0) eqn:E0; [done|]. apply rbind_ok in H as (m&Hm&H). change (@map R R) with (@fmap list _ R R) in Hm. rewrite fmap_replicate in Hm.
    apply C85_constant in Hm as [Hs Hr]; [|done|change (n1 (T:=R)) with 1; lra]. change (n1 (T:=R)) with 1 in Hs, Hr. num_R.
    assert (x / p * (x / p) * (p * p) = x * x) as E by (field; lra). assert (1 / 2 < x / p * (x / p)) as G1 by (apply (Rmult_lt_reg_r (p * p)); nra). assert (x / p * (x / p) < 1) as G2 by (apply (Rmult_lt_reg_r (p * p)); nra).
    assert (m = x / p * (x / p) - 1) as Em.
    { apply (reduced_unique 1); [lra|done|lra|]. destruct Hs as [k Hk]. exists (k - 1)%Z. rewrite minus_IZR. lra. }
    destruct (Rltb (m * p) 0) eqn:En; [done|]. apply Rltb_false in En. nra.
  Qed.
End Rms.
(** * Answers *)
Lemma qdivR_some (x y : R) : y <> 0 -> qdiv x y = Ok (x / y).
Proof. intros H. unfold qdiv. assert (neqb y n0 = false) as -> by (by apply Reqb_false). done. Qed.
Lemma average_answers (d : list R) W : d <> [] -> (forall w, W = Some w -> length w = length d /\ Forall (fun v => 0 < v) w) -> exists m, average d W = Ok m.
Proof.
  intros Hd HW. unfold average. destruct W as [w|].
  - destruct (HW w eq_refl) as [HL HF]. rewrite HL, Nat.eqb_refl. assert (0 < rsum w) as Hs by (apply rsum_pos; [|done]; intros ->; by destruct d). rewrite nsum_rsum. cbv zeta.
    assert (neqb (rsum w) n0 = false) as -> by (apply Reqb_false; by apply Rgt_not_eq). by eexists.
  - destruct d; [done|]. by eexists.
Qed.
(** Any data have a mean, and an error of it, unless there are none, the period is zero or the errors, if usable, are not as many as the data. *)
Theorem C85_answers angle quantile n data p errors t : data <> [] -> p <> 0 -> (forall es, errors = Some es -> usable errors -> length es = length data) ->
  (exists m, circular_mean angle data p errors = Ok m) /\ exists e, circular_error_of quantile n data p errors t = Ok e.
Proof.
  intros Hd Hp HL. pose proof PI_RGT_0 as HP. unfold circular_mean, circular_error_of, phases. assert (neqb p n0 = false) as Ep by (by apply Reqb_false). rewrite ?Ep. cbn [rbind].
  assert (exists W, period_weights errors p = Ok W /\ forall w, W = Some w -> length w = length data /\ Forall (fun v => 0 < v) w) as (W&->&HW).
  { unfold period_weights. destruct (weights_spec errors) as [E|(l&->&Hl&E)]; rewrite E; [by exists None|].
    rewrite ?Ep. change (default [] (Some (map Some l))) with (map Some l). rewrite (proj2 (no_gaps_spec _ l) eq_refl). cbn [mbind option_bind]. eexists. split; [reflexivity|].
    intros w [= <-]. specialize (HL _ eq_refl ltac:(by exists (map Some l), l)). rewrite map_length in HL. rewrite map_length. split; [done|]. apply Forall_map. eapply Forall_impl; [exact Hl|].
    intros e He. cbv beta zeta. change (PI2 (T:=R)) with (2 * PI). num_R. change ((1 + 1) * PI) with (2 * PI). assert (e * (2 * PI) / p <> 0) as Hq. { unfold Rdiv. apply Rmult_integral_contrapositive_currified; [apply Rmult_integral_contrapositive_currified; [done|lra]|by apply Rinv_neq_0_compat]. }
    unfold Rdiv at 1. rewrite Rmult_1_l. apply Rinv_0_lt_compat. by apply Rlt_0_sqr. }
  cbn [rbind]. set (ph := map _ data). assert (length ph = length data) as Lp by apply map_length. rewrite <- Lp in HW. assert (ph <> []) as Hph by (by destruct data). clearbody ph.
  assert (forall f : R -> R, exists m, average (map f ph) W = Ok m) as HA by (intros f; apply average_answers; [by destruct ph|by rewrite map_length]).
  destruct (HA ncos) as [c Hc]. destruct (HA nsin) as [s Hs]. unfold complex_average. rewrite Hc, Hs. cbn [rbind]. split; [by eexists|].
  match goal with |- context [average (map ?f ph) W] => destruct (HA f) as [v ->] end. cbn [rbind].
  assert (forall w, W = Some w -> rsum w <> 0 /\ rsum (map (fun x => x * x) w) <> 0) as HS.
  { intros w ->. destruct (HW w eq_refl) as [L F]. assert (w <> []) by (intros ->; by destruct ph). assert (0 < rsum w) by (by apply rsum_pos).
    assert (0 < rsum (map (fun x => x * x) w)); [|lra]. apply rsum_pos; [by destruct w|]. apply Forall_map. eapply Forall_impl; [exact F|]. intros b Hb. cbn. nra. }
  assert (exists v', match W with None => Ok v | Some w => let? inv := qdiv n1 (nsum w) in Ok (nadd v inv) end = Ok v') as [v' ->].
  { destruct W as [w|]; [|by eexists]. destruct (HS w eq_refl) as [H1 _]. rewrite nsum_rsum, qdivR_some by done. by eexists. }
  cbn [rbind]. assert (exists m, sample_size n W = Ok m /\ 2 <= m) as (m&->&Hm).
  { unfold sample_size. assert (forall q : R, 2 <= (if nltb ntwo q then q else ntwo)) as G.
    { intros q. change (ntwo (T:=R)) with 2. destruct (nltb 2 q) eqn:E; [apply Rltb_true in E; lra|lra]. }
    destruct W as [w|].
    - destruct (HS w eq_refl) as [_ H2]. rewrite (nsum_rsum (map _ w)). change (nmul (T:=R)) with Rmult. rewrite qdivR_some by done. cbn [rbind]. eexists. split; [reflexivity|apply G].
    - cbn [rbind]. eexists. split; [reflexivity|apply G]. }
  cbn [rbind]. rewrite qdivR_some by (num_R; lra). cbn [rbind]. cbv zeta. destruct (neqb (modulus (c, s)) n0); by eexists.
Qed.

(** * A case: the numbers 3 and 4 on a circle of length 4; their mean is -1/2, which is 7/2 up to a whole period, and its error. *)
Lemma case_sums : torque 4 [1; 1] [3; 4] 0 = -1 /\ alignment 4 [1; 1] [3; 4] 0 = 1.
Proof.
  unfold torque, alignment. cbn [zip_with rsum foldr]. replace (2 * PI * (3 - 0) / 4) with (3 * (PI / 2)) by lra. replace (2 * PI * (4 - 0) / 4) with (2 * PI) by lra.
  rewrite sin_2PI, cos_2PI. replace (sin (3 * (PI / 2))) with (-1) by (symmetry; apply sin_3PI2). replace (cos (3 * (PI / 2))) with 0 by (symmetry; apply cos_3PI2). lra.
Qed.
Example case_mean : circular_mean atan2 [3; 4] 4 None = Ok (- (1 / 2)).
Proof.
  destruct (C85_answers atan2 (fun _ => 1) 2 [3; 4] 4 None false) as [[m Hm] _]; [done|lra|done|]. rewrite Hm. f_equal. pose proof PI_RGT_0 as HP.
  apply (C85_mean _ C85_angle) in Hm as (_&Hr&w&Hw&_&T&A&_); [|lra]. destruct Hw as [(es&l&?&_)|[_ ->]]; [done|]. cbn [length replicate] in *. destruct case_sums as [C1 C2].
  assert (torque 4 [1; 1] [3; 4] (- (1 / 2)) = 0 /\ 0 < alignment 4 [1; 1] [3; 4] (- (1 / 2))) as [T' A'].
  { rewrite (torque_turn 4 [1; 1] [3; 4] 0 (- (1 / 2))), (alignment_turn 4 [1; 1] [3; 4] 0 (- (1 / 2))), C1, C2 by lra. replace (2 * PI * (0 - - (1 / 2)) / 4) with (PI / 4) by lra. rewrite sin_cos_PI4.
    assert (0 < cos (PI / 4)) by (apply cos_gt_0; lra). split; lra. }
  assert (same_mod 4 (- (1 / 2)) m) as HS by (eapply C85_unique; try done; lra). symmetry. apply (reduced_unique 4); [lra|lra|lra|done].
Qed.
Example case_error : circular_error (fun _ => 1) [3; 4] 4 None false = Ok (2 * R_sqrt.sqrt 2 / PI).
Proof.
  unfold circular_error. destruct (C85_answers atan2 (fun _ => 1) (length [3; 4]) [3; 4] 4 None false) as [_ [e He]]; [done|lra|done|]. rewrite He. f_equal. pose proof PI_RGT_0 as HP.
  apply C85_error in He as (w&N&x&Hw&HN&Hx&H); [|lra]. assert (~ usable None) as HU by (intros (es&l&?&_); done). destruct Hw as [(es&l&?&_)|[_ ->]]; [done|]. destruct HN as [[? _]|[_ ->]]; [done|]. destruct Hx as [[? _]|[_ ->]]; [done|].
  cbn [length replicate INR] in H. assert (coherence 4 [1; 1] [3; 4] = R_sqrt.sqrt (1 / 2)) as E.
  { unfold coherence. destruct case_sums as [-> ->]. f_equal. unfold Rsqr. cbn. field. }
  cbv zeta in H. rewrite E in H. assert (0 < R_sqrt.sqrt (1 / 2)) as H0 by (apply sqrt_lt_R0; lra). destruct H as [_ H]. destruct H as [_ H]; [lra|]. rewrite Rsqr_sqrt in H by lra. rewrite Rmax_left in H by lra.
  replace ((1 - 1 / 2 + 0) * (2 / (2 - 1))) with (2 * (1 / 2)) in H by field. rewrite sqrt_mult in H by lra. replace (R_sqrt.sqrt 2 * R_sqrt.sqrt (1 / 2) / R_sqrt.sqrt (1 / 2) * 1) with (R_sqrt.sqrt 2) in H by (field; lra).
  rewrite H; [field; lra|]. assert (R_sqrt.sqrt 2 * R_sqrt.sqrt 2 = 2) as Q by (apply sqrt_sqrt; lra). pose proof PI2_3_2. pose proof (sqrt_pos 2). nra.
Qed.

Print Assumptions C85_mean.
Print Assumptions C85_unique.
Print Assumptions C85_nearest.
Print Assumptions C85_periodic.
Print Assumptions C85_shift.
Print Assumptions C85_between.
Print Assumptions C85_constant.
Print Assumptions C85_finding_cancelling.
Print Assumptions C85_angle.
Print Assumptions C85_error.
Print Assumptions C85_error_range.
Print Assumptions C85_error_agreeing.
Print Assumptions C85_missing.
Print Assumptions C85_answers.
Print Assumptions C85_nothing_missing.
Print Assumptions C85_finding_missing_counted.
Print Assumptions C85_finding_rms.
Print Assumptions C85_finding_rms_nan.
