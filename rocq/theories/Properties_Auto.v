(** C101: polar coordinates and the automatic choice of angles of the dynamic aperture. *)
From Coq Require Import Reals Lra Lia QArith ZArith.
From stdpp Require Import base gmap strings list.
From Verif Require Import Num Base Model_Arr Model_SC Model_Aper Model_Scan Model_Auto Lemmas Properties_Rf.
Local Open Scope string_scope.
Local Open Scope list_scope.
Local Open Scope R_scope.

(** numpy's functions over the reals *)
Definition angle_of (y x : R) : R :=
  if Req_EM_T (x * x + y * y) 0 then 0
  else if Rle_dec 0 y then acos (x / R_sqrt.sqrt (x * x + y * y)) else - acos (x / R_sqrt.sqrt (x * x + y * y)).
Definition arcosh (x : R) : R := ln (x + R_sqrt.sqrt (x * x - 1)).
Notation to_polar := (cart2pol angle_of).

Lemma angle_of_spec x y : let rho := R_sqrt.sqrt (x * x + y * y) in let t := angle_of y x in
  - PI < t <= PI /\ rho * cos t = x /\ rho * sin t = y.
Proof.
  intros rho t. pose proof PI_RGT_0 as HP. assert (0 <= x * x + y * y) as Hs by nra.
  subst t. unfold angle_of. destruct (Req_EM_T _ 0) as [E|Ne].
  { assert (x = 0) by nra. assert (y = 0) by nra. subst. unfold rho. rewrite E, sqrt_0. lra. }
  fold rho. assert (0 < rho) as Hr by (apply sqrt_lt_R0; lra). assert (rho * rho = x * x + y * y) as Hrr by (apply sqrt_sqrt; lra).
  set (u := x / rho). assert (u * rho = x) as Hu by (unfold u; field; lra).
  assert (u * u <= 1) as Huu.
  { apply Rmult_le_reg_r with (rho * rho); [nra|]. replace (u * u * (rho * rho)) with ((u * rho) * (u * rho)) by ring. rewrite Hu, Hrr. nra. }
  assert (-1 <= u <= 1) as Hb by (split; nra).
  assert (rho * R_sqrt.sqrt (1 - u²) = Rabs y) as Hy.
  { replace rho with (R_sqrt.sqrt (rho * rho)) at 1 by (rewrite sqrt_square; lra). rewrite <- sqrt_mult_alt by nra.
    replace (rho * rho * (1 - u²)) with (y²) by (unfold Rsqr; nra). apply sqrt_Rsqr_abs. }
  pose proof (acos_bound u) as Ha. destruct (Rle_dec 0 y) as [L|L].
  - rewrite cos_acos, sin_acos by done. rewrite Hy, Rabs_right by lra. repeat split; lra.
  - rewrite cos_neg, sin_neg, cos_acos, sin_acos by done. rewrite Ropp_mult_distr_r_reverse, Hy, Rabs_left by lra.
    assert (acos u <> PI); [|repeat split; lra]. intros E. assert (cos (acos u) = -1) as C by (rewrite E; apply cos_PI). rewrite cos_acos in C by done. rewrite C in Hu. nra.
Qed.

(** Going to polar coordinates and back gives the point; the radius is not negative and the angle in (-PI, PI]. *)
Theorem C101_plane x y rho phi : to_polar x y = (rho, phi) ->
  0 <= rho /\ - PI < phi <= PI /\ rho * rho = x * x + y * y /\ pol2cart rho phi = (x, y).
Proof.
  unfold cart2pol, pol2cart. cbn [nsqrt ncos nsin TrigR]. num_R. intros E. injection E as <- <-. destruct (angle_of_spec x y) as (A&B&C).
  split; [apply sqrt_pos|]. split; [done|]. split; [apply sqrt_sqrt; nra|]. by rewrite B, C.
Qed.
(** The other way round: a point with positive radius and an angle in (-PI, PI] is given back. *)
Theorem C101_polar rho phi : 0 < rho -> - PI < phi <= PI -> let p := pol2cart rho phi in to_polar p.1 p.2 = (rho, phi).
Proof.
  intros Hr Hp. unfold cart2pol, pol2cart. cbn [nsqrt ncos nsin TrigR fst snd]. num_R.
  destruct (angle_of_spec (rho * cos phi) (rho * sin phi)) as (A&B&C). set (t := angle_of _ _) in *.
  assert (R_sqrt.sqrt (rho * cos phi * (rho * cos phi) + rho * sin phi * (rho * sin phi)) = rho) as E.
  { replace (rho * cos phi * (rho * cos phi) + rho * sin phi * (rho * sin phi)) with (rho * rho * ((sin phi)² + (cos phi)²)) by (unfold Rsqr; ring).
    rewrite sin2_cos2, Rmult_1_r. apply sqrt_square. lra. }
  rewrite E in *. f_equal. apply Rmult_eq_reg_l in B, C; try lra.
  (* equal sines and cosines within less than one turn *)
  assert (cos (t - phi) = 1) as H1 by (rewrite cos_minus, B, C; pose proof (sin2_cos2 phi) as H; unfold Rsqr in H; lra).
  assert (sin (t - phi) = 0) as H2 by (rewrite sin_minus, B, C; lra).
  apply sin_eq_0_0 in H2 as [k Hk]. pose proof PI_RGT_0 as HP.
  assert (k = -1 \/ k = 0 \/ k = 1)%Z as [->|[->| ->]].
  { assert (-2 < IZR k < 2) as [L U]. { split; apply Rmult_lt_reg_r with PI; lra. }
    apply lt_IZR in U. change (-2) with (IZR (-2)) in L. apply lt_IZR in L. lia. }
  - replace (IZR (-1)) with (-1) in Hk by done. rewrite Hk in H1. replace (-1 * PI) with (- PI) in H1 by ring. rewrite cos_neg, cos_PI in H1. lra.
  - lra.
  - rewrite Hk in H1. replace (1 * PI) with PI in H1 by ring. rewrite cos_PI in H1. lra.
Qed.
(** A boundary point centred on the orbit is the vector from the orbit to the point. *)
Theorem C101_centred x0 y0 rho phi rho' phi' : centred angle_of x0 y0 rho phi = (rho', phi') ->
  0 <= rho' /\ - PI < phi' <= PI /\ rho' * cos phi' = rho * cos phi - x0 /\ rho' * sin phi' = rho * sin phi - y0.
Proof.
  unfold centred. intros E. apply C101_plane in E as (A&B&_&E). unfold pol2cart in E. cbn [ncos nsin TrigR fst snd] in E. revert E. num_R. intros E.
  injection E as E1 E2. done.
Qed.

Lemma arcosh_spec c : 1 <= c -> cosh (arcosh c) = c /\ sinh (arcosh c) = R_sqrt.sqrt (c * c - 1).
Proof.
  intros Hc. unfold arcosh, cosh, sinh. set (q := R_sqrt.sqrt (c * c - 1)). assert (0 <= q) as Hq by apply sqrt_pos.
  assert (q * q = c * c - 1) as Hqq by (apply sqrt_sqrt; nra). rewrite exp_Ropp, exp_ln by lra.
  assert (/ (c + q) = c - q) as ->; [|split; lra]. apply Rmult_eq_reg_l with (c + q); [|lra]. rewrite Rinv_r by lra. lra.
Qed.

Notation ellipse_R := (ellipse angle_of cosh sinh arcosh).
(** An aperture wider than high: the angles are those of points spread evenly in the eccentric anomaly over an ellipse with the
    proportions of the aperture - half axes as the mean horizontal to the mean vertical radius -, beginning and ending on the
    positive horizontal axis. *)
Theorem C101_ellipse r0 r1 r2 r3 nt : let a := (r0 + r2) / 2 in let b := (r1 + r3) / 2 in 0 < b < a ->
  exists pts lam, ellipse_R r0 r1 r2 r3 nt = Some pts /\ length pts = nt /\ 0 < lam /\
    forall k rho t, pts !! k = Some (rho, t) ->
      let nu := INR k * (2 * PI / INR (nt - 1)) in
      0 < rho /\ - PI < t <= PI /\ rho * cos t = lam * a * cos nu /\ rho * sin t = lam * b * sin nu /\
      (rho * cos t / a) ^ 2 + (rho * sin t / b) ^ 2 = lam ^ 2 /\ ((k = 0%nat \/ k = (nt - 1)%nat) -> t = 0 /\ rho = lam * a).
Proof.
  intros a b [Hb Ha]. unfold ellipse. change (ndiv (nadd r0 r2) ntwo) with (Rdiv (r0 + r2) ntwo). change (ndiv (nadd r1 r3) ntwo) with (Rdiv (r1 + r3) ntwo).
  assert (@ntwo R _ = 2) as -> by (unfold ntwo; num_R; lra). fold a b. cbn [nsqrt ncos nsin npi TrigR]. num_R.
  assert (Reqb a 0 = false) as -> by (apply Reqb_false; lra).
  set (q := 1 - b * b / (a * a)).
  assert (q * (a * a) = a * a - b * b) as Hq by (unfold q; field; nra).
  assert (0 < q) as Hq0 by nra. assert (q < 1) as Hq1 by nra.
  assert (Rleb q 0 = false) as -> by (apply Rleb_false; lra).
  set (e := R_sqrt.sqrt q). assert (0 < e) as He by (apply sqrt_lt_R0; lra). assert (e * e = q) as Hee by (apply sqrt_sqrt; lra).
  assert (e < 1) as He1 by nra. assert (1 < 1 / e) as Hc by (apply Rmult_lt_reg_r with e; [lra|]; unfold Rdiv; rewrite Rmult_assoc, Rinv_l; lra).
  destruct (arcosh_spec (1 / e)) as [E1 E2]; [lra|]. rewrite E1, E2. clear E1 E2.
  set (lam := 1 / (e * a)). assert (0 < lam) as Hl by (unfold lam; apply Rdiv_lt_0_compat; nra).
  assert (1 / e = lam * a) as -> by (unfold lam; field; lra).
  assert (R_sqrt.sqrt (lam * a * (lam * a) - 1) = lam * b) as ->.
  { assert (lam * (e * a) = 1) as Hla by (unfold lam; field; split; lra).
    replace (lam * a * (lam * a) - 1) with ((lam * b) * (lam * b)); [apply sqrt_square; nra|].
    assert (lam * lam * (a * a - b * b) = 1) as HH; [|lra]. rewrite <- Hq, <- Hee. transitivity ((lam * (e * a)) * (lam * (e * a))); [ring|]. rewrite Hla. ring. }
  eexists _, lam. split; [done|]. split; [unfold linspace; by rewrite !map_length, seq_length|]. split; [done|].
  intros k rho t Hk. set (nu := INR k * (2 * PI / INR (nt - 1))). change (@map R (R * R)) with (@fmap list _ R (R * R)) in Hk. rewrite list_lookup_fmap in Hk.
  unfold linspace in Hk. change (@map nat R) with (@fmap list _ nat R) in Hk. rewrite list_lookup_fmap in Hk.
  destruct (seq 0 nt !! k) as [j|] eqn:Ej; [|done]. apply lookup_seq in Ej as [-> Hkn]. cbn [fmap option_fmap option_map] in Hk.
  revert Hk. num_R. rewrite ?nofnat_R. intros Hk.
  replace (0 + INR (0 + k) * ((2 * PI - 0) / INR (nt - 1))) with nu in Hk by (unfold nu; cbn [Nat.add]; unfold Rdiv; ring).
  apply (f_equal (fun o => match o with Some p => p | None => (0, 0) end)) in Hk. cbv beta iota in Hk. change (to_polar (lam * a * cos nu) (lam * b * sin nu) = (rho, t)) in Hk.
  apply C101_plane in Hk as (A&B&C&D). unfold pol2cart in D. cbn [ncos nsin TrigR] in D. revert D. num_R. intros D. injection D as D1 D2.
  pose proof (sin2_cos2 nu) as SC. unfold Rsqr in SC. assert (0 < lam * a) by nra. assert (0 < lam * b) by nra.
  assert (0 < rho) as Hr.
  { destruct A as [A|A]; [done|]. rewrite <- A in D1, D2. rewrite Rmult_0_l in D1, D2. symmetry in D1, D2.
    apply Rmult_integral in D1 as [D1|D1], D2 as [D2|D2]; try lra. rewrite D1, D2 in SC. lra. }
  split; [done|]. split; [done|]. split; [done|]. split; [done|]. split.
  { rewrite D1, D2. replace (lam * a * cos nu / a) with (lam * cos nu) by (field; lra). replace (lam * b * sin nu / b) with (lam * sin nu) by (field; lra).
    transitivity (lam ^ 2 * (sin nu * sin nu + cos nu * cos nu)); [ring|]. rewrite SC. ring. }
  intros Hk. assert (cos nu = 1 /\ sin nu = 0) as [C1 S0].
  { assert (k = 0%nat \/ (k <> 0%nat /\ k = (nt - 1)%nat)) as [->|[Hk0 ->]] by lia.
    - unfold nu. cbn [INR]. rewrite Rmult_0_l. split; [apply cos_0|apply sin_0].
    - assert (nu = 2 * PI) as ->; [unfold nu; field; by apply not_0_INR|]. split; [apply cos_2PI|apply sin_2PI]. }
  rewrite C1, Rmult_1_r in D1. rewrite S0, Rmult_0_r in D2, C. rewrite C1, Rmult_1_r in C.
  assert (rho = lam * a) as Er by nra. split; [|done]. apply Rmult_integral in D2 as [D2|D2]; [lra|]. rewrite Er in D1.
  assert (cos t = 1) as Ct by (apply Rmult_eq_reg_l with (lam * a); lra). apply sin_eq_0_0 in D2 as [j Hj]. pose proof PI_RGT_0 as HP.
  assert (j = 0 \/ j = 1)%Z as [->| ->]; [|rewrite Hj; ring|].
  { assert (-1 < IZR j <= 1) as [L U]. { split; [apply Rmult_lt_reg_r with PI|apply Rmult_le_reg_r with PI]; lra. }
    apply le_IZR in U. change (-1) with (IZR (-1)) in L. apply lt_IZR in L. lia. }
  rewrite Hj in Ct. replace (1 * PI) with PI in Ct by ring. rewrite cos_PI in Ct. lra.
Qed.

(** Finding: for an aperture that is not wider than high there are no such angles. *)
Theorem C101_finding_high r0 r1 r2 r3 nt : 0 <= (r0 + r2) / 2 <= (r1 + r3) / 2 -> ellipse_R r0 r1 r2 r3 nt = None.
Proof.
  intros [Ha Hb]. unfold ellipse. change (ndiv (nadd r0 r2) ntwo) with (Rdiv (r0 + r2) ntwo). change (ndiv (nadd r1 r3) ntwo) with (Rdiv (r1 + r3) ntwo).
  assert (@ntwo R _ = 2) as -> by (unfold ntwo; num_R; lra). set (a := (r0 + r2) / 2) in *. set (b := (r1 + r3) / 2) in *. num_R.
  destruct (Reqb a 0) eqn:E; [done|]. apply Reqb_false in E. set (q := 1 - b * b / (a * a)).
  assert (q * (a * a) = a * a - b * b) as Hq by (unfold q; field; nra).
  assert (Rleb q 0 = true) as ->; [|done]. apply Rleb_true. destruct (Rle_lt_dec q 0) as [L|L]; [done|]. assert (0 < a * a) by nra.
  assert (0 < q * (a * a)) by (by apply Rmult_lt_0_compat). assert (a * a <= b * b) by nra. lra.
Qed.
(** Finding: a dynamic aperture with angles chosen automatically is never returned, whatever the particles do: the search of the four
    radii is always centred on an orbit that cannot be used. *)
Theorem C101_finding_auto_never track auto fuel turns dE b0 b1 thetas acc launch center use6 r : (0 < auto)%nat ->
  dynamic_aperture_auto (T:=R) angle_of cosh sinh arcosh track auto fuel turns dE b0 b1 thetas acc launch center use6 <> Ok r.
Proof.
  intros Ha. unfold dynamic_aperture_auto. apply Nat.ltb_lt in Ha. rewrite Ha. unfold autothetas, dynamic_aperture.
  destruct (sort2 _ _) as [lo hi]. cbn [rbind]. destruct (fst _); done.
Qed.
Print Assumptions C101_plane.
Print Assumptions C101_polar.
Print Assumptions C101_centred.
Print Assumptions C101_ellipse.
Print Assumptions C101_finding_high.
Print Assumptions C101_finding_auto_never.

(** * Cases *)
(** radii 5 and 4: the ellipse is wider than high, so there are angles *)
Example C101_case : (exists pts, ellipse_R 5 4 5 4 9 = Some pts /\ length pts = 9%nat) /\ ellipse_R 4 5 4 5 9 = None.
Proof.
  split; [|apply C101_finding_high; lra]. destruct (C101_ellipse 5 4 5 4 9) as (pts&lam&E&L&_); [lra|]. by exists pts.
Qed.
(** the point (0, -2) is at radius 2 and angle -PI/2; seen from (0, 1) the point at radius 3 on the vertical axis is 2 away *)
Example C101_polar_case : to_polar 0 (-2) = (2, - (PI / 2)) /\ centred angle_of 0 1 3 (PI / 2) = (2, PI / 2).
Proof.
  pose proof PI_RGT_0 as HP. split.
  - pose proof (C101_polar 2 (- (PI / 2))) as H. cbv zeta in H. unfold pol2cart in H. cbn [ncos nsin TrigR fst snd] in H. revert H. num_R.
    rewrite cos_neg, sin_neg, cos_PI2, sin_PI2. rewrite Rmult_0_r. replace (2 * - (1)) with (-2) by ring. intros H. apply H; lra.
  - pose proof (C101_polar 2 (PI / 2)) as H. cbv zeta in H. unfold centred, pol2cart in *. cbn [ncos nsin TrigR fst snd] in *. revert H. num_R.
    rewrite cos_PI2, sin_PI2. rewrite !Rmult_0_r, !Rmult_1_r, Rminus_0_r. replace (3 - 1) with 2 by ring. intros H. apply H; lra.
Qed.
