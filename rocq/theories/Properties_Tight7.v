(** Further theorems on properties C50 (rf.py) and C59 (stats.py), found necessary by testing against wrong programs. *)
From Coq Require Import Reals Lra Lia QArith ZArith.
From stdpp Require Import base gmap strings list.
From Verif Require Import Num Base Model_Arr Model_SC Model_Err Model_Beam Model_Orbit Model_Scan Lemmas Spec Proofs_Beam Properties_Field Properties_Orbit Properties_Rf Model_Stats Properties_Stats.
Local Open Scope string_scope.
Local Open Scope list_scope.
Local Open Scope R_scope.

(** The phase is reported in degrees, from the closed orbit of the machine at its start: the delay in periods, folded with the period
    of a length (finding), so modulo 360 times the wavelength in metres; the energy is that of the injection minus that of the orbit. *)
Theorem C50_reported (w : world R) cavs c (s : sc R) ph en : cavs !! 0%nat = Some c -> phase_and_energy_error w cavs s = Ok (ph, en) ->
  exists f z4 z5, number s c "Frequency" = Some f /\ f <> 0 /\ Z0 (INJ s) !! 4%nat = Some z4 /\ Z0 (INJ s) !! 5%nat = Some z5 /\
    match w_orbit w (RING s) [0%nat] 0%nat 4%nat with None => en = None | Some x => en = Some (z4 - x) end /\
    match w_orbit w (RING s) [0%nat] 0%nat 5%nat with
    | None => ph = None
    | Some x => exists v, ph = Some v /\ let lamb := 299792458 / f in (0 < f -> exists k : Z, v = 360 * ((x - z5) / lamb + IZR k * lamb) /\ - 180 * lamb < v <= 180 * lamb)
    end.
Proof.
  intros Hc H. unfold phase_and_energy_error in H. apply rbind_ok in H as (c'&Hc'&H). apply idx_ok in Hc'. assert (c' = c) as -> by congruence.
  apply rbind_ok in H as (e&He&H). apply idx_ok in He. apply rbind_ok in H as (f&Hf&H). apply attr_num_ok in Hf. apply rbind_ok in H as (lamb&Hl&H). apply qdivR_ok in Hl as [-> Hf0].
  apply rbind_ok in H as (z5&H5&H). apply idx_ok in H5. apply rbind_ok in H as (z4&H4&H). apply idx_ok in H4. injection H as <- <-.
  exists f, z4, z5. split; [unfold number, attr_at; rewrite He; cbn; by rewrite Hf|]. split; [done|]. split; [done|]. split; [done|]. split; [by destruct (w_orbit w (RING s) [0%nat] 0%nat 4%nat)|].
  destruct (w_orbit w (RING s) [0%nat] 0%nat 5%nat) as [x|]; [|done]. eexists. split; [reflexivity|]. cbv zeta. intros Hp.
  change (nofZ SPEED_OF_LIGHT) with 299792458. assert (0 < 299792458 / f) as Hlam by (apply Rdiv_lt_0_compat; lra).
  destruct (C50_folded ((x - z5) / (299792458 / f)) (299792458 / f) Hlam) as [Hb [k Hk]]. exists k.
  change (IZR SPEED_OF_LIGHT) with 299792458. change (IZR (Z.of_nat 360)) with 360.
  rewrite <- Hk. split; [ring|lra].
Qed.

(** * Root mean square *)
(** The square of the result is the weighted mean of the squares, and the result is not negative. *)
Theorem C59_rms (data : list R) errors r : weighted_rms data errors = Ok r -> 0 <= r /\ weighted_mean (map (fun x => x * x) data) errors = Ok (r * r).
Proof.
  unfold weighted_rms. intros H. apply rbind_ok in H as (m&Hm&H). injection H as <-. change nsqrt with R_sqrt.sqrt. split; [apply sqrt_pos|].
  rewrite sqrt_sqrt; [exact Hm|]. 
  assert (Forall (fun x => 0 <= x <= foldr Rmax 0 (map (fun x => x * x) data)) (map (fun x => x * x) data)) as HF.
  { apply Forall_forall. intros y Hy. split; [apply elem_of_list_fmap in Hy as (x&->&_); apply Rle_0_sqr|].
    induction (map (fun x => x * x) data) as [|z l IH]; [by apply elem_of_nil in Hy|]. cbn. apply elem_of_cons in Hy as [->|Hy]; [apply Rmax_l|]. eapply Rle_trans; [by apply IH|apply Rmax_r]. }
  eapply C59_between in HF as [H0 _]; [exact H0|exact Hm].
Qed.
(** It is the size of the data if all have the same, and never below the size of the mean; scaling the data scales it. *)
Lemma rsum_zip_square m (x w : list R) : length x = length w ->
  rsum (zip_with Rmult (map (fun y => (y - m) * (y - m)) x) w) = rsum (zip_with Rmult (map (fun y => y * y) x) w) - 2 * m * rsum (zip_with Rmult x w) + m * m * rsum w.
Proof. revert w. induction x as [|y x IH]; intros [|v w] H; simpl in *; try lia; [lra|]. rewrite IH by lia. lra. Qed.
Lemma rsum_square m (x : list R) : rsum (map (fun y => (y - m) * (y - m)) x) = rsum (map (fun y => y * y) x) - 2 * m * rsum x + m * m * INR (length x).
Proof. induction x as [|y x IH]; [simpl; lra|]. cbn [map length]. rewrite !rsum_cons, IH, S_INR. lra. Qed.
Theorem C59_rms_above_mean (data : list R) errors m r : weighted_mean data errors = Ok m -> weighted_rms data errors = Ok r -> Rabs m <= r.
Proof.
  intros Hm Hr. apply C59_rms in Hr as [Hr Hs]. unfold weighted_mean in *. apply average_ok in Hm, Hs.
  assert (m * m <= r * r) as Hq.
  { destruct (weights_spec errors) as [E|(l&->&Hl&E)]; rewrite E in Hm, Hs.
    - destruct Hm as [Hne Em], Hs as [_ Es]. assert (0 < INR (length data)) as Hp by (destruct data; [done|]; apply lt_0_INR; simpl; lia).
      pose proof (rsum_square m data) as HS. unfold avg in Em, Es. rewrite map_length in Es. fold (rsum data) in Em. fold (rsum (map (fun x => x * x) data)) in Es.
      assert (rsum data = m * INR (length data)) as E1 by (rewrite Em; field; lra). assert (rsum (map (fun x => x * x) data) = r * r * INR (length data)) as E2 by (rewrite Es; field; lra).
      assert (0 <= rsum (map (fun y => (y - m) * (y - m)) data)) as H0. { apply rsum_nonneg, Forall_map, Forall_forall. intros y _. apply Rle_0_sqr. }
      rewrite HS, E1, E2 in H0. nra.
    - destruct Hm as (HL&Hz&Em), Hs as (_&_&Es). set (w := map (fun e => / (e * e)) l) in *. assert (Forall (fun w => 0 < w) w) as Hw by (by apply weights_pos).
      assert (0 < rsum w) as Hp by (apply rsum_pos; [intros Ew; rewrite Ew in Hz; by apply Hz|done]). pose proof (rsum_zip_square m data w (eq_sym HL)) as HS.
      assert (rsum (zip_with Rmult data w) = m * rsum w) as E1 by (rewrite Em; field; lra). assert (rsum (zip_with Rmult (map (fun x => x * x) data) w) = r * r * rsum w) as E2 by (rewrite Es; field; lra).
      assert (0 <= rsum (zip_with Rmult (map (fun y => (y - m) * (y - m)) data) w)) as H0.
      { clear -Hw. clearbody w. revert w Hw. induction data as [|y d IH]; intros [|v w] Hw; cbn; try lra. apply Forall_cons in Hw as [Hv Hw]. specialize (IH w Hw). unfold rsum in IH. pose proof (Rle_0_sqr (y - m)) as Hq. unfold Rsqr in Hq. nra. }
      rewrite HS, E1, E2 in H0. nra. }
  unfold Rabs. destruct (Rcase_abs m); nra.
Qed.
Theorem C59_rms_scale (data : list R) errors c r : weighted_rms data errors = Ok r -> weighted_rms (map (fun x => c * x) data) errors = Ok (Rabs c * r).
Proof.
  intros H. apply C59_rms in H as [Hr Hs]. pose proof (C59_equivariant (map (fun x => x * x) data) errors (c * c) 0) as HE. rewrite Hs in HE. unfold weighted_rms.
  replace (map (fun x => nmul x x) (map (fun x => c * x) data)) with (map (fun x => c * c * x + 0) (map (fun x => x * x) data)) by (rewrite !map_map; apply map_ext; intros x; num_R; ring).
  unfold weighted_mean in HE. rewrite HE. cbn [rbind]. f_equal. change nsqrt with R_sqrt.sqrt. replace (c * c * (r * r) + 0) with (Rsqr (Rabs c * r)).
  - apply sqrt_Rsqr. apply Rmult_le_pos; [apply Rabs_pos|done].
  - unfold Rsqr. replace (Rabs c * r * (Rabs c * r)) with (Rabs c * Rabs c * (r * r)) by ring. rewrite <- Rabs_mult, (Rabs_right (c * c)); [ring|]. apply Rle_ge, Rle_0_sqr.
Qed.
Print Assumptions C50_reported.
Print Assumptions C59_rms.
Print Assumptions C59_rms_above_mean.
Print Assumptions C59_rms_scale.

(** three values of size two with different weights; and the plain rms of 3 and 4 is above their mean *)
Example C59_rms_case : weighted_rms (T:=R) [2; -2; 2] (Some [Some 1; Some 2; Some 4]) = Ok 2 /\ weighted_rms (T:=R) [1; 7] None = Ok 5.
Proof.
  assert (forall d e, weighted_rms (T:=R) d e = (let? m := weighted_mean (map (fun x => x * x) d) e in Ok (R_sqrt.sqrt m))) as E by reflexivity. split.
  - assert (weighted_mean (map (fun x => x * x) [2; -2; 2]) (Some (map Some [1; 2; 4])) = Ok 4) as H.
    { apply C59_balance; [repeat constructor; lra|done|done|]. cbn. field. }
    cbn [map] in H. rewrite E. cbn [map]. rewrite H. cbn. f_equal. replace 4 with (2 * 2) by lra. apply sqrt_square. lra.
  - assert (weighted_mean (map (fun x => x * x) [1; 7]) None = Ok 25) as H by (rewrite C59_plain_mean; [unfold avg; cbn; f_equal; lra|done|by left]).
    cbn [map] in H. rewrite E. cbn [map]. rewrite H. cbn. f_equal. replace 25 with (5 * 5) by lra. apply sqrt_square. lra.
Qed.
