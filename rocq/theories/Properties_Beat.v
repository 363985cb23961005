(** Properties of the beta beat (model_beta_beat of pySC/correction/loco.py): C92. *)
From Coq Require Import Reals Lra Lia ZArith.
From stdpp Require Import base gmap strings list.
From Verif Require Import Num Base Model_Arr Model_SC Lemmas Spec Model_Beam Proofs_Beam Model_Loco Model_LocoDisp Properties_Field Properties_Stats.
Local Open Scope string_scope.
Local Open Scope list_scope.
Local Open Scope R_scope.

(** * Specification *)
(** the relative deviations of the beta functions of a plane ([fst] horizontal, [snd] vertical) from the reference *)
Definition deviations (plane : R * R -> R) (now ref : list (R * R)) : list R := zip_with (fun a b => (plane a - plane b) / plane b) now ref.
(** the root of the mean of the squares *)
Definition rms_of (l : list R) (x : R) : Prop := l <> [] /\ 0 <= x /\ x * x * INR (length l) = rsum (map (fun y => y * y) l).

(** * Proofs *)
Lemma beats_ok plane (now ref : list (R * R)) l : beats plane now ref = Ok l <-> length now = length ref /\ Forall (fun b => plane b <> 0) ref /\ l = deviations plane now ref.
Proof.
  unfold beats, deviations. destruct (Nat.eqb_spec (length now) (length ref)) as [E|E]; [|split; [done|intros [? _]; done]]. rewrite rmap_ok. revert ref l E. induction now as [|a now IH]; intros [|b ref] l E; try done.
  - split; [intros H; inversion H; done|intros (_&_&->); constructor].
  - cbn in E. injection E as E. cbn. split.
    + intros H. inversion H as [|? y ? l' H1 H2]; subst. cbn in H1. destruct (Reqb (plane b) 0) eqn:Eb; [done|]. apply Reqb_false in Eb. injection H1 as <-. apply (IH ref l' E) in H2 as (_&HF&->).
      split; [by rewrite E|]. split; [by constructor|]. f_equal. field. done.
    + intros (_&HF&->). apply Forall_cons in HF as [Hb HF]. constructor.
      * cbn. destruct (Reqb (plane b) 0) eqn:Eb; [by apply Reqb_true in Eb|]. f_equal. field. done.
      * by apply IH.
Qed.
Lemma squares_nonneg (l : list R) : 0 <= rsum (map (fun y => y * y) l).
Proof. apply rsum_nonneg. apply Forall_forall. intros y Hy. apply elem_of_list_fmap in Hy as (z&->&_). nra. Qed.
Lemma rms_ok (l : list R) x : root_mean_square l = Ok x <-> rms_of l x.
Proof.
  unfold root_mean_square, rms_of. destruct l as [|a l]; [split; [done|intros [? _]; done]|]. set (l0 := a :: l). assert (0 < INR (length l0)) as Hn by (apply lt_0_INR; cbn; lia).
  pose proof (squares_nonneg l0) as Hq. unfold qdiv. rewrite nsum_rsum, nofnat_R. num_R. destruct (Reqb (INR (length l0)) 0) eqn:E; [apply Reqb_true in E; lra|]. cbn [rbind]. change nsqrt with R_sqrt.sqrt.
  assert (0 <= rsum (map (fun y => y * y) l0) / INR (length l0)) as Hm by (apply Rmult_le_pos; [done|left; by apply Rinv_0_lt_compat]). split.
  - intros [= <-]. split; [done|]. split; [apply sqrt_pos|]. rewrite sqrt_sqrt by done. unfold Rdiv. rewrite Rmult_assoc, Rinv_l by lra. rewrite Rmult_1_r. reflexivity.
  - intros (_&Hx&H). f_equal. replace (rsum (map (fun y => y * y) l0) / INR (length l0)) with (x * x) by (apply (Rmult_eq_reg_r (INR (length l0))); [|lra]; rewrite H; field; lra). by apply sqrt_square.
Qed.
Lemma rms_zero l x : rms_of l x -> (x = 0 <-> Forall (fun y => y = 0) l).
Proof.
  intros (Hne&Hx&H). assert (0 < INR (length l)) as Hn by (apply lt_0_INR; destruct l; [done|cbn; lia]). split.
  - intros ->. rewrite Rmult_0_l, Rmult_0_l in H. clear -H. induction l as [|y l IH]; [constructor|]. cbn in H. fold (rsum (map (fun y => y * y) l)) in H. pose proof (squares_nonneg l). assert (0 <= y * y) by nra.
    constructor; [|apply IH; lra]. apply Rsqr_eq_0. unfold Rsqr. lra.
  - intros HF. assert (rsum (map (fun y => y * y) l) = 0) as E. { clear -HF. induction HF as [|y l -> _ IH]; [done|]. cbn. fold (rsum (map (fun y => y * y) l)). rewrite IH. lra. }
    rewrite E in H. apply Rmult_integral in H as [H|H]; [|lra]. apply Rsqr_eq_0. exact H.
Qed.
Lemma rms_bound l x d : rms_of l x -> 0 <= d -> Forall (fun y => Rabs y <= d) l -> x <= d.
Proof.
  intros (Hne&Hx&H) Hd HF. assert (0 < INR (length l)) as Hn by (apply lt_0_INR; destruct l; [done|cbn; lia]).
  assert (rsum (map (fun y => y * y) l) <= d * d * INR (length l)) as Hs.
  { clear -HF Hd. induction HF as [|y l Hy _ IH]; [cbn; lra|]. cbn [length map rsum foldr]. fold (rsum (map (fun y => y * y) l)). rewrite S_INR. assert (y * y <= d * d); [|lra].
    assert (y * y = Rabs y * Rabs y) as -> by (unfold Rabs; destruct (Rcase_abs y); lra). pose proof (Rabs_pos y). nra. }
  rewrite <- H in Hs. apply Rmult_le_reg_r in Hs; [|done]. nra.
Qed.
Lemma rms_all l x d : rms_of l x -> Forall (fun y => y = d) l -> x = Rabs d.
Proof.
  intros (Hne&Hx&H) HF. assert (0 < INR (length l)) as Hn by (apply lt_0_INR; destruct l; [done|cbn; lia]).
  assert (rsum (map (fun y => y * y) l) = d * d * INR (length l)) as Hs.
  { clear -HF. induction HF as [|y l -> _ IH]; [cbn; lra|]. cbn [length map rsum foldr]. fold (rsum (map (fun y => y * y) l)). rewrite IH, S_INR. lra. }
  rewrite Hs in H. apply Rmult_eq_reg_r in H; [|lra]. apply Rsqr_inj; [done|apply Rabs_pos|]. unfold Rsqr. rewrite H. unfold Rabs. destruct (Rcase_abs d); lra.
Qed.
Lemma deviations_length plane now ref : length now = length ref -> length (deviations plane now ref) = length ref.
Proof. intros H. unfold deviations. rewrite zip_with_length. lia. Qed.
Lemma Forall_deviations (P : R -> Prop) plane now ref : length now = length ref ->
  (Forall P (deviations plane now ref) <-> forall k a b, now !! k = Some a -> ref !! k = Some b -> P ((plane a - plane b) / plane b)).
Proof.
  intros HL. rewrite Forall_lookup. unfold deviations. split.
  - intros H k a b Ha Hb. apply (H k). by rewrite lookup_zip_with, Ha, Hb.
  - intros H k x Hx. apply lookup_zip_with_Some in Hx as (a&b&->&Ha&Hb). by eapply H.
Qed.

Section Beat.
  Context (optics : list (elem R) -> list nat -> list (R * R)) (ring : list (elem R)) (twiss : list (R * R)) (refs : list nat).
  Notation now := (optics ring refs).
  (** The beta beat is given exactly for as many elements as reference values, at least one, none of them zero; it is the root of the mean
      of the squares of the relative deviations, for each plane. *)
  Theorem C92_beta_beat x y : model_beta_beat optics ring twiss refs = Ok (x, y) <->
    length now = length twiss /\ Forall (fun b => fst b <> 0 /\ snd b <> 0) twiss /\ rms_of (deviations fst now twiss) x /\ rms_of (deviations snd now twiss) y.
  Proof.
    unfold model_beta_beat. split.
    - intros H. apply rbind_ok in H as (bx&H1&H). apply rbind_ok in H as (by'&H2&H). apply rbind_ok in H as (x'&H3&H). apply rbind_ok in H as (y'&H4&H). injection H as <- <-.
      apply beats_ok in H1 as (HL&F1&->). apply beats_ok in H2 as (_&F2&->). apply rms_ok in H3, H4. split; [done|]. split; [|done]. rewrite Forall_forall in *. intros b Hb. split; auto.
    - intros (HL&HF&Hx&Hy). assert (beats fst now twiss = Ok (deviations fst now twiss)) as ->. { apply beats_ok. split; [done|]. split; [|done]. eapply Forall_impl; [exact HF|]. by intros b []. }
      assert (beats snd now twiss = Ok (deviations snd now twiss)) as E2. { apply beats_ok. split; [done|]. split; [|done]. eapply Forall_impl; [exact HF|]. by intros b []. }
      cbn [rbind]. rewrite E2. cbn [rbind]. apply rms_ok in Hx, Hy. rewrite Hx. cbn [rbind]. rewrite Hy. done.
  Qed.
  (** It is zero in a plane exactly if all beta functions in it are those of the reference; if every one is within a fraction [d] of the
      reference, so is the beat; and if all of them are larger by the same fraction, the beat is this fraction. *)
  Theorem C92_beat_size x y (h : bool) : model_beta_beat optics ring twiss refs = Ok (x, y) ->
    let plane := if h then fst else snd in let z := if h then x else y in
    (z = 0 <-> forall k a b, now !! k = Some a -> twiss !! k = Some b -> plane a = plane b) /\
    (forall d, 0 <= d -> (forall k a b, now !! k = Some a -> twiss !! k = Some b -> Rabs (plane a - plane b) <= d * Rabs (plane b)) -> z <= d) /\
    (forall d, (forall k a b, now !! k = Some a -> twiss !! k = Some b -> plane a = (1 + d) * plane b) -> z = Rabs d).
  Proof.
    intros H plane z. apply C92_beta_beat in H as (HL&HF&Hx&Hy). assert (rms_of (deviations plane now twiss) z) as Hz by (unfold plane, z; by destruct h).
    assert (forall b, b ∈ twiss -> plane b <> 0) as Hn. { intros b Hb. rewrite Forall_forall in HF. destruct (HF b Hb). unfold plane. by destruct h. }
    assert (forall k b, twiss !! k = Some b -> plane b <> 0) as Hn' by (intros k b Hb; apply Hn; by eapply elem_of_list_lookup_2). split; [|split].
    - rewrite (rms_zero _ _ Hz), Forall_deviations by done. split; intros H k a b Ha Hb; specialize (H k a b Ha Hb); specialize (Hn' k b Hb).
      + apply Rmult_integral in H as [H|H]; [lra|]. exfalso. by apply (Rinv_neq_0_compat _ Hn').
      + rewrite H. unfold Rdiv. ring.
    - intros d Hd H. apply (rms_bound _ _ _ Hz Hd). apply Forall_deviations; [done|]. intros k a b Ha Hb. specialize (H k a b Ha Hb). specialize (Hn' k b Hb). unfold Rdiv. rewrite Rabs_mult, Rabs_inv.
      apply Rabs_pos_lt in Hn'. apply (Rmult_le_reg_r (Rabs (plane b))); [done|]. rewrite Rmult_assoc, Rinv_l by lra. lra.
    - intros d H. apply (rms_all _ _ _ Hz). apply Forall_deviations; [done|]. intros k a b Ha Hb. rewrite (H k a b Ha Hb). field. by apply (Hn' k).
  Qed.
End Beat.
Print Assumptions C92_beta_beat.
Print Assumptions C92_beat_size.
(** horizontally 3 percent more and 4 percent less; vertically as the reference *)
Definition case_optics (_ : list (elem R)) (refs : list nat) : list (R * R) := match refs with [_; _] => [(103, 5); (192, 7)] | _ => [] end.
Example C92_case : exists x, model_beta_beat case_optics [] [(100, 5); (200, 7)] [0; 3]%nat = Ok (x, 0) /\ x * x = 125 / 100000 /\
  model_beta_beat case_optics [] [(100, 5); (200, 7)] [0]%nat = Err ValueError.
Proof.
  exists (R_sqrt.sqrt (125 / 100000)). split; [|split; [apply sqrt_sqrt; lra|reflexivity]]. apply C92_beta_beat. cbn [case_optics]. split; [done|]. split; [repeat constructor; cbn; lra|].
  split; (split; [done|]; split; [try apply sqrt_pos; lra|]); unfold deviations; cbn [zip_with map length rsum foldr fst snd INR]; [rewrite sqrt_sqrt by lra|]; field.
Qed.
