(** C72: ramping up of the errors. *)
From Coq Require Import Reals Lra Lia ZArith QArith.
From stdpp Require Import base gmap strings list.
From Verif Require Import Num Base Model_Arr Model_SC Model_Err Lemmas Spec Model_Beam Proofs_Beam Model_Lattice Model_Ramp Properties_Field Properties_Circ.
Local Open Scope string_scope.
Local Open Scope list_scope.

(** Every call fails and leaves the machine as it is, whatever the machine and the correction (finding): lattice elements have no items. *)
Lemma bind_fails {S A B} (m : M S A) (f : A -> M S B) s : (exists e, m s = (Err e, s)) -> exists e, bind m f s = (Err e, s).
Proof. intros [e H]. exists e. unfold bind. by rewrite H. Qed.
Lemma scale_support_fails (k : R) (s : sc R) : exists e, scale_support errFieldsSup k s = (Err e, s).
Proof.
  unfold scale_support, SUPPORT_TYPES. cbn [forM]. apply bind_fails. unfold bind at 1, get at 1. cbn beta iota.
  unfold support_rows, errFieldsSup. cbn [forM]. do 3 apply bind_fails. unfold bind at 1, get. cbn beta iota.
  unfold bind at 1, lift at 1. destruct (idx _ 0) as [o|e]; [|eauto]. unfold bind at 1, lift at 1. destruct (idx _ o) as [e|e]; [|eauto].
  unfold bind at 1, lift at 1, item. eauto.
Qed.
Theorem C72_finding_never_succeeds (inv : list (list R) -> res (list (list R))) w correct fuel n (s s' : sc R) r :
  ramp_up_errors inv w correct fuel n s = (r, s') -> s' = s /\ exists e, r = Err e.
Proof.
  destruct fuel as [|fuel]; [intros [= <- <-]; eauto|]. cbn [ramp_up_errors]. unfold bind at 1, get at 1. cbn beta iota.
  unfold bind at 1. intros H. destruct (SCgetModelRM _ _ _ _ _ _ _ _ _ _ s) as [q s1] eqn:E.
  assert (s1 = s) as ->.
  { unfold SCgetModelRM in E. unfold bind, get, ret, lift in E. destruct (track_method _ _); by injection E as _ <-. }
  destruct q as [rm|e]; [|injection H as <- <-; eauto]. destruct (n =? 0)%nat eqn:Hn; [injection H as <- <-; eauto|].
  apply Nat.eqb_neq in Hn. destruct n as [|n]; [done|]. unfold ramp_scales in H. cbn [seq map forM] in H. unfold bind at 1 in H.
  unfold ramp_step in H at 1. unfold bind at 1 in H. destruct (scale_support_fails (ndiv (nofnat 1) (nofnat (S n))) s) as [e He]. rewrite He in H.
  injection H as <- <-. eauto.
Qed.
Print Assumptions C72_finding_never_succeeds.
(** With a section on the girder tables the failure is a TypeError: the first thing tried is an item of a lattice element. *)
Theorem C72_finding_type_error (inv : list (list R) -> res (list (list R))) w correct fuel n rm b e l (s : sc R) :
  SCgetModelRM true w (oBPM (ORD s)) (oHCM (ORD s)) (oVCM (ORD s)) (trackMode (INJ s)) (zeros 6) (nTurns (INJ s)) (1 / IZR 100000)%R true s = (Ok rm, s) ->
  oSupport SSection (ORD s) = (b, e) :: l -> (b < length (RING s))%nat ->
  ramp_up_errors inv w correct (S fuel) (S n) s = (Err TypeError, s).
Proof.
  intros Hrm Ho Hb. cbn [ramp_up_errors]. unfold bind at 1, get at 1. cbn beta iota. unfold bind at 1. num_R. rewrite Hrm. cbn [Nat.eqb].
  unfold ramp_scales. cbn [seq map forM]. unfold bind at 1. unfold ramp_step at 1. unfold bind at 1.
  assert (E : forall k, scale_support errFieldsSup k s = (Err TypeError, s)); [|by rewrite E].
  intros k. unfold scale_support, SUPPORT_TYPES. cbn [forM]. unfold bind at 1. unfold bind at 1, get at 1. cbn beta iota. unfold support_rows. rewrite Ho. cbn [map fst forM].
  unfold bind at 1. unfold errFieldsSup. cbn [forM]. unfold bind at 1. unfold bind at 1. unfold bind at 1, get at 1. cbn beta iota. unfold bind at 1, lift at 1. cbn [idx lookup list_lookup].
  unfold bind at 1, lift at 1, idx at 1. apply lookup_lt_is_Some in Hb as [x Hx]. rewrite Hx. done.
Qed.
Print Assumptions C72_finding_type_error.
(** The other steps that look at elements fail as well unless there is nothing to look at; the magnets fail in any case. *)
Theorem C72_finding_steps_fail (inv : list (list R) -> res (list (list R))) (k : R) (s : sc R) :
  (forall s', scale_magnets inv errFieldsMag s <> (Ok tt, s')) /\
  (forall s', scale_bpms errFieldsBPM s = (Ok tt, s') -> oBPM (ORD s) = []) /\
  (forall s', scale_rf errFieldsRF k s = (Ok tt, s') -> oRF (ORD s) = []).
Proof.
  split; [|split].
  - intros s' H. unfold scale_magnets in H. apply bind_ok in H as (?&?&_&H). apply bind_ok in H as ([]&?&_&H). apply bind_ok in H as ([]&?&_&H). discriminate.
  - intros s' H. unfold scale_bpms in H. apply bind_ok in H as (?&?&Hg&H). apply get_ok in Hg as [-> ->]. destruct (oBPM (ORD s)) as [|o l]; [done|].
    unfold scale_fields in H. cbn [forM] in H. apply bind_ok in H as ([]&?&H&_). unfold errFieldsBPM in H. cbn [forM] in H. apply bind_ok in H as ([]&?&H&_).
    apply bind_ok in H as (?&?&_&H). apply bind_ok in H as (?&?&_&H). apply bind_ok in H as (?&?&H&_). discriminate.
  - intros s' H. unfold scale_rf, RF_PROPERTIES in H. cbn [forM] in H. apply bind_ok in H as ([]&?&H&_). unfold errFieldsRF in H. cbn [forM] in H. apply bind_ok in H as ([]&?&H&_).
    apply bind_ok in H as (?&?&Hg&H). apply get_ok in Hg as [-> ->]. destruct (oRF (ORD s)) as [|o l]; [done|]. cbn [forM] in H. apply bind_ok in H as ([]&?&H&_).
    apply bind_ok in H as (?&?&_&H). apply bind_ok in H as (?&?&_&H). discriminate.
Qed.
Print Assumptions C72_finding_steps_fail.

Local Open Scope R_scope.
(** * Scaling of the injection *)
(** the injected coordinates are the design ones plus [k] times the deviations in [i0] *)
Definition deviates (k : R) (i0 i : inj R) : Prop :=
  Z0ideal i = Z0ideal i0 /\ length (Z0 i) = length (Z0 i0) /\
  (forall j z d, Z0 i0 !! j = Some z -> Z0ideal i0 !! j = Some d -> Z0 i !! j = Some (d + k * (z - d))) /\
  randomInjectionZ i = map (Rmult k) (randomInjectionZ i0) /\ beamSize i = map (map (Rmult k)) (beamSize i0).
(** From a copy of the machine: exactly the scaled deviation, jitter and beam size, nothing else changes. *)
Theorem C72_injection k (s0 s s' : sc R) : length (Z0 (INJ s0)) = length (Z0ideal (INJ s0)) -> Z0ideal (INJ s) = Z0ideal (INJ s0) ->
  scale_injection k s0 s = (Ok tt, s') -> deviates k (INJ s0) (INJ s') /\
  RING s' = RING s /\ IDEALRING s' = IDEALRING s /\ SIG s' = SIG s /\ ORD s' = ORD s /\ RNG s' = RNG s /\
  nParticles (INJ s') = nParticles (INJ s) /\ nTurns (INJ s') = nTurns (INJ s) /\ nShots (INJ s') = nShots (INJ s) /\ trackMode (INJ s') = trackMode (INJ s) /\ beamLostAt (INJ s') = beamLostAt (INJ s).
Proof.
  intros HL Hid H. unfold scale_injection in H. apply bind_ok in H as (?&?&Hg&H). apply get_ok in Hg as [-> ->]. apply bind_ok in H as (i&?&Hi&H). apply lift_ok in Hi as [Hi ->].
  cbv [mod_INJ modify] in H. injection H as <-. unfold scaled_injection in Hi. apply rbind_ok in Hi as (d&Hd&Hi). apply rbind_ok in Hi as (z&Hz&Hi). injection Hi as <-.
  unfold bcast in Hd. rewrite HL, Nat.eqb_refl in Hd. injection Hd as <-.
  unfold bcast in Hz. rewrite map_length, zip_with_length, HL, Nat.min_id, Nat.eqb_refl in Hz. injection Hz as <-.
  split; [|done]. unfold deviates. cbn. split; [done|]. split; [rewrite zip_with_length, map_length, zip_with_length; lia|]. split; [|done].
  intros j z d A B. rewrite lookup_zip_with, B. cbn. rewrite list_lookup_fmap, lookup_zip_with, A, B. done.
Qed.
(** As used, with the machine itself in place of the copy: the scales multiply up (finding). *)
Definition ramp_injection (scales : list R) : M (sc R) unit := forM scales (fun k => let! s0 := get in scale_injection k s0).
Theorem C72_finding_scales_multiply scales (s s' : sc R) : length (Z0 (INJ s)) = length (Z0ideal (INJ s)) ->
  ramp_injection scales s = (Ok tt, s') -> deviates (foldr Rmult 1 scales) (INJ s) (INJ s').
Proof.
  unfold ramp_injection. revert s. induction scales as [|k scales IH]; intros s HL H.
  - cbn in H. injection H as <-. unfold deviates. cbn. split; [done|]. split; [done|].
    split; [intros j z d A B; rewrite A; f_equal; lra|]. split; apply list_eq; intros j.
    + rewrite list_lookup_fmap. destruct (_ !! j); cbn; [f_equal; lra|done].
    + rewrite list_lookup_fmap. destruct (_ !! j) as [l|]; cbn; [|done]. f_equal. apply list_eq. intros j'. rewrite list_lookup_fmap. destruct (_ !! j'); cbn; [f_equal; lra|done].
  - cbn [forM] in H. apply bind_ok in H as ([]&s1&H1&H). apply bind_ok in H1 as (?&?&Hg&H1). apply get_ok in Hg as [-> ->].
    apply C72_injection in H1 as ((A1&A2&A3&A4&A5)&_); [|done..]. apply IH in H as (B1&B2&B3&B4&B5); [|by rewrite A2, A1].
    set (p := foldr Rmult 1 scales) in *. unfold deviates. cbn [foldr]. fold p. split; [congruence|]. split; [congruence|].
    split. { intros j z d Hz Hd. rewrite (B3 j (d + k * (z - d)) d); [f_equal; lra|by apply A3|by rewrite A1]. }
    split; [rewrite B4, A4|rewrite B5, A5]; apply list_eq; intros j; rewrite !list_lookup_fmap; destruct (_ !! j) as [l|]; cbn; try done; f_equal; [lra|].
    apply list_eq. intros j'. rewrite !list_lookup_fmap. destruct (_ !! j'); cbn; [f_equal; lra|done].
Qed.
Print Assumptions C72_injection.
Print Assumptions C72_finding_scales_multiply.
(** The ten steps of the default would leave the deviation at less than a thousandth. *)
Corollary C72_finding_ten_steps : foldr Rmult 1 (ramp_scales 10) < / 1000.
Proof. unfold ramp_scales. cbn [seq map foldr]. rewrite !nofnat_R. num_R. cbn [INR]. lra. Qed.
Print Assumptions C72_finding_ten_steps.

(** * Scaling of the circumference *)
Definition ideal_length (s : sc R) : R := total_length (set_RING (IDEALRING s) s).
Lemma lengths_sum (s : sc R) ring d : lengths ring = Ok d -> total_length (set_RING ring s) = d.
Proof.
  revert d. induction ring as [|e l IH] using rev_ind; intros d H.
  - cbn in H. injection H as <-. done.
  - unfold lengths in H. assert (G : forall f (l : list (elem R)) e (a : R), rfold f (l ++ [e]) a = (let? x := rfold f l a in f x e)).
    { clear. intros f l e. induction l as [|x l IH]; intros a; cbn; [by destruct (f a e)|]. destruct (f a x); cbn; [apply IH|done]. }
    rewrite G in H. apply rbind_ok in H as (d0&H0&H). apply rbind_ok in H as (x&Hx&H). injection H as <-. specialize (IH _ H0).
    unfold total_length, positions in *. cbn [RING set_RING] in *. rewrite app_length. cbn [length]. rewrite Nat.add_1_r, seq_S, Nat.add_0_l.
    assert (SA : forall (f : nat -> R) l1 l2, sum_over (l1 ++ l2) f = sum_over l1 f + sum_over l2 f).
    { clear. intros f l1 l2. induction l1 as [|y l IH]; cbn; [lra|]. rewrite IH. lra. }
    rewrite SA. f_equal.
    + rewrite <- IH. apply sum_over_ext. intros i Hi. apply elem_of_seq in Hi. unfold length_at, number, attr_at. cbn [RING set_RING]. by rewrite lookup_app_l by lia.
    + cbn. unfold length_at, number, attr_at. cbn [RING set_RING]. rewrite list_lookup_middle by done. apply attr_num_ok in Hx. cbn. rewrite Hx. cbn. lra.
Qed.
(** The circumference becomes that of the design lattice plus the scaled difference, by changing the drifts alone. *)
Theorem C72_circumference k (s s' : sc R) : length (IDEALRING s) = length (RING s) -> (exists i, drift_at s i) ->
  scale_ring k s s = (Ok tt, s') -> total_length s' = ideal_length s + k * (total_length s - ideal_length s) /\ exists f, only_drifts_scaled f s s'.
Proof.
  intros HL Hd H. unfold scale_ring in H. apply bind_ok in H as (D&?&H1&H). apply lift_ok in H1 as [H1 ->]. apply bind_ok in H as (D0&?&H2&H). apply lift_ok in H2 as [H2 ->].
  rewrite <- HL, take_ge in H2 by done. case_match; [done|]. apply C29_abs in H as [-> Hf]; [|done]. split; [|done].
  unfold ideal_length. rewrite (lengths_sum s _ _ H2). pose proof (lengths_sum s _ _ H1) as E. replace (set_RING (RING s) s) with s in E by (by destruct s). rewrite E. num_R. lra.
Qed.
Print Assumptions C72_circumference.

(** * Case *)
From Verif Require Import Examples.
Local Open Scope Q_scope.
Definition ramp_machine : sc Q :=
  MkSC [drift 3; quad; drift 2] [drift 1; quad; drift 2] (MkInj 1 [1; 0; 0; 0; 0; 0] [5; 2; 0; 0; 0; 0] [[4]] [8; 0; 0; 0; 0; 0] 1 1 1 "TBT") (SIG ex_sc) (MkOrd [] [] [] [] [] [] [(0, 2)]%nat [] []) [].
#[local] Instance TrigQ11 : Trig Q := { ncos := fun _ => 1; nsin := fun _ => 0; nsqrt := fun q => q; npi := 3 }.
Example C72_case :
  let run := (let! s0 := get in scale_injection (1 # 2) s0) ramp_machine in
  fst run = Ok tt /\ Z0 (INJ (snd run)) = [3; 1; 0; 0; 0; 0] /\ randomInjectionZ (INJ (snd run)) = [4; 0; 0; 0; 0; 0] /\ beamSize (INJ (snd run)) = [[2]] /\
  (let run := (let! s0 := get in scale_ring (1 # 2) s0) ramp_machine in fst run = Ok tt /\ map elem_length (RING (snd run)) = [12 # 5; elem_length quad; 8 # 5]) /\
  fst (ramp_up_errors (fun m => Ok m) (MkWorld (fun _ _ _ _ _ _ _ _ => None) (fun _ _ _ _ => None) (fun _ => ([], [])) (fun Z => Z)) (fun _ => ret tt) 5 10 ramp_machine) = Err TypeError.
Proof. vm_compute. done. Qed.
