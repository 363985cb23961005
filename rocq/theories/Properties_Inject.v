(** C71: fits of the injected trajectory. *)
From Coq Require Import Reals Lra Lia ZArith QArith.
From stdpp Require Import base gmap strings list.
From Verif Require Import Num Base Model_Arr Model_SC Model_Err Lemmas Model_Beam Proofs_Beam Model_Orbit Model_Lattice Model_Scan Model_Bba Model_Inject Properties_Orbit.
Local Open Scope string_scope.
Local Open Scope list_scope.
Local Open Scope R_scope.

(** * Drift *)
(** what is needed of the line fit: through two points it goes through both (it may also fail) *)
Definition through_two (fit : list R -> list (option R) -> res (option R * option R)) : Prop :=
  forall s1 s2 y1 y2 slope zero, s1 <> s2 -> fit [s1; s2] [y1; y2] = Ok (Some slope, Some zero) -> y1 = Some (zero + slope * s1) /\ y2 = Some (zero + slope * s2).
Lemma columns_two a b (l : list (option R)) l' : columns [a; b] l = Ok l' -> exists u v, l !! a = Some u /\ l !! b = Some v /\ l' = [u; v].
Proof.
  intros H. apply rmap_ok in H. inversion H as [|? u ? ? H1 H2]; subst. inversion H2 as [|? v ? ? H3 H4]; subst. inversion H4; subst.
  apply idx_ok in H1, H3. eauto.
Qed.

(** The result is minus the trajectory - position at the start of the lattice and slope - that goes through the reading of the
    last BPM in the first turn, its position counted from the end of the lattice, and through the reading of the first BPM in
    the second turn.  The machine is not changed: in particular the injection is not corrected (finding). *)
Theorem C71_drift w fit (s s' : sc R) d n first last s_first s_last s_end :
  through_two fit -> oBPM (ORD s) !! 0%nat = Some first -> oBPM (ORD s) !! n = Some last -> length (oBPM (ORD s)) = S n ->
  spos (RING s) !! first = Some s_first -> spos (RING s) !! last = Some s_last -> spos (RING s) !! length (RING s) = Some s_end ->
  s_last - s_end <> s_first ->
  fit_injection_drift w fit s = (Ok d, s') ->
  quiet s s' /\ exists r x x' y y', bpm_reading w None false s = (Ok r, s') /\ d = [- x; - x'; - y; - y'; 0; 0] /\
    r_x r !! n = Some (Some (x + x' * (s_last - s_end))) /\ r_x r !! S n = Some (Some (x + x' * s_first)) /\
    r_y r !! n = Some (Some (y + y' * (s_last - s_end))) /\ r_y r !! S n = Some (Some (y + y' * s_first)).
Proof.
  intros F Hf Hl Hn Sf Sl Se Hne H. unfold fit_injection_drift in H. apply bind_ok in H as (s0&t&H1&H). apply get_ok in H1 as [-> ->].
  apply bind_ok in H as (r&s1&H1&H). rewrite Hn in H.
  apply bind_ok in H as (bx&t&H2&H). apply lift_ok in H2 as [H2 ->]. apply bind_ok in H as (bz&t&H3&H). apply lift_ok in H3 as [H3 ->].
  apply bind_ok in H as (a&t&A&H). apply lift_ok in A as [A ->]. apply idx_ok in A. apply bind_ok in H as (b&t&B&H). apply lift_ok in B as [B ->]. apply idx_ok in B.
  apply bind_ok in H as (sl&t&C&H). apply lift_ok in C as [C ->]. apply idx_ok in C. apply bind_ok in H as (se&t&D&H). apply lift_ok in D as [D ->]. apply idx_ok in D.
  apply bind_ok in H as (sf&t&E&H). apply lift_ok in E as [E ->]. apply idx_ok in E. simplify_eq.
  assert (Hlen : length (spos (RING s)) = S (length (RING s))).
  { unfold spos. assert (G : forall (l : list R) a, length (findspos_from a l) = S (length l)) by (induction l; intros; cbn; [done|by rewrite IHl]).
    rewrite G. by rewrite map_length. }
  rewrite Hlen in D. replace (S (length (RING s)) - 1)%nat with (length (RING s)) in D by lia. simplify_eq.
  apply bind_ok in H as (dd&t&K&H). apply lift_ok in K as [K ->]. destruct (no_gaps dd) as [d'|] eqn:Hg; [|done]. apply ret_ok in H as [<- ->]. apply no_gaps_spec in Hg.
  apply columns_two in H2 as (xa&xb&X1&X2&->). apply columns_two in H3 as (ya&yb&Y1&Y2&->).
  unfold fit_bpm_data in K. apply rbind_ok in K as (fx&Fx&K). apply rbind_ok in K as (fy&Fy&K). injection K as K. destruct fx as [px qx], fy as [py qy].
  cbn [fst snd] in K. subst dd.
  destruct qx as [x|]; [|by destruct d']. destruct px as [x'|]; [|by destruct d' as [|? [|]]]. destruct qy as [y|]; [|by destruct d' as [|? [|? [|]]]].
  destruct py as [y'|]; [|by destruct d' as [|? [|? [|? [|]]]]].
  match type of Fx with context [nsub ?a ?b] => change (nsub a b) with (a - b) in * end.
  destruct (F _ _ _ _ _ _ Hne Fx) as [-> ->]. destruct (F _ _ _ _ _ _ Hne Fy) as [-> ->].
  split; [exact (pres_run quiet _ _ _ _ (quiet_reading w None false) H1)|]. exists r, x, x', y, y'.
  split; [done|]. split; [|done]. destruct d' as [|? [|? [|? [|? [|? [|? [|]]]]]]]; try discriminate. by injection Hg as <- <- <- <- <- <-.
Qed.
Print Assumptions C71_drift.

(** Readings on a straight line give minus this line, so adding the result to the injected coordinates would put the beam on axis. *)
Theorem C71_drift_exact w fit (s s' : sc R) d n first last s_first s_last s_end r u u' v v' :
  through_two fit -> oBPM (ORD s) !! 0%nat = Some first -> oBPM (ORD s) !! n = Some last -> length (oBPM (ORD s)) = S n ->
  spos (RING s) !! first = Some s_first -> spos (RING s) !! last = Some s_last -> spos (RING s) !! length (RING s) = Some s_end ->
  s_last - s_end <> s_first ->
  bpm_reading w None false s = (Ok r, s') ->
  r_x r !! n = Some (Some (u + u' * (s_last - s_end))) -> r_x r !! S n = Some (Some (u + u' * s_first)) ->
  r_y r !! n = Some (Some (v + v' * (s_last - s_end))) -> r_y r !! S n = Some (Some (v + v' * s_first)) ->
  fit_injection_drift w fit s = (Ok d, s') -> d = [- u; - u'; - v; - v'; 0; 0].
Proof.
  intros F Hf Hl Hn Sf Sl Se Hne Hr X1 X2 Y1 Y2 H. eapply C71_drift in H as (_&r0&x&x'&y&y'&Hr'&->&A&B&C&D); [|eassumption..].
  rewrite Hr in Hr'. simplify_eq. set (z := s_last - s_end) in *.
  assert (x' = u') as ->. { apply Rmult_eq_reg_r with (z - s_first); lra. }
  assert (y' = v') as ->. { apply Rmult_eq_reg_r with (z - s_first); lra. }
  assert (x = u) as -> by lra. assert (y = v) as -> by lra. done.
Qed.
Print Assumptions C71_drift_exact.

(** A reading of one turn is not enough (IndexError), and neither is one with a gap (RuntimeError, or failure of the line fit). *)
Theorem C71_drift_needs_two_turns w fit (s s1 : sc R) r :
  bpm_reading w None false s = (Ok r, s1) -> length (r_x r) = length (oBPM (ORD s)) -> fit_injection_drift w fit s = (Err IndexError, s1).
Proof.
  intros Hr L. unfold fit_injection_drift. unfold bind at 1, get. cbn beta iota. unfold bind at 1. rewrite Hr. destruct (length (oBPM (ORD s))) as [|m]; [done|].
  unfold bind at 1, lift at 1, columns. cbn [rmap]. unfold idx. destruct (lookup_lt_is_Some_2 (r_x r) m) as [v ->]; [lia|]. cbn [rbind].
  rewrite (lookup_ge_None_2 (r_x r) (S m)) by lia. done.
Qed.
Print Assumptions C71_drift_needs_two_turns.

(** * Trajectory *)
(** The deviations: the horizontal readings minus the horizontal positions of a particle tracked from [x] at the same monitors, then the same in the vertical plane. *)
Definition deviates_by (reading position deviation : option R) : Prop :=
  match reading, position with Some r, Some p => deviation = Some (r - p) | _, _ => deviation = None end.
Theorem C71_deviations w ideal bx bz refs x k :
  let tracked c b := w_track w ideal (map (fun v => [v]) (x ++ [0; 0])) 1 refs c 0%nat b 0%nat in
  (forall r, bx !! k = Some r -> exists d, residuals w ideal bx bz refs x !! k = Some d /\ deviates_by r (tracked 0%nat k) d) /\
  (forall r, bz !! k = Some r -> exists d, residuals w ideal bx bz refs x !! (length bx + k)%nat = Some d /\ deviates_by r (tracked 2%nat k) d) /\
  length (residuals w ideal bx bz refs x) = (length bx + length bz)%nat.
Proof.
  intros tracked. unfold residuals. split; [|split].
  - intros r Hr. rewrite lookup_app_l by (rewrite imap_length; by eapply lookup_lt_Some). rewrite list_lookup_imap, Hr. eexists. split; [reflexivity|].
    subst tracked. unfold deviates_by. cbn. num_R. destruct r; [|done]. cbn. by destruct (w_track _ _ _ _ _ _ _ _ _).
  - intros r Hr. rewrite lookup_app_r by (rewrite imap_length; lia). rewrite imap_length, Nat.add_comm, Nat.add_sub. rewrite list_lookup_imap, Hr. eexists. split; [reflexivity|].
    subst tracked. unfold deviates_by. cbn. num_R. destruct r; [|done]. cbn. by destruct (w_track _ _ _ _ _ _ _ _ _).
  - by rewrite app_length, !imap_length.
Qed.
Print Assumptions C71_deviations.
(** The quantity that is minimised: the magnitude of the average of all deviations of both planes. *)
Theorem C71_merit w ideal bx bz refs x l :
  residuals w ideal bx bz refs x = map Some l -> merit w ideal bx bz refs x = Some (Rabs (avg l)).
Proof.
  intros H. unfold merit. rewrite (proj2 (no_gaps_spec _ _) H). f_equal. rewrite mean_avg. change (R_sqrt.sqrt (avg l * avg l) = Rabs (avg l)).
  change (avg l * avg l) with (Rsqr (avg l)). apply sqrt_Rsqr_abs.
Qed.
(** It is zero whenever the deviations cancel (finding): for any trajectory and deviation [e] at two BPMs, e.g. e at the first and -e at the second. *)
Theorem C71_finding_cancel w ideal bx bz refs x l :
  residuals w ideal bx bz refs x = map Some l -> l <> [] -> (merit w ideal bx bz refs x = Some 0 <-> foldr Rplus 0 l = 0).
Proof.
  intros H Hl. rewrite (C71_merit _ _ _ _ _ _ _ H). assert (0 < INR (length l)) by (apply lt_0_INR; destruct l; cbn; [done|lia]). unfold avg. split.
  - intros E. injection E as E. destruct (Req_dec (foldr Rplus 0 l) 0) as [|N]; [done|]. exfalso. revert E. apply Rabs_no_R0.
    apply Rmult_integral_contrapositive_currified; [done|]. apply Rinv_neq_0_compat. lra.
  - intros ->. f_equal. unfold Rdiv. rewrite Rmult_0_l. apply Rabs_R0.
Qed.
Print Assumptions C71_merit.
Print Assumptions C71_finding_cancel.

Lemma bcast_same (f : R -> R -> R) (a b : list R) : length a = length b -> bcast f a b = Ok (zip_with f a b).
Proof. intros H. unfold bcast. by rewrite H, Nat.eqb_refl. Qed.
(** the machine but for the random stream and the injected coordinates *)
Definition only_Z0 (s s' : sc R) : Prop :=
  RING s' = RING s /\ IDEALRING s' = IDEALRING s /\ SIG s' = SIG s /\ ORD s' = ORD s /\ INJ s' = with_Z0 (Z0 (INJ s')) (INJ s).
(** On success the injected coordinates are changed by the reported amounts: minus the minimiser's result in the transverse
    coordinates, nothing in the others; nothing else changes.  With plotting, the reading shown as "After correction" is taken
    with twice the correction (finding). *)
Theorem C71_trajectory w fmin inds plot (s s' : sc R) d shown :
  length (Z0 (INJ s)) = 6%nat -> fit_injection_trajectory w fmin inds plot s = (Ok (d, shown), s') ->
  only_Z0 s s' /\ Z0 (INJ s') = zip_with Rplus (Z0 (INJ s)) d /\
  (exists r s1 bx bz refs x, bpm_reading w None false s = (Ok r, s1) /\ Forall2 (fun i v => r_x r !! i = Some v) inds bx /\ Forall2 (fun i v => r_y r !! i = Some v) inds bz /\
     Forall2 (fun i o => oBPM (ORD s) !! i = Some o) inds refs /\ length x = 4%nat /\
     fmin (merit w (IDEALRING s) bx bz refs) [0; 0; 0; 0] = Ok (map Some x) /\ d = map Ropp x ++ [0; 0]) /\
  (plot = true -> exists s1 s2 r2 nx ny, shown = Some (nx, ny) /\ only_Z0 s s1 /\ Z0 (INJ s1) = zip_with Rplus (zip_with Rplus (Z0 (INJ s)) d) d /\
     bpm_reading w None false s1 = (Ok r2, s2) /\ Forall2 (fun i v => r_x r2 !! i = Some v) inds nx).
Proof.
  intros Hz H. unfold fit_injection_trajectory in H. apply bind_ok in H as (s0&t&H1&H). apply get_ok in H1 as [-> ->].
  apply bind_ok in H as (r&s1&H1&H). pose proof (pres_run quiet _ _ _ _ (quiet_reading w None false) H1) as Q1.
  apply bind_ok in H as (bx&t&H2&H). apply lift_ok in H2 as [H2 ->]. apply bind_ok in H as (bz&t&H3&H). apply lift_ok in H3 as [H3 ->].
  apply bind_ok in H as (refs&t&H4&H). apply lift_ok in H4 as [H4 ->]. apply bind_ok in H as (x&t&H5&H). apply lift_ok in H5 as [H5 ->].
  destruct (length x =? 4)%nat eqn:Hx; [|done]. apply Nat.eqb_eq in Hx. cbn [negb] in H.
  destruct (no_gaps _) as [d'|] eqn:Hg in H; [|done]. apply no_gaps_spec in Hg.
  assert (Hd : exists x', x = map Some x' /\ length x' = 4%nat /\ d' = map Ropp x' ++ [0; 0]).
  { destruct x as [|[a|] [|[b|] [|[c|] [|[e|] [|]]]]]; cbn in Hx; try lia; cbn in Hg; destruct d' as [|? [|? [|? [|? [|? [|? [|]]]]]]]; try discriminate.
    injection Hg as <- <- <- <- <- <-. by exists [a; b; c; e]. }
  destruct Hd as (x'&->&Lx&Ed). assert (Ld : length d' = 6%nat) by (rewrite Ed, app_length, map_length, Lx; done).
  apply bind_ok in H as (z&t&Hz1&H). apply lift_ok in Hz1 as [Hz1 ->]. rewrite bcast_same in Hz1 by congruence. injection Hz1 as <-.
  destruct (quiet_same _ _ Q1) as (E1&E2&E3&E4&E5).
  apply bind_ok in H as ([]&s2&M1&H). cbv [mod_INJ modify] in M1. injection M1 as <-.
  set (z := zip_with Rplus (Z0 (INJ s)) d') in *. assert (Lz : length z = 6%nat) by (unfold z; rewrite zip_with_length, Hz, Ld; done).
  assert (Main : exists r s1 bx bz refs x, bpm_reading w None false s = (Ok r, s1) /\ Forall2 (fun i v => r_x r !! i = Some v) inds bx /\ Forall2 (fun i v => r_y r !! i = Some v) inds bz /\
     Forall2 (fun i o => oBPM (ORD s) !! i = Some o) inds refs /\ length x = 4%nat /\
     fmin (merit w (IDEALRING s) bx bz refs) [0; 0; 0; 0] = Ok (map Some x) /\ d' = map Ropp x ++ [0; 0]).
  { exists r, s1, bx, bz, refs, x'. split; [done|]. split; [apply rmap_ok in H2; eapply Forall2_impl; [exact H2|]; intros ? ?; apply idx_ok|].
    split; [apply rmap_ok in H3; eapply Forall2_impl; [exact H3|]; intros ? ?; apply idx_ok|].
    split; [apply rmap_ok in H4; eapply Forall2_impl; [exact H4|]; intros ? ?; apply idx_ok|]. done. }
  destruct plot.
  - apply bind_ok in H as (z2&t&Hz2&H). apply lift_ok in Hz2 as [Hz2 ->]. rewrite bcast_same in Hz2 by congruence. injection Hz2 as <-.
    apply bind_ok in H as ([]&s2&M1&H). cbv [mod_INJ modify] in M1. injection M1 as <-. set (z2 := zip_with Rplus z d') in *.
    apply bind_ok in H as (r2&s2&R2&H). pose proof (pres_run quiet _ _ _ _ (quiet_reading w None false) R2) as Q2.
    apply bind_ok in H as (nx&t&N1&H). apply lift_ok in N1 as [N1 ->]. apply bind_ok in H as (ny&t&N2&H). apply lift_ok in N2 as [N2 ->].
    apply bind_ok in H as (z3&t&Hz3&H). apply lift_ok in Hz3 as [Hz3 ->].
    assert (Lz2 : length z2 = 6%nat) by (unfold z2; rewrite zip_with_length, Lz, Ld; done). rewrite bcast_same in Hz3 by congruence. injection Hz3 as <-.
    apply bind_ok in H as ([]&s3&M1&H). cbv [mod_INJ modify] in M1. injection M1 as <-. apply ret_ok in H as [E ->]. injection E as <- <-.
    destruct (quiet_same _ _ Q2) as (F1&F2&F3&F4&F5). cbn in F1, F2, F3, F4, F5.
    split. { unfold only_Z0. cbn. rewrite F1, F2, F4, F5, F3, E1, E2, E3, E4, E5. done. }
    split. { cbn. unfold z2. apply list_eq. intros i. rewrite !lookup_zip_with. unfold z. rewrite !lookup_zip_with.
             destruct (Z0 (INJ s) !! i), (d' !! i); cbn; try done. f_equal. cbn. lra. }
    split; [done|]. intros _. exists (set_INJ (with_Z0 z2 (with_Z0 z (INJ s1))) (set_INJ (with_Z0 z (INJ s1)) s1)), s2, r2, nx, ny.
    split; [done|]. split. { unfold only_Z0. cbn. rewrite E1, E2, E3, E4, E5. done. }
    split; [done|]. split; [exact R2|]. apply rmap_ok in N1. eapply Forall2_impl; [exact N1|]. intros ? ?; apply idx_ok.
  - apply ret_ok in H as [E ->]. injection E as <- <-. split. { unfold only_Z0. cbn. rewrite E1, E2, E3, E4, E5. done. }
    split; [done|]. split; [done|]. done.
Qed.
Print Assumptions C71_trajectory.

(** * Cases *)
Local Open Scope Q_scope.
#[local] Instance TrigQ10 : Trig Q :=
  { ncos := fun _ => 1; nsin := fun _ => 0; nsqrt := fun q => Qred (Z.sqrt (Qnum (Qred q)) # Z.to_pos (Z.sqrt (Zpos (Qden (Qred q))))); npi := 22 # 7 }.
From Verif Require Import Examples Properties_Bba3.
(** two BPMs at 1 and 3 in a lattice of length 4; the beam passes the injection point on a straight line *)
Definition inj_world : world Q :=
  MkWorld (fun _ Z nt _ c p r t =>
      x ← (q ← Z !! c; q !! p); v ← (q ← Z !! S c; q !! p);
      let s := if (r =? 0)%nat then 1 else if (nt =? 1)%nat then 3 else -1 in Some (Qred (x + v * s)))
    (fun _ _ _ _ => None) (fun _ => ([], [])) (fun Z => Z).
Definition inj_machine (turns : nat) : sc Q :=
  let ring := [drift 1; exact_bpm [0; 0]; drift 2; exact_bpm [0; 0]; drift 1] in
  MkSC ring ring (MkInj 1 (zeros 6) [2; 1; 0; -1; 0; 0] (replicate 6 (zeros 6)) (zeros 6) 1 turns 1 "TBT") (SIG ex_sc) (MkOrd [1; 3]%nat [] [] [] [] [] [] [] []) (replicate 200 0).
Definition fit_two (ss : list Q) (ys : list (option Q)) : res (option Q * option Q) :=
  match ss, ys with
  | [s1; s2], [Some y1; Some y2] => let a := Qred ((y2 - y1) / (s2 - s1)) in Ok (Some a, Some (Qred (y1 - a * s1)))
  | _, _ => Ok (None, None)
  end.
Example C71_case : fst (fit_injection_drift inj_world fit_two (inj_machine 2)) = Ok [-2; -1; 0; 1; 0; 0] /\
  fst (fit_injection_drift inj_world fit_two (inj_machine 1)) = Err IndexError.
Proof. vm_compute. done. Qed.
(** a minimiser that knows the answer; the reading shown is that of the opposite trajectory; a trajectory that is wrong in both
    planes but has merit zero *)
Example C71_case_trajectory :
  let run := fit_injection_trajectory inj_world (fun _ _ => Ok [Some 2; Some 1; Some 0; Some (-1)]) [0; 1]%nat true (inj_machine 1) in
  fst run = Ok ([-2; -1; 0; 1; 0; 0], Some ([Some (-3); Some (-5)], [Some 1; Some 3])) /\ Z0 (INJ (snd run)) = zeros 6 /\
  merit inj_world [] [Some 3; Some 5] [Some (-1); Some (-3)] [1; 3]%nat [2; 1; 0; -1] = Some 0 /\
  merit inj_world [] [Some 3; Some 5] [Some (-1); Some (-3)] [1; 3]%nat [3; 1; -1; -1] = Some 0 /\
  merit inj_world [] [Some 3; Some 5] [Some (-1); Some (-3)] [1; 3]%nat [3; 1; 0; -1] = Some (1 # 2).
Proof. vm_compute. done. Qed.
