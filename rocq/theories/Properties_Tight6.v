(** Further theorems on property C38 (core/beam.py), found necessary by testing against wrong programs: the errors of the readings, and
    the readings taken together with the tracking through all elements. *)
From Coq Require Import Reals Lra Lia QArith Sorting.Sorted.
From stdpp Require Import base gmap strings list.
From Verif Require Import Num Base Model_Arr Model_SC Model_Err Model_Beam Lemmas Proofs_Reg Proofs_Field Properties_Random Properties_Errors Properties_Field Properties_Model Proofs_Beam Proofs_Mat Spec Examples Properties_Beam Properties_Beam2.
Local Open Scope string_scope.
Local Open Scope list_scope.
Local Open Scope R_scope.

(** * Errors of the readings *)
(** root mean square deviation of the positions from [m], weighted with the sum signals; [m] the mean, if any *)
Definition spread (l : list (option R * option R)) (m : option R) (e : option R) : Prop :=
  match e with
  | None => m = None \/ exists p, p ∈ l /\ p.1 = None
  | Some v => (forall p, p ∈ l -> p.1 <> None) /\ exists x, m = Some x /\ charge l <> 0 /\
      v = R_sqrt.sqrt (foldr (fun p acc => (p.1 - x) * (p.1 - x) * p.2 + acc) 0 (used l) / charge l)
  end.
Lemma err_pos_spread plane (cs : list (cell R)) m e : err_pos plane cs m = Ok e -> spread (map (fun c => (c_pos plane c, c_sum c)) cs) m e.
Proof.
  unfold err_pos. destruct (forallb _ cs) eqn:Ea.
  - destruct m as [m|]; [|intros [= <-]; by left]. set (l := map _ cs). destruct (neqb _ n0) eqn:Ez; [done|]. intros [= <-]. cbn.
    assert (forall c, c ∈ cs -> c_pos plane c <> None) as Hall.
    { intros c Hc. rewrite forallb_forall in Ea. specialize (Ea c). rewrite <- elem_of_list_In in Ea. specialize (Ea Hc). by destruct (c_pos plane c). }
    split. { intros p Hp. apply elem_of_list_fmap in Hp as (c&->&Hc). cbn. by apply Hall. }
    exists m. split; [done|]. rewrite wsum_charge in Ez. change (neqb ?a n0) with (Reqb a 0) in Ez. apply Reqb_false in Ez.
    assert (forall f g, (forall c, c ∈ cs -> (f c : option R) <> None) -> (forall c, c ∈ cs -> (g c : option R) <> None) ->
      charge (map (fun c => (f c, c_sum c)) cs) = charge (map (fun c => (g c, c_sum c)) cs)) as HC.
    { clear. intros f g Hf Hg. unfold charge, used. induction cs as [|c cs IH]; [done|]. cbn.
      specialize (IH ltac:(intros x Hx; apply Hf; by right) ltac:(intros x Hx; apply Hg; by right)). pose proof (Hf c ltac:(left)). pose proof (Hg c ltac:(left)).
      destruct (f c), (g c), (c_sum c); try done. cbn. by rewrite IH. }
    assert (charge l = charge (map (fun c => (c_pos plane c, c_sum c)) cs)) as E.
    { apply HC; [|done]. intros c Hc. specialize (Hall c Hc). by destruct (c_pos plane c). }
    split; [by rewrite <- E|]. rewrite wsum_charge, weighted_used, E. change nsqrt with R_sqrt.sqrt. f_equal. change ndiv with Rdiv. f_equal. subst l. clear. induction cs as [|c cs IH]; [done|].
    cbn. destruct (c_pos plane c) as [x|], (c_sum c) as [q|]; cbn; try exact IH. f_equal. exact IH.
  - intros [= <-]. right. assert (exists c, c ∈ cs /\ c_pos plane c = None) as (c&Hc&E).
    { clear -Ea. induction cs as [|c cs IH]; [done|]. cbn in Ea. destruct (c_pos plane c) eqn:E; [|exists c; split; [left|done]]. destruct (IH Ea) as (d&?&?). exists d. split; [by right|done]. }
    eexists. split; [apply elem_of_list_fmap; exists c; split; [reflexivity|done]|]. done.
Qed.
Lemma concat_rows {A} (f : nat -> nat -> res A) nb nt (rows : list (list A)) : rmap (fun t => rmap (fun b => f b t) (seq 0 nb)) (seq 0 nt) = Ok rows ->
  length (concat rows) = (nt * nb)%nat /\ forall b t, (b < nb)%nat -> (t < nt)%nat -> exists e, concat rows !! (t * nb + b)%nat = Some e /\ f b t = Ok e.
Proof.
  intros H. apply rmap_ok in H.
  assert (forall k n rs, Forall2 (fun t row => rmap (fun b => f b t) (seq 0 nb) = Ok row) (seq k n) rs ->
    length (concat rs) = (n * nb)%nat /\ forall b t, (b < nb)%nat -> (t < n)%nat -> exists e, concat rs !! (t * nb + b)%nat = Some e /\ f b (k + t)%nat = Ok e) as HA; [|exact (HA 0%nat nt rows H)].
  clear. intros k n. revert k. induction n as [|n IH]; intros k rs HF; inversion HF as [|? row ? rs' Hr HF']; subst; cbn [concat]; [split; [done|lia]|].
  apply rmap_ok in Hr. pose proof (Forall2_length _ _ _ Hr) as HL. rewrite seq_length in HL. apply IH in HF' as [HL' HE]. split; [rewrite app_length, HL'; lia|].
  intros b t Hb Ht. destruct t as [|t].
  - cbn. destruct (Forall2_lookup_l _ _ _ b b Hr) as (e&He&Hf); [by rewrite lookup_seq_lt|]. exists e. split; [by apply lookup_app_l_Some|]. by rewrite Nat.add_0_r.
  - destruct (HE b t Hb ltac:(lia)) as (e&He&Hf). exists e. rewrite Nat.add_succ_r. split; [|done]. rewrite lookup_app_r by nia. rewrite <- He. f_equal. nia.
Qed.
(** Asked for in turn-by-turn mode, the error of every reading is the spread of the shots about their mean, weighted with the sum
    signals; one shot without reading and there is no error, although the mean leaves such shots out. *)
Theorem C38_errors (w : world R) req (s s' : sc R) r ords : trackMode (INJ s) = "TBT" ->
  match req with None => ords = oBPM (ORD s) | Some l => only_registered (oBPM (ORD s)) l = Ok ords end ->
  bpm_reading w req true s = (Ok r, s') ->
  exists ex ey, r_err r = Some (ex, ey) /\ length ex = (nTurns (INJ s) * length ords)%nat /\ length ey = (nTurns (INJ s) * length ords)%nat /\
  forall b t, (b < length ords)%nat -> (t < nTurns (INJ s))%nat -> exists cells : list (cell R),
    length cells = nShots (INJ s) /\
    Forall (fun c => exists s1, s1 = set_RNG (RNG s1) s /\ shot_cell w s1 ords b t c) cells /\
    exists x y vx vy, r_x r !! (t * length ords + b)%nat = Some x /\ charge_mean (map (fun c => (c_x c, c_sum c)) cells) x /\
      ex !! (t * length ords + b)%nat = Some vx /\ spread (map (fun c => (c_x c, c_sum c)) cells) x vx /\
      r_y r !! (t * length ords + b)%nat = Some y /\ charge_mean (map (fun c => (c_y c, c_sum c)) cells) y /\
      ey !! (t * length ords + b)%nat = Some vy /\ spread (map (fun c => (c_y c, c_sum c)) cells) y vy.
Proof.
  intros Hm Ho H. unfold bpm_reading in H. apply bind_ok in H as (s0&s1&H0&H). apply get_ok in H0 as [-> ->].
  apply bind_ok in H as (ords'&s2&H1&H). apply lift_ok in H1 as [H1 ->].
  assert (ords' = ords) as -> by (destruct req; [congruence|by subst; injection H1]).
  apply bind_ok in H as (shots&s2&H2&H). apply bind_ok in H as (sums&s3&H3&H). apply lift_ok in H3 as [H3 ->].
  rewrite decide_False in H by (by rewrite Hm). rewrite bool_decide_eq_true_2 in H by done. cbn [andb] in H.
  apply bind_ok in H as (ex&s4&Hx&H). apply lift_ok in Hx as [Hx ->]. apply bind_ok in H as (ey&s5&Hy&H). apply lift_ok in Hy as [Hy ->]. apply ret_ok in H as [<- _]. cbn [r_err r_x r_y].
  apply (concat_rows (fun b t => err_pos 0 (cell_of shots b t) (mean_pos 0 (cell_of shots b t)))) in Hx as [Lx Ex].
  apply (concat_rows (fun b t => err_pos 1 (cell_of shots b t) (mean_pos 1 (cell_of shots b t)))) in Hy as [Ly Ey].
  exists (concat ex), (concat ey). split; [done|]. split; [done|]. split; [done|]. intros b t Hb Ht.
  destruct (shots_cells w ords _ s shots s2 _ b t eq_refl H2 Hb Ht) as [HLc HFc]. exists (cell_of shots b t). split; [done|]. split; [done|].
  destruct (Ex b t Hb Ht) as (vx&Hvx&Evx). destruct (Ey b t Hb Ht) as (vy&Hvy&Evy). rewrite !arrival_lookup by done.
  exists (mean_pos 0 (cell_of shots b t)), (mean_pos 1 (cell_of shots b t)), vx, vy. split; [done|]. split; [apply ma_average_mean|]. split; [done|]. split; [by apply err_pos_spread in Evx|].
  split; [done|]. split; [apply ma_average_mean|]. split; [done|]. by apply err_pos_spread in Evy.
Qed.
(** A single shot has the error zero, not an unknown one; the error is the spread of the shots and does not shrink with their number:
    repeating all shots [k] times gives the same error. *)
Theorem C38_single_shot l m v x q : l = [(Some x, Some q)] -> charge_mean l m -> spread l m (Some v) -> v = 0.
Proof.
  intros -> Hm (_&y&->&Hc&->). unfold charge_mean, charge in *. cbn in *. destruct Hm as [[_ Hm]|(_&_&z&[= <-]&E)]; [done|]. assert (y = x) as -> by (apply (Rmult_eq_reg_r (q + 0)); lra).
  replace ((x - x) * (x - x) * q + 0) with 0 by ring. unfold Rdiv. rewrite Rmult_0_l. apply sqrt_0.
Qed.
Lemma used_app l l' : used (l ++ l') = used l ++ used l'.
Proof. unfold used. by rewrite omap_app. Qed.
Lemma foldr_sum_app {A} (f : A -> R) l l' : foldr (fun p acc => f p + acc) 0 (l ++ l') = foldr (fun p acc => f p + acc) 0 l + foldr (fun p acc => f p + acc) 0 l'.
Proof. induction l as [|a l IH]; cbn; [lra|]. rewrite IH. lra. Qed.
Lemma foldr_sum_repeat {A} (f : A -> R) l k (g : list A) : g = concat (replicate k l) -> foldr (fun p acc => f p + acc) 0 g = INR k * foldr (fun p acc => f p + acc) 0 l.
Proof.
  intros ->. induction k as [|k IH]; [cbn; lra|]. change (concat (replicate (S k) l)) with (l ++ concat (replicate k l)). rewrite foldr_sum_app, IH, S_INR. lra.
Qed.
Lemma used_repeat l k : used (concat (replicate k l)) = concat (replicate k (used l)).
Proof. induction k as [|k IH]; [done|]. change (concat (replicate (S k) l)) with (l ++ concat (replicate k l)). rewrite used_app, IH. done. Qed.
Theorem C38_finding_error_not_of_mean l k m v : (0 < k)%nat -> spread l m (Some v) -> spread (concat (replicate k l)) m (Some v).
Proof.
  intros Hk (Ha&x&->&Hc&->). assert (INR k <> 0) as Hn by (apply not_0_INR; lia). split.
  - intros p Hp. apply Ha. clear -Hp. induction k as [|k IH]; [by apply elem_of_nil in Hp|]. change (concat (replicate (S k) l)) with (l ++ concat (replicate k l)) in Hp. apply elem_of_app in Hp as [Hp|Hp]; auto.
  - exists x. split; [done|]. unfold charge in *. rewrite used_repeat. rewrite (foldr_sum_repeat (fun p : R * R => p.2) (used l) k _ eq_refl), (foldr_sum_repeat (fun p : R * R => (p.1 - x) * (p.1 - x) * p.2) (used l) k _ eq_refl). split; [by apply Rmult_integral_contrapositive|]. f_equal.
    set (a := foldr _ 0 _). set (b := foldr _ 0 _) in *. field. done.
Qed.

(** * Readings with the tracking through all elements *)
(** average of the numbers in the list, [None] if there are none *)
Definition plain_mean (l : list (option R)) (m : option R) : Prop := match m with Some x => average_of l x | None => numbers l [] end.
(** one BPM and turn of a shot tracked through all elements: the beam is the one at the entrance of the BPM's own element *)
Definition element_cell (w : world R) (s : sc R) (b t : nat) (c : cell R) : Prop :=
  exists o e t' xs ys dx dy ds, oBPM (ORD s) !! b = Some o /\ RING s !! o = Some e /\
    (t' = t \/ trackMode (INJ s) = "ORB" /\ t' = 0%nat) /\
    beam_at w s (seq 0 (S (length (RING s)))) o t' xs ys /\ Rabs dx <= 2 /\ Rabs dy <= 2 /\ Rabs ds <= 2 /\
    forall st, bpm_state (noise_of s) e st -> documented (beamLostAt (INJ s)) st xs ys dx dy ds (c_x c) (c_y c) (c_sum c).
Lemma element_shot (w : world R) (s s' : sc R) rows tk : all_elements_shot w s = (Ok (rows, tk), s') ->
  length rows = length (oBPM (ORD s)) /\ (forall b row, rows !! b = Some row -> length row = nTurns (INJ s)) /\
  forall b t row c, rows !! b = Some row -> row !! t = Some c -> element_cell w s b t c.
Proof.
  intros H. unfold all_elements_shot in H. apply bind_ok in H as (s0&s1&H0&H). apply get_ok in H0 as [-> ->].
  apply bind_ok in H as (tk'&s1&H1&H). apply bind_ok in H as (raw&s2&H2&H). apply bind_ok in H as (rows'&s3&H3&H). apply lift_ok in H3 as [H3 ->]. apply ret_ok in H as [[= -> ->] ->].
  assert (length rows = length (oBPM (ORD s))) as HL.
  { apply rmap_ok in H3. apply Forall2_length in H3 as HL1. rewrite <- HL1. unfold real_bpm_reading in H2.
    apply bind_ok in H2 as (s0&s3&H0&H2). apply get_ok in H0 as [-> ->].
    apply bind_ok in H2 as (bs&s3&H4&H2). apply lift_ok in H4 as [H4 ->]. apply rmap_ok in H4. apply Forall2_length in H4.
    apply bind_ok in H2 as (dn&s4&_&H2). apply bind_ok in H2 as (ds&s5&_&H2). apply lift_ok in H2 as [H2 ->].
    apply rmap_ok in H2. apply Forall2_length in H2. rewrite <- H2, zip_with_length, seq_length. lia. }
  split; [done|].
  assert (forall b row, rows !! b = Some row -> length row = nTurns (INJ s)) as HLrow.
  { intros b row Hb. pose proof (rmap_lookup _ _ _ _ _ H3 Hb) as (r0&_&Hf). apply fit_ok in Hf as [[-> HL0]|(c&_&->)]; [done|]. apply replicate_length. }
  split; [done|].
  intros b t row c Hb Ht. assert (t < nTurns (INJ s))%nat as Htn by (rewrite <- (HLrow _ _ Hb); by eapply lookup_lt_Some). pose proof (rmap_lookup _ _ _ _ _ H3 Hb) as (raw_row&Hraw&Hf).
  pose proof (pres_run quiet _ _ _ _ (quiet_tracking w _) H1) as Q. apply quiet_same in Q as (QR&_&QI&_&_).
  assert (exists t', raw_row !! t' = Some c /\ (t' = t /\ length raw_row = nTurns (INJ s) \/ length raw_row = 1%nat /\ t' = 0%nat)) as (t'&Ht'&Hcase).
  { apply fit_ok in Hf as [[-> HL0]|(c0&->&->)]; [eauto|]. apply lookup_replicate in Ht as [<- _]. exists 0%nat. auto. }
  pose proof (real_cells w _ _ _ _ _ _ _ _ _ H2 Hraw Ht') as (Hlt&HLr&_&o&e&dx&dy&ds&Ho&He&B1&B2&B3&Hdoc).
  cbn [select_refs t_parts t_turns t_pos] in Hlt, HLr, Hdoc. rewrite Ho in Hdoc.
  exists o, e, t'. eexists _, _, dx, dy, ds. rewrite QR in He. rewrite QI in Hdoc. unfold noise_of in *. rewrite QI in Hdoc.
  split; [exact Ho|]. split; [exact He|].
  unfold tracking in H1. apply bind_ok in H1 as (s0&s3&H0&H1). apply get_ok in H0 as [-> ->].
  unfold beam_at. destruct (decide (trackMode (INJ s) = "ORB")) as [Hm|Hm].
  - apply ret_ok in H1 as [<- ->]. simpl in Hlt, HLr.
    split; [right; split; [done|lia]|]. split; [|split; [exact B1|]; split; [exact B2|]; split; [exact B3|exact Hdoc]].
    split; [lia|]. cbn [t_parts t_pos]. split; done.
  - apply bind_ok in H1 as (Z&s4&HZ&H1). apply ret_ok in H1 as [<- ->]. cbn [t_parts t_turns t_pos] in Hlt, HLr, Hdoc.
    split; [left; destruct Hcase as [[-> _]|[E1 ->]]; [done|lia]|]. split; [|split; [exact B1|]; split; [exact B2|]; split; [exact B3|exact Hdoc]].
    exists Z, s4. split; [exact HZ|]. rewrite !map_length, !seq_length. split; [done|]. split; [done|].
    intros p Hp. rewrite !list_lookup_fmap, !lookup_seq_lt by done. done.
Qed.
Lemma quiet_all_shot (w : world R) : pres (@quiet R) (all_elements_shot w).
Proof. unfold all_elements_shot. repeat first [pres_step|apply quiet_tracking|apply quiet_real]. Qed.
(** The readings are those of all registered BPMs in the order of arrival, averaged over the shots that have one, each shot with the same weight. *)
Theorem C38_all_elements (w : world R) (s s' : sc R) xs ys tks : all_elements_reading w s = (Ok (xs, ys, tks), s') ->
  s' = set_RNG (RNG s') s /\ length tks = nShots (INJ s) /\
  length xs = (nTurns (INJ s) * length (oBPM (ORD s)))%nat /\ length ys = (nTurns (INJ s) * length (oBPM (ORD s)))%nat /\
  forall b t, (b < length (oBPM (ORD s)))%nat -> (t < nTurns (INJ s))%nat -> exists cells : list (cell R), exists x y,
    length cells = nShots (INJ s) /\
    Forall (fun c => exists s1, s1 = set_RNG (RNG s1) s /\ element_cell w s1 b t c) cells /\
    xs !! (t * length (oBPM (ORD s)) + b)%nat = Some x /\ plain_mean (map c_x cells) x /\
    ys !! (t * length (oBPM (ORD s)) + b)%nat = Some y /\ plain_mean (map c_y cells) y.
Proof.
  intros H. split; [exact (pres_run quiet _ _ _ _ (quiet_all_elements w) H)|].
  unfold all_elements_reading in H. apply bind_ok in H as (s0&s1&H0&H). apply get_ok in H0 as [-> ->].
  apply bind_ok in H as (shots&s2&H2&H). apply ret_ok in H as [[= <- <- <-] _].
  set (nb := length (oBPM (ORD s))) in *. set (nt := nTurns (INJ s)) in *.
  apply (mapM_trace quiet) in H2 as [_ HF]; [|intros x; apply quiet_all_shot].
  assert (length shots = nShots (INJ s)) as HLs by (rewrite <- (Forall2_length _ _ _ HF), seq_length; done).
  assert (Forall (fun p => exists sa sb, quiet s sa /\ all_elements_shot w sa = (Ok p, sb)) shots) as HS.
  { clear -HF. induction HF as [|x y l l' Hxy HF IH]; constructor; [|done]. destruct Hxy as (sa&sb&?&?). eauto. }
  assert (Forall (fun rows : list (list (cell R)) => length rows = nb /\ forall b row, rows !! b = Some row -> length row = nt) (map fst shots)) as Hsh.
  { apply Forall_fmap. eapply Forall_impl; [exact HS|]. intros [rows tk] (sa&sb&Q&E). apply quiet_same in Q as (_&_&QI&_&QO). apply element_shot in E as (E1&E2&_).
    rewrite QI in E2. split; [|done]. cbn [fst]. rewrite E1. unfold nb. congruence. }
  rewrite !arrival_length, map_length. split; [done|]. split; [done|]. split; [done|].
  intros b t Hb Ht. rewrite !arrival_lookup by done.
  pose proof (cell_of_all _ b t nb nt Hsh Hb Ht) as HC. exists (cell_of (map fst shots) b t). eexists _, _.
  split; [rewrite <- (Forall2_length _ _ _ HC), map_length; done|]. split; [|split; [reflexivity|]; split; [apply nanmean_spec|]; split; [reflexivity|apply nanmean_spec]].
  clear -HS HC. revert HC. generalize (cell_of (map fst shots) b t). induction HS as [|[rows tk] shots (sa&sb&Q&E) HS IH]; intros cs HC; inversion HC as [|? c ? cs' (row&Hr&Hc) HC']; subst; constructor; [|by apply IH].
  exists sa. split; [exact Q|]. apply element_shot in E as (_&_&E). by eapply E.
Qed.
Print Assumptions C38_errors.
Print Assumptions C38_single_shot.
Print Assumptions C38_finding_error_not_of_mean.
Print Assumptions C38_all_elements.

(** * Case: two shots of one particle, the first with double charge; the root left out, so the squares are shown *)
Local Open Scope Q_scope.
#[local] Instance TrigQ18 : Trig Q := { ncos := fun x => if Qeq_bool x 0 then 1 else 0; nsin := fun _ => 0; nsqrt := fun x => x; npi := 0 }.
Example C38_errors_case :
  fst (bpm_reading ex_world (Some [1%nat]) true (ex_machine (ex_inj (1#2) 1 1 2 "TBT") ex_draws)) = Ok (MkReading [Some (-1)] [Some (4#3)] [3#2] (Some ([Some (9#2)], [Some (2#9)]))) /\
  fst (bpm_reading ex_world (Some [1%nat]) true (ex_machine (ex_inj (1#2) 1 1 1 "TBT") ex_draws)) = Ok (MkReading [Some (1#2)] [Some 1] [2] (Some ([Some 0], [Some 0]))).
Proof. vm_compute. split; reflexivity. Qed.
