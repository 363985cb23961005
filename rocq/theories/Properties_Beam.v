(** C37-C40: BPM readings. *)
From Coq Require Import Reals Lra Lia QArith Sorting.Sorted.
From stdpp Require Import base gmap strings list.
From Verif Require Import Num Base Model_Arr Model_SC Model_Err Model_Beam Lemmas Proofs_Reg Proofs_Field Properties_Random Properties_Errors Properties_Field Properties_Model Proofs_Beam Spec Examples.
Local Open Scope string_scope.
Local Open Scope list_scope.
Local Open Scope R_scope.

(** * Specification *)

(** the numbers in a list with gaps, their average, and the fraction of entries that are numbers *)
Inductive numbers : list (option R) -> list R -> Prop :=
| numbers_nil : numbers [] []
| numbers_gap l n : numbers l n -> numbers (None :: l) n
| numbers_num x l n : numbers l n -> numbers (Some x :: l) (x :: n).
Definition average_of (l : list (option R)) (m : R) : Prop :=
  exists n, numbers l n /\ n <> [] /\ m = foldr Rplus 0 n / INR (length n).
Definition fraction_of (l : list (option R)) (f : R) : Prop :=
  exists n, numbers l n /\ l <> [] /\ f = INR (length n) / INR (length l).

(** What the documentation of [bpm_reading] says about one BPM in one turn. The BPM has noise [(nx,ny)], offset
    [(ox,oy)], calibration errors [(cx,cy)], roll [roll] and sum error [se]; [xs], [ys] are the particle positions;
    [dx], [dy], [ds] are random numbers. *)
Record bpm := Bpm { nx : R; ny : R; ox : R; oy : R; cx : R; cy : R; roll : R; se : R }.
Definition documented (lost_at : R) (b : bpm) (xs ys : list (option R)) (dx dy ds : R) (rx ry rs : option R) : Prop :=
  exists f, fraction_of xs f /\
  let tr := f * (1 + se b * ds) in
  (* the sum signal is the transmission, NaN when too small *)
  (tr < 1 - lost_at /\ rs = None /\ rx = None /\ ry = None \/
   1 - lost_at <= tr /\ rs = Some tr /\
   ( (* no number in one of the planes *)
     (numbers xs [] \/ numbers ys []) /\ rx = None /\ ry = None \/
     exists mx my, average_of xs mx /\ average_of ys my /\
       rx = Some ((cos (roll b) * mx - sin (roll b) * my - ox b) * (1 + cx b) + nx b * dx / tr) /\
       ry = Some ((sin (roll b) * mx + cos (roll b) * my - oy b) * (1 + cy b) + ny b * dy / tr))).

(** the state of a BPM, as registered, in the lattice element *)
Definition bpm_state (noise : string) (e : elem R) (b : bpm) : Prop :=
  e !! noise = Some (VVec [nx b; ny b]) /\
  e !! "CalError" = Some (VVec [cx b; cy b]) /\
  (exists o1 o2 s1 s2, e !! "Offset" = Some (VVec [o1; o2]) /\ e !! "SupportOffset" = Some (VVec [s1; s2]) /\ ox b = o1 + s1 /\ oy b = o2 + s2) /\
  (exists r sr, e !! "Roll" = Some (VNum r) /\ e !! "SupportRoll" = Some (VNum sr) /\ roll b = r + sr) /\
  e !! "SumError" = Some (VNum (se b)).

(** where the particle positions come from: the closed orbit, or tracking of a bunch generated in state [s]; a particle
    without horizontal position has no vertical one *)
Definition beam_at (w : world R) (s : sc R) (ords : list nat) (b t : nat) (xs ys : list (option R)) : Prop :=
  if decide (trackMode (INJ s) = "ORB") then
    t = 0%nat /\ xs = [w_orbit w (RING s) ords b 0] /\
    ys = [match w_orbit w (RING s) ords b 0 with None => None | Some _ => w_orbit w (RING s) ords b 2 end]
  else exists Z s', generate_bunches w (nParticles (INJ s)) s = (Ok Z, s') /\
    length xs = length (default [] (Z !! 0%nat)) /\ length ys = length xs /\
    forall p, (p < length xs)%nat ->
      xs !! p = Some (w_track w (RING s) Z (nTurns (INJ s)) ords 0 p b t) /\
      ys !! p = Some (match w_track w (RING s) Z (nTurns (INJ s)) ords 0 p b t with
                      | None => None | Some _ => w_track w (RING s) Z (nTurns (INJ s)) ords 2 p b t end).

(** * Lemmas *)
Lemma numbers_somes l n : numbers l n <-> n = somes l.
Proof.
  split.
  - induction 1 as [|l n H IH|x l n H IH]; [done|exact IH|]. change (somes (Some x :: l)) with (x :: somes l). by rewrite <- IH.
  - intros ->. induction l as [|[x|] l IH]; by constructor.
Qed.
Lemma nanmean_spec l : match nanmean l with Some m => average_of l m | None => numbers l [] end.
Proof.
  unfold nanmean. destruct (somes l) as [|x n] eqn:E; [by apply numbers_somes|].
  exists (x :: n). split; [by apply numbers_somes|]. split; [done|]. unfold mean. rewrite nsum_rsum, nofnat_R. done.
Qed.
Lemma fraction_somes l f : qdiv (nofnat (length (somes l))) (nofnat (length l)) = Ok f -> fraction_of l f.
Proof.
  rewrite !nofnat_R. intros H. apply qdivR_ok in H as [-> Hl]. exists (somes l). split; [by apply numbers_somes|]. split; [|done].
  intros ->. simpl in Hl. lra.
Qed.

Lemma read_cell_documented lost_at (b : bpm) xs ys (dx dy ds : R) c :
  read_cell lost_at (MkBpm [nx b; ny b] [ox b; oy b] [cx b; cy b] (roll b) (se b)) xs ys dx dy ds = Ok c ->
  documented lost_at b xs ys dx dy ds (c_x c) (c_y c) (c_sum c).
Proof.
  intros H. unfold read_cell in H. simpl in H. apply rbind_ok in H as (f&Hf&H). apply fraction_somes in Hf.
  exists f. split; [done|]. simpl.
  change (nmul f (nadd n1 (nmul (se b) ds))) with (f * (1 + se b * ds)) in H. set (tr := f * (1 + se b * ds)) in *.
  change (nltb tr (nsub n1 lost_at)) with (Rltb tr (1 - lost_at)) in H.
  destruct (Rltb tr (1 - lost_at)) eqn:EL.
  - left. apply Rltb_true in EL. simpl in H. injection H as <-. done.
  - right. apply Rltb_false in EL. pose proof (nanmean_spec xs) as Hx. pose proof (nanmean_spec ys) as Hy.
    destruct (nanmean xs) as [mx|]; [|simpl in H; injection H as <-; split; [done|]; split; [done|]; left; simpl; auto].
    destruct (nanmean ys) as [my|]; [|simpl in H; injection H as <-; split; [done|]; split; [done|]; left; simpl; auto].
    cbn in H. apply rbind_ok in H as (rx&Hrx&H). apply rbind_ok in H as (ry&Hry&H). injection H as <-. simpl.
    unfold measured in *. apply rbind_ok in Hrx as (q&Hq&Hrx). apply rbind_ok in Hry as (q'&Hq'&Hry).
    injection Hrx as <-. injection Hry as <-. apply qdivR_ok in Hq as [-> _]. apply qdivR_ok in Hq' as [-> _].
    split; [done|]. split; [done|]. right. exists mx, my. split; [done|]. split; [done|].
    num_R. split; f_equal; ring.
Qed.

Lemma read_bpm_state noise e (b : bpm) be : bpm_state noise e b -> read_bpm noise e = Ok be -> be = MkBpm [nx b; ny b] [ox b; oy b] [cx b; cy b] (roll b) (se b).
Proof.
  intros (H1&H2&(o1&o2&s1&s2&H3&H4&H5&H6)&(r&sr&H7&H8&H9)&H10). unfold read_bpm, attr_vec, attr_num, attr.
  rewrite H1, H2, H3, H4, H7, H8, H10. simpl. intros [= <-]. rewrite H5, H6, H9. done.
Qed.
Lemma rmap_lookup {A B} (f : A -> res B) l l' i y : rmap f l = Ok l' -> l' !! i = Some y -> exists x, l !! i = Some x /\ f x = Ok y.
Proof. intros H Hi. apply rmap_ok in H. eapply Forall2_lookup_r in H as (x&Hx&Hf); [|exact Hi]. eauto. Qed.
Lemma zip_seq_lookup {B} (l : list B) n i p : length l = n -> zip (seq 0 n) l !! i = Some p -> p.1 = i /\ l !! i = Some p.2.
Proof.
  intros HL H. apply lookup_zip_with_Some in H as (a&b&->&Ha&Hb). apply lookup_seq in Ha as [-> _]. done.
Qed.
Lemma pick_bound (l : list R) i c : Forall (fun d => Rabs d <= Rabs c) l -> Rabs (pick l i) <= Rabs c.
Proof.
  intros H. unfold pick. destruct (l !! i) as [d|] eqn:E; simpl; [by eapply Forall_lookup_1 in H|]. change (@n0 R NumR) with 0. rewrite Rabs_R0. apply Rabs_pos.
Qed.

Definition noise_of (s : sc R) : string := if decide (trackMode (INJ s) = "ORB") then "NoiseCO" else "Noise".
(** one BPM and turn of a shot made in state [s] *)
Definition shot_cell (w : world R) (s : sc R) (ords : list nat) (b t : nat) (c : cell R) : Prop :=
  exists o e t' xs ys dx dy ds, ords !! b = Some o /\ RING s !! o = Some e /\
    (t' = t \/ trackMode (INJ s) = "ORB" /\ t' = 0%nat) /\
    beam_at w s ords b t' xs ys /\ Rabs dx <= 2 /\ Rabs dy <= 2 /\ Rabs ds <= 2 /\
    forall st, bpm_state (noise_of s) e st -> documented (beamLostAt (INJ s)) st xs ys dx dy ds (c_x c) (c_y c) (c_sum c).

Lemma abs_two : Rabs (@ntwo R _) = 2.
Proof. change (@ntwo R _) with (1 + 1). rewrite Rabs_right; lra. Qed.

Lemma real_cells (w : world R) tk ords (s s' : sc R) rows b t row c :
  real_bpm_reading tk ords s = (Ok rows, s') -> rows !! b = Some row -> row !! t = Some c ->
  (t < t_turns tk)%nat /\ length row = t_turns tk /\ length rows = length ords /\
  exists o e dx dy ds, ords !! b = Some o /\ RING s !! o = Some e /\ Rabs dx <= 2 /\ Rabs dy <= 2 /\ Rabs ds <= 2 /\
    forall st, bpm_state (noise_of s) e st ->
      documented (beamLostAt (INJ s)) st (map (fun p => t_pos tk 0 p b t) (seq 0 (t_parts tk))) (map (fun p => t_pos tk 1 p b t) (seq 0 (t_parts tk))) dx dy ds (c_x c) (c_y c) (c_sum c).
Proof.
  intros H Hb Ht. unfold real_bpm_reading in H. apply bind_ok in H as (s0&s1&H0&H). apply get_ok in H0 as [-> ->].
  apply bind_ok in H as (bs&s1&H1&H). apply lift_ok in H1 as [H1 ->].
  apply bind_ok in H as (dn&s2&H2&H). apply bind_ok in H as (ds&s3&H3&H). apply lift_ok in H as [H ->].
  apply randnc_bound in H2 as [_ Hdn]. apply randnc_bound in H3 as [_ Hds].
  assert (length bs = length ords) as HLb by (apply rmap_ok in H1; symmetry; by eapply Forall2_length).
  assert (length rows = length ords) as HLr.
  { apply rmap_ok in H. apply Forall2_length in H. rewrite <- H, zip_with_length, seq_length. lia. }
  pose proof (rmap_lookup _ _ _ _ _ H Hb) as (ib&Hib&Hrow). cbv beta in Hrow.
  apply zip_seq_lookup in Hib as [Eib Hbb]; [|done]. rewrite Eib in Hrow.
  assert (length row = t_turns tk) as HLrow.
  { apply rmap_ok in Hrow. apply Forall2_length in Hrow. by rewrite <- Hrow, seq_length. }
  pose proof (rmap_lookup _ _ _ _ _ Hrow Ht) as (t0&Ht0&Hc). apply lookup_seq in Ht0 as [-> Htlt]. simpl in Hc.
  split; [done|]. split; [done|]. split; [done|].
  pose proof (rmap_lookup _ _ _ _ _ H1 Hbb) as (o&Ho&Hread). apply rbind_ok in Hread as (e&He&Hread). apply idx_ok in He.
  exists o, e, (pick dn (b * t_turns tk + t)), (pick dn ((length ords + b) * t_turns tk + t)), (pick ds (b * t_turns tk + t)).
  split; [done|]. split; [done|]. rewrite <- abs_two. repeat (split; [by apply pick_bound|]).
  intros st Hst. apply (read_bpm_state _ _ _ _ Hst) in Hread. rewrite Hread in Hc. by apply read_cell_documented.
Qed.

Lemma fit_ok {T} nt (row row' : list (cell T)) : fit_turns nt row = Ok row' ->
  row' = row /\ length row = nt \/ exists c, row = [c] /\ row' = replicate nt c.
Proof.
  unfold fit_turns. destruct (length row =? nt)%nat eqn:E; [apply Nat.eqb_eq in E; intros [= <-]; auto|].
  destruct row as [|c [|]]; try discriminate. intros [= <-]. right. eauto.
Qed.

(** * C37 *)

(** One shot at the registered BPMs [ords]: nothing but the random stream of the machine changes; there is one row per
    BPM and one column per turn; and every reading is the documented one for the positions of the beam at that BPM
    (in closed-orbit mode the single turn is repeated), the errors of that BPM and random numbers of at most two sigma. *)
Theorem C37_shot (w : world R) ords nt (s s' : sc R) rows :
  nt = nTurns (INJ s) -> one_shot w ords nt s = (Ok rows, s') ->
  s' = set_RNG (RNG s') s /\ length rows = length ords /\
  (forall b row, rows !! b = Some row -> length row = nt) /\
  forall b t row c, rows !! b = Some row -> row !! t = Some c -> shot_cell w s ords b t c.
Proof.
  intros Hnt H. split; [exact (pres_run quiet _ _ _ _ (quiet_one_shot w ords nt) H)|].
  unfold one_shot in H. apply bind_ok in H as (tk&s1&H1&H). apply bind_ok in H as (raw&s2&H2&H). apply lift_ok in H as [H ->].
  assert (length rows = length ords) as HL.
  { apply rmap_ok in H. apply Forall2_length in H as HL1. rewrite <- HL1. unfold real_bpm_reading in H2.
    apply bind_ok in H2 as (s0&s3&H0&H2). apply get_ok in H0 as [-> ->].
    apply bind_ok in H2 as (bs&s3&H3&H2). apply lift_ok in H3 as [H3 ->]. apply rmap_ok in H3. apply Forall2_length in H3.
    apply bind_ok in H2 as (dn&s4&_&H2). apply bind_ok in H2 as (ds&s5&_&H2). apply lift_ok in H2 as [H2 ->].
    apply rmap_ok in H2. apply Forall2_length in H2. rewrite <- H2, zip_with_length, seq_length. lia. }
  split; [done|].
  assert (forall b row, rows !! b = Some row -> length row = nt) as HLrow.
  { intros b row Hb. pose proof (rmap_lookup _ _ _ _ _ H Hb) as (r0&_&Hf). apply fit_ok in Hf as [[-> HL0]|(c&_&->)]; [done|]. apply replicate_length. }
  split; [done|].
  intros b t row c Hb Ht. assert (t < nt)%nat as Htn by (rewrite <- (HLrow _ _ Hb); by eapply lookup_lt_Some). pose proof (rmap_lookup _ _ _ _ _ H Hb) as (raw_row&Hraw&Hf).
  pose proof (pres_run quiet _ _ _ _ (quiet_tracking w ords) H1) as Q. apply quiet_same in Q as (QR&_&QI&_&_).
  assert (exists t', raw_row !! t' = Some c /\ (t' = t /\ length raw_row = nt \/ length raw_row = 1%nat /\ t' = 0%nat)) as (t'&Ht'&Hcase).
  { apply fit_ok in Hf as [[-> HL0]|(c0&->&->)]; [eauto|]. apply lookup_replicate in Ht as [<- _]. exists 0%nat. auto. }
  pose proof (real_cells w _ _ _ _ _ _ _ _ _ H2 Hraw Ht') as (Hlt&HLr&_&o&e&dx&dy&ds&Ho&He&B1&B2&B3&Hdoc).
  exists o, e, t'. eexists _, _, dx, dy, ds. rewrite QR in He. rewrite QI in Hdoc. unfold noise_of in *. rewrite QI in Hdoc.
  split; [exact Ho|]. split; [exact He|].
  unfold tracking in H1. apply bind_ok in H1 as (s0&s3&H0&H1). apply get_ok in H0 as [-> ->].
  unfold beam_at. destruct (decide (trackMode (INJ s) = "ORB")) as [Hm|Hm].
  - apply ret_ok in H1 as [<- ->]. simpl in Hlt, HLr.
    split; [right; split; [done|lia]|]. split; [|split; [exact B1|]; split; [exact B2|]; split; [exact B3|exact Hdoc]].
    split; [lia|]. simpl. split; done.
  - apply bind_ok in H1 as (Z&s4&HZ&H1). apply ret_ok in H1 as [<- ->]. simpl in Hlt, HLr, Hdoc.
    split; [left; destruct Hcase as [[-> _]|[E1 ->]]; [done|lia]|]. split; [|split; [exact B1|]; split; [exact B2|]; split; [exact B3|exact Hdoc]].
    exists Z, s4. split; [exact HZ|]. rewrite !map_length, !seq_length. split; [done|]. split; [done|].
    intros p Hp. rewrite !list_lookup_fmap, !lookup_seq_lt by done. done.
Qed.

(** * C38 *)

(** averages over shots: [l] holds position and sum signal of every shot *)
Definition used (l : list (option R * option R)) : list (R * R) := omap (fun p => match p with (Some x, Some q) => Some (x, q) | _ => None end) l.
Definition charge (l : list (option R * option R)) : R := foldr (fun p acc => p.2 + acc) 0 (used l).
Definition charge_mean (l : list (option R * option R)) (m : option R) : Prop :=
  (used l = [] \/ charge l = 0) /\ m = None \/
  used l <> [] /\ charge l <> 0 /\ exists x, m = Some x /\ x * charge l = foldr (fun p acc => p.1 * p.2 + acc) 0 (used l).

Lemma pairs_used l : pairs l = used l.
Proof. induction l as [|[[x|] [q|]] l IH]; [done| |exact IH..]. change ((x, q) :: pairs l = (x, q) :: used l). by rewrite IH. Qed.
Lemma wsum_charge l : wsum (pairs l) = charge l.
Proof. unfold wsum, charge. rewrite nsum_rsum, pairs_used. induction (used l) as [|p k IH]; [done|]. simpl. by rewrite <- IH. Qed.
Lemma weighted_used l : weighted (pairs l) = foldr (fun p acc => p.1 * p.2 + acc) 0 (used l).
Proof. unfold weighted. rewrite nsum_rsum, pairs_used. induction (used l) as [|p k IH]; [done|]. simpl. by rewrite <- IH. Qed.
Lemma ma_average_mean l : charge_mean l (ma_average l).
Proof.
  unfold ma_average, charge_mean. pose proof (wsum_charge l) as W. pose proof (weighted_used l) as V. rewrite pairs_used in *.
  destruct (used l) as [|p k] eqn:E; [left; auto|]. rewrite W, V. change (neqb (charge l) n0) with (Reqb (charge l) 0).
  destruct (Reqb (charge l) 0) eqn:E0; [apply Reqb_true in E0; left; auto|]. apply Reqb_false in E0. right. split; [done|]. split; [done|].
  eexists. split; [done|]. change ndiv with Rdiv. unfold Rdiv. rewrite Rmult_assoc, Rinv_l by done. ring.
Qed.

(** The average is a number exactly when some shot has a reading, and then lies between the smallest and the largest
    one, provided the sum signals are positive. *)
Theorem C38_between l m :
  (forall x q, (Some x, Some q) ∈ l -> 0 < q) -> charge_mean l m ->
  (m = None <-> forall x q, (x, q) ∈ l -> x = None \/ q = None) /\
  forall v lo hi, m = Some v -> (forall x q, (Some x, Some q) ∈ l -> lo <= x <= hi) -> lo <= v <= hi.
Proof.
  intros Hpos Hm.
  assert (forall p, p ∈ used l <-> (Some p.1, Some p.2) ∈ l) as Hin.
  { intros [x q]. unfold used. rewrite elem_of_list_omap. split.
    - intros ([[a|] [b|]]&Hp&E); try discriminate. injection E as -> ->. done.
    - intros Hp. eexists. split; [exact Hp|done]. }
  assert (used l <> [] -> 0 < charge l) as Hc.
  { unfold charge. assert (forall p, p ∈ used l -> 0 < p.2) as HP by (intros p Hp; apply Hin in Hp; by eapply Hpos).
    destruct (used l) as [|p k]; [done|]. intros _. simpl.
    assert (0 <= foldr (fun p acc => p.2 + acc) 0 k).
    { clear -HP. induction k as [|r k IH]; simpl; [lra|]. assert (0 < r.2) by (apply HP; right; left). assert (forall p0, p0 ∈ p :: k -> 0 < p0.2) as HP'.
      { intros p0 Hp0. apply HP. apply elem_of_cons in Hp0 as [->|]; [left|right; by right]. } specialize (IH HP'). lra. }
    assert (0 < p.2) by (apply HP; left). lra. }
  split.
  - destruct Hm as [[[E|E] ->]|(E&E0&x&->&_)].
    + split; [|done]. intros _ x q Hxq. destruct x as [x|], q as [q|]; auto. exfalso. assert ((x, q) ∈ used l) as HI by (by apply Hin). rewrite E in HI. by apply elem_of_nil in HI.
    + split; [|done]. intros _ x q Hxq. destruct x as [x|], q as [q|]; auto. exfalso. assert ((x, q) ∈ used l) as HI by (by apply Hin).
      assert (used l <> []) as HU by (intros E'; rewrite E' in HI; by apply elem_of_nil in HI). apply Hc in HU. lra.
    + split; [discriminate|]. intros HN. exfalso. apply E. destruct (used l) as [|p k] eqn:EU; [done|]. exfalso. assert (p ∈ p :: k) as HP by left. apply Hin in HP. apply HN in HP as [?|?]; discriminate.
  - intros v lo hi -> Hb. destruct Hm as [[_ ?]|(E&E0&x&[= <-]&HS)]; [discriminate|]. specialize (Hc E).
    assert (lo * charge l <= v * charge l <= hi * charge l) as [B1 B2].
    { rewrite HS. unfold charge. assert (forall p, p ∈ used l -> 0 < p.2 /\ lo <= p.1 <= hi) as HP.
      { intros p Hp. apply Hin in Hp. split; [by eapply Hpos|by eapply Hb]. }
      clear -HP. induction (used l) as [|p k IH]; simpl; [lra|]. destruct (HP p) as [P1 P2]; [left|].
      destruct IH as [I1 I2]; [intros r Hr; apply HP; by right|].
      assert (lo * p.2 <= p.1 * p.2 <= hi * p.2) by (split; apply Rmult_le_compat_r; lra). lra. }
    split; eapply Rmult_le_reg_r; eauto.
Qed.

(** total of the sum signals, lost shots counting zero *)
Definition total (l : list (option R)) : R := foldr (fun q acc => default 0 q + acc) 0 l.
Lemma nansum_total l : nansum l = total l.
Proof. unfold nansum, total. rewrite nsum_rsum. induction l as [|[q|] l IH]; [done|..].
  - change (q + rsum (somes l) = q + total l). by rewrite IH.
  - change (rsum (somes l) = 0 + total l). unfold total in *. rewrite Rplus_0_l. exact IH.
Qed.

Lemma cell_of_all {T} (shots : list (list (list (cell T)))) b t nb nt :
  Forall (fun rows => length rows = nb /\ forall b row, rows !! b = Some row -> length row = nt) shots -> (b < nb)%nat -> (t < nt)%nat ->
  Forall2 (fun rows c => exists row, rows !! b = Some row /\ row !! t = Some c) shots (cell_of shots b t).
Proof.
  intros HF Hb Ht. induction HF as [|rows shots [HL HR] HF IH]; [constructor|]. unfold cell_of in *. simpl.
  destruct (rows !! b) as [row|] eqn:Eb; [|apply lookup_ge_None in Eb; lia]. simpl.
  destruct (row !! t) as [c|] eqn:Et; [|apply lookup_ge_None in Et; rewrite (HR _ _ Eb) in Et; lia]. constructor; [eauto|exact IH].
Qed.

(** Readings over several shots (outside the pseudo-orbit mode): each shot is made in a state that differs from the
    present one in the random stream only.  Entry [t*B+b] of the result belongs to turn [t] of the [b]-th BPM of
    [ords]; position and sum signal are averaged over the shots as specified. *)
Theorem C38_reading (w : world R) req errors (s s' : sc R) r ords :
  trackMode (INJ s) <> "PORB" ->
  match req with None => ords = oBPM (ORD s) | Some l => only_registered (oBPM (ORD s)) l = Ok ords end ->
  bpm_reading w req errors s = (Ok r, s') ->
  s' = set_RNG (RNG s') s /\
  length (r_x r) = (nTurns (INJ s) * length ords)%nat /\ length (r_y r) = (nTurns (INJ s) * length ords)%nat /\ length (r_sum r) = (nTurns (INJ s) * length ords)%nat /\
  forall b t, (b < length ords)%nat -> (t < nTurns (INJ s))%nat -> exists cells : list (cell R),
    length cells = nShots (INJ s) /\
    Forall (fun c => exists s1, s1 = set_RNG (RNG s1) s /\ shot_cell w s1 ords b t c) cells /\
    (exists x y, r_x r !! (t * length ords + b)%nat = Some x /\ charge_mean (map (fun c => (c_x c, c_sum c)) cells) x /\
                 r_y r !! (t * length ords + b)%nat = Some y /\ charge_mean (map (fun c => (c_y c, c_sum c)) cells) y) /\
    r_sum r !! (t * length ords + b)%nat = Some (total (map c_sum cells) / INR (nShots (INJ s))).
Proof.
  intros Hm Ho H. split; [exact (pres_run quiet _ _ _ _ (quiet_reading w req errors) H)|].
  unfold bpm_reading in H. apply bind_ok in H as (s0&s1&H0&H). apply get_ok in H0 as [-> ->].
  apply bind_ok in H as (ords'&s2&H1&H). apply lift_ok in H1 as [H1 ->].
  assert (ords' = ords) as -> by (destruct req; [congruence|by subst; injection H1]).
  apply bind_ok in H as (shots&s2&H2&H). apply bind_ok in H as (sums&s3&H3&H). apply lift_ok in H3 as [H3 ->].
  rewrite decide_False in H by done.
  set (nb := length ords) in *. set (nt := nTurns (INJ s)) in *.
  set (sum := fun b t => default n0 (row ← sums !! b; row !! t)) in *.
  assert (exists err, r = MkReading (arrival nb nt (fun b t => mean_pos 0 (cell_of shots b t))) (arrival nb nt (fun b t => mean_pos 1 (cell_of shots b t))) (arrival nb nt sum) err) as (err&->).
  { destruct (errors && _)%bool.
    - apply bind_ok in H as (ex&s4&_&H). apply bind_ok in H as (ey&s5&_&H). apply ret_ok in H as [<- _]. eexists. reflexivity.
    - apply ret_ok in H as [<- _]. eexists. reflexivity. }
  clear H. simpl. rewrite !arrival_length. split; [done|]. split; [done|]. split; [done|].
  intros b t Hb Ht. rewrite !arrival_lookup by done.
  apply (mapM_trace quiet) in H2 as [_ HF]; [|intros x; apply quiet_one_shot].
  assert (Forall (fun rows => exists sa sb, quiet s sa /\ one_shot w ords nt sa = (Ok rows, sb)) shots) as HS.
  { clear -HF. induction HF as [|x y l l' Hxy HF IH]; constructor; [|done]. destruct Hxy as (sa&sb&?&?). eauto. }
  assert (Forall (fun rows : list (list (cell R)) => length rows = nb /\ forall b row, rows !! b = Some row -> length row = nt) shots) as Hsh.
  { eapply Forall_impl; [exact HS|]. intros rows (sa&sb&Q&E). apply quiet_same in Q as (_&_&QI&_). apply C37_shot in E as (_&?&?&_); [|by rewrite QI]. done. }
  pose proof (cell_of_all shots b t nb nt Hsh Hb Ht) as HC.
  exists (cell_of shots b t). split; [|split; [|split]].
  - rewrite <- (Forall2_length _ _ _ HC). rewrite <- (Forall2_length _ _ _ HF), seq_length. done.
  - clear -HS HC. induction HC as [|rows c shots cs (row&Hr&Hc) HC IH]; [constructor|]. inversion HS as [|? ? (sa&sb&Q&E) HS']; subst. constructor; [|by apply IH].
    exists sa. split; [exact Q|]. apply quiet_same in Q as (_&_&QI&_). apply C37_shot in E as (_&_&_&E); [|by rewrite QI]. by eapply E.
  - exists (mean_pos 0 (cell_of shots b t)), (mean_pos 1 (cell_of shots b t)). unfold mean_pos. split; [done|]. split; [apply ma_average_mean|]. split; [done|]. apply ma_average_mean.
  - f_equal. unfold sum. apply rmap_ok in H3.
    pose proof (Forall2_lookup_l _ _ _ b b H3) as HR. rewrite lookup_seq_lt in HR by done. destruct (HR eq_refl) as (row&Hrow&Hrs). rewrite Hrow. simpl.
    apply rmap_ok in Hrs. pose proof (Forall2_lookup_l _ _ _ t t Hrs) as HT. rewrite lookup_seq_lt in HT by done. destruct (HT eq_refl) as (v&Hv&Hvs). rewrite Hv. simpl.
    unfold mean_sum in Hvs. rewrite nofnat_R, nansum_total in Hvs. by apply qdivR_ok in Hvs as [-> _].
Qed.

(** A reading has a positive sum signal if the loss threshold is below one, and also for the default threshold of one
    if the sum error is below one half; so the hypothesis of [C38_between] holds for the readings of [C38_reading]. *)
Theorem C38_positive lost_at (b : bpm) xs ys (dx dy ds : R) rx ry x q :
  lost_at < 1 \/ lost_at <= 1 /\ Rabs (se b) < 1/2 -> Rabs ds <= 2 ->
  documented lost_at b xs ys dx dy ds rx ry (Some q) -> rx = Some x \/ ry = Some x -> 0 < q.
Proof.
  intros Hl Hds (f&Hf&[(_&?&_)|(H&E&H2)]) Hx; [discriminate|]. injection E as ->. simpl in H. destruct Hl as [Hl|[Hl Hse]]; [lra|].
  destruct H2 as [(_&->&->)|(mx&my&(n&Hn&Hne&_)&_)]; [destruct Hx; discriminate|].
  destruct Hf as (n'&Hn'&_&Ef). apply numbers_somes in Hn, Hn'. subst n n'.
  assert (0 < f).
  { rewrite Ef. assert (0 < length (somes xs))%nat as L1 by (destruct (somes xs); [done|simpl; lia]). assert (length (somes xs) <= length xs)%nat as L2.
    { clear. induction xs as [|[x|] xs IH]; [done| |].
      - change (S (length (somes xs)) <= S (length xs))%nat. lia.
      - change (length (somes xs) <= S (length xs))%nat. lia. }
    apply Rdiv_lt_0_compat; apply lt_0_INR; lia. }
  apply Rmult_lt_0_compat; [done|]. assert (Rabs (se b * ds) < 1) as HA.
  { rewrite Rabs_mult. pose proof (Rabs_pos (se b)). pose proof (Rabs_pos ds). assert (Rabs (se b) * Rabs ds <= Rabs (se b) * 2) by (apply Rmult_le_compat_l; lra). lra. }
  apply Rabs_def2 in HA. lra.
Qed.

(** * C39 *)
(** The flattened output has one place for every pair of turn and BPM, and place [t*B+b] holds the value of BPM [b]
    and turn [t]; so every value appears exactly once. *)
Theorem C39_order {A} (nb nt : nat) (f : nat -> nat -> A) :
  length (arrival nb nt f) = (nt * nb)%nat /\
  (forall b t, (b < nb)%nat -> (t < nt)%nat -> arrival nb nt f !! (t * nb + b)%nat = Some (f b t)) /\
  (forall i, (i < nt * nb)%nat -> exists b t, (b < nb)%nat /\ (t < nt)%nat /\ i = (t * nb + b)%nat /\
     arrival nb nt f !! i = Some (f b t) /\ forall b' t', (b' < nb)%nat -> i = (t' * nb + b')%nat -> b' = b /\ t' = t).
Proof.
  split; [apply arrival_length|]. split; [intros; by apply arrival_lookup|].
  intros i Hi. assert (nb <> 0)%nat as Hn by lia. exists (i mod nb)%nat, (i / nb)%nat.
  pose proof (Nat.mod_upper_bound i nb Hn) as H1. pose proof (Nat.div_mod i nb Hn) as H2.
  assert (i / nb < nt)%nat as H3 by (apply Nat.div_lt_upper_bound; lia).
  assert (i = i / nb * nb + i mod nb)%nat as H4 by lia.
  split; [done|]. split; [done|]. split; [done|]. split; [rewrite H4 at 1; by apply arrival_lookup|].
  intros b' t' Hb' E. rewrite E, Nat.add_comm, Nat.mod_add, Nat.mod_small, Nat.div_add, Nat.div_small by done. lia.
Qed.

(** * C40 *)
(** The selected BPMs are exactly the registered ones that were asked for, in the (increasing) order of the registry. *)
Theorem C40_requested (registered requested : list nat) : StronglySorted lt registered ->
  match only_registered registered requested with
  | Ok l => StronglySorted lt l /\ l <> [] /\ forall o, o ∈ l <-> o ∈ registered /\ o ∈ requested
  | Err e => e = ValueError /\ forall o, o ∈ registered -> o ∉ requested
  end.
Proof.
  intros Hs. unfold only_registered.
  assert (forall o, o ∈ List.filter (fun b => bool_decide (b ∈ requested)) registered <-> o ∈ registered /\ o ∈ requested) as Hin.
  { intros o. rewrite !elem_of_list_In, filter_In, <- !elem_of_list_In. by rewrite bool_decide_eq_true. }
  assert (StronglySorted lt (List.filter (fun b => bool_decide (b ∈ requested)) registered)) as Hf.
  { clear Hin. induction Hs as [|x l H1 IH H2] using StronglySorted_ind; simpl; [constructor|].
    destruct (bool_decide _); [|done]. constructor; [done|]. apply Forall_forall. intros y Hy. rewrite Forall_forall in H2. apply H2.
    apply elem_of_list_In, filter_In in Hy as [Hy _]. by apply elem_of_list_In. }
  destruct (List.filter _ registered) as [|y l]; [|done]. split; [done|]. intros o H1 H2. eapply elem_of_nil. by apply Hin.
Qed.

Print Assumptions C37_shot.
Print Assumptions C38_between.
Print Assumptions C38_reading.
Print Assumptions C38_positive.
Print Assumptions C39_order.
Print Assumptions C40_requested.
