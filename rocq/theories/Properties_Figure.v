(** C90: the figures of the lattice. *)
From Coq Require Import Reals Lra Lia QArith ZArith.
From stdpp Require Import base gmap strings list.
From Verif Require Import Num Base Model_Arr Model_SC Model_Err Model_Beam Model_Orbit Model_Scan Model_Plot Model_Figure Lemmas Proofs_Reg Proofs_Update Proofs_Loop Spec Proofs_CM Proofs_Field Proofs_Err
  Properties_Random Properties_Field Examples Properties_Errors Properties_Circ Properties_Support Proofs_Interp Properties_Interp Properties_Plot.
Local Open Scope string_scope.
Local Open Scope list_scope.
Local Open Scope R_scope.

(** * Specification *)
(** the numbers of [l] below [e] *)
#[local] Instance Rlt_decision (x y : R) : Decision (x < y) := Rlt_dec x y.
Definition below (e : R) (l : list R) : nat := length (filter (fun x => x < e) l).
(** the least and the greatest of the numbers *)
Definition least (l : list R) (m : R) : Prop := m ∈ l /\ forall x, x ∈ l -> m <= x.
Definition greatest (l : list R) (m : R) : Prop := m ∈ l /\ forall x, x ∈ l -> x <= m.

(** * Cumulative distributions *)
Lemma fold_min_R (l : list R) (x : R) : least (x :: l) (fold_left nmin l x).
Proof.
  revert x. induction l as [|y l IH]; intros x; cbn [fold_left].
  - split; [by constructor|]. intros z Hz. apply elem_of_list_singleton in Hz as ->. lra.
  - destruct (IH (nmin x y)) as [H1 H2]. assert (nmin x y <= x /\ nmin x y <= y /\ (nmin x y = x \/ nmin x y = y)) as (E1&E2&E3).
    { unfold nmin. num_R. destruct (Rltb y x) eqn:E; [apply Rltb_true in E|apply Rltb_false in E]; lra. }
    split.
    + apply elem_of_cons in H1 as [H1|H1]; [rewrite H1; destruct E3 as [-> | ->]; [by constructor|by constructor; constructor]|by do 2 constructor].
    + pose proof (H2 (nmin x y) ltac:(by constructor)) as H3. intros z Hz. apply elem_of_cons in Hz as [-> |Hz]; [lra|]. apply elem_of_cons in Hz as [-> |Hz]; [lra|]. apply H2. by constructor.
Qed.
Lemma fold_max_R (l : list R) (x : R) : greatest (x :: l) (fold_left nmax l x).
Proof.
  revert x. induction l as [|y l IH]; intros x; cbn [fold_left].
  - split; [by constructor|]. intros z Hz. apply elem_of_list_singleton in Hz as ->. lra.
  - destruct (IH (nmax x y)) as [H1 H2]. assert (x <= nmax x y /\ y <= nmax x y /\ (nmax x y = x \/ nmax x y = y)) as (E1&E2&E3).
    { unfold nmax. num_R. destruct (Rltb x y) eqn:E; [apply Rltb_true in E|apply Rltb_false in E]; lra. }
    split.
    + apply elem_of_cons in H1 as [H1|H1]; [rewrite H1; destruct E3 as [-> | ->]; [by constructor|by constructor; constructor]|by do 2 constructor].
    + pose proof (H2 (nmax x y) ltac:(by constructor)) as H3. intros z Hz. apply elem_of_cons in Hz as [-> |Hz]; [lra|]. apply elem_of_cons in Hz as [-> |Hz]; [lra|]. apply H2. by constructor.
Qed.
Definition sum_to (f : nat -> nat) (k : nat) : nat := total (map f (seq 0 k)).
Lemma total_app l l' : total (l ++ l') = (total l + total l')%nat.
Proof. unfold total. induction l as [|x l IH]; cbn [foldr app]; [done|]. rewrite IH. lia. Qed.
Lemma sum_to_S f k : sum_to f (S k) = (sum_to f k + f k)%nat.
Proof. unfold sum_to. rewrite seq_S, map_app, total_app. cbn. lia. Qed.
Lemma below_split (a b : R) (l : list R) (g : R -> bool) : a <= b -> (forall x, x ∈ l -> g x = true <-> a <= x < b) -> (below a l + length (List.filter g l))%nat = below b l.
Proof.
  intros Hab. unfold below. induction l as [|x l IH]; intros H; [done|]. rewrite !filter_cons. cbn [List.filter]. specialize (IH (fun y Hy => H y (elem_of_list_further _ _ _ Hy))).
  pose proof (H x ltac:(constructor)) as Hx. destruct (decide (x < a)), (decide (x < b)), (g x); cbn [length]; try lia; exfalso; (destruct Hx as [Hx1 Hx2]; first [specialize (Hx1 eq_refl); lra|assert (false = true) by (apply Hx2; lra); done|lra]).
Qed.
Lemma below_rest (a : R) (l : list R) (g : R -> bool) : (forall x, x ∈ l -> g x = true <-> a <= x) -> (below a l + length (List.filter g l))%nat = length l.
Proof.
  unfold below. induction l as [|x l IH]; intros H; [done|]. rewrite !filter_cons. cbn [List.filter]. specialize (IH (fun y Hy => H y (elem_of_list_further _ _ _ Hy))).
  pose proof (H x ltac:(constructor)) as Hx. destruct (decide (x < a)), (g x); cbn [length]; try lia; exfalso; (destruct Hx as [Hx1 Hx2]; first [specialize (Hx1 eq_refl); lra|assert (false = true) by (apply Hx2; lra); done]).
Qed.
Lemma below_none (a : R) (l : list R) : (forall x, x ∈ l -> a <= x) -> below a l = 0%nat.
Proof.
  unfold below. induction l as [|x l IH]; intros H; [done|]. rewrite filter_cons. destruct (decide (x < a)) as [Hx|Hx]; [pose proof (H x ltac:(constructor)); lra|]. apply IH. intros y Hy. apply H. by constructor.
Qed.
Definition edge (lo hi : R) (n k : nat) : R := lo + INR k * (hi - lo) / INR n.
Lemma edges_lookup (lo hi : R) n k : (0 < n)%nat -> (k <= n)%nat -> hist_edges lo hi n !! k = Some (edge lo hi n k).
Proof.
  intros Hn Hk. unfold hist_edges. destruct (decide (k < n)%nat) as [H|H].
  - rewrite lookup_app_l by (rewrite map_length, seq_length; lia). rewrite list_lookup_fmap. rewrite lookup_seq_lt by lia. cbn [fmap option_fmap option_map Nat.add]. rewrite !nofnat_R. num_R. done.
  - assert (k = n) as -> by lia. rewrite lookup_app_r by (rewrite map_length, seq_length; lia). rewrite map_length, seq_length, Nat.sub_diag. cbn. f_equal. unfold edge. field. apply not_0_INR. lia.
Qed.
Lemma edge_mono lo hi n k : (0 < n)%nat -> lo <= hi -> edge lo hi n k <= edge lo hi n (S k).
Proof.
  intros Hn H. unfold edge. rewrite S_INR. apply (lt_INR 0) in Hn. cbn in Hn. assert (0 <= (hi - lo) / INR n) by (apply Rmult_le_pos; [lra|]; left; by apply Rinv_0_lt_compat). nra.
Qed.
Lemma bin_in lo hi n k x : (0 < n)%nat -> (k < n)%nat -> in_bin (hist_edges lo hi n) n k x = true <-> edge lo hi n k <= x /\ (if (k =? n - 1)%nat then x <= hi else x < edge lo hi n (S k)).
Proof.
  intros Hn Hk. unfold in_bin. rewrite !edges_lookup by lia. num_R. rewrite andb_true_iff, Rleb_true. destruct (Nat.eqb_spec k (n - 1)) as [E|E].
  - assert (edge lo hi n (S k) = hi) as ->. { unfold edge. replace (S k) with n by lia. field. apply not_0_INR. lia. } by rewrite Rleb_true.
  - by rewrite Rltb_true.
Qed.
Lemma bins_below lo hi (l : list R) k : let n := length l in (0 < n)%nat -> lo <= hi -> (forall x, x ∈ l -> lo <= x <= hi) -> (k <= n)%nat ->
  sum_to (fun k => length (List.filter (in_bin (hist_edges lo hi n) n k) l)) k = if decide (k = n) then n else below (edge lo hi n k) l.
Proof.
  intros n Hn Hle Hin. induction k as [|k IH]; intros Hk.
  - destruct (decide (0%nat = n)) as [|_]; [lia|]. cbn [sum_to]. symmetry. apply below_none. intros x Hx. unfold edge. cbn [INR]. specialize (Hin x Hx). replace (lo + 0 * (hi - lo) / INR n) with lo; [lra|]. unfold Rdiv. ring.
  - rewrite sum_to_S, IH by lia. rewrite decide_False by lia. destruct (decide (S k = n)) as [E|E].
    + apply below_rest. intros x Hx. rewrite bin_in by lia. specialize (Hin x Hx). destruct (Nat.eqb_spec k (n - 1)); [|lia]. tauto.
    + apply below_split; [by apply edge_mono|]. intros x Hx. rewrite bin_in by lia. destruct (Nat.eqb_spec k (n - 1)); [lia|]. done.
Qed.
Lemma cumsum_R (f : nat -> nat) (d : R) n : forall a acc, cumsum acc (map (fun k => INR (f k) / d) (seq a n)) = map (fun k => acc + INR (total (map f (seq a (S k)))) / d) (seq 0 n).
Proof.
  induction n as [|n IH]; intros a acc; [done|]. cbn [seq map cumsum]. num_R. f_equal.
  - cbn [total map seq foldr]. rewrite Nat.add_0_r. done.
  - rewrite IH. rewrite <- seq_shift, map_map. apply map_ext. intros k. cbn [seq map total foldr]. fold (total (map f (seq (S a) k))). rewrite !plus_INR. unfold Rdiv. ring.
Qed.
Lemma combine_maps {A B C} (f : A -> B) (g : A -> C) (l : list A) : combine (map f l) (map g l) = map (fun x => (f x, g x)) l.
Proof. induction l as [|x l IH]; cbn; [done|]. by rewrite IH. Qed.
(** The line of a histogram: its corners lie at equal steps between the least and the greatest number. *)
Definition corners (lo hi : R) (l : list R) (k : nat) : R * R :=
  let e := lo + INR (S k) * (hi - lo) / INR (length l) in (e, if decide (S k = length l) then 1 else INR (below e l) / INR (length l)).
Lemma distribution (l : list R) counts edges fractions : histogram l = Ok (counts, edges) -> rmap (fun c => qdiv (nofnat c : R) (nofnat (total counts))) counts = Ok fractions ->
  exists a b, least l a /\ greatest l b /\ let lo := if Req_EM_T a b then a - / 2 else a in let hi := if Req_EM_T a b then b + / 2 else b in
    combine (tail edges) (cumsum 0 fractions) = map (corners lo hi l) (seq 0 (length l)).
Proof.
  destruct l as [|x l']; [done|]. unfold histogram. set (l := x :: l') in *. set (a := fold_left nmin l' x). set (b := fold_left nmax l' x). set (lo := if neqb a b then _ else a). set (hi := if neqb a b then _ else b).
  intros E Hf. assert (counts = map (fun k => length (List.filter (in_bin (hist_edges lo hi (length l)) (length l) k) l)) (seq 0 (length l)) /\ edges = hist_edges lo hi (length l)) as [-> ->] by (split; congruence). clear E.
  destruct (fold_min_R l' x) as [Ha1 Ha2]. destruct (fold_max_R l' x) as [Hb1 Hb2]. fold l a in Ha1, Ha2. fold l b in Hb1, Hb2.
  exists a, b. split; [done|]. split; [done|]. set (lo' := if Req_EM_T a b then _ else a). set (hi' := if Req_EM_T a b then _ else b).
  assert (lo = lo' /\ hi = hi' /\ lo <= a /\ b <= hi) as (El&Eh&Hlo&Hhi).
  { unfold lo, hi, lo', hi', ntwo. num_R. destruct (Reqb a b) eqn:E; [apply Reqb_true in E|apply Reqb_false in E]; destruct (Req_EM_T a b) as [E'|E']; try done; repeat split; lra. }
  rewrite <- El, <- Eh. clear lo' hi' El Eh. set (n := length l) in *. set (f := fun k => length (List.filter (in_bin (hist_edges lo hi n) n k) l)) in *.
  assert (0 < n)%nat as Hn by (unfold n, l; cbn; lia). pose proof (Ha2 _ Hb1) as Hab.
  assert (forall k, (k <= n)%nat -> sum_to f k = if decide (k = n) then n else below (edge lo hi n k) l) as Hs.
  { intros k Hk. apply bins_below; [done|lra| |done]. intros y Hy. specialize (Ha2 y Hy). specialize (Hb2 y Hy). lra. }
  assert (total (map f (seq 0 n)) = n) as Et. { change (sum_to f n = n). rewrite Hs by done. by rewrite decide_True. }
  assert (fractions = map (fun k => INR (f k) / INR n) (seq 0 n)) as ->.
  { rewrite Et in Hf. apply rmap_ok in Hf. clear -Hf. revert fractions Hf. induction (seq 0 n) as [|k ks IH]; intros fr Hf; cbn [map] in *; inversion Hf as [|? y ? fr' H1 H2]; subst; [done|]. f_equal; [|by apply IH].
    apply qdivR_ok in H1 as [-> _]. by rewrite !nofnat_R. }
  rewrite cumsum_R. assert (tail (hist_edges lo hi n) = map (fun k => edge lo hi n (S k)) (seq 0 n)) as ->.
  { apply list_eq. intros k. destruct (decide (k < n)%nat) as [Hk|Hk].
    - assert (tail (hist_edges lo hi n) !! k = hist_edges lo hi n !! S k) as ->. { unfold hist_edges. destruct (seq 0 n) eqn:Es; [destruct n; [lia|done]|done]. }
      rewrite edges_lookup by lia. rewrite list_lookup_fmap, lookup_seq_lt by lia. done.
    - rewrite (lookup_ge_None_2 _ k), (lookup_ge_None_2 _ k); [done|rewrite map_length, seq_length; lia|]. unfold hist_edges. destruct (seq 0 n) as [|z zs] eqn:Es; [cbn; lia|]. cbn [map app tail]. apply (f_equal length) in Es. rewrite seq_length in Es. cbn [length] in Es. rewrite app_length, map_length. cbn [length]. lia. }
  rewrite combine_maps. apply map_ext_in. intros k Hk. apply in_seq in Hk. unfold corners. fold n. change (lo + INR (S k) * (hi - lo) / INR n) with (edge lo hi n (S k)). f_equal.
  change (total (map f (seq 0 (S k)))) with (sum_to f (S k)). rewrite Hs by lia. assert (INR n <> 0) as H0 by (apply not_0_INR; lia). destruct (decide (S k = n)); [by field|]. rewrite Rplus_0_l. done.
Qed.

Definition planes (s : sc R) (p : nat) : list nat := match p with 0%nat => oHCM (ORD s) | _ => oVCM (ORD s) end.
(** The figure of the correctors: a bar for every corrector of the plane at its place, as high as its kick in microradians; the line has in
    every corner the fraction of the correctors that are weaker, and ends at one. *)
Theorem C90_strengths (s : sc R) fig p : cm_strengths s = Ok fig -> (p < 2)%nat -> exists bars line kicks, fig !! p = Some (bars, line) /\ planes s p <> [] /\
  get_cm_setpoints (planes s p) (p =? 1)%nat s = Ok kicks /\
  bars = combine (map (position s) (planes s p)) (map (Rmult 1000000) kicks) /\
  let l := map (Rmult 1000000) kicks in exists a b, least l a /\ greatest l b /\
  line = map (corners (if Req_EM_T a b then a - / 2 else a) (if Req_EM_T a b then b + / 2 else b) l) (seq 0 (length l)).
Proof.
  intros H Hp. unfold cm_strengths in H. destruct (rmap_lookup_l _ _ _ p p H) as (y&Hy&H1). { rewrite lookup_seq_lt by lia. done. }
  clear H. apply rbind_ok in H1 as (cms&Hc&H1). apply idx_ok in Hc. assert (cms = planes s p) as ->. { destruct p as [|[|p]]; [cbn in Hc |- *; congruence..|lia]. }
  apply rbind_ok in H1 as (kicks&Hk&H1). apply rbind_ok in H1 as ([counts edges]&Hh&H1). apply rbind_ok in H1 as (places&Hpl&H1). apply rbind_ok in H1 as (fr&Hfr&H1). cbn [fst snd] in *.
  assert (map (nmul million) kicks = map (Rmult 1000000) kicks) as E. { apply map_ext. intros x. unfold million. num_R. done. }
  rewrite E in *. destruct (distribution _ _ _ _ Hh Hfr) as (a&b&Ha&Hb&Hl). assert (y = (combine places (map (Rmult 1000000) kicks), combine (tail edges) (cumsum n0 fr))) as -> by congruence. clear H1.
  exists (combine places (map (Rmult 1000000) kicks)), (combine (tail edges) (cumsum n0 fr)), kicks. split; [done|]. split.
  { intros X. rewrite X in Hk. cbn in Hk. assert (kicks = []) as -> by congruence. destruct Ha as [Ha _]. cbn in Ha. by apply elem_of_nil in Ha. }
  split; [done|]. split.
  - f_equal. apply rmap_ok in Hpl. clear -Hpl. induction Hpl as [|o pl os pls H1 H2 IH]; [done|]. cbn [map]. f_equal; [|done]. apply idx_ok in H1.
    pose proof (lookup_lt_Some _ _ _ H1) as Hlt. rewrite spos_length in Hlt. rewrite spos_position in H1 by lia. congruence.
  - exists a, b. split; [done|]. split; [done|]. exact Hl.
Qed.
(** Finding: without correctors in one of the planes there is no figure. *)
Theorem C90_finding_none (s : sc R) : oHCM (ORD s) = [] -> cm_strengths s = Err ValueError.
Proof. intros H. unfold cm_strengths. cbn [seq rmap idx lookup list_lookup rbind]. rewrite H. done. Qed.

(** * Range *)
Lemma fold_min_nat (l : list nat) x : fold_left Nat.min l x ∈ x :: l /\ forall k, k ∈ x :: l -> (fold_left Nat.min l x <= k)%nat.
Proof.
  revert x. induction l as [|y l IH]; intros x; cbn [fold_left].
  - split; [by constructor|]. intros k Hk. apply elem_of_list_singleton in Hk as ->. done.
  - destruct (IH (Nat.min x y)) as [H1 H2]. pose proof (H2 _ ltac:(by constructor)) as H3. split.
    + apply elem_of_cons in H1 as [H1|H1]; [|by do 2 constructor]. rewrite H1. destruct (Nat.min_spec x y) as [[_ ->]|[_ ->]]; [by constructor|by do 2 constructor].
    + intros k Hk. apply elem_of_cons in Hk as [-> |Hk]; [lia|]. apply elem_of_cons in Hk as [-> |Hk]; [lia|]. apply H2. by constructor.
Qed.
Lemma fold_max_nat (l : list nat) x : fold_left Nat.max l x ∈ x :: l /\ forall k, k ∈ x :: l -> (k <= fold_left Nat.max l x)%nat.
Proof.
  revert x. induction l as [|y l IH]; intros x; cbn [fold_left].
  - split; [by constructor|]. intros k Hk. apply elem_of_list_singleton in Hk as ->. done.
  - destruct (IH (Nat.max x y)) as [H1 H2]. pose proof (H2 _ ltac:(by constructor)) as H3. split.
    + apply elem_of_cons in H1 as [H1|H1]; [|by do 2 constructor]. rewrite H1. destruct (Nat.max_spec x y) as [[_ ->]|[_ ->]]; [by do 2 constructor|by constructor].
    + intros k Hk. apply elem_of_cons in Hk as [-> |Hk]; [lia|]. apply elem_of_cons in Hk as [-> |Hk]; [lia|]. apply H2. by constructor.
Qed.
(** The range shown: the one asked for; else from the first to the last of the elements listed; else the part of one of the sectors; else
    the range stored with the lattice. *)
Theorem C90_range (s : sc R) stored asked indices sectors (r : R * R) : get_s_range (spos (RING s)) stored asked indices sectors = Ok r <->
  match asked, indices, sectors with
  | Some q, _, _ => r = q
  | None, Some l, _ => exists i j, i ∈ l /\ j ∈ l /\ (forall k, k ∈ l -> i <= k <= j)%nat /\ (j <= length (RING s))%nat /\ r = (position s i, position s j)
  | None, None, Some n => n <> 0 /\ r = (0, total_length s / n)
  | None, None, None => r = stored
  end.
Proof.
  unfold get_s_range. destruct asked as [q|]; [split; congruence|]. destruct indices as [l|].
  - destruct l as [|x l]; [split; [done|]; intros (i&_&H&_); by apply elem_of_nil in H|]. destruct (fold_min_nat l x) as [Hi1 Hi2]. destruct (fold_max_nat l x) as [Hj1 Hj2].
    set (i := fold_left Nat.min l x) in *. set (j := fold_left Nat.max l x) in *. split.
    + intros H. apply rbind_ok in H as (a&Ha&H). apply rbind_ok in H as (b&Hb&H). apply idx_ok in Ha, Hb. pose proof (lookup_lt_Some _ _ _ Hb) as Hlt. rewrite spos_length in Hlt.
      rewrite spos_position in Hb by lia. pose proof (Hi2 _ Hj1). rewrite spos_position in Ha by lia. exists i, j. split; [done|]. split; [done|]. split; [intros k Hk; split; auto|]. split; [lia|]. congruence.
    + intros (i'&j'&Hi'&Hj'&Hk&Hlt&->). assert (i' = i) as -> by (pose proof (Hk i Hi1); pose proof (Hi2 i' Hi'); lia). assert (j' = j) as -> by (pose proof (Hk j Hj1); pose proof (Hj2 j' Hj'); lia).
      pose proof (Hi2 _ Hj1). unfold idx. rewrite !spos_position by lia. done.
  - destruct sectors as [n|]; [|split; congruence]. rewrite spos_last. unfold qdiv. num_R. destruct (Reqb n 0) eqn:E; cbn [rbind].
    + apply Reqb_true in E. split; [done|]. intros [H _]. done.
    + apply Reqb_false in E. split; [intros H; split; [done|]; congruence|intros [_ ->]; done].
Qed.

(** * Apertures *)
Definition e_limit (e : elem R) (plane : nat) (upper : bool) : option R :=
  match e !! "EApertures" with Some (VVec v) => match v !! plane with Some a => Some (if upper then a else - a) | None => None end | _ => None end.
Definition r_limit (e : elem R) (plane : nat) (upper : bool) : option R :=
  match e !! "RApertures" with Some (VVec v) => v !! (2 * plane + if upper then 1 else 0)%nat | _ => None end.
(** in millimetres, and not at all if beyond the cut *)
Definition in_mm (cut : option R) (x : option R) : option R :=
  match x, cut with
  | Some v, Some c => if Rlt_dec c (Rabs v) then None else Some (1000 * v)
  | Some v, None => Some (1000 * v)
  | None, _ => None
  end.
(** the apertures of an element are absent or have the right number of entries *)
Definition shaped (e : elem R) : Prop :=
  (e !! "EApertures" = None \/ exists a b, e !! "EApertures" = Some (VVec [a; b])) /\
  (e !! "RApertures" = None \/ exists a b c d, e !! "RApertures" = Some (VVec [a; b; c; d])).
Lemma scaled_R cut (x : option R) : scaled cut x = in_mm cut x.
Proof.
  unfold scaled, in_mm, to_mm. destruct x as [v|]; [|done]. assert (nmul v (nofZ 1000) = 1000 * v) as -> by (num_R; cbn; ring). destruct cut as [c|]; [|done].
  rewrite nabs_R. num_R. assert (Rabs (1000 * v) = 1000 * Rabs v) as -> by (rewrite Rabs_mult, (Rabs_pos_eq 1000) by lra; done). cbn. destruct (Rltb _ _) eqn:E; [apply Rltb_true in E|apply Rltb_false in E]; destruct (Rlt_dec c (Rabs v)); try done; lra.
Qed.
Definition element (s : sc R) (i : nat) : elem R := default ∅ (RING s !! i).
Lemma rmap_map_total {A B} (f : A -> res B) (g : A -> B) l : (forall x, x ∈ l -> f x = Ok (g x)) -> rmap f l = Ok (map g l).
Proof. intros H. apply rmap_ok. induction l as [|x l IH]; constructor; [apply H; by constructor|]. apply IH. intros y Hy. apply H. by constructor. Qed.
Definition e_pair (e : elem R) : list (option R * option R) := [(e_limit e 0 false, e_limit e 0 true); (e_limit e 1 false, e_limit e 1 true)].
Definition r_pair (e : elem R) : list (option R * option R) := [(r_limit e 0 false, r_limit e 0 true); (r_limit e 1 false, r_limit e 1 true)].
Lemma e_aperture_R e : shaped e -> e_aperture e = Ok (e_pair e).
Proof.
  intros [[H|(a&b&H)] _]; unfold e_aperture, e_pair, e_limit; rewrite H; [done|]. cbn. num_R. do 2 f_equal; [|f_equal]; f_equal; f_equal; lra.
Qed.
Lemma r_aperture_R e : shaped e -> r_aperture e = Ok (r_pair e).
Proof. intros [_ [H|(a&b&c&d&H)]]; unfold r_aperture, r_pair, r_limit; rewrite H; done. Qed.
(** The four lines of apertures: at the places shown the lower limits, a gap, and the upper limits. *)
Definition limits (s : sc R) (f : elem R -> nat -> bool -> option R) (refs : list nat) (cut : option R) (plane : nat) : list (option R) :=
  map (fun i => in_mm cut (f (element s i) plane false)) refs ++ [None; None] ++ map (fun i => in_mm cut (f (element s i) plane true)) refs.
Theorem C90_apertures (s : sc R) refpts refs first final cut : Forall shaped (RING s) -> Forall (fun i => i < length (RING s))%nat refs -> refpts = refs \/ refpts = refs ++ [length (RING s)] ->
  head refs = Some first -> last refs = Some final ->
  data_apertures (RING s) refpts cut = Ok (map (position s) refs ++ [position s final; position s first] ++ map (position s) refs,
    [limits s e_limit refs cut 0; limits s e_limit refs cut 1; limits s r_limit refs cut 0; limits s r_limit refs cut 1]).
Proof.
  intros Hs Hin Href Hf Hl. unfold data_apertures. rewrite Forall_forall in Hin.
  assert (exists r, last refpts = Some r /\ (if (r =? length (RING s))%nat then take (length refpts - 1) refpts else refpts) = refs) as (r&Hr&Er).
  { destruct Href as [-> | ->].
    - exists final. split; [done|]. assert (final ∈ refs) as Hfin by (apply last_Some_elem_of in Hl; done). apply Hin in Hfin. destruct (Nat.eqb_spec final (length (RING s))); [lia|done].
    - exists (length (RING s)). rewrite last_snoc, Nat.eqb_refl. split; [done|]. rewrite app_length. cbn [length]. replace (length refs + 1 - 1)%nat with (length refs) by lia. apply take_app. }
  rewrite Hr. cbn [rbind]. rewrite Er. rewrite (rmap_map_total _ e_pair). 2: { intros e He. apply e_aperture_R. by eapply Forall_forall in Hs. }
  cbn [rbind]. rewrite (rmap_map_total _ r_pair). 2: { intros e He. apply r_aperture_R. by eapply Forall_forall in Hs. }
  cbn [rbind]. rewrite (rmap_map_total _ (position s) refs). 2: { intros i Hi. apply Hin in Hi. unfold idx. rewrite spos_position by lia. done. }
  cbn [rbind]. rewrite (rmap_map_total _ (fun i => e_pair (element s i)) refs).
  2: { intros i Hi. apply Hin in Hi. unfold idx, element. rewrite list_lookup_fmap. destruct (lookup_lt_is_Some_2 _ _ Hi) as [e He]. by rewrite He. }
  cbn [rbind]. rewrite (rmap_map_total _ (fun i => r_pair (element s i)) refs).
  2: { intros i Hi. apply Hin in Hi. unfold idx, element. rewrite list_lookup_fmap. destruct (lookup_lt_is_Some_2 _ _ Hi) as [e He]. by rewrite He. }
  cbn [rbind]. assert (idx (map (position s) refs) 0 = Ok (position s first)) as ->. { destruct refs; [done|]. cbn in Hf |- *. congruence. }
  cbn [rbind]. assert (last (map (position s) refs) = Some (position s final)) as ->. { change (last (position s <$> refs) = Some (position s final)). by rewrite fmap_last, Hl. }
  cbn [rbind]. unfold limits. rewrite !map_map. unfold e_pair, r_pair. cbn [lookup list_lookup fst snd].
  assert (forall (g : nat -> option R), map (fun i => scaled cut (g i)) refs = map (fun i => in_mm cut (g i)) refs) as E by (intros g; apply map_ext; intros i; apply scaled_R).
  rewrite !E. done.
Qed.

(** * Synoptic *)
(** of two heights, the first for a magnet of positive field *)
Definition height (e : elem R) (i : nat) (up down : R) : R :=
  match e !! "PolynomB" with Some (VVec v) => match v !! i with Some x => if Rle_dec 0 x then up else down | None => 0 end | _ => 0 end.
(** the outline of an element from its entrance to its exit: a box, with a peak if the magnet focuses, a notch if not *)
Definition box (a len : R) (h : R) (top : list (R * R)) : list (R * R) := [(a, 0); (a, h)] ++ map (fun p => (a + p.1 * len, p.2)) top ++ [(a + len, h); (a + len, 0)].
Definition pole (a : R) : list (R * R) := [(a, 0); (a, 12 / 10)].
Definition kind_at (kind_of : elem R -> kind) (s : sc R) (k : kind) (i : nat) : Prop := exists e, RING s !! i = Some e /\ kind_of e = k.
Lemma places_of s (x : R * elem R) : x ∈ combine (spos (RING s)) (RING s) <-> exists i, RING s !! i = Some x.2 /\ x.1 = position s i.
Proof.
  assert (forall (l : list R) (l' : list (elem R)), x ∈ combine l l' <-> exists i, l !! i = Some x.1 /\ l' !! i = Some x.2) as H.
  { induction l as [|a l IH]; intros [|b l']; cbn [combine]; try (rewrite elem_of_nil; split; [done|]; intros (i&H1&H2); destruct i; cbn in *; congruence).
    rewrite elem_of_cons, IH. split.
    - intros [-> |(i&H1&H2)]; [by exists 0%nat|by exists (S i)].
    - intros ([|i]&H1&H2); cbn in H1, H2; [left; destruct x; cbn in *; congruence|right; eauto]. }
  rewrite H. split; intros (i&H1&H2); exists i.
  - pose proof (lookup_lt_Some _ _ _ H2). rewrite spos_position in H1 by lia. split; [done|congruence].
  - pose proof (lookup_lt_Some _ _ _ H1). rewrite spos_position by lia. split; [congruence|done].
Qed.
Lemma group_of kind_of s k mtype len (l : list (list (R * R))) (draw : R -> elem R -> list (R * R)) : k <> KOther ->
  (forall a e y, (let? t := mtype e in let? x := len e in get_shape a x t) = Ok y -> y = draw a e) ->
  shapes_of kind_of (RING s) k mtype len = Ok l -> forall y, y ∈ l <-> exists i, kind_at kind_of s k i /\ y = draw (position s i) (element s i).
Proof.
  intros Hk Hd H y. unfold shapes_of in H. set (test := fun se : R * elem R => same_kind (kind_of se.2) k) in H. assert (forall se, test se = true <-> kind_of se.2 = k) as Ht.
  { intros se. unfold test. destruct (kind_of se.2), k; done. }
  apply rmap_ok in H. split.
  - intros Hy. apply elem_of_list_lookup in Hy as (j&Hj). destruct (Forall2_lookup_r _ _ _ _ _ H Hj) as (se&Hse&E). apply elem_of_list_lookup_2 in Hse. rewrite elem_of_list_In, filter_In, <- elem_of_list_In in Hse.
    destruct Hse as [H1 H2]. apply Ht in H2. apply places_of in H1 as (i&H3&H4). exists i. split; [exists se.2; done|]. apply Hd in E. rewrite E, H4. unfold element. by rewrite H3.
  - intros (i&(e&He&Hkind)&->). assert ((position s i, e) ∈ List.filter test (combine (spos (RING s)) (RING s))) as Hin.
    { rewrite elem_of_list_In, filter_In, <- elem_of_list_In. split; [apply places_of; by exists i|by apply Ht]. }
    apply elem_of_list_lookup in Hin as (j&Hj). destruct (Forall2_lookup_l _ _ _ _ _ H Hj) as (y&Hy&E). cbn [fst snd] in E. apply Hd in E. unfold element. rewrite He. cbn. rewrite <- E. by eapply elem_of_list_lookup_2.
Qed.
Ltac pts := repeat match goal with |- @eq (list _) (_ :: _) (_ :: _) => apply f_equal2 | |- @eq (_ * _) (_, _) (_, _) => apply f_equal2 | |- @eq R _ _ => lra | |- _ => reflexivity end.
(** Each magnet is drawn from its entrance to its exit, monitors as a line at their place.  Finding: so are multipoles. *)
Definition long (e : elem R) : R := match e !! "Length" with Some (VNum x) => x | _ => 0 end.
Theorem C90_synoptic kind_of (s : sc R) d q x m b : synoptic kind_of (RING s) = Ok [("dipole", d); ("quadrupole", q); ("sextupole", x); ("multipole", m); ("monitor", b)] ->
  let drawn_as (group : list (list (R * R))) (k : kind) (f : nat -> list (R * R)) := forall y, y ∈ group <-> exists i, kind_at kind_of s k i /\ y = f i in
  let L i := long (element s i) in
  drawn_as d KDipole (fun i => box (position s i) (L i) 1 []) /\
  drawn_as q KQuadrupole (fun i => box (position s i) (L i) 1 [(/ 2, height (element s i) 1 (14 / 10) (6 / 10))]) /\
  drawn_as x KSextupole (fun i => box (position s i) (L i) (8 / 10) [(33 / 100, height (element s i) 2 1 (6 / 10)); (66 / 100, height (element s i) 2 1 (6 / 10))]) /\
  drawn_as m KMultipole (fun i => pole (position s i)) /\
  drawn_as b KMonitor (fun i => pole (position s i)).
Proof.
  intros H. unfold synoptic in H. apply rbind_ok in H as (d'&Hd&H). apply rbind_ok in H as (q'&Hq&H). apply rbind_ok in H as (x'&Hx&H). apply rbind_ok in H as (m'&Hm&H). apply rbind_ok in H as (b'&Hb&H).
  assert (d' = d /\ q' = q /\ x' = x /\ m' = m /\ b' = b) as (->&->&->&->&->) by (split_and!; congruence). clear H.
  assert (forall e l, attr_num e "Length" = Ok l -> l = long e) as HL. { intros e l Hl. apply attr_num_ok in Hl. unfold long. by rewrite Hl. }
  assert (forall e i l, sign_letter e "PolynomB" i = Ok l -> exists v x, e !! "PolynomB" = Some (VVec v) /\ v !! i = Some x /\ l = if Rle_dec 0 x then "f" else "d") as HS.
  { intros e i l Hl. unfold sign_letter in Hl. apply rbind_ok in Hl as (v&Hv&Hl). apply attr_vec_ok in Hv. apply rbind_ok in Hl as (y&Hy&Hl). apply idx_ok in Hy. exists v, y. split; [done|]. split; [done|].
    num_R. destruct (Rleb 0 y) eqn:E; [apply Rleb_true in E|apply Rleb_false in E]; destruct (Rle_dec 0 y); try (exfalso; lra); congruence. }
  assert (forall (a x : R) l t y, get_shape a x t = Ok y -> unit_shape t = Some l -> y = map (fun p => (a + IZR p.1 / 100 * x, IZR p.2 / 100)) l) as HG.
  { intros a xx l t y Hy Ht. unfold get_shape in Hy. rewrite Ht in Hy. apply (f_equal (fun r => match r with Ok x => x | Err _ => [] end)) in Hy. cbv beta iota in Hy. rewrite <- Hy. apply map_ext. intros p. unfold hundredth. num_R. f_equal. ring. }
  intros drawn_as L. split; [|split; [|split; [|split]]]; intros y.
  - refine (group_of kind_of s KDipole _ _ d (fun a e => box a (long e) 1 []) _ _ Hd y); [done|]. intros a e z Hz. cbn [rbind] in Hz. apply rbind_ok in Hz as (l&Hl&Hz). apply HL in Hl as ->.
    eapply HG in Hz; [|done]. rewrite Hz. unfold box. cbn [map app fst snd]. pts.
  - refine (group_of kind_of s KQuadrupole _ _ q (fun a e => box a (long e) 1 [(/ 2, height e 1 (14 / 10) (6 / 10))]) _ _ Hq y); [done|]. intros a e z Hz. apply rbind_ok in Hz as (t&Ht&Hz). apply rbind_ok in Hz as (l&Hl&Hz). apply HL in Hl as ->.
    apply rbind_ok in Ht as (c&Hc&Ht). apply HS in Hc as (v&w&Hv&Hw&->). unfold height. rewrite Hv, Hw. destruct (Rle_dec 0 w); apply (f_equal (fun r => match r with Ok x => x | Err _ => "" end)) in Ht; cbv beta iota in Ht; subst t;
      (eapply HG in Hz; [|done]); rewrite Hz; unfold box; cbn [map app fst snd]; pts.
  - refine (group_of kind_of s KSextupole _ _ x (fun a e => box a (long e) (8 / 10) [(33 / 100, height e 2 1 (6 / 10)); (66 / 100, height e 2 1 (6 / 10))]) _ _ Hx y); [done|]. intros a e z Hz. apply rbind_ok in Hz as (t&Ht&Hz). apply rbind_ok in Hz as (l&Hl&Hz). apply HL in Hl as ->.
    apply rbind_ok in Ht as (c&Hc&Ht). apply HS in Hc as (v&w&Hv&Hw&->). unfold height. rewrite Hv, Hw. destruct (Rle_dec 0 w); apply (f_equal (fun r => match r with Ok x => x | Err _ => "" end)) in Ht; cbv beta iota in Ht; subst t;
      (eapply HG in Hz; [|done]); rewrite Hz; unfold box; cbn [map app fst snd]; pts.
  - refine (group_of kind_of s KMultipole _ _ m (fun a e => pole a) _ _ Hm y); [done|]. intros a e z Hz. cbn [rbind] in Hz. apply rbind_ok in Hz as (l&Hl&Hz). eapply HG in Hz; [|done]. rewrite Hz. unfold pole. cbn [map fst snd]. pts.
  - refine (group_of kind_of s KMonitor _ _ b (fun a e => pole a) _ _ Hb y); [done|]. intros a e z Hz. cbn [rbind] in Hz. eapply HG in Hz; [|done]. rewrite Hz. unfold pole. cbn [map fst snd]. pts.
Qed.

Print Assumptions C90_strengths.
Print Assumptions C90_finding_none.
Print Assumptions C90_range.
Print Assumptions C90_apertures.
Print Assumptions C90_synoptic.

(** * Cases *)
(** five elements of length 1: a dipole, a quadrupole of negative field, a multipole, a monitor, and a corrector; three correctors per plane *)
Section Case.
  Context {T : Type} {N : Num T}.
  Definition pictured : list (elem T) :=
    [stand [("FamName", VStr "B"); ("PassMethod", VStr "CorrectorPass"); ("SetPointB", VVec [num 1]); ("SetPointA", VVec [num 2]); ("EApertures", VVec [num 1; num 2])];
     stand [("FamName", VStr "Q"); ("PassMethod", VStr "CorrectorPass"); ("SetPointB", VVec [num 4]); ("SetPointA", VVec [num 2]); ("PolynomB", VVec [num 0; num (-1)]); ("RApertures", VVec [num (-3); num 4; num (-5); num 6])];
     stand [("FamName", VStr "M"); ("PassMethod", VStr "CorrectorPass"); ("SetPointB", VVec [num 2]); ("SetPointA", VVec [num 2])];
     stand [("FamName", VStr "BPM")];
     stand [("FamName", VStr "X")]].
  Definition pictured_sc : sc T := set_ORD (set_oHCM [0; 1; 2]%nat (set_oVCM [0; 1; 2]%nat (ORD (init_sc pictured [])))) (init_sc pictured []).
  Definition named (e : elem T) : kind :=
    match e !! "FamName" with Some (VStr n) => if decide (n = "B") then KDipole else if decide (n = "Q") then KQuadrupole else if decide (n = "M") then KMultipole else if decide (n = "BPM") then KMonitor else KOther | _ => KOther end.
End Case.
Definition micro (l : list (Q * Q)) : list (Q * Q) := map (fun p => (Qred (p.1 / M6), Qred p.2)) l.
Example C90_case :
  (match cm_strengths (T:=Q) pictured_sc with Ok [(b, l); (b', l')] => (map fst b, micro (map (fun p => (p.2, p.1)) b), micro l, map snd l') | _ => ([], [], [], []) end) =
    ([0; 1; 2]%Q, [(1, 0); (4, 1); (2, 2)]%Q, [(2, 1 # 3); (3, 2 # 3); (4, 1)]%Q, [0; 1; 1]%Q) /\
  get_s_range (T:=Q) (spos pictured) (0, 5)%Q None (Some [3; 1; 2]%nat) None = Ok (1, 3)%Q /\
  get_s_range (T:=Q) (spos pictured) (0, 5)%Q None None (Some 2%Q) = Ok (0, 5 # 2)%Q /\
  data_apertures (T:=Q) pictured [0; 1; 5]%nat (Some 4%Q) =
    Ok ([0; 1; 1; 0; 0; 1]%Q, [[Some (-1000); None; None; None; Some 1000; None]; [Some (-2000); None; None; None; Some 2000; None];
        [None; Some (-3000); None; None; None; Some 4000]; [None; None; None; None; None; None]]%Q) /\
  (match synoptic (T:=Q) named pictured with Ok [(_, d); (_, q); (_, x); (_, m); (_, b)] => (map (map (fun p => (Qred p.1, Qred p.2))) q, x, m, b) | _ => ([], [], [], []) end) =
    ([[(1, 0); (1, 1); (3 # 2, 3 # 5); (2, 1); (2, 0)]], [], [[(2, 0); (2, 6 # 5)]], [[(3, 0); (3, 6 # 5)]])%Q.
Proof. vm_compute. done. Qed.
Example C90_premises : Forall shaped (RING (pictured_sc (T:=R))) /\ (exists fig, cm_strengths (pictured_sc (T:=Q)) = Ok fig) /\ exists g, synoptic named (RING (pictured_sc (T:=Q))) = Ok g.
Proof.
  split; [|split; vm_compute; eauto]. cbn. repeat (apply Forall_cons; split); try apply Forall_nil; try done; unfold shaped; (split; [first [left; done|right; do 2 eexists; done]|first [left; done|right; do 4 eexists; done]]).
Qed.
