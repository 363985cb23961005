(** C87: the figure of the supports. *)
From Coq Require Import Reals Lra Lia QArith ZArith.
From stdpp Require Import base gmap strings list.
From Verif Require Import Num Base Model_Arr Model_SC Model_Err Model_Beam Model_Orbit Model_Scan Model_Plot Lemmas Proofs_Reg Proofs_Update Proofs_Loop Spec Proofs_CM Proofs_Field Proofs_Err
  Properties_Random Properties_Field Examples Properties_Errors Properties_Circ Properties_Support Proofs_Interp Properties_Interp.
Local Open Scope string_scope.
Local Open Scope list_scope.
Local Open Scope R_scope.

(** * Specification *)
(** the point [q] lies on one of the lines drawn through the given points *)
Definition on_segment (a b q : R * R) : Prop := exists l, 0 <= l <= 1 /\ q.1 = a.1 + l * (b.1 - a.1) /\ q.2 = a.2 + l * (b.2 - a.2).
Definition on_lines (ls : list (polyline R)) (q : R * R) : Prop := exists l i a b, l ∈ ls /\ l !! i = Some a /\ l !! S i = Some b /\ on_segment a b q.
(** the places of a ring of circumference [c] between [a] and [b], following the beam *)
Definition occupied (c a b x : R) : Prop := (a <= b /\ a <= x <= b) \/ (b < a /\ (a <= x <= c \/ 0 <= x <= b)).
(** the way of the beam from [a] to [x] *)
Definition way (c a x : R) : R := if Rle_dec a x then x - a else c - a + x.
(** the straight line from [u] at [a] to [v] at [b] *)
Definition straight (c a b u v x : R) : R := u + (v - u) * (way c a x / way c a b).
(** the lines drawn for a structure: offsets and rolls; [k] numbers the types *)
Definition type_place (t : stype) : nat := match t with SSection => 0 | SPlinth => 1 | SGirder => 2 end.
Definition drawn {A} (fig : list (list (list A))) (n : nat) (t : stype) (i : nat) : option A := fig !! n ≫= fun x => x !! type_place t ≫= fun y => y !! i.
(** at least one end is shown *)
Definition shown (s : sc R) (lims : R * R) (p : nat * nat) : Prop := lims.1 <= position s p.1 <= lims.2 \/ lims.1 <= position s p.2 <= lims.2.
(** every registered structure lies in the lattice, carries its offsets and rolls, and has a length *)
Definition vec3 (s : sc R) (i : nat) (a : string) : Prop := exists x y z, attr_at s i a = Some (VVec [x; y; z]).
Definition equipped (s : sc R) : Prop := forall t p, p ∈ oSupport t (ORD s) ->
  (p.1 < length (RING s))%nat /\ (p.2 < length (RING s))%nat /\ vec3 s p.1 (offset_name t) /\ vec3 s p.2 (offset_name t) /\ vec3 s p.1 (roll_name t) /\
  position s p.1 <> position s p.2 /\ ~ (position s p.1 = total_length s /\ position s p.2 = 0).

(** * One structure *)
Lemma on_lines_one a b (q : R * R) : on_lines [[a; b]] q <-> on_segment a b q.
Proof.
  split.
  - intros (l&i&a'&b'&Hl&Ha&Hb&H). apply elem_of_list_singleton in Hl as ->. destruct i as [|[|i]]; try done. cbn in Ha, Hb. injection Ha as <-. injection Hb as <-. done.
  - intros H. exists [a; b], 0%nat, a, b. split; [by apply elem_of_list_singleton|]. done.
Qed.
Lemma on_lines_two a b c d (q : R * R) : on_lines [[a; b]; [c; d]] q <-> on_segment a b q \/ on_segment c d q.
Proof.
  split.
  - intros (l&i&a'&b'&Hl&H). apply elem_of_cons in Hl as [Hl|Hl].
    + left. apply on_lines_one. exists l, i, a', b'. split; [by apply elem_of_list_singleton|done].
    + right. apply on_lines_one. exists l, i, a', b'. done.
  - intros [H|H]; apply on_lines_one in H as (l&i&a'&b'&Hl&H); exists l, i, a', b'; (split; [|done]); apply elem_of_list_singleton in Hl as ->; [apply elem_of_list_here|by repeat constructor].
Qed.
(** a segment over an interval, as graph *)
Lemma segment_graph x0 x1 y0 y1 x y : x0 < x1 -> on_segment (x0, y0) (x1, y1) (x, y) <-> x0 <= x <= x1 /\ y = y0 + (y1 - y0) * ((x - x0) / (x1 - x0)).
Proof.
  intros H. unfold on_segment. cbn [fst snd]. split.
  - intros (l&Hl&->&->). split; [split; nra|]. field. lra.
  - intros [Hx ->]. exists ((x - x0) / (x1 - x0)). split; [|split; field; lra]. split.
    + apply Rmult_le_pos; [lra|]. left. apply Rinv_0_lt_compat. lra.
    + apply Rmult_le_reg_r with (x1 - x0); [lra|]. replace ((x - x0) / (x1 - x0) * (x1 - x0)) with (x - x0) by (field; lra). lra.
Qed.
Lemma segment_point x0 y0 x y : on_segment (x0, y0) (x0, y0) (x, y) <-> x = x0 /\ y = y0.
Proof. unfold on_segment. cbn [fst snd]. split; [intros (l&_&->&->); split; ring|]. intros [-> ->]. exists 0. split; [lra|]. split; ring. Qed.
(** a line over an interval that may be a point, given that it has the same height at both ends then *)
Lemma segment_line x0 x1 y0 m x y : x0 <= x1 -> on_segment (x0, y0) (x1, y0 + m * (x1 - x0)) (x, y) <-> x0 <= x <= x1 /\ y = y0 + m * (x - x0).
Proof.
  intros [H| ->].
  - rewrite segment_graph by done. split; intros [Hx ->]; (split; [done|]); field; lra.
  - replace (y0 + m * (x1 - x1)) with y0 by ring. rewrite segment_point. split; [intros [-> ->]; split; [lra|ring]|]. intros [Hx ->]. assert (x = x1) as -> by lra. split; [done|ring].
Qed.
Lemma way_ahead c a x : a <= x -> way c a x = x - a.
Proof. intros H. unfold way. destruct (Rle_dec a x); [done|lra]. Qed.
Lemma way_round c a x : x < a -> way c a x = c - a + x.
Proof. intros H. unfold way. destruct (Rle_dec a x); [lra|done]. Qed.
Lemma plot_line_ok a b u v c ls : a <> b -> 0 <= b -> a <= c -> plot_line (a, b) (u, v) c = Ok ls ->
  forall x y, on_lines ls (x, y) <-> occupied c a b x /\ y = straight c a b u v x.
Proof.
  intros Hab Hb Hc H x y. unfold plot_line in H. cbn [fst snd] in H. change (nleb a b) with (Rleb a b) in H. destruct (Rleb a b) eqn:Hle; [apply Rleb_true in Hle|apply Rleb_false in Hle].
  - injection H as <-. rewrite on_lines_one, segment_graph by lra. unfold straight, occupied. rewrite (way_ahead c a b) by done. split.
    + intros [Hx ->]. rewrite way_ahead by lra. split; [lra|done].
    + intros [[[_ Hx]|Hx] ->]; [|lra]. rewrite way_ahead by lra. done.
  - apply rbind_ok in H as (q&Hq&H). apply qdivR_ok in Hq as [-> Hne]. num_R. injection H as <-. assert (0 < b - a + c) as HL by lra.
    rewrite on_lines_two. set (m := (v - u) / (b - a + c)).
    set (e := v - b * (v - u) / (b - a + c)). assert (e = u + m * (c - a)) as E1 by (unfold e, m; field; lra). assert (v = e + m * (b - 0)) as E2 by (unfold e, m; field; lra).
    rewrite E1 at 1. rewrite E2 at 1. rewrite !segment_line by lra. rewrite E1. clearbody e. clear E1 E2. unfold straight, occupied. rewrite (way_round c a b) by lra. split.
    + intros [[Hx ->]|[Hx ->]]; (split; [lra|]).
      * rewrite way_ahead by lra. unfold m. field. lra.
      * rewrite way_round by lra. unfold m. field. lra.
    + intros [[Hx|[_ [Hx|Hx]]] ->]; [lra|left|right]; (split; [done|]).
      * rewrite way_ahead by lra. unfold m. field. lra.
      * rewrite way_round by lra. unfold m. field. lra.
Qed.
Lemma plot_line_total a b u v c : (b < a -> b - a + c <> 0) -> exists ls, plot_line (T:=R) (a, b) (u, v) c = Ok ls.
Proof.
  intros H. unfold plot_line. cbn [fst snd]. change (nleb a b) with (Rleb a b). destruct (Rleb a b) eqn:Hle; [eauto|]. apply Rleb_false in Hle.
  unfold qdiv. num_R. assert (Reqb (b - a + c) 0 = false) as ->; [apply Reqb_false; apply H; lra|]. cbn [rbind]. eauto.
Qed.

(** * The structures found *)
Lemma within_spec lims (x : R) : within lims x = true <-> lims.1 <= x <= lims.2.
Proof.
  unfold within. rewrite andb_true_iff. change nleb with Rleb. by rewrite !Rleb_true.
Qed.
Lemma dict_vec_ok (s : sc R) i a l : dict_vec s i a = Ok l <-> attr_at s i a = Some (VVec l).
Proof.
  unfold dict_vec, attr_at. rewrite rbind_ok. split.
  - intros (e&He&H). apply idx_ok in He. rewrite He. cbn [mbind option_bind]. destruct (e !! a) as [[]|]; try done. by injection H as ->.
  - intros H. destruct (RING s !! i) as [e|] eqn:He; [|done]. cbn [mbind option_bind] in H. exists e. rewrite H. split; [by apply idx_ok|done].
Qed.
Definition carried (s : sc R) (t : stype) (p : nat * nat) (d : list R * list R * list R) : Prop :=
  attr_at s p.1 (offset_name t) = Some (VVec d.1.1) /\ attr_at s p.2 (offset_name t) = Some (VVec d.1.2) /\ attr_at s p.1 (roll_name t) = Some (VVec d.2).
Lemma in_range_ok lims (s : sc R) t pairs found : supports_in_range lims s t pairs = Ok found ->
  (length found <= length pairs)%nat /\ (length found = length pairs -> Forall2 (carried s t) pairs found /\ Forall (shown s lims) pairs) /\
  (Forall (shown s lims) pairs -> length found = length pairs).
Proof.
  revert found. induction pairs as [|p pairs IH]; intros found H; cbn [supports_in_range] in H.
  - injection H as <-. split_and!; [done| |done]. intros _. split; constructor.
  - apply rbind_ok in H as (a&Ha&H). apply rbind_ok in H as (b&Hb&H). apply idx_ok in Ha, Hb.
    assert (forall i x, spos (RING s) !! i = Some x -> x = position s i) as Hpos.
    { intros i x Hx. pose proof (lookup_lt_Some _ _ _ Hx) as Hl. rewrite spos_length in Hl. rewrite spos_position in Hx by lia. by injection Hx as <-. }
    apply Hpos in Ha as ->. apply Hpos in Hb as ->. destruct (within lims (position s p.1) || within lims (position s p.2)) eqn:E.
    + apply rbind_ok in H as (oa&Hoa&H). apply rbind_ok in H as (ob&Hob&H). apply rbind_ok in H as (r&Hr&H). apply rbind_ok in H as (rest&Hrest&H). injection H as <-.
      destruct (IH rest Hrest) as (IH1&IH2&IH3). cbn [length]. assert (shown s lims p) as Hs.
      { apply orb_true_iff in E. rewrite !within_spec in E. exact E. }
      split_and!; [lia| |].
      * intros HL. injection HL as HL. destruct (IH2 HL) as [F1 F2]. split; constructor; try done. split_and!; by apply dict_vec_ok.
      * intros HF. apply Forall_cons_1 in HF as [_ HF]. by rewrite IH3.
    + destruct (IH found H) as (IH1&IH2&IH3). cbn [length]. split_and!; [lia|intros; lia|]. intros HF. apply Forall_cons_1 in HF as [HF _]. exfalso.
      apply orb_false_iff in E as [E1 E2]. destruct HF as [HF|HF]; apply within_spec in HF; congruence.
Qed.
Lemma in_range_total lims (s : sc R) t : equipped s -> forall pairs, (forall p, p ∈ pairs -> p ∈ oSupport t (ORD s)) -> exists found, supports_in_range lims s t pairs = Ok found /\
  Forall (fun d => length d.1.1 = 3%nat /\ length d.1.2 = 3%nat /\ length d.2 = 3%nat) found.
Proof.
  intros He pairs. induction pairs as [|p pairs IH]; intros Hin; cbn [supports_in_range]; [exists []; split; [done|constructor]|].
  destruct IH as (rest&Hrest&HF); [intros q Hq; apply Hin; by constructor|]. destruct (He t p) as (H1&H2&V1&V2&V3&_); [apply Hin; by constructor|].
  destruct V1 as (x1&y1&z1&V1). destruct V2 as (x2&y2&z2&V2). destruct V3 as (x3&y3&z3&V3).
  assert (idx (spos (RING s)) p.1 = Ok (position s p.1)) as -> by (apply idx_ok, spos_position; lia).
  assert (idx (spos (RING s)) p.2 = Ok (position s p.2)) as -> by (apply idx_ok, spos_position; lia). cbn [rbind].
  destruct (_ || _); [|eauto]. apply dict_vec_ok in V1, V2, V3. unfold offset_name, roll_name in V1, V2, V3. rewrite V1, V2, V3, Hrest. cbn [rbind]. eexists. split; [done|]. by constructor.
Qed.

(** * The figure *)
Lemma rmap_lookup {A B} (f : A -> res B) l l' i y : rmap f l = Ok l' -> l' !! i = Some y -> exists x, l !! i = Some x /\ f x = Ok y.
Proof. intros H Hy. apply rmap_ok in H. destruct (Forall2_lookup_r _ _ _ _ _ H Hy) as (x&?&?). eauto. Qed.
Lemma rmap_lookup_l {A B} (f : A -> res B) l l' i x : rmap f l = Ok l' -> l !! i = Some x -> exists y, l' !! i = Some y /\ f x = Ok y.
Proof. intros H Hx. apply rmap_ok in H. destruct (Forall2_lookup_l _ _ _ _ _ H Hx) as (y&?&?). eauto. Qed.
Lemma indexed_lookup {A} (l : list A) i : indexed l !! i = (fun x => (i, x)) <$> l !! i.
Proof. unfold indexed. by rewrite list_lookup_imap. Qed.
Lemma types_lookup t : SUPPORT_TYPES !! type_place t = Some t.
Proof. by destruct t. Qed.
Lemma million_R : million (T:=R) = 1000000.
Proof. done. Qed.
Lemma figure_ok lims (s : sc R) fig : plot_support lims s = Ok fig -> forall t,
  exists found, supports_in_range (default (0, total_length s) lims) s t (oSupport t (ORD s)) = Ok found /\
    forall n, (n < 3)%nat -> exists row, fig !! n ≫= (fun x => x !! type_place t) = Some row /\
      rmap (fun ip => draw_structure s found n ip.1 ip.2) (indexed (oSupport t (ORD s))) = Ok row.
Proof.
  intros H t. unfold plot_support in H. rewrite spos_last in H. change (n0 : R) with 0 in H. apply rbind_ok in H as (found&Hf&H).
  destruct (rmap_lookup_l _ _ _ _ _ Hf (types_lookup t)) as (f&Hf1&Hf2). exists f. split; [done|]. intros n Hn.
  destruct (rmap_lookup_l _ _ _ n n H) as (x&Hx&Hx2); [by apply lookup_seq_lt|]. destruct (rmap_lookup_l _ _ _ (type_place t) (type_place t, t) Hx2) as (row&Hr&Hr2).
  { rewrite indexed_lookup, types_lookup. done. }
  exists row. rewrite Hx. cbn [mbind option_bind]. split; [done|]. cbn [fst snd] in Hr2. apply rbind_ok in Hr2 as (f'&Hf'&Hr2). apply idx_ok in Hf'. rewrite Hf1 in Hf'. injection Hf' as <-. done.
Qed.
Lemma position_range s i : nonneg_lengths s -> (i <= length (RING s))%nat -> 0 <= position s i <= total_length s.
Proof.
  intros Hnn Hi. split.
  - replace 0 with (position s 0) by done. apply position_mono; [done|lia].
  - change (total_length s) with (position s (length (RING s))). by apply position_mono.
Qed.

Lemma draw_ok (s : sc R) found n i p y : draw_structure s found n i p = Ok y -> exists d, found !! i = Some d /\ exists a b r,
  d.1.1 !! n = Some a /\ d.1.2 !! n = Some b /\ d.2 !! n = Some r /\ (p.1 <= length (RING s))%nat /\ (p.2 <= length (RING s))%nat /\
  plot_line (position s p.1, position s p.2) (1000000 * a, 1000000 * b) (total_length s) = Ok y.1 /\
  plot_line (position s p.1, position s p.2) (1000000 * r, 1000000 * r) (total_length s) = Ok y.2.
Proof.
  intros H. unfold draw_structure in H. rewrite spos_last in H. apply rbind_ok in H as (s1&H1&H). apply rbind_ok in H as (s2&H2&H). apply rbind_ok in H as (d&Hd&H).
  apply rbind_ok in H as (a&Ha&H). apply rbind_ok in H as (b&Hb&H). apply rbind_ok in H as (off&Hoff&H). apply rbind_ok in H as (r&Hr&H). apply rbind_ok in H as (roll&Hroll&H). injection H as <-.
  apply idx_ok in H1, H2, Hd, Ha, Hb, Hr. pose proof (lookup_lt_Some _ _ _ H1) as L1. pose proof (lookup_lt_Some _ _ _ H2) as L2. rewrite spos_length in L1, L2.
  rewrite spos_position in H1, H2 by lia. injection H1 as <-. injection H2 as <-. exists d. split; [done|]. exists a, b, r. split_and!; try done; lia.
Qed.
(** Every structure is drawn where it stands: over the places it occupies, the line of an offset is the straight line between the offsets
    of its two ends (along the beam, also across the end of the lattice), that of a roll is level; both in millionths. *)
Theorem C87_lines lims (s : sc R) fig : nonneg_lengths s -> plot_support lims s = Ok fig ->
  forall n t i p, (n < 3)%nat -> oSupport t (ORD s) !! i = Some p -> position s p.1 <> position s p.2 ->
  exists off roll a b r, drawn fig n t i = Some (off, roll) /\
    Spec.entry s p.1 (offset_name t) n = Some a /\ Spec.entry s p.2 (offset_name t) n = Some b /\ Spec.entry s p.1 (roll_name t) n = Some r /\
    (forall x y, on_lines off (x, y) <-> occupied (total_length s) (position s p.1) (position s p.2) x /\
       y = 1000000 * straight (total_length s) (position s p.1) (position s p.2) a b x) /\
    (forall x y, on_lines roll (x, y) <-> occupied (total_length s) (position s p.1) (position s p.2) x /\ y = 1000000 * r).
Proof.
  intros Hnn H n t i p Hn Hi Hne. destruct (figure_ok _ _ _ H t) as (found&Hf&Hrow). destruct (Hrow n Hn) as (row&Hr&Hrow'). clear Hrow.
  pose proof (in_range_ok _ _ _ _ _ Hf) as (HL&Hall&_).
  assert (length (oSupport t (ORD s)) <= length found)%nat as HL2.
  { destruct (length (oSupport t (ORD s))) as [|k] eqn:Ek; [lia|]. destruct (lookup_lt_is_Some_2 (oSupport t (ORD s)) k) as [q Hq]; [lia|].
    destruct (rmap_lookup_l _ _ _ k (k, q) Hrow') as (y&_&Hy); [by rewrite indexed_lookup, Hq|]. apply draw_ok in Hy as (d&Hd&_). apply lookup_lt_Some in Hd. cbn [fst] in Hd. lia. }
  destruct (Hall (Nat.le_antisymm _ _ HL HL2)) as [HC _]. destruct (rmap_lookup_l _ _ _ i (i, p) Hrow') as ([off roll]&Hy&Hdraw); [by rewrite indexed_lookup, Hi|].
  apply draw_ok in Hdraw as (d&Hd&a&b&r&Ha&Hb&Hr'&Hp1&Hp2&Hoff&Hroll). cbn [fst snd] in *. destruct (Forall2_lookup_lr _ _ _ _ _ _ HC Hi Hd) as (C1&C2&C3).
  pose proof (position_range s p.1 Hnn Hp1) as P1. pose proof (position_range s p.2 Hnn Hp2) as P2.
  exists off, roll, a, b, r. unfold drawn, Spec.entry. rewrite C1, C2, C3. split_and!; try done.
  - destruct (fig !! n) as [fn|]; [|done]. cbn [mbind option_bind] in Hr |- *. by rewrite Hr.
  - intros x y. rewrite (plot_line_ok _ _ _ _ _ _ Hne (proj1 P2) (proj2 P1) Hoff). unfold straight. split; intros [Ho ->]; (split; [done|]); ring.
  - intros x y. rewrite (plot_line_ok _ _ _ _ _ _ Hne (proj1 P2) (proj2 P1) Hroll). unfold straight. split; intros [Ho ->]; (split; [done|]); ring.
Qed.

(** * When there is a figure *)
Definition ok_or {A} (e : exn) (r : res A) : Prop := (exists y, r = Ok y) \/ r = Err e.
Lemma rmap_ok_or {A B} e (f : A -> res B) l : (forall x, x ∈ l -> ok_or e (f x)) -> ok_or e (rmap f l).
Proof.
  induction l as [|x l IH]; intros H; cbn [rmap]; [left; eauto|]. destruct (H x) as [[y ->]| ->]; [by constructor| |by right]. cbn [rbind].
  destruct IH as [[ys ->]| ->]; [intros z Hz; apply H; by constructor| |by right]. left. cbn [rbind]. eauto.
Qed.
Lemma rmap_fails {A B} e (f : A -> res B) l x : (forall x, x ∈ l -> ok_or e (f x)) -> x ∈ l -> f x = Err e -> rmap f l = Err e.
Proof.
  intros H Hx Hf. destruct (rmap_ok_or e f l H) as [[y Hy]|Hy]; [|done]. apply elem_of_list_lookup in Hx as [i Hi]. destruct (rmap_lookup_l _ _ _ _ _ Hy Hi) as (z&_&Hz). congruence.
Qed.
Lemma rmap_total {A B} (f : A -> res B) l : (forall x, x ∈ l -> exists y, f x = Ok y) -> exists l', rmap f l = Ok l'.
Proof.
  induction l as [|x l IH]; intros H; cbn [rmap]; [eauto|]. destruct (H x) as [y ->]; [by constructor|]. cbn [rbind]. destruct IH as [ys ->]; [intros z Hz; apply H; by constructor|]. cbn [rbind]. eauto.
Qed.
Lemma elem_of_indexed {A} (l : list A) ip : ip ∈ indexed l -> l !! ip.1 = Some ip.2.
Proof. intros H. apply elem_of_list_lookup in H as [i Hi]. rewrite indexed_lookup in Hi. destruct (l !! i) eqn:E; [|done]. injection Hi as <-. done. Qed.
Section Exists.
  Context (s : sc R) (lims : R * R) (Hnn : nonneg_lengths s) (He : equipped s).
  Lemma draw_or t found n i p : (n < 3)%nat -> oSupport t (ORD s) !! i = Some p ->
    Forall (fun d => length d.1.1 = 3%nat /\ length d.1.2 = 3%nat /\ length d.2 = 3%nat) found ->
    match found !! i with Some _ => exists y, draw_structure s found n i p = Ok y | None => draw_structure s found n i p = Err IndexError end.
  Proof.
    intros Hn Hi HF. destruct (He t p) as (H1&H2&_&_&_&Hne&Hend); [by eapply elem_of_list_lookup_2|]. unfold draw_structure. rewrite spos_last.
    assert (idx (spos (RING s)) p.1 = Ok (position s p.1)) as -> by (apply idx_ok, spos_position; lia).
    assert (idx (spos (RING s)) p.2 = Ok (position s p.2)) as -> by (apply idx_ok, spos_position; lia). cbn [rbind].
    destruct (found !! i) as [d|] eqn:Ed; [|unfold idx; rewrite Ed; done]. assert (idx found i = Ok d) as -> by (by apply idx_ok). cbn [rbind].
    destruct (proj1 (Forall_lookup _ _) HF i d Ed) as (L1&L2&L3).
    destruct (lookup_lt_is_Some_2 d.1.1 n) as [a Ha]; [lia|]. destruct (lookup_lt_is_Some_2 d.1.2 n) as [b Hb]; [lia|]. destruct (lookup_lt_is_Some_2 d.2 n) as [r Hr]; [lia|].
    apply idx_ok in Ha, Hb, Hr. rewrite Ha, Hb, Hr. cbn [rbind]. pose proof (position_range s p.1 Hnn ltac:(lia)) as P1. pose proof (position_range s p.2 Hnn ltac:(lia)) as P2.
    destruct (plot_line_total (position s p.1) (position s p.2) (million * a) (million * b) (total_length s)) as [off Hoff].
    { intros Hlt Heq. apply Hend. lra. }
    destruct (plot_line_total (position s p.1) (position s p.2) (million * r) (million * r) (total_length s)) as [roll Hroll].
    { intros Hlt Heq. apply Hend. lra. }
    num_R. rewrite Hoff. cbn [rbind]. rewrite Hroll. cbn [rbind]. eauto.
  Qed.
  Lemma found_all : exists found, rmap (fun t => supports_in_range lims s t (oSupport t (ORD s))) SUPPORT_TYPES = Ok found /\
    forall t, exists f, found !! type_place t = Some f /\ supports_in_range lims s t (oSupport t (ORD s)) = Ok f /\
      Forall (fun d => length d.1.1 = 3%nat /\ length d.1.2 = 3%nat /\ length d.2 = 3%nat) f.
  Proof.
    destruct (rmap_total (fun t => supports_in_range lims s t (oSupport t (ORD s))) SUPPORT_TYPES) as [found Hf].
    { intros t _. destruct (in_range_total lims s t He (oSupport t (ORD s))) as (f&Hf&_); eauto. }
    exists found. split; [done|]. intros t. destruct (rmap_lookup_l _ _ _ _ _ Hf (types_lookup t)) as (f&Hf1&Hf2). exists f. split_and!; try done.
    destruct (in_range_total lims s t He (oSupport t (ORD s))) as (f'&Hf'&HF); [done|]. rewrite Hf2 in Hf'. by injection Hf' as ->.
  Qed.
  Definition figure := plot_support (Some lims) s.
  Lemma figure_or : ok_or IndexError figure /\ ((forall t p, p ∈ oSupport t (ORD s) -> shown s lims p) -> exists fig, figure = Ok fig) /\
    (forall t p, p ∈ oSupport t (ORD s) -> ~ shown s lims p -> figure = Err IndexError).
  Proof.
    unfold figure, plot_support. cbv zeta. cbn [from_option]. change (Datatypes.id lims) with lims. destruct found_all as (found&->&Hall). cbn [rbind].
    set (row n kt := let? f := idx found kt.1 in rmap (fun ip => draw_structure s f n ip.1 ip.2) (indexed (oSupport kt.2 (ORD s)))).
    assert (forall n kt, (n < 3)%nat -> kt ∈ indexed SUPPORT_TYPES -> exists f, Forall (fun d => length d.1.1 = 3%nat /\ length d.1.2 = 3%nat /\ length d.2 = 3%nat) f /\
      supports_in_range lims s kt.2 (oSupport kt.2 (ORD s)) = Ok f /\ row n kt = rmap (fun ip => draw_structure s f n ip.1 ip.2) (indexed (oSupport kt.2 (ORD s)))) as Hrow.
    { intros n [k t] Hn Hk. apply elem_of_indexed in Hk. cbn [fst snd] in Hk |- *. assert (k = type_place t) as ->.
      { destruct k as [|[|[|k]]]; cbn in Hk; try done; injection Hk as <-; done. }
      destruct (Hall t) as (f&Hf&Hf2&HF). exists f. split_and!; try done. unfold row. cbn [fst snd]. assert (idx found (type_place t) = Ok f) as -> by (by apply idx_ok). done. }
    assert (forall n kt, (n < 3)%nat -> kt ∈ indexed SUPPORT_TYPES -> ok_or IndexError (row n kt)) as Hor.
    { intros n kt Hn Hk. destruct (Hrow n kt Hn Hk) as (f&HF&_&->). apply rmap_ok_or. intros ip Hip. apply elem_of_indexed in Hip. pose proof (draw_or _ f n _ _ Hn Hip HF) as HD.
      destruct (f !! ip.1); [by left|by right]. }
    assert (forall n, n ∈ seq 0 3 -> (n < 3)%nat) as Hseq by (intros n Hn; apply elem_of_seq in Hn; lia).
    split_and!.
    - apply rmap_ok_or. intros n Hn. apply rmap_ok_or. intros kt Hk. apply Hor; auto.
    - intros Hsh. apply rmap_total. intros n Hn. apply rmap_total. intros kt Hk. destruct (Hrow n kt (Hseq n Hn) Hk) as (f&HF&Hf&Er). unfold row in Er. rewrite Er. apply rmap_total. intros ip Hip. apply elem_of_indexed in Hip.
      pose proof (draw_or _ f n _ _ (Hseq n Hn) Hip HF) as HD. destruct (f !! ip.1) eqn:Ei; [done|]. exfalso. apply in_range_ok in Hf as (_&_&HL). apply lookup_ge_None in Ei. apply lookup_lt_Some in Hip.
      rewrite HL in Ei; [lia|]. apply Forall_forall. eauto.
    - intros t p Hp Hns. apply (rmap_fails _ _ _ 0%nat).
      + intros n Hn. apply rmap_ok_or. intros kt Hk. apply Hor; auto.
      + apply elem_of_seq. lia.
      + assert ((type_place t, t) ∈ indexed SUPPORT_TYPES) as Hk. { apply elem_of_list_lookup. exists (type_place t). rewrite indexed_lookup, types_lookup. done. }
        apply (rmap_fails _ _ _ (type_place t, t)).
        * intros kt Hkt. apply Hor; [lia|done].
        * done.
        * destruct (Hrow 0%nat _ ltac:(lia) Hk) as (f&HF&Hf&Er). unfold row in Er. rewrite Er. cbn [snd] in *. apply in_range_ok in Hf as (HL&HL2&_).
          assert (length f <> length (oSupport t (ORD s))) as Hlen. { intros E. destruct (HL2 E) as [_ HFS]. rewrite Forall_forall in HFS. by apply Hns, HFS. }
          destruct (lookup_lt_is_Some_2 (oSupport t (ORD s)) (length f)) as [q Hq]; [lia|].
          apply (rmap_fails _ _ _ (length f, q)).
          -- intros ip Hip. apply elem_of_indexed in Hip. pose proof (draw_or _ f 0%nat _ _ ltac:(lia) Hip HF) as HD. destruct (f !! ip.1); [by left|by right].
          -- apply elem_of_list_lookup. exists (length f). by rewrite indexed_lookup, Hq.
          -- pose proof (draw_or _ f 0%nat _ _ ltac:(lia) Hq HF) as HD. rewrite lookup_ge_None_2 in HD by lia. exact HD.
  Qed.
End Exists.
(** A figure of a part of the ring exists only if every registered structure has an end in that part; otherwise the call fails with an
    IndexError. *)
Theorem C87_part (s : sc R) lims : nonneg_lengths s -> equipped s ->
  ((exists fig, plot_support (Some lims) s = Ok fig) <-> forall t p, p ∈ oSupport t (ORD s) -> shown s lims p) /\
  ((exists t p, p ∈ oSupport t (ORD s) /\ ~ shown s lims p) -> plot_support (Some lims) s = Err IndexError).
Proof.
  intros Hnn He. destruct (figure_or s lims Hnn He) as (_&H1&H2). unfold figure in *. split.
  - split; [|done]. intros [fig Hfig] t p Hp. destruct (Rle_dec lims.1 (position s p.1)), (Rle_dec (position s p.1) lims.2), (Rle_dec lims.1 (position s p.2)), (Rle_dec (position s p.2) lims.2);
      try (unfold shown; lra); exfalso; rewrite (H2 t p Hp) in Hfig; try done; unfold shown; lra.
  - intros (t&p&Hp&Hns). eauto.
Qed.
(** Without limits there is always a figure. *)
Theorem C87_whole (s : sc R) : nonneg_lengths s -> equipped s -> exists fig, plot_support None s = Ok fig.
Proof.
  intros Hnn He. destruct (figure_or s (0, total_length s) Hnn He) as (_&H1&_). unfold figure in H1. replace (plot_support None s) with (plot_support (Some (0, total_length s)) s); [|unfold plot_support; cbv zeta; by rewrite spos_last].
  apply H1. intros t p Hp. destruct (He t p Hp) as (L1&_). left. cbn [fst snd]. apply position_range; [done|lia].
Qed.
(** The line of a structure that stands alone passes through the displacements of its elements. *)
Theorem C87_displacements lims (s : sc R) fig off roll t p : nonneg_lengths s -> forward_supports s -> only_supports s [(t, p)] -> plot_support lims s = Ok fig ->
  support_offset_and_roll (spos (RING s)) s = Ok (off, roll) ->
  forall n i, (n < 3)%nat -> on_support p i -> exists ls ls' x, drawn fig n t 0 = Some (ls, ls') /\ cell off n i = Some x /\ on_lines ls (position s i, 1000000 * x).
Proof.
  intros Hnn Hfw Hon H Hsup n i Hn Hi. assert (p ∈ oSupport t (ORD s)) as Hp by (apply Hon, elem_of_list_singleton; done). destruct (Hfw t p Hp) as (F1&F2&F3).
  assert (oSupport t (ORD s) !! 0%nat = Some p) as H0.
  { destruct (oSupport t (ORD s)) as [|q l] eqn:E; [by apply elem_of_nil in Hp|]. assert (q ∈ oSupport t (ORD s)) as Hq by (rewrite E; constructor). apply Hon, elem_of_list_singleton in Hq. by injection Hq as ->. }
  destruct (C87_lines _ _ _ Hnn H n t 0 p Hn H0 ltac:(lra)) as (ls&ls'&a&b&r&Hd&Ha&Hb&_&Hl&_). destruct (C32_single s off roll t p Hnn Hfw Hon Hsup n i Hn) as [HC _]; [unfold on_support in Hi; lia|].
  destruct (HC Hi) as (a'&b'&Ha'&Hb'&Hc&_). rewrite Ha in Ha'. injection Ha' as <-. rewrite Hb in Hb'. injection Hb' as <-. exists ls, ls', (line (position s p.1) (position s p.2) a b (position s i)). split_and!; [done|done|].
  apply Hl. destruct Hi as [I1 I2]. pose proof (position_mono s _ _ Hnn I1) as M1. pose proof (position_mono s _ _ Hnn I2) as M2. split; [left; lra|]. f_equal. unfold line, straight. rewrite !way_ahead by lra. field. lra.
Qed.

Print Assumptions C87_lines.
Print Assumptions C87_part.
Print Assumptions C87_whole.
Print Assumptions C87_displacements.

(** * Cases *)
(** five elements of length 1; a girder from the second to the fourth element, a section from the last one across the end of the lattice *)
Section Case.
  Context {T : Type} {N : Num T}.
  Definition stand (a : list (string * val T)) : elem T := mk (("Length", VNum (num 1)) :: a).
  Definition stood : list (elem T) :=
    [stand [];
     stand [("GirderOffset", VVec [num 1; num 0; num 0]); ("GirderRoll", VVec [num 7; num 0; num 0]); ("SectionOffset", VVec [num 3; num 0; num 0])];
     stand [];
     stand [("GirderOffset", VVec [num 5; num 0; num 0])];
     stand [("SectionOffset", VVec [num 1; num 0; num 0]); ("SectionRoll", VVec [num 2; num 0; num 0])]].
  Definition stood_sc : sc T := set_ORD (set_oSupport SGirder [(1%nat, 3%nat)] (set_oSupport SSection [(4%nat, 1%nat)] (ORD (init_sc stood [])))) (init_sc stood []).
End Case.
Definition M6 : Q := inject_Z 1000000.
Example C87_case :
  (match plot_support (T:=Q) None stood_sc with Ok fig => (drawn fig 0 SGirder 0, drawn fig 0 SSection 0) | Err _ => (None, None) end) =
    (Some ([[(1%Q, M6); (3%Q, Qred (5 * M6))]], [[(1%Q, Qred (7 * M6)); (3%Q, Qred (7 * M6))]]),
     Some ([[(4%Q, M6); (5%Q, Qred (2 * M6))]; [(0%Q, Qred (2 * M6)); (1%Q, Qred (3 * M6))]], [[(4%Q, Qred (2 * M6)); (5%Q, Qred (2 * M6))]; [(0%Q, Qred (2 * M6)); (1%Q, Qred (2 * M6))]])) /\
  (match plot_support (T:=Q) (Some (0, 2)%Q) stood_sc with Ok _ => true | Err _ => false end) = true /\
  (match plot_support (T:=Q) (Some (2, 3)%Q) stood_sc with Ok _ => None | Err e => Some e end) = Some IndexError.
Proof. vm_compute. done. Qed.
Lemma stood_lengths : forall i, length_at (stood_sc (T:=R)) i = if (i <? 5)%nat then 1 else 0.
Proof. intros i. do 5 (destruct i as [|i]; [done|]). done. Qed.
Example C87_premises : nonneg_lengths (stood_sc (T:=R)) /\ equipped (stood_sc (T:=R)) /\ shown (stood_sc (T:=R)) (0, 2) (4%nat, 1%nat) /\ ~ shown (stood_sc (T:=R)) (2, 3) (4%nat, 1%nat).
Proof.
  assert (forall i, (i <= 5)%nat -> position (stood_sc (T:=R)) i = INR i) as Hpos.
  { intros i Hi. induction i as [|i IH]; [done|]. rewrite position_S, IH, stood_lengths, S_INR by lia. destruct (i <? 5)%nat eqn:E; [done|]. apply Nat.ltb_ge in E. lia. }
  assert (total_length (stood_sc (T:=R)) = 5) as Ht. { change (position (stood_sc (T:=R)) 5 = 5). rewrite Hpos by lia. simpl. lra. }
  split_and!.
  - intros i. rewrite stood_lengths. destruct (i <? 5)%nat; lra.
  - intros t p Hp. destruct t; cbn in Hp; [apply elem_of_list_singleton in Hp as ->|by apply elem_of_nil in Hp|apply elem_of_list_singleton in Hp as ->]; cbn [fst snd]; rewrite !Hpos, Ht by lia;
      (split_and!; [cbn; lia|cbn; lia|do 3 eexists; reflexivity|do 3 eexists; reflexivity|do 3 eexists; reflexivity|simpl; lra|simpl; lra]).
  - unfold shown. cbn [fst snd]. rewrite !Hpos by lia. simpl. lra.
  - unfold shown. cbn [fst snd]. rewrite !Hpos by lia. simpl. lra.
Qed.
