(** C103: the figure of a BPM reading. *)
From Coq Require Import Reals Lra Lia QArith ZArith.
From stdpp Require Import base gmap strings list.
From Verif Require Import Num Base Examples Model_Arr Model_SC Model_Err Model_Beam Model_BeamPlot Lemmas Proofs_Beam Spec Properties_Circ Properties_Support Properties_Interp Properties_Model Properties_Beam Properties_Beam2 Properties_Figure.
Local Open Scope string_scope.
Local Open Scope list_scope.
Local Open Scope R_scope.
Notation shaped := Properties_Figure.shaped.

(** * Specification *)

(** place of the entrance of element [i] (or of the end of the ring) in turn [t], counted from the start of the first turn *)
Definition place (s : sc R) (t i : nat) : R := INR t * total_length s + position s i.
Definition millimetres (x : option R) : option R := match x with Some v => Some (1000 * v) | None => None end.
(** the limits of the chamber in an element; elliptic ones if there are both *)
Definition wall (e : elem R) (plane : nat) : option (R * R) :=
  let both f := match f e plane false, f e plane true with Some lo, Some hi => Some (lo, hi) | _, _ => None end in
  match e !! "EApertures" with Some _ => both e_limit | None => both r_limit end.
(** the readings [y], turn by turn, each at the place of its BPM *)
Definition marked (s : sc R) (bpms : list nat) (y : list (option R)) (p : panel R) : Prop :=
  length (f_marks p) = (nTurns (INJ s) * length bpms)%nat /\
  forall t b o, (t < nTurns (INJ s))%nat -> bpms !! b = Some o -> exists v, y !! (t * length bpms + b)%nat = Some v /\
    f_marks p !! (t * length bpms + b)%nat = Some (place s t o, millimetres v).
(** the chamber, in every turn at the entrance of every element that has limits and nowhere else *)
Definition walled (s : sc R) (plane : nat) (p : panel R) : Prop :=
  forall x lo hi, (x, (lo, hi)) ∈ f_apertures p <->
    exists t i e a b, (t < nTurns (INJ s))%nat /\ RING s !! i = Some e /\ wall e plane = Some (a, b) /\ x = place s t i /\ lo = 1000 * a /\ hi = 1000 * b.
(** dotted lines where the turns begin, axes that hold all turns and fifteen millimetres to either side *)
Definition framed (s : sc R) (p : panel R) : Prop :=
  f_breaks p = map (fun t => INR t * total_length s) (seq 0 (nTurns (INJ s))) /\ f_xlim p = (0, INR (nTurns (INJ s)) * total_length s) /\ f_ylim p = (-15, 15).
(** for every shot the particles at all elements, turn by turn *)
Definition traced (s : sc R) (plane : nat) (shots : list (tracked R)) (p : panel R) : Prop :=
  length (f_trajectories p) = length shots /\
  forall k tk, shots !! k = Some tk -> exists tr, f_trajectories p !! k = Some tr /\ length tr = (nTurns (INJ s) * S (length (RING s)))%nat /\
    forall t i, (t < nTurns (INJ s))%nat -> (i <= length (RING s))%nat ->
      tr !! (t * S (length (RING s)) + i)%nat = Some (place s t i, map (fun q => millimetres (t_pos tk plane q i t)) (seq 0 (nParticles (INJ s)))).

(** * Lemmas *)
Lemma combine_lookup {A B} (l : list A) (k : list B) : forall i, combine l k !! i = match l !! i, k !! i with Some a, Some b => Some (a, b) | _, _ => None end.
Proof.
  revert k. induction l as [|a l IH]; intros [|b k] [|i]; try done; cbn [combine].
  - cbn. by destruct (l !! i).
  - exact (IH k i).
Qed.
Lemma turn_axis_length nt (c : R) places : length (turn_axis nt c places) = (nt * length places)%nat.
Proof. unfold turn_axis. rewrite <- (seq_length nt 0) at 2. generalize (seq 0 nt). intros l. induction l as [|t l IH]; [done|]. cbn [map concat]. rewrite app_length, IH, map_length. cbn. lia. Qed.
Lemma blocks_lookup {A B} (f : nat -> B -> A) (l : list B) b x : l !! b = Some x -> forall nt a t, (t < nt)%nat ->
  concat (map (fun t => map (f t) l) (seq a nt)) !! (t * length l + b)%nat = Some (f (a + t)%nat x).
Proof.
  intros Hb. pose proof (lookup_lt_Some _ _ _ Hb) as HL. induction nt as [|nt IH]; intros a t Ht; [lia|]. cbn [seq map concat]. destruct t as [|t].
  - rewrite lookup_app_l by (rewrite map_length; lia). change (map (f a) l) with (f a <$> l). rewrite list_lookup_fmap, Nat.add_0_r. cbn [Nat.mul Nat.add]. by rewrite Hb.
  - rewrite lookup_app_r by (rewrite map_length; lia). rewrite map_length. replace (S t * length l + b - length l)%nat with (t * length l + b)%nat by lia.
    rewrite IH by lia. f_equal. f_equal. lia.
Qed.
Lemma turn_axis_lookup nt (c : R) places t b x : (t < nt)%nat -> places !! b = Some x -> turn_axis nt c places !! (t * length places + b)%nat = Some (INR t * c + x).
Proof. intros Ht Hb. unfold turn_axis. rewrite (blocks_lookup (fun t x => nadd (nmul (nofnat t) c) x) places b x Hb nt 0 t Ht). f_equal. num_R. by rewrite Nat.add_0_l. Qed.
Lemma oscale_mm (x : option R) : oscale thousand x = millimetres x.
Proof. destruct x as [v|]; [|done]. unfold oscale, thousand. cbn. f_equal. Qed.
Lemma paired_ok {A B} (x : list A) (y : list B) l : paired x y = Ok l -> length x = length y /\ l = combine x y.
Proof. unfold paired. destruct (length x =? length y)%nat eqn:E; [|discriminate]. apply Nat.eqb_eq in E. intros [= <-]. done. Qed.
Lemma paired_total {A B} (x : list A) (y : list B) : length x = length y -> paired x y = Ok (combine x y).
Proof. intros E. unfold paired. by rewrite E, Nat.eqb_refl. Qed.

Definition side_of {A} (plane : nat) (a : A * A) : A := if (plane =? 0)%nat then a.1 else a.2.
Lemma limits_of_ok (e : elem R) r : limits_of e = Ok r -> forall plane, (plane < 2)%nat -> wall e plane = side_of plane <$> r.
Proof.
  unfold limits_of, wall, e_limit, r_limit. intros H plane Hp.
  assert (forall a : R, nmul a (nopp n1) = - a /\ nmul a n1 = a) as E by (intros a; num_R; split; lra).
  destruct (e !! "EApertures") as [v|] eqn:Ee.
  - destruct v as [|l| | | | | | | | |]; try discriminate. destruct l as [|a [|b [|]]]; try discriminate. apply (f_equal (fun x => match x with Ok l => l | Err _ => r end)) in H. cbv beta iota in H. subst r. destruct (E a) as [-> ->], (E b) as [-> ->]. destruct plane as [|[|]]; [done|done|lia].
  - destruct (e !! "RApertures") as [v|] eqn:Er; [|injection H as <-; done].
    destruct v as [|l| | | | | | | | |]; try discriminate. destruct l as [|a [|b [|c [|d [|]]]]]; try discriminate. injection H as <-. destruct plane as [|[|]]; [done|done|lia].
Qed.
Lemma limits_of_total (e : elem R) : shaped e -> exists r, limits_of e = Ok r.
Proof. intros [[H1|(a&b&H1)] [H2|(c&d&f&g&H2)]]; unfold limits_of; rewrite H1; try rewrite H2; eauto. Qed.
Lemma ring_aperture_ok (ring : list (elem R)) aps : ring_aperture ring = Ok aps -> forall plane, (plane < 2)%nat -> forall i w,
  (exists a, (i, a) ∈ aps /\ w = side_of plane a) <-> exists e, ring !! i = Some e /\ wall e plane = Some w.
Proof.
  unfold ring_aperture. intros H plane Hp i w. apply rbind_ok in H as (l&Hl&H). injection H as <-. apply rmap_ok in Hl. pose proof (Forall2_length _ _ _ Hl) as HL. split.
  - intros (a&Ha&->). apply elem_of_list_omap in Ha as ([j o]&Hj&Ho). cbn in Ho. destruct o as [a'|]; [|discriminate]. injection Ho as -> ->.
    apply elem_of_list_lookup in Hj as [k Hk]. rewrite combine_lookup in Hk. destruct (seq _ _ !! k) as [j|] eqn:Ej; [|done]. apply lookup_seq in Ej as [-> Hlt]. destruct (l !! k) as [r|] eqn:Er; [|done].
    injection Hk as -> ->. destruct (Forall2_lookup_r _ _ _ _ _ Hl Er) as (e&He&Hlim). exists e. split; [done|]. by rewrite (limits_of_ok e _ Hlim plane Hp).
  - intros (e&He&Hw). destruct (Forall2_lookup_l _ _ _ _ _ Hl He) as (r&Hr&Hlim). rewrite (limits_of_ok e _ Hlim plane Hp) in Hw. destruct r as [a|]; [|discriminate]. injection Hw as <-.
    exists a. split; [|done]. apply elem_of_list_omap. exists (i, Some a). split; [|done]. apply elem_of_list_lookup. exists i. rewrite combine_lookup, Hr, lookup_seq_lt by (by eapply lookup_lt_Some). done.
Qed.
Lemma ring_aperture_in (ring : list (elem R)) aps i a : ring_aperture ring = Ok aps -> (i, a) ∈ aps -> (i < length ring)%nat.
Proof. intros H Hi. destruct (proj1 (ring_aperture_ok ring aps H 0 ltac:(lia) i (side_of 0 a)) ltac:(eauto)) as (e&He&_). by eapply lookup_lt_Some. Qed.
Lemma circumference_R (s : sc R) : last (spos (RING s)) = Some (total_length s).
Proof.
  rewrite <- spos_last. pose proof (spos_length s) as HL. destruct (last (spos (RING s))) as [x|] eqn:E; [done|]. apply last_None in E. by rewrite E in HL.
Qed.
Lemma panel_total (s : sc R) bpms plane y shots : Forall shaped (RING s) -> (forall o, o ∈ bpms -> (o < length (RING s))%nat) -> length y = (nTurns (INJ s) * length bpms)%nat ->
  exists p, reading_panel s bpms plane y shots = Ok p.
Proof.
  intros Hs Hin Hy. unfold reading_panel.
  assert (exists aps, ring_aperture (RING s) = Ok aps) as [aps Ha].
  { unfold ring_aperture. assert (exists l, rmap limits_of (RING s) = Ok l) as [l ->]; [|cbn; eauto]. clear -Hs. induction Hs as [|e l He Hl [r Hr]]; [by exists []|]. destruct (limits_of_total e He) as [x Hx]. cbn. rewrite Hx. cbn. rewrite Hr. cbn. eauto. }
  rewrite Ha. cbn [rbind]. rewrite circumference_R. cbn [rbind].
  rewrite (rmap_map_total _ (fun tk => combine (turn_axis (nTurns (INJ s)) (total_length s) (spos (RING s))) (trajectories (nTurns (INJ s)) (S (length (RING s))) (nParticles (INJ s)) plane tk)) shots).
  2: { intros tk _. apply paired_total. rewrite turn_axis_length, spos_length. unfold trajectories. by rewrite arrival_length. }
  cbn [rbind]. rewrite (rmap_map_total _ (position s) bpms). 2: { intros o Ho. apply Hin in Ho. unfold idx. by rewrite spos_position by lia. }
  cbn [rbind]. rewrite paired_total by (by rewrite turn_axis_length, !map_length). cbn [rbind].
  rewrite (rmap_map_total _ (fun a => position s a.1) aps). 2: { intros [i a] Hi. apply (ring_aperture_in _ _ _ _ Ha) in Hi. unfold idx. cbn. by rewrite spos_position by lia. }
  cbn [rbind]. rewrite paired_total; [cbn [rbind]; eauto|]. rewrite turn_axis_length, map_length. generalize (nTurns (INJ s)). intros nt. induction nt as [|nt IH]; [done|]. cbn [replicate concat]. rewrite app_length, map_length, <- IH. cbn. lia.
Qed.
Lemma panel_ok (s : sc R) bpms plane y shots p : (plane < 2)%nat -> reading_panel s bpms plane y shots = Ok p ->
  length y = (nTurns (INJ s) * length bpms)%nat /\ marked s bpms y p /\ walled s plane p /\ framed s p /\ traced s plane shots p.
Proof.
  intros Hp H. unfold reading_panel in H. apply rbind_ok in H as (aps&Ha&H). rewrite circumference_R in H. cbn [rbind] in H.
  apply rbind_ok in H as (trajs&Ht&H). apply rbind_ok in H as (places&Hpl&H). apply rbind_ok in H as (marks&Hm&H). apply rbind_ok in H as (app&Hap&H). apply rbind_ok in H as (walls&Hw&H).
  apply (f_equal (fun r => match r with Ok l => l | Err _ => p end)) in H. cbv beta iota in H. subst p.
  set (nt := nTurns (INJ s)) in *. set (C := total_length s) in *.
  apply rmap_ok in Hpl. pose proof (Forall2_length _ _ _ Hpl) as HLp. apply paired_ok in Hm as [HLm ->]. rewrite turn_axis_length, map_length, <- HLp in HLm.
  assert (forall i x, idx (spos (RING s)) i = Ok x -> x = position s i) as Hpos.
  { intros i x Hx. apply idx_ok in Hx. pose proof (lookup_lt_Some _ _ _ Hx) as Hl. rewrite spos_length in Hl. rewrite spos_position in Hx by lia. congruence. }
  split; [done|]. split; [|split; [|split]].
  - split; cbn [f_marks].
    + rewrite combine_length, turn_axis_length, map_length, <- HLp. fold nt. lia.
    + intros t b o Hlt Hb. destruct (Forall2_lookup_l _ _ _ _ _ Hpl Hb) as (x&Hx&Hi). apply Hpos in Hi. pose proof (lookup_lt_Some _ _ _ Hb) as Hbl.
      destruct (lookup_lt_is_Some_2 y (t * length bpms + b)%nat) as [v Hv]. { rewrite <- HLm. fold nt in Hlt. nia. }
      exists v. split; [done|]. rewrite combine_lookup. rewrite HLp at 1. rewrite (turn_axis_lookup nt C places t b x Hlt Hx).
      change (map (oscale thousand) y) with (oscale thousand <$> y). rewrite list_lookup_fmap, Hv. cbn. rewrite oscale_mm. unfold place. by rewrite Hi.
  - unfold walled. cbn [f_apertures]. intros x lo hi. apply paired_ok in Hw as [_ ->]. apply rmap_ok in Hap. pose proof (Forall2_length _ _ _ Hap) as HLa.
    set (side := fun a : R * R * (R * R) => if (plane =? 0)%nat then a.1 else a.2). set (g := fun a : nat * (R * R * (R * R)) => (nmul thousand (side a.2).1, nmul thousand (side a.2).2)).
    match goal with |- context [replicate nt ?m] => change m with (map g aps) end.
    assert (concat (replicate nt (map g aps)) = concat (map (fun t => map ((fun _ => g) t) aps) (seq 0 nt))) as ->.
    { generalize 0%nat. generalize nt. clear. intros nt. induction nt as [|nt IH]; intros a; [done|]. cbn [replicate concat seq map]. by rewrite (IH (S a)). }
    assert (forall t k i a, (t < nt)%nat -> aps !! k = Some (i, a) -> combine (turn_axis nt C app) (concat (map (fun t => map ((fun _ => g) t) aps) (seq 0 nt))) !! (t * length aps + k)%nat = Some (place s t i, g (i, a))) as Hlk.
    { intros t k i a Hlt Hk. rewrite combine_lookup. destruct (Forall2_lookup_l _ _ _ _ _ Hap Hk) as (x'&Hx'&Hi). cbn in Hi. apply Hpos in Hi. rewrite HLa at 1.
      rewrite (turn_axis_lookup nt C app t k x' Hlt Hx'). rewrite (blocks_lookup (fun _ => g) aps k (i, a) Hk nt 0 t Hlt). unfold place. by rewrite Hi. }
    split.
    + intros Hin. apply elem_of_list_lookup in Hin as [j Hj]. pose proof (lookup_lt_Some _ _ _ Hj) as Hjl. rewrite combine_length, turn_axis_length, <- HLa in Hjl.
      assert (length aps <> 0)%nat as Hne by (intros E; rewrite E in Hjl; lia).
      pose proof (Nat.div_mod j (length aps) Hne) as Edm. pose proof (Nat.mod_upper_bound j (length aps) Hne) as Hmod. assert (j / length aps < nt)%nat as Hdiv by (apply Nat.div_lt_upper_bound; lia).
      destruct (lookup_lt_is_Some_2 aps (j mod length aps) Hmod) as [[i a] Hk]. specialize (Hlk _ _ _ _ Hdiv Hk). replace (j / length aps * length aps + j mod length aps)%nat with j in Hlk by lia.
      rewrite Hj in Hlk. injection Hlk as -> -> ->.
      destruct (proj1 (ring_aperture_ok _ _ Ha plane Hp i (side_of plane a)) ltac:(exists a; split; [by eapply elem_of_list_lookup_2|done])) as (e&He&Hwl).
      exists (j / length aps)%nat, i, e, (side_of plane a).1, (side_of plane a).2. split_and!; try done. by destruct (side_of plane a).
    + intros (t&i&e&a&b&Hlt&He&Hwl&->&->&->). destruct (proj2 (ring_aperture_ok _ _ Ha plane Hp i (a, b)) ltac:(eauto)) as (l&Hl&El). apply elem_of_list_lookup in Hl as [k Hk].
      apply elem_of_list_lookup. exists (t * length aps + k)%nat. rewrite (Hlk t k i l Hlt Hk). unfold g, side. cbn [snd]. fold (side_of plane l). by rewrite <- El.
  - unfold framed. cbn [f_breaks f_xlim f_ylim]. split_and!.
    + apply map_ext. intros t. num_R. done.
    + num_R. done.
    + done.
  - unfold traced. cbn [f_trajectories]. apply rmap_ok in Ht. split; [by rewrite (Forall2_length _ _ _ Ht)|]. intros k tk Hk. destruct (Forall2_lookup_l _ _ _ _ _ Ht Hk) as (tr&Htr&Hpa). exists tr. split; [done|].
    apply paired_ok in Hpa as [HL ->]. split; [rewrite combine_length, <- HL, turn_axis_length, spos_length; fold nt; lia|]. intros t i Hlt Hi. rewrite combine_lookup.
    rewrite <- (spos_length s) at 1. rewrite (turn_axis_lookup nt C (spos (RING s)) t i (position s i) Hlt) by (by apply spos_position).
    unfold trajectories. rewrite arrival_lookup by (done || lia). done.
Qed.

(** * Theorems *)
Section C103.
  Context (w : world R).

  (** The reading is the same with the figure as without; the figure can be drawn whenever the limits of the chamber are arrays of the right length. *)
  Theorem C103_only_drawn req errors (s s' : sc R) r fig : bpm_reading_drawn w req errors s = (Ok (r, fig), s') -> bpm_reading w req errors s = (Ok r, s').
  Proof.
    intros H. unfold bpm_reading_drawn in H. unfold bpm_reading. apply bind_ok in H as (s0&s1&H0&H). apply get_ok in H0 as [-> ->]. unfold bind at 1, get. cbn beta iota.
    apply bind_ok in H as (ords&s2&H1&H). unfold bind at 1. rewrite H1. apply lift_ok in H1 as [H1 ->]. cbn beta iota.
    apply bind_ok in H as (shots&s2&H2&H). unfold bind at 1. rewrite H2. apply bind_ok in H as (sums&s3&H3&H). unfold bind at 1. rewrite H3. apply lift_ok in H3 as [_ ->].
    apply bind_ok in H as (fig'&s3&H4&H). apply lift_ok in H4 as [_ ->]. destruct (decide _).
    - apply bind_ok in H as (xs&s3&H5&H). unfold bind at 1. rewrite H5. apply bind_ok in H as (ys&s4&H6&H). unfold bind at 1. rewrite H6. apply bind_ok in H as (ss&s5&H7&H). unfold bind at 1. rewrite H7.
      apply ret_ok in H as [[= <- <-] ->]. done.
    - destruct (errors && _)%bool.
      + apply bind_ok in H as (xs&s3&H5&H). unfold bind at 1. rewrite H5. apply bind_ok in H as (ys&s4&H6&H). unfold bind at 1. rewrite H6. apply ret_ok in H as [E ->]. apply (f_equal fst) in E. cbn [fst] in E. by subst r.
      + apply ret_ok in H as [E ->]. apply (f_equal fst) in E. cbn [fst] in E. by subst r.
  Qed.
  Theorem C103_drawing_returns req errors (s s' : sc R) r : bpm_reading w req errors s = (Ok r, s') -> Forall shaped (RING s) -> (forall o, o ∈ oBPM (ORD s) -> (o < length (RING s))%nat) ->
    exists fig, bpm_reading_drawn w req errors s = (Ok (r, fig), s').
  Proof.
    intros H Hs Hin. unfold bpm_reading in H. unfold bpm_reading_drawn. apply bind_ok in H as (s0&s1&H0&H). apply get_ok in H0 as [-> ->]. unfold bind at 1, get. cbn beta iota.
    apply bind_ok in H as (ords&s2&H1&H). unfold bind at 1. rewrite H1. apply lift_ok in H1 as [H1 ->]. cbn beta iota.
    assert (forall o, o ∈ ords -> (o < length (RING s))%nat) as Hin'.
    { intros o Ho. apply Hin. destruct req as [l|]; [|congruence]. unfold only_registered in H1. destruct (List.filter _ _) as [|x f] eqn:E; [discriminate|]. injection H1 as <-. rewrite <- E in Ho. apply elem_of_list_In, filter_In in Ho as [Ho _]. by apply elem_of_list_In. }
    apply bind_ok in H as (shots&s2&H2&H). unfold bind at 1. rewrite H2. apply bind_ok in H as (sums&s3&H3&H). unfold bind at 1. rewrite H3. apply lift_ok in H3 as [_ ->].
    set (nb := length ords) in *. set (nt := nTurns (INJ s)) in *.
    destruct (panel_total s ords 0 (arrival nb nt (fun b t => mean_pos 0 (cell_of shots b t))) [] Hs Hin') as [p1 E1]; [by rewrite arrival_length|].
    destruct (panel_total s ords 1 (arrival nb nt (fun b t => mean_pos 1 (cell_of shots b t))) [] Hs Hin') as [p2 E2]; [by rewrite arrival_length|].
    exists (p1, p2). unfold bind at 1, lift at 1. unfold reading_figure. rewrite E1. cbn [rbind]. rewrite E2. cbn [rbind]. destruct (decide _).
    - apply bind_ok in H as (xs&s3&H5&H). unfold bind at 1. rewrite H5. apply bind_ok in H as (ys&s4&H6&H). unfold bind at 1. rewrite H6. apply bind_ok in H as (ss&s5&H7&H). unfold bind at 1. rewrite H7.
      apply ret_ok in H as [<- ->]. done.
    - destruct (errors && _)%bool.
      + apply bind_ok in H as (xs&s3&H5&H). unfold bind at 1. rewrite H5. apply bind_ok in H as (ys&s4&H6&H). unfold bind at 1. rewrite H6. apply ret_ok in H as [<- ->]. done.
      + apply ret_ok in H as [<- ->]. done.
  Qed.

  (** the values shown by the marks in turn [t] for the [b]-th BPM, and what is read there *)
  Lemma drawn_inv req errors (s s' : sc R) r p1 p2 ords : match req with None => ords = oBPM (ORD s) | Some l => only_registered (oBPM (ORD s)) l = Ok ords end ->
    bpm_reading_drawn w req errors s = (Ok (r, (p1, p2)), s') ->
    exists (pos : nat -> nat -> nat -> option R) (sum : nat -> nat -> R),
      reading_panel s ords 0 (arrival (length ords) (nTurns (INJ s)) (pos 0%nat)) [] = Ok p1 /\ reading_panel s ords 1 (arrival (length ords) (nTurns (INJ s)) (pos 1%nat)) [] = Ok p2 /\
      (trackMode (INJ s) <> "PORB" -> r_x r = arrival (length ords) (nTurns (INJ s)) (pos 0%nat) /\ r_y r = arrival (length ords) (nTurns (INJ s)) (pos 1%nat)) /\
      (trackMode (INJ s) = "PORB" ->
        rmap (fun b => porb_pos (map (fun t => (pos 0%nat b t, sum b t)) (seq 0 (nTurns (INJ s))))) (seq 0 (length ords)) = Ok (r_x r) /\
        rmap (fun b => porb_pos (map (fun t => (pos 1%nat b t, sum b t)) (seq 0 (nTurns (INJ s))))) (seq 0 (length ords)) = Ok (r_y r)).
  Proof.
    intros Ho H. unfold bpm_reading_drawn in H. apply bind_ok in H as (s0&s1&H0&H). apply get_ok in H0 as [-> ->].
    apply bind_ok in H as (ords'&s2&H1&H). apply lift_ok in H1 as [H1 ->].
    assert (ords' = ords) as -> by (destruct req; [congruence|by subst; injection H1]).
    apply bind_ok in H as (shots&s2&H2&H). apply bind_ok in H as (sums&s3&H3&H). apply lift_ok in H3 as [H3 ->].
    apply bind_ok in H as (fig&s3&H4&H). apply lift_ok in H4 as [H4 ->]. unfold reading_figure in H4. apply rbind_ok in H4 as (q1&E1&H4). apply rbind_ok in H4 as (q2&E2&H4). injection H4 as <-.
    exists (fun plane b t => mean_pos plane (cell_of shots b t)), (fun b t => default n0 (row ← sums !! b; row !! t)).
    assert (forall a b c d : panel R, (a, b) = (c, d) -> a = c /\ b = d) as Hpair by (intros ? ? ? ? [= -> ->]; done).
    destruct (decide (trackMode (INJ s) = "PORB")) as [Em|Em].
    - apply bind_ok in H as (xs&s3&H5&H). apply bind_ok in H as (ys&s4&H6&H). apply bind_ok in H as (ss&s5&H7&H). apply lift_ok in H5 as [H5 ->]. apply lift_ok in H6 as [H6 ->].
      apply ret_ok in H as [E _]. pose proof (f_equal fst E) as Er. pose proof (f_equal snd E) as Ef. cbn [fst snd] in Er, Ef. apply Hpair in Ef as [<- <-]. subst r. split_and!; try done.
    - assert (r_x r = arrival (length ords) (nTurns (INJ s)) (fun b t => mean_pos 0 (cell_of shots b t)) /\ r_y r = arrival (length ords) (nTurns (INJ s)) (fun b t => mean_pos 1 (cell_of shots b t)) /\ (q1, q2) = (p1, p2)) as (Ex&Ey&Ef).
      { destruct (errors && _)%bool.
        - apply bind_ok in H as (xs&s3&H5&H). apply bind_ok in H as (ys&s4&H6&H). apply ret_ok in H as [E _]. pose proof (f_equal fst E) as Er. pose proof (f_equal snd E) as Ef. cbn [fst snd] in Er, Ef. subst r. done.
        - apply ret_ok in H as [E _]. pose proof (f_equal fst E) as Er. pose proof (f_equal snd E) as Ef. cbn [fst snd] in Er, Ef. subst r. done. }
      apply Hpair in Ef as [<- <-]. split_and!; try done.
  Qed.

  (** Outside the pseudo-orbit mode every reading returned has its mark. *)
  Theorem C103_marks req errors (s s' : sc R) r p1 p2 ords : trackMode (INJ s) <> "PORB" ->
    match req with None => ords = oBPM (ORD s) | Some l => only_registered (oBPM (ORD s)) l = Ok ords end ->
    bpm_reading_drawn w req errors s = (Ok (r, (p1, p2)), s') -> marked s ords (r_x r) p1 /\ marked s ords (r_y r) p2.
  Proof.
    intros Hm Ho H. destruct (drawn_inv _ _ _ _ _ _ _ _ Ho H) as (pos&sum&E1&E2&Hr&_). destruct (Hr Hm) as [-> ->].
    apply panel_ok in E1 as (_&?&_); [|lia]. apply panel_ok in E2 as (_&?&_); [|lia]. done.
  Qed.
  (** In the pseudo-orbit mode the figure shows the single turns; the value returned for a BPM is a mean of those it shows. *)
  Theorem C103_pseudo_orbit req errors (s s' : sc R) r p1 p2 ords : trackMode (INJ s) = "PORB" ->
    match req with None => ords = oBPM (ORD s) | Some l => only_registered (oBPM (ORD s)) l = Ok ords end ->
    bpm_reading_drawn w req errors s = (Ok (r, (p1, p2)), s') ->
    exists (x y : nat -> nat -> option R) (q : nat -> nat -> R),
      marked s ords (arrival (length ords) (nTurns (INJ s)) x) p1 /\ marked s ords (arrival (length ords) (nTurns (INJ s)) y) p2 /\
      forall b, (b < length ords)%nat -> exists u v, r_x r !! b = Some u /\ r_y r !! b = Some v /\
        turn_mean (map (fun t => (x b t, q b t)) (seq 0 (nTurns (INJ s)))) u /\ turn_mean (map (fun t => (y b t, q b t)) (seq 0 (nTurns (INJ s)))) v.
  Proof.
    intros Hm Ho H. destruct (drawn_inv _ _ _ _ _ _ _ _ Ho H) as (pos&sum&E1&E2&_&Hr). destruct (Hr Hm) as [Hx Hy].
    apply panel_ok in E1 as (_&?&_); [|lia]. apply panel_ok in E2 as (_&?&_); [|lia]. exists (pos 0%nat), (pos 1%nat), sum. split_and!; [done..|]. intros b Hb.
    apply rmap_ok in Hx, Hy. assert (seq 0 (length ords) !! b = Some b) as Hsb by (by rewrite lookup_seq_lt).
    destruct (Forall2_lookup_l _ _ _ _ _ Hx Hsb) as (u&Hu&Eu). destruct (Forall2_lookup_l _ _ _ _ _ Hy Hsb) as (v&Hv&Ev). exists u, v. split_and!; try done; by apply porb_turn_mean.
  Qed.
  (** The rest of the panels. *)
  Theorem C103_frame req errors (s s' : sc R) r p1 p2 : bpm_reading_drawn w req errors s = (Ok (r, (p1, p2)), s') ->
    walled s 0 p1 /\ walled s 1 p2 /\ framed s p1 /\ framed s p2 /\ f_trajectories p1 = [] /\ f_trajectories p2 = [].
  Proof.
    intros H. assert (exists ords, match req with None => ords = oBPM (ORD s) | Some l => only_registered (oBPM (ORD s)) l = Ok ords end) as [ords Ho].
    { destruct req as [l|]; [|eauto]. unfold bpm_reading_drawn in H. apply bind_ok in H as (s0&s1&H0&H). apply get_ok in H0 as [-> ->]. apply bind_ok in H as (ords'&s2&H1&H). apply lift_ok in H1 as [H1 ->]. eauto. }
    destruct (drawn_inv _ _ _ _ _ _ _ _ Ho H) as (pos&sum&E1&E2&_).
    apply panel_ok in E1 as (_&_&?&?&T1&_); [|lia]. apply panel_ok in E2 as (_&_&?&?&T2&_); [|lia]. split_and!; try done; by apply nil_length_inv.
  Qed.
  (** With the trajectories of all elements. *)
  Theorem C103_all_elements (s s' : sc R) xs ys tks p1 p2 : all_elements_drawn w s = (Ok ((xs, ys, tks), (p1, p2)), s') ->
    all_elements_reading w s = (Ok (xs, ys, tks), s') /\ marked s (oBPM (ORD s)) xs p1 /\ marked s (oBPM (ORD s)) ys p2 /\
    traced s 0 tks p1 /\ traced s 1 tks p2 /\ walled s 0 p1 /\ walled s 1 p2 /\ framed s p1 /\ framed s p2.
  Proof.
    intros H. unfold all_elements_drawn in H. apply bind_ok in H as (s0&s1&H0&H). apply get_ok in H0 as [-> ->]. apply bind_ok in H as ([[a b] c]&s1&H1&H). apply bind_ok in H as (fig&s2&H2&H). apply lift_ok in H2 as [H2 ->].
    apply ret_ok in H as [E ->]. injection E as -> -> -> ->. cbn [fst snd] in H2. unfold reading_figure in H2. apply rbind_ok in H2 as (q1&E1&H2). apply rbind_ok in H2 as (q2&E2&H2).
    assert (q1 = p1 /\ q2 = p2) as [-> ->] by (by injection H2). apply panel_ok in E1 as (_&?&?&?&?); [|lia]. apply panel_ok in E2 as (_&?&?&?&?); [|lia]. done.
  Qed.
  Theorem C103_all_elements_returns (s s' : sc R) xs ys tks : all_elements_reading w s = (Ok (xs, ys, tks), s') -> Forall shaped (RING s) -> (forall o, o ∈ oBPM (ORD s) -> (o < length (RING s))%nat) ->
    exists fig, all_elements_drawn w s = (Ok ((xs, ys, tks), fig), s').
  Proof.
    intros H Hs Hin. assert (length xs = nTurns (INJ s) * length (oBPM (ORD s)) /\ length ys = nTurns (INJ s) * length (oBPM (ORD s)))%nat as [Lx Ly].
    { unfold all_elements_reading in H. apply bind_ok in H as (s0&s1&H0&H). apply get_ok in H0 as [-> ->]. apply bind_ok in H as (shots&s2&_&H). apply ret_ok in H as [E _]. pose proof (f_equal (fun q => length (fst (fst q))) E) as Ex. pose proof (f_equal (fun q => length (snd (fst q))) E) as Ey. cbn [fst snd] in Ex, Ey. rewrite arrival_length in Ex, Ey. done. }
    destruct (panel_total s (oBPM (ORD s)) 0 xs tks Hs Hin Lx) as [p1 E1]. destruct (panel_total s (oBPM (ORD s)) 1 ys tks Hs Hin Ly) as [p2 E2].
    exists (p1, p2). unfold all_elements_drawn. unfold bind at 1, get. unfold bind at 1. rewrite H. unfold bind at 1, lift at 1. cbn [fst snd]. unfold reading_figure. rewrite E1. cbn [rbind]. rewrite E2. done.
  Qed.
  (** Finding: a chamber limit of another shape makes a reading fail that does not need it. *)
  Theorem C103_finding_limits req errors (s : sc R) i e : RING s !! i = Some e -> (exists x, e !! "EApertures" = Some (VNum x)) -> forall r s', bpm_reading_drawn w req errors s <> (Ok r, s').
  Proof.
    intros He [x Hx] [r [p1 p2]] s' H. assert (exists ords, match req with None => ords = oBPM (ORD s) | Some l => only_registered (oBPM (ORD s)) l = Ok ords end) as [ords Ho].
    { destruct req as [l|]; [|eauto]. unfold bpm_reading_drawn in H. apply bind_ok in H as (s0&s1&H0&H). apply get_ok in H0 as [-> ->]. apply bind_ok in H as (ords'&s2&H1&H). apply lift_ok in H1 as [H1 ->]. eauto. }
    destruct (drawn_inv _ _ _ _ _ _ _ _ Ho H) as (pos&sum&E1&_). unfold reading_panel in E1. apply rbind_ok in E1 as (aps&Ha&_). unfold ring_aperture in Ha. apply rbind_ok in Ha as (l&Hl&_). apply rmap_ok in Hl.
    destruct (Forall2_lookup_l _ _ _ _ _ Hl He) as (y&_&Hy). unfold limits_of in Hy. rewrite Hx in Hy. discriminate.
  Qed.
End C103.
Print Assumptions C103_only_drawn.
Print Assumptions C103_drawing_returns.
Print Assumptions C103_marks.
Print Assumptions C103_pseudo_orbit.
Print Assumptions C103_frame.
Print Assumptions C103_all_elements.
Print Assumptions C103_all_elements_returns.
Print Assumptions C103_finding_limits.

(** * Cases: two turns in the pseudo-orbit mode, a chamber with an ellipse, a box, and an element that has both *)
Local Open Scope Q_scope.
#[local] Existing Instance TrigQ0.
Definition piped (l : list (string * val Q)) (len : Q) : elem Q := mk (("Length", VNum len) :: l).
Definition piped_machine (i : inj Q) (rng : list Q) : sc Q :=
  MkSC [piped [("EApertures", VVec [(1#100); (1#200)])] 1; ex_bpm; piped [("EApertures", VVec [(1#50); (1#100)]); ("RApertures", VVec [-(1#1000); 1#1000; -(1#1000); 1#1000])] 2;
        piped [("RApertures", VVec [-(1#100); 1#50; -(1#200); 1#250])] 1; ex_bpm] [] i (SIG ex_sc) (MkOrd [1; 4]%nat [] [] [] [] [] [] [] []) rng.
(** the value returned is 1/3, the marks of the two turns are at 500 and 0 mm, the first far outside the axes *)
Definition second_bpm := bpm_reading_drawn ex_world (Some [4%nat]) false (piped_machine (ex_inj (1#2) 1 2 1 "PORB") [1; 0; 1; 0; 0; 0;  1; 0;  0; 1;  2; 0]).
Example C103_case : fst second_bpm = Ok (MkReading [Some (1#3)] [Some (2#3)] [3#2] None,
  (MkPanel [] [(4, Some 500); (8, Some 0)] [(0, (-10, 10)); (1, (-20, 20)); (3, (-10, 20)); (4, (-10, 10)); (5, (-20, 20)); (7, (-10, 20))] [0; 4] (0, 8) (-15, 15),
   MkPanel [] [(4, Some 0); (8, Some 2000)] [(0, (-5, 5)); (1, (-10, 10)); (3, (-5, 4)); (4, (-5, 5)); (5, (-10, 10)); (7, (-5, 4))] [0; 4] (0, 8) (-15, 15))).
Proof. vm_compute. reflexivity. Qed.
Example C103_all_elements_case : exists tks, fst (all_elements_drawn ex_world (piped_machine (ex_inj (1#2) 1 1 2 "TBT") ex_draws_two)) =
  Ok ([Some (-7#4); Some (-2)], [Some (3#2); Some 0], tks,
  (MkPanel [[(0, [Some 1000]); (1, [Some 1000]); (1, [Some 1000]); (3, [Some 1000]); (4, [Some 1000]); (4, [Some 1000])];
            [(0, [Some (-1000)]); (1, [Some (-1000)]); (1, [Some (-1000)]); (3, [Some (-1000)]); (4, [Some (-1000)]); (4, [Some (-1000)])]]
     [(1, Some (-1750)); (4, Some (-2000))] [(0, (-10, 10)); (1, (-20, 20)); (3, (-10, 20))] [0] (0, 4) (-15, 15),
   MkPanel [[(0, [Some 1000]); (1, [Some 1000]); (1, [Some 1000]); (3, [Some 1000]); (4, [Some 1000]); (4, [Some 1000])];
            [(0, [Some 1000]); (1, [Some 1000]); (1, [Some 1000]); (3, [Some 1000]); (4, [Some 1000]); (4, [Some 1000])]]
     [(1, Some 1500); (4, Some 0)] [(0, (-5, 5)); (1, (-10, 10)); (3, (-5, 4))] [0] (0, 4) (-15, 15))).
Proof. eexists. vm_compute. reflexivity. Qed.
(** Finding: of an element with elliptic and rectangular limits the figure shows the ellipse, although the rectangle of one millimetre is the tighter one; with
    limits of another shape there is no reading at all. *)
Example C103_finding_hidden : (exists r p q, fst second_bpm = Ok (r, (p, q)) /\ (1, (-20, 20)) ∈ f_apertures p /\ (1, (-1, 1)) ∉ f_apertures p).
Proof. eexists _, _, _. split; [vm_compute; reflexivity|]. cbn. split; [do 1 right; left|]. intros H. repeat (apply elem_of_cons in H as [H|H]; [discriminate H|]). by apply elem_of_nil in H. Qed.
Example C103_finding_shape : let s0 := piped_machine (ex_inj (1#2) 1 1 2 "TBT") ex_draws_two in let s := set_RING (RING s0 ++ [piped [("EApertures", VNum (1#100))] 1]) s0 in
  fst (bpm_reading ex_world None false s) = Ok (MkReading [Some (-1); Some (-2)] [Some (4#3); Some 0] [3#2; 1] None) /\ fst (bpm_reading_drawn ex_world None false s) = Err ValueError.
Proof. split; vm_compute; reflexivity. Qed.
