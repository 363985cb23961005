(** C105: the figure of the lattice, and what figures leave behind. *)
From Coq Require Import Reals Lra Lia QArith ZArith.
From stdpp Require Import base gmap strings list.
From Verif Require Import Num Base Model_Arr Model_SC Model_Err Model_Beam Model_Orbit Model_Scan Model_Plot Model_Figure Model_Bba Model_BbaPlot Model_View Lemmas Proofs_Reg Proofs_Update Proofs_Loop Spec Proofs_CM Proofs_Field Proofs_Err
  Properties_Random Properties_Field Examples Properties_Errors Properties_Circ Properties_Support Proofs_Interp Properties_Interp Properties_Plot Properties_Figure.
Local Open Scope string_scope.
Local Open Scope list_scope.
Local Open Scope R_scope.

(** * Specification *)
(** the machine with the design lattice in the place of the ring *)
Definition design (s : sc R) : sc R := set_RING (IDEALRING s) s.
(** an outline from the entrance [a], of height [h], that ends after the part [part] of the length; [top] lies between *)
Definition outline (a len part h : R) (top : list (R * R)) : list (R * R) := [(a, 0); (a, h)] ++ top ++ [(a + part * len, h); (a + part * len, 0)].
(** peak or notch of a skew quadrupole *)
Definition skew_height (e : elem R) : R :=
  match e !! "PolynomA" with Some (VVec v) => match v !! 1%nat with Some x => if Rle_dec 0 x then 15 / 10 else 7 / 10 | None => 0 end | _ => 0 end.
(** only the font size differs *)
Definition font_left (x : R) (v v' : view R) : Prop := v_font v' = x /\ v_ring v' = v_ring v /\ v_ideal v' = v_ideal v.
(** the lattice whose optics is shown *)
Definition shown_ring (ideal : bool) (s : sc R) : sc R := if ideal then design s else s.

Lemma picked_ok s ords ps : picked (IDEALRING s) ords = Ok ps -> Forall (fun i => i < length (IDEALRING s))%nat ords /\ ps = map (fun i => (position (design s) i, element (design s) i)) ords.
Proof.
  intros H. apply rmap_ok in H. induction H as [|i p ords ps Hi _ [IH1 IH2]]; [done|].
  apply rbind_ok in Hi as (a&Ha&Hi). apply rbind_ok in Hi as (e&He&Hi). apply idx_ok in Ha, He. pose proof (lookup_lt_Some _ _ _ He) as L.
  rewrite lookup_take in Ha by done. change (IDEALRING s) with (RING (design s)) in Ha. rewrite spos_position in Ha by (cbn; lia).
  split; [by constructor|]. cbn [map]. f_equal; [|done]. apply (f_equal (fun r => match r with Ok x => x | Err _ => p end)) in Hi. cbv beta iota in Hi. rewrite <- Hi.
  f_equal; [congruence|]. unfold element. cbn [RING design set_RING]. by rewrite He.
Qed.
Lemma outlines_ok mtype len (draw : R -> elem R -> list (R * R)) ps l : (forall a e y, (let? x := len e in let? t := mtype e in get_shape a x t) = Ok y -> y = draw a e) ->
  outlines mtype len ps = Ok l -> l = map (fun p : R * elem R => draw p.1 p.2) ps.
Proof. intros Hd H. apply rmap_ok in H. induction H as [|p y ps l Hp _ IH]; [done|]. cbn [map]. f_equal; [|done]. by apply Hd. Qed.
Lemma shape_R (a x : R) l t y : get_shape a x t = Ok y -> unit_shape t = Some l -> y = map (fun p => (a + IZR p.1 / 100 * x, IZR p.2 / 100)) l.
Proof.
  intros Hy Ht. unfold get_shape in Hy. rewrite Ht in Hy. apply (f_equal (fun r => match r with Ok x => x | Err _ => [] end)) in Hy. cbv beta iota in Hy. rewrite <- Hy.
  apply map_ext. intros p. unfold hundredth. num_R. f_equal. ring.
Qed.
Lemma length_long (e : elem R) l : attr_num e "Length" = Ok l -> l = long e.
Proof. intros Hl. apply attr_num_ok in Hl. unfold long. by rewrite Hl. Qed.

(** Correctors and skew quadrupoles are drawn where the design lattice has them, up, down, or with a peak or notch; the outlines end at nine tenths (or 95 parts of a hundred) of the length.  Monitors are lines. *)
Theorem C105_correctors (s : sc R) fig : corrector_synoptic s = Ok fig ->
  let at_ i := position (design s) i in let len i := long (element (design s) i) in
  fig = [("hcor", map (fun i => outline (at_ i) (len i) (9 / 10) (11 / 10) []) (oHCM (ORD s)));
         ("vcor", map (fun i => outline (at_ i) (len i) (95 / 100) (- (105 / 100)) []) (oVCM (ORD s)));
         ("skewquadrupole", map (fun i => outline (at_ i) (len i) (9 / 10) (11 / 10) [(at_ i + len i / 2, skew_height (element (design s) i))]) (oSkewQuad (ORD s)));
         ("monitor", map (fun i => pole (at_ i)) (oBPM (ORD s)))] /\
  forall i, i ∈ oHCM (ORD s) ++ oVCM (ORD s) ++ oSkewQuad (ORD s) ++ oBPM (ORD s) -> (i < length (IDEALRING s))%nat.
Proof.
  intros H at_ len. unfold corrector_synoptic in H.
  apply rbind_ok in H as (pb&Hpb&H). apply rbind_ok in H as (pq&Hpq&H). apply rbind_ok in H as (ph&Hph&H). apply rbind_ok in H as (pv&Hpv&H).
  apply rbind_ok in H as (h&Hh&H). apply rbind_ok in H as (v&Hv&H). apply rbind_ok in H as (q&Hq&H). apply rbind_ok in H as (b&Hb&H).
  apply picked_ok in Hpb as [Ib ->], Hpq as [Iq ->], Hph as [Ih ->], Hpv as [Iv ->].
  apply (f_equal (fun r => match r with Ok x => x | Err _ => [] end)) in H. cbv beta iota in H. rewrite <- H. split.
  - apply (outlines_ok _ _ (fun a e => outline a (long e) (9 / 10) (11 / 10) [])) in Hh.
    2:{ intros a e y Hy. apply rbind_ok in Hy as (l&Hl&Hy). apply length_long in Hl as ->. cbn [rbind] in Hy. eapply shape_R in Hy; [|done]. rewrite Hy. unfold outline. cbn [map app fst snd]. pts. }
    apply (outlines_ok _ _ (fun a e => outline a (long e) (95 / 100) (- (105 / 100)) [])) in Hv.
    2:{ intros a e y Hy. apply rbind_ok in Hy as (l&Hl&Hy). apply length_long in Hl as ->. cbn [rbind] in Hy. eapply shape_R in Hy; [|done]. rewrite Hy. unfold outline. cbn [map app fst snd]. pts. }
    apply (outlines_ok _ _ (fun a e => outline a (long e) (9 / 10) (11 / 10) [(a + long e / 2, skew_height e)])) in Hq.
    2:{ intros a e y Hy. apply rbind_ok in Hy as (l&Hl&Hy). apply length_long in Hl as ->. apply rbind_ok in Hy as (t&Ht&Hy). apply rbind_ok in Ht as (c&Hc&Ht).
        unfold sign_letter in Hc. apply rbind_ok in Hc as (w&Hw&Hc). apply attr_vec_ok in Hw. apply rbind_ok in Hc as (x&Hx&Hc). apply idx_ok in Hx.
        unfold skew_height. rewrite Hw, Hx. num_R. destruct (Rleb 0 x) eqn:E; [apply Rleb_true in E|apply Rleb_false in E]; destruct (Rle_dec 0 x); try (exfalso; lra);
          apply (f_equal (fun r => match r with Ok x => x | Err _ => "" end)) in Hc; cbv beta iota in Hc; subst c; apply (f_equal (fun r => match r with Ok x => x | Err _ => "" end)) in Ht; cbv beta iota in Ht; subst t;
          (eapply shape_R in Hy; [|done]); rewrite Hy; unfold outline; cbn [map app fst snd]; pts. }
    apply (outlines_ok _ _ (fun a e => pole a)) in Hb.
    2:{ intros a e y Hy. cbn [rbind] in Hy. eapply shape_R in Hy; [|done]. rewrite Hy. unfold pole. cbn [map fst snd]. pts. }
    rewrite Hh, Hv, Hq, Hb, !map_map. reflexivity.
  - rewrite Forall_forall in Ib, Iq, Ih, Iv. intros i. rewrite !elem_of_app. intros [?|[?|[?|?]]]; auto.
Qed.

Lemma with_range_back ideal (r : R * R) f (v : view R) : with_font (v_font v) (with_range ideal (range_of ideal v) (with_range ideal r (with_font f v))) = v.
Proof. destruct v, ideal; done. Qed.

(** When the figure is drawn, it shows the range asked for, the magnets and the correctors of the design lattice; ranges of view and font size are then as before. *)
Theorem C105_drawn kind_of optics apertures (s : sc R) asked indices sectors ideal names font (v v' : view R) r mags cors written :
  plot_lattice kind_of optics apertures s asked indices sectors ideal names font v = (Ok (r, mags, cors, written), v') ->
  v' = v /\ get_s_range (spos (RING (shown_ring ideal s))) (range_of ideal v) asked indices sectors = Ok r /\
  synoptic kind_of (RING (design s)) = Ok mags /\ corrector_synoptic s = Ok cors /\ (names = false -> written = []).
Proof.
  intros H. unfold plot_lattice in H. apply bind_ok in H as (v0&v1&H0&H). apply get_ok in H0 as [-> ->].
  apply bind_ok in H as ([]&v2&H1&H). apply (f_equal snd) in H1. cbn [modify snd] in H1. subst v2.
  apply bind_ok in H as (r'&v3&H1&H). apply lift_ok in H1 as [Hr ->].
  apply bind_ok in H as ([]&v4&H1&H). apply (f_equal snd) in H1. cbn [modify snd] in H1. subst v4.
  apply bind_ok in H as ([]&v5&H1&H). apply lift_ok in H1 as [_ ->].
  apply bind_ok in H as (m&v6&H1&H). apply lift_ok in H1 as [Hm ->].
  apply bind_ok in H as ([]&v7&H1&H). apply lift_ok in H1 as [_ ->].
  apply bind_ok in H as (wr&v8&H1&H). apply lift_ok in H1 as [Hw ->].
  apply bind_ok in H as (c&v9&H1&H). apply lift_ok in H1 as [Hc ->].
  apply bind_ok in H as ([]&v10&H1&H). apply (f_equal snd) in H1. cbn [modify snd] in H1. subst v10.
  apply bind_ok in H as ([]&v11&H1&H). apply (f_equal snd) in H1. cbn [modify snd] in H1. subst v11.
  apply ret_ok in H as [E ->].
  assert (r' = r /\ m = mags /\ c = cors /\ wr = written) as (->&->&->&->) by (split_and!; congruence).
  split; [apply with_range_back|]. split; [destruct ideal; exact Hr|]. split; [exact Hm|]. split; [exact Hc|]. intros ->. congruence.
Qed.

(** Finding: when it fails, the font size stays, and, unless no range could be found, the lattice keeps the range of the failed figure, *)
Theorem C105_finding_failed kind_of optics apertures (s : sc R) asked indices sectors ideal names font (v v' : view R) e :
  plot_lattice kind_of optics apertures s asked indices sectors ideal names font v = (Err e, v') ->
  v_font v' = font /\ range_of (negb ideal) v' = range_of (negb ideal) v /\
  match get_s_range (spos (RING (shown_ring ideal s))) (range_of ideal v) asked indices sectors with
  | Ok r => range_of ideal v' = r
  | Err e' => e' = e /\ range_of ideal v' = range_of ideal v
  end.
Proof.
  intros H. unfold plot_lattice in H. unfold bind at 1, get at 1 in H. unfold bind at 1, modify at 1 in H.
  replace (spos (RING (shown_ring ideal s))) with (spos (if ideal then IDEALRING s else RING s)) by (by destruct ideal).
  unfold bind at 1, lift at 1 in H. destruct (get_s_range _ _ _ _ _) as [r|e'].
  - set (u := with_range ideal r (with_font font v)). assert (v' = u) as ->.
    { unfold bind at 1, modify at 1 in H. fold u in H.
      unfold bind at 1, lift at 1 in H. destruct (optics _ r) as [[]|]; [|congruence].
      unfold bind at 1, lift at 1 in H. destruct (synoptic _ _) as [m|]; [|congruence].
      unfold bind at 1, lift at 1 in H. destruct (apertures _ r) as [[]|]; [|congruence].
      unfold bind at 1, lift at 1 in H. destruct (if names then _ else _) as [w|]; [|congruence].
      unfold bind at 1, lift at 1 in H. destruct (corrector_synoptic s) as [c|]; [|congruence]. discriminate H. }
    by destruct v, ideal.
  - injection H as <- <-. by destruct v, ideal.
Qed.
(** so that a later figure of that lattice, for which no range is asked, shows only this range. *)
Corollary C105_finding_next kind_of optics apertures optics2 apertures2 (s : sc R) a b indices sectors ideal names font e font2 names2 (v v1 v2 : view R) r mags cors written :
  plot_lattice kind_of optics apertures s (Some (a, b)) indices sectors ideal names font v = (Err e, v1) ->
  plot_lattice kind_of optics2 apertures2 s None None None ideal names2 font2 v1 = (Ok (r, mags, cors, written), v2) -> r = (a, b) /\ v_font v2 = font.
Proof.
  intros H1 H2. apply C105_finding_failed in H1 as (F&_&E). cbn [get_s_range] in E. apply C105_drawn in H2 as (->&H2&_). cbn [get_s_range] in H2. split; [congruence|done].
Qed.
(** Finding: SCplotLattice without a range never draws, and leaves the font size changed. *)
Theorem C105_finding_matlab kind_of optics apertures (s : sc R) oList nSectors ideal names font (v : view R) :
  exists v', SCplotLattice kind_of optics apertures s None oList nSectors ideal names font v = (Err IndexError, v') /\ font_left font v v'.
Proof. eexists. split; [reflexivity|done]. Qed.
(** With a range, the list of elements and the number of sectors have no effect. *)
Theorem C105_matlab kind_of optics apertures (s : sc R) a b oList nSectors ideal names font (v v' : view R) r mags cors written :
  SCplotLattice kind_of optics apertures s (Some (a, b)) oList nSectors ideal names font v = (Ok (r, mags, cors, written), v') -> r = (a, b) /\ v' = v.
Proof. intros H. apply C105_drawn in H as (->&H&_). cbn [get_s_range] in H. split; [congruence|done]. Qed.

(** The other figures restore the font size only when they are drawn. *)
Lemma drawn_with_font {A} font (d : res A) (v v' : view R) x : drawn_with font d v = (x, v') -> x = d /\ match d with Ok _ => v' = v | Err _ => font_left font v v' end.
Proof.
  unfold drawn_with, bind, get, modify, lift, ret. destruct d; intros H; (split; [congruence|]); apply (f_equal snd) in H; cbn [snd] in H; subst v'; [by destruct v|done].
Qed.
Theorem C105_font (s : sc R) lims font (v : view R) :
  (forall x v', plot_cm_strengths s v = (x, v') -> x = cm_strengths s /\ match x with Ok _ => v' = v | Err _ => font_left 18 v v' end) /\
  (forall x v', plot_support_view lims font s v = (x, v') -> x = plot_support lims s /\ match x with Ok _ => v' = v | Err _ => font_left font v v' end).
Proof.
  split; intros x v' H.
  - unfold plot_cm_strengths in H. apply drawn_with_font in H as [-> H]. split; [done|]. destruct (cm_strengths s); [done|]. unfold font_left in *. num_R. replace (nofZ 18) with 18 in H by done. done.
  - unfold plot_support_view in H. apply drawn_with_font in H as [-> H]. split; [done|]. by destruct (plot_support lims s).
Qed.
(** Without horizontal correctors the figure of the strengths fails and the font size stays at 18. *)
Corollary C105_finding_no_correctors (s : sc R) (v : view R) : oHCM (ORD s) = [] -> exists v', plot_cm_strengths s v = (Err ValueError, v') /\ font_left 18 v v'.
Proof.
  intros H. destruct (plot_cm_strengths s v) as [x v'] eqn:E. exists v'. destruct (proj1 (C105_font s None 0 v) x v' E) as [-> Hf]. rewrite C90_finding_none in * by done. done.
Qed.
(** Finding: the figures of beam based alignment leave the font size at 10, drawn or not. *)
Theorem C105_finding_bba (bpm_ords mag_ords : list (list nat)) (offs errs : list (list (option R))) flags (s : sc R) (v : view R) :
  (forall x v', plot_bba_results bpm_ords offs errs s v = (Ok x, v') -> bba_results bpm_ords offs errs s = Ok x /\ font_left 10 v v') /\
  (forall x v', plot_bpm_offsets_from_magnets bpm_ords mag_ords flags s v = (x, v') -> x = offsets_from_magnets bpm_ords mag_ords flags s /\ font_left 10 v v').
Proof.
  split; intros x v' H.
  - unfold plot_bba_results in H. apply bind_ok in H as (m&v1&H1&H). apply lift_ok in H1 as [_ ->]. apply bind_ok in H as ([]&v2&H1&H). apply (f_equal snd) in H1. cbn [modify snd] in H1. subst v2.
    apply lift_ok in H as [H ->]. done.
  - unfold plot_bpm_offsets_from_magnets, bind, modify, lift in H. split; [congruence|]. apply (f_equal snd) in H. cbn [snd] in H. by subst v'.
Qed.
(** The names: first ten letters, a quarter of the length behind the entrance, for all elements of the design lattice with a normal field. *)
Theorem C105_names (s : sc R) l : magnet_names (IDEALRING s) = Ok l -> forall y, y ∈ l <->
  exists i e n, IDEALRING s !! i = Some e /\ is_Some (e !! "PolynomB") /\ e !! "FamName" = Some (VStr n) /\ y = ("   " +:+ String.substring 0 10 n, position (design s) i + long e / 4).
Proof.
  intros H y. unfold magnet_names in H. set (test := fun se : R * elem R => match se.2 !! "PolynomB" with Some _ => true | None => false end) in H.
  assert (forall se, test se = true <-> is_Some (se.2 !! "PolynomB")) as Ht. { intros se. unfold test. destruct (se.2 !! "PolynomB"); split; try done. by intros [? ?]. }
  assert (forall (se : R * elem R) y, (let? n := attr_str se.2 "FamName" in let? l := attr_num se.2 "Length" in Ok ("   " +:+ String.substring 0 10 n, nadd se.1 (ndiv l (nofZ 4)))) = Ok y ->
    exists n, se.2 !! "FamName" = Some (VStr n) /\ y = ("   " +:+ String.substring 0 10 n, se.1 + long se.2 / 4)) as Hd.
  { intros se z Hz. apply rbind_ok in Hz as (n&Hn&Hz). apply attr_str_ok in Hn. apply rbind_ok in Hz as (x&Hx&Hz). apply length_long in Hx. exists n. split; [done|]. num_R. subst x.
    apply (f_equal (fun r => match r with Ok x => x | Err _ => z end)) in Hz. cbv beta iota in Hz. by rewrite <- Hz. }
  apply rmap_ok in H. split.
  - intros Hy. apply elem_of_list_lookup in Hy as (j&Hj). destruct (Forall2_lookup_r _ _ _ _ _ H Hj) as (se&Hse&E). apply elem_of_list_lookup_2 in Hse. rewrite elem_of_list_In, filter_In, <- elem_of_list_In in Hse.
    destruct Hse as [H1 H2]. apply Ht in H2. apply (places_of (design s)) in H1 as (i&H3&H4). apply Hd in E as (n&Hn&->). exists i, se.2, n. by rewrite H4.
  - intros (i&e&n&He&Hp&Hn&->). assert ((position (design s) i, e) ∈ List.filter test (combine (spos (IDEALRING s)) (IDEALRING s))) as Hin.
    { rewrite elem_of_list_In, filter_In, <- elem_of_list_In. split; [apply (places_of (design s)); by exists i|by apply Ht]. }
    apply elem_of_list_lookup in Hin as (j&Hj). destruct (Forall2_lookup_l _ _ _ _ _ H Hj) as (y&Hy&E). apply Hd in E as (n'&Hn'&E). cbn [fst snd] in *. assert (n' = n) as -> by congruence. rewrite <- E. by eapply elem_of_list_lookup_2.
Qed.

Print Assumptions C105_correctors.
Print Assumptions C105_drawn.
Print Assumptions C105_finding_failed.
Print Assumptions C105_finding_next.
Print Assumptions C105_finding_matlab.
Print Assumptions C105_matlab.
Print Assumptions C105_font.
Print Assumptions C105_finding_no_correctors.
Print Assumptions C105_finding_bba.
Print Assumptions C105_names.

(** * Cases *)
Local Open Scope Q_scope.
Definition viewed : sc Q := let s := pictured_sc (T:=Q) in set_ORD (set_oBPM [3]%nat (ORD s)) s.
Definition a_view : view Q := MkView (0, 5) (0, 4) 12.
Definition seen (run : res lattice_figure * view Q) : option (Q * Q * list string) * view Q :=
  (match run.1 with Ok (r, _, _, w) => Some (Qred r.1, Qred r.2, map fst w) | Err _ => None end, run.2).
Example C105_case :
  (match corrector_synoptic viewed with Ok [(_, h); (_, v); (_, q); (_, b)] => (map (map (fun p => (Qred p.1, Qred p.2))) (take 1 (drop 1 h)), length v, q, map (map (fun p => (Qred p.1, Qred p.2))) b) | _ => ([], 0%nat, [], []) end) =
    ([[(1, 0); (1, 11#10); (19#10, 11#10); (19#10, 0)]], 3%nat, [], [[(3, 0); (3, 6#5)]]) /\
  seen (plot_lattice named (fun _ _ => Ok tt) (fun _ _ => Ok tt) viewed None (Some [3; 1]%nat) None false true 8 a_view) = (Some (1, 3, ["   Q"]), a_view) /\
  let failed := plot_lattice named (fun _ _ => Err RuntimeError) (fun _ _ => Ok tt) viewed None None (Some 2) true false 8 a_view in
  fst failed = Err RuntimeError /\ v_ring (snd failed) = (0, 5) /\ Qred (snd (v_ideal (snd failed))) = (5#2) /\ v_font (snd failed) = 8 /\
  fst (seen (plot_lattice named (fun _ _ => Ok tt) (fun _ _ => Ok tt) viewed None None None true false 8 (snd failed))) = Some (0, 5#2, []).
Proof. vm_compute. split_and!; reflexivity. Qed.
