(** The figure of the lattice as a whole: plotting/plot_lattice.py (plot_lattice), the correctors of plotting/plot_synoptic.py, and what the
    figures change outside themselves: the range of view stored with a lattice and the font size of matplotlib.
    Drawing itself is not modelled; optics and apertures of the sliced lattice (pyAT) are an argument. *)
From Coq Require Import ZArith.
From stdpp Require Import base gmap strings list.
From Verif Require Import Num Base Model_Arr Model_SC Model_Err Model_Beam Model_Orbit Model_Scan Model_Plot Model_Figure Model_Bba Model_BbaPlot.
Local Open Scope string_scope.
Local Open Scope list_scope.

Section View.
  Context {T : Type} {N : Num T}.

  (** range of view of SC.RING and of SC.IDEALRING (attribute s_range of pyAT's lattices), plt.rcParams["font.size"] *)
  Record view := MkView { v_ring : T * T; v_ideal : T * T; v_font : T }.
  Definition with_font (x : T) (v : view) : view := MkView (v_ring v) (v_ideal v) x.
  Definition with_range (ideal : bool) (r : T * T) (v : view) : view :=
    if ideal then MkView (v_ring v) r (v_font v) else MkView r (v_ideal v) (v_font v).
  Definition range_of (ideal : bool) (v : view) : T * T := if ideal then v_ideal v else v_ring v.

  (** plot_synoptic.py lines 29, 43-51: places and elements with given ordinates; [s_pos] lacks the end of the lattice *)
  Definition picked (ring : list (elem T)) (ords : list nat) : res (list (T * elem T)) :=
    rmap (fun i => let? a := idx (take (length ring) (spos ring)) i in let? e := idx ring i in Ok (a, e)) ords.
  Definition outlines (mtype : elem T -> res string) (len : elem T -> res T) (ps : list (T * elem T)) : res (list (list (T * T))) :=
    rmap (fun se => let? l := len se.2 in let? t := mtype se.2 in get_shape se.1 l t) ps.
  (** plot_synoptic.py lines 42-56 (correctors=True): the elements are picked first, then drawn in the order of CORRECTOR_KWARGS *)
  Definition corrector_synoptic (s : sc T) : res (list (string * list (list (T * T)))) :=
    let ring := IDEALRING s in
    let len e := attr_num e "Length" in
    let? pb := picked ring (oBPM (ORD s)) in
    let? pq := picked ring (oSkewQuad (ORD s)) in
    let? ph := picked ring (oHCM (ORD s)) in
    let? pv := picked ring (oVCM (ORD s)) in
    let? h := outlines (fun _ => Ok "hcor") len ph in
    let? v := outlines (fun _ => Ok "vcor") len pv in
    let? q := outlines (fun e => let? l := sign_letter e "PolynomA" 1 in Ok (l +:+ "_skewquadrupole")) len pq in
    let? b := outlines (fun _ => Ok "monitor") (fun e => Ok (elem_length e)) pb in
    Ok [("hcor", h); ("vcor", v); ("skewquadrupole", q); ("monitor", b)].
  (** plot_synoptic.py lines 31-36 (famnames=True): name, shortened to ten letters, and place *)
  Definition magnet_names (ring : list (elem T)) : res (list (string * T)) :=
    rmap (fun se => let? n := attr_str se.2 "FamName" in let? l := attr_num se.2 "Length" in
                    Ok ("   " +:+ String.substring 0 10 n, nadd se.1 (ndiv l (nofZ 4))))
      (List.filter (fun se => match (se.2 : elem T) !! "PolynomB" with Some _ => true | None => false end) (combine (spos ring) ring)).

  Definition lattice_figure : Type := (T * T) * list (string * list (list (T * T))) * list (string * list (list (T * T))) * list (string * T).
  (** plot_lattice.py lines 53-92 (plot_lattice): limits of the axes, outlines of magnets, outlines of correctors, names.  [optics] and
      [apertures] say whether the data of the sliced lattice could be computed. *)
  Definition plot_lattice (kind_of : elem T -> kind) (optics apertures : list (elem T) -> T * T -> res unit) (s : sc T)
      (s_range : option (T * T)) (indices : option (list nat)) (n_sectors : option T) (ideal names : bool) (font : T) : M view lattice_figure :=
    let! v := get in
    modify (with_font font) ;;;
    let ring := if ideal then IDEALRING s else RING s in
    let stored := range_of ideal v in
    let! r := lift (get_s_range (spos ring) stored s_range indices n_sectors) in
    modify (with_range ideal r) ;;;
    lift (optics ring r) ;;;
    let! mags := lift (synoptic kind_of (IDEALRING s)) in
    lift (apertures ring r) ;;;
    let! written := lift (if names then magnet_names (IDEALRING s) else Ok []) in
    let! cors := lift (corrector_synoptic s) in
    modify (with_range ideal stored) ;;;
    modify (with_font (v_font v)) ;;;
    ret (r, mags, cors, written).
  (** matlab_index.py lines 215-218 (SCplotLattice): the range is a list, by default empty (here None), which is no missing range to
      plot_lattice; pyAT fails on its first entry (IndexError) when it is assigned to the lattice.  Lists of one entry or of more than
      two are not modelled. *)
  Definition SCplotLattice (kind_of : elem T -> kind) (optics apertures : list (elem T) -> T * T -> res unit) (s : sc T)
      (sRange : option (T * T)) (oList : list nat) (nSectors : T) (ideal names : bool) (font : T) : M view lattice_figure :=
    match sRange with
    | Some r => plot_lattice kind_of optics apertures s (Some r) (Some oList) (Some nSectors) ideal names font
    | None => modify (with_font font) ;;; raise IndexError
    end.

  (** the way plot_cm_strengths (plot_lattice.py lines 96-115), plot_support (plot_support.py lines 28-116) and
      plot_phase_space (plot_phase_space.py lines 10-57) change the font size *)
  Definition drawn_with {A} (font : T) (draw : res A) : M view A :=
    let! v := get in
    modify (with_font font) ;;;
    let! x := lift draw in
    modify (with_font (v_font v)) ;;;
    ret x.
  Definition plot_cm_strengths (s : sc T) : M view _ := drawn_with (nofZ 18) (cm_strengths s).
  Definition plot_support_view (lims : option (T * T)) (font : T) (s : sc T) : M view _ := drawn_with font (plot_support lims s).
  (** bba.py lines 182-199 and 202-234: the font size is set after the check of the results, and not set back *)
  Definition plot_bba_results (bpm_ords : list (list nat)) (offs errs : list (list (option T))) (s : sc T) : M view _ :=
    lift (is_bba_errored offs errs) ;;;
    modify (with_font (nofZ 10)) ;;;
    lift (bba_results bpm_ords offs errs s).
  Definition plot_bpm_offsets_from_magnets (bpm_ords mag_ords : list (list nat)) (flags : list (list bool)) (s : sc T) : M view _ :=
    modify (with_font (nofZ 10)) ;;;
    lift (offsets_from_magnets bpm_ords mag_ords flags s).
End View.
Arguments view : clear implicits.
