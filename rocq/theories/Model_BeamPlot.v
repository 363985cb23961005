(** pySC/core/beam.py lines 56 and 234-300: the figure of a BPM reading.  What is handed to matplotlib is listed as data; fonts, colours, the legend
    and the labels of the axes are left out. *)
From Coq Require Import ZArith.
From stdpp Require Import base gmap strings list.
From Verif Require Import Num Base Model_Arr Model_SC Model_Err Model_Beam.
Local Open Scope string_scope.
Local Open Scope list_scope.

Section BeamPlot.
  Context {T : Type} {N : Num T} {G : Trig T}.

  (** one of the two panels: trajectories (per shot: position and the particles there), BPM readings, apertures, dotted lines, limits of the axes *)
  Record panel := MkPanel {
    f_trajectories : list (list (T * list (option T)));
    f_marks : list (T * option T);
    f_apertures : list (T * (T * T));
    f_breaks : list T;
    f_xlim : T * T;
    f_ylim : T * T }.

  Definition thousand : T := nofZ 1000.
  (** lines 241, 244, 248: [np.ravel(np.arange(nTurns)[:, np.newaxis] * circumference + places)] *)
  Definition turn_axis (nt : nat) (circumference : T) (places : list T) : list T :=
    concat (map (fun t => map (fun x => nadd (nmul (nofnat t) circumference) x) places) (seq 0 nt)).
  (** matplotlib refuses lists of different lengths *)
  Definition paired {A B} (x : list A) (y : list B) : res (list (A * B)) :=
    if (length x =? length y)%nat then Ok (combine x y) else Err ValueError.

  (** lines 290-300 (_get_ring_aperture) for one element: limits of both planes, [None] for an element without.  Arrays of other lengths are
      refused (numpy refuses ragged arrays; it would accept a lattice all of whose elements have EApertures of one other length). *)
  Definition limits_of (e : elem T) : res (option ((T * T) * (T * T))) :=
    match e !! "EApertures", e !! "RApertures" with
    | Some (VVec [a; b]), _ => Ok (Some ((nmul a (nopp n1), nmul a n1), (nmul b (nopp n1), nmul b n1)))
    | Some _, _ => Err ValueError
    | None, Some (VVec [a; b; c; d]) => Ok (Some ((a, b), (c, d)))
    | None, Some _ => Err ValueError
    | None, None => Ok None
    end.
  Definition ring_aperture (ring : list (elem T)) : res (list (nat * ((T * T) * (T * T)))) :=
    let? l := rmap limits_of ring in
    Ok (omap (fun p : nat * option ((T * T) * (T * T)) => a ← p.2; Some (p.1, a)) (combine (seq 0 (length ring)) l)).

  (** lines 261-267 (_plot_all_trajectories) for one shot and plane *)
  Definition trajectories (nt nrefs nparts plane : nat) (tk : tracked T) : list (list (option T)) :=
    arrival nrefs nt (fun r t => map (fun p => oscale thousand (t_pos tk plane p r t)) (seq 0 nparts)).

  (** lines 234-258 (_plot_bpm_reading) for one plane; [y]: the readings of this plane in order of arrival *)
  Definition reading_panel (s : sc T) (bpms : list nat) (plane : nat) (y : list (option T)) (shots : list (tracked T)) : res panel :=
    let? aps := ring_aperture (RING s) in
    let s_pos := spos (RING s) in
    let nt := nTurns (INJ s) in
    let? circumference := match last s_pos with Some c => Ok c | None => Err IndexError end in
    let? trajs := rmap (fun tk => paired (turn_axis nt circumference s_pos) (trajectories nt (S (length (RING s))) (nParticles (INJ s)) plane tk)) shots in
    let? places := rmap (idx s_pos) bpms in
    let? marks := paired (turn_axis nt circumference places) (map (oscale thousand) y) in
    let? ap_places := rmap (fun a : nat * ((T * T) * (T * T)) => idx s_pos a.1) aps in
    let side (a : (T * T) * (T * T)) := if (plane =? 0)%nat then a.1 else a.2 in
    let? walls := paired (turn_axis nt circumference ap_places)
                    (concat (replicate nt (map (fun a => (nmul thousand (side a.2).1, nmul thousand (side a.2).2)) aps))) in
    Ok (MkPanel trajs marks walls (map (fun t => nmul (nofnat t) circumference) (seq 0 nt)) (n0, nmul (nofnat nt) circumference) (nofZ (-15), nofZ 15)).
  Definition reading_figure (s : sc T) (bpms : list nat) (x y : list (option T)) (shots : list (tracked T)) : res (panel * panel) :=
    let? a := reading_panel s bpms 0 x shots in
    let? b := reading_panel s bpms 1 y shots in
    Ok (a, b).

  (** beam.py lines 42-73 (bpm_reading) with SC.plot set: the figure is drawn in lines 55-56, before the average over the turns *)
  Definition bpm_reading_drawn (w : world T) (bpm_ords : option (list nat)) (errors : bool) : M (sc T) (reading T * (panel * panel)) :=
    let! s := get in
    let! ords := lift (match bpm_ords with None => Ok (oBPM (ORD s)) | Some l => only_registered (oBPM (ORD s)) l end) in
    let nb := length ords in
    let nt := nTurns (INJ s) in
    let! shots := mapM (seq 0 (nShots (INJ s))) (fun _ => one_shot w ords nt) in
    let pos plane b t := mean_pos plane (cell_of shots b t) in
    let! sums := lift (rmap (fun b => rmap (fun t => mean_sum (nShots (INJ s)) (cell_of shots b t)) (seq 0 nt)) (seq 0 nb)) in
    let sum b t := default n0 (row ← sums !! b; row !! t) in
    let! fig := lift (reading_figure s ords (arrival nb nt (pos 0)) (arrival nb nt (pos 1)) []) in
    if decide (trackMode (INJ s) = "PORB") then
      let! xs := lift (rmap (fun b => porb_pos (map (fun t => (pos 0 b t, sum b t)) (seq 0 nt))) (seq 0 nb)) in
      let! ys := lift (rmap (fun b => porb_pos (map (fun t => (pos 1 b t, sum b t)) (seq 0 nt))) (seq 0 nb)) in
      let! ss := lift (rmap (fun b => qdiv (nsum (map (sum b) (seq 0 nt))) (nofnat nt)) (seq 0 nb)) in
      ret (MkReading xs ys ss None, fig)
    else
      let x := arrival nb nt (pos 0) in
      let y := arrival nb nt (pos 1) in
      let sm := arrival nb nt sum in
      if errors && bool_decide (trackMode (INJ s) = "TBT") then
        let! ex := lift (rmap (fun t => rmap (fun b => err_pos 0 (cell_of shots b t) (pos 0 b t)) (seq 0 nb)) (seq 0 nt)) in
        let! ey := lift (rmap (fun t => rmap (fun b => err_pos 1 (cell_of shots b t) (pos 1 b t)) (seq 0 nb)) (seq 0 nt)) in
        ret (MkReading x y sm (Some (concat ex, concat ey)), fig)
      else ret (MkReading x y sm None, fig).
  (** beam.py lines 92-104 (all_elements_reading) with SC.plot set *)
  Definition all_elements_drawn (w : world T) : M (sc T) ((list (option T) * list (option T) * list (tracked T)) * (panel * panel)) :=
    let! s := get in
    let! r := all_elements_reading w in
    let! fig := lift (reading_figure s (oBPM (ORD s)) r.1.1 r.1.2 r.2) in
    ret (r, fig).
End BeamPlot.
Arguments panel T : clear implicits.
