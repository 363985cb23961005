(** The data behind the figures of the lattice: plotting/plot_lattice.py, plot_apertures.py and plot_synoptic.py.
    Drawing itself (matplotlib) is not modelled: a drawn line is the list of its points; a missing value (NaN) is None. *)
From Coq Require Import ZArith.
From stdpp Require Import base gmap strings list.
From Verif Require Import Num Base Model_Arr Model_SC Model_Err Model_Beam Model_Orbit Model_Scan Model_Plot.
Local Open Scope string_scope.
Local Open Scope list_scope.

Section Figure.
  Context {T : Type} {N : Num T}.

  (** numpy's histogram with as many bins as data: the edges are equally spaced between the extremes (half a unit around a single value);
      a bin contains its lower edge, the last bin both *)
  Definition hist_edges (lo hi : T) (n : nat) : list T :=
    map (fun k => nadd lo (ndiv (nmul (nofnat k) (nsub hi lo)) (nofnat n))) (seq 0 n) ++ [hi].
  Definition in_bin (edges : list T) (n k : nat) (x : T) : bool :=
    match edges !! k, edges !! S k with
    | Some a, Some b => nleb a x && (if (k =? n - 1)%nat then nleb x b else nltb x b)
    | _, _ => false
    end.
  Definition histogram (l : list T) : res (list nat * list T) :=
    match l with
    | [] => Err ValueError
    | x :: l' =>
        let a := fold_left nmin l' x in
        let b := fold_left nmax l' x in
        let half := ndiv n1 ntwo in
        let lo := if neqb a b then nsub a half else a in
        let hi := if neqb a b then nadd b half else b in
        let n := length l in
        let edges := hist_edges lo hi n in
        Ok (map (fun k => length (List.filter (in_bin edges n k) l)) (seq 0 n), edges)
    end.
  (** numpy's cumsum *)
  Fixpoint cumsum (acc : T) (l : list T) : list T := match l with [] => [] | x :: l' => nadd acc x :: cumsum (nadd acc x) l' end.
  Definition total (l : list nat) : nat := foldr Nat.add 0%nat l.

  (** plot_lattice.py lines 96-115 (plot_cm_strengths): for each plane the bars and the line of the cumulative distribution *)
  Definition cm_strengths (s : sc T) : res (list (list (T * T) * list (T * T))) :=
    rmap (fun n_dim =>
      let? cms := idx [oHCM (ORD s); oVCM (ORD s)] n_dim in
      let? sp := get_cm_setpoints cms (n_dim =? 1)%nat s in
      let setpoints := map (nmul million) sp in
      let? h := histogram setpoints in
      let? places := rmap (idx (spos (RING s))) cms in
      let? fractions := rmap (fun c => qdiv (nofnat c) (nofnat (total h.1))) h.1 in
      Ok (combine places setpoints, combine (tail h.2) (cumsum n0 fractions))) (seq 0 2).

  (** plot_apertures.py lines 96-101 (_apertures) for one element: the limits in both planes, [-a, a] and [lower, upper].  Arrays of
      other lengths are refused (numpy refuses ragged arrays; it would accept a lattice all of whose elements have the same wrong length). *)
  Definition e_aperture (e : elem T) : res (list (option T * option T)) :=
    match e !! "EApertures" with
    | None => Ok [(None, None); (None, None)]
    | Some (VVec [a; b]) => Ok [(Some (nmul a (nopp n1)), Some (nmul a n1)); (Some (nmul b (nopp n1)), Some (nmul b n1))]
    | Some _ => Err ValueError
    end.
  Definition r_aperture (e : elem T) : res (list (option T * option T)) :=
    match e !! "RApertures" with
    | None => Ok [(None, None); (None, None)]
    | Some (VVec [a; b; c; d]) => Ok [(Some a, Some b); (Some c, Some d)]
    | Some _ => Err ValueError
    end.
  Definition to_mm : T := nofZ 1000.
  Definition scaled (cut_off : option T) (x : option T) : option T :=
    match x with
    | None => None
    | Some v =>
        let y := nmul v to_mm in
        match cut_off with
        | Some c => if nltb (nmul c to_mm) (nabs y) then None else Some y
        | None => Some y
        end
    end.
  (** plot_apertures.py lines 13-37 (plot_data_apertures): positions and the four lines *)
  Definition data_apertures (ring : list (elem T)) (refpts : list nat) (cut_off : option T) : res (list T * list (list (option T))) :=
    let? last_ref := match last refpts with Some r => Ok r | None => Err IndexError end in
    let refs := if (last_ref =? length ring)%nat then take (length refpts - 1) refpts else refpts in
    let? ea_all := rmap e_aperture ring in
    let? ra_all := rmap r_aperture ring in
    let? s_pos := rmap (idx (spos ring)) refs in
    let? ea := rmap (idx ea_all) refs in
    let? ra := rmap (idx ra_all) refs in
    let? first := idx s_pos 0 in
    let? final := match last s_pos with Some r => Ok r | None => Err IndexError end in
    let side (l : list (list (option T * option T))) (plane : nat) (upper : bool) : list (option T) :=
      map (fun a => match a !! plane with Some p => scaled cut_off (if upper then p.2 else p.1) | None => None end) l in
    let joined (l : list (list (option T * option T))) (plane : nat) : list (option T) := side l plane false ++ [None; None] ++ side l plane true in
    Ok (s_pos ++ [final; first] ++ s_pos, [joined ea 0%nat; joined ea 1%nat; joined ra 0%nat; joined ra 1%nat]).

  (** plot_synoptic.py lines 92-106 (_get_shape): corners of the shapes, in hundredths of the length and hundredths of the height *)
  Definition unit_shape (mtype : string) : option (list (Z * Z)) :=
    if decide (mtype = "dipole") then Some [(0, 0); (0, 100); (100, 100); (100, 0)]%Z
    else if decide (mtype = "hcor") then Some [(0, 0); (0, 110); (90, 110); (90, 0)]%Z
    else if decide (mtype = "vcor") then Some [(0, 0); (0, -105); (95, -105); (95, 0)]%Z
    else if decide (mtype = "f_quadrupole") then Some [(0, 0); (0, 100); (50, 140); (100, 100); (100, 0)]%Z
    else if decide (mtype = "d_quadrupole") then Some [(0, 0); (0, 100); (50, 60); (100, 100); (100, 0)]%Z
    else if decide (mtype = "f_skewquadrupole") then Some [(0, 0); (0, 110); (50, 150); (90, 110); (90, 0)]%Z
    else if decide (mtype = "d_skewquadrupole") then Some [(0, 0); (0, 110); (50, 70); (90, 110); (90, 0)]%Z
    else if decide (mtype = "f_sextupole") then Some [(0, 0); (0, 80); (33, 100); (66, 100); (100, 80); (100, 0)]%Z
    else if decide (mtype = "d_sextupole") then Some [(0, 0); (0, 80); (33, 60); (66, 60); (100, 80); (100, 0)]%Z
    else if decide (mtype = "multipole") then Some [(0, 0); (0, 80); (100, 80); (100, 0)]%Z
    else if decide (mtype = "monitor") then Some [(0, 0); (0, 120)]%Z
    else None.
  Definition hundredth (z : Z) : T := ndiv (nofZ z) (nofZ 100).
  Definition get_shape (s len : T) (mtype : string) : res (list (T * T)) :=
    match unit_shape mtype with
    | None => Err KeyError
    | Some l => Ok (map (fun p => (nadd (nmul (hundredth p.1) len) s, hundredth p.2)) l)
    end.
  (** the classes of pyAT; [kind] is an argument *)
  Inductive kind := KDipole | KQuadrupole | KSextupole | KMultipole | KMonitor | KOther.
  Definition same_kind (a b : kind) : bool :=
    match a, b with KDipole, KDipole | KQuadrupole, KQuadrupole | KSextupole, KSextupole | KMultipole, KMultipole | KMonitor, KMonitor => true | _, _ => false end.
  Definition sign_letter (e : elem T) (name : string) (i : nat) : res string :=
    let? v := attr_vec e name in let? x := idx v i in Ok (if nleb n0 x then "f" else "d").
  (** lines 57-67: the shapes of the magnets and monitors, by group *)
  Definition shapes_of (kind_of : elem T -> kind) (ring : list (elem T)) (k : kind) (mtype : elem T -> res string) (len : elem T -> res T) : res (list (list (T * T))) :=
    rmap (fun se => let? t := mtype se.2 in let? l := len se.2 in get_shape se.1 l t)
      (List.filter (fun se => same_kind (kind_of se.2) k)
         (combine (spos ring) ring)).
  Definition synoptic (kind_of : elem T -> kind) (ring : list (elem T)) : res (list (string * list (list (T * T)))) :=
    let len e := attr_num e "Length" in
    let len0 e := Ok (elem_length e) in
    let? d := shapes_of kind_of ring KDipole (fun _ => Ok "dipole") len in
    let? q := shapes_of kind_of ring KQuadrupole (fun e => let? l := sign_letter e "PolynomB" 1 in Ok (l +:+ "_quadrupole")) len in
    let? x := shapes_of kind_of ring KSextupole (fun e => let? l := sign_letter e "PolynomB" 2 in Ok (l +:+ "_sextupole")) len in
    let? m := shapes_of kind_of ring KMultipole (fun _ => Ok "monitor") len in
    let? b := shapes_of kind_of ring KMonitor (fun _ => Ok "monitor") len0 in
    Ok [("dipole", d); ("quadrupole", q); ("sextupole", x); ("multipole", m); ("monitor", b)].
End Figure.
