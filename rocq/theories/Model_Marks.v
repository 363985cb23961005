(** The whole figure of the supports: plotting/plot_support.py with the steps of the supports and the marks of magnets and monitors.
    Drawing itself (matplotlib) is not modelled: marks are lists of points, steps are lists of (from, to, height). *)
From Coq Require Import ZArith.
From stdpp Require Import base gmap strings list.
From Verif Require Import Num Base Model_Arr Model_SC Model_Err Model_Beam Model_Orbit Model_Scan Model_Plot.
Local Open Scope string_scope.
Local Open Scope list_scope.

Section Marks.
  Context {T : Type} {N : Num T} {G : Trig T}.
  (** Python's [int] on a float *)
  Variable int : T -> Z.

  (** line 36: [np.linspace(x0, x1, 100 * int((x1 - x0) / 2))] *)
  Definition support_grid (lims : T * T) : res (list T) :=
    let k := (100 * int (ndiv (nsub lims.2 lims.1) ntwo))%Z in
    if (k <? 0)%Z then Err ValueError else if (k =? 0)%Z then Ok [] else Ok (linspace lims.1 lims.2 (Z.to_nat k)).
  (** [Axes.stairs(1e6 * line[:-1], edges)]: one edge more than values, otherwise ValueError *)
  Definition stairs (line edges : list T) : res (list (T * T * T)) :=
    let values := map (nmul million) (take (length line - 1) line) in
    if (length edges =? S (length values))%nat then Ok (combine (combine edges (tail edges)) values) else Err ValueError.
  (** [s_pos[ords]] against column [k] of [1e6 * atgetfieldvalues(RING, ords, name)] *)
  Definition marks (s : sc T) (ords : list nat) (value : elem T -> res T) : res (list (T * T)) :=
    rmap (fun i => let? a := idx (spos (RING s)) i in let? e := idx (RING s) i in let? x := value e in Ok (a, nmul million x)) ords.
  Definition component (name : string) (k : nat) (e : elem T) : res T := let? v := attr_vec e name in idx v k.
  (** lines 65-69, for monitors: two offsets padded with zero, one roll padded with two zeros *)
  Definition padded_vec (name : string) (k : nat) (e : elem T) : res T := let? v := attr_vec e name in idx (v ++ [n0]) k.
  Definition padded_num (name : string) (k : nat) (e : elem T) : res T := let? x := attr_num e name in idx [x; n0; n0] k.

  Record panels := MkPanels {
    steps : list (T * T * T) * list (T * T * T);          (** overall supports, offset and roll *)
    support_marks : list (T * T) * list (T * T);          (** at the magnets *)
    lines : list (list (list (list (T * T)) * list (list (T * T))));   (** individual structures, by type *)
    single_marks : list (T * T) * list (T * T);           (** individual magnets *)
    total_marks : list (T * T) * list (T * T);            (** overall magnets *)
    bpm_marks : list (T * T) * list (T * T);              (** random, monitors *)
    bpm_support_marks : list (T * T) * list (T * T) }.    (** of the supports, at the monitors *)

  (** lines 79-112, for one dimension.  Line 60: columns 0, 2 and 5 of T2. *)
  Definition panels_of (s : sc T) (grid : list T) (line : list (list T) * list (list T)) (drawn : list (list (list (list (list (T * T)) * list (list (T * T)))))) (n : nat) : res panels :=
    let mags := oMagnet (ORD s) in
    let bpms := oBPM (ORD s) in
    let? off := idx line.1 n in
    let? st := stairs off grid in
    let? d := marks s mags (component "SupportOffset" n) in
    let? roll := idx line.2 n in
    let? st' := stairs roll grid in
    let? d' := marks s mags (component "SupportRoll" n) in
    let? l := idx drawn n in
    let? m := marks s mags (component "MagnetOffset" n) in
    let? col := idx [0; 2; 5]%nat n in
    let? t := marks s mags (component "T2" col) in
    let? m' := marks s mags (component "MagnetRoll" n) in
    let? t' := marks s mags (fun e => let? a := component "SupportRoll" n e in let? b := component "MagnetRoll" n e in Ok (nadd a b)) in
    let? b := marks s bpms (padded_vec "Offset" n) in
    let? bs := marks s bpms (padded_vec "SupportOffset" n) in
    let? b' := marks s bpms (padded_num "Roll" n) in
    let? bs' := marks s bpms (padded_num "SupportRoll" n) in
    Ok (MkPanels (st, st') (d, d') l (m, m') (t, t') (b, b') (bs, bs')).
  (** lines 27-113 (plot_support).  Without magnets the field values are an array of one dimension, which line 60 indexes with two; without
      monitors line 66 pads it in two dimensions. *)
  Definition support_figure (x_lim : option (T * T)) (s : sc T) : res (list panels) :=
    let circ := default n0 (last (spos (RING s))) in
    let lims := default (n0, circ) x_lim in
    let? grid := support_grid lims in
    let? line := support_offset_and_roll grid s in
    let? _ := match oMagnet (ORD s) with [] => Err IndexError | _ => Ok tt end in
    let? _ := match oBPM (ORD s) with [] => Err ValueError | _ => Ok tt end in
    let? off := idx line.1 0 in
    let? _ := stairs off grid in
    let? drawn := plot_support x_lim s in
    rmap (panels_of s grid line drawn) (seq 0 3).
End Marks.
Arguments panels : clear implicits.
