(** The closed orbit at the magnets: lattice_properties/magnet_orbit.py (SCgetCOD) without its figure, and the numpy it relies on: how nested
    sequences become an array, and when an array counts as true. *)
From Coq Require Import ZArith.
From stdpp Require Import base gmap strings list.
From Verif Require Import Num Base Model_Arr Model_SC Model_Err Model_Beam.
Local Open Scope string_scope.
Local Open Scope list_scope.

Section Cod.
  Context {T : Type} {N : Num T} {G : Trig T}.
  (** nested sequences of numbers; a number that is not finite is [None] *)
  Inductive nested := Leaf (x : option T) | Seq (l : list nested).

  (** the shape numpy (2.0 or later) gives nested sequences; [None] if it is not regular *)
  Fixpoint shape (a : nested) : option (list nat) :=
    match a with
    | Leaf _ => Some []
    | Seq l =>
        let shapes := map shape l in
        match shapes with
        | [] => Some [0%nat]
        | None :: _ => None
        | Some d :: rest => if forallb (fun s => bool_decide (s = Some d)) rest then Some (length l :: d) else None
        end
    end.
  (** [np.isnan] of anything: the array has to be regular *)
  Fixpoint missing (a : nested) : nested :=
    match a with Leaf None => Leaf (Some n1) | Leaf (Some _) => Leaf (Some n0) | Seq l => Seq (map missing l) end.
  Definition isnan (a : nested) : res nested := match shape a with None => Err ValueError | Some _ => Ok (missing a) end.
  (** [bool] of an array: of exactly one entry, otherwise ValueError (for empty arrays since numpy 2.2; before, they were false) *)
  Fixpoint entries (a : nested) : list (option T) := match a with Leaf x => [x] | Seq l => concat (map entries l) end.
  Definition truth (a : nested) : res bool :=
    match entries a with [Some x] => Ok (negb (neqb x n0)) | [None] => Ok true | [] => Ok false | _ => Err ValueError end.
  (** Python's [any]: not for a single number *)
  Fixpoint any_of (l : list nested) : res bool :=
    match l with [] => Ok false | a :: l' => let? b := truth a in if b : bool then Ok true else any_of l' end.
  Definition any (a : nested) : res bool := match a with Leaf _ => Err TypeError | Seq l => any_of l end.

  (** [SC.RING[ord].T2([1, 3])]: an array is not a function *)
  Definition called_T2 (s : sc T) (i : nat) : res (list T) :=
    let? e := idx (RING s) i in
    match e !! "T2" with None => Err AttributeError | Some _ => Err TypeError end.
  (** [T[[1, 3], :]] *)
  Definition rows_1_3 (a : nested) : res (list nested) :=
    match a with
    | Leaf _ => Err IndexError
    | Seq l => match shape a with
               | Some (_ :: _ :: _) => let? x := idx l 1 in let? y := idx l 3 in Ok [x; y]
               | _ => Err IndexError
               end
    end.
  (** lines 9-19; [np.nan(2, len(ords))] of line 14 calls a number.  The offsets are those of the magnets, none if there are none. *)
  Definition cod_from (orbit : nested) (s : sc T) (ords : list nat) : res (list nested) :=
    let? m := isnan orbit in
    let? lost := any m in
    if lost : bool then Err TypeError
    else
      let? offsets := rmap (called_T2 s) ords in
      rows_1_3 orbit.
  (** [at_wrapper.findorbit6] hands on what pyAT returns: the orbit at the entrance of the lattice, and the orbits at the reference points, one
      row of six each *)
  Definition found_orbits (w : world T) (s : sc T) (ords : list nat) : nested :=
    let row (r : list nat) (b : nat) := Seq (map (fun c => Leaf (w_orbit w (RING s) r b c)) (seq 0 6)) in
    Seq [row [0%nat] 0%nat; Seq (map (row ords) (seq 0 (length ords)))].
  Definition SCgetCOD (w : world T) (s : sc T) (ords : option (list nat)) : res (list nested) :=
    let o := default (oMagnet (ORD s)) ords in
    cod_from (found_orbits w s o) s o.
End Cod.
Arguments nested : clear implicits.
