(** Model of SimulatedCommissioning.verify_structure. *)
From stdpp Require Import base gmap strings list.
From Verif Require Import Num Base Model_Arr Model_SC.
Local Open Scope string_scope.
Local Open Scope list_scope.

(** The warnings logged by verify_structure (simulated_commissioning.py lines 957-1050), with the ordinate and the field they name.
    Information messages are left out; the warning of line 1021 cannot be reached, see [children_checked]. *)
Inductive warning :=
| NoBpm | BpmTwice | NoHcm | HcmTwice | NoVcm | VcmTwice | ZeroHcmLimit (i : nat) | ZeroVcmLimit (i : nat)
| ZeroGradient (i : nat) | ZeroAngle (i : nat) | MagnetField (i : nat) (field : string)
| NoCavity | CavityTwice | CavityField (i : nat) (field : string) | BothApertures (i : nat) | NoAperture.

Section Verify.
  Context {T : Type} {N : Num T}.
  (** LOGGER.warning: the state is what has been logged *)
  Definition warn (w : warning) : M (list warning) unit := modify (fun l => l ++ [w]).

  (** [len(v)] *)
  Definition len_of (v : val T) : res nat :=
    match v with
    | VVec l => Ok (length l) | VMat rows => Ok (length rows) | VOrds l => Ok (length l) | VTab t => Ok (length t) | VLims l => Ok (length l)
    | VStr s => Ok (String.length s) | VList _ _ => Ok 2%nat
    | VNum _ | VBool _ | VInt _ | VLim _ => Err TypeError
    end.
  Definition attr_len (e : elem T) (a : string) : res nat := let? v := attr e a in len_of v.
  (** [bool(v)], for booleans and numbers; anything else counts as true *)
  Definition truth (v : val T) : bool := match v with VBool b => b | VNum x => negb (neqb x n0) | VInt z => negb (z =? 0)%Z | _ => true end.

  (** lines 966-971 for monitors and 977-988 for correctors *)
  Definition count_checked (ords : list nat) (none twice : warning) : M (list warning) unit :=
    if (length ords =? 0)%nat then warn none else when (negb (length (unique ords) =? length ords)%nat) (warn twice).
  (** lines 989-994; [plane] 0 horizontal, 1 vertical *)
  Definition limit_checked (s : sc T) (plane : nat) (w : nat -> warning) (i : nat) : M (list warning) unit :=
    let! e := lift (idx (RING s) i) in
    let! v := lift (attr e "CMlimit") in
    let! ls := lift (as_lims v) in
    let! l := lift (idx ls plane) in
    match l with Fin x => when (neqb x n0) (warn (w i)) | PInf => ret tt end.
  (** [if len(a) != len(b): raise ValueError] *)
  Definition equal_lengths (e : elem T) (a b : string) : M (list warning) unit :=
    let! n := lift (attr_len e a) in
    let! m := lift (attr_len e b) in
    if (n =? m)%nat then ret tt else raise ValueError.
  (** lines 1006-1012 *)
  Definition combined_checked (i : nat) (e : elem T) : M (list warning) unit :=
    match e !! "CombinedFunction" with
    | None => ret tt
    | Some v =>
        if truth v then
          if hasattr e "BendingAngle" then
            let! p := lift (attr_vec e "NomPolynomB") in
            let! k := lift (idx p 1) in
            when (neqb k n0) (warn (ZeroGradient i)) ;;;
            let! b := lift (attr_num e "BendingAngle") in
            when (neqb b n0) (warn (ZeroAngle i))
          else raise ValueError
        else ret tt
    end.
  (** lines 1013-1018 and 1031-1034: every field with an uncertainty exists on the element *)
  Definition fields_checked (m : gmap nat (dict (sigval T))) (i : nat) (e : elem T) (w : nat -> string -> warning) : M (list warning) unit :=
    match m !! i with
    | None => raise KeyError
    | Some d => forM (dkeys d) (fun f => when (negb (hasattr e f)) (warn (w i f)))
    end.
  (** lines 1019-1023: the loop over the fields of a child iterates an element of the lattice library, which is not iterable *)
  Definition children_checked (s : sc T) (e : elem T) : M (list warning) unit :=
    match e !! "MasterOf" with
    | None => ret tt
    | Some v =>
        let! cs := lift (as_ords v) in
        forM cs (fun c => let! _ := lift (idx (RING s) c) in raise TypeError)
    end.
  (** lines 997-1023, one magnet *)
  Definition magnet_checked (s : sc T) (i : nat) : M (list warning) unit :=
    let! e := lift (idx (RING s) i) in
    equal_lengths e "PolynomB" "PolynomA" ;;;
    equal_lengths e "SetPointB" "CalErrorB" ;;;
    equal_lengths e "SetPointA" "CalErrorA" ;;;
    when (hasattr e "PolynomBOffset") (equal_lengths e "PolynomBOffset" "PolynomAOffset") ;;;
    combined_checked i e ;;;
    fields_checked (sMagnet (SIG s)) i e MagnetField ;;;
    children_checked s e.
  (** lines 1031-1034, one cavity; SIG always has the field RF (classes.py line 158) *)
  Definition cavity_checked (s : sc T) (i : nat) : M (list warning) unit :=
    let! d := lift (match sRF (SIG s) !! i with Some d => Ok d | None => Err KeyError end) in
    forM (dkeys d) (fun f =>
      let! e := lift (idx (RING s) i) in
      when (negb (hasattr e f)) (warn (CavityField i f))).
  (** lines 1042-1046 *)
  Definition aperture (e : elem T) : bool := hasattr e "EApertures" || hasattr e "RApertures".
  Definition both_checked (p : nat * elem T) : M (list warning) unit :=
    when (hasattr p.2 "EApertures" && hasattr p.2 "RApertures") (warn (BothApertures p.1)).
  Definition is_shape (n m : nat) (a : list (list T)) : bool := (length a =? n)%nat && forallb (fun r => (length r =? m)%nat) a.

  (** simulated_commissioning.py lines 957-1050 (verify_structure); nothing but the log is changed *)
  Definition verify_structure (s : sc T) : M (list warning) unit :=
    let o := ORD s in
    count_checked (oBPM o) NoBpm BpmTwice ;;;
    (if (length (oGirder o) =? 0)%nat && negb ((length (oPlinth o) =? 0)%nat && (length (oSection o) =? 0)%nat) then raise ValueError else ret tt) ;;;
    count_checked (oHCM o) NoHcm HcmTwice ;;;
    count_checked (oVCM o) NoVcm VcmTwice ;;;
    forM (oHCM o) (limit_checked s 0 ZeroHcmLimit) ;;;
    forM (oVCM o) (limit_checked s 1 ZeroVcmLimit) ;;;
    forM (oMagnet o) (magnet_checked s) ;;;
    when (length (oRF o) =? 0)%nat (warn NoCavity) ;;;
    when (negb (length (unique (oRF o)) =? length (oRF o))%nat) (warn CavityTwice) ;;;
    forM (oRF o) (cavity_checked s) ;;;
    (if is_shape 6 6 (beamSize (INJ s)) then ret tt else raise ValueError) ;;;
    (if (length (sRandZ (SIG s)) =? 6)%nat then ret tt else raise ValueError) ;;;
    (if (length (sStatZ (SIG s)) =? 6)%nat then ret tt else raise ValueError) ;;;
    forM (imap pair (RING s)) both_checked ;;;
    when (negb (existsb aperture (RING s))) (warn NoAperture).
End Verify.
