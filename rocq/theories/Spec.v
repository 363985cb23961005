(** Small specification vocabulary shared by the property files: how a user reads a machine.  Nothing here is used
    by the model. *)
From stdpp Require Import base gmap strings list.
From Verif Require Import Num Base Model_Arr Model_SC.
From Coq Require Import Reals.
Local Open Scope string_scope.
Local Open Scope list_scope.

(** attribute [a] of element [i] *)
Definition attr_at {T} (s : sc T) (i : nat) (a : string) : option (val T) := RING s !! i ≫= fun e => e !! a.

(** everything but the lattice itself is the same *)
Definition same_but_ring {T} (s s' : sc T) : Prop :=
  IDEALRING s' = IDEALRING s /\ INJ s' = INJ s /\ SIG s' = SIG s /\ ORD s' = ORD s /\ RNG s' = RNG s.

(** attributes computed by update_magnets *)
Definition field_attributes : list string := ["PolynomA"; "PolynomB"; "KickAngle"; "MaxOrder"].

(** split-magnet children recorded for an element *)
Definition child_of {T} (s : sc T) (i m : nat) : Prop := exists l, attr_at s m "MasterOf" = Some (VOrds l) /\ i ∈ l.

(** set-point attribute of a plane: false = horizontal / normal (B), true = vertical / skew (A) *)
Definition setpoint_name (skew : bool) : string := if skew then "SetPointA" else "SetPointB".
Definition field_name (skew : bool) : string := if skew then "PolynomA" else "PolynomB".
Definition nominal_name (skew : bool) : string := if skew then "NomPolynomA" else "NomPolynomB".
Definition cal_name (skew : bool) : string := if skew then "CalErrorA" else "CalErrorB".

(** component [k] of an array attribute *)
Definition entry {T} (s : sc T) (i : nat) (a : string) (k : nat) : option T :=
  match attr_at s i a with Some (VVec l) => l !! k | _ => None end.
Definition number {T} (s : sc T) (i : nat) (a : string) : option T :=
  match attr_at s i a with Some (VNum x) => Some x | _ => None end.

(** the limit recorded for a corrector in a plane, if finite *)
Definition cm_limit {T} (s : sc T) (i : nat) (skew : bool) : option T :=
  match attr_at s i "CMlimit" with
  | Some (VLims ls) => match ls !! (if skew then 1%nat else 0%nat) with Some (Fin l) => Some l | _ => None end
  | _ => None
  end.
(** the limit recorded for a skew quadrupole, if finite *)
Definition skew_limit {T} (s : sc T) (i : nat) : option T :=
  match attr_at s i "SkewQuadLimit" with Some (VLim (Fin l)) => Some l | _ => None end.

Definition sign (x : R) : R := if Rlt_dec x 0 then (-1)%R else if Rlt_dec 0 x then 1%R else 0%R.
(** a request kept within a limit *)
Definition clipped (limit : option R) (x : R) : R :=
  match limit with
  | None => x
  | Some l => if Rle_dec (Rabs x) (Rabs l) then x else (sign x * l)%R
  end.
Definition clipped_skew (limit : option R) (x : R) : R :=
  match limit with
  | None => x
  | Some l => if Rle_dec (Rabs x) l then x else (sign x * l)%R
  end.
