(** pySC/utils/stats.py: circular statistics of flat arrays (axis=None), also with missing values.  Complex numbers are pairs.
    Arguments: [angle re im], the argument of a complex number (numpy.angle); [quantile], Student's quantile of the number of degrees of freedom.
    A missing value (NaN, masked by the nan-variants) is [None]. *)
From Coq Require Import ZArith.
From stdpp Require Import base gmap strings list.
From Verif Require Import Num Base Model_Arr Model_SC Model_Err Model_Beam Model_Orbit Model_Stats.
Local Open Scope list_scope.

Section Circ.
  Context {T : Type} {N : Num T} {G : Trig T}.
  Context (angle : T -> T -> T).

  Definition PI2 : T := nmul ntwo npi.
  (** stats.py lines 234-255 (weights_from_errors) for any period. *)
  Definition period_weights (errors : option (list (option T))) (period : T) : res (option (list T)) :=
    match weights_from_errors errors with
    | None => Ok None
    | Some _ =>
        if neqb period n0 then Err NonFinite else
        Ok (w ← no_gaps (default [] errors); Some (map (fun e => let x := ndiv (nmul e PI2) period in ndiv n1 (nmul x x)) w))
    end.
  (** the phases of the data, and the average of the unit vectors (lines 39-42, 72-75) *)
  Definition phases (data : list T) (period : T) : res (list T) :=
    if neqb period n0 then Err NonFinite else Ok (map (fun x => ndiv (nmul x PI2) period) data).
  Definition complex_average (ph : list T) (weights : option (list T)) : res (T * T) :=
    let? c := average (map ncos ph) weights in
    let? s := average (map nsin ph) weights in
    Ok (c, s).
  (** lines 22-42 (circular_mean) *)
  Definition circular_mean (data : list T) (period : T) (errors : option (list (option T))) : res T :=
    let? ph := phases data period in
    let? weights := period_weights errors period in
    let? z := complex_average ph weights in
    Ok (ndiv (nmul (angle z.1 z.2) period) PI2).

  (** lines 53-86 (circular_error); [n] is the number of the data, missing ones included (line 289).  Where the average vanishes the quotient
      of line 83 is infinite and becomes the largest number. *)
  Definition modulus (z : T * T) : T := nsqrt (nadd (nmul z.1 z.1) (nmul z.2 z.2)).
  Definition sample_size (n : nat) (weights : option (list T)) : res T :=
    let? m := match weights with None => Ok (nofnat n) | Some w => qdiv (nmul (nsum w) (nsum w)) (nsum (map (fun x => nmul x x) w)) end in
    Ok (if nltb ntwo m then m else ntwo).
  Definition circular_error_of (quantile : T -> T) (n : nat) (data : list T) (period : T) (errors : option (list (option T))) (t_value_corr : bool) : res T :=
    let? ph := phases data period in
    let? weights := period_weights errors period in
    let? z := complex_average ph weights in
    let? v := average (map (fun p => let a := nsub (ncos p) z.1 in let b := nsub (nsin p) z.2 in nadd (nmul a a) (nmul b b)) ph) weights in
    let? v' := match weights with None => Ok v | Some w => let? inv := qdiv n1 (nsum w) in Ok (nadd v inv) end in
    let? m := sample_size n weights in
    let? u := qdiv m (nsub m n1) in
    let large := nmul (ndiv (nofnat 3) (nofnat 10)) period in
    if neqb (modulus z) n0 then Ok large else
    let e := ndiv (nsqrt (nmul v' u)) (modulus z) in
    let e' := if t_value_corr then nmul e (quantile (nsub m n1)) else e in
    Ok (if nltb (nmul (ndiv n1 (nofnat 4)) PI2) e' then large else ndiv (nmul e' period) PI2).
  Definition circular_error (quantile : T -> T) (data : list T) := circular_error_of quantile (length data) data.

  (** lines 45-50, 89-95, 117-121, 227-231: the nan-variants work on the present values and on the errors at their places; without any
      present value numpy returns a masked result, which is left out *)
  Definition present (data : list (option T)) : list T := omap Datatypes.id data.
  Definition present_errors (data : list (option T)) (errors : list (option T)) : list (option T) :=
    omap (fun p => match p.1 with Some _ => Some p.2 | None => None end) (zip data errors).
  (** masks of different lengths are refused *)
  Definition masked_errors (data : list (option T)) (errors : option (list (option T))) : res (option (list (option T))) :=
    match errors with
    | None => Ok None
    | Some es => if (length es =? length data)%nat then Ok (Some (present_errors data es)) else Err GenericException
    end.
  Definition circular_nanmean (data : list (option T)) (period : T) (errors : option (list (option T))) : res T :=
    let? es := masked_errors data errors in circular_mean (present data) period es.
  Definition weighted_nanmean (data : list (option T)) (errors : option (list (option T))) : res T :=
    let? es := masked_errors data errors in weighted_mean (present data) es.
  Definition weighted_nanrms (data : list (option T)) (errors : option (list (option T))) : res T :=
    let? es := masked_errors data errors in weighted_rms (present data) es.
  Definition circular_nanerror (quantile : T -> T) (data : list (option T)) (period : T) (errors : option (list (option T))) (t_value_corr : bool) : res T :=
    let? es := masked_errors data errors in circular_error_of quantile (length data) (present data) period es t_value_corr.

  (** lines 174-189 (circular_rms); the root of a negative number is NaN *)
  Definition circular_rms (data : list T) (period : T) : res T :=
    if neqb period n0 then Err NonFinite else
    let? m := circular_mean (map (fun x => let q := ndiv x period in nmul q q) data) n1 None in
    let y := nmul m period in
    if nltb y n0 then Err NonFinite else Ok (nsqrt y).
End Circ.
