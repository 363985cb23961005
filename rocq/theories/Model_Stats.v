(** pySC/utils/stats.py: weighted statistics of flat arrays (axis=None, default period).  NaN is [None]; Student's
    quantile (scipy.stats.t.ppf) is an argument.  The circular and the masked (nan-) variants are not modelled. *)
From Coq Require Import ZArith.
From stdpp Require Import base gmap strings list.
From Verif Require Import Num Base Model_Arr Model_SC Model_Err Model_Beam Model_Orbit.
Local Open Scope list_scope.

Section Stats.
  Context {T : Type} {N : Num T} {G : Trig T}.

  (** stats.py lines 247-255 (weights_from_errors); no weights for missing errors, NaN or zeros. *)
  Definition weights_from_errors (errors : option (list (option T))) : option (list T) :=
    match errors with
    | None => None
    | Some errors =>
        match no_gaps errors with
        | None => None
        | Some l => if existsb (fun e => neqb e n0) l then None else Some (map (fun e => ndiv n1 (nmul e e)) l)
        end
    end.
  (** numpy.average: with weights whose sum is zero (no data) ZeroDivisionError; without weights and data NaN. *)
  Definition average (data : list T) (weights : option (list T)) : res T :=
    match weights with
    | None => if (length data =? 0)%nat then Err NonFinite else Ok (mean data)
    | Some w =>
        if (length w =? length data)%nat then
          let total := nsum w in
          if neqb total n0 then Err ZeroDivisionError else Ok (ndiv (nsum (zip_with nmul data w)) total)
        else Err TypeError
    end.
  (** stats.py lines 113-114 (weighted_mean). *)
  Definition weighted_mean (data : list T) (errors : option (list (option T))) : res T := average data (weights_from_errors errors).
  (** stats.py lines 288-292 (effective_sample_size). *)
  Definition effective_sample_size (data : list T) (weights : option (list T)) : res T :=
    let? n := match weights with
              | None => Ok (nofnat (length data))
              | Some w => qdiv (nmul (nsum w) (nsum w)) (nsum (map (fun x => nmul x x) w))
              end in
    Ok (if nltb ntwo n then n else ntwo).
  (** stats.py lines 320-324 (unbias_variance); the sample size is at least two. *)
  Definition unbias_variance (data : list T) (weights : option (list T)) : res T :=
    let? n := effective_sample_size data weights in qdiv n (nsub n n1).
  (** stats.py lines 229-230 and 213 (weighted_rms, rms). *)
  Definition weighted_rms (data : list T) (errors : option (list (option T))) : res T :=
    let? m := average (map (fun x => nmul x x) data) (weights_from_errors errors) in Ok (nsqrt m).
  Definition rms (data : list T) : res T := weighted_rms data None.

  (** stats.py lines 159-171 (weighted_error) and 344 (t_value_correction: [quantile] of the sample size minus one). *)
  Definition weighted_error (quantile : T -> T) (data : list T) (errors : option (list (option T))) : res T :=
    let weights := weights_from_errors errors in
    let? m := average data weights in
    let? v := average (map (fun x => nmul (nsub x m) (nsub x m)) data) weights in
    let? v' := match weights with None => Ok v | Some w => let? inv := qdiv n1 (nsum w) in Ok (nadd v inv) end in
    let? u := unbias_variance data weights in
    let? n := effective_sample_size data weights in
    Ok (nmul (nsqrt (nmul v' u)) (quantile (nsub n n1))).
End Stats.
