(** pySC/correction/ramp_errors.py. *)
From Coq Require Import ZArith.
From stdpp Require Import base gmap strings list.
From Verif Require Import Num Base Model_Arr Model_SC Model_Err Model_Beam Model_Lattice.
Local Open Scope string_scope.
Local Open Scope list_scope.

Section Ramp.
  Context {T : Type} {N : Num T} {G : Trig T}.
  (** numpy.linalg.inv, used by update_supports *)
  Context (inv : list (list T) -> res (list (list T))).

  (** [element[name]] and [name in element]: lattice elements have attributes, but neither items nor membership *)
  Definition item {A} (e : elem T) (name : string) : res A := Err TypeError.
  Definition member (name : string) (e : elem T) : res bool := Err TypeError.

  (** lines 39-47 (scaleSupport).  Every support type is a key of [ORD]; the array has one row of first and one of last
      elements, and the loop goes over the rows, taking the first two entries of each for a pair. *)
  Definition support_rows (t : stype) (o : indices) : list (list nat) := [map fst (oSupport t o); map snd (oSupport t o)].
  Definition scale_support (fields : list string) (scale : T) : M (sc T) unit :=
    forM SUPPORT_TYPES (fun t =>
      let! s := get in
      forM (support_rows t (ORD s)) (fun row =>
        forM fields (fun field =>
          forM [0; 1]%nat (fun se =>
            let! s := get in
            let! o := lift (idx row se) in
            let! e := lift (idx (RING s) o) in
            let! d := lift (item e "Support") in
            let! has := lift (member field (d : elem T)) in
            when has (lift (item e field)))))).
  (** lines 50-57 (scaleMagnets): update_supports returns None, which has no method update_magnets *)
  Definition scale_fields (ords : list nat) (fields : list string) : M (sc T) unit :=
    forM ords (fun o => forM fields (fun field =>
      let! s := get in let! e := lift (idx (RING s) o) in let! has := lift (member field e) in when has (lift (item e field)))).
  Definition scale_magnets (fields : list string) : M (sc T) unit :=
    let! s := get in
    scale_fields (oMagnet (ORD s)) fields ;;; update_supports inv true true ;;; raise AttributeError.
  (** lines 60-65 (scaleBPMs) *)
  Definition scale_bpms (fields : list string) : M (sc T) unit := let! s := get in scale_fields (oBPM (ORD s)) fields.
  (** lines 68-73 (scaleRF) *)
  Definition scale_rf (fields : list string) (scale : T) : M (sc T) unit :=
    forM RF_PROPERTIES (fun t => forM fields (fun field => let! s := get in forM (oRF (ORD s)) (fun o =>
      let! s := get in let! e := lift (idx (RING s) o) in lift (item e (t +:+ field))))).
  (** lines 76-80 (scaleInjection); [s0]: the machine the values are taken from *)
  Definition scaled_injection (scale : T) (i0 i : inj T) : res (inj T) :=
    let? d := bcast nsub (Z0 i0) (Z0ideal i0) in
    let? z := bcast nadd (Z0ideal i0) (map (nmul scale) d) in
    Ok (MkInj (beamLostAt i) (Z0ideal i) z (map (map (nmul scale)) (beamSize i0)) (map (nmul scale) (randomInjectionZ i0)) (nParticles i) (nTurns i) (nShots i) (trackMode i)).
  Definition scale_injection (scale : T) (s0 : sc T) : M (sc T) unit :=
    let! s := get in
    let! i := lift (scaled_injection scale (INJ s0) (INJ s)) in
    mod_INJ (fun _ => i).
  (** lines 83-90 (scaleCircumference) *)
  Definition lengths (ring : list (elem T)) : res T := rfold (fun acc e => let? l := attr_num e "Length" in Ok (nadd acc l)) ring n0.
  Definition scale_ring (scale : T) (s0 : sc T) : M (sc T) unit :=
    let! D := lift (lengths (RING s0)) in
    let! D0 := lift (lengths (take (length (RING s0)) (IDEALRING s0))) in
    if (length (IDEALRING s0) <? length (RING s0))%nat then raise IndexError
    else scale_circumference (nadd (nmul scale (nsub D D0)) D0) "abs".

  (** lines 10-36 (SCrampUpErrors).  [SC0 = SC] is no copy: all values are taken from the machine that is being changed.
      [correct]: the orbit correction of line 26. *)
  Definition errFieldsMag := ["CalErrorB"; "CalErrorA"; "PolynomAOffset"; "PolynomBOffset"; "MagnetOffset"; "MagnetRoll"].
  Definition errFieldsSup := ["Roll"; "Offset"].
  Definition errFieldsBPM := ["Noise"; "NoiseCO"; "Offset"; "SupportOffset"; "Roll"; "SupportRoll"; "CalError"].
  Definition errFieldsRF := ["Offset"; "CalError"].
  Context (w : world T) (correct : list (list (option T)) -> M (sc T) unit).
  Definition ramp_step (again : M (sc T) unit) (rm : list (list (option T))) (n : nat) (scale : T) : M (sc T) unit :=
    scale_support errFieldsSup scale ;;;
    scale_magnets errFieldsMag ;;;
    scale_bpms errFieldsBPM ;;;
    scale_rf errFieldsRF scale ;;;
    (let! s0 := get in scale_injection scale s0) ;;;
    (let! s0 := get in scale_ring scale s0) ;;;
    fun s => match correct rm s with
             | (Err RuntimeError, s') => if (100 <? 2 * n)%nat then (Err GenericException, s') else again s'
             | r => r
             end.
  (** [np.linspace(1 / n, 1, n)] *)
  Definition ramp_scales (n : nat) : list T := map (fun k => ndiv (nofnat (S k)) (nofnat n)) (seq 0 n).
  Fixpoint ramp_up_errors (fuel n : nat) : M (sc T) unit :=
    match fuel with
    | 0 => raise OutOfFuel
    | S fuel' =>
        let! s := get in
        let! rm := SCgetModelRM true w (oBPM (ORD s)) (oHCM (ORD s)) (oVCM (ORD s)) (trackMode (INJ s)) (zeros 6) (nTurns (INJ s)) (ndiv n1 (nofZ 100000)) true in
        if (n =? 0)%nat then raise ZeroDivisionError
        else forM (ramp_scales n) (ramp_step (ramp_up_errors fuel' (2 * n)) rm n)
    end%nat.
End Ramp.
