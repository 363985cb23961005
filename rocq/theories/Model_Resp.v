(** pySC/lattice_properties/response_measurement.py: measured response matrix and dispersion. *)
From Coq Require Import ZArith.
From stdpp Require Import base gmap strings list.
From Verif Require Import Num Base Model_Arr Model_SC Model_Err Model_Beam Model_Lattice Model_Scan Model_Loco.
Local Open Scope string_scope.
Local Open Scope list_scope.

(** the argument [amp]: a bare number, an array, or a list of one array per plane *)
Inductive amplitude (T : Type) := AmpNumber (x : T) | AmpArray (l : list T) | AmpList (h v : list T).
Arguments AmpNumber {T}. Arguments AmpArray {T}. Arguments AmpList {T}.

Section Resp.
  Context {T : Type} {N : Num T} {G : Trig T}.
  Variable w : world T.

  Definition isNone (x : option T) : bool := match x with None => true | Some _ => false end.
  (** [np.sum(~np.isnan(l))] *)
  Definition reach (l : list (option T)) : nat := length (List.filter isSome l).
  (** [a - b] elementwise, NaN where either is *)
  Definition ominus (a b : option T) : option T := x ← a; y ← b; Some (nsub x y).
  (** numpy.linspace(-m, m, n) *)
  Definition symmetric_steps (m : T) (n : nat) : list T :=
    match n with 0 => [] | 1 => [nopp m] | _ => linspace (nopp m) m n end%nat.

  Definition ravel_reading (bpms : list nat) : M (sc T) (list (option T)) :=
    let! r := bpm_reading w (Some bpms) false in ret (flat_reading r).

  (** [SC.get_cm_setpoints(cm_ord, skewness)]: an array with one entry *)
  Definition cm_setpoint (cm : nat) (skew : bool) : M (sc T) T :=
    let! s := get in
    let! l := lift (get_cm_setpoints [cm] skew s) in lift (idx l 0).

  (** lines 108-115 (_try_setpoint) *)
  Definition try_setpoint (bpms : list nat) (cm : nat) (start step : T) (skew : bool) : M (sc T) (T * list (option T)) :=
    set_cm_setpoints [cm] DFloat [nadd start step] skew ABS ;;;
    let! real := cm_setpoint cm skew in
    let! step' := (if neqb real (nadd start step) then ret step
                   else set_cm_setpoints [cm] DFloat [nadd start (nopp step)] skew ABS ;;; ret (nopp step)) in
    let! r := ravel_reading bpms in
    ret (step', r).

  (** largest absolute value; NaN if any entry is *)
  Definition max_abs (l : list (option T)) : res T :=
    match l with
    | [] => Err ValueError
    | _ => foldr (fun x acc => let? y := acc in match x with Some v => Ok (nmax (nabs v) y) | None => Err NonFinite end) (Ok n0) l
    end.

  (** lines 87-105 (_kick_amplitude), the loop.  In line 103 the reach, a float after the division by two, is formatted
      with the code "d", which Python refuses with ValueError; so the loop never continues with a decreased step.  A
      step that becomes NaN or infinite in line 97 is not followed further (NonFinite). *)
  Fixpoint kick_loop (n : nat) (bref : list (option T)) (bpms : list nat) (cm : nat) (start amp step : T) (skew : bool) (mode : string) : M (sc T) T :=
    match n with
    | 0 => ret step
    | S n' =>
        let! p := try_setpoint bpms cm start step skew in
        if (reach bref <=? reach p.2)%nat then
          if decide (mode = "fixedOffset") then
            let! m := lift (max_abs (zip_with ominus p.2 bref)) in
            let! step' := lift (qdiv (nmul p.1 amp) m) in
            kick_loop n' bref bpms cm start amp step' skew mode
          else ret p.1
        else raise ValueError
    end%nat.
  Definition kick_iterations (mode : string) : res nat :=
    if decide (mode = "fixedOffset") then Ok 4%nat else if decide (mode = "fixedKick") then Ok 20%nat else Err KeyError.
  (** lines 87-105 (_kick_amplitude): the step and the change of the readings, taken once more *)
  Definition kick_amplitude (bref : list (option T)) (bpms : list nat) (cm : nat) (amp : T) (skew : bool) (mode : string) : M (sc T) (T * list (option T)) :=
    let! start := cm_setpoint cm skew in
    let! n := lift (kick_iterations mode) in
    let! step := kick_loop n bref bpms cm start amp amp skew mode in
    let! r := ravel_reading bpms in
    ret (step, zip_with ominus r bref).

  (** lines 35-39: one step of the scan; the set-point reached and the change of the readings, or nothing for a step
      that is left out *)
  Definition scan_step (bref : list (option T)) (bpms : list nat) (cm : nat) (start : T) (skew : bool) (max_step step : T) : M (sc T) (option (T * list (option T))) :=
    if neqb step n0 || neqb step max_step then ret None
    else
      set_cm_setpoints [cm] DFloat [nadd start step] skew ABS ;;;
      let! real := cm_setpoint cm skew in
      let! r := ravel_reading bpms in
      ret (Some (real, zip_with ominus r bref)).

  (** lines 29-52, one corrector: its column of the response and of the steps.
      Two steps: [gradient.shape[1]] does not exist, the array of the changes is one-dimensional (IndexError).
      No step: the array of -1 rows is refused (ValueError).
      Three steps and more: [gradient / dCM] has the shapes (n_steps, readings) and (n_steps), which do not fit together,
      or if there are as many readings as steps the quotient does not fit in the column (ValueError). *)
  Definition response_column (bref : list (option T)) (bpms : list nat) (mode : string) (n_steps : nat) (start : T) (skew : bool) (cm : nat) (amp : T) : M (sc T) (list (option T) * list T) :=
    let! p := kick_amplitude bref bpms cm amp skew mode in
    let steps := symmetric_steps p.1 n_steps in
    let! res :=
      match n_steps with
      | 0 => raise ValueError
      | 1 =>
          let! data := mapM steps (scan_step bref bpms cm start skew p.1) in
          let '(real, gradient) := match data with [Some d] => d | _ => (nadd start (nopp p.1), p.2) end in
          let d := nsub real start in
          if neqb d n0 then raise NonFinite
          else ret (map (fun g => x ← g; Some (ndiv x d)) gradient, [d])
      | 2 => raise IndexError
      | _ => mapM steps (scan_step bref bpms cm start skew p.1) ;;; raise ValueError
      end%nat in
    set_cm_setpoints [cm] DFloat [start] skew ABS ;;;
    ret res.

  (** lines 27-53: one plane *)
  Definition response_plane (bref : list (option T)) (bpms : list nat) (mode : string) (n_steps : nat) (skew : bool) (cms : list nat) (amps : list T) : M (sc T) (list (list (option T) * list T)) :=
    let! s := get in
    let! starts := lift (get_cm_setpoints cms skew s) in
    mapM (zip cms (zip starts amps)) (fun c => response_column bref bpms mode n_steps c.2.1 skew c.1 c.2.2).

  (** lines 11-16 *)
  Definition amplitudes (amp : amplitude T) (hcm vcm : list nat) : res (list T * list T) :=
    match amp with
    | AmpNumber _ => Err TypeError
    | AmpArray [x] => Ok (replicate (length hcm) x, replicate (length vcm) x)
    | AmpArray _ => Err ValueError
    | AmpList h v => if (length h =? length hcm)%nat && (length v =? length vcm)%nat then Ok (h, v) else Err ValueError
    end.

  (** lines 10-56 (response_matrix), by columns: response (NaN replaced by zero) and steps.  The error array, which stays
      NaN wherever the function returns, is left out. *)
  Definition response_matrix (amp : amplitude T) (bpms hcm vcm : list nat) (mode : string) (n_steps : nat) : M (sc T) (list (list T * list T)) :=
    let! a := lift (amplitudes amp hcm vcm) in
    let! bref := ravel_reading bpms in
    let! s := get in
    if bool_decide (trackMode (INJ s) = "ORB") && existsb isNone bref then raise ValueError
    else
      let! h := response_plane bref bpms mode n_steps false hcm a.1 in
      let! v := response_plane bref bpms mode n_steps true vcm a.2 in
      ret (map (fun c => (map (default n0) c.1, c.2)) (h ++ v)).

  (** lines 67-76: the scan for other than two steps *)
  Definition dispersion_scan (rf_step : T) (bpms cavs : list nat) (n_steps : nat) (bref : list (option T)) : M (sc T) (list (list (option T))) :=
    let! s := get in
    let! rf0 := lift (field_nums "FrequencySetPoint" cavs s) in
    let! dB := mapM (symmetric_steps rf_step n_steps) (fun d =>
      set_cavity_setpoints cavs DFloat (map (fun f => nadd f d) rf0) "Frequency" ABS ;;;
      let! r := ravel_reading bpms in ret (zip_with ominus r bref)) in
    set_cavity_setpoints cavs DFloat rf0 "Frequency" ABS ;;;
    ret dB.
  (** lines 59-76 (dispersion).  Line 76 passes a one-dimensional array to numpy.linalg.lstsq, which accepts only
      two-dimensional ones (LinAlgError, here GenericException). *)
  Definition dispersion (rf_step : T) (bpm_ords cav_ords : option (list nat)) (n_steps : nat) : M (sc T) (list (option T)) :=
    let! s := get in
    let bpms := default (oBPM (ORD s)) bpm_ords in
    let cavs := default (oRF (ORD s)) cav_ords in
    let! bref := ravel_reading bpms in
    if (n_steps =? 2)%nat then
      set_cavity_setpoints cavs DFloat [rf_step] "Frequency" ADD ;;;
      let! B := ravel_reading bpms in
      set_cavity_setpoints cavs DFloat [nopp rf_step] "Frequency" ADD ;;;
      if neqb rf_step n0 then raise NonFinite else ret (zip_with (odiff rf_step) B bref)
    else
      dispersion_scan rf_step bpms cavs n_steps bref ;;; raise GenericException.
End Resp.
