(** pySC/correction/loco_wrapper.py: the interface to the optics fit.

    The dictionaries of the file are records here; an entry that the functions of the file never create is an option.
    Fitted kicks are kept only as far as they matter: what is computed from them (lines 124-130) is never stored, because
    the assignment of line 133 fails. *)
From Coq Require Import ZArith.
From stdpp Require Import base gmap strings list.
From Verif Require Import Num Base Model_Arr Model_SC Model_Err Model_Beam Model_Resp.
Local Open Scope string_scope.
Local Open Scope list_scope.

Section Wrap.
  Context {T : Type} {N : Num T} {G : Trig T}.

  (** * Lattice correction *)
  (** fit parameters: groups of members (ElemIndex, SCFieldName) and one value per group *)
  Record fit_parameters := MkFit { f_groups : list (list (nat * string)); f_orig : list T; f_ideal : list T; f_values : list T }.
  (** lines 100-107, one member of group [k] *)
  Definition apply_member (p : fit_parameters) (dipcomp : bool) (damping : T) (k : nat) (m : nat * string) : M (sc T) unit :=
    let! o := lift (idx (f_orig p) k) in
    let! i := lift (idx (f_ideal p) k) in
    let! v := lift (idx (f_values p) k) in
    let sp := nadd o (nmul damping (nsub i v)) in
    if bool_decide (m.2 = "SetPointB") then set_magnet_setpoints [m.1] DFloat [sp] false 1 ABS dipcomp
    else if bool_decide (m.2 = "SetPointA") then set_magnet_setpoints [m.1] DFloat [sp] true 1 ABS false
    else ret tt.
  (** lines 97-109 (apply_lattice_correction).  update_magnets returns None, and so does the function. *)
  Definition apply_lattice_correction (p : fit_parameters) (dipcomp : bool) (damping : T) : M (sc T) unit :=
    forM (zip (seq 0 (length (f_groups p))) (f_groups p)) (fun g => forM g.2 (apply_member p dipcomp damping g.1)) ;;;
    update_magnets_all.

  (** * Diagnostic correction *)
  (** the argument cm_step: a number, a list (of arrays), anything else with a length (tuple, array) *)
  Inductive step_arg := StepNumber (x : T) | StepList (l : list (list T)) | StepSeq (l : list T).
  (** lines 113-115: a number has no length *)
  Definition check_step (a : step_arg) : res unit :=
    match a with
    | StepNumber _ => Err TypeError
    | StepList _ => Ok tt
    | StepSeq l => if (length l =? 1)%nat then Ok tt else Err ValueError
    end.
  (** the argument outlierRemovalAt: None (default), the empty list, a number *)
  Inductive outlier_arg := OutNone | OutEmpty | OutAt (x : T).
  Record bpm_data := MkBpmData { b_index : list nat; b_fit : bool; b_h_index : list nat; b_v_index : list nat; b_h_gain : list T; b_v_gain : list T;
                                 b_coupling : option bool; b_h_coupling : list T; b_v_coupling : list T }.
  (** lines 25-34 (loco_bpm_structure): FitCoupling is not among the defaults *)
  Definition loco_bpm_structure (ords : option (list nat)) (s : sc T) : bpm_data :=
    let bpms := default (oBPM (ORD s)) ords in
    let n := length bpms in
    MkBpmData bpms false (seq 0 n) (seq 0 n) (replicate n n1) (replicate n n1) None (zeros n) (zeros n).
  Record cm_data := MkCmData { c_h_index : list nat; c_v_index : list nat; c_fit : bool; c_h_kicks : list T; c_v_kicks : list T }.

  (** lines 137-138: gains far from one, or all for no limit; comparing with None fails for every entry *)
  Definition without_outliers (a : outlier_arg) (g : list T) : res (list T) :=
    match a with
    | OutEmpty => Ok g
    | OutNone => match g with [] => Ok [] | _ => Err TypeError end
    | OutAt x => Ok (map (fun y => if nleb x (nabs (nsub n1 y)) then n1 else y) g)
    end.
  (** lines 139-140 *)
  Definition to_mean_one (b : bool) (g : list T) : list T :=
    if b then match g with [] => [] | _ => let m := mean (map (nsub n1) g) in map (fun y => nadd y m) g end else g.
  (** line 143, one monitor: [element.CalError[d] = element.CalError[d] + (1 - gain)] *)
  Definition add_gain (d : nat) (g : T) : M (elem T) unit :=
    let! c := getm (fun e => attr_vec e "CalError") in
    let! x := lift (idx c d) in
    let! c' := lift (idx_set c d (nadd x (nsub n1 g))) in
    setattr "CalError" (VVec c').
  (** lines 135-144 for the plane [d]; returns the gains left in the dictionary (the outliers are overwritten there) *)
  Definition fit_gains (out : outlier_arg) (to_zero : bool) (b : bpm_data) (d : nat) : M (sc T) (list T) :=
    let gains := if (d =? 0)%nat then b_h_gain b else b_v_gain b in
    let! g := lift (without_outliers out gains) in
    let fit := to_mean_one to_zero g in
    let! ords := lift (rmap (idx (b_index b)) (if (d =? 0)%nat then b_h_index b else b_v_index b)) in
    forM (zip (seq 0 (length ords)) ords) (fun p =>
      let! s := get in
      let! e := lift (idx (RING s) p.2) in
      let! c := lift (attr_vec e "CalError") in
      let! x := lift (idx c d) in
      let! y := lift (idx fit p.1) in
      on_elem p.2 (add_gain d y)) ;;;
    ret g.
  (** lines 123-134 for one plane: elements have no items *)
  Definition fit_kicks (ords : list nat) : M (sc T) unit :=
    forM ords (fun o => let! s := get in let! e := lift (idx (RING s) o) in raise TypeError).
  (** line 149, one monitor *)
  Definition lower_roll (x : T) : M (elem T) unit :=
    let! r := getm (fun e => attr_num e "Roll") in setattr "Roll" (VNum (nsub r x)).
  (** lines 146-149 *)
  Definition fit_coupling (b : bpm_data) : M (sc T) unit :=
    match b_coupling b with
    | None => raise AttributeError
    | Some false => ret tt
    | Some true =>
        let! d := lift (bcast nsub (b_v_coupling b) (b_h_coupling b)) in
        forM (zip (seq 0 (length (b_index b))) (b_index b)) (fun p =>
          let! s := get in
          let! e := lift (idx (RING s) p.2) in
          let! r := lift (attr_num e "Roll") in
          let! x := lift (idx d p.1) in
          on_elem p.2 (lower_roll (ndiv x ntwo)))
    end.
  (** lines 112-150 (applyDiagnosticCorrection); returns the gains left in the dictionary.  The mismatch of shapes in lines
      124-126 is left out, a fit of kicks fails with TypeError for every corrector anyway. *)
  Definition apply_diagnostic_correction (step : step_arg) (c : cm_data) (b : bpm_data) (to_zero : bool) (out : outlier_arg) : M (sc T) (list T * list T) :=
    lift (check_step step) ;;;
    when (c_fit c) (fit_kicks (c_h_index c)) ;;;
    let! h := (if b_fit b then fit_gains out to_zero b 0 else ret (b_h_gain b)) in
    when (c_fit c) (fit_kicks (c_v_index c)) ;;;
    let! v := (if b_fit b then fit_gains out to_zero b 1 else ret (b_v_gain b)) in
    fit_coupling b ;;;
    ret (h, v).

  (** * Measurement and structures *)
  (** the argument cm_steps of loco_cm_structure: missing, a number, a sequence with one number, a sequence with one array, a
      sequence whose first two members are arrays, an empty sequence *)
  Inductive cm_steps_arg := CmNone | CmNumber (x : T) | CmOne (x : T) | CmOneArray (l : list T) | CmArrays (h v : list T) | CmEmpty.
  (** lines 46-51: the steps of the two planes.  None has no length; an array within a sequence has two dimensions, which the
      in-place product with one-dimensional steps refuses. *)
  Definition cm_structure_steps (nh nv : nat) (a : cm_steps_arg) : res (list T * list T) :=
    match a with
    | CmNone => Err TypeError
    | CmNumber x | CmOne x => Ok (map (fun o => nmul o x) (ones nh), map (fun o => nmul o x) (ones nv))
    | CmOneArray _ => Err ValueError
    | CmArrays h v => Ok (h, v)
    | CmEmpty => Err IndexError
    end.
  (** [a *= b], in place: the result must have the length of [a] *)
  Definition times_in_place (a b : list T) : res (list T) :=
    let? c := bcast nmul a b in if (length c =? length a)%nat then Ok c else Err ValueError.
  (** lines 37-54 (loco_cm_structure): steps and kicks of the two planes; the indices are copies of [cmords], the couplings zero *)
  Definition loco_cm_structure (nh nv : nat) (a : cm_steps_arg) : res ((list T * list T) * (list T * list T)) :=
    let? st := cm_structure_steps nh nv a in
    let? kh := times_in_place (map (nmul (nofZ 2000)) (ones nh)) st.1 in
    let? kv := times_in_place (map (nmul (nofZ 2000)) (ones nv)) st.2 in
    Ok (st, (kh, kv)).
  (** lines 57-66 (loco_measurement).  Line 62 passes the NAMES of the keyword arguments as further positional arguments
      (mode, number of steps, …).  The matrix returned by response_matrix is not used unless dispersion returns. *)
  Definition loco_measurement (w : world T) (amp : amplitude T) (rf : T) (bpms hcm vcm : list nat) (kwargs : list string) : M (sc T) (list (option T)) :=
    let! s := get in
    let! cav := lift (idx (oRF (ORD s)) 0) in
    let! e := lift (idx (RING s) cav) in
    let! f := lift (attr_num e "Frequency") in
    let! r := match kwargs with
              | [] => response_matrix w amp bpms hcm vcm "fixedKick" 2
              | [mode] => response_matrix w amp bpms hcm vcm mode 2
              | _ => raise TypeError
              end in
    dispersion w rf (Some bpms) None 3.
  (** lines 69-94 (loco_fit_parameters): the families' lists of elements; the dictionary has no entry Params *)
  Definition loco_fit_parameters (fams : list (list nat)) : res unit :=
    match concat fams with [] => Ok tt | _ => Err AttributeError end.
End Wrap.
Arguments fit_parameters T : clear implicits.
Arguments bpm_data T : clear implicits.
Arguments cm_data T : clear implicits.
Arguments step_arg T : clear implicits.
Arguments outlier_arg T : clear implicits.
Arguments cm_steps_arg T : clear implicits.
