(** pySC/correction/loco.py: jacobian with dispersion (lines 13-38 and 53-59), beta beat (lines 127-152).
    Simplified: as in Model_Loco, the work is divided into [chunks], NaN is the outcome NonFinite, and matrices of different
    shapes are an error (numpy would broadcast a matrix with a single row or column).  Plots are left out. *)
From stdpp Require Import base gmap strings list.
From Verif Require Import Num Base Model_Arr Model_SC Model_Err Model_Beam Model_Orbit Model_Lattice Model_Loco.
Local Open Scope string_scope.
Local Open Scope list_scope.

Section LocoDisp.
  Context {T : Type} {N : Num T} {G : Trig T}.
  Notation matrix := (list (list T)).

  Section Jacobian.
    Context (copies : bool) (w : world T).

    (** loco.py lines 53 and 57: the calls of SCgetModelDispersion.  The defaults are mode ORB, Z0 zero, one turn, the design
        lattice.  Without cavities ([None] is the default of calculate_jacobian) the loop over them in response_model.py line
        134 fails, after the check of the initial orbit in line 131. *)
    Definition quad_dispersion (bpms : list nat) (cavs : option (list nat)) (rfstep : T) : M (sc T) (list (option T)) :=
      match cavs with
      | Some c => SCgetModelDispersion copies w bpms c "ORB" (zeros 6) 1 rfstep true
      | None => SCgetModelDispersion copies w bpms [] "ORB" (zeros 6) 1 n1 true ;;; raise TypeError
      end.
    (** [np.hstack((m, column.reshape(-1, 1)))] *)
    Definition hstack (m : matrix) (col : list T) : res matrix :=
      if (length m =? length col)%nat then Ok (zip_with (fun row x => row ++ [x]) m col) else Err ValueError.
    (** loco.py lines 41-43, 53-59 (generating_quads_response_matrices with dispersion); line 53 has no rfStep, so that the
        default of SCgetModelDispersion is used (response_model.py line 93, 1E3). *)
    Definition quad_response_dispersion (bpms hcm vcm : list nat) (mode : string) (dkick : T) (ideal : bool) (c_model : matrix) (skew : bool) (order : nat) (method : string)
        (dk rfstep : T) (cavs : option (list nat)) (quad : nat) : M (sc T) matrix :=
      let! eta_model := quad_dispersion bpms cavs (nofZ 1000) in
      set_magnet_setpoints [quad] DFloat [dk] skew order method false ;;;
      let! columns := SCgetModelRM copies w bpms hcm vcm mode (zeros 6) 1 dkick ideal in
      let! eta_meas := quad_dispersion bpms cavs rfstep in
      set_magnet_setpoints [quad] DFloat [nopp dk] skew order method false ;;;
      let! cs := lift (rmap finite columns) in
      let! e1 := lift (finite eta_meas) in
      let! e0 := lift (finite eta_model) in
      if (length cs =? width c_model)%nat && forallb (fun c => (length c =? length c_model)%nat) cs
      then lift (hstack (table (length c_model) (width c_model) (fun r c => nsub (mget cs c r) (mget c_model r c))) (zip_with nsub e1 e0))
      else raise ValueError.

    (** [np.concatenate((a, b, c), axis=0)] for stacks of matrices; an empty list (no quadrupole) has another number of
        dimensions than the zeros of line 31. *)
    Definition stack (a b c : list matrix) : res (list matrix) :=
      match a with
      | [] => Err ValueError
      | m :: _ => if forallb (same_shape m) (a ++ b ++ c) then Ok (a ++ b ++ c) else Err ValueError
      end.
    (** loco.py lines 13-38 (calculate_jacobian with includeDispersion). *)
    Definition calculate_jacobian_dispersion (chunks : list (list nat)) (bpms hcm vcm : list nat) (mode : string) (dkick : T) (ideal : bool) (c_model : matrix) (skew : bool)
        (order : nat) (method : string) (dk rfstep : T) (cavs : option (list nat)) (full : bool) (s : sc T) : res (list matrix) :=
      let? per_chunk := rmap (fun quads => fst (mapM quads (quad_response_dispersion bpms hcm vcm mode dkick ideal c_model skew order method dk rfstep cavs) s)) chunks in
      let? results := rmap (fun m => rmap (rmap (fun x => qdiv x dk)) m) (concat per_chunk) in
      if full then
        let? j_cor := rmap (corrector_slice c_model) (seq 0 (length hcm + length vcm)) in
        let? j_bpm := rmap (bpm_slice c_model) (seq 0 (length bpms * 2)) in
        stack results j_cor j_bpm
      else Ok results.
  End Jacobian.

  (** loco.py lines 127-133, 152 (model_beta_beat): [optics] is at.get_optics, one pair of beta functions for each element asked for;
      [twiss] are the reference values.  A zero reference or no elements at all give no number (NonFinite). *)
  Definition beats (plane : T * T -> T) (now ref : list (T * T)) : res (list T) :=
    if (length now =? length ref)%nat
    then rmap (fun ab => if neqb (plane (snd ab)) n0 then Err NonFinite else Ok (nsub (ndiv (plane (fst ab)) (plane (snd ab))) n1)) (zip now ref)
    else Err ValueError.
  Definition root_mean_square (l : list T) : res T :=
    match l with [] => Err NonFinite | _ => let? m := qdiv (nsum (map (fun x => nmul x x) l)) (nofnat (length l)) in Ok (nsqrt m) end.
  Definition model_beta_beat (optics : list (elem T) -> list nat -> list (T * T)) (ring : list (elem T)) (twiss : list (T * T)) (refs : list nat) : res (T * T) :=
    let now := optics ring refs in
    let? bx := beats fst now twiss in
    let? by' := beats snd now twiss in
    let? x := root_mean_square bx in
    let? y := root_mean_square by' in
    Ok (x, y).
End LocoDisp.
