(** pySC/correction/loco.py: measured response matrix, jacobian, optics fit (lines 13-124, 155-186).

    The model response matrix comes from Model_Lattice, the pseudo-inverse from Model_Pinv with numpy.linalg.svd as an
    argument, scipy.optimize.least_squares is an argument.  Matrices are lists of rows; numpy's broadcasting of axes of
    length one in the matrix operations is not modelled (shapes that do not agree: ValueError).  NaN in a response
    matrix stops the model with [NonFinite]. *)
From Coq Require Import ZArith.
From stdpp Require Import base gmap strings list.
From Verif Require Import Num Base Model_Arr Model_SC Model_Err Model_Beam Model_Orbit Model_Lattice Model_Pinv.
Local Open Scope string_scope.
Local Open Scope list_scope.

(** loco.py lines 108-114 (_get_parameters_mask): the three slice assignments. *)
Definition parameters_mask (names : list string) (lengths : nat * nat * nat) : list bool :=
  let '(quads, corr, bpm) := lengths in
  replicate quads (bool_decide ("quads" ∈ names)) ++ replicate corr (bool_decide ("cor" ∈ names)) ++ replicate bpm (bool_decide ("bpm" ∈ names)).
(** selection by a boolean array, [a[mask]]: IndexError when the lengths differ *)
Fixpoint selected {A} (mask : list bool) (l : list A) : list A :=
  match mask, l with
  | b :: mask', x :: l' => if b then x :: selected mask' l' else selected mask' l'
  | _, _ => []
  end.
Definition masked {A} (mask : list bool) (l : list A) : res (list A) :=
  if (length mask =? length l)%nat then Ok (selected mask l) else Err IndexError.

(** loco.py lines 155-157 (select_equally_spaced_elements): [a[::step]] for a step of at least one; a step of zero is
    refused by Python, one element asked for divides by zero, none asked for makes the step minus the length. *)
Fixpoint every {A} (step k : nat) (l : list A) : list A :=
  match l with
  | [] => []
  | x :: l' => match k with 0 => x :: every step (step - 1) l' | S k' => every step k' l' end
  end%nat.
Definition select_equally_spaced {A} (l : list A) (num : nat) : res (list A) :=
  match num with
  | 0 => match last l with Some x => Ok [x] | None => Err ValueError end
  | 1 => Err ZeroDivisionError
  | S (S n) => if (length l / S n =? 0)%nat then Err ValueError else Ok (every (length l / S n) 0 l)
  end%nat.

Section Loco.
  Context {T : Type} {N : Num T} {G : Trig T}.
  Notation matrix := (list (list T)).

  Definition width (m : matrix) : nat := match m with [] => 0 | r :: _ => length r end.
  Definition table (r c : nat) (f : nat -> nat -> T) : matrix := map (fun i => map (f i) (seq 0 c)) (seq 0 r).
  Definition same_shape (a b : matrix) : bool := (length a =? length b)%nat && (width a =? width b)%nat.

  (** * Jacobian *)
  Section Jacobian.
    Context (copies : bool) (w : world T).

    (** loco.py lines 41-51 (generating_quads_response_matrices without dispersion).  The defaults of SCgetModelRM are Z0
        zero and one turn.  The matrix is returned by rows. *)
    Definition quad_response (bpms hcm vcm : list nat) (mode : string) (dkick : T) (ideal : bool) (c_model : matrix) (skew : bool) (order : nat) (method : string) (dk : T)
        (quad : nat) : M (sc T) matrix :=
      set_magnet_setpoints [quad] DFloat [dk] skew order method false ;;;
      let! columns := SCgetModelRM copies w bpms hcm vcm mode (zeros 6) 1 dkick ideal in
      set_magnet_setpoints [quad] DFloat [nopp dk] skew order method false ;;;
      let! cs := lift (rmap finite columns) in
      if (length cs =? width c_model)%nat && forallb (fun c => (length c =? length c_model)%nat) cs
      then ret (table (length c_model) (width c_model) (fun r c => nsub (mget cs c r) (mget c_model r c)))
      else raise ValueError.

    (** loco.py lines 31-36: slices of the gains. *)
    Definition corrector_slice (c_model : matrix) (i : nat) : res matrix :=
      if (i <? width c_model)%nat then Ok (table (length c_model) (width c_model) (fun r c => if (c =? i)%nat then mget c_model r c else n0)) else Err IndexError.
    Definition bpm_slice (c_model : matrix) (i : nat) : res matrix :=
      if (i <? length c_model)%nat then Ok (table (length c_model) (width c_model) (fun r c => if (r =? i)%nat then mget c_model r c else n0)) else Err IndexError.

    (** loco.py lines 13-38 (calculate_jacobian, without dispersion).  pool.map sends the quadrupoles in chunks to worker
        processes; every chunk works on its own copy of SC and SC itself stays as it is.  [chunks] is the division.  Line 37 cannot join an empty list of
        quadrupole slices to the three-dimensional arrays. *)
    Definition calculate_jacobian (chunks : list (list nat)) (bpms hcm vcm : list nat) (mode : string) (dkick : T) (ideal : bool) (c_model : matrix) (skew : bool) (order : nat)
        (method : string) (dk : T) (full : bool) (s : sc T) : res (list matrix) :=
      let? per_chunk := rmap (fun quads => fst (mapM quads (quad_response bpms hcm vcm mode dkick ideal c_model skew order method dk) s)) chunks in
      let? results := rmap (fun m => rmap (rmap (fun x => qdiv x dk)) m) (concat per_chunk) in
      if full then
        let? j_cor := rmap (corrector_slice c_model) (seq 0 (length hcm + length vcm)) in
        let? j_bpm := rmap (bpm_slice c_model) (seq 0 (length bpms * 2)) in
        match results with [] => Err ValueError | _ => Ok (results ++ j_cor ++ j_bpm) end
      else Ok results.
  End Jacobian.

  (** * Fit *)

  (** weights: a number or a matrix *)
  Definition weights : Type := T + matrix.
  (** [np.dot(m, weights)] *)
  Definition weigh (m : matrix) (w : weights) : res matrix :=
    match w with
    | inl x => Ok (map (map (fun y => nmul y x)) m)
    | inr wm => if (width m =? length wm)%nat then Ok (mmul m wm) else Err ValueError
    end.
  Definition sqrt_weights (w : weights) : weights :=
    match w with inl x => inl (nsqrt x) | inr wm => inr (map (map nsqrt) wm) end.
  (** [np.einsum("ijk,i->jk", jacobian, params)], one entry *)
  Definition modelled (js : list matrix) (ps : list T) (r c : nat) : T := nsum (zip_with (fun p j => nmul p (mget j r c)) ps js).
  Definition misfit (resid : matrix) (js : list matrix) (ps : list T) : matrix :=
    table (length resid) (width resid) (fun r c => nsub (mget resid r c) (modelled js ps r c)).
  (** loco.py lines 103-105 (objective). *)
  Definition objective (ps : list T) (resid : matrix) (js : list matrix) (w : weights) : res (list T) :=
    if (length ps =? length js)%nat && forallb (same_shape resid) js then
      let? m := weigh (mtrans (misfit resid js ps)) (sqrt_weights w) in Ok (concat m)
    else Err ValueError.
  Definition mminus (a b : matrix) : res matrix :=
    if same_shape a b then Ok (table (length a) (width a) (fun r c => nsub (mget a r c) (mget b r c))) else Err ValueError.

  (** loco.py lines 160-186 (get_inverse): [B] as a flat list, the default pinv arguments alpha=0 and damping=1. *)
  Definition column_sums (js : list matrix) : matrix := map (map nsum) js.
  Definition with_diagonal (lambda : T) (m : matrix) : matrix :=
    table (length m) (length m) (fun i j => nadd (mget m i j) (nmul lambda (if (i =? j)%nat then mget m i j else n0))).
  Definition get_inverse (svd : matrix -> matrix * list T * matrix) (js : list matrix) (b : list T) (s_cut : nat) (w : weights) (lambda : T) : res (list T) :=
    let jt := column_sums js in
    let? jw := weigh jt w in
    let m := with_diagonal lambda (mmul jw (mtrans jt)) in
    let n := length js in
    Ok (mvec (pinv svd m (Z.of_nat (n - min n s_cut)) n0 n1) b).

  (** loco.py lines 92-100 (loco_correction_ng): line 99 takes the slices of the unmasked jacobian. *)
  Definition ng_rhs (jac : list matrix) (r : matrix) (w : weights) (i : nat) : res T :=
    let? j := idx jac i in
    let? jw := weigh (mtrans j) w in
    Ok (nsum (map nsum (mmul jw (mtrans r)))).
  Definition loco_correction_ng (svd : matrix -> matrix * list T * matrix) (guess : list T) (orm_model orm_measured : matrix) (jac : list matrix) (lengths : nat * nat * nat)
      (names : list string) (s_cut : nat) (w : weights) (lambda : T) : res (list T) :=
    let mask := parameters_mask names lengths in
    let? ps := masked mask guess in
    let? resid := mminus orm_measured orm_model in
    let? js := masked mask jac in
    let? flat := objective ps resid js w in
    let n := length (mtrans orm_model) in
    if (length flat =? n * length orm_model)%nat then
      let r := rows_of (length orm_model) n flat in
      let? t2 := rmap (ng_rhs jac r w) (seq 0 (length ps)) in
      get_inverse svd js t2 s_cut w lambda
    else Err ValueError.

  (** loco.py lines 82-89 (loco_correction_lm). *)
  Definition loco_correction_lm (least_squares : (list T -> res (list T)) -> list T -> res (list T)) (guess : list T) (orm_model orm_measured : matrix) (jac : list matrix)
      (lengths : nat * nat * nat) (names : list string) (w : weights) : res (list T) :=
    let mask := parameters_mask names lengths in
    let? start := masked mask guess in
    least_squares (fun ps => let? resid := mminus orm_measured orm_model in let? js := masked mask jac in objective ps resid js w) start.

  (** loco.py lines 117-124 (set_correction); [inl]: individually, [inr]: one value per family. *)
  Definition set_correction (r : list T) (elems : list nat + list (list nat)) (skew : bool) (order : nat) (method : string) (dipcomp : bool) : M (sc T) unit :=
    match elems with
    | inl ords => set_magnet_setpoints ords DFloat (map nopp r) skew order method dipcomp
    | inr fams => forM (zip (seq 0 (length fams)) fams) (fun p =>
                    let! x := lift (idx r p.1) in
                    set_magnet_setpoints p.2 DFloat [nopp x] skew order method dipcomp)
    end.

  (** * Measured response *)

  Definition flat_reading (r : reading T) : list (option T) := r_x r ++ r_y r.
  (** loco.py lines 74-77, one corrector; the column may hold NaN. *)
  Definition measure_column (w : world T) (bpms : list nat) (dkick : T) (orbit0 : list (option T)) (skew : bool) (cm : nat) : M (sc T) (list (option T)) :=
    set_cm_setpoints [cm] DFloat [dkick] skew ADD ;;;
    let! r := bpm_reading w (Some bpms) false in
    set_cm_setpoints [cm] DFloat [nopp dkick] skew ADD ;;;
    if neqb dkick n0 then raise NonFinite else
    let column := zip_with (odiff dkick) (flat_reading r) orbit0 in
    if (length column =? 2 * length bpms)%nat then ret column else raise ValueError.
  (** loco.py lines 62-79 (measure_closed_orbit_response_matrix), by columns. *)
  Definition measure_response (w : world T) (bpms hcm vcm : list nat) (dkick : T) : M (sc T) (list (list (option T))) :=
    on_INJ (set_trackMode "ORB") ;;;
    let! r0 := bpm_reading w (Some bpms) false in
    let! h := mapM hcm (measure_column w bpms dkick (flat_reading r0) false) in
    let! v := mapM vcm (measure_column w bpms dkick (flat_reading r0) true) in
    ret (h ++ v).
End Loco.
Arguments weights T : clear implicits.
