(** pySC/matlab_index.py: functions with the names and conventions of the Matlab toolkit, and the systematic multipole
    errors (core/simulated_commissioning.py lines 477-487) with the sharing of arrays made explicit.

    Not modelled: wrappers that only rename a function (SCapplyErrors, SCcronoff, SCdynamicAperture, SCgenBunches, SCgetBeamTransmission,
    SCgetCOD, SCgetDispersion, SCgetModelRING, SCgetModelRM, SCgetModelDispersion, SCgetOrds, SCgetPinv, SCgetRespMat, SCinit, SCmomentumAperture,
    SCmultipolesRead, SCrampUpErrors, SCrandnc, SCregisterBPMs and the like, SCSanityCheck, SCscaleCircumference, SCsetCavs2SetPoints, SCtuneScan, SCupdateMagnets and the like), plots,
    and the two functions that always raise NotImplementedError. *)
From Coq Require Import ZArith.
From stdpp Require Import base gmap strings list.
From Verif Require Import Num Base Model_Arr Model_SC Model_Err Model_Beam Model_Orbit Model_Bba Model_OrbBba Model_Inject Model_Scan.
Local Open Scope string_scope.
Local Open Scope list_scope.

Section Matlab.
  Context {T : Type} {N : Num T} {G : Trig T}.

  (** * Set-points *)
  (** [x in (1, 2)] *)
  Definition one_or_two (x : Z) : bool := (x =? 1)%Z || (x =? 2)%Z.
  (** lines 119-124 *)
  Definition SCgetCMSetPoints (ords : list nat) (nDim : Z) (s : sc T) : res (list T) :=
    if one_or_two nDim then get_cm_setpoints ords (nDim =? 2)%Z s else Err ValueError.
  (** lines 276-283 *)
  Definition SCsetCMs2SetPoints (ords : list nat) (dt : dtype) (setpoints : list T) (nDim : Z) (mode : string) : M (sc T) (list T) :=
    if one_or_two nDim then
      set_cm_setpoints ords dt setpoints (nDim =? 2)%Z mode ;;;
      let! s := get in lift (get_cm_setpoints ords (nDim =? 2)%Z s)
    else raise ValueError.
  (** lines 286-295.  An order below one gives a negative index (counted from the end of the field arrays); not modelled. *)
  Definition SCsetMags2SetPoints (ords : list nat) (dt : dtype) (type : Z) (order : nat) (setpoints : list T) (method : string) (dipcomp : bool) : M (sc T) unit :=
    if one_or_two type then set_magnet_setpoints ords dt setpoints (type =? 1)%Z (order - 1) method dipcomp else raise ValueError.

  (** * Multipole errors *)
  (** [np.roll(r, 1)] *)
  Definition roll1 {A} (l : list A) : list A := drop (length l - 1) l ++ take (length l - 1) l.
  (** lines 297-312.  Type and order may be missing; [type == 1] is then false and [order - 1] fails.
      Orders below one as in SCsetMags2SetPoints. *)
  Definition SCsetMultipoles (ords : list nat) (AB : list (list T)) (method : string) (order : option nat) (type : option Z) : M (sc T) unit :=
    if match type with None => true | Some t => one_or_two t end then
      if bool_decide (method = "rnd") then set_random_multipole_errors ords (map roll1 AB)
      else match order with
           | None => raise TypeError
           | Some n => set_systematic_multipole_errors ords (map roll1 AB) (n - 1) (bool_decide (type = Some 1%Z))
           end
    else raise ValueError.

  (** * Feedback *)
  Section Feedback.
    (** numpy.linalg.pinv, sc_tools.pinv with the Tikhonov parameter *)
    Context (w : world T) (npinv : list (list T) -> list (list T)) (pinv : list (list T) -> list (list T)).
    (** lines 72-74 *)
    Definition SCfeedbackBalance (Mplus : list (list T)) R0 CMords BPMords (eps : T) (maxsteps : nat) : M (sc T) (log T) :=
      balance w pinv (npinv Mplus) R0 CMords BPMords eps maxsteps.
    (** lines 77-81 *)
    Definition SCfeedbackFirstTurn (Mplus : list (list T)) R0 CMords BPMords (maxsteps : nat) : M (sc T) (log T) :=
      first_turn w pinv (npinv Mplus) R0 CMords BPMords maxsteps.
    (** lines 84-87; the argument weight is not used *)
    Definition SCfeedbackRun (Mplus : list (list T)) R0 CMords BPMords (eps target : T) (maxsteps : nat) (scaleDisp : T) : M (sc T) (log T) :=
      correct w pinv (npinv Mplus) R0 CMords BPMords eps target maxsteps scaleDisp.
    (** lines 90-94 *)
    Definition SCfeedbackStitch (Mplus : list (list T)) R0 CMords BPMords (nBPMs maxsteps : nat) : M (sc T) (log T) :=
      stitch w pinv (npinv Mplus) R0 CMords BPMords nBPMs maxsteps.
  End Feedback.

  (** * RF *)
  Section Rf.
    Context (w : world T).
    Context (line : list T -> list T -> list T -> res (option T * option T)).
    Context (sine_fit : list (T * T * option T) -> res (sine T)).
    Context (root : (T -> T) -> T -> res (option T)).
    (** a call with a keyword that the function does not know *)
    Definition unexpected_keyword {A} : M (sc T) A := raise TypeError.
    (** lines 314-322: correct_rf_frequency has no parameter minTurns *)
    Definition SCsynchEnergyCorrection (cavOrd : option (list nat)) (f0 f1 : T) (nSteps nturns : nat) (minTurns : nat) : M (sc T) unit :=
      let! s := get in
      mod_INJ (with_nTurns nturns) ;;;
      unexpected_keyword (A := unit) ;;;
      mod_INJ (with_nTurns (nTurns (INJ s))).
    (** lines 325-331 *)
    Definition SCsynchPhaseCorrection (cavOrd : option (list nat)) (nSteps nturns : nat) : M (sc T) unit :=
      let! s := get in
      mod_INJ (with_nTurns nturns) ;;;
      correct_rf_phase w line sine_fit root cavOrd None nSteps ;;;
      mod_INJ (with_nTurns (nTurns (INJ s))).
  End Rf.

  (** * Alignment and injection *)
  (** lines 51-57; [traj] and [orb] are the calls of trajectory_bba and orbit_bba with the arguments given *)
  Definition SCBBA {A} (traj orb : M (sc T) A) (mode : option string) : M (sc T) (option A) :=
    match mode with
    | None => raise KeyError
    | Some m =>
        if bool_decide (m = "TBT") then let! r := traj in ret (Some r)
        else if bool_decide (m = "ORB") then let! r := orb in ret (Some r)
        else ret None
    end.
  (** lines 229-230 *)
  Definition SCpseudoBBA (bpm_ords mag_ords : list (list nat)) (offset : option (list (option T))) : M (sc T) unit :=
    fake_bba bpm_ords mag_ords None offset.
  (** lines 97-103; [drift] and [trajectory] are the two fits *)
  Definition SCfitInjectionZ {A} (trajectory drift : M (sc T) A) (mode : string) : M (sc T) A :=
    if bool_decide (mode = "fitTrajectory") then trajectory
    else if bool_decide (mode = "injectionDrift") then drift
    else raise ValueError.

  (** * Transformations *)
  Definition attr_mat (e : elem T) (a : string) : res (list (list T)) := let? v := attr e a in match v with VMat m => Ok m | _ => Err TypeError end.
  (** lines 172-181.  The result: T1, T2, R1, R2. *)
  Definition SCgetTransformation (minv : list (list T) -> res (list (list T))) (dx dy dz ax ay az magTheta magLength : T) (refPoint : string)
      : res (list T * list T * list (list T) * list (list T)) :=
    if bool_decide (refPoint = "center") then Err RuntimeError
    else
      let e : elem T := list_to_map [("Length", VNum magLength); ("BendingAngle", VNum magTheta); ("SupportOffset", VVec (zeros 3)); ("SupportRoll", VVec (zeros 3));
                                     ("MagnetOffset", VVec [dx; dy; dz]); ("MagnetRoll", VVec (roll1 [ax; ay; az]))] in
      match update_transformation minv e with
      | (Ok _, e') =>
          let? t1 := attr_vec e' "T1" in let? t2 := attr_vec e' "T2" in
          let? r1 := attr_mat e' "R1" in let? r2 := attr_mat e' "R2" in Ok (t1, t2, r1, r2)
      | (Err x, _) => Err x
      end.
End Matlab.

(** * Systematic multipole errors with shared arrays *)
(** core/simulated_commissioning.py lines 477-487 once more.  [BA[:, :]] and [newBA[:, ind]] are views, so the tables of the
    magnets hold columns of the caller's array.  Arrays of two columns by identity, and per magnet and table name the columns
    stored for each order. *)
Section Shared.
  Context {T : Type} {N : Num T}.
  Record store := MkStore { arrays : gmap nat (list (list T)); tables : gmap (nat * string) (list (nat * (nat * nat))) }.
  Definition set_entry (a : list (list T)) (row column : nat) (x : T) : list (list T) :=
    imap (fun i r => if decide (i = row) then <[column := x]> r else r) a.
  Definition assign_table (o order array column : nat) (name : string) (t : gmap (nat * string) (list (nat * (nat * nat)))) : gmap (nat * string) (list (nat * (nat * nat))) :=
    <[(o, name) := tset (default [] (t !! (o, name))) order (array, column)]> t.
  Definition set_systematic_shared (ords : list nat) (BA : nat) (order : nat) (skewness : bool) : M store unit :=
    let! st := get in
    match arrays st !! BA with
    | None => raise UnboundLocal
    | Some a =>
        if forallb (fun r => (length r =? 2)%nat) a then
          let ind := if skewness then 1 else 0 in
          let source := if skewness then "A" else "B" in
          if (order <? length a)%nat then
            modify (fun st => MkStore (<[BA := set_entry a order ind n0]> (arrays st)) (tables st)) ;;;
            forM ords (fun o => forM ["A"; "B"] (fun target =>
              modify (fun st => MkStore (arrays st) (assign_table o order BA ind ("SysPol" +:+ target +:+ "From" +:+ source) (tables st)))))
          else raise IndexError
        else raise ValueError
    end.
  (** what a magnet update finds in a table *)
  Definition visible (st : store) (o : nat) (name : string) : list (nat * list T) :=
    map (fun p => (p.1, col (default [] (arrays st !! p.2.1)) p.2.2)) (default [] (tables st !! (o, name))).
End Shared.
Arguments store T : clear implicits.
