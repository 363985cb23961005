(** The SimulatedCommissioning object: registration, set-points, field updates
    (pySC/core/simulated_commissioning.py, pySC/core/classes.py, pySC/core/constants.py). *)
From stdpp Require Import base gmap strings list.
From Verif Require Import Num Base Model_Arr.
From Coq Require Import ZArith.
Local Open Scope string_scope.
Local Open Scope list_scope.

(** pySC/core/constants.py lines 2-10. *)
Definition RF_PROPERTIES : list string := ["Voltage"; "Frequency"; "TimeLag"].
Definition GENERIC_FIELDS : list string := ["Setpoint"; "Offset"; "CalError"].
Definition RF_ERROR_FIELDS : list string := p ← RF_PROPERTIES; map (fun f => String.append p f) GENERIC_FIELDS.
Definition BPM_ERROR_FIELDS : list string := ["Noise"; "NoiseCO"; "Offset"; "Roll"; "CalError"; "SumError"].
Definition MAGNET_ERROR_FIELDS : list string := ["MagnetOffset"; "MagnetRoll"; "CalErrorA"; "CalErrorB"; "BendingAngle"].
Definition SUPPORT_ERROR_FIELDS : list string := ["Offset"; "Roll"].

Inductive stype := SSection | SPlinth | SGirder.
#[global] Instance stype_eq_dec : EqDecision stype.
Proof. solve_decision. Defined.
(** pySC/core/constants.py line 5, in this order. *)
Definition SUPPORT_TYPES : list stype := [SSection; SPlinth; SGirder].
Definition stype_str (t : stype) : string :=
  match t with SSection => "Section" | SPlinth => "Plinth" | SGirder => "Girder" end.
Definition stype_of (s : string) : option stype :=
  if decide (s = "Section") then Some SSection
  else if decide (s = "Plinth") then Some SPlinth
  else if decide (s = "Girder") then Some SGirder else None.

(** pySC/core/constants.py: SETTING_ABS, SETTING_REL, SETTING_ADD; any other string is invalid. *)
Definition ABS : string := "abs".
Definition REL : string := "rel".
Definition ADD : string := "add".
Definition SETTING_METHODS : list string := [ABS; REL; ADD].

(** dtype of a set-point array: numpy infers an integer or a float array from what the caller passes. *)
Inductive dtype := DInt | DFloat.

Section SC.
  Context {T : Type} {N : Num T}.

  (** A registered uncertainty: a value, or a list [value, cut-off]. *)
  Inductive sigval := SPlain (v : val T) | SCut (v : val T) (cut : T).

  (** pySC/core/classes.py lines 65-93 (Injection); beamSize is used only by generate_bunches (modelled apart),
      the unused field staticInjectionZ and the hook postFun are left out. *)
  Record inj := MkInj {
    beamLostAt : T; Z0ideal : list T; Z0 : list T; beamSize : list (list T); randomInjectionZ : list T;
    nParticles : nat; nTurns : nat; nShots : nat; trackMode : string }.
  (** pySC/core/classes.py lines 155-163 (Sigmas). *)
  Record sig := MkSig {
    sBPM : gmap nat (dict sigval); sRF : gmap nat (dict sigval); sMagnet : gmap nat (dict sigval);
    sSupport : gmap nat (dict sigval); sRandZ : list T; sStatZ : list T; sCirc : T }.
  (** pySC/core/classes.py lines 117-131 (Indices); support ordinates are columns (start, end). *)
  Record indices := MkOrd {
    oBPM : list nat; oRF : list nat; oMagnet : list nat; oSkewQuad : list nat; oHCM : list nat; oVCM : list nat;
    oSection : list (nat * nat); oPlinth : list (nat * nat); oGirder : list (nat * nat) }.
  (** pySC/core/simulated_commissioning.py lines 64-74; [RNG] is what is left of the stream of raw draws of
      numpy.random.randn (global generator); the flag [plot] is left out. *)
  Record sc := MkSC {
    RING : list (elem T); IDEALRING : list (elem T); INJ : inj; SIG : sig; ORD : indices; RNG : list T }.

  Definition set_RING (r : list (elem T)) (s : sc) := MkSC r (IDEALRING s) (INJ s) (SIG s) (ORD s) (RNG s).
  Definition set_INJ (i : inj) (s : sc) := MkSC (RING s) (IDEALRING s) i (SIG s) (ORD s) (RNG s).
  Definition set_SIG (g : sig) (s : sc) := MkSC (RING s) (IDEALRING s) (INJ s) g (ORD s) (RNG s).
  Definition set_ORD (o : indices) (s : sc) := MkSC (RING s) (IDEALRING s) (INJ s) (SIG s) o (RNG s).
  Definition set_RNG (r : list T) (s : sc) := MkSC (RING s) (IDEALRING s) (INJ s) (SIG s) (ORD s) r.

  Definition set_oBPM l (o : indices) := MkOrd l (oRF o) (oMagnet o) (oSkewQuad o) (oHCM o) (oVCM o) (oSection o) (oPlinth o) (oGirder o).
  Definition set_oRF l (o : indices) := MkOrd (oBPM o) l (oMagnet o) (oSkewQuad o) (oHCM o) (oVCM o) (oSection o) (oPlinth o) (oGirder o).
  Definition set_oMagnet l (o : indices) := MkOrd (oBPM o) (oRF o) l (oSkewQuad o) (oHCM o) (oVCM o) (oSection o) (oPlinth o) (oGirder o).
  Definition set_oSkewQuad l (o : indices) := MkOrd (oBPM o) (oRF o) (oMagnet o) l (oHCM o) (oVCM o) (oSection o) (oPlinth o) (oGirder o).
  Definition set_oHCM l (o : indices) := MkOrd (oBPM o) (oRF o) (oMagnet o) (oSkewQuad o) l (oVCM o) (oSection o) (oPlinth o) (oGirder o).
  Definition set_oVCM l (o : indices) := MkOrd (oBPM o) (oRF o) (oMagnet o) (oSkewQuad o) (oHCM o) l (oSection o) (oPlinth o) (oGirder o).
  Definition oSupport (t : stype) (o : indices) : list (nat * nat) :=
    match t with SSection => oSection o | SPlinth => oPlinth o | SGirder => oGirder o end.
  Definition set_oSupport (t : stype) (l : list (nat * nat)) (o : indices) : indices :=
    match t with
    | SSection => MkOrd (oBPM o) (oRF o) (oMagnet o) (oSkewQuad o) (oHCM o) (oVCM o) l (oPlinth o) (oGirder o)
    | SPlinth => MkOrd (oBPM o) (oRF o) (oMagnet o) (oSkewQuad o) (oHCM o) (oVCM o) (oSection o) l (oGirder o)
    | SGirder => MkOrd (oBPM o) (oRF o) (oMagnet o) (oSkewQuad o) (oHCM o) (oVCM o) (oSection o) (oPlinth o) l
    end.
  Definition set_sBPM m (g : sig) := MkSig m (sRF g) (sMagnet g) (sSupport g) (sRandZ g) (sStatZ g) (sCirc g).
  Definition set_sRF m (g : sig) := MkSig (sBPM g) m (sMagnet g) (sSupport g) (sRandZ g) (sStatZ g) (sCirc g).
  Definition set_sMagnet m (g : sig) := MkSig (sBPM g) (sRF g) m (sSupport g) (sRandZ g) (sStatZ g) (sCirc g).
  Definition set_sSupport m (g : sig) := MkSig (sBPM g) (sRF g) (sMagnet g) m (sRandZ g) (sStatZ g) (sCirc g).

  (** [RING[i]]: IndexError when out of range (negative indices are not modelled). *)
  Definition ring_elem (i : nat) : M sc (elem T) := fun s => (idx (RING s) i, s).
  (** run a computation on the element [RING[i]] in place *)
  Definition on_elem {A} (i : nat) (m : M (elem T) A) : M sc A := fun s =>
    match RING s !! i with
    | None => (Err IndexError, s)
    | Some e => let '(r, e') := m e in (r, set_RING (<[i := e']> (RING s)) s)
    end.
  Definition mod_ORD (f : indices -> indices) : M sc unit := modify (fun s => set_ORD (f (ORD s)) s).
  Definition mod_SIG (f : sig -> sig) : M sc unit := modify (fun s => set_SIG (f (SIG s)) s).

  (** * Registration *)

  (** simulated_commissioning.py lines 1052-1055 (_check_kwargs). *)
  Definition check_kwargs {A} (kw : dict A) (allowed : list string) : M sc unit :=
    if forallb (fun k => bool_decide (k ∈ allowed)) (dkeys kw) then ret tt else raise ValueError.

  (** [if ind not in d: d[ind] = DotDict()] and [d[ind].update(kw)] *)
  Definition sig_update (m : gmap nat (dict sigval)) (ind : nat) (kw : dict sigval) : gmap nat (dict sigval) :=
    <[ind := dupdate (default [] (m !! ind)) kw]> m.

  (** simulated_commissioning.py lines 132-139. *)
  Definition bpm_init : M (elem T) unit :=
    setattr "Noise" (VVec (zeros 2)) ;;; setattr "NoiseCO" (VVec (zeros 2)) ;;;
    setattr "Offset" (VVec (zeros 2)) ;;; setattr "SupportOffset" (VVec (zeros 2)) ;;;
    setattr "Roll" (VNum n0) ;;; setattr "SupportRoll" (VNum n0) ;;;
    setattr "CalError" (VVec (zeros 2)) ;;; setattr "SumError" (VNum n0).

  (** simulated_commissioning.py lines 125-139 (register_bpms). *)
  Definition register_bpms (ords : list nat) (kw : dict sigval) : M sc unit :=
    check_kwargs kw BPM_ERROR_FIELDS ;;;
    mod_ORD (fun o => set_oBPM (unique (oBPM o ++ ords)) o) ;;;
    forM (unique ords) (fun ind =>
      mod_SIG (fun g => set_sBPM (sig_update (sBPM g) ind kw) g) ;;;
      on_elem ind bpm_init).

  (** simulated_commissioning.py lines 189-192. *)
  Definition rf_init : M (elem T) unit :=
    forM RF_PROPERTIES (fun field =>
      let! v := getm (fun e => attr e field) in
      setattr (field +:+ "SetPoint") v ;;;
      setattr (field +:+ "Offset") (VNum n0) ;;;
      setattr (field +:+ "CalError") (VNum n0)).

  (** simulated_commissioning.py lines 183-192 (register_cavities). *)
  Definition register_cavities (ords : list nat) (kw : dict sigval) : M sc unit :=
    check_kwargs kw RF_ERROR_FIELDS ;;;
    mod_ORD (fun o => set_oRF (unique (oRF o ++ ords)) o) ;;;
    forM (unique ords) (fun ind =>
      mod_SIG (fun g => set_sRF (sig_update (sRF g) ind kw) g) ;;;
      on_elem ind rf_init).

  (** Keyword arguments of register_magnets that select a magnet type (constants.py line 8: MAGNET_TYPE_FIELDS);
      the remaining keywords are uncertainties and are passed separately as a dictionary. *)
  Record magtype := MkType {
    kHCM : option (lim T); kVCM : option (lim T); kCF : bool; kSkewQuad : option (lim T);
    kMasterOf : option (list (list nat)) }.

  Definition isSome {A} (o : option A) : bool := match o with Some _ => true | None => false end.

  (** positions of [ind] in [ords]: numpy.nonzero(MAGords == ind) *)
  Fixpoint positions (ind : nat) (i : nat) (ords : list nat) : list nat :=
    match ords with
    | [] => []
    | o :: ords' => if (o =? ind)%nat then i :: positions ind (S i) ords' else positions ind (S i) ords'
    end.
  (** [MasterOf[:, cols].ravel()] *)
  Definition master_cols (rows : list (list nat)) (cols : list nat) : res (list nat) :=
    let? l := rmap (fun r => rmap (fun c => idx r c) cols) rows in Ok (concat l).

  (** simulated_commissioning.py lines 1057-1071 (_optional_magnet_fields).
      The presence test of line 1060 is the disjunction of the two keywords. *)
  Definition optional_magnet_fields (ind : nat) (ords : list nat) (k : magtype) : M (elem T) unit :=
    when (kCF k) (setattr "CombinedFunction" (VBool true)) ;;;
    (let! has := getm (fun e => Ok (hasattr e "CMlimit")) in
     when ((isSome (kHCM k) || isSome (kVCM k)) && negb has) (setattr "CMlimit" (VLims [Fin n0; Fin n0]))) ;;;
    (match kHCM k with
     | None => ret tt
     | Some l =>
         let! v := getm (fun e => attr e "CMlimit") in
         let! ls := lift (as_lims v) in
         let! ls' := lift (idx_set ls 0 l) in setattr "CMlimit" (VLims ls')
     end) ;;;
    (match kVCM k with
     | None => ret tt
     | Some l =>
         let! v := getm (fun e => attr e "CMlimit") in
         let! ls := lift (as_lims v) in
         let! ls' := lift (idx_set ls 1 l) in setattr "CMlimit" (VLims ls')
     end) ;;;
    (match kSkewQuad k with None => ret tt | Some l => setattr "SkewQuadLimit" (VLim l) end) ;;;
    (match kMasterOf k with
     | None => ret tt
     | Some rows =>
         if (1 <? length (positions ind 0 ords))%nat then raise ValueError
         else let! l := lift (master_cols rows (positions ind 0 ords)) in setattr "MasterOf" (VOrds l)
     end).

  (** simulated_commissioning.py lines 330-343, on the element [RING[ind]].
      [zeros(order)] followed by [+= Polynom] is written as one padded sum of equal lengths. *)
  Definition magnet_init : M (elem T) unit :=
    let! pa := getm (fun e => attr_vec e "PolynomA") in
    setattr "NomPolynomA" (VVec (zeros (length pa))) ;;; setattr "SetPointA" (VVec (zeros (length pa))) ;;;
    setattr "CalErrorA" (VVec (zeros (length pa))) ;;;
    let! pb := getm (fun e => attr_vec e "PolynomB") in
    setattr "NomPolynomB" (VVec (zeros (length pb))) ;;; setattr "SetPointB" (VVec (zeros (length pb))) ;;;
    setattr "CalErrorB" (VVec (zeros (length pb))) ;;;
    setattr "NomPolynomB" (VVec (zip_with nadd (zeros (length pb)) pb)) ;;;
    setattr "NomPolynomA" (VVec (zip_with nadd (zeros (length pa)) pa)) ;;;
    setattr "SetPointB" (VVec (zip_with nadd (zeros (length pb)) pb)) ;;;
    setattr "SetPointA" (VVec (zip_with nadd (zeros (length pa)) pa)) ;;;
    setattr "MagnetOffset" (VVec (zeros 3)) ;;; setattr "SupportOffset" (VVec (zeros 3)) ;;;
    setattr "MagnetRoll" (VVec (zeros 3)) ;;; setattr "SupportRoll" (VVec (zeros 3)) ;;;
    setattr "T1" (VVec (zeros 6)) ;;; setattr "T2" (VVec (zeros 6)).

  (** simulated_commissioning.py lines 316-344 (register_magnets). *)
  Definition register_magnets (ords : list nat) (errs : dict sigval) (k : magtype) : M sc unit :=
    check_kwargs errs MAGNET_ERROR_FIELDS ;;;
    mod_ORD (fun o => set_oMagnet (unique (oMagnet o ++ ords)) o) ;;;
    when (isSome (kSkewQuad k)) (mod_ORD (fun o => set_oSkewQuad (unique (oSkewQuad o ++ ords)) o)) ;;;
    when (isSome (kHCM k)) (mod_ORD (fun o => set_oHCM (unique (oHCM o ++ ords)) o)) ;;;
    when (isSome (kVCM k)) (mod_ORD (fun o => set_oVCM (unique (oVCM o ++ ords)) o)) ;;;
    forM ords (fun ind =>
      mod_SIG (fun g => set_sMagnet (sig_update (sMagnet g) ind errs) g) ;;;
      on_elem ind magnet_init ;;;
      on_elem ind (optional_magnet_fields ind ords k)).

  (** Splitting of an uncertainty given per endpoint, lines 436-448: one row goes to the start only, two rows
      go to start and end.  A plain number has no [ndim]. *)
  Definition endpoint_sigmas (v : sigval) : res (sigval * option sigval) :=
    match v with
    | SPlain (VVec l) => Ok (SPlain (VVec l), None)
    | SPlain (VMat rows) => let? r0 := idx rows 0 in let? r1 := idx rows 1 in Ok (SPlain (VVec r0), Some (SPlain (VVec r1)))
    | SCut (VVec l) c => Ok (SCut (VVec l) c, None)
    | SCut (VMat rows) c => let? r0 := idx rows 0 in let? r1 := idx rows 1 in Ok (SCut (VVec r0) c, Some (SCut (VVec r1) c))
    | _ => Err AttributeError
    end.
  Definition sig_set (m : gmap nat (dict sigval)) (ind : nat) (key : string) (v : sigval) : gmap nat (dict sigval) :=
    <[ind := dset (default [] (m !! ind)) key v]> m.

  (** simulated_commissioning.py lines 421-448 (register_supports).  [support_ords] is given by its rows; the
      columns of a two-row array are the start/end pairs.  Rows of unequal length are no numpy array (ValueError
      when building it).  The warning about upstream endpoints is left out. *)
  Definition register_supports (support_ords : list (list nat)) (support_type : string) (kw : dict sigval) : M sc unit :=
    match stype_of support_type with
    | None => raise ValueError
    | Some t =>
        check_kwargs kw SUPPORT_ERROR_FIELDS ;;;
        match support_ords with
        | [starts; ends] =>
            if negb (length starts =? length ends)%nat then raise ValueError else
            let pairs := zip starts ends in
            mod_ORD (fun o => set_oSupport t (update_double_ordinates (oSupport t o) pairs) o) ;;;
            forM (starts ++ ends) (fun ind =>
              on_elem ind (setattr (stype_str t +:+ "Offset") (VVec (zeros 3)) ;;;
                           setattr (stype_str t +:+ "Roll") (VVec (zeros 3))) ;;;
              mod_SIG (fun g => set_sSupport (<[ind := []]> (sSupport g)) g)) ;;;
            forM pairs (fun p =>
              forM kw (fun kv =>
                let! sg := lift (endpoint_sigmas kv.2) in
                mod_SIG (fun g => set_sSupport (sig_set (sSupport g) p.1 (stype_str t +:+ kv.1) sg.1) g) ;;;
                match sg.2 with
                | None => ret tt
                | Some v1 => mod_SIG (fun g => set_sSupport (sig_set (sSupport g) p.2 (stype_str t +:+ kv.1) v1) g)
                end))
        | _ => raise ValueError
        end
    end.

  (** simulated_commissioning.py lines 477-487 (set_systematic_multipole_errors); [BA] by rows.  The caller's
      array is modified too (line 481 writes through a view); that is outside the SC object and not modelled.
      [BA.ndim != 2] is excluded by the type. *)
  Definition set_systematic_multipole_errors (ords : list nat) (BA : list (list T)) (order : nat) (skewness : bool) : M sc unit :=
    if forallb (fun r => (length r =? 2)%nat) BA then
      let ind := if skewness then 1 else 0 in
      let source := if skewness then "A" else "B" in
      let column := col BA ind in
      match column !! order with
      | None => raise IndexError
      | Some _ =>
          let newcol := <[order := n0]> column in
          forM ords (fun o =>
            forM ["A"; "B"] (fun target =>
              let name := "SysPol" +:+ target +:+ "From" +:+ source in
              on_elem o (let! t := getm (fun e => match e !! name with None => Ok [] | Some v => as_tab v end) in
                         setattr name (VTab (tset t order newcol)))))
      end
    else raise ValueError.

  (** * Field updates *)

  (** [setpoints * add_padded(ones(len), CalError)], lines 1075-1076. *)
  Definition scaled_setpoints (sp : list T) (cal : val T) : res (list T) :=
    let? c := add_padded (VVec (ones (length sp))) cal in bcast nmul sp c.

  (** lines 1078-1085 for one target letter: the new field of the element [e]. *)
  Definition new_polynom (e : elem T) (target : string) (pa pb : list T) : res (list T) :=
    let p0 := if decide (target = "A") then pa else pb in
    let? p1 := match e !! ("Polynom" +:+ target +:+ "Offset") with
               | Some off => add_padded (VVec p0) off
               | None => Ok p0
               end in
    rfold (fun acc source =>
      match e !! ("SysPol" +:+ target +:+ "From" +:+ source) with
      | None => Ok acc
      | Some v =>
          let? t := as_tab v in
          rfold (fun acc nv =>
            let? x := idx (if decide (source = "A") then pa else pb) nv.1 in
            add_padded (VVec acc) (VVec (map (nmul x) nv.2))) t acc
      end) ["A"; "B"] p1.

  (** [PolynomB[0] += x] on the element *)
  Definition add_to_B0 (x : T) : M (elem T) unit :=
    let! pb := getm (fun e => attr_vec e "PolynomB") in
    let! b0 := lift (idx pb 0) in
    setattr "PolynomB" (VVec (<[0 := nadd b0 x]> pb)).

  (** simulated_commissioning.py lines 1074-1101 (_update_magnets) as a computation on the target element; [src]
      is the source element.  When source and target coincide the code reads the source's set-points, errors,
      bending angle and pass method, none of which it writes, so a snapshot of the source is exact.
      The length checks inside pyAT's element attribute setters are not modelled. *)
  Definition update_target (src : elem T) : M (elem T) unit :=
    let! spa := lift (attr_vec src "SetPointA") in
    let! spb := lift (attr_vec src "SetPointB") in
    let! pa := lift (let? c := attr src "CalErrorA" in scaled_setpoints spa c) in
    let! pb := lift (let? c := attr src "CalErrorB" in scaled_setpoints spb c) in
    (let! newa := getm (fun e => new_polynom e "A" pa pb) in setattr "PolynomA" (VVec newa)) ;;;
    (let! newb := getm (fun e => new_polynom e "B" pa pb) in setattr "PolynomB" (VVec newb)) ;;;
    (match src !! "BendingAngleError" with
     | None => ret tt
     | Some v =>
         let! ba := getm (fun e => let? err := as_num v in
                                   let? th := attr_num e "BendingAngle" in
                                   let? len := attr_num e "Length" in qdiv (nmul err th) len) in
         add_to_B0 ba
     end) ;;;
    (match src !! "BendingAngle", src !! "CombinedFunction" with
     | Some _, Some (VBool true) =>
         let! d := getm (fun e =>
            let? sp1 := idx spb 1 in
            let? cal := attr_vec src "CalErrorB" in
            let? c1 := idx cal 1 in
            let? nom := attr_vec src "NomPolynomB" in
            let? nom1 := idx nom 1 in
            let? alpha := qdiv (nmul sp1 (nadd n1 c1)) nom1 in
            let? th := attr_num e "BendingAngle" in
            let? len := attr_num e "Length" in
            qdiv (nsub (nmul alpha th) th) len) in
         add_to_B0 d
     | _, _ => ret tt
     end) ;;;
    (let! pm := lift (attr_str src "PassMethod") in
     when (bool_decide (pm = "CorrectorPass"))
       (let! k := getm (fun e => let? b := attr_vec e "PolynomB" in let? b0 := idx b 0 in
                                 let? a := attr_vec e "PolynomA" in let? a0 := idx a 0 in Ok [b0; a0]) in
        setattr "KickAngle" (VVec k))) ;;;
    (let! b := getm (fun e => attr_vec e "PolynomB") in
     setattr "MaxOrder" (VInt (Z.of_nat (length b) - 1))).

  Definition update_magnet (source target : nat) : M sc unit :=
    let! src := ring_elem source in on_elem target (update_target src).

  (** simulated_commissioning.py lines 659-663 (update_magnets). *)
  Definition update_magnets (ords : list nat) : M sc unit :=
    forM ords (fun ind =>
      update_magnet ind ind ;;;
      let! e := ring_elem ind in
      match e !! "MasterOf" with
      | None => ret tt
      | Some v => let! children := lift (as_ords v) in forM children (fun c => update_magnet ind c)
      end).
  (** default argument: all registered magnets *)
  Definition update_magnets_all : M sc unit := let! s := get in update_magnets (oMagnet (ORD s)).

  (** simulated_commissioning.py lines 627-632 (update_cavities), one element. *)
  Definition update_cavity : M (elem T) unit :=
    forM RF_PROPERTIES (fun field =>
      let! v := getm (fun e => let? sp := attr_num e (field +:+ "SetPoint") in
                               let? cal := attr_num e (field +:+ "CalError") in
                               let? off := attr_num e (field +:+ "Offset") in
                               Ok (nadd (nmul sp (nadd n1 cal)) off)) in
      setattr field (VNum v)).
  Definition update_cavities (ords : list nat) : M sc unit := forM ords (fun ind => on_elem ind update_cavity).
  Definition update_cavities_all : M sc unit := let! s := get in update_cavities (oRF (ORD s)).

  (** * Set-points *)

  (** classdef_tools.py lines 54-61 (check_input_and_setpoints). *)
  Definition check_input_and_setpoints (method : string) (ords : list nat) (setpoints : list T) : res (list T) :=
    if decide (method ∈ SETTING_METHODS) then
      if (length setpoints =? 1)%nat || (length setpoints =? length ords)%nat then
        Ok (match setpoints with [x] => replicate (length ords) x | _ => setpoints end)
      else Err ValueError
    else Err ValueError.

  (** storing a float in an array of the given dtype truncates when it is an integer array *)
  Definition store (dt : dtype) (x : T) : T := match dt with DInt => ntrunc x | DFloat => x end.

  (** [NUM_TO_AB[int(skewness)]] *)
  Definition letter (skewness : bool) : string := if skewness then "A" else "B".
  Definition SP (skewness : bool) : string := "SetPoint" +:+ letter skewness.

  (** [(-1) ** (ndim + 1) * Length if PassMethod != 'CorrectorPass' else 1], lines 828 and 868 *)
  Definition norm_by (skewness : bool) (e : elem T) : res T :=
    let? pm := attr_str e "PassMethod" in
    if decide (pm = "CorrectorPass") then Ok n1
    else let? len := attr_num e "Length" in Ok (nmul (if skewness then n1 else nopp n1) len).

  (** simulated_commissioning.py lines 820-829 (get_cm_setpoints). *)
  Definition get_cm_setpoints (ords : list nat) (skewness : bool) (s : sc) : res (list T) :=
    rmap (fun ord =>
      let? e := idx (RING s) ord in
      let? sp := attr_vec e (SP skewness) in
      let? x := idx sp 0 in
      let? pm := attr_str e "PassMethod" in
      if decide (pm = "CorrectorPass") then Ok x
      else let? len := attr_num e "Length" in Ok (nmul x (nmul (if skewness then n1 else nopp n1) len))) ords.

  (** lines 873-875: limit of the plane, clipped value *)
  Definition clip_cm (skewness : bool) (dt : dtype) (e : elem T) (x : T) : res T :=
    match e !! "CMlimit" with
    | None => Ok x
    | Some v =>
        let? ls := as_lims v in
        let? l := idx ls (if skewness then 1 else 0) in
        match l with
        | PInf => Ok x
        | Fin l => Ok (if nltb (nabs l) (nabs x) then store dt (nmul (nsign x) l) else x)
        end
    end.

  (** simulated_commissioning.py lines 866-876, one corrector. *)
  Definition set_cm_one (skewness : bool) (method : string) (dt : dtype) (x : T) : M (elem T) unit :=
    let! nb := getm (norm_by skewness) in
    let! x1 := getm (fun e =>
      if decide (method = REL) then
        let? sp := attr_vec e (SP skewness) in let? p := idx sp 0 in Ok (store dt (nmul x (nmul p nb)))
      else if decide (method = ADD) then
        let? sp := attr_vec e (SP skewness) in let? p := idx sp 0 in Ok (store dt (nadd x (nmul p nb)))
      else Ok x) in
    let! x2 := getm (fun e => clip_cm skewness dt e x1) in
    let! sp := getm (fun e => attr_vec e (SP skewness)) in
    let! y := lift (qdiv x2 nb) in
    let! sp' := lift (idx_set sp 0 y) in
    setattr (SP skewness) (VVec sp').

  (** simulated_commissioning.py lines 862-878 (set_cm_setpoints). *)
  Definition set_cm_setpoints (ords : list nat) (dt : dtype) (setpoints : list T) (skewness : bool) (method : string) : M sc unit :=
    let! sps := lift (check_input_and_setpoints method ords setpoints) in
    forM (zip ords sps) (fun p => on_elem p.1 (set_cm_one skewness method dt p.2)) ;;;
    update_magnets ords.

  (** [atgetfieldvalues(ring, ords, attr, index)]: in the given order, repetitions included *)
  Definition field_values (name : string) (order : nat) (ords : list nat) (s : sc) : res (list T) :=
    rmap (fun ord => let? e := idx (RING s) ord in let? v := attr_vec e name in idx v order) ords.

  (** [setpoints *= values] on the whole array: TypeError for an integer array (numpy refuses the cast);
      the lengths agree by construction. *)
  Definition inplace (f : T -> T -> T) (dt : dtype) (a b : list T) : res (list T) :=
    match dt with DInt => Err TypeError | DFloat => Ok (zip_with f a b) end.

  (** simulated_commissioning.py lines 941-946 (_dipole_compensation). *)
  Definition dipole_compensation (ord : nat) (setpoint : T) : M sc unit :=
    let! e := ring_elem ord in
    let! th := lift (match e !! "BendingAngle" with None => Ok n0 | Some v => as_num v end) in
    let! s := get in
    if negb (neqb th n0) && bool_decide (ord ∈ oHCM (ORD s)) then
      let! sp := lift (attr_vec e "SetPointB") in
      let! sp1 := lift (idx sp 1) in
      let! nom := lift (attr_vec e "NomPolynomB") in
      let! nom1 := lift (idx nom 1) in
      let! q := lift (qdiv (nsub setpoint sp1) nom1) in
      set_cm_setpoints [ord] DFloat [nmul q th] false ADD
    else ret tt.

  (** lines 931-933: skew-quadrupole limit *)
  Definition clip_skew (skewness : bool) (order : nat) (dt : dtype) (e : elem T) (x : T) : res T :=
    if skewness && (order =? 1)%nat then
      match e !! "SkewQuadLimit" with
      | None => Ok x
      | Some v =>
          let? l := as_lim v in
          match l with
          | PInf => Ok x
          | Fin l => Ok (if nltb l (nabs x) then store dt (nmul (nsign x) l) else x)
          end
      end
    else Ok x.

  (** line 937: [getattr(RING[ord], SetPoint)[order] = x] *)
  Definition set_sp_entry (name : string) (order : nat) (x : T) : M (elem T) unit :=
    let! sp := getm (fun e => attr_vec e name) in
    let! sp' := lift (idx_set sp order x) in
    setattr name (VVec sp').

  (** simulated_commissioning.py lines 930-937, one magnet. *)
  Definition set_magnet_one (skewness : bool) (order : nat) (dt : dtype) (dipcomp : bool) (ord : nat) (x : T) : M sc unit :=
    let! e := ring_elem ord in
    let! x1 := lift (clip_skew skewness order dt e x) in
    when (dipcomp && (order =? 1)%nat) (dipole_compensation ord x1) ;;;
    on_elem ord (set_sp_entry (SP skewness) order x1).

  (** lines 924-929: the set-points that will be written, before clipping *)
  Definition magnet_targets (ords : list nat) (dt : dtype) (setpoints : list T) (skewness : bool) (order : nat) (method : string) (s : sc) : res (list T) :=
    let? sps := check_input_and_setpoints method ords setpoints in
    if decide (method = REL) then
      let? noms := field_values ("NomPolynom" +:+ letter skewness) order ords s in inplace nmul dt sps noms
    else if decide (method = ADD) then
      let? cur := field_values (SP skewness) order ords s in inplace nadd dt sps cur
    else Ok sps.

  (** simulated_commissioning.py lines 924-939 (set_magnet_setpoints). *)
  Definition set_magnet_setpoints (ords : list nat) (dt : dtype) (setpoints : list T) (skewness : bool) (order : nat)
      (method : string) (dipcomp : bool) : M sc unit :=
    let! s := get in
    let! sps := lift (magnet_targets ords dt setpoints skewness order method s) in
    forM (zip ords sps) (fun p => set_magnet_one skewness order dt dipcomp p.1 p.2) ;;;
    update_magnets ords.

  (** scalar attribute of several elements *)
  Definition field_nums (name : string) (ords : list nat) (s : sc) : res (list T) :=
    rmap (fun ord => let? e := idx (RING s) ord in attr_num e name) ords.

  Definition cavity_targets (ords : list nat) (dt : dtype) (setpoints : list T) (param : string) (method : string) (s : sc) : res (list T) :=
    let? sps := check_input_and_setpoints method ords setpoints in
    if decide (method = REL) then
      let? cur := field_nums (param +:+ "SetPoint") ords s in inplace nmul dt sps cur
    else if decide (method = ADD) then
      let? cur := field_nums (param +:+ "SetPoint") ords s in inplace nadd dt sps cur
    else Ok sps.

  (** simulated_commissioning.py lines 796-804 (set_cavity_setpoints). *)
  Definition set_cavity_setpoints (ords : list nat) (dt : dtype) (setpoints : list T) (param : string) (method : string) : M sc unit :=
    let! s := get in
    let! sps := lift (cavity_targets ords dt setpoints param method s) in
    forM (zip ords sps) (fun p => on_elem p.1 (setattr (param +:+ "SetPoint") (VNum p.2))) ;;;
    update_cavities ords.

  (** simulated_commissioning.py lines 948-955 (very_deep_copy).  Values of the model are immutable, so a deep
      copy is the value itself; line 954 stores the copied RING element in the copy's IDEALRING.  The loop runs
      over the indices of RING; the two rings have equal length. *)
  Definition very_deep_copy (s : sc) : sc :=
    MkSC (RING s) (imap (fun i e => default e (RING s !! i)) (IDEALRING s)) (INJ s) (SIG s) (ORD s) (RNG s).

  (** simulated_commissioning.py lines 64-74 (__init__): two copies of the lattice, nothing registered. *)
  Definition init_ord : indices := MkOrd [] [] [] [] [] [] [] [] [].
  Definition init_sig : sig := MkSig ∅ ∅ ∅ ∅ (zeros 6) (zeros 6) n0.
  Definition init_inj : inj := MkInj n1 (zeros 6) (zeros 6) (replicate 6 (zeros 6)) (zeros 6) 1 1 1 "TBT".
  Definition init_sc (ring : list (elem T)) (rng : list T) : sc := MkSC ring ring init_inj init_sig init_ord rng.

  (** pySC/core/classes.py lines 86-93 (trackMode setter); constants.py: TRACKING_MODES. *)
  Definition TRACKING_MODES : list string := ["TBT"; "ORB"; "PORB"].
  Definition set_trackMode (mode : string) : M inj unit := fun i =>
    if decide (mode ∈ TRACKING_MODES) then
      let i1 := MkInj (beamLostAt i) (Z0ideal i) (Z0 i) (beamSize i) (randomInjectionZ i) (nParticles i) (nTurns i) (nShots i) mode in
      (Ok tt, if decide (mode = "ORB")
              then MkInj (beamLostAt i1) (Z0ideal i1) (Z0 i1) (beamSize i1) (randomInjectionZ i1) 1 1 (nShots i1) (trackMode i1)
              else i1)
    else (Err AttributeError, i).
End SC.
Arguments sigval T : clear implicits.
Arguments inj T : clear implicits.
Arguments sig T : clear implicits.
Arguments sc T : clear implicits.
Arguments magtype T : clear implicits.
