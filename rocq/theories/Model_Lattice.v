(** pySC/core/lattice_setting.py and pySC/lattice_properties/response_model.py. *)
From Coq Require Import ZArith.
From stdpp Require Import base gmap strings list.
From Verif Require Import Num Base Model_Arr Model_SC Model_Err Model_Beam.
Local Open Scope string_scope.
Local Open Scope list_scope.

(** Python [s.replace(old, new)], [old] not empty: leftmost, non-overlapping. *)
Fixpoint str_replace_from (fuel : nat) (old new s : string) : string :=
  match fuel with
  | O => s
  | S fuel' =>
      if String.prefix old s then new +:+ str_replace_from fuel' old new (String.substring (String.length old) (String.length s - String.length old) s)
      else match s with
           | EmptyString => EmptyString
           | String c s' => String c (str_replace_from fuel' old new s')
           end
  end.
Definition str_replace (old new s : string) : string := str_replace_from (S (String.length s)) old new s.

Section Lattice.
  Context {T : Type} {N : Num T}.

  (** computations on a lattice *)
  Definition on_ring {A} (i : nat) (m : M (elem T) A) : M (list (elem T)) A := fun r =>
    match r !! i with
    | None => (Err IndexError, r)
    | Some e => let '(x, e') := m e in (x, <[i := e']> r)
    end.

  (** lattice_setting.py lines 15-19 (switch_rf). *)
  Definition switch_rf (ords : list nat) (state : bool) : M (list (elem T)) unit :=
    let! ring := get in
    let! cavs := lift (rmap (fun i => let? e := idx ring i in Ok (i, hasattr e "Frequency")) ords) in
    forM (List.filter snd cavs) (fun c => on_ring c.1 (setattr "PassMethod" (VStr (if state then "RFCavityPass" else "IdentityPass")))).

  Definition valid_args : list string := ["radiationoff"; "radiationon"; "cavityoff"; "cavityon"].
  Definition non_rad_pass_methods : list string := ["BndMPoleSymplectic4Pass"; "BndMPoleSymplectic4E2Pass"; "StrMPoleSymplectic4Pass"].
  Definition rad_pass_methods : list string := map (str_replace "Pass" "RadPass") non_rad_pass_methods.
  Definition switch_pass (among : list string) (old new : string) : M (list (elem T)) unit :=
    let! ring := get in
    forM (seq 0 (length ring)) (fun ind =>
      on_ring ind (let! pm := getm (fun e => attr_str e "PassMethod") in
                   when (bool_decide (pm ∈ among)) (setattr "PassMethod" (VStr (str_replace old new pm))))).
  (** lattice_setting.py lines 48-67 (switch_cavity_and_radiation). *)
  Definition switch_cavity_and_radiation (args : list string) : M (list (elem T)) unit :=
    if forallb (fun a => bool_decide (a ∈ valid_args)) args then
      (if bool_decide ("radiationoff" ∈ args) then switch_pass rad_pass_methods "Rad" ""
       else if bool_decide ("radiationon" ∈ args) then switch_pass non_rad_pass_methods "Pass" "RadPass"
       else ret tt) ;;;
      (let! ring := get in
       if bool_decide ("cavityoff" ∈ args) then switch_rf (seq 0 (length ring)) false
       else if bool_decide ("cavityon" ∈ args) then switch_rf (seq 0 (length ring)) true
       else ret tt)
    else raise ValueError.

  (** response_model.py lines 160-175 (SCgetModelRING) for [includeAperture=False].  Line 163 assigns the array of the
      machine to the model lattice and lines 165-166 write through it.  Whether the assignment copies the array is up
      to pyAT; [copies] says whether it does.  The local lattice is the first state component. *)
  Definition zero_first (l : list T) : res (list T) := idx_set l 0 n0.
  Definition model_element (copies rf : bool) (ord : nat) : M (sc T * list (elem T)) unit := fun st =>
    let '(s, ring) := st in
    match RING s !! ord with
    | None => (Err IndexError, st)
    | Some e =>
        let step1 : res unit * (sc T * list (elem T)) :=
          if hasattr e "SetPointA" && hasattr e "SetPointB" then
            match attr_vec e "SetPointA", attr_vec e "SetPointB", ring !! ord with
            | Ok a, Ok b, Some m =>
                match zero_first a, zero_first b with
                | Ok a', Ok b' =>
                    (Ok tt, (if copies then s else set_RING (<[ord := <["SetPointB" := VVec b']> (<["SetPointA" := VVec a']> e)]> (RING s)) s,
                             <[ord := <["PolynomB" := VVec b']> (<["PolynomA" := VVec a']> m)]> ring))
                | _, _ => (Err IndexError, (s, ring))
                end
            | Ok _, Ok _, None => (Err IndexError, (s, ring))
            | _, _, _ => (Err TypeError, (s, ring))
            end
          else (Ok tt, (s, ring)) in
        match step1 with
        | (Ok _, (s1, ring1)) =>
            if rf && hasattr e "Frequency" then
              let '(r, ring2) := forM RF_PROPERTIES (fun field =>
                 let! v := lift (attr e (field +:+ "SetPoint")) in on_ring ord (setattr field v)) ring1 in
              (r, (s1, ring2))
            else (Ok tt, (s1, ring1))
        | (Err x, st1) => (Err x, st1)
        end
    end.
  Definition model_ring (copies : bool) : M (sc T) (list (elem T)) := fun s =>
    match forM (seq 0 (length (RING s))) (model_element copies (0 <? length (oRF (ORD s)))%nat) (s, IDEALRING s) with
    | (Ok _, (s', ring)) => (Ok ring, s')
    | (Err x, (s', _)) => (Err x, s')
    end.

  (** response_model.py lines 53-55, 125-127: the tracking function of a mode; positions by coordinate (0: x, 2: y), BPM,
      turn.  An unknown mode is not refused in line 55 (the exception is not raised), the look-up in line 57 fails. *)
  Definition track_method (w : world T) (mode : string) : res (list (elem T) -> list T -> nat -> list nat -> nat -> nat -> nat -> option T) :=
    if decide (mode = "TBT") then Ok (fun ring z nt refs c b t => w_track w ring (map (fun x => [x]) z) nt refs c 0%nat b t)
    else if decide (mode = "ORB") then Ok (fun ring _ _ refs c b _ => w_orbit w ring refs b c)
    else Err KeyError.

  (** [np.ravel(np.transpose(d[c, :, :, :], axes=(2, 1, 0)))] for x then y: turn by turn, BPM by BPM *)
  Definition xy {A} (nb nt : nat) (f : nat -> nat -> nat -> A) : list A := arrival nb nt (f 0%nat) ++ arrival nb nt (f 2%nat).
  Definition odiff (dk : T) (b a : option T) : option T := x ← b; y ← a; Some (ndiv (nsub x y) dk).

  (** [ring[ord].KickAngle[dim] = x] *)
  Definition set_kick (dim : nat) (x : T) : M (elem T) unit :=
    let! k := getm (fun e => attr_vec e "KickAngle") in
    let! k' := lift (idx_set k dim x) in setattr "KickAngle" (VVec k').

  Section RM.
    Variables (track : list (elem T) -> list T -> nat -> list nat -> nat -> nat -> nat -> option T) (z : list T) (nt : nat) (bpms : list nat) (dkick : T).
    (** response_model.py lines 71-87: one corrector; [dim] 0: horizontal, 1: vertical. *)
    Definition rm_column (Ta : list (option T)) (dim ord : nat) : M (list (elem T)) (list (option T)) :=
      let! r0 := get in
      let! e := lift (idx r0 ord) in
      let! pm := lift (attr_str e "PassMethod") in
      let! TdB :=
        (if decide (pm = "CorrectorPass") then
           let! k := lift (attr_vec e "KickAngle") in
           let! nominal := lift (idx k dim) in
           on_ring ord (set_kick dim (nadd nominal dkick)) ;;;
           let! r := get in
           let TdB := xy (length bpms) nt (track r z nt bpms) in
           on_ring ord (set_kick dim nominal) ;;;
           ret TdB
         else
           let name := "Polynom" +:+ (if (dim =? 0)%nat then "B" else "A") in
           let! p := lift (attr_vec e name) in
           let! len := lift (attr_num e "Length") in
           let! delta := lift (qdiv dkick len) in
           let! p0 := lift (idx p 0) in
           on_ring ord (setattr name (VVec (<[0%nat := nadd p0 (nmul (if (dim =? 0)%nat then nopp n1 else n1) delta)]> p))) ;;;
           let! r := get in
           let TdB := xy (length bpms) nt (track r z nt bpms) in
           on_ring ord (setattr name (VVec p)) ;;;
           ret TdB) in
      if neqb dkick n0 then raise NonFinite else ret (zip_with (odiff dkick) TdB Ta).
    (** response_model.py lines 61-88; the response matrix by columns *)
    Definition model_rm_columns (hcm vcm : list nat) : M (list (elem T)) (list (list (option T))) :=
      let! r0 := get in
      let Ta := xy (length bpms) nt (track r0 z nt bpms) in
      if forallb (fun c => forallb (fun b => forallb (fun t => isSome (track r0 z nt bpms c b t)) (seq 0 nt)) (seq 0 (length bpms))) [0; 2]%nat then
        let! h := mapM hcm (rm_column Ta 0) in
        let! v := mapM vcm (rm_column Ta 1) in
        ret (h ++ v)
      else raise ValueError.
  End RM.
  (** response_model.py lines 52-88 (SCgetModelRM).  Line 66 looks for NaN in all coordinates; here in x and y, which AT
      sets together. *)
  Definition SCgetModelRM (copies : bool) (w : world T) (bpms hcm vcm : list nat) (mode : string) (z : list T) (nturns : nat) (dkick : T) (ideal : bool) : M (sc T) (list (list (option T))) :=
    let! s := get in
    let! ring := (if ideal then ret (IDEALRING s) else model_ring copies) in
    let! track := lift (track_method w mode) in
    let nt := if decide (mode = "ORB") then 1%nat else nturns in
    lift (fst (model_rm_columns track z nt bpms dkick hcm vcm ring)).

  (** response_model.py lines 124-143 (SCgetModelDispersion). *)
  Definition SCgetModelDispersion (copies : bool) (w : world T) (bpms cavs : list nat) (mode : string) (z : list T) (nturns : nat) (rfstep : T) (ideal : bool) : M (sc T) (list (option T)) :=
    let! s := get in
    let! ring := (if ideal then ret (IDEALRING s) else model_ring copies) in
    let! track := lift (track_method w mode) in
    let nt := if decide (mode = "ORB") then 1%nat else nturns in
    let Ta := xy (length bpms) nt (track ring z nt bpms) in
    if forallb (fun c => forallb (fun b => forallb (fun t => isSome (track ring z nt bpms c b t)) (seq 0 nt)) (seq 0 (length bpms))) [0; 2]%nat then
      let '(r, ring') := forM cavs (fun o => on_ring o (let! f := getm (fun e => attr_num e "Frequency") in setattr "Frequency" (VNum (nadd f rfstep)))) ring in
      lift (let? _ := r in
            if neqb rfstep n0 then Err NonFinite
            else Ok (zip_with (odiff rfstep) (xy (length bpms) nt (track ring' z nt bpms)) Ta))
    else raise ValueError.
End Lattice.
