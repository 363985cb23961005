(** pySC/core/beam.py: bunches, tracking, BPM readings, transmission.

    Numbers that may be NaN are [option T] ([None] is NaN).  Tracking, closed-orbit search, eigenvalue decomposition
    and the user's [postFun] are not modelled; they are arbitrary functions gathered in a record [world], so that
    every theorem holds for every behaviour of the beam. *)
From Coq Require Import ZArith.
From stdpp Require Import base gmap strings list.
From Verif Require Import Num Base Model_Arr Model_SC Model_Err.
Local Open Scope string_scope.
Local Open Scope list_scope.

Section Beam.
  Context {T : Type} {N : Num T} {G : Trig T}.

  Record world := MkWorld {
    (** at.lattice_track: lattice, particles (6 rows), turns, reference points; then coordinate, particle, reference
        point (by position in the list), turn *)
    w_track : list (elem T) -> list (list T) -> nat -> list nat -> nat -> nat -> nat -> nat -> option T;
    (** at.find_orbit6: lattice, reference points; then reference point (by position), coordinate *)
    w_orbit : list (elem T) -> list nat -> nat -> nat -> option T;
    (** numpy.linalg.eig: eigenvalues, eigenvectors as columns *)
    w_eig : list (list T) -> list T * list (list T);
    (** SC.INJ.postFun *)
    w_post : list (list T) -> list (list T) }.

  (** * NaN-aware reductions *)
  Definition somes {A} (l : list (option A)) : list A := omap id l.
  Definition mean (l : list T) : T := ndiv (nsum l) (nofnat (length l)).
  (** numpy.nanmean: NaN for a slice without numbers *)
  Definition nanmean (l : list (option T)) : option T :=
    match somes l with [] => None | x :: l' => Some (mean (x :: l')) end.
  Definition nansum (l : list (option T)) : T := nsum (somes l).
  (** numpy.ma.average over values that are not masked, with their weights (a weight that is missing is masked);
      masked, i.e. NaN after [filled], when nothing is left or when the weights sum to zero (masked division). *)
  Definition weighted (l : list (T * T)) : T := nsum (map (fun p => nmul p.1 p.2) l).
  Definition wsum (l : list (T * T)) : T := nsum (map snd l).
  Definition pairs (l : list (option T * option T)) : list (T * T) :=
    omap (fun p => x ← p.1; w ← p.2; Some (x, w)) l.
  Definition ma_average (l : list (option T * option T)) : option T :=
    match pairs l with
    | [] => None
    | _ => if neqb (wsum (pairs l)) n0 then None else Some (ndiv (weighted (pairs l)) (wsum (pairs l)))
    end.

  (** * Bunches *)

  (** columns that are all equal: numpy.tile of a (6,1) array *)
  Definition tile (z : list T) (n : nat) : list (list T) := map (fun x => replicate n x) z.
  Definition diag (v : list T) : list (list T) :=
    imap (fun i x => <[i := x]> (zeros (length v))) v.
  Fixpoint rows_of (width : nat) (n : nat) (l : list T) : list (list T) :=
    match n with 0 => [] | S n' => take width l :: rows_of width n' (drop width l) end%nat.
  (** beam.py lines 161-167 (generate_bunches); [n] is the number of particles. *)
  Definition generate_bunches (w : world) (n : nat) : M (sc T) (list (list T)) :=
    let! s := get in
    let! d := randnc ntwo 6 in
    let! jit := lift (bcast nmul (randomInjectionZ (INJ s)) d) in
    let! z := lift (bcast nadd jit (Z0 (INJ s))) in
    let Z := tile z n in
    if (n =? 1)%nat then ret (w_post w Z)
    else
      let '(V, L) := w_eig w (beamSize (INJ s)) in
      let! d := randnc (nofnat 3) (6 * n) in
      ret (w_post w (zip_with (zip_with nadd) Z (mmul (mmul (diag (map nsqrt V)) L) (rows_of n 6 d)))).

  (** * Tracking *)

  (** x and y of the particles at the reference points: number of particles, number of turns, then plane (0: x, 1: y),
      particle, reference point, turn. *)
  Record tracked := MkTracked { t_parts : nat; t_turns : nat; t_pos : nat -> nat -> nat -> nat -> option T }.
  Definition mask_y (f : nat -> nat -> nat -> nat -> option T) : nat -> nat -> nat -> nat -> option T :=
    fun plane p r t => if (plane =? 0)%nat then f 0%nat p r t else match f 0%nat p r t with None => None | Some _ => f 1%nat p r t end.
  (** beam.py lines 207-217 (_tracking). *)
  Definition tracking (w : world) (refs : list nat) : M (sc T) tracked :=
    let! s := get in
    if decide (trackMode (INJ s) = "ORB") then
      ret (MkTracked 1 1 (mask_y (fun plane _ r _ => w_orbit w (RING s) refs r (2 * plane)%nat)))
    else
      let! Z := generate_bunches w (nParticles (INJ s)) in
      ret (MkTracked (length (default [] (Z !! 0%nat))) (nTurns (INJ s))
             (mask_y (fun plane p r t => w_track w (RING s) Z (nTurns (INJ s)) refs (2 * plane)%nat p r t))).

  (** * BPM readings of one shot *)

  (** reading of one BPM in one turn: x, y and sum signal *)
  Record cell := MkCell { c_x : option T; c_y : option T; c_sum : option T }.
  Definition c_pos (plane : nat) (c : cell) : option T := if (plane =? 0)%nat then c_x c else c_y c.

  (** the errors of one BPM: noise, offset with support offset, calibration error, roll with support roll, sum error *)
  Record bpm_errors := MkBpm { b_noise : list T; b_offset : list T; b_cal : list T; b_roll : T; b_sum : T }.
  (** beam.py lines 184-189 (reading of the attributes). *)
  Definition read_bpm (noise_field : string) (e : elem T) : res bpm_errors :=
    let? nz := attr_vec e noise_field in
    let? o := attr_vec e "Offset" in
    let? so := attr_vec e "SupportOffset" in
    let? off := bcast nadd o so in
    let? cal := attr_vec e "CalError" in
    let? r := attr_num e "Roll" in
    let? sr := attr_num e "SupportRoll" in
    let? se := attr_num e "SumError" in
    Ok (MkBpm nz off cal (nadd r sr) se).

  Definition oplus (x y : option T) : option T := a ← x; b ← y; Some (nadd a b).
  Definition oscale (c : T) (x : option T) : option T := a ← x; Some (nmul c a).

  (** beam.py lines 198-199 for one plane: [(x - offset) * (1 + cal) + noise / transmission] *)
  Definition measured (off cal noise : T) (x tr : option T) : res (option T) :=
    match x, tr with
    | Some x, Some tr => let? q := qdiv noise tr in Ok (Some (nadd (nmul (nsub x off) (nadd n1 cal)) q))
    | _, _ => Ok None
    end.

  (** beam.py lines 190-199 for one BPM and one turn; [dx], [dy], [ds] are the three random numbers. *)
  Definition read_cell (lost_at : T) (b : bpm_errors) (xs ys : list (option T)) (dx dy ds : T) : res cell :=
    let? nx := idx (b_noise b) 0 in
    let? ny := idx (b_noise b) 1 in
    let? ox := idx (b_offset b) 0 in
    let? oy := idx (b_offset b) 1 in
    let? cx := idx (b_cal b) 0 in
    let? cy := idx (b_cal b) 1 in
    let? frac := qdiv (nofnat (length (somes xs))) (nofnat (length xs)) in
    let tr := nmul frac (nadd n1 (nmul (b_sum b) ds)) in
    let lost := nltb tr (nsub n1 lost_at) in
    let x := if lost then None else nanmean xs in
    let y := if lost then None else nanmean ys in
    let tro := if lost then None else Some tr in
    let xr := oplus (oscale (ncos (b_roll b)) x) (oscale (nopp (nsin (b_roll b))) y) in
    let yr := oplus (oscale (nsin (b_roll b)) x) (oscale (ncos (b_roll b)) y) in
    let? rx := measured ox cx (nmul nx dx) xr tro in
    let? ry := measured oy cy (nmul ny dy) yr tro in
    Ok (MkCell rx ry tro).

  Definition pick (l : list T) (i : nat) : T := default n0 (l !! i).
  (** beam.py lines 182-200 (_real_bpm_reading): rows are BPMs, columns turns.  The random numbers are drawn as in
      lines 185 and 189, in row-major order. *)
  Definition real_bpm_reading (tk : tracked) (ords : list nat) : M (sc T) (list (list cell)) :=
    let! s := get in
    let nb := length ords in
    let nt := t_turns tk in
    let field := if decide (trackMode (INJ s) = "ORB") then "NoiseCO" else "Noise" in
    let! bpms := lift (rmap (fun o => let? e := idx (RING s) o in read_bpm field e) ords) in
    let! dn := randnc ntwo (2 * nb * nt) in
    let! ds := randnc ntwo (nb * nt) in
    lift (rmap (fun ib =>
      rmap (fun t =>
        read_cell (beamLostAt (INJ s)) ib.2
          (map (fun p => t_pos tk 0 p ib.1 t) (seq 0 (t_parts tk)))
          (map (fun p => t_pos tk 1 p ib.1 t) (seq 0 (t_parts tk)))
          (pick dn (ib.1 * nt + t)) (pick dn ((nb + ib.1) * nt + t)) (pick ds (ib.1 * nt + t)))
        (seq 0 nt)) (zip (seq 0 nb) bpms)).

  (** assignment of a shot into the array of all shots: a single turn is broadcast to the number of turns, any other
      number has to fit *)
  Definition fit_turns (nt : nat) (row : list cell) : res (list cell) :=
    if (length row =? nt)%nat then Ok row
    else match row with [c] => Ok (replicate nt c) | _ => Err ValueError end.

  (** beam.py lines 220-226 (_only_registered_bpms), as ordinates. *)
  Definition only_registered (registered requested : list nat) : res (list nat) :=
    match List.filter (fun b => bool_decide (b ∈ requested)) registered with
    | [] => Err ValueError
    | l => Ok l
    end.

  (** all shots of one BPM and turn *)
  Definition cell_of (shots : list (list (list cell))) (b t : nat) : list cell :=
    omap (fun sh : list (list cell) => row ← sh !! b; row !! t) shots.

  (** beam.py lines 50-54: weighted mean position and mean sum signal over the shots. *)
  Definition mean_pos (plane : nat) (cs : list cell) : option T :=
    ma_average (map (fun c => (c_pos plane c, c_sum c)) cs).
  Definition mean_sum (nshots : nat) (cs : list cell) : res T :=
    qdiv (nansum (map c_sum cs)) (nofnat nshots).

  (** beam.py lines 58-62: numpy.average over the turns of the masked mean positions, weights are the mean sum
      signals (never NaN here); a vanishing sum of weights raises ZeroDivisionError. *)
  Definition porb_pos (l : list (option T * T)) : res (option T) :=
    let scl := nsum (map snd l) in
    if neqb scl n0 then Err ZeroDivisionError
    else match omap (fun p : option T * T => x ← p.1; Some (x, p.2)) l with
         | [] => Ok None
         | q => Ok (Some (ndiv (weighted q) scl))
         end.

  (** beam.py lines 64-67: error of the mean, NaN as soon as one shot has no reading. *)
  Definition err_pos (plane : nat) (cs : list cell) (m : option T) : res (option T) :=
    if forallb (fun c => match c_pos plane c with Some _ => true | None => false end) cs then
      match m with
      | None => Ok None
      | Some m =>
          let l := pairs (map (fun c => (x ← c_pos plane c; Some (nmul (nsub x m) (nsub x m)), c_sum c)) cs) in
          if neqb (wsum l) n0 then Err ZeroDivisionError
          else Ok (Some (nsqrt (ndiv (weighted l) (wsum l))))
      end
    else Ok None.

  (** beam.py lines 229-231: arrival-time order of a (BPM, turn) array. *)
  Definition arrival {A} (nb nt : nat) (f : nat -> nat -> A) : list A :=
    concat (map (fun t => map (fun b => f b t) (seq 0 nb)) (seq 0 nt)).

  Record reading := MkReading { r_x : list (option T); r_y : list (option T); r_sum : list T; r_err : option (list (option T) * list (option T)) }.

  (** one shot: lines 45-47 *)
  Definition one_shot (w : world) (ords : list nat) (nt : nat) : M (sc T) (list (list cell)) :=
    let! tk := tracking w ords in
    let! rows := real_bpm_reading tk ords in
    lift (rmap (fit_turns nt) rows).

  (** beam.py lines 42-73 (bpm_reading); [None] stands for the default of [bpm_ords].  Plotting is left out. *)
  Definition bpm_reading (w : world) (bpm_ords : option (list nat)) (errors : bool) : M (sc T) reading :=
    let! s := get in
    let! ords := lift (match bpm_ords with None => Ok (oBPM (ORD s)) | Some l => only_registered (oBPM (ORD s)) l end) in
    let nb := length ords in
    let nt := nTurns (INJ s) in
    let! shots := mapM (seq 0 (nShots (INJ s))) (fun _ => one_shot w ords nt) in
    let pos plane b t := mean_pos plane (cell_of shots b t) in
    let! sums := lift (rmap (fun b => rmap (fun t => mean_sum (nShots (INJ s)) (cell_of shots b t)) (seq 0 nt)) (seq 0 nb)) in
    let sum b t := default n0 (row ← sums !! b; row !! t) in
    if decide (trackMode (INJ s) = "PORB") then
      let! xs := lift (rmap (fun b => porb_pos (map (fun t => (pos 0 b t, sum b t)) (seq 0 nt))) (seq 0 nb)) in
      let! ys := lift (rmap (fun b => porb_pos (map (fun t => (pos 1 b t, sum b t)) (seq 0 nt))) (seq 0 nb)) in
      let! ss := lift (rmap (fun b => qdiv (nsum (map (sum b) (seq 0 nt))) (nofnat nt)) (seq 0 nb)) in
      ret (MkReading xs ys ss None)
    else
      let x := arrival nb nt (pos 0) in
      let y := arrival nb nt (pos 1) in
      let sm := arrival nb nt sum in
      if errors && bool_decide (trackMode (INJ s) = "TBT") then
        let! ex := lift (rmap (fun t => rmap (fun b => err_pos 0 (cell_of shots b t) (pos 0 b t)) (seq 0 nb)) (seq 0 nt)) in
        let! ey := lift (rmap (fun t => rmap (fun b => err_pos 1 (cell_of shots b t) (pos 1 b t)) (seq 0 nb)) (seq 0 nt)) in
        ret (MkReading x y sm (Some (concat ex, concat ey)))
      else ret (MkReading x y sm None).

  (** beam.py lines 92-104 (all_elements_reading): readings of all BPMs, averaged over the shots without weights, and
      the true positions (shot, plane, particle, reference point, turn).  The tracking covers all reference points
      [0 .. len(RING)]; the BPM columns are taken out of it. *)
  Definition select_refs (tk : tracked) (ords : list nat) : tracked :=
    MkTracked (t_parts tk) (t_turns tk) (fun plane p b t => match ords !! b with Some o => t_pos tk plane p o t | None => None end).
  Definition all_elements_shot (w : world) : M (sc T) (list (list cell) * tracked) :=
    let! s := get in
    let! tk := tracking w (seq 0 (S (length (RING s)))) in
    let! rows := real_bpm_reading (select_refs tk (oBPM (ORD s))) (oBPM (ORD s)) in
    let! rows' := lift (rmap (fit_turns (nTurns (INJ s))) rows) in
    ret (rows', tk).
  Definition all_elements_reading (w : world) : M (sc T) (list (option T) * list (option T) * list tracked) :=
    let! s := get in
    let nb := length (oBPM (ORD s)) in
    let nt := nTurns (INJ s) in
    let! shots := mapM (seq 0 (nShots (INJ s))) (fun _ => all_elements_shot w) in
    let pos plane b t := nanmean (map (c_pos plane) (cell_of (map fst shots) b t)) in
    ret (arrival nb nt (pos 0), arrival nb nt (pos 1), map snd shots)%nat.

  (** beam.py lines 126-141 (beam_transmission); [None] stands for the defaults. *)
  Definition survived (tk : nat -> nat -> option T) (np : nat) (t : nat) : res T :=
    qdiv (nofnat (length (somes (map (fun p => tk p t) (seq 0 np))))) (nofnat np).
  Definition beam_transmission (w : world) (nparts nturns : option nat) : M (sc T) (nat * list T) :=
    let! s := get in
    let np := default (nParticles (INJ s)) nparts in
    let nt := default (nTurns (INJ s)) nturns in
    let! Z := generate_bunches w np in
    let tk p t := w_track w (RING s) Z nt [length (RING s)] 0%nat p 0%nat t in
    let! frac := lift (rmap (survived tk (length (default [] (Z !! 0%nat)))) (seq 0 nt)) in
    ret (length (List.filter (fun f => nltb (nsub n1 (beamLostAt (INJ s))) f) frac), frac).
End Beam.
Arguments world T : clear implicits.
Arguments cell T : clear implicits.
Arguments tracked T : clear implicits.
Arguments reading T : clear implicits.
Arguments bpm_errors T : clear implicits.
