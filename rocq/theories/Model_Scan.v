(** pySC/correction/rf.py, tune.py, chroma.py: scans of RF phase and frequency, tune scan, tune and chromaticity fits.

    The numerical fits (numpy.polyfit, scipy curve_fit, fsolve, fmin) and the optics (at get_chrom, atlinopt) are
    arbitrary functions handed in as arguments; NaN is [None].  Plotting and logging are left out except where the
    text of a message is computed by an expression that can fail. *)
From Coq Require Import ZArith.
From stdpp Require Import base gmap strings list.
From Verif Require Import Num Base Model_Arr Model_SC Model_Err Model_Beam Model_Orbit.
Local Open Scope string_scope.
Local Open Scope list_scope.

(** rf.py lines 16-17 and constants.py. *)
Definition MIN_TURNS_FOR_LINEAR_FIT : nat := 3.
Definition MIN_TURNS_FOR_SINE_FIT : nat := 6.
Definition SPEED_OF_LIGHT : Z := 299792458.

Section Scan.
  Context {T : Type} {N : Num T} {G : Trig T}.

  Definition nhalf : T := ndiv n1 ntwo.
  (** numpy.linspace(a, b, n) for n >= 2 *)
  Definition linspace (a b : T) (n : nat) : list T :=
    map (fun k => nadd a (nmul (nofnat k) (ndiv (nsub b a) (nofnat (n - 1))))) (seq 0 n).
  (** numpy.argmax: first position of the maximum *)
  Fixpoint argmax_from (i best : nat) (x : T) (l : list T) : nat :=
    match l with
    | [] => best
    | y :: l' => if nltb x y then argmax_from (S i) i y l' else argmax_from (S i) best x l'
    end.
  Definition argmax (l : list T) : res nat :=
    match l with [] => Err ValueError | x :: l' => Ok (argmax_from 1 0 x l') end.

  (** * RF *)

  (** rf.py lines 160-164 (_fold_phase). *)
  Definition fold_phase (d lamb : T) : T :=
    let dphi := nrem d lamb in
    if nltb (ndiv lamb ntwo) (nabs dphi) then nsub dphi (nmul lamb (nsign dphi)) else dphi.

  (** rf.py lines 167-183 (_check_inputs). *)
  Definition cavity_passes : list string := ["CavityPass"; "RFCavityPass"].
  Definition rf_check_inputs (cavs bpms : option (list nat)) (n_steps : nat) (s : sc T) : res (list nat * list nat) :=
    let cavs := default (oRF (ORD s)) cavs in
    let bpms := default (oBPM (ORD s)) bpms in
    if (nTurns (INJ s) <? MIN_TURNS_FOR_LINEAR_FIT)%nat then Err ValueError
    else if negb (bool_decide (trackMode (INJ s) = "TBT")) then Err ValueError
    else if (n_steps <? MIN_TURNS_FOR_SINE_FIT)%nat then Err ValueError
    else
      let? _ := rmap (fun c =>
        let? e := idx (RING s) c in
        if negb (hasattr e "Frequency") then Err ValueError
        else let? p := attr_str e "PassMethod" in
             if bool_decide (p ∈ cavity_passes) then Ok tt else Err ValueError) cavs in
      Ok (cavs, bpms).

  (** the rows of numpy.reshape(l, (n, width)) *)
  Fixpoint chunks {A} (width n : nat) (l : list A) : list (list A) :=
    match n with 0 => [] | S n' => take width l :: chunks width n' (drop width l) end%nat.
  (** numpy.mean of the differences of two rows: NaN as soon as one entry is, and for rows of length zero *)
  Definition row_shift (row0 row : list (option T)) : option T :=
    match no_gaps row0, no_gaps row with
    | Some a, Some b => match b with [] => None | _ => Some (mean (zip_with nsub b a)) end
    | _, _ => None
    end.
  Definition std_of (l : list T) : T := nsqrt (variance l).

  Section Rf.
    Context (w : world T).
    (** numpy.polyfit(x, y, 1, w=...): slope and its error *)
    Context (line : list T -> list T -> list T -> res (option T * option T)).

    (** rf.py lines 116-127 (_get_tbt_energy_shift): slope and error. *)
    Definition turn_weight (row : list (option T)) : T :=
      ndiv n1 (nadd (ndiv (std_of (somes row)) (nsqrt (nofnat (length row)))) (ndiv n1 (nofZ 1000000000))).
    Definition energy_shift (bpms : list nat) : M (sc T) (option T * option T) :=
      let! r := bpm_reading w (Some bpms) false in
      let! s := get in
      if negb (length (r_x r) =? nTurns (INJ s) * length bpms)%nat then raise ValueError else
      let rows := chunks (length bpms) (nTurns (INJ s)) (r_x r) in
      let row0 := default [] (rows !! 0%nat) in
      let pts := omap (fun p : nat * list (option T) => y ← row_shift row0 p.2; Some (nofnat p.1, y, turn_weight p.2))
                   (zip (seq 0 (nTurns (INJ s))) rows) in
      if (length pts <? MIN_TURNS_FOR_LINEAR_FIT)%nat then ret (None, None)
      else lift (line (map (fun p => p.1.1) pts) (map (fun p => p.1.2) pts) (map (fun p => p.2) pts)).

    (** rf.py lines 31-34 and 73-76: the scan of one cavity parameter; every change is taken back. *)
    Definition rf_scan (cavs bpms : list nat) (param : string) (tests : list T) : M (sc T) (list (option T * option T)) :=
      mapM tests (fun d =>
        set_cavity_setpoints cavs DFloat [d] param ADD ;;;
        let! y := energy_shift bpms in
        set_cavity_setpoints cavs DFloat [nopp d] param ADD ;;;
        ret y).

    (** rf.py lines 109-113 (_check_data): the points that have a value. *)
    Definition usable (tests : list T) (ys : list (option T * option T)) : list (T * T * option T) :=
      omap (fun p : T * (option T * option T) => y ← p.2.1; Some (p.1, y, p.2.2)) (zip tests ys).
    Definition check_data (minimum : nat) (tests : list T) (ys : list (option T * option T)) : res (list (T * T * option T)) :=
      if (length (usable tests ys) <? minimum)%nat then Err RuntimeError else Ok (usable tests ys).

    (** result of the sine fit: a sin(2 pi x + b) + c with the variances of a and c *)
    Record sine := MkSine { f_a : T; f_b : T; f_c : T; f_va : T; f_vc : T }.
    (** result of the line fit: slope, offset and their variances *)
    Record straight := MkStraight { g_a : T; g_b : T; g_va : T; g_vb : T }.
    Context (sine_fit : list (T * T * option T) -> res sine).
    Context (line_fit : list (T * T * option T) -> res straight).
    (** scipy.optimize.fsolve from a starting point; [None] for NaN *)
    Context (root : (T -> T) -> T -> res (option T)).

    Definition imprecise (a va c vc : T) : bool :=
      nltb (nabs a) (nmul ntwo (nsqrt va)) || nltb (nabs c) (nmul ntwo (nsqrt vc)).
    Definition sine_at (f : sine) (x : T) : T := nadd (nmul (f_a f) (nsin (nadd (nmul (nmul ntwo npi) x) (f_b f)))) (f_c f).

    (** rf.py lines 20-60 (correct_rf_phase).  The last line of the correction prints [delta_phi[0]], which fails for
        the plain 0.0 set in line 52. *)
    Definition correct_rf_phase (cavs bpms : option (list nat)) (n_steps : nat) : M (sc T) unit :=
      let! s := get in
      let! (cavs, bpms) := lift (rf_check_inputs cavs bpms n_steps s) in
      let! lamb := lift (let? c := idx cavs 0 in let? e := idx (RING s) c in
                         let? f := attr_num e "FrequencySetPoint" in qdiv (nofZ SPEED_OF_LIGHT) f) in
      let tests := map (nmul lamb) (linspace (nopp nhalf) nhalf n_steps) in
      let! ys := rf_scan cavs bpms "TimeLag" tests in
      let! data := lift (check_data MIN_TURNS_FOR_SINE_FIT tests ys) in
      let! f := lift (sine_fit (map (fun p => (ndiv p.1.1 lamb, p.1.2, p.2)) data)) in
      if nltb (nabs (f_a f)) (nabs (f_c f)) then
        let! _ := lift (let? c := idx cavs 0 in let? e := idx (RING s) c in attr_num e "VoltageSetPoint") in
        raise RuntimeError
      else
        let sol x := sine_at f (ndiv x lamb) in
        let! k := lift (argmax (map (fun p => sol p.1.1) data)) in
        let at_k := default n0 (map (fun p => p.1.1) data !! k) in
        let first := default n0 (map (fun p => p.1.1) data !! 0%nat) in
        let! x := lift (root sol (nsub at_k (ndiv (nabs first) ntwo))) in
        if imprecise (f_a f) (f_va f) (f_c f) (f_vc f) then
          set_cavity_setpoints cavs DFloat [n0] "TimeLag" ADD ;;; raise TypeError
        else
          match x with
          | None => raise RuntimeError
          | Some x => set_cavity_setpoints cavs DFloat [fold_phase x lamb] "TimeLag" ADD
          end.

    (** rf.py lines 63-95 (correct_rf_frequency). *)
    Definition correct_rf_frequency (cavs bpms : option (list nat)) (n_steps : nat) (f0 f1 : T) : M (sc T) unit :=
      let! s := get in
      let! (cavs, bpms) := lift (rf_check_inputs cavs bpms n_steps s) in
      let tests := linspace f0 f1 n_steps in
      let! ys := rf_scan cavs bpms "Frequency" tests in
      let! data := lift (check_data 3 tests ys) in
      let! f := lift (line_fit data) in
      let! d := lift (if imprecise (g_a f) (g_va f) (g_b f) (g_vb f) then Ok n0 else qdiv (nopp (g_b f)) (g_a f)) in
      set_cavity_setpoints cavs DFloat [d] "Frequency" ADD.

    (** rf.py lines 98-106 (phase_and_energy_error): phase in degrees and energy error; the closed orbit is taken at
        the start of the lattice. *)
    Definition phase_and_energy_error (cavs : list nat) (s : sc T) : res (option T * option T) :=
      let? c := idx cavs 0 in
      let? e := idx (RING s) c in
      let? f := attr_num e "Frequency" in
      let? lamb := qdiv (nofZ SPEED_OF_LIGHT) f in
      let? z5 := idx (Z0 (INJ s)) 5 in
      let? z4 := idx (Z0 (INJ s)) 4 in
      Ok (x ← w_orbit w (RING s) [0%nat] 0%nat 5%nat; Some (nmul (fold_phase (ndiv (nsub x z5) lamb) lamb) (nofnat 360)),
          x ← w_orbit w (RING s) [0%nat] 0%nat 4%nat; Some (nsub z4 x)).
  End Rf.

  (** * Tune scan *)

  (** numpy.round: to the nearest integer, halves to the even one *)
  Definition nround (x : T) : T :=
    let f := nfloor x in
    let d := nsub x f in
    if nltb d nhalf then f
    else if nltb nhalf d then nadd f n1
    else if neqb (nmul ntwo (nfloor (ndiv f ntwo))) f then f else nadd f n1.
  (** the cast to an integer of a number between 0 and [bound] *)
  Definition to_index (bound : nat) (x : T) : nat :=
    length (List.filter (fun k => nleb (nofnat (S k)) x) (seq 0 bound)).
  Definition clip (x lo hi : T) : T := nmin (nmax x lo) hi.

  (** tune.py lines 100-105 (_golden_donut_inds); with one point the code divides zero by zero. *)
  Definition donut_index (r : nat) (n : nat) (trig : T -> T) (k : nat) : nat :=
    let x := nmul (nsqrt (ndiv (nofnat k) (nofnat (n - 1)))) (nmul (nofnat r) (trig (nmul (nofnat k) golden_phi))) in
    to_index (2 * r) (clip (nadd (nround x) (nofnat r)) n0 (nofnat (2 * r))).
  Definition golden_donut_inds (r1 r2 : nat) (n : nat) : res (list (nat * nat)) :=
    if (n =? 1)%nat then Err NonFinite
    else Ok (map (fun k => (donut_index r1 n ncos k, donut_index r2 n nsin k)) (seq 0 n)).

  (** what is stored for a grid point: number of turns and surviving fraction per turn; latest first *)
  Definition grid : Type := list ((nat * nat) * (nat * list T)).
  Definition stored (g : grid) (p : nat * nat) : option (nat * list T) :=
    match List.find (fun q => bool_decide (q.1 = p)) g with Some q => Some q.2 | None => None end.

  Section Tune.
    Context (w : world T).
    Context (quads1 quads2 : list nat) (rel1 rel2 : list T) (target : T) (nparts nturns : nat) (full_scan : bool).

    Definition quad_factors (f1 f2 : T) : list T := replicate (length quads1) f1 ++ replicate (length quads2) f2.
    Definition set_quads (sps : list T) : M (sc T) unit := set_magnet_setpoints (quads1 ++ quads2) DFloat sps false 1 REL false.
    (** tune.py lines 55-74: [Some] factors when the target is reached *)
    Fixpoint tune_loop (inds : list (nat * nat)) (g : grid) : M (sc T) (option (T * T) * grid) :=
      match inds with
      | [] => ret (None, g)
      | (q1, q2) :: inds' =>
          let! f1 := lift (idx rel1 q1) in
          let! f2 := lift (idx rel2 q2) in
          let sps := quad_factors f1 f2 in
          set_quads sps ;;;
          let! r := beam_transmission w (Some nparts) (Some nturns) in
          let g' := ((q1, q2), r) :: g in
          let! inv := lift (rmap (qdiv n1) sps) in
          set_quads inv ;;;
          if full_scan then tune_loop inds' g'
          else
            let! lst := lift (match last r.2 with Some x => Ok x | None => Err IndexError end) in
            if nleb target lst then set_quads sps ;;; ret (Some (f1, f2), g')
            else tune_loop inds' g'
      end.
    Definition nat_max (l : list nat) : nat := foldr max 0%nat l.
    Definition nmaxl (l : list T) : res T := match l with [] => Err ValueError | x :: l' => Ok (fold_left nmax l' x) end.
    (** tune.py lines 44-97 (tune_scan). *)
    Definition tune_scan (n_points : nat) : M (sc T) (T * T * grid) :=
      let! s := get in
      let! inds := lift (golden_donut_inds (length rel1 / 2) (length rel2 / 2) n_points) in
      let! _ := lift (let? a := idx quads1 0 in let? e := idx (RING s) a in Ok e) in
      let! _ := lift (let? a := idx quads2 0 in let? e := idx (RING s) a in Ok e) in
      let! (found, g) := tune_loop inds [] in
      match found with
      | Some (f1, f2) => ret (f1, f2, g)
      | None =>
          let! vals := lift (rmap (fun p => match stored g p with
                                  | Some (k, fr) => match last fr with Some x => Ok (k, x) | None => Err IndexError end
                                  | None => Err NonFinite end) inds) in
          let turns := map fst vals in
          let trans := map snd vals in
          let! mt := lift (nmaxl trans) in
          if (nat_max turns =? 0)%nat then raise RuntimeError
          else
            let! k := lift (argmax (if neqb mt n0 then map nofnat turns else trans)) in
            let! p := lift (idx inds k) in
            let! f1 := lift (idx rel1 p.1) in
            let! f2 := lift (idx rel2 p.2) in
            set_quads (quad_factors f1 f2) ;;;
            ret (f1, f2, g)
      end.
  End Tune.

  (** * Tune and chromaticity fits *)

  (** tune.py lines 132-145 (fit_tune).  [optics ring] is the result of [tune], None stands for the default target.
      scipy's fmin has no default for its starting point, so line 142 raises TypeError. *)
  Definition fit_tune (optics : list (elem T) -> res (list (option T))) (q_ords : list (list nat)) (target : option (list T)) : M (sc T) unit :=
    let! s := get in
    let! _ := lift (match target with None => let? t := optics (IDEALRING s) in Ok tt | Some _ => Ok tt end) in
    let! _ := lift (optics (RING s)) in
    let! width := lift (let? q := idx q_ords 0 in Ok (length q)) in
    let! _ := lift (rmap (fun fam => rmap (fun p : nat * nat =>
        let? e := idx (RING s) p.2 in
        let? v := attr_vec e "SetPointB" in
        let? x := idx v 1 in
        if (p.1 <? width)%nat then Ok x else Err IndexError) (zip (seq 0 (length fam)) fam)) q_ords) in
    raise TypeError.

  Section Chroma.
    (** at.get_chrom *)
    Context (chrom : list (elem T) -> list (option T)).
    (** scipy.optimize.fmin as a strategy: from the evaluations so far the next trial, or stop *)
    Context (strategy : list (list T * option T) -> option (list T)).

    (** numpy.sqrt(numpy.mean((nu - target) ** 2)) *)
    Definition rms_diff (nu : list (option T)) (target : list T) : res (option T) :=
      if (length nu =? length target)%nat then
        Ok (match no_gaps nu with
            | Some l => Some (nsqrt (mean (map (fun x => nmul x x) (zip_with nsub l target))))
            | None => None end)
      else Err ValueError.
    (** chroma.py lines 53-57 (_fit_chroma_fun); [init] are the initial set-points per family. *)
    Definition fit_chroma_fun (s_ords : list (list nat)) (init : list (list T)) (target : list T) (x : list T) : M (sc T) (option T) :=
      forM (zip (seq 0 (length s_ords)) (zip s_ords init)) (fun p =>
        let! xn := lift (idx x p.1) in
        set_magnet_setpoints p.2.1 DFloat (map (nadd xn) p.2.2) false 2 ABS true) ;;;
      let! s := get in
      lift (rms_diff (take 2 (chrom (RING s))) target).
    Fixpoint fmin (fuel : nat) (f : list T -> M (sc T) (option T)) (evals : list (list T * option T)) : M (sc T) (list (list T * option T)) :=
      match strategy evals with
      | None => ret evals
      | Some x =>
          match fuel with
          | 0 => raise OutOfFuel
          | S fuel' => let! y := f x in fmin fuel' f (evals ++ [(x, y)])
          end
      end%nat.
    (** chroma.py lines 33-50 (fit_chroma); returns the trials.  The array of initial set-points is of the type of the
        ordinates (zeros_like), so line 45 drops the fractional part.  The solution is not applied. *)
    Definition fit_chroma (fuel : nat) (s_ords : list (list nat)) (target : option (list (option T))) : M (sc T) (list (list T * option T)) :=
      let! s := get in
      let target := default (take 2 (chrom (IDEALRING s))) target in
      match no_gaps target with
      | None => ret []
      | Some target =>
          let! init := lift (rmap (fun fam => rmap (fun i =>
              let? e := idx (RING s) i in let? v := attr_vec e "SetPointB" in
              let? x := idx v 2 in Ok (ntrunc x)) fam) s_ords) in
          fmin fuel (fit_chroma_fun s_ords init target) []
      end.
  End Chroma.
End Scan.
Arguments sine T : clear implicits.
Arguments straight T : clear implicits.
Arguments grid T : clear implicits.
