(** The data behind the figures of the scans: pySC/correction/tune.py (plot_scan), pySC/core/beam.py (plot_transmission) and
    pySC/correction/rf.py (_plot_progress, _plot_results), with the loops that call them.
    Drawing itself (matplotlib) is not modelled: an image is the array it shows, a line or a series of marks the list of its points;
    fonts, colours and the constant labels are left out.  NaN is [None]. *)
From Coq Require Import ZArith.
From stdpp Require Import base gmap strings list.
From Verif Require Import Num Base Model_Arr Model_SC Model_Err Model_Beam Model_Orbit Model_Scan Model_Resp Model_Plot Model_Figure.
Local Open Scope string_scope.
Local Open Scope list_scope.

Section ScanPlot.
  Context {T : Type} {N : Num T} {G : Trig T}.

  (** * Transmission *)

  Definition percent (x : T) : T := nmul (nofnat 100) x.
  (** beam.py lines 170-179 (plot_transmission): the line of the fractions over their positions, the dotted line, the limits of the
      axes *)
  Record transmission_figure := MkTransmissionFigure {
    t_line : list (nat * T); t_dotted : list (nat * T); t_xlim : nat * nat; t_ylim : T * T }.
  Definition plot_transmission (fractions : list T) (n_turns : nat) (lost_at : T) : transmission_figure :=
    let level := percent (nsub n1 lost_at) in
    MkTransmissionFigure (imap (fun i f => (i, percent f)) fractions) [(0%nat, level); (n_turns, level)] (0%nat, n_turns) (n0, nofnat 103).

  (** * Tune scan *)

  (** [numpy.round(x, 5)] *)
  Definition round5 (x : T) : T := ndiv (nround (nmul x (nofZ 100000))) (nofZ 100000).
  (** tune.py lines 113-114, one row; an index of -1 is the last one *)
  Definition ticks (n : nat) : list nat := [0; n / 2; n - 1]%nat.
  (** tune.py lines 122-123, the labels of one family; with no settings at all there is nothing to index *)
  Definition tick_labels (rel : list T) : res (list T) :=
    rmap (fun k => let? f := idx rel k in Ok (round5 (nsub f n1))) (ticks (length rel)).
  (** tune.py lines 108-129 (plot_scan).  [imshow] shows the entry in row [i] and column [j] of an array at height [i] and
      horizontal position [j]. *)
  Record scan_figure := MkScanFigure {
    s_transmission : list (list (option T)); s_turns : list (list (option nat));
    s_xlabel : string; s_ylabel : string; s_xticks : list (nat * T); s_yticks : list (nat * T) }.
  Definition plot_scan (fin_trans : list (list (option T))) (max_turns : list (list (option nat))) (name1 name2 : string) (rel1 rel2 : list T) : res scan_figure :=
    let? labels1 := tick_labels rel1 in
    let? labels2 := tick_labels rel2 in
    Ok (MkScanFigure (map (map (fmap percent)) fin_trans) max_turns name1 name2
          (combine (ticks (length rel1)) labels1) (combine (ticks (length rel1)) labels2)).

  (** tune.py lines 50-51, 58-59: the arrays as they are filled so far, and the slice [transmission[:, :, -1]] *)
  Definition turns_array (n1' n2' : nat) (g : grid T) : list (list (option nat)) :=
    map (fun q1 => map (fun q2 => fst <$> stored g (q1, q2)) (seq 0 n2')) (seq 0 n1').
  Definition last_array (n1' n2' : nat) (g : grid T) : list (list (option T)) :=
    map (fun q1 => map (fun q2 => stored g (q1, q2) ≫= fun r => last r.2) (seq 0 n2')) (seq 0 n1').

  Section Tune.
    Context (w : world T).
    Context (quads1 quads2 : list nat) (rel1 rel2 : list T) (target : T) (nparts nturns : nat) (full_scan : bool).
    Context (name1 name2 : string).

    (** tune.py lines 62-66: the two figures drawn after a step; [transmission[:, :, -1]] needs at least one turn *)
    Definition step_figures (g : grid T) (fractions : list T) (lost_at : T) : res (scan_figure * transmission_figure) :=
      if (nturns =? 0)%nat then Err IndexError
      else
        let? f := plot_scan (last_array (length rel1) (length rel2) g) (turns_array (length rel1) (length rel2) g) name1 name2 rel1 rel2 in
        Ok (f, plot_transmission fractions nturns lost_at).
    (** tune.py lines 55-74 with [do_plot] *)
    Fixpoint tune_loop_drawn (inds : list (nat * nat)) (g : grid T) : M (sc T) (option (T * T) * grid T * list (scan_figure * transmission_figure)) :=
      match inds with
      | [] => ret (None, g, [])
      | (q1, q2) :: inds' =>
          let! f1 := lift (idx rel1 q1) in
          let! f2 := lift (idx rel2 q2) in
          let sps := quad_factors quads1 quads2 f1 f2 in
          set_quads quads1 quads2 sps ;;;
          let! r := beam_transmission w (Some nparts) (Some nturns) in
          let g' := ((q1, q2), r) :: g in
          let! inv := lift (rmap (qdiv n1) sps) in
          set_quads quads1 quads2 inv ;;;
          let! s := get in
          let! fig := lift (step_figures g' r.2 (beamLostAt (INJ s))) in
          if full_scan then let! rest := tune_loop_drawn inds' g' in ret (rest.1, fig :: rest.2)
          else
            let! lst := lift (match last r.2 with Some x => Ok x | None => Err IndexError end) in
            if nleb target lst then set_quads quads1 quads2 sps ;;; ret (Some (f1, f2), g', [fig])
            else let! rest := tune_loop_drawn inds' g' in ret (rest.1, fig :: rest.2)
      end.
  End Tune.

  (** * RF scans *)

  (** rf.py lines 130-142 (_plot_progress): dots and dashed line over the turns, marks with error bars over the settings *)
  Record progress_figure := MkProgressFigure {
    p_dots : list (nat * option T); p_dashed : list (nat * T); p_bars : list (T * option T * option T) }.
  Definition plot_progress (tests : list T) (ys : list (option T * option T)) (mean_tbt : list (option T)) : res progress_figure :=
    match last (omap fst ys) with
    | None => Err IndexError
    | Some slope =>
        let all := ys ++ replicate (length tests - length ys) (None, None) in
        Ok (MkProgressFigure (imap (fun i m => (i, nmul million <$> m)) mean_tbt)
              (imap (fun i _ => (i, nmul (nmul million (nofnat i)) slope)) mean_tbt)
              (zip_with (fun x (y : option T * option T) => (x, nmul million <$> y.1, nmul million <$> y.2)) tests all))
    end.
  (** rf.py lines 145-157 (_plot_results): measured points, fitted curve, the marks "Initial" and "Corrected" *)
  Record results_figure := MkResultsFigure {
    r_measured : list (T * T * option T); r_fit : list (T * T); r_initial : T * T; r_corrected : T * T }.
  Definition plot_results (data : list (T * T * option T)) (fit : T -> T) (corrected x_scale : T) : results_figure :=
    MkResultsFigure (map (fun p => (nmul x_scale p.1.1, nmul million p.1.2, nmul million <$> p.2)) data)
      (map (fun p => (nmul x_scale p.1.1, nmul million (fit p.1.1))) data)
      (nmul x_scale n0, nmul million (fit n0)) (nmul x_scale corrected, nmul million n0).

  Section Rf.
    Context (w : world T).
    Context (line : list T -> list T -> list T -> res (option T * option T)).

    (** rf.py lines 116-127 (_get_tbt_energy_shift) with its third result, the mean shift of every turn *)
    Definition energy_shift_turns (bpms : list nat) : M (sc T) ((option T * option T) * list (option T)) :=
      let! r := bpm_reading w (Some bpms) false in
      let! s := get in
      if negb (length (r_x r) =? nTurns (INJ s) * length bpms)%nat then raise ValueError else
      let rows := chunks (length bpms) (nTurns (INJ s)) (r_x r) in
      let row0 := default [] (rows !! 0%nat) in
      let means := map (row_shift row0) rows in
      let pts := omap (fun p : nat * list (option T) => y ← row_shift row0 p.2; Some (nofnat p.1, y, turn_weight p.2))
                   (zip (seq 0 (nTurns (INJ s))) rows) in
      if (length pts <? MIN_TURNS_FOR_LINEAR_FIT)%nat then ret ((None, None), means)
      else let! y := lift (line (map (fun p => p.1.1) pts) (map (fun p => p.1.2) pts) (map (fun p => p.2) pts)) in ret (y, means).
    (** rf.py lines 31-36 and 73-78 with [plot_progress]; [done] are the results so far *)
    Fixpoint rf_scan_drawn (cavs bpms : list nat) (param : string) (tests todo : list T) (done : list (option T * option T)) :
        M (sc T) (list (option T * option T) * list progress_figure) :=
      match todo with
      | [] => ret (done, [])
      | d :: todo' =>
          set_cavity_setpoints cavs DFloat [d] param ADD ;;;
          let! y := energy_shift_turns bpms in
          set_cavity_setpoints cavs DFloat [nopp d] param ADD ;;;
          let! f := lift (plot_progress tests (done ++ [y.1]) y.2) in
          let! rest := rf_scan_drawn cavs bpms param tests todo' (done ++ [y.1]) in
          ret (rest.1, f :: rest.2)
      end.

    Context (sine_fit : list (T * T * option T) -> res (sine T)).
    Context (line_fit : list (T * T * option T) -> res (straight T)).
    Context (root : (T -> T) -> T -> res (option T)).

    (** the scan of lines 31-36 and 73-78, with figures or without *)
    Definition rf_scan_shown (progress : bool) (cavs bpms : list nat) (param : string) (tests : list T) : M (sc T) (list (option T * option T)) :=
      if progress then let! r := rf_scan_drawn cavs bpms param tests tests [] in ret r.1 else rf_scan w line cavs bpms param tests.
    (** rf.py lines 20-60 (correct_rf_phase) with [plot_results], compare [correct_rf_phase]: returns the final figure *)
    Definition correct_rf_phase_drawn (progress : bool) (cavs bpms : option (list nat)) (n_steps : nat) : M (sc T) results_figure :=
      let! s := get in
      let! (cavs, bpms) := lift (rf_check_inputs cavs bpms n_steps s) in
      let! lamb := lift (let? c := idx cavs 0 in let? e := idx (RING s) c in
                         let? f := attr_num e "FrequencySetPoint" in qdiv (nofZ SPEED_OF_LIGHT) f) in
      let tests := map (nmul lamb) (linspace (nopp nhalf) nhalf n_steps) in
      let! ys := rf_scan_shown progress cavs bpms "TimeLag" tests in
      let! data := lift (check_data MIN_TURNS_FOR_SINE_FIT tests ys) in
      let! f := lift (sine_fit (map (fun p => (ndiv p.1.1 lamb, p.1.2, p.2)) data)) in
      if nltb (nabs (f_a f)) (nabs (f_c f)) then
        let! _ := lift (let? c := idx cavs 0 in let? e := idx (RING s) c in attr_num e "VoltageSetPoint") in
        raise RuntimeError
      else
        let sol x := sine_at f (ndiv x lamb) in
        let! k := lift (argmax (map (fun p => sol p.1.1) data)) in
        let at_k := default n0 (map (fun p => p.1.1) data !! k) in
        let first := default n0 (map (fun p => p.1.1) data !! 0%nat) in
        let! x := lift (root sol (nsub at_k (ndiv (nabs first) ntwo))) in
        if imprecise (f_a f) (f_va f) (f_c f) (f_vc f) then
          set_cavity_setpoints cavs DFloat [n0] "TimeLag" ADD ;;; raise TypeError
        else
          match x with
          | None => raise RuntimeError
          | Some x =>
              set_cavity_setpoints cavs DFloat [fold_phase x lamb] "TimeLag" ADD ;;;
              let! scale := lift (qdiv (nofnat 360) lamb) in
              ret (plot_results data sol (fold_phase x lamb) scale)
          end.
    (** rf.py lines 63-95 (correct_rf_frequency) with [plot_results], compare [correct_rf_frequency] *)
    Definition correct_rf_frequency_drawn (progress : bool) (cavs bpms : option (list nat)) (n_steps : nat) (f0 f1 : T) : M (sc T) results_figure :=
      let! s := get in
      let! (cavs, bpms) := lift (rf_check_inputs cavs bpms n_steps s) in
      let tests := linspace f0 f1 n_steps in
      let! ys := rf_scan_shown progress cavs bpms "Frequency" tests in
      let! data := lift (check_data 3 tests ys) in
      let! f := lift (line_fit data) in
      let! d := lift (if imprecise (g_a f) (g_va f) (g_b f) (g_vb f) then Ok n0 else qdiv (nopp (g_b f)) (g_a f)) in
      set_cavity_setpoints cavs DFloat [d] "Frequency" ADD ;;;
      ret (plot_results data (fun x => nadd (nmul x (g_a f)) (g_b f)) d (ndiv n1 (nofZ 1000))).
  End Rf.
End ScanPlot.
Arguments transmission_figure T : clear implicits.
Arguments scan_figure T : clear implicits.
Arguments progress_figure T : clear implicits.
Arguments results_figure T : clear implicits.
