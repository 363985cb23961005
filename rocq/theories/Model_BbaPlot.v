(** pySC/correction/bba.py: the data behind the figures of a beam-based alignment (plot_bba_results, plot_bpm_offsets_from_magnets).
    Drawing itself (matplotlib) is not modelled: a series of marks is the list of its points, and that matplotlib refuses negative
    error bars is left out.  NaN is [None]. *)
From Coq Require Import ZArith.
From stdpp Require Import base gmap strings list.
From Verif Require Import Num Base Model_Arr Model_SC Model_Err Model_Beam Model_Orbit Model_Scan Model_Stats Model_Bba Model_Loco Model_Resp Model_Plot Model_Figure.
Local Open Scope string_scope.
Local Open Scope list_scope.

(** [np.where(np.in1d(registered, bpms))[0]]: the positions of the registered BPMs that are among [bpms] *)
Fixpoint places_from (k : nat) (registered bpms : list nat) : list nat :=
  match registered with
  | [] => []
  | b :: l => if bool_decide (b ∈ bpms) then k :: places_from (S k) l bpms else places_from (S k) l bpms
  end.
Definition places (registered bpms : list nat) : list nat := places_from 0 registered bpms.

Section BbaPlot.
  Context {T : Type} {N : Num T} {G : Trig T}.

  (** [ax[n_dim]], [plabels[n_dim]]: there are two planes *)
  Definition panel (n_dim : nat) : res unit := idx [tt; tt] n_dim.

  (** bba.py lines 190-194: one call of errorbar, marks with position, height and error in micrometres *)
  Definition error_marks (mask : list bool) (x : list nat) (off err : list (option T)) : res (list (nat * option T * option T)) :=
    let? xs := masked mask x in
    let? ys := masked mask (map (fmap (nmul million)) off) in
    let? es := masked mask (map (fmap (nmul million)) err) in
    Ok (combine (combine xs ys) es).
  (** bba.py lines 182-199 (plot_bba_results): for each plane the marks of the accepted offsets and those of the failed ones *)
  Definition bba_results (bpm_ords : list (list nat)) (offs errs : list (list (option T))) (s : sc T) :
      res (list (list (nat * option T * option T) * list (nat * option T * option T))) :=
    let? errors := is_bba_errored offs errs in
    rmap (fun p : nat * list nat =>
      let '(n_dim, bpms) := p in
      let x := places (oBPM (ORD s)) bpms in
      let? mask := idx errors n_dim in
      let? _ := panel n_dim in
      let? off := idx offs n_dim in
      let? err := idx errs n_dim in
      let? good := error_marks (map negb mask) x off err in
      let? bad := error_marks mask x off err in
      Ok (good, bad)) (imap (fun n row => (n, row)) bpm_ords).

  (** [np.max] *)
  Definition peak (l : list T) : res T := match l with [] => Err ValueError | x :: l' => Ok (fold_left nmax l' x) end.
  (** bba.py line 205: the edges of the bins, a third as many as BPMs *)
  Definition offset_edges (fom : list (list T)) (width : nat) : res (list T) :=
    let? m := peak (map nabs (concat fom)) in
    Ok (map (nmul (nmul (ndiv (nofZ 11) (nofZ 10)) m)) (symmetric_steps n1 (width / 3))).
  (** [np.histogram(row, edges)]: the last bin contains its upper edge *)
  Definition bin_counts (edges row : list T) : list nat :=
    let n := (length edges - 1)%nat in map (fun k => length (List.filter (in_bin edges n k) row)) (seq 0 n).
  (** bba.py lines 224-227: marks of one colour; nothing is drawn when all offsets selected are NaN, that is when there are none *)
  Definition offset_marks (mask : list bool) (x : list nat) (row : list T) : res (list (nat * T)) :=
    let? ys := masked mask row in
    match ys with
    | [] => Ok []
    | _ => let? xs := masked mask x in Ok (combine xs (map (nmul million) ys))
    end.
  (** bba.py lines 202-234 (plot_bpm_offsets_from_magnets): for each plane the line of the histogram, and the marks of the good and of
      the failed BPMs.  [np.array([])] has no second dimension. *)
  Definition offsets_from_magnets (bpm_ords mag_ords : list (list nat)) (flags : list (list bool)) (s : sc T) :
      res (list (list (T * nat)) * list (list (nat * T) * list (nat * T))) :=
    let? fom := bpm_offset_from_mag bpm_ords mag_ords s in
    let? width := match bpm_ords with [] => Err IndexError | row :: _ => Ok (length row) end in
    let? edges := if (width =? 1)%nat then Ok [] else offset_edges fom width in
    let? lines := rmap (fun n_dim =>
      let? row := idx fom n_dim in
      if (width =? 1)%nat then let? h := histogram row in Ok (combine (map (nmul million) (tail h.2)) h.1)
      else Ok (combine (map (nmul million) (tail edges)) (bin_counts edges row))) (seq 0 (length bpm_ords)) in
    let? marks := rmap (fun p : nat * list nat =>
      let '(n_dim, bpms) := p in
      let x := places (oBPM (ORD s)) bpms in
      let? flag := idx flags n_dim in
      let? row := idx fom n_dim in
      let? _ := panel n_dim in
      let? good := offset_marks (map negb flag) x row in
      let? bad := offset_marks flag x row in
      Ok (good, bad)) (imap (fun n row => (n, row)) bpm_ords) in
    Ok (lines, marks).
End BbaPlot.
