(** The rest of plotting/plot_phase_space.py: the mark of the closed orbit and what drawing itself refuses; matlab_index.py SCplotPhaseSpace.
    Drawing (matplotlib) is modelled only in what it refuses here. *)
From Coq Require Import ZArith.
From stdpp Require Import base gmap strings list.
From Verif Require Import Num Base Model_Arr Model_SC Model_Err Model_Beam Model_Orbit Model_Scan Model_Plot.
Local Open Scope string_scope.
Local Open Scope list_scope.

Section PhaseFig.
  Context {T : Type} {N : Num T} {G : Trig T}.
  (** Results of the search for the closed orbit, one row per place: the first search, and the one that starts from the mean of the tracked
      coordinates (line 28) *)
  Variable search search_from_mean : list (elem T) -> list nat -> list (list (option T)).

  (** [np.isnan(CO[0])] after [np.squeeze] (lines 25-26): one row loses its dimension; the first of several rows has no truth value *)
  Definition squeezed (rows : list (list (option T))) : res (list (option T)) :=
    match rows with [r] => Ok r | [] => Err IndexError | _ => Err ValueError end.
  Definition is_lost (r : list (option T)) : bool := match r with None :: _ => true | _ => false end.
  (** lines 24-33 *)
  Definition closed_orbit (ring : list (elem T)) (ords : list nat) (plotCO : bool) : res (list (option T)) :=
    if plotCO then
      let? r := squeezed (search ring ords) in
      if is_lost r then
        let? r' := squeezed (search_from_mean ring ords) in
        if is_lost r' then Ok (replicate 6 None) else Ok r'
      else Ok r
    else Ok (replicate 6 None).
  (** lines 36 and 38: scaled, longitudinal coordinates exchanged *)
  Definition orbit_mark (co : list (option T)) : res (list (option T)) :=
    rmap (fun c => let? x := idx co (exchanged c) in let? k := idx scales (exchanged c) in Ok ((fun x => nmul x k) <$> x)) (seq 0 6).
  (** line 46: [scatter] needs as many colours (turns) as points (places times turns) *)
  Definition scattered (n_particles n_places n_turns : nat) : res unit :=
    if (n_particles =? 0)%nat || (n_places * n_turns =? n_turns)%nat then Ok tt else Err ValueError.
  (** lines 10-60 (plot_phase_space).  The injection point (line 35) is computed before the closed orbit here.  Line 52 reads the name of the
      element at the first place; line 53 needs the last of the drawn particles. *)
  Definition phase_figure (w : world T) (ords : list nat) (custom_bunch : option (list (list T))) (n_particles n_turns : option nat) (plotCO : bool) :
      M (sc T) (nat * nat * (nat -> nat -> nat -> option T) * list T * list (option T)) :=
    let! s := get in
    let! x := phase_space w ords custom_bunch n_particles n_turns in
    let '(np, nt, pts, z) := x in
    let! co := lift (closed_orbit (RING s) ords plotCO) in
    let! mark := lift (orbit_mark co) in
    lift (scattered np (length ords) nt) ;;;
    lift (let? i := idx ords 0 in let? e := idx (RING s) i in Ok tt) ;;;
    (if (np =? 0)%nat then raise UnboundLocal else ret tt) ;;;
    ret (np, nt, pts, z, mark).

  (** matlab_index.py lines 221-222; the bunch by default is an empty list, and a list has no shape (plot_phase_space.py line 69) *)
  Inductive bunch_arg := NoBunch | ListBunch (l : list T) | ArrayBunch (Z : list (list T)).
  Definition SCplotPhaseSpace (w : world T) (ords : list nat) (bunch : bunch_arg) (n_particles n_turns : option nat) (plotCO : bool) : M (sc T) (nat * nat * (nat -> nat -> nat -> option T) * list T * list (option T)) :=
    match bunch with
    | NoBunch => phase_figure w ords None n_particles n_turns plotCO
    | ArrayBunch Z => phase_figure w ords (Some Z) n_particles n_turns plotCO
    | ListBunch _ => match n_particles with Some _ => raise ValueError | None => raise AttributeError end
    end.
  Definition default_bunch : bunch_arg := ListBunch [].
End PhaseFig.
Arguments bunch_arg : clear implicits.
