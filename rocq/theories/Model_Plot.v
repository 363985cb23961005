(** The data behind the figures: plotting/plot_support.py, plotting/plot_phase_space.py and the ranges of plotting/plot_lattice.py.
    Drawing itself (matplotlib) is not modelled: a drawn line is the list of its points. *)
From Coq Require Import ZArith.
From stdpp Require Import base gmap strings list.
From Verif Require Import Num Base Model_Arr Model_SC Model_Err Model_Beam Model_Orbit Model_Scan.
Local Open Scope string_scope.
Local Open Scope list_scope.

Section Plot.
  Context {T : Type} {N : Num T} {G : Trig T}.
  Definition polyline := list (T * T).

  (** plot_support.py lines 119-126 (_plot_support): one line, or two when the structure contains the end of the lattice.  Where the
      denominator of line 123 vanishes numpy goes on with infinities; the model stops. *)
  Definition plot_line (s_locs vals : T * T) (circ : T) : res (list polyline) :=
    if nleb s_locs.1 s_locs.2 then Ok [[(s_locs.1, vals.1); (s_locs.2, vals.2)]]
    else
      let? q := qdiv (nmul s_locs.2 (nsub vals.2 vals.1)) (nadd (nsub s_locs.2 s_locs.1) circ) in
      let val_ring_end := nsub vals.2 q in
      Ok [[(s_locs.1, vals.1); (circ, val_ring_end)]; [(n0, val_ring_end); (s_locs.2, vals.2)]].

  (** [SC.RING[i].__dict__[name]], an array *)
  Definition dict_vec (s : sc T) (i : nat) (name : string) : res (list T) :=
    let? e := idx (RING s) i in
    match e !! name with None => Err KeyError | Some (VVec l) => Ok l | Some _ => Err TypeError end.

  (** lines 36-48: the structures with an end inside the limits; their offsets at both ends, and their rolls *)
  Definition within (lims : T * T) (x : T) : bool := nleb lims.1 x && nleb x lims.2.
  Fixpoint supports_in_range (lims : T * T) (s : sc T) (t : stype) (pairs : list (nat * nat)) : res (list (list T * list T * list T)) :=
    match pairs with
    | [] => Ok []
    | p :: pairs' =>
        let? a := idx (spos (RING s)) p.1 in
        let? b := idx (spos (RING s)) p.2 in
        if within lims a || within lims b then
          let? off_a := dict_vec s p.1 (stype_str t +:+ "Offset") in
          let? off_b := dict_vec s p.2 (stype_str t +:+ "Offset") in
          let? roll := dict_vec s p.1 (stype_str t +:+ "Roll") in
          let? rest := supports_in_range lims s t pairs' in
          Ok ((off_a, off_b, roll) :: rest)
        else supports_in_range lims s t pairs'
    end.
  Definition million : T := nofZ 1000000.
  (** lines 87-98: the lines of the [i]-th registered structure are drawn with the [i]-th data found *)
  Definition draw_structure (s : sc T) (found : list (list T * list T * list T)) (n_dim i : nat) (p : nat * nat) : res (list polyline * list polyline) :=
    let sp := spos (RING s) in
    let circ := default n0 (last sp) in
    let? s1 := idx sp p.1 in
    let? s2 := idx sp p.2 in
    let? d := idx found i in
    let? a := idx d.1.1 n_dim in
    let? b := idx d.1.2 n_dim in
    let? off := plot_line (s1, s2) (nmul million a, nmul million b) circ in
    let? r := idx d.2 n_dim in
    let? roll := plot_line (s1, s2) (nmul million r, nmul million r) circ in
    Ok (off, roll).
  Definition indexed {A} (l : list A) : list (nat * A) := imap (fun i x => (i, x)) l.
  (** lines 27-48 and 80-98 (plot_support): the lines of the structures, by dimension, type and structure.  The rest of the figure (the marks
      of magnets and monitors) is left out. *)
  Definition plot_support (x_lim : option (T * T)) (s : sc T) : res (list (list (list (list polyline * list polyline)))) :=
    let circ := default n0 (last (spos (RING s))) in
    let lims := default (n0, circ) x_lim in
    let? found := rmap (fun t => supports_in_range lims s t (oSupport t (ORD s))) SUPPORT_TYPES in
    rmap (fun n_dim =>
      rmap (fun kt => let? f := idx found kt.1 in
              rmap (fun ip => draw_structure s f n_dim ip.1 ip.2) (indexed (oSupport kt.2 (ORD s)))) (indexed SUPPORT_TYPES)) (seq 0 3).

  (** plot_lattice.py lines 118-127 (_get_s_range); [ring_range] is the range stored with the lattice *)
  Definition get_s_range (sp : list T) (ring_range : T * T) (s_range : option (T * T)) (indices : option (list nat)) (n_sectors : option T) : res (T * T) :=
    match s_range, indices, n_sectors with
    | Some r, _, _ => Ok r
    | None, Some l, _ =>
        match l with
        | [] => Err ValueError
        | i :: l' => let? a := idx sp (fold_left Nat.min l' i) in let? b := idx sp (fold_left Nat.max l' i) in Ok (a, b)
        end
    | None, None, Some n => let? e := qdiv (default n0 (last sp)) n in Ok (n0, e)
    | None, None, None => Ok ring_range
    end.

  (** plot_phase_space.py lines 60-74 (_check_input) *)
  Definition check_bunch (w : world T) (custom_bunch : option (list (list T))) (n_particles n_turns : option nat) : M (sc T) (list (list T) * nat * nat) :=
    let! s := get in
    let nt := default (nTurns (INJ s)) n_turns in
    match custom_bunch, n_particles with
    | Some _, Some _ => raise ValueError
    | Some Z, None => if negb (length Z =? 6)%nat then raise ValueError else ret (Z, length (default [] (Z !! 0%nat)), nt)
    | None, _ =>
        let np := default (nParticles (INJ s)) n_particles in
        let! Z := generate_bunches w np in
        ret (Z, np, nt)
    end.
  Definition light : T := nofZ SPEED_OF_LIGHT.
  Definition scales : list T := [million; million; million; million; nofZ 100; n1].
  (** lines 36-38: longitudinal coordinates exchanged *)
  Definition exchanged (c : nat) : nat := match c with 4%nat => 5%nat | 5%nat => 4%nat | _ => c end.
  (** lines 14-26 and 33-38 (plot_phase_space): the coordinate [c] drawn for a particle and turn, at the first of the places [ords]; and the
      injection point.  A particle is blanked where its first coordinate is missing (line 15).  The closed orbit mark is left out. *)
  Definition slippage (s : sc T) : res (option T) :=
    let? cav := idx (oRF (ORD s)) 0 in
    let? e := idx (RING s) cav in
    match e !! "PassMethod" with
    | None => Err AttributeError
    | Some (VStr "RFCavityPass") =>
        let circ := default n0 (last (spos (RING s))) in
        let? h := attr_num e "HarmNumber" in
        let? f := attr_num e "Frequency" in
        let? q := qdiv (nmul light h) f in
        Ok (Some (nsub q circ))
    | Some _ => Ok None
    end.
  Definition phase_space (w : world T) (ords : list nat) (custom_bunch : option (list (list T))) (n_particles n_turns : option nat) :
      M (sc T) (nat * nat * (nat -> nat -> nat -> option T) * list T) :=
    let! s := get in
    let! x := check_bunch w custom_bunch n_particles n_turns in
    let '(Z, np, nt) := x in
    let raw c p t := match w_track w (RING s) Z nt ords 0%nat p 0%nat t with None => None | Some _ => w_track w (RING s) Z nt ords c p 0%nat t end in
    let! slip := lift (slippage s) in
    let shifted c p t :=
      match slip with
      | Some d => if (c =? 5)%nat then (fun x => nsub x (nmul d (nofnat t))) <$> raw c p t else raw c p t
      | None => raw c p t
      end in
    let scaled c p t := (fun x => nmul x (default n1 (scales !! c))) <$> shifted c p t in
    let! z0 := lift (bcast nmul (Z0 (INJ s)) scales) in
    let! z := lift (rmap (idx z0) (map exchanged (seq 0 6))) in
    ret (np, nt, (fun c p t => scaled (exchanged c) p t), z).
End Plot.
Arguments polyline T : clear implicits.
