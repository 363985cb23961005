(** C109: SC.plot and SCplotBPMreading. *)
From Coq Require Import Reals Lra Lia QArith ZArith.
From stdpp Require Import base gmap strings list.
From Verif Require Import Num Base Examples Model_Arr Model_SC Model_Err Model_Beam Model_BeamPlot Model_PlotFlag Lemmas Proofs_Beam Spec Properties_Circ Properties_Support Properties_Interp Properties_Model Properties_Beam Properties_Beam2 Properties_Figure Properties_BeamPlot.
Local Open Scope string_scope.
Local Open Scope list_scope.

(** * Specification *)
(** A script makes calls one after the other and goes on after a failed one *)
Inductive call := Read (req : option (list nat)) (errors : bool) | ReadAll | Show.
Inductive answer T := Values (r : reading T) | Everywhere (r : list (option T) * list (option T) * list (tracked T)) | Nothing.
Arguments Values {_} _.
Arguments Everywhere {_} _.
Arguments Nothing {_}.
(** what the script sees of a call: the failure or the values returned; the figure is only looked at *)
Definition seen {T} {N : Num T} {G : Trig T} (w : world T) (c : call) (st : flagged T) : res (answer T) * flagged T :=
  match c with
  | Read req errors => match flagged_reading w req errors st with (Ok (r, _), st') => (Ok (Values r), st') | (Err e, st') => (Err e, st') end
  | ReadAll => match flagged_all w st with (Ok (r, _), st') => (Ok (Everywhere r), st') | (Err e, st') => (Err e, st') end
  | Show => match plot_bpm_reading w st with (Ok _, st') => (Ok Nothing, st') | (Err e, st') => (Err e, st') end
  end.
Fixpoint session {T} {N : Num T} {G : Trig T} (w : world T) (cs : list call) (st : flagged T) : list (res (answer T)) * flagged T :=
  match cs with
  | [] => ([], st)
  | c :: cs => let '(r, st1) := seen w c st in let '(rs, st2) := session w cs st1 in (r :: rs, st2)
  end.
Definition failed {A} (r : res A) : bool := match r with Err _ => true | Ok _ => false end.
(** some SCplotBPMreading of the script failed *)
Definition show_failed {T} (cs : list call) (rs : list (res (answer T))) : bool :=
  existsb (fun p : call * res (answer T) => match p.1 with Show => failed p.2 | _ => false end) (combine cs rs).
(** chambers that can be drawn, and registered monitors within the ring *)
Definition drawable (s : sc R) : Prop := Forall shaped (RING s) /\ forall o, o ∈ oBPM (ORD s) -> (o < length (RING s))%nat.

(** * Lemmas *)
Section Lemmas.
  Context (w : world R).
  Lemma quiet_drawn req errors : pres (@quiet R) (bpm_reading_drawn w req errors).
  Proof. unfold bpm_reading_drawn. repeat first [pres_step|apply quiet_one_shot]. Qed.
  Lemma drawn_fails req errors (s s' : sc R) e : bpm_reading w req errors s = (Err e, s') -> drawable s -> bpm_reading_drawn w req errors s = (Err e, s').
  Proof.
    intros H [Hs Hin]. unfold bpm_reading in H. unfold bpm_reading_drawn. unfold bind at 1, get in H. unfold bind at 1, get. cbn beta iota in *.
    unfold bind at 1 in H. unfold bind at 1. destruct (lift _ s) as [[ords|e1] s1] eqn:H1; [|by injection H as -> ->].
    apply lift_ok in H1 as [H1 ->].
    assert (forall o, o ∈ ords -> (o < length (RING s))%nat) as Hin'.
    { intros o Ho. apply Hin. destruct req as [l|]; [|congruence]. unfold only_registered in H1. destruct (List.filter _ _) as [|x f] eqn:E; [discriminate|]. injection H1 as <-. rewrite <- E in Ho. apply elem_of_list_In, filter_In in Ho as [Ho _]. by apply elem_of_list_In. }
    unfold bind at 1 in H. unfold bind at 1. destruct (mapM _ _ s) as [[shots|e1] s2] eqn:H2; [|by injection H as -> ->].
    unfold bind at 1 in H. unfold bind at 1. destruct (lift _ s2) as [[sums|e1] s3] eqn:H3; [|by injection H as -> ->]. apply lift_ok in H3 as [_ ->].
    set (nb := length ords) in *. set (nt := nTurns (INJ s)) in *.
    destruct (panel_total s ords 0 (arrival nb nt (fun b t => mean_pos 0 (cell_of shots b t))) [] Hs Hin') as [p1 E1]; [by rewrite arrival_length|].
    destruct (panel_total s ords 1 (arrival nb nt (fun b t => mean_pos 1 (cell_of shots b t))) [] Hs Hin') as [p2 E2]; [by rewrite arrival_length|].
    unfold bind at 1, lift at 1. unfold reading_figure. rewrite E1. cbn [rbind]. rewrite E2. cbn [rbind]. destruct (decide _).
    - unfold bind at 1 in H. unfold bind at 1. destruct (lift _ s2) as [[xs|e1] s4]; [|by injection H as -> ->]. unfold bind at 1 in H. unfold bind at 1. destruct (lift _ s4) as [[ys|e1] s5]; [|by injection H as -> ->].
      unfold bind at 1 in H. unfold bind at 1. destruct (lift _ s5) as [[ss|e1] s6]; [|by injection H as -> ->]. discriminate H.
    - destruct (errors && _)%bool; [|discriminate H].
      unfold bind at 1 in H. unfold bind at 1. destruct (lift _ s2) as [[xs|e1] s4]; [|by injection H as -> ->]. unfold bind at 1 in H. unfold bind at 1. destruct (lift _ s4) as [[ys|e1] s5]; [|by injection H as -> ->]. discriminate H.
  Qed.
  Lemma reading_off req errors s : flagged_reading w req errors (s, false) = match bpm_reading w req errors s with (Ok r, s') => (Ok (r, None), (s', false)) | (Err e, s') => (Err e, (s', false)) end.
  Proof. unfold flagged_reading, bind, gets, on_machine. cbn [fst snd]. by destruct (bpm_reading w req errors s) as [[r|e] s']. Qed.
  Lemma reading_on req errors s : flagged_reading w req errors (s, true) = match bpm_reading_drawn w req errors s with (Ok (r, f), s') => (Ok (r, Some f), (s', true)) | (Err e, s') => (Err e, (s', true)) end.
  Proof. unfold flagged_reading, bind, gets, on_machine. cbn [fst snd]. by destruct (bpm_reading_drawn w req errors s) as [[[r f]|e] s']. Qed.
  Lemma all_off s : flagged_all w (s, false) = match all_elements_reading w s with (Ok r, s') => (Ok (r, None), (s', false)) | (Err e, s') => (Err e, (s', false)) end.
  Proof. unfold flagged_all, bind, gets, on_machine. cbn [fst snd]. by destruct (all_elements_reading w s) as [[r|e] s']. Qed.
  Lemma all_on s : flagged_all w (s, true) = match all_elements_drawn w s with (Ok (r, f), s') => (Ok (r, Some f), (s', true)) | (Err e, s') => (Err e, (s', true)) end.
  Proof. unfold flagged_all, bind, gets, on_machine. cbn [fst snd]. by destruct (all_elements_drawn w s) as [[[r f]|e] s']. Qed.
  Lemma quiet_all_drawn : pres (@quiet R) (all_elements_drawn w).
  Proof. unfold all_elements_drawn. repeat first [pres_step|apply quiet_all_elements]. Qed.
  Lemma all_drawn_fails s s' e : all_elements_reading w s = (Err e, s') -> all_elements_drawn w s = (Err e, s').
  Proof. intros H. unfold all_elements_drawn, bind at 1, get. unfold bind at 1. by rewrite H. Qed.
  Lemma all_drawn_inv s s' r f : all_elements_drawn w s = (Ok (r, f), s') -> all_elements_reading w s = (Ok r, s') /\ reading_figure s (oBPM (ORD s)) r.1.1 r.1.2 r.2 = Ok f.
  Proof.
    intros H. unfold all_elements_drawn in H. apply bind_ok in H as (s0&s1&H0&H). apply get_ok in H0 as [-> ->]. apply bind_ok in H as (q&s2&H1&H). apply bind_ok in H as (g&s3&H2&H). apply lift_ok in H2 as [H2 ->].
    apply ret_ok in H as [E ->]. pose proof (f_equal fst E) as E1. pose proof (f_equal snd E) as E2. cbn [fst snd] in E1, E2. by subst.
  Qed.
  Lemma no_figure (s : sc R) bpms x y shots f i e : RING s !! i = Some e -> (exists x, e !! "EApertures" = Some (VNum x)) -> reading_figure s bpms x y shots <> Ok f.
  Proof.
    intros He [v Hv] H. unfold reading_figure in H. apply rbind_ok in H as (p&H&_). unfold reading_panel in H. apply rbind_ok in H as (aps&Ha&_). unfold ring_aperture in Ha. apply rbind_ok in Ha as (l&Hl&_). apply rmap_ok in Hl.
    destruct (Forall2_lookup_l _ _ _ _ _ Hl He) as (z&_&Hz). unfold limits_of in Hz. rewrite Hv in Hz. discriminate.
  Qed.
  Lemma show_eq s b : plot_bpm_reading w (s, b) = match bpm_reading_drawn w None false s with (Ok (_, f), s') => (Ok (Some f), (s', b)) | (Err e, s') => (Err e, (s', true)) end.
  Proof. unfold plot_bpm_reading, bind at 1, gets. unfold bind at 1, set_flag at 1. cbn [fst snd]. unfold bind at 1. rewrite reading_on. by destruct (bpm_reading_drawn w None false s) as [[[r f]|e] s']. Qed.

  Lemma seen_quiet c st : quiet (fst st) (fst (snd (seen w c st))).
  Proof.
    destruct st as [s b], c as [req errors| |]; unfold seen.
    - destruct b.
      + rewrite reading_on. pose proof (quiet_drawn req errors s) as Q. by destruct (bpm_reading_drawn w req errors s) as [[[r f]|e] s'].
      + rewrite reading_off. pose proof (quiet_reading w req errors s) as Q. by destruct (bpm_reading w req errors s) as [[r|e] s'].
    - destruct b.
      + rewrite all_on. pose proof (quiet_all_drawn s) as Q. by destruct (all_elements_drawn w s) as [[[r f]|e] s'].
      + rewrite all_off. pose proof (quiet_all_elements w s) as Q. by destruct (all_elements_reading w s) as [[r|e] s'].
    - rewrite show_eq. pose proof (quiet_drawn None false s) as Q. by destruct (bpm_reading_drawn w None false s) as [[[r f]|e] s'].
  Qed.
  Lemma seen_flag c s b r s' b' : seen w c (s, b) = (r, (s', b')) -> b' = (b || match c with Show => failed r | _ => false end)%bool.
  Proof.
    destruct c as [req errors| |]; unfold seen.
    - destruct b; [rewrite reading_on; destruct (bpm_reading_drawn w req errors s) as [[[q f]|e] s1]|rewrite reading_off; destruct (bpm_reading w req errors s) as [[q|e] s1]]; by intros [= <- <- <-].
    - destruct b; [rewrite all_on; destruct (all_elements_drawn w s) as [[[q f]|e] s1]|rewrite all_off; destruct (all_elements_reading w s) as [[q|e] s1]]; by intros [= <- <- <-].
    - rewrite show_eq. destruct (bpm_reading_drawn w None false s) as [[[q f]|e] s1]; intros [= <- <- <-]; by rewrite ?orb_false_r, ?orb_true_r.
  Qed.
  Lemma seen_same c s b1 b2 : drawable s -> fst (seen w c (s, b1)) = fst (seen w c (s, b2)) /\ fst (snd (seen w c (s, b1))) = fst (snd (seen w c (s, b2))).
  Proof.
    intros Hd. destruct c as [req errors| |]; unfold seen.
    - assert (forall b, (let q := match flagged_reading w req errors (s, b) with (Ok (r, _), st') => (Ok (Values r), st') | (Err e, st') => (Err e, st') end in (fst q, fst (snd q))) =
        match bpm_reading w req errors s with (Ok r, s') => (Ok (Values r), s') | (Err e, s') => (Err e, s') end) as E.
      { intros b. destruct (bpm_reading w req errors s) as [[r|e] s'] eqn:E; destruct b.
        - destruct Hd as [Hs Hin]. destruct (C103_drawing_returns w _ _ _ _ _ E Hs Hin) as [f F]. by rewrite reading_on, F.
        - by rewrite reading_off, E.
        - apply drawn_fails in E; [|done]. by rewrite reading_on, E.
        - by rewrite reading_off, E. }
      pose proof (E b1) as E1. pose proof (E b2) as E2. cbv zeta in E1, E2. rewrite <- E2 in E1. split; [exact (f_equal fst E1)|exact (f_equal snd E1)].
    - assert (forall b, (let q := match flagged_all w (s, b) with (Ok (r, _), st') => (Ok (Everywhere r), st') | (Err e, st') => (Err e, st') end in (fst q, fst (snd q))) =
        match all_elements_reading w s with (Ok r, s') => (Ok (Everywhere r), s') | (Err e, s') => (Err e, s') end) as E.
      { intros b. destruct (all_elements_reading w s) as [[[[xs ys] tks]|e] s'] eqn:E; destruct b.
        - destruct Hd as [Hs Hin]. edestruct (C103_all_elements_returns w) as [f F]; [exact E|exact Hs|exact Hin|]. by rewrite all_on, F.
        - by rewrite all_off, E.
        - apply all_drawn_fails in E. by rewrite all_on, E.
        - by rewrite all_off, E. }
      pose proof (E b1) as E1. pose proof (E b2) as E2. cbv zeta in E1, E2. rewrite <- E2 in E1. split; [exact (f_equal fst E1)|exact (f_equal snd E1)].
    - rewrite !show_eq. by destruct (bpm_reading_drawn w None false s) as [[[r f]|e] s'].
  Qed.
End Lemmas.

(** * Theorems *)
Section C109.
  Context (w : world R).
  (** A returning SCplotBPMreading shows the figure of the reading of all monitors, and flag and machine are as after that reading without a figure *)
  Theorem C109_shows s b fig s' b' : plot_bpm_reading w (s, b) = (Ok fig, (s', b')) ->
    b' = b /\ exists r p, fig = Some p /\ bpm_reading w None false s = (Ok r, s') /\ bpm_reading_drawn w None false s = (Ok (r, p), s').
  Proof.
    rewrite show_eq. destruct (bpm_reading_drawn w None false s) as [[[r f]|e] s1] eqn:E; [|discriminate]. intros [= <- <- <-]. split; [done|]. exists r, f. split_and!; [done|by eapply C103_only_drawn|done].
  Qed.
  (** A returning reading is the same with the flag or without; a figure is shown exactly if the flag is set, which stays as it is *)
  Theorem C109_reading req errors s b r fig s' b' : flagged_reading w req errors (s, b) = (Ok (r, fig), (s', b')) ->
    b' = b /\ bpm_reading w req errors s = (Ok r, s') /\ match fig with None => b = false | Some p => b = true /\ bpm_reading_drawn w req errors s = (Ok (r, p), s') end.
  Proof.
    destruct b; [rewrite reading_on; destruct (bpm_reading_drawn w req errors s) as [[[q f]|e] s1] eqn:E|rewrite reading_off; destruct (bpm_reading w req errors s) as [[q|e] s1] eqn:E]; intros [=]; subst.
    - split_and!; [done|by eapply C103_only_drawn|done..].
    - done.
  Qed.
  Theorem C109_reading_all s b r fig s' b' : flagged_all w (s, b) = (Ok (r, fig), (s', b')) ->
    b' = b /\ all_elements_reading w s = (Ok r, s') /\ match fig with None => b = false | Some p => b = true /\ all_elements_drawn w s = (Ok (r, p), s') end.
  Proof.
    destruct b; [rewrite all_on; destruct (all_elements_drawn w s) as [[[q f]|e] s1] eqn:E|rewrite all_off; destruct (all_elements_reading w s) as [[q|e] s1] eqn:E]; intros [=]; subst.
    - split_and!; [done|by eapply all_drawn_inv|done..].
    - done.
  Qed.
  (** Without the flag a reading returns or fails as bpm_reading does (C37, C38), whatever the chambers, with the same random numbers used up *)
  Theorem C109_without req errors s s' : (forall r, bpm_reading w req errors s = (Ok r, s') -> flagged_reading w req errors (s, false) = (Ok (r, None), (s', false))) /\
    (forall e, bpm_reading w req errors s = (Err e, s') -> flagged_reading w req errors (s, false) = (Err e, (s', false))) /\
    (forall r, all_elements_reading w s = (Ok r, s') -> flagged_all w (s, false) = (Ok (r, None), (s', false))) /\
    (forall e, all_elements_reading w s = (Err e, s') -> flagged_all w (s, false) = (Err e, (s', false))).
  Proof. split_and!; intros x H; by rewrite ?reading_off, ?all_off, H. Qed.
  (** With chambers that can be drawn, SCplotBPMreading returns exactly if the reading does *)
  Theorem C109_returns s b : drawable s -> ((exists fig st', plot_bpm_reading w (s, b) = (Ok fig, st')) <-> exists r s', bpm_reading w None false s = (Ok r, s')).
  Proof.
    intros [Hs Hin]. split.
    - intros (fig&[s' b']&H). apply C109_shows in H as (_&r&p&_&H&_). eauto.
    - intros (r&s'&H). destruct (C103_drawing_returns w _ _ _ _ _ H Hs Hin) as [f F]. rewrite show_eq, F. eauto.
  Qed.
  (** Over a whole script the machine keeps everything but its random numbers, and the flag is set at the end exactly if it was set at the beginning or some
      SCplotBPMreading failed (the latter is the finding) *)
  Theorem C109_session cs s b rs s' b' : session w cs (s, b) = (rs, (s', b')) -> s' = set_RNG (RNG s') s /\ length rs = length cs /\ b' = (b || show_failed cs rs)%bool.
  Proof.
    revert s b rs. induction cs as [|c cs IH]; intros s b rs H; cbn [session] in H.
    - injection H as <- <- <-. split_and!; [by destruct s|done|]. unfold show_failed. cbn. by rewrite orb_false_r.
    - pose proof (seen_quiet w c (s, b)) as Q. destruct (seen w c (s, b)) as [r [s1 b1]] eqn:E. cbn [fst snd] in Q. apply seen_flag in E.
      destruct (session w cs (s1, b1)) as [rs1 [s2 b2]] eqn:F. injection H as <- <- <-. apply IH in F as (F1&F2&F3).
      split_and!; [exact (transitivity Q F1)|cbn; by rewrite F2|]. rewrite F3, E. unfold show_failed. cbn [combine existsb fst snd]. by rewrite orb_assoc.
  Qed.
  (** With chambers that can be drawn the flag changes nothing a script sees *)
  Theorem C109_flag_unseen cs s b1 b2 : drawable s -> fst (session w cs (s, b1)) = fst (session w cs (s, b2)) /\ fst (snd (session w cs (s, b1))) = fst (snd (session w cs (s, b2))).
  Proof.
    revert s b1 b2. induction cs as [|c cs IH]; intros s b1 b2 Hd; [done|]. cbn [session]. pose proof (seen_same w c s b1 b2 Hd) as [E1 E2]. pose proof (seen_quiet w c (s, b1)) as Q.
    destruct (seen w c (s, b1)) as [r1 [t1 c1]], (seen w c (s, b2)) as [r2 [t2 c2]]. cbn [fst snd] in *. subst r2 t2.
    assert (drawable t1) as Hd1. { apply quiet_same in Q as (QR&_&_&_&QO). unfold drawable. by rewrite QR, QO. }
    destruct (IH t1 c1 c2 Hd1) as [F1 F2]. destruct (session w cs (t1, c1)) as [q1 [u1 d1]], (session w cs (t1, c2)) as [q2 [u2 d2]]. cbn [fst snd] in *. by subst.
  Qed.
  (** Finding: with a chamber that cannot be drawn, one SCplotBPMreading makes it and all readings after it fail *)
  Theorem C109_finding_stuck cs s b i e : RING s !! i = Some e -> (exists x, e !! "EApertures" = Some (VNum x)) -> Forall (fun r => failed r = true) (fst (session w (Show :: cs) (s, b))).
  Proof.
    intros He Hx.
    assert (forall c s b, RING s !! i = Some e -> (b = true \/ c = Show) -> failed (fst (seen w c (s, b))) = true /\ snd (snd (seen w c (s, b))) = true) as Hone.
    { clear s b He. intros c s b He Hb. destruct c as [req errors| |]; unfold seen.
      - destruct Hb as [->|]; [|discriminate]. rewrite reading_on. destruct (bpm_reading_drawn w req errors s) as [[[r f]|e1] s'] eqn:E; [|done]. exfalso. by eapply C103_finding_limits.
      - destruct Hb as [->|]; [|discriminate]. rewrite all_on. destruct (all_elements_drawn w s) as [[[r f]|e1] s'] eqn:E; [|done]. apply all_drawn_inv in E as [_ E]. exfalso. by eapply no_figure.
      - rewrite show_eq. destruct (bpm_reading_drawn w None false s) as [[[r f]|e1] s'] eqn:E; [|done]. exfalso. by eapply C103_finding_limits. }
    assert (forall cs s, RING s !! i = Some e -> Forall (fun r => failed r = true) (fst (session w cs (s, true)))) as Hall.
    { clear s b He cs. induction cs as [|c cs IH]; intros s He; [constructor|]. cbn [session]. destruct (Hone c s true He (or_introl eq_refl)) as [E1 E2]. pose proof (seen_quiet w c (s, true)) as Q.
      destruct (seen w c (s, true)) as [r [s1 b1]]. cbn [fst snd] in *. subst b1. apply quiet_same in Q as (QR&_). specialize (IH s1). rewrite QR in IH. specialize (IH He). destruct (session w cs (s1, true)) as [rs st]. cbn [fst] in *. by constructor. }
    cbn [session]. destruct (Hone Show s b He (or_intror eq_refl)) as [E1 E2]. pose proof (seen_quiet w Show (s, b)) as Q.
    destruct (seen w Show (s, b)) as [r [s1 b1]]. cbn [fst snd] in *. subst b1. apply quiet_same in Q as (QR&_). specialize (Hall cs s1). rewrite QR in Hall. specialize (Hall He). destruct (session w cs (s1, true)) as [rs st]. cbn [fst] in *. by constructor.
  Qed.
End C109.
Print Assumptions C109_shows.
Print Assumptions C109_reading.
Print Assumptions C109_reading_all.
Print Assumptions C109_without.
Print Assumptions C109_returns.
Print Assumptions C109_session.
Print Assumptions C109_flag_unseen.
Print Assumptions C109_finding_stuck.

(** * Cases: a figure of two turns with the flag kept, and a machine whose readings return until SCplotBPMreading fails *)
Local Open Scope Q_scope.
#[local] Existing Instance TrigQ0.
Example C109_case b : let s := piped_machine (ex_inj (1#2) 1 2 1 "PORB") [1; 0; 1; 0; 0; 0;  1; 0;  0; 1;  2; 0; 1; 0; 1; 0; 0; 0; 1; 0; 0; 1; 2; 0] in
  exists fig, fst (plot_bpm_reading ex_world (s, b)) = Ok (Some fig) /\ length (f_marks (fst fig)) = 4%nat /\ snd (snd (plot_bpm_reading ex_world (s, b))) = b.
Proof. destruct b; eexists; split_and!; vm_compute; reflexivity. Qed.
Example C109_finding_case : let s0 := piped_machine (ex_inj (1#2) 1 1 2 "TBT") (ex_draws_two ++ ex_draws_two ++ ex_draws_two) in let s := set_RING (RING s0 ++ [piped [("EApertures", VNum (1#100))] 1]) s0 in
  let one := flagged_reading ex_world None false (s, false) in let two := plot_bpm_reading ex_world (snd one) in let three := flagged_reading ex_world None false (snd two) in
  fst one = Ok (MkReading [Some (-1); Some (-2)] [Some (4#3); Some 0] [3#2; 1] None, None) /\ fst two = Err ValueError /\ snd (snd two) = true /\ fst three = Err ValueError /\
  fst (flagged_reading ex_world None false (fst (snd two), false)) = fst one.
Proof. split_and!; vm_compute; reflexivity. Qed.
(** the same as a script: figure, failure and what comes after it *)
Example C109_session_case b : let s0 := piped_machine (ex_inj (1#2) 1 1 2 "TBT") (ex_draws_two ++ ex_draws_two ++ ex_draws_two) in let s := set_RING (RING s0 ++ [piped [("EApertures", VNum (1#100))] 1]) s0 in
  let cs := [Show; ReadAll; Read (Some [4%nat]) false] in
  map failed (fst (session ex_world cs (s0, b))) = [false; false; false] /\ snd (snd (session ex_world cs (s0, b))) = b /\ fst (session ex_world cs (s0, true)) = fst (session ex_world cs (s0, false)) /\
  map failed (fst (session ex_world (Read None false :: cs) (s, false))) = [false; true; true; true] /\ snd (snd (session ex_world (Read None false :: cs) (s, false))) = true.
Proof. destruct b; split_and!; vm_compute; reflexivity. Qed.
Local Open Scope R_scope.
Example C109_drawable_case i g : drawable (MkSC [mk [("Length", VNum 1); ("EApertures", VVec [1 / 100; 1 / 200])]; mk [("Length", VNum 0)]; mk [("RApertures", VVec [-1 / 100; 1 / 50; -1 / 200; 1 / 250])]] [] i g (MkOrd [1]%nat [] [] [] [] [] [] [] []) []).
Proof.
  split; [|cbn; intros o Ho; apply elem_of_list_singleton in Ho; lia]. cbn [RING]. unfold mk. cbn [list_to_map foldr fst snd].
  repeat (apply Forall_cons; split); [..|by apply Forall_nil]; (split; simplify_map_eq; first [by left|right; by repeat eexists]).
Qed.
