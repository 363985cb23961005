(** C108: the closed orbit in the figure of the phase space, and where the figure can be drawn. *)
From Coq Require Import Reals Lra Lia QArith ZArith.
From stdpp Require Import base gmap strings list.
From Verif Require Import Num Base Model_Arr Model_SC Model_Err Model_Beam Model_Orbit Model_Scan Model_Plot Model_PhaseFig Lemmas Proofs_Update Proofs_Beam Spec Properties_Field Examples Properties_Circ Properties_Support Properties_Beam Properties_Phase.
Local Open Scope string_scope.
Local Open Scope list_scope.
Local Open Scope R_scope.

(** * Specification *)
(** the mark: each coordinate in its unit, at its place in the figure, if it is a number *)
Definition marked_at (o : list (option R)) (mark : list (option R)) : Prop :=
  length mark = 6%nat /\ forall c, (c < 6)%nat ->
    (o !! exchanged c = Some None -> mark !! c = Some None) /\
    (forall q, o !! exchanged c = Some (Some (q (exchanged c))) -> mark !! c = Some (Some (shown_as q c))).
(** a search for the orbit at one place that failed, or found one *)
Definition failed (rows : list (list (option R))) : Prop := exists r, rows = [None :: r].
Definition found (rows : list (list (option R))) (o : list (option R)) : Prop := rows = [o] /\ o !! 0%nat <> Some None.

Lemma orbit_mark_ok co mark : orbit_mark co = Ok mark -> marked_at co mark.
Proof.
  intros H. apply rmap_ok in H. split; [by rewrite <- (Forall2_length _ _ _ H)|]. intros c Hc.
  destruct (Forall2_lookup_l _ _ _ c c H) as (y&Hy&Hf). { by rewrite lookup_seq_lt. }
  apply rbind_ok in Hf as (x&Hx&Hf). apply rbind_ok in Hf as (k&Hk&Hf). apply idx_ok in Hx, Hk. apply (f_equal (fun r => match r with Ok x => x | Err _ => y end)) in Hf. cbv beta iota in Hf. subst y. rewrite Hy, Hx. split.
  - intros E. injection E as ->. done.
  - intros q E. injection E as ->. cbn [fmap option_fmap option_map]. rewrite <- (exchanged_scale q c) by done. rewrite Hk. done.
Qed.
Lemma figure_steps srch again (w : world R) ords custom np nt plotCO (s s' : sc R) P turns pts z mark :
  phase_figure srch again w ords custom np nt plotCO s = (Ok (P, turns, pts, z, mark), s') ->
  phase_space w ords custom np nt s = (Ok (P, turns, pts, z), s') /\
  (exists co, closed_orbit srch again (RING s) ords plotCO = Ok co /\ orbit_mark co = Ok mark) /\ scattered P (length ords) turns = Ok tt /\ P <> 0%nat /\ exists i e, ords !! 0%nat = Some i /\ RING s !! i = Some e.
Proof.
  intros H. unfold phase_figure in H. apply bind_ok in H as (s0&s1&H0&H). apply get_ok in H0 as [-> ->].
  apply bind_ok in H as ([[[P' turns'] pts'] z']&s1&Hx&H). apply bind_ok in H as (co&s2&Hc&H). apply lift_ok in Hc as [Hc ->]. apply bind_ok in H as (mark'&s2&Hm&H). apply lift_ok in Hm as [Hm ->].
  apply bind_ok in H as ([]&s2&Hsc&H). apply lift_ok in Hsc as [Hsc ->]. apply bind_ok in H as ([]&s2&Hi&H). apply lift_ok in Hi as [Hi ->]. apply rbind_ok in Hi as (i&Hi&He). apply rbind_ok in He as (e&He&_). apply idx_ok in Hi, He.
  apply bind_ok in H as ([]&s2&Hn&H). destruct (P' =? 0)%nat eqn:E; [done|]. apply Nat.eqb_neq in E. apply ret_ok in Hn as [_ ->]. apply ret_ok in H as [H ->]. injection H as <- <- <- <- <-.
  split; [done|]. split; [eauto|]. split; [done|]. split; [done|]. eauto.
Qed.
(** Particles and injection point are those of C88, with or without the closed orbit. *)
Theorem C108_points srch again (w : world R) ords custom np nt plotCO (s s' : sc R) P turns pts z mark :
  phase_figure srch again w ords custom np nt plotCO s = (Ok (P, turns, pts, z, mark), s') -> phase_space w ords custom np nt s = (Ok (P, turns, pts, z), s').
Proof. intros H. by apply figure_steps in H as (?&_). Qed.
(** The closed orbit is marked where the first search finds it, or else the second, or else not at all. *)
Theorem C108_orbit srch again (w : world R) ords custom np nt (s s' : sc R) P turns pts z mark :
  phase_figure srch again w ords custom np nt true s = (Ok (P, turns, pts, z, mark), s') ->
  (exists o, found (srch (RING s) ords) o /\ marked_at o mark) \/
  (failed (srch (RING s) ords) /\ exists o, found (again (RING s) ords) o /\ marked_at o mark) \/
  (failed (srch (RING s) ords) /\ failed (again (RING s) ords) /\ mark = replicate 6 None).
Proof.
  intros H. apply figure_steps in H as (_&(co&Hc&Hm)&_). unfold closed_orbit in Hc. apply rbind_ok in Hc as (r&Hr&Hc). unfold squeezed in Hr. destruct (srch (RING s) ords) as [|r0 [|]] eqn:E; try done. injection Hr as ->.
  destruct (is_lost r) eqn:El.
  - right. assert (failed [r]) as Hf. { destruct r as [|[x|] r]; try done. by exists r. }
    apply rbind_ok in Hc as (r'&Hr'&Hc). unfold squeezed in Hr'. destruct (again (RING s) ords) as [|r1 [|]] eqn:E'; try done. injection Hr' as ->. destruct (is_lost r') eqn:El'.
    + right. split; [done|]. split. { destruct r' as [|[x|] r']; try done. by exists r'. }
      injection Hc as <-. cbn in Hm. by injection Hm as <-.
    + left. split; [done|]. injection Hc as <-. exists r'. split; [|by apply orbit_mark_ok]. split; [done|]. by destruct r' as [|[x|] r'].
  - left. injection Hc as <-. exists r. split; [|by apply orbit_mark_ok]. split; [done|]. by destruct r as [|[x|] r].
Qed.
Theorem C108_no_orbit srch again (w : world R) ords custom np nt (s s' : sc R) P turns pts z mark :
  phase_figure srch again w ords custom np nt false s = (Ok (P, turns, pts, z, mark), s') -> mark = replicate 6 None.
Proof. intros H. apply figure_steps in H as (_&(co&Hc&Hm)&_). injection Hc as <-. cbn in Hm. by injection Hm as <-. Qed.
(** Finding: a figure shows one place, an element of the lattice, although a list of places can be given; *)
Theorem C108_finding_one_place srch again (w : world R) ords custom np nt plotCO (s s' : sc R) P turns pts z mark :
  phase_figure srch again w ords custom np nt plotCO s = (Ok (P, turns, pts, z, mark), s') -> turns <> 0%nat -> exists i, ords = [i] /\ (i < length (RING s))%nat.
Proof.
  intros H Ht. apply figure_steps in H as (_&_&Hs&HP&i&e&Hi&He). unfold scattered in Hs. destruct (P =? 0)%nat eqn:E; [by apply Nat.eqb_eq in E|]. cbn [orb] in Hs. destruct (length ords * turns =? turns)%nat eqn:E1; [|cbn in Hs; discriminate]. apply Nat.eqb_eq in E1.
  assert (length ords = 1%nat) as HL by nia. destruct ords as [|j [|]]; try done. injection Hi as ->. exists i. split; [done|]. by apply lookup_lt_Some in He.
Qed.
(** with more than one place every call fails, with or without closed orbit; with no particles it fails, too. *)
Theorem C108_finding_refusals srch again (w : world R) ords custom np nt plotCO (s s' : sc R) P turns pts z :
  phase_space w ords custom np nt s = (Ok (P, turns, pts, z), s') ->
  ((2 <= length ords)%nat -> length (srch (RING s) ords) = length ords -> turns <> 0%nat -> P <> 0%nat -> (phase_figure srch again w ords custom np nt plotCO s).1 = Err ValueError) /\
  (P = 0%nat -> forall r s'', phase_figure srch again w ords custom np nt plotCO s <> (Ok r, s'')).
Proof.
  intros H. split.
  - intros HL Hr Ht HP. unfold phase_figure. rewrite run_eq. cbn [get]. rewrite run_eq, H. rewrite run_lift. unfold closed_orbit. destruct plotCO.
    + destruct (srch (RING s) ords) as [|a [|b l]]; cbn in Hr; [lia|lia|]. done.
    + assert (orbit_mark (replicate 6 (None (A:=R))) = Ok (replicate 6 None)) as E by done. rewrite run_lift, E, run_lift. unfold scattered. rewrite (proj2 (Nat.eqb_neq P 0)) by done.
      rewrite (proj2 (Nat.eqb_neq (length ords * turns) turns)) by nia. done.
  - intros HP [[[[P' t'] p'] z'] m'] s'' Hf. apply figure_steps in Hf as (Hp&_&_&Hn&_). rewrite H in Hp. injection Hp as <- _ _ _ _. done.
Qed.
(** Finding: the MATLAB-style call does not return with its own default for the bunch. *)
Theorem C108_finding_matlab srch again (w : world R) ords np nt plotCO (s : sc R) : SCplotPhaseSpace srch again w ords default_bunch np nt plotCO s = (Err (match np with Some _ => ValueError | None => AttributeError end), s).
Proof. by destruct np. Qed.
Print Assumptions C108_points.
Print Assumptions C108_orbit.
Print Assumptions C108_no_orbit.
Print Assumptions C108_finding_one_place.
Print Assumptions C108_finding_refusals.
Print Assumptions C108_finding_matlab.

(** * Case: the machine of C88; the orbit is found at the second attempt *)
#[local] Instance TrigQ22 : Trig Q := {| ncos := fun x => x; nsin := fun x => x; nsqrt := fun x => x; npi := 3%Q |}.
Definition lost_row : list (option Q) := [None; None; None; None; None; None].
Definition orbit_row_case : list (option Q) := [Some 1%Q; Some 2%Q; Some 3%Q; Some 4%Q; Some 5%Q; Some 6%Q].
Definition mark_of (second : list (option Q)) (ords : list nat) (plotCO : bool) : list (option Q) + exn :=
  match phase_figure (fun _ l => map (fun _ => lost_row) l) (fun _ l => map (fun _ => second) l) turning_world ords (Some (replicate 6 [0%Q; 0%Q])) None (Some 3%nat) plotCO turning_machine with
  | (Ok (_, _, _, _, m), _) => inl m | (Err e, _) => inr e end.
Example C108_case :
  mark_of orbit_row_case [0%nat] true = inl [Some (inject_Z 1000000); Some (inject_Z 2000000); Some (inject_Z 3000000); Some (inject_Z 4000000); Some 6%Q; Some (inject_Z 500)] /\
  mark_of lost_row [0%nat] true = inl lost_row /\ mark_of orbit_row_case [0%nat] false = inl lost_row /\
  mark_of orbit_row_case [0%nat; 0%nat] true = inr ValueError /\ mark_of orbit_row_case [0%nat; 0%nat] false = inr ValueError.
Proof. vm_compute. done. Qed.
