(** C107: the closed orbit at the magnets. *)
From Coq Require Import Reals Lra Lia QArith ZArith.
From stdpp Require Import base gmap strings list.
From Verif Require Import Num Base Model_Arr Model_SC Model_Err Model_Beam Model_Cod Lemmas Spec Examples.
Local Open Scope string_scope.
Local Open Scope list_scope.
Local Open Scope R_scope.

(** * Specification *)
(** an array with one row of six numbers for each element *)
Definition table (a : nested R) (n : nat) : Prop :=
  exists rows, a = Seq rows /\ length rows = n /\ forall r, r ∈ rows -> exists xs, r = Seq (map Leaf xs) /\ length xs = 6%nat.

Lemma shape_leaves (xs : list (option R)) : shape (Seq (map Leaf xs)) = Some [length xs].
Proof.
  destruct xs as [|x xs]; [done|]. cbn [map shape length]. rewrite map_length. assert (forallb (fun s => bool_decide (s = Some (@nil nat))) (map shape (map Leaf xs)) = true) as ->; [|done].
  induction xs as [|y xs IH]; [done|]. cbn [map forallb shape]. by rewrite IH.
Qed.
Lemma shape_rows (l : list (nested R)) : (forall r, r ∈ l -> shape r = Some [6%nat]) -> shape (Seq l) = Some (match l with [] => [0%nat] | _ => [length l; 6%nat] end).
Proof.
  intros H. destruct l as [|r l]; [done|]. cbn [shape map length]. rewrite (H r) by left. assert (forallb (fun s => bool_decide (s = Some [6%nat])) (map shape l) = true) as ->; [|done].
  apply forallb_forall. intros x Hx. apply elem_of_list_In, elem_of_list_fmap in Hx as (y&->&Hy). apply bool_decide_eq_true. apply H. by right.
Qed.
Lemma orbit_row (f : nat -> option R) : shape (Seq (map (fun c => Leaf (f c)) (seq 0 6))) = Some [6%nat].
Proof. rewrite <- (map_map f Leaf). apply (shape_leaves (map f (seq 0 6))). Qed.
(** Finding: no call returns, for no machine, orbit and list of elements. *)
Theorem C107_finding_never (w : world R) (s : sc R) ords : SCgetCOD w s ords = Err ValueError.
Proof.
  unfold SCgetCOD, cod_from. cbv zeta. set (o := default _ _). unfold isnan. assert (shape (found_orbits w s o) = None) as ->; [|done].
  unfold found_orbits. cbv zeta. match goal with |- shape (Seq [?x; ?y]) = _ => set (a := x); set (b := y) end. assert (shape a = Some [6%nat]) as Ha by apply orbit_row.
  assert (shape b <> Some [6%nat]) as Hb. { unfold b. rewrite shape_rows; [destruct (map _ (seq 0 (length o))); congruence|]. intros r Hr. apply elem_of_list_fmap in Hr as (y&->&_). apply orbit_row. }
  cbn [shape map]. rewrite Ha. cbn [forallb]. by rewrite bool_decide_eq_false_2.
Qed.
Lemma truth_row (xs : list (option R)) : length xs = 6%nat -> truth (missing (Seq (map Leaf xs))) = Err ValueError.
Proof. intros H. do 7 (destruct xs as [|[?|] xs]; try done). Qed.
(** Nor would it with the orbits at the elements alone in place of the pair: *)
Theorem C107_finding_table (orbit : nested R) (s : sc R) ords : table orbit (length ords) ->
  cod_from orbit s ords = Err (match ords with [] => IndexError | _ => ValueError end).
Proof.
  intros (rows&->&HL&Hr). unfold cod_from, isnan. rewrite shape_rows.
  2:{ intros r H. destruct (Hr r H) as (xs&->&H6). by rewrite shape_leaves, H6. }
  cbn [rbind]. destruct rows as [|r rows]; destruct ords as [|i ords]; try done. cbn [missing map any any_of].
  destruct (Hr r ltac:(left)) as (xs&->&H6). by rewrite (truth_row xs H6).
Qed.
(** and with any result of the orbit search whatever it cannot return for any element. *)
Theorem C107_finding_element (orbit : nested R) (s : sc R) ords a : ords <> [] -> cod_from orbit s ords <> Ok a.
Proof.
  intros Ho H. unfold cod_from in H. apply rbind_ok in H as (m&_&H). apply rbind_ok in H as (b&_&H). destruct b; [done|]. apply rbind_ok in H as (l&Hl&_).
  destruct ords as [|i ords]; [done|]. cbn [rmap] in Hl. apply rbind_ok in Hl as (x&Hx&_). unfold called_T2 in Hx. apply rbind_ok in Hx as (e&_&Hx). by destruct (e !! "T2").
Qed.
Print Assumptions C107_finding_never.
Print Assumptions C107_finding_table.
Print Assumptions C107_finding_element.

(** * Cases *)
(** a found orbit, as an array of one row *)
Definition found_row : nested R := Seq [Seq (map Leaf [Some 1; Some 2; Some 3; Some 4; Some 5; Some 6])].
Example C107_case (s : sc R) : table found_row 1 /\ cod_from found_row s [0%nat] = Err ValueError.
Proof.
  assert (table found_row 1) as Ht. { eexists. split; [reflexivity|]. split; [done|]. intros r Hr. apply elem_of_list_singleton in Hr as ->. eexists. split; [reflexivity|]. done. }
  split; [done|]. by rewrite (C107_finding_table found_row s [0%nat] Ht).
Qed.
(** the reading of arrays itself: regular ones have a shape, a pair of arrays of different dimension has none; one missing number is found *)
Example C107_arrays :
  shape (Seq [Seq [Leaf (Some 1%Q); Leaf None]; Seq [Leaf (Some 2%Q); Leaf (Some 3%Q)]]) = Some [2; 2]%nat /\ shape (Seq [Leaf (Some 1%Q); Seq [Leaf (Some 2%Q)]]) = None /\
  (let? m := isnan (Seq [Leaf (Some 1%Q); Leaf None]) in any m) = Ok true /\ (let? m := isnan (Seq [Leaf (Some 1%Q); Leaf (Some 2%Q)]) in any m) = Ok false.
Proof. vm_compute. done. Qed.
