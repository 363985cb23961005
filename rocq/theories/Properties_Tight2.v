(** Further theorems on property C73 (loco_wrapper.py), found necessary by testing against wrong programs. *)
From Coq Require Import Reals Lra Lia ZArith QArith.
From stdpp Require Import base gmap strings list.
From Verif Require Import Num Base Model_Arr Model_SC Model_Err Lemmas Spec Model_Beam Model_Orbit Model_Lattice Model_Scan Model_Loco Model_Resp Model_Wrap Examples.
Local Open Scope string_scope.
Local Open Scope list_scope.

(** A sequence of steps that is no list needs exactly one entry; a number is refused as well.  The machine is left as it was. *)
Theorem C73_step_argument c b tz out (s : sc R) l x : 
  (length l <> 1%nat -> apply_diagnostic_correction (StepSeq l) c b tz out s = (Err ValueError, s)) /\
  apply_diagnostic_correction (StepNumber x) c b tz out s = (Err TypeError, s) /\
  (forall lists, apply_diagnostic_correction (StepSeq [x]) c b tz out s = apply_diagnostic_correction (StepList lists) c b tz out s).
Proof.
  split; [|split; [done|done]]. intros H. unfold apply_diagnostic_correction, bind at 1, lift at 1. cbn [check_step]. by rewrite (proj2 (Nat.eqb_neq _ _) H).
Qed.
(** The structure as loco_bpm_structure makes it, without keywords, fits nothing and cannot be used: there is no entry FitCoupling. *)
Theorem C73_finding_default_structure ords step c tz out (s t : sc R) : c_fit c = false -> (forall x, step <> StepNumber x) -> (forall l, step = StepSeq l -> length l = 1%nat) ->
  apply_diagnostic_correction step c (loco_bpm_structure ords t) tz out s = (Err AttributeError, s).
Proof.
  intros Hc H1 H2. assert (check_step step = Ok tt) as E. { destruct step as [x|l|l]; [by destruct (H1 x)|done|]. cbn. by rewrite (H2 l). }
  unfold apply_diagnostic_correction, bind at 1, lift at 1. rewrite E, Hc. reflexivity.
Qed.
Print Assumptions C73_step_argument.
Print Assumptions C73_finding_default_structure.

From Verif Require Import Properties_Wrap.
Local Open Scope Q_scope.
#[local] Instance TrigQ20 : Trig Q := {| ncos _ := 1; nsin _ := 0; nsqrt x := x; npi := 3 |}.
Example C73_case_steps : let run step b := apply_diagnostic_correction step (MkCmData [] [] false [] []) b false (OutAt (1#2)) wrap_machine in
  fst (run (StepSeq [1; 2]) (wrap_bpms [11#10; 5])) = Err ValueError /\ fst (run (StepNumber 1) (wrap_bpms [11#10; 5])) = Err TypeError /\
  fst (run (StepSeq [1]) (wrap_bpms [11#10; 5])) = Ok ([11#10; 1], [1; 1]) /\ fst (run (StepSeq [1]) (loco_bpm_structure None wrap_machine)) = Err AttributeError.
Proof. vm_compute. done. Qed.
