(** A small concrete machine, used to show that hypotheses of theorems are met. *)
From stdpp Require Import base gmap strings list.
From Verif Require Import Num Base Model_Arr Model_SC.
Local Open Scope string_scope.
Local Open Scope list_scope.

Definition mk {T} (l : list (string * val T)) : elem T := list_to_map l.

Section Ring.
  Context {T : Type} {N : Num T}.
  Definition num (z : Z) : T := nofZ z.
  Definition drift (l : T) : elem T := mk [("Length", VNum l); ("PassMethod", VStr "DriftPass")].
  Definition quad : elem T :=
    mk [("Length", VNum (num 2)); ("PassMethod", VStr "StrMPoleSymplectic4Pass");
        ("PolynomA", VVec [num 0; num 0]); ("PolynomB", VVec [num 0; num 3]); ("MaxOrder", VInt 1)].
  Definition thin_cm : elem T :=
    mk [("Length", VNum (num 0)); ("PassMethod", VStr "CorrectorPass");
        ("PolynomA", VVec [num 0]); ("PolynomB", VVec [num 0]); ("KickAngle", VVec [num 0; num 0])].
  Definition bpm : elem T := mk [("Length", VNum (num 0)); ("PassMethod", VStr "IdentityPass")].
  Definition cavity : elem T :=
    mk [("Length", VNum (num 0)); ("PassMethod", VStr "RFCavityPass");
        ("Voltage", VNum (num 8)); ("Frequency", VNum (num 500)); ("TimeLag", VNum (num 0))].
  Definition bend : elem T :=
    mk [("Length", VNum (num 4)); ("BendingAngle", VNum (num 2)); ("PassMethod", VStr "BndMPoleSymplectic4Pass");
        ("PolynomA", VVec [num 0; num 0]); ("PolynomB", VVec [num 0; num 5]); ("MaxOrder", VInt 1)].
  (** ordinates: 0 drift, 1 quad, 2 thin corrector, 3 BPM, 4 cavity, 5 bend, 6 drift *)
  Definition ex_ring : list (elem T) := [drift (num 1); quad; thin_cm; bpm; cavity; bend; drift (num 3)].
  Definition ex_sc : sc T := init_sc ex_ring [].
End Ring.

(** A run that ends well, from its computed result only. *)
Lemma ends_ok {S A} (m : M S A) s a : fst (m s) = Ok a -> exists s', m s = (Ok a, s') /\ s' = snd (m s).
Proof. destruct (m s) as [r s']. simpl. intros ->. eauto. Qed.
