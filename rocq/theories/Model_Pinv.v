(** Model of the pseudo-inverse (pySC/utils/sc_tools.py lines 61-95).  numpy.linalg.svd is an argument [svd]: the reduced decomposition
    (u, s, vt) of a matrix. *)
From stdpp Require Import base gmap strings list.
From Verif Require Import Num Base Model_Arr.
Local Open Scope list_scope.

Section Pinv.
  Context {T : Type} {N : Num T}.
  Notation matrix := (list (list T)).

  (** length of the slice [:k] of an array of length [n], for any integer [k] *)
  Definition upto_len (n : nat) (k : Z) : nat := if (k <? 0)%Z then Z.to_nat (Z.of_nat n + k) else min n (Z.to_nat k).
  (** sc_tools.py line 86: [np.sum(s_mat > 0.)] *)
  Definition available (s : list T) : nat := length (List.filter (fun x => nltb n0 x) s).
  (** sc_tools.py lines 88-90, with [np.zeros] behind the available ones *)
  Definition inverse_values (s : list T) (alpha damping : T) : list T :=
    let a := available s in
    map (nmul damping) (map (fun x => if neqb alpha n0 then ndiv n1 x else ndiv x (nadd (nmul x x) (nmul alpha alpha))) (take a s) ++ zeros (length s - a)).
  (** sc_tools.py lines 85-87; a count larger than the number of values makes the result negative *)
  Definition kept_values (s : list T) (num_removed : Z) : Z :=
    Z.min (if (0 <? num_removed)%Z then Z.of_nat (length s) - num_removed else Z.of_nat (length s)) (Z.of_nat (available s)).
  (** sc_tools.py line 91: the product vt[:keep].T diag(d[:keep]) u[:, :keep].T, entry by entry *)
  Definition pinv_of (num_removed : Z) (alpha damping : T) (u : matrix) (s : list T) (vt : matrix) : matrix :=
    let d := inverse_values s alpha damping in
    let k := upto_len (length s) (kept_values s num_removed) in
    map (fun j => map (fun i => nsum (map (fun q => nmul (nmul (mget vt q j) (default n0 (d !! q))) (mget u i q)) (seq 0 k))) (seq 0 (length u)))
      (seq 0 (match vt with [] => 0 | r :: _ => length r end)).
  (** sc_tools.py lines 61-95 (without the plot). *)
  Definition pinv (svd : matrix -> matrix * list T * matrix) (m : matrix) (num_removed : Z) (alpha damping : T) : matrix :=
    let '(u, s, vt) := svd m in pinv_of num_removed alpha damping u s vt.
End Pinv.
