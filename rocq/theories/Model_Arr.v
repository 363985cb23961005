(** numpy array operations used by pySC, and the small helpers of pySC/utils/classdef_tools.py. *)
From stdpp Require Import base gmap strings list.
From Verif Require Import Num Base.
From Coq Require Import ZArith.

Section Arr.
  Context {T : Type} {N : Num T}.

  (** Division with the pseudo-exception for a zero divisor (numpy: inf or nan with a warning). *)
  Definition qdiv (x y : T) : res T := if neqb y n0 then Err NonFinite else Ok (ndiv x y).

  Definition zeros (n : nat) : list T := replicate n n0.
  Definition ones (n : nat) : list T := replicate n n1.

  (** numpy 1-d broadcasting of a binary operation: equal lengths, or one operand of length 1. *)
  Definition bcast (f : T -> T -> T) (a b : list T) : res (list T) :=
    if (length a =? length b)%nat then Ok (zip_with f a b)
    else match a, b with
         | [x], _ => Ok (map (f x) b)
         | _, [y] => Ok (map (fun x => f x y) a)
         | _, _ => Err ValueError
         end.
  (** [a + b] for values that are numbers or 1-d arrays. *)
  Definition nb_op (f : T -> T -> T) (a b : val T) : res (val T) :=
    match a, b with
    | VNum x, VNum y => Ok (VNum (f x y))
    | VNum x, VVec l => Ok (VVec (map (f x) l))
    | VVec l, VNum y => Ok (VVec (map (fun x => f x y) l))
    | VVec l, VVec l' => let? r := bcast f l l' in Ok (VVec r)
    | _, _ => Err TypeError
    end.

  (** [z[:len(v)] += v] *)
  Fixpoint add_into (z v : list T) : list T :=
    match z, v with
    | zi :: z', vi :: v' => nadd zi vi :: add_into z' v'
    | z, _ => z
    end.
  (** pySC/utils/classdef_tools.py lines 29-32, one-dimensional operands. *)
  Definition add_padded1 (a b : list T) : list T :=
    add_into (add_into (zeros (Nat.max (length a) (length b))) a) b.
  (** pySC/utils/classdef_tools.py lines 23-32 (add_padded).  Operands of different dimension: ValueError
      (lines 24-25).  Two numbers (0-d): [numpy.zeros] of the float [numpy.prod([])] raises TypeError.
      Two matrices: ValueError, from line 28 or because a 2-d operand does not fit the 1-d accumulator. *)
  Definition add_padded (a b : val T) : res (list T) :=
    match a, b with
    | VVec x, VVec y => Ok (add_padded1 x y)
    | VVec _, (VNum _ | VMat _) => Err ValueError
    | VNum _, VNum _ => Err TypeError
    | VNum _, (VVec _ | VMat _) => Err ValueError
    | VMat _, (VNum _ | VVec _ | VMat _) => Err ValueError
    | _, _ => Err AttributeError
    end.

  (** at findspos: s position of every element entrance and of the end of the ring. *)
  Fixpoint findspos_from (s : T) (lens : list T) : list T :=
    match lens with
    | [] => [s]
    | l :: lens' => s :: findspos_from (nadd s l) lens'
    end.

  (** [numpy.interp(x, [x0,x1], [f0,f1])] *)
  Definition interp2 (x x0 x1 f0 f1 : T) : T :=
    if nleb x1 x then f1 else if nleb x x0 then f0
    else nadd (nmul (ndiv (nsub f1 f0) (nsub x1 x0)) (nsub x x0)) f0.
  (** [numpy.interp(x, xp, fp)] for increasing sample points. *)
  Fixpoint interp (x : T) (pts : list (T * T)) : res T :=
    match pts with
    | [] => Err ValueError
    | (x0, f0) :: pts' =>
        if nleb x x0 then Ok f0
        else match pts' with
             | [] => Ok f0
             | (x1, f1) :: _ =>
                 if nltb x x1 then Ok (nadd (nmul (ndiv (nsub f1 f0) (nsub x1 x0)) (nsub x x0)) f0)
                 else interp x pts'
             end
    end.

  (** [numpy.unique(s, return_index=True)]: distinct values in increasing order with their first index. *)
  Fixpoint uins (s : T) (i : nat) (l : list (T * nat)) : list (T * nat) :=
    match l with
    | [] => [(s, i)]
    | (s', i') :: l' =>
        if neqb s s' then (s', i') :: l'
        else if nltb s s' then (s, i) :: (s', i') :: l' else (s', i') :: uins s i l'
    end.
  Fixpoint unique_index_from (i : nat) (acc : list (T * nat)) (s : list T) : list (T * nat) :=
    match s with
    | [] => acc
    | x :: s' => unique_index_from (S i) (uins x i acc) s'
    end.
  Definition unique_index (s : list T) : list nat := map snd (unique_index_from 0 [] s).

  (** Matrices as lists of rows. *)
  Definition dot (a b : list T) : T := nsum (zip_with nmul a b).
  Definition mvec (m : list (list T)) (v : list T) : list T := map (fun r => dot r v) m.
  Definition col (m : list (list T)) (j : nat) : list T := map (fun r => default n0 (r !! j)) m.
  Definition mtrans (m : list (list T)) : list (list T) :=
    match m with [] => [] | r :: _ => map (col m) (seq 0 (length r)) end.
  Definition mmul (a b : list (list T)) : list (list T) :=
    map (fun r => map (fun c => dot r c) (mtrans b)) a.
  Definition mget (m : list (list T)) (i j : nat) : T := default n0 (r ← m !! i; r !! j).
  Definition mident (n : nat) : list (list T) :=
    map (fun i => map (fun j => if (i =? j)%nat then n1 else n0) (seq 0 n)) (seq 0 n).
End Arr.

(** pySC/utils/classdef_tools.py lines 7-10 (update_double_ordinates) on columns (start, end):
    lexsort sorts by the end ordinate, then by the start ordinate; a column equal to its predecessor is dropped. *)
Definition pair_leb (p q : nat * nat) : bool :=
  (p.2 <? q.2)%nat || ((p.2 =? q.2)%nat && (p.1 <=? q.1)%nat).
Fixpoint pins (p : nat * nat) (l : list (nat * nat)) : list (nat * nat) :=
  match l with
  | [] => [p]
  | q :: l' => if pair_leb p q then p :: q :: l' else q :: pins p l'
  end.
Definition psort (l : list (nat * nat)) : list (nat * nat) := foldr pins [] l.
Fixpoint drop_repeats (l : list (nat * nat)) : list (nat * nat) :=
  match l with
  | [] => []
  | p :: l' =>
      match l' with
      | [] => [p]
      | q :: _ => if decide (p = q) then drop_repeats l' else p :: drop_repeats l'
      end
  end.
Definition update_double_ordinates (o1 o2 : list (nat * nat)) : list (nat * nat) := drop_repeats (psort (o1 ++ o2)).
