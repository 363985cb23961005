(** Python-like computations: results with exceptions, state kept on exception, and the values held by a lattice. *)
From stdpp Require Import base gmap strings list sorting.
From Verif Require Import Num.
From Coq Require Import ZArith.

(** Python exceptions that the modelled code raises.  [NonFinite], [OutOfDraws] and [OutOfFuel] are not Python
    exceptions: [NonFinite] marks a division by zero (numpy would go on with inf or nan; the model stops),
    [OutOfDraws] marks that the finite prefix of the random stream given to the model is used up,
    [OutOfFuel] marks that a bounded unrolling of an unbounded loop was too short. *)
Inductive exn :=
| ValueError | AttributeError | TypeError | IndexError | KeyError | RuntimeError | GenericException
| UnboundLocal | ZeroDivisionError | NonFinite | OutOfDraws | OutOfFuel.
#[global] Instance exn_eq_dec : EqDecision exn.
Proof. solve_decision. Defined.

Inductive res (A : Type) := Ok (a : A) | Err (e : exn).
Arguments Ok {A} a.
Arguments Err {A} e.

Definition rbind {A B} (m : res A) (f : A -> res B) : res B :=
  match m with Ok a => f a | Err e => Err e end.
Notation "'let?' x ':=' m 'in' k" := (rbind m (fun x => k)) (at level 200, x pattern, m at level 100, k at level 200).

(** Computations on a state: the state reached is returned also when an exception is raised. *)
Definition M (S A : Type) : Type := S -> res A * S.
Definition ret {S A} (a : A) : M S A := fun s => (Ok a, s).
Definition raise {S A} (e : exn) : M S A := fun s => (Err e, s).
Definition bind {S A B} (m : M S A) (f : A -> M S B) : M S B :=
  fun s => match m s with (Ok a, s') => f a s' | (Err e, s') => (Err e, s') end.
Definition get {S} : M S S := fun s => (Ok s, s).
Definition gets {S A} (f : S -> A) : M S A := fun s => (Ok (f s), s).
Definition modify {S} (f : S -> S) : M S unit := fun s => (Ok tt, f s).
Definition lift {S A} (r : res A) : M S A := fun s => (r, s).
Notation "'let!' x ':=' m 'in' k" := (bind m (fun x => k)) (at level 200, x pattern, m at level 100, k at level 200).
Notation "m ';;;' k" := (bind m (fun _ => k)) (at level 199, right associativity).

(** [for x in l: f(x)] *)
Fixpoint forM {S A} (l : list A) (f : A -> M S unit) : M S unit :=
  match l with
  | [] => ret tt
  | x :: l' => f x ;;; forM l' f
  end.
Fixpoint mapM {S A B} (l : list A) (f : A -> M S B) : M S (list B) :=
  match l with
  | [] => ret []
  | x :: l' => let! y := f x in let! ys := mapM l' f in ret (y :: ys)
  end.
Fixpoint rmap {A B} (f : A -> res B) (l : list A) : res (list B) :=
  match l with
  | [] => Ok []
  | x :: l' => let? y := f x in let? ys := rmap f l' in Ok (y :: ys)
  end.
Fixpoint rfold {A B} (f : B -> A -> res B) (l : list A) (b : B) : res B :=
  match l with
  | [] => Ok b
  | x :: l' => let? b' := f b x in rfold f l' b'
  end.
Definition when {S} (b : bool) (m : M S unit) : M S unit := if b then m else ret tt.

(** [l[i]] *)
Definition idx {A} (l : list A) (i : nat) : res A :=
  match l !! i with Some x => Ok x | None => Err IndexError end.
(** [l[i] = x] *)
Definition idx_set {A} (l : list A) (i : nat) (x : A) : res (list A) :=
  match l !! i with Some _ => Ok (<[i := x]> l) | None => Err IndexError end.

(** Limits: a number or [numpy.inf]. *)
Inductive lim (T : Type) := Fin (x : T) | PInf.
Arguments Fin {T} x.
Arguments PInf {T}.

(** Attribute values of lattice elements. *)
Inductive val (T : Type) :=
| VNum (x : T)                     (* a float or Python number (0-d) *)
| VVec (l : list T)                (* 1-d float array *)
| VMat (rows : list (list T))      (* 2-d float array *)
| VStr (s : string)
| VBool (b : bool)
| VInt (z : Z)
| VOrds (l : list nat)             (* 1-d integer array of ordinates *)
| VTab (t : list (nat * list T))   (* dictionary order -> 1-d array, insertion ordered *)
| VLims (l : list (lim T))         (* 1-d array of limits, entries may be inf *)
| VLim (l : lim T)                 (* a limit *)
| VList (v : val T) (cut : T).     (* a Python list [value, cut-off] stored as it is *)
Arguments VNum {T} x.
Arguments VVec {T} l.
Arguments VMat {T} rows.
Arguments VStr {T} s.
Arguments VBool {T} b.
Arguments VInt {T} z.
Arguments VOrds {T} l.
Arguments VTab {T} t.
Arguments VLims {T} l.
Arguments VLim {T} l.
Arguments VList {T} v cut.

(** A lattice element is the dictionary of its attributes. *)
Notation elem T := (gmap string (val T)).

(** Insertion-ordered dictionaries with string keys ([dict.update], [d[k] = v]). *)
Definition dict (A : Type) := list (string * A).
Fixpoint dget {A} (d : dict A) (k : string) : option A :=
  match d with
  | [] => None
  | (k', v) :: d' => if decide (k = k') then Some v else dget d' k
  end.
Fixpoint dset {A} (d : dict A) (k : string) (v : A) : dict A :=
  match d with
  | [] => [(k, v)]
  | (k', v') :: d' => if decide (k = k') then (k', v) :: d' else (k', v') :: dset d' k v
  end.
Definition dupdate {A} (d kw : dict A) : dict A := foldl (fun acc kv => dset acc kv.1 kv.2) d kw.
Definition dkeys {A} (d : dict A) : list string := map fst d.
(** Tables keyed by order ([syspol[order] = ...]). *)
Fixpoint tset {A} (d : list (nat * A)) (k : nat) (v : A) : list (nat * A) :=
  match d with
  | [] => [(k, v)]
  | (k', v') :: d' => if decide (k = k') then (k', v) :: d' else (k', v') :: tset d' k v
  end.

Section Values.
  Context {T : Type}.
  (** [getattr(e, a)]: AttributeError when missing. *)
  Definition attr (e : elem T) (a : string) : res (val T) :=
    match e !! a with Some v => Ok v | None => Err AttributeError end.
  Definition hasattr (e : elem T) (a : string) : bool :=
    match e !! a with Some _ => true | None => false end.
  Definition as_num (v : val T) : res T := match v with VNum x => Ok x | _ => Err TypeError end.
  Definition as_vec (v : val T) : res (list T) := match v with VVec l => Ok l | _ => Err TypeError end.
  Definition as_str (v : val T) : res string := match v with VStr s => Ok s | _ => Err TypeError end.
  Definition as_tab (v : val T) : res (list (nat * list T)) := match v with VTab t => Ok t | _ => Err TypeError end.
  Definition as_ords (v : val T) : res (list nat) := match v with VOrds l => Ok l | _ => Err TypeError end.
  Definition as_lims (v : val T) : res (list (lim T)) := match v with VLims l => Ok l | _ => Err TypeError end.
  Definition as_lim (v : val T) : res (lim T) := match v with VLim l => Ok l | _ => Err TypeError end.
  Definition attr_num (e : elem T) (a : string) : res T := let? v := attr e a in as_num v.
  Definition attr_vec (e : elem T) (a : string) : res (list T) := let? v := attr e a in as_vec v.
  Definition attr_str (e : elem T) (a : string) : res string := let? v := attr e a in as_str v.
  (** [setattr(e, a, v)] as a computation on the element. *)
  Definition setattr (a : string) (v : val T) : M (elem T) unit := modify (fun e => <[a := v]> e).
  Definition getm {A} (f : elem T -> res A) : M (elem T) A := fun e => (f e, e).
End Values.

(** [numpy.unique] on ordinates: sorted, without repetition. *)
Fixpoint uinsert (x : nat) (l : list nat) : list nat :=
  match l with
  | [] => [x]
  | y :: l' => if (x <? y) then x :: y :: l' else if (x =? y) then y :: l' else y :: uinsert x l'
  end.
Definition unique (l : list nat) : list nat := foldr uinsert [] l.
