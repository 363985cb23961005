(** pySC/utils/sc_tools.py: elements selected by name (ords_from_regex) and tables of multipoles read from a text (read_multipoles).
    Arguments: [search], whether re.search finds the regular expression in a name; [float], the number a word stands for, if any.
    Left out: the file system, characters outside ASCII, words for infinities or NaN. *)
From Coq Require Import Ascii.
From stdpp Require Import base gmap strings list.
From Verif Require Import Num Base Model_Arr Model_SC Model_Err Model_Beam Model_Matlab.
Local Open Scope string_scope.
Local Open Scope list_scope.

(** [str.split] without argument: the white space of ASCII *)
Definition is_blank (c : ascii) : bool :=
  let n := nat_of_ascii c in (9 <=? n)%nat && (n <=? 13)%nat || (28 <=? n)%nat && (n <=? 32)%nat.
(** the characters of the word being read, in the order of the text, and the rest *)
Fixpoint split_from (word : string) (text : string) : list string :=
  match text with
  | EmptyString => if decide (word = "") then [] else [word]
  | String c rest =>
      if is_blank c then (if decide (word = "") then split_from "" rest else word :: split_from "" rest)
      else split_from (word +:+ String c EmptyString) rest
  end.
Definition split_words (text : string) : list string := split_from "" text.

Section Read.
  Context {T : Type} {N : Num T}.

  (** sc_tools.py lines 45-64 (ords_from_regex): a list of ordinates, in the order of the ring. *)
  Definition ords_from_regex (search : string -> bool) (ring : list (elem T)) : res (list nat) :=
    let? names := rmap (fun e => let? v := attr e "FamName" in as_str v) ring in
    Ok (map fst (List.filter (fun p => search p.2) (zip (seq 0 (length names)) names))).

  (** sc_tools.py lines 151-169 (read_multipoles).  [None] is Python's None, returned for a wrong number of numbers (lines 155-157).
      Lines 159-160: the places of the numbers that are exactly one; unless there is just one place, [idx] becomes the number 1, and line 163
      takes an element of a number (TypeError).  The type is a column number below two, so lines 164-166 are never reached. *)
  Definition places (AB : list (list T)) : list (nat * nat) :=
    concat (imap (fun r row => omap (fun c => match row !! c with Some x => if neqb x n1 then Some (r, c) else None | None => None end) (seq 0 2)) AB).
  Definition read_multipoles (float : string -> option T) (text : string) : res (option (list (list T) * nat * nat)) :=
    let? tab := rmap (fun w => match float w with Some x => Ok x | None => Err ValueError end) (split_words text) in
    if (length tab mod 3 =? 0)%nat then
      let AB := map (drop 1) (rows_of 3 (length tab / 3) tab) in
      match places AB with
      | [(order, type)] => Ok (Some (map roll1 AB, order, type))
      | _ => Err TypeError
      end
    else Ok None.
End Read.
