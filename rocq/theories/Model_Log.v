(** utils/logging_tools.py, with the part of Python's logging module it uses.
    A logger is known by the parts of its dotted name; the root logger has no parts.  Colours and formats of messages are left out. *)
From Coq Require Import ZArith.
From stdpp Require Import base gmap strings list.
Local Open Scope string_scope.
Local Open Scope list_scope.
Local Open Scope Z_scope.

Definition DEBUG : Z := 10.
Definition INFO : Z := 20.
Definition WARNING : Z := 30.
Definition ERROR : Z := 40.

Inductive stream := Stdout | Stderr | File (name : string).
(** a handler: its identity, where it writes, its level, and the level of its filter *)
Record handler := MkHandler { h_id : nat; h_stream : stream; h_level : Z; h_max : option Z }.
(** levels and handlers of the loggers; a logger not mentioned has level NOTSET (zero) and no handlers *)
Record loggers := MkLoggers { l_levels : gmap (list string) Z; l_handlers : gmap (list string) (list handler) }.
Definition level_of (st : loggers) (n : list string) : Z := default 0 (l_levels st !! n).
Definition handlers_of (st : loggers) (n : list string) : list handler := default [] (l_handlers st !! n).
Definition set_level (n : list string) (l : Z) (st : loggers) : loggers := MkLoggers (<[n := l]> (l_levels st)) (l_handlers st).
Definition set_handlers (n : list string) (l : list handler) (st : loggers) : loggers := MkLoggers (l_levels st) (<[n := l]> (l_handlers st)).

(** Python's logging: the loggers above a logger, itself first, the root last; the level that counts; who writes a record *)
Definition up_to_root (n : list string) : list (list string) := rev (map (fun k => take k n) (seq 0 (S (length n)))).
Definition effective_level (st : loggers) (n : list string) : Z :=
  default 0 (List.find (fun l => negb (l =? 0)) (map (level_of st) (up_to_root n))).
(** lines 25-31 (MaxFilter) *)
Definition passes (h : handler) (level : Z) : bool :=
  (h_level h <=? level) && match h_max h with None => true | Some m => level <=? m end.
Definition emit (st : loggers) (n : list string) (level : Z) : list stream :=
  if level <? effective_level st n then []
  else map h_stream (List.filter (fun h => passes h level) (concat (map (handlers_of st) (up_to_root n)))).
Definition add_handler (n : list string) (h : handler) (st : loggers) : loggers :=
  if existsb (fun h' => (h_id h' =? h_id h)%nat) (handlers_of st n) then st else set_handlers n (handlers_of st n ++ [h]) st.
Definition remove_handler (n : list string) (id : nat) (st : loggers) : loggers :=
  set_handlers n (List.filter (fun h => negb (h_id h =? id)%nat) (handlers_of st n)) st.

(** lines 157-174 (file_handler, stream_handler); a maximum of zero counts as none *)
Definition file_handler (id : nat) (name : string) (level : Z) : handler := MkHandler id (File name) level None.
Definition stream_handler (id : nat) (s : stream) (level : Z) (max_level : option Z) : handler :=
  MkHandler id s level (match max_level with Some m => if m =? 0 then None else Some m | None => None end).

(** lines 92-154 (get_logger): the effect on the loggers; the logger returned is found by the file of the caller.  [debug_flag] is
    sys.flags.debug; [id] is the identity of the first new handler. *)
Definition get_logger (debug_flag : bool) (id : nat) (name : string) (level_root : Z) (level_console : option Z) (st : loggers) : loggers :=
  if decide (name = "__main__") then
    let lc := match level_console with Some l => l | None => if debug_flag then DEBUG else INFO end in
    let st1 := set_level [] level_root (set_handlers [] [] st) in
    let st2 := add_handler [] (stream_handler id Stdout (Z.max lc DEBUG) (Some (INFO - 1))) st1 in
    let st3 := add_handler [] (stream_handler (id + 1) Stdout (Z.max lc INFO) (Some (WARNING - 1))) st2 in
    let st4 := add_handler [] (stream_handler (id + 2) Stdout (Z.max WARNING lc) (Some (ERROR - 1))) st3 in
    add_handler [] (stream_handler (id + 3) Stderr (Z.max ERROR lc) None) st4
  else st.

(** lines 179-217: the name of the logger from the path of the file of the caller, given as its parts without
    extension; [repo] is the path of the package *)
Definition current_module (repo path : list string) : list string := drop (length repo) (take (length path - 1) path).
Definition caller_logger (repo path : list string) : list string := current_module repo path ++ [default "" (last path)].

(** lines 42-88 (DebugMode, active): begin and end; the level remembered is returned by the first *)
Definition debug_enter (id : nat) (file : string) (repo path : list string) (st : loggers) : Z * loggers :=
  let lg := caller_logger repo path in
  let md := current_module repo path in
  let level := effective_level st lg in
  (level, add_handler md (stream_handler (id + 1) Stdout DEBUG (Some DEBUG)) (add_handler md (file_handler id file DEBUG) (set_level lg DEBUG st))).
Definition debug_exit (id : nat) (level : Z) (repo path : list string) (st : loggers) : loggers :=
  let lg := caller_logger repo path in
  let md := current_module repo path in
  remove_handler md (id + 1) (remove_handler md id (set_level lg level st)).
