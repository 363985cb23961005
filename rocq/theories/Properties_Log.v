(** C89: messages of the program. *)
From Coq Require Import ZArith Lia.
From stdpp Require Import base gmap strings list.
From Verif Require Import Model_Log.
Local Open Scope string_scope.
Local Open Scope list_scope.
Local Open Scope Z_scope.

(** * Specification *)
(** loggers set up by the main program only: no logger but the root has a level or handlers *)
Definition plain (st : loggers) (n : list string) : Prop := forall k, (0 < k)%nat -> level_of st (take k n) = 0 /\ handlers_of st (take k n) = [].
(** what the user asked to see on the console *)
Definition asked (debug_flag : bool) (level_console : option Z) : Z := match level_console with Some l => l | None => if debug_flag then 10 else 20 end.
(** where a message of the given level belongs *)
Definition destination (level : Z) : stream := if decide (40 <= level) then Stderr else Stdout.
(** loggers that write the same messages, and go on doing so whatever level the root is given *)
Definition writes_alike (st st' : loggers) : Prop := forall n level, emit st' n level = emit st n level.

(** * Proofs *)
Lemma up_to_root_split n : exists l, up_to_root n = l ++ [[]] /\ forall m, m ∈ l -> exists k, (0 < k <= length n)%nat /\ m = take k n.
Proof.
  unfold up_to_root. cbn [seq map rev]. exists (rev (map (fun k => take k n) (seq 1 (length n)))). split; [done|]. intros m Hm. rewrite elem_of_list_In, <- in_rev in Hm.
  apply in_map_iff in Hm as (k&<-&Hk). apply in_seq in Hk. exists k. split; [lia|done].
Qed.
Lemma find_zeros l x : (forall y, y ∈ l -> y = 0) -> default 0 (List.find (fun l => negb (l =? 0)) (l ++ [x])) = x.
Proof.
  induction l as [|y l IH]; intros H; cbn [app List.find].
  - destruct (Z.eqb_spec x 0) as [-> |]; done.
  - rewrite (H y) by constructor. cbn. apply IH. intros z Hz. apply H. by constructor.
Qed.
Lemma plain_level st n : plain st n -> effective_level st n = level_of st [].
Proof.
  intros H. unfold effective_level. destruct (up_to_root_split n) as (l&->&Hl). rewrite map_app. cbn [map]. apply find_zeros. intros y Hy. apply elem_of_list_fmap in Hy as (m&->&Hm).
  destruct (Hl m Hm) as (k&Hk&->). apply H. lia.
Qed.
Lemma plain_handlers st n : plain st n -> concat (map (handlers_of st) (up_to_root n)) = handlers_of st [].
Proof.
  intros H. destruct (up_to_root_split n) as (l&->&Hl). rewrite map_app, concat_app. cbn [map concat]. rewrite app_nil_r. replace (concat (map (handlers_of st) l)) with (@nil handler); [done|].
  symmetry. clear -H Hl. induction l as [|m l IH]; [done|]. cbn [map concat]. rewrite IH by (intros; apply Hl; by constructor). destruct (Hl m) as (k&Hk&->); [by constructor|]. by rewrite (proj2 (H k ltac:(lia))).
Qed.
Definition main_handlers (id : nat) (lc : Z) : list handler :=
  [MkHandler id Stdout (Z.max lc 10) (Some 19); MkHandler (id + 1) Stdout (Z.max lc 20) (Some 29); MkHandler (id + 2) Stdout (Z.max 30 lc) (Some 39); MkHandler (id + 3) Stderr (Z.max 40 lc) None].
Lemma handlers_set n l st m : handlers_of (set_handlers n l st) m = if decide (m = n) then l else handlers_of st m.
Proof. unfold handlers_of, set_handlers. cbn. destruct (decide (m = n)) as [-> |]; [by rewrite lookup_insert|by rewrite lookup_insert_ne by congruence]. Qed.
Lemma level_set n l st m : level_of (set_level n l st) m = if decide (m = n) then l else level_of st m.
Proof. unfold level_of, set_level. cbn. destruct (decide (m = n)) as [-> |]; [by rewrite lookup_insert|by rewrite lookup_insert_ne by congruence]. Qed.
Lemma add_new n h st : (forall h', h' ∈ handlers_of st n -> h_id h' <> h_id h) -> add_handler n h st = set_handlers n (handlers_of st n ++ [h]) st.
Proof.
  intros H. unfold add_handler. assert (existsb (fun h' => (h_id h' =? h_id h)%nat) (handlers_of st n) = false) as ->; [|done].
  apply not_true_is_false. intros E. apply existsb_exists in E as (h'&Hin&E). apply Nat.eqb_eq in E. rewrite <- elem_of_list_In in Hin. by apply (H h').
Qed.
Lemma main_state flag id lr lc st : let st' := get_logger flag id "__main__" lr lc st in
  (forall n, level_of st' n = if decide (n = []) then lr else level_of st n) /\
  (forall n, handlers_of st' n = if decide (n = []) then main_handlers id (asked flag lc) else handlers_of st n).
Proof.
  cbv zeta. unfold get_logger. destruct (decide _) as [_|]; [|done]. replace (match lc with Some l => l | None => if flag then DEBUG else INFO end) with (asked flag lc) by (by destruct lc, flag).
  set (c := asked flag lc). unfold main_handlers.
  set (h1 := stream_handler id Stdout (Z.max c DEBUG) (Some (INFO - 1))). set (h2 := stream_handler (id + 1) Stdout (Z.max c INFO) (Some (WARNING - 1))).
  set (h3 := stream_handler (id + 2) Stdout (Z.max WARNING c) (Some (ERROR - 1))). set (h4 := stream_handler (id + 3) Stderr (Z.max ERROR c) None).
  set (s1 := set_level [] lr (set_handlers [] [] st)). assert (handlers_of s1 [] = []) as E1. { unfold s1. change (handlers_of (set_level [] lr (set_handlers [] [] st)) []) with (handlers_of (set_handlers [] [] st) []). by rewrite handlers_set. }
  set (s2 := add_handler [] h1 s1). assert (s2 = set_handlers [] [h1] s1) as E2. { unfold s2. rewrite add_new, E1; [done|]. intros h Hh. rewrite E1 in Hh. by apply elem_of_nil in Hh. }
  assert (handlers_of s2 [] = [h1]) as F2 by (by rewrite E2, handlers_set).
  set (s3 := add_handler [] h2 s2). assert (s3 = set_handlers [] [h1; h2] s2) as E3.
  { unfold s3. rewrite add_new, F2; [done|]. intros h Hh. rewrite F2 in Hh. apply elem_of_list_singleton in Hh as ->. cbn. lia. }
  assert (handlers_of s3 [] = [h1; h2]) as F3 by (by rewrite E3, handlers_set).
  set (s4 := add_handler [] h3 s3). assert (s4 = set_handlers [] [h1; h2; h3] s3) as E4.
  { unfold s4. rewrite add_new, F3; [done|]. intros h Hh. rewrite F3 in Hh. apply elem_of_cons in Hh as [-> |Hh]; [cbn; lia|]. apply elem_of_list_singleton in Hh as ->. cbn. lia. }
  assert (handlers_of s4 [] = [h1; h2; h3]) as F4 by (by rewrite E4, handlers_set).
  assert (add_handler [] h4 s4 = set_handlers [] [h1; h2; h3; h4] s4) as E5.
  { rewrite add_new, F4; [done|]. intros h Hh. rewrite F4 in Hh. apply elem_of_cons in Hh as [-> |Hh]; [cbn; lia|]. apply elem_of_cons in Hh as [-> |Hh]; [cbn; lia|]. apply elem_of_list_singleton in Hh as ->. cbn. lia. }
  rewrite E5. split; intros n.
  - change (level_of (set_handlers [] [h1; h2; h3; h4] s4) n) with (level_of s4 n). rewrite E4. change (level_of (set_handlers [] [h1; h2; h3] s3) n) with (level_of s3 n). rewrite E3.
    change (level_of (set_handlers [] [h1; h2] s2) n) with (level_of s2 n). rewrite E2. change (level_of (set_handlers [] [h1] s1) n) with (level_of s1 n). unfold s1. rewrite level_set. by destruct (decide (n = [])), (list_eq_nil_dec n).
  - rewrite handlers_set. destruct (decide (n = [])) as [-> |Hn]; [done|]. destruct (list_eq_nil_dec n) as [|Hn2]; [done|]. rewrite E4, handlers_set, E3, handlers_set, E2, handlers_set. rewrite !decide_False by done. unfold s1.
    change (handlers_of (set_level [] lr (set_handlers [] [] st)) n) with (handlers_of (set_handlers [] [] st) n). rewrite handlers_set. by rewrite decide_False.
Qed.
Lemma main_pass id c level : map h_stream (List.filter (fun h => passes h level) (main_handlers id c)) = if decide (Z.max 10 c <= level) then [destination level] else [].
Proof.
  unfold main_handlers, passes, destination. cbn [List.filter h_level h_max]. destruct (decide (Z.max 10 c <= level)) as [H2|H2].
  - destruct (Z.leb_spec (Z.max c 10) level) as [_|]; [|lia]. destruct (Z.leb_spec level 19) as [H3|H3]; cbn [andb].
    + destruct (Z.leb_spec (Z.max c 20) level) as [|_]; [lia|]. destruct (Z.leb_spec (Z.max 30 c) level) as [|_]; [lia|]. destruct (Z.leb_spec (Z.max 40 c) level) as [|_]; [lia|]. cbn. by rewrite decide_False by lia.
    + destruct (Z.leb_spec (Z.max c 20) level) as [_|]; [|lia]. destruct (Z.leb_spec level 29) as [H4|H4]; cbn [andb].
      * destruct (Z.leb_spec (Z.max 30 c) level) as [|_]; [lia|]. destruct (Z.leb_spec (Z.max 40 c) level) as [|_]; [lia|]. cbn. by rewrite decide_False by lia.
      * destruct (Z.leb_spec (Z.max 30 c) level) as [_|]; [|lia]. destruct (Z.leb_spec level 39) as [H5|H5]; cbn [andb].
        -- destruct (Z.leb_spec (Z.max 40 c) level) as [|_]; [lia|]. cbn. by rewrite decide_False by lia.
        -- destruct (Z.leb_spec (Z.max 40 c) level) as [_|]; [|lia]. cbn. by rewrite decide_True by lia.
  - destruct (Z.leb_spec (Z.max c 10) level) as [|_]; [lia|]. destruct (Z.leb_spec (Z.max c 20) level) as [|_]; [lia|]. destruct (Z.leb_spec (Z.max 30 c) level) as [|_]; [lia|].
    destruct (Z.leb_spec (Z.max 40 c) level) as [|_]; [lia|]. done.
Qed.
Lemma main_emit flag id lr lc st n level : plain st n -> n <> [] ->
  emit (get_logger flag id "__main__" lr lc st) n level =
  if decide (lr <= level /\ Z.max (asked flag lc) 10 <= level) then [destination level] else [].
Proof.
  intros Hp Hn. destruct (main_state flag id lr lc st) as [HL HH]. set (st' := get_logger flag id "__main__" lr lc st) in *.
  assert (plain st' n) as Hp'. { intros k Hk. rewrite HL, HH. destruct (decide (take k n = [])) as [E|E]; [|by apply Hp]. destruct n; [done|]. destruct k; [lia|done]. }
  unfold emit. rewrite plain_level, plain_handlers by done. rewrite HL, HH. rewrite !decide_True by done. rewrite main_pass. destruct (Z.ltb_spec level lr) as [H1|H1].
  { rewrite decide_False by lia. done. }
  destruct (decide (lr <= level /\ Z.max (asked flag lc) 10 <= level)) as [H2|H2]; [by rewrite decide_True by lia|by rewrite decide_False by lia].
Qed.
(** Once the main program has set up its logger, every message of a module at or above the level asked for is written exactly once, errors to
    the error stream and the rest to standard output; a message below is not written. *)
Theorem C89_once flag id lr lc st n level : plain st n -> n <> [] -> lr <= 10 ->
  emit (get_logger flag id "__main__" lr lc st) n level = if decide (Z.max 10 (asked flag lc) <= level) then [destination level] else [].
Proof. intros Hp Hn Hl. rewrite main_emit by done. destruct (decide (Z.max 10 _ <= level)); [rewrite decide_True by lia|rewrite decide_False by lia]; done. Qed.
(** Setting up the logger again replaces the handlers: nothing is written twice.  Modules change nothing. *)
Theorem C89_again flag flag' id id' lr lr' lc lc' st : writes_alike (get_logger flag' id' "__main__" lr' lc' st) (get_logger flag' id' "__main__" lr' lc' (get_logger flag id "__main__" lr lc st)).
Proof.
  intros n level. destruct (main_state flag id lr lc st) as [L1 H1]. destruct (main_state flag' id' lr' lc' (get_logger flag id "__main__" lr lc st)) as [L2 H2]. destruct (main_state flag' id' lr' lc' st) as [L3 H3].
  set (s1 := get_logger flag id "__main__" lr lc st) in *. set (s2 := get_logger flag' id' "__main__" lr' lc' s1) in *. set (s3 := get_logger flag' id' "__main__" lr' lc' st) in *.
  assert (forall n, level_of s2 n = level_of s3 n) as EL. { intros m. rewrite L2, L3. destruct (decide (m = [])); [done|]. rewrite L1. by rewrite decide_False. }
  assert (forall n, handlers_of s2 n = handlers_of s3 n) as EH. { intros m. rewrite H2, H3. destruct (decide (m = [])); [done|]. rewrite H1. by rewrite decide_False. }
  unfold emit, effective_level. rewrite (map_ext _ _ EL), (map_ext _ _ EH). done.
Qed.
Theorem C89_modules flag id name lr lc st : name <> "__main__" -> get_logger flag id name lr lc st = st.
Proof. intros H. unfold get_logger. by rewrite decide_False. Qed.

(** * Debug mode *)
Lemma filter_away id l : (forall h, h ∈ l -> h_id h <> id) -> List.filter (fun h => negb (h_id h =? id)%nat) l = l.
Proof.
  induction l as [|h l IH]; intros H; [done|]. cbn [List.filter]. assert (negb (h_id h =? id)%nat = true) as ->; [|rewrite IH; [done|intros; apply H; by constructor]].
  apply negb_true_iff, Nat.eqb_neq, H. constructor.
Qed.
Lemma filter_added id a b l : (forall h, h ∈ l -> h_id h <> id /\ h_id h <> S id) -> h_id a = id -> h_id b = (id + 1)%nat ->
  List.filter (fun h => negb (h_id h =? id + 1)%nat) (List.filter (fun h => negb (h_id h =? id)%nat) (l ++ [a; b])) = l.
Proof.
  intros H Ha Hb. rewrite List.filter_app, (filter_away id l). 2: { intros h Hh. by destruct (H h Hh). }
  cbn [List.filter]. rewrite Ha, Hb, Nat.eqb_refl. cbn [negb]. assert ((id + 1 =? id)%nat = false) as -> by (apply Nat.eqb_neq; lia). cbn [negb]. rewrite List.filter_app.
  rewrite filter_away. 2: { intros h Hh. destruct (H h Hh). lia. } cbn [List.filter]. rewrite Hb, Nat.eqb_refl. cbn [negb]. by rewrite app_nil_r.
Qed.
Section Debug.
  Context (id : nat) (file : string) (repo path : list string) (st : loggers).
  Context (Hnew : forall n h, h ∈ handlers_of st n -> h_id h <> id /\ h_id h <> S id).
  Let lg := caller_logger repo path.
  Let md := current_module repo path.
  Lemma debug_state : let st1 := snd (debug_enter id file repo path st) in let st' := debug_exit id (fst (debug_enter id file repo path st)) repo path st1 in
    (forall n, level_of st1 n = if decide (n = lg) then 10 else level_of st n) /\
    (forall n, handlers_of st1 n = if decide (n = md) then handlers_of st n ++ [MkHandler id (File file) 10 None; MkHandler (id + 1) Stdout 10 (Some 10)] else handlers_of st n) /\
    (forall n, level_of st' n = if decide (n = lg) then effective_level st lg else level_of st n) /\
    (forall n, handlers_of st' n = handlers_of st n).
  Proof.
    cbv zeta. unfold debug_enter, debug_exit. cbn [fst snd]. fold lg md. set (s1 := set_level lg DEBUG st).
    assert (forall n, handlers_of s1 n = handlers_of st n) as E1 by done.
    assert (add_handler md (file_handler id file DEBUG) s1 = set_handlers md (handlers_of st md ++ [MkHandler id (File file) 10 None]) s1) as ->.
    { rewrite add_new, E1; [done|]. intros h Hh. rewrite E1 in Hh. cbn. by destruct (Hnew _ _ Hh). }
    set (s2 := set_handlers md (handlers_of st md ++ [MkHandler id (File file) 10 None]) s1). assert (handlers_of s2 md = handlers_of st md ++ [MkHandler id (File file) 10 None]) as E2.
    { unfold s2. rewrite handlers_set. by rewrite decide_True. }
    assert (add_handler md (stream_handler (id + 1) Stdout DEBUG (Some DEBUG)) s2 = set_handlers md (handlers_of st md ++ [MkHandler id (File file) 10 None; MkHandler (id + 1) Stdout 10 (Some 10)]) s2) as ->.
    { rewrite add_new, E2; [rewrite <- app_assoc; done|]. intros h Hh. rewrite E2 in Hh. apply elem_of_app in Hh as [Hh|Hh]; [apply Hnew in Hh; cbn; lia|]. apply elem_of_list_singleton in Hh as ->. cbn. lia. }
    set (s3 := set_handlers md _ s2). assert (forall n, level_of s3 n = if decide (n = lg) then 10 else level_of st n) as L3. { intros n. change (level_of s3 n) with (level_of s1 n). unfold s1. by rewrite level_set. }
    assert (forall n, handlers_of s3 n = if decide (n = md) then handlers_of st n ++ [MkHandler id (File file) 10 None; MkHandler (id + 1) Stdout 10 (Some 10)] else handlers_of st n) as H3.
    { intros n. unfold s3. rewrite handlers_set. destruct (decide (n = md)) as [-> |Hn]; [done|]. unfold s2. rewrite handlers_set, decide_False by done. done. }
    split; [done|]. split; [done|]. set (lv := effective_level st lg). set (s4 := set_level lg lv s3). assert (forall n, handlers_of s4 n = handlers_of s3 n) as H4 by done. split.
    - intros n. change (level_of (remove_handler md (id + 1) (remove_handler md id s4)) n) with (level_of s4 n). unfold s4. rewrite level_set. destruct (decide (n = lg)); [done|]. rewrite L3. by rewrite decide_False.
    - intros n. unfold remove_handler. rewrite handlers_set. destruct (decide (n = md)) as [-> |Hn].
      + rewrite handlers_set, decide_True by done. rewrite H4, H3, decide_True by done. by apply filter_added; [apply Hnew|..].
      + rewrite handlers_set, decide_False by done. rewrite H4, H3. by rewrite decide_False.
  Qed.
End Debug.

(** The effective level is that of the nearest logger above with a level. *)
Lemma up_to_root_snoc n x : up_to_root (n ++ [x]) = (n ++ [x]) :: up_to_root n.
Proof.
  unfold up_to_root. rewrite app_length. cbn [length]. rewrite Nat.add_1_r. rewrite (seq_S (S (length n))), map_app, rev_app_distr. cbn [map rev app]. f_equal.
  - cbn [Nat.add]. rewrite take_ge; [done|]. rewrite app_length. cbn. lia.
  - f_equal. apply map_ext_in. intros k Hk. apply in_seq in Hk. rewrite take_app_le by lia. done.
Qed.
Lemma effective_snoc st n x : effective_level st (n ++ [x]) = if level_of st (n ++ [x]) =? 0 then effective_level st n else level_of st (n ++ [x]).
Proof. unfold effective_level. rewrite up_to_root_snoc. cbn [map List.find]. by destruct (level_of st (n ++ [x]) =? 0). Qed.
Lemma effective_root st : effective_level st [] = level_of st [].
Proof. unfold effective_level, up_to_root. cbn. destruct (Z.eqb_spec (level_of st []) 0) as [-> |]; done. Qed.
Lemma effective_pinned st st' lg : (forall n, level_of st' n = if decide (n = lg) then effective_level st lg else level_of st n) -> forall n, effective_level st' n = effective_level st n.
Proof.
  intros H n. induction n as [|x n IH] using rev_ind.
  - rewrite !effective_root, H. destruct (decide _) as [<-|]; [apply effective_root|done].
  - rewrite !effective_snoc, H, IH. destruct (decide _) as [<-|]; [|done]. rewrite effective_snoc. destruct (Z.eqb_spec (level_of st (n ++ [x])) 0) as [E|E].
    + by destruct (Z.eqb_spec (effective_level st n) 0).
    + by destruct (Z.eqb_spec (level_of st (n ++ [x])) 0).
Qed.
(** After the debug mode every message is written as before it. *)
Theorem C89_debug_over id file repo path st : (forall n h, h ∈ handlers_of st n -> h_id h <> id /\ h_id h <> S id) ->
  writes_alike st (debug_exit id (fst (debug_enter id file repo path st)) repo path (snd (debug_enter id file repo path st))).
Proof.
  intros Hnew n level. destruct (debug_state id file repo path st Hnew) as (_&_&HL&HH). unfold emit. rewrite (effective_pinned _ _ _ HL), (map_ext _ _ HH). done.
Qed.
(** Finding: but the logger has been given the level it only inherited: it no longer follows the level of the root. *)
Theorem C89_finding_level id file repo path st l : (forall n h, h ∈ handlers_of st n -> h_id h <> id /\ h_id h <> S id) -> plain st (caller_logger repo path) -> level_of st [] <> 0 ->
  let lg := caller_logger repo path in
  effective_level (set_level [] l st) lg = l /\
  effective_level (set_level [] l (debug_exit id (fst (debug_enter id file repo path st)) repo path (snd (debug_enter id file repo path st)))) lg = level_of st [].
Proof.
  intros Hnew Hp H0 lg. destruct (debug_state id file repo path st Hnew) as (_&_&HL&_). split.
  - rewrite plain_level; [by rewrite level_set|]. intros k Hk. rewrite level_set. destruct (decide (take k lg = [])) as [E|E]; [exfalso|by apply Hp].
    unfold lg, caller_logger in E. destruct (current_module repo path); destruct k; try lia; done.
  - fold lg in HL. rewrite (plain_level st lg) in HL by done. assert (exists n x, lg = n ++ [x]) as (n&x&E) by (unfold lg, caller_logger; eauto). rewrite E, effective_snoc, <- E, level_set, decide_False by (rewrite E; by destruct n).
    rewrite HL, decide_True by done. by destruct (Z.eqb_spec (level_of st []) 0).
Qed.
Lemma filter_perm {A} (f : A -> bool) l l' : l ≡ₚ l' -> List.filter f l ≡ₚ List.filter f l'.
Proof.
  induction 1 as [|x l l' _ IH|x y l|l l' l'' _ IH _ IH']; cbn [List.filter]; [done| | |by rewrite IH].
  - destruct (f x); by rewrite IH.
  - destruct (f x), (f y); done || constructor.
Qed.
(** During the debug mode the messages of the caller go to the file as well, and those of level DEBUG to standard output. *)
Theorem C89_debug_during flag id id' lr lc st file repo path level : plain st (caller_logger repo path) -> let st0 := get_logger flag id "__main__" lr lc st in
  (forall n h, h ∈ handlers_of st0 n -> h_id h <> id' /\ h_id h <> S id') ->
  emit (snd (debug_enter id' file repo path st0)) (caller_logger repo path) level ≡ₚ
    (if decide (10 <= level) then [File file] else []) ++ (if decide (level = 10) then [Stdout] else []) ++ (if decide (Z.max 10 (asked flag lc) <= level) then [destination level] else []).
Proof.
  intros Hp st0 Hnew. set (lg := caller_logger repo path) in *. destruct (debug_state id' file repo path st0 Hnew) as (HL&HH&_&_). set (st1 := snd (debug_enter id' file repo path st0)) in *.
  destruct (main_state flag id lr lc st) as [L0 H0]. fold st0 in L0, H0. set (md := current_module repo path) in *. assert (lg = md ++ [default "" (last path)]) as E by done.
  assert (lg <> []) as Hlg by (rewrite E; by destruct md). assert (lg <> md) as Hne. { rewrite E. intros X. apply (f_equal length) in X. rewrite app_length in X. cbn in X. lia. }
  assert (effective_level st1 lg = 10) as EL. { rewrite E, effective_snoc, <- E. rewrite HL. fold lg. by rewrite decide_True. }
  assert (forall k, (0 < k)%nat -> handlers_of st0 (take k lg) = []) as Hplain. { intros k Hk. rewrite H0. destruct (decide (take k lg = [])) as [X|X]; [|by apply Hp]. destruct lg; [done|]. destruct k; [lia|done]. }
  assert (concat (map (handlers_of st1) (up_to_root lg)) ≡ₚ [MkHandler id' (File file) 10 None; MkHandler (id' + 1) Stdout 10 (Some 10)] ++ main_handlers id (asked flag lc)) as EH.
  { rewrite E, up_to_root_snoc, <- E. cbn [map concat]. rewrite (HH lg). rewrite decide_False by done. pose proof (Hplain (length lg) ltac:(destruct lg; [done|cbn; lia])) as X. rewrite take_ge in X by lia. rewrite X. cbn [app]. clear X.
    destruct (decide (md = [])) as [Em|Em].
    - rewrite Em. unfold up_to_root. cbn [length seq map rev app concat take]. rewrite (HH []), Em. rewrite decide_True by done. rewrite H0, decide_True by done. rewrite app_nil_r. apply Permutation_app_comm.
    - destruct (exists_last Em) as (n'&x&Ex). rewrite Ex, up_to_root_snoc, <- Ex. cbn [map concat]. rewrite HH, decide_True by done.
      assert (forall k, (0 < k <= length md)%nat -> handlers_of st0 (take k md) = []) as Hm. { intros k Hk. pose proof (Hplain k ltac:(lia)) as X. rewrite E, take_app_le in X by lia. done. }
      pose proof (Hm (length md) ltac:(destruct md; [done|cbn; lia])) as X. rewrite take_ge in X by lia. rewrite X. cbn [app]. do 2 apply perm_skip. clear X.
      destruct (up_to_root_split n') as (l&El&Hl). assert (map (handlers_of st1) (up_to_root n') = map (handlers_of st0) (up_to_root n')) as ->.
      { apply map_ext_in. intros m Hin. rewrite HH, decide_False; [done|]. rewrite <- elem_of_list_In in Hin. rewrite El in Hin. intros ->. assert (length md = S (length n')) as Hlen by (rewrite Ex, app_length; cbn; lia).
        apply elem_of_app in Hin as [Hin|Hin]; [destruct (Hl _ Hin) as (k&_&Ek); apply (f_equal length) in Ek; rewrite take_length in Ek; lia|]. apply elem_of_list_singleton in Hin. rewrite Hin in Hlen. cbn in Hlen. lia. }
      rewrite El, map_app, concat_app. cbn [map concat]. rewrite app_nil_r. rewrite (H0 []), decide_True by done. replace (concat (map (handlers_of st0) l)) with (@nil handler); [done|]. symmetry.
      clear El. induction l as [|m l IH]; [done|]. cbn [map concat]. rewrite IH by (intros; apply Hl; by constructor). rewrite app_nil_r. destruct (Hl m) as (k&Hk&->); [by constructor|].
      pose proof (Hm k) as X. rewrite Ex, take_app_le in X by lia. apply X. rewrite app_length. lia. }
  unfold emit. rewrite EL. destruct (Z.ltb_spec level 10) as [H1|H1].
  { rewrite !decide_False by lia. done. }
  rewrite (decide_True (P := 10 <= level)) by done. rewrite (Permutation_map h_stream (filter_perm _ _ _ EH)). rewrite List.filter_app, map_app, main_pass. rewrite app_assoc. apply Permutation_app; [|done].
  unfold passes. cbn [List.filter h_level h_max]. destruct (Z.leb_spec 10 level) as [_|]; [|lia]. cbn [andb]. destruct (Z.leb_spec level 10) as [H2|H2]; [rewrite decide_True by lia|rewrite decide_False by lia]; done.
Qed.
(** The logger of a file of the package is named after the directories of the file and the file. *)
Theorem C89_name repo dirs file : caller_logger repo (repo ++ dirs ++ [file]) = dirs ++ [file] /\ current_module repo (repo ++ dirs ++ [file]) = dirs.
Proof.
  assert (current_module repo (repo ++ dirs ++ [file]) = dirs) as E.
  { unfold current_module. rewrite (app_assoc repo dirs [file]). rewrite app_length. cbn [length]. replace (length (repo ++ dirs) + 1 - 1)%nat with (length (repo ++ dirs)) by lia. rewrite take_app. apply drop_app. }
  split; [|done]. unfold caller_logger. rewrite E. by rewrite app_assoc, last_snoc.
Qed.

(** A concrete case: the main program asks for nothing; a file of the package writes messages of all levels, in and out of debug mode. *)
Definition nobody : loggers := MkLoggers ∅ ∅.
Definition running : loggers := get_logger false 0 "__main__" DEBUG None (get_logger true 0 "__main__" DEBUG None nobody).
Definition here : list string := ["home"; "pySC"; "core"; "beam"].
Example C89_case :
  map (emit running ["core"; "beam"]) [5; 10; 20; 30; 40; 50] = [[]; []; [Stdout]; [Stdout]; [Stderr]; [Stderr]] /\
  (let during := debug_enter 7 "x.log" ["home"; "pySC"] here running in
   map (emit (snd during) ["core"; "beam"]) [5; 10; 20; 40] = [[]; [File "x.log"; Stdout]; [File "x.log"; Stdout]; [File "x.log"; Stderr]] /\
   map (emit (debug_exit 7 (fst during) ["home"; "pySC"] here (snd during)) ["core"; "beam"]) [5; 10; 20; 30; 40; 50] = [[]; []; [Stdout]; [Stdout]; [Stderr]; [Stderr]]).
Proof. vm_compute. done. Qed.
Example C89_premises : plain nobody ["core"; "beam"] /\ plain running ["core"; "beam"] /\ level_of running [] <> 0 /\ (forall n h, h ∈ handlers_of running n -> h_id h <> 7%nat /\ h_id h <> 8%nat).
Proof.
  repeat split; try done.
  - destruct k as [|[|[|k]]]; [lia|done..].
  - destruct k as [|[|[|k]]]; [lia|done..].
  - destruct (main_state false 0 DEBUG None (get_logger true 0 "__main__" DEBUG None nobody)) as [_ HH]. fold running in HH. rewrite HH in H.
    destruct (decide (n = [])); [|by (destruct (main_state true 0 DEBUG None nobody) as [_ H2]; rewrite H2, decide_False in H by done; apply elem_of_nil in H)].
    unfold main_handlers in H. rewrite !elem_of_cons, elem_of_nil in H. destruct H as [-> |[-> |[-> |[-> |[]]]]]; done.
  - destruct (main_state false 0 DEBUG None (get_logger true 0 "__main__" DEBUG None nobody)) as [_ HH]. fold running in HH. rewrite HH in H.
    destruct (decide (n = [])); [|by (destruct (main_state true 0 DEBUG None nobody) as [_ H2]; rewrite H2, decide_False in H by done; apply elem_of_nil in H)].
    unfold main_handlers in H. rewrite !elem_of_cons, elem_of_nil in H. destruct H as [-> |[-> |[-> |[-> |[]]]]]; done.
Qed.
(** A stream handler writes the records from its level to its maximum, both included; a maximum of zero (NOTSET) is no maximum. *)
Theorem C89_handler id out lo hi level : passes (stream_handler id out lo hi) level = true <-> lo <= level /\ forall m, hi = Some m -> m <> 0 -> level <= m.
Proof.
  unfold passes, stream_handler. cbn. rewrite andb_true_iff, Z.leb_le. destruct hi as [m|]; [destruct (Z.eqb_spec m 0) as [-> |Hm]|].
  - split; [intros [H _]; split; [done|intros m [= <-] ?; done]|intros [H _]; done].
  - rewrite Z.leb_le. split; [intros [H1 H2]; split; [done|intros m' [= <-] _; done]|intros [H1 H2]; split; [done|by apply H2]].
  - split; [intros [H _]; split; [done|by intros]|intros [H _]; done].
Qed.
Print Assumptions C89_handler.
Print Assumptions C89_once.
Print Assumptions C89_again.
Print Assumptions C89_modules.
Print Assumptions C89_debug_over.
Print Assumptions C89_finding_level.
Print Assumptions C89_debug_during.
Print Assumptions C89_name.
