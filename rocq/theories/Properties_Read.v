(** C84: selecting elements by name and reading tables of multipoles. *)
From Coq Require Import Reals Lra Lia QArith ZArith Ascii.
From stdpp Require Import base gmap strings list.
From Verif Require Import Num Base Model_Arr Model_SC Model_Err Model_Beam Model_Matlab Model_Read Lemmas Examples Proofs_Update Proofs_Field Proofs_Beam Spec Properties_Mult.
Local Open Scope string_scope.
Local Open Scope list_scope.

(** * Specification *)
(** the white space of ASCII: tabulators, ends of lines and pages, separators (FS, GS, RS, US), the space *)
Definition white (c : ascii) : bool := existsb (Ascii.eqb c) ["009"; "010"; "011"; "012"; "013"; "028"; "029"; "030"; "031"; " "]%char.
(** white space only / no white space *)
Fixpoint blank (t : string) : Prop := match t with EmptyString => True | String c t' => white c = true /\ blank t' end.
Fixpoint solid (t : string) : Prop := match t with EmptyString => True | String c t' => white c = false /\ solid t' end.
(** A text is made of words: white space, a word, then the end or white space, and so on. *)
Inductive words : string -> list string -> Prop :=
| words_end w : blank w -> words w []
| words_more w t r l : blank w -> t <> "" -> solid t -> (r = "" \/ exists c r', r = String c r' /\ white c = true) -> words r l -> words (w +:+ t +:+ r) (t :: l).
(** number [k] of row [r] in a table with three numbers in a row *)
Definition cell {A} (tab : list A) (r k : nat) : option A := tab !! (3 * r + k)%nat.
(** the multipoles of row [r]: the first number of a row is left out; of the other two, [c] is 0 for the first and 1 for the second *)
Definition unit_at (tab : list R) (r c : nat) : Prop := (c < 2)%nat /\ cell tab r (1 + c) = Some 1%R.
Definition numbers_of {A} (float : string -> option A) (text : string) (tab : list A) : Prop :=
  exists l, words text l /\ Forall2 (fun w x => float w = Some x) l tab.
(** both columns, the second one first *)
Definition swapped {A} (tab : list A) (BA : list (list A)) : Prop :=
  (length tab = 3 * length BA)%nat /\ forall r, (r < length BA)%nat -> exists a b, cell tab r 1 = Some a /\ cell tab r 2 = Some b /\ BA !! r = Some [b; a].

(** * Words *)
Lemma is_blank_white c : is_blank c = white c. Proof. destruct c as [[] [] [] [] [] [] [] []]; vm_compute; reflexivity. Qed.
Lemma app_cons c (s t : string) : String c s +:+ t = String c (s +:+ t). Proof. done. Qed.
Lemma app_empty (s : string) : s +:+ "" = s. Proof. induction s as [|c s IH]; [done|]. by rewrite app_cons, IH. Qed.
Lemma app_assoc_s (a b c : string) : (a +:+ b) +:+ c = a +:+ b +:+ c. Proof. induction a as [|x a IH]; [done|]. by rewrite !app_cons, IH. Qed.
Lemma split_solid t : solid t -> forall w r, split_from w (t +:+ r) = split_from (w +:+ t) r.
Proof.
  induction t as [|c t IH]; intros Ht w r; [by rewrite app_empty|]. destruct Ht as [Hc Ht]. rewrite app_cons. cbn [split_from]. rewrite is_blank_white, Hc, IH by done.
  by rewrite app_assoc_s.
Qed.
Lemma split_blank w : blank w -> forall r, split_from "" (w +:+ r) = split_from "" r.
Proof.
  induction w as [|c w IH]; intros Hw r; [done|]. destruct Hw as [Hc Hw]. rewrite app_cons. cbn [split_from]. rewrite is_blank_white, Hc, decide_True by done. by apply IH.
Qed.
Lemma split_sound text l : words text l -> split_words text = l.
Proof.
  unfold split_words. induction 1 as [w Hw|w t r l Hw Hne Ht Hr HW IH].
  - rewrite <- (app_empty w), split_blank by done. done.
  - rewrite split_blank, split_solid by done. destruct Hr as [->|(c&r'&->&Hc)].
    + cbn [split_from] in *. rewrite decide_False by (destruct t; done). rewrite decide_True in IH by done. by rewrite <- IH.
    + cbn [split_from] in *. rewrite is_blank_white, Hc in *. rewrite decide_False by (destruct t; done). rewrite decide_True in IH by done. by rewrite IH.
Qed.
Lemma solid_app a b : solid a -> solid b -> solid (a +:+ b).
Proof. induction a as [|c a IH]; [done|]. intros [H1 H2] Hb. split; [done|]. by apply IH. Qed.
Lemma words_exist text : forall w, solid w -> words (w +:+ text) (split_from w text) /\ (forall b, blank b -> words (b +:+ w +:+ text) (split_from w text)).
Proof.
  induction text as [|c text IH]; intros w Hw.
  - rewrite app_empty. cbn [split_from]. destruct (decide (w = "")) as [->|Hn].
    + split; [by constructor|]. intros b Hb. rewrite app_empty. by constructor.
    + split; [|intros b Hb]; rewrite <- (app_empty w) at 1; [rewrite <- (eq_refl : "" +:+ (w +:+ "") = w +:+ "")|]; apply words_more; try done; try (by left); by constructor.
  - cbn [split_from]. rewrite is_blank_white. destruct (white c) eqn:Hc.
    + destruct (IH "" I) as [I1 I2]. destruct (decide (w = "")) as [->|Hn].
      * split; [exact (I2 (String c "") (conj Hc I))|]. intros b Hb. assert (b +:+ "" +:+ String c text = (b +:+ String c "") +:+ "" +:+ text) as -> by (rewrite app_assoc_s; done).
        apply I2. clear -Hb Hc. induction b as [|x b IH]; [done|]. destruct Hb. split; [done|]. by apply IH.
      * pose proof (I2 (String c "") (conj Hc I)) as HW. split; [change (w +:+ String c text) with ("" +:+ w +:+ String c text)|intros b Hb]; apply words_more; try done; right; by eexists _, _.
    + destruct (IH (w +:+ String c "")) as [I1 I2]; [by apply solid_app|].
      assert (forall w, (w +:+ String c "") +:+ text = w +:+ String c text) as E by (intros v; by rewrite app_assoc_s).
      rewrite E in I1. split; [done|]. intros b Hb. rewrite <- (E w). by apply I2.
Qed.
(** Every text has its words, and they are what is used. *)
Theorem C84_words text l : words text l <-> split_words text = l.
Proof. split; [apply split_sound|]. intros <-. exact (proj1 (words_exist text "" I)). Qed.

(** * Table *)
Lemma numbers_ok {A} (float : string -> option A) text tab : numbers_of float text tab <->
  rmap (fun w => match float w with Some x => Ok x | None => Err ValueError end) (split_words text) = Ok tab.
Proof.
  assert (forall l tab, Forall2 (fun w x => float w = Some x) l tab <-> rmap (fun w => match float w with Some x => Ok x | None => Err ValueError end) l = Ok tab) as E.
  { induction l as [|w l IH]; intros tb.
    - split; [intros H; by inversion H|]. intros [= <-]. constructor.
    - cbn [rmap]. split.
      + intros H. inversion H as [|? x ? tb' H1 H2]; subst. rewrite H1. cbn [rbind]. apply IH in H2. by rewrite H2.
      + intros H. apply rbind_ok in H as (x&Hx&H). apply rbind_ok in H as (tb'&H'&H). injection H as <-. apply IH in H'. constructor; [|done]. by destruct (float w); [injection Hx as <-|]. }
  unfold numbers_of. split.
  - intros (l&Hl&H). apply C84_words in Hl. rewrite Hl. by apply E.
  - intros H. exists (split_words text). split; [by apply C84_words|by apply E].
Qed.
Lemma rows_length {T} n w : forall l : list T, length (rows_of w n l) = n.
Proof. induction n as [|n IH]; intros l; [done|]. cbn [rows_of length]. by rewrite IH. Qed.
Lemma rows_lookup {T} n w : forall (l : list T) r, (r < n)%nat -> rows_of w n l !! r = Some (take w (drop (w * r) l)).
Proof.
  induction n as [|n IH]; intros l r Hr; [lia|]. destruct r as [|r]; [by rewrite Nat.mul_0_r|]. cbn [rows_of]. change ((?x :: ?y) !! S r) with (y !! r).
  rewrite IH by lia. rewrite drop_drop. do 3 f_equal. lia.
Qed.
Lemma row_cells {T} (tab : list T) r : (3 * r + 2 < length tab)%nat -> exists x a b, take 3 (drop (3 * r) tab) = [x; a; b] /\ cell tab r 0 = Some x /\ cell tab r 1 = Some a /\ cell tab r 2 = Some b.
Proof.
  intros H. unfold cell. rewrite Nat.add_0_r.
  destruct (lookup_lt_is_Some_2 tab (3 * r)) as [x Hx]; [lia|]. destruct (lookup_lt_is_Some_2 tab (3 * r + 1)) as [a Ha]; [lia|]. destruct (lookup_lt_is_Some_2 tab (3 * r + 2)) as [b Hb]; [lia|].
  exists x, a, b. split; [|done]. rewrite (drop_S _ _ _ Hx). replace (S (3 * r)) with (3 * r + 1)%nat by lia. rewrite (drop_S _ _ _ Ha). replace (S (3 * r + 1)) with (3 * r + 2)%nat by lia. by rewrite (drop_S _ _ _ Hb).
Qed.
Local Open Scope R_scope.
Lemma places_lookup (AB : list (list R)) p : p ∈ places AB <-> (p.2 < 2)%nat /\ exists row, AB !! p.1 = Some row /\ row !! p.2 = Some 1.
Proof.
  unfold places. rewrite elem_of_list_In, in_concat. setoid_rewrite <- elem_of_list_In. split.
  - intros (l&Hl&Hp). apply elem_of_lookup_imap in Hl as (r&row&->&Hr). apply elem_of_list_omap in Hp as (c&Hc&Hp). apply elem_of_seq in Hc.
    destruct (row !! c) as [x|] eqn:Ex; [|done]. destruct (neqb x n1) eqn:E; [|done]. injection Hp as <-. apply Reqb_true in E. cbn. split; [lia|]. exists row. split; [done|]. rewrite Ex. by rewrite E.
  - intros (Hc&row&Hr&Hx). eexists. split; [apply elem_of_lookup_imap; by eexists _, _|]. apply elem_of_list_omap. exists p.2. split; [apply elem_of_seq; lia|].
    rewrite Hx. assert (neqb 1 n1 = true) as -> by (by apply Reqb_true). by destruct p.
Qed.
Lemma omap_nodup {A} (f : nat -> option (A * nat)) l : (forall c p, f c = Some p -> p.2 = c) -> NoDup l -> NoDup (omap f l).
Proof.
  intros Hf. induction 1 as [|c l Hc ND IH]; [constructor|]. cbn [omap list_omap]. destruct (f c) as [p|] eqn:E; [|done]. apply NoDup_cons. split; [|done].
  intros Hp. apply elem_of_list_omap in Hp as (c'&Hc'&E'). apply Hf in E, E'. congruence.
Qed.
Lemma places_nodup (AB : list (list R)) : NoDup (places AB).
Proof.
  unfold places. assert (forall k, NoDup (concat (imap (fun r row => omap (fun c => match row !! c with Some x => if neqb x n1 then Some ((k + r)%nat, c) else None | None => None end) (seq 0 2)) AB))) as H; [|exact (H 0%nat)].
  induction AB as [|row AB IH]; intros k; [constructor|]. cbn [imap concat]. apply NoDup_app. split; [|split].
  - apply omap_nodup; [|apply NoDup_seq]. intros c p Hp. destruct (row !! c) as [x|]; [|done]. destruct (neqb x n1); [|done]. by injection Hp as <-.
  - intros p Hp Hq. apply elem_of_list_omap in Hp as (c&_&Hp). apply elem_of_list_In, in_concat in Hq as (l&Hl&Hq). apply elem_of_list_In, elem_of_lookup_imap in Hl as (r&row'&->&_).
    apply elem_of_list_In, elem_of_list_omap in Hq as (c'&_&Hq). cbn in Hq.
    destruct (row !! c) as [x|]; [|done]. destruct (neqb x n1); [|done]. destruct (row' !! c') as [y|]; [|discriminate]. destruct (Reqb y 1); [|discriminate]. simplify_eq. lia.
  - specialize (IH (S k)). rewrite (imap_ext _ (fun r row => omap (fun c => match row !! c with Some x => if neqb x n1 then Some ((S k + r)%nat, c) else None | None => None end) (seq 0 2))); [done|].
    intros i r _. cbn. by rewrite Nat.add_succ_r.
Qed.
Section Table.
  Context (float : string -> option R) (text : string) (tab : list R) (HN : numbers_of float text tab).
  Let AB := map (drop 1) (rows_of 3 (length tab / 3) tab).
  Lemma AB_row r : (length tab mod 3 = 0)%nat -> (r < length tab / 3)%nat -> exists a b, cell tab r 1 = Some a /\ cell tab r 2 = Some b /\ AB !! r = Some [a; b].
  Proof.
    intros Hm Hr. pose proof (Nat.div_mod_eq (length tab) 3) as E. destruct (row_cells tab r) as (x&a&b&H1&_&H2&H3); [lia|]. exists a, b. split; [done|]. split; [done|].
    unfold AB. change (@map) with (@fmap list _). rewrite list_lookup_fmap, rows_lookup by done. cbn [fmap option_fmap option_map]. by rewrite H1.
  Qed.
  Lemma places_unit r c : (length tab mod 3 = 0)%nat -> (r, c) ∈ places AB <-> unit_at tab r c.
  Proof.
    intros Hm. rewrite places_lookup. unfold unit_at. cbn [fst snd]. split.
    - intros (Hc&row&Hr&Hx). split; [done|]. assert (r < length tab / 3)%nat as Hl by (apply lookup_lt_Some in Hr; unfold AB in Hr; by rewrite map_length, rows_length in Hr).
      destruct (AB_row r Hm Hl) as (a&b&H1&H2&H3). rewrite H3 in Hr. injection Hr as <-. destruct c as [|[|]]; [| |lia]; injection Hx as ->; [exact H1|exact H2].
    - intros (Hc&Hx). split; [done|]. pose proof (Nat.div_mod_eq (length tab) 3) as E. pose proof (lookup_lt_Some _ _ _ Hx) as Hl.
      destruct (AB_row r Hm) as (a&b&H1&H2&H3); [lia|]. exists [a; b]. split; [done|]. destruct c as [|[|]]; [| |lia]; [change (cell tab r 1 = Some 1) in Hx|change (cell tab r 2 = Some 1) in Hx]; cbn; congruence.
  Qed.
  (** With one entry equal to one, the table is returned with its columns swapped, and the row and column of that entry. *)
  Theorem C84_read r c : (length tab mod 3 = 0)%nat -> unit_at tab r c -> (forall r' c', unit_at tab r' c' -> r' = r /\ c' = c) ->
    exists BA, read_multipoles float text = Ok (Some (BA, r, c)) /\ swapped tab BA.
  Proof.
    intros Hm Hu Hq. exists (map roll1 AB). apply numbers_ok in HN. unfold read_multipoles. rewrite HN. cbn [rbind]. rewrite Hm. cbn [Nat.eqb]. fold AB.
    assert (places AB = [(r, c)]) as ->.
    { pose proof (places_nodup AB) as ND. assert (forall p, p ∈ places AB <-> p = (r, c)) as HE.
      { intros [r' c']. rewrite places_unit by done. split; [intros H; by destruct (Hq r' c' H) as [-> ->]|by intros [= -> ->]]. }
      destruct (places AB) as [|p l]; [exfalso; by apply (not_elem_of_nil (r, c)), HE|]. assert (p = (r, c)) as -> by (apply HE; left). destruct l as [|q l]; [done|].
      assert (q = (r, c)) as -> by (apply HE; right; left). inversion ND as [|? ? Hn _]; subst. destruct Hn. left. }
    split; [done|]. unfold swapped. pose proof (Nat.div_mod_eq (length tab) 3) as E. unfold AB at 1 2. rewrite map_length, map_length, rows_length. split; [lia|]. intros k Hk.
    destruct (AB_row k Hm Hk) as (a&b&H1&H2&H3). exists a, b. split; [done|]. split; [done|]. change (@map) with (@fmap list _). rewrite list_lookup_fmap, H3. done.
  Qed.
  (** Finding: with no such entry, or more than one, the call fails, although the message says that it goes on. *)
  Theorem C84_finding_not_unique : (length tab mod 3 = 0)%nat -> (forall r c, unit_at tab r c -> exists r' c', unit_at tab r' c' /\ (r', c') <> (r, c)) ->
    read_multipoles float text = Err TypeError.
  Proof.
    intros Hm Hq. apply numbers_ok in HN. unfold read_multipoles. rewrite HN. cbn [rbind]. rewrite Hm. cbn [Nat.eqb]. fold AB.
    destruct (places AB) as [|[r c] [|q l]] eqn:E; [done| |done]. exfalso. destruct (Hq r c) as (r'&c'&H1&H2).
    - apply places_unit; [done|]. rewrite E. left.
    - apply places_unit in H1; [|done]. rewrite E in H1. by apply elem_of_list_singleton in H1.
  Qed.
  (** A number of numbers that is no multiple of three is answered with nothing instead of an error. *)
  Theorem C84_size : (length tab mod 3 <> 0)%nat -> read_multipoles float text = Ok None.
  Proof. intros Hm. apply numbers_ok in HN. unfold read_multipoles. rewrite HN. cbn [rbind]. by rewrite (proj2 (Nat.eqb_neq _ _) Hm). Qed.
End Table.
(** A word that is no number is refused. *)
Theorem C84_not_numbers (float : string -> option R) text : (forall tab, ~ numbers_of float text tab) -> read_multipoles float text = Err ValueError.
Proof.
  intros H. unfold read_multipoles. destruct (rmap _ (split_words text)) as [tab|e] eqn:E; [by apply numbers_ok, H in E|]. cbn [rbind]. f_equal.
  clear H. revert e E. induction (split_words text) as [|w l IH]; intros e E; [done|]. cbn [rmap] in E. destruct (float w); [|by injection E as <-]. cbn [rbind] in E.
  destruct (rmap _ l) as [|e']; [done|]. injection E as <-. by apply IH.
Qed.
(** Finding: the numbers in front of the rows, the orders, are not looked at: a row counts as the order of its place. *)
Theorem C84_finding_first_column (float : string -> option R) text text' tab tab' : numbers_of float text tab -> numbers_of float text' tab' -> length tab' = length tab ->
  (forall r k, k ∈ [1; 2]%nat -> cell tab' r k = cell tab r k) -> read_multipoles float text' = read_multipoles float text.
Proof.
  intros H1 H2 HL HC. apply numbers_ok in H1, H2. unfold read_multipoles. rewrite H1, H2. cbn [rbind]. rewrite HL. destruct (Nat.eqb_spec (length tab mod 3) 0) as [Hm|]; [|done].
  pose proof (Nat.div_mod_eq (length tab) 3) as E.
  assert (map (drop 1) (rows_of 3 (length tab / 3) tab') = map (drop 1) (rows_of 3 (length tab / 3) tab)) as ->; [|done].
  apply list_eq. intros r. change (@map) with (@fmap list _). rewrite !list_lookup_fmap. destruct (decide (r < length tab / 3)%nat) as [Hr|Hr].
  - rewrite !rows_lookup by done. cbn [fmap option_fmap option_map]. destruct (row_cells tab r) as (x&a&b&T1&_&T2&T3); [lia|]. destruct (row_cells tab' r) as (x'&a'&b'&T1'&_&T2'&T3'); [lia|].
    rewrite T1, T1'. cbn. rewrite HC in T2' by left. rewrite HC in T3' by (right; left). congruence.
  - by rewrite !lookup_ge_None_2 by (rewrite rows_length; lia).
Qed.

(** * What the result is good for *)
(** Of a table read, the normal components stand in the first column and the skew ones in the second, as set_systematic_multipole_errors wants
    them; but the type is 0 for a skew and 1 for a normal magnet.  The right argument for the skewness is therefore whether the type is zero:
    then the column with the one entry is installed, without that entry. *)
Definition column_read (tab : list R) (c order : nat) (p : list R) : Prop :=
  (length tab = 3 * length p)%nat /\ forall k, (k < length p)%nat -> p !! k = if decide (k = order) then Some 0 else cell tab k (1 + c).
Lemma column_multipoles tab BA j order p : swapped tab BA -> (j < 2)%nat -> multipoles BA j order p -> column_read tab (1 - j) order p.
Proof.
  intros [HL HS] Hj [Lp Hp]. split; [by rewrite Lp|]. intros k Hk. rewrite Lp in Hk. destruct (HS k Hk) as (a&b&H1&H2&H3). rewrite (Hp k _ H3). destruct (decide (k = order)); [done|].
  destruct j as [|[|]]; [| |lia]; [change (Some b = cell tab k 2)|change (Some a = cell tab k 1)]; congruence.
Qed.
Theorem C84_used float text tab r c ords BA (s s' : sc R) u : numbers_of float text tab -> read_multipoles float text = Ok (Some (BA, r, c)) ->
  set_systematic_multipole_errors ords BA r (bool_decide (c = 0%nat)) s = (Ok u, s') ->
  unit_at tab r c /\ exists p, column_read tab c r p /\ installed ords (systematic_tables (bool_decide (c = 0%nat))) r p s s'.
Proof.
  intros HN HR H. pose proof HN as HN'. apply numbers_ok in HN'. pose proof HR as HR'. unfold read_multipoles in HR'. rewrite HN' in HR'. cbn [rbind] in HR'.
  destruct (Nat.eqb_spec (length tab mod 3) 0) as [Hm|]; [|done]. destruct (places _) as [|[r' c'] [|]] eqn:EP; [done| |done]. injection HR' as HB -> ->.
  assert (unit_at tab r c) as HU by (eapply places_unit; [done|]; rewrite EP; left).
  split; [done|]. assert (swapped tab BA) as HS.
  { destruct (C84_read float text tab HN r c Hm HU) as (BA'&H1&H2); [|rewrite HR in H1; by injection H1 as <-].
    intros r' c' Hu. apply places_unit in Hu; [|done]. rewrite EP in Hu. apply elem_of_list_singleton in Hu. by injection Hu as -> ->. }
  apply C79_systematic in H as (_&_&p&Hp&HI). exists p. split; [|done]. destruct HU as [Hc _].
  destruct c as [|[|]]; [| |lia]; [exact (column_multipoles tab BA 1 _ p HS (le_n _) Hp)|exact (column_multipoles tab BA 0 _ p HS Nat.lt_0_2 Hp)].
Qed.
(** Finding: given the type itself for the skewness, the other column is installed, as driven by the other component. *)
Theorem C84_finding_type float text tab r c ords BA (s s' : sc R) u : numbers_of float text tab -> read_multipoles float text = Ok (Some (BA, r, c)) ->
  set_systematic_multipole_errors ords BA r (negb (bool_decide (c = 0%nat))) s = (Ok u, s') ->
  exists p, column_read tab (1 - c) r p /\ installed ords (systematic_tables (negb (bool_decide (c = 0%nat)))) r p s s'.
Proof.
  intros HN HR H. pose proof HN as HN'. apply numbers_ok in HN'. pose proof HR as HR'. unfold read_multipoles in HR'. rewrite HN' in HR'. cbn [rbind] in HR'.
  destruct (Nat.eqb_spec (length tab mod 3) 0) as [Hm|]; [|done]. destruct (places _) as [|[r' c'] [|]] eqn:EP; [done| |done]. injection HR' as HB -> ->.
  assert (unit_at tab r c) as HU by (eapply places_unit; [done|]; rewrite EP; left).
  assert (swapped tab BA) as HS.
  { destruct (C84_read float text tab HN r c Hm HU) as (BA'&H1&H2); [|rewrite HR in H1; by injection H1 as <-].
    intros r' c' Hu. apply places_unit in Hu; [|done]. rewrite EP in Hu. apply elem_of_list_singleton in Hu. by injection Hu as -> ->. }
  apply C79_systematic in H as (_&_&p&Hp&HI). exists p. split; [|done]. destruct HU as [Hc _].
  destruct c as [|[|]]; [| |lia]; [exact (column_multipoles tab BA 0 _ p HS Nat.lt_0_2 Hp)|exact (column_multipoles tab BA 1 _ p HS (le_n _) Hp)].
Qed.
(** Finding: neither does the result fit the Matlab interface: the type of a skew magnet is refused. *)
Theorem C84_finding_matlab ords AB method order (s : sc R) : SCsetMultipoles ords AB method order (Some 0%Z) s = (Err ValueError, s).
Proof. done. Qed.

(** * Elements by name *)
Definition name_at (ring : list (elem R)) (i : nat) (n : string) : Prop := exists e, ring !! i = Some e /\ e !! "FamName" = Some (VStr n).
(** All elements whose names match, in increasing order, and no others; the machine is not needed. *)
Theorem C84_ords search (ring : list (elem R)) ords : ords_from_regex search ring = Ok ords ->
  Sorted.StronglySorted lt ords /\ forall i, i ∈ ords <-> exists n, name_at ring i n /\ search n = true.
Proof.
  unfold ords_from_regex. intros H. apply rbind_ok in H as (names&HN&H). injection H as <-.
  assert (Forall2 (fun e n => e !! "FamName" = Some (VStr n)) ring names) as F.
  { clear -HN. revert names HN. induction ring as [|e ring IH]; intros names HN; [injection HN as <-; constructor|]. cbn [rmap] in HN.
    apply rbind_ok in HN as (n&Hn&HN). apply rbind_ok in HN as (l&Hl&HN). injection HN as <-. constructor; [|by apply IH]. apply rbind_ok in Hn as (v&Hv&Hn). unfold attr in Hv.
    destruct (e !! "FamName") as [v'|]; [|done]. injection Hv as ->. destruct v; try done. by injection Hn as <-. }
  assert (forall k, Sorted.StronglySorted lt (map fst (List.filter (fun p => search p.2) (zip (seq k (length names)) names))) /\
    forall i, i ∈ map fst (List.filter (fun p => search p.2) (zip (seq k (length names)) names)) <-> (k <= i)%nat /\ exists n, names !! (i - k)%nat = Some n /\ search n = true) as HS.
  { clear. induction names as [|n names IH]; intros k.
    - split; [constructor|]. intros i. split; [intros H; by apply elem_of_nil in H|]. intros (_&n&Hn&_). by rewrite lookup_nil in Hn.
    - destruct (IH (S k)) as [I1 I2]. cbn [length seq zip zip_with List.filter snd].
      assert (forall i, i ∈ map fst (List.filter (fun p : nat * string => search p.2) (zip (seq (S k) (length names)) names)) -> (k < i)%nat) as HG by (intros i Hi; apply I2 in Hi as [? _]; lia).
      destruct (search n) eqn:En; cbn [map fst].
      + split; [constructor; [done|]; apply Forall_forall; exact HG|]. intros i. rewrite elem_of_cons, I2. split.
        * intros [->|(Hi&n'&Hn&Hs)]; [split; [lia|]; exists n; by rewrite Nat.sub_diag|]. split; [lia|]. exists n'. split; [|done]. replace (i - k)%nat with (S (i - S k)) by lia. done.
        * intros (Hi&n'&Hn&Hs). destruct (decide (i = k)) as [->|Hne]; [by left|]. right. split; [lia|]. exists n'. split; [|done]. replace (i - k)%nat with (S (i - S k)) in Hn by lia. done.
      + split; [done|]. intros i. rewrite I2. split.
        * intros (Hi&n'&Hn&Hs). split; [lia|]. exists n'. split; [|done]. replace (i - k)%nat with (S (i - S k)) by lia. done.
        * intros (Hi&n'&Hn&Hs). destruct (decide (i = k)) as [->|Hne]; [rewrite Nat.sub_diag in Hn; injection Hn as <-; congruence|]. split; [lia|]. exists n'. split; [|done]. replace (i - k)%nat with (S (i - S k)) in Hn by lia. done. }
  destruct (HS 0%nat) as [S1 S2]. split; [done|]. intros i. rewrite S2, Nat.sub_0_r. split.
  - intros (_&n&Hn&Hs). exists n. split; [|done]. destruct (Forall2_lookup_r _ _ _ _ _ F Hn) as (e&He&Hf). by exists e.
  - intros (n&(e&He&Hf)&Hs). split; [lia|]. exists n. split; [|done]. destruct (Forall2_lookup_l _ _ _ _ _ F He) as (n'&Hn&Hf'). rewrite Hf in Hf'. by injection Hf' as ->.
Qed.
(** With names everywhere the call returns. *)
Theorem C84_ords_total search (ring : list (elem R)) : (forall i e, ring !! i = Some e -> exists n, name_at ring i n) -> exists ords, ords_from_regex search ring = Ok ords.
Proof.
  intros H. unfold ords_from_regex. assert (exists names, rmap (fun e => let? v := attr e "FamName" in as_str v) ring = Ok names) as (names&->); [|by eexists].
  assert (Forall (fun e : elem R => exists n, e !! "FamName" = Some (VStr n)) ring) as F.
  { apply Forall_lookup. intros i e He. destruct (H i e He) as (n&e'&He'&Hn). exists n. congruence. }
  clear H. induction F as [|e ring (n&Hn) F (names&IH)]; [by exists []|]. exists (n :: names). cbn [rmap]. unfold attr at 1. rewrite Hn. cbn. by rewrite IH.
Qed.
Print Assumptions C84_words.
Print Assumptions C84_read.
Print Assumptions C84_finding_not_unique.
Print Assumptions C84_size.
Print Assumptions C84_not_numbers.
Print Assumptions C84_finding_first_column.
Print Assumptions C84_used.
Print Assumptions C84_finding_type.
Print Assumptions C84_finding_matlab.
Print Assumptions C84_ords.
Print Assumptions C84_ords_total.

(** * Cases *)
Local Open Scope Q_scope.
(** numbers written with one digit *)
Definition digit (w : string) : option Q :=
  match w with String c "" => let n := nat_of_ascii c in if (48 <=? n)%nat && (n <=? 57)%nat then Some (inject_Z (Z.of_nat n - 48)) else None | _ => None end.
Definition line_end : string := String (ascii_of_nat 10) "".
(** a normal quadrupole with a sextupole component of 7 and skew components 3 and 4: row 1, second column *)
Example C84_case_read :
  let text := ("0 3 0" +:+ line_end +:+ " 1 4 1" +:+ line_end +:+ "2 0  7" +:+ line_end)%string in
  split_words text = ["0"; "3"; "0"; "1"; "4"; "1"; "2"; "0"; "7"] /\ read_multipoles digit text = Ok (Some ([[0; 3]; [1; 4]; [7; 0]], 1%nat, 1%nat)).
Proof. vm_compute. auto. Qed.
Example C84_case_refused : read_multipoles digit "0 3 0 1" = Ok None /\ read_multipoles digit "0 3 0 1 1 1" = Err TypeError /\ read_multipoles digit "0 3 0 1 2 0" = Err TypeError /\
  read_multipoles digit "n A B 0 3 1" = Err ValueError /\ read_multipoles digit "" = Err TypeError.
Proof. vm_compute. auto 10. Qed.
(** installed with the right skewness and with the type *)
Example C84_case_used :
  let BA := [[0; 3]; [1; 4]; [7; 0]] in
  attr_at (snd (set_systematic_multipole_errors [2]%nat BA 1 (bool_decide (1 = 0)%nat) mult_machine)) 2 "SysPolBFromB" = Some (VTab [(1%nat, [0; 0; 7])]) /\
  attr_at (snd (set_systematic_multipole_errors [2]%nat BA 1 (negb (bool_decide (1 = 0)%nat)) mult_machine)) 2 "SysPolBFromA" = Some (VTab [(1%nat, [3; 0; 0])]).
Proof. vm_compute. auto. Qed.
Example C84_case_ords : let ring := [mk [("FamName", VStr "QF")]; mk [("FamName", VStr "QD")]; mk [("FamName", VStr "QF")]] : list (elem Q) in
  ords_from_regex (fun n => bool_decide (n = "QF")) ring = Ok [0; 2]%nat /\ ords_from_regex (T:=Q) (fun n => bool_decide (n = "QF")) [mk []] = Err AttributeError.
Proof. vm_compute. auto. Qed.
