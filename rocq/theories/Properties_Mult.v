(** C79: multipole errors. *)
From Coq Require Import Reals Lra Lia QArith ZArith.
From stdpp Require Import base gmap strings list.
From Verif Require Import Num Base Model_Arr Model_SC Model_Err Model_Matlab Lemmas Examples Proofs_Update Proofs_Field Proofs_Err Proofs_Beam Spec Properties_Random.
From Verif Require Properties_Field.
Local Open Scope string_scope.
Local Open Scope list_scope.

(** * Specification *)
(** what a table holds for an order *)
Fixpoint stored {A} (t : list (nat * A)) (k : nat) : option A :=
  match t with [] => None | (n, x) :: t' => if decide (n = k) then Some x else stored t' k end.
Definition table {T} (s : sc T) (i : nat) (a : string) : list (nat * list T) := match attr_at s i a with Some (VTab t) => t | _ => [] end.
(** column [j] of the rows, with the entry of the main order replaced by zero *)
Definition multipoles {T} {N : Num T} (BA : list (list T)) (j order : nat) (p : list T) : Prop :=
  length p = length BA /\ forall k r, BA !! k = Some r -> p !! k = if decide (k = order) then Some n0 else r !! j.
(** the two tables of a magnet driven by its normal or skew component *)
Definition systematic_tables (skew : bool) : list string := if skew then ["SysPolAFromA"; "SysPolBFromA"] else ["SysPolAFromB"; "SysPolBFromB"].

(** * Proofs *)
Lemma stored_tset {A} (t : list (nat * A)) o x k : stored (tset t o x) k = if decide (k = o) then Some x else stored t k.
Proof.
  induction t as [|[n y] t IH]; simpl.
  - destruct (decide (o = k)), (decide (k = o)); by subst.
  - destruct (decide (o = n)) as [->|Hn]; simpl.
    + destruct (decide (n = k)), (decide (k = n)); by subst.
    + rewrite IH. destruct (decide (n = k)), (decide (k = o)); congruence.
Qed.
Section Gen.
  Context {T : Type} {N : Num T}.
  Lemma multipoles_col (BA : list (list T)) j order : Forall (fun r => (j < length r)%nat) BA -> (order < length BA)%nat -> multipoles BA j order (<[order := n0]> (col BA j)).
  Proof.
    intros HF Ho. unfold col. split; [by rewrite insert_length, map_length|]. intros k r Hk.
    assert (map (fun r => default n0 (r !! j)) BA !! k = r !! j) as E.
    { change (@map) with (@fmap list _). rewrite list_lookup_fmap, Hk. simpl. rewrite Forall_lookup in HF. destruct (lookup_lt_is_Some_2 r j (HF k r Hk)) as [x Hx]. by rewrite Hx. }
    destruct (decide (k = order)) as [->|Hne].
    - apply list_lookup_insert. by rewrite map_length.
    - rewrite list_lookup_insert_ne by done. exact E.
  Qed.
  (** tables [names] of the magnets [ords] have [p] under [order], nothing else is different *)
  Definition installed (ords : list nat) (names : list string) (order : nat) (p : list T) (s s' : sc T) : Prop :=
    s' = set_RING (RING s') s /\ length (RING s') = length (RING s) /\
    (forall i a, ~ (i ∈ ords /\ a ∈ names) -> attr_at s' i a = attr_at s i a) /\
    (forall i a, i ∈ ords -> a ∈ names -> attr_at s i a = None \/ (exists t, attr_at s i a = Some (VTab t))) /\
    (forall i a, i ∈ ords -> a ∈ names -> (i < length (RING s))%nat /\ exists t, attr_at s' i a = Some (VTab t) /\
       (forall k, stored t k = if decide (k = order) then Some p else stored (table s i a) k) /\
       (table s i a = [] \/ table s i a = [(order, p)] -> t = [(order, p)])).
  Lemma installed_one o name order p (s s' : sc T) u :
    on_elem o (let! t := getm (fun e => match e !! name with None => Ok [] | Some v => as_tab v end) in setattr name (VTab (tset t order p))) s = (Ok u, s') ->
    installed [o] [name] order p s s'.
  Proof.
    intros H. apply on_elem_ok in H as (e&e'&He&H&->). apply bind_ok in H as (t&e1&H1&H). apply getm_ok in H1 as [H1 ->]. apply setattr_ok in H as ->.
    assert (forall i a, attr_at (set_RING (<[o := <[name := VTab (tset t order p)]> e]> (RING s)) s) i a = if decide (i = o /\ a = name) then Some (VTab (tset t order p)) else attr_at s i a) as Ha.
    { intros i a. rewrite (attr_at_insert _ _ e) by done. destruct (decide (i = o)) as [->|].
      - destruct (decide (a = name)) as [->|Hn].
        + rewrite lookup_insert. by rewrite decide_True.
        + rewrite lookup_insert_ne by done. rewrite decide_False by (by intros [_ ?]). unfold attr_at. by rewrite He.
      - by rewrite decide_False by (by intros [? _]). }
    assert (attr_at s o name = e !! name) as Ho by (unfold attr_at; by rewrite He).
    split; [done|]. split; [simpl; by rewrite insert_length|]. split; [|split].
    - intros i a Hn. rewrite Ha. rewrite decide_False; [done|]. intros [-> ->]. apply Hn. split; left.
    - intros i a Hi Hn. apply elem_of_list_singleton in Hi as ->. apply elem_of_list_singleton in Hn as ->. rewrite Ho.
      destruct (e !! name) as [v|]; [|by left]. right. apply as_tab_ok in H1 as ->. by exists t.
    - intros i a Hi Hn. apply elem_of_list_singleton in Hi as ->. apply elem_of_list_singleton in Hn as ->. split; [by eapply lookup_lt_Some|].
      rewrite Ha, decide_True by done. eexists. split; [reflexivity|].
      assert (t = table s o name) as <-. { unfold table. rewrite Ho. destruct (e !! name) as [v|]; [by apply as_tab_ok in H1 as ->|by injection H1 as <-]. }
      split; [intros k; by rewrite stored_tset|]. intros [->| ->]; simpl; [done|]. by rewrite decide_True.
  Qed.
  Lemma installed_trans ords1 ords2 names1 names2 ords names order p (s s1 s2 : sc T) :
    (forall i a, i ∈ ords /\ a ∈ names <-> (i ∈ ords1 /\ a ∈ names1) \/ (i ∈ ords2 /\ a ∈ names2)) ->
    installed ords1 names1 order p s s1 -> installed ords2 names2 order p s1 s2 -> installed ords names order p s s2.
  Proof.
    intros Hu (A1&A2&A3&A4&A5) (B1&B2&B3&B4&B5). split; [rewrite B1, A1; by destruct s|]. split; [congruence|]. split; [|split].
    - intros i a Hn. rewrite B3, A3; [done| |]; intros H; apply Hn; apply Hu; [by left|by right].
    - intros i a Hi Ha. destruct (decide (i ∈ ords1 /\ a ∈ names1)) as [[H1 H2]|H1]; [by eapply A4|].
      destruct (proj1 (Hu i a) (conj Hi Ha)) as [?|[H3 H4]]; [done|]. rewrite <- (A3 i a) by done. by apply B4.
    - intros i a Hi Ha. pose proof (proj1 (Hu i a) (conj Hi Ha)) as Hc. split.
      + destruct Hc as [[H1 H2]|[H1 H2]]; [by apply (A5 i a)|]. rewrite <- A2. by apply (B5 i a).
      + destruct (decide (i ∈ ords2 /\ a ∈ names2)) as [[H1 H2]|H1].
        * destruct (B5 i a H1 H2) as (_&t&Ht&Hk&Hs). exists t. split; [done|].
          destruct (decide (i ∈ ords1 /\ a ∈ names1)) as [[H3 H4]|H3].
          -- destruct (A5 i a H3 H4) as (_&t1&Ht1&Hk1&Hs1). assert (table s1 i a = t1) as Et by (unfold table; by rewrite Ht1). rewrite Et in Hk, Hs. split.
             ++ intros k. rewrite Hk. destruct (decide (k = order)) as [|Hne] eqn:E; [done|]. rewrite Hk1, E. done.
             ++ intros Hc'. apply Hs. right. by apply Hs1.
          -- assert (table s1 i a = table s i a) as <- by (unfold table; by rewrite A3). done.
        * destruct Hc as [[H3 H4]|?]; [|done]. destruct (A5 i a H3 H4) as (_&t1&Ht1&Hk1). exists t1. split; [by rewrite B3|done].
  Qed.
  Lemma installed_nil names order p (s : sc T) : installed [] names order p s s.
  Proof.
    split; [by destruct s|]. split; [done|]. split; [done|]. split; intros i a Hi; by apply elem_of_nil in Hi.
  Qed.
  (** Returning: every given magnet exists, and both of its tables driven by the given component have, under the main order, the column of
      the table for that component; nothing else changes. *)
  Theorem C79_systematic ords BA order skew (s s' : sc T) u : set_systematic_multipole_errors ords BA order skew s = (Ok u, s') ->
    Forall (fun r => length r = 2%nat) BA /\ (order < length BA)%nat /\
    exists p, multipoles BA (if skew then 1 else 0) order p /\ installed ords (systematic_tables skew) order p s s'.
  Proof.
    unfold set_systematic_multipole_errors. intros H. destruct (forallb _ BA) eqn:EF; [|done].
    assert (Forall (fun r : list T => length r = 2%nat) BA) as HF.
    { apply Forall_forall. intros r Hr. rewrite forallb_forall in EF. apply Nat.eqb_eq, EF. by apply elem_of_list_In. }
    destruct (col BA (if skew then 1%nat else 0%nat) !! order) as [x|] eqn:Ec; [|done].
    assert (order < length BA)%nat as Ho by (apply lookup_lt_Some in Ec; unfold col in Ec; by rewrite map_length in Ec).
    split; [done|]. split; [done|]. eexists. split; [apply multipoles_col; [|done]|].
    { eapply Forall_impl; [exact HF|]. intros r ->. destruct skew; lia. }
    set (p := <[order := n0]> _) in *. clearbody p. clear Ec. revert s H. induction ords as [|o ords IH]; intros s H.
    - apply ret_ok in H as [_ ->]. apply installed_nil.
    - cbn [forM] in H. apply bind_ok in H as (u1&s1&H1&H). apply IH in H. apply bind_ok in H1 as (u2&s2&H2&H1). apply bind_ok in H1 as (u3&s3&H3&H1). apply ret_ok in H1 as [_ ->].
      apply installed_one in H2, H3.
      eapply (installed_trans [o] ords (systematic_tables skew) (systematic_tables skew)); [|eapply (installed_trans [o] [o] _ _ [o]); [|exact H2|exact H3]|exact H].
      + intros i a. rewrite elem_of_cons, elem_of_list_singleton. tauto.
      + intros i a. assert (forall b c : string, i ∈ [o] /\ a ∈ [b; c] <-> (i ∈ [o] /\ a ∈ [b]) \/ (i ∈ [o] /\ a ∈ [c])) as Hbc.
        { intros b c. rewrite (elem_of_cons [c]), !elem_of_list_singleton. tauto. }
        destruct skew; apply Hbc.
  Qed.
  Theorem C79_systematic_rejected ords BA order skew (s : sc T) :
    (~ Forall (fun r => length r = 2%nat) BA -> set_systematic_multipole_errors ords BA order skew s = (Err ValueError, s)) /\
    (Forall (fun r => length r = 2%nat) BA -> (length BA <= order)%nat -> set_systematic_multipole_errors ords BA order skew s = (Err IndexError, s)).
  Proof.
    unfold set_systematic_multipole_errors. split.
    - intros Hn. destruct (forallb _ BA) eqn:EF; [|done]. destruct Hn. apply Forall_forall. intros r Hr. rewrite forallb_forall in EF. apply Nat.eqb_eq, EF. by apply elem_of_list_In.
    - intros HF Ho. assert (forallb (fun r : list T => (length r =? 2)%nat) BA = true) as ->.
      { apply forallb_forall. intros r Hr. apply Nat.eqb_eq. rewrite Forall_forall in HF. apply HF. by apply elem_of_list_In. }
      assert (col BA (if skew then 1%nat else 0%nat) !! order = None) as -> by (apply lookup_ge_None; unfold col; by rewrite map_length). done.
  Qed.
  (** Finding: the other column plays no part. *)
  Theorem C79_finding_other_column ords BA BA' order (skew : bool) (s : sc T) :
    Forall2 (fun r r' => length r = 2%nat /\ length r' = 2%nat /\ r !! (if skew then 1%nat else 0%nat) = r' !! (if skew then 1%nat else 0%nat)) BA BA' ->
    set_systematic_multipole_errors ords BA order skew s = set_systematic_multipole_errors ords BA' order skew s.
  Proof.
    intros H. unfold set_systematic_multipole_errors.
    assert (forallb (fun r : list T => (length r =? 2)%nat) BA = forallb (fun r : list T => (length r =? 2)%nat) BA' /\ col BA (if skew then 1%nat else 0%nat) = col BA' (if skew then 1%nat else 0%nat)) as [-> ->]; [|done].
    induction H as [|r r' l l' (H1&H2&H3) HF IH]; [done|]. destruct IH as [IH1 IH2]. split; [simpl; by rewrite H1, H2, IH1|]. unfold col in *. cbn [map]. by rewrite H3, IH2.
  Qed.
End Gen.
Print Assumptions C79_systematic.
Print Assumptions C79_systematic_rejected.
Print Assumptions C79_finding_other_column.

Local Open Scope R_scope.
(** What the tables do to the field: if magnet [i] had none before, its skew AND its normal field get, for the driven main component, the
    same multipoles (finding: those of one column, instead of one column for each). *)
Lemma installed_other ords names order p (s s' : sc R) i a : installed ords names order p s s' -> a ∉ names -> attr_at s' i a = attr_at s i a.
Proof. intros (_&_&H&_) Ha. apply H. by intros [_ ?]. Qed.
Theorem C79_effect ords BA order (skew : bool) (s s' : sc R) u i : set_systematic_multipole_errors ords BA order skew s = (Ok u, s') -> i ∈ ords ->
  (forall t from, Properties_Field.table_of s i (Properties_Field.systematic_name t from) = []) ->
  forall t k, Properties_Field.systematic s' i i t k =
    Properties_Field.driven s i skew order * (if decide (k = order) then 0 else match BA !! k with Some r => at0 r (if skew then 1 else 0) | None => 0 end).
Proof.
  intros H Hi Ht t k. apply C79_systematic in H as (HF&Ho&p&Hp&HI).
  assert (forall sk n, Properties_Field.driven s' i sk n = Properties_Field.driven s i sk n) as Hd.
  { intros sk n. unfold Properties_Field.driven, Properties_Field.array_of. rewrite !(installed_other _ _ _ _ _ _ _ _ HI); [done| |]; destruct skew, sk; unfold systematic_tables, setpoint_name, cal_name; rewrite !not_elem_of_cons; repeat split; try done; apply not_elem_of_nil. }
  assert (Properties_Field.table_of s' i (Properties_Field.systematic_name t skew) = [(order, p)]) as E1.
  { pose proof (Ht t skew) as Ht1. destruct HI as (_&_&_&_&HI). destruct (HI i (Properties_Field.systematic_name t skew) Hi) as (_&tb&Htb&_&Hs).
    - destruct t, skew; unfold systematic_tables; cbn; (left || (right; left)).
    - unfold Properties_Field.table_of. rewrite Htb. apply Hs. left. exact Ht1. }
  assert (Properties_Field.table_of s' i (Properties_Field.systematic_name t (negb skew)) = []) as E2.
  { unfold Properties_Field.table_of. rewrite (installed_other _ _ _ _ _ _ _ _ HI); [apply Ht|]. destruct t, skew; unfold systematic_tables; cbn; rewrite !not_elem_of_cons; repeat split; try done; apply not_elem_of_nil. }
  assert (at0 p k = if decide (k = order) then 0 else match BA !! k with Some r => at0 r (if skew then 1 else 0) | None => 0 end) as <-.
  { destruct Hp as [Lp Hp]. unfold at0. destruct (BA !! k) as [r|] eqn:Ek.
    - rewrite (Hp k r Ek). by destruct (decide (k = order)).
    - assert (p !! k = None) as -> by (apply lookup_ge_None; apply lookup_ge_None in Ek; lia). by destruct (decide (k = order)). }
  unfold Properties_Field.systematic. destruct skew; simpl negb in E2; rewrite E1, E2; cbn [Properties_Field.sum_over fst snd]; rewrite Hd; lra.
Qed.
Print Assumptions C79_effect.

(** * Random multipole errors *)
(** The entries of a table of two columns, multiplied by a list of numbers row by row. *)
Lemma reshape_columns (BA : list (list R)) (d : list R) : Forall (fun r => length r = 2%nat) BA -> length d = length (concat BA) ->
  length (reshape BA (zip_with Rmult d (concat BA))) = length BA /\
  forall k r, BA !! k = Some r -> forall j, (j < 2)%nat -> at0 (col (reshape BA (zip_with Rmult d (concat BA))) j) k = at0 d (2 * k + j) * at0 r j.
Proof.
  revert d. induction BA as [|r BA IH]; intros d HF HL; [done|]. inversion HF as [|? ? H1 HF']; subst. destruct r as [|x [|y []]]; try done.
  destruct d as [|d0 [|d1 d]]; try done. destruct (IH d HF') as [I1 I2]; [simpl in HL; lia|]. split; [simpl; f_equal; exact I1|].
  intros [|k] r Hr j Hj.
  - injection Hr as <-. destruct j as [|[|]]; [done|done|lia].
  - cbn in Hr. specialize (I2 k r Hr j Hj). replace (2 * S k + j)%nat with (S (S (2 * k + j))) by lia. exact I2.
Qed.
(** Offsets of the field of magnet [i] as [d] times the table added to the ones before: column 0 to the normal field, column 1 to the skew field. *)
Definition offsets_added (i : nat) (BA : list (list R)) (d : list R) (s s' : sc R) : Prop :=
  length d = (2 * length BA)%nat /\ Forall (fun x => Rabs x <= 2) d /\
  forall skew : bool, length (Properties_Field.array_of s' i (Properties_Field.offset_name skew)) = Nat.max (length (Properties_Field.array_of s i (Properties_Field.offset_name skew))) (length BA) /\
    forall k, at0 (Properties_Field.array_of s' i (Properties_Field.offset_name skew)) k = at0 (Properties_Field.array_of s i (Properties_Field.offset_name skew)) k +
      match BA !! k with Some r => let j := if skew then 1%nat else 0%nat in at0 d (2 * k + j) * at0 r j | None => 0 end.
Definition only_offset_fields (i : nat) (s s' : sc R) : Prop :=
  IDEALRING s' = IDEALRING s /\ INJ s' = INJ s /\ SIG s' = SIG s /\ ORD s' = ORD s /\ length (RING s') = length (RING s) /\
  forall m a, m <> i \/ a ∉ ["PolynomAOffset"; "PolynomBOffset"] -> attr_at s' m a = attr_at s m a.
Lemma offset_step i name (l : list R) (s s' : sc R) u :
  on_elem i (let! e := get in match e !! name with None => setattr name (VVec l) | Some v => let! v' := lift (add_padded v (VVec l)) in setattr name (VVec v') end) s = (Ok u, s') ->
  s' = set_RING (RING s') s /\ length (RING s') = length (RING s) /\ (forall m a, m <> i \/ a <> name -> attr_at s' m a = attr_at s m a) /\
  length (Properties_Field.array_of s' i name) = Nat.max (length (Properties_Field.array_of s i name)) (length l) /\
  forall k, at0 (Properties_Field.array_of s' i name) k = at0 (Properties_Field.array_of s i name) k + at0 l k.
Proof.
  intros H. apply on_elem_ok in H as (e&e'&He&H&->). apply bind_ok in H as (e0&e1&H1&H). apply get_ok in H1 as [-> ->].
  assert (exists v, e' = <[name := VVec v]> e /\ length v = Nat.max (length (Properties_Field.array_of s i name)) (length l) /\ forall k, at0 v k = at0 (Properties_Field.array_of s i name) k + at0 l k) as (v&->&HL&HK).
  { unfold Properties_Field.array_of, attr_at. rewrite He. cbn [mbind option_bind]. destruct (e !! name) as [v|].
    - apply bind_ok in H as (v'&e1&H1&H). apply lift_ok in H1 as [H1 ->]. apply setattr_ok in H as ->. destruct v; try discriminate. injection H1 as <-.
      eexists. split; [reflexivity|]. split; [apply add_padded1_length|apply add_padded1_at].
    - apply setattr_ok in H as ->. exists l. split; [done|]. split; [done|]. intros k. rewrite at0_nil. lra. }
  split; [done|]. split; [simpl; by rewrite insert_length|]. split; [|].
  - intros m a Hm. rewrite (attr_at_insert _ _ e) by done. destruct (decide (m = i)) as [->|]; [|done].
    destruct Hm as [|Hm]; [done|]. rewrite lookup_insert_ne by done. unfold attr_at. by rewrite He.
  - assert (Properties_Field.array_of (set_RING (<[i := <[name := VVec v]> e]> (RING s)) s) i name = v) as ->; [|done].
    unfold Properties_Field.array_of. rewrite (attr_at_insert _ _ e) by done. rewrite decide_True by done. by rewrite lookup_insert.
Qed.
Definition random_step (BA : list (list R)) (ord : nat) : M (sc R) unit :=
  let! d := randnc ntwo (length (concat BA)) in
  let randBA := reshape BA (zip_with nmul d (concat BA)) in
  forM [(0%nat, "B"); (1%nat, "A")] (fun p =>
    let name := "Polynom" +:+ p.2 +:+ "Offset" in
    on_elem ord (let! e := get in
                 match e !! name with
                 | None => setattr name (VVec (col randBA p.1))
                 | Some v => let! v' := lift (add_padded v (VVec (col randBA p.1))) in setattr name (VVec v')
                 end)).
Lemma length_concat2 (BA : list (list R)) : Forall (fun r => length r = 2%nat) BA -> length (concat BA) = (2 * length BA)%nat.
Proof. induction 1 as [|r l H1 HF IH]; [done|]. cbn [concat length]. rewrite app_length, IH. lia. Qed.
Lemma random_step_ok BA i (s s' : sc R) u : Forall (fun r => length r = 2%nat) BA -> random_step BA i s = (Ok u, s') ->
  only_offset_fields i s s' /\ (i < length (RING s))%nat /\ exists d n, offsets_added i BA d s s' /\ RNG s' = drop n (RNG s) /\ (n <= length (RNG s))%nat /\ d ≡ₚ within_cut 2 (take n (RNG s)).
Proof.
  intros HF H. unfold random_step in H. apply bind_ok in H as (d&s1&Hd&H). pose proof (randnc_spec ntwo (length (concat BA)) s) as Hs. rewrite Hd in Hs.
  destruct Hs as (n&Hn&Es&HL&Hp&_). rewrite <- within_cut_acc in Hp. assert (@ntwo R _ = 2) as E2 by reflexivity. rewrite E2 in Hp. clear E2.
  destruct (reshape_columns BA d HF HL) as [Lr Kr]. change (nmul (T := R)) with Rmult in H. set (m := reshape _ _) in *. clearbody m.
  apply bind_ok in H as (u1&s2&H1&H). apply bind_ok in H as (u2&s3&H2&H). apply ret_ok in H as [_ ->].
  pose proof H1 as He. apply on_elem_ok in He as (e&_&He&_).
  apply offset_step in H1, H2. change ("Polynom" +:+ (0%nat, "B").2 +:+ "Offset") with "PolynomBOffset" in H1. change ("Polynom" +:+ (1%nat, "A").2 +:+ "Offset") with "PolynomAOffset" in H2. cbn [fst] in H1, H2.
  destruct H1 as (A1&A2&A3&A4&A5), H2 as (B1&B2&B3&B4&B5). rewrite Es in A1, A2, A3, A4, A5, He.
  assert (forall q a, attr_at (set_RNG (drop n (RNG s)) s) q a = attr_at s q a) as Hq by done. 
  assert (forall j k, (j < 2)%nat -> at0 (col m j) k = match BA !! k with Some r => at0 d (2 * k + j) * at0 r j | None => 0 end) as Kc.
  { intros j k Hj. destruct (BA !! k) as [r|] eqn:Ek; [by apply Kr|]. apply at0_ge. unfold col. rewrite map_length, Lr. by apply lookup_ge_None. }
  assert (forall j, length (col m j) = length BA) as Lc by (intros j; unfold col; by rewrite map_length).
  split; [|split; [by eapply lookup_lt_Some|]].
  - split; [rewrite B1, A1; done|]. split; [rewrite B1, A1; done|]. split; [rewrite B1, A1; done|]. split; [rewrite B1, A1; done|]. split; [rewrite B2, A2; done|].
    intros q a Hqa. rewrite B3, A3; [done| |]; (destruct Hqa as [?|Ha]; [by left|right]); intros ->; apply Ha; [right; left|left].
  - exists d, n. split; [|split; [rewrite B1, A1; done|done]]. split; [rewrite HL; by apply length_concat2|]. split.
    + apply Forall_forall. intros x Hx. rewrite Hp in Hx. unfold within_cut in Hx. apply elem_of_list_filter in Hx as [Hx _]. rewrite (Rabs_right 2) in Hx by lra. exact Hx.
    + intros [|]; unfold Properties_Field.offset_name.
      * assert (forall x, Properties_Field.array_of x i "PolynomAOffset" = match attr_at x i "PolynomAOffset" with Some (VVec l) => l | _ => [] end) as Ea by done.
        assert (Properties_Field.array_of s2 i "PolynomAOffset" = Properties_Field.array_of s i "PolynomAOffset") as E by (rewrite !Ea, A3 by (by right); done).
        rewrite B4, E, Lc. split; [done|]. intros k. rewrite B5, E, Kc by lia. done.
      * assert (forall x, Properties_Field.array_of x i "PolynomBOffset" = match attr_at x i "PolynomBOffset" with Some (VVec l) => l | _ => [] end) as Ea by done.
        assert (Properties_Field.array_of s3 i "PolynomBOffset" = Properties_Field.array_of s2 i "PolynomBOffset") as E by (rewrite !Ea, B3 by (by right); done).
        rewrite E, A4, Lc. split; [done|]. intros k. rewrite A5, Kc by lia. done.
Qed.
Lemma within_cut_app c (l1 l2 : list R) : within_cut c (l1 ++ l2) = within_cut c l1 ++ within_cut c l2.
Proof. unfold within_cut. apply filter_app. Qed.
Lemma offsets_same i BA d (s1 s2 s1' s2' : sc R) :
  (forall a, a ∈ ["PolynomAOffset"; "PolynomBOffset"] -> attr_at s1 i a = attr_at s2 i a /\ attr_at s1' i a = attr_at s2' i a) -> offsets_added i BA d s1 s1' -> offsets_added i BA d s2 s2'.
Proof.
  intros Ha (H1&H2&H3). split; [done|]. split; [done|]. intros skew. specialize (H3 skew).
  assert (Properties_Field.offset_name skew ∈ ["PolynomAOffset"; "PolynomBOffset"]) as Hin by (destruct skew; unfold Properties_Field.offset_name; [left|right; left]).
  destruct (Ha _ Hin) as [E1 E2]. unfold Properties_Field.array_of in *. rewrite E1, E2 in H3. exact H3.
Qed.
(** Returning, for different magnets: the magnets exist, each gets numbers of its own from the stream, never above two sigma, and its field
    offsets grow by these numbers times the table: column 0 for the normal field, column 1 for the skew field.  Nothing else changes. *)
Theorem C79_random ords BA (s s' : sc R) u : NoDup ords -> set_random_multipole_errors ords BA s = (Ok u, s') ->
  Forall (fun r => length r = 2%nat) BA /\ Forall (fun i => (i < length (RING s))%nat) ords /\
  (exists ds n, length ds = length ords /\ (forall m i d, ords !! m = Some i -> ds !! m = Some d -> offsets_added i BA d s s') /\
     RNG s' = drop n (RNG s) /\ (n <= length (RNG s))%nat /\ concat ds ≡ₚ within_cut 2 (take n (RNG s))) /\
  IDEALRING s' = IDEALRING s /\ INJ s' = INJ s /\ SIG s' = SIG s /\ ORD s' = ORD s /\ length (RING s') = length (RING s) /\
  (forall i a, i ∉ ords \/ a ∉ ["PolynomAOffset"; "PolynomBOffset"] -> attr_at s' i a = attr_at s i a).
Proof.
  intros HN H. unfold set_random_multipole_errors in H. destruct (forallb _ BA) eqn:EF; [|done].
  assert (Forall (fun r : list R => length r = 2%nat) BA) as HF.
  { apply Forall_forall. intros r Hr. rewrite forallb_forall in EF. apply Nat.eqb_eq, EF. by apply elem_of_list_In. }
  split; [done|]. clear EF. change (forM ords (random_step BA) s = (Ok u, s')) in H. revert s H. induction ords as [|o ords IH]; intros s H.
  - apply ret_ok in H as [_ ->]. split; [constructor|]. split; [|done]. exists [], 0%nat. split; [done|]. split; [done|]. split; [done|]. split; [lia|]. done.
  - cbn [forM] in H. apply bind_ok in H as (u1&s1&H1&H). apply NoDup_cons in HN as [Ho HN]. apply random_step_ok in H1 as ((A1&A2&A3&A4&A5&A6)&Hlt&d&n&Hd&Hr&Hn&Hp); [|done].
    destruct (IH HN s1 H) as (B0&(ds&n'&C1&C2&C3&C4&C5)&B1&B2&B3&B4&B5&B6). split; [constructor; [done|]; by rewrite <- A5|]. split.
    + exists (d :: ds), (n + n')%nat. split; [simpl; by rewrite C1|]. split; [|split; [|split]].
      * intros [|m] i d' Hi Hd'; cbn in Hi, Hd'.
        -- injection Hi as <-. injection Hd' as <-. eapply offsets_same; [|exact Hd]. intros a Ha. split; [done|]. symmetry. apply B6. by left.
        -- eapply offsets_same; [|by eapply C2]. intros a Ha. split; [|done]. apply A6. left. intros ->. apply Ho. by eapply elem_of_list_lookup_2.
      * rewrite C3, Hr. by rewrite drop_drop.
      * rewrite Hr, drop_length in C4. lia.
      * cbn [concat]. rewrite Hp, C5, Hr. rewrite <- within_cut_app. 
        assert (take n (RNG s) ++ take n' (drop n (RNG s)) = take (n + n') (RNG s)) as ->; [|done].
        rewrite <- (take_drop n (take (n + n') (RNG s))), take_take, Nat.min_l by lia. f_equal. rewrite <- take_drop_commute. done.
    + rewrite B1, B2, B3, B4, B5. split; [done|]. split; [done|]. split; [done|]. split; [done|]. split; [done|].
      intros i a Hia. rewrite B6, A6; [done| |]; (destruct Hia as [Hi|]; [left|by right]); [intros ->; apply Hi; left|intros Hx; apply Hi; by right].
Qed.
Theorem C79_random_rejected ords BA (s : sc R) : ~ Forall (fun r => length r = 2%nat) BA -> set_random_multipole_errors ords BA s = (Err ValueError, s).
Proof.
  intros Hn. unfold set_random_multipole_errors. destruct (forallb _ BA) eqn:EF; [|done]. destruct Hn. apply Forall_forall. intros r Hr. rewrite forallb_forall in EF. apply Nat.eqb_eq, EF. by apply elem_of_list_In.
Qed.
Print Assumptions C79_random.

(** * The Matlab convention: columns skew, normal; type 1 skew, 2 normal; orders from one *)
Section Matlab.
  Context {T : Type} {N : Num T}.
  Lemma roll1_pair (a b : T) : roll1 [a; b] = [b; a].
  Proof. done. Qed.
  Lemma roll1_length (l : list T) : length (roll1 l) = length l.
  Proof. unfold roll1. rewrite app_length, drop_length, take_length. lia. Qed.
  Theorem C79_matlab_systematic ords AB method n type (s s' : sc T) u : method <> "rnd" -> SCsetMultipoles ords AB method (Some n) type s = (Ok u, s') ->
    type ∈ [None; Some 1%Z; Some 2%Z] /\ Forall (fun r => length r = 2%nat) AB /\ (n - 1 < length AB)%nat /\
    let skew := bool_decide (type = Some 1%Z) in
    exists p, multipoles AB (if skew then 0 else 1) (n - 1) p /\ installed ords (systematic_tables skew) (n - 1) p s s'.
  Proof.
    intros Hm H. unfold SCsetMultipoles in H. destruct (match type with None => true | Some t => one_or_two t end) eqn:Et; [|done]. rewrite bool_decide_eq_false_2 in H by done. split; [|].
    { destruct type as [t|]; [|left]. unfold one_or_two in Et. apply orb_prop in Et as [E|E]; apply Z.eqb_eq in E as ->; right; [left|right; left]. }
    apply C79_systematic in H as (HF&Ho&p&(L&Hp)&HI). rewrite map_length in Ho, L.
    assert (Forall (fun r : list T => length r = 2%nat) AB) as HF'.
    { rewrite Forall_forall in HF. apply Forall_forall. intros r Hr. rewrite <- roll1_length. apply HF. change (@map) with (@fmap list _). by apply elem_of_list_fmap_1. }
    split; [done|]. split; [done|]. exists p. split; [|done]. split; [done|]. intros k r Hk.
    assert (map roll1 AB !! k = Some (roll1 r)) as Hk' by (change (@map) with (@fmap list _); rewrite list_lookup_fmap, Hk; done).
    rewrite (Hp k _ Hk'). rewrite Forall_lookup in HF'. specialize (HF' k r Hk). destruct r as [|a [|b []]]; try done. rewrite roll1_pair. by case_bool_decide.
  Qed.
  Theorem C79_matlab_random ords AB order type (s : sc T) : Forall (fun r => length r = 2%nat) AB -> type ∈ [None; Some 1%Z; Some 2%Z] ->
    SCsetMultipoles ords AB "rnd" order type s = set_random_multipole_errors ords (map (@rev T) AB) s.
  Proof.
    intros HF Ht. unfold SCsetMultipoles.
    assert ((match type with None => true | Some t => one_or_two t end) = true) as ->.
    { rewrite !elem_of_cons in Ht. destruct Ht as [->|[->|[->|Ht]]]; try done. by apply elem_of_nil in Ht. }
    rewrite bool_decide_eq_true_2 by done. assert (map roll1 AB = map (@rev T) AB) as ->; [|done].
    induction HF as [|r l Hr HF IH]; [done|]. destruct r as [|a [|b []]]; try done. cbn [map]. by rewrite IH.
  Qed.
  Theorem C79_matlab_rejected ords AB method order type (s : sc T) :
    (forall t, type = Some t -> (t <> 1 /\ t <> 2)%Z -> SCsetMultipoles ords AB method order type s = (Err ValueError, s)) /\
    (type ∈ [None; Some 1%Z; Some 2%Z] -> method <> "rnd" -> order = None -> SCsetMultipoles ords AB method order type s = (Err TypeError, s)).
  Proof.
    unfold SCsetMultipoles. split.
    - intros t -> [H1 H2]. unfold one_or_two. apply Z.eqb_neq in H1, H2. by rewrite H1, H2.
    - intros Ht Hm ->. rewrite (bool_decide_eq_false_2 (method = "rnd")) by done.
      assert ((match type with None => true | Some t => one_or_two t end) = true) as ->; [|done].
      rewrite !elem_of_cons in Ht. destruct Ht as [->|[->|[->|Ht]]]; try done. by apply elem_of_nil in Ht.
  Qed.
End Matlab.
Print Assumptions C79_matlab_systematic.
Print Assumptions C79_matlab_random.
Print Assumptions C79_matlab_rejected.

(** * Finding: the tables hold columns of the array given by the caller *)
Section Shared.
  Context {T : Type} {N : Num T}.
  (** the array with one entry set to zero *)
  Definition zeroed (a a' : list (list T)) (row column : nat) : Prop :=
    length a' = length a /\ forall k r, a !! k = Some r -> exists r', a' !! k = Some r' /\ length r' = length r /\
      forall j, (j < length r)%nat -> r' !! j = if decide (k = row /\ j = column) then Some n0 else r !! j.
  Lemma zeroed_set a row column : zeroed a (set_entry a row column n0) row column.
  Proof.
    unfold set_entry. split; [apply imap_length|]. intros k r Hk. rewrite list_lookup_imap, Hk. simpl. eexists. split; [done|].
    destruct (decide (k = row)) as [->|Hn]; (split; [by rewrite ?insert_length|]); intros j Hj.
    - destruct (decide (j = column)) as [->|Hj'].
      + rewrite decide_True by done. by apply list_lookup_insert.
      + rewrite list_lookup_insert_ne by done. rewrite decide_False by (by intros [_ ?]). done.
    - rewrite decide_False by (by intros [? _]). done.
  Qed.
  Lemma col_at (a : list (list T)) j k r : a !! k = Some r -> (j < length r)%nat -> col a j !! k = r !! j.
  Proof.
    intros Hk Hj. unfold col. change (@map) with (@fmap list _). rewrite list_lookup_fmap, Hk. simpl. destruct (lookup_lt_is_Some_2 r j Hj) as [x Hx]. by rewrite Hx.
  Qed.
  Lemma stored_map {A B} (f : A -> B) (t : list (nat * A)) k : stored (map (fun p => (p.1, f p.2)) t) k = f <$> stored t k.
  Proof. induction t as [|[n x] t IH]; [done|]. simpl. by destruct (decide (n = k)). Qed.
  Lemma stored_visible (st : store T) o name k : stored (visible st o name) k = (fun q : nat * nat => col (default [] (arrays st !! q.1)) q.2) <$> stored (default [] (tables st !! (o, name))) k.
  Proof. unfold visible. exact (stored_map (fun q : nat * nat => col (default [] (arrays st !! q.1)) q.2) _ k). Qed.
  Lemma shared_tables (ords : list nat) (order b ind : nat) (names : list string) (pre : string -> string) (st st' : store T) u :
    forM ords (fun o => forM names (fun target => modify (fun st : store T => MkStore (arrays st) (assign_table o order b ind (pre target) (tables st))))) st = (Ok u, st') ->
    arrays st' = arrays st /\ forall o name k, stored (default [] (tables st' !! (o, name))) k = if decide (o ∈ ords /\ name ∈ map pre names /\ k = order) then Some (b, ind) else stored (default [] (tables st !! (o, name))) k.
  Proof.
    assert (forall o (st st' : store T) u, forM names (fun target => modify (fun st : store T => MkStore (arrays st) (assign_table o order b ind (pre target) (tables st)))) st = (Ok u, st') ->
      arrays st' = arrays st /\ forall o' name k, stored (default [] (tables st' !! (o', name))) k = if decide (o' = o /\ name ∈ map pre names /\ k = order) then Some (b, ind) else stored (default [] (tables st !! (o', name))) k) as Hin.
    { clear. intros o. induction names as [|n names IH]; intros st st' u H.
      - apply ret_ok in H as [_ ->]. split; [done|]. intros o' name k. rewrite decide_False; [done|]. intros (_&Hx&_). by apply elem_of_nil in Hx.
      - cbn [forM] in H. apply bind_ok in H as (u1&s1&H1&H). apply modify_ok in H1 as ->. apply IH in H as [H1 H2]. split; [exact H1|]. intros o' name k. rewrite H2. cbn [tables]. unfold assign_table.
        destruct (decide ((o', name) = (o, pre n))) as [E|E].
        + injection E as -> ->. rewrite lookup_insert. change (default [] (Some ?x)) with x. rewrite stored_tset. destruct (decide (k = order)) as [->|Hk].
          * rewrite (decide_True (P := o = o /\ pre n ∈ map pre (n :: names) /\ order = order)) by (split; [done|split; [left|done]]). by destruct (decide _).
          * rewrite !decide_False by (by intros (_&_&?)). done.
        + rewrite lookup_insert_ne by done. destruct (decide (o' = o /\ name ∈ map pre names /\ k = order)) as [(Ha&Hb&Hc)|Hx].
          * rewrite decide_True; [done|]. split; [done|]. split; [by right|done].
          * rewrite decide_False; [done|]. intros (Ha&Hb&Hc). cbn [map] in Hb. apply elem_of_cons in Hb as [Hb|Hb]; [by subst|]. by apply Hx. }
    revert st. induction ords as [|o ords IH]; intros st H.
    - apply ret_ok in H as [_ ->]. split; [done|]. intros o name k. rewrite decide_False; [done|]. intros (Hx&_). by apply elem_of_nil in Hx.
    - cbn [forM] in H. apply bind_ok in H as (u1&s1&H1&H). apply Hin in H1 as [A1 A2]. apply IH in H as [B1 B2]. split; [congruence|]. intros o' name k. rewrite B2, A2.
      destruct (decide (o' ∈ ords /\ name ∈ map pre names /\ k = order)) as [(Ha&Hb&Hc)|Hx].
      + rewrite decide_True; [done|]. split; [by right|done].
      + destruct (decide (o' = o /\ name ∈ map pre names /\ k = order)) as [(Ha&Hb&Hc)|Hy].
        * rewrite decide_True; [done|]. subst. split; [left|done].
        * rewrite decide_False; [done|]. intros (Ha&Hb). apply elem_of_cons in Ha as [->|Ha]; [by apply Hy|by apply Hx].
  Qed.
  (** The call writes the zero into the caller's array, and stores the column itself. *)
  Theorem C79_finding_caller ords b order (skew : bool) (st st' : store T) u a : set_systematic_shared ords b order skew st = (Ok u, st') -> arrays st !! b = Some a ->
    let ind := if skew then 1%nat else 0%nat in
    Forall (fun r => length r = 2%nat) a /\ (order < length a)%nat /\
    (exists a', zeroed a a' order ind /\ arrays st' = <[b := a']> (arrays st)) /\
    (forall o name k, stored (default [] (tables st' !! (o, name))) k = if decide (o ∈ ords /\ name ∈ systematic_tables skew /\ k = order) then Some (b, ind) else stored (default [] (tables st !! (o, name))) k).
  Proof.
    intros H Ha ind. unfold set_systematic_shared in H. apply bind_ok in H as (st0&st1&H1&H). apply get_ok in H1 as [-> ->]. rewrite Ha in H.
    destruct (forallb _ a) eqn:EF; [|done]. destruct (order <? length a)%nat eqn:Eo; [|done]. apply Nat.ltb_lt in Eo.
    apply bind_ok in H as (u1&s1&H1&H). apply modify_ok in H1 as ->. apply (shared_tables _ _ _ _ _ (fun target => "SysPol" +:+ target +:+ "From" +:+ (if skew then "A" else "B"))) in H as [H1 H2]. cbn [arrays tables] in H1, H2.
    split. { apply Forall_forall. intros r Hr. rewrite forallb_forall in EF. apply Nat.eqb_eq, EF. by apply elem_of_list_In. }
    split; [done|]. split; [eexists; split; [apply zeroed_set|exact H1]|]. intros o name k. rewrite H2. by destruct skew.
  Qed.
  (** With an array that no table holds yet, the tables are those of the model without sharing. *)
  Theorem C79_shared_fresh ords b order (skew : bool) (st st' : store T) u a : set_systematic_shared ords b order skew st = (Ok u, st') -> arrays st !! b = Some a ->
    (forall o name k c, stored (default [] (tables st !! (o, name))) k <> Some (b, c)) ->
    exists p, multipoles a (if skew then 1 else 0) order p /\
      forall o name k, stored (visible st' o name) k = if decide (o ∈ ords /\ name ∈ systematic_tables skew /\ k = order) then Some p else stored (visible st o name) k.
  Proof.
    intros H Ha Hf. destruct (C79_finding_caller _ _ _ _ _ _ _ _ H Ha) as (HF&Ho&(a'&[L Z]&E)&Ht). exists (col a' (if skew then 1%nat else 0%nat)). split.
    - split; [unfold col; by rewrite map_length|]. intros k r Hk. destruct (Z k r Hk) as (r'&Hr'&Lr&Hj). rewrite Forall_lookup in HF. specialize (HF k r Hk).
      assert ((if skew then 1 else 0) < length r)%nat as Hi by (destruct skew; lia). rewrite (col_at a' _ k r' Hr') by lia. rewrite (Hj _ Hi).
      destruct (decide (k = order)) as [->|Hn]; [by rewrite decide_True|]. by rewrite decide_False by (by intros [? _]).
    - intros o name k. rewrite !stored_visible, Ht, E. destruct (decide _) as [|Hn]; simpl.
      + by rewrite lookup_insert.
      + destruct (stored (default [] (tables st !! (o, name))) k) as [[b' c]|] eqn:Es; [|done]. simpl. rewrite lookup_insert_ne; [done|]. intros <-. by eapply Hf.
  Qed.
  (** A second call with the same array and another order changes what the first one has stored: one more multipole is zero. *)
  Theorem C79_finding_shared ords ords2 b order order2 (skew : bool) (st st1 st2 : store T) u u2 a o name : set_systematic_shared ords b order skew st = (Ok u, st1) ->
    set_systematic_shared ords2 b order2 skew st1 = (Ok u2, st2) -> arrays st !! b = Some a -> order2 <> order -> o ∈ ords -> name ∈ systematic_tables skew ->
    exists p1 p2, stored (visible st1 o name) order = Some p1 /\ stored (visible st2 o name) order = Some p2 /\
      multipoles a (if skew then 1 else 0) order p1 /\ length p2 = length p1 /\ p2 !! order2 = Some n0 /\ forall k, k <> order2 -> p2 !! k = p1 !! k.
  Proof.
    intros H1 H2 Ha Hne Hi Hnm. destruct (C79_finding_caller _ _ _ _ _ _ _ _ H1 Ha) as (HF&Ho&(a'&[L Z]&E)&Ht).
    assert (arrays st1 !! b = Some a') as Ha' by (rewrite E; apply lookup_insert).
    destruct (C79_finding_caller _ _ _ _ _ _ _ _ H2 Ha') as (HF2&Ho2&(a2&[L2 Z2]&E2)&Ht2). set (ind := if skew then 1%nat else 0%nat) in *.
    assert (ind < 2)%nat as Hind by (unfold ind; destruct skew; lia).
    exists (col a' ind), (col a2 ind). split; [|split; [|split; [|split; [|split]]]].
    - rewrite stored_visible, Ht. rewrite decide_True by done. simpl. by rewrite Ha'.
    - rewrite stored_visible, Ht2. rewrite decide_False by (intros (_&_&Hx); by apply Hne). rewrite Ht. rewrite decide_True by done. simpl. by rewrite E2, lookup_insert.
    - split; [unfold col; by rewrite map_length|]. intros k r Hk. destruct (Z k r Hk) as (r'&Hr'&Lr&Hj). rewrite Forall_lookup in HF. specialize (HF k r Hk).
      rewrite (col_at a' _ k r' Hr') by lia. rewrite Hj by lia.
      destruct (decide (k = order)) as [->|Hn]; [by rewrite decide_True|]. by rewrite decide_False by (by intros [? _]).
    - unfold col. rewrite !map_length. done.
    - destruct (lookup_lt_is_Some_2 a' order2 Ho2) as [r Hr]. destruct (Z2 _ _ Hr) as (r'&Hr'&Lr&Hj). rewrite Forall_lookup in HF2. specialize (HF2 _ r Hr).
      rewrite (col_at a2 _ _ r' Hr') by lia. rewrite Hj by lia. by rewrite decide_True.
    - intros k Hk. destruct (a' !! k) as [r|] eqn:Hr.
      + destruct (Z2 _ _ Hr) as (r'&Hr'&Lr&Hj). rewrite Forall_lookup in HF2. specialize (HF2 _ r Hr). rewrite (col_at a2 _ _ r' Hr'), (col_at a' _ _ r Hr) by lia. rewrite Hj by lia. by rewrite decide_False by (by intros [? _]).
      + apply lookup_ge_None in Hr. rewrite !lookup_ge_None_2; [done| |]; unfold col; rewrite map_length; lia.
  Qed.
End Shared.
Print Assumptions C79_finding_caller.
Print Assumptions C79_shared_fresh.
Print Assumptions C79_finding_shared.

(** * Cases *)
Local Open Scope Q_scope.
(** two magnets; the first one has a field offset and a table already *)
Definition mult_machine : sc Q :=
  init_sc [mk [("PolynomBOffset", VVec [1#10; 0; 0; 2]); ("SysPolAFromB", VTab [(2%nat, [7; 8; 0])])]; drift 1; mk []] [1#2; 5; -1; 1#4; 2; 9; 1; 1; 0; 1#2; 3].
(** normal multipoles of a quadrupole for the orders dipole, quadrupole, sextupole, and of the other column nothing is left *)
Example C79_case_systematic :
  let r := set_systematic_multipole_errors [0; 2]%nat [[1; 9]; [2; 9]; [3; 9]] 1 false mult_machine in
  fst r = Ok tt /\ map (fun i => attr_at (snd r) i "SysPolAFromB") [0; 2]%nat = [Some (VTab [(2%nat, [7; 8; 0]); (1%nat, [1; 0; 3])]); Some (VTab [(1%nat, [1; 0; 3])])] /\
  map (fun i => attr_at (snd r) i "SysPolBFromB") [0; 2]%nat = [Some (VTab [(1%nat, [1; 0; 3])]); Some (VTab [(1%nat, [1; 0; 3])])].
Proof. vm_compute. auto. Qed.
(** the numbers 5 and 9 are above two sigma and are replaced; magnet 0 keeps its longer offset *)
Example C79_case_random :
  let r := set_random_multipole_errors [0; 2]%nat [[10; 20]; [100; 200]] mult_machine in
  fst r = Ok tt /\ (forall i, i ∈ [0; 2]%nat -> (i < length (RING mult_machine))%nat) /\
  attr_at (snd r) 0 "PolynomBOffset" = Some (VVec [51#10; -100; 0; 2]) /\ attr_at (snd r) 0 "PolynomAOffset" = Some (VVec [40; 50]) /\
  attr_at (snd r) 2 "PolynomBOffset" = Some (VVec [5; 100]) /\ attr_at (snd r) 2 "PolynomAOffset" = Some (VVec [20; 0]) /\ RNG (snd r) = [3].
Proof.
  split; [vm_compute; reflexivity|]. split; [intros i Hi; apply elem_of_cons in Hi as [->|Hi]; [simpl; lia|]; apply elem_of_list_singleton in Hi as ->; simpl; lia|]. vm_compute. repeat split.
Qed.
(** the same with the Matlab convention: skew first, order 2 for quadrupoles *)
Example C79_case_matlab :
  let r := SCsetMultipoles [2]%nat [[9; 1]; [9; 2]; [9; 3]] "sys" (Some 2%nat) (Some 2%Z) mult_machine in
  fst r = Ok tt /\ attr_at (snd r) 2 "SysPolBFromB" = Some (VTab [(1%nat, [1; 0; 3])]) /\
  fst (SCsetMultipoles [2]%nat [[9; 1]; [9; 2]] "sys" (Some 2%nat) (Some 3%Z) mult_machine) = Err ValueError /\
  fst (SCsetMultipoles [2]%nat [[9; 1]; [9; 2]] "sys" None (Some 1%Z) mult_machine) = Err TypeError.
Proof. vm_compute. auto. Qed.
(** one array for a quadrupole and a sextupole: after the second call the quadrupole has lost its sextupole component *)
Example C79_case_shared :
  let st := MkStore {[ 5%nat := [[1; 9]; [2; 9]; [3; 9]] ]} ∅ : store Q in
  let r1 := set_systematic_shared [0]%nat 5 1 false st in let r2 := set_systematic_shared [2]%nat 5 2 false (snd r1) in
  fst r1 = Ok tt /\ fst r2 = Ok tt /\ visible (snd r1) 0 "SysPolAFromB" = [(1%nat, [1; 0; 3])] /\ visible (snd r2) 0 "SysPolAFromB" = [(1%nat, [1; 0; 0])] /\
  arrays (snd r2) !! 5%nat = Some [[1; 9]; [0; 9]; [0; 9]].
Proof. vm_compute. auto. Qed.
