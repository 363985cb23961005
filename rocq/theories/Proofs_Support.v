(** Registration of supports. *)
From stdpp Require Import base gmap strings list.
From Verif Require Import Num Base Model_Arr Model_SC Model_Err Lemmas Proofs_Reg.
From Coq Require Import Sorted.
Local Open Scope string_scope.
Local Open Scope list_scope.

(** order of the registry: by end ordinate, then by start ordinate *)
Definition pair_lt (p q : nat * nat) : Prop := p.2 < q.2 \/ (p.2 = q.2 /\ p.1 < q.1).
Definition pair_le (p q : nat * nat) : Prop := p = q \/ pair_lt p q.

Lemma pair_leb_spec p q : pair_leb p q = true <-> pair_le p q.
Proof.
  unfold pair_leb, pair_le, pair_lt. destruct p as [a b], q as [c d]; simpl.
  rewrite orb_true_iff, andb_true_iff, Nat.ltb_lt, Nat.eqb_eq, Nat.leb_le.
  split.
  - intros [H|[-> H]]; [auto|]. destruct (decide (a = c)) as [->|]; [auto|]. right. right. lia.
  - intros [H|H]; [simplify_eq; right; lia|lia].
Qed.
Lemma pair_le_total p q : pair_leb p q = false -> pair_lt q p.
Proof.
  intros H. unfold pair_lt. destruct p as [a b], q as [c d]; simpl in *.
  unfold pair_leb in H. simpl in H. apply orb_false_iff in H as [H1 H2].
  apply Nat.ltb_ge in H1. apply andb_false_iff in H2 as [H2|H2].
  - apply Nat.eqb_neq in H2. lia.
  - apply Nat.leb_gt in H2. lia.
Qed.
Lemma pair_le_trans p q r : pair_le p q -> pair_le q r -> pair_le p r.
Proof. unfold pair_le, pair_lt. intros [->|H1] [->|H2]; auto. right. lia. Qed.
Lemma pins_elem p l q : q ∈ pins p l <-> q = p \/ q ∈ l.
Proof.
  induction l as [|r l IH]; simpl; [rewrite elem_of_list_singleton, elem_of_nil; naive_solver|].
  destruct (pair_leb p r); rewrite !elem_of_cons; [naive_solver|]. rewrite IH. naive_solver.
Qed.
Lemma pins_sorted p l : StronglySorted pair_le l -> StronglySorted pair_le (pins p l).
Proof.
  induction 1 as [|q l Hs IH Hf]; simpl; [repeat constructor|].
  destruct (pair_leb p q) eqn:E.
  - apply pair_leb_spec in E. constructor; [by constructor|]. constructor; [done|].
    eapply Forall_impl; eauto. intros; eapply pair_le_trans; eauto.
  - apply pair_le_total in E. constructor; [done|]. apply Forall_forall. intros r Hr.
    apply pins_elem in Hr as [->|Hr]; [by right|]. rewrite Forall_forall in Hf. auto.
Qed.
Lemma psort_elem l q : q ∈ psort l <-> q ∈ l.
Proof. unfold psort. induction l as [|p l IH]; simpl; [done|]. rewrite pins_elem, elem_of_cons, IH. done. Qed.
Lemma psort_sorted l : StronglySorted pair_le (psort l).
Proof. unfold psort. induction l; simpl; [constructor|by apply pins_sorted]. Qed.
Lemma drop_repeats_elem l q : q ∈ drop_repeats l <-> q ∈ l.
Proof.
  induction l as [|p l IH]; [done|]. simpl. destruct l as [|r l]; [done|].
  destruct (decide (p = r)) as [->|].
  - rewrite IH, !elem_of_cons. naive_solver.
  - rewrite elem_of_cons, IH. rewrite (elem_of_cons (r :: l)). done.
Qed.
Lemma drop_repeats_sorted l : StronglySorted pair_le l -> StronglySorted pair_lt (drop_repeats l).
Proof.
  induction l as [|p l IH]; intros H; [constructor|]. inversion H as [|? ? Hs Hf]; subst. simpl.
  destruct l as [|r l]; [repeat constructor|].
  destruct (decide (p = r)) as [->|Hne]; [auto|].
  constructor; [auto|]. apply Forall_forall. intros q Hq. rewrite drop_repeats_elem in Hq.
  inversion Hf as [|? ? Hpr Hf']; subst. inversion Hs as [|? ? Hs' Hfr]; subst.
  assert (pair_lt p r) as Hlt by (destruct Hpr; [done|auto]).
  apply elem_of_cons in Hq as [->|Hq]; [done|].
  rewrite Forall_forall in Hfr. specialize (Hfr q Hq). unfold pair_le, pair_lt in *.
  destruct Hfr as [->|]; [auto|]. lia.
Qed.
Lemma update_double_sorted a b : StronglySorted pair_lt (update_double_ordinates a b).
Proof. apply drop_repeats_sorted, psort_sorted. Qed.
Lemma update_double_elem a b q : q ∈ update_double_ordinates a b <-> q ∈ a \/ q ∈ b.
Proof. unfold update_double_ordinates. rewrite drop_repeats_elem, psort_elem, elem_of_app. done. Qed.

(** * Uncertainties of supports *)
Section SupportSig.
  Context {T : Type} {N : Num T}.
  Notation smap := (gmap nat (dict (sigval T))).

  Definition wr (m : smap) (w : nat * string * sigval T) : smap := sig_set m w.1.1 w.1.2 w.2.

  Lemma sigma_wr m w i k : sigma_of (wr m w) i k = if decide (i = w.1.1 /\ k = w.1.2) then Some w.2 else sigma_of m i k.
  Proof.
    destruct w as [[j k'] v]. unfold wr, sig_set, sigma_of. simpl. destruct (decide (i = j)) as [->|Hne].
    - rewrite lookup_insert. simpl. rewrite dget_dset. destruct (decide (k = k')) as [->|].
      + rewrite decide_True by auto. done.
      + rewrite decide_False by naive_solver. destruct (m !! j); auto.
    - rewrite lookup_insert_ne by done. rewrite decide_False by naive_solver. done.
  Qed.
  Lemma writes_other ws m i : (forall w, w ∈ ws -> w.1.1 <> i) -> foldl wr m ws !! i = m !! i.
  Proof.
    revert m. induction ws as [|w ws IH]; intros m H; simpl; [done|].
    rewrite IH by (intros w' Hw'; apply H; by right). unfold wr, sig_set. rewrite lookup_insert_ne; [done|]. apply H. left.
  Qed.
  Lemma writes_none ws m i k : (forall v, (i, k, v) ∉ ws) -> sigma_of (foldl wr m ws) i k = sigma_of m i k.
  Proof.
    revert m. induction ws as [|w ws IH]; intros m H; simpl; [done|].
    rewrite IH by (intros v Hv; apply (H v); by right). rewrite sigma_wr, decide_False; [done|].
    intros [-> ->]. apply (H w.2). destruct w as [[? ?] ?]. left.
  Qed.
  Lemma writes_some ws m i k v :
    (i, k, v) ∈ ws -> (forall v', (i, k, v') ∈ ws -> v' = v) -> sigma_of (foldl wr m ws) i k = Some v.
  Proof.
    induction ws as [|w ws IH] using rev_ind; intros Hin Hun; [inversion Hin|].
    rewrite foldl_snoc, sigma_wr. destruct w as [[j k'] v']. simpl. destruct (decide (i = j /\ k = k')) as [[-> ->]|Hne].
    - f_equal. apply Hun. rewrite elem_of_app. right. left.
    - apply IH.
      + rewrite elem_of_app, elem_of_list_singleton in Hin. destruct Hin as [?|?]; [done|]. simplify_eq. exfalso. by apply Hne.
      + intros v1 Hv1. apply Hun. rewrite elem_of_app. by left.
  Qed.
  Lemma writes_some_any ws m i k v :
    sigma_of (foldl wr m ws) i k = Some v -> sigma_of m i k = Some v \/ (i, k, v) ∈ ws.
  Proof.
    revert m. induction ws as [|w ws IH]; intros m H; simpl in *; [auto|].
    apply IH in H as [H|H]; [|right; by right]. rewrite sigma_wr in H. destruct (decide _) as [[-> ->]|]; [|auto].
    simplify_eq. right. destruct w as [[? ?] ?]. left.
  Qed.

  Variable t : stype.
  Definition writes1 (p : nat * nat) (kv : string * sigval T) : list (nat * string * sigval T) :=
    match endpoint_sigmas kv.2 with
    | Ok (a, None) => [(p.1, stype_str t +:+ kv.1, a)]
    | Ok (a, Some b) => [(p.1, stype_str t +:+ kv.1, a); (p.2, stype_str t +:+ kv.1, b)]
    | Err _ => []
    end.
  Definition writes (kw : dict (sigval T)) (pairs : list (nat * nat)) : list (nat * string * sigval T) :=
    p ← pairs; kv ← kw; writes1 p kv.

  Definition sig_step (p : nat * nat) (kv : string * sigval T) : M (sc T) unit :=
    let! sg := lift (endpoint_sigmas kv.2) in
    mod_SIG (fun g => set_sSupport (sig_set (sSupport g) p.1 (stype_str t +:+ kv.1) sg.1) g) ;;;
    match sg.2 with
    | None => ret tt
    | Some v1 => mod_SIG (fun g => set_sSupport (sig_set (sSupport g) p.2 (stype_str t +:+ kv.1) v1) g)
    end.
  Lemma sig_step_ok p kv s u s' : sig_step p kv s = (Ok u, s') ->
    sSupport (SIG s') = foldl wr (sSupport (SIG s)) (writes1 p kv) /\ RING s' = RING s /\ is_Some (match endpoint_sigmas kv.2 with Ok x => Some x | _ => None end).
  Proof.
    unfold sig_step, writes1. intros H. apply bind_ok in H as (sg&s1&H1&H). minv H1. rewrite H1.
    apply bind_ok in H as (u1&s1&H2&H). unfold mod_SIG in *. minv H2.
    destruct sg as [a [b|]]; simpl in *; minv H; simpl; eauto.
  Qed.
  Lemma sig_row_ok p kw s u s' : forM kw (sig_step p) s = (Ok u, s') ->
    sSupport (SIG s') = foldl wr (sSupport (SIG s)) (kw ≫= writes1 p) /\ RING s' = RING s.
  Proof.
    revert s. induction kw as [|kv kw IH]; intros s H; simpl in *; [by minv H|].
    apply bind_ok in H as (u1&s1&H1&H). apply sig_step_ok in H1 as (E1&R1&_). apply IH in H as (E2&R2).
    split; [|congruence]. rewrite E2, E1, foldl_app. done.
  Qed.
  Lemma sig_all_ok kw pairs s u s' : forM pairs (fun p => forM kw (sig_step p)) s = (Ok u, s') ->
    sSupport (SIG s') = foldl wr (sSupport (SIG s)) (writes kw pairs) /\ RING s' = RING s.
  Proof.
    revert s. induction pairs as [|p pairs IH]; intros s H; simpl in *; [by minv H|].
    apply bind_ok in H as (u1&s1&H1&H). apply sig_row_ok in H1 as (E1&R1). apply IH in H as (E2&R2).
    split; [|congruence]. rewrite E2, E1. unfold writes. simpl. rewrite foldl_app. done.
  Qed.

  Lemma wipe_loop l s u s' :
    forM l (fun ind =>
      on_elem ind (setattr (stype_str t +:+ "Offset") (VVec (zeros 3)) ;;; setattr (stype_str t +:+ "Roll") (VVec (zeros 3))) ;;;
      mod_SIG (fun g => set_sSupport (<[ind := []]> (sSupport g)) g)) s = (Ok u, s') ->
    (forall i, i ∈ l -> sSupport (SIG s') !! i = Some []) /\ (forall i, i ∉ l -> sSupport (SIG s') !! i = sSupport (SIG s) !! i).
  Proof.
    intros H. apply (loop_sig _ (fun i g => set_sSupport (<[i := []]> (sSupport g)) g)) in H.
    - rewrite H. clear. generalize (SIG s) as g. induction l as [|j l IH]; intros g; simpl.
      + split; [intros i Hi; inversion Hi|done].
      + destruct (IH (set_sSupport (<[j:=[]]> (sSupport g)) g)) as [H1 H2]. split.
        * intros i Hi. destruct (decide (i ∈ l)); [auto|]. rewrite H2 by done. simpl.
          apply elem_of_cons in Hi as [->|?]; [|done]. by rewrite lookup_insert.
        * intros i Hi. apply not_elem_of_cons in Hi as [? ?]. rewrite H2 by done. simpl. by rewrite lookup_insert_ne.
    - clear. intros i s u s' H. apply bind_ok in H as (u1&s1&H1&H). apply on_elem_SIG in H1.
      unfold mod_SIG in H. minv H. simpl. by rewrite H1.
  Qed.

  Lemma register_supports_sig a b name kw s u s' :
    stype_of name = Some t -> register_supports [a; b] name kw s = (Ok u, s') ->
    length a = length b /\
    exists m1, (forall i, i ∈ a ++ b -> m1 !! i = Some []) /\ (forall i, i ∉ a ++ b -> m1 !! i = sSupport (SIG s) !! i) /\
    sSupport (SIG s') = foldl wr m1 (writes kw (zip a b)).
  Proof.
    intros Ht H. unfold register_supports in H. rewrite Ht in H. apply bind_ok in H as (u1&s1&H1&H).
    destruct (check_kwargs_spec kw SUPPORT_ERROR_FIELDS s) as [[Ha E]|[Ha E]]; rewrite E in H1; [|discriminate]. injection H1 as _ <-.
    destruct (length a =? length b)%nat eqn:EL; simpl in H; [|discriminate]. apply Nat.eqb_eq in EL. split; [done|].
    apply bind_ok in H as (u2&s2&H2&H). unfold mod_ORD in H2. minv H2.
    apply bind_ok in H as (u3&s3&H3&H). apply wipe_loop in H3 as [W1 W2].
    exists (sSupport (SIG s3)). split; [done|]. split; [intros i Hi; rewrite W2 by done; done|].
    apply (sig_all_ok kw (zip a b)) in H as [H _]. exact H.
  Qed.

  Lemma writes_in kw pairs i k v :
    (i, k, v) ∈ writes kw pairs <->
    exists p kv a ob, p ∈ pairs /\ kv ∈ kw /\ endpoint_sigmas kv.2 = Ok (a, ob) /\ k = stype_str t +:+ kv.1 /\
      ((i = p.1 /\ v = a) \/ (i = p.2 /\ ob = Some v)).
  Proof.
    unfold writes. rewrite elem_of_list_bind. split.
    - intros (p&H&Hp). apply elem_of_list_bind in H as (kv&H&Hkv). exists p, kv. unfold writes1 in H.
      destruct (endpoint_sigmas kv.2) as [[a [b|]]|]; [exists a, (Some b)|exists a, None|inversion H];
        repeat (apply elem_of_cons in H as [H|H]; [simplify_eq; eauto 10|]); inversion H.
    - intros (p&kv&a&ob&Hp&Hkv&E&->&H). exists p. split; [|done]. apply elem_of_list_bind. exists kv. split; [|done].
      unfold writes1. rewrite E. destruct H as [[-> ->]|[-> ->]]; [destruct ob; left|right; left].
  Qed.
End SupportSig.

Lemma str_app_inj a b c : a +:+ b = a +:+ c -> b = c.
Proof. induction a; simpl; [done|]. intros H. injection H. auto. Qed.
