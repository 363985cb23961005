(** Field updates: update_magnets as a list of attribute writes. *)
From stdpp Require Import base gmap strings list.
From Verif Require Import Num Base Model_Arr Model_SC Model_Err Lemmas.
Local Open Scope string_scope.
Local Open Scope list_scope.

(** Invariants of computations with a fact about the result. *)
Definition inv {S A} (P : S -> Prop) (m : M S A) (Q : A -> Prop) : Prop :=
  forall s, P s -> P (snd (m s)) /\ forall a, fst (m s) = Ok a -> Q a.
Lemma inv_bind {S A B} (P : S -> Prop) (m : M S A) Q (f : A -> M S B) Q' :
  inv P m Q -> (forall a, Q a -> inv P (f a) Q') -> inv P (bind m f) Q'.
Proof.
  intros Hm Hf s Hs. specialize (Hm s Hs) as [H1 H2]. unfold bind. destruct (m s) as [[a|e] s1]; simpl in *.
  - apply Hf; auto.
  - split; [done|]. intros; discriminate.
Qed.
Lemma inv_pres {S A} (P : S -> Prop) (R : S -> S -> Prop) (m : M S A) :
  (forall s s', R s s' -> P s -> P s') -> pres R m -> inv P m (fun _ => True).
Proof. intros H Hm s Hs. split; [|auto]. eapply H; [apply Hm|done]. Qed.
Lemma inv_forM {S A} (P : S -> Prop) (l : list A) f : (forall x, x ∈ l -> inv P (f x) (fun _ => True)) -> inv P (forM l f) (fun _ => True).
Proof.
  induction l as [|x l IH]; intros H; simpl; [intros s Hs; auto|].
  eapply inv_bind; [apply H; left|]. intros _ _. apply IH. intros y Hy. apply H. by right.
Qed.
Lemma inv_ret {S A} (P : S -> Prop) (a : A) : inv P (ret a) (fun b => b = a).
Proof. intros s Hs. split; [done|]. simpl. intros b. congruence. Qed.
Lemma inv_weaken {S A} (P : S -> Prop) (m : M S A) (Q Q' : A -> Prop) : (forall a, Q a -> Q' a) -> inv P m Q -> inv P m Q'.
Proof. intros H Hm s Hs. destruct (Hm s Hs). auto. Qed.

(** Running a computation by rewriting. *)
Lemma run_lift {S A B} (r : res A) (f : A -> M S B) s : bind (lift r) f s = match r with Ok a => f a s | Err x => (Err x, s) end.
Proof. by destruct r. Qed.
Lemma run_getm {T A B} (g : elem T -> res A) (f : A -> M (elem T) B) e :
  bind (getm g) f e = match g e with Ok a => f a e | Err x => (Err x, e) end.
Proof. unfold bind, getm. by destruct (g e). Qed.
Lemma run_setattr {T B} a v (f : unit -> M (elem T) B) e : bind (setattr a v) f e = f tt (<[a:=v]> e).
Proof. reflexivity. Qed.
Lemma run_bind {S A B C} (m : M S A) (g : A -> M S B) (f : B -> M S C) s :
  bind (bind m g) f s = bind m (fun a => bind (g a) f) s.
Proof. unfold bind. destruct (m s) as [[]]; reflexivity. Qed.
Lemma run_eq {S A B} (m : M S A) (f : A -> M S B) s : bind m f s = match m s with (Ok a, s') => f a s' | (Err x, s') => (Err x, s') end.
Proof. reflexivity. Qed.

(** * Writes of attributes *)
Section Writes.
  Context {T : Type}.
  Notation ring := (list (elem T)).
  Notation write := (nat * string * val T)%type.

  Definition rwr (r : ring) (w : write) : ring := alter (<[w.1.2 := w.2]>) w.1.1 r.
  Definition aget (r : ring) (i : nat) (a : string) : option (val T) := r !! i ≫= fun e => e !! a.

  Lemma rwr_length r ws : length (foldl rwr r ws) = length r.
  Proof. revert r. induction ws as [|w ws IH]; intros r; simpl; [done|]. rewrite IH. apply alter_length. Qed.
  Lemma aget_rwr r w i a : (w.1.1 < length r) -> aget (rwr r w) i a = if decide (i = w.1.1 /\ a = w.1.2) then Some w.2 else aget r i a.
  Proof.
    destruct w as [[j b] v]. unfold aget, rwr. simpl. intros Hj. destruct (decide (i = j)) as [->|Hne].
    - apply lookup_lt_is_Some in Hj as [e He]. rewrite list_lookup_alter, He. simpl.
      destruct (decide (a = b)) as [->|].
      + rewrite lookup_insert. by rewrite decide_True.
      + rewrite lookup_insert_ne by done. rewrite decide_False by naive_solver. done.
    - rewrite list_lookup_alter_ne by done. rewrite decide_False by naive_solver. done.
  Qed.
  Definition in_range (r : ring) (ws : list write) : Prop := forall w, w ∈ ws -> w.1.1 < length r.

  (** the value the list of writes leaves at a place, if it writes there *)
  Fixpoint last_write (ws : list write) (i : nat) (a : string) : option (val T) :=
    match ws with
    | [] => None
    | w :: ws' => match last_write ws' i a with
                  | Some v => Some v
                  | None => if decide (i = w.1.1 /\ a = w.1.2) then Some w.2 else None
                  end
    end.
  Lemma aget_writes r ws i a : in_range r ws ->
    aget (foldl rwr r ws) i a = match last_write ws i a with Some v => Some v | None => aget r i a end.
  Proof.
    revert r. induction ws as [|w ws IH]; intros r H; simpl; [done|].
    assert (w.1.1 < length r) as Hw by (apply H; left).
    rewrite IH by (intros w' Hw'; unfold rwr; rewrite alter_length; apply H; by right).
    destruct (last_write ws i a); [done|]. rewrite aget_rwr by done. destruct (decide _); done.
  Qed.
  Lemma ring_eq (r r' : ring) : length r = length r' -> (forall i a, aget r i a = aget r' i a) -> r = r'.
  Proof.
    intros HL H. apply list_eq. intros i. specialize (H i). unfold aget in H.
    destruct (r !! i) as [e|] eqn:E, (r' !! i) as [e'|] eqn:E'; simpl in *.
    - f_equal. apply map_eq. exact H.
    - apply lookup_lt_Some in E. apply lookup_ge_None in E'. lia.
    - apply lookup_lt_Some in E'. apply lookup_ge_None in E. lia.
    - done.
  Qed.
  Lemma writes_idem r ws : in_range r ws -> foldl rwr (foldl rwr r ws) ws = foldl rwr r ws.
  Proof.
    intros H. apply ring_eq; [by rewrite !rwr_length|]. intros i a.
    rewrite aget_writes by (intros w Hw; rewrite rwr_length; auto). rewrite aget_writes by done.
    destruct (last_write ws i a); done.
  Qed.
  Lemma last_write_app ws1 ws2 i a :
    last_write (ws1 ++ ws2) i a = match last_write ws2 i a with Some v => Some v | None => last_write ws1 i a end.
  Proof.
    induction ws1 as [|w ws1 IH]; simpl; [by destruct (last_write ws2 i a)|]. rewrite IH. by destruct (last_write ws2 i a).
  Qed.
  Lemma last_write_in ws i a v : last_write ws i a = Some v -> (i, a, v) ∈ ws.
  Proof.
    induction ws as [|[[j b] w] ws IH]; simpl; [discriminate|]. destruct (last_write ws i a) as [v'|] eqn:E.
    - intros. simplify_eq. right. auto.
    - destruct (decide _) as [[-> ->]|]; intros; simplify_eq. left.
  Qed.
  Lemma last_write_none ws i a : last_write ws i a = None <-> forall v, (i, a, v) ∉ ws.
  Proof.
    induction ws as [|[[j b] w] ws IH]; simpl; [split; [intros _ v Hv; inversion Hv|done]|].
    destruct (last_write ws i a) as [v'|] eqn:E.
    - split; [discriminate|]. intros H. exfalso. apply (H v'). right. by apply last_write_in.
    - destruct (decide _) as [[-> ->]|Hne]; simpl.
      + split; [discriminate|]. intros H. exfalso. apply (H w). left.
      + split; [|done]. intros _ v Hv. apply elem_of_cons in Hv as [Hv|Hv]; [simplify_eq; by apply Hne|]. by apply IH in Hv.
  Qed.
  Lemma last_write_in_any ws i a v : (i, a, v) ∈ ws -> exists v', last_write ws i a = Some v'.
  Proof. intros H. destruct (last_write ws i a) eqn:E; [eauto|]. rewrite last_write_none in E. by destruct (E v). Qed.
  Lemma writes_comm r ws1 ws2 :
    in_range r ws1 -> in_range r ws2 ->
    (forall i a v1 v2, (i, a, v1) ∈ ws1 -> (i, a, v2) ∈ ws2 -> last_write ws1 i a = last_write ws2 i a) ->
    foldl rwr (foldl rwr r ws1) ws2 = foldl rwr (foldl rwr r ws2) ws1.
  Proof.
    intros H1 H2 H. apply ring_eq; [by rewrite !rwr_length|]. intros i a.
    rewrite !aget_writes by (intros w Hw; rewrite ?rwr_length; auto).
    destruct (last_write ws1 i a) as [v1|] eqn:E1, (last_write ws2 i a) as [v2|] eqn:E2; auto.
    specialize (H i a v1 v2 (last_write_in _ _ _ _ E1) (last_write_in _ _ _ _ E2)). congruence.
  Qed.
End Writes.

(** * One update *)
Definition DERIVED : list string := ["PolynomA"; "PolynomB"; "KickAngle"; "MaxOrder"].

Section Update.
  Context {T : Type} {N : Num T}.
  Notation ring := (list (elem T)).

  Definition plus_B0 (x : T) (pb : list T) : res (list T) := let? b0 := idx pb 0 in Ok (<[0%nat := nadd b0 x]> pb).
  (** new fields of the target, from attributes that the update does not write *)
  Definition target_fields (src e : elem T) : res (list T * list T) :=
    let? spa := attr_vec src "SetPointA" in
    let? spb := attr_vec src "SetPointB" in
    let? pa := (let? c := attr src "CalErrorA" in scaled_setpoints spa c) in
    let? pb := (let? c := attr src "CalErrorB" in scaled_setpoints spb c) in
    let? newa := new_polynom e "A" pa pb in
    let? newb := new_polynom e "B" pa pb in
    let? newb1 := match src !! "BendingAngleError" with
                  | None => Ok newb
                  | Some v => let? ba := (let? err := as_num v in
                                   let? th := attr_num e "BendingAngle" in
                                   let? len := attr_num e "Length" in qdiv (nmul err th) len) in
                              plus_B0 ba newb
                  end in
    let? newb2 := match src !! "BendingAngle", src !! "CombinedFunction" with
                  | Some _, Some (VBool true) =>
                     let? d := (let? sp1 := idx spb 1 in
                       let? cal := attr_vec src "CalErrorB" in
                       let? c1 := idx cal 1 in
                       let? nom := attr_vec src "NomPolynomB" in
                       let? nom1 := idx nom 1 in
                       let? alpha := qdiv (nmul sp1 (nadd n1 c1)) nom1 in
                       let? th := attr_num e "BendingAngle" in
                       let? len := attr_num e "Length" in
                       qdiv (nsub (nmul alpha th) th) len) in
                     plus_B0 d newb1
                  | _, _ => Ok newb1
                  end in
    Ok (newa, newb2).
  Definition attr_writes (src e : elem T) : res (list (string * val T)) :=
    let? ab := target_fields src e in
    let? pm := attr_str src "PassMethod" in
    let? k := (if bool_decide (pm = "CorrectorPass") then
                 let? b0 := idx ab.2 0 in let? a0 := idx ab.1 0 in Ok [("KickAngle", VVec [b0; a0])]
               else Ok []) in
    Ok ([("PolynomA", VVec ab.1); ("PolynomB", VVec ab.2)] ++ k ++ [("MaxOrder", VInt (Z.of_nat (length ab.2) - 1))]).
  Definition put (e : elem T) (kv : string * val T) : elem T := <[kv.1 := kv.2]> e.

  (** Elements equal outside the derived attributes. *)
  Definition der (a : string) : Prop := a ∈ DERIVED.

  Lemma bool_decide_elem {A} `{EqDecision A} (x : A) (l : list A) : bool_decide (x ∈ l) = true -> x ∈ l.
  Proof. apply bool_decide_eq_true. Qed.
  Lemma not_der a : bool_decide (a ∈ DERIVED) = false -> ~ der a.
  Proof. unfold der. by rewrite bool_decide_eq_false. Qed.
  Lemma eag (e e' : elem T) a : eagree der e e' -> bool_decide (a ∈ DERIVED) = false -> e' !! a = e !! a.
  Proof. intros H Ha. apply H. unfold der. by apply bool_decide_eq_false in Ha. Qed.
  Ltac use_eag H := repeat (rewrite (eag _ _ _ H) by reflexivity).

  Lemma new_polynom_agree e e' t pa pb : t = "A" \/ t = "B" -> eagree der e e' -> new_polynom e' t pa pb = new_polynom e t pa pb.
  Proof.
    intros [-> | ->] H; unfold new_polynom; cbn [rfold];
      repeat (rewrite (eag _ _ _ H) by (vm_compute; reflexivity)); reflexivity.
  Qed.
  Lemma target_fields_agree src src' e e' :
    eagree der src src' -> eagree der e e' -> target_fields src' e' = target_fields src e.
  Proof.
    intros Hs He. unfold target_fields, attr_vec, attr_num, attr.
    repeat (rewrite (eag _ _ _ Hs) by (vm_compute; reflexivity)).
    destruct (src !! "SetPointA") as [v1|]; [|reflexivity]. simpl. destruct (as_vec v1); [|reflexivity]. simpl.
    destruct (src !! "SetPointB") as [v2|]; [|reflexivity]. simpl. destruct (as_vec v2); [|reflexivity]. simpl.
    destruct (src !! "CalErrorA") as [v3|]; [|reflexivity]. simpl. destruct (scaled_setpoints _ v3); [|reflexivity]. simpl.
    destruct (src !! "CalErrorB") as [v4|]; [|reflexivity]. simpl. destruct (scaled_setpoints _ v4); [|reflexivity]. simpl.
    rewrite !(new_polynom_agree e e') by auto.
    destruct (new_polynom e "A" _ _); [|reflexivity]. simpl. destruct (new_polynom e "B" _ _); [|reflexivity]. simpl.
    repeat (rewrite (eag _ _ _ He) by (vm_compute; reflexivity)). reflexivity.
  Qed.
  Lemma attr_writes_agree src src' e e' :
    eagree der src src' -> eagree der e e' -> attr_writes src' e' = attr_writes src e.
  Proof.
    intros Hs He. unfold attr_writes. rewrite (target_fields_agree src src' e e') by done.
    unfold attr_str, attr. rewrite (eag _ _ _ Hs) by (vm_compute; reflexivity). reflexivity.
  Qed.
  Lemma attr_writes_keys src e ws : attr_writes src e = Ok ws -> forall kv, kv ∈ ws -> der kv.1.
  Proof.
    unfold attr_writes. intros H kv Hkv. minv H.
    assert (forall k : string, bool_decide (k ∈ DERIVED) = true -> der k) as D by (intros k; apply bool_decide_elem).
    destruct (bool_decide _) in Hr1.
    - minv Hr1. repeat (apply elem_of_cons in Hkv as [->|Hkv]; [apply D; reflexivity|]). inversion Hkv.
    - minv Hr1. repeat (apply elem_of_cons in Hkv as [->|Hkv]; [apply D; reflexivity|]). inversion Hkv.
  Qed.
  Lemma puts_agree (ws : list (string * val T)) e : (forall kv, kv ∈ ws -> der kv.1) -> eagree der e (foldl put e ws).
  Proof.
    revert e. induction ws as [|kv ws IH]; intros e H; simpl; [reflexivity|].
    etransitivity; [|apply IH; intros; apply H; by right].
    intros a Ha. unfold put. apply lookup_insert_ne. intros <-. apply Ha, H. left.
  Qed.

  Lemma eagree_insert (e : elem T) a v : der a -> eagree der e (<[a:=v]> e).
  Proof. intros Ha b Hb. apply lookup_insert_ne. congruence. Qed.
  Lemma der_in a : bool_decide (a ∈ DERIVED) = true -> der a.
  Proof. apply bool_decide_elem. Qed.

  Lemma add_to_B0_ok x e u e' : add_to_B0 x e = (Ok u, e') <->
    exists pb pb', e !! "PolynomB" = Some (VVec pb) /\ plus_B0 x pb = Ok pb' /\ e' = <["PolynomB" := VVec pb']> e.
  Proof.
    unfold add_to_B0, plus_B0. split.
    - intros H. minv H. eexists _, _. split; [eassumption|]. split; [|reflexivity].
      rewrite rbind_ok. eexists. split; [apply idx_ok; eassumption|reflexivity].
    - intros (pb&pb'&H1&H2&->). minv H2. apply bind_ok. eexists _, _. split; [apply getm_ok; split; [by apply attr_vec_ok|done]|].
      apply bind_ok. eexists _, _. split; [apply lift_ok; split; [by apply idx_ok|done]|]. destruct u. reflexivity.
  Qed.

  Lemma pres_update_target src : pres (eagree der) (update_target src).
  Proof.
    unfold update_target, add_to_B0.
    repeat first [pres_step|apply pres_setattr; apply der_in; reflexivity].
  Qed.

  Lemma update_target_spec src e :
    match attr_writes src e with
    | Ok ws => update_target src e = (Ok tt, foldl put e ws)
    | Err x => fst (update_target src e) = Err x
    end.
  Proof.
    unfold update_target, attr_writes, target_fields.
    rewrite run_lift. destruct (attr_vec src "SetPointA") as [spa|x]; [|reflexivity]. cbn [rbind].
    rewrite run_lift. destruct (attr_vec src "SetPointB") as [spb|x]; [|reflexivity]. cbn [rbind].
    rewrite run_lift. destruct (rbind (attr src "CalErrorA") _) as [pa|x]; [|reflexivity]. cbn [rbind].
    rewrite run_lift. destruct (rbind (attr src "CalErrorB") _) as [pb|x]; [|reflexivity]. cbn [rbind].
    rewrite run_bind, run_getm. destruct (new_polynom e "A" pa pb) as [newa|x]; [|reflexivity]. cbn [rbind].
    rewrite run_setattr. set (e1 := <["PolynomA" := VVec newa]> e).
    assert (eagree der e e1) as A1 by (apply eagree_insert, der_in; reflexivity).
    rewrite run_bind, run_getm. rewrite (new_polynom_agree e e1) by auto.
    destruct (new_polynom e "B" pa pb) as [newb|x]; [|reflexivity]. cbn [rbind].
    rewrite run_setattr. set (e2 := <["PolynomB" := VVec newb]> e1).
    assert (eagree der e e2) as A2 by (etransitivity; [exact A1|]; apply eagree_insert, der_in; reflexivity).
    assert (forall y (e3 : elem T) nb, e3 = <["PolynomB" := VVec nb]> e1 ->
      match plus_B0 y nb with
      | Ok nb' => add_to_B0 y e3 = (Ok tt, <["PolynomB" := VVec nb']> e1)
      | Err x => fst (add_to_B0 y e3) = Err x
      end) as Hadd.
    { intros y e3 nb ->. unfold plus_B0, add_to_B0, bind, getm, lift, attr_vec, attr. rewrite lookup_insert. simpl.
      destruct (idx nb 0) as [b0|x]; [|reflexivity]. simpl. unfold setattr, modify. by rewrite insert_insert. }
    assert (forall nb, eagree der e (<["PolynomB" := VVec nb]> e1)) as A3.
    { intros nb. etransitivity; [exact A1|]; apply eagree_insert, der_in; reflexivity. }
    rewrite run_eq.
    set (m1 := match src !! "BendingAngleError" with Some v => _ | None => ret tt end).
    set (r1 := match src !! "BendingAngleError" with Some v => _ | None => Ok newb end).
    assert (match r1 with Ok nb => m1 e2 = (Ok tt, <["PolynomB" := VVec nb]> e1) | Err x => fst (m1 e2) = Err x end) as H1.
    { subst r1 m1. destruct (src !! "BendingAngleError") as [v|]; [|reflexivity]. unfold bind, getm.
      unfold attr_num, attr. rewrite !(eag e e2) by first [exact A2|vm_compute; reflexivity].
      destruct (rbind (as_num v) _) as [ba|x]; [|reflexivity]. cbn [rbind]. by apply Hadd. }
    clearbody m1 r1. destruct r1 as [nb1|x]; [|destruct (m1 e2) as [[]?]; simpl in *; [discriminate|done]].
    rewrite H1. cbn [rbind]. clear H1. clear A2.
    rewrite run_eq.
    set (m2 := match src !! "BendingAngle" with Some _ => _ | None => ret tt end).
    set (r2 := match src !! "BendingAngle" with Some _ => _ | None => Ok nb1 end).
    assert (match r2 with Ok nb => m2 (<["PolynomB" := VVec nb1]> e1) = (Ok tt, <["PolynomB" := VVec nb]> e1)
                        | Err x => fst (m2 (<["PolynomB" := VVec nb1]> e1)) = Err x end) as H2.
    { subst r2 m2. destruct (src !! "BendingAngle") as [v|]; [|reflexivity].
      destruct (src !! "CombinedFunction") as [[]|]; try reflexivity. destruct b; [|reflexivity].
      unfold bind, getm. unfold attr_num, attr. rewrite !(eag e _ _ (A3 nb1)) by (vm_compute; reflexivity).
      destruct (rbind (idx spb 1) _) as [ba|x]; [|reflexivity]. cbn [rbind]. by apply Hadd. }
    clearbody m2 r2. destruct r2 as [nb2|x]; [|destruct (m2 _) as [[]?]; simpl in *; [discriminate|done]].
    rewrite H2. cbn [rbind]. clear H2. cbn [fst snd].
    rewrite run_bind, run_lift. destruct (attr_str src "PassMethod") as [pm|x]; [|reflexivity]. cbn [rbind].
    destruct (bool_decide (pm = "CorrectorPass")); unfold when, bind, getm, setattr, modify, ret.
    - assert (attr_vec (<["PolynomB" := VVec nb2]> e1) "PolynomB" = Ok nb2) as -> by (apply attr_vec_ok, lookup_insert).
      assert (attr_vec (<["PolynomB" := VVec nb2]> e1) "PolynomA" = Ok newa) as ->.
      { apply attr_vec_ok. rewrite lookup_insert_ne by done. apply lookup_insert. }
      cbn [rbind]. destruct (idx nb2 0) as [b0|x]; [|reflexivity]. cbn [rbind].
      destruct (idx newa 0) as [a0|x]; [|reflexivity]. cbn [rbind].
      assert (attr_vec (<["KickAngle":=VVec [b0; a0]]> (<["PolynomB" := VVec nb2]> e1)) "PolynomB" = Ok nb2) as ->.
      { apply attr_vec_ok. rewrite lookup_insert_ne by done. apply lookup_insert. }
      reflexivity.
    - assert (attr_vec (<["PolynomB" := VVec nb2]> e1) "PolynomB" = Ok nb2) as -> by (apply attr_vec_ok, lookup_insert).
      reflexivity.
  Qed.
  Lemma update_target_ok src e u e' :
    update_target src e = (Ok u, e') <-> exists ws, attr_writes src e = Ok ws /\ e' = foldl put e ws.
  Proof.
    pose proof (update_target_spec src e) as H. destruct (attr_writes src e) as [ws|x].
    - rewrite H. destruct u. split; [intros; simplify_eq; eauto|]. intros (ws'&?&->). by simplify_eq.
    - split; [intros E; rewrite E in H; discriminate|]. intros (ws'&?&_). discriminate.
  Qed.

  (** * update_magnets *)
  Definition at_place (t : nat) (kv : string * val T) : nat * string * val T := (t, kv.1, kv.2).
  Lemma puts_ring (r : ring) t e ws : r !! t = Some e ->
    <[t := foldl put e ws]> r = foldl rwr r (map (at_place t) ws).
  Proof.
    revert r e. induction ws as [|kv ws IH]; intros r e He; simpl.
    - by apply list_insert_id.
    - rewrite <- (IH _ (put e kv)).
      + unfold rwr, at_place, put. simpl.
        apply list_eq. intros j. destruct (decide (t = j)) as [->|].
        * assert (j < length r) by (eapply lookup_lt_Some; eauto).
          rewrite !list_lookup_insert; [done| |done]. by rewrite alter_length.
        * rewrite !list_lookup_insert_ne by done. by rewrite list_lookup_alter_ne.
      + unfold rwr. simpl. rewrite list_lookup_alter, He. done.
  Qed.
  (** the writes of [update_magnet source target] on ring [r] *)
  Definition pair_writes (r : ring) (p : nat * nat) : res (list (nat * string * val T)) :=
    let? es := idx r p.1 in let? et := idx r p.2 in
    let? ws := attr_writes es et in Ok (map (at_place p.2) ws).
  Lemma update_magnet_ok src t s u s' :
    update_magnet src t s = (Ok u, s') <-> exists ws, pair_writes (RING s) (src, t) = Ok ws /\ s' = set_RING (foldl rwr (RING s) ws) s.
  Proof.
    unfold update_magnet, pair_writes. simpl. rewrite bind_ok. split.
    - intros (es&s1&H1&H). minv H1. apply on_elem_ok in H as (e&e'&He&Hu&->). apply update_target_ok in Hu as (ws&Hws&->).
      exists (map (at_place t) ws). rewrite (puts_ring _ _ _ _ He). split; [|done].
      unfold idx. rewrite H1, He. simpl. by rewrite Hws.
    - intros (ws&H&->). minv H. simplify_eq. eexists _, _. split; [by apply ring_elem_ok|]. apply on_elem_ok.
      eexists _, _. split; [done|]. split; [apply update_target_ok; eauto|]. by rewrite (puts_ring _ _ _ _ Hr0).
  Qed.
  (** rings equal outside the derived attributes *)
  Definition ragD (r r' : ring) : Prop := ragree (fun _ => der) r r'.
  Lemma ragD_some r r' i e : ragD r r' -> r !! i = Some e -> exists e', r' !! i = Some e' /\ eagree der e e'.
  Proof.
    intros [HL H] He. destruct (r' !! i) as [e'|] eqn:E; [eauto|]. apply lookup_ge_None in E. apply lookup_lt_Some in He. lia.
  Qed.
  Lemma ragD_none r r' i : ragD r r' -> r !! i = None -> r' !! i = None.
  Proof. intros [HL _] H. apply lookup_ge_None in H. apply lookup_ge_None. lia. Qed.
  Lemma pair_writes_agree r r' p : ragD r r' -> pair_writes r' p = pair_writes r p.
  Proof.
    intros H. unfold pair_writes, idx.
    destruct (r !! p.1) as [es|] eqn:E1; [|by rewrite (ragD_none r r' p.1) by done].
    destruct (ragD_some r r' _ _ H E1) as (es'&->&A1).
    destruct (r !! p.2) as [et|] eqn:E2; [|by rewrite (ragD_none r r' p.2) by done].
    destruct (ragD_some r r' _ _ H E2) as (et'&->&A2). simpl. by rewrite (attr_writes_agree es es' et et').
  Qed.
  Lemma pair_writes_in r p ws : pair_writes r p = Ok ws -> forall w, w ∈ ws -> w.1.1 = p.2 /\ der w.1.2 /\ p.2 < length r.
  Proof.
    unfold pair_writes. intros H w Hw. minv H. apply elem_of_list_fmap in Hw as (kv&->&Hkv). simpl.
    split; [done|]. split; [by eapply attr_writes_keys|]. by eapply lookup_lt_Some.
  Qed.
  Lemma rwr_agree r ws : (forall w, w ∈ ws -> der w.1.2) -> ragD r (foldl rwr r ws).
  Proof.
    intros H. split; [apply rwr_length|]. revert r. induction ws as [|w ws IH]; intros r i e e' He He'; simpl in *.
    - simplify_eq. reflexivity.
    - destruct (rwr r w !! i) as [e1|] eqn:E1.
      + etransitivity; [|eapply IH; [intros; apply H; by right|exact E1|done]].
        unfold rwr in E1. destruct (decide (i = w.1.1)) as [->|].
        * rewrite list_lookup_alter, He in E1. simpl in E1. simplify_eq. apply eagree_insert, H. left.
        * rewrite list_lookup_alter_ne in E1 by done. simplify_eq. reflexivity.
      + unfold rwr in E1. apply lookup_ge_None in E1. rewrite alter_length in E1. apply lookup_lt_Some in He. lia.
  Qed.
  Lemma pair_writes_ragD r p ws : pair_writes r p = Ok ws -> ragD r (foldl rwr r ws).
  Proof. intros H. apply rwr_agree. intros w Hw. by edestruct pair_writes_in as (_&?&_). Qed.

  (** children registered with a magnet *)
  Definition children (r : ring) (i : nat) : list nat :=
    match aget r i "MasterOf" with Some (VOrds l) => l | _ => [] end.
  Definition steps1 (r : ring) (i : nat) : list (nat * nat) := (i, i) :: map (pair i) (children r i).
  Definition steps (r : ring) (ords : list nat) : list (nat * nat) := concat (map (steps1 r) ords).
  Definition all_writes (r : ring) (ps : list (nat * nat)) : res (list (nat * string * val T)) :=
    let? l := rmap (pair_writes r) ps in Ok (concat l).

  Lemma ragD_aget r r' i a : ragD r r' -> bool_decide (a ∈ DERIVED) = false -> aget r' i a = aget r i a.
  Proof.
    intros H Ha. unfold aget. destruct (r !! i) as [e|] eqn:E; [|by rewrite (ragD_none r r')].
    destruct (ragD_some r r' _ _ H E) as (e'&->&A). simpl. by apply eag.
  Qed.
  Lemma children_agree r r' i : ragD r r' -> children r' i = children r i.
  Proof. intros H. unfold children. by rewrite (ragD_aget r r'). Qed.
  Lemma steps_agree r r' ords : ragD r r' -> steps r' ords = steps r ords.
  Proof.
    intros H. unfold steps. induction ords as [|i ords IH]; [done|]. simpl. rewrite IH. unfold steps1.
    by rewrite (children_agree r r').
  Qed.
  Lemma all_writes_agree r r' ps : ragD r r' -> all_writes r' ps = all_writes r ps.
  Proof.
    intros H. unfold all_writes. assert (rmap (pair_writes r') ps = rmap (pair_writes r) ps) as ->; [|done].
    induction ps as [|p ps IH]; [done|]. simpl. by rewrite (pair_writes_agree r r'), IH.
  Qed.
  Lemma all_writes_cons r p ps ws :
    all_writes r (p :: ps) = Ok ws <-> exists w1 w2, pair_writes r p = Ok w1 /\ all_writes r ps = Ok w2 /\ ws = w1 ++ w2.
  Proof.
    unfold all_writes. simpl. split.
    - destruct (pair_writes r p) as [w1|]; [|discriminate]. simpl. destruct (rmap (pair_writes r) ps) as [l|]; [|discriminate].
      simpl. intros. simplify_eq. eauto.
    - intros (w1&w2&H1&H2&->). rewrite H1. simpl. destruct (rmap (pair_writes r) ps) as [l|]; [|discriminate].
      simpl in *. by simplify_eq.
  Qed.
  Lemma all_writes_app r ps qs ws :
    all_writes r (ps ++ qs) = Ok ws <-> exists w1 w2, all_writes r ps = Ok w1 /\ all_writes r qs = Ok w2 /\ ws = w1 ++ w2.
  Proof.
    revert ws. induction ps as [|p ps IH]; intros ws.
    - simpl. split; [intros; exists [], ws; auto|]. intros (?&?&H1&H2&->). unfold all_writes in H1. simpl in H1. by simplify_eq.
    - rewrite <- app_comm_cons. rewrite all_writes_cons. setoid_rewrite all_writes_cons. setoid_rewrite IH. split.
      + intros (a&b&Ha&(c&d&Hc&Hd&->)&->). eexists _, _. split; [eauto 10|]. split; [eauto|]. by rewrite app_assoc.
      + intros (a&b&(c&d&Hc&Hd&->)&Hb&->). eexists _, _. split; [eauto|]. split; [eauto 10|]. by rewrite app_assoc.
  Qed.
  Lemma all_writes_in r ps ws : all_writes r ps = Ok ws ->
    forall w, w ∈ ws -> exists p, p ∈ ps /\ w.1.1 = p.2 /\ der w.1.2 /\ p.2 < length r /\ exists w1, pair_writes r p = Ok w1 /\ w ∈ w1.
  Proof.
    revert ws. induction ps as [|p ps IH]; intros ws H w Hw.
    - unfold all_writes in H. simpl in H. simplify_eq. inversion Hw.
    - apply all_writes_cons in H as (w1&w2&H1&H2&->). apply elem_of_app in Hw as [Hw|Hw].
      + exists p. split; [left|]. destruct (pair_writes_in _ _ _ H1 w Hw) as (?&?&?). eauto 10.
      + destruct (IH _ H2 w Hw) as (q&Hq&?). exists q. split; [by right|done].
  Qed.
  Lemma all_writes_some r ps ws p : all_writes r ps = Ok ws -> p ∈ ps -> exists w1, pair_writes r p = Ok w1 /\ forall w, w ∈ w1 -> w ∈ ws.
  Proof.
    revert ws. induction ps as [|q ps IH]; intros ws H Hp; [inversion Hp|].
    apply all_writes_cons in H as (w1&w2&H1&H2&->). apply elem_of_cons in Hp as [->|Hp].
    - exists w1. split; [done|]. intros w Hw. apply elem_of_app. by left.
    - destruct (IH _ H2 Hp) as (w3&?&?). exists w3. split; [done|]. intros w Hw. apply elem_of_app. right. auto.
  Qed.
  Lemma all_writes_range r ps ws : all_writes r ps = Ok ws -> in_range r ws.
  Proof. intros H w Hw. destruct (all_writes_in _ _ _ H w Hw) as (p&?&->&?&?&?). done. Qed.
  Lemma all_writes_ragD r ps ws : all_writes r ps = Ok ws -> ragD r (foldl rwr r ws).
  Proof. intros H. apply rwr_agree. intros w Hw. by destruct (all_writes_in _ _ _ H w Hw) as (?&?&?&?&?). Qed.

  Lemma set_RING_id (s : sc T) : set_RING (RING s) s = s.
  Proof. by destruct s. Qed.
  Lemma forM_update_ok ps s u s' :
    forM ps (fun p => update_magnet p.1 p.2) s = (Ok u, s') <->
    exists ws, all_writes (RING s) ps = Ok ws /\ s' = set_RING (foldl rwr (RING s) ws) s.
  Proof.
    revert s. induction ps as [|p ps IH]; intros s; simpl.
    - destruct u. split; [intros H; minv H; exists []; simpl; split; [done|by rewrite set_RING_id]|].
      intros (ws&H&->). unfold all_writes in H. simpl in H. simplify_eq. simpl. by rewrite set_RING_id.
    - rewrite bind_ok. setoid_rewrite all_writes_cons. split.
      + intros (u1&s1&H1&H2). apply update_magnet_ok in H1 as (w1&Hw1&->). apply IH in H2 as (w2&Hw2&->). simpl in *.
        rewrite (all_writes_agree (RING s)) in Hw2 by (by eapply pair_writes_ragD).
        exists (w1 ++ w2). split; [destruct p; eauto 10|]. by rewrite foldl_app.
      + intros (ws&(w1&w2&H1&H2&->)&->). exists tt. eexists. split; [apply update_magnet_ok; destruct p; eauto|].
        apply IH. simpl. exists w2. rewrite (all_writes_agree (RING s)) by (by eapply pair_writes_ragD).
        split; [done|]. by rewrite foldl_app.
  Qed.

  (** every MasterOf attribute on the way is an array of ordinates *)
  Definition masters_ok (r : ring) (ords : list nat) : Prop :=
    forall i v, i ∈ ords -> aget r i "MasterOf" = Some v -> exists l, v = VOrds l.
  Lemma update_magnets_ok ords s u s' :
    update_magnets ords s = (Ok u, s') <->
    masters_ok (RING s) ords /\
    exists ws, all_writes (RING s) (steps (RING s) ords) = Ok ws /\ s' = set_RING (foldl rwr (RING s) ws) s.
  Proof.
    revert s. induction ords as [|i ords IH]; intros s; simpl.
    - destruct u. split.
      + intros H. unfold update_magnets in H. simpl in H. minv H. split; [intros ? ? Hi; inversion Hi|]. exists []. simpl. split; [done|by rewrite set_RING_id].
      + intros (_&ws&H&->). unfold all_writes in H. simpl in H. simplify_eq. simpl. by rewrite set_RING_id.
    - change (update_magnets (i :: ords)) with
        (bind (bind (update_magnet i i) (fun _ => bind (ring_elem i) (fun e =>
          match e !! "MasterOf" with
          | None => ret tt
          | Some v => bind (lift (as_ords v)) (fun children => forM children (fun c => update_magnet i c))
          end))) (fun _ => update_magnets ords)).
      rewrite bind_ok.
      assert (forall u1 s1, bind (update_magnet i i) (fun _ => bind (ring_elem i) (fun e =>
          match e !! "MasterOf" with
          | None => ret tt
          | Some v => bind (lift (as_ords v)) (fun children => forM children (fun c => update_magnet i c))
          end)) s = (Ok u1, s1) <->
          (forall v, aget (RING s) i "MasterOf" = Some v -> exists l, v = VOrds l) /\
          forM (steps1 (RING s) i) (fun p => update_magnet p.1 p.2) s = (Ok u1, s1)) as E.
      { intros u1 s1. unfold steps1. simpl. rewrite !bind_ok. split.
        - intros (u2&s2&H1&H). pose proof H1 as H1'. apply update_magnet_ok in H1 as (w1&Hw1&->).
          apply bind_ok in H as (e&s3&He&H). minv He. simpl in *.
          assert (aget (RING s) i "MasterOf" = e !! "MasterOf") as Ea.
          { rewrite <- (ragD_aget (RING s) _ i "MasterOf" (pair_writes_ragD _ _ _ Hw1)) by reflexivity. unfold aget. by rewrite He. }
          unfold children. rewrite Ea. destruct (e !! "MasterOf") as [v|].
          + apply bind_ok in H as (l&s4&Hl&H). minv Hl. split; [naive_solver|]. eexists _, _. split; [exact H1'|].
            clear -H. revert H. generalize (set_RING (foldl rwr (RING s) w1) s). induction l as [|c l IHl]; intros s2 H; [done|].
            simpl in *. apply bind_ok in H as (u3&s3&H3&H). apply bind_ok. exists u3, s3. split; [done|]. by apply IHl.
          + minv H. split; [naive_solver|]. eexists _, _. split; [exact H1'|]. reflexivity.
        - intros (Hm&u2&s2&H1&H). exists u2, s2. split; [done|]. apply update_magnet_ok in H1 as (w1&Hw1&->).
          pose proof (pair_writes_ragD _ _ _ Hw1) as HD.
          assert (exists e, RING s !! i = Some e) as [e0 He0].
          { unfold pair_writes in Hw1. minv Hw1. eauto. }
          destruct (ragD_some _ _ _ _ HD He0) as (e&He&Ag).
          apply bind_ok. exists e. eexists. split; [apply ring_elem_ok; split; [exact He|reflexivity]|].
          assert (aget (RING s) i "MasterOf" = e !! "MasterOf") as Ea.
          { rewrite <- (ragD_aget (RING s) _ i "MasterOf" HD) by reflexivity. unfold aget. by rewrite He. }
          unfold children in H. rewrite Ea in H, Hm. destruct (e !! "MasterOf") as [v|]; [|exact H].
          destruct (Hm v eq_refl) as [l ->]. simpl in *. apply bind_ok. exists l. eexists. split; [by apply lift_ok|].
          clear -H. revert H. generalize (set_RING (foldl rwr (RING s) w1) s). induction l as [|c l IHl]; intros s2 H; [done|].
          simpl in *. apply bind_ok in H as (u3&s3&H3&H). apply bind_ok. exists u3, s3. split; [done|]. by apply IHl. }
      setoid_rewrite E. clear E. split.
      + intros (u1&s1&[Hm H1]&H2). apply forM_update_ok in H1 as (w1&Hw1&->). apply IH in H2 as (Hm2&w2&Hw2&->). simpl in *.
        pose proof (all_writes_ragD _ _ _ Hw1) as HD.
        rewrite (steps_agree (RING s)), (all_writes_agree (RING s)) in Hw2 by done.
        split.
        * intros j v Hj Hv. apply elem_of_cons in Hj as [->|Hj]; [eauto|]. apply (Hm2 j v Hj). by rewrite (ragD_aget (RING s)).
        * exists (w1 ++ w2). split; [|by rewrite foldl_app]. change (steps (RING s) (i :: ords)) with (steps1 (RING s) i ++ steps (RING s) ords). apply all_writes_app. eauto 10.
      + intros (Hm&ws&Hws&->). change (steps (RING s) (i :: ords)) with (steps1 (RING s) i ++ steps (RING s) ords) in Hws. apply all_writes_app in Hws as (w1&w2&Hw1&Hw2&->).
        pose proof (all_writes_ragD _ _ _ Hw1) as HD.
        exists tt. eexists. split; [split; [|apply forM_update_ok; eauto]|].
        * intros v Hv. apply (Hm i v); [left|done].
        * apply IH. simpl. split.
          -- intros j v Hj Hv. apply (Hm j v); [by right|]. by rewrite <- (ragD_aget (RING s) _ j "MasterOf" HD).
          -- exists w2. rewrite (steps_agree (RING s)), (all_writes_agree (RING s)) by done. split; [done|by rewrite foldl_app].
  Qed.

  (** updating again *)
  Lemma update_magnets_twice ords s u s' : update_magnets ords s = (Ok u, s') -> update_magnets ords s' = (Ok u, s').
  Proof.
    intros H. apply update_magnets_ok in H as (Hm&ws&Hws&->). apply update_magnets_ok. simpl.
    pose proof (all_writes_ragD _ _ _ Hws) as HD. split.
    - intros j v Hj Hv. apply (Hm j v); [done|]. by rewrite <- (ragD_aget (RING s) _ j "MasterOf" HD).
    - exists ws. rewrite (steps_agree (RING s)), (all_writes_agree (RING s)) by done. split; [done|].
      rewrite writes_idem by (by eapply all_writes_range). by destruct s.
  Qed.

  (** * What update_magnets leaves alone, whatever its outcome *)
  Definition touched (r : ring) (ords : list nat) (i : nat) : Prop := i ∈ ords \/ exists m, m ∈ ords /\ i ∈ children r m.
  Lemma frame_aget I (s s' : sc T) i a : frame I s s' -> ~ I i a -> aget (RING s') i a = aget (RING s) i a.
  Proof.
    intros (_&_&_&_&_&[HL H]) Ha. unfold aget. destruct (RING s !! i) as [e|] eqn:E.
    - destruct (RING s' !! i) as [e'|] eqn:E'; simpl.
      + exact (H i e e' E E' a Ha).
      + apply lookup_ge_None in E'. apply lookup_lt_Some in E. lia.
    - apply lookup_ge_None in E. assert (RING s' !! i = None) as -> by (apply lookup_ge_None; lia). done.
  Qed.
  Lemma update_magnets_inv (I : nat -> string -> Prop) s ords :
    (forall i a, touched (RING s) ords i -> der a -> I i a) -> (forall i, ~ I i "MasterOf") ->
    inv (frame I s) (update_magnets ords) (fun _ => True).
  Proof.
    intros HI HM. unfold update_magnets. apply inv_forM. intros i Hi.
    assert (forall src t, touched (RING s) ords t -> inv (frame I s) (update_magnet src t) (fun _ => True)) as Hu.
    { intros src t Ht. eapply (inv_pres _ (frame I)); [intros; by etransitivity|].
      unfold update_magnet. apply pres_bind; [exact _|apply pres_ring_elem; exact _|]. intros e.
      apply pres_on_elem_frame. eapply pres_weaken; [|apply pres_update_target].
      intros e0 e1 Hag a Ha. apply Hag. intros Hd. apply Ha. auto. }
    eapply inv_bind; [apply Hu; left; done|]. intros _ _.
    apply (inv_bind _ _ (fun e => e !! "MasterOf" = aget (RING s) i "MasterOf")).
    { intros s1 Hs1. split; [exact Hs1|]. intros e He.
      assert (ring_elem i s1 = (Ok e, s1)) as He' by (unfold ring_elem in *; simpl in *; congruence).
      apply ring_elem_ok in He' as [He' _]. rewrite <- (frame_aget I s s1) by auto. unfold aget. by rewrite He'. }
    intros e He. destruct (e !! "MasterOf") as [v|]; [|intros s1 Hs1; auto].
    apply (inv_bind _ _ (fun l => as_ords v = Ok l)).
    { intros s1 Hs1. split; [done|]. simpl. auto. }
    intros l Hl. minv Hl. apply inv_forM. intros c Hc. apply Hu. right. exists i. split; [done|].
    unfold children. by rewrite <- He.
  Qed.
  Lemma update_magnets_frame ords s :
    frame (fun i a => der a /\ touched (RING s) ords i) s (snd (update_magnets ords s)).
  Proof.
    apply (update_magnets_inv _ s ords); [auto| |reflexivity].
    intros i [Hd _]. revert Hd. by apply not_der.
  Qed.
End Update.
