(** Reasoning about computations: preserved relations, inversion of successful runs, loops. *)
From stdpp Require Import base gmap strings list.
From Verif Require Import Num Base Model_Arr Model_SC Model_Err.

(** * Relations preserved by every run, successful or not *)
Definition pres {S A} (R : S -> S -> Prop) (m : M S A) : Prop := forall s, R s (snd (m s)).

Section Pres.
  Context {S : Type} (R : S -> S -> Prop) `{!PreOrder R}.
  Lemma pres_ret {A} (a : A) : pres R (ret a).
  Proof. intros s. reflexivity. Qed.
  Lemma pres_raise {A} e : pres R (@raise S A e).
  Proof. intros s. reflexivity. Qed.
  Lemma pres_lift {A} (r : res A) : pres R (lift r).
  Proof. intros s. reflexivity. Qed.
  Lemma pres_get : pres R get.
  Proof. intros s. reflexivity. Qed.
  Lemma pres_gets {A} (f : S -> A) : pres R (gets f).
  Proof. intros s. reflexivity. Qed.
  Lemma pres_bind {A B} (m : M S A) (f : A -> M S B) :
    pres R m -> (forall a, pres R (f a)) -> pres R (bind m f).
  Proof.
    intros Hm Hf s. unfold bind. specialize (Hm s). destruct (m s) as [[a|e] s']; simpl in *; auto.
    etransitivity; [exact Hm|apply Hf].
  Qed.
  Lemma pres_modify f : (forall s, R s (f s)) -> pres R (modify f).
  Proof. intros H s. apply H. Qed.
  Lemma pres_when b m : pres R m -> pres R (when b m).
  Proof. destruct b; intros; [auto|apply pres_ret]. Qed.
  Lemma pres_forM {A} (l : list A) f : (forall x, x ∈ l -> pres R (f x)) -> pres R (forM l f).
  Proof.
    induction l as [|x l IH]; intros H; simpl; [apply pres_ret|].
    apply pres_bind; [apply H; left|]. intros _. apply IH. intros y Hy. apply H. by right.
  Qed.
  Lemma pres_mapM {A B} (l : list A) (f : A -> M S B) : (forall x, x ∈ l -> pres R (f x)) -> pres R (mapM l f).
  Proof.
    induction l as [|x l IH]; intros H; simpl; [apply pres_ret|].
    apply pres_bind; [apply H; left|]. intros b. apply pres_bind; [|intros; apply pres_ret].
    apply IH. intros y Hy. apply H. by right.
  Qed.
End Pres.

Lemma pres_weaken {S A} (R R' : S -> S -> Prop) (m : M S A) : (forall s s', R s s' -> R' s s') -> pres R m -> pres R' m.
Proof. intros H Hm s. apply H, Hm. Qed.

(** getm / setattr on elements *)
Lemma pres_getm {T A} (R : elem T -> elem T -> Prop) `{!PreOrder R} (f : elem T -> res A) : pres R (getm f).
Proof. intros s. reflexivity. Qed.

(** Break a goal [pres R prog] along the structure of the program. *)
Ltac pres_step :=
  lazymatch goal with
  | |- pres _ (ret _) => apply pres_ret; exact _
  | |- pres _ (raise _) => apply pres_raise; exact _
  | |- pres _ (lift _) => apply pres_lift; exact _
  | |- pres _ get => apply pres_get; exact _
  | |- pres _ (gets _) => apply pres_gets; exact _
  | |- pres _ (getm _) => apply pres_getm; exact _
  | |- pres _ (bind _ _) => apply pres_bind; [exact _| |intros ?]
  | |- pres _ (when _ _) => apply pres_when; [exact _|]
  | |- pres _ (forM _ _) => apply pres_forM; [exact _|intros ? ?]
  | |- pres _ (mapM _ _) => apply pres_mapM; [exact _|intros ? ?]
  | |- pres _ (match ?x with _ => _ end) => destruct x eqn:?
  | |- pres _ (let '_ := ?x in _) => destruct x eqn:?
  | |- pres _ (let _ := _ in _) => cbv zeta
  end.

(** * Relations of interest *)
Definition same {S A} (f : S -> A) (s s' : S) : Prop := f s' = f s.
#[global] Instance same_preorder {S A} (f : S -> A) : PreOrder (same f).
Proof. split; [done|]. intros a b c H1 H2. unfold same in *. congruence. Qed.

Definition rel_and {S} (R1 R2 : S -> S -> Prop) (s s' : S) : Prop := R1 s s' /\ R2 s s'.
#[global] Instance rel_and_preorder {S} (R1 R2 : S -> S -> Prop) `{!PreOrder R1} `{!PreOrder R2} : PreOrder (rel_and R1 R2).
Proof. split; [split; reflexivity|]. intros a b c [H1 H2] [H3 H4]. split; etransitivity; eauto. Qed.

(** Elements that agree outside the attributes in [I]. *)
Definition eagree {T} (I : string -> Prop) (e e' : elem T) : Prop := forall a, ~ I a -> e' !! a = e !! a.
#[global] Instance eagree_preorder {T} (I : string -> Prop) : PreOrder (@eagree T I).
Proof. split; [done|]. intros a b c H1 H2 x Hx. rewrite H2, H1; auto. Qed.
Lemma pres_setattr {T} (I : string -> Prop) a (v : val T) : I a -> pres (eagree I) (setattr a v).
Proof. intros Ha e b Hb. simpl. apply lookup_insert_ne. congruence. Qed.

(** Rings of equal length that agree outside the attributes in [I] (by position). *)
Definition ragree {T} (I : nat -> string -> Prop) (r r' : list (elem T)) : Prop :=
  length r' = length r /\
  forall i e e', r !! i = Some e -> r' !! i = Some e' -> eagree (I i) e e'.
#[global] Instance ragree_preorder {T} (I : nat -> string -> Prop) : PreOrder (@ragree T I).
Proof.
  split.
  - intros r. split; [done|]. intros i e e' H1 H2. simplify_eq. reflexivity.
  - intros a b c [L1 H1] [L2 H2]. split; [congruence|]. intros i e e'' He He''.
    destruct (b !! i) as [e'|] eqn:E.
    + etransitivity; eauto.
    + apply lookup_ge_None in E. apply lookup_lt_Some in He. lia.
Qed.
Lemma ragree_insert {T} I (r : list (elem T)) i e e' :
  r !! i = Some e -> eagree (I i) e e' -> ragree I r (<[i:=e']> r).
Proof.
  intros He Hr. split; [by rewrite insert_length|].
  intros j a b Ha Hb. destruct (decide (i = j)) as [->|Hne].
  - rewrite list_lookup_insert in Hb by (eapply lookup_lt_Some; eauto). simplify_eq. done.
  - rewrite list_lookup_insert_ne in Hb by done. simplify_eq. reflexivity.
Qed.

(** Everything except RING is the same, and RING agrees outside [I]. *)
Definition frame {T} (I : nat -> string -> Prop) (s s' : sc T) : Prop :=
  IDEALRING s' = IDEALRING s /\ INJ s' = INJ s /\ SIG s' = SIG s /\ ORD s' = ORD s /\ RNG s' = RNG s /\
  ragree I (RING s) (RING s').
#[global] Instance frame_preorder {T} I : PreOrder (@frame T I).
Proof.
  split.
  - intros s. repeat split; auto; reflexivity || (intros; simplify_eq; reflexivity).
  - intros a b c (?&?&?&?&?&?) (?&?&?&?&?&?). unfold frame. repeat split_and?; try congruence. etransitivity; eauto.
Qed.
Lemma frame_mono {T} (I J : nat -> string -> Prop) (s s' : sc T) :
  (forall i a, I i a -> J i a) -> frame I s s' -> frame J s s'.
Proof.
  intros H (?&?&?&?&?&[L Hr]). unfold frame. repeat split_and?; auto. split; [done|].
  intros i e e' He He' a Ha. eapply Hr; eauto.
Qed.

Lemma pres_on_elem_frame {T A} (I : nat -> string -> Prop) i (m : M (elem T) A) :
  pres (eagree (I i)) m -> pres (frame I) (on_elem i m).
Proof.
  intros Hm s. unfold on_elem. destruct (RING s !! i) as [e|] eqn:E; [|reflexivity].
  specialize (Hm e). destruct (m e) as [r e']. simpl in *.
  unfold frame. simpl. repeat split_and?; auto. eapply ragree_insert; eauto.
Qed.
Lemma pres_on_elem_same {T A B} (f : sc T -> B) i (m : M (elem T) A) :
  (forall r s, f (set_RING r s) = f s) -> pres (same f) (on_elem i m).
Proof.
  intros Hf s. unfold on_elem. destruct (RING s !! i) as [e|] eqn:E; [|reflexivity].
  destruct (m e) as [r e']. simpl. apply Hf.
Qed.
Lemma pres_ring_elem {T} (R : sc T -> sc T -> Prop) `{!PreOrder R} i : pres R (ring_elem i).
Proof. intros s. reflexivity. Qed.

(** * Inversion of successful runs *)
Lemma bind_ok {S A B} (m : M S A) (f : A -> M S B) s b s' :
  bind m f s = (Ok b, s') <-> exists a s1, m s = (Ok a, s1) /\ f a s1 = (Ok b, s').
Proof.
  unfold bind. split.
  - destruct (m s) as [[a|e] s1]; [eauto|discriminate].
  - intros (a&s1&E&H). by rewrite E.
Qed.
Lemma lift_ok {S A} (r : res A) (s : S) a s' : lift r s = (Ok a, s') <-> r = Ok a /\ s' = s.
Proof. unfold lift. split; [intros; simplify_eq; auto|intros [-> ->]; auto]. Qed.
Lemma ret_ok {S A} (x : A) (s : S) a s' : ret x s = (Ok a, s') <-> x = a /\ s' = s.
Proof. unfold ret. split; [intros; simplify_eq; auto|intros [-> ->]; auto]. Qed.
Lemma get_ok {S} (s : S) a s' : get s = (Ok a, s') <-> a = s /\ s' = s.
Proof. unfold get. split; [intros; simplify_eq; auto|intros [-> ->]; auto]. Qed.
Lemma modify_ok {S} (f : S -> S) s a s' : modify f s = (Ok a, s') <-> s' = f s.
Proof. unfold modify. destruct a. split; intros; simplify_eq; auto. Qed.
Lemma getm_ok {T A} (f : elem T -> res A) e a e' : getm f e = (Ok a, e') <-> f e = Ok a /\ e' = e.
Proof. unfold getm. split; [intros; simplify_eq; auto|intros [-> ->]; auto]. Qed.
Lemma setattr_ok {T} k (v : val T) e a e' : setattr k v e = (Ok a, e') <-> e' = <[k:=v]> e.
Proof. apply modify_ok. Qed.
Lemma raise_ok {S A} e (s : S) (a : A) s' : raise e s = (Ok a, s') <-> False.
Proof. unfold raise. split; [discriminate|done]. Qed.
Lemma rbind_ok {A B} (m : res A) (f : A -> res B) b : rbind m f = Ok b <-> exists a, m = Ok a /\ f a = Ok b.
Proof. unfold rbind. split; [destruct m; [eauto|discriminate]|intros (a&->&H); auto]. Qed.
Lemma ring_elem_ok {T} i (s : sc T) e s' : ring_elem i s = (Ok e, s') <-> RING s !! i = Some e /\ s' = s.
Proof. unfold ring_elem, idx. destruct (RING s !! i); split; intros; destruct_and?; simplify_eq; auto. Qed.
Lemma idx_ok {A} (l : list A) i x : idx l i = Ok x <-> l !! i = Some x.
Proof. unfold idx. destruct (l !! i); split; intros; simplify_eq; auto. Qed.
Lemma idx_set_ok {A} (l : list A) i x l' : idx_set l i x = Ok l' <-> (i < length l)%nat /\ l' = <[i:=x]> l.
Proof.
  unfold idx_set. destruct (l !! i) eqn:E; split; intros H; simplify_eq.
  - split; auto. eapply lookup_lt_Some; eauto.
  - destruct H as [_ ->]. auto.
  - destruct H as [H _]. apply lookup_ge_None in E. lia.
Qed.
Lemma attr_ok {T} (e : elem T) a v : attr e a = Ok v <-> e !! a = Some v.
Proof. unfold attr. destruct (e !! a); split; intros; simplify_eq; auto. Qed.
Lemma as_num_ok {T} (v : val T) x : as_num v = Ok x <-> v = VNum x.
Proof. destruct v; simpl; split; intros; simplify_eq; auto. Qed.
Lemma as_vec_ok {T} (v : val T) x : as_vec v = Ok x <-> v = VVec x.
Proof. destruct v; simpl; split; intros; simplify_eq; auto. Qed.
Lemma as_str_ok {T} (v : val T) x : as_str v = Ok x <-> v = VStr x.
Proof. destruct v; simpl; split; intros; simplify_eq; auto. Qed.
Lemma as_tab_ok {T} (v : val T) x : as_tab v = Ok x <-> v = VTab x.
Proof. destruct v; simpl; split; intros; simplify_eq; auto. Qed.
Lemma as_ords_ok {T} (v : val T) x : as_ords v = Ok x <-> v = VOrds x.
Proof. destruct v; simpl; split; intros; simplify_eq; auto. Qed.
Lemma as_lims_ok {T} (v : val T) x : as_lims v = Ok x <-> v = VLims x.
Proof. destruct v; simpl; split; intros; simplify_eq; auto. Qed.
Lemma as_lim_ok {T} (v : val T) x : as_lim v = Ok x <-> v = VLim x.
Proof. destruct v; simpl; split; intros; simplify_eq; auto. Qed.
Lemma attr_num_ok {T} (e : elem T) a x : attr_num e a = Ok x <-> e !! a = Some (VNum x).
Proof. unfold attr_num. rewrite rbind_ok. setoid_rewrite attr_ok. setoid_rewrite as_num_ok. naive_solver. Qed.
Lemma attr_vec_ok {T} (e : elem T) a x : attr_vec e a = Ok x <-> e !! a = Some (VVec x).
Proof. unfold attr_vec. rewrite rbind_ok. setoid_rewrite attr_ok. setoid_rewrite as_vec_ok. naive_solver. Qed.
Lemma attr_str_ok {T} (e : elem T) a x : attr_str e a = Ok x <-> e !! a = Some (VStr x).
Proof. unfold attr_str. rewrite rbind_ok. setoid_rewrite attr_ok. setoid_rewrite as_str_ok. naive_solver. Qed.
Lemma qdiv_ok {T} `{Num T} (x y z : T) : qdiv x y = Ok z <-> neqb y n0 = false /\ z = ndiv x y.
Proof. unfold qdiv. destruct (neqb y n0); split; intros; destruct_and?; simplify_eq; auto. Qed.

Lemma on_elem_ok {T A} i (m : M (elem T) A) (s : sc T) a s' :
  on_elem i m s = (Ok a, s') <->
  exists e e', RING s !! i = Some e /\ m e = (Ok a, e') /\ s' = set_RING (<[i:=e']> (RING s)) s.
Proof.
  unfold on_elem. destruct (RING s !! i) as [e|]; split.
  - destruct (m e) as [r e'] eqn:E. intros. simplify_eq. eauto 10.
  - intros (e1&e'&?&E&->). simplify_eq. by rewrite E.
  - intros. simplify_eq.
  - intros (?&?&?&?). simplify_eq.
Qed.
Lemma when_ok {S} b (m : M S unit) s a s' : when b m s = (Ok a, s') <-> (b = true /\ m s = (Ok a, s')) \/ (b = false /\ s' = s).
Proof. destruct b, a; simpl; [|rewrite ret_ok]; naive_solver. Qed.

(** Turn the successful run in [H] into facts about its parts. *)
Ltac minv1 H :=
  lazymatch type of H with
  | bind _ _ _ = (Ok _, _) => apply bind_ok in H; let a := fresh "x" in let s1 := fresh "s" in let H1 := fresh "Hr" in let H2 := fresh "Hk" in
      destruct H as (a & s1 & H1 & H2); minv1 H1; minv1 H2
  | lift _ _ = (Ok _, _) => apply lift_ok in H; destruct H as [H ?]; subst; minv1 H
  | getm _ _ = (Ok _, _) => apply getm_ok in H; destruct H as [H ?]; subst; minv1 H
  | ret _ _ = (Ok _, _) => apply ret_ok in H; destruct H as [? ?]; subst
  | raise _ _ = (Ok _, _) => apply raise_ok in H; destruct H
  | get _ = (Ok _, _) => apply get_ok in H; destruct H as [? ?]; subst
  | modify _ _ = (Ok _, _) => apply modify_ok in H; subst
  | setattr _ _ _ = (Ok _, _) => apply setattr_ok in H; subst
  | ring_elem _ _ = (Ok _, _) => apply ring_elem_ok in H; destruct H as [H ?]; subst
  | rbind _ _ = Ok _ => apply rbind_ok in H; let a := fresh "x" in let H1 := fresh "Hr" in let H2 := fresh "Hk" in
      destruct H as (a & H1 & H2); minv1 H1; minv1 H2
  | attr _ _ = Ok _ => apply attr_ok in H
  | attr_num _ _ = Ok _ => apply attr_num_ok in H
  | attr_vec _ _ = Ok _ => apply attr_vec_ok in H
  | attr_str _ _ = Ok _ => apply attr_str_ok in H
  | as_num _ = Ok _ => apply as_num_ok in H; try subst
  | as_vec _ = Ok _ => apply as_vec_ok in H; try subst
  | as_str _ = Ok _ => apply as_str_ok in H; try subst
  | as_tab _ = Ok _ => apply as_tab_ok in H; try subst
  | as_ords _ = Ok _ => apply as_ords_ok in H; try subst
  | as_lims _ = Ok _ => apply as_lims_ok in H; try subst
  | as_lim _ = Ok _ => apply as_lim_ok in H; try subst
  | idx _ _ = Ok _ => apply idx_ok in H
  | idx_set _ _ _ = Ok _ => apply idx_set_ok in H; destruct H as [H ?]; subst
  | qdiv _ _ = Ok _ => apply qdiv_ok in H; destruct H as [H ?]; subst
  | Ok _ = Ok _ => injection H as H; try subst
  | Err _ = Ok _ => discriminate H
  | (Ok _, _) = (Ok _, _) => injection H as ? ?; subst
  | _ => idtac
  end.
Tactic Notation "minv" hyp(H) := minv1 H.

(** * Loops *)
Lemma forM_app {S A} (l1 l2 : list A) (f : A -> M S unit) s :
  forM (l1 ++ l2) f s = bind (forM l1 f) (fun _ => forM l2 f) s.
Proof.
  revert s. induction l1 as [|x l1 IH]; intros s; simpl; [reflexivity|].
  unfold bind. destruct (f x s) as [[a|e] s1]; [|reflexivity]. rewrite IH. reflexivity.
Qed.

Lemma rmap_ok {A B} (f : A -> res B) l l' : rmap f l = Ok l' <-> Forall2 (fun x y => f x = Ok y) l l'.
Proof.
  revert l'. induction l as [|x l IH]; intros l'; simpl.
  - split; [intros; simplify_eq; constructor|intros H; inversion H; auto].
  - rewrite rbind_ok. split.
    + intros (y&Hy&H). apply rbind_ok in H as (ys&Hys&H). simplify_eq. constructor; auto. by apply IH.
    + intros H. inversion H as [|? y ? ys Hy Hys]; subst. exists y. split; auto.
      apply rbind_ok. exists ys. split; auto. by apply IH.
Qed.

(** a loop over distinct elements of the ring, each step acting on its own element *)
Lemma forM_on_elem_ok {T A} (l : list (nat * A)) (f : A -> M (elem T) unit) (s s' : sc T) u :
  NoDup (l.*1) -> forM l (fun p => on_elem p.1 (f p.2)) s = (Ok u, s') ->
  (exists r, s' = set_RING r s) /\ length (RING s') = length (RING s) /\
  (forall p, p ∈ l -> exists e e', RING s !! p.1 = Some e /\ f p.2 e = (Ok tt, e') /\ RING s' !! p.1 = Some e') /\
  (forall i, i ∉ l.*1 -> RING s' !! i = RING s !! i).
Proof.
  revert s. induction l as [|[i x] l IH]; intros s Hnd H; simpl in *.
  - minv H. repeat split; auto.
    + exists (RING s). by destruct s.
    + intros p Hp. inversion Hp.
  - apply bind_ok in H as (u1&s1&H1&H2). inversion Hnd as [|? ? Hni Hnd']; subst.
    apply on_elem_ok in H1 as (e&e'&He&Hf&->).
    destruct (IH _ Hnd' H2) as ((r&Hr)&HL&Hin&Hout). simpl in *.
    destruct u1. split; [exists r; rewrite Hr; by destruct s|].
    split; [rewrite HL, insert_length; done|]. split.
    + intros p Hp. apply elem_of_cons in Hp as [->|Hp].
      * exists e, e'. simpl. split; auto. split; auto. rewrite Hout by done.
        apply list_lookup_insert. eapply lookup_lt_Some; eauto.
      * destruct (Hin p Hp) as (a&b&Ha&Hb&Hc). exists a, b. repeat split; auto.
        rewrite list_lookup_insert_ne in Ha; auto. intros ->. apply Hni. apply elem_of_list_fmap. exists p; auto.
    + intros j Hj. apply not_elem_of_cons in Hj as [Hj1 Hj2]. rewrite Hout by done.
      by rewrite list_lookup_insert_ne.
Qed.

Lemma zip_fst {A B} (l : list A) (k : list B) : length l = length k -> (zip l k).*1 = l.
Proof. revert k. induction l; intros [|? ?]; simpl; intros; simplify_eq; f_equal; auto. Qed.
