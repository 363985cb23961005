(** C32, continued: what magnets and BPMs receive from their supports. *)
From Coq Require Import Reals Lra QArith.
From stdpp Require Import base gmap strings list.
From Verif Require Import Num Base Model_Arr Model_SC Model_Err Lemmas Proofs_Reg Proofs_Update Proofs_Loop Spec Proofs_CM Proofs_Field Proofs_Err
  Properties_Random Properties_Field Examples Properties_Errors Properties_Circ Properties_Support Proofs_Interp Properties_Interp.
Local Open Scope string_scope.
Local Open Scope list_scope.

(** * Specification *)
(** the first lattice position at the longitudinal position of [i] *)
Definition first_there (s : sc R) (i j : nat) : Prop := j <= i /\ position s j = position s i /\ forall k, k < j -> position s k <> position s i.
(** column [j] of a matrix with three rows *)
Definition column3 (m : list (list R)) (j : nat) (v : list R) : Prop := length v = 3%nat /\ forall c, c < 3 -> v !! c = cell m c j.
Definition in_ring (s : sc R) (l : list nat) : Prop := NoDup l /\ forall i, i ∈ l -> i < length (RING s).

(** * The support functions read only support attributes and lengths *)
Section Agree.
  Context {T : Type} {N : Num T}.
  Definition align (_ : nat) (a : string) : Prop := a ∈ ALIGN_FIELDS.
  Lemma align_dec a : a ∉ ALIGN_FIELDS <-> bool_decide (a ∈ ALIGN_FIELDS) = false.
  Proof. by rewrite bool_decide_eq_false. Qed.
  Lemma agree_elem (s s' : sc T) i : only align s s' ->
    (RING s !! i = None /\ RING s' !! i = None) \/ (exists e e', RING s !! i = Some e /\ RING s' !! i = Some e' /\ forall a, a ∉ ALIGN_FIELDS -> e' !! a = e !! a).
  Proof.
    intros (_&_&L&H). destruct (RING s !! i) as [e|] eqn:E.
    - right. assert (is_Some (RING s' !! i)) as [e' E'] by (apply lookup_lt_is_Some; rewrite L; by eapply lookup_lt_Some). exists e, e'. split_and!; try done.
      intros a Ha. specialize (H i a Ha). unfold attr_at in H. by rewrite E, E' in H.
    - left. split; [done|]. apply lookup_ge_None. apply lookup_ge_None in E. lia.
  Qed.
  Lemma agree_spos (s s' : sc T) : only align s s' -> spos (RING s') = spos (RING s).
  Proof.
    intros H. unfold spos. f_equal. apply list_eq. intros i. rewrite !list_lookup_fmap. destruct (agree_elem s s' i H) as [[-> ->]|(e&e'&->&->&He)]; [done|]. simpl. f_equal.
    unfold elem_length. rewrite He; [done|]. by apply align_dec.
  Qed.
  Lemma align_stype t x : x = "Offset" \/ x = "Roll" -> stype_str t +:+ x ∉ ALIGN_FIELDS.
  Proof. intros [->| ->]; apply align_dec; destruct t; reflexivity. Qed.
  Lemma rmap_ext {A B} (f g : A -> res B) l : (forall x, f x = g x) -> rmap f l = rmap g l.
  Proof. intros H. induction l as [|x l IH]; simpl; [done|]. by rewrite H, IH. Qed.
  Lemma rfold_ext {A B} (f g : B -> A -> res B) l b : (forall b x, f b x = g b x) -> rfold f l b = rfold g l b.
  Proof. intros H. revert b. induction l as [|x l IH]; intros b; simpl; [done|]. rewrite H. destruct (g b x); simpl; [apply IH|done]. Qed.
  Lemma agree_attr_vec (e e' : elem T) a : e' !! a = e !! a -> attr_vec e' a = attr_vec e a.
  Proof. intros H. unfold attr_vec, attr. by rewrite H. Qed.
  Lemma agree_type (s s' : sc T) sp t pairs m : only align s s' -> support_type_offsets (RING s') sp t pairs m = support_type_offsets (RING s) sp t pairs m.
  Proof.
    intros H. unfold support_type_offsets. f_equal. apply rmap_ext. intros p. unfold idx.
    assert (stype_str t +:+ "Offset" ∉ ALIGN_FIELDS) as Ha by (apply align_stype; by left).
    destruct (agree_elem s s' p.1 H) as [[-> ->]|(e&e'&->&->&He)]; [done|]. destruct (agree_elem s s' p.2 H) as [[-> ->]|(e2&e2'&->&->&He2)]; [done|]. cbn [rbind].
    by rewrite (agree_attr_vec e e'), (agree_attr_vec e2 e2') by auto.
  Qed.
  Lemma agree_roll (s s' : sc T) sp off t m p : only align s s' -> support_rolls1 (RING s') sp off t m p = support_rolls1 (RING s) sp off t m p.
  Proof.
    intros H. unfold support_rolls1, idx. assert (stype_str t +:+ "Roll" ∉ ALIGN_FIELDS) as Ha by (apply align_stype; by right).
    destruct (agree_elem s s' p.1 H) as [[-> ->]|(e&e'&->&->&He)]; [done|]. cbn [rbind]. by rewrite (agree_attr_vec e e') by auto.
  Qed.
  Lemma agree_offset_roll (s s' : sc T) locs : only align s s' -> support_offset_and_roll locs s' = support_offset_and_roll locs s.
  Proof.
    intros H. unfold support_offset_and_roll. rewrite (agree_spos s s' H).
    assert (support_all s' = support_all s) as ->; [|done]. unfold support_all. rewrite (agree_spos s s' H). destruct (H) as (_&HO&_). rewrite HO.
    rewrite (rfold_ext _ (fun acc t => support_type_offsets (RING s) (spos (RING s)) t (oSupport t (ORD s)) acc)); [|intros b t; by apply agree_type].
    destruct (rfold _ SUPPORT_TYPES _) as [off|e]; [|done]. cbn [rbind].
    rewrite (rfold_ext _ (fun acc t => rfold (support_rolls1 (RING s) (spos (RING s)) off t) (oSupport t (ORD s)) acc)); [done|].
    intros b t. apply rfold_ext. intros b' p. by apply agree_roll.
  Qed.
End Agree.

(** * Shapes *)
Lemma s_interp1_length {T} {N : Num T} (sp off off' : list T) o1 o2 f1 f2 : s_interp1 sp off o1 o2 f1 f2 = Ok off' -> length off' = length off.
Proof.
  intros H. unfold s_interp1 in H. apply rbind_ok in H as (x1&_&H). apply rbind_ok in H as (x2&_&H).
  repeat match type of H with context [if ?b then _ else _] => destruct b end; try discriminate; injection H as <-; apply imap_length.
Qed.
Lemma interp_steps_length (sp : list R) row c tmp acc acc' : rfold (interp_step sp row c) tmp acc = Ok acc' -> length acc' = length acc.
Proof.
  revert acc. induction tmp as [|[[p v1] v2] tmp IH]; intros acc H; cbn [rfold] in H; [by injection H as <-|]. apply rbind_ok in H as (a1&H1&H).
  rewrite (IH a1 H). unfold interp_step in H1. apply rbind_ok in H1 as (b1&_&H1). apply rbind_ok in H1 as (b2&_&H1). apply rbind_ok in H1 as (d1&_&H1). apply rbind_ok in H1 as (d2&_&H1).
  by apply s_interp1_length in H1.
Qed.
Lemma type_shape (s : sc R) t pairs m m' : shaped s m -> support_type_offsets (RING s) (spos (RING s)) t pairs m = Ok m' -> shaped s m'.
Proof.
  intros [H1 H2] H. unfold support_type_offsets in H. apply rbind_ok in H as (tmp&_&H). apply rmap_ok in H. split.
  - apply Forall2_length in H. by rewrite imap_length, H1 in H.
  - intros row' Hr. destruct (Forall2_elem_r _ _ _ _ H Hr) as ([k row]&Hin&Hf). change (rfold (interp_step (spos (RING s)) row k) tmp row = Ok row') in Hf.
    rewrite (interp_steps_length _ _ _ _ _ _ Hf). apply H2. apply elem_of_lookup_imap in Hin as (i&x&[= _ ->]&Hx). by eapply elem_of_list_lookup_2.
Qed.
Lemma support_all_shape (s : sc R) off roll : support_all s = Ok (off, roll) -> shaped s off /\ shaped s roll.
Proof.
  intros H. unfold support_all in H. apply rbind_ok in H as (o&Ho&H). apply rbind_ok in H as (r&Hr&H). injection H as -> ->. split.
  - cbn [rfold SUPPORT_TYPES] in Ho. apply rbind_ok in Ho as (o1&H1&Ho). apply rbind_ok in Ho as (o2&H2&Ho). apply rbind_ok in Ho as (o3&H3&Ho). injection Ho as <-.
    eapply type_shape, H3. eapply type_shape, H2. eapply type_shape, H1. apply zeros_shaped.
  - assert (rfold (roll_step s off) (supports s) (replicate 3 (zeros (length (spos (RING s))))) = Ok roll) as Hf.
    { unfold supports. rewrite !rfold_app, roll_flat. cbn [rfold SUPPORT_TYPES] in Hr. apply rbind_ok in Hr as (r1&R1&Hr). apply rbind_ok in Hr as (r2&R2&Hr). apply rbind_ok in Hr as (r3&R3&Hr). injection Hr as <-.
      rewrite R1. cbn [rbind]. rewrite rfold_app, !roll_flat, R2. cbn [rbind]. by rewrite roll_flat. }
    apply roll_steps_ok in Hf as [Hf _]; [done|apply zeros_shaped].
Qed.
Lemma list_eqb_refl (l : list R) : list_eqb l l = true.
Proof. unfold list_eqb. rewrite Nat.eqb_refl. simpl. induction l as [|x l IH]; [done|]. simpl. num_R. rewrite (proj2 (Reqb_true x x)) by done. done. Qed.
Lemma at_spos (s : sc R) r : support_all s = Ok r -> support_offset_and_roll (spos (RING s)) s = Ok r.
Proof. intros H. unfold support_offset_and_roll. rewrite H. cbn [rbind]. by rewrite list_eqb_refl. Qed.
Lemma in_ring_length (s : sc R) l : in_ring s l -> length l <= length (RING s).
Proof.
  intros [Hn Hl]. rewrite <- (seq_length (length (RING s)) 0). apply submseteq_length, NoDup_submseteq; [done|]. intros i Hi. apply elem_of_seq. specialize (Hl i Hi). lia.
Qed.
Lemma sampled_rows (sp : list R) (rows rows' : list (list R)) (locs : list R) :
  rmap (fun row => rmap (fun x => interp x (zip (map (fun i => default n0 (sp !! i)) (unique_index sp)) (map (fun i => default n0 (row !! i)) (unique_index sp)))) locs) rows = Ok rows' ->
  forall k x j, locs !! k = Some x -> first_index sp x j -> map (fun r => default n0 (r !! k)) rows' = map (fun r => default 0%R (r !! j)) rows.
Proof.
  intros H k x j Hk Hf. apply rmap_ok in H. induction H as [|row row' rows rows' Hrow _ IH]; [done|]. simpl. f_equal; [|done].
  apply rmap_ok in Hrow. destruct (Forall2_lookup_l _ _ _ _ _ Hrow Hk) as (y&Hy&Hi). rewrite (sample_interp sp row x j Hf) in Hi. injection Hi as <-. by rewrite Hy.
Qed.
Lemma column_of (s : sc R) m j : shaped s m -> j <= length (RING s) -> column3 m j (map (fun r => default 0%R (r !! j)) m).
Proof.
  intros [H1 H2] Hj. split; [by rewrite map_length|]. intros c Hc. rewrite list_lookup_fmap. unfold cell. destruct (m !! c) as [row|] eqn:E; [|apply lookup_ge_None in E; lia]. simpl.
  assert (is_Some (row !! j)) as [x Hx]; [|by rewrite Hx]. apply lookup_lt_is_Some. rewrite (H2 row) by (by eapply elem_of_list_lookup_2). lia.
Qed.
Lemma sampled (s : sc R) l locs O Rr : in_ring s l -> rmap (idx (spos (RING s))) l = Ok locs -> support_offset_and_roll locs s = Ok (O, Rr) ->
  exists off roll, support_offset_and_roll (spos (RING s)) s = Ok (off, roll) /\
    forall k i j, l !! k = Some i -> first_there s i j -> column3 off j (col3 O k) /\ column3 roll j (col3 Rr k).
Proof.
  intros Hl Hlocs H. unfold support_offset_and_roll in H. apply rbind_ok in H as ([off roll]&Hall&H). exists off, roll. split; [by apply at_spos|].
  apply rmap_ok in Hlocs. assert (list_eqb locs (spos (RING s)) = false) as E.
  { unfold list_eqb. apply Forall2_length in Hlocs. apply in_ring_length in Hl. rewrite spos_length. rewrite (proj2 (Nat.eqb_neq (length locs) (S (length (RING s))))); [done|]. lia. }
  rewrite E in H. cbn [fst snd] in H. apply rbind_ok in H as (o&Ho&H). apply rbind_ok in H as (r&Hr&H). injection H as -> ->. apply support_all_shape in Hall as [S1 S2].
  intros k i j Hk (Hj1&Hj2&Hj3). pose proof Hl as [_ Hin]. assert (i < length (RING s)) as Hi by (apply Hin; by eapply elem_of_list_lookup_2).
  destruct (Forall2_lookup_l _ _ _ _ _ Hlocs Hk) as (x&Hx&Hix). apply idx_ok in Hix. rewrite spos_position in Hix by lia. injection Hix as <-.
  assert (first_index (spos (RING s)) (position s i) j) as Hf.
  { split; [rewrite spos_position by lia; by f_equal|]. intros j' Hj' Hsp. rewrite spos_position in Hsp by lia. injection Hsp as Hsp. by apply (Hj3 j'). }
  split; unfold col3, col; [rewrite (sampled_rows _ _ _ _ Ho k _ j Hx Hf)|rewrite (sampled_rows _ _ _ _ Hr k _ j Hx Hf)]; apply (column_of s); try done; lia.
Qed.

(** * The loops of update_supports *)
Section Loops.
  Context {T : Type} {N : Num T} {Tr : Trig T}.
  Variable minv : list (list T) -> res (list (list T)).
  Definition magnet_step (orr : list (list T) * list (list T)) (io : nat * nat) : M (sc T) unit :=
    on_elem io.2 (setattr "SupportOffset" (VVec (col3 orr.1 io.1)) ;;; setattr "SupportRoll" (VVec (col3 orr.2 io.1)) ;;; update_transformation minv) ;;;
    let! e := ring_elem io.2 in
    match e !! "MasterOf" with
    | None => ret tt
    | Some v => let! children := lift (as_ords v) in
        forM children (fun c => forM ["T1"; "T2"; "R1"; "R2"] (fun field =>
          let! m := ring_elem io.2 in let! x := lift (attr m field) in on_elem c (setattr field x)))
    end.
  Definition bpm_step (orr : list (list T) * list (list T)) (io : nat * nat) : M (sc T) unit :=
    on_elem io.2 (setattr "SupportOffset" (VVec (take 2 (col3 orr.1 io.1))) ;;; let! r := lift (idx (col3 orr.2 io.1) 0) in setattr "SupportRoll" (VNum r)).
  Definition transf (a : string) : Prop := a ∈ ["T1"; "T2"; "R1"; "R2"].
  Definition moved (i : nat) (a : string) : Prop := a = "SupportOffset" \/ a = "SupportRoll".
  Lemma pres_only_on_elem {A} (I : nat -> string -> Prop) i (m : M (elem T) A) : pres (eagree (I i)) m -> pres (@only T I) (on_elem i m).
  Proof.
    intros H s. unfold on_elem. destruct (RING s !! i) as [e|] eqn:E; [|split_and!; done]. specialize (H e). destruct (m e) as [r e']. simpl in *. unfold only; simpl.
    split_and!; try done; [by rewrite insert_length|]. intros j b Hn. unfold attr_at. simpl. destruct (decide (i = j)) as [<-|Hij]; [|by rewrite list_lookup_insert_ne].
    rewrite list_lookup_insert by (by eapply lookup_lt_Some). rewrite E. simpl. by apply H.
  Qed.
  Lemma only_transformation (P : string -> Prop) : (forall a, transf a -> P a) -> pres (eagree P) (update_transformation minv).
  Proof.
    intros HP. assert (forall a, bool_decide (a ∈ ["T1"; "T2"; "R1"; "R2"]) = true -> P a) as HB by (intros a Ha; apply HP; by apply bool_decide_eq_true in Ha).
    unfold update_transformation. repeat first [ pres_step | apply pres_setattr; (by apply HB) ].
  Qed.
  Definition step_writes (i : nat) (j : nat) (a : string) : Prop := transf a \/ (j = i /\ moved i a).
  Lemma only_magnet_step orr io : pres (@only T (step_writes io.2)) (magnet_step orr io).
  Proof.
    assert (forall j a, bool_decide (a ∈ ["T1"; "T2"; "R1"; "R2"]) = true -> step_writes io.2 j a) as HB by (intros j a Ha; left; by apply bool_decide_eq_true in Ha).
    unfold magnet_step. repeat first [ pres_step | apply pres_ring_elem; exact _ | apply pres_only_on_elem ].
    all: try (apply pres_setattr; unfold step_writes, moved; by auto). all: try (apply only_transformation; intros; by left).
    all: try (apply pres_setattr; left; done).
  Qed.
  Lemma only_bpm_step orr io : pres (@only T (fun j a => j = io.2 /\ moved j a)) (bpm_step orr io).
  Proof. unfold bpm_step. repeat first [ pres_step | apply pres_only_on_elem ]. all: apply pres_setattr; unfold moved; by auto. Qed.
  Lemma magnet_step_ok orr io (s s' : sc T) u : magnet_step orr io s = (Ok u, s') ->
    attr_at s' io.2 "SupportOffset" = Some (VVec (col3 orr.1 io.1)) /\ attr_at s' io.2 "SupportRoll" = Some (VVec (col3 orr.2 io.1)).
  Proof.
    intros H. unfold magnet_step in H. apply bind_ok in H as (v&s1&H1&H). 
    assert (attr_at s1 io.2 "SupportOffset" = Some (VVec (col3 orr.1 io.1)) /\ attr_at s1 io.2 "SupportRoll" = Some (VVec (col3 orr.2 io.1))) as [A1 A2].
    { unfold on_elem in H1. destruct (RING s !! io.2) as [e|] eqn:E; [|discriminate]. destruct ((_ ;;; _) e) as [r e'] eqn:Er. injection H1 as -> <-.
      apply bind_ok in Er as (v1&e1&Er1&Er). apply bind_ok in Er as (v2&e2&Er2&Er).
      assert (eagree transf e2 e') as Hag. { pose proof (only_transformation transf (fun a H => H) e2) as Hp. by rewrite Er in Hp. }
      unfold setattr, modify in Er1, Er2. injection Er1 as <- <-. injection Er2 as <- <-.
      unfold attr_at. simpl. rewrite list_lookup_insert by (by eapply lookup_lt_Some). cbn [mbind option_bind]. split.
      - rewrite Hag; [|unfold transf; intros Hin; by apply (bool_decide_eq_true_2 _) in Hin]. rewrite lookup_insert_ne by done. by rewrite lookup_insert.
      - rewrite Hag; [|unfold transf; intros Hin; by apply (bool_decide_eq_true_2 _) in Hin]. by rewrite lookup_insert. }
    assert (only (fun _ a => transf a) s1 s') as (_&_&_&Hag).
    { revert H. generalize u. intros u0 H. match type of H with ?m s1 = _ => assert (pres (@only T (fun _ a => transf a)) m) as Hp end.
      - assert (forall a, bool_decide (a ∈ ["T1"; "T2"; "R1"; "R2"]) = true -> transf a) as HB by (intros a Ha; by apply bool_decide_eq_true in Ha).
        repeat first [ pres_step | apply pres_ring_elem; exact _ | apply pres_only_on_elem ]. all: apply pres_setattr; done.
      - specialize (Hp s1). by rewrite H in Hp. }
    rewrite !Hag by (unfold transf; intros Hin; by apply (bool_decide_eq_true_2 _) in Hin). done.
  Qed.
  Lemma bpm_step_ok orr io (s s' : sc T) u : bpm_step orr io s = (Ok u, s') ->
    attr_at s' io.2 "SupportOffset" = Some (VVec (take 2 (col3 orr.1 io.1))) /\ exists r, col3 orr.2 io.1 !! 0%nat = Some r /\ attr_at s' io.2 "SupportRoll" = Some (VNum r).
  Proof.
    intros H. unfold bpm_step, on_elem in H. destruct (RING s !! io.2) as [e|] eqn:E; [|discriminate]. destruct ((_ ;;; _) e) as [r e'] eqn:Er. injection H as -> <-.
    apply bind_ok in Er as (v1&e1&Er1&Er). apply bind_ok in Er as (v2&e2&Er2&Er). unfold setattr, modify in Er1, Er. apply lift_ok in Er2 as [Er2 ->]. apply idx_ok in Er2.
    injection Er1 as <- <-. injection Er as <- <-. unfold attr_at. simpl. rewrite list_lookup_insert by (by eapply lookup_lt_Some). cbn [mbind option_bind]. split; [rewrite lookup_insert_ne by done; by rewrite lookup_insert|].
    exists v2. split; [done|]. by rewrite lookup_insert.
  Qed.
  (** a loop in which every step writes its own element keeps what each step wrote *)
  Lemma steps_keep (f : nat * nat -> M (sc T) unit) (W : nat -> nat -> string -> Prop) (Q : nat * nat -> sc T -> Prop) (l : list nat) :
    (forall io, pres (@only T (W io.2)) (f io)) -> (forall io s s' u, f io s = (Ok u, s') -> Q io s') ->
    (forall (io io' : nat * nat) s s', io.2 <> io'.2 -> only (W io'.2) s s' -> Q io s -> Q io s') -> NoDup l ->
    forall h s s' u, forM (imap (fun k o => (h + k, o)%nat) l) f s = (Ok u, s') -> forall k i, l !! k = Some i -> Q ((h + k)%nat, i) s'.
  Proof.
    intros Hp Hok Hstab Hn. induction l as [|o l IH]; intros h s s' u H k i Hk; [done|]. simpl in H. apply NoDup_cons in Hn as [Hno Hn].
    apply bind_ok in H as (v&s1&H1&H).
    assert (forM (imap (fun k o => (S h + k, o)%nat) l) f s1 = (Ok u, s')) as H'.
    { rewrite <- H. f_equal. apply imap_ext. intros k' x _. simpl. f_equal. lia. }
    destruct k as [|k]; simpl in Hk; [injection Hk as ->|].
    - apply Hok in H1. assert (forall m sA sB uu, i ∉ m -> forall g, forM (imap (fun k o => (g k, o)) m) f sA = (Ok uu, sB) -> forall z, Q (z, i) sA -> Q (z, i) sB) as Hrest.
      { clear -Hp Hstab. induction m as [|o m IHm]; intros sA sB uu Hno g Hm z HQ; [simpl in Hm; by injection Hm as <- <-|]. simpl in Hm. apply bind_ok in Hm as (w&sC&Hc&Hm).
        apply not_elem_of_cons in Hno as [Hne Hno]. refine (IHm sC sB uu Hno (fun k => g (S k)) Hm z _). eapply Hstab; [| |exact HQ]; [|instantiate (1 := (g 0%nat, o)); specialize (Hp (g 0%nat, o) sA); by rewrite Hc in Hp]. done. }
      rewrite Nat.add_0_r in H1 |- *. by apply (Hrest l s1 s' u Hno (fun k => S h + k)%nat H').
    - specialize (IH Hn (S h) s1 s' u H' k i Hk). rewrite Nat.add_succ_r. exact IH.
  Qed.
End Loops.

(** * Magnets and BPMs take the displacement of their supports *)
Lemma magnets_stage minv (s s' : sc R) b u : update_supports minv b true s = (Ok u, s') -> oMagnet (ORD s) <> [] ->
  exists locs orr s1, rmap (idx (spos (RING s))) (oMagnet (ORD s)) = Ok locs /\ support_offset_and_roll locs s = Ok orr /\
    forM (imap (fun i o => (i, o)) (oMagnet (ORD s))) (magnet_step minv orr) s = (Ok tt, s1) /\
    (if b && negb (length (oBPM (ORD s)) =? 0)%nat then
       exists locs' orr', rmap (idx (spos (RING s))) (oBPM (ORD s)) = Ok locs' /\ support_offset_and_roll locs' s1 = Ok orr' /\
         forM (imap (fun i o => (i, o)) (oBPM (ORD s))) (bpm_step orr') s1 = (Ok u, s')
     else s' = s1).
Proof.
  intros H Hne. unfold update_supports in H. apply bind_ok in H as (x&y&Hg&H). apply get_ok in Hg as [-> ->].
  apply bind_ok in H as (v&s1&H1&H2).
  assert (length (oMagnet (ORD s)) =? 0 = false)%nat as El. { apply Nat.eqb_neq. destruct (oMagnet (ORD s)); [done|simpl; lia]. }
  rewrite El in H1. simpl in H1. apply bind_ok in H1 as (locs&s2&Hl&H1). apply lift_ok in Hl as [Hl ->]. apply bind_ok in H1 as (x&y&Hg&H1). apply get_ok in Hg as [-> ->].
  apply bind_ok in H1 as (orr&s2&Ho&H1). apply lift_ok in Ho as [Ho ->]. exists locs, orr, s1. destruct v. split_and!; try done.
  destruct (b && _); [|by injection H2 as _ <-]. apply bind_ok in H2 as (locs'&s2&Hl'&H2). apply lift_ok in Hl' as [Hl' ->]. apply bind_ok in H2 as (x&y&Hg&H2). apply get_ok in Hg as [-> ->].
  apply bind_ok in H2 as (orr'&s2&Ho'&H2). apply lift_ok in Ho' as [Ho' ->]. exists locs', orr'. done.
Qed.
Definition magnet_wrote (orr : list (list R) * list (list R)) (io : nat * nat) (s : sc R) : Prop :=
  attr_at s io.2 "SupportOffset" = Some (VVec (col3 orr.1 io.1)) /\ attr_at s io.2 "SupportRoll" = Some (VVec (col3 orr.2 io.1)).
Definition bpm_wrote (orr : list (list R) * list (list R)) (io : nat * nat) (s : sc R) : Prop :=
  attr_at s io.2 "SupportOffset" = Some (VVec (take 2 (col3 orr.1 io.1))) /\ exists r, col3 orr.2 io.1 !! 0%nat = Some r /\ attr_at s io.2 "SupportRoll" = Some (VNum r).
Lemma not_transf a : a = "SupportOffset" \/ a = "SupportRoll" -> ~ transf a.
Proof. intros [-> | ->] Hin; by apply (bool_decide_eq_true_2 _) in Hin. Qed.
Lemma magnets_loop minv orr l (s s' : sc R) u : NoDup l -> forM (imap (fun i o => (i, o)) l) (magnet_step minv orr) s = (Ok u, s') -> forall k i, l !! k = Some i -> magnet_wrote orr (k, i) s'.
Proof.
  intros Hn H k i Hk. apply (steps_keep (magnet_step minv orr) step_writes (magnet_wrote orr) l) with (h := 0%nat) (s := s) (u := u); try done.
  - apply only_magnet_step.
  - intros. by eapply magnet_step_ok.
  - intros io io' s1 s2 Hne (_&_&_&Ho) [A1 A2]. split; rewrite Ho; try done; unfold step_writes; (intros [Ht|[? _]]; [|done]); eapply not_transf, Ht; auto.
Qed.
Lemma bpms_loop orr l (s s' : sc R) u : NoDup l -> forM (imap (fun i o => (i, o)) l) (bpm_step orr) s = (Ok u, s') -> forall k i, l !! k = Some i -> bpm_wrote orr (k, i) s'.
Proof.
  intros Hn H k i Hk. apply (steps_keep (bpm_step orr) (fun i j a => j = i /\ moved j a) (bpm_wrote orr) l) with (h := 0%nat) (s := s) (u := u); try done.
  - apply only_bpm_step.
  - intros. by eapply bpm_step_ok.
  - intros io io' s1 s2 Hne (_&_&_&Ho) [A1 (r&A2&A3)]. split; [rewrite Ho by (by intros [? _]); done|]. exists r. rewrite Ho by (by intros [? _]). done.
Qed.
Lemma bpms_loop_other orr l (s s' : sc R) u i a : i ∉ l -> forM (imap (fun i o => (i, o)) l) (bpm_step orr) s = (Ok u, s') -> attr_at s' i a = attr_at s i a.
Proof.
  intros Hi H. assert (pres (@only R (fun j _ => j ∈ l)) (forM (imap (fun i o => (i, o)) l) (bpm_step orr))) as Hp.
  { apply pres_forM; [exact _|]. intros io Hio s0. eapply only_mono; [|apply only_bpm_step]. intros j b [-> _]. apply elem_of_lookup_imap in Hio as (k&x&->&Hx). by eapply elem_of_list_lookup_2. }
  specialize (Hp s). rewrite H in Hp. destruct Hp as (_&_&_&Hp). by apply Hp.
Qed.
(** Each magnet (that is not also a BPM) gets the displacement of the first lattice position at its longitudinal position. *)
Theorem C32_magnets minv s s' b u i j : update_supports minv b true s = (Ok u, s') -> in_ring s (oMagnet (ORD s)) -> i ∈ oMagnet (ORD s) -> (b = true -> i ∉ oBPM (ORD s)) -> first_there s i j ->
  exists off roll v w, support_offset_and_roll (spos (RING s)) s = Ok (off, roll) /\
    attr_at s' i "SupportOffset" = Some (VVec v) /\ column3 off j v /\ attr_at s' i "SupportRoll" = Some (VVec w) /\ column3 roll j w.
Proof.
  intros H Hr Hi Hb Hj. destruct (magnets_stage minv s s' b u H) as (locs&[O Rr]&s1&Hlocs&Ho&Hm&Hrest); [by intros E; rewrite E in Hi; inversion Hi|].
  destruct (sampled s _ locs O Rr Hr Hlocs Ho) as (off&roll&Hall&Hcol). apply elem_of_list_lookup in Hi as [k Hk].
  destruct (magnets_loop _ _ _ _ _ _ (proj1 Hr) Hm k i Hk) as [A1 A2]. cbn [fst snd] in A1, A2. destruct (Hcol k i j Hk Hj) as [C1 C2].
  exists off, roll, (col3 O k), (col3 Rr k). split; [done|].
  assert (forall a, attr_at s' i a = attr_at s1 i a) as Hsame.
  { intros a. destruct b; [|by rewrite Hrest]. destruct (true && negb (length (oBPM (ORD s)) =? 0)%nat); [|by rewrite Hrest]. destruct Hrest as (l'&o'&_&_&Hf). eapply bpms_loop_other, Hf. auto. }
  rewrite !Hsame. done.
Qed.
(** BPMs get the horizontal and vertical displacement and the roll. *)
Theorem C32_bpms minv s s' m u i j : update_supports minv true m s = (Ok u, s') -> in_ring s (oMagnet (ORD s)) -> in_ring s (oBPM (ORD s)) -> i ∈ oBPM (ORD s) -> first_there s i j ->
  exists off roll x y r, support_offset_and_roll (spos (RING s)) s = Ok (off, roll) /\ cell off 0 j = Some x /\ cell off 1 j = Some y /\ cell roll 0 j = Some r /\
    attr_at s' i "SupportOffset" = Some (VVec [x; y]) /\ attr_at s' i "SupportRoll" = Some (VNum r).
Proof.
  intros H Hrm Hr Hi Hj.
  assert (exists s1 locs orr, only (@align) s s1 /\ rmap (idx (spos (RING s))) (oBPM (ORD s)) = Ok locs /\ support_offset_and_roll locs s1 = Ok orr /\
            forM (imap (fun i o => (i, o)) (oBPM (ORD s))) (bpm_step orr) s1 = (Ok u, s')) as (s1&locs&[O Rr]&Hag&Hlocs&Ho&Hf).
  { unfold update_supports in H. apply bind_ok in H as (x&y&Hg&H). apply get_ok in Hg as [-> ->]. apply bind_ok in H as (v&s1&H1&H2).
    assert (length (oBPM (ORD s)) =? 0 = false)%nat as El. { apply Nat.eqb_neq. destruct (oBPM (ORD s)); [inversion Hi|simpl; lia]. }
    rewrite El in H2. cbn [andb negb] in H2. apply bind_ok in H2 as (locs&s2&Hl&H2). apply lift_ok in Hl as [Hl ->]. apply bind_ok in H2 as (x&y&Hg&H2). apply get_ok in Hg as [-> ->].
    apply bind_ok in H2 as (orr&s2&Ho&H2). apply lift_ok in Ho as [Ho ->]. exists s1, locs, orr. split_and!; try done.
    destruct (m && _); [|by injection H1 as _ <-]. apply bind_ok in H1 as (locs'&s2&Hl'&H1). apply lift_ok in Hl' as [Hl' ->]. apply bind_ok in H1 as (x&y&Hg&H1). apply get_ok in Hg as [-> ->].
    apply bind_ok in H1 as (orr'&s2&Ho'&H1). apply lift_ok in Ho' as [Ho' ->].
    assert (pres (@only R (@align)) (forM (imap (fun i o => (i, o)) (oMagnet (ORD s))) (magnet_step minv orr'))) as Hp.
    { apply pres_forM; [exact _|]. intros io Hio s0. eapply only_mono; [|apply only_magnet_step]. intros k a Ha. unfold align, ALIGN_FIELDS. unfold step_writes, transf, moved in Ha.
      rewrite !elem_of_cons in *. tauto. }
    specialize (Hp s). unfold magnet_step in Hp. by rewrite H1 in Hp. }
  rewrite (agree_offset_roll s s1 locs Hag) in Ho. destruct (sampled s _ locs O Rr Hr Hlocs Ho) as (off&roll&Hall&Hcol). apply elem_of_list_lookup in Hi as [k Hk].
  destruct (bpms_loop _ _ _ _ _ (proj1 Hr) Hf k i Hk) as [A1 (r&A2&A3)]. cbn [fst snd] in A1, A2, A3. destruct (Hcol k i j Hk Hj) as [[L1 C1] [L2 C2]].
  destruct (col3 O k) as [|x [|y [|z [|]]]]; try discriminate. exists off, roll, x, y, r. split_and!; try done; [by rewrite <- (C1 0%nat) by lia|by rewrite <- (C1 1%nat) by lia|by rewrite <- (C2 0%nat) by lia].
Qed.
(** an element whose predecessor has a positive length is the first at its position *)
Lemma first_there_self s i : nonneg_lengths s -> (i = 0%nat \/ (0 < length_at s (pred i))%R) -> first_there s i i.
Proof.
  intros Hnn Hi. split_and!; [done|done|]. intros k Hk. destruct Hi as [->|Hi]; [lia|]. destruct i as [|i]; [lia|]. simpl in Hi. rewrite position_S. assert (position s k <= position s i)%R by (apply position_mono; [done|lia]). lra.
Qed.

(** * Cases *)
Local Open Scope Q_scope.
(** lengths 1, 2, 3, 2, 2; a girder from element 1 (at 1) to element 3 (at 6) *)
Definition girder_moved : sc Q := snd (apply_support_alignment_error 10 (girder [("Offset", SPlain (VMat [[1; 2; 3]; [1; 2; 3]]))] [1; 1; 1; 2; 3; 4])).
Example C32_case :
  match support_offset_and_roll (spos (RING girder_moved)) girder_moved with
  | Ok ([x; y; z], [r; p; w]) => x = [0; 1; (7 # 5); 2; 0; 0] /\ y = [0; 2; (18 # 5); 6; 0; 0] /\ p = [0; (4 # 5); (4 # 5); (4 # 5); 0; 0]
  | _ => False
  end.
Proof. vm_compute. repeat split. Qed.
(** Finding: a support extending over the end of the lattice turns every element, also those not on it. *)
Definition girder_over_end : sc Q :=
  snd (apply_support_alignment_error 10 (snd (register_supports [[3%nat]; [1%nat]] "Girder" [("Offset", SPlain (VMat [[1; 2; 3]; [1; 2; 3]]))] (five_elems [1; 1; 1; 2; 3; 4])))).
Theorem C32_finding_wrap_around :
  match support_offset_and_roll (spos (RING girder_over_end)) girder_over_end with
  | Ok ([x; y; z], [r; p; w]) => x !! 2%nat = Some 0 /\ p !! 2%nat = Some (4 # 5)
  | _ => False
  end.
Proof. vm_compute. repeat split. Qed.
(** Finding: a magnet that starts a girder directly behind a zero-length element gets the displacement of that element. *)
Definition behind_marker : sc Q :=
  snd (apply_support_alignment_error 10 (snd (register_supports [[2%nat]; [4%nat]] "Girder" [("Offset", SPlain (VMat [[1; 2; 3]; [1; 2; 3]]))]
    (init_sc [drift_elem 1; drift_elem 0; magnet_elem 2; drift_elem 3; magnet_elem 2; drift_elem 2] [1; 1; 1; 2; 3; 4])))).
Theorem C32_finding_zero_length :
  match support_offset_and_roll (spos (RING behind_marker)) behind_marker, support_offset_and_roll [1; 6] behind_marker with
  | Ok ([x; _; _], _), Ok ([x'; _; _], _) => x !! 2%nat = Some 1 /\ x' = [0; 2]
  | _, _ => False
  end.
Proof. vm_compute. repeat split. Qed.
Print Assumptions C32_three_types.
Print Assumptions C32_single.
Print Assumptions C32_nested.
Print Assumptions C32_rolls.
Print Assumptions C32_magnets.
Print Assumptions C32_bpms.
