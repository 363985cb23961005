(** C25 (padded sums) and C17 (the actual field of a magnet). *)
From Coq Require Import Reals Lra QArith.
From stdpp Require Import base gmap strings list.
From Verif Require Import Num Base Model_Arr Model_SC Model_Err Lemmas Proofs_Update Proofs_Setpoint Spec Proofs_CM Proofs_Field Examples.
Local Open Scope string_scope.
Local Open Scope list_scope.

(** * C25: padded addition *)
(** Specification: the sum of two arrays, position by position, an array being zero beyond its end. *)
Definition padded_sum (a b c : list R) : Prop :=
  length c = Nat.max (length a) (length b) /\ forall k, at0 c k = (at0 a k + at0 b k)%R.

Theorem C25_padded_sum (a b : list R) : exists c, add_padded (VVec a) (VVec b) = Ok c /\ padded_sum a b c.
Proof. eexists. split; [done|]. split; [apply add_padded1_length|]. apply add_padded1_at. Qed.
(** nothing else is a padded sum *)
Theorem C25_unique (a b c d : list R) : add_padded (VVec a) (VVec b) = Ok c -> padded_sum a b d -> d = c.
Proof.
  intros [= <-] [HL H]. apply at0_ext; [by rewrite add_padded1_length|]. intros k. by rewrite add_padded1_at.
Qed.
Theorem C25_commutative (a b : list R) : add_padded (VVec a) (VVec b) = add_padded (VVec b) (VVec a).
Proof. simpl. f_equal. apply at0_ext; [rewrite !add_padded1_length; lia|]. intros k. rewrite !add_padded1_at. lra. Qed.
Theorem C25_associative (a b c : list R) :
  (let? ab := add_padded (VVec a) (VVec b) in add_padded (VVec ab) (VVec c)) =
  (let? bc := add_padded (VVec b) (VVec c) in add_padded (VVec a) (VVec bc)).
Proof. simpl. f_equal. apply at0_ext; [rewrite !add_padded1_length; lia|]. intros k. rewrite !add_padded1_at. lra. Qed.
Theorem C25_unit (a : list R) : add_padded (VVec a) (VVec []) = Ok a /\ add_padded (VVec []) (VVec a) = Ok a.
Proof.
  split; simpl; f_equal; (apply at0_ext; [rewrite !add_padded1_length; simpl; lia|]); intros k; rewrite !add_padded1_at, at0_nil; lra.
Qed.
(** number of dimensions of an array value *)
Definition ndim {T} (v : val T) : option nat :=
  match v with VNum _ => Some 0 | VVec _ => Some 1 | VMat _ => Some 2 | _ => None end.
Theorem C25_rejects {T} {N : Num T} (a b : val T) (m n : nat) :
  ndim a = Some m -> ndim b = Some n -> m <> n \/ (m = 2 /\ n = 2) -> add_padded a b = Err ValueError.
Proof.
  intros Ha Hb H. destruct a; simpl in Ha; try discriminate; injection Ha as <-;
  destruct b; simpl in Hb; try discriminate; injection Hb as <-; try done; exfalso; destruct H as [H|[H1 H2]]; lia.
Qed.
Example C25_case : add_padded (VVec [1; 2; 3]%Q) (VVec [10]%Q) = Ok [11; 2; 3]%Q.
Proof. reflexivity. Qed.

(** * C17: the actual field *)
(** Specification: a magnet as a user reads it. *)
Definition array_of (s : sc R) i a : list R := match attr_at s i a with Some (VVec l) => l | _ => [] end.
Definition table_of (s : sc R) i a : list (nat * list R) := match attr_at s i a with Some (VTab t) => t | _ => [] end.
Definition offset_name (skew : bool) : string := if skew then "PolynomAOffset" else "PolynomBOffset".
Definition systematic_name (skew from_skew : bool) : string :=
  match skew, from_skew with
  | true, true => "SysPolAFromA" | true, false => "SysPolAFromB"
  | false, true => "SysPolBFromA" | false, false => "SysPolBFromB"
  end.
(** set-point times (1 + calibration error), one component *)
Definition driven (s : sc R) i skew k : R :=
  (at0 (array_of s i (setpoint_name skew)) k * (1 + at0 (array_of s i (cal_name skew)) k))%R.
Fixpoint sum_over {A} (l : list A) (f : A -> R) : R := match l with [] => 0%R | x :: l' => (f x + sum_over l' f)%R end.
(** multipoles of [c] switched on by the driven components of [m] *)
Definition systematic (s : sc R) m c skew k : R :=
  (sum_over (table_of s c (systematic_name skew true)) (fun row => driven s m true row.1 * at0 row.2 k) +
   sum_over (table_of s c (systematic_name skew false)) (fun row => driven s m false row.1 * at0 row.2 k))%R.
(** bending terms: the relative error of the angle, and for combined-function bends the part of the angle that
    follows the gradient *)
Definition bending (s : sc R) m c : R :=
  (match number s c "BendingAngle", number s c "Length" with
   | Some th, Some len =>
       (match number s m "BendingAngleError" with Some err => err * th / len | None => 0 end) +
       (match attr_at s m "BendingAngle", attr_at s m "CombinedFunction" with
        | Some _, Some (VBool true) => (driven s m false 1 / at0 (array_of s m (nominal_name false)) 1 * th - th) / len
        | _, _ => 0
        end)
   | _, _ => 0
   end)%R.
(** the field of [c] when it is powered by the set-points of [m] *)
Definition expected_field (s : sc R) m c skew k : R :=
  (driven s m skew k + at0 (array_of s c (offset_name skew)) k + systematic s m c skew k +
   (if skew then 0 else match k with O => bending s m c | S _ => 0 end))%R.
Definition longest (l : list (list R)) : nat := list_max (map length l).
Definition expected_length (s : sc R) m c skew : nat :=
  longest ([array_of s m (setpoint_name skew); array_of s c (offset_name skew)] ++
           map snd (table_of s c (systematic_name skew true)) ++ map snd (table_of s c (systematic_name skew false))).

Lemma sys_tab_at (t : list (nat * list R)) (P acc out : list R) :
  rfold (fun acc nv => let? x := idx P nv.1 in add_padded (VVec acc) (VVec (map (nmul x) nv.2))) t acc = Ok out ->
  length out = Nat.max (length acc) (longest (map snd t)) /\
  forall k, at0 out k = (at0 acc k + sum_over t (fun row => at0 P row.1 * at0 row.2 k))%R.
Proof.
  revert acc. induction t as [|[n v] t IH]; intros acc; simpl.
  - intros [= <-]. split; [unfold longest; simpl; lia|]. intros k. lra.
  - intros H. apply rbind_ok in H as (acc'&H1&H). apply rbind_ok in H1 as (x&Hx&H1). apply idx_ok in Hx. injection H1 as <-.
    destruct (IH _ H) as [HL HK]. split.
    + rewrite HL, add_padded1_length. unfold longest. simpl. rewrite map_length. simpl. lia.
    + intros k. rewrite HK, add_padded1_at, map_mul_at. assert (at0 P n = x) as -> by (unfold at0; simpl in Hx; by rewrite Hx). lra.
Qed.
Definition ab_letter (skew : bool) : string := if skew then "A" else "B".
Definition e_arr (e : elem R) a : list R := match e !! a with Some (VVec l) => l | _ => [] end.
Definition e_tab (e : elem R) a : list (nat * list R) := match e !! a with Some (VTab l) => l | _ => [] end.
Lemma new_polynom_at e skew pa pb out : new_polynom e (ab_letter skew) pa pb = Ok out ->
  let base := if skew then pa else pb in
  length out = longest ([base; e_arr e (offset_name skew)] ++ map snd (e_tab e (systematic_name skew true)) ++ map snd (e_tab e (systematic_name skew false))) /\
  forall k, at0 out k = (at0 base k + at0 (e_arr e (offset_name skew)) k +
     (sum_over (e_tab e (systematic_name skew true)) (fun row => at0 pa row.1 * at0 row.2 k) +
      sum_over (e_tab e (systematic_name skew false)) (fun row => at0 pb row.1 * at0 row.2 k)))%R.
Proof.
  unfold new_polynom. intros H. set (base := if skew then pa else pb). apply rbind_ok in H as (p1&Hp1&H).
  assert (length p1 = Nat.max (length base) (length (e_arr e (offset_name skew))) /\
          forall k, at0 p1 k = (at0 base k + at0 (e_arr e (offset_name skew)) k)%R) as [L1 K1].
  { assert ("Polynom" +:+ ab_letter skew +:+ "Offset" = offset_name skew) as Eo by (by destruct skew). rewrite Eo in Hp1. clear Eo.
    assert ((if decide (ab_letter skew = "A") then pa else pb) = base) as Eb by (unfold base, ab_letter; by destruct skew). rewrite Eb in Hp1. clear Eb.
    unfold e_arr. destruct (e !! offset_name skew) as [v|].
    - unfold add_padded in Hp1. destruct v; try discriminate. injection Hp1 as <-. split; [apply add_padded1_length|apply add_padded1_at].
    - injection Hp1 as <-. split; [simpl; lia|]. intros k. rewrite at0_nil. lra. }
  cbn [rfold] in H. apply rbind_ok in H as (p2&H2&H). apply rbind_ok in H as (p3&H3&H). injection H as <-.
  assert ("SysPol" +:+ ab_letter skew +:+ "From" +:+ "A" = systematic_name skew true) as E2 by (by destruct skew).
  assert ("SysPol" +:+ ab_letter skew +:+ "From" +:+ "B" = systematic_name skew false) as E3 by (by destruct skew).
  rewrite E2 in H2. rewrite E3 in H3. clear E2 E3.
  assert (length p2 = Nat.max (length p1) (longest (map snd (e_tab e (systematic_name skew true)))) /\
    forall k, at0 p2 k = (at0 p1 k + sum_over (e_tab e (systematic_name skew true)) (fun row => at0 pa row.1 * at0 row.2 k))%R) as [L2 K2].
  { unfold e_tab. destruct (e !! systematic_name skew true) as [v|].
    - apply rbind_ok in H2 as (t&Ht&H2). destruct v; try discriminate. injection Ht as <-. by apply sys_tab_at in H2.
    - injection H2 as <-. split; [unfold longest; simpl; lia|]. intros k. simpl. lra. }
  assert (length p3 = Nat.max (length p2) (longest (map snd (e_tab e (systematic_name skew false)))) /\
    forall k, at0 p3 k = (at0 p2 k + sum_over (e_tab e (systematic_name skew false)) (fun row => at0 pb row.1 * at0 row.2 k))%R) as [L3 K3].
  { unfold e_tab. destruct (e !! systematic_name skew false) as [v|].
    - apply rbind_ok in H3 as (t&Ht&H3). destruct v; try discriminate. injection Ht as <-. by apply sys_tab_at in H3.
    - injection H3 as <-. split; [unfold longest; simpl; lia|]. intros k. simpl. lra. }
  split.
  - rewrite L3, L2, L1. unfold longest. rewrite map_app, map_app, list_max_app, list_max_app. simpl. lia.
  - intros k. rewrite K3, K2, K1. lra.
Qed.

Lemma qdivR_ok (x y z : R) : qdiv x y = Ok z -> z = (x / y)%R /\ y <> 0%R.
Proof. unfold qdiv. num_R. destruct (Reqb y 0) eqn:E; [done|]. apply Reqb_false in E. intros [= <-]. done. Qed.
Lemma plus_B0_at (x : R) l out : plus_B0 x l = Ok out ->
  length out = length l /\ forall k, at0 out k = (at0 l k + match k with O => x | S _ => 0 end)%R.
Proof.
  unfold plus_B0. intros H. apply rbind_ok in H as (b0&Hb&H). apply idx_ok in Hb. injection H as <-. split; [by rewrite insert_length|].
  intros k. unfold at0. destruct k.
  - rewrite list_lookup_insert by (by eapply lookup_lt_Some). rewrite Hb. simpl. num_R. lra.
  - rewrite list_lookup_insert_ne by done. lra.
Qed.
(** the same quantities on elements *)
Definition e_drv (src : elem R) skew k : R := (at0 (e_arr src (setpoint_name skew)) k * (1 + at0 (e_arr src (cal_name skew)) k))%R.
Definition e_num (e : elem R) a : option R := match e !! a with Some (VNum x) => Some x | _ => None end.
Definition e_bend (src e : elem R) : R :=
  (match e_num e "BendingAngle", e_num e "Length" with
   | Some th, Some len =>
       (match e_num src "BendingAngleError" with Some err => err * th / len | None => 0 end) +
       (match src !! "BendingAngle", src !! "CombinedFunction" with
        | Some _, Some (VBool true) => (e_drv src false 1 / at0 (e_arr src (nominal_name false)) 1 * th - th) / len
        | _, _ => 0
        end)
   | _, _ => 0
   end)%R.
Lemma e_arr_vec e a l : attr_vec e a = Ok l -> e_arr e a = l.
Proof. unfold attr_vec, attr, e_arr. destruct (e !! a) as [[]|]; simpl; congruence. Qed.
Lemma e_num_num e a x : attr_num e a = Ok x -> e_num e a = Some x.
Proof. unfold attr_num, attr, e_num. destruct (e !! a) as [[]|]; simpl; congruence. Qed.

(** no calibration array is longer than its one-component set-point array *)
Definition calibration_fits (src : elem R) : Prop := forall skew,
  length (e_arr src (cal_name skew)) <= length (e_arr src (setpoint_name skew)) \/ length (e_arr src (setpoint_name skew)) <> 1.

Lemma target_fields_at src e a b : target_fields src e = Ok (a, b) -> calibration_fits src ->
  forall skew : bool, let out := if skew then a else b in
  length out = longest ([e_arr src (setpoint_name skew); e_arr e (offset_name skew)] ++
     map snd (e_tab e (systematic_name skew true)) ++ map snd (e_tab e (systematic_name skew false))) /\
  forall k, at0 out k = (e_drv src skew k + at0 (e_arr e (offset_name skew)) k +
     (sum_over (e_tab e (systematic_name skew true)) (fun row => e_drv src true row.1 * at0 row.2 k) +
      sum_over (e_tab e (systematic_name skew false)) (fun row => e_drv src false row.1 * at0 row.2 k)) +
     (if skew then 0 else match k with O => e_bend src e | S _ => 0 end))%R.
Proof.
  unfold target_fields. intros H Hfit.
  apply rbind_ok in H as (spa&Hspa&H). apply rbind_ok in H as (spb&Hspb&H).
  apply rbind_ok in H as (pa&Hpa&H). apply rbind_ok in H as (pb&Hpb&H).
  apply rbind_ok in H as (newa&Hna&H). apply rbind_ok in H as (newb&Hnb&H).
  apply rbind_ok in H as (b1&Hb1&H). apply rbind_ok in H as (b2&Hb2&H). injection H as <- <-.
  apply rbind_ok in Hpa as (ca&Hca&Hpa). apply rbind_ok in Hpb as (cb&Hcb&Hpb).
  apply scaled_ok in Hpa as (ca'&->&Hpa), Hpb as (cb'&->&Hpb).
  pose proof (e_arr_vec _ _ _ Hspa) as Espa. pose proof (e_arr_vec _ _ _ Hspb) as Espb.
  assert (e_arr src "CalErrorA" = ca') as Eca. { unfold e_arr, attr in *. destruct (src !! "CalErrorA"); [|done]. by injection Hca as ->. }
  assert (e_arr src "CalErrorB" = cb') as Ecb. { unfold e_arr, attr in *. destruct (src !! "CalErrorB"); [|done]. by injection Hcb as ->. }
  destruct Hpa as [La Ka]. { pose proof (Hfit true) as Hf. simpl in Hf. by rewrite Espa, Eca in Hf. }
  destruct Hpb as [Lb Kb]. { pose proof (Hfit false) as Hf. simpl in Hf. by rewrite Espb, Ecb in Hf. }
  assert (forall k, at0 pa k = e_drv src true k) as Da. { intros k. unfold e_drv. simpl. by rewrite Espa, Eca. }
  assert (forall k, at0 pb k = e_drv src false k) as Db. { intros k. unfold e_drv. simpl. by rewrite Espb, Ecb. }
  assert (forall t k, sum_over t (fun row : nat * list R => at0 pa row.1 * at0 row.2 k)%R = sum_over t (fun row => e_drv src true row.1 * at0 row.2 k)%R) as Sa.
  { intros t k. induction t as [|x t IH]; simpl; [done|]. by rewrite IH, Da. }
  assert (forall t k, sum_over t (fun row : nat * list R => at0 pb row.1 * at0 row.2 k)%R = sum_over t (fun row => e_drv src false row.1 * at0 row.2 k)%R) as Sb.
  { intros t k. induction t as [|x t IH]; simpl; [done|]. by rewrite IH, Db. }
  apply (new_polynom_at e true) in Hna as [LA KA]. apply (new_polynom_at e false) in Hnb as [LB KB]. simpl in LA, KA, LB, KB.
  assert (length b2 = length newb /\ forall k, at0 b2 k = (at0 newb k + match k with O => e_bend src e | S _ => 0 end)%R) as [L2 K2].
  { unfold e_bend.
    assert (length b1 = length newb /\ forall k, at0 b1 k = (at0 newb k + match k with O =>
       match e_num e "BendingAngle", e_num e "Length", e_num src "BendingAngleError" with Some th, Some len, Some err => err * th / len | _, _, _ => 0 end | S _ => 0 end)%R) as [L1 K1].
    { destruct (src !! "BendingAngleError") as [v|] eqn:Ev.
      - apply rbind_ok in Hb1 as (ba&Hba&Hb1). apply rbind_ok in Hba as (err&Herr&Hba). apply rbind_ok in Hba as (th&Hth&Hba). apply rbind_ok in Hba as (len&Hlen&Hba).
        apply qdivR_ok in Hba as [-> _]. apply plus_B0_at in Hb1 as [? Hk]. split; [done|]. intros k. rewrite Hk.
        rewrite (e_num_num _ _ _ Hth), (e_num_num _ _ _ Hlen). assert (e_num src "BendingAngleError" = Some err) as ->.
        { unfold e_num. rewrite Ev. destruct v; try discriminate. by injection Herr as <-. } num_R. destruct k; lra.
      - injection Hb1 as <-. split; [done|]. intros k. assert (e_num src "BendingAngleError" = None) as -> by (unfold e_num; by rewrite Ev).
        destruct k; [|lra]. destruct (e_num e "BendingAngle"), (e_num e "Length"); lra. }
    destruct (src !! "BendingAngle") as [v|].
    2:{ injection Hb2 as <-. split; [done|]. intros k. rewrite K1. destruct k; [|lra]. destruct (e_num e "BendingAngle"), (e_num e "Length"), (e_num src "BendingAngleError"); lra. }
    destruct (src !! "CombinedFunction") as [[| | | |[]| | | | | |]|];
      try (injection Hb2 as <-; split; [done|]; intros k; rewrite K1; destruct k; [|lra]; destruct (e_num e "BendingAngle"), (e_num e "Length"), (e_num src "BendingAngleError"); lra).
    apply rbind_ok in Hb2 as (d&Hd&Hb2). apply rbind_ok in Hd as (sp1&Hsp1&Hd). apply idx_ok in Hsp1.
    apply rbind_ok in Hd as (cal&Hcal&Hd). apply rbind_ok in Hd as (c1&Hc1&Hd). apply idx_ok in Hc1.
    apply rbind_ok in Hd as (nom&Hnom&Hd). apply rbind_ok in Hd as (nom1&Hnom1&Hd). apply idx_ok in Hnom1.
    apply rbind_ok in Hd as (alpha&Hal&Hd). apply rbind_ok in Hd as (th&Hth&Hd). apply rbind_ok in Hd as (len&Hlen&Hd).
    apply qdivR_ok in Hal as [-> _], Hd as [-> _]. apply plus_B0_at in Hb2 as [? Hk]. split; [congruence|].
    intros k. rewrite Hk, K1. destruct k; [|lra]. rewrite (e_num_num _ _ _ Hth), (e_num_num _ _ _ Hlen).
    assert (e_drv src false 1 = (sp1 * (1 + c1))%R) as ->.
    { unfold e_drv. simpl. rewrite Espb, (e_arr_vec _ _ _ Hcal). unfold at0. by rewrite Hsp1, Hc1. }
    assert (at0 (e_arr src (nominal_name false)) 1 = nom1) as ->. { simpl. rewrite (e_arr_vec _ _ _ Hnom). unfold at0. by rewrite Hnom1. }
    num_R. destruct (e_num src "BendingAngleError"); lra. }
  intros [|]; simpl.
  - split.
    + rewrite LA. unfold longest. simpl. rewrite Espa. by rewrite La.
    + intros k. rewrite KA, Sa, Sb, Da. lra.
  - split.
    + rewrite L2, LB. unfold longest. simpl. rewrite Espb. by rewrite Lb.
    + intros k. rewrite K2, KB, Sa, Sb, Db. destruct k; lra.
Qed.
(** Specification: the only one of the listed magnets that powers [c], as its own magnet or as its master, is [m]. *)
Definition powered_by {T} (s : sc T) (ords : list nat) (m c : nat) : Prop :=
  m ∈ ords /\ (c = m \/ child_of s c m) /\ forall m', m' ∈ ords -> c = m' \/ child_of s c m' -> m' = m.
Definition fits (s : sc R) (m : nat) : Prop := forall skew,
  length (array_of s m (cal_name skew)) <= length (array_of s m (setpoint_name skew)) \/ length (array_of s m (setpoint_name skew)) <> 1.

Lemma child_of_children {T} (s : sc T) c m : child_of s c m <-> c ∈ children (RING s) m.
Proof.
  unfold child_of, children. rewrite attr_at_aget. split.
  - intros (l&->&?). done.
  - destruct (aget (RING s) m "MasterOf") as [[]|]; intros H; try by inversion H. eauto.
Qed.
Lemma powered_by_sole {T} (s : sc T) ords m c : powered_by s ords m c -> sole_updater (RING s) ords m c.
Proof.
  intros (?&Hc&Hso). split; [done|]. split; [by rewrite child_of_children in Hc|]. intros m' Hm'. rewrite <- child_of_children. auto.
Qed.

Theorem C17_field ords (s s' : sc R) u m c skew :
  update_magnets ords s = (Ok u, s') -> powered_by s ords m c -> fits s m ->
  exists p, attr_at s' c (field_name skew) = Some (VVec p) /\
    length p = expected_length s m c skew /\ forall k, at0 p k = expected_field s m c skew k.
Proof.
  intros H Hp Hf. apply powered_by_sole in Hp. destruct (sole_fields _ _ _ _ _ _ H Hp) as (em&ec&a&b&Em&Ec&Ht&Ha&Hb&_).
  exists (if skew then a else b). split; [by destruct skew|].
  assert (forall x, array_of s m x = e_arr em x) as Am by (intros; unfold array_of, attr_at; by rewrite Em).
  assert (forall x, array_of s c x = e_arr ec x) as Ac by (intros; unfold array_of, attr_at; by rewrite Ec).
  assert (forall x, table_of s c x = e_tab ec x) as Tc by (intros; unfold table_of, attr_at; by rewrite Ec).
  assert (forall sk k, driven s m sk k = e_drv em sk k) as Dm by (intros; unfold driven, e_drv; by rewrite !Am).
  assert (calibration_fits em) as Hf'. { intros sk. rewrite <- !Am. apply Hf. }
  destruct (target_fields_at _ _ _ _ Ht Hf' skew) as [HL HK]. split.
  - rewrite HL. unfold expected_length. by rewrite Am, Ac, !Tc.
  - intros k. rewrite HK. unfold expected_field, systematic. rewrite Dm, Ac, !Tc.
    assert (bending s m c = e_bend em ec) as ->.
    { unfold bending, e_bend, number, e_num, attr_at. rewrite Em, Ec, Dm, Am. done. }
    assert (forall t sk, sum_over t (fun row : nat * list R => driven s m sk row.1 * at0 row.2 k)%R = sum_over t (fun row => e_drv em sk row.1 * at0 row.2 k)%R) as Hs.
    { intros t sk. induction t as [|x t IH]; simpl; [done|]. by rewrite IH, Dm. }
    by rewrite !Hs.
Qed.
Theorem C17_order_and_kick {T} {N : Num T} ords (s s' : sc T) u m c :
  update_magnets ords s = (Ok u, s') -> powered_by s ords m c ->
  exists a b, attr_at s' c "PolynomA" = Some (VVec a) /\ attr_at s' c "PolynomB" = Some (VVec b) /\
    attr_at s' c "MaxOrder" = Some (VInt (Z.of_nat (length b) - 1)) /\
    (attr_at s m "PassMethod" = Some (VStr "CorrectorPass") ->
       exists b0 a0, b !! 0%nat = Some b0 /\ a !! 0%nat = Some a0 /\ attr_at s' c "KickAngle" = Some (VVec [b0; a0])) /\
    (attr_at s m "PassMethod" <> Some (VStr "CorrectorPass") -> attr_at s' c "KickAngle" = attr_at s c "KickAngle").
Proof.
  intros H Hp. apply powered_by_sole in Hp. destruct (sole_fields _ _ _ _ _ _ H Hp) as (em&ec&a&b&Em&Ec&Ht&Ha&Hb&Hm&pm&Hpm&H1&H2).
  exists a, b. do 3 (split; [done|]). rewrite Hpm. split; [intros [= ->]; auto|]. intros Hne. apply H2. congruence.
Qed.
(** Finding: a one-component set-point with a longer calibration array is broadcast over the whole array, so that
    the magnet acquires components for which it has no set-point. *)
Theorem C17_finding_broadcast (s s' : sc R) u i x c0 c1 rest :
  update_magnets [i] s = (Ok u, s') -> ~ child_of s i i ->
  attr_at s i "SetPointA" = Some (VVec [x]) -> attr_at s i "CalErrorA" = Some (VVec (c0 :: c1 :: rest)) ->
  attr_at s i "PolynomAOffset" = None -> attr_at s i "SysPolAFromA" = None -> attr_at s i "SysPolAFromB" = None ->
  attr_at s' i "PolynomA" = Some (VVec (map (Rmult x) ((1 + c0)%R :: c1 :: rest))).
Proof.
  intros H Hc Hsp Hcal Ho Ha Hb.
  assert (powered_by s [i] i i) as Hp.
  { split; [left|]. split; [by left|]. intros m' Hm' _. by apply elem_of_list_singleton in Hm'. }
  apply powered_by_sole in Hp. destruct (sole_fields _ _ _ _ _ _ H Hp) as (em&ec&a&b&Em&Ec&Ht&HA&_). rewrite Em in Ec. injection Ec as <-. rewrite HA. do 2 f_equal.
  unfold attr_at in Hsp, Hcal, Ho, Ha, Hb. rewrite Em in Hsp, Hcal, Ho, Ha, Hb. simpl in Hsp, Hcal, Ho, Ha, Hb.
  unfold target_fields in Ht. apply rbind_ok in Ht as (spa&Hspa&Ht). unfold attr_vec, attr in Hspa. rewrite Hsp in Hspa. injection Hspa as <-.
  apply rbind_ok in Ht as (spb&Hspb&Ht). apply rbind_ok in Ht as (pa&Hpa&Ht). apply rbind_ok in Ht as (pb&Hpb&Ht). apply rbind_ok in Ht as (na&Hna&Ht).
  assert (a = na) as ->. { apply rbind_ok in Ht as (?&_&Ht). apply rbind_ok in Ht as (?&_&Ht). apply rbind_ok in Ht as (?&_&Ht). by injection Ht. }
  apply rbind_ok in Hpa as (ca&Hca&Hpa). unfold attr in Hca. rewrite Hcal in Hca. injection Hca as <-.
  unfold scaled_setpoints in Hpa. cbn [add_padded rbind] in Hpa.
  assert (add_padded1 (ones (length [x])) (c0 :: c1 :: rest) = (1 + c0)%R :: c1 :: rest) as EL.
  { apply at0_ext; [rewrite add_padded1_length; simpl; lia|]. intros k. rewrite add_padded1_at. destruct k as [|[|k]]; unfold at0; simpl; num_R; lra. }
  rewrite EL in Hpa. cbn in Hpa. injection Hpa as <-.
  unfold new_polynom in Hna. change ("Polynom" +:+ "A" +:+ "Offset") with "PolynomAOffset" in Hna. rewrite Ho in Hna. simpl rbind in Hna at 1.
  cbn [rfold] in Hna. change ("SysPol" +:+ "A" +:+ "From" +:+ "A") with "SysPolAFromA" in Hna. change ("SysPol" +:+ "A" +:+ "From" +:+ "B") with "SysPolAFromB" in Hna.
  rewrite Ha, Hb in Hna. simpl in Hna. injection Hna as <-. done.
Qed.

(** * Examples *)
(** quadrupole 1 with calibration errors, a random sextupole offset and a table driven by the gradient;
    bend 5 (angle 2, length 4) as a combined-function magnet with an error of the angle *)
Definition field_machine {T} `{Num T} : sc T :=
  let s := snd (register_magnets [5%nat] [] (MkType None None true None None)
             (snd (register_magnets [1%nat] [] (MkType None None false None None) ex_sc))) in
  let q := default ∅ (RING s !! 1%nat) in
  let b := default ∅ (RING s !! 5%nat) in
  let q' := <["CalErrorB" := VVec [num 0; num 1]]> (<["PolynomBOffset" := VVec [num 0; num 0; num 7]]>
              (<["SysPolAFromB" := VTab [(1%nat, [num 0; num 0; num 0; num 2])]]> q)) in
  let b' := <["BendingAngleError" := VNum (num 3)]> (<["CalErrorB" := VVec [num 0; num 1]]> b) in
  set_RING (<[1%nat := q']> (<[5%nat := b']> (RING s))) s.
Example C17_case :
  let r := update_magnets [1; 5]%nat (field_machine : sc Q) in
  fst r = Ok tt /\
  attr_at (snd r) 1 "PolynomB" = Some (VVec [0; 6; 7]%Q) /\ attr_at (snd r) 1 "PolynomA" = Some (VVec [0; 0; 0; 12]%Q) /\
  attr_at (snd r) 1 "MaxOrder" = Some (VInt 2) /\
  (* bend: gradient 5 * (1 + 1), angle terms 3 * 2 / 4 and (10 / 5 * 2 - 2) / 4 *)
  attr_at (snd r) 5 "PolynomB" = Some (VVec [2; 10]%Q).
Proof. vm_compute. repeat split. Qed.
Example C17_case_powered : powered_by (field_machine : sc Q) [1; 5]%nat 1 1.
Proof.
  split; [set_solver|]. split; [by left|]. intros m Hm [<-|(l&Hl&_)]; [done|].
  apply elem_of_cons in Hm as [->|Hm]; [done|]. apply elem_of_list_singleton in Hm as ->. vm_compute in Hl. discriminate.
Qed.
Print Assumptions C25_padded_sum.
Print Assumptions C25_unique.
Print Assumptions C25_commutative.
Print Assumptions C25_associative.
Print Assumptions C25_unit.
Print Assumptions C25_rejects.
Print Assumptions C17_field.
Print Assumptions C17_order_and_kick.
Print Assumptions C17_finding_broadcast.
