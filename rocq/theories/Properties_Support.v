(** C30, C31: random errors of supports. *)
From Coq Require Import Reals Lra QArith.
From stdpp Require Import base gmap strings list.
From Verif Require Import Num Base Model_Arr Model_SC Model_Err Lemmas Proofs_Reg Proofs_Update Proofs_Loop Spec Proofs_CM Proofs_Field Proofs_Err
  Properties_Random Properties_Field Examples Properties_Errors Properties_Circ.
Local Open Scope string_scope.
Local Open Scope list_scope.

(** * Specification *)
(** longitudinal position of the entrance of element [i] (of the end of the ring for the last index) *)
Definition position (s : sc R) (i : nat) : R := sum_over (seq 0 i) (length_at s).
(** [l] is [x] modulo [c] *)
Definition is_modulo (x c l : R) : Prop := (0 <= l < c)%R /\ exists k : Z, x = (l + IZR k * c)%R.
Definition offset_name (t : stype) : string := stype_str t +:+ "Offset".
Definition roll_name (t : stype) : string := stype_str t +:+ "Roll".
(** vertical (horizontal) offsets belong to the pitch (yaw) angle *)
Definition angle_component (rollidx comp : nat) : Prop := (rollidx = 1%nat /\ comp = 1%nat) \/ (rollidx = 2%nat /\ comp = 0%nat).
(** angles and offsets at the endpoints of a support of length [len] agree *)
Definition consistent (s : sc R) (t : stype) (p : nat * nat) (len : R) : Prop :=
  forall rollidx comp, angle_component rollidx comp ->
    exists r a b, Spec.entry s p.1 (roll_name t) rollidx = Some r /\ Spec.entry s p.1 (offset_name t) comp = Some a /\
      Spec.entry s p.2 (offset_name t) comp = Some b /\ r = ((b - a) / len)%R.

(** * Positions *)
Lemma sum_over_app {A} (l k : list A) f : sum_over (l ++ k) f = (sum_over l f + sum_over k f)%R.
Proof. induction l as [|x l IH]; simpl; [lra|]. rewrite IH. lra. Qed.
Lemma findspos_lookup (l : list R) x i : i <= length l -> findspos_from x l !! i = Some (x + foldr Rplus 0 (take i l))%R.
Proof.
  revert x i. induction l as [|y l IH]; intros x [|i] Hi; simpl in *; try lia; [f_equal; lra|f_equal; lra|].
  rewrite IH by lia. f_equal. num_R. lra.
Qed.
Lemma foldr_sum_over l (f : nat -> R) : foldr Rplus 0%R (map f l) = sum_over l f.
Proof. induction l as [|x l IH]; simpl; [done|]. by rewrite IH. Qed.
Lemma lengths_at (s : sc R) : map elem_length (RING s) = map (length_at s) (seq 0 (length (RING s))).
Proof.
  apply list_eq. intros i. rewrite !list_lookup_fmap. destruct (decide (i < length (RING s))) as [Hi|Hi].
  - rewrite lookup_seq_lt by done. destruct (RING s !! i) as [e|] eqn:E; [|apply lookup_ge_None in E; lia]. simpl. f_equal.
    unfold length_at, number, attr_at, elem_length. rewrite E. simpl. destruct (e !! "Length") as [[]|]; done.
  - rewrite lookup_seq_ge, lookup_ge_None_2 by lia. done.
Qed.
Lemma spos_position (s : sc R) i : i <= length (RING s) -> spos (RING s) !! i = Some (position s i).
Proof.
  intros Hi. unfold spos. rewrite findspos_lookup by (rewrite map_length; done). f_equal. simpl. rewrite lengths_at, firstn_map, foldr_sum_over.
  unfold position. change (n0 : R) with 0%R. rewrite Rplus_0_l. f_equal. replace (length (RING s)) with (i + (length (RING s) - i))%nat by lia.
  rewrite seq_app, take_app_alt by (by rewrite seq_length). done.
Qed.

Lemma spos_last (s : sc R) : default n0 (last (spos (RING s))) = total_length s.
Proof. apply circumference_total. Qed.
Lemma nrem_modulo x c : (0 < c)%R -> is_modulo x c (nrem x c).
Proof.
  intros Hc. unfold nrem. num_R. cbn [nfloor NumR]. unfold Int_part. set (z := up (x / c)). pose proof (archimed (x / c)) as [H1 H2]. fold z in H1, H2.
  rewrite minus_IZR. assert (x = (x / c) * c)%R as E by (field; lra). set (q := (x / c)%R) in *. rewrite E. split.
  - split.
    + replace (q * c - c * (IZR z - 1))%R with ((q - IZR z + 1) * c)%R by ring. apply Rmult_le_pos; lra.
    + replace (q * c - c * (IZR z - 1))%R with ((q - IZR z + 1) * c)%R by ring. assert ((q - IZR z + 1) * c < 1 * c)%R; [|lra]. apply Rmult_lt_compat_r; lra.
  - exists (z - 1)%Z. rewrite minus_IZR. ring.
Qed.
Lemma modulo_unique x c l l' : is_modulo x c l -> is_modulo x c l' -> l = l'.
Proof.
  intros ([H1 H2]&k&E) ([H1' H2']&k'&E'). assert (0 < c)%R as Hc by lra.
  assert (IZR (k - k') * c = l' - l)%R as E2 by (rewrite minus_IZR; lra).
  assert (k = k') as ->; [|lra].
  destruct (Z.lt_trichotomy k k') as [Hk|[?|Hk]]; [|done|]; exfalso.
  - assert (k - k' <= -1)%Z as Hz by lia. apply IZR_le in Hz. assert (IZR (k - k') * c <= -1 * c)%R by (apply Rmult_le_compat_r; lra). lra.
  - assert (1 <= k - k')%Z as Hz by lia. apply IZR_le in Hz. assert (1 * c <= IZR (k - k') * c)%R by (apply Rmult_le_compat_r; lra). lra.
Qed.

(** * One support *)
Lemma one_angle_ok comp rollidx len ho rolls off0 off1 rolls' off0' off1' : (len <> 0)%R ->
  one_angle comp rollidx len ho (rolls, off0, off1) = Ok (rolls', off0', off1') ->
  exists r a b r' a' b', rolls !! rollidx = Some r /\ off0 !! comp = Some a /\ off1 !! comp = Some b /\
    rolls' = <[rollidx := r']> rolls /\ off0' = <[comp := a']> off0 /\ off1' = <[comp := b']> off1 /\ (a' + b' = a + b)%R /\
    ((r <> 0%R /\ ho = false /\ r' = r /\ (b' - a' = b - a + r * len)%R) \/ (r = 0%R /\ a' = a /\ b' = b /\ r' = ((b - a) / len)%R)).
Proof.
  intros Hl H. unfold one_angle in H. apply rbind_ok in H as (r&Hr&H). apply rbind_ok in H as (a&Ha&H). apply rbind_ok in H as (b&Hb&H).
  apply idx_ok in Hr, Ha, Hb. exists r, a, b. num_R. destruct (Reqb r 0) eqn:E; simpl in H.
  - apply Reqb_true in E as ->. apply rbind_ok in H as (q&Hq&H). injection H as <- <- <-. apply qdiv_R in Hq as [_ ->].
    exists ((b - a) / len)%R, a, b. split_and!; try done; [by rewrite list_insert_id|by rewrite list_insert_id|]. right. done.
  - apply Reqb_false in E. destruct ho; [discriminate|]. injection H as <- <- <-. unfold ntwo. num_R.
    exists r, (a - r * len / (1 + 1))%R, (b + r * len / (1 + 1))%R.
    split_and!; try done; [by rewrite list_insert_id|lra|]. left. split_and!; try done. lra.
Qed.

(** the step of the loops for one support *)
Definition pair_step {T} {N : Num T} (nsig : T) (sp : list T) (t : stype) (p : nat * nat) : M (sc T) unit :=
  let! s := get in
  if isSome (sSupport (SIG s) !! p.1) then support_draws t p nsig ;;; support_angles sp t p else ret tt.
Definition of_support (t : stype) (p : nat * nat) (i : nat) (a : string) : Prop := (i = p.1 \/ i = p.2) /\ substring (stype_str t) a = true.
Definition only {T} (I : nat -> string -> Prop) (s s' : sc T) : Prop := SIG s' = SIG s /\ ORD s' = ORD s /\ length (RING s') = length (RING s) /\ forall i a, ~ I i a -> attr_at s' i a = attr_at s i a.
#[global] Instance only_preorder {T} I : PreOrder (@only T I).
Proof.
  split; [by intros s|]. intros s1 s2 s3 (A1&B1&C1&D1) (A2&B2&C2&D2). split_and!; try congruence. intros i a Hi. by rewrite D2, D1.
Qed.
Lemma only_mono {T} (I J : nat -> string -> Prop) (s s' : sc T) : (forall i a, I i a -> J i a) -> only I s s' -> only J s s'.
Proof. intros H (?&?&?&HD). split_and!; try done. intros i a Hn. apply HD. auto. Qed.
Lemma pres_only_same {T A} I (m : M (sc T) A) : pres (same (fun s : sc T => (RING s, SIG s, ORD s))) m -> pres (@only T I) m.
Proof.
  intros H s. specialize (H s). unfold same in H. injection H as H1 H2 H3. split_and!; try done; [by rewrite H1|]. intros i a _. unfold attr_at. by rewrite H1.
Qed.
Lemma pres_only_setattr {T} (I : nat -> string -> Prop) i a (v : val T) : I i a -> pres (@only T I) (on_elem i (setattr a v)).
Proof.
  intros HI s. unfold on_elem. destruct (RING s !! i) as [e|] eqn:E; [|split_and!; done]. unfold only; simpl. split_and!; try done; [by rewrite insert_length|].
  intros j b Hn. unfold attr_at. simpl. destruct (decide (i = j)) as [<-|Hij]; [|by rewrite list_lookup_insert_ne].
  rewrite list_lookup_insert by (by eapply lookup_lt_Some). rewrite E. simpl. destruct (decide (a = b)) as [<-|]; [done|]. by rewrite lookup_insert_ne.
Qed.
Section Generic.
  Context {T : Type} {N : Num T}.
  Lemma stype_sub (t : stype) x : substring (stype_str t) (stype_str t +:+ x) = true.
  Proof. destruct t, x; reflexivity. Qed.
  Lemma only_randn I v cut : pres (@only T I) (randn_cutoff v cut).
  Proof. apply pres_only_same, same_randn_cutoff. done. Qed.
  Lemma only_draws t p nsig : pres (@only T (of_support t p)) (support_draws t p nsig).
  Proof.
    unfold support_draws. repeat first [ pres_step | apply pres_ring_elem; exact _ | apply only_randn
      | apply pres_only_setattr; split; [by auto|assumption] ].
  Qed.
  Lemma only_angles sp t p : pres (@only T (of_support t p)) (support_angles sp t p).
  Proof.
    unfold support_angles. repeat first [ pres_step | apply pres_ring_elem; exact _
      | apply pres_only_setattr; split; [by auto|apply stype_sub] ].
  Qed.
  Lemma only_pair_step nsig sp t p : pres (@only T (of_support t p)) (pair_step nsig sp t p).
  Proof. unfold pair_step. repeat first [ pres_step | apply only_draws | apply only_angles ]. Qed.
  Lemma only_pairs nsig sp t l : pres (@only T (fun i a => exists p, p ∈ l /\ of_support t p i a)) (forM l (pair_step nsig sp t)).
  Proof.
    apply pres_forM; [exact _|]. intros p Hp s. eapply only_mono; [|apply only_pair_step]. intros i a Hi. exists p. done.
  Qed.
End Generic.
Definition others (t : stype) (l : list (nat * nat)) (i : nat) (a : string) : Prop :=
  (exists q, q ∈ l /\ of_support t q i a) \/ (exists t', t' <> t /\ substring (stype_str t') a = true).
Lemma alignment_ok {T} {N : Num T} nsig (s s' : sc T) u t p : apply_support_alignment_error nsig s = (Ok u, s') -> p ∈ oSupport t (ORD s) ->
  exists l1 l2 s1 s2, oSupport t (ORD s) = l1 ++ p :: l2 /\ p ∉ l2 /\
    only (others t l1) s s1 /\ pair_step nsig (spos (RING s)) t p s1 = (Ok tt, s2) /\ only (others t l2) s2 s'.
Proof.
  intros H Hp. apply elem_of_list_split_r in Hp as (l1&l2&El&Hn). exists l1, l2. rewrite El.
  unfold apply_support_alignment_error in H. apply bind_ok in H as (?&?&Hg&H). apply get_ok in Hg as [-> ->].
  set (sp := spos (RING s)) in *.
  change (forM SUPPORT_TYPES (fun t => let! s0 := get in forM (oSupport t (ORD s0)) (pair_step nsig sp t)) s = (Ok u, s')) in H.
  assert (forall t0 (s0 s1 : sc T) v, (let! s2 := get in forM (oSupport t0 (ORD s2)) (pair_step nsig sp t0)) s0 = (Ok v, s1) ->
            forall l, t0 <> t -> only (others t l) s0 s1) as Hother.
  { intros t0 s0 s1 v H0 l Hne. apply bind_ok in H0 as (?&?&Hg&H0). apply get_ok in Hg as [-> ->].
    pose proof (only_pairs nsig sp t0 (oSupport t0 (ORD s0)) s0) as P. rewrite H0 in P. eapply only_mono; [|exact P].
    intros i a (q&_&_&Hs). right. eauto. }
  assert (forall (s0 s1 : sc T) v, ORD s0 = ORD s -> (let! s2 := get in forM (oSupport t (ORD s2)) (pair_step nsig sp t)) s0 = (Ok v, s1) ->
            exists sa sb, only (others t l1) s0 sa /\ pair_step nsig sp t p sa = (Ok tt, sb) /\ only (others t l2) sb s1) as Hmine.
  { intros s0 s1 v E H0. apply bind_ok in H0 as (?&?&Hg&H0). apply get_ok in Hg as [-> ->]. rewrite E, El, forM_app in H0.
    apply bind_ok in H0 as (?&sa&Ha&H0). cbn [forM] in H0. apply bind_ok in H0 as ([]&sb&Hb&H0). exists sa, sb.
    pose proof (only_pairs nsig sp t l1 s0) as P1. rewrite Ha in P1. pose proof (only_pairs nsig sp t l2 sb) as P2. rewrite H0 in P2.
    split; [|split; [done|]]; (eapply only_mono; [|eassumption]); intros i a Hi; by left. }
  cbn [forM SUPPORT_TYPES] in H. apply bind_ok in H as (v1&x1&H1&H). apply bind_ok in H as (v2&x2&H2&H). apply bind_ok in H as (v3&x3&H3&H). apply ret_ok in H as [_ <-].
  destruct t.
  - apply Hmine in H1 as (sa&sb&Ha&Hb&Hc); [|done]. exists sa, sb. split_and!; try done. etrans; [exact Hc|]. etrans; [by eapply Hother|by eapply Hother].
  - pose proof (Hother _ _ _ _ H1 l1 ltac:(done)) as O1. pose proof O1 as (_&E1&_). apply Hmine in H2 as (sa&sb&Ha&Hb&Hc); [|done]. exists sa, sb. split_and!; try done.
    + by etrans.
    + etrans; [exact Hc|]. by eapply Hother.
  - pose proof (Hother _ _ _ _ H1 l1 ltac:(done)) as O1. pose proof (Hother _ _ _ _ H2 l1 ltac:(done)) as O2. pose proof O1 as (_&E1&_). pose proof O2 as (_&E2&_).
    destruct (Hmine x2 s' v3) as (sa&sb&Ha&Hb&Hc); [congruence|done|]. exists sa, sb. split_and!; try done. etrans; [exact O1|]. by etrans.
Qed.

(** Offsets drawn at the start and not separately at the end are the same at both endpoints. *)
Definition same_offsets {T} (t : stype) (p : nat * nat) (s : sc T) : Prop := attr_at s p.1 (offset_name t) = attr_at s p.2 (offset_name t).
Lemma attr_at_set {T} (s s' : sc T) i a v u : on_elem i (setattr a v) s = (Ok u, s') ->
  i < length (RING s) /\ forall j b, attr_at s' j b = if decide (j = i /\ b = a) then Some v else attr_at s j b.
Proof.
  intros H. unfold on_elem in H. destruct (RING s !! i) as [e|] eqn:E; [|discriminate]. simpl in H. injection H as _ <-.
  split; [by eapply lookup_lt_Some|]. intros j b. unfold attr_at. simpl. destruct (decide (i = j)) as [<-|Hij].
  - rewrite list_lookup_insert by (by eapply lookup_lt_Some). rewrite E. simpl. destruct (decide (i = i /\ b = a)) as [[_ ->]|Hn]; [by rewrite lookup_insert|].
    rewrite lookup_insert_ne; [done|]. intros ->. by apply Hn.
  - rewrite list_lookup_insert_ne by done. by rewrite decide_False by (intros [? _]; done).
Qed.
Definition draw_step {T} {N : Num T} (t : stype) (p : nat * nat) (nsig : T) (kv : string * sigval T) : M (sc T) unit :=
  if substring (stype_str t) kv.1 then
    let! v0 := randn_cutoff kv.2 nsig in
    on_elem p.1 (setattr kv.1 v0) ;;;
    let! s := get in
    match sSupport (SIG s) !! p.2 with
    | None => raise KeyError
    | Some d1 =>
        if decide (kv.1 ∈ dkeys d1) then
          let! v1 := randn_cutoff kv.2 nsig in on_elem p.2 (setattr kv.1 v1)
        else
          let! e0 := ring_elem p.1 in
          let! v := lift (attr e0 kv.1) in on_elem p.2 (setattr kv.1 v)
    end
  else ret tt.
Lemma support_draws_loop {T} {N : Num T} t p (nsig : T) s : support_draws t p nsig s = forM (default [] (sSupport (SIG s) !! p.1)) (draw_step t p nsig) s.
Proof. reflexivity. Qed.
(** one uncertainty [kv] of the start: the values written at start and end *)
Lemma draw_step_ok {T} {N : Num T} t p (nsig : T) kv s u s' : draw_step t p nsig kv s = (Ok u, s') ->
  substring (stype_str t) kv.1 = false /\ s' = s \/
  substring (stype_str t) kv.1 = true /\ SIG s' = SIG s /\ exists d1 v0 v1 sa sb, sSupport (SIG s) !! p.2 = Some d1 /\ randn_cutoff kv.2 nsig sa = (Ok v0, sb) /\
    ((kv.1 ∈ dkeys d1 /\ exists sc sd, randn_cutoff kv.2 nsig sc = (Ok v1, sd)) \/ (kv.1 ∉ dkeys d1 /\ v1 = v0)) /\
    p.1 < length (RING s) /\ p.2 < length (RING s) /\
    forall j b, attr_at s' j b = if decide (b = kv.1) then (if decide (j = p.2) then Some v1 else if decide (j = p.1) then Some v0 else attr_at s j b) else attr_at s j b.
Proof.
  unfold draw_step. destruct (substring (stype_str t) kv.1) eqn:Es; intros H; [right|left; split; [done|]; by apply ret_ok in H as [_ ->]].
  split; [done|]. apply bind_ok in H as (v0&s1&H1&H). apply bind_ok in H as ([]&s2&H2&H). apply bind_ok in H as (?&?&Hg&H). apply get_ok in Hg as [-> ->].
  pose proof (same_randn_cutoff (fun s : sc T => (RING s, SIG s)) (fun _ _ => eq_refl) kv.2 nsig s) as P1. rewrite H1 in P1. unfold same in P1. injection P1 as R1 G1.
  assert (length (RING s2) = length (RING s)) as L2'.
  { pose proof (pres_only_setattr (fun _ _ => True) p.1 kv.1 v0 Logic.I s1) as P2. rewrite H2 in P2. destruct P2 as (_&_&P2&_). simpl in P2. congruence. }
  assert (SIG s2 = SIG s1) as G2.
  { unfold on_elem in H2. destruct (RING s1 !! p.1); [|discriminate]. by injection H2 as <-. }
  apply attr_at_set in H2 as [L2 A2]. rewrite G2, G1 in H.
  destruct (sSupport (SIG s) !! p.2) as [d1|] eqn:Ed; [|discriminate].
  assert (forall j b, attr_at s1 j b = attr_at s j b) as A1 by (intros; unfold attr_at; by rewrite R1).
  rewrite R1 in L2.
  destruct (decide (kv.1 ∈ dkeys d1)) as [Hk|Hk].
  - apply bind_ok in H as (v1&s3&H3&H).
    pose proof (same_randn_cutoff (fun s : sc T => (RING s, SIG s)) (fun _ _ => eq_refl) kv.2 nsig s2) as P3. rewrite H3 in P3. unfold same in P3. injection P3 as R3 G3.
    assert (SIG s' = SIG s3) as G4 by (unfold on_elem in H; destruct (RING s3 !! p.2); [|discriminate]; injection H as _ <-; done).
    apply attr_at_set in H as [L4 A4]. split; [congruence|]. exists d1, v0, v1, s, s1. rewrite R3, L2' in L4. split_and!; try done; [left; split; [done|]; by exists s2, s3|].
    intros j b. rewrite A4. assert (attr_at s3 j b = attr_at s2 j b) as -> by (unfold attr_at; by rewrite R3). rewrite A2, A1.
    repeat case_decide; naive_solver.
  - apply bind_ok in H as (e0&s3&H3&H). apply ring_elem_ok in H3 as [He0 ->]. apply bind_ok in H as (v&s3&H3&H). apply lift_ok in H3 as [Hv ->]. apply attr_ok in Hv.
    assert (SIG s' = SIG s2) as G4 by (unfold on_elem in H; destruct (RING s2 !! p.2); [|discriminate]; injection H as _ <-; done).
    apply attr_at_set in H as [L4 A4]. split; [congruence|]. exists d1, v0, v0, s, s1. rewrite L2' in L4. split_and!; try done; [by right|].
    assert (v = v0) as ->.
    { specialize (A2 p.1 kv.1). rewrite decide_True in A2 by done. unfold attr_at in A2. rewrite He0 in A2. simpl in A2. congruence. }
    intros j b. rewrite A4, A2, A1. repeat case_decide; naive_solver.
Qed.
Lemma draw_loop_ok {T} {N : Num T} t p (nsig : T) l s u s' : p.1 <> p.2 -> forM l (draw_step t p nsig) s = (Ok u, s') ->
  SIG s' = SIG s /\
  (forall j b, b ∉ dkeys l -> attr_at s' j b = attr_at s j b) /\
  (forall name sg, NoDup (dkeys l) -> (name, sg) ∈ l -> substring (stype_str t) name = true ->
     exists d1 v0 v1 sa sb, sSupport (SIG s) !! p.2 = Some d1 /\ randn_cutoff sg nsig sa = (Ok v0, sb) /\
       ((name ∈ dkeys d1 /\ exists sc sd, randn_cutoff sg nsig sc = (Ok v1, sd)) \/ (name ∉ dkeys d1 /\ v1 = v0)) /\
       attr_at s' p.1 name = Some v0 /\ attr_at s' p.2 name = Some v1).
Proof.
  intros Hp. revert s. induction l as [|kv l IH]; intros s H; cbn [forM] in H.
  - apply ret_ok in H as [_ ->]. split_and!; try done. intros ? ? _ Hin. inversion Hin.
  - apply bind_ok in H as ([]&s1&H1&H2). apply IH in H2 as (G2&K2&D2). apply draw_step_ok in H1 as [[Es ->]|(Es&G1&d1&v0&v1&sa&sb&E1&Hr&Hv&_&_&A1)].
    + split_and!; try done.
      * intros j b Hb. apply K2. intros Hin. apply Hb. by right.
      * intros name sg Hnd Hin Hs. apply elem_of_cons in Hin as [<-|Hin]; [simpl in Es; congruence|]. inversion Hnd; subst. eauto.
    + split_and!; [congruence| |].
      * intros j b Hb. unfold dkeys in Hb. simpl in Hb. apply not_elem_of_cons in Hb as [Hb1 Hb2]. rewrite K2 by done. rewrite A1, decide_False by done. done.
      * intros name sg Hnd Hin Hs. inversion Hnd as [|? ? Hk Hnd']; subst. apply elem_of_cons in Hin as [<-|Hin].
        -- exists d1, v0, v1, sa, sb. simpl in *. split_and!; try done.
           ++ rewrite K2 by done. rewrite A1. rewrite decide_True by done. rewrite decide_False by done. by rewrite decide_True.
           ++ rewrite K2 by done. rewrite A1. rewrite decide_True by done. by rewrite decide_True.
        -- rewrite G1 in D2. eauto.
Qed.

(** The whole step for one support. *)
Lemma vec_entry (s : sc R) i a l k : attr_at s i a = Some (VVec l) -> Spec.entry s i a k = l !! k.
Proof. intros H. unfold Spec.entry. by rewrite H. Qed.
Lemma offset_roll_ne t : roll_name t <> offset_name t.
Proof. by destruct t. Qed.
Lemma set_three {T} (s s' : sc T) p t r a b u : p.1 <> p.2 ->
  (on_elem p.1 (setattr (stype_str t +:+ "Roll") r) ;;; on_elem p.1 (setattr (stype_str t +:+ "Offset") a) ;;; on_elem p.2 (setattr (stype_str t +:+ "Offset") b)) s = (Ok u, s') ->
  attr_at s' p.1 (roll_name t) = Some r /\ attr_at s' p.1 (offset_name t) = Some a /\ attr_at s' p.2 (offset_name t) = Some b.
Proof.
  intros Hp H. apply bind_ok in H as (?&s1&H1&H). apply bind_ok in H as (?&s2&H2&H3). apply attr_at_set in H1 as [_ A1], H2 as [_ A2], H3 as [_ A3].
  pose proof (offset_roll_ne t) as Hn. unfold roll_name, offset_name in *. split_and!; rewrite A3.
  - rewrite decide_False by tauto. rewrite A2, decide_False by tauto. by rewrite A1, decide_True.
  - rewrite decide_False by tauto. by rewrite A2, decide_True.
  - by rewrite decide_True.
Qed.
(** angles and offsets before and after *)
Definition angle_spec (ho : bool) (len : R) (s s' : sc R) (t : stype) (p : nat * nat) : Prop :=
  forall rollidx comp, angle_component rollidx comp ->
    exists r a b r' a' b',
      Spec.entry s p.1 (roll_name t) rollidx = Some r /\ Spec.entry s p.1 (offset_name t) comp = Some a /\ Spec.entry s p.2 (offset_name t) comp = Some b /\
      Spec.entry s' p.1 (roll_name t) rollidx = Some r' /\ Spec.entry s' p.1 (offset_name t) comp = Some a' /\ Spec.entry s' p.2 (offset_name t) comp = Some b' /\
      (a' + b' = a + b)%R /\
      ((r <> 0%R /\ ho = false /\ r' = r /\ (b' - a' = b - a + r * len)%R) \/ (r = 0%R /\ a' = a /\ b' = b /\ r' = ((b - a) / len)%R)).
Lemma angles_ok sp t p (s s' : sc R) u len : p.1 <> p.2 -> (len <> 0)%R ->
  (forall s1 s2, sp !! p.1 = Some s1 -> sp !! p.2 = Some s2 -> default n0 (last sp) <> 0%R -> nrem (nsub s2 s1) (default n0 (last sp)) = len) ->
  support_angles sp t p s = (Ok u, s') ->
  exists d1, sSupport (SIG s) !! p.2 = Some d1 /\ angle_spec (bool_decide (offset_name t ∈ dkeys d1)) len s s' t p.
Proof.
  intros Hp Hl Hlen H. unfold support_angles in H.
  apply bind_ok in H as (x1&?&H1&H). apply lift_ok in H1 as [H1 ->]. apply idx_ok in H1.
  apply bind_ok in H as (x2&?&H2&H). apply lift_ok in H2 as [H2 ->]. apply idx_ok in H2.
  apply bind_ok in H as (len'&?&H3&H). apply lift_ok in H3 as [H3 ->]. specialize (Hlen _ _ H1 H2).
  destruct (neqb (default n0 (last sp)) n0) eqn:EC; [discriminate|]. assert (len' = len) as -> by (rewrite <- Hlen; [by injection H3|by apply Reqb_false]). clear Hlen EC H3.
  apply bind_ok in H as (e0&?&He0&H). apply ring_elem_ok in He0 as [He0 ->].
  apply bind_ok in H as (e1&?&He1&H). apply ring_elem_ok in He1 as [He1 ->].
  apply bind_ok in H as (rolls&?&H3&H). apply lift_ok in H3 as [H3 ->]. apply attr_vec_ok in H3.
  apply bind_ok in H as (off0&?&H4&H). apply lift_ok in H4 as [H4 ->]. apply attr_vec_ok in H4.
  apply bind_ok in H as (off1&?&H5&H). apply lift_ok in H5 as [H5 ->]. apply attr_vec_ok in H5.
  apply bind_ok in H as (?&?&Hg&H). apply get_ok in Hg as [-> ->].
  apply bind_ok in H as (d1&?&H6&H). apply lift_ok in H6 as [H6 ->]. destruct (sSupport (SIG s) !! p.2) as [d|] eqn:Ed; [|discriminate]. injection H6 as ->.
  exists d1. split; [done|]. fold (offset_name t) in H. set (ho := bool_decide _) in *.
  apply bind_ok in H as (y1&?&H6&H). apply lift_ok in H6 as [H6 ->].
  apply bind_ok in H as (y2&?&H7&H). apply lift_ok in H7 as [H7 ->].
  destruct y1 as [[rolls1 off01] off11], y2 as [[rolls2 off02] off12].
  apply one_angle_ok in H6 as (r&a&b&r'&a'&b'&Hr&Ha&Hb&->&->&->&Hs&Hc); [|done].
  apply one_angle_ok in H7 as (q&c&d&q'&c'&d'&Hq&Hcc&Hd&->&->&->&Hs2&Hc2); [|done].
  apply set_three in H as (W1&W2&W3); [|done].
  assert (attr_at s p.1 (roll_name t) = Some (VVec rolls)) as B1 by (unfold attr_at; rewrite He0; exact H3).
  assert (attr_at s p.1 (offset_name t) = Some (VVec off0)) as B2 by (unfold attr_at; rewrite He0; exact H4).
  assert (attr_at s p.2 (offset_name t) = Some (VVec off1)) as B3 by (unfold attr_at; rewrite He1; exact H5).
  assert (1 < length off0 /\ 1 < length off1 /\ 1 < length rolls) as (L0&L1&L2) by (split_and!; by eapply lookup_lt_Some).
  rewrite !list_lookup_insert_ne in Hq, Hcc, Hd by done.
  assert (0 < length off0 /\ 0 < length off1 /\ 2 < length rolls) as (L3&L4&L5) by (split_and!; by eapply lookup_lt_Some).
  intros ri co [[-> ->]|[-> ->]].
  - exists r, a, b, r', a', b'. rewrite (vec_entry _ _ _ _ _ B1), (vec_entry _ _ _ _ _ B2), (vec_entry _ _ _ _ _ B3), (vec_entry _ _ _ _ _ W1), (vec_entry _ _ _ _ _ W2), (vec_entry _ _ _ _ _ W3).
    rewrite !(list_lookup_insert_ne _ 2 1), !(list_lookup_insert_ne _ 0 1), !list_lookup_insert by (done || lia). done.
  - exists q, c, d, q', c', d'. rewrite (vec_entry _ _ _ _ _ B1), (vec_entry _ _ _ _ _ B2), (vec_entry _ _ _ _ _ B3), (vec_entry _ _ _ _ _ W1), (vec_entry _ _ _ _ _ W2), (vec_entry _ _ _ _ _ W3).
    rewrite !list_lookup_insert by (rewrite insert_length; lia). done.
Qed.

(** * C30 *)
(** no other support of this type has an endpoint in common with [p] *)
Definition isolated {T} (s : sc T) (t : stype) (p : nat * nat) : Prop :=
  forall q, q ∈ oSupport t (ORD s) -> q <> p -> q.1 <> p.1 /\ q.1 <> p.2 /\ q.2 <> p.1 /\ q.2 <> p.2.
Lemma type_names t t' x : t' <> t -> x ∈ ["Offset"; "Roll"] -> substring (stype_str t') (stype_str t +:+ x) = false.
Proof. intros Hne Hx. apply elem_of_cons in Hx as [->|Hx]; [|apply elem_of_cons in Hx as [->|Hx]; [|inversion Hx]]; destruct t, t'; done. Qed.
Lemma others_keep {T} (s0 s s' : sc T) t p l i x : isolated s0 t p -> (forall q, q ∈ l -> q ∈ oSupport t (ORD s0)) -> p ∉ l -> only (others t l) s s' ->
  i = p.1 \/ i = p.2 -> x ∈ ["Offset"; "Roll"] -> attr_at s' i (stype_str t +:+ x) = attr_at s i (stype_str t +:+ x).
Proof.
  intros Hiso Hl Hp (_&_&_&HO) Hi Hx. apply HO. intros [(q&Hq&Hqi&_)|(t'&Hne&Hs)].
  - assert (q <> p) as Hqp by (intros ->; done). destruct (Hiso q (Hl q Hq) Hqp) as (?&?&?&?). destruct Hi as [-> | ->], Hqi; congruence.
  - rewrite type_names in Hs by done. discriminate.
Qed.
Lemma length_kept {T} {N : Num T} nsig (s : sc T) i : attr_at (snd (apply_support_alignment_error nsig s)) i "Length" = attr_at s i "Length".
Proof.
  pose proof (upto_support_alignment support_name nsig (fun _ H => H) s) as [_ H]. apply H. intros [t Ht]. destruct t; discriminate.
Qed.
Lemma position_ext (s s' : sc R) i : (forall j, attr_at s' j "Length" = attr_at s j "Length") -> position s' i = position s i.
Proof. intros H. unfold position. apply sum_over_ext. intros j _. unfold length_at, number. by rewrite H. Qed.
Lemma total_ext (s s' : sc R) : length (RING s') = length (RING s) -> (forall j, attr_at s' j "Length" = attr_at s j "Length") -> total_length s' = total_length s.
Proof. intros HL H. unfold total_length, positions. rewrite HL. apply sum_over_ext. intros j _. unfold length_at, number. by rewrite H. Qed.

Lemma alignment_len {T} {N : Num T} nsig (s : sc T) : length (RING (snd (apply_support_alignment_error nsig s))) = length (RING s).
Proof. by pose proof (upto_support_alignment support_name nsig (fun _ H => H) s) as [H _]. Qed.

Lemma angles_range {T} {N : Num T} sp t p (s s' : sc T) u : support_angles sp t p s = (Ok u, s') -> p.1 < length (RING s) /\ p.2 < length (RING s).
Proof.
  intros H. unfold support_angles in H. do 3 (apply bind_ok in H as (?&?&H1&H); apply lift_ok in H1 as [_ ->]).
  apply bind_ok in H as (?&?&Ha&H). apply ring_elem_ok in Ha as [Ha ->]. apply bind_ok in H as (?&?&Hb&H). apply ring_elem_ok in Hb as [Hb ->]. split; by eapply lookup_lt_Some.
Qed.
(** everything about one isolated support after the stage *)
Lemma support_stage nsig (s s' : sc R) u t p d0 len : apply_support_alignment_error nsig s = (Ok u, s') ->
  p ∈ oSupport t (ORD s) -> NoDup (oSupport t (ORD s)) -> isolated s t p -> sSupport (SIG s) !! p.1 = Some d0 ->
  (0 < total_length s)%R -> is_modulo (position s p.2 - position s p.1) (total_length s) len -> len <> 0%R ->
  exists s1 s2 d1, p.1 <> p.2 /\ sSupport (SIG s) !! p.2 = Some d1 /\ SIG s1 = SIG s /\
    (forall i x, i = p.1 \/ i = p.2 -> x ∈ ["Offset"; "Roll"] -> attr_at s1 i (stype_str t +:+ x) = attr_at s i (stype_str t +:+ x)) /\
    forM d0 (draw_step t p nsig) s1 = (Ok tt, s2) /\ angle_spec (bool_decide (offset_name t ∈ dkeys d1)) len s2 s' t p.
Proof.
  intros H Hp Hnd Hiso Hd0 HC Hm Hl.
  assert (p.1 <> p.2) as Hne.
  { intros E. apply Hl. eapply modulo_unique; [exact Hm|]. rewrite E, Rminus_diag_eq by done. split; [lra|]. exists 0%Z. ring. }
  destruct (alignment_ok _ _ _ _ _ _ H Hp) as (l1&l2&s1&s2&El&Hn2&O1&Hstep&O2).
  assert (p ∉ l1) as Hn1.
  { rewrite El in Hnd. apply NoDup_app in Hnd as (_&Hd&_). intros Hin. apply (Hd p Hin). left. }
  assert (forall q, q ∈ l1 -> q ∈ oSupport t (ORD s)) as I1 by (rewrite El; set_solver).
  assert (forall q, q ∈ l2 -> q ∈ oSupport t (ORD s)) as I2 by (rewrite El; set_solver).
  pose proof O1 as (G1&_&_&_). unfold pair_step in Hstep. apply bind_ok in Hstep as (?&?&Hg&Hstep). apply get_ok in Hg as [-> ->].
  unfold dict in *. rewrite G1, Hd0 in Hstep. cbn [isSome] in Hstep. apply bind_ok in Hstep as ([]&s3&Hdraw&Hang). rewrite support_draws_loop in Hdraw. unfold dict in *. rewrite G1, Hd0 in Hdraw. cbn [default from_option] in Hdraw. change (Datatypes.id d0) with d0 in Hdraw.
  pose proof (draw_loop_ok _ _ _ _ _ _ _ Hne Hdraw) as (G3&_&_).
  assert (forall i, i <= length (RING s) -> i = p.1 \/ i = p.2 -> spos (RING s) !! i = Some (position s i)) as Hsp by (intros; by apply spos_position).
  assert (p.1 < length (RING s) /\ p.2 < length (RING s)) as [L1 L2].
  { apply angles_range in Hang. pose proof (only_draws t p nsig s1) as P. rewrite support_draws_loop in P. unfold dict in *. rewrite G1, Hd0 in P. cbn [default from_option] in P.
    change (Datatypes.id d0) with d0 in P. rewrite Hdraw in P. destruct P as (_&_&P&_). destruct O1 as (_&_&P1&_). simpl in P. rewrite <- P1, <- P. done. }
  destruct (angles_ok (spos (RING s)) t p s3 s2 tt len Hne Hl) as (d1&Hd1&Ha); [|exact Hang|].
  { intros x1 x2 Hx1 Hx2 _. rewrite Hsp in Hx1 by (auto || lia). rewrite Hsp in Hx2 by (auto || lia). injection Hx1 as <-. injection Hx2 as <-. rewrite spos_last.
    eapply modulo_unique; [|exact Hm]. apply nrem_modulo. done. }
  exists s1, s3, d1. rewrite G3, G1 in Hd1. split_and!; try done.
  - intros i x Hi Hx. apply (others_keep s s s1 t p l1); done.
  - assert (forall i x k, i = p.1 \/ i = p.2 -> x ∈ ["Offset"; "Roll"] -> Spec.entry s' i (stype_str t +:+ x) k = Spec.entry s2 i (stype_str t +:+ x) k) as K2.
    { intros i x k Hi Hx. unfold Spec.entry. by rewrite (others_keep s s2 s' t p l2). }
    intros ri co Hrc. destruct (Ha ri co Hrc) as (r&a&b&r'&a'&b'&E1&E2&E3&E4&E5&E6&Hrest). exists r, a, b, r', a', b'.
    unfold roll_name, offset_name in *. rewrite !K2 by (auto; set_solver). auto 10.
Qed.

(** After the supports have been displaced, angles and endpoint offsets agree - if the offset has an uncertainty at the
    start, or the endpoints had equal offsets before. *)
Lemma consistent_stage nsig (s s' : sc R) u t p d0 len : apply_support_alignment_error nsig s = (Ok u, s') ->
  p ∈ oSupport t (ORD s) -> NoDup (oSupport t (ORD s)) -> isolated s t p -> sSupport (SIG s) !! p.1 = Some d0 -> NoDup (dkeys d0) ->
  offset_name t ∈ dkeys d0 \/ same_offsets t p s ->
  (0 < total_length s)%R -> is_modulo (position s p.2 - position s p.1) (total_length s) len -> len <> 0%R ->
  consistent s' t p len.
Proof.
  intros H Hp Hnd Hiso Hd0 Hnk Hoff HC Hm Hl. destruct (support_stage _ _ _ _ _ _ _ _ H Hp Hnd Hiso Hd0 HC Hm Hl) as (s1&s2&d1&Hne&Hd1&G1&K1&Hdraw&Ha).
  destruct (draw_loop_ok _ _ _ _ _ _ _ Hne Hdraw) as (_&K2&D2).
  intros ri co Hrc. destruct (Ha ri co Hrc) as (r&a&b&r'&a'&b'&E1&E2&E3&E4&E5&E6&_&[(Hr&Ho&->&Hd)|(_&->&->&->)]); [|eauto 10].
  exists r, a', b'. split_and!; try done. apply bool_decide_eq_false in Ho.
  assert (attr_at s2 p.1 (offset_name t) = attr_at s2 p.2 (offset_name t)) as E.
  { destruct (decide (offset_name t ∈ dkeys d0)) as [Hin|Hni].
    - unfold dkeys in Hin. apply elem_of_list_fmap in Hin as ([k sg]&Ek&Hin). simpl in Ek. subst k.
      destruct (D2 _ _ Hnk Hin ltac:(apply stype_sub)) as (dd&v0&v1&sa&sb&Hdd&_&Hv&A1&A2). rewrite G1 in Hdd. unfold dict in *. rewrite Hd1 in Hdd. injection Hdd as <-.
      destruct Hv as [[Hk _]|[_ ->]]; [done|]. congruence.
    - destruct Hoff as [?|Hoff]; [done|]. rewrite !K2 by done. unfold same_offsets, offset_name in *. rewrite !K1; [done|by right|set_solver|by left|set_solver]. }
  assert (a = b) as -> by (unfold Spec.entry in E2, E3; rewrite E in E2; congruence).
  replace (b' - a')%R with (r * len)%R by lra. field. done.
Qed.
Theorem C30_support_stage nsig (s s' : sc R) u t p d0 len : apply_support_alignment_error nsig s = (Ok u, s') ->
  p ∈ oSupport t (ORD s) -> NoDup (oSupport t (ORD s)) -> isolated s t p -> sSupport (SIG s) !! p.1 = Some d0 -> NoDup (dkeys d0) ->
  offset_name t ∈ dkeys d0 \/ same_offsets t p s ->
  (0 < total_length s')%R -> is_modulo (position s' p.2 - position s' p.1) (total_length s') len -> len <> 0%R ->
  consistent s' t p len.
Proof.
  intros H Hp Hnd Hiso Hd0 Hnk Hoff. pose proof (length_kept nsig s) as HK. pose proof (alignment_len nsig s) as HL. rewrite H in HK, HL. simpl in HK, HL.
  rewrite (total_ext s s' HL HK), !(position_ext s s') by done. intros. by eapply consistent_stage.
Qed.
(** Giving a nonzero angle keeps the mean of the endpoint offsets and the angle; without angle the offsets stay. *)
Theorem C30_angles sp t p (s s' : sc R) u len : p.1 <> p.2 -> (len <> 0)%R -> (0 < default 0%R (last sp))%R ->
  (forall x1 x2, sp !! p.1 = Some x1 -> sp !! p.2 = Some x2 -> is_modulo (x2 - x1) (default 0%R (last sp)) len) ->
  support_angles sp t p s = (Ok u, s') ->
  exists d1, sSupport (SIG s) !! p.2 = Some d1 /\ angle_spec (bool_decide (offset_name t ∈ dkeys d1)) len s s' t p.
Proof.
  intros Hne Hl HC Hm H. apply (angles_ok sp t p s s' u len); try done. intros x1 x2 H1 H2 _. eapply modulo_unique; [|by apply Hm]. by apply nrem_modulo.
Qed.
(** The same for apply_errors as a whole. *)
Lemma errors_tail {T} {N : Num T} {Tr : Trig T} minv nsig (s s' : sc T) u : well_registered s -> apply_errors minv nsig s = (Ok u, s') ->
  exists s1 s2, SIG s1 = SIG s /\ ORD s1 = ORD s /\ (forall i t x, x ∈ ["Offset"; "Roll"] -> attr_at s1 i (stype_str t +:+ x) = attr_at s i (stype_str t +:+ x)) /\
    apply_support_alignment_error nsig s1 = (Ok tt, s2) /\
    length (RING s') = length (RING s2) /\
    forall i a, a = "Length" \/ (exists t x, x ∈ ["Offset"; "Roll"] /\ a = stype_str t +:+ x) -> attr_at s' i a = attr_at s2 i a.
Proof.
  intros (B1&B2&F1&F2&M1&M2) H. apply apply_errors_ok in H as (x1&x2&x3&H1&H2&H3&H4).
  unfold tail_of_errors in H4. apply bind_ok in H4 as (?&x4&H4&H). apply bind_ok in H as (?&x5&H5&H). apply bind_ok in H as ([]&x6&H6&H).
  assert (forall P (m : M (sc T) unit) a b v, pres (@upto T P) m -> m a = (Ok v, b) -> upto P a b) as PU.
  { intros P m a b v Hm E. specialize (Hm a). by rewrite E in Hm. }
  assert (forall (m : M (sc T) unit) a b v, pres (same (@os T)) m -> m a = (Ok v, b) -> ORD b = ORD a /\ SIG b = SIG a) as PS.
  { intros m a b v Hm E. specialize (Hm a). rewrite E in Hm. unfold same, os in Hm. simpl in Hm. by injection Hm as -> ->. }
  assert (forall t x, x ∈ ["Offset"; "Roll"] -> forall k, k ∈ BPM_ERROR_FIELDS ++ RF_ERROR_FIELDS ++ map magnet_error_name MAGNET_ERROR_FIELDS ++ ["Length"] ++ ALIGN_FIELDS ++ DERIVED ++ CAVITY_FIELDS -> stype_str t +:+ x <> k) as Hdis.
  { intros t xx Hx k Hk E. subst k. apply elem_of_cons in Hx as [->|Hx]; [|apply elem_of_cons in Hx as [->|Hx]; [|inversion Hx]];
      destruct t; match type of Hk with ?g => apply (bool_decide_eq_true_2 g) in Hk; vm_compute in Hk; discriminate end. }
  assert (forall v, pres (same (@RING T)) (randn_cutoff v nsig)) as PR by (intros; by apply same_randn_cutoff).
  assert (forall v, pres (same (@os T)) (randn_cutoff v nsig)) as PO by (intros; by apply same_randn_cutoff).
  rewrite apply_rf_loop in H1. apply (err_loop_ok os _ _ RF_ERROR_FIELDS) in H1 as (U1&O1&_); try done. unfold os in O1. injection O1 as OO1 OS1.
  rewrite apply_bpm_loop, OO1, OS1 in H2. apply (err_loop_ok os _ _ BPM_ERROR_FIELDS) in H2 as (U2&O2&_); try done;
    [|intros [??]; unfold bpm_body; repeat pres_step; apply PR|intros [??]; unfold bpm_body; repeat pres_step; apply PO].
  unfold os in O2. injection O2 as OO2 OS2.
  rewrite apply_magnet_loop, OO2, OS2, OO1, OS1 in H3. apply (err_loop_ok os _ _ MAGNET_ERROR_FIELDS) in H3 as (U3&O3&_); try done; [|apply magnet_error_name_inj].
  unfold os in O3. injection O3 as OO3 OS3.
  assert (pres (same (@os T)) (apply_injection nsig)) as PI.
  { unfold apply_injection, mod_INJ. repeat first [pres_step|apply same_randnc; done|apply pres_modify; done]. }
  destruct (PS _ _ _ _ PI H4) as [OO4 OS4].
  pose proof (PU _ _ _ _ _ (upto_injection (fun _ => False) nsig) H4) as U4.
  assert (pres (same (@os T)) (apply_circumference nsig)) as PC.
  { unfold apply_circumference, randnc1. repeat first [pres_step|apply same_randnc; done|apply same_scale_circumference; done]. }
  destruct (PS _ _ _ _ PC H5) as [OO5 OS5].
  assert (pres (upto (eq "Length")) (apply_circumference nsig)) as PL.
  { unfold apply_circumference, randnc1. repeat first [pres_step|apply upto_scale_circumference; done|apply pres_upto_same, same_randnc; done]. }
  pose proof (PU _ _ _ _ _ PL H5) as U5.
  assert (upto (fun a => a ∈ ALIGN_FIELDS ++ DERIVED ++ CAVITY_FIELDS) x6 s') as U6.
  { eapply PU; [|exact H]. unfold update_magnets_all, update_cavities_all.
    repeat first [ pres_step | apply upto_update_supports; intros; rewrite !elem_of_app; tauto | apply upto_update_magnets; intros; rewrite !elem_of_app; tauto | apply upto_update_cavities; intros; rewrite !elem_of_app; tauto ]. }
  exists x5, x6. split_and!; [congruence|congruence| |done| |].
  - intros i t xx Hx. destruct U1 as [_ U1], U2 as [_ U2], U3 as [_ U3], U4 as [_ U4], U5 as [_ U5].
    rewrite U5, U4, U3, U2, U1; [done|..]; try tauto.
    + intros (k&Hk&E). by apply (Hdis t xx Hx k); [rewrite !elem_of_app, elem_of_list_singleton; tauto|].
    + intros (k&Hk&E). by apply (Hdis t xx Hx k); [rewrite !elem_of_app, elem_of_list_singleton; tauto|].
    + intros (k&Hk&E). apply (Hdis t xx Hx (magnet_field k)); [|done]. rewrite !elem_of_app. right. right. left. apply elem_of_list_fmap. by exists k.
    + intros E. by apply (Hdis t xx Hx "Length"); [rewrite !elem_of_app, elem_of_list_singleton; tauto|].
  - by apply (proj1 U6).
  - intros i a Ha. apply (proj2 U6). destruct Ha as [->|(t&xx&Hx&->)].
    + intros Hin. match type of Hin with ?g => apply (bool_decide_eq_true_2 g) in Hin; vm_compute in Hin; discriminate end.
    + intros Hin. apply (Hdis t xx Hx (stype_str t +:+ xx)); [|done]. rewrite !elem_of_app in *. tauto.
Qed.
Theorem C30_consistent minv nsig (s s' : sc R) u t p d0 len : well_registered s -> apply_errors minv nsig s = (Ok u, s') ->
  p ∈ oSupport t (ORD s) -> NoDup (oSupport t (ORD s)) -> isolated s t p -> sSupport (SIG s) !! p.1 = Some d0 -> NoDup (dkeys d0) ->
  offset_name t ∈ dkeys d0 \/ same_offsets t p s ->
  (0 < total_length s')%R -> is_modulo (position s' p.2 - position s' p.1) (total_length s') len -> len <> 0%R ->
  consistent s' t p len.
Proof.
  intros Hw H Hp Hnd Hiso Hd0 Hnk Hoff HC Hm Hl. destruct (errors_tail minv nsig s s' u Hw H) as (s1&s2&G1&O1&K1&Ha&L2&K2).
  assert (forall j, attr_at s' j "Length" = attr_at s2 j "Length") as HK by (intros; apply K2; by left).
  rewrite (total_ext s2 s' L2 HK), !(position_ext s2 s') in Hm by done. rewrite (total_ext s2 s' L2 HK) in HC.
  assert (consistent s2 t p len) as HCo.
  { eapply C30_support_stage; [exact Ha|..]; try done.
    - by rewrite O1.
    - by rewrite O1.
    - intros q Hq. rewrite O1 in Hq. by apply Hiso.
    - unfold dict in *. by rewrite G1.
    - destruct Hoff as [?|Hoff]; [by left|right]. unfold same_offsets, offset_name in *. rewrite !K1; [done|set_solver|set_solver]. }
  assert (forall i x k, x ∈ ["Offset"; "Roll"] -> Spec.entry s' i (stype_str t +:+ x) k = Spec.entry s2 i (stype_str t +:+ x) k) as K3.
  { intros i x k Hx. unfold Spec.entry. rewrite K2; [done|]. right. eauto. }
  intros ri co Hrc. destruct (HCo ri co Hrc) as (r&a&b&E). exists r, a, b. unfold roll_name, offset_name in *. rewrite !K3 by set_solver. done.
Qed.

(** * C31 *)
Lemma dget_none {A} (d : dict A) k : dget d k = None -> k ∉ dkeys d.
Proof.
  induction d as [|[k0 v0] d IH]; unfold dkeys; simpl; [intros _ H; inversion H|]. destruct (decide (k = k0)) as [->|Hne]; [discriminate|].
  intros H. apply not_elem_of_cons. split; [done|]. by apply IH.
Qed.
(** component of an uncertainty, and its cut-off *)
Definition sigma_component (sg : sigval R) (k : nat) : option R := match sg with SPlain (VVec l) | SCut (VVec l) _ => l !! k | _ => None end.
Definition cut_of (nsig : R) (sg : sigval R) : R := match sg with SPlain _ => nsig | SCut _ c => c end.
Lemma bounded_component nsig sg l k a : error_bounded nsig sg (VVec l) -> l !! k = Some a ->
  exists sigma, sigma_component sg k = Some sigma /\ (Rabs a <= Rabs sigma * Rabs (cut_of nsig sg))%R.
Proof.
  intros Hb Ha. destruct sg as [v|v c]; destruct v; simpl in *; try done; (eapply Forall2_lookup_r in Hb as (x&Hx&Hb); [|exact Ha]); eauto.
Qed.
(** Both endpoints have an offset uncertainty: also the offset of the END is bounded by the uncertainty of the START. *)
Theorem C31_end_uses_start_sigma nsig (s s' : sc R) u t p d0 d1 sg0 sg1 len comp : apply_support_alignment_error nsig s = (Ok u, s') ->
  p ∈ oSupport t (ORD s) -> NoDup (oSupport t (ORD s)) -> isolated s t p ->
  sSupport (SIG s) !! p.1 = Some d0 -> NoDup (dkeys d0) -> sSupport (SIG s) !! p.2 = Some d1 ->
  (offset_name t, sg0) ∈ d0 -> (offset_name t, sg1) ∈ d1 ->
  (0 < total_length s)%R -> is_modulo (position s p.2 - position s p.1) (total_length s) len -> len <> 0%R ->
  comp = 0%nat \/ comp = 1%nat -> 
  exists sigma a b, sigma_component sg0 comp = Some sigma /\
    Spec.entry s' p.1 (offset_name t) comp = Some a /\ (Rabs a <= Rabs sigma * Rabs (cut_of nsig sg0))%R /\
    Spec.entry s' p.2 (offset_name t) comp = Some b /\ (Rabs b <= Rabs sigma * Rabs (cut_of nsig sg0))%R.
Proof.
  intros H Hp Hnd Hiso Hd0 Hnk Hd1 Hs0 Hs1 HC Hm Hl Hc.
  destruct (support_stage _ _ _ _ _ _ _ _ H Hp Hnd Hiso Hd0 HC Hm Hl) as (s1&s2&d1'&Hne&Hd1'&G1&K1&Hdraw&Ha). unfold dict in *. rewrite Hd1 in Hd1'. injection Hd1' as <-.
  destruct (draw_loop_ok _ _ _ _ _ _ _ Hne Hdraw) as (_&K2&D2). destruct (D2 _ _ Hnk Hs0 ltac:(apply stype_sub)) as (dd&v0&v1&sa&sb&Hdd&Hr0&Hv&A1&A2).
  unfold dict in *. rewrite G1, Hd1 in Hdd. injection Hdd as <-.
  assert (offset_name t ∈ dkeys d1) as Hin by (unfold dkeys; apply elem_of_list_fmap; by exists (offset_name t, sg1)).
  destruct Hv as [[_ (sc&sd&Hr1)]|[Hn _]]; [|done]. apply randn_cutoff_bound in Hr0, Hr1.
  assert (exists ri, angle_component ri comp) as [ri Hri] by (destruct Hc as [-> | ->]; [exists 2%nat; by right|exists 1%nat; by left]).
  destruct (Ha ri comp Hri) as (r&a&b&r'&a'&b'&E1&E2&E3&E4&E5&E6&_&[(_&Ho&_)|(_&->&->&_)]).
  { apply bool_decide_eq_false in Ho. done. }
  unfold Spec.entry in E2, E3. rewrite A1 in E2. rewrite A2 in E3. destruct v0 as [|l0| | | | | | | | |]; try discriminate. destruct v1 as [|l1| | | | | | | | |]; try discriminate.
  destruct (bounded_component _ _ _ _ _ Hr0 E2) as (x&Hx&Bx). destruct (bounded_component _ _ _ _ _ Hr1 E3) as (y&Hy&By).
  rewrite Hx in Hy. injection Hy as <-. eauto 10.
Qed.
(** The value of the end's uncertainty has no influence at all: only its presence counts. *)
Definition value_blind {T A} (g : sig T) (m : M (sc T) A) : Prop := forall s, m (set_SIG g s) = (fst (m s), set_SIG g (snd (m s))).
Section Blind.
  Context {T : Type} {N : Num T} (g : sig T).
  Lemma blind_ret {A} (a : A) : value_blind g (ret a). Proof. done. Qed.
  Lemma blind_raise {A} e : value_blind g (@raise (sc T) A e). Proof. done. Qed.
  Lemma blind_lift {A} (r : res A) : value_blind g (lift r). Proof. done. Qed.
  Lemma blind_bind {A B} (m : M (sc T) A) (f : A -> M (sc T) B) : value_blind g m -> (forall a, value_blind g (f a)) -> value_blind g (bind m f).
  Proof. intros Hm Hf s. unfold bind. rewrite Hm. destruct (m s) as [[a|e] s1]; simpl; [apply Hf|done]. Qed.
  Lemma blind_on_elem {A} i (m : M (elem T) A) : value_blind g (on_elem i m).
  Proof. intros s. unfold on_elem. simpl. destruct (RING s !! i) as [ee|]; [|done]. by destruct (m ee). Qed.
  Lemma blind_ring_elem i : value_blind g (ring_elem i).
  Proof. intros s. unfold ring_elem, gets, bind, lift, get. simpl. by destruct (idx (RING s) i). Qed.
  Lemma blind_draw n : value_blind g (draw (T:=T) n).
  Proof. intros s. unfold draw. simpl. by destruct (length (RNG s) <? n)%nat. Qed.
  Lemma blind_loop fuel cut out : value_blind g (randnc_loop fuel cut out).
  Proof.
    revert out. induction fuel as [|fuel IH]; intros out; simpl; destruct (_ =? 0)%nat; try apply blind_ret; [apply blind_raise|].
    apply blind_bind; [apply blind_draw|]. intros. apply IH.
  Qed.
  Lemma blind_randnc cut n : value_blind g (randnc cut n).
  Proof.
    intros s. unfold randnc. rewrite !(run_eq (draw n)), blind_draw. destruct (draw n s) as [[out|e] s1]; cbn [fst snd]; [|done].
    rewrite !run_eq. cbn [get fst snd RNG set_SIG]. apply blind_loop.
  Qed.
  Lemma blind_randnc1 cut : value_blind g (randnc1 cut).
  Proof. apply blind_bind; [apply blind_randnc|]. intros. apply blind_lift. Qed.
  Lemma blind_randn v cut : value_blind g (randn_cutoff v cut).
  Proof.
    assert (forall x c, value_blind g (scaled_draw x c)) as H.
    { intros x c. unfold scaled_draw. destruct x as [x|[|y l]|rows| | | | | | | |]; try apply blind_raise;
        (apply blind_bind; [apply blind_randnc1 || apply blind_randnc|]; intros; apply blind_ret). }
    destruct v; apply H.
  Qed.
  Lemma blind_draw_step t p (nsig : T) kv s : dkeys <$> (sSupport g !! p.2) = dkeys <$> (sSupport (SIG s) !! p.2) ->
    draw_step t p nsig kv (set_SIG g s) = (fst (draw_step t p nsig kv s), set_SIG g (snd (draw_step t p nsig kv s))).
  Proof.
    intros Hk. unfold draw_step. destruct (substring (stype_str t) kv.1); [|done]. rewrite !(run_eq (randn_cutoff kv.2 nsig)), blind_randn.
    pose proof (same_randn_cutoff (fun s : sc T => (RING s, SIG s)) (fun _ _ => eq_refl) kv.2 nsig s) as P1. unfold same in P1.
    destruct (randn_cutoff kv.2 nsig s) as [[v0|e] s1]; cbn [fst snd] in *; [|done]. injection P1 as R1 G1.
    rewrite !(run_eq (on_elem p.1 (setattr kv.1 v0))), blind_on_elem.
    assert (SIG (snd (on_elem p.1 (setattr kv.1 v0) s1)) = SIG s1) as G2 by (unfold on_elem; by destruct (RING s1 !! p.1)).
    destruct (on_elem p.1 (setattr kv.1 v0) s1) as [[[]|e] s2]; cbn [fst snd] in *; [|done].
    rewrite !(run_eq get). cbn [get SIG set_SIG]. rewrite G2, G1.
    destruct (sSupport g !! p.2) as [da|], (sSupport (SIG s) !! p.2) as [db|]; simpl in Hk; try discriminate; [|done]. injection Hk as Hk. rewrite Hk.
    destruct (decide (kv.1 ∈ dkeys db)).
    - apply (blind_bind (randn_cutoff kv.2 nsig)); [apply blind_randn|]. intros. apply blind_on_elem.
    - apply (blind_bind (ring_elem p.1)); [apply blind_ring_elem|]. intros. apply blind_bind; [apply blind_lift|]. intros. apply blind_on_elem.
  Qed.
  Theorem C31_end_value_irrelevant t p (nsig : T) s :
    sSupport g !! p.1 = sSupport (SIG s) !! p.1 -> dkeys <$> (sSupport g !! p.2) = dkeys <$> (sSupport (SIG s) !! p.2) ->
    support_draws t p nsig (set_SIG g s) = (fst (support_draws t p nsig s), set_SIG g (snd (support_draws t p nsig s))).
  Proof.
    intros H1 H2. rewrite !support_draws_loop.
    assert (forall l s, dkeys <$> (sSupport g !! p.2) = dkeys <$> (sSupport (SIG s) !! p.2) ->
      forM l (draw_step t p nsig) (set_SIG g s) = (fst (forM l (draw_step t p nsig) s), set_SIG g (snd (forM l (draw_step t p nsig) s)))) as HL;
      [|cbn [SIG set_SIG]; unfold dict in *; rewrite H1; by apply HL].
    clear. intros l. induction l as [|kv l IH]; intros s H2; cbn [forM]; [reflexivity|]. unfold bind. rewrite blind_draw_step by done.
    assert (SIG (snd (draw_step t p nsig kv s)) = SIG s) as G.
    { assert (pres (same (@SIG T)) (draw_step t p nsig kv)) as P; [|apply P]. unfold draw_step. repeat first [pres_step|apply pres_ring_elem; exact _|apply same_randn_cutoff; done|apply pres_on_elem_same; done]. }
    destruct (draw_step t p nsig kv s) as [[[]|e] s1]; simpl in *; [|done]. apply IH. by rewrite G.
  Qed.
End Blind.

(** * Cases *)
Definition five_elems (rng : list Q) : sc Q := init_sc [drift_elem 1; magnet_elem 2; drift_elem 3; magnet_elem 2; drift_elem 2] rng.
Definition girder (sigmas : dict (sigval Q)) (rng : list Q) : sc Q := snd (register_supports [[1%nat]; [3%nat]] "Girder" sigmas (five_elems rng)).
Definition at_index (s : sc Q) (i : nat) (a : string) (k : nat) : option Q := Spec.entry s i a k.
(** offsets only: the angle follows from independently drawn endpoint offsets *)
Example C30_case :
  let r := apply_support_alignment_error 10%Q (girder [("Offset", SPlain (VMat [[1; 2; 3]; [1; 2; 3]]%Q))] [1; 1; 1; 2; 3; 4]%Q) in
  fst r = Ok tt /\ map (at_index (snd r) 1 "GirderOffset") [0; 1]%nat = [Some 1%Q; Some 2%Q] /\
  map (at_index (snd r) 3 "GirderOffset") [0; 1]%nat = [Some 2%Q; Some 6%Q] /\
  map (at_index (snd r) 1 "GirderRoll") [1; 2]%nat = [Some (4 # 5)%Q; Some (1 # 5)%Q].
Proof. vm_compute. repeat split. Qed.
(** C31: the end was registered with a hundred times larger uncertainty, yet moves by the start's *)
Example C31_case :
  let r := apply_support_alignment_error 10%Q (girder [("Offset", SPlain (VMat [[1; 2; 3]; [100; 200; 300]]%Q))] [1; 1; 1; 2; 3; 4]%Q) in
  fst r = Ok tt /\ map (at_index (snd r) 3 "GirderOffset") [0; 1]%nat = [Some 2%Q; Some 6%Q].
Proof. vm_compute. repeat split. Qed.
(** Finding: with an angle uncertainty but no offset uncertainty a second application of errors starts from the already
    displaced endpoints: offsets accumulate and the angle no longer agrees with them (length 5). *)
Theorem C30_finding_second_application :
  let s0 := girder [("Roll", SPlain (VVec [0; 1; 0]%Q))] [0; 2; 0; 0; 4; 0]%Q in
  let r1 := apply_support_alignment_error 10%Q s0 in
  let r2 := apply_support_alignment_error 10%Q (snd r1) in
  fst r1 = Ok tt /\ at_index (snd r1) 1 "GirderRoll" 1 = Some 2%Q /\ at_index (snd r1) 1 "GirderOffset" 1 = Some (-5)%Q /\ at_index (snd r1) 3 "GirderOffset" 1 = Some 5%Q /\
  fst r2 = Ok tt /\ at_index (snd r2) 1 "GirderRoll" 1 = Some 4%Q /\ at_index (snd r2) 1 "GirderOffset" 1 = Some (-15)%Q /\ at_index (snd r2) 3 "GirderOffset" 1 = Some 15%Q.
Proof. vm_compute. repeat split. Qed.
Print Assumptions C30_support_stage.
Print Assumptions C30_angles.
Print Assumptions C30_consistent.
Print Assumptions C30_finding_second_application.
Print Assumptions C31_end_uses_start_sigma.
Print Assumptions C31_end_value_irrelevant.
