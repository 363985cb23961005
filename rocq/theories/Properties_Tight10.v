(** More about registration: what the keywords of register_magnets leave on the elements (C19, C21). *)
From Coq Require Import Reals Lra Lia QArith ZArith.
From stdpp Require Import base gmap strings list.
From Verif Require Import Num Base Model_Arr Model_SC Model_Err Lemmas Proofs_Reg Proofs_Update Proofs_Loop Spec Proofs_CM Proofs_Field Proofs_Err
  Properties_Random Properties_Field Examples Properties_Errors Properties_Update.
Local Open Scope string_scope.
Local Open Scope list_scope.

(** * Specification *)
(** the limit of an element as a corrector of a plane (0 horizontal, 1 vertical) *)
Definition plane_limit (s : sc R) (i p : nat) : option (lim R) := match attr_at s i "CMlimit" with Some (VLims ls) => ls !! p | _ => None end.
(** the limit after a call with the keywords [mine] for the plane and [other] for the other plane *)
Definition limited (s s' : sc R) (i p : nat) (mine other : option (lim R)) : Prop :=
  match mine with
  | Some l => plane_limit s' i p = Some l
  | None => match attr_at s i "CMlimit", other with None, Some _ => plane_limit s' i p = Some (Fin 0%R) | _, _ => plane_limit s' i p = plane_limit s i p end
  end.

(** * Proofs *)
Definition put (j : nat) (o : option (lim R)) (ls : list (lim R)) : list (lim R) := match o with Some l => <[j := l]> ls | None => ls end.
Definition limits_after (k : magtype R) (v : option (val R)) : option (val R) :=
  match kHCM k, kVCM k with
  | None, None => v
  | h, w => Some (VLims (put 1 w (put 0 h (match v with Some (VLims ls) => ls | _ => [Fin 0%R; Fin 0%R] end))))
  end.
Record opt_spec (k : magtype R) (ords : list nat) (i : nat) (e e' : elem R) : Prop := {
  o_cf : e' !! "CombinedFunction" = if kCF k then Some (VBool true) else e !! "CombinedFunction";
  o_lim : e' !! "CMlimit" = limits_after k (e !! "CMlimit");
  o_room : (forall ls, e !! "CMlimit" = Some (VLims ls) -> (isSome (kHCM k) = true -> 0 < length ls) /\ (isSome (kVCM k) = true -> 1 < length ls));
  o_list : isSome (kHCM k) || isSome (kVCM k) = true -> e !! "CMlimit" = None \/ exists ls, e !! "CMlimit" = Some (VLims ls);
  o_skew : e' !! "SkewQuadLimit" = match kSkewQuad k with Some l => Some (VLim l) | None => e !! "SkewQuadLimit" end;
  o_parts : match kMasterOf k with
            | Some rows => length (positions i 0 ords) <= 1 /\ exists l, master_cols rows (positions i 0 ords) = Ok l /\ e' !! "MasterOf" = Some (VOrds l)
            | None => e' !! "MasterOf" = e !! "MasterOf"
            end }.
Lemma optional_spec k ords i (e e' : elem R) u : optional_magnet_fields i ords k e = (Ok u, e') -> opt_spec k ords i e e'.
Proof.
  unfold optional_magnet_fields. intros H. apply bind_ok in H as (u1&e1&H1&H). apply bind_ok in H as (u2&e2&H2&H). apply bind_ok in H as (u3&e3&H3&H). apply bind_ok in H as (u4&e4&H4&H). apply bind_ok in H as (u5&e5&H5&H).
  assert (e1 = if kCF k then <["CombinedFunction" := VBool true]> e else e) as E1. { apply when_ok in H1 as [[Hb H1]|[Hb ->]]; rewrite Hb; [by apply setattr_ok in H1 as ->|done]. }
  apply bind_ok in H2 as (has&e1'&Hh&H2). apply getm_ok in Hh as [Hh ->]. injection Hh as <-.
  assert (e1 !! "CMlimit" = e !! "CMlimit") as L1. { rewrite E1. destruct (kCF k); [by rewrite lookup_insert_ne|done]. }
  assert (forall n (l : lim R) (ex ey : elem R) v, (let! v := getm (fun e => attr e "CMlimit") in let! ls := lift (as_lims v) in let! ls' := lift (idx_set ls n l) in setattr "CMlimit" (VLims ls')) ex = (Ok v, ey) ->
    exists ls, ex !! "CMlimit" = Some (VLims ls) /\ n < length ls /\ ey = <["CMlimit" := VLims (<[n := l]> ls)]> ex) as Hput.
  { intros n l ex ey v Hx. apply bind_ok in Hx as (w&ex'&Hw&Hx). apply getm_ok in Hw as [Hw ->]. apply attr_ok in Hw. apply bind_ok in Hx as (ls&ex'&Hl&Hx). apply lift_ok in Hl as [Hl ->].
    destruct w; try done. cbn in Hl. injection Hl as ->. apply bind_ok in Hx as (ls'&ex'&Hl'&Hx). apply lift_ok in Hl' as [Hl' ->]. unfold idx_set in Hl'. destruct (ls !! n) eqn:En; [|done]. injection Hl' as <-.
    apply setattr_ok in Hx as ->. exists ls. split; [done|]. split; [by eapply lookup_lt_Some|done]. }
  set (ls0 := match e !! "CMlimit" with Some (VLims ls) => ls | _ => [Fin 0%R; Fin 0%R] end).
  assert (e4 = e1 /\ isSome (kHCM k) || isSome (kVCM k) = false \/ (isSome (kHCM k) || isSome (kVCM k) = true /\ (e !! "CMlimit" = None \/ exists ls, e !! "CMlimit" = Some (VLims ls)) /\
    (isSome (kHCM k) = true -> 0 < length ls0) /\ (isSome (kVCM k) = true -> 1 < length ls0) /\ e4 !! "CMlimit" = Some (VLims (put 1 (kVCM k) (put 0 (kHCM k) ls0))) /\ forall a, a <> "CMlimit" -> e4 !! a = e1 !! a)) as HL.
  { destruct (isSome (kHCM k) || isSome (kVCM k)) eqn:Eg.
    - right. split; [done|].
      assert (e2 !! "CMlimit" = Some (VLims ls0) \/ exists v, e2 !! "CMlimit" = Some v /\ e !! "CMlimit" = Some v /\ forall ls, v <> VLims ls) as HE2.
      { apply when_ok in H2 as [[Hb H2]|[Hb ->]].
        - apply setattr_ok in H2 as ->. apply negb_true_iff in Hb. unfold hasattr in Hb. rewrite L1 in Hb. unfold ls0. destruct (e !! "CMlimit"); [done|]. left. rewrite lookup_insert. num_R. done.
        - apply negb_false_iff in Hb. unfold hasattr in Hb. rewrite L1 in *. unfold ls0. destruct (e !! "CMlimit") as [v|]; [|done]. destruct v; eauto; right; eexists; (split; [done|split; [done|done]]). }
      assert (forall a, a <> "CMlimit" -> e2 !! a = e1 !! a) as A2. { apply when_ok in H2 as [[Hb H2]|[Hb ->]]; [|done]. apply setattr_ok in H2 as ->. intros a Ha. by rewrite lookup_insert_ne. }
      assert (e !! "CMlimit" = None \/ exists ls, e !! "CMlimit" = Some (VLims ls)) as Hform.
      { destruct HE2 as [HE2|(v&Hv1&Hv2&Hv3)].
        - apply when_ok in H2 as [[Hb H2]|[Hb ->]]; [left; apply negb_true_iff in Hb; unfold hasattr in Hb; rewrite L1 in Hb; by destruct (e !! "CMlimit")|right; rewrite L1 in HE2; eauto].
        - exfalso. destruct (kHCM k) as [h|]; [apply Hput in H3 as (ls&X&_); rewrite X in Hv1; injection Hv1 as <-; by eapply Hv3|]. apply ret_ok in H3 as [_ ->].
          destruct (kVCM k) as [w|]; [apply Hput in H4 as (ls&X&_); rewrite X in Hv1; injection Hv1 as <-; by eapply Hv3|done]. }
      destruct HE2 as [HE2|(v&Hv1&Hv2&Hv3)]; [|destruct Hform as [X|[ls X]]; rewrite X in Hv2; [done|injection Hv2 as <-; by destruct (Hv3 ls)]].
      split; [done|]. destruct (kHCM k) as [h|]; destruct (kVCM k) as [w|]; cbn [isSome orb put] in *; try done.
      + apply Hput in H3 as (ls&X&Hl&->). rewrite HE2 in X. injection X as <-. apply Hput in H4 as (ls&X&Hl4&->). rewrite lookup_insert in X. injection X as <-. rewrite insert_length in Hl4.
        split; [done|]. split; [done|]. split; [by rewrite lookup_insert|]. intros a Ha. rewrite !lookup_insert_ne by done. auto.
      + apply Hput in H3 as (ls&X&Hl&->). rewrite HE2 in X. injection X as <-. apply ret_ok in H4 as [_ ->]. split; [done|]. split; [done|]. split; [by rewrite lookup_insert|]. intros a Ha. rewrite !lookup_insert_ne by done. auto.
      + apply ret_ok in H3 as [_ ->]. apply Hput in H4 as (ls&X&Hl4&->). rewrite HE2 in X. injection X as <-. split; [done|]. split; [done|]. split; [by rewrite lookup_insert|]. intros a Ha. rewrite !lookup_insert_ne by done. auto.
    - left. split; [|done]. apply when_ok in H2 as [[Hb H2]|[Hb ->]]; [done|]. destruct (kHCM k); [done|]. destruct (kVCM k); [done|]. apply ret_ok in H3 as [_ ->]. apply ret_ok in H4 as [_ ->]. done. }
  assert (e5 = match kSkewQuad k with Some l => <["SkewQuadLimit" := VLim l]> e4 | None => e4 end) as E5. { destruct (kSkewQuad k); [by apply setattr_ok in H5 as ->|by apply ret_ok in H5 as [_ ->]]. }
  assert (exists e6, e' = e6 /\ (forall a, a <> "MasterOf" -> e6 !! a = e5 !! a) /\ match kMasterOf k with
            | Some rows => length (positions i 0 ords) <= 1 /\ exists l, master_cols rows (positions i 0 ords) = Ok l /\ e6 !! "MasterOf" = Some (VOrds l)
            | None => e6 = e5 end) as (e6&->&A6&P6).
  { exists e'. split; [done|]. destruct (kMasterOf k) as [rows|]; [|by apply ret_ok in H as [_ ->]]. destruct (Nat.ltb_spec 1 (length (positions i 0 ords))) as [|Hle]; [done|].
    apply bind_ok in H as (l&ex&Hl&H). apply lift_ok in Hl as [Hl ->]. apply setattr_ok in H as ->. split; [intros a Ha; by rewrite lookup_insert_ne|]. split; [done|]. exists l. by rewrite lookup_insert. }
  assert (forall a, a <> "SkewQuadLimit" -> e5 !! a = e4 !! a) as A5. { intros a Ha. rewrite E5. destruct (kSkewQuad k); [by rewrite lookup_insert_ne|done]. }
  assert (forall a, a <> "CMlimit" -> e4 !! a = e1 !! a) as A4. { destruct HL as [[-> _]|(_&_&_&_&_&A)]; [done|exact A]. }
  assert (forall a, a <> "CombinedFunction" -> e1 !! a = e !! a) as A1. { intros a Ha. rewrite E1. destruct (kCF k); [by rewrite lookup_insert_ne|done]. }
  constructor.
  - rewrite A6, A5, A4, E1 by done. destruct (kCF k); [by rewrite lookup_insert|done].
  - rewrite A6, A5 by done. unfold limits_after. destruct HL as [[-> Hno]|(Hg&Hform&_&_&HL&_)].
    + rewrite A1 by done. by destruct (kHCM k), (kVCM k).
    + rewrite HL. by destruct (kHCM k), (kVCM k).
  - intros ls Hls. unfold ls0 in HL. rewrite Hls in HL. destruct HL as [[-> Hno]|(Hg&_&B1&B2&_)]; [|done]. apply orb_false_iff in Hno as [-> ->]. done.
  - intros Hg. destruct HL as [[_ Hno]|(_&Hform&_)]; [congruence|done].
  - rewrite A6, E5 by done. destruct (kSkewQuad k); [by rewrite lookup_insert|]. rewrite A4, A1 by done. done.
  - destruct (kMasterOf k); [done|]. rewrite P6, A5, A4, A1 by done. done.
Qed.
Lemma nopt a : bool_decide (a ∈ OPTIONAL) = false -> a ∉ OPTIONAL.
Proof. by intros ?%bool_decide_eq_false. Qed.
Lemma magnet_init_optional {T} {N : Num T} : pres (eagree (fun a => a ∉ OPTIONAL)) (magnet_init (T:=T)).
Proof. unfold magnet_init. repeat first [pres_step | apply pres_setattr; apply nopt; reflexivity]. Qed.
Lemma put_put j o ls : put j o (put j o ls) = put j o ls.
Proof. destruct o; cbn [put]; [by rewrite list_insert_insert|done]. Qed.
Lemma put_comm o o' ls : put 1 o (put 0 o' ls) = put 0 o' (put 1 o ls).
Proof. destruct o, o'; cbn [put]; try done. by rewrite list_insert_commute. Qed.
Lemma limits_twice k v : limits_after k (limits_after k v) = limits_after k v.
Proof.
  unfold limits_after. destruct (kHCM k) as [h|]; destruct (kVCM k) as [w|]; cbn [put]; [| | |done]; (destruct (match v with Some (VLims ls) => ls | _ => _ end) as [|a [|b ls]]; done).
Qed.
Lemma opt_trans k ords i e0 e1 e2 : opt_spec k ords i e0 e1 -> opt_spec k ords i e1 e2 -> opt_spec k ords i e0 e2.
Proof.
  intros [A1 A2 A3 A4 A5 A6] [B1 B2 B3 B4 B5 B6]. constructor.
  - rewrite B1, A1. by destruct (kCF k).
  - by rewrite B2, A2, limits_twice.
  - done.
  - done.
  - rewrite B5, A5. by destruct (kSkewQuad k).
  - destruct (kMasterOf k); [done|]. congruence.
Qed.
Lemma opt_before k ords i e0 e0' e1 : (forall a, a ∈ OPTIONAL -> e0' !! a = e0 !! a) -> opt_spec k ords i e0' e1 -> opt_spec k ords i e0 e1.
Proof.
  intros H [A1 A2 A3 A4 A5 A6]. assert (forall a, bool_decide (a ∈ OPTIONAL) = true -> e0' !! a = e0 !! a) as H'. { intros a Ha%bool_decide_eq_true. by apply H. }
  rewrite (H' "CombinedFunction") in A1 by reflexivity. rewrite (H' "CMlimit") in A2, A3, A4 by reflexivity. rewrite (H' "SkewQuadLimit") in A5 by reflexivity. rewrite (H' "MasterOf") in A6 by reflexivity. constructor; done.
Qed.
(** a magnet that stands straight *)
Definition straightened (e : elem R) : Prop :=
  e !! "MagnetOffset" = Some (VVec (replicate 3 0%R)) /\ e !! "SupportOffset" = Some (VVec (replicate 3 0%R)) /\ e !! "MagnetRoll" = Some (VVec (replicate 3 0%R)) /\ e !! "SupportRoll" = Some (VVec (replicate 3 0%R)) /\
  e !! "T1" = Some (VVec (replicate 6 0%R)) /\ e !! "T2" = Some (VVec (replicate 6 0%R)).
Lemma magnet_init_straight (e e' : elem R) u : magnet_init e = (Ok u, e') -> straightened e'.
Proof.
  unfold magnet_init. intros H. apply bind_ok in H as (pa&e1&Hpa&H).
  do 3 (apply bind_ok in H as (?&?&_&H)). apply bind_ok in H as (pb&e2&Hpb&H). do 7 (apply bind_ok in H as (?&?&_&H)).
  do 5 (apply bind_ok in H as (?&?&Hs&H); apply setattr_ok in Hs as ->). apply setattr_ok in H as ->.
  unfold straightened. repeat split; repeat first [rewrite lookup_insert | rewrite lookup_insert_ne by done]; done.
Qed.
Lemma straight_agree (e e' : elem R) : eagree (fun a => a ∈ OPTIONAL) e e' -> straightened e -> straightened e'.
Proof.
  intros Ha H. unfold straightened in *. rewrite !Ha by (unfold OPTIONAL; rewrite !elem_of_cons, elem_of_nil; intros [?|[?|[?|[?|[]]]]]; discriminate). done.
Qed.
Lemma magnet_loop_options ords errs k l (s s' : sc R) u : magnet_loop ords errs k l s = (Ok u, s') ->
  length (RING s') = length (RING s) /\ (forall i e e', RING s !! i = Some e -> RING s' !! i = Some e' -> (i ∈ l -> opt_spec k ords i e e' /\ straightened e') /\ (i ∉ l -> e' = e)).
Proof.
  revert s. induction l as [|j l IH]; intros s H.
  { cbn in H. injection H as _ <-. split; [done|]. intros i e e' H1 H2. split; [intros X; by apply elem_of_nil in X|congruence]. }
  unfold magnet_loop in H. cbn [forM] in H. apply bind_ok in H as (u1&s1&H1&H). fold (magnet_loop ords errs k l) in H. destruct (IH _ H) as [HLn IH']. clear IH.
  apply bind_ok in H1 as (?&sa&Ha&H1). apply bind_ok in H1 as (?&sb&Hb&H1). unfold mod_SIG in Ha. apply modify_ok in Ha as ->.
  apply on_elem_ok in Hb as (e1&e2&He1&Hi1&->). apply on_elem_ok in H1 as (e3&e4&He3&Hi2&->). cbn in He1, He3, HLn.
  pose proof (lookup_lt_Some _ _ _ He1) as Hlt. rewrite list_lookup_insert in He3 by done. injection He3 as <-.
  split; [by rewrite HLn, !insert_length|]. intros i e e' He He'.
  pose proof (magnet_init_optional e1) as P1. rewrite Hi1 in P1. cbn in P1. pose proof (pres_optional j ords k e2) as P2. rewrite Hi2 in P2. cbn in P2.
  assert (opt_spec k ords j e1 e4) as Hstep. { eapply opt_before; [|eapply optional_spec; exact Hi2]. intros a Ha. apply P1. intros X. by apply X. }
  assert (straightened e4) as Hst by (eapply straight_agree; [exact P2|by eapply magnet_init_straight]).
  destruct (decide (i = j)) as [-> |Hne].
  - assert (e = e1) as -> by congruence. assert (RING (set_RING (<[j:=e4]> (RING (set_RING (<[j:=e2]> (RING s)) s))) s) !! j = Some e4) as He4. { cbn. apply list_lookup_insert. by rewrite insert_length. }
    destruct (IH' j e4 e' He4 He') as [X1 X2]. split; [intros _|intros X; exfalso; apply X; by constructor]. destruct (decide (j ∈ l)) as [Hin|Hin].
    + destruct (X1 Hin) as [Y1 Y2]. split; [by eapply opt_trans|done].
    + rewrite (X2 Hin). done.
  - assert (RING (set_RING (<[j:=e4]> (RING (set_RING (<[j:=e2]> (RING s)) s))) s) !! i = Some e) as He4. { cbn. rewrite !list_lookup_insert_ne by congruence. done. }
    destruct (IH' i e e' He4 He') as [X1 X2]. split; [intros Hin; apply X1; by apply elem_of_cons in Hin as [?|?]|intros Hin; apply X2; intros ?; apply Hin; by constructor].
Qed.
Lemma positions_spec i a l q : q ∈ positions i a l <-> exists j, q = (a + j)%nat /\ l !! j = Some i.
Proof.
  revert a. induction l as [|o l IH]; intros a; cbn [positions].
  - split; [intros H; by apply elem_of_nil in H|intros (j&_&H); by destruct j].
  - destruct (Nat.eqb_spec o i) as [-> |Hne]; [rewrite elem_of_cons|]; rewrite IH; split.
    + intros [-> |(j&->&Hj)]; [exists 0; split; [lia|done]|exists (S j); split; [lia|done]].
    + intros ([|j]&->&Hj); [left; lia|right; exists j; split; [lia|done]].
    + intros (j&->&Hj). exists (S j). split; [lia|done].
    + intros ([|j]&->&Hj); [cbn in Hj; congruence|]. exists j. split; [lia|done].
Qed.
Lemma positions_sorted i l : forall a, NoDup (positions i a l).
Proof.
  induction l as [|o l IH]; intros a; cbn [positions]; [constructor|]. destruct (o =? i)%nat; [|apply IH]. constructor; [|apply IH]. intros H. apply positions_spec in H as (j&H&_). lia.
Qed.
(** What the keywords leave: the magnet stands straight, is marked as combined-function or has a skew quadrupole limit only if so asked (or
    before), and has the corrector limit of the plane asked for; a plane not asked for keeps its limit, or has the limit zero if the element
    was no corrector before (finding). *)
Theorem C19_registration_keywords ords errs k (s s' : sc R) u i : register_magnets ords errs k s = (Ok u, s') -> i ∈ ords ->
  attr_at s' i "CombinedFunction" = (if kCF k then Some (VBool true) else attr_at s i "CombinedFunction") /\
  attr_at s' i "SkewQuadLimit" = match kSkewQuad k with Some l => Some (VLim l) | None => attr_at s i "SkewQuadLimit" end /\
  limited s s' i 0 (kHCM k) (kVCM k) /\ limited s s' i 1 (kVCM k) (kHCM k) /\
  (forall a, a ∈ ["MagnetOffset"; "SupportOffset"; "MagnetRoll"; "SupportRoll"] -> attr_at s' i a = Some (VVec [0; 0; 0]%R)) /\
  (forall a, a ∈ ["T1"; "T2"] -> attr_at s' i a = Some (VVec [0; 0; 0; 0; 0; 0]%R)).
Proof.
  intros H Hi. destruct (C19_registration_records_the_field _ _ _ _ _ _ _ H Hi) as (pa&pb&HA&_). apply register_magnets_loop in H as (s1&E1&H). destruct (magnet_loop_options _ _ _ _ _ _ _ H) as [HL HO]. rewrite E1 in HL, HO.
  unfold attr_at in HA. destruct (RING s !! i) as [e|] eqn:He; [|done]. destruct (lookup_lt_is_Some_2 (RING s') i) as [e' He']; [rewrite HL; by eapply lookup_lt_Some|].
  destruct (HO i e e' He He') as [X _]. destruct (X Hi) as [[A1 A2 A3 A4 A5 _] (B1&B2&B3&B4&B5&B6)]. clear X HO.
  assert (forall a, attr_at s i a = e !! a) as Ea by (intros a; unfold attr_at; by rewrite He). assert (forall a, attr_at s' i a = e' !! a) as Ea' by (intros a; unfold attr_at; by rewrite He').
  split; [by rewrite Ea', Ea|]. split; [by rewrite Ea', Ea|]. unfold limited, plane_limit. rewrite !Ea, !Ea', A2. unfold limits_after. split; [|split; [|split]].
  - destruct (kHCM k) as [h|]; destruct (kVCM k) as [w|]; cbn [put isSome orb] in *.
    + destruct (A4 eq_refl) as [X|[ls X]]; rewrite X; [done|]. destruct (A3 ls X) as [Y1 Y2]. rewrite list_lookup_insert_ne by done. apply list_lookup_insert. auto.
    + destruct (A4 eq_refl) as [X|[ls X]]; rewrite X; [done|]. destruct (A3 ls X) as [Y1 Y2]. apply list_lookup_insert. auto.
    + destruct (A4 eq_refl) as [X|[ls X]]; rewrite X; [done|]. by rewrite list_lookup_insert_ne.
    + by destruct (e !! "CMlimit").
  - destruct (kHCM k) as [h|]; destruct (kVCM k) as [w|]; cbn [put isSome orb] in *.
    + destruct (A4 eq_refl) as [X|[ls X]]; rewrite X; [done|]. destruct (A3 ls X) as [Y1 Y2]. apply list_lookup_insert. rewrite insert_length. auto.
    + destruct (A4 eq_refl) as [X|[ls X]]; rewrite X; [done|]. by rewrite list_lookup_insert_ne.
    + destruct (A4 eq_refl) as [X|[ls X]]; rewrite X; [done|]. destruct (A3 ls X) as [Y1 Y2]. apply list_lookup_insert. auto.
    + by destruct (e !! "CMlimit").
  - intros a Ha. rewrite Ea'. rewrite !elem_of_cons, elem_of_nil in Ha. destruct Ha as [-> |[-> |[-> |[-> |[]]]]]; done.
  - intros a Ha. rewrite Ea'. rewrite !elem_of_cons, elem_of_nil in Ha. destruct Ha as [-> |[-> |[]]]; done.
Qed.
(** With a table of parts, ordinates are registered once, and each magnet gets the parts in its own column of the table. *)
Theorem C21_registered_parts ords errs k (s s' : sc R) u rows : register_magnets ords errs k s = (Ok u, s') -> kMasterOf k = Some rows ->
  NoDup ords /\ forall j i, ords !! j = Some i -> exists parts, attr_at s' i "MasterOf" = Some (VOrds parts) /\ length parts = length rows /\
    forall r row, rows !! r = Some row -> exists p, row !! j = Some p /\ parts !! r = Some p.
Proof.
  intros H Hk. assert (forall i, i ∈ ords -> length (positions i 0 ords) <= 1 /\ exists l, master_cols rows (positions i 0 ords) = Ok l /\ attr_at s' i "MasterOf" = Some (VOrds l)) as HO.
  { intros i Hi. destruct (C19_registration_records_the_field _ _ _ _ _ _ _ H Hi) as (pa&pb&HA&_). apply register_magnets_loop in H as (s1&E1&H). destruct (magnet_loop_options _ _ _ _ _ _ _ H) as [HL HO]. rewrite E1 in HL, HO.
    unfold attr_at in HA. destruct (RING s !! i) as [e|] eqn:He; [|done]. destruct (lookup_lt_is_Some_2 (RING s') i) as [e' He']; [rewrite HL; by eapply lookup_lt_Some|].
    destruct (HO i e e' He He') as [X _]. destruct (X Hi) as [[_ _ _ _ _ A6] _]. rewrite Hk in A6. unfold attr_at. rewrite He'. exact A6. }
  assert (forall i j, ords !! j = Some i -> positions i 0 ords = [j]) as Hone.
  { intros i j Hj. destruct (HO i) as [Hle _]; [by eapply elem_of_list_lookup_2|]. assert (j ∈ positions i 0 ords) as Hin by (apply positions_spec; by exists j).
    destruct (positions i 0 ords) as [|q [|q' qs]]; [by apply elem_of_nil in Hin|apply elem_of_list_singleton in Hin; congruence|cbn in Hle; lia]. }
  split.
  - apply NoDup_alt. intros j1 j2 i H1 H2. apply Hone in H1, H2. congruence.
  - intros j i Hj. destruct (HO i) as [_ (l&Hl&HM)]; [by eapply elem_of_list_lookup_2|]. exists l. split; [done|]. rewrite (Hone i j Hj) in Hl. unfold master_cols in Hl. apply rbind_ok in Hl as (ll&Hll&E). injection E as <-.
    apply rmap_ok in Hll. clear -Hll. induction Hll as [|row y rows ll H1 H2 [IH1 IH2]]; [done|]. apply rmap_ok in H1. inversion H1 as [|? p ? ? Hp Hn]; subst. inversion Hn; subst. apply idx_ok in Hp. cbn [concat app length]. split; [by rewrite IH1|].
    intros [|r] row' Hr; cbn in Hr |- *; [injection Hr as <-; eauto|by apply IH2].
Qed.
Print Assumptions C19_registration_keywords.
Print Assumptions C21_registered_parts.
(** A concrete case: quadrupole and bend as combined-function horizontal correctors, each with its own two parts. *)
Definition parted : res unit * sc Q := register_magnets [5; 1]%nat [] (MkType (Some (Fin 7%Q)) None true None (Some [[3; 0]; [4; 2]]%nat)) (ex_sc : sc Q).
Example C19_keywords_case : fst parted = Ok tt /\
  attr_at (snd parted) 5 "MasterOf" = Some (VOrds [3; 4]%nat) /\ attr_at (snd parted) 1 "MasterOf" = Some (VOrds [0; 2]%nat) /\
  attr_at (snd parted) 5 "CMlimit" = Some (VLims [Fin 7%Q; Fin 0%Q]) /\ attr_at (snd parted) 1 "CombinedFunction" = Some (VBool true) /\ attr_at (snd parted) 1 "SkewQuadLimit" = None /\
  fst (register_magnets [5; 5]%nat [] (MkType None None false None (Some [[3; 0]]%nat)) (ex_sc : sc Q)) = Err ValueError.
Proof. vm_compute. repeat split. Qed.
