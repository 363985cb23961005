(** Properties C11-C16: relative, repeated, integer and limited set-points. *)
From Coq Require Import Reals Lra QArith Floats.
From stdpp Require Import base gmap strings list.
From Verif Require Import Num Base Model_Arr Model_SC Model_Err Lemmas Proofs_Update Proofs_Setpoint Spec Proofs_CM Proofs_CM2
  Proofs_Loop Proofs_Loop2 Examples Properties_Setpoint.
Local Open Scope string_scope.
Local Open Scope list_scope.

(** * C11 *)
Section Keys.
  Context {T : Type} {N : Num T}.
  (** which attributes an update writes depends on the pass methods only *)
  Lemma attr_writes_key_list (src e : elem T) ws : attr_writes src e = Ok ws ->
    exists pm, src !! "PassMethod" = Some (VStr pm) /\
      map fst ws = ["PolynomA"; "PolynomB"] ++ (if bool_decide (pm = "CorrectorPass") then ["KickAngle"] else []) ++ ["MaxOrder"].
  Proof.
    unfold attr_writes. intros H. apply rbind_ok in H as (ab&_&H). apply rbind_ok in H as (pm&Hpm&H). apply attr_str_ok in Hpm.
    apply rbind_ok in H as (k&Hk&H). injection H as <-. exists pm. split; [done|].
    destruct (bool_decide _); [|by injection Hk as <-]. apply rbind_ok in Hk as (b0&_&Hk). apply rbind_ok in Hk as (a0&_&Hk). by injection Hk as <-.
  Qed.
  Definition places (ws : list (nat * string * val T)) : list (nat * string) := map fst ws.
  Lemma all_writes_places (r r' : list (elem T)) ps ws ws' :
    (forall i, aget r' i "PassMethod" = aget r i "PassMethod") ->
    all_writes r ps = Ok ws -> all_writes r' ps = Ok ws' -> places ws' = places ws.
  Proof.
    intros Hpm. revert ws ws'. induction ps as [|p ps IH]; intros ws ws' H H'.
    - unfold all_writes in *. simpl in *. by simplify_eq.
    - apply all_writes_cons in H as (w1&w2&H1&H2&->). apply all_writes_cons in H' as (w1'&w2'&H1'&H2'&->).
      unfold places in *. rewrite !map_app, (IH w2 w2') by done. f_equal. clear IH H2 H2'.
      unfold pair_writes in *. apply rbind_ok in H1 as (es&Hes&H1). apply rbind_ok in H1 as (et&Het&H1). apply rbind_ok in H1 as (l&Hl&H1). injection H1 as <-.
      apply rbind_ok in H1' as (es'&Hes'&H1'). apply rbind_ok in H1' as (et'&Het'&H1'). apply rbind_ok in H1' as (l'&Hl'&H1'). injection H1' as <-.
      rewrite !map_map. simpl.
      assert (map fst l' = map fst l) as E.
      { apply attr_writes_key_list in Hl as (pm&Hpm1&->). apply attr_writes_key_list in Hl' as (pm'&Hpm2&->).
        specialize (Hpm p.1). unfold aget in Hpm. apply idx_ok in Hes, Hes'. rewrite Hes, Hes' in Hpm. simpl in Hpm. rewrite Hpm1, Hpm2 in Hpm. by injection Hpm as ->. }
      transitivity (map (pair p.2) (map fst l')); [by rewrite map_map|]. rewrite E. by rewrite map_map.
  Qed.
  Lemma last_write_places (ws ws' : list (nat * string * val T)) i a : places ws' = places ws ->
    is_Some (last_write ws' i a) <-> is_Some (last_write ws i a).
  Proof.
    assert (forall w : list (nat * string * val T), is_Some (last_write w i a) <-> (i, a) ∈ places w) as E.
    { intros w. split.
      - intros [v Hv]. apply last_write_in in Hv. apply elem_of_list_fmap. by exists (i, a, v).
      - intros H. apply elem_of_list_fmap in H as ([[j b] v]&Hp&H). simpl in Hp. simplify_eq. by apply last_write_in_any in H. }
    rewrite !E. intros ->. done.
  Qed.
End Keys.

(** state after the writes of set-points only *)
Lemma cm_add_restores dt ords ds skew (s s1 s2 : sc R) :
  dt = DFloat -> NoDup ords -> length ds = length ords ->
  (forall i d v, (i, d) ∈ zip ords ds -> get_cm_setpoints [i] skew s = Ok [v] ->
     allows (cm_limit s i skew) v /\ allows (cm_limit s i skew) (v + d)%R) ->
  set_cm_setpoints ords dt ds skew "add" s = (Ok tt, s1) ->
  set_cm_setpoints ords dt (map Ropp ds) skew "add" s1 = (Ok tt, s2) ->
  update_magnets ords s = (Ok tt, s2).
Proof.
  intros -> Hnd HL Hlim H1 H2. pose proof H1 as H1'. pose proof H2 as H2'.
  apply set_cm_ok in H1 as (l1&t1&Hl1&Hf1&Hu1). apply set_cm_ok in H2 as (l2&t2&Hl2&Hf2&Hu2).
  rewrite check_input_full in Hl1 by (rewrite ?map_length; done || (right; right; left)). injection Hl1 as <-.
  rewrite check_input_full in Hl2 by (rewrite ?map_length; done || (right; right; left)). injection Hl2 as <-.
  destruct (forM_seq _ (set_cm_one skew "add" DFloat) _ _ _ Hf1) as ((r1&->)&HL1&Hin1&Hs1).
  destruct (forM_seq _ (set_cm_one skew "add" DFloat) _ _ _ Hf2) as ((r2&->)&HL2&Hin2&Hs2).
  apply update_magnets_ok in Hu1 as (Hm1&ws1&Hws1&->). apply update_magnets_ok in Hu2 as (Hm2&ws2&Hws2&->).
  cbn [RING set_RING] in *.
  set (q1 := foldl rwr r1 ws1) in *. pose proof (all_writes_ragD _ _ _ Hws1) as HD1. fold q1 in HD1.
  (* elements of r2 against those of s and q1 *)
  assert (forall i e, RING s !! i = Some e -> exists e1 e2 f1, r1 !! i = Some e1 /\ q1 !! i = Some e2 /\ r2 !! i = Some f1 /\
    eagree der e1 e2 /\ (forall a, a <> SP skew -> e1 !! a = e !! a) /\ (forall a, a <> SP skew -> f1 !! a = e2 !! a) /\ f1 !! SP skew = e !! SP skew) as P.
  { intros i e He. destruct (Hs1 i e He) as (e1&He1&Hg1). destruct (ragD_some _ _ _ _ HD1 He1) as (e2&He2&Ha).
    destruct (Hs2 i e2 He2) as (f1&Hf1'&Hg2). exists e1, e2, f1. do 4 (split; [done|]).
    destruct (decide (i ∈ ords)) as [Hi|Hi].
    - destruct (in_zip_fst ords ds i HL Hi) as [d Hd].
      assert ((i, (- d)%R) ∈ zip ords (map Ropp ds)) as Hd'.
      { apply elem_of_list_lookup in Hd as (k&Hk). apply elem_of_list_lookup. exists k. rewrite lookup_zip_with in *.
        rewrite list_lookup_fmap. destruct (ords !! k); [|done]. simpl in *. destruct (ds !! k); [|done]. simpl in *. by simplify_eq. }
      rewrite (addressed_single i d) in Hg1 by (rewrite ?zip_fst; auto). rewrite (addressed_single i (-d)%R) in Hg2 by (rewrite ?zip_fst; auto; by rewrite map_length).
      simpl in Hg1, Hg2. apply bind_ok in Hg1 as (u1&y1&Hg1&Hr). minv Hr. apply bind_ok in Hg2 as (u2&y2&Hg2&Hr). minv Hr.
      apply set_cm_one_ok in Hg1 as (l1&Hc1&->). apply set_cm_one_ok in Hg2 as (l2&Hc2&->).
      split; [intros a Ha'; by apply lookup_insert_ne|]. split; [intros a Ha'; by apply lookup_insert_ne|].
      rewrite lookup_insert.
      apply cm_new_R in Hc1 as (nb&sp&p&x1&x2&Hnb&Hne&Hsp&Hp&_&Hx1&_&Hcl&->). specialize (Hx1 eq_refl). cbn [store] in Hx1.
      apply clip_cm_float in Hcl.
      destruct (Hlim i d (p * nb)%R Hd) as [Lim1 Lim2].
      { apply get_cm_one. exists e. split; [done|]. apply reading_ok. eauto 10. }
      assert (x2 = (d + p * nb)%R) as ->.
      { subst x2 x1. rewrite (cm_limit_elim s i e) in Lim2 by done. unfold clipped, allows in *. destruct (elim skew e) as [lm|]; [|done].
        destruct (Rle_dec _ _) as [|n]; [done|]. exfalso. apply n. by rewrite Rplus_comm. }
      clear Hcl Hx1 x1.
      apply cm_new_R in Hc2 as (nb2&sp2&p2&x1&x2&Hnb2&Hne2&Hsp2&Hp2&_&Hx1&_&Hcl&->). specialize (Hx1 eq_refl). cbn [store] in Hx1.
      rewrite (norm_by_agree skew (<[SP skew := VVec (<[0%nat := ((d + p * nb) / nb)%R]> sp)]> e) e2) in Hnb2 by (by apply eag).
      rewrite norm_by_insert in Hnb2. assert (nb2 = nb) as -> by congruence.
      rewrite (Ha (SP skew)) in Hsp2 by (by apply SP_not_der). rewrite lookup_insert in Hsp2. injection Hsp2 as <-.
      assert (0 < length sp)%nat as Hlt by (by eapply lookup_lt_Some).
      rewrite list_lookup_insert in Hp2 by done. injection Hp2 as <-.
      apply clip_cm_float in Hcl. rewrite (elim_agree skew _ _ Ha), elim_sp in Hcl.
      assert (x1 = (p * nb)%R) as Hx by (rewrite Hx1; field; done). clear Hx1.
      assert (x2 = (p * nb)%R) as ->.
      { subst x2. rewrite Hx. rewrite (cm_limit_elim s i e) in Lim1 by done. unfold clipped, allows in *. destruct (elim skew e) as [lm|]; [|done].
        clear Hf1'. destruct (Rle_dec (Rabs (p * nb)) (Rabs lm)) as [|n]; [done|contradiction]. }
      rewrite list_insert_insert. rewrite Hsp. do 2 f_equal. replace (p * nb / nb)%R with p by (field; done). by apply list_insert_id.
    - rewrite addressed_nil in Hg1, Hg2 by (rewrite zip_fst; auto; by rewrite map_length). simpl in *. minv Hg1. minv Hg2.
      do 2 (split; [done|]). apply Ha. apply SP_not_der. }
  assert (length r2 = length (RING s)) as HLr.
  { cbn in *. rewrite HL2. subst q1. rewrite rwr_length. done. }
  assert (ragD (RING s) r2) as HD.
  { split; [done|]. intros i e f He Hf a Ha. destruct (P i e He) as (e1&e2&f1&E1&E2&E3&A1&A2&A3&A4). simplify_eq.
    destruct (decide (a = SP skew)) as [->|]; [done|]. rewrite A3, A1, A2 by done. done. }
  apply update_magnets_ok. split.
  - intros i v Hi Hv. apply (Hm2 i v Hi). by rewrite (ragD_aget (RING s) r2).
  - assert (length q1 = length r1) as Hq1 by apply rwr_length.
    exists ws2. rewrite (steps_agree (RING s) r2), (all_writes_agree (RING s) r2) in Hws2 by done. split; [done|].
    destruct s as [r0 ir0 ij0 sg0 od0 rn0]. cbn [RING set_RING IDEALRING INJ SIG ORD RNG] in *. unfold set_RING. cbn. f_equal.
    pose proof (all_writes_range _ _ _ Hws2) as Hrg.
    apply ring_eq; [by rewrite !rwr_length|]. intros i a. rewrite (aget_writes r0) by done.
    rewrite aget_writes by (intros w Hw; rewrite HLr; by apply Hrg).
    destruct (last_write ws2 i a) as [v|] eqn:E; [done|].
    (* not written by the second update: then not by the first *)
    assert (last_write ws1 i a = None) as E1.
    { assert (steps r1 ords = steps r0 ords) as Est.
      { unfold steps. f_equal. apply map_ext. intros j. unfold steps1, children. do 2 f_equal.
        assert (aget r1 j "MasterOf" = aget r0 j "MasterOf") as ->; [|done]. unfold aget.
        destruct (r0 !! j) as [e|] eqn:Ej.
        - destruct (P j e Ej) as (e1&_&_&->&_&_&_&A2&_). simpl. apply A2. by destruct skew.
        - apply lookup_ge_None in Ej. assert (r1 !! j = None) as -> by (apply lookup_ge_None; lia). done. }
      rewrite Est in Hws1.
      assert (places ws1 = places ws2) as Epl.
      { eapply all_writes_places; [|exact Hws2|exact Hws1]. intros j. unfold aget. destruct (r0 !! j) as [e|] eqn:Ej.
        - destruct (P j e Ej) as (e1&_&_&->&_&_&_&A2&_). simpl. apply A2. by destruct skew.
        - apply lookup_ge_None in Ej. assert (r1 !! j = None) as -> by (apply lookup_ge_None; lia). done. }
      destruct (last_write ws1 i a) eqn:Ew; [|done].
      apply (last_write_places ws2 ws1 i a) in Epl. destruct (proj1 Epl) as [v' Hv']; [eauto|]. congruence. }
    unfold aget. destruct (r0 !! i) as [e|] eqn:Ei.
    + destruct (P i e Ei) as (e1&e2&f1&F1&F2&->&A1&A2&A3&A4). simpl. destruct (decide (a = SP skew)) as [->|Hne]; [done|].
      rewrite A3 by done. pose proof (aget_writes r1 ws1 i a (all_writes_range _ _ _ Hws1)) as Hg. rewrite E1 in Hg. unfold aget in Hg.
      fold q1 in Hg. rewrite F1, F2 in Hg. simpl in Hg. rewrite Hg. by apply A2.
    + apply lookup_ge_None in Ei. assert (r2 !! i = None) as -> by (apply lookup_ge_None; lia). done.
Qed.

Theorem C11_add_and_subtract ords ds skew (s s1 s2 : sc R) :
  NoDup ords -> length ds = length ords ->
  (forall i d v, (i, d) ∈ zip ords ds -> get_cm_setpoints [i] skew s = Ok [v] ->
     allows (cm_limit s i skew) v /\ allows (cm_limit s i skew) (v + d)%R) ->
  set_cm_setpoints ords DFloat ds skew "add" s = (Ok tt, s1) ->
  set_cm_setpoints ords DFloat (map Ropp ds) skew "add" s1 = (Ok tt, s2) ->
  update_magnets ords s = (Ok tt, s2) /\
  (forall i skew', attr_at s2 i (setpoint_name skew') = attr_at s i (setpoint_name skew')) /\
  (** the field of the machine was up to date *)
  (update_magnets ords s = (Ok tt, s) -> s2 = s).
Proof.
  intros Hnd HL Hlim H1 H2. pose proof (cm_add_restores DFloat ords ds skew s s1 s2 eq_refl Hnd HL Hlim H1 H2) as Hu. split; [done|]. split.
  - intros i skew'. pose proof (update_magnets_frame ords s) as F. rewrite Hu in F. rewrite !attr_at_aget. apply (frame_aget _ _ _ _ _ F).
    rewrite <- SP_name. intros [Hd _]. by apply SP_not_der in Hd.
  - intros Hs. rewrite Hs in Hu. by injection Hu as <-.
Qed.
(** The finding: if the intermediate value is clipped the corrector does not return. *)
Lemma cm_step_reading i dt x skew method (s s' : sc R) :
  set_cm_setpoints [i] dt [x] skew method s = (Ok tt, s') ->
  exists v x1 x2, get_cm_setpoints [i] skew s = Ok [v] /\ (method = "add" -> x1 = store dt (x + v)%R) /\ (method = "rel" -> x1 = store dt (x * v)%R) /\
    (method = "abs" -> x1 = x) /\
    ((forall l, cm_limit s i skew = Some l -> (Rabs x1 <= Rabs l)%R -> x2 = x1) /\
     (forall l, cm_limit s i skew = Some l -> (Rabs l < Rabs x1)%R -> x2 = store dt (sign x1 * l)%R) /\
     (cm_limit s i skew = None -> x2 = x1)) /\
    get_cm_setpoints [i] skew s' = Ok [x2] /\ cm_limit s' i skew = cm_limit s i skew.
Proof.
  intros H. destruct (set_cm_exists _ _ _ _ _ _ _ _ i H) as [e He]; [left|].
  destruct (single_cm _ _ _ _ _ _ _ _ i x e H) as (l&e'&Hc&He'&Ha); [apply NoDup_singleton|done|left|done|].
  apply reading_cm_new in Hc as (p&nb&x1&x2&Hnb&Hne&Hr&Hrel&Hadd&Habs&Hcl&Hr'). exists (p * nb)%R, x1, x2.
  split; [apply get_cm_one; eauto|]. split; [done|]. split; [done|]. split; [by intros ->; apply Habs|].
  rewrite (cm_limit_elim s i e) by done. split; [by apply clip_cm_R|].
  split; [apply get_cm_one; exists e'; split; [done|by rewrite (reading_agree _ _ _ Ha)]|].
  rewrite (cm_limit_elim s' i e') by done. by rewrite (elim_agree _ _ _ Ha), elim_sp.
Qed.
Lemma sign_abs1 x : x <> 0%R -> Rabs (sign x) = 1%R.
Proof.
  intros H. unfold sign. destruct (Rlt_dec x 0); [rewrite Rabs_left; lra|]. destruct (Rlt_dec 0 x); [rewrite Rabs_right; lra|]. lra.
Qed.
Theorem C11_finding_clipped_does_not_return i d skew v l (s s1 s2 : sc R) :
  get_cm_setpoints [i] skew s = Ok [v] -> cm_limit s i skew = Some l -> (Rabs v < Rabs l)%R -> (Rabs l < Rabs (v + d))%R ->
  set_cm_setpoints [i] DFloat [d] skew "add" s = (Ok tt, s1) ->
  set_cm_setpoints [i] DFloat [(- d)%R] skew "add" s1 = (Ok tt, s2) ->
  get_cm_setpoints [i] skew s2 <> Ok [v].
Proof.
  intros Hv Hl Hlt Hgt H1 H2. apply cm_step_reading in H1 as (v1&x1&x2&Hv1&Hx1&_&_&(_&Hc&_)&Hr1&Hl1).
  assert (v1 = v) as -> by congruence. specialize (Hx1 eq_refl). cbn [store] in Hx1.
  assert (x2 = (sign x1 * l)%R) as -> by (apply (Hc l); [done|]; subst x1; by rewrite Rplus_comm). clear Hc.
  apply cm_step_reading in H2 as (v2&y1&y2&Hv2&Hy1&_&_&(Hc1&Hc2&_)&Hr2&_). assert (v2 = (sign x1 * l)%R) as -> by congruence.
  specialize (Hy1 eq_refl). cbn [store] in Hy1. rewrite Hr2. intros E. injection E as ->. rewrite Hl1 in Hc1, Hc2.
  assert (x1 <> 0%R) as Hnz. { intros E. subst x1. replace (v + d)%R with 0%R in Hgt by lra. rewrite Rabs_R0 in Hgt. pose proof (Rabs_pos l). lra. }
  destruct (Rle_dec (Rabs y1) (Rabs l)) as [Hle|Hnle].
  - rewrite <- (Hc1 l Hl Hle) in Hy1. assert (sign x1 * l = x1)%R as E by lra.
    apply (f_equal Rabs) in E. rewrite Rabs_mult, sign_abs1 in E by done. subst x1. rewrite (Rplus_comm d v) in E. lra.
  - assert (Rabs l < Rabs y1)%R as Hg by lra. specialize (Hc2 l Hl Hg). cbn [store] in Hc2.
    assert (y1 <> 0%R) as Hny. { intros E. rewrite E, Rabs_R0 in Hg. pose proof (Rabs_pos l). lra. }
    subst v. rewrite Rabs_mult, sign_abs1 in Hlt by done. lra.
Qed.
(** In double precision the restoration can fail without clipping: (0.1 + 0.2) - 0.2 is not 0.1. *)
Theorem C11_finding_rounding :
  let s := snd (set_cm_setpoints [2%nat] DFloat [0.1%float] false "abs" (cm_machine : sc float)) in
  let r1 := set_cm_setpoints [2%nat] DFloat [0.2%float] false "add" s in
  let r2 := set_cm_setpoints [2%nat] DFloat [(-0.2)%float] false "add" (snd r1) in
  fst r1 = Ok tt /\ fst r2 = Ok tt /\ get_cm_setpoints [2%nat] false s = Ok [0.1%float] /\
  match get_cm_setpoints [2%nat] false (snd r2) with Ok [y] => PrimFloat.eqb y 0.1%float = false | _ => False end.
Proof. vm_compute. auto. Qed.
Example C11_example :
  let r1 := set_cm_setpoints [1; 2]%nat DFloat [3%Q; (1 # 2)%Q] false "add" (two_cms : sc Q) in
  let r2 := set_cm_setpoints [1; 2]%nat DFloat [(-3)%Q; (-1 # 2)%Q] false "add" (snd r1) in
  fst r1 = Ok tt /\ fst r2 = Ok tt /\ get_cm_setpoints [1; 2]%nat false (snd r1) = Ok [3%Q; (1 # 2)%Q] /\
  get_cm_setpoints [1; 2]%nat false (snd r2) = Ok [0%Q; 0%Q] /\
  (** clipped on the way: 3 is cut to the limit 1 *)
  let c1 := set_cm_setpoints [2%nat] DFloat [3%Q] false "add" (two_cms : sc Q) in
  let c2 := set_cm_setpoints [2%nat] DFloat [(-3)%Q] false "add" (snd c1) in
  get_cm_setpoints [2%nat] false (snd c2) = Ok [(-1)%Q].
Proof. vm_compute. auto. Qed.
Print Assumptions C11_add_and_subtract.
Print Assumptions C11_finding_clipped_does_not_return.
Print Assumptions C11_finding_rounding.
