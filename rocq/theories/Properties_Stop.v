(** C96: the corrections of trajectory and orbit stop at the first reading that meets their criterion. *)
From Coq Require Import Reals Lra Lia QArith Sorting.Sorted.
From stdpp Require Import base gmap strings list.
From Verif Require Import Num Base Model_Arr Model_SC Model_Err Model_Beam Model_Orbit Lemmas Spec Properties_Field Properties_Beam Proofs_Beam Proofs_Setpoint Properties_Orbit Properties_Thread Model_Pinv Model_Matlab Properties_Matlab.
Local Open Scope string_scope.
Local Open Scope list_scope.
Local Open Scope R_scope.

(** * Specification *)
(** both rms of the last reading are below the target *)
Definition below_target (target : R) (rs : list (reading R)) : Prop :=
  exists r p, last rs = Some r /\ rms_of r p /\ p.1 < target /\ p.2 < target.
(** when an orbit correction of at most [maxsteps] steps may stop before its last step *)
Definition settled (eps target : R) (maxsteps : nat) (rs : list (reading R)) : Prop :=
  converged 5 eps rs \/ converged (Nat.min 5 maxsteps) eps rs /\ below_target target rs.

(** * Proofs *)
Section Logs.
  Context {T : Type} `{Num T} `{Trig T} (w : world T).
  Lemma log_read bpms (l : log T) (s s' : sc T) p : read_and_log w bpms l s = (Ok p, s') ->
    exists c q, p.2 = MkLog (l_trans l ++ [c]) (l_rms l ++ [q]).
  Proof. intros E. unfold read_and_log in E. apply bind_ok in E as (r&s1&_&E). apply ret_ok in E as [<- _]. by eexists _, _. Qed.

  (** [stops a b f]: going from history [a] to [b], the criterion [f] held for no history in between *)
  Definition stops {A} (f : list A -> bool) (a b : list A) : Prop :=
    (exists c, b = a ++ c) /\ forall k, (length a < k < length b)%nat -> f (take k b) = false.
  Lemma stops_here {A} (f : list A -> bool) a : stops f a a.
  Proof. split; [exists []; by rewrite app_nil_r|]. intros k Hk. lia. Qed.
  Lemma stops_one {A} (f : list A -> bool) a x : stops f a (a ++ [x]).
  Proof. split; [by exists [x]|]. intros k Hk. rewrite app_length in Hk. cbn in Hk. lia. Qed.
  Lemma stops_more {A} (f : list A -> bool) a x b : f (a ++ [x]) = false -> stops f (a ++ [x]) b -> stops f a b.
  Proof.
    intros Hf [[c Hb] Hs]. split; [exists ([x] ++ c); by rewrite Hb, <- (assoc_L app)|]. intros k Hk. destruct (decide (k = S (length a))) as [->|Hne].
    - rewrite Hb, take_app_alt; [done|]. rewrite app_length. cbn. lia.
    - apply Hs. rewrite app_length. cbn. lia.
  Qed.

  Definition orbit_criterion (maxsteps : nat) (eps target : T) (h : list (option T * option T)) : bool :=
    (match last h with Some p => omax_lt p target | None => false end && is_stable (Nat.min NREPRO maxsteps) eps h) || is_stable NREPRO eps h.
  Lemma correct_loop_stops steps maxsteps mplus reference bpms cms eps target scale : forall r l s l' (s' : sc T),
    correct_loop w steps maxsteps mplus reference bpms cms eps target scale r l s = (Ok l', s') ->
    stops (orbit_criterion maxsteps eps target) (l_rms l) (l_rms l') /\
    (orbit_criterion maxsteps eps target (l_rms l') = true \/
     length (l_rms l') = (length (l_rms l) + steps)%nat /\ (is_stable (Nat.min NREPRO maxsteps) eps (l_rms l') = true \/ maxsteps = 1%nat)).
  Proof.
    induction steps as [|steps IH]; intros r l s l' s' E; cbn [correct_loop] in E.
    { destruct (is_stable _ _ _ || _) eqn:Eb; [|discriminate]. apply ret_ok in E as [<- _]. split; [apply stops_here|]. right. split; [lia|]. apply orb_true_iff in Eb as [Eb|Eb]; [by left|right; by apply Nat.eqb_eq]. }
    apply bind_ok in E as (?&?&_&E). apply bind_ok in E as (?&?&_&E). apply bind_ok in E as (?&?&_&E). apply bind_ok in E as (?&?&_&E). apply bind_ok in E as (?&?&_&E). apply bind_ok in E as (rl&s1&Hr&E).
    apply log_read in Hr as (c&q&El). rewrite El in E. cbn [l_rms] in E. destruct (existsb _ _); [discriminate|].
    match type of E with (if ?b then _ else _) _ = _ => destruct b eqn:E1 end.
    { apply ret_ok in E as [<- _]. cbn [l_rms]. split; [apply stops_one|]. left. unfold orbit_criterion. by rewrite E1. }
    destruct (is_stable NREPRO eps (l_rms l ++ [q])) eqn:E2.
    { apply ret_ok in E as [<- _]. cbn [l_rms]. split; [apply stops_one|]. left. unfold orbit_criterion. rewrite E2. apply orb_true_r. }
    apply IH in E as [E3 E4]. cbn [l_rms] in *. split; [eapply stops_more; [|exact E3]; unfold orbit_criterion; by rewrite E1, E2|]. destruct E4 as [E4|[E4 E5]]; [by left|right].
    split; [|done]. rewrite E4, app_length. cbn. lia.
  Qed.
  Lemma balance_loop_stops steps mplus reference bpms cms eps : forall r l s l' (s' : sc T),
    balance_loop w steps mplus reference bpms cms eps r l s = (Ok l', s') -> stops (is_stable NREPRO eps) (l_rms l) (l_rms l').
  Proof.
    induction steps as [|steps IH]; intros r l s l' s' E; cbn [balance_loop] in E; [discriminate|]. cbv zeta in E.
    apply bind_ok in E as (?&?&_&E). apply bind_ok in E as (?&?&_&E). apply bind_ok in E as (?&?&_&E). apply bind_ok in E as (?&?&_&E). apply bind_ok in E as (rl&s1&Hr&E).
    apply log_read in Hr as (c&q&El). rewrite El in E. cbn [l_rms] in E. destruct (_ <? _)%nat; [discriminate|].
    destruct (is_stable NREPRO eps (l_rms l ++ [q])) eqn:E2; [apply ret_ok in E as [<- _]; apply stops_one|]. apply IH in E. by eapply stops_more.
  Qed.
End Logs.

Lemma avg_zeros (l : list R) : Forall (fun x => x = 0) l -> avg l = 0.
Proof. intros H. unfold avg. assert (foldr Rplus 0 l = 0) as -> by (induction H as [|x l -> _ IH]; cbn; [done|]; rewrite IH; lra). unfold Rdiv. ring. Qed.
Lemma stddev_zeros (l : list R) : Forall (fun x => x = 0) l -> stddev l = 0.
Proof.
  intros H. unfold stddev. rewrite (avg_zeros l H). rewrite avg_zeros; [apply sqrt_0|]. apply Forall_forall. intros y (x&->&Hx)%elem_of_list_fmap.
  rewrite Forall_forall in H. rewrite (H x Hx). unfold Rsqr. ring.
Qed.
Lemma no_gaps_some (l : list R) : no_gaps (map Some l) = Some l.
Proof. induction l as [|x l IH]; [done|]. cbn. cbn in IH. by rewrite IH. Qed.
Lemma rms_of_orbit k r p : (0 < k)%nat -> format k r -> rms_of r p -> rms_orbit r = (Some p.1, Some p.2).
Proof.
  intros Hk [H1 H2] (xs&ys&Hx&Hy&->). assert (full r) as HF. { unfold full. rewrite Hx. apply Forall_forall. intros o (x&->&_)%elem_of_list_fmap. by eexists. }
  unfold rms_orbit. assert (reached_columns r = zip (r_x r) (r_y r)) as E.
  { unfold reached_columns. unfold full in HF. clear -HF. revert HF. generalize (r_y r). induction (r_x r) as [|o l IH]; intros ys HF; [done|].
    destruct ys as [|y ys]; [done|]. inversion HF as [|? ? [x ->] HF']; subst. simpl. f_equal. by apply IH. }
  rewrite E. assert (map fst (zip (r_x r) (r_y r)) = r_x r) as -> by (apply (fst_zip (r_x r) (r_y r)); lia).
  assert (map snd (zip (r_x r) (r_y r)) = r_y r) as -> by (apply (snd_zip (r_x r) (r_y r)); lia).
  rewrite Hx, Hy in *. rewrite map_length in H1, H2. unfold rms. rewrite !no_gaps_some. destruct xs as [|x xs]; [cbn in H1; lia|]. destruct ys as [|y ys]; [cbn in H2; lia|].
  cbn [fst snd]. by rewrite !mean_avg.
Qed.
Lemma converged_places n eps rs k : Forall (format k) rs -> converged n eps rs -> (0 < k)%nat.
Proof.
  intros HK (tail&vals&Hr&H2&Hs). destruct k as [|k]; [|lia]. exfalso. rewrite stddev_zeros in Hs; [lra|]. apply recent_lastn in Hr as [_ ->].
  assert (forall q, q ∈ lastn n rs -> format 0 q) as Hq by (intros q Hq; apply lastn_sub in Hq; rewrite Forall_forall in HK; auto).
  clear -H2 Hq. induction H2 as [|r p tail vals Hp H2 IH]; [constructor|]. unfold both. cbn.
  destruct (Hq r) as [E1 E2]; [constructor|]. destruct Hp as (xs&ys&Ex&Ey&->). rewrite Ex, map_length in E1. rewrite Ey, map_length in E2. destruct xs; [|done]. destruct ys; [|done].
  assert (R_sqrt.sqrt (avg (map Rsqr [])) = 0) as E0 by (rewrite avg_zeros by constructor; apply sqrt_0).
  constructor; [exact E0|]. constructor; [exact E0|]. apply IH. intros q' Hq'. apply Hq. by constructor.
Qed.
Lemma converged_stable n eps rs k : Forall (format k) rs -> converged n eps rs -> is_stable n eps (map rms_orbit rs) = true.
Proof.
  intros HK HC. pose proof (converged_places _ _ _ _ HK HC) as Hk. destruct HC as (tail&vals&Hr&H2&Hs). apply C47_criterion. exists vals. split; [|done].
  apply recent_lastn in Hr as [Hlen ->]. assert (as_numbers vals = lastn n (map rms_orbit rs)) as ->.
  { rewrite map_lastn. assert (forall q, q ∈ lastn n rs -> format k q) as Hq by (intros q Hq; apply lastn_sub in Hq; rewrite Forall_forall in HK; auto).
    clear -H2 Hq Hk. induction H2 as [|r p tail vals Hp H2 IH]; [done|]. unfold as_numbers in *. cbn [map]. rewrite (rms_of_orbit k r p); [|done|apply Hq; constructor|done].
    f_equal. apply IH. intros q' Hq'. apply Hq. by constructor. }
  apply lastn_recent. by rewrite map_length.
Qed.
Lemma below_omax rs k target : (0 < k)%nat -> Forall (format k) rs -> below_target target rs -> match last (map rms_orbit rs) with Some p => omax_lt p target | None => false end = true.
Proof.
  intros Hk HK (r&p&Hl&Hp&H1&H2). change (map rms_orbit rs) with (rms_orbit <$> rs). rewrite fmap_last, Hl. cbn [fmap option_fmap option_map].
  assert (format k r) as Hf. { rewrite Forall_forall in HK. apply HK. by apply last_Some_elem_of. }
  rewrite (rms_of_orbit k r p) by done. cbn. apply Rltb_true. by destruct (Rltb p.1 p.2).
Qed.
Lemma converged_last n eps rs : (n <> 0)%nat -> converged n eps rs -> exists r p, last rs = Some r /\ rms_of r p.
Proof.
  intros Hn (tail&vals&[[? _]|(_&HL&front&->)]&H2&_); [done|]. destruct tail as [|r0 tail _] using rev_ind; [cbn in HL; lia|].
  apply Forall2_app_inv_l in H2 as (v1&v2&_&H2&->). apply Forall2_cons_inv_l in H2 as (p&v3&Hp&_&->). exists r0, p. split; [|done]. by rewrite (assoc_L app), last_snoc.
Qed.
Lemma omax_below n eps rs k target : (n <> 0)%nat -> Forall (format k) rs -> converged n eps rs ->
  match last (map rms_orbit rs) with Some p => omax_lt p target | None => false end = true -> below_target target rs.
Proof.
  intros Hn HK HC H. pose proof (converged_places _ _ _ _ HK HC) as Hk. destruct (converged_last _ _ _ Hn HC) as (r&p&Hl&Hp). change (map rms_orbit rs) with (rms_orbit <$> rs) in H. rewrite fmap_last, Hl in H. cbn [fmap option_fmap option_map] in H.
  assert (format k r) as Hf. { rewrite Forall_forall in HK. apply HK. by apply last_Some_elem_of. }
  rewrite (rms_of_orbit k r p) in H by done. exists r, p. split; [done|]. split; [done|]. cbn in H. apply Rltb_true in H. destruct (Rltb p.1 p.2) eqn:Eab; [apply Rltb_true in Eab|apply Rltb_false in Eab]; lra.
Qed.
Lemma stable_conv n eps rs k : Forall full rs -> Forall (format k) rs -> is_stable n eps (map rms_orbit rs) = true -> converged n eps rs.
Proof. intros HF HK H. eapply (stable_converged n eps rs (MkLog (map seen rs) (map rms_orbit rs)) k); eauto. done. Qed.
Lemma criterion_settled maxsteps eps target rs k : (0 < maxsteps)%nat -> Forall full rs -> Forall (format k) rs ->
  orbit_criterion maxsteps eps target (map rms_orbit rs) = true <-> settled eps target maxsteps rs.
Proof.
  intros Hm HF HK. unfold orbit_criterion, settled, NREPRO. split.
  - intros [[H1 H2]%andb_true_iff|H]%orb_true_iff; [right|left; by eapply stable_conv]. assert (converged (Nat.min 5 maxsteps) eps rs) as HC by (by eapply stable_conv).
    split; [done|]. apply (omax_below (Nat.min 5 maxsteps) eps rs k); auto. lia.
  - intros [H|[H1 H2]]; apply orb_true_iff; [right; by eapply converged_stable|left]. apply andb_true_iff. pose proof (converged_places _ _ _ _ HK H1) as Hk. split; [by eapply below_omax|by eapply converged_stable].
Qed.
Lemma full_repro rs k : Forall (format k) rs -> full_transmission 5 rs -> is_repro (map seen rs) 5 && (default 0%nat (last (map seen rs)) =? k)%nat = true.
Proof.
  intros HK (tail&Hr&HF). pose proof Hr as [[? _]|(_&HL&front&Ers)]; [done|]. apply recent_lastn in Hr as [Hlen Hr].
  assert (Forall (fun r => seen r = k) tail) as HS.
  { apply Forall_forall. intros r Hin. rewrite Forall_forall in HF, HK. rewrite Ers in HK. destruct (HK r) as [E _]; [apply elem_of_app; by right|]. rewrite <- E. apply full_seen. auto. }
  destruct tail as [|r0 tail _] using rev_ind; [cbn in HL; lia|]. assert (last rs = Some r0) as Hlast by (by rewrite Ers, (assoc_L app), last_snoc).
  assert (seen r0 = k) as E0. { rewrite Forall_forall in HS. apply HS. apply elem_of_app. right. constructor. }
  unfold is_repro. rewrite map_length. destruct (length rs <? 5)%nat eqn:E; [apply Nat.ltb_lt in E; lia|]. change (map seen rs) with (seen <$> rs). rewrite fmap_last, Hlast. cbn [fmap option_fmap option_map].
  apply andb_true_iff. split.
  - change (seen <$> rs) with (map seen rs). rewrite map_lastn, <- Hr. apply forallb_forall. intros x (r&<-&Hin)%in_map_iff. apply Nat.eqb_eq. rewrite E0. rewrite Forall_forall in HS. apply HS. by apply elem_of_list_In.
  - by apply Nat.eqb_eq.
Qed.

Lemma map_take {A B} (f : A -> B) n l : map f (take n l) = take n (map f l).
Proof. apply (fmap_take f). Qed.
Section Stop.
  Context (w : world R) (pinv : list (list R) -> list (list R)).
  Definition arrival (k : nat) (h : list nat) : bool := is_repro h NREPRO && (default 0%nat (last h) =? k)%nat.
  Definition unchanged (s s' : sc R) : Prop := INJ s' = INJ s /\ ORD s' = ORD s.
  Lemma unchanged_steered X P s s' : steered_also X P s s' -> unchanged s s'.
  Proof. intros (_&A2&_&A4&_). by split. Qed.
  Lemma unchanged_trans a b c : unchanged a b -> unchanged b c -> unchanged a c.
  Proof. intros [A1 A2] [B1 B2]. split; congruence. Qed.
  Lemma unchanged_places s s' B : unchanged s s' -> read_places s' B = read_places s B.
  Proof. intros [E1 E2]. unfold read_places. by rewrite E1, E2. Qed.
  Lemma kicks_unchanged (cms : list nat * list nat) o1 d1 o2 d2 (s s1 s2 : sc R) u1 u2 : add_kicks o1 d1 false s = (Ok u1, s1) -> add_kicks o2 d2 true s1 = (Ok u2, s2) -> unchanged s s2.
  Proof.
    intros H1 H2. apply (unchanged_trans _ s1); eapply (unchanged_steered (fun _ => False) (fun _ => True)).
    - refine (pres_run _ _ _ _ _ _ H1). apply (steered_set_cm (fun _ => False)); auto.
    - refine (pres_run _ _ _ _ _ _ H2). apply (steered_set_cm (fun _ => False)); auto.
  Qed.
  Lemma stitch_loop_stops steps mplus reference bpms cms n k : forall r l s l' (s' : sc R), read_places s bpms = k ->
    stitch_loop w steps mplus reference bpms cms n r l s = (Ok l', s') -> stops (arrival k) (l_trans l) (l_trans l').
  Proof.
    induction steps as [|steps IH]; intros r l s l' s' Hk E; cbn [stitch_loop] in E; [discriminate|].
    apply bind_ok in E as (?&s1&E1&E). apply lift_ok in E1 as [_ ->]. apply bind_ok in E as (?&s2&E2&E). apply bind_ok in E as (?&s3&E3&E). pose proof (kicks_unchanged cms _ _ _ _ _ _ _ _ _ E2 E3) as HU.
    apply bind_ok in E as (rl&s4&Hr&E). apply read_and_log_ok in Hr as [Hr El]. destruct (reading_format _ _ _ _ _ Hr) as ([F1 _]&F2&F3). rewrite (unchanged_places _ _ _ HU), Hk in F1.
    match type of E with (if ?b then _ else _) _ = _ => assert (b = arrival k (l_trans rl.2)) as Eb end.
    { unfold arrival, last_trans. by rewrite F1. }
    rewrite Eb, El in E. cbn [l_trans] in E. destruct (arrival k (l_trans l ++ [seen rl.1])) eqn:Ea.
    - apply ret_ok in E as [<- _]. apply stops_one.
    - apply IH in E; [by eapply stops_more|]. rewrite <- Hk. transitivity (read_places s3 bpms); [by apply unchanged_places|by apply unchanged_places].
  Qed.
  Lemma first_turn_loop_stops steps mplus reference bpms cms k : forall r l s l' (s' : sc R), read_places s bpms = k ->
    first_turn_loop w steps mplus reference bpms cms r l s = (Ok l', s') -> stops (arrival k) (l_trans l) (l_trans l').
  Proof.
    induction steps as [|steps IH]; intros r l s l' s' Hk E; cbn [first_turn_loop] in E; [discriminate|]. destruct (last_trans l =? 0)%nat; [discriminate|].
    apply bind_ok in E as (?&s1&E1&E). apply lift_ok in E1 as [_ ->]. apply bind_ok in E as (?&s1&E1&E). apply lift_ok in E1 as [_ ->]. apply bind_ok in E as (?&s1&E1&E). apply lift_ok in E1 as [_ ->].
    apply bind_ok in E as (?&s1&E1&E). apply lift_ok in E1 as [_ ->]. apply bind_ok in E as (?&s1&E1&E). apply lift_ok in E1 as [_ ->]. cbv zeta in E.
    apply bind_ok in E as (?&s2&E2&E). apply bind_ok in E as (?&s3&E3&E). pose proof (kicks_unchanged cms _ _ _ _ _ _ _ _ _ E2 E3) as HU.
    apply bind_ok in E as (rl&s4&Hr&E). apply read_and_log_ok in Hr as [Hr El]. destruct (reading_format _ _ _ _ _ Hr) as ([F1 _]&F2&F3). rewrite (unchanged_places _ _ _ HU), Hk in F1.
    match type of E with (if ?b then _ else _) _ = _ => assert (b = arrival k (l_trans rl.2)) as Eb end.
    { unfold arrival, last_trans. by rewrite F1. }
    rewrite Eb in E. destruct (arrival k (l_trans rl.2)) eqn:Ea; rewrite El in Ea; cbn [l_trans] in Ea.
    - apply ret_ok in E as [<- _]. rewrite El. apply stops_one.
    - apply bind_ok in E as (?&s5&E5&E). apply IH in E; [rewrite El in E; by eapply stops_more|]. rewrite <- Hk. transitivity (read_places s4 bpms); [|transitivity (read_places s3 bpms); by apply unchanged_places].
      apply unchanged_places. destruct (is_repro _ WIGGLE_AFTER); [|by apply ret_ok in E5 as [_ ->]]. eapply unchanged_steered. refine (pres_run _ _ _ _ _ _ E5). apply steered_wiggling.
  Qed.
  (** from the log to the readings *)
  Lemma arrival_readings k rs a l : logged rs l -> Forall (format k) rs -> stops (arrival k) a (l_trans l) -> (length a <= 4)%nat -> forall n, (n < length rs)%nat -> ~ full_transmission 5 (take n rs).
  Proof.
    intros [HL _] HK [_ HS] Ha n Hn HF. assert (5 <= length (take n rs))%nat as Hl. { destruct HF as (tail&Hr&_). by apply recent_lastn in Hr as [? _]. }
    rewrite take_length in Hl. rewrite HL in HS. specialize (HS n). rewrite map_length in HS. rewrite <- firstn_map in HS || change (map seen rs) with (seen <$> rs) in HS.
    assert (arrival k (map seen (take n rs)) = true) as E by (apply full_repro; [by apply Forall_take|done]).
    change (map seen (take n rs)) with (seen <$> take n rs) in E. rewrite fmap_take in E. rewrite HS in E by lia. discriminate.
  Qed.

  (** ** Threading and stitching stop with the fifth complete reading in a row. *)
  Theorem C96_first_turn m reference cms bpms maxsteps (s s' : sc R) l :
    let B := used_bpms s bpms in let C := used_cms s cms in
    StronglySorted lt C.1 -> StronglySorted lt C.2 -> first_turn w pinv m reference cms bpms maxsteps s = (Ok l, s') ->
    exists rs, session w B (threading_step (pinv m) (used_reference m reference) B C) s rs s' /\ full_transmission 5 rs /\
      forall n, (n < length rs)%nat -> ~ full_transmission 5 (take n rs).
  Proof.
    intros B C H1 H2 H. destruct (C44_success w pinv _ _ _ _ _ _ _ _ H1 H2 H) as (_&rs&A1&_&A3&A4). exists rs. split; [done|]. split; [done|].
    destruct (session_format w B _ _ _ _ (step_threading_same _ _ _ _) A1) as [HK _].
    unfold first_turn in H. apply bind_ok in H as (q&s1&Hq&H). apply check_ords_ok in Hq as (v&->&->&_&->). apply bind_ok in H as (rl&s1&Hr&H). apply read_and_log_ok in Hr as [Hr El].
    destruct (reading_format _ _ _ _ _ Hr) as (_&F2&F3). apply (first_turn_loop_stops _ _ _ _ _ (read_places s B)) in H; [|by apply unchanged_places].
    eapply arrival_readings; [exact A4|exact HK|exact H|]. rewrite El. cbn. lia.
  Qed.
  Theorem C96_stitch m reference cms bpms k maxsteps (s s' : sc R) l :
    let B := used_bpms s bpms in let C := used_cms s cms in
    stitch w pinv m reference cms bpms k maxsteps s = (Ok l, s') ->
    exists rs, session w B (stitching_step (length B) k (used_reference m reference) (pinv m) C) s rs s' /\ full_transmission 5 rs /\
      forall n, (n < length rs)%nat -> ~ full_transmission 5 (take n rs).
  Proof.
    intros B C H. destruct (C46_success w pinv _ _ _ _ _ _ _ _ _ H) as (_&_&rs&A1&_&A3&_&A4). exists rs. split; [done|]. split; [done|].
    assert (forall rs a b, stitching_step (length B) k (used_reference m reference) (pinv m) C rs a b -> INJ b = INJ a /\ ORD b = ORD a) as Hsame by (intros ? a b [[(?&?&?&?&_) _]|[(?&?&?&?&_) _]]; done).
    destruct (session_format w B _ _ _ _ Hsame A1) as [HK _].
    unfold stitch in H. apply bind_ok in H as (s0&s1&H0&H). apply get_ok in H0 as [-> ->]. destruct (negb _); [discriminate|].
    apply bind_ok in H as (q&s1&Hq&H). apply check_ords_ok in Hq as (v&->&->&_&->). apply bind_ok in H as (rl&s1&Hr&H). apply read_and_log_ok in Hr as [Hr El]. cbv zeta in H. fold B C in H.
    destruct (last_trans rl.2 <? length B)%nat; [discriminate|].
    destruct (reading_format _ _ _ _ _ Hr) as (_&F2&F3). apply bind_ok in H as (rl'&s2&Hw&H). apply bind_ok in H as (ref&s3&Href&H). apply lift_ok in Href as [_ ->].
    assert (unchanged s s2 /\ (length (l_trans rl'.2) <= 2)%nat) as [HU Hlen].
    { destruct (last_trans rl.2 <? length B + k)%nat.
      - apply bind_ok in Hw as (u&s4&Hw1&Hw). apply bind_ok in Hw as (rl1&s5&Hr1&Hw). apply read_and_log_ok in Hr1 as [Hr1 El1]. destruct (_ <? _)%nat; [discriminate|]. apply ret_ok in Hw as [<- <-].
        destruct (reading_format _ _ _ _ _ Hr1) as (_&G2&G3). assert (unchanged s1 s4) as HU4 by (eapply unchanged_steered; refine (pres_run _ _ _ _ _ _ Hw1); apply steered_wiggling).
        split; [|rewrite El1, El; cbn; lia]. apply (unchanged_trans _ s1); [by split|]. apply (unchanged_trans _ s4); [done|by split].
      - apply ret_ok in Hw as [<- <-]. split; [by split|]. rewrite El. cbn. lia. }
    apply (stitch_loop_stops _ _ _ _ _ _ (read_places s B)) in H; [|by apply unchanged_places]. eapply arrival_readings; [exact A4|exact HK|exact H|lia].
  Qed.
  (** ** Balancing stops when the spread over five readings is small for the first time. *)
  Theorem C96_balance m reference cms bpms eps maxsteps (s s' : sc R) l :
    let B := used_bpms s bpms in let C := used_cms s cms in
    balance w pinv m reference cms bpms eps maxsteps s = (Ok l, s') ->
    exists rs, session w B (correction_step (fun r => two_turn_deviation (length B) (length B) r (used_reference m reference)) (pinv m) C) s rs s' /\ Forall full rs /\ converged 5 eps rs /\
      forall n, (n < length rs)%nat -> ~ converged 5 eps (take n rs).
  Proof.
    intros B C H. destruct (C45_balance w pinv _ _ _ _ _ _ _ _ _ H) as (_&_&rs&A1&_&A2&A3&A4). exists rs. split; [done|]. split; [done|]. split; [done|].
    destruct (session_format w B _ _ _ _ (step_correction_same _ _ _) A1) as [HK _].
    unfold balance in H. apply bind_ok in H as (s0&s1&H0&H). apply get_ok in H0 as [-> ->]. destruct (negb _); [discriminate|].
    apply bind_ok in H as (q&s1&Hq&H). apply check_ords_ok in Hq as (v&->&->&_&->). apply bind_ok in H as (rl&s1&Hr&H). apply read_and_log_ok in Hr as [Hr El]. destruct (_ <? _)%nat; [discriminate|].
    apply bind_ok in H as (ref&s3&Href&H). apply balance_loop_stops in H as [_ HS]. destruct A4 as [_ HL]. rewrite HL, El, map_length in HS. cbn [l_rms no_log length app] in HS.
    intros n Hn HC. assert (5 <= length (take n rs))%nat as Hl. { destruct HC as (tail&vals&Hr'&_). by apply recent_lastn in Hr' as [? _]. } rewrite take_length in Hl.
    assert (is_stable NREPRO eps (map rms_orbit (take n rs)) = true) as E by (eapply converged_stable; [by apply Forall_take|exact HC]).
    specialize (HS n ltac:(lia)). rewrite map_take in E. rewrite HS in E. discriminate E.
  Qed.
  (** ** Orbit correction stops when it has settled for the first time, or after its last step. *)
  Theorem C96_correct m reference cms bpms eps target maxsteps scale (s s' : sc R) l :
    let B := used_bpms s bpms in let C := used_cms s cms in
    (0 < maxsteps)%nat -> correct w pinv m reference cms bpms eps target maxsteps scale s = (Ok l, s') ->
    exists rs, session w B (orbit_correction_step (used_reference m reference) (pinv m) scale C) s rs s' /\ (2 <= length rs <= S maxsteps)%nat /\ Forall full rs /\
      (forall n, (2 <= n < length rs)%nat -> ~ settled eps target maxsteps (take n rs)) /\
      (settled eps target maxsteps rs \/ length rs = S maxsteps /\ (converged (Nat.min 5 maxsteps) eps rs \/ maxsteps = 1%nat)).
  Proof.
    intros B C Hm H. destruct (C45_correct w pinv _ _ _ _ _ _ _ _ _ _ _ Hm H) as (rs&A1&A2&A3&_&A4). exists rs. split; [done|]. split; [done|]. split; [done|].
    destruct (session_format w B _ _ _ _ (step_orbit_same _ _ _ _) A1) as [HK _].
    unfold correct in H. apply bind_ok in H as (q&s1&Hq&H). apply check_ords_ok in Hq as (v&->&->&_&->). apply bind_ok in H as (rl&s1&Hr&H). apply read_and_log_ok in Hr as [Hr El].
    apply correct_loop_stops in H as [[_ HS] HE]. destruct A4 as [_ HL]. rewrite HL, El in HS, HE. cbn [l_rms no_log length app] in HS, HE. rewrite map_length in HS, HE. split.
    - intros n Hn HC. specialize (HS n ltac:(lia)).
      assert (orbit_criterion maxsteps eps target (map rms_orbit (take n rs)) = true) as E by (eapply criterion_settled; [done|by apply Forall_take|by apply Forall_take|done]).
      rewrite map_take in E. rewrite HS in E. discriminate E.
    - destruct HE as [HE|[HE1 HE2]]; [left; by eapply criterion_settled|right]. split; [lia|]. destruct HE2 as [HE2|HE2]; [left|by right]. by eapply stable_conv.
  Qed.
End Stop.

(** The MATLAB names pass their criteria on. *)
Section Matlab.
  Context (w : world R) (npinv : list (list R) -> list (list R)) (svd : list (list R) -> list (list R) * list R * list (list R)).
  Notation spinv := (fun m => Model_Pinv.pinv svd m 0 0 1).
  Theorem C96_matlab_balance n m Mplus R0 cms bpms eps maxsteps (s s' : sc R) l :
    let B := used_bpms s bpms in let C := used_cms s cms in
    inverted_twice npinv svd n m Mplus -> SCfeedbackBalance w npinv spinv Mplus R0 cms bpms eps maxsteps s = (Ok l, s') ->
    exists rs, session w B (correction_step (fun r => two_turn_deviation (length B) (length B) r (reference_of m R0)) Mplus C) s rs s' /\ Forall full rs /\ converged 5 eps rs /\
      forall k, (k < length rs)%nat -> ~ converged 5 eps (take k rs).
  Proof.
    intros B C Hi H. destruct (C96_balance w spinv _ _ _ _ _ _ _ _ _ H) as (rs&A1&A2).
    cbv beta in A1. rewrite (C78_same_matrix npinv svd n m) in A1 by done. rewrite (used_reference_of npinv svd n m) in A1 by done. by exists rs.
  Qed.
  Theorem C96_matlab_run n m Mplus R0 cms bpms eps target maxsteps scale (s s' : sc R) l :
    let B := used_bpms s bpms in let C := used_cms s cms in
    inverted_twice npinv svd n m Mplus -> (0 < maxsteps)%nat -> SCfeedbackRun w npinv spinv Mplus R0 cms bpms eps target maxsteps scale s = (Ok l, s') ->
    exists rs, session w B (orbit_correction_step (reference_of m R0) Mplus scale C) s rs s' /\ (2 <= length rs <= S maxsteps)%nat /\ Forall full rs /\
      (forall k, (2 <= k < length rs)%nat -> ~ settled eps target maxsteps (take k rs)) /\
      (settled eps target maxsteps rs \/ length rs = S maxsteps /\ (converged (Nat.min 5 maxsteps) eps rs \/ maxsteps = 1%nat)).
  Proof.
    intros B C Hi Hm H. destruct (C96_correct w spinv _ _ _ _ _ _ _ _ _ _ _ Hm H) as (rs&A1&A2).
    cbv beta in A1. rewrite (C78_same_matrix npinv svd n m) in A1 by done. rewrite (used_reference_of npinv svd n m) in A1 by done. by exists rs.
  Qed.
End Matlab.
Print Assumptions C96_first_turn.
Print Assumptions C96_stitch.
Print Assumptions C96_balance.
Print Assumptions C96_correct.
Print Assumptions C96_matlab_balance.
Print Assumptions C96_matlab_run.

(** * Cases
    The machine of the cases of C44-C46; without a correction to make the readings stay at (1, 3) with spread 1.  Of at
    most three steps two are made when both rms are below the target 4; with target 3 all three are, and of at most
    nine steps four, when five readings are stable. *)
Local Open Scope Q_scope.
#[local] Instance TrigQ25 : Trig Q := TrigQ1.
Definition steps_taken (r : res (log Q) * sc Q) : option nat := match fst r with Ok l => Some (length (l_rms l) - 1)%nat | Err _ => None end.
Example C96_case_correct :
  let run target maxsteps := steps_taken (correct line_world some_inverse rm1 (Some [1; 1; 3; 3]) None None 2 target maxsteps 0 (line_machine 1 3 1 (replicate 200 0))) in
  run 4 3%nat = Some 2%nat /\ run 3 3%nat = Some 3%nat /\ run 3 9%nat = Some 4%nat /\ run 4 9%nat = Some 4%nat /\ run 0 1%nat = Some 1%nat.
Proof. vm_compute. done. Qed.
Example C96_case_balance : steps_taken (balance line_world some_inverse rm2 (Some [1; 1; 5; 6; 3; 3; 7; 8]) None None 2 9 (line_machine 1 3 2 (replicate 200 0))) = Some 4%nat.
Proof. vm_compute. done. Qed.
Example C96_case_first_turn : steps_taken (first_turn line_world some_inverse rm1 None None None 9 (line_machine 1 3 1 (replicate 100 0))) = Some 4%nat.
Proof. vm_compute. done. Qed.
(** the second reading is incomplete: counting starts again *)
Example C96_case_stitch : steps_taken (stitch line_world some_inverse rm2 None None None 1 9 (line_machine 0 0 2 (replicate 18 0 ++ 2 :: replicate 200 0))) = Some 6%nat.
Proof. vm_compute. done. Qed.
