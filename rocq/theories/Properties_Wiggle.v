(** C110: where wiggling stops. *)
From Coq Require Import Reals Lra Lia QArith ZArith.
From stdpp Require Import base gmap strings list.
From Verif Require Import Num Base Model_Arr Model_SC Model_Err Model_Beam Model_Orbit Lemmas Proofs_Reg Proofs_Beam Proofs_Setpoint Properties_Random Properties_Errors Properties_Field Properties_Beam Properties_Orbit Properties_Thread Properties_Tight11 Spec Examples.
Local Open Scope string_scope.
Local Open Scope list_scope.
Local Open Scope nat_scope.

(** * Specification *)
(** one kick: the correctors added to, what is added, and how many monitors saw beam in the readings taken then *)
Record kick := MkKick { k_h : list nat; k_v : list nat; k_point : R * R; k_counts : list nat }.
Section Course.
  Context (w : world R) (bpms : list nat) (limit : nat).
  Fixpoint readings (counts : list nat) (s s' : sc R) : Prop :=
    match counts with
    | [] => s' = s
    | c :: cs => exists r s1, bpm_reading w (Some bpms) false s = (Ok r, s1) /\ seen r = c /\ readings cs s1 s'
    end.
  (** one reading if it shows too few monitors, otherwise three *)
  Definition counted (k : kick) : Prop := (exists a, k_counts k = [a] /\ a < limit) \/ (exists a b c, k_counts k = [a; b; c] /\ limit <= a).
  Definition kicked (k : kick) (s s' : sc R) : Prop :=
    counted k /\ exists s1 s2, set_cm_setpoints (k_h k) DFloat [(k_point k).1] false ADD s = (Ok tt, s1) /\ set_cm_setpoints (k_v k) DFloat [(k_point k).2] true ADD s1 = (Ok tt, s2) /\ readings (k_counts k) s2 s'.
  Fixpoint course (ks : list kick) (s s' : sc R) : Prop :=
    match ks with [] => s' = s | k :: ks => exists s1, kicked k s s1 /\ course ks s1 s' end.
  (** the last two kicks both reached far enough, and the last five readings agree *)
  Definition settled (ks : list kick) : Prop :=
    exists ks0 k1 k2 a n, ks = ks0 ++ [k1; k2] /\ k_counts k1 = [a; n; n] /\ k_counts k2 = [n; n; n] /\ limit <= a /\ limit <= n.
  (** number of monitors reached in the latest reading *)
  Definition latest (c0 : nat) (ks : list kick) : nat := List.last (concat (map k_counts ks)) c0.
  (** the [i]-th kick belongs to round [i / 32], in which one corrector per plane more is used than in the round before, the last ones upstream of the
      monitor reached before the round; it is the [i mod 32]-th step of the spiral *)
  Definition planned (cms : list nat * list nat) (c0 : nat) (ks : list kick) : Prop :=
    forall i k, ks !! i = Some k -> let upto := (Z.of_nat (latest c0 (take (i / 32 * 32) ks)) - 1)%Z in
      (exists j, get_last_cm upto (S (i / 32)) bpms cms.1 = Ok (k_h k, j)) /\ (exists j, get_last_cm upto (S (i / 32)) bpms cms.2 = Ok (k_v k, j)) /\
      golden_donut_diffs (1 / 2000)%R (1 / 1000)%R 32 !! (i mod 32) = Some (k_point k).
End Course.

(** * Lemmas *)
Section Lemmas.
  Context (w : world R) (bpms : list nat) (limit : nat).
  Lemma course_app ks ks' s s1 s' : course w bpms limit ks s s1 -> course w bpms limit ks' s1 s' -> course w bpms limit (ks ++ ks') s s'.
  Proof. revert s. induction ks as [|k ks IH]; intros s; cbn; [by intros ->|]. intros (t&H1&H2) H3. exists t. auto. Qed.
  Lemma course_counted ks s s' : course w bpms limit ks s s' -> Forall (counted limit) ks.
  Proof. revert s. induction ks as [|k ks IH]; intros s; cbn; [constructor|]. intros (t&[H1 _]&H2). constructor; eauto. Qed.

  Lemma lastn5 (l : list nat) a b c d e : lastn 5 (l ++ [a; b; c; d; e]) = [a; b; c; d; e].
  Proof. unfold lastn. rewrite app_length. cbn [length]. replace (length l + 5 - 5) with (length l) by lia. by rewrite drop_app. Qed.
  Lemma repro5 (l : list nat) a b c d e : is_repro (l ++ [a; b; c; d; e]) 5 = true <-> a = e /\ b = e /\ c = e /\ d = e.
  Proof.
    unfold is_repro. rewrite app_length. cbn [length]. rewrite (proj2 (Nat.ltb_ge _ _)) by lia. rewrite lastn5.
    replace (l ++ [a; b; c; d; e]) with ((l ++ [a; b; c; d]) ++ [e]) by (by rewrite <- app_assoc). rewrite last_snoc. cbn [forallb]. rewrite !andb_true_iff, !Nat.eqb_eq. intuition congruence.
  Qed.
  Lemma settled_repro c0 ks k a b c : Forall (counted limit) ks -> k_counts k = [a; b; c] -> limit <= a ->
    is_repro (c0 :: concat (map k_counts (ks ++ [k]))) 5 = true <-> settled limit (ks ++ [k]).
  Proof.
    intros HF Hk Ha. rewrite map_app, concat_app. cbn [map concat]. rewrite Hk, app_nil_r. destruct ks as [|k' ks _] using rev_ind.
    - cbn. split; [by cbv|]. intros (ks0&k1&k2&x&n&E&_). apply (f_equal length) in E. rewrite app_length in E. cbn in E. lia.
    - apply Forall_app in HF as [_ HF]. apply Forall_inv in HF. rewrite map_app, concat_app. cbn [map concat]. rewrite app_nil_r.
      set (l := concat (map k_counts ks)). split.
      + intros H. destruct HF as [(x&Ex&Hx)|(x&y&z&Ex&Hx)]; rewrite Ex in H.
        * destruct (exists_last (l := c0 :: l)) as (l'&y&El); [done|]. replace (c0 :: (l ++ [x]) ++ [a; b; c]) with ((c0 :: l) ++ [x; a; b; c]) in H by (cbn; by rewrite <- app_assoc). rewrite El, <- app_assoc in H. cbn [app] in H. apply repro5 in H. lia.
        * replace (c0 :: (l ++ [x; y; z]) ++ [a; b; c]) with ((c0 :: l ++ [x]) ++ [y; z; a; b; c]) in H by (cbn; by rewrite <- !app_assoc). apply repro5 in H as (->&->&->&->).
          exists ks, k', k, x, c. split_and!; try done. by rewrite <- app_assoc.
      + intros (ks0&k1&k2&x&n&E&E1&E2&_&_). replace (ks0 ++ [k1; k2]) with ((ks0 ++ [k1]) ++ [k2]) in E by (by rewrite <- app_assoc). apply app_inj_tail in E as [E <-]. apply app_inj_tail in E as [_ <-].
        rewrite E1. rewrite Hk in E2. injection E2 as -> -> ->.
        replace (c0 :: (l ++ [x; n; n]) ++ [n; n; n]) with ((c0 :: l ++ [x]) ++ [n; n; n; n; n]) by (cbn; by rewrite <- !app_assoc). by apply repro5.
  Qed.
  Lemma not_settled ks k a : k_counts k = [a] -> ~ settled limit (ks ++ [k]).
  Proof. intros Hk (ks0&k1&k2&x&n&E&_&E2&_). replace (ks0 ++ [k1; k2]) with ((ks0 ++ [k1]) ++ [k2]) in E by (by rewrite <- app_assoc). apply app_inj_tail in E as [_ <-]. congruence. Qed.

  (** the run stops exactly where the kicks have settled *)
  Definition stops (b : bool) (ks ks' : list kick) : Prop := forall j, 0 < j <= length ks' -> (settled limit (ks ++ take j ks') <-> b = true /\ j = length ks').
  Lemma stops_cons b ks k ks' : ks' <> [] \/ b = false -> ~ settled limit (ks ++ [k]) -> stops b (ks ++ [k]) ks' -> stops b ks (k :: ks').
  Proof.
    intros Hne Hk Hs [|j] Hj; [lia|]. cbn [take length] in *. destruct j as [|j].
    - rewrite take_0. split; [done|]. intros [-> E]. destruct Hne as [Hne|]; [|done]. destruct ks'; [done|]. cbn in E. lia.
    - specialize (Hs (S j) ltac:(lia)). rewrite <- app_assoc in Hs. cbn [app] in Hs. rewrite Hs. intuition lia.
  Qed.
  Lemma points_course h v pts : forall c0 ks l s b l' s', Forall (counted limit) ks -> l_trans l = c0 :: concat (map k_counts ks) -> wiggle_points w bpms h v limit pts l s = (Ok (b, l'), s') ->
    exists ks', course w bpms limit ks' s s' /\ l_trans l' = c0 :: concat (map k_counts (ks ++ ks')) /\ Forall (fun k => k_h k = h /\ k_v k = v) ks' /\
      map k_point ks' = take (length ks') pts /\ length ks' <= length pts /\ (b = false -> length ks' = length pts) /\ (b = true -> ks' <> []) /\ stops b ks ks'.
  Proof.
    induction pts as [|p pts IH]; intros c0 ks l s b l' s' HF Hl H; cbn [wiggle_points] in H.
    { apply ret_ok in H as [E <-]. injection E as <- <-. exists []. rewrite app_nil_r. split_and!; try done. intros j Hj. cbn in Hj. lia. }
    apply bind_ok in H as ([]&s1&S1&H). apply bind_ok in H as ([]&s2&S2&H). apply bind_ok in H as (rl&s3&R1&H). apply read_and_log_ok in R1 as [R1 T1].
    assert (last_trans rl.2 = seen rl.1) as El. { rewrite T1. unfold last_trans. cbn [l_trans]. by rewrite last_snoc. } rewrite El in H.
    destruct (limit <=? seen rl.1) eqn:Ec.
    - apply Nat.leb_le in Ec. apply bind_ok in H as (rl1&s4&R2&H). apply read_and_log_ok in R2 as [R2 T2]. apply bind_ok in H as (rl2&s5&R3&H). apply read_and_log_ok in R3 as [R3 T3].
      set (k := MkKick h v p [seen rl.1; seen rl1.1; seen rl2.1]).
      assert (counted limit k) as Hk by (right; by eexists _, _, _).
      assert (kicked w bpms limit k s s5) as HK. { split; [done|]. exists s1, s2. split_and!; [done..|]. cbn. exists rl.1, s3. split_and!; [done..|]. exists rl1.1, s4. split_and!; [done..|]. by exists rl2.1, s5. }
      assert (l_trans rl2.2 = c0 :: concat (map k_counts (ks ++ [k]))) as Ht.
      { rewrite T3, T2, T1. cbn [l_trans]. rewrite Hl, map_app, concat_app. cbn. by rewrite <- !app_assoc. }
      pose proof (settled_repro c0 ks k _ _ _ HF eq_refl Ec) as HS. rewrite <- Ht in HS. fold NREPRO in HS. destruct (is_repro (l_trans rl2.2) NREPRO) eqn:Er.
      + apply ret_ok in H as [E <-]. injection E as <- <-. exists [k]. split_and!; try done; [by eexists|by repeat constructor|cbn; lia|].
        intros j Hj. cbn in Hj. replace j with 1 by lia. cbn. intuition.
      + assert (~ settled limit (ks ++ [k])) as Hns by (intros X; apply HS in X; discriminate X).
        eapply (IH c0 (ks ++ [k])) in H as (ks'&C1&C2&C3&C4&C5&C6&C7&C8); [|apply Forall_app; split; [done|by constructor]|done].
        exists (k :: ks'). rewrite <- app_assoc in C2. split_and!; [exists s5; done|done|by constructor|cbn; by rewrite C4|cbn; lia|intros; cbn; by rewrite C6|done|]. apply stops_cons; [destruct b; auto|done|done].
    - apply Nat.leb_gt in Ec. set (k := MkKick h v p [seen rl.1]).
      assert (kicked w bpms limit k s s3) as HK. { split; [left; by eexists|]. exists s1, s2. split_and!; [done..|]. cbn. by exists rl.1, s3. }
      assert (l_trans rl.2 = c0 :: concat (map k_counts (ks ++ [k]))) as Ht. { rewrite T1. cbn [l_trans]. rewrite Hl, map_app, concat_app. done. }
      eapply (IH c0 (ks ++ [k])) in H as (ks'&C1&C2&C3&C4&C5&C6&C7&C8); [|apply Forall_app; split; [done|constructor; [exact (proj1 HK)|done]]|done].
      exists (k :: ks'). rewrite <- app_assoc in C2. split_and!; [exists s3; done|done|by constructor|cbn; by rewrite C4|cbn; lia|intros; cbn; by rewrite C6|done|]. apply stops_cons; [destruct b; auto|by eapply not_settled|done].
  Qed.
  Lemma stops_app b ks k1 k2 : k2 <> [] \/ b = false -> stops false ks k1 -> stops b (ks ++ k1) k2 -> stops b ks (k1 ++ k2).
  Proof.
    intros Hne H1 H2 j Hj. rewrite app_length in *. destruct (decide (j <= length k1)) as [Hle|Hgt].
    - rewrite take_app_le by done. rewrite (H1 j) by lia. split; [intros [? _]; discriminate|]. intros [-> E]. destruct Hne as [Hne|]; [|done]. destruct k2; [done|]. cbn in E. lia.
    - rewrite take_app_ge by lia. specialize (H2 (j - length k1) ltac:(lia)). rewrite <- app_assoc in H2. rewrite H2. intuition lia.
  Qed.
  Lemma latest_last c0 ks (l : log R) : l_trans l = c0 :: concat (map k_counts ks) -> last_trans l = latest c0 ks.
  Proof.
    unfold last_trans, latest. intros ->. generalize (concat (map k_counts ks)). intros L. destruct L as [|x L _] using rev_ind; [done|]. by rewrite app_comm_cons, last_snoc, List.last_last.
  Qed.
  Lemma spiral_length : length (golden_donut_diffs (1 / 2000)%R (1 / 1000)%R 32) = 32.
  Proof. unfold golden_donut_diffs. by rewrite map_length, seq_length. Qed.
  Lemma planned_block cms c0 ks ks1 m h v jh jv : planned bpms cms c0 ks -> length ks = 32 * m -> length ks1 <= 32 ->
    get_last_cm (Z.of_nat (latest c0 ks) - 1) (S m) bpms cms.1 = Ok (h, jh) -> get_last_cm (Z.of_nat (latest c0 ks) - 1) (S m) bpms cms.2 = Ok (v, jv) ->
    Forall (fun k => k_h k = h /\ k_v k = v) ks1 -> map k_point ks1 = take (length ks1) (golden_donut_diffs (1 / 2000)%R (1 / 1000)%R 32) -> planned bpms cms c0 (ks ++ ks1).
  Proof.
    intros HP HL HL1 Hh Hv HF Hp i k Hi. destruct (decide (i < length ks)) as [Hlt|Hge].
    - rewrite lookup_app_l in Hi by done. rewrite take_app_le by (pose proof (Nat.mul_div_le i 32); lia). by apply HP.
    - apply not_lt in Hge. rewrite lookup_app_r in Hi by lia. pose proof (lookup_lt_Some _ _ _ Hi) as Hlt. assert (i / 32 = m) as -> by (symmetry; apply (Nat.div_unique i 32 m (i - 32 * m)); lia).
      assert (i mod 32 = i - length ks) as -> by (symmetry; apply (Nat.mod_unique i 32 m); lia). rewrite take_app_alt by lia.
      destruct (proj1 (Forall_lookup _ _) HF _ _ Hi) as [-> ->]. split_and!; [by eexists|by eexists|].
      assert (map k_point ks1 !! (i - length ks) = Some (k_point k)) as E by (by rewrite list_lookup_fmap, Hi). rewrite Hp, lookup_take in E by lia. done.
  Qed.
  Lemma range_R : @WIGGLE_ANGLE_RANGE R _ = ((1 / 2000)%R, (1 / 1000)%R).
  Proof. unfold WIGGLE_ANGLE_RANGE, micro. num_R. f_equal; field. Qed.
  Lemma nums_course cms r : forall m c0 ks l s b l' s', Forall (counted limit) ks -> length ks = 32 * m -> planned bpms cms c0 ks -> l_trans l = c0 :: concat (map k_counts ks) ->
    wiggle_nums w bpms cms limit (seq (S m) r) l s = (Ok (b, l'), s') ->
    exists ks', course w bpms limit ks' s s' /\ l_trans l' = c0 :: concat (map k_counts (ks ++ ks')) /\ planned bpms cms c0 (ks ++ ks') /\
      length ks' <= 32 * r /\ (b = false -> length ks' = 32 * r) /\ (b = true -> ks' <> []) /\ stops b ks ks'.
  Proof.
    induction r as [|r IH]; intros m c0 ks l s b l' s' HF HL HP Hl H; cbn [seq wiggle_nums] in H.
    { apply ret_ok in H as [E <-]. injection E as <- <-. exists []. rewrite app_nil_r. split_and!; try done. intros j Hj. cbn in Hj. lia. }
    apply bind_ok in H as ([h jh]&s1&H1&H). apply lift_ok in H1 as [Hh ->]. apply bind_ok in H as ([v jv]&s1&H1&H). apply lift_ok in H1 as [Hv ->]. apply bind_ok in H as ([b1 l1]&s1&H1&H).
    rewrite (latest_last _ _ _ Hl) in Hh, Hv. rewrite range_R in H1. cbn [fst snd] in H, H1. change WIGGLE_ANGLE_STEPS with 32 in H1.
    eapply points_course in H1 as (k1&C1&C2&C3&C4&C5&C6&C7&C8); [|done|done]. rewrite spiral_length in C5, C6.
    assert (planned bpms cms c0 (ks ++ k1)) as HP1 by (by eapply planned_block). destruct b1.
    - apply ret_ok in H as [E <-]. injection E as <- <-. exists k1. split_and!; try done; lia.
    - specialize (C6 eq_refl). assert (Forall (counted limit) (ks ++ k1)) as HF1 by (apply Forall_app; split; [done|by eapply course_counted]).
      destruct (IH (S m) c0 (ks ++ k1) l1 s1 b l' s' HF1 ltac:(rewrite app_length; lia) HP1 C2 H) as (k2&D1&D2&D3&D4&D5&D6&D7).
      exists (k1 ++ k2). rewrite (app_assoc ks k1 k2), app_length. split_and!; [by eapply course_app|done|done|lia|intros E; specialize (D5 E); lia|intros E X; apply (D6 E); by apply app_eq_nil in X as [_ X]|].
      apply stops_app; [destruct b; auto|done|done].
  Qed.
End Lemmas.

(** * Theorems *)
Section C110.
  Context (w : world R).
  (** A returning call has taken a reading and then made kicks as planned; it stopped at the first moment the kicks had settled, or after all eight rounds with
      the latest reading reaching far enough *)
  Theorem C110_course bpms cms limit (s s' : sc R) u : wiggling w bpms cms limit s = (Ok u, s') ->
    exists c0 s0 ks, readings w bpms [c0] s s0 /\ course w bpms limit ks s0 s' /\ planned bpms cms c0 ks /\ limit <= latest c0 ks /\
      (forall j, 0 < j < length ks -> ~ settled limit (take j ks)) /\ (settled limit ks \/ length ks = 256).
  Proof.
    intros H. unfold wiggling in H. apply bind_ok in H as (rl&s1&R1&H). apply read_and_log_ok in R1 as [R1 T1]. apply bind_ok in H as ([b l]&s2&H2&H). cbn [fst snd] in H.
    apply (nums_course w bpms limit cms 8 0 (seen rl.1) []) in H2 as (ks&C1&C2&C3&C4&C5&C6&C7); [|constructor|done|intros i k Hi; done|by rewrite T1]. cbn [app] in *.
    assert (forall j, 0 < j < length ks -> ~ settled limit (take j ks)) as Hns. { intros j Hj X. apply (C7 j) in X; [|lia]. lia. }
    exists (seen rl.1), s1, ks. assert (s' = s2 /\ (b = true \/ limit <= last_trans l)) as [-> Hb].
    { destruct b; [apply ret_ok in H as [_ <-]; auto|]. destruct (limit <=? last_trans l) eqn:E; [|discriminate]. apply Nat.leb_le in E. apply ret_ok in H as [_ <-]. auto. }
    split; [by exists rl.1, s1|]. split; [done|]. split; [done|]. rewrite (latest_last _ _ _ C2) in Hb. destruct b.
    - assert (settled limit ks) as HS. { destruct ks as [|k ks]; [by destruct (C6 eq_refl)|]. specialize (C7 (length (k :: ks))). rewrite firstn_all in C7. apply C7; [cbn; lia|done]. }
      split_and!; [|done|by left]. destruct HS as (ks0&k1&k2&a&n&->&_&E2&_&Hn). unfold latest. replace (ks0 ++ [k1; k2]) with ((ks0 ++ [k1]) ++ [k2]) by (by rewrite <- app_assoc). rewrite map_app, concat_app. cbn [map concat]. rewrite E2, app_nil_r.
      change [n; n; n] with ([n; n] ++ [n]). by rewrite app_assoc, List.last_last.
    - destruct Hb as [|Hb]; [done|]. split_and!; [done|done|right; by apply C5].
  Qed.
  (** Finding: before all rounds are over it never stops at the first kick that lets the beam through: the kick before the last one did so too, in all its readings but possibly the first alike *)
  Corollary C110_finding_two_kicks bpms cms limit (s s' : sc R) u : wiggling w bpms cms limit s = (Ok u, s') ->
    exists c0 s0 ks, readings w bpms [c0] s s0 /\ course w bpms limit ks s0 s' /\ (length ks = 256 \/ exists before k1 k2 a n, ks = before ++ [k1; k2] /\ k_counts k1 = [a; n; n] /\ k_counts k2 = [n; n; n] /\ limit <= a /\ limit <= n).
  Proof. intros H. apply C110_course in H as (c0&s0&ks&H1&H2&_&_&_&H3). exists c0, s0, ks. split_and!; [done..|]. destruct H3 as [H3|]; auto. Qed.
End C110.
Print Assumptions C110_course.
Print Assumptions C110_finding_two_kicks.

(** * Cases: the beam passes with any kick, and the second step of the spiral is made nevertheless; the beam passes only with the first kick, and wiggling fails *)
Local Open Scope Q_scope.
#[local] Instance TrigQ27 : Trig Q := { ncos := fun _ => 1; nsin := fun _ => 0; nsqrt := fun x => x; npi := 0 }.
Definition corrector_at (s : sc Q) : option Q := match (e ← RING s !! 0%nat; e !! "KickAngle") with Some (VVec [a; b]) => Some (Qred a) | _ => None end.
Example C110_case :
  let run := wiggling (gate_world (fun k => negb (Qeq_bool k 0))) [1; 3]%nat ([0], [0])%nat 2 (line_machine 0 0 1 (replicate 400 0)) in
  fst run = Ok tt /\ corrector_at (snd run) = Some (17 # 62000000) /\ map (fun p => (Qred p.1, Qred p.2)) (take 2 (golden_donut_diffs (1 # 2000) (1 # 1000) 32)) = [(1 # 4000000, 0); (3 # 124000000, 0)].
Proof. vm_compute. done. Qed.
Example C110_finding_case :
  let open k := Qeq_bool k (1 # 4000000) in
  let kicked := set_cm_setpoints [0%nat] DFloat [1 # 4000000] false ADD (line_machine 0 0 1 (replicate (60 * 100) 0)) in
  (exists r, fst (bpm_reading (gate_world open) (Some [1; 3]%nat) false (snd kicked)) = Ok r /\ length (somes (r_x r)) = 2%nat) /\
  fst (wiggling (gate_world open) [1; 3]%nat ([0], [0])%nat 2 (line_machine 0 0 1 (replicate (60 * 100) 0))) = Err RuntimeError.
Proof. split; [eexists; split|]; vm_compute; reflexivity. Qed.
