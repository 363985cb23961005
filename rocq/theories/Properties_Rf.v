(** C50, C51: RF phase folding and the RF scans. *)
From Coq Require Import Reals Lra Lia QArith ZArith Sorting.Sorted.
From stdpp Require Import base gmap strings list.
From Verif Require Import Num Base Model_Arr Model_SC Model_Err Model_Beam Model_Orbit Model_Scan Lemmas Proofs_Update Proofs_Setpoint Proofs_Loop2 Proofs_Beam Spec Proofs_CM Proofs_CM2 Properties_Setpoint3 Properties_Field Properties_Beam Properties_Orbit.
Local Open Scope string_scope.
Local Open Scope list_scope.
Local Open Scope R_scope.

(** * C50: folding *)
Theorem C50_folded d lamb : 0 < lamb ->
  - lamb / 2 < fold_phase d lamb <= lamb / 2 /\ exists k : Z, fold_phase d lamb = d + IZR k * lamb.
Proof.
  intros Hl. unfold fold_phase, nrem, ntwo. rewrite nabs_R. num_R. rewrite nfloor_R.
  pose proof (base_Int_part (d / lamb)) as [H1 H2]. set (k := Int_part (d / lamb)) in *. clearbody k.
  assert (d = d / lamb * lamb) as Hd by (field; lra). set (q := d / lamb) in *. clearbody q. subst d.
  assert (0 <= q * lamb - lamb * IZR k < lamb) as [A1 A2] by nra. set (r := q * lamb - lamb * IZR k) in *.
  rewrite (Rabs_right r) by lra. change (1 + 1) with 2.
  destruct (Rltb (lamb / 2) r) eqn:E.
  - apply Rltb_true in E. unfold nsign. num_R.
    replace (Rltb r 0) with false by (symmetry; apply Rltb_false; lra). replace (Rltb 0 r) with true by (symmetry; apply Rltb_true; lra).
    split; [lra|]. exists (- k - 1)%Z. rewrite minus_IZR, opp_IZR. subst r. lra.
  - apply Rltb_false in E. split; [lra|]. exists (- k)%Z. rewrite opp_IZR. subst r. lra.
Qed.
(** no other value in the half-open period is equivalent *)
Theorem C50_unique d lamb x (k : Z) : 0 < lamb -> - lamb / 2 < x <= lamb / 2 -> x = d + IZR k * lamb -> x = fold_phase d lamb.
Proof.
  intros Hl Hx Hk. destruct (C50_folded d lamb Hl) as [Hf [m Hm]]. set (y := fold_phase d lamb) in *. clearbody y.
  assert (x - y = IZR (k - m) * lamb) as E by (rewrite minus_IZR; lra).
  assert (k - m = 0)%Z as E0.
  { destruct (Z.lt_trichotomy (k - m) 0) as [H|[H|H]]; [|done|].
    - assert (IZR (k - m) <= -1) by (apply IZR_le; lia). nra.
    - assert (1 <= IZR (k - m)) by (apply IZR_le; lia). nra. }
  rewrite E0 in E. lra.
Qed.

(** * C51: specification *)

(** Only the set-point of one parameter and the three actual values of the given cavities, and the random stream, may differ. *)
Definition only_cavities (param : string) (cavs : list nat) (s s' : sc R) : Prop :=
  IDEALRING s' = IDEALRING s /\ INJ s' = INJ s /\ SIG s' = SIG s /\ ORD s' = ORD s /\ length (RING s') = length (RING s) /\
  forall i a, ~ (i ∈ cavs /\ (a = param +:+ "SetPoint" \/ a ∈ ["Voltage"; "Frequency"; "TimeLag"])) -> attr_at s' i a = attr_at s i a.
(** every given cavity has its set-point moved by [d], and its actual values follow its set-points and errors *)
Definition moved_by (param : string) (cavs : list nat) (d : R) (s s' : sc R) : Prop :=
  only_cavities param cavs s s' /\
  (forall i, i ∈ cavs -> exists v, number s i (param +:+ "SetPoint") = Some v /\ number s' i (param +:+ "SetPoint") = Some (v + d)) /\
  (forall i f, i ∈ cavs -> f ∈ ["Voltage"; "Frequency"; "TimeLag"] ->
     exists sp cal off, number s' i (f +:+ "SetPoint") = Some sp /\ number s' i (f +:+ "CalError") = Some cal /\
       number s' i (f +:+ "Offset") = Some off /\ number s' i f = Some (sp * (1 + cal) + off)).
(** equally spaced values from [a] to [b] *)
Definition evenly (a b : R) (n : nat) (l : list R) : Prop :=
  length l = n /\ forall k x, l !! k = Some x -> x = a + INR k * ((b - a) / INR (n - 1)).
(** what the scan saw: for every offset a value measured with all cavities moved by just that offset *)
Definition scanned (measure : sc R -> option R * option R -> Prop) (param : string) (cavs : list nat) (s : sc R)
    (tests : list R) (ys : list (option R * option R)) : Prop :=
  Forall2 (fun d y => exists s1, moved_by param cavs d s s1 /\ measure s1 y) tests ys.
(** the points for which something was measured *)
Inductive data_of : list R -> list (option R * option R) -> list (R * R * option R) -> Prop :=
| data_nil : data_of [] [] []
| data_skip d e tests ys data : data_of tests ys data -> data_of (d :: tests) ((None, e) :: ys) data
| data_take d y e tests ys data : data_of tests ys data -> data_of (d :: tests) ((Some y, e) :: ys) ((d, y, e) :: data).

(** * Lemmas *)
Lemma only_cavities_frame param cavs (s s' : sc R) : frame (cavI param cavs) s s' -> only_cavities param cavs s s'.
Proof.
  intros F. pose proof F as (F1&F2&F3&F4&F5&[F6 _]). unfold only_cavities; repeat split_and?; auto. intros i a H. rewrite !attr_at_aget. apply (frame_aget _ _ _ _ _ F). exact H.
Qed.
Lemma only_cavities_quiet param cavs (s s' : sc R) : quiet s s' -> only_cavities param cavs s s'.
Proof. intros H. destruct (quiet_same _ _ H) as (E&?&?&?&?). unfold only_cavities; repeat split_and?; auto; [by rewrite E|]. intros i a _. unfold attr_at. by rewrite E. Qed.
#[global] Instance only_cavities_preorder param cavs : PreOrder (only_cavities param cavs).
Proof.
  split; [intros s; unfold only_cavities; repeat split_and?; auto|]. intros a b c (A1&A2&A3&A4&A5&A6) (B1&B2&B3&B4&B5&B6).
  unfold only_cavities; repeat split_and?; try congruence. intros i x H. by rewrite B6, A6.
Qed.
Lemma check_single {T} `{Num T} method ords (x : T) : check_input_and_setpoints method ords [x] = check_input_and_setpoints method ords (replicate (length ords) x).
Proof.
  unfold check_input_and_setpoints. destruct (decide _); [|done]. simpl. rewrite replicate_length, Nat.eqb_refl, orb_true_r.
  destruct ords as [|i [|j ords]]; done.
Qed.
Lemma cavity_single {T} `{Num T} ords dt (x : T) param method : forall s, set_cavity_setpoints ords dt [x] param method s = set_cavity_setpoints ords dt (replicate (length ords) x) param method s.
Proof. intros s. unfold set_cavity_setpoints, cavity_targets, bind, get. by rewrite check_single. Qed.
Lemma magnet_single {T} `{Num T} ords dt (x : T) skew order method dc : forall s, set_magnet_setpoints ords dt [x] skew order method dc s = set_magnet_setpoints ords dt (replicate (length ords) x) skew order method dc s.
Proof. intros s. unfold set_magnet_setpoints, magnet_targets, bind, get. by rewrite check_single. Qed.
Lemma in_zip_replicate {A B} (ords : list A) (x : B) i : i ∈ ords -> (i, x) ∈ zip ords (replicate (length ords) x).
Proof. induction 1 as [i l|i j l _ IH]; simpl; [left|by right]. Qed.
Lemma number_attr {T} (s s' : sc T) i a : attr_at s' i a = attr_at s i a -> number s' i a = number s i a.
Proof. unfold number. by intros ->. Qed.
Lemma move_ok param cavs d (s s' : sc R) : NoDup cavs -> set_cavity_setpoints cavs DFloat [d] param ADD s = (Ok tt, s') -> moved_by param cavs d s s'.
Proof.
  intros Hnd H. rewrite cavity_single in H. split; [|split].
  - apply only_cavities_frame. pose proof (set_cavity_frame cavs DFloat (replicate (length cavs) d) param ADD s) as F. by rewrite H in F.
  - intros i Hi. destruct (C13_meaning cavs (replicate (length cavs) d) param ADD s s' Hnd ltac:(by rewrite replicate_length) H i d (in_zip_replicate _ _ _ Hi)) as (y&Hy&Hn).
    unfold cavity_request in Hy. rewrite !decide_False, decide_True in Hy by done.
    destruct (number s i _) as [v|] eqn:Ev; [|done]. injection Hy as <-. eauto.
  - intros i f Hi Hf. exact (C13_actual_value _ _ _ _ _ _ _ H i f Hi Hf).
Qed.
Lemma moved_quiet_r param cavs d (s s1 s2 : sc R) : moved_by param cavs d s s1 -> quiet s1 s2 -> moved_by param cavs d s s2.
Proof.
  intros (A&B&C) Hq. destruct (quiet_same _ _ Hq) as (E&_). assert (forall i a, number s2 i a = number s1 i a) as En by (intros; unfold number, attr_at; by rewrite E).
  split; [etransitivity; [exact A|by apply only_cavities_quiet]|]. split.
  - intros i Hi. destruct (B i Hi) as (v&?&?). exists v. by rewrite En.
  - intros i f Hi Hf. destruct (C i f Hi Hf) as (x&y&z&?&?&?&?). exists x, y, z. by rewrite !En.
Qed.
Lemma moved_trans param cavs d1 d2 d (s s1 s2 : sc R) : d1 + d2 = d -> moved_by param cavs d1 s s1 -> moved_by param cavs d2 s1 s2 -> moved_by param cavs d s s2.
Proof.
  intros <- (A1&B1&C1) (A2&B2&C2). split; [by etransitivity|]. split; [|done]. intros i Hi. destruct (B1 i Hi) as (v&?&H1). destruct (B2 i Hi) as (v'&H2&H3).
  exists v. split; [done|]. rewrite H3. rewrite H1 in H2. injection H2 as <-. f_equal. lra.
Qed.

(** a cavity that can be set once can be set again *)
Definition eready (e : elem R) : Prop :=
  forall f, f ∈ ["Voltage"; "Frequency"; "TimeLag"] ->
  exists sp cal off, e !! (f +:+ "SetPoint") = Some (VNum sp) /\ e !! (f +:+ "CalError") = Some (VNum cal) /\ e !! (f +:+ "Offset") = Some (VNum off).
Definition ready (cavs : list nat) (s : sc R) : Prop := forall i, i ∈ cavs -> exists e, RING s !! i = Some e /\ eready e.
Lemma forM_progress {S A} (Inv : S -> Prop) (l : list A) (f : A -> M S unit) s :
  Inv s -> (forall x s, x ∈ l -> Inv s -> exists s', f x s = (Ok tt, s') /\ Inv s') -> exists s', forM l f s = (Ok tt, s') /\ Inv s'.
Proof.
  revert s. induction l as [|x l IH]; intros s Hs Hf; simpl; [eauto|].
  destruct (Hf x s ltac:(left) Hs) as (s1&E1&H1). destruct (IH s1 H1) as (s2&E2&H2); [intros y s' Hy; apply Hf; by right|].
  exists s2. split; [|done]. unfold bind. by rewrite E1.
Qed.
Lemma on_elem_ready cavs i (m : M (elem R) unit) (s : sc R) : i ∈ cavs -> ready cavs s ->
  (forall e, eready e -> exists e', m e = (Ok tt, e') /\ eready e') -> exists s', on_elem i m s = (Ok tt, s') /\ ready cavs s'.
Proof.
  intros Hi Hr Hm. destruct (Hr i Hi) as (e&He&Hre). destruct (Hm e Hre) as (e'&Ee&Hre'). unfold on_elem. rewrite He, Ee. eexists. split; [done|].
  intros j Hj. simpl. destruct (decide (j = i)) as [->|Hne].
  - exists e'. split; [|done]. apply list_lookup_insert. by eapply lookup_lt_Some.
  - destruct (Hr j Hj) as (e2&?&?). exists e2. rewrite list_lookup_insert_ne by done. done.
Qed.
Ltac rf_cases H := rewrite !elem_of_cons in H; destruct H as [->|[->|[->|H%elem_of_nil]]]; [| | |done].
Lemma eready_setpoint param x e : param ∈ ["Voltage"; "Frequency"; "TimeLag"] -> eready e -> eready (<[param +:+ "SetPoint" := VNum x]> e).
Proof.
  intros Hp He f Hf. destruct (He f Hf) as (sp&cal&off&H1&H2&H3).
  destruct (decide (f = param)) as [->|Hne].
  - exists x, cal, off. rewrite lookup_insert. rf_cases Hp; simpl in *; rewrite !lookup_insert_ne by done; done.
  - exists sp, cal, off. rf_cases Hp; rf_cases Hf; try done; simpl in *; rewrite !lookup_insert_ne by done; done.
Qed.
Lemma eready_value f x e : f ∈ ["Voltage"; "Frequency"; "TimeLag"] -> eready e -> eready (<[f := VNum x]> e).
Proof.
  intros Hp He g Hf. destruct (He g Hf) as (sp&cal&off&H1&H2&H3). exists sp, cal, off.
  rf_cases Hp; rf_cases Hf; simpl in *; rewrite !lookup_insert_ne by done; done.
Qed.
Lemma set_again param cavs d (s : sc R) : param ∈ ["Voltage"; "Frequency"; "TimeLag"] -> ready cavs s ->
  exists s', set_cavity_setpoints cavs DFloat [d] param ADD s = (Ok tt, s').
Proof.
  intros Hp Hr. unfold set_cavity_setpoints, bind, get, lift, cavity_targets. rewrite check_single. unfold check_input_and_setpoints.
  rewrite decide_True by (right; right; left). rewrite replicate_length, Nat.eqb_refl, orb_true_r. cbn [rbind].
  assert (exists cur, field_nums (param +:+ "SetPoint") cavs s = Ok cur) as [cur Hc].
  { unfold field_nums. clear -Hr Hp. induction cavs as [|c cavs IH]; [by exists []|]. cbn [rmap].
    destruct (Hr c ltac:(left)) as (e&He&Hre). destruct (Hre param Hp) as (sp&_&_&H1&_). unfold idx at 1. rewrite He. cbn [rbind].
    unfold attr_num at 1, attr. rewrite H1. cbn [rbind as_num]. destruct IH as [cur ->]; [intros i Hi; apply Hr; by right|]. eexists. reflexivity. }
  rewrite decide_False by done. rewrite decide_True by done. rewrite Hc. cbn [rbind inplace].
  match goal with |- context [forM (zip cavs ?l) ?g s] => destruct (forM_progress (ready cavs) (zip cavs l) g s Hr) as (s1&E1&H1) end.
  { intros [i x] s1 Hx H1. apply on_elem_ready; [by eapply elem_of_zip_l|done|]. intros e He. eexists. split; [reflexivity|]. by apply eready_setpoint. }
  rewrite E1. destruct (forM_progress (ready cavs) cavs (fun ind => on_elem ind update_cavity) s1 H1) as (s2&E2&H2); [|by exists s2].
  intros i s2 Hi H2. apply on_elem_ready; [done|done|]. intros e He. unfold update_cavity. apply forM_progress; [done|].
  intros f e1 Hf He1. destruct (He1 f Hf) as (sp&cal&off&A1&A2&A3). unfold bind, getm, attr_num, attr. rewrite A1, A2, A3. cbn [rbind as_num].
  eexists. split; [reflexivity|]. by apply eready_value.
Qed.
Lemma moved_ready param cavs d (s s' : sc R) : moved_by param cavs d s s' -> ready cavs s'.
Proof.
  intros (_&_&H) i Hi. assert (exists e, RING s' !! i = Some e) as [e He].
  { destruct (H i "Voltage" Hi ltac:(left)) as (sp&_&_&H1&_). unfold number, attr_at in H1. destruct (RING s' !! i); [eauto|done]. }
  exists e. split; [done|]. intros f Hf. destruct (H i f Hi Hf) as (sp&cal&off&H1&H2&H3&_). unfold number, attr_at in *. rewrite He in *. simpl in *.
  destruct (e !! (f +:+ "SetPoint")) as [[]|]; try done. destruct (e !! (f +:+ "CalError")) as [[]|]; try done. destruct (e !! (f +:+ "Offset")) as [[]|]; try done. eauto 10.
Qed.

Lemma argmax_from_spec l : forall i best x k, (best < i)%nat -> argmax_from i best x l = k ->
  (k = best /\ (forall j y, l !! j = Some y -> y <= x)) \/
  (exists m z, k = (i + m)%nat /\ l !! m = Some z /\ x < z /\ forall j y, l !! j = Some y -> y <= z /\ ((j < m)%nat -> y < z)).
Proof.
  induction l as [|y l IH]; intros i best x k Hb H; cbn [argmax_from] in H; [left; split; [done|]; intros j y Hj; done|].
  num_R. destruct (Rltb x y) eqn:E.
  - apply Rltb_true in E. right. destruct (IH (S i) i y k ltac:(lia) H) as [[-> Hl]|(m&z&->&Hm&Hz&Hl)].
    + exists 0%nat, y. split; [lia|]. split; [done|]. split; [done|]. intros [|j] v Hv; [injection Hv as <-; split; [lra|lia]|]. split; [by apply (Hl j)|lia].
    + exists (S m), z. split; [lia|]. split; [done|]. split; [lra|]. intros [|j] v Hv; [injection Hv as <-; split; intros; lra|]. destruct (Hl j v Hv). split; [done|]. intros; apply H1; lia.
  - apply Rltb_false in E. destruct (IH (S i) best x k ltac:(lia) H) as [[-> Hl]|(m&z&->&Hm&Hz&Hl)].
    + left. split; [done|]. intros [|j] v Hv; [injection Hv as <-; lra|]. by apply (Hl j).
    + right. exists (S m), z. split; [lia|]. split; [done|]. split; [done|]. intros [|j] v Hv; [injection Hv as <-; split; intros; lra|]. destruct (Hl j v Hv). split; [done|]. intros; apply H1; lia.
Qed.
(** the first position of the maximum *)
Lemma argmax_spec (l : list R) k : argmax l = Ok k -> exists x, l !! k = Some x /\ forall j y, l !! j = Some y -> y <= x /\ ((j < k)%nat -> y < x).
Proof.
  unfold argmax. destruct l as [|x l]; [done|]. intros [= H]. destruct (argmax_from_spec l 1 0 x k ltac:(lia) H) as [[-> Hl]|(m&z&->&Hm&Hz&Hl)].
  - exists x. split; [done|]. intros [|j] y Hy; [injection Hy as <-; split; [lra|lia]|]. split; [by apply (Hl j)|lia].
  - exists z. split; [done|]. intros [|j] y Hy; [injection Hy as <-; split; intros; lra|]. destruct (Hl j y Hy). split; [done|]. intros; apply H1; lia.
Qed.
Lemma linspace_evenly a b n : evenly a b n (linspace a b n).
Proof.
  unfold evenly, linspace. rewrite map_length, seq_length. split; [done|]. intros k x Hx. apply list_lookup_fmap_Some in Hx as (j&Hj&->). apply lookup_seq in Hj as [-> _].
  num_R. simpl. done.
Qed.
Lemma evenly_scale lamb a b n l : evenly a b n l -> evenly (lamb * a) (lamb * b) n (map (Rmult lamb) l).
Proof.
  intros [HL H]. split; [by rewrite map_length|]. intros k x Hx. apply list_lookup_fmap_Some in Hx as (y&Hy&->). rewrite (H _ _ Hy). unfold Rdiv. lra.
Qed.
Lemma usable_data tests ys : length ys = length tests -> data_of tests ys (usable tests ys).
Proof.
  revert ys. induction tests as [|d tests IH]; intros [|[[y|] e] ys] HL; try discriminate; [constructor| |].
  - simpl in HL. change (usable (d :: tests) ((Some y, e) :: ys)) with ((d, y, e) :: usable tests ys). constructor. apply IH. lia.
  - simpl in HL. change (usable (d :: tests) ((None, e) :: ys)) with (usable tests ys). constructor. apply IH. lia.
Qed.
Section Scans.
  Context (w : world R) (line : list R -> list R -> list R -> res (option R * option R)).
  Context (sine_fit : list (R * R * option R) -> res (sine R)) (line_fit : list (R * R * option R) -> res (straight R)).
  Context (root : (R -> R) -> R -> res (option R)).

  Lemma quiet_shift bpms : pres (@quiet R) (energy_shift w line bpms).
  Proof. unfold energy_shift. repeat first [pres_step|apply quiet_reading]. Qed.
  (** the value measured in a machine *)
  Definition measures (bpms : list nat) (s : sc R) (y : option R * option R) : Prop := exists s', energy_shift w line bpms s = (Ok y, s').

  Lemma moved_0_pre param cavs d (s s1 s2 : sc R) : moved_by param cavs 0 s s1 -> moved_by param cavs d s1 s2 -> moved_by param cavs d s s2.
  Proof. apply moved_trans. lra. Qed.
  Lemma scan_ok cavs bpms param tests (s : sc R) ys s' : NoDup cavs -> tests <> [] ->
    rf_scan w line cavs bpms param tests s = (Ok ys, s') ->
    moved_by param cavs 0 s s' /\ scanned (measures bpms) param cavs s tests ys.
  Proof.
    intros Hnd. unfold rf_scan, scanned. revert s ys. induction tests as [|d tests IH]; intros s ys Hne H; [done|]. cbn [mapM] in H.
    apply bind_ok in H as (y&s1&H1&H). apply bind_ok in H as (ys1&s2&H2&H). apply ret_ok in H as [<- <-].
    apply bind_ok in H1 as ([]&t1&A1&A2). apply bind_ok in A2 as (y'&t2&A2&A3). apply bind_ok in A3 as ([]&t3&A3&A4). apply ret_ok in A4 as [<- <-].
    pose proof (move_ok _ _ _ _ _ Hnd A1) as M1. pose proof (pres_run _ _ _ _ _ (quiet_shift bpms) A2) as Q.
    pose proof (moved_quiet_r _ _ _ _ _ _ M1 Q) as M2. pose proof (move_ok _ _ _ _ _ Hnd A3) as M3.
    assert (moved_by param cavs 0 s s1) as M4 by (eapply moved_trans; [|exact M2|exact M3]; num_R; lra).
    assert (exists s1, moved_by param cavs d s s1 /\ measures bpms s1 y') as Hd by (exists t1; split; [done|]; by exists t2).
    destruct tests as [|d' tests].
    - simpl in H2. apply ret_ok in H2 as [<- <-]. split; [done|]. by repeat constructor.
    - destruct (IH s1 ys1 ltac:(done) H2) as [M5 F]. split; [eapply moved_0_pre; eauto|]. constructor; [done|].
      eapply Forall2_impl; [exact F|]. intros x z (u&Hu&Hm). exists u. split; [|done]. eapply moved_0_pre; eauto.
  Qed.

  Definition used (all : list nat) (o : option (list nat)) : list nat := match o with Some l => l | None => all end.
  (** what the scans insist on *)
  Definition acceptable (cavs : list nat) (n_steps : nat) (s : sc R) : Prop :=
    (3 <= nTurns (INJ s))%nat /\ trackMode (INJ s) = "TBT" /\ (6 <= n_steps)%nat /\
    forall c, c ∈ cavs -> attr_at s c "Frequency" <> None /\ exists p, attr_at s c "PassMethod" = Some (VStr p) /\ (p = "CavityPass" \/ p = "RFCavityPass").
  Lemma inputs_ok cavs bpms n (s : sc R) C B : rf_check_inputs cavs bpms n s = Ok (C, B) ->
    C = used (oRF (ORD s)) cavs /\ B = used (oBPM (ORD s)) bpms /\ acceptable C n s.
  Proof.
    unfold rf_check_inputs. destruct (_ <? _)%nat eqn:E1; [done|]. destruct (bool_decide _) eqn:E2; [|done]. simpl negb. cbn iota.
    destruct (n <? _)%nat eqn:E3; [done|]. intros H. apply rbind_ok in H as (u&H1&H). injection H as <- <-.
    split; [by destruct cavs|]. split; [by destruct bpms|]. apply Nat.ltb_ge in E1, E3. apply bool_decide_eq_true in E2.
    split; [exact E1|]. split; [done|]. split; [exact E3|]. intros c Hc. apply rmap_ok in H1. apply elem_of_list_lookup in Hc as [k Hk].
    eapply Forall2_lookup_l in H1 as (y&_&Hy); [|exact Hk]. simpl in Hy. apply rbind_ok in Hy as (e&He&Hy). apply idx_ok in He.
    unfold hasattr in Hy. unfold attr_at. rewrite He. simpl. destruct (e !! "Frequency") as [fq|]; [|done]. simpl in Hy. split; [done|].
    apply rbind_ok in Hy as (p&Hp&Hy). unfold attr_str in Hp. apply rbind_ok in Hp as (v&Hv&Hp). unfold attr in Hv. destruct (e !! "PassMethod") as [v'|]; [|done]. injection Hv as ->.
    destruct v; try done. injection Hp as ->. exists p. split; [done|]. destruct (bool_decide _) eqn:E; [|done]. apply bool_decide_eq_true in E.
    unfold cavity_passes in E. rewrite !elem_of_cons in E. destruct E as [?|[?|?%elem_of_nil]]; auto; done.
  Qed.
  Lemma tests_ne {A B} (f : A -> B) (l : list A) n : length l = n -> (6 <= n)%nat -> map f l <> [].
  Proof. destruct l; simpl; intros; [lia|done]. Qed.
  Lemma lift_run {S A} (r : res A) (s : S) : lift r s = (r, s). Proof. done. Qed.

  Theorem C51_frequency cavs bpms n f0 f1 (s s' : sc R) : let C := used (oRF (ORD s)) cavs in let B := used (oBPM (ORD s)) bpms in
    NoDup C -> correct_rf_frequency w line line_fit cavs bpms n f0 f1 s = (Ok tt, s') ->
    acceptable C n s /\
    exists tests ys data f d,
      evenly f0 f1 n tests /\ scanned (measures B) "Frequency" C s tests ys /\ data_of tests ys data /\ (3 <= length data)%nat /\
      line_fit data = Ok f /\
      (d = 0 /\ (Rabs (g_a f) < 2 * R_sqrt.sqrt (g_va f) \/ Rabs (g_b f) < 2 * R_sqrt.sqrt (g_vb f)) \/
       g_a f * d + g_b f = 0 /\ g_a f <> 0 /\ 2 * R_sqrt.sqrt (g_va f) <= Rabs (g_a f) /\ 2 * R_sqrt.sqrt (g_vb f) <= Rabs (g_b f)) /\
      moved_by "Frequency" C d s s'.
  Proof.
    intros C B Hnd H. unfold correct_rf_frequency in H. unfold bind at 1, get in H. apply bind_ok in H as ([c b]&s1&H1&H). apply lift_ok in H1 as [H1 ->].
    apply inputs_ok in H1 as (->&->&HA). split; [exact HA|]. fold C in H. fold B in H.
    apply bind_ok in H as (ys&s1&Hs&H). apply scan_ok in Hs as [M1 F]; [|done|]; [|destruct HA as (_&_&Hn&_); unfold linspace; eapply tests_ne; [apply seq_length|done]].
    apply bind_ok in H as (data&s2&Hd&H). apply lift_ok in Hd as [Hd ->]. apply bind_ok in H as (f&s2&Hf&H). apply lift_ok in Hf as [Hf ->].
    apply bind_ok in H as (d&s2&Hq&H). apply lift_ok in Hq as [Hq ->].
    exists (linspace f0 f1 n), ys, data, f, d. split; [apply linspace_evenly|]. split; [done|].
    unfold check_data in Hd. destruct (_ <? _)%nat eqn:E3; [done|]. apply Nat.ltb_ge in E3. injection Hd as <-.
    split; [apply usable_data; symmetry; by eapply Forall2_length|]. split; [done|]. split; [done|]. split.
    - unfold imprecise, ntwo in Hq. num_R. change (@nsqrt R _) with R_sqrt.sqrt in Hq. change (1 + 1) with 2 in Hq.
      destruct (Rltb (Rabs (g_a f)) _) eqn:E1; simpl in Hq.
      + left. injection Hq as <-. split; [done|]. left. by apply Rltb_true in E1.
      + destruct (Rltb (Rabs (g_b f)) _) eqn:E2; simpl in Hq.
        * left. injection Hq as <-. split; [done|]. right. by apply Rltb_true in E2.
        * right. apply qdivR_ok in Hq as [-> Hne]. apply Rltb_false in E1, E2. split; [field; done|]. done.
    - eapply moved_0_pre; [exact M1|]. by apply move_ok.
  Qed.

  Theorem C51_phase cavs bpms n (s s' : sc R) : let C := used (oRF (ORD s)) cavs in let B := used (oBPM (ORD s)) bpms in
    NoDup C -> correct_rf_phase w line sine_fit root cavs bpms n s = (Ok tt, s') ->
    acceptable C n s /\
    exists c freq lamb tests ys data f,
      C !! 0%nat = Some c /\ number s c "FrequencySetPoint" = Some freq /\ freq <> 0 /\ lamb = 299792458 / freq /\
      evenly (- lamb / 2) (lamb / 2) n tests /\ scanned (measures B) "TimeLag" C s tests ys /\ data_of tests ys data /\ (6 <= length data)%nat /\
      sine_fit (map (fun p => (p.1.1 / lamb, p.1.2, p.2)) data) = Ok f /\
      Rabs (f_c f) <= Rabs (f_a f) /\ 2 * R_sqrt.sqrt (f_va f) <= Rabs (f_a f) /\ 2 * R_sqrt.sqrt (f_vc f) <= Rabs (f_c f) /\
      let fitted x := f_a f * sin (2 * PI * (x / lamb) + f_b f) + f_c f in
      exists first top x d, head data = Some first /\ top ∈ data /\ (forall p, p ∈ data -> fitted p.1.1 <= fitted top.1.1) /\
        root fitted (top.1.1 - Rabs first.1.1 / 2) = Ok (Some x) /\
        (0 < lamb -> - lamb / 2 < d <= lamb / 2 /\ exists k : Z, d = x + IZR k * lamb) /\
        moved_by "TimeLag" C d s s'.
  Proof.
    intros C B Hnd H. unfold correct_rf_phase in H. unfold bind at 1, get in H. apply bind_ok in H as ([c b]&s1&H1&H). apply lift_ok in H1 as [H1 ->].
    apply inputs_ok in H1 as (->&->&HA). split; [exact HA|]. fold C in H. fold B in H.
    apply bind_ok in H as (lamb&s1&Hl&H). apply lift_ok in Hl as [Hl ->].
    apply rbind_ok in Hl as (c&Hc&Hl). apply rbind_ok in Hl as (e&He&Hl). apply rbind_ok in Hl as (freq&Hfreq&Hl).
    apply idx_ok in Hc, He. apply attr_num_ok in Hfreq. apply qdivR_ok in Hl as [-> Hne]. change (nofZ SPEED_OF_LIGHT) with 299792458 in H.
    remember (299792458 / freq) as lamb eqn:El. exists c, freq, lamb.
    apply bind_ok in H as (ys&s1&Hs&H).
    match type of Hs with rf_scan _ _ _ _ _ ?t _ = _ => remember t as tests eqn:Et end.
    apply scan_ok in Hs as [M1 F]; [|done|]; [|subst tests; destruct HA as (_&_&Hn&_); eapply tests_ne; [unfold linspace; rewrite map_length; apply seq_length|done]].
    apply bind_ok in H as (data&s2&Hd&H). apply lift_ok in Hd as [Hd ->]. apply bind_ok in H as (f&s2&Hf&H). apply lift_ok in Hf as [Hf ->].
    unfold check_data in Hd. destruct (_ <? _)%nat eqn:E3; [done|]. apply Nat.ltb_ge in E3. injection Hd as <-. change MIN_TURNS_FOR_SINE_FIT with 6%nat in E3.
    remember (usable tests ys) as data eqn:Edata.
    exists tests, ys, data, f. split; [done|]. split; [unfold number, attr_at; rewrite He; simpl; by rewrite Hfreq|]. split; [done|]. split; [done|].
    split; [subst tests; replace (- lamb / 2) with (lamb * nopp nhalf) by (unfold nhalf, ntwo; num_R; field); replace (lamb / 2) with (lamb * nhalf) by (unfold nhalf, ntwo; num_R; field); apply evenly_scale, linspace_evenly|].
    split; [done|]. split; [subst data; apply usable_data; symmetry; by eapply Forall2_length|]. split; [done|]. split; [exact Hf|].
    num_R. destruct (Rltb (Rabs (f_a f)) (Rabs (f_c f))) eqn:E4; [unfold bind, raise in H; destruct (lift _ _) as [[]]; discriminate|]. apply Rltb_false in E4. split; [done|].
    apply bind_ok in H as (k&s2&Hk&H). apply lift_ok in Hk as [Hk ->]. apply bind_ok in H as (x&s2&Hx&H). apply lift_ok in Hx as [Hx ->].
    unfold imprecise, ntwo in H. num_R. change (@nsqrt R _) with R_sqrt.sqrt in H. change (1 + 1) with 2 in *.
    destruct (Rltb (Rabs (f_a f)) _) eqn:E1; simpl in H; [apply bind_ok in H as (?&?&_&H); discriminate|].
    destruct (Rltb (Rabs (f_c f)) _) eqn:E2; simpl in H; [apply bind_ok in H as (?&?&_&H); discriminate|].
    apply Rltb_false in E1, E2. split; [done|]. split; [done|]. set (fitted := fun x => f_a f * sin (2 * PI * (x / lamb) + f_b f) + f_c f). destruct x as [x|]; [|discriminate].
    destruct data as [|first data]; [simpl in E3; lia|]. apply argmax_spec in Hk as (v&Hv&Hmax).
    apply list_lookup_fmap_Some in Hv as (top&Htop&->). exists first, top, x, (fold_phase x lamb).
    split; [done|]. split; [by eapply elem_of_list_lookup_2|]. split.
    { intros p Hp. apply elem_of_list_lookup in Hp as [j Hj]. specialize (Hmax j (fitted p.1.1)). apply Hmax. by apply list_lookup_fmap_Some; exists p. }
    split.
    { rewrite list_lookup_fmap, Htop in Hx. exact Hx. }
    split; [intros Hpos; by apply C50_folded|]. eapply moved_0_pre; [exact M1|]. by apply move_ok.
  Qed.

  (** refused before anything is done *)
  Theorem C51_refused cavs bpms n f0 f1 (s : sc R) :
    (nTurns (INJ s) < 3)%nat \/ trackMode (INJ s) <> "TBT" \/ (n < 6)%nat ->
    correct_rf_frequency w line line_fit cavs bpms n f0 f1 s = (Err ValueError, s) /\
    correct_rf_phase w line sine_fit root cavs bpms n s = (Err ValueError, s).
  Proof.
    intros H. assert (rf_check_inputs cavs bpms n s = Err ValueError) as E.
    { unfold rf_check_inputs. change MIN_TURNS_FOR_LINEAR_FIT with 3%nat. change MIN_TURNS_FOR_SINE_FIT with 6%nat.
      destruct (_ <? 3)%nat eqn:E1; [done|]. apply Nat.ltb_ge in E1. destruct (bool_decide _) eqn:E2; [|done]. apply bool_decide_eq_true in E2.
      destruct (n <? 6)%nat eqn:E3; [done|]. apply Nat.ltb_ge in E3. destruct H as [H|[H|H]]; [lia|done|lia]. }
    unfold correct_rf_frequency, correct_rf_phase. unfold bind at 1 2, get. unfold bind at 6. split.
    - unfold bind at 1. rewrite lift_run, E. done.
    - unfold bind at 1. rewrite lift_run, E. done.
  Qed.
  (** once the measurements are done, a failure leaves the set-points as they were *)
  Theorem C51_frequency_failure cavs bpms n f0 f1 (s s1 s' : sc R) ys e : let C := used (oRF (ORD s)) cavs in let B := used (oBPM (ORD s)) bpms in
    NoDup C -> rf_scan w line C B "Frequency" (linspace f0 f1 n) s = (Ok ys, s1) ->
    correct_rf_frequency w line line_fit cavs bpms n f0 f1 s = (Err e, s') -> s' = s \/ moved_by "Frequency" C 0 s s'.
  Proof.
    intros C B Hnd Hs H. unfold correct_rf_frequency in H. unfold bind at 1, get in H. unfold bind at 1 in H. rewrite lift_run in H.
    destruct (rf_check_inputs cavs bpms n s) as [[c b]|] eqn:E; [|injection H as _ <-; by left].
    apply inputs_ok in E as (->&->&HA). fold C in H. fold B in H. unfold bind at 1 in H. rewrite Hs in H.
    apply scan_ok in Hs as [M1 F]; [|done|]; [|destruct HA as (_&_&Hn&_); unfold linspace; eapply tests_ne; [apply seq_length|done]].
    right. unfold bind at 1 in H. rewrite lift_run in H. destruct (check_data _ _ _) as [data|]; [|injection H as _ <-; done].
    unfold bind at 1 in H. rewrite lift_run in H. destruct (line_fit data) as [f|]; [|injection H as _ <-; done].
    unfold bind at 1 in H. rewrite lift_run in H. match type of H with match ?x with _ => _ end = _ => destruct x as [d|] end; [|injection H as _ <-; done].
    destruct (set_again "Frequency" C d s1) as [s2 E2]; [right; left|by eapply moved_ready|]. rewrite E2 in H. discriminate.
  Qed.
  Theorem C51_phase_failure cavs bpms n (s s1 s' : sc R) c freq ys e : let C := used (oRF (ORD s)) cavs in let B := used (oBPM (ORD s)) bpms in
    NoDup C -> C !! 0%nat = Some c -> number s c "FrequencySetPoint" = Some freq -> freq <> 0 ->
    rf_scan w line C B "TimeLag" (map (Rmult (299792458 / freq)) (linspace (- / 2) (/ 2) n)) s = (Ok ys, s1) ->
    correct_rf_phase w line sine_fit root cavs bpms n s = (Err e, s') -> s' = s \/ moved_by "TimeLag" C 0 s s'.
  Proof.
    intros C B Hnd Hc Hfreq Hne Hs H. unfold correct_rf_phase in H. unfold bind at 1, get in H. unfold bind at 1 in H. rewrite lift_run in H.
    destruct (rf_check_inputs cavs bpms n s) as [[c' b]|] eqn:E; [|injection H as _ <-; by left].
    apply inputs_ok in E as (->&->&HA). fold C in H. fold B in H.
    unfold bind at 1 in H. rewrite lift_run in H. unfold idx at 1 in H. rewrite Hc in H. cbn [rbind] in H.
    unfold number, attr_at in Hfreq. destruct (RING s !! c) as [el|] eqn:Eel; [|done]. simpl in Hfreq.
    unfold idx at 1 in H. rewrite Eel in H. cbn [rbind] in H. unfold attr_num at 1, attr in H.
    destruct (el !! "FrequencySetPoint") as [[]|]; try done. injection Hfreq as ->. cbn [rbind as_num] in H.
    unfold qdiv in H. change (neqb freq n0) with (Reqb freq 0) in H. destruct (Reqb freq 0) eqn:E0; [by apply Reqb_true in E0|].
    change (ndiv (nofZ SPEED_OF_LIGHT) freq) with (299792458 / freq) in H. change (nmul (299792458 / freq)) with (Rmult (299792458 / freq)) in H.
    replace (@nhalf R _) with (/ 2) in H by (unfold nhalf, ntwo; num_R; field). change (@nopp R _ (/ 2)) with (- / 2) in H.
    set (lamb := 299792458 / freq) in *. clearbody lamb. set (tests := map (Rmult lamb) _) in *.
    unfold bind at 1 in H. rewrite Hs in H.
    apply scan_ok in Hs as [M1 F]; [|done|]; [|destruct HA as (_&_&Hn&_); eapply tests_ne; [unfold linspace; rewrite map_length; apply seq_length|done]].
    clearbody tests. right.
    unfold bind at 1 in H. rewrite lift_run in H. destruct (check_data _ _ _) as [data|]; [|injection H as _ <-; done].
    unfold bind at 1 in H. rewrite lift_run in H. destruct (sine_fit _) as [f|]; [|injection H as _ <-; done].
    destruct (nltb _ _).
    { unfold bind at 1 in H. rewrite lift_run in H. match type of H with match ?x with _ => _ end = _ => destruct x as [d|] end; injection H as _ <-; done. }
    unfold bind at 1 in H. rewrite lift_run in H. destruct (argmax _) as [k|]; [|injection H as _ <-; done].
    unfold bind at 1 in H. rewrite lift_run in H. destruct (root _ _) as [x|]; [|injection H as _ <-; done].
    destruct (imprecise _ _ _ _).
    - unfold bind at 1 in H. destruct (set_again "TimeLag" C n0 s1) as [s2 E2]; [right; right; left|by eapply moved_ready|]. rewrite E2 in H. injection H as _ <-.
      eapply moved_0_pre; [exact M1|]. apply move_ok in E2; done.
    - destruct x as [x|]; [|injection H as _ <-; done].
      destruct (set_again "TimeLag" C (fold_phase x lamb) s1) as [s2 E2]; [right; right; left|by eapply moved_ready|]. rewrite E2 in H. discriminate.
  Qed.

  (** the signal: slope of the mean turn-by-turn shift over the turns that were read completely *)
  Definition row (r : Model_Beam.reading R) (nb t : nat) : list (option R) := take nb (drop (t * nb) (r_x r)).
  Lemma chunks_lookup {A} wd n (l : list A) t : chunks wd n l !! t = if decide (t < n)%nat then Some (take wd (drop (t * wd) l)) else None.
  Proof.
    revert l t. induction n as [|n IH]; intros l t; simpl; [done|]. destruct t as [|t]; simpl; [done|]. rewrite IH, drop_drop.
    destruct (decide _), (decide _); try lia; done.
  Qed.
  Lemma chunks_length {A} wd n (l : list A) : length (chunks wd n l) = n.
  Proof. revert l. induction n as [|n IH]; intros l; simpl; [done|]. by rewrite IH. Qed.
  Lemma omap_seq_sorted {B} (g : nat -> B -> option (R * R)) n (rows : list B) a :
    let pts := omap (fun p : nat * B => y ← g p.1 p.2; Some (p.1, y.1, y.2)) (zip (seq a n) rows) in
    StronglySorted lt (map (fun p => p.1.1) pts) /\ Forall (fun p => (a <= p.1.1)%nat) pts.
  Proof.
    revert a rows. induction n as [|n IH]; intros a [|r rows]; simpl; try (split; constructor). unfold mbind, option_bind.
    destruct (IH (S a) rows) as [I1 I2]. destruct (g a r) as [y|]; simpl.
    - split; [constructor; [done|]|constructor; [simpl; lia|]]; [|eapply Forall_impl; [exact I2|]; intros q Hq; simpl in *; lia].
      apply Forall_map. eapply Forall_impl; [exact I2|]. intros q Hq; simpl in *; lia.
    - split; [done|]. eapply Forall_impl; [exact I2|]. intros q Hq; simpl in *; lia.
  Qed.
  Lemma turn_weight_spec (rw : list (option R)) xs nb : rw = map Some xs -> length rw = nb ->
    turn_weight rw = 1 / (stddev xs / R_sqrt.sqrt (INR nb) + 1 / 1000000000).
  Proof.
    intros E <-. assert (somes rw = xs) as Es by (rewrite E; clear; induction xs as [|z l IH]; [done|]; change (z :: somes (map Some l) = z :: l); by rewrite IH).
    unfold turn_weight, std_of. rewrite Es, variance_stddev, nofnat_R. reflexivity.
  Qed.
  Theorem C51_signal bpms (s s' : sc R) y : energy_shift w line bpms s = (Ok y, s') ->
    exists r pts, bpm_reading w (Some bpms) false s = (Ok r, s') /\ length (r_x r) = (nTurns (INJ s) * length bpms)%nat /\
      StronglySorted lt (map (fun p => p.1.1) pts) /\
      (forall t v wt, (t, v, wt) ∈ pts <-> (t < nTurns (INJ s))%nat /\ exists x0 xs,
         row r (length bpms) 0 = map Some x0 /\ row r (length bpms) t = map Some xs /\ xs <> [] /\ v = avg (zip_with Rminus xs x0) /\
         wt = 1 / (stddev xs / R_sqrt.sqrt (INR (length bpms)) + 1 / 1000000000)) /\
      ((length pts < 3)%nat /\ y = (None, None) \/
       (3 <= length pts)%nat /\ line (map (fun p => INR p.1.1) pts) (map (fun p => p.1.2) pts) (map snd pts) = Ok y).
  Proof.
    intros H. unfold energy_shift in H. apply bind_ok in H as (r&s1&Hr&H). unfold bind at 1, get in H.
    assert (INJ s1 = INJ s) as Ei by (apply quiet_same, (pres_run _ _ _ _ _ (quiet_reading _ _ _) Hr)). rewrite Ei in H.
    destruct (_ =? _)%nat eqn:EL; [|discriminate]. apply Nat.eqb_eq in EL. cbn [negb] in H.
    set (nt := nTurns (INJ s)) in *. set (nb := length bpms) in *. set (rows := chunks nb nt (r_x r)) in *. set (row0 := default [] (rows !! 0%nat)) in *.
    set (g := fun (t : nat) (rw : list (option R)) => y ← row_shift row0 rw; Some (y, turn_weight rw)).
    set (pts := omap (fun p : nat * list (option R) => y ← g p.1 p.2; Some (p.1, y.1, y.2)) (zip (seq 0 nt) rows)).
    match type of H with context [(length ?p <? _)%nat] => assert (p = map (fun q : nat * R * R => (INR q.1.1, q.1.2, q.2)) pts) as Ep end.
    { unfold pts, g. clear. generalize (zip (seq 0 nt) rows). intros l. induction l as [|[t rw] l IH]; [done|]. simpl.
      unfold mbind, option_bind. destruct (row_shift row0 rw); simpl; [|exact IH]. change (nofnat t) with (@nofnat R _ t). f_equal; [f_equal; f_equal; apply nofnat_R|exact IH]. }
    rewrite Ep in H. rewrite map_length in H. rewrite !map_map in H. cbn [fst snd] in H. clear Ep.
    assert (s' = s1) as ->. { destruct (_ <? _)%nat; [by injection H as _ <-|]. apply lift_ok in H as [_ H]. done. }
    exists r, pts. split; [done|]. split; [done|]. split; [apply (omap_seq_sorted g)|]. split.
    - intros t v wt. unfold pts. rewrite elem_of_list_omap. split.
      + intros ([t' rw]&Hin&Hg). apply elem_of_list_lookup in Hin as [k Hk]. apply zip_seq_lookup in Hk as [<- Hk]; [|apply chunks_length]. cbn [fst snd] in *.
        unfold g in Hg. destruct (row_shift row0 rw) as [y'|] eqn:Ey; [|discriminate]. cbn [mbind option_bind fst snd] in Hg. injection Hg as <- <- <-.
        unfold rows in Hk. rewrite chunks_lookup in Hk. destruct (decide (t' < nt)%nat) as [Ht|]; [|done]. injection Hk as Hk. split; [done|].
        unfold row_shift in Ey. destruct (no_gaps row0) as [x0|] eqn:E0; [|done]. destruct (no_gaps rw) as [xs|] eqn:E1; [|done].
        apply no_gaps_spec in E0, E1. exists x0, xs. unfold row. fold nb. split.
        { rewrite <- E0. unfold row0, rows. rewrite chunks_lookup, decide_True by lia. done. }
        split; [by rewrite Hk|]. destruct xs as [|x xs]; [done|]. injection Ey as <-. split; [done|]. split; [apply mean_avg|].
        apply turn_weight_spec; [exact E1|]. rewrite <- Hk, take_length, drop_length, EL. pose proof (Nat.mul_le_mono_r (S t') nt nb ltac:(lia)) as HM. rewrite Nat.mul_succ_l in HM. lia.
      + intros (Ht&x0&xs&H0&H1&Hne&->&->). exists (t, row r nb t). split.
        { apply elem_of_list_lookup. exists t. apply lookup_zip_with_Some. exists t, (row r nb t). split; [done|]. split; [apply lookup_seq; lia|].
          unfold rows. rewrite chunks_lookup, decide_True by done. done. }
        assert (row0 = map Some x0) as E0. { rewrite <- H0. unfold row0, rows. rewrite chunks_lookup, decide_True by lia. done. }
        unfold g. cbn [fst snd]. unfold row_shift. rewrite (proj2 (no_gaps_spec _ _) E0). fold nb in H1. rewrite (proj2 (no_gaps_spec _ _) H1).
        destruct xs as [|x xs]; [done|]. cbn [mbind option_bind fst snd]. f_equal. f_equal; [f_equal; apply mean_avg|].
        apply turn_weight_spec; [exact H1|]. unfold row. rewrite take_length, drop_length, EL. pose proof (Nat.mul_le_mono_r (S t) nt nb ltac:(lia)) as HM. rewrite Nat.mul_succ_l in HM. lia.
    - destruct (_ <? _)%nat eqn:E.
      + left. apply Nat.ltb_lt in E. apply ret_ok in H as [<- _]. done.
      + right. apply Nat.ltb_ge in E. apply lift_ok in H as [H _]. split; [done|]. exact H.
  Qed.
End Scans.

Print Assumptions C50_folded.
Print Assumptions C50_unique.
Print Assumptions C51_frequency.
Print Assumptions C51_phase.
Print Assumptions C51_refused.
Print Assumptions C51_frequency_failure.
Print Assumptions C51_phase_failure.
Print Assumptions C51_signal.

(** * Cases
    Over the rationals: a BPM without errors and a cavity; the beam drifts each turn by the difference of the frequency
    to 503 plus the time lag.  The "fits" join the first and the last point. *)
Local Open Scope Q_scope.
#[local] Instance TrigQ2 : Trig Q :=
  { ncos := fun x => if Qeq_bool x 0 then 1 else 0; nsin := fun _ => 0; nsqrt := fun x => Qred (Z.sqrt (Qnum x) # Z.to_pos (Z.sqrt (Zpos (Qden x)))); npi := 0 }.
Definition plain_bpm : elem Q :=
  Examples.mk [("Noise", VVec [0; 0]); ("NoiseCO", VVec [0; 0]); ("Offset", VVec [0; 0]); ("SupportOffset", VVec [0; 0]); ("CalError", VVec [0; 0]);
      ("Roll", VNum 0); ("SupportRoll", VNum 0); ("SumError", VNum 0)].
Definition rf_machine : sc Q :=
  let s := MkSC [plain_bpm; Examples.cavity] [] (MkInj 1 (zeros 6) (zeros 6) (replicate 6 (zeros 6)) (zeros 6) 1 4 1 "TBT")
             (SIG Examples.ex_sc) (MkOrd [0%nat] [] [] [] [] [] [] [] []) (replicate 200 0) in
  snd (register_cavities [1%nat] [] s).
Definition rf_world : world Q :=
  MkWorld (fun ring _ _ _ c p r t =>
      let val a := match (e ← ring !! 1%nat; e !! a) with Some (VNum x) => x | _ => 0 end in
      Some (if (c =? 0)%nat then Qred ((val "Frequency" - 503 + val "TimeLag") * inject_Z (Z.of_nat t)) else 0))
    (fun _ _ _ c => Some (if (c =? 5)%nat then 3#10 else 1#100)) (fun _ => ([], [])) (fun Z => Z).
Definition ends (x y _w : list Q) : res (option Q * option Q) :=
  match x, y, last x, last y with
  | x0 :: _, y0 :: _, Some x1, Some y1 => Ok (Some (Qred ((y1 - y0) / (x1 - x0))), Some 1)
  | _, _, _, _ => Err ValueError
  end.
Definition ends_fit (v : Q) (data : list (Q * Q * option Q)) : res (straight Q) :=
  match data, last data with
  | (x0, y0, _) :: _, Some (x1, y1, _) => let a := Qred ((y1 - y0) / (x1 - x0)) in Ok (MkStraight a (Qred (y0 - a * x0)) v v)
  | _, _ => Err ValueError
  end.
Definition a_sine (v : Q) (_ : list (Q * Q * option Q)) : res (sine Q) := Ok (MkSine 2 0 1 v v).
(** the frequency goes to 503, where the drift vanishes *)
Example C51_frequency_case :
  let run := correct_rf_frequency rf_world ends (ends_fit 0) None None 6 (-10) 10 rf_machine in
  fst run = Ok tt /\ number (snd run) 1 "FrequencySetPoint" = Some 503 /\ number (snd run) 1 "Frequency" = Some 503.
Proof. vm_compute. repeat split. Qed.
(** with an imprecise fit it stays *)
Example C51_frequency_imprecise :
  let run := correct_rf_frequency rf_world ends (ends_fit 4) None None 6 (-10) 10 rf_machine in
  fst run = Ok tt /\ number (snd run) 1 "FrequencySetPoint" = Some 500.
Proof. vm_compute. repeat split. Qed.
(** wavelength 299792458/500; a root three quarters of it away is applied as minus one quarter *)
Definition wavelength : Q := Qred (299792458 # 500).
Example C51_phase_case :
  let run := correct_rf_phase rf_world ends (a_sine 0) (fun _ _ => Ok (Some (Qred ((3#4) * wavelength)))) None None 6 rf_machine in
  fst run = Ok tt /\ number (snd run) 1 "TimeLagSetPoint" = Some (Qred (- (1#4) * wavelength)) /\ number (snd run) 1 "FrequencySetPoint" = Some 500.
Proof. vm_compute. repeat split. Qed.
(** The finding: when the fit is not precise enough the phase correction fails with TypeError, the time lag unchanged. *)
Example C51_finding_imprecise_phase :
  let run := correct_rf_phase rf_world ends (a_sine 4) (fun _ _ => Ok (Some 1)) None None 6 rf_machine in
  fst run = Err TypeError /\ number (snd run) 1 "TimeLagSetPoint" = Some 0.
Proof. vm_compute. repeat split. Qed.
(** A further finding: a reading that fails (here a BPM that is not registered) leaves the cavity at the first offset of the scan. *)
Example C51_finding_failed_reading :
  let run := correct_rf_phase rf_world ends (a_sine 0) (fun _ _ => Ok (Some 1)) None (Some [7%nat]) 6 rf_machine in
  fst run = Err ValueError /\ number (snd run) 1 "TimeLagSetPoint" = Some (Qred (- (1#2) * wavelength)).
Proof. vm_compute. repeat split. Qed.
(** The finding of C50: the wavelength is 6/10 and the beam 3/10 off, half a period; the report says -36 degrees. *)
Definition short_wave : sc Q :=
  match RING rf_machine with
  | [b; c] => set_RING [b; <["Frequency" := VNum (Qred (299792458 / (6#10)))]> c] rf_machine
  | _ => rf_machine
  end.
Example C50_finding_reported_phase : phase_and_energy_error rf_world [1%nat] short_wave = Ok (Some (-36), Some (-1#100)).
Proof. vm_compute. reflexivity. Qed.
Example C50_case : fold_phase (7#10) (1#2) = 1#5 /\ fold_phase (3#10) (1#2) = -1#5 /\ fold_phase (-3#4) (1#2) = 1#4.
Proof. vm_compute. repeat split. Qed.
