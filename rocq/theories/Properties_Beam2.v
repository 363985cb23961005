(** C38 (pseudo-orbit mode), C41: beam transmission, C43: bunches; cases and findings for C37-C43. *)
From Coq Require Import Reals Lra Lia QArith Sorting.Sorted.
From stdpp Require Import base gmap strings list.
From Verif Require Import Num Base Model_Arr Model_SC Model_Err Model_Beam Lemmas Proofs_Reg Proofs_Field Properties_Random Properties_Errors Properties_Field Properties_Model Proofs_Beam Proofs_Mat Spec Examples Properties_Beam.
Local Open Scope string_scope.
Local Open Scope list_scope.
Local Open Scope R_scope.

(** * C38, pseudo-orbit mode *)
Lemma shots_cells (w : world R) ords nt (s : sc R) shots s2 k b t :
  nt = nTurns (INJ s) -> mapM (seq 0 k) (fun _ => one_shot w ords nt) s = (Ok shots, s2) -> (b < length ords)%nat -> (t < nt)%nat ->
  length (cell_of shots b t) = k /\
  Forall (fun c => exists s1, s1 = set_RNG (RNG s1) s /\ shot_cell w s1 ords b t c) (cell_of shots b t).
Proof.
  intros Hnt H2 Hb Ht. apply (mapM_trace quiet) in H2 as [_ HF]; [|intros x; apply quiet_one_shot].
  assert (Forall (fun rows => exists sa sb, quiet s sa /\ one_shot w ords nt sa = (Ok rows, sb)) shots) as HS.
  { clear -HF. induction HF as [|x y l l' Hxy HF IH]; constructor; [|done]. destruct Hxy as (sa&sb&?&?). eauto. }
  assert (Forall (fun rows : list (list (cell R)) => length rows = length ords /\ forall b row, rows !! b = Some row -> length row = nt) shots) as Hsh.
  { eapply Forall_impl; [exact HS|]. intros rows (sa&sb&Q&E). apply quiet_same in Q as (_&_&QI&_). apply C37_shot in E as (_&?&?&_); [|by rewrite QI]. done. }
  pose proof (cell_of_all shots b t (length ords) nt Hsh Hb Ht) as HC. split.
  - rewrite <- (Forall2_length _ _ _ HC). rewrite <- (Forall2_length _ _ _ HF), seq_length. done.
  - clear -HS HC Hnt. induction HC as [|rows c shots cs (row&Hr&Hc) HC IH]; [constructor|]. inversion HS as [|? ? (sa&sb&Q&E) HS']; subst. constructor; [|by apply IH].
    exists sa. split; [exact Q|]. apply quiet_same in Q as (_&_&QI&_). apply C37_shot in E as (_&_&_&E); [|by rewrite QI]. by eapply E.
Qed.

(** average over turns of positions [m] that may be missing, with weights [q] *)
Definition turn_mean (l : list (option R * R)) (x : option R) : Prop :=
  foldr (fun p acc => p.2 + acc) 0 l <> 0 /\
  ((forall p, p ∈ l -> p.1 = None) /\ x = None \/
   (exists p, p ∈ l /\ p.1 <> None) /\ exists v, x = Some v /\
     v * foldr (fun p acc => p.2 + acc) 0 l = foldr (fun p acc => default 0 p.1 * p.2 + acc) 0 l) .

Lemma porb_turn_mean l x : porb_pos l = Ok x -> turn_mean l x.
Proof.
  unfold porb_pos. change (neqb ?a n0) with (Reqb a 0). rewrite nsum_rsum.
  assert (rsum (map snd l) = foldr (fun p acc => p.2 + acc) 0 l) as -> by (clear; induction l as [|p l IH]; [done|]; simpl; by rewrite IH).
  set (tot := foldr (fun p acc => p.2 + acc) 0 l). destruct (Reqb tot 0) eqn:E; [discriminate|]. apply Reqb_false in E. intros H. split; [exact E|]. fold tot. clearbody tot.
  set (q := omap (fun p : option R * R => x ← p.1; Some (x, p.2)) l) in *.
  assert (weighted q = foldr (fun p acc => default 0 p.1 * p.2 + acc) 0 l) as HW.
  { unfold weighted. rewrite nsum_rsum. subst q. clear. induction l as [|[[y|] a] l IH]; [done|..].
    - change (y * a + rsum (map (fun p : R * R => nmul p.1 p.2) (omap (fun p : option R * R => x ← p.1; Some (x, p.2)) l)) = y * a + foldr (fun p acc => default 0 p.1 * p.2 + acc) 0 l). by rewrite IH.
    - change (rsum (map (fun p : R * R => nmul p.1 p.2) (omap (fun p : option R * R => x ← p.1; Some (x, p.2)) l)) = 0 * a + foldr (fun p acc => default 0 p.1 * p.2 + acc) 0 l). rewrite IH. ring. }
  assert (forall p, p ∈ q <-> (Some p.1, p.2) ∈ l) as Hin.
  { intros [y a]. subst q. rewrite elem_of_list_omap. split.
    - intros ([[z|] c]&Hp&Eq); simpl in Eq; try discriminate. injection Eq as -> ->. done.
    - intros Hp. eexists. split; [exact Hp|done]. }
  destruct q as [|p q].
  - injection H as <-. left. split; [|done]. intros [[y|] a] Hp; [|done]. exfalso. eapply (elem_of_nil (y, a)). by apply Hin.
  - injection H as <-. right. split; [exists (Some p.1, p.2); split; [apply Hin; left|done]|].
    eexists. split; [done|]. rewrite <- HW. change ndiv with Rdiv. unfold Rdiv. rewrite Rmult_assoc, Rinv_l by done. ring.
Qed.

(** In pseudo-orbit mode there is one value per BPM: the average over the turns of the multi-shot means, weighted with
    the mean sum signals; the sum signal is the average over the turns. *)
Theorem C38_pseudo_orbit (w : world R) req errors (s s' : sc R) r ords :
  trackMode (INJ s) = "PORB" ->
  match req with None => ords = oBPM (ORD s) | Some l => only_registered (oBPM (ORD s)) l = Ok ords end ->
  bpm_reading w req errors s = (Ok r, s') ->
  s' = set_RNG (RNG s') s /\ length (r_x r) = length ords /\ length (r_y r) = length ords /\ length (r_sum r) = length ords /\
  forall b, (b < length ords)%nat -> exists cells : nat -> list (cell R), exists mx my : nat -> option R, exists x y,
    let total_at t := total (map c_sum (cells t)) / INR (nShots (INJ s)) in
    (forall t, (t < nTurns (INJ s))%nat ->
       length (cells t) = nShots (INJ s) /\
       Forall (fun c => exists s1, s1 = set_RNG (RNG s1) s /\ shot_cell w s1 ords b t c) (cells t) /\
       charge_mean (map (fun c => (c_x c, c_sum c)) (cells t)) (mx t) /\ charge_mean (map (fun c => (c_y c, c_sum c)) (cells t)) (my t)) /\
    r_x r !! b = Some x /\ turn_mean (map (fun t => (mx t, total_at t)) (seq 0 (nTurns (INJ s)))) x /\
    r_y r !! b = Some y /\ turn_mean (map (fun t => (my t, total_at t)) (seq 0 (nTurns (INJ s)))) y /\
    r_sum r !! b = Some (foldr Rplus 0 (map total_at (seq 0 (nTurns (INJ s)))) / INR (nTurns (INJ s))).
Proof.
  intros Hm Ho H. split; [exact (pres_run quiet _ _ _ _ (quiet_reading w req errors) H)|].
  unfold bpm_reading in H. apply bind_ok in H as (s0&s1&H0&H). apply get_ok in H0 as [-> ->].
  apply bind_ok in H as (ords'&s2&H1&H). apply lift_ok in H1 as [H1 ->].
  assert (ords' = ords) as -> by (destruct req; [congruence|by subst; injection H1]).
  apply bind_ok in H as (shots&s2&H2&H). apply bind_ok in H as (sums&s3&H3&H). apply lift_ok in H3 as [H3 ->].
  rewrite decide_True in H by done.
  apply bind_ok in H as (xs&s4&Hx&H). apply lift_ok in Hx as [Hx ->].
  apply bind_ok in H as (ys&s5&Hy&H). apply lift_ok in Hy as [Hy ->].
  apply bind_ok in H as (ss&s6&Hs&H). apply lift_ok in Hs as [Hs ->]. apply ret_ok in H as [<- ->]. simpl.
  set (nt := nTurns (INJ s)) in *. set (sum := fun b t => default n0 (row ← sums !! b; row !! t)) in *.
  apply rmap_ok in Hx, Hy, Hs.
  pose proof (Forall2_length _ _ _ Hx) as Lx. pose proof (Forall2_length _ _ _ Hy) as Ly. pose proof (Forall2_length _ _ _ Hs) as Ls. rewrite seq_length in Lx, Ly, Ls.
  split; [done|]. split; [done|]. split; [done|]. intros b Hb.
  assert (forall t, (t < nt)%nat -> sum b t = total (map c_sum (cell_of shots b t)) / INR (nShots (INJ s))) as Hsum.
  { intros t Ht. unfold sum. apply rmap_ok in H3.
    pose proof (Forall2_lookup_l _ _ _ b b H3) as HR. rewrite lookup_seq_lt in HR by done. destruct (HR eq_refl) as (row&Hrow&Hrs). rewrite Hrow. simpl.
    apply rmap_ok in Hrs. pose proof (Forall2_lookup_l _ _ _ t t Hrs) as HT. rewrite lookup_seq_lt in HT by done. destruct (HT eq_refl) as (v&Hv&Hvs). rewrite Hv. simpl.
    unfold mean_sum in Hvs. rewrite nofnat_R, nansum_total in Hvs. by apply qdivR_ok in Hvs as [-> _]. }
  pose proof (Forall2_lookup_l _ _ _ b b Hx) as HX. rewrite lookup_seq_lt in HX by done. destruct (HX eq_refl) as (x&Ex&Px). clear HX.
  pose proof (Forall2_lookup_l _ _ _ b b Hy) as HY. rewrite lookup_seq_lt in HY by done. destruct (HY eq_refl) as (y&Ey&Py). clear HY.
  pose proof (Forall2_lookup_l _ _ _ b b Hs) as HS. rewrite lookup_seq_lt in HS by done. destruct (HS eq_refl) as (q&Eq&Pq). clear HS.
  apply porb_turn_mean in Px, Py. rewrite nsum_rsum, nofnat_R in Pq. apply qdivR_ok in Pq as [-> _].
  assert (forall A (g : R -> nat -> A), map (fun t => g (sum b t) t) (seq 0 nt) = map (fun t => g (total (map c_sum (cell_of shots b t)) / INR (nShots (INJ s))) t) (seq 0 nt)) as Hmap.
  { intros A g. apply map_ext_in. intros t Ht. apply in_seq in Ht. rewrite Hsum by lia. done. }
  exists (fun t => cell_of shots b t), (fun t => mean_pos 0 (cell_of shots b t)), (fun t => mean_pos 1 (cell_of shots b t)), x, y. split.
  { intros t Ht. pose proof (shots_cells w ords nt s shots s2 _ b t eq_refl H2 Hb Ht) as [L F]. split; [exact L|]. split; [exact F|]. split; apply ma_average_mean. }
  rewrite (Hmap _ (fun q t => (mean_pos 0 (cell_of shots b t), q))) in Px. rewrite (Hmap _ (fun q t => (mean_pos 1 (cell_of shots b t), q))) in Py.
  split; [exact Ex|]. split; [exact Px|]. split; [exact Ey|]. split; [exact Py|]. rewrite Eq. f_equal. f_equal. unfold rsum. f_equal. exact (Hmap _ (fun q t => q)).
Qed.

(** * C41 *)

(** how many of the particles [0..n-1] are alive in turn [t] *)
Definition alive (tr : nat -> nat -> option R) (n t : nat) : nat := length (List.filter (fun p => if tr p t then true else false) (seq 0 n)).
Lemma somes_alive tr n t : length (somes (map (fun p => tr p t) (seq 0 n))) = alive tr n t.
Proof.
  unfold alive. induction (seq 0 n) as [|p l IH]; [done|]. simpl. destruct (tr p t) as [x|]; simpl; [|exact IH].
  change (S (length (somes (map (fun p => tr p t) l))) = S (length (List.filter (fun p => if tr p t then true else false) l))). by rewrite IH.
Qed.
Lemma alive_mono tr tr' n t t' : (forall p, (p < n)%nat -> tr' p t' <> None -> tr p t <> None) -> (alive tr' n t' <= alive tr n t)%nat.
Proof.
  unfold alive. assert (forall p, p ∈ seq 0 n -> (p < n)%nat) as Hl by (intros p Hp; apply elem_of_seq in Hp; lia). revert Hl.
  induction (seq 0 n) as [|p l IH]; intros Hl Hi; simpl; [lia|]. assert (forall q, q ∈ l -> (q < n)%nat) as Hl' by (intros; apply Hl; by right).
  specialize (IH Hl' Hi). specialize (Hi p (Hl p (elem_of_list_here _ _))).
  destruct (tr' p t') as [x|]; simpl; [destruct (tr p t) as [y|]; simpl; [lia|exfalso; by apply Hi]|]. destruct (tr p t); simpl; lia.
Qed.
Lemma alive_le tr n t : (alive tr n t <= n)%nat.
Proof. unfold alive. etransitivity; [apply filter_len|]. by rewrite seq_length. Qed.

Definition turns_above (thr : R) (l : list R) : nat := length (List.filter (fun f => if Rlt_dec thr f then true else false) l).
(** lost particles stay lost *)
Definition stay_lost (tr : nat -> nat -> option R) : Prop := forall p t, tr p t = None -> tr p (S t) = None.

Lemma transmission_run (w : world R) np nt (s s' : sc R) n frac :
  beam_transmission w np nt s = (Ok (n, frac), s') ->
  let turns := default (nTurns (INJ s)) nt in
  exists Z s1, generate_bunches w (default (nParticles (INJ s)) np) s = (Ok Z, s1) /\
    let parts := length (default [] (Z !! 0%nat)) in
    let tr p t := w_track w (RING s) Z turns [length (RING s)] 0 p 0 t in
    (0 < parts \/ turns = 0)%nat /\ frac = map (fun t => INR (alive tr parts t) / INR parts) (seq 0 turns) /\
    n = turns_above (1 - beamLostAt (INJ s)) frac.
Proof.
  intros H turns. unfold beam_transmission in H. apply bind_ok in H as (s0&s1&H0&H). apply get_ok in H0 as [-> ->].
  apply bind_ok in H as (Z&s1&HZ&H). apply bind_ok in H as (fr&s2&HF&H). apply lift_ok in HF as [HF ->]. apply ret_ok in H as [E ->]. injection E as E1 E2. subst fr n.
  exists Z, s1. split; [exact HZ|]. cbv zeta. fold turns in HF |- *. apply rmap_ok in HF.
  set (parts := length (default [] (Z !! 0%nat))) in *.
  assert (forall t f, survived (fun p t => w_track w (RING s) Z turns [length (RING s)] 0 p 0 t) parts t = Ok f ->
    (0 < parts)%nat /\ f = INR (alive (fun p t => w_track w (RING s) Z turns [length (RING s)] 0 p 0 t) parts t) / INR parts) as HS.
  { intros t f Hf. unfold survived in Hf. rewrite !nofnat_R, (somes_alive (fun p t => w_track w (RING s) Z turns [length (RING s)] 0 p 0 t)) in Hf. apply qdivR_ok in Hf as [-> Hp]. split; [|done].
    destruct parts; [simpl in Hp; lra|lia]. }
  split; [|split].
  - clear -HF HS. destruct turns; [auto|]. left. inversion HF as [|? ? ? ? Hf ?]; subst. by apply HS in Hf as [? _].
  - clear -HF HS. revert HF HS. generalize (seq 0 turns). intros l HF HS. induction HF as [|t f l l' Hf HF IH]; [done|]. simpl. apply HS in Hf as [_ ->]. by rewrite IH.
  - reflexivity.
Qed.

(** What [beam_transmission] returns: one fraction per turn, the surviving particles of the bunch at the end of that
    turn over all; the count of the turns above the threshold; if lost particles stay lost, the fractions never
    increase and the good turns are the first ones. *)
Theorem C41_transmission (w : world R) np nt (s s' : sc R) n frac :
  beam_transmission w np nt s = (Ok (n, frac), s') ->
  let turns := default (nTurns (INJ s)) nt in
  s' = set_RNG (RNG s') s /\ length frac = turns /\ n = turns_above (1 - beamLostAt (INJ s)) frac /\
  exists Z s1, generate_bunches w (default (nParticles (INJ s)) np) s = (Ok Z, s1) /\
    let parts := length (default [] (Z !! 0%nat)) in
    let tr p t := w_track w (RING s) Z turns [length (RING s)] 0 p 0 t in
    (forall t, (t < turns)%nat -> exists f, frac !! t = Some f /\ f * INR parts = INR (alive tr parts t) /\ 0 <= f <= 1) /\
    (stay_lost tr ->
       (forall t f f', frac !! t = Some f -> frac !! S t = Some f' -> f' <= f) /\
       (forall t f, frac !! t = Some f -> (t < n)%nat <-> 1 - beamLostAt (INJ s) < f)).
Proof.
  intros H turns. split; [exact (pres_run quiet _ _ _ _ (quiet_transmission w np nt) H)|].
  apply transmission_run in H as (Z&s1&HZ&Hp&Hf&Hn). fold turns in Hp, Hf, HZ. set (parts := length (default [] (Z !! 0%nat))) in *.
  set (tr := fun p t => w_track w (RING s) Z turns [length (RING s)] 0 p 0 t) in *. cbv zeta in Hp.
  assert (length frac = turns) as HL by (rewrite Hf, map_length, seq_length; done).
  split; [exact HL|]. split; [exact Hn|]. exists Z, s1. split; [exact HZ|]. cbv zeta. fold parts. fold tr.
  assert (forall t, (t < turns)%nat -> frac !! t = Some (INR (alive tr parts t) / INR parts)) as HF.
  { intros t Ht. rewrite Hf, list_lookup_fmap, lookup_seq_lt by done. done. }
  assert (forall t, (t < turns)%nat -> 0 < INR parts) as Hpos by (intros t Ht; destruct Hp as [Hp|Hp]; [by apply lt_0_INR|lia]).
  split.
  - intros t Ht. eexists. split; [by apply HF|]. pose proof (Hpos t Ht) as P. split; [field; lra|].
    pose proof (le_INR _ _ (alive_le tr parts t)). pose proof (pos_INR (alive tr parts t)). split.
    + apply Rmult_le_pos; [lra|]. left. by apply Rinv_0_lt_compat.
    + apply Rmult_le_reg_r with (INR parts); [done|]. unfold Rdiv. rewrite Rmult_assoc, Rinv_l by lra. lra.
  - intros HS.
    assert (forall t f f', frac !! t = Some f -> frac !! S t = Some f' -> f' <= f) as Hdec.
    { intros t f f' H1 H2. assert (S t < turns)%nat as Ht by (rewrite <- HL; by eapply lookup_lt_Some). pose proof (Hpos _ Ht) as P.
      rewrite HF in H1, H2 by lia. injection H1 as <-. injection H2 as <-. unfold Rdiv. apply Rmult_le_compat_r; [left; by apply Rinv_0_lt_compat|].
      apply le_INR, alive_mono. intros p _ Ha Hb. apply Ha. by apply HS. }
    split; [exact Hdec|]. rewrite Hn. clear -Hdec. generalize (1 - beamLostAt (INJ s)) as thr. intros thr. unfold turns_above.
    revert Hdec. induction frac as [|f l IH]; intros Hdec t g Ht; [done|].
    assert (forall t f f', l !! t = Some f -> l !! S t = Some f' -> f' <= f) as Hdec' by (intros t0; apply (Hdec (S t0))).
    simpl. destruct (Rlt_dec thr f) as [Hlt|Hlt]; simpl.
    + destruct t as [|t]; simpl in Ht; [injection Ht as <-; split; [done|lia]|]. rewrite <- (IH Hdec' t g Ht). lia.
    + assert (forall t g, (f :: l) !! t = Some g -> ~ thr < g) as Hno.
      { clear -Hdec Hlt. intros t. induction t as [|t IHt]; intros g Hg; [injection Hg as <-; done|]. destruct ((f :: l) !! t) as [g'|] eqn:E.
        - specialize (IHt _ eq_refl). specialize (Hdec _ _ _ E Hg). lra.
        - apply lookup_ge_None in E. apply lookup_lt_Some in Hg. lia. }
      assert (List.filter (fun f => if Rlt_dec thr f then true else false) l = []) as ->.
      { apply elem_of_nil_inv. intros x Hx. apply elem_of_list_In, filter_In in Hx as [Hx Hy]. apply elem_of_list_In, elem_of_list_lookup in Hx as (i&Hi).
        apply (Hno (S i)) in Hi. destruct (Rlt_dec thr x); [done|discriminate]. }
      simpl. specialize (Hno _ _ Ht). split; [lia|done].
Qed.

(** Losing more particles never increases the number of turns. *)
Theorem C41_antitone (w w' : world R) np nt (s : sc R) s1 s2 n n' frac frac' :
  w_eig w' = w_eig w -> w_post w' = w_post w ->
  (forall Z p t, w_track w' (RING s) Z (default (nTurns (INJ s)) nt) [length (RING s)] 0 p 0 t <> None ->
                 w_track w (RING s) Z (default (nTurns (INJ s)) nt) [length (RING s)] 0 p 0 t <> None) ->
  beam_transmission w np nt s = (Ok (n, frac), s1) -> beam_transmission w' np nt s = (Ok (n', frac'), s2) -> (n' <= n)%nat.
Proof.
  intros He Hpo Hle H H'. apply transmission_run in H as (Z&sa&HZ&Hp&Hf&Hn). apply transmission_run in H' as (Z'&sb&HZ'&Hp'&Hf'&Hn').
  cbv zeta in *. assert (Z' = Z) as ->.
  { unfold generate_bunches in HZ, HZ'. rewrite He, Hpo in HZ'. rewrite HZ in HZ'. congruence. }
  rewrite Hn, Hn', Hf, Hf'. clear Hn Hn' Hf Hf'. set (parts := length (default [] (Z !! 0%nat))) in *. unfold turns_above. generalize (1 - beamLostAt (INJ s)) as thr. intros thr.
  destruct Hp as [Hp| ->]; [|done]. pose proof (lt_0_INR _ Hp) as P. pose proof (Rinv_0_lt_compat _ P) as P'.
  set (a := fun t => alive (fun p t => w_track w (RING s) Z (default (nTurns (INJ s)) nt) [length (RING s)] 0 p 0 t) parts t).
  set (a' := fun t => alive (fun p t => w_track w' (RING s) Z (default (nTurns (INJ s)) nt) [length (RING s)] 0 p 0 t) parts t).
  assert (forall t, (a' t <= a t)%nat) as Ha by (intros t; apply alive_mono; intros p _; apply Hle).
  change (length (List.filter (fun f => if Rlt_dec thr f then true else false) (map (fun t => INR (a' t) / INR parts)%R (seq 0 (default (nTurns (INJ s)) nt)))) <=
          length (List.filter (fun f => if Rlt_dec thr f then true else false) (map (fun t => INR (a t) / INR parts)%R (seq 0 (default (nTurns (INJ s)) nt)))))%nat.
  clearbody a a'. induction (seq 0 (default (nTurns (INJ s)) nt)) as [|t l IH]; [done|]. simpl.
  assert (thr < INR (a' t) / INR parts -> thr < INR (a t) / INR parts) as Hm.
  { intros Hlt. eapply Rlt_le_trans; [exact Hlt|]. unfold Rdiv. apply Rmult_le_compat_r; [lra|]. by apply le_INR. }
  destruct (Rlt_dec thr (INR (a' t) / INR parts)) as [H1|H1]; destruct (Rlt_dec thr (INR (a t) / INR parts)) as [H2|H2]; simpl; try lia. exfalso. apply H2. by apply Hm.
Qed.

(** * C43 *)

(** The bunch: the centroid with jitter, plus [sqrt V_i * L_ik] times independent random numbers, for the eigenvalues
    [V] and eigenvectors [L] of the beam matrix. *)
Theorem C43_bunch (w : world R) (n : nat) (s s' : sc R) Z V L :
  n <> 1%nat -> length (randomInjectionZ (INJ s)) = 6%nat -> length (Z0 (INJ s)) = 6%nat ->
  w_eig w (beamSize (INJ s)) = (V, L) -> length V = 6%nat -> shape 6 6 L ->
  generate_bunches w n s = (Ok Z, s') ->
  s' = set_RNG (RNG s') s /\
  exists d g : nat -> R, (forall i, Rabs (d i) <= 2) /\ (forall i, Rabs (g i) <= 3) /\
  exists M, shape 6 n M /\ Z = w_post w M /\
    forall i j, (i < 6)%nat -> (j < n)%nat ->
      mget M i j = (vget (randomInjectionZ (INJ s)) i * d i + vget (Z0 (INJ s)) i) +
                   sumn 6 (fun k => R_sqrt.sqrt (vget V i) * mget L i k * g (k * n + j)%nat).
Proof.
  intros Hn HJ HZ He HV HL H. split; [exact (pres_run quiet _ _ _ _ (quiet_bunches w n) H)|].
  unfold generate_bunches in H. apply bind_ok in H as (s0&s1&H0&H). apply get_ok in H0 as [-> ->].
  apply bind_ok in H as (d&s1&Hd&H). apply bind_ok in H as (jit&s2&Hj&H). apply lift_ok in Hj as [Hj ->].
  apply bind_ok in H as (z&s2&Hz&H). apply lift_ok in Hz as [Hz ->]. cbv zeta in H.
  destruct (n =? 1)%nat eqn:E1; [by apply Nat.eqb_eq in E1|]. rewrite He in H.
  apply bind_ok in H as (g&s2&Hg&H). apply ret_ok in H as [<- ->].
  apply randnc_bound in Hd as [Ld Bd]. apply randnc_bound in Hg as [Lg Bg].
  exists (vget d), (vget g).
  assert (forall l c i, Forall (fun d => Rabs d <= Rabs c) l -> Rabs (vget l i) <= Rabs c) as HB by (intros l c i; apply pick_bound).
  split; [intros i; rewrite <- abs_two; by apply HB|].
  split; [intros i; replace 3 with (Rabs (@nofnat R _ 3)) by (rewrite nofnat_R, Rabs_right; simpl; lra); by apply HB|].
  assert (jit = zip_with Rmult (randomInjectionZ (INJ s)) d) as ->.
  { unfold bcast in Hj. rewrite HJ, Ld in Hj. simpl in Hj. by injection Hj. }
  assert (z = zip_with Rplus (zip_with Rmult (randomInjectionZ (INJ s)) d) (Z0 (INJ s))) as ->.
  { unfold bcast in Hz. rewrite zip_with_length, HJ, Ld, HZ in Hz. simpl in Hz. by injection Hz. }
  set (z := zip_with Rplus (zip_with Rmult (randomInjectionZ (INJ s)) d) (Z0 (INJ s))).
  assert (length z = 6%nat) as Lz by (unfold z; rewrite !zip_with_length, HJ, Ld, HZ; done).
  assert (forall i, (i < 6)%nat -> vget z i = vget (randomInjectionZ (INJ s)) i * vget d i + vget (Z0 (INJ s)) i) as Ez.
  { intros i Hi. unfold z, vget. rewrite !lookup_zip_with.
    destruct (randomInjectionZ (INJ s) !! i) eqn:Ea; [|apply lookup_ge_None in Ea; lia].
    destruct (d !! i) eqn:Eb; [|apply lookup_ge_None in Eb; lia].
    destruct (Z0 (INJ s) !! i) eqn:Ec; [|apply lookup_ge_None in Ec; lia]. done. }
  clearbody z.
  (* the diagonal matrix *)
  assert (shape 6 6 (diag (map R_sqrt.sqrt V))) as SD.
  { unfold diag. split; [rewrite imap_length, map_length; done|]. apply Forall_lookup. intros i row Hr. apply list_lookup_imap_Some in Hr as (x&Hx&->).
    rewrite insert_length. unfold zeros. rewrite replicate_length, map_length. done. }
  assert (forall i j, (i < 6)%nat -> (j < 6)%nat -> mget (diag (map R_sqrt.sqrt V)) i j = delta i j * R_sqrt.sqrt (vget V i)) as ED.
  { intros i j Hi Hj'. rewrite mget_row. unfold diag. rewrite list_lookup_imap, list_lookup_fmap.
    destruct (V !! i) as [x|] eqn:Ev; [|apply lookup_ge_None in Ev; lia]. simpl. unfold vget at 2. rewrite Ev. simpl. unfold vget.
    destruct (Nat.eq_dec i j) as [->|Hij].
    - rewrite list_lookup_insert by (unfold zeros; rewrite replicate_length, map_length; lia). simpl. rewrite delta_same. lra.
    - rewrite list_lookup_insert_ne by done. unfold zeros. rewrite lookup_replicate_2 by (rewrite map_length; lia). simpl. rewrite delta_ne by done. change (@n0 R _) with 0. lra. }
  change (map nsqrt V) with (map R_sqrt.sqrt V).
  assert (shape 6 6 (mmul (diag (map R_sqrt.sqrt V)) L)) as SA by (eapply shape_mmul; eauto; lia).
  assert (forall i k, (i < 6)%nat -> (k < 6)%nat -> mget (mmul (diag (map R_sqrt.sqrt V)) L) i k = R_sqrt.sqrt (vget V i) * mget L i k) as EA.
  { intros i k Hi Hk. rewrite (mget_mmul 6 6 6) by done. rewrite (sumn_ext _ _ (fun m => delta i m * (R_sqrt.sqrt (vget V i) * mget L m k))).
    - by rewrite sumn_delta.
    - intros m Hm. rewrite ED by done. ring. }
  (* the random matrix *)
  assert (forall r l, length l = (r * n)%nat -> shape r n (rows_of n r l) /\ forall k j, (k < r)%nat -> (j < n)%nat -> mget (rows_of n r l) k j = vget l (k * n + j)) as HR.
  { clear. induction r as [|r IH]; intros l HLl; [split; [by split; [|constructor]|intros; lia]|]. simpl in HLl.
    destruct (IH (drop n l)) as [[S1 S2] E]; [rewrite drop_length; lia|]. split.
    - split; [simpl; by rewrite S1|]. simpl. constructor; [rewrite take_length; lia|done].
    - intros k j Hk Hj. destruct k as [|k].
      + rewrite mget_row. simpl. unfold vget. rewrite lookup_take by done. done.
      + change (mget (rows_of n (S r) l) (S k) j) with (mget (rows_of n r (drop n l)) k j). rewrite E by lia. unfold vget. rewrite lookup_drop. do 2 f_equal. simpl. lia. }
  destruct (HR 6%nat g Lg) as [SG EG].
  assert (shape 6 n (mmul (mmul (diag (map R_sqrt.sqrt V)) L) (rows_of n 6 g))) as SM by (eapply shape_mmul; eauto; lia).
  set (P := mmul (mmul (diag (map R_sqrt.sqrt V)) L) (rows_of n 6 g)) in *.
  exists (zip_with (zip_with nadd) (tile z n) P). split; [|split; [done|]].
  - destruct SM as [SM1 SM2]. unfold tile. split; [rewrite zip_with_length, map_length, Lz, SM1; done|].
    apply Forall_lookup. intros i row Hr. apply lookup_zip_with_Some in Hr as (a&b&->&Ha&Hb). rewrite zip_with_length.
    apply list_lookup_fmap_Some in Ha as (x&_&->). rewrite replicate_length. eapply Forall_lookup_1 in SM2; [|exact Hb]. simpl in SM2. lia.
  - intros i j Hi Hj'. destruct (shape_row _ _ _ _ SM Hi) as (row&Hrow&HLr).
    assert (mget P i j = vget row j) as EP by (rewrite mget_row, Hrow; done).
    rewrite mget_row, lookup_zip_with. unfold tile. rewrite list_lookup_fmap.
    destruct (z !! i) as [x|] eqn:Ex; [|apply lookup_ge_None in Ex; lia]. simpl. rewrite Hrow. simpl. unfold vget at 1. rewrite lookup_zip_with.
    rewrite lookup_replicate_2 by done. simpl. destruct (row !! j) as [y|] eqn:Ey; [|apply lookup_ge_None in Ey; lia]. simpl.
    assert (vget z i = x) as Ezx by (unfold vget; by rewrite Ex). rewrite <- Ez by done. rewrite Ezx. change (nadd x y) with (x + y). f_equal.
    assert (vget row j = y) as Ery by (unfold vget; by rewrite Ey). rewrite <- Ery, <- EP. unfold P. rewrite (mget_mmul 6 6 n) by done.
    transitivity (sumn 6 (fun k => R_sqrt.sqrt (vget V i) * mget L i k * vget g (k * n + j)%nat)); [|done]. apply sumn_ext. intros k Hk. rewrite EA, EG by done. done.
Qed.

(** The covariance of [sqrt V_i * sum_k L_ik g_k] for independent [g_k] of unit variance is
    [sum_k A_ik A_jk] with [A_ik = sqrt V_i * L_ik].  For orthonormal [L] this is the diagonal matrix of the
    eigenvalues, so it is the requested matrix [sum_k V_k L_ik L_jk] only when that is diagonal with the eigenvalues
    in the order returned (finding). *)
Definition drawn_covariance (n : nat) (V : list R) (L : list (list R)) (i j : nat) : R :=
  sumn n (fun k => (R_sqrt.sqrt (vget V i) * mget L i k) * (R_sqrt.sqrt (vget V j) * mget L j k)).
Definition requested_covariance (n : nat) (V : list R) (L : list (list R)) (i j : nat) : R :=
  sumn n (fun k => vget V k * mget L i k * mget L j k).
Theorem C43_finding_covariance (n : nat) V L :
  (forall i, (i < n)%nat -> 0 <= vget V i) ->
  (forall i j, (i < n)%nat -> (j < n)%nat -> sumn n (fun k => mget L i k * mget L j k) = delta i j) ->
  (forall i j, (i < n)%nat -> (j < n)%nat -> drawn_covariance n V L i j = delta i j * vget V i) /\
  ((forall i j, (i < n)%nat -> (j < n)%nat -> drawn_covariance n V L i j = requested_covariance n V L i j) <->
   (forall i j, (i < n)%nat -> (j < n)%nat -> requested_covariance n V L i j = delta i j * vget V i)).
Proof.
  intros HV HL.
  assert (forall i j, (i < n)%nat -> (j < n)%nat -> drawn_covariance n V L i j = delta i j * vget V i) as HD.
  { intros i j Hi Hj. unfold drawn_covariance.
    rewrite (sumn_ext _ _ (fun k => (R_sqrt.sqrt (vget V i) * R_sqrt.sqrt (vget V j)) * (mget L i k * mget L j k))) by (intros; ring).
    rewrite sumn_scal, HL by done. destruct (Nat.eq_dec i j) as [->|Hij].
    - rewrite sqrt_sqrt by auto. rewrite delta_same. ring.
    - rewrite delta_ne by done. ring. }
  split; [exact HD|]. split; intros H i j Hi Hj.
  - rewrite <- H by done. by apply HD.
  - rewrite H by done. by apply HD.
Qed.
(** a correlated beam matrix whose correlation is lost *)
Theorem C43_finding_correlation_lost :
  exists (V : list R) (L : list (list R)),
    (forall i, (i < 2)%nat -> 0 <= vget V i) /\
    (forall i j, (i < 2)%nat -> (j < 2)%nat -> sumn 2 (fun k => mget L i k * mget L j k) = delta i j) /\
    requested_covariance 2 V L 0 1 = 36/25 /\ drawn_covariance 2 V L 0 1 = 0.
Proof.
  exists [4; 1], [[3/5; -4/5]; [4/5; 3/5]].
  assert (forall i, (i < 2)%nat -> 0 <= vget [4; 1] i) as HV.
  { intros [|[|i]] Hi; [unfold vget; simpl; lra..|lia]. }
  assert (forall i j, (i < 2)%nat -> (j < 2)%nat -> sumn 2 (fun k => mget [[3/5; -4/5]; [4/5; 3/5]] i k * mget [[3/5; -4/5]; [4/5; 3/5]] j k) = delta i j) as HL.
  { intros [|[|i]] [|[|j]] Hi Hj; try lia; unfold mget, delta; simpl; lra. }
  split; [exact HV|]. split; [exact HL|]. split.
  - unfold requested_covariance, vget, mget. simpl. lra.
  - destruct (C43_finding_covariance 2 _ _ HV HL) as [HD _]. rewrite HD by lia. unfold delta. simpl. lra.
Qed.

Print Assumptions C38_pseudo_orbit.
Print Assumptions C41_transmission.
Print Assumptions C41_antitone.
Print Assumptions C43_bunch.
Print Assumptions C43_finding_covariance.
Print Assumptions C43_finding_correlation_lost.

(** * Cases

    Over the rationals, with rolls of zero: cosine and sine of zero, square roots of squares. *)
Local Open Scope Q_scope.
#[local] Instance TrigQ0 : Trig Q :=
  { ncos := fun x => if Qeq_bool x 0 then 1 else 0; nsin := fun _ => 0; nsqrt := fun x => Qred (Z.sqrt (Qnum x) # Z.to_pos (Z.sqrt (Zpos (Qden x)))); npi := 0 }.
Definition ex_bpm : elem Q :=
  mk [("Noise", VVec [1; 2]); ("NoiseCO", VVec [1; 2]); ("Offset", VVec [1; 0]); ("SupportOffset", VVec [0; 1]); ("CalError", VVec [1; 0]);
      ("Roll", VNum 0); ("SupportRoll", VNum 0); ("SumError", VNum (1#2))].
Definition ex_inj (lost : Q) (np nt ns : nat) (mode : string) : inj Q :=
  MkInj lost (zeros 6) (zeros 6) (replicate 6 (zeros 6)) [1; 0; 1; 0; 0; 0] np nt ns mode.
Definition ex_machine (i : inj Q) (rng : list Q) : sc Q :=
  MkSC [drift 1; ex_bpm; drift 2; ex_bpm] [] i (SIG ex_sc) (MkOrd [1; 3]%nat [] [] [] [] [] [] [] []) rng.
(** particles go straight and are lost when they start at x above 3/2 *)
Definition ex_world : world Q :=
  MkWorld (fun _ Z _ _ c p _ _ => x ← (r ← Z !! 0%nat; r !! p); if Qltb (3#2) x then None else r ← Z !! c; r !! p)
    (fun _ _ _ _ => Some 1) (fun _ => ([4; 1; 0; 0; 0; 0], [[3#5; -4#5; 0; 0; 0; 0]; [4#5; 3#5; 0; 0; 0; 0]; [0; 0; 1; 0; 0; 0]; [0; 0; 0; 1; 0; 0]; [0; 0; 0; 0; 1; 0]; [0; 0; 0; 0; 0; 1]]))
    (fun Z => Z).
(** two shots of one particle, the first with double charge, first BPM only *)
Definition ex_draws : list Q := [1; 0; 1; 0; 0; 0;  1; 1;  2;   -1; 0; 1; 0; 0; 0;  0; 1;  0].
Example C37_C38_case :
  fst (bpm_reading ex_world (Some [1%nat]) false (ex_machine (ex_inj (1#2) 1 1 2 "TBT") ex_draws)) =
    Ok (MkReading [Some (-1)] [Some (4#3)] [3#2] None).
Proof. vm_compute. reflexivity. Qed.
(** the second shot is lost: the position is that of the first shot, the sum signal counts both, and the error of the
    position is not a number although [calculate_errors] was asked for (finding) *)
Definition ex_draws_lost : list Q := [1; 0; 1; 0; 0; 0;  1; 1;  2;   2; 0; 1; 0; 0; 0;  0; 1;  0].
Example C38_finding_error_lost_shot :
  fst (bpm_reading ex_world (Some [1%nat]) true (ex_machine (ex_inj (1#2) 1 1 2 "TBT") ex_draws_lost)) =
    Ok (MkReading [Some (1#2)] [Some 1] [1] (Some ([None], [None]))).
Proof. vm_compute. reflexivity. Qed.
(** without a reading in any shot the result is NaN in the turn-by-turn mode, but the pseudo-orbit mode fails (finding) *)
Definition ex_draws_none : list Q := [2; 0; 1; 0; 0; 0;  1; 1;  2].
Example C38_finding_pseudo_orbit_lost :
  fst (bpm_reading ex_world (Some [1%nat]) false (ex_machine (ex_inj (1#2) 1 1 1 "TBT") ex_draws_none)) = Ok (MkReading [None] [None] [0] None) /\
  fst (bpm_reading ex_world (Some [1%nat]) false (ex_machine (ex_inj (1#2) 1 1 1 "PORB") ex_draws_none)) = Err ZeroDivisionError.
Proof. vm_compute. split; reflexivity. Qed.
(** pseudo-orbit mode over two turns; draws: jitter, noise x (two turns), noise y (two turns), sum signal (two turns) *)
Example C38_pseudo_orbit_case :
  fst (bpm_reading ex_world (Some [3%nat]) false (ex_machine (ex_inj (1#2) 1 2 1 "PORB") [1; 0; 1; 0; 0; 0;  1; 0;  0; 1;  2; 0])) =
    Ok (MkReading [Some (1#3)] [Some (2#3)] [3#2] None).
Proof. vm_compute. reflexivity. Qed.
(** [all_elements_reading] averages the shots without weights, [bpm_reading] with weights (finding) *)
Definition ex_draws_two : list Q := [1; 0; 1; 0; 0; 0;  1; 0; 1; 0;  2; 0;   -1; 0; 1; 0; 0; 0;  0; 0; 1; 0;  0; 0].
Example C38_finding_unweighted :
  (exists tk, fst (all_elements_reading ex_world (ex_machine (ex_inj (1#2) 1 1 2 "TBT") ex_draws_two)) = Ok ([Some (-7#4); Some (-2)], [Some (3#2); Some 0], tk)) /\
  fst (bpm_reading ex_world None false (ex_machine (ex_inj (1#2) 1 1 2 "TBT") ex_draws_two)) = Ok (MkReading [Some (-1); Some (-2)] [Some (4#3); Some 0] [3#2; 1] None).
Proof. split; [eexists|]; vm_compute; reflexivity. Qed.
(** closed-orbit mode with two turns: the same reading twice *)
Example C37_orbit_case :
  fst (bpm_reading ex_world (Some [1%nat]) false (ex_machine (ex_inj (1#2) 1 2 1 "ORB") [1; 1; 0])) =
    Ok (MkReading [Some 1; Some 1] [Some 2; Some 2] [1; 1] None).
Proof. vm_compute. reflexivity. Qed.
(** three particles of which one is lost, two turns *)
Definition ex_cloud : list Q := [0; 0; 0; 0; 0; 0;   1; 2; 0;  0; 0; 0;  0; 0; 0;  0; 0; 0;  0; 0; 0;  0; 0; 0].
Example C41_case :
  fst (beam_transmission ex_world (Some 3%nat) (Some 2%nat) (ex_machine (ex_inj (1#2) 1 1 1 "TBT") ex_cloud)) = Ok (2%nat, [2#3; 2#3]) /\
  fst (beam_transmission ex_world (Some 3%nat) (Some 2%nat) (ex_machine (ex_inj (1#3) 1 1 1 "TBT") ex_cloud)) = Ok (0%nat, [2#3; 2#3]).
Proof. vm_compute. split; reflexivity. Qed.
Example C43_case :
  fst (generate_bunches ex_world 3 (ex_machine (ex_inj (1#2) 1 1 1 "TBT") ex_cloud)) =
    Ok [[6#5; 12#5; 0]; [4#5; 8#5; 0]; [0; 0; 0]; [0; 0; 0]; [0; 0; 0]; [0; 0; 0]].
Proof. vm_compute. reflexivity. Qed.
Example C39_case : arrival 2 3 (fun b t => (b, t)) = [(0, 0); (1, 0); (0, 1); (1, 1); (0, 2); (1, 2)]%nat.
Proof. reflexivity. Qed.
Example C40_case : (only_registered [3; 5; 9] [9; 4; 3; 3] = Ok [3; 9] /\ only_registered [3; 5; 9] [4] = Err ValueError)%nat.
Proof. split; reflexivity. Qed.
