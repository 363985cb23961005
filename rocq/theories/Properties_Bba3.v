(** C68: the evaluation of a beam-based alignment finds the centre of the magnet. *)
From Coq Require Import Reals Lra Lia QArith ZArith.
From stdpp Require Import base gmap strings list.
From Verif Require Import Num Base Examples Model_Arr Model_SC Model_Err Model_Beam Model_Orbit Model_Scan Model_Stats Model_Bba Lemmas Proofs_Update Proofs_Beam Spec Proofs_CM Properties_Field Properties_Beam Properties_Orbit Properties_Stats Properties_Bba Properties_Bba2.
Local Open Scope string_scope.
Local Open Scope list_scope.
Local Open Scope R_scope.

(** * Specification *)

(** value of a polynomial, coefficients from the highest order *)
Definition poly (cs : list R) (x : R) : R := fold_left (fun acc c => acc * x + c) cs 0.
Notation fit := (list R -> list R -> nat -> list R -> res (list R * list (list R))).
(** what is needed of numpy.polyfit: on points of a polynomial of the degree it returns this polynomial (it may also fail) *)
Definition exact_fit (f : fit) : Prop := forall xs ys d ws p cov cs,
  f xs ys d ws = Ok (p, cov) -> NoDup xs -> (d < length xs)%nat -> length ws = length xs -> Forall (fun w => w <> 0) ws -> length cs = S d -> ys = map (poly cs) xs -> p = cs.
(** the readings of one step: per strength the position at the BPM and the positions downstream *)
Notation step_data := (list (option R * list (option R))).
(** mean position at the BPM, when no reading of the step is missing *)
Definition mean_position (row : step_data) (x : R) : Prop := exists ps, map fst row = map Some ps /\ ps <> [] /\ x = avg ps.
(** Linear dependence on the strength of the magnet.  Its slope is proportional to the distance from the centre (order 1) or
    is extremal there (order 2). *)
Definition slope_law (order : nat) (x0 c d x : R) : R := match order with 1%nat => c * (x - x0) | _ => c * (x - x0) ^ 2 + d end.
Definition centred_at (order : nat) (mags : list R) (rows : list step_data) (n : nat) (x0 : R) : Prop :=
  forall j, (j < n)%nat -> exists c d, forall i row x, rows !! i = Some row -> mean_position row x ->
  exists a, forall q m pos l y, mags !! q = Some m -> row !! q = Some (pos, l) -> l !! j = Some (Some y) -> y = a + m * slope_law order x0 c d x.
Definition distinct_positions (rows : list step_data) : Prop := forall i1 i2 row1 row2 x, rows !! i1 = Some row1 -> rows !! i2 = Some row2 ->
  mean_position row1 x -> mean_position row2 x -> i1 = i2.
(** bending magnets without dipole compensation: the displacement at which the quadrupole field makes up for the bending field *)
Definition bending_shift (s : sc R) (dipcomp : bool) (n_dim m : nat) (sh : R) : Prop :=
  if negb dipcomp && (n_dim =? 0)%nat then
    exists k, entry s m "NomPolynomB" 1 = Some k /\
    ((k = 0 /\ sh = 0) \/ exists len, k <> 0 /\ number s m "Length" = Some len /\ len <> 0 /\
       sh = match number s m "BendingAngle" with Some th => th | None => 0 end / k / len)
  else sh = 0.

(** * Lemmas *)
Lemma kept_lookup (rows : list step_data) : exists idx : list nat, length idx = length (kept rows) /\ NoDup idx /\
  forall k ps row', kept rows !! k = Some (ps, row') -> exists i row, idx !! k = Some i /\ rows !! i = Some row /\ map fst row = map Some ps /\ ps <> [] /\ row' = map snd row.
Proof.
  assert (forall (rows : list step_data) (o : nat), exists idx : list nat, length idx = length (kept rows) /\ NoDup idx /\ Forall (fun i => (o <= i)%nat) idx /\
    forall k ps row', kept rows !! k = Some (ps, row') -> exists i row, idx !! k = Some (o + i)%nat /\ rows !! i = Some row /\ map fst row = map Some ps /\ ps <> [] /\ row' = map snd row) as H.
  { clear rows. induction rows as [|row rows IH]; intros o.
    - exists []. split_and!; [done|constructor|constructor|]. intros k ps row' Hk. done.
    - destruct (IH (S o)) as (idx&HL&Hnd&Hge&Hidx). 
      assert (forall k ps row', kept rows !! k = Some (ps, row') ->
        exists i row0, idx !! k = Some (o + i)%nat /\ (row :: rows) !! i = Some row0 /\ map fst row0 = map Some ps /\ ps <> [] /\ row' = map snd row0) as Hrest.
      { intros k ps row' Hk. destruct (Hidx k ps row' Hk) as (i&row0&H1&H2&H3). exists (S i), row0. split; [by replace (o + S i)%nat with (S o + i)%nat by lia|]. done. }
      unfold kept in *. cbn [omap list_omap]. destruct (no_gaps (map fst row)) as [[|x l]|] eqn:E.
      + exists idx. split_and!; [done|done|eapply Forall_impl; [exact Hge|]; intros; cbn in *; lia|exact Hrest].
      + exists (o :: idx). apply no_gaps_spec in E. split_and!; [cbn; by rewrite HL| | |].
        * constructor; [|done]. intros Hin. rewrite Forall_forall in Hge. apply Hge in Hin. lia.
        * constructor; [lia|]. eapply Forall_impl; [exact Hge|]; intros; cbn in *; lia.
        * intros [|k] ps row' Hk; [|by apply Hrest]. injection Hk as <- <-. exists 0%nat, row. split_and!; [cbn; f_equal; lia|done|done|done|done].
      + exists idx. split_and!; [done|done|eapply Forall_impl; [exact Hge|]; intros; cbn in *; lia|exact Hrest]. }
  destruct (H rows 0%nat) as (idx&HL&Hnd&_&Hidx). exists idx. split_and!; [done|done|]. intros k ps row' Hk. destruct (Hidx k ps row' Hk) as (i&row&?&?&?&?&?). exists i, row. done.
Qed.
Lemma points_of (mags : list R) (ys : list (option R)) :
  let pts := omap (fun p : R * option R => y ← p.2; Some (p.1, y)) (zip mags ys) in
  (forall m y, (m, y) ∈ pts -> exists q, mags !! q = Some m /\ ys !! q = Some (Some y)) /\ (NoDup mags -> NoDup (map fst pts)).
Proof.
  cbv zeta. split.
  - intros m y H. apply elem_of_list_omap in H as ([m' y']&Hin&H). cbn in H. destruct y' as [y'|]; [|discriminate]. injection H as -> ->.
    apply elem_of_list_lookup in Hin as [q Hq]. rewrite lookup_zip_with in Hq. exists q. destruct (mags !! q), (ys !! q); cbn in Hq; try discriminate. injection Hq as -> ->. done.
  - intros Hnd. revert ys. induction Hnd as [|m mags Hm Hnd IH]; intros [|y ys]; try constructor. cbn. destruct y as [y|]; cbn; [|apply IH].
    constructor; [|apply IH]. intros Hin. apply elem_of_list_fmap in Hin as ([m' y']&->&Hin). apply elem_of_list_omap in Hin as ([m2 y2]&Hz&He). cbn in He. destruct y2; [|discriminate]. injection He as -> ->.
    apply Hm. cbn. by eapply elem_of_zip_l.
Qed.
Lemma slope_ok (f : fit) err mags row j p0 c g a : exact_fit f -> NoDup mags -> (2 <= length mags)%nat ->
  (forall q m l y, mags !! q = Some m -> row !! q = Some l -> l !! j = Some (Some y) -> y = a + m * g) ->
  slope f err mags row j = Ok (Some (p0, c)) -> p0 = g.
Proof.
  intros Hf Hnd HL Hy H. unfold slope in H. apply rbind_ok in H as (ys&Hys&H). set (pts := omap _ _) in H. destruct (length pts <? _)%nat eqn:El; [discriminate|]. apply Nat.ltb_ge in El.
  apply rbind_ok in H as (wt&Hwt&H). apply qdivR_ok in Hwt as [Hwt Hz]. apply rbind_ok in H as ([p cov]&Hp&H). apply rbind_ok in H as (p0'&Hp0&H). apply rbind_ok in H as (c'&_&H). injection H as -> ->. apply idx_ok in Hp0.
  pose proof (points_of mags ys) as [P1 P2]. fold pts in P1, P2. eapply (Hf _ _ _ _ _ _ [g; a]) in Hp.
  - subst p. cbn in Hp0. congruence.
  - by apply P2.
  - rewrite map_length. lia.
  - by rewrite replicate_length, map_length.
  - apply Forall_replicate. rewrite Hwt. unfold Rdiv. rewrite Rmult_1_l. by apply Rinv_neq_0_compat.
  - done.
  - rewrite map_map. change (@map) with (@fmap list _). apply list_fmap_ext. intros k [m y] Hk. cbn [fst snd]. apply elem_of_list_lookup_2 in Hk. destruct (P1 m y Hk) as (q&Hm&Hq).
    apply rmap_ok in Hys. destruct (Forall2_lookup_r _ _ _ _ _ Hys Hq) as (l&Hl&Hlj). apply idx_ok in Hlj. rewrite (Hy q m l y Hm Hl Hlj). cbn. lra.
Qed.
Lemma center_ok (f : fit) order pts x0 c d z e : exact_fit f -> order = 1%nat \/ order = 2%nat -> NoDup (map (fun p : R * R * R => p.1.1) pts) ->
  (forall p, p ∈ pts -> p.1.2 = slope_law order x0 c d p.1.1) -> center f order pts = Ok (Some (z, e)) -> z = x0.
Proof.
  intros Hf Ho Hnd Hlaw H. unfold center in H. destruct (length pts <=? order + 1)%nat eqn:El; [discriminate|]. apply Nat.leb_gt in El.
  apply rbind_ok in H as (wt&Hwt&H). apply rbind_ok in H as ([p cov]&Hp&H). apply rbind_ok in H as (p0&Hp0&H). apply idx_ok in Hp0. apply rbind_ok in H as (c00&_&H).
  destruct (nltb _ _); [discriminate|]. apply rbind_ok in H as (p1&Hp1&H). apply idx_ok in Hp1. apply rbind_ok in H as (z'&Hz&H). apply rbind_ok in H as (c11&_&H). apply rbind_ok in H as (c01&_&H). injection H as -> _.
  apply qdivR_ok in Hz as [-> Hnz]. apply rmap_ok in Hwt.
  assert (length wt = length pts) as HLw by (symmetry; by eapply Forall2_length).
  assert (Forall (fun w => w <> 0) wt) as Hw.
  { apply Forall_forall. intros w Hw. apply elem_of_list_lookup in Hw as [k Hk]. destruct (Forall2_lookup_r _ _ _ _ _ Hwt Hk) as (q&_&Hq). apply qdivR_ok in Hq as [-> Hq]. change n1 with 1. unfold Rdiv. rewrite Rmult_1_l. by apply Rinv_neq_0_compat. }
  assert (p = if (order =? 1)%nat then [c; - (c * x0)] else [c; - (2 * c * x0); c * (x0 * x0) + d]) as ->.
  { eapply Hf; [exact Hp|done|rewrite map_length; lia|by rewrite map_length|done| |].
    - destruct Ho as [->| ->]; done.
    - rewrite map_map. change (@map) with (@fmap list _). apply list_fmap_ext. intros k q Hk. apply elem_of_list_lookup_2 in Hk. rewrite (Hlaw q Hk). destruct Ho as [->| ->]; unfold poly; cbn; ring. }
  unfold nofnat in *. num_R. destruct Ho as [->| ->]; cbn in Hp0, Hp1; injection Hp0 as <-; injection Hp1 as <-; cbn in Hnz |- *.
  - field. intros ->. apply Hnz. lra.
  - field. intros ->. apply Hnz. lra.
Qed.
Lemma centre_points (xs : list R) (col : list (option (R * R))) :
  let pts := omap (fun q : R * option (R * R) => sl ← q.2; Some (q.1, sl.1, sl.2)) (zip xs col) in
  (forall p, p ∈ pts -> exists k, xs !! k = Some p.1.1 /\ col !! k = Some (Some (p.1.2, p.2))) /\ (NoDup xs -> NoDup (map (fun p : R * R * R => p.1.1) pts)).
Proof.
  cbv zeta. split.
  - intros p H. apply elem_of_list_omap in H as ([x y]&Hin&H). cbn in H. destruct y as [[y1 y2]|]; [|discriminate]. injection H as <-. cbn.
    apply elem_of_list_lookup in Hin as [q Hq]. rewrite lookup_zip_with in Hq. exists q. destruct (xs !! q), (col !! q); cbn in Hq; try discriminate. injection Hq as -> ->. done.
  - intros Hnd. revert col. induction Hnd as [|m mags Hm Hnd IH]; intros [|y ys]; try constructor. cbn. destruct y as [y|]; cbn; [|apply IH].
    constructor; [|apply IH]. intros Hin. apply elem_of_list_fmap in Hin as ([[x1 x2] x3]&->&Hin). apply elem_of_list_omap in Hin as ([m2 y2]&Hz&He). cbn in He. destruct y2; [|discriminate]. change (Some (m2, p.1, p.2) = Some (x1, x2, x3)) in He. assert (m2 = x1) as -> by congruence.
    apply Hm. cbn. by eapply elem_of_zip_l.
Qed.
Lemma somes_elem {A} (l : list (option A)) x : x ∈ somes l -> Some x ∈ l.
Proof. unfold somes. intros H. apply elem_of_list_omap in H as (y&Hy&E). cbn in E. congruence. Qed.
Lemma kept_positions (rows : list step_data) : distinct_positions rows -> NoDup (map (fun r : list R * list (list (option R)) => mean r.1) (kept rows)).
Proof.
  intros Hd. destruct (kept_lookup rows) as (idx&HL&Hnd&Hidx). apply NoDup_alt. intros k1 k2 x H1 H2. change (@map) with (@fmap list _) in H1, H2. rewrite list_lookup_fmap in H1, H2.
  destruct (kept rows !! k1) as [[ps1 r1]|] eqn:E1; [|discriminate]. destruct (kept rows !! k2) as [[ps2 r2]|] eqn:E2; [|discriminate]. change (Some (mean ps1) = Some x) in H1. change (Some (mean ps2) = Some x) in H2. rewrite mean_avg in H1, H2. injection H1 as H1. injection H2 as H2.
  destruct (Hidx _ _ _ E1) as (i1&row1&I1&R1&M1&N1&_). destruct (Hidx _ _ _ E2) as (i2&row2&I2&R2&M2&N2&_).
  assert (i1 = i2) as -> by (eapply (Hd i1 i2 row1 row2 x); eauto; [exists ps1|exists ps2]; done).
  eapply NoDup_lookup; eauto.
Qed.

(** * C68 *)
(** Whatever the evaluation returns for positions that respond linearly to the strength of the magnet, with a slope that vanishes (order 1)
    or is extremal (order 2) at one position x0, this position is returned: it is found from any set of steps and BPMs that survived, and
    independently of the weights.  Without dipole compensation the horizontal result is displaced by the bending shift. *)
Theorem C68_centre (f : fit) (qt : R -> R) (p : bba_par R) mags n_dim m_ord rows (s : sc R) off err x0 :
  exact_fit f -> b_fit_order p = 1%nat \/ b_fit_order p = 2%nat -> NoDup mags -> (2 <= length mags)%nat ->
  distinct_positions rows -> centred_at (b_fit_order p) mags rows (b_downstream p) x0 ->
  data_evaluation f qt p mags n_dim m_ord rows s = Ok (off, err) ->
  exists sh, bending_shift s (b_dipcomp p) n_dim m_ord sh /\ off = x0 + sh.
Proof.
  intros Hf Ho Hnd HL Hd Hc H. unfold data_evaluation in H. apply rbind_ok in H as (slopes&Hsl&H). apply rbind_ok in H as (centers&Hcs&H).
  apply rbind_ok in H as (o&Hoff&H). apply rbind_ok in H as (e&_&H). apply rbind_ok in H as (n&_&H). apply rbind_ok in H as (oe&_&H).
  apply rmap_ok in Hsl, Hcs.
  assert (x0 <= o <= x0) as Hb.
  { eapply C59_between; [exact Hoff|]. apply Forall_forall. intros z Hz. apply elem_of_list_fmap in Hz as ([z' ez]&->&Hz). apply somes_elem in Hz. cbn [fst].
    assert (z' = x0) as ->; [|lra]. apply elem_of_list_lookup in Hz as [k Hk]. destruct (Forall2_lookup_r _ _ _ _ _ Hcs Hk) as (j&Hj&Hce). apply lookup_seq in Hj as [-> Hj]. cbn [Nat.add] in Hce.
    apply rbind_ok in Hce as (col&Hcol&Hce). apply rmap_ok in Hcol. destruct (Hc k Hj) as (c&d&Hlaw).
    pose proof (centre_points (map (fun r : list R * list (list (option R)) => mean r.1) (kept rows)) col) as [P1 P2].
    eapply center_ok; [exact Hf|exact Ho| | |exact Hce].
    - apply P2. by apply kept_positions.
    - intros q Hq. destruct (P1 q Hq) as (i&Hx&Hi). change (@map) with (@fmap list _) in Hx. rewrite list_lookup_fmap in Hx. destruct (kept rows !! i) as [[ps row']|] eqn:Ek; [|discriminate]. change (Some (mean ps) = Some q.1.1) in Hx. rewrite mean_avg in Hx. injection Hx as Hx.
      destruct (Forall2_lookup_r _ _ _ _ _ Hcol Hi) as (sl&Hs&Hsk). apply idx_ok in Hsk. destruct (Forall2_lookup_r _ _ _ _ _ Hsl Hs) as (r&Hr&Hsr). rewrite Ek in Hr. injection Hr as <-. cbn in Hsr. apply rmap_ok in Hsr.
      destruct (Forall2_lookup_r _ _ _ _ _ Hsr Hsk) as (j&Hj'&Hslope). apply lookup_seq in Hj' as [-> _]. cbn [Nat.add] in Hslope.
      destruct (kept_lookup rows) as (idx&_&_&Hidx). destruct (Hidx i ps row' Ek) as (i'&row&_&Hrow&Hps&Hne&->).
      destruct (Hlaw i' row q.1.1 Hrow) as (a&Ha). { exists ps. done. }
      eapply slope_ok; [exact Hf|exact Hnd|exact HL| |exact Hslope]. intros q' m l y Hm Hl Hy. change (@map) with (@fmap list _) in Hl. rewrite list_lookup_fmap in Hl. destruct (row !! q') as [[pos l']|] eqn:Er; [|discriminate]. cbn in Hl. injection Hl as ->.
      eapply Ha; eauto. }
  assert (o = x0) as -> by lra. unfold bending_shift. destruct (negb (b_dipcomp p) && (n_dim =? 0)%nat) eqn:Eb.
  - apply rbind_ok in H as (el&Hel&H). apply idx_ok in Hel. apply rbind_ok in H as (nom&Hnom&H). apply attr_vec_ok in Hnom. apply rbind_ok in H as (k&Hk&H). apply idx_ok in Hk.
    assert (entry s m_ord "NomPolynomB" 1 = Some k) as Hen by (unfold entry, attr_at; rewrite Hel; cbn; by rewrite Hnom).
    change (neqb k n0) with (Reqb k 0) in H. destruct (Reqb k 0) eqn:E0.
    + apply Reqb_true in E0. injection H as <- _. exists 0. split; [|lra]. exists k. split; [done|]. by left.
    + apply Reqb_false in E0. apply rbind_ok in H as (th&Hth&H). apply rbind_ok in H as (len&Hlen&H). apply attr_num_ok in Hlen. apply rbind_ok in H as (a&Ha&H). apply rbind_ok in H as (b&Hb'&H). injection H as <- _.
      apply qdivR_ok in Ha as [-> _]. apply qdivR_ok in Hb' as [-> Hl0]. exists (th / k / len). split; [|done]. exists k. split; [done|]. right. exists len. split_and!; [done|unfold number, attr_at; rewrite Hel; cbn; by rewrite Hlen|done|].
      unfold number, attr_at. rewrite Hel. cbn. destruct (el !! "BendingAngle") as [v|]; [apply as_num_ok in Hth; by subst v|by injection Hth as <-].
  - exists 0. split; [done|]. injection H as <- _. lra.
Qed.
(** no centre at any of the BPMs downstream: the evaluation does not report this but fails with a ZeroDivisionError *)
Theorem C68_finding_no_centre (f : fit) (qt : R -> R) (p : bba_par R) mags n_dim m_ord (rows : list step_data) (s : sc R) :
  (forall row, row ∈ rows -> exists q l, row !! q = Some (None, l)) -> data_evaluation f qt p mags n_dim m_ord rows s = Err ZeroDivisionError.
Proof.
  intros H. unfold data_evaluation. assert (kept rows = []) as ->.
  { unfold kept. induction rows as [|row rows IH]; [done|]. cbn. destruct (no_gaps (map fst row)) as [ps|] eqn:E.
    - apply no_gaps_spec in E. destruct (H row ltac:(left)) as (q&l&Hq). exfalso. assert (map fst row !! q = Some (None : option R)) as Hn by (change (@map) with (@fmap list _); rewrite list_lookup_fmap, Hq; done).
      rewrite E in Hn. change (@map) with (@fmap list _) in Hn. rewrite list_lookup_fmap in Hn. destruct (ps !! q); discriminate.
    - apply IH. intros r Hr. apply H. by right. }
  assert (forall (g : nat -> res (option (R * option R))) (l : list nat), (forall j, g j = Ok None) -> rmap g l = Ok (replicate (length l) None)) as Hg.
  { intros g l Hg. induction l as [|j l IH]; [done|]. cbn. rewrite Hg, IH. done. }
  cbn [rmap rbind]. rewrite Hg by (intros j; done). cbn [rbind].
  assert (forall k, somes (replicate k (None : option (R * option R))) = []) as -> by (intros k; induction k; done).
  cbn [map]. rewrite C59_finding_empty. done.
Qed.
Print Assumptions C68_centre.
Print Assumptions C68_finding_no_centre.

(** * Cases *)
(** the straight line of least squares, with a fixed covariance *)
Definition line_fit {T} {N : Num T} (v : T) (xs ys : list T) (d : nat) (ws : list T) : res (list T * list (list T)) :=
  if (d =? 1)%nat then
    let w2 := map (fun w => nmul w w) ws in
    let wsum l := nsum (zip_with nmul w2 l) in
    let S := nsum w2 in
    let Sx := wsum xs in
    let Sy := wsum ys in
    let D := nsub (nmul S (wsum (zip_with nmul xs xs))) (nmul Sx Sx) in
    let? a := qdiv (nsub (nmul S (wsum (zip_with nmul xs ys))) (nmul Sx Sy)) D in
    let? b := qdiv (nsub Sy (nmul a Sx)) S in
    Ok ([a; b], [[v; n0]; [n0; v]])
  else Err ValueError.
Lemma line_fit_exact (v : R) : exact_fit (line_fit v).
Proof.
  intros xs ys d ws p cov cs H _ _ HL Hw Hc Hys. unfold line_fit in H. destruct (d =? 1)%nat eqn:Ed; [|discriminate]. apply Nat.eqb_eq in Ed as ->.
  destruct cs as [|a [|b [|]]]; try discriminate. subst ys. rewrite !nsum_rsum in H. set (w2 := map (fun w : R => nmul w w) ws) in *.
  assert (length w2 = length xs) as HL2 by (unfold w2; by rewrite map_length).
  assert (forall l : list R, length l = length xs -> rsum (zip_with nmul l (map (poly [a; b]) xs)) = a * rsum (zip_with nmul l xs) + b * rsum l) as E1.
  { clear. induction xs as [|x xs IH]; intros [|w l] HL; try discriminate; cbn; [ring|]. injection HL as HL. specialize (IH l HL). cbn in IH. unfold rsum in IH. rewrite IH. unfold poly. cbn. ring. }
  assert (forall l : list R, length l = length xs -> rsum (zip_with nmul l (zip_with nmul xs (map (poly [a; b]) xs))) = a * rsum (zip_with nmul l (zip_with nmul xs xs)) + b * rsum (zip_with nmul l xs)) as E2.
  { clear. induction xs as [|x xs IH]; intros [|w l] HL; try discriminate; cbn; [ring|]. injection HL as HL. specialize (IH l HL). cbn in IH. unfold rsum in IH. rewrite IH. unfold poly. cbn. ring. }
  rewrite E1, E2 in H by done. clear E1 E2. apply rbind_ok in H as (a'&Ha&H). apply rbind_ok in H as (b'&Hb&H). apply qdivR_ok in Ha as [-> HD]. apply qdivR_ok in Hb as [-> HS]. injection H as <- _. num_R.
  f_equal; [field; done|]. f_equal. field. done.
Qed.
Print Assumptions line_fit_exact.

(** Over the rationals: quadrupole 0 ahead of everything, quadrupole 1 with centre (1/2000, -1/4000) just before BPM 2, further BPMs 3 and 4;
    BPM 2 measures with an offset.  A particle beyond 9/10000 is lost at once. *)
Local Open Scope Q_scope.
#[local] Instance TrigQ5 : Trig Q :=
  { ncos := fun _ => 1; nsin := fun _ => 0; nsqrt := fun q => Qred (Z.sqrt (Qnum (Qred q)) # Z.to_pos (Z.sqrt (Zpos (Qden (Qred q))))); npi := 22 # 7 }.
Definition exact_bpm (o : list Q) : elem Q :=
  Examples.mk [("Noise", VVec [0; 0]); ("NoiseCO", VVec [0; 0]); ("Offset", VVec o); ("SupportOffset", VVec [0; 0]); ("CalError", VVec [0; 0]);
      ("Roll", VNum 0); ("SupportRoll", VNum 0); ("SumError", VNum 0)].
Definition bba_world : world Q :=
  MkWorld (fun ring Z _ _ c p r t =>
      let k := match (e ← ring !! 1%nat; e !! "PolynomB") with Some (VVec (_ :: b :: _)) => b | _ => 0 end in
      let x0 := if (c =? 0)%nat then 1#2000 else -1#4000 in
      x ← (q ← Z !! c; q !! p);
      if Qltb (9#10000) (Qabs.Qabs x) then None else Some (Qred (x - (Z.of_nat (S r) # 10) * k * (x - x0))))
    (fun _ _ _ _ => None) (fun _ => ([], [])) (fun Z => Z).
Definition bba_machine (turns : nat) : sc Q :=
  let s := MkSC [Examples.quad; Examples.quad; exact_bpm [1#5000; 0]; exact_bpm [0; 0]; exact_bpm [0; 0]] [] (MkInj 1 (zeros 6) (zeros 6) (replicate 6 (zeros 6)) (zeros 6) 1 turns 1 "TBT")
             (SIG Examples.ex_sc) (MkOrd [2; 3; 4]%nat [] [] [] [] [] [] [] []) (replicate 2000 0) in
  snd (register_magnets [0; 1]%nat [] (MkType None None false None None) s).
(** full amplitude is lost, four fifths of it arrives *)
Example C56_case :
  let run := scale_injection bba_world 0 2 (1#1000, 0) (bba_machine 2) in
  exists ranges, fst run = Ok (4#5, ranges) /\ length ranges = 3%nat /\ INJ (snd run) = INJ (bba_machine 2).
Proof. eexists. vm_compute. repeat split. Qed.
Definition bba_case_par : bba_par Q := MkPar 5 1 1 false ABS [0%nat] [1; 9#10] 3 (1#1000, 0) true.
(** the centre is found relative to the BPM and added to its offset, which is then at the centre; everything else is back *)
Example C67_case :
  let s := bba_machine 2 in
  let run := trajectory_bba (line_fit (1#1000000000000)) (fun x => x) bba_world [[2]; [2]]%nat [[1]; [1]]%nat bba_case_par (inl [-1#2; 1#2]) s in
  exists e1 e2, fst run = Ok [[(3#10000, e1)]; [(-1#4000, e2)]] /\ Qltb 0 e1 = true /\ Qltb 0 e2 = true /\ INJ (snd run) = INJ s /\
  map (fun i => attr_at (snd run) i "SetPointB") [0; 1]%nat = map (fun i => attr_at s i "SetPointB") [0; 1]%nat /\
  map (fun i => attr_at (snd run) i "Offset") [2; 3; 4]%nat = [Some (VVec [1#2000; -1#4000]); Some (VVec [0; 0]); Some (VVec [0; 0])].
Proof. eexists _, _. vm_compute. repeat split. Qed.
Example C67_case_refused :
  trajectory_bba (line_fit (1#10000)) (fun x => x) bba_world [[2]; [2]]%nat [[1]; [1]]%nat bba_case_par (inl [-1#2; 1#2]) (bba_machine 1) = (Err ValueError, bba_machine 1).
Proof. vm_compute. reflexivity. Qed.
(** three steps at which only two of the BPMs downstream see the beam; centre 2, slopes 3 and -1 *)
Definition step_of (x : Q) (mags : list Q) : list (option Q * list (option Q)) :=
  map (fun m => (Some (Qred (x + (1#10) * m)), [Some (Qred (7 + m * (3 * (x - 2)))); None; Some (Qred (x + m * (2 - x)))])) mags.
Example C68_case :
  exists e, data_evaluation (line_fit (1#100)) (fun x => x) bba_case_par [-1; 0; 1] 0 1 (map (fun x => step_of x [-1; 0; 1]) [1; 3#2; 3; 5]) (bba_machine 2) = Ok (2, e).
Proof. eexists. vm_compute. reflexivity. Qed.
(** the magnet behind the BPM and no noise: the readings at the BPM are the same for every strength, the estimated error of a reading is zero and
    the evaluation has no result *)
Definition step_behind (x : Q) (mags : list Q) : list (option Q * list (option Q)) :=
  map (fun m => (Some x, replicate 3 (Some (Qred (7 + m * (3 * (x - 2))))))) mags.
Example C68_finding_no_noise :
  data_evaluation (line_fit (1#100)) (fun x => x) bba_case_par [-1; 0; 1] 0 1 (map (fun x => step_behind x [-1; 0; 1]) [1; 3#2; 3; 5]) (bba_machine 2) = Err NonFinite.
Proof. vm_compute. reflexivity. Qed.
