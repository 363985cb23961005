(** C86: the transformation written to a misaligned magnet is the change between the design frame and its own frame, to first order. *)
From Coq Require Import Reals Lra Lia QArith.
From stdpp Require Import base gmap strings list.
From Verif Require Import Num Base Model_Arr Model_SC Model_Err Lemmas Proofs_Reg Proofs_Update Spec Proofs_Beam Properties_Align.
Local Open Scope string_scope.
Local Open Scope list_scope.
Local Open Scope R_scope.

(** * Specification *)
(** A particle crossing a plane: positions and momenta across (in units of the design momentum), relative momentum deviation, path length. *)
Record ray := Ray { q_x : R; q_px : R; q_y : R; q_py : R; q_dp : R; q_ct : R }.
Definition coords (q : ray) : list R := [q_x q; q_px q; q_y q; q_py q; q_dp q; q_ct q].
(** the momentum along the axis of the frame *)
Definition long (q : ray) : R := R_sqrt.sqrt (Rsqr (1 + q_dp q) - Rsqr (q_px q) - Rsqr (q_py q)).
(** A place of the machine: a point and three axes; [axis F i j] is the i-th component of the j-th axis. *)
Record place := Place { origin : nat -> R; axis : nat -> nat -> R }.
Definition over3 (f : nat -> R) : R := f 0%nat + f 1%nat + f 2%nat.
Definition point_of (F : place) (q : ray) (k : nat) : R := origin F k + axis F k 0 * q_x q + axis F k 1 * q_y q.
Definition momentum_of (F : place) (q : ray) (k : nat) : R := axis F k 0 * q_px q + axis F k 1 * q_py q + axis F k 2 * long q.
Definition component (G : place) (v : nat -> R) (j : nat) : R := over3 (fun k => axis G k j * v k).
(** The straight line that crosses the plane of [F] as [q], where it crosses the plane of [G], in the coordinates of [G]. *)
Definition crossing (F G : place) (q : ray) : ray :=
  let P j := component G (fun k => point_of F q k - origin G k) j in
  let V j := component G (momentum_of F q) j in
  let way := - P 2%nat / V 2%nat in
  Ray (P 0%nat + way * V 0%nat) (V 0%nat) (P 1%nat + way * V 1%nat) (V 1%nat) (q_dp q) (q_ct q + way * (1 + q_dp q)).
(** The end of an element whose entrance is [F]: along an arc of the given length and angle, towards negative x. *)
Definition arc (len th : R) (k : nat) : R :=
  match k with 0%nat => if Req_EM_T th 0 then 0 else len / th * (cos th - 1) | 2%nat => if Req_EM_T th 0 then len else len / th * sin th | _ => 0 end.
Definition end_of (F : place) (len th : R) : place :=
  Place (fun k => origin F k + over3 (fun m => axis F k m * arc len th m)) (fun k j => over3 (fun m => axis F k m * entry (about_y (- th)) m j)).
Definition design : place := Place (fun _ => 0) delta.
(** the entrance of a magnet with the given offsets and rotation angles: roll about z, then y, then x *)
Definition vec (l : list R) (k : nat) : R := default 0 (l !! k).
Definition displaced (offsets : list R) (ax ay az : R) : place := Place (vec offsets) (prod3 (about_x ax) (about_y ay) (about_z az)).
(** what tracking does with the arrays: shift and matrix at the entrance, matrix and shift at the exit *)
Definition apply_matrix (m : list (list R)) (v : list R) : list R := map (fun r => foldr Rplus 0 (zip_with Rmult r v)) m.
Definition entering (r1 : list (list R)) (t1 v : list R) : list R := apply_matrix r1 (zip_with Rplus v t1).
Definition leaving (r2 : list (list R)) (t2 v : list R) : list R := zip_with Rplus (apply_matrix r2 v) t2.
(** An affine map is the first-order part, about the axis, of a map of rays. *)
Definition no_ray : ray := Ray 0 0 0 0 0 0.
Definition scaled (h : R) (q : ray) : ray := Ray (h * q_x q) (h * q_px q) (h * q_y q) (h * q_py q) (h * q_dp q) (h * q_ct q).
Definition first_order (F : ray -> ray) (A : list R -> list R) : Prop :=
  A (coords no_ray) = coords (F no_ray) /\ forall q i, (i < 6)%nat -> derivable_pt_lim (fun h => vec (coords (F (scaled h q))) i) 0 (vec (A (coords q)) i - vec (A (coords no_ray)) i).
(** numpy.linalg.inv *)
Definition inverts (minv : list (list R) -> res (list (list R))) : Prop :=
  forall m i v, minv m = Ok i -> length v = 6%nat -> length (apply_matrix i v) = 6%nat /\ apply_matrix m (apply_matrix i v) = v.

(** * Derivatives *)
Definition D (f : R -> R) (l : R) : Prop := derivable_pt_lim f 0 l.
Lemma D_eq f g l m : (forall h, f h = g h) -> l = m -> D f l -> D g m.
Proof. intros E <- H eps He. destruct (H eps He) as [d Hd]. exists d. intros h H1 H2. rewrite <- !E. by apply Hd. Qed.
Lemma D_affine a b : D (fun h => a + h * b) b.
Proof.
  eapply (D_eq (plus_fct (fct_cte a) (mult_real_fct b id))); [|reflexivity|].
  - intros h. unfold plus_fct, fct_cte, mult_real_fct, id. ring.
  - replace b with (0 + b * 1) by ring. apply derivable_pt_lim_plus; [apply derivable_pt_lim_const|]. replace (0 + b * 1) with b by ring. apply derivable_pt_lim_scal, derivable_pt_lim_id.
Qed.
Lemma D_plus f g l m : D f l -> D g m -> D (fun h => f h + g h) (l + m).
Proof. intros H1 H2. exact (derivable_pt_lim_plus f g 0 l m H1 H2). Qed.
Lemma D_mult f g l m : D f l -> D g m -> D (fun h => f h * g h) (l * g 0 + f 0 * m).
Proof. intros H1 H2. exact (derivable_pt_lim_mult f g 0 l m H1 H2). Qed.
Lemma D_div f g l m : D f l -> D g m -> g 0 <> 0 -> D (fun h => f h / g h) ((l * g 0 - m * f 0) / Rsqr (g 0)).
Proof. intros H1 H2 H3. exact (derivable_pt_lim_div f g 0 l m H1 H2 H3). Qed.
Lemma D_long q : D (fun h => long (scaled h q)) (q_dp q).
Proof.
  unfold long, scaled. cbn [q_dp q_px q_py].
  assert (D (fun h => Rsqr (1 + h * q_dp q) - Rsqr (h * q_px q) - Rsqr (h * q_py q)) (2 * q_dp q)) as H.
  { eapply D_eq; [| |apply (D_plus _ _ _ _ (D_affine 1 (2 * q_dp q)) (D_mult _ _ _ _ (D_affine 0 1) (D_affine 0 (Rsqr (q_dp q) - Rsqr (q_px q) - Rsqr (q_py q)))))].
    - intros h. cbv beta. unfold Rsqr. ring.
    - cbv beta. ring. }
  pose proof (derivable_pt_lim_comp _ R_sqrt.sqrt 0 _ (/ (2 * R_sqrt.sqrt 1)) H) as HC. cbv beta in HC.
  eapply D_eq; [| |apply HC].
  - intros h. reflexivity.
  - rewrite sqrt_1. field.
  - replace (Rsqr (1 + 0 * q_dp q) - Rsqr (0 * q_px q) - Rsqr (0 * q_py q)) with 1 by (unfold Rsqr; ring). apply derivable_pt_lim_sqrt. lra.
Qed.

(** * Rotations: every entry is its cofactor *)
Definition cofactored (m : list (list R)) : Prop := exists a b c d e f g h i, m = [[a; b; c]; [d; e; f]; [g; h; i]] /\
  a = e * i - f * h /\ b = f * g - d * i /\ c = d * h - e * g /\ d = c * h - b * i /\ e = a * i - c * g /\ f = b * g - a * h /\ g = b * f - c * e /\ h = c * d - a * f /\ i = a * e - b * d.
Lemma cofactored_rotation ax ay az : cofactored (rotation ax ay az).
Proof.
  pose proof (sin_sq ax) as Hx. pose proof (sin_sq ay) as Hy. pose proof (sin_sq az) as Hz.
  unfold rotation. num_R. cbn [ncos nsin TrigR]. do 9 eexists. split; [reflexivity|]. split_and!; ring [Hx Hy Hz].
Qed.
Lemma cofactored_trans m : cofactored m -> cofactored (mtrans m).
Proof.
  intros (a&b&c&d&e&f&g&h&i&->&H1&H2&H3&H4&H5&H6&H7&H8&H9). mats. do 9 eexists. split; [reflexivity|]. split_and!; lra.
Qed.
Lemma sum3_eq a b c a' b' c' x y z x' y' z' : a = a' -> b = b' -> c = c' -> x = x' -> y = y' -> z = z' -> 0 + a * x + b * y + c * z = a' * x' + b' * y' + c' * z'.
Proof. intros -> -> -> -> -> ->. ring. Qed.
Lemma cofactored_mul m n : cofactored m -> cofactored n -> cofactored (mmul m n).
Proof.
  intros (a&b&c&d&e&f&g&h&i&->&H1&H2&H3&H4&H5&H6&H7&H8&H9) (a'&b'&c'&d'&e'&f'&g'&h'&i'&->&K1&K2&K3&K4&K5&K6&K7&K8&K9). mats. num_R. do 9 eexists. split; [reflexivity|].
  split_and!; (etransitivity; [apply sum3_eq; eassumption|]); clear; ring.
Qed.
Lemma rotation_entries ax ay az k j : (k < 3)%nat -> (j < 3)%nat -> prod3 (about_x ax) (about_y ay) (about_z az) k j = entry (rotation ax ay az) k j.
Proof. intros Hk Hj. symmetry. by apply C33_product. Qed.

(** * The change of frame with the axes [g] and the shift [c] *)
Definition seen (g : list (list R)) (c1 c2 c3 : R) (q : ray) : ray :=
  let P j c := entry g 0 j * q_x q + entry g 1 j * q_y q - c in
  let V j := entry g 0 j * q_px q + entry g 1 j * q_py q + entry g 2 j * long q in
  let way := - P 2%nat c3 / V 2%nat in
  Ray (P 0%nat c1 + way * V 0%nat) (V 0%nat) (P 1%nat c2 + way * V 1%nat) (V 1%nat) (q_dp q) (q_ct q + way * (1 + q_dp q)).
Lemma seen_first_order g ld xax yax off t m : cofactored g -> translation_vector ld g xax yax off = Ok t -> r_matrix ld g = Ok m ->
  first_order (seen g (dot off xax) (dot off yax) ld) (fun v => zip_with Rplus (apply_matrix m v) t) /\ length t = 6%nat /\ length m = 6%nat.
Proof.
  intros (a&b&c&d&e&f&g0&h&i&->&H1&H2&H3&H4&H5&H6&H7&H8&H9) Ht Hm. unfold translation_vector in Ht. unfold r_matrix in Hm.
  assert (mget [[a; b; c]; [d; e; f]; [g0; h; i]] 2 2 = i) as Ei by reflexivity. rewrite Ei in Ht, Hm. destruct (neqb i n0) eqn:E0; [done|]. apply Reqb_false in E0. change (i <> 0) in E0.
  set (c1 := dot off xax) in *. set (c2 := dot off yax) in *. clearbody c1 c2.
  cbv [mget default lookup list_lookup mbind option_bind from_option Datatypes.id zip_with] in Ht, Hm. num_R.
  apply (f_equal (fun r => match r with Ok x => x | Err _ => [] end)) in Ht. apply (f_equal (fun r => match r with Ok x => x | Err _ => [] end)) in Hm. cbv beta iota in Ht, Hm. subst t m.
  split; [|done]. split.
  { unfold apply_matrix, coords, seen, no_ray, long. cbn [q_x q_px q_y q_py q_dp q_ct map zip_with foldr]. unfold entry. cbn [lookup list_lookup].
    replace (R_sqrt.sqrt (Rsqr (1 + 0) - Rsqr 0 - Rsqr 0)) with 1 by (unfold Rsqr; replace ((1 + 0) * (1 + 0) - 0 * 0 - 0 * 0) with 1 by ring; by rewrite sqrt_1). lists; field; done. }
  intros q k Hk.
  set (V j := fun h' => h' * (entry [[a; b; c]; [d; e; f]; [g0; h; i]] 0 j * q_px q + entry [[a; b; c]; [d; e; f]; [g0; h; i]] 1 j * q_py q) + entry [[a; b; c]; [d; e; f]; [g0; h; i]] 2 j * long (scaled h' q)).
  assert (long (scaled 0 q) = 1) as L0. { unfold long, scaled. cbn [q_dp q_px q_py]. replace (Rsqr (1 + 0 * q_dp q) - Rsqr (0 * q_px q) - Rsqr (0 * q_py q)) with 1 by (unfold Rsqr; ring). apply sqrt_1. }
  set (vj j := entry [[a; b; c]; [d; e; f]; [g0; h; i]] 0 j * q_px q + entry [[a; b; c]; [d; e; f]; [g0; h; i]] 1 j * q_py q + entry [[a; b; c]; [d; e; f]; [g0; h; i]] 2 j * q_dp q).
  assert (forall j, D (V j) (vj j)) as DV.
  { intros j. unfold V, vj. set (A := entry _ 0 j * _ + _). set (B := entry _ 2 j).
    eapply D_eq; [| |apply (D_plus _ _ _ _ (D_affine 0 A) (D_mult _ _ _ _ (D_affine B 0) (D_long q)))]; [intros h'; cbv beta; ring|cbv beta; ring]. }
  assert (forall j, V j 0 = entry [[a; b; c]; [d; e; f]; [g0; h; i]] 2 j) as V0 by (intros j; unfold V; rewrite L0; ring).
  assert (V 2%nat 0 = i) as V02 by (rewrite V0; reflexivity).
  set (Z := fun h' => ld + h' * - (c * q_x q + f * q_y q)).
  assert (D Z (- (c * q_x q + f * q_y q))) as DZ by apply D_affine.
  assert (D (fun h' => Z h' / V 2%nat h') ((- (c * q_x q + f * q_y q) * i - vj 2%nat * ld) / Rsqr i)) as DW.
  { eapply D_eq; [| |apply (D_div Z (V 2%nat) _ _ DZ (DV 2%nat))]; [done| |by rewrite V02]. rewrite V02. unfold Z. f_equal. ring. }
  assert (forall j x u, D (fun h' => (x + h' * u) + Z h' / V 2%nat h' * V j h') (u + ((- (c * q_x q + f * q_y q) * i - vj 2%nat * ld) / Rsqr i * entry [[a; b; c]; [d; e; f]; [g0; h; i]] 2 j + ld / i * vj j))) as DX.
  { intros j x u. eapply D_eq; [| |apply (D_plus _ _ _ _ (D_affine x u) (D_mult _ _ _ _ DW (DV j)))]; [done|]. cbv beta. rewrite V02, V0. unfold Z. f_equal. f_equal. f_equal. f_equal. ring. }
  assert (forall j h', entry [[a; b; c]; [d; e; f]; [g0; h; i]] 0 j * q_px (scaled h' q) + entry [[a; b; c]; [d; e; f]; [g0; h; i]] 1 j * q_py (scaled h' q) + entry [[a; b; c]; [d; e; f]; [g0; h; i]] 2 j * long (scaled h' q) = V j h') as EV.
  { intros j h'. unfold V. cbn [q_px q_py scaled]. ring. }
  assert (forall h', - (entry [[a; b; c]; [d; e; f]; [g0; h; i]] 0 2 * q_x (scaled h' q) + entry [[a; b; c]; [d; e; f]; [g0; h; i]] 1 2 * q_y (scaled h' q) - ld) = Z h') as EZ.
  { intros h'. unfold Z. cbn [q_x q_y scaled entry lookup list_lookup]. ring. }
  unfold coords, seen, apply_matrix, vec, no_ray. cbn [q_x q_px q_y q_py q_dp q_ct map zip_with foldr].
  destruct k as [|[|[|[|[|[|]]]]]]; try lia; cbn [lookup list_lookup default from_option Datatypes.id].
  - eapply D_eq; [| |apply (DX 0%nat (- c1) (a * q_x q + d * q_y q))].
    + intros h'. cbv beta. rewrite EZ, !EV. cbn [q_x q_y scaled entry lookup list_lookup]. ring.
    + unfold vj. cbn [entry lookup list_lookup]. unfold Rsqr. 
      assert (e = a * i - c * g0) as -> by done. assert (b = f * g0 - d * i) as -> by done. field. done.
  - eapply D_eq; [| |apply (DV 0%nat)]; [intros h'; cbv beta; by rewrite EV|]. unfold vj. cbn [entry lookup list_lookup]. ring.
  - eapply D_eq; [| |apply (DX 1%nat (- c2) (b * q_x q + e * q_y q))].
    + intros h'. cbv beta. rewrite EZ, !EV. cbn [q_x q_y scaled entry lookup list_lookup]. ring.
    + unfold vj. cbn [entry lookup list_lookup]. unfold Rsqr.
      assert (d = c * h - b * i) as -> by done. assert (a = e * i - f * h) as -> by done. field. done.
  - eapply D_eq; [| |apply (DV 1%nat)]; [intros h'; cbv beta; by rewrite EV|]. unfold vj. cbn [entry lookup list_lookup]. ring.
  - eapply D_eq; [| |apply (D_affine 0 (q_dp q))]; [intros h'; cbn; ring|ring].
  - eapply D_eq; [| |apply (D_plus _ _ _ _ (D_affine 0 (q_ct q)) (D_mult _ _ _ _ DW (D_affine 1 (q_dp q))))].
    + intros h'. cbv beta. rewrite EZ, !EV. cbn [q_ct q_dp scaled]. ring.
    + cbv beta. rewrite V02. unfold Z, vj. cbn [entry lookup list_lookup]. unfold Rsqr. field. done.
Qed.
Lemma same_crossing F G g c1 c2 c3 :
  (forall q, component G (fun k => point_of F q k - origin G k) 0 = entry g 0 0 * q_x q + entry g 1 0 * q_y q - c1) ->
  (forall q, component G (fun k => point_of F q k - origin G k) 1 = entry g 0 1 * q_x q + entry g 1 1 * q_y q - c2) ->
  (forall q, component G (fun k => point_of F q k - origin G k) 2 = entry g 0 2 * q_x q + entry g 1 2 * q_y q - c3) ->
  (forall q j, (j < 3)%nat -> component G (momentum_of F q) j = entry g 0 j * q_px q + entry g 1 j * q_py q + entry g 2 j * long q) ->
  forall q, crossing F G q = seen g c1 c2 c3 q.
Proof. intros H1 H2 H3 H4 q. unfold crossing, seen. rewrite H1, H2, H3, !H4 by lia. done. Qed.
Lemma first_order_eq F F' A A' : (forall q, F q = F' q) -> (forall q, A (coords q) = A' (coords q)) -> first_order F A -> first_order F' A'.
Proof.
  intros E E' [H1 H2]. split; [by rewrite <- E', <- E|]. intros q i Hi. rewrite <- !E'. eapply D_eq; [|reflexivity|apply (H2 q i Hi)]. intros h. cbv beta. by rewrite E.
Qed.
Lemma three3 (m : list (list R)) : cofactored m -> exists a b c d e f g h i, m = [[a; b; c]; [d; e; f]; [g; h; i]].
Proof. intros (a&b&c&d&e&f&g&h&i&->&_). by do 9 eexists. Qed.
Lemma entrance_seen o1 o2 o3 ax ay az q : let r := rotation ax ay az in
  crossing design (displaced [o1; o2; o3] ax ay az) q = seen r (dot [o1; o2; o3] (mvec r x_axis)) (dot [o1; o2; o3] (mvec r y_axis)) (dot (mvec r z_axis) [o1; o2; o3]) q.
Proof.
  intros r. revert q. assert (forall k j, (k < 3)%nat -> (j < 3)%nat -> prod3 (about_x ax) (about_y ay) (about_z az) k j = entry r k j) as E by (intros; by apply rotation_entries).
  destruct (three3 r (cofactored_rotation ax ay az)) as (a&b&c&d&e&f&g&h&i&Er). rewrite Er in *. clear Er r.
  apply same_crossing; intros q.
  1-3: unfold component, over3, point_of, displaced, design; cbn [origin axis]; rewrite !E by lia; unfold vec, delta; cbn [Nat.eqb entry lookup list_lookup default from_option Datatypes.id]; mats; num_R; ring.
  intros j Hj. unfold component, over3, momentum_of, displaced, design. cbn [origin axis]. rewrite !E by lia. unfold delta. cbn [Nat.eqb]. ring.
Qed.
Lemma exit_seen o1 o2 o3 ax ay az len th p1 p2 p3 q : let r := rotation ax ay az in let b := about_y (- th) in
  arc len th 0 = p1 -> arc len th 1 = p2 -> arc len th 2 = p3 ->
  let off := zip_with nsub (zip_with nsub [p1; p2; p3] (mvec r [p1; p2; p3])) [o1; o2; o3] in
  crossing (end_of (displaced [o1; o2; o3] ax ay az) len th) (end_of design len th) q =
  seen (mmul (mtrans b) (mmul (mtrans r) b)) (dot off (mvec b x_axis)) (dot off (mvec b y_axis)) (dot (mvec b z_axis) off) q.
Proof.
  intros r B E1 E2 E3 off. revert q. assert (forall k j, (k < 3)%nat -> (j < 3)%nat -> prod3 (about_x ax) (about_y ay) (about_z az) k j = entry r k j) as E by (intros; by apply rotation_entries).
  unfold off. clear off. destruct (three3 r (cofactored_rotation ax ay az)) as (a&b&c&d&e&f&g&h&i&Er). rewrite Er in *. clear Er r.
  assert (exists a b c d e f g h i, B = [[a; b; c]; [d; e; f]; [g; h; i]]) as (a'&b'&c'&d'&e'&f'&g'&h'&i'&EB) by (by do 9 eexists). 
  apply same_crossing; intros q.
  1-3: unfold component, over3, point_of, displaced, design, end_of; cbn [origin axis]; unfold over3; fold B; rewrite E1, E2, E3, EB, !E by lia; unfold vec, delta; cbn [Nat.eqb entry lookup list_lookup default from_option Datatypes.id]; mats; num_R; cbn [entry lookup list_lookup]; ring.
  intros j Hj. unfold component, over3, momentum_of, displaced, design, end_of. cbn [origin axis]. unfold over3. fold B. rewrite EB, !E by lia. unfold delta. cbn [Nat.eqb].
  destruct j as [|[|[|]]]; [..|lia]; mats; cbn [entry lookup list_lookup]; num_R; ring.
Qed.

(** The arrays that update_transformation writes are the first-order part of the change from the design frame to the frame of the magnet at its
    entrance, and back at its exit. *)
Theorem C86_transformation minv (e : elem R) e' so mo sr mr len th o1 o2 o3 ax ay az : inverts minv ->
  misaligned e so mo sr mr -> number_or_absent e "Length" len -> number_or_absent e "BendingAngle" th ->
  zip_with Rplus so mo = [o1; o2; o3] -> zip_with Rplus mr sr = [az; ax; ay] -> length so = length mo -> length mr = length sr ->
  update_transformation minv e = (Ok tt, e') ->
  exists r1 t1 r2 t2, e' !! "R1" = Some (VMat r1) /\ e' !! "T1" = Some (VVec t1) /\ e' !! "R2" = Some (VMat r2) /\ e' !! "T2" = Some (VVec t2) /\
    let magnet := displaced [o1; o2; o3] ax ay az in
    first_order (crossing design magnet) (entering r1 t1) /\ first_order (crossing (end_of magnet len th) (end_of design len th)) (leaving r2 t2) /\
    forall a, a ∉ ["R1"; "T1"; "R2"; "T2"] -> e' !! a = e !! a.
Proof.
  intros Hi (Hso&Hmo&Hsr&Hmr) Hl Hth Hoff Hrl L1 L2 H. unfold update_transformation in H.
  rewrite run_getm, (num_default_ok _ _ _ Hl), run_getm, (num_default_ok _ _ _ Hth), run_getm in H.
  unfold attr in H. rewrite Hso, Hmo in H. cbn [rbind nb_op] in H. unfold bcast in H. rewrite L1, Nat.eqb_refl in H. cbn [rbind] in H.
  assert (zip_with nadd so mo = [o1; o2; o3]) as Eo by exact Hoff. rewrite Eo in H. cbn [three] in H. rewrite run_getm, Hmr, Hsr in H. cbn [rbind nb_op] in H. unfold bcast in H. rewrite L2, Nat.eqb_refl in H. cbn [rbind] in H.
  assert (zip_with nadd mr sr = [az; ax; ay]) as Er by exact Hrl. rewrite Er in H. cbn [three fst snd] in H.
  pose proof (cofactored_rotation ax ay az) as CR. pose proof (cofactored_rotation 0 (- th) 0) as CB. change (nopp th) with (- th) in H. change (n0 (T:=R)) with 0 in H.
  pose proof (fun q => entrance_seen o1 o2 o3 ax ay az q) as HE1. pose proof (fun p1 p2 p3 q => exit_seen o1 o2 o3 ax ay az len th p1 p2 p3 q) as HE2. cbv zeta in HE1, HE2.
  destruct (C33_single_axis (- th)) as (_&EB&_). rewrite EB in H, CB. set (r := rotation ax ay az) in *. set (B := about_y (- th)) in *.
  rewrite !run_lift in H. destruct (translation_vector _ r _ _ _) as [tv|] eqn:Etv; [|done]. rewrite run_lift in H. destruct (r_matrix _ r) as [r1|] eqn:Er1; [|done].
  rewrite run_setattr, run_lift in H. destruct (minv r1) as [inv|] eqn:Einv; [|done]. rewrite run_setattr in H. cbv zeta in H.
  set (OPp := if neqb th 0 then [0; 0; len] else _) in H.
  assert (exists p1 p2 p3, OPp = [p1; p2; p3] /\ arc len th 0 = p1 /\ arc len th 1 = p2 /\ arc len th 2 = p3) as (p1&p2&p3&EO&A1&A2&A3).
  { unfold OPp, arc. destruct (Req_EM_T th 0) as [Ht|Ht].
    - assert (neqb th 0 = true) as -> by (by apply Reqb_true). by do 3 eexists.
    - assert (neqb th 0 = false) as -> by (by apply Reqb_false). do 3 eexists. split; [reflexivity|]. num_R. cbn [ncos nsin TrigR]. split_and!; [field; done|done|field; done]. }
  rewrite EO in H. set (off := zip_with nsub _ _) in *. set (r2 := mmul (mtrans B) _) in *. rewrite run_lift in H. destruct (translation_vector _ r2 _ _ _) as [t2|] eqn:Et2; [|done].
  rewrite run_setattr, run_lift in H. destruct (r_matrix _ r2) as [m2|] eqn:Em2; [|done].
  assert (e' = <["R2":=VMat m2]> (<["T2":=VVec t2]> (<["T1":=VVec (mvec inv tv)]> (<["R1":=VMat r1]> e)))) as -> by (injection H as <-; done). clear H.
  destruct (seen_first_order _ _ _ _ _ _ _ CR Etv Er1) as (F1&Ltv&Lr1). 
  assert (cofactored r2) as C2 by (unfold r2; apply cofactored_mul; [by apply cofactored_trans|]; apply cofactored_mul; [by apply cofactored_trans|done]).
  destruct (seen_first_order _ _ _ _ _ _ _ C2 Et2 Em2) as (F2&_&_).
  exists r1, (mvec inv tv), m2, t2. split_and!.
  1-4: repeat (rewrite lookup_insert_ne by done); by rewrite lookup_insert.
  cbv zeta. split_and!.
  - eapply first_order_eq; [| |exact F1]; [intros q; symmetry; apply HE1|]. intros q. cbv beta. unfold entering.
    assert (mvec inv tv = apply_matrix inv tv) as ->. { unfold mvec, apply_matrix, dot. apply map_ext. intros v. apply nsum_rsum. }
    destruct (Hi r1 inv tv Einv Ltv) as [Li Ei]. set (u := apply_matrix inv tv) in *. rewrite <- Ei. clear -Lr1 Li. unfold coords.
    destruct u as [|u1 [|u2 [|u3 [|u4 [|u5 [|u6 []]]]]]]; try discriminate. clear Li Lr1. unfold apply_matrix. induction r1 as [|v m IH]; [done|]. cbn [map zip_with]. rewrite IH. f_equal. clear IH.
    cbn [zip_with]. do 6 (destruct v as [|? v]; [cbn [zip_with foldr]; ring|cbn [zip_with foldr]]). destruct v; cbn [zip_with foldr]; ring.
  - eapply first_order_eq; [| |exact F2]; [intros q; symmetry; by apply HE2|]. done.
  - intros a Ha. rewrite !lookup_insert_ne; [done|..]; intros <-; apply Ha; set_solver.
Qed.

(** * The specification itself: crossings compose, so a magnet without field does nothing, wherever it is *)
Definition rigid (F : place) : Prop := forall i j, (i < 3)%nat -> (j < 3)%nat -> over3 (fun k => axis F k i * axis F k j) = delta i j /\ over3 (fun k => axis F i k * axis F j k) = delta i j.
Definition physical (q : ray) : Prop := 0 <= Rsqr (1 + q_dp q) - Rsqr (q_px q) - Rsqr (q_py q).
Lemma rigid_back G v k : rigid G -> (k < 3)%nat -> axis G k 0 * component G v 0 + axis G k 1 * component G v 1 + axis G k 2 * component G v 2 = v k.
Proof.
  intros HG Hk. unfold component, over3.
  destruct (HG k 0%nat Hk ltac:(lia)) as [_ E0]. destruct (HG k 1%nat Hk ltac:(lia)) as [_ E1]. destruct (HG k 2%nat Hk ltac:(lia)) as [_ E2]. unfold over3 in E0, E1, E2.
  transitivity (v 0%nat * delta k 0 + v 1%nat * delta k 1 + v 2%nat * delta k 2); [rewrite <- E0, <- E1, <- E2; ring|].
  unfold delta. destruct k as [|[|[|]]]; try lia; cbn [Nat.eqb]; ring.
Qed.
Lemma rigid_norm F v : rigid F -> Rsqr (component F v 0) + Rsqr (component F v 1) + Rsqr (component F v 2) = Rsqr (v 0%nat) + Rsqr (v 1%nat) + Rsqr (v 2%nat).
Proof.
  intros HF. unfold component, over3, Rsqr.
  assert (forall i j, (i < 3)%nat -> (j < 3)%nat -> axis F i 0 * axis F j 0 + axis F i 1 * axis F j 1 + axis F i 2 * axis F j 2 = delta i j) as E by (intros i j Hi Hj; by destruct (HF i j Hi Hj) as [_ ?]).
  pose proof (E 0%nat 0%nat ltac:(lia) ltac:(lia)) as A1. pose proof (E 1%nat 1%nat ltac:(lia) ltac:(lia)) as A2. pose proof (E 2%nat 2%nat ltac:(lia) ltac:(lia)) as A3.
  pose proof (E 0%nat 1%nat ltac:(lia) ltac:(lia)) as A4. pose proof (E 0%nat 2%nat ltac:(lia) ltac:(lia)) as A5. pose proof (E 1%nat 2%nat ltac:(lia) ltac:(lia)) as A6. unfold delta in *. cbn [Nat.eqb] in *. clear E HF.
  set (x := v 0%nat). set (y := v 1%nat). set (z := v 2%nat). generalize dependent (axis F). intros g A1 A2 A3 A4 A5 A6.
  transitivity (x * x * (g 0%nat 0%nat * g 0%nat 0%nat + g 0%nat 1%nat * g 0%nat 1%nat + g 0%nat 2%nat * g 0%nat 2%nat) + y * y * (g 1%nat 0%nat * g 1%nat 0%nat + g 1%nat 1%nat * g 1%nat 1%nat + g 1%nat 2%nat * g 1%nat 2%nat)
    + z * z * (g 2%nat 0%nat * g 2%nat 0%nat + g 2%nat 1%nat * g 2%nat 1%nat + g 2%nat 2%nat * g 2%nat 2%nat) + 2 * x * y * (g 0%nat 0%nat * g 1%nat 0%nat + g 0%nat 1%nat * g 1%nat 1%nat + g 0%nat 2%nat * g 1%nat 2%nat)
    + 2 * x * z * (g 0%nat 0%nat * g 2%nat 0%nat + g 0%nat 1%nat * g 2%nat 1%nat + g 0%nat 2%nat * g 2%nat 2%nat) + 2 * y * z * (g 1%nat 0%nat * g 2%nat 0%nat + g 1%nat 1%nat * g 2%nat 1%nat + g 1%nat 2%nat * g 2%nat 2%nat)); [ring|].
  rewrite A1, A2, A3, A4, A5, A6. ring.
Qed.
Lemma momentum_norm F q : rigid F -> physical q -> Rsqr (momentum_of F q 0) + Rsqr (momentum_of F q 1) + Rsqr (momentum_of F q 2) = Rsqr (1 + q_dp q).
Proof.
  intros HF Hq. rewrite <- (rigid_norm F) by done.
  assert (forall j, (j < 3)%nat -> component F (momentum_of F q) j = delta j 0 * q_px q + delta j 1 * q_py q + delta j 2 * long q) as E.
  { intros j Hj. destruct (HF j 0%nat Hj ltac:(lia)) as [<- _]. destruct (HF j 1%nat Hj ltac:(lia)) as [<- _]. destruct (HF j 2%nat Hj ltac:(lia)) as [<- _]. unfold component, momentum_of, over3. ring. }
  rewrite !E by lia. unfold delta. cbn [Nat.eqb]. assert (Rsqr (long q) = Rsqr (1 + q_dp q) - Rsqr (q_px q) - Rsqr (q_py q)) as EL by (unfold long; by apply Rsqr_sqrt).
  replace (0 * q_px q + 0 * q_py q + 1 * long q) with (long q) by ring. rewrite EL. unfold Rsqr. ring.
Qed.
Theorem C86_crossings_compose F G H q : rigid F -> rigid G -> physical q -> 0 < component G (momentum_of F q) 2 -> component H (momentum_of F q) 2 <> 0 ->
  crossing G H (crossing F G q) = crossing F H q /\ physical (crossing F G q).
Proof.
  intros HF HG Hq HV HN. set (q' := crossing F G q).
  set (way := - component G (fun k => point_of F q k - origin G k) 2 / component G (momentum_of F q) 2).
  assert (Rsqr (1 + q_dp q') - Rsqr (q_px q') - Rsqr (q_py q') = Rsqr (component G (momentum_of F q) 2)) as EL.
  { cbn [q' crossing q_dp q_px q_py]. rewrite <- (momentum_norm F q) by done. rewrite <- (rigid_norm G) by done. ring. }
  assert (long q' = component G (momentum_of F q) 2) as EL'. { unfold long. rewrite EL. apply sqrt_Rsqr. lra. }
  split; [|unfold physical; rewrite EL; apply Rle_0_sqr].
  assert (forall k, (k < 3)%nat -> momentum_of G q' k = momentum_of F q k) as EM.
  { intros k Hk. unfold momentum_of at 1. rewrite EL'. by apply rigid_back. }
  assert (forall k, (k < 3)%nat -> point_of G q' k = point_of F q k + way * momentum_of F q k) as EP.
  { intros k Hk. rewrite <- (rigid_back G (momentum_of F q) k) by done. pose proof (rigid_back G (fun k => point_of F q k - origin G k) k HG Hk) as E. cbv beta in E.
    unfold point_of at 1. cbn [q' crossing q_x q_y]. fold way.
    assert (component G (λ k0 : nat, point_of F q k0 - origin G k0) 2 + way * component G (momentum_of F q) 2 = 0) as E0 by (unfold way; field; lra).
    set (P0 := component G _ 0) in *. set (P1 := component G (λ k0 : nat, point_of F q k0 - origin G k0) 1) in *. set (P2 := component G (λ k0 : nat, point_of F q k0 - origin G k0) 2) in *.
    set (V2 := component G (momentum_of F q) 2) in *. assert (P2 = - way * V2) as E2 by lra. rewrite E2 in E. assert (point_of F q k = origin G k + (axis G k 0 * P0 + axis G k 1 * P1 + axis G k 2 * (- way * V2))) as -> by lra. ring. }
  assert (forall j, component H (momentum_of G q') j = component H (momentum_of F q) j) as CM. { intros j. unfold component, over3. rewrite !EM by lia. done. }
  assert (forall j, component H (fun k => point_of G q' k - origin H k) j = component H (fun k => point_of F q k - origin H k) j + way * component H (momentum_of F q) j) as CP.
  { intros j. unfold component, over3. rewrite !EP by lia. ring. }
  unfold crossing at 1. rewrite !CM, !CP. unfold crossing. 
  set (P0 := component H _ 0). set (P1 := component H _ 1). set (P2 := component H _ 2). set (V0 := component H _ 0). set (V1 := component H _ 1). set (V2 := component H _ 2) in *.
  assert (q_dp q' = q_dp q) as -> by done. assert (q_ct q' = q_ct q + way * (1 + q_dp q)) as -> by done.
  f_equal; field; done.
Qed.
Lemma rigid_displaced o ax ay az : rigid (displaced o ax ay az).
Proof.
  intros i j Hi Hj. unfold displaced, over3. cbn [axis]. rewrite !rotation_entries by lia. destruct (C33_rotation ax ay az) as (_&HO&_). destruct (HO i j Hi Hj) as [H1 H2]. by split.
Qed.
Lemma rigid_design : rigid design.
Proof. intros i j Hi Hj. unfold over3, design, delta. cbn [axis]. destruct i as [|[|[|]]]; try lia; destruct j as [|[|[|]]]; try lia; cbn [Nat.eqb]; split; ring. Qed.
Lemma rigid_end F len th : rigid F -> rigid (end_of F len th).
Proof.
  intros HF i j Hi Hj. unfold end_of, over3. cbn [axis]. unfold over3. pose proof (sin_sq (- th)) as Hs.
  assert (forall i j, (i < 3)%nat -> (j < 3)%nat -> axis F 0 i * axis F 0 j + axis F 1 i * axis F 1 j + axis F 2 i * axis F 2 j = delta i j) as E1 by (intros; by destruct (HF i0 j0) as [? _]).
  assert (axis F i 0 * axis F j 0 + axis F i 1 * axis F j 1 + axis F i 2 * axis F j 2 = delta i j) as E2 by (by destruct (HF i j) as [_ ?]).
  set (g := axis F) in *. set (b := entry (about_y (- th))). split.
  - transitivity (over3 (fun m => over3 (fun n => b m i * b n j * (g 0%nat m * g 0%nat n + g 1%nat m * g 1%nat n + g 2%nat m * g 2%nat n)))); [unfold over3; ring|].
    unfold over3. rewrite !E1 by lia. unfold b, delta. destruct i as [|[|[|]]]; try lia; destruct j as [|[|[|]]]; try lia; unfold about_y; cbn [entry lookup list_lookup Nat.eqb]; ring [Hs].
  - rewrite <- E2. unfold b, about_y. cbn [entry lookup list_lookup]. clear E1 E2. ring [Hs].
Qed.
Corollary C86_no_field o ax ay az len q : let magnet := displaced o ax ay az in let inside := crossing magnet (end_of magnet len 0) in
  physical q -> 0 < component magnet (momentum_of design q) 2 -> 0 < long q ->
  crossing (end_of magnet len 0) (end_of design len 0) (inside (crossing design magnet q)) = crossing design (end_of design len 0) q.
Proof.
  intros magnet inside Hq HV HL. assert (rigid design) as R0 by apply rigid_design. assert (rigid magnet) as R1 by apply rigid_displaced. assert (rigid (end_of magnet len 0)) as R2 by (by apply rigid_end).
  assert (forall F v j, (j < 3)%nat -> component (end_of F len 0) v j = component F v j) as E.
  { intros F v j Hj. unfold component, over3, end_of, about_y. cbn [axis]. unfold over3. rewrite Ropp_0, cos_0, sin_0. destruct j as [|[|[|]]]; try lia; cbn [entry lookup list_lookup]; ring. }
  assert (component design (momentum_of design q) 2 = long q) as ED by (unfold component, over3, momentum_of, design, delta; cbn [axis Nat.eqb]; ring).
  unfold inside. destruct (C86_crossings_compose design magnet (end_of magnet len 0) q) as [-> _]; try done; [rewrite E by lia; lra|].
  destruct (C86_crossings_compose design (end_of magnet len 0) (end_of design len 0) q) as [-> _]; try done; rewrite E by lia; lra.
Qed.

(** * A case: a quadrupole rolled by a quarter turn about the beam and displaced; its x is the y of the machine. *)
Definition rolled_quad : elem R :=
  {["SupportOffset" := VVec [1; 2; 0]; "MagnetOffset" := VVec [0; 1; 0]; "SupportRoll" := VVec [PI / 2; 0; 0]; "MagnetRoll" := VVec [0; 0; 0]; "Length" := VNum 5]}.
Definition quarter : list (list R) := [[0; 0; 1; 0; 0; 0]; [0; 0; 0; 1; 0; 0]; [-1; 0; 0; 0; 0; 0]; [0; -1; 0; 0; 0; 0]; [0; 0; 0; 0; 1; 0]; [0; 0; 0; 0; 0; 1]].
Definition quarter_back : list (list R) := [[0; 0; -1; 0; 0; 0]; [0; 0; 0; -1; 0; 0]; [1; 0; 0; 0; 0; 0]; [0; 1; 0; 0; 0; 0]; [0; 0; 0; 0; 1; 0]; [0; 0; 0; 0; 0; 1]].
Definition minv_case (m : list (list R)) : res (list (list R)) := if List.list_eq_dec (List.list_eq_dec Req_EM_T) m quarter then Ok quarter_back else Err GenericException.
Lemma minv_case_inverts : inverts minv_case.
Proof.
  intros m i v H Hv. unfold minv_case in H. destruct (List.list_eq_dec _ m quarter) as [->|]; [|done]. injection H as <-. destruct v as [|a [|b [|c [|d [|e [|f []]]]]]]; try discriminate.
  split; [done|]. unfold quarter, quarter_back, apply_matrix. cbn [map zip_with foldr]. lists; ring.
Qed.
Lemma quarter_rotation : rotation 0 0 (PI / 2) = [[0; -1; 0]; [1; 0; 0]; [0; 0; 1]].
Proof. destruct (C33_single_axis (PI / 2)) as (_&_&->). unfold about_z. rewrite cos_PI2, sin_PI2. lists; ring. Qed.
Lemma minv_case_quarter : minv_case quarter = Ok quarter_back.
Proof. unfold minv_case. by destruct (List.list_eq_dec _ quarter quarter). Qed.
Example C86_case : exists e', update_transformation minv_case rolled_quad = (Ok tt, e') /\ e' !! "R1" = Some (VMat quarter) /\ e' !! "T1" = Some (VVec [-1; 0; -3; 0; 0; 0]) /\
  first_order (crossing design (displaced [1; 3; 0] 0 0 (PI / 2))) (entering quarter [-1; 0; -3; 0; 0; 0]).
Proof.
  assert (misaligned rolled_quad [1; 2; 0] [0; 1; 0] [PI / 2; 0; 0] [0; 0; 0]) as HM by done.
  assert (exists e', update_transformation minv_case rolled_quad = (Ok tt, e') /\ e' !! "R1" = Some (VMat quarter) /\ e' !! "T1" = Some (VVec [-1; 0; -3; 0; 0; 0])) as (e'&E&E1&E2).
  { destruct HM as (Hso&Hmo&Hsr&Hmr). unfold update_transformation.
    assert (num_default rolled_quad "Length" = Ok 5) as EL by done. assert (num_default rolled_quad "BendingAngle" = Ok 0) as EA by done. rewrite run_getm, EL, run_getm, EA, run_getm.
    unfold attr. rewrite Hso, Hmo. cbn [rbind nb_op]. unfold bcast. cbn [length Nat.eqb rbind]. assert (zip_with nadd [1; 2; 0] [0; 1; 0] = [1; 3; 0]) as -> by (cbn [zip_with]; num_R; lists; ring).
    cbn [three]. rewrite run_getm, Hmr, Hsr. cbn [rbind nb_op]. unfold bcast. cbn [length Nat.eqb rbind]. assert (zip_with nadd [0; 0; 0] [PI / 2; 0; 0] = [PI / 2; 0; 0]) as -> by (cbn [zip_with]; num_R; lists; ring).
    cbn [three fst snd]. rewrite quarter_rotation. set (g := [[0; -1; 0]; [1; 0; 0]; [0; 0; 1]]).
    assert (dot (mvec g z_axis) [1; 3; 0] = 0) as -> by (unfold g; mats; num_R; ring).
    assert (translation_vector 0 g (mvec g x_axis) (mvec g y_axis) [1; 3; 0] = Ok [-3; 0; 1; 0; 0; 0]) as ->.
    { unfold translation_vector, g. assert (mget [[0; -1; 0]; [1; 0; 0]; [0; 0; 1]] 2 2 = 1) as -> by reflexivity. num_R. rewrite reqb_10. f_equal. mats. num_R. lists; field. }
    assert (r_matrix 0 g = Ok quarter) as ->.
    { unfold r_matrix, g, quarter. assert (mget [[0; -1; 0]; [1; 0; 0]; [0; 0; 1]] 2 2 = 1) as -> by reflexivity. num_R. rewrite reqb_10. f_equal. mats. num_R. lists; field. }
    rewrite !run_lift, run_setattr, run_lift, minv_case_quarter, run_setattr.
    assert (mvec quarter_back [-3; 0; 1; 0; 0; 0] = [-1; 0; -3; 0; 0; 0]) as -> by (unfold quarter_back; mats; num_R; lists; ring).
    change (nopp 0) with (- 0). rewrite Ropp_0. change (n0 (T:=R)) with 0. rewrite C33_identity. assert (neqb 0 0 = true) as -> by apply reqb_refl.
    assert (mmul (mtrans ident3) (mmul (mtrans g) ident3) = mtrans g) as -> by (unfold g, ident3; mats; num_R; lists; ring). cbv zeta.
    assert (zip_with nsub (zip_with nsub [0; 0; 5] (mvec g [0; 0; 5])) [1; 3; 0] = [-1; -3; 0]) as -> by (unfold g; mats; num_R; lists; ring).
    rewrite !(ident3_mvec' x_axis), !(ident3_mvec' y_axis), !(ident3_mvec' z_axis) by done. assert (dot z_axis [-1; -3; 0] = 0) as -> by (mats; num_R; ring).
    assert (exists t, translation_vector 0 (mtrans g) x_axis y_axis [-1; -3; 0] = Ok t) as [t ->].
    { unfold translation_vector, g. assert (mget (mtrans [[0; -1; 0]; [1; 0; 0]; [0; 0; 1]]) 2 2 = 1) as -> by reflexivity. num_R. rewrite reqb_10. by eexists. }
    assert (exists m, r_matrix 0 (mtrans g) = Ok m) as [m ->].
    { unfold r_matrix, g. assert (mget (mtrans [[0; -1; 0]; [1; 0; 0]; [0; 0; 1]]) 2 2 = 1) as -> by reflexivity. num_R. rewrite reqb_10. by eexists. }
    rewrite run_lift, run_setattr, run_lift. eexists. split; [reflexivity|]. split; repeat (rewrite lookup_insert_ne by done); by rewrite lookup_insert. }
  exists e'. do 3 (split; [done|]).
  destruct (C86_transformation minv_case rolled_quad e' [1; 2; 0] [0; 1; 0] [PI / 2; 0; 0] [0; 0; 0] 5 0 1 3 0 0 0 (PI / 2)) as (r1&t1&r2&t2&F1&F2&_&_&F3&_); try done.
  - apply minv_case_inverts.
  - by left.
  - by right.
  - cbn [zip_with]. lists; ring.
  - cbn [zip_with]. lists; ring.
  - rewrite E1 in F1. injection F1 as <-. rewrite E2 in F2. injection F2 as <-. done.
Qed.
Print Assumptions C86_transformation.
Print Assumptions C86_crossings_compose.
Print Assumptions C86_no_field.
Print Assumptions C86_case.
