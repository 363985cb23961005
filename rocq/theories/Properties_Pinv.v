(** C58: the pseudo-inverse. *)
From Coq Require Import Reals Lra Lia QArith ZArith.
From stdpp Require Import base gmap strings list.
From Verif Require Import Num Base Model_Arr Model_Pinv Lemmas Proofs_Beam Proofs_Mat.
Local Open Scope list_scope.
Local Open Scope R_scope.

(** * Specification *)
(** A reduced singular value decomposition of an m times n matrix: orthonormal columns of u, orthonormal rows of vt, non-negative singular values
    in decreasing order. *)
Record is_svd (m n : nat) (a u : list (list R)) (s : list R) (vt : list (list R)) : Prop := {
  svd_a : shape m n a; svd_u : shape m (length s) u; svd_v : shape (length s) n vt;
  svd_pos : (0 < m)%nat /\ (0 < n)%nat /\ (0 < length s)%nat;
  svd_uu : forall k l, (k < length s)%nat -> (l < length s)%nat -> sumn m (fun i => mget u i k * mget u i l) = delta k l;
  svd_vv : forall k l, (k < length s)%nat -> (l < length s)%nat -> sumn n (fun j => mget vt k j * mget vt l j) = delta k l;
  svd_sorted : forall k l, (k <= l)%nat -> (l < length s)%nat -> 0 <= vget s l <= vget s k;
  svd_eq : forall i j, (i < m)%nat -> (j < n)%nat -> mget a i j = sumn (length s) (fun k => mget u i k * vget s k * mget vt k j) }.
(** sum of squares of a vector *)
Definition squares (v : list R) : R := sumn (length v) (fun k => vget v k * vget v k).
Definition vsub (a b : list R) : list R := zip_with Rminus a b.

(** * Lemmas *)
Lemma sumn_parseval m K (u : nat -> nat -> R) (a b : nat -> R) : (forall k l, (k < K)%nat -> (l < K)%nat -> sumn m (fun i => u i k * u i l) = delta k l) ->
  sumn m (fun i => sumn K (fun k => a k * u i k) * sumn K (fun l => b l * u i l)) = sumn K (fun k => a k * b k).
Proof.
  intros Hu. transitivity (sumn K (fun k => sumn K (fun l => a k * b l * sumn m (fun i => u i k * u i l)))).
  - transitivity (sumn m (fun i => sumn K (fun k => sumn K (fun l => a k * b l * (u i k * u i l))))).
    + apply sumn_ext. intros i _. rewrite <- sumn_scal_r. apply sumn_ext. intros k _. rewrite <- sumn_scal. apply sumn_ext. intros l _. ring.
    + rewrite sumn_swap. apply sumn_ext. intros k _. rewrite sumn_swap. apply sumn_ext. intros l _. apply sumn_scal.
  - apply sumn_ext. intros k Hk. transitivity (sumn K (fun l => (a k * b l) * delta l k)).
    + apply sumn_ext. intros l Hl. rewrite Hu by done. by rewrite delta_sym.
    + by rewrite sumn_delta_r.
Qed.
Lemma mget_table {A} (f : A -> nat -> R) (l : list A) n j i x : l !! j = Some x -> (i < n)%nat -> mget (map (fun x => map (f x) (seq 0 n)) l) j i = f x i.
Proof.
  intros Hx Hi. unfold mget. change (@map) with (@fmap list _). rewrite list_lookup_fmap, Hx. cbn [fmap option_fmap option_map mbind option_bind].
  rewrite list_lookup_fmap, lookup_seq_lt by done. done.
Qed.
Lemma nsum_seq (f : nat -> R) k : nsum (map f (seq 0 k)) = sumn k f.
Proof.
  rewrite nsum_rsum, rsum_sumn, map_length, seq_length. apply sumn_ext. intros i Hi. unfold vget. change (@map) with (@fmap list _). rewrite list_lookup_fmap, lookup_seq_lt by done. done.
Qed.
Lemma filter_none {A} (p : A -> bool) l : (forall y, y ∈ l -> p y = false) -> List.filter p l = [].
Proof. induction l as [|y l IH]; intros H; [done|]. cbn. rewrite (H y) by left. apply IH. intros z Hz. apply H. by right. Qed.
Lemma sorted_filter (s : list R) : (forall k l, (k <= l)%nat -> (l < length s)%nat -> 0 <= vget s l <= vget s k) ->
  forall k, (k < length s)%nat -> (k < available s)%nat <-> 0 < vget s k.
Proof.
  unfold available. induction s as [|x s IH]; intros H k Hk; [cbn in Hk; lia|].
  assert (forall k l, (k <= l)%nat -> (l < length s)%nat -> 0 <= vget s l <= vget s k) as H' by (intros k' l' ? ?; apply (H (S k') (S l')); cbn; lia).
  cbn [List.filter]. change (nltb n0 x) with (Rltb 0 x). destruct (Rltb 0 x) eqn:E.
  - apply Rltb_true in E. destruct k as [|k]; cbn; [split; [done|lia]|]. rewrite <- Nat.succ_lt_mono. apply IH; [done|]. cbn in Hk. lia.
  - apply Rltb_false in E. assert (forall j, (j < length (x :: s))%nat -> vget (x :: s) j <= 0) as Hz.
    { intros j Hj. pose proof (H 0%nat j ltac:(lia) Hj) as [_ ?]. cbn in *. unfold vget in *. cbn in *. lra. }
    assert (length (List.filter (fun x : R => nltb n0 x) s) = 0%nat) as ->.
    { assert (List.filter (fun x : R => nltb n0 x) s = []) as ->; [|done]. apply filter_none. intros y Hy. apply elem_of_list_lookup in Hy as [j Hj].
      change (Rltb 0 y = false). apply Rltb_false. specialize (Hz (S j)). change (vget (x :: s) (S j)) with (vget s j) in Hz. unfold vget in Hz. rewrite Hj in Hz. cbn in Hz. pose proof (lookup_lt_Some _ _ _ Hj). specialize (Hz ltac:(lia)). lra. }
    split; [lia|]. specialize (Hz k Hk). lra.
Qed.
Lemma available_le (s : list R) : (available s <= length s)%nat.
Proof. unfold available. induction s as [|x s IH]; [done|]. cbn [List.filter length]. destruct (nltb n0 x); cbn [length]; lia. Qed.
(** inverse of a singular value: regularised, damped; zero for zero *)
Definition inverted (alpha damping x : R) : R := damping * (if Rlt_dec 0 x then x / (x * x + alpha * alpha) else 0).
Lemma inverse_values_length (s : list R) alpha damping : length (inverse_values s alpha damping) = length s.
Proof. unfold inverse_values. rewrite map_length, app_length, map_length, take_length. unfold zeros. rewrite replicate_length. pose proof (available_le s). lia. Qed.
Lemma inverse_values_get (s : list R) alpha damping k : (forall k l, (k <= l)%nat -> (l < length s)%nat -> 0 <= vget s l <= vget s k) -> (k < length s)%nat ->
  vget (inverse_values s alpha damping) k = inverted alpha damping (vget s k).
Proof.
  intros Hs Hk. pose proof (sorted_filter s Hs k Hk) as Hav. unfold inverted. pose proof (available_le s) as Hle.
  destruct (s !! k) as [x|] eqn:Ex; [|apply lookup_ge_None in Ex; lia]. assert (vget s k = x) as Evx by (unfold vget; by rewrite Ex). rewrite Evx in Hav |- *.
  unfold vget, inverse_values. change (@map) with (@fmap list _). rewrite list_lookup_fmap. destruct (decide (k < available s)%nat) as [Hka|Hka].
  - rewrite lookup_app_l by (rewrite fmap_length, take_length; lia). rewrite list_lookup_fmap, lookup_take, Ex by done. cbn [fmap option_fmap option_map default].
    change (neqb alpha n0) with (Reqb alpha 0). destruct (Rlt_dec 0 x) as [Hx|Hx]; [|exfalso; apply Hx; by apply Hav]. destruct (Reqb alpha 0) eqn:E.
    + apply Reqb_true in E. subst alpha. cbn. field. lra.
    + done.
  - rewrite lookup_app_r by (rewrite fmap_length, take_length; lia). rewrite fmap_length, take_length. unfold zeros. rewrite lookup_replicate_2 by lia. cbn.
    destruct (Rlt_dec 0 x) as [Hx|Hx]; [exfalso; apply Hka; by apply Hav|done].
Qed.
Section Pinv.
  Context (m n : nat) (a u : list (list R)) (s : list R) (vt : list (list R)) (H : is_svd m n a u s vt).
  Notation K := (length s).
  Lemma vt_width : match vt with [] => 0%nat | r :: _ => length r end = n.
  Proof. destruct (svd_v _ _ _ _ _ _ H) as [H1 H2]. destruct (svd_pos _ _ _ _ _ _ H) as (_&_&HK). destruct vt as [|r vt']; [cbn in H1; lia|]. by inversion H2. Qed.
  Lemma pinv_shape r alpha damping : shape n m (pinv_of r alpha damping u s vt).
  Proof.
    unfold pinv_of. rewrite vt_width. split; [by rewrite map_length, seq_length|]. apply Forall_forall. intros row Hr. apply elem_of_list_fmap in Hr as (j&->&_). rewrite map_length, seq_length. apply (svd_u _ _ _ _ _ _ H).
  Qed.
  Lemma pinv_entry r alpha damping i j : (i < m)%nat -> (j < n)%nat -> mget (pinv_of r alpha damping u s vt) j i =
    sumn (upto_len K (kept_values s r)) (fun q => mget vt q j * vget (inverse_values s alpha damping) q * mget u i q).
  Proof.
    intros Hi Hj. unfold pinv_of. rewrite vt_width. rewrite (mget_table (fun j i => nsum (map (fun q : nat => nmul (nmul (mget vt q j) (default n0 (inverse_values s alpha damping !! q))) (mget u i q)) (seq 0 (upto_len (length s) (kept_values s r))))) (seq 0 n) _ j i j).
    - rewrite nsum_seq. done.
    - by apply lookup_seq_lt.
    - destruct (svd_u _ _ _ _ _ _ H) as [-> _]. done.
  Qed.
  (** removing [r] values is like setting the last [r] to zero *)
  Definition cut (r : nat) (k : nat) : R := if (k <? K - r)%nat then 1 else 0.
  Lemma pinv_get (r : nat) alpha damping i j : (i < m)%nat -> (j < n)%nat -> (r <= K)%nat -> mget (pinv_of (Z.of_nat r) alpha damping u s vt) j i =
    sumn K (fun q => mget vt q j * (cut r q * inverted alpha damping (vget s q)) * mget u i q).
  Proof.
    intros Hi Hj Hr. rewrite pinv_entry by done. pose proof (available_le s) as Hle. pose proof (svd_sorted _ _ _ _ _ _ H) as Hs.
    assert (upto_len K (kept_values s (Z.of_nat r)) = Nat.min (K - r) (available s)) as ->.
    { unfold upto_len, kept_values. destruct (Z.ltb_spec 0 (Z.of_nat r)); match goal with |- context [(?z <? 0)%Z] => destruct (Z.ltb_spec z 0) end; lia. }
    set (k0 := Nat.min _ _). replace K with (k0 + (K - k0))%nat by lia. rewrite sumn_split. rewrite (sumn_zero (K - k0)).
    - rewrite Rplus_0_r. apply sumn_ext. intros q Hq. rewrite inverse_values_get by (done || lia). unfold cut. destruct (Nat.ltb_spec q (K - r)); [ring|lia].
    - intros q Hq. unfold cut. destruct (Nat.ltb_spec (k0 + q) (K - r)); [|ring]. unfold inverted. pose proof (sorted_filter s Hs (k0 + q) ltac:(lia)) as Hf. destruct (Rlt_dec 0 (vget s (k0 + q))) as [Hp|Hp]; [|ring]. apply Hf in Hp. lia.
  Qed.

  Notation X r alpha damping := (pinv_of (Z.of_nat r) alpha damping u s vt).
  Lemma a_get i j : (i < m)%nat -> (j < n)%nat -> mget a i j = sumn K (fun k => (mget u i k * vget s k) * mget vt k j).
  Proof. apply (svd_eq _ _ _ _ _ _ H). Qed.
  (** products of the matrix and its inverse *)
  Lemma ax_get r alpha damping i i' : (r <= K)%nat -> (i < m)%nat -> (i' < m)%nat -> mget (mmul a (X r alpha damping)) i i' =
    sumn K (fun k => mget u i k * (vget s k * (cut r k * inverted alpha damping (vget s k))) * mget u i' k).
  Proof.
    intros Hr Hi Hi'. rewrite (mget_mmul m n m) by (done || apply H || apply pinv_shape).
    transitivity (sumn n (fun j => sumn K (fun k => (mget u i k * vget s k) * mget vt k j) * sumn K (fun l => (cut r l * inverted alpha damping (vget s l) * mget u i' l) * mget vt l j))).
    - apply sumn_ext. intros j Hj. rewrite a_get, pinv_get by done. f_equal. apply sumn_ext. intros l _. ring.
    - rewrite (sumn_parseval n K (fun j k => mget vt k j)) by apply (svd_vv _ _ _ _ _ _ H). apply sumn_ext. intros k _. ring.
  Qed.
  Lemma xa_get r alpha damping j j' : (r <= K)%nat -> (j < n)%nat -> (j' < n)%nat -> mget (mmul (X r alpha damping) a) j j' =
    sumn K (fun k => mget vt k j * (vget s k * (cut r k * inverted alpha damping (vget s k))) * mget vt k j').
  Proof.
    intros Hr Hj Hj'. rewrite (mget_mmul n m n) by (done || apply H || apply pinv_shape).
    transitivity (sumn m (fun i => sumn K (fun l => (cut r l * inverted alpha damping (vget s l) * mget vt l j) * mget u i l) * sumn K (fun k => (vget s k * mget vt k j') * mget u i k))).
    - apply sumn_ext. intros i Hi. rewrite a_get, pinv_get by done. f_equal; apply sumn_ext; intros l _; ring.
    - rewrite (sumn_parseval m K (fun i k => mget u i k)) by apply (svd_uu _ _ _ _ _ _ H). apply sumn_ext. intros k _. ring.
  Qed.
  Lemma pos_m : (0 < m)%nat. Proof. apply (svd_pos _ _ _ _ _ _ H). Qed.
  Lemma pos_n : (0 < n)%nat. Proof. apply (svd_pos _ _ _ _ _ _ H). Qed.
  Lemma value_inverted k : (k < K)%nat -> vget s k * inverted 0 1 (vget s k) * vget s k = vget s k /\ inverted 0 1 (vget s k) * vget s k * inverted 0 1 (vget s k) = inverted 0 1 (vget s k).
  Proof.
    intros Hk. pose proof (svd_sorted _ _ _ _ _ _ H k k (le_n k) Hk) as [Hs _]. unfold inverted. destruct (Rlt_dec 0 (vget s k)) as [Hp|Hp].
    - split; field; lra.
    - assert (vget s k = 0) as -> by lra. split; ring.
  Qed.

  (** * C58 *)
  (** Without truncation, regularisation and damping: the four identities that characterise the Moore-Penrose inverse. *)
  Theorem C58_penrose : let x := pinv_of 0 0 1 u s vt in
    shape n m x /\ mmul (mmul a x) a = a /\ mmul (mmul x a) x = x /\ mtrans (mmul a x) = mmul a x /\ mtrans (mmul x a) = mmul x a.
  Proof.
    cbv zeta. change (pinv_of 0 0 1 u s vt) with (X 0 0 1). pose proof pos_m as Pm. pose proof pos_n as Pn. pose proof (svd_a _ _ _ _ _ _ H) as Ha. pose proof (pinv_shape (Z.of_nat 0) 0 1) as Hx.
    assert (shape m m (mmul a (X 0 0 1))) as Hax by (by eapply shape_mmul). assert (shape n n (mmul (X 0 0 1) a)) as Hxa by (by eapply shape_mmul).
    assert (forall k, (k < K)%nat -> cut 0 k = 1) as Hcut by (intros k Hk; unfold cut; destruct (Nat.ltb_spec k (K - 0)); [done|lia]).
    split_and!; [done| | | |].
    - apply (mget_ext m n); [by eapply shape_mmul|done|]. intros i j Hi Hj. rewrite (mget_mmul m m n) by done.
      transitivity (sumn m (fun i' => sumn K (fun k => (mget u i k * (vget s k * inverted 0 1 (vget s k))) * mget u i' k) * sumn K (fun k => (vget s k * mget vt k j) * mget u i' k))).
      + apply sumn_ext. intros i' Hi'. rewrite ax_get, a_get by (done || lia). f_equal; apply sumn_ext; intros k Hk; [rewrite Hcut by done|]; ring.
      + rewrite (sumn_parseval m K (fun i k => mget u i k)) by apply (svd_uu _ _ _ _ _ _ H). rewrite a_get by done. apply sumn_ext. intros k Hk. destruct (value_inverted k Hk) as [E _].
        transitivity (mget u i k * (vget s k * inverted 0 1 (vget s k) * vget s k) * mget vt k j); [ring|by rewrite E].
    - apply (mget_ext n m); [by eapply shape_mmul|done|]. intros j i Hj Hi. rewrite (mget_mmul n n m) by done.
      transitivity (sumn n (fun j' => sumn K (fun k => (mget vt k j * (vget s k * inverted 0 1 (vget s k))) * mget vt k j') * sumn K (fun k => (inverted 0 1 (vget s k) * mget u i k) * mget vt k j'))).
      + apply sumn_ext. intros j' Hj'. rewrite xa_get, pinv_get by (done || lia). f_equal; apply sumn_ext; intros k Hk; rewrite Hcut by done; ring.
      + rewrite (sumn_parseval n K (fun j k => mget vt k j)) by apply (svd_vv _ _ _ _ _ _ H). rewrite pinv_get by (done || lia). apply sumn_ext. intros k Hk. rewrite Hcut by done. destruct (value_inverted k Hk) as [_ E].
        transitivity (mget vt k j * (inverted 0 1 (vget s k) * vget s k * inverted 0 1 (vget s k)) * mget u i k); [ring|rewrite E; ring].
    - apply (mget_ext m m); [by apply shape_mtrans|done|]. intros i i' Hi Hi'. rewrite (mget_mtrans m m) by done. rewrite !ax_get by (done || lia). apply sumn_ext. intros k _. ring.
    - apply (mget_ext n n); [by apply shape_mtrans|done|]. intros i i' Hi Hi'. rewrite (mget_mtrans n n) by done. rewrite !xa_get by (done || lia). apply sumn_ext. intros k _. ring.
  Qed.
  (** The damping multiplies the result. *)
  Theorem C58_damping r alpha damping i j : (i < m)%nat -> (j < n)%nat -> mget (pinv_of r alpha damping u s vt) j i = damping * mget (pinv_of r alpha 1 u s vt) j i.
  Proof.
    intros Hi Hj. rewrite !pinv_entry by done. rewrite <- sumn_scal. apply sumn_ext. intros q Hq.
    assert (q < K)%nat as HqK.
    { pose proof (available_le s). revert Hq. unfold upto_len, kept_values. match goal with |- context [(?z <? 0)%Z] => destruct (Z.ltb_spec z 0) end; destruct (Z.ltb_spec 0 r); lia. }
    rewrite !inverse_values_get by (done || apply (svd_sorted _ _ _ _ _ _ H)). unfold inverted. ring.
  Qed.
End Pinv.
(** Removing the [r] smallest singular values gives the same as if they had been zero from the start. *)
Theorem C58_truncated m n a u s vt r alpha damping s' : is_svd m n a u s vt -> (r <= length s)%nat -> length s' = length s ->
  (forall k, (k < length s)%nat -> vget s' k = if (k <? length s - r)%nat then vget s k else 0) ->
  pinv_of (Z.of_nat r) alpha damping u s vt = pinv_of 0 alpha damping u s' vt.
Proof.
  intros H Hr HL Hs'. pose proof (svd_sorted _ _ _ _ _ _ H) as Hs.
  assert (is_svd m n (map (fun i => map (fun j => sumn (length s) (fun k => mget u i k * vget s' k * mget vt k j)) (seq 0 n)) (seq 0 m)) u s' vt) as H'.
  { split; rewrite ?HL; try apply H.
    - split; [by rewrite map_length, seq_length|]. apply Forall_forall. intros row Hrow. apply elem_of_list_fmap in Hrow as (i&->&_). by rewrite map_length, seq_length.
    - intros k l Hkl Hl. rewrite !Hs' by lia. pose proof (Hs k l Hkl Hl). pose proof (Hs k k (le_n k) ltac:(lia)). destruct (Nat.ltb_spec k (length s - r)), (Nat.ltb_spec l (length s - r)); try lia; lra.
    - intros i j Hi Hj. rewrite (mget_table (fun i j => sumn (length s) (fun k => mget u i k * vget s' k * mget vt k j)) (seq 0 m) n i j i); [done|by apply lookup_seq_lt|done]. }
  apply (mget_ext n m); [by eapply pinv_shape|by eapply pinv_shape|]. intros j i Hj Hi. change 0%Z with (Z.of_nat 0). rewrite (pinv_get _ _ _ _ _ _ H), (pinv_get _ _ _ _ _ _ H') by (done || lia). rewrite HL. apply sumn_ext. intros k Hk.
  rewrite Hs' by done. unfold cut. rewrite HL. destruct (Nat.ltb_spec k (length s - 0)); [|lia]. destruct (Nat.ltb_spec k (length s - r)); [done|]. unfold inverted. destruct (Rlt_dec 0 0); [lra|ring].
Qed.
(** The finding: removing more values than there are does not remove all of them, but as many as the excess. *)
Theorem C58_finding_too_many m n a u s vt r alpha damping : is_svd m n a u s vt -> (0 < r <= length s)%nat ->
  pinv_of (Z.of_nat (length s + r)) alpha damping u s vt = pinv_of (Z.of_nat r) alpha damping u s vt.
Proof.
  intros H Hr. apply (mget_ext n m); [by eapply pinv_shape|by eapply pinv_shape|]. intros j i Hj Hi. rewrite (pinv_get _ _ _ _ _ _ H r) by (done || lia). rewrite (pinv_entry _ _ _ _ _ _ H) by done.
  assert (upto_len (length s) (kept_values s (Z.of_nat (length s + r))) = (length s - r)%nat) as ->.
  { pose proof (available_le s). unfold upto_len, kept_values. destruct (Z.ltb_spec 0 (Z.of_nat (length s + r))); [|lia]. match goal with |- context [(?z <? 0)%Z] => destruct (Z.ltb_spec z 0) end; lia. }
  replace (length s) with ((length s - r) + r)%nat at 2 by lia. rewrite sumn_split. rewrite (sumn_zero r).
  - rewrite Rplus_0_r. apply sumn_ext. intros q Hq. rewrite inverse_values_get by (lia || apply (svd_sorted _ _ _ _ _ _ H)). unfold cut. destruct (Nat.ltb_spec q (length s - r)); [ring|lia].
  - intros q Hq. unfold cut. destruct (Nat.ltb_spec (length s - r + q) (length s - r)); [lia|ring].
Qed.

(** * Solutions *)
Lemma squares_sub (n : nat) (x y : list R) : length x = n -> length y = n -> squares (vsub x y) = sumn n (fun k => (vget x k - vget y k) * (vget x k - vget y k)).
Proof.
  intros Hx Hy. unfold squares, vsub. rewrite zip_with_length, Hx, Hy, Nat.min_id. apply sumn_ext. intros k Hk. unfold vget. rewrite lookup_zip_with.
  destruct (x !! k) eqn:E1; [|apply lookup_ge_None in E1; lia]. destruct (y !! k) eqn:E2; [|apply lookup_ge_None in E2; lia]. done.
Qed.
Lemma mvec_length (m : list (list R)) v : length (mvec m v) = length m.
Proof. apply map_length. Qed.
(** [a x - b] projected on a column of [u], and on the columns of the matrix *)
Section Solve.
  Context (m n : nat) (a u : list (list R)) (s : list R) (vt : list (list R)) (H : is_svd m n a u s vt) (alpha : R) (b : list R) (Hb : length b = m).
  Notation K := (length s).
  Notation x0 := (mvec (pinv_of 0 alpha 1 u s vt) b).
  Definition ub (k : nat) : R := sumn m (fun i => mget u i k * vget b i).
  Lemma x0_length : length x0 = n.
  Proof. rewrite mvec_length. apply (pinv_shape m n a u s vt H). Qed.
  Lemma x0_get j : (j < n)%nat -> vget x0 j = sumn K (fun k => mget vt k j * inverted alpha 1 (vget s k) * ub k).
  Proof.
    intros Hj. rewrite (mvec_get n m) by (done || by eapply pinv_shape). transitivity (sumn m (fun i => sumn K (fun k => mget vt k j * inverted alpha 1 (vget s k) * (mget u i k * vget b i)))).
    - apply sumn_ext. intros i Hi. change 0%Z with (Z.of_nat 0). rewrite (pinv_get _ _ _ _ _ _ H) by (done || lia). rewrite <- sumn_scal_r. apply sumn_ext. intros k Hk. unfold cut. destruct (Nat.ltb_spec k (K - 0)); [ring|lia].
    - rewrite sumn_swap. apply sumn_ext. intros k _. unfold ub. by rewrite sumn_scal.
  Qed.
  (** normal equations: (a^T a + alpha^2) x0 = a^T b, entry by entry *)
  Lemma normal j : (j < n)%nat -> sumn m (fun i => mget a i j * (vget (mvec a x0) i - vget b i)) + alpha * alpha * vget x0 j = 0.
  Proof.
    intros Hj. pose proof x0_length as HL.
    assert (forall i, (i < m)%nat -> vget (mvec a x0) i = sumn K (fun k => (vget s k * inverted alpha 1 (vget s k) * ub k) * mget u i k)) as Hax.
    { intros i Hi. rewrite (mvec_get m n) by (done || apply H). transitivity (sumn n (fun j => sumn K (fun k => (mget u i k * vget s k) * mget vt k j) * sumn K (fun k => (inverted alpha 1 (vget s k) * ub k) * mget vt k j))).
      - apply sumn_ext. intros j' Hj'. rewrite (a_get _ _ _ _ _ _ H), x0_get by done. f_equal. apply sumn_ext. intros k _. ring.
      - rewrite (sumn_parseval n K (fun j k => mget vt k j)) by apply (svd_vv _ _ _ _ _ _ H). apply sumn_ext. intros k _. ring. }
    assert (sumn m (fun i => mget a i j * (vget (mvec a x0) i - vget b i)) = sumn m (fun i => mget a i j * vget (mvec a x0) i) - sumn m (fun i => mget a i j * vget b i)) as ->.
    { replace (_ - _) with (sumn m (fun i => mget a i j * vget (mvec a x0) i) + (-1) * sumn m (fun i => mget a i j * vget b i)) by ring. rewrite <- sumn_scal, <- sumn_plus. apply sumn_ext. intros. ring. }
    assert (sumn m (fun i => mget a i j * vget (mvec a x0) i) = sumn K (fun k => (vget s k * mget vt k j) * (vget s k * inverted alpha 1 (vget s k) * ub k))) as ->.
    { rewrite <- (sumn_parseval m K (fun i k => mget u i k)) by apply (svd_uu _ _ _ _ _ _ H). apply sumn_ext. intros i Hi. rewrite (a_get _ _ _ _ _ _ H), Hax by done. f_equal. apply sumn_ext. intros k _. ring. }
    assert (sumn m (fun i => mget a i j * vget b i) = sumn K (fun k => vget s k * mget vt k j * ub k)) as ->.
    { transitivity (sumn m (fun i => sumn K (fun k => vget s k * mget vt k j * (mget u i k * vget b i)))).
      - apply sumn_ext. intros i Hi. rewrite (a_get _ _ _ _ _ _ H) by done. rewrite <- sumn_scal_r. apply sumn_ext. intros k _. ring.
      - rewrite sumn_swap. apply sumn_ext. intros k _. unfold ub. by rewrite sumn_scal. }
    rewrite x0_get by done. rewrite <- sumn_scal. replace (_ - _ + _) with (sumn K (fun k => (vget s k * mget vt k j) * (vget s k * inverted alpha 1 (vget s k) * ub k)) + ((-1) * sumn K (fun k => vget s k * mget vt k j * ub k) + sumn K (fun k => alpha * alpha * (mget vt k j * inverted alpha 1 (vget s k) * ub k)))) by ring.
    rewrite <- sumn_scal, <- !sumn_plus. apply sumn_zero. intros k Hk. unfold inverted. pose proof (svd_sorted _ _ _ _ _ _ H k k (le_n k) Hk) as [Hs _]. destruct (Rlt_dec 0 (vget s k)) as [Hp|Hp].
    - pose proof (Rle_0_sqr alpha) as Hsq. unfold Rsqr in Hsq. field. pose proof (Rmult_lt_0_compat _ _ Hp Hp). lra.
    - assert (vget s k = 0) as -> by lra. ring.
  Qed.
  Definition cost (x : list R) : R := squares (vsub (mvec a x) b) + alpha * alpha * squares x.
  Lemma cost_diff x : length x = n -> cost x - cost x0 = squares (vsub (mvec a x) (mvec a x0)) + alpha * alpha * squares (vsub x x0).
  Proof.
    intros Hx. pose proof x0_length as H0. pose proof (svd_a _ _ _ _ _ _ H) as Ha. assert (length a = m) as Hla by apply Ha. unfold cost.
    rewrite !(squares_sub m) by (rewrite ?mvec_length; done). rewrite (squares_sub n) by done. unfold squares. rewrite Hx, H0.
    assert (forall i, (i < m)%nat -> vget (mvec a x) i - vget (mvec a x0) i = sumn n (fun j => mget a i j * (vget x j - vget x0 j))) as Hd.
    { intros i Hi. rewrite !(mvec_get m n) by done. replace (_ - _) with (sumn n (fun k => mget a i k * vget x k) + (-1) * sumn n (fun k => mget a i k * vget x0 k)) by ring. rewrite <- sumn_scal, <- sumn_plus. apply sumn_ext. intros. ring. }
    assert (sumn m (fun i => (vget (mvec a x) i - vget (mvec a x0) i) * (vget (mvec a x0) i - vget b i)) + alpha * alpha * sumn n (fun j => (vget x j - vget x0 j) * vget x0 j) = 0) as Hn.
    { transitivity (sumn n (fun j => (vget x j - vget x0 j) * (sumn m (fun i => mget a i j * (vget (mvec a x0) i - vget b i)) + alpha * alpha * vget x0 j))).
      - transitivity (sumn n (fun j => sumn m (fun i => (vget x j - vget x0 j) * (mget a i j * (vget (mvec a x0) i - vget b i)))) + alpha * alpha * sumn n (fun j => (vget x j - vget x0 j) * vget x0 j)).
        + f_equal. rewrite sumn_swap. apply sumn_ext. intros i Hi. rewrite Hd by done. rewrite <- sumn_scal_r. apply sumn_ext. intros. ring.
        + rewrite <- sumn_scal, <- sumn_plus. apply sumn_ext. intros j _. rewrite sumn_scal. ring.
      - apply sumn_zero. intros j Hj. rewrite normal by done. ring. }
    assert (forall N (f g : nat -> R), sumn N (fun k => f k * f k) - sumn N (fun k => g k * g k) = sumn N (fun k => (f k - g k) * (f k - g k)) + 2 * sumn N (fun k => (f k - g k) * g k)) as Hsq.
    { intros N f g. induction N as [|N IH]; cbn; [ring|]. cbn in IH. lra. }
    assert (sumn m (fun i => (vget (mvec a x) i - vget b i) * (vget (mvec a x) i - vget b i)) - sumn m (fun i => (vget (mvec a x0) i - vget b i) * (vget (mvec a x0) i - vget b i)) =
      sumn m (fun i => (vget (mvec a x) i - vget (mvec a x0) i) * (vget (mvec a x) i - vget (mvec a x0) i)) + 2 * sumn m (fun i => (vget (mvec a x) i - vget (mvec a x0) i) * (vget (mvec a x0) i - vget b i))) as E1.
    { rewrite (Hsq m (fun i => vget (mvec a x) i - vget b i) (fun i => vget (mvec a x0) i - vget b i)). f_equal; [|f_equal]; apply sumn_ext; intros; ring. }
    pose proof (Hsq n (fun j => vget x j) (fun j => vget x0 j)) as E2. cbn beta in E2.
    set (q1 := sumn m (fun i => (vget (mvec a x) i - vget b i) * _)) in *. set (q2 := sumn m (fun i => (vget (mvec a x0) i - vget b i) * _)) in *.
    set (q3 := sumn n (fun k => vget x k * _)) in *. set (q4 := sumn n (fun k => vget x0 k * _)) in *. set (c := alpha * alpha) in *.
    replace (q1 + c * q3 - (q2 + c * q4)) with (q1 - q2 + c * (q3 - q4)) by ring. rewrite E1, E2. set (t1 := sumn m _) in *. set (t2 := sumn m _) in *. set (t3 := sumn n _) in *. set (t4 := sumn n _) in *.
    assert (t1 = - (c * t3)) as -> by lra. ring.
  Qed.
End Solve.
Lemma sumn_sq_nonneg n f : 0 <= sumn n (fun k => f k * f k).
Proof. apply sumn_pos. intros. pose proof (Rle_0_sqr (f k)). done. Qed.
Lemma sumn_sq_zero n f : sumn n (fun k => f k * f k) = 0 -> forall k, (k < n)%nat -> f k = 0.
Proof.
  induction n as [|n IH]; intros H k Hk; [lia|]. cbn in H. pose proof (sumn_sq_nonneg n f). pose proof (Rle_0_sqr (f n)) as Hq. unfold Rsqr in Hq.
  destruct (decide (k = n)) as [->|Hn]; [apply Rsqr_0_uniq; unfold Rsqr; lra|]. apply IH; [lra|lia].
Qed.
Lemma vget_ext (x y : list R) n : length x = n -> length y = n -> (forall k, (k < n)%nat -> vget x k = vget y k) -> x = y.
Proof.
  intros Hx Hy Hk. apply list_eq. intros k. destruct (decide (k < n)%nat) as [Hlt|Hge]; [|rewrite !lookup_ge_None_2 by lia; done].
  specialize (Hk k Hlt). unfold vget in Hk. destruct (x !! k) eqn:E1; [|apply lookup_ge_None in E1; lia]. destruct (y !! k) eqn:E2; [|apply lookup_ge_None in E2; lia]. cbn in Hk. by subst.
Qed.
(** With regularisation the result applied to a vector is the unique minimum of the residual plus alpha squared times the solution. *)
Theorem C58_regularised m n a u s vt alpha b x : is_svd m n a u s vt -> length b = m -> alpha <> 0 -> length x = n ->
  let x0 := mvec (pinv_of 0 alpha 1 u s vt) b in
  length x0 = n /\
  squares (vsub (mvec a x0) b) + alpha * alpha * squares x0 <= squares (vsub (mvec a x) b) + alpha * alpha * squares x /\
  (squares (vsub (mvec a x0) b) + alpha * alpha * squares x0 = squares (vsub (mvec a x) b) + alpha * alpha * squares x -> x = x0).
Proof.
  intros H Hb Ha Hx. cbv zeta. pose proof (x0_length m n a u s vt H alpha b) as HL. pose proof (cost_diff m n a u s vt H alpha b Hb x Hx) as Hd. unfold cost in Hd. set (x0 := mvec (pinv_of 0 alpha 1 u s vt) b) in *.
  assert (0 <= squares (vsub (mvec a x) (mvec a x0))) as H1 by apply sumn_sq_nonneg. assert (0 <= squares (vsub x x0)) as H2 by apply sumn_sq_nonneg.
  assert (0 < alpha * alpha) as Hp by (pose proof (Rsqr_pos_lt alpha Ha); done). pose proof (Rmult_le_pos _ _ (Rlt_le _ _ Hp) H2). split_and!; [done|lra|]. intros E.
  assert (squares (vsub x x0) = 0) as Hz by nra. rewrite (squares_sub n) in Hz by done. apply (vget_ext _ _ n); [done|done|]. intros k Hk. pose proof (sumn_sq_zero n _ Hz k Hk). cbn in *. lra.
Qed.
(** Without regularisation it is a least-squares solution, and the shortest one. *)
Theorem C58_least_squares m n a u s vt b x : is_svd m n a u s vt -> length b = m -> length x = n ->
  let x0 := mvec (pinv_of 0 0 1 u s vt) b in
  length x0 = n /\
  squares (vsub (mvec a x0) b) <= squares (vsub (mvec a x) b) /\
  (squares (vsub (mvec a x0) b) = squares (vsub (mvec a x) b) -> squares x0 <= squares x).
Proof.
  intros H Hb Hx. cbv zeta. pose proof (x0_length m n a u s vt H 0 b) as HL. pose proof (cost_diff m n a u s vt H 0 b Hb x Hx) as Hd. unfold cost in Hd. rewrite !Rmult_0_l, !Rplus_0_r in Hd.
  pose proof (x0_get m n a u s vt H 0 b Hb) as Hget. set (x0 := mvec (pinv_of 0 0 1 u s vt) b) in *. pose proof (svd_a _ _ _ _ _ _ H) as Ha. assert (length a = m) as Hla by apply Ha.
  assert (0 <= squares (vsub (mvec a x) (mvec a x0))) as H1 by apply sumn_sq_nonneg. split_and!; [done|lra|]. intros E.
  assert (squares (vsub (mvec a x) (mvec a x0)) = 0) as Hz by lra. rewrite (squares_sub m) in Hz by (by rewrite mvec_length). pose proof (sumn_sq_zero m _ Hz) as Hk. cbn beta in Hk.
  assert (forall k, (k < length s)%nat -> vget s k * sumn n (fun j => mget vt k j * (vget x j - vget x0 j)) = 0) as Hker.
  { intros k HK. transitivity (sumn m (fun i => mget u i k * (vget (mvec a x) i - vget (mvec a x0) i))).
    - transitivity (sumn m (fun i => sumn (length s) (fun l => delta k l * mget u i l) * sumn (length s) (fun l => (vget s l * sumn n (fun j => mget vt l j * (vget x j - vget x0 j))) * mget u i l))).
      + rewrite (sumn_parseval m (length s) (fun i k => mget u i k)) by apply (svd_uu _ _ _ _ _ _ H). by rewrite sumn_delta.
      + apply sumn_ext. intros i Hi. rewrite sumn_delta by done. f_equal. rewrite !(mvec_get m n) by done.
        replace (sumn n (fun k0 => mget a i k0 * vget x k0) - sumn n (fun k0 => mget a i k0 * vget x0 k0)) with (sumn n (fun j => mget a i j * (vget x j - vget x0 j))).
        * transitivity (sumn n (fun j => sumn (length s) (fun l => mget u i l * vget s l * mget vt l j * (vget x j - vget x0 j)))).
          { rewrite sumn_swap. apply sumn_ext. intros l _. transitivity (mget u i l * vget s l * sumn n (fun j => mget vt l j * (vget x j - vget x0 j))); [ring|]. rewrite <- sumn_scal. apply sumn_ext. intros. ring. }
          { apply sumn_ext. intros j Hj. rewrite (svd_eq _ _ _ _ _ _ H) by done. by rewrite <- sumn_scal_r. }
        * replace (_ - _) with (sumn n (fun k => mget a i k * vget x k) + (-1) * sumn n (fun k => mget a i k * vget x0 k)) by ring. rewrite <- sumn_scal, <- sumn_plus. apply sumn_ext. intros. ring.
    - apply sumn_zero. intros i Hi. rewrite Hk by done. ring. }
  assert (sumn n (fun j => (vget x j - vget x0 j) * vget x0 j) = 0) as Horth.
  { transitivity (sumn n (fun j => sumn (length s) (fun k => inverted 0 1 (vget s k) * ub m u b k * (mget vt k j * (vget x j - vget x0 j))))).
    - apply sumn_ext. intros j Hj. rewrite (Hget j Hj) at 2. rewrite <- sumn_scal. apply sumn_ext. intros. ring.
    - rewrite sumn_swap. apply sumn_zero. intros k HK. rewrite sumn_scal. specialize (Hker k HK). unfold inverted. destruct (Rlt_dec 0 (vget s k)) as [Hp|Hp]; [|ring].
      apply Rmult_integral in Hker as [?|Hker]; [lra|]. rewrite Hker. ring. }
  unfold squares. rewrite Hx, HL.
  assert (sumn n (fun k => vget x k * vget x k) = sumn n (fun k => vget x0 k * vget x0 k) + 2 * sumn n (fun j => (vget x j - vget x0 j) * vget x0 j) + sumn n (fun k => (vget x k - vget x0 k) * (vget x k - vget x0 k))) as ->.
  { rewrite <- sumn_scal, <- !sumn_plus. apply sumn_ext. intros. ring. }
  rewrite Horth. pose proof (sumn_sq_nonneg n (fun k => vget x k - vget x0 k)). cbn beta in *. lra.
Qed.
Print Assumptions C58_penrose.
Print Assumptions C58_damping.
Print Assumptions C58_truncated.
Print Assumptions C58_finding_too_many.
Print Assumptions C58_regularised.
Print Assumptions C58_least_squares.

(** * Cases *)
(** a matrix of rank one with its decomposition *)
Example C58_svd_case : is_svd 2 3 [[0; 3; 0]; [0; 4; 0]] [[3/5; 4/5]; [4/5; -(3/5)]] [5; 0] [[0; 1; 0]; [1; 0; 0]].
Proof.
  split; cbn [length].
  - split; [done|]. repeat constructor.
  - split; [done|]. repeat constructor.
  - split; [done|]. repeat constructor.
  - lia.
  - intros [|[|k]] [|[|l]] Hk Hl; try lia; unfold delta, mget; cbn; lra.
  - intros [|[|k]] [|[|l]] Hk Hl; try lia; unfold delta, mget; cbn; lra.
  - intros [|[|k]] [|[|l]] Hk Hl; try lia; unfold vget; cbn; lra.
  - intros [|[|i]] [|[|[|j]]] Hi Hj; try lia; unfold mget, vget; cbn; lra.
Qed.
Local Open Scope Q_scope.
Definition case_u : list (list Q) := [[3#5; 4#5]; [4#5; -3#5]].
Definition case_vt : list (list Q) := [[0; 1; 0]; [1; 0; 0]].
(** the inverse of this matrix; regularised with 5; of values 5, 2 without truncation, with one value removed, and (the finding) with three removed of two *)
Example C58_case :
  pinv_of 0 0 1 case_u [5; 0] case_vt = [[0; 0]; [3#25; 4#25]; [0; 0]] /\
  pinv_of 0 5 (1#2) case_u [5; 0] case_vt = [[0; 0]; [3#100; 1#25]; [0; 0]] /\
  pinv_of 0 0 1 case_u [5; 2] case_vt = [[2#5; -3#10]; [3#25; 4#25]; [0; 0]] /\
  pinv_of 1 0 1 case_u [5; 2] case_vt = [[0; 0]; [3#25; 4#25]; [0; 0]] /\
  pinv_of 2 0 1 case_u [5; 2] case_vt = [[0; 0]; [0; 0]; [0; 0]] /\
  pinv_of 3 0 1 case_u [5; 2] case_vt = [[0; 0]; [3#25; 4#25]; [0; 0]].
Proof. vm_compute. repeat split. Qed.
