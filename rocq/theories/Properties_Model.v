(** C57: response matrix and dispersion of the model lattice. *)
From Coq Require Import Reals Lra QArith.
From stdpp Require Import base gmap strings list.
From Verif Require Import Num Base Model_Arr Model_SC Model_Err Model_Beam Model_Lattice Lemmas Spec Examples Properties_Lattice.
Local Open Scope string_scope.
Local Open Scope list_scope.

(** * Order of arrival *)
Lemma concat_rows_lookup {A} (g : nat -> list A) w k n i b :
  (forall j, length (g j) = w) -> (i < n)%nat -> (b < w)%nat ->
  concat (map g (seq k n)) !! (i * w + b)%nat = g (k + i)%nat !! b.
Proof.
  intros Hw. revert k i. induction n as [|n IH]; intros k i Hi Hb; [lia|]. simpl. destruct i as [|i].
  - simpl. rewrite lookup_app_l by (rewrite Hw; lia). by rewrite Nat.add_0_r.
  - rewrite lookup_app_r by (rewrite Hw; nia). rewrite Hw. replace (S i * w + b - w)%nat with (i * w + b)%nat by nia.
    rewrite IH by lia. f_equal. f_equal. lia.
Qed.
Lemma concat_rows_length {A} (g : nat -> list A) w k n : (forall j, length (g j) = w) -> length (concat (map g (seq k n))) = (n * w)%nat.
Proof. intros Hw. revert k. induction n as [|n IH]; intros k; simpl; [done|]. rewrite app_length, Hw, IH. lia. Qed.
Lemma arrival_lookup {A} nb nt (f : nat -> nat -> A) b t : (b < nb)%nat -> (t < nt)%nat -> arrival nb nt f !! (t * nb + b)%nat = Some (f b t).
Proof.
  intros Hb Ht. unfold arrival. rewrite concat_rows_lookup; [|intros j; by rewrite map_length, seq_length|done..].
  rewrite list_lookup_fmap, lookup_seq_lt by done. simpl. done.
Qed.
Lemma arrival_length {A} nb nt (f : nat -> nat -> A) : length (arrival nb nt f) = (nt * nb)%nat.
Proof. unfold arrival. apply concat_rows_length. intros j. by rewrite map_length, seq_length. Qed.
(** position of turn [t], BPM [b], plane [p] (0: x, 1: y) in a column *)
Definition row (nb nt p b t : nat) : nat := (p * (nt * nb) + t * nb + b)%nat.
Lemma xy_lookup {A} nb nt (f : nat -> nat -> nat -> A) p b t :
  (p < 2)%nat -> (b < nb)%nat -> (t < nt)%nat -> xy nb nt f !! row nb nt p b t = Some (f (2 * p)%nat b t).
Proof.
  intros Hp Hb Ht. unfold xy, row. destruct p as [|p]; [|assert (p = 0%nat) as -> by lia].
  - simpl. rewrite lookup_app_l by (rewrite arrival_length; nia). by rewrite arrival_lookup.
  - rewrite lookup_app_r by (rewrite arrival_length; nia). rewrite arrival_length.
    replace (1 * (nt * nb) + t * nb + b - nt * nb)%nat with (t * nb + b)%nat by lia. by rewrite arrival_lookup.
Qed.
Lemma xy_length {A} nb nt (f : nat -> nat -> nat -> A) : length (xy nb nt f) = (2 * (nt * nb))%nat.
Proof. unfold xy. rewrite app_length, !arrival_length. lia. Qed.

(** * One corrector *)
(** the lattice with the kick of corrector [ord] in plane [dim] increased by [k]: a positive kick is a negative normal or
    a positive skew dipole field *)
Definition pass_is {T} (e : elem T) (p : string) : bool := match e !! "PassMethod" with Some (VStr pm) => bool_decide (pm = p) | _ => false end.
Definition kicked_elem (dim : nat) (k : R) (e : elem R) : elem R :=
  if pass_is e "CorrectorPass" then
      match e !! "KickAngle" with
      | Some (VVec l) => match l !! dim with Some x => <["KickAngle" := VVec (<[dim := (x + k)%R]> l)]> e | None => e end
      | _ => e end
  else
      let name := if decide (dim = 0%nat) then "PolynomB" else "PolynomA" in
      match e !! name, e !! "Length" with
      | Some (VVec (x :: l)), Some (VNum len) => <[name := VVec ((if decide (dim = 0%nat) then x - k / len else x + k / len)%R :: l)]> e
      | _, _ => e end.
Definition kicked (dim ord : nat) (k : R) (ring : list (elem R)) : list (elem R) := alter (kicked_elem dim k) ord ring.

Lemma insert_back {A} (l : list A) i x y : l !! i = Some x -> <[i := x]> (<[i := y]> l) = l.
Proof. intros H. rewrite list_insert_insert. by apply list_insert_id. Qed.
Lemma alter_insert {A} (f : A -> A) (l : list A) i x : l !! i = Some x -> alter f i l = <[i := f x]> l.
Proof.
  revert i. induction l as [|y l IH]; intros [|i] H; simpl in *; [done..| |]; [by injection H as ->|].
  unfold alter in IH. f_equal. by apply IH.
Qed.

Section Column.
  Variables (track : list (elem R) -> list R -> nat -> list nat -> nat -> nat -> nat -> option R) (z : list R) (nt : nat) (bpms : list nat) (dkick : R).
  Notation nb := (length bpms).
  Notation col := (rm_column track z nt bpms dkick).

  Lemma rm_column_ok Ta dim ord ring ring' c :
    (dim < 2)%nat -> col Ta dim ord ring = (Ok c, ring') ->
    ring' = ring /\ dkick <> 0%R /\ c = zip_with (odiff dkick) (xy nb nt (track (kicked dim ord dkick ring) z nt bpms)) Ta.
  Proof.
    intros Hdim H. unfold rm_column in H. apply bind_ok in H as (r0&s0&Hg&H). apply get_ok in Hg as [-> ->].
    apply bind_ok in H as (e&s1&He&H). apply lift_ok in He as [He ->]. apply idx_ok in He.
    apply bind_ok in H as (pm&s1&Hpm&H). apply lift_ok in Hpm as [Hpm ->]. apply attr_str_ok in Hpm.
    apply bind_ok in H as (TdB&s1&HT&H).
    destruct (neqb dkick n0) eqn:Ek; [discriminate|]. apply ret_ok in H as [<- <-].
    assert (dkick <> 0%R) as Hk by (by apply Reqb_false).
    split; [|split; [done|]].
    - destruct (decide (pm = "CorrectorPass")) as [->|Hne].
      + apply bind_ok in HT as (k&s2&Hk2&HT). apply lift_ok in Hk2 as [Hk2 ->]. apply attr_vec_ok in Hk2.
        apply bind_ok in HT as (nom&s2&Hn&HT). apply lift_ok in Hn as [Hn ->]. apply idx_ok in Hn.
        apply bind_ok in HT as (u&s2&H1&HT). unfold on_ring in H1. rewrite He in H1.
        unfold set_kick in H1. unfold bind, getm, lift, attr_vec, attr in H1. rewrite Hk2 in H1. cbn [rbind as_vec] in H1. unfold idx_set in H1. rewrite Hn in H1.
        cbn in H1. injection H1 as _ <-.
        apply bind_ok in HT as (r&s3&Hg&HT). apply get_ok in Hg as [-> ->].
        apply bind_ok in HT as (u2&s3&H2&HT). unfold on_ring in H2. rewrite list_lookup_insert in H2 by (by eapply lookup_lt_Some).
        unfold set_kick in H2. unfold bind, getm, lift, attr_vec, attr in H2. rewrite lookup_insert in H2. cbn [rbind as_vec] in H2. unfold idx_set in H2.
        rewrite list_lookup_insert in H2 by (by eapply lookup_lt_Some). cbn in H2. injection H2 as _ <-.
        apply ret_ok in HT as [_ Hs]. rewrite Hs. rewrite insert_insert, !list_insert_insert. rewrite (list_insert_id k) by done. rewrite insert_id by done. by apply list_insert_id.
      + cbv zeta in HT. apply bind_ok in HT as (p&s2&Hp&HT). apply lift_ok in Hp as [Hp ->]. apply attr_vec_ok in Hp.
        apply bind_ok in HT as (len&s2&Hl&HT). apply lift_ok in Hl as [Hl ->]. apply attr_num_ok in Hl.
        apply bind_ok in HT as (delta&s2&Hd&HT). apply lift_ok in Hd as [Hd ->].
        apply bind_ok in HT as (p0&s2&Hp0&HT). apply lift_ok in Hp0 as [Hp0 ->]. apply idx_ok in Hp0.
        apply bind_ok in HT as (u&s2&H1&HT). unfold on_ring in H1. rewrite He in H1. cbn in H1. injection H1 as _ <-.
        apply bind_ok in HT as (r&s3&Hg&HT). apply get_ok in Hg as [-> ->].
        apply bind_ok in HT as (u2&s3&H2&HT). unfold on_ring in H2. rewrite list_lookup_insert in H2 by (by eapply lookup_lt_Some).
        cbn in H2. injection H2 as _ <-. apply ret_ok in HT as [_ Hs]. rewrite Hs. rewrite insert_insert, !list_insert_insert. rewrite insert_id by done. by apply list_insert_id.
    - f_equal. unfold kicked. rewrite (alter_insert _ _ _ e) by done. unfold kicked_elem, pass_is. rewrite Hpm.
      destruct (decide (pm = "CorrectorPass")) as [->|Hne].
      + rewrite bool_decide_eq_true_2 by done. apply bind_ok in HT as (k&s2&Hk2&HT). apply lift_ok in Hk2 as [Hk2 ->]. apply attr_vec_ok in Hk2.
        apply bind_ok in HT as (nom&s2&Hn&HT). apply lift_ok in Hn as [Hn ->]. apply idx_ok in Hn. rewrite Hk2, Hn.
        apply bind_ok in HT as (u&s2&H1&HT). unfold on_ring in H1. rewrite He in H1.
        unfold set_kick in H1. unfold bind, getm, lift, attr_vec, attr in H1. rewrite Hk2 in H1. cbn [rbind as_vec] in H1. unfold idx_set in H1. rewrite Hn in H1.
        cbn in H1. injection H1 as _ <-.
        apply bind_ok in HT as (r&s3&Hg&HT). apply get_ok in Hg as [-> ->].
        apply bind_ok in HT as (u2&s3&H2&HT). by apply ret_ok in HT as [<- _].
      + cbv zeta in HT. apply bind_ok in HT as (p&s2&Hp&HT). apply lift_ok in Hp as [Hp ->]. apply attr_vec_ok in Hp.
        apply bind_ok in HT as (len&s2&Hl&HT). apply lift_ok in Hl as [Hl ->]. apply attr_num_ok in Hl.
        apply bind_ok in HT as (delta&s2&Hd&HT). apply lift_ok in Hd as [Hd ->]. apply qdiv_ok in Hd as [_ ->].
        apply bind_ok in HT as (p0&s2&Hp0&HT). apply lift_ok in Hp0 as [Hp0 ->]. apply idx_ok in Hp0.
        apply bind_ok in HT as (u&s2&H1&HT). unfold on_ring in H1. rewrite He in H1. cbn in H1. injection H1 as _ <-.
        apply bind_ok in HT as (r&s3&Hg&HT). apply get_ok in Hg as [-> ->].
        apply bind_ok in HT as (u2&s3&H2&HT). apply ret_ok in HT as [<- _].
        assert (exists l, p = p0 :: l) as [l ->] by (destruct p; [done|]; injection Hp0 as ->; eauto).
        rewrite bool_decide_eq_false_2 by done. destruct dim as [|dim]; simpl in *; change ("Polynom" +:+ "B") with "PolynomB" in *; change ("Polynom" +:+ "A") with "PolynomA" in *; rewrite Hp, Hl; simpl; do 7 f_equal; num_R; lra.
  Qed.
End Column.

Lemma mapM_keep {S A B} (f : A -> M S B) (P : A -> B -> Prop) l s s' ys :
  (forall x y s1 s2, x ∈ l -> f x s1 = (Ok y, s2) -> s2 = s1 /\ (s1 = s -> P x y)) ->
  mapM l f s = (Ok ys, s') -> s' = s /\ Forall2 P l ys.
Proof.
  intros Hf. revert ys. induction l as [|x l IH]; intros ys H; simpl in H.
  - apply ret_ok in H as [<- ->]. split; [done|constructor].
  - apply bind_ok in H as (y&s1&H1&H). apply bind_ok in H as (ys1&s2&H2&H). apply ret_ok in H as [<- ->].
    apply Hf in H1 as [-> HP]; [|left]. apply IH in H2 as [-> HF]; [|intros; eapply Hf; [by right|done]].
    split; [done|]. constructor; auto.
Qed.

(** position of plane [p] (0: x, 1: y) at BPM number [b] in turn [t] *)
Definition position_in (w : world R) (mode : string) (ring : list (elem R)) (z : list R) (nturns : nat) (bpms : list nat) (p b t : nat) : option R :=
  if decide (mode = "ORB") then w_orbit w ring bpms b (2 * p)%nat
  else w_track w ring (map (fun x => [x]) z) nturns bpms (2 * p)%nat 0%nat b t.
Definition turns_of (mode : string) (nturns : nat) : nat := if decide (mode = "ORB") then 1%nat else nturns.
(** number of the column of corrector [j] of a plane *)
Definition column (hcm : list nat) (dim j : nat) : nat := if decide (dim = 0%nat) then j else (length hcm + j)%nat.

(** Every entry is the change of the position by the kick, divided by the kick, with all other correctors as in the model
    lattice. *)
Theorem C57_response copies w bpms hcm vcm mode z nturns dkick ideal (s s' : sc R) cols :
  SCgetModelRM copies w bpms hcm vcm mode z nturns dkick ideal s = (Ok cols, s') ->
  exists ring,
    (if ideal then ring = IDEALRING s /\ s' = s else model_ring copies s = (Ok ring, s')) /\
    length cols = (length hcm + length vcm)%nat /\
    forall dim j ord, (dim < 2)%nat -> (if decide (dim = 0%nat) then hcm else vcm) !! j = Some ord ->
      exists c, cols !! column hcm dim j = Some c /\ length c = (2 * (turns_of mode nturns * length bpms))%nat /\ dkick <> 0%R /\
      forall p b t, (p < 2)%nat -> (b < length bpms)%nat -> (t < turns_of mode nturns)%nat ->
        exists x0, position_in w mode ring z nturns bpms p b t = Some x0 /\
        c !! row (length bpms) (turns_of mode nturns) p b t =
          Some (match position_in w mode (kicked dim ord dkick ring) z nturns bpms p b t with
                | Some x => Some ((x - x0) / dkick)%R
                | None => None end).
Proof.
  intros H. unfold SCgetModelRM in H. apply bind_ok in H as (s0&s1&Hg&H). apply get_ok in Hg as [-> ->].
  apply bind_ok in H as (ring&s2&Hring&H). apply bind_ok in H as (track&s3&Htr&H). apply lift_ok in Htr as [Htr ->].
  cbv zeta in H. apply lift_ok in H as [H ->]. exists ring. split.
  { destruct ideal; [by apply ret_ok in Hring as [<- ->]|done]. }
  fold (turns_of mode nturns) in H. set (nt := turns_of mode nturns) in *.
  assert (forall r p b t, track r z nt bpms (2 * p)%nat b t = position_in w mode r z nturns bpms p b t) as Hpos.
  { intros r p b t. unfold track_method in Htr. unfold position_in. destruct (decide (mode = "TBT")) as [->|].
    - injection Htr as <-. rewrite decide_False by done. unfold nt, turns_of. rewrite decide_False by done. done.
    - destruct (decide (mode = "ORB")); [|done]. by injection Htr as <-. }
  destruct (model_rm_columns track z nt bpms dkick hcm vcm ring) as [r ring2] eqn:E. simpl in H. subst r.
  unfold model_rm_columns in E. apply bind_ok in E as (r0&s1&Hg&E). apply get_ok in Hg as [-> ->]. cbv zeta in E.
  destruct (forallb _ _) eqn:Hall; [|discriminate].
  assert (forall p b t, (p < 2)%nat -> (b < length bpms)%nat -> (t < nt)%nat -> exists x0, position_in w mode ring z nturns bpms p b t = Some x0) as Hx0.
  { intros p b t Hp Hb Ht. rewrite forallb_forall in Hall. specialize (Hall (2 * p)%nat). rewrite forallb_forall in Hall.
    assert (In (2 * p)%nat [0; 2]%nat) as Hin by (destruct p as [|[|p]]; [left|right; left|lia]; done).
    specialize (Hall Hin b). rewrite forallb_forall in Hall. rewrite <- !elem_of_list_In, !elem_of_seq in Hall.
    assert (isSome (track ring z nt bpms (2 * p)%nat b t) = true) as Hs.
    { apply Hall; [lia|]. rewrite <- elem_of_list_In, elem_of_seq. lia. }
    rewrite <- Hpos. destruct (track ring z nt bpms (2 * p)%nat b t); [eauto|done]. }
  set (Ta := xy (length bpms) nt (track ring z nt bpms)) in *.
  apply bind_ok in E as (h&s1&Hh&E). apply bind_ok in E as (v&s4&Hv&E). apply ret_ok in E as [<- ->].
  set (good := fun dim ord c => dkick <> 0%R /\ c = zip_with (odiff dkick) (xy (length bpms) nt (track (kicked dim ord dkick ring) z nt bpms)) Ta).
  apply (mapM_keep _ (good 0%nat)) in Hh as [-> Fh].
  2:{ intros x y a b _ Hx. apply rm_column_ok in Hx as (->&Hk&->); [|lia]. split; [done|]. intros ->. by split. }
  apply (mapM_keep _ (good 1%nat)) in Hv as [-> Fv].
  2:{ intros x y a b _ Hx. apply rm_column_ok in Hx as (->&Hk&->); [|lia]. split; [done|]. intros ->. by split. }
  split; [rewrite app_length; by rewrite <- (Forall2_length _ _ _ Fh), <- (Forall2_length _ _ _ Fv)|].
  intros dim j ord Hdim Hj.
  assert (exists c, (h ++ v) !! column hcm dim j = Some c /\ good dim ord c) as (c&Hc&Hk&->).
  { unfold column. destruct dim as [|[|dim]]; [..|lia]; simpl in *.
    - destruct (Forall2_lookup_l _ _ _ _ _ Fh Hj) as (c&Hc&Hg). exists c. split; [|done]. apply lookup_app_l_Some. done.
    - destruct (Forall2_lookup_l _ _ _ _ _ Fv Hj) as (c&Hc&Hg). exists c. split; [|done]. rewrite lookup_app_r; rewrite <- (Forall2_length _ _ _ Fh); [|lia].
      by replace (length hcm + j - length hcm)%nat with j by lia. }
  eexists. split; [exact Hc|]. split; [rewrite zip_with_length; unfold Ta; rewrite !xy_length; lia|]. split; [done|].
  intros p b t Hp Hb Ht. destruct (Hx0 p b t Hp Hb Ht) as (x0&E0). exists x0. split; [done|].
  rewrite lookup_zip_with. unfold Ta. rewrite !xy_lookup by done. simpl. change (p + (p + 0))%nat with (2 * p)%nat. rewrite !Hpos, E0.
  destruct (position_in w mode (kicked dim ord dkick ring) z nturns bpms p b t); done.
Qed.

(** If the positions depend affinely on the kick, the entry is the slope, whatever the size of the kick. *)
Corollary C57_exact_for_linear_optics copies w bpms hcm vcm mode z nturns dkick ideal (s s' : sc R) cols :
  SCgetModelRM copies w bpms hcm vcm mode z nturns dkick ideal s = (Ok cols, s') ->
  exists ring,
    (if ideal then ring = IDEALRING s /\ s' = s else model_ring copies s = (Ok ring, s')) /\
    forall dim j ord p b t x0 slope, (dim < 2)%nat -> (if decide (dim = 0%nat) then hcm else vcm) !! j = Some ord ->
      (p < 2)%nat -> (b < length bpms)%nat -> (t < turns_of mode nturns)%nat ->
      position_in w mode ring z nturns bpms p b t = Some x0 ->
      (forall k, position_in w mode (kicked dim ord k ring) z nturns bpms p b t = Some (x0 + k * slope)%R) ->
      (cols !! column hcm dim j ≫= fun c => c !! row (length bpms) (turns_of mode nturns) p b t) = Some (Some slope).
Proof.
  intros H. apply C57_response in H as (ring&H1&_&H2). exists ring. split; [done|].
  intros dim j ord p b t x0 slope Hd Hj Hp Hb Ht E0 Ek.
  destruct (H2 dim j ord Hd Hj) as (c&Hc&_&Hk&H3). rewrite Hc. simpl. destruct (H3 p b t Hp Hb Ht) as (x1&E1&->).
  rewrite E0 in E1. injection E1 as <-. rewrite Ek. do 2 f_equal. field. done.
Qed.

(** The lattice given to the routine is left as it was. *)
Theorem C57_lattice_restored track (z : list R) nt bpms dkick hcm vcm (ring ring' : list (elem R)) cols :
  model_rm_columns track z nt bpms dkick hcm vcm ring = (Ok cols, ring') -> ring' = ring.
Proof.
  intros E. unfold model_rm_columns in E. apply bind_ok in E as (r0&s1&Hg&E). apply get_ok in Hg as [-> ->]. cbv zeta in E.
  destruct (forallb _ _); [|discriminate].
  apply bind_ok in E as (h&s1&Hh&E). apply bind_ok in E as (v&s4&Hv&E). apply ret_ok in E as [<- ->].
  apply (mapM_keep _ (fun _ _ => True)) in Hh as [-> _].
  2:{ intros x y a b _ Hx. apply rm_column_ok in Hx as (->&Hk&->); [|lia]. by split. }
  apply (mapM_keep _ (fun _ _ => True)) in Hv as [-> _]; [done|].
  intros x y a b _ Hx. apply rm_column_ok in Hx as (->&Hk&->); [|lia]. by split.
Qed.

(** An unknown mode is not reported as such: the look-up of the tracking function fails. *)
Theorem C57_finding_unknown_mode copies w bpms hcm vcm mode z nturns dkick (s : sc R) :
  mode ∉ ["TBT"; "ORB"] -> SCgetModelRM copies w bpms hcm vcm mode z nturns dkick true s = (Err KeyError, s).
Proof.
  intros H. unfold SCgetModelRM, bind, get, ret, lift, track_method. rewrite decide_False, decide_False; [done|..]; intros ->; apply H; [right; left|left].
Qed.

(** A beam whose position at the BPM is minus three times the normal dipole field of the quadrupole plus the vertical kick
    of the thin corrector: horizontal kicks at the quadrupole (length 2) respond with 3/2, vertical ones of the corrector
    with 1. *)
Definition linear_world : world Q :=
  MkWorld (fun ring _ _ _ c _ _ _ =>
    let field i a k := default 0%Q (e ← ring !! i; match (e : elem Q) !! a with Some (VVec l) => l !! k | _ => None end) in
    if (c =? 0)%nat then Some (nmul (-(3)) (field 1%nat "PolynomB" 0%nat))%Q else Some (field 2%nat "KickAngle" 1%nat))
    (fun _ _ _ _ => None) (fun _ => ([], [])) (fun z => z).
Example C57_case :
  fst (SCgetModelRM true linear_world [3%nat] [1%nat] [2%nat] "TBT" [0; 0; 0; 0; 0; 0]%Q 2 (1#100)%Q true ex_sc) =
  Ok [[Some (3#2); Some (3#2); Some 0; Some 0]; [Some 0; Some 0; Some 1; Some 1]]%Q.
Proof. vm_compute. reflexivity. Qed.

Print Assumptions C57_response.
Print Assumptions C57_exact_for_linear_optics.
Print Assumptions C57_lattice_restored.
Print Assumptions C57_finding_unknown_mode.
