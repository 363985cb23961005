(** Further theorems on property C63 (apertures.py), found necessary by testing against wrong programs: where the energy
    deviation goes, and which error ends the search. *)
From Coq Require Import Reals Lra Lia ZArith QArith.
From stdpp Require Import base strings list.
From Verif Require Import Num Base Model_SC Lemmas Spec Proofs_CM Model_Aper Properties_Aper.
Local Open Scope string_scope.
Local Open Scope list_scope.
Local Open Scope R_scope.

(** a particle at rest at ([x], [y]) with the deviation [dE] in the sixth place, which is the one of the path length *)
Definition late (dE : R) (z : list R) : Prop := exists x y, z = [x; 0; y; 0; 0; dE].

Section Agree.
  Variables t1 t2 : list (list R) -> nat -> res (array R).
  Variable dE : R.
  Hypothesis Ht : forall zs n, Forall (late dE) zs -> t1 zs n = t2 zs n.

  Definition agree {A} (m1 m2 : M (list R) A) : Prop := forall z, late dE z -> m1 z = m2 z /\ late dE (snd (m1 z)).
  Lemma agree_ret {A} (a : A) : agree (ret a) (ret a).
  Proof. intros z H. done. Qed.
  Lemma agree_raise {A} e : agree (A:=A) (raise e) (raise e).
  Proof. intros z H. done. Qed.
  Lemma agree_bind {A B} (m1 m2 : M (list R) A) (k1 k2 : A -> M (list R) B) : agree m1 m2 -> (forall a, agree (k1 a) (k2 a)) -> agree (let! a := m1 in k1 a) (let! a := m2 in k2 a).
  Proof.
    intros H K z Hz. destruct (H z Hz) as [E L]. unfold bind. rewrite <- E. destruct (m1 z) as [[a|e] z']; cbn in *; [by apply K|done].
  Qed.
  Lemma set_xy_late z r theta : late dE z -> exists z', set_xy z r theta = Ok z' /\ late dE z'.
  Proof. intros (x&y&->). eexists. split; [reflexivity|]. eexists _, _. reflexivity. Qed.
  Lemma agree_check turns theta lo hi : agree (check_bounds_xy t1 turns theta lo hi) (check_bounds_xy t2 turns theta lo hi).
  Proof.
    intros z Hz. unfold check_bounds_xy. cbv [bind get]. destruct (set_xy_late z lo theta Hz) as (z1&E1&H1). cbv [lift]. rewrite E1. cbv [modify].
    destruct (set_xy_late z1 hi theta H1) as (z2&E2&H2). rewrite E2. rewrite Ht by (repeat constructor; done). destruct (t2 _ _); done.
  Qed.
  Lemma agree_refine turns theta lo hi : agree (refine_bounds_xy t1 turns theta lo hi) (refine_bounds_xy t2 turns theta lo hi).
  Proof.
    intros z Hz. unfold refine_bounds_xy. cbv [bind get]. destruct (set_xy_late z (mean2 lo hi) theta Hz) as (z1&E1&H1). cbv [lift]. rewrite E1. cbv [modify].
    rewrite Ht by (repeat constructor; done). destruct (t2 _ _) as [out|e]; [|done]. destruct (let? _ := at_second out _ in _); done.
  Qed.
  Lemma agree_scale n : forall turns theta lo hi, agree (scale_loop t1 n turns theta lo hi) (scale_loop t2 n turns theta lo hi).
  Proof.
    induction n as [|n IH]; intros turns theta lo hi; cbn [scale_loop]; [apply agree_ret|]. apply agree_bind; [apply agree_check|]. intros [|]; [apply agree_ret|].
    destruct (scale_bounds lo hi _). apply IH.
  Qed.
  Lemma agree_refine_loop fuel : forall turns theta acc lo hi, agree (refine_loop t1 fuel turns theta acc lo hi) (refine_loop t2 fuel turns theta acc lo hi).
  Proof.
    induction fuel as [|n IH]; intros turns theta acc lo hi; cbn [refine_loop]; [apply agree_raise|]. destruct (nltb _ _); [|apply agree_ret].
    apply agree_bind; [apply agree_refine|]. intros [a b]. apply IH.
  Qed.
  Lemma agree_mapM {A B} (l : list A) (f g : A -> M (list R) B) : (forall a, agree (f a) (g a)) -> agree (mapM l f) (mapM l g).
  Proof.
    intros H. induction l as [|a l IH]; cbn [mapM]; [apply agree_ret|]. apply agree_bind; [apply H|]. intros b. apply agree_bind; [apply IH|]. intros. apply agree_ret.
  Qed.
  (** The aperture for an energy deviation is that of particles on energy that are late: only they are ever tracked. *)
  Theorem C63_finding_energy_coordinate fuel turns b0 b1 thetas acc launch center use6 :
    dynamic_aperture t1 fuel turns dE b0 b1 thetas acc launch center use6 = dynamic_aperture t2 fuel turns dE b0 b1 thetas acc launch center use6.
  Proof.
    unfold dynamic_aperture. destruct (sort2 b0 b1) as [lo hi]. destruct launch; [by destruct use6|]. cbn [rbind].
    pose proof (agree_mapM thetas (radius t1 fuel turns acc lo hi) (radius t2 fuel turns acc lo hi)) as HM.
    destruct (HM ltac:(intros theta; unfold radius; apply agree_bind; [apply agree_scale|]; intros b; apply agree_bind; [apply agree_refine_loop|]; intros c; apply agree_ret) (replicate 5 n0 ++ [dE])) as [-> _]; [by exists 0, 0|].
    done.
  Qed.
End Agree.
(** What the tracking returns has six rows and two particles: the last row of the particles is asked for and does not exist. *)
Theorem C63_finding_check_index track turns theta lo hi z zs : real_layout track -> (2 < length z)%nat -> zs = launched (launched z lo theta) hi theta ->
  fst (check_bounds_xy track turns theta lo hi z) = match track [zs; zs] turns with Ok _ => Err IndexError | Err e => Err e end /\ snd (check_bounds_xy track turns theta lo hi z) = zs.
Proof.
  intros L Hz ->. unfold check_bounds_xy. cbv [bind get lift].
  assert (E : forall z r, (2 < length z)%nat -> set_xy z r theta = Ok (launched z r theta)).
  { intros y r Hy. destruct y as [|a [|b [|c y]]]; cbn in Hy; try lia. done. }
  rewrite E by done. cbv [modify]. rewrite E by (unfold launched; rewrite !insert_length; done). set (w := launched (launched z lo theta) hi theta).
  destruct (track [w; w] turns) as [out|e] eqn:Eo; [|done]. apply L in Eo. unfold slice_second, first_length. rewrite Eo. done.
Qed.
Print Assumptions C63_finding_energy_coordinate.
Print Assumptions C63_finding_check_index.

(** A machine losing particles off energy is judged as large as it is on energy, one losing late particles as vanishing. *)
#[local] Instance TrigQ17 : Trig Q := { ncos := fun _ => 1%Q; nsin := fun _ => 0%Q; nsqrt := fun x => x; npi := 3%Q }.
Definition ap_by (k : nat) (zs : list (list Q)) (_ : nat) : res (array Q) :=
  Ok (MkArray [6; 6; 1]%nat (fun l => match zs with z :: _ => match z !! 0%nat, z !! k with Some x, Some e => if Qltb 3 x || Qltb 0 e then None else Some x | _, _ => None end | [] => None end)).
Example C63_case_energy :
  let run k := fst (refine_loop (ap_by k) 20 1000 0%Q (1 # 4)%Q 0%Q 8%Q (replicate 5 0%Q ++ [1%Q])) in
  run 4%nat = Ok (3, 13 # 4)%Q /\ run 5%nat = Ok (0, 1 # 4)%Q.
Proof. vm_compute. done. Qed.
