(** Further theorems on property C57 (response_model.py): the dispersion of the model lattice, and the error outcomes. *)
From Coq Require Import Reals Lra QArith.
From stdpp Require Import base gmap strings list.
From Verif Require Import Num Base Model_Arr Model_SC Model_Err Model_Beam Model_Lattice Lemmas Spec Examples Properties_Lattice Properties_Model.
Local Open Scope string_scope.
Local Open Scope list_scope.

(** an element whose frequency is raised [k] times by [d], and the ring with the listed cavities detuned, each as often as it is listed *)
Definition detuned_elem (k : nat) (d : R) (e : elem R) : elem R :=
  if decide (k = 0%nat) then e else match e !! "Frequency" with Some (VNum f) => <["Frequency" := VNum (f + INR k * d)%R]> e | _ => e end.
Definition detuned (cavs : list nat) (d : R) (ring : list (elem R)) : list (elem R) := imap (fun i => detuned_elem (count_occ Nat.eq_dec cavs i) d) ring.

Lemma detune_ok cavs d (ring ring' : list (elem R)) u :
  forM cavs (fun o => on_ring o (let! f := getm (fun e => attr_num e "Frequency") in setattr "Frequency" (VNum (nadd f d)))) ring = (Ok u, ring') -> ring' = detuned cavs d ring.
Proof.
  revert ring. induction cavs as [|o cavs IH]; intros ring H; cbn [forM] in H.
  - apply ret_ok in H as [_ ->]. apply list_eq. intros i. unfold detuned. rewrite list_lookup_imap. by destruct (ring !! i).
  - apply bind_ok in H as (u1&r1&H1&H). apply IH in H as ->. unfold on_ring in H1. destruct (ring !! o) as [e|] eqn:E; [|done].
    unfold bind, getm in H1. destruct (attr_num e "Frequency") as [f|] eqn:Ef; [|done]. apply attr_num_ok in Ef. cbn in H1. injection H1 as _ <-.
    apply list_eq. intros i. unfold detuned. rewrite !list_lookup_imap. cbn [count_occ]. destruct (Nat.eq_dec o i) as [->|Hn].
    + rewrite list_lookup_insert by (by eapply lookup_lt_Some). rewrite E. cbn. f_equal. unfold detuned_elem. destruct (decide (S _ = 0%nat)); [lia|]. rewrite Ef.
      destruct (decide (count_occ _ _ _ = 0%nat)) as [->|]; [rewrite Rmult_1_l; done|]. rewrite lookup_insert, insert_insert. do 2 f_equal. rewrite S_INR. num_R. ring.
    + rewrite list_lookup_insert_ne by done. done.
Qed.

(** Every entry is the change of the position by the detuning of all cavities, divided by the step. *)
Theorem C57_dispersion copies w bpms cavs mode z nturns rfstep ideal (s s' : sc R) eta :
  SCgetModelDispersion copies w bpms cavs mode z nturns rfstep ideal s = (Ok eta, s') ->
  exists ring,
    (if ideal then ring = IDEALRING s /\ s' = s else model_ring copies s = (Ok ring, s')) /\ rfstep <> 0%R /\
    length eta = (2 * (turns_of mode nturns * length bpms))%nat /\
    forall p b t, (p < 2)%nat -> (b < length bpms)%nat -> (t < turns_of mode nturns)%nat ->
      exists x0, position_in w mode ring z nturns bpms p b t = Some x0 /\
      eta !! row (length bpms) (turns_of mode nturns) p b t =
        Some (match position_in w mode (detuned cavs rfstep ring) z nturns bpms p b t with
              | Some x => Some ((x - x0) / rfstep)%R
              | None => None end).
Proof.
  intros H. unfold SCgetModelDispersion in H. apply bind_ok in H as (s0&s1&Hg&H). apply get_ok in Hg as [-> ->].
  apply bind_ok in H as (ring&s2&Hring&H). apply bind_ok in H as (track&s3&Htr&H). apply lift_ok in Htr as [Htr ->].
  cbv zeta in H. exists ring. fold (turns_of mode nturns) in H. set (nt := turns_of mode nturns) in *.
  assert (forall r p b t, track r z nt bpms (2 * p)%nat b t = position_in w mode r z nturns bpms p b t) as Hpos.
  { intros r p b t. unfold track_method in Htr. unfold position_in. destruct (decide (mode = "TBT")) as [->|].
    - injection Htr as <-. rewrite decide_False by done. unfold nt, turns_of. rewrite decide_False by done. done.
    - destruct (decide (mode = "ORB")); [|done]. by injection Htr as <-. }
  destruct (forallb _ _) eqn:Hall; [|discriminate].
  assert (forall p b t, (p < 2)%nat -> (b < length bpms)%nat -> (t < nt)%nat -> exists x0, position_in w mode ring z nturns bpms p b t = Some x0) as Hx0.
  { intros p b t Hp Hb Ht. rewrite forallb_forall in Hall. specialize (Hall (2 * p)%nat). rewrite forallb_forall in Hall.
    assert (In (2 * p)%nat [0; 2]%nat) as Hin by (destruct p as [|[|p]]; [left|right; left|lia]; done).
    specialize (Hall Hin b). rewrite forallb_forall in Hall. rewrite <- !elem_of_list_In, !elem_of_seq in Hall.
    assert (isSome (track ring z nt bpms (2 * p)%nat b t) = true) as Hs.
    { apply Hall; [lia|]. rewrite <- elem_of_list_In, elem_of_seq. lia. }
    rewrite <- Hpos. destruct (track ring z nt bpms (2 * p)%nat b t); [eauto|done]. }
  destruct (forM cavs _ ring) as [r ring'] eqn:E. apply lift_ok in H as [H ->]. apply rbind_ok in H as (u&->&H). apply detune_ok in E as ->.
  destruct (neqb rfstep n0) eqn:Ez; [discriminate|]. injection H as <-. apply Reqb_false in Ez.
  split; [destruct ideal; [by apply ret_ok in Hring as [<- ->]|done]|]. split; [exact Ez|]. split; [rewrite zip_with_length, !xy_length; lia|].
  intros p b t Hp Hb Ht. destruct (Hx0 p b t Hp Hb Ht) as (x0&E0). exists x0. split; [done|].
  rewrite lookup_zip_with. rewrite !xy_lookup by done. simpl. change (p + (p + 0))%nat with (2 * p)%nat. rewrite !Hpos, E0.
  destruct (position_in w mode (detuned cavs rfstep ring) z nturns bpms p b t); done.
Qed.
(** If the positions depend affinely on the frequency, the entry is the slope, whatever the step, also a negative one. *)
Theorem C57_dispersion_linear copies w bpms cavs mode z nturns rfstep ideal (s s' : sc R) eta :
  SCgetModelDispersion copies w bpms cavs mode z nturns rfstep ideal s = (Ok eta, s') ->
  exists ring,
    (if ideal then ring = IDEALRING s /\ s' = s else model_ring copies s = (Ok ring, s')) /\
    forall p b t x0 slope, (p < 2)%nat -> (b < length bpms)%nat -> (t < turns_of mode nturns)%nat ->
      position_in w mode ring z nturns bpms p b t = Some x0 ->
      (forall d, position_in w mode (detuned cavs d ring) z nturns bpms p b t = Some (x0 + d * slope)%R) ->
      eta !! row (length bpms) (turns_of mode nturns) p b t = Some (Some slope).
Proof.
  intros H. apply C57_dispersion in H as (ring&H1&Hz&_&H2). exists ring. split; [done|]. intros p b t x0 slope Hp Hb Ht E0 Ed.
  destruct (H2 p b t Hp Hb Ht) as (x1&E1&->). rewrite E0 in E1. injection E1 as <-. rewrite Ed. do 2 f_equal. field. done.
Qed.
(** No step, no dispersion; a beam lost before the detuning is an error. *)
Theorem C57_dispersion_refused copies w bpms cavs mode z nturns rfstep (s : sc R) : mode ∈ ["TBT"; "ORB"] -> (rfstep = 0%R \/ exists p b t, (p < 2)%nat /\ (b < length bpms)%nat /\ (t < turns_of mode nturns)%nat /\ position_in w mode (IDEALRING s) z nturns bpms p b t = None) ->
  (forall i, i ∈ cavs -> exists e f, IDEALRING s !! i = Some e /\ e !! "Frequency" = Some (VNum f)) ->
  exists e, e ∈ [NonFinite; ValueError] /\ SCgetModelDispersion copies w bpms cavs mode z nturns rfstep true s = (Err e, s).
Proof.
  intros Hm H Hc.
  assert (exists track, track_method w mode = Ok track /\ forall r p b t, track r z (turns_of mode nturns) bpms (2 * p)%nat b t = position_in w mode r z nturns bpms p b t) as (track&Et&Hpos).
  { unfold track_method. destruct (decide (mode = "TBT")) as [->|Ht]; [eexists; split; [reflexivity|]; intros r p b t; unfold position_in, turns_of; by rewrite !decide_False by done|].
    destruct (decide (mode = "ORB")) as [->|Ho]; [eexists; split; [reflexivity|]; intros r p b t; unfold position_in; by rewrite decide_True by done|].
    exfalso. apply elem_of_cons in Hm as [Hm|Hm]; [done|]. by apply elem_of_list_singleton in Hm. }
  assert (exists ring', forM cavs (fun o => on_ring o (let! f := getm (fun e => attr_num e "Frequency") in setattr "Frequency" (VNum (nadd f rfstep)))) (IDEALRING s) = (Ok tt, ring')) as (ring'&Er).
  { clear -Hc. revert Hc. generalize (IDEALRING s). induction cavs as [|o cavs IH]; intros ring Hc; [by eexists|]. cbn [forM].
    destruct (Hc o (elem_of_list_here _ _)) as (e&f&E&Ef). unfold bind, on_ring at 1. rewrite E. unfold bind, getm at 1. rewrite (proj2 (attr_num_ok _ _ _) Ef). cbn.
    apply IH. intros i Hi. destruct (Hc i (elem_of_list_further _ _ _ Hi)) as (e1&f1&E1&Ef1). destruct (decide (i = o)) as [->|Hn].
    - eexists _, _. split; [apply list_lookup_insert; by eapply lookup_lt_Some|]. apply lookup_insert.
    - exists e1, f1. split; [by rewrite list_lookup_insert_ne|done]. }
  unfold SCgetModelDispersion, bind, get, ret, lift. rewrite Et. cbv zeta. fold (turns_of mode nturns). set (nt := turns_of mode nturns) in *.
  destruct (forallb _ _) eqn:Hall; [|exists ValueError; split; [right; left|done]].
  destruct H as [Hz|(p&b&t&Hp&Hb&Ht&Hn)].
  - exists NonFinite. split; [left|]. unfold bind, getm, setattr, modify in Er. unfold getm, setattr, modify. rewrite Er. cbn [rbind].
    rewrite (proj2 (Reqb_true _ _)) by exact Hz. done.
  - exfalso. rewrite forallb_forall in Hall. specialize (Hall (2 * p)%nat). rewrite forallb_forall in Hall.
    assert (In (2 * p)%nat [0; 2]%nat) as Hin by (destruct p as [|[|p]]; [left|right; left|lia]; done).
    specialize (Hall Hin b). rewrite forallb_forall in Hall. rewrite <- !elem_of_list_In, !elem_of_seq in Hall.
    assert (isSome (track (IDEALRING s) z nt bpms (2 * p)%nat b t) = true) as Hs.
    { apply Hall; [lia|]. rewrite <- elem_of_list_In, elem_of_seq. lia. }
    rewrite Hpos, Hn in Hs. done.
Qed.
Theorem C57_finding_unknown_mode_dispersion copies w bpms cavs mode z nturns rfstep (s : sc R) :
  mode ∉ ["TBT"; "ORB"] -> SCgetModelDispersion copies w bpms cavs mode z nturns rfstep true s = (Err KeyError, s).
Proof.
  intros H. unfold SCgetModelDispersion, bind, get, ret, lift, track_method. rewrite decide_False, decide_False; [done|..]; intros ->; apply H; [right; left|left].
Qed.
Print Assumptions C57_dispersion.
Print Assumptions C57_dispersion_linear.
Print Assumptions C57_dispersion_refused.
Print Assumptions C57_finding_unknown_mode_dispersion.

(** A beam whose horizontal position is three times the frequency of the cavity: listed once the cavity gives 3, listed twice it is
    detuned twice and gives 6; without a step or with a lost beam there is an error. *)
Definition detuning_world (alive : bool) : world Q :=
  MkWorld (fun _ _ _ _ _ _ _ _ => None)
    (fun ring _ _ c => if alive then Some (if (c =? 0)%nat then default 0%Q (e ← ring !! 4%nat; match (e : elem Q) !! "Frequency" with Some (VNum f) => Some (nmul 3%Q f) | _ => None end) else 1%Q) else None)
    (fun _ => ([], [])) (fun z => z).
Example C57_dispersion_case :
  let run alive cavs d := fst (SCgetModelDispersion true (detuning_world alive) [3%nat] cavs "ORB" [0; 0; 0; 0; 0; 0]%Q 5 d true ex_sc) in
  run true [4%nat] (1000#1)%Q = Ok [Some 3; Some 0]%Q /\ run true [4; 4]%nat (-(10))%Q = Ok [Some 6; Some 0]%Q /\
  run true [4%nat] 0%Q = Err NonFinite /\ run false [4%nat] 1%Q = Err ValueError /\ run true [1%nat] 1%Q = Err AttributeError.
Proof. vm_compute. repeat split. Qed.
