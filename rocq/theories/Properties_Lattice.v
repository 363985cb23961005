(** C35 copies of a machine, C36 the model lattice, C42 track modes, C64 pass-method switches. *)
From Coq Require Import Reals Lra QArith.
From stdpp Require Import base gmap strings list.
From Verif Require Import Num Base Model_Arr Model_SC Model_Err Model_Beam Model_Lattice Lemmas Spec Examples.
Local Open Scope string_scope.
Local Open Scope list_scope.

Lemma forM_seq_inv {S} (P : nat -> S -> Prop) (step : nat -> M S unit) k n s s' u :
  P k s -> (forall i a b, (k <= i < k + n)%nat -> P i a -> step i a = (Ok tt, b) -> P (Datatypes.S i) b) ->
  forM (seq k n) step s = (Ok u, s') -> P (k + n)%nat s'.
Proof.
  revert k s. induction n as [|n IH]; intros k s HP Hs H; simpl in H.
  - minv H. by rewrite Nat.add_0_r.
  - apply bind_ok in H as ([]&s1&H1&H2). rewrite <- Nat.add_succ_comm. eapply IH; [| |exact H2].
    + eapply Hs; [|exact HP|exact H1]. lia.
    + intros i a b Hi. apply Hs. lia.
Qed.

(** * C35 *)
(** The copy agrees with the machine; its design lattice is the machine lattice. *)
Theorem C35_copy {T} (s : sc T) :
  length (RING s) = length (IDEALRING s) ->
  let c := very_deep_copy s in
  RING c = RING s /\ INJ c = INJ s /\ SIG c = SIG s /\ ORD c = ORD s /\ IDEALRING c = RING s.
Proof.
  intros HL. simpl. repeat split. apply list_eq. intros i. rewrite list_lookup_imap.
  destruct (IDEALRING s !! i) as [e|] eqn:E; simpl.
  - destruct (RING s !! i) eqn:E2; [done|]. apply lookup_ge_None in E2. apply lookup_lt_Some in E. lia.
  - symmetry. apply lookup_ge_None. apply lookup_ge_None in E. lia.
Qed.
(** So the design lattice survives exactly when the machine does not differ from it. *)
Theorem C35_finding_design_lattice {T} (s : sc T) :
  length (RING s) = length (IDEALRING s) ->
  (IDEALRING (very_deep_copy s) = IDEALRING s <-> RING s = IDEALRING s).
Proof. intros HL. destruct (C35_copy s HL) as (_&_&_&_&->). done. Qed.
(** a registered magnet is enough to lose it *)
Example C35_case :
  let s := snd (register_magnets [1%nat] [] (MkType None None false None None) (ex_sc (T:=Q))) in
  length (RING s) = length (IDEALRING s) /\
  (IDEALRING s !! 1%nat ≫= fun e => e !! "SetPointB") = None /\
  (IDEALRING (very_deep_copy s) !! 1%nat ≫= fun e => e !! "SetPointB") = Some (VVec [0; 3])%Q.
Proof. vm_compute. repeat split. Qed.

(** * C36 *)
Definition has_setpoints {T} (e : elem T) : bool :=
  match e !! "SetPointA", e !! "SetPointB" with Some _, Some _ => true | _, _ => false end.
(** an array with its dipole component set to zero *)
Definition without_dipole (v : option (val R)) : option (val R) :=
  match v with Some (VVec (_ :: l)) => Some (VVec (0%R :: l)) | _ => None end.
Definition is_cavity {T} (e : elem T) : bool := match e !! "Frequency" with Some _ => true | None => false end.
Definition rf_setpoint (a : string) : option string :=
  if decide (a = "Voltage") then Some "VoltageSetPoint"
  else if decide (a = "Frequency") then Some "FrequencySetPoint"
  else if decide (a = "TimeLag") then Some "TimeLagSetPoint" else None.
(** attribute [a] of the model element for machine element [e] and design element [d] *)
Definition model_attribute (rf : bool) (e d : elem R) (a : string) : option (val R) :=
  if decide (a = "PolynomA") then (if has_setpoints e then without_dipole (e !! "SetPointA") else d !! a)
  else if decide (a = "PolynomB") then (if has_setpoints e then without_dipole (e !! "SetPointB") else d !! a)
  else match rf_setpoint a with
       | Some b => if rf && is_cavity e then e !! b else d !! a
       | None => d !! a
       end.
(** the machine element after the call when assigning an array does not copy it *)
Definition overwritten_attribute (e : elem R) (a : string) : option (val R) :=
  if has_setpoints e && bool_decide (a ∈ ["SetPointA"; "SetPointB"]) then without_dipole (e !! a) else e !! a.

Lemma zero_first_ok (l l' : list R) : zero_first l = Ok l' -> without_dipole (Some (VVec l)) = Some (VVec l').
Proof. unfold zero_first. rewrite idx_set_ok. intros [H ->]. destruct l; simpl in *; [lia|done]. Qed.

Lemma rf_model_ok (e : elem R) ord (ring ring' : list (elem R)) m u :
  ring !! ord = Some m ->
  forM RF_PROPERTIES (fun field => let! v := lift (attr e (field +:+ "SetPoint")) in on_ring ord (setattr field v)) ring = (Ok u, ring') ->
  exists m', ring' = <[ord := m']> ring /\ forall a, m' !! a = match rf_setpoint a with Some b => e !! b | None => m !! a end.
Proof.
  intros Hm H. simpl in H.
  apply bind_ok in H as (u1&r1&H1&H). apply bind_ok in H1 as (v1&r0&Hv1&H1). apply lift_ok in Hv1 as [Hv1 ->].
  unfold on_ring in H1. rewrite Hm in H1. simpl in H1. injection H1 as _ <-.
  apply bind_ok in H as (u2&r2&H2&H). apply bind_ok in H2 as (v2&r0&Hv2&H2). apply lift_ok in Hv2 as [Hv2 ->].
  unfold on_ring in H2. rewrite list_lookup_insert in H2 by (by eapply lookup_lt_Some). simpl in H2. injection H2 as _ <-.
  apply bind_ok in H as (u3&r3&H3&H). apply bind_ok in H3 as (v3&r0&Hv3&H3). apply lift_ok in Hv3 as [Hv3 ->].
  rewrite list_insert_insert in H3.
  unfold on_ring in H3. rewrite list_lookup_insert in H3 by (by eapply lookup_lt_Some). simpl in H3. injection H3 as _ <-.
  apply ret_ok in H as [_ ->]. rewrite list_insert_insert. eexists. split; [reflexivity|].
  apply attr_ok in Hv1, Hv2, Hv3. intros a. unfold rf_setpoint.
  destruct (decide (a = "Voltage")) as [->|N1]; [do 2 rewrite lookup_insert_ne by done; by rewrite lookup_insert|].
  destruct (decide (a = "Frequency")) as [->|N2]; [rewrite lookup_insert_ne by done; by rewrite lookup_insert|].
  destruct (decide (a = "TimeLag")) as [->|N3]; [by rewrite lookup_insert|].
  by rewrite !lookup_insert_ne.
Qed.

Definition model_related (copies rf : bool) (e d e' m : elem R) : Prop :=
  (forall a, m !! a = model_attribute rf e d a) /\
  (if copies then e' = e else forall a, e' !! a = overwritten_attribute e a).

Lemma hasattr_lookup {T} (e : elem T) a : hasattr e a = match e !! a with Some _ => true | None => false end.
Proof. reflexivity. Qed.

Lemma model_element_ok copies rf ord (s s' : sc R) ring ring' e d :
  RING s !! ord = Some e -> ring !! ord = Some d ->
  model_element copies rf ord (s, ring) = (Ok tt, (s', ring')) ->
  exists e' m, model_related copies rf e d e' m /\ s' = set_RING (<[ord := e']> (RING s)) s /\ ring' = <[ord := m]> ring.
Proof.
  intros He Hd H. unfold model_element in H. rewrite He, Hd in H. cbv zeta in H.
  (* first part *)
  match type of H with (match ?x with _ => _ end) = _ => destruct x as [[[]|x1] [s1 ring1]] eqn:E1; [|discriminate] end.
  assert (exists e' m1, s1 = set_RING (<[ord := e']> (RING s)) s /\ ring1 = <[ord := m1]> ring /\
     (if copies then e' = e else forall a, e' !! a = overwritten_attribute e a) /\
     (forall a, m1 !! a = if decide (a = "PolynomA") then (if has_setpoints e then without_dipole (e !! "SetPointA") else d !! a)
        else if decide (a = "PolynomB") then (if has_setpoints e then without_dipole (e !! "SetPointB") else d !! a) else d !! a)) as (e'&m1&->&->&He'&Hm1).
  { unfold hasattr in E1. destruct (e !! "SetPointA") as [va|] eqn:Ea, (e !! "SetPointB") as [vb|] eqn:Eb; cbn [andb] in E1.
    2-4: injection E1 as <- <-; exists e, d; rewrite !list_insert_id by done;
         assert (has_setpoints e = false) as Hh by (unfold has_setpoints; rewrite Ea, ?Eb; done);
         (split; [by destruct s|]); (split; [done|]); (split;
           [destruct copies; [done|]; intros a; unfold overwritten_attribute; by rewrite Hh
           |intros a; rewrite Hh; repeat case_decide; done]).
    destruct (attr_vec e "SetPointA") as [la|] eqn:Va; [|destruct (attr_vec e "SetPointB"); discriminate].
    destruct (attr_vec e "SetPointB") as [lb|] eqn:Vb; [|discriminate].
    destruct (zero_first la) as [a'|] eqn:Za; [|discriminate]. destruct (zero_first lb) as [b'|] eqn:Zb; [|discriminate].
    injection E1 as <- <-.
    apply attr_vec_ok in Va, Vb. rewrite Ea in Va. rewrite Eb in Vb. injection Va as ->. injection Vb as ->. apply zero_first_ok in Za, Zb.
    assert (has_setpoints e = true) as Hh by (unfold has_setpoints; rewrite Ea, Eb; done).
    exists (if copies then e else <["SetPointB" := VVec b']> (<["SetPointA" := VVec a']> e)).
    exists (<["PolynomB" := VVec b']> (<["PolynomA" := VVec a']> d)).
    split; [destruct copies; [rewrite list_insert_id by done; by destruct s|done]|]. split; [done|]. split.
    - destruct copies; [done|]. intros a. unfold overwritten_attribute. rewrite Hh.
      destruct (decide (a = "SetPointB")) as [->|N1].
      { rewrite lookup_insert. rewrite bool_decide_eq_true_2 by (by vm_compute; set_solver). by rewrite Eb. }
      rewrite lookup_insert_ne by done. destruct (decide (a = "SetPointA")) as [->|N2].
      { rewrite lookup_insert. rewrite bool_decide_eq_true_2 by (by vm_compute; set_solver). by rewrite Ea. }
      rewrite lookup_insert_ne by done. rewrite bool_decide_eq_false_2; [done|].
      intros Hin. apply elem_of_cons in Hin as [|Hin]; [done|]. apply elem_of_list_singleton in Hin. done.
    - intros a. rewrite Hh.
      destruct (decide (a = "PolynomA")) as [->|N1]; [rewrite lookup_insert_ne by done; by rewrite lookup_insert|].
      destruct (decide (a = "PolynomB")) as [->|N2]; [by rewrite lookup_insert|].
      by rewrite !lookup_insert_ne. }
  clear E1. unfold hasattr in H. destruct (rf && match e !! "Frequency" with Some _ => true | None => false end) eqn:Erf.
  - destruct (forM _ _ _) as [r ring2] eqn:E2. injection H as -> <- <-.
    eapply rf_model_ok in E2 as (m'&->&Hm'); [|apply list_lookup_insert; by eapply lookup_lt_Some].
    exists e', m'. split; [|by rewrite list_insert_insert]. split; [|done].
    intros a. rewrite Hm'. unfold model_attribute, is_cavity. rewrite Erf.
    destruct (decide (a = "PolynomA")) as [->|N1]; [by rewrite Hm1|].
    destruct (decide (a = "PolynomB")) as [->|N2]; [by rewrite Hm1|].
    destruct (rf_setpoint a) eqn:Er; [done|]. rewrite Hm1. by rewrite !decide_False.
  - injection H as <- <-. exists e', m1. split; [|done]. split; [|done].
    intros a. rewrite Hm1. unfold model_attribute, is_cavity. rewrite Erf.
    case_decide; [done|]. case_decide; [done|]. by destruct (rf_setpoint a).
Qed.

(** The model lattice, and the machine afterwards, element by element. *)
Theorem C36_model_lattice copies (s s' : sc R) ring :
  length (RING s) = length (IDEALRING s) ->
  model_ring copies s = (Ok ring, s') ->
  same_but_ring s s' /\ length ring = length (IDEALRING s) /\ length (RING s') = length (RING s) /\
  forall i e d, RING s !! i = Some e -> IDEALRING s !! i = Some d ->
    exists e' m, RING s' !! i = Some e' /\ ring !! i = Some m /\
      (forall a, m !! a = model_attribute (bool_decide (oRF (ORD s) <> [])) e d a) /\
      (if copies then e' = e else forall a, e' !! a = overwritten_attribute e a).
Proof.
  intros HL H. unfold model_ring in H.
  destruct (forM _ _ _) as [[[]|x] [s1 r1]] eqn:E; [|discriminate]. injection H as -> ->.
  assert ((0 <? length (oRF (ORD s)))%nat = bool_decide (oRF (ORD s) ≠ [])) as Hrf by (by destruct (oRF (ORD s))).
  rewrite Hrf in E. set (rf := bool_decide _) in *.
  set (P := fun (k : nat) (st : sc R * list (elem R)) => same_but_ring s st.1 /\ length st.2 = length (IDEALRING s) /\ length (RING st.1) = length (RING s) /\
     forall i e d, RING s !! i = Some e -> IDEALRING s !! i = Some d ->
      exists e' m, RING st.1 !! i = Some e' /\ st.2 !! i = Some m /\
       if (i <? k)%nat then model_related copies rf e d e' m else e' = e /\ m = d).
  eapply (forM_seq_inv P) in E.
  - destruct E as (A&B&C&D). split; [done|]. split; [done|]. split; [done|]. intros i e d He Hd.
    destruct (D i e d He Hd) as (e'&m&He'&Hm&X). exists e', m. simpl in X.
    rewrite (proj2 (Nat.ltb_lt _ _)) in X by (by eapply lookup_lt_Some). by destruct X.
  - split; [by repeat split|]. split; [done|]. split; [done|]. intros i e d He Hd. exists e, d. simpl. done.
  - intros k [sa ra] [sb rb] Hk (A&B&C&D) Hstep. simpl in *.
    destruct (lookup_lt_is_Some_2 (RING s) k) as [e He]; [lia|]. destruct (lookup_lt_is_Some_2 (IDEALRING s) k) as [d Hd]; [lia|].
    destruct (D k e d He Hd) as (e1&d1&He1&Hd1&X). rewrite Nat.ltb_irrefl in X. destruct X as [-> ->].
    eapply model_element_ok in Hstep as (e'&m&Hrel&->&->); [|done..].
    split; [done|]. split; [simpl; by rewrite insert_length|]. split; [simpl; by rewrite insert_length|].
    intros i e2 d2 He2 Hd2. simpl. destruct (decide (i = k)) as [->|Hne].
    + exists e', m. rewrite !list_lookup_insert by (by eapply lookup_lt_Some). split; [done|]. split; [done|].
      rewrite (proj2 (Nat.ltb_lt _ _)) by lia. rewrite He in He2. rewrite Hd in Hd2. by injection He2 as <-; injection Hd2 as <-.
    + rewrite !list_lookup_insert_ne by done. destruct (D i e2 d2 He2 Hd2) as (e3&m3&?&?&X). exists e3, m3.
      split; [done|]. split; [done|]. destruct (i <? k)%nat eqn:E1; destruct (i <? Datatypes.S k)%nat eqn:E2; try done;
      apply Nat.ltb_lt in E1 || apply Nat.ltb_ge in E1; apply Nat.ltb_lt in E2 || apply Nat.ltb_ge in E2; lia.
Qed.

(** With copying assignment the machine is not touched. *)
Corollary C36_machine_unchanged (s s' : sc R) ring :
  length (RING s) = length (IDEALRING s) -> model_ring true s = (Ok ring, s') -> s' = s.
Proof.
  intros HL H. apply C36_model_lattice in H as ((A&B&C&D&E)&_&L&F); [|done].
  destruct s, s'; simpl in *; subst; f_equal. apply list_eq. intros i.
  destruct (RING !! i) as [e|] eqn:Ei.
  - destruct (lookup_lt_is_Some_2 IDEALRING i) as [d Hd]; [apply lookup_lt_Some in Ei; lia|].
    destruct (F i e d Ei Hd) as (e'&m&->&_&_&->). done.
  - apply lookup_ge_None. apply lookup_ge_None in Ei. lia.
Qed.
(** Without copying, every element with set-points loses its dipole set-points. *)
Corollary C36_finding_setpoints_erased (s s' : sc R) ring i e a l :
  length (RING s) = length (IDEALRING s) -> model_ring false s = (Ok ring, s') ->
  RING s !! i = Some e -> has_setpoints e = true -> a ∈ ["SetPointA"; "SetPointB"] -> e !! a = Some (VVec l) ->
  exists e', RING s' !! i = Some e' /\ e' !! a = without_dipole (Some (VVec l)).
Proof.
  intros HL H He Hh Ha Hl. apply C36_model_lattice in H as (_&_&_&F); [|done].
  destruct (lookup_lt_is_Some_2 (IDEALRING s) i) as [d Hd]; [apply lookup_lt_Some in He; lia|].
  destruct (F i e d He Hd) as (e'&m&He'&_&_&X). exists e'. split; [done|]. rewrite X. unfold overwritten_attribute.
  rewrite Hh. rewrite bool_decide_eq_true_2 by done. simpl. by rewrite Hl.
Qed.

(** A corrector with a set-point and a cavity moved to 501: without copying the call erases the corrector set-point 7
    of the machine. *)
Definition model_case_sc : sc Q :=
  snd (set_cavity_setpoints [4%nat] DFloat [501] "Frequency" ABS
  (snd (set_cm_setpoints [2%nat] DFloat [7] false ABS
  (snd (register_cavities [4%nat] [] (snd (register_magnets [1; 2]%nat [] (MkType (Some PInf) None false None None) ex_sc)))))))%Q.
Example C36_case :
  let look (r : list (elem Q)) i a := r !! i ≫= fun e => e !! a in
  length (RING model_case_sc) = length (IDEALRING model_case_sc) /\
  look (RING model_case_sc) 2%nat "SetPointB" = Some (VVec [7%Q]) /\
  match model_ring true model_case_sc with
  | (Ok ring, s') => look ring 1%nat "PolynomB" = Some (VVec [0; 3]%Q) /\ look ring 2%nat "PolynomB" = Some (VVec [0%Q]) /\ look ring 4%nat "Frequency" = Some (VNum 501%Q) /\
                     look ring 1%nat "SetPointB" = None /\ look (RING s') 2%nat "SetPointB" = Some (VVec [7%Q])
  | _ => False end /\
  match model_ring false model_case_sc with
  | (Ok ring, s') => look (RING s') 2%nat "SetPointB" = Some (VVec [0%Q])
  | _ => False end.
Proof. vm_compute. repeat split. Qed.

(** * C42 *)
Theorem C42_track_mode {T} (i : inj T) mode :
  (mode ∉ ["TBT"; "ORB"; "PORB"] -> set_trackMode mode i = (Err AttributeError, i)) /\
  (mode ∈ ["TBT"; "ORB"; "PORB"] -> exists i', set_trackMode mode i = (Ok tt, i') /\ trackMode i' = mode /\
     beamLostAt i' = beamLostAt i /\ Z0ideal i' = Z0ideal i /\ Z0 i' = Z0 i /\ beamSize i' = beamSize i /\
     randomInjectionZ i' = randomInjectionZ i /\ nShots i' = nShots i /\
     (mode = "ORB" -> nTurns i' = 1%nat /\ nParticles i' = 1%nat) /\
     (mode <> "ORB" -> nTurns i' = nTurns i /\ nParticles i' = nParticles i)).
Proof.
  unfold set_trackMode, TRACKING_MODES. split; intros H.
  - by rewrite decide_False.
  - rewrite decide_True by done. destruct (decide (mode = "ORB")) as [->|Hne]; eexists; (split; [reflexivity|]); simpl; repeat split; try done.
Qed.
Example C42_case :
  set_trackMode "orb" (init_inj (T:=Q)) = (Err AttributeError, init_inj) /\
  nTurns (snd (set_trackMode "ORB" (MkInj 1 [] [] [] [] 5 7 2 "TBT")%Q)) = 1%nat /\
  nTurns (snd (set_trackMode "PORB" (MkInj 1 [] [] [] [] 5 7 2 "ORB")%Q)) = 7%nat.
Proof. vm_compute. repeat split. Qed.

(** * C64 *)
Definition radiating : list (string * string) :=
  [("BndMPoleSymplectic4Pass", "BndMPoleSymplectic4RadPass"); ("BndMPoleSymplectic4E2Pass", "BndMPoleSymplectic4E2RadPass");
   ("StrMPoleSymplectic4Pass", "StrMPoleSymplectic4RadPass")].
Definition with_radiation (pm : string) : string := match List.find (fun p => bool_decide (pm = p.1)) radiating with Some p => p.2 | None => pm end.
Definition without_radiation (pm : string) : string := match List.find (fun p => bool_decide (pm = p.2)) radiating with Some p => p.1 | None => pm end.
(** the pass method required of an element *)
Definition required (args : list string) (cav : bool) (pm : string) : string :=
  let pm1 := if decide ("radiationoff" ∈ args) then without_radiation pm
             else if decide ("radiationon" ∈ args) then with_radiation pm else pm in
  if cav then (if decide ("cavityoff" ∈ args) then "IdentityPass" else if decide ("cavityon" ∈ args) then "RFCavityPass" else pm1)
  else pm1.
Definition options : list string := ["radiationoff"; "radiationon"; "cavityoff"; "cavityon"].

Lemma rad_methods : rad_pass_methods = map snd radiating.
Proof. vm_compute. reflexivity. Qed.
Lemma elem3 (x a b c : string) : x ∈ [a; b; c] <-> x = a \/ x = b \/ x = c.
Proof. rewrite !elem_of_cons. split; [intros [|[|[|H]]]; [tauto..|by apply elem_of_nil in H]|tauto]. Qed.
Lemma switch_off_spec pm : (if bool_decide (pm ∈ rad_pass_methods) then str_replace "Rad" "" pm else pm) = without_radiation pm.
Proof.
  rewrite rad_methods. case_bool_decide as H.
  - apply elem3 in H as [->|[->| ->]]; vm_compute; reflexivity.
  - unfold without_radiation. simpl in *. rewrite elem3 in H. repeat (case_bool_decide; [tauto|]). done.
Qed.
Lemma switch_on_spec pm : (if bool_decide (pm ∈ non_rad_pass_methods) then str_replace "Pass" "RadPass" pm else pm) = with_radiation pm.
Proof.
  unfold non_rad_pass_methods. case_bool_decide as H.
  - apply elem3 in H as [->|[->| ->]]; vm_compute; reflexivity.
  - unfold with_radiation. simpl in *. rewrite elem3 in H. repeat (case_bool_decide; [tauto|]). done.
Qed.

(** elements of a lattice with their pass methods *)
Definition has_pass {T} (r : list (elem T)) : Prop := forall i e, r !! i = Some e -> exists pm, e !! "PassMethod" = Some (VStr pm).
Definition pass_changed {T} (f : elem T -> string -> string) (r r' : list (elem T)) : Prop :=
  length r' = length r /\
  forall i e pm, r !! i = Some e -> e !! "PassMethod" = Some (VStr pm) -> r' !! i = Some (<["PassMethod" := VStr (f e pm)]> e).

Lemma on_ring_run {T A} i (m : M (elem T) A) (r : list (elem T)) e x e' :
  r !! i = Some e -> m e = (x, e') -> on_ring i m r = (x, <[i := e']> r).
Proof. intros H1 H2. unfold on_ring. by rewrite H1, H2. Qed.

Lemma forM_each {T} (ls : list nat) (step : nat -> M (list (elem T)) unit) (g : nat -> elem T -> elem T) (r : list (elem T)) :
  NoDup ls -> (forall i, i ∈ ls -> (i < length r)%nat) ->
  (forall i e, i ∈ ls -> r !! i = Some e -> forall r1, r1 !! i = Some e -> step i r1 = (Ok tt, <[i := g i e]> r1)) ->
  exists r', forM ls step r = (Ok tt, r') /\ length r' = length r /\
    forall i e, r !! i = Some e -> r' !! i = Some (if decide (i ∈ ls) then g i e else e).
Proof.
  revert r. induction ls as [|i ls IH]; intros r Hnd Hlt Hs; simpl.
  - exists r. split; [done|]. split; [done|]. intros i e He. exact He.
  - destruct (lookup_lt_is_Some_2 r i) as [e He]; [apply Hlt; left|]. apply NoDup_cons in Hnd as [Hni Hnd].
    destruct (IH (<[i := g i e]> r)) as (r'&Hr'&L&F); [done|..].
    + intros j Hj. rewrite insert_length. apply Hlt. by right.
    + intros j ej Hj Hej. assert (i <> j) as Hne by (intros ->; done). rewrite list_lookup_insert_ne in Hej by done. apply Hs; [by right|done].
    + exists r'. split.
      { unfold bind. rewrite (Hs i e) by (done || left). exact Hr'. }
      split; [by rewrite L, insert_length|]. intros j ej Hej. destruct (decide (i = j)) as [<-|Hne].
      * rewrite (decide_True (P := i ∈ i :: ls)) by left. rewrite He in Hej. injection Hej as <-. rewrite (F i (g i e)); [by rewrite decide_False|].
        apply list_lookup_insert. by eapply lookup_lt_Some.
      * rewrite (F j ej); [|by rewrite list_lookup_insert_ne]. repeat case_decide; try done; exfalso.
        -- apply H0. by right.
        -- apply elem_of_cons in H0 as [->|]; done.
Qed.

Lemma switch_pass_run {T} among old new (r : list (elem T)) (f : string -> string) :
  has_pass r -> (forall pm, (if bool_decide (pm ∈ among) then str_replace old new pm else pm) = f pm) ->
  exists r', switch_pass among old new r = (Ok tt, r') /\ pass_changed (fun _ pm => f pm) r r'.
Proof.
  intros Hp Hf. unfold switch_pass. unfold bind at 1. cbn [get].
  destruct (forM_each (seq 0 (length r))
    (fun ind => on_ring ind (let! pm := getm (fun e => attr_str e "PassMethod") in
       when (bool_decide (pm ∈ among)) (setattr "PassMethod" (VStr (str_replace old new pm)))))
    (fun _ e => match e !! "PassMethod" with Some (VStr pm) => <["PassMethod" := VStr (f pm)]> e | _ => e end) r) as (r'&H&L&F).
  - apply NoDup_seq.
  - intros i Hi. apply elem_of_seq in Hi. lia.
  - intros i e Hi He r1 Hr1. destruct (Hp i e He) as (pm&Hpm). rewrite Hpm. eapply on_ring_run; [done|].
    unfold bind. unfold getm. unfold attr_str, attr. rewrite Hpm. simpl. specialize (Hf pm).
    destruct (bool_decide (pm ∈ among)); simpl; rewrite <- Hf; [done|]. unfold ret. by rewrite insert_id.
  - exists r'. split; [done|]. split; [done|]. intros i e pm He Hpm. rewrite (F i e He).
    rewrite decide_True by (apply elem_of_seq; apply lookup_lt_Some in He; lia). by rewrite Hpm.
Qed.

Lemma rmap_total {A B} (f : A -> res B) (g : A -> B) l : (forall x, x ∈ l -> f x = Ok (g x)) -> rmap f l = Ok (map g l).
Proof.
  induction l as [|x l IH]; intros H; simpl; [done|]. rewrite H by left. simpl. rewrite IH; [done|].
  intros y Hy. apply H. by right.
Qed.

Lemma switch_rf_run {T} (state : bool) (r : list (elem T)) :
  exists r', switch_rf (seq 0 (length r)) state r = (Ok tt, r') /\ length r' = length r /\
    forall i e, r !! i = Some e ->
      r' !! i = Some (if is_cavity e then <["PassMethod" := VStr (if state then "RFCavityPass" else "IdentityPass")]> e else e).
Proof.
  unfold switch_rf. unfold bind at 1. cbn [get].
  set (cav := fun i => (i, match r !! i with Some e => is_cavity e | None => false end)).
  rewrite (rmap_total _ cav).
  2:{ intros i Hi. apply elem_of_seq in Hi. destruct (lookup_lt_is_Some_2 r i) as [e He]; [lia|]. unfold cav, idx. by rewrite He. }
  unfold bind, lift.
  set (l := List.filter snd (map cav (seq 0 (length r)))).
  assert (forall A B C (h : A -> B) (k : B -> M C unit) (q : list A) (c : C), forM (map h q) k c = forM q (fun a => k (h a)) c) as Hmap.
  { intros A B C h k q. induction q as [|a q IHq]; intros c; simpl; [done|]. unfold bind. destruct (k (h a) c) as [[?|?] ?]; [apply IHq|done]. }
  assert (forall i b, (i, b) ∈ l <-> (i < length r)%nat /\ b = true /\ cav i = (i, true)) as Hl.
  { intros i b. unfold l. rewrite elem_of_list_In, List.filter_In, <- elem_of_list_In, elem_of_list_fmap. split.
    - intros [(j&Hj&Hs) Hb]. simpl in Hb. subst b. unfold cav in Hj. injection Hj as -> Hj. apply elem_of_seq in Hs. split; [lia|]. split; [done|]. unfold cav. by rewrite <- Hj.
    - intros (H1&->&H2). split; [|done]. exists i. split; [done|]. apply elem_of_seq. lia. }
  assert (NoDup (l.*1)) as Hnd.
  { unfold l. assert (forall q, NoDup q -> NoDup ((List.filter snd (map cav q)).*1) /\ forall i, i ∈ (List.filter snd (map cav q)).*1 -> i ∈ q) as X.
    { induction q as [|a q IHq]; intros Hq; [by split; [constructor|]|]. apply NoDup_cons in Hq as [Ha Hq]. destruct (IHq Hq) as [I1 I2].
      change (List.filter snd (map cav (a :: q))) with (if snd (cav a) then cav a :: List.filter snd (map cav q) else List.filter snd (map cav q)).
      destruct (snd (cav a)) eqn:Ec.
      - change ((cav a :: List.filter snd (map cav q)).*1) with (a :: (List.filter snd (map cav q)).*1). split; [constructor; [intros Hin; apply Ha, I2, Hin|done]|]. intros i Hi. apply elem_of_cons in Hi as [->|Hi]; [left|right; by apply I2].
      - split; [done|]. intros i Hi. right. by apply I2. }
    apply X, NoDup_seq. }
  assert (forM l (fun c => on_ring c.1 (setattr "PassMethod" (VStr (if state then "RFCavityPass" else "IdentityPass")))) r =
          forM (l.*1) (fun i => on_ring i (setattr "PassMethod" (VStr (if state then "RFCavityPass" else "IdentityPass")))) r) as ->.
  { symmetry. apply Hmap. }
  destruct (forM_each (l.*1) (fun i => on_ring i (setattr "PassMethod" (VStr (if state then "RFCavityPass" else "IdentityPass"))))
     (fun _ e => <["PassMethod" := VStr (if state then "RFCavityPass" else "IdentityPass")]> e) r) as (r'&H&L&F); [done|..].
  - intros i Hi. apply elem_of_list_fmap in Hi as ([j b]&->&Hj). apply Hl in Hj. simpl. lia.
  - intros i e Hi He r1 Hr1. by eapply on_ring_run.
  - exists r'. split; [done|]. split; [done|]. intros i e He. rewrite (F i e He).
    assert (i ∈ l.*1 <-> is_cavity e = true) as X.
    { rewrite elem_of_list_fmap. split.
      - intros ([j b]&->&Hj). apply Hl in Hj as (_&->&Hc). unfold cav in Hc. simpl in *. rewrite He in Hc. by injection Hc.
      - intros Hc. exists (i, true). split; [done|]. apply Hl. split; [by eapply lookup_lt_Some|]. split; [done|]. unfold cav. rewrite He. by rewrite Hc. }
    destruct (is_cavity e) eqn:Ec; case_decide as Hd; try done; [exfalso; apply Hd; by apply X|]. apply X in Hd. done.
Qed.

(** Unknown options are refused without effect; else the call succeeds, changes nothing but pass methods, and every pass
    method is the required one. *)
Theorem C64_switch {T} (args : list string) (r : list (elem T)) :
  (~ (forall a, a ∈ args -> a ∈ options) -> switch_cavity_and_radiation args r = (Err ValueError, r)) /\
  ((forall a, a ∈ args -> a ∈ options) -> has_pass r ->
   exists r', switch_cavity_and_radiation args r = (Ok tt, r') /\
     pass_changed (fun e pm => required args (is_cavity e) pm) r r').
Proof.
  unfold switch_cavity_and_radiation. change valid_args with options.
  assert (forallb (fun a => bool_decide (a ∈ options)) args = true <-> (forall a, a ∈ args -> a ∈ options)) as HA.
  { rewrite forallb_forall. split; intros X a Ha; specialize (X a).
    - apply elem_of_list_In in Ha. apply X in Ha. by apply bool_decide_eq_true in Ha.
    - apply elem_of_list_In in Ha. apply bool_decide_eq_true. by apply X. }
  split.
  - intros H. destruct (forallb _ _) eqn:E; [exfalso; apply H; by apply HA|done].
  - intros H Hp. apply HA in H. rewrite H. clear H HA.
    set (f1 := fun pm => if decide ("radiationoff" ∈ args) then without_radiation pm
             else if decide ("radiationon" ∈ args) then with_radiation pm else pm).
    assert (exists r1, (if bool_decide ("radiationoff" ∈ args) then switch_pass rad_pass_methods "Rad" ""
       else if bool_decide ("radiationon" ∈ args) then switch_pass non_rad_pass_methods "Pass" "RadPass"
       else ret tt) r = (Ok tt, r1) /\ pass_changed (fun _ pm => f1 pm) r r1) as (r1&H1&L1&F1).
    { unfold f1. destruct (decide ("radiationoff" ∈ args)) as [H1|H1].
      - rewrite bool_decide_eq_true_2 by done. apply switch_pass_run; [done|]. apply switch_off_spec.
      - rewrite bool_decide_eq_false_2 by done. destruct (decide ("radiationon" ∈ args)) as [H2|H2].
        + rewrite bool_decide_eq_true_2 by done. apply switch_pass_run; [done|]. apply switch_on_spec.
        + rewrite bool_decide_eq_false_2 by done. exists r. split; [done|]. split; [done|]. intros i e pm He Hpm. by rewrite insert_id. }
    unfold bind at 1. rewrite H1. unfold bind at 1. cbn [get].
    assert (forall e pm, is_cavity (<["PassMethod" := VStr pm]> e : elem T) = is_cavity e) as Hc.
    { intros e pm. unfold is_cavity. by rewrite lookup_insert_ne. }
    assert (forall state, exists r', switch_rf (seq 0 (length r1)) state r1 = (Ok tt, r') /\
       pass_changed (fun e pm => if is_cavity e then (if state then "RFCavityPass" else "IdentityPass") else f1 pm) r r') as HX.
    { intros state. destruct (switch_rf_run state r1) as (r'&Hr'&L2&F2). exists r'. split; [done|]. split; [congruence|].
      intros i e pm He Hpm. rewrite (F2 i _ (F1 i e pm He Hpm)), Hc. destruct (is_cavity e); [|done]. by rewrite insert_insert. }
    unfold required. destruct (decide ("cavityoff" ∈ args)) as [D1|D1].
    { rewrite bool_decide_eq_true_2 by done. apply (HX false). }
    rewrite bool_decide_eq_false_2 by done. destruct (decide ("cavityon" ∈ args)) as [D2|D2].
    { rewrite bool_decide_eq_true_2 by done. apply (HX true). }
    rewrite bool_decide_eq_false_2 by done. exists r1. split; [done|]. split; [done|]. intros i e pm He Hpm. rewrite (F1 i e pm He Hpm).
    by destruct (is_cavity e).
Qed.

(** Radiation on and off again gives the lattice without radiation: the original one if nothing radiated. *)
Theorem C64_on_off {T} (r r1 r2 : list (elem T)) :
  has_pass r -> switch_cavity_and_radiation ["radiationon"] r = (Ok tt, r1) -> switch_cavity_and_radiation ["radiationoff"] r1 = (Ok tt, r2) ->
  length r2 = length r /\
  forall i e pm, r !! i = Some e -> e !! "PassMethod" = Some (VStr pm) ->
    r2 !! i = Some (<["PassMethod" := VStr (without_radiation pm)]> e) /\ (pm ∉ map snd radiating -> r2 !! i = Some e).
Proof.
  intros Hp H1 H2.
  assert (forall x, x ∈ ["radiationon"] -> x ∈ options) as A1 by (intros x Hx; apply elem_of_list_singleton in Hx as ->; by apply (bool_decide_eq_true_1 _); vm_compute).
  assert (forall x, x ∈ ["radiationoff"] -> x ∈ options) as A2 by (intros x Hx; apply elem_of_list_singleton in Hx as ->; by apply (bool_decide_eq_true_1 _); vm_compute).
  destruct (proj2 (C64_switch ["radiationon"] r) A1 Hp) as (r1'&E1&L1&F1). rewrite H1 in E1. injection E1 as <-.
  assert (has_pass r1) as Hp1.
  { intros i e He. destruct (lookup_lt_is_Some_2 r i) as [e0 He0]; [apply lookup_lt_Some in He; lia|]. destruct (Hp i e0 He0) as (pm&Hpm).
    rewrite (F1 i e0 pm He0 Hpm) in He. injection He as <-. eexists. apply lookup_insert. }
  destruct (proj2 (C64_switch ["radiationoff"] r1) A2 Hp1) as (r2'&E2&L2&F2). rewrite H2 in E2. injection E2 as <-.
  split; [congruence|]. intros i e pm He Hpm. specialize (F1 i e pm He Hpm).
  assert (r2 !! i = Some (<["PassMethod" := VStr (without_radiation pm)]> e)) as X.
  { rewrite (F2 i _ _ F1 (lookup_insert _ _ _)), insert_insert. do 3 f_equal.
    unfold required. rewrite (decide_False (P := "radiationoff" ∈ ["radiationon"])) by (intros Hin; apply elem_of_list_singleton in Hin; done).
    rewrite (decide_True (P := "radiationon" ∈ ["radiationon"])) by left.
    rewrite !(decide_False (P := "cavityoff" ∈ _)), !(decide_False (P := "cavityon" ∈ _)) by (intros Hin; apply elem_of_list_singleton in Hin; done).
    rewrite (decide_True (P := "radiationoff" ∈ ["radiationoff"])) by left.
    destruct (is_cavity e), (is_cavity _); unfold with_radiation, without_radiation; simpl; repeat (case_bool_decide; subst; simpl; try done). }
  split; [done|]. intros Hni. rewrite X. f_equal. apply insert_id. rewrite Hpm. do 2 f_equal.
  unfold without_radiation. simpl in *. rewrite elem3 in Hni. repeat (case_bool_decide; [exfalso; tauto|]). done.
Qed.
Example C64_case :
  let look (x : res unit * list (elem Q)) i := (x.2 !! i ≫= fun e => e !! "PassMethod") in
  has_pass (ex_ring (T:=Q)) /\
  look (switch_cavity_and_radiation ["radiationon"; "cavityoff"] ex_ring) 5%nat = Some (VStr "BndMPoleSymplectic4RadPass") /\
  look (switch_cavity_and_radiation ["radiationon"; "cavityoff"] ex_ring) 4%nat = Some (VStr "IdentityPass") /\
  look (switch_cavity_and_radiation ["radiationon"; "cavityoff"] ex_ring) 0%nat = Some (VStr "DriftPass") /\
  fst (switch_cavity_and_radiation ["cavity"] (ex_ring (T:=Q))) = Err ValueError.
Proof.
  split; [|vm_compute; repeat split].
  intros i e He. do 7 (destruct i as [|i]; [injection He as <-; eexists; vm_compute; reflexivity|]). discriminate.
Qed.

Print Assumptions C35_copy.
Print Assumptions C35_finding_design_lattice.
Print Assumptions C36_model_lattice.
Print Assumptions C42_track_mode.
Print Assumptions C64_switch.
Print Assumptions C64_on_off.
