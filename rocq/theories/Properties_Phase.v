(** C88: the figure of the phase space. *)
From Coq Require Import Reals Lra Lia QArith ZArith.
From stdpp Require Import base gmap strings list.
From Verif Require Import Num Base Model_Arr Model_SC Model_Err Model_Beam Model_Orbit Model_Scan Model_Plot Lemmas Proofs_Beam Spec Properties_Field Examples Properties_Circ Properties_Support Properties_Beam.
Local Open Scope string_scope.
Local Open Scope list_scope.
Local Open Scope R_scope.

(** * Specification *)
(** six coordinates: positions and angles in millionths, then the longitudinal position, then the relative energy in percent *)
Definition shown_as (q : nat -> R) (c : nat) : R := match c with 0%nat | 1%nat | 2%nat | 3%nat => 1000000 * q c | 4%nat => q 5%nat | _ => 100 * q 4%nat end.
(** what the revolution at the frequency of the first cavity is longer than the lattice *)
Definition slips (s : sc R) (d : R) : Prop :=
  exists cav rest, oRF (ORD s) = cav :: rest /\
    ((attr_at s cav "PassMethod" = Some (VStr "RFCavityPass") /\
      exists h f, number s cav "HarmNumber" = Some h /\ number s cav "Frequency" = Some f /\ f <> 0 /\ d = 299792458 * h / f - total_length s) \/
     (attr_at s cav "PassMethod" <> None /\ attr_at s cav "PassMethod" <> Some (VStr "RFCavityPass") /\ d = 0)).
(** the bunch drawn: the one given, or one generated *)
Definition bunch_of (w : world R) (custom : option (list (list R))) (np nt : option nat) (s : sc R) (Z : list (list R)) (P turns : nat) (s' : sc R) : Prop :=
  turns = default (nTurns (INJ s)) nt /\
  match custom with
  | Some B => np = None /\ length B = 6%nat /\ Z = B /\ P = length (default [] (B !! 0%nat)) /\ s' = s
  | None => P = default (nParticles (INJ s)) np /\ generate_bunches w P s = (Ok Z, s')
  end.

(** * Proofs *)
Lemma slippage_ok (s : sc R) o : slippage s = Ok o -> slips s (default 0 o).
Proof.
  intros H. unfold slippage in H. apply rbind_ok in H as (cav&Hc&H). apply rbind_ok in H as (e&He&H). apply idx_ok in Hc, He.
  destruct (oRF (ORD s)) as [|c rest] eqn:Er; [done|]. injection Hc as ->. exists cav, rest. split; [done|]. unfold number, attr_at. rewrite He. cbn [mbind option_bind].
  destruct (e !! "PassMethod") as [v|] eqn:Ep; [|done]. assert (v = VStr "RFCavityPass" \/ v <> VStr "RFCavityPass") as [-> |Hv].
  { destruct v as [| | |m| | | | | | |]; try (right; discriminate). destruct (decide (m = "RFCavityPass")) as [-> |Hm]; [by left|right; congruence]. }
  - left. split; [done|]. apply rbind_ok in H as (h&Hh&H). apply rbind_ok in H as (f&Hf&H). apply rbind_ok in H as (q&Hq&H). apply attr_num_ok in Hh, Hf. apply qdivR_ok in Hq as [-> Hq].
    apply (f_equal (fun r => match r with Ok x => x | Err _ => None end)) in H. cbv beta iota zeta in H. rewrite <- H. exists h, f. rewrite Hh, Hf. split_and!; try done. cbn [default from_option]. rewrite spos_last. done.
  - right. split_and!; [done|congruence|]. assert (Ok (A:=option R) None = Ok o) as E; [|by injection E as <-]. rewrite <- H. destruct v as [| | |m| | | | | | |]; try done. clear - Hv.
    repeat (match goal with |- context [match ?x with _ => _ end] => destruct x; try done end).
Qed.
Lemma exchanged_scale (q : nat -> R) c : (c < 6)%nat -> q (exchanged c) * default 1 (scales (T:=R) !! exchanged c) = shown_as q c.
Proof. intros H. do 6 (destruct c as [|c]; [cbn; unfold million; num_R; ring|]). lia. Qed.

(** Each particle is drawn turn by turn at its own coordinates - the longitudinal one relative to the cavity - and not at all where it is lost;
    the injection point is drawn alike; nothing but random numbers is used. *)
Theorem C88_points (w : world R) ords custom np nt (s s' : sc R) P turns pts z : length (Z0 (INJ s)) = 6%nat ->
  phase_space w ords custom np nt s = (Ok (P, turns, pts, z), s') ->
  exists Z d, bunch_of w custom np nt s Z P turns s' /\ slips s d /\ s' = set_RNG (RNG s') s /\
    (forall c p t, (c < 6)%nat -> w_track w (RING s) Z turns ords 0%nat p 0%nat t = None -> pts c p t = None) /\
    (forall c p t q, (c < 6)%nat -> (forall c, (c < 6)%nat -> w_track w (RING s) Z turns ords c p 0%nat t = Some (q c)) ->
       pts c p t = Some (shown_as (fun c => if (c =? 5)%nat then q c - d * INR t else q c) c)) /\
    length z = 6%nat /\ forall c, (c < 6)%nat -> z !! c = Some (shown_as (fun c => default 0 (Z0 (INJ s) !! c)) c).
Proof.
  intros Hz0 H. unfold phase_space in H. apply bind_ok in H as (s0&s1&H0&H). apply get_ok in H0 as [-> ->].
  apply bind_ok in H as ([[Z P'] turns']&s1&Hb&H). apply bind_ok in H as (slip&s2&Hs&H). apply lift_ok in Hs as [Hs ->]. apply bind_ok in H as (z0&s3&Hz&H). apply lift_ok in Hz as [Hz ->].
  apply bind_ok in H as (z'&s4&Hz'&H). apply lift_ok in Hz' as [Hz' ->]. apply ret_ok in H as [H ->]. injection H as <- <- <- <-. exists Z, (default 0 slip).
  assert (bunch_of w custom np nt s Z P' turns' s1 /\ s1 = set_RNG (RNG s1) s) as [HB HQ].
  { unfold check_bunch in Hb. apply bind_ok in Hb as (s0&s2&H0&Hb). apply get_ok in H0 as [-> ->]. unfold bunch_of. destruct custom as [B|].
    - destruct np; [done|]. destruct (negb (length B =? 6)%nat) eqn:E; [done|]. apply negb_false_iff, Nat.eqb_eq in E. apply ret_ok in Hb as [Hb ->]. injection Hb as <- <- <-. split; [done|]. by destruct s.
    - apply bind_ok in Hb as (Z'&s2&HZ&Hb). apply ret_ok in Hb as [Hb ->]. injection Hb as <- <- <-. split; [done|]. pose proof (quiet_bunches w (default (nParticles (INJ s)) np) s) as HQ. rewrite HZ in HQ. exact HQ. }
  split; [done|]. split; [by apply slippage_ok|]. split; [done|]. split; [|split; [|split]].
  - intros c p t Hc Hlost. rewrite Hlost. by destruct slip as [d|]; [destruct (exchanged c =? 5)%nat|].
  - intros c p t q Hc Hq. rewrite (Hq 0%nat) by lia. assert (exchanged c < 6)%nat as He by (do 6 (destruct c as [|c]; [cbn; lia|]); lia). rewrite (Hq (exchanged c)) by done.
    rewrite <- exchanged_scale by done. destruct slip as [d|]; cbn [default from_option].
    + destruct (exchanged c =? 5)%nat; cbn [fmap option_fmap option_map]; unfold nofnat; num_R; rewrite <- ?INR_IZR_INZ; done.
    + cbn [fmap option_fmap option_map]. f_equal. num_R. destruct (exchanged c =? 5)%nat; ring.
  - apply rmap_ok, Forall2_length in Hz'. rewrite <- Hz'. by rewrite map_length, seq_length.
  - intros c Hc. apply rmap_ok in Hz'. destruct (Forall2_lookup_l _ _ _ c (exchanged c) Hz') as (y&Hy&Hy2). { by rewrite list_lookup_fmap, lookup_seq_lt. }
    rewrite Hy. f_equal. apply idx_ok in Hy2. unfold bcast in Hz. rewrite Hz0 in Hz. cbn [length scales Nat.eqb] in Hz. injection Hz as <-. rewrite lookup_zip_with in Hy2.
    rewrite <- exchanged_scale by done. destruct (Z0 (INJ s) !! exchanged c) as [x|]; [|done]. cbn [mbind option_bind] in Hy2. destruct (scales !! exchanged c) as [k|]; [|done]. cbn in Hy2. injection Hy2 as <-. done.
Qed.
(** A particle that keeps step with the cavity - all coordinates come back turn after turn, up to the slippage - is drawn in one point. *)
Theorem C88_synchronous (w : world R) ords custom np nt (s s' : sc R) P turns pts z : length (Z0 (INJ s)) = 6%nat ->
  phase_space w ords custom np nt s = (Ok (P, turns, pts, z), s') ->
  forall Z d p (q : nat -> R), bunch_of w custom np nt s Z P turns s' -> slips s d ->
  (forall c t, (c < 6)%nat -> w_track w (RING s) Z turns ords c p 0%nat t = Some (if (c =? 5)%nat then q c + d * INR t else q c)) ->
  forall c t, (c < 6)%nat -> pts c p t = Some (shown_as q c).
Proof.
  intros Hz0 H Z d p q HB Hd Hq c t Hc. destruct (C88_points _ _ _ _ _ _ _ _ _ _ _ Hz0 H) as (Z'&d'&HB'&Hd'&_&_&Hpts&_).
  assert (Z' = Z) as ->. { destruct HB as [_ HB], HB' as [_ HB']. destruct custom as [B|]; [naive_solver congruence|]. destruct HB as [_ HB], HB' as [_ HB']. rewrite HB in HB'. by injection HB' as ->. }
  assert (d' = d) as ->.
  { destruct Hd as (cav&r&E&Hd), Hd' as (cav'&r'&E'&Hd'). rewrite E in E'. injection E' as <- <-. destruct Hd as [(K&h&f&Hh&Hf&Hn&->)|(K1&K2&->)], Hd' as [(K'&h'&f'&Hh'&Hf'&Hn'&->)|(K1'&K2'&->)]; congruence. }
  rewrite (Hpts c p t (fun c => if (c =? 5)%nat then q c + d * INR t else q c) Hc); [|intros; by apply Hq]. f_equal. do 6 (destruct c as [|c]; [cbn; ring|]). lia.
Qed.
(** Calls that are refused: a bunch together with a number of particles, a bunch without six rows; and there is no figure unless a cavity is
    registered. *)
Theorem C88_refused (w : world R) ords B n nt (s : sc R) :
  phase_space w ords (Some B) (Some n) nt s = (Err ValueError, s) /\
  (length B <> 6%nat -> phase_space w ords (Some B) None nt s = (Err ValueError, s)) /\
  (length B = 6%nat -> oRF (ORD s) = [] -> phase_space w ords (Some B) None nt s = (Err IndexError, s)) /\
  (forall custom np r s', oRF (ORD s) = [] -> phase_space w ords custom np nt s <> (Ok r, s')).
Proof.
  split_and!.
  - done.
  - intros H. unfold phase_space, check_bunch, bind, get. apply Nat.eqb_neq in H. rewrite H. done.
  - intros H Hr. unfold phase_space, check_bunch, bind, get, ret, lift, slippage. rewrite H, Hr. done.
  - intros custom np r s' Hr H. unfold phase_space in H. apply bind_ok in H as (s0&s1&H0&H). apply get_ok in H0 as [-> ->].
    apply bind_ok in H as ([[Z P'] turns']&s1&Hb&H). apply bind_ok in H as (slip&s2&Hs&H). apply lift_ok in Hs as [Hs ->]. unfold slippage in Hs. rewrite Hr in Hs. done.
Qed.
Print Assumptions C88_points.
Print Assumptions C88_synchronous.
Print Assumptions C88_refused.

(** * Case: a particle that keeps step, and one that is lost in the second turn *)
#[local] Instance TrigQ21 : Trig Q := {| ncos := fun x => x; nsin := fun x => x; nsqrt := fun x => x; npi := 3%Q |}.
Definition turning_world : world Q := MkWorld
  (fun _ Z _ _ c p _ t => match p with
     | 0%nat => Some (if (c =? 5)%nat then Qred (1 + 2 * inject_Z (Z.of_nat t)) else inject_Z (Z.of_nat c))
     | _ => if (c =? 0)%nat && (1 <=? t)%nat then None else Some 1%Q end)
  (fun _ _ _ _ => None) (fun _ => ([], [])) (fun Z => Z).
Definition turning_machine : sc Q :=
  let s0 := init_sc [mk [("Length", VNum (inject_Z 299792456)); ("PassMethod", VStr "RFCavityPass"); ("HarmNumber", VNum 3%Q); ("Frequency", VNum 3%Q)]] [] in
  set_ORD (set_oRF [0%nat] (ORD s0)) s0.
Example C88_case :
  (match phase_space turning_world [0%nat] (Some (replicate 6 [0%Q; 0%Q])) None (Some 3%nat) turning_machine with
   | (Ok (P, turns, pts, z), _) => Some (P, turns, map (fun t => map (fun c => pts c 0%nat t) [1%nat; 4%nat; 5%nat]) [0%nat; 2%nat], map (fun t => pts 4%nat 1%nat t) [0%nat; 1%nat])
   | _ => None end) =
  Some (2%nat, 3%nat, [[Some (inject_Z 1000000); Some 1%Q; Some (inject_Z 400)]; [Some (inject_Z 1000000); Some 1%Q; Some (inject_Z 400)]], [Some 1%Q; None]).
Proof. vm_compute. done. Qed.
