(** C139 and C141: turns of the coils of MASTU, saving of the predefined machines. *)
From Coq Require Import String Ascii List Arith ZArith QArith Bool Reals Lra Lia.
From Verif Require Import Py Num Numpy Polygons Quadrature Coils GradShafranov Machine MachineSpec MachineProofs Measurements Sensors SensorsProofs Serial SerialSpec SerialProofs Machines MachinesSpec MachinesProofs PropMachine PropSerial PropMachines PropMachinesMade.
Import ListNotations.
Local Open Scope R_scope.
Local Open Scope string_scope.
Local Open Scope list_scope.

(** ** C139 — turns *)
(** Amp-turns of an entry with unit current, and of its members without regard to the sign *)
Definition unit_turns (m : mcoil R) : R := amp_turns (mcoil_filaments (mc_set_current m 1)).
Lemma amp_app l k : amp_turns (l ++ k) = amp_turns l + amp_turns k.
Proof. unfold amp_turns. rewrite map_app, lsum_app. reflexivity. Qed.
Lemma loop_turns R0 Z0 t : amp_turns (coil_filaments (loop R0 Z0 t)) = IZR t.
Proof. unfold amp_turns. cbn [coil_filaments loop Coil c_kind c_turns map snd]. rewrite lsum_cons, lsum_nil. ring. Qed.
Lemma strands_turns Rf Zf c : strands Rf Zf = Ok c -> List.length Zf = List.length Rf -> amp_turns (coil_filaments c) = 1.
Proof.
  intros E Hl. assert (Hn : Rf <> []) by (intros ->; discriminate). apply strands_inv in E. destruct E as (Et & s & ctr & Ek). unfold coil_filaments, amp_turns. rewrite Ek, Et, map_map. cbn [snd].
  rewrite lsum_const, combine_length, Hl, Nat.min_id. field. apply not_0_INR. destruct Rf; [congruence|discriminate].
Qed.
Lemma filaments_current (c : coil R) I : coil_filaments (set_current c I) = coil_filaments c.
Proof. reflexivity. Qed.
Lemma filaments_control (c : coil R) b : coil_filaments (set_control c b) = coil_filaments c.
Proof. reflexivity. Qed.
Lemma series_turns l1 c l2 d s : unit_turns (series l1 c l2 d s) = amp_turns (coil_filaments c) + s * amp_turns (coil_filaments d).
Proof.
  unfold unit_turns, series, Circuit, circuit_set_control, circuit_set_current. cbn [mc_set_current mcoil_filaments circuit_set_current ci_coils ci_current map flat_map].
  rewrite !amp_app, !amp_scale. unfold m_mult, m_coil, set_m_coil. cbn [fst snd]. rewrite !filaments_current, !filaments_control, !filaments_current.
  unfold amp_turns at 3. cbn [map]. rewrite lsum_nil. nR. unfold m_mult. cbn [fst snd]. ring.
Qed.
Lemma solenoid_turns s : unit_turns (MSolenoid s) = INR (s_Ns s).
Proof. unfold unit_turns. cbn [mc_set_current]. destruct C03_amp_turns as (_ & _ & _ & _ & E). rewrite E. cbn. ring. Qed.
Ltac row := cbn [fst snd]; rewrite ?solenoid_turns, ?series_turns, ?loop_turns; cbn [s_Ns].
Theorem C139_MASTU_simple : map (fun lm => (fst lm, unit_turns (snd lm))) (tk_coils MASTU_simple) =
  [("Solenoid", 324); ("Pc", 142); ("Px", 88); ("D1", 70); ("D2", 46); ("D3", 46); ("Dp", 46); ("D5", 54); ("D6", 46); ("D7", 46);
   ("P4", 46); ("P5", 46); ("P61", 0); ("P62", 0)].
Proof.
  unfold MASTU_simple. cbn [tk_coils map fst snd]. repeat (apply f_equal2 with (f := cons); [apply f_equal; row; rewrite ?INR_IZR_INZ; nR; cbn; try lra|]). reflexivity.
Qed.
Print Assumptions C139_MASTU_simple.
Theorem C139_MASTU : forall tk, MASTU = Ok tk -> map (fun lm => (fst lm, unit_turns (snd lm))) (tk_coils tk) =
  [("Solenoid", 324); ("Pc", 1); ("Px", 2); ("D1", 2); ("D2", 2); ("D3", 2); ("Dp", 2); ("D5", 2); ("D6", 2); ("D7", 2);
   ("P4", 2); ("P5", 2); ("P6", 0)].
Proof.
  intros tk E. unfold MASTU in E. opened E. cbn [tk_coils map fst snd].
  repeat match goal with E : strands _ _ = Ok ?c |- _ => apply strands_turns in E; [|reflexivity] end.
  repeat (apply f_equal2 with (f := cons); [apply f_equal; row; rewrite ?INR_IZR_INZ|]); [..|reflexivity].
  - cbn. lra.
  - unfold unit_turns. cbn [mc_set_current mcoil_filaments]. rewrite amp_scale, filaments_current, Ec. cbn [c_current set_current]. ring.
  - nR. lra.
  - nR. lra.
  - nR. lra.
  - nR. lra.
  - nR. lra.
  - nR. lra.
  - nR. lra.
  - nR. lra.
  - nR. lra.
  - nR. lra.
  - nR. lra.
Qed.
Print Assumptions C139_MASTU.
Example C139_MASTU_example : exists tk, MASTU (T := R) = Ok tk /\ List.length (tk_coils tk) = 13%nat.
Proof. destruct MASTU_made as (tk & E). exists tk. split; [exact E|]. apply C139_MASTU in E. apply (f_equal (@List.length _)) in E. rewrite map_length in E. exact E. Qed.
(** FALSE: "the two descriptions of MAST-U have the same number of turns in coils of the same name". *)
Theorem C139_turns_refuted : exists tk label m m', MASTU = Ok tk /\ In (label, m) (tk_coils MASTU_simple) /\ In (label, m') (tk_coils tk) /\
  unit_turns m = 70 /\ unit_turns m' = 2.
Proof.
  destruct MASTU_made as (tk & E). exists tk, "D1".
  assert (E1 := C139_MASTU_simple). assert (E2 := C139_MASTU tk E).
  assert (I1 : In ("D1", 70) (map (fun lm => (fst lm, unit_turns (snd lm))) (tk_coils MASTU_simple))) by (rewrite E1; cbn; tauto).
  assert (I2 : In ("D1", 2) (map (fun lm => (fst lm, unit_turns (snd lm))) (tk_coils tk))) by (rewrite E2; cbn; tauto).
  apply in_map_iff in I1, I2. destruct I1 as ([l1 m1] & K1 & J1), I2 as ([l2 m2] & K2 & J2). cbn [fst snd] in *.
  exists m1, m2. assert (A1 := f_equal fst K1). assert (B1 := f_equal snd K1). assert (A2 := f_equal fst K2). assert (B2 := f_equal snd K2). cbn [fst snd] in *.
  subst. auto.
Qed.
Print Assumptions C139_turns_refuted.

(** ** C141 — saving *)
(** MASTU cannot be saved: its circuits contain filament coils. *)
Theorem C141_MASTU : forall tk (I : string -> R), MASTU = Ok tk -> is_ok (write_coils (powered I (tk_coils tk))) = false.
Proof.
  intros tk I E. unfold MASTU in E. opened E. cbn [tk_coils].
  apply (C67_unsavable _ "Pc" (MCoil (set_current c (I "Pc")))); [right; left; reflexivity|]. left.
  apply strands_inv in Ec. destruct Ec as (_ & s & ctr & Ek). unfold awkward. cbn [set_current c_kind]. rewrite Ek. exact Logic.I.
Qed.
Print Assumptions C141_MASTU.
Theorem C141_MASTU_refuted : exists tk, MASTU (T := R) = Ok tk /\ is_ok (write_coils (tk_coils tk)) = false.
Proof.
  destruct MASTU_made as (tk & E). exists tk. split; [exact E|]. unfold MASTU in E. opened E. cbn [tk_coils].
  apply (C67_unsavable _ "Pc" (MCoil c)); [right; left; reflexivity|]. left.
  apply strands_inv in Ec. destruct Ec as (_ & s & ctr & Ek). unfold awkward. rewrite Ek. exact Logic.I.
Qed.
Print Assumptions C141_MASTU_refuted.
(** All coils of the other machines (TCV apart, see DESIGN.md) can be saved with any currents: each comes back with
    the same attributes (C66, C68). *)
Lemma series_savable fuel I R1 Z1 t1 R2 Z2 t2 l1 l2 s : savable fuel (mc_set_current (series l1 (loop R1 Z1 t1) l2 (loop R2 Z2 t2) s) I).
Proof.
  unfold series. cbn [mc_set_current].
  change (savable fuel (MCircuit (fold_left (circuit_step (fun _ _ _ _ _ => 0)) [CSetCurrent I] (Circuit [(l1, loop R1 Z1 t1, n1); (l2, loop R2 Z2 t2, s)] n0 true)))).
  apply C66_circuit_reached; [repeat constructor|]. unfold m_mult. cbn. nR. lra.
Qed.
Lemma block_savable fuel shape c I : block fuel shape = Ok c -> (List.length shape <= 10)%nat -> savable fuel (mc_set_current (MCoil c) I).
Proof.
  intros E Hl. assert (K := C66_shaped_reached fuel shape 0 1 true 6 c I (c_control c) E Hl). cbn [mc_set_current].
  destruct c. exact K.
Qed.
Definition saved_machine fuel (tk : tokamak R) : Prop :=
  tk = EmptyTokamak \/ TestTokamak fuel = Ok tk \/ TestTokamakLimited fuel = Ok tk \/ DIIID fuel = Ok tk \/ tk = MAST \/ tk = MAST_sym \/ tk = MASTU_simple.
Ltac savables := repeat (apply Forall_cons; [cbn [fst snd]; split;
  [first [apply series_savable|exact Logic.I|match goal with E : block _ _ = Ok ?c |- _ => apply (block_savable _ _ _ _ E); cbn [List.length]; lia end]
  |split; [discriminate|split; [discriminate|cbn; intuition discriminate]]]|]); apply Forall_nil.
Theorem C141_savable : forall fuel tk (I : string -> R), saved_machine fuel tk ->
  Forall (fun lm => savable fuel (snd lm) /\ plain (fst lm)) (powered I (tk_coils tk)) /\ NoDup (map fst (powered I (tk_coils tk))) /\
  exists g, write_coils (powered I (tk_coils tk)) = Ok g.
Proof.
  intros fuel tk I H.
  assert (HS : Forall (fun lm => savable fuel (snd lm) /\ plain (fst lm)) (powered I (tk_coils tk))).
  { destruct H as [->|[E|[E|[E|[->|[->| ->]]]]]].
    - apply Forall_nil.
    - unfold TestTokamak in E. opened E. cbn [tk_coils powered map]. savables.
    - unfold TestTokamakLimited in E. opened E. cbn [tk_coils powered map]. savables.
    - unfold DIIID in E. opened E. cbn [tk_coils powered map]. savables.
    - unfold MAST. cbn [tk_coils powered map]. savables.
    - unfold MAST_sym. cbn [tk_coils powered map]. savables.
    - unfold MASTU_simple. cbn [tk_coils powered map]. savables. }
  assert (HN : NoDup (map fst (powered I (tk_coils tk)))).
  { unfold powered. rewrite map_map. cbn [fst]. apply C137_labels.
    destruct H as [->|[E|[E|[E|[->|[->| ->]]]]]]; [apply pre_Empty|apply (pre_Test fuel), E|apply (pre_TestLimited fuel), E|apply (pre_DIIID fuel), E|apply pre_MAST|apply pre_MAST_sym|apply pre_MASTU_simple]. }
  split; [exact HS|]. split; [exact HN|]. eexists. exact (write_coils_ok int_R fuel int_R_ok _ HS HN).
Qed.
Print Assumptions C141_savable.
Example C141_savable_example : saved_machine 10 MASTU_simple /\ List.length (tk_coils (T := R) MASTU_simple) = 14%nat.
Proof. split; [unfold saved_machine; tauto|reflexivity]. Qed.
(** FALSE: "a loaded machine has its coils in the order of the saved one": MAST begins with P2U and comes back
    beginning with P1, so that a list of currents means something else. *)
Theorem C141_order_refuted : exists M' g, write_coils (tk_coils MAST) = Ok g /\ read_coils int_R 10 g = Ok M' /\ map fst M' <> map fst (tk_coils MAST).
Proof.
  destruct (C141_savable 10 MAST (fun _ => 0) ltac:(unfold saved_machine; tauto)) as (HS & HN & _).
  assert (E : powered (fun _ => 0) (tk_coils MAST) = tk_coils MAST) by reflexivity. rewrite E in *.
  destruct (C69_alphabetical int_R 10 (tk_coils MAST) int_R_ok HS HN) as (g & M' & Ew & Er & Ha & _).
  exists M', g. split; [exact Ew|]. split; [exact Er|]. intros N. rewrite N in Ha. cbn [MAST tk_coils map fst alphabetical] in Ha. destruct Ha as (Ha & _). discriminate.
Qed.
Print Assumptions C141_order_refuted.
