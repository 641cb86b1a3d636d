(** Properties of the predefined machines. *)
From Coq Require Import String Ascii List Arith ZArith QArith Bool Reals Lra Lia.
From Verif Require Import Py Num Numpy Polygons Quadrature Coils Machine MachineSpec MachineProofs Sensors SensorsProofs Machines MachinesSpec MachinesProofs.
Import ListNotations.
Local Open Scope R_scope.
Local Open Scope string_scope.
Local Open Scope list_scope.

(** ** C138 — up-down symmetry *)
Ltac loops := apply loop_images; [assumption|first [exact (dec_opp _ _)|rewrite <- dec_opp; reflexivity]].
Ltac even := match goal with
  | |- _ = 0 \/ entry_parity _ _ (snd (_, MSolenoid _)) => right; apply solenoid_even; [assumption|rewrite <- dec_opp; reflexivity|lia]
  | |- _ = 0 \/ entry_parity _ _ (snd (_, series _ _ _ _ n1)) => right; apply series_even; loops
  | |- _ => left; assumption end.
Ltac odd := match goal with
  | |- _ = 0 \/ entry_parity _ _ (snd (_, series _ _ _ _ (nopp n1))) => right; apply series_odd; loops
  | |- _ => left; assumption end.

(** MAST_sym: with any currents in the circuits P1 to P5 flux and field are symmetric, with a current in P6
    only they are antisymmetric. *)
Theorem C138_MAST_sym : forall I : string -> R,
  (I "P6" = 0 -> symmetric (powered I (tk_coils MAST_sym))) /\
  (Forall (fun l => I l = 0) ["P1"; "P2"; "P3"; "P4"; "P5"] -> antisymmetric (powered I (tk_coils MAST_sym))).
Proof.
  intros I. split.
  - intros H6. apply symmetric_of. intros G HG f r z. rewrite (entries_parity G 1 I); [ring|]. unfold MAST_sym. cbn [tk_coils].
    repeat (apply Forall_cons; [cbn [fst]; even|]). apply Forall_nil.
  - intros H. apply antisymmetric_of. intros G HG f r z. rewrite (entries_parity G (-1) I); [ring|]. unfold MAST_sym. cbn [tk_coils].
    repeat match goal with H : Forall _ (_ :: _) |- _ => apply Forall_cons_iff in H; destruct H end.
    repeat (apply Forall_cons; [cbn [fst]; odd|]). apply Forall_nil.
Qed.
Print Assumptions C138_MAST_sym.
Example C138_MAST_sym_example : exists I : string -> R, I "P6" = 0 /\ I "P2" = 1000 /\ I "P1" = -50.
Proof. exists (fun l => if String.eqb l "P2" then 1000 else if String.eqb l "P1" then -50 else 0). repeat split. Qed.

(** MASTU_simple: symmetric without current in the circuits P61 and P62 for vertical control, antisymmetric
    with current in these only. *)
Theorem C138_MASTU_simple : forall I : string -> R,
  (I "P61" = 0 -> I "P62" = 0 -> symmetric (powered I (tk_coils MASTU_simple))) /\
  ((forall l, l <> "P61" -> l <> "P62" -> I l = 0) -> antisymmetric (powered I (tk_coils MASTU_simple))).
Proof.
  intros I. split.
  - intros H1 H2. apply symmetric_of. intros G HG f r z. rewrite (entries_parity G 1 I); [ring|]. unfold MASTU_simple. cbn [tk_coils].
    repeat (apply Forall_cons; [cbn [fst]; even|]). apply Forall_nil.
  - intros H. apply antisymmetric_of. intros G HG f r z. rewrite (entries_parity G (-1) I); [ring|]. unfold MASTU_simple. cbn [tk_coils].
    repeat (apply Forall_cons; [cbn [fst]; first [left; apply H; discriminate|odd]|]). apply Forall_nil.
Qed.
Print Assumptions C138_MASTU_simple.
Example C138_MASTU_simple_example : exists I : string -> R, I "P61" = 0 /\ I "P62" = 0 /\ I "Solenoid" = 1000.
Proof. exists (fun l => if String.eqb l "Solenoid" then 1000 else 0). repeat split. Qed.

(** MASTU: the same without current in P6 and in Pc. *)
Lemma bind_ok {A B} (x : result A) (k : A -> result B) b : bind x k = Ok b -> exists a, x = Ok a /\ k a = Ok b.
Proof. destruct x; cbn; [eauto|discriminate]. Qed.
Lemma ok_inj : forall {A} (a b : A), Ok a = Ok b -> a = b.
Proof. intros A a b E. injection E as E. exact E. Qed.

Ltac pair1 G HG := match goal with E1 : strands ?r ?z = Ok ?c, E2 : strands ?r (map _ ?z) = Ok ?d |- images _ ?c ?d => exact (proj1 (strands_images G HG r z c d E1 E2)) end.
Ltac pair2 G HG := match goal with E1 : strands ?r ?z = Ok ?c, E2 : strands ?r (map _ ?z) = Ok ?d |- images _ ?d ?c => exact (proj2 (strands_images G HG r z c d E1 E2)) end.
Theorem C138_MASTU : forall (tk : tokamak R) (I : string -> R), MASTU = Ok tk ->
  (I "Pc" = 0 -> I "P6" = 0 -> symmetric (powered I (tk_coils tk))) /\
  ((forall l, l <> "P6" -> I l = 0) -> antisymmetric (powered I (tk_coils tk))).
Proof.
  intros tk I E. unfold MASTU in E.
  repeat (let c := fresh "c" in let Ec := fresh "Ec" in apply bind_ok in E; destruct E as (c & Ec & E)).
  apply ok_inj in E. subst tk. cbn [tk_coils].
  unfold px_lower_z, d1_lower_z, d2_lower_z, d3_lower_z, dp_lower_z, d5_lower_z, d6_lower_z, d7_lower_z, p4_lower_z, p5_lower_z, p6_lower_z in *.
  split.
  - intros Hc H6. apply symmetric_of. intros G HG f r z. rewrite (entries_parity G 1 I); [ring|].
    repeat (apply Forall_cons; [cbn [fst]; match goal with
      | |- _ = 0 \/ entry_parity _ _ (snd (_, MSolenoid _)) => right; apply solenoid_even; [assumption|rewrite <- dec_opp; reflexivity|lia]
      | |- _ = 0 \/ entry_parity _ _ (snd (_, series _ _ _ _ n1)) => right; apply series_even; [pair1 G HG|pair2 G HG]
      | |- _ => left; assumption end|]). apply Forall_nil.
  - intros H. apply antisymmetric_of. intros G HG f r z. rewrite (entries_parity G (-1) I); [ring|].
    repeat (apply Forall_cons; [cbn [fst]; match goal with
      | |- _ = 0 \/ entry_parity _ _ (snd (_, series _ _ _ _ (nopp n1))) => right; apply series_odd; [pair1 G HG|pair2 G HG]
      | |- _ => left; apply H; discriminate end|]). apply Forall_nil.
Qed.
Print Assumptions C138_MASTU.
Lemma bind_made {A B} (x : result A) (k : A -> result B) : (exists a, x = Ok a) -> (forall a, exists b, k a = Ok b) -> exists b, bind x k = Ok b.
Proof. intros (a & ->) H. exact (H a). Qed.
Lemma MASTU_made : exists tk : tokamak R, MASTU = Ok tk.
Proof.
  unfold MASTU. repeat (apply bind_made; [apply strands_ok; discriminate|intro]). eexists. reflexivity.
Qed.
Example C138_MASTU_example : exists (tk : tokamak R) (I : string -> R), MASTU = Ok tk /\ I "Pc" = 0 /\ I "P6" = 0 /\ I "D1" = 1000.
Proof.
  destruct MASTU_made as (tk & E). exists tk, (fun l => if String.eqb l "D1" then 1000 else 0). repeat split. exact E.
Qed.

(** MAST: symmetric when the two coils of every pair carry the same current, antisymmetric when they
    carry opposite currents and the solenoid none. *)
Lemma loop_swap G (HG : mirror_kernel G) f R0 m e t r z :
  mc_ctrl G f (MCoil (loop R0 (dec m e) t)) r (- z) = parity f * mc_ctrl G f (MCoil (loop R0 (dec (- m) e) t)) r z.
Proof. cbn [mc_ctrl]. apply (loop_images G HG). apply dec_opp. Qed.
Ltac swaps G HG := repeat match goal with
  | |- context [mc_ctrl G ?f (MCoil (loop ?R0 (dec ?m ?e) ?t)) ?r (- ?z)] => rewrite (loop_swap G HG f R0 m e t r z) end; cbn [Z.opp].
Theorem C138_MAST : forall I : string -> R,
  (I "P2U" = I "P2L" -> I "P3U" = I "P3L" -> I "P4U" = I "P4L" -> I "P5U" = I "P5L" -> I "P6U" = I "P6L" ->
   symmetric (powered I (tk_coils MAST))) /\
  (I "P2U" = - I "P2L" -> I "P3U" = - I "P3L" -> I "P4U" = - I "P4L" -> I "P5U" = - I "P5L" -> I "P6U" = - I "P6L" -> I "P1" = 0 ->
   antisymmetric (powered I (tk_coils MAST))).
Proof.
  intros I. split.
  - intros H2 H3 H4 H5 H6. apply symmetric_of. intros G HG f r z. unfold MAST. cbn [tk_coils map fst snd].
    match goal with |- context [mc_ctrl G f (MSolenoid ?s) r (- z)] => assert (E : mc_ctrl G f (MSolenoid s) r (- z) = 1 * parity f * mc_ctrl G f (MSolenoid s) r z) end.
    { apply solenoid_even; [assumption|rewrite <- dec_opp; reflexivity|lia]. }
    rewrite E. clear E.
    swaps G HG. rewrite !lsum_cons, lsum_nil, H2, H3, H4, H5, H6. ring.
  - intros H2 H3 H4 H5 H6 H1. apply antisymmetric_of. intros G HG f r z. unfold MAST. cbn [tk_coils map fst snd].
    swaps G HG. rewrite !lsum_cons, lsum_nil, H1, H2, H3, H4, H5, H6. ring.
Qed.
Print Assumptions C138_MAST.
Example C138_MAST_example : exists I : string -> R, I "P2U" = I "P2L" /\ I "P3U" = I "P3L" /\ I "P4U" = I "P4L" /\ I "P5U" = I "P5L" /\ I "P6U" = I "P6L" /\ I "P1" = 5000.
Proof. exists (fun l => if String.eqb l "P1" then 5000 else 7). cbn. repeat split. Qed.

(** TCV: the coils E1 ... E8 and F1 ... F8 are pairs, the T coils lie on one side. *)
Theorem C138_TCV : forall I : string -> R,
  I "E1" = I "E8" -> I "E2" = I "E7" -> I "E3" = I "E6" -> I "E4" = I "E5" ->
  I "F1" = I "F8" -> I "F2" = I "F7" -> I "F3" = I "F6" -> I "F4" = I "F5" -> I "T1" = 0 -> I "T2" = 0 -> I "T3" = 0 ->
  symmetric (powered I (tk_coils TCV)).
Proof.
  intros I H1 H2 H3 H4 K1 K2 K3 K4 T1 T2 T3. apply symmetric_of. intros G HG f r z. unfold TCV. cbn [tk_coils map fst snd].
  rewrite H1, H2, H3, H4, K1, K2, K3, K4, T1, T2, T3.
  swaps G HG. rewrite !lsum_cons, lsum_nil.
  match goal with |- context [mc_ctrl G f (MCircuit ?x) r (- z)] => assert (E : mc_ctrl G f (MCircuit x) r (- z) = parity f * mc_ctrl G f (MCircuit x) r z) end.
  { rewrite !Circuit_ctrl. cbn [map]. unfold m_mult, m_coil. cbn [fst snd]. rewrite !lsum_cons, !lsum_nil.
    rewrite (winding_images G HG _ (dec (-93) 2) (dec 93 2) 100 ltac:(rewrite <- dec_opp; reflexivity) ltac:(lia) f r z).
    rewrite (loop_images G HG (dec 6215 4) (dec (-111) 2) (dec 111 2) 1 ltac:(rewrite <- dec_opp; reflexivity) f r z).
    rewrite (loop_images G HG (dec 6215 4) (dec 111 2) (dec (-111) 2) 1 ltac:(rewrite <- dec_opp; reflexivity) f r z).
    rewrite (loop_images G HG (dec 11765 4) (dec (-117) 2) (dec 117 2) 1 ltac:(rewrite <- dec_opp; reflexivity) f r z).
    rewrite (loop_images G HG (dec 11765 4) (dec 117 2) (dec (-117) 2) 1 ltac:(rewrite <- dec_opp; reflexivity) f r z).
    ring. }
  rewrite E. ring.
Qed.
Print Assumptions C138_TCV.
Example C138_TCV_example : exists I : string -> R, (I "E1" = I "E8" /\ I "E2" = I "E7" /\ I "E3" = I "E6" /\ I "E4" = I "E5") /\
  (I "F1" = I "F8" /\ I "F2" = I "F7" /\ I "F3" = I "F6" /\ I "F4" = I "F5") /\ (I "T1" = 0 /\ I "T2" = 0 /\ I "T3" = 0) /\ I "OH" = 5000 /\ I "E1" = 3.
Proof. exists (fun l => if String.eqb l "OH" then 5000 else if String.eqb (String.substring 0 1 l) "T" then 0 else 3). cbn. repeat split. Qed.
