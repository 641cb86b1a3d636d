(** C213, C214: how the current density of the constrained profiles depends on what is asked for. *)
From Coq Require Import List Arith ZArith Bool Reals Lra Lia.
From Coquelicot Require Import Coquelicot.
From Verif Require Import Py Num Numpy Romb RombProofs RombExact Jtor JtorSpec JtorProofs PropJtor.
Import ListNotations.
Local Open Scope R_scope.

(** The profile [p] with another target, current and vacuum field *)
Definition asking (p : cprofile (T:=R)) (t I f : R) : cprofile (T:=R) := mkcprofile t I f (alpha_m p) (alpha_n p) (Raxis p).
(** The part of the current density that carries the current, and the part that carries the pressure.  [A] integrates to 1,
    [B] to 0, and the current density is the sum for every target [t] and current [I]. *)
Definition superposed (e : env (T:=R)) (run : cprofile (T:=R) -> result ((nat -> nat -> R) * cstate (T:=R))) (p : cprofile (T:=R)) : Prop :=
  exists A B, grid_integral e A 1 /\ grid_integral e B 0 /\
    forall t I f J s, run (asking p t I f) = Ok (J, s) -> L s <> 0 -> forall i j, J i j = I * A i j + t * B i j.

Lemma cfinish_superposed (e : env (T:=R)) p pb pa js lb1 IR I_R :
  grid_integral e (fun i j => js i j * gR e i j / Raxis p) IR -> grid_integral e (fun i j => js i j * Raxis p / gR e i j) I_R -> I_R <> 0 ->
  let A := fun i j => / I_R * (js i j * Raxis p / gR e i j) in
  let B := fun i j => lb1 * (js i j * gR e i j / Raxis p) + (- (lb1 * IR / I_R)) * (js i j * Raxis p / gR e i j) in
  grid_integral e A 1 /\ grid_integral e B 0 /\
  forall t I f J s, cfinish e (asking p t I f) pb pa js (t * lb1) = Ok (J, s) -> L s <> 0 -> forall i j, J i j = I * A i j + t * B i j.
Proof.
  intros H1 H2 Hn A B. split; [|split].
  - replace 1 with (/ I_R * I_R) by (field; exact Hn). apply grid_scal, H2.
  - replace 0 with (lb1 * IR + (- (lb1 * IR / I_R)) * I_R) by (field; exact Hn). apply grid_lin; assumption.
  - intros t I f J s E HL i j. destruct (cfinish_inv _ _ _ _ _ _ _ _ E) as (IR' & I_R' & G1 & G2 & EL & EB & _ & _ & EJ). cbn [asking Raxis Ip] in *.
    assert (IR' = IR) by (exact (grid_fun e _ _ _ G1 H1)). assert (I_R' = I_R) by (exact (grid_fun e _ _ _ G2 H2)). subst IR' I_R'.
    rewrite EJ. transitivity ((t * lb1) * (js i j * gR e i j / Raxis p) + (L s - t * lb1) * (js i j * Raxis p / gR e i j)).
    + rewrite EB. set (x := js i j * gR e i j / Raxis p). transitivity (L s * (t * lb1 / L s) * x + L s * (1 - t * lb1 / L s) * (js i j * Raxis p / gR e i j)); [unfold x, Rdiv; ring|].
      replace (L s * (t * lb1 / L s)) with (t * lb1) by (field; exact HL). replace (L s * (1 - t * lb1 / L s)) with (L s - t * lb1) by (field; exact HL). reflexivity.
    + rewrite EL. unfold A, B. set (u := js i j * gR e i j / Raxis p). set (w := js i j * Raxis p / gR e i j). field. exact Hn.
Qed.
(** The core of the flux has current: the integral of weight * Raxis / R is not 0 (C31_shape_integral_positive gives conditions). *)
Definition has_current (pow : R -> R -> R) (e : env (T:=R)) (p : cprofile (T:=R)) (psi : nat -> nat -> R) : Prop :=
  exists pb pa m, core_of e psi pb pa m /\ forall v, grid_integral e (fun i j => weight pow p pa pb m psi i j * Raxis p / gR e i j) v -> v <> 0.
Lemma to_weight pow (e : env (T:=R)) p psi pb pa m v : grid_integral e (fun i j => jtorshape pow p (psi_norm_of pb pa psi) m i j * Raxis p / gR e i j) v ->
  grid_integral e (fun i j => weight pow p pa pb m psi i j * Raxis p / gR e i j) v.
Proof. intros H. refine (grid_ext e _ _ _ _ H). intros i j. rewrite jtorshape_at. reflexivity. Qed.

(** ** C213 *)
Theorem C213_paxis : forall pow quad (e : env (T:=R)) p psi arg, is_ok (paxis_Jtor pow quad e p psi arg) = true -> has_current pow e p psi ->
  superposed e (fun p => paxis_Jtor pow quad e p psi arg) p.
Proof.
  intros pow quad e p psi arg Hok (pb & pa & m & Hc & Hn). destruct (paxis_Jtor pow quad e p psi arg) as [[J0 s0]|] eqn:E0; [|discriminate].
  destruct (paxis_inv _ _ _ _ _ _ _ _ E0) as (pb0 & pa0 & m0 & Hc0 & Hf0). destruct (core_fun _ _ _ _ _ _ _ _ Hc0 Hc) as (-> & -> & ->).
  destruct (cfinish_inv _ _ _ _ _ _ _ _ Hf0) as (IR & I_R & G1 & G2 & _).
  destruct (cfinish_superposed e p pb pa _ (- Raxis p / (quad (shape pow p) 0 1 * (pb - pa))) IR I_R G1 G2 (Hn _ (to_weight _ _ _ _ _ _ _ _ G2))) as (HA & HB & HJ).
  eexists. eexists. split; [exact HA|]. split; [exact HB|]. intros t I f J s E HL. apply (HJ t I f J s); [|exact HL].
  destruct (paxis_inv _ _ _ _ _ _ _ _ E) as (pb1 & pa1 & m1 & Hc1 & Hf1). destruct (core_fun _ _ _ _ _ _ _ _ Hc1 Hc) as (-> & -> & ->).
  change (jtorshape pow (asking p t I f)) with (jtorshape pow p) in Hf1. change (shape pow (asking p t I f)) with (shape pow p) in Hf1. cbn [target Raxis asking] in Hf1.
  replace (t * (- Raxis p / (quad (shape pow p) 0 1 * (pb - pa)))) with (- t * Raxis p / (quad (shape pow p) 0 1 * (pb - pa))) by (unfold Rdiv; ring). exact Hf1.
Qed.
Print Assumptions C213_paxis.
Theorem C213_betap : forall pow quad mu0 (e : env (T:=R)) p psi arg, is_ok (betap_Jtor pow quad mu0 e p psi arg) = true -> has_current pow e p psi ->
  superposed e (fun p => betap_Jtor pow quad mu0 e p psi arg) p.
Proof.
  intros pow quad mu0 e p psi arg Hok (pb & pa & m & Hc & Hn). destruct (betap_Jtor pow quad mu0 e p psi arg) as [[J0 s0]|] eqn:E0; [|discriminate].
  destruct (betap_inv _ _ _ _ _ _ _ _ _ E0) as (pb0 & pa0 & m0 & pint & bint & Hc0 & Hp0 & Hb0 & Hf0). destruct (core_fun _ _ _ _ _ _ _ _ Hc0 Hc) as (-> & -> & ->).
  destruct (cfinish_inv _ _ _ _ _ _ _ _ Hf0) as (IR & I_R & G1 & G2 & _).
  destruct (cfinish_superposed e p pb pa _ (bint / pint * - Raxis p / (2 * mu0)) IR I_R G1 G2 (Hn _ (to_weight _ _ _ _ _ _ _ _ G2))) as (HA & HB & HJ).
  eexists. eexists. split; [exact HA|]. split; [exact HB|]. intros t I f J s E HL. apply (HJ t I f J s); [|exact HL].
  destruct (betap_inv _ _ _ _ _ _ _ _ _ E) as (pb1 & pa1 & m1 & pint1 & bint1 & Hc1 & Hp1 & Hb1 & Hf1). destruct (core_fun _ _ _ _ _ _ _ _ Hc1 Hc) as (-> & -> & ->).
  change (jtorshape pow (asking p t I f)) with (jtorshape pow p) in Hf1. cbn [target Raxis asking] in Hf1.
  assert (pint1 = pint) by (exact (grid_fun e _ _ _ Hp1 Hp0)). assert (bint1 = bint) by (exact (grid_fun e _ _ _ Hb1 Hb0)). subst pint1 bint1.
  replace (t * (bint / pint * - Raxis p / (2 * mu0))) with (bint / pint * (- t * Raxis p) / (2 * mu0)) by (unfold Rdiv; ring). exact Hf1.
Qed.
Print Assumptions C213_betap.
(** With the flux held, twice the target and twice the current give twice the current density; and only the pressure part changes with the target. *)
Theorem C213_homogeneous : forall pow quad (e : env (T:=R)) p psi arg k J s J' s',
  has_current pow e p psi -> paxis_Jtor pow quad e p psi arg = Ok (J, s) -> L s <> 0 ->
  paxis_Jtor pow quad e (asking p (k * target p) (k * Ip p) (fvac_ p)) psi arg = Ok (J', s') -> L s' <> 0 -> forall i j, J' i j = k * J i j.
Proof.
  intros pow quad e p psi arg k J s J' s' Hc E HL E' HL' i j.
  destruct (C213_paxis pow quad e p psi arg ltac:(rewrite E; reflexivity) Hc) as (A & B & _ & _ & H).
  rewrite (H _ _ _ _ _ E' HL'). assert (E2 : paxis_Jtor pow quad e (asking p (target p) (Ip p) (fvac_ p)) psi arg = Ok (J, s)) by (destruct p; exact E).
  rewrite (H _ _ _ _ _ E2 HL). ring.
Qed.
Print Assumptions C213_homogeneous.
Example C213_example : superposed exEnv (fun p => paxis_Jtor rpow rquad exEnv p exPsi None) exProf.
Proof.
  apply C213_paxis.
  - destruct (exPaxis None) as (J & s & -> & _). reflexivity.
  - exists 1, 0, (Some (fun _ _ => 1)). split; [exact exCore|]. intros v Hv. apply Rgt_not_eq. refine (C31_shape_integral_positive _ _ _ _ _ _ _ _ _ _ _ _ _ _ _ Hv); cbn; try lra.
    + intros i _. assert (H := pos_INR i). lra.
    + intros; lra.
    + exists 1%nat, 1%nat. repeat split; try lia; try lra. unfold psinorm, exPsi. cbn. lra.
Qed.

(** ** C214 — the coefficient L can vanish *)
(** The example of [exEnv] with the flux 1 in the middle and 0 elsewhere, as a positive current makes it. *)
Definition upPsi : nat -> nat -> R := fun i j => if ((i =? 1) && (j =? 1))%nat then 1 else 0.
Definition upEnv : env (T:=R) :=
  mkenv 3 3 (fun i _ => 1 + INR i) (fun _ j => INR j)
    (fun _ => Ok ([(2, 1, 1)], [])) (fun _ _ _ _ => Ok (fun _ _ => 1)) (fun _ => Ok (Some 0))
    (fun _ _ => 1) (fun _ _ => 0).
Definition upProf : cprofile (T:=R) := mkcprofile (3 / 2) 8 (-2) 1 1 1.
(** The pressure on axis 3/2 and the current 8 can be had: the current density below has the form pprime R + ffprime / (mu0 R) and
    integrates to 8.  But L is 0 and LBeta0 is 3, so the code divides 3 by 0 and multiplies the result by 0. *)
Theorem C214_coefficient_refuted : exists (e : env (T:=R)) p psi J s lb,
  paxis_Jtor rpow rquad e p psi None = Ok (J, s) /\ 0 < target p /\ 0 < Ip p /\ 0 < alpha_m p /\ 0 < alpha_n p /\ 0 < Raxis p /\
  (forall i j, 0 < gR e i j) /\ psi_bndry s < psi_axis s /\
  L s = 0 /\ Beta0 s = lb / L s /\ lb = 3 /\
  grid_integral e (fun i j => (lb * gR e i j / Raxis p + (L s - lb) * Raxis p / gR e i j) * upPsi i j) (Ip p).
Proof.
  assert (W : forall i j, jtorshape rpow upProf (psi_norm_of 0 1 upPsi) (Some (fun _ _ => 1)) i j = if ((i =? 1) && (j =? 1))%nat then 1 else 0).
  { intros i j. rewrite jtorshape_at. unfold weight, psinorm, upPsi. cbn [alpha_m alpha_n upProf mask_at]. destruct ((i =? 1) && (j =? 1))%nat.
    - replace ((1 - 1) / (0 - 1)) with 0 by field. rewrite Rmax_left, Rmin_left, rpow_0l by lra. replace (1 - 0) with 1 by lra. rewrite rpow_1l. lra.
    - replace ((0 - 1) / (0 - 1)) with 1 by field. rewrite Rmax_left, Rmin_left, rpow_1l by lra. replace (1 - 1) with 0 by lra. rewrite rpow_0l; lra. }
  destruct (exFinish (- target upProf * Raxis upProf / (1 / 2 * (0 - 1))) 1 0 _ W) as (J & s & Hf & HL & HB).
  exists upEnv, upProf, upPsi, J, s, 3.
  assert (E3 : - target upProf * Raxis upProf / (1 / 2 * (0 - 1)) = 3) by (cbn [target Raxis upProf]; field). rewrite E3 in HL, HB.
  split.
  { unfold paxis_Jtor. cbn [updated_bndry upEnv bind find_core find_critical core_mask]. unfold rquad. nR. change (shape rpow upProf) with (shape rpow exProf). rewrite exShapeInt. exact Hf. }
  destruct (cfinish_inv _ _ _ _ _ _ _ _ Hf) as (_ & _ & _ & _ & _ & _ & Hb & Ha & _).
  cbn [target Ip alpha_m alpha_n Raxis upProf gR upEnv]. repeat (split; [lra|]). split; [intros i _; assert (X := pos_INR i); lra|]. split; [lra|]. split; [lra|]. split; [rewrite HB, HL; reflexivity|]. split; [reflexivity|].
  apply (grid_ext exEnv (fun i j => (if ((i =? 1) && (j =? 1))%nat then 1 else 0) * (3 * (1 + INR i) - 3 / (1 + INR i)))).
  - intros i j. unfold upPsi. rewrite HL. assert (X := pos_INR i). destruct ((i =? 1) && (j =? 1))%nat; field; lra.
  - apply exGrid. cbn. field.
Qed.
Print Assumptions C214_coefficient_refuted.
