(** C218: solve and picard.solve with the fourth-order solver, the default of the constructor. *)
From Coq Require Import String List Arith ZArith QArith Bool Reals Lra Lia Classical.
From Verif Require Import Py Num Numpy Romb RombProofs RombExact Multigrid MultigridProofs Gauss Coils Machine Critical CriticalSpec CriticalProofs Boundary BoundarySpec BoundaryProofs PropCritical Jtor JtorSpec JtorProofs PropJtor
  GradShafranov GradShafranovProofs Equilibrium EquilibriumSpec EquilibriumProofs EquilibriumProofs2 EquilibriumProofs3 GSSpec GS4Proofs FourthProofs EllipticSpec PropGreens PropBoundary PropEquilibrium FittingProofs PropSolveFlux PropSolveError PropEquilibrium2 GeqdskProofs Control ControlSpec ControlProofs PropControl PropControlMirror ControlEq Picard PicardProofs PropPicard PropPicardLimit PropGauge PropReturned PropTrueFlux MachineSpec MachineProofs Machines MachinesSpec MachinesProofs PropMachine PropMachines PropMachinesMade PropPicardMirror PropControlEq PropPicardControl PropStart.
Import ListNotations.
Local Open Scope R_scope.

(** ** What the statements mean *)
(** The linear solver is the direct one with the fourth-order matrix (the constructor's default), the grid is one on which that matrix is
    right (C22, C23), and scipy's factorisation solves its systems. *)
Definition fourth_order {P Ctl} lu (e : equilibrium R P Ctl) : Prop :=
  (6 <= e_nx e)%nat /\ (6 <= e_ny e)%nat /\ Rmin e < Rmax e /\ Zmin e < Zmax e /\
  exists A, GSsparse4thOrder (Rmin e) (Rmax e) (Zmin e) (Zmax e) (e_nx e) (e_ny e) = Ok A /\ slv e = SMatrix (MGDirect (e_nx e * e_ny e) A) /\ solves_systems lu (e_nx e * e_ny e) A.

(** ** Proofs *)
Lemma edge_cases nx ny x y : (x < nx)%nat -> (y < ny)%nat -> ~ GradShafranovProofs.interior nx ny x y -> on_edge nx ny x y.
Proof. unfold GradShafranovProofs.interior, on_edge. lia. Qed.
Lemma inside_cases nx ny x y : GradShafranovProofs.interior nx ny x y -> inside nx ny x y.
Proof. unfold GradShafranovProofs.interior, inside. lia. Qed.
Lemma same_fourth {P Ctl} lu (e e1 : equilibrium R P Ctl) : same_grid e e1 -> fourth_order lu e -> fourth_order lu e1.
Proof.
  intros (D & S) (H1 & H2 & HR & HZ & A & EA & ES & HA). injection D as N M A1 A2 A3 A4. unfold fourth_order. rewrite N, M, A1, A2, A3, A4, S. repeat (split; [assumption|]). exists A. repeat split; assumption.
Qed.
Section Solve.
  Context {P Ctl : Type}.
  Variables (G : field -> R -> R -> R -> R -> R) (mu : R) (lu : nat -> (nat -> nat -> R) -> (nat -> R) -> (nat -> R)).
  Variables (spline : nat -> nat -> (nat -> R) -> (nat -> R) -> (nat -> nat -> R) -> sfun R).
  Variable Jtor_call : P -> equilibrium R P Ctl -> (nat -> nat -> R) -> option R -> result ((nat -> nat -> R) * P * bstate R).
  Lemma solved4 (e e' : equilibrium R P Ctl) p Jo psi pb J A : fourth_order lu e -> GSsparse4thOrder (Rmin e) (Rmax e) (Zmin e) (Zmax e) (e_nx e) (e_ny e) = Ok A ->
    solve G sqrt mu lu spline Jtor_call e p Jo psi pb = Ok e' -> jtor e' = Some J ->
    exists p1, applyBoundary G sqrt lu e J = Ok p1 /\
    (forall x y, on_edge (e_nx e) (e_ny e) x y -> plasma_psi e' x y = p1 x y) /\
    (forall x y, inside (e_nx e) (e_ny e) x y -> mat_apply A (plasma_psi e') (e_nx e) (e_ny e) (x * e_ny e + y) = - mu * gridpt (Rmin e) (Rmax e) (e_nx e) x * J x y).
  Proof.
    intros (Hx & Hy & HR & HZ & A' & EA' & Es & HA) EA E EJ. rewrite EA in EA'. injection EA' as <-.
    destruct (C29_fourth_order P Ctl G mu lu spline Jtor_call e e' p Jo psi pb A Hx Hy HR HZ EA Es HA E) as (J' & p1 & EJ' & _ & Eb & He & Hi & _).
    rewrite EJ in EJ'. injection EJ' as <-. exists p1. split; [exact Eb|]. split; [exact He|exact Hi].
  Qed.
End Solve.

(** ** C218 *)
(** Grids nine points wide in R whose cells are tall and far from the axis: the matrix is regular, so every solver that solves regular systems does. *)
Theorem C218_regular : forall lu rmin rmax zmin zmax ny, exact_solver lu -> (6 <= ny)%nat -> rmin < rmax ->
  10 * ((rmax - rmin) / 8) <= (zmax - zmin) / INR (ny - 1) -> 60 * ((rmax - rmin) / 8) <= rmin ->
  exists A, GSsparse4thOrder rmin rmax zmin zmax 9 ny = Ok A /\ solves_systems lu (9 * ny) A.
Proof.
  intros lu rmin rmax zmin zmax ny Hlu Hny HR H1 H2. destruct (GS4_rows rmin rmax zmin zmax 9 ny ltac:(lia) Hny) as (A & EA & _). exists A. split; [exact EA|].
  intros b r Hr. apply Hlu; [|exact Hr]. apply (regular9 rmin rmax zmin zmax ny A Hny EA); [|exact H1|exact H2]. lra.
Qed.
Print Assumptions C218_regular.
Example C218_regular_example : exists A, GSsparse4thOrder 100 108 (-40) 40 9 9 = Ok A /\ solves_systems elimination 81 A.
Proof. apply (C218_regular elimination 100 108 (-40) 40 9 elimination_exact); try lia; try lra. cbn [Nat.sub INR]. lra. Qed.

(** The plasma flux is linear in the current density. *)
Theorem C218_linear : forall (P Ctl : Type) G mu lu spline
    (Jtor_call : P -> equilibrium R P Ctl -> (nat -> nat -> R) -> option R -> result ((nat -> nat -> R) * P * bstate R))
    (e1 e2 e e1' e2' e' : equilibrium R P Ctl) p1 p2 p o1 o2 o s1 s2 s t1 t2 t a b J1 J2 J,
  fourth_order lu e -> slv e1 = slv e -> slv e2 = slv e ->
  bnd e = BFixed \/ bnd e = BFree -> bnd e1 = bnd e -> bnd e2 = bnd e ->
  (e_nx e1, e_ny e1, Rmin e1, Rmax e1, Zmin e1, Zmax e1) = (e_nx e, e_ny e, Rmin e, Rmax e, Zmin e, Zmax e) ->
  (e_nx e2, e_ny e2, Rmin e2, Rmax e2, Zmin e2, Zmax e2) = (e_nx e, e_ny e, Rmin e, Rmax e, Zmin e, Zmax e) ->
  solve G sqrt mu lu spline Jtor_call e1 p1 o1 s1 t1 = Ok e1' -> jtor e1' = Some J1 ->
  solve G sqrt mu lu spline Jtor_call e2 p2 o2 s2 t2 = Ok e2' -> jtor e2' = Some J2 ->
  solve G sqrt mu lu spline Jtor_call e p o s t = Ok e' -> jtor e' = Some J ->
  (forall x y, (x < e_nx e)%nat -> (y < e_ny e)%nat -> J x y = a * J1 x y + b * J2 x y) ->
  forall x y, (x < e_nx e)%nat -> (y < e_ny e)%nat -> plasma_psi e' x y = a * plasma_psi e1' x y + b * plasma_psi e2' x y.
Proof.
  intros P Ctl G mu lu spline Jc e1 e2 e e1' e2' e' p1 p2 p o1 o2 o s1 s2 s t1 t2 t a b J1 J2 J HF S1 S2 Hb B1 B2 D1 D2 E1 EJ1 E2 EJ2 E EJ HJ.
  assert (HF1 : fourth_order lu e1) by (apply (same_fourth lu e); [split; assumption|exact HF]). assert (HF2 : fourth_order lu e2) by (apply (same_fourth lu e); [split; assumption|exact HF]).
  assert (HF0 := HF). destruct HF0 as (Hnx & Hny & HR & HZ & A & EA & Es & HA).
  assert (L := fun q1 q2 q => boundary_linear G lu e1 e2 e a b J1 J2 J q1 q2 q Hb B1 B2 D1 D2 ltac:(lia) ltac:(lia) HJ).
  injection D1 as N1 M1 R1 T1 Z1 W1. injection D2 as N2 M2 R2 T2 Z2 W2.
  destruct (solved4 G mu lu spline Jc e1 e1' p1 o1 s1 t1 J1 A HF1) with (2 := E1) (3 := EJ1) as (q1 & Q1 & He1 & Hi1); [rewrite N1, M1, R1, T1, Z1, W1; exact EA|].
  destruct (solved4 G mu lu spline Jc e2 e2' p2 o2 s2 t2 J2 A HF2) with (2 := E2) (3 := EJ2) as (q2 & Q2 & He2 & Hi2); [rewrite N2, M2, R2, T2, Z2, W2; exact EA|].
  destruct (solved4 G mu lu spline Jc e e' _ _ _ _ J A HF EA E EJ) as (q & Q & He & Hi).
  assert (HL := L q1 q2 q Q1 Q2 Q). rewrite N1, M1 in He1. rewrite N1, M1, R1, T1 in Hi1. rewrite N2, M2 in He2. rewrite N2, M2, R2, T2 in Hi2.
  apply (unique4 (Rmin e) (Rmax e) (Zmin e) (Zmax e) (e_nx e) (e_ny e) A Hnx Hny EA lu (plasma_psi e') (fun x y => a * plasma_psi e1' x y + b * plasma_psi e2' x y) HA).
  - intros x y Hxy. apply inside_cases in Hxy. rewrite mat_apply_lin, Hi, Hi1, Hi2 by exact Hxy. rewrite HJ by (unfold inside in Hxy; lia). ring.
  - intros x y Hx Hy Hxy. apply edge_cases in Hxy; [|assumption..]. rewrite He, He1, He2 by exact Hxy. apply HL, Hxy.
Qed.
Print Assumptions C218_linear.
(** Two given current densities on a 9 x 9 grid on which the matrix is regular, and twice one less three times the other. *)
Definition given (J : arr2 R) (e : equilibrium R (arr2 R) unit) (_ : arr2 R) (_ : option R) : result (arr2 R * arr2 R * bstate R) := Ok (J, J, mkb None (Some (Some 1)) None None None false None).
Definition nine (A : arr2 R) : equilibrium R (arr2 R) unit :=
  mkeq 9 9 100 108 (-40) 40 (mktok [] false []) BFixed 4 (SMatrix (MGDirect 81 A)) false (fun _ _ => 0) (fun _ _ => []) 0 None no_boundary None None.
Lemma nine_run : exists A, fourth_order elimination (nine A) /\
  forall J, exists e', solve (fun _ _ _ _ _ => 0) sqrt 1 elimination flat_spline given (nine A) J None (Some (fun _ _ => 0)) None = Ok e' /\ jtor e' = Some J.
Proof.
  destruct C218_regular_example as (A & EA & HA). exists A. split.
  { unfold fourth_order. cbn [Rmin Rmax Zmin Zmax e_nx e_ny slv nine]. split; [lia|]. split; [lia|]. split; [lra|]. split; [lra|]. exists A. split; [exact EA|]. split; [reflexivity|exact HA]. }
  intros J. assert (D9 : dyadic 9) by (exists 3%nat; reflexivity).
  destruct (flat_given_run (fun _ _ _ _ _ => 0) 1 elimination given (nine A) J (fun _ _ => 0) A (0, []) (mkb None (Some (Some 1)) None None None false None)) as (e' & E & _);
    try reflexivity; try exact D9; try (cbn; lia); try (cbn; lra).
  { intros e1 psi1. exists J. reflexivity. }
  exists e'. split; [exact E|].
  destruct (solve_inv _ _ _ _ _ _ _ _ _ _ _ _ E) as (e1 & J' & p1 & rhs & x & p' & I & dR & dZ & b & -> & (b1 & b2 & q' & -> & EJ) & _ & _ & _ & _ & _ & _ & _ & Ee).
  injection EJ as <- _ _. rewrite Ee. reflexivity.
Qed.
Example C218_linear_example : forall J1 J2, exists A e1 e2 e,
  let run J := solve (fun _ _ _ _ _ => 0) sqrt 1 elimination flat_spline given (nine A) J None (Some (fun _ _ => 0)) None in
  run J1 = Ok e1 /\ run J2 = Ok e2 /\ run (fun x y => 2 * J1 x y + -3 * J2 x y) = Ok e /\
  forall x y, (x < 9)%nat -> (y < 9)%nat -> plasma_psi e x y = 2 * plasma_psi e1 x y + -3 * plasma_psi e2 x y.
Proof.
  intros J1 J2. destruct nine_run as (A & HF & HJ). exists A.
  destruct (HJ J1) as (e1 & E1 & EJ1), (HJ J2) as (e2 & E2 & EJ2), (HJ (fun x y => 2 * J1 x y + -3 * J2 x y)) as (e & E & EJ). exists e1, e2, e. cbv zeta.
  split; [exact E1|]. split; [exact E2|]. split; [exact E|].
  exact (C218_linear _ _ _ _ _ _ _ _ _ _ _ _ _ _ _ _ _ _ _ _ _ _ _ _ _ 2 (-3) J1 J2 _ HF eq_refl eq_refl (or_introl eq_refl) eq_refl eq_refl eq_refl eq_refl E1 EJ1 E2 EJ2 E EJ (fun x y _ _ => eq_refl)).
Qed.

(** A symmetric current density gives a symmetric plasma flux. *)
Theorem C218_mirror : forall (P Ctl : Type) G mu lu spline ellipk ellipe
    (Jtor_call : P -> equilibrium R P Ctl -> (nat -> nat -> R) -> option R -> result ((nat -> nat -> R) * P * bstate R))
    (e e' : equilibrium R P Ctl) p Jo psi pb J,
  fourth_order lu e -> bnd e = BFixed \/ bnd e = BFree /\ G FPsi = Greens ellipk ellipe ->
  solve G sqrt mu lu spline Jtor_call e p Jo psi pb = Ok e' -> jtor e' = Some J -> mirror (e_nx e) (e_ny e) J -> mirror (e_nx e) (e_ny e) (plasma_psi e').
Proof.
  intros P Ctl G mu lu spline ek ee Jc e e' p Jo psi pb J HF Hb E EJ HJ.
  assert (HF0 := HF). destruct HF0 as (Hnx & Hny & HR & HZ & A & EA & Es & HA).
  destruct (solved4 G mu lu spline Jc e e' p Jo psi pb J A HF EA E EJ) as (p1 & Eb & He & Hi).
  unfold PropPicardMirror.mirror.
  apply (unique4 (Rmin e) (Rmax e) (Zmin e) (Zmax e) (e_nx e) (e_ny e) A Hnx Hny EA lu (fun x y => plasma_psi e' x (e_ny e - 1 - y)%nat) (plasma_psi e') HA).
  - intros x y Hxy. rewrite (row_mirror (Rmin e) (Rmax e) (Zmin e) (Zmax e) (e_nx e) (e_ny e) A Hnx Hny EA (plasma_psi e')) by exact Hxy. apply inside_cases in Hxy.
    assert (Hm : inside (e_nx e) (e_ny e) x (e_ny e - 1 - y)) by (unfold inside in *; lia). rewrite (Hi x y Hxy), (Hi _ _ Hm), HJ by (unfold inside in *; lia). reflexivity.
  - intros x y Hx Hy Hxy. apply edge_cases in Hxy; [|assumption..]. assert (Hm : on_edge (e_nx e) (e_ny e) x (e_ny e - 1 - y)) by (unfold on_edge in *; lia). rewrite (He x y Hxy), (He _ _ Hm).
    exact (boundary_mirror G lu ek ee e J p1 Hb ltac:(lia) ltac:(lia) HJ Eb x y Hxy).
Qed.
Print Assumptions C218_mirror.
(** Currents above and below the middle. *)
Example C218_mirror_example : exists A e',
  solve (fun _ _ _ _ _ => 0) sqrt 1 elimination flat_spline given (nine A) (fun i j => if (i =? 1)%nat && ((j =? 1)%nat || (j =? 7)%nat) then 1 else 0)%bool None (Some (fun _ _ => 0)) None = Ok e' /\
  mirror 9 9 (plasma_psi e').
Proof.
  destruct nine_run as (A & HF & HJ). exists A. destruct (HJ (fun i j => if (i =? 1)%nat && ((j =? 1)%nat || (j =? 7)%nat) then 1 else 0)%bool) as (e' & E & EJ). exists e'. split; [exact E|].
  refine (C218_mirror _ _ _ _ _ _ (fun _ => 0) (fun _ => 0) _ _ _ _ _ _ _ _ HF (or_introl eq_refl) E EJ _).
  intros x y Hx Hy. cbn [e_nx e_ny nine] in *. do 9 (destruct y as [|y]; [reflexivity|]). lia.
Qed.

(** The whole run of picard.solve. *)
Theorem C218_invariant : forall (P Ctl : Type) G mu lu spline ellipk ellipe
    (Jt : P -> equilibrium R P Ctl -> (nat -> nat -> R) -> option R -> result ((nat -> nat -> R) * P * bstate R)) c (K : equilibrium R P Ctl -> Prop) mx my o fuel s s' h,
  let e := fst s in
  fourth_order lu e -> bnd e = BFixed \/ bnd e = BFree /\ G FPsi = Greens ellipk ellipe ->
  mirror_profile Jt e -> (forall e1, K e1 -> mirror_coils e1) -> about_machine K -> keeps_control K e c -> mirror (e_nx e) (e_ny e) (plasma_psi e) -> K e ->
  picard mx my _ (eq_ops G sqrt mu lu spline Jt c) o fuel s = (s', Ok h) ->
  mirror (e_nx e) (e_ny e) (plasma_psi (fst s')) /\ K (fst s') /\
  (forall psi, total_psi (fst s') = Ok psi -> mirror (e_nx e) (e_ny e) psi) /\
  exists J, jtor (fst s') = Some J /\ mirror (e_nx e) (e_ny e) J.
Proof.
  intros P Ctl G mu lu spline ek ee Jt c K mx my o fuel s s' h e HF Hb HJ HK HK1 Hc Hp Hcf Ep.
  apply (mirror_run G mu lu spline Jt c e) with (K := K) (mx := mx) (my := my) (o := o) (fuel := fuel) (s := s) (h := h); try assumption; [|reflexivity].
  intros e1 e' q psi pb J Hg Hbn E EJ HJm. assert (D := proj1 Hg). injection D as N M _ _ _ _.
  assert (T := C218_mirror P Ctl G mu lu spline ek ee Jt e1 e' q None (Some psi) pb J (same_fourth lu _ _ Hg HF)). rewrite Hbn, N, M in T. exact (T Hb E EJ HJm).
Qed.
Print Assumptions C218_invariant.

(** With the control system of a symmetric machine and symmetric constraints. *)
Theorem C218_control : forall (P : Type) mu lu spline ellipk ellipe Jt inv slsqp c M0 pi sg mx my o fuel (s s' : equilibrium R P (constraints R) * P) h,
  let e := fst s in
  (forall n A N, inv n A = Ok N -> inverts n A N) ->
  (forall f x0 b cs x, slsqp f x0 b cs = Ok x -> length x = length x0) ->
  (forall f x0 x, slsqp f x0 (repeat (None, None) (length x0)) [] = Ok x -> f x <= f x0) ->
  fourth_order lu e -> bnd e = BFixed \/ bnd e = BFree -> mirror_spline spline -> mirror_profile Jt e ->
  gamma c <> 0 -> current_lims c = None -> max_total_current c = None -> mirrored_constraints c ->
  mirror_machine ellipk ellipe M0 pi sg e -> mirror (e_nx e) (e_ny e) (plasma_psi e) ->
  picard mx my _ (eq_ops (green_kernel ellipk ellipe) sqrt mu lu spline Jt (Some (constrain_eq (green_kernel ellipk ellipe) spline inv slsqp c))) o fuel s = (s', Ok h) ->
  mirror (e_nx e) (e_ny e) (plasma_psi (fst s')) /\
  (forall psi, total_psi (fst s') = Ok psi -> mirror (e_nx e) (e_ny e) psi) /\
  (exists J, jtor (fst s') = Some J /\ mirror (e_nx e) (e_ny e) J) /\
  mirror_field (fun f r z => fst (machine_field (green_kernel ellipk ellipe) f (coils (tok (fst s'))) r z)).
Proof.
  intros P mu lu spline ek ee Jt inv slsqp c M0 pi sg mx my o fuel s s' h e Hinv Hs Hw HF Hb HSp HJ Hg HL HT HC HM Hp Ep.
  assert (Hb' : bnd e = BFixed \/ bnd e = BFree /\ green_kernel ek ee FPsi = Greens ek ee) by (destruct Hb as [Hb|Hb]; [left; exact Hb|right; split; [exact Hb|reflexivity]]).
  destruct (C218_invariant P (constraints R) (green_kernel ek ee) mu lu spline ek ee Jt (Some (constrain_eq (green_kernel ek ee) spline inv slsqp c)) (mirror_machine ek ee M0 pi sg) mx my o fuel s s' h
    HF Hb' HJ (machine_coils ek ee M0 pi sg) (machine_about ek ee M0 pi sg) (control_machine ek ee M0 pi sg spline inv slsqp c (fst s) Hinv Hs Hw Hg HL HT HSp HC) Hp HM Ep) as (A1 & A2 & A3 & A4).
  split; [exact A1|]. split; [exact A3|]. split; [exact A4|]. destruct A2 as (_ & _ & _ & _ & _ & _ & HF'). intros f r z. rewrite !machine_field_eq. apply HF'.
Qed.
Print Assumptions C218_control.
(** MAST_sym with a pair of X-points on the regular grid. *)
Definition nine_coils G (M : machine R) (A : nat -> nat -> R) : equilibrium R unit (constraints R) :=
  mkeq 9 9 100 108 (-40) 40 (mktok M false []) BFixed 4 (SMatrix (MGDirect 81 A)) false (fun _ _ => 0)
    (fun i j => createPsiGreens G M (linspace 100 108 9 i) (linspace (-40) 40 9 j)) 0 None (mkb None (Some (Some 1)) None None None false None) None None.
Example C218_control_example : forall ek ee inv, inv_ok inv -> exists A at_ s' h,
  let M := powered (fun l => if String.eqb l "P2" then 1000 else 0) (tk_coils MAST_sym) in
  let e := nine_coils (green_kernel ek ee) M A in
  fourth_order elimination e /\ bnd e = BFixed /\ mirror_spline flat_spline /\ mirror_profile copy_profile e /\ mirrored_constraints exc2 /\ gamma exc2 <> 0 /\
  mirror_machine ek ee M (fun i => i) MAST_signs e /\ mirror 9 9 (plasma_psi e) /\
  picard 9 9 _ (eq_ops (green_kernel ek ee) sqrt 1 elimination flat_spline copy_profile (Some (constrain_eq (green_kernel ek ee) flat_spline inv (fun f x0 b cs => Ok x0) exc2))) (plain_options None 0 at_) 1 (e, tt) = (s', Ok h).
Proof.
  intros ek ee inv Hinv. destruct C218_regular_example as (A & EA & HA). exists A. set (I := fun l => if String.eqb l "P2" then 1000 else 0).
  assert (L0 : labels_distinct (powered I (tk_coils MAST_sym))) by (apply powered_labels, C137_labels; constructor).
  assert (SF : mirror_field (fun f => response_sum (green_kernel ek ee) f (powered I (tk_coils MAST_sym)))).
  { intros f r z. assert (S := proj1 (C138_MAST_sym I) eq_refl ek ee r z). cbv zeta in S. unfold coils_field in S. rewrite !machine_field_eq in S. cbn [fst] in S. destruct S as (S1 & S2 & S3).
    destruct f; cbn [parity]; [rewrite S1|rewrite S2|rewrite S3]; ring. }
  set (M := powered I (tk_coils MAST_sym)) in *. assert (CM : mirrored_controls (green_kernel ek ee) M (fun i => i) MAST_signs) by (apply MAST_controls, kernel_mirror). clearbody M.
  destruct (C14_unique_minimiser (green_kernel ek ee) (ControlEq.plasma_field flat_spline (nine_coils (green_kernel ek ee) M A)) inv (fun f x0 b cs => Ok x0) exc2 M Hinv) as (M' & x & E & _);
    [intros f x0; exists x0; split; [reflexivity|]; split; [reflexivity|lra]|cbn; lra|reflexivity|reflexivity|left; discriminate|].
  assert (E1 : exists e1, constrain_eq (green_kernel ek ee) flat_spline inv (fun f x0 b cs => Ok x0) exc2 (nine_coils (green_kernel ek ee) M A, tt) = ((e1, tt), Ok tt)).
  { unfold constrain_eq. change (coils (tok (nine_coils (green_kernel ek ee) M A))) with M. rewrite E. eexists. reflexivity. }
  destruct E1 as (e1 & E1). assert (D9 : dyadic 9) by (exists 3%nat; reflexivity).
  assert (Ep : exists at_ s' h, picard 9 9 _ (eq_ops (green_kernel ek ee) sqrt 1 elimination flat_spline copy_profile (Some (constrain_eq (green_kernel ek ee) flat_spline inv (fun f x0 b cs => Ok x0) exc2))) (plain_options None 0 at_) 1 (nine_coils (green_kernel ek ee) M A, tt) = (s', Ok h)).
  { destruct (constrain_eq_inv _ _ _ _ _ _ _ _ _ E1) as (_ & M2 & x2 & Ec & Ee). destruct (call_machine _ _ _ _ _ _ _ _ Ec) as (M1 & HM1 & EM).
    assert (Sh : machine_shape M2 = machine_shape M).
    { rewrite EM. transitivity (machine_shape M1).
      - apply (zip_frame (fun m dI => mc_set_current m (nadd (mc_current m) dI))); intros; [apply mc_set_current_shape|apply mc_set_current_control].
      - destruct HM1 as [->| ->]; [reflexivity|apply machine_sync_shape]. }
    assert (V := cached_direct (green_kernel ek ee) M M2 (linspace 100 108 9 0) (linspace (-40) 40 9 0) L0 Sh).
    destruct (flat_picard (green_kernel ek ee) 1 elimination copy_profile (constrain_eq (green_kernel ek ee) flat_spline inv (fun f x0 b cs => Ok x0) exc2) (nine_coils (green_kernel ek ee) M A, tt) e1 tt A (response_sum (green_kernel ek ee) FPsi M2 (linspace 100 108 9 0) (linspace (-40) 40 9 0), machine_sync M2) 1 E1) as (at_ & s' & h & Ep);
      try (rewrite Ee; first [exact V|reflexivity|exact D9|cbn; lia|cbn; lra]).
    { intros e2 psi. exists psi. reflexivity. }
    exists at_, s', h. rewrite Ee in Ep. exact Ep. }
  destruct Ep as (at_ & s' & h & Ep). exists at_, s', h. cbv zeta.
  split. { unfold fourth_order. cbn [Rmin Rmax Zmin Zmax e_nx e_ny slv nine_coils]. split; [lia|]. split; [lia|]. split; [lra|]. split; [lra|]. exists A. split; [exact EA|]. split; [reflexivity|exact HA]. }
  split; [reflexivity|]. split; [intros nx ny X Y p _ _ r z; unfold flat_spline; repeat split; ring|].
  split. { intros p e psi pb J p' b _ Hm EJ. injection EJ as <- _ _. exact Hm. }
  split; [apply C198_example|]. split; [cbn; lra|].
  split. { unfold mirror_machine. cbv zeta. cbn [Zmin Zmax e_ny tok coils pgreen nine_coils]. split; [lra|]. split; [lia|]. split; [exact L0|]. split; [reflexivity|]. split; [reflexivity|]. split; [exact CM|exact SF]. }
  split; [intros i j _ _; reflexivity|exact Ep].
Qed.

(** From a new equilibrium made with the default order. *)
Theorem C218_start : forall (P Ctl : Type) mu lu spline ellipk ellipe Jt t rmin rmax zmax nx ny b I chk (e : equilibrium R P Ctl) p mx my o fuel s' h,
  (6 <= nx)%nat -> (6 <= ny)%nat -> b = BFixed \/ b = BFree ->
  new_equilibrium (green_kernel ellipk ellipe) exp spline t rmin rmax (- zmax) zmax nx ny b None I 4 chk = Ok e ->
  (forall A, GSsparse4thOrder rmin rmax (- zmax) zmax nx ny = Ok A -> solves_systems lu (nx * ny) A) ->
  labels_distinct (coils t) -> symmetric (coils t) -> mirror_profile Jt e ->
  picard mx my _ (eq_ops (green_kernel ellipk ellipe) sqrt mu lu spline Jt None) o fuel (e, p) = (s', Ok h) ->
  (forall psi, total_psi (fst s') = Ok psi -> mirror nx ny psi) /\ exists J, jtor (fst s') = Some J /\ mirror nx ny J.
Proof.
  intros P Ctl mu lu spline ek ee Jt t rmin rmax zmax nx ny b I chk e p mx my o fuel s' h Hnx Hny Hb E Hlu HL Hsym HJ Ep.
  destruct (new_domain _ _ _ _ _ _ _ _ _ _ _ _ _ _ _ _ E) as (Hx4 & Hy4 & HR & HZ).
  destruct (new_inv _ _ _ _ _ _ _ _ _ _ _ _ _ _ _ _ E) as (Hx & Hy & E1 & E2 & E3 & E4 & E5 & E6 & Et & Eb & _ & _ & _ & _ & _ & _ & Epp & Epg & gen & A & Eg & EA & Es).
  cbn [generator_of Nat.eqb] in Eg. injection Eg as <-. rewrite <- E1, <- E2.
  destruct (C218_invariant P Ctl (green_kernel ek ee) mu lu spline ek ee Jt None mirror_coils mx my o fuel (e, p) s' h) as (_ & _ & A1 & A2); cbn [fst]; try assumption.
  - unfold fourth_order. rewrite E1, E2, E3, E4, E5, E6. repeat (split; [assumption|]). exists A. split; [exact EA|]. split; [exact Es|]. apply Hlu. exact EA.
  - destruct Hb as [Hb|Hb]; [left; congruence|right; split; [congruence|reflexivity]].
  - intros e1 H. exact H.
  - intros e1 e2 (D & _) T1 T2 (cf & HC & Hm). injection D as N M _ _ _ _. exists cf. split; [|rewrite N, M; exact Hm]. intros e3 q U1 U2. apply HC; congruence.
  - intros f s s1. discriminate.
  - apply C216_mirror. exists (green_kernel ek ee), spline, t, rmin, rmax, (- zmax), zmax, nx, ny, b, I, 4%nat, chk. exact E.
  - apply (C196_machine P Ctl ek ee e (coils t)); rewrite ?Et; try assumption; try reflexivity; [congruence|lia|].
    rewrite Epg. unfold grid_R, grid_Z, R_1D, Z_1D. rewrite E1, E2, E3, E4, E5, E6. reflexivity.
  - split; assumption.
Qed.
Print Assumptions C218_start.

(** MAST with its coils in series and a current in P2, the default order, a 9 x 9 grid on which the matrix is regular: the object is made, the
    run returns, and its current density is symmetric. *)
Lemma flat_new_fourth {P Ctl} G t rmin rmax zmin zmax nx ny b psi I A chk : labels_distinct (coils t) -> (4 <= nx)%nat -> (4 <= ny)%nat -> rmin < rmax -> zmin < zmax ->
  GSsparse4thOrder rmin rmax zmin zmax nx ny = Ok A ->
  exists e : equilibrium R P Ctl, new_equilibrium G exp flat_spline t rmin rmax zmin zmax nx ny b psi I 4 chk = Ok e.
Proof.
  intros HL Hx Hy HR HZ EA. unfold new_equilibrium. destruct (Nat.ltb_spec nx 2); [lia|]. destruct (Nat.ltb_spec ny 2); [lia|]. cbn [orb]. cbv zeta.
  match goal with |- context [update_plasma flat_spline ?e1 nx ny ?p] =>
    assert (Hu := flat_plasma_coils e1 p _ (cached_direct G (coils t) (coils t) (linspace rmin rmax nx 0) (linspace zmin zmax ny 0) HL eq_refl) Hx Hy HR HZ); cbn [e_nx e_ny] in Hu; rewrite Hu end.
  cbn [bind generator_of Nat.eqb]. unfold createVcycle. cbn [createVcycle_]. rewrite EA. cbn [bind]. eexists. reflexivity.
Qed.
Example C218_example : forall ek ee, exists (e : equilibrium R unit unit) at_ s' h,
  let M := powered (fun l => if String.eqb l "P2" then 1000 else 0) (tk_coils MAST_sym) in
  new_equilibrium (green_kernel ek ee) exp flat_spline (mktok M false []) 100 108 (- (40)) 40 9 9 BFixed None 0 4 false = Ok e /\
  fourth_order elimination e /\ labels_distinct M /\ symmetric M /\ mirror_profile keep_profile e /\
  picard 9 9 _ (eq_ops (green_kernel ek ee) sqrt 1 elimination flat_spline keep_profile None) (plain_options None 0 at_) 1 (e, tt) = (s', Ok h) /\
  exists J, jtor (fst s') = Some J /\ mirror 9 9 J.
Proof.
  intros ek ee. set (I := fun l => if String.eqb l "P2" then 1000 else 0).
  destruct (C218_regular elimination 100 108 (- (40)) 40 9 elimination_exact) as (A & EA & HA); try lia; try lra; [cbn [Nat.sub INR]; lra|].
  assert (L0 : labels_distinct (powered I (tk_coils MAST_sym))) by (apply powered_labels, C137_labels; constructor).
  assert (SY : symmetric (powered I (tk_coils MAST_sym))) by (apply (C138_MAST_sym I); reflexivity).
  set (M := powered I (tk_coils MAST_sym)) in *. clearbody M.
  destruct (flat_new_fourth (P := unit) (Ctl := unit) (green_kernel ek ee) (mktok M false []) 100 108 (- (40)) 40 9 9 BFixed None 0 A false L0 ltac:(lia) ltac:(lia) ltac:(lra) ltac:(lra) EA) as (e & E).
  destruct (new_inv _ _ _ _ _ _ _ _ _ _ _ _ _ _ _ _ E) as (_ & _ & E1 & E2 & E3 & E4 & E5 & E6 & Et & Eb & _ & _ & _ & _ & _ & _ & _ & Epg & gen & A' & Eg & EA' & Es).
  assert (D9 : dyadic 9) by (exists 3%nat; reflexivity).
  assert (HP : mirror_profile keep_profile e). { intros p e1 psi pb J p' b _ Hm EJ. injection EJ as <- _ _. exact Hm. }
  assert (HF : fourth_order elimination e).
  { cbn [generator_of Nat.eqb] in Eg. injection Eg as <-. unfold fourth_order. rewrite E1, E2, E3, E4, E5, E6. split; [lia|]. split; [lia|]. split; [lra|]. split; [lra|]. exists A'. split; [exact EA'|]. split; [exact Es|]. rewrite EA in EA'. injection EA' as <-. exact HA. }
  destruct (flat_given_picard (green_kernel ek ee) 1 elimination keep_profile e tt A' (response_sum (green_kernel ek ee) FPsi M (linspace 100 108 9 0) (linspace (- (40)) 40 9 0), machine_sync M) (mkb None (Some (Some 1)) None None None false None) 1) as (at_ & s' & h & Ep);
    rewrite ?E1, ?E2, ?E3, ?E4, ?E5, ?E6; try assumption; try exact D9; try lia; try lra; try reflexivity.
  { rewrite Et, Epg. apply cached_direct; [exact L0|reflexivity]. }
  { intros e1 psi1. exists psi1. reflexivity. }
  rewrite E1, E2 in Ep. exists e, at_, s', h. cbv zeta. split; [exact E|]. split; [exact HF|]. split; [exact L0|]. split; [exact SY|]. split; [exact HP|]. split; [exact Ep|].
  refine (proj2 (C218_start unit unit 1 elimination flat_spline ek ee keep_profile (mktok M false []) 100 108 40 9 9 BFixed 0 false e tt 9 9 (plain_options None 0 at_) 1 s' h ltac:(lia) ltac:(lia) (or_introl eq_refl) E _ L0 SY HP Ep)).
  intros A2 EA2. rewrite EA in EA2. injection EA2 as <-. exact HA.
Qed.
