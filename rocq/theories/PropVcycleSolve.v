(** C240: a solve with any solver made by setSolverVcycle, compared with the direct solution. *)
From Coq Require Import String List Arith ZArith Bool Reals Lra Lia.
From Verif Require Import Py Num Numpy Romb RombProofs Multigrid MultigridProofs Gauss Coils Machine Critical Boundary BoundarySpec BoundaryProofs
  GradShafranov GradShafranovProofs MultigridGS Equilibrium EquilibriumSpec EquilibriumProofs EquilibriumProofs2 EquilibriumProofs3 GSSpec PropGS PropMultigrid PropGreens PropBoundary PropEquilibrium FittingProofs PropSolveFlux
  PropFourth PropHagenow PropHagenow4 PropFourthSign Serial PropSerial PropSerialSolve PropRepeat PropRepeatJacobi.
Import ListNotations.
Local Open Scope R_scope.

(** ** Proofs *)
(** the system that a solve hands to its solver, whatever the solver *)
Lemma system_of_solve {P Ctl} G mu lu spline
    (Jc : P -> equilibrium R P Ctl -> (nat -> nat -> R) -> option R -> result ((nat -> nat -> R) * P * bstate R))
    (ed ed' e e' : equilibrium R P Ctl) pd sd td p s t J A :
  exact_solver lu -> second_order ed -> bnd ed = BFixed \/ bnd ed = BFree ->
  solve G sqrt mu lu spline Jc ed pd (Some J) sd td = Ok ed' -> same_problem ed e ->
  GSsparse (Rmin ed) (Rmax ed) (Zmin ed) (Zmax ed) (e_nx ed) (e_ny ed) = Ok A ->
  solve G sqrt mu lu spline Jc e p (Some J) s t = Ok e' ->
  (2 <= e_nx ed)%nat /\ (2 <= e_ny ed)%nat /\
  exists p1 rhs w, (forall x y, inside (e_nx ed) (e_ny ed) x y -> p1 x y = plasma_psi e x y) /\
    (forall x y, on_edge (e_nx ed) (e_ny ed) x y -> p1 x y = plasma_psi ed' x y) /\
    (forall x y, (x < e_nx ed)%nat -> (y < e_ny ed)%nat -> mat_apply A (plasma_psi ed') (e_nx ed) (e_ny ed) (x * e_ny ed + y) = rhs x y) /\
    callSolver lu e p1 rhs = Ok (w, plasma_psi e').
Proof.
  intros Hlu HS Hb Ed (B & D) EA E.
  assert (EJ : jtor ed' = Some J).
  { assert (K1 := Ed). apply solve_inv in K1 as (u & Ja & q1 & rhs & x & q & I & d1 & d2 & b & _ & (-> & _) & _ & _ & _ & _ & _ & _ & _ & X1). rewrite X1. reflexivity. }
  destruct (solved G mu lu spline Jc ed ed' pd (Some J) sd td J Hlu HS Ed EJ) as (q & Eq & Hnx & Hny & Hed & Hi).
  split; [exact Hnx|]. split; [exact Hny|].
  apply solve_inv in E as (e1 & Ja & p1 & rhs & v & q' & I & dR & dZ & b & _ & (-> & _) & E1 & E2 & (w & E3) & _ & _ & _ & _ & X).
  assert (N : e_nx e = e_nx ed) by congruence. assert (M : e_ny e = e_ny ed) by congruence.
  assert (Hnx' : (2 <= e_nx e)%nat) by lia. assert (Hny' : (2 <= e_ny e)%nat) by lia.
  assert (Hbe : bnd e = BFixed \/ bnd e = BFree) by (rewrite B; exact Hb).
  assert (HI := boundary_inside G lu e J p1 Hbe Hnx' Hny' E1). rewrite N, M in HI.
  assert (HE : forall x y, on_edge (e_nx ed) (e_ny ed) x y -> p1 x y = plasma_psi ed' x y).
  { intros x y Hxy. rewrite Hed by exact Hxy.
    rewrite (boundary_linear G lu ed ed e 1 0 J J J q q p1); try assumption; try (symmetry; assumption).
    - ring.
    - intros; ring.
    - rewrite N, M. exact Hxy. }
  destruct (set_edges_spec (e_nx e) (e_ny e) (fun i j => nmul (nmul (nopp mu) (grid_R e i j)) (J i j)) p1 ltac:(lia) ltac:(lia)) as (rhs' & E2' & HRh).
  rewrite E2 in E2'. apply ok_inj in E2'. subst rhs'. rewrite N, M in HRh.
  exists p1, rhs, w. split; [exact HI|]. split; [exact HE|]. split.
  - intros x y Hx Hy. destruct (C19_sparse_is_elliptic (Rmin ed) (Rmax ed) (Zmin ed) (Zmax ed) (e_nx ed) (e_ny ed) (plasma_psi ed')) as (A' & EA' & HA').
    rewrite EA in EA'. apply ok_inj in EA'. subst A'. destruct (HA' x y Hx Hy) as (HA1 & HA2).
    destruct (Classical_Prop.classic (inside (e_nx ed) (e_ny ed) x y)) as [Hxy|Hxy].
    + rewrite HA1 by (unfold inside in Hxy; lia). rewrite (proj2 (HRh x y Hx Hy) Hxy), Hi by exact Hxy.
      rewrite gridR_is. injection D as D1 D2 D3 D4 D5 D6. rewrite D1, D3, D4. nR. ring.
    + assert (Hoe : on_edge (e_nx ed) (e_ny ed) x y) by (unfold inside, on_edge in *; lia).
      rewrite HA2 by (unfold on_edge in Hoe; lia). rewrite (proj1 (HRh x y Hx Hy) Hoe). symmetry. apply HE, Hoe.
  - rewrite E3, X. reflexivity.
Qed.

(** ** C240 *)
(** For a grid and a number of levels, cycles and iterations, with or without the direct solver at the
    coarsest level, there is one linear map that takes the error of the plasma flux inside before a
    solve to the error at all points after it, for every current density; the error is that against
    the flux of the direct solver. *)
Theorem C240_error : forall (lu : nat -> (nat -> nat -> R) -> (nat -> R) -> (nat -> R)) rmin rmax zmin zmax nx ny nl nc ni d,
  exact_solver lu -> 0 <= rmin -> rmin < rmax -> zmin < zmax -> (2 <= nx)%nat -> (2 <= ny)%nat ->
  exists L : (nat -> nat -> R) -> (nat -> nat -> R),
  (forall a a' u u' v, (forall x y, (x < nx)%nat -> (y < ny)%nat -> v x y = a * u x y + a' * u' x y) ->
     forall x y, (x < nx)%nat -> (y < ny)%nat -> L v x y = a * L u x y + a' * L u' x y) /\
  forall (P Ctl : Type) G mu spline
    (Jtor_call : P -> equilibrium R P Ctl -> (nat -> nat -> R) -> option R -> result ((nat -> nat -> R) * P * bstate R))
    (ed ed' e0 e e' : equilibrium R P Ctl) pd sd td p s t J err,
  (e_nx ed, e_ny ed, Rmin ed, Rmax ed, Zmin ed, Zmax ed) = (nx, ny, rmin, rmax, zmin, zmax) ->
  second_order ed -> bnd ed = BFixed \/ bnd ed = BFree ->
  solve G sqrt mu lu spline Jtor_call ed pd (Some J) sd td = Ok ed' ->
  bnd e0 = bnd ed -> (e_nx e0, e_ny e0, Rmin e0, Rmax e0, Zmin e0, Zmax e0) = (nx, ny, rmin, rmax, zmin, zmax) ->
  setSolverVcycle e0 nl nc ni d = Ok e ->
  solve G sqrt mu lu spline Jtor_call e p (Some J) s t = Ok e' ->
  (forall x y, inside nx ny x y -> err x y = plasma_psi e0 x y - plasma_psi ed' x y) -> (forall x y, on_edge nx ny x y -> err x y = 0) ->
  forall x y, (x < nx)%nat -> (y < ny)%nat -> plasma_psi e' x y - plasma_psi ed' x y = L err x y.
Proof.
  intros lu rmin rmax zmin zmax nx ny nl nc ni d Hlu H0 HR HZ Hnx Hny.
  destruct (C27_grad_shafranov_solvable rmin rmax zmin zmax nl nx ny nc ni d H0 HR HZ Hnx Hny) as (sv & A & Es & Hsol & EA & _).
  destruct (C27_vcycle lu Hlu (GSsparse rmin rmax zmin zmax) nx ny nl nc ni d sv A ltac:(lia) ltac:(lia) Es Hsol EA) as (_ & (L & HL & HE) & _).
  exists L. split; [exact HL|].
  intros P Ctl G mu spline Jc ed ed' e0 e e' pd sd td p s t J err D HS Hb Ed B0 D0 Ee E Hin Hedge x y Hx Hy.
  assert (SP : same_problem ed e /\ slv e = SMatrix sv /\ plasma_psi e = plasma_psi e0).
  { assert (D0' := D0). injection D0' as D1 D2 D3 D4 D5 D6. unfold setSolverVcycle in Ee. rewrite D1, D2, D3, D4, D5, D6, Es in Ee.
    cbn [bind] in Ee. apply ok_inj in Ee. rewrite <- Ee. split; [split; [exact B0|cbn; congruence]|]. split; reflexivity. }
  destruct SP as (SP & Esl & Epl). injection D as D1 D2 D3 D4 D5 D6.
  assert (EA' : GSsparse (Rmin ed) (Rmax ed) (Zmin ed) (Zmax ed) (e_nx ed) (e_ny ed) = Ok A) by (rewrite D1, D2, D3, D4, D5, D6; exact EA).
  destruct (system_of_solve G mu lu spline Jc ed ed' e e' pd sd td p s t J A Hlu HS Hb Ed SP EA' E) as (_ & _ & p1 & rhs & w & Q1 & Q2 & Q3 & Q4).
  rewrite D1, D2 in Q1, Q2, Q3. destruct (HE p1 (plasma_psi ed') rhs Q3) as (u' & Eu & Hu).
  unfold callSolver in Q4. rewrite Esl in Q4. unfold solver_call in Q4. destruct SP as (_ & DE).
  assert (N : e_nx e = nx) by congruence. assert (M : e_ny e = ny) by congruence. rewrite N, M in Q4.
  change (arr2 R) with (nat -> nat -> R) in *. rewrite Eu in Q4. cbn [bind] in Q4.
  assert (Ev : plasma_psi e' = u') by congruence. rewrite Ev, (Hu x y Hx Hy).
  rewrite <- (Rplus_0_r (L err x y)), <- (Rmult_0_l (L err x y)), <- (Rmult_1_l (L err x y)) at 1.
  apply HL; [|exact Hx|exact Hy]. intros x' y' Hx' Hy'.
  destruct (Classical_Prop.classic (inside nx ny x' y')) as [Hxy|Hxy].
  - rewrite (Q1 x' y' Hxy), (Hin x' y' Hxy), Epl. ring.
  - assert (Ho : on_edge nx ny x' y') by (unfold inside, on_edge in *; lia). rewrite (Q2 x' y' Ho), (Hedge x' y' Ho). ring.
Qed.
Print Assumptions C240_error.

(** So every such solver leaves the direct solution alone. *)
Theorem C240_fixed : forall (P Ctl : Type) G mu lu spline
    (Jtor_call : P -> equilibrium R P Ctl -> (nat -> nat -> R) -> option R -> result ((nat -> nat -> R) * P * bstate R))
    (ed ed' e0 e e' : equilibrium R P Ctl) pd sd td p s t J nl nc ni d,
  exact_solver lu -> second_order ed -> bnd ed = BFixed \/ bnd ed = BFree ->
  solve G sqrt mu lu spline Jtor_call ed pd (Some J) sd td = Ok ed' ->
  bnd e0 = bnd ed -> (e_nx e0, e_ny e0, Rmin e0, Rmax e0, Zmin e0, Zmax e0) = (e_nx ed, e_ny ed, Rmin ed, Rmax ed, Zmin ed, Zmax ed) ->
  setSolverVcycle e0 nl nc ni d = Ok e ->
  solve G sqrt mu lu spline Jtor_call e p (Some J) s t = Ok e' ->
  (forall x y, inside (e_nx ed) (e_ny ed) x y -> plasma_psi e0 x y = plasma_psi ed' x y) ->
  forall x y, (x < e_nx ed)%nat -> (y < e_ny ed)%nat -> plasma_psi e' x y = plasma_psi ed' x y.
Proof.
  intros P Ctl G mu lu spline Jc ed ed' e0 e e' pd sd td p s t J nl nc ni d Hlu HS Hb Ed B0 D0 Ee E Hin x y Hx Hy.
  assert (EJ : jtor ed' = Some J).
  { assert (K1 := Ed). apply solve_inv in K1 as (u & Ja & q1 & rhs & x1 & q & I & d1 & d2 & b & _ & (-> & _) & _ & _ & _ & _ & _ & _ & _ & X1). rewrite X1. reflexivity. }
  destruct (solved G mu lu spline Jc ed ed' pd (Some J) sd td J Hlu HS Ed EJ) as (_ & _ & Hnx & Hny & _ & _).
  destruct HS as (H0 & HR & HZ & A & EA & Esd).
  destruct (C240_error lu (Rmin ed) (Rmax ed) (Zmin ed) (Zmax ed) (e_nx ed) (e_ny ed) nl nc ni d Hlu H0 HR HZ Hnx Hny) as (L & HL & HE).
  assert (K := HE P Ctl G mu spline Jc ed ed' e0 e e' pd sd td p s t J (fun _ _ => 0) eq_refl
    (conj H0 (conj HR (conj HZ (ex_intro _ A (conj EA Esd))))) Hb Ed B0 D0 Ee E
    ltac:(intros x1 y1 H1; rewrite (Hin x1 y1 H1); ring) ltac:(reflexivity) x y Hx Hy).
  rewrite (HL 0 0 (fun _ _ => 0) (fun _ _ => 0)) in K; [lra|intros; ring|exact Hx|exact Hy].
Qed.
Print Assumptions C240_fixed.
(** The runs of C238: the direct solution, and the iterative solver started from any flux. *)
Example C240_example : exists A, GSsparse 100 108 (-40) 40 9 9 = Ok A /\ exact_solver elimination /\ second_order (unit9 2 A) /\
  forall J, exists ed' e e', solve (fun _ => green) sqrt 1 elimination flat_spline no_profile (unit9 2 A) tt (Some J) None None = Ok ed' /\
    setSolverVcycle (with_plasma (unit9 2 A) (plasma_psi ed')) 1 5 2 false = Ok e /\
    solve (fun _ => green) sqrt 1 elimination flat_spline no_profile e tt (Some J) None None = Ok e'.
Proof.
  destruct C238_example as (A & EA & Hx & HS & _ & HJ). exists A. split; [exact EA|]. split; [exact Hx|]. split; [exact HS|].
  intros J. destruct (HJ J) as (ed' & _ & Ed & _). exists ed'.
  destruct (setSolverVcycle (with_plasma (unit9 2 A) (plasma_psi ed')) 1 5 2 false) as [e|] eqn:E0; cycle 1.
  { exfalso. unfold setSolverVcycle, createVcycle in E0. cbn [createVcycle_ unit9 with_plasma e_nx e_ny Rmin Rmax Zmin Zmax] in E0. rewrite EA in E0. discriminate E0. }
  exists e. unfold setSolverVcycle, createVcycle in E0. cbn [createVcycle_ unit9 with_plasma e_nx e_ny Rmin Rmax Zmin Zmax] in E0. rewrite EA in E0. cbn [bind] in E0. apply ok_inj in E0.
  destruct (jacobi9_run e A 5 2 J) as (e' & Ee); try (rewrite <- E0; reflexivity). exists e'. split; [exact Ed|]. split; [reflexivity|exact Ee].
Qed.
