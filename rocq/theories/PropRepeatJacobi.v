(** C238: repeating a solve with the iterative solver approaches the direct solution. *)
From Coq Require Import String List Arith ZArith Bool Reals Lra Lia.
From Verif Require Import Py Num Numpy Romb RombProofs Multigrid MultigridProofs Gauss Coils Machine Critical Boundary BoundarySpec BoundaryProofs
  GradShafranov GradShafranovProofs MultigridGS Equilibrium EquilibriumSpec EquilibriumProofs EquilibriumProofs2 EquilibriumProofs3 GSSpec PropGS PropGreens PropBoundary PropEquilibrium FittingProofs PropSolveFlux
  PropFourth PropHagenow PropHagenow4 PropFourthSign Serial PropSerial PropSerialSolve PropRepeat.
Import ListNotations.
Local Open Scope R_scope.

(** ** Proofs *)
Definition weight (zmin zmax : R) (ny y : nat) : R :=
  (zmax - zmin) ^ 2 - (zmin + (zmax - zmin) / INR (ny - 1) * INR y - (zmin + zmax) / 2) ^ 2.
Definition rate (rmin rmax zmin zmax : R) (nx ny : nat) : R :=
  let dR := (rmax - rmin) / INR (nx - 1) in let dZ := (zmax - zmin) / INR (ny - 1) in
  1 - 1 / ((zmax - zmin) ^ 2 * (1 / (dR * dR) + 1 / (dZ * dZ))).

Lemma jacobi_call lu rmin rmax zmin zmax nx ny A nc ni (u us b : nat -> nat -> R) K :
  0 <= rmin -> rmin < rmax -> zmin < zmax -> (2 <= nx)%nat -> (2 <= ny)%nat -> GSsparse rmin rmax zmin zmax nx ny = Ok A ->
  (forall x y, (x < nx)%nat -> (y < ny)%nat -> mat_apply A us nx ny (x * ny + y) = b x y) -> 0 <= K ->
  (forall x y, (x < nx)%nat -> (y < ny)%nat -> Rabs (u x y - us x y) <= K * weight zmin zmax ny y) ->
  exists u', mg_call lu (MGJacobi (nx * ny) A nc ni None) nx ny u b = Ok u' /\
    forall x y, (x < nx)%nat -> (y < ny)%nat -> Rabs (u' x y - us x y) <= rate rmin rmax zmin zmax nx ny ^ (2 * ni * nc) * K * weight zmin zmax ny y.
Proof.
  intros H0 HR HZ Hnx Hny HA Hus HK Hu. rewrite mg_call_pure by constructor. eexists. split; [reflexivity|].
  assert (Hxs : forall r, (r < nx * ny)%nat -> mdot (nx * ny) A (ravel ny us) r = ravel ny b r).
  { apply rows_of_grid. intros x y Hx Hy. rewrite ravel_at by exact Hy. exact (Hus x y Hx Hy). }
  assert (EIT : forall n v, iter n (fun x => iter ni (jacobi (nx * ny) A (ravel ny b)) (iter ni (jacobi (nx * ny) A (ravel ny b)) x)) v
     = iter (2 * ni * n) (jacobi (nx * ny) A (ravel ny b)) v).
  { assert (Hadd : forall {X} (f : X -> X) p q x, iter (p + q) f x = iter q f (iter p f x)).
    { clear. intros X f p q. induction p as [|p IHp]; intros x; cbn [iter Nat.add]; [reflexivity|]. apply IHp. }
    induction n as [|n IHn]; intros v; cbn [iter]; [rewrite Nat.mul_0_r; reflexivity|].
    rewrite IHn. replace (2 * ni * Datatypes.S n)%nat with (ni + ni + 2 * ni * n)%nat by lia.
    rewrite !Hadd. reflexivity. }
  intros x y Hx Hy. unfold unravel at 1. cbn [mgv]. rewrite EIT. rewrite <- (ravel_at us ny x y Hy).
  apply (jc_iter rmin rmax zmin zmax nx ny H0 HR HZ Hnx Hny A HA (ravel ny us) (ravel ny b) (2 * ni * nc) Hxs K (ravel ny u) HK); [|exact Hx|exact Hy].
  intros x' y' Hx' Hy'. rewrite !ravel_at by exact Hy'. exact (Hu x' y' Hx' Hy').
Qed.

(** the boundary conditions leave the flux inside as it is *)
Lemma boundary_inside {P Ctl} G lu (e : equilibrium R P Ctl) J q : bnd e = BFixed \/ bnd e = BFree -> (2 <= e_nx e)%nat -> (2 <= e_ny e)%nat ->
  applyBoundary G sqrt lu e J = Ok q -> forall x y, inside (e_nx e) (e_ny e) x y -> q x y = plasma_psi e x y.
Proof.
  intros Hb Hnx Hny E x y Hxy. assert (Hx : (x < e_nx e)%nat) by (unfold inside in Hxy; lia). assert (Hy : (y < e_ny e)%nat) by (unfold inside in Hxy; lia).
  unfold applyBoundary in E. destruct Hb as [Bf|Bf]; rewrite Bf in E.
  - destruct (proj1 (C28_fixed_boundary (e_nx e) (e_ny e) (plasma_psi e)) ltac:(lia)) as (v & Ev & Hv). rewrite E in Ev. apply ok_inj in Ev. subst v. apply Hv; assumption.
  - destruct (Classical_Prop.classic (dyadic (e_nx e) /\ dyadic (e_ny e))) as [(Dx & Dy)|D].
    + destruct (freeBoundary_spec (G FPsi) (e_nx e) (e_ny e) (grid_R e) (grid_Z e) J (plasma_psi e) Dx Dy) as (v & Ev & Hv). rewrite E in Ev. apply ok_inj in Ev. subst v. apply Hv; assumption.
    + destruct (freeBoundary_bad (G FPsi) (e_nx e) (e_ny e) (grid_R e) (grid_Z e) J (plasma_psi e) D) as (er & Ee). congruence.
Qed.

Definition same_problem {P Ctl} (e e1 : equilibrium R P Ctl) : Prop :=
  bnd e1 = bnd e /\ (e_nx e1, e_ny e1, Rmin e1, Rmax e1, Zmin e1, Zmax e1) = (e_nx e, e_ny e, Rmin e, Rmax e, Zmin e, Zmax e).

Section Step.
  Context {P Ctl : Type}.
  Variables (G : field -> R -> R -> R -> R -> R) (mu : R) (lu : nat -> (nat -> nat -> R) -> (nat -> R) -> (nat -> R)).
  Variables (spline : nat -> nat -> (nat -> R) -> (nat -> R) -> (nat -> nat -> R) -> sfun R).
  Variable Jtor_call : P -> equilibrium R P Ctl -> (nat -> nat -> R) -> option R -> result ((nat -> nat -> R) * P * bstate R).
  Notation slv1 e p Jo psi pb := (solve G sqrt mu lu spline Jtor_call e p Jo psi pb).
  Variables (ed ed' : equilibrium R P Ctl) (J : nat -> nat -> R).
  Notation nx := (e_nx ed). Notation ny := (e_ny ed).
  Notation wt y := (weight (Zmin ed) (Zmax ed) ny y).
  Notation rho := (rate (Rmin ed) (Rmax ed) (Zmin ed) (Zmax ed) nx ny).
  Lemma repeat_step pd od sd td e e' p s t A nc ni K :
    exact_solver lu -> second_order ed -> bnd ed = BFixed \/ bnd ed = BFree ->
    slv1 ed pd od sd td = Ok ed' -> jtor ed' = Some J ->
    same_problem ed e -> GSsparse (Rmin ed) (Rmax ed) (Zmin ed) (Zmax ed) nx ny = Ok A -> slv e = SMatrix (MGJacobi (nx * ny) A nc ni None) ->
    slv1 e p (Some J) s t = Ok e' -> 0 <= K ->
    (forall x y, inside nx ny x y -> Rabs (plasma_psi e x y - plasma_psi ed' x y) <= K * wt y) ->
    same_problem ed e' /\ slv e' = slv e /\
    forall x y, (x < nx)%nat -> (y < ny)%nat -> Rabs (plasma_psi e' x y - plasma_psi ed' x y) <= rho ^ (2 * ni * nc) * K * wt y.
  Proof.
    intros Hlu HS Hb Ed EJ (B & D) EA Es E HK Hin.
    destruct (solved G mu lu spline Jtor_call ed ed' pd od sd td J Hlu HS Ed EJ) as (q & Eq & Hnx & Hny & Hed & Hi).
    destruct HS as (H0 & HR & HZ & _).
    apply solve_inv in E as (e1 & Ja & p1 & rhs & v & q' & I & dR & dZ & b & _ & (-> & _) & E1 & E2 & (w & E3) & _ & _ & _ & _ & X).
    assert (N : e_nx e = nx) by congruence. assert (M : e_ny e = ny) by congruence.
    assert (Hnx' : (2 <= e_nx e)%nat) by lia. assert (Hny' : (2 <= e_ny e)%nat) by lia.
    assert (Hbe : bnd e = BFixed \/ bnd e = BFree) by (rewrite B; exact Hb).
    assert (HI := boundary_inside G lu e J p1 Hbe Hnx' Hny' E1). rewrite N, M in HI.
    assert (HE : forall x y, on_edge nx ny x y -> p1 x y = plasma_psi ed' x y).
    { intros x y Hxy. rewrite Hed by exact Hxy.
      rewrite (boundary_linear G lu ed ed e 1 0 J J J q q p1); try assumption; try (symmetry; assumption).
      - ring.
      - intros; ring.
      - rewrite N, M. exact Hxy. }
    destruct (set_edges_spec (e_nx e) (e_ny e) (fun i j => nmul (nmul (nopp mu) (grid_R e i j)) (J i j)) p1 ltac:(lia) ltac:(lia)) as (rhs' & E2' & HRh).
    rewrite E2 in E2'. apply ok_inj in E2'. subst rhs'. rewrite N, M in HRh.
    assert (Hmat : forall x y, (x < nx)%nat -> (y < ny)%nat -> mat_apply A (plasma_psi ed') nx ny (x * ny + y) = rhs x y).
    { intros x y Hx Hy. destruct (C19_sparse_is_elliptic (Rmin ed) (Rmax ed) (Zmin ed) (Zmax ed) nx ny (plasma_psi ed')) as (A' & EA' & HA').
      rewrite EA in EA'. apply ok_inj in EA'. subst A'. destruct (HA' x y Hx Hy) as (HA1 & HA2).
      destruct (Classical_Prop.classic (inside nx ny x y)) as [Hxy|Hxy].
      - rewrite HA1 by (unfold inside in Hxy; lia). rewrite (proj2 (HRh x y Hx Hy) Hxy), Hi by exact Hxy.
        rewrite gridR_is. injection D as D1 D2 D3 D4 D5 D6. rewrite D1, D3, D4. nR. ring.
      - assert (Hoe : on_edge nx ny x y) by (unfold inside, on_edge in *; lia).
        rewrite HA2 by (unfold on_edge in Hoe; lia). rewrite (proj1 (HRh x y Hx Hy) Hoe). symmetry. apply HE, Hoe. }
    assert (Hw : forall y, (y < ny)%nat -> 0 <= wt y).
    { intros y Hy. assert (W := jc_w (Zmin ed) (Zmax ed) nx ny HZ Hnx Hny y Hy). assert (0 <= (Zmax ed - Zmin ed) ^ 2) by (apply pow_le; lra). cbn beta in W. unfold weight. lra. }
    destruct (jacobi_call lu _ _ _ _ nx ny A nc ni p1 (plasma_psi ed') rhs K H0 HR HZ Hnx Hny EA Hmat HK) as (u' & Eu & Hu).
    { intros x y Hx Hy. destruct (Classical_Prop.classic (inside nx ny x y)) as [Hxy|Hxy].
      - rewrite HI by exact Hxy. apply Hin, Hxy.
      - rewrite HE by (unfold inside, on_edge in *; lia). rewrite Rminus_eq_0, Rabs_R0. apply Rmult_le_pos; [exact HK|apply Hw, Hy]. }
    unfold callSolver in E3. rewrite Es in E3. unfold solver_call in E3. rewrite N, M in E3.
    change (arr2 R) with (nat -> nat -> R) in *. rewrite Eu in E3. cbn [bind] in E3.
    assert (Ev : v = u') by congruence. subst v. rewrite X. cbn.
    split; [split; [exact B|exact D]|]. split; [reflexivity|]. exact Hu.
  Qed.
End Step.

Lemma bounded_line (f : nat -> R) n : exists M, 0 <= M /\ forall x, (x < n)%nat -> Rabs (f x) <= M.
Proof.
  induction n as [|n (M & H0 & H)]; [exists 0; split; [lra|lia]|].
  assert (Hp := Rabs_pos (f n)). exists (M + Rabs (f n)). split; [lra|]. intros x Hx.
  destruct (Nat.eq_dec x n) as [->|Hn]; [lra|]. specialize (H x ltac:(lia)). lra.
Qed.
Lemma bounded_grid (f : nat -> nat -> R) nx ny : exists M, 0 <= M /\ forall x y, (x < nx)%nat -> (y < ny)%nat -> Rabs (f x y) <= M.
Proof.
  induction nx as [|nx (M & H0 & H)]; [exists 0; split; [lra|lia]|].
  destruct (bounded_line (f nx) ny) as (M' & H0' & H'). exists (M + M'). split; [lra|]. intros x y Hx Hy.
  destruct (Nat.eq_dec x nx) as [->|Hn]; [specialize (H' y Hy); lra|]. specialize (H x y ltac:(lia) Hy). lra.
Qed.

(** ** C238 *)
(** The solver of setSolverVcycle with one level, used again and again with the same current density:
    the distance from the flux of the direct solver shrinks by a factor that the grid fixes. *)
Theorem C238_jacobi_repeat : forall (P Ctl : Type) G mu lu spline
    (Jtor_call : P -> equilibrium R P Ctl -> (nat -> nat -> R) -> option R -> result ((nat -> nat -> R) * P * bstate R))
    (ed ed' e : equilibrium R P Ctl) (E : nat -> equilibrium R P Ctl) pd sd td p s t J nc ni M,
  exact_solver lu -> second_order ed -> bnd ed = BFixed \/ bnd ed = BFree ->
  solve G sqrt mu lu spline Jtor_call ed pd (Some J) sd td = Ok ed' ->
  bnd e = bnd ed -> (e_nx e, e_ny e, Rmin e, Rmax e, Zmin e, Zmax e) = (e_nx ed, e_ny ed, Rmin ed, Rmax ed, Zmin ed, Zmax ed) ->
  setSolverVcycle e 1 nc ni false = Ok (E O) ->
  (forall n, solve G sqrt mu lu spline Jtor_call (E n) (p n) (Some J) (s n) (t n) = Ok (E (S n))) ->
  0 <= M -> (forall x y, inside (e_nx ed) (e_ny ed) x y -> Rabs (plasma_psi e x y - plasma_psi ed' x y) <= M) ->
  let dR := (Rmax ed - Rmin ed) / INR (e_nx ed - 1) in
  let dZ := (Zmax ed - Zmin ed) / INR (e_ny ed - 1) in
  let rho := 1 - 1 / ((Zmax ed - Zmin ed) ^ 2 * (1 / (dR * dR) + 1 / (dZ * dZ))) in
  0 <= rho < 1 /\
  forall n x y, (x < e_nx ed)%nat -> (y < e_ny ed)%nat ->
    Rabs (plasma_psi (E (S n)) x y - plasma_psi ed' x y) <= 4 / 3 * M * rho ^ (2 * ni * nc * S n).
Proof.
  intros P Ctl G mu lu spline Jc ed ed' e E pd sd td p s t J nc ni M Hlu HS Hb Ed B D E0 Er HM Hin dR dZ rho.
  assert (EJ : jtor ed' = Some J).
  { assert (K1 := Ed). apply solve_inv in K1 as (u & Ja & q1 & rhs & x & q & I & d1 & d2 & b & _ & (-> & _) & _ & _ & _ & _ & _ & _ & _ & X1). rewrite X1. reflexivity. }
  destruct (solved G mu lu spline Jc ed ed' pd (Some J) sd td J Hlu HS Ed EJ) as (_ & _ & Hnx & Hny & _ & _).
  assert (HS' := HS). destruct HS' as (H0 & HR & HZ & A & EA & _).
  assert (Hrho : 0 <= rho < 1) by exact (jc_rho (Rmin ed) (Rmax ed) (Zmin ed) (Zmax ed) (e_nx ed) (e_ny ed) HR HZ Hnx Hny).
  split; [exact Hrho|].
  assert (HH : 0 < (Zmax ed - Zmin ed) ^ 2) by (apply pow_lt; lra).
  set (K := 4 / 3 * M / (Zmax ed - Zmin ed) ^ 2).
  assert (HK : 0 <= K) by (unfold K, Rdiv; apply Rmult_le_pos; [lra|apply Rlt_le, Rinv_0_lt_compat, HH]).
  assert (Hw : forall y, (y < e_ny ed)%nat -> 3 / 4 * (Zmax ed - Zmin ed) ^ 2 <= weight (Zmin ed) (Zmax ed) (e_ny ed) y <= (Zmax ed - Zmin ed) ^ 2)
    by exact (jc_w (Zmin ed) (Zmax ed) (e_nx ed) (e_ny ed) HZ Hnx Hny).
  assert (Hpow : forall k, 0 <= rho ^ k) by (intros k; apply pow_le; lra).
  assert (S0 : same_problem ed (E O) /\ slv (E O) = SMatrix (MGJacobi (e_nx ed * e_ny ed) A nc ni None) /\ plasma_psi (E O) = plasma_psi e).
  { assert (D' := D). injection D' as D1 D2 D3 D4 D5 D6. unfold setSolverVcycle, createVcycle in E0. cbn [createVcycle_] in E0.
    rewrite D1, D2, D3, D4, D5, D6, EA in E0. cbn [bind] in E0. apply ok_inj in E0. rewrite <- E0. cbn.
    split; [split; [exact B|exact D]|]. split; reflexivity. }
  destruct S0 as (S0 & S1 & S2).
  assert (Inv : forall n, same_problem ed (E n) /\ slv (E n) = SMatrix (MGJacobi (e_nx ed * e_ny ed) A nc ni None) /\
    (forall x y, inside (e_nx ed) (e_ny ed) x y -> Rabs (plasma_psi (E n) x y - plasma_psi ed' x y) <= rho ^ (2 * ni * nc * n) * K * weight (Zmin ed) (Zmax ed) (e_ny ed) y)).
  { induction n as [|n (I1 & I2 & I3)].
    - split; [exact S0|]. split; [exact S1|]. intros x y Hxy. rewrite S2, Nat.mul_0_r. cbn [pow]. rewrite Rmult_1_l.
      eapply Rle_trans; [apply Hin, Hxy|]. assert (W := Hw y ltac:(unfold inside in Hxy; lia)).
      apply Rle_trans with (K * (3 / 4 * (Zmax ed - Zmin ed) ^ 2)); [unfold K; right; field; lra|]. apply Rmult_le_compat_l; lra.
    - destruct (repeat_step G mu lu spline Jc ed ed' J pd (Some J) sd td (E n) (E (S n)) (p n) (s n) (t n) A nc ni (rho ^ (2 * ni * nc * n) * K)
        Hlu HS Hb Ed EJ I1 EA I2 (Er n) (Rmult_le_pos _ _ (Hpow _) HK) I3) as (T1 & T2 & T3).
      split; [exact T1|]. split; [rewrite T2; exact I2|]. intros x y Hxy.
      eapply Rle_trans; [apply T3; unfold inside in Hxy; lia|]. right.
      change (rate (Rmin ed) (Rmax ed) (Zmin ed) (Zmax ed) (e_nx ed) (e_ny ed)) with rho.
      rewrite Nat.mul_succ_r, pow_add. ring. }
  intros n x y Hx Hy. destruct (Inv n) as (I1 & I2 & I3).
  destruct (repeat_step G mu lu spline Jc ed ed' J pd (Some J) sd td (E n) (E (S n)) (p n) (s n) (t n) A nc ni (rho ^ (2 * ni * nc * n) * K)
        Hlu HS Hb Ed EJ I1 EA I2 (Er n) (Rmult_le_pos _ _ (Hpow _) HK) I3) as (_ & _ & T3).
  eapply Rle_trans; [apply T3; assumption|].
  change (rate (Rmin ed) (Rmax ed) (Zmin ed) (Zmax ed) (e_nx ed) (e_ny ed)) with rho.
  apply Rle_trans with (rho ^ (2 * ni * nc) * (rho ^ (2 * ni * nc * n) * K) * (Zmax ed - Zmin ed) ^ 2).
  - apply Rmult_le_compat_l; [|apply Hw, Hy]. apply Rmult_le_pos; [apply Hpow|apply Rmult_le_pos; [apply Hpow|exact HK]].
  - right. rewrite Nat.mul_succ_r, pow_add. unfold K. field. lra.
Qed.
Print Assumptions C238_jacobi_repeat.

(** With at least one cycle and one iteration the flux therefore converges to that of the direct
    solver, from every starting flux. *)
Theorem C238_limit : forall (P Ctl : Type) G mu lu spline
    (Jtor_call : P -> equilibrium R P Ctl -> (nat -> nat -> R) -> option R -> result ((nat -> nat -> R) * P * bstate R))
    (ed ed' e : equilibrium R P Ctl) (E : nat -> equilibrium R P Ctl) pd sd td p s t J nc ni,
  exact_solver lu -> second_order ed -> bnd ed = BFixed \/ bnd ed = BFree ->
  solve G sqrt mu lu spline Jtor_call ed pd (Some J) sd td = Ok ed' ->
  bnd e = bnd ed -> (e_nx e, e_ny e, Rmin e, Rmax e, Zmin e, Zmax e) = (e_nx ed, e_ny ed, Rmin ed, Rmax ed, Zmin ed, Zmax ed) ->
  setSolverVcycle e 1 nc ni false = Ok (E O) -> (1 <= nc)%nat -> (1 <= ni)%nat ->
  (forall n, solve G sqrt mu lu spline Jtor_call (E n) (p n) (Some J) (s n) (t n) = Ok (E (S n))) ->
  forall eps, 0 < eps -> exists N, forall n x y, (N <= n)%nat -> (x < e_nx ed)%nat -> (y < e_ny ed)%nat ->
    Rabs (plasma_psi (E n) x y - plasma_psi ed' x y) < eps.
Proof.
  intros P Ctl G mu lu spline Jc ed ed' e E pd sd td p s t J nc ni Hlu HS Hb Ed B D E0 Hc Hi Er eps Heps.
  destruct (bounded_grid (fun x y => plasma_psi e x y - plasma_psi ed' x y) (e_nx ed) (e_ny ed)) as (M & HM & Hin).
  destruct (C238_jacobi_repeat P Ctl G mu lu spline Jc ed ed' e E pd sd td p s t J nc ni M Hlu HS Hb Ed B D E0 Er HM) as (Hrho & HE).
  { intros x y Hxy. apply Hin; unfold inside in Hxy; lia. }
  set (rho := 1 - _) in *.
  destruct (pow_lt_1_zero rho ltac:(rewrite Rabs_pos_eq; lra) (eps / (4 / 3 * M + 1))) as (N & HN).
  { apply Rdiv_lt_0_compat; lra. }
  exists (S N). intros n x y Hn Hx Hy. destruct n as [|n]; [lia|].
  eapply Rle_lt_trans; [apply HE; assumption|].
  assert (Hk : (N <= 2 * ni * nc * S n)%nat) by nia.
  assert (Hp := HN (2 * ni * nc * S n)%nat Hk). assert (H0 : 0 <= rho ^ (2 * ni * nc * S n)) by (apply pow_le; lra).
  rewrite Rabs_pos_eq in Hp by exact H0. set (r := rho ^ (2 * ni * nc * S n)) in *.
  apply Rle_lt_trans with ((4 / 3 * M + 1) * r); [nra|].
  apply Rlt_le_trans with ((4 / 3 * M + 1) * (eps / (4 / 3 * M + 1))); [apply Rmult_lt_compat_l; lra|]. right. field. lra.
Qed.
Print Assumptions C238_limit.
(** A box of 9 x 9 points without coils: both solvers run, the iterative one any number of times. *)
Lemma jacobi9_run (e : equilibrium R unit unit) A nc ni J : coils (tok e) = [] -> bnd e = BFixed -> e_nx e = 9%nat -> e_ny e = 9%nat -> Rmin e = 100 -> Rmax e = 108 -> Zmin e = -40 -> Zmax e = 40 ->
  slv e = SMatrix (MGJacobi 81 A nc ni None) -> exists e', solve (fun _ => green) sqrt 1 elimination flat_spline no_profile e tt (Some J) None None = Ok e'.
Proof.
  intros Hc Hb Nx Ny R1 R2 Z1 Z2 Es. assert (D9 : dyadic 9) by (exists 3%nat; reflexivity).
  set (e0 := with_profiles e (Some tt) (control e)).
  destruct (proj1 (C28_fixed_boundary 9 9 (plasma_psi e0)) ltac:(lia)) as (q & Eq & _).
  destruct (set_edges_spec 9 9 (fun i j => nmul (nmul (nopp 1) (grid_R e0 i j)) (J i j)) q ltac:(lia) ltac:(lia)) as (rhs & Erh & _).
  destruct (romb2_dyadic 9 9 J D9 D9) as (t & Et).
  assert (Q1 : coils (tok e0) = []) by exact Hc. assert (Q2 : e_nx e0 = 9%nat) by exact Nx. assert (Q3 : e_ny e0 = 9%nat) by exact Ny.
  assert (Q4 : Rmin e0 < Rmax e0) by (cbn; rewrite R1, R2; lra). assert (Q5 : Zmin e0 < Zmax e0) by (cbn; rewrite Z1, Z2; lra).
  assert (E1 : update_own flat_spline e0 = Ok (with_bs e0 (bs e0))) by (apply flat_own; try assumption; lia).
  eexists. unfold solve. fold e0. rewrite E1. cbn [bind]. unfold linear_solve, applyBoundary.
  change (bnd (with_bs e0 (bs e0))) with (bnd e). rewrite Hb. cbn iota.
  change (e_nx (with_bs e0 (bs e0))) with (e_nx e). change (e_ny (with_bs e0 (bs e0))) with (e_ny e). rewrite Nx, Ny.
  change (plasma_psi (with_bs e0 (bs e0))) with (plasma_psi e0). rewrite Eq. cbn [bind].
  match goal with |- context [set_edges 9 9 ?a q] => change (set_edges 9 9 a q) with (set_edges 9 9 (fun i j => nmul (nmul (nopp 1) (grid_R e0 i j)) (J i j)) q) end. rewrite Erh. cbn [bind].
  unfold callSolver. change (slv (with_bs e0 (bs e0))) with (slv e). rewrite Es. unfold solver_call.
  change (e_nx (with_bs e0 (bs e0))) with (e_nx e). change (e_ny (with_bs e0 (bs e0))) with (e_ny e). rewrite Nx, Ny.
  rewrite (mg_call_pure elimination (MGJacobi (9 * 9) A nc ni None)) by constructor. cbn [bind].
  match goal with |- context [update_plasma flat_spline ?a 9 9 ?b] => assert (U := flat_update_plasma a b); change (e_nx a) with (e_nx e) in U; change (e_ny a) with (e_ny e) in U; rewrite Nx, Ny in U; rewrite U; [|lia|lia|exact Q4|exact Q5|exact Hc] end. cbn [bind].
  match goal with |- context [romb2 ?a ?b ?c] => replace (romb2 a b c) with (Ok t) by (rewrite <- Et; symmetry; change a with (e_nx e); change b with (e_ny e); rewrite Nx, Ny; reflexivity) end. cbn [bind].
  match goal with |- context [spacing_R ?a ?b _] => change a with (e_nx e); change b with (e_ny e) end.
  rewrite spacing_R_ok, spacing_Z_ok by lia. cbn [bind]. reflexivity.
Qed.
Fixpoint again (J : nat -> nat -> R) (e : equilibrium R unit unit) (n : nat) : equilibrium R unit unit :=
  match n with
  | O => e
  | S n => match solve (fun _ => green) sqrt 1 elimination flat_spline no_profile (again J e n) tt (Some J) None None with Ok e' => e' | Raise _ => e end
  end.
Lemma again_next J e n e' : solve (fun _ => green) sqrt 1 elimination flat_spline no_profile (again J e n) tt (Some J) None None = Ok e' -> again J e (S n) = e'.
Proof. intros E. cbn [again]. change (nat -> nat -> R) with (arr2 R) in *. rewrite E. reflexivity. Qed.
Example C238_example : exists A, GSsparse 100 108 (-40) 40 9 9 = Ok A /\ exact_solver elimination /\ second_order (unit9 2 A) /\ bnd (unit9 2 A) = BFixed /\
  forall J, exists ed' E, solve (fun _ => green) sqrt 1 elimination flat_spline no_profile (unit9 2 A) tt (Some J) None None = Ok ed' /\
    setSolverVcycle (unit9 2 A) 1 5 2 false = Ok (E O) /\
    forall n, solve (fun _ => green) sqrt 1 elimination flat_spline no_profile (E n) tt (Some J) None None = Ok (E (S n)).
Proof.
  destruct (GS_well_posed 100 108 (-40) 40 9 9) as (A & EA & _); try lra; try lia. exists A. split; [exact EA|]. split; [intros N M v Hn r Hr; exact (elimination_solves N M v Hn r Hr)|]. split.
  { unfold second_order. cbn [Rmin Rmax Zmin Zmax e_nx e_ny slv unit9]. split; [lra|]. split; [lra|]. split; [lra|]. exists A. split; [exact EA|reflexivity]. }
  split; [reflexivity|]. intros J. destruct (fixed9_run (unit9 2 A) A J) as (ed' & Ed & _); try reflexivity.
  destruct (setSolverVcycle (unit9 2 A) 1 5 2 false) as [e0|] eqn:E0; cycle 1.
  { exfalso. unfold setSolverVcycle, createVcycle in E0. cbn [createVcycle_ unit9 e_nx e_ny Rmin Rmax Zmin Zmax] in E0. rewrite EA in E0. discriminate E0. }
  exists ed', (again J e0). split; [exact Ed|]. split; [reflexivity|].
  unfold setSolverVcycle, createVcycle in E0. cbn [createVcycle_ unit9 e_nx e_ny Rmin Rmax Zmin Zmax] in E0. rewrite EA in E0. cbn [bind] in E0. apply ok_inj in E0.
  assert (Inv : forall n, let e := again J e0 n in coils (tok e) = [] /\ bnd e = BFixed /\ e_nx e = 9%nat /\ e_ny e = 9%nat /\ Rmin e = 100 /\ Rmax e = 108 /\ Zmin e = -40 /\ Zmax e = 40 /\
    slv e = SMatrix (MGJacobi 81 A 5 2 None)).
  { induction n as [|n IH]; cbn zeta; [cbn [again]; rewrite <- E0; repeat split|]. cbn zeta in IH.
    destruct IH as (I1 & I2 & I3 & I4 & I5 & I6 & I7 & I8 & I9).
    destruct (jacobi9_run (again J e0 n) A 5 2 J I1 I2 I3 I4 I5 I6 I7 I8 I9) as (e' & Ee). rewrite (again_next _ _ _ _ Ee).
    apply solve_inv in Ee as (u & Ja & q1 & rhs & x & q & I & d1 & d2 & b & _ & _ & _ & _ & _ & _ & _ & _ & _ & ->). cbn. repeat split; assumption. }
  intros n. destruct (Inv n) as (I1 & I2 & I3 & I4 & I5 & I6 & I7 & I8 & I9).
  destruct (jacobi9_run (again J e0 n) A 5 2 J I1 I2 I3 I4 I5 I6 I7 I8 I9) as (e' & Ee). rewrite (again_next _ _ _ _ Ee). exact Ee.
Qed.
