(** C211 with the fourth-order solver: similar devices. *)
From Coq Require Import String List Arith ZArith QArith Bool Reals Lra Lia Classical.
From Verif Require Import Py Num Numpy Romb RombProofs RombExact Multigrid MultigridProofs Gauss Coils Machine Critical CriticalSpec CriticalProofs Boundary BoundarySpec BoundaryProofs PropCritical Jtor JtorSpec JtorProofs PropJtor
  GradShafranov GradShafranovProofs Equilibrium EquilibriumSpec EquilibriumProofs EquilibriumProofs2 EquilibriumProofs3 GSSpec GS4Proofs FourthProofs EllipticSpec PropGreens PropBoundary PropEquilibrium FittingProofs PropSolveFlux PropSolveError PropEquilibrium2 PropPicardLimit PropStart PropFourth PropFourthSign PropSimilar.
Import ListNotations.
Local Open Scope R_scope.

(** ** Proofs *)
(** Every row of the matrix of the larger device is 1/k^2 times the row of the smaller one. *)
Lemma row_scaled k rmin rmax zmin zmax nx ny A A' psi x y : (6 <= nx)%nat -> (6 <= ny)%nat -> 0 < k ->
  GSsparse4thOrder rmin rmax zmin zmax nx ny = Ok A -> GSsparse4thOrder (k * rmin) (k * rmax) (k * zmin) (k * zmax) nx ny = Ok A' ->
  GradShafranovProofs.interior nx ny x y -> mat_apply A' psi nx ny (x * ny + y) = / (k * k) * mat_apply A psi nx ny (x * ny + y).
Proof.
  intros Hx Hy Hk EA EA' H. rewrite (row_in _ _ _ _ _ _ _ Hx Hy EA psi x y H), (row_in _ _ _ _ _ _ _ Hx Hy EA' psi x y H).
  set (a := lsum _). set (b := lsum _). set (c := lsum _).
  replace ((k * rmax - k * rmin) / INR (nx - 1)) with (k * ((rmax - rmin) / INR (nx - 1))) by (unfold Rdiv; ring). set (dR := (rmax - rmin) / INR (nx - 1)).
  replace ((k * zmax - k * zmin) / INR (ny - 1)) with (k * ((zmax - zmin) / INR (ny - 1))) by (unfold Rdiv; ring). set (dZ := (zmax - zmin) / INR (ny - 1)).
  replace (k * dZ * (k * dZ)) with ((k * k) * (dZ * dZ)) by ring. replace (k * dR * (k * dR)) with ((k * k) * (dR * dR)) by ring.
  replace (k * dR * (k * rmin + k * dR * INR x)) with ((k * k) * (dR * (rmin + dR * INR x))) by ring. unfold Rdiv. rewrite !(Rinv_mult (k * k)). ring.
Qed.
Lemma flux_same (G : R -> R -> R -> R -> R) kx ky gR gZ J J' u w v :
  let nx := S (2 ^ kx) in let ny := S (2 ^ ky) in (forall i j, (i < nx)%nat -> (j < ny)%nat -> J i j = J' i j) ->
  plasma_flux_at G nx ny gR gZ J u w v -> plasma_flux_at G nx ny gR gZ J' u w v.
Proof.
  intros nx ny HJ (w1 & V1 & ->). exists w1. split; [|reflexivity]. unfold nx, ny in *. rewrite romb2_R2 in *. rewrite <- V1. f_equal. apply RombProofs.R2_ext. intros i j Hi Hj. rewrite HJ by lia. reflexivity.
Qed.

(** ** C211 *)
(** solve with the fourth-order matrix in a device k times as large, with the current density divided by k^2: the plasma flux is
    multiplied by k and the plasma current is the same. *)
Theorem C211_fourth : forall (P Ctl : Type) G mu lu spline
    (Jtor_call : P -> equilibrium R P Ctl -> (nat -> nat -> R) -> option R -> result ((nat -> nat -> R) * P * bstate R))
    (e e' e1 e1' : equilibrium R P Ctl) p p' o o' psi psi' pb pb' J J' k,
  fourth_order lu e -> fourth_order lu e' -> 0 < k -> larger k e e' ->
  (bnd e = BFixed /\ bnd e' = BFixed \/ bnd e = BFree /\ bnd e' = BFree) ->
  (forall a b r z, G FPsi (k * a) (k * b) (k * r) (k * z) = k * G FPsi a b r z) ->
  solve G sqrt mu lu spline Jtor_call e p o psi pb = Ok e1 -> jtor e1 = Some J ->
  solve G sqrt mu lu spline Jtor_call e' p' o' psi' pb' = Ok e1' -> jtor e1' = Some J' ->
  (forall x y, (x < e_nx e)%nat -> (y < e_ny e)%nat -> J' x y = J x y / (k * k)) ->
  current e1' = current e1 /\
  forall x y, (x < e_nx e)%nat -> (y < e_ny e)%nat -> plasma_psi e1' x y = k * plasma_psi e1 x y.
Proof.
  intros P Ctl G mu lu spline Jc e e' e1 e1' p p' o o' psi psi' pb pb' J J' k HF HF' Hk HL HB HG E EJ E' EJ' HJ.
  assert (HF0 := HF). destruct HF0 as (Hnx & Hny & HR & HZ & A & EA & Es & HA). assert (HF0 := HF'). destruct HF0 as (_ & _ & _ & _ & A' & EA' & _ & _).
  destruct (solved4 G mu lu spline Jc e e1 _ _ _ _ J A HF EA E EJ) as (q1 & Q1 & He1 & Hi1).
  destruct (solved4 G mu lu spline Jc e' e1' _ _ _ _ J' A' HF' EA' E' EJ') as (q2 & Q2 & He2 & Hi2).
  destruct (solve_inv _ _ _ _ _ _ _ _ _ _ _ _ E) as (ea & Ja & pa & rhsa & xa & pa' & I & dR & dZ & ba & _ & _ & _ & _ & _ & HI & HdR & HdZ & _ & Ee).
  destruct (solve_inv _ _ _ _ _ _ _ _ _ _ _ _ E') as (eb & Jb & pb1 & rhsb & xb & pb1' & I' & dR' & dZ' & bb & _ & _ & _ & _ & _ & HI' & HdR' & HdZ' & _ & Ee').
  assert (X1 : Some Ja = Some J) by (rewrite <- EJ, Ee; reflexivity). assert (X2 : Some Jb = Some J') by (rewrite <- EJ', Ee'; reflexivity). injection X1 as ->. injection X2 as ->.
  destruct HL as (N & M & A1 & A2 & A3 & A4).
  destruct (romb2_ok _ _ _ _ HI) as (kx & ky & Ex & Ey).
  assert (gR : forall i j, grid_R e' i j = k * grid_R e i j) by (intros; rewrite !gridR_is, N, A1, A2; apply gridpt_scaled).
  assert (gZ : forall i j, grid_Z e' i j = k * grid_Z e i j) by (intros; rewrite !gridZ_is, M, A3, A4; apply gridpt_scaled).
  rewrite N, M, A1, A2, A3, A4 in EA'. rewrite N, M in He2. rewrite N, M, A1, A2 in Hi2.
  split.
  - rewrite Ee, Ee'. cbn [current with_profiles with_current]. rewrite N, M in HI', HdR', HdZ'.
    rewrite spacing_R_ok in HdR, HdR' by lia. rewrite spacing_Z_ok in HdZ, HdZ' by lia.
    apply ok_inj in HdR. apply ok_inj in HdR'. apply ok_inj in HdZ. apply ok_inj in HdZ'. subst dR dR' dZ dZ'. rewrite !gR, !gZ.
    rewrite Ex, Ey, romb2_R2 in HI, HI'. apply ok_inj in HI. apply ok_inj in HI'. subst I I'.
    rewrite (RombProofs.R2_ext kx ky J' (fun i j => / (k * k) * J i j)) by (intros; rewrite HJ by (rewrite ?Ex, ?Ey; lia); unfold Rdiv; ring).
    rewrite RombProofs.R2_scal. nR. field. lra.
  - apply (unique4 (Rmin e) (Rmax e) (Zmin e) (Zmax e) (e_nx e) (e_ny e) A Hnx Hny EA lu (plasma_psi e1') (fun x y => k * plasma_psi e1 x y) HA).
    + intros x y Hxy. assert (Hin := inside_cases _ _ _ _ Hxy).
      assert (L := mat_apply_lin A (plasma_psi e1) (plasma_psi e1) (e_nx e) (e_ny e) k 0 (x * e_ny e + y)).
      assert (L2 : mat_apply A (fun x y => k * plasma_psi e1 x y) (e_nx e) (e_ny e) (x * e_ny e + y) = k * mat_apply A (plasma_psi e1) (e_nx e) (e_ny e) (x * e_ny e + y)).
      { rewrite (row_in _ _ _ _ _ _ _ Hnx Hny EA _ x y Hxy). rewrite (row_in _ _ _ _ _ _ _ Hnx Hny EA (fun x y => k * plasma_psi e1 x y + 0 * plasma_psi e1 x y) x y Hxy) in L.
        rewrite Rmult_0_l, Rplus_0_r in L. rewrite <- L. f_equal; [f_equal|]; f_equal; f_equal; apply map_ext; intros ow; ring. }
      rewrite L2, (Hi1 x y Hin). specialize (Hi2 x y Hin). rewrite (row_scaled k _ _ _ _ _ _ _ _ _ x y Hnx Hny Hk EA EA' Hxy), gridpt_scaled in Hi2. rewrite HJ in Hi2 by (unfold inside in Hin; lia).
      set (D := mat_apply A (plasma_psi e1') (e_nx e) (e_ny e) (x * e_ny e + y)) in *.
      assert (HD : D = (k * k) * (/ (k * k) * D)) by (field; lra). rewrite HD, Hi2. field. lra.
    + intros u w Hu Hw Hnot. assert (Hed := edge_cases _ _ _ _ Hu Hw Hnot). rewrite He1, He2 by exact Hed. unfold applyBoundary in Q1, Q2. destruct HB as [(B1 & B2)|(B1 & B2)]; rewrite B1 in Q1; rewrite B2 in Q2; rewrite N, M in Q2.
      * destruct (proj1 (C28_fixed_boundary (e_nx e) (e_ny e) (plasma_psi e)) ltac:(lia)) as (q & Eq & F).
        destruct (proj1 (C28_fixed_boundary (e_nx e) (e_ny e) (plasma_psi e')) ltac:(lia)) as (q' & Eq' & F').
        rewrite Eq in Q1. rewrite Eq' in Q2. apply ok_inj in Q1. apply ok_inj in Q2. subst q q'.
        rewrite (proj1 (F u w Hu Hw) Hed), (proj1 (F' u w Hu Hw) Hed). ring.
      * destruct (freeBoundary_spec (G FPsi) (e_nx e) (e_ny e) (grid_R e) (grid_Z e) J (plasma_psi e) (ex_intro _ kx Ex) (ex_intro _ ky Ey)) as (q & Eq & F).
        rewrite Q1 in Eq. apply ok_inj in Eq. subst q.
        destruct (freeBoundary_spec (G FPsi) (e_nx e) (e_ny e) (grid_R e') (grid_Z e') J' (plasma_psi e') (ex_intro _ kx Ex) (ex_intro _ ky Ey)) as (q & Eq & F').
        rewrite Q2 in Eq. apply ok_inj in Eq. subst q.
        assert (V := proj1 (F u w Hu Hw) Hed). assert (V' := proj1 (F' u w Hu Hw) Hed). rewrite Ex, Ey in V, V'.
        apply (flux_scaled (G FPsi) k kx ky _ _ _ _ J u w _ _ Hk HG gR gZ V).
        apply (flux_same (G FPsi) kx ky _ _ J'); [|exact V']. intros i j Hi Hj. apply HJ; rewrite ?Ex, ?Ey; assumption.
Qed.
Print Assumptions C211_fourth.
(** A device on a grid on which the matrix is regular and one [k] times as large, with any current density: both runs succeed and the
    hypotheses hold. *)
Lemma nine_sized k : 0 < k -> exists A, fourth_order elimination (box9 (k * 100) (k * 108) (k * 40) A).
Proof.
  intros Hk. destruct (C218_regular elimination (k * 100) (k * 108) (- (k * 40)) (k * 40) 9 elimination_exact) as (A & EA & HA); try lia; try lra.
  { cbn [Nat.sub INR]. lra. }
  exists A. unfold fourth_order. cbn [Rmin Rmax Zmin Zmax e_nx e_ny slv box9]. split; [lia|]. split; [lia|]. split; [lra|]. split; [lra|]. exists A. split; [exact EA|]. split; [reflexivity|exact HA].
Qed.
Example C211_fourth_example : forall k J, 0 < k -> exists A A' e1 e1',
  let run B l j := solve (fun _ _ _ _ _ => 0) sqrt 1 elimination flat_spline given (box9 (l * 100) (l * 108) (l * 40) B) j None (Some (fun _ _ => 0)) None in
  run A 1 J = Ok e1 /\ run A' k (fun x y => J x y / (k * k)) = Ok e1' /\ current e1' = current e1 /\
  forall x y, (x < 9)%nat -> (y < 9)%nat -> plasma_psi e1' x y = k * plasma_psi e1 x y.
Proof.
  intros k J Hk. destruct (nine_sized 1 ltac:(lra)) as (A & HF), (nine_sized k Hk) as (A' & HF'). exists A, A'.
  destruct (box9_run (1 * 100) (1 * 108) (1 * 40) 1 elimination A J ltac:(lra) ltac:(lra)) as (e1 & E1 & EJ1).
  destruct (box9_run (k * 100) (k * 108) (k * 40) 1 elimination A' (fun x y => J x y / (k * k)) ltac:(lra) ltac:(lra)) as (e1' & E1' & EJ1').
  exists e1, e1'. cbv zeta. split; [exact E1|]. split; [exact E1'|].
  apply (C211_fourth _ _ (fun _ _ _ _ _ => 0) 1 elimination flat_spline given (box9 (1 * 100) (1 * 108) (1 * 40) A) (box9 (k * 100) (k * 108) (k * 40) A') e1 e1' J (fun x y => J x y / (k * k)) None None (Some (fun _ _ => 0)) (Some (fun _ _ => 0)) None None J (fun x y => J x y / (k * k)) k HF HF' Hk);
    try assumption; [unfold larger; cbn; repeat split; lra|left; split; reflexivity|intros; ring|intros; reflexivity].
Qed.
