(** C194 and C195: several matrix-free V-cycles, and an equilibrium with a solver of the user. *)
From Coq Require Import List Arith ZArith QArith Bool Reals Lia Lra.
From Coquelicot Require Import Coquelicot.
From Verif Require Import Py Num Numpy Linalg GradShafranov GradShafranovProofs Multigrid MultigridProofs MultigridGS PropMultigrid Coils Machine Critical Romb Boundary BoundarySpec BoundaryProofs
  Equilibrium EquilibriumSpec EquilibriumProofs EquilibriumProofs2 EquilibriumProofs3 GSSpec Gauss EllipticSpec PropGreens PropBoundary PropEquilibrium PropSolveFlux PropSolveError.
Import ListNotations.
Local Open Scope R_scope.

(** ** C194: smoothMG *)
Lemma smoothMG_split {T} `{Num T} A nx ny (x b : arr2 T) dx dy niter n : forall c s,
  foldM (fun x (_ : nat) => smoothVcycle A nx ny x b dx dy niter n) (seq s c) x = smoothMG A nx ny x b dx dy niter n c.
Proof.
  intros c s. unfold smoothMG. generalize 0%nat. revert x s. induction c as [|c IH]; intros x s t; [reflexivity|].
  cbn [seq foldM]. destruct (smoothVcycle A nx ny x b dx dy niter n) as [x'|]; cbn [bind]; [apply IH|reflexivity].
Qed.
(** one cycle at a time; the cycles of two calls add up *)
Theorem C194_cycles : forall (A : operator (T := R)) nx ny x b dx dy niter n,
  smoothMG A nx ny x b dx dy niter n 0 = Ok x /\
  smoothMG A nx ny x b dx dy niter n 1 = smoothVcycle A nx ny x b dx dy niter n /\
  forall c d, smoothMG A nx ny x b dx dy niter n (c + d) = bind (smoothMG A nx ny x b dx dy niter n c) (fun x' => smoothMG A nx ny x' b dx dy niter n d).
Proof.
  intros A nx ny x b dx dy niter n. split; [reflexivity|]. split.
  - unfold smoothMG. cbn [seq foldM]. destruct (smoothVcycle A nx ny x b dx dy niter n); reflexivity.
  - intros c d. unfold smoothMG at 1. rewrite seq_app, foldM_app. unfold smoothMG at 1.
    destruct (foldM _ (seq 0 c) x) as [x'|]; cbn [bind]; [|reflexivity]. apply smoothMG_split.
Qed.
Print Assumptions C194_cycles.
Example C194_cycles_example : smoothMG (T := R) LaplacianOp 3 3 (fun _ _ => 0) (fun _ _ => 6) 1 1 1 0 2 =
  bind (smoothVcycle LaplacianOp 3 3 (fun _ _ => 0) (fun _ _ => 6) 1 1 1 0) (fun x => smoothVcycle LaplacianOp 3 3 x (fun _ _ => 6) 1 1 1 0).
Proof.
  destruct (C194_cycles LaplacianOp 3 3 (fun _ _ => 0) (fun _ _ => 6) 1 1 1 0) as (_ & H1 & H). etransitivity; [exact (H 1%nat 1%nat)|]. rewrite H1.
  destruct (smoothVcycle LaplacianOp 3 3 (fun _ _ => 0) (fun _ _ => 6) 1 1 1 0) as [x'|]; cbn [bind]; [|reflexivity].
  apply (C194_cycles LaplacianOp 3 3 x' (fun _ _ => 6) 1 1 1 0).
Qed.
(** on grids that can be halved as often as asked for it succeeds, keeps the values at the edge
    when b is zero there, and leaves an exact solution alone *)
Theorem C194_keeps : forall (A : operator (T := R)) n nx ny b dx dy niter c x,
  (A = LaplacianOp \/ exists Rmin, A = MkOp (GSElliptic Rmin) GSElliptic_diag) ->
  (1 <= nx)%nat -> (1 <= ny)%nat -> halvable_n n nx ny ->
  let inner i j := ((1 <= i)%nat /\ (i + 1 < nx)%nat /\ (1 <= j)%nat /\ (j + 1 < ny)%nat) in
  ((forall i j, (i < nx)%nat -> (j < ny)%nat -> ~ inner i j -> b i j = 0) ->
   exists x', smoothMG A nx ny x b dx dy niter n c = Ok x' /\
     forall i j, (i < nx)%nat -> (j < ny)%nat -> ~ inner i j -> x' i j = x i j) /\
  ((forall i j, (i < nx)%nat -> (j < ny)%nat -> op_call A x nx ny dx dy i j = b i j) ->
   exists x', smoothMG A nx ny x b dx dy niter n c = Ok x' /\
     forall i j, (i < nx)%nat -> (j < ny)%nat -> x' i j = x i j).
Proof.
  intros A n nx ny b dx dy niter c x HA Hx Hy Hh inner. revert x. induction c as [|c IH]; intros x; (split; intros Hb).
  - exists x. split; [reflexivity|auto].
  - exists x. split; [reflexivity|auto].
  - destruct (C85_matrix_free_boundary A n nx ny x b dx dy niter HA Hx Hy Hh) as [H1 _]. destruct (H1 Hb) as (x1 & E1 & K1).
    destruct (IH x1) as [H2 _]. destruct (H2 Hb) as (x2 & E2 & K2). exists x2. split.
    + unfold smoothMG. cbn [seq foldM]. rewrite E1. cbn [bind]. rewrite smoothMG_split. exact E2.
    + intros i j Hi Hj Hn. rewrite (K2 i j Hi Hj Hn). apply (K1 i j Hi Hj Hn).
  - destruct (C85_matrix_free_boundary A n nx ny x b dx dy niter HA Hx Hy Hh) as [_ H1]. destruct (H1 Hb) as (x1 & E1 & K1).
    assert (HL : op_linear A) by (destruct HA as [->|(Rmin & ->)]; [apply Laplacian_linear|apply GSE_linear]).
    assert (Hb1 : forall i j, (i < nx)%nat -> (j < ny)%nat -> op_call A x1 nx ny dx dy i j = b i j).
    { intros i j Hi Hj. rewrite <- (Hb i j Hi Hj).
      assert (E := HL nx ny dx dy 1 0 x x x1 ltac:(intros p q Hp Hq; rewrite (K1 p q Hp Hq); lra) i j Hi Hj). lra. }
    destruct (IH x1) as [_ H2]. destruct (H2 Hb1) as (x2 & E2 & K2). exists x2. split.
    + unfold smoothMG. cbn [seq foldM]. rewrite E1. cbn [bind]. rewrite smoothMG_split. exact E2.
    + intros i j Hi Hj. rewrite (K2 i j Hi Hj). apply (K1 i j Hi Hj).
Qed.
Print Assumptions C194_keeps.
Example C194_keeps_example : exists x', smoothMG (T := R) LaplacianOp 65 65 (fun i j => INR i) (fun _ _ => 0) 1 1 10 4 3 = Ok x' /\
  forall j, (j < 65)%nat -> x' 64%nat j = 64.
Proof.
  destruct (C194_keeps LaplacianOp 4 65 65 (fun _ _ => 0) 1 1 10 3 (fun i j => INR i) (or_introl eq_refl) ltac:(lia) ltac:(lia)) as [H _].
  { exact C85_example. }
  destruct (H ltac:(intros; reflexivity)) as (x' & E & K). exists x'. split; [exact E|]. intros j Hj. rewrite K by lia. rewrite INR_IZR_INZ. reflexivity.
Qed.
(** a grid that cannot be halved: the correction does not fit *)
Example C194_odd_grid_example : exists (x b : arr2 Q) nx ny, smoothMG LaplacianOp nx ny x b 1%Q 1%Q 1 1 1 = Raise ValueError.
Proof. exists (fun _ _ => 0%Q), (fun _ _ => 0%Q), 6%nat, 5%nat. vm_compute. reflexivity. Qed.

(** ** C195: setSolver *)
Section User.
  Context {P Ctl : Type}.
  Variables (G : field -> R -> R -> R -> R -> R) (mu : R) (lu : nat -> (nat -> nat -> R) -> (nat -> R) -> (nat -> R)).
  Variables (spline : nat -> nat -> (nat -> R) -> (nat -> R) -> (nat -> nat -> R) -> sfun R).
  Variable Jtor_call : P -> equilibrium R P Ctl -> (nat -> nat -> R) -> option R -> result ((nat -> nat -> R) * P * bstate R).
  Notation eqm := (equilibrium R P Ctl).
  Notation run e p Jo psi pb := (solve G sqrt mu lu spline Jtor_call e p Jo psi pb).
  Lemma two_points (e e' : eqm) p Jo psi pb : run e p Jo psi pb = Ok e' -> (2 <= e_nx e)%nat /\ (2 <= e_ny e)%nat.
  Proof.
    intros E. destruct (solve_inv _ _ _ _ _ _ _ _ _ _ _ _ E) as (e1 & J1 & p1 & rhs & x & p' & I & dR & dZ & b & _ & _ & _ & _ & _ & _ & HdR & HdZ & _ & _).
    unfold spacing_R, spacing_Z in *. destruct (Nat.ltb_spec (e_nx e) 2); [discriminate|]. destruct (Nat.ltb_spec (e_ny e) 2); [rewrite orb_true_r in HdZ; discriminate|]. lia.
  Qed.
  Lemma user_called (e e' : eqm) f p Jo psi pb J : run (setSolver e (SUser f)) p Jo psi pb = Ok e' -> jtor e' = Some J ->
    exists p1 rhs q, applyBoundary G sqrt lu (setSolver e (SUser f)) J = Ok p1 /\ f p1 rhs = Ok (q, plasma_psi e') /\
      (forall x y, on_edge (e_nx e) (e_ny e) x y -> rhs x y = p1 x y) /\
      (forall x y, inside (e_nx e) (e_ny e) x y -> rhs x y = - mu * gridpt (Rmin e) (Rmax e) (e_nx e) x * J x y) /\
      slv e' = SUser f.
  Proof.
    intros E EJ. destruct (two_points _ _ _ _ _ _ E) as [Hx Hy]. change (e_nx (setSolver e (SUser f))) with (e_nx e) in *. change (e_ny (setSolver e (SUser f))) with (e_ny e) in *.
    destruct (solve_inv _ _ _ _ _ _ _ _ _ _ _ _ E) as (e1 & J1 & p1 & rhs & x & p' & I & dR & dZ & b & _ & _ & Hb & He & (q & Hc) & _ & _ & _ & _ & ->).
    cbn in EJ. injection EJ as ->.
    change (set_edges (e_nx e) (e_ny e) (fun i j => nmul (nmul (nopp mu) (grid_R e i j)) (J i j)) p1 = Ok rhs) in He.
    destruct (set_edges_spec (e_nx e) (e_ny e) (fun i j => nmul (nmul (nopp mu) (grid_R e i j)) (J i j)) p1 ltac:(lia) ltac:(lia)) as (rhs' & E1 & Hr).
    rewrite He in E1. apply ok_inj in E1. subst rhs'.
    exists p1, rhs, q. split; [exact Hb|]. split; [exact Hc|]. split; [|split; [|reflexivity]].
    - intros i j Hi. assert (Hij : (i < e_nx e /\ j < e_ny e)%nat) by (unfold on_edge in Hi; lia). exact (proj1 (Hr i j (proj1 Hij) (proj2 Hij)) Hi).
    - intros i j Hi. assert (Hij : (i < e_nx e /\ j < e_ny e)%nat) by (unfold inside in Hi; lia). rewrite (proj2 (Hr i j (proj1 Hij) (proj2 Hij)) Hi).
      unfold grid_R, R_1D. rewrite linspace_gridpt. reflexivity.
  Qed.
End User.
(** The given solver is called with the flux at the edge as start and -mu0 R J inside as right hand
    side; what it returns is the plasma flux. *)
Theorem C195_called : forall (P Ctl : Type) G mu lu spline
    (Jtor_call : P -> equilibrium R P Ctl -> (nat -> nat -> R) -> option R -> result ((nat -> nat -> R) * P * bstate R))
    (e e' : equilibrium R P Ctl) f p Jo psi pb J,
  solve G sqrt mu lu spline Jtor_call (setSolver e (SUser f)) p Jo psi pb = Ok e' -> jtor e' = Some J ->
  exists p1 rhs q, applyBoundary G sqrt lu (setSolver e (SUser f)) J = Ok p1 /\ f p1 rhs = Ok (q, plasma_psi e') /\
    (forall x y, on_edge (e_nx e) (e_ny e) x y -> rhs x y = p1 x y) /\
    (forall x y, inside (e_nx e) (e_ny e) x y -> rhs x y = - mu * gridpt (Rmin e) (Rmax e) (e_nx e) x * J x y) /\
    slv e' = SUser f.
Proof. intros P Ctl G mu lu spline Jc e e' f p Jo psi pb J. apply user_called. Qed.
Print Assumptions C195_called.
(** An inexact solver: if it keeps the edge to within d and its residual is at most r, the flux is
    within d + (Zmax - Zmin)^2/8 r of the one of the direct solver. *)
Theorem C195_inexact : forall (P Ctl : Type) G mu lu spline
    (Jtor_call : P -> equilibrium R P Ctl -> (nat -> nat -> R) -> option R -> result ((nat -> nat -> R) * P * bstate R))
    (e eu ed : equilibrium R P Ctl) f pu pd ou od su sd tu td J d r,
  let L u x y := GSElliptic (Rmin e) u (e_nx e) (e_ny e) ((Rmax e - Rmin e) / INR (e_nx e - 1)) ((Zmax e - Zmin e) / INR (e_ny e - 1)) x y in
  exact_solver lu -> second_order e -> bnd e = BFixed \/ bnd e = BFree -> 0 <= r ->
  solve G sqrt mu lu spline Jtor_call (setSolver e (SUser f)) pu ou su tu = Ok eu -> jtor eu = Some J ->
  solve G sqrt mu lu spline Jtor_call e pd od sd td = Ok ed -> jtor ed = Some J ->
  (forall start b q x, f start b = Ok (q, x) ->
     (forall i j, on_edge (e_nx e) (e_ny e) i j -> Rabs (x i j - b i j) <= d) /\
     (forall i j, inside (e_nx e) (e_ny e) i j -> Rabs (L x i j - b i j) <= r)) ->
  forall x y, (x < e_nx e)%nat -> (y < e_ny e)%nat ->
    Rabs (plasma_psi eu x y - plasma_psi ed x y) <= d + (Zmax e - Zmin e) ^ 2 / 8 * r.
Proof.
  intros P Ctl G mu lu spline Jc e eu ed f pu pd ou od su sd tu td J d r L Hlu HS HB Hr Eu EJu Ed EJd Hf x y Hx Hy.
  destruct (user_called G mu lu spline Jc e eu f pu ou su tu J Eu EJu) as (p1 & rhs & q & Hb & Hc & He & Hi & _).
  destruct (PropSolveFlux.solved G mu lu spline Jc e ed pd od sd td J Hlu HS Ed EJd) as (p2 & Hb2 & Hnx & Hny & He2 & Hi2).
  assert (E12 : p1 = p2).
  { assert (EB : applyBoundary G sqrt lu (setSolver e (SUser f)) J = applyBoundary G sqrt lu e J) by (unfold applyBoundary; cbn; destruct HB as [-> | ->]; reflexivity).
    rewrite EB, Hb2 in Hb. apply ok_inj in Hb. symmetry. exact Hb. } subst p2.
  destruct (Hf _ _ _ _ Hc) as [F1 F2]. destruct HS as (H0 & HR & HZ & _).
  replace (plasma_psi eu x y - plasma_psi ed x y) with (1 * plasma_psi eu x y + (-1) * plasma_psi ed x y) by ring.
  apply (bounded (Rmin e) (Rmax e) (Zmin e) (Zmax e) (e_nx e) (e_ny e) (fun x y => 1 * plasma_psi eu x y + (-1) * plasma_psi ed x y) d r); try assumption.
  - intros i j Hij. rewrite GSElliptic_lin, (Hi2 i j Hij). specialize (F2 i j Hij). rewrite (Hi i j Hij) in F2. unfold L in F2.
    eapply Rle_trans; [right|exact F2]. f_equal. ring.
  - intros i j Hij. rewrite (He2 i j Hij), <- (He i j Hij). specialize (F1 i j Hij). eapply Rle_trans; [right|exact F1]. f_equal. ring.
Qed.
Print Assumptions C195_inexact.
(** a solver whose solution is 1/10 too large everywhere, on the 5 x 5 grid of [demo_run] *)
Definition off_by (A : nat -> nat -> R) (start b : nat -> nat -> R) : result ((nat -> nat -> R) * (nat -> nat -> R)) :=
  Ok (start, fun i j => unravel 5 (elimination 25 A (ravel 5 b)) i j + 1 / 10).
Lemma user_run A b f J : b = BFixed \/ b = BFree -> (forall q r, exists q' x, f q r = Ok (q', x)) ->
  exists e', solve (fun _ => green) sqrt 1 elimination flat_spline (fun _ _ _ _ => Raise TypeError) (setSolver (demo_eq b A) (SUser f)) tt (Some J) None None = Ok e' /\ jtor e' = Some J.
Proof.
  intros Hb Hf.
  assert (Hupd : forall e p, e_nx e = 5%nat -> e_ny e = 5%nat -> Rmin e = 1 -> Rmax e = 2 -> Zmin e = -1 -> Zmax e = 1 -> coils (tok e) = [] ->
            update_plasma (P := unit) (Ctl := unit) flat_spline e 5 5 p = Ok (with_bs (with_plasma e p) (bs e))).
  { intros e p H1 H2 H3 H4 H5 H6 H7. assert (H := flat_update_plasma e p). rewrite H1, H2, H3, H4, H5, H6 in H. apply H; try lia; try lra; exact H7. }
  destruct (romb2_dyadic 5 5 J (ex_intro _ 2%nat eq_refl) (ex_intro _ 2%nat eq_refl)) as (s & Es).
  set (e0 := setSolver (demo_eq b A) (SUser f)). set (e1 := with_profiles e0 (Some tt) (control e0)).
  assert (E1 : update_own flat_spline e1 = Ok e1).
  { unfold update_own. destruct (no_coils_psi e1 eq_refl) as (psi & E & _). rewrite E. cbn [bind].
    rewrite (flat_update e1 psi) by (cbn; try lia; lra). reflexivity. }
  assert (Eb : exists q, applyBoundary (P := unit) (Ctl := unit) (fun _ => green) sqrt elimination e1 J = Ok q).
  { unfold applyBoundary. change (bnd e1) with b. change (e_nx e1) with 5%nat. change (e_ny e1) with 5%nat. destruct Hb as [-> | ->].
    - destruct (proj1 (C28_fixed_boundary 5 5 (plasma_psi e1)) ltac:(lia)) as (q & Eq & _). exists q. exact Eq.
    - destruct (freeBoundary_spec green 5 5 (grid_R e1) (grid_Z e1) J (plasma_psi e1) (ex_intro _ 2%nat eq_refl) (ex_intro _ 2%nat eq_refl)) as (q & Eq & _). exists q. exact Eq. }
  destruct Eb as (q & Eb).
  destruct (set_edges_spec 5 5 (fun i j => nmul (nmul (nopp 1) (grid_R e1 i j)) (J i j)) q ltac:(lia) ltac:(lia)) as (rhs & Er & _).
  destruct (Hf q rhs) as (q' & x & Ef).
  eexists. unfold solve. fold e1. rewrite E1. cbn [bind]. unfold linear_solve. rewrite Eb. cbn [bind]. change (e_nx e1) with 5%nat. change (e_ny e1) with 5%nat.
  rewrite Er. cbn [bind]. unfold callSolver. change (slv e1) with (SUser (T := R) f). cbv beta iota. rewrite Ef. cbn [bind].
  rewrite Hupd by reflexivity. cbn [bind].
  match goal with |- bind (romb2 ?a ?b ?c) _ = _ /\ _ => change (romb2 a b c) with (romb2 5 5 J) end. rewrite Es. cbn [bind].
  split; reflexivity.
Qed.
Example C195_inexact_example : forall J, exists A eu ed,
  solve (fun _ => green) sqrt 1 elimination flat_spline (fun _ _ _ _ => Raise TypeError) (setSolver (demo_eq BFree A) (SUser (off_by A))) tt (Some J) None None = Ok eu /\
  solve (fun _ => green) sqrt 1 elimination flat_spline (fun _ _ _ _ => Raise TypeError) (demo_eq BFree A) tt (Some J) None None = Ok ed /\
  forall x y, (x < 5)%nat -> (y < 5)%nat -> Rabs (plasma_psi eu x y - plasma_psi ed x y) <= 1 / 10.
Proof.
  intros J. destruct demo_run as (A & HA). destruct (HA BFree (or_intror eq_refl)) as (_ & HS & Hlu & Hd). destruct (Hd J) as (ed & Ed & Jd).
  destruct (user_run A BFree (off_by A) J (or_intror eq_refl) ltac:(intros q r; unfold off_by; eauto)) as (eu & Eu & Ju).
  exists A, eu, ed. split; [exact Eu|]. split; [exact Ed|]. intros x y Hx Hy.
  replace (1 / 10) with (1 / 10 + (Zmax (demo_eq BFree A) - Zmin (demo_eq BFree A)) ^ 2 / 8 * 0) by ring.
  apply (C195_inexact unit unit (fun _ => green) 1 elimination flat_spline (fun _ _ _ _ => Raise TypeError) (demo_eq BFree A) eu ed (off_by A) tt tt (Some J) (Some J) None None None None J (1 / 10) 0 Hlu HS (or_intror eq_refl) ltac:(lra) Eu Ju Ed Jd); [|exact Hx|exact Hy].
  intros start b q u Ef. unfold off_by in Ef. apply ok_inj in Ef. assert (Eu' : u = fun i j => unravel 5 (elimination 25 A (ravel 5 b)) i j + 1 / 10) by (injection Ef; auto). clear Ef. subst u.
  set (u := unravel 5 (elimination 25 A (ravel 5 b))).
  destruct HS as (_ & _ & _ & A' & EA & Es). change (SMatrix (MGDirect 25 A) = SMatrix (MGDirect (e_nx (demo_eq BFree A) * e_ny (demo_eq BFree A)) A')) in Es. injection Es as Es. subst A'.
  change (GSsparse 1 2 (-1) 1 5 5 = Ok A) in EA.
  assert (Hn : nonsingular (5 * 5) A).
  { destruct (C27_grad_shafranov_solvable 1 2 (-1) 1 1 5 5 1 2 true ltac:(lra) ltac:(lra) ltac:(lra) ltac:(lia) ltac:(lia)) as (s & A' & Hc & Hs & EA' & _).
    unfold createVcycle in Hc. cbn [createVcycle_] in Hc. rewrite EA in Hc. cbn [bind] in Hc. injection Hc as <-. exact Hs. }
  assert (Hm : forall x y, (x < 5)%nat -> (y < 5)%nat -> mat_apply A u 5 5 (x * 5 + y) = b x y).
  { apply (direct_solves elimination 25 5 5 A b u start start); [reflexivity|]. intros v. exact (Hlu _ A v Hn). }
  destruct (GSsparse_apply 1 2 (-1) 1 5 5 u) as (A' & EA' & Hrow). rewrite EA in EA'. injection EA' as <-.
  cbn [e_nx e_ny Rmin Rmax Zmin Zmax demo_eq]. split.
  - intros i j Hij. assert (Hl : (i < 5 /\ j < 5)%nat) by (unfold on_edge in Hij; lia). rewrite <- (Hm i j) by lia. rewrite (Hrow i j) by lia.
    destruct (interiorb_spec 5 5 i j) as [Hi|Hi]; [unfold interior, on_edge in *; lia|].
    replace (u i j + 1 / 10 - u i j) with (1 / 10) by ring. rewrite Rabs_pos_eq; lra.
  - intros i j Hij. assert (Hl : (i < 5 /\ j < 5)%nat) by (unfold inside in Hij; lia). rewrite <- (Hm i j) by lia. rewrite (Hrow i j) by lia.
    destruct (interiorb_spec 5 5 i j) as [Hi|Hi]; [|unfold interior, inside in *; lia].
    set (dx := (2 - 1) / INR (5 - 1)). set (dy := (1 - -1) / INR (5 - 1)).
    assert (E : GSElliptic 1 (fun i j => u i j + 1 / 10) 5 5 dx dy i j = GSElliptic 1 (fun i j => 1 * u i j + 1 * (fun _ _ => 1 / 10) i j) 5 5 dx dy i j).
    { rewrite !GSElliptic_closed. destruct (interiorb 5 5 i j); [|reflexivity]. rewrite !Rmult_1_l. reflexivity. }
    rewrite E, (GSElliptic_lin 1 u (fun _ _ => 1 / 10)), elliptic_const.
    match goal with |- Rabs ?t <= 0 => replace t with 0 by ring end. rewrite Rabs_R0. lra.
Qed.
(** The solver set last is the one used, and nothing else is touched. *)
Theorem C195_last : forall (P Ctl : Type) (e : equilibrium R P Ctl) s1 s2 nl nc ni d e1,
  setSolver (setSolver e s1) s2 = setSolver e s2 /\
  (setSolverVcycle (setSolver e s1) nl nc ni d = setSolverVcycle e nl nc ni d) /\
  (setSolverVcycle e nl nc ni d = Ok e1 -> setSolver e1 s2 = setSolver e s2) /\
  setSolver e (slv e) = e /\
  (plasma_psi (setSolver e s1), e_nx (setSolver e s1), e_ny (setSolver e s1), Rmin (setSolver e s1), Rmax (setSolver e s1), Zmin (setSolver e s1), Zmax (setSolver e s1))
    = (plasma_psi e, e_nx e, e_ny e, Rmin e, Rmax e, Zmin e, Zmax e) /\
  (bnd (setSolver e s1), order (setSolver e s1), current (setSolver e s1), jtor (setSolver e s1), bs (setSolver e s1), tok (setSolver e s1))
    = (bnd e, order e, current e, jtor e, bs e, tok e).
Proof.
  intros P Ctl e s1 s2 nl nc ni d e1. split; [reflexivity|]. split; [reflexivity|]. split; [|split; [|split; reflexivity]].
  - unfold setSolverVcycle. destruct (createVcycle _ _ _ _ _ _ _) as [s|]; cbn [bind]; [|discriminate]. intros E. apply ok_inj in E. subst e1. reflexivity.
  - destruct e. reflexivity.
Qed.
Print Assumptions C195_last.
Example C195_last_example : forall A, slv (setSolver (demo_eq BFixed A) (SUser (off_by A))) = SUser (off_by A) /\ setSolver (setSolver (demo_eq BFixed A) (SUser (off_by A))) (SMatrix (MGDirect 25 A)) = demo_eq BFixed A.
Proof. intros A. split; [reflexivity|]. reflexivity. Qed.
