(** C29, C46, C47, C74, C75, C77: the Equilibrium object. *)
From Coq Require Import String List Arith ZArith QArith Bool Reals Lia Lra.
From Verif Require Import Py Num Numpy Linalg GradShafranov GradShafranovProofs GS4Proofs Multigrid MultigridProofs MultigridGS Coils Machine Romb RombProofs
  Critical CriticalSpec CriticalProofs2 CriticalProofs3 Boundary BoundarySpec BoundaryProofs Jtor Equilibrium EquilibriumSpec EquilibriumProofs GSSpec Gauss PropMultigrid.
Import ListNotations.
Local Open Scope R_scope.

(** C29 — whatever the matrix [A] of the direct solver. *)
Theorem C29_solve_equation : forall (P Ctl : Type) G mu0 lu spline
    (Jtor_call : P -> equilibrium R P Ctl -> (nat -> nat -> R) -> option R -> result ((nat -> nat -> R) * P * bstate R))
    (e e' : equilibrium R P Ctl) p Jo psi pb N A,
  slv e = SMatrix (MGDirect N A) -> solves_systems lu N A ->
  solve G sqrt mu0 lu spline Jtor_call e p Jo psi pb = Ok e' ->
  exists J p1,
    (* the current density used: the one given, or that of the profiles for the given or current flux *)
    jtor e' = Some J /\
    (forall J0, Jo = Some J0 -> J = J0) /\
    (Jo = None -> exists b1 b2 p' q, (psi = Some q \/ psi = None /\ total_psi e = Ok q) /\
       Jtor_call p (with_bs (with_profiles e (Some p) (control e)) b1) q pb = Ok (J, p', b2)) /\
    (* the equation *)
    applyBoundary G sqrt lu e J = Ok p1 /\
    (forall x y, inside (e_nx e) (e_ny e) x y ->
       mat_apply A (plasma_psi e') (e_nx e) (e_ny e) (x * e_ny e + y) = - mu0 * gridpt (Rmin e) (Rmax e) (e_nx e) x * J x y) /\
    (forall x y, on_edge (e_nx e) (e_ny e) x y ->
       mat_apply A (plasma_psi e') (e_nx e) (e_ny e) (x * e_ny e + y) = p1 x y) /\
    (* the current *)
    area_integral (e_nx e) (e_ny e) ((Rmax e - Rmin e) / INR (e_nx e - 1)) ((Zmax e - Zmin e) / INR (e_ny e - 1)) J (current e') /\
    (* everything else is kept *)
    (e_nx e', e_ny e', Rmin e', Rmax e', Zmin e', Zmax e') = (e_nx e, e_ny e, Rmin e, Rmax e, Zmin e, Zmax e) /\
    tok e' = tok e /\ bnd e' = bnd e /\ order e' = order e /\ slv e' = slv e /\ check_limited e' = check_limited e.
Proof.
  intros P Ctl G mu0 lu spline Jc e e' p Jo psi pb N A Hs Hn E.
  destruct (solve_inv _ _ _ _ _ _ _ _ _ _ _ _ E) as (e1 & J & p1 & rhs & x & p' & I & dR & dZ & b & -> & HJ & Hb & He & (q & Hc) & HI & HdR & HdZ & _ & ->).
  exists J, p1. cbn. unfold callSolver in Hc. rewrite Hs in Hc.
  destruct (direct_solves lu N (e_nx e) (e_ny e) A rhs x q p1 Hc Hn) as (_ & Hx).
  assert (Hpos : (0 < e_nx e /\ 0 < e_ny e)%nat).
  { destruct (Nat.eq_dec (e_nx e) 0); [rewrite set_edges_empty in He by lia; discriminate|].
    destruct (Nat.eq_dec (e_ny e) 0); [rewrite set_edges_empty in He by lia; discriminate|]. lia. }
  destruct (set_edges_spec (e_nx e) (e_ny e) (fun i j => nmul (nmul (nopp mu0) (grid_R e i j)) (J i j)) p1 (proj1 Hpos) (proj2 Hpos)) as (rhs' & E1 & Hr).
  rewrite He in E1. injection E1 as <-.
  split; [reflexivity|]. split; [intros J0 ->; apply HJ|].
  split.
  { intros ->. destruct HJ as (b1 & b2 & q0 & Hq & Hj). exists b1, b2, p', q0. split; [|exact Hj]. destruct psi; [left; congruence|right; auto]. }
  split; [exact Hb|]. split.
  { intros i j Hi. assert (Hij : (i < e_nx e /\ j < e_ny e)%nat) by (unfold inside in Hi; lia). rewrite Hx by lia. rewrite (proj2 (Hr i j (proj1 Hij) (proj2 Hij)) Hi).
    unfold grid_R, R_1D. rewrite linspace_gridpt. reflexivity. }
  split.
  { intros i j Hi. assert (Hij : (i < e_nx e /\ j < e_ny e)%nat) by (unfold on_edge in Hi; lia). rewrite Hx by lia. exact (proj1 (Hr i j (proj1 Hij) (proj2 Hij)) Hi). }
  split; [|repeat split; reflexivity].
  exists I. split; [exact HI|].
  assert (H2 : (2 <= e_nx e /\ 2 <= e_ny e)%nat).
  { unfold spacing_R, spacing_Z in *. destruct (Nat.ltb_spec (e_nx e) 2); [discriminate|]. destruct (Nat.ltb_spec (e_ny e) 2); [rewrite orb_true_r in HdZ; discriminate|]. lia. }
  rewrite spacing_R_ok in HdR by lia. rewrite spacing_Z_ok in HdZ by lia. injection HdR as <-. injection HdZ as <-.
  rewrite <- !INR_IZR_INZ. ring.
Qed.
Print Assumptions C29_solve_equation.

(** The constructor makes a direct solver with the matrix of the chosen order. *)
Theorem C29_constructor_solver : forall (P Ctl : Type) G exp spline t rmin rmax zmin zmax nx ny b psi I ord chk (e : equilibrium R P Ctl),
  new_equilibrium G exp spline t rmin rmax zmin zmax nx ny b psi I ord chk = Ok e ->
  (ord = 2%nat /\ (exists A, GSsparse rmin rmax zmin zmax nx ny = Ok A /\ slv e = SMatrix (MGDirect (nx * ny) A)) \/
   ord = 4%nat /\ (exists A, GSsparse4thOrder rmin rmax zmin zmax nx ny = Ok A /\ slv e = SMatrix (MGDirect (nx * ny) A))) /\
  (e_nx e, e_ny e, Rmin e, Rmax e, Zmin e, Zmax e) = (nx, ny, rmin, rmax, zmin, zmax) /\
  tok e = t /\ bnd e = b /\ order e = ord /\ check_limited e = chk /\ current e = I /\
  (forall p, psi = Some p -> plasma_psi e = p).
Proof.
  intros P Ctl G exp spline t rmin rmax zmin zmax nx ny b psi I ord chk e E.
  destruct (new_inv _ _ _ _ _ _ _ _ _ _ _ _ _ _ _ _ E) as (_ & _ & -> & -> & -> & -> & -> & -> & -> & -> & -> & -> & -> & _ & _ & _ & Hp & _ & gen & A & Eg & EA & Es).
  split; [|repeat split; intros p ->; exact Hp].
  unfold generator_of in Eg. destruct (Nat.eqb_spec ord 2); [injection Eg as <-; left; eauto|].
  destruct (Nat.eqb_spec ord 4); [injection Eg as <-; right; eauto|discriminate].
Qed.
Print Assumptions C29_constructor_solver.

Theorem C29_second_order : forall (P Ctl : Type) G mu0 lu spline
    (Jtor_call : P -> equilibrium R P Ctl -> (nat -> nat -> R) -> option R -> result ((nat -> nat -> R) * P * bstate R))
    (e e' : equilibrium R P Ctl) p Jo psi pb A,
  exact_solver lu -> 0 <= Rmin e -> Rmin e < Rmax e -> Zmin e < Zmax e ->
  GSsparse (Rmin e) (Rmax e) (Zmin e) (Zmax e) (e_nx e) (e_ny e) = Ok A -> slv e = SMatrix (MGDirect (e_nx e * e_ny e) A) ->
  solve G sqrt mu0 lu spline Jtor_call e p Jo psi pb = Ok e' ->
  exists J p1, jtor e' = Some J /\ (forall J0, Jo = Some J0 -> J = J0) /\ applyBoundary G sqrt lu e J = Ok p1 /\
    (forall x y, on_edge (e_nx e) (e_ny e) x y -> plasma_psi e' x y = p1 x y) /\
    (forall x y, inside (e_nx e) (e_ny e) x y ->
       GSElliptic (Rmin e) (plasma_psi e') (e_nx e) (e_ny e) ((Rmax e - Rmin e) / INR (e_nx e - 1)) ((Zmax e - Zmin e) / INR (e_ny e - 1)) x y
       = - mu0 * gridpt (Rmin e) (Rmax e) (e_nx e) x * J x y) /\
    area_integral (e_nx e) (e_ny e) ((Rmax e - Rmin e) / INR (e_nx e - 1)) ((Zmax e - Zmin e) / INR (e_ny e - 1)) J (current e').
Proof.
  intros P Ctl G mu0 lu spline Jc e e' p Jo psi pb A Hlu H0 HR HZ EA Es E.
  assert (H2 : (2 <= e_nx e /\ 2 <= e_ny e)%nat).
  { destruct (solve_inv _ _ _ _ _ _ _ _ _ _ _ _ E) as (e1 & J & p1 & rhs & x & p' & I & dR & dZ & b & _ & _ & _ & _ & _ & _ & HdR & HdZ & _ & _).
    unfold spacing_R, spacing_Z in *. destruct (Nat.ltb_spec (e_nx e) 2); [discriminate|]. destruct (Nat.ltb_spec (e_ny e) 2); [rewrite orb_true_r in HdZ; discriminate|]. lia. }
  destruct H2 as (Hnx & Hny).
  assert (Hn : nonsingular (e_nx e * e_ny e) A).
  { destruct (C27_grad_shafranov_solvable (Rmin e) (Rmax e) (Zmin e) (Zmax e) 1 (e_nx e) (e_ny e) 1 2 true H0 HR HZ Hnx Hny) as (s & A' & Hc & Hs & EA' & _).
    unfold createVcycle in Hc. cbn [createVcycle_] in Hc. rewrite EA in Hc. cbn [bind] in Hc. injection Hc as <-. exact Hs. }
  destruct (C29_solve_equation P Ctl G mu0 lu spline Jc e e' p Jo psi pb _ A Es (fun b => Hlu _ A b Hn) E)
    as (J & p1 & HJ & HJ0 & _ & Hb & Hin & Hed & Hc & _).
  exists J, p1. split; [exact HJ|]. split; [exact HJ0|]. split; [exact Hb|].
  destruct (GSsparse_apply (Rmin e) (Rmax e) (Zmin e) (Zmax e) (e_nx e) (e_ny e) (plasma_psi e')) as (A' & EA' & Hrow).
  rewrite EA in EA'. injection EA' as <-.
  split.
  { intros x y Hxy. assert (Hl : (x < e_nx e /\ y < e_ny e)%nat) by (unfold on_edge in Hxy; lia). rewrite <- (Hed x y Hxy), (Hrow x y) by lia.
    destruct (interiorb_spec (e_nx e) (e_ny e) x y) as [Hi|Hi]; [|reflexivity]. unfold interior, on_edge in *. lia. }
  split; [|exact Hc].
  intros x y Hxy. assert (Hl : (x < e_nx e /\ y < e_ny e)%nat) by (unfold inside in Hxy; lia). rewrite <- (Hin x y Hxy), (Hrow x y) by lia.
  destruct (interiorb_spec (e_nx e) (e_ny e) x y) as [Hi|Hi]; [reflexivity|]. unfold interior, inside in *. lia.
Qed.
Print Assumptions C29_second_order.

(** Order 4, on the grids for which the matrix is right (C22, C23): where scipy's factorisation
    solves its systems, the flux has the boundary values and satisfies the equation whose rows
    are exact for polynomials of degree 4 in R and 5 in Z. *)
Theorem C29_fourth_order : forall (P Ctl : Type) G mu0 lu spline
    (Jtor_call : P -> equilibrium R P Ctl -> (nat -> nat -> R) -> option R -> result ((nat -> nat -> R) * P * bstate R))
    (e e' : equilibrium R P Ctl) p Jo psi pb A,
  (6 <= e_nx e)%nat -> (6 <= e_ny e)%nat -> Rmin e < Rmax e -> Zmin e < Zmax e ->
  GSsparse4thOrder (Rmin e) (Rmax e) (Zmin e) (Zmax e) (e_nx e) (e_ny e) = Ok A -> slv e = SMatrix (MGDirect (e_nx e * e_ny e) A) ->
  solves_systems lu (e_nx e * e_ny e) A ->
  solve G sqrt mu0 lu spline Jtor_call e p Jo psi pb = Ok e' ->
  exists J p1, jtor e' = Some J /\ (forall J0, Jo = Some J0 -> J = J0) /\ applyBoundary G sqrt lu e J = Ok p1 /\
    (forall x y, on_edge (e_nx e) (e_ny e) x y -> plasma_psi e' x y = p1 x y) /\
    (forall x y, inside (e_nx e) (e_ny e) x y ->
       mat_apply A (plasma_psi e') (e_nx e) (e_ny e) (x * e_ny e + y) = - mu0 * gridpt (Rmin e) (Rmax e) (e_nx e) x * J x y) /\
    area_integral (e_nx e) (e_ny e) ((Rmax e - Rmin e) / INR (e_nx e - 1)) ((Zmax e - Zmin e) / INR (e_ny e - 1)) J (current e').
Proof.
  intros P Ctl G mu0 lu spline Jc e e' p Jo psi pb A Hnx Hny HR HZ EA Es Hlu E.
  destruct (C29_solve_equation P Ctl G mu0 lu spline Jc e e' p Jo psi pb _ A Es Hlu E)
    as (J & p1 & HJ & HJ0 & _ & Hb & Hin & Hed & Hc & _).
  exists J, p1. split; [exact HJ|]. split; [exact HJ0|]. split; [exact Hb|]. split; [|split; [exact Hin|exact Hc]].
  destruct (GS4_apply (Rmin e) (Rmax e) (Zmin e) (Zmax e) (e_nx e) (e_ny e) Hnx Hny (plasma_psi e')) as (A' & EA' & _ & Hrow).
  rewrite EA in EA'. injection EA' as <-.
  intros x y Hxy. assert (Hl : (x < e_nx e /\ y < e_ny e)%nat) by (unfold on_edge in Hxy; lia).
  rewrite <- (Hed x y Hxy). symmetry. apply Hrow; [lia|lia|]. unfold interior, on_edge in *. lia.
Qed.
Print Assumptions C29_fourth_order.
(** A fixed-boundary solve of the second-order equation on a 5 x 5 grid with unit current density:
    the object is made, the solver is elimination, and the run succeeds. *)
Example C29_example : exists (e e' : equilibrium R unit unit) A,
  new_equilibrium (fun _ _ _ _ _ => 0) exp flat_spline (mktok [] false []) 1 2 (-1) 1 5 5 BFixed None 0 2 false = Ok e /\
  GSsparse 1 2 (-1) 1 5 5 = Ok A /\ slv e = SMatrix (MGDirect 25 A) /\ exact_solver elimination /\
  solve (fun _ _ _ _ _ => 0) sqrt 1 elimination flat_spline (fun _ _ _ _ => Raise TypeError) e tt (Some (fun _ _ => 1)) None None = Ok e'.
Proof.
  destruct (GSsparse_rows 1 2 (-1) 1 5 5) as (A & EA & _).
  destruct (romb2_dyadic 5 5 (fun _ _ => 1) (ex_intro _ 2%nat eq_refl) (ex_intro _ 2%nat eq_refl)) as (s & Es).
  set (e0 := mkeq (P := unit) (Ctl := unit) 5 5 1 2 (-1) 1 (mktok [] false []) BFixed 2 (SMatrix (MGDirect 25 A)) false
              (starting_guess exp 5 5) (fun i j => []) 0 None no_boundary None None).
  assert (Hupd : forall e p, e_nx e = 5%nat -> e_ny e = 5%nat -> Rmin e = 1 -> Rmax e = 2 -> Zmin e = -1 -> Zmax e = 1 -> coils (tok e) = [] ->
            update_plasma (P := unit) (Ctl := unit) flat_spline e 5 5 p = Ok (with_bs (with_plasma e p) (bs e))).
  { intros e p H1 H2 H3 H4 H5 H6 H7. assert (H := flat_update_plasma e p). rewrite H1, H2, H3, H4, H5, H6 in H. apply H; try lia; try lra; exact H7. }
  exists e0. eexists. exists A. split.
  { unfold new_equilibrium. cbn [Nat.ltb Nat.leb orb]. cbv zeta. rewrite Hupd by reflexivity. cbn [bind]. unfold generator_of. cbn [Nat.eqb bind].
    unfold createVcycle. cbn [createVcycle_]. rewrite EA. reflexivity. }
  split; [exact EA|]. split; [reflexivity|]. split; [intros N M b Hn r Hr; exact (elimination_solves N M b Hn r Hr)|].
  unfold solve. set (e1 := with_profiles e0 _ _).
  assert (E1 : update_own flat_spline e1 = Ok e1).
  { unfold update_own. destruct (no_coils_psi e1 eq_refl) as (psi & E & _). rewrite E. cbn [bind].
    rewrite (flat_update e1 psi) by (cbn; try lia; lra). reflexivity. }
  rewrite E1. cbn [bind]. unfold linear_solve, applyBoundary. change (bnd e1) with (BFixed (T := R)).
  unfold fixedBoundary. change (e_nx e1) with 5%nat. change (e_ny e1) with 5%nat.
  unfold set_edges. cbn [Nat.eqb orb bind]. unfold callSolver, solver_call. change (slv e1) with (SMatrix (MGDirect 25 A)).
  change (e_nx e1) with 5%nat. change (e_ny e1) with 5%nat. cbn [mg_call]. change (25 =? 5 * 5)%nat with true. cbn [bind].
  rewrite Hupd by reflexivity. cbn [bind].
  match goal with |- bind (romb2 ?a ?b ?c) _ = _ => change (romb2 a b c) with (romb2 5 5 (fun _ _ => 1)) end. rewrite Es. cbn [bind].
  reflexivity.
Qed.
