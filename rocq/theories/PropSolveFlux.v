(** C166-C168: the plasma flux found by solve, in terms of the current density. *)
From Coq Require Import String List Arith ZArith QArith Bool Reals Lia Lra.
From Verif Require Import Py Num Numpy Linalg GradShafranov GradShafranovProofs GS4Proofs Multigrid MultigridProofs MultigridGS Coils Machine Romb RombProofs RombExact
  Critical CriticalSpec CriticalProofs2 CriticalProofs3 Boundary BoundarySpec BoundaryProofs PropBoundary Jtor Equilibrium EquilibriumSpec EquilibriumProofs GSSpec Gauss PropMultigrid PropGS PropEquilibrium EllipticSpec PropGreens.
Import ListNotations.
Local Open Scope R_scope.

(** The linear solver is the direct one with the second order matrix (the constructor with order=2, or
    setSolverVcycle with its defaults), and the domain does not reach the axis. *)
Definition second_order {P Ctl} (e : equilibrium R P Ctl) : Prop :=
  0 <= Rmin e /\ Rmin e < Rmax e /\ Zmin e < Zmax e /\
  exists A, GSsparse (Rmin e) (Rmax e) (Zmin e) (Zmax e) (e_nx e) (e_ny e) = Ok A /\ slv e = SMatrix (MGDirect (e_nx e * e_ny e) A).

(** ** The discrete operator *)
Lemma sign_principle rmin rmax zmin zmax nx ny (u : nat -> nat -> R) : 0 <= rmin -> rmin < rmax -> zmin < zmax -> (2 <= nx)%nat -> (2 <= ny)%nat ->
  (forall x y, inside nx ny x y -> GSElliptic rmin u nx ny ((rmax - rmin) / INR (nx - 1)) ((zmax - zmin) / INR (ny - 1)) x y <= 0) ->
  (forall x y, on_edge nx ny x y -> 0 <= u x y) -> forall x y, (x < nx)%nat -> (y < ny)%nat -> 0 <= u x y.
Proof.
  intros H0 HR HZ Hnx Hny Hi He. destruct (C21_well_posed rmin rmax zmin zmax nx ny H0 HR HZ Hnx Hny) as (A & EA & _ & _ & S & _). apply S.
  - intros x y Hxy. destruct (C19_sparse_is_elliptic rmin rmax zmin zmax nx ny u) as (A' & EA' & H). rewrite EA in EA'. injection EA' as <-.
    rewrite (proj1 (H x y ltac:(lia) ltac:(lia))) by exact Hxy. apply Hi. unfold inside. lia.
  - intros x y Hx Hy Hxy. destruct (C19_sparse_is_elliptic rmin rmax zmin zmax nx ny u) as (A' & EA' & H). rewrite EA in EA'. injection EA' as <-.
    rewrite (proj2 (H x y ltac:(lia) ltac:(lia))) by exact Hxy. apply He. unfold on_edge. lia.
Qed.
Lemma sub_principle rmin rmax zmin zmax nx ny (u v : nat -> nat -> R) : 0 <= rmin -> rmin < rmax -> zmin < zmax -> (2 <= nx)%nat -> (2 <= ny)%nat ->
  (forall x y, inside nx ny x y -> GSElliptic rmin u nx ny ((rmax - rmin) / INR (nx - 1)) ((zmax - zmin) / INR (ny - 1)) x y <=
                                   GSElliptic rmin v nx ny ((rmax - rmin) / INR (nx - 1)) ((zmax - zmin) / INR (ny - 1)) x y) ->
  (forall x y, on_edge nx ny x y -> v x y <= u x y) -> forall x y, (x < nx)%nat -> (y < ny)%nat -> v x y <= u x y.
Proof.
  intros H0 HR HZ Hnx Hny Hi He x y Hx Hy. cut (0 <= 1 * u x y + (-1) * v x y); [lra|].
  apply (sign_principle rmin rmax zmin zmax nx ny (fun x y => 1 * u x y + (-1) * v x y)); try assumption.
  - intros x' y' H. rewrite GSElliptic_lin. specialize (Hi x' y' H). lra.
  - intros x' y' H. specialize (He x' y' H). lra.
Qed.
Lemma uniqueness rmin rmax zmin zmax nx ny (u v : nat -> nat -> R) : 0 <= rmin -> rmin < rmax -> zmin < zmax -> (2 <= nx)%nat -> (2 <= ny)%nat ->
  (forall x y, inside nx ny x y -> GSElliptic rmin u nx ny ((rmax - rmin) / INR (nx - 1)) ((zmax - zmin) / INR (ny - 1)) x y =
                                   GSElliptic rmin v nx ny ((rmax - rmin) / INR (nx - 1)) ((zmax - zmin) / INR (ny - 1)) x y) ->
  (forall x y, on_edge nx ny x y -> u x y = v x y) -> forall x y, (x < nx)%nat -> (y < ny)%nat -> u x y = v x y.
Proof.
  intros H0 HR HZ Hnx Hny Hi He x y Hx Hy. apply Rle_antisym; apply (sub_principle rmin rmax zmin zmax nx ny); try assumption.
  - intros x' y' H. right. symmetry. apply Hi, H.
  - intros x' y' H. right. apply He, H.
  - intros x' y' H. right. apply Hi, H.
  - intros x' y' H. right. symmetry. apply He, H.
Qed.
Lemma elliptic_const rmin nx ny dR dZ c x y : GSElliptic rmin (fun _ _ => c) nx ny dR dZ x y = 0.
Proof. rewrite GSElliptic_closed. destruct (interiorb nx ny x y); [|reflexivity]. unfold Rdiv. ring. Qed.

Section Solve.
  Context {P Ctl : Type}.
  Variables (G : field -> R -> R -> R -> R -> R) (mu : R) (lu : nat -> (nat -> nat -> R) -> (nat -> R) -> (nat -> R)).
  Variables (spline : nat -> nat -> (nat -> R) -> (nat -> R) -> (nat -> nat -> R) -> sfun R).
  Variable Jtor_call : P -> equilibrium R P Ctl -> (nat -> nat -> R) -> option R -> result ((nat -> nat -> R) * P * bstate R).
  Notation slv1 e p Jo psi pb := (solve G sqrt mu lu spline Jtor_call e p Jo psi pb).
  Lemma solved e e' p Jo psi pb J : exact_solver lu -> second_order e -> slv1 e p Jo psi pb = Ok e' -> jtor e' = Some J ->
    exists p1, applyBoundary G sqrt lu e J = Ok p1 /\ (2 <= e_nx e)%nat /\ (2 <= e_ny e)%nat /\
    (forall x y, on_edge (e_nx e) (e_ny e) x y -> plasma_psi e' x y = p1 x y) /\
    (forall x y, inside (e_nx e) (e_ny e) x y ->
       GSElliptic (Rmin e) (plasma_psi e') (e_nx e) (e_ny e) ((Rmax e - Rmin e) / INR (e_nx e - 1)) ((Zmax e - Zmin e) / INR (e_ny e - 1)) x y
       = - mu * gridpt (Rmin e) (Rmax e) (e_nx e) x * J x y).
  Proof.
    intros Hlu (H0 & HR & HZ & A & EA & Es) E EJ.
    assert (H2 : (2 <= e_nx e /\ 2 <= e_ny e)%nat).
    { destruct (solve_inv _ _ _ _ _ _ _ _ _ _ _ _ E) as (e1 & J1 & p1 & rhs & x & p' & I & dR & dZ & b & _ & _ & _ & _ & _ & _ & HdR & HdZ & _ & _).
      unfold spacing_R, spacing_Z in *. destruct (Nat.ltb_spec (e_nx e) 2); [discriminate|]. destruct (Nat.ltb_spec (e_ny e) 2); [rewrite orb_true_r in HdZ; discriminate|]. lia. }
    destruct (C29_second_order P Ctl G mu lu spline Jtor_call e e' p Jo psi pb A Hlu H0 HR HZ EA Es E) as (J' & p1 & EJ' & _ & Eb & He & Hi & _).
    rewrite EJ in EJ'. injection EJ' as <-. exists p1. repeat (split; [solve [assumption|lia]|]). exact Hi.
  Qed.
End Solve.

Lemma gridR_is {P Ctl} (e : equilibrium R P Ctl) i j : grid_R e i j = gridpt (Rmin e) (Rmax e) (e_nx e) i.
Proof. apply linspace_gridpt. Qed.
Lemma gridZ_is {P Ctl} (e : equilibrium R P Ctl) i j : grid_Z e i j = gridpt (Zmin e) (Zmax e) (e_ny e) j.
Proof. apply linspace_gridpt. Qed.
Lemma gridpt_ge a b n i : a < b -> (2 <= n)%nat -> a <= gridpt a b n i.
Proof.
  intros H Hn. unfold gridpt. assert (0 < INR (n - 1)) by (apply lt_0_INR; lia). assert (0 <= INR i) by apply pos_INR.
  assert (0 < (b - a) / INR (n - 1)) by (apply Rdiv_lt_0_compat; lra). nra.
Qed.
Lemma gridpt_step a b n : a < b -> (2 <= n)%nat -> gridpt a b n 0 < gridpt a b n 1.
Proof.
  intros H Hn. unfold gridpt. cbn [INR]. assert (0 < INR (n - 1)) by (apply lt_0_INR; lia).
  assert (0 < (b - a) / INR (n - 1)) by (apply Rdiv_lt_0_compat; lra). lra.
Qed.
(** the smallest of finitely many positive numbers is positive *)
Lemma positive_floor n (f : nat -> R) : (forall i, (i < n)%nat -> 0 < f i) -> exists d, 0 < d /\ forall i, (i < n)%nat -> d <= f i.
Proof.
  induction n as [|n IH]; intros H; [exists 1; split; [lra|intros; lia]|].
  destruct IH as (d & Hd & Hf); [intros i Hi; apply H; lia|]. exists (Rbasic_fun.Rmin d (f n)). split; [apply Rmin_glb_lt; [exact Hd|apply H; lia]|].
  intros i Hi. destruct (Nat.eq_dec i n) as [->|]; [apply Rmin_r|]. eapply Rle_trans; [apply Rmin_l|]. apply Hf. lia.
Qed.
Lemma positive_floor2 nx ny (ok : nat -> nat -> Prop) (f : nat -> nat -> R) : (forall i j, (i < nx)%nat -> (j < ny)%nat -> ok i j \/ ~ ok i j) ->
  (forall i j, (i < nx)%nat -> (j < ny)%nat -> ok i j -> 0 < f i j) -> exists d, 0 < d /\ forall i j, (i < nx)%nat -> (j < ny)%nat -> ok i j -> d <= f i j.
Proof.
  intros D H.
  assert (X : forall i, (i < nx)%nat -> exists d, 0 < d /\ forall j, (j < ny)%nat -> ok i j -> d <= f i j).
  { intros i Hi. clear - D H Hi. induction ny as [|n IH]; [exists 1; split; [lra|intros; lia]|].
    destruct IH as (d & Hd & Hf); [intros; apply D; lia|intros i' j Hi' Hj; apply H; lia|].
    destruct (D i n Hi ltac:(lia)) as [Ho|Ho].
    - exists (Rbasic_fun.Rmin d (f i n)). split; [apply Rmin_glb_lt; [exact Hd|apply H; [exact Hi|lia|exact Ho]]|].
      intros j Hj Hoj. destruct (Nat.eq_dec j n) as [->|]; [apply Rmin_r|]. eapply Rle_trans; [apply Rmin_l|]. apply Hf; [lia|exact Hoj].
    - exists d. split; [exact Hd|]. intros j Hj Hoj. destruct (Nat.eq_dec j n) as [->|]; [contradiction|]. apply Hf; [lia|exact Hoj]. }
  clear - X. induction nx as [|n IH]; [exists 1; split; [lra|intros; lia]|].
  destruct IH as (d & Hd & Hf); [intros i Hi; apply X; lia|]. destruct (X n ltac:(lia)) as (d' & Hd' & Hf').
  exists (Rbasic_fun.Rmin d d'). split; [apply Rmin_glb_lt; assumption|]. intros i j Hi Hj Ho. destruct (Nat.eq_dec i n) as [->|].
  - eapply Rle_trans; [apply Rmin_r|]. apply Hf'; assumption.
  - eapply Rle_trans; [apply Rmin_l|]. apply Hf; [lia|exact Hj|exact Ho].
Qed.

(** ** A run *)
(** Solves on a 5 x 5 grid in 1 <= R <= 2, -1 <= Z <= 1, with the boundary condition [b], elimination and the
    current density [J]: the run succeeds. *)
Definition demo_eq (b : boundary R) (A : nat -> nat -> R) : equilibrium R unit unit :=
  mkeq (P := unit) (Ctl := unit) 5 5 1 2 (-1) 1 (mktok [] false []) b 2 (SMatrix (MGDirect 25 A)) false
       (starting_guess exp 5 5) (fun i j => []) 0 None no_boundary None None.
Lemma demo_run : exists A, forall b, b = BFixed \/ b = BFree ->
  new_equilibrium (fun _ => green) exp flat_spline (mktok [] false []) 1 2 (-1) 1 5 5 b None 0 2 false = Ok (demo_eq b A) /\
  second_order (demo_eq b A) /\ exact_solver elimination /\
  forall J, exists e', solve (fun _ => green) sqrt 1 elimination flat_spline (fun _ _ _ _ => Raise TypeError) (demo_eq b A) tt (Some J) None None = Ok e' /\ jtor e' = Some J.
Proof.
  destruct (GSsparse_rows 1 2 (-1) 1 5 5) as (A & EA & _). exists A. intros b Hb.
  assert (Hupd : forall e p, e_nx e = 5%nat -> e_ny e = 5%nat -> Rmin e = 1 -> Rmax e = 2 -> Zmin e = -1 -> Zmax e = 1 -> coils (tok e) = [] ->
            update_plasma (P := unit) (Ctl := unit) flat_spline e 5 5 p = Ok (with_bs (with_plasma e p) (bs e))).
  { intros e p H1 H2 H3 H4 H5 H6 H7. assert (H := flat_update_plasma e p). rewrite H1, H2, H3, H4, H5, H6 in H. apply H; try lia; try lra; exact H7. }
  split; [|split; [|split]].
  { unfold new_equilibrium. cbn [Nat.ltb Nat.leb orb]. cbv zeta. rewrite Hupd by reflexivity. cbn [bind]. unfold generator_of. cbn [Nat.eqb bind].
    unfold createVcycle. cbn [createVcycle_]. rewrite EA. reflexivity. }
  { unfold second_order. cbn. repeat (split; [lra|]). exists A. split; [exact EA|reflexivity]. }
  { intros N M v Hn r Hr; exact (elimination_solves N M v Hn r Hr). }
  intros J. destruct (romb2_dyadic 5 5 J (ex_intro _ 2%nat eq_refl) (ex_intro _ 2%nat eq_refl)) as (s & Es).
  set (e1 := with_profiles (demo_eq b A) (Some tt) (control (demo_eq b A))).
  assert (E1 : update_own flat_spline e1 = Ok e1).
  { unfold update_own. destruct (no_coils_psi e1 eq_refl) as (psi & E & _). rewrite E. cbn [bind].
    rewrite (flat_update e1 psi) by (cbn; try lia; lra). reflexivity. }
  assert (Eb : exists q, applyBoundary (P := unit) (Ctl := unit) (fun _ => green) sqrt elimination e1 J = Ok q).
  { unfold applyBoundary. change (bnd e1) with b. change (e_nx e1) with 5%nat. change (e_ny e1) with 5%nat. destruct Hb as [-> | ->].
    - destruct (proj1 (C28_fixed_boundary 5 5 (plasma_psi e1)) ltac:(lia)) as (q & Eq & _). exists q. exact Eq.
    - destruct (freeBoundary_spec green 5 5 (grid_R e1) (grid_Z e1) J (plasma_psi e1) (ex_intro _ 2%nat eq_refl) (ex_intro _ 2%nat eq_refl)) as (q & Eq & _). exists q. exact Eq. }
  destruct Eb as (q & Eb). eexists. unfold solve. fold e1. rewrite E1. cbn [bind]. unfold linear_solve. rewrite Eb. cbn [bind]. change (e_nx e1) with 5%nat. change (e_ny e1) with 5%nat.
  unfold set_edges. cbn [Nat.eqb orb bind]. unfold callSolver, solver_call. change (slv e1) with (SMatrix (MGDirect 25 A)).
  change (e_nx e1) with 5%nat. change (e_ny e1) with 5%nat. cbn [mg_call]. change (25 =? 5 * 5)%nat with true. cbn [bind].
  rewrite Hupd by reflexivity. cbn [bind].
  match goal with |- bind (romb2 ?a ?b ?c) _ = _ /\ _ => change (romb2 a b c) with (romb2 5 5 J) end. rewrite Es. cbn [bind].
  split; reflexivity.
Qed.

(** ** C166 *)
(** A current density that is nowhere negative gives a plasma flux that is nowhere negative, with the free
    and the fixed boundary; with the free boundary, and current at some inner point, the flux is positive
    on the whole grid.  [green] is Greens with the elliptic integrals. *)
Theorem C166_positive : forall (P Ctl : Type) G mu lu spline
    (Jtor_call : P -> equilibrium R P Ctl -> (nat -> nat -> R) -> option R -> result ((nat -> nat -> R) * P * bstate R))
    (e e' : equilibrium R P Ctl) p Jo psi pb J,
  exact_solver lu -> second_order e -> 0 < mu -> 0 < Rmin e -> bnd e = BFixed \/ bnd e = BFree /\ G FPsi = green ->
  solve G sqrt mu lu spline Jtor_call e p Jo psi pb = Ok e' -> jtor e' = Some J ->
  (forall x y, (x < e_nx e)%nat -> (y < e_ny e)%nat -> 0 <= J x y) ->
  forall x y, (x < e_nx e)%nat -> (y < e_ny e)%nat ->
    0 <= plasma_psi e' x y /\
    (bnd e = BFree -> (exists i j, inside (e_nx e) (e_ny e) i j /\ 0 < J i j) -> 0 < plasma_psi e' x y).
Proof.
  intros P Ctl G mu lu spline Jc e e' p Jo psi pb J Hlu HS Hmu Hpos Hb E EJ HJ.
  destruct (solved G mu lu spline Jc e e' p Jo psi pb J Hlu HS E EJ) as (p1 & Eb & Hnx & Hny & He & Hi). destruct HS as (H0 & HR & HZ & _).
  assert (Hgp : forall i, 0 < gridpt (Rmin e) (Rmax e) (e_nx e) i) by (intros i; assert (X := gridpt_ge (Rmin e) (Rmax e) (e_nx e) i HR Hnx); lra).
  assert (Hrow : forall c x y, inside (e_nx e) (e_ny e) x y ->
    GSElliptic (Rmin e) (plasma_psi e') (e_nx e) (e_ny e) ((Rmax e - Rmin e) / INR (e_nx e - 1)) ((Zmax e - Zmin e) / INR (e_ny e - 1)) x y <=
    GSElliptic (Rmin e) (fun _ _ => c) (e_nx e) (e_ny e) ((Rmax e - Rmin e) / INR (e_nx e - 1)) ((Zmax e - Zmin e) / INR (e_ny e - 1)) x y).
  { intros c x y Hxy. rewrite Hi, elliptic_const by exact Hxy. assert (X := HJ x y ltac:(unfold inside in Hxy; lia) ltac:(unfold inside in Hxy; lia)).
    assert (Y := Hgp x). assert (0 < mu * gridpt (Rmin e) (Rmax e) (e_nx e) x) by (apply Rmult_lt_0_compat; assumption). nra. }
  assert (Hfree : bnd e = BFree -> G FPsi = green -> forall x y, on_edge (e_nx e) (e_ny e) x y ->
     0 <= p1 x y /\ forall i j, (i < e_nx e)%nat -> (j < e_ny e)%nat -> (i, j) <> (x, y) -> 0 < J i j -> 0 < p1 x y).
  { intros Bf HG x y Hxy. unfold applyBoundary in Eb. rewrite Bf, HG in Eb. refine (C155_free_boundary _ _ _ _ _ _ _ _ _ _ Eb x y Hxy).
    - rewrite !gridR_is. apply gridpt_step; assumption.
    - rewrite !gridZ_is. apply gridpt_step; assumption.
    - intros i j Hi' Hj'. rewrite gridR_is. split; [apply Hgp|apply HJ; assumption]. }
  intros x y Hx Hy. split.
  - apply (sub_principle (Rmin e) (Rmax e) (Zmin e) (Zmax e) (e_nx e) (e_ny e) (plasma_psi e') (fun _ _ => 0)); try assumption; [apply Hrow|].
    intros x' y' Hxy. rewrite He by exact Hxy. destruct Hb as [Bf|(Bf & HG)]; [|apply (Hfree Bf HG x' y' Hxy)].
    unfold applyBoundary in Eb. rewrite Bf in Eb. destruct (proj1 (C28_fixed_boundary (e_nx e) (e_ny e) (plasma_psi e)) ltac:(lia)) as (q & Eq & Hq).
    rewrite Eb in Eq. injection Eq as <-. right. symmetry. apply (Hq x' y'); [unfold on_edge in Hxy; lia|unfold on_edge in Hxy; lia|exact Hxy].
  - intros Bf (i & j & Hij & HJp). assert (HG : G FPsi = green) by (destruct Hb as [F|(_ & HG)]; [congruence|exact HG]).
    destruct (positive_floor2 (e_nx e) (e_ny e) (on_edge (e_nx e) (e_ny e)) p1) as (d & Hd & Hf).
    { intros a b Ha Hb'. unfold on_edge. lia. }
    { intros a b Ha Hb' Hab. apply (proj2 (Hfree Bf HG a b Hab) i j); [unfold inside in Hij; lia|unfold inside in Hij; lia| |exact HJp].
      intros F. injection F as -> ->. unfold inside in Hij. unfold on_edge in Hab. lia. }
    apply Rlt_le_trans with d; [exact Hd|].
    apply (sub_principle (Rmin e) (Rmax e) (Zmin e) (Zmax e) (e_nx e) (e_ny e) (plasma_psi e') (fun _ _ => d)); try assumption; [apply Hrow|].
    intros x' y' Hxy. rewrite He by exact Hxy. apply Hf; [unfold on_edge in Hxy; lia|unfold on_edge in Hxy; lia|exact Hxy].
Qed.
Print Assumptions C166_positive.
(** One current at the centre of the grid, free boundary: the flux is positive on all 25 points. *)
Example C166_example : exists A e',
  solve (fun _ => green) sqrt 1 elimination flat_spline (fun _ _ _ _ => Raise TypeError) (demo_eq BFree A) tt
    (Some (fun i j => if (i =? 2)%nat && (j =? 2)%nat then 1 else 0)%bool) None None = Ok e' /\
  forall x y, (x < 5)%nat -> (y < 5)%nat -> 0 < plasma_psi e' x y.
Proof.
  destruct demo_run as (A & H). destruct (H BFree (or_intror eq_refl)) as (_ & HS & HE & HJ). exists A.
  destruct (HJ (fun i j => if (i =? 2)%nat && (j =? 2)%nat then 1 else 0)%bool) as (e' & E & EJ). exists e'. split; [exact E|]. intros x y Hx Hy.
  assert (H1 : 0 < 1) by lra. assert (H2 : 0 < Rmin (demo_eq BFree A)) by (cbn; lra).
  refine (proj2 (C166_positive _ _ _ _ _ _ _ _ _ _ _ _ _ _ HE HS H1 H2 (or_intror (conj eq_refl eq_refl)) E EJ _ x y Hx Hy) eq_refl _).
  - intros i j _ _. cbn beta. destruct (_ && _)%bool; lra.
  - exists 2%nat, 2%nat. split; [unfold inside; cbn; lia|]. cbn. lra.
Qed.

(** ** C167 *)
Lemma ok_inj {A} (a b : A) : Ok a = Ok b -> a = b.
Proof. intros E. congruence. Qed.
Lemma romb2_R2 kx ky (a : nat -> nat -> R) : romb2 (S (2 ^ kx)) (S (2 ^ ky)) a = Ok (RombProofs.R2 kx ky a).
Proof. apply romb2_rt. Qed.
(** The plasma flux is linear in the current density, and grows with it. *)
Lemma boundary_linear {P Ctl} G lu (e1 e2 e : equilibrium R P Ctl) a b J1 J2 J q1 q2 q :
  (bnd e = BFixed \/ bnd e = BFree) -> bnd e1 = bnd e -> bnd e2 = bnd e ->
  (e_nx e1, e_ny e1, Rmin e1, Rmax e1, Zmin e1, Zmax e1) = (e_nx e, e_ny e, Rmin e, Rmax e, Zmin e, Zmax e) ->
  (e_nx e2, e_ny e2, Rmin e2, Rmax e2, Zmin e2, Zmax e2) = (e_nx e, e_ny e, Rmin e, Rmax e, Zmin e, Zmax e) ->
  (2 <= e_nx e)%nat -> (2 <= e_ny e)%nat ->
  (forall x y, (x < e_nx e)%nat -> (y < e_ny e)%nat -> J x y = a * J1 x y + b * J2 x y) ->
  applyBoundary G sqrt lu e1 J1 = Ok q1 -> applyBoundary G sqrt lu e2 J2 = Ok q2 -> applyBoundary G sqrt lu e J = Ok q ->
  forall x y, on_edge (e_nx e) (e_ny e) x y -> q x y = a * q1 x y + b * q2 x y.
Proof.
  intros Hb B1 B2 D1 D2 Hnx Hny HJ E1 E2 E x y Hxy. injection D1 as N1 M1 R1 S1 Z1 W1. injection D2 as N2 M2 R2 S2 Z2 W2.
  assert (Hx : (x < e_nx e)%nat) by apply Hxy. assert (Hy : (y < e_ny e)%nat) by apply (proj2 Hxy).
  unfold applyBoundary in *. rewrite B1, N1, M1 in E1. rewrite B2, N2, M2 in E2. destruct Hb as [Bf|Bf]; rewrite Bf in *.
  - assert (F : forall u v, fixedBoundary (e_nx e) (e_ny e) u = Ok v -> v x y = 0).
    { intros u v Ev. destruct (proj1 (C28_fixed_boundary (e_nx e) (e_ny e) u) ltac:(lia)) as (v' & Ev' & Hv). rewrite Ev in Ev'. injection Ev' as <-. apply Hv; assumption. }
    rewrite (F _ _ E1), (F _ _ E2), (F _ _ E). ring.
  - assert (GR1 : grid_R e1 = grid_R e) by (unfold grid_R, R_1D; rewrite N1, R1, S1; reflexivity). assert (GZ1 : grid_Z e1 = grid_Z e) by (unfold grid_Z, Z_1D; rewrite M1, Z1, W1; reflexivity).
    assert (GR2 : grid_R e2 = grid_R e) by (unfold grid_R, R_1D; rewrite N2, R2, S2; reflexivity). assert (GZ2 : grid_Z e2 = grid_Z e) by (unfold grid_Z, Z_1D; rewrite M2, Z2, W2; reflexivity).
    rewrite GR1, GZ1 in E1. rewrite GR2, GZ2 in E2.
    (* the edge values do not depend on the flux the boundary condition is given *)
    assert (D : dyadic (e_nx e) /\ dyadic (e_ny e)).
    { destruct (Classical_Prop.classic (dyadic (e_nx e) /\ dyadic (e_ny e))) as [D|D]; [exact D|].
      destruct (freeBoundary_bad (G FPsi) (e_nx e) (e_ny e) (grid_R e) (grid_Z e) J (plasma_psi e) D) as (er & Ee). congruence. }
    destruct D as (Dx & Dy).
    destruct (freeBoundary_spec (G FPsi) (e_nx e) (e_ny e) (grid_R e) (grid_Z e) J1 (plasma_psi e1) Dx Dy) as (p1' & E1' & H1).
    destruct (freeBoundary_spec (G FPsi) (e_nx e) (e_ny e) (grid_R e) (grid_Z e) J2 (plasma_psi e2) Dx Dy) as (p2' & E2' & H2).
    destruct (freeBoundary_spec (G FPsi) (e_nx e) (e_ny e) (grid_R e) (grid_Z e) J (plasma_psi e) Dx Dy) as (p' & E' & H).
    rewrite E1 in E1'; injection E1' as <-. rewrite E2 in E2'; injection E2' as <-. rewrite E in E'; injection E' as <-.
    destruct (proj1 (H1 x y Hx Hy) Hxy) as (s1 & T1 & ->). destruct (proj1 (H2 x y Hx Hy) Hxy) as (s2 & T2 & ->).
    destruct (proj1 (H x y Hx Hy) Hxy) as (s & T & ->).
    destruct Dx as (kx & Ex), Dy as (ky & Ey). rewrite Ex, Ey, romb2_R2 in T1, T2, T. apply ok_inj in T1, T2, T. rewrite <- T1, <- T2, <- T. clear T1 T2 T.
    rewrite (RombProofs.R2_ext kx ky _ (fun i j => a * ((if (i =? x)%nat && (j =? y)%nat then 0 else G FPsi (grid_R e i j) (grid_Z e i j) (grid_R e x y) (grid_Z e x y)) * J1 i j) +
        b * ((if (i =? x)%nat && (j =? y)%nat then 0 else G FPsi (grid_R e i j) (grid_Z e i j) (grid_R e x y) (grid_Z e x y)) * J2 i j))%bool).
    + rewrite R2_linear. ring.
    + intros i j Hi Hj. rewrite HJ by (rewrite ?Ex, ?Ey; lia). ring.
Qed.
Theorem C167_linear : forall (P Ctl : Type) G mu lu spline
    (Jtor_call : P -> equilibrium R P Ctl -> (nat -> nat -> R) -> option R -> result ((nat -> nat -> R) * P * bstate R))
    (e1 e2 e e1' e2' e' : equilibrium R P Ctl) p1 p2 p o1 o2 o s1 s2 s t1 t2 t a b J1 J2 J,
  exact_solver lu -> second_order e1 -> second_order e2 -> second_order e ->
  bnd e = BFixed \/ bnd e = BFree -> bnd e1 = bnd e -> bnd e2 = bnd e ->
  (e_nx e1, e_ny e1, Rmin e1, Rmax e1, Zmin e1, Zmax e1) = (e_nx e, e_ny e, Rmin e, Rmax e, Zmin e, Zmax e) ->
  (e_nx e2, e_ny e2, Rmin e2, Rmax e2, Zmin e2, Zmax e2) = (e_nx e, e_ny e, Rmin e, Rmax e, Zmin e, Zmax e) ->
  solve G sqrt mu lu spline Jtor_call e1 p1 o1 s1 t1 = Ok e1' -> jtor e1' = Some J1 ->
  solve G sqrt mu lu spline Jtor_call e2 p2 o2 s2 t2 = Ok e2' -> jtor e2' = Some J2 ->
  solve G sqrt mu lu spline Jtor_call e p o s t = Ok e' -> jtor e' = Some J ->
  (forall x y, (x < e_nx e)%nat -> (y < e_ny e)%nat -> J x y = a * J1 x y + b * J2 x y) ->
  forall x y, (x < e_nx e)%nat -> (y < e_ny e)%nat -> plasma_psi e' x y = a * plasma_psi e1' x y + b * plasma_psi e2' x y.
Proof.
  intros P Ctl G mu lu spline Jc e1 e2 e e1' e2' e' p1 p2 p o1 o2 o s1 s2 s t1 t2 t a b J1 J2 J Hlu HS1 HS2 HS Hb B1 B2 D1 D2 E1 EJ1 E2 EJ2 E EJ HJ.
  destruct (solved G mu lu spline Jc e1 e1' _ _ _ _ J1 Hlu HS1 E1 EJ1) as (q1 & Q1 & _ & _ & He1 & Hi1).
  destruct (solved G mu lu spline Jc e2 e2' _ _ _ _ J2 Hlu HS2 E2 EJ2) as (q2 & Q2 & _ & _ & He2 & Hi2).
  destruct (solved G mu lu spline Jc e e' _ _ _ _ J Hlu HS E EJ) as (q & Q & Hnx & Hny & He & Hi). destruct HS as (H0 & HR & HZ & _).
  assert (HL := boundary_linear G lu e1 e2 e a b J1 J2 J q1 q2 q Hb B1 B2 D1 D2 Hnx Hny HJ Q1 Q2 Q).
  injection D1 as N1 M1 R1 S1 Z1 W1. injection D2 as N2 M2 R2 S2 Z2 W2. rewrite N1, M1 in He1. rewrite N1, M1, R1, S1, Z1, W1 in Hi1. rewrite N2, M2 in He2. rewrite N2, M2, R2, S2, Z2, W2 in Hi2.
  apply (uniqueness (Rmin e) (Rmax e) (Zmin e) (Zmax e) (e_nx e) (e_ny e) (plasma_psi e') (fun x y => a * plasma_psi e1' x y + b * plasma_psi e2' x y)); try assumption.
  - intros x y Hxy. rewrite GSElliptic_lin, Hi, Hi1, Hi2 by exact Hxy. rewrite HJ by (unfold inside in Hxy; lia). ring.
  - intros x y Hxy. rewrite He, He1, He2 by exact Hxy. apply HL, Hxy.
Qed.
Print Assumptions C167_linear.
(** Twice one current density less three times another. *)
Example C167_example : forall J1 J2 b, b = BFixed \/ b = BFree -> exists A e1 e2 e,
  let run J := solve (fun _ => green) sqrt 1 elimination flat_spline (fun _ _ _ _ => Raise TypeError) (demo_eq b A) tt (Some J) None None in
  run J1 = Ok e1 /\ run J2 = Ok e2 /\ run (fun x y => 2 * J1 x y + -3 * J2 x y) = Ok e /\
  forall x y, (x < 5)%nat -> (y < 5)%nat -> plasma_psi e x y = 2 * plasma_psi e1 x y + -3 * plasma_psi e2 x y.
Proof.
  intros J1 J2 b Hb. destruct demo_run as (A & H). destruct (H b Hb) as (_ & HS & HE & HJ). exists A.
  destruct (HJ J1) as (e1 & E1 & EJ1), (HJ J2) as (e2 & E2 & EJ2), (HJ (fun x y => 2 * J1 x y + -3 * J2 x y)) as (e & E & EJ). exists e1, e2, e. cbv zeta.
  split; [exact E1|]. split; [exact E2|]. split; [exact E|].
  exact (C167_linear _ _ _ _ _ _ _ _ _ _ _ _ _ _ _ _ _ _ _ _ _ _ _ _ _ 2 (-3) J1 J2 _ HE HS HS HS Hb eq_refl eq_refl eq_refl eq_refl E1 EJ1 E2 EJ2 E EJ (fun x y _ _ => eq_refl)).
Qed.

(** ** C168 *)
(** A current density that is the same above and below the middle of the domain gives a plasma flux that is. *)
Lemma mirror_point a b n j : (2 <= n)%nat -> (j < n)%nat -> gridpt a b n (n - 1 - j) = a + b - gridpt a b n j.
Proof.
  intros Hn Hj. unfold gridpt. rewrite (minus_INR (n - 1) j) by lia. assert (INR (n - 1) <> 0) by (apply not_0_INR; lia). field. assumption.
Qed.
Lemma elliptic_mirror rmin (u : nat -> nat -> R) nx ny dR dZ x y : inside nx ny x y ->
  GSElliptic rmin (fun x y => u x (ny - 1 - y)%nat) nx ny dR dZ x y = GSElliptic rmin u nx ny dR dZ x (ny - 1 - y)%nat.
Proof.
  intros H. rewrite !GSElliptic_closed. unfold inside in H.
  destruct (interiorb_spec nx ny x y) as [_|F]; [|exfalso; apply F; unfold interior; lia].
  destruct (interiorb_spec nx ny x (ny - 1 - y)) as [_|F]; [|exfalso; apply F; unfold interior; lia].
  replace (ny - 1 - (y - 1))%nat with (ny - 1 - y + 1)%nat by lia. replace (ny - 1 - (y + 1))%nat with (ny - 1 - y - 1)%nat by lia. ring.
Qed.
Lemma R2_mirror kx ky a : RombProofs.R2 kx ky (fun i j => a i (2 ^ ky - j)%nat) = RombProofs.R2 kx ky a.
Proof. unfold RombProofs.R2. apply rt_ext; [|lia]. intros i Hi. apply (rt_rev ky (a i) 1 ky ky). lia. Qed.
Lemma boundary_mirror {P Ctl} G lu ek ee (e : equilibrium R P Ctl) J p1 : bnd e = BFixed \/ bnd e = BFree /\ G FPsi = Greens ek ee -> (2 <= e_nx e)%nat -> (2 <= e_ny e)%nat ->
  (forall x y, (x < e_nx e)%nat -> (y < e_ny e)%nat -> J x (e_ny e - 1 - y)%nat = J x y) -> applyBoundary G sqrt lu e J = Ok p1 ->
  forall x y, on_edge (e_nx e) (e_ny e) x y -> p1 x (e_ny e - 1 - y)%nat = p1 x y.
Proof.
  intros Hb Hnx Hny HJ Eb x y Hxy. assert (Hm : on_edge (e_nx e) (e_ny e) x (e_ny e - 1 - y)) by (unfold on_edge in *; lia).
  assert (Hx : (x < e_nx e)%nat) by apply Hxy. assert (Hy : (y < e_ny e)%nat) by apply (proj2 Hxy).
  unfold applyBoundary in Eb. destruct Hb as [Bf|(Bf & HG)]; rewrite Bf in Eb.
  + destruct (proj1 (C28_fixed_boundary (e_nx e) (e_ny e) (plasma_psi e)) ltac:(lia)) as (v & Ev & Hv). rewrite Eb in Ev. apply ok_inj in Ev. subst v.
    rewrite (proj1 (Hv x y Hx Hy) Hxy). apply (Hv x (e_ny e - 1 - y)%nat Hx ltac:(lia)). exact Hm.
  + rewrite HG in Eb.
    assert (D : dyadic (e_nx e) /\ dyadic (e_ny e)).
    { destruct (Classical_Prop.classic (dyadic (e_nx e) /\ dyadic (e_ny e))) as [D|D]; [exact D|].
      destruct (freeBoundary_bad (Greens ek ee) (e_nx e) (e_ny e) (grid_R e) (grid_Z e) J (plasma_psi e) D) as (er & Ee). congruence. }
    destruct D as (Dx & Dy).
    destruct (freeBoundary_spec (Greens ek ee) (e_nx e) (e_ny e) (grid_R e) (grid_Z e) J (plasma_psi e) Dx Dy) as (p' & E' & H).
    rewrite Eb in E'. apply ok_inj in E'. subst p'.
    destruct (proj1 (H x y Hx Hy) Hxy) as (s1 & T1 & ->). destruct (proj1 (H x (e_ny e - 1 - y)%nat Hx ltac:(lia)) Hm) as (s2 & T2 & ->).
    f_equal. f_equal. destruct Dx as (kx & Ex), Dy as (ky & Ey).
    assert (Q1 : forall f s, romb2 (e_nx e) (e_ny e) f = Ok s -> s = RombProofs.R2 kx ky f) by (intros f s Q; rewrite Ex, Ey, romb2_R2 in Q; apply ok_inj in Q; congruence).
    apply Q1 in T1, T2. rewrite T1, T2. rewrite <- (R2_mirror kx ky (fun i j => _ * J i j)). apply RombProofs.R2_ext. intros i j Hi' Hj'.
    assert (Pj : (2 ^ ky - j = e_ny e - 1 - j)%nat) by lia. rewrite Pj, HJ by lia. f_equal.
    assert (Eq : ((e_ny e - 1 - j =? e_ny e - 1 - y) = (j =? y))%nat) by (destruct (Nat.eqb_spec j y); [subst; apply Nat.eqb_refl|apply Nat.eqb_neq; lia]). 
    cbn beta. rewrite Eq. destruct ((i =? x)%nat && (j =? y)%nat)%bool; [reflexivity|].
    rewrite !gridR_is, !gridZ_is, !mirror_point by lia.
    set (a := gridpt (Zmin e) (Zmax e) (e_ny e) j). set (b := gridpt (Zmin e) (Zmax e) (e_ny e) y).
    rewrite <- (Greens_even ek ee _ a _ b), <- (Greens_shift ek ee _ (- a) _ (- b) (Zmin e + Zmax e)). f_equal; ring.
Qed.
Theorem C168_mirror : forall (P Ctl : Type) G mu lu spline ellipk ellipe
    (Jtor_call : P -> equilibrium R P Ctl -> (nat -> nat -> R) -> option R -> result ((nat -> nat -> R) * P * bstate R))
    (e e' : equilibrium R P Ctl) p Jo psi pb J,
  exact_solver lu -> second_order e -> bnd e = BFixed \/ bnd e = BFree /\ G FPsi = Greens ellipk ellipe ->
  solve G sqrt mu lu spline Jtor_call e p Jo psi pb = Ok e' -> jtor e' = Some J ->
  (forall x y, (x < e_nx e)%nat -> (y < e_ny e)%nat -> J x (e_ny e - 1 - y)%nat = J x y) ->
  forall x y, (x < e_nx e)%nat -> (y < e_ny e)%nat -> plasma_psi e' x (e_ny e - 1 - y)%nat = plasma_psi e' x y.
Proof.
  intros P Ctl G mu lu spline ek ee Jc e e' p Jo psi pb J Hlu HS Hb E EJ HJ.
  destruct (solved G mu lu spline Jc e e' p Jo psi pb J Hlu HS E EJ) as (p1 & Eb & Hnx & Hny & He & Hi). destruct HS as (H0 & HR & HZ & _).
  apply (uniqueness (Rmin e) (Rmax e) (Zmin e) (Zmax e) (e_nx e) (e_ny e) (fun x y => plasma_psi e' x (e_ny e - 1 - y)%nat) (plasma_psi e')); try assumption.
  - intros x y Hxy. rewrite elliptic_mirror by exact Hxy. assert (Hm : inside (e_nx e) (e_ny e) x (e_ny e - 1 - y)) by (unfold inside in *; lia).
    rewrite (Hi x y Hxy), (Hi _ _ Hm), HJ by (unfold inside in *; lia). reflexivity.
  - intros x y Hxy. assert (Hm : on_edge (e_nx e) (e_ny e) x (e_ny e - 1 - y)) by (unfold on_edge in *; lia). rewrite (He x y Hxy), (He _ _ Hm).
    exact (boundary_mirror G lu ek ee e J p1 Hb Hnx Hny HJ Eb x y Hxy).
Qed.
Print Assumptions C168_mirror.
(** Currents above and below the middle, free boundary. *)
Example C168_example : exists A e',
  solve (fun _ => green) sqrt 1 elimination flat_spline (fun _ _ _ _ => Raise TypeError) (demo_eq BFree A) tt
    (Some (fun i j => if (i =? 1)%nat && ((j =? 1)%nat || (j =? 3)%nat) then 1 else 0)%bool) None None = Ok e' /\
  forall x y, (x < 5)%nat -> (y < 5)%nat -> plasma_psi e' x (4 - y)%nat = plasma_psi e' x y.
Proof.
  destruct demo_run as (A & H). destruct (H BFree (or_intror eq_refl)) as (_ & HS & HE & HJ). exists A.
  destruct (HJ (fun i j => if (i =? 1)%nat && ((j =? 1)%nat || (j =? 3)%nat) then 1 else 0)%bool) as (e' & E & EJ). exists e'. split; [exact E|].
  refine (C168_mirror _ _ _ _ _ _ _ _ _ _ _ _ _ _ _ _ HE HS (or_intror (conj eq_refl eq_refl)) E EJ _).
  intros x y Hx Hy. cbn in Hx, Hy. do 5 (destruct x as [|x]; [do 5 (destruct y as [|y]; [reflexivity|]); lia|]). lia.
Qed.
