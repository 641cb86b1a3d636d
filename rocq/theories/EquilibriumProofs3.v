(** Lemmas about refine, coarsen and newDomain. *)
From Coq Require Import String List Arith ZArith Bool Reals Lia Lra.
From Verif Require Import Py Num Numpy GradShafranov GS4Proofs Multigrid MultigridProofs Coils Machine Romb
  Critical Boundary BoundarySpec BoundaryProofs Jtor Equilibrium EquilibriumSpec EquilibriumProofs GSSpec.
Import ListNotations.
Local Open Scope R_scope.

Lemma half_fine n : (2 <= n)%nat -> half (2 * (n - 1) + 1) = n.
Proof. intros H. unfold half. replace (2 * (n - 1) + 1 - 1)%nat with ((n - 1) * 2)%nat by lia. rewrite Nat.div_mul by lia. lia. Qed.
Lemma halvable_fine n m : halvable (2 * (n - 1) + 1) (2 * (m - 1) + 1).
Proof.
  unfold halvable. replace (2 * (n - 1) + 1 - 1)%nat with ((n - 1) * 2)%nat by lia. replace (2 * (m - 1) + 1 - 1)%nat with ((m - 1) * 2)%nat by lia.
  split; apply Nat.mod_mul; lia.
Qed.
Lemma linspace_fine a b n i : (2 <= n)%nat -> linspace a b (2 * (n - 1) + 1) (2 * i) = linspace a b n i.
Proof.
  intros H. rewrite !linspace_gridpt. unfold gridpt. replace (2 * (n - 1) + 1 - 1)%nat with (2 * (n - 1))%nat by lia.
  rewrite !mult_INR. assert (0 < INR (n - 1)) by (apply lt_0_INR; lia). cbn [INR]. field. lra.
Qed.

Section Frame.
  Context {P Ctl : Type}.
  Variables (G : field -> R -> R -> R -> R -> R) (mu0 : R) (lu : nat -> arr2 R -> (nat -> R) -> (nat -> R))
    (spline : nat -> nat -> (nat -> R) -> (nat -> R) -> arr2 R -> nat -> nat -> R -> R -> R)
    (Jtor_call : P -> equilibrium R P Ctl -> arr2 R -> option R -> result (arr2 R * P * bstate R)).

  Lemma refine_inv (e e' : equilibrium R P Ctl) nx ny : refine G exp spline e nx ny = Ok e' ->
    exists r b, new_equilibrium (P := P) (Ctl := Ctl) G exp spline (tok e) (Rmin e) (Rmax e) (Zmin e) (Zmax e)
        (size_or nx (2 * (e_nx e - 1) + 1)) (size_or ny (2 * (e_ny e - 1) + 1)) (bnd e) None 0 (order e) false = Ok r /\
      e' = with_profiles (with_bs (with_plasma r (fun i j => psi_func spline e 0%nat 0%nat (R_1D r i) (Z_1D r j))) b) (profiles e) (control e).
  Proof.
    intros E. unfold refine in E. cbv zeta in E. inv_bind E. inv_bind E. injection E as <-.
    apply update_plasma_inv in E1. destruct E1 as (_ & _ & q & b & _ & _ & ->). exists v, b. split; [exact E0|reflexivity].
  Qed.
  Lemma coarsen_inv (e e' : equilibrium R P Ctl) : coarsen G exp spline e = Ok e' ->
    exists p nx ny r b, restrict (plasma_psi e) (e_nx e) (e_ny e) false = (p, nx, ny) /\
      new_equilibrium (P := P) (Ctl := Ctl) G exp spline (tok e) (Rmin e) (Rmax e) (Zmin e) (Zmax e) nx ny BFree None 0 4 false = Ok r /\
      e' = with_profiles (with_bs (with_plasma r p) b) (profiles e) (control e).
  Proof.
    intros E. unfold coarsen in E. destruct (restrict (plasma_psi e) (e_nx e) (e_ny e) false) as ((p, nx), ny) eqn:Er.
    inv_bind E. inv_bind E. injection E as <-.
    apply update_plasma_inv in E1. destruct E1 as (_ & _ & q & b & _ & _ & ->). exists p, nx, ny, v, b. split; [reflexivity|]. split; [exact E0|reflexivity].
  Qed.
  Lemma linear_solve_inv (e e' : equilibrium R P Ctl) J : linear_solve G sqrt mu0 lu spline e J = Ok e' ->
    exists x b, e' = with_bs (with_plasma e x) b.
  Proof.
    intros E. unfold linear_solve in E. inv_bind E. inv_bind E. inv_bind E. destruct v1 as (q, x). apply update_plasma_inv in E.
    destruct E as (_ & _ & qf & b & _ & _ & ->). exists x, b. reflexivity.
  Qed.
  Lemma newDomain_inv (e e' : equilibrium R P Ctl) rmin rmax zmin zmax nx ny :
    newDomain G sqrt exp mu0 lu spline Jtor_call e rmin rmax zmin zmax nx ny = Ok e' ->
    exists r x b I J p c, new_equilibrium (P := P) (Ctl := Ctl) G exp spline (tok e) (or_default rmin (Rmin e)) (or_default rmax (Rmax e)) (or_default zmin (Zmin e))
                              (or_default zmax (Zmax e)) (or_default nx (e_nx e)) (or_default ny (e_nx e)) BFree None 0 4 false = Ok r /\
      e' = with_profiles (with_current (with_bs (with_plasma r x) b) I J) (Some p) c.
  Proof.
    intros E. unfold newDomain in E. cbv zeta in E. inv_bind E. destruct (profiles e) as [p|]; [|discriminate]. inv_bind E.
    destruct (psi_bndry (bs e)) as [pb|]; [|discriminate]. inv_bind E. destruct v1 as ((J, p'), b'). inv_bind E. inv_bind E.
    apply linear_solve_inv in E4. destruct E4 as (x & b & ->). apply solve_inv in E. destruct E as (e1 & J1 & p1 & rhs & x1 & p2 & I & dR & dZ & b1 & _ & _ & _ & _ & _ & _ & _ & _ & _ & ->).
    exists v, x1, b1. do 4 eexists. split; [exact E0 || reflexivity|]. reflexivity.
  Qed.
End Frame.

(** ** Without coils and with a flat spline everything succeeds *)
Lemma flat_new {Ctl P} G t rmin rmax zmin zmax nx ny b psi I gen A ord chk : coils t = [] -> (4 <= nx)%nat -> (4 <= ny)%nat -> rmin < rmax -> zmin < zmax ->
  generator_of ord rmin rmax zmin zmax = Ok gen -> gen nx ny = Ok A ->
  exists e : equilibrium R P Ctl, new_equilibrium G exp flat_spline t rmin rmax zmin zmax nx ny b psi I ord chk = Ok e /\
    slv e = SMatrix (MGDirect (nx * ny) A) /\ bs e = no_boundary.
Proof.
  intros Hc Hx Hy HR HZ Eg EA. unfold new_equilibrium. destruct (Nat.ltb_spec nx 2); [lia|]. destruct (Nat.ltb_spec ny 2); [lia|]. cbn [orb]. cbv zeta.
  match goal with |- context [update_plasma flat_spline ?e1 nx ny ?p] => assert (Hu := flat_update_plasma e1 p Hx Hy HR HZ Hc); cbn [e_nx e_ny] in Hu; rewrite Hu end.
  cbn [bind]. rewrite Eg. cbn [bind]. unfold createVcycle. cbn [createVcycle_]. rewrite EA. cbn [bind].
  eexists. split; [reflexivity|]. split; reflexivity.
Qed.
Lemma flat_linear {Ctl P} G mu0 lu (e : equilibrium R P Ctl) A J : coils (tok e) = [] -> bnd e = BFree -> dyadic (e_nx e) -> dyadic (e_ny e) ->
  (4 <= e_nx e)%nat -> (4 <= e_ny e)%nat -> Rmin e < Rmax e -> Zmin e < Zmax e -> slv e = SMatrix (MGDirect (e_nx e * e_ny e) A) ->
  exists x, linear_solve G sqrt mu0 lu flat_spline e J = Ok (with_bs (with_plasma e x) (bs e)).
Proof.
  intros Hc Hb Dx Dy Hx Hy HR HZ Hs. unfold linear_solve, applyBoundary. rewrite Hb.
  destruct (freeBoundary_spec (G FPsi) (e_nx e) (e_ny e) (grid_R e) (grid_Z e) J (plasma_psi e) Dx Dy) as (p & Ep & _). rewrite Ep. cbn [bind].
  destruct (set_edges_spec (e_nx e) (e_ny e) (fun i j => nmul (nmul (nopp mu0) (grid_R e i j)) (J i j)) p ltac:(lia) ltac:(lia)) as (rhs & Er & _). rewrite Er. cbn [bind].
  unfold callSolver. rewrite Hs. unfold solver_call. cbn [mg_call]. rewrite Nat.eqb_refl. cbn [bind].
  eexists. apply flat_update_plasma; assumption.
Qed.
Lemma flat_own {Ctl P} (e : equilibrium R P Ctl) : coils (tok e) = [] -> (4 <= e_nx e)%nat -> (4 <= e_ny e)%nat -> Rmin e < Rmax e -> Zmin e < Zmax e ->
  update_own flat_spline e = Ok (with_bs e (bs e)).
Proof.
  intros Hc Hx Hy HR HZ. unfold update_own. destruct (no_coils_psi e Hc) as (psi & E & _). rewrite E. cbn [bind]. rewrite flat_update by assumption. reflexivity.
Qed.
Lemma flat_solve {Ctl P} G mu0 lu (e : equilibrium R P Ctl) A Jc p : coils (tok e) = [] -> bnd e = BFree -> dyadic (e_nx e) -> dyadic (e_ny e) ->
  (4 <= e_nx e)%nat -> (4 <= e_ny e)%nat -> Rmin e < Rmax e -> Zmin e < Zmax e -> slv e = SMatrix (MGDirect (e_nx e * e_ny e) A) ->
  (forall e psi, exists J, Jc p e psi None = Ok (J, p, bs e)) ->
  exists e', solve G sqrt mu0 lu flat_spline Jc e p None None None = Ok e'.
Proof.
  intros Hc Hb Dx Dy Hx Hy HR HZ Hs HJ. unfold solve.
  rewrite (flat_own (with_profiles e (Some p) (control e)) Hc Hx Hy HR HZ). cbn [bind].
  set (e1 := with_bs _ _). destruct (no_coils_psi e1 Hc) as (psi & Ep & _). rewrite Ep. cbn [bind]. destruct (HJ e1 psi) as (J & EJ). rewrite EJ. cbn [bind].
  set (e2 := with_profiles _ _ _). destruct (flat_linear G mu0 lu e2 A J Hc Hb Dx Dy Hx Hy HR HZ Hs) as (x & Ex). rewrite Ex. cbn [bind].
  cbn [e_nx e_ny with_bs with_plasma]. destruct (romb2_dyadic (e_nx e2) (e_ny e2) J Dx Dy) as (s & Es). rewrite Es. cbn [bind].
  rewrite spacing_R_ok by (cbn; lia). rewrite spacing_Z_ok by (cbn; lia). cbn [bind]. eexists. reflexivity.
Qed.
