(** C230: the first solve made when a G-EQDSK file is read. *)
From Coq Require Import String List Arith ZArith QArith Bool Reals Lra Lia.
From Coquelicot Require Import Coquelicot.
From Verif Require Import Py Num Numpy Romb RombProofs Multigrid MultigridProofs Gauss Coils Machine Sensors Critical Boundary BoundarySpec BoundaryProofs Jtor
  GradShafranov GradShafranovProofs Equilibrium EquilibriumSpec EquilibriumProofs EquilibriumProofs2 EquilibriumProofs3 GSSpec PropGreens PropBoundary PropEquilibrium FittingProofs PropSolveFlux
  PropFourth Picard PicardProofs PropPicard PropPicardLimit Safety Geqdsk GeqdskSpec GeqdskProofs GeqdskExamples.
Import ListNotations.
Local Open Scope R_scope.

(** The current density is computed from the profiles of the file at the normalised flux of the
    file, inside the plasma only; the solver is the fourth-order one with the free boundary. *)
Theorem C230_current : forall (T : Type) (N : Num T) (P Ctl : Type) G sqrt exp mu0 spline uspline lu inj Jtor_call (m : gmachine T) d fit_sol (r : rstate T P Ctl) e',
  read_setup G exp mu0 spline uspline d m None fit_sol = Ok r -> read_solve G sqrt mu0 spline lu inj Jtor_call r = Ok e' ->
  exists nx ny psi prof q mk J,
    resize (g_nx d) (g_ny d) (g_psi d) = Ok (nx, ny, psi) /\ read_profiles uspline d = Ok (prof, q) /\ mask (bs (r_eq r)) = Some (Some mk) /\
    jtor e' = Some J /\
    (forall i j, J i j = (let rr := linspace (g_rleft d) (g_rleft d + g_rdim d) nx i in
       let s := nclip ((psi i j - g_simagx d) / (g_sibdry d - g_simagx d)) n0 (nlit 11 10) in
       (rr * fpprime prof s + fffprime prof s / (rr * mu0)) * mk i j)%num) /\
    profiles e' = Some (inj prof) /\ tok e' = tok (r_eq r) /\ check_limited e' = true /\ bnd e' = BFree /\
    exists A, GSsparse4thOrder (Rmin e') (Rmax e') (Zmin e') (Zmax e') (e_nx e') (e_ny e') = Ok A /\ slv e' = SMatrix (MGDirect (nx * ny) A).
Proof.
  intros T N P Ctl G sqrt exp mu0 spline us lu inj Jc m d fs r e' Er Es. apply read_inv in Er.
  destruct Er as (nx & ny & psi & prof & q & e & mk & _ & E1 & E2 & E3 & _ & Em & _ & Ep & (Ee & EJ & _)).
  apply new_inv in E3. destruct E3 as (_ & _ & N1 & N2 & N3 & N4 & N5 & N6 & _ & Nb & _ & _ & _ & _ & _ & _ & _ & _ & gen & A & Eg & EA & Esl).
  unfold read_solve in Es. apply solve_inv in Es as (e1 & J & p1 & rhs & x & p' & I & dR & dZ & b & -> & (-> & ->) & _ & _ & _ & _ & _ & _ & _ & ->).
  rewrite Ee. exists nx, ny, psi, prof, q, mk, (r_Jtor r). split; [exact E1|]. split; [exact E2|]. split; [exact Em|]. split; [reflexivity|]. split.
  { intros i j. rewrite EJ. change (grid_R e i j) with (linspace (Rmin e) (Rmax e) (e_nx e) i). rewrite N1, N3, N4. reflexivity. }
  cbn [profiles tok check_limited bnd with_profiles with_current with_bs with_plasma with_check Rmin Rmax Zmin Zmax e_nx e_ny slv].
  split; [rewrite Ep; reflexivity|]. split; [reflexivity|]. split; [reflexivity|]. split; [exact Nb|].
  exists A. rewrite N1, N2, N3, N4, N5, N6. unfold generator_of in Eg. cbn [Nat.eqb] in Eg. injection Eg as <-. split; [exact EA|exact Esl].
Qed.
Print Assumptions C230_current.
(** A 9 x 9 file; the flux is that of a solver which returns its right-hand side. *)
Example C230_current_example : exists r e',
  qread (square_file None) no_wall None = Ok r /\ read_solve (Ctl := unit) G0 (fun x => x) 1%Q qspline (fun _ _ b => b) (fun _ => tt) (fun _ _ _ _ => Raise TypeError) r = Ok e' /\
  match jtor e' with Some J => negb (Qeq_bool (J 4%nat 4%nat) 0) && Qeq_bool (J 0%nat 0%nat) 0 | None => false end = true.
Proof. apply both_ok. vm_cast_no_check (eq_refl true). Qed.

(** The plasma flux solves the fourth-order equations for that current density, its boundary values
    are the flux of the current, and the plasma current is the integral. *)
Theorem C230_flux : forall (P Ctl : Type) G mu0 spline lu inj Jtor_call (r : rstate R P Ctl) e' A,
  let e := r_eq r in let J := r_Jtor r in
  fourth_order lu e -> bnd e = BFree -> GSsparse4thOrder (Rmin e) (Rmax e) (Zmin e) (Zmax e) (e_nx e) (e_ny e) = Ok A ->
  read_solve G sqrt mu0 spline lu inj Jtor_call r = Ok e' ->
  (forall x y, inside (e_nx e) (e_ny e) x y -> mat_apply A (plasma_psi e') (e_nx e) (e_ny e) (x * e_ny e + y) = - mu0 * gridpt (Rmin e) (Rmax e) (e_nx e) x * J x y) /\
  (forall x y, on_edge (e_nx e) (e_ny e) x y -> plasma_flux_at (G FPsi) (e_nx e) (e_ny e) (grid_R e) (grid_Z e) J x y (plasma_psi e' x y)) /\
  area_integral (e_nx e) (e_ny e) ((Rmax e - Rmin e) / INR (e_nx e - 1)) ((Zmax e - Zmin e) / INR (e_ny e - 1)) J (current e').
Proof.
  intros P Ctl G mu0 spline lu inj Jc r e' A e J (Hx & Hy & HR & HZ & A' & EA' & Es & HA) Hb EA E. rewrite EA in EA'. injection EA' as <-.
  unfold read_solve in E. fold e J in E.
  destruct (C29_fourth_order P Ctl G mu0 lu spline Jc (with_check e true) e' (inj (r_profiles r)) (Some J) None None A Hx Hy HR HZ EA Es HA E) as (J' & p1 & _ & HJ & Eb & He & Hi & Hc).
  assert (K := HJ J eq_refl). subst J'. split; [exact Hi|]. split; [|exact Hc]. intros x y Hxy. rewrite (He x y Hxy).
  unfold applyBoundary in Eb. change (bnd (with_check e true)) with (bnd e) in Eb. rewrite Hb in Eb.
  assert (D : dyadic (e_nx e) /\ dyadic (e_ny e)).
  { destruct (Classical_Prop.classic (dyadic (e_nx e) /\ dyadic (e_ny e))) as [D|D]; [exact D|].
    destruct (freeBoundary_bad (G FPsi) (e_nx e) (e_ny e) (grid_R e) (grid_Z e) J (plasma_psi e) D) as (er & Ee).
    assert (X : Ok p1 = Raise er) by (rewrite <- Eb; exact Ee). discriminate X. }
  destruct D as (Dx & Dy). destruct (freeBoundary_spec (G FPsi) (e_nx e) (e_ny e) (grid_R e) (grid_Z e) J (plasma_psi e) Dx Dy) as (p' & E' & H).
  assert (X : Ok p1 = Ok p') by (rewrite <- Eb; exact E'). apply ok_inj in X. subst p'. apply H; [apply Hxy|apply (proj2 Hxy)|exact Hxy].
Qed.
Print Assumptions C230_flux.
(** A current at the middle of a 9 x 9 grid. *)
Definition rnine (A : arr2 R) : rstate R unit unit :=
  mkrs (mkgm [] (mkvessel None None) 0)
    (mkeq 9 9 100 108 (-40) 40 (mktok [] false []) BFree 4 (SMatrix (MGDirect 81 A)) true (fun _ _ => 0) (fun _ _ => []) 0 None no_boundary None None)
    (mkfprofile (fun _ => 0) (fun _ => 0) 0 None None) (fun i j => if (Nat.eqb i 4 && Nat.eqb j 4)%bool then 1 else 0) (fun _ _ => 0) (fun _ _ => 0) None.
Example C230_flux_example : exists A e', fourth_order elimination (r_eq (rnine A)) /\ bnd (r_eq (rnine A)) = BFree /\ GSsparse4thOrder 100 108 (-40) 40 9 9 = Ok A /\ read_solve (fun _ => green) sqrt 1 flat_spline elimination (fun _ => tt) (fun _ _ _ _ => Raise TypeError) (rnine A) = Ok e'.
Proof.
  destruct C218_regular_example as (A & EA & HA). exists A.
  set (e := with_profiles (with_check (r_eq (rnine A)) true) (Some tt) None). assert (D9 : dyadic 9) by (exists 3%nat; reflexivity). set (J := r_Jtor (rnine A)).
  destruct (freeBoundary_spec green 9 9 (grid_R e) (grid_Z e) J (plasma_psi e) D9 D9) as (q & Eq & _).
  destruct (set_edges_spec 9 9 (fun i j => nmul (nmul (nopp 1) (grid_R e i j)) (J i j)) q ltac:(lia) ltac:(lia)) as (rhs & Erh & _).
  destruct (romb2_dyadic 9 9 J D9 D9) as (t & Et).
  assert (E1 : update_own flat_spline e = Ok (with_bs e (bs e))) by (apply flat_own; cbn; try lia; try lra; reflexivity).
  eexists. split. { unfold fourth_order. cbn [Rmin Rmax Zmin Zmax e_nx e_ny slv r_eq rnine]. split; [lia|]. split; [lia|]. split; [lra|]. split; [lra|]. exists A. split; [exact EA|]. split; [reflexivity|exact HA]. }
  split; [reflexivity|]. split; [exact EA|]. unfold read_solve, solve. change (with_profiles (with_check (r_eq (rnine A)) true) _ _) with e. rewrite E1. cbn [bind]. fold J.
  change (with_bs e (bs e)) with e. unfold linear_solve, applyBoundary. change (bnd e) with (@BFree R). cbn iota. change (e_nx e) with 9%nat. change (e_ny e) with 9%nat. rewrite Eq. cbn [bind]. rewrite Erh. cbn [bind].
  unfold callSolver. change (slv e) with (SMatrix (MGDirect 81 A)). unfold solver_call. cbn [mg_call]. change (e_nx e) with 9%nat. change (e_ny e) with 9%nat. change (Nat.eqb 81 (9 * 9)) with true. cbn [bind].
  rewrite flat_update_plasma; [|cbn; lia|cbn; lia|cbn; lra|cbn; lra|reflexivity]. cbn [bind].
  match goal with |- bind (romb2 ?a ?b ?c) _ = _ => change (romb2 a b c) with (romb2 9 9 J) end. rewrite Et. cbn [bind].
  rewrite spacing_R_ok, spacing_Z_ok by (cbn; lia). reflexivity.
Qed.
