(** Lemmas about the model of the Equilibrium object. *)
From Coq Require Import String List Arith ZArith Bool Reals Lia Lra.
From Verif Require Import Py Num Numpy Linalg GradShafranov GradShafranovProofs Multigrid MultigridProofs MultigridGS Coils Machine Romb RombProofs
  Critical CriticalSpec CriticalProofs2 CriticalProofs3 Boundary BoundarySpec BoundaryProofs Jtor Equilibrium EquilibriumSpec GSSpec.
Import ListNotations.
Local Open Scope R_scope.

Ltac inv_bind H :=
  match type of H with
  | bind ?e ?k = Ok _ => let v := fresh "v" in let E := fresh "E" in destruct e as [v|] eqn:E; cbn [bind] in H; [|discriminate H]
  end.

Section Frame.
  Context {T : Type} `{Num T} {P Ctl : Type}.
  Variable G : field -> T -> T -> T -> T -> T.
  Variables (sqrt exp : T -> T) (mu0 : T).
  Variable lu : nat -> arr2 T -> (nat -> T) -> (nat -> T).
  Variable spline : nat -> nat -> (nat -> T) -> (nat -> T) -> arr2 T -> sfun T.
  Variable Jtor_call : P -> equilibrium T P Ctl -> arr2 T -> option T -> result (arr2 T * P * bstate T).

  Lemma update_own_inv (e e' : equilibrium T P Ctl) : update_own spline e = Ok e' ->
    exists psi b, total_psi e = Ok psi /\ update_boundary spline e (e_nx e) (e_ny e) psi = Ok b /\ e' = with_bs e b.
  Proof. intros E. unfold update_own in E. inv_bind E. inv_bind E. injection E as <-. eauto. Qed.
  Lemma update_plasma_inv (e e' : equilibrium T P Ctl) mx my p : update_plasma spline e mx my p = Ok e' ->
    mx = e_nx e /\ my = e_ny e /\
    exists psi b, total_psi (with_plasma e p) = Ok psi /\ update_boundary spline (with_plasma e p) (e_nx e) (e_ny e) psi = Ok b /\
      e' = with_bs (with_plasma e p) b.
  Proof.
    intros E. unfold update_plasma in E. inv_bind E. apply update_own_inv in E.
    unfold eq_spline, RectBivariateSpline in E0.
    destruct (e_nx e =? mx)%nat eqn:E1; [|rewrite ?andb_false_r in E0; discriminate].
    destruct (e_ny e =? my)%nat eqn:E2; [|rewrite ?andb_false_r in E0; discriminate].
    apply Nat.eqb_eq in E1. apply Nat.eqb_eq in E2. subst. auto.
  Qed.
  Lemma new_inv t rmin rmax zmin zmax nx ny b psi I ord chk (e : equilibrium T P Ctl) :
    new_equilibrium G exp spline t rmin rmax zmin zmax nx ny b psi I ord chk = Ok e ->
    (2 <= nx)%nat /\ (2 <= ny)%nat /\ e_nx e = nx /\ e_ny e = ny /\ Rmin e = rmin /\ Rmax e = rmax /\ Zmin e = zmin /\ Zmax e = zmax /\
    tok e = t /\ bnd e = b /\ order e = ord /\ check_limited e = chk /\ current e = I /\ jtor e = None /\
    profiles e = None /\ control e = None /\
    plasma_psi e = (match psi with None => starting_guess exp nx ny | Some p => p end) /\
    pgreen e = (fun i j => createPsiGreens G (coils t) (linspace rmin rmax nx i) (linspace zmin zmax ny j)) /\
    exists gen A, generator_of ord rmin rmax zmin zmax = Ok gen /\ gen nx ny = Ok A /\ slv e = SMatrix (MGDirect (nx * ny) A).
  Proof.
    intros E. unfold new_equilibrium in E. destruct ((nx <? 2) || (ny <? 2))%nat eqn:En; [discriminate|].
    apply orb_false_elim in En. destruct En as (E1 & E2). apply Nat.ltb_ge in E1. apply Nat.ltb_ge in E2.
    cbv zeta in E. inv_bind E. apply update_plasma_inv in E0. destruct E0 as (_ & _ & p & bb & _ & _ & ->).
    inv_bind E. inv_bind E. injection E as <-. cbn.
    unfold createVcycle in E3. cbn [createVcycle_] in E3. inv_bind E3. injection E3 as <-.
    repeat split; try assumption. exists v, v1. auto.
  Qed.

  Lemma applyBoundary_ext (e e' : equilibrium T P Ctl) J :
    e_nx e' = e_nx e -> e_ny e' = e_ny e -> Rmin e' = Rmin e -> Rmax e' = Rmax e -> Zmin e' = Zmin e -> Zmax e' = Zmax e ->
    bnd e' = bnd e -> slv e' = slv e -> plasma_psi e' = plasma_psi e ->
    applyBoundary G sqrt lu e' J = applyBoundary G sqrt lu e J.
  Proof.
    intros. unfold applyBoundary, callSolver, grid_R, grid_Z, R_1D, Z_1D.
    repeat match goal with H : _ = _ |- _ => rewrite H; clear H end. reflexivity.
  Qed.

  (** what solve does, step by step *)
  Lemma solve_inv (e e' : equilibrium T P Ctl) p Jo psi pb : solve G sqrt mu0 lu spline Jtor_call e p Jo psi pb = Ok e' ->
    exists e1 J p1 rhs x p' I dR dZ b,
      e1 = with_profiles e (Some p) (control e) /\
      (match Jo with
       | Some J0 => J = J0 /\ p' = p
       | None => exists b1 b2 q, (match psi with Some q0 => q = q0 | None => total_psi e = Ok q end) /\
                 Jtor_call p (with_bs e1 b1) q pb = Ok (J, p', b2)
       end) /\
      applyBoundary G sqrt lu e J = Ok p1 /\
      set_edges (e_nx e) (e_ny e) (fun i j => nmul (nmul (nopp mu0) (grid_R e i j)) (J i j)) p1 = Ok rhs /\
      (exists q, callSolver lu e p1 rhs = Ok (q, x)) /\
      romb2 (e_nx e) (e_ny e) J = Ok I /\ spacing_R (e_nx e) (e_ny e) (grid_R e) = Ok dR /\ spacing_Z (e_nx e) (e_ny e) (grid_Z e) = Ok dZ /\
      (exists q, total_psi (with_plasma e x) = Ok q /\
         exists e2 : equilibrium T P Ctl, e_nx e2 = e_nx e /\ e_ny e2 = e_ny e /\ Rmin e2 = Rmin e /\ Rmax e2 = Rmax e /\ Zmin e2 = Zmin e /\ Zmax e2 = Zmax e /\
           bnd e2 = bnd e /\ tok e2 = tok e /\ check_limited e2 = check_limited e /\
           update_boundary spline e2 (e_nx e) (e_ny e) q = Ok b) /\
      e' = with_profiles (with_current (with_bs (with_plasma e x) b) (nmul (nmul I dR) dZ) J) (Some p') (control e).
  Proof.
    intros E. unfold solve in E. set (e1 := with_profiles e (Some p) (control e)) in *.
    inv_bind E. apply update_own_inv in E0. destruct E0 as (q0 & b0 & Eq & Eb & ->).
    inv_bind E. destruct v as (J, e2). 
    assert (HJ : exists b2 p', e2 = with_profiles (with_bs e b2) (Some p') (control e) /\
       match Jo with
       | Some J0 => J = J0 /\ p' = p
       | None => exists b1 b2 q, (match psi with Some q0 => q = q0 | None => total_psi e = Ok q end) /\
                 Jtor_call p (with_bs e1 b1) q pb = Ok (J, p', b2)
       end).
    { destruct Jo as [J0|].
      - injection E0 as -> <-. exists b0, p. split; [reflexivity|auto].
      - destruct psi as [q|]; cbn [bind] in E0.
        + inv_bind E0. destruct v as ((J', p'), b2). injection E0 as -> <-. exists b2, p'. split; [reflexivity|]. eexists b0, b2, q. split; [reflexivity|exact E1].
        + inv_bind E0. inv_bind E0. destruct v0 as ((J', p'), b2). injection E0 as -> <-. exists b2, p'. split; [reflexivity|].
          eexists b0, b2, v. split; [exact E1|exact E2]. }
    destruct HJ as (b2 & p' & -> & HJ). clear E0.
    inv_bind E. unfold linear_solve in E0. inv_bind E0. inv_bind E0. inv_bind E0. destruct v2 as (q, x).
    apply update_plasma_inv in E0. destruct E0 as (_ & _ & qf & b & Eqf & Ebf & ->).
    inv_bind E. inv_bind E. inv_bind E. injection E as <-.
    exists e1, J, v0, v1, x, p', v, v2, v3, b.
    split; [reflexivity|]. split; [exact HJ|]. split; [rewrite <- E1; symmetry; apply applyBoundary_ext; reflexivity|].
    split; [exact E2|]. split; [exists q; exact E3|]. split; [exact E0|]. split; [exact E4|]. split; [exact E5|].
    split; [|reflexivity]. exists qf. split; [exact Eqf|].
    exists (with_plasma (with_profiles (with_bs e b2) (Some p') (control e)) x). repeat (split; [reflexivity|]). exact Ebf.
  Qed.
End Frame.

(** ** The discrete equation *)
Lemma ravel_unravel ny (v : nat -> R) c : (0 < ny)%nat -> ravel ny (unravel ny v) c = v c.
Proof. intros H. unfold ravel, unravel. f_equal. rewrite (Nat.div_mod c ny) at 3 by lia. lia. Qed.
Lemma direct_solves lu N nx ny (A b u : nat -> nat -> R) q p :
  solver_call lu (MGDirect N A) nx ny p b = Ok (q, u) -> solves_systems lu N A ->
  q = p /\ forall x y, (x < nx)%nat -> (y < ny)%nat -> mat_apply A u nx ny (x * ny + y) = b x y.
Proof.
  intros E Hn. unfold solver_call in E. cbn [mg_call] in E. destruct (Nat.eqb_spec N (nx * ny)) as [->|]; [|discriminate].
  cbn [bind] in E. injection E as <- <-. split; [reflexivity|]. intros x y Hx Hy.
  assert (Hr : (x * ny + y < nx * ny)%nat) by (assert (S x * ny <= nx * ny)%nat by (apply Nat.mul_le_mono_r; lia); lia).
  transitivity (ravel ny b (x * ny + y)%nat).
  - rewrite <- (Hn (ravel ny b) (x * ny + y)%nat Hr). unfold mat_apply. apply nsum_ext. intros c Hc.
    change (A (x * ny + y)%nat c * ravel ny (unravel ny (lu (nx * ny)%nat A (ravel ny b))) c = A (x * ny + y)%nat c * lu (nx * ny)%nat A (ravel ny b) c)%R.
    rewrite ravel_unravel by lia. reflexivity.
  - unfold ravel. rewrite (Nat.add_comm (x * ny)), Nat.mod_add, Nat.div_add, Nat.mod_small, Nat.div_small by lia. reflexivity.
Qed.
Lemma linspace_gridpt a b n i : linspace a b n i = gridpt a b n i.
Proof. unfold linspace, gridpt. rewrite !nofnat_INR. nR. ring. Qed.

(** ** A flux map without critical points *)
Definition flat_spline : nat -> nat -> (nat -> R) -> (nat -> R) -> (nat -> nat -> R) -> nat -> nat -> R -> R -> R := fun _ _ _ _ _ _ _ _ _ => 0.
Lemma foldM_const {S A} (f : S -> A -> result S) l s : (forall s a, f s a = Ok s) -> foldM f l s = Ok s.
Proof. intros Hf. induction l as [|a l IH]; cbn; [reflexivity|]. rewrite Hf. exact IH. Qed.
Lemma flat_critical nx ny gR gZ psi : Critical.find_critical nx ny gR gZ psi (fun _ _ _ _ => 0) true = Ok ([], []).
Proof.
  unfold Critical.find_critical, candidates.
  rewrite (foldM_const _ _ _) ; [reflexivity|]. intros s i. apply foldM_const. intros s' j.
  unfold visit, local_min, Bp2. nR.
  assert (E : forall a b : R, R_ltb ((0 * 0 + 0 * 0) / (a * a)) ((0 * 0 + 0 * 0) / (b * b)) = false).
  { intros a b. apply R_ltb_false. unfold Rdiv. lra. }
  rewrite E. reflexivity.
Qed.
Lemma increasing_true n (x : nat -> R) : increasing n x = true <-> increasing_on n x.
Proof.
  unfold increasing, increasing_on, range. rewrite forallb_forall. split.
  - intros H i Hi. apply R_ltb_true. apply H. apply in_seq. lia.
  - intros H i Hi. apply in_seq in Hi. apply R_ltb_true. apply H. lia.
Qed.
Lemma RBS_ok spline n m (x y : nat -> R) z : (4 <= n)%nat -> (4 <= m)%nat -> increasing_on n x -> increasing_on m y ->
  RectBivariateSpline spline n m x y n m z = Ok (spline n m x y z).
Proof.
  intros Hn Hm Hx Hy. unfold RectBivariateSpline. apply increasing_true in Hx. apply increasing_true in Hy. rewrite Hx, Hy, !Nat.eqb_refl.
  destruct (Nat.ltb_spec 3 n); [|lia]. destruct (Nat.ltb_spec 3 m); [|lia]. reflexivity.
Qed.
Lemma RBS_shape spline n m (x y : nat -> R) mx my z : (n <> mx \/ m <> my)%nat ->
  RectBivariateSpline spline n m x y mx my z = Raise ValueError.
Proof.
  intros Hs. unfold RectBivariateSpline. destruct (Nat.eqb_spec n mx); destruct (Nat.eqb_spec m my); rewrite ?andb_false_r; cbn [andb]; try reflexivity. lia.
Qed.
Lemma linspace_increasing a b n : a < b -> increasing_on n (linspace a b n).
Proof.
  intros H i Hi. rewrite !linspace_gridpt. unfold gridpt. rewrite S_INR.
  assert (Hn : 0 < INR (n - 1)) by (apply lt_0_INR; lia).
  assert (0 < (b - a) / INR (n - 1)) by (apply Rdiv_lt_0_compat; lra). lra.
Qed.
Lemma no_coils_psi {P Ctl} (e : equilibrium R P Ctl) : coils (tok e) = [] -> exists psi, total_psi e = Ok psi /\ forall i j, psi i j = plasma_psi e i j.
Proof.
  intros Hc. unfold total_psi, eq_psi, calcPsiFromGreens. rewrite Hc. cbn [calcPsi_from bind]. eexists. split; [reflexivity|].
  intros i j. cbn. ring.
Qed.
Lemma flat_update {P Ctl} (e : equilibrium R P Ctl) psi : (4 <= e_nx e)%nat -> (4 <= e_ny e)%nat -> Rmin e < Rmax e -> Zmin e < Zmax e ->
  update_boundary flat_spline e (e_nx e) (e_ny e) psi = Ok (bs e).
Proof.
  intros Hx Hy HR HZ. unfold update_boundary, eq_find_critical, eq_spline.
  rewrite RBS_ok; [|exact Hx|exact Hy|apply linspace_increasing; exact HR|apply linspace_increasing; exact HZ].
  cbn [bind]. unfold flat_spline. rewrite flat_critical. reflexivity.
Qed.
Lemma flat_update_plasma {P Ctl} (e : equilibrium R P Ctl) p : (4 <= e_nx e)%nat -> (4 <= e_ny e)%nat -> Rmin e < Rmax e -> Zmin e < Zmax e ->
  coils (tok e) = [] -> update_plasma flat_spline e (e_nx e) (e_ny e) p = Ok (with_bs (with_plasma e p) (bs e)).
Proof.
  intros Hx Hy HR HZ Hc. unfold update_plasma, eq_spline.
  rewrite RBS_ok; [|exact Hx|exact Hy|apply linspace_increasing; exact HR|apply linspace_increasing; exact HZ]. cbn [bind].
  unfold update_own. destruct (no_coils_psi (with_plasma e p) Hc) as (psi & E & _). rewrite E. cbn [bind].
  change (e_nx (with_plasma e p)) with (e_nx e) in *. 
  assert (H := flat_update (with_plasma e p) psi Hx Hy HR HZ). cbn in H. cbn. rewrite H. reflexivity.
Qed.
