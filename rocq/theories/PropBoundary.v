(** Properties of boundary.py. *)
From Coq Require Import List Arith ZArith QArith Bool Reals Lra Lia.
From Coquelicot Require Import Coquelicot.
From Verif Require Import Py Num Numpy Romb RombProofs RombExact GradShafranov Linalg Multigrid PropMultigrid Boundary BoundarySpec BoundaryProofs.
Import ListNotations.
Local Open Scope R_scope.

(** ** C28 *)
Theorem C28_fixed_boundary : forall nx ny (psi : nat -> nat -> R),
  ((0 < nx)%nat /\ (0 < ny)%nat ->
   exists psi', fixedBoundary nx ny psi = Ok psi' /\
   forall x y, (x < nx)%nat -> (y < ny)%nat ->
     (on_edge nx ny x y -> psi' x y = 0) /\ (inside nx ny x y -> psi' x y = psi x y)) /\
  (~ ((0 < nx)%nat /\ (0 < ny)%nat) -> fixedBoundary nx ny psi = Raise IndexError).
Proof.
  intros nx ny psi. split.
  - intros (Hx & Hy). destruct (set_edges_spec nx ny psi zeros2 Hx Hy) as (psi' & E & HS). exists psi'. split; [exact E|exact HS].
  - intros HN. apply set_edges_empty. lia.
Qed.
Print Assumptions C28_fixed_boundary.
Example C28_fixed_example : exists p, fixedBoundary (T := Q) 4 3 (fun x y => inject_Z (Z.of_nat (10 * x + y + 1))) = Ok p /\
  map (fun x => map (p x) [0; 1; 2]%nat) [0; 1; 2; 3]%nat = [[0; 0; 0]; [0; 12; 0]; [0; 22; 0]; [0; 0; 0]]%Q.
Proof. eexists. split; reflexivity. Qed.

Theorem C28_free_boundary : forall greens nx ny gR gZ (J psi : nat -> nat -> R),
  (dyadic nx /\ dyadic ny ->
   exists psi', freeBoundary greens nx ny gR gZ J psi = Ok psi' /\
   forall x y, (x < nx)%nat -> (y < ny)%nat ->
     (on_edge nx ny x y -> plasma_flux_at greens nx ny gR gZ J x y (psi' x y)) /\
     (inside nx ny x y -> psi' x y = psi x y)) /\
  (~ (dyadic nx /\ dyadic ny) -> exists e, freeBoundary greens nx ny gR gZ J psi = Raise e).
Proof.
  intros greens nx ny gR gZ J psi. split.
  - intros (Dx & Dy). apply freeBoundary_spec; assumption.
  - apply freeBoundary_bad.
Qed.
Print Assumptions C28_free_boundary.
(** Current at the centre only, kernel 1: every edge point gets the Simpson weight of the centre. *)
Example C28_free_example : exists p, freeBoundary (T := Q) (fun _ _ _ _ => 1%Q) 3 3
    (fun x _ => inject_Z (Z.of_nat (x + 1))) (fun _ y => inject_Z (Z.of_nat (2 * y))) (fun x y => if ((x =? 1) && (y =? 1))%nat then 5%Q else 0%Q) (fun _ _ => 7%Q) = Ok p /\
  (p 0%nat 0%nat == (4 # 3) * (4 # 3) * 5 * (1 * 2))%Q /\ (p 1%nat 1%nat == 7)%Q /\ (p 2%nat 1%nat == 160 # 9)%Q.
Proof. eexists. split; [vm_compute; reflexivity|]. split; [|split]; vm_compute; reflexivity. Qed.
Example C28_dyadic_example : dyadic 65 /\ dyadic 2 /\ ~ dyadic 64.
Proof.
  split; [exists 6%nat; reflexivity|]. split; [exists 0%nat; reflexivity|]. intros (k & E).
  do 7 (destruct k as [|k]; [cbn in E; lia|]). rewrite !Nat.pow_succ_r' in E. assert (P := Nat.pow_nonzero 2 k). lia.
Qed.

(** Linear in the current, nothing without current, same sign as the current. *)
Theorem C28_free_boundary_linear : forall greens nx ny gR gZ a b (J1 J2 J psi : nat -> nat -> R) p1 p2 p,
  (forall x y, (x < nx)%nat -> (y < ny)%nat -> J x y = a * J1 x y + b * J2 x y) ->
  freeBoundary greens nx ny gR gZ J1 psi = Ok p1 -> freeBoundary greens nx ny gR gZ J2 psi = Ok p2 ->
  freeBoundary greens nx ny gR gZ J psi = Ok p ->
  forall x y, on_edge nx ny x y -> p x y = a * p1 x y + b * p2 x y.
Proof.
  intros greens nx ny gR gZ a b J1 J2 J psi p1 p2 p HJ E1 E2 E x y He.
  assert (D : dyadic nx /\ dyadic ny).
  { destruct (Classical_Prop.classic (dyadic nx /\ dyadic ny)) as [D|D]; [exact D|].
    destruct (freeBoundary_bad greens nx ny gR gZ J psi D) as (e & Ee). congruence. }
  destruct D as (Dx & Dy). assert (Lx := proj1 He). assert (Ly := proj1 (proj2 He)).
  destruct (freeBoundary_spec greens nx ny gR gZ J1 psi Dx Dy) as (p1' & E1' & H1).
  destruct (freeBoundary_spec greens nx ny gR gZ J2 psi Dx Dy) as (p2' & E2' & H2).
  destruct (freeBoundary_spec greens nx ny gR gZ J psi Dx Dy) as (p' & E' & H).
  rewrite E1 in E1'; injection E1' as <-. rewrite E2 in E2'; injection E2' as <-. rewrite E in E'; injection E' as <-.
  destruct (proj1 (H1 x y Lx Ly) He) as (s1 & S1 & ->). destruct (proj1 (H2 x y Lx Ly) He) as (s2 & S2 & ->).
  destruct (proj1 (H x y Lx Ly) He) as (s & S & ->).
  destruct Dx as (kx & ->), Dy as (ky & ->). rewrite romb2_rt in S, S1, S2. injection S as <-. injection S1 as <-. injection S2 as <-.
  set (g i j := if ((i =? x)%nat && (j =? y)%nat)%bool then 0 else greens (gR i j) (gZ i j) (gR x y) (gZ x y)).
  change (R2 kx ky (fun i j => g i j * J i j) * (gR 1%nat 0%nat - gR 0%nat 0%nat) * (gZ 0%nat 1%nat - gZ 0%nat 0%nat)
    = a * (R2 kx ky (fun i j => g i j * J1 i j) * (gR 1%nat 0%nat - gR 0%nat 0%nat) * (gZ 0%nat 1%nat - gZ 0%nat 0%nat))
      + b * (R2 kx ky (fun i j => g i j * J2 i j) * (gR 1%nat 0%nat - gR 0%nat 0%nat) * (gZ 0%nat 1%nat - gZ 0%nat 0%nat))).
  rewrite (R2_ext kx ky (fun i j => g i j * J i j) (fun i j => a * (g i j * J1 i j) + b * (g i j * J2 i j))).
  - rewrite (R2_linear kx ky (fun i j => g i j * J1 i j) (fun i j => g i j * J2 i j)). ring.
  - intros i j Hi Hj. rewrite HJ by lia. ring.
Qed.
Print Assumptions C28_free_boundary_linear.

Theorem C28_free_boundary_sign : forall greens nx ny gR gZ (J psi p : nat -> nat -> R),
  gR 0%nat 0%nat < gR 1%nat 0%nat -> gZ 0%nat 0%nat < gZ 0%nat 1%nat ->
  freeBoundary greens nx ny gR gZ J psi = Ok p -> forall x y, on_edge nx ny x y ->
  ((forall i j, (i < nx)%nat -> (j < ny)%nat -> J i j = 0) -> p x y = 0) /\
  ((forall i j, (i < nx)%nat -> (j < ny)%nat -> 0 <= J i j) ->
   (forall i j, (i < nx)%nat -> (j < ny)%nat -> (i, j) <> (x, y) -> 0 < greens (gR i j) (gZ i j) (gR x y) (gZ x y)) ->
   0 <= p x y /\
   forall i j, (i < nx)%nat -> (j < ny)%nat -> (i, j) <> (x, y) -> 0 < J i j -> 0 < p x y).
Proof.
  intros greens nx ny gR gZ J psi p HR HZ E x y He.
  assert (D : dyadic nx /\ dyadic ny).
  { destruct (Classical_Prop.classic (dyadic nx /\ dyadic ny)) as [D|D]; [exact D|].
    destruct (freeBoundary_bad greens nx ny gR gZ J psi D) as (e & Ee). congruence. }
  destruct D as (Dx & Dy). assert (Lx := proj1 He). assert (Ly := proj1 (proj2 He)).
  destruct (freeBoundary_spec greens nx ny gR gZ J psi Dx Dy) as (p' & E' & H). rewrite E in E'; injection E' as <-.
  destruct (proj1 (H x y Lx Ly) He) as (s & S & ->). destruct Dx as (kx & ->), Dy as (ky & ->). rewrite romb2_rt in S. injection S as <-.
  set (g i j := if ((i =? x)%nat && (j =? y)%nat)%bool then 0 else greens (gR i j) (gZ i j) (gR x y) (gZ x y)).
  change (rt kx _ 1 kx kx) with (R2 kx ky (fun i j => g i j * J i j)).
  assert (Q : 0 < (gR 1%nat 0%nat - gR 0%nat 0%nat) * (gZ 0%nat 1%nat - gZ 0%nat 0%nat)) by (apply Rmult_lt_0_compat; lra).
  split.
  - intros HJ. rewrite (R2_ext kx ky _ (fun i j => 0 * (g i j * J i j))).
    + rewrite (R2_scal kx ky (fun i j => g i j * J i j)). ring.
    + intros i j Hi Hj. rewrite HJ by lia. ring.
  - intros HJ HG.
    assert (Gp : forall i j, (i <= 2 ^ kx)%nat -> (j <= 2 ^ ky)%nat -> (i, j) <> (x, y) -> 0 < g i j).
    { intros i j Hi Hj Hn. unfold g. destruct (Nat.eqb_spec i x); destruct (Nat.eqb_spec j y); cbn [andb]; try (apply HG; [lia|lia|exact Hn]).
      subst. congruence. }
    assert (Gn : forall i j, (i <= 2 ^ kx)%nat -> (j <= 2 ^ ky)%nat -> 0 <= g i j * J i j).
    { intros i j Hi Hj. apply Rmult_le_pos; [|apply HJ; lia]. unfold g. destruct (Nat.eqb_spec i x); destruct (Nat.eqb_spec j y); cbn [andb]; try lra;
      apply Rlt_le, HG; try lia; congruence. }
    split.
    + rewrite Rmult_assoc. apply Rmult_le_pos; [|lra]. apply R2_nonneg. exact Gn.
    + intros i j Hi Hj Hn HJp. rewrite Rmult_assoc. apply Rmult_lt_0_compat; [|exact Q].
      apply (R2_positive kx ky _ i j Gn); [lia|lia|]. apply Rmult_lt_0_compat; [|exact HJp]. apply Gp; [lia|lia|exact Hn].
Qed.
Print Assumptions C28_free_boundary_sign.
Example C28_sign_example : exists p, freeBoundary (T := Q) (fun Rc Zc r z => (Rc * r)%Q) 3 3
    (fun x _ => inject_Z (Z.of_nat (x + 1))) (fun _ y => inject_Z (Z.of_nat y)) (fun x y => if ((x =? 0) && (y =? 0))%nat then 1%Q else 0%Q) (fun _ _ => 7%Q) = Ok p /\
  (p 0%nat 0%nat == 0)%Q /\ (p 2%nat 0%nat == 1 # 3)%Q.
Proof. eexists. split; [vm_compute; reflexivity|]. split; vm_compute; reflexivity. Qed.

(** ** C95: von Hagenow's boundary *)
Theorem C95_hagenow_values : forall greens nx ny gR gZ (J psi : nat -> nat -> R)
    (callSolver : (nat -> nat -> R) -> (nat -> nat -> R) -> result ((nat -> nat -> R) * (nat -> nat -> R))),
  dyadic nx -> dyadic ny -> (5 <= nx)%nat -> (5 <= ny)%nat ->
  exists s, current_source nx ny gR J s /\
    (forall e, callSolver psi s = Raise e -> freeBoundaryHagenow greens sqrt nx ny callSolver gR gZ J psi = Raise e) /\
    (forall psi1 u, callSolver psi s = Ok (psi1, u) ->
      exists psi', freeBoundaryHagenow greens sqrt nx ny callSolver gR gZ J psi = Ok psi' /\
      forall x y, (x < nx)%nat -> (y < ny)%nat ->
        (on_edge nx ny x y -> let (r, z) := observer nx ny gR gZ x y in contour_flux greens nx ny gR gZ u r z (psi' x y)) /\
        (inside nx ny x y -> psi' x y = psi1 x y)).
Proof. intros. apply hagenow_spec; assumption. Qed.
Print Assumptions C95_hagenow_values.
Example C95_example : dyadic 5 /\ dyadic 9 /\ (5 <= 5)%nat /\ (5 <= 9)%nat.
Proof. split; [exists 2%nat; reflexivity|]. split; [exists 3%nat; reflexivity|lia]. Qed.

Theorem C95_interior_kept_with_direct_solver : forall lu N A greens nx ny gR gZ (J psi psi' : nat -> nat -> R),
  dyadic nx -> dyadic ny -> (5 <= nx)%nat -> (5 <= ny)%nat ->
  freeBoundaryHagenow greens sqrt nx ny (solver_call lu (MGDirect N A) nx ny) gR gZ J psi = Ok psi' ->
  forall x y, inside nx ny x y -> psi' x y = psi x y.
Proof.
  intros lu N A greens nx ny gR gZ J psi psi' Dx Dy Nx Ny E x y Hi.
  destruct (hagenow_spec greens nx ny gR gZ J (solver_call lu (MGDirect N A) nx ny) psi Dx Dy Nx Ny) as (s & _ & HE & HO).
  destruct (solver_call lu (MGDirect N A) nx ny psi s) as [[psi1 u]|e] eqn:Es; [|rewrite (HE e eq_refl) in E; discriminate].
  destruct (HO psi1 u eq_refl) as (p & Ep & Hp). rewrite E in Ep. injection Ep as <-.
  assert (psi1 = psi).
  { unfold solver_call in Es. destruct (mg_call lu (MGDirect N A) nx ny psi s); cbn [bind] in Es; [|discriminate]. injection Es as <- <-. reflexivity. }
  subst. apply Hp; [unfold inside in Hi; lia|unfold inside in Hi; lia|exact Hi].
Qed.
Print Assumptions C95_interior_kept_with_direct_solver.

(** With the iterative solver of setSolverVcycle the interior is overwritten. *)
Theorem C95_interior_kept_refuted : exists (s : solver (T := R)) (J psi psi' : nat -> nat -> R) x y,
  createVcycle 5 5 (GSsparse 1 2 (-1) 1) 1 1 1 false = Ok s /\
  freeBoundaryHagenow (fun _ _ _ _ => 1) sqrt 5 5 (solver_call (fun _ _ b => b) s 5 5)
    (fun i _ => 1 + INR i / 4) (fun _ j => -1 + INR j / 2) J psi = Ok psi' /\
  inside 5 5 x y /\ psi' x y <> psi x y.
Proof.
  destruct (C27_grad_shafranov_solvable 1 2 (-1) 1 1 5 5 1 1 false) as (s & A & Es & _ & EA & Hd); [lra|lra|lra|lia|lia|].
  assert (Es' : s = MGJacobi 25 A 1 1 None) by (unfold createVcycle in Es; cbn [createVcycle_] in Es; rewrite EA in Es; cbn [bind] in Es; injection Es as <-; reflexivity).
  set (J := fun i j => if ((i =? 2) && (j =? 2))%nat then 1 else 0).
  set (psi := (fun _ _ => 0) : nat -> nat -> R).
  assert (D5 : dyadic 5) by (exists 2%nat; reflexivity).
  destruct (hagenow_spec (fun _ _ _ _ => 1) 5 5 (fun i _ => 1 + INR i / 4) (fun _ j => -1 + INR j / 2) J (solver_call (fun _ _ b => b) s 5 5) psi D5 D5 (le_n _) (le_n _))
    as (b & Hb & _ & HO).
  assert (B0 : forall r, (r < 25)%nat -> r <> 12%nat -> ravel 5 b r = 0).
  { intros r Hr Hn. unfold ravel.
    assert (Hx : (r / 5 < 5)%nat) by (apply Nat.div_lt_upper_bound; lia). assert (Hy := Nat.mod_upper_bound r 5).
    assert (Hr5 := Nat.div_mod r 5). destruct (edge_cases 5 5 (r / 5) (r mod 5) Hx) as [He|He]; [lia|apply Hb; exact He|].
    rewrite (proj1 (Hb _ _) He). unfold J. destruct (Nat.eqb_spec (r / 5) 2); destruct (Nat.eqb_spec (r mod 5) 2); cbn [andb]; try ring. exfalso. lia. }
  assert (B1 : ravel 5 b 12 = 1 + 2 / 4).
  { unfold ravel. change (12 / 5)%nat with 2%nat. change (12 mod 5)%nat with 2%nat. rewrite (proj1 (Hb 2%nat 2%nat)) by (unfold inside; lia). unfold J. cbn [Nat.eqb andb INR]. lra. }
  assert (X1 : forall r, jacobi 25 A (ravel 5 b) (ravel 5 psi) r = ravel 5 b r / A r r).
  { intros r. unfold jacobi, mdot. change (ravel 5 psi) with (fun _ : nat => 0). nR.
    rewrite nsum_zero by (intros; ring). unfold Rdiv. ring. }
  assert (X2 : jacobi 25 A (ravel 5 b) (jacobi 25 A (ravel 5 b) (ravel 5 psi)) 12 = (1 + 2 / 4) / A 12%nat 12%nat).
  { assert (Hd12 : A 12%nat 12%nat <> 0) by (apply Hd; lia).
    unfold jacobi at 1. rewrite X1, B1. unfold mdot. rewrite (nsum_single 25 _ 12) by
      (try lia; intros i Hi Hn; rewrite X1, B0 by lia; nR; unfold Rdiv; ring). rewrite X1, B1. nR. field. exact Hd12. }
  assert (EC : solver_call (fun _ _ b => b) s 5 5 psi b = Ok (unravel 5 (jacobi 25 A (ravel 5 b) (jacobi 25 A (ravel 5 b) (ravel 5 psi))), unravel 5 (jacobi 25 A (ravel 5 b) (jacobi 25 A (ravel 5 b) (ravel 5 psi))))).
  { rewrite Es'. reflexivity. }
  destruct (HO _ _ EC) as (psi' & Ep & Hp).
  exists s, J, psi, psi', 2%nat, 2%nat. split; [exact Es|]. split; [exact Ep|]. split; [unfold inside; lia|].
  rewrite (proj2 (Hp 2%nat 2%nat ltac:(lia) ltac:(lia))) by (unfold inside; lia).
  unfold unravel. change (2 * 5 + 2)%nat with 12%nat. rewrite X2. unfold psi.
  assert (Hi := Rinv_neq_0_compat _ (Hd 12%nat ltac:(lia))). unfold Rdiv. intros H0. apply Rmult_integral in H0. destruct H0; lra.
Qed.
Print Assumptions C95_interior_kept_refuted.

(** ** C96: the one-sided normal derivative is fourth order accurate, on either side *)
Theorem C96_normal_derivative_order : forall (f : R -> R) t h M, 0 < h ->
  (forall s k, (k <= 5)%nat -> ex_derive_n f k s) ->
  (forall s, t - 4 * h <= s <= t + 4 * h -> Rabs (Derive_n f 5 s) <= M) ->
  Rabs (onesided (fun k => f (t + INR k * h)) h - - Derive f t) <= 17 / 3 * M * h ^ 4 /\
  Rabs (onesided (fun k => f (t - INR k * h)) h - Derive f t) <= 17 / 3 * M * h ^ 4.
Proof.
  intros f t h M Hh HD HM. rewrite !onesided_R. split.
  - apply slope_error; [exact Hh|intros; apply HD; assumption|intros; apply HM; lra].
  - apply slope_error_left; [exact Hh|exact HD|intros; apply HM; lra].
Qed.
Print Assumptions C96_normal_derivative_order.
Theorem C96_exact_for_quartics : forall a b c d e t h, h <> 0 ->
  let p x := a + b * x + c * x ^ 2 + d * x ^ 3 + e * x ^ 4 in
  let p' x := b + 2 * c * x + 3 * d * x ^ 2 + 4 * e * x ^ 3 in
  onesided (fun k => p (t + INR k * h)) h = - p' t /\ onesided (fun k => p (t - INR k * h)) h = p' t.
Proof.
  intros a b c d e t h Hh p p'. rewrite !onesided_R. unfold minus_slope, p, p'.
  replace (INR 0) with 0 by reflexivity. replace (INR 1) with 1 by reflexivity. replace (INR 2) with 2 by (cbn; ring).
  replace (INR 3) with 3 by (cbn; ring). replace (INR 4) with 4 by (cbn; ring). split; field; exact Hh.
Qed.
Print Assumptions C96_exact_for_quartics.
Example C96_example : (onesided (T := Q) (fun k => let x := inject_Z (Z.of_nat k) / 2 in x * x * x * x + x)%Q (1 # 2) == -1)%Q.
Proof. reflexivity. Qed.
