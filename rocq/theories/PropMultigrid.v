(** Properties of the multigrid solver (freegs/multigrid.py). Theorems only. *)
From Coq Require Import List Arith ZArith QArith Bool Reals Lra Lia.
From Verif Require Import Py Num Numpy Linalg GradShafranov GradShafranovProofs Multigrid MultigridProofs MultigridGS.
Import ListNotations.
Local Open Scope R_scope.

(** C24 — the weighted average is never applied: restrict is plain injection. *)
Theorem C24_restrict_is_injection : forall (e : nat -> nat -> R) (n m : nat) (avg : bool),
  exists o, restrict e (2 * n + 1) (2 * m + 1) avg = (o, n + 1, m + 1)%nat /\
  forall x y, (x <= n)%nat -> (y <= m)%nat ->
    o x y = if ((1 <=? x) && (x <? n) && ((1 <=? y) && (y <? m)))%nat
            then e (2 * x)%nat (2 * y)%nat * (if avg then 1 / 4 else 1) else 0.
Proof.
  intros e n m avg.
  assert (Hh : halvable (2 * n + 1) (2 * m + 1)) by (unfold halvable; replace (2 * n + 1 - 1)%nat with (n * 2)%nat by lia; replace (2 * m + 1 - 1)%nat with (m * 2)%nat by lia; split; apply Nat.mod_mul; lia).
  assert (E1 : forall k, half (2 * k + 1) = (k + 1)%nat) by (intros k; unfold half; replace (2 * k + 1 - 1)%nat with (k * 2)%nat by lia; rewrite Nat.div_mul; lia).
  destruct (restrict_shape e (2 * n + 1) (2 * m + 1) avg Hh) as (o & E). rewrite !E1 in E. exists o. split; [exact E|].
  intros x y Hx Hy. assert (Ho := restrict_closed e (2 * n + 1) (2 * m + 1) avg x y Hh). unfold restr_arr in Ho. rewrite E in Ho. cbn [fst] in Ho.
  rewrite Ho, !E1. unfold interiorb. replace (n + 1 - 1)%nat with n by lia. replace (m + 1 - 1)%nat with m by lia. reflexivity.
Qed.
Print Assumptions C24_restrict_is_injection.
Theorem C24_full_weighting_refuted : exists (c : R) (nx ny x y : nat) (o : nat -> nat -> R),
  restrict (fun _ _ => c) nx ny true = (o, 3, 3)%nat /\ (0 < x < 2)%nat /\ (0 < y < 2)%nat /\ o x y <> c.
Proof.
  destruct (C24_restrict_is_injection (fun _ _ => 1) 2 2 true) as (o & E & Ho).
  exists 1, 5%nat, 5%nat, 1%nat, 1%nat, o. split; [exact E|]. split; [lia|]. split; [lia|].
  rewrite Ho by lia. cbn. lra.
Qed.
Print Assumptions C24_full_weighting_refuted.
(** On a non-constant array the same: the corner and edge neighbours have no influence. *)
Example C24_example : (fst (fst (restrict (T := Q) (fun x y => if (x =? 2)%nat && (y =? 2)%nat then 0%Q else 16%Q) 5 5 false)) 1%nat 1%nat == 0)%Q.
Proof. vm_compute. reflexivity. Qed.

(** C25 *)
Theorem C25_interpolate_bilinear : forall (c : nat -> nat -> R) (nx ny : nat),
  exists f, interpolate c nx ny = (f, 2 * (nx - 1) + 1, 2 * (ny - 1) + 1)%nat /\
  let z x y := if ((1 <=? x) && (x <? nx - 1) && ((1 <=? y) && (y <? ny - 1)))%nat then c x y else 0 in
  forall x y,
    f (2 * x)%nat (2 * y)%nat = z x y /\
    f (2 * x + 1)%nat (2 * y)%nat = (z x y + z (x + 1)%nat y) / 2 /\
    f (2 * x)%nat (2 * y + 1)%nat = (z x y + z x (y + 1)%nat) / 2 /\
    f (2 * x + 1)%nat (2 * y + 1)%nat = (z x y + z (x + 1)%nat y + z x (y + 1)%nat + z (x + 1)%nat (y + 1)%nat) / 4.
Proof.
  intros c nx ny. exists (interp_arr c nx ny). split; [reflexivity|]. intros z x y.
  rewrite !interp_closed. unfold refine1.
  assert (E0 : forall k, Nat.even (2 * k) = true) by (intros k; apply Nat.even_spec; exists k; reflexivity).
  assert (E1 : forall k, Nat.even (2 * k + 1) = false) by (intros k; rewrite <- Nat.negb_odd; replace (Nat.odd (2 * k + 1)) with true; [reflexivity|symmetry; apply Nat.odd_spec; exists k; reflexivity]).
  assert (D0 : forall k, (2 * k / 2 = k)%nat) by (intros k; rewrite Nat.mul_comm; apply Nat.div_mul; lia).
  assert (D1 : forall k, ((2 * k + 1) / 2 = k)%nat) by (intros k; replace (2 * k + 1)%nat with (1 + k * 2)%nat by lia; rewrite Nat.div_add by lia; reflexivity).
  rewrite !E0, !E1, !D0, !D1. unfold zero_edge, interiorb. fold (z x y) (z (x + 1)%nat y) (z x (y + 1)%nat) (z (x + 1)%nat (y + 1)%nat).
  repeat split; lra.
Qed.
Print Assumptions C25_interpolate_bilinear.
Theorem C25_interpolate_linear : forall (a a' : R) (u u' v : nat -> nat -> R) (nx ny : nat),
  (forall x y, (x < nx)%nat -> (y < ny)%nat -> v x y = a * u x y + a' * u' x y) ->
  forall x y, fst (fst (interpolate v nx ny)) x y
    = a * fst (fst (interpolate u nx ny)) x y + a' * fst (fst (interpolate u' nx ny)) x y.
Proof. intros a a' u u' v nx ny Hl. exact (interp_lc nx ny a a' u u' v Hl). Qed.
Print Assumptions C25_interpolate_linear.
Theorem C25_restrict_inverts_interpolate : forall (c : nat -> nat -> R) (nx ny : nat), (1 <= nx)%nat -> (1 <= ny)%nat ->
  exists o, (let '(f, nx2, ny2) := interpolate c nx ny in restrict f nx2 ny2 false) = (o, nx, ny) /\
  forall x y, ((1 <= x)%nat /\ (x + 1 < nx)%nat /\ (1 <= y)%nat /\ (y + 1 < ny)%nat -> o x y = c x y) /\
    (~ ((1 <= x)%nat /\ (x + 1 < nx)%nat /\ (1 <= y)%nat /\ (y + 1 < ny)%nat) -> o x y = 0).
Proof.
  intros c nx ny Hx Hy. destruct (restrict_interpolate c nx ny Hx Hy) as (o & E & Ho). exists o. split; [exact E|].
  intros x y. rewrite Ho. destruct (interiorb_spec nx ny x y) as [Hi|Hi]; unfold interior in Hi; tauto.
Qed.
Print Assumptions C25_restrict_inverts_interpolate.
Example C25_example : (fst (fst (interpolate (T := Q) (fun x y => inject_Z (Z.of_nat (x + 10 * y))) 4 4)) 3%nat 3%nat == 33 # 2)%Q.
Proof. vm_compute. reflexivity. Qed.

(** C26 *)
Theorem C26_hierarchy : forall (gen : nat -> nat -> result (nat -> nat -> R)) (nl nx ny nc ni : nat) (d : bool) s,
  (1 <= nx)%nat -> (1 <= ny)%nat -> createVcycle nx ny gen nl nc ni d = Ok s ->
  let L := length (levels s) in
  (1 <= L <= Nat.max 1 nl)%nat /\
  (forall i, (i < L)%nat -> (Nat.divide (2 ^ i) (nx - 1) /\ Nat.divide (2 ^ i) (ny - 1)) /\
     exists A, gen ((nx - 1) / 2 ^ i + 1)%nat ((ny - 1) / 2 ^ i + 1)%nat = Ok A /\
       nth_error (levels s) i = Some ((((nx - 1) / 2 ^ i + 1) * ((ny - 1) / 2 ^ i + 1))%nat, A)) /\
  ((L < nl)%nat -> Nat.odd ((nx - 1) / 2 ^ (L - 1)) = true \/ Nat.odd ((ny - 1) / 2 ^ (L - 1)) = true) /\
  (* no shape error anywhere in the cycle, whatever the arrays and whatever the direct solver returns *)
  (forall lu u b, exists u', mg_call lu s nx ny u b = Ok u').
Proof.
  intros gen nl nx ny nc ni d s Hx Hy E L.
  destruct (create_dims gen nl nx ny nc ni d s Hx Hy E) as (H1 & H2 & H3).
  split; [exact H1|]. split; [exact H2|]. split; [exact H3|].
  intros lu u b. eexists. apply mg_call_pure. eapply create_wf; eassumption.
Qed.
Print Assumptions C26_hierarchy.
(** 13 x 17 points, 6 levels requested: 12 -> 6 -> 3 intervals, so three levels. *)
Example C26_example : exists s, createVcycle 13 17 (fun n m => Ok (fun _ _ => INR (n + m))) 6 1 1 true = Ok s /\ length (levels s) = 3%nat.
Proof. eexists. split; reflexivity. Qed.
(** and creation fails only if the matrix generator fails *)
Theorem C26_creation_total : forall (gen : nat -> nat -> result (nat -> nat -> R)) nl nx ny nc ni d,
  (forall n m, exists A, gen n m = Ok A) -> exists s, createVcycle nx ny gen nl nc ni d = Ok s.
Proof.
  intros gen nl nx ny nc ni d Hg. revert nx ny nc. unfold createVcycle.
  induction nl as [|nl IH]; intros nx ny nc; cbn [createVcycle_]; destruct (Hg nx ny) as (A & EA).
  - rewrite EA. cbn [bind]. destruct d; eauto.
  - destruct nl as [|nl]; [rewrite EA; cbn [bind]; destruct d; eauto|].
    destruct (_ || _); [rewrite EA; cbn [bind]; destruct d; eauto|].
    destruct (IH ((nx - 1) / 2 + 1)%nat ((ny - 1) / 2 + 1)%nat 1%nat) as (s & Es). rewrite Es, EA. cbn [bind]. eauto.
Qed.
Print Assumptions C26_creation_total.
Example C26_creation_example : forall n m, exists A, GSsparse 0 1 0 1 n m = Ok A.
Proof. intros n m. destruct (GSsparse_rows 0 1 0 1 n m) as (A & E & _). eauto. Qed.

(** C27 — [lu] is the factorised direct solver: it need only solve nonsingular systems.
    [solvable s]: the coarsest level, if direct, has a nonsingular matrix. *)
Theorem C27_vcycle : forall (lu : nat -> (nat -> nat -> R) -> (nat -> R) -> (nat -> R)),
  (forall N A b, nonsingular N A -> forall r, (r < N)%nat -> mdot N A (lu N A b) r = b r) ->
  forall gen nx ny nl nc ni d s A, (1 <= nx)%nat -> (1 <= ny)%nat ->
  createVcycle nx ny gen nl nc ni d = Ok s -> solvable s -> gen nx ny = Ok A ->
  let solves us b := forall x y, (x < nx)%nat -> (y < ny)%nat -> mat_apply A us nx ny (x * ny + y) = b x y in
  (* exact solution fixed *)
  (forall us b, solves us b -> exists u', mg_call lu s nx ny us b = Ok u' /\
     forall x y, (x < nx)%nat -> (y < ny)%nat -> u' x y = us x y) /\
  (* error propagation: one linear operator for every right hand side *)
  (exists E : (nat -> nat -> R) -> (nat -> nat -> R),
    (forall a a' u u' v, (forall x y, (x < nx)%nat -> (y < ny)%nat -> v x y = a * u x y + a' * u' x y) ->
       forall x y, (x < nx)%nat -> (y < ny)%nat -> E v x y = a * E u x y + a' * E u' x y) /\
    forall u us b, solves us b -> exists u', mg_call lu s nx ny u b = Ok u' /\
      forall x y, (x < nx)%nat -> (y < ny)%nat -> u' x y - us x y = E (fun x y => u x y - us x y) x y) /\
  (* Dirichlet rows *)
  (forall u b x0 y0, (1 <= nc)%nat -> (1 <= ni)%nat -> (x0 < nx)%nat -> (y0 < ny)%nat ->
    (forall v, mat_apply A v nx ny (x0 * ny + y0) = v x0 y0) ->
    exists u', mg_call lu s nx ny u b = Ok u' /\ u' x0 y0 = b x0 y0) /\
  (* stationary sweeps solve the system *)
  (forall u b, (forall r, (r < nx * ny)%nat -> A r r <> 0) ->
    (forall r, (r < nx * ny)%nat -> jacobi (nx * ny) A (ravel ny b) (ravel ny u) r = ravel ny u r) -> solves u b).
Proof.
  intros lu Hlu gen nx ny nl nc ni d s A Hx Hy Hs Hsol HA solves.
  split; [exact (vc_fixed lu Hlu gen nx ny nl nc ni d s Hx Hy Hs Hsol A HA)|].
  split; [exact (vc_error lu Hlu gen nx ny nl nc ni d s Hx Hy Hs Hsol A HA)|].
  split; [exact (vc_dirichlet lu Hlu gen nx ny nl nc ni d s Hx Hy Hs Hsol A HA)|].
  exact (vc_stationary nx ny A).
Qed.
Print Assumptions C27_vcycle.
(** Every hierarchy made for the Grad-Shafranov matrix meets the hypothesis. *)
Theorem C27_grad_shafranov_solvable : forall Rmin Rmax Zmin Zmax nl nx ny nc ni d,
  0 <= Rmin -> Rmin < Rmax -> Zmin < Zmax -> (2 <= nx)%nat -> (2 <= ny)%nat ->
  exists s A, createVcycle nx ny (GSsparse Rmin Rmax Zmin Zmax) nl nc ni d = Ok s /\ solvable s /\
    GSsparse Rmin Rmax Zmin Zmax nx ny = Ok A /\ (forall r, (r < nx * ny)%nat -> A r r <> 0).
Proof.
  intros Rmin Rmax Zmin Zmax nl nx ny nc ni d H0 HR HZ Hnx Hny.
  destruct (C26_creation_total (GSsparse Rmin Rmax Zmin Zmax) nl nx ny nc ni d) as (s & Es).
  { intros n m. destruct (GSsparse_rows Rmin Rmax Zmin Zmax n m) as (A & E & _). eauto. }
  destruct (GSsparse_rows Rmin Rmax Zmin Zmax nx ny) as (A & E & _).
  exists s, A. split; [exact Es|]. split; [eapply GS_solvable; [| | | | |exact Es]; assumption|]. split; [exact E|].
  apply rows_of_grid. intros x y Hx Hy. rewrite (jc_diag Rmin Rmax Zmin Zmax nx ny Hnx Hny A E x y Hx Hy).
  assert (HS := jc_S Rmin Rmax Zmin Zmax nx ny HR HZ Hnx Hny). set (S0 := _ + _) in *. clearbody S0. destruct (interiorb nx ny x y); lra.
Qed.
Print Assumptions C27_grad_shafranov_solvable.
Example C27_example : exists s A, createVcycle 65 65 (GSsparse 0.1 2 (-1) 1) 4 1 10 true = Ok s /\ solvable s /\
    GSsparse 0.1 2 (-1) 1 65 65 = Ok A /\ (forall r, (r < 65 * 65)%nat -> A r r <> 0).
Proof. apply C27_grad_shafranov_solvable; try lra; lia. Qed.

(** C85 *)
Theorem C85_matrix_free_boundary : forall (A : operator (T := R)) n nx ny x b dx dy niter,
  (A = LaplacianOp \/ exists Rmin, A = MkOp (GSElliptic Rmin) GSElliptic_diag) ->
  (1 <= nx)%nat -> (1 <= ny)%nat -> halvable_n n nx ny ->
  let inner i j := ((1 <= i)%nat /\ (i + 1 < nx)%nat /\ (1 <= j)%nat /\ (j + 1 < ny)%nat) in
  (* boundary values are kept when b is zero there *)
  ((forall i j, (i < nx)%nat -> (j < ny)%nat -> ~ inner i j -> b i j = 0) ->
   exists x', smoothVcycle A nx ny x b dx dy niter n = Ok x' /\
     forall i j, (i < nx)%nat -> (j < ny)%nat -> ~ inner i j -> x' i j = x i j) /\
  (* an exact solution is left alone *)
  ((forall i j, (i < nx)%nat -> (j < ny)%nat -> op_call A x nx ny dx dy i j = b i j) ->
   exists x', smoothVcycle A nx ny x b dx dy niter n = Ok x' /\
     forall i j, (i < nx)%nat -> (j < ny)%nat -> x' i j = x i j).
Proof.
  intros A n nx ny x b dx dy niter HA Hx Hy Hh inner.
  assert (H1 : zero_on_boundary A) by (destruct HA as [->|(Rmin & ->)]; [apply Laplacian_zero|apply GSE_zero]).
  assert (H2 : op_linear A) by (destruct HA as [->|(Rmin & ->)]; [apply Laplacian_linear|apply GSE_linear]).
  split; intros Hb.
  - apply smooth_boundary; assumption.
  - apply smooth_fixed; assumption.
Qed.
Print Assumptions C85_matrix_free_boundary.
Example C85_example : halvable_n 4 65 65.
Proof. repeat (split; [split; reflexivity|]). exact I. Qed.
(** A Jacobi sweep solves, at every interior point, the equation of that point with the old values at the neighbours. *)
Theorem C85_jacobi_solves_each_equation : forall (A : operator (T := R)) nx ny x b dx dy i j,
  (A = LaplacianOp \/ exists Rmin, A = MkOp (GSElliptic Rmin) GSElliptic_diag) -> dx <> 0 -> dy <> 0 ->
  (1 <= i)%nat -> (i + 1 < nx)%nat -> (1 <= j)%nat -> (j + 1 < ny)%nat ->
  op_call A (fun k l => if ((k =? i) && (l =? j))%nat then smoothJacobi A nx ny x b dx dy i j else x k l) nx ny dx dy i j = b i j.
Proof.
  intros A nx ny x b dx dy i j HA Hdx Hdy Hi1 Hi2 Hj1 Hj2.
  assert (Hin : interiorb nx ny i j = true) by (destruct (interiorb_spec nx ny i j) as [_|Hn]; [reflexivity|exfalso; apply Hn; unfold interior; lia]).
  assert (Hd : 1 / (dx * dx) + 1 / (dy * dy) <> 0).
  { assert (H1 := Rinv_0_lt_compat _ (Rlt_0_sqr dx Hdx)). assert (H2 := Rinv_0_lt_compat _ (Rlt_0_sqr dy Hdy)). unfold Rsqr in *. unfold Rdiv. lra. }
  set (v := smoothJacobi A nx ny x b dx dy i j).
  assert (Ei : forall k, k <> i -> (k =? i)%nat = false) by (intros; apply Nat.eqb_neq; assumption).
  assert (Ej : forall k, k <> j -> (k =? j)%nat = false) by (intros; apply Nat.eqb_neq; assumption).
  destruct HA as [->|(Rmin & ->)]; cbn [op_call LaplacianOp].
  - rewrite Laplacian_closed, Hin, !Nat.eqb_refl, (Ei (i - 1)%nat), (Ei (i + 1)%nat), (Ej (j - 1)%nat), (Ej (j + 1)%nat) by lia. cbn [andb].
    unfold v, smoothJacobi. cbn [op_call op_diag LaplacianOp]. unfold LaplacianOp_diag. rewrite Laplacian_closed, Hin. nR.
    replace (- (2) / (dx * dx) - 2 / (dy * dy)) with (- 2 * (1 / (dx * dx) + 1 / (dy * dy))) by (field; auto).
    set (D := 1 / (dx * dx) + 1 / (dy * dy)) in *.
    match goal with |- context[(b i j - ?q) / _] => set (q0 := q) end.
    transitivity (q0 - 2 * D * ((b i j - q0) / (- 2 * D))); [|field; exact Hd]. unfold q0, D. unfold Rdiv. ring.
  - rewrite GSElliptic_closed, Hin, !Nat.eqb_refl, (Ei (i - 1)%nat), (Ei (i + 1)%nat), (Ej (j - 1)%nat), (Ej (j + 1)%nat) by lia. cbn [andb].
    unfold v, smoothJacobi. cbn [op_call op_diag]. unfold GSElliptic_diag. rewrite GSElliptic_closed, Hin. nR.
    replace (- (2) / (dx * dx) - 2 / (dy * dy)) with (- 2 * (1 / (dx * dx) + 1 / (dy * dy))) by (field; auto).
    set (D := 1 / (dx * dx) + 1 / (dy * dy)) in *.
    match goal with |- context[(b i j - ?q) / _] => set (q0 := q) end.
    transitivity (q0 - 2 * D * ((b i j - q0) / (- 2 * D))); [|field; exact Hd]. unfold q0. ring.
Qed.
Print Assumptions C85_jacobi_solves_each_equation.
Example C85_jacobi_example :
  op_call LaplacianOp (fun k l => if ((k =? 1) && (l =? 1))%nat then smoothJacobi LaplacianOp 3 3 (fun _ _ => 0) (fun _ _ => 6) 1 1 1%nat 1%nat else 0) 3 3 1 1 1%nat 1%nat = 6.
Proof. apply (C85_jacobi_solves_each_equation LaplacianOp 3 3 (fun _ _ => 0) (fun _ _ => 6)); auto; lra || lia. Qed.
(** One level of the matrix-free V-cycle: smooth, correct from the coarse problem for the
    residual, smooth.  The coarse grid covers the same points: node k of the coarse grid is
    node 2k of the fine one. *)
Theorem C85_coarse_problem : forall (A : operator (T := R)) n p q x b dx dy niter x',
  smoothVcycle A (2 * p + 1) (2 * q + 1) x b dx dy niter (S n) = Ok x' ->
  let smooth := iter niter (fun x => smoothJacobi A (2 * p + 1) (2 * q + 1) x b dx dy) in
  exists dxc dyc res c u,
    (forall k, INR k * dxc = INR (2 * k) * dx) /\ (forall k, INR k * dyc = INR (2 * k) * dy) /\
    (forall k l, (0 < k < p)%nat -> (0 < l < q)%nat ->
       res k l = b (2 * k)%nat (2 * l)%nat - op_call A (smooth x) (2 * p + 1) (2 * q + 1) dx dy (2 * k)%nat (2 * l)%nat) /\
    smoothVcycle A (p + 1) (q + 1) (fun _ _ => 0) res dxc dyc niter n = Ok c /\
    interpolate c (p + 1) (q + 1) = (u, 2 * p + 1, 2 * q + 1)%nat /\
    x' = smooth (fun i j => smooth x i j + u i j).
Proof.
  intros A n p q x b dx dy niter x' H smooth. cbn [smoothVcycle] in H. fold smooth in H.
  set (e := fun i j => (b i j - op_call A (smooth x) (2 * p + 1) (2 * q + 1) dx dy i j)%num) in H.
  destruct (C24_restrict_is_injection e p q false) as (o & Eo & Ho). rewrite Eo in H.
  destruct (smoothVcycle A (p + 1) (q + 1) zeros2 o (dx * n2)%num (dy * n2)%num niter n) as [c|x0] eqn:EC; [|discriminate]. cbn [bind] in H.
  destruct (interpolate c (p + 1) (q + 1)) as [[u nxu] nyu] eqn:EI.
  assert (Hsz : nxu = (2 * p + 1)%nat /\ nyu = (2 * q + 1)%nat) by (unfold interpolate in EI; injection EI as _ <- <-; split; lia).
  destruct Hsz as [-> ->]. rewrite !Nat.eqb_refl in H. cbn [andb bind] in H. injection H as <-.
  exists (dx * 2), (dy * 2), o, c, u. repeat split.
  - intros k. rewrite mult_INR. cbn [INR]. ring.
  - intros k. rewrite mult_INR. cbn [INR]. ring.
  - intros k l Hk Hl. rewrite Ho by lia. destruct ((1 <=? k) && (k <? p) && ((1 <=? l) && (l <? q)))%nat eqn:E; [unfold e; nR; ring|].
    exfalso. revert E. rewrite (proj2 (Nat.leb_le 1 k)), (proj2 (Nat.ltb_lt k p)), (proj2 (Nat.leb_le 1 l)), (proj2 (Nat.ltb_lt l q)) by lia. discriminate.
  - exact EC.
  - exact EI.
Qed.
Print Assumptions C85_coarse_problem.
Example C85_coarse_example : exists x', smoothVcycle (T := R) LaplacianOp (2 * 2 + 1) (2 * 2 + 1) (fun _ _ => 0) (fun _ _ => 0) 1 1 1 1 = Ok x'.
Proof.
  destruct (C85_matrix_free_boundary LaplacianOp 1 5 5 (fun _ _ => 0) (fun _ _ => 0) 1 1 1) as [H _]; try lia; [left; reflexivity| |].
  - split; [split; reflexivity|exact I].
  - destruct H as (x' & Hx' & _); [reflexivity|]. exists x'. exact Hx'.
Qed.
Theorem C85_unhalvable_grid_raises : forall (A : operator (T := R)) n nx ny x b dx dy niter,
  (2 <= nx)%nat -> (2 <= ny)%nat -> (Nat.odd (nx - 1) = true \/ Nat.odd (ny - 1) = true) ->
  exists e, smoothVcycle A nx ny x b dx dy niter (S n) = Raise e.
Proof.
  intros A n nx ny x b dx dy niter Hx Hy Ho.
  assert (Hh : ~ halvable nx ny).
  { intros (H1 & H2). apply Nat.mod_divides in H1; [|lia]. apply Nat.mod_divides in H2; [|lia].
    destruct H1 as (p & Ep), H2 as (q & Eq). rewrite Ep, Eq, !Nat.odd_mul in Ho. cbn in Ho. destruct Ho; discriminate. }
  destruct (smoothVcycle A nx ny x b dx dy niter (S n)) as [x'|e] eqn:E; [|eauto].
  exfalso. exact (smooth_not_halvable A nx ny x b dx dy niter n Hx Hy Hh x' E).
Qed.
Print Assumptions C85_unhalvable_grid_raises.
Example C85_raise_example : Nat.odd (64 - 1) = true.
Proof. reflexivity. Qed.

(** C86 *)
Theorem C86_laplace_matrix : forall (Lx Ly : R) (nx ny : nat) (psi : nat -> nat -> R),
  exists A, LaplaceSparse Lx Ly nx ny = Ok A /\
  let dx := Lx / INR (nx - 1) in let dy := Ly / INR (ny - 1) in
  forall x y, (x < nx)%nat -> (y < ny)%nat ->
    ((1 <= x)%nat /\ (x + 1 < nx)%nat /\ (1 <= y)%nat /\ (y + 1 < ny)%nat ->
      mat_apply A psi nx ny (x * ny + y) = LaplacianOp_call psi nx ny dx dy x y /\
      LaplacianOp_call psi nx ny dx dy x y =
        (psi (x - 1)%nat y - 2 * psi x y + psi (x + 1)%nat y) / dx ^ 2
        + (psi x (y - 1)%nat - 2 * psi x y + psi x (y + 1)%nat) / dy ^ 2) /\
    (~ ((1 <= x)%nat /\ (x + 1 < nx)%nat /\ (1 <= y)%nat /\ (y + 1 < ny)%nat) ->
      mat_apply A psi nx ny (x * ny + y) = psi x y).
Proof.
  intros. destruct (LaplaceSparse_apply Lx Ly nx ny psi) as (A & E & H). exists A. split; [exact E|].
  intros dx dy x y Hx Hy. rewrite (H x y Hx Hy). fold dx dy. rewrite Laplacian_closed.
  destruct (interiorb_spec nx ny x y) as [Hi|Hi]; unfold interior in Hi; [|tauto].
  split; [|tauto]. intros _. split; [reflexivity|]. cbn [pow]. rewrite !Rmult_1_r. reflexivity.
Qed.
Print Assumptions C86_laplace_matrix.
Example C86_example : (1 <= 1)%nat /\ (1 + 1 < 4)%nat /\ (1 <= 2)%nat /\ (2 + 1 < 4)%nat.
Proof. lia. Qed.

(** C87 *)
Theorem C87_jacobi_converges : forall (Rmin Rmax Zmin Zmax : R) (nx ny nc ni : nat) lu s A,
  0 <= Rmin -> Rmin < Rmax -> Zmin < Zmax -> (2 <= nx)%nat -> (2 <= ny)%nat ->
  GSsparse Rmin Rmax Zmin Zmax nx ny = Ok A ->
  createVcycle nx ny (GSsparse Rmin Rmax Zmin Zmax) 1 nc ni false = Ok s ->
  let dR := (Rmax - Rmin) / INR (nx - 1) in
  let dZ := (Zmax - Zmin) / INR (ny - 1) in
  let rho := 1 - 1 / ((Zmax - Zmin) ^ 2 * (1 / (dR * dR) + 1 / (dZ * dZ))) in
  0 <= rho < 1 /\
  forall u us b M,
    (forall x y, (x < nx)%nat -> (y < ny)%nat -> mat_apply A us nx ny (x * ny + y) = b x y) ->
    (forall x y, (x < nx)%nat -> (y < ny)%nat -> Rabs (u x y - us x y) <= M) ->
    exists u', mg_call lu s nx ny u b = Ok u' /\
      forall x y, (x < nx)%nat -> (y < ny)%nat -> Rabs (u' x y - us x y) <= 4 / 3 * M * rho ^ (2 * ni * nc).
Proof.
  intros Rmin Rmax Zmin Zmax nx ny nc ni lu s A H0 HR HZ Hnx Hny HA Hs dR dZ rho.
  split; [exact (jc_rho Rmin Rmax Zmin Zmax nx ny HR HZ Hnx Hny)|].
  unfold createVcycle in Hs. cbn [createVcycle_] in Hs. rewrite HA in Hs. cbn [bind] in Hs. injection Hs as <-.
  intros u us b M. exact (jc_solver Rmin Rmax Zmin Zmax nx ny H0 HR HZ Hnx Hny A HA lu nc ni u us b M).
Qed.
Print Assumptions C87_jacobi_converges.
Example C87_example : exists A s u, GSsparse 0.1 2 (-1) 1 9 9 = Ok A /\
  createVcycle 9 9 (GSsparse 0.1 2 (-1) 1) 1 100 10 false = Ok s /\
  forall x y, (x < 9)%nat -> (y < 9)%nat -> mat_apply A u 9 9 (x * 9 + y) = INR x * INR y.
Proof.
  destruct (GS_well_posed 0.1 2 (-1) 1 9 9) as (A & E & _ & Hex & _); try lra; try lia.
  destruct (Hex (fun x y => INR x * INR y)) as (u & Hu).
  exists A. eexists. exists u. split; [exact E|]. split; [|exact Hu].
  unfold createVcycle. cbn [createVcycle_]. rewrite E. reflexivity.
Qed.
