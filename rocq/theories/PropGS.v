(** Properties of the Green's functions and of the discrete Grad-Shafranov operators
    (freegs/gradshafranov.py). Theorems only. *)
From Coq Require Import List Arith ZArith QArith Bool Reals Lra Lia.
From Coquelicot Require Import Coquelicot.
From Verif Require Import Py Num Numpy Linalg GradShafranov GradShafranovProofs GS4Proofs GSSpec GSConsistency.
Import ListNotations.
Local Open Scope R_scope.

(** C01 *)
Theorem C01_greens_symmetries : forall (ellipk ellipe : R -> R) (Rc Zc r z : R),
  let G := Greens ellipk ellipe in
  let Br := GreensBr ellipk ellipe in
  let Bz := GreensBz ellipk ellipe in
  G Rc Zc r z = G r z Rc Zc /\
  (forall s, G Rc (Zc + s) r (z + s) = G Rc Zc r z) /\
  G Rc (- Zc) r (- z) = G Rc Zc r z /\
  (forall s, 0 < s -> 0 < Rc -> 0 < r -> G (s * Rc) (s * Zc) (s * r) (s * z) = s * G Rc Zc r z) /\
  (forall eps d, Br eps Rc Zc r (Zc - d) = - Br eps Rc Zc r (Zc + d)) /\
  (forall eps d, Bz eps Rc Zc r (Zc - d) = Bz eps Rc Zc r (Zc + d)) /\
  (forall eps, Br eps Rc Zc r Zc = 0).
Proof.
  intros ek ee Rc Zc r z G Br Bz.
  split; [apply Greens_sym|]. split; [intros; apply Greens_shift|]. split; [apply Greens_even|].
  split; [intros s Hs HR Hr; apply Greens_scale; [exact Hs|nra|assert (0 < (r + Rc) ^ 2) by (apply pow_lt; lra); assert (H9 := pow2_ge_0 (z - Zc)); lra]|].
  split; [intros; apply GreensBr_odd|]. split; [intros; apply GreensBz_even|intros; apply GreensBr_midplane].
Qed.
Print Assumptions C01_greens_symmetries.
(** The flux is not identically zero: constant "elliptic integrals" 1 and 0 give a positive flux. *)
Example C01_example : 0 < Greens (fun _ => 1) (fun _ => 0) 2 1 3 (-1).
Proof.
  unfold Greens. cbv zeta.
  set (k2 := nclip (T := R) _ _ _). assert (Hk : 0 < k2 <= 1).
  { assert (Hb := nclip_bounds (4 * 3 * 2 / ((3 + 2) ^ 2 + (-1 - 1) ^ 2)) (1 / 10 ^ 10) (1 - 1 / 10 ^ 10)).
    fold k2 in Hb. lra. }
  unfold Rdiv at 1. apply Rmult_lt_0_compat; [|apply Rinv_0_lt_compat, sqrt_lt_R0; lra].
  apply Rmult_lt_0_compat; [|lra].
  apply Rmult_lt_0_compat; [|apply sqrt_lt_R0; lra].
  unfold mu0. assert (H := PI_RGT_0). apply Rdiv_lt_0_compat; lra.
Qed.

(** C19 *)
Theorem C19_sparse_is_elliptic : forall (Rmin Rmax Zmin Zmax : R) (nx ny : nat) (psi : nat -> nat -> R),
  exists A, GSsparse Rmin Rmax Zmin Zmax nx ny = Ok A /\
  forall x y, (x < nx)%nat -> (y < ny)%nat ->
    ((1 <= x)%nat /\ (x + 1 < nx)%nat /\ (1 <= y)%nat /\ (y + 1 < ny)%nat ->
      mat_apply A psi nx ny (x * ny + y)
      = GSElliptic Rmin psi nx ny ((Rmax - Rmin) / INR (nx - 1)) ((Zmax - Zmin) / INR (ny - 1)) x y) /\
    (~ ((1 <= x)%nat /\ (x + 1 < nx)%nat /\ (1 <= y)%nat /\ (y + 1 < ny)%nat) ->
      mat_apply A psi nx ny (x * ny + y) = psi x y).
Proof.
  intros. destruct (GSsparse_apply Rmin Rmax Zmin Zmax nx ny psi) as (A & E & H).
  exists A. split; [exact E|]. intros x y Hx Hy. rewrite (H x y Hx Hy).
  destruct (interiorb_spec nx ny x y) as [Hi|Hi]; unfold interior in Hi; tauto.
Qed.
Print Assumptions C19_sparse_is_elliptic.
Example C19_example : (1 < 4)%nat /\ (2 < 5)%nat /\ interior 4 5 1 2.
Proof. unfold interior; lia. Qed.

(** C20 *)
Theorem C20_second_order_consistency : forall (Rmin Zmin dR dZ : R) (nx ny x y : nat),
  dR <> 0 -> dZ <> 0 -> (1 <= x)%nat /\ (x + 1 < nx)%nat /\ (1 <= y)%nat /\ (y + 1 < ny)%nat ->
  Rmin + dR * INR x <> 0 ->
  let rr x := Rmin + dR * INR x in
  let zz y := Zmin + dZ * INR y in
  (forall a b c d e f,
    let p r z := a + b * z + c * z ^ 2 + d * z ^ 3 + e * r ^ 2 + f * r ^ 2 * z in
    GSElliptic Rmin (fun x y => p (rr x) (zz y)) nx ny dR dZ x y = GSop p (rr x) (zz y)) /\
  GSElliptic Rmin (fun x y => rr x ^ 4) nx ny dR dZ x y = GSop (fun r z => r ^ 4) (rr x) 0 - 2 * dR ^ 2.
Proof.
  intros Rmin Zmin dR dZ nx ny x y H1 H2 Hi Hr rr zz. split.
  - intros. exact (GS2_exact Rmin dR dZ Zmin nx ny a b c d e f x y H1 H2 Hi Hr).
  - exact (GS2_quartic Rmin dR dZ nx ny x y H1 H2 Hi Hr).
Qed.
Print Assumptions C20_second_order_consistency.
Example C20_example : 0.1 <> 0 /\ ((1 <= 2)%nat /\ (2 + 1 < 5)%nat /\ (1 <= 1)%nat /\ (1 + 1 < 3)%nat) /\ 0.1 + 0.1 * INR 2 <> 0.
Proof. repeat split; try lia; simpl; lra. Qed.

(** C21 *)
Theorem C21_well_posed : forall (Rmin Rmax Zmin Zmax : R) (nx ny : nat),
  0 <= Rmin -> Rmin < Rmax -> Zmin < Zmax -> (2 <= nx)%nat -> (2 <= ny)%nat ->
  exists A, GSsparse Rmin Rmax Zmin Zmax nx ny = Ok A /\
  let inner x y := ((1 <= x)%nat /\ (x + 1 < nx)%nat /\ (1 <= y)%nat /\ (y + 1 < ny)%nat) in
  let row u x y := mat_apply A u nx ny (x * ny + y) in
  (* at most one solution *)
  (forall u v, (forall x y, (x < nx)%nat -> (y < ny)%nat -> row u x y = row v x y) ->
     forall x y, (x < nx)%nat -> (y < ny)%nat -> u x y = v x y) /\
  (* at least one solution *)
  (forall b : nat -> nat -> R, exists u, forall x y, (x < nx)%nat -> (y < ny)%nat -> row u x y = b x y) /\
  (* sign *)
  (forall u, (forall x y, inner x y -> row u x y <= 0) ->
     (forall x y, (x < nx)%nat -> (y < ny)%nat -> ~ inner x y -> 0 <= row u x y) ->
     forall x y, (x < nx)%nat -> (y < ny)%nat -> 0 <= u x y) /\
  (* bounded by the boundary extremes *)
  (forall u lo hi, (forall x y, inner x y -> row u x y = 0) ->
     (forall x y, (x < nx)%nat -> (y < ny)%nat -> ~ inner x y -> lo <= row u x y <= hi) ->
     forall x y, (x < nx)%nat -> (y < ny)%nat -> lo <= u x y <= hi).
Proof. exact GS_well_posed. Qed.
Print Assumptions C21_well_posed.
Example C21_example : 0 <= 0.1 /\ 0.1 < 2 /\ -1 < 1 /\ (2 <= 65)%nat.
Proof. repeat split; try lra; lia. Qed.

(** C22 *)
Theorem C22_fourth_order_exact : forall (Rmin Rmax Zmin Zmax : R) (nx ny : nat) (c : nat -> nat -> R),
  (6 <= nx)%nat -> (6 <= ny)%nat -> Rmin < Rmax -> Zmin < Zmax ->
  exists A, GSsparse4thOrder Rmin Rmax Zmin Zmax nx ny = Ok A /\
    let P := poly2 c 5 6 in
    let psi x y := P (gridpt Rmin Rmax nx x) (gridpt Zmin Zmax ny y) in
    let inner x y := ((1 <= x)%nat /\ (x + 1 < nx)%nat /\ (1 <= y)%nat /\ (y + 1 < ny)%nat) in
    (forall x y, inner x y -> gridpt Rmin Rmax nx x <> 0 ->
       mat_apply A psi nx ny (x * ny + y) = GSop P (gridpt Rmin Rmax nx x) (gridpt Zmin Zmax ny y)) /\
    (forall x y, (x < nx)%nat -> (y < ny)%nat -> ~ inner x y ->
       mat_apply A psi nx ny (x * ny + y) = psi x y).
Proof. exact GS4_exact. Qed.
Print Assumptions C22_fourth_order_exact.
Example C22_example : (6 <= 6)%nat /\ (6 <= 7)%nat /\ 0.1 < 2 /\ gridpt 0.1 2 6 1 <> 0.
Proof. repeat split; try lia; try lra. unfold gridpt. simpl. lra. Qed.

(** C23 — small nx is rejected; ny = 5 is accepted but couples unrelated points. *)
Theorem C23_small_nx_rejected : forall (Rmin Rmax Zmin Zmax : R) (nx ny : nat),
  (3 <= nx <= 5)%nat -> (3 <= ny)%nat -> GSsparse4thOrder Rmin Rmax Zmin Zmax nx ny = Raise IndexError.
Proof. exact GS4_small_nx. Qed.
Print Assumptions C23_small_nx_rejected.
Example C23_example : (3 <= 5 <= 5)%nat /\ (3 <= 9)%nat.
Proof. lia. Qed.
Theorem C23_every_accepted_grid_refuted : exists (nx ny : nat) A x y x' y',
  GSsparse4thOrder (T := Q) (1#10) 2%Q (-1)%Q 1%Q nx ny = Ok A /\
  (x < nx /\ y < ny /\ x' < nx /\ y' < ny /\ x <> x' /\ y <> y')%nat /\
  ~ (A (x * ny + y)%nat (x' * ny + y')%nat == 0)%Q.
Proof. exact GS4_wraps. Qed.
Print Assumptions C23_every_accepted_grid_refuted.

(** C83 — truncation error of the second-order operator is second order for every smooth flux. *)
Theorem C83_second_order_truncation : forall psi Rmin Rmax Zmin Zmax nx ny M x y,
  0 < Rmin -> Rmin < Rmax -> Zmin < Zmax ->
  (1 <= x)%nat /\ (x + 1 < nx)%nat /\ (1 <= y)%nat /\ (y + 1 < ny)%nat ->
  smooth_flux psi Rmin Rmax Zmin Zmax M ->
  let dR := (Rmax - Rmin) / INR (nx - 1) in
  let dZ := (Zmax - Zmin) / INR (ny - 1) in
  Rabs (GSElliptic Rmin (fun x y => psi (gridpt Rmin Rmax nx x) (gridpt Zmin Zmax ny y)) nx ny dR dZ x y
        - GSop psi (gridpt Rmin Rmax nx x) (gridpt Zmin Zmax ny y))
  <= M * (dR ^ 2 / 12 + dZ ^ 2 / 12 + (dR ^ 2 / 6 + dR ^ 3 / 24) / Rmin).
Proof. exact GS2_truncation. Qed.
Print Assumptions C83_second_order_truncation.
Example C83_example : smooth_flux (fun r z => r ^ 2 * z) 1 2 (-1) 1 0.
Proof. exact smooth_flux_example. Qed.

(** C84 — the direct second-order solve converges: given the exact right hand side and boundary
    values, the discrete solution differs from the true flux by O(dR^2 + dZ^2) at every point. *)
Theorem C84_direct_solve_converges : forall psi Rmin Rmax Zmin Zmax nx ny M A (u : nat -> nat -> R),
  0 < Rmin -> Rmin < Rmax -> Zmin < Zmax -> (2 <= nx)%nat -> (2 <= ny)%nat ->
  smooth_flux psi Rmin Rmax Zmin Zmax M ->
  GSsparse Rmin Rmax Zmin Zmax nx ny = Ok A ->
  let inner x y := ((1 <= x)%nat /\ (x + 1 < nx)%nat /\ (1 <= y)%nat /\ (y + 1 < ny)%nat) in
  (forall x y, (x < nx)%nat -> (y < ny)%nat ->
     (inner x y -> mat_apply A u nx ny (x * ny + y) = GSop psi (gridpt Rmin Rmax nx x) (gridpt Zmin Zmax ny y)) /\
     (~ inner x y -> mat_apply A u nx ny (x * ny + y) = psi (gridpt Rmin Rmax nx x) (gridpt Zmin Zmax ny y))) ->
  let dR := (Rmax - Rmin) / INR (nx - 1) in
  let dZ := (Zmax - Zmin) / INR (ny - 1) in
  forall x y, (x < nx)%nat -> (y < ny)%nat ->
  Rabs (u x y - psi (gridpt Rmin Rmax nx x) (gridpt Zmin Zmax ny y))
  <= (Zmax - Zmin) ^ 2 / 8 * (M * (dR ^ 2 / 12 + dZ ^ 2 / 12 + (dR ^ 2 / 6 + dR ^ 3 / 24) / Rmin)).
Proof.
  intros psi Rmin Rmax Zmin Zmax nx ny M A u H1 H2 H3 H4 H5 Hs EA inner Hu.
  apply (GS2_convergence psi Rmin Rmax Zmin Zmax nx ny M A u H1 H2 H3 H4 H5 Hs EA).
  intros x y Hx Hy. destruct (Hu x y Hx Hy) as (Ha & Hb).
  destruct (interiorb_spec nx ny x y) as [Hi|Hi]; unfold interior in Hi; [apply Ha|apply Hb]; exact Hi.
Qed.
Print Assumptions C84_direct_solve_converges.
(** Such a discrete solution always exists (C21), so the hypotheses are met for every smooth flux. *)
Example C84_example : exists A u, GSsparse 1 2 (-1) 1 9 17 = Ok A /\
  let psi r z := r ^ 2 * z in
  let inner x y := ((1 <= x)%nat /\ (x + 1 < 9)%nat /\ (1 <= y)%nat /\ (y + 1 < 17)%nat) in
  forall x y, (x < 9)%nat -> (y < 17)%nat ->
     (inner x y -> mat_apply A u 9 17 (x * 17 + y) = GSop psi (gridpt 1 2 9 x) (gridpt (-1) 1 17 y)) /\
     (~ inner x y -> mat_apply A u 9 17 (x * 17 + y) = psi (gridpt 1 2 9 x) (gridpt (-1) 1 17 y)).
Proof.
  destruct (C21_well_posed 1 2 (-1) 1 9 17) as (A & E & _ & H & _); try lra; try lia.
  destruct (H (fun x y => if interiorb 9 17 x y then GSop (fun r z => r ^ 2 * z) (gridpt 1 2 9 x) (gridpt (-1) 1 17 y)
     else (fun r z => r ^ 2 * z) (gridpt 1 2 9 x) (gridpt (-1) 1 17 y))) as (u & Hu).
  exists A, u. split; [exact E|]. intros psi inner x y Hx Hy. unfold inner. rewrite (Hu x y Hx Hy).
  destruct (interiorb_spec 9 17 x y) as [Hi|Hi]; unfold interior in Hi; split; intros Hj; tauto || reflexivity.
Qed.
