(** multigrid.py, boundary.py and Equilibrium.solve under a change of the sign of all currents. *)
From Coq Require Import String List Arith ZArith Bool Reals Lra Lia FunctionalExtensionality.
From Verif Require Import Py Num Numpy Romb RombProofs Multigrid MultigridProofs Coils Machine Critical Boundary Jtor Equilibrium EquilibriumProofs GaugeSpec GaugeProofs GaugeProofs2 GaugeProofs3.
Import ListNotations.
Local Open Scope R_scope.

Lemma shifted0 a psi : shifted a 0 psi = scal2 a psi.
Proof. extensionality i. extensionality j. unfold shifted, scal2. ring. Qed.
Lemma foldM_follow {A S S'} (g : S -> S') (f : S -> A -> result S) (f' : S' -> A -> result S') l : (forall s x, f' (g s) x = rmap g (f s x)) ->
  forall s, foldM f' l (g s) = rmap g (foldM f l s).
Proof. intros E. induction l as [|x l IH]; intros s; cbn [foldM]; [reflexivity|]. rewrite E. destruct (f s x); cbn [rmap bind]; [apply IH|reflexivity]. Qed.
Lemma fold_follow {A S S'} (g : S -> S') (f : S -> A -> S) (f' : S' -> A -> S') l : (forall s x, f' (g s) x = g (f s x)) ->
  forall s, fold_left f' l (g s) = g (fold_left f l s).
Proof. intros E. induction l as [|x l IH]; intros s; cbn [fold_left]; [reflexivity|]. rewrite E. apply IH. Qed.
Lemma upd2_scal a (s : arr2 R) x y v : upd2 (scal2 a s) x y (a * v) = scal2 a (upd2 s x y v).
Proof. extensionality i. extensionality j. unfold upd2, scal2. destruct (_ && _)%bool; reflexivity. Qed.
Lemma zeros_scal a : scal2 a zeros2 = zeros2.
Proof. extensionality i. extensionality j. unfold scal2, zeros2. nR. ring. Qed.
Lemma romb_scal n (y : nat -> R) a d : romb n (fun i => a * y i) d = rmap (Rmult a) (romb n y d).
Proof.
  destruct (romb n y d) as [v|x] eqn:E; [|exact (romb_raise_ext _ _ _ _ _ E)].
  destruct (proj1 (romb_ok_iff n y d)) as (k & ->); [exists v; exact E|]. rewrite romb_rt in E |- *. injection E as <-. cbn [rmap]. f_equal.
  rewrite (rt_ext k _ (fun t => a * y t + 0 * y t)) by (intros; try lia; ring). rewrite rt_linear. ring.
Qed.

(** ** The matrix solvers *)
Lemma mdot_scal N A a (x : nat -> R) : mdot N A (scal1 a x) = scal1 a (mdot N A x).
Proof. extensionality r. unfold mdot, scal1. rewrite <- nsum_scal. apply nsum_ext. intros c _. nR. ring. Qed.
Lemma jacobi_scal N A a (b x : nat -> R) : jacobi N A (scal1 a b) (scal1 a x) = scal1 a (jacobi N A b x).
Proof. extensionality r. unfold jacobi. rewrite mdot_scal. unfold scal1. nR. unfold Rdiv. ring. Qed.
Lemma iter_follow {A} (f f' g : A -> A) n : (forall x, f' (g x) = g (f x)) -> forall x, iter n f' (g x) = g (iter n f x).
Proof. intros E. induction n as [|n IH]; intros x; cbn [iter]; [reflexivity|]. rewrite E. apply IH. Qed.
Lemma ravel_scal a ny x : ravel ny (scal2 a x) = scal1 a (ravel ny x).
Proof. reflexivity. Qed.
Lemma unravel_scal a ny x : unravel ny (scal1 a x) = scal2 a (unravel ny x).
Proof. reflexivity. Qed.
Lemma restrict_scal a x nx ny avg : restrict (scal2 a x) nx ny avg = (scal2 a (fst (fst (restrict x nx ny avg))), snd (fst (restrict x nx ny avg)), snd (restrict x nx ny avg)).
Proof.
  unfold restrict. destruct (_ || _)%bool; [reflexivity|]. cbv zeta. set (n := ((nx - 1) / 2 + 1)%nat). set (m := ((ny - 1) / 2 + 1)%nat). cbn [fst snd]. f_equal. f_equal.
  assert (K : fold_left (fun out k => fold_left (fun out y => upd2 out k y (scal2 a x (2 * k)%nat (2 * y)%nat / nofZ 4)%num) (range 1 (m - 1)) out) (range 1 (n - 1)) zeros2
            = scal2 a (fold_left (fun out k => fold_left (fun out y => upd2 out k y (x (2 * k)%nat (2 * y)%nat / nofZ 4)%num) (range 1 (m - 1)) out) (range 1 (n - 1)) zeros2)).
  { rewrite <- (zeros_scal a) at 1. apply fold_follow. intros s k. apply fold_follow. intros s' y. rewrite <- upd2_scal. f_equal. unfold scal2. nR. unfold Rdiv. ring. }
  rewrite K. destruct avg; [reflexivity|]. extensionality i. extensionality j. unfold scal2. nR. ring.
Qed.
Lemma add2_scal a (s : arr2 R) x y v : add2 (scal2 a s) x y (a * v) = scal2 a (add2 s x y v).
Proof. unfold add2. rewrite <- upd2_scal. f_equal. unfold scal2. nR. ring. Qed.
Lemma interp_scal a x nx ny : interpolate (scal2 a x) nx ny = (scal2 a (fst (fst (interpolate x nx ny))), snd (fst (interpolate x nx ny)), snd (interpolate x nx ny)).
Proof.
  unfold interpolate. cbn [fst snd]. f_equal. f_equal. rewrite <- (zeros_scal a) at 1. apply fold_follow. intros s k. apply fold_follow. intros s' y. unfold interp_cell. cbv zeta.
  assert (M : forall u, (u * scal2 a x k y)%num = a * (u * x k y)) by (intros u; unfold scal2; nR; ring). rewrite !M. change (scal2 a x k y) with (a * x k y).
  rewrite !add2_scal, upd2_scal, !add2_scal. reflexivity.
Qed.
Lemma mg_scal lu a : lu_follows lu a -> forall s nx ny xi bi, mg_call lu s nx ny (scal2 a xi) (scal2 a bi) = rmap (scal2 a) (mg_call lu s nx ny xi bi).
Proof.
  intros Hlu. fix IH 1. intros [N A|N A ncycle niter sub] nx ny xi bi; cbn [mg_call].
  - destruct (N =? nx * ny)%nat; [|reflexivity]. rewrite ravel_scal, Hlu. reflexivity.
  - destruct (N =? nx * ny)%nat; [|reflexivity]. cbv zeta. rewrite !ravel_scal.
    assert (J : forall b x, iter niter (jacobi N A (scal1 a b)) (scal1 a x) = scal1 a (iter niter (jacobi N A b) x)) by (intros b x; apply iter_follow; intros y; apply jacobi_scal).
    rewrite (foldM_follow (scal1 a) (fun x _ => bind (match sub with None => Ok (iter niter (jacobi N A (ravel ny bi)) x) | Some s =>
        let '(sub_b, nxs, nys) := restrict (unravel ny (fun r => (ravel ny bi r - mdot N A (iter niter (jacobi N A (ravel ny bi)) x) r)%num)) nx ny false in
        bind (mg_call lu s nxs nys zeros2 sub_b) (fun sub_x => let '(xu, nxu, nyu) := interpolate sub_x nxs nys in
          if (nxu * nyu =? N)%nat then Ok (fun r => (iter niter (jacobi N A (ravel ny bi)) x r + ravel nyu xu r)%num) else Raise ValueError) end)
        (fun x => Ok (iter niter (jacobi N A (ravel ny bi)) x)))).
    + destruct (foldM _ _ _); reflexivity.
    + intros x _. rewrite J. set (x1 := iter niter (jacobi N A (ravel ny bi)) x). destruct sub as [s|]; [|cbn [bind rmap]; rewrite J; reflexivity].
      assert (Er : (fun r => (scal1 a (ravel ny bi) r - mdot N A (scal1 a x1) r)%num) = scal1 a (fun r => (ravel ny bi r - mdot N A x1 r)%num)).
      { extensionality r. rewrite mdot_scal. unfold scal1. nR. ring. }
      rewrite Er, unravel_scal, restrict_scal. destruct (restrict (unravel ny _) nx ny false) as ((sb, nxs), nys). cbn [fst snd].
      rewrite <- (zeros_scal a) at 1. rewrite (IH s). destruct (mg_call lu s nxs nys zeros2 sb) as [sx|]; cbn [rmap bind]; [|reflexivity].
      rewrite interp_scal. destruct (interpolate sx nxs nys) as ((xu, nxu), nyu). cbn [fst snd]. destruct (nxu * nyu =? N)%nat; cbn [rmap bind]; [|reflexivity].
      f_equal. rewrite <- J. f_equal. extensionality r. rewrite ravel_scal. unfold scal1. nR. ring.
Qed.
Lemma solver_scal lu a s nx ny xi bi : lu_follows lu a -> solver_call lu s nx ny (scal2 a xi) (scal2 a bi) = rmap (both_scal a) (solver_call lu s nx ny xi bi).
Proof. intros H. unfold solver_call. rewrite mg_scal by exact H. destruct (mg_call lu s nx ny xi bi); cbn [bind rmap]; [|reflexivity]. destruct s; reflexivity. Qed.

(** ** The boundary conditions *)
Lemma edges_scal a nx ny (x v : arr2 R) : set_edges nx ny (scal2 a x) (scal2 a v) = rmap (scal2 a) (set_edges nx ny x v).
Proof.
  unfold set_edges. destruct (_ || _)%bool; [reflexivity|]. cbn [rmap bind]. f_equal. extensionality i. extensionality j. unfold scal2, set_row, set_col.
  repeat match goal with |- context [(?p =? ?q)%nat] => destruct (p =? q)%nat end; reflexivity.
Qed.
Lemma fixed_scal a nx ny (x : arr2 R) : fixedBoundary nx ny (scal2 a x) = rmap (scal2 a) (fixedBoundary nx ny x).
Proof. unfold fixedBoundary. rewrite <- (zeros_scal a) at 1. apply edges_scal. Qed.
Lemma free_scal a g nx ny gR gZ (J x : arr2 R) : freeBoundary g nx ny gR gZ (scal2 a J) (scal2 a x) = rmap (scal2 a) (freeBoundary g nx ny gR gZ J x).
Proof.
  unfold freeBoundary. destruct (spacing_R nx ny gR) as [dR|]; [|reflexivity]. destruct (spacing_Z nx ny gZ) as [dZ|]; [|reflexivity]. cbn [bind].
  apply foldM_follow. intros s (x0, y0). set (gf := upd2 _ x0 y0 n0).
  replace (fun i j => (gf i j * scal2 a J i j)%num) with (fun i j => a * (gf i j * J i j)%num) by (extensionality i; extensionality j; unfold scal2; nR; ring).
  rewrite romb2_scal. destruct (romb2 nx ny (fun i j => (gf i j * J i j)%num)) as [v|]; cbn [bind rmap]; [|reflexivity].
  rewrite <- upd2_scal. f_equal. f_equal. nR. ring.
Qed.
Lemma onesided_scal a (g : nat -> R) h : onesided (fun k => a * g k) h = a * onesided g h.
Proof. unfold onesided. nR. unfold Rdiv. rewrite <- Rmult_assoc. f_equal. unfold coeffs. cbn [map lsum fold_right fst snd]. nR. ring. Qed.
Lemma loop_scal a g nx ny gR gZ (u : arr2 R) dR dZ dd r z : loop_integral g nx ny gR gZ (scal2 a u) dR dZ dd r z = rmap (Rmult a) (loop_integral g nx ny gR gZ u dR dZ dd r z).
Proof.
  assert (EL : forall y, dUdn_L nx ny (scal2 a u) dR dd y = a * dUdn_L nx ny u dR dd y) by (intros y; unfold dUdn_L; repeat destruct (_ =? _)%nat; apply onesided_scal).
  assert (ER : forall y, dUdn_R nx ny (scal2 a u) dR dd y = a * dUdn_R nx ny u dR dd y) by (intros y; unfold dUdn_R; repeat destruct (_ =? _)%nat; apply onesided_scal).
  assert (ED : forall y, dUdn_D nx ny (scal2 a u) dZ dd y = a * dUdn_D nx ny u dZ dd y) by (intros y; unfold dUdn_D; repeat destruct (_ =? _)%nat; apply onesided_scal).
  assert (EU : forall y, dUdn_U nx ny (scal2 a u) dZ dd y = a * dUdn_U nx ny u dZ dd y) by (intros y; unfold dUdn_U; repeat destruct (_ =? _)%nat; apply onesided_scal).
  assert (K : forall n (h h' : nat -> R) (w rr : nat -> R), (forall k, h' k = a * h k) -> romb n (fun k => w k * h' k / rr k) 1 = rmap (Rmult a) (romb n (fun k => w k * h k / rr k) 1)).
  { intros n h h' w rr Eh. rewrite <- romb_scal. f_equal. extensionality k. rewrite Eh. unfold Rdiv. ring. }
  unfold loop_integral. nR.
  rewrite (K ny _ _ (fun j => g (gR 0%nat j) (gZ 0%nat j) r z) (fun j => gR 0%nat j) EL).
  rewrite (K ny _ _ (fun j => g (gR (nx - 1)%nat j) (gZ (nx - 1)%nat j) r z) (fun j => gR (nx - 1)%nat j) ER).
  rewrite (K nx _ _ (fun i => g (gR i 0%nat) (gZ i 0%nat) r z) (fun i => gR i 0%nat) ED).
  rewrite (K nx _ _ (fun i => g (gR i (ny - 1)%nat) (gZ i (ny - 1)%nat) r z) (fun i => gR i (ny - 1)%nat) EU).
  destruct (romb ny (fun k => g (gR 0%nat k) _ _ _ * _ / _) 1) as [l|]; cbn [rmap bind]; [|reflexivity].
  destruct (romb ny _ 1) as [ri|]; cbn [rmap bind]; [|reflexivity].
  destruct (romb nx (fun k => g _ (gZ k 0%nat) _ _ * _ / _) 1) as [d|]; cbn [rmap bind]; [|reflexivity].
  destruct (romb nx _ 1) as [t|]; cbn [rmap bind]; [|reflexivity]. f_equal. ring.
Qed.
Lemma hagenow_scal a g sq nx ny call gR gZ (J x : arr2 R) : (forall p q, call (scal2 a p) (scal2 a q) = rmap (both_scal a) (call p q)) ->
  freeBoundaryHagenow g sq nx ny call gR gZ (scal2 a J) (scal2 a x) = rmap (scal2 a) (freeBoundaryHagenow g sq nx ny call gR gZ J x).
Proof.
  intros Hc. unfold freeBoundaryHagenow. destruct (spacing_R nx ny gR) as [dR|]; [|reflexivity]. destruct (spacing_Z nx ny gZ) as [dZ|]; [|reflexivity]. cbn [bind].
  replace (fun i j => (gR i j * scal2 a J i j)%num) with (scal2 a (fun i j => (gR i j * J i j)%num)) by (extensionality i; extensionality j; unfold scal2; nR; ring).
  rewrite <- (zeros_scal a) at 1. rewrite edges_scal. destruct (set_edges nx ny (fun i j => (gR i j * J i j)%num) zeros2) as [rhs|]; cbn [rmap bind]; [|reflexivity].
  rewrite Hc. destruct (call x rhs) as [(p, u)|]; cbn [rmap bind both_scal fst snd]; [|reflexivity].
  destruct (_ || _)%bool; [reflexivity|]. cbv zeta. apply foldM_follow. intros s ((x0, y0), (re, ze)).
  rewrite loop_scal. destruct (loop_integral g nx ny gR gZ u dR dZ _ _ _) as [v|]; cbn [rmap bind]; [|reflexivity]. rewrite <- upd2_scal. reflexivity.
Qed.
