(** Model of freegs/multigrid.py. *)
From Coq Require Import List Arith ZArith Bool.
From Verif Require Import Py Num Numpy.
Import ListNotations.

Fixpoint iter {A} (n : nat) (f : A -> A) (x : A) : A :=
  match n with O => x | S n' => iter n' f (f x) end.

Section Multigrid.
  Context {T : Type} `{Num T}.
  Open Scope num_scope.
  Local Notation "'let*' x := e 'in' k" := (bind e (fun x => k))
    (at level 200, x pattern, e at level 100, k at level 200).

  (** [reshape(a, -1)] and [reshape(v, shape)] for C-ordered arrays with [ny] columns. *)
  Definition ravel (ny : nat) (a : arr2 T) : nat -> T := fun r => a (r / ny)%nat (r mod ny)%nat.
  Definition unravel (ny : nat) (v : nat -> T) : arr2 T := fun x y => v (x * ny + y)%nat.

  (** [A.dot(x)] for a sparse N x N matrix. *)
  Definition mdot (N : nat) (A : arr2 T) (v : nat -> T) : nat -> T :=
    fun r => nsum N (fun c => A r c * v c).

  (** restrict (multigrid.py 166-222) with out=None; returns the array and its shape.
      Lines 207-218 are two expression statements beginning with a unary plus: they are
      evaluated and thrown away, so they do not appear here (their indices are in range
      whenever line 206 is executed, so they cannot raise). *)
  Definition restrict (orig : arr2 T) (nx ny : nat) (avg : bool) : arr2 T * nat * nat :=
    if ((nx - 1) mod 2 =? 1)%nat || ((ny - 1) mod 2 =? 1)%nat then (orig, nx, ny)
    else
      let nx := ((nx - 1) / 2 + 1)%nat in
      let ny := ((ny - 1) / 2 + 1)%nat in
      let out := fold_left (fun out x => fold_left (fun out y =>
          let x0 := (2 * x)%nat in
          let y0 := (2 * y)%nat in
          upd2 out x y (orig x0 y0 / nofZ 4))
        (range 1 (ny - 1)) out) (range 1 (nx - 1)) zeros2 in
      let out := if avg then out else fun x y => out x y * nofZ 4 in
      (out, nx, ny).

  (** [out[x,y] += v] *)
  Definition add2 (out : arr2 T) (x y : nat) (v : T) : arr2 T := upd2 out x y (out x y + v).

  (** The body of the loop of interpolate (multigrid.py 242-255). *)
  Definition interp_cell (orig : arr2 T) (out : arr2 T) (x y : nat) : arr2 T :=
    let x0 := (2 * x)%nat in
    let y0 := (2 * y)%nat in
    let out := add2 out (x0 - 1) (y0 - 1) (nlit 1 4 * orig x y) in
    let out := add2 out (x0 - 1) y0 (nlit 1 2 * orig x y) in
    let out := add2 out (x0 - 1) (y0 + 1) (nlit 1 4 * orig x y) in
    let out := add2 out x0 (y0 - 1) (nlit 1 2 * orig x y) in
    let out := upd2 out x0 y0 (orig x y) in
    let out := add2 out x0 (y0 + 1) (nlit 1 2 * orig x y) in
    let out := add2 out (x0 + 1) (y0 - 1) (nlit 1 4 * orig x y) in
    let out := add2 out (x0 + 1) y0 (nlit 1 2 * orig x y) in
    add2 out (x0 + 1) (y0 + 1) (nlit 1 4 * orig x y).

  (** interpolate (multigrid.py 225-257) with out=None. *)
  Definition interpolate (orig : arr2 T) (nx ny : nat) : arr2 T * nat * nat :=
    (fold_left (fun out x => fold_left (fun out y => interp_cell orig out x y)
       (range 1 (ny - 1)) out) (range 1 (nx - 1)) zeros2,
     2 * (nx - 1) + 1, 2 * (ny - 1) + 1)%nat.

  (** Solver objects.  [N] is the dimension of the matrix.
      MGDirect (35-44), MGJacobi (47-109). *)
  Inductive solver : Type :=
  | MGDirect (N : nat) (A : arr2 T)
  | MGJacobi (N : nat) (A : arr2 T) (ncycle niter : nat) (subsolver : option solver).

  (** [factorized(A.tocsc())]: the LU solve, an oracle. *)
  Variable lu : nat -> arr2 T -> (nat -> T) -> (nat -> T).

  (** Line 87 / 107 *)
  Definition jacobi (N : nat) (A : arr2 T) (b x : nat -> T) : nat -> T :=
    fun r => x r + (b r - mdot N A x r) / A r r.

  (** MGDirect.__call__ (39-44) and MGJacobi.__call__ (67-109) with the default ncycle and
      niter, on arrays of shape (nx, ny).  A shape mismatch (ValueError in numpy/scipy) is
      reported before the first matrix product rather than by it.  The
      code overwrites the array [xi] with the result; only the result is modelled. *)
  Fixpoint mg_call (s : solver) (nx ny : nat) (xi bi : arr2 T) : result (arr2 T) :=
    match s with
    | MGDirect N A =>
        if (N =? nx * ny)%nat then Ok (unravel ny (lu N A (ravel ny bi))) else Raise ValueError
    | MGJacobi N A ncycle niter subsolver =>
        if (N =? nx * ny)%nat then
          let b := ravel ny bi in
          let* x := foldM (fun x _ =>
            let x := iter niter (jacobi N A b) x in
            let* x := match subsolver with
              | None => Ok x
              | Some sub =>
                  let error := fun r => b r - mdot N A x r in
                  let '(sub_b, nxs, nys) := restrict (unravel ny error) nx ny false in
                  let* sub_x := mg_call sub nxs nys zeros2 sub_b in
                  let '(xupdate, nxu, nyu) := interpolate sub_x nxs nys in
                  if (nxu * nyu =? N)%nat then Ok (fun r => x r + ravel nyu xupdate r)
                  else Raise ValueError
              end in
            Ok (iter niter (jacobi N A b) x)) (seq 0 ncycle) (ravel ny xi) in
          Ok (unravel ny x)
        else Raise ValueError
    end.

  (** createVcycle (112-150).  [generator nx ny] returns the sparse matrix.  Note that the
      recursive call does not pass [ncycle], so it is 1 on the coarser levels. *)
  Fixpoint createVcycle_ (nx ny : nat) (generator : nat -> nat -> result (arr2 T))
           (nlevels ncycle niter : nat) (direct : bool) : result solver :=
    let lowest :=
      let* A := generator nx ny in
      if direct then Ok (MGDirect (nx * ny) A) else Ok (MGJacobi (nx * ny) A ncycle niter None) in
    match nlevels with
    | S (S _ as nl) =>
        if ((nx - 1) mod 2 =? 1)%nat || ((ny - 1) mod 2 =? 1)%nat then lowest
        else
          let nxsub := ((nx - 1) / 2 + 1)%nat in
          let nysub := ((ny - 1) / 2 + 1)%nat in
          let* sub := createVcycle_ nxsub nysub generator nl 1 niter direct in
          let* A := generator nx ny in
          Ok (MGJacobi (nx * ny) A ncycle niter (Some sub))
    | _ => lowest
    end.
  Definition createVcycle := createVcycle_.

  (** ** Matrix-free multigrid *)
  (** An operator object: __call__(f, dx, dy) on arrays of shape (nx, ny), and diag(dx, dy). *)
  Record operator : Type := MkOp { op_call : arr2 T -> nat -> nat -> T -> T -> arr2 T; op_diag : T -> T -> T }.

  (** smoothJacobi (153-163); b and x have the same shape here. *)
  Definition smoothJacobi (A : operator) (nx ny : nat) (x b : arr2 T) (dx dy : T) : arr2 T :=
    fun i j => x i j + (b i j - op_call A x nx ny dx dy i j) / op_diag A dx dy.

  (** smoothVcycle (260-291).  [x + xupdate] raises ValueError when the shapes differ
      (numpy broadcasting of a dimension of size 1 is not modelled). *)
  Fixpoint smoothVcycle (A : operator) (nx ny : nat) (x b : arr2 T) (dx dy : T)
           (niter sublevels : nat) : result (arr2 T) :=
    let x := iter niter (fun x => smoothJacobi A nx ny x b dx dy) x in
    let* x :=
      match sublevels with
      | O => Ok x
      | S sub =>
          let error := fun i j => b i j - op_call A x nx ny dx dy i j in
          let '(Cerror, nxc, nyc) := restrict error nx ny false in
          let* Cx := smoothVcycle A nxc nyc zeros2 Cerror (dx * n2) (dy * n2) niter sub in
          let '(xupdate, nxu, nyu) := interpolate Cx nxc nyc in
          if ((nxu =? nx) && (nyu =? ny))%nat then Ok (fun i j => x i j + xupdate i j)
          else Raise ValueError
      end in
    Ok (iter niter (fun x => smoothJacobi A nx ny x b dx dy) x).

  (** smoothMG (294-309) without the printed residuals. *)
  Definition smoothMG (A : operator) (nx ny : nat) (x b : arr2 T) (dx dy : T)
             (niter sublevels ncycle : nat) : result (arr2 T) :=
    foldM (fun x _ => smoothVcycle A nx ny x b dx dy niter sublevels) (seq 0 ncycle) x.

  (** LaplacianOp (312-335) *)
  Definition LaplacianOp_call (f : arr2 T) (nx ny : nat) (dx dy : T) : arr2 T :=
    fold_left (fun b x => fold_left (fun b y =>
        upd2 b x y ((f (x - 1)%nat y - n2 * f x y + f (x + 1)%nat y) / nsqr dx
                    + (f x (y - 1)%nat - n2 * f x y + f x (y + 1)%nat) / nsqr dy))
      (range 1 (ny - 1)) b) (range 1 (nx - 1)) zeros2.
  Definition LaplacianOp_diag (dx dy : T) : T := - n2 / nsqr dx - n2 / nsqr dy.
  Definition LaplacianOp : operator := MkOp LaplacianOp_call LaplacianOp_diag.

  (** LaplaceSparse.__call__ (338-367) *)
  Definition LaplaceSparse (Lx Ly : T) (nx ny : nat) : result (arr2 T) :=
    let dx := Lx / nofnat (nx - 1) in
    let dy := Ly / nofnat (ny - 1) in
    let N := (nx * ny)%nat in
    foldM (fun A x => foldM (fun A y =>
        let row := Z.of_nat (x * ny + y) in
        let* A := lil_set N A row row (- n2 / nsqr dx - n2 / nsqr dy) in
        let* A := lil_set N A row (row - 1) (n1 / nsqr dy) in
        let* A := lil_set N A row (row + 1) (n1 / nsqr dy) in
        let* A := lil_set N A row (row - Z.of_nat ny) (n1 / nsqr dx) in
        lil_set N A row (row + Z.of_nat ny) (n1 / nsqr dx))
      (range 1 (ny - 1)) A) (range 1 (nx - 1)) eye.
End Multigrid.
Arguments MGDirect {T} _ _. Arguments MGJacobi {T} _ _ _ _ _. Arguments MkOp {T} _ _.
