(** Model of freegs/boundary.py: the boundary conditions on the flux of the plasma. *)
From Coq Require Import List Arith ZArith Bool.
From Verif Require Import Py Num Numpy Romb Multigrid.
Import ListNotations.
Local Open Scope num_scope.

Section Boundary.
  Context {T : Type} `{Num T}.
  Local Notation "'let*' x := e 'in' k" := (bind e (fun x => k))
    (at level 200, x pattern, e at level 100, k at level 200, right associativity).
  (** Greens(Rc, Zc, R, Z), an arbitrary function here *)
  Variable greens : T -> T -> T -> T -> T.
  Variable sqrt : T -> T.

  (** [a[i,:] = v[i,:]] and [a[:,j] = v[:,j]] *)
  Definition set_row (a : arr2 T) (i : nat) (v : arr2 T) : arr2 T := fun x y => if (x =? i)%nat then v x y else a x y.
  Definition set_col (a : arr2 T) (j : nat) (v : arr2 T) : arr2 T := fun x y => if (y =? j)%nat then v x y else a x y.
  (** The four assignments [a[0,:]=..., a[:,0]=..., a[-1,:]=..., a[:,-1]=...]
      (boundary.py 44-47, 132-135, equilibrium.py); IndexError on an empty axis. *)
  Definition set_edges (nx ny : nat) (a v : arr2 T) : result (arr2 T) :=
    if ((nx =? 0) || (ny =? 0))%nat then Raise IndexError
    else Ok (set_col (set_row (set_col (set_row a 0 v) 0 v) (nx - 1) v) (ny - 1) v).

  (** fixedBoundary (29-47): the new value of [psi] *)
  Definition fixedBoundary (nx ny : nat) (psi : arr2 T) : result (arr2 T) := set_edges nx ny psi zeros2.

  (** The spacings [R[1,0]-R[0,0]] and [Z[0,1]-Z[0,0]] *)
  Definition spacing_R (nx ny : nat) (gR : arr2 T) : result T :=
    if ((nx <? 2) || (ny <? 1))%nat then Raise IndexError else Ok (gR 1%nat 0%nat - gR 0%nat 0%nat).
  Definition spacing_Z (nx ny : nat) (gZ : arr2 T) : result T :=
    if ((nx <? 1) || (ny <? 2))%nat then Raise IndexError else Ok (gZ 0%nat 1%nat - gZ 0%nat 0%nat).

  (** 81-88 *)
  Definition bndry_indices (nx ny : nat) : list (nat * nat) :=
    map (fun x => (x, 0)%nat) (range 0 nx) ++ map (fun x => (x, ny - 1)%nat) (range 0 nx)
    ++ map (fun y => (0, y)%nat) (range 0 ny) ++ map (fun y => (nx - 1, y)%nat) (range 0 ny).

  (** freeBoundary (50-99): the new value of [psi] *)
  Definition freeBoundary (nx ny : nat) (gR gZ Jtor psi : arr2 T) : result (arr2 T) :=
    let* dR := spacing_R nx ny gR in
    let* dZ := spacing_Z nx ny gZ in
    foldM (fun psi xy =>
      let (x, y) := xy : nat * nat in
      let greenfunc := fun i j => greens (gR i j) (gZ i j) (gR x y) (gZ x y) in
      let greenfunc := upd2 greenfunc x y n0 in
      let* v := romb2 nx ny (fun i j => greenfunc i j * Jtor i j) in
      Ok (upd2 psi x y (v * dR * dZ))) (bndry_indices nx ny) psi.

  (** 144 *)
  Definition coeffs : list (nat * T) :=
    [(0%nat, nlit 25 12); (1%nat, nofZ (-4)); (2%nat, nofZ 3); (3%nat, nlit (-16) 12); (4%nat, nlit 1 4)].
  (** [sum([weight * g(index) for index, weight in coeffs]) / h] *)
  Definition onesided (g : nat -> T) (h : T) : T := lsum (map (fun iw => snd iw * g (fst iw)) coeffs) / h.
  (** dUdn_L, dUdn_R, dUdn_D, dUdn_U after the assignments at the corners (146-184) *)
  Definition dUdn_L (nx ny : nat) (u : arr2 T) (dR dd : T) (y : nat) : T :=
    if (y =? ny - 1)%nat then onesided (fun k => u k (ny - 1 - k)%nat) dd
    else if (y =? 0)%nat then onesided (fun k => u k k) dd
    else onesided (fun k => u k y) dR.
  Definition dUdn_R (nx ny : nat) (u : arr2 T) (dR dd : T) (y : nat) : T :=
    if (y =? ny - 1)%nat then onesided (fun k => u (nx - 1 - k)%nat (ny - 1 - k)%nat) dd
    else if (y =? 0)%nat then onesided (fun k => u (nx - 1 - k)%nat k) dd
    else onesided (fun k => u (nx - 1 - k)%nat y) dR.
  Definition dUdn_D (nx ny : nat) (u : arr2 T) (dZ dd : T) (x : nat) : T :=
    if (x =? nx - 1)%nat then onesided (fun k => u (nx - 1 - k)%nat k) dd
    else if (x =? 0)%nat then onesided (fun k => u k k) dd
    else onesided (fun k => u x k) dZ.
  Definition dUdn_U (nx ny : nat) (u : arr2 T) (dZ dd : T) (x : nat) : T :=
    if (x =? nx - 1)%nat then onesided (fun k => u (nx - 1 - k)%nat (ny - 1 - k)%nat) dd
    else if (x =? 0)%nat then onesided (fun k => u k (ny - 1 - k)%nat) dd
    else onesided (fun k => u x (ny - 1 - k)%nat) dZ.

  (** 189-203: indices with the displacement that puts the observer outside the domain *)
  Definition hagenow_eps : T := nlit 1 100.
  Definition hagenow_indices (nx ny : nat) : list (nat * nat * (T * T)) :=
    map (fun x => (x, 0%nat, (n0, - hagenow_eps))) (range 0 nx)
    ++ map (fun x => (x, (ny - 1)%nat, (n0, hagenow_eps))) (range 0 nx)
    ++ map (fun y => (0%nat, y, (- hagenow_eps, n0))) (range 0 ny)
    ++ map (fun y => ((nx - 1)%nat, y, (hagenow_eps, n0))) (range 0 ny).

  (** 216-229: the loop integral for an observer at (Rpos, Zpos) *)
  Definition loop_integral (nx ny : nat) (gR gZ u : arr2 T) (dR dZ dd Rpos Zpos : T) : result T :=
    let* l := romb ny (fun j => greens (gR 0%nat j) (gZ 0%nat j) Rpos Zpos * dUdn_L nx ny u dR dd j / gR 0%nat j) n1 in
    let* r := romb ny (fun j => greens (gR (nx - 1)%nat j) (gZ (nx - 1)%nat j) Rpos Zpos * dUdn_R nx ny u dR dd j / gR (nx - 1)%nat j) n1 in
    let* d := romb nx (fun i => greens (gR i 0%nat) (gZ i 0%nat) Rpos Zpos * dUdn_D nx ny u dZ dd i / gR i 0%nat) n1 in
    let* t := romb nx (fun i => greens (gR i (ny - 1)%nat) (gZ i (ny - 1)%nat) Rpos Zpos * dUdn_U nx ny u dZ dd i / gR i (ny - 1)%nat) n1 in
    Ok (l * dZ + r * dZ + d * dR + t * dR).

  (** The matrix solvers of multigrid.py as callSolver: the array [xi] after the call and the
      solution.  MGDirect (multigrid.py 39-44) leaves the array it is given alone; MGJacobi
      (67-109) works in it: [x = reshape(xi, -1)] is a view and line 87 updates it in place. *)
  Definition solver_call (lu : nat -> arr2 T -> (nat -> T) -> (nat -> T)) (s : solver) (nx ny : nat) (xi bi : arr2 T) : result (arr2 T * arr2 T) :=
    let* x := mg_call lu s nx ny xi bi in
    Ok (match s with MGDirect _ _ => xi | MGJacobi _ _ _ _ _ => x end, x).

  (** freeBoundaryHagenow (102-231).  [callSolver psi rhs] returns the array [psi] as it is after
      the call (the solver may work in place) and the solution. *)
  Definition freeBoundaryHagenow (nx ny : nat) (callSolver : arr2 T -> arr2 T -> result (arr2 T * arr2 T))
             (gR gZ Jtor psi : arr2 T) : result (arr2 T) :=
    let* dR := spacing_R nx ny gR in
    let* dZ := spacing_Z nx ny gZ in
    let* rhs := set_edges nx ny (fun i j => gR i j * Jtor i j) zeros2 in
    let* (psi, u) := callSolver psi rhs in
    if ((nx <? 5) || (ny <? 5))%nat then Raise IndexError
    else
      let dd := sqrt (nsqr dR + nsqr dZ) in
      foldM (fun psi b =>
        let '(x, y, (Reps, Zeps)) := b : nat * nat * (T * T) in
        let* v := loop_integral nx ny gR gZ u dR dZ dd (gR x y + Reps) (gZ x y + Zeps) in
        Ok (upd2 psi x y v)) (hagenow_indices nx ny) psi.
End Boundary.
