(** What the Equilibrium object is supposed to do, independently of the model. *)
From Coq Require Import List Arith Reals.
From Verif Require Import Py Num Numpy Romb.
Import ListNotations.
Local Open Scope R_scope.

(** exact linear solver: solves every system that has exactly one solution *)
Definition exact_solver (lu : nat -> (nat -> nat -> R) -> (nat -> R) -> (nat -> R)) : Prop :=
  forall N A b,
    (forall v, (forall r, (r < N)%nat -> nsum N (fun c => A r c * v c) = 0) -> forall c, (c < N)%nat -> v c = 0) ->
    forall r, (r < N)%nat -> nsum N (fun c => A r c * lu N A b c) = b r.

(** the solver solves the systems with matrix [A] *)
Definition solves_systems (lu : nat -> (nat -> nat -> R) -> (nat -> R) -> (nat -> R)) (N : nat) (A : nat -> nat -> R) : Prop :=
  forall b r, (r < N)%nat -> nsum N (fun c => A r c * lu N A b c) = b r.

(** ** Splines *)
Definition increasing_on (n : nat) (x : nat -> R) : Prop := forall i, (S i < n)%nat -> x i < x (S i).
(** a spline through the data *)
Definition interpolates (spline : nat -> nat -> (nat -> R) -> (nat -> R) -> (nat -> nat -> R) -> nat -> nat -> R -> R -> R) : Prop :=
  forall n m x y z, (4 <= n)%nat -> (4 <= m)%nat -> increasing_on n x -> increasing_on m y ->
  forall i j, (i < n)%nat -> (j < m)%nat -> spline n m x y z 0%nat 0%nat (x i) (y j) = z i j.
(** c0 + c1 r + c2 z + c3 r^2 + c4 r z + c5 z^2 and its derivatives *)
Definition quadratic (c : nat -> R) (dx dy : nat) (r z : R) : R :=
  match dx, dy with
  | 0%nat, 0%nat => c 0%nat + c 1%nat * r + c 2%nat * z + c 3%nat * r ^ 2 + c 4%nat * (r * z) + c 5%nat * z ^ 2
  | 1%nat, 0%nat => c 1%nat + 2 * c 3%nat * r + c 4%nat * z
  | 0%nat, 1%nat => c 2%nat + c 4%nat * r + 2 * c 5%nat * z
  | 2%nat, 0%nat => 2 * c 3%nat
  | 1%nat, 1%nat => c 4%nat
  | 0%nat, 2%nat => 2 * c 5%nat
  | _, _ => 0
  end.
(** a spline that is exact for quadratic data, as cubic splines are, with its derivatives *)
Definition exact_for_quadratics (spline : nat -> nat -> (nat -> R) -> (nat -> R) -> (nat -> nat -> R) -> nat -> nat -> R -> R -> R) : Prop :=
  forall n m x y z c, (4 <= n)%nat -> (4 <= m)%nat -> increasing_on n x -> increasing_on m y ->
  (forall i j, (i < n)%nat -> (j < m)%nat -> z i j = quadratic c 0 0 (x i) (y j)) ->
  forall dx dy r s, (dx + dy <= 2)%nat -> x 0%nat <= r <= x (n - 1)%nat -> y 0%nat <= s <= y (m - 1)%nat ->
    spline n m x y z dx dy r s = quadratic c dx dy r s.

(** ** The plasma boundary *)
(** [v] is, of [a] and [b], the flux closest to the flux [pa] on the axis *)
Definition closest (pa a b v : R) : Prop :=
  (v = a \/ v = b) /\ Rabs (v - pa) <= Rabs (a - pa) /\ Rabs (v - pa) <= Rabs (b - pa).

(** ** Rows of normalised flux *)
(** the straight line through (r0, q0) and (r1, q1) *)
Definition line (r0 q0 r1 q1 r : R) : R := q0 + (r - r0) / (r1 - r0) * (q1 - q0).

(** ** A spline for examples: the polynomial of degree 2 through the first three points, in
    each direction *)
Definition newton2 (x f : nat -> R) (d : nat) (r : R) : R :=
  let f01 := (f 1%nat - f 0%nat) / (x 1%nat - x 0%nat) in
  let f12 := (f 2%nat - f 1%nat) / (x 2%nat - x 1%nat) in
  let f012 := (f12 - f01) / (x 2%nat - x 0%nat) in
  match d with
  | 0%nat => f 0%nat + (r - x 0%nat) * f01 + (r - x 0%nat) * (r - x 1%nat) * f012
  | 1%nat => f01 + (2 * r - x 0%nat - x 1%nat) * f012
  | 2%nat => 2 * f012
  | _ => 0
  end.
Definition spline2 (n m : nat) (x y : nat -> R) (z : nat -> nat -> R) (dx dy : nat) (r s : R) : R :=
  newton2 x (fun i => newton2 y (z i) dy s) dx r.
