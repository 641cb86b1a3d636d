(** Vocabulary for the properties of G-EQDSK files, independent of the model. *)
From Coq Require Import ZArith Reals List Lia Lra.
Import ListNotations.

(** a power of two *)
Definition power_of_two (v : Z) : Prop := exists k, (0 <= k)%Z /\ v = (2 ^ k)%Z.
(** the least power of two that is not below v *)
Definition least_power_above (v p : Z) : Prop :=
  power_of_two p /\ (v <= p)%Z /\ forall q, power_of_two q -> (v <= q)%Z -> (p <= q)%Z.

Local Open Scope R_scope.

(** point k of n equally spaced points, and their distance *)
Definition node (a b : R) (n k : nat) : R := a + INR k * ((b - a) / INR (n - 1)).
Definition spacing (a b : R) (n : nat) : R := (b - a) / INR (n - 1).

(** a function of one variable which is a straight line between a and b *)
Definition straight (a b : R) (f : R -> R) : Prop :=
  exists c d, forall v, a <= v <= b -> f v = c + d * v.
(** F goes through the values z on the grid (x, y), and is a straight line in each variable over
    each cell *)
Record bilinear_through (n m : nat) (x y : nat -> R) (z : nat -> nat -> R) (F : R -> R -> R) : Prop := {
  through : forall i j, (i < n)%nat -> (j < m)%nat -> F (x i) (y j) = z i j;
  straight_x : forall i v, (S i < n)%nat -> straight (x i) (x (S i)) (fun u => F u v);
  straight_y : forall j u, (S j < m)%nat -> straight (y j) (y (S j)) (fun v => F u v) }.

(** a list of points that ends where it starts *)
Definition closed_curve (l : list (R * R)) : Prop :=
  exists p q, l = p :: q ++ [p].

(** clip *)
Definition clipped (lo hi v w : R) : Prop :=
  (v < lo /\ w = lo) \/ (lo <= v <= hi /\ w = v) \/ (hi < v /\ w = hi).

(** a spline of one variable through its data *)
Definition through_points (uspline : list R -> list R -> nat -> R -> R) : Prop :=
  forall x y i, length x = length y -> (i < length x)%nat -> uspline x y 0%nat (nth i x 0) = nth i y 0.
