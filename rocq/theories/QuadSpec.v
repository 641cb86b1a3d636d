(** Averages over a triangle, used to state the properties of quadrature.py.
    Nothing here refers to the model. *)
From Coq Require Import List Reals.
From Coquelicot Require Import Coquelicot.
From Verif Require Import Num.
Import ListNotations.
Local Open Scope R_scope.

(** Point of a triangle with barycentric coordinates (1-u-v, u, v). *)
Definition tri_point (p1 p2 p3 : R * R) (u v : R) : R * R :=
  (fst p1 + u * (fst p2 - fst p1) + v * (fst p3 - fst p1),
   snd p1 + u * (snd p2 - snd p1) + v * (snd p3 - snd p1)).

(** Mean value of a function over a triangle, as an iterated Riemann integral over the
    reference triangle 0 <= u, 0 <= v, u + v <= 1 (whose area is 1/2). *)
Definition tri_mean (f : R -> R -> R) (p1 p2 p3 : R * R) : R :=
  2 * RInt (fun u => RInt (fun v => f (fst (tri_point p1 p2 p3 u v)) (snd (tri_point p1 p2 p3 u v))) 0 (1 - u)) 0 1.

(** Polynomials of total degree at most d in the coordinates (u, v) of the triangle.
    The coordinates depend affinely on (r, z), so on a triangle that is not degenerate these
    are the polynomials of total degree at most d in (r, z). *)
Definition poly_uv (d : nat) (k : nat -> nat -> R) (u v : R) : R :=
  nsum (S d) (fun i => nsum (S d - i) (fun j => k i j * u ^ i * v ^ j)).
Definition poly_size (d : nat) (k : nat -> nat -> R) : R :=
  nsum (S d) (fun i => nsum (S d - i) (fun j => Rabs (k i j))).
Definition is_poly_on (d : nat) (k : nat -> nat -> R) (f : R -> R -> R) (p1 p2 p3 : R * R) : Prop :=
  forall u v, f (fst (tri_point p1 p2 p3 u v)) (snd (tri_point p1 p2 p3 u v)) = poly_uv d k u v.
