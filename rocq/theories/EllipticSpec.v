(** The complete elliptic integrals, the flux of a circular current loop by the law of Biot and
    Savart, and the Grad-Shafranov operator.  Nothing here refers to the model. *)
From Coq Require Import Reals.
From Coquelicot Require Import Coquelicot.
Local Open Scope R_scope.

(** Complete elliptic integrals of the first and second kind of the parameter m = k^2. *)
Definition ellipK (m : R) : R := RInt (fun t => / sqrt (1 - m * (sin t) ^ 2)) 0 (PI / 2).
Definition ellipE (m : R) : R := RInt (fun t => sqrt (1 - m * (sin t) ^ 2)) 0 (PI / 2).

(** The flux per radian, r A_phi, at (r, z) of a unit current in a circle of radius [a] at height [h];
    A_phi is the azimuthal component of the vector potential mu0 / (4 pi) * line integral of dl / distance. *)
Definition loop_flux (mu0 a h r z : R) : R :=
  r * (mu0 / (4 * PI) * RInt (fun phi => a * cos phi / sqrt (r ^ 2 + a ^ 2 + (z - h) ^ 2 - 2 * r * a * cos phi)) 0 (2 * PI)).

(** The Grad-Shafranov operator r d/dr (1/r d psi/dr) + d^2 psi/dz^2 of [psi] exists at (r, z) and has
    the value [v]. *)
Definition is_gs (psi : R -> R -> R) (r z v : R) : Prop :=
  exists (psi_r : R -> R) (psi_rr : R) (psi_z : R -> R) (psi_zz : R),
    locally r (fun x => is_derive (fun x => psi x z) x (psi_r x)) /\ is_derive psi_r r psi_rr /\
    locally z (fun y => is_derive (fun y => psi r y) y (psi_z y)) /\ is_derive psi_z z psi_zz /\
    v = psi_rr - psi_r r / r + psi_zz.

(** (r, z) is off the axis, not on the loop and not out of sight of it: the distance to the loop is
    more than 1e-5 of the largest distance, and the loop is not so far away that 4 r a is less than
    1e-10 of the square of that distance. *)
Definition resolved (a h r z : R) : Prop :=
  0 < a /\ 0 < r /\ ((r + a) ^ 2 + (z - h) ^ 2) / 10 ^ 10 < 4 * r * a /\
  ((r + a) ^ 2 + (z - h) ^ 2) / 10 ^ 10 < (r - a) ^ 2 + (z - h) ^ 2.
