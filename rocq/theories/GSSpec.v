(** Specification vocabulary for the Grad-Shafranov operators: the differential
    operator itself, grids and polynomials. Nothing here refers to the model. *)
From Coq Require Import Reals.
From Coquelicot Require Import Coquelicot.
From Verif Require Import Num.
Local Open Scope R_scope.

(** Delta* psi = d2/dR2 psi - (1/R) d/dR psi + d2/dZ2 psi *)
Definition GSop (psi : R -> R -> R) (r z : R) : R :=
  Derive_n (fun t => psi t z) 2 r - / r * Derive (fun t => psi t z) r
  + Derive_n (fun t => psi r t) 2 z.

(** i-th of n equally spaced points from a to b. *)
Definition gridpt (a b : R) (n i : nat) : R := a + (b - a) / INR (n - 1) * INR i.

(** sum of c_ij r^i z^j, i < m, j < n *)
Definition poly2 (c : nat -> nat -> R) (m n : nat) (r z : R) : R :=
  nsum m (fun i => nsum n (fun j => c i j * r ^ i * z ^ j)).

(** Fluxes with four derivatives in each direction, the third and fourth bounded by [M]
    on the computational box. *)
Definition smooth_flux (psi : R -> R -> R) (Rmin Rmax Zmin Zmax M : R) : Prop :=
  (forall r z k, 0 < r -> (k <= 4)%nat -> ex_derive_n (fun t => psi t z) k r) /\
  (forall r z k, 0 < r -> (k <= 4)%nat -> ex_derive_n (fun t => psi r t) k z) /\
  (forall r z, Rmin <= r <= Rmax -> Zmin <= z <= Zmax ->
     Rabs (Derive_n (fun t => psi t z) 3 r) <= M /\
     Rabs (Derive_n (fun t => psi t z) 4 r) <= M /\
     Rabs (Derive_n (fun t => psi r t) 4 z) <= M).

