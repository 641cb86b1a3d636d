(** Specification vocabulary for the plasma profiles: real powers, cases of the profile shape and
    the terms in which the constraints on current, pressure and poloidal beta are stated. *)
From Coq Require Import List Arith Bool Reals.
From Coquelicot Require Import Coquelicot.
From Verif Require Import Py Num Numpy Romb Jtor.
Local Open Scope R_scope.

(** x ** a for x >= 0 and a >= 0 as numpy evaluates it: 0 ** 0 = 1 *)
Definition rpow (x a : R) : R :=
  if Req_EM_T x 0 then (if Req_EM_T a 0 then 1 else 0) else Rpower x a.
(** scipy.integrate.quad taken to return the exact (Riemann) integral *)
Definition rquad (f : R -> R) (a b : R) : R := RInt f a b.

(** normalised flux of the flux value [psi] *)
Definition psinorm (pa pb psi : R) : R := (psi - pa) / (pb - pa).
(** a grid integral with the Romberg rule: [v] is the integral of [a] over the grid of [e] *)
Definition grid_integral (e : env (T:=R)) (a : nat -> nat -> R) (v : R) : Prop :=
  exists s, romb2 (nx e) (ny e) a = Ok s /\
    v = s * (gR e 1%nat 0%nat - gR e 0%nat 0%nat) * (gZ e 0%nat 1%nat - gZ e 0%nat 0%nat).
(** The value of an optional mask at a point: 1 everywhere when there is no mask. *)
Definition mask_at (m : option (nat -> nat -> R)) (i j : nat) : R := match m with Some m => m i j | None => 1 end.
(** The weight of a grid point in the current: the shape function of the clipped normalised flux, times the mask. *)
Definition weight (pow : R -> R -> R) (p : cprofile (T:=R)) (pa pb : R) (m : option (nat -> nat -> R)) (psi : nat -> nat -> R) (i j : nat) : R :=
  pow (1 - pow (Rmin (Rmax (psinorm pa pb (psi i j)) 0) 1) (alpha_m p)) (alpha_n p) * mask_at m i j.
(** A grid point which is not on the edge of the domain *)
Definition interior (e : env (T:=R)) (i j : nat) : Prop := (0 < i < nx e - 1)%nat /\ (0 < j < ny e - 1)%nat.
(** [P] is the pressure in the integration region: the pressure function [pr] of the normalised
    flux times the mask at interior points with normalised flux in [0, 1), zero elsewhere. *)
Definition region_pressure (e : env (T:=R)) (pr : R -> R) (pa pb : R) (m : option (nat -> nat -> R)) (psi P : nat -> nat -> R) : Prop :=
  forall i j,
    (interior e i j /\ 0 <= psinorm pa pb (psi i j) < 1 -> P i j = pr (psinorm pa pb (psi i j)) * mask_at m i j) /\
    (~ (interior e i j /\ 0 <= psinorm pa pb (psi i j) < 1) -> P i j = 0).
(** What both constrained classes use as the plasma core for the flux [psi]: the boundary flux
    found by the equilibrium object, and the axis flux and mask that go with it. *)
Definition core_of (e : env (T:=R)) (psi : nat -> nat -> R) (pb pa : R) (m : option (nat -> nat -> R)) : Prop :=
  exists ub, updated_bndry e psi = Ok ub /\ find_core e psi ub = Ok (pb, pa, m).
