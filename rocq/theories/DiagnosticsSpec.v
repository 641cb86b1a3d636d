(** Terms in which the diagnostics are specified, independently of the model. *)
From Coq Require Import List Arith Reals.
From Verif Require Import Py Num Numpy Romb Jtor JtorSpec Equilibrium.
Local Open Scope R_scope.

(** [v] is the integral of [f] over the volume generated by turning the grid of [e] about the
    axis, weighted with the mask: 2 pi times the Romberg rule for f * mask * R. *)
Definition torus_integral {P Ctl} (pi : R) (e : equilibrium R P Ctl) (m : option (nat -> nat -> R)) (f : nat -> nat -> R) (v : R) : Prop :=
  exists s, romb2 (e_nx e) (e_ny e) (fun i j => f i j * mask_at m i j * R_1D e i) = Ok s /\
    v = 2 * pi * s * (R_1D e 1%nat - R_1D e 0%nat) * (Z_1D e 1%nat - Z_1D e 0%nat).
(** the profile's view of the grid and of the poloidal field is that of the equilibrium *)
Definition sees {P Ctl} (E : env (T:=R)) (e : equilibrium R P Ctl) (br bz : R -> R -> R) : Prop :=
  nx E = e_nx e /\ ny E = e_ny e /\
  forall i j, gR E i j = R_1D e i /\ gZ E i j = Z_1D e j /\
    Jtor.eqBr E i j = br (R_1D e i) (Z_1D e j) /\ Jtor.eqBz E i j = bz (R_1D e i) (Z_1D e j).
