(** What the boundary conditions are supposed to do, independently of the model. *)
From Coq Require Import List Arith Reals.
From Coquelicot Require Import Coquelicot.
From Verif Require Import Py Num Numpy Romb.
Local Open Scope R_scope.

(** a grid point on the edge of the domain *)
Definition on_edge (nx ny x y : nat) : Prop :=
  (x < nx)%nat /\ (y < ny)%nat /\ (x = 0 \/ S x = nx \/ y = 0 \/ S y = ny)%nat.
(** a grid point which is not on the edge *)
Definition inside (nx ny x y : nat) : Prop := (0 < x)%nat /\ (S x < nx)%nat /\ (0 < y)%nat /\ (S y < ny)%nat.
(** sizes for which there is a Romberg rule *)
Definition dyadic (n : nat) : Prop := exists k, n = S (2 ^ k).
(** the integral over the grid with spacings [hR] and [hZ], by the Romberg rule *)
Definition area_integral (nx ny : nat) (hR hZ : R) (a : nat -> nat -> R) (v : R) : Prop :=
  exists s, romb2 nx ny a = Ok s /\ v = s * hR * hZ.
(** the integral along an edge with [n] points and spacing [h] *)
Definition edge_integral (n : nat) (h : R) (a : nat -> R) (v : R) : Prop :=
  exists s, romb n a 1 = Ok s /\ v = s * h.
(** flux at the grid point (x,y) of the current density [J] of all other grid points *)
Definition plasma_flux_at (greens : R -> R -> R -> R -> R) (nx ny : nat) (gR gZ J : nat -> nat -> R) (x y : nat) (v : R) : Prop :=
  area_integral nx ny (gR 1%nat 0%nat - gR 0%nat 0%nat) (gZ 0%nat 1%nat - gZ 0%nat 0%nat)
    (fun i j => (if (i =? x)%nat && (j =? y)%nat then 0 else greens (gR i j) (gZ i j) (gR x y) (gZ x y)) * J i j)%bool v.
(** minus the one-sided derivative, fourth order, from the values g 0, g 1, ... at distance h *)
Definition minus_slope (g : nat -> R) (h : R) : R :=
  (25 / 12 * g 0%nat - 4 * g 1%nat + 3 * g 2%nat - 4 / 3 * g 3%nat + 1 / 4 * g 4%nat) / h.
(** outward derivative of [u] at an edge point: along the normal, at the corners along the diagonal *)
Definition outward (nx ny : nat) (hR hZ : R) (u : nat -> nat -> R) (x y : nat) : R :=
  let dx := (if x =? 0 then 1 else if S x =? nx then 2 else 0)%nat in
  let dy := (if y =? 0 then 1 else if S y =? ny then 2 else 0)%nat in
  let mv d t k := (match d with 1 => t + k | 2 => t - k | _ => t end)%nat in
  minus_slope (fun k => u (mv dx x k) (mv dy y k))
    (match dx, dy with 0%nat, _ => hZ | _, 0%nat => hR | _, _ => sqrt (hR ^ 2 + hZ ^ 2) end).
(** [v] is the integral of G/R dU/dn over the four edges for an observer at (r, z) *)
Definition contour_flux (greens : R -> R -> R -> R -> R) (nx ny : nat) (gR gZ u : nat -> nat -> R) (r z v : R) : Prop :=
  let hR := gR 1%nat 0%nat - gR 0%nat 0%nat in let hZ := gZ 0%nat 1%nat - gZ 0%nat 0%nat in
  let d x y := greens (gR x y) (gZ x y) r z * outward nx ny hR hZ u x y / gR x y in
  exists l ri lo up, edge_integral ny hZ (fun y => d 0%nat y) l /\ edge_integral ny hZ (fun y => d (nx - 1)%nat y) ri /\
    edge_integral nx hR (fun x => d x 0%nat) lo /\ edge_integral nx hR (fun x => d x (ny - 1)%nat) up /\
    v = l + ri + lo + up.
(** the observer of an edge point, moved outwards by 1 cm (at the corners in R) *)
Definition observer (nx ny : nat) (gR gZ : nat -> nat -> R) (x y : nat) : R * R :=
  (gR x y + (if (S x =? nx)%nat then 1 / 100 else if (x =? 0)%nat then - (1 / 100) else 0),
   gZ x y + (if ((S x =? nx) || (x =? 0))%nat%bool then 0 else if (S y =? ny)%nat then 1 / 100 else - (1 / 100))).
(** right hand side R Jtor with zero edges *)
Definition current_source (nx ny : nat) (gR J s : nat -> nat -> R) : Prop :=
  forall x y, (inside nx ny x y -> s x y = gR x y * J x y) /\ (on_edge nx ny x y -> s x y = 0).
