(** What the searches of critical.py are supposed to return, independently of the model. *)
From Coq Require Import List Arith Reals.
From Coquelicot Require Import Coquelicot.
Import ListNotations.
Local Open Scope R_scope.

(** [k] is the index of the point of a_0..a_(n-1) nearest to v (the first one if there are several) *)
Definition nearest_index (n : nat) (a : nat -> R) (v : R) (k : nat) : Prop :=
  (k < n)%nat /\ (forall i, (i < n)%nat -> Rabs (a k - v) <= Rabs (a i - v)) /\
  (forall i, (i < k)%nat -> Rabs (a k - v) < Rabs (a i - v)).
Definition nearest_cell (nx ny : nat) (gR gZ : nat -> nat -> R) (r z : R) (c : nat * nat) : Prop :=
  nearest_index nx (fun i => gR i 0%nat) r (fst c) /\ nearest_index ny (fun j => gZ 0%nat j) z (snd c).

Definition in_grid (nx ny : nat) (c : nat * nat) : Prop := (fst c < nx)%nat /\ (snd c < ny)%nat.
(** one step up, down, left or right *)
Definition adjacent (p q : nat * nat) : Prop :=
  (fst p = fst q /\ (snd p = S (snd q) \/ snd q = S (snd p))) \/
  (snd p = snd q /\ (fst p = S (fst q) \/ fst q = S (fst p))).
(** the 3x3 block around a cell *)
Definition around (c p : nat * nat) : Prop :=
  (fst p <= S (fst c))%nat /\ (fst c <= S (fst p))%nat /\ (snd p <= S (snd c))%nat /\ (snd c <= S (snd p))%nat.
(** [q] lies in the block around the cell nearest to one of the points [xs] *)
Definition near_xpoint (nx ny : nat) (gR gZ : nat -> nat -> R) (xs : list (R * R * R)) (q : nat * nat) : Prop :=
  exists x c, In x xs /\ nearest_cell nx ny gR gZ (fst (fst x)) (snd (fst x)) c /\ around c q.

(** connected to [s] through cells satisfying [ok] *)
Inductive connected (nx ny : nat) (ok : nat * nat -> Prop) (s : nat * nat) : nat * nat -> Prop :=
| conn_start : connected nx ny ok s s
| conn_step p q : connected nx ny ok s p -> adjacent p q -> in_grid nx ny q -> ok q -> connected nx ny ok s q.

(** [l'] is [l] with some elements left out *)
Inductive sublist {A} : list A -> list A -> Prop :=
| sub_nil : sublist [] []
| sub_keep a l l' : sublist l' l -> sublist (a :: l') (a :: l)
| sub_skip a l l' : sublist l' l -> sublist l' (a :: l).

Definition dist2 (p q : R * R * R) : R :=
  (fst (fst p) - fst (fst q)) ^ 2 + (snd (fst p) - snd (fst q)) ^ 2.

(** boundary flux used by core_mask: the given value, otherwise that of the first X-point *)
Definition bndry_of (xpoint : list (R * R * R)) (psi_bndry : option R) : option R :=
  match psi_bndry with Some pb => Some pb | None => match xpoint with [] => None | x :: _ => Some (snd x) end end.
Definition apart (p q : R * R * R) : Prop := 1 / 100000 <= dist2 p q.

(** ** Critical points.  [f a b] is the derivative of the flux, a times in R and b times in Z. *)
Definition search_radius2 (gR gZ : nat -> nat -> R) : R :=
  9 * ((gR 1%nat 0%nat - gR 0%nat 0%nat) ^ 2 + (gZ 0%nat 1%nat - gZ 0%nat 0%nat) ^ 2).
(** a point where the poloidal field of the spline (almost) vanishes, near the grid point (i,j) *)
Definition genuine_at (gR gZ : nat -> nat -> R) (f : nat -> nat -> R -> R -> R) (i j : nat) (p : R * R * R) : Prop :=
  let r := fst (fst p) in let z := snd (fst p) in
  snd p = f 0%nat 0%nat r z /\
  (- f 0%nat 1%nat r z / r) ^ 2 + (f 1%nat 0%nat r z / r) ^ 2 < 1 / 1000000 /\
  (r - gR i j) ^ 2 + (z - gZ i j) ^ 2 <= search_radius2 gR gZ.
(** at least two grid points away from the edge *)
Definition inner (nx ny i j : nat) : Prop := (2 <= i)%nat /\ (i + 2 < nx)%nat /\ (2 <= j)%nat /\ (j + 2 < ny)%nat.
Definition strict_local_min (g : nat -> nat -> R) (i j : nat) : Prop :=
  forall i' j', around (i, j) (i', j') -> (i', j') <> (i, j) -> g i j < g i' j'.
(** poloidal field squared at a grid point *)
Definition field2 (gR gZ : nat -> nat -> R) (f : nat -> nat -> R -> R -> R) (i j : nat) : R :=
  ((f 1%nat 0%nat (gR i j) (gZ i j)) ^ 2 + (f 0%nat 1%nat (gR i j) (gZ i j)) ^ 2) / (gR i j) ^ 2.
(** squared distance to the middle of the grid *)
Definition mid_dist (nx ny : nat) (gR gZ : nat -> nat -> R) (p : R * R * R) : R :=
  (fst (fst p) - (gR (nx - 1)%nat 0%nat + gR 0%nat 0%nat) / 2) ^ 2 + (snd (fst p) - (gZ 0%nat (ny - 1)%nat + gZ 0%nat 0%nat) / 2) ^ 2.
(** all the second differences that decide between O- and X-point: determinant of the matrix of
    second derivatives, from differences over two grid steps *)
Definition second_rr (gR psi : nat -> nat -> R) (i j : nat) : R :=
  (psi (i + 2)%nat j - 2 * psi i j + psi (i - 2)%nat j) / (2 * (gR 1%nat 0%nat - gR 0%nat 0%nat)) ^ 2.
Definition second_zz (gZ psi : nat -> nat -> R) (i j : nat) : R :=
  (psi i (j + 2)%nat - 2 * psi i j + psi i (j - 2)%nat) / (2 * (gZ 0%nat 1%nat - gZ 0%nat 0%nat)) ^ 2.
Definition second_rz (gR gZ psi : nat -> nat -> R) (i j : nat) : R :=
  (psi (i + 2)%nat (j + 2)%nat - psi (i + 2)%nat (j - 2)%nat - psi (i - 2)%nat (j + 2)%nat + psi (i - 2)%nat (j - 2)%nat)
  / (16 * ((gR 1%nat 0%nat - gR 0%nat 0%nat) * (gZ 0%nat 1%nat - gZ 0%nat 0%nat))).
Definition det2 (gR gZ psi : nat -> nat -> R) (i j : nat) : R :=
  second_rr gR psi i j * second_zz gZ psi i j - second_rz gR gZ psi i j ^ 2.

(** [f]'s higher entries are the partial derivatives of the lower ones *)
Definition partials (f : nat -> nat -> R -> R -> R) : Prop := forall a b r z, (a + b <= 1)%nat ->
    is_derive (fun x => f a b x z) r (f (S a) b r z) /\ is_derive (fun y => f a b r y) z (f a (S b) r z).

(** ** Flux surfaces *)
Definition tol : R := 1 / 1000000.
(** k-th of n equally spaced points from a to b *)
Definition sample (a b : R) (n k : nat) : R := a + INR k / INR (n - 1) * (b - a).
(** (r,z) lies between sample k-1 (not above [v]) and sample k (the first above [v]) of the
    segment, where the linear interpolation of [g] between them equals [v] *)
Definition crossing (g : R -> R -> R) (r0 z0 re ze v : R) (n : nat) (r z : R) : Prop :=
  exists k l, (1 <= k < n)%nat /\ 0 <= l <= 1 /\
    let rs := sample r0 re n in let zs := sample z0 ze n in
    v < g (rs k) (zs k) /\ (forall i, (i < k)%nat -> g (rs i) (zs i) <= v) /\
    r = (1 - l) * rs k + l * rs (k - 1)%nat /\ z = (1 - l) * zs k + l * zs (k - 1)%nat /\
    (1 - l) * g (rs k) (zs k) + l * g (rs (k - 1)%nat) (zs (k - 1)%nat) = v.
(** the last point of the ray in the domain *)
Definition ray_end (Rmin Rmax Zmin Zmax r0 z0 r1 z1 re ze : R) : Prop :=
  exists t, 0 <= t <= 1 /\ re = r0 + t * (r1 - r0) /\ ze = z0 + t * (z1 - z0) /\
    Rmin - tol <= re <= Rmax + tol /\ Zmin - tol <= ze <= Zmax + tol /\
    (tol < Rabs (r1 - r0) -> Rmin <= re <= Rmax) /\
    (t = 1 \/ re = Rmin \/ re = Rmax \/ ze = Zmin \/ ze = Zmax).
(** the angle of the vector (y, x) in (-pi, pi], as numpy.arctan2 *)
Definition atan2 (y x : R) : R :=
  if Rlt_dec 0 x then atan (y / x)
  else if Rlt_dec x 0 then (if Rle_dec 0 y then atan (y / x) + PI else atan (y / x) - PI)
  else if Rlt_dec 0 y then PI / 2 else if Rlt_dec y 0 then - (PI / 2) else 0.
(** flux along the line from the O-point [o] to the X-point [x], with the sign for which it
    starts below the X-point's *)
Definition line_flux (f : nat -> nat -> R -> R -> R) (o x : R * R * R) (k : nat) : R :=
  (if Rlt_dec (snd x) (snd o) then -1 else 1) *
  f 0%nat 0%nat (sample (fst (fst o)) (fst (fst x)) 50 k) (sample (snd (fst o)) (snd (fst x)) 50 k).
