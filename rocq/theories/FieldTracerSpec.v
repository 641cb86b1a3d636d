(** Vocabulary for the field line properties: segments, convex walls, vectors. *)
From Coq Require Import Reals List Arith Lra.
Import ListNotations.
Local Open Scope R_scope.

(** z component of the cross product *)
Definition cross (u v : R * R) : R := fst u * snd v - snd u * fst v.
Definition minus (p q : R * R) : R * R := (fst p - fst q, snd p - snd q).
(** the point at parameter t of the segment from p to q *)
Definition along (p q : R * R) (t : R) : R * R := (fst p + t * (fst q - fst p), snd p + t * (snd q - snd p)).
(** two segments meet in a point that is an end of neither *)
Definition meet (p q a b : R * R) : Prop := exists s t, 0 < s < 1 /\ 0 < t < 1 /\ along p q s = along a b t.

(** edges of a closed polygon *)
Definition vertex (w : list (R * R)) (i : nat) : R * R := nth i w (0, 0).
Definition next (w : list (R * R)) (i : nat) : nat := (i + 1) mod length w.
(** positive to the left of the edge i, negative to its right *)
Definition side (w : list (R * R)) (i : nat) (p : R * R) : R := cross (minus (vertex w (next w i)) (vertex w i)) (minus p (vertex w i)).
(** counterclockwise, without three vertices on a line *)
Definition strictly_convex (w : list (R * R)) : Prop :=
  (3 <= length w)%nat /\
  forall i k, (i < length w)%nat -> (k < length w)%nat -> k <> i -> k <> next w i -> 0 < side w i (vertex w k).
Definition inside (w : list (R * R)) (p : R * R) : Prop := forall i, (i < length w)%nat -> 0 < side w i p.
Definition beyond (w : list (R * R)) (p : R * R) : Prop := exists i, (i < length w)%nat /\ side w i p < 0.

(** an odd number of the naturals below n has the property *)
Definition odd_number (n : nat) (P : nat -> Prop) : Prop :=
  exists l, NoDup l /\ (forall i, In i l <-> (i < n)%nat /\ P i) /\ Nat.odd (length l) = true.

(** the vector with components (dR, dZ) and R along the toroidal direction is parallel to the field *)
Definition along_field (r br bz bt dR dZ : R) : Prop := dR * bt = r * br /\ dZ * bt = r * bz /\ dR * bz = dZ * br.
