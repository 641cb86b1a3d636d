(** Plane geometry used to state the properties of polygons.py and quadrature.py.
    Nothing here refers to the model. *)
From Coq Require Import List Arith Reals QArith Bool.
From Verif Require Import Num.
Import ListNotations.
Local Open Scope R_scope.

(** Vertex [i] of a closed polygon (indices wrap around). *)
Definition vertex (p : list (R * R)) (i : nat) : R * R := nth (i mod length p) p (0, 0).

(** Shoelace formulas for signed area (positive when clockwise) and first moments. *)
Definition shoelace (p : list (R * R)) : R :=
  / 2 * nsum (length p) (fun i =>
    let (r1, z1) := vertex p i in let (r2, z2) := vertex p (i + 1) in r2 * z1 - r1 * z2).
Definition centroid_r (p : list (R * R)) : R :=
  / 6 * nsum (length p) (fun i =>
    let (r1, z1) := vertex p i in let (r2, z2) := vertex p (i + 1) in (r1 + r2) * (r2 * z1 - r1 * z2)) / shoelace p.
Definition centroid_z (p : list (R * R)) : R :=
  / 6 * nsum (length p) (fun i =>
    let (r1, z1) := vertex p i in let (r2, z2) := vertex p (i + 1) in (z1 + z2) * (r2 * z1 - r1 * z2)) / shoelace p.

(** Twice the signed area of a triangle, positive when a, b, c turn clockwise. *)
Definition orient (a b c : R * R) : R :=
  (snd b - snd a) * (fst c - fst b) - (fst b - fst a) * (snd c - snd b).

(** A convex polygon listed clockwise: any three vertices in list order turn clockwise. *)
Definition convex_cw (p : list (R * R)) : Prop :=
  forall i j k, (i < j)%nat -> (j < k)%nat -> (k < length p)%nat ->
    0 <= orient (nth i p (0, 0)) (nth j p (0, 0)) (nth k p (0, 0)).

(** Two segments cross at an interior point of both. *)
Definition segments_cross (p q r s : R * R) : Prop :=
  exists alpha beta, 0 < alpha < 1 /\ 0 < beta < 1 /\
    fst p + alpha * (fst q - fst p) = fst r + beta * (fst s - fst r) /\
    snd p + alpha * (snd q - snd p) = snd r + beta * (snd s - snd r).
(** Cross product of the directions of two segments. *)
Definition dir_cross (p q r s : R * R) : R :=
  (fst q - fst p) * (snd s - snd r) - (fst s - fst r) * (snd q - snd p).

(** Decidable simplicity of a polygon with rational vertices: consecutive edges are not
    parallel, and for every two other edges one has both ends strictly on one side of the
    line through the other. *)
Definition orientQ (a b c : Q * Q) : Q :=
  ((snd b - snd a) * (fst c - fst b) - (fst b - fst a) * (snd c - snd b))%Q.
Definition same_sideQ (a b c d : Q * Q) : bool := negb (Qle_bool (orientQ a b c * orientQ a b d) 0).
Definition vertexQ (p : list (Q * Q)) (i : nat) : Q * Q := nth (i mod length p) p (0%Q, 0%Q).
Definition simple_polygonQ (p : list (Q * Q)) : bool :=
  let n := length p in
  forallb (fun i =>
    negb (Qeq_bool (orientQ (vertexQ p i) (vertexQ p (i + 1)) (vertexQ p (i + 2))) 0) &&
    forallb (fun k =>
      let j := (i + k)%nat in
      same_sideQ (vertexQ p i) (vertexQ p (i + 1)) (vertexQ p j) (vertexQ p (j + 1))
      || same_sideQ (vertexQ p j) (vertexQ p (j + 1)) (vertexQ p i) (vertexQ p (i + 1)))
    (seq 2 (n - 3))) (seq 0 n).
