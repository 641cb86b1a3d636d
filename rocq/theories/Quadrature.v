(** Model of freegs/quadrature.py. *)
From Coq Require Import List Arith ZArith Bool.
From Verif Require Import Py Num Numpy Polygons.
Import ListNotations.

Section Quadrature.
  Context {T : Type} `{Num T}.
  Open Scope num_scope.
  Local Notation "'let*' x := e 'in' k" := (bind e (fun x => k))
    (at level 200, x pattern, e at level 100, k at level 200).

  (** Quadrature points: ((r, z), weight). *)
  Local Notation qpoint := (T * T * T)%type.

  (** a decimal literal with 15 digits *)
  Definition dec15 (p : Z) : T := nlit p (10 ^ 15).

  (** triangle_quad (quadrature.py 31-76).  The unpacking of [triangle] raises when it does
      not have three points (assert, 43). *)
  Definition triangle_quad (triangle : list (T * T)) (n : nat) : result (list qpoint) :=
    match triangle with
    | [(r1, z1); (r2, z2); (r3, z3)] =>
        match n with
        | 1%nat => Ok [(((r1 + r2 + r3) / nofZ 3, (z1 + z2 + z3) / nofZ 3), n1)]
        | 3%nat => Ok
            [(((nofZ 4 * r1 + r2 + r3) / nofZ 6, (nofZ 4 * z1 + z2 + z3) / nofZ 6), nlit 1 3);
             (((r1 + nofZ 4 * r2 + r3) / nofZ 6, (z1 + nofZ 4 * z2 + z3) / nofZ 6), nlit 1 3);
             (((r1 + r2 + nofZ 4 * r3) / nofZ 6, (z1 + z2 + nofZ 4 * z3) / nofZ 6), nlit 1 3)]
        | 6%nat =>
            let a := dec15 816847572980459 in
            let b := nlit 1 2 * (n1 - a) in
            let c := dec15 108103018168070 in
            let d := nlit 1 2 * (n1 - c) in
            let w1 := dec15 109951743655322 in
            let w2 := dec15 223381589678011 in
            Ok
            [((a * r1 + b * r2 + b * r3, a * z1 + b * z2 + b * z3), w1);
             ((b * r1 + a * r2 + b * r3, b * z1 + a * z2 + b * z3), w1);
             ((b * r1 + b * r2 + a * r3, b * z1 + b * z2 + a * z3), w1);
             ((c * r1 + d * r2 + d * r3, c * z1 + d * z2 + d * z3), w2);
             ((d * r1 + c * r2 + d * r3, d * z1 + c * z2 + d * z3), w2);
             ((d * r1 + d * r2 + c * r3, d * z1 + d * z2 + c * z3), w2)]
        | _ => Raise ValueError
        end
    | _ => Raise AssertionError
    end.

  (** polygon_quad (quadrature.py 79-107) *)
  Definition polygon_quad (fuel : nat) (polygon : list (T * T)) (n : nat) : result (list qpoint) :=
    let* triangles := triangulate fuel polygon in
    let areas := map area triangles in
    let total_area := lsum areas in
    foldM (fun quadrature ta =>
      let '(triangle, area) := ta in
      let* points := triangle_quad triangle n in
      Ok (quadrature ++ map (fun p => (fst p, snd p * area / total_area)) points))
      (combine triangles areas) [].

  (** average (quadrature.py 110-114) *)
  Definition average (func : T -> T -> T) (quad : list qpoint) : T :=
    lsum (map (fun p => func (fst (fst p)) (snd (fst p)) * snd p) quad).
End Quadrature.
