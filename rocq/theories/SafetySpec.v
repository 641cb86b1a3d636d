(** Vocabulary for the statements about the safety factor and the toroidal flux. *)
From Coq Require Import List Arith Reals.
Import ListNotations.
Local Open Scope R_scope.

(** distance in the poloidal plane *)
Definition distance (a b : R * R) : R := sqrt ((fst a - fst b) ^ 2 + (snd a - snd b) ^ 2).
(** length of the path through the points of a list *)
Fixpoint path_length (l : list (R * R)) : R :=
  match l with
  | [] => 0
  | a :: l' => match l' with [] => 0 | b :: _ => distance a b + path_length l' end
  end.
(** length of the closed polygon *)
Definition polygon_length (l : list (R * R)) : R :=
  match l with [] => 0 | a :: _ => path_length (l ++ [a]) end.
(** n points on a circle, equally spaced in the angle *)
Definition circle (n : nat) (r0 z0 a t0 : R) : list (R * R) :=
  map (fun k => (r0 + a * sin (t0 + 2 * PI * INR k / INR n), z0 + a * cos (t0 + 2 * PI * INR k / INR n))) (seq 0 n).
(** strictly increasing list *)
Definition ascending (l : list R) : Prop := forall i j, (i < j)%nat -> (j < length l)%nat -> nth i l 0 < nth j l 0.
