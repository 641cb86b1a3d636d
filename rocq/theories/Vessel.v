(** Model of Equilibrium.intersectsWall (equilibrium.py 747-754) and optimise.no_wall_intersection
    (optimise.py 48-52). *)
From Coq Require Import List Bool.
From Verif Require Import Py Num Numpy Sensors Critical Polygons Equilibrium Geqdsk.
Import ListNotations.

Section Vessel.
  Context {T : Type} `{Num T}.
  Context {P Ctl : Type}.
  Local Notation "'let*' x := e 'in' k" := (bind e (fun x => k))
    (at level 200, x pattern, e at level 100, k at level 200, right associativity).
  Variable spline : nat -> nat -> (nat -> T) -> (nat -> T) -> arr2 T -> sfun T.
  Variables (pi : T) (sin cos : T -> T) (arctan2 : T -> T -> T).

  (** intersectsWall; [m] is eq.tokamak.  The separatrix has 360 points; None has no member R. *)
  Definition intersectsWall (m : gmachine T) (e : equilibrium T P Ctl) : result bool :=
    let* sep := separatrix spline pi sin cos arctan2 e 360 in
    match v_wall (gm_vessel m) with
    | None => Raise AttributeError
    | Some w => intersect (map fst sep) (map snd sep) (map fst w) (map snd w) true true
    end.
  (** no_wall_intersection; [None] is float("inf"), as in [Measures] *)
  Definition no_wall_intersection (m : gmachine T) (e : equilibrium T P Ctl) : result (option T) :=
    let* b := intersectsWall m e in
    Ok (if b : bool then None else Some n0).
End Vessel.
