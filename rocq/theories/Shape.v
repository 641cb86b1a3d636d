(** Model of the shape diagnostics of freegs/equilibrium.py (769-983).

    Every one of them first calls self.separatrix(npoints), an array of points, and then works on
    that array: they are functions of the list of points here, and [shape_of] makes the call.
    numpy's max, min, argmax and argmin raise ValueError on an empty array.  Division by a
    minor radius of zero (a warning and inf or nan in numpy) is division of the numbers used. *)
From Coq Require Import List Arith ZArith.
From Verif Require Import Py Num Numpy Critical Equilibrium.
Import ListNotations.
Local Open Scope num_scope.

Section Shape.
  Context {T : Type} `{Num T}.
  Local Notation "'let*' x := e 'in' k" := (bind e (fun x => k))
    (at level 200, x pattern, e at level 100, k at level 200, right associativity).

  (** numpy.max, numpy.min *)
  Definition amax_of (l : list T) : result T := match l with [] => Raise ValueError | x :: l' => Ok (fold_left nmax l' x) end.
  Definition amin_of (l : list T) : result T := match l with [] => Raise ValueError | x :: l' => Ok (fold_left nmin l' x) end.
  (** numpy.argmin; argmax is in Equilibrium.v *)
  Fixpoint argmin_from (l : list T) (i best : nat) (v : T) : nat :=
    match l with
    | [] => best
    | x :: l' => if x <? v then argmin_from l' (S i) i x else argmin_from l' (S i) best v
    end.
  Definition argmin_of (l : list T) : option nat :=
    match l with [] => None | x :: l' => Some (argmin_from l' 1 0 x) end.

  Definition Rlcfs (s : list (T * T)) : list T := map fst s.
  Definition Zlcfs (s : list (T * T)) : list T := map snd s.
  Definition half : T := nlit 5%Z 10%Z.

  (** geometricAxis (769-795) *)
  Definition geometricAxis (s : list (T * T)) : result (T * T) :=
    match argmax (Rlcfs s), argmin_of (Rlcfs s) with
    | Some i1, Some i3 =>
        let p1 := nth i1 s (n0, n0) in
        let p3 := nth i3 s (n0, n0) in
        Ok (fst p3 + half * (fst p1 - fst p3), half * (snd p1 + snd p3))
    | _, _ => Raise ValueError
    end.
  (** Rgeometric, Zgeometric (797-803) *)
  Definition Rgeometric (s : list (T * T)) : result T := let* c := geometricAxis s in Ok (fst c).
  Definition Zgeometric (s : list (T * T)) : result T := let* c := geometricAxis s in Ok (snd c).
  (** minorRadius (805-821) *)
  Definition minorRadius (s : list (T * T)) : result T :=
    let* a := amax_of (Rlcfs s) in
    let* b := amin_of (Rlcfs s) in
    Ok (half * (a - b)).
  (** aspectRatio (823-828), inverseAspectRatio (830-836) *)
  Definition aspectRatio (s : list (T * T)) : result T :=
    let* r := Rgeometric s in let* a := minorRadius s in Ok (r / a).
  Definition inverseAspectRatio (s : list (T * T)) : result T :=
    let* a := minorRadius s in let* r := Rgeometric s in Ok (a / r).
  (** elongation (838-859) *)
  Definition elongation (s : list (T * T)) : result T :=
    let* z2 := amax_of (Zlcfs s) in
    let* z4 := amin_of (Zlcfs s) in
    let* a := minorRadius s in
    Ok (half * (z2 - z4) / a).
  (** elongationUpper (861-881), elongationLower (883-903) *)
  Definition elongationUpper (s : list (T * T)) : result T :=
    let* z2 := amax_of (Zlcfs s) in
    let* z0 := Zgeometric s in
    let* a := minorRadius s in
    Ok ((z2 - z0) / a).
  Definition elongationLower (s : list (T * T)) : result T :=
    let* z4 := amin_of (Zlcfs s) in
    let* z0 := Zgeometric s in
    let* a := minorRadius s in
    Ok ((z0 - z4) / a).
  (** effectiveElongation (905-913), given the plasma volume *)
  Definition effectiveElongation (pi volume : T) (s : list (T * T)) : result T :=
    let* r := Rgeometric s in
    let* a := minorRadius s in
    Ok (volume / (n2 * pi * r * pi * nsqr a)).
  (** triangularityUpper (915-934), triangularityLower (936-955), triangularity (957-967) *)
  Definition triangularityUpper (s : list (T * T)) : result T :=
    match argmax (Zlcfs s) with
    | None => Raise ValueError
    | Some i =>
        let r2 := nth i (Rlcfs s) n0 in
        let* r0 := Rgeometric s in
        let* a := minorRadius s in
        Ok ((r0 - r2) / a)
    end.
  Definition triangularityLower (s : list (T * T)) : result T :=
    match argmin_of (Zlcfs s) with
    | None => Raise ValueError
    | Some i =>
        let r4 := nth i (Rlcfs s) n0 in
        let* r0 := Rgeometric s in
        let* a := minorRadius s in
        Ok ((r0 - r4) / a)
    end.
  Definition triangularity (s : list (T * T)) : result T :=
    let* u := triangularityUpper s in
    let* l := triangularityLower s in
    Ok (half * (u + l)).
  (** shafranovShift (969-983), given the magnetic axis; the points are always those of
      separatrix(360): the argument npoints is not used *)
  Definition shafranovShift (axis : T * T) (s : list (T * T)) : result (T * T) :=
    let* r := Rgeometric s in
    let* z := Zgeometric s in
    Ok (fst axis - r, snd axis - z).
End Shape.
