(** Model of Equilibrium.Bpol and Btot (equilibrium.py 261-267, 287-294).  [sqrt] is numpy.sqrt. *)
From Coq Require Import List Arith ZArith.
From Verif Require Import Py Num Numpy Coils Machine Critical Equilibrium Diagnostics.
Local Open Scope num_scope.

Section FieldStrength.
  Context {T : Type} `{Num T} {P Ctl : Type}.
  Variables (G : field -> T -> T -> T -> T -> T)
            (spline : nat -> nat -> (nat -> T) -> (nat -> T) -> arr2 T -> sfun T) (sqrt : T -> T).
  Variables (fpol : T -> T) (fvac : T).
  Local Notation equilibrium := (equilibrium T P Ctl).
  Local Notation "'let*' x := e 'in' k" := (bind e (fun x => k))
    (at level 200, x pattern, e at level 100, k at level 200, right associativity).

  (** Bpol (261-267) *)
  Definition Bpol (e : equilibrium) (R Z : T) : T :=
    let Br := eqBr G spline e R Z in
    let Bz := eqBz G spline e R Z in
    sqrt (Br * Br + Bz * Bz).
  (** Btot (287-294) *)
  Definition Btot (e : equilibrium) (R Z : T) : result T :=
    let Br := eqBr G spline e R Z in
    let Bz := eqBz G spline e R Z in
    let* Bt := Btor G spline fpol fvac e R Z in
    Ok (sqrt (Br * Br + Bz * Bz + Bt * Bt)).
End FieldStrength.
