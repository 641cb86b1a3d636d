(** Model of the flux queries of freegs/equilibrium.py: normalised flux at a point and position of
    the magnetic axis. *)
From Coq Require Import List Arith ZArith.
From Verif Require Import Py Num Numpy Coils Machine Critical Equilibrium Diagnostics.
Import ListNotations.
Local Open Scope num_scope.

Section FluxQueries.
  Context {T : Type} `{Num T} {P Ctl : Type}.
  Variables (G : field -> T -> T -> T -> T -> T)
            (spline : nat -> nat -> (nat -> T) -> (nat -> T) -> arr2 T -> sfun T).
  Local Notation equilibrium := (equilibrium T P Ctl).
  Local Notation "'let*' x := e 'in' k" := (bind e (fun x => k))
    (at level 200, x pattern, e at level 100, k at level 200, right associativity).

  (** psiNRZ (319-324) *)
  Definition psiNRZ (e : equilibrium) (R Z : T) : result T :=
    let* (pa, pb) := axis_and_bndry e in
    Ok ((psiRZ G spline e R Z - pa) / (pb - pa)).
  (** Rmagnetic, Zmagnetic (761-767) *)
  Definition Rmagnetic (e : equilibrium) : result T := let* o := magneticAxis spline e in Ok (pR o).
  Definition Zmagnetic (e : equilibrium) : result T := let* o := magneticAxis spline e in Ok (pZ o).
End FluxQueries.
