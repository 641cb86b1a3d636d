(** Model of constrain.__call__ (freegs/control.py 69-194) acting on an Equilibrium: the rows are made from
    the plasma field of the equilibrium and from its machine, the currents are changed in the machine of the
    equilibrium and the constraint object is stored in it. *)
From Coq Require Import List Arith ZArith Bool.
From Verif Require Import Py Num Numpy Coils Machine Critical Control Equilibrium.
Local Open Scope num_scope.

Section ControlEq.
  Context {T : Type} `{Num T} {P : Type}.
  Local Notation eqm := (equilibrium T P (@constraints T)).
  Variable G : field -> T -> T -> T -> T -> T.
  Variable spline : nat -> nat -> (nat -> T) -> (nat -> T) -> arr2 T -> sfun T.
  Variable inv : nat -> arr2 T -> result (arr2 T).
  Variable slsqp : (list T -> T) -> list T -> list (option T * option T) -> list (list T -> T) -> result (list T).

  (** psi_func, plasmaBr, plasmaBz at a point (equilibrium.py 235-247, 313-317) *)
  Definition plasma_field (e : eqm) (f : field) (R Z : T) : T :=
    match f with
    | FPsi => psi_func spline e 0%nat 0%nat R Z
    | FBr => plasmaBr spline e R Z
    | FBz => plasmaBz spline e R Z
    end.
  (** The equilibrium with other currents in its coils (tokamak.controlAdjust) *)
  Definition with_coils (e : eqm) (M : machine T) : eqm :=
    with_tok e (mktok M (wall (tok e)) (limits (tok e))).
  (** constrain.__call__(eq) for a profile object as the second part of the state, see [Picard.eq_ops]. If it
      raises, the currents are not changed and the object is not stored; the evaluations of the field have
      been made. *)
  Definition constrain_eq (c : @constraints T) (s : eqm * P) : (eqm * P) * result unit :=
    let (e, p) := s in
    match constrain_call G (plasma_field e) inv slsqp c (coils (tok e)) with
    | Ok (M, _) => let e1 := with_coils e M in ((with_profiles e1 (profiles e1) (Some c), p), Ok tt)
    | Raise x => ((with_coils e (snd (build_rows G (plasma_field e) c (coils (tok e)))), p), Raise x)
    end.
End ControlEq.
