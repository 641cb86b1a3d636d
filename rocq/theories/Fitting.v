(** Model of the fits of control.py to a flux array as they act on an Equilibrium object:
    __call__ and the residual functions of ConstrainPsi2D (237-263), ConstrainPsiNorm2D (285-321),
    ConstrainPsi2DAdvanced (360-419) and ConstrainPsiNorm2DAdvanced (458-520).  The arithmetic of
    the residuals is in [Control].

    scipy.optimize.leastsq and minimize call the residual function with currents of their
    choosing; each call changes the machine and, for some classes, the boundary attributes of the
    equilibrium.  eq._constraints (only used by other parts of a user's program) is not modelled. *)
From Coq Require Import String List Arith ZArith Bool.
From Verif Require Import Py Num Numpy Coils Machine Critical Boundary Equilibrium Control.
Import ListNotations.
Local Open Scope num_scope.

(** An optimiser: it stops with currents or tries others, depending on the values it is told. *)
Inductive search (T A : Type) : Type := Stop (x : list T) | Try (x : list T) (next : A -> search T A).
Arguments Stop {T A}.
Arguments Try {T A}.

Section Fitting.
  Context {T : Type} `{Num T} {P Ctl : Type}.
  Variable spline : nat -> nat -> (nat -> T) -> (nat -> T) -> arr2 T -> sfun T.
  Local Notation equilibrium := (equilibrium T P Ctl).
  Local Notation "'let*' x := e 'in' k" := (bind e (fun x => k))
    (at level 200, x pattern, e at level 100, k at level 200, right associativity).

  (** eq.getMachine().setControlCurrents(x) *)
  Definition set_currents (e : equilibrium) (x : list T) : equilibrium :=
    with_tok e (mktok (setControlCurrents (coils (tok e)) x) (wall (tok e)) (limits (tok e))).
  (** the values of an array of the shape of the grid, row by row *)
  Definition values (e : equilibrium) (a : arr2 T) : list T :=
    flat_map (fun i => map (a i) (seq 0 (e_ny e))) (seq 0 (e_nx e)).

  Section Run.
    Context {A : Type}.
    Variable residual : equilibrium -> list T -> result (equilibrium * A).
    Fixpoint run (s : search T A) (e : equilibrium) : result (equilibrium * list T) :=
      match s with
      | Stop x => Ok (e, x)
      | Try x next => let* (e, v) := residual e x in run (next v) e
      end.
    (** start_currents, the optimisation, setControlCurrents(end_currents) (242-249, 290-297,
        365-399, 463-496); [optimiser] is given the start *)
    Definition fit (optimiser : list T -> result (search T A)) (e : equilibrium) : result equilibrium :=
      let* s := optimiser (controlCurrents (coils (tok e))) in
      let* (e, x) := run s e in
      Ok (set_currents e x).
  End Run.

  (** psi = eq.psi() after setControlCurrents(currents) *)
  Definition trial_psi (e : equilibrium) (x : list T) : result (equilibrium * arr2 T) :=
    let e := set_currents e x in
    let* psi := total_psi e in Ok (e, psi).
  (** eq._updateBoundaryPsi(psi) *)
  Definition update_trial (e : equilibrium) (psi : arr2 T) : result equilibrium :=
    let* b := update_boundary spline e (e_nx e) (e_ny e) psi in Ok (with_bs e b).
  (** psi_bndry = eq.psi_bndry; psi_axis = eq.psi_axis; their difference *)
  Definition trial_bounds (e : equilibrium) : result (T * T) :=
    match psi_axis (bs e), psi_bndry (bs e) with
    | Some pa, Some (Some pb) => Ok (pa, pb)
    | Some _, Some None => Raise TypeError
    | _, _ => Raise AttributeError
    end.

  (** ConstrainPsi2D.psi_difference (253-263) *)
  Definition residual_psi (cp : list T * weights T) (e : equilibrium) (x : list T) : result (equilibrium * list T) :=
    let* (e, psi) := trial_psi e x in
    let* d := psi_difference cp (values e psi) in Ok (e, d).
  (** ConstrainPsiNorm2D.psinorm_difference (302-321) *)
  Definition residual_norm (target : list T) (w : weights T) (e : equilibrium) (x : list T) : result (equilibrium * list T) :=
    let* (e, psi) := trial_psi e x in
    let* e := update_trial e psi in
    let* (pa, pb) := trial_bounds e in
    let* d := psinorm_difference target w pa pb (values e psi) in Ok (e, d).
  (** ConstrainPsi2DAdvanced.psi_difference (404-419) *)
  Definition residual_adv (a : advanced T) (e : equilibrium) (x : list T) : result (equilibrium * T) :=
    let* (e, psi) := trial_psi e x in
    let* e := update_trial e psi in
    let* d := adv_difference a (values e psi) in Ok (e, d).
  (** ConstrainPsiNorm2DAdvanced.psinorm_difference (500-520) *)
  Definition residual_advnorm (a : advanced T) (e : equilibrium) (x : list T) : result (equilibrium * T) :=
    let* (e, psi) := trial_psi e x in
    let* e := update_trial e psi in
    let* (pa, pb) := trial_bounds e in
    let* d := advnorm_difference a pa pb (values e psi) in Ok (e, d).

  (** optimize.leastsq *)
  Variable leastsq : list T -> search T (list T).
  Definition fit_psi (cp : list T * weights T) : equilibrium -> result equilibrium :=
    fit (residual_psi cp) (fun x => Ok (leastsq x)).
  Definition fit_norm (target : list T) (w : weights T) : equilibrium -> result equilibrium :=
    fit (residual_norm target w) (fun x => Ok (leastsq x)).
  (** the Advanced classes start inside the bounds (365-390, 463-488); optimize.minimize(...,
      method="L-BFGS-B", bounds=current_bnds) *)
  Variable lbfgsb : list T -> list (option T * option T) -> search T T.
  Definition bounded (lims : option (list (T * T))) (sc : list T) : result (search T T) :=
    let* start := adv_start lims 0 sc in
    let* bnds := adv_bounds lims (length sc) in
    Ok (lbfgsb start bnds).
  Definition fit_adv (a : advanced T) : equilibrium -> result equilibrium :=
    fit (residual_adv a) (bounded (adv_lims a)).
  Definition fit_advnorm (a : advanced T) : equilibrium -> result equilibrium :=
    fit (residual_advnorm a) (bounded (adv_lims a)).
End Fitting.
