(** Model of the end of geqdsk.read (420-534): linear solve, fit of the coil currents, Picard
    iteration, and the control system stored in the equilibrium.  The beginning is [read_setup] of
    [Geqdsk].  Printing (in particular eq.pressure(0.0), line 514) and plotting are not modelled. *)
From Coq Require Import String List Arith ZArith Bool.
From Verif Require Import Py Num Numpy Coils Machine Critical Boundary Jtor Equilibrium Control Fitting Picard Geqdsk.
Import ListNotations.
Local Open Scope num_scope.

Section GeqdskFit.
  Context {T : Type} `{Num T} {P Ctl : Type}.
  Local Notation "'let*' x := e 'in' k" := (bind e (fun x => k))
    (at level 200, x pattern, e at level 100, k at level 200, right associativity).
  Variable G : field -> T -> T -> T -> T -> T.
  Variables (sqrt : T -> T) (mu0 : T).
  Variable lu : nat -> arr2 T -> (nat -> T) -> (nat -> T).
  Variable spline : nat -> nat -> (nat -> T) -> (nat -> T) -> arr2 T -> sfun T.
  Variables (pi : T) (sin cos : T -> T) (arctan2 : T -> T -> T).
  Local Notation equilibrium := (equilibrium T P Ctl).
  Variable Jtor_call : P -> equilibrium -> arr2 T -> option T -> result (arr2 T * P * bstate T).
  Variable inj : @fprofile T -> P.
  Variable leastsq : list T -> search T (list T).
  Variable lbfgsb : list T -> list (option T * option T) -> search T T.
  (** control.constrain(xpoints=..., isoflux=..., gamma=...) *)
  Variable constrain : list (point T) -> list (T * T * (T * T)) -> T -> Ctl.

  (** a residual whose last step multiplies an array by weights = None *)
  Definition residual_none {A} (bounds : bool) (e : equilibrium) (x : list T) : result (equilibrium * A) :=
    let* (e, psi) := trial_psi e x in
    let* e := update_trial spline e psi in
    if bounds then let* _ := trial_bounds e in Raise TypeError else Raise TypeError.

  (** the first control system and its call (457-477).  Without fit_sol weights=mask, which
      may be None. *)
  Definition first_fit (psi : arr2 T) (mask : option (arr2 T)) (fit_sol : bool) (bounds : option (list (T * T))) (e : equilibrium) : result equilibrium :=
    let target := values e psi in
    let w := if fit_sol then None else option_map (fun m => WArray (values e m)) mask in
    match bounds with
    | None => let* cp := ConstrainPsi2D target w in fit_psi leastsq cp e
    | Some lims =>
        match fit_sol, mask with
        | false, None => fit (residual_none false) (bounded lbfgsb (Some lims)) e
        | _, _ => fit_adv spline lbfgsb (ConstrainPsi2DAdvanced target w (Some lims) None) e
        end
    end.
  (** the control system used by picard.solve (491-498) *)
  Definition second_fit (psi_norm : arr2 T) (mask : option (arr2 T)) (bounds : option (list (T * T))) (e : equilibrium) : result equilibrium :=
    let target := values e psi_norm in
    match mask, bounds with
    | Some m, None => fit_norm spline leastsq target (WArray (values e m)) e
    | Some m, Some lims => fit_advnorm spline lbfgsb (mkadv target (WArray (values e m)) (Some lims)) e
    | None, None => fit (residual_none true) (fun x => Ok (leastsq x)) e
    | None, Some lims => fit (residual_none true) (bounded lbfgsb (Some lims)) e
    end.
  (** the arguments of picard.solve (495, 499-510); the others have their defaults *)
  Definition read_options (rtol blend : T) (maxits : option Z) (bounds : option (list (T * T))) : @options T :=
    mkopts rtol (nlit 1 10000000000) blend None (match bounds with Some _ => Some 1000%Z | None => maxits end) true false 0%Z.
  (** a fit as the argument constrain of picard.solve; a failing one leaves the state as it was (a
      simplification) *)
  Definition as_constrain (f : equilibrium -> result equilibrium) : equilibrium * P -> (equilibrium * P) * result unit :=
    fun s => match f (fst s) with Ok e => ((e, snd s), Ok tt) | Raise x => (s, Raise x) end.

  (** lines 518-532 *)
  Definition set_control_system (e : equilibrium) (ntheta : nat) : result equilibrium :=
    let* psi := total_psi e in
    let* (opoint, xpoint) := eq_find_critical spline e (e_nx e) (e_ny e) psi in
    match xpoint with
    | [] => Ok e
    | x :: _ =>
        match opoint with
        | [] => Raise IndexError
        | o :: _ =>
            match Equilibrium.psi_bndry (bs e) with
            | None => Raise AttributeError
            | Some None => Raise TypeError
            | Some (Some pb) =>
                let* f := eq_spline spline e (e_nx e) (e_ny e) (fun i j => (psi i j - pPsi o) / (pb - pPsi o)) in
                let* iso := find_separatrix pi sin cos arctan2 (Rmin e) (Rmax e) (Zmin e) (Zmax e) (f 0%nat 0%nat) opoint xpoint ntheta n1 in
                Ok (with_profiles e (profiles e)
                     (Some (constrain xpoint (map (fun p => (p, (pR x, pZ x))) iso) (nlit 1 100000000000000))))
            end
        end
    end.

  (** lines 420-534, after [read_setup]; [fuel] bounds the Picard iteration *)
  Definition read_finish (r : rstate T P Ctl) (fit_sol : bool) (bounds : option (list (T * T))) (rtol blend : T) (maxits : option Z)
    (ntheta fuel : nat) : result equilibrium :=
    let* e := read_solve G sqrt mu0 spline lu inj Jtor_call r in
    let* e := first_fit (r_psi r) (r_mask r) fit_sol bounds e in
    let refine := as_constrain (second_fit (r_psi_norm r) (r_mask r) bounds) in
    match picard (e_nx e) (e_ny e) (equilibrium * P) (eq_ops G sqrt mu0 lu spline Jtor_call (Some refine))
                 (read_options rtol blend maxits bounds) fuel (e, inj (r_profiles r)) with
    | (s, Ok _) => set_control_system (fst s) ntheta
    | (_, Raise x) => Raise x
    end.
End GeqdskFit.

(** plotting.plotConstraints (37-70): the points plotted as X-points.  A tuple with other than two
    values cannot be unpacked. *)
Definition plot_xpoints {T : Type} (xpoints : list (list T)) : result (list (T * T)) :=
  mapM (fun t => match t with [r; z] => Ok (r, z) | _ => Raise ValueError end) xpoints.
