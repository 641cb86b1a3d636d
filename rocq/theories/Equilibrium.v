(** Model of freegs/equilibrium.py: the Equilibrium object, its solver call, the search for the
    plasma boundary, and refine, coarsen, newDomain.

    An equilibrium is a value; methods that change the object return the new one.  An exception
    is a value too: what a half-finished call leaves in the object is not modelled.  Calling a
    coil field has the effect of writing the circuit currents into the coils of the circuits
    (machine.py 99-103); that effect is not followed here ([Machine] is about it). *)
From Coq Require Import String List Arith ZArith Bool.
From Verif Require Import Py Num Numpy GradShafranov Multigrid Coils Machine Romb Critical Boundary Jtor.
Import ListNotations.
Local Open Scope num_scope.

Section Equilibrium.
  Context {T : Type} `{Num T}.
  (** The objects handed over by the user: profile objects and plasma control systems. *)
  Context {P Ctl : Type}.
  (** Green's functions of a filament (gradshafranov.py), numpy sqrt and exp, mu_0, the LU solve
      of scipy.sparse.linalg.factorized, and scipy's RectBivariateSpline on accepted data. *)
  Variable G : field -> T -> T -> T -> T -> T.
  Variables (sqrt exp : T -> T) (mu0 : T).
  Variable lu : nat -> arr2 T -> (nat -> T) -> (nat -> T).
  Variable spline : nat -> nat -> (nat -> T) -> (nat -> T) -> arr2 T -> sfun T.
  Local Notation "'let*' x := e 'in' k" := (bind e (fun x => k))
    (at level 200, x pattern, e at level 100, k at level 200, right associativity).

  (** interpolate.RectBivariateSpline(x, y, z) with len(x) = n, len(y) = m and z of shape
      (mx, my): x and y must increase strictly, the sizes must agree and be at least 4 (the
      splines are cubic); otherwise ValueError (scipy's "dfitpack.error" is one). *)
  Definition increasing (n : nat) (x : nat -> T) : bool :=
    forallb (fun i => x i <? x (S i)) (range 0 (n - 1)).
  Definition RectBivariateSpline (n m : nat) (x y : nat -> T) (mx my : nat) (z : arr2 T) : result (sfun T) :=
    if increasing n x && increasing m y && (n =? mx)%nat && (m =? my)%nat && (3 <? n)%nat && (3 <? m)%nat
    then Ok (spline n m x y z) else Raise ValueError.

  (** The parts of a Machine that matter here (machine.py 643-659): the coils, whether there is a
      wall, and the points on it (limit_points_R, limit_points_Z). *)
  Record tokamak := mktok { coils : @machine T; wall : bool; limits : list (T * T) }.
  (** The boundary functions of boundary.py, or a function of the user's (self, Jtor, psi) which
      returns the array psi as it leaves it. *)
  Inductive boundary := BFixed | BFree | BHagenow | BUser (f : arr2 T -> arr2 T -> result (arr2 T)).
  (** createVcycle object or a function of the user's: the array psi after the call and the
      value returned. *)
  Inductive esolver := SMatrix (s : @solver T) | SUser (f : arr2 T -> arr2 T -> result (arr2 T * arr2 T)).

  (** What _updateBoundaryPsi sets.  [None]: the attribute does not exist (yet).  [psi_bndry] and
      [mask] can exist and be Python's None.  mask_func is the spline of [mask]. *)
  Record bstate := mkb {
    psi_axis : option T; psi_bndry : option (option T); mask : option (option (arr2 T));
    psi_xpt : option T; psi_limit : option T; is_limited : bool; lim : option (T * T) }.

  (** The object.  psi_func is the spline of [plasma_psi] (see [psi_func]). *)
  Record equilibrium := mkeq {
    e_nx : nat; e_ny : nat; Rmin : T; Rmax : T; Zmin : T; Zmax : T;
    tok : tokamak; bnd : boundary; order : nat; slv : esolver; check_limited : bool;
    plasma_psi : arr2 T; pgreen : nat -> nat -> list (string * @greens_val T);
    current : T; jtor : option (arr2 T); bs : bstate;
    profiles : option P; control : option Ctl }.

  Definition with_bs (e : equilibrium) (b : bstate) : equilibrium :=
    mkeq (e_nx e) (e_ny e) (Rmin e) (Rmax e) (Zmin e) (Zmax e) (tok e) (bnd e) (order e) (slv e) (check_limited e)
         (plasma_psi e) (pgreen e) (current e) (jtor e) b (profiles e) (control e).
  Definition with_plasma (e : equilibrium) (p : arr2 T) : equilibrium :=
    mkeq (e_nx e) (e_ny e) (Rmin e) (Rmax e) (Zmin e) (Zmax e) (tok e) (bnd e) (order e) (slv e) (check_limited e)
         p (pgreen e) (current e) (jtor e) (bs e) (profiles e) (control e).
  Definition with_current (e : equilibrium) (I : T) (J : arr2 T) : equilibrium :=
    mkeq (e_nx e) (e_ny e) (Rmin e) (Rmax e) (Zmin e) (Zmax e) (tok e) (bnd e) (order e) (slv e) (check_limited e)
         (plasma_psi e) (pgreen e) I (Some J) (bs e) (profiles e) (control e).
  Definition with_profiles (e : equilibrium) (p : option P) (c : option Ctl) : equilibrium :=
    mkeq (e_nx e) (e_ny e) (Rmin e) (Rmax e) (Zmin e) (Zmax e) (tok e) (bnd e) (order e) (slv e) (check_limited e)
         (plasma_psi e) (pgreen e) (current e) (jtor e) (bs e) p c.
  Definition with_solver (e : equilibrium) (s : esolver) : equilibrium :=
    mkeq (e_nx e) (e_ny e) (Rmin e) (Rmax e) (Zmin e) (Zmax e) (tok e) (bnd e) (order e) s (check_limited e)
         (plasma_psi e) (pgreen e) (current e) (jtor e) (bs e) (profiles e) (control e).
  Definition with_check (e : equilibrium) (c : bool) : equilibrium :=
    mkeq (e_nx e) (e_ny e) (Rmin e) (Rmax e) (Zmin e) (Zmax e) (tok e) (bnd e) (order e) (slv e) c
         (plasma_psi e) (pgreen e) (current e) (jtor e) (bs e) (profiles e) (control e).
  Definition with_tok (e : equilibrium) (t : tokamak) : equilibrium :=
    mkeq (e_nx e) (e_ny e) (Rmin e) (Rmax e) (Zmin e) (Zmax e) t (bnd e) (order e) (slv e) (check_limited e)
         (plasma_psi e) (pgreen e) (current e) (jtor e) (bs e) (profiles e) (control e).

  (** R_1D, Z_1D, R, Z (107-109) *)
  Definition R_1D (e : equilibrium) : nat -> T := linspace (Rmin e) (Rmax e) (e_nx e).
  Definition Z_1D (e : equilibrium) : nat -> T := linspace (Zmin e) (Zmax e) (e_ny e).
  Definition grid_R (e : equilibrium) : arr2 T := fun i _ => R_1D e i.
  Definition grid_Z (e : equilibrium) : arr2 T := fun _ j => Z_1D e j.

  (** psi_func (643-645), made by _updatePlasmaPsi from the array just stored *)
  Definition eq_spline (e : equilibrium) (mx my : nat) (z : arr2 T) : result (sfun T) :=
    RectBivariateSpline (e_nx e) (e_ny e) (R_1D e) (Z_1D e) mx my z.
  Definition psi_func (e : equilibrium) : sfun T :=
    spline (e_nx e) (e_ny e) (R_1D e) (Z_1D e) (plasma_psi e).

  (** psi() (296-302).  Which exception calcPsiFromGreens raises, if any, depends only on the
      labels, which are the same at every point: it is looked for at point (0,0). *)
  Definition total_psi (e : equilibrium) : result (arr2 T) :=
    let* _ := eq_psi (plasma_psi e 0%nat 0%nat) (coils (tok e)) (pgreen e 0%nat 0%nat) in
    Ok (fun i j => match eq_psi (plasma_psi e i j) (coils (tok e)) (pgreen e i j) with
                   | Ok v => v | Raise _ => plasma_psi e i j end).
  (** plasmaBr, plasmaBz, Br, Bz (235-259) *)
  Definition plasmaBr (e : equilibrium) (R Z : T) : T := - psi_func e 0%nat 1%nat R Z / R.
  Definition plasmaBz (e : equilibrium) (R Z : T) : T := psi_func e 1%nat 0%nat R Z / R.
  Definition eqBr (e : equilibrium) (R Z : T) : T := plasmaBr e R Z + fst (machine_field G FBr (coils (tok e)) R Z).
  Definition eqBz (e : equilibrium) (R Z : T) : T := plasmaBz e R Z + fst (machine_field G FBz (coils (tok e)) R Z).
  (** psiRZ (313-317) *)
  Definition psiRZ (e : equilibrium) (R Z : T) : T := psi_func e 0%nat 0%nat R Z + fst (machine_field G FPsi (coils (tok e)) R Z).

  (** critical.find_critical(self.R, self.Z, psi) for an array of shape (mx, my); the spline is
      made first (critical.py 67) *)
  Definition eq_find_critical (e : equilibrium) (mx my : nat) (psi : arr2 T) : result (list (point T) * list (point T)) :=
    let* f := eq_spline e mx my psi in
    Critical.find_critical (e_nx e) (e_ny e) (grid_R e) (grid_Z e) psi f true.
  (** critical.core_mask(self.R, self.Z, psi, opt, xpt, psi_bndry) with the amount of fuel that
      is proved to be enough (C39) *)
  Definition eq_core_mask (e : equilibrium) (psi : arr2 T) (opt xpt : list (point T)) (pb : option T) : result (arr2 T) :=
    Critical.core_mask (6 * (e_nx e * e_ny e) + 4) (e_nx e) (e_ny e) (grid_R e) (grid_Z e) psi opt xpt pb.

  (** numpy.argmax: first index of the largest value *)
  Fixpoint argmax_from (l : list T) (i best : nat) (v : T) : nat :=
    match l with
    | [] => best
    | x :: l' => if v <? x then argmax_from l' (S i) i x else argmax_from l' (S i) best v
    end.
  Definition argmax (l : list T) : option nat :=
    match l with [] => None | x :: l' => Some (argmax_from l' 1 0 x) end.

  (** _updateBoundaryPsi after find_critical, lines 525-629.  [psi] has the shape of the grid. *)
  Definition update_from (e : equilibrium) (psi : arr2 T) (opt xpt : list (point T)) : result bstate :=
    let b := bs e in
    match opt with
    | [] => Ok b
    | o :: _ =>
        let pa := Some (pPsi o) in
        if check_limited e && wall (tok e) then
          let lims := match xpt with
                      | [] => limits (tok e)
                      | x :: _ => filter (fun p => nabs (snd p) <? nabs (nlit 75 100 * pZ x)) (limits (tok e))
                      end in
          (* line 567: psi.T, of shape (ny, nx), on the grid (nx, ny) *)
          let* psi_2d := eq_spline e (e_ny e) (e_nx e) (fun i j => psi j i) in
          let vals := map (fun p => psi_2d 0%nat 0%nat (fst p) (snd p)) lims in
          match argmax vals with
          | None => Raise ValueError
          | Some k =>
              let p := nth k lims (n0, n0) in
              let pl := nth k vals n0 in
              match xpt with
              | x :: _ =>
                  let px := pPsi x in
                  let pb := nmax px pl in
                  let* m := eq_core_mask e psi opt xpt (Some pb) in
                  let* _ := eq_spline e (e_nx e) (e_ny e) m in
                  Ok (mkb pa (Some (Some pb)) (Some (Some m)) (Some px) (Some pl) (pb =? pl) (Some p))
              | [] => Ok (mkb pa (Some (Some pl)) (Some None) (psi_xpt b) (Some pl) true (Some p))
              end
          end
        else
          match xpt with
          | x :: _ =>
              let* m := eq_core_mask e psi opt xpt None in
              let* _ := eq_spline e (e_nx e) (e_ny e) m in
              Ok (mkb pa (Some (Some (pPsi x))) (Some (Some m)) (Some (pPsi x)) (psi_limit b) false (lim b))
          | [] =>
              let pb := match bnd e with BFixed => Some (psi 0%nat 0%nat) | _ => None end in
              Ok (mkb pa (Some pb) (Some None) (psi_xpt b) (psi_limit b) false (lim b))
          end
    end.
  (** _updateBoundaryPsi(psi), 507-629, psi of shape (mx, my) *)
  Definition update_boundary (e : equilibrium) (mx my : nat) (psi : arr2 T) : result bstate :=
    let* (opt, xpt) := eq_find_critical e mx my psi in
    update_from e psi opt xpt.
  (** _updateBoundaryPsi() *)
  Definition update_own (e : equilibrium) : result equilibrium :=
    let* psi := total_psi e in
    let* b := update_boundary e (e_nx e) (e_ny e) psi in
    Ok (with_bs e b).
  (** _updatePlasmaPsi (631-648), with an array of shape (mx, my) *)
  Definition update_plasma (e : equilibrium) (mx my : nat) (p : arr2 T) : result equilibrium :=
    let* _ := eq_spline e mx my p in
    update_own (with_plasma e p).

  (** generators, 137-148 *)
  Definition generator_of (order : nat) (Rmin Rmax Zmin Zmax : T) : result (nat -> nat -> result (arr2 T)) :=
    if (order =? 2)%nat then Ok (GSsparse Rmin Rmax Zmin Zmax)
    else if (order =? 4)%nat then Ok (GSsparse4thOrder Rmin Rmax Zmin Zmax)
    else Raise ValueError.
  (** starting guess, 118-127 *)
  Definition starting_guess (nx ny : nat) : arr2 T := fun i j =>
    if (i =? 0)%nat || (j =? 0)%nat || (S i =? nx)%nat || (S j =? ny)%nat then n0
    else
      let xx := linspace n0 n1 nx i in
      let yy := linspace n0 n1 ny j in
      exp (- (nsqr (xx - nlit 1 2) + nsqr (yy - nlit 1 2)) / nsqr (nlit 4 10)).
  Definition no_boundary : bstate := mkb None None None None None false None.

  (** Equilibrium.__init__ (56-153); [psi] has the shape (nx, ny).  An empty grid or a single
      row or column is an IndexError at lines 111-112. *)
  Definition new_equilibrium (t : tokamak) (Rmin Rmax Zmin Zmax : T) (nx ny : nat) (b : boundary)
             (psi : option (arr2 T)) (current : T) (order : nat) (check : bool) : result equilibrium :=
    if ((nx <? 2) || (ny <? 2))%nat then Raise IndexError
    else
      let psi := match psi with None => starting_guess nx ny | Some p => p end in
      let pg := fun i j => createPsiGreens G (coils t) (linspace Rmin Rmax nx i) (linspace Zmin Zmax ny j) in
      let e := mkeq nx ny Rmin Rmax Zmin Zmax t b order (SUser (fun _ _ => Raise AttributeError)) check
                    psi pg current None no_boundary None None in
      let* e := update_plasma e nx ny psi in
      let* gen := generator_of order Rmin Rmax Zmin Zmax in
      let* s := createVcycle nx ny gen 1 1 2 true in
      Ok (with_solver e (SMatrix s)).
  (** setSolverVcycle (155-176): always the second order matrix *)
  Definition setSolverVcycle (e : equilibrium) (nlevels ncycle niter : nat) (direct : bool) : result equilibrium :=
    let* s := createVcycle (e_nx e) (e_ny e) (GSsparse (Rmin e) (Rmax e) (Zmin e) (Zmax e)) nlevels ncycle niter direct in
    Ok (with_solver e (SMatrix s)).
  (** setSolver (178-188) *)
  Definition setSolver (e : equilibrium) (s : esolver) : equilibrium := with_solver e s.
  (** callSolver (190-206): psi after the call, and the solution *)
  Definition callSolver (e : equilibrium) (psi rhs : arr2 T) : result (arr2 T * arr2 T) :=
    match slv e with
    | SMatrix s => solver_call lu s (e_nx e) (e_ny e) psi rhs
    | SUser f => f psi rhs
    end.
  (** self._applyBoundary(self, Jtor, self.plasma_psi): the array afterwards *)
  Definition applyBoundary (e : equilibrium) (J : arr2 T) : result (arr2 T) :=
    match bnd e with
    | BFixed => fixedBoundary (e_nx e) (e_ny e) (plasma_psi e)
    | BFree => freeBoundary (G FPsi) (e_nx e) (e_ny e) (grid_R e) (grid_Z e) J (plasma_psi e)
    | BHagenow => freeBoundaryHagenow (G FPsi) sqrt (e_nx e) (e_ny e) (callSolver e) (grid_R e) (grid_Z e) J (plasma_psi e)
    | BUser f => f J (plasma_psi e)
    end.
  (** The linear solve, lines 482-499 of solve and 1372-1387 of newDomain *)
  Definition linear_solve (e : equilibrium) (J : arr2 T) : result equilibrium :=
    let* p := applyBoundary e J in
    let* rhs := set_edges (e_nx e) (e_ny e) (fun i j => - mu0 * grid_R e i j * J i j) p in
    let* (_, x) := callSolver e p rhs in
    update_plasma e (e_nx e) (e_ny e) x.

  (** The profile object's Jtor(R, Z, psi, psi_bndry) called with the grid of [e]: the current
      density, the object afterwards and, since a profile may call eq._updateBoundaryPsi
      (jtor.py 183, 345), the boundary attributes of [e] afterwards. *)
  Variable Jtor_call : P -> equilibrium -> arr2 T -> option T -> result (arr2 T * P * bstate).

  (** solve (445-505) *)
  Definition solve (e : equilibrium) (p : P) (Jtor psi : option (arr2 T)) (pb : option T) : result equilibrium :=
    let e := with_profiles e (Some p) (control e) in
    let* e := update_own e in
    let* (J, e) := match Jtor with
      | Some J => Ok (J, e)
      | None =>
          let* psi := match psi with Some q => Ok q | None => total_psi e end in
          let* (J, p', b) := Jtor_call p e psi pb in
          Ok (J, with_profiles (with_bs e b) (Some p') (control e))
      end in
    let* e := linear_solve e J in
    let* Ip := romb2 (e_nx e) (e_ny e) J in
    let* dR := spacing_R (e_nx e) (e_ny e) (grid_R e) in
    let* dZ := spacing_Z (e_nx e) (e_ny e) (grid_Z e) in
    Ok (with_current e (Ip * dR * dZ) J).

  (** refine (1271-1310).  [if not nx]: None and 0 both mean the default. *)
  Definition size_or (o : option nat) (d : nat) : nat := match o with Some (S n) => S n | _ => d end.
  Definition refine (e : equilibrium) (nx ny : option nat) : result equilibrium :=
    let nx := size_or nx (2 * (e_nx e - 1) + 1) in
    let ny := size_or ny (2 * (e_ny e - 1) + 1) in
    let* r := new_equilibrium (tok e) (Rmin e) (Rmax e) (Zmin e) (Zmax e) nx ny (bnd e) None n0 (order e) false in
    let* r := update_plasma r nx ny (fun i j => psi_func e 0%nat 0%nat (R_1D r i) (Z_1D r j)) in
    Ok (with_profiles r (profiles e) (control e)).
  (** coarsen (1312-1338) *)
  Definition coarsen (e : equilibrium) : result equilibrium :=
    let '(p, nx, ny) := restrict (plasma_psi e) (e_nx e) (e_ny e) false in
    let* r := new_equilibrium (tok e) (Rmin e) (Rmax e) (Zmin e) (Zmax e) nx ny BFree None n0 4 false in
    let* r := update_plasma r nx ny p in
    Ok (with_profiles r (profiles e) (control e)).
  (** newDomain (1340-1392): the grid, then the solve.  Line 1357: the default for ny is
      eq.R.shape[0]. *)
  Definition or_default {A} (o : option A) (d : A) : A := match o with Some a => a | None => d end.
  Definition newDomain (e : equilibrium) (rmin rmax zmin zmax : option T) (nx ny : option nat) : result equilibrium :=
    let nx := or_default nx (e_nx e) in
    let ny := or_default ny (e_nx e) in
    let* r := new_equilibrium (tok e) (or_default rmin (Rmin e)) (or_default rmax (Rmax e)) (or_default zmin (Zmin e))
                              (or_default zmax (Zmax e)) nx ny BFree None n0 4 false in
    match profiles e with
    | None => Raise AttributeError
    | Some p =>
        let* psi := total_psi e in
        match psi_bndry (bs e) with
        | None => Raise AttributeError
        | Some pb =>
            let* (J, p', _) := Jtor_call p e psi pb in
            let* f := eq_spline e (e_nx e) (e_ny e) J in
            let* r := linear_solve r (fun i j => f 0%nat 0%nat (R_1D r i) (Z_1D r j)) in
            solve r p' None None None
        end
    end.

  (** ** The constrained profiles (jtor.py 139-420)
      A ConstrainPaxisIp or ConstrainBetapIp object keeps the equilibrium it was made with,
      self.eq, here [home].  Its Jtor(R, Z, psi, psi_bndry), called with the grid and a flux map
      of [e], calls self.eq._updateBoundaryPsi(psi) (183, 345), then finds the core on the grid
      (R, Z) and uses self.eq.Br(R, Z), self.eq.Bz(R, Z).  The flux of [home] is given for the time of
      the call. *)
  Definition env_of (home e : equilibrium) : Jtor.env :=
    Jtor.mkenv (e_nx e) (e_ny e) (grid_R e) (grid_Z e)
      (eq_find_critical e (e_nx e) (e_ny e))
      (eq_core_mask e)
      (fun psi =>
         let* b := update_boundary home (e_nx e) (e_ny e) psi in
         match psi_bndry b with None => Raise AttributeError | Some v => Ok v end)
      (fun i j => eqBr home (grid_R e i j) (grid_Z e i j))
      (fun i j => eqBz home (grid_R e i j) (grid_Z e i j)).

  (** ** innerOuterSeparatrix (698-745) *)
  (** numpy's a[k] with a negative index counted from the end *)
  Definition wrap (n : nat) (k : nat) : nat := match k with O => (n - 1)%nat | S k' => k' end.   (* k - 1 *)
  (** one row: [r] the radii, [q] the normalised flux, [ia] the index closest to the axis *)
  Definition inner_outer (nx : nat) (rmin rmax : T) (r q : nat -> T) (ia : nat) : T * T :=
    let inner :=
      match filter (fun i => n1 <? q i) (range 0 ia) with
      | [] => rmin
      | i0 :: l =>
          let i := fold_left Nat.max l i0 in
          (r i * (n1 - q (S i)) + r (S i) * (q i - n1)) / (q i - q (S i))
      end in
    let outer :=
      match filter (fun i => n1 <? q i) (range ia nx) with
      | [] => rmax
      | i0 :: l =>
          let i := fold_left Nat.min l i0 in
          let k := wrap nx i in
          (r i * (n1 - q k) + r k * (q i - n1)) / (q i - q k)
      end in
    (inner, outer).
  Definition magneticAxis (e : equilibrium) : result (point T) :=
    let* psi := total_psi e in
    let* (opt, _) := eq_find_critical e (e_nx e) (e_ny e) psi in
    match opt with [] => Raise IndexError | o :: _ => Ok o end.
  Definition innerOuterSeparatrix (e : equilibrium) (Z : T) : result (T * T) :=
    let jz := argmin (e_ny e) (fun j => nabs (Z_1D e j - Z)) in
    let* psi := total_psi e in
    match psi_axis (bs e), psi_bndry (bs e) with
    | Some pa, Some (Some pb) =>
        let q := fun i => (psi i jz - pa) / (pb - pa) in
        let* ax := magneticAxis e in
        let ia := argmin (e_nx e) (fun i => nabs (R_1D e i - pR ax)) in
        Ok (inner_outer (e_nx e) (Rmin e) (Rmax e) (R_1D e) q ia)
    | Some _, Some None => Raise TypeError
    | _, _ => Raise AttributeError
    end.

  (** ** separatrix (436-443) *)
  Variables (pi : T) (sin cos : T -> T) (arctan2 : T -> T -> T).
  Definition separatrix (e : equilibrium) (npoints : nat) : result (list (T * T)) :=
    let* psi := total_psi e in
    let* (opt, xpt) := eq_find_critical e (e_nx e) (e_ny e) psi in
    match opt with
    | [] => Raise IndexError
    | o :: _ =>
        match psi_bndry (bs e) with
        | None => Raise AttributeError
        | Some None => Raise TypeError
        | Some (Some pb) =>
            let* f := eq_spline e (e_nx e) (e_ny e) (fun i j => (psi i j - pPsi o) / (pb - pPsi o)) in
            find_separatrix pi sin cos arctan2 (Rmin e) (Rmax e) (Zmin e) (Zmax e) (f 0%nat 0%nat) opt xpt npoints n1
        end
    end.
End Equilibrium.
Arguments tokamak T : clear implicits.
Arguments boundary T : clear implicits.
Arguments esolver T : clear implicits.
Arguments bstate T : clear implicits.
Arguments equilibrium T P Ctl : clear implicits.
