(** Model of freegs/geqdsk.py: write (54-146), isPow2 (149-154), ceilPow2 (157-161), and read
    (164-534) up to and including the first linear solve (423).

    The file is a value of [data]: what the library freeqdsk makes of the dictionary given to it
    (decimal digits, COCOS conversions) is not modelled.  The coil current fit and the Picard
    iteration at the end of read are not followed here; see [Control] and [Picard]. *)
From Coq Require Import String List Arith ZArith Bool.
From Verif Require Import Py Num Numpy Coils Machine Sensors Romb Critical Boundary Jtor Equilibrium Safety.
Import ListNotations.
Local Open Scope num_scope.

(** isPow2 (149-154): val & (val - 1) == 0, on Python integers *)
Definition isPow2 (v : BinNums.Z) : bool := Z.eqb (Z.land v (v - 1)) 0.
(** ceilPow2 (157-161) on an integer: 2 ** ceil(log2(val)), the logarithm taken exactly; math.log2
    refuses numbers that are not positive *)
Definition ceilPow2 (v : BinNums.Z) : result BinNums.Z :=
  if Z.leb v 0 then Raise ValueError else Ok (Z.pow 2 (Z.log2_up v)).

Section Geqdsk.
  Context {T : Type} `{Num T}.
  Context {P Ctl : Type}.
  Local Notation "'let*' x := e 'in' k" := (bind e (fun x => k))
    (at level 200, x pattern, e at level 100, k at level 200, right associativity).
  Variable G : field -> T -> T -> T -> T -> T.
  Variables (sqrt exp : T -> T) (mu0 : T).
  Variable spline : nat -> nat -> (nat -> T) -> (nat -> T) -> arr2 T -> sfun T.
  Variables (pi : T) (sin cos : T -> T) (arctan2 : T -> T -> T).
  (** the quadratic interp1d used by Equilibrium.q *)
  Variable quad_interp : list T -> list T -> T -> T.
  (** interpolate.InterpolatedUnivariateSpline(x, y) on accepted data: the spline and its
      derivatives *)
  Variable uspline : list T -> list T -> nat -> T -> T.

  (** A Machine: the coils, wall and limit points, and R0 (machine.py 640-659) *)
  Record gmachine := mkgm { gm_coils : @machine T; gm_vessel : vessel T; gm_R0 : T }.
  (** The same as the tokamak of an Equilibrium.  A machine made without a wall has no limit points
      (None): with an empty list _updateBoundaryPsi fails at the same place, with another exception. *)
  Definition tok_of (m : gmachine) : tokamak T :=
    mktok (gm_coils m) (match v_wall (gm_vessel m) with Some _ => true | None => false end)
          (match v_limits (gm_vessel m) with Some l => l | None => [] end).

  (** The dictionary written and read; rlim, zlim and rbdry, zbdry are lists of points *)
  Record data := mkdata {
    g_nx : nat; g_ny : nat; g_rdim : T; g_zdim : T; g_rcentr : T; g_bcentr : T; g_rleft : T; g_zmid : T;
    g_rmagx : T; g_zmagx : T; g_simagx : T; g_sibdry : T; g_cpasma : T;
    g_fpol : list T; g_pres : list T; g_ffprime : list T; g_pprime : list T;
    g_psi : arr2 T; g_qpsi : list T; g_lim : option (list (T * T)); g_bdry : list (T * T) }.

  (** ** write *)
  (** the methods of eq._profiles (equilibrium.py 326-336, 418-434), element by element *)
  Record methods := mkmethods { m_fvac : T; m_fpol : T -> T; m_pressure : T -> T; m_ffprime : T -> T; m_pprime : T -> T }.
  Variable methods_of : P -> methods.

  (** numpy.argmin of a list: the first index of the smallest value *)
  Definition argmin_list (l : list T) : nat := argmin (List.length l) (fun i => nth i l n0).
  (** numpy.roll(l, -k) for 0 <= k <= len(l) *)
  Definition roll {A} (l : list A) (k : nat) : list A := (skipn k l ++ firstn k l)%list.
  (** lines 131-143: both coordinates are rolled by the same amount, the index of the smallest Z in
      the list before it is reversed, and the first point is put at the end *)
  Definition boundary_points (isoflux : list (T * T)) : list (T * T) :=
    let l := roll (rev isoflux) (argmin_list (map snd isoflux)) in
    match l with [] => [] | p :: _ => (l ++ [p])%list end.
  (** lines 115-118; eq.q of an array with one element is a number *)
  Definition qpsi_of (nx : nat) (q : qres) : result (list T) :=
    let tail := match q with RScalar x => repeat x (nx - 1) | RArray l => l | RPair _ l => l end in
    match tail with [] => Raise IndexError | x :: _ => Ok (x :: tail) end.

  (** write (54-143): the dictionary handed to fileformat.  [m] is eq.tokamak. *)
  Definition write (m : gmachine) (e : equilibrium T P Ctl) (oxpoints : option (list (point T) * list (point T))) : result data :=
    let* psi := total_psi e in
    let nx := e_nx e in
    let ny := e_ny e in
    let* (opoint, xpoint) := match oxpoints with Some ox => Ok ox | None => eq_find_critical spline e nx ny psi end in
    let* p := match profiles e with None => Raise AttributeError | Some p => Ok (methods_of p) end in
    if gm_R0 m =? n0 then Raise ZeroDivisionError else
    match opoint with
    | [] => Raise IndexError
    | (rmagx, zmagx, simagx) :: _ =>
        let* pb := match psi_bndry (bs e) with
                   | None => Raise AttributeError | Some None => Raise TypeError | Some (Some v) => Ok v end in
        let psinorm := linspace_open n0 n1 nx in
        let safety := fun l => find_safety pi sin cos sqrt arctan2 G spline (m_fpol p) e l 128 in
        let* q := eq_q safety quad_interp (AArray (tl psinorm)) 100 in
        let* qpsi := qpsi_of nx q in
        let* f := eq_spline spline e nx ny (fun i j => (psi i j - simagx) / (pb - simagx)) in
        let* isoflux := find_separatrix pi sin cos arctan2 (Rmin e) (Rmax e) (Zmin e) (Zmax e) (f 0%nat 0%nat) opoint xpoint 101 n1 in
        Ok (mkdata nx ny (Rmax e - Rmin e) (Zmax e - Zmin e) (gm_R0 m) (m_fvac p / gm_R0 m) (Rmin e)
                   (nlit 1 2 * (Zmin e + Zmax e)) rmagx zmagx n0 (pb - simagx) (current e)
                   (map (m_fpol p) psinorm) (map (m_pressure p) psinorm) (map (m_ffprime p) psinorm) (map (m_pprime p) psinorm)
                   (fun i j => psi i j - simagx) qpsi
                   (v_wall (gm_vessel m)) (boundary_points isoflux))
    end.

  (** ** read *)
  (** RectBivariateSpline with kx = ky = 1: the interval of a value (the last one that starts at or
      below it), the value on the line through its ends, and the same in both directions *)
  Definition cell (n : nat) (x : nat -> T) (v : T) : nat :=
    List.length (filter (fun i => nleb (x i) v) (range 1 (n - 1))).
  Definition lin (n : nat) (x f : nat -> T) (v : T) : T :=
    let k := cell n x v in f k + (v - x k) * ((f (S k) - f k) / (x (S k) - x k)).
  Definition bilinear (n m : nat) (x y : nat -> T) (z : arr2 T) (u v : T) : T :=
    lin n x (fun i => lin m y (z i) v) u.
  (** lines 260-282.  A spline of degree 1 needs two points in each direction. *)
  Definition resize (nx ny : nat) (psi : arr2 T) : result (nat * nat * arr2 T) :=
    if isPow2 (Z.of_nat nx - 1) && isPow2 (Z.of_nat ny - 1) then Ok (nx, ny, psi)
    else if ((nx <? 2) || (ny <? 2))%nat then Raise ValueError
    else
      let* cx := ceilPow2 (Z.of_nat nx - 1) in
      let* cy := ceilPow2 (Z.of_nat ny - 1) in
      let nx' := (Z.to_nat cx + 1)%nat in
      let ny' := (Z.to_nat cy + 1)%nat in
      Ok (nx', ny', fun i j => bilinear nx ny (linspace n0 n1 nx) (linspace n0 n1 ny) psi (linspace n0 n1 nx' i) (linspace n0 n1 ny' j)).

  (** InterpolatedUnivariateSpline(x, y): cubic, so at least four points, and equal lengths *)
  Definition uspl (x y : list T) : result (nat -> T -> T) :=
    if ((List.length x =? List.length y) && (3 <? List.length x))%nat then Ok (uspline x y) else Raise ValueError.

  (** lines 284-341: the profile object and the function q_func *)
  Definition read_profiles (d : data) : result (@fprofile T * (T -> T)) :=
    let psirange := g_sibdry d - g_simagx d in
    let psinorm := linspace_list n0 n1 (g_nx d) in
    let* p_spl := uspl psinorm (g_pres d) in
    let* pprime_spl := uspl psinorm (map (fun v => v / psirange) (g_pres d)) in
    let* f_spl := uspl psinorm (g_fpol d) in
    let* ffprime_spl := uspl psinorm (map (fun v => nlit 1 2 * nsqr v / psirange) (g_fpol d)) in
    let* q_spl := uspl psinorm (g_qpsi d) in
    Ok (mkfprofile (pprime_spl 1%nat) (ffprime_spl 1%nat) (g_rcentr d * g_bcentr d) (Some (p_spl 0%nat)) (Some (f_spl 0%nat)), q_spl 0%nat).

  (** lines 247-252: Wall(rlim, zlim) is assigned, the limit points are not made again *)
  Definition read_wall (m : gmachine) (d : data) : gmachine :=
    match g_lim d with
    | Some w => if (3 <? List.length w)%nat then mkgm (gm_coils m) (assign_wall (gm_vessel m) w) (gm_R0 m) else m
    | None => m
    end.

  (** The variables at line 412 *)
  Record rstate := mkrs {
    r_machine : gmachine; r_eq : equilibrium T P Ctl; r_profiles : @fprofile T; r_Jtor : arr2 T; r_psi : arr2 T;
    r_psi_norm : arr2 T; r_mask : option (arr2 T) }.

  (** psi_bndry = eq.psi_bndry; psi_axis = eq.psi_axis; mask = eq.mask (366-368, 401-403) *)
  Definition attributes (e : equilibrium T P Ctl) : result (option T * T * option (arr2 T)) :=
    match psi_bndry (bs e), psi_axis (bs e), mask (bs e) with
    | Some pb, Some pa, Some m => Ok (pb, pa, m)
    | _, _, _ => Raise AttributeError
    end.

  (** lines 377-407.  newnx and newny are only assigned when the grid needs more points; they are
      read at line 389 (in the condition or, since newnx <> nx when it is assigned, in the
      message), and not used after that. *)
  Definition read_domain (m : gmachine) (e : equilibrium T P Ctl) (nx ny : nat) (dom : T * T * T * T) (dR dZ : T) (Jtor psi : arr2 T) :
    result (equilibrium T P Ctl * arr2 T * arr2 T * arr2 T * option (arr2 T)) :=
    let '(rmin, rmax, zmin, zmax) := dom in
    let fnewnx := (rmax - rmin) / dR + n1 in
    let fnewny := (zmax - zmin) / dZ + n1 in
    if negb ((nofnat nx <? fnewnx) && (nofnat ny <? fnewny)) then Raise UnboundLocalError
    else
      let* Jtor_func := eq_spline spline e nx ny Jtor in
      let* psi_func := eq_spline spline e nx ny psi in
      let* e' := new_equilibrium G exp spline (tok_of m) rmin rmax zmin zmax nx ny BFree None n0 4 true in
      let Jtor' := fun i j => Jtor_func 0%nat 0%nat (R_1D e' i) (Z_1D e' j) in
      let psi' := fun i j => psi_func 0%nat 0%nat (R_1D e' i) (Z_1D e' j) in
      let* (pb, pa, mask) := attributes e' in
      match pb with
      | None => Raise TypeError
      | Some pb => Ok (e', Jtor', psi', fun i j => nclip ((psi' i j - pa) / (pb - pa)) n0 n1, mask)
      end.

  (** read (164-412) *)
  Definition read_setup (d : data) (m : gmachine) (domain : option (T * T * T * T)) (fit_sol : bool) : result rstate :=
    if fit_sol && match domain with Some _ => true | None => false end then Raise ValueError else
    let m := read_wall m d in
    let* (nx, ny, psi) := resize (g_nx d) (g_ny d) (g_psi d) in
    let* (prof, _) := read_profiles d in
    let psi_norm := fun i j => nclip ((psi i j - g_simagx d) / (g_sibdry d - g_simagx d)) n0 (nlit 11 10) in
    let m := mkgm (gm_coils m) (gm_vessel m) (g_rcentr d) in
    let* e := new_equilibrium G exp spline (tok_of m) (g_rleft d) (g_rleft d + g_rdim d)
                (g_zmid d - nlit 1 2 * g_zdim d) (g_zmid d + nlit 1 2 * g_zdim d) nx ny BFree (Some psi) n0 4 true in
    let dR := grid_R e 1%nat 0%nat - grid_R e 0%nat 0%nat in
    let dZ := grid_Z e 0%nat 1%nat - grid_Z e 0%nat 0%nat in
    let* (_, _, mask) := attributes e in
    match mask with
    | None => Raise TypeError                 (* Jtor *= None *)
    | Some mk =>
        let Jtor := fun i j => (grid_R e i j * fpprime prof (psi_norm i j) + fffprime prof (psi_norm i j) / (grid_R e i j * mu0)) * mk i j in
        let* _ := romb2 nx ny Jtor in
        match domain with
        | None => Ok (mkrs m e prof Jtor psi psi_norm mask)
        | Some dom =>
            let* (e', Jtor', psi', psi_norm', mask') := read_domain m e nx ny dom dR dZ Jtor psi in
            Ok (mkrs m e' prof Jtor' psi' psi_norm' mask')
        end
    end.

  (** lines 420-423: the linear solve.  The profile object of the equilibrium is [inj] of the one
      made above. *)
  Variable lu : nat -> arr2 T -> (nat -> T) -> (nat -> T).
  Variable inj : @fprofile T -> P.
  Variable Jtor_call : P -> equilibrium T P Ctl -> arr2 T -> option T -> result (arr2 T * P * bstate T).
  Definition read_solve (r : rstate) : result (equilibrium T P Ctl) :=
    Equilibrium.solve G sqrt mu0 lu spline Jtor_call (with_check (r_eq r) true) (inj (r_profiles r)) (Some (r_Jtor r)) None None.
End Geqdsk.
Arguments gmachine T : clear implicits.
Arguments data T : clear implicits.
Arguments rstate T P Ctl : clear implicits.
