(** Model of the safety factor and the toroidal flux: critical.find_safety (critical.py 445-543)
    and Equilibrium.q, tor_flux, rhotor (equilibrium.py 338-416).  Warnings are not modelled. *)
From Coq Require Import List Arith ZArith Bool.
From Verif Require Import Py Num Numpy Coils Machine Critical Equilibrium.
Import ListNotations.
Local Open Scope num_scope.

Section Safety.
  Context {T : Type} `{Num T}.
  Variables (pi : T) (sin cos sqrt : T -> T) (arctan2 : T -> T -> T).
  Local Notation "'let*' x := e 'in' k" := (bind e (fun x => k))
    (at level 200, x pattern, e at level 100, k at level 200, right associativity).

  (** ** The loop integral on one surface (524-541) *)
  (** numpy.roll(x, 1)[j] = x[j-1] and numpy.roll(x, -1)[j] = x[j+1], both cyclically *)
  Definition roll_prev (l : list (T * T)) (j : nat) : T * T := nth ((j + length l - 1) mod length l) l (n0, n0).
  Definition roll_next (l : list (T * T)) (j : nat) : T * T := nth ((j + 1) mod length l) l (n0, n0).
  Definition dl (l : list (T * T)) (j : nat) : T :=
    let dr := (fst (roll_prev l j) - fst (roll_next l j)) / n2 in
    let dz := (snd (roll_prev l j) - snd (roll_next l j)) / n2 in
    sqrt (nsqr dr + nsqr dz).
  (** [Br], [Bz] are eq.Br, eq.Bz and [f] is eq.fpol at the surface *)
  Definition q_integral (Br Bz : T -> T -> T) (f : T) (l : list (T * T)) : T :=
    nsum (length l) (fun j =>
      let (r, z) := nth j l (n0, n0) in
      f / (nsqr r * sqrt (nsqr (Br r z) + nsqr (Bz r z))) * dl l j) / (n2 * pi).

  (** ** The points on one surface (507-521); [psifunc] is the spline of the normalised flux,
      find_psisurface uses its default of 100 points on a ray *)
  Definition surface (Rmin Rmax Zmin Zmax : T) (psifunc : T -> T -> T) (r0 z0 : T) (thetas : list T) (psin : T) : result (list (T * T)) :=
    mapM (fun t =>
      let* p := find_psisurface Rmin Rmax Zmin Zmax psifunc r0 z0
                  (r0 + (Rmax - Rmin) * sin t) (z0 + (Zmax - Zmin) * cos t) psin 100 in
      Ok (fst p)) thetas.

  (** ** find_safety (445-543) with psi, opoint, xpoint from the equilibrium; [fpol] is eq.fpol
      for a list of values.  The grid is that of the equilibrium; lines 468-470 test xpoint
      before opoint. *)
  Context {P Ctl : Type}.
  Variable G : field -> T -> T -> T -> T -> T.
  Variable spline : nat -> nat -> (nat -> T) -> (nat -> T) -> arr2 T -> sfun T.
  Local Notation equilibrium := (equilibrium T P Ctl).
  (** psinormal (473) *)
  Definition safety_psinorm (psi : arr2 T) (o x : point T) : arr2 T :=
    fun i j => (psi i j - pPsi o) / (pPsi x - pPsi o).
  Definition find_safety (fpol : T -> T) (e : equilibrium) (psirange : list T) (ntheta : nat) : result (list T) :=
    let* psi := total_psi e in
    let* (opt, xpt) := eq_find_critical spline e (e_nx e) (e_ny e) psi in
    match xpt with
    | [] => Raise ValueError
    | x :: _ =>
        match opt with
        | [] => Raise IndexError
        | o :: _ =>
            let* psifunc := eq_spline spline e (e_nx e) (e_ny e) (safety_psinorm psi o x) in
            let* thetas := theta_grid pi arctan2 ntheta (pR o) (pZ o) x in
            let* surfs := mapM (surface (Rmin e) (Rmax e) (Zmin e) (Zmax e) (psifunc 0%nat 0%nat) (pR o) (pZ o) thetas) psirange in
            Ok (map (fun ps => q_integral (eqBr G spline e) (eqBz G spline e) (fpol (fst ps)) (snd ps)) (combine psirange surfs))
        end
    end.

  (** ** Equilibrium.q (338-376) as a function of find_safety(self, psinorm=...) *)
  (** the argument: None, a number, a Python list of numbers or a numpy array *)
  Inductive qarg := ANone | AScalar (x : T) | AList (l : list T) | AArray (l : list T).
  Inductive qres := RPair (psinorm q : list T) | RScalar (q : T) | RArray (q : list T).
  Variable safety : list T -> result (list T).
  (** scipy.interpolate.interp1d(x, y, kind="quadratic", fill_value="extrapolate") *)
  Variable interp1d : list T -> list T -> T -> T.
  (** numpy.linspace(a, b, n, endpoint=False) *)
  Definition linspace_open (a b : T) (n : nat) : list T :=
    map (fun k => a + nofnat k * ((b - a) / nofnat n)) (seq 0 n).
  Definition linspace_list (a b : T) (n : nat) : list T := map (linspace a b n) (seq 0 n).
  Definition outside (x : T) : bool := (x <? nlit 1 100) || (nlit 99 100 <? x).
  Definition to_scalar (r : list T) : qres := match r with [x] => RScalar x | _ => RArray r end.
  (** lines 362-376 for the values [l] of a scalar or an array *)
  Definition q_values (l : list T) (npsi : nat) : result qres :=
    if existsb outside l then
      let inner := linspace_list (nlit 1 100) (nlit 99 100) npsi in
      let* q_inner := safety inner in
      Ok (to_scalar (map (interp1d inner q_inner) l))
    else
      let* r := safety l in Ok (to_scalar r).
  Definition eq_q (psinorm : qarg) (npsi : nat) : result qres :=
    match psinorm with
    | ANone =>
        let l := linspace_open (n1 / nofnat (npsi + 1)) n1 npsi in
        let* q := safety l in Ok (RPair l q)
    | AScalar x => q_values [x] npsi
    | AArray l => q_values l npsi
    | AList _ => Raise TypeError            (* psinorm < 0.01 *)
    end.

  (** ** tor_flux (378-393) *)
  (** scipy.integrate.cumulative_trapezoid(y, x, initial=0.0) for one-dimensional arrays that are
      not empty *)
  Definition cumtrapz (y x : list T) : list T :=
    map (fun k => nsum k (fun i => (nth (S i) x n0 - nth i x n0) * (nth (S i) y n0 + nth i y n0) / n2)) (seq 0 (length x)).
  (** [qv]: self.q for an array.  For an array with one element q returns a float, on which
      cumulative_trapezoid raises IndexError; scalars raise ValueError (numpy.diff), None a
      TypeError. *)
  Definition tor_flux (psi_axis psi_bndry : T) (psi : qarg) (npsi : nat) : result (list T) :=
    match psi with
    | ANone => Raise TypeError
    | AList _ => Raise TypeError
    | AScalar x =>
        let* _ := eq_q (AScalar ((x - psi_axis) / (psi_bndry - psi_axis))) npsi in Raise ValueError
    | AArray l =>
        let* q := eq_q (AArray (map (fun x => (x - psi_axis) / (psi_bndry - psi_axis)) l)) npsi in
        match q with
        | RArray qv => Ok (map (fun v => v * (nopp n1 / (n2 * pi))) (cumtrapz qv l))
        | _ => Raise IndexError
        end
    end.
  (** rhotor (395-416); numpy.max *)
  Definition rhotor (psi_axis psi_bndry : T) (psi : qarg) (npsi : nat) : result (list T) :=
    let* t := tor_flux psi_axis psi_bndry psi npsi in
    let* lc := tor_flux psi_axis psi_bndry (AArray (linspace_list psi_axis psi_bndry 101)) npsi in
    match lc with
    | [] => Raise ValueError
    | a :: l => let m := fold_left nmax l a in Ok (map (fun v => sqrt (v / m)) t)
    end.
End Safety.
