(** Model of the plasma diagnostics of freegs/equilibrium.py: volume (220-233), internal
    inductances (985-1074), betas (1076-1198), average pressure, stored energy and cylindrical
    safety factor (1200-1268).

    [pressure], [fpol] and [fvac] are the methods of the profile object self._profiles; [sep] is
    self.separatrix(npoints).  There is no nan in the arithmetic used here, so
    numpy.nan_to_num (1181) is the identity.  Where two sub-expressions can raise different
    exceptions the order follows the source. *)
From Coq Require Import List Arith ZArith.
From Verif Require Import Py Num Numpy Romb Coils Machine Boundary Critical Equilibrium Shape.
Import ListNotations.
Local Open Scope num_scope.

Section Diagnostics.
  Context {T : Type} `{Num T} {P Ctl : Type}.
  Variables (G : field -> T -> T -> T -> T -> T)
            (spline : nat -> nat -> (nat -> T) -> (nat -> T) -> arr2 T -> sfun T) (pi mu0 : T).
  Variables (pressure fpol : T -> T) (fvac : T).
  Variable sep : equilibrium T P Ctl -> nat -> result (list (T * T)).
  Local Notation equilibrium := (equilibrium T P Ctl).
  Local Notation "'let*' x := e 'in' k" := (bind e (fun x => k))
    (at level 200, x pattern, e at level 100, k at level 200, right associativity).

  (** dV = 2 pi R dR dZ, times the mask if there is one (223-230, 993-998, ...) *)
  Definition volume_element (e : equilibrium) : result (arr2 T) :=
    let* dR := spacing_R (e_nx e) (e_ny e) (grid_R e) in
    let* dZ := spacing_Z (e_nx e) (e_ny e) (grid_Z e) in
    match mask (bs e) with
    | None => Raise AttributeError
    | Some None => Ok (fun i j => n2 * pi * grid_R e i j * dR * dZ)
    | Some (Some m) => Ok (fun i j => n2 * pi * grid_R e i j * dR * dZ * m i j)
    end.
  (** romb(romb(f * dV)) *)
  Definition volume_integral (e : equilibrium) (f : arr2 T) : result T :=
    let* dV := volume_element e in
    romb2 (e_nx e) (e_ny e) (fun i j => f i j * dV i j).
  (** plasmaVolume (220-233) *)
  Definition plasmaVolume (e : equilibrium) : result T :=
    let* dV := volume_element e in
    romb2 (e_nx e) (e_ny e) dV.

  (** psi_axis and psi_bndry as numbers *)
  Definition axis_and_bndry (e : equilibrium) : result (T * T) :=
    match psi_axis (bs e), psi_bndry (bs e) with
    | Some pa, Some (Some pb) => Ok (pa, pb)
    | Some _, Some None => Raise TypeError
    | _, _ => Raise AttributeError
    end.
  (** psiN (304-311) *)
  Definition psiN (e : equilibrium) : result (arr2 T) :=
    let* psi := total_psi e in
    let* (pa, pb) := axis_and_bndry e in
    Ok (fun i j => (psi i j - pa) / (pb - pa)).
  (** Br^2 + Bz^2 on the grid *)
  Definition Bpol2 (e : equilibrium) : arr2 T := fun i j =>
    nsqr (eqBr G spline e (grid_R e i j) (grid_Z e i j)) + nsqr (eqBz G spline e (grid_R e i j) (grid_Z e i j)).
  (** Btor (269-285): the spline of the mask is made by _updateBoundaryPsi *)
  Definition Btor (e : equilibrium) (R Z : T) : result T :=
    let* (pa, pb) := axis_and_bndry e in
    let pn := (psiRZ G spline e R Z - pa) / (pb - pa) in
    match mask (bs e) with
    | None => Raise AttributeError
    | Some None => Ok (fpol pn / R)
    | Some (Some m) =>
        let mk := spline (e_nx e) (e_ny e) (R_1D e) (Z_1D e) m 0%nat 0%nat R Z in
        Ok ((fpol pn * mk + (n1 - mk) * fvac) / R)
    end.
  Definition Btor2 (e : equilibrium) : result (arr2 T) :=
    let* _ := Btor e (grid_R e 0%nat 0%nat) (grid_Z e 0%nat 0%nat) in
    Ok (fun i j => match Btor e (grid_R e i j) (grid_Z e i j) with Ok b => nsqr b | Raise _ => n0 end).

  Definition field_integral (e : equilibrium) : result T := volume_integral e (Bpol2 e).
  Definition pressure_integral (e : equilibrium) : result T :=
    let* pn := psiN e in volume_integral e (fun i j => pressure (pn i j)).

  (** internalInductance1 (985-1008) *)
  Definition internalInductance1 (e : equilibrium) (npoints : nat) : result T :=
    let* s := sep e npoints in
    let* r := Rgeometric s in
    let* k := elongation s in
    let* vol := plasmaVolume e in
    let* ke := effectiveElongation pi vol s in
    let* b := field_integral e in
    Ok ((n2 * b) / (nsqr (mu0 * current e) * r) * ((n1 + k * k) / (n2 * ke))).
  (** internalInductance2 (1010-1028) *)
  Definition internalInductance2 (e : equilibrium) : result T :=
    let* ax := magneticAxis spline e in
    let* b := field_integral e in
    Ok (n2 * b / (nsqr (mu0 * current e) * pR ax)).
  (** internalInductance3 (1030-1049) *)
  Definition internalInductance3 (e : equilibrium) (npoints : nat) : result T :=
    let* s := sep e npoints in
    let* r := Rgeometric s in
    let* b := field_integral e in
    Ok (n2 * b / (nsqr (mu0 * current e) * r)).
  (** internalInductance (1051-1074) *)
  Definition internalInductance (e : equilibrium) (npoints : nat) : result T :=
    let* s := sep e npoints in
    let* r := Rgeometric s in
    let* b := field_integral e in
    Ok (n2 * b / (mu0 * mu0 * r * current e * current e)).
  (** poloidalBeta (1076-1101) *)
  Definition poloidalBeta (e : equilibrium) : result T :=
    let* p := pressure_integral e in
    let* b := field_integral e in
    Ok (n2 * mu0 * p / b).
  (** poloidalBeta2 (1103-1127) *)
  Definition poloidalBeta2 (e : equilibrium) : result T :=
    let* dR := spacing_R (e_nx e) (e_ny e) (grid_R e) in
    let* dZ := spacing_Z (e_nx e) (e_ny e) (grid_Z e) in
    let* pn := psiN e in
    match mask (bs e) with
    | None => Raise AttributeError
    | Some m =>
        let* p := romb2 (e_nx e) (e_ny e) (fun i j => match m with None => pressure (pn i j) | Some m => pressure (pn i j) * m i j end) in
        Ok (nofZ 8 * pi / mu0 * p * dR * dZ / nsqr (current e))
    end.
  (** poloidalBeta3 (1129-1152) *)
  Definition poloidalBeta3 (e : equilibrium) : result T :=
    let* p := pressure_integral e in
    let* vol := plasmaVolume e in
    let* s := sep e 360%nat in
    let* r := Rgeometric s in
    Ok (nofZ 4 * vol * p / (mu0 * current e * current e * r)).
  (** toroidalBeta (1154-1183) *)
  Definition toroidalBeta (e : equilibrium) : result T :=
    let* bt := Btor2 e in
    let* p := pressure_integral e in
    let* b := volume_integral e bt in
    Ok (n2 * mu0 * p / b).
  (** totalBeta (1185-1187) *)
  Definition totalBeta (e : equilibrium) : result T :=
    let* bp := poloidalBeta e in
    let* bt := toroidalBeta e in
    Ok (n1 / ((n1 / bp) + (n1 / bt))).
  (** betaN (1189-1198) *)
  Definition betaN (e : equilibrium) : result T :=
    let* s := sep e 360%nat in
    let* geo := geometricAxis s in
    let* bt := Btor e (fst geo) (snd geo) in
    let* beta := toroidalBeta e in
    let* a := minorRadius s in
    Ok (nofZ 100 * nofZ 1000000 * beta * ((a * bt) / current e)).
  (** pressure_ave (1200-1225) *)
  Definition pressure_ave (e : equilibrium) : result T :=
    let* _ := Btor2 e in
    let* p := pressure_integral e in
    let* vol := plasmaVolume e in
    Ok (p / vol).
  (** w_th (1227-1251) *)
  Definition w_th (e : equilibrium) : result T :=
    let* p := pressure_integral e in
    Ok (nofZ 3 / n2 * p).
  (** qcyl (1253-1268) *)
  Definition qcyl (e : equilibrium) : result T :=
    let* s := sep e 360%nat in
    let* eps := inverseAspectRatio s in
    let* a := minorRadius s in
    let* r := Rgeometric s in
    let* k := elongation s in
    Ok (nlit 5 10 * (n1 + k * k) * ((n2 * pi * a * eps * (fvac / r)) / (mu0 * current e))).
End Diagnostics.
