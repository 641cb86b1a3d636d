(** Model of freegs/_divgeo.py write (27-113) and freegs/divgeo.py write (5-13).

    The file is a value of [dg_file]; decimal digits and the layout of the lines are not modelled.
    write_2d of the library freeqdsk puts out the first index fastest. *)
From Coq Require Import List Arith ZArith Bool.
From Verif Require Import Py Num Numpy Critical Equilibrium Safety Geqdsk.
Import ListNotations.
Local Open Scope num_scope.

Section DivGeo.
  Context {T : Type} `{Num T}.
  Context {P Ctl : Type}.
  Local Notation "'let*' x := e 'in' k" := (bind e (fun x => k))
    (at level 200, x pattern, e at level 100, k at level 200, right associativity).

  (** jm, km, psib, btf, rtf, r(1:jm), z(1:km) and ((psi(j,k)-psib,j=1,jm),k=1,km) *)
  Record dg_file := mkdg {
    dg_jm : nat; dg_km : nat; dg_psib : T; dg_btf : T; dg_rtf : T; dg_r : list T; dg_z : list T; dg_psi : list T }.

  (** lines 76-86 and 88-98: the coordinates when the dictionary has neither "r" nor "z" (the one
      made by geqdsk.write has not): numpy.arange(n) * ((hi - lo) / (n - 1)) + lo *)
  Definition coordinates (n : nat) (lo hi : T) : result (list T) :=
    if (n =? 1)%nat then Raise ZeroDivisionError
    else Ok (map (fun i => nofnat i * ((hi - lo) / (nofnat n - n1)) + lo) (range 0 n)).
  (** _divgeo.write *)
  Definition dg_write (d : data T) : result dg_file :=
    let* r := coordinates (g_nx d) (g_rleft d) (g_rleft d + g_rdim d) in
    let* z := coordinates (g_ny d) (g_zmid d - nlit 1 2 * g_zdim d) (g_zmid d + nlit 1 2 * g_zdim d) in
    Ok (mkdg (g_nx d) (g_ny d) (g_sibdry d) (g_bcentr d) (g_rcentr d) r z
             (flat_map (fun k => map (fun j => g_psi d j k - g_sibdry d) (range 0 (g_nx d))) (range 0 (g_ny d)))).

  Variable G : Coils.field -> T -> T -> T -> T -> T.
  Variable sqrt : T -> T.
  Variable spline : nat -> nat -> (nat -> T) -> (nat -> T) -> arr2 T -> sfun T.
  Variables (pi : T) (sin cos : T -> T) (arctan2 : T -> T -> T).
  Variable quad_interp : list T -> list T -> T -> T.
  Variable methods_of : P -> @methods T.
  (** divgeo.write: geqdsk.write with _divgeo.write as file format *)
  Definition divgeo_write (m : gmachine T) (e : equilibrium T P Ctl) (oxpoints : option (list (point T) * list (point T))) : result dg_file :=
    let* d := write G sqrt spline pi sin cos arctan2 quad_interp methods_of m e oxpoints in
    dg_write d.
End DivGeo.
Arguments dg_file T : clear implicits.
