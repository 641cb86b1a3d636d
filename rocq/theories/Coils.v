(** Model of the coil classes: freegs/coil.py, shaped_coil.py, filament_coil.py, multi_coil.py,
    pre_calc_coil.py.

    The three Green's functions Greens, GreensBr, GreensBz enter as one function [G] with a tag:
    the methods psi/controlPsi, Br/controlBr, Bz/controlBz of every class are textually the
    same up to the Green's function they call.  Arrays of positions are handled pointwise. *)
From Coq Require Import List Arith ZArith Bool String.
From Verif Require Import Py Num Numpy Polygons Quadrature.
Import ListNotations.

Inductive field : Type := FPsi | FBr | FBz.

Section Coils.
  Context {T : Type} `{Num T}.
  Variable G : field -> T -> T -> T -> T -> T.    (* G f Rc Zc R Z *)
  Open Scope num_scope.
  Local Notation "'let*' x := e 'in' k" := (bind e (fun x => k))
    (at level 200, x pattern, e at level 100, k at level 200).

  (** The [area] argument (coil.py 95-102, 251-268): a number or an AreaCurrentLimit with its
      current density (other functors are not modelled). *)
  Inductive area_spec : Type := AFixed (a : T) | ALimit (density : T).

  (** What distinguishes the classes.  [centre] is (_R_centre, _Z_centre). *)
  Inductive kind : Type :=
  | KPoint (R Z : T)                                                       (* Coil *)
  | KShaped (shape : list (T * T)) (npoints : nat) (points : list (T * T * T)) (centre : T * T)  (* ShapedCoil *)
  | KFilament (shape : list (T * T)) (points : list (T * T)) (npoints : nat) (centre : T * T)    (* FilamentCoil *)
  | KMulti (Rfil Zfil : list T) (mirror : bool) (polarity : T * T) (centre : T * T)              (* MultiCoil *)
  | KPreCalc (shape : list (T * T)) (maps : field -> T -> T -> T) (centre : T * T).              (* PreCalcCoil *)

  Record coil : Type := mkcoil { c_kind : kind; c_current : T; c_turns : BinNums.Z; c_control : bool; c_area : area_spec }.

  Definition set_current (c : coil) (I : T) : coil := mkcoil (c_kind c) I (c_turns c) (c_control c) (c_area c).
  Definition set_control (c : coil) (b : bool) : coil := mkcoil (c_kind c) (c_current c) (c_turns c) b (c_area c).
  Definition with_kind (c : coil) (k : kind) : coil := mkcoil k (c_current c) (c_turns c) (c_control c) (c_area c).

  (** ** Constructors *)
  (** Coil.__init__ (coil.py 84-113) *)
  Definition Coil (R Z current : T) (turns : BinNums.Z) (control : bool) (area : area_spec) : coil :=
    mkcoil (KPoint R Z) current turns control area.

  Definition mean_point (shape : list (T * T)) : T * T :=
    (lsum (map fst shape) / nofnat (List.length shape), lsum (map snd shape) / nofnat (List.length shape)).

  (** ShapedCoil.__init__ (shaped_coil.py 64-96); [fuel] for triangulate *)
  Definition ShapedCoil (fuel : nat) (shape : list (T * T)) (current : T) (turns : BinNums.Z) (control : bool) (npoints : nat) : result coil :=
    if (2 <? List.length shape)%nat then
      let* points := polygon_quad fuel shape npoints in
      Ok (mkcoil (KShaped shape npoints points (mean_point shape)) current turns control (AFixed (nabs (Polygons.area shape))))
    else Raise AssertionError.

  Definition lmin (l : list T) : T := fold_right nmin (hd n0 l) l.
  Definition lmax (l : list T) : T := fold_right nmax (hd n0 l) l.

  (** FilamentCoil.__init__ (filament_coil.py 194-271) with filaments given as lists.  The case
      Rfil=None (populate_with_fils) is in Populate.v.
      Filament lists of different length: zip truncates, npoints is len(Rfil). *)
  Definition FilamentCoil (Rfil Zfil : list T) (shape : option (list (T * T))) (current : T) (turns : BinNums.Z) (control : bool) : result coil :=
    let* shape := match shape with
      | Some s => Ok s
      | None =>
          match Rfil, Zfil with
          | [], _ | _, [] => Raise ValueError        (* np.min of an empty array *)
          | _, _ =>
            let minR := lmin Rfil in let maxR := lmax Rfil in
            let minZ := lmin Zfil in let maxZ := lmax Zfil in
            Ok [(minR, minZ); (minR, maxZ); (maxR, maxZ); (maxR, minZ); (minR, minZ)]
          end
      end in
    if (2 <? List.length shape)%nat then
      Ok (mkcoil (KFilament shape (combine Rfil Zfil) (List.length Rfil) (mean_point shape))
                 current turns control (AFixed (nabs (Polygons.area shape))))
    else Raise AssertionError.

  Definition lmean (l : list T) : T := lsum l / nofnat (List.length l).
  (** MultiCoil.__init__ (multi_coil.py 81-146) with lists of positions: turns is overwritten *)
  Definition MultiCoil_list (Rfil Zfil : list T) (current : T) (turns : BinNums.Z) (control mirror : bool) (polarity : T * T) (area : area_spec) : result coil :=
    if (List.length Rfil =? List.length Zfil)%nat then
      Ok (mkcoil (KMulti Rfil Zfil mirror polarity (lmean Rfil, lmean Zfil)) current (Z.of_nat (List.length Rfil)) control area)
    else Raise AssertionError.
  (** MultiCoil.__init__ with a single position *)
  Definition MultiCoil_single (R Z : T) (current : T) (turns : BinNums.Z) (control mirror : bool) (polarity : T * T) (area : area_spec) : coil :=
    mkcoil (KMulti [R] [Z] mirror polarity (lmean [R], lmean [Z])) current turns control area.

  (** PreCalcCoil.__init__ (pre_calc_coil.py 67-119); the splines are the parameter [maps]. *)
  Definition PreCalcCoil (shape : list (T * T)) (maps : field -> T -> T -> T) (current : T) (turns : BinNums.Z) (control : bool) : result coil :=
    if (2 <? List.length shape)%nat then
      Ok (mkcoil (KPreCalc shape maps (mean_point shape)) current turns control (AFixed (nabs (Polygons.area shape))))
    else Raise AssertionError.

  (** ** Fields *)
  (** controlPsi / controlBr / controlBz: coil.py 147-163, shaped_coil.py 98-124,
      filament_coil.py 273-303, multi_coil.py 148-186, pre_calc_coil.py 121-155 *)
  Definition coil_control (f : field) (c : coil) (R Z : T) : T :=
    match c_kind c with
    | KPoint Rc Zc => G f Rc Zc R Z * nofZ (c_turns c)
    | KShaped _ _ points _ =>
        fold_left (fun result p => result + G f (fst (fst p)) (snd (fst p)) R Z * snd p) points n0 * nofZ (c_turns c)
    | KFilament _ points npoints _ =>
        fold_left (fun result p => result + G f (fst p) (snd p) R Z) points n0 * nofZ (c_turns c) / nofnat npoints
    | KMulti Rfil Zfil mirror polarity _ =>
        let result := fold_left (fun result p => result + G f (fst p) (snd p) R Z * fst polarity) (combine Rfil Zfil) n0 in
        if mirror
        then fold_left (fun result p => result + G f (fst p) (- snd p) R Z * snd polarity) (combine Rfil Zfil) result
        else result
    | KPreCalc _ maps _ => maps f R Z
    end.
  (** psi / Br / Bz (coil.py 115-119, 135-145; inherited by all classes) *)
  Definition coil_field (f : field) (c : coil) (R Z : T) : T := coil_control f c R Z * c_current c.
  (** createPsiGreens, calcPsiFromGreens (coil.py 121-133) *)
  Definition coil_greens (c : coil) (R Z : T) : T := coil_control FPsi c R Z.
  Definition coil_from_greens (c : coil) (pgreen : T) : T := c_current c * pgreen.

  (** ** Position *)
  Definition coil_R (c : coil) : T :=
    match c_kind c with
    | KPoint R _ => R
    | KShaped _ _ _ p | KFilament _ _ _ p | KMulti _ _ _ _ p | KPreCalc _ _ p => fst p
    end.
  Definition coil_Z (c : coil) : T :=
    match c_kind c with
    | KPoint _ Z => Z
    | KShaped _ _ _ p | KFilament _ _ _ p | KMulti _ _ _ _ p | KPreCalc _ _ p => snd p
    end.
  (** R setter: coil.py 107 (attribute), shaped_coil.py 142-147, filament_coil.py 324-329,
      multi_coil.py 285-291, pre_calc_coil.py 169-174.  The setters of ShapedCoil and
      FilamentCoil do not move [shape]; the setter of PreCalcCoil moves an unused list. *)
  Definition set_R (c : coil) (Rnew : T) : coil :=
    with_kind c match c_kind c with
    | KPoint _ Z => KPoint Rnew Z
    | KShaped shape n points (Rc, Zc) =>
        let s := Rnew - Rc in KShaped shape n (map (fun p => ((fst (fst p) + s, snd (fst p)), snd p)) points) (Rnew, Zc)
    | KFilament shape points n (Rc, Zc) =>
        let s := Rnew - Rc in KFilament shape (map (fun p => (fst p + s, snd p)) points) n (Rnew, Zc)
    | KMulti Rfil Zfil m pol (Rc, Zc) => let s := Rnew - Rc in KMulti (map (fun r => r + s) Rfil) Zfil m pol (Rnew, Zc)
    | KPreCalc shape maps (Rc, Zc) => KPreCalc shape maps (Rnew, Zc)
    end.
  (** Z setter: shaped_coil.py 156-161, filament_coil.py 338-343, multi_coil.py 300-306,
      pre_calc_coil.py 183-188 *)
  Definition set_Z (c : coil) (Znew : T) : coil :=
    with_kind c match c_kind c with
    | KPoint R _ => KPoint R Znew
    | KShaped shape n points (Rc, Zc) =>
        let s := Znew - Zc in KShaped shape n (map (fun p => ((fst (fst p), snd (fst p) + s), snd p)) points) (Rc, Znew)
    | KFilament shape points n (Rc, Zc) =>
        let s := Znew - Zc in KFilament shape (map (fun p => (fst p, snd p + s)) points) n (Rc, Znew)
    | KMulti Rfil Zfil m pol (Rc, Zc) => let s := Znew - Zc in KMulti Rfil (map (fun z => z + s) Zfil) m pol (Rc, Znew)
    | KPreCalc shape maps (Rc, Zc) => KPreCalc shape maps (Rc, Znew)
    end.

  (** area (coil.py 251-264; AreaCurrentLimit.__call__ 50-54).  The warning for a value <= 0 is
      not modelled. *)
  Definition coil_area (c : coil) : T :=
    match c_area c with
    | AFixed a => a
    | ALimit d => nabs (c_current c * nofZ (c_turns c)) / d
    end.
  (** area setter (coil.py 266-268; overridden to raise in shaped_coil.py 167-169,
      filament_coil.py 349-351, pre_calc_coil.py 194-196) *)
  Definition set_area (c : coil) (a : area_spec) : result coil :=
    match c_kind c with
    | KPoint _ _ | KMulti _ _ _ _ _ => Ok (mkcoil (c_kind c) (c_current c) (c_turns c) (c_control c) a)
    | _ => Raise ValueError
    end.
End Coils.
Arguments coil T : clear implicits.
Arguments kind T : clear implicits.
Arguments area_spec T : clear implicits.
