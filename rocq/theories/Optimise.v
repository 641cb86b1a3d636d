(** Model of freegs/optimise.py: measures and controls acting on a machine.

    Only the part of a machine that these functions touch is modelled: an ordered
    list of labelled coils with positions. *)
From Coq Require Import List String ZArith Bool.
From Verif Require Import Py Num.
Import ListNotations.

Section Optimise.
  Context {T : Type} `{Num T}.
  Local Open Scope num_scope.

  Record poscoil : Type := MkPos { cR : T; cZ : T }.
  Definition positions : Type := list (string * poscoil).

  (** machine.py 674-678 Machine.__getitem__: first coil with the label. *)
  Fixpoint lookup (m : positions) (label : string) : result poscoil :=
    match m with
    | [] => Raise KeyError
    | (l, c) :: m' => if String.eqb l label then Ok c else lookup m' label
    end.
  (** Attribute assignment on the object returned by __getitem__. *)
  Fixpoint update (m : positions) (label : string) (f : poscoil -> poscoil) : result positions :=
    match m with
    | [] => Raise KeyError
    | (l, c) :: m' => if String.eqb l label then Ok ((l, f c) :: m')
                      else rmap (cons (l, c)) (update m' label f)
    end.

  (** Python truth value of a number or None: [if self.minimum and ...]. *)
  Definition truthy (o : option T) : option T :=
    match o with Some x => if x =? n0 then None else Some x | None => None end.

  (** optimise.py 98-102 and 122-126: the clamping, identical in both classes. *)
  Definition clamp (minimum maximum : option T) (x : T) : T :=
    let x1 := match truthy minimum with Some lo => if x <? lo then lo else x | None => x end in
    match truthy maximum with Some hi => if hi <? x1 then hi else x1 | None => x1 end.

  (** optimise.py 85-106 CoilRadius *)
  Definition coilRadius_set (label : string) (minimum maximum : option T)
             (m : positions) (R : T) : result positions :=
    update m label (fun c => MkPos (clamp minimum maximum R) (cZ c)).
  Definition coilRadius_get (label : string) (m : positions) : result T :=
    rmap cR (lookup m label).
  (** optimise.py 109-130 CoilHeight *)
  Definition coilHeight_set (label : string) (minimum maximum : option T)
             (m : positions) (Z : T) : result positions :=
    update m label (fun c => MkPos (cR c) (clamp minimum maximum Z)).
  Definition coilHeight_get (label : string) (m : positions) : result T :=
    rmap cZ (lookup m label).
  (** Constructor defaults: CoilRadius(label) has minimum=0.0 (optimise.py 88),
      CoilHeight(label) has None (optimise.py 112). *)
  Definition coilRadius_default_min : option T := Some n0.
  Definition coilHeight_default_min : option T := None.

  (** optimise.py 36-41 max_abs_coil_current on the values of the current dictionary;
      max() of an empty sequence raises ValueError. *)
  Definition max_abs_coil_current (currents : list T) : result T :=
    match map nabs currents with
    | [] => Raise ValueError
    | a :: l => Ok (fold_left nmax l a)
    end.

  (** optimise.py 58-79 weighted_sum: the arguments are functions (weight 1.0) or
      (function, weight) pairs. *)
  Inductive warg (E : Type) : Type :=
  | WFun : (E -> T) -> warg E
  | WPair : (E -> T) -> T -> warg E.
  Arguments WFun {E} _. Arguments WPair {E} _ _.
  Definition with_weight {E} (a : warg E) : (E -> T) * T :=
    match a with WFun f => (f, n1) | WPair f w => (f, w) end.
  Definition weighted_sum {E} (args : list (warg E)) (eq : E) : T :=
    lsum (map (fun fw => fst fw eq * snd fw) (map with_weight args)).
End Optimise.
Arguments WFun {T E} _. Arguments WPair {T E} _ _.
