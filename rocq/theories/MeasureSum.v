(** Model of optimise.weighted_sum (optimise.py 58-79) with the values a measure can return: numbers
    and the float("inf") of no_wall_intersection (optimise.py 48-52).  [Optimise.weighted_sum] is
    the same function on measures that only return numbers. *)
From Coq Require Import List Bool.
From Verif Require Import Py Num Optimise.
Import ListNotations.

(** What a Python float can be, the numbers being exact. *)
Inductive ext (T : Type) : Type := Fin (x : T) | PInf | NInf | NaN.
Arguments Fin {T} x. Arguments PInf {T}. Arguments NInf {T}. Arguments NaN {T}.

Section MeasureSum.
  Context {T : Type} `{Num T}.
  Local Open Scope num_scope.
  (** [a + b] *)
  Definition eadd (a b : ext T) : ext T :=
    match a, b with
    | NaN, _ | _, NaN | PInf, NInf | NInf, PInf => NaN
    | PInf, _ | _, PInf => PInf
    | NInf, _ | _, NInf => NInf
    | Fin x, Fin y => Fin (x + y)
    end.
  (** an infinity times a number: 0 * inf is nan *)
  Definition inf_times (w : T) (pos : bool) : ext T :=
    if n0 <? w then (if pos then PInf else NInf)
    else if w <? n0 then (if pos then NInf else PInf) else NaN.
  (** [a * w] for a number w *)
  Definition emul (a : ext T) (w : T) : ext T :=
    match a with
    | Fin x => Fin (x * w)
    | PInf => inf_times w true
    | NInf => inf_times w false
    | NaN => NaN
    end.
  (** [a < b]: false as soon as one of them is nan *)
  Definition eltb (a b : ext T) : bool :=
    match a, b with
    | NaN, _ | _, NaN => false
    | Fin x, Fin y => x <? y
    | NInf, NInf | PInf, _ | _, NInf => false
    | NInf, _ | _, PInf => true
    end.

  (** the arguments of weighted_sum: a callable, or a pair *)
  Inductive measure_arg (E : Type) : Type :=
  | MFun : (E -> result (ext T)) -> measure_arg E
  | MPair : (E -> result (ext T)) -> T -> measure_arg E.
  Arguments MFun {E} _. Arguments MPair {E} _ _.
  (** lines 69-74 *)
  Definition add_weight {E} (a : measure_arg E) : (E -> result (ext T)) * T :=
    match a with MFun f => (f, n1) | MPair f w => (f, w) end.
  (** lines 76-77; sum() starts from 0 *)
  Definition combined_measure {E} (args : list (measure_arg E)) (eq : E) : result (ext T) :=
    foldM (fun s fw => bind (fst fw eq) (fun v => Ok (eadd s (emul v (snd fw))))) (map add_weight args) (Fin n0).
End MeasureSum.
Arguments MFun {T E} _. Arguments MPair {T E} _ _.
