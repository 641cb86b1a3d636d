(** Model of MultiCoil (freegs/multi_coil.py) with the lists of filaments as objects on a heap:
    the constructor keeps the very lists it is given (127-129), and the setters of R and Z change
    them in place (285-306). *)
From Coq Require Import List Arith ZArith Bool.
From Verif Require Import Py Num Numpy Coils.
Import ListNotations.

Section MultiHeap.
  Context {T : Type} `{Num T}.
  (** conversion of a float to an integer on assignment to an integer array (towards zero) *)
  Variable trunc : T -> BinNums.Z.
  Open Scope num_scope.
  Local Notation "'let*' x := e 'in' k" := (bind e (fun x => k))
    (at level 200, x pattern, e at level 100, k at level 200, right associativity).

  (** Python sequences of numbers *)
  Inductive cell : Type :=
  | PyList (l : list T)
  | FloatArray (l : list T)
  | IntArray (l : list BinNums.Z)
  | PyTuple (l : list T).
  Definition values (c : cell) : list T :=
    match c with PyList l | FloatArray l | PyTuple l => l | IntArray l => map nofZ l end.
  (** addresses are positions in the heap *)
  Definition heap : Type := list cell.
  Definition deref (h : heap) (a : nat) : cell := nth a h (PyList []).
  Fixpoint store (h : heap) (a : nat) (c : cell) : heap :=
    match h, a with
    | [], _ => []
    | _ :: h', O => c :: h'
    | x :: h', S a' => x :: store h' a' c
    end.

  (** the coil object: addresses of Rfil and Zfil, the rest as in [coil] *)
  Record mobj : Type := mkmobj { mo_Rfil : nat; mo_Zfil : nat; mo_centre : T * T; mo_mirror : bool; mo_polarity : T * T;
    mo_current : T; mo_turns : BinNums.Z; mo_control : bool; mo_area : area_spec T }.
  (** what the coil is: the value model of Coils.v *)
  Definition contents (h : heap) (o : mobj) : coil T :=
    mkcoil (KMulti (values (deref h (mo_Rfil o))) (values (deref h (mo_Zfil o))) (mo_mirror o) (mo_polarity o) (mo_centre o))
      (mo_current o) (mo_turns o) (mo_control o) (mo_area o).

  (** __init__ (125-146) for sequences at addresses [a], [b] *)
  Definition new_multi (h : heap) (a b : nat) (current : T) (control mirror : bool) (polarity : T * T) (area : area_spec T) : result mobj :=
    let r := values (deref h a) in let z := values (deref h b) in
    if (length r =? length z)%nat
    then Ok (mkmobj a b (lmean r, lmean z) mirror polarity current (Z.of_nat (length r)) control area)
    else Raise AssertionError.

  (** the loop [for i in range(len(x)): x[i] += shift] (289-290, 304-305) *)
  Definition shift_cell (c : cell) (s : T) : result cell :=
    match c with
    | PyList l => Ok (PyList (map (fun x => x + s) l))
    | FloatArray l => Ok (FloatArray (map (fun x => x + s) l))
    | IntArray l => Ok (IntArray (map (fun x => trunc (nofZ x + s)) l))
    | PyTuple [] => Ok (PyTuple [])
    | PyTuple _ => Raise TypeError
    end.
  (** R setter (285-291) *)
  Definition heap_set_R (h : heap) (o : mobj) (Rnew : T) : result (heap * mobj) :=
    let* c := shift_cell (deref h (mo_Rfil o)) (Rnew - fst (mo_centre o)) in
    Ok (store h (mo_Rfil o) c,
        mkmobj (mo_Rfil o) (mo_Zfil o) (Rnew, snd (mo_centre o)) (mo_mirror o) (mo_polarity o) (mo_current o) (mo_turns o) (mo_control o) (mo_area o)).
  (** Z setter (300-306) *)
  Definition heap_set_Z (h : heap) (o : mobj) (Znew : T) : result (heap * mobj) :=
    let* c := shift_cell (deref h (mo_Zfil o)) (Znew - snd (mo_centre o)) in
    Ok (store h (mo_Zfil o) c,
        mkmobj (mo_Rfil o) (mo_Zfil o) (fst (mo_centre o), Znew) (mo_mirror o) (mo_polarity o) (mo_current o) (mo_turns o) (mo_control o) (mo_area o)).
End MultiHeap.
Arguments cell T : clear implicits.
Arguments heap T : clear implicits.
Arguments mobj T : clear implicits.
