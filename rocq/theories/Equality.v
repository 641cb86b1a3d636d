(** Model of the == operators of coils, circuits, solenoids, walls and machines: freegs/coil.py
    221-228, multi_coil.py 199-206, shaped_coil.py 241-248, machine.py 230-235, 430-438, 480-481,
    666-669.  FilamentCoil and PreCalcCoil inherit Coil.__eq__. *)
From Coq Require Import String List Arith ZArith Bool.
From Verif Require Import Py Num Numpy Coils Machine.
Import ListNotations.

Section Equality.
  Context {T : Type} `{Num T}.
  Open Scope num_scope.
  Local Notation "'let*' x := e 'in' k" := (bind e (fun x => k))
    (at level 200, x pattern, e at level 100, k at level 200, right associativity).

  (** numpy.isclose with its default tolerances *)
  Definition close (a b : T) : bool := nleb (nabs (a - b)) (nlit 1 100000000 + nlit 1 100000 * nabs b).
  (** numpy.allclose along the first axis: arrays of length 1 are broadcast *)
  Definition allclose {A : Type} (cl : A -> A -> bool) (a b : list A) : result bool :=
    if (List.length a =? List.length b)%nat then Ok (forallb (fun p => cl (fst p) (snd p)) (combine a b))
    else match a, b with
         | [x], _ => Ok (forallb (cl x) b)
         | _, [y] => Ok (forallb (fun x => cl x y) a)
         | _, _ => Raise ValueError
         end.
  Definition close_point (p q : T * T) : bool := close (fst p) (fst q) && close (snd p) (snd q).

  (** Coil.__eq__, MultiCoil.__eq__ *)
  Definition plain_eq (c d : coil T) : bool :=
    neqb (coil_R c) (coil_R d) && neqb (coil_Z c) (coil_Z d) && neqb (c_current c) (c_current d) &&
    Z.eqb (c_turns c) (c_turns d) && Bool.eqb (c_control c) (c_control d).
  (** the attribute shape, which Coil and MultiCoil do not have *)
  Definition shape_attr (c : coil T) : result (list (T * T)) :=
    match c_kind c with
    | KShaped s _ _ _ | KFilament s _ _ _ | KPreCalc s _ _ => Ok s
    | KPoint _ _ | KMulti _ _ _ _ _ => Raise AttributeError
    end.
  (** the attribute npoints_per_triangle, which only ShapedCoil has *)
  Definition npt_attr (c : coil T) : result nat :=
    match c_kind c with KShaped _ n _ _ => Ok n | _ => Raise AttributeError end.
  (** ShapedCoil.__eq__ *)
  Definition shaped_eq (c d : coil T) : result bool :=
    let* s := shape_attr c in
    let* s' := shape_attr d in
    let* b := allclose close_point s s' in
    if b && neqb (c_current c) (c_current d) && Z.eqb (c_turns c) (c_turns d) && Bool.eqb (c_control c) (c_control d)
    then let* n := npt_attr c in let* n' := npt_attr d in Ok (n =? n')%nat
    else Ok false.
  (** [c == d]: the method of the right operand is tried first when its class is a subclass of
      that of the left one; all classes are direct subclasses of Coil. *)
  Definition coil_eq (c d : coil T) : result bool :=
    match c_kind c, c_kind d with
    | KShaped _ _ _ _, _ => shaped_eq c d
    | KPoint _ _, KShaped _ _ _ _ => shaped_eq d c
    | _, _ => Ok (plain_eq c d)
    end.

  (** [==] of lists: lengths, then the elements up to the first difference *)
  Fixpoint elems_eq {A : Type} (eq : A -> A -> result bool) (l l' : list A) : result bool :=
    match l, l' with
    | x :: l, y :: l' => let* b := eq x y in if b then elems_eq eq l l' else Ok false
    | _, _ => Ok true
    end.
  Definition list_eq {A : Type} (eq : A -> A -> result bool) (l l' : list A) : result bool :=
    if (List.length l =? List.length l')%nat then elems_eq eq l l' else Ok false.
  (** [==] of the tuples (label, coil, multiplier) *)
  Definition member_eq (m m' : member T) : result bool :=
    if String.eqb (m_label m) (m_label m') then
      let* b := coil_eq (m_coil m) (m_coil m') in
      Ok (b && neqb (m_mult m) (m_mult m'))
    else Ok false.
  (** Circuit.__eq__ *)
  Definition circuit_eq (c d : circuit T) : result bool :=
    let* b := list_eq member_eq (ci_coils c) (ci_coils d) in
    Ok (b && neqb (ci_current c) (ci_current d) && Bool.eqb (ci_control c) (ci_control d)).
  (** Solenoid.__eq__ *)
  Definition solenoid_eq (s t : solenoid T) : bool :=
    neqb (s_Rs s) (s_Rs t) && neqb (s_Zsmin s) (s_Zsmin t) && neqb (s_Zsmax s) (s_Zsmax t) &&
    (s_Ns s =? s_Ns t)%nat && neqb (s_current s) (s_current t) && Bool.eqb (s_control s) (s_control t).
  (** the three families have no attribute in common that is compared first *)
  Definition mcoil_eq (m m' : mcoil T) : result bool :=
    match m, m' with
    | MCoil c, MCoil d => coil_eq c d
    | MCircuit c, MCircuit d => circuit_eq c d
    | MSolenoid s, MSolenoid t => Ok (solenoid_eq s t)
    | _, _ => Raise AttributeError
    end.

  (** [<] of the tuples (label, coil): coils have no order *)
  Definition entry_lt (a b : string * mcoil T) : result bool :=
    if String.eqb (fst a) (fst b) then
      let* e := mcoil_eq (snd a) (snd b) in if e then Ok false else Raise TypeError
    else Ok (String.ltb (fst a) (fst b)).
  Definition entry_eq (a b : string * mcoil T) : result bool :=
    if String.eqb (fst a) (fst b) then mcoil_eq (snd a) (snd b) else Ok false.
  (** sorted(self.coils), as an insertion sort: for distinct labels, and for machines with two
      coils, every sorting method asks for the same comparisons or gives the same list. *)
  Fixpoint insert (x : string * mcoil T) (l : list (string * mcoil T)) : result (list (string * mcoil T)) :=
    match l with
    | [] => Ok [x]
    | y :: l' =>
        let* b := entry_lt y x in
        if b then let* r := insert x l' in Ok (y :: r) else Ok (x :: y :: l')
    end.
  Fixpoint sorted_coils (l : list (string * mcoil T)) : result (list (string * mcoil T)) :=
    match l with
    | [] => Ok []
    | x :: l' => let* r := sorted_coils l' in insert x r
    end.
  (** Wall.__eq__; [None == wall] calls the method of the wall *)
  Definition wall : Type := (list T * list T)%type.
  Definition wall_eq (w w' : option wall) : result bool :=
    match w, w' with
    | None, None => Ok true
    | Some a, Some b => let* r := allclose close (fst a) (fst b) in if r then allclose close (snd a) (snd b) else Ok false
    | _, _ => Raise AttributeError
    end.
  (** Machine.__eq__; sensors and R0 are not looked at *)
  Definition machine_eq (M : machine T) (w : option wall) (M' : machine T) (w' : option wall) : result bool :=
    let* s := sorted_coils M in
    let* s' := sorted_coils M' in
    let* b := list_eq entry_eq s s' in
    if b then wall_eq w w' else Ok false.
End Equality.
