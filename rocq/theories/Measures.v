(** Model of the parts of freegs/optimise.py that act on whole equilibria: the controls of coil
    positions on a machine, the measures of currents and forces, and solve_and_measure. *)
From Coq Require Import String List Arith ZArith Bool.
From Verif Require Import Py Num Numpy Coils Machine Optimise.
Import ListNotations.

Section Measures.
  Context {T : Type} `{Num T}.
  Variable G : field -> T -> T -> T -> T -> T.
  Variables (mu0 pi : T) (sqrt log : T -> T).
  Open Scope num_scope.
  Local Notation "'let*' x := e 'in' k" := (bind e (fun x => k))
    (at level 200, x pattern, e at level 100, k at level 200, right associativity).

  (** [eq.tokamak[label].R = R], [.Z = Z] (optimise.py 103, 127; machine.py 674-678).  The
      attribute this adds to a Circuit or Solenoid is not looked at by anything modelled. *)
  Fixpoint assign_position (M : machine T) (label : string) (f : coil T -> coil T) : result (machine T) :=
    match M with
    | [] => Raise KeyError
    | (l, m) :: M' =>
        if String.eqb l label then Ok ((l, match m with MCoil c => MCoil (f c) | _ => m end) :: M')
        else let* r := assign_position M' label f in Ok ((l, m) :: r)
    end.
  (** CoilRadius.set (98-103), CoilHeight.set (122-127) *)
  Definition radius_set (label : string) (minimum maximum : option T) (M : machine T) (R : T) : result (machine T) :=
    assign_position M label (fun c => set_R c (clamp minimum maximum R)).
  Definition height_set (label : string) (minimum maximum : option T) (M : machine T) (Z : T) : result (machine T) :=
    assign_position M label (fun c => set_Z c (clamp minimum maximum Z)).
  (** CoilRadius.get (105-106), CoilHeight.get (129-130): Circuit and Solenoid have no R, Z (the case
      that the same control has been set on one before, and so has given it one, is left out) *)
  Definition position_get (sel : coil T -> T) (M : machine T) (label : string) : result T :=
    let* m := machine_getitem M label in
    match m with MCoil c => Ok (sel c) | _ => Raise AttributeError end.

  (** max() of a sequence: ValueError if it is empty *)
  Definition py_max (l : list T) : result T :=
    match l with [] => Raise ValueError | a :: l => Ok (fold_left nmax l a) end.
  (** max_abs_coil_current (36-41) *)
  Definition measure_current (M : machine T) : result T := max_abs_coil_current (map snd (getCurrents M)).
  (** max_coil_force (44-46): [force[0]] of a dictionary with string keys, or of the empty one a
      Solenoid gives, is a KeyError *)
  Definition force_modulus (F : force_val (T:=T)) : result T :=
    match F with FCoil F => Ok (sqrt (nsqr (fst F) + nsqr (snd F))) | FCircuit _ | FEmpty => Raise KeyError end.
  Definition max_coil_force (M : machine T) : result T :=
    let (forces, _) := getForces G mu0 pi sqrt log None M in
    let* l := mapM (fun kv => force_modulus (snd kv)) forces in
    py_max l.

  (** What solve_and_measure (190-200) uses of an equilibrium: the machine and the stored Green's
      functions, here as functions of the grid point; [es_rest] is everything else. *)
  Record estate (S : Type) : Type := mkes { es_tokamak : machine T; es_pgreen : T -> T -> list (string * greens_val (T:=T)); es_rest : S }.
  Arguments es_tokamak {S}. Arguments es_pgreen {S}. Arguments es_rest {S}. Arguments mkes {S}.
  (** picard.solve changes the equilibrium, and may raise; the measure may raise.  [None] is inf. *)
  Definition solve_and_measure {S : Type} (solve : estate S -> estate S * result unit) (measure : estate S -> result T) (e : estate S) : option T * estate S :=
    let e1 := mkes (es_tokamak e) (fun r z => createPsiGreens G (es_tokamak e) r z) (es_rest e) in
    let (e2, r) := solve e1 in
    (match (let* _ := r in measure e2) with Ok v => Some v | Raise _ => None end, e2).
End Measures.
Arguments es_tokamak {T S}. Arguments es_pgreen {T S}. Arguments es_rest {T S}. Arguments mkes {T S}.
