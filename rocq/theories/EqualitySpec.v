(** Specification of equality of machines. *)
From Coq Require Import String List Arith ZArith Bool Reals.
From Verif Require Import Py Num Numpy Coils Machine MachineSpec Equality.
Import ListNotations.
Local Open Scope R_scope.

(** a coil that is a single loop *)
Definition is_loop (c : coil R) : Prop := match c_kind c with KPoint _ _ => True | _ => False end.
Definition made_of_loops (m : mcoil R) : Prop :=
  match m with MCoil c => is_loop c | MCircuit ci => Forall (fun x => is_loop (m_coil x)) (ci_coils ci) | MSolenoid _ => True end.
(** the three families *)
Definition same_family (m m' : mcoil R) : Prop :=
  match m, m' with MCoil _, MCoil _ | MCircuit _, MCircuit _ | MSolenoid _, MSolenoid _ => True | _, _ => False end.
(** what a coil is looked up by and how it behaves *)
Definition same_position (c d : coil R) : Prop :=
  coil_R c = coil_R d /\ coil_Z c = coil_Z d /\ c_current c = c_current d /\ c_turns c = c_turns d /\ c_control c = c_control d.
(** walls that can be compared *)
Definition walls_match (w w' : option (list R * list R)) : Prop :=
  match w, w' with
  | None, None => True
  | Some a, Some b => length (fst a) = length (fst b) /\ length (snd a) = length (snd b)
  | _, _ => False
  end.
(** within the tolerances of numpy, relative to the second *)
Definition near (x y : R) : Prop := Rabs (x - y) <= / 100000000 + / 100000 * Rabs y.
Definition walls_near (w w' : option (list R * list R)) : Prop :=
  match w, w' with
  | None, None => True
  | Some a, Some b => Forall2 near (fst a) (fst b) /\ Forall2 near (snd a) (snd b)
  | _, _ => False
  end.
