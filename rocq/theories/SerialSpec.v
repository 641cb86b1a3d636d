(** Specification notions for saving and loading, over the reals. *)
From Coq Require Import String Ascii List Arith ZArith Bool Reals.
From Verif Require Import Py Num Numpy Coils Machine MachineSpec Serial.
Import ListNotations.
Local Open Scope R_scope.

(** ** The same coil *)
(** All attributes that Coil.__eq__ and ShapedCoil.__eq__ compare, and everything else apart from
    the area of a point coil. *)
Definition restored_coil (c c' : coil R) : Prop :=
  c_kind c' = c_kind c /\ c_current c' = c_current c /\ c_turns c' = c_turns c /\ c_control c' = c_control c /\
  match c_kind c with KPoint _ _ => True | _ => c_area c' = c_area c end.
Definition restored_member (m m' : member R) : Prop :=
  m_label m' = m_label m /\ m_mult m' = m_mult m /\ restored_coil (m_coil m) (m_coil m').
Definition restored (m m' : mcoil R) : Prop :=
  match m, m' with
  | MCoil c, MCoil c' => restored_coil c c'
  | MCircuit a, MCircuit b => Forall2 restored_member (ci_coils a) (ci_coils b) /\ ci_current b = ci_current a /\ ci_control b = ci_control a
  | MSolenoid a, MSolenoid b => b = a
  | _, _ => False
  end.

(** ** The coils that can be saved *)
Definition is_point (c : coil R) : Prop := match c_kind c with KPoint _ _ => True | _ => False end.
(** The flag of a circuit and the flags of its coils agree *)
Definition flags_agree (ci : circuit R) : Prop := Forall (fun m => c_control (m_coil m) = ci_control ci) (ci_coils ci).
Definition savable (fuel : nat) (m : mcoil R) : Prop :=
  match m with
  | MCoil c =>
      match c_kind c with
      | KPoint _ _ => True
      (* as made by the constructor from its present shape, with its present current and flag *)
      | KShaped shape n _ _ => (length shape <= 10)%nat /\ ShapedCoil fuel shape (c_current c) (c_turns c) (c_control c) n = Ok c
      | _ => False
      end
  | MCircuit ci =>
      Forall (fun m => is_point (m_coil m)) (ci_coils ci) /\ circuit_synced ci /\ flags_agree ci /\
      match ci_coils ci with [] => False | m :: _ => m_mult m <> 0 end
  | MSolenoid _ => True
  end.

(** ** Labels *)
(** A label that is a single name for HDF5 *)
Definition plain (label : string) : Prop :=
  label <> ""%string /\ label <> "."%string /\ ~ In "/"%char (list_ascii_of_string label).
(** Strictly increasing in the order of the bytes *)
Fixpoint alphabetical (l : list string) : Prop :=
  match l with
  | [] => True
  | a :: l' => match l' with [] => True | b :: _ => String.leb a b = true end /\ alphabetical l'
  end.
