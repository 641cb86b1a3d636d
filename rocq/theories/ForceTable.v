(** Model of Equilibrium.printForces (freegs/equilibrium.py 676-696). *)
From Coq Require Import String List ZArith.
From Verif Require Import Py Num Coils Machine.
Import ListNotations.
Local Open Scope num_scope.
Local Open Scope string_scope.

Section ForceTable.
  Context {T : Type} `{Num T}.
  Variable G : field -> T -> T -> T -> T -> T.
  Variables (mu0 pi : T) (sqrt log : T -> T) (plasma : option (field -> T -> T -> T)).
  (** "{:.2f}".format *)
  Variable fmt : T -> string.

  (** line 689-694 *)
  Definition force_line (prefix label : string) (F : T * T) : string :=
    prefix ++ label ++ " : R = " ++ fmt (fst F * nlit 1 1000) ++ " kN , Z = " ++ fmt (snd F * nlit 1 1000) ++ " kN".
  (** print_forces (682-694) for the dictionary of a circuit, whose values are all pairs *)
  Definition print_members (prefix : string) (d : list (string * (T * T))) : list string :=
    map (fun kv => force_line prefix (fst kv) (snd kv)) d.
  (** print_forces (682-694); the empty dictionary of a Solenoid is a dictionary too *)
  Definition print_forces (prefix : string) (forces : list (string * force_val (T:=T))) : list string :=
    flat_map (fun kv => match snd kv with
      | FCoil F => [force_line prefix (fst kv) F]
      | FCircuit d => (prefix ++ fst kv ++ " (circuit)") :: print_members (prefix ++ "  ") d
      | FEmpty => (prefix ++ fst kv ++ " (circuit)") :: print_members (prefix ++ "  ") []
      end) forces.
  (** printForces: the lines printed, and the machine afterwards *)
  Definition printForces (M : machine T) : list string * machine T :=
    let (forces, M') := getForces G mu0 pi sqrt log plasma M in
    ("Forces on coils" :: print_forces "" forces, M').
End ForceTable.
