(** Model of Machine.printCurrents (freegs/machine.py 803-807) and of the __repr__ of the coils
    (coil.py 216-219, shaped_coil.py 131-134, filament_coil.py 312-315, multi_coil.py 188-197,
    pre_calc_coil.py 157-160, machine.py 219-228 and 425-428). *)
From Coq Require Import String List ZArith.
From Verif Require Import Py Num Coils Machine.
Import ListNotations.
Local Open Scope string_scope.

Section PrintCurrents.
  Context {T : Type} `{Num T}.
  (** How Python writes numbers, and lists of numbers and of pairs: "{}".format of a float, "{:.1f}".format of a
      float, "{}".format of an int, of a list or array of positions, of a list or array of points,
      and of the pair of polarities *)
  Variables (str fmt1 : T -> string) (zstr : Z -> string) (lstr : list T -> string) (pstr : list (T * T) -> string) (polstr : T * T -> string).
  Definition bstr (b : bool) : string := if b then "True" else "False".

  (** the end that all coils but MultiCoil have in common *)
  Definition coil_end (c : coil T) : string :=
    "current=" ++ fmt1 (c_current c) ++ ", turns=" ++ zstr (c_turns c) ++ ", control=" ++ bstr (c_control c).
  (** __repr__ of Coil, ShapedCoil, FilamentCoil, MultiCoil and PreCalcCoil *)
  Definition coil_repr (c : coil T) : string :=
    match c_kind c with
    | KPoint R Z => "Coil(R=" ++ str R ++ ", Z=" ++ str Z ++ ", " ++ coil_end c ++ ")"
    | KShaped shape _ _ _ => "ShapedCoil(" ++ pstr shape ++ ", " ++ coil_end c ++ ")"
    | KFilament _ points _ _ => "FilamentCoil(" ++ pstr points ++ ", " ++ coil_end c ++ ")"
    | KMulti Rfil Zfil mirror polarity _ =>
        "MultiCoil(R=" ++ lstr Rfil ++ ", Z=" ++ lstr Zfil ++ ", " ++ coil_end c ++ ", mirror=" ++ bstr mirror ++ ", polarity=" ++ polstr polarity ++ ")"
    | KPreCalc shape _ _ => "PreCalcCoil(" ++ pstr shape ++ ", " ++ coil_end c ++ ")"
    end.
  (** one entry of a circuit (machine.py 221-224) *)
  Definition member_repr (m : member T) : string :=
    "(""" ++ m_label m ++ """, " ++ coil_repr (m_coil m) ++ ", " ++ str (m_mult m) ++ ")".
  (** Circuit.__repr__ (219-228) *)
  Definition circuit_repr (ci : circuit T) : string :=
    "Circuit([" ++ String.concat ", " (map member_repr (ci_coils ci)) ++ "], current=" ++ str (ci_current ci) ++ ", control=" ++ bstr (ci_control ci) ++ ")".
  (** Solenoid.__repr__ (425-428) *)
  Definition solenoid_repr (s : solenoid T) : string :=
    "Solenoid(Rs=" ++ str (s_Rs s) ++ ", Zsmin=" ++ str (s_Zsmin s) ++ ", Zsmax=" ++ str (s_Zsmax s) ++ ", current=" ++ str (s_current s)
      ++ ", Ns=" ++ zstr (Z.of_nat (s_Ns s)) ++ ", control=" ++ bstr (s_control s) ++ ")".
  Definition mc_repr (m : mcoil T) : string :=
    match m with MCoil c => coil_repr c | MCircuit ci => circuit_repr ci | MSolenoid s => solenoid_repr s end.
  (** printCurrents (803-807): the lines printed; nothing is changed *)
  Definition printCurrents (M : machine T) : list string :=
    "==========================" :: map (fun lm => fst lm ++ " : " ++ mc_repr (snd lm)) M ++ ["=========================="].
End PrintCurrents.
