(** Specification notions for coils and machines, over the reals. *)
From Coq Require Import List Arith ZArith Bool String Reals.
From Verif Require Import Num Numpy Coils Machine.
Import ListNotations.
Local Open Scope R_scope.

(** ** Filaments: (r, z, amp-turns) *)
Definition filament : Type := (R * R * R)%type.
Definition field_of (G : field -> R -> R -> R -> R -> R) (f : field) (l : list filament) (r z : R) : R :=
  lsum (map (fun p => snd p * G f (fst (fst p)) (snd (fst p)) r z) l).
Definition amp_turns (l : list filament) : R := lsum (map snd l).
Definition scale (k : R) (l : list filament) : list filament := map (fun p => (fst p, k * snd p)) l.

(** Filaments of a coil carrying unit current.  A PreCalcCoil has none. *)
Definition coil_filaments (c : coil R) : list filament :=
  match c_kind c with
  | KPoint r z => [((r, z), IZR (c_turns c))]
  | KShaped _ _ points _ => scale (IZR (c_turns c)) points
  | KFilament _ points n _ => map (fun p => (p, IZR (c_turns c) / INR n)) points
  | KMulti Rf Zf mirror pol _ =>
      map (fun p => (p, fst pol)) (combine Rf Zf) ++
      (if mirror then map (fun p => ((fst p, - snd p), snd pol)) (combine Rf Zf) else [])
  | KPreCalc _ _ _ => []
  end.
Definition is_precalc (c : coil R) : bool := match c_kind c with KPreCalc _ _ _ => true | _ => false end.
(** Filaments of an entry of a machine with their actual amp-turns.  A circuit member carries
    its multiplier times the circuit current; a solenoid is Ns evenly spaced single turns. *)
Definition mcoil_filaments (m : mcoil R) : list filament :=
  match m with
  | MCoil c => scale (c_current c) (coil_filaments c)
  | MCircuit ci => flat_map (fun m => scale (m_mult m * ci_current ci) (coil_filaments (m_coil m))) (ci_coils ci)
  | MSolenoid s => map (fun i => ((s_Rs s, s_Zsmin s + INR i * ((s_Zsmax s - s_Zsmin s) / INR (s_Ns s - 1))), s_current s)) (seq 0 (s_Ns s))
  end.
Definition no_precalc (m : mcoil R) : Prop :=
  match m with
  | MCoil c => is_precalc c = false
  | MCircuit ci => Forall (fun m => is_precalc (m_coil m) = false) (ci_coils ci)
  | MSolenoid _ => True
  end.
Definition machine_filaments (M : machine R) : list filament := flat_map (fun lm => mcoil_filaments (snd lm)) M.

(** ** Consistency of circuits *)
Definition circuit_synced (ci : circuit R) : Prop :=
  Forall (fun m => c_current (m_coil m) = ci_current ci * m_mult m) (ci_coils ci).
Definition mcoil_synced (m : mcoil R) : Prop := match m with MCircuit ci => circuit_synced ci | _ => True end.
Definition machine_synced (M : machine R) : Prop := Forall (fun lm => mcoil_synced (snd lm)) M.

(** What is left of a machine when currents and control flags are disregarded. *)
Definition coil_shape (c : coil R) : coil R := set_control (set_current c 0) false.
Definition member_shape (m : member R) : member R := set_m_coil m (coil_shape (m_coil m)).
Definition mcoil_shape (m : mcoil R) : mcoil R :=
  match m with
  | MCoil c => MCoil (coil_shape c)
  | MCircuit ci => MCircuit (mkcircuit (map member_shape (ci_coils ci)) 0 false)
  | MSolenoid s => MSolenoid (mksol (s_Rs s) (s_Zsmin s) (s_Zsmax s) (s_Ns s) 0 false)
  end.
Definition machine_shape (M : machine R) : machine R := map (fun lm => (fst lm, mcoil_shape (snd lm))) M.

(** Distinct labels, in the machine and in each circuit. *)
Definition labels_distinct (M : machine R) : Prop :=
  NoDup (map fst M) /\
  Forall (fun lm => match snd lm with MCircuit ci => NoDup (map (@m_label R) (ci_coils ci)) | _ => True end) M.

(** ** Histories *)
(** Operations on a circuit *)
Inductive circuit_op : Type :=
| CSetCurrent (I : R) | CSetControl (b : bool) | CField (f : field) (r z : R) | CFromGreens (g : list (string * R)).
(** Operations on a machine.  [OSetCurrent i I]: the attribute current of entry i is assigned. *)
Inductive machine_op : Type :=
| OSetCurrent (i : nat) (I : R) | OSetControl (i : nat) (b : bool)
| OAdjust (dI : list R) | OSetControls (c : list R)
| OField (f : field) (r z : R) | OCached (g : list (string * @greens_val R)).

(** ** Forces *)
(** Force on a current loop of radius r carrying I amp-turns in the field (br, bz), with a
    circular cross-section of area a: hoop force of Garren and Chen with uniform
    internal current. *)
Definition loop_force (mu0 r I a br bz : R) : R * R :=
  (2 * PI * r * I * bz + mu0 * I ^ 2 / 2 * (ln (8 * r / sqrt (a / PI)) - 3 / 4),
   - (2 * PI * r * I * br)).
Definition remove_nth {A} (i : nat) (l : list A) : list A := firstn i l ++ skipn (S i) l.
(** Field of the entries of a machine, as current times unit response. *)
Definition response_sum (G : field -> R -> R -> R -> R -> R) (f : field) (M : machine R) (r z : R) : R :=
  lsum (map (fun lm => mc_current (snd lm) * mc_ctrl G f (snd lm) r z) M).
Definition plasma_field (P : option (field -> R -> R -> R)) (f : field) (r z : R) : R :=
  match P with None => 0 | Some p => p f r z end.
