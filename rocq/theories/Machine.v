(** Model of freegs/machine.py: Circuit, MirroredCoil, Solenoid, Machine.

    Objects are values; methods that change an object return its new value.  The model has no
    aliasing: a coil object occurring twice in a machine is modelled as two coils. *)
From Coq Require Import List Arith ZArith Bool String.
From Verif Require Import Py Num Numpy Coils.
Import ListNotations.

(** Python dictionaries with string keys, in insertion order. *)
Section Dict.
  Context {V : Type}.
  Fixpoint dict_set (d : list (string * V)) (k : string) (v : V) : list (string * V) :=
    match d with
    | [] => [(k, v)]
    | (k', v') :: d' => if String.eqb k' k then (k', v) :: d' else (k', v') :: dict_set d' k v
    end.
  Fixpoint dict_get (d : list (string * V)) (k : string) : option V :=
    match d with
    | [] => None
    | (k', v') :: d' => if String.eqb k' k then Some v' else dict_get d' k
    end.
End Dict.

Section Machine.
  Context {T : Type} `{Num T}.
  Variable G : field -> T -> T -> T -> T -> T.
  Open Scope num_scope.
  Local Notation "'let*' x := e 'in' k" := (bind e (fun x => k))
    (at level 200, x pattern, e at level 100, k at level 200).

  (** ** Circuit (machine.py 52-290) *)
  Definition member : Type := (string * coil T * T)%type.      (* label, coil, multiplier *)
  Definition m_label (m : member) : string := fst (fst m).
  Definition m_coil (m : member) : coil T := snd (fst m).
  Definition m_mult (m : member) : T := snd m.
  Definition set_m_coil (m : member) (c : coil T) : member := (m_label m, c, m_mult m).
  Record circuit : Type := mkcircuit { ci_coils : list member; ci_current : T; ci_control : bool }.

  (** current setter (105-113) *)
  Definition circuit_set_current (ci : circuit) (value : T) : circuit :=
    mkcircuit (map (fun m => set_m_coil m (set_current (m_coil m) (m_mult m * value))) (ci_coils ci)) value (ci_control ci).
  (** control setter (119-126) *)
  Definition circuit_set_control (ci : circuit) (value : bool) : circuit :=
    mkcircuit (map (fun m => set_m_coil m (set_control (m_coil m) value)) (ci_coils ci)) (ci_current ci) value.
  (** __init__ (85-92): both setters run *)
  Definition Circuit (coils : list member) (current : T) (control : bool) : circuit :=
    circuit_set_control (circuit_set_current (mkcircuit coils current control) current) control.
  (** __getitem__ (94-100) *)
  Definition circuit_getitem (ci : circuit) (name : string) : result (coil T) :=
    match find (fun m => String.eqb (m_label m) name) (ci_coils ci) with
    | Some m => Ok (m_coil m)
    | None => Raise KeyError
    end.
  (** the statement [coil.current = self.current * multiplier] in psi, calcPsiFromGreens, Br, Bz *)
  Definition resync (ci : circuit) : circuit :=
    mkcircuit (map (fun m => set_m_coil m (set_current (m_coil m) (ci_current ci * m_mult m))) (ci_coils ci)) (ci_current ci) (ci_control ci).
  (** psi (128-136), Br (158-166), Bz (168-176) *)
  Definition circuit_field (f : field) (ci : circuit) (R Z : T) : T * circuit :=
    (fold_left (fun result m => result + coil_field G f (set_current (m_coil m) (ci_current ci * m_mult m)) R Z) (ci_coils ci) n0,
     resync ci).
  (** createPsiGreens (138-145) *)
  Definition circuit_greens (ci : circuit) (R Z : T) : list (string * T) :=
    fold_left (fun pgreen m => dict_set pgreen (m_label m) (coil_greens G (m_coil m) R Z)) (ci_coils ci) [].
  (** calcPsiFromGreens (147-156) *)
  Definition circuit_from_greens (ci : circuit) (pgreen : list (string * T)) : result (T * circuit) :=
    let* v := foldM (fun psival m =>
      match dict_get pgreen (m_label m) with
      | None => Raise KeyError
      | Some g => Ok (psival + coil_from_greens (set_current (m_coil m) (ci_current ci * m_mult m)) g)
      end) (ci_coils ci) n0 in
    Ok (v, resync ci).
  (** controlPsi, controlBr, controlBz (178-203) *)
  Definition circuit_ctrl (f : field) (ci : circuit) (R Z : T) : T :=
    fold_left (fun result m => result + m_mult m * coil_control G f (m_coil m) R Z) (ci_coils ci) n0.

  (** MirroredCoil (293-314): the circuit is built with its default current 0.0 and control=True *)
  Definition MirroredCoil (R Z current : T) (turns : BinNums.Z) (control : bool) (area : area_spec T) (symmetric : bool) : circuit :=
    Circuit [("U"%string, Coil R Z current turns control area, n1);
             ("L"%string, Coil R Z current turns control area, if symmetric then n1 else - n1)] n0 true.

  (** ** Solenoid (317-463) *)
  Record solenoid : Type := mksol { s_Rs : T; s_Zsmin : T; s_Zsmax : T; s_Ns : nat; s_current : T; s_control : bool }.
  (** controlPsi, controlBr, controlBz (388-416) *)
  Definition sol_ctrl (f : field) (s : solenoid) (R Z : T) : T :=
    fold_left (fun result Zs => result + G f (s_Rs s) Zs R Z) (map (linspace (s_Zsmin s) (s_Zsmax s) (s_Ns s)) (seq 0 (s_Ns s))) n0.
  (** psi, createPsiGreens, calcPsiFromGreens, Br, Bz (358-386) *)
  Definition sol_field (f : field) (s : solenoid) (R Z : T) : T := sol_ctrl f s R Z * s_current s.

  (** ** Machine (627-868) *)
  Inductive mcoil : Type := MCoil (c : coil T) | MCircuit (ci : circuit) | MSolenoid (s : solenoid).
  Definition machine : Type := list (string * mcoil).

  Definition mc_current (m : mcoil) : T :=
    match m with MCoil c => c_current c | MCircuit ci => ci_current ci | MSolenoid s => s_current s end.
  Definition mc_control (m : mcoil) : bool :=
    match m with MCoil c => c_control c | MCircuit ci => ci_control ci | MSolenoid s => s_control s end.
  Definition mc_set_current (m : mcoil) (I : T) : mcoil :=
    match m with
    | MCoil c => MCoil (set_current c I)
    | MCircuit ci => MCircuit (circuit_set_current ci I)
    | MSolenoid s => MSolenoid (mksol (s_Rs s) (s_Zsmin s) (s_Zsmax s) (s_Ns s) I (s_control s))
    end.
  Definition mc_set_control (m : mcoil) (b : bool) : mcoil :=
    match m with
    | MCoil c => MCoil (set_control c b)
    | MCircuit ci => MCircuit (circuit_set_control ci b)
    | MSolenoid s => MSolenoid (mksol (s_Rs s) (s_Zsmin s) (s_Zsmax s) (s_Ns s) (s_current s) b)
    end.
  Definition mc_field (f : field) (m : mcoil) (R Z : T) : T * mcoil :=
    match m with
    | MCoil c => (coil_field G f c R Z, m)
    | MCircuit ci => let (v, ci') := circuit_field f ci R Z in (v, MCircuit ci')
    | MSolenoid s => (sol_field f s R Z, m)
    end.
  Definition mc_ctrl (f : field) (m : mcoil) (R Z : T) : T :=
    match m with MCoil c => coil_control G f c R Z | MCircuit ci => circuit_ctrl f ci R Z | MSolenoid s => sol_ctrl f s R Z end.

  (** psi (702-709), Br (733-741), Bz (743-751) *)
  Fixpoint machine_field_from (acc : T) (f : field) (M : machine) (R Z : T) : T * machine :=
    match M with
    | [] => (acc, [])
    | (label, m) :: M' =>
        let (v, m') := mc_field f m R Z in
        let (r, M'') := machine_field_from (acc + v) f M' R Z in (r, (label, m') :: M'')
    end.
  Definition machine_field : field -> machine -> T -> T -> T * machine := machine_field_from n0.

  (** __getitem__ (674-678) *)
  Definition machine_getitem (M : machine) (name : string) : result mcoil :=
    match find (fun lm => String.eqb (fst lm) name) M with Some lm => Ok (snd lm) | None => Raise KeyError end.

  (** Entries of the dictionary of Green's functions *)
  Inductive greens_val : Type := GNum (g : T) | GDict (d : list (string * T)).
  Definition mc_greens (m : mcoil) (R Z : T) : greens_val :=
    match m with
    | MCoil c => GNum (coil_greens G c R Z)
    | MCircuit ci => GDict (circuit_greens ci R Z)
    | MSolenoid s => GNum (sol_ctrl FPsi s R Z)
    end.
  (** calcPsiFromGreens of one coil.  With repeated labels a coil may get the entry of a circuit
      or the other way round: multiplying by a dictionary, or indexing an array with a string,
      raises (the class of the exception is not distinguished). *)
  Definition mc_from_greens (m : mcoil) (g : greens_val) : result (T * mcoil) :=
    match m, g with
    | MCoil c, GNum v => Ok (coil_from_greens c v, m)
    | MSolenoid s, GNum v => Ok (s_current s * v, m)
    | MCircuit ci, GDict d => let* r := circuit_from_greens ci d in Ok (fst r, MCircuit (snd r))
    | _, _ => Raise TypeError
    end.
  (** createPsiGreens (711-720) *)
  Definition createPsiGreens (M : machine) (R Z : T) : list (string * greens_val) :=
    fold_left (fun pgreen lm => dict_set pgreen (fst lm) (mc_greens (snd lm) R Z)) M [].
  (** calcPsiFromGreens (722-731) *)
  Fixpoint calcPsi_from (acc : T) (M : machine) (pgreen : list (string * greens_val)) : result (T * machine) :=
    match M with
    | [] => Ok (acc, [])
    | (label, m) :: M' =>
        match dict_get pgreen label with
        | None => Raise KeyError
        | Some g =>
            let* r := mc_from_greens m g in
            let* r' := calcPsi_from (acc + fst r) M' pgreen in
            Ok (fst r', (label, snd r) :: snd r')
        end
    end.
  Definition calcPsiFromGreens : machine -> list (string * greens_val) -> result (T * machine) := calcPsi_from n0.

  (** Equilibrium.psi() at one grid point (equilibrium.py 296-302): plasma flux plus coil flux from
      the Green's functions [pgreen] made when the equilibrium was created. *)
  Definition eq_psi (plasma_psi : T) (M : machine) (pgreen : list (string * greens_val)) : result T :=
    let* r := calcPsiFromGreens M pgreen in Ok (plasma_psi + fst r).
  (** Equilibrium.psiRZ (equilibrium.py 313-317); at a grid point the spline of the plasma flux
      returns the grid value [plasma_psi]. *)
  Definition eq_psiRZ (plasma_psi : T) (M : machine) (R Z : T) : T :=
    plasma_psi + fst (machine_field FPsi M R Z).

  (** controlBr, controlBz, controlPsi (753-772) *)
  Definition machine_control (f : field) (M : machine) (R Z : T) : list T :=
    map (fun lm => mc_ctrl f (snd lm) R Z) (filter (fun lm => mc_control (snd lm)) M).
  (** controlCurrents (787-791) *)
  Definition controlCurrents (M : machine) : list T :=
    map (fun lm => mc_current (snd lm)) (filter (fun lm => mc_control (snd lm)) M).
  (** the loops of controlAdjust (774-785) and setControlCurrents (793-801): zip of the
      controlled coils and the given list, stopping at the shorter *)
  Fixpoint zip_controls (upd : mcoil -> T -> mcoil) (M : machine) (l : list T) : machine :=
    match M with
    | [] => []
    | (label, m) :: M' =>
        if mc_control m
        then match l with
             | [] => (label, m) :: zip_controls upd M' []
             | x :: l' => (label, upd m x) :: zip_controls upd M' l'
             end
        else (label, m) :: zip_controls upd M' l
    end.
  Definition controlAdjust : machine -> list T -> machine := zip_controls (fun m dI => mc_set_current m (mc_current m + dI)).
  Definition setControlCurrents : machine -> list T -> machine := zip_controls mc_set_current.

  (** getCurrents (849-856) *)
  Definition getCurrents (M : machine) : list (string * T) :=
    fold_left (fun d lm => dict_set d (fst lm) (mc_current (snd lm))) M [].

  (** ** Forces *)
  (** Numerical constants and functions used by Coil.getForces *)
  Variables (mu0 pi : T) (sqrt log : T -> T).
  (** Field of the plasma ([None]: getForces(None), the machine alone).  For an equilibrium,
      Br(R,Z) = plasmaBr(R,Z) + tokamak.Br(R,Z) (equilibrium.py 319-329). *)
  Variable plasma : option (field -> T -> T -> T).
  Definition eq_field (f : field) (M : machine) (R Z : T) : T * machine :=
    let (v, M') := machine_field f M R Z in
    (match plasma with None => v | Some P => P f R Z + v end, M').

  (** Where a coil object sits: directly in the machine, or member j of the circuit at i. *)
  Inductive place : Type := Direct (i : nat) | InCircuit (i j : nat).
  Definition get_coil (M : machine) (p : place) : option (coil T) :=
    match p with
    | Direct i => match nth_error M i with Some (_, MCoil c) => Some c | _ => None end
    | InCircuit i j =>
        match nth_error M i with
        | Some (_, MCircuit ci) => match nth_error (ci_coils ci) j with Some m => Some (m_coil m) | None => None end
        | _ => None
        end
    end.
  Fixpoint upd_nth {A} (n : nat) (f : A -> A) (l : list A) : list A :=
    match l, n with
    | [], _ => []
    | a :: l', O => f a :: l'
    | a :: l', S n' => a :: upd_nth n' f l'
    end.
  (** assignment to the attribute [current] of the coil object at [p] *)
  Definition assign_current (M : machine) (p : place) (I : T) : machine :=
    match p with
    | Direct i => upd_nth i (fun lm => match snd lm with MCoil c => (fst lm, MCoil (set_current c I)) | _ => lm end) M
    | InCircuit i j =>
        upd_nth i (fun lm => match snd lm with
          | MCircuit ci => (fst lm, MCircuit (mkcircuit (upd_nth j (fun m => set_m_coil m (set_current (m_coil m) I)) (ci_coils ci)) (ci_current ci) (ci_control ci)))
          | _ => lm end) M
    end.

  (** Coil.getForces (coil.py 165-208) for the coil object [c] at place [p] *)
  Definition coil_getForces (M : machine) (p : place) (c : coil T) : (T * T) * machine :=
    let current := c_current c in
    let total_current := current * nofZ (c_turns c) in
    let M0 := assign_current M p n0 in
    let (Br, M1) := eq_field FBr M0 (coil_R c) (coil_Z c) in
    let (Bz, M2) := eq_field FBz M1 (coil_R c) (coil_Z c) in
    let M3 := assign_current M2 p current in
    let minor_radius := sqrt (coil_area c / pi) in
    let self_inductance := nlit 1 2 in
    let self_fr := (mu0 * nsqr total_current / (nofZ 4 * pi * coil_R c))
                   * (log (nofZ 8 * coil_R c / minor_radius) - n1 + self_inductance / n2) in
    let Ltor := n2 * pi * coil_R c in
    (((total_current * Bz + self_fr) * Ltor, - total_current * Br * Ltor), M3).

  Inductive force_val : Type := FCoil (f : T * T) | FCircuit (d : list (string * (T * T))) | FEmpty.
  (** Circuit.getForces (205-214): members [ms] of the circuit at [i], from index [j] on.  The
      current of a member at the time of the call is read from the machine state. *)
  Fixpoint circuit_forces (M : machine) (i j : nat) (ms : list member) (forces : list (string * (T * T))) : list (string * (T * T)) * machine :=
    match ms with
    | [] => (forces, M)
    | m :: ms' =>
        match get_coil M (InCircuit i j) with
        | None => (forces, M)
        | Some c =>
            let (F, M') := coil_getForces M (InCircuit i j) c in
            circuit_forces M' i (S j) ms' (dict_set forces (m_label m) F)
        end
    end.
  (** getForces (832-847): coils from index [i] on *)
  Fixpoint machine_forces_from (M : machine) (i : nat) (rest : machine) (forces : list (string * force_val)) : list (string * force_val) * machine :=
    match rest with
    | [] => (forces, M)
    | (label, m) :: rest' =>
        let (F, M') :=
          match m with
          | MCoil _ =>
              match get_coil M (Direct i) with
              | Some c => let (F, M') := coil_getForces M (Direct i) c in (FCoil F, M')
              | None => (FEmpty, M)
              end
          | MCircuit ci => let (d, M') := circuit_forces M i 0 (ci_coils ci) [] in (FCircuit d, M')
          | MSolenoid _ => (FEmpty, M)
          end in
        machine_forces_from M' (S i) rest' (dict_set forces label F)
    end.
  Definition getForces (M : machine) : list (string * force_val) * machine := machine_forces_from M 0 M [].
End Machine.
Arguments member T : clear implicits.
Arguments circuit T : clear implicits.
Arguments solenoid T : clear implicits.
Arguments mcoil T : clear implicits.
Arguments machine T : clear implicits.
(** The Green's functions the coil classes use (gradshafranov.py 266-314), with the default eps *)
From Coq Require Import Reals.
From Verif Require Import GradShafranov.
Definition green_kernel (ellipk ellipe : R -> R) (f : field) : R -> R -> R -> R -> R :=
  match f with
  | FPsi => Greens ellipk ellipe
  | FBr => GreensBr ellipk ellipe eps_default
  | FBz => GreensBz ellipk ellipe eps_default
  end.
