(** Model of saving and loading: to_numpy_array and from_numpy_array of the coil classes, and
    freegs/dump.py.

    A NumPy array with a structured dtype is a value of [dataset], one constructor for each dtype;
    the name of the constructor stands for the dtype, so that two arrays have equal dtypes when
    they have the same constructor.  Numbers are stored exactly (no rounding to float64). *)
From Coq Require Import String Ascii List Arith ZArith Bool.
From Verif Require Import Py Num Numpy Polygons Quadrature Coils Machine Sensors Critical Boundary Jtor Equilibrium.
Import ListNotations.
Local Open Scope num_scope.

Section Serial.
  Context {T : Type} `{Num T}.
  Local Notation "'let*' x := e 'in' k" := (bind e (fun x => k))
    (at level 200, x pattern, e at level 100, k at level 200, right associativity).
  (** int() of a float (Solenoid.__init__ calls int(Ns), machine.py 353) *)
  Variable int_of : T -> nat.
  (** fuel for triangulate *)
  Variable fuel : nat.

  (** ** The dtypes *)
  (** Coil.dtype (coil.py 74-82) *)
  Record coil_data : Type := mkcd { d_R : T; d_Z : T; d_current : T; d_turns : BinNums.Z; d_control : bool }.
  Inductive dataset : Type :=
  | DCoil (c : coil_data)
  (** ShapedCoil.dtype (shaped_coil.py 53-63): RZlen, R, Z, current, turns, control, npoints *)
  | DShaped (RZlen : nat) (R Z : list T) (current : T) (turns : BinNums.Z) (control : bool) (npoints : nat)
  (** MultiCoil.dtype (multi_coil.py 68-79) *)
  | DMulti (RZlen : nat) (R Z : list T) (current : T) (turns : BinNums.Z) (control mirror : bool) (polarity : T * T)
  (** PreCalcCoil.dtype (pre_calc_coil.py 56-65) *)
  | DPreCalc (RZlen : nat) (R Z : list T) (current : T) (turns : BinNums.Z) (control : bool)
  (** Circuit.dtype (machine.py 77-83): an array of label, coil, multiplier *)
  | DCircuit (l : list (string * coil_data * T))
  (** Solenoid.dtype (machine.py 330-339): Rs, Zsmin, Zsmax, Ns (a float), current, control *)
  | DSolenoid (Rs Zsmin Zsmax Ns current : T) (control : bool).

  (** Class names, coil.__class__.__name__ *)
  Inductive class : Type := CCoil | CShaped | CFilament | CMulti | CPreCalc | CCircuit | CSolenoid.

  (** AreaCurrentLimit() (coil.py 39), the default area of Coil (coil.py 84-86) *)
  Definition default_area : area_spec T := ALimit (nofZ 3500000000).

  (** R = np.zeros(n); R[:len(l)] = l : NumPy refuses to put more than n values there *)
  Definition padded (n : nat) (l : list T) : result (list T) :=
    if (List.length l <=? n)%nat then Ok (l ++ repeat n0 (n - List.length l))%list else Raise ValueError.

  (** ** to_numpy_array *)
  (** Coil (coil.py 233-239), ShapedCoil (shaped_coil.py 194-215), MultiCoil (multi_coil.py
      211-235), PreCalcCoil (pre_calc_coil.py 220-233).  FilamentCoil has none of its own: the
      inherited one makes a tuple of five and converts it to the dtype of FilamentCoil, which has
      seven fields (filament_coil.py 182-192). *)
  Definition coil_to_numpy (c : coil T) : result dataset :=
    match c_kind c with
    | KPoint R Z => Ok (DCoil (mkcd R Z (c_current c) (c_turns c) (c_control c)))
    | KShaped shape npoints _ _ =>
        let* R := padded 10 (map fst shape) in
        let* Z := padded 10 (map snd shape) in
        Ok (DShaped (List.length shape) R Z (c_current c) (c_turns c) (c_control c) npoints)
    | KFilament _ _ _ _ => Raise ValueError
    | KMulti Rfil Zfil mirror polarity _ =>
        if (List.length Rfil <=? 500)%nat then
          let* R := padded 500 Rfil in
          let* Z := padded 500 Zfil in
          Ok (DMulti (List.length Rfil) R Z (c_current c) (c_turns c) (c_control c) mirror polarity)
        else Raise AssertionError
    | KPreCalc shape _ _ =>
        let* R := padded 10 (map fst shape) in
        let* Z := padded 10 (map snd shape) in
        Ok (DPreCalc (List.length shape) R Z (c_current c) (c_turns c) (c_control c))
    end.
  (** Circuit (machine.py 240-250).  The second field has Coil.dtype: an array of another dtype,
      with another number of fields, is refused (the exception is NumPy's). *)
  Definition member_to_numpy (m : @member T) : result (string * coil_data * T) :=
    let* d := coil_to_numpy (m_coil m) in
    match d with
    | DCoil c => Ok (m_label m, c, m_mult m)
    | _ => Raise ValueError
    end.
  Definition circuit_to_numpy (ci : @circuit T) : result dataset :=
    let* l := mapM member_to_numpy (ci_coils ci) in
    Ok (DCircuit l).
  (** Solenoid (machine.py 443-450) *)
  Definition solenoid_to_numpy (s : @solenoid T) : result dataset :=
    Ok (DSolenoid (s_Rs s) (s_Zsmin s) (s_Zsmax s) (nofnat (s_Ns s)) (s_current s) (s_control s)).
  Definition to_numpy (m : @mcoil T) : result dataset :=
    match m with
    | MCoil c => coil_to_numpy c
    | MCircuit ci => circuit_to_numpy ci
    | MSolenoid s => solenoid_to_numpy s
    end.

  (** ** from_numpy_array *)
  (** Coil( *value ) for a value of Coil.dtype: the area is the default one *)
  Definition coil_of_data (d : coil_data) : coil T :=
    Coil (d_R d) (d_Z d) (d_current d) (d_turns d) (d_control d) default_area.
  (** Coil (coil.py 241-249), inherited by FilamentCoil (whose dtype no array here has);
      ShapedCoil (shaped_coil.py 217-239); MultiCoil (multi_coil.py 237-262, which asks for a
      field that its dtype does not have); Circuit (machine.py 252-277); Solenoid (machine.py
      452-460).  PreCalcCoil inherits Coil's, which would make a Coil with arrays for Z and
      current: that object is not modelled, and no file contains such an array (see [write]). *)
  Definition from_numpy (k : class) (d : dataset) : result (@mcoil T) :=
    match k, d with
    | CCoil, DCoil c => Ok (MCoil (coil_of_data c))
    | CShaped, DShaped n R Z current turns control npoints =>
        let* c := ShapedCoil fuel (combine (firstn n R) (firstn n Z)) current turns control npoints in
        Ok (MCoil c)
    | CCircuit, DCircuit l =>
        match l with
        | [] => Raise IndexError
        | (_, c, m) :: _ =>
            Ok (MCircuit (Circuit (map (fun x => (fst (fst x), coil_of_data (snd (fst x)), snd x)) l)
                                  (d_current c / m) (d_control c)))
        end
    | CSolenoid, DSolenoid Rs Zsmin Zsmax Ns current control =>
        Ok (MSolenoid (mksol Rs Zsmin Zsmax (int_of Ns) current control))
    | _, _ => Raise ValueError
    end.

  Definition class_of (m : @mcoil T) : class :=
    match m with
    | MCoil c => match c_kind c with
                 | KPoint _ _ => CCoil | KShaped _ _ _ _ => CShaped | KFilament _ _ _ _ => CFilament
                 | KMulti _ _ _ _ _ => CMulti | KPreCalc _ _ _ => CPreCalc
                 end
    | MCircuit _ => CCircuit
    | MSolenoid _ => CSolenoid
    end.
  (** The keys of type_to_dtype (dump.py 122-128) *)
  Definition has_type (k : class) : bool :=
    match k with CCoil | CShaped | CFilament | CCircuit | CSolenoid => true | CMulti | CPreCalc => false end.

  (** ** The file *)
  (** Members of the HDF5 group "coils": a dataset with its attribute "freegs type", or a group *)
  Inductive entry : Type := EData (k : class) (d : dataset) | EGroup.
  Definition slash : ascii := "/"%char.
  Definition has_slash (s : string) : bool := existsb (Ascii.eqb slash) (list_ascii_of_string s).
  Fixpoint before_slash (s : string) : string :=
    match s with
    | EmptyString => EmptyString
    | String a s' => if Ascii.eqb a slash then EmptyString else String a (before_slash s')
    end.
  (** coils_group.create_dataset(label, ...) and the attribute (dump.py 176-182).  HDF5 takes a
      label with a slash in it for a path and makes a group for the part before the slash.
      Simplified: the empty label, labels that begin with a slash and the label "." are refused
      here, whatever HDF5 makes of them, and what is inside of a group is not followed (no two
      labels with a slash are equal here). *)
  Definition create (g : list (string * entry)) (label : string) (k : class) (d : dataset) : result (list (string * entry)) :=
    let name := before_slash label in
    if String.eqb name "" || String.eqb name "." then Raise ValueError
    else if has_slash label then
      match dict_get g name with
      | None => Ok (g ++ [(name, EGroup)])%list
      | Some EGroup => Ok g
      | Some (EData _ _) => Raise ValueError
      end
    else
      match dict_get g name with
      | None => Ok (g ++ [(name, EData k d)])%list
      | Some _ => Raise ValueError
      end.
  (** The loop over the coils (dump.py 172-182) *)
  Definition write_coils (M : @machine T) : result (list (string * entry)) :=
    foldM (fun g lm =>
      if has_type (class_of (snd lm)) then
        let* d := to_numpy (snd lm) in
        create g (fst lm) (class_of (snd lm)) d
      else Raise ValueError) M [].
  (** coil_group.items() (dump.py 206-210): in the order of the names, byte by byte *)
  Fixpoint insert {V : Type} (x : string * V) (l : list (string * V)) : list (string * V) :=
    match l with
    | [] => [x]
    | y :: l' => if String.leb (fst x) (fst y) then x :: l else y :: insert x l'
    end.
  Definition items {V : Type} (l : list (string * V)) : list (string * V) := fold_right insert [] l.
  (** make_coil_set and the list of coils (dump.py 200-210); a group has no attribute "freegs type" *)
  Definition read_coils (g : list (string * entry)) : result (@machine T) :=
    mapM (fun le => match snd le with
                    | EData k d => let* m := from_numpy k d in Ok (fst le, m)
                    | EGroup => Raise KeyError
                    end) (items g).

  (** What is in the file, as far as read_equilibrium looks at it (the arrays R_1D, R, Z_1D, Z
      and psi are written too; of R only the shape is read).  [f_shape] is the shape of R. *)
  Record file : Type := mkfile {
    f_Rmin : T; f_Rmax : T; f_Zmin : T; f_Zmax : T; f_shape : nat * nat; f_current : T;
    f_plasma_psi : arr2 T; f_boundary : string; f_wall : option (list (T * T)); f_coils : list (string * entry) }.

  Context {P Ctl : Type}.
  Variable G : field -> T -> T -> T -> T -> T.
  Variables (sqrt exp : T -> T) (mu0 : T).
  Variable lu : nat -> arr2 T -> (nat -> T) -> (nat -> T).
  Variable spline : nat -> nat -> (nat -> T) -> (nat -> T) -> arr2 T -> sfun T.

  (** equilibrium._applyBoundary.__name__ (dump.py 161-163); [user] is the name of a function of
      the user's *)
  Definition boundary_name (user : string) (b : @boundary T) : string :=
    match b with
    | BFixed => "fixedBoundary"
    | BFree => "freeBoundary"
    | BHagenow => "freeBoundaryHagenow"
    | BUser _ => user
    end.
  (** boundary.__dict__[name] (dump.py 230-239).  The other names in that module ("Greens",
      "romb", ...) are treated as missing. *)
  Definition boundary_of_name (name : string) : result (@boundary T) :=
    if String.eqb name "fixedBoundary" then Ok BFixed
    else if String.eqb name "freeBoundary" then Ok BFree
    else if String.eqb name "freeBoundaryHagenow" then Ok BHagenow
    else Raise KeyError.

  (** OutputFile.write_equilibrium (dump.py 111-182) into a new file; [w] is tokamak.wall *)
  Definition write (user : string) (e : @equilibrium T P Ctl) (w : option (list (T * T))) : result file :=
    let* _ := total_psi e in
    let* g := write_coils (coils (tok e)) in
    Ok (mkfile (Rmin e) (Rmax e) (Zmin e) (Zmax e) (e_nx e, e_ny e) (current e) (plasma_psi e)
               (boundary_name user (bnd e)) w g).
  (** OutputFile.read_equilibrium (dump.py 184-254): the equilibrium and its wall.  Machine(coils,
      wall) computes 500 limit points, and Equilibrium gets the default order and check_limited. *)
  Definition read (f : file) : result (@equilibrium T P Ctl * option (list (T * T))) :=
    let* M := read_coils (f_coils f) in
    let* v := Vessel sqrt (f_wall f) 500 in
    let t := mktok M (match v_wall v with Some _ => true | None => false end)
                   (match v_limits v with Some l => l | None => [] end) in
    let* b := boundary_of_name (f_boundary f) in
    let* e := new_equilibrium G exp spline t (f_Rmin f) (f_Rmax f) (f_Zmin f) (f_Zmax f)
                (fst (f_shape f)) (snd (f_shape f)) b (Some (f_plasma_psi f)) (f_current f) 4 false in
    Ok (e, v_wall v).
End Serial.
Arguments dataset T : clear implicits.
Arguments coil_data T : clear implicits.
Arguments entry T : clear implicits.
Arguments file T : clear implicits.
