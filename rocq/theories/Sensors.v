(** Model of the sensors and the wall limit points of freegs/machine.py (466-624, 640-700, 809-814). *)
From Coq Require Import String List Arith ZArith Bool.
From Verif Require Import Py Num Numpy Coils Machine.
Import ListNotations.

Section Sensors.
  Context {T : Type} `{Num T}.
  Open Scope num_scope.
  Local Notation "'let*' x := e 'in' k" := (bind e (fun x => k))
    (at level 200, x pattern, e at level 100, k at level 200).

  (** A sensor: the attribute measurement exists only if the sensor was created switched on, or
      after a measurement (Sensor.__init__ 492-501). *)
  Record sensor : Type := mksensor { sn_status : bool; sn_measurement : option T }.
  Definition Sensor (status : bool) (measurement : T) : sensor :=
    mksensor status (if status then Some measurement else None).

  (** ** RogowskiSensor: shapely operations on its outline are parameters *)
  Variable contains : T -> T -> bool.             (* polygon.contains(Point(r,z)) *)
  Variable overlap : list (T * T) -> T.           (* polygon.intersection(Polygon(l)).area *)

  (** inShape: coil.py 210-214 (inherited by MultiCoil and PreCalcCoil), shaped_coil.py 127-129,
      filament_coil.py 305-310 *)
  Definition coil_inShape (c : coil T) : T :=
    match c_kind c with
    | KShaped shape _ _ _ => overlap shape / coil_area c
    | KFilament _ points npoints _ =>
        fold_left (fun counter p => if contains (fst p) (snd p) then counter + n1 / nofnat npoints else counter) points n0
    | _ => if contains (coil_R c) (coil_Z c) then n1 else n0
    end.
  (** Circuit.inShape (216-217) *)
  Definition circuit_inShape (ci : circuit T) : T :=
    fold_left (fun s m => s + coil_inShape (m_coil m) * m_mult m) (ci_coils ci) n0.
  (** Solenoid has no method inShape *)
  Definition mc_inShape (m : mcoil T) : result T :=
    match m with MCoil c => Ok (coil_inShape c) | MCircuit ci => Ok (circuit_inShape ci) | MSolenoid _ => Raise AttributeError end.

  (** The plasma: grid points (R, Z, Jtor) in order, and the spacings *)
  Record plasma_grid : Type := mkplasma { pg_points : list (T * T * T); pg_dR : T; pg_dZ : T }.
  Definition cell (g : plasma_grid) (R Z : T) : list (T * T) :=
    [(R - pg_dR g / n2, Z + pg_dZ g / n2); (R + pg_dR g / n2, Z + pg_dZ g / n2);
     (R + pg_dR g / n2, Z - pg_dZ g / n2); (R - pg_dR g / n2, Z - pg_dZ g / n2)].
  (** RogowskiSensor.get_measure (529-559) *)
  Definition rogowski_measure (s : sensor) (M : machine T) (eq : option plasma_grid) : result sensor :=
    if sn_status s then
      let* coil_current := foldM (fun acc lm => let* x := mc_inShape (snd lm) in Ok (acc + x * mc_current (snd lm))) M n0 in
      let plasma_current :=
        match eq with
        | None => n0
        | Some g => fold_left (fun acc p => acc + snd p * overlap (cell g (fst (fst p)) (snd (fst p)))) (pg_points g) n0
        end in
      Ok (mksensor true (Some (plasma_current + coil_current)))
    else Ok s.

  (** ** PoloidalFieldSensor.get_measure (579-592); cos and sin of theta are parameters,
      [plasma] the plasma field.  The new machine state is returned too. *)
  Variable G : field -> T -> T -> T -> T -> T.
  Definition field_sensor_measure (s : sensor) (R Z cos sin : T) (M : machine T) (plasma : option (field -> T -> T -> T)) : sensor * machine T :=
    if sn_status s then
      let (br, M1) := machine_field G FBr M R Z in
      let (bz, M2) := machine_field G FBz M1 R Z in
      let f := br * cos + bz * sin in
      let f := match plasma with None => f | Some P => f + (P FBr R Z * cos + P FBz R Z * sin) end in
      (mksensor true (Some f), M2)
    else (s, M).
  (** ** FluxLoopSensor.get_measure (609-621) *)
  Definition flux_loop_measure (s : sensor) (R Z : T) (M : machine T) (plasma : option (T -> T -> T)) : sensor * machine T :=
    if sn_status s then
      let (v, M1) := machine_field G FPsi M R Z in
      (mksensor true (Some match plasma with None => v | Some P => P R Z + v end), M1)
    else (s, M).

  (** ** Wall limit points *)
  Variable sqrt : T -> T.
  Fixpoint diffs (l : list (T * T)) : list (T * T) :=
    match l with
    | [] => []
    | a :: l' => match l' with [] => [] | b :: _ => (fst b - fst a, snd b - snd a) :: diffs l' end
    end.
  (** generate_limit_points (680-700).  A wall with fewer than two points has no last distance. *)
  Definition generate_limit_points (wall : list (T * T)) (nlimit : nat) : result (list (T * T)) :=
    let distance := cumsum_from n0 (map (fun d => sqrt (nsqr (fst d) + nsqr (snd d))) (diffs wall)) in
    match distance with
    | [] => Raise IndexError
    | _ =>
        let total := last distance n0 in
        let distance := map (fun d => d / total) (n0 :: distance) in
        let new_distances := map (linspace n0 n1 nlimit) (seq 0 nlimit) in
        mapM (fun d =>
          let* R := interp1d distance (map fst wall) d in
          let* Z := interp1d distance (map snd wall) d in
          Ok (R, Z)) new_distances
    end.
  (** The attributes wall, limit_points_R, limit_points_Z of a Machine (640-659) *)
  Record vessel : Type := mkvessel { v_wall : option (list (T * T)); v_limits : option (list (T * T)) }.
  Definition Vessel (wall : option (list (T * T))) (nlimit : nat) : result vessel :=
    match wall with
    | None => Ok (mkvessel None None)
    | Some w => let* l := generate_limit_points w nlimit in Ok (mkvessel wall (Some l))
    end.
  (** the statement [machine.wall = wall] (wall is a plain attribute) *)
  Definition assign_wall (v : vessel) (w : list (T * T)) : vessel := mkvessel (Some w) (v_limits v).
End Sensors.
Arguments sensor T : clear implicits.
Arguments vessel T : clear implicits.
Arguments plasma_grid T : clear implicits.
