(** Model of Machine.takeMeasurements and printMeasurements (freegs/machine.py 809-830). *)
From Coq Require Import String List Arith ZArith Bool.
From Verif Require Import Py Num Numpy Coils Machine Sensors.
Import ListNotations.

Section Measurements.
  Context {T : Type} `{Num T}.
  Variable G : field -> T -> T -> T -> T -> T.
  Open Scope num_scope.
  Local Notation "'let*' x := e 'in' k" := (bind e (fun x => k))
    (at level 200, x pattern, e at level 100, k at level 200, right associativity).

  (** The three classes of sensors (514-624).  A Rogowski loop is given by the two shapely
      operations on its outline, the angle of a field sensor by its cosine and sine. *)
  Inductive device : Type :=
  | DRogowski (contains : T -> T -> bool) (overlap : list (T * T) -> T)
  | DField (R Z cos sin : T)
  | DFlux (R Z : T).
  (** A sensor of a machine: name, class and place, and the attributes status and measurement *)
  Record msensor : Type := mkms { ms_name : option string; ms_device : device; ms_state : sensor T }.
  (** What get_measure takes from the equilibrium: the grid with Jtor, the plasma field and the
      plasma flux. *)
  Record plasma_state : Type := mkps { ps_grid : plasma_grid T; ps_field : field -> T -> T -> T; ps_psi : T -> T -> T }.
  (** get_measure of one sensor (529-559, 579-592, 609-621).  [measurement] may be set to None by
      the constructor: [sn_measurement] is then [Some] of an unknown number; here the attribute's
      presence is what matters. *)
  Definition get_measure (s : msensor) (M : machine T) (eq : option plasma_state) : result (msensor * machine T) :=
    match ms_device s with
    | DRogowski contains overlap =>
        let* st := rogowski_measure contains overlap (ms_state s) M (option_map ps_grid eq) in
        Ok (mkms (ms_name s) (ms_device s) st, M)
    | DField R Z cos sin =>
        let (st, M') := field_sensor_measure G (ms_state s) R Z cos sin M (option_map ps_field eq) in
        Ok (mkms (ms_name s) (ms_device s) st, M')
    | DFlux R Z =>
        let (st, M') := flux_loop_measure G (ms_state s) R Z M (option_map ps_psi eq) in
        Ok (mkms (ms_name s) (ms_device s) st, M')
    end.
  Fixpoint measure_all (ss : list msensor) (M : machine T) (eq : option plasma_state) : result (list msensor * machine T) :=
    match ss with
    | [] => Ok ([], M)
    | s :: ss' =>
        let* r := get_measure s M eq in
        let* r' := measure_all ss' (snd r) eq in
        Ok (fst r :: fst r', snd r')
    end.
  (** takeMeasurements (809-814): the default of the attribute sensors is None, over which a loop
      is a TypeError *)
  Definition takeMeasurements (sensors : option (list msensor)) (M : machine T) (eq : option plasma_state) : result (list msensor * machine T) :=
    match sensors with None => Raise TypeError | Some ss => measure_all ss M eq end.
  (** printMeasurements (816-830): name and measurement of every sensor *)
  Definition printMeasurements (sensors : option (list msensor)) (M : machine T) (eq : option plasma_state) : result (list (option string * T)) :=
    let* r := takeMeasurements sensors M eq in
    mapM (fun s => match sn_measurement (ms_state s) with
                   | None => Raise AttributeError
                   | Some v => Ok (ms_name s, v)
                   end) (fst r).
End Measurements.
Arguments msensor T : clear implicits.
Arguments device T : clear implicits.
Arguments plasma_state T : clear implicits.
