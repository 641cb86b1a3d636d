(** Model of Sensor.__eq__ (freegs/machine.py 507-508), which all classes of sensors inherit. *)
From Coq Require Import List Arith ZArith Bool.
From Verif Require Import Py Num Numpy Coils Machine Sensors Measurements Equality.
Import ListNotations.

Section SensorEq.
  Context {T : Type} `{Num T}.
  Local Notation "'let*' x := e 'in' k" := (bind e (fun x => k))
    (at level 200, x pattern, e at level 100, k at level 200, right associativity).
  (** A sensor with its attributes R and Z (494-495): the corners of a Rogowski loop, one number each for the others.  numpy
      treats a number like an array of length 1 here. *)
  Record sited : Type := mksited { s_R : list T; s_Z : list T; s_body : msensor T }.
  Definition field_sensor (R Z cos sin : T) : sited := mksited [R] [Z] (mkms None (DField R Z cos sin) (mksensor true None)).
  Definition flux_loop (R Z : T) : sited := mksited [R] [Z] (mkms None (DFlux R Z) (mksensor true None)).
  Definition rogowski (R Z : list T) (contains : T -> T -> bool) (overlap : list (T * T) -> T) : sited :=
    mksited R Z (mkms None (DRogowski contains overlap) (mksensor true None)).
  (** np.allclose(self.R, other.R) and np.allclose(self.Z, other.Z) *)
  Definition sensor_eq (s t : sited) : result bool :=
    let* r := allclose close (s_R s) (s_R t) in if r then allclose close (s_Z s) (s_Z t) else Ok false.
  (** the measurement after get_measure *)
  Definition reading (G : field -> T -> T -> T -> T -> T) (s : sited) (M : machine T) (eq : option (plasma_state T)) : result (option T) :=
    let* r := get_measure G (s_body s) M eq in Ok (sn_measurement (ms_state (fst r))).
End SensorEq.
Arguments sited T : clear implicits.
