(** Model of freegs/fieldtracer.py: following field lines.

    [odeint] is not modelled: the right-hand side it is given, [fieldDirection], is, with the array
    [evolving] that is shared by all its calls.  What an integrator does with it is a schedule: a list
    of evaluations, or of Runge-Kutta steps that may be rejected. *)
From Coq Require Import List Arith ZArith Bool.
From Verif Require Import Py Num Numpy Romb Critical Sensors Machine Jtor Equilibrium.
Import ListNotations.
Local Open Scope num_scope.

Section FieldTracer.
  Context {T : Type} `{Num T}.
  Local Notation "'let*' x := e 'in' k" := (bind e (fun x => k))
    (at level 200, x pattern, e at level 100, k at level 200, right associativity).
  Variable sqrt : T -> T.

  (** The parts of the equilibrium used here: the domain, the wall, the field. *)
  Record scene := mkscene {
    s_Rmin : T; s_Rmax : T; s_Zmin : T; s_Zmax : T;
    s_wall : option (list (T * T));
    s_Br : T -> T -> T; s_Bz : T -> T -> T; s_Btor : T -> T -> T }.

  (** eqDomain (28-41): is one point outside? *)
  Definition eqDomain (s : scene) (R Z : T) : bool :=
    let eps := nlit 1 100 in
    ((R <? s_Rmin s + eps) || (s_Rmax s - eps <? R)) || ((Z <? s_Zmin s + eps) || (s_Zmax s - eps <? Z)).

  (** 62-88: does the line from the middle of the domain cross wall segment wi?  A division by zero is
      a NaN or an infinity in the code, where the other conjunct is false. *)
  Definition crosses (s : scene) (wall : list (T * T)) (R Z : T) (wi : nat) : bool :=
    let Rmid := nlit 1 2 * (s_Rmin s + s_Rmax s) in
    let Zmid := nlit 1 2 * (s_Zmin s + s_Zmax s) in
    let p := nth wi wall (n0, n0) in
    let q := nth ((wi + 1) mod length wall) wall (n0, n0) in
    let a := R - Rmid in
    let b := fst q - fst p in
    let c := Z - Zmid in
    let d := snd q - snd p in
    let dr := fst q - Rmid in
    let dz := snd q - Zmid in
    let det := a * d - b * c in
    let alpha := (d * dr - b * dz) / det in
    let beta := (a * dz - c * dr) / det in
    (nlit 1 1000000 <? nabs det) && (n0 <? alpha) && (alpha <? n1) && (n0 <? beta) && (beta <? n1).
  (** wallDomain (43-89) *)
  Definition wallDomain (s : scene) (wall : list (T * T)) (R Z : T) : bool :=
    fold_left (fun outside wi => xorb outside (crosses s wall R Z wi)) (seq 0 (length wall)) false.
  (** __init__ (15-26); a Wall object is always true *)
  Definition outside (s : scene) (R Z : T) : bool :=
    match s_wall s with Some w => wallDomain s w R Z | None => eqDomain s R Z end.

  (** One field line: (R, Z, length) and its rate of change (91-123) *)
  Definition direction (s : scene) (backward : bool) (ev : T) (x : T * T * T) : T * (T * T * T) :=
    let '(R, Z, _) := x in
    let br := s_Br s R Z in
    let bz := s_Bz s R Z in
    let bt := s_Btor s R Z in
    let B := sqrt (nsqr br + nsqr bz + nsqr bt) in
    let ev := if outside s R Z then n0 else ev in
    let common := ev * R / bt in
    let dR := common * br in
    let dZ := common * bz in
    let dl := common * B in
    (ev, if backward then (dR * nofZ (-1), dZ * nofZ (-1), dl) else (dR, dZ, dl)).

  (** reshape((-1, 3)) and column_stack(...).flatten() *)
  Fixpoint rows3 (l : list T) : result (list (T * T * T)) :=
    match l with
    | [] => Ok []
    | a :: b :: c :: l => let* r := rows3 l in Ok ((a, b, c) :: r)
    | _ => Raise ValueError
    end.
  Definition flat3 (l : list (T * T * T)) : list T := flat_map (fun x => let '(a, b, c) := x in [a; b; c]) l.
  (** fieldDirection (91-123) for an array [evolving] with one axis: the new [evolving] and the rates.
      The boolean index has to have the length of [evolving]. *)
  Definition fieldDirection (s : scene) (backward : bool) (ev : list T) (pos : list T) : result (list T * list T) :=
    let* lines := rows3 pos in
    if (length lines =? length ev)%nat then
      let r := map (fun ex => direction s backward (fst ex) (snd ex)) (combine ev lines) in
      Ok (map fst r, flat3 (map snd r))
    else Raise IndexError.

  (** The calls an integrator makes: positions in any order; the rates it gets. *)
  Fixpoint evaluations (s : scene) (backward : bool) (ev : list T) (points : list (list T)) : result (list T * list (list T)) :=
    match points with
    | [] => Ok (ev, [])
    | x :: points =>
        let* (ev, r) := fieldDirection s backward ev x in
        let* (ev, rs) := evaluations s backward ev points in
        Ok (ev, r :: rs)
    end.

  (** An explicit Runge-Kutta step: the rows of the tableau, the weights, the step size and whether
      the integrator keeps the result (an adaptive integrator rejects some). *)
  Record step := mkstep { st_rows : list (list T); st_weights : list T; st_h : T; st_keep : bool }.
  Definition combination (pos : list T) (h : T) (w : list T) (ks : list (list T)) : list T :=
    fold_left (fun acc wk => map (fun ak => fst ak + h * fst wk * snd ak) (combine acc (snd wk))) (combine w ks) pos.
  Fixpoint stages (s : scene) (backward : bool) (ev : list T) (pos : list T) (h : T) (rows ks : list (list T)) : result (list T * list (list T)) :=
    match rows with
    | [] => Ok (ev, ks)
    | a :: rows =>
        let* (ev, k) := fieldDirection s backward ev (combination pos h a ks) in
        stages s backward ev pos h rows (ks ++ [k])
    end.
  Definition rk (s : scene) (backward : bool) (x : list T * list T) (st : step) : result (list T * list T) :=
    let (ev, pos) := x in
    let* (ev, ks) := stages s backward ev pos (st_h st) (st_rows st) [] in
    Ok (ev, if st_keep st then combination pos (st_h st) (st_weights st) ks else pos).
  Definition trace (s : scene) (backward : bool) (ev pos : list T) (sts : list step) : result (list T * list T) :=
    foldM (rk s backward) sts (ev, pos).
  (** The two-step Adams-Bashforth rule, the simplest of the multistep formulas of LSODA (odeint), with the
      rates at the present and at the former position. *)
  Definition adams2 (pos : list T) (h : T) (k k' : list T) : list T := combination pos h [nlit 3 2; nlit (-1) 2] [k; k'].

  (** ** Arrays of starting points of any shape (125-146): shape and elements in C order *)
  Record array := mkarray { a_shape : list nat; a_data : list T }.
  Definition size (sh : list nat) : nat := fold_right Nat.mul 1%nat sh.
  Definition well_formed (a : array) : Prop := length (a_data a) = size (a_shape a).
  (** column_stack of three arrays of one shape, flattened: arrays with at most one axis are columns,
      others are joined along their second axis *)
  Fixpoint rows_of (m k : nat) (l : list T) : list (list T) :=
    match m with O => [] | S m => firstn k l :: rows_of m k (skipn k l) end.
  Definition column_stack (sh : list nat) (x y z : list T) : list T :=
    let (m, k) := match sh with [] => (1, 1)%nat | m :: rest => (m, size rest) end in
    concat (map (fun r => let '(a, b, c) := r in a ++ b ++ c)
                (combine (combine (rows_of m k x) (rows_of m k y)) (rows_of m k z))).
  (** [evolving[mask] = 0.0] with a mask of one axis of length n: IndexError unless the first axis of
      [evolving] has that length *)
  Definition mask_fits (sh : list nat) (n : nat) : bool := match sh with m :: _ => (m =? n)%nat | [] => false end.
  (** The first call of fieldDirection by odeint for starting points [R0], [Z0]: the number of rates is
      the size of [evolving] * R (broadcast; the last axis of [evolving] is 1 or n) three times, and
      odeint raises RuntimeError if it is not the number of unknowns.  The starting position is
      returned. *)
  Definition follow_start (R0 Z0 : array) : result (list T) :=
    if negb (if list_eq_dec Nat.eq_dec (a_shape Z0) (a_shape R0) then true else false) then Raise AssertionError
    else
      let pos := column_stack (a_shape R0) (a_data R0) (a_data Z0) (map (fun _ => n0) (a_data R0)) in
      let* lines := rows3 pos in
      let n := length lines in
      if mask_fits (a_shape R0) n then
        match last (a_shape R0) 0%nat with
        | k =>
            if ((k =? 1) || (k =? n) || (n =? 1))%nat then
              let total := (size (removelast (a_shape R0)) * (if (k =? 1)%nat then n else k))%nat in
              if (3 * total =? length pos)%nat then Ok pos else Raise RuntimeError
            else Raise ValueError
        end
      else Raise IndexError.

  (** The starting points of traceFieldLines (229-236): solwidth/nlines .. solwidth outside the
      separatrix at (rmid, zmid); nlines = 0 divides by zero. *)
  Definition starting_points (rmid zmid solwidth : T) (nlines : nat) : result (list (T * T)) :=
    if (nlines =? 0)%nat then Raise ZeroDivisionError
    else Ok (map (fun k => (linspace (rmid + solwidth / nofnat nlines) (rmid + solwidth) nlines k, zmid)) (seq 0 nlines)).
End FieldTracer.
Arguments scene T : clear implicits.
Arguments step T : clear implicits.
Arguments array T : clear implicits.
