(** Model of freegs/optimiser.py (differential evolution).

    Random numbers are read from tapes: [ints] feeds [numpy.random.randint],
    [unis] feeds [numpy.random.random] and [norms] feeds [numpy.random.normal].
    Quantifying over the tapes quantifies over every outcome of the generator.
    Scores are an arbitrary type with a boolean "less than" (so that
    float("inf") of a failed solve is covered). *)
From Coq Require Import List Arith ZArith Bool.
From Verif Require Import Py Num.
Import ListNotations.

Record rng (T : Type) : Type := MkRng {
  ints : nat -> nat; unis : nat -> T; norms : nat -> T }.
Arguments MkRng {T} _ _ _. Arguments ints {T} _ _. Arguments unis {T} _ _. Arguments norms {T} _ _.

Section Rng.
  Context {T : Type}.
  (** numpy.random.randint(0, high): a value in the HALF-OPEN range [0, high);
      ValueError("low >= high") when the range is empty. *)
  Definition randint (high : nat) (g : rng T) : result (nat * rng T) :=
    match high with
    | O => Raise ValueError
    | S _ => Ok (ints g 0 mod high,
                 MkRng (fun n => ints g (S n)) (unis g) (norms g))
    end.
  (** numpy.random.random() *)
  Definition random_uniform (g : rng T) : T * rng T :=
    (unis g 0, MkRng (ints g) (fun n => unis g (S n)) (norms g)).
  (** numpy.random.normal(loc=0.0, scale=1.0) *)
  Definition random_normal (g : rng T) : T * rng T :=
    (norms g 0, MkRng (ints g) (unis g) (fun n => norms g (S n))).
End Rng.

(** bisect.insort on a sorted list: insert to the right of equal elements. *)
Fixpoint insort (x : nat) (l : list nat) : list nat :=
  match l with
  | [] => [x]
  | y :: r => if x <? y then x :: l else y :: insort x r
  end.
(** sorted(e) *)
Definition sorted (l : list nat) : list nat := fold_right insort [] l.

(** optimiser.py 71-73: walk the sorted list, stepping over clashes. *)
Fixpoint bump (v : nat) (inds : list nat) : nat :=
  match inds with
  | [] => v
  | ind :: r => bump (if v =? ind then S v else v) r
  end.

Section Pick.
  Context {T : Type}.
  (** optimiser.py 67-75: the loop [for i in range(m)], with [fuel] = m - i.
      [len_e] is len(e).  (high is a natural number here: Python's negative
      values behave like 0 because of the test [high > 0].) *)
  Fixpoint pick_loop (N len_e i fuel : nat) (inds others : list nat) (g : rng T)
    : result (list nat * rng T) :=
    match fuel with
    | O => Ok (others, g)
    | S fuel' =>
        let high := N - 1 - i - len_e in
        bind (if 0 <? high then randint high g else Ok (0, g)) (fun '(v, g1) =>
        let newind := bump v inds in
        pick_loop N len_e (S i) fuel' (insort newind inds) (others ++ [newind]) g1)
    end.
  (** optimiser.py 59-76 *)
  Definition pickUnique (N m : nat) (e : list nat) (g : rng T)
    : result (list nat * rng T) :=
    if m + length e <=? N
    then pick_loop N (length e) 0 m (sorted e) [] g
    else Raise AssertionError.
End Pick.

(** A control object: optimiser.py 90-95 ([.get(eq)], [.set(eq, value)]).
    [set] returns the modified object. *)
Record control (T Obj : Type) : Type := MkControl {
  cget : Obj -> T; cset : Obj -> T -> Obj }.
Arguments MkControl {T Obj} _ _. Arguments cget {T Obj} _ _. Arguments cset {T Obj} _ _ _.

Section Optimise.
  Context {T : Type} `{Num T} {Obj S : Type}.
  (** [score_lt a b] is Python [a < b] on scores. *)
  Variable score_lt : S -> S -> bool.
  (** The measure may modify the object it is given (optimise.py 199-209
      re-solves the equilibrium): it returns the score and the object as it is
      afterwards.  Exceptions inside [measure] are not modelled here
      (optimise.py turns them into an infinite score). *)
  Variable measure : Obj -> S * Obj.
  Variable controls : list (control T Obj).
  Local Open Scope num_scope.

  (** optimiser.py 49-55 for one control. [obj] is the original, [new] the copy. *)
  Definition mutate_one (obj : Obj) (c : control T Obj) (st : Obj * rng T) : Obj * rng T :=
    let (new, g) := st in
    let (u, g1) := random_uniform g in
    let v := cget c obj * (n1 + nlit 1 10 * (u - nlit 1 2)) in
    if nabs v <? nlit 1 10000000000
    then let (w, g2) := random_normal g1 in (cset c new (v + w), g2)
    else (cset c new v, g1).
  (** optimiser.py 40-56 *)
  Definition mutate (obj : Obj) (g : rng T) : Obj * rng T :=
    fold_left (fun st c => mutate_one obj c st) controls (obj, g).

  Local Notation agent := (S * Obj)%type.

  (** optimiser.py 124-129: the initial population; [k] agents remain to be made. *)
  Fixpoint init_pop (k : nat) (obj : Obj) (best : agent) (pop : list agent) (g : rng T)
    : agent * list agent * rng T :=
    match k with
    | O => (best, pop, g)
    | Datatypes.S k' =>
        let (a, g1) := mutate obj g in
        let sa := measure a in
        let best' := if score_lt (fst best) (fst sa) then sa else best in
        init_pop k' obj best' (pop ++ [sa]) g1
    end.

  (** optimiser.py 139-145: modify the copy of the agent. [i] is the index of the
      first control in [cs]. *)
  Fixpoint apply_controls (R i : nat) (CR F : T) (o0 o1 o2 : Obj)
           (cs : list (control T Obj)) (new : Obj) (g : rng T) : Obj * rng T :=
    match cs with
    | [] => (new, g)
    | c :: cs' =>
        (* [i == R or random.random() < CR]: short circuit, no draw if i == R *)
        let (go, g1) := if (i =? R)%nat then (true, g)
                        else let (u, g') := random_uniform g in (u <? CR, g') in
        let new' := if go then cset c new (cget c o0 + F * (cget c o1 - cget c o2)) else new in
        apply_controls R (Datatypes.S i) CR F o0 o1 o2 cs' new' g1
    end.

  (** optimiser.py 134-145: the trial object for agent number [ai]. *)
  Definition trial (N : nat) (CR F : T) (population : list agent) (ai : nat) (a : agent)
             (g : rng T) : result (Obj * rng T) :=
    bind (pickUnique N 3 [ai] g) (fun '(idx, g1) =>
    bind (mapM (fun i => match nth_error population i with
                         | Some p => Ok (snd p) | None => Raise IndexError end) idx)
      (fun others =>
    match others with
    | [o0; o1; o2] =>
        bind (randint (length controls - 1) g1) (fun '(R, g2) =>
        Ok (apply_controls R 0 CR F o0 o1 o2 controls (snd a) g2))
    | _ => Raise IndexError
    end)).

  (** optimiser.py 133-157: one generation; [todo] are the agents not yet visited. *)
  Fixpoint gen_loop (N : nat) (CR F : T) (population : list agent) (ai : nat)
           (todo : list agent) (next : list agent) (best : agent) (g : rng T)
    : result (agent * list agent * rng T) :=
    match todo with
    | [] => Ok (best, next, g)
    | a :: todo' =>
        bind (trial N CR F population ai a g) (fun '(new, g1) =>
        let sn := measure new in
        if score_lt (fst sn) (fst a)
        then let best' := if score_lt (fst sn) (fst best) then sn else best in
             gen_loop N CR F population (Datatypes.S ai) todo' (next ++ [sn]) best' g1
        else gen_loop N CR F population (Datatypes.S ai) todo' (next ++ [a]) best g1)
    end.

  (** optimiser.py 131-162: [maxgen] generations.  The accumulated list holds what the
      monitor sees after each generation: (best, population). *)
  Fixpoint evolve (N : nat) (CR F : T) (maxgen : nat) (best : agent) (population : list agent)
           (g : rng T) : result (list (agent * list agent) * agent) :=
    match maxgen with
    | O => Ok ([], best)
    | Datatypes.S m =>
        bind (gen_loop N CR F population 0 population [] best g) (fun '(best', next, g') =>
        bind (evolve N CR F m best' next g') (fun '(hist, final) =>
        Ok ((best', next) :: hist, final)))
    end.

  (** optimiser.py 79-166.  Returns the history (first entry: the state before the
      first generation; then one entry per generation, as seen by the monitor) and the
      returned agent. *)
  Definition optimise (obj : Obj) (maxgen N : nat) (CR F : T) (g : rng T)
    : result (list (agent * list agent) * agent) :=
    if (4 <=? N)%nat then
      let first := measure obj in
      (* the starting object has been passed to measure and keeps its changes *)
      let '(best, pop, g1) := init_pop (N - 1) (snd first) first [first] g in
      bind (evolve N CR F maxgen best pop g1) (fun '(hist, final) =>
      Ok ((best, pop) :: hist, final))
    else Raise AssertionError.
End Optimise.
