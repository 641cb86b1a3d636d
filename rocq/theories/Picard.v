(** Model of freegs/picard.py: the Picard iteration.

    The equilibrium is an abstract state [E] with the operations that solve uses; [Equilibrium.v]
    is an instance ([eq_ops] below).  Operations return the state as they leave it together with
    a value or an exception, so that the number of calls can be followed through failures too.
    Plotting (show, axis, pause) is not modelled. *)
From Coq Require Import List Arith ZArith Bool.
From Verif Require Import Py Num Numpy Coils Machine Critical Equilibrium.
Import ListNotations.
Local Open Scope num_scope.

Section Picard.
  Context {T : Type} `{Num T}.
  (** eq.R.shape *)
  Variables nx ny : nat.
  (** numpy.amax and numpy.amin of an array of this shape, which is not empty *)
  Definition cells (a : arr2 T) : list T := flat_map (fun i => map (a i) (seq 0 ny)) (seq 0 nx).
  Definition amax (a : arr2 T) : T := fold_left nmax (cells a) (a 0%nat 0%nat).
  Definition amin (a : arr2 T) : T := fold_left nmin (cells a) (a 0%nat 0%nat).

  Variable E : Type.
  Record ops := mkops {
    eq_psi : E -> result (arr2 T);                           (* eq.psi() *)
    set_check : bool -> E -> E;                              (* eq.check_limited = b *)
    (* eq.solve(profiles, psi=psi, psi_bndry=pb) *)
    eq_solve : E -> arr2 T -> option T -> E * result unit;
    limited : E -> bool;                                     (* eq.is_limited *)
    (* eq.psi_bndry; [None]: there is no such attribute yet *)
    bndry_flux : E -> option (option T);
    constrain : option (E -> E * result unit) }.
  (** the keyword arguments; the tolerances are finite *)
  Record options := mkopts {
    rtol : T; atol : T; blend : T; user_bndry : option T; maxits : option Z;
    check : bool; wait : bool; limit_it : Z }.
  Variable o : ops.
  Variable p : options.

  (** Local variables at the top of the loop.  [change = None] is numpy.inf; in the history an
      infinite or undefined relative change (the flux is constant) is [None] too.  No comparison
      with a tolerance succeeds for either. *)
  Record vars := mkvars {
    psi : arr2 T; iteration : Z; bndry : T; change : option T; been_limited : bool;
    history : list (T * option T) }.
  Definition below (x : option T) (tol : T) : bool := match x with Some v => v <? tol | None => false end.
  Definition quotient (a b : T) : option T := if b =? n0 then None else Some (a / b).

  Definition run_constrain (e : E) : E * result unit :=
    match constrain o with Some f => f e | None => (e, Ok tt) end.

  (** One turn of the loop (106-233): [inl] the loop is left with this history, [inr] it
      goes on. *)
  Definition turn (e : E) (v : vars) : E * result (list (T * option T) + vars) :=
    let chk := ((limit_it p <=? iteration v)%Z || been_limited v) && check p in
    let e := set_check o chk e in
    match (if chk then match bndry_flux o e with None => Raise AttributeError | Some b => Ok b end
           else Ok (user_bndry p)) with
    | Raise x => (e, Raise x)
    | Ok pb =>
    let (e, r) := eq_solve o e (psi v) pb in
    match r with
    | Raise x => (e, Raise x)
    | Ok _ =>
    let been := been_limited v || limited o e in
    match bndry_flux o e with
    | None => (e, Raise AttributeError)
    | Some ob =>
    let '(b, ch, rel) :=
      match ob with
      | Some b => let c := bndry v - b in (b, Some c, option_map nabs (quotient c b))
      | None => (bndry v, change v, Some (n2 * rtol p))
      end in
    match eq_psi o e with
    | Raise x => (e, Raise x)
    | Ok psi1 =>
    let maxchange := amax (fun i j => nabs (psi v i j - psi1 i j)) in
    let relchange := quotient maxchange (amax psi1 - amin psi1) in
    let hist := history v ++ [(maxchange, relchange)] in
    let ok_to_break := negb (wait p) || limited o e in
    if ((maxchange <? atol p) || below relchange (rtol p))
       && (below rel (rtol p) || below (option_map nabs ch) (atol p))
       && ok_to_break
    then (e, Ok (inl hist))
    else
    let (e, r) := run_constrain e in
    match r with
    | Raise x => (e, Raise x)
    | Ok _ =>
    match eq_psi o e with
    | Raise x => (e, Raise x)
    | Ok psi2 =>
    let psi' := fun i j => (n1 - blend p) * psi2 i j + blend p * psi v i j in
    let it := (iteration v + 1)%Z in
    match maxits p with
    | Some m => if negb (m =? 0)%Z && (m <? it)%Z then (e, Raise RuntimeError)
                else (e, Ok (inr (mkvars psi' it b ch been hist)))
    | None => (e, Ok (inr (mkvars psi' it b ch been hist)))
    end end end end end end end.
  Fixpoint loop (fuel : nat) (e : E) (v : vars) : E * result (list (T * option T)) :=
    match fuel with
    | O => (e, Raise OutOfFuel)
    | S k =>
        let (e, r) := turn e v in
        match r with
        | Raise x => (e, Raise x)
        | Ok (inl h) => (e, Ok h)
        | Ok (inr v) => loop k e v
        end
    end.
  (** solve (27-236): the equilibrium afterwards and the convergence history
      (psi_maxchange, psi_relchange), which is returned if convergenceInfo is set *)
  Definition picard (fuel : nat) (e : E) : E * result (list (T * option T)) :=
    let (e, r) := run_constrain e in
    match r with
    | Raise x => (e, Raise x)
    | Ok _ =>
        match eq_psi o e with
        | Raise x => (e, Raise x)
        | Ok psi0 => loop fuel e (mkvars psi0 0 n0 None false [])
        end
    end.
End Picard.

(** The equilibrium of [Equilibrium.v] with a profile object as a state. *)
Section Instance.
  Context {T : Type} `{Num T} {P Ctl : Type}.
  Variable G : field -> T -> T -> T -> T -> T.
  Variables (sqrt : T -> T) (mu0 : T).
  Variable lu : nat -> arr2 T -> (nat -> T) -> (nat -> T).
  Variable spline : nat -> nat -> (nat -> T) -> (nat -> T) -> arr2 T -> sfun T.
  Local Notation equilibrium := (equilibrium T P Ctl).
  Variable Jtor_call : P -> equilibrium -> arr2 T -> option T -> result (arr2 T * P * @bstate T).
  (** a failing solve leaves the state as it was: a simplification *)
  Definition eq_ops (c : option (equilibrium * P -> (equilibrium * P) * result unit)) : ops (equilibrium * P) :=
    mkops (equilibrium * P) (fun s => total_psi (fst s)) (fun b s => (with_check (fst s) b, snd s))
      (fun s psi pb =>
         match solve G sqrt mu0 lu spline Jtor_call (fst s) (snd s) None (Some psi) pb with
         | Ok e => ((e, match profiles e with Some q => q | None => snd s end), Ok tt)
         | Raise x => (s, Raise x)
         end)
      (fun s => is_limited (bs (fst s))) (fun s => psi_bndry (bs (fst s))) c.
End Instance.
