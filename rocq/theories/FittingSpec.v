(** Vocabulary for the fits of control.py (properties C145 to C147). *)
From Coq Require Import String List Bool.
From Verif Require Import Py Num Coils Machine Fitting.
Import ListNotations.

(** The currents with which an optimiser may stop, and the currents it tried last before. *)
Inductive stops {T A : Type} : search T A -> option (list T) -> list T -> Prop :=
| stops_now : forall x, stops (Stop x) None x
| stops_here : forall x next v y, stops (next v) None y -> stops (Try x next) (Some x) y
| stops_later : forall x next v z y, stops (next v) (Some z) y -> stops (Try x next) (Some z) y.
(** An optimiser that stops with as many currents as it is given. *)
Definition same_number {T A : Type} (n : nat) (s : search T A) : Prop :=
  forall l x, stops s l x -> length x = n.

(** Two machines with the same coils, except that the controlled ones have the currents [l] *)
Inductive controlled_only {T : Type} `{Num T} : machine T -> machine T -> list T -> Prop :=
| co_nil : controlled_only [] [] []
| co_free : forall lb m M M' l, mc_control m = false -> controlled_only M M' l ->
    controlled_only ((lb, m) :: M) ((lb, m) :: M') l
| co_control : forall lb m M M' x l, mc_control m = true -> controlled_only M M' l ->
    controlled_only ((lb, m) :: M) ((lb, mc_set_current m x) :: M') (x :: l).
