(** The shape of a closed curve given by points, independently of the model. *)
From Coq Require Import List Arith Reals.
Import ListNotations.
Local Open Scope R_scope.

Definition highest (f : R * R -> R) (s : list (R * R)) (p : R * R) : Prop := In p s /\ forall q, In q s -> f q <= f p.
Definition lowest (f : R * R -> R) (s : list (R * R)) (p : R * R) : Prop := In p s /\ forall q, In q s -> f p <= f q.
Definition shift (u v : R) (p : R * R) : R * R := (fst p + u, snd p + v).
Definition scale (k : R) (p : R * R) : R * R := (k * fst p, k * snd p).
Definition mirror (p : R * R) : R * R := (fst p, - snd p).
