(** Python-level conventions shared by all model files: exceptions as values. *)
From Coq Require Import List.
Import ListNotations.

(** Exception classes raised by the modelled code (or by the Python runtime on
    its behalf).  [OutOfFuel] is not a Python exception: it is the value of a
    model loop whose fuel ran out, i.e. "has not returned yet". *)
Inductive exn : Type :=
| ValueError | KeyError | IndexError | TypeError | RuntimeError
| AssertionError | AttributeError | ZeroDivisionError | UnboundLocalError
| LinAlgError | OutOfFuel.

Inductive result (A : Type) : Type :=
| Ok : A -> result A
| Raise : exn -> result A.
Arguments Ok {A} _.
Arguments Raise {A} _.

Definition bind {A B} (r : result A) (f : A -> result B) : result B :=
  match r with Ok a => f a | Raise e => Raise e end.

Definition rmap {A B} (f : A -> B) (r : result A) : result B :=
  match r with Ok a => Ok (f a) | Raise e => Raise e end.

Lemma bind_ext {A B} (r : result A) (f g : A -> result B) :
  (forall a, f a = g a) -> bind r f = bind r g.
Proof. intros E. destruct r; cbn; auto. Qed.

(** Map a raising function over a list, left to right, stopping at the first
    exception (Python list comprehension / for loop). *)
Fixpoint mapM {A B} (f : A -> result B) (l : list A) : result (list B) :=
  match l with
  | [] => Ok []
  | a :: l' => bind (f a) (fun b => bind (mapM f l') (fun bs => Ok (b :: bs)))
  end.

Definition exn_eq_dec (a b : exn) : {a = b} + {a <> b}.
Proof. decide equality. Defined.

Definition is_ok {A} (r : result A) : bool :=
  match r with Ok _ => true | Raise _ => false end.

(** for-loop threading a state and stopping at the first exception. *)
Fixpoint foldM {S A} (f : S -> A -> result S) (l : list A) (s : S) : result S :=
  match l with
  | [] => Ok s
  | a :: l' => bind (f s a) (foldM f l')
  end.

Lemma foldM_app {S A} (f : S -> A -> result S) l1 l2 s :
  foldM f (l1 ++ l2) s = bind (foldM f l1 s) (foldM f l2).
Proof.
  revert s; induction l1 as [|a l1 IH]; intros s; cbn [app foldM bind]; [reflexivity|].
  destruct (f s a); cbn [bind]; auto.
Qed.

(** Nested loops visit the cells of the product list in order. *)
Lemma foldM_nested {S A B} (f : S -> A -> B -> result S) la lb s :
  foldM (fun s a => foldM (fun s b => f s a b) lb s) la s
  = foldM (fun s p => f s (fst p) (snd p)) (list_prod la lb) s.
Proof.
  revert s; induction la as [|a la IH]; intros s; cbn [foldM list_prod]; [reflexivity|].
  rewrite foldM_app.
  assert (E : forall l s0, foldM (fun s p => f s (fst p) (snd p)) (map (fun y => (a, y)) l) s0
            = foldM (fun s b => f s a b) l s0).
  { induction l as [|b l IHl]; intros s0; cbn [map foldM]; [reflexivity|].
    cbn [fst snd]. destruct (f s0 a b); cbn [bind]; auto. }
  rewrite E. destruct (foldM (fun s b => f s a b) lb s); cbn [bind]; auto.
Qed.

Lemma foldM_ext {S A} (f g : S -> A -> result S) l s :
  (forall s a, f s a = g s a) -> foldM f l s = foldM g l s.
Proof.
  intros E. revert s; induction l as [|a l IH]; intros s; cbn [foldM]; [reflexivity|].
  rewrite E. destruct (g s a); cbn [bind]; auto.
Qed.
