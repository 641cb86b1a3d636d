(** Specification notions for the control system, over the reals. *)
From Coq Require Import String List Arith ZArith Bool Reals.
From Verif Require Import Py Num Numpy Coils Machine MachineSpec Control.
Import ListNotations.
Local Open Scope R_scope.

Section S.
  Variable G : field -> R -> R -> R -> R -> R.
  Variable P : field -> R -> R -> R.
  (** Flux or field of the equilibrium with machine [M]: plasma plus coils *)
  Definition total (f : field) (M : machine R) (r z : R) : R := P f r z + response_sum G f M r z.
  (** By how much the constraints are missed in a given machine state *)
  Definition residuals (c : constraints R) (M : machine R) : list R :=
    flat_map (fun x => [total FBr M (fst x) (snd x); total FBz M (fst x) (snd x)]) (xpoints c) ++
    map (fun i => total FPsi M (fst (fst i)) (snd (fst i)) - total FPsi M (fst (snd i)) (snd (snd i))) (isoflux c) ++
    map (fun p => total FPsi M (fst (fst p)) (snd (fst p)) - snd p) (psivals c).
  (** Tikhonov cost of changing the controlled currents by [x] *)
  Definition cost (c : constraints R) (M : machine R) (x : list R) : R :=
    lsum (map (fun v => v ^ 2) (residuals c (controlAdjust M x))) + gamma c ^ 2 * lsum (map (fun v => v ^ 2) x).
  Definition dot (a x : list R) : R := lsum (map (fun p => fst p * snd p) (combine a x)).
End S.
(** A linear solver: inv returns a right inverse of every matrix with trivial kernel. *)
Definition trivial_kernel (n : nat) (A : nat -> nat -> R) : Prop :=
  forall x, (forall i, (i < n)%nat -> nsum n (fun j => A i j * x j) = 0) -> forall j, (j < n)%nat -> x j = 0.
Definition inverts (n : nat) (A N : nat -> nat -> R) : Prop :=
  forall i j, (i < n)%nat -> (j < n)%nat -> nsum n (fun k => A i k * N k j) = if (i =? j)%nat then 1 else 0.
Definition inv_ok (inv : nat -> arr2 R -> result (arr2 R)) : Prop :=
  (forall n A, trivial_kernel n A -> is_ok (inv n A) = true) /\
  (forall n A N, inv n A = Ok N -> inverts n A N).
(** A value within optional bounds *)
Definition within (b : option R * option R) (x : R) : Prop :=
  match fst b with Some l => l <= x | None => True end /\ match snd b with Some u => x <= u | None => True end.
(** Weighted mean *)
Definition wmean (a w : list R) : R := lsum (map (fun p => fst p * snd p) (combine a w)) / lsum w.
