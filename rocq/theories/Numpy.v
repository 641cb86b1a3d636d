(** The numpy/scipy primitives whose behaviour matters, modelled concretely. *)
From Coq Require Import List Arith ZArith Bool Lia.
From Verif Require Import Py Num.
Import ListNotations.

(** 2D arrays: index functions; the shape is passed separately where needed. *)
Definition arr2 (T : Type) : Type := nat -> nat -> T.
(** In-place assignment [a[x,y] = v] for indices inside the shape. *)
Definition upd2 {T} (a : arr2 T) (x y : nat) (v : T) : arr2 T :=
  fun x' y' => if ((x' =? x) && (y' =? y))%nat%bool then v else a x' y'.
Definition zeros2 {T} `{Num T} : arr2 T := fun _ _ => n0.

(** [range(a, b)] *)
Definition range (a b : nat) : list nat := seq a (b - a).

(** Index normalisation of Python/numpy: negative indices count from the end,
    anything outside raises IndexError. *)
Definition pyindex (n : nat) (i : Z) : result nat :=
  (if (0 <=? i) && (i <? Z.of_nat n) then Ok (Z.to_nat i)
   else if (- Z.of_nat n <=? i) && (i <? 0) then Ok (Z.to_nat (i + Z.of_nat n))
   else Raise IndexError)%Z.

Section Nums.
  Context {T : Type} `{Num T}.
  Open Scope num_scope.
  (** [numpy.linspace(a, b, n)[i]] for n >= 2. *)
  Definition linspace (a b : T) (n : nat) (i : nat) : T :=
    a + nofnat i * ((b - a) / nofnat (n - 1)).
  (** scipy.sparse lil_matrix of shape (N,N): item assignment and [+=]. *)
  Definition lil_set (N : nat) (A : arr2 T) (i j : Z) (v : T) : result (arr2 T) :=
    bind (pyindex N i) (fun i => bind (pyindex N j) (fun j => Ok (upd2 A i j v))).
  Definition lil_add (N : nat) (A : arr2 T) (i j : Z) (v : T) : result (arr2 T) :=
    bind (pyindex N i) (fun i => bind (pyindex N j) (fun j => Ok (upd2 A i j (A i j + v)))).
  (** [scipy.sparse.eye(N)] *)
  Definition eye : arr2 T := fun i j => if (i =? j)%nat then n1 else n0.
  (** [numpy.searchsorted(x, v)] (side left) for an increasing [x]: number of entries below v *)
  Fixpoint searchsorted (x : list T) (v : T) : nat :=
    match x with [] => O | a :: x' => if a <? v then S (searchsorted x' v) else O end.
  (** [scipy.interpolate.interp1d(x, y, kind="linear")(v)] for increasing [x] and one
      component of [y] (scipy _call_linear); outside the range it raises. *)
  Definition interp1d (x y : list T) (v : T) : result T :=
    if (v <? nth 0 x n0) || (nth (List.length x - 1) x n0 <? v) then Raise ValueError
    else
      let hi := Nat.min (Nat.max (searchsorted x v) 1) (List.length x - 1) in
      let lo := (hi - 1)%nat in
      let slope := (nth hi y n0 - nth lo y n0) / (nth hi x n0 - nth lo x n0) in
      Ok (slope * (v - nth lo x n0) + nth lo y n0).
  (** [numpy.cumsum] of a list, with start value *)
  Fixpoint cumsum_from (acc : T) (l : list T) : list T :=
    match l with [] => [] | a :: l' => (acc + a) :: cumsum_from (acc + a) l' end.
End Nums.
