(** scipy.integrate.romb (scipy/integrate/_quadrature.py), which freegs uses for every integral
    over the grid (equilibrium.py, jtor.py, boundary.py). *)
From Coq Require Import List Arith ZArith Bool.
From Verif Require Import Py Num Numpy.
Import ListNotations.
Local Open Scope num_scope.

Section Romb.
  Context {T : Type} `{Num T}.
  Local Notation "'let*' x := e 'in' k" := (bind e (fun x => k))
    (at level 200, x name, e at level 100, k at level 200, right associativity).
  (** while n < Ninterv: n <<= 1; k += 1 *)
  Fixpoint romb_levels (fuel n k Ninterv : nat) : nat * nat :=
    if (n <? Ninterv)%nat
    then match fuel with O => (n, k) | S fuel' => romb_levels fuel' (n + n) (S k) Ninterv end
    else (n, k).
  (** the indices of slice(start, stop, step) *)
  Definition slice_idx (start stop step : nat) : list nat :=
    map (fun t => (start + t * step)%nat) (seq 0 ((stop - start + step - 1) / step)).
  (** for j in range(1, i+1): R[(i, j)] = prev + (prev-R[(i-1, j-1)]) / ((1 << (2*j))-1);
      [x] is R[(i, j)], [prev] are R[(i-1, j)], R[(i-1, j+1)], ... *)
  Fixpoint extrapolate (j : nat) (x : T) (prev : list T) : list T :=
    x :: match prev with
         | [] => []
         | p :: ps => extrapolate (S j) (x + (x - p) / nofZ (4 ^ Z.of_nat (S j) - 1)) ps
         end.
  (** the loop over i; [row] are R[(i-1, 0)], ..., R[(i-1, i-1)] *)
  Fixpoint romb_loop (cnt : nat) (y : nat -> T) (stop start step : nat) (h : T) (row : list T) : list T :=
    match cnt with
    | O => row
    | S cnt' =>
        let start' := (start / 2)%nat in
        let s := lsum (map y (slice_idx start' stop step)) in
        let step' := (step / 2)%nat in
        let x := nlit 1 2 * (nth 0 row n0 + h * s) in
        romb_loop cnt' y stop start' step' (h / n2) (extrapolate 0 x row)
    end.
  (** romb(y, dx) for Nsamps samples *)
  Definition romb (Nsamps : nat) (y : nat -> T) (dx : T) : result T :=
    match Nsamps with
    | O => Raise ValueError
    | S Ninterv =>
        let (n, k) := romb_levels Ninterv 1 0 Ninterv in
        if (n =? Ninterv)%nat
        then
          let h := nofnat Ninterv * dx in
          let row := romb_loop k y Ninterv Ninterv Ninterv h [(y 0%nat + y Ninterv) / n2 * h] in
          Ok (last row n0)
        else Raise ValueError
    end.
  (** romb(romb(a)) for a 2-D array of shape (nx, ny) and unit spacing: first over the last axis *)
  Definition romb2 (nx ny : nat) (a : arr2 T) : result T :=
    let* rows := mapM (fun i => romb ny (a i) n1) (seq 0 nx) in
    romb nx (fun i => nth i rows n0) n1.
End Romb.
