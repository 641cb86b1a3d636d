(** The Green's functions of gradshafranov.py with the not-a-number of floating point arithmetic:
    [None] is nan.  A square root of a negative number and a division by zero give nan, and every
    operation on nan gives nan.  (A nonzero number divided by zero gives an infinity in numpy; the
    model does not tell it from nan.) *)
From Coq Require Import Reals ZArith.
From Verif Require Import Num GradShafranov.
Local Open Scope R_scope.

Section Nan.
  Variables ellipk ellipe : R -> R.
  (** numpy's sqrt *)
  Definition fsqrt (x : R) : option R := if Rlt_dec x 0 then None else Some (sqrt x).
  (** division *)
  Definition fdiv (x y : option R) : option R :=
    match x, y with Some x, Some y => if Req_EM_T y 0 then None else Some (x / y) | _, _ => None end.
  Definition fsub (x y : option R) : option R := match x, y with Some x, Some y => Some (x - y) | _, _ => None end.
  Definition fmul (x y : option R) : option R := match x, y with Some x, Some y => Some (x * y) | _, _ => None end.
  (** clip *)
  Definition fclip (x : option R) (lo hi : R) : option R := match x with Some x => Some (nclip x lo hi) | None => None end.
  (** an elliptic integral *)
  Definition fapp (f : R -> R) (x : option R) : option R := match x with Some x => Some (f x) | None => None end.

  (** Greens (gradshafranov.py 272-292) *)
  Definition fGreens (Rc Zc r z : R) : option R :=
    let k2 := fdiv (Some (4 * r * Rc)) (Some ((r + Rc) ^ 2 + (z - Zc) ^ 2)) in
    let k2 := fclip k2 (1 / 10^10) (1 - 1 / 10^10) in
    let k := match k2 with Some x => fsqrt x | None => None end in
    fdiv (fmul (fmul (Some (mu0 / (2 * PI))) (fsqrt (r * Rc)))
               (fsub (fmul (fsub (Some 2) k2) (fapp ellipk k2)) (fmul (Some 2) (fapp ellipe k2)))) k.
  (** GreensBz (gradshafranov.py 295-303) *)
  Definition fGreensBz (eps Rc Zc r z : R) : option R :=
    fdiv (fsub (fGreens Rc Zc (r + eps) z) (fGreens Rc Zc (r - eps) z)) (Some (2 * eps * r)).
  (** GreensBr (gradshafranov.py 306-314) *)
  Definition fGreensBr (eps Rc Zc r z : R) : option R :=
    fdiv (fsub (fGreens Rc Zc r (z - eps)) (fGreens Rc Zc r (z + eps))) (Some (2 * eps * r)).
End Nan.
