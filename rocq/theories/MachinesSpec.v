(** Specification notions for the predefined machines, over the reals. *)
From Coq Require Import List Arith ZArith Bool String Reals.
From Verif Require Import Py Num Numpy Coils Machine Machines.
Import ListNotations.
Local Open Scope R_scope.

(** The machine with a current for every label *)
Definition powered {T} `{Num T} (I : string -> T) (M : machine T) : machine T :=
  map (fun lm => (fst lm, mc_set_current (snd lm) (I (fst lm)))) M.

(** Reflection in the midplane leaves the flux and the vertical field of a loop and changes the sign of
    the radial field. *)
Definition parity (f : field) : R := match f with FBr => -1 | _ => 1 end.
Definition mirror_kernel (G : field -> R -> R -> R -> R -> R) : Prop :=
  forall f rc zc r z, G f rc (- zc) r (- z) = parity f * G f rc zc r z.

(** Flux and field of the coils, with the Green's functions of the code *)
Definition coils_field (ellipk ellipe : R -> R) (M : machine R) (f : field) (r z : R) : R :=
  fst (machine_field (green_kernel ellipk ellipe) f M r z).
Definition symmetric (M : machine R) : Prop := forall ellipk ellipe r z,
  let B := coils_field ellipk ellipe M in
  B FPsi r (- z) = B FPsi r z /\ B FBr r (- z) = - B FBr r z /\ B FBz r (- z) = B FBz r z.
Definition antisymmetric (M : machine R) : Prop := forall ellipk ellipe r z,
  let B := coils_field ellipk ellipe M in
  B FPsi r (- z) = - B FPsi r z /\ B FBr r (- z) = B FBr r z /\ B FBz r (- z) = - B FBz r z.

(** The machines of machine.py, as made by the functions without arguments.  The number of steps
    granted to the triangulation of a shaped coil does not matter. *)
Inductive predefined : tokamak R -> Prop :=
| pre_Empty : predefined EmptyTokamak
| pre_Test fuel tk : TestTokamak fuel = Ok tk -> predefined tk
| pre_TestLimited fuel tk : TestTokamakLimited fuel = Ok tk -> predefined tk
| pre_DIIID fuel tk : DIIID fuel = Ok tk -> predefined tk
| pre_MAST : predefined MAST
| pre_MAST_sym : predefined MAST_sym
| pre_TCV : predefined TCV
| pre_MASTU_simple : predefined MASTU_simple
| pre_MASTU tk : MASTU = Ok tk -> predefined tk.
