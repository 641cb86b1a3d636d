(** Changing the sign and the zero of the flux: psi becomes a psi + c with a = 1 or a = -1. *)
From Coq Require Import List Bool Reals.
From Verif Require Import Py Num Numpy Coils Machine Critical Boundary Jtor Equilibrium.
Import ListNotations.
Local Open Scope R_scope.

(** the flux on the grid *)
Definition shifted (a c : R) (psi : nat -> nat -> R) : nat -> nat -> R := fun i j => a * psi i j + c.
(** a critical point: same place, other flux *)
Definition moved (a c : R) (p : point R) : point R := (fst p, a * snd p + c).
(** the values and the derivatives of the interpolating function *)
Definition follows (a c : R) (f f' : sfun R) : Prop :=
  forall m n r z, f' m n r z = a * f m n r z + match m, n with O, O => c | _, _ => 0 end.
(** both lists of critical points *)
Definition moved2 (a c : R) (l : list (point R) * list (point R)) : list (point R) * list (point R) :=
  (map (moved a c) (fst l), map (moved a c) (snd l)).
Definition unit_sign (a : R) : Prop := a = 1 \/ a = -1.
Definition scal1 (a : R) (v : nat -> R) : nat -> R := fun r => a * v r.
Definition scal2 (a : R) (v : arr2 R) : arr2 R := fun i j => a * v i j.
Definition both_scal (a : R) (r : arr2 R * arr2 R) : arr2 R * arr2 R := (scal2 a (fst r), scal2 a (snd r)).
(** the LU solve commutes with the factor *)
Definition lu_follows (lu : nat -> arr2 R -> (nat -> R) -> (nat -> R)) (a : R) : Prop := forall N A b, lu N A (scal1 a b) = scal1 a (lu N A b).
Definition moved_bndry (a c : R) (pb : option R) : option R := match pb with Some v => Some (a * v + c) | None => None end.
(** the boundary flux used by core_mask *)
Definition bndry_used (xpt : list (point R)) (pb : option R) : option R := match pb with Some v => Some v | None => option_map snd (hd_error xpt) end.
(** the constrained profile with the plasma current times a, and what Jtor leaves in it *)
Definition with_Ip (a : R) (p : @cprofile R) : @cprofile R := mkcprofile (target p) (a * Ip p) (fvac_ p) (alpha_m p) (alpha_n p) (Raxis p).
Definition moved_state (a c : R) (s : @cstate R) : @cstate R := mkcstate (a * L s) (Beta0 s) (a * Jtor.psi_bndry s + c) (a * Jtor.psi_axis s + c).
Definition moved_J (a c : R) (r : arr2 R * @cstate R) : arr2 R * @cstate R := (fun i j => a * fst r i j, moved_state a c (snd r)).
(** profiles given as functions *)
Definition with_slope (a : R) (p : @fprofile R) : @fprofile R := mkfprofile (fun x => a * fpprime p x) (fun x => a * fffprime p x) (ffvac p) (p_func p) (f_func p).
Definition moved_fstate (a c : R) (s : @fstate R) : @fstate R := mkfstate (a * f_bndry s + c) (a * f_axis s + c).
Definition moved_fJ (a c : R) (r : arr2 R * @fstate R) : arr2 R * @fstate R := (fun i j => a * fst r i j, moved_fstate a c (snd r)).
(** the coils with all currents times a, set with the coils' own setters *)
Definition turned_machine (a : R) (M : @machine R) : @machine R := map (fun lm => (fst lm, mc_set_current (snd lm) (a * mc_current (snd lm)))) M.
Definition turned_tok (a : R) (t : @tokamak R) : @tokamak R := mktok (turned_machine a (coils t)) (wall t) (limits t).
Definition moved_b (a c : R) (b : @bstate R) : @bstate R :=
  mkb (option_map (fun v => a * v + c) (Equilibrium.psi_axis b)) (option_map (moved_bndry a c) (Equilibrium.psi_bndry b)) (mask b)
      (option_map (fun v => a * v + c) (psi_xpt b)) (option_map (fun v => a * v + c) (psi_limit b)) (is_limited b) (lim b).
(** the equilibrium with all currents times a and c added to the flux *)
Definition turned {P Ctl} (rp : P -> P) (a c : R) (e : equilibrium R P Ctl) : equilibrium R P Ctl :=
  mkeq (e_nx e) (e_ny e) (Rmin e) (Rmax e) (Zmin e) (Zmax e) (turned_tok a (tok e)) (bnd e) (order e) (slv e) (check_limited e)
       (shifted a c (plasma_psi e)) (pgreen e) (a * current e) (option_map (fun J i j => a * J i j) (jtor e)) (moved_b a c (bs e))
       (option_map rp (profiles e)) (control e).
(** the interpolation of scipy commutes with the change *)
Definition spline_follows (spline : nat -> nat -> (nat -> R) -> (nat -> R) -> arr2 R -> sfun R) (a c : R) : Prop :=
  forall n m x y z, follows a c (spline n m x y z) (spline n m x y (shifted a c z)).
