(** Specification notions for moving coils, cross-sections and labels. *)
From Coq Require Import List Arith ZArith Bool String Reals.
From Verif Require Import Py Num Numpy Coils Machine MachineSpec.
Import ListNotations.
Local Open Scope R_scope.

(** A filament moved by (dr, dz) *)
Definition moved (dr dz : R) (p : filament) : filament := ((fst (fst p) + dr, snd (fst p) + dz), snd p).
(** Everything about a coil except where it is *)
Definition same_settings (c c' : coil R) : Prop :=
  c_current c' = c_current c /\ c_turns c' = c_turns c /\ c_control c' = c_control c /\ c_area c' = c_area c.
Definition is_mirrored (c : coil R) : bool := match c_kind c with KMulti _ _ m _ _ => m | _ => false end.
(** The filaments above and below the midplane of a mirrored pair *)
Definition upper_half (c : coil R) : list filament :=
  match c_kind c with KMulti Rf Zf _ pol _ => map (fun p => (p, fst pol)) (combine Rf Zf) | _ => coil_filaments c end.
Definition lower_half (c : coil R) : list filament :=
  match c_kind c with
  | KMulti Rf Zf true pol _ => map (fun p => ((fst p, - snd p), snd pol)) (combine Rf Zf)
  | _ => []
  end.
(** The outline a coil was given, if it has one *)
Definition outline (c : coil R) : option (list (R * R)) :=
  match c_kind c with KShaped s _ _ _ | KFilament s _ _ _ | KPreCalc s _ _ => Some s | _ => None end.
(** A Green's function which depends on heights through their difference only *)
Definition height_invariant (G : field -> R -> R -> R -> R -> R) : Prop :=
  forall f rc zc r z d, G f rc (zc + d) r (z + d) = G f rc zc r z.
(** The magnetic field as central differences of the flux, with step [h] (Br = -(1/R) dpsi/dZ,
    Bz = (1/R) dpsi/dR). *)
Definition difference_Br (h : R) (psi : R -> R -> R) (r z : R) : R := - ((psi r (z + h) - psi r (z - h)) / (2 * h)) / r.
Definition difference_Bz (h : R) (psi : R -> R -> R) (r z : R) : R := (psi (r + h) z - psi (r - h) z) / (2 * h) / r.

(** ** Labels *)
(** [a] is the first, [b] the last entry of [l] with label [k] *)
Definition first_with {A} (key : A -> string) (k : string) (l : list A) (a : A) : Prop :=
  exists l1 l2, l = l1 ++ a :: l2 /\ key a = k /\ Forall (fun x => key x <> k) l1.
Definition last_with {A} (key : A -> string) (k : string) (l : list A) (a : A) : Prop :=
  exists l1 l2, l = l1 ++ a :: l2 /\ key a = k /\ Forall (fun x => key x <> k) l2.

(** ** Stale members *)
(** Two entries of a machine which differ at most in the currents stored in circuit members *)
Definition same_but_stored (m m' : mcoil R) : Prop :=
  match m, m' with
  | MCircuit ci, MCircuit ci' =>
      ci_current ci' = ci_current ci /\ ci_control ci' = ci_control ci /\
      map (fun m => (m_label m, set_current (m_coil m) 0, m_mult m)) (ci_coils ci') =
      map (fun m => (m_label m, set_current (m_coil m) 0, m_mult m)) (ci_coils ci)
  | _, _ => m' = m
  end.
Definition same_up_to_stored (M M' : machine R) : Prop := Forall2 (fun a b => fst a = fst b /\ same_but_stored (snd a) (snd b)) M M'.
