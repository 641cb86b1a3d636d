(** C196-C197: up-down symmetry of picard.solve and of the plasma core. *)
From Coq Require Import String List Arith ZArith QArith Bool Reals Lra Lia Classical.
From Verif Require Import Py Num Numpy Romb RombProofs RombExact Multigrid MultigridProofs Gauss Coils Machine Critical CriticalSpec CriticalProofs Boundary BoundarySpec BoundaryProofs PropCritical Jtor JtorSpec JtorProofs PropJtor
  GradShafranov GradShafranovProofs Equilibrium EquilibriumSpec EquilibriumProofs EquilibriumProofs2 EquilibriumProofs3 GSSpec EllipticSpec PropGreens PropBoundary FittingProofs PropSolveFlux PropSolveError PropEquilibrium2 Picard PicardProofs PropPicard PropPicardLimit PropGauge PropReturned PropTrueFlux MachineSpec MachineProofs Machines MachinesSpec MachinesProofs PropMachine PropMachines PropMachinesMade.
Import ListNotations.
Local Open Scope R_scope.

(** ** What the statements mean *)
(** The grid function [f] has the same value above and below the middle of the domain. *)
Definition mirror (nx ny : nat) (f : nat -> nat -> R) : Prop := forall x y, (x < nx)%nat -> (y < ny)%nat -> f x (ny - 1 - y)%nat = f x y.
(** The profile gives such a current density for such a flux. *)
Definition mirror_profile {P Ctl} (Jt : P -> equilibrium R P Ctl -> (nat -> nat -> R) -> option R -> result ((nat -> nat -> R) * P * bstate R)) (e0 : equilibrium R P Ctl) : Prop :=
  forall p e psi pb J p' b, same_grid e0 e -> mirror (e_nx e0) (e_ny e0) psi -> Jt p e psi pb = Ok (J, p', b) -> mirror (e_nx e0) (e_ny e0) J.
(** The flux of the coils on the grid has the symmetry. *)
Definition mirror_coils {P Ctl} (e : equilibrium R P Ctl) : Prop := exists c, coil_flux e c /\ mirror (e_nx e) (e_ny e) c.
(** [K] says something about the machine: it holds after every change of the state that keeps grid, machine and stored Green's functions. *)
Definition about_machine {P Ctl} (K : equilibrium R P Ctl -> Prop) : Prop :=
  forall e e1, same_grid e e1 -> tok e1 = tok e -> pgreen e1 = pgreen e -> K e -> K e1.
(** The control system changes neither the grid nor the plasma flux, and keeps [K] if the plasma flux is symmetric. *)
Definition keeps_control {P Ctl} (K : equilibrium R P Ctl -> Prop) (e0 : equilibrium R P Ctl) (c : option (equilibrium R P Ctl * P -> (equilibrium R P Ctl * P) * result unit)) : Prop :=
  forall f s s1, c = Some f -> same_grid e0 (fst s) -> mirror (e_nx e0) (e_ny e0) (plasma_psi (fst s)) -> K (fst s) -> f s = (s1, Ok tt) ->
    same_grid (fst s) (fst s1) /\ bnd (fst s1) = bnd (fst s) /\ plasma_psi (fst s1) = plasma_psi (fst s) /\ K (fst s1).
(** The control system changes nothing but the currents in the coils, and leaves the flux of the coils symmetric. *)
Definition mirror_control {P Ctl} (c : option (equilibrium R P Ctl * P -> (equilibrium R P Ctl * P) * result unit)) : Prop :=
  forall f s s1, c = Some f -> f s = (s1, Ok tt) -> same_grid (fst s) (fst s1) /\ bnd (fst s1) = bnd (fst s) /\ plasma_psi (fst s1) = plasma_psi (fst s) /\ mirror_coils (fst s1).

(** ** C196 *)
Section Mirror.
  Context {P Ctl : Type}.
  Local Notation eqm := (equilibrium R P Ctl).
  Variables (G : field -> R -> R -> R -> R -> R) (mu : R) (lu : nat -> arr2 R -> (nat -> R) -> (nat -> R)).
  Variable spline : nat -> nat -> (nat -> R) -> (nat -> R) -> arr2 R -> sfun R.
  Variable Jt : P -> eqm -> (nat -> nat -> R) -> option R -> result ((nat -> nat -> R) * P * bstate R).
  Variables (c : option (eqm * P -> (eqm * P) * result unit)) (e0 : eqm).
  (** One solve keeps the symmetry (C168 for order 2, C218 for order 4). *)
  Hypothesis Hsol : forall e e' p psi pb J, same_grid e0 e -> bnd e = bnd e0 -> solve G sqrt mu lu spline Jt e p None (Some psi) pb = Ok e' -> jtor e' = Some J ->
    mirror (e_nx e0) (e_ny e0) J -> mirror (e_nx e0) (e_ny e0) (plasma_psi e').
  Hypothesis HJ : mirror_profile Jt e0.
  Variable K : eqm -> Prop.
  Hypothesis HK : forall e, K e -> mirror_coils e.
  Hypothesis HK1 : about_machine K.
  Hypothesis Hc : keeps_control K e0 c.
  Local Notation nx := (e_nx e0).
  Local Notation ny := (e_ny e0).
  Definition good (e : eqm) : Prop := same_grid e0 e /\ bnd e = bnd e0 /\ mirror nx ny (plasma_psi e) /\ K e.
  Lemma good_total e psi : good e -> total_psi e = Ok psi -> mirror nx ny psi.
  Proof using HK.
    intros ((D & _) & _ & Hp & HKe) E x y Hx Hy. destruct (HK e HKe) as (cf & HC & Hm). injection D as N M _ _ _ _. rewrite N, M in Hm.
    rewrite (HC e psi eq_refl eq_refl E), (HC e psi eq_refl eq_refl E), Hp, Hm by assumption. reflexivity.
  Qed.
  Lemma good_solve e e' p psi pb : good e -> mirror nx ny psi -> solve G sqrt mu lu spline Jt e p None (Some psi) pb = Ok e' ->
    good e' /\ exists J, jtor e' = Some J /\ mirror nx ny J.
  Proof using Hsol HJ HK1.
    intros (Hg & Hbn & Hp & Hcf) Hpsi E.
    destruct (solve_inv _ _ _ _ _ _ _ _ _ _ _ _ E) as (e1 & J & p1 & rhs & x & p' & I & dR & dZ & b & -> & (b1 & b2 & q' & -> & EJ) & _ & _ & _ & _ & _ & _ & _ & Ee).
    assert (HJm : mirror nx ny J) by (refine (HJ _ _ _ _ _ _ _ _ Hpsi EJ); exact Hg).
    assert (EJ' : jtor e' = Some J) by (rewrite Ee; reflexivity).
    assert (Hpm : mirror nx ny (plasma_psi e')) by exact (Hsol e e' p psi pb J Hg Hbn E EJ' HJm).
    split; [|exists J; split; assumption]. split; [|split; [|split; [exact Hpm|]]].
    - apply (same_trans _ e _ Hg). rewrite Ee. split; reflexivity.
    - rewrite Ee. exact Hbn.
    - apply (HK1 e); [rewrite Ee; split; reflexivity|rewrite Ee; reflexivity|rewrite Ee; reflexivity|exact Hcf].
  Qed.
  Lemma good_control s s1 : good (fst s) -> run_constrain _ (eq_ops G sqrt mu lu spline Jt c) s = (s1, Ok tt) -> good (fst s1).
  Proof using Hc.
    intros (Hg & Hbn & Hp & Hcf). unfold run_constrain. cbn [constrain eq_ops]. destruct c as [f|] eqn:Ec; [|intros [= <-]; repeat split; try assumption; apply Hg].
    intros E. destruct (Hc f s s1 eq_refl Hg Hp Hcf E) as (K1 & K2 & K3 & K4). split; [exact (same_trans _ _ _ Hg K1)|]. split; [congruence|]. split; [rewrite K3; exact Hp|exact K4].
  Qed.
  Lemma good_step s s1 psi pb chk : good (fst s) -> mirror nx ny psi -> eq_solve _ (eq_ops G sqrt mu lu spline Jt c) (with_check (fst s) chk, snd s) psi pb = (s1, Ok tt) ->
    good (fst s1) /\ exists J, jtor (fst s1) = Some J /\ mirror nx ny J.
  Proof using Hsol HJ HK1.
    cbn [eq_solve eq_ops fst snd]. intros Hg Hpsi Eq.
    match type of Eq with match ?x with Ok _ => _ | Raise _ => _ end = _ => destruct x as [e1|] eqn:Es end; [|discriminate].
    assert (X := f_equal fst Eq). cbn [fst] in X. subst s1. cbn [fst]. apply (good_solve (with_check (fst s) chk) e1 (snd s) psi pb); [|exact Hpsi|exact Es]. destruct Hg as (G1 & G2 & G3 & G4). repeat (split; [assumption|]). apply (HK1 (fst s)); [split; reflexivity|reflexivity|reflexivity|exact G4].
  Qed.
  Lemma good_picard mx my o fuel s s' h : good (fst s) -> picard mx my _ (eq_ops G sqrt mu lu spline Jt c) o fuel s = (s', Ok h) ->
    good (fst s') /\ exists J, jtor (fst s') = Some J /\ mirror nx ny J.
  Proof using Hsol HJ Hc HK HK1.
    intros Hs Ep. set (I := fun (t : eqm * P) (v : vars (T := R)) => good (fst t) /\ mirror nx ny (psi v)).
    destruct (picard_inv mx my _ (eq_ops G sqrt mu lu spline Jt c) o I s) with (fuel := fuel) (e' := s') (h := h) as (t & v & (I1 & I2) & Et); [| |exact Ep|].
    { intros e1 psi0 Er E0. assert (Kg := good_control _ _ Hs Er). split; [exact Kg|]. exact (good_total _ _ Kg E0). }
    { intros t v t2 v2 (I1 & I2) Et. destruct (turn_next mx my _ _ o _ _ _ _ Et) as (e1 & ob & psi1 & psi2 & (pb & _ & Es & _ & _) & _ & Er & E2 & _ & ->).
      destruct (good_step _ _ _ _ _ I1 I2 Es) as (K1 & _). assert (K2 := good_control _ _ K1 Er). split; [exact K2|]. cbn [psi].
      assert (K3 := good_total _ _ K2 E2). intros x y Hx Hy. rewrite (K3 x y Hx Hy), (I2 x y Hx Hy). reflexivity. }
    destruct (turn_done mx my _ _ o _ _ _ _ Et) as (ob & psi1 & (pb & _ & Es & _ & _) & _ & _). exact (good_step _ _ _ _ _ I1 I2 Es).
  Qed.
  Lemma mirror_run mx my o fuel s s' h : fst s = e0 -> mirror nx ny (plasma_psi e0) -> K e0 -> picard mx my _ (eq_ops G sqrt mu lu spline Jt c) o fuel s = (s', Ok h) ->
    mirror nx ny (plasma_psi (fst s')) /\ K (fst s') /\ (forall psi, total_psi (fst s') = Ok psi -> mirror nx ny psi) /\ exists J, jtor (fst s') = Some J /\ mirror nx ny J.
  Proof using Hsol HJ Hc HK HK1.
    intros Es Hp Hcf Ep.
    assert (Hg : good (fst s)) by (rewrite Es; split; [split; reflexivity|]; split; [reflexivity|]; split; assumption).
    destruct (good_picard mx my o fuel s s' h Hg Ep) as (Kg & HJ'). split; [apply Kg|]. split; [apply Kg|]. split; [|exact HJ'].
    intros psi E. exact (good_total (fst s') psi Kg E).
  Qed.
End Mirror.
(** If the starting flux, the flux of the coils and the profile have the symmetry, the plasma flux, the total flux and the current density
    that picard.solve returns have it, whatever the tolerances, blending, number of iterations and control of the coils within the symmetry.
    [K] is any property of the machine that gives the flux of the coils the symmetry and that the control system keeps. *)
Theorem C196_invariant : forall (P Ctl : Type) G mu lu spline ellipk ellipe
    (Jt : P -> equilibrium R P Ctl -> (nat -> nat -> R) -> option R -> result ((nat -> nat -> R) * P * bstate R)) c (K : equilibrium R P Ctl -> Prop) mx my o fuel s s' h,
  let e := fst s in
  exact_solver lu -> second_order e -> bnd e = BFixed \/ bnd e = BFree /\ G FPsi = Greens ellipk ellipe ->
  mirror_profile Jt e -> (forall e1, K e1 -> mirror_coils e1) -> about_machine K -> keeps_control K e c -> mirror (e_nx e) (e_ny e) (plasma_psi e) -> K e ->
  picard mx my _ (eq_ops G sqrt mu lu spline Jt c) o fuel s = (s', Ok h) ->
  mirror (e_nx e) (e_ny e) (plasma_psi (fst s')) /\ K (fst s') /\
  (forall psi, total_psi (fst s') = Ok psi -> mirror (e_nx e) (e_ny e) psi) /\
  exists J, jtor (fst s') = Some J /\ mirror (e_nx e) (e_ny e) J.
Proof.
  intros P Ctl G mu lu spline ek ee Jt c K mx my o fuel s s' h e Hlu HS Hb HJ HK HK1 Hc Hp Hcf Ep.
  apply (mirror_run G mu lu spline Jt c e) with (K := K) (mx := mx) (my := my) (o := o) (fuel := fuel) (s := s) (h := h); try assumption; [|reflexivity].
  intros e1 e' q psi pb J Hg Hbn E EJ HJm. assert (D := proj1 Hg). injection D as N M _ _ _ _.
  assert (T := C168_mirror P Ctl G mu lu spline ek ee Jt e1 e' q None (Some psi) pb J Hlu (same_second _ _ Hg HS)). rewrite Hbn, N, M in T. exact (T Hb E EJ HJm).
Qed.
Print Assumptions C196_invariant.
(** With a control system that always leaves the flux of the coils symmetric. *)
Theorem C196_mirror : forall (P Ctl : Type) G mu lu spline ellipk ellipe
    (Jt : P -> equilibrium R P Ctl -> (nat -> nat -> R) -> option R -> result ((nat -> nat -> R) * P * bstate R)) c mx my o fuel s s' h,
  let e := fst s in
  exact_solver lu -> second_order e -> bnd e = BFixed \/ bnd e = BFree /\ G FPsi = Greens ellipk ellipe ->
  mirror_profile Jt e -> mirror_control c -> mirror (e_nx e) (e_ny e) (plasma_psi e) -> mirror_coils e ->
  picard mx my _ (eq_ops G sqrt mu lu spline Jt c) o fuel s = (s', Ok h) ->
  mirror (e_nx e) (e_ny e) (plasma_psi (fst s')) /\
  (forall psi, total_psi (fst s') = Ok psi -> mirror (e_nx e) (e_ny e) psi) /\
  exists J, jtor (fst s') = Some J /\ mirror (e_nx e) (e_ny e) J.
Proof.
  intros P Ctl G mu lu spline ek ee Jt c mx my o fuel s s' h e Hlu HS Hb HJ Hc Hp Hcf Ep.
  destruct (C196_invariant P Ctl G mu lu spline ek ee Jt c mirror_coils mx my o fuel s s' h Hlu HS Hb HJ (fun e H => H)) as (A & _ & B); [| |exact Hp|exact Hcf|exact Ep|split; [exact A|exact B]].
  - intros e1 e2 (D & _) T1 T2 (cf & HC & Hm). injection D as N M _ _ _ _. exists cf. split; [|rewrite N, M; exact Hm]. intros e3 q U1 U2. apply HC; congruence.
  - intros f t t1 Ef _ _ _ E. exact (Hc f t t1 Ef E).
Qed.
Print Assumptions C196_mirror.
(** The whole iteration of the box with a current density that depends on the flux. *)
Example C196_example : exists A n, forall fuel, (n < fuel)%nat -> exists s' h psi1,
  picard 5 5 _ (eq_ops (fun _ => green) sqrt 1 elimination flat_spline (from_flux ex_profile) None) (plain_options None 0 (1 / 100)) fuel (box_eq 5 BFixed A, tt) = (s', Ok h) /\
  total_psi (fst s') = Ok psi1 /\ mirror 5 5 psi1.
Proof.
  destruct (GSsparse_rows 1 2 (-1) 1 5 5) as (A & EA & _). exists A.
  assert (D5 : dyadic 5) by (exists 2%nat; reflexivity). assert (H4 : (4 <= 5)%nat) by lia. set (S := box_state 5 BFixed A). set (e0 := box_eq 5 BFixed A).
  assert (SO : second_order e0).
  { unfold second_order. cbn [Rmin Rmax Zmin Zmax e_nx e_ny slv e0 box_eq]. repeat (split; [lra|]). exists A. split; [exact EA|reflexivity]. }
  assert (HS0 : S (e0, tt)) by (split; [|split; reflexivity]; split; [reflexivity|]; split; [exact SO|repeat split; reflexivity]).
  assert (HS : forall s, S s -> like e0 (fst s) /\ (fun _ : unit => True) (snd s) /\ S (with_check (fst s) false, snd s)).
  { intros s Hs. split; [exact (proj1 Hs)|]. split; [exact I|exact Hs]. }
  assert (Hrun : forall s psi, S s -> exists e' b, solve (fun _ => green) sqrt 1 elimination flat_spline (from_flux ex_profile) (fst s) (snd s) None (Some psi) None = Ok e' /\
     S (e', match profiles e' with Some q => q | None => snd s end) /\ psi_bndry (bs e') = Some (Some b)).
  { intros s psi Hs. destruct (box_run 5 (fun _ => green) elimination ex_profile BFixed A s psi D5 H4 (or_introl eq_refl) Hs) as (e' & E1 & E2). exists e', 1. split; [exact E1|]. split; [exact E2|]. exact (proj2 (proj2 E2)). }
  assert (Hbd : forall s1 s2 psi1 psi2 e1 e2 b1 b2 d, S s1 -> S s2 -> within 5 5 psi1 psi2 d ->
     solve (fun _ => green) sqrt 1 elimination flat_spline (from_flux ex_profile) (fst s1) (snd s1) None (Some psi1) None = Ok e1 ->
     solve (fun _ => green) sqrt 1 elimination flat_spline (from_flux ex_profile) (fst s2) (snd s2) None (Some psi2) None = Ok e2 ->
     psi_bndry (bs e1) = Some (Some b1) -> psi_bndry (bs e2) = Some (Some b2) -> Rabs (b1 - b2) <= 0 * d).
  { intros s1 s2 psi1 psi2 e1 e2 b1 b2 d H1 H2 _ E1 E2 B1 B2. rewrite (box_bndry _ _ _ _ _ _ _ _ _ _ _ _ _ _ D5 H4 (or_introl eq_refl) H1 H2 E1 E2 B1 B2), Rminus_diag_eq by reflexivity. rewrite Rabs_R0. lra. }
  assert (HJ : lipschitz_profile (from_flux ex_profile) e0 (fun _ => True) None (1 / 10)).
  { intros p1 p2 e1 e2 psi1 psi2 J1 J2 p1' p2' b1 b2 d _ _ _ _ Hw E1 E2 x y Hxy. injection E1 as <- _ _. injection E2 as <- _ _. unfold ex_profile.
    match goal with |- Rabs ?a <= _ => replace a with (/ 10 * (psi1 x y - psi2 x y)) by field end. rewrite Rabs_mult, (Rabs_right (/ 10)) by lra.
    assert (H := Hw x y ltac:(unfold inside in Hxy; lia) ltac:(unfold inside in Hxy; lia)). lra. }
  destruct (C178_converges unit unit (fun _ => green) 1 elimination flat_spline (from_flux ex_profile) S e0 (fun _ => True) (1 / 10) 0 (plain_options None 0 (1 / 100)) (e0, tt)) as (n & Hn);
    try assumption; try exact elimination_exact; try reflexivity; try lra; try (cbn; lia); try (cbn [Rmax Zmax Zmin e0 box_eq]; lra); try (cbn [plain_options blend atol]; nR; lra).
  { left. reflexivity. }
  exists n. intros fuel Hf. destruct (Hn fuel Hf) as (s' & h & E1 & Hs'). exists s', h.
  destruct (no_coils_psi (fst s')) as (psi1 & Ep & _); [rewrite (proj1 (proj2 (proj2 (proj2 (proj1 Hs'))))); reflexivity|]. exists psi1.
  split; [exact E1|]. split; [exact Ep|].
  refine (proj1 (proj2 (C196_mirror unit unit (fun _ => green) 1 elimination flat_spline (fun _ => 0) (fun _ => 0) (from_flux ex_profile) None 5 5 (plain_options None 0 (1 / 100)) fuel (e0, tt) s' h
    elimination_exact SO (or_introl eq_refl) _ _ _ _ E1)) psi1 Ep).
  - intros p e psi pb J p' b _ Hm EJ x y Hx Hy. injection EJ as <- _ _. assert (Hxy := Hm x y Hx Hy). cbn [e_nx e_ny e0 box_eq] in Hx, Hy, Hxy |- *. unfold ex_profile.
    change (e_ny (fst (e0, tt)) - 1 - y)%nat with (5 - 1 - y)%nat in *. rewrite Hxy, (mirror_point (-1) 1 5 y) by (exact Hy || lia).
    replace (-1 + 1 - gridpt (-1) 1 5 y) with (- gridpt (-1) 1 5 y) by ring. unfold ex_K, ex_psi. replace ((- gridpt (-1) 1 5 y) ^ 2) with (gridpt (-1) 1 5 y ^ 2) by ring. reflexivity.
  - intros f t t1 E. discriminate.
  - intros x y _ _. reflexivity.
  - exists (fun _ _ => 0). split; [exact (no_coil_flux e0 eq_refl)|intros x y _ _; reflexivity].
Qed.

(** The flux of the coils has the symmetry if the field of the machine is up-down symmetric (C138) and the domain is centred on the midplane. *)
Theorem C196_machine : forall (P Ctl : Type) ellipk ellipe (e : equilibrium R P Ctl) M0,
  labels_distinct M0 -> machine_shape (coils (tok e)) = machine_shape M0 -> symmetric (coils (tok e)) -> Zmin e = - Zmax e -> (2 <= e_ny e)%nat ->
  pgreen e = (fun i j => createPsiGreens (green_kernel ellipk ellipe) M0 (grid_R e i j) (grid_Z e i j)) ->
  mirror_coils e.
Proof.
  intros P Ctl ek ee e M0 HL Hsh Hsym HZ Hny Hpg.
  exists (fun i j => coils_field ek ee (coils (tok e)) FPsi (grid_R e i j) (grid_Z e i j)). split.
  - intros e1 q T1 T2 E i j. unfold total_psi in E. apply bind_ok in E. destruct E as (v & _ & E). apply ok_inj in E. subst q. cbv beta.
    rewrite T1, T2, Hpg. unfold Machine.eq_psi. rewrite (cached_direct (green_kernel ek ee) M0 (coils (tok e)) _ _ HL Hsh). cbn [bind fst].
    unfold coils_field. rewrite machine_field_eq. reflexivity.
  - intros x y Hx Hy. cbv beta. rewrite !gridR_is, !gridZ_is, mirror_point by assumption. rewrite HZ.
    replace (- Zmax e + Zmax e - gridpt (- Zmax e) (Zmax e) (e_ny e) y) with (- gridpt (- Zmax e) (Zmax e) (e_ny e) y) by ring. apply Hsym.
Qed.
Print Assumptions C196_machine.
(** MAST with its upper and lower coils in series, with a current in P2. *)
Lemma powered_shape (I : string -> R) M : machine_shape (powered I M) = machine_shape M.
Proof. unfold machine_shape, powered. rewrite map_map. apply map_ext. intros (l, m). cbn [fst snd]. f_equal. apply mc_set_current_shape. Qed.
Example C196_machine_example : forall ek ee, exists e : equilibrium R unit unit, 
  pgreen e = (fun i j => createPsiGreens (green_kernel ek ee) (tk_coils MAST_sym) (grid_R e i j) (grid_Z e i j)) /\
  (exists m, In ("P2"%string, m) (coils (tok e)) /\ mc_current m = 1000) /\ mirror_coils e.
Proof.
  intros ek ee. set (I := fun l => if String.eqb l "P2" then 1000 else 0).
  set (e := fun pg => mkeq 5 5 1 2 (- 1) 1 (mktok (powered I (tk_coils MAST_sym)) false []) BFixed 2 (SUser (fun p x => Ok (p, x))) false (fun _ _ => 0) pg 0 None (mkb None (Some (Some 1)) None None None false None) (@None unit) (@None unit)).
  exists (e (fun i j => createPsiGreens (green_kernel ek ee) (tk_coils MAST_sym) (grid_R (e (fun _ _ => [])) i j) (grid_Z (e (fun _ _ => [])) i j))).
  split; [reflexivity|]. split; [eexists; split; [left; reflexivity|reflexivity]|].
  apply (C196_machine unit unit ek ee _ (tk_coils MAST_sym)); [apply C137_labels; constructor|apply powered_shape| |reflexivity|cbn; lia|reflexivity].
  apply (C138_MAST_sym I). reflexivity.
Qed.

(** ** C197 *)
(** the mirror image of a cell *)
Definition flip (ny : nat) (c : nat * nat) : nat * nat := (fst c, ny - 1 - snd c)%nat.
Lemma flip_flip nx ny c : in_grid nx ny c -> flip ny (flip ny c) = c.
Proof. destruct c as (i, j). unfold in_grid, flip. cbn [fst snd]. intros (_ & H). f_equal. lia. Qed.
Lemma flip_in nx ny c : in_grid nx ny c -> in_grid nx ny (flip ny c).
Proof. unfold in_grid, flip. cbn [fst snd]. lia. Qed.
Lemma connected_in nx ny ok s p : in_grid nx ny s -> connected nx ny ok s p -> in_grid nx ny p.
Proof. intros Hs H. induction H; assumption. Qed.
Lemma connected_flip nx ny (ok : nat * nat -> Prop) s p : in_grid nx ny s -> flip ny s = s -> (forall c, in_grid nx ny c -> ok c -> ok (flip ny c)) ->
  connected nx ny ok s p -> connected nx ny ok s (flip ny p).
Proof.
  intros Hs Fs Hok H. induction H as [|p q Hp IH Ha Hg Hq]; [rewrite Fs; constructor|].
  apply conn_step with (flip ny p); [exact IH| |apply flip_in; exact Hg|apply Hok; assumption].
  assert (Gp := connected_in _ _ _ _ _ Hs Hp). destruct p as (a, b), q as (u, v). unfold adjacent, flip, in_grid in *. cbn [fst snd] in *. lia.
Qed.
(** The mask of the plasma core is symmetric for a symmetric flux, if the grid point nearest to the magnetic axis is in the middle row and the blocks around
    the X-points are symmetric. *)
Theorem C197_core : forall nx ny gR gZ psi o os xpoint psi_bndry fuel m s,
  (0 < nx)%nat -> (0 < ny)%nat -> Critical.core_mask fuel nx ny gR gZ psi (o :: os) xpoint psi_bndry = Ok m -> mirror nx ny psi ->
  nearest_cell nx ny gR gZ (fst (fst o)) (snd (fst o)) s -> (2 * snd s + 1 = ny)%nat ->
  (forall q, in_grid nx ny q -> near_xpoint nx ny gR gZ xpoint q -> near_xpoint nx ny gR gZ xpoint (flip ny q)) ->
  mirror nx ny m.
Proof.
  intros nx ny gR gZ psi o os xpoint pbo fuel m s Hx Hy E Hpsi Hs Hrow Hnear.
  destruct (C40_core_mask_exact nx ny gR gZ psi (o :: os) xpoint pbo fuel m Hx Hy E) as (o' & os' & pb & s' & Eo & _ & Hs' & H). injection Eo as <- <-.
  rewrite (nearest_cell_unique _ _ _ _ _ _ _ _ Hs' Hs) in H. clear s' Hs'. cbv zeta in H.
  set (low := fun c : nat * nat => (psi (fst c) (snd c) - snd o) / (pb - snd o) < 1) in H. set (near := near_xpoint nx ny gR gZ xpoint) in *.
  assert (Gs : in_grid nx ny s) by (destruct Hs as ((A & _) & (B & _)); split; assumption).
  assert (Fs : flip ny s = s) by (destruct s as (a, b); unfold flip; cbn [fst snd] in *; f_equal; lia).
  assert (Hlow : forall c, in_grid nx ny c -> low c -> low (flip ny c)).
  { intros (i, j) (Hi & Hj) L. unfold low, flip in *. cbn [fst snd] in *. rewrite (Hpsi i j Hi Hj). exact L. }
  assert (Hno : forall c, in_grid nx ny c -> ~ near c -> ~ near (flip ny c)).
  { intros c Hc Hn Hf. apply Hn. rewrite <- (flip_flip nx ny c Hc). apply Hnear; [apply flip_in; exact Hc|exact Hf]. }
  assert (Hone : forall i j, (i < nx)%nat -> (j < ny)%nat -> m i j = 1 -> m i (ny - 1 - j)%nat = 1).
  { intros i j Hi Hj Hm. assert (Gc : in_grid nx ny (i, j)) by (split; assumption). assert (Gf := flip_in nx ny (i, j) Gc). 
    change (m (fst (flip ny (i, j))) (snd (flip ny (i, j))) = 1).
    destruct (H i j Gc) as (_ & N1 & N2). destruct (H (fst (flip ny (i, j))) (snd (flip ny (i, j))) Gf) as (_ & F1 & F2).
    rewrite <- surjective_pairing in F1, F2. destruct (classic (near (i, j))) as [Hn|Hn].
    - apply (F1 (Hnear _ Gc Hn)). apply Hlow; [exact Gc|]. apply (N1 Hn). exact Hm.
    - apply (F2 (Hno _ Gc Hn)). apply connected_flip; [exact Gs|exact Fs| |apply (N2 Hn); exact Hm].
      intros c Hc (L & N). split; [apply Hlow|apply Hno]; assumption. }
  intros i j Hi Hj. assert (Hj' : (ny - 1 - j < ny)%nat) by lia.
  destruct (H i j (conj Hi Hj)) as (V & _). destruct (H i (ny - 1 - j)%nat (conj Hi Hj')) as (W & _).
  destruct V as [V|V]; [|rewrite V; exact (Hone i j Hi Hj V)]. destruct W as [W|W]; [congruence|].
  assert (K := Hone i (ny - 1 - j)%nat Hi Hj' W). replace (ny - 1 - (ny - 1 - j))%nat with j in K by lia. congruence.
Qed.
Print Assumptions C197_core.
(** A ring around the middle of 7 x 7 points, with X-points below and above. *)
Definition round (i j : nat) : R := 1 - (IZR ((Z.of_nat i - 3) ^ 2) + IZR ((Z.of_nat j - 3) ^ 2)) / 9.
Example C197_core_example : exists m, Critical.core_mask 298 7 7 idR idZ round [(3, 3, 1)] [(3, 0, 0); (3, 6, 0)] None = Ok m /\ mirror 7 7 m /\ m 3%nat 3%nat = 1.
Proof.
  destruct (C39_core_mask_terminates 7 7 idR idZ round [(3, 3, 1)] [(3, 0, 0); (3, 6, 0)] None 298 ltac:(lia) ltac:(lia) ltac:(lia)) as (m & Em).
  exists m. split; [exact Em|].
  assert (N3 : nearest_cell 7 7 idR idZ 3 3 (3, 3)%nat) by (replace 3 with (INR 3) by (cbn; lra); apply nearest_grid; lia).
  assert (N0 : nearest_cell 7 7 idR idZ 3 0 (3, 0)%nat) by (replace 3 with (INR 3) by (cbn; lra); change 0 with (INR 0); apply nearest_grid; lia).
  assert (N6 : nearest_cell 7 7 idR idZ 3 6 (3, 6)%nat) by (replace 3 with (INR 3) by (cbn; lra); replace 6 with (INR 6) by (cbn; lra); apply nearest_grid; lia).
  split.
  - apply (C197_core 7 7 idR idZ round (3, 3, 1) [] [(3, 0, 0); (3, 6, 0)] None 298 m (3, 3)%nat); try lia; try assumption.
    + intros x y Hx Hy. unfold round. f_equal. f_equal. f_equal. rewrite Nat2Z.inj_sub by lia. f_equal. change (Z.of_nat (7 - 1)) with 6%Z. lia.
    + reflexivity.
    + intros q (Q1 & Q2) (x & c & [<-|[<-|[]]] & Hc & Ha); cbn [fst snd] in Hc.
      * exists (3, 6, 0), (3, 6)%nat. split; [right; left; reflexivity|]. split; [exact N6|]. rewrite (nearest_cell_unique _ _ _ _ _ _ _ _ Hc N0) in Ha. unfold around, flip in *. cbn [fst snd] in *. lia.
      * exists (3, 0, 0), (3, 0)%nat. split; [left; reflexivity|]. split; [exact N0|]. rewrite (nearest_cell_unique _ _ _ _ _ _ _ _ Hc N6) in Ha. unfold around, flip in *. cbn [fst snd] in *. lia.
  - destruct (C40_core_mask_exact 7 7 idR idZ round [(3, 3, 1)] [(3, 0, 0); (3, 6, 0)] None 298 m ltac:(lia) ltac:(lia) Em) as (o & os & pb & s & Eo & _ & Hs & H).
    injection Eo as <- <-. cbn [fst snd] in Hs. rewrite (nearest_cell_unique _ _ _ _ _ _ _ _ Hs N3) in H. cbv zeta in H.
    destruct (H 3%nat 3%nat) as (_ & _ & H2); [split; cbn; lia|]. apply H2; [|constructor].
    intros (x & c & [<-|[<-|[]]] & Hc & Ha); cbn [fst snd] in Hc; [rewrite (nearest_cell_unique _ _ _ _ _ _ _ _ Hc N0) in Ha|rewrite (nearest_cell_unique _ _ _ _ _ _ _ _ Hc N6) in Ha];
      unfold around in Ha; cbn [fst snd] in Ha; lia.
Qed.
(** With such a mask the current density of every kind of profile is symmetric. *)
Theorem C197_profiles : forall pow quad mu0 (e : env (T := R)) psi pb pa m, 
  mirror (nx e) (ny e) psi -> mirror (nx e) (ny e) (mask_at m) -> mirror (nx e) (ny e) (gR e) ->
  (forall p arg J s, core_of e psi pb pa m -> paxis_Jtor pow quad e p psi arg = Ok (J, s) \/ betap_Jtor pow quad mu0 e p psi arg = Ok (J, s) -> mirror (nx e) (ny e) J) /\
  (forall p arg J s, find_core e psi arg = Ok (pb, pa, m) -> func_Jtor mu0 e p psi arg = Ok (J, s) -> mirror (nx e) (ny e) J).
Proof.
  intros pow quad mu0 e psi pb pa m Hpsi Hm HR. split.
  - intros p arg J s Hcore HJ.
    assert (Hf : exists lb, cfinish e p pb pa (jtorshape pow p (psi_norm_of pb pa psi) m) lb = Ok (J, s)).
    { destruct HJ as [HJ|HJ].
      - destruct (paxis_inv _ _ _ _ _ _ _ _ HJ) as (pb' & pa' & m' & Hc & Hf).
        destruct (core_fun _ _ _ _ _ _ _ _ Hc Hcore) as (-> & -> & ->). eexists; exact Hf.
      - destruct (betap_inv _ _ _ _ _ _ _ _ _ HJ) as (pb' & pa' & m' & pint & bint & Hc & _ & _ & Hf).
        destruct (core_fun _ _ _ _ _ _ _ _ Hc Hcore) as (-> & -> & ->). eexists; exact Hf. }
    destruct Hf as (lb & Hf). destruct (cfinish_inv _ _ _ _ _ _ _ _ Hf) as (IR & I_R & _ & _ & _ & _ & _ & _ & HJe).
    intros x y Hx Hy. rewrite !HJe, !jtorshape_at. unfold weight. rewrite (Hpsi x y Hx Hy), (Hm x y Hx Hy), (HR x y Hx Hy). reflexivity.
  - intros p arg J s Hc HJ. unfold func_Jtor in HJ. rewrite Hc in HJ. cbn [bind] in HJ. injection HJ as <- <-.
    intros x y Hx Hy. rewrite !masked_at. rewrite (Hpsi x y Hx Hy), (Hm x y Hx Hy), (HR x y Hx Hy). reflexivity.
Qed.
Print Assumptions C197_profiles.
(** A call of the profiles with the searches of the equilibrium object: symmetric if the search finds the axis in the middle row and symmetric X-points. *)
Theorem C197_call : forall (P Ctl : Type) k G spline pow quad mu0 (e : equilibrium R P Ctl) p psi arg J st o os xs s,
  (2 <= e_nx e)%nat -> (2 <= e_ny e)%nat -> mirror (e_nx e) (e_ny e) psi ->
  eq_find_critical spline e (e_nx e) (e_ny e) psi = Ok (o :: os, xs) ->
  nearest_cell (e_nx e) (e_ny e) (grid_R e) (grid_Z e) (fst (fst o)) (snd (fst o)) s -> (2 * snd s + 1 = e_ny e)%nat ->
  (forall q, in_grid (e_nx e) (e_ny e) q -> near_xpoint (e_nx e) (e_ny e) (grid_R e) (grid_Z e) xs q -> near_xpoint (e_nx e) (e_ny e) (grid_R e) (grid_Z e) xs (flip (e_ny e) q)) ->
  Jtor_of k G spline pow quad mu0 e p psi arg = Ok (J, st) -> mirror (e_nx e) (e_ny e) J.
Proof.
  intros P Ctl k G spline pow quad mu0 e p psi arg J st o os xs s Hx Hy Hpsi Hf Hs Hrow Hnear HJ.
  set (en := env_of G spline e e) in *.
  assert (Hall : paxis_Jtor pow quad en p psi arg = Ok (J, st) \/ betap_Jtor pow quad mu0 en p psi arg = Ok (J, st)) by (destruct k; [left|right]; exact HJ).
  assert (Hc : exists pb pa m, core_of en psi pb pa m).
  { destruct Hall as [H|H]; [destruct (paxis_inv _ _ _ _ _ _ _ _ H) as (pb & pa & m & Hc & _)|destruct (betap_inv _ _ _ _ _ _ _ _ _ H) as (pb & pa & m & _ & _ & Hc & _)]; exists pb, pa, m; exact Hc. }
  destruct Hc as (pb & pa & m & Hc).
  assert (Hm : mirror (e_nx e) (e_ny e) (mask_at m)).
  { destruct Hc as (ub & _ & E). unfold find_core in E. change (Jtor.find_critical en psi) with (eq_find_critical spline e (e_nx e) (e_ny e) psi) in E. rewrite Hf in E. cbn [bind] in E.
    assert (Hk : forall b m', eq_core_mask e psi (o :: os) xs b = Ok m' -> mirror (e_nx e) (e_ny e) m').
    { intros b m' E'. assert (X0 : (0 < e_nx e)%nat) by lia. assert (Y0 : (0 < e_ny e)%nat) by lia. exact (C197_core _ _ _ _ _ _ _ _ _ _ _ _ X0 Y0 E' Hpsi Hs Hrow Hnear). }
    destruct o as ((a1, a2), a3). destruct ub as [ub|].
    - apply bind_ok in E. destruct E as (m' & E1 & E). apply ok_inj in E. injection E as _ _ <-. exact (Hk (Some ub) m' E1).
    - destruct xs as [|((x1, x2), x3) xs'].
      + apply ok_inj in E. injection E as _ _ <-. intros x y _ _. reflexivity.
      + apply bind_ok in E. destruct E as (m' & E1 & E). apply ok_inj in E. injection E as _ _ <-. exact (Hk None m' E1). }
  refine (proj1 (C197_profiles pow quad mu0 en psi pb pa m Hpsi Hm _) p arg J st Hc Hall).
  intros x y _ _. change (grid_R e x (e_ny e - 1 - y)%nat = grid_R e x y). rewrite !gridR_is. reflexivity.
Qed.
Print Assumptions C197_call.
(** The flux - (R - 1)^2 - 2 Z^2 with pressure 0 and a current of 7. *)
Example C197_example : let e := cup_eq no_boundary 0 None None in
  exists J cs, paxis_Jtor rpow rquad (env_of (fun _ => green) spline2 e e) cup_profile cup None = Ok (J, cs) /\ mirror 5 5 J /\ J 2%nat 2%nat <> 0.
Proof.
  intros e. destruct (cup_Jtor (fun _ => green) no_boundary 0 None None cup None (fun _ _ => eq_refl)) as (J & cs & EJ & H & _). exists J, cs. split; [exact EJ|]. split; [|exact H].
  refine (C197_call _ _ Paxis (fun _ => green) spline2 rpow rquad 1 e cup_profile cup None J cs (1, 0, 0) [] [] (2, 2)%nat ltac:(cbn; lia) ltac:(cbn; lia) _ (cup_find _ _ _ _ cup (fun _ _ => eq_refl)) _ eq_refl _ EJ).
  - intros x y Hx Hy. cbn [e_nx e_ny e cup_eq] in Hx, Hy |- *. unfold cup, EquilibriumProofs2.bowl. change (e_ny e - 1 - y)%nat with (4 - y)%nat.
    assert (Hc : (y = 0 \/ y = 1 \/ y = 2 \/ y = 3 \/ y = 4)%nat) by (change (e_ny e) with 5%nat in Hy; lia). repeat (destruct Hc as [-> |Hc]); try subst y; cbn [INR Nat.sub]; lra.
  - split; cbn [fst snd].
    + split; [cbn; lia|]. change (e_nx e) with 5%nat. split; intros i Hi; cbv beta; unfold e; rewrite !(proj1 (cup_grid _ _ _ _ _ _)); assert (Hc : (i = 0 \/ i = 1 \/ i = 2 \/ i = 3 \/ i = 4)%nat) by lia;
          repeat (destruct Hc as [-> |Hc]); try subst i; try lia; cbn [INR]; unfold Rabs; repeat destruct (Rcase_abs _); lra.
    + split; [cbn; lia|]. change (e_ny e) with 5%nat. split; intros i Hi; cbv beta; unfold e; rewrite !(proj2 (cup_grid _ _ _ _ _ _)); assert (Hc : (i = 0 \/ i = 1 \/ i = 2 \/ i = 3 \/ i = 4)%nat) by lia;
          repeat (destruct Hc as [-> |Hc]); try subst i; try lia; cbn [INR]; unfold Rabs; repeat destruct (Rcase_abs _); lra.
  - intros q _ (x & c & [] & _).
Qed.
