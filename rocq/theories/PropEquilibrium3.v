(** C74, C75, C97: equilibria on other grids. *)
From Coq Require Import String List Arith ZArith Bool Reals Lia Lra.
From Verif Require Import Py Num Numpy GradShafranov GS4Proofs GradShafranovProofs Multigrid GradShafranovProofs MultigridProofs Coils Machine Romb
  Critical Boundary BoundarySpec BoundaryProofs Jtor Equilibrium EquilibriumSpec EquilibriumProofs EquilibriumProofs2 EquilibriumProofs3 GSSpec PropMultigrid.
Import ListNotations.
Local Open Scope R_scope.

(** C74 — refine: sizes, set-up, solver and flux. *)
Theorem C74_refine_keeps_set_up : forall (P Ctl : Type) G spline (e e' : equilibrium R P Ctl) nx ny, refine G exp spline e nx ny = Ok e' ->
  e_nx e' = (match nx with Some (S n) => S n | _ => 2 * (e_nx e - 1) + 1 end)%nat /\
  e_ny e' = (match ny with Some (S n) => S n | _ => 2 * (e_ny e - 1) + 1 end)%nat /\
  Rmin e' = Rmin e /\ Rmax e' = Rmax e /\ Zmin e' = Zmin e /\ Zmax e' = Zmax e /\
  tok e' = tok e /\ bnd e' = bnd e /\ order e' = order e /\ profiles e' = profiles e /\ control e' = control e /\
  (exists A, slv e' = SMatrix (MGDirect (e_nx e' * e_ny e') A) /\
     (order e = 2%nat /\ GSsparse (Rmin e) (Rmax e) (Zmin e) (Zmax e) (e_nx e') (e_ny e') = Ok A \/
      order e = 4%nat /\ GSsparse4thOrder (Rmin e) (Rmax e) (Zmin e) (Zmax e) (e_nx e') (e_ny e') = Ok A)) /\
  forall i j, plasma_psi e' i j = spline (e_nx e) (e_ny e) (R_1D e) (Z_1D e) (plasma_psi e) 0%nat 0%nat (R_1D e' i) (Z_1D e' j).
Proof.
  intros P Ctl G spline e e' nx ny E. apply refine_inv in E. destruct E as (r & b & En & ->).
  apply new_inv in En. destruct En as (_ & _ & H1 & H2 & H3 & H4 & H5 & H6 & H7 & H8 & H9 & _ & _ & _ & _ & _ & _ & _ & gen & A & Eg & EA & Hs).
  cbn [e_nx e_ny Rmin Rmax Zmin Zmax tok bnd order profiles control slv plasma_psi with_profiles with_bs with_plasma].
  repeat (split; [first [assumption|reflexivity]|]). split.
  - exists A. rewrite Hs, H1, H2. split; [reflexivity|]. unfold generator_of in Eg.
    destruct (Nat.eqb_spec (order e) 2) as [E2|]; [left; injection Eg as <-; split; assumption|].
    destruct (Nat.eqb_spec (order e) 4) as [E4|]; [right; injection Eg as <-; split; assumption|discriminate].
  - intros i j. reflexivity.
Qed.
Print Assumptions C74_refine_keeps_set_up.
(** The refined flux at the old grid points, for a spline that interpolates. *)
Theorem C74_refine_coincident : forall (P Ctl : Type) G spline (e e' : equilibrium R P Ctl), refine G exp spline e None None = Ok e' ->
  interpolates spline -> (4 <= e_nx e)%nat -> (4 <= e_ny e)%nat -> Rmin e < Rmax e -> Zmin e < Zmax e ->
  forall i j, (i < e_nx e)%nat -> (j < e_ny e)%nat ->
    R_1D e' (2 * i) = R_1D e i /\ Z_1D e' (2 * j) = Z_1D e j /\ plasma_psi e' (2 * i)%nat (2 * j)%nat = plasma_psi e i j.
Proof.
  intros P Ctl G spline e e' E Hs Hx Hy HR HZ i j Hi Hj. destruct (C74_refine_keeps_set_up _ _ _ _ _ _ _ _ E) as (H1 & H2 & H3 & H4 & H5 & H6 & _ & _ & _ & _ & _ & _ & Hp).
  assert (ER : R_1D e' (2 * i) = R_1D e i) by (unfold R_1D; rewrite H1, H3, H4; apply linspace_fine; lia).
  assert (EZ : Z_1D e' (2 * j) = Z_1D e j) by (unfold Z_1D; rewrite H2, H5, H6; apply linspace_fine; lia).
  split; [exact ER|]. split; [exact EZ|]. rewrite Hp, ER, EZ. apply Hs; try assumption; apply linspace_increasing; assumption.
Qed.
Print Assumptions C74_refine_coincident.
(** Coarsening a refined equilibrium: the size and the flux inside the domain are as before. *)
Theorem C74_coarsen_refine : forall (P Ctl : Type) G spline (e e1 e2 : equilibrium R P Ctl),
  refine G exp spline e None None = Ok e1 -> coarsen G exp spline e1 = Ok e2 ->
  interpolates spline -> (4 <= e_nx e)%nat -> (4 <= e_ny e)%nat -> Rmin e < Rmax e -> Zmin e < Zmax e ->
  e_nx e2 = e_nx e /\ e_ny e2 = e_ny e /\ Rmin e2 = Rmin e /\ Rmax e2 = Rmax e /\ Zmin e2 = Zmin e /\ Zmax e2 = Zmax e /\ tok e2 = tok e /\
  forall i j, (0 < i < e_nx e - 1)%nat -> (0 < j < e_ny e - 1)%nat -> plasma_psi e2 i j = plasma_psi e i j.
Proof.
  intros P Ctl G spline e e1 e2 E1 E2 Hs Hx Hy HR HZ.
  destruct (C74_refine_keeps_set_up _ _ _ _ _ _ _ _ E1) as (H1 & H2 & H3 & H4 & H5 & H6 & H7 & _).
  apply coarsen_inv in E2. destruct E2 as (p & nx & ny & r & b & Er & En & ->). rewrite H1, H2 in Er.
  destruct (restrict_shape (plasma_psi e1) _ _ false (halvable_fine (e_nx e) (e_ny e))) as (o & Eo).
  assert (Hcl := fun i j => restrict_closed (plasma_psi e1) _ _ false i j (halvable_fine (e_nx e) (e_ny e))).
  unfold restr_arr in Hcl. rewrite Eo in Hcl. cbn [fst] in Hcl. rewrite !half_fine in Hcl by lia.
  rewrite !half_fine in Eo by lia. rewrite Eo in Er. injection Er as <- <- <-.
  apply new_inv in En. destruct En as (_ & _ & G1 & G2 & G3 & G4 & G5 & G6 & G7 & _).
  cbn [e_nx e_ny Rmin Rmax Zmin Zmax tok plasma_psi with_profiles with_bs with_plasma].
  rewrite G1, G2, G3, G4, G5, G6, G7. repeat (split; [assumption || reflexivity|]).
  intros i j Hi Hj. rewrite Hcl. destruct (interiorb_spec (e_nx e) (e_ny e) i j) as [_|Hn]; [|exfalso; apply Hn; unfold interior; lia].
  rewrite Rmult_1_r. apply (C74_refine_coincident P Ctl G spline e e1 E1 Hs Hx Hy HR HZ i j); lia.
Qed.
Print Assumptions C74_coarsen_refine.

(** an equilibrium without coils or plasma *)
Definition plain (nx ny : nat) (b : boundary R) (ord : nat) (psi : nat -> nat -> R) : equilibrium R unit unit :=
  mkeq nx ny 1 2 (-1) 1 (mktok [] true []) b ord (SUser (fun _ _ => Raise TypeError)) true psi (fun _ _ => []) 0 None
    (mkb None (Some None) None None None false None) (Some tt) None.
Example C74_example : exists e', refine (fun _ _ _ _ _ => 0) exp flat_spline (plain 6 9 BFixed 2 (fun _ _ => 0)) None (Some 8%nat) = Ok e' /\
  e_nx e' = 11%nat /\ e_ny e' = 8%nat /\ order e' = 2%nat /\ check_limited e' = false.
Proof.
  destruct (GSsparse_rows 1 2 (-1) 1 11 8) as (A & EA & _).
  destruct (@flat_new unit unit (fun _ _ _ _ _ => 0) (mktok [] true []) 1 2 (-1) 1 11 8 BFixed None 0 (GSsparse 1 2 (-1) 1) A 2 false) as (e1 & E1 & _);
    try reflexivity; try lia; try lra; try exact EA.
  unfold refine. change (size_or None (2 * (e_nx (plain 6 9 BFixed 2 (fun _ _ => 0)) - 1) + 1)) with 11%nat. change (size_or (Some 8%nat) _) with 8%nat. cbv zeta.
  assert (H := new_inv _ _ _ _ _ _ _ _ _ _ _ _ _ _ _ _ E1). destruct H as (_ & _ & H1 & H2 & H3 & H4 & H5 & H6 & H7 & H8 & H9 & H10 & _).
  cbn [plain tok Rmin Rmax Zmin Zmax bnd order profiles control]. change (@n0 R Num_R) with 0. rewrite E1. cbn [bind].
  match goal with |- context [update_plasma flat_spline e1 11 8 ?p] => assert (Hu := flat_update_plasma e1 p) end. rewrite H1, H2, H3, H4, H5, H6, H7 in Hu.
  rewrite Hu by (try lia; try lra; reflexivity). cbn [bind]. eexists. split; [reflexivity|]. cbn. auto.
Qed.

(** C75 — what coarsen keeps and what it does not keep: the boundary condition becomes
    freeBoundary and the order 4 whatever they were, and the flux at the edges is lost. *)
Theorem C75_coarsen : forall (P Ctl : Type) G spline (e e' : equilibrium R P Ctl), coarsen G exp spline e = Ok e' ->
  tok e' = tok e /\ Rmin e' = Rmin e /\ Rmax e' = Rmax e /\ Zmin e' = Zmin e /\ Zmax e' = Zmax e /\ profiles e' = profiles e /\ control e' = control e /\
  bnd e' = BFree /\ order e' = 4%nat /\
  forall n m, e_nx e = (2 * n + 1)%nat -> e_ny e = (2 * m + 1)%nat ->
    e_nx e' = S n /\ e_ny e' = S m /\
    forall i j, (i <= n)%nat -> (j <= m)%nat ->
      (inside (S n) (S m) i j -> plasma_psi e' i j = plasma_psi e (2 * i)%nat (2 * j)%nat) /\
      (on_edge (S n) (S m) i j -> plasma_psi e' i j = 0).
Proof.
  intros P Ctl G spline e e' E. apply coarsen_inv in E. destruct E as (p & nx & ny & r & b & Er & En & ->).
  apply new_inv in En. destruct En as (_ & _ & G1 & G2 & G3 & G4 & G5 & G6 & G7 & G8 & G9 & _).
  cbn [e_nx e_ny Rmin Rmax Zmin Zmax tok bnd order profiles control plasma_psi with_profiles with_bs with_plasma].
  repeat (split; [assumption || reflexivity|]). intros n m Hn Hm. rewrite Hn, Hm in Er.
  assert (Hh : halvable (2 * n + 1) (2 * m + 1)).
  { unfold halvable. replace (2 * n + 1 - 1)%nat with (n * 2)%nat by lia. replace (2 * m + 1 - 1)%nat with (m * 2)%nat by lia. split; apply Nat.mod_mul; lia. }
  assert (Hf : forall k, half (2 * k + 1) = S k) by (intros k; unfold half; replace (2 * k + 1 - 1)%nat with (k * 2)%nat by lia; rewrite Nat.div_mul by lia; lia).
  destruct (restrict_shape (plasma_psi e) _ _ false Hh) as (o & Eo). assert (Hcl := fun i j => restrict_closed (plasma_psi e) _ _ false i j Hh).
  unfold restr_arr in Hcl. rewrite Eo in Hcl. cbn [fst] in Hcl. rewrite !Hf in Hcl. rewrite !Hf in Eo. rewrite Eo in Er. injection Er as <- <- <-.
  split; [exact G1|]. split; [exact G2|]. intros i j Hi Hj. rewrite Hcl. unfold inside, on_edge.
  destruct (interiorb_spec (S n) (S m) i j) as [Hi2|Hn2]; unfold interior in *; split; intros H; try lra; exfalso; lia.
Qed.
Print Assumptions C75_coarsen.
(** newDomain likewise, and by default the new grid has as many points in Z as the old one has in R. *)
Theorem C75_newDomain : forall (P Ctl : Type) G mu0 lu spline Jtor_call (e e' : equilibrium R P Ctl) rmin rmax zmin zmax nx ny,
  newDomain G sqrt exp mu0 lu spline Jtor_call e rmin rmax zmin zmax nx ny = Ok e' ->
  tok e' = tok e /\ bnd e' = BFree /\ order e' = 4%nat /\
  Rmin e' = (match rmin with Some v => v | None => Rmin e end) /\ Rmax e' = (match rmax with Some v => v | None => Rmax e end) /\
  Zmin e' = (match zmin with Some v => v | None => Zmin e end) /\ Zmax e' = (match zmax with Some v => v | None => Zmax e end) /\
  e_nx e' = (match nx with Some n => n | None => e_nx e end) /\
  e_ny e' = (match ny with Some n => n | None => e_nx e end).
Proof.
  intros P Ctl G mu0 lu spline Jc e e' rmin rmax zmin zmax nx ny E. apply newDomain_inv in E. destruct E as (r & x & b & I & J & p & c & En & ->).
  apply new_inv in En. destruct En as (_ & _ & G1 & G2 & G3 & G4 & G5 & G6 & G7 & G8 & G9 & _).
  cbn [e_nx e_ny Rmin Rmax Zmin Zmax tok bnd order with_profiles with_current with_bs with_plasma]. repeat split; assumption.
Qed.
Print Assumptions C75_newDomain.

(** C75 is false for coarsen: a second-order fixed-boundary equilibrium on an 11 x 11 grid comes
    back as a fourth-order free-boundary one, with the flux at the edge changed. *)
Theorem C75_coarsen_refuted : exists (e e' : equilibrium R unit unit), coarsen (fun _ _ _ _ _ => 0) exp flat_spline e = Ok e' /\
  bnd e = BFixed /\ bnd e' = BFree /\ order e = 2%nat /\ order e' = 4%nat /\ plasma_psi e 0%nat 0%nat = 1 /\ plasma_psi e' 0%nat 0%nat = 0.
Proof.
  set (e := plain 11 11 BFixed 2 (fun _ _ => 1)). destruct (GS4_rows 1 2 (-1) 1 6 6) as (A & EA & _); [lia..|].
  destruct (@flat_new unit unit (fun _ _ _ _ _ => 0) (mktok [] true []) 1 2 (-1) 1 6 6 BFree None 0 (GSsparse4thOrder 1 2 (-1) 1) A 4 false) as (r & Er & _);
    try reflexivity; try lia; try lra; try exact EA.
  assert (H := new_inv _ _ _ _ _ _ _ _ _ _ _ _ _ _ _ _ Er). destruct H as (_ & _ & H1 & H2 & H3 & H4 & H5 & H6 & H7 & _).
  assert (Ok' : exists e', coarsen (fun _ _ _ _ _ => 0) exp flat_spline e = Ok e').
  { unfold coarsen. destruct (C24_restrict_is_injection (plasma_psi e) 5 5 false) as (o & Eo & _).
    change (e_nx e) with (2 * 5 + 1)%nat. change (e_ny e) with (2 * 5 + 1)%nat. rewrite Eo. change (5 + 1)%nat with 6%nat.
    change (tok e) with (mktok (T := R) [] true []). change (Rmin e) with 1. change (Rmax e) with 2. change (Zmin e) with (-1). change (Zmax e) with 1.
    change (@n0 R Num_R) with 0. rewrite Er. cbn [bind].
    assert (Hu := flat_update_plasma r o). rewrite H1, H2, H3, H4, H5, H6, H7 in Hu. rewrite Hu by (try lia; try lra; reflexivity). cbn [bind]. eexists. reflexivity. }
  destruct Ok' as (e' & E). exists e, e'. split; [exact E|]. split; [reflexivity|].
  destruct (C75_coarsen _ _ _ _ _ _ E) as (_ & _ & _ & _ & _ & _ & _ & Hb & Ho & Hc). split; [exact Hb|]. split; [reflexivity|]. split; [exact Ho|]. split; [reflexivity|].
  apply (Hc 5%nat 5%nat eq_refl eq_refl); try lia. unfold on_edge. lia.
Qed.
Print Assumptions C75_coarsen_refuted.
(** ... and for newDomain: a fixed-boundary second-order 9 x 17 grid becomes a free-boundary
    fourth-order 9 x 9 grid. *)
Theorem C75_newDomain_refuted : exists (e e' : equilibrium R unit unit),
  newDomain (fun _ _ _ _ _ => 0) sqrt exp 1 (fun _ _ b => b) flat_spline (fun p e _ _ => Ok (fun _ _ => 1, p, bs e)) e None None None None None None = Ok e' /\
  e_nx e = 9%nat /\ e_ny e = 17%nat /\ e_nx e' = 9%nat /\ e_ny e' = 9%nat /\ bnd e = BFixed /\ bnd e' = BFree /\ order e = 2%nat /\ order e' = 4%nat.
Proof.
  set (e := plain 9 17 BFixed 2 (fun _ _ => 1)). destruct (GS4_rows 1 2 (-1) 1 9 9) as (A & EA & _); [lia..|].
  destruct (@flat_new unit unit (fun _ _ _ _ _ => 0) (mktok [] true []) 1 2 (-1) 1 9 9 BFree None 0 (GSsparse4thOrder 1 2 (-1) 1) A 4 false) as (r & Er & Hs & Hb);
    try reflexivity; try lia; try lra; try exact EA.
  assert (H := new_inv _ _ _ _ _ _ _ _ _ _ _ _ _ _ _ _ Er). destruct H as (_ & _ & H1 & H2 & H3 & H4 & H5 & H6 & H7 & H8 & _).
  assert (D9 : dyadic 9) by (exists 3%nat; reflexivity).
  set (Jc := fun (p : unit) (e : equilibrium R unit unit) (_ : nat -> nat -> R) (_ : option R) => Ok (fun _ _ : nat => 1, p, bs e)).
  assert (Ok' : exists e', newDomain (fun _ _ _ _ _ => 0) sqrt exp 1 (fun _ _ b => b) flat_spline Jc e None None None None None None = Ok e').
  { unfold newDomain. cbn [or_default]. cbv zeta. change (e_nx e) with 9%nat. change (e_ny e) with 17%nat.
    change (tok e) with (mktok (T := R) [] true []). change (Rmin e) with 1. change (Rmax e) with 2. change (Zmin e) with (-1). change (Zmax e) with 1.
    change (@n0 R Num_R) with 0. rewrite Er. cbn [bind]. change (profiles e) with (Some tt). cbv iota.
    destruct (no_coils_psi e eq_refl) as (psi & Ep & _). rewrite Ep. cbn [bind]. change (psi_bndry (bs e)) with (Some (None (A := R))). cbv iota.
    unfold Jc at 1. cbn [bind]. unfold eq_spline. change (e_nx e) with 9%nat. change (e_ny e) with 17%nat.
    rewrite RBS_ok; [|lia|lia|apply linspace_increasing; cbn; lra|apply linspace_increasing; cbn; lra]. cbn [bind].
    match goal with |- context [linear_solve _ _ _ _ _ r ?J] => destruct (flat_linear (fun _ _ _ _ _ => 0) 1 (fun _ _ b => b) r A J) as (x & Ex) end;
      try (rewrite ?H1, ?H2, ?H3, ?H4, ?H5, ?H6, ?H7, ?H8; first [reflexivity|exact D9|lia|lra|assumption]).
    rewrite Ex. cbn [bind].
    apply flat_solve with (A := A); cbn [tok bnd e_nx e_ny Rmin Rmax Zmin Zmax slv with_bs with_plasma];
      try (rewrite ?H1, ?H2, ?H3, ?H4, ?H5, ?H6, ?H7, ?H8; first [reflexivity|exact D9|lia|lra|assumption]).
    intros e1 psi1. eexists. reflexivity. }
  destruct Ok' as (e' & E). exists e, e'. split; [exact E|]. destruct (C75_newDomain _ _ _ _ _ _ _ _ _ _ _ _ _ _ _ E) as (_ & Hbn & Ho & _ & _ & _ & _ & Hx & Hy).
  repeat split; assumption.
Qed.
Print Assumptions C75_newDomain_refuted.

(** C97 — a ConstrainPaxisIp or ConstrainBetapIp object can only be used on grids of the size
    of the equilibrium it was made with, [home]. *)
Theorem C97_constrained_profiles_are_tied_to_their_grid : forall (P Ctl : Type) G spline (home e : equilibrium R P Ctl) pow quad mu0 p psi arg,
  (e_nx home <> e_nx e \/ e_ny home <> e_ny e)%nat ->
  paxis_Jtor pow quad (env_of G spline home e) p psi arg = Raise ValueError /\
  betap_Jtor pow quad mu0 (env_of G spline home e) p psi arg = Raise ValueError.
Proof.
  intros P Ctl G spline home e pow quad mu0 p psi arg Hne.
  assert (E : updated_bndry (env_of G spline home e) psi = Raise ValueError).
  { unfold env_of. cbn [updated_bndry]. unfold update_boundary, eq_find_critical, eq_spline. rewrite RBS_shape by lia. reflexivity. }
  unfold paxis_Jtor, betap_Jtor. rewrite E. split; reflexivity.
Qed.
Print Assumptions C97_constrained_profiles_are_tied_to_their_grid.
(** So the profiles that refine hands on with the default size never work, whatever the flux. *)
Theorem C97_refined_profiles : forall (P Ctl : Type) G spline (home e' : equilibrium R P Ctl) pow quad mu0 p psi arg,
  refine G exp spline home None None = Ok e' ->
  paxis_Jtor pow quad (env_of G spline home e') p psi arg = Raise ValueError /\
  betap_Jtor pow quad mu0 (env_of G spline home e') p psi arg = Raise ValueError.
Proof.
  intros P Ctl G spline home e' pow quad mu0 p psi arg E. apply C97_constrained_profiles_are_tied_to_their_grid.
  assert (E2 := E). destruct (C74_refine_keeps_set_up _ _ _ _ _ _ _ _ E) as (H1 & _). rewrite H1.
  apply refine_inv in E2. destruct E2 as (r & b & En & _). apply new_inv in En. destruct En as (H2 & _). cbn [size_or] in H2. lia.
Qed.
Print Assumptions C97_refined_profiles.
Theorem C97_profiles_on_refined_grid_refuted : exists (e e' : equilibrium R unit unit),
  refine (fun _ _ _ _ _ => 0) exp flat_spline e None None = Ok e' /\ profiles e' = profiles e /\ profiles e <> None /\
  forall pow quad p psi arg, paxis_Jtor pow quad (env_of (fun _ _ _ _ _ => 0) flat_spline e e') p psi arg = Raise ValueError.
Proof.
  set (e := plain 6 6 BFree 2 (fun _ _ => 0)). destruct (GSsparse_rows 1 2 (-1) 1 11 11) as (A & EA & _).
  destruct (@flat_new unit unit (fun _ _ _ _ _ => 0) (mktok [] true []) 1 2 (-1) 1 11 11 BFree None 0 (GSsparse 1 2 (-1) 1) A 2 false) as (e1 & E1 & _);
    try reflexivity; try lia; try lra; try exact EA.
  assert (Ok' : exists e', refine (fun _ _ _ _ _ => 0) exp flat_spline e None None = Ok e').
  { unfold refine. change (size_or None (2 * (e_nx e - 1) + 1)) with 11%nat. change (size_or None (2 * (e_ny e - 1) + 1)) with 11%nat. cbv zeta.
    assert (H := new_inv _ _ _ _ _ _ _ _ _ _ _ _ _ _ _ _ E1). destruct H as (_ & _ & H1 & H2 & H3 & H4 & H5 & H6 & H7 & H8 & H9 & H10 & _).
    cbn [e plain tok Rmin Rmax Zmin Zmax bnd order profiles control]. change (@n0 R Num_R) with 0. rewrite E1. cbn [bind].
    match goal with |- context [update_plasma flat_spline e1 11 11 ?p] => assert (Hu := flat_update_plasma e1 p) end. rewrite H1, H2, H3, H4, H5, H6, H7 in Hu.
    rewrite Hu by (try lia; try lra; reflexivity). cbn [bind]. eexists. reflexivity. }
  destruct Ok' as (e' & E). exists e, e'. split; [exact E|]. destruct (C74_refine_keeps_set_up _ _ _ _ _ _ _ _ E) as (_ & _ & _ & _ & _ & _ & _ & _ & _ & Hp & _).
  split; [exact Hp|]. split; [discriminate|]. intros pow quad p psi arg. apply (C97_refined_profiles _ _ _ _ _ _ pow quad 1 p psi arg E).
Qed.
Print Assumptions C97_profiles_on_refined_grid_refuted.
