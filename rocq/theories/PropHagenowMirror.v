(** C229: von Hagenow's boundary keeps the up-down symmetry. *)
From Coq Require Import String List Arith ZArith QArith Bool Reals Lra Lia.
From Coquelicot Require Import Coquelicot.
From Verif Require Import Py Num Numpy Romb RombProofs RombExact Multigrid MultigridProofs Gauss Coils Machine Critical Boundary BoundarySpec BoundaryProofs
  GradShafranov GradShafranovProofs Equilibrium EquilibriumSpec EquilibriumProofs EquilibriumProofs2 EquilibriumProofs3 GSSpec GS4Proofs FourthProofs FourthBound EllipticSpec PropGreens PropBoundary PropEquilibrium FittingProofs PropSolveFlux PropSolveError GSConsistency PropGS4Error PropEquilibrium2
  PropFourth PropFourthSign Picard PicardProofs PropPicard PropPicardLimit PropFixedPoint PropHagenow PropHagenow4.
Import ListNotations.
Local Open Scope R_scope.

Lemma edge_same n h f g v w : dyadic n -> (forall t, (t < n)%nat -> f t = g t) -> edge_integral n h f v -> edge_integral n h g w -> v = w.
Proof. intros D H E1 E2. rewrite (edge_lin n h f g g 1 0 v w w D) with (2 := E1) (3 := E2) (4 := E2); [ring|]. intros t Ht. rewrite (H t Ht). ring. Qed.
Lemma edge_rev n h f v w : dyadic n -> edge_integral n h f v -> edge_integral n h (fun t => f (n - 1 - t)%nat) w -> v = w.
Proof.
  intros (k & ->) E1 E2. apply edge_rt in E1. apply edge_rt in E2. subst. f_equal. rewrite <- (RombProofs.rt_rev k f 1 k k) by lia.
  apply RombProofs.rt_ext; [|lia]. intros t Ht. f_equal. lia.
Qed.
Lemma outward_mirror nx ny hR hZ u x y : (5 <= nx)%nat -> (5 <= ny)%nat -> on_edge nx ny x y -> (forall i j, (i < nx)%nat -> (j < ny)%nat -> u i (ny - 1 - j)%nat = u i j) ->
  outward nx ny hR hZ u x (ny - 1 - y) = outward nx ny hR hZ u x y.
Proof.
  intros Hx Hy (Lx & Ly & He) H. unfold outward. cbv zeta.
  destruct (Nat.eqb_spec x 0), (Nat.eqb_spec (S x) nx), (Nat.eqb_spec y 0), (Nat.eqb_spec (S y) ny), (Nat.eqb_spec (ny - 1 - y) 0), (Nat.eqb_spec (S (ny - 1 - y)) ny); try lia;
    apply slope_ext; intros k Hk; match goal with |- u ?a ?b = u ?a ?c => rewrite <- (H a c) by lia; f_equal; lia end.
Qed.
Lemma contour_mirror {P Ctl} ek ee (e : equilibrium R P Ctl) u r z v w : dyadic (e_nx e) -> dyadic (e_ny e) -> (5 <= e_nx e)%nat -> (5 <= e_ny e)%nat ->
  (forall i j, (i < e_nx e)%nat -> (j < e_ny e)%nat -> u i (e_ny e - 1 - j)%nat = u i j) ->
  contour_flux (Greens ek ee) (e_nx e) (e_ny e) (grid_R e) (grid_Z e) u r z v -> contour_flux (Greens ek ee) (e_nx e) (e_ny e) (grid_R e) (grid_Z e) u r (Zmin e + Zmax e - z) w -> w = v.
Proof.
  intros Dx Dy Hx Hy H (l & ri & lo & up & L & RI & LO & UP & ->) (l' & ri' & lo' & up' & L' & RI' & LO' & UP' & ->).
  set (hR := grid_R e 1%nat 0%nat - grid_R e 0%nat 0%nat) in *. set (hZ := grid_Z e 0%nat 1%nat - grid_Z e 0%nat 0%nat) in *.
  assert (D : forall i j, on_edge (e_nx e) (e_ny e) i j ->
    Greens ek ee (grid_R e i j) (grid_Z e i j) r (Zmin e + Zmax e - z) * outward (e_nx e) (e_ny e) hR hZ u i j / grid_R e i j =
    Greens ek ee (grid_R e i (e_ny e - 1 - j)%nat) (grid_Z e i (e_ny e - 1 - j)%nat) r z * outward (e_nx e) (e_ny e) hR hZ u i (e_ny e - 1 - j) / grid_R e i (e_ny e - 1 - j)%nat).
  { intros i j Hij. rewrite (outward_mirror _ _ _ _ _ _ _ Hx Hy Hij H). rewrite !gridR_is, !gridZ_is, mirror_point by (unfold on_edge in Hij; lia).
    f_equal. f_equal. set (a := gridpt (Zmin e) (Zmax e) (e_ny e) j).
    rewrite <- (Greens_even ek ee _ (Zmin e + Zmax e - a) _ z), <- (Greens_shift ek ee _ (- (Zmin e + Zmax e - a)) _ (- z) (Zmin e + Zmax e)). f_equal; ring. }
  assert (El : l = l').
  { destruct (edge_some (e_ny e) hZ (fun t => (fun y => Greens ek ee (grid_R e 0%nat y) (grid_Z e 0%nat y) r z * outward (e_nx e) (e_ny e) hR hZ u 0 y / grid_R e 0%nat y) (e_ny e - 1 - t)%nat) Dy) as (m & Hm).
    rewrite (edge_rev _ _ _ _ _ Dy L Hm). apply (edge_same (e_ny e) hZ _ _ m l' Dy) with (2 := Hm) (3 := L'). intros t Ht. symmetry. apply (D 0%nat t). unfold on_edge. lia. }
  assert (Er : ri = ri').
  { destruct (edge_some (e_ny e) hZ (fun t => (fun y => Greens ek ee (grid_R e (e_nx e - 1)%nat y) (grid_Z e (e_nx e - 1)%nat y) r z * outward (e_nx e) (e_ny e) hR hZ u (e_nx e - 1) y / grid_R e (e_nx e - 1)%nat y) (e_ny e - 1 - t)%nat) Dy) as (m & Hm).
    rewrite (edge_rev _ _ _ _ _ Dy RI Hm). apply (edge_same (e_ny e) hZ _ _ m ri' Dy) with (2 := Hm) (3 := RI'). intros t Ht. symmetry. apply (D (e_nx e - 1)%nat t). unfold on_edge. lia. }
  assert (Eu : up = lo').
  { apply (edge_same (e_nx e) hR _ _ up lo' Dx) with (2 := UP) (3 := LO'). intros t Ht. rewrite (D t 0%nat) by (unfold on_edge; lia). rewrite Nat.sub_0_r. reflexivity. }
  assert (Eo : lo = up').
  { apply (edge_same (e_nx e) hR _ _ lo up' Dx) with (2 := LO) (3 := UP'). intros t Ht. rewrite (D t (e_ny e - 1)%nat) by (unfold on_edge; lia). rewrite Nat.sub_diag. reflexivity. }
  rewrite El, Er, Eu, Eo. ring.
Qed.
Lemma observer_mirror {P Ctl} (e : equilibrium R P Ctl) x y : (5 <= e_nx e)%nat -> (5 <= e_ny e)%nat -> on_edge (e_nx e) (e_ny e) x y ->
  fst (observer (e_nx e) (e_ny e) (grid_R e) (grid_Z e) x (e_ny e - 1 - y)) = fst (observer (e_nx e) (e_ny e) (grid_R e) (grid_Z e) x y) /\
  snd (observer (e_nx e) (e_ny e) (grid_R e) (grid_Z e) x (e_ny e - 1 - y)) = Zmin e + Zmax e - snd (observer (e_nx e) (e_ny e) (grid_R e) (grid_Z e) x y).
Proof.
  intros Hx Hy (Lx & Ly & He). unfold observer. cbn [fst snd]. rewrite !gridR_is, !gridZ_is, mirror_point by lia. split; [reflexivity|].
  destruct (Nat.eqb_spec (S x) (e_nx e)), (Nat.eqb_spec x 0), (Nat.eqb_spec (S y) (e_ny e)), (Nat.eqb_spec (S (e_ny e - 1 - y)) (e_ny e)); cbn [orb]; try lia; lra.
Qed.

(** ** C229 *)
(** Second order. *)
Theorem C229_second : forall (P Ctl : Type) G mu lu spline ellipk ellipe
    (Jtor_call : P -> equilibrium R P Ctl -> (nat -> nat -> R) -> option R -> result ((nat -> nat -> R) * P * bstate R))
    (e e' : equilibrium R P Ctl) p Jo psi pb J,
  exact_solver lu -> second_order e -> bnd e = BHagenow -> G FPsi = Greens ellipk ellipe ->
  solve G sqrt mu lu spline Jtor_call e p Jo psi pb = Ok e' -> jtor e' = Some J ->
  (forall x y, inside (e_nx e) (e_ny e) x y -> J x (e_ny e - 1 - y)%nat = J x y) ->
  forall x y, (x < e_nx e)%nat -> (y < e_ny e)%nat -> plasma_psi e' x (e_ny e - 1 - y)%nat = plasma_psi e' x y.
Proof.
  intros P Ctl G mu lu spline ek ee Jc e e' p Jo psi pb J Hlu HS Hb HG E EJ HJ.
  destruct (PropSolveFlux.solved G mu lu spline Jc e e' p Jo psi pb J Hlu HS E EJ) as (q & Q & Hnx & Hny & He & Hi).
  destruct (solve_dyadic _ _ _ _ _ _ _ _ _ _ _ E) as (Dx & Dy). destruct (hagenow_solved G lu e J q Hlu HS Hb Dx Dy Q) as (Hx5 & Hy5 & u & Ue & Ui & Uq). destruct HS as (H0 & HR & HZ & _).
  assert (HU : forall i j, (i < e_nx e)%nat -> (j < e_ny e)%nat -> u i (e_ny e - 1 - j)%nat = u i j).
  { apply (uniqueness (Rmin e) (Rmax e) (Zmin e) (Zmax e) (e_nx e) (e_ny e) (fun x y => u x (e_ny e - 1 - y)%nat) u); try assumption.
    - intros x y Hxy. rewrite elliptic_mirror by exact Hxy. assert (Hm : inside (e_nx e) (e_ny e) x (e_ny e - 1 - y)) by (unfold inside in *; lia). rewrite (Ui x y Hxy), (Ui _ _ Hm), HJ by exact Hxy. reflexivity.
    - intros x y Hxy. assert (Hm : on_edge (e_nx e) (e_ny e) x (e_ny e - 1 - y)) by (unfold on_edge in *; lia). rewrite (Ue x y Hxy). exact (Ue _ _ Hm). }
  apply (uniqueness (Rmin e) (Rmax e) (Zmin e) (Zmax e) (e_nx e) (e_ny e) (fun x y => plasma_psi e' x (e_ny e - 1 - y)%nat) (plasma_psi e')); try assumption.
  - intros x y Hxy. rewrite elliptic_mirror by exact Hxy. assert (Hm : inside (e_nx e) (e_ny e) x (e_ny e - 1 - y)) by (unfold inside in *; lia). rewrite (Hi x y Hxy), (Hi _ _ Hm), HJ by exact Hxy. reflexivity.
  - intros x y Hxy. assert (Hm : on_edge (e_nx e) (e_ny e) x (e_ny e - 1 - y)) by (unfold on_edge in *; lia). rewrite (He x y Hxy), (He _ _ Hm).
    assert (K1 := Uq x y Hxy). assert (K2 := Uq _ _ Hm). destruct (observer_mirror e x y Hx5 Hy5 Hxy) as (O1 & O2). rewrite O1, O2 in K2. rewrite HG in K1, K2.
    exact (contour_mirror ek ee e u _ _ _ _ Dx Dy Hx5 Hy5 HU K1 K2).
Qed.
Print Assumptions C229_second.
(** Currents above and below the middle. *)
Example C229_example : exists A e',
  solve (fun _ => green) sqrt 1 elimination flat_spline (fun _ _ _ _ => Raise TypeError) (demo_eq BHagenow A) tt
    (Some (fun i j => if (i =? 1)%nat && ((j =? 1)%nat || (j =? 3)%nat) then 1 else 0)%bool) None None = Ok e' /\
  forall x y, (x < 5)%nat -> (y < 5)%nat -> plasma_psi e' x (4 - y)%nat = plasma_psi e' x y.
Proof.
  destruct (hagenow_demo (fun _ => green) 1 2 (-1) 1 ltac:(lra) ltac:(lra) ltac:(lra)) as (A & HS & H). exists A.
  destruct (H 1 (fun i j => if (i =? 1)%nat && ((j =? 1)%nat || (j =? 3)%nat) then 1 else 0)%bool) as (e' & E & EJ). exists e'. split; [exact E|].
  refine (C229_second _ _ _ _ _ _ _ _ _ _ _ _ _ _ _ _ elimination_exact HS eq_refl eq_refl E EJ _).
  intros x y Hin. unfold inside in Hin. cbn [e_nx e_ny] in *. assert (x = 1 \/ x = 2 \/ x = 3)%nat as [-> | [-> | ->]] by lia; assert (y = 1 \/ y = 2 \/ y = 3)%nat as [-> | [-> | ->]] by lia; reflexivity.
Qed.
(** Fourth order. *)
Theorem C229_fourth : forall (P Ctl : Type) G mu lu spline ellipk ellipe
    (Jtor_call : P -> equilibrium R P Ctl -> (nat -> nat -> R) -> option R -> result ((nat -> nat -> R) * P * bstate R))
    (e e' : equilibrium R P Ctl) p Jo psi pb J,
  fourth_order lu e -> bnd e = BHagenow -> G FPsi = Greens ellipk ellipe ->
  solve G sqrt mu lu spline Jtor_call e p Jo psi pb = Ok e' -> jtor e' = Some J ->
  (forall x y, inside (e_nx e) (e_ny e) x y -> J x (e_ny e - 1 - y)%nat = J x y) ->
  forall x y, (x < e_nx e)%nat -> (y < e_ny e)%nat -> plasma_psi e' x (e_ny e - 1 - y)%nat = plasma_psi e' x y.
Proof.
  intros P Ctl G mu lu spline ek ee Jc e e' p Jo psi pb J HF Hb HG E EJ HJ.
  assert (HF0 := HF). destruct HF0 as (Hnx & Hny & HR & HZ & A & EA & Es & HA). assert (Hx5 : (5 <= e_nx e)%nat) by lia. assert (Hy5 : (5 <= e_ny e)%nat) by lia.
  destruct (solved4 G mu lu spline Jc e e' p Jo psi pb J A HF EA E EJ) as (q & Q & He & Hi).
  destruct (solve_dyadic _ _ _ _ _ _ _ _ _ _ _ E) as (Dx & Dy). destruct (hagenow_solved4 G lu e J q A HF EA Hb Dx Dy Q) as (u & Ue & Ui & Uq).
  assert (HU : forall i j, (i < e_nx e)%nat -> (j < e_ny e)%nat -> u i (e_ny e - 1 - j)%nat = u i j).
  { apply (unique4 (Rmin e) (Rmax e) (Zmin e) (Zmax e) (e_nx e) (e_ny e) A Hnx Hny EA lu (fun x y => u x (e_ny e - 1 - y)%nat) u HA).
    - intros x y Hxy. rewrite (row_mirror (Rmin e) (Rmax e) (Zmin e) (Zmax e) (e_nx e) (e_ny e) A Hnx Hny EA u) by exact Hxy. apply inside_cases in Hxy.
      assert (Hm : inside (e_nx e) (e_ny e) x (e_ny e - 1 - y)) by (unfold inside in *; lia). rewrite (Ui x y Hxy), (Ui _ _ Hm), HJ by exact Hxy. reflexivity.
    - intros x y Hx Hy Hxy. apply edge_cases in Hxy; [|assumption..]. assert (Hm : on_edge (e_nx e) (e_ny e) x (e_ny e - 1 - y)) by (unfold on_edge in *; lia). rewrite (Ue x y Hxy). exact (Ue _ _ Hm). }
  apply (unique4 (Rmin e) (Rmax e) (Zmin e) (Zmax e) (e_nx e) (e_ny e) A Hnx Hny EA lu (fun x y => plasma_psi e' x (e_ny e - 1 - y)%nat) (plasma_psi e') HA).
  - intros x y Hxy. rewrite (row_mirror (Rmin e) (Rmax e) (Zmin e) (Zmax e) (e_nx e) (e_ny e) A Hnx Hny EA (plasma_psi e')) by exact Hxy. apply inside_cases in Hxy.
    assert (Hm : inside (e_nx e) (e_ny e) x (e_ny e - 1 - y)) by (unfold inside in *; lia). rewrite (Hi x y Hxy), (Hi _ _ Hm), HJ by exact Hxy. reflexivity.
  - intros x y Hx Hy Hxy. apply edge_cases in Hxy; [|assumption..]. assert (Hm : on_edge (e_nx e) (e_ny e) x (e_ny e - 1 - y)) by (unfold on_edge in *; lia). rewrite (He x y Hxy), (He _ _ Hm).
    assert (K1 := Uq x y Hxy). assert (K2 := Uq _ _ Hm). destruct (observer_mirror e x y Hx5 Hy5 Hxy) as (O1 & O2). rewrite O1, O2 in K2. rewrite HG in K1, K2.
    exact (contour_mirror ek ee e u _ _ _ _ Dx Dy Hx5 Hy5 HU K1 K2).
Qed.
Print Assumptions C229_fourth.
(** The profile 1 + psi / 10^9 for the flux j (8 - j). *)
Example C229_fourth_example : exists A e',
  fourth_order elimination (hx_eq A) /\
  solve (fun _ => green) sqrt 1 elimination flat_spline hx_Jt (hx_eq A) tt None (Some (fun _ j => INR (j * (8 - j)))) None = Ok e' /\
  forall x y, (x < 9)%nat -> (y < 9)%nat -> plasma_psi e' x (8 - y)%nat = plasma_psi e' x y.
Proof.
  destruct hx_facts as (A & HS0 & _). exists A. destruct (hx_run_any (fun _ => green) A (hx_eq A, tt) (fun _ j => INR (j * (8 - j))) HS0) as (e' & E & _ & _ & EJ). exists e'.
  assert (HF : fourth_order elimination (hx_eq A)) by apply HS0. split; [exact HF|]. split; [exact E|].
  refine (C229_fourth _ _ _ _ _ _ _ _ _ _ _ _ _ _ _ _ HF eq_refl eq_refl E EJ _).
  intros x y Hin. unfold inside in Hin. cbn [e_nx e_ny hx_eq] in *. unfold hx_profile. do 3 f_equal. assert (K : (8 - (9 - 1 - y) = y)%nat) by lia. rewrite K. lia.
Qed.
