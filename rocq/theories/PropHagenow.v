(** C225-C227: the plasma flux with von Hagenow's boundary condition: linear in the current density, stable,
    contracting under the Picard iteration, but not positive. *)
From Coq Require Import String List Arith ZArith QArith Bool Reals Lia Lra FunctionalExtensionality.
From Coquelicot Require Import Coquelicot.
From Verif Require Import Py Num Numpy Linalg GradShafranov GradShafranovProofs Multigrid MultigridProofs MultigridGS Coils Machine MachineSpec Critical Romb RombProofs RombExact Boundary BoundarySpec BoundaryProofs
  Equilibrium EquilibriumSpec EquilibriumProofs EquilibriumProofs2 EquilibriumProofs3 GSSpec Gauss PropMultigrid PropGS EllipticSpec PropGreens PropBoundary PropEquilibrium PropSolveFlux PropSolveError FittingProofs Picard PicardProofs PropPicard PropPicardLimit PropFixedPoint.
Import ListNotations.
Local Open Scope R_scope.

(** ** Integrals along the edges *)
Lemma edge_rt k h f v : edge_integral (S (2 ^ k)) h f v -> v = RombProofs.rt k f 1 k k * h.
Proof. intros (s & Es & ->). rewrite RombProofs.romb_rt in Es. apply ok_inj in Es. subst s. reflexivity. Qed.
Lemma edge_lin n h f f1 f2 a b v v1 v2 : dyadic n -> (forall t, (t < n)%nat -> f t = a * f1 t + b * f2 t) ->
  edge_integral n h f v -> edge_integral n h f1 v1 -> edge_integral n h f2 v2 -> v = a * v1 + b * v2.
Proof.
  intros (k & ->) Hf E E1 E2. apply edge_rt in E. apply edge_rt in E1. apply edge_rt in E2. subst.
  rewrite (RombProofs.rt_ext k f (fun t => a * f1 t + b * f2 t) 1 k) by (try lia; intros t Ht; apply Hf; lia). rewrite RombProofs.rt_linear. ring.
Qed.
Lemma edge_sign n h f v : dyadic n -> 0 <= h -> (forall t, (t < n)%nat -> 0 <= f t) -> edge_integral n h f v -> 0 <= v.
Proof.
  intros (k & ->) Hh Hf E. apply edge_rt in E. subst. apply Rmult_le_pos; [|exact Hh]. apply rt_nonneg; [|lra]. intros t Ht. apply Hf. lia.
Qed.
Lemma edge_const n h c v : dyadic n -> edge_integral n h (fun _ => c) v -> v = c * (INR (n - 1) * h).
Proof.
  intros (k & ->) E. apply edge_rt in E. subst. assert (X : RombProofs.rt k (fun _ => c) 1 k k = RombProofs.rt k (fun t => c + 0 * INR t) 1 k k) by (apply RombProofs.rt_ext; [intros t _; rewrite Rmult_0_l, Rplus_0_r; reflexivity|lia]).
  rewrite X, RombProofs.rt_line by lia. replace (S (2 ^ k) - 1)%nat with (2 ^ k)%nat by lia. field.
Qed.
Lemma edge_some n h f : dyadic n -> exists v, edge_integral n h f v.
Proof. intros (k & ->). exists (RombProofs.rt k f 1 k k * h), (RombProofs.rt k f 1 k k). split; [apply RombProofs.romb_rt|reflexivity]. Qed.
Lemma edge_abs n h f c v : dyadic n -> 0 <= h -> (forall t, (t < n)%nat -> Rabs (f t) <= c) -> edge_integral n h f v -> Rabs v <= c * (INR (n - 1) * h).
Proof.
  intros D Hh Hf E. destruct (edge_some n h (fun _ => c) D) as (w & W). assert (Ew := edge_const n h c w D W).
  destruct (edge_some n h (fun t => 1 * c + 1 * f t) D) as (p & Hp). destruct (edge_some n h (fun t => 1 * c + (-1) * f t) D) as (m & Hm).
  assert (Ep := edge_lin n h _ _ _ 1 1 p w v D (fun t _ => eq_refl) Hp W E). assert (Em := edge_lin n h _ _ _ 1 (-1) m w v D (fun t _ => eq_refl) Hm W E).
  assert (Sp : 0 <= p) by (apply (edge_sign n h (fun t => 1 * c + 1 * f t) p D Hh); [|exact Hp]; intros t Ht; assert (X := Hf t Ht); apply Rabs_le_between in X; lra).
  assert (Sm : 0 <= m) by (apply (edge_sign n h (fun t => 1 * c + (-1) * f t) m D Hh); [|exact Hm]; intros t Ht; assert (X := Hf t Ht); apply Rabs_le_between in X; lra).
  rewrite <- Ew. apply Rabs_le. lra.
Qed.
(** ** The outward derivative *)
Lemma slope_lin g g1 g2 a b h : (forall k, (k <= 4)%nat -> g k = a * g1 k + b * g2 k) -> minus_slope g h = a * minus_slope g1 h + b * minus_slope g2 h.
Proof. intros H. unfold minus_slope. rewrite !H by lia. unfold Rdiv. ring. Qed.
Lemma slope_abs g h m : 0 < h -> (forall k, (k <= 4)%nat -> Rabs (g k) <= m) -> Rabs (minus_slope g h) <= 32 / 3 * m / h.
Proof.
  intros Hh H. unfold minus_slope, Rdiv at 1. rewrite Rabs_mult, (Rabs_right (/ h)) by (apply Rle_ge, Rlt_le, Rinv_0_lt_compat, Hh).
  apply Rmult_le_compat_r; [apply Rlt_le, Rinv_0_lt_compat, Hh|].
  assert (H0 := H 0%nat ltac:(lia)). assert (H1 := H 1%nat ltac:(lia)). assert (H2 := H 2%nat ltac:(lia)). assert (H3 := H 3%nat ltac:(lia)). assert (H4 := H 4%nat ltac:(lia)).
  apply Rabs_le_between in H0, H1, H2, H3, H4. apply Rabs_le. lra.
Qed.
Lemma outward_lin nx ny hR hZ u u1 u2 a b x y : (5 <= nx)%nat -> (5 <= ny)%nat -> on_edge nx ny x y ->
  (forall i j, (i < nx)%nat -> (j < ny)%nat -> u i j = a * u1 i j + b * u2 i j) ->
  outward nx ny hR hZ u x y = a * outward nx ny hR hZ u1 x y + b * outward nx ny hR hZ u2 x y.
Proof.
  intros Hx Hy (Lx & Ly & _) H. unfold outward. apply slope_lin. intros k Hk.
  destruct (Nat.eqb_spec x 0), (Nat.eqb_spec (S x) nx), (Nat.eqb_spec y 0), (Nat.eqb_spec (S y) ny); apply H; lia.
Qed.
Lemma outward_abs nx ny hR hZ u m h x y : (5 <= nx)%nat -> (5 <= ny)%nat -> on_edge nx ny x y -> 0 < h -> h <= hR -> h <= hZ -> 0 <= m ->
  (forall i j, (i < nx)%nat -> (j < ny)%nat -> Rabs (u i j) <= m) -> Rabs (outward nx ny hR hZ u x y) <= 32 / 3 * m / h.
Proof.
  intros Hx Hy (Lx & Ly & _) Hh HhR HhZ Hm H.
  assert (HD : h <= sqrt (hR ^ 2 + hZ ^ 2)).
  { rewrite <- (sqrt_pow2 h) by lra. apply sqrt_le_1_alt. assert (X := pow2_ge_0 hZ). assert (h ^ 2 <= hR ^ 2) by (apply pow_incr; lra). lra. }
  assert (M : forall h', h <= h' -> 32 / 3 * m / h' <= 32 / 3 * m / h).
  { intros h' Hh'. unfold Rdiv at 1 3. apply Rmult_le_compat_l; [lra|]. apply Rinv_le_contravar; assumption. }
  unfold outward. cbv zeta.
  match goal with |- Rabs (minus_slope ?g ?h0) <= _ => set (hh := h0); set (gg := g) end.
  assert (Hhh : h <= hh) by (unfold hh; destruct (Nat.eqb_spec x 0), (Nat.eqb_spec (S x) nx), (Nat.eqb_spec y 0), (Nat.eqb_spec (S y) ny); assumption).
  eapply Rle_trans; [apply (slope_abs gg hh m); [lra|]|apply M, Hhh].
  intros k Hk. unfold gg. destruct (Nat.eqb_spec x 0), (Nat.eqb_spec (S x) nx), (Nat.eqb_spec y 0), (Nat.eqb_spec (S y) ny); apply H; lia.
Qed.
(** ** The integral round the edges *)
Lemma contour_lin G nx ny gR gZ u u1 u2 a b r z v v1 v2 : dyadic nx -> dyadic ny -> (5 <= nx)%nat -> (5 <= ny)%nat ->
  (forall i j, (i < nx)%nat -> (j < ny)%nat -> u i j = a * u1 i j + b * u2 i j) ->
  contour_flux G nx ny gR gZ u r z v -> contour_flux G nx ny gR gZ u1 r z v1 -> contour_flux G nx ny gR gZ u2 r z v2 -> v = a * v1 + b * v2.
Proof.
  intros Dx Dy Hx Hy H (l & ri & lo & up & L & RI & LO & UP & ->) (l1 & ri1 & lo1 & up1 & L1 & RI1 & LO1 & UP1 & ->) (l2 & ri2 & lo2 & up2 & L2 & RI2 & LO2 & UP2 & ->).
  rewrite (edge_lin ny _ _ _ _ a b l l1 l2 Dy) with (2 := L) (3 := L1) (4 := L2);
    [|intros t Ht; rewrite (outward_lin nx ny _ _ u u1 u2 a b) by (try assumption; unfold on_edge; lia); unfold Rdiv; ring].
  rewrite (edge_lin ny _ _ _ _ a b ri ri1 ri2 Dy) with (2 := RI) (3 := RI1) (4 := RI2);
    [|intros t Ht; rewrite (outward_lin nx ny _ _ u u1 u2 a b) by (try assumption; unfold on_edge; lia); unfold Rdiv; ring].
  rewrite (edge_lin nx _ _ _ _ a b lo lo1 lo2 Dx) with (2 := LO) (3 := LO1) (4 := LO2);
    [|intros t Ht; rewrite (outward_lin nx ny _ _ u u1 u2 a b) by (try assumption; unfold on_edge; lia); unfold Rdiv; ring].
  rewrite (edge_lin nx _ _ _ _ a b up up1 up2 Dx) with (2 := UP) (3 := UP1) (4 := UP2);
    [|intros t Ht; rewrite (outward_lin nx ny _ _ u u1 u2 a b) by (try assumption; unfold on_edge; lia); unfold Rdiv; ring].
  ring.
Qed.
Lemma contour_some G nx ny gR gZ u r z : dyadic nx -> dyadic ny -> exists v, contour_flux G nx ny gR gZ u r z v.
Proof.
  intros Dx Dy. unfold contour_flux. cbv zeta.
  match goal with |- exists v l ri lo up, edge_integral _ _ ?f1 l /\ edge_integral _ _ ?f2 ri /\ edge_integral _ _ ?f3 lo /\ edge_integral _ _ ?f4 up /\ _ =>
    destruct (edge_some ny (gZ 0%nat 1%nat - gZ 0%nat 0%nat) f1 Dy) as (l & L); destruct (edge_some ny (gZ 0%nat 1%nat - gZ 0%nat 0%nat) f2 Dy) as (ri & RI);
    destruct (edge_some nx (gR 1%nat 0%nat - gR 0%nat 0%nat) f3 Dx) as (lo & LO); destruct (edge_some nx (gR 1%nat 0%nat - gR 0%nat 0%nat) f4 Dx) as (up & UP) end.
  exists (l + ri + lo + up), l, ri, lo, up. repeat split; assumption.
Qed.
(** The flux at the observer of any edge point from a function [u] of size 1 is at most B. *)
Definition contour_response {P Ctl} (G : R -> R -> R -> R -> R) (e : equilibrium R P Ctl) (B : R) : Prop :=
  forall x y u v, on_edge (e_nx e) (e_ny e) x y -> (forall i j, (i < e_nx e)%nat -> (j < e_ny e)%nat -> Rabs (u i j) <= 1) ->
    contour_flux G (e_nx e) (e_ny e) (grid_R e) (grid_Z e) u (fst (observer (e_nx e) (e_ny e) (grid_R e) (grid_Z e) x y)) (snd (observer (e_nx e) (e_ny e) (grid_R e) (grid_Z e) x y)) v -> Rabs v <= B.
(** Such a B: where the Green's function is at most g, 64/3 g / (h Rmin) times the lengths of two edges, h the smaller spacing. *)
Lemma contour_bound {P Ctl} G (e : equilibrium R P Ctl) g h : dyadic (e_nx e) -> dyadic (e_ny e) -> (5 <= e_nx e)%nat -> (5 <= e_ny e)%nat ->
  0 < Rmin e -> Rmin e < Rmax e -> Zmin e < Zmax e -> 0 < h -> h <= (Rmax e - Rmin e) / INR (e_nx e - 1) -> h <= (Zmax e - Zmin e) / INR (e_ny e - 1) ->
  (forall i j x y, on_edge (e_nx e) (e_ny e) i j -> on_edge (e_nx e) (e_ny e) x y ->
     Rabs (G (grid_R e i j) (grid_Z e i j) (fst (observer (e_nx e) (e_ny e) (grid_R e) (grid_Z e) x y)) (snd (observer (e_nx e) (e_ny e) (grid_R e) (grid_Z e) x y))) <= g) ->
  contour_response G e (64 / 3 * g / (h * Rmin e) * ((Rmax e - Rmin e) + (Zmax e - Zmin e))).
Proof.
  intros Dx Dy Hx Hy H0 HR HZ Hh HhR HhZ Hg x y u v Hed Hu (l & ri & lo & up & L & RI & LO & UP & ->).
  set (r := fst (observer (e_nx e) (e_ny e) (grid_R e) (grid_Z e) x y)) in *. set (z := snd (observer (e_nx e) (e_ny e) (grid_R e) (grid_Z e) x y)) in *.
  assert (Nx : 0 < INR (e_nx e - 1)) by (apply lt_0_INR; lia). assert (Ny : 0 < INR (e_ny e - 1)) by (apply lt_0_INR; lia).
  assert (SR : grid_R e 1%nat 0%nat - grid_R e 0%nat 0%nat = (Rmax e - Rmin e) / INR (e_nx e - 1)) by (rewrite !gridR_is; unfold gridpt; cbn [INR]; field; lra).
  assert (SZ : grid_Z e 0%nat 1%nat - grid_Z e 0%nat 0%nat = (Zmax e - Zmin e) / INR (e_ny e - 1)) by (rewrite !gridZ_is; unfold gridpt; cbn [INR]; field; lra).
  rewrite SR, SZ in *.
  set (hR := (Rmax e - Rmin e) / INR (e_nx e - 1)) in *. set (hZ := (Zmax e - Zmin e) / INR (e_ny e - 1)) in *.
  set (c := g * (32 / 3 * 1 / h) / Rmin e).
  assert (G0 : 0 <= g) by (eapply Rle_trans; [apply Rabs_pos|exact (Hg x y x y Hed Hed)]).
  assert (Hd : forall i j, on_edge (e_nx e) (e_ny e) i j -> Rabs (G (grid_R e i j) (grid_Z e i j) r z * outward (e_nx e) (e_ny e) hR hZ u i j / grid_R e i j) <= c).
  { intros i j Hij. assert (R0 : Rmin e <= grid_R e i j) by (rewrite gridR_is; apply gridpt_ge; [exact HR|lia]).
    unfold Rdiv at 1. rewrite !Rabs_mult, (Rabs_right (/ _)) by (apply Rle_ge, Rlt_le, Rinv_0_lt_compat; lra). unfold c, Rdiv at 3.
    apply Rmult_le_compat; [apply Rmult_le_pos; apply Rabs_pos|apply Rlt_le, Rinv_0_lt_compat; lra| |apply Rinv_le_contravar; assumption].
    apply Rmult_le_compat; [apply Rabs_pos|apply Rabs_pos|apply Hg; assumption|]. apply outward_abs; try assumption. lra. }
  assert (IR : INR (e_nx e - 1) * hR = Rmax e - Rmin e) by (unfold hR; field; lra). assert (IZ : INR (e_ny e - 1) * hZ = Zmax e - Zmin e) by (unfold hZ; field; lra).
  assert (PR : 0 <= hR) by lra. assert (PZ : 0 <= hZ) by lra.
  assert (A1 := edge_abs (e_ny e) hZ _ c l Dy PZ (fun t Ht => Hd 0%nat t ltac:(unfold on_edge; lia)) L).
  assert (A2 := edge_abs (e_ny e) hZ _ c ri Dy PZ (fun t Ht => Hd (e_nx e - 1)%nat t ltac:(unfold on_edge; lia)) RI).
  assert (A3 := edge_abs (e_nx e) hR _ c lo Dx PR (fun t Ht => Hd t 0%nat ltac:(unfold on_edge; lia)) LO).
  assert (A4 := edge_abs (e_nx e) hR _ c up Dx PR (fun t Ht => Hd t (e_ny e - 1)%nat ltac:(unfold on_edge; lia)) UP).
  rewrite IR, IZ in *.
  replace (64 / 3 * g / (h * Rmin e) * (Rmax e - Rmin e + (Zmax e - Zmin e))) with (2 * (c * (Zmax e - Zmin e)) + 2 * (c * (Rmax e - Rmin e))) by (unfold c; field; lra).
  apply Rabs_le_between in A1, A2, A3, A4. apply Rabs_le. lra.
Qed.

(** ** The function U of von Hagenow's method *)
Lemma hagenow_solved {P Ctl} G lu (e : equilibrium R P Ctl) J q : exact_solver lu -> second_order e -> bnd e = BHagenow -> dyadic (e_nx e) -> dyadic (e_ny e) ->
  applyBoundary G sqrt lu e J = Ok q ->
  (5 <= e_nx e)%nat /\ (5 <= e_ny e)%nat /\ exists u,
    (forall x y, on_edge (e_nx e) (e_ny e) x y -> u x y = 0) /\
    (forall x y, inside (e_nx e) (e_ny e) x y ->
       GSElliptic (Rmin e) u (e_nx e) (e_ny e) ((Rmax e - Rmin e) / INR (e_nx e - 1)) ((Zmax e - Zmin e) / INR (e_ny e - 1)) x y = gridpt (Rmin e) (Rmax e) (e_nx e) x * J x y) /\
    (forall x y, on_edge (e_nx e) (e_ny e) x y -> contour_flux (G FPsi) (e_nx e) (e_ny e) (grid_R e) (grid_Z e) u
       (fst (observer (e_nx e) (e_ny e) (grid_R e) (grid_Z e) x y)) (snd (observer (e_nx e) (e_ny e) (grid_R e) (grid_Z e) x y)) (q x y)).
Proof.
  intros Hlu (H0 & HR & HZ & A & EA & Es) Hb Dx Dy E. unfold applyBoundary in E. rewrite Hb in E.
  assert (H5 : (5 <= e_nx e)%nat /\ (5 <= e_ny e)%nat).
  { unfold freeBoundaryHagenow in E. apply bind_ok in E. destruct E as (? & _ & E). apply bind_ok in E. destruct E as (? & _ & E). apply bind_ok in E. destruct E as (? & _ & E).
    apply bind_ok in E. destruct E as ((? & ?) & _ & E). destruct (Nat.ltb_spec (e_nx e) 5); [discriminate|]. destruct (Nat.ltb_spec (e_ny e) 5); [discriminate|]. lia. }
  destruct H5 as (Hx & Hy). split; [exact Hx|]. split; [exact Hy|].
  assert (Hn : nonsingular (e_nx e * e_ny e) A).
  { destruct (C27_grad_shafranov_solvable (Rmin e) (Rmax e) (Zmin e) (Zmax e) 1 (e_nx e) (e_ny e) 1 2 true H0 HR HZ ltac:(lia) ltac:(lia)) as (s & A' & Hc & Hs & EA' & _).
    unfold createVcycle in Hc. cbn [createVcycle_] in Hc. rewrite EA in Hc. cbn [bind] in Hc. injection Hc as <-. exact Hs. }
  destruct (hagenow_spec (G FPsi) (e_nx e) (e_ny e) (grid_R e) (grid_Z e) J (callSolver lu e) (plasma_psi e) Dx Dy Hx Hy) as (s & Hs & HE & HO).
  destruct (callSolver lu e (plasma_psi e) s) as [[psi1 u]|er] eqn:Eu; [|rewrite (HE er eq_refl) in E; discriminate].
  destruct (HO psi1 u eq_refl) as (q' & Eq & Hq). rewrite E in Eq. apply ok_inj in Eq. subst q'. exists u.
  unfold callSolver in Eu. rewrite Es in Eu. destruct (direct_solves lu _ _ _ A s u psi1 _ Eu (fun b => Hlu _ A b Hn)) as (_ & Hu).
  destruct (GSsparse_apply (Rmin e) (Rmax e) (Zmin e) (Zmax e) (e_nx e) (e_ny e) u) as (A' & EA' & Hrow). rewrite EA in EA'. apply ok_inj in EA'. subst A'.
  split; [|split].
  - intros x y Hxy. rewrite <- (proj2 (Hs x y) Hxy). assert (Hl : (x < e_nx e /\ y < e_ny e)%nat) by (unfold on_edge in Hxy; lia). rewrite <- (Hu x y (proj1 Hl) (proj2 Hl)), (Hrow x y) by lia.
    destruct (interiorb_spec (e_nx e) (e_ny e) x y) as [Hi|Hi]; [|reflexivity]. unfold interior, on_edge in *. lia.
  - intros x y Hxy. assert (Hl : (x < e_nx e /\ y < e_ny e)%nat) by (unfold inside in Hxy; lia). assert (Hsv := proj1 (Hs x y) Hxy). rewrite gridR_is in Hsv.
    rewrite <- Hsv, <- (Hu x y (proj1 Hl) (proj2 Hl)), (Hrow x y) by lia. destruct (interiorb_spec (e_nx e) (e_ny e) x y) as [Hi|Hi]; [reflexivity|]. unfold interior, inside in *. lia.
  - intros x y Hxy. assert (X := proj1 (Hq x y (proj1 Hxy) (proj1 (proj2 Hxy))) Hxy). destruct (observer (e_nx e) (e_ny e) (grid_R e) (grid_Z e) x y). exact X.
Qed.

(** ** C225 *)
Lemma solve_dyadic {P Ctl} G mu lu spline (Jc : P -> equilibrium R P Ctl -> (nat -> nat -> R) -> option R -> result ((nat -> nat -> R) * P * bstate R)) e p Jo psi pb e' :
  solve G sqrt mu lu spline Jc e p Jo psi pb = Ok e' -> dyadic (e_nx e) /\ dyadic (e_ny e).
Proof.
  intros E. destruct (solve_inv _ _ _ _ _ _ _ _ _ _ _ _ E) as (ea & J & pp & rhs & x' & p' & I & dR & dZ & b & _ & _ & _ & _ & _ & HI & _). destruct (romb2_ok _ _ _ _ HI) as (kx & ky & Ex & Ey).
  split; [exists kx; exact Ex|exists ky; exact Ey].
Qed.
Lemma grids_same {P Ctl} (e1 e2 : equilibrium R P Ctl) :
  (e_nx e1, e_ny e1, Rmin e1, Rmax e1, Zmin e1, Zmax e1) = (e_nx e2, e_ny e2, Rmin e2, Rmax e2, Zmin e2, Zmax e2) -> grid_R e1 = grid_R e2 /\ grid_Z e1 = grid_Z e2.
Proof. intros D. injection D as N M A1 A2 A3 A4. split; [unfold grid_R, R_1D; rewrite N, A1, A2; reflexivity|unfold grid_Z, Z_1D; rewrite M, A3, A4; reflexivity]. Qed.
(** With von Hagenow's boundary the plasma flux is linear in the current density, whatever the Green's function,
    the flux before and the coils; only the current density at inner points enters. *)
Theorem C225_linear : forall (P Ctl : Type) G mu lu spline
    (Jtor_call : P -> equilibrium R P Ctl -> (nat -> nat -> R) -> option R -> result ((nat -> nat -> R) * P * bstate R))
    (e1 e2 e e1' e2' e' : equilibrium R P Ctl) p1 p2 p o1 o2 o s1 s2 s t1 t2 t a b J1 J2 J,
  exact_solver lu -> second_order e1 -> second_order e2 -> second_order e -> bnd e1 = BHagenow -> bnd e2 = BHagenow -> bnd e = BHagenow ->
  (e_nx e1, e_ny e1, Rmin e1, Rmax e1, Zmin e1, Zmax e1) = (e_nx e, e_ny e, Rmin e, Rmax e, Zmin e, Zmax e) ->
  (e_nx e2, e_ny e2, Rmin e2, Rmax e2, Zmin e2, Zmax e2) = (e_nx e, e_ny e, Rmin e, Rmax e, Zmin e, Zmax e) ->
  solve G sqrt mu lu spline Jtor_call e1 p1 o1 s1 t1 = Ok e1' -> jtor e1' = Some J1 ->
  solve G sqrt mu lu spline Jtor_call e2 p2 o2 s2 t2 = Ok e2' -> jtor e2' = Some J2 ->
  solve G sqrt mu lu spline Jtor_call e p o s t = Ok e' -> jtor e' = Some J ->
  (forall x y, inside (e_nx e) (e_ny e) x y -> J x y = a * J1 x y + b * J2 x y) ->
  forall x y, (x < e_nx e)%nat -> (y < e_ny e)%nat -> plasma_psi e' x y = a * plasma_psi e1' x y + b * plasma_psi e2' x y.
Proof.
  intros P Ctl G mu lu spline Jc e1 e2 e e1' e2' e' p1 p2 p o1 o2 o s1 s2 s t1 t2 t a b J1 J2 J Hlu HS1 HS2 HS B1 B2 Hb D1 D2 E1 EJ1 E2 EJ2 E EJ HJ.
  destruct (PropSolveFlux.solved G mu lu spline Jc e1 e1' _ _ _ _ J1 Hlu HS1 E1 EJ1) as (q1 & Q1 & _ & _ & He1 & Hi1).
  destruct (PropSolveFlux.solved G mu lu spline Jc e2 e2' _ _ _ _ J2 Hlu HS2 E2 EJ2) as (q2 & Q2 & _ & _ & He2 & Hi2).
  destruct (PropSolveFlux.solved G mu lu spline Jc e e' _ _ _ _ J Hlu HS E EJ) as (q & Q & Hnx & Hny & He & Hi).
  destruct (solve_dyadic _ _ _ _ _ _ _ _ _ _ _ E1) as (Dx1 & Dy1). destruct (solve_dyadic _ _ _ _ _ _ _ _ _ _ _ E2) as (Dx2 & Dy2). destruct (solve_dyadic _ _ _ _ _ _ _ _ _ _ _ E) as (Dx & Dy).
  destruct (hagenow_solved G lu e1 J1 q1 Hlu HS1 B1 Dx1 Dy1 Q1) as (_ & _ & u1 & Ue1 & Ui1 & Uq1).
  destruct (hagenow_solved G lu e2 J2 q2 Hlu HS2 B2 Dx2 Dy2 Q2) as (_ & _ & u2 & Ue2 & Ui2 & Uq2).
  destruct (hagenow_solved G lu e J q Hlu HS Hb Dx Dy Q) as (Hx5 & Hy5 & u & Ue & Ui & Uq).
  destruct (grids_same _ _ D1) as (GR1 & GZ1). destruct (grids_same _ _ D2) as (GR2 & GZ2). rewrite GR1, GZ1 in Uq1. rewrite GR2, GZ2 in Uq2.
  destruct HS as (H0 & HR & HZ & _).
  injection D1 as N1 M1 R1 S1 Z1 W1. injection D2 as N2 M2 R2 S2 Z2 W2.
  rewrite N1, M1 in He1, Ue1, Uq1. rewrite N1, M1, R1, S1, Z1, W1 in Hi1, Ui1. rewrite N2, M2 in He2, Ue2, Uq2. rewrite N2, M2, R2, S2, Z2, W2 in Hi2, Ui2.
  assert (HU : forall i j, (i < e_nx e)%nat -> (j < e_ny e)%nat -> u i j = a * u1 i j + b * u2 i j).
  { apply (uniqueness (Rmin e) (Rmax e) (Zmin e) (Zmax e) (e_nx e) (e_ny e) u (fun x y => a * u1 x y + b * u2 x y)); try assumption.
    - intros x y Hxy. rewrite GSElliptic_lin, Ui, Ui1, Ui2, HJ by exact Hxy. ring.
    - intros x y Hxy. rewrite Ue, Ue1, Ue2 by exact Hxy. ring. }
  apply (uniqueness (Rmin e) (Rmax e) (Zmin e) (Zmax e) (e_nx e) (e_ny e) (plasma_psi e') (fun x y => a * plasma_psi e1' x y + b * plasma_psi e2' x y)); try assumption.
  - intros x y Hxy. rewrite GSElliptic_lin, Hi, Hi1, Hi2, HJ by exact Hxy. ring.
  - intros x y Hxy. rewrite He, He1, He2 by exact Hxy. exact (contour_lin _ _ _ _ _ u u1 u2 a b _ _ _ _ _ Dx Dy Hx5 Hy5 HU (Uq x y Hxy) (Uq1 x y Hxy) (Uq2 x y Hxy)).
Qed.
Print Assumptions C225_linear.
(** Solves on a 5 x 5 grid with von Hagenow's boundary succeed. *)
Lemma hagenow_demo (G : field -> R -> R -> R -> R -> R) a b c d : 0 <= a -> a < b -> c < d -> exists A, let e := mkeq (P := unit) (Ctl := unit) 5 5 a b c d (mktok [] false []) BHagenow 2 (SMatrix (MGDirect 25 A)) false
       (starting_guess exp 5 5) (fun i j => []) 0 None no_boundary None None in
  second_order e /\
  forall mu J, exists e', solve G sqrt mu elimination flat_spline (fun _ _ _ _ => Raise TypeError) e tt (Some J) None None = Ok e' /\ jtor e' = Some J.
Proof.
  intros Ha Hab Hcd. destruct (GSsparse_rows a b c d 5 5) as (A & EA & _). exists A. cbv zeta.
  set (e := mkeq (P := unit) (Ctl := unit) 5 5 a b c d (mktok [] false []) BHagenow 2 (SMatrix (MGDirect 25 A)) false (starting_guess exp 5 5) (fun i j => []) 0 None no_boundary None None).
  assert (Hupd : forall e p, e_nx e = 5%nat -> e_ny e = 5%nat -> Rmin e = a -> Rmax e = b -> Zmin e = c -> Zmax e = d -> coils (tok e) = [] ->
            update_plasma (P := unit) (Ctl := unit) flat_spline e 5 5 p = Ok (with_bs (with_plasma e p) (bs e))).
  { intros e0 p H1 H2 H3 H4 H5 H6 H7. assert (H := flat_update_plasma e0 p). rewrite H1, H2, H3, H4, H5, H6 in H. apply H; try lia; try lra; exact H7. }
  split. { unfold second_order. cbn [Rmin Rmax Zmin Zmax e_nx e_ny slv e]. repeat (split; [assumption|]). exists A. split; [exact EA|reflexivity]. }
  intros mu J. assert (D5 : dyadic 5) by (exists 2%nat; reflexivity). destruct (romb2_dyadic 5 5 J D5 D5) as (s & Es).
  set (e1 := with_profiles e (Some tt) (control e)).
  assert (E1 : update_own flat_spline e1 = Ok e1).
  { unfold update_own. destruct (no_coils_psi e1 eq_refl) as (psi & E & _). rewrite E. cbn [bind].
    rewrite (flat_update e1 psi) by (cbn [e_nx e_ny Rmin Rmax Zmin Zmax e1 e with_profiles]; try lia; lra). reflexivity. }
  assert (Eb : exists q, applyBoundary (P := unit) (Ctl := unit) G sqrt elimination e1 J = Ok q).
  { unfold applyBoundary. change (bnd e1) with (@BHagenow R). cbv iota. change (e_nx e1) with 5%nat. change (e_ny e1) with 5%nat.
    destruct (hagenow_spec (G FPsi) 5 5 (grid_R e1) (grid_Z e1) J (callSolver elimination e1) (plasma_psi e1) D5 D5 ltac:(lia) ltac:(lia)) as (src & _ & _ & HO).
    destruct (HO (plasma_psi e1) (unravel 5 (elimination 25 A (ravel 5 src))) eq_refl) as (q & Eq & _). exists q. exact Eq. }
  destruct Eb as (q & Eb). eexists. unfold solve. fold e1. rewrite E1. cbn [bind]. unfold linear_solve. rewrite Eb. cbn [bind]. change (e_nx e1) with 5%nat. change (e_ny e1) with 5%nat.
  unfold set_edges. cbn [Nat.eqb orb bind]. unfold callSolver, solver_call. change (slv e1) with (SMatrix (MGDirect 25 A)).
  change (e_nx e1) with 5%nat. change (e_ny e1) with 5%nat. cbn [mg_call]. change (25 =? 5 * 5)%nat with true. cbn [bind].
  rewrite Hupd by reflexivity. cbn [bind].
  match goal with |- bind (romb2 ?a ?b ?c) _ = _ /\ _ => change (romb2 a b c) with (romb2 5 5 J) end. rewrite Es. cbn [bind].
  split; reflexivity.
Qed.
(** Twice one current density less three times another, with the Green's function of the code. *)
Example C225_example : forall J1 J2, exists A e1 e2 e,
  let run J := solve (fun _ => green) sqrt 1 elimination flat_spline (fun _ _ _ _ => Raise TypeError) (demo_eq BHagenow A) tt (Some J) None None in
  run J1 = Ok e1 /\ run J2 = Ok e2 /\ run (fun x y => 2 * J1 x y + -3 * J2 x y) = Ok e /\
  forall x y, (x < 5)%nat -> (y < 5)%nat -> plasma_psi e x y = 2 * plasma_psi e1 x y + -3 * plasma_psi e2 x y.
Proof.
  intros J1 J2. destruct (hagenow_demo (fun _ => green) 1 2 (-1) 1 ltac:(lra) ltac:(lra) ltac:(lra)) as (A & HS & H). exists A.
  destruct (H 1 J1) as (e1 & E1 & EJ1), (H 1 J2) as (e2 & E2 & EJ2), (H 1 (fun x y => 2 * J1 x y + -3 * J2 x y)) as (e & E & EJ). exists e1, e2, e. cbv zeta.
  split; [exact E1|]. split; [exact E2|]. split; [exact E|].
  exact (C225_linear _ _ _ _ _ _ _ _ _ _ _ _ _ _ _ _ _ _ _ _ _ _ _ _ _ 2 (-3) J1 J2 _ elimination_exact HS HS HS eq_refl eq_refl eq_refl eq_refl eq_refl E1 EJ1 E2 EJ2 E EJ (fun x y _ => eq_refl)).
Qed.

(** ** C226 *)
(** Two current densities that differ by at most D at inner points: the fluxes differ by at most
    (B + mu0) Rmax (Zmax - Zmin)^2 / 8 D. *)
Theorem C226_stability : forall (P Ctl : Type) G mu lu spline
    (Jtor_call : P -> equilibrium R P Ctl -> (nat -> nat -> R) -> option R -> result ((nat -> nat -> R) * P * bstate R))
    (e1 e2 e1' e2' : equilibrium R P Ctl) p1 p2 o1 o2 s1 s2 t1 t2 J1 J2 B D,
  exact_solver lu -> second_order e1 -> second_order e2 -> 0 < mu ->
  (e_nx e1, e_ny e1, Rmin e1, Rmax e1, Zmin e1, Zmax e1) = (e_nx e2, e_ny e2, Rmin e2, Rmax e2, Zmin e2, Zmax e2) ->
  solve G sqrt mu lu spline Jtor_call e1 p1 o1 s1 t1 = Ok e1' -> jtor e1' = Some J1 ->
  solve G sqrt mu lu spline Jtor_call e2 p2 o2 s2 t2 = Ok e2' -> jtor e2' = Some J2 ->
  bnd e1 = BHagenow -> bnd e2 = BHagenow -> contour_response (G FPsi) e2 B ->
  (forall x y, inside (e_nx e2) (e_ny e2) x y -> Rabs (J1 x y - J2 x y) <= D) -> 0 <= D ->
  forall x y, (x < e_nx e2)%nat -> (y < e_ny e2)%nat ->
  Rabs (plasma_psi e1' x y - plasma_psi e2' x y) <= (B + mu) * Rmax e2 * ((Zmax e2 - Zmin e2) ^ 2 / 8) * D.
Proof.
  intros P Ctl G mu lu spline Jc e1 e2 e1' e2' p1 p2 o1 o2 s1 s2 t1 t2 J1 J2 B D Hlu HS1 HS2 Hmu E12 E1 EJ1 E2 EJ2 B1 B2 HB HJ HD.
  set (m := (Zmax e2 - Zmin e2) ^ 2 / 8 * (Rmax e2 * D)).
  intros x y Hx Hy. replace ((B + mu) * Rmax e2 * ((Zmax e2 - Zmin e2) ^ 2 / 8) * D) with (B * m + (Zmax e2 - Zmin e2) ^ 2 / 8 * (mu * Rmax e2 * D)) by (unfold m; ring).
  apply (C171_stability P Ctl G mu lu spline Jc e1 e2 e1' e2' p1 p2 o1 o2 s1 s2 t1 t2 J1 J2 (B * m) D); try assumption.
  right. intros v w Hed.
  destruct (PropSolveFlux.solved G mu lu spline Jc e1 e1' _ _ _ _ J1 Hlu HS1 E1 EJ1) as (q1 & Q1 & _ & _ & He1 & _).
  destruct (PropSolveFlux.solved G mu lu spline Jc e2 e2' _ _ _ _ J2 Hlu HS2 E2 EJ2) as (q2 & Q2 & Hnx & Hny & He2 & _).
  destruct (solve_dyadic _ _ _ _ _ _ _ _ _ _ _ E1) as (Dx1 & Dy1). destruct (solve_dyadic _ _ _ _ _ _ _ _ _ _ _ E2) as (Dx2 & Dy2).
  destruct (hagenow_solved G lu e1 J1 q1 Hlu HS1 B1 Dx1 Dy1 Q1) as (_ & _ & u1 & Ue1 & Ui1 & Uq1).
  destruct (hagenow_solved G lu e2 J2 q2 Hlu HS2 B2 Dx2 Dy2 Q2) as (Hx5 & Hy5 & u2 & Ue2 & Ui2 & Uq2).
  destruct (grids_same _ _ E12) as (GR & GZ). rewrite GR, GZ in Uq1. destruct HS2 as (H0 & HR & HZ & _).
  injection E12 as N M A1 A2 A3 A4. rewrite N, M in He1, Ue1, Uq1. rewrite N, M, A1, A2, A3, A4 in Ui1.
  assert (HU : forall i j, (i < e_nx e2)%nat -> (j < e_ny e2)%nat -> Rabs (1 * u1 i j + (-1) * u2 i j) <= 0 + m).
  { apply (bounded (Rmin e2) (Rmax e2) (Zmin e2) (Zmax e2) (e_nx e2) (e_ny e2) (fun i j => 1 * u1 i j + (-1) * u2 i j)); try assumption.
    - apply Rmult_le_pos; lra.
    - intros i j Hin. rewrite GSElliptic_lin, Ui1, Ui2 by exact Hin. set (r := gridpt (Rmin e2) (Rmax e2) (e_nx e2) i).
      replace (1 * (r * J1 i j) + -1 * (r * J2 i j)) with (r * (J1 i j - J2 i j)) by ring.
      assert (r0 := gridpt_ge (Rmin e2) (Rmax e2) (e_nx e2) i HR Hnx). assert (r1 := gridpt_le (Rmin e2) (Rmax e2) (e_nx e2) i HR Hnx ltac:(unfold inside in Hin; lia)). fold r in r0, r1.
      rewrite Rabs_mult, (Rabs_right r) by lra. apply Rmult_le_compat; [lra|apply Rabs_pos|exact r1|apply HJ, Hin].
    - intros i j Hij. rewrite Ue1, Ue2 by exact Hij. replace (1 * 0 + -1 * 0) with 0 by ring. rewrite Rabs_R0. lra. }
  assert (m0 : 0 <= m) by (unfold m; assert (X := pow2_ge_0 (Zmax e2 - Zmin e2)); apply Rmult_le_pos; [lra|apply Rmult_le_pos; lra]).
  assert (K1 := Uq1 v w Hed). assert (K2 := Uq2 v w Hed). rewrite He1, He2 by exact Hed.
  set (ro := fst (observer (e_nx e2) (e_ny e2) (grid_R e2) (grid_Z e2) v w)) in *. set (zo := snd (observer (e_nx e2) (e_ny e2) (grid_R e2) (grid_Z e2) v w)) in *.
  destruct (Rle_lt_or_eq_dec 0 m m0) as [mp|mz].
  - destruct (contour_some (G FPsi) (e_nx e2) (e_ny e2) (grid_R e2) (grid_Z e2) (fun i j => / m * u1 i j + (- / m) * u2 i j) ro zo Dx2 Dy2) as (t & Ht).
    assert (Et := contour_lin _ _ _ _ _ (fun i j => / m * u1 i j + (- / m) * u2 i j) u1 u2 (/ m) (- / m) ro zo t _ _ Dx2 Dy2 Hx5 Hy5 (fun i j _ _ => eq_refl) Ht K1 K2).
    assert (Bt : Rabs t <= B).
    { apply (HB v w (fun i j => / m * u1 i j + (- / m) * u2 i j) t Hed); [|exact Ht]. intros i j Hi Hj. replace (/ m * u1 i j + - / m * u2 i j) with (/ m * (1 * u1 i j + (-1) * u2 i j)) by ring.
      assert (Y := HU i j Hi Hj). assert (im : 0 < / m) by (apply Rinv_0_lt_compat, mp). rewrite Rabs_mult, (Rabs_right (/ m)) by lra. replace 1 with (/ m * (0 + m)) at 2 by (field; lra). apply Rmult_le_compat_l; lra. }
    replace (q1 v w - q2 v w) with (m * t) by (rewrite Et; field; lra). rewrite Rabs_mult, (Rabs_right m) by lra. rewrite Rmult_comm. apply Rmult_le_compat_r; assumption.
  - assert (Z : forall i j, (i < e_nx e2)%nat -> (j < e_ny e2)%nat -> u1 i j = 1 * u2 i j + 0 * u2 i j).
    { intros i j Hi Hj. assert (Y := HU i j Hi Hj). rewrite <- mz, Rplus_0_r in Y. assert (Y2 := Rabs_pos (1 * u1 i j + -1 * u2 i j)). assert (Y3 : 1 * u1 i j + -1 * u2 i j = 0) by (apply Rabs_eq_0; lra). lra. }
    rewrite (contour_lin _ _ _ _ _ u1 u2 u2 1 0 ro zo _ _ _ Dx2 Dy2 Hx5 Hy5 Z K1 K2 K2). rewrite <- mz. replace (1 * q2 v w + 0 * q2 v w - q2 v w) with 0 by ring. rewrite Rabs_R0. lra.
Qed.
Print Assumptions C226_stability.

(** As [like_hagenow] and [lipschitz_hagenow], with von Hagenow's boundary; the current density at the edge does not count. *)
Definition like_hagenow {P Ctl} (e0 e : equilibrium R P Ctl) : Prop :=
  (e_nx e, e_ny e, Rmin e, Rmax e, Zmin e, Zmax e) = (e_nx e0, e_ny e0, Rmin e0, Rmax e0, Zmin e0, Zmax e0) /\
  second_order e /\ bnd e = BHagenow /\ tok e = tok e0 /\ pgreen e = pgreen e0.
Definition lipschitz_hagenow {P Ctl} (Jt : P -> equilibrium R P Ctl -> (nat -> nat -> R) -> option R -> result ((nat -> nat -> R) * P * bstate R)) (e0 : equilibrium R P Ctl)
    (Q : P -> Prop) (pb : option R) (K : R) : Prop :=
  forall p1 p2 e1 e2 psi1 psi2 J1 J2 p1' p2' b1 b2 d, Q p1 -> Q p2 -> like_hagenow e0 e1 -> like_hagenow e0 e2 -> within (e_nx e0) (e_ny e0) psi1 psi2 d ->
    Jt p1 e1 psi1 pb = Ok (J1, p1', b1) -> Jt p2 e2 psi2 pb = Ok (J2, p2', b2) ->
    forall x y, inside (e_nx e0) (e_ny e0) x y -> Rabs (J1 x y - J2 x y) <= K * d.
Theorem C226_contracts : forall (P Ctl : Type) G mu lu spline
    (Jt : P -> equilibrium R P Ctl -> (nat -> nat -> R) -> option R -> result ((nat -> nat -> R) * P * bstate R))
    (S : equilibrium R P Ctl * P -> Prop) e0 (Q : P -> Prop) pb B K L,
  let run s psi := solve G sqrt mu lu spline Jt (fst s) (snd s) None (Some psi) pb in
  let after s e' := (e', match profiles e' with Some q => q | None => snd s end) in
  exact_solver lu -> 0 < mu -> 0 <= K -> contour_response (G FPsi) e0 B ->
  (forall s, S s -> like_hagenow e0 (fst s) /\ Q (snd s) /\ S (with_check (fst s) false, snd s)) ->
  (forall s psi, S s -> exists e' b, run s psi = Ok e' /\ S (after s e') /\ psi_bndry (bs e') = Some (Some b)) ->
  (forall s1 s2 psi1 psi2 e1 e2 b1 b2 d, S s1 -> S s2 -> within (e_nx e0) (e_ny e0) psi1 psi2 d -> run s1 psi1 = Ok e1 -> run s2 psi2 = Ok e2 ->
     psi_bndry (bs e1) = Some (Some b1) -> psi_bndry (bs e2) = Some (Some b2) -> Rabs (b1 - b2) <= L * d) ->
  lipschitz_hagenow Jt e0 Q pb K -> (0 < e_nx e0)%nat -> (0 < e_ny e0)%nat ->
  contracts (e_nx e0) (e_ny e0) (eq_ops G sqrt mu lu spline Jt None) pb S ((B + mu) * Rmax e0 * ((Zmax e0 - Zmin e0) ^ 2 / 8) * K) L.
Proof.
  intros P Ctl G mu lu spline Jt S e0 Q pb B K L run after Hlu Hmu HK HB HS Hrun Hbd HJ Hnx Hny. split; [|split].
  - intros s Hs. exact (proj2 (proj2 (HS s Hs))).
  - intros s psi0 Hs. destruct (Hrun s psi0 Hs) as (e' & b & E1 & E2 & E3). cbn [eq_solve eq_ops]. unfold run in E1. rewrite E1.
    destruct (solve_inv _ _ _ _ _ _ _ _ _ _ _ _ E1) as (ea & J & p1 & rhs & x & p' & I & dR & dZ & b' & _ & _ & _ & _ & _ & _ & _ & _ & (q & Eq & _) & Ee).
    exists (after s e'), q, b. split; [reflexivity|]. split; [exact E2|]. cbn [Picard.eq_psi bndry_flux eq_ops after fst]. split; [|exact E3]. rewrite Ee. exact Eq.
  - intros s1 s2 psi1 psi2 s1' s2' psi1' psi2' b1 b2 d H1 H2 Hw Es1 Ep1 Eb1 Es2 Ep2 Eb2.
    cbn [eq_solve eq_ops Picard.eq_psi bndry_flux] in Es1, Es2, Ep1, Ep2, Eb1, Eb2.
    destruct (solve G sqrt mu lu spline Jt (fst s1) (snd s1) None (Some psi1) pb) as [e1|] eqn:E1; [|discriminate]. injection Es1 as <-.
    destruct (solve G sqrt mu lu spline Jt (fst s2) (snd s2) None (Some psi2) pb) as [e2|] eqn:E2; [|discriminate]. injection Es2 as <-.
    cbn [fst] in Ep1, Ep2, Eb1, Eb2. split; [|exact (Hbd s1 s2 psi1 psi2 e1 e2 b1 b2 d H1 H2 Hw E1 E2 Eb1 Eb2)].
    assert (Hd : 0 <= d) by (eapply Rle_trans; [apply Rabs_pos|exact (Hw 0%nat 0%nat Hnx Hny)]).
    destruct (HS s1 H1) as (L1 & Q1 & _), (HS s2 H2) as (L2 & Q2 & _).
    destruct (solve_inv _ _ _ _ _ _ _ _ _ _ _ _ E1) as (ea & J1 & p1 & rhs1 & x1 & p1' & I1 & dR1 & dZ1 & c1 & Ea & (ba & bx & pa & Hpa & EJ1) & _ & _ & _ & _ & _ & _ & _ & Ee1).
    destruct (solve_inv _ _ _ _ _ _ _ _ _ _ _ _ E2) as (eb & J2 & p2 & rhs2 & x2 & p2' & I2 & dR2 & dZ2 & c2 & Eb & (bb & by2 & pc & Hpc & EJ2) & _ & _ & _ & _ & _ & _ & _ & Ee2).
    subst pa pc ea eb.
    assert (HJd : forall x y, inside (e_nx e0) (e_ny e0) x y -> Rabs (J1 x y - J2 x y) <= K * d) by (refine (HJ _ _ _ _ _ _ _ _ _ _ _ _ d Q1 Q2 _ _ Hw EJ1 EJ2); [exact L1|exact L2]).
    destruct L1 as (D1 & SO1 & B1 & T1 & P1), L2 as (D2 & SO2 & B2 & T2 & P2).
    assert (D12 := eq_trans D1 (eq_sym D2)). injection D2 as N M A A' C F.
    assert (JT1 : jtor e1 = Some J1) by (rewrite Ee1; reflexivity). assert (JT2 : jtor e2 = Some J2) by (rewrite Ee2; reflexivity).
    assert (HB2 : contour_response (G FPsi) (fst s2) B).
    { unfold contour_response in *. replace (grid_R (fst s2)) with (grid_R e0) by (unfold grid_R, R_1D; rewrite N, A, A'; reflexivity).
      replace (grid_Z (fst s2)) with (grid_Z e0) by (unfold grid_Z, Z_1D; rewrite M, C, F; reflexivity). rewrite N, M. exact HB. }
    assert (Hst := C226_stability P Ctl G mu lu spline Jt (fst s1) (fst s2) e1 e2 _ _ _ _ _ _ _ _ J1 J2 B (K * d) Hlu SO1 SO2 Hmu D12 E1 JT1 E2 JT2 B1 B2 HB2).
    rewrite N, M, A', C, F in Hst. specialize (Hst HJd ltac:(apply Rmult_le_pos; assumption)).
    intros i j Hi Hj. rewrite (total_diff e1 e2 psi1' psi2'); [|rewrite Ee1, Ee2; cbn [tok with_profiles with_current with_bs with_plasma]; congruence|rewrite Ee1, Ee2; cbn [pgreen with_profiles with_current with_bs with_plasma]; congruence|exact Ep1|exact Ep2].
    specialize (Hst i j Hi Hj). rewrite Rmult_assoc. exact Hst.
Qed.
Print Assumptions C226_contracts.
(** So there is exactly one equilibrium with von Hagenow's boundary and the iteration ends. *)
Theorem C226_converges : forall (P Ctl : Type) G mu lu spline
    (Jt : P -> equilibrium R P Ctl -> (nat -> nat -> R) -> option R -> result ((nat -> nat -> R) * P * bstate R))
    (S : equilibrium R P Ctl * P -> Prop) e0 (Q : P -> Prop) B K L p s,
  let run s psi := solve G sqrt mu lu spline Jt (fst s) (snd s) None (Some psi) (user_bndry p) in
  let after s e' := (e', match profiles e' with Some q => q | None => snd s end) in
  exact_solver lu -> 0 < mu -> 0 <= K -> 0 <= B -> 0 <= L -> contour_response (G FPsi) e0 B ->
  (forall s, S s -> like_hagenow e0 (fst s) /\ Q (snd s) /\ S (with_check (fst s) false, snd s)) ->
  (forall s psi, S s -> exists e' b, run s psi = Ok e' /\ S (after s e') /\ psi_bndry (bs e') = Some (Some b)) ->
  (forall s1 s2 psi1 psi2 e1 e2 b1 b2 d, S s1 -> S s2 -> within (e_nx e0) (e_ny e0) psi1 psi2 d -> run s1 psi1 = Ok e1 -> run s2 psi2 = Ok e2 ->
     psi_bndry (bs e1) = Some (Some b1) -> psi_bndry (bs e2) = Some (Some b2) -> Rabs (b1 - b2) <= L * d) ->
  lipschitz_hagenow Jt e0 Q (user_bndry p) K -> (0 < e_nx e0)%nat -> (0 < e_ny e0)%nat ->
  (B + mu) * Rmax e0 * ((Zmax e0 - Zmin e0) ^ 2 / 8) * K < 1 -> S s ->
  (exists psi, equilibrium_flux (e_nx e0) (e_ny e0) (eq_ops G sqrt mu lu spline Jt None) (user_bndry p) S psi /\
     forall psi', equilibrium_flux (e_nx e0) (e_ny e0) (eq_ops G sqrt mu lu spline Jt None) (user_bndry p) S psi' -> forall i j, (i < e_nx e0)%nat -> (j < e_ny e0)%nat -> psi' i j = psi i j) /\
  (check p = false -> wait p = false -> 0 <= blend p < 1 -> 0 < atol p -> maxits p = None \/ maxits p = Some 0%Z ->
   exists n, forall fuel, (n < fuel)%nat -> exists s' h, picard (e_nx e0) (e_ny e0) _ (eq_ops G sqrt mu lu spline Jt None) p fuel s = (s', Ok h) /\ S s').
Proof.
  intros P Ctl G mu lu spline Jt S e0 Q B K L p s run after Hlu Hmu HK HB0 HL HB HS Hrun Hbd HJ Hnx Hny Hq1 Hs.
  assert (HC := C226_contracts P Ctl G mu lu spline Jt S e0 Q (user_bndry p) B K L Hlu Hmu HK HB HS Hrun Hbd HJ Hnx Hny).
  assert (Hq : 0 <= (B + mu) * Rmax e0 * ((Zmax e0 - Zmin e0) ^ 2 / 8) * K < 1).
  { split; [|exact Hq1]. destruct (HS s Hs) as ((D & (R0 & R1 & _) & _) & _). injection D as _ _ A A' _ _. rewrite A in R0. rewrite A, A' in R1.
    assert (X := pow2_ge_0 (Zmax e0 - Zmin e0)). apply Rmult_le_pos; [|exact HK]. apply Rmult_le_pos; [apply Rmult_le_pos; lra|lra]. }
  split.
  - destruct (C186_exists_unique _ _ _ _ (user_bndry p) S _ L s Hnx Hny HC Hq Hs) as (psi & H1 & H2). exists psi. split; [exact H1|]. intros psi' H' i j Hi Hj. apply (H2 psi' H' i j Hi Hj).
  - intros Hchk Hw Hb Ha Hm. destruct (Hrun s (fun _ _ => 0) Hs) as (e' & b & E1 & _). unfold run in E1.
    destruct (solve_ok_psi G mu lu spline Jt _ _ _ _ _ _ E1) as (psi0 & E0).
    exact (C177_eventually (e_nx e0) (e_ny e0) _ (eq_ops G sqrt mu lu spline Jt None) p S _ L s psi0 Hnx Hny HC Hq HL eq_refl Hchk Hw Hb Ha Hm Hs E0).
Qed.
Print Assumptions C226_converges.
(** The profile 1 + psi / 10 of C178 with von Hagenow's boundary and the Green's function 1/1000: B is at most 32/125 and q is 157/1250. *)
Definition G1000 (_ : field) (_ _ _ _ : R) : R := 1 / 1000.
Definition hag_eq (A : nat -> nat -> R) : equilibrium R unit unit :=
  mkeq 5 5 1 2 (-1) 1 (mktok [] false []) BHagenow 2 (SMatrix (MGDirect 25 A)) false (fun _ _ => 0) (fun i j => []) 0 None (mkb None (Some (Some 1)) None None None false None) None None.
Definition hag_state (A : nat -> nat -> R) (s : equilibrium R unit unit * unit) : Prop :=
  like_hagenow (hag_eq A) (fst s) /\ slv (fst s) = SMatrix (MGDirect 25 A) /\ psi_bndry (bs (fst s)) = Some (Some 1).
Lemma hag_response A : contour_response (G1000 FPsi) (hag_eq A) (32 / 125).
Proof.
  replace (32 / 125) with (64 / 3 * (1 / 1000) / (1 / 4 * Rmin (hag_eq A)) * ((Rmax (hag_eq A) - Rmin (hag_eq A)) + (Zmax (hag_eq A) - Zmin (hag_eq A)))) by (cbn [Rmin Rmax Zmin Zmax hag_eq]; field).
  assert (D5 : dyadic 5) by (exists 2%nat; reflexivity). apply contour_bound; cbn [Rmin Rmax Zmin Zmax e_nx e_ny hag_eq]; try exact D5; try lia; try lra; try (cbn; lra).
  intros i j x y _ _. unfold G1000. rewrite Rabs_right; lra.
Qed.
Lemma hag_run lu A s psi : hag_state A s -> exists e', solve G1000 sqrt 1 lu flat_spline linear_profile (fst s) (snd s) None (Some psi) None = Ok e' /\
  hag_state A (e', match profiles e' with Some q => q | None => snd s end).
Proof.
  destruct s as (e, u). cbn [fst snd]. intros ((D & SO & Hb & Ht & Hp) & Hs & Hbd). cbn [fst snd] in *. cbn [e_nx e_ny Rmin Rmax Zmin Zmax tok pgreen hag_eq] in D, Ht, Hp. injection D as N M A1 A2 A3 A4.
  assert (Hc : coils (tok e) = []) by (rewrite Ht; reflexivity).
  assert (D5 : dyadic 5) by (exists 2%nat; reflexivity).
  set (J := fun i j => 1 + psi i j / 10).
  destruct (romb2_dyadic 5 5 J D5 D5) as (r & Er).
  set (e1 := with_profiles e (Some u) (control e)). set (e2 := with_bs e1 (bs e1)). set (e3 := with_profiles (with_bs e2 (bs e2)) (Some u) (control e2)).
  assert (Ecs : forall p src, callSolver lu e3 p src = Ok (p, unravel 5 (lu 25%nat A (ravel 5 src)))).
  { intros p0 src. unfold callSolver. change (slv e3) with (slv e). rewrite Hs. unfold solver_call. change (e_nx e3) with (e_nx e). change (e_ny e3) with (e_ny e). rewrite N, M. reflexivity. }
  destruct (hagenow_spec (G1000 FPsi) 5 5 (grid_R e) (grid_Z e) J (callSolver lu e3) (plasma_psi e) D5 D5 ltac:(lia) ltac:(lia)) as (src & _ & _ & HO).
  destruct (HO _ _ (Ecs _ src)) as (q & Eq & _).
  destruct (set_edges_spec 5 5 (fun i j => nmul (nmul (nopp 1) (grid_R e3 i j)) (J i j)) q ltac:(lia) ltac:(lia)) as (rhs & Erh & _).
  assert (SR : exists d, spacing_R (e_nx e) (e_ny e) (grid_R e) = Ok d) by (rewrite N, M; eexists; reflexivity).
  assert (SZ : exists d, spacing_Z (e_nx e) (e_ny e) (grid_Z e) = Ok d) by (rewrite N, M; eexists; reflexivity).
  destruct SR as (dR & SR), SZ as (dZ & SZ).
  assert (E1 : update_own flat_spline e1 = Ok e2) by (apply flat_own; cbn [tok e_nx e_ny Rmin Rmax Zmin Zmax e1 with_profiles]; rewrite ?N, ?M, ?A1, ?A2, ?A3, ?A4; try lia; try lra; exact Hc).
  eexists. split.
  - unfold solve. fold e1. rewrite E1. cbn [bind]. unfold linear_profile at 1. cbn [bind]. fold J.
    change (with_profiles (with_bs e2 (bs e2)) (Some u) (control e2)) with e3. unfold linear_solve, applyBoundary.
    change (bnd e3) with (bnd e). rewrite Hb. change (grid_R e3) with (grid_R e). change (grid_Z e3) with (grid_Z e). change (e_nx e3) with (e_nx e). change (e_ny e3) with (e_ny e). rewrite N, M. change (plasma_psi e3) with (plasma_psi e). rewrite Eq. cbn [bind].
    change (grid_R e3) with (grid_R e) in Erh. rewrite Erh. cbn [bind].
    unfold callSolver. change (slv e3) with (slv e). rewrite Hs. unfold solver_call. change (e_nx e3) with (e_nx e). change (e_ny e3) with (e_ny e). rewrite N, M. cbn [mg_call]. change (25 =? 5 * 5)%nat with true. cbn [bind].
    assert (U := fun x => flat_update_plasma e3 x). cbn [e_nx e_ny Rmin Rmax Zmin Zmax tok e3 e2 e1 with_profiles with_bs] in U. rewrite N, M, A1, A2, A3, A4 in U.
    rewrite U; [|lia|lia|lra|lra|exact Hc]. cbn [bind].
    match goal with |- bind (romb2 ?a ?b ?c) _ = _ => change (romb2 a b c) with (romb2 (e_nx e) (e_ny e) J) end. rewrite N, M, Er. cbn [bind].
    match goal with |- bind (spacing_R ?a ?b ?c) _ = _ => change (spacing_R a b c) with (spacing_R (e_nx e) (e_ny e) (grid_R e)) end. rewrite SR. cbn [bind].
    match goal with |- bind (spacing_Z ?a ?b ?c) _ = _ => change (spacing_Z a b c) with (spacing_Z (e_nx e) (e_ny e) (grid_Z e)) end. rewrite SZ. reflexivity.
  - split; [|split; [exact Hs|exact Hbd]]. split; [cbn; congruence|]. split; [exact SO|]. split; [exact Hb|]. split; [exact Ht|exact Hp].
Qed.
Example C226_example : exists A, hag_state A (hag_eq A, tt) /\
  (exists psi, equilibrium_flux 5 5 (eq_ops G1000 sqrt 1 elimination flat_spline linear_profile None) None (hag_state A) psi) /\
  exists n, forall fuel, (n < fuel)%nat -> exists s' h,
    picard 5 5 _ (eq_ops G1000 sqrt 1 elimination flat_spline linear_profile None) (plain_options None (1 / 1000) (1 / 1000000)) fuel (hag_eq A, tt) = (s', Ok h) /\ hag_state A s'.
Proof.
  destruct (GSsparse_rows 1 2 (-1) 1 5 5) as (A & EA & _). exists A.
  assert (HS : hag_state A (hag_eq A, tt)).
  { split; [|split; reflexivity]. repeat (split; [reflexivity|]). split; [|repeat split; reflexivity]. cbn [fst]. unfold second_order. cbn [Rmin Rmax Zmin Zmax e_nx e_ny slv hag_eq].
    repeat (split; [lra|]). exists A. split; [exact EA|reflexivity]. }
  split; [exact HS|].
  destruct (C226_converges unit unit G1000 1 elimination flat_spline linear_profile (hag_state A) (hag_eq A) (fun _ => True) (32 / 125) (1 / 10) 0 (plain_options None (1 / 1000) (1 / 1000000)) (hag_eq A, tt)) as ((psi & H1 & _) & H2).
  - exact elimination_exact.
  - lra.
  - lra.
  - lra.
  - lra.
  - apply hag_response.
  - intros s Hs. split; [apply Hs|]. split; [exact I|exact Hs].
  - intros s psi0 Hs. destruct (hag_run elimination A s psi0 Hs) as (e' & E1 & E2). exists e', 1. split; [exact E1|]. split; [exact E2|]. exact (proj2 (proj2 E2)).
  - intros s1 s2 psi1 psi2 e1 e2 b1 b2 d H1 H2 _ E1 E2 B1 B2. destruct (hag_run elimination A s1 psi1 H1) as (e1' & E1' & S1). destruct (hag_run elimination A s2 psi2 H2) as (e2' & E2' & S2).
    change (user_bndry (plain_options None (1 / 1000) (1 / 1000000))) with (@None R) in E1, E2.
    rewrite E1 in E1'. apply ok_inj in E1'. subst e1'. rewrite E2 in E2'. apply ok_inj in E2'. subst e2'.
    assert (X1 := proj2 (proj2 S1)). assert (X2 := proj2 (proj2 S2)). cbn [fst] in X1, X2. rewrite B1 in X1. rewrite B2 in X2. injection X1 as ->. injection X2 as ->. rewrite Rminus_diag_eq by reflexivity. rewrite Rabs_R0. lra.
  - intros p1 p2 e1 e2 psi1 psi2 J1 J2 p1' p2' b1 b2 d _ _ _ _ Hw E1 E2 x y Hin. injection E1 as <- _ _. injection E2 as <- _ _.
    replace (1 + psi1 x y / 10 - (1 + psi2 x y / 10)) with (/ 10 * (psi1 x y - psi2 x y)) by field. rewrite Rabs_mult, (Rabs_right (/ 10)) by lra.
    assert (H := Hw x y ltac:(unfold inside in Hin; cbn [e_nx hag_eq] in *; lia) ltac:(unfold inside in Hin; cbn [e_ny hag_eq] in *; lia)). lra.
  - cbn; lia.
  - cbn; lia.
  - cbn [Rmax Zmax Zmin hag_eq]. lra.
  - exact HS.
  - split; [exists psi; exact H1|]. apply H2; try reflexivity; try (cbn [plain_options blend atol]; nR; lra). left. reflexivity.
Qed.

(** ** C227 *)
(** With the free boundary a current density that is nowhere negative gives a flux that is nowhere negative (C166).
    With von Hagenow's boundary it does not: the one-sided differences for the derivative at the edges have the wrong
    sign for a current concentrated two points from the edge.  On a 5 x 5 grid the flux is then negative at every edge
    point, with the Green's function of the code. *)
Definition tent (x y : nat) : R := - (nth x [0; 1; 2; 21 / 20; 0] 0 * nth y [0; 1; 2; 1; 0] 0).
Definition tent_current (x y : nat) : R := GSElliptic 10 tent 5 5 1 1 x y / (10 + INR x).
Ltac five x := destruct x as [|[|[|[|[|x]]]]]; [| | | | |lia].
Lemma tent_positive x y : (x < 5)%nat -> (y < 5)%nat -> 0 <= tent_current x y.
Proof.
  intros Hx Hy. unfold tent_current. apply Rmult_le_pos; [|apply Rlt_le, Rinv_0_lt_compat; assert (X := pos_INR x); lra]. rewrite GSElliptic_closed.
  five x; five y; cbn [interiorb Nat.leb Nat.ltb andb Nat.add Nat.sub]; try (apply Rle_refl); unfold tent; cbn [nth INR]; try (cbn; lra); nR; cbn; lra.
Qed.
Lemma tent_outward x y : on_edge 5 5 x y -> outward 5 5 1 1 tent x y < 0.
Proof.
  intros (Hx & Hy & He). assert (S2 : 0 < / sqrt (1 ^ 2 + 1 ^ 2)) by (apply Rinv_0_lt_compat, sqrt_lt_R0; lra).
  five x; five y; try lia; unfold outward; cbn [Nat.eqb]; unfold minus_slope, tent, Rdiv; cbn [nth Nat.add Nat.sub]; try (rewrite Rinv_1; lra);
    match goal with |- ?a * ?s < 0 => enough (a < 0) by (assert (0 < (- a) * s) by (apply Rmult_lt_0_compat; lra); lra) end; lra.
Qed.
Lemma edge_negative n h f v : dyadic n -> 0 < h -> (forall t, (t < n)%nat -> f t < 0) -> edge_integral n h f v -> v < 0.
Proof.
  intros D Hh Hf E. destruct (edge_some n h (fun t => (-1) * f t + 0 * f t) D) as (w & W).
  assert (Ew := edge_lin n h _ f f (-1) 0 w v v D (fun t _ => eq_refl) W E E). enough (0 < w) by lra. clear Ew. destruct D as (k & ->). apply edge_rt in W. subst w.
  apply Rmult_lt_0_compat; [|exact Hh]. apply (rt_positive k _ 1) with (t := 0%nat); [|lra|lia|].
  - intros t Ht. assert (X := Hf t ltac:(lia)). lra.
  - assert (X := Hf 0%nat ltac:(lia)). lra.
Qed.
Theorem C227_positive_refuted : exists (e e' : equilibrium R unit unit) (J : nat -> nat -> R),
  (e_nx e, e_ny e, Rmin e, Rmax e, Zmin e, Zmax e) = (5%nat, 5%nat, 10, 14, -2, 2) /\ bnd e = BHagenow /\ second_order e /\ exact_solver elimination /\
  (forall x y, (x < 5)%nat -> (y < 5)%nat -> 0 <= J x y) /\ 0 < J 2%nat 2%nat /\
  solve (fun _ => green) sqrt 1 elimination flat_spline (fun _ _ _ _ => Raise TypeError) e tt (Some J) None None = Ok e' /\ jtor e' = Some J /\
  forall x y, on_edge 5 5 x y -> plasma_psi e' x y < 0.
Proof.
  destruct (hagenow_demo (fun _ => green) 10 14 (-2) 2 ltac:(lra) ltac:(lra) ltac:(lra)) as (A & HS & H). eexists. destruct (H 1 tent_current) as (e' & E & EJ). exists e', tent_current.
  split; [|split; [|split; [exact HS|split; [exact elimination_exact|split; [exact tent_positive|split; [|split; [exact E|split; [exact EJ|]]]]]]]]; [reflexivity|reflexivity| |].
  { unfold tent_current. rewrite GSElliptic_closed. cbn [interiorb Nat.leb Nat.ltb andb Nat.add Nat.sub]. unfold tent. cbn [nth INR]. cbn. lra. }
  intros x y Hed.
  destruct (PropSolveFlux.solved _ _ _ _ _ _ e' _ _ _ _ tent_current elimination_exact HS E EJ) as (q & Q & _ & _ & He & _).
  destruct (solve_dyadic _ _ _ _ _ _ _ _ _ _ _ E) as (Dx & Dy).
  destruct (hagenow_solved _ _ _ tent_current q elimination_exact HS eq_refl Dx Dy Q) as (_ & _ & u & Ue & Ui & Uq).
  rewrite (He x y Hed). specialize (Uq x y Hed). clear He E EJ H Q. cbn [Rmin Rmax Zmin Zmax e_nx e_ny] in *.
  set (e := mkeq _ _ _ _ _ _ _ _ _ _ _ _ _ _ _ _ _ _) in Uq.
  replace ((14 - 10) / INR (5 - 1)) with 1 in Ui by (cbn; lra). replace ((2 - -2) / INR (5 - 1)) with 1 in Ui by (cbn; lra).
  assert (Hu : forall i j, (i < 5)%nat -> (j < 5)%nat -> u i j = tent i j).
  { apply (uniqueness 10 14 (-2) 2 5 5); try lra; try lia; replace ((14 - 10) / INR (5 - 1)) with 1 by (cbn; lra); replace ((2 - -2) / INR (5 - 1)) with 1 by (cbn; lra).
    - intros i j Hij. rewrite (Ui i j Hij). unfold tent_current. replace (gridpt 10 14 5 i) with (10 + INR i) by (unfold gridpt; cbn [Nat.sub INR]; field). field. assert (X := pos_INR i). lra.
    - intros i j Hij. rewrite (Ue i j Hij). destruct Hij as (Hi & Hj & Hij). unfold tent. five i; five j; try lia; cbn [nth]; ring. }
  assert (P : forall i j, 0 < grid_R e i j) by (intros i j; rewrite gridR_is; cbn [Rmin Rmax e_nx e]; assert (X := gridpt_ge 10 14 5 i ltac:(lra) ltac:(lia)); lra).
  assert (P10 : 10 <= grid_R e x y) by (rewrite gridR_is; cbn [Rmin Rmax e_nx e]; apply gridpt_ge; [lra|lia]).
  set (r := fst (observer 5 5 (grid_R e) (grid_Z e) x y)) in Uq. set (z := snd (observer 5 5 (grid_R e) (grid_Z e) x y)) in Uq.
  assert (Pr : 0 < r) by (unfold r, observer; cbn [fst]; destruct (S x =? 5)%nat, (x =? 0)%nat; lra).
  assert (SR : grid_R e 1%nat 0%nat - grid_R e 0%nat 0%nat = 1) by (rewrite !gridR_is; cbn [Rmin Rmax e_nx e]; unfold gridpt; cbn [Nat.sub INR]; lra).
  assert (SZ : grid_Z e 0%nat 1%nat - grid_Z e 0%nat 0%nat = 1) by (rewrite !gridZ_is; cbn [Zmin Zmax e_ny e]; unfold gridpt; cbn [Nat.sub INR]; lra).
  destruct Uq as (l & ri & lo & up & L & RI & LO & UP & ->). rewrite SR, SZ in *.
  assert (Hd : forall i j, on_edge 5 5 i j -> green (grid_R e i j) (grid_Z e i j) r z * outward 5 5 1 1 u i j / grid_R e i j < 0).
  { intros i j Hij. rewrite (outward_lin 5 5 1 1 u tent tent 1 0 i j ltac:(lia) ltac:(lia) Hij) by (intros i0 j0 Hi0 Hj0; rewrite (Hu i0 j0 Hi0 Hj0); ring).
    assert (O := tent_outward i j Hij). assert (Gp := C155_positive (grid_R e i j) (grid_Z e i j) r z (P i j) Pr). set (g := green (grid_R e i j) (grid_Z e i j) r z) in *.
    set (o := outward 5 5 1 1 tent i j) in *. assert (X : 0 < g * (- o) / grid_R e i j) by (apply Rdiv_lt_0_compat; [apply Rmult_lt_0_compat; lra|apply P]).
    replace (g * (1 * o + 0 * o) / grid_R e i j) with (- (g * - o / grid_R e i j)) by (unfold Rdiv; ring). lra. }
  assert (D5 : dyadic 5) by (exists 2%nat; reflexivity).
  assert (N1 := edge_negative 5 1 _ l D5 Rlt_0_1 (fun t Ht => Hd 0%nat t ltac:(unfold on_edge; lia)) L).
  assert (N2 := edge_negative 5 1 _ ri D5 Rlt_0_1 (fun t Ht => Hd (5 - 1)%nat t ltac:(unfold on_edge; lia)) RI).
  assert (N3 := edge_negative 5 1 _ lo D5 Rlt_0_1 (fun t Ht => Hd t 0%nat ltac:(unfold on_edge; lia)) LO).
  assert (N4 := edge_negative 5 1 _ up D5 Rlt_0_1 (fun t Ht => Hd t (5 - 1)%nat ltac:(unfold on_edge; lia)) UP).
  lra.
Qed.
Print Assumptions C227_positive_refuted.
