(** C228: von Hagenow's boundary with the fourth-order solver of the constructor. *)
From Coq Require Import String List Arith ZArith QArith Bool Reals Lra Lia.
From Coquelicot Require Import Coquelicot.
From Verif Require Import Py Num Numpy Romb RombProofs RombExact Multigrid MultigridProofs Gauss Coils Machine Critical Boundary BoundarySpec BoundaryProofs
  GradShafranov GradShafranovProofs Equilibrium EquilibriumSpec EquilibriumProofs EquilibriumProofs2 EquilibriumProofs3 GSSpec GS4Proofs FourthProofs FourthBound EllipticSpec PropGreens PropBoundary PropEquilibrium FittingProofs PropSolveFlux PropSolveError GSConsistency PropGS4Error PropEquilibrium2
  PropFourth PropFourthSign Picard PicardProofs PropPicard PropPicardLimit PropFixedPoint PropStart PropRombError PropTrueFlux PropFourthError PropFourthTrue PropHagenow.
Import ListNotations.
Local Open Scope R_scope.

(** ** The function U of von Hagenow's method *)
Lemma hagenow_solved4 {P Ctl} G lu (e : equilibrium R P Ctl) J q A : fourth_order lu e -> GSsparse4thOrder (Rmin e) (Rmax e) (Zmin e) (Zmax e) (e_nx e) (e_ny e) = Ok A ->
  bnd e = BHagenow -> dyadic (e_nx e) -> dyadic (e_ny e) -> applyBoundary G sqrt lu e J = Ok q ->
  exists u,
    (forall x y, on_edge (e_nx e) (e_ny e) x y -> u x y = 0) /\
    (forall x y, inside (e_nx e) (e_ny e) x y -> mat_apply A u (e_nx e) (e_ny e) (x * e_ny e + y) = gridpt (Rmin e) (Rmax e) (e_nx e) x * J x y) /\
    (forall x y, on_edge (e_nx e) (e_ny e) x y -> contour_flux (G FPsi) (e_nx e) (e_ny e) (grid_R e) (grid_Z e) u
       (fst (observer (e_nx e) (e_ny e) (grid_R e) (grid_Z e) x y)) (snd (observer (e_nx e) (e_ny e) (grid_R e) (grid_Z e) x y)) (q x y)).
Proof.
  intros (Hx & Hy & HR & HZ & A' & EA' & Es & HA) EA Hb Dx Dy E. rewrite EA in EA'. apply ok_inj in EA'. subst A'. unfold applyBoundary in E. rewrite Hb in E.
  destruct (hagenow_spec (G FPsi) (e_nx e) (e_ny e) (grid_R e) (grid_Z e) J (callSolver lu e) (plasma_psi e) Dx Dy ltac:(lia) ltac:(lia)) as (s & Hs & HE & HO).
  destruct (callSolver lu e (plasma_psi e) s) as [[psi1 u]|er] eqn:Eu; [|rewrite (HE er eq_refl) in E; discriminate].
  destruct (HO psi1 u eq_refl) as (q' & Eq & Hq). rewrite E in Eq. apply ok_inj in Eq. subst q'. exists u.
  unfold callSolver in Eu. rewrite Es in Eu. destruct (direct_solves lu _ _ _ A s u psi1 _ Eu HA) as (_ & Hu).
  destruct (GS4_apply (Rmin e) (Rmax e) (Zmin e) (Zmax e) (e_nx e) (e_ny e) Hx Hy u) as (A' & EA' & _ & Hrow). rewrite EA in EA'. apply ok_inj in EA'. subst A'.
  split; [|split].
  - intros x y Hxy. assert (Hl : (x < e_nx e /\ y < e_ny e)%nat) by (unfold on_edge in Hxy; lia). rewrite <- (proj2 (Hs x y) Hxy), <- (Hu x y (proj1 Hl) (proj2 Hl)). symmetry. apply Hrow; [lia|lia|].
    unfold GradShafranovProofs.interior, on_edge in *. lia.
  - intros x y Hxy. assert (Hl : (x < e_nx e /\ y < e_ny e)%nat) by (unfold inside in Hxy; lia). assert (Hsv := proj1 (Hs x y) Hxy). rewrite gridR_is in Hsv.
    rewrite <- Hsv, <- (Hu x y (proj1 Hl) (proj2 Hl)). reflexivity.
  - intros x y Hxy. assert (X := proj1 (Hq x y (proj1 Hxy) (proj1 (proj2 Hxy))) Hxy). destruct (observer (e_nx e) (e_ny e) (grid_R e) (grid_Z e) x y). exact X.
Qed.

(** ** C228 *)
(** The plasma flux is linear in the current density at inner points. *)
Theorem C228_linear : forall (P Ctl : Type) G mu lu spline
    (Jtor_call : P -> equilibrium R P Ctl -> (nat -> nat -> R) -> option R -> result ((nat -> nat -> R) * P * bstate R))
    (e1 e2 e e1' e2' e' : equilibrium R P Ctl) p1 p2 p o1 o2 o s1 s2 s t1 t2 t a b J1 J2 J,
  fourth_order lu e1 -> fourth_order lu e2 -> fourth_order lu e -> bnd e1 = BHagenow -> bnd e2 = BHagenow -> bnd e = BHagenow ->
  (e_nx e1, e_ny e1, Rmin e1, Rmax e1, Zmin e1, Zmax e1) = (e_nx e, e_ny e, Rmin e, Rmax e, Zmin e, Zmax e) ->
  (e_nx e2, e_ny e2, Rmin e2, Rmax e2, Zmin e2, Zmax e2) = (e_nx e, e_ny e, Rmin e, Rmax e, Zmin e, Zmax e) ->
  solve G sqrt mu lu spline Jtor_call e1 p1 o1 s1 t1 = Ok e1' -> jtor e1' = Some J1 ->
  solve G sqrt mu lu spline Jtor_call e2 p2 o2 s2 t2 = Ok e2' -> jtor e2' = Some J2 ->
  solve G sqrt mu lu spline Jtor_call e p o s t = Ok e' -> jtor e' = Some J ->
  (forall x y, inside (e_nx e) (e_ny e) x y -> J x y = a * J1 x y + b * J2 x y) ->
  forall x y, (x < e_nx e)%nat -> (y < e_ny e)%nat -> plasma_psi e' x y = a * plasma_psi e1' x y + b * plasma_psi e2' x y.
Proof.
  intros P Ctl G mu lu spline Jc e1 e2 e e1' e2' e' p1 p2 p o1 o2 o s1 s2 s t1 t2 t a b J1 J2 J HS1 HS2 HS B1 B2 Hb D1 D2 E1 EJ1 E2 EJ2 E EJ HJ.
  assert (HF := HS). destruct HF as (Hx6 & Hy6 & HR & HZ & A & EA & _ & HA).
  destruct (grids_same _ _ D1) as (GR1 & GZ1). destruct (grids_same _ _ D2) as (GR2 & GZ2).
  injection D1 as N1 M1 R1 S1 Z1 W1. injection D2 as N2 M2 R2 S2 Z2 W2.
  assert (EA1 : GSsparse4thOrder (Rmin e1) (Rmax e1) (Zmin e1) (Zmax e1) (e_nx e1) (e_ny e1) = Ok A) by (rewrite N1, M1, R1, S1, Z1, W1; exact EA).
  assert (EA2 : GSsparse4thOrder (Rmin e2) (Rmax e2) (Zmin e2) (Zmax e2) (e_nx e2) (e_ny e2) = Ok A) by (rewrite N2, M2, R2, S2, Z2, W2; exact EA).
  destruct (solved4 G mu lu spline Jc e1 e1' _ _ _ _ J1 A HS1 EA1 E1 EJ1) as (q1 & Q1 & He1 & Hi1).
  destruct (solved4 G mu lu spline Jc e2 e2' _ _ _ _ J2 A HS2 EA2 E2 EJ2) as (q2 & Q2 & He2 & Hi2).
  destruct (solved4 G mu lu spline Jc e e' _ _ _ _ J A HS EA E EJ) as (q & Q & He & Hi).
  destruct (solve_dyadic _ _ _ _ _ _ _ _ _ _ _ E1) as (Dx1 & Dy1). destruct (solve_dyadic _ _ _ _ _ _ _ _ _ _ _ E2) as (Dx2 & Dy2). destruct (solve_dyadic _ _ _ _ _ _ _ _ _ _ _ E) as (Dx & Dy).
  destruct (hagenow_solved4 G lu e1 J1 q1 A HS1 EA1 B1 Dx1 Dy1 Q1) as (u1 & Ue1 & Ui1 & Uq1).
  destruct (hagenow_solved4 G lu e2 J2 q2 A HS2 EA2 B2 Dx2 Dy2 Q2) as (u2 & Ue2 & Ui2 & Uq2).
  destruct (hagenow_solved4 G lu e J q A HS EA Hb Dx Dy Q) as (u & Ue & Ui & Uq).
  rewrite GR1, GZ1 in Uq1. rewrite GR2, GZ2 in Uq2.
  rewrite N1, M1 in He1, Ue1, Uq1. rewrite N1, M1, R1, S1 in Hi1, Ui1. rewrite N2, M2 in He2, Ue2, Uq2. rewrite N2, M2, R2, S2 in Hi2, Ui2.
  assert (HU : forall i j, (i < e_nx e)%nat -> (j < e_ny e)%nat -> u i j = a * u1 i j + b * u2 i j).
  { apply (unique4 (Rmin e) (Rmax e) (Zmin e) (Zmax e) (e_nx e) (e_ny e) A Hx6 Hy6 EA lu u (fun x y => a * u1 x y + b * u2 x y) HA).
    - intros x y Hxy. apply inside_cases in Hxy. rewrite mat_apply_lin, Ui, Ui1, Ui2, HJ by exact Hxy. ring.
    - intros x y Hx Hy Hxy. apply edge_cases in Hxy; [|assumption..]. rewrite Ue, Ue1, Ue2 by exact Hxy. ring. }
  apply (unique4 (Rmin e) (Rmax e) (Zmin e) (Zmax e) (e_nx e) (e_ny e) A Hx6 Hy6 EA lu (plasma_psi e') (fun x y => a * plasma_psi e1' x y + b * plasma_psi e2' x y) HA).
  - intros x y Hxy. apply inside_cases in Hxy. rewrite mat_apply_lin, Hi, Hi1, Hi2, HJ by exact Hxy. ring.
  - intros x y Hx Hy Hxy. apply edge_cases in Hxy; [|assumption..]. rewrite He, He1, He2 by exact Hxy.
    exact (contour_lin _ _ _ _ _ u u1 u2 a b _ _ _ _ _ Dx Dy ltac:(lia) ltac:(lia) HU (Uq x y Hxy) (Uq1 x y Hxy) (Uq2 x y Hxy)).
Qed.
Print Assumptions C228_linear.
(** The flux depends on the current density at inner points with the constant (C B + mu0) K Rmax. *)
Theorem C228_stability : forall (P Ctl : Type) G mu lu spline
    (Jtor_call : P -> equilibrium R P Ctl -> (nat -> nat -> R) -> option R -> result ((nat -> nat -> R) * P * bstate R))
    (e1 e2 e1' e2' : equilibrium R P Ctl) p1 p2 o1 o2 s1 s2 t1 t2 J1 J2 B C K D,
  fourth_order lu e1 -> fourth_order lu e2 -> 0 < mu -> 0 <= Rmin e2 -> bounded_inverse e2 C K -> 0 <= K -> 0 <= C ->
  (e_nx e1, e_ny e1, Rmin e1, Rmax e1, Zmin e1, Zmax e1) = (e_nx e2, e_ny e2, Rmin e2, Rmax e2, Zmin e2, Zmax e2) ->
  solve G sqrt mu lu spline Jtor_call e1 p1 o1 s1 t1 = Ok e1' -> jtor e1' = Some J1 ->
  solve G sqrt mu lu spline Jtor_call e2 p2 o2 s2 t2 = Ok e2' -> jtor e2' = Some J2 ->
  bnd e1 = BHagenow -> bnd e2 = BHagenow -> contour_response (G FPsi) e2 B ->
  (forall x y, inside (e_nx e2) (e_ny e2) x y -> Rabs (J1 x y - J2 x y) <= D) -> 0 <= D ->
  forall x y, (x < e_nx e2)%nat -> (y < e_ny e2)%nat ->
  Rabs (plasma_psi e1' x y - plasma_psi e2' x y) <= (C * B + mu) * K * Rmax e2 * D.
Proof.
  intros P Ctl G mu lu spline Jc e1 e2 e1' e2' p1 p2 o1 o2 s1 s2 t1 t2 J1 J2 B C K D HS1 HS2 Hmu H0 HC HK HC0 E12 E1 EJ1 E2 EJ2 B1 B2 HB HJ HD.
  set (m := K * (Rmax e2 * D)).
  intros x y Hx Hy. replace ((C * B + mu) * K * Rmax e2 * D) with (C * (B * m) + K * (mu * Rmax e2 * D)) by (unfold m; ring).
  apply (C220_stability P Ctl G mu lu spline Jc e1 e2 e1' e2' p1 p2 o1 o2 s1 s2 t1 t2 J1 J2 C K (B * m) D); try assumption.
  right. intros v w Hed.
  assert (HF := HS2). destruct HF as (Hx6 & Hy6 & HR & HZ & A & EA & _ & HA).
  destruct (grids_same _ _ E12) as (GR & GZ). injection E12 as N M A1 A2 A3 A4.
  assert (EA1 : GSsparse4thOrder (Rmin e1) (Rmax e1) (Zmin e1) (Zmax e1) (e_nx e1) (e_ny e1) = Ok A) by (rewrite N, M, A1, A2, A3, A4; exact EA).
  destruct (solved4 G mu lu spline Jc e1 e1' _ _ _ _ J1 A HS1 EA1 E1 EJ1) as (q1 & Q1 & He1 & _).
  destruct (solved4 G mu lu spline Jc e2 e2' _ _ _ _ J2 A HS2 EA E2 EJ2) as (q2 & Q2 & He2 & _).
  destruct (solve_dyadic _ _ _ _ _ _ _ _ _ _ _ E1) as (Dx1 & Dy1). destruct (solve_dyadic _ _ _ _ _ _ _ _ _ _ _ E2) as (Dx2 & Dy2).
  destruct (hagenow_solved4 G lu e1 J1 q1 A HS1 EA1 B1 Dx1 Dy1 Q1) as (u1 & Ue1 & Ui1 & Uq1).
  destruct (hagenow_solved4 G lu e2 J2 q2 A HS2 EA B2 Dx2 Dy2 Q2) as (u2 & Ue2 & Ui2 & Uq2).
  assert (Hx5 : (5 <= e_nx e2)%nat) by lia. assert (Hy5 : (5 <= e_ny e2)%nat) by lia. assert (Hnx : (2 <= e_nx e2)%nat) by lia.
  rewrite GR, GZ in Uq1. rewrite N, M in He1, Ue1, Uq1. rewrite N, M, A1, A2 in Ui1.
  assert (HU : forall i j, (i < e_nx e2)%nat -> (j < e_ny e2)%nat -> Rabs (1 * u1 i j + (-1) * u2 i j) <= 0 + m).
  { intros i j Hi Hj. replace (0 + m) with (C * 0 + K * (Rmax e2 * D)) by (unfold m; ring).
    apply (HC A EA (fun i j => 1 * u1 i j + (-1) * u2 i j)); try assumption.
    - apply Rmult_le_pos; lra.
    - intros x' y' Hij. rewrite Ue1, Ue2 by exact Hij. replace (1 * 0 + -1 * 0) with 0 by ring. rewrite Rabs_R0. lra.
    - intros i' j' Hin. rewrite mat_apply_lin, Ui1, Ui2 by exact Hin. set (r := gridpt (Rmin e2) (Rmax e2) (e_nx e2) i').
      replace (1 * (r * J1 i' j') + -1 * (r * J2 i' j')) with (r * (J1 i' j' - J2 i' j')) by ring.
      assert (r0 := gridpt_ge (Rmin e2) (Rmax e2) (e_nx e2) i' HR Hnx). assert (r1 := gridpt_le (Rmin e2) (Rmax e2) (e_nx e2) i' HR Hnx ltac:(unfold inside in Hin; lia)). fold r in r0, r1.
      rewrite Rabs_mult, (Rabs_right r) by lra. apply Rmult_le_compat; [lra|apply Rabs_pos|exact r1|apply HJ, Hin]. }
  assert (m0 : 0 <= m) by (unfold m; apply Rmult_le_pos; [exact HK|apply Rmult_le_pos; lra]).
  assert (K1 := Uq1 v w Hed). assert (K2 := Uq2 v w Hed). rewrite He1, He2 by exact Hed.
  set (ro := fst (observer (e_nx e2) (e_ny e2) (grid_R e2) (grid_Z e2) v w)) in *. set (zo := snd (observer (e_nx e2) (e_ny e2) (grid_R e2) (grid_Z e2) v w)) in *.
  destruct (Rle_lt_or_eq_dec 0 m m0) as [mp|mz].
  - destruct (contour_some (G FPsi) (e_nx e2) (e_ny e2) (grid_R e2) (grid_Z e2) (fun i j => / m * u1 i j + (- / m) * u2 i j) ro zo Dx2 Dy2) as (t & Ht).
    assert (Et := contour_lin _ _ _ _ _ (fun i j => / m * u1 i j + (- / m) * u2 i j) u1 u2 (/ m) (- / m) ro zo t _ _ Dx2 Dy2 Hx5 Hy5 (fun i j _ _ => eq_refl) Ht K1 K2).
    assert (Bt : Rabs t <= B).
    { apply (HB v w (fun i j => / m * u1 i j + (- / m) * u2 i j) t Hed); [|exact Ht]. intros i j Hi Hj. replace (/ m * u1 i j + - / m * u2 i j) with (/ m * (1 * u1 i j + (-1) * u2 i j)) by ring.
      assert (Y := HU i j Hi Hj). assert (im : 0 < / m) by (apply Rinv_0_lt_compat, mp). rewrite Rabs_mult, (Rabs_right (/ m)) by lra. replace 1 with (/ m * (0 + m)) at 2 by (field; lra). apply Rmult_le_compat_l; lra. }
    replace (q1 v w - q2 v w) with (m * t) by (rewrite Et; field; lra). rewrite Rabs_mult, (Rabs_right m) by lra. rewrite Rmult_comm. apply Rmult_le_compat_r; assumption.
  - assert (Z : forall i j, (i < e_nx e2)%nat -> (j < e_ny e2)%nat -> u1 i j = 1 * u2 i j + 0 * u2 i j).
    { intros i j Hi Hj. assert (Y := HU i j Hi Hj). rewrite <- mz, Rplus_0_r in Y. assert (Y2 := Rabs_pos (1 * u1 i j + -1 * u2 i j)). assert (Y3 : 1 * u1 i j + -1 * u2 i j = 0) by (apply Rabs_eq_0; lra). lra. }
    rewrite (contour_lin _ _ _ _ _ u1 u2 u2 1 0 ro zo _ _ _ Dx2 Dy2 Hx5 Hy5 Z K1 K2 K2). rewrite <- mz. replace (1 * q2 v w + 0 * q2 v w - q2 v w) with 0 by ring. rewrite Rabs_R0. lra.
Qed.
Print Assumptions C228_stability.

(** As [like4] and [lipschitz_profile4], with von Hagenow's boundary. *)
Definition like4_hagenow {P Ctl} lu (e0 e : equilibrium R P Ctl) : Prop :=
  (e_nx e, e_ny e, Rmin e, Rmax e, Zmin e, Zmax e) = (e_nx e0, e_ny e0, Rmin e0, Rmax e0, Zmin e0, Zmax e0) /\
  fourth_order lu e /\ bnd e = BHagenow /\ tok e = tok e0 /\ pgreen e = pgreen e0.
Definition lipschitz_hagenow4 {P Ctl} lu (Jt : P -> equilibrium R P Ctl -> (nat -> nat -> R) -> option R -> result ((nat -> nat -> R) * P * bstate R)) (e0 : equilibrium R P Ctl)
    (Q : P -> Prop) (pb : option R) (L : R) : Prop :=
  forall p1 p2 e1 e2 psi1 psi2 J1 J2 p1' p2' b1 b2 d, Q p1 -> Q p2 -> like4_hagenow lu e0 e1 -> like4_hagenow lu e0 e2 -> within (e_nx e0) (e_ny e0) psi1 psi2 d ->
    Jt p1 e1 psi1 pb = Ok (J1, p1', b1) -> Jt p2 e2 psi2 pb = Ok (J2, p2', b2) ->
    forall x y, inside (e_nx e0) (e_ny e0) x y -> Rabs (J1 x y - J2 x y) <= L * d.
(** With such a profile eq.solve contracts as soon as q = (C B + mu0) K Rmax L is below 1. *)
Theorem C228_contracts : forall (P Ctl : Type) G mu lu spline
    (Jt : P -> equilibrium R P Ctl -> (nat -> nat -> R) -> option R -> result ((nat -> nat -> R) * P * bstate R))
    (S : equilibrium R P Ctl * P -> Prop) e0 (Q : P -> Prop) pb B C K L Lb,
  let run s psi := solve G sqrt mu lu spline Jt (fst s) (snd s) None (Some psi) pb in
  let after s e' := (e', match profiles e' with Some q => q | None => snd s end) in
  0 < mu -> 0 <= Rmin e0 -> bounded_inverse e0 C K -> 0 <= K -> 0 <= C -> 0 <= L -> contour_response (G FPsi) e0 B ->
  (forall s, S s -> like4_hagenow lu e0 (fst s) /\ Q (snd s) /\ S (with_check (fst s) false, snd s)) ->
  (forall s psi, S s -> exists e' b, run s psi = Ok e' /\ S (after s e') /\ psi_bndry (bs e') = Some (Some b)) ->
  (forall s1 s2 psi1 psi2 e1 e2 b1 b2 d, S s1 -> S s2 -> within (e_nx e0) (e_ny e0) psi1 psi2 d -> run s1 psi1 = Ok e1 -> run s2 psi2 = Ok e2 ->
     psi_bndry (bs e1) = Some (Some b1) -> psi_bndry (bs e2) = Some (Some b2) -> Rabs (b1 - b2) <= Lb * d) ->
  lipschitz_hagenow4 lu Jt e0 Q pb L -> (0 < e_nx e0)%nat -> (0 < e_ny e0)%nat ->
  contracts (e_nx e0) (e_ny e0) (eq_ops G sqrt mu lu spline Jt None) pb S ((C * B + mu) * K * Rmax e0 * L) Lb.
Proof.
  intros P Ctl G mu lu spline Jt S e0 Q pb B C K L Lb run after Hmu H0 HC HK HC0 HL HB HS Hrun Hbd HJ Hnx Hny. split; [|split].
  - intros s Hs. exact (proj2 (proj2 (HS s Hs))).
  - intros s psi0 Hs. destruct (Hrun s psi0 Hs) as (e' & b & E1 & E2 & E3). cbn [eq_solve eq_ops]. unfold run in E1. rewrite E1.
    destruct (solve_inv _ _ _ _ _ _ _ _ _ _ _ _ E1) as (ea & J & p1 & rhs & x & p' & I & dR & dZ & b' & _ & _ & _ & _ & _ & _ & _ & _ & (q & Eq & _) & Ee).
    exists (after s e'), q, b. split; [reflexivity|]. split; [exact E2|]. cbn [Picard.eq_psi bndry_flux eq_ops after fst]. split; [|exact E3]. rewrite Ee. exact Eq.
  - intros s1 s2 psi1 psi2 s1' s2' psi1' psi2' b1 b2 d H1 H2 Hw Es1 Ep1 Eb1 Es2 Ep2 Eb2.
    cbn [eq_solve eq_ops Picard.eq_psi bndry_flux] in Es1, Es2, Ep1, Ep2, Eb1, Eb2.
    destruct (solve G sqrt mu lu spline Jt (fst s1) (snd s1) None (Some psi1) pb) as [e1|] eqn:E1; [|discriminate]. injection Es1 as <-.
    destruct (solve G sqrt mu lu spline Jt (fst s2) (snd s2) None (Some psi2) pb) as [e2|] eqn:E2; [|discriminate]. injection Es2 as <-.
    cbn [fst] in Ep1, Ep2, Eb1, Eb2. split; [|exact (Hbd s1 s2 psi1 psi2 e1 e2 b1 b2 d H1 H2 Hw E1 E2 Eb1 Eb2)].
    assert (Hd : 0 <= d) by (eapply Rle_trans; [apply Rabs_pos|exact (Hw 0%nat 0%nat Hnx Hny)]).
    destruct (HS s1 H1) as (L1 & Q1 & _), (HS s2 H2) as (L2 & Q2 & _).
    destruct (solve_inv _ _ _ _ _ _ _ _ _ _ _ _ E1) as (ea & J1 & p1 & rhs1 & x1 & p1' & I1 & dR1 & dZ1 & c1 & Ea & (ba & bx & pa & Hpa & EJ1) & _ & _ & _ & _ & _ & _ & _ & Ee1).
    destruct (solve_inv _ _ _ _ _ _ _ _ _ _ _ _ E2) as (eb & J2 & p2 & rhs2 & x2 & p2' & I2 & dR2 & dZ2 & c2 & Eb & (bb & by2 & pc & Hpc & EJ2) & _ & _ & _ & _ & _ & _ & _ & Ee2).
    subst pa pc ea eb.
    assert (HJd : forall x y, inside (e_nx e0) (e_ny e0) x y -> Rabs (J1 x y - J2 x y) <= L * d) by (refine (HJ _ _ _ _ _ _ _ _ _ _ _ _ d Q1 Q2 _ _ Hw EJ1 EJ2); [exact L1|exact L2]).
    destruct L1 as (D1 & SO1 & B1 & T1 & P1), L2 as (D2 & SO2 & B2 & T2 & P2).
    assert (D12 := eq_trans D1 (eq_sym D2)). injection D2 as N M A A' C2 F.
    assert (HC2 : bounded_inverse (fst s2) C K) by (unfold bounded_inverse; rewrite N, M, A, A', C2, F; exact HC).
    assert (JT1 : jtor e1 = Some J1) by (rewrite Ee1; reflexivity). assert (JT2 : jtor e2 = Some J2) by (rewrite Ee2; reflexivity).
    assert (HB2 : contour_response (G FPsi) (fst s2) B).
    { unfold contour_response in *. replace (grid_R (fst s2)) with (grid_R e0) by (unfold grid_R, R_1D; rewrite N, A, A'; reflexivity).
      replace (grid_Z (fst s2)) with (grid_Z e0) by (unfold grid_Z, Z_1D; rewrite M, C2, F; reflexivity). rewrite N, M. exact HB. }
    assert (Hst := C228_stability P Ctl G mu lu spline Jt (fst s1) (fst s2) e1 e2 _ _ _ _ _ _ _ _ J1 J2 B C K (L * d) SO1 SO2 Hmu ltac:(rewrite A; exact H0) HC2 HK HC0 D12 E1 JT1 E2 JT2 B1 B2 HB2).
    rewrite N, M, A' in Hst. specialize (Hst HJd ltac:(apply Rmult_le_pos; assumption)).
    intros i j Hi Hj. rewrite (total_diff e1 e2 psi1' psi2'); [|rewrite Ee1, Ee2; cbn [tok with_profiles with_current with_bs with_plasma]; congruence|rewrite Ee1, Ee2; cbn [pgreen with_profiles with_current with_bs with_plasma]; congruence|exact Ep1|exact Ep2].
    specialize (Hst i j Hi Hj). rewrite Rmult_assoc. exact Hst.
Qed.
Print Assumptions C228_contracts.
(** So there is exactly one equilibrium with von Hagenow's boundary and the iteration ends. *)
Theorem C228_converges : forall (P Ctl : Type) G mu lu spline
    (Jt : P -> equilibrium R P Ctl -> (nat -> nat -> R) -> option R -> result ((nat -> nat -> R) * P * bstate R))
    (S : equilibrium R P Ctl * P -> Prop) e0 (Q : P -> Prop) B C K L Lb p s,
  let run s psi := solve G sqrt mu lu spline Jt (fst s) (snd s) None (Some psi) (user_bndry p) in
  let after s e' := (e', match profiles e' with Some q => q | None => snd s end) in
  0 < mu -> 0 <= Rmin e0 -> bounded_inverse e0 C K -> 0 <= K -> 0 <= L -> 0 <= C -> 0 <= B -> 0 <= Lb -> contour_response (G FPsi) e0 B ->
  (forall s, S s -> like4_hagenow lu e0 (fst s) /\ Q (snd s) /\ S (with_check (fst s) false, snd s)) ->
  (forall s psi, S s -> exists e' b, run s psi = Ok e' /\ S (after s e') /\ psi_bndry (bs e') = Some (Some b)) ->
  (forall s1 s2 psi1 psi2 e1 e2 b1 b2 d, S s1 -> S s2 -> within (e_nx e0) (e_ny e0) psi1 psi2 d -> run s1 psi1 = Ok e1 -> run s2 psi2 = Ok e2 ->
     psi_bndry (bs e1) = Some (Some b1) -> psi_bndry (bs e2) = Some (Some b2) -> Rabs (b1 - b2) <= Lb * d) ->
  lipschitz_hagenow4 lu Jt e0 Q (user_bndry p) L -> (0 < e_nx e0)%nat -> (0 < e_ny e0)%nat ->
  (C * B + mu) * K * Rmax e0 * L < 1 -> S s ->
  (exists psi, equilibrium_flux (e_nx e0) (e_ny e0) (eq_ops G sqrt mu lu spline Jt None) (user_bndry p) S psi /\
     forall psi', equilibrium_flux (e_nx e0) (e_ny e0) (eq_ops G sqrt mu lu spline Jt None) (user_bndry p) S psi' -> forall i j, (i < e_nx e0)%nat -> (j < e_ny e0)%nat -> psi' i j = psi i j) /\
  (check p = false -> wait p = false -> 0 <= blend p < 1 -> 0 < atol p -> maxits p = None \/ maxits p = Some 0%Z ->
   exists n, forall fuel, (n < fuel)%nat -> exists s' h, picard (e_nx e0) (e_ny e0) _ (eq_ops G sqrt mu lu spline Jt None) p fuel s = (s', Ok h) /\ S s').
Proof.
  intros P Ctl G mu lu spline Jt S e0 Q B C K L Lb p s run after Hmu H0 HCi HK HL HC0 HB0 HLb HB HS Hrun Hbd HJ Hnx Hny Hq1 Hs.
  assert (HC := C228_contracts P Ctl G mu lu spline Jt S e0 Q (user_bndry p) B C K L Lb Hmu H0 HCi HK HC0 HL HB HS Hrun Hbd HJ Hnx Hny).
  assert (Hq : 0 <= (C * B + mu) * K * Rmax e0 * L < 1).
  { split; [|exact Hq1]. destruct (HS s Hs) as ((D & (_ & _ & R1 & _) & _) & _). injection D as _ _ A A' _ _. rewrite A, A' in R1.
    apply Rmult_le_pos; [|exact HL]. apply Rmult_le_pos; [apply Rmult_le_pos; [|exact HK]|lra]. assert (X := Rmult_le_pos C B HC0 HB0). lra. }
  split.
  - destruct (C186_exists_unique _ _ _ _ (user_bndry p) S _ Lb s Hnx Hny HC Hq Hs) as (psi & H1 & H2). exists psi. split; [exact H1|]. intros psi' H' i j Hi Hj. apply (H2 psi' H' i j Hi Hj).
  - intros Hchk Hw Hb Ha Hm. destruct (Hrun s (fun _ _ => 0) Hs) as (e' & b & E1 & _). unfold run in E1.
    destruct (solve_ok_psi G mu lu spline Jt _ _ _ _ _ _ E1) as (psi0 & E0).
    exact (C177_eventually (e_nx e0) (e_ny e0) _ (eq_ops G sqrt mu lu spline Jt None) p S _ Lb s psi0 Hnx Hny HC Hq HLb eq_refl Hchk Hw Hb Ha Hm Hs E0).
Qed.
Print Assumptions C228_converges.
(** Profile 1 + psi / 10^9 and the Green's function 1 on the 9 x 9 grid of C218: B is at most 1408/75. *)
Definition hx_G (_ : field) (_ _ _ _ : R) : R := 1.
Definition hx_profile (psi : arr2 R) : arr2 R := fun i j => 1 + psi i j / 1000000000.
Definition hx_Jt (q : unit) (e : equilibrium R unit unit) (psi : arr2 R) (_ : option R) : result (arr2 R * unit * bstate R) := Ok (hx_profile psi, q, mkb None (Some (Some 1)) None None None false None).
Definition hx_eq (A : arr2 R) : equilibrium R unit unit :=
  mkeq 9 9 100 108 (-40) 40 (mktok [] false []) BHagenow 4 (SMatrix (MGDirect 81 A)) false (fun _ _ => 0) (fun _ _ => []) 0 None no_boundary None None.
Definition hx_state (A : arr2 R) (s : equilibrium R unit unit * unit) : Prop := like4_hagenow elimination (hx_eq A) (fst s) /\ slv (fst s) = SMatrix (MGDirect 81 A).
Lemma hx_response A : contour_response (hx_G FPsi) (hx_eq A) (1408 / 75).
Proof.
  replace (1408 / 75) with (64 / 3 * 1 / (1 * Rmin (hx_eq A)) * ((Rmax (hx_eq A) - Rmin (hx_eq A)) + (Zmax (hx_eq A) - Zmin (hx_eq A)))) by (cbn [Rmin Rmax Zmin Zmax hx_eq]; field).
  assert (D9 : dyadic 9) by (exists 3%nat; reflexivity). apply contour_bound; cbn [Rmin Rmax Zmin Zmax e_nx e_ny hx_eq]; try exact D9; try lia; try lra; try (cbn; lra).
  intros i j x y _ _. unfold hx_G. rewrite Rabs_right; lra.
Qed.
Lemma hx_run_any G A s psi : hx_state A s -> exists e', solve G sqrt 1 elimination flat_spline hx_Jt (fst s) (snd s) None (Some psi) None = Ok e' /\
  hx_state A (e', match profiles e' with Some q => q | None => snd s end) /\ psi_bndry (bs e') = Some (Some 1) /\ jtor e' = Some (hx_profile psi).
Proof.
  destruct s as (e, u). cbn [fst snd]. intros ((D & SO & Hb & Ht & Hp) & Hs). cbn [fst snd] in *. cbn [e_nx e_ny Rmin Rmax Zmin Zmax tok pgreen hx_eq] in D, Ht, Hp. injection D as N M A1 A2 A3 A4.
  assert (Hc : coils (tok e) = []) by (rewrite Ht; reflexivity).
  assert (D9 : dyadic 9) by (exists 3%nat; reflexivity).
  set (J := hx_profile psi). set (b0 := mkb None (Some (Some 1)) None None None false None).
  destruct (romb2_dyadic 9 9 J D9 D9) as (r & Er).
  set (e1 := with_profiles e (Some u) (control e)). set (e2 := with_bs e1 (bs e1)). set (e3 := with_profiles (with_bs e2 b0) (Some u) (control e2)).
  assert (Ecs : forall p src, callSolver elimination e3 p src = Ok (p, unravel 9 (elimination 81%nat A (ravel 9 src)))).
  { intros p0 src. unfold callSolver. change (slv e3) with (slv e). rewrite Hs. unfold solver_call. change (e_nx e3) with (e_nx e). change (e_ny e3) with (e_ny e). rewrite N, M. reflexivity. }
  destruct (hagenow_spec (G FPsi) 9 9 (grid_R e) (grid_Z e) J (callSolver elimination e3) (plasma_psi e) D9 D9 ltac:(lia) ltac:(lia)) as (src & _ & _ & HO).
  destruct (HO _ _ (Ecs _ src)) as (q & Eq & _).
  destruct (set_edges_spec 9 9 (fun i j => nmul (nmul (nopp 1) (grid_R e3 i j)) (J i j)) q ltac:(lia) ltac:(lia)) as (rhs & Erh & _).
  assert (SR : exists d, spacing_R (e_nx e) (e_ny e) (grid_R e) = Ok d) by (eexists; apply spacing_R_ok; lia).
  assert (SZ : exists d, spacing_Z (e_nx e) (e_ny e) (grid_Z e) = Ok d) by (eexists; apply spacing_Z_ok; lia).
  destruct SR as (dR & SR), SZ as (dZ & SZ).
  assert (E1 : update_own flat_spline e1 = Ok e2) by (apply flat_own; cbn [tok e_nx e_ny Rmin Rmax Zmin Zmax e1 with_profiles]; rewrite ?N, ?M, ?A1, ?A2, ?A3, ?A4; try lia; try lra; exact Hc).
  eexists. split.
  - unfold solve. fold e1. rewrite E1. cbn [bind]. unfold hx_Jt at 1. cbn [bind]. fold J b0.
    change (with_profiles (with_bs e2 b0) (Some u) (control e2)) with e3. unfold linear_solve, applyBoundary.
    change (bnd e3) with (bnd e). rewrite Hb. change (grid_R e3) with (grid_R e). change (grid_Z e3) with (grid_Z e). change (e_nx e3) with (e_nx e). change (e_ny e3) with (e_ny e). rewrite N, M. change (plasma_psi e3) with (plasma_psi e). rewrite Eq. cbn [bind].
    change (grid_R e3) with (grid_R e) in Erh. rewrite Erh. cbn [bind].
    unfold callSolver. change (slv e3) with (slv e). rewrite Hs. unfold solver_call. change (e_nx e3) with (e_nx e). change (e_ny e3) with (e_ny e). rewrite N, M. cbn [mg_call]. change (81 =? 9 * 9)%nat with true. cbn [bind].
    assert (U := fun x => flat_update_plasma e3 x). cbn [e_nx e_ny Rmin Rmax Zmin Zmax tok e3 e2 e1 with_profiles with_bs] in U. rewrite N, M, A1, A2, A3, A4 in U.
    rewrite U; [|lia|lia|lra|lra|exact Hc]. cbn [bind].
    match goal with |- bind (romb2 ?a ?b ?c) _ = _ => change (romb2 a b c) with (romb2 (e_nx e) (e_ny e) J) end. rewrite N, M, Er. cbn [bind].
    match goal with |- bind (spacing_R ?a ?b ?c) _ = _ => change (spacing_R a b c) with (spacing_R (e_nx e) (e_ny e) (grid_R e)) end. rewrite SR. cbn [bind].
    match goal with |- bind (spacing_Z ?a ?b ?c) _ = _ => change (spacing_Z a b c) with (spacing_Z (e_nx e) (e_ny e) (grid_Z e)) end. rewrite SZ. reflexivity.
  - split; [|split; reflexivity]. split; [|exact Hs]. split; [cbn; congruence|]. split; [exact SO|]. split; [exact Hb|]. split; [exact Ht|exact Hp].
Qed.
Lemma hx_run A s psi : hx_state A s -> exists e', solve hx_G sqrt 1 elimination flat_spline hx_Jt (fst s) (snd s) None (Some psi) None = Ok e' /\
  hx_state A (e', match profiles e' with Some q => q | None => snd s end) /\ psi_bndry (bs e') = Some (Some 1).
Proof. intros H. destruct (hx_run_any hx_G A s psi H) as (e' & E1 & E2 & E3 & _). exists e'. split; [exact E1|]. split; [exact E2|exact E3]. Qed.
Lemma hx_facts : exists A, let S := hx_state A in let e0 := hx_eq A in let run s psi := solve hx_G sqrt 1 elimination flat_spline hx_Jt (fst s) (snd s) None (Some psi) None in
  S (e0, tt) /\ bounded_inverse e0 47 56 /\
  (forall s, S s -> like4_hagenow elimination e0 (fst s) /\ (fun _ : unit => True) (snd s) /\ S (with_check (fst s) false, snd s)) /\
  (forall s psi, S s -> exists e' b, run s psi = Ok e' /\ S (e', match profiles e' with Some q => q | None => snd s end) /\ psi_bndry (bs e') = Some (Some b)) /\
  (forall s1 s2 psi1 psi2 e1 e2 b1 b2 d, S s1 -> S s2 -> within 9 9 psi1 psi2 d -> run s1 psi1 = Ok e1 -> run s2 psi2 = Ok e2 ->
     psi_bndry (bs e1) = Some (Some b1) -> psi_bndry (bs e2) = Some (Some b2) -> Rabs (b1 - b2) <= 0 * d) /\
  lipschitz_hagenow4 elimination hx_Jt e0 (fun _ => True) None (1 / 1000000000).
Proof.
  destruct nine_run as (A & HF & _). exists A. cbv zeta.
  assert (HF' : fourth_order elimination (hx_eq A)) by exact HF.
  split; [split; [|reflexivity]; split; [reflexivity|]; split; [exact HF'|]; repeat split|].
  split. { replace 56 with (7 / 8 * (Rmax (hx_eq A) - Rmin (hx_eq A)) ^ 2) by (cbn; lra). apply C220_nine; try reflexivity; cbn [hx_eq Rmin Rmax Zmin Zmax e_ny]; try lia; try lra. cbn [Nat.sub INR]. lra. }
  split; [intros s Hs; split; [apply Hs|]; split; [exact I|exact Hs]|].
  split. { intros s psi Hs. destruct (hx_run A s psi Hs) as (e' & E1 & E2 & E3). exists e', 1. split; [exact E1|]. split; [exact E2|exact E3]. }
  split.
  { intros s1 s2 psi1 psi2 e1 e2 b1 b2 d H1 H2 _ E1 E2 B1 B2. destruct (hx_run A s1 psi1 H1) as (e1' & E1' & _ & S1). destruct (hx_run A s2 psi2 H2) as (e2' & E2' & _ & S2).
    rewrite E1 in E1'. apply ok_inj in E1'. subst e1'. rewrite E2 in E2'. apply ok_inj in E2'. subst e2'.
    rewrite B1 in S1. rewrite B2 in S2. injection S1 as ->. injection S2 as ->. rewrite Rminus_diag_eq by reflexivity. rewrite Rabs_R0. lra. }
  intros p1 p2 e1 e2 psi1 psi2 J1 J2 p1' p2' b1 b2 d _ _ _ _ Hw E1 E2 x y Hin. injection E1 as <- _ _. injection E2 as <- _ _. unfold hx_profile.
  match goal with |- Rabs ?a <= _ => replace a with (/ 1000000000 * (psi1 x y - psi2 x y)) by (unfold Rdiv; ring) end. rewrite Rabs_mult, (Rabs_right (/ 1000000000)) by lra.
  assert (H := Hw x y ltac:(unfold inside in Hin; cbn [e_nx hx_eq] in *; lia) ltac:(unfold inside in Hin; cbn [e_ny hx_eq] in *; lia)). lra.
Qed.
Example C228_example : exists A n psi, equilibrium_flux 9 9 (eq_ops hx_G sqrt 1 elimination flat_spline hx_Jt None) None (hx_state A) psi /\ hx_state A (hx_eq A, tt) /\
  forall fuel, (n < fuel)%nat -> exists s' h, picard 9 9 _ (eq_ops hx_G sqrt 1 elimination flat_spline hx_Jt None) (plain_options None 0 1) fuel (hx_eq A, tt) = (s', Ok h) /\ hx_state A s'.
Proof.
  destruct hx_facts as (A & HS0 & HB & HS & Hrun & Hbd & HJ). exists A.
  destruct (C228_converges unit unit hx_G 1 elimination flat_spline hx_Jt (hx_state A) (hx_eq A) (fun _ => True) (1408 / 75) 47 56 (1 / 1000000000) 0 (plain_options None 0 1) (hx_eq A, tt)) as ((psi & Hp & _) & Hn);
    try assumption; try exact (hx_response A); try (cbn [hx_eq Rmin Rmax e_nx e_ny]; try lia; lra).
  destruct Hn as (n & Hn); try reflexivity; try (cbn [plain_options blend atol]; nR; lra). { left. reflexivity. }
  exists n, psi. split; [exact Hp|]. split; [exact HS0|exact Hn].
Qed.
