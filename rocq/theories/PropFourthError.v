(** C220: stability, error and convergence of the iteration with the fourth-order solver, the default of the constructor. *)
From Coq Require Import String List Arith ZArith QArith Bool Reals Lra Lia Classical.
From Coquelicot Require Import Rcomplements Derive.
From Verif Require Import Py Num Numpy Romb RombProofs RombExact Multigrid MultigridProofs Gauss Coils Machine Critical CriticalSpec CriticalProofs Boundary BoundarySpec BoundaryProofs PropCritical Jtor JtorSpec JtorProofs PropJtor
  GradShafranov GradShafranovProofs Equilibrium EquilibriumSpec EquilibriumProofs EquilibriumProofs2 EquilibriumProofs3 GSSpec GS4Proofs FourthProofs FourthBound EllipticSpec PropGreens PropBoundary PropEquilibrium FittingProofs PropSolveFlux PropSolveError GSConsistency PropGS4Error PropEquilibrium2 Picard PicardProofs PropPicard PropPicardLimit PropStart PropFourth PropFourthSign.
Import ListNotations.
Local Open Scope R_scope.

(** ** What the statements mean *)
(** A flux whose edge values are at most [d] and to which the matrix assigns at most [s] at the inner points is at most C d + K s. *)
Definition inverse_bound (A : arr2 R) (nx ny : nat) (C K : R) : Prop := forall w d s, 0 <= s ->
  (forall x y, on_edge nx ny x y -> Rabs (w x y) <= d) ->
  (forall x y, inside nx ny x y -> Rabs (mat_apply A w nx ny (x * ny + y)) <= s) ->
  forall x y, (x < nx)%nat -> (y < ny)%nat -> Rabs (w x y) <= C * d + K * s.
Definition bounded_inverse {P Ctl} (e : equilibrium R P Ctl) (C K : R) : Prop :=
  forall A, GSsparse4thOrder (Rmin e) (Rmax e) (Zmin e) (Zmax e) (e_nx e) (e_ny e) = Ok A -> inverse_bound A (e_nx e) (e_ny e) C K.

(** ** C220 — the bounds *)
Lemma not_interior_edge nx ny x y : (x < nx)%nat -> (y < ny)%nat -> ~ GradShafranovProofs.interior nx ny x y <-> on_edge nx ny x y.
Proof. unfold GradShafranovProofs.interior, on_edge. lia. Qed.
Lemma interior_inside nx ny x y : GradShafranovProofs.interior nx ny x y <-> inside nx ny x y.
Proof. unfold GradShafranovProofs.interior, inside. lia. Qed.
(** There are such constants for every grid on which the systems can be solved. *)
Theorem C220_bound : forall (P Ctl : Type) lu (e : equilibrium R P Ctl), fourth_order lu e -> exists K, 0 <= K /\ bounded_inverse e K K.
Proof.
  intros P Ctl lu e (Hnx & Hny & HR & HZ & A & EA & _ & HA). destruct (solves_bounded lu _ A HA) as (K & HK & HB). exists K. split; [exact HK|].
  intros A' EA'. rewrite EA in EA'. injection EA' as <-. intros w d s Hs He Hi x y Hx Hy.
  assert (Hd : 0 <= d) by (eapply Rle_trans; [apply Rabs_pos|apply (He 0%nat 0%nat); unfold on_edge; lia]).
  set (ny := e_ny e) in *. set (nx := e_nx e) in *.
  assert (X := HB (fun c => w (c / ny)%nat (c mod ny)%nat) (d + s)). cbv beta in X.
  assert (Y : forall r, (r < nx * ny)%nat -> Rabs (nsum (nx * ny) (fun c => A r c * w (c / ny)%nat (c mod ny)%nat)) <= d + s).
  { intros r Hr. change (Rabs (mat_apply A w nx ny r) <= d + s).
    assert (Er : r = (r / ny * ny + r mod ny)%nat) by (rewrite Nat.mul_comm; apply Nat.div_mod; lia).
    assert (Hxr : (r / ny < nx)%nat) by (apply Nat.div_lt_upper_bound; lia). assert (Hyr : (r mod ny < ny)%nat) by (apply Nat.mod_upper_bound; lia).
    rewrite Er. destruct (interiorb_spec nx ny (r / ny) (r mod ny)) as [H|H].
    - apply interior_inside in H. specialize (Hi _ _ H). lra.
    - rewrite (row_edge _ _ _ _ _ _ A Hnx Hny EA w _ _ Hxr Hyr H). apply not_interior_edge in H; [|assumption..]. specialize (He _ _ H). lra. }
  specialize (X Y (x * ny + y)%nat (row_bound nx ny x y Hx Hy)).
  rewrite Nat.div_add_l, (Nat.div_small y ny), Nat.add_0_r in X by lia. rewrite Nat.add_comm, Nat.mod_add, Nat.mod_small in X by lia. lra.
Qed.
Print Assumptions C220_bound.
(** On the grids of C218_regular they are 47 and 7/8 (Rmax - Rmin)^2. *)
Theorem C220_nine : forall (P Ctl : Type) (e : equilibrium R P Ctl), e_nx e = 9%nat -> (6 <= e_ny e)%nat -> Rmin e < Rmax e ->
  10 * ((Rmax e - Rmin e) / 8) <= (Zmax e - Zmin e) / INR (e_ny e - 1) -> 60 * ((Rmax e - Rmin e) / 8) <= Rmin e ->
  bounded_inverse e 47 (7 / 8 * (Rmax e - Rmin e) ^ 2).
Proof.
  intros P Ctl e Nx Hny HR H1 H2 A EA w d s Hs He Hi x y Hx Hy. rewrite Nx in *.
  assert (X := bounded9 (Rmin e) (Rmax e) (Zmin e) (Zmax e) (e_ny e) A Hny EA ltac:(lra) H1 H2 w d s Hs).
  eapply Rle_trans; [apply X; try assumption|].
  - intros x' y' Hx' Hy' H. apply He, not_interior_edge; assumption.
  - intros x' y' H. apply Hi, interior_inside, H.
  - apply Req_le. field.
Qed.
Print Assumptions C220_nine.
Example C220_nine_example : exists A, fourth_order elimination (nine A) /\ bounded_inverse (nine A) 47 56.
Proof.
  destruct nine_run as (A & HF & _). exists A. split; [exact HF|].
  replace 56 with (7 / 8 * (Rmax (nine A) - Rmin (nine A)) ^ 2) by (cbn; lra). apply C220_nine; try reflexivity; cbn [nine Rmin Rmax Zmin Zmax e_ny]; try lia; try lra. cbn [Nat.sub INR]. lra.
Qed.

(** ** C220 — stability *)
(** Two solves on the same grid: where the edge values differ by at most [d] and the current densities by
    at most [D], the fluxes differ by at most C d + K mu0 Rmax D.  With the fixed boundary d is 0. *)
Theorem C220_stability : forall (P Ctl : Type) G mu lu spline
    (Jtor_call : P -> equilibrium R P Ctl -> (nat -> nat -> R) -> option R -> result ((nat -> nat -> R) * P * bstate R))
    (e1 e2 e1' e2' : equilibrium R P Ctl) p1 p2 o1 o2 s1 s2 t1 t2 J1 J2 C K d D,
  fourth_order lu e1 -> fourth_order lu e2 -> 0 < mu -> 0 <= Rmin e2 -> bounded_inverse e2 C K -> 0 <= K ->
  (e_nx e1, e_ny e1, Rmin e1, Rmax e1, Zmin e1, Zmax e1) = (e_nx e2, e_ny e2, Rmin e2, Rmax e2, Zmin e2, Zmax e2) ->
  solve G sqrt mu lu spline Jtor_call e1 p1 o1 s1 t1 = Ok e1' -> jtor e1' = Some J1 ->
  solve G sqrt mu lu spline Jtor_call e2 p2 o2 s2 t2 = Ok e2' -> jtor e2' = Some J2 ->
  bnd e1 = BFixed /\ bnd e2 = BFixed /\ d = 0 \/ (forall x y, on_edge (e_nx e2) (e_ny e2) x y -> Rabs (plasma_psi e1' x y - plasma_psi e2' x y) <= d) ->
  (forall x y, inside (e_nx e2) (e_ny e2) x y -> Rabs (J1 x y - J2 x y) <= D) -> 0 <= D ->
  forall x y, (x < e_nx e2)%nat -> (y < e_ny e2)%nat ->
  Rabs (plasma_psi e1' x y - plasma_psi e2' x y) <= C * d + K * (mu * Rmax e2 * D).
Proof.
  intros P Ctl G mu lu spline Jc e1 e2 e1' e2' p1 p2 o1 o2 s1 s2 t1 t2 J1 J2 C K d D HF1 HF2 Hmu H0 HC HK E12 E1 EJ1 E2 EJ2 Hb HJ HD.
  assert (HF := HF2). destruct HF as (Hnx & Hny & HR & HZ & A & EA & _ & _). injection E12 as N M A1 B1 C1 F1.
  destruct (solved4 G mu lu spline Jc e1 e1' p1 o1 s1 t1 J1 A HF1) with (2 := E1) (3 := EJ1) as (q1 & Q1 & He1 & Hi1); [rewrite N, M, A1, B1, C1, F1; exact EA|].
  destruct (solved4 G mu lu spline Jc e2 e2' p2 o2 s2 t2 J2 A HF2 EA E2 EJ2) as (q2 & Q2 & He2 & Hi2).
  rewrite N, M in He1. rewrite N, M, A1, B1 in Hi1.
  intros x y Hx Hy. replace (plasma_psi e1' x y - plasma_psi e2' x y) with (1 * plasma_psi e1' x y + (-1) * plasma_psi e2' x y) by ring.
  apply (HC A EA (fun x y => 1 * plasma_psi e1' x y + (-1) * plasma_psi e2' x y)); try assumption.
  - apply Rmult_le_pos; [|exact HD]. apply Rmult_le_pos; lra.
  - intros x' y' H. replace (1 * plasma_psi e1' x' y' + -1 * plasma_psi e2' x' y') with (plasma_psi e1' x' y' - plasma_psi e2' x' y') by ring.
    destruct Hb as [(B2 & B3 & ->)|Hb]; [|apply Hb, H]. rewrite He1, He2 by exact H. unfold applyBoundary in Q1, Q2. rewrite B2, N, M in Q1. rewrite B3 in Q2.
    assert (Z : forall u v, fixedBoundary (e_nx e2) (e_ny e2) u = Ok v -> v x' y' = 0).
    { intros u v Ev. destruct (proj1 (C28_fixed_boundary (e_nx e2) (e_ny e2) u) ltac:(lia)) as (v' & Ev' & Hv). rewrite Ev in Ev'. apply ok_inj in Ev'. subst v'.
      apply Hv; [apply H|apply (proj2 H)|exact H]. }
    rewrite (Z _ _ Q1), (Z _ _ Q2), Rminus_0_r, Rabs_R0. lra.
  - intros x' y' H. rewrite mat_apply_lin, Hi1, Hi2 by exact H.
    set (r := gridpt (Rmin e2) (Rmax e2) (e_nx e2) x'). replace (1 * (- mu * r * J1 x' y') + -1 * (- mu * r * J2 x' y')) with ((- (mu * r)) * (J1 x' y' - J2 x' y')) by ring.
    assert (r0 := gridpt_ge (Rmin e2) (Rmax e2) (e_nx e2) x' HR ltac:(lia)). assert (r1 := gridpt_le (Rmin e2) (Rmax e2) (e_nx e2) x' HR ltac:(lia) ltac:(unfold inside in H; lia)). fold r in r0, r1.
    rewrite Rabs_mult, Rabs_Ropp, (Rabs_right (mu * r)) by (apply Rle_ge, Rmult_le_pos; lra).
    apply Rmult_le_compat; [apply Rmult_le_pos; lra|apply Rabs_pos| |apply HJ, H]. apply Rmult_le_compat_l; lra.
Qed.
Print Assumptions C220_stability.
(** Any current density bounded by 1/1000 against none, fixed boundary, mu0 = 1, 100 <= R <= 108: the flux is at most 56 * 108 / 1000. *)
Example C220_stability_example : forall J, (forall x y, Rabs (J x y) <= 1 / 1000) -> exists A e1 e2,
  let run J := solve (fun _ _ _ _ _ => 0) sqrt 1 elimination flat_spline given (nine A) J None (Some (fun _ _ => 0)) None in
  run J = Ok e1 /\ run (fun _ _ => 0) = Ok e2 /\ forall x y, (x < 9)%nat -> (y < 9)%nat -> Rabs (plasma_psi e1 x y - plasma_psi e2 x y) <= 6048 / 1000.
Proof.
  intros J HJ. destruct nine_run as (A & HF & HR). exists A. destruct (HR J) as (e1 & E1 & EJ1), (HR (fun _ _ => 0)) as (e2 & E2 & EJ2). exists e1, e2. cbv zeta.
  split; [exact E1|]. split; [exact E2|]. intros x y Hx Hy.
  assert (HB : bounded_inverse (nine A) 47 56).
  { replace 56 with (7 / 8 * (Rmax (nine A) - Rmin (nine A)) ^ 2) by (cbn; lra). apply C220_nine; try reflexivity; cbn [nine Rmin Rmax Zmin Zmax e_ny]; try lia; try lra. cbn [Nat.sub INR]. lra. }
  eapply Rle_trans; [apply (C220_stability _ _ (fun _ _ _ _ _ => 0) 1 elimination flat_spline given (nine A) (nine A) e1 e2 J (fun _ _ => 0) None None (Some (fun _ _ => 0)) (Some (fun _ _ => 0)) None None J (fun _ _ => 0) 47 56 0 (1 / 1000)); try assumption; try reflexivity; try (cbn; lra)|].
  - left. repeat split.
  - intros x' y' _. rewrite Rminus_0_r. apply HJ.
  - cbn. lra.
Qed.

(** ** C220 — the error *)
(** A flux [psi] with bounded fifth and sixth derivatives.  Where its edge values are within [d] of those
    that were set, and the current density is within [D] of the one [psi] belongs to, the flux found is within
    C d + K (truncation error + mu0 Rmax D) of [psi]; the truncation error is of fourth order. *)
Theorem C220_error : forall (P Ctl : Type) G mu lu spline
    (Jtor_call : P -> equilibrium R P Ctl -> (nat -> nat -> R) -> option R -> result ((nat -> nat -> R) * P * bstate R))
    (e e' : equilibrium R P Ctl) p Jo s t J psi F M C K d D,
  let dR := (Rmax e - Rmin e) / INR (e_nx e - 1) in let dZ := (Zmax e - Zmin e) / INR (e_ny e - 1) in
  let gR := gridpt (Rmin e) (Rmax e) (e_nx e) in let gZ := gridpt (Zmin e) (Zmax e) (e_ny e) in
  fourth_order lu e -> 0 < mu -> 0 < Rmin e -> bounded_inverse e C K -> 0 <= K ->
  solve G sqrt mu lu spline Jtor_call e p Jo s t = Ok e' -> jtor e' = Some J ->
  smooth6 psi (Rmin e) (Rmax e) (Zmin e) (Zmax e) M ->
  (forall r z, Rmin e <= r <= Rmax e -> Zmin e <= z <= Zmax e -> GSop psi r z = - mu * r * F r z) ->
  (forall x y, inside (e_nx e) (e_ny e) x y -> Rabs (J x y - F (gR x) (gZ y)) <= D) -> 0 <= D ->
  (forall x y, on_edge (e_nx e) (e_ny e) x y -> Rabs (plasma_psi e' x y - psi (gR x) (gZ y)) <= d) ->
  forall x y, (x < e_nx e)%nat -> (y < e_ny e)%nat ->
  Rabs (plasma_psi e' x y - psi (gR x) (gZ y)) <=
    C * d + K * (M * (469 / 432 * dZ ^ 4 + 469 / 432 * dR ^ 4 + 19 / 60 * dR ^ 4 / Rmin e) + mu * Rmax e * D).
Proof.
  intros P Ctl G mu lu spline Jc e e' p Jo s t J psi F M C K d D dR dZ gR gZ HF Hmu Hpos HC HK E EJ Hs HG HJ HD Hd.
  assert (HF0 := HF). destruct HF0 as (Hnx & Hny & HR & HZ & A & EA & _ & _).
  destruct (solved4 G mu lu spline Jc e e' p Jo s t J A HF EA E EJ) as (q & Q & He & Hi).
  set (tau := M * (469 / 432 * dZ ^ 4 + 469 / 432 * dR ^ 4 + 19 / 60 * dR ^ 4 / Rmin e)).
  assert (T : forall x' y', inside (e_nx e) (e_ny e) x' y' ->
    Rabs (mat_apply A (fun x y => psi (gR x) (gZ y)) (e_nx e) (e_ny e) (x' * e_ny e + y') - - mu * gR x' * F (gR x') (gZ y')) <= tau).
  { intros x' y' H. destruct (C173_fourth_order_truncation psi (Rmin e) (Rmax e) (Zmin e) (Zmax e) (e_nx e) (e_ny e) M x' y' Hpos HR HZ Hnx Hny ltac:(unfold inside in H; lia) Hs) as (A' & EA' & T).
    rewrite EA in EA'. injection EA' as <-. fold gR gZ in T.
    assert (r0 := gridpt_ge (Rmin e) (Rmax e) (e_nx e) x' HR ltac:(lia)). assert (r1 := gridpt_le (Rmin e) (Rmax e) (e_nx e) x' HR ltac:(lia) ltac:(unfold inside in H; lia)). fold (gR x') in r0, r1.
    assert (z0 := gridpt_ge (Zmin e) (Zmax e) (e_ny e) y' HZ ltac:(lia)). assert (z1 := gridpt_le (Zmin e) (Zmax e) (e_ny e) y' HZ ltac:(lia) ltac:(unfold inside in H; lia)). fold (gZ y') in z0, z1.
    rewrite HG in T by lra. exact T. }
  assert (Ht : 0 <= tau). { eapply Rle_trans; [apply Rabs_pos|apply (T 1%nat 1%nat)]. unfold inside. lia. }
  assert (HmD : 0 <= mu * Rmax e * D) by (apply Rmult_le_pos; [|exact HD]; apply Rmult_le_pos; lra).
  intros x y Hx Hy. replace (plasma_psi e' x y - psi (gR x) (gZ y)) with (1 * plasma_psi e' x y + (-1) * psi (gR x) (gZ y)) by ring.
  apply (HC A EA (fun x y => 1 * plasma_psi e' x y + (-1) * psi (gR x) (gZ y))); try assumption.
  - lra.
  - intros x' y' H. replace (1 * plasma_psi e' x' y' + -1 * psi (gR x') (gZ y')) with (plasma_psi e' x' y' - psi (gR x') (gZ y')) by ring. apply Hd, H.
  - intros x' y' H. rewrite (mat_apply_lin A (plasma_psi e') (fun x y => psi (gR x) (gZ y))), Hi by exact H. specialize (T x' y' H). fold (gR x').
    assert (r0 := gridpt_ge (Rmin e) (Rmax e) (e_nx e) x' HR ltac:(lia)). assert (r1 := gridpt_le (Rmin e) (Rmax e) (e_nx e) x' HR ltac:(lia) ltac:(unfold inside in H; lia)). fold (gR x') in r0, r1.
    set (L := mat_apply A (fun x y => psi (gR x) (gZ y)) (e_nx e) (e_ny e) (x' * e_ny e + y')) in *.
    replace (1 * (- mu * gR x' * J x' y') + -1 * L) with (- (L - - mu * gR x' * F (gR x') (gZ y')) + - (mu * gR x') * (J x' y' - F (gR x') (gZ y'))) by ring.
    eapply Rle_trans; [apply Rabs_triang|]. apply Rplus_le_compat; [rewrite Rabs_Ropp; exact T|].
    rewrite Rabs_mult, Rabs_Ropp, (Rabs_right (mu * gR x')) by (apply Rle_ge, Rmult_le_pos; lra).
    apply Rmult_le_compat; [apply Rmult_le_pos; lra|apply Rabs_pos|apply Rmult_le_compat_l; lra|apply HJ, H].
Qed.
Print Assumptions C220_error.
(** psi = (R^3 / 1000 + 100000) (R - 100) (108 - R) (1600 - Z^2) on 100 <= R <= 108, -40 <= Z <= 40, zero on the edges; its fifth radial
    derivative is not zero, so the difference formulas are not exact on it.  It exceeds 2500000000 in the middle and is found to within 120000000. *)
Definition quintic (r z : R) : R := (r ^ 3 / 1000 + 100000) * (r - 100) * (108 - r) * (1600 - z ^ 2).
Definition quintic_J (r z : R) : R :=
  - ((-15 * r ^ 3 / 1000 + 8 * 208 * r ^ 2 / 1000 - 3 * 10800 * r / 1000 - 208 * 100000 / r) * (1600 - z ^ 2) - 2 * ((r ^ 3 / 1000 + 100000) * (r - 100) * (108 - r))) / r.
Lemma quintic_r z t : quintic t z = pl (-1080000000 * (1600 - z ^ 2)) (20800000 * (1600 - z ^ 2)) (-100000 * (1600 - z ^ 2)) (-10800 / 1000 * (1600 - z ^ 2)) (208 / 1000 * (1600 - z ^ 2)) (- / 1000 * (1600 - z ^ 2)) t.
Proof. unfold quintic, pl. field. Qed.
Lemma quintic_z r t : quintic r t = pl ((r ^ 3 / 1000 + 100000) * (r - 100) * (108 - r) * 1600) 0 (- ((r ^ 3 / 1000 + 100000) * (r - 100) * (108 - r))) 0 0 0 t.
Proof. unfold quintic, pl. field. Qed.
Lemma quintic_smooth : smooth6 quintic 100 108 (-40) 40 192.
Proof.
  split; [|split].
  - intros r z k _ _. eapply ex_derive_n_ext; [intros t; symmetry; apply (quintic_r z t)|apply ex_derive_n_quintic].
  - intros r z k _ _. eapply ex_derive_n_ext; [intros t; symmetry; apply (quintic_z r t)|apply ex_derive_n_quintic].
  - intros r z Hr Hz. rewrite !(Derive_n_ext _ _ _ _ (quintic_r z)), (Derive_n_ext _ _ _ _ (quintic_z r)), !Derive_n_quintic. cbn [Derive_n]. unfold pl.
    assert (0 <= 1600 - z ^ 2 <= 1600) by nra. repeat split; apply Rabs_le; lra.
Qed.
Lemma quintic_equation r z : 0 < r -> GSop quintic r z = - 1 * r * quintic_J r z.
Proof.
  intros Hr. unfold GSop. rewrite (Derive_n_ext _ _ _ _ (quintic_r z)), (Derive_n_ext _ _ _ _ (quintic_z r)), !Derive_n_quintic. cbn [Derive_n].
  rewrite (Derive_ext _ _ _ (quintic_r z)), Derive_pl. unfold pl, quintic_J. field. lra.
Qed.
Example C220_error_example : exists A e', let gR := gridpt 100 108 9 in let gZ := gridpt (-40) 40 9 in
  solve (fun _ _ _ _ _ => 0) sqrt 1 elimination flat_spline given (nine A) (fun x y => quintic_J (gR x) (gZ y)) None (Some (fun _ _ => 0)) None = Ok e' /\ 2500000000 <= quintic 104 0 /\
  forall x y, (x < 9)%nat -> (y < 9)%nat -> Rabs (plasma_psi e' x y - quintic (gR x) (gZ y)) <= 120000000.
Proof.
  destruct nine_run as (A & HF & HR). exists A. cbv zeta. set (J := fun x y => quintic_J (gridpt 100 108 9 x) (gridpt (-40) 40 9 y)). destruct (HR J) as (e' & E & EJ). exists e'. split; [exact E|]. split; [unfold quintic; lra|]. intros x y Hx Hy.
  assert (HB : bounded_inverse (nine A) 47 56).
  { replace 56 with (7 / 8 * (Rmax (nine A) - Rmin (nine A)) ^ 2) by (cbn; lra). apply C220_nine; try reflexivity; cbn [nine Rmin Rmax Zmin Zmax e_ny]; try lia; try lra. cbn [Nat.sub INR]. lra. }
  assert (T := C220_error _ _ (fun _ _ _ _ _ => 0) 1 elimination flat_spline given (nine A) e' J None (Some (fun _ _ => 0)) None J quintic quintic_J 192 47 56 0 0 HF ltac:(lra) ltac:(cbn; lra) HB ltac:(lra) E EJ quintic_smooth).
  cbv zeta in T. cbn [e_nx e_ny Rmin Rmax Zmin Zmax nine] in T. replace (INR (9 - 1)) with 8 in T by (cbn [Nat.sub INR]; lra).
  eapply Rle_trans; [apply T; try assumption; try lra|lra].
  - intros r z Hr _. apply quintic_equation. lra.
  - intros x' y' _. unfold J. rewrite Rminus_diag_eq by reflexivity. rewrite Rabs_R0. lra.
  - intros x' y' Hxy. assert (HF0 := HF). destruct HF0 as (_ & _ & _ & _ & A0 & EA & _ & _). destruct (solved4 (fun _ _ _ _ _ => 0) 1 elimination flat_spline given (nine A) e' _ _ _ _ J A0 HF EA E EJ) as (q & Q & He & _). rewrite (He x' y' Hxy).
    unfold applyBoundary in Q. cbn [bnd nine e_nx e_ny] in Q, Hxy |- *.
    destruct (proj1 (C28_fixed_boundary 9 9 (plasma_psi (nine A))) ltac:(lia)) as (v & Ev & Hv). rewrite Q in Ev. apply ok_inj in Ev. subst v.
    rewrite (proj1 (Hv x' y' ltac:(apply Hxy) ltac:(apply (proj2 Hxy))) Hxy).
    replace (quintic (gridpt 100 108 9 x') (gridpt (-40) 40 9 y')) with 0; [rewrite Rminus_0_r, Rabs_R0; lra|].
    unfold on_edge in Hxy. unfold quintic, gridpt. replace (INR (9 - 1)) with 8 by (cbn [Nat.sub INR]; lra).
    assert (Hc : (x' = 0 \/ x' = 8 \/ y' = 0 \/ y' = 8)%nat) by lia. destruct Hc as [-> | [-> | [-> | ->]]]; cbn [INR]; field.
Qed.

(** ** C220 — the iteration *)
Definition like4 {P Ctl} lu (e0 e : equilibrium R P Ctl) : Prop :=
  (e_nx e, e_ny e, Rmin e, Rmax e, Zmin e, Zmax e) = (e_nx e0, e_ny e0, Rmin e0, Rmax e0, Zmin e0, Zmax e0) /\
  fourth_order lu e /\ bnd e = BFixed /\ tok e = tok e0 /\ pgreen e = pgreen e0.
(** A profile whose current density changes by at most L d inside the grid when the flux changes by at most d. *)
Definition lipschitz_profile4 {P Ctl} lu (Jt : P -> equilibrium R P Ctl -> (nat -> nat -> R) -> option R -> result ((nat -> nat -> R) * P * bstate R)) (e0 : equilibrium R P Ctl)
    (Q : P -> Prop) (pb : option R) (L : R) : Prop :=
  forall p1 p2 e1 e2 psi1 psi2 J1 J2 p1' p2' b1 b2 d, Q p1 -> Q p2 -> like4 lu e0 e1 -> like4 lu e0 e2 -> within (e_nx e0) (e_ny e0) psi1 psi2 d ->
    Jt p1 e1 psi1 pb = Ok (J1, p1', b1) -> Jt p2 e2 psi2 pb = Ok (J2, p2', b2) ->
    forall x y, inside (e_nx e0) (e_ny e0) x y -> Rabs (J1 x y - J2 x y) <= L * d.

(** Fixed boundary: with such a profile eq.solve contracts as soon as q = mu0 Rmax K L is below 1. *)
Theorem C220_contracts : forall (P Ctl : Type) G mu lu spline
    (Jt : P -> equilibrium R P Ctl -> (nat -> nat -> R) -> option R -> result ((nat -> nat -> R) * P * bstate R))
    (S : equilibrium R P Ctl * P -> Prop) e0 (Q : P -> Prop) pb C K L Lb,
  let run s psi := solve G sqrt mu lu spline Jt (fst s) (snd s) None (Some psi) pb in
  let after s e' := (e', match profiles e' with Some q => q | None => snd s end) in
  0 < mu -> 0 <= Rmin e0 -> bounded_inverse e0 C K -> 0 <= K -> 0 <= L ->
  (forall s, S s -> like4 lu e0 (fst s) /\ Q (snd s) /\ S (with_check (fst s) false, snd s)) ->
  (forall s psi, S s -> exists e' b, run s psi = Ok e' /\ S (after s e') /\ psi_bndry (bs e') = Some (Some b)) ->
  (forall s1 s2 psi1 psi2 e1 e2 b1 b2 d, S s1 -> S s2 -> within (e_nx e0) (e_ny e0) psi1 psi2 d -> run s1 psi1 = Ok e1 -> run s2 psi2 = Ok e2 ->
     psi_bndry (bs e1) = Some (Some b1) -> psi_bndry (bs e2) = Some (Some b2) -> Rabs (b1 - b2) <= Lb * d) ->
  lipschitz_profile4 lu Jt e0 Q pb L -> (0 < e_nx e0)%nat -> (0 < e_ny e0)%nat ->
  contracts (e_nx e0) (e_ny e0) (eq_ops G sqrt mu lu spline Jt None) pb S (mu * Rmax e0 * K * L) Lb.
Proof.
  intros P Ctl G mu lu spline Jt S e0 Q pb C K L Lb run after Hmu H0 HC HK HL HS Hrun Hbd HJ Hnx Hny. split; [|split].
  - intros s Hs. exact (proj2 (proj2 (HS s Hs))).
  - intros s psi0 Hs. destruct (Hrun s psi0 Hs) as (e' & b & E1 & E2 & E3). cbn [eq_solve eq_ops]. unfold run in E1. rewrite E1.
    destruct (solve_inv _ _ _ _ _ _ _ _ _ _ _ _ E1) as (ea & J & p1 & rhs & x & p' & I & dR & dZ & b' & _ & _ & _ & _ & _ & _ & _ & _ & (q & Eq & _) & Ee).
    exists (after s e'), q, b. split; [reflexivity|]. split; [exact E2|]. cbn [Picard.eq_psi bndry_flux eq_ops after fst]. split; [|exact E3]. rewrite Ee. exact Eq.
  - intros s1 s2 psi1 psi2 s1' s2' psi1' psi2' b1 b2 d H1 H2 Hw Es1 Ep1 Eb1 Es2 Ep2 Eb2.
    cbn [eq_solve eq_ops Picard.eq_psi bndry_flux] in Es1, Es2, Ep1, Ep2, Eb1, Eb2.
    destruct (solve G sqrt mu lu spline Jt (fst s1) (snd s1) None (Some psi1) pb) as [e1|] eqn:E1; [|discriminate]. injection Es1 as <-.
    destruct (solve G sqrt mu lu spline Jt (fst s2) (snd s2) None (Some psi2) pb) as [e2|] eqn:E2; [|discriminate]. injection Es2 as <-.
    cbn [fst] in Ep1, Ep2, Eb1, Eb2. split; [|exact (Hbd s1 s2 psi1 psi2 e1 e2 b1 b2 d H1 H2 Hw E1 E2 Eb1 Eb2)].
    assert (Hd : 0 <= d) by (eapply Rle_trans; [apply Rabs_pos|exact (Hw 0%nat 0%nat Hnx Hny)]).
    destruct (HS s1 H1) as (L1 & Q1 & _), (HS s2 H2) as (L2 & Q2 & _).
    destruct (solve_inv _ _ _ _ _ _ _ _ _ _ _ _ E1) as (ea & J1 & p1 & rhs1 & x1 & p1' & I1 & dR1 & dZ1 & c1 & Ea & (ba & bx & pa & Hpa & EJ1) & _ & _ & _ & _ & _ & _ & _ & Ee1).
    destruct (solve_inv _ _ _ _ _ _ _ _ _ _ _ _ E2) as (eb & J2 & p2 & rhs2 & x2 & p2' & I2 & dR2 & dZ2 & c2 & Eb & (bb & by2 & pc & Hpc & EJ2) & _ & _ & _ & _ & _ & _ & _ & Ee2).
    subst pa pc ea eb.
    assert (HJd : forall x y, inside (e_nx e0) (e_ny e0) x y -> Rabs (J1 x y - J2 x y) <= L * d) by (refine (HJ _ _ _ _ _ _ _ _ _ _ _ _ d Q1 Q2 _ _ Hw EJ1 EJ2); [exact L1|exact L2]).
    destruct L1 as (D1 & SO1 & B1 & T1 & P1), L2 as (D2 & SO2 & B2 & T2 & P2).
    assert (D12 := eq_trans D1 (eq_sym D2)). injection D2 as N M A B C2 F.
    assert (JT1 : jtor e1 = Some J1) by (rewrite Ee1; reflexivity). assert (JT2 : jtor e2 = Some J2) by (rewrite Ee2; reflexivity).
    assert (HC2 : bounded_inverse (fst s2) C K) by (unfold bounded_inverse; rewrite N, M, A, B, C2, F; exact HC).
    assert (Hst := C220_stability P Ctl G mu lu spline Jt (fst s1) (fst s2) e1 e2 _ _ _ _ _ _ _ _ J1 J2 C K 0 (L * d) SO1 SO2 Hmu ltac:(rewrite A; exact H0) HC2 HK D12 E1 JT1 E2 JT2
              (or_introl (conj B1 (conj B2 eq_refl)))).
    rewrite N, M, B in Hst. specialize (Hst HJd ltac:(apply Rmult_le_pos; assumption)).
    intros i j Hi Hj. rewrite (total_diff e1 e2 psi1' psi2'); [|rewrite Ee1, Ee2; cbn [tok with_profiles with_current with_bs with_plasma]; congruence|rewrite Ee1, Ee2; cbn [pgreen with_profiles with_current with_bs with_plasma]; congruence|exact Ep1|exact Ep2].
    specialize (Hst i j Hi Hj). lra.
Qed.
Print Assumptions C220_contracts.
(** So the iteration converges. *)
Theorem C220_converges : forall (P Ctl : Type) G mu lu spline
    (Jt : P -> equilibrium R P Ctl -> (nat -> nat -> R) -> option R -> result ((nat -> nat -> R) * P * bstate R))
    (S : equilibrium R P Ctl * P -> Prop) e0 (Q : P -> Prop) C K L Lb p s,
  let run s psi := solve G sqrt mu lu spline Jt (fst s) (snd s) None (Some psi) (user_bndry p) in
  let after s e' := (e', match profiles e' with Some q => q | None => snd s end) in
  0 < mu -> 0 <= Rmin e0 -> bounded_inverse e0 C K -> 0 <= K -> 0 <= L -> 0 <= Lb ->
  (forall s, S s -> like4 lu e0 (fst s) /\ Q (snd s) /\ S (with_check (fst s) false, snd s)) ->
  (forall s psi, S s -> exists e' b, run s psi = Ok e' /\ S (after s e') /\ psi_bndry (bs e') = Some (Some b)) ->
  (forall s1 s2 psi1 psi2 e1 e2 b1 b2 d, S s1 -> S s2 -> within (e_nx e0) (e_ny e0) psi1 psi2 d -> run s1 psi1 = Ok e1 -> run s2 psi2 = Ok e2 ->
     psi_bndry (bs e1) = Some (Some b1) -> psi_bndry (bs e2) = Some (Some b2) -> Rabs (b1 - b2) <= Lb * d) ->
  lipschitz_profile4 lu Jt e0 Q (user_bndry p) L -> (0 < e_nx e0)%nat -> (0 < e_ny e0)%nat ->
  mu * Rmax e0 * K * L < 1 ->
  check p = false -> wait p = false -> 0 <= blend p < 1 -> 0 < atol p -> maxits p = None \/ maxits p = Some 0%Z ->
  S s -> exists n, forall fuel, (n < fuel)%nat -> exists s' h, picard (e_nx e0) (e_ny e0) _ (eq_ops G sqrt mu lu spline Jt None) p fuel s = (s', Ok h) /\ S s'.
Proof.
  intros P Ctl G mu lu spline Jt S e0 Q C K L Lb p s run after Hmu H0 HC HK HL HLb HS Hrun Hbd HJ Hnx Hny Hq1 Hchk Hw Hb Ha Hm Hs.
  assert (HCo := C220_contracts P Ctl G mu lu spline Jt S e0 Q (user_bndry p) C K L Lb Hmu H0 HC HK HL HS Hrun Hbd HJ Hnx Hny).
  assert (Hq : 0 <= mu * Rmax e0 * K * L < 1).
  { split; [|exact Hq1]. destruct (HS s Hs) as ((D & (_ & _ & R1 & _) & _) & _). injection D as _ _ A B _ _. rewrite A, B in R1.
    apply Rmult_le_pos; [|exact HL]. apply Rmult_le_pos; [apply Rmult_le_pos; lra|exact HK]. }
  destruct (HS s Hs) as (_ & _ & Hs').
  destruct (Hrun s (fun _ _ => 0) Hs) as (e' & b & E1 & _). unfold run in E1.
  destruct (solve_ok_psi G mu lu spline Jt _ _ _ _ _ _ E1) as (psi0 & E0).
  exact (C177_eventually (e_nx e0) (e_ny e0) _ (eq_ops G sqrt mu lu spline Jt None) p S _ Lb s psi0 Hnx Hny HCo Hq HLb eq_refl Hchk Hw Hb Ha Hm Hs E0).
Qed.
Print Assumptions C220_converges.
(** A current density 1 + psi / 100000, mu0 = 1, 100 <= R <= 108: q is 56 * 108 / 100000. *)
Definition gentle (q : unit) (e : equilibrium R unit unit) (psi : arr2 R) (_ : option R) : result (arr2 R * unit * bstate R) := Ok (fun i j => 1 + psi i j / 100000, q, mkb None (Some (Some 1)) None None None false None).
Definition gentle_eq (A : arr2 R) : equilibrium R unit unit :=
  mkeq 9 9 100 108 (-40) 40 (mktok [] false []) BFixed 4 (SMatrix (MGDirect 81 A)) false (fun _ _ => 0) (fun _ _ => []) 0 None no_boundary None None.
Definition gentle_state (A : arr2 R) (s : equilibrium R unit unit * unit) : Prop := like4 elimination (gentle_eq A) (fst s) /\ slv (fst s) = SMatrix (MGDirect 81 A).
Lemma gentle_run A s psi : gentle_state A s -> exists e', solve (fun _ _ _ _ _ => 0) sqrt 1 elimination flat_spline gentle (fst s) (snd s) None (Some psi) None = Ok e' /\
  gentle_state A (e', match profiles e' with Some q => q | None => snd s end) /\ psi_bndry (bs e') = Some (Some 1).
Proof.
  destruct s as (e, u). cbn [fst snd]. intros ((D & SO & Hb & Ht & Hp) & Hs). cbn [fst snd] in *. assert (D0 := D). cbn [e_nx e_ny Rmin Rmax Zmin Zmax tok pgreen gentle_eq] in D, Ht, Hp. injection D as N M A1 A2 A3 A4.
  assert (D9 : dyadic 9) by (exists 3%nat; reflexivity).
  destruct (flat_given_run (fun _ _ _ _ _ => 0) 1 elimination gentle e u psi A (0, []) (mkb None (Some (Some 1)) None None None false None)) as (e' & E & Eb & Et & Ep);
    try (rewrite ?N, ?M; exact D9); try (rewrite ?N, ?M; lia); try (rewrite ?A1, ?A2, ?A3, ?A4; lra); try assumption.
  { rewrite Ht. reflexivity. }
  { intros e1 psi1. eexists. reflexivity. }
  { rewrite N, M. exact Hs. }
  exists e'. split; [exact E|].
  destruct (solve_inv _ _ _ _ _ _ _ _ _ _ _ _ E) as (e1 & J' & p1 & rhs & x & p' & I & dR & dZ & b & _ & _ & _ & _ & _ & _ & _ & _ & _ & Ee).
  split; [|rewrite Eb; reflexivity]. rewrite Ee. split; [|exact Hs]. split; [exact D0|]. split; [exact SO|]. split; [exact Hb|]. split; [exact Ht|exact Hp].
Qed.
Example C220_converges_example : exists A n, forall fuel, (n < fuel)%nat -> exists s' h,
  picard 9 9 _ (eq_ops (fun _ _ _ _ _ => 0) sqrt 1 elimination flat_spline gentle None) (plain_options None (1 / 1000) (1 / 1000000)) fuel (gentle_eq A, tt) = (s', Ok h) /\ gentle_state A s'.
Proof.
  destruct nine_run as (A & HF & _). exists A.
  assert (HF' : fourth_order elimination (gentle_eq A)) by exact HF.
  assert (HB : bounded_inverse (gentle_eq A) 47 56).
  { replace 56 with (7 / 8 * (Rmax (gentle_eq A) - Rmin (gentle_eq A)) ^ 2) by (cbn; lra). apply C220_nine; try reflexivity; cbn [gentle_eq Rmin Rmax Zmin Zmax e_ny]; try lia; try lra. cbn [Nat.sub INR]. lra. }
  apply (C220_converges unit unit (fun _ _ _ _ _ => 0) 1 elimination flat_spline gentle (gentle_state A) (gentle_eq A) (fun _ => True) 47 56 (1 / 100000) 0 (plain_options None (1 / 1000) (1 / 1000000)) (gentle_eq A, tt));
    try exact HB; try reflexivity; try (cbn [gentle_eq Rmin Rmax e_nx e_ny plain_options blend atol]; nR; try lia; lra).
  - intros s Hs. split; [apply Hs|]. split; [exact I|exact Hs].
  - intros s psi Hs. destruct (gentle_run A s psi Hs) as (e' & E1 & E2 & E3). exists e', 1. split; [exact E1|]. split; [exact E2|exact E3].
  - intros s1 s2 psi1 psi2 e1 e2 b1 b2 d H1 H2 _ E1 E2 B1 B2. destruct (gentle_run A s1 psi1 H1) as (e1' & E1' & _ & S1). destruct (gentle_run A s2 psi2 H2) as (e2' & E2' & _ & S2).
    cbn [user_bndry plain_options] in E1, E2. rewrite E1 in E1'. apply ok_inj in E1'. subst e1'. rewrite E2 in E2'. apply ok_inj in E2'. subst e2'.
    rewrite B1 in S1. rewrite B2 in S2. injection S1 as ->. injection S2 as ->. rewrite Rminus_diag_eq by reflexivity. rewrite Rabs_R0. lra.
  - intros p1 p2 e1 e2 psi1 psi2 J1 J2 p1' p2' b1 b2 d _ _ _ _ Hw E1 E2 x y Hxy. injection E1 as <- _ _. injection E2 as <- _ _.
    replace (1 + psi1 x y / 100000 - (1 + psi2 x y / 100000)) with (/ 100000 * (psi1 x y - psi2 x y)) by field. rewrite Rabs_mult, (Rabs_right (/ 100000)) by lra.
    assert (H := Hw x y ltac:(unfold inside in Hxy; cbn in *; lia) ltac:(unfold inside in Hxy; cbn in *; lia)). lra.
  - left. reflexivity.
  - split; [|reflexivity]. split; [reflexivity|]. split; [exact HF'|]. repeat split.
Qed.
