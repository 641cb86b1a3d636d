(** C219: the fourth-order solver and currents of one sign. *)
From Coq Require Import String List Arith ZArith QArith Bool Reals Lra Lia Classical.
From Verif Require Import Py Num Numpy Romb RombProofs RombExact Multigrid MultigridProofs Gauss Coils Machine Critical CriticalSpec CriticalProofs Boundary BoundarySpec BoundaryProofs PropCritical Jtor JtorSpec JtorProofs PropJtor
  GradShafranov GradShafranovProofs Equilibrium EquilibriumSpec EquilibriumProofs EquilibriumProofs2 EquilibriumProofs3 GSSpec GS4Proofs FourthProofs EllipticSpec PropGreens PropBoundary PropEquilibrium FittingProofs PropSolveFlux PropSolveError PropEquilibrium2 PropPicardLimit PropStart PropFourth.
Import ListNotations.
Local Open Scope R_scope.

(** ** Proofs *)
(** a flux given by a table, zero outside it *)
Definition tabled (t : list (list Z)) (x y : nat) : R := IZR (nth y (nth x t []) 0%Z).
(** the row of the matrix at an inner point of a 9 x 9 grid, applied to a flux *)
Definition row9 (rmin dR dZ : R) (psi : arr2 R) (x y : nat) : R :=
  lsum (map (fun ow => snd ow * psi x (Z.to_nat (Z.of_nat y + fst ow))) (zst 9 y)) / (dZ * dZ)
  + lsum (map (fun ow => snd ow * psi (Z.to_nat (Z.of_nat x + fst ow)) y) (r2st 9 x)) / (dR * dR)
  - lsum (map (fun ow => snd ow * psi (Z.to_nat (Z.of_nat x + fst ow)) y) (r1st 9 x)) / (dR * (rmin + dR * INR x)).
(** the current density that goes with it *)
Definition source9 (rmin dR dZ mu : R) (psi : arr2 R) (x y : nat) : R :=
  if interiorb 9 9 x y then - row9 rmin dR dZ psi x y / (mu * (rmin + dR * INR x)) else 0.
Definition box9 (rmin rmax zmax : R) (A : arr2 R) : equilibrium R (arr2 R) unit :=
  mkeq 9 9 rmin rmax (- zmax) zmax (mktok [] false []) BFixed 4 (SMatrix (MGDirect 81 A)) false (fun _ _ => 0) (fun _ _ => []) 0 None no_boundary None None.
Lemma box9_run rmin rmax zmax mu lu A J : rmin < rmax -> 0 < zmax -> exists e',
  solve (fun _ _ _ _ _ => 0) sqrt mu lu flat_spline given (box9 rmin rmax zmax A) J None (Some (fun _ _ => 0)) None = Ok e' /\ jtor e' = Some J.
Proof.
  intros HR HZ. assert (D9 : dyadic 9) by (exists 3%nat; reflexivity).
  destruct (flat_given_run (fun _ _ _ _ _ => 0) mu lu given (box9 rmin rmax zmax A) J (fun _ _ => 0) A (0, []) (mkb None (Some (Some 1)) None None None false None)) as (e' & E & _);
    try reflexivity; try exact D9; try (cbn; lia); try (cbn; lra).
  { intros e1 psi1. exists J. reflexivity. }
  exists e'. split; [exact E|].
  destruct (solve_inv _ _ _ _ _ _ _ _ _ _ _ _ E) as (e1 & J' & p1 & rhs & x & p' & I & dR & dZ & b & -> & (b1 & b2 & q' & -> & EJ) & _ & _ & _ & _ & _ & _ & _ & Ee).
  injection EJ as <- _ _. rewrite Ee. reflexivity.
Qed.
(** Every solve with that current density gives the flux of the table. *)
Lemma box9_flux (P Ctl : Type) G mu lu spline Jt (e e' : equilibrium R P Ctl) p Jo psi pb w : 0 < mu -> 0 < Rmin e -> fourth_order lu e -> bnd e = BFixed -> e_nx e = 9%nat -> e_ny e = 9%nat ->
  (forall x y, ~ GradShafranovProofs.interior 9 9 x y -> w x y = 0) ->
  solve G sqrt mu lu spline Jt e p Jo psi pb = Ok e' -> jtor e' = Some (source9 (Rmin e) ((Rmax e - Rmin e) / 8) ((Zmax e - Zmin e) / 8) mu w) ->
  forall x y, (x < 9)%nat -> (y < 9)%nat -> plasma_psi e' x y = w x y.
Proof.
  intros Hmu H0 HF Hb Nx Ny Hw E EJ. set (J := source9 _ _ _ _ _) in EJ. assert (HF0 := HF). destruct HF0 as (Hnx & Hny & HR & HZ & A & EA & Es & HA).
  destruct (solved4 G mu lu spline Jt e e' p Jo psi pb J A HF EA E EJ) as (p1 & Eb & He & Hi). rewrite Nx, Ny in *.
  assert (I8 : INR (9 - 1) = 8) by (cbn [Nat.sub INR]; lra).
  apply (unique4 (Rmin e) (Rmax e) (Zmin e) (Zmax e) 9 9 A Hnx Hny EA lu (plasma_psi e') w HA).
  - intros x y Hxy. rewrite (Hi x y (inside_cases _ _ _ _ Hxy)). rewrite (row_in (Rmin e) (Rmax e) (Zmin e) (Zmax e) 9 9 A Hnx Hny EA w x y Hxy). rewrite I8.
    unfold J, source9. destruct (interiorb_spec 9 9 x y) as [_|F]; [|contradiction]. unfold gridpt. rewrite I8. fold (row9 (Rmin e) ((Rmax e - Rmin e) / 8) ((Zmax e - Zmin e) / 8) w x y).
    assert (0 < Rmin e + (Rmax e - Rmin e) / 8 * INR x). { assert (0 <= (Rmax e - Rmin e) / 8 * INR x) by (apply Rmult_le_pos; [lra|apply pos_INR]). lra. }
    replace (Rmin e + INR x * ((Rmax e - Rmin e) / 8)) with (Rmin e + (Rmax e - Rmin e) / 8 * INR x) by ring. field. lra.
  - intros x y Hx Hy Hxy. rewrite (Hw x y Hxy). apply edge_cases in Hxy; [|assumption..]. rewrite (He x y Hxy).
    unfold applyBoundary in Eb. rewrite Hb, Nx, Ny in Eb. destruct (proj1 (C28_fixed_boundary 9 9 (plasma_psi e)) ltac:(lia)) as (v & Ev & Hv). rewrite Eb in Ev. apply ok_inj in Ev. subst v.
    exact (proj1 (Hv x y Hx Hy) Hxy).
Qed.
(** the two fluxes *)
Definition far_table : list (list Z) := ([[0; 0; 0; 0; 0; 0; 0; 0; 0]; [0; -10; 6; 56; 828; 56; 6; -10; 0]; [0; -18; 11; 100; 1372; 100; 11; -18; 0]; [0; -22; 14; 127; 1865; 127; 14; -22; 0]; [0; -22; 15; 131; 1507; 131; 15; -22; 0]; [0; -18; 15; 116; 1112; 116; 15; -18; 0]; [0; -12; 12; 86; 732; 86; 12; -12; 0]; [0; -5; 7; 46; 363; 46; 7; -5; 0]; [0; 0; 0; 0; 0; 0; 0; 0; 0]])%Z.
Definition near_table : list (list Z) := ([[0; 0; 0; 0; 0; 0; 0; 0; 0]; [0; 5; 5; 2; -5; 2; 5; 5; 0]; [0; 7; 19; 35; 76; 35; 19; 7; 0]; [0; 14; 29; 44; 58; 44; 29; 14; 0]; [0; 19; 34; 46; 51; 46; 34; 19; 0]; [0; 21; 35; 44; 48; 44; 35; 21; 0]; [0; 20; 32; 39; 41; 39; 32; 20; 0]; [0; 14; 21; 25; 27; 25; 21; 14; 0]; [0; 0; 0; 0; 0; 0; 0; 0; 0]])%Z.
Lemma far_edge x y : ~ GradShafranovProofs.interior 9 9 x y -> tabled far_table x y = 0.
Proof.
  intros H. unfold GradShafranovProofs.interior in H. unfold tabled, far_table.
  do 9 (destruct x as [|x]; [do 9 (destruct y as [|y]; [first [reflexivity|exfalso; apply H; lia]|]); destruct y; reflexivity|]). destruct x, y; reflexivity.
Qed.
Lemma near_edge x y : ~ GradShafranovProofs.interior 9 9 x y -> tabled near_table x y = 0.
Proof.
  intros H. unfold GradShafranovProofs.interior in H. unfold tabled, near_table.
  do 9 (destruct x as [|x]; [do 9 (destruct y as [|y]; [first [reflexivity|exfalso; apply H; lia]|]); destruct y; reflexivity|]). destruct x, y; reflexivity.
Qed.
Ltac point := unfold row9, zst, r2st, r1st, GS4Proofs.mirror, mirror_neg, offset_2nd, centred_2nd, offset_1st, centred_1st; cbn [Nat.eqb Nat.sub map fst snd Z.opp]; rewrite ?lsum_cons, ?lsum_nil; nR;
  repeat match goal with |- context [tabled ?t ?x ?y] => let v := eval vm_compute in (nth y (nth x t []) 0%Z) in change (tabled t x y) with (IZR v) end;
  rewrite ?INR_IZR_INZ; cbn [Z.of_nat Pos.of_succ_nat Pos.succ]; try lra.
Lemma far_row x y : GradShafranovProofs.interior 9 9 x y -> row9 100 1 10 (tabled far_table) x y <= 0.
Proof.
  intros H. unfold GradShafranovProofs.interior in H.
  do 8 (destruct x as [|x]; [try (exfalso; lia); do 8 (destruct y as [|y]; [try (exfalso; lia); clear H; point|]); exfalso; lia|]). exfalso; lia.
Qed.
Lemma near_row x y : GradShafranovProofs.interior 9 9 x y -> row9 (1 / 8) (1 / 8) (1 / 8) (tabled near_table) x y <= 0.
Proof.
  intros H. unfold GradShafranovProofs.interior in H.
  do 8 (destruct x as [|x]; [try (exfalso; lia); do 8 (destruct y as [|y]; [try (exfalso; lia); clear H; point|]); exfalso; lia|]). exfalso; lia.
Qed.
Lemma source_positive rmin dR dZ mu w : 0 < mu -> 0 < rmin -> 0 < dR -> (forall x y, GradShafranovProofs.interior 9 9 x y -> row9 rmin dR dZ w x y <= 0) -> forall x y, 0 <= source9 rmin dR dZ mu w x y.
Proof.
  intros Hmu Hr Hd H x y. unfold source9. destruct (interiorb_spec 9 9 x y) as [I|]; [|lra]. specialize (H x y I).
  assert (0 <= dR * INR x) by (apply Rmult_le_pos; [lra|apply pos_INR]). apply Rle_mult_inv_pos; [lra|]. apply Rmult_lt_0_compat; lra.
Qed.

(** ** C219 *)
(** Fixed boundary, the default order, a matrix whose systems the solver solves, a current density that is nowhere negative: the flux is
    negative at some grid point.  (With order 2 it never is: C166.) *)
Theorem C219_refuted : exists lu (e e' : equilibrium R (arr2 R) unit) J,
  fourth_order lu e /\ 0 < Rmin e /\ bnd e = BFixed /\
  solve (fun _ _ _ _ _ => 0) sqrt 1 lu flat_spline given e J None (Some (fun _ _ => 0)) None = Ok e' /\ jtor e' = Some J /\
  (forall x y, 0 <= J x y) /\ exists x y, (x < e_nx e)%nat /\ (y < e_ny e)%nat /\ plasma_psi e' x y < 0.
Proof.
  destruct (C218_regular elimination 100 108 (- (40)) 40 9 elimination_exact) as (A & EA & HA); try lia; try lra; [cbn [Nat.sub INR]; lra|].
  set (e := box9 100 108 40 A). set (J := source9 100 1 10 1 (tabled far_table)).
  destruct (box9_run 100 108 40 1 elimination A J ltac:(lra) ltac:(lra)) as (e' & E & EJ). fold e in E.
  assert (HF : fourth_order elimination e).
  { unfold fourth_order. cbn [Rmin Rmax Zmin Zmax e_nx e_ny slv e box9]. split; [lia|]. split; [lia|]. split; [lra|]. split; [lra|]. exists A. split; [exact EA|]. split; [reflexivity|exact HA]. }
  exists elimination, e, e', J. split; [exact HF|]. split; [cbn; lra|]. split; [reflexivity|]. split; [exact E|]. split; [exact EJ|]. split.
  { apply source_positive; try lra. exact far_row. }
  exists 4%nat, 1%nat. split; [cbn; lia|]. split; [cbn; lia|].
  rewrite (box9_flux _ _ _ 1 elimination _ _ e e' J None (Some (fun _ _ => 0)) None (tabled far_table)) with (8 := E); try lia; try lra; try reflexivity; try exact far_edge; try exact HF; try (cbn; lra).
  - change (IZR (-22) < 0). lra.
  - rewrite EJ. unfold J. cbn [Rmin Rmax Zmin Zmax e box9]. do 2 f_equal; lra.
Qed.
Print Assumptions C219_refuted.
(** On a square domain next to the axis, 1/8 < R < 9/8 and -1/2 < Z < 1/2: every solver that solves the systems of the matrix gives a
    negative flux for this current density. *)
Theorem C219_near_axis : forall (P Ctl : Type) G mu lu spline Jt (e e' : equilibrium R P Ctl) p Jo psi pb,
  0 < mu -> fourth_order lu e -> bnd e = BFixed -> e_nx e = 9%nat -> e_ny e = 9%nat -> (Rmin e, Rmax e, Zmin e, Zmax e) = (1 / 8, 9 / 8, - (1 / 2), 1 / 2) ->
  solve G sqrt mu lu spline Jt e p Jo psi pb = Ok e' -> jtor e' = Some (source9 (1 / 8) (1 / 8) (1 / 8) mu (tabled near_table)) ->
  (forall x y, 0 <= source9 (1 / 8) (1 / 8) (1 / 8) mu (tabled near_table) x y) /\ plasma_psi e' 1%nat 4%nat = - 5.
Proof.
  intros P Ctl G mu lu spline Jt e e' p Jo psi pb Hmu HF Hb Nx Ny D E EJ. injection D as D1 D2 D3 D4. split; [apply source_positive; try lra; exact near_row|].
  rewrite (box9_flux P Ctl G mu lu spline Jt e e' p Jo psi pb (tabled near_table)) with (8 := E); try lia; try assumption; try exact near_edge; try (rewrite D1; lra).
  - reflexivity.
  - rewrite EJ, D1, D2, D3, D4. do 2 f_equal; lra.
Qed.
Print Assumptions C219_near_axis.
(** A solver that returns that flux: the run succeeds and the flux satisfies the equation at every inner point. *)
Example C219_example : exists A e', let lu := fun (_ : nat) (_ : arr2 R) (_ : nat -> R) c => tabled near_table (c / 9) (c mod 9) in
  let J := source9 (1 / 8) (1 / 8) (1 / 8) 1 (tabled near_table) in
  GSsparse4thOrder (1 / 8) (9 / 8) (- (1 / 2)) (1 / 2) 9 9 = Ok A /\
  solve (fun _ _ _ _ _ => 0) sqrt 1 lu flat_spline given (box9 (1 / 8) (9 / 8) (1 / 2) A) J None (Some (fun _ _ => 0)) None = Ok e' /\ jtor e' = Some J /\
  forall x y, GradShafranovProofs.interior 9 9 x y -> mat_apply A (tabled near_table) 9 9 (x * 9 + y) = - 1 * gridpt (1 / 8) (9 / 8) 9 x * J x y.
Proof.
  destruct (GS4_rows (1 / 8) (9 / 8) (- (1 / 2)) (1 / 2) 9 9 ltac:(lia) ltac:(lia)) as (A & EA & _). exists A.
  destruct (box9_run (1 / 8) (9 / 8) (1 / 2) 1 (fun _ _ _ c => tabled near_table (c / 9) (c mod 9)) A (source9 (1 / 8) (1 / 8) (1 / 8) 1 (tabled near_table)) ltac:(lra) ltac:(lra)) as (e' & E & EJ).
  exists e'. cbv zeta. split; [exact EA|]. split; [exact E|]. split; [exact EJ|].
  intros x y Hxy. rewrite (row_in (1 / 8) (9 / 8) (- (1 / 2)) (1 / 2) 9 9 A ltac:(lia) ltac:(lia) EA (tabled near_table) x y Hxy).
  assert (I8 : INR (9 - 1) = 8) by (cbn [Nat.sub INR]; lra). unfold source9. destruct (interiorb_spec 9 9 x y) as [_|F]; [|contradiction]. unfold gridpt. rewrite I8.
  replace ((9 / 8 - 1 / 8) / 8) with (1 / 8) by lra. replace ((1 / 2 - - (1 / 2)) / 8) with (1 / 8) by lra. fold (row9 (1 / 8) (1 / 8) (1 / 8) (tabled near_table) x y).
  assert (0 <= INR x) by apply pos_INR. field. lra.
Qed.
