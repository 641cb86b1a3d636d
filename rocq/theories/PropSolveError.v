(** C171-C172: how far the plasma flux found by solve is from that of another current density, and from
    the flux that satisfies the Grad-Shafranov equation. *)
From Coq Require Import String List Arith ZArith QArith Bool Reals Lia Lra.
From Coquelicot Require Import Coquelicot.
From Verif Require Import Py Num Numpy Linalg GradShafranov GradShafranovProofs GS4Proofs Multigrid MultigridProofs MultigridGS Coils Machine Romb RombProofs RombExact
  Critical CriticalSpec CriticalProofs2 CriticalProofs3 Boundary BoundarySpec BoundaryProofs PropBoundary Jtor Equilibrium EquilibriumSpec EquilibriumProofs GSSpec Gauss PropMultigrid PropGS PropEquilibrium EllipticSpec PropGreens PropSolveFlux GSConsistency.
Import ListNotations.
Local Open Scope R_scope.

(** ** The barrier *)
(** e + s/2 (Z - Zmin) (Zmax - Z) *)
Definition barrier (zmin zmax : R) (ny : nat) (e s : R) : nat -> nat -> R :=
  fun _ y => e + s / 2 * ((gridpt zmin zmax ny y - zmin) * (zmax - gridpt zmin zmax ny y)).
Lemma gridpt_le a b n i : a < b -> (2 <= n)%nat -> (i < n)%nat -> gridpt a b n i <= b.
Proof.
  intros H Hn Hi. unfold gridpt. assert (P : 0 < INR (n - 1)) by (apply lt_0_INR; lia). assert (Q : INR i <= INR (n - 1)) by (apply le_INR; lia).
  apply Rle_trans with (a + (b - a) / INR (n - 1) * INR (n - 1)); [|right; field; lra].
  apply Rplus_le_compat_l, Rmult_le_compat_l; [|exact Q]. apply Rlt_le, Rdiv_lt_0_compat; lra.
Qed.
Lemma barrier_ge zmin zmax ny e s x y : zmin < zmax -> (2 <= ny)%nat -> 0 <= s -> (y < ny)%nat -> e <= barrier zmin zmax ny e s x y.
Proof.
  intros HZ Hn Hs Hy. unfold barrier. assert (A := gridpt_ge zmin zmax ny y HZ Hn). assert (B := gridpt_le zmin zmax ny y HZ Hn Hy).
  assert (0 <= (gridpt zmin zmax ny y - zmin) * (zmax - gridpt zmin zmax ny y)) by (apply Rmult_le_pos; lra). nra.
Qed.
Lemma barrier_le zmin zmax ny e s x y : 0 <= s -> barrier zmin zmax ny e s x y <= e + (zmax - zmin) ^ 2 / 8 * s.
Proof.
  intros Hs. unfold barrier. set (z := gridpt zmin zmax ny y).
  assert (Q : (z - zmin) * (zmax - z) <= (zmax - zmin) ^ 2 / 4) by (assert (X := pow2_ge_0 (z - zmin - (zmax - z))); lra). nra.
Qed.
Lemma barrier_elliptic rmin zmin zmax nx ny dR e s x y : (2 <= ny)%nat -> zmin < zmax -> dR <> 0 -> inside nx ny x y ->
  GSElliptic rmin (barrier zmin zmax ny e s) nx ny dR ((zmax - zmin) / INR (ny - 1)) x y = - s.
Proof.
  intros Hn HZ HR H. rewrite GSElliptic_closed. unfold inside in H.
  destruct (interiorb_spec nx ny x y) as [_|F]; [|exfalso; apply F; unfold interior; lia].
  unfold barrier, gridpt. rewrite plus_INR, (minus_INR y 1) by lia. cbn [INR].
  assert (P : 0 < INR (ny - 1)) by (apply lt_0_INR; lia). set (n := INR (ny - 1)) in *.
  set (c := 1 / (2 * (rmin + dR * INR x) * dR)). set (a := 1 / (dR * dR)). set (d := (zmax - zmin) / n).
  assert (Hd : 0 < d) by (unfold d; apply Rdiv_lt_0_compat; lra). replace zmax with (zmin + n * d) by (unfold d; field; lra).
  clearbody d. field. lra.
Qed.
(** values on the edges within e and operator within s: the values are within e + (zmax-zmin)^2/8 s *)
Lemma bounded rmin rmax zmin zmax nx ny (w : nat -> nat -> R) e s : 0 <= rmin -> rmin < rmax -> zmin < zmax -> (2 <= nx)%nat -> (2 <= ny)%nat -> 0 <= s ->
  (forall x y, inside nx ny x y -> Rabs (GSElliptic rmin w nx ny ((rmax - rmin) / INR (nx - 1)) ((zmax - zmin) / INR (ny - 1)) x y) <= s) ->
  (forall x y, on_edge nx ny x y -> Rabs (w x y) <= e) ->
  forall x y, (x < nx)%nat -> (y < ny)%nat -> Rabs (w x y) <= e + (zmax - zmin) ^ 2 / 8 * s.
Proof.
  intros H0 HR HZ Hnx Hny Hs Hi He x y Hx Hy.
  assert (HdR : (rmax - rmin) / INR (nx - 1) <> 0) by (assert (0 < INR (nx - 1)) by (apply lt_0_INR; lia); assert (0 < (rmax - rmin) / INR (nx - 1)) by (apply Rdiv_lt_0_compat; lra); lra).
  assert (U : w x y <= barrier zmin zmax ny e s x y).
  { apply (sub_principle rmin rmax zmin zmax nx ny (barrier zmin zmax ny e s) w); try assumption.
    - intros x' y' H. rewrite barrier_elliptic by assumption. assert (X := Hi x' y' H). apply Rabs_le_between in X. lra.
    - intros x' y' H. assert (X := He x' y' H). apply Rabs_le_between in X.
      assert (Y := barrier_ge zmin zmax ny e s x' y' HZ Hny Hs ltac:(unfold on_edge in H; lia)). lra. }
  assert (L : 0 * w x y + (-1) * w x y <= barrier zmin zmax ny e s x y).
  { apply (sub_principle rmin rmax zmin zmax nx ny (barrier zmin zmax ny e s) (fun x y => 0 * w x y + (-1) * w x y)); try assumption.
    - intros x' y' H. rewrite barrier_elliptic, GSElliptic_lin by assumption. assert (X := Hi x' y' H). apply Rabs_le_between in X. lra.
    - intros x' y' H. assert (X := He x' y' H). apply Rabs_le_between in X.
      assert (Y := barrier_ge zmin zmax ny e s x' y' HZ Hny Hs ltac:(unfold on_edge in H; lia)). lra. }
  assert (B := barrier_le zmin zmax ny e s x y Hs). apply Rabs_le. lra.
Qed.

(** ** C171 *)
(** Two solves on the same grid: where the edge values differ by at most [d] and the current densities by
    at most [D], the fluxes differ by at most d + mu0 Rmax (Zmax - Zmin)^2 / 8 D.  With the fixed boundary d is 0. *)
Theorem C171_stability : forall (P Ctl : Type) G mu lu spline
    (Jtor_call : P -> equilibrium R P Ctl -> (nat -> nat -> R) -> option R -> result ((nat -> nat -> R) * P * bstate R))
    (e1 e2 e1' e2' : equilibrium R P Ctl) p1 p2 o1 o2 s1 s2 t1 t2 J1 J2 d D,
  exact_solver lu -> second_order e1 -> second_order e2 -> 0 < mu ->
  (e_nx e1, e_ny e1, Rmin e1, Rmax e1, Zmin e1, Zmax e1) = (e_nx e2, e_ny e2, Rmin e2, Rmax e2, Zmin e2, Zmax e2) ->
  solve G sqrt mu lu spline Jtor_call e1 p1 o1 s1 t1 = Ok e1' -> jtor e1' = Some J1 ->
  solve G sqrt mu lu spline Jtor_call e2 p2 o2 s2 t2 = Ok e2' -> jtor e2' = Some J2 ->
  bnd e1 = BFixed /\ bnd e2 = BFixed /\ d = 0 \/ (forall x y, on_edge (e_nx e2) (e_ny e2) x y -> Rabs (plasma_psi e1' x y - plasma_psi e2' x y) <= d) ->
  (forall x y, inside (e_nx e2) (e_ny e2) x y -> Rabs (J1 x y - J2 x y) <= D) -> 0 <= D ->
  forall x y, (x < e_nx e2)%nat -> (y < e_ny e2)%nat ->
  Rabs (plasma_psi e1' x y - plasma_psi e2' x y) <= d + (Zmax e2 - Zmin e2) ^ 2 / 8 * (mu * Rmax e2 * D).
Proof.
  intros P Ctl G mu lu spline Jc e1 e2 e1' e2' p1 p2 o1 o2 s1 s2 t1 t2 J1 J2 d D Hlu HS1 HS2 Hmu E12 E1 EJ1 E2 EJ2 Hb HJ HD.
  destruct (solved G mu lu spline Jc e1 e1' _ _ _ _ J1 Hlu HS1 E1 EJ1) as (q1 & Q1 & _ & _ & He1 & Hi1).
  destruct (solved G mu lu spline Jc e2 e2' _ _ _ _ J2 Hlu HS2 E2 EJ2) as (q2 & Q2 & Hnx & Hny & He2 & Hi2).
  destruct HS2 as (H0 & HR & HZ & _). injection E12 as N M A B C F. rewrite N, M in He1. rewrite N, M, A, B, C, F in Hi1.
  intros x y Hx Hy. replace (plasma_psi e1' x y - plasma_psi e2' x y) with (1 * plasma_psi e1' x y + (-1) * plasma_psi e2' x y) by ring.
  apply (bounded (Rmin e2) (Rmax e2) (Zmin e2) (Zmax e2) (e_nx e2) (e_ny e2) (fun x y => 1 * plasma_psi e1' x y + (-1) * plasma_psi e2' x y)); try assumption.
  - apply Rmult_le_pos; [|exact HD]. apply Rmult_le_pos; lra.
  - intros x' y' H. rewrite GSElliptic_lin, Hi1, Hi2 by exact H.
    set (r := gridpt (Rmin e2) (Rmax e2) (e_nx e2) x'). replace (1 * (- mu * r * J1 x' y') + -1 * (- mu * r * J2 x' y')) with ((- (mu * r)) * (J1 x' y' - J2 x' y')) by ring.
    assert (r0 := gridpt_ge (Rmin e2) (Rmax e2) (e_nx e2) x' HR Hnx). assert (r1 := gridpt_le (Rmin e2) (Rmax e2) (e_nx e2) x' HR Hnx ltac:(unfold inside in H; lia)). fold r in r0, r1.
    rewrite Rabs_mult, Rabs_Ropp, (Rabs_right (mu * r)) by (apply Rle_ge, Rmult_le_pos; lra).
    apply Rmult_le_compat; [apply Rmult_le_pos; lra|apply Rabs_pos| |apply HJ, H]. apply Rmult_le_compat_l; lra.
  - intros x' y' H. replace (1 * plasma_psi e1' x' y' + -1 * plasma_psi e2' x' y') with (plasma_psi e1' x' y' - plasma_psi e2' x' y') by ring.
    destruct Hb as [(B1 & B2 & ->)|Hb]; [|apply Hb, H]. rewrite He1, He2 by exact H. unfold applyBoundary in Q1, Q2. rewrite B1, N, M in Q1. rewrite B2 in Q2.
    assert (Z : forall u v, fixedBoundary (e_nx e2) (e_ny e2) u = Ok v -> v x' y' = 0).
    { intros u v Ev. destruct (proj1 (C28_fixed_boundary (e_nx e2) (e_ny e2) u) ltac:(lia)) as (v' & Ev' & Hv). rewrite Ev in Ev'. apply ok_inj in Ev'. subst v'.
      apply Hv; [apply H|apply (proj2 H)|exact H]. }
    rewrite (Z _ _ Q1), (Z _ _ Q2), Rminus_0_r, Rabs_R0. lra.
Qed.
Print Assumptions C171_stability.
(** Unit current density against none, fixed boundary: mu0 is 1, and 0 <= psi <= 1 on 1 <= R <= 2, -1 <= Z <= 1. *)
Example C171_example : exists A e1 e2,
  let run J := solve (fun _ => green) sqrt 1 elimination flat_spline (fun _ _ _ _ => Raise TypeError) (demo_eq BFixed A) tt (Some J) None None in
  run (fun _ _ => 1) = Ok e1 /\ run (fun _ _ => 0) = Ok e2 /\
  forall x y, (x < 5)%nat -> (y < 5)%nat -> Rabs (plasma_psi e1 x y - plasma_psi e2 x y) <= 1.
Proof.
  destruct demo_run as (A & H). destruct (H BFixed (or_introl eq_refl)) as (_ & HS & HE & HJ). exists A.
  destruct (HJ (fun _ _ => 1)) as (e1 & E1 & EJ1), (HJ (fun _ _ => 0)) as (e2 & E2 & EJ2). exists e1, e2. cbv zeta.
  split; [exact E1|]. split; [exact E2|]. intros x y Hx Hy. assert (H1 : 0 < 1) by lra. assert (H01 : 0 <= 1) by lra.
  eapply Rle_trans; [refine (C171_stability _ _ _ _ _ _ _ _ _ _ _ _ _ _ _ _ _ _ _ _ _ 0 1 HE HS HS H1 eq_refl E1 EJ1 E2 EJ2 (or_introl (conj eq_refl (conj eq_refl eq_refl))) _ H01 x y Hx Hy)|].
  - intros x' y' _. cbn beta. rewrite Rminus_0_r, Rabs_R1. lra.
  - cbn. lra.
Qed.

(** ** C172 *)
(** A flux [psi] with bounded third and fourth derivatives.  Where its edge values are within [d] of those
    that were set, and the current density is within [D] of the one [psi] belongs to, the flux found is within
    d + (Zmax - Zmin)^2 / 8 (truncation error + mu0 Rmax D) of [psi]. *)
Theorem C172_error : forall (P Ctl : Type) G mu lu spline
    (Jtor_call : P -> equilibrium R P Ctl -> (nat -> nat -> R) -> option R -> result ((nat -> nat -> R) * P * bstate R))
    (e e' : equilibrium R P Ctl) p Jo s t J psi K M d D,
  let dR := (Rmax e - Rmin e) / INR (e_nx e - 1) in let dZ := (Zmax e - Zmin e) / INR (e_ny e - 1) in
  let gR := gridpt (Rmin e) (Rmax e) (e_nx e) in let gZ := gridpt (Zmin e) (Zmax e) (e_ny e) in
  exact_solver lu -> second_order e -> 0 < mu -> 0 < Rmin e ->
  solve G sqrt mu lu spline Jtor_call e p Jo s t = Ok e' -> jtor e' = Some J ->
  smooth_flux psi (Rmin e) (Rmax e) (Zmin e) (Zmax e) M ->
  (forall r z, Rmin e <= r <= Rmax e -> Zmin e <= z <= Zmax e -> GSop psi r z = - mu * r * K r z) ->
  (forall x y, inside (e_nx e) (e_ny e) x y -> Rabs (J x y - K (gR x) (gZ y)) <= D) -> 0 <= D ->
  (forall x y, on_edge (e_nx e) (e_ny e) x y -> Rabs (plasma_psi e' x y - psi (gR x) (gZ y)) <= d) ->
  forall x y, (x < e_nx e)%nat -> (y < e_ny e)%nat ->
  Rabs (plasma_psi e' x y - psi (gR x) (gZ y)) <=
    d + (Zmax e - Zmin e) ^ 2 / 8 * (M * (dR ^ 2 / 12 + dZ ^ 2 / 12 + (dR ^ 2 / 6 + dR ^ 3 / 24) / Rmin e) + mu * Rmax e * D).
Proof.
  intros P Ctl G mu lu spline Jc e e' p Jo s t J psi K M d D dR dZ gR gZ Hlu HS Hmu Hpos E EJ Hs HK HJ HD Hd.
  destruct (solved G mu lu spline Jc e e' _ _ _ _ J Hlu HS E EJ) as (q & Q & Hnx & Hny & He & Hi). destruct HS as (H0 & HR & HZ & _).
  set (tau := M * (dR ^ 2 / 12 + dZ ^ 2 / 12 + (dR ^ 2 / 6 + dR ^ 3 / 24) / Rmin e)).
  assert (HdR : 0 < dR) by (unfold dR; apply Rdiv_lt_0_compat; [lra|apply lt_0_INR; lia]).
  assert (HM : 0 <= M).
  { destruct Hs as (_ & _ & Hs). destruct (Hs (Rmin e) (Zmin e) ltac:(lra) ltac:(lra)) as (X & _ & _). eapply Rle_trans; [apply Rabs_pos|exact X]. }
  assert (Ht : 0 <= tau).
  { unfold tau. apply Rmult_le_pos; [exact HM|]. assert (A := pow2_ge_0 dR). assert (B := pow2_ge_0 dZ). assert (C : 0 < dR ^ 3) by (apply pow_lt; lra).
    assert (0 <= (dR ^ 2 / 6 + dR ^ 3 / 24) / Rmin e) by (apply Rmult_le_pos; [lra|apply Rlt_le, Rinv_0_lt_compat; lra]). lra. }
  assert (HmD : 0 <= mu * Rmax e * D) by (apply Rmult_le_pos; [|exact HD]; apply Rmult_le_pos; lra).
  intros x y Hx Hy. replace (plasma_psi e' x y - psi (gR x) (gZ y)) with (1 * plasma_psi e' x y + (-1) * psi (gR x) (gZ y)) by ring.
  apply (bounded (Rmin e) (Rmax e) (Zmin e) (Zmax e) (e_nx e) (e_ny e) (fun x y => 1 * plasma_psi e' x y + (-1) * psi (gR x) (gZ y))); try assumption.
  - lra.
  - intros x' y' H. rewrite (GSElliptic_lin (Rmin e) (plasma_psi e') (fun x y => psi (gR x) (gZ y))), Hi by exact H. fold dR dZ.
    assert (T := C83_second_order_truncation psi (Rmin e) (Rmax e) (Zmin e) (Zmax e) (e_nx e) (e_ny e) M x' y' Hpos HR HZ ltac:(unfold inside in H; lia) Hs). cbv zeta in T. fold dR dZ tau gR gZ in T.
    assert (r0 := gridpt_ge (Rmin e) (Rmax e) (e_nx e) x' HR Hnx). assert (r1 := gridpt_le (Rmin e) (Rmax e) (e_nx e) x' HR Hnx ltac:(unfold inside in H; lia)). fold (gR x') in r0, r1.
    assert (z0 := gridpt_ge (Zmin e) (Zmax e) (e_ny e) y' HZ Hny). assert (z1 := gridpt_le (Zmin e) (Zmax e) (e_ny e) y' HZ Hny ltac:(unfold inside in H; lia)). fold (gZ y') in z0, z1.
    rewrite HK in T by lra. fold (gR x').
    set (L := GSElliptic (Rmin e) (fun x y => psi (gR x) (gZ y)) (e_nx e) (e_ny e) dR dZ x' y') in *.
    replace (1 * (- mu * gR x' * J x' y') + -1 * L) with (- (L - - mu * gR x' * K (gR x') (gZ y')) + - (mu * gR x') * (J x' y' - K (gR x') (gZ y'))) by ring.
    eapply Rle_trans; [apply Rabs_triang|]. apply Rplus_le_compat; [rewrite Rabs_Ropp; exact T|].
    rewrite Rabs_mult, Rabs_Ropp, (Rabs_right (mu * gR x')) by (apply Rle_ge, Rmult_le_pos; lra).
    apply Rmult_le_compat; [apply Rmult_le_pos; lra|apply Rabs_pos|apply Rmult_le_compat_l; lra|apply HJ, H].
  - intros x' y' H. replace (1 * plasma_psi e' x' y' + -1 * psi (gR x') (gZ y')) with (plasma_psi e' x' y' - psi (gR x') (gZ y')) by ring. apply Hd, H.
Qed.
Print Assumptions C172_error.

(** psi = (R^2 - 1) (4 - R^2) (1 - Z^2) on 1 <= R <= 2, -1 <= Z <= 1, zero on the edges *)
Lemma Derive_n_pl a b c d e f k : forall t, Derive_n (pl a b c d e f) (S k) t = Derive_n (pl b (2 * c) (3 * d) (4 * e) (5 * f) 0) k t.
Proof.
  intros t. replace (S k) with (k + 1)%nat by lia. rewrite <- (Derive_n_comp (pl a b c d e f) k 1 t). apply Derive_n_ext. intros s. cbn [Derive_n].
  change (Derive (fun x => pl a b c d e f x) s) with (Derive (pl a b c d e f) s). rewrite Derive_pl. unfold pl. ring.
Qed.
Lemma ex_derive_n_pl k : forall a b c d e f t, ex_derive_n (pl a b c d e f) k t.
Proof.
  induction k as [|k IH]; intros a b c d e f t; [exact I|]. destruct k as [|k].
  - cbn. unfold pl. auto_derive. exact I.
  - change (ex_derive (Derive_n (pl a b c d e f) (S k)) t). apply (ex_derive_ext (Derive_n (pl b (2 * c) (3 * d) (4 * e) (5 * f) 0) k)); [intros s; symmetry; apply Derive_n_pl|].
    exact (IH b (2 * c) (3 * d) (4 * e) (5 * f) 0 t).
Qed.
Definition ex_psi (r z : R) : R := (r ^ 2 - 1) * (4 - r ^ 2) * (1 - z ^ 2).
Definition ex_K (r z : R) : R := (8 * r ^ 2 * (1 - z ^ 2) + 2 * ((r ^ 2 - 1) * (4 - r ^ 2))) / r.
Lemma ex_psi_r z t : ex_psi t z = pl (-4 * (1 - z ^ 2)) 0 (5 * (1 - z ^ 2)) 0 (- (1 - z ^ 2)) 0 t.
Proof. unfold ex_psi, pl. ring. Qed.
Lemma ex_psi_z r t : ex_psi r t = pl ((r ^ 2 - 1) * (4 - r ^ 2)) 0 (- ((r ^ 2 - 1) * (4 - r ^ 2))) 0 0 0 t.
Proof. unfold ex_psi, pl. ring. Qed.
Lemma ex_smooth : smooth_flux ex_psi 1 2 (-1) 1 48.
Proof.
  split; [|split].
  - intros r z k _ _. eapply ex_derive_n_ext; [intros t; symmetry; apply (ex_psi_r z t)|apply ex_derive_n_pl].
  - intros r z k _ _. eapply ex_derive_n_ext; [intros t; symmetry; apply (ex_psi_z r t)|apply ex_derive_n_pl].
  - intros r z Hr Hz. rewrite !(Derive_n_ext _ _ _ _ (ex_psi_r z)), (Derive_n_ext _ _ _ _ (ex_psi_z r)), !Derive_n_pl. cbn [Derive_n]. unfold pl.
    assert (0 <= 1 - z ^ 2 <= 1) by nra.
    split; [|split]; apply Rabs_le; split; nra.
Qed.
Lemma ex_equation r z : 0 < r -> GSop ex_psi r z = - 1 * r * ex_K r z.
Proof.
  intros Hr. unfold GSop. rewrite (Derive_n_ext _ _ _ _ (ex_psi_r z)), (Derive_n_ext _ _ _ _ (ex_psi_z r)), !Derive_n_pl. cbn [Derive_n].
  rewrite (Derive_ext _ _ _ (ex_psi_r z)), Derive_pl. unfold pl, ex_K. field. lra.
Qed.
Example C172_example : exists A e', let gR := gridpt 1 2 5 in let gZ := gridpt (-1) 1 5 in
  solve (fun _ => green) sqrt 1 elimination flat_spline (fun _ _ _ _ => Raise TypeError) (demo_eq BFixed A) tt (Some (fun x y => ex_K (gR x) (gZ y))) None None = Ok e' /\
  forall x y, (x < 5)%nat -> (y < 5)%nat -> Rabs (plasma_psi e' x y - ex_psi (gR x) (gZ y)) <= 19 / 20.
Proof.
  destruct demo_run as (A & H). destruct (H BFixed (or_introl eq_refl)) as (_ & HS & HE & HJ). exists A. cbv zeta.
  destruct (HJ (fun x y => ex_K (gridpt 1 2 5 x) (gridpt (-1) 1 5 y))) as (e' & E & EJ). exists e'. split; [exact E|]. intros x y Hx Hy.
  assert (H1 : 0 < 1) by lra. assert (H00 : 0 <= 0) by lra.
  eapply Rle_trans; [refine (C172_error _ _ _ _ _ _ _ _ _ _ _ _ _ _ ex_psi ex_K 48 0 0 HE HS H1 H1 E EJ ex_smooth _ _ H00 _ x y Hx Hy)|].
  - intros r z Hr _. apply ex_equation. cbn in Hr. lra.
  - intros x' y' _. cbn [e_nx e_ny Rmin Rmax Zmin Zmax demo_eq]. rewrite Rminus_diag_eq by reflexivity. rewrite Rabs_R0. lra.
  - intros x' y' Hxy. destruct (solved _ _ _ _ _ _ _ _ _ _ _ _ HE HS E EJ) as (q & Q & _ & _ & He & _). rewrite (He x' y' Hxy).
    unfold applyBoundary in Q. cbn [bnd demo_eq e_nx e_ny] in Q, Hxy |- *. cbn [Rmin Rmax Zmin Zmax demo_eq].
    destruct (proj1 (C28_fixed_boundary 5 5 (plasma_psi (demo_eq BFixed A))) ltac:(lia)) as (v & Ev & Hv). rewrite Q in Ev. apply ok_inj in Ev. subst v.
    rewrite (proj1 (Hv x' y' ltac:(apply Hxy) ltac:(apply (proj2 Hxy))) Hxy).
    replace (ex_psi (gridpt 1 2 5 x') (gridpt (-1) 1 5 y')) with 0; [rewrite Rminus_0_r, Rabs_R0; lra|].
    unfold on_edge in Hxy. unfold ex_psi, gridpt.
    assert (Hc : (x' = 0 \/ x' = 4 \/ y' = 0 \/ y' = 4)%nat) by lia. destruct Hc as [-> | [-> | [-> | ->]]]; cbn; field.
  - cbn. lra.
Qed.
