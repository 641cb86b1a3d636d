(** C216-C217: the flux a new equilibrium starts with. *)
From Coq Require Import String List Arith ZArith QArith Bool Reals Lra Lia Classical.
From Verif Require Import Py Num Numpy Romb RombProofs RombExact Multigrid MultigridProofs Gauss Coils Machine Critical CriticalSpec CriticalProofs Boundary BoundarySpec BoundaryProofs PropCritical Jtor JtorSpec JtorProofs PropJtor
  GradShafranov GradShafranovProofs Equilibrium EquilibriumSpec EquilibriumProofs EquilibriumProofs2 EquilibriumProofs3 GSSpec GS4Proofs EllipticSpec PropGreens PropBoundary FittingProofs PropSolveFlux PropSolveError PropEquilibrium2 GeqdskProofs Picard PicardProofs PropPicard PropPicardLimit PropGauge PropReturned PropTrueFlux MachineSpec MachineProofs Machines MachinesSpec MachinesProofs PropMachine PropMachines PropMachinesMade PropPicardMirror PropControlEq.
Import ListNotations.
Local Open Scope R_scope.

(** ** What the statements mean *)
(** The grid point is not on the edge of the domain. *)
Definition interior (nx ny i j : nat) : Prop := (0 < i < nx - 1)%nat /\ (0 < j < ny - 1)%nat.
(** Distance of a grid point from the middle of the domain, squared, in units of the width and of the height of the domain. *)
Definition off {P Ctl} (e : equilibrium R P Ctl) (i j : nat) : R :=
  ((grid_R e i j - (Rmin e + Rmax e) / 2) / (Rmax e - Rmin e)) ^ 2 + ((grid_Z e i j - (Zmin e + Zmax e) / 2) / (Zmax e - Zmin e)) ^ 2.
(** The same in metres. *)
Definition distance2 {P Ctl} (e : equilibrium R P Ctl) (i j : nat) : R :=
  (grid_R e i j - (Rmin e + Rmax e) / 2) ^ 2 + (grid_Z e i j - (Zmin e + Zmax e) / 2) ^ 2.
(** An equilibrium made without a flux. *)
Definition made {P Ctl} (e : equilibrium R P Ctl) : Prop :=
  exists G spline t rmin rmax zmin zmax nx ny b I ord chk, new_equilibrium G exp spline t rmin rmax zmin zmax nx ny b None I ord chk = Ok e.

Lemma guess_out nx ny i j : (i < nx)%nat -> (j < ny)%nat -> ~ interior nx ny i j -> starting_guess exp nx ny i j = 0.
Proof.
  intros Hi Hj Hn. unfold starting_guess. destruct ((i =? 0)%nat || (j =? 0)%nat || (S i =? nx)%nat || (S j =? ny)%nat)%bool eqn:E; [reflexivity|]. exfalso. apply Hn.
  repeat (apply orb_false_elim in E; destruct E as (E & ?)). rewrite !Nat.eqb_neq in *. unfold interior. lia.
Qed.
Lemma guess_in nx ny i j : interior nx ny i j ->
  starting_guess exp nx ny i j = exp (- ((gridpt 0 1 nx i - 1 / 2) ^ 2 + (gridpt 0 1 ny j - 1 / 2) ^ 2) * (25 / 4)).
Proof.
  intros (Hi & Hj). unfold starting_guess. destruct (Nat.eqb_spec i 0); [lia|]. destruct (Nat.eqb_spec j 0); [lia|]. destruct (Nat.eqb_spec (S i) nx); [lia|]. destruct (Nat.eqb_spec (S j) ny); [lia|].
  cbn [orb]. cbv zeta. nR. rewrite !linspace_gridpt. f_equal. unfold nlit, nsqr. nR. field.
Qed.
Lemma unit_pt a b n i : a < b -> (2 <= n)%nat -> gridpt 0 1 n i - 1 / 2 = (gridpt a b n i - (a + b) / 2) / (b - a).
Proof. intros Hab Hn. unfold gridpt. assert (0 < INR (n - 1)) by (apply lt_0_INR; lia). field. split; lra. Qed.

(** ** C216 *)
Theorem C216_value : forall (P Ctl : Type) (e : equilibrium R P Ctl), made e -> forall i j, (i < e_nx e)%nat -> (j < e_ny e)%nat ->
  (interior (e_nx e) (e_ny e) i j -> plasma_psi e i j = exp (- (25 / 4) * off e i j)) /\ (~ interior (e_nx e) (e_ny e) i j -> plasma_psi e i j = 0).
Proof.
  intros P Ctl e (G & spline & t & rmin & rmax & zmin & zmax & nx & ny & b & I & ord & chk & E) i j.
  destruct (new_domain _ _ _ _ _ _ _ _ _ _ _ _ _ _ _ _ E) as (_ & _ & HR & HZ).
  destruct (new_inv _ _ _ _ _ _ _ _ _ _ _ _ _ _ _ _ E) as (Hx & Hy & E1 & E2 & E3 & E4 & E5 & E6 & _ & _ & _ & _ & _ & _ & _ & _ & Ep & _).
  rewrite Ep, E1, E2. intros Hi Hj. split; [|intros Hn; apply guess_out; assumption]. intros Hin. rewrite guess_in by exact Hin. f_equal. unfold off. rewrite gridR_is, gridZ_is, E1, E2, E3, E4, E5, E6.
  rewrite <- !unit_pt by assumption. ring.
Qed.
Print Assumptions C216_value.
(** It is positive inside, at most 1, and larger where the point is nearer to the middle. *)
Theorem C216_shape : forall (P Ctl : Type) (e : equilibrium R P Ctl), made e -> forall i j, (i < e_nx e)%nat -> (j < e_ny e)%nat ->
  0 <= plasma_psi e i j <= 1 /\ (0 < plasma_psi e i j <-> interior (e_nx e) (e_ny e) i j) /\
  (forall i' j', interior (e_nx e) (e_ny e) i j -> interior (e_nx e) (e_ny e) i' j' -> (plasma_psi e i j < plasma_psi e i' j' <-> off e i' j' < off e i j)).
Proof.
  intros P Ctl e He i j Hi Hj. destruct (C216_value P Ctl e He i j Hi Hj) as (Vi & Vo).
  assert (Ho : 0 <= off e i j). { unfold off. match goal with |- 0 <= ?a ^ 2 + ?b ^ 2 => assert (A := pow2_ge_0 a); assert (B := pow2_ge_0 b); lra end. }
  split; [|split].
  - destruct (classic (interior (e_nx e) (e_ny e) i j)) as [H|H]; [rewrite (Vi H)|rewrite (Vo H); lra]. split; [left; apply exp_pos|]. rewrite <- exp_0.
    destruct (Rle_lt_or_eq_dec 0 (off e i j) Ho) as [H1|H1]; [left; apply exp_increasing; lra|right; f_equal; rewrite <- H1; ring].
  - split; [|intros H; rewrite (Vi H); apply exp_pos]. intros H. destruct (classic (interior (e_nx e) (e_ny e) i j)) as [H1|H1]; [exact H1|]. rewrite (Vo H1) in H. lra.
  - intros i' j' H1 H2. rewrite (Vi H1), (proj1 (C216_value P Ctl e He i' j' ltac:(unfold interior in H2; lia) ltac:(unfold interior in H2; lia)) H2). split.
    + intros H. apply exp_lt_inv in H. lra.
    + intros H. apply exp_increasing. lra.
Qed.
Print Assumptions C216_shape.
(** With an odd number of points both ways the greatest value is in the middle and nowhere else. *)
Theorem C216_peak : forall (P Ctl : Type) (e : equilibrium R P Ctl), made e -> forall a b, e_nx e = (2 * a + 1)%nat -> e_ny e = (2 * b + 1)%nat ->
  plasma_psi e a b = 1 /\ forall i j, (i < e_nx e)%nat -> (j < e_ny e)%nat -> (i, j) <> (a, b) -> plasma_psi e i j < 1.
Proof.
  intros P Ctl e He a b Ea Eb. pose proof He as (G & spline & t & rmin & rmax & zmin & zmax & nx & ny & bd & I & ord & chk & E).
  destruct (new_domain _ _ _ _ _ _ _ _ _ _ _ _ _ _ _ _ E) as (Hx & Hy & HR & HZ).
  destruct (new_inv _ _ _ _ _ _ _ _ _ _ _ _ _ _ _ _ E) as (_ & _ & E1 & E2 & E3 & E4 & E5 & E6 & _).
  assert (Ha : (2 <= a)%nat) by lia. assert (Hb : (2 <= b)%nat) by lia.
  assert (Mid : forall lo hi n i, lo < hi -> (2 <= n)%nat -> (gridpt lo hi (2 * n + 1) i - (lo + hi) / 2) / (hi - lo) = (INR i - INR n) / (2 * INR n)).
  { intros lo hi n i Hl Hn. unfold gridpt. replace (2 * n + 1 - 1)%nat with (2 * n)%nat by lia. rewrite mult_INR. cbn [INR]. assert (0 < INR n) by (apply lt_0_INR; lia). field. split; lra. }
  assert (Off : forall i j, off e i j = ((INR i - INR a) / (2 * INR a)) ^ 2 + ((INR j - INR b) / (2 * INR b)) ^ 2).
  { intros i j. unfold off. rewrite gridR_is, gridZ_is, Ea, Eb, E3, E4, E5, E6, !Mid by assumption. reflexivity. }
  assert (V : plasma_psi e a b = 1).
  { rewrite (proj1 (C216_value P Ctl e He a b ltac:(lia) ltac:(lia))) by (unfold interior; lia). rewrite Off, <- exp_0. f_equal. unfold Rdiv. ring. }
  split; [exact V|]. intros i j Hi Hj Hne. destruct (classic (interior (e_nx e) (e_ny e) i j)) as [Hin|Hout].
  - rewrite <- V. apply (proj2 (proj2 (C216_shape P Ctl e He i j Hi Hj)) a b Hin ltac:(unfold interior; lia)). rewrite !Off.
    assert (0 < INR a) by (apply lt_0_INR; lia). assert (0 < INR b) by (apply lt_0_INR; lia).
    replace (((INR a - INR a) / (2 * INR a)) ^ 2 + ((INR b - INR b) / (2 * INR b)) ^ 2) with 0 by (field; split; lra).
    assert (S : forall x y, 0 < INR y -> x <> y -> 0 < ((INR x - INR y) / (2 * INR y)) ^ 2).
    { intros x y Hy0 Hxy. rewrite <- Rsqr_pow2. apply Rsqr_pos_lt. unfold Rdiv. apply Rmult_integral_contrapositive. split; [apply not_INR in Hxy; lra|]. apply Rinv_neq_0_compat. lra. }
    assert (A := pow2_ge_0 ((INR i - INR a) / (2 * INR a))). assert (B := pow2_ge_0 ((INR j - INR b) / (2 * INR b))).
    destruct (Nat.eq_dec i a) as [->|Hia]; [destruct (Nat.eq_dec j b) as [->|Hjb]; [congruence|]; specialize (S j b ltac:(assumption) Hjb); lra|specialize (S i a ltac:(assumption) Hia); lra].
  - rewrite (proj2 (C216_value P Ctl e He i j Hi Hj) Hout). lra.
Qed.
Print Assumptions C216_peak.
(** It is the same above and below the middle, and left and right of it. *)
Theorem C216_mirror : forall (P Ctl : Type) (e : equilibrium R P Ctl), made e ->
  mirror (e_nx e) (e_ny e) (plasma_psi e) /\ mirror (e_ny e) (e_nx e) (fun j i => plasma_psi e i j).
Proof.
  intros P Ctl e He. pose proof He as (G & spline & t & rmin & rmax & zmin & zmax & nx & ny & b & I & ord & chk & E).
  destruct (new_inv _ _ _ _ _ _ _ _ _ _ _ _ _ _ _ _ E) as (Hx & Hy & E1 & E2 & E3 & E4 & E5 & E6 & _ & _ & _ & _ & _ & _ & _ & _ & Ep & _).
  assert (M : forall n i, (2 <= n)%nat -> (i < n)%nat -> (gridpt 0 1 n (n - 1 - i) - 1 / 2) ^ 2 = (gridpt 0 1 n i - 1 / 2) ^ 2).
  { intros n i Hn Hi. rewrite mirror_point by assumption. field. }
  rewrite Ep, E1, E2. split; intros x y Hx1 Hy1; cbv beta.
  - destruct (classic (interior nx ny x y)) as [Hin|Hout].
    + rewrite !guess_in by (try exact Hin; unfold interior in *; lia). rewrite M by assumption. reflexivity.
    + rewrite !guess_out; try assumption; try reflexivity; try lia. intros H. apply Hout. unfold interior in *. lia.
  - destruct (classic (interior nx ny y x)) as [Hin|Hout].
    + rewrite !guess_in by (try exact Hin; unfold interior in *; lia). rewrite M by assumption. reflexivity.
    + rewrite !guess_out; try assumption; try reflexivity; try lia. intros H. apply Hout. unfold interior in *. lia.
Qed.
Print Assumptions C216_mirror.
(** So a run of picard.solve from a new equilibrium of an up-down symmetric machine is up-down symmetric: nothing has to be
    assumed of the state it starts from. *)
Theorem C216_run : forall (P Ctl : Type) mu lu spline ellipk ellipe Jt t rmin rmax zmax nx ny b I chk (e : equilibrium R P Ctl) p mx my o fuel s' h,
  exact_solver lu -> 0 <= rmin -> b = BFixed \/ b = BFree ->
  new_equilibrium (green_kernel ellipk ellipe) exp spline t rmin rmax (- zmax) zmax nx ny b None I 2 chk = Ok e ->
  labels_distinct (coils t) -> symmetric (coils t) -> mirror_profile Jt e ->
  picard mx my _ (eq_ops (green_kernel ellipk ellipe) sqrt mu lu spline Jt None) o fuel (e, p) = (s', Ok h) ->
  (forall psi, total_psi (fst s') = Ok psi -> mirror nx ny psi) /\ exists J, jtor (fst s') = Some J /\ mirror nx ny J.
Proof.
  intros P Ctl mu lu spline ek ee Jt t rmin rmax zmax nx ny b I chk e p mx my o fuel s' h Hlu H0 Hb E HL Hsym HJ Ep.
  destruct (new_domain _ _ _ _ _ _ _ _ _ _ _ _ _ _ _ _ E) as (Hx4 & Hy4 & HR & HZ).
  destruct (new_inv _ _ _ _ _ _ _ _ _ _ _ _ _ _ _ _ E) as (Hx & Hy & E1 & E2 & E3 & E4 & E5 & E6 & Et & Eb & _ & _ & _ & _ & _ & _ & Epp & Epg & gen & A & Eg & EA & Es).
  rewrite <- E1, <- E2.
  destruct (C196_mirror P Ctl (green_kernel ek ee) mu lu spline ek ee Jt None mx my o fuel (e, p) s' h) as (_ & A1 & A2); cbn [fst]; try assumption.
  - unfold second_order. rewrite E1, E2, E3, E4, E5, E6. repeat split; try assumption. exists A. split; [|exact Es]. cbn [generator_of Nat.eqb] in Eg. injection Eg as <-. exact EA.
  - destruct Hb as [Hb|Hb]; [left; congruence|right; split; [congruence|reflexivity]].
  - intros f. discriminate.
  - apply C216_mirror. exists (green_kernel ek ee), spline, t, rmin, rmax, (- zmax), zmax, nx, ny, b, I, 2%nat, chk. exact E.
  - apply (C196_machine P Ctl ek ee e (coils t)); rewrite ?Et; try assumption; try reflexivity; [congruence|lia|].
    rewrite Epg. unfold grid_R, grid_Z, R_1D, Z_1D. rewrite E1, E2, E3, E4, E5, E6. reflexivity.
  - split; assumption.
Qed.
Print Assumptions C216_run.

(** A run: MAST with its coils in series and a current in P2, a profile that sets the boundary flux and a fixed boundary. *)
Lemma flat_own_coils {P Ctl} (e : equilibrium R P Ctl) v : calcPsiFromGreens (coils (tok e)) (pgreen e 0%nat 0%nat) = Ok v ->
  (4 <= e_nx e)%nat -> (4 <= e_ny e)%nat -> Rmin e < Rmax e -> Zmin e < Zmax e -> update_own flat_spline e = Ok (with_bs e (bs e)) /\ exists q, total_psi e = Ok q.
Proof.
  intros Hv Hx Hy HR HZ. assert (T : exists q, total_psi e = Ok q).
  { destruct (coils_total e (plasma_psi e) v Hv) as (q & Eq). exists q. destruct e. exact Eq. }
  split; [|exact T]. unfold update_own. destruct T as (q & ->). cbn [bind]. rewrite flat_update by assumption. reflexivity.
Qed.
Lemma flat_plasma_coils {P Ctl} (e : equilibrium R P Ctl) p v : calcPsiFromGreens (coils (tok e)) (pgreen e 0%nat 0%nat) = Ok v ->
  (4 <= e_nx e)%nat -> (4 <= e_ny e)%nat -> Rmin e < Rmax e -> Zmin e < Zmax e -> update_plasma flat_spline e (e_nx e) (e_ny e) p = Ok (with_bs (with_plasma e p) (bs e)).
Proof.
  intros Hv Hx Hy HR HZ. unfold update_plasma, eq_spline. rewrite RBS_ok; [|exact Hx|exact Hy|apply linspace_increasing; exact HR|apply linspace_increasing; exact HZ]. cbn [bind].
  exact (proj1 (flat_own_coils (with_plasma e p) v Hv Hx Hy HR HZ)).
Qed.
Lemma flat_new_coils {P Ctl} G t rmin rmax zmin zmax nx ny b psi I A chk : labels_distinct (coils t) -> (4 <= nx)%nat -> (4 <= ny)%nat -> rmin < rmax -> zmin < zmax ->
  GSsparse rmin rmax zmin zmax nx ny = Ok A ->
  exists e : equilibrium R P Ctl, new_equilibrium G exp flat_spline t rmin rmax zmin zmax nx ny b psi I 2 chk = Ok e.
Proof.
  intros HL Hx Hy HR HZ EA. unfold new_equilibrium. destruct (Nat.ltb_spec nx 2); [lia|]. destruct (Nat.ltb_spec ny 2); [lia|]. cbn [orb]. cbv zeta.
  match goal with |- context [update_plasma flat_spline ?e1 nx ny ?p] =>
    assert (Hu := flat_plasma_coils e1 p _ (cached_direct G (coils t) (coils t) (linspace rmin rmax nx 0) (linspace zmin zmax ny 0) HL eq_refl) Hx Hy HR HZ); cbn [e_nx e_ny] in Hu; rewrite Hu end.
  cbn [bind generator_of Nat.eqb]. unfold createVcycle. cbn [createVcycle_]. rewrite EA. cbn [bind]. eexists. reflexivity.
Qed.
Lemma flat_given_run {P Ctl} G mu lu Jt (e : equilibrium R P Ctl) p psi A v b0 :
  calcPsiFromGreens (coils (tok e)) (pgreen e 0%nat 0%nat) = Ok v ->
  (forall e1 psi1, exists J, Jt p e1 psi1 None = Ok (J, p, b0)) -> bnd e = BFixed -> dyadic (e_nx e) -> dyadic (e_ny e) -> (4 <= e_nx e)%nat -> (4 <= e_ny e)%nat ->
  Rmin e < Rmax e -> Zmin e < Zmax e -> slv e = SMatrix (MGDirect (e_nx e * e_ny e) A) ->
  exists e', solve G sqrt mu lu flat_spline Jt e p None (Some psi) None = Ok e' /\ bs e' = b0 /\ tok e' = tok e /\ pgreen e' = pgreen e.
Proof.
  intros Hv HJ Hb Dx Dy Hx Hy HR HZ Hs. set (e1 := with_profiles e (Some p) (control e)). set (e2 := with_bs e1 (bs e1)).
  assert (E1 : update_own flat_spline e1 = Ok e2) by (exact (proj1 (flat_own_coils e1 v Hv Hx Hy HR HZ))).
  destruct (HJ e2 psi) as (J & EJ). set (e3 := with_profiles (with_bs e2 b0) (Some p) (control e2)).
  destruct (romb2_dyadic (e_nx e) (e_ny e) J Dx Dy) as (r & Er).
  destruct (proj1 (C28_fixed_boundary (e_nx e) (e_ny e) (plasma_psi e3)) ltac:(lia)) as (q & Eq & _).
  assert (HB : applyBoundary G sqrt lu e3 J = Ok q) by (unfold applyBoundary; change (bnd e3) with (bnd e); rewrite Hb; exact Eq).
  destruct (set_edges_spec (e_nx e) (e_ny e) (fun i j => nmul (nmul (nopp mu) (grid_R e3 i j)) (J i j)) q ltac:(lia) ltac:(lia)) as (rhs & Erh & _).
  assert (SR : exists d, spacing_R (e_nx e) (e_ny e) (grid_R e) = Ok d) by (eexists; apply spacing_R_ok; lia).
  assert (SZ : exists d, spacing_Z (e_nx e) (e_ny e) (grid_Z e) = Ok d) by (eexists; apply spacing_Z_ok; lia).
  destruct SR as (dR & SR), SZ as (dZ & SZ).
  eexists. split.
  - unfold solve. fold e1. rewrite E1. cbn [bind]. rewrite EJ. cbn [bind].
    change (with_profiles (with_bs e2 b0) (Some p) (control e2)) with e3. unfold linear_solve. rewrite HB. cbn [bind]. change (e_nx e3) with (e_nx e). change (e_ny e3) with (e_ny e). rewrite Erh. cbn [bind].
    unfold callSolver. change (slv e3) with (slv e). rewrite Hs. unfold solver_call. change (e_nx e3) with (e_nx e). change (e_ny e3) with (e_ny e). cbn [mg_call]. rewrite Nat.eqb_refl. cbn [bind].
    match goal with |- context [update_plasma flat_spline e3 _ _ ?x] => pose proof (flat_plasma_coils e3 x v Hv Hx Hy HR HZ) as Hu; change (e_nx e3) with (e_nx e) in Hu; change (e_ny e3) with (e_ny e) in Hu; rewrite Hu; clear Hu end. cbn [bind].
    match goal with |- bind (romb2 ?a ?b ?c) _ = _ => change (romb2 a b c) with (romb2 (e_nx e) (e_ny e) J) end. rewrite Er. cbn [bind].
    match goal with |- bind (spacing_R ?a ?b ?c) _ = _ => change (spacing_R a b c) with (spacing_R (e_nx e) (e_ny e) (grid_R e)) end. rewrite SR. cbn [bind].
    match goal with |- bind (spacing_Z ?a ?b ?c) _ = _ => change (spacing_Z a b c) with (spacing_Z (e_nx e) (e_ny e) (grid_Z e)) end. rewrite SZ. reflexivity.
  - repeat split; reflexivity.
Qed.
Lemma flat_given_picard {P Ctl} G mu lu Jt (e : equilibrium R P Ctl) p A v b0 b :
  calcPsiFromGreens (coils (tok e)) (pgreen e 0%nat 0%nat) = Ok v ->
  (forall e1 psi1, exists J, Jt p e1 psi1 None = Ok (J, p, b0)) -> bnd e = BFixed -> dyadic (e_nx e) -> dyadic (e_ny e) -> (4 <= e_nx e)%nat -> (4 <= e_ny e)%nat ->
  Rmin e < Rmax e -> Zmin e < Zmax e -> slv e = SMatrix (MGDirect (e_nx e * e_ny e) A) -> psi_bndry b0 = Some (Some b) ->
  exists at_ s' h, picard (e_nx e) (e_ny e) _ (eq_ops G sqrt mu lu flat_spline Jt None) (plain_options None 0 at_) 1 (e, p) = (s', Ok h).
Proof.
  intros Hv HJ Hb Dx Dy Hx Hy HR HZ Hs Hbd.
  destruct (proj2 (flat_own_coils e v Hv Hx Hy HR HZ)) as (q & Eq').
  destruct (flat_given_run G mu lu Jt (with_check e false) p q A v b0 Hv HJ Hb Dx Dy Hx Hy HR HZ Hs) as (e1 & E1 & B1 & T1 & P1).
  destruct (coils_total e1 (plasma_psi e1) v) as (q1 & Eq1); [rewrite T1, P1; exact Hv|]. assert (Eq1' : total_psi e1 = Ok q1) by (destruct e1; exact Eq1). clear Eq1.
  set (m := amax (e_nx e) (e_ny e) (fun i j => Rabs (q i j - q1 i j))).
  exists (Rabs m + Rabs b + 1). do 2 eexists. unfold picard, run_constrain. cbn [constrain eq_ops]. cbn [Picard.eq_psi eq_ops fst]. rewrite Eq'.
  cbn [Picard.loop]. rewrite turn_eq. cbv zeta. cbn [flag plain_options limit_it iteration been_limited check andb orb Z.leb Z.compare user_bndry set_check eq_ops eq_solve fst snd Picard.psi].
  rewrite E1. cbn [fst bndry_flux eq_ops]. rewrite B1, Hbd. cbn [Picard.eq_psi eq_ops fst]. rewrite Eq1'.
  match goal with |- context [if ?t then _ else _] => assert (Et : t = true) end.
  { unfold test. cbn [wait plain_options negb]. rewrite andb_true_r. apply andb_true_iff. split; apply orb_true_iff.
    - left. apply R_ltb_true. unfold maxch. cbn [Picard.psi atol plain_options]. fold m. assert (X := Rle_abs m). assert (Y := Rabs_pos b). nR. lra.
    - right. cbn [newch Picard.bndry option_map below atol plain_options]. apply R_ltb_true. nR. replace (0 - b) with (- b) by ring. rewrite Rabs_Ropp. assert (X := Rabs_pos m). lra. }
  rewrite Et. reflexivity.
Qed.
Lemma powered_labels (I : string -> R) M : labels_distinct M -> labels_distinct (powered I M).
Proof.
  intros (L1 & L2). split.
  - unfold powered. rewrite map_map. exact L1.
  - unfold powered. apply Forall_map. revert L2. apply Forall_impl. intros (l, m). cbn [snd]. destruct m; intros H; try exact H.
    cbn [mc_set_current]. unfold circuit_set_current. cbn [ci_coils]. rewrite ?map_map. exact H.
Qed.
Definition keep_profile (q : unit) (e : equilibrium R unit unit) (psi : arr2 R) (_ : option R) : result (arr2 R * unit * bstate R) :=
  Ok (psi, q, mkb None (Some (Some 1)) None None None false None).
Example C216_example : forall ek ee, exists (e : equilibrium R unit unit) at_ s' h,
  let M := powered (fun l => if String.eqb l "P2" then 1000 else 0) (tk_coils MAST_sym) in
  made e /\ plasma_psi e 2%nat 2%nat = 1 /\
  new_equilibrium (green_kernel ek ee) exp flat_spline (mktok M false []) 1 2 (- (1)) 1 5 5 BFixed None 0 2 false = Ok e /\
  labels_distinct M /\ symmetric M /\ mirror_profile keep_profile e /\
  picard 5 5 _ (eq_ops (green_kernel ek ee) sqrt 1 elimination flat_spline keep_profile None) (plain_options None 0 at_) 1 (e, tt) = (s', Ok h) /\
  exists J, jtor (fst s') = Some J /\ mirror 5 5 J.
Proof.
  intros ek ee. destruct (GSsparse_rows 1 2 (- (1)) 1 5 5) as (A & EA & _). set (I := fun l => if String.eqb l "P2" then 1000 else 0).
  assert (L0 : labels_distinct (powered I (tk_coils MAST_sym))) by (apply powered_labels, C137_labels; constructor).
  assert (SY : symmetric (powered I (tk_coils MAST_sym))) by (apply (C138_MAST_sym I); reflexivity).
  set (M := powered I (tk_coils MAST_sym)) in *. clearbody M.
  destruct (flat_new_coils (P := unit) (Ctl := unit) (green_kernel ek ee) (mktok M false []) 1 2 (- (1)) 1 5 5 BFixed None 0 A false L0 ltac:(lia) ltac:(lia) ltac:(lra) ltac:(lra) EA) as (e & E).
  destruct (new_inv _ _ _ _ _ _ _ _ _ _ _ _ _ _ _ _ E) as (_ & _ & E1 & E2 & E3 & E4 & E5 & E6 & Et & Eb & _ & _ & _ & _ & _ & _ & _ & Epg & gen & A' & _ & _ & Es).
  assert (HM : made e) by (do 13 eexists; exact E). assert (D5 : dyadic 5) by (exists 2%nat; reflexivity).
  assert (HP : mirror_profile keep_profile e). { intros p e1 psi pb J p' b _ Hm EJ. injection EJ as <- _ _. exact Hm. }
  destruct (flat_given_picard (green_kernel ek ee) 1 elimination keep_profile e tt A' (response_sum (green_kernel ek ee) FPsi M (linspace 1 2 5 0) (linspace (- (1)) 1 5 0), machine_sync M) (mkb None (Some (Some 1)) None None None false None) 1) as (at_ & s' & h & Ep);
    rewrite ?E1, ?E2, ?E3, ?E4, ?E5, ?E6; try assumption; try exact D5; try lia; try lra; try reflexivity.
  { rewrite Et, Epg. apply cached_direct; [exact L0|reflexivity]. }
  { intros e1 psi1. exists psi1. reflexivity. }
  rewrite E1, E2 in Ep. exists e, at_, s', h. cbv zeta. split; [exact HM|]. split; [exact (proj1 (C216_peak _ _ e HM 2 2 E1 E2))|]. split; [exact E|]. split; [exact L0|]. split; [exact SY|]. split; [exact HP|]. split; [exact Ep|].
  exact (proj2 (C216_run unit unit 1 elimination flat_spline ek ee keep_profile (mktok M false []) 1 2 1 5 5 BFixed 0 false e tt 5 5 (plain_options None 0 at_) 1 s' h elimination_exact ltac:(lra) (or_introl eq_refl) E L0 SY HP Ep)).
Qed.

(** ** C217 *)
(** The surfaces are circles on a square domain ... *)
Theorem C217_square : forall (P Ctl : Type) (e : equilibrium R P Ctl), made e -> Rmax e - Rmin e = Zmax e - Zmin e -> forall i j i' j',
  interior (e_nx e) (e_ny e) i j -> interior (e_nx e) (e_ny e) i' j' -> (plasma_psi e i j = plasma_psi e i' j' <-> distance2 e i j = distance2 e i' j').
Proof.
  intros P Ctl e He Hsq i j i' j' H1 H2.
  rewrite (proj1 (C216_value P Ctl e He i j ltac:(unfold interior in H1; lia) ltac:(unfold interior in H1; lia)) H1).
  rewrite (proj1 (C216_value P Ctl e He i' j' ltac:(unfold interior in H2; lia) ltac:(unfold interior in H2; lia)) H2).
  destruct He as (G & spline & t & rmin & rmax & zmin & zmax & nx & ny & b & I & ord & chk & E).
  destruct (new_domain _ _ _ _ _ _ _ _ _ _ _ _ _ _ _ _ E) as (_ & _ & HR & HZ). destruct (new_inv _ _ _ _ _ _ _ _ _ _ _ _ _ _ _ _ E) as (_ & _ & _ & _ & E3 & E4 & E5 & E6 & _).
  assert (D : 0 < Rmax e - Rmin e) by (rewrite E3, E4; lra).
  assert (O : forall x y, off e x y = distance2 e x y / (Rmax e - Rmin e) ^ 2). { intros x y. unfold off, distance2. rewrite <- Hsq. field. lra. }
  rewrite !O. split.
  - intros H. apply exp_inv in H. apply (Rmult_eq_reg_r (/ (Rmax e - Rmin e) ^ 2)); [unfold Rdiv in H; lra|]. apply Rinv_neq_0_compat, pow_nonzero. lra.
  - intros ->. reflexivity.
Qed.
Print Assumptions C217_square.
(** ... and ellipses as elongated as the domain otherwise. *)
Theorem C217_circles_refuted : exists (e : equilibrium R unit unit) i j i' j', made e /\ interior (e_nx e) (e_ny e) i j /\ interior (e_nx e) (e_ny e) i' j' /\
  distance2 e i j = distance2 e i' j' /\ plasma_psi e i j < plasma_psi e i' j'.
Proof.
  destruct (GSsparse_rows 1 2 (- (2)) 2 5 17) as (A & EA & _).
  destruct (flat_new_coils (P := unit) (Ctl := unit) (fun _ _ _ _ _ => 0) (mktok [] false []) 1 2 (- (2)) 2 5 17 BFree None 0 A false ltac:(split; constructor) ltac:(lia) ltac:(lia) ltac:(lra) ltac:(lra) EA) as (e & E).
  destruct (new_inv _ _ _ _ _ _ _ _ _ _ _ _ _ _ _ _ E) as (_ & _ & E1 & E2 & E3 & E4 & E5 & E6 & _).
  assert (HM : made e) by (do 13 eexists; exact E).
  assert (GR : forall i j, grid_R e i j = 1 + INR i / 4). { intros i j. rewrite gridR_is, E1, E3, E4. unfold gridpt. cbn [Nat.sub INR]. field. }
  assert (GZ : forall i j, grid_Z e i j = - 2 + INR j / 4). { intros i j. rewrite gridZ_is, E2, E5, E6. unfold gridpt. cbn [Nat.sub]. replace (INR 16) with 16 by (cbn [INR]; lra). field. }
  exists e, 3%nat, 8%nat, 2%nat, 9%nat. assert (I1 : interior (e_nx e) (e_ny e) 3 8) by (rewrite E1, E2; unfold interior; lia). assert (I2 : interior (e_nx e) (e_ny e) 2 9) by (rewrite E1, E2; unfold interior; lia).
  split; [exact HM|]. split; [exact I1|]. split; [exact I2|]. split.
  - unfold distance2. rewrite !GR, !GZ, E3, E4, E5, E6. cbn [INR]. field.
  - apply (proj2 (proj2 (C216_shape unit unit e HM 3 8 ltac:(rewrite E1; lia) ltac:(rewrite E2; lia))) 2%nat 9%nat I1 I2).
    assert (O1 : off e 2 9 = 1 / 256) by (unfold off; rewrite !GR, !GZ, E3, E4, E5, E6; cbn [INR]; field).
    assert (O2 : off e 3 8 = 1 / 16) by (unfold off; rewrite !GR, !GZ, E3, E4, E5, E6; cbn [INR]; field). rewrite O1, O2. lra.
Qed.
Print Assumptions C217_circles_refuted.
