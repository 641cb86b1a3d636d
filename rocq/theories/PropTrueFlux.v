(** C188-C189: the flux returned by the Picard iteration and the solution of the Grad-Shafranov equation. *)
From Coq Require Import String List Arith ZArith QArith Bool Reals Lia Lra FunctionalExtensionality.
From Coquelicot Require Import Coquelicot.
From Verif Require DiagnosticsProofs.
From Verif Require Import GSConsistency.
From Verif Require Import Py Num Numpy Linalg GradShafranov GradShafranovProofs Multigrid Coils Machine MachineSpec Critical Romb RombProofs RombExact Boundary BoundarySpec BoundaryProofs
  Equilibrium EquilibriumSpec EquilibriumProofs EquilibriumProofs2 EquilibriumProofs3 GSSpec Gauss EllipticSpec PropGreens PropBoundary PropEquilibrium PropSolveFlux PropSolveError FittingProofs Picard PicardProofs PropPicard PropPicardLimit PropFixedPoint PropRombError.
Import ListNotations.
Local Open Scope R_scope.

(** ** C188 *)
(** A flux that solving changes by at most tau. *)
Definition nearly {E} nx ny (o : ops (T := R) E) pb (S : E -> Prop) (psi : arr2 R) (tau : R) : Prop :=
  forall e e' psi', S e -> eq_solve E o e psi pb = (e', Ok tt) -> eq_psi E o e' = Ok psi' -> within nx ny psi' psi tau.
(** It is within tau / (1 - q) of the equilibrium flux, and what picard.solve returns is within (tau + q m) / (1 - q) of it,
    m the last change. *)
Theorem C188_near : forall nx ny E (o : ops (T := R) E) p (S : E -> Prop) q L tau psiT e,
  (0 < nx)%nat -> (0 < ny)%nat -> contracts nx ny o (user_bndry p) S q L -> 0 <= q < 1 -> S e -> nearly nx ny o (user_bndry p) S psiT tau ->
  (forall psi, equilibrium_flux nx ny o (user_bndry p) S psi -> within nx ny psi psiT (tau / (1 - q))) /\
  (forall fuel e' h psi1, constrain E o = None -> check p = false -> picard nx ny E o p fuel e = (e', Ok h) -> eq_psi E o e' = Ok psi1 ->
   exists m hs r, h = hs ++ [(m, r)] /\ 0 <= m /\ (m < atol p \/ m < rtol p * (amax nx ny psi1 - amin nx ny psi1)) /\
   within nx ny psi1 psiT ((tau + q * m) / (1 - q))).
Proof.
  intros nx ny E o p S q L tau psiT e Hx Hy HC Hq He Hn.
  assert (H1 : forall psi, equilibrium_flux nx ny o (user_bndry p) S psi -> within nx ny psi psiT (tau / (1 - q))).
  { intros psi Hp.
    set (w := mkvars psi 0 0 None false []). set (d := maxch nx ny w psiT).
    assert (Wd := maxch_within nx ny w psiT Hx Hy). fold d in Wd. cbn [Picard.psi w] in Wd.
    destruct (Hp e He) as (e1 & psi1 & Es1 & Ep1 & Hfix).
    destruct HC as (C1 & C2 & C3). destruct (C2 e psi He) as (e1' & psi1' & b1 & Es1' & _ & _ & Eb1). rewrite Es1 in Es1'. injection Es1' as <-.
    destruct (C2 e psiT He) as (e2 & psi2 & b2 & Es2 & _ & Ep2 & Eb2).
    destruct (C3 _ _ _ _ _ _ _ _ _ _ _ He He Wd Es1 Ep1 Eb1 Es2 Ep2 Eb2) as (W & _). assert (T := Hn _ _ _ He Es2 Ep2).
    assert (Hd : d <= tau + q * d).
    { apply (within_maxch nx ny w psiT); try assumption. intros i j Hi Hj. cbn [Picard.psi w]. specialize (W i j Hi Hj). specialize (T i j Hi Hj). rewrite Hfix in W by assumption.
      replace (psi i j - psiT i j) with ((psi i j - psi2 i j) + (psi2 i j - psiT i j)) by ring. eapply Rle_trans; [apply Rabs_triang|]. lra. }
    intros i j Hi Hj. eapply Rle_trans; [exact (Wd i j Hi Hj)|]. apply Rmult_le_reg_r with (1 - q); [lra|]. unfold Rdiv. rewrite Rmult_assoc, Rinv_l, Rmult_1_r by lra. lra. }
  split; [exact H1|]. intros fuel e' h psi1 Hcon Hchk Epic Ep.
  destruct (C186_exists_unique nx ny E o (user_bndry p) S q L e Hx Hy HC Hq He) as (psis & Hs & _).
  destruct (C177_accuracy nx ny E o p S q L fuel e e' h psi1 Hx Hy HC Hq Hcon Hchk He Epic Ep) as (m & hs & r & Eh & M0 & M1 & A).
  exists m, hs, r. split; [exact Eh|]. split; [exact M0|]. split; [exact M1|].
  destruct (Hs e He) as (f & psi' & F1 & F2 & F3).
  replace ((tau + q * m) / (1 - q)) with (q / (1 - q) * m + tau / (1 - q)) by (field; lra).
  apply within_trans with psis; [exact (A _ _ _ _ He F1 F2 F3)|exact (H1 psis Hs)].
Qed.
Print Assumptions C188_near.

(** A plasma flux [psi] with the current density [K]: the Grad-Shafranov equation on the domain, bounded third and fourth derivatives. *)
Definition gs_solution {P Ctl} (mu : R) (e0 : equilibrium R P Ctl) (psi K : R -> R -> R) (M : R) : Prop :=
  smooth_flux psi (Rmin e0) (Rmax e0) (Zmin e0) (Zmax e0) M /\
  forall r z, Rmin e0 <= r <= Rmax e0 -> Zmin e0 <= z <= Zmax e0 -> GSop psi r z = - mu * r * K r z.
(** The truncation error of the second-order operator. *)
Definition truncation {P Ctl} (e0 : equilibrium R P Ctl) (M : R) : R :=
  let dR := (Rmax e0 - Rmin e0) / INR (e_nx e0 - 1) in let dZ := (Zmax e0 - Zmin e0) / INR (e_ny e0 - 1) in
  M * (dR ^ 2 / 12 + dZ ^ 2 / 12 + (dR ^ 2 / 6 + dR ^ 3 / 24) / Rmin e0).
(** [psi] and the flux [c] of the coils at the grid points. *)
Definition sampled {P Ctl} (e0 : equilibrium R P Ctl) (psi : R -> R -> R) (c : arr2 R) : arr2 R :=
  fun i j => psi (gridpt (Rmin e0) (Rmax e0) (e_nx e0) i) (gridpt (Zmin e0) (Zmax e0) (e_ny e0) j) + c i j.
Definition coil_flux {P Ctl} (e0 : equilibrium R P Ctl) (c : arr2 R) : Prop :=
  forall e q, tok e = tok e0 -> pgreen e = pgreen e0 -> total_psi e = Ok q -> forall i j, q i j = plasma_psi (P := P) (Ctl := Ctl) e i j + c i j.

(** Fixed boundary: the sampled solution is nearly kept by a solve, if the profile computes its current density to within D and it is
    within d of 0 at the edge points. *)
Theorem C188_consistent : forall (P Ctl : Type) G mu lu spline
    (Jt : P -> equilibrium R P Ctl -> (nat -> nat -> R) -> option R -> result ((nat -> nat -> R) * P * bstate R))
    (S : equilibrium R P Ctl * P -> Prop) e0 (Q : P -> Prop) pb psi K M c d D,
  let gR := gridpt (Rmin e0) (Rmax e0) (e_nx e0) in let gZ := gridpt (Zmin e0) (Zmax e0) (e_ny e0) in
  exact_solver lu -> 0 < mu -> 0 < Rmin e0 -> (forall s, S s -> like e0 (fst s) /\ Q (snd s)) ->
  gs_solution mu e0 psi K M -> coil_flux e0 c ->
  (forall p e J p' b, Q p -> like e0 e -> Jt p e (sampled e0 psi c) pb = Ok (J, p', b) -> forall x y, inside (e_nx e0) (e_ny e0) x y -> Rabs (J x y - K (gR x) (gZ y)) <= D) -> 0 <= D ->
  (forall x y, on_edge (e_nx e0) (e_ny e0) x y -> Rabs (psi (gR x) (gZ y)) <= d) ->
  nearly (e_nx e0) (e_ny e0) (eq_ops G sqrt mu lu spline Jt None) pb S (sampled e0 psi c)
    (d + (Zmax e0 - Zmin e0) ^ 2 / 8 * (truncation e0 M + mu * Rmax e0 * D)).
Proof.
  intros P Ctl G mu lu spline Jt S e0 Q pb psi K M c d D gR gZ Hlu Hmu Hpos HS (Hsm & HK) Hc HJ HD Hd s s' psi' Hs Es Ep.
  cbn [eq_solve eq_ops Picard.eq_psi] in Es, Ep.
  destruct (solve G sqrt mu lu spline Jt (fst s) (snd s) None (Some (sampled e0 psi c)) pb) as [e1|] eqn:E1; [|discriminate]. injection Es as <-. cbn [fst] in Ep.
  destruct (HS s Hs) as (L1 & Q1). assert (L1' := L1). destruct L1 as (D1 & SO & B & T & Pg). injection D1 as N N' A A' C C'.
  destruct (solve_inv _ _ _ _ _ _ _ _ _ _ _ _ E1) as (ea & J & p1 & rhs & x & p1' & I1 & dR & dZ & c1 & Ea & (ba & bx & pa & Hpa & EJ) & _ & _ & _ & _ & _ & _ & _ & Ee).
  subst pa ea.
  assert (HJd : forall x y, inside (e_nx e0) (e_ny e0) x y -> Rabs (J x y - K (gR x) (gZ y)) <= D) by (refine (HJ _ _ _ _ _ Q1 _ EJ); exact L1').
  assert (JT : jtor e1 = Some J) by (rewrite Ee; reflexivity).
  assert (He := C172_error P Ctl G mu lu spline Jt (fst s) e1 (snd s) None (Some (sampled e0 psi c)) pb J psi K M d D). cbv zeta in He. rewrite N, N', A, A', C, C' in He. fold gR gZ in He.
  specialize (He Hlu SO Hmu Hpos E1 JT Hsm HK HJd HD).
  assert (Hed : forall x y, on_edge (e_nx e0) (e_ny e0) x y -> Rabs (plasma_psi e1 x y - psi (gR x) (gZ y)) <= d).
  { intros u v Huv. destruct (PropSolveFlux.solved G mu lu spline Jt (fst s) e1 _ _ _ _ J Hlu SO E1 JT) as (q & Eq & Hnx & Hny & Hq & _).
    rewrite N, N' in *. rewrite Hq by exact Huv. unfold applyBoundary in Eq. rewrite B, N, N' in Eq.
    destruct (proj1 (C28_fixed_boundary (e_nx e0) (e_ny e0) (plasma_psi (fst s))) ltac:(lia)) as (q' & Eq' & Hq'). rewrite Eq in Eq'. apply ok_inj in Eq'. subst q'.
    rewrite (proj1 (Hq' u v ltac:(unfold on_edge in Huv; lia) ltac:(unfold on_edge in Huv; lia)) Huv). rewrite Rminus_0_l, Rabs_Ropp. apply Hd, Huv. }
  specialize (He Hed). intros i j Hi Hj. specialize (He i j Hi Hj).
  assert (T1 : tok e1 = tok e0) by (rewrite Ee; exact T). assert (T2 : pgreen e1 = pgreen e0) by (rewrite Ee; exact Pg).
  rewrite (Hc e1 psi' T1 T2 Ep i j). unfold sampled. fold gR gZ.
  replace (plasma_psi e1 i j + c i j - (psi (gR i) (gZ j) + c i j)) with (plasma_psi e1 i j - psi (gR i) (gZ j)) by ring. exact He.
Qed.
Print Assumptions C188_consistent.
(** So picard.solve with the fixed boundary returns the solution of the Grad-Shafranov equation up to the truncation error, the
    error of the profile and the tolerance, each divided by 1 - q. *)
Theorem C188_fixed : forall (P Ctl : Type) G mu lu spline
    (Jt : P -> equilibrium R P Ctl -> (nat -> nat -> R) -> option R -> result ((nat -> nat -> R) * P * bstate R))
    (S : equilibrium R P Ctl * P -> Prop) e0 (Q : P -> Prop) K L p s psi Jc M c d D,
  let run s psi := solve G sqrt mu lu spline Jt (fst s) (snd s) None (Some psi) (user_bndry p) in
  let after s e' := (e', match profiles e' with Some q => q | None => snd s end) in
  let gR := gridpt (Rmin e0) (Rmax e0) (e_nx e0) in let gZ := gridpt (Zmin e0) (Zmax e0) (e_ny e0) in
  let q := mu * Rmax e0 * ((Zmax e0 - Zmin e0) ^ 2 / 8) * K in
  exact_solver lu -> 0 < mu -> 0 <= K -> 0 < Rmin e0 -> Rmin e0 < Rmax e0 ->
  (forall s, S s -> like e0 (fst s) /\ Q (snd s) /\ S (with_check (fst s) false, snd s)) ->
  (forall s psi, S s -> exists e' b, run s psi = Ok e' /\ S (after s e') /\ psi_bndry (bs e') = Some (Some b)) ->
  (forall s1 s2 psi1 psi2 e1 e2 b1 b2 d, S s1 -> S s2 -> within (e_nx e0) (e_ny e0) psi1 psi2 d -> run s1 psi1 = Ok e1 -> run s2 psi2 = Ok e2 ->
     psi_bndry (bs e1) = Some (Some b1) -> psi_bndry (bs e2) = Some (Some b2) -> Rabs (b1 - b2) <= L * d) ->
  lipschitz_profile Jt e0 Q (user_bndry p) K -> (0 < e_nx e0)%nat -> (0 < e_ny e0)%nat -> q < 1 -> S s ->
  gs_solution mu e0 psi Jc M -> coil_flux e0 c ->
  (forall p1 e J p' b, Q p1 -> like e0 e -> Jt p1 e (sampled e0 psi c) (user_bndry p) = Ok (J, p', b) -> forall x y, inside (e_nx e0) (e_ny e0) x y -> Rabs (J x y - Jc (gR x) (gZ y)) <= D) -> 0 <= D ->
  (forall x y, on_edge (e_nx e0) (e_ny e0) x y -> Rabs (psi (gR x) (gZ y)) <= d) ->
  forall fuel s' h psi1, check p = false ->
  picard (e_nx e0) (e_ny e0) _ (eq_ops G sqrt mu lu spline Jt None) p fuel s = (s', Ok h) -> total_psi (fst s') = Ok psi1 ->
  exists m hs r, h = hs ++ [(m, r)] /\ 0 <= m /\ (m < atol p \/ m < rtol p * (amax (e_nx e0) (e_ny e0) psi1 - amin (e_nx e0) (e_ny e0) psi1)) /\
  forall i j, (i < e_nx e0)%nat -> (j < e_ny e0)%nat ->
    Rabs (psi1 i j - sampled e0 psi c i j) <= (d + (Zmax e0 - Zmin e0) ^ 2 / 8 * (truncation e0 M + mu * Rmax e0 * D) + q * m) / (1 - q).
Proof.
  intros P Ctl G mu lu spline Jt S e0 Q K L p s psi Jc M c d D run after gR gZ q Hlu Hmu HK Hpos HR HS Hrun Hbd HJ Hnx Hny Hq1 Hs Hgs Hc HJc HD Hd fuel s' h psi1 Hchk Epic Ep.
  assert (HC := C178_contracts P Ctl G mu lu spline Jt S e0 Q (user_bndry p) K L Hlu Hmu HK HS Hrun Hbd HJ Hnx Hny). fold q in HC.
  assert (Hq : 0 <= q < 1).
  { split; [|exact Hq1]. unfold q. assert (X := pow2_ge_0 (Zmax e0 - Zmin e0)). apply Rmult_le_pos; [|exact HK]. apply Rmult_le_pos; [apply Rmult_le_pos; lra|lra]. }
  assert (HN := C188_consistent P Ctl G mu lu spline Jt S e0 Q (user_bndry p) psi Jc M c d D Hlu Hmu Hpos (fun s Hs => conj (proj1 (HS s Hs)) (proj1 (proj2 (HS s Hs)))) Hgs Hc HJc HD Hd).
  exact (proj2 (C188_near _ _ _ _ p S q L _ _ s Hnx Hny HC Hq Hs HN) fuel s' h psi1 eq_refl Hchk Epic Ep).
Qed.
Print Assumptions C188_fixed.
(** A profile that computes the current density from the flux alone, on a grid of n x n points on the domain of C178. *)
Definition from_flux (f : arr2 R -> arr2 R) (q : unit) (e : equilibrium R unit unit) (psi : arr2 R) (_ : option R) : result (arr2 R * unit * bstate R) := Ok (f psi, q, bs e).
Definition box_eq (n : nat) b (A : nat -> nat -> R) : equilibrium R unit unit :=
  mkeq n n 1 2 (-1) 1 (mktok [] false []) b 2 (SMatrix (MGDirect (n * n) A)) false (fun _ _ => 0) (fun i j => []) 0 None (mkb None (Some (Some 1)) None None None false None) None None.
Definition box_state (n : nat) b (A : nat -> nat -> R) (s : equilibrium R unit unit * unit) : Prop :=
  ((e_nx (fst s), e_ny (fst s), Rmin (fst s), Rmax (fst s), Zmin (fst s), Zmax (fst s)) = (n, n, 1, 2, -1, 1) /\ second_order (fst s) /\ bnd (fst s) = b /\ tok (fst s) = mktok [] false [] /\ pgreen (fst s) = fun i j => []) /\
  slv (fst s) = SMatrix (MGDirect (n * n) A) /\ psi_bndry (bs (fst s)) = Some (Some 1).
Lemma box_run n G lu f b A s psi : dyadic n -> (4 <= n)%nat -> b = BFixed \/ b = BFree -> box_state n b A s -> exists e', solve G sqrt 1 lu flat_spline (from_flux f) (fst s) (snd s) None (Some psi) None = Ok e' /\
  box_state n b A (e', match profiles e' with Some q => q | None => snd s end).
Proof.
  intros Dn Hn Hbb. destruct s as (e, u). cbn [fst snd]. intros ((D & SO & Hb & Ht & Hp) & Hs & Hbd). cbn [fst snd] in *. injection D as N M A1 A2 A3 A4.
  assert (Hc : coils (tok e) = []) by (rewrite Ht; reflexivity).
  set (J := f psi).
  destruct (romb2_dyadic n n J Dn Dn) as (r & Er).
  set (e1 := with_profiles e (Some u) (control e)). set (e2 := with_bs e1 (bs e1)). set (e3 := with_profiles (with_bs e2 (bs e2)) (Some u) (control e2)).
  assert (HB : exists q, applyBoundary G sqrt lu e3 J = Ok q).
  { unfold applyBoundary. change (bnd e3) with (bnd e). change (e_nx e3) with (e_nx e). change (e_ny e3) with (e_ny e). rewrite Hb, N, M. destruct Hbb as [-> | ->].
    - destruct (proj1 (C28_fixed_boundary n n (plasma_psi e3)) ltac:(lia)) as (q & Eq & _). exists q. exact Eq.
    - destruct (freeBoundary_spec (G FPsi) n n (grid_R e3) (grid_Z e3) J (plasma_psi e3) Dn Dn) as (q & Eq & _). exists q. exact Eq. }
  destruct HB as (q & Eq).
  destruct (set_edges_spec n n (fun i j => nmul (nmul (nopp 1) (grid_R e3 i j)) (J i j)) q ltac:(lia) ltac:(lia)) as (rhs & Erh & _).
  assert (SR : exists d, spacing_R (e_nx e) (e_ny e) (grid_R e) = Ok d) by (eexists; apply spacing_R_ok; lia).
  assert (SZ : exists d, spacing_Z (e_nx e) (e_ny e) (grid_Z e) = Ok d) by (eexists; apply spacing_Z_ok; lia).
  destruct SR as (dR & SR), SZ as (dZ & SZ).
  assert (E1 : update_own flat_spline e1 = Ok e2) by (apply flat_own; cbn [tok e_nx e_ny Rmin Rmax Zmin Zmax e1 with_profiles]; rewrite ?N, ?M, ?A1, ?A2, ?A3, ?A4; try lia; try lra; exact Hc).
  eexists. split.
  - unfold solve. fold e1. rewrite E1. cbn [bind]. unfold from_flux at 1. cbn [bind]. fold J.
    change (with_profiles (with_bs e2 (bs e2)) (Some u) (control e2)) with e3. unfold linear_solve. rewrite Eq. cbn [bind]. change (e_nx e3) with (e_nx e). change (e_ny e3) with (e_ny e). rewrite N, M. rewrite Erh. cbn [bind].
    unfold callSolver. change (slv e3) with (slv e). rewrite Hs. unfold solver_call. change (e_nx e3) with (e_nx e). change (e_ny e3) with (e_ny e). rewrite N, M. cbn [mg_call]. rewrite Nat.eqb_refl. cbn [bind].
    assert (U := fun x => flat_update_plasma e3 x). cbn [e_nx e_ny Rmin Rmax Zmin Zmax tok e3 e2 e1 with_profiles with_bs] in U. rewrite N, M, A1, A2, A3, A4 in U.
    rewrite U; [|lia|lia|lra|lra|exact Hc]. cbn [bind].
    match goal with |- bind (romb2 ?a ?b ?c) _ = _ => change (romb2 a b c) with (romb2 (e_nx e) (e_ny e) J) end. rewrite N, M, Er. cbn [bind].
    match goal with |- bind (spacing_R ?a ?b ?c) _ = _ => change (spacing_R a b c) with (spacing_R (e_nx e) (e_ny e) (grid_R e)) end. rewrite SR. cbn [bind].
    match goal with |- bind (spacing_Z ?a ?b ?c) _ = _ => change (spacing_Z a b c) with (spacing_Z (e_nx e) (e_ny e) (grid_Z e)) end. rewrite SZ. reflexivity.
  - split; [|split; [exact Hs|exact Hbd]]. split; [cbn; congruence|]. split; [exact SO|]. split; [exact Hb|]. split; [exact Ht|exact Hp].
Qed.
Lemma no_coil_flux (e0 : equilibrium R unit unit) : coils (tok e0) = [] -> coil_flux e0 (fun _ _ => 0).
Proof. intros H e q T _ E i j. destruct (no_coils_psi e) as (q' & E' & Hq); [rewrite T; exact H|]. rewrite E in E'. apply ok_inj in E'. subst q'. rewrite Hq. ring. Qed.
Lemma box_bndry n G lu f b A s1 s2 psi1 psi2 e1 e2 b1 b2 : dyadic n -> (4 <= n)%nat -> b = BFixed \/ b = BFree -> box_state n b A s1 -> box_state n b A s2 ->
  solve G sqrt 1 lu flat_spline (from_flux f) (fst s1) (snd s1) None (Some psi1) None = Ok e1 -> solve G sqrt 1 lu flat_spline (from_flux f) (fst s2) (snd s2) None (Some psi2) None = Ok e2 ->
  psi_bndry (bs e1) = Some (Some b1) -> psi_bndry (bs e2) = Some (Some b2) -> b1 = b2.
Proof.
  intros Dn Hn Hb H1 H2 E1 E2 B1 B2. destruct (box_run n G lu f b A s1 psi1 Dn Hn Hb H1) as (e1' & E1' & S1). destruct (box_run n G lu f b A s2 psi2 Dn Hn Hb H2) as (e2' & E2' & S2).
  rewrite E1 in E1'. apply ok_inj in E1'. subst e1'. rewrite E2 in E2'. apply ok_inj in E2'. subst e2'.
  assert (X1 := proj2 (proj2 S1)). assert (X2 := proj2 (proj2 S2)). cbn [fst] in X1, X2. congruence.
Qed.
(** psi = (R^2 - 1) (4 - R^2) (1 - Z^2) with a current density that increases by a tenth of the flux: q is 1/10, and on 5 x 5 points
    and with an absolute tolerance of 1/100 the flux returned is within 1 of psi, which reaches 9/4. *)
Definition ex_profile (psi : arr2 R) : arr2 R := fun i j => let r := gridpt 1 2 5 i in let z := gridpt (-1) 1 5 j in ex_K r z + (psi i j - ex_psi r z) / 10.
Example C188_example : exists A n, forall fuel, (n < fuel)%nat -> exists s' h psi1,
  picard 5 5 _ (eq_ops (fun _ => green) sqrt 1 elimination flat_spline (from_flux ex_profile) None) (plain_options None 0 (1 / 100)) fuel (box_eq 5 BFixed A, tt) = (s', Ok h) /\
  total_psi (fst s') = Ok psi1 /\ forall i j, (i < 5)%nat -> (j < 5)%nat -> Rabs (psi1 i j - ex_psi (gridpt 1 2 5 i) (gridpt (-1) 1 5 j)) <= 1.
Proof.
  destruct (GSsparse_rows 1 2 (-1) 1 5 5) as (A & EA & _). exists A.
  assert (D5 : dyadic 5) by (exists 2%nat; reflexivity). assert (H4 : (4 <= 5)%nat) by lia. set (S := box_state 5 BFixed A). set (e0 := box_eq 5 BFixed A).
  assert (HS0 : S (e0, tt)).
  { split; [|split; reflexivity]. repeat (split; [reflexivity|]). split; [|repeat split; reflexivity]. cbn [fst]. unfold second_order. cbn [Rmin Rmax Zmin Zmax e_nx e_ny slv e0 box_eq].
    repeat (split; [lra|]). exists A. split; [exact EA|reflexivity]. }
  assert (HS : forall s, S s -> like e0 (fst s) /\ (fun _ : unit => True) (snd s) /\ S (with_check (fst s) false, snd s)).
  { intros s Hs. split; [exact (proj1 Hs)|]. split; [exact I|exact Hs]. }
  assert (Hrun : forall s psi, S s -> exists e' b, solve (fun _ => green) sqrt 1 elimination flat_spline (from_flux ex_profile) (fst s) (snd s) None (Some psi) None = Ok e' /\
     S (e', match profiles e' with Some q => q | None => snd s end) /\ psi_bndry (bs e') = Some (Some b)).
  { intros s psi Hs. destruct (box_run 5 (fun _ => green) elimination ex_profile BFixed A s psi D5 H4 (or_introl eq_refl) Hs) as (e' & E1 & E2). exists e', 1. split; [exact E1|]. split; [exact E2|]. exact (proj2 (proj2 E2)). }
  assert (Hbd : forall s1 s2 psi1 psi2 e1 e2 b1 b2 d, S s1 -> S s2 -> within 5 5 psi1 psi2 d ->
     solve (fun _ => green) sqrt 1 elimination flat_spline (from_flux ex_profile) (fst s1) (snd s1) None (Some psi1) None = Ok e1 ->
     solve (fun _ => green) sqrt 1 elimination flat_spline (from_flux ex_profile) (fst s2) (snd s2) None (Some psi2) None = Ok e2 ->
     psi_bndry (bs e1) = Some (Some b1) -> psi_bndry (bs e2) = Some (Some b2) -> Rabs (b1 - b2) <= 0 * d).
  { intros s1 s2 psi1 psi2 e1 e2 b1 b2 d H1 H2 _ E1 E2 B1 B2. rewrite (box_bndry _ _ _ _ _ _ _ _ _ _ _ _ _ _ D5 H4 (or_introl eq_refl) H1 H2 E1 E2 B1 B2), Rminus_diag_eq by reflexivity. rewrite Rabs_R0. lra. }
  assert (HJ : lipschitz_profile (from_flux ex_profile) e0 (fun _ => True) None (1 / 10)).
  { intros p1 p2 e1 e2 psi1 psi2 J1 J2 p1' p2' b1 b2 d _ _ _ _ Hw E1 E2 x y Hxy. injection E1 as <- _ _. injection E2 as <- _ _. unfold ex_profile.
    match goal with |- Rabs ?a <= _ => replace a with (/ 10 * (psi1 x y - psi2 x y)) by field end. rewrite Rabs_mult, (Rabs_right (/ 10)) by lra.
    assert (H := Hw x y ltac:(unfold inside in Hxy; lia) ltac:(unfold inside in Hxy; lia)). lra. }
  assert (Hgs : gs_solution 1 e0 ex_psi ex_K 48).
  { split; [exact ex_smooth|]. intros r z Hr _. apply ex_equation. cbn in Hr. lra. }
  assert (HC := no_coil_flux e0 eq_refl).
  destruct (C178_converges unit unit (fun _ => green) 1 elimination flat_spline (from_flux ex_profile) S e0 (fun _ => True) (1 / 10) 0 (plain_options None 0 (1 / 100)) (e0, tt)) as (n & Hn);
    try assumption; try exact elimination_exact; try reflexivity; try lra; try (cbn; lia); try (cbn [Rmax Zmax Zmin e0 box_eq]; lra); try (cbn [plain_options blend atol]; nR; lra).
  { left. reflexivity. }
  exists n. intros fuel Hf. destruct (Hn fuel Hf) as (s' & h & E1 & Hs'). exists s', h.
  destruct (no_coils_psi (fst s')) as (psi1 & Ep & _); [rewrite (proj1 (proj2 (proj2 (proj2 (proj1 Hs'))))); reflexivity|]. exists psi1.
  split; [exact E1|]. split; [exact Ep|].
  destruct (C188_fixed unit unit (fun _ => green) 1 elimination flat_spline (from_flux ex_profile) S e0 (fun _ => True) (1 / 10) 0 (plain_options None 0 (1 / 100)) (e0, tt)
    ex_psi ex_K 48 (fun _ _ => 0) 0 0) with (fuel := fuel) (s' := s') (h := h) (psi1 := psi1) as (m & hs & r & _ & M0 & M1 & HM);
    try assumption; try exact elimination_exact; try reflexivity; try lra; try (cbn; lia); try (cbn [Rmin Rmax Zmax Zmin e0 box_eq]; lra).
  - intros p1 e J p' b _ _ EJ x y Hxy. injection EJ as <- _ _. unfold ex_profile, sampled. cbn [Rmin Rmax Zmin Zmax e_nx e_ny e0 box_eq].
    match goal with |- Rabs ?a <= _ => replace a with 0 by (field) end. rewrite Rabs_R0. lra.
  - intros x y Hxy. cbn [Rmin Rmax Zmin Zmax e_nx e_ny e0 box_eq] in Hxy |- *.
    replace (ex_psi (gridpt 1 2 5 x) (gridpt (-1) 1 5 y)) with 0; [rewrite Rabs_R0; lra|].
    unfold on_edge in Hxy. unfold ex_psi, gridpt.
    assert (Hc : (x = 0 \/ x = 4 \/ y = 0 \/ y = 4)%nat) by lia. destruct Hc as [-> | [-> | [-> | ->]]]; cbn; field.
  - intros i j Hi Hj. specialize (HM i j Hi Hj). unfold sampled in HM. cbn [Rmin Rmax Zmin Zmax e_nx e_ny e0 box_eq] in HM. rewrite Rplus_0_r in HM. eapply Rle_trans; [exact HM|].
    assert (Hm : m < 1 / 100) by (destruct M1 as [H|H]; [exact H|cbn [rtol plain_options] in H; lra]).
    unfold truncation. cbn [Rmin Rmax Zmin Zmax e_nx e_ny e0 box_eq]. replace (INR (5 - 1)) with 4 by (cbn; lra). lra.
Qed.

(** ** C189 *)
(** The free boundary: at the edge points the plasma flux [psi] is the integral of the Green's function times the current density [K],
    a function of (R, Z) with Lipschitz constants KR and KZ that vanishes at the edge point itself. *)
Definition free_flux {P Ctl} (G : R -> R -> R -> R -> R) (e0 : equilibrium R P Ctl) (psi K : R -> R -> R) (KR KZ : R) : Prop :=
  forall x y, on_edge (e_nx e0) (e_ny e0) x y ->
  let r' := gridpt (Rmin e0) (Rmax e0) (e_nx e0) x in let z' := gridpt (Zmin e0) (Zmax e0) (e_ny e0) y in
  let f r z := G r z r' z' * K r z in
  f r' z' = 0 /\
  (forall z, Zmin e0 <= z <= Zmax e0 -> lip (fun r => f r z) (Rmin e0) (Rmax e0) KR) /\
  (forall r, Rmin e0 <= r <= Rmax e0 -> lip (f r) (Zmin e0) (Zmax e0) KZ) /\
  psi r' z' = RInt (fun r => RInt (f r) (Zmin e0) (Zmax e0)) (Rmin e0) (Rmax e0).
(** The error of the area integral (C170). *)
Definition quadrature_error {P Ctl} (e0 : equilibrium R P Ctl) (KR KZ : R) : R :=
  let dR := (Rmax e0 - Rmin e0) / INR (e_nx e0 - 1) in let dZ := (Zmax e0 - Zmin e0) / INR (e_ny e0 - 1) in
  3 / 4 * (Rmax e0 - Rmin e0) * (Zmax e0 - Zmin e0) * (KR * dR + KZ * dZ).
Theorem C189_consistent : forall (P Ctl : Type) G mu lu spline
    (Jt : P -> equilibrium R P Ctl -> (nat -> nat -> R) -> option R -> result ((nat -> nat -> R) * P * bstate R))
    (S : equilibrium R P Ctl * P -> Prop) e0 (Q : P -> Prop) pb psi K M c B KR KZ D,
  let gR := gridpt (Rmin e0) (Rmax e0) (e_nx e0) in let gZ := gridpt (Zmin e0) (Zmax e0) (e_ny e0) in
  exact_solver lu -> 0 < mu -> 0 < Rmin e0 -> (forall s, S s -> like_free e0 (fst s) /\ Q (snd s)) ->
  gs_solution mu e0 psi K M -> free_flux (G FPsi) e0 psi K KR KZ -> edge_response (G FPsi) e0 B -> coil_flux e0 c ->
  (forall p e J p' b, Q p -> like_free e0 e -> Jt p e (sampled e0 psi c) pb = Ok (J, p', b) -> forall x y, (x < e_nx e0)%nat -> (y < e_ny e0)%nat -> Rabs (J x y - K (gR x) (gZ y)) <= D) -> 0 <= D ->
  nearly (e_nx e0) (e_ny e0) (eq_ops G sqrt mu lu spline Jt None) pb S (sampled e0 psi c)
    (B * D + quadrature_error e0 KR KZ + (Zmax e0 - Zmin e0) ^ 2 / 8 * (truncation e0 M + mu * Rmax e0 * D)).
Proof.
  intros P Ctl G mu lu spline Jt S e0 Q pb psi K M c B KR KZ D gR gZ Hlu Hmu Hpos HS (Hsm & HK) Hfree HB Hc HJ HD s s' psi' Hs Es Ep.
  cbn [eq_solve eq_ops Picard.eq_psi] in Es, Ep.
  destruct (solve G sqrt mu lu spline Jt (fst s) (snd s) None (Some (sampled e0 psi c)) pb) as [e1|] eqn:E1; [|discriminate]. injection Es as <-. cbn [fst] in Ep.
  destruct (HS s Hs) as (L1 & Q1). assert (L1' := L1). destruct L1 as (D1 & SO & HBd & T & Pg). injection D1 as N N' A A' C C'.
  destruct (solve_inv _ _ _ _ _ _ _ _ _ _ _ _ E1) as (ea & J & p1 & rhs & x & p1' & I1 & dR & dZ & c1 & Ea & (ba & bx & pa & Hpa & EJ) & _ & _ & _ & HI & _ & _ & _ & Ee).
  destruct (romb2_ok _ _ _ _ HI) as (kx & ky & Ex & Ey). rewrite N in Ex. rewrite N' in Ey. clear HI.
  subst pa ea.
  assert (HJd : forall x y, (x < e_nx e0)%nat -> (y < e_ny e0)%nat -> Rabs (J x y - K (gR x) (gZ y)) <= D) by (refine (HJ _ _ _ _ _ Q1 _ EJ); exact L1').
  assert (JT : jtor e1 = Some J) by (rewrite Ee; reflexivity).
  assert (HgR : grid_R (fst s) = grid_R e0) by (unfold grid_R, R_1D; rewrite N, A, A'; reflexivity).
  assert (HgZ : grid_Z (fst s) = grid_Z e0) by (unfold grid_Z, Z_1D; rewrite N', C, C'; reflexivity).
  assert (SO' := SO). destruct SO' as (_ & HR & HZ & _). rewrite A, A' in HR. rewrite C, C' in HZ.
  set (quad := quadrature_error e0 KR KZ).
  assert (He := C172_error P Ctl G mu lu spline Jt (fst s) e1 (snd s) None (Some (sampled e0 psi c)) pb J psi K M (B * D + quad) D). cbv zeta in He. rewrite N, N', A, A', C, C' in He. fold gR gZ in He.
  assert (HJi : forall x y, inside (e_nx e0) (e_ny e0) x y -> Rabs (J x y - K (gR x) (gZ y)) <= D) by (intros u w Huw; apply HJd; unfold inside in Huw; lia).
  specialize (He Hlu SO Hmu Hpos E1 JT Hsm HK HJi HD).
  assert (Hed : forall x y, on_edge (e_nx e0) (e_ny e0) x y -> Rabs (plasma_psi e1 x y - psi (gR x) (gZ y)) <= B * D + quad).
  { intros u w Huw. destruct (PropSolveFlux.solved G mu lu spline Jt (fst s) e1 _ _ _ _ J Hlu SO E1 JT) as (q & Eq & Hnx & Hny & Hq & _).
    rewrite N, N' in *. rewrite Hq by exact Huw. unfold applyBoundary in Eq. rewrite HBd, N, N', HgR, HgZ in Eq.
    destruct (freeBoundary_spec (G FPsi) (e_nx e0) (e_ny e0) (grid_R e0) (grid_Z e0) J (plasma_psi (fst s)) (ex_intro _ kx Ex) (ex_intro _ ky Ey)) as (q' & Eq' & F).
    rewrite Eq in Eq'. apply ok_inj in Eq'. subst q'.
    assert (V1 := proj1 (F u w (proj1 Huw) (proj1 (proj2 Huw))) Huw).
    destruct (Hfree u w Huw) as (F0 & FR & FZ & FI). fold gR gZ in F0, FR, FZ, FI. cbv zeta in F0, FR, FZ, FI. set (f := fun r z => G FPsi r z (gR u) (gZ w) * K r z) in *.
    set (Kg := fun i j => K (gR i) (gZ j)).
    set (hR := (Rmax e0 - Rmin e0) / INR (e_nx e0 - 1)). set (hZ := (Zmax e0 - Zmin e0) / INR (e_ny e0 - 1)).
    assert (Px : INR (e_nx e0 - 1) = INR (2 ^ kx)) by (f_equal; rewrite Ex; lia). assert (Py : INR (e_ny e0 - 1) = INR (2 ^ ky)) by (f_equal; rewrite Ey; lia).
    assert (P1 : 0 < INR (2 ^ kx)) by (rewrite <- Px; apply lt_0_INR; lia). assert (P2 : 0 < INR (2 ^ ky)) by (rewrite <- Py; apply lt_0_INR; lia).
    assert (HhR : 0 < hR) by (unfold hR; rewrite Px; apply Rdiv_lt_0_compat; lra). assert (HhZ : 0 < hZ) by (unfold hZ; rewrite Py; apply Rdiv_lt_0_compat; lra).
    assert (ER : Rmin e0 + INR (2 ^ kx) * hR = Rmax e0) by (unfold hR; rewrite Px; field; lra). assert (EZ : Zmin e0 + INR (2 ^ ky) * hZ = Zmax e0) by (unfold hZ; rewrite Py; field; lra).
    assert (GR : forall i j, grid_R e0 i j = gR i) by (intros; apply gridR_is). assert (GZ : forall i j, grid_Z e0 i j = gZ j) by (intros; apply gridZ_is).
    assert (SR : grid_R e0 1%nat 0%nat - grid_R e0 0%nat 0%nat = hR) by (rewrite !GR; unfold gR, gridpt; fold hR; cbn [INR]; ring).
    assert (SZ : grid_Z e0 0%nat 1%nat - grid_Z e0 0%nat 0%nat = hZ) by (rewrite !GZ; unfold gZ, gridpt; fold hZ; cbn [INR]; ring).
    set (v2 := RombProofs.R2 kx ky (fun i j => f (Rmin e0 + INR i * hR) (Zmin e0 + INR j * hZ)) * hR * hZ).
    assert (V2 : plasma_flux_at (G FPsi) (e_nx e0) (e_ny e0) (grid_R e0) (grid_Z e0) Kg u w v2).
    { unfold plasma_flux_at, area_integral. rewrite SR, SZ, Ex, Ey. eexists. split; [apply romb2_R2|]. unfold v2. do 2 f_equal. apply RombProofs.R2_ext. intros i j _ _.
      rewrite !GR, !GZ. replace (Rmin e0 + INR i * hR) with (gR i) by (unfold gR, gridpt; fold hR; ring). replace (Zmin e0 + INR j * hZ) with (gZ j) by (unfold gZ, gridpt; fold hZ; ring).
      destruct (Nat.eqb_spec i u); [destruct (Nat.eqb_spec j w)|]; cbn [andb]; unfold f, Kg; [|reflexivity|reflexivity]. subst i j. first [transitivity 0; [exact F0|symmetry; apply Rmult_0_l]|transitivity 0; [apply Rmult_0_l|symmetry; exact F0]]. }
    assert (W1 : Rabs (q u w - v2) <= B * D).
    { assert (HBv := fun v => HB u w v Huw). assert (HJ' := HJd). rewrite Ex, Ey in HJ', HBv, V1, V2.
      refine (edge_diff (G FPsi) kx ky (grid_R e0) (grid_Z e0) J Kg u w _ _ B D _ _ HBv _ HD V1 V2); [rewrite SR; exact HhR|rewrite SZ; exact HhZ|exact HJ']. }
    assert (W2 : Rabs (v2 - psi (gR u) (gZ w)) <= quad).
    { rewrite FI. rewrite <- ER, <- EZ.
      eapply Rle_trans; [refine (PropRombError.C170_area kx ky hR hZ (Rmin e0) (Zmin e0) f KR KZ v2 HhR HhZ _ _ _); rewrite ?ER, ?EZ; try assumption|].
      - eexists. split; [apply romb2_R2|reflexivity].
      - rewrite ER, EZ. unfold quad, quadrature_error. fold hR hZ. lra. }
    replace (q u w - psi (gR u) (gZ w)) with ((q u w - v2) + (v2 - psi (gR u) (gZ w))) by ring. eapply Rle_trans; [apply Rabs_triang|]. lra. }
  specialize (He Hed). intros i j Hi Hj. specialize (He i j Hi Hj).
  assert (T1 : tok e1 = tok e0) by (rewrite Ee; exact T). assert (T2 : pgreen e1 = pgreen e0) by (rewrite Ee; exact Pg).
  rewrite (Hc e1 psi' T1 T2 Ep i j). unfold sampled. fold gR gZ.
  replace (plasma_psi e1 i j + c i j - (psi (gR i) (gZ j) + c i j)) with (plasma_psi e1 i j - psi (gR i) (gZ j)) by ring. exact He.
Qed.
Print Assumptions C189_consistent.
(** So picard.solve with the free boundary returns the solution of the free-boundary problem up to the errors of the area integral, of
    the operator, of the profile and the tolerance, each divided by 1 - q. *)
Theorem C189_free : forall (P Ctl : Type) G mu lu spline
    (Jt : P -> equilibrium R P Ctl -> (nat -> nat -> R) -> option R -> result ((nat -> nat -> R) * P * bstate R))
    (S : equilibrium R P Ctl * P -> Prop) e0 (Q : P -> Prop) B K L p s psi Jc M c KR KZ D,
  let run s psi := solve G sqrt mu lu spline Jt (fst s) (snd s) None (Some psi) (user_bndry p) in
  let after s e' := (e', match profiles e' with Some q => q | None => snd s end) in
  let gR := gridpt (Rmin e0) (Rmax e0) (e_nx e0) in let gZ := gridpt (Zmin e0) (Zmax e0) (e_ny e0) in
  let q := (B + mu * Rmax e0 * ((Zmax e0 - Zmin e0) ^ 2 / 8)) * K in
  exact_solver lu -> 0 < mu -> 0 <= K -> 0 <= B -> 0 < Rmin e0 -> Rmin e0 < Rmax e0 -> edge_response (G FPsi) e0 B ->
  (forall s, S s -> like_free e0 (fst s) /\ Q (snd s) /\ S (with_check (fst s) false, snd s)) ->
  (forall s psi, S s -> exists e' b, run s psi = Ok e' /\ S (after s e') /\ psi_bndry (bs e') = Some (Some b)) ->
  (forall s1 s2 psi1 psi2 e1 e2 b1 b2 d, S s1 -> S s2 -> within (e_nx e0) (e_ny e0) psi1 psi2 d -> run s1 psi1 = Ok e1 -> run s2 psi2 = Ok e2 ->
     psi_bndry (bs e1) = Some (Some b1) -> psi_bndry (bs e2) = Some (Some b2) -> Rabs (b1 - b2) <= L * d) ->
  lipschitz_free Jt e0 Q (user_bndry p) K -> (0 < e_nx e0)%nat -> (0 < e_ny e0)%nat -> q < 1 -> S s ->
  gs_solution mu e0 psi Jc M -> free_flux (G FPsi) e0 psi Jc KR KZ -> coil_flux e0 c ->
  (forall p1 e J p' b, Q p1 -> like_free e0 e -> Jt p1 e (sampled e0 psi c) (user_bndry p) = Ok (J, p', b) -> forall x y, (x < e_nx e0)%nat -> (y < e_ny e0)%nat -> Rabs (J x y - Jc (gR x) (gZ y)) <= D) -> 0 <= D ->
  forall fuel s' h psi1, check p = false ->
  picard (e_nx e0) (e_ny e0) _ (eq_ops G sqrt mu lu spline Jt None) p fuel s = (s', Ok h) -> total_psi (fst s') = Ok psi1 ->
  exists m hs r, h = hs ++ [(m, r)] /\ 0 <= m /\ (m < atol p \/ m < rtol p * (amax (e_nx e0) (e_ny e0) psi1 - amin (e_nx e0) (e_ny e0) psi1)) /\
  forall i j, (i < e_nx e0)%nat -> (j < e_ny e0)%nat ->
    Rabs (psi1 i j - sampled e0 psi c i j) <=
      (B * D + quadrature_error e0 KR KZ + (Zmax e0 - Zmin e0) ^ 2 / 8 * (truncation e0 M + mu * Rmax e0 * D) + q * m) / (1 - q).
Proof.
  intros P Ctl G mu lu spline Jt S e0 Q B K L p s psi Jc M c KR KZ D run after gR gZ q Hlu Hmu HK HB0 Hpos HR HB HS Hrun Hbd HJ Hnx Hny Hq1 Hs Hgs Hff Hc HJc HD fuel s' h psi1 Hchk Epic Ep.
  assert (HC := C187_contracts P Ctl G mu lu spline Jt S e0 Q (user_bndry p) B K L Hlu Hmu HK HB HS Hrun Hbd HJ Hnx Hny). fold q in HC.
  assert (Hq : 0 <= q < 1).
  { split; [|exact Hq1]. unfold q. assert (X := pow2_ge_0 (Zmax e0 - Zmin e0)). apply Rmult_le_pos; [|exact HK]. apply Rplus_le_le_0_compat; [exact HB0|]. apply Rmult_le_pos; [apply Rmult_le_pos; lra|lra]. }
  assert (HN := C189_consistent P Ctl G mu lu spline Jt S e0 Q (user_bndry p) psi Jc M c B KR KZ D Hlu Hmu Hpos (fun s Hs => conj (proj1 (HS s Hs)) (proj1 (proj2 (HS s Hs)))) Hgs Hff HB Hc HJc HD).
  exact (proj2 (C188_near _ _ _ _ p S q L _ _ s Hnx Hny HC Hq Hs HN) fuel s' h psi1 eq_refl Hchk Epic Ep).
Qed.
Print Assumptions C189_free.
(** The plasma flux 1 - Z^2 with the current density 2 / R, for a "Green's function" that gives this flux on the edge and is zero for
    coincident edge points; the profile adds a tenth of the flux difference.  B is 3/2, q is 1/4 and the operator is exact. *)
Definition fx_G (_ : field) (r z r' z' : R) : R := r / 2 * (3 * ((r - 1) * (2 - r))) * (1 - z' ^ 2).
Definition fx_psi (r z : R) : R := 1 - z ^ 2.
Definition fx_K (r z : R) : R := 2 / r.
Definition fx_profile n (psi : arr2 R) : arr2 R := fun i j => let r := gridpt 1 2 n i in let z := gridpt (-1) 1 n j in fx_K r z + (psi i j - fx_psi r z) / 10.
Lemma fx_solution b n A : gs_solution 1 (box_eq n b A) fx_psi fx_K 0.
Proof.
  assert (Er : forall z t, fx_psi t z = pl (1 - z ^ 2) 0 0 0 0 0 t) by (intros; unfold fx_psi, pl; ring).
  assert (Ez : forall r t, fx_psi r t = pl 1 0 (-1) 0 0 0 t) by (intros; unfold fx_psi, pl; ring).
  split.
  - split; [|split].
    + intros r z k _ _. eapply ex_derive_n_ext; [intros t; symmetry; apply (Er z t)|apply ex_derive_n_pl].
    + intros r z k _ _. eapply ex_derive_n_ext; [intros t; symmetry; apply (Ez r t)|apply ex_derive_n_pl].
    + intros r z Hr Hz. rewrite !(Derive_n_ext _ _ _ _ (Er z)), (Derive_n_ext _ _ _ _ (Ez r)), !Derive_n_pl. cbn [Derive_n]. unfold pl. split; [|split]; apply Rabs_le; split; nra.
  - intros r z Hr _. cbn in Hr. unfold GSop. rewrite (Derive_n_ext _ _ _ _ (Er z)), (Derive_n_ext _ _ _ _ (Ez r)), !Derive_n_pl. cbn [Derive_n].
    rewrite (Derive_ext _ _ _ (Er z)), Derive_pl. unfold pl, fx_K. field. lra.
Qed.
Lemma fx_response b k A : edge_response (fx_G FPsi) (box_eq (S (2 ^ k)) b A) (3 / 2).
Proof.
  intros x y v Hxy (s & Es & ->). cbn [e_nx e_ny box_eq] in Es, Hxy. rewrite romb2_R2 in Es. apply ok_inj in Es. subst s. set (n := S (2 ^ k)) in *.
  set (e := box_eq n b A) in *. assert (P0 : 0 < INR (2 ^ k)) by (rewrite INR_pow2; apply pow_lt; lra).
  assert (Pn : INR (n - 1) = INR (2 ^ k)) by (f_equal; unfold n; lia).
  assert (Hn : (2 <= n)%nat) by (unfold n; assert (2 ^ k <> 0)%nat by (apply Nat.pow_nonzero; discriminate); lia).
  match goal with |- RombProofs.R2 k k ?g * _ * _ <= _ => assert (H := DiagnosticsProofs.R2_mono k k g (fun i _ => 3 / 4 + 0 * INR i)) end.
  rewrite DiagnosticsProofs.R2_line in H.
  assert (X : forall i j : nat, (i <= 2 ^ k)%nat -> (j <= 2 ^ k)%nat -> (if ((i =? x)%nat && (j =? y)%nat)%bool then 0 else Rabs (fx_G FPsi (grid_R e i j) (grid_Z e i j) (grid_R e x y) (grid_Z e x y))) * 1 <= 3 / 4 + 0 * INR i).
  { intros i j Hi Hj. destruct ((i =? x)%nat && (j =? y)%nat)%bool; [lra|]. rewrite !gridR_is, !gridZ_is. cbn [Rmin Rmax Zmin Zmax e_nx e_ny e box_eq].
    assert (A1 := gridpt_ge 1 2 n i ltac:(lra) Hn).
    assert (A2 := gridpt_le 1 2 n i ltac:(lra) Hn ltac:(unfold n; lia)).
    assert (A3 := gridpt_ge (-1) 1 n y ltac:(lra) Hn).
    assert (A4 := gridpt_le (-1) 1 n y ltac:(lra) Hn ltac:(unfold on_edge in Hxy; lia)).
    set (r := gridpt 1 2 n i) in *. set (w := gridpt (-1) 1 n y) in *. unfold fx_G.
    assert (U : 0 <= 3 * ((r - 1) * (2 - r)) <= 3 / 4) by (assert (U1 := pow2_ge_0 (r - 3 / 2)); assert (U2 : 0 <= (r - 1) * (2 - r)) by (apply Rmult_le_pos; lra); split; [lra|]; replace (3 * ((r - 1) * (2 - r))) with (3 / 4 - 3 * (r - 3 / 2) ^ 2) by field; lra). assert (V : 0 <= 1 - w ^ 2 <= 1) by nra.
    set (u := 3 * ((r - 1) * (2 - r))) in *. set (t := 1 - w ^ 2) in *. clearbody u t.
    assert (Y : 0 <= r / 2 * u <= 3 / 4) by (split; [apply Rmult_le_pos; lra|]; apply Rle_trans with (1 * u); [apply Rmult_le_compat_r; lra|lra]). rewrite Rabs_right by (apply Rle_ge, Rmult_le_pos; lra). nra. }
  specialize (H X). match goal with |- ?w * _ * _ <= _ => set (W := w) in * end. clearbody W. rewrite !gridR_is, !gridZ_is. cbn [Rmin Rmax Zmin Zmax e_nx e_ny e box_eq].
  replace (gridpt 1 2 n 1 - gridpt 1 2 n 0) with (/ INR (2 ^ k)) by (unfold gridpt; rewrite Pn; cbn [INR]; field; lra).
  replace (gridpt (-1) 1 n 1 - gridpt (-1) 1 n 0) with (2 / INR (2 ^ k)) by (unfold gridpt; rewrite Pn; cbn [INR]; field; lra).
  set (N := INR (2 ^ k)) in *. clearbody N.
  apply Rle_trans with ((N * N * (3 / 4 + 0 * N / 2)) * (/ N) * (2 / N)); [|right; field; lra].
  assert (0 < / N) by (apply Rinv_0_lt_compat; lra). assert (0 < 2 / N) by (apply Rdiv_lt_0_compat; lra).
  apply Rmult_le_compat_r; [lra|]. apply Rmult_le_compat_r; [lra|exact H].
Qed.
Lemma fx_edge_lip z' : -1 <= z' <= 1 -> lip (fun r => fx_G FPsi r 0 0 z' * fx_K r 0) 1 2 3.
Proof.
  intros Hz r1 r2 H1 H2. unfold fx_G, fx_K.
  replace (r1 / 2 * (3 * ((r1 - 1) * (2 - r1))) * (1 - z' ^ 2) * (2 / r1) - r2 / 2 * (3 * ((r2 - 1) * (2 - r2))) * (1 - z' ^ 2) * (2 / r2))
    with ((3 * (1 - z' ^ 2) * (3 - r1 - r2)) * (r1 - r2)) by (field; lra).
  rewrite Rabs_mult. apply Rmult_le_compat_r; [apply Rabs_pos|]. assert (V : 0 <= 1 - z' ^ 2 <= 1) by nra. apply Rabs_le. split; nra.
Qed.
Lemma fx_free b n A : (2 <= n)%nat -> free_flux (fx_G FPsi) (box_eq n b A) fx_psi fx_K 3 0.
Proof.
  intros Hn x y Hxy. cbn [Rmin Rmax Zmin Zmax e_nx e_ny box_eq] in Hxy |- *.
  assert (A1 := gridpt_ge 1 2 n x ltac:(lra) Hn).
  assert (A3 := gridpt_ge (-1) 1 n y ltac:(lra) Hn).
  assert (A4 := gridpt_le (-1) 1 n y ltac:(lra) Hn ltac:(unfold on_edge in Hxy; lia)).
  assert (Ed : gridpt 1 2 n x = 1 \/ gridpt 1 2 n x = 2 \/ gridpt (-1) 1 n y = -1 \/ gridpt (-1) 1 n y = 1).
  { assert (P0 : 0 < INR (n - 1)) by (apply lt_0_INR; lia). destruct Hxy as (_ & _ & [-> | [Hx | [-> | Hy]]]); unfold gridpt.
    - left. cbn [INR]. ring.
    - right. left. replace (n - 1)%nat with x in * by lia. field. lra.
    - right. right. left. cbn [INR]. ring.
    - right. right. right. replace (n - 1)%nat with y in * by lia. field. lra. }
  set (r' := gridpt 1 2 n x) in *. set (z' := gridpt (-1) 1 n y) in *. clearbody r' z'. split; [|split; [|split]].
  - unfold fx_G. destruct Ed as [-> | [-> | [-> | ->]]]; ring.
  - intros z _. exact (fx_edge_lip z' (conj A3 A4)).
  - intros r Hr z1 z2 _ _. unfold fx_G, fx_K. rewrite Rminus_diag_eq by reflexivity. rewrite Rabs_R0. assert (X := Rabs_pos (z1 - z2)). lra.
  - assert (E1 : forall r, 1 <= r <= 2 -> RInt (fun z => fx_G FPsi r z r' z' * fx_K r z) (-1) 1 = pl (-12 * (1 - z' ^ 2)) (18 * (1 - z' ^ 2)) (-6 * (1 - z' ^ 2)) 0 0 0 r).
    { intros r Hr. unfold fx_G, fx_K. rewrite RInt_const. change ((1 - -1) * (r / 2 * (3 * ((r - 1) * (2 - r))) * (1 - z' ^ 2) * (2 / r)) = pl (-12 * (1 - z' ^ 2)) (18 * (1 - z' ^ 2)) (-6 * (1 - z' ^ 2)) 0 0 0 r).
      unfold pl. field. lra. }
    symmetry. rewrite (RInt_ext (V := R_CompleteNormedModule) _ (pl (-12 * (1 - z' ^ 2)) (18 * (1 - z' ^ 2)) (-6 * (1 - z' ^ 2)) 0 0 0)).
    2: { intros r Hr. rewrite Rmin_left, Rmax_right in Hr by lra. apply E1. lra. }
    apply is_RInt_unique.
    replace (fx_psi r' z') with (pl 0 (-12 * (1 - z' ^ 2)) (9 * (1 - z' ^ 2)) (-2 * (1 - z' ^ 2)) 0 0 2 - pl 0 (-12 * (1 - z' ^ 2)) (9 * (1 - z' ^ 2)) (-2 * (1 - z' ^ 2)) 0 0 1) by (unfold fx_psi, pl; ring).
    apply (is_RInt_derive (V := R_CompleteNormedModule) (pl 0 (-12 * (1 - z' ^ 2)) (9 * (1 - z' ^ 2)) (-2 * (1 - z' ^ 2)) 0 0)).
    + intros t _. unfold pl. auto_derive; [exact I|ring].
    + intros t _. apply (ex_derive_continuous (V := R_NormedModule)). unfold pl. auto_derive. exact I.
Qed.
Lemma fx_run k : (2 <= k)%nat -> let n := S (2 ^ k) in exists A m, forall fuel, (m < fuel)%nat -> exists s' h psi1,
  picard n n _ (eq_ops fx_G sqrt 1 elimination flat_spline (from_flux (fx_profile n)) None) (plain_options None 0 (1 / 100)) fuel (box_eq n BFree A, tt) = (s', Ok h) /\
  total_psi (fst s') = Ok psi1 /\ forall i j, (i < n)%nat -> (j < n)%nat -> Rabs (psi1 i j - fx_psi (gridpt 1 2 n i) (gridpt (-1) 1 n j)) <= 6 / INR (2 ^ k) + 1 / 300.
Proof.
  intros Hk n. assert (Hp : (2 ^ 2 <= 2 ^ k)%nat) by (apply Nat.pow_le_mono_r; lia). change (2 ^ 2)%nat with 4%nat in Hp.
  assert (Dn : dyadic n) by (exists k; reflexivity). assert (H4 : (4 <= n)%nat) by (unfold n; lia). assert (Pn : INR (n - 1) = INR (2 ^ k)) by (f_equal; unfold n; lia).
  assert (Hresp : forall A, edge_response (fx_G FPsi) (box_eq n BFree A) (3 / 2)) by (intros A; apply fx_response).
  assert (P0 : 0 < INR (2 ^ k)) by (rewrite INR_pow2; apply pow_lt; lra).
  destruct (GSsparse_rows 1 2 (-1) 1 n n) as (A & EA & _). exists A.
  clearbody n.
  set (S := box_state n BFree A). set (e0 := box_eq n BFree A).
  assert (HS0 : S (e0, tt)).
  { split; [|split; reflexivity]. repeat (split; [reflexivity|]). split; [|repeat split; reflexivity]. cbn [fst]. unfold second_order. cbn [Rmin Rmax Zmin Zmax e_nx e_ny slv e0 box_eq].
    repeat (split; [lra|]). exists A. split; [exact EA|reflexivity]. }
  assert (HS : forall s, S s -> like_free e0 (fst s) /\ (fun _ : unit => True) (snd s) /\ S (with_check (fst s) false, snd s)).
  { intros s Hs. split; [exact (proj1 Hs)|]. split; [exact I|exact Hs]. }
  assert (Hrun : forall s psi, S s -> exists e' b, solve fx_G sqrt 1 elimination flat_spline (from_flux (fx_profile n)) (fst s) (snd s) None (Some psi) None = Ok e' /\
     S (e', match profiles e' with Some q => q | None => snd s end) /\ psi_bndry (bs e') = Some (Some b)).
  { intros s psi Hs. destruct (box_run n fx_G elimination (fx_profile n) BFree A s psi Dn H4 (or_intror eq_refl) Hs) as (e' & E1 & E2). exists e', 1. split; [exact E1|]. split; [exact E2|]. exact (proj2 (proj2 E2)). }
  assert (Hbd : forall s1 s2 psi1 psi2 e1 e2 b1 b2 d, S s1 -> S s2 -> within n n psi1 psi2 d ->
     solve fx_G sqrt 1 elimination flat_spline (from_flux (fx_profile n)) (fst s1) (snd s1) None (Some psi1) None = Ok e1 ->
     solve fx_G sqrt 1 elimination flat_spline (from_flux (fx_profile n)) (fst s2) (snd s2) None (Some psi2) None = Ok e2 ->
     psi_bndry (bs e1) = Some (Some b1) -> psi_bndry (bs e2) = Some (Some b2) -> Rabs (b1 - b2) <= 0 * d).
  { intros s1 s2 psi1 psi2 e1 e2 b1 b2 d H1 H2 _ E1 E2 B1 B2. rewrite (box_bndry _ _ _ _ _ _ _ _ _ _ _ _ _ _ Dn H4 (or_intror eq_refl) H1 H2 E1 E2 B1 B2), Rminus_diag_eq by reflexivity. rewrite Rabs_R0. lra. }
  assert (HJ : lipschitz_free (from_flux (fx_profile n)) e0 (fun _ => True) None (1 / 10)).
  { intros p1 p2 e1 e2 psi1 psi2 J1 J2 p1' p2' b1 b2 d _ _ _ _ Hw E1 E2 x y Hx Hy. injection E1 as <- _ _. injection E2 as <- _ _. unfold fx_profile.
    match goal with |- Rabs ?a <= _ => replace a with (/ 10 * (psi1 x y - psi2 x y)) by (unfold Rdiv; ring) end. rewrite Rabs_mult, (Rabs_right (/ 10)) by lra.
    assert (H := Hw x y Hx Hy). lra. }
  assert (Hgs : gs_solution 1 e0 fx_psi fx_K 0) by apply fx_solution.
  assert (Hff : free_flux (fx_G FPsi) e0 fx_psi fx_K 3 0) by (apply fx_free; lia).
  assert (HC := no_coil_flux e0 eq_refl). specialize (Hresp A). fold e0 in Hresp.
  destruct (C187_converges unit unit fx_G 1 elimination flat_spline (from_flux (fx_profile n)) S e0 (fun _ => True) (3 / 2) (1 / 10) 0 (plain_options None 0 (1 / 100)) (e0, tt)) as (_ & Hn);
    try assumption; try exact elimination_exact; try lra; try (cbn [e_nx e_ny e0 box_eq]; lia); try (cbn [Rmax Zmax Zmin e0 box_eq]; lra).
  destruct Hn as (m0 & Hn); try reflexivity; try (cbn [plain_options blend atol]; nR; lra). { left. reflexivity. }
  exists m0. intros fuel Hf. destruct (Hn fuel Hf) as (s' & h & E1 & Hs'). exists s', h.
  destruct (no_coils_psi (fst s')) as (psi1 & Ep & _); [rewrite (proj1 (proj2 (proj2 (proj2 (proj1 Hs'))))); reflexivity|]. exists psi1.
  split; [exact E1|]. split; [exact Ep|].
  destruct (C189_free unit unit fx_G 1 elimination flat_spline (from_flux (fx_profile n)) S e0 (fun _ => True) (3 / 2) (1 / 10) 0 (plain_options None 0 (1 / 100)) (e0, tt)
    fx_psi fx_K 0 (fun _ _ => 0) 3 0 0) with (fuel := fuel) (s' := s') (h := h) (psi1 := psi1) as (m & hs & r & _ & M0 & M1 & HM);
    try assumption; try exact elimination_exact; try reflexivity; try lra; try (cbn [e_nx e_ny e0 box_eq]; lia); try (cbn [Rmin Rmax Zmax Zmin e0 box_eq]; lra).
  - intros p1 e J p' b _ _ EJ x y Hx Hy. injection EJ as <- _ _. unfold fx_profile, sampled. cbn [Rmin Rmax Zmin Zmax e_nx e_ny e0 box_eq].
    match goal with |- Rabs ?a <= _ => replace a with 0 by (unfold Rdiv; ring) end. rewrite Rabs_R0. lra.
  - intros i j Hi Hj. specialize (HM i j Hi Hj). unfold sampled in HM. cbn [Rmin Rmax Zmin Zmax e_nx e_ny e0 box_eq] in HM. rewrite Rplus_0_r in HM. eapply Rle_trans; [exact HM|].
    assert (Hm : m < 1 / 100) by (destruct M1 as [H|H]; [exact H|cbn [rtol plain_options] in H; lra]).
    unfold truncation, quadrature_error. cbn [Rmin Rmax Zmin Zmax e_nx e_ny e0 box_eq]. rewrite Pn. set (N := INR (2 ^ k)) in *. clearbody N.
    replace (3 / 2 * 0 + 3 / 4 * (2 - 1) * (1 - -1) * (3 * ((2 - 1) / N) + 0 * ((1 - -1) / N))) with (9 / 2 * / N) by (field; lra).
    assert (0 < / N) by (apply Rinv_0_lt_compat; lra). unfold Rdiv at 4 5. 
    replace (6 / N) with (6 * / N) by reflexivity. lra.
Qed.
(** On 65 x 65 points, to within 1/10; the flux reaches 1. *)
Example C189_example : exists A m, forall fuel, (m < fuel)%nat -> exists s' h psi1,
  picard 65 65 _ (eq_ops fx_G sqrt 1 elimination flat_spline (from_flux (fx_profile 65)) None) (plain_options None 0 (1 / 100)) fuel (box_eq 65 BFree A, tt) = (s', Ok h) /\
  total_psi (fst s') = Ok psi1 /\ forall i j, (i < 65)%nat -> (j < 65)%nat -> Rabs (psi1 i j - fx_psi (gridpt 1 2 65 i) (gridpt (-1) 1 65 j)) <= 1 / 10.
Proof.
  destruct (fx_run 6 ltac:(lia)) as (A & m & H). exists A, m. intros fuel Hf. destruct (H fuel Hf) as (s' & h & psi1 & E1 & E2 & H1). exists s', h, psi1. split; [exact E1|]. split; [exact E2|].
  intros i j Hi Hj. eapply Rle_trans; [exact (H1 i j Hi Hj)|]. rewrite INR_pow2. lra.
Qed.
