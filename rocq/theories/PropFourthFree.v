(** C223-C224: the free boundary with the fourth-order solver. *)
From Coq Require Import String List Arith ZArith QArith Bool Reals Lra Lia.
From Coquelicot Require Import Coquelicot.
From Verif Require DiagnosticsProofs.
From Verif Require Import Py Num Numpy Romb RombProofs RombExact Multigrid MultigridProofs Gauss Coils Machine Critical Boundary BoundarySpec BoundaryProofs
  GradShafranov GradShafranovProofs Equilibrium EquilibriumSpec EquilibriumProofs EquilibriumProofs2 EquilibriumProofs3 GSSpec GS4Proofs FourthProofs FourthBound EllipticSpec PropGreens PropBoundary PropEquilibrium FittingProofs PropSolveFlux PropSolveError GSConsistency PropGS4Error PropEquilibrium2
  PropFourth PropFourthSign Picard PicardProofs PropPicard PropPicardLimit PropFixedPoint PropStart PropRombError PropTrueFlux PropFourthError PropFourthTrue.
Import ListNotations.
Local Open Scope R_scope.

(** ** C223 *)
(** Free boundary: the flux depends on the current density with the constant C B + K mu0 Rmax. *)
Theorem C223_stability : forall (P Ctl : Type) G mu lu spline
    (Jtor_call : P -> equilibrium R P Ctl -> (nat -> nat -> R) -> option R -> result ((nat -> nat -> R) * P * bstate R))
    (e1 e2 e1' e2' : equilibrium R P Ctl) p1 p2 o1 o2 s1 s2 t1 t2 J1 J2 B C K D,
  fourth_order lu e1 -> fourth_order lu e2 -> 0 < mu -> 0 <= Rmin e2 -> bounded_inverse e2 C K -> 0 <= K ->
  (e_nx e1, e_ny e1, Rmin e1, Rmax e1, Zmin e1, Zmax e1) = (e_nx e2, e_ny e2, Rmin e2, Rmax e2, Zmin e2, Zmax e2) ->
  solve G sqrt mu lu spline Jtor_call e1 p1 o1 s1 t1 = Ok e1' -> jtor e1' = Some J1 ->
  solve G sqrt mu lu spline Jtor_call e2 p2 o2 s2 t2 = Ok e2' -> jtor e2' = Some J2 ->
  bnd e1 = BFree -> bnd e2 = BFree -> edge_response (G FPsi) e2 B ->
  (forall x y, (x < e_nx e2)%nat -> (y < e_ny e2)%nat -> Rabs (J1 x y - J2 x y) <= D) -> 0 <= D ->
  forall x y, (x < e_nx e2)%nat -> (y < e_ny e2)%nat ->
  Rabs (plasma_psi e1' x y - plasma_psi e2' x y) <= (C * B + K * (mu * Rmax e2)) * D.
Proof.
  intros P Ctl G mu lu spline Jc e1 e2 e1' e2' p1 p2 o1 o2 s1 s2 t1 t2 J1 J2 B C K D HS1 HS2 Hmu H0 HC HK E12 E1 EJ1 E2 EJ2 B1 B2 HB HJ HD.
  intros x y Hx Hy. replace ((C * B + K * (mu * Rmax e2)) * D) with (C * (B * D) + K * (mu * Rmax e2 * D)) by ring.
  apply (C220_stability P Ctl G mu lu spline Jc e1 e2 e1' e2' p1 p2 o1 o2 s1 s2 t1 t2 J1 J2 C K (B * D) D); try assumption.
  2: { intros u w Hin. apply HJ; unfold inside in Hin; lia. }
  right. intros u w Hed.
  assert (HF2 := HS2). destruct HF2 as (Hnx6 & Hny6 & HRR & HZZ & A & EA & _ & _). assert (Hnx : (2 <= e_nx e2)%nat) by lia. assert (Hny : (2 <= e_ny e2)%nat) by lia.
  destruct (solved4 G mu lu spline Jc e2 e2' p2 o2 s2 t2 J2 A HS2 EA E2 EJ2) as (q2 & Q2 & He2 & _).
  assert (E12' := E12). injection E12' as N0 M0 Aa Ab Ac Ad.
  destruct (solved4 G mu lu spline Jc e1 e1' p1 o1 s1 t1 J1 A HS1) with (2 := E1) (3 := EJ1) as (q1 & Q1 & He1 & _); [rewrite N0, M0, Aa, Ab, Ac, Ad; exact EA|].
  assert (Hdy : exists kx ky, e_nx e2 = S (2 ^ kx) /\ e_ny e2 = S (2 ^ ky)).
  { destruct (solve_inv _ _ _ _ _ _ _ _ _ _ _ _ E2) as (ea & J & pp & rhs & x' & p' & I & dR & dZ & b & _ & _ & _ & _ & _ & HI & _). exact (romb2_ok _ _ _ _ HI). }
  destruct Hdy as (kx & ky & Ex & Ey). injection E12 as N M A1 A2 A3 A4.
  assert (HgR : grid_R e1 = grid_R e2) by (unfold grid_R, R_1D; rewrite N, A1, A2; reflexivity).
  assert (HgZ : grid_Z e1 = grid_Z e2) by (unfold grid_Z, Z_1D; rewrite M, A3, A4; reflexivity).
  unfold applyBoundary in Q1, Q2. rewrite B1, N, M, HgR, HgZ in Q1. rewrite B2 in Q2. rewrite N, M in He1.
  destruct (freeBoundary_spec (G FPsi) (e_nx e2) (e_ny e2) (grid_R e2) (grid_Z e2) J1 (plasma_psi e1) (ex_intro _ kx Ex) (ex_intro _ ky Ey)) as (q1' & Q1' & F1).
  rewrite Q1 in Q1'. apply ok_inj in Q1'. subst q1'.
  destruct (freeBoundary_spec (G FPsi) (e_nx e2) (e_ny e2) (grid_R e2) (grid_Z e2) J2 (plasma_psi e2) (ex_intro _ kx Ex) (ex_intro _ ky Ey)) as (q2' & Q2' & F2).
  rewrite Q2 in Q2'. apply ok_inj in Q2'. subst q2'.
  rewrite He1, He2 by exact Hed. destruct Hed as (Hu & Hw & Hed0). assert (Hed : on_edge (e_nx e2) (e_ny e2) u w) by (split; [exact Hu|split; [exact Hw|exact Hed0]]).
  assert (V1 := proj1 (F1 u w Hu Hw) Hed). assert (V2 := proj1 (F2 u w Hu Hw) Hed).
  assert (HhR : 0 < grid_R e2 1%nat 0%nat - grid_R e2 0%nat 0%nat) by (rewrite !gridR_is; assert (X := gridpt_step (Rmin e2) (Rmax e2) (e_nx e2)); specialize (X HRR Hnx); lra).
  assert (HhZ : 0 < grid_Z e2 0%nat 1%nat - grid_Z e2 0%nat 0%nat) by (rewrite !gridZ_is; assert (X := gridpt_step (Zmin e2) (Zmax e2) (e_ny e2)); specialize (X HZZ Hny); lra).
  assert (HBv := fun v => HB u w v Hed). rewrite Ex, Ey in HJ, HBv, V1, V2.
  exact (edge_diff (G FPsi) kx ky (grid_R e2) (grid_Z e2) J1 J2 u w _ _ B D HhR HhZ HBv HJ HD V1 V2).
Qed.
Print Assumptions C223_stability.

(** As [like4] and [lipschitz_profile4], with the free boundary; the current density at the edge counts too. *)
Definition like4_free {P Ctl} lu (e0 e : equilibrium R P Ctl) : Prop :=
  (e_nx e, e_ny e, Rmin e, Rmax e, Zmin e, Zmax e) = (e_nx e0, e_ny e0, Rmin e0, Rmax e0, Zmin e0, Zmax e0) /\
  fourth_order lu e /\ bnd e = BFree /\ tok e = tok e0 /\ pgreen e = pgreen e0.
Definition lipschitz_free4 {P Ctl} lu (Jt : P -> equilibrium R P Ctl -> (nat -> nat -> R) -> option R -> result ((nat -> nat -> R) * P * bstate R)) (e0 : equilibrium R P Ctl)
    (Q : P -> Prop) (pb : option R) (L : R) : Prop :=
  forall p1 p2 e1 e2 psi1 psi2 J1 J2 p1' p2' b1 b2 d, Q p1 -> Q p2 -> like4_free lu e0 e1 -> like4_free lu e0 e2 -> within (e_nx e0) (e_ny e0) psi1 psi2 d ->
    Jt p1 e1 psi1 pb = Ok (J1, p1', b1) -> Jt p2 e2 psi2 pb = Ok (J2, p2', b2) ->
    forall x y, (x < e_nx e0)%nat -> (y < e_ny e0)%nat -> Rabs (J1 x y - J2 x y) <= L * d.
(** With such a profile eq.solve contracts as soon as q = (C B + K mu0 Rmax) L is below 1. *)
Theorem C223_contracts : forall (P Ctl : Type) G mu lu spline
    (Jt : P -> equilibrium R P Ctl -> (nat -> nat -> R) -> option R -> result ((nat -> nat -> R) * P * bstate R))
    (S : equilibrium R P Ctl * P -> Prop) e0 (Q : P -> Prop) pb B C K L Lb,
  let run s psi := solve G sqrt mu lu spline Jt (fst s) (snd s) None (Some psi) pb in
  let after s e' := (e', match profiles e' with Some q => q | None => snd s end) in
  0 < mu -> 0 <= Rmin e0 -> bounded_inverse e0 C K -> 0 <= K -> 0 <= L -> edge_response (G FPsi) e0 B ->
  (forall s, S s -> like4_free lu e0 (fst s) /\ Q (snd s) /\ S (with_check (fst s) false, snd s)) ->
  (forall s psi, S s -> exists e' b, run s psi = Ok e' /\ S (after s e') /\ psi_bndry (bs e') = Some (Some b)) ->
  (forall s1 s2 psi1 psi2 e1 e2 b1 b2 d, S s1 -> S s2 -> within (e_nx e0) (e_ny e0) psi1 psi2 d -> run s1 psi1 = Ok e1 -> run s2 psi2 = Ok e2 ->
     psi_bndry (bs e1) = Some (Some b1) -> psi_bndry (bs e2) = Some (Some b2) -> Rabs (b1 - b2) <= Lb * d) ->
  lipschitz_free4 lu Jt e0 Q pb L -> (0 < e_nx e0)%nat -> (0 < e_ny e0)%nat ->
  contracts (e_nx e0) (e_ny e0) (eq_ops G sqrt mu lu spline Jt None) pb S ((C * B + K * (mu * Rmax e0)) * L) Lb.
Proof.
  intros P Ctl G mu lu spline Jt S e0 Q pb B C K L Lb run after Hmu H0 HC HK HL HB HS Hrun Hbd HJ Hnx Hny. split; [|split].
  - intros s Hs. exact (proj2 (proj2 (HS s Hs))).
  - intros s psi0 Hs. destruct (Hrun s psi0 Hs) as (e' & b & E1 & E2 & E3). cbn [eq_solve eq_ops]. unfold run in E1. rewrite E1.
    destruct (solve_inv _ _ _ _ _ _ _ _ _ _ _ _ E1) as (ea & J & p1 & rhs & x & p' & I & dR & dZ & b' & _ & _ & _ & _ & _ & _ & _ & _ & (q & Eq & _) & Ee).
    exists (after s e'), q, b. split; [reflexivity|]. split; [exact E2|]. cbn [Picard.eq_psi bndry_flux eq_ops after fst]. split; [|exact E3]. rewrite Ee. exact Eq.
  - intros s1 s2 psi1 psi2 s1' s2' psi1' psi2' b1 b2 d H1 H2 Hw Es1 Ep1 Eb1 Es2 Ep2 Eb2.
    cbn [eq_solve eq_ops Picard.eq_psi bndry_flux] in Es1, Es2, Ep1, Ep2, Eb1, Eb2.
    destruct (solve G sqrt mu lu spline Jt (fst s1) (snd s1) None (Some psi1) pb) as [e1|] eqn:E1; [|discriminate]. injection Es1 as <-.
    destruct (solve G sqrt mu lu spline Jt (fst s2) (snd s2) None (Some psi2) pb) as [e2|] eqn:E2; [|discriminate]. injection Es2 as <-.
    cbn [fst] in Ep1, Ep2, Eb1, Eb2. split; [|exact (Hbd s1 s2 psi1 psi2 e1 e2 b1 b2 d H1 H2 Hw E1 E2 Eb1 Eb2)].
    assert (Hd : 0 <= d) by (eapply Rle_trans; [apply Rabs_pos|exact (Hw 0%nat 0%nat Hnx Hny)]).
    destruct (HS s1 H1) as (L1 & Q1 & _), (HS s2 H2) as (L2 & Q2 & _).
    destruct (solve_inv _ _ _ _ _ _ _ _ _ _ _ _ E1) as (ea & J1 & p1 & rhs1 & x1 & p1' & I1 & dR1 & dZ1 & c1 & Ea & (ba & bx & pa & Hpa & EJ1) & _ & _ & _ & _ & _ & _ & _ & Ee1).
    destruct (solve_inv _ _ _ _ _ _ _ _ _ _ _ _ E2) as (eb & J2 & p2 & rhs2 & x2 & p2' & I2 & dR2 & dZ2 & c2 & Eb & (bb & by2 & pc & Hpc & EJ2) & _ & _ & _ & _ & _ & _ & _ & Ee2).
    subst pa pc ea eb.
    assert (HJd : forall x y, (x < e_nx e0)%nat -> (y < e_ny e0)%nat -> Rabs (J1 x y - J2 x y) <= L * d) by (refine (HJ _ _ _ _ _ _ _ _ _ _ _ _ d Q1 Q2 _ _ Hw EJ1 EJ2); [exact L1|exact L2]).
    destruct L1 as (D1 & SO1 & B1 & T1 & P1), L2 as (D2 & SO2 & B2 & T2 & P2).
    assert (D12 := eq_trans D1 (eq_sym D2)). injection D2 as N M A A' C2 F.
    assert (HC2 : bounded_inverse (fst s2) C K) by (unfold bounded_inverse; rewrite N, M, A, A', C2, F; exact HC).
    assert (JT1 : jtor e1 = Some J1) by (rewrite Ee1; reflexivity). assert (JT2 : jtor e2 = Some J2) by (rewrite Ee2; reflexivity).
    assert (HB2 : edge_response (G FPsi) (fst s2) B).
    { unfold edge_response in *. replace (grid_R (fst s2)) with (grid_R e0) by (unfold grid_R, R_1D; rewrite N, A, A'; reflexivity).
      replace (grid_Z (fst s2)) with (grid_Z e0) by (unfold grid_Z, Z_1D; rewrite M, C2, F; reflexivity). rewrite N, M. exact HB. }
    assert (Hst := C223_stability P Ctl G mu lu spline Jt (fst s1) (fst s2) e1 e2 _ _ _ _ _ _ _ _ J1 J2 B C K (L * d) SO1 SO2 Hmu ltac:(rewrite A; exact H0) HC2 HK D12 E1 JT1 E2 JT2 B1 B2 HB2).
    rewrite N, M, A' in Hst. specialize (Hst HJd ltac:(apply Rmult_le_pos; assumption)).
    intros i j Hi Hj. rewrite (total_diff e1 e2 psi1' psi2'); [|rewrite Ee1, Ee2; cbn [tok with_profiles with_current with_bs with_plasma]; congruence|rewrite Ee1, Ee2; cbn [pgreen with_profiles with_current with_bs with_plasma]; congruence|exact Ep1|exact Ep2].
    specialize (Hst i j Hi Hj). rewrite Rmult_assoc. exact Hst.
Qed.
Print Assumptions C223_contracts.
(** So there is exactly one free-boundary equilibrium and the iteration ends. *)
Theorem C223_converges : forall (P Ctl : Type) G mu lu spline
    (Jt : P -> equilibrium R P Ctl -> (nat -> nat -> R) -> option R -> result ((nat -> nat -> R) * P * bstate R))
    (S : equilibrium R P Ctl * P -> Prop) e0 (Q : P -> Prop) B C K L Lb p s,
  let run s psi := solve G sqrt mu lu spline Jt (fst s) (snd s) None (Some psi) (user_bndry p) in
  let after s e' := (e', match profiles e' with Some q => q | None => snd s end) in
  0 < mu -> 0 <= Rmin e0 -> bounded_inverse e0 C K -> 0 <= K -> 0 <= L -> 0 <= C -> 0 <= B -> 0 <= Lb -> edge_response (G FPsi) e0 B ->
  (forall s, S s -> like4_free lu e0 (fst s) /\ Q (snd s) /\ S (with_check (fst s) false, snd s)) ->
  (forall s psi, S s -> exists e' b, run s psi = Ok e' /\ S (after s e') /\ psi_bndry (bs e') = Some (Some b)) ->
  (forall s1 s2 psi1 psi2 e1 e2 b1 b2 d, S s1 -> S s2 -> within (e_nx e0) (e_ny e0) psi1 psi2 d -> run s1 psi1 = Ok e1 -> run s2 psi2 = Ok e2 ->
     psi_bndry (bs e1) = Some (Some b1) -> psi_bndry (bs e2) = Some (Some b2) -> Rabs (b1 - b2) <= Lb * d) ->
  lipschitz_free4 lu Jt e0 Q (user_bndry p) L -> (0 < e_nx e0)%nat -> (0 < e_ny e0)%nat ->
  (C * B + K * (mu * Rmax e0)) * L < 1 -> S s ->
  (exists psi, equilibrium_flux (e_nx e0) (e_ny e0) (eq_ops G sqrt mu lu spline Jt None) (user_bndry p) S psi /\
     forall psi', equilibrium_flux (e_nx e0) (e_ny e0) (eq_ops G sqrt mu lu spline Jt None) (user_bndry p) S psi' -> forall i j, (i < e_nx e0)%nat -> (j < e_ny e0)%nat -> psi' i j = psi i j) /\
  (check p = false -> wait p = false -> 0 <= blend p < 1 -> 0 < atol p -> maxits p = None \/ maxits p = Some 0%Z ->
   exists n, forall fuel, (n < fuel)%nat -> exists s' h, picard (e_nx e0) (e_ny e0) _ (eq_ops G sqrt mu lu spline Jt None) p fuel s = (s', Ok h) /\ S s').
Proof.
  intros P Ctl G mu lu spline Jt S e0 Q B C K L Lb p s run after Hmu H0 HCi HK HL HC0 HB0 HLb HB HS Hrun Hbd HJ Hnx Hny Hq1 Hs.
  assert (HC := C223_contracts P Ctl G mu lu spline Jt S e0 Q (user_bndry p) B C K L Lb Hmu H0 HCi HK HL HB HS Hrun Hbd HJ Hnx Hny).
  assert (Hq : 0 <= (C * B + K * (mu * Rmax e0)) * L < 1).
  { split; [|exact Hq1]. destruct (HS s Hs) as ((D & (_ & _ & R1 & _) & _) & _). injection D as _ _ A A' _ _. rewrite A, A' in R1.
    apply Rmult_le_pos; [|exact HL]. apply Rplus_le_le_0_compat; apply Rmult_le_pos; try assumption. apply Rmult_le_pos; lra. }
  split.
  - destruct (C186_exists_unique _ _ _ _ (user_bndry p) S _ Lb s Hnx Hny HC Hq Hs) as (psi & H1 & H2). exists psi. split; [exact H1|]. intros psi' H' i j Hi Hj. apply (H2 psi' H' i j Hi Hj).
  - intros Hchk Hw Hb Ha Hm. destruct (Hrun s (fun _ _ => 0) Hs) as (e' & b & E1 & _). unfold run in E1.
    destruct (solve_ok_psi G mu lu spline Jt _ _ _ _ _ _ E1) as (psi0 & E0).
    exact (C177_eventually (e_nx e0) (e_ny e0) _ (eq_ops G sqrt mu lu spline Jt None) p S _ Lb s psi0 Hnx Hny HC Hq HLb eq_refl Hchk Hw Hb Ha Hm Hs E0).
Qed.
Print Assumptions C223_converges.

(** ** C224 *)
(** The error of the flux that freeBoundary sets at an edge point. *)
Lemma edge_error {P Ctl} (G : R -> R -> R -> R -> R) (e0 : equilibrium R P Ctl) psi K KR KZ B D J pp q kx ky u w :
  let gR := gridpt (Rmin e0) (Rmax e0) (e_nx e0) in let gZ := gridpt (Zmin e0) (Zmax e0) (e_ny e0) in
  Rmin e0 < Rmax e0 -> Zmin e0 < Zmax e0 -> e_nx e0 = S (2 ^ kx) -> e_ny e0 = S (2 ^ ky) -> (2 <= e_nx e0)%nat -> (2 <= e_ny e0)%nat ->
  free_flux G e0 psi K KR KZ -> edge_response G e0 B ->
  (forall x y, (x < e_nx e0)%nat -> (y < e_ny e0)%nat -> Rabs (J x y - K (gR x) (gZ y)) <= D) -> 0 <= D ->
  freeBoundary G (e_nx e0) (e_ny e0) (grid_R e0) (grid_Z e0) J pp = Ok q -> on_edge (e_nx e0) (e_ny e0) u w ->
  Rabs (q u w - psi (gR u) (gZ w)) <= B * D + quadrature_error e0 KR KZ.
Proof.
  intros gR gZ HR HZ Ex Ey Hnx Hny Hfree HB HJd HD Eq Huw. set (quad := quadrature_error e0 KR KZ).
  destruct (freeBoundary_spec G (e_nx e0) (e_ny e0) (grid_R e0) (grid_Z e0) J pp (ex_intro _ kx Ex) (ex_intro _ ky Ey)) as (q' & Eq' & F).
  rewrite Eq in Eq'. apply ok_inj in Eq'. subst q'.
  assert (V1 := proj1 (F u w (proj1 Huw) (proj1 (proj2 Huw))) Huw).
  destruct (Hfree u w Huw) as (F0 & FR & FZ & FI). fold gR gZ in F0, FR, FZ, FI. cbv zeta in F0, FR, FZ, FI. set (f := fun r z => G r z (gR u) (gZ w) * K r z) in *.
  set (Kg := fun i j => K (gR i) (gZ j)).
  set (hR := (Rmax e0 - Rmin e0) / INR (e_nx e0 - 1)). set (hZ := (Zmax e0 - Zmin e0) / INR (e_ny e0 - 1)).
  assert (Px : INR (e_nx e0 - 1) = INR (2 ^ kx)) by (f_equal; rewrite Ex; lia). assert (Py : INR (e_ny e0 - 1) = INR (2 ^ ky)) by (f_equal; rewrite Ey; lia).
  assert (P1 : 0 < INR (2 ^ kx)) by (rewrite <- Px; apply lt_0_INR; lia). assert (P2 : 0 < INR (2 ^ ky)) by (rewrite <- Py; apply lt_0_INR; lia).
  assert (HhR : 0 < hR) by (unfold hR; rewrite Px; apply Rdiv_lt_0_compat; lra). assert (HhZ : 0 < hZ) by (unfold hZ; rewrite Py; apply Rdiv_lt_0_compat; lra).
  assert (ER : Rmin e0 + INR (2 ^ kx) * hR = Rmax e0) by (unfold hR; rewrite Px; field; lra). assert (EZ : Zmin e0 + INR (2 ^ ky) * hZ = Zmax e0) by (unfold hZ; rewrite Py; field; lra).
  assert (GR : forall i j, grid_R e0 i j = gR i) by (intros; apply gridR_is). assert (GZ : forall i j, grid_Z e0 i j = gZ j) by (intros; apply gridZ_is).
  assert (SR : grid_R e0 1%nat 0%nat - grid_R e0 0%nat 0%nat = hR) by (rewrite !GR; unfold gR, gridpt; fold hR; cbn [INR]; ring).
  assert (SZ : grid_Z e0 0%nat 1%nat - grid_Z e0 0%nat 0%nat = hZ) by (rewrite !GZ; unfold gZ, gridpt; fold hZ; cbn [INR]; ring).
  set (v2 := RombProofs.R2 kx ky (fun i j => f (Rmin e0 + INR i * hR) (Zmin e0 + INR j * hZ)) * hR * hZ).
  assert (V2 : plasma_flux_at G (e_nx e0) (e_ny e0) (grid_R e0) (grid_Z e0) Kg u w v2).
  { unfold plasma_flux_at, area_integral. rewrite SR, SZ, Ex, Ey. eexists. split; [apply romb2_R2|]. unfold v2. do 2 f_equal. apply RombProofs.R2_ext. intros i j _ _.
    rewrite !GR, !GZ. replace (Rmin e0 + INR i * hR) with (gR i) by (unfold gR, gridpt; fold hR; ring). replace (Zmin e0 + INR j * hZ) with (gZ j) by (unfold gZ, gridpt; fold hZ; ring).
    destruct (Nat.eqb_spec i u); [destruct (Nat.eqb_spec j w)|]; cbn [andb]; unfold f, Kg; [|reflexivity|reflexivity]. subst i j. first [transitivity 0; [exact F0|symmetry; apply Rmult_0_l]|transitivity 0; [apply Rmult_0_l|symmetry; exact F0]]. }
  assert (W1 : Rabs (q u w - v2) <= B * D).
  { assert (HBv := fun v => HB u w v Huw). assert (HJ' := HJd). rewrite Ex, Ey in HJ', HBv, V1, V2.
    refine (edge_diff G kx ky (grid_R e0) (grid_Z e0) J Kg u w _ _ B D _ _ HBv _ HD V1 V2); [rewrite SR; exact HhR|rewrite SZ; exact HhZ|exact HJ']. }
  assert (W2 : Rabs (v2 - psi (gR u) (gZ w)) <= quad).
  { rewrite FI. rewrite <- ER, <- EZ.
    eapply Rle_trans; [refine (PropRombError.C170_area kx ky hR hZ (Rmin e0) (Zmin e0) f KR KZ v2 HhR HhZ _ _ _); rewrite ?ER, ?EZ; try assumption|].
    - eexists. split; [apply romb2_R2|reflexivity].
    - rewrite ER, EZ. unfold quad, quadrature_error. fold hR hZ. lra. }
  replace (q u w - psi (gR u) (gZ w)) with ((q u w - v2) + (v2 - psi (gR u) (gZ w))) by ring. eapply Rle_trans; [apply Rabs_triang|]. lra.
Qed.
(** Free boundary: the sampled solution is nearly kept by a solve. *)
Theorem C224_consistent : forall (P Ctl : Type) G mu lu spline
    (Jt : P -> equilibrium R P Ctl -> (nat -> nat -> R) -> option R -> result ((nat -> nat -> R) * P * bstate R))
    (S : equilibrium R P Ctl * P -> Prop) e0 (Q : P -> Prop) pb psi F M c B KR KZ C K D,
  let gR := gridpt (Rmin e0) (Rmax e0) (e_nx e0) in let gZ := gridpt (Zmin e0) (Zmax e0) (e_ny e0) in
  0 < mu -> 0 < Rmin e0 -> bounded_inverse e0 C K -> 0 <= K -> (forall s, S s -> like4_free lu e0 (fst s) /\ Q (snd s)) ->
  gs_solution4 mu e0 psi F M -> free_flux (G FPsi) e0 psi F KR KZ -> edge_response (G FPsi) e0 B -> coil_flux e0 c ->
  (forall p e J p' b, Q p -> like4_free lu e0 e -> Jt p e (sampled e0 psi c) pb = Ok (J, p', b) -> forall x y, (x < e_nx e0)%nat -> (y < e_ny e0)%nat -> Rabs (J x y - F (gR x) (gZ y)) <= D) -> 0 <= D ->
  nearly (e_nx e0) (e_ny e0) (eq_ops G sqrt mu lu spline Jt None) pb S (sampled e0 psi c) (C * (B * D + quadrature_error e0 KR KZ) + K * (truncation4 e0 M + mu * Rmax e0 * D)).
Proof.
  intros P Ctl G mu lu spline Jt S e0 Q pb psi F M c B KR KZ C K D gR gZ Hmu Hpos HB HK HS (Hsm & HF) Hfree HBr Hc HJ HD s s' psi' Hs Es Ep.
  cbn [eq_solve eq_ops Picard.eq_psi] in Es, Ep.
  destruct (solve G sqrt mu lu spline Jt (fst s) (snd s) None (Some (sampled e0 psi c)) pb) as [e1|] eqn:E1; [|discriminate]. injection Es as <-. cbn [fst] in Ep.
  destruct (HS s Hs) as (L1 & Q1). assert (L1' := L1). destruct L1 as (D1 & SO & Bf & T & Pg). injection D1 as N N' A A' C1 C1'.
  destruct (solve_inv _ _ _ _ _ _ _ _ _ _ _ _ E1) as (ea & J & p1 & rhs & x & p1' & I1 & dR & dZ & c1 & Ea & (ba & bx & pa & Hpa & EJ) & _ & _ & _ & HI & _ & _ & _ & Ee).
  destruct (romb2_ok _ _ _ _ HI) as (kx & ky & Ex & Ey). rewrite N in Ex. rewrite N' in Ey. clear HI.
  subst pa ea.
  assert (HJd : forall x y, (x < e_nx e0)%nat -> (y < e_ny e0)%nat -> Rabs (J x y - F (gR x) (gZ y)) <= D) by (refine (HJ _ _ _ _ _ Q1 _ EJ); exact L1').
  assert (JT : jtor e1 = Some J) by (rewrite Ee; reflexivity).
  assert (HB1 : bounded_inverse (fst s) C K) by (unfold bounded_inverse; rewrite N, N', A, A', C1, C1'; exact HB).
  assert (He := C220_error P Ctl G mu lu spline Jt (fst s) e1 (snd s) None (Some (sampled e0 psi c)) pb J psi F M C K (B * D + quadrature_error e0 KR KZ) D). cbv zeta in He.
  specialize (He SO Hmu ltac:(rewrite A; exact Hpos) HB1 HK E1 JT). rewrite N, N', A, A', C1, C1' in He. fold gR gZ in He.
  assert (HJi : forall x y, inside (e_nx e0) (e_ny e0) x y -> Rabs (J x y - F (gR x) (gZ y)) <= D) by (intros u w Huw; apply HJd; unfold inside in Huw; lia).
  specialize (He Hsm HF HJi HD).
  assert (Hed : forall x y, on_edge (e_nx e0) (e_ny e0) x y -> Rabs (plasma_psi e1 x y - psi (gR x) (gZ y)) <= B * D + quadrature_error e0 KR KZ).
  { intros u v Huv. assert (SO' := SO). destruct SO' as (Hnx & Hny & HR & HZ & A0 & EA & _ & _).
    destruct (solved4 G mu lu spline Jt (fst s) e1 _ _ _ _ J A0 SO EA E1 JT) as (q & Eq & Hq & _).
    assert (HgR : grid_R (fst s) = grid_R e0) by (unfold grid_R, R_1D; rewrite N, A, A'; reflexivity).
    assert (HgZ : grid_Z (fst s) = grid_Z e0) by (unfold grid_Z, Z_1D; rewrite N', C1, C1'; reflexivity).
    rewrite N, N' in *. rewrite Hq by exact Huv. unfold applyBoundary in Eq. rewrite Bf, N, N', HgR, HgZ in Eq. rewrite A, A' in HR. rewrite C1, C1' in HZ.
    exact (edge_error (G FPsi) e0 psi F KR KZ B D J _ q kx ky u v HR HZ Ex Ey ltac:(lia) ltac:(lia) Hfree HBr HJd HD Eq Huv). }
  specialize (He Hed). intros i j Hi Hj. specialize (He i j Hi Hj).
  assert (T1 : tok e1 = tok e0) by (rewrite Ee; exact T). assert (T2 : pgreen e1 = pgreen e0) by (rewrite Ee; exact Pg).
  rewrite (Hc e1 psi' T1 T2 Ep i j). unfold sampled. fold gR gZ.
  replace (plasma_psi e1 i j + c i j - (psi (gR i) (gZ j) + c i j)) with (plasma_psi e1 i j - psi (gR i) (gZ j)) by ring. exact He.
Qed.
Print Assumptions C224_consistent.
(** So picard.solve with the free boundary returns the solution of the free-boundary problem up to the errors of the area integral, of
    the operator, of the profile and the tolerance. *)
Theorem C224_free : forall (P Ctl : Type) G mu lu spline
    (Jt : P -> equilibrium R P Ctl -> (nat -> nat -> R) -> option R -> result ((nat -> nat -> R) * P * bstate R))
    (S : equilibrium R P Ctl * P -> Prop) e0 (Q : P -> Prop) B C K L Lb p s psi F M c KR KZ D,
  let run s psi := solve G sqrt mu lu spline Jt (fst s) (snd s) None (Some psi) (user_bndry p) in
  let after s e' := (e', match profiles e' with Some q => q | None => snd s end) in
  let gR := gridpt (Rmin e0) (Rmax e0) (e_nx e0) in let gZ := gridpt (Zmin e0) (Zmax e0) (e_ny e0) in
  let q := (C * B + K * (mu * Rmax e0)) * L in
  0 < mu -> 0 < Rmin e0 -> bounded_inverse e0 C K -> 0 <= K -> 0 <= L -> 0 <= C -> 0 <= B -> edge_response (G FPsi) e0 B ->
  (forall s, S s -> like4_free lu e0 (fst s) /\ Q (snd s) /\ S (with_check (fst s) false, snd s)) ->
  (forall s psi, S s -> exists e' b, run s psi = Ok e' /\ S (after s e') /\ psi_bndry (bs e') = Some (Some b)) ->
  (forall s1 s2 psi1 psi2 e1 e2 b1 b2 d, S s1 -> S s2 -> within (e_nx e0) (e_ny e0) psi1 psi2 d -> run s1 psi1 = Ok e1 -> run s2 psi2 = Ok e2 ->
     psi_bndry (bs e1) = Some (Some b1) -> psi_bndry (bs e2) = Some (Some b2) -> Rabs (b1 - b2) <= Lb * d) ->
  lipschitz_free4 lu Jt e0 Q (user_bndry p) L -> (0 < e_nx e0)%nat -> (0 < e_ny e0)%nat -> q < 1 -> S s ->
  gs_solution4 mu e0 psi F M -> free_flux (G FPsi) e0 psi F KR KZ -> coil_flux e0 c ->
  (forall p1 e J p' b, Q p1 -> like4_free lu e0 e -> Jt p1 e (sampled e0 psi c) (user_bndry p) = Ok (J, p', b) -> forall x y, (x < e_nx e0)%nat -> (y < e_ny e0)%nat -> Rabs (J x y - F (gR x) (gZ y)) <= D) -> 0 <= D ->
  forall fuel s' h psi1, check p = false ->
  picard (e_nx e0) (e_ny e0) _ (eq_ops G sqrt mu lu spline Jt None) p fuel s = (s', Ok h) -> total_psi (fst s') = Ok psi1 ->
  exists m hs r, h = hs ++ [(m, r)] /\ 0 <= m /\ (m < atol p \/ m < rtol p * (amax (e_nx e0) (e_ny e0) psi1 - amin (e_nx e0) (e_ny e0) psi1)) /\
  forall i j, (i < e_nx e0)%nat -> (j < e_ny e0)%nat ->
    Rabs (psi1 i j - sampled e0 psi c i j) <= (C * (B * D + quadrature_error e0 KR KZ) + K * (truncation4 e0 M + mu * Rmax e0 * D) + q * m) / (1 - q).
Proof.
  intros P Ctl G mu lu spline Jt S e0 Q B C K L Lb p s psi F M c KR KZ D run after gR gZ q Hmu Hpos HB HK HL HC0 HB0 HBr HS Hrun Hbd HJ Hnx Hny Hq1 Hs Hgs Hff Hc HJc HD fuel s' h psi1 Hchk Epic Ep.
  assert (HC := C223_contracts P Ctl G mu lu spline Jt S e0 Q (user_bndry p) B C K L Lb Hmu ltac:(lra) HB HK HL HBr HS Hrun Hbd HJ Hnx Hny). fold q in HC.
  assert (Hq : 0 <= q < 1).
  { split; [|exact Hq1]. destruct (HS s Hs) as ((D1 & (_ & _ & R1 & _) & _) & _). injection D1 as _ _ A A' _ _. rewrite A, A' in R1.
    unfold q. apply Rmult_le_pos; [|exact HL]. apply Rplus_le_le_0_compat; apply Rmult_le_pos; try assumption. apply Rmult_le_pos; lra. }
  assert (HN := C224_consistent P Ctl G mu lu spline Jt S e0 Q (user_bndry p) psi F M c B KR KZ C K D Hmu Hpos HB HK (fun s Hs => conj (proj1 (HS s Hs)) (proj1 (proj2 (HS s Hs)))) Hgs Hff HBr Hc HJc HD).
  exact (proj2 (C188_near _ _ _ _ p S q Lb _ _ s Hnx Hny HC Hq Hs HN) fuel s' h psi1 eq_refl Hchk Epic Ep).
Qed.
Print Assumptions C224_free.

(** The flux (1600 - Z^2) ((R - 100) (108 - R) + 1/1600) on 100 <= R <= 108, -40 <= Z <= 40, which is 1 - Z^2 / 1600 at the inner and
    outer edges, with a "Green's function" that gives these edge values; the profile adds a part in 10^9 of the flux difference.  The
    flux reaches 25600 and is returned to within 30 on 9 x 9 points; the error comes from the area integral, the operator is exact. *)
Definition qx_psi (r z : R) : R := (1600 - z ^ 2) * ((r - 100) * (108 - r) + / 1600).
Definition qx_F (r z : R) : R := (208 * (1600 - z ^ 2) / r + 2 * ((r - 100) * (108 - r)) + 2 / 1600) / r.
Definition qx_G (_ : field) (r z r' z' : R) : R := 6 * ((r - 100) * (108 - r)) / 512 / 80 * (1 - z' ^ 2 / 1600) / qx_F r z.
Definition qx_profile (psi : arr2 R) : arr2 R := fun i j => let r := gridpt 100 108 9 i in let z := gridpt (-40) 40 9 j in qx_F r z + (psi i j - qx_psi r z) / 1000000000.
Definition qx_Jt (q : unit) (e : equilibrium R unit unit) (psi : arr2 R) (_ : option R) : result (arr2 R * unit * bstate R) := Ok (qx_profile psi, q, mkb None (Some (Some 1)) None None None false None).
Definition qx_eq (A : arr2 R) : equilibrium R unit unit :=
  mkeq 9 9 100 108 (-40) 40 (mktok [] false []) BFree 4 (SMatrix (MGDirect 81 A)) false (fun _ _ => 0) (fun _ _ => []) 0 None no_boundary None None.
Definition qx_state (A : arr2 R) (s : equilibrium R unit unit * unit) : Prop := like4_free elimination (qx_eq A) (fst s) /\ slv (fst s) = SMatrix (MGDirect 81 A).
Lemma qx_F_ge r z : 100 <= r <= 108 -> -40 <= z <= 40 -> / 86400 <= qx_F r z.
Proof.
  intros Hr Hz. unfold qx_F. assert (Z0 : 0 <= 1600 - z ^ 2) by nra. assert (I0 : 0 < / r) by (apply Rinv_0_lt_compat; lra).
  assert (I1 : / 108 <= / r) by (apply Rinv_le_contravar; lra).
  assert (X : 0 <= 208 * (1600 - z ^ 2) / r) by (apply Rmult_le_pos; lra). assert (Y : 0 <= (r - 100) * (108 - r)) by (apply Rmult_le_pos; lra).
  set (u := 208 * (1600 - z ^ 2) / r) in *. clearbody u. unfold Rdiv. replace (/ 86400) with (2 / 1600 * / 108) by field. apply Rmult_le_compat; lra.
Qed.
Lemma qx_solution A : gs_solution4 1 (qx_eq A) qx_psi qx_F 0.
Proof.
  assert (Er : forall z t, qx_psi t z = pl ((1600 - z ^ 2) * (/ 1600 - 10800)) ((1600 - z ^ 2) * 208) (- (1600 - z ^ 2)) 0 0 0 t) by (intros; unfold qx_psi, pl; ring).
  assert (Ez : forall r t, qx_psi r t = pl (1600 * ((r - 100) * (108 - r) + / 1600)) 0 (- ((r - 100) * (108 - r) + / 1600)) 0 0 0 t) by (intros; unfold qx_psi, pl; ring).
  split.
  - split; [|split].
    + intros r z k _ _. eapply ex_derive_n_ext; [intros t; symmetry; apply (Er z t)|apply ex_derive_n_quintic].
    + intros r z k _ _. eapply ex_derive_n_ext; [intros t; symmetry; apply (Ez r t)|apply ex_derive_n_quintic].
    + intros r z Hr Hz. rewrite !(Derive_n_ext _ _ _ _ (Er z)), (Derive_n_ext _ _ _ _ (Ez r)), !Derive_n_quintic. cbn [Derive_n]. unfold pl. split; [|split]; apply Rabs_le; lra.
  - intros r z Hr _. cbn [Rmin Rmax qx_eq] in Hr. unfold GSop. rewrite (Derive_n_ext _ _ _ _ (Er z)), (Derive_n_ext _ _ _ _ (Ez r)), !Derive_n_quintic. cbn [Derive_n].
    rewrite (Derive_ext _ _ _ (Er z)), Derive_pl. unfold pl, qx_F. field. lra.
Qed.
Lemma qx_edge x y : on_edge 9 9 x y -> gridpt 100 108 9 x = 100 \/ gridpt 100 108 9 x = 108 \/ gridpt (-40) 40 9 y = -40 \/ gridpt (-40) 40 9 y = 40.
Proof.
  intros Hxy. unfold on_edge in Hxy. unfold gridpt. replace (INR (9 - 1)) with 8 by (cbn [Nat.sub INR]; lra).
  assert (Hc : (x = 0 \/ x = 8 \/ y = 0 \/ y = 8)%nat) by lia. destruct Hc as [-> | [-> | [-> | ->]]]; cbn [INR]; [left|right; left|right; right; left|right; right; right]; field.
Qed.
Lemma qx_weight r z' : 100 <= r <= 108 -> -40 <= z' <= 40 -> 0 <= 6 * ((r - 100) * (108 - r)) / 512 / 80 * (1 - z' ^ 2 / 1600) <= 3 / 1280.
Proof.
  intros Hr Hz. assert (V : 0 <= 1 - z' ^ 2 / 1600 <= 1) by (assert (0 <= z' ^ 2 <= 1600) by nra; lra). assert (U : 0 <= (r - 100) * (108 - r) <= 16) by (assert (X := pow2_ge_0 (r - 104)); split; [apply Rmult_le_pos; lra|lra]).
  set (u := (r - 100) * (108 - r)) in *. set (t := 1 - z' ^ 2 / 1600) in *. clearbody u t.
  assert (X : 0 <= u * t <= 16) by (split; [apply Rmult_le_pos; lra|]; replace 16 with (16 * 1) by ring; apply Rmult_le_compat; lra).
  replace (6 * u / 512 / 80 * t) with (6 / 512 / 80 * (u * t)) by field. lra.
Qed.
Lemma qx_response A : edge_response (qx_G FPsi) (qx_eq A) 129600.
Proof.
  intros x y v Hxy (s & Es & ->). cbn [e_nx e_ny qx_eq] in Es, Hxy. change (romb2 9 9) with (romb2 (T := R) (S (2 ^ 3)) (S (2 ^ 3))) in Es. rewrite romb2_R2 in Es. apply ok_inj in Es. subst s.
  match goal with |- RombProofs.R2 3 3 ?g * _ * _ <= _ => assert (H := DiagnosticsProofs.R2_mono 3 3 g (fun i _ => 405 / 2 + 0 * INR i)) end.
  rewrite DiagnosticsProofs.R2_line in H. set (e := qx_eq A) in *.
  assert (X : forall i j : nat, (i <= 2 ^ 3)%nat -> (j <= 2 ^ 3)%nat -> (if ((i =? x)%nat && (j =? y)%nat)%bool then 0 else Rabs (qx_G FPsi (grid_R e i j) (grid_Z e i j) (grid_R e x y) (grid_Z e x y))) * 1 <= 405 / 2 + 0 * INR i).
  { intros i j Hi Hj. change (2 ^ 3)%nat with 8%nat in Hi, Hj. destruct ((i =? x)%nat && (j =? y)%nat)%bool; [lra|]. rewrite !gridR_is, !gridZ_is. cbn [Rmin Rmax Zmin Zmax e_nx e_ny e qx_eq].
    assert (A1 := gridpt_ge 100 108 9 i ltac:(lra) ltac:(lia)). assert (A2 := gridpt_le 100 108 9 i ltac:(lra) ltac:(lia) ltac:(lia)).
    assert (A3 := gridpt_ge (-40) 40 9 j ltac:(lra) ltac:(lia)). assert (A4 := gridpt_le (-40) 40 9 j ltac:(lra) ltac:(lia) ltac:(lia)).
    assert (A5 := gridpt_ge (-40) 40 9 y ltac:(lra) ltac:(lia)). assert (A6 := gridpt_le (-40) 40 9 y ltac:(lra) ltac:(lia) ltac:(unfold on_edge in Hxy; lia)).
    set (r := gridpt 100 108 9 i) in *. set (z := gridpt (-40) 40 9 j) in *. set (w := gridpt (-40) 40 9 y) in *. clearbody r z w. unfold qx_G.
    assert (F0 := qx_F_ge r z (conj A1 A2) (conj A3 A4)). assert (W := qx_weight r w (conj A1 A2) (conj A5 A6)). set (k := 6 * ((r - 100) * (108 - r)) / 512 / 80 * (1 - w ^ 2 / 1600)) in *. set (f := qx_F r z) in *. clearbody k f.
    assert (I : 0 < / f) by (apply Rinv_0_lt_compat; lra). assert (I2 : / f <= 86400) by (rewrite <- (Rinv_inv 86400); apply Rinv_le_contravar; [apply Rinv_0_lt_compat|]; lra).
    unfold Rdiv at 1. rewrite Rabs_right by (apply Rle_ge, Rmult_le_pos; lra). rewrite Rmult_1_r, Rmult_0_l, Rplus_0_r.
    apply Rle_trans with (3 / 1280 * 86400); [apply Rmult_le_compat; lra|lra]. }
  specialize (H X). match goal with |- ?w * _ * _ <= _ => set (W := w) in * end. clearbody W. rewrite !gridR_is, !gridZ_is. cbn [Rmin Rmax Zmin Zmax e_nx e_ny e qx_eq].
  replace (INR (2 ^ 3)) with 8 in H by (cbn; lra).
  replace (gridpt 100 108 9 1 - gridpt 100 108 9 0) with 1 by (unfold gridpt; replace (INR (9 - 1)) with 8 by (cbn [Nat.sub INR]; lra); cbn [INR]; field).
  replace (gridpt (-40) 40 9 1 - gridpt (-40) 40 9 0) with 10 by (unfold gridpt; replace (INR (9 - 1)) with 8 by (cbn [Nat.sub INR]; lra); cbn [INR]; field).
  lra.
Qed.
Lemma qx_cancel r z r' z' : 100 <= r <= 108 -> -40 <= z <= 40 -> qx_G FPsi r z r' z' * qx_F r z = 6 * ((r - 100) * (108 - r)) / 512 / 80 * (1 - z' ^ 2 / 1600).
Proof. intros Hr Hz. assert (F0 := qx_F_ge r z Hr Hz). unfold qx_G. field. lra. Qed.
Lemma qx_free A : free_flux (qx_G FPsi) (qx_eq A) qx_psi qx_F (3 / 2560) 0.
Proof.
  intros x y Hxy. cbn [Rmin Rmax Zmin Zmax e_nx e_ny qx_eq] in Hxy |- *.
  assert (A1 := gridpt_ge 100 108 9 x ltac:(lra) ltac:(lia)). assert (A2 := gridpt_le 100 108 9 x ltac:(lra) ltac:(lia) ltac:(unfold on_edge in Hxy; lia)).
  assert (A3 := gridpt_ge (-40) 40 9 y ltac:(lra) ltac:(lia)). assert (A4 := gridpt_le (-40) 40 9 y ltac:(lra) ltac:(lia) ltac:(unfold on_edge in Hxy; lia)).
  assert (Ed := qx_edge x y Hxy). set (r' := gridpt 100 108 9 x) in *. set (z' := gridpt (-40) 40 9 y) in *. clearbody r' z'.
  assert (V : 0 <= 1 - z' ^ 2 / 1600 <= 1) by (assert (0 <= z' ^ 2 <= 1600) by nra; lra).
  split; [|split; [|split]].
  - rewrite qx_cancel by lra. destruct Ed as [-> | [-> | [-> | ->]]]; field.
  - intros z Hz r1 r2 H1 H2. rewrite !qx_cancel by lra.
    match goal with |- Rabs ?a <= _ => replace a with ((6 / 512 / 80 * (1 - z' ^ 2 / 1600) * (208 - r1 - r2)) * (r1 - r2)) by field end.
    rewrite Rabs_mult. apply Rmult_le_compat_r; [apply Rabs_pos|]. set (t := 1 - z' ^ 2 / 1600) in *. clearbody t. apply Rabs_le. split; nra.
  - intros r Hr z1 z2 H1 H2. rewrite !qx_cancel by lra. rewrite Rminus_diag_eq by reflexivity. rewrite Rabs_R0. assert (X := Rabs_pos (z1 - z2)). lra.
  - set (t := 1 - z' ^ 2 / 1600) in *.
    assert (E1 : forall r, 100 <= r <= 108 -> RInt (fun z => qx_G FPsi r z r' z' * qx_F r z) (-40) 40 = pl (-10800 * (6 / 512) * t) (208 * (6 / 512) * t) (- (6 / 512) * t) 0 0 0 r).
    { intros r Hr. rewrite (RInt_ext (V := R_CompleteNormedModule) _ (fun _ => 6 * ((r - 100) * (108 - r)) / 512 / 80 * t)).
      - rewrite RInt_const. change ((40 - -40) * (6 * ((r - 100) * (108 - r)) / 512 / 80 * t) = pl (-10800 * (6 / 512) * t) (208 * (6 / 512) * t) (- (6 / 512) * t) 0 0 0 r). unfold pl. field.
      - intros z Hz. rewrite Rmin_left, Rmax_right in Hz by lra. apply qx_cancel; lra. }
    symmetry. rewrite (RInt_ext (V := R_CompleteNormedModule) _ (pl (-10800 * (6 / 512) * t) (208 * (6 / 512) * t) (- (6 / 512) * t) 0 0 0)).
    2: { intros r Hr. rewrite Rmin_left, Rmax_right in Hr by lra. apply E1. lra. }
    apply is_RInt_unique.
    set (I := pl 0 (-10800 * (6 / 512) * t) (104 * (6 / 512) * t) (- (2 / 512) * t) 0 0).
    replace (qx_psi r' z') with (I 108 - I 100).
    2: { unfold I, pl, qx_psi, t. destruct Ed as [-> | [-> | [-> | ->]]]; field. }
    apply (is_RInt_derive (V := R_CompleteNormedModule) I).
    + intros u _. unfold I, pl. auto_derive; [exact Logic.I|field].
    + intros u _. apply (ex_derive_continuous (V := R_NormedModule)). unfold pl. auto_derive. exact Logic.I.
Qed.
Lemma qx_run A s psi : qx_state A s -> exists e', solve qx_G sqrt 1 elimination flat_spline qx_Jt (fst s) (snd s) None (Some psi) None = Ok e' /\
  qx_state A (e', match profiles e' with Some q => q | None => snd s end) /\ psi_bndry (bs e') = Some (Some 1).
Proof.
  destruct s as (e, u). cbn [fst snd]. intros ((D & SO & Hb & Ht & Hp) & Hs). cbn [fst snd] in *. cbn [e_nx e_ny Rmin Rmax Zmin Zmax tok pgreen qx_eq] in D, Ht, Hp. injection D as N M A1 A2 A3 A4.
  assert (Hc : coils (tok e) = []) by (rewrite Ht; reflexivity).
  assert (D9 : dyadic 9) by (exists 3%nat; reflexivity).
  set (J := qx_profile psi). set (b0 := mkb None (Some (Some 1)) None None None false None).
  destruct (romb2_dyadic 9 9 J D9 D9) as (r & Er).
  set (e1 := with_profiles e (Some u) (control e)). set (e2 := with_bs e1 (bs e1)). set (e3 := with_profiles (with_bs e2 b0) (Some u) (control e2)).
  destruct (freeBoundary_spec (qx_G FPsi) 9 9 (grid_R e) (grid_Z e) J (plasma_psi e) D9 D9) as (q & Eq & _).
  destruct (set_edges_spec 9 9 (fun i j => nmul (nmul (nopp 1) (grid_R e3 i j)) (J i j)) q ltac:(lia) ltac:(lia)) as (rhs & Erh & _).
  assert (SR : exists d, spacing_R (e_nx e) (e_ny e) (grid_R e) = Ok d) by (eexists; apply spacing_R_ok; lia).
  assert (SZ : exists d, spacing_Z (e_nx e) (e_ny e) (grid_Z e) = Ok d) by (eexists; apply spacing_Z_ok; lia).
  destruct SR as (dR & SR), SZ as (dZ & SZ).
  assert (E1 : update_own flat_spline e1 = Ok e2) by (apply flat_own; cbn [tok e_nx e_ny Rmin Rmax Zmin Zmax e1 with_profiles]; rewrite ?N, ?M, ?A1, ?A2, ?A3, ?A4; try lia; try lra; exact Hc).
  eexists. split.
  - unfold solve. fold e1. rewrite E1. cbn [bind]. unfold qx_Jt at 1. cbn [bind]. fold J b0.
    change (with_profiles (with_bs e2 b0) (Some u) (control e2)) with e3. unfold linear_solve, applyBoundary.
    change (bnd e3) with (bnd e). rewrite Hb. change (grid_R e3) with (grid_R e). change (grid_Z e3) with (grid_Z e). change (e_nx e3) with (e_nx e). change (e_ny e3) with (e_ny e). rewrite N, M. change (plasma_psi e3) with (plasma_psi e). rewrite Eq. cbn [bind].
    change (grid_R e3) with (grid_R e) in Erh. rewrite Erh. cbn [bind].
    unfold callSolver. change (slv e3) with (slv e). rewrite Hs. unfold solver_call. change (e_nx e3) with (e_nx e). change (e_ny e3) with (e_ny e). rewrite N, M. cbn [mg_call]. change (81 =? 9 * 9)%nat with true. cbn [bind].
    assert (U := fun x => flat_update_plasma e3 x). cbn [e_nx e_ny Rmin Rmax Zmin Zmax tok e3 e2 e1 with_profiles with_bs] in U. rewrite N, M, A1, A2, A3, A4 in U.
    rewrite U; [|lia|lia|lra|lra|exact Hc]. cbn [bind].
    match goal with |- bind (romb2 ?a ?b ?c) _ = _ => change (romb2 a b c) with (romb2 (e_nx e) (e_ny e) J) end. rewrite N, M, Er. cbn [bind].
    match goal with |- bind (spacing_R ?a ?b ?c) _ = _ => change (spacing_R a b c) with (spacing_R (e_nx e) (e_ny e) (grid_R e)) end. rewrite SR. cbn [bind].
    match goal with |- bind (spacing_Z ?a ?b ?c) _ = _ => change (spacing_Z a b c) with (spacing_Z (e_nx e) (e_ny e) (grid_Z e)) end. rewrite SZ. reflexivity.
  - split; [|reflexivity]. split; [|exact Hs]. split; [cbn; congruence|]. split; [exact SO|]. split; [exact Hb|]. split; [exact Ht|exact Hp].
Qed.
Lemma qx_facts : exists A, let S := qx_state A in let e0 := qx_eq A in let run s psi := solve qx_G sqrt 1 elimination flat_spline qx_Jt (fst s) (snd s) None (Some psi) None in
  S (e0, tt) /\ bounded_inverse e0 47 56 /\
  (forall s, S s -> like4_free elimination e0 (fst s) /\ (fun _ : unit => True) (snd s) /\ S (with_check (fst s) false, snd s)) /\
  (forall s psi, S s -> exists e' b, run s psi = Ok e' /\ S (e', match profiles e' with Some q => q | None => snd s end) /\ psi_bndry (bs e') = Some (Some b)) /\
  (forall s1 s2 psi1 psi2 e1 e2 b1 b2 d, S s1 -> S s2 -> within 9 9 psi1 psi2 d -> run s1 psi1 = Ok e1 -> run s2 psi2 = Ok e2 ->
     psi_bndry (bs e1) = Some (Some b1) -> psi_bndry (bs e2) = Some (Some b2) -> Rabs (b1 - b2) <= 0 * d) /\
  lipschitz_free4 elimination qx_Jt e0 (fun _ => True) None (1 / 1000000000).
Proof.
  destruct nine_run as (A & HF & _). exists A. cbv zeta.
  assert (HF' : fourth_order elimination (qx_eq A)) by exact HF.
  split; [split; [|reflexivity]; split; [reflexivity|]; split; [exact HF'|]; repeat split|].
  split. { replace 56 with (7 / 8 * (Rmax (qx_eq A) - Rmin (qx_eq A)) ^ 2) by (cbn; lra). apply C220_nine; try reflexivity; cbn [qx_eq Rmin Rmax Zmin Zmax e_ny]; try lia; try lra. cbn [Nat.sub INR]. lra. }
  split; [intros s Hs; split; [apply Hs|]; split; [exact I|exact Hs]|].
  split. { intros s psi Hs. destruct (qx_run A s psi Hs) as (e' & E1 & E2 & E3). exists e', 1. split; [exact E1|]. split; [exact E2|exact E3]. }
  split.
  { intros s1 s2 psi1 psi2 e1 e2 b1 b2 d H1 H2 _ E1 E2 B1 B2. destruct (qx_run A s1 psi1 H1) as (e1' & E1' & _ & S1). destruct (qx_run A s2 psi2 H2) as (e2' & E2' & _ & S2).
    rewrite E1 in E1'. apply ok_inj in E1'. subst e1'. rewrite E2 in E2'. apply ok_inj in E2'. subst e2'.
    rewrite B1 in S1. rewrite B2 in S2. injection S1 as ->. injection S2 as ->. rewrite Rminus_diag_eq by reflexivity. rewrite Rabs_R0. lra. }
  intros p1 p2 e1 e2 psi1 psi2 J1 J2 p1' p2' b1 b2 d _ _ _ _ Hw E1 E2 x y Hx Hy. injection E1 as <- _ _. injection E2 as <- _ _. unfold qx_profile.
  match goal with |- Rabs ?a <= _ => replace a with (/ 1000000000 * (psi1 x y - psi2 x y)) by (unfold Rdiv; ring) end. rewrite Rabs_mult, (Rabs_right (/ 1000000000)) by lra.
  assert (H := Hw x y Hx Hy). lra.
Qed.
Example C223_example : exists A n psi, equilibrium_flux 9 9 (eq_ops qx_G sqrt 1 elimination flat_spline qx_Jt None) None (qx_state A) psi /\ qx_state A (qx_eq A, tt) /\
  forall fuel, (n < fuel)%nat -> exists s' h, picard 9 9 _ (eq_ops qx_G sqrt 1 elimination flat_spline qx_Jt None) (plain_options None 0 1) fuel (qx_eq A, tt) = (s', Ok h) /\ qx_state A s'.
Proof.
  destruct qx_facts as (A & HS0 & HB & HS & Hrun & Hbd & HJ). exists A.
  destruct (C223_converges unit unit qx_G 1 elimination flat_spline qx_Jt (qx_state A) (qx_eq A) (fun _ => True) 129600 47 56 (1 / 1000000000) 0 (plain_options None 0 1) (qx_eq A, tt)) as ((psi & Hp & _) & Hn);
    try assumption; try exact (qx_response A); try (cbn [qx_eq Rmin Rmax e_nx e_ny]; try lia; lra).
  destruct Hn as (n & Hn); try reflexivity; try (cbn [plain_options blend atol]; nR; lra). { left. reflexivity. }
  exists n, psi. split; [exact Hp|]. split; [exact HS0|exact Hn].
Qed.
Example C224_example : exists A n, forall fuel, (n < fuel)%nat -> exists s' h psi1,
  picard 9 9 _ (eq_ops qx_G sqrt 1 elimination flat_spline qx_Jt None) (plain_options None 0 1) fuel (qx_eq A, tt) = (s', Ok h) /\
  total_psi (fst s') = Ok psi1 /\ forall i j, (i < 9)%nat -> (j < 9)%nat -> Rabs (psi1 i j - qx_psi (gridpt 100 108 9 i) (gridpt (-40) 40 9 j)) <= 30.
Proof.
  destruct qx_facts as (A & HS0 & HB & HS & Hrun & Hbd & HJ). exists A. set (e0 := qx_eq A) in *.
  destruct (C223_converges unit unit qx_G 1 elimination flat_spline qx_Jt (qx_state A) e0 (fun _ => True) 129600 47 56 (1 / 1000000000) 0 (plain_options None 0 1) (e0, tt)) as (_ & Hn);
    try assumption; try exact (qx_response A); try (cbn [e0 qx_eq Rmin Rmax e_nx e_ny]; try lia; lra).
  destruct Hn as (n & Hn); try reflexivity; try (cbn [plain_options blend atol]; nR; lra). { left. reflexivity. }
  exists n. intros fuel Hf. destruct (Hn fuel Hf) as (s' & h & E1 & Hs'). exists s', h.
  destruct (no_coils_psi (fst s')) as (psi1 & Ep & _).
  { destruct Hs' as ((_ & _ & _ & Ht & _) & _). rewrite Ht. reflexivity. }
  exists psi1. split; [exact E1|]. split; [exact Ep|].
  destruct (C224_free unit unit qx_G 1 elimination flat_spline qx_Jt (qx_state A) e0 (fun _ => True) 129600 47 56 (1 / 1000000000) 0 (plain_options None 0 1) (e0, tt)
    qx_psi qx_F 0 (fun _ _ => 0) (3 / 2560) 0 0) with (fuel := fuel) (s' := s') (h := h) (psi1 := psi1) as (m & hs & r & _ & M0 & M1 & HM);
    try assumption; try exact (qx_response A); try exact (qx_solution A); try exact (qx_free A); try reflexivity; try exact (no_coil_flux e0 eq_refl); try (cbn [e0 qx_eq Rmin Rmax e_nx e_ny]; try lia; lra).
  - intros p1 e J p' b _ _ EJ x y Hx Hy. injection EJ as <- _ _. unfold qx_profile, sampled. cbn [Rmin Rmax Zmin Zmax e_nx e_ny e0 qx_eq].
    match goal with |- Rabs ?a <= _ => replace a with 0 by (unfold Rdiv; ring) end. rewrite Rabs_R0. lra.
  - intros i j Hi Hj. specialize (HM i j Hi Hj). unfold sampled in HM. cbn [Rmin Rmax Zmin Zmax e_nx e_ny e0 qx_eq] in HM. rewrite Rplus_0_r in HM. eapply Rle_trans; [exact HM|].
    assert (Hm : m < 1) by (destruct M1 as [H|H]; [exact H|cbn [rtol plain_options] in H; lra]).
    unfold truncation4, quadrature_error. cbn [Rmin Rmax Zmin Zmax e_nx e_ny e0 qx_eq]. replace (INR (9 - 1)) with 8 by (cbn [Nat.sub INR]; lra). lra.
Qed.
