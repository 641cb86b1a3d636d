(** C222: the flux returned by the Picard iteration with the fourth-order solver and the solution of the Grad-Shafranov equation. *)
From Coq Require Import String List Arith ZArith QArith Bool Reals Lra Lia.
From Coquelicot Require Import Rcomplements Derive.
From Verif Require Import Py Num Numpy Romb RombProofs RombExact Multigrid MultigridProofs Gauss Coils Machine Critical Boundary BoundarySpec BoundaryProofs
  GradShafranov GradShafranovProofs Equilibrium EquilibriumSpec EquilibriumProofs EquilibriumProofs2 EquilibriumProofs3 GSSpec GS4Proofs FourthProofs FourthBound EllipticSpec PropGreens PropBoundary PropEquilibrium FittingProofs PropSolveFlux PropSolveError GSConsistency PropGS4Error PropEquilibrium2
  PropFourth PropFourthSign Picard PicardProofs PropPicard PropPicardLimit PropFixedPoint PropStart PropTrueFlux PropFourthError.
Import ListNotations.
Local Open Scope R_scope.

(** A plasma flux [psi] with the current density [F]: the Grad-Shafranov equation on the domain, bounded fifth and sixth derivatives. *)
Definition gs_solution4 {P Ctl} (mu : R) (e0 : equilibrium R P Ctl) (psi F : R -> R -> R) (M : R) : Prop :=
  smooth6 psi (Rmin e0) (Rmax e0) (Zmin e0) (Zmax e0) M /\
  forall r z, Rmin e0 <= r <= Rmax e0 -> Zmin e0 <= z <= Zmax e0 -> GSop psi r z = - mu * r * F r z.
(** The truncation error of the fourth-order operator (C173). *)
Definition truncation4 {P Ctl} (e0 : equilibrium R P Ctl) (M : R) : R :=
  let dR := (Rmax e0 - Rmin e0) / INR (e_nx e0 - 1) in let dZ := (Zmax e0 - Zmin e0) / INR (e_ny e0 - 1) in
  M * (469 / 432 * dZ ^ 4 + 469 / 432 * dR ^ 4 + 19 / 60 * dR ^ 4 / Rmin e0).

(** ** C222 *)
(** Fixed boundary: the sampled solution is nearly kept by a solve. *)
Theorem C222_consistent : forall (P Ctl : Type) G mu lu spline
    (Jt : P -> equilibrium R P Ctl -> (nat -> nat -> R) -> option R -> result ((nat -> nat -> R) * P * bstate R))
    (S : equilibrium R P Ctl * P -> Prop) e0 (Q : P -> Prop) pb psi F M c C K d D,
  let gR := gridpt (Rmin e0) (Rmax e0) (e_nx e0) in let gZ := gridpt (Zmin e0) (Zmax e0) (e_ny e0) in
  0 < mu -> 0 < Rmin e0 -> bounded_inverse e0 C K -> 0 <= K -> (forall s, S s -> like4 lu e0 (fst s) /\ Q (snd s)) ->
  gs_solution4 mu e0 psi F M -> coil_flux e0 c ->
  (forall p e J p' b, Q p -> like4 lu e0 e -> Jt p e (sampled e0 psi c) pb = Ok (J, p', b) -> forall x y, inside (e_nx e0) (e_ny e0) x y -> Rabs (J x y - F (gR x) (gZ y)) <= D) -> 0 <= D ->
  (forall x y, on_edge (e_nx e0) (e_ny e0) x y -> Rabs (psi (gR x) (gZ y)) <= d) ->
  nearly (e_nx e0) (e_ny e0) (eq_ops G sqrt mu lu spline Jt None) pb S (sampled e0 psi c) (C * d + K * (truncation4 e0 M + mu * Rmax e0 * D)).
Proof.
  intros P Ctl G mu lu spline Jt S e0 Q pb psi F M c C K d D gR gZ Hmu Hpos HB HK HS (Hsm & HF) Hc HJ HD Hd s s' psi' Hs Es Ep.
  cbn [eq_solve eq_ops Picard.eq_psi] in Es, Ep.
  destruct (solve G sqrt mu lu spline Jt (fst s) (snd s) None (Some (sampled e0 psi c)) pb) as [e1|] eqn:E1; [|discriminate]. injection Es as <-. cbn [fst] in Ep.
  destruct (HS s Hs) as (L1 & Q1). assert (L1' := L1). destruct L1 as (D1 & SO & B & T & Pg). injection D1 as N N' A A' C1 C1'.
  destruct (solve_inv _ _ _ _ _ _ _ _ _ _ _ _ E1) as (ea & J & p1 & rhs & x & p1' & I1 & dR & dZ & c1 & Ea & (ba & bx & pa & Hpa & EJ) & _ & _ & _ & _ & _ & _ & _ & Ee).
  subst pa ea.
  assert (HJd : forall x y, inside (e_nx e0) (e_ny e0) x y -> Rabs (J x y - F (gR x) (gZ y)) <= D) by (refine (HJ _ _ _ _ _ Q1 _ EJ); exact L1').
  assert (JT : jtor e1 = Some J) by (rewrite Ee; reflexivity).
  assert (HB1 : bounded_inverse (fst s) C K) by (unfold bounded_inverse; rewrite N, N', A, A', C1, C1'; exact HB).
  assert (He := C220_error P Ctl G mu lu spline Jt (fst s) e1 (snd s) None (Some (sampled e0 psi c)) pb J psi F M C K d D). cbv zeta in He.
  specialize (He SO Hmu ltac:(rewrite A; exact Hpos) HB1 HK E1 JT). rewrite N, N', A, A', C1, C1' in He. fold gR gZ in He.
  specialize (He Hsm HF HJd HD).
  assert (Hed : forall x y, on_edge (e_nx e0) (e_ny e0) x y -> Rabs (plasma_psi e1 x y - psi (gR x) (gZ y)) <= d).
  { intros u v Huv. assert (SO' := SO). destruct SO' as (Hnx & Hny & _ & _ & A0 & EA & _ & _).
    destruct (solved4 G mu lu spline Jt (fst s) e1 _ _ _ _ J A0 SO EA E1 JT) as (q & Eq & Hq & _).
    rewrite N, N' in *. rewrite Hq by exact Huv. unfold applyBoundary in Eq. rewrite B, N, N' in Eq.
    destruct (proj1 (C28_fixed_boundary (e_nx e0) (e_ny e0) (plasma_psi (fst s))) ltac:(lia)) as (q' & Eq' & Hq'). rewrite Eq in Eq'. apply ok_inj in Eq'. subst q'.
    rewrite (proj1 (Hq' u v ltac:(unfold on_edge in Huv; lia) ltac:(unfold on_edge in Huv; lia)) Huv). rewrite Rminus_0_l, Rabs_Ropp. apply Hd, Huv. }
  specialize (He Hed). intros i j Hi Hj. specialize (He i j Hi Hj).
  assert (T1 : tok e1 = tok e0) by (rewrite Ee; exact T). assert (T2 : pgreen e1 = pgreen e0) by (rewrite Ee; exact Pg).
  rewrite (Hc e1 psi' T1 T2 Ep i j). unfold sampled. fold gR gZ.
  replace (plasma_psi e1 i j + c i j - (psi (gR i) (gZ j) + c i j)) with (plasma_psi e1 i j - psi (gR i) (gZ j)) by ring. exact He.
Qed.
Print Assumptions C222_consistent.
(** So picard.solve returns the solution of the Grad-Shafranov equation up to the truncation error, the error of the profile and the
    tolerance. *)
Theorem C222_fixed : forall (P Ctl : Type) G mu lu spline
    (Jt : P -> equilibrium R P Ctl -> (nat -> nat -> R) -> option R -> result ((nat -> nat -> R) * P * bstate R))
    (S : equilibrium R P Ctl * P -> Prop) e0 (Q : P -> Prop) C K L Lb p s psi F M c d D,
  let run s psi := solve G sqrt mu lu spline Jt (fst s) (snd s) None (Some psi) (user_bndry p) in
  let after s e' := (e', match profiles e' with Some q => q | None => snd s end) in
  let gR := gridpt (Rmin e0) (Rmax e0) (e_nx e0) in let gZ := gridpt (Zmin e0) (Zmax e0) (e_ny e0) in
  let q := mu * Rmax e0 * K * L in
  0 < mu -> 0 < Rmin e0 -> bounded_inverse e0 C K -> 0 <= K -> 0 <= L ->
  (forall s, S s -> like4 lu e0 (fst s) /\ Q (snd s) /\ S (with_check (fst s) false, snd s)) ->
  (forall s psi, S s -> exists e' b, run s psi = Ok e' /\ S (after s e') /\ psi_bndry (bs e') = Some (Some b)) ->
  (forall s1 s2 psi1 psi2 e1 e2 b1 b2 d, S s1 -> S s2 -> within (e_nx e0) (e_ny e0) psi1 psi2 d -> run s1 psi1 = Ok e1 -> run s2 psi2 = Ok e2 ->
     psi_bndry (bs e1) = Some (Some b1) -> psi_bndry (bs e2) = Some (Some b2) -> Rabs (b1 - b2) <= Lb * d) ->
  lipschitz_profile4 lu Jt e0 Q (user_bndry p) L -> (0 < e_nx e0)%nat -> (0 < e_ny e0)%nat -> q < 1 -> S s ->
  gs_solution4 mu e0 psi F M -> coil_flux e0 c ->
  (forall p1 e J p' b, Q p1 -> like4 lu e0 e -> Jt p1 e (sampled e0 psi c) (user_bndry p) = Ok (J, p', b) -> forall x y, inside (e_nx e0) (e_ny e0) x y -> Rabs (J x y - F (gR x) (gZ y)) <= D) -> 0 <= D ->
  (forall x y, on_edge (e_nx e0) (e_ny e0) x y -> Rabs (psi (gR x) (gZ y)) <= d) ->
  forall fuel s' h psi1, check p = false ->
  picard (e_nx e0) (e_ny e0) _ (eq_ops G sqrt mu lu spline Jt None) p fuel s = (s', Ok h) -> total_psi (fst s') = Ok psi1 ->
  exists m hs r, h = hs ++ [(m, r)] /\ 0 <= m /\ (m < atol p \/ m < rtol p * (amax (e_nx e0) (e_ny e0) psi1 - amin (e_nx e0) (e_ny e0) psi1)) /\
  forall i j, (i < e_nx e0)%nat -> (j < e_ny e0)%nat ->
    Rabs (psi1 i j - sampled e0 psi c i j) <= (C * d + K * (truncation4 e0 M + mu * Rmax e0 * D) + q * m) / (1 - q).
Proof.
  intros P Ctl G mu lu spline Jt S e0 Q C K L Lb p s psi F M c d D run after gR gZ q Hmu Hpos HB HK HL HS Hrun Hbd HJ Hnx Hny Hq1 Hs Hgs Hc HJc HD Hd fuel s' h psi1 Hchk Epic Ep.
  assert (HC := C220_contracts P Ctl G mu lu spline Jt S e0 Q (user_bndry p) C K L Lb Hmu ltac:(lra) HB HK HL HS Hrun Hbd HJ Hnx Hny). fold q in HC.
  assert (Hq : 0 <= q < 1).
  { split; [|exact Hq1]. destruct (HS s Hs) as ((D1 & (_ & _ & R1 & _) & _) & _). injection D1 as _ _ A B _ _. rewrite A, B in R1.
    unfold q. apply Rmult_le_pos; [|exact HL]. apply Rmult_le_pos; [apply Rmult_le_pos; lra|exact HK]. }
  assert (HN := C222_consistent P Ctl G mu lu spline Jt S e0 Q (user_bndry p) psi F M c C K d D Hmu Hpos HB HK (fun s Hs => conj (proj1 (HS s Hs)) (proj1 (proj2 (HS s Hs)))) Hgs Hc HJc HD Hd).
  exact (proj2 (C188_near _ _ _ _ p S q Lb _ _ s Hnx Hny HC Hq Hs HN) fuel s' h psi1 eq_refl Hchk Epic Ep).
Qed.
Print Assumptions C222_fixed.
(** The flux of C220 on 9 x 9 points, with a current density that increases by 1/100000 of the flux.  The flux reaches 2500000000; what is
    returned is within 130000000 of it. *)
Definition near_quintic (q : unit) (e : equilibrium R unit unit) (psi : arr2 R) (_ : option R) : result (arr2 R * unit * bstate R) :=
  Ok (fun i j => quintic_J (gridpt 100 108 9 i) (gridpt (-40) 40 9 j) + (psi i j - quintic (gridpt 100 108 9 i) (gridpt (-40) 40 9 j)) / 100000, q,
      mkb None (Some (Some 1)) None None None false None).
Lemma near_quintic_run A s psi : gentle_state A s -> exists e', solve (fun _ _ _ _ _ => 0) sqrt 1 elimination flat_spline near_quintic (fst s) (snd s) None (Some psi) None = Ok e' /\
  gentle_state A (e', match profiles e' with Some q => q | None => snd s end) /\ psi_bndry (bs e') = Some (Some 1).
Proof.
  destruct s as (e, u). cbn [fst snd]. intros ((D & SO & Hb & Ht & Hp) & Hs). cbn [fst snd] in *. assert (D0 := D). cbn [e_nx e_ny Rmin Rmax Zmin Zmax tok pgreen gentle_eq] in D, Ht, Hp. injection D as N M A1 A2 A3 A4.
  assert (D9 : dyadic 9) by (exists 3%nat; reflexivity).
  destruct (flat_given_run (fun _ _ _ _ _ => 0) 1 elimination near_quintic e u psi A (0, []) (mkb None (Some (Some 1)) None None None false None)) as (e' & E & Eb & Et & Ep);
    try (rewrite ?N, ?M; exact D9); try (rewrite ?N, ?M; lia); try (rewrite ?A1, ?A2, ?A3, ?A4; lra); try assumption.
  { rewrite Ht. reflexivity. }
  { intros e1 psi1. eexists. reflexivity. }
  { rewrite N, M. exact Hs. }
  exists e'. split; [exact E|].
  destruct (solve_inv _ _ _ _ _ _ _ _ _ _ _ _ E) as (e1 & J' & p1 & rhs & x & p' & I & dR & dZ & b & _ & _ & _ & _ & _ & _ & _ & _ & _ & Ee).
  split; [|rewrite Eb; reflexivity]. rewrite Ee. split; [|exact Hs]. split; [exact D0|]. split; [exact SO|]. split; [exact Hb|]. split; [exact Ht|exact Hp].
Qed.
Lemma quintic_edge x y : on_edge 9 9 x y -> quintic (gridpt 100 108 9 x) (gridpt (-40) 40 9 y) = 0.
Proof.
  intros Hxy. unfold on_edge in Hxy. unfold quintic, gridpt. replace (INR (9 - 1)) with 8 by (cbn [Nat.sub INR]; lra).
  assert (Hc : (x = 0 \/ x = 8 \/ y = 0 \/ y = 8)%nat) by lia. destruct Hc as [-> | [-> | [-> | ->]]]; cbn [INR]; field.
Qed.
Example C222_example : exists A n, forall fuel, (n < fuel)%nat -> exists s' h psi1,
  picard 9 9 _ (eq_ops (fun _ _ _ _ _ => 0) sqrt 1 elimination flat_spline near_quintic None) (plain_options None 0 1) fuel (gentle_eq A, tt) = (s', Ok h) /\
  total_psi (fst s') = Ok psi1 /\ forall i j, (i < 9)%nat -> (j < 9)%nat -> Rabs (psi1 i j - quintic (gridpt 100 108 9 i) (gridpt (-40) 40 9 j)) <= 130000000.
Proof.
  destruct nine_run as (A & HF & _). exists A.
  assert (HF' : fourth_order elimination (gentle_eq A)) by exact HF.
  assert (HB : bounded_inverse (gentle_eq A) 47 56).
  { replace 56 with (7 / 8 * (Rmax (gentle_eq A) - Rmin (gentle_eq A)) ^ 2) by (cbn; lra). apply C220_nine; try reflexivity; cbn [gentle_eq Rmin Rmax Zmin Zmax e_ny]; try lia; try lra. cbn [Nat.sub INR]. lra. }
  set (S := gentle_state A). set (e0 := gentle_eq A).
  assert (HS0 : S (e0, tt)) by (split; [|reflexivity]; split; [reflexivity|]; split; [exact HF'|]; repeat split).
  assert (HS : forall s, S s -> like4 elimination e0 (fst s) /\ (fun _ : unit => True) (snd s) /\ S (with_check (fst s) false, snd s)).
  { intros s Hs. split; [apply Hs|]. split; [exact I|exact Hs]. }
  assert (Hrun : forall s psi, S s -> exists e' b, solve (fun _ _ _ _ _ => 0) sqrt 1 elimination flat_spline near_quintic (fst s) (snd s) None (Some psi) None = Ok e' /\
     S (e', match profiles e' with Some q => q | None => snd s end) /\ psi_bndry (bs e') = Some (Some b)).
  { intros s psi Hs. destruct (near_quintic_run A s psi Hs) as (e' & E1 & E2 & E3). exists e', 1. split; [exact E1|]. split; [exact E2|exact E3]. }
  assert (Hbd : forall s1 s2 psi1 psi2 e1 e2 b1 b2 d, S s1 -> S s2 -> within 9 9 psi1 psi2 d ->
     solve (fun _ _ _ _ _ => 0) sqrt 1 elimination flat_spline near_quintic (fst s1) (snd s1) None (Some psi1) None = Ok e1 ->
     solve (fun _ _ _ _ _ => 0) sqrt 1 elimination flat_spline near_quintic (fst s2) (snd s2) None (Some psi2) None = Ok e2 ->
     psi_bndry (bs e1) = Some (Some b1) -> psi_bndry (bs e2) = Some (Some b2) -> Rabs (b1 - b2) <= 0 * d).
  { intros s1 s2 psi1 psi2 e1 e2 b1 b2 d H1 H2 _ E1 E2 B1 B2. destruct (near_quintic_run A s1 psi1 H1) as (e1' & E1' & _ & S1). destruct (near_quintic_run A s2 psi2 H2) as (e2' & E2' & _ & S2).
    rewrite E1 in E1'. apply ok_inj in E1'. subst e1'. rewrite E2 in E2'. apply ok_inj in E2'. subst e2'.
    rewrite B1 in S1. rewrite B2 in S2. injection S1 as ->. injection S2 as ->. rewrite Rminus_diag_eq by reflexivity. rewrite Rabs_R0. lra. }
  assert (HJ : lipschitz_profile4 elimination near_quintic e0 (fun _ => True) None (1 / 100000)).
  { intros p1 p2 e1 e2 psi1 psi2 J1 J2 p1' p2' b1 b2 d _ _ _ _ Hw E1 E2 x y Hxy. injection E1 as <- _ _. injection E2 as <- _ _.
    match goal with |- Rabs ?a <= _ => replace a with (/ 100000 * (psi1 x y - psi2 x y)) by field end. rewrite Rabs_mult, (Rabs_right (/ 100000)) by lra.
    assert (H := Hw x y ltac:(unfold inside in Hxy; cbn in *; lia) ltac:(unfold inside in Hxy; cbn in *; lia)). lra. }
  assert (Hgs : gs_solution4 1 e0 quintic quintic_J 192).
  { split; [exact quintic_smooth|]. intros r z Hr _. apply quintic_equation. cbn in Hr. lra. }
  assert (HC := no_coil_flux e0 eq_refl).
  destruct (C220_converges unit unit (fun _ _ _ _ _ => 0) 1 elimination flat_spline near_quintic S e0 (fun _ => True) 47 56 (1 / 100000) 0 (plain_options None 0 1) (e0, tt)) as (n & Hn);
    try assumption; try reflexivity; try (cbn [e0 gentle_eq Rmin Rmax e_nx e_ny plain_options blend atol]; nR; try lia; lra).
  { left. reflexivity. }
  exists n. intros fuel Hf. destruct (Hn fuel Hf) as (s' & h & E1 & Hs'). exists s', h.
  destruct (no_coils_psi (fst s')) as (psi1 & Ep & _).
  { destruct Hs' as ((_ & _ & _ & Ht & _) & _). rewrite Ht. reflexivity. }
  exists psi1. split; [exact E1|]. split; [exact Ep|].
  destruct (C222_fixed unit unit (fun _ _ _ _ _ => 0) 1 elimination flat_spline near_quintic S e0 (fun _ => True) 47 56 (1 / 100000) 0 (plain_options None 0 1) (e0, tt)
    quintic quintic_J 192 (fun _ _ => 0) 0 0) with (fuel := fuel) (s' := s') (h := h) (psi1 := psi1) as (m & hs & r & _ & M0 & M1 & HM);
    try assumption; try reflexivity; try (cbn [e0 gentle_eq Rmin Rmax e_nx e_ny plain_options blend atol]; nR; try lia; lra).
  - intros p1 e J p' b _ _ EJ x y Hxy. injection EJ as <- _ _. unfold sampled. cbn [Rmin Rmax Zmin Zmax e_nx e_ny e0 gentle_eq].
    match goal with |- Rabs ?a <= _ => replace a with 0 by field end. rewrite Rabs_R0. lra.
  - intros x y Hxy. cbn [Rmin Rmax Zmin Zmax e_nx e_ny e0 gentle_eq] in Hxy |- *. rewrite quintic_edge by exact Hxy. rewrite Rabs_R0. lra.
  - intros i j Hi Hj. specialize (HM i j Hi Hj). unfold sampled in HM. cbn [Rmin Rmax Zmin Zmax e_nx e_ny e0 gentle_eq] in HM. rewrite Rplus_0_r in HM. eapply Rle_trans; [exact HM|].
    assert (Hm : m < 1) by (destruct M1 as [H|H]; [exact H|cbn [rtol plain_options] in H; lra]).
    unfold truncation4. cbn [Rmin Rmax Zmin Zmax e_nx e_ny e0 gentle_eq]. replace (INR (9 - 1)) with 8 by (cbn [Nat.sub INR]; lra). lra.
Qed.
