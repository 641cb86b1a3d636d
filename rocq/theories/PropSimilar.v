(** C211, C212: devices of different size. *)
From Coq Require Import String List Arith ZArith QArith Bool Reals Lia Lra.
From Verif Require Import Py Num Numpy Linalg GradShafranov GradShafranovProofs GS4Proofs Multigrid MultigridProofs MultigridGS Coils Machine MachineSpec MachineProofs Romb RombProofs RombExact
  Critical CriticalSpec CriticalProofs2 CriticalProofs3 Boundary BoundarySpec BoundaryProofs PropBoundary Jtor Equilibrium EquilibriumSpec EquilibriumProofs GSSpec Gauss PropMultigrid PropGS PropEquilibrium EllipticSpec PropGreens PropSolveFlux.
Import ListNotations.
Local Open Scope R_scope.

(** ** C211 — similar devices *)
(** The Green's function of the flux is homogeneous of degree one in the lengths. *)
Theorem C211_green : forall ek ee k Rc Zc r z, 0 < k ->
  Greens ek ee (k * Rc) (k * Zc) (k * r) (k * z) = k * Greens ek ee Rc Zc r z.
Proof.
  intros ek ee k Rc Zc r z Hk. unfold Greens. cbv zeta.
  assert (E : 4 * (k * r) * (k * Rc) / ((k * r + k * Rc) ^ 2 + (k * z - k * Zc) ^ 2) = 4 * r * Rc / ((r + Rc) ^ 2 + (z - Zc) ^ 2)).
  { replace ((k * r + k * Rc) ^ 2 + (k * z - k * Zc) ^ 2) with ((k * k) * ((r + Rc) ^ 2 + (z - Zc) ^ 2)) by ring.
    unfold Rdiv. rewrite Rinv_mult. set (d := / ((r + Rc) ^ 2 + (z - Zc) ^ 2)). field. lra. }
  rewrite E. replace (k * r * (k * Rc)) with ((k * k) * (r * Rc)) by ring.
  rewrite sqrt_mult_alt by nra. rewrite sqrt_square by lra. unfold Rdiv. ring.
Qed.
Print Assumptions C211_green.

(** A machine k times as large with the same currents, turns and weights.  The maps of a PreCalcCoil are flux and field
    maps, so they are to be taken for the larger device: [c] times the values at the corresponding points. *)
Definition sized_kind (k c : R) (q : kind R) : kind R :=
  match q with
  | KPoint r z => KPoint (k * r) (k * z)
  | KShaped shape n pts (rc, zc) => KShaped (map (fun p => (k * fst p, k * snd p)) shape) n (map (fun p => (k * fst (fst p), k * snd (fst p), snd p)) pts) (k * rc, k * zc)
  | KFilament shape pts n (rc, zc) => KFilament (map (fun p => (k * fst p, k * snd p)) shape) (map (fun p => (k * fst p, k * snd p)) pts) n (k * rc, k * zc)
  | KMulti rf zf m pol (rc, zc) => KMulti (map (Rmult k) rf) (map (Rmult k) zf) m pol (k * rc, k * zc)
  | KPreCalc shape maps (rc, zc) => KPreCalc (map (fun p => (k * fst p, k * snd p)) shape) (fun f r z => c * maps f (r / k) (z / k)) (k * rc, k * zc)
  end.
Definition sized_coil (k c : R) (q : coil R) : coil R := with_kind q (sized_kind k c (c_kind q)).
Definition sized_mcoil (k c : R) (m : mcoil R) : mcoil R :=
  match m with
  | MCoil q => MCoil (sized_coil k c q)
  | MCircuit ci => MCircuit (mkcircuit (map (fun m => set_m_coil m (sized_coil k c (m_coil m))) (ci_coils ci)) (ci_current ci) (ci_control ci))
  | MSolenoid s => MSolenoid (mksol (k * s_Rs s) (k * s_Zsmin s) (k * s_Zsmax s) (s_Ns s) (s_current s) (s_control s))
  end.
Definition sized (k c : R) (M : machine R) : machine R := map (fun lm => (fst lm, sized_mcoil k c (snd lm))) M.

Lemma combine_scaled k : forall a b : list R, combine (map (Rmult k) a) (map (Rmult k) b) = map (fun p => (k * fst p, k * snd p)) (combine a b).
Proof. induction a as [|x a IH]; intros [|y b]; cbn; [reflexivity..|]. rewrite IH. reflexivity. Qed.
Lemma lsum_scaled {A} (f g : A -> R) c l : (forall a, f a = c * g a) -> lsum (map f l) = c * lsum (map g l).
Proof. intros E. rewrite <- lsum_scal. apply lsum_ext. intros a _. apply E. Qed.
Section Sized.
  Variables (G : field -> R -> R -> R -> R -> R) (f : field) (k c : R).
  Hypothesis HG : forall a b r z, G f (k * a) (k * b) (k * r) (k * z) = c * G f a b r z.
  Hypothesis Hk : 0 < k.
  Lemma sized_control q r z : coil_control G f (sized_coil k c q) (k * r) (k * z) = c * coil_control G f q r z.
  Proof.
    destruct q as [kd I n b a]. unfold coil_control, sized_coil, with_kind. cbn [c_kind c_turns]. destruct kd as [rc zc|sh n0 pts [rc zc]|sh pts n0 [rc zc]|rf zf m pol [rc zc]|sh maps [rc zc]]; cbn [sized_kind]; nR.
    - rewrite HG. ring.
    - rewrite !fold_left_sum, map_map. cbn [fst snd].
      rewrite (lsum_scaled _ (fun p => G f (fst (fst p)) (snd (fst p)) r z * snd p) c) by (intros; rewrite HG; ring). ring.
    - rewrite !fold_left_sum, map_map. cbn [fst snd].
      rewrite (lsum_scaled _ (fun p => G f (fst p) (snd p) r z) c) by (intros; rewrite HG; ring). unfold Rdiv. ring.
    - rewrite combine_scaled. destruct m; rewrite !fold_left_sum, !map_map; cbn [fst snd].
      + rewrite (lsum_scaled _ (fun p => G f (fst p) (snd p) r z * fst pol) c) by (intros; rewrite HG; ring).
        rewrite (lsum_scaled (fun x => G f (k * fst x) (- (k * snd x)) (k * r) (k * z) * snd pol) (fun p => G f (fst p) (- snd p) r z * snd pol) c)
          by (intros; rewrite Ropp_mult_distr_r, HG; ring). ring.
      + rewrite (lsum_scaled _ (fun p => G f (fst p) (snd p) r z * fst pol) c) by (intros; rewrite HG; ring). ring.
    - replace (k * r / k) with r by (field; lra). replace (k * z / k) with z by (field; lra). reflexivity.
  Qed.
  Lemma sized_mctrl m r z : mc_ctrl G f (sized_mcoil k c m) (k * r) (k * z) = c * mc_ctrl G f m r z.
  Proof.
    destruct m as [q|ci|s]; cbn [mc_ctrl sized_mcoil].
    - apply sized_control.
    - rewrite !circuit_ctrl_sum. cbn [ci_coils]. rewrite map_map. apply lsum_scaled. intros m. cbn [m_mult m_coil set_m_coil fst snd]. rewrite sized_control. ring.
    - rewrite !sol_ctrl_sum. cbn [s_Rs s_Zsmin s_Zsmax s_Ns]. rewrite !map_map. apply lsum_scaled. intros i. rewrite !linspace_gridpt.
      replace (gridpt (k * s_Zsmin s) (k * s_Zsmax s) (s_Ns s) i) with (k * gridpt (s_Zsmin s) (s_Zsmax s) (s_Ns s) i) by (unfold gridpt, Rdiv; ring). apply HG.
  Qed.
End Sized.
(** The coils of the larger device give [c] times the field at the corresponding point, for every Green's function that is
    multiplied by [c]; [c] is [k] for the flux. *)
Theorem C211_coils : forall G f k c (M : machine R) r z, 0 < k ->
  (forall a b r z, G f (k * a) (k * b) (k * r) (k * z) = c * G f a b r z) ->
  fst (machine_field G f (sized k c M) (k * r) (k * z)) = c * fst (machine_field G f M r z).
Proof.
  intros G f k c M r z Hk HG. rewrite !machine_field_eq. cbn [fst]. unfold response_sum, sized. rewrite map_map. apply lsum_scaled. intros [l m]. cbn [fst snd].
  rewrite (sized_mctrl G f k c HG Hk). replace (mc_current (sized_mcoil k c m)) with (mc_current m) by (destruct m; reflexivity). ring.
Qed.
Print Assumptions C211_coils.

(** ** The plasma *)
Definition larger {P Ctl} (k : R) (e e' : equilibrium R P Ctl) : Prop :=
  e_nx e' = e_nx e /\ e_ny e' = e_ny e /\ Rmin e' = k * Rmin e /\ Rmax e' = k * Rmax e /\ Zmin e' = k * Zmin e /\ Zmax e' = k * Zmax e.
Lemma gridpt_scaled k a b n i : gridpt (k * a) (k * b) n i = k * gridpt a b n i.
Proof. unfold gridpt, Rdiv. ring. Qed.
Lemma elliptic_scaled k rmin u nx ny dR dZ x y : 0 < k ->
  GSElliptic (k * rmin) u nx ny (k * dR) (k * dZ) x y = / (k * k) * GSElliptic rmin u nx ny dR dZ x y.
Proof.
  intros Hk. rewrite !GSElliptic_closed. destruct (interiorb nx ny x y); [|ring].
  replace (2 * (k * rmin + k * dR * INR x) * (k * dR)) with ((k * k) * (2 * (rmin + dR * INR x) * dR)) by ring.
  replace (k * dR * (k * dR)) with ((k * k) * (dR * dR)) by ring. replace (k * dZ * (k * dZ)) with ((k * k) * (dZ * dZ)) by ring.
  unfold Rdiv. rewrite !(Rinv_mult (k * k)). ring.
Qed.
(** The same current in a device k times as large: the current density is divided by k^2, the flux at the edge is multiplied by k. *)
Lemma flux_scaled (G : R -> R -> R -> R -> R) k kx ky gR gZ gR' gZ' J u w v v' :
  let nx := S (2 ^ kx) in let ny := S (2 ^ ky) in 0 < k ->
  (forall a b r z, G (k * a) (k * b) (k * r) (k * z) = k * G a b r z) ->
  (forall i j, gR' i j = k * gR i j) -> (forall i j, gZ' i j = k * gZ i j) ->
  plasma_flux_at G nx ny gR gZ J u w v -> plasma_flux_at G nx ny gR' gZ' (fun i j => J i j / (k * k)) u w v' -> v' = k * v.
Proof.
  intros nx ny Hk HG HR HZ (w1 & V1 & ->) (w2 & V2 & ->). unfold nx, ny in V1, V2. rewrite romb2_R2 in V1, V2. apply ok_inj in V1. apply ok_inj in V2. subst w1 w2.
  rewrite !HR, !HZ.
  rewrite (RombProofs.R2_ext kx ky _ (fun i j => / k * ((if ((i =? u)%nat && (j =? w)%nat)%bool then 0 else G (gR i j) (gZ i j) (gR u w) (gZ u w)) * J i j))).
  - rewrite RombProofs.R2_scal. field. lra.
  - intros i j _ _. rewrite !HR, !HZ. destruct ((i =? u)%nat && (j =? w)%nat)%bool; [unfold Rdiv; ring|]. rewrite HG. field. lra.
Qed.
(** solve in the larger device, with the current density divided by k^2: the plasma flux is multiplied by k and the plasma
    current is the same.  The fixed and the free boundary. *)
Theorem C211_solve : forall (P Ctl : Type) G mu lu spline
    (Jtor_call : P -> equilibrium R P Ctl -> (nat -> nat -> R) -> option R -> result ((nat -> nat -> R) * P * bstate R))
    (e e' e1 e1' : equilibrium R P Ctl) p p' psi psi' pb pb' J k,
  exact_solver lu -> second_order e -> second_order e' -> 0 < k -> larger k e e' ->
  (bnd e = BFixed /\ bnd e' = BFixed \/ bnd e = BFree /\ bnd e' = BFree) ->
  (forall a b r z, G FPsi (k * a) (k * b) (k * r) (k * z) = k * G FPsi a b r z) ->
  solve G sqrt mu lu spline Jtor_call e p (Some J) psi pb = Ok e1 ->
  solve G sqrt mu lu spline Jtor_call e' p' (Some (fun i j => J i j / (k * k))) psi' pb' = Ok e1' ->
  current e1' = current e1 /\
  forall x y, (x < e_nx e)%nat -> (y < e_ny e)%nat -> plasma_psi e1' x y = k * plasma_psi e1 x y.
Proof.
  intros P Ctl G mu lu spline Jc e e' e1 e1' p p' psi psi' pb pb' J k Hlu HS HS' Hk (N & M & A1 & A2 & A3 & A4) HB HG E E'.
  destruct (solve_inv _ _ _ _ _ _ _ _ _ _ _ _ E) as (ea & Ja & pa & rhsa & xa & pa' & I & dR & dZ & ba & _ & (-> & _) & _ & _ & _ & HI & HdR & HdZ & _ & Ee).
  destruct (solve_inv _ _ _ _ _ _ _ _ _ _ _ _ E') as (eb & Jb & pb1 & rhsb & xb & pb1' & I' & dR' & dZ' & bb & _ & (-> & _) & _ & _ & _ & HI' & HdR' & HdZ' & _ & Ee').
  assert (JT : jtor e1 = Some J) by (rewrite Ee; reflexivity). assert (JT' : jtor e1' = Some (fun i j => J i j / (k * k))) by (rewrite Ee'; reflexivity).
  destruct (PropSolveFlux.solved G mu lu spline Jc e e1 _ _ _ _ J Hlu HS E JT) as (q1 & Q1 & Hnx & Hny & He1 & Hi1).
  destruct (PropSolveFlux.solved G mu lu spline Jc e' e1' _ _ _ _ _ Hlu HS' E' JT') as (q2 & Q2 & _ & _ & He2 & Hi2).
  destruct (romb2_ok _ _ _ _ HI) as (kx & ky & Ex & Ey).
  assert (gR : forall i j, grid_R e' i j = k * grid_R e i j) by (intros; rewrite !gridR_is, N, A1, A2; apply gridpt_scaled).
  assert (gZ : forall i j, grid_Z e' i j = k * grid_Z e i j) by (intros; rewrite !gridZ_is, M, A3, A4; apply gridpt_scaled).
  split.
  - rewrite Ee, Ee'. cbn [current with_profiles with_current]. rewrite N, M in HI', HdR', HdZ'.
    rewrite spacing_R_ok in HdR, HdR' by lia. rewrite spacing_Z_ok in HdZ, HdZ' by lia.
    apply ok_inj in HdR. apply ok_inj in HdR'. apply ok_inj in HdZ. apply ok_inj in HdZ'. subst dR dR' dZ dZ'. rewrite !gR, !gZ.
    rewrite Ex, Ey, romb2_R2 in HI, HI'. apply ok_inj in HI. apply ok_inj in HI'. subst I I'.
    rewrite (RombProofs.R2_ext kx ky (fun i j => J i j / (k * k)) (fun i j => / (k * k) * J i j)) by (intros; unfold Rdiv; ring).
    rewrite RombProofs.R2_scal. nR. field. lra.
  - destruct HS as (S0 & S1 & S2 & _). rewrite N, M in He2, Hi2.
    assert (SR : forall a b n, (k * b - k * a) / INR (n - 1) = k * ((b - a) / INR (n - 1))) by (intros; unfold Rdiv; ring).
    apply (uniqueness (Rmin e) (Rmax e) (Zmin e) (Zmax e) (e_nx e) (e_ny e) (plasma_psi e1') (fun x y => k * plasma_psi e1 x y)); try assumption.
    + intros x y Hxy. specialize (Hi1 x y Hxy). specialize (Hi2 x y Hxy). rewrite A1, A2, A3, A4, !SR, elliptic_scaled, gridpt_scaled in Hi2 by exact Hk.
      assert (L := GSElliptic_lin (Rmin e) (plasma_psi e1) (fun _ _ => 0) (e_nx e) (e_ny e) ((Rmax e - Rmin e) / INR (e_nx e - 1)) ((Zmax e - Zmin e) / INR (e_ny e - 1)) k 0 x y).
      rewrite Hi1 in L.
      set (D := GSElliptic (Rmin e) (plasma_psi e1') (e_nx e) (e_ny e) ((Rmax e - Rmin e) / INR (e_nx e - 1)) ((Zmax e - Zmin e) / INR (e_ny e - 1)) x y) in *.
      transitivity (k * (- mu * gridpt (Rmin e) (Rmax e) (e_nx e) x * J x y)).
      * assert (HD : D = (k * k) * (/ (k * k) * D)) by (field; lra). rewrite HD, Hi2. field. lra.
      * rewrite !GSElliptic_closed in L |- *. destruct (interiorb (e_nx e) (e_ny e) x y); lra.
    + intros u w Hed. rewrite He1, He2 by exact Hed. unfold applyBoundary in Q1, Q2. destruct HB as [(B1 & B2)|(B1 & B2)]; rewrite B1 in Q1; rewrite B2 in Q2; rewrite N, M in Q2.
      * destruct (proj1 (C28_fixed_boundary (e_nx e) (e_ny e) (plasma_psi e)) ltac:(lia)) as (q & Eq & F).
        destruct (proj1 (C28_fixed_boundary (e_nx e) (e_ny e) (plasma_psi e')) ltac:(lia)) as (q' & Eq' & F').
        rewrite Eq in Q1. rewrite Eq' in Q2. apply ok_inj in Q1. apply ok_inj in Q2. subst q q'. destruct Hed as (Hu & Hw & Hed0).
        assert (Hed : on_edge (e_nx e) (e_ny e) u w) by (split; [exact Hu|split; [exact Hw|exact Hed0]]).
        rewrite (proj1 (F u w Hu Hw) Hed), (proj1 (F' u w Hu Hw) Hed). ring.
      * destruct (freeBoundary_spec (G FPsi) (e_nx e) (e_ny e) (grid_R e) (grid_Z e) J (plasma_psi e) (ex_intro _ kx Ex) (ex_intro _ ky Ey)) as (q & Eq & F).
        rewrite Q1 in Eq. apply ok_inj in Eq. subst q.
        destruct (freeBoundary_spec (G FPsi) (e_nx e) (e_ny e) (grid_R e') (grid_Z e') (fun i j => J i j / (k * k)) (plasma_psi e') (ex_intro _ kx Ex) (ex_intro _ ky Ey)) as (q & Eq & F').
        rewrite Q2 in Eq. apply ok_inj in Eq. subst q. destruct Hed as (Hu & Hw & Hed0).
        assert (Hed : on_edge (e_nx e) (e_ny e) u w) by (split; [exact Hu|split; [exact Hw|exact Hed0]]).
        assert (V := proj1 (F u w Hu Hw) Hed). assert (V' := proj1 (F' u w Hu Hw) Hed). rewrite Ex, Ey in V, V'.
        exact (flux_scaled (G FPsi) k kx ky _ _ _ _ J u w _ _ Hk HG gR gZ V V').
Qed.
Print Assumptions C211_solve.
(** Two devices, k times as large as each other, with free boundary and an arbitrary current density: both runs succeed
    and all the hypotheses hold. *)
Definition demo_sized (k : R) (A : nat -> nat -> R) : equilibrium R unit unit :=
  mkeq (P := unit) (Ctl := unit) 5 5 k (k * 2) (- k) k (mktok [] false []) BFree 2 (SMatrix (MGDirect 25 A)) false
       (starting_guess exp 5 5) (fun i j => []) 0 None no_boundary None None.
Lemma sized_run k : 0 < k -> exists A, second_order (demo_sized k A) /\
  forall J, exists e', solve (fun _ => green) sqrt 1 elimination flat_spline (fun _ _ _ _ => Raise TypeError) (demo_sized k A) tt (Some J) None None = Ok e'.
Proof.
  intros Hk. destruct (GSsparse_rows k (k * 2) (- k) k 5 5) as (A & EA & _). exists A.
  assert (Hupd : forall e p, e_nx e = 5%nat -> e_ny e = 5%nat -> Rmin e = k -> Rmax e = k * 2 -> Zmin e = - k -> Zmax e = k -> coils (tok e) = [] ->
            update_plasma (P := unit) (Ctl := unit) flat_spline e 5 5 p = Ok (with_bs (with_plasma e p) (bs e))).
  { intros e p H1 H2 H3 H4 H5 H6 H7. assert (H := flat_update_plasma e p). rewrite H1, H2, H3, H4, H5, H6 in H. apply H; try lia; try lra; exact H7. }
  split.
  { unfold second_order. cbn. repeat (split; [lra|]). exists A. split; [exact EA|reflexivity]. }
  intros J. destruct (romb2_dyadic 5 5 J (ex_intro _ 2%nat eq_refl) (ex_intro _ 2%nat eq_refl)) as (s & Es).
  set (e1 := with_profiles (demo_sized k A) (Some tt) (control (demo_sized k A))).
  assert (E1 : update_own flat_spline e1 = Ok e1).
  { unfold update_own. destruct (no_coils_psi e1 eq_refl) as (psi & E & _). rewrite E. cbn [bind].
    rewrite (flat_update e1 psi) by (cbn; try lia; lra). reflexivity. }
  assert (Eb : exists q, applyBoundary (P := unit) (Ctl := unit) (fun _ => green) sqrt elimination e1 J = Ok q).
  { unfold applyBoundary. change (bnd e1) with (@BFree R). change (e_nx e1) with 5%nat. change (e_ny e1) with 5%nat.
    destruct (freeBoundary_spec green 5 5 (grid_R e1) (grid_Z e1) J (plasma_psi e1) (ex_intro _ 2%nat eq_refl) (ex_intro _ 2%nat eq_refl)) as (q & Eq & _). exists q. exact Eq. }
  destruct Eb as (q & Eb). eexists. unfold solve. fold e1. rewrite E1. cbn [bind]. unfold linear_solve. rewrite Eb. cbn [bind]. change (e_nx e1) with 5%nat. change (e_ny e1) with 5%nat.
  unfold set_edges. cbn [Nat.eqb orb bind]. unfold callSolver, solver_call. change (slv e1) with (SMatrix (MGDirect 25 A)).
  change (e_nx e1) with 5%nat. change (e_ny e1) with 5%nat. cbn [mg_call]. change (25 =? 5 * 5)%nat with true. cbn [bind].
  rewrite Hupd by reflexivity. cbn [bind].
  match goal with |- bind (romb2 ?a ?b ?c) _ = _ => change (romb2 a b c) with (romb2 5 5 J) end. rewrite Es. cbn [bind]. reflexivity.
Qed.
Example C211_example : forall k J, 0 < k -> exists A A' e1 e1',
  solve (fun _ => green) sqrt 1 elimination flat_spline (fun _ _ _ _ => Raise TypeError) (demo_sized 1 A) tt (Some J) None None = Ok e1 /\
  solve (fun _ => green) sqrt 1 elimination flat_spline (fun _ _ _ _ => Raise TypeError) (demo_sized k A') tt (Some (fun i j => J i j / (k * k))) None None = Ok e1' /\
  current e1' = current e1 /\ plasma_psi e1' 2%nat 2%nat = k * plasma_psi e1 2%nat 2%nat.
Proof.
  intros k J Hk. destruct (sized_run 1 ltac:(lra)) as (A & S1 & R1), (sized_run k Hk) as (A' & S2 & R2'). destruct (R1 J) as (e1 & E1). destruct (R2' (fun i j => J i j / (k * k))) as (e1' & E1').
  exists A, A', e1, e1'. split; [exact E1|]. split; [exact E1'|].
  assert (X := C211_solve unit unit (fun _ => green) 1 elimination flat_spline (fun _ _ _ _ => Raise TypeError) (demo_sized 1 A) (demo_sized k A') e1 e1' tt tt None None None None J k).
  destruct X as (X1 & X2); [intros N M v Hn r Hr; exact (elimination_solves N M v Hn r Hr)|exact S1|exact S2|exact Hk|unfold larger; cbn; repeat split; lra|right; split; reflexivity|
    intros; apply C211_green; exact Hk|exact E1|exact E1'|].
  split; [exact X1|apply X2; cbn; lia].
Qed.

(** ** C212 — lengths that are written in the code *)
(** Two O-points half a grid of 9 x 9 points apart, and the same flux function in a device [l] times as large (the flux is
    multiplied by l^2, so that the field is the same): for l = 1/1000 remove_dup takes the two for one, since their distance is
    compared with a fixed length (critical.py 165-175). *)
Definition wells (l : Q) : nat -> nat -> Q -> Q -> Q := fun m n r z =>
  (let x := r / l - 2 in
   match m, n with
   | 0%nat, 0%nat => l * l * ((x * x - (1 # 4)) * (x * x - (1 # 4)) + (z / l) * (z / l))
   | 1%nat, 0%nat => l * (4 * x * (x * x - (1 # 4)))
   | 0%nat, 1%nat => l * (2 * (z / l))
   | 2%nat, 0%nat => 12 * (x * x) - 1
   | 0%nat, 2%nat => 2
   | _, _ => 0
   end)%Q.
Definition w_R (l : Q) : nat -> nat -> Q := fun i _ => (l * (1 + inject_Z (Z.of_nat i) * (1 # 4)))%Q.
Definition w_Z (l : Q) : nat -> nat -> Q := fun _ j => (l * (- 1 + inject_Z (Z.of_nat j) * (1 # 4)))%Q.
Definition well_points (l : Q) : list (Q * Q) :=
  match Critical.find_critical 9 9 (w_R l) (w_Z l) (fun i j => wells l 0 0 (w_R l i j) (w_Z l i j)) (wells l) true with
  | Ok (os, _) => map (fun o => (Qred (fst (fst o) / l), Qred (snd (fst o) / l))) os
  | Raise _ => []
  end.
Theorem C212_opoints_refuted : exists l : Q, (0 < l)%Q /\ well_points 1 = [(3 # 2, 0); (5 # 2, 0)]%Q /\ well_points l = [(3 # 2, 0)]%Q.
Proof. exists (1 # 1000)%Q. split; [reflexivity|]. split; vm_compute; reflexivity. Qed.
Print Assumptions C212_opoints_refuted.
(** The flux functions are similar, with the same second derivatives (so the same field gradient) at corresponding points. *)
Example C212_wells : forall l r z : Q, (~ l == 0 -> wells l 0 0 (l * r) (l * z) == l * l * wells 1 0 0 r z /\
  wells l 2 0 (l * r) (l * z) == wells 1 2 0 r z /\ wells l 0 2 (l * r) (l * z) == wells 1 0 2 r z)%Q.
Proof. intros l r z Hl. unfold wells. repeat split; field; exact Hl. Qed.

(** von Hagenow's boundary: the observer is moved out of the domain by a fixed length (boundary.py 189-203).  The kernel r is
    homogeneous of degree one as [Greens] is, u is multiplied by k, and the spacings are 3 k and 4 k: the values at the edge
    are not multiplied by k. *)
Definition qroot (x : Q) : Q := if Qeq_bool x 25 then 5 else if Qeq_bool x 100 then 10 else 0.
Definition h_edge (k : Q) : option Q :=
  match freeBoundaryHagenow (T := Q) (fun _ _ r _ => r) qroot 5 5 (fun psi _ => Ok (psi, fun i j => k * inject_Z (Z.of_nat (if (i =? 2)%nat && (j =? 2)%nat then 1 else 0)))%Q)
          (fun i _ => k * (1 + 3 * inject_Z (Z.of_nat i)))%Q (fun _ j => k * (4 * inject_Z (Z.of_nat j)))%Q (fun _ _ => 0)%Q (fun _ _ => 0)%Q with
  | Ok p => Some (Qred (p 4%nat 2%nat))
  | Raise _ => None
  end.
Theorem C212_hagenow_refuted : exists v v' : Q, h_edge 1 = Some v /\ h_edge 2 = Some v' /\ (v' < 2 * v)%Q.
Proof. eexists. eexists. split; [vm_compute; reflexivity|]. split; [vm_compute; reflexivity|reflexivity]. Qed.
Print Assumptions C212_hagenow_refuted.
(** The root is right for the two grids. *)
Example C212_root : (qroot (3 * 3 + 4 * 4) * qroot (3 * 3 + 4 * 4) == 3 * 3 + 4 * 4 /\ qroot (6 * 6 + 8 * 8) * qroot (6 * 6 + 8 * 8) == 6 * 6 + 8 * 8)%Q.
Proof. split; reflexivity. Qed.
(** The fields of a coil, by differences with a fixed step of 1 mm (gradshafranov.py 295-314), depend on the unit as well: the
    field of the scaled coil is the field of the coil with the step divided by k. *)
Theorem C212_differences : forall ek ee eps k Rc Zc r z, 0 < k ->
  GreensBz ek ee eps (k * Rc) (k * Zc) (k * r) (k * z) = / k * GreensBz ek ee (eps / k) Rc Zc r z /\
  GreensBr ek ee eps (k * Rc) (k * Zc) (k * r) (k * z) = / k * GreensBr ek ee (eps / k) Rc Zc r z.
Proof.
  intros ek ee eps k Rc Zc r z Hk. unfold GreensBz, GreensBr.
  replace (k * r + eps) with (k * (r + eps / k)) by (field; lra). replace (k * r - eps) with (k * (r - eps / k)) by (field; lra).
  replace (k * z + eps) with (k * (z + eps / k)) by (field; lra). replace (k * z - eps) with (k * (z - eps / k)) by (field; lra).
  rewrite !C211_green by exact Hk. unfold Rdiv.
  replace (2 * (eps * / k) * r) with (/ k * (2 * eps * r)) by ring. replace (2 * eps * (k * r)) with (k * (2 * eps * r)) by ring.
  rewrite !Rinv_mult, Rinv_inv. set (a := / eps). set (b := / r). set (c := / 2). split; field; lra.
Qed.
Print Assumptions C212_differences.
