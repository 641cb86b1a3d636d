(** C185: what picard.solve leaves behind when it returns, with the constrained profiles. *)
From Coq Require Import String List Arith ZArith QArith Bool Reals Lra Lia Classical FunctionalExtensionality.
From Verif Require Import Py Num Numpy Romb RombProofs RombExact Multigrid MultigridProofs Gauss Coils Machine Critical CriticalSpec Boundary BoundarySpec BoundaryProofs PropCritical Jtor JtorSpec JtorProofs PropJtor
  GradShafranov Equilibrium EquilibriumSpec EquilibriumProofs EquilibriumProofs2 EquilibriumProofs3 GSSpec EllipticSpec PropGreens FittingProofs PropSolveFlux PropEquilibrium2 Picard PicardProofs PropPicard PropPicardLimit PropGauge.
Import ListNotations.
Local Open Scope R_scope.

(** ** What the statements mean *)
(** the fluxes [psi0] and [psi1] agree within the tolerances *)
Definition close (nx ny : nat) (atol rtol : R) (psi0 psi1 : nat -> nat -> R) : Prop :=
  (forall i j, (i < nx)%nat -> (j < ny)%nat -> Rabs (psi0 i j - psi1 i j) < atol) \/
  (exists i1 j1 i2 j2, (i1 < nx)%nat /\ (j1 < ny)%nat /\ (i2 < nx)%nat /\ (j2 < ny)%nat /\ psi1 i2 j2 < psi1 i1 j1 /\
     forall i j, (i < nx)%nat -> (j < ny)%nat -> Rabs (psi0 i j - psi1 i j) < rtol * (psi1 i1 j1 - psi1 i2 j2)).
(** same grid and linear solver *)
Definition same_grid {P Ctl} (e e1 : equilibrium R P Ctl) : Prop :=
  (e_nx e1, e_ny e1, Rmin e1, Rmax e1, Zmin e1, Zmax e1) = (e_nx e, e_ny e, Rmin e, Rmax e, Zmin e, Zmax e) /\ slv e1 = slv e.
(** The control system changes neither the grid nor the solver nor the parameters of the profile. *)
Definition control_keeps {Ctl} (c : option (equilibrium R (@cprofile R * option (@cstate R)) Ctl * (@cprofile R * option (@cstate R)) ->
    (equilibrium R (@cprofile R * option (@cstate R)) Ctl * (@cprofile R * option (@cstate R))) * result unit)) : Prop :=
  forall f s s1 r, c = Some f -> f s = (s1, r) -> same_grid (fst s) (fst s1) /\ fst (snd s1) = fst (snd s).
(** Jtor of ConstrainPaxisIp or of ConstrainBetapIp *)
Inductive kind := Paxis | Betap.
Definition Jtor_of {P Ctl} (k : kind) G spline pow quad mu0 (e : equilibrium R P Ctl) :=
  match k with Paxis => paxis_Jtor pow quad (env_of G spline e e) | Betap => betap_Jtor pow quad mu0 (env_of G spline e e) end.

(** ** Proofs *)
Lemma test_close nx ny E (o : ops (T := R) E) p v e1 ob psi1 : (0 < nx)%nat -> (0 < ny)%nat -> test nx ny E o p v e1 ob psi1 = true -> close nx ny (atol p) (rtol p) (psi v) psi1.
Proof.
  intros Hx Hy Ht. unfold test in Ht. apply andb_true_iff in Ht. destruct Ht as (Ht & _). apply andb_true_iff in Ht. destruct Ht as (Hp & _).
  destruct (amax_spec nx ny (fun i j => Rabs (psi v i j - psi1 i j)) Hx Hy) as (M1 & _). fold (maxch nx ny v psi1) in M1.
  apply orb_true_iff in Hp. destruct Hp as [Hp|Hp].
  - apply R_ltb_true in Hp. left. intros i j Hi Hj. specialize (M1 i j Hi Hj). cbv beta in M1. lra.
  - right. unfold relch, quotient in Hp. nR. destruct (R_eqb _ 0) eqn:E0; cbn [below] in Hp; [discriminate|]. apply R_eqb_false in E0. apply R_ltb_true in Hp.
    destruct (amax_spec nx ny psi1 Hx Hy) as (A1 & i1 & j1 & Hi1 & Hj1 & A2). destruct (amin_spec nx ny psi1 Hx Hy) as (B1 & i2 & j2 & Hi2 & Hj2 & B2).
    exists i1, j1, i2, j2. do 4 (split; [assumption|]). rewrite <- A2, <- B2. assert (Hle := A1 0%nat 0%nat Hx Hy). assert (Hle2 := B1 0%nat 0%nat Hx Hy).
    set (d := amax nx ny psi1 - amin nx ny psi1) in *. assert (Hd : 0 < d) by (unfold d in *; lra). split; [unfold d in Hd; lra|]. intros i j Hi Hj.
    specialize (M1 i j Hi Hj). cbv beta in M1. apply Rle_lt_trans with (1 := M1). apply (Rmult_lt_compat_r d) in Hp; [|exact Hd].
    replace (maxch nx ny v psi1 / d * d) with (maxch nx ny v psi1) in Hp by (field; lra). exact Hp.
Qed.
Lemma same_trans {P Ctl} (e1 e2 e3 : equilibrium R P Ctl) : same_grid e1 e2 -> same_grid e2 e3 -> same_grid e1 e3.
Proof. unfold same_grid. intros (A & B) (C & D). split; congruence. Qed.
Lemma same_second {P Ctl} (e e1 : equilibrium R P Ctl) : same_grid e e1 -> second_order e -> second_order e1.
Proof.
  intros (D & S) (H0 & HR & HZ & A & EA & ES). injection D as N M A1 A2 A3 A4. unfold second_order. rewrite N, M, A1, A2, A3, A4, S. repeat (split; [assumption|]). exists A. split; assumption.
Qed.

Section Returned.
  Context {Ctl : Type}.
  Local Notation P := (@cprofile R * option (@cstate R))%type.
  Local Notation eqm := (equilibrium R P Ctl).
  Variables (G : field -> R -> R -> R -> R -> R) (mu0 : R) (lu : nat -> arr2 R -> (nat -> R) -> (nat -> R)).
  Variable spline : nat -> nat -> (nat -> R) -> (nat -> R) -> arr2 R -> sfun R.
  Variables (pow : R -> R -> R) (quad : (R -> R) -> R -> R -> R) (k : kind).
  Local Notation call := (constrained_call spline (fun e => Jtor_of k G spline pow quad mu0 e)).

  Lemma solve_keeps (e e' : eqm) p q pb : solve G sqrt mu0 lu spline call e p None (Some q) pb = Ok e' ->
    exists b1 J cs, let e1 := with_bs (with_profiles e (Some p) (Equilibrium.control e)) b1 in
      Jtor_of k G spline pow quad mu0 e1 (fst p) q pb = Ok (J, cs) /\ jtor e' = Some J /\ profiles e' = Some (fst p, Some cs) /\ same_grid e e' /\
      grid_integral (env_of G spline e1 e1) J (current e') /\ (2 <= e_nx e)%nat /\ (2 <= e_ny e)%nat.
  Proof.
    intros E. destruct (solve_inv _ _ _ _ _ _ _ _ _ _ _ _ E) as (e1 & J & p1 & rhs & x & p' & I & dR & dZ & b & -> & (b1 & b2 & q' & -> & EJ) & _ & _ & _ & HI & HdR & HdZ & _ & ->).
    unfold constrained_call in EJ. apply bind_ok in EJ. destruct EJ as ((J', cs) & EJ & E2). apply bind_ok in E2. destruct E2 as (b3 & _ & E2). apply ok_inj in E2.
    cbn [fst snd] in E2. injection E2 as <- <- <-. exists b1, J', cs. cbv zeta. split; [exact EJ|]. split; [reflexivity|]. split; [reflexivity|]. split; [split; reflexivity|].
    unfold spacing_R, spacing_Z in HdR, HdZ. destruct (Nat.ltb_spec (e_nx e) 2); [discriminate|]. destruct (Nat.ltb_spec (e_ny e) 1); [discriminate|].
    destruct (Nat.ltb_spec (e_nx e) 1); [lia|]. destruct (Nat.ltb_spec (e_ny e) 2); [discriminate|]. cbn [orb] in HdR, HdZ.
    apply ok_inj in HdR. apply ok_inj in HdZ. split; [|split; assumption]. exists I. split; [exact HI|]. subst dR dZ. reflexivity.
  Qed.

  Variables (nx ny : nat) (c : option (eqm * P -> (eqm * P) * result unit)) (o : options (T := R)).
  Local Notation ops := (eq_ops G sqrt mu0 lu spline call c).
  Hypothesis Hc : control_keeps c.
  Lemma run_keeps s s1 r : run_constrain _ ops s = (s1, r) -> same_grid (fst s) (fst s1) /\ fst (snd s1) = fst (snd s).
  Proof.
    unfold run_constrain. cbn [constrain eq_ops]. destruct c as [f|] eqn:Ec; [|intros [= <- _]; split; [split|]; reflexivity].
    intros E. exact (Hc f s s1 r eq_refl E).
  Qed.
  Lemma solve_step (s s1 : eqm * P) q pb chk : eq_solve _ ops (with_check (fst s) chk, snd s) q pb = (s1, Ok tt) ->
    solve G sqrt mu0 lu spline call (with_check (fst s) chk) (snd s) None (Some q) pb = Ok (fst s1) /\ same_grid (fst s) (fst s1) /\ fst (snd s1) = fst (snd s).
  Proof.
    cbn [eq_solve eq_ops fst snd]. destruct (solve G sqrt mu0 lu spline call (with_check (fst s) chk) (snd s) None (Some q) pb) as [e1|] eqn:Es; [|discriminate].
    intros [= <-]. cbn [fst snd]. split; [reflexivity|]. destruct (solve_keeps _ _ _ _ _ Es) as (b1 & J & cs & _ & _ & -> & Hg & _).
    split; [exact Hg|reflexivity].
  Qed.
  Lemma returned fuel s s' h : (0 < nx)%nat -> (0 < ny)%nat -> picard nx ny _ ops o fuel s = (s', Ok h) ->
    exists t st q pb psi1, same_grid (fst s) t /\ 
      solve G sqrt mu0 lu spline call t (fst (snd s), st) None (Some q) pb = Ok (fst s') /\ total_psi (fst s') = Ok psi1 /\ close nx ny (atol o) (rtol o) q psi1.
  Proof.
    intros Hx Hy Ep. set (I := fun (t : eqm * P) (v : vars (T := R)) => same_grid (fst s) (fst t) /\ fst (snd t) = fst (snd s)).
    destruct (picard_inv nx ny _ ops o I s) with (fuel := fuel) (e' := s') (h := h) as (t & v & (I1 & I2) & Et); [| |exact Ep|].
    { intros e1 psi0 Er _. exact (run_keeps _ _ _ Er). }
    { intros t v t2 v2 (I1 & I2) Et. destruct (turn_next nx ny _ ops o _ _ _ _ Et) as (e1 & ob & psi1 & psi2 & (pb & _ & Es & _ & _) & _ & Er & _ & _ & _).
      apply run_keeps in Er. destruct Er as (R1 & R2). apply solve_step in Es. destruct Es as (_ & S1 & S2).
      split; [exact (same_trans _ _ _ (same_trans _ _ _ I1 S1) R1)|congruence]. }
    destruct (turn_done nx ny _ ops o _ _ _ _ Et) as (ob & psi1 & (pb & _ & Es & _ & Eps) & Ht & _).
    apply solve_step in Es. destruct Es as (Es & _ & _). exists (with_check (fst t) (flag o v)), (snd (snd t)), (psi v), pb, psi1.
    split; [exact I1|]. split; [rewrite <- I2, <- surjective_pairing; exact Es|]. split; [exact Eps|]. exact (test_close _ _ _ _ _ _ _ _ _ Hx Hy Ht).
  Qed.
End Returned.

(** the weight integral is positive if some grid point of the core has weight *)
Lemma weight_positive p (e : env (T := R)) q pb pa m v : 0 < alpha_m p -> 0 <= alpha_n p -> 0 < Raxis p ->
  (forall i j, (i < nx e)%nat -> (j < ny e)%nat -> 0 < gR e i j) -> gR e 0%nat 0%nat < gR e 1%nat 0%nat -> gZ e 0%nat 0%nat < gZ e 0%nat 1%nat ->
  (forall i j, (i < nx e)%nat -> (j < ny e)%nat -> 0 <= mask_at m i j) ->
  (exists i j, (i < nx e)%nat /\ (j < ny e)%nat /\ weight rpow p pa pb m q i j <> 0) ->
  grid_integral e (fun i j => weight rpow p pa pb m q i j * Raxis p / gR e i j) v -> 0 < v.
Proof.
  intros Hm Hn HRa HR HdR HdZ Hmask (i0 & j0 & Hi0 & Hj0 & Hw0) (s & Hs & ->).
  destruct (romb2_ok _ _ _ _ Hs) as (kx & ky & Ex & Ey). rewrite Ex, Ey in *. rewrite romb2_rt in Hs. injection Hs as Hs.
  assert (Hw : forall i j, (i < S (2 ^ kx))%nat -> (j < S (2 ^ ky))%nat -> 0 <= weight rpow p pa pb m q i j).
  { intros i j Hi Hj. unfold weight. apply Rmult_le_pos; [|apply Hmask; assumption]. rewrite <- nclip_R. apply (shape_bounds p (Rlt_le _ _ Hm) Hn). apply nclip_bounds. lra. }
  assert (Hp : 0 < s).
  { rewrite <- Hs. apply (R2_positive kx ky) with (i := i0) (j := j0); [|lia|lia|].
    - intros i j Hi Hj. apply Rmult_le_pos; [apply Rmult_le_pos; [apply Hw; lia|lra]|apply Rlt_le, Rinv_0_lt_compat, HR; lia].
    - apply Rmult_lt_0_compat; [|apply Rinv_0_lt_compat, HR; lia]. apply Rmult_lt_0_compat; [|exact HRa].
      specialize (Hw i0 j0 Hi0 Hj0). lra. }
  apply Rmult_lt_0_compat; [|lra]. apply Rmult_lt_0_compat; lra.
Qed.
(** masks are 0 or 1 *)
Lemma mask_01 {P Ctl} G spline (e : equilibrium R P Ctl) q pb pa m : (0 < e_nx e)%nat -> (0 < e_ny e)%nat ->
  core_of (env_of G spline e e) q pb pa m -> forall i j, (i < e_nx e)%nat -> (j < e_ny e)%nat -> mask_at m i j = 0 \/ mask_at m i j = 1.
Proof.
  intros Hx Hy (ub & _ & Hf) i j Hi Hj. unfold find_core in Hf. apply bind_ok in Hf. destruct Hf as ((opt, xpt) & _ & Hf).
  destruct opt as [|((a, b), c) os]; [discriminate|].
  assert (Hk : forall b' m', eq_core_mask e q ((a, b, c) :: os) xpt b' = Ok m' -> m' i j = 0 \/ m' i j = 1).
  { intros b' m' E. destruct (C40_core_mask_exact _ _ _ _ _ _ _ _ _ _ Hx Hy E) as (o & os' & pb' & s & _ & _ & _ & H). cbv zeta in H.
    destruct (H i j) as (H1 & _); [split; assumption|exact H1]. }
  destruct ub as [ub|].
  - apply bind_ok in Hf. destruct Hf as (m' & E & Hf). apply ok_inj in Hf. injection Hf as _ _ <-. exact (Hk (Some ub) m' E).
  - destruct xpt as [|((x1, x2), x3) xs].
    + apply ok_inj in Hf. injection Hf as _ _ <-. right. reflexivity.
    + apply bind_ok in Hf. destruct Hf as (m' & E & Hf). apply ok_inj in Hf. injection Hf as _ _ <-. exact (Hk None m' E).
Qed.

(** ** C185 *)
(** What is returned: a flux that agrees within the tolerances with the flux [q] whose core the
    current was computed for; that current is the profile's current of [q] and its core, and solves
    the Grad-Shafranov equation with the returned plasma flux. *)
Theorem C185_equation : forall Ctl G mu0 lu spline pow quad k (c : option (equilibrium R (@cprofile R * option (@cstate R)) Ctl * _ -> _ * result unit)) o nx ny fuel s s' h,
  control_keeps c -> (0 < nx)%nat -> (0 < ny)%nat -> mu0 <> 0 ->
  picard nx ny _ (eq_ops G sqrt mu0 lu spline (constrained_call spline (fun e => Jtor_of k G spline pow quad mu0 e)) c) o fuel s = (s', Ok h) ->
  let e := fst s in let e' := fst s' in let p := fst (snd s) in
  exists t q psi1 J cs pb pa m,
    same_grid e e' /\ same_grid e t /\ total_psi e' = Ok psi1 /\ close nx ny (atol o) (rtol o) q psi1 /\
    jtor e' = Some J /\ profiles e' = Some (p, Some cs) /\
    core_of (env_of G spline t t) q pb pa m /\ Jtor.psi_bndry cs = pb /\ Jtor.psi_axis cs = pa /\
    (forall i j, grid_R e i j <> 0 ->
       J i j = (grid_R e i j * cpprime pow p cs (psinorm pa pb (q i j)) + cffprime pow mu0 p cs (psinorm pa pb (q i j)) / (mu0 * grid_R e i j)) * mask_at m i j) /\
    (exact_solver lu -> second_order e -> forall x y, inside (e_nx e) (e_ny e) x y ->
       GSElliptic (Rmin e) (plasma_psi e') (e_nx e) (e_ny e) ((Rmax e - Rmin e) / INR (e_nx e - 1)) ((Zmax e - Zmin e) / INR (e_ny e - 1)) x y
       = - mu0 * gridpt (Rmin e) (Rmax e) (e_nx e) x * J x y).
Proof.
  intros Ctl G mu0 lu spline pow quad k c o nx ny fuel s s' h Hc Hx Hy Hmu Ep. cbv zeta.
  destruct (returned G mu0 lu spline pow quad k nx ny c o Hc fuel s s' h Hx Hy Ep) as (t & st & q & pb0 & psi1 & Hg & Es & Et & Hcl).
  destruct (solve_keeps _ _ _ _ _ _ _ _ _ _ _ _ Es) as (b1 & J & cs & EJ & EJ' & Epr & Hg' & _). cbv zeta in EJ. cbn [fst] in EJ, Epr.
  set (t1 := with_bs (with_profiles t (Some (fst (snd s), st)) (Equilibrium.control t)) b1) in *.
  assert (Ht1 : same_grid t t1) by (split; reflexivity).
  assert (Hcore : exists pb pa m, core_of (env_of G spline t1 t1) q pb pa m).
  { destruct k; cbn [Jtor_of] in EJ.
    - destruct (paxis_inv _ _ _ _ _ _ _ _ EJ) as (pb & pa & m & H & _). exists pb, pa, m. exact H.
    - destruct (betap_inv _ _ _ _ _ _ _ _ _ EJ) as (pb & pa & m & pi & bi & H & _). exists pb, pa, m. exact H. }
  destruct Hcore as (pb & pa & m & Hcore).
  assert (HJ : paxis_Jtor pow quad (env_of G spline t1 t1) (fst (snd s)) q pb0 = Ok (J, cs) \/ betap_Jtor pow quad mu0 (env_of G spline t1 t1) (fst (snd s)) q pb0 = Ok (J, cs)).
  { destruct k; [left|right]; exact EJ. }
  destruct (C34_constrained _ _ _ _ _ _ _ _ _ _ _ _ HJ Hcore Hmu) as (Eb & Ea & HJf).
  exists t1, q, psi1, J, cs, pb, pa, m. split; [exact (same_trans _ _ _ Hg Hg')|]. split; [exact (same_trans _ _ _ Hg Ht1)|].
  split; [exact Et|]. split; [exact Hcl|]. split; [exact EJ'|]. split; [exact Epr|]. split; [exact Hcore|]. split; [exact Eb|]. split; [exact Ea|].
  assert (HgR : gR (env_of G spline t1 t1) = grid_R (fst s)).
  { cbn [gR env_of]. destruct Hg as (D & _). injection D as N M A1 A2 A3 A4. unfold t1, grid_R, R_1D. cbn. rewrite N, A1, A2. reflexivity. }
  split.
  - rewrite <- HgR. exact HJf.
  - intros Hlu H2 x y Hxy. assert (H2' := same_second _ _ Hg H2).
    destruct (PropSolveFlux.solved _ _ _ _ _ _ _ _ _ _ _ _ Hlu H2' Es EJ') as (p1 & _ & _ & _ & _ & Hi).
    destruct Hg as (D & _). injection D as N M A1 A2 A3 A4. rewrite N, M, A1, A2, A3, A4 in Hi. exact (Hi x y Hxy).
Qed.
Print Assumptions C185_equation.

(** The plasma current is the one asked for, exactly, whatever the tolerances, unless the current
    density is zero at every grid point. *)
Theorem C185_current : forall Ctl G mu0 lu spline quad k (c : option (equilibrium R (@cprofile R * option (@cstate R)) Ctl * _ -> _ * result unit)) o nx ny fuel s s' h,
  control_keeps c -> (0 < nx)%nat -> (0 < ny)%nat ->
  picard nx ny _ (eq_ops G sqrt mu0 lu spline (constrained_call spline (fun e => Jtor_of k G spline rpow quad mu0 e)) c) o fuel s = (s', Ok h) ->
  let e := fst s in let e' := fst s' in let p := fst (snd s) in
  0 < alpha_m p -> 0 <= alpha_n p -> 0 < Raxis p -> 0 < Rmin e -> Rmin e < Rmax e -> Zmin e < Zmax e ->
  exists J I, jtor e' = Some J /\
    romb2 (e_nx e) (e_ny e) J = Ok I /\ current e' = I * ((Rmax e - Rmin e) / INR (e_nx e - 1)) * ((Zmax e - Zmin e) / INR (e_ny e - 1)) /\
    (current e' = Ip p \/ forall i j, (i < e_nx e)%nat -> (j < e_ny e)%nat -> J i j = 0).
Proof.
  intros Ctl G mu0 lu spline quad k c o nx ny fuel s s' h Hc Hx Hy Ep. cbv zeta. intros Hm Hn HRa H0 HR HZ.
  destruct (returned G mu0 lu spline rpow quad k nx ny c o Hc fuel s s' h Hx Hy Ep) as (t & st & q & pb0 & psi1 & Hg & Es & Et & Hcl).
  destruct (solve_keeps _ _ _ _ _ _ _ _ _ _ _ _ Es) as (b1 & J & cs & EJ & EJ' & Epr & Hg' & HI & H2x & H2y). cbv zeta in EJ, HI. cbn [fst] in EJ, Epr, HI.
  set (t1 := with_bs (with_profiles t (Some (fst (snd s), st)) (Equilibrium.control t)) b1) in *.
  assert (Ht1 : same_grid (fst s) t1) by (destruct Hg; split; assumption).
  assert (Hcore : exists pb pa m, core_of (env_of G spline t1 t1) q pb pa m).
  { destruct k; cbn [Jtor_of] in EJ.
    - destruct (paxis_inv _ _ _ _ _ _ _ _ EJ) as (pb & pa & m & H & _). exists pb, pa, m. exact H.
    - destruct (betap_inv _ _ _ _ _ _ _ _ _ EJ) as (pb & pa & m & pi & bi & H & _). exists pb, pa, m. exact H. }
  destruct Hcore as (pb & pa & m & Hcore).
  assert (D : (e_nx t1 = e_nx (fst s) /\ e_ny t1 = e_ny (fst s)) /\ (Rmin t1 = Rmin (fst s) /\ Rmax t1 = Rmax (fst s)) /\ Zmin t1 = Zmin (fst s) /\ Zmax t1 = Zmax (fst s)).
  { destruct Ht1 as (D & _). injection D as N M A1 A2 A3 A4. split; [split; assumption|]. split; split; assumption. }
  destruct D as ((N & M) & (A1 & A2) & A3 & A4).
  assert (Hr : forall i j, gR (env_of G spline t1 t1) i j = gridpt (Rmin (fst s)) (Rmax (fst s)) (e_nx (fst s)) i).
  { intros i j. cbn [gR env_of]. unfold grid_R, R_1D. rewrite N, A1, A2. apply linspace_gridpt. }
  assert (Hz : forall i j, gZ (env_of G spline t1 t1) i j = gridpt (Zmin (fst s)) (Zmax (fst s)) (e_ny (fst s)) j).
  { intros i j. cbn [gZ env_of]. unfold grid_Z, Z_1D. rewrite M, A3, A4. apply linspace_gridpt. }
  assert (H2 : (2 <= e_nx (fst s))%nat /\ (2 <= e_ny (fst s))%nat) by (rewrite <- N, <- M; split; assumption). destruct H2 as (H2 & H3).
  assert (HI0 := HI). destruct HI as (I & HI1 & HI2). exists J, I. split; [exact EJ'|].
  split; [cbn [Jtor.nx Jtor.ny env_of] in HI1; rewrite N, M in HI1; exact HI1|]. split; [rewrite HI2, !Hr, !Hz; unfold gridpt; cbn [INR]; ring|].
  destruct (classic (forall i j, (i < e_nx (fst s))%nat -> (j < e_ny (fst s))%nat -> J i j = 0)) as [HJ0|HJ0]; [right; exact HJ0|left].
  assert (HJ1 : exists i j, (i < e_nx (fst s))%nat /\ (j < e_ny (fst s))%nat /\ J i j <> 0).
  { apply NNPP. intros Hno. apply HJ0. intros i j Hi Hj. apply NNPP. intros Hne. apply Hno. exists i, j. auto. }
  assert (Hf : exists lb, cfinish (env_of G spline t1 t1) (fst (snd s)) pb pa (jtorshape rpow (fst (snd s)) (psi_norm_of pb pa q) m) lb = Ok (J, cs)).
  { destruct k; cbn [Jtor_of] in EJ.
    - destruct (paxis_inv _ _ _ _ _ _ _ _ EJ) as (pb' & pa' & m' & Hc' & Hf). destruct (core_fun _ _ _ _ _ _ _ _ Hc' Hcore) as (-> & -> & ->). eexists; exact Hf.
    - destruct (betap_inv _ _ _ _ _ _ _ _ _ EJ) as (pb' & pa' & m' & pi & bi & Hc' & _ & _ & Hf). destruct (core_fun _ _ _ _ _ _ _ _ Hc' Hcore) as (-> & -> & ->). eexists; exact Hf. }
  destruct Hf as (lb & Hf). destruct (cfinish_inv _ _ _ _ _ _ _ _ Hf) as (IR & I_R & _ & _ & _ & _ & _ & _ & HJe).
  assert (HL : L cs <> 0) by (destruct HJ1 as (i & j & _ & _ & Hne); intros HL; apply Hne; rewrite HJe, HL; ring).
  assert (Hpt : exists i j, (i < e_nx (fst s))%nat /\ (j < e_ny (fst s))%nat /\ weight rpow (fst (snd s)) pa pb m q i j <> 0).
  { destruct HJ1 as (i & j & Hi & Hj & Hne). exists i, j. split; [exact Hi|]. split; [exact Hj|]. intros Hw. apply Hne. rewrite HJe, jtorshape_at, Hw. ring. }
    assert (Hw : forall v, grid_integral (env_of G spline t1 t1) (fun i j => weight rpow (fst (snd s)) pa pb m q i j * Raxis (fst (snd s)) / gR (env_of G spline t1 t1) i j) v -> v <> 0).
    { intros v Hv. apply Rgt_not_eq. apply (weight_positive _ _ _ _ _ _ _ Hm Hn HRa) with (6 := Hv).
      - intros i j _ _. rewrite Hr. assert (A := gridpt_ge (Rmin (fst s)) (Rmax (fst s)) (e_nx (fst s)) i HR H2). lra.
      - rewrite !Hr. apply gridpt_step; assumption.
      - rewrite !Hz. apply gridpt_step; assumption.
      - intros i j Hi Hj. destruct (mask_01 G spline t1 q pb pa m) with (i := i) (j := j) as [->| ->]; try assumption; try lra; rewrite ?N, ?M; lia.
      - rewrite <- N, <- M in Hpt. exact Hpt. }
    assert (HIp : grid_integral (env_of G spline t1 t1) J (Ip (fst (snd s)))).
    { destruct k; cbn [Jtor_of] in EJ; [exact (C31_paxis_current _ _ _ _ _ _ _ _ _ _ _ EJ Hcore Hw HL)|exact (C31_betap_current _ _ _ _ _ _ _ _ _ _ _ _ EJ Hcore Hw HL)]. }
    destruct HI0 as (I0 & HI3 & ->). destruct HIp as (I2 & HI4 & ->). rewrite HI3 in HI4. apply ok_inj in HI4. subst I2. reflexivity.
Qed.
Print Assumptions C185_current.
(** With ConstrainPaxisIp the pressure on the axis is the one asked for and vanishes at the boundary. *)
Theorem C185_pressure : forall Ctl G mu0 lu spline (c : option (equilibrium R (@cprofile R * option (@cstate R)) Ctl * _ -> _ * result unit)) o nx ny fuel s s' h,
  control_keeps c -> (0 < nx)%nat -> (0 < ny)%nat ->
  picard nx ny _ (eq_ops G sqrt mu0 lu spline (constrained_call spline (fun e => Jtor_of Paxis G spline rpow rquad mu0 e)) c) o fuel s = (s', Ok h) ->
  let p := fst (snd s) in 0 < alpha_m p -> 0 <= alpha_n p -> Raxis p <> 0 ->
  exists cs, profiles (fst s') = Some (p, Some cs) /\
    (Jtor.psi_bndry cs <> Jtor.psi_axis cs -> L cs <> 0 -> cpressure rpow rquad p cs 0 = target p /\ cpressure rpow rquad p cs 1 = 0).
Proof.
  intros Ctl G mu0 lu spline c o nx ny fuel s s' h Hc Hx Hy Ep. cbv zeta. intros Hm Hn HRa.
  destruct (returned G mu0 lu spline rpow rquad Paxis nx ny c o Hc fuel s s' h Hx Hy Ep) as (t & st & q & pb0 & psi1 & Hg & Es & Et & Hcl).
  destruct (solve_keeps _ _ _ _ _ _ _ _ _ _ _ _ Es) as (b1 & J & cs & EJ & EJ' & Epr & _). cbv zeta in EJ. cbn [fst Jtor_of] in EJ, Epr.
  exists cs. split; [exact Epr|]. intros Hne HL. apply (C32_pressure_on_axis _ _ _ _ _ _ (Rlt_le _ _ Hm) Hn (or_introl Hm) EJ HRa Hne HL).
Qed.
Print Assumptions C185_pressure.

(** A plasma with the flux - (R - 1)^2 - 2 Z^2 and a solver that gives this flux back: the whole
    domain with flux above the value in the corner carries the current. *)
Definition cup (i j : nat) : R := EquilibriumProofs2.bowl (-1) (-2) (1 / 2 + INR i / 4) (- (1 / 2) + INR j / 4).
Definition cup_eq (st : bstate R) cur jt pr : equilibrium R (@cprofile R * option (@cstate R)) unit :=
  mkeq 5 5 (1 / 2) (3 / 2) (- (1 / 2)) (1 / 2) (mktok [] false []) BFixed 2 (SUser (fun p _ => Ok (p, cup))) false cup (fun _ _ => []) cur jt st pr None.
Definition cup_profile : @cprofile R := mkcprofile 0 7 1 1 1 1.
Lemma cup_find st cur jt pr q : (forall i j, q i j = cup i j) -> eq_find_critical spline2 (cup_eq st cur jt pr) 5 5 q = Ok ([(1, 0, 0)], []).
Proof.
  intros Hq. rewrite <- (bowl_find spline2 5 5 (-1) (-2) false [] st q spline2_exact) by (try lia; try lra; exact Hq).
  unfold eq_find_critical, eq_spline, grid_R, grid_Z, R_1D, Z_1D. cbn [e_nx e_ny Rmin Rmax Zmin Zmax cup_eq bowl_eq].
  replace (1 / 2 + INR (5 - 1) / 4) with (3 / 2) by (cbn [INR Nat.sub]; lra).
  replace (- (1 / 2) + INR (5 - 1) / 4) with (1 / 2) by (cbn [INR Nat.sub]; lra). reflexivity.
Qed.
Lemma cup_boundary st cur jt pr q : (forall i j, q i j = cup i j) ->
  exists b, update_boundary spline2 (cup_eq st cur jt pr) 5 5 q = Ok b /\ Equilibrium.psi_bndry b = Some (Some (- (3 / 4))).
Proof.
  intros Hq. unfold update_boundary. rewrite cup_find by exact Hq. cbn [bind]. unfold update_from.
  change (check_limited (cup_eq st cur jt pr)) with false. change (bnd (cup_eq st cur jt pr)) with (BFixed (T := R)). cbn [andb].
  eexists. split; [reflexivity|]. cbn [Equilibrium.psi_bndry]. rewrite Hq. do 2 f_equal. unfold cup, EquilibriumProofs2.bowl. cbn [INR]. lra.
Qed.
Lemma cup_own st cur jt pr : exists b, update_own spline2 (cup_eq st cur jt pr) = Ok (cup_eq b cur jt pr) /\ Equilibrium.psi_bndry b = Some (Some (- (3 / 4))).
Proof.
  unfold update_own. destruct (no_coils_psi (cup_eq st cur jt pr) eq_refl) as (q & E & Hq). rewrite E. cbn [bind].
  destruct (cup_boundary st cur jt pr q Hq) as (b & Eb & Hb). change (e_nx _) with 5%nat. change (e_ny _) with 5%nat. rewrite Eb. cbn [bind]. exists b. split; [reflexivity|exact Hb].
Qed.
Lemma cup_grid st cur jt pr i j : grid_R (cup_eq st cur jt pr) i j = 1 / 2 + INR i / 4 /\ grid_Z (cup_eq st cur jt pr) i j = - (1 / 2) + INR j / 4.
Proof. rewrite gridR_is, gridZ_is. unfold gridpt. cbn [e_nx e_ny Rmin Rmax Zmin Zmax cup_eq Nat.sub INR]. split; lra. Qed.
(** its current *)
Lemma cup_Jtor G st cur jt pr q arg : (forall i j, q i j = cup i j) -> let e := cup_eq st cur jt pr in
  exists J cs, paxis_Jtor rpow rquad (env_of G spline2 e e) cup_profile q arg = Ok (J, cs) /\ J 2%nat 2%nat <> 0 /\ L cs <> 0 /\ Jtor.psi_bndry cs <> Jtor.psi_axis cs.
Proof.
  intros Hq e. set (env := env_of G spline2 e e).
  assert (EU : updated_bndry env q = Ok (Some (- (3 / 4)))).
  { cbn [updated_bndry env env_of]. change (e_nx e) with 5%nat. change (e_ny e) with 5%nat. destruct (cup_boundary st cur jt pr q Hq) as (b & Eb & Hb). unfold e. rewrite Eb. cbn [bind]. rewrite Hb. reflexivity. }
  assert (EF : Jtor.find_critical env q = Ok ([(1, 0, 0)], [])) by (apply cup_find; exact Hq).
  destruct (C39_core_mask_terminates 5 5 (grid_R e) (grid_Z e) q [(1, 0, 0)] [] (Some (- (3 / 4))) (6 * (5 * 5) + 4) ltac:(lia) ltac:(lia) ltac:(lia)) as (m & Em).
  assert (EM : Jtor.core_mask env q [(1, 0, 0)] [] (Some (- (3 / 4))) = Ok m) by exact Em.
  assert (EC : find_core env q (Some (- (3 / 4))) = Ok (- (3 / 4), 0, Some m)).
  { unfold find_core. rewrite EF. cbn [bind]. rewrite EM. reflexivity. }
  assert (Hm : m 2%nat 2%nat = 1).
  { destruct (C40_core_mask_exact 5 5 _ _ _ _ _ _ _ _ ltac:(lia) ltac:(lia) Em) as (o & os & pb & s & Eo & _ & Hs & H). injection Eo as <- <-. cbn [fst snd] in Hs, H.
    assert (Es : s = (2, 2)%nat).
    { apply (C40_nearest_unique _ _ _ _ _ _ _ _ Hs). split; cbn [fst snd].
      - split; [lia|]. split; intros i Hi; cbv beta; unfold e; rewrite !(proj1 (cup_grid _ _ _ _ _ _)); assert (Hc : (i = 0 \/ i = 1 \/ i = 2 \/ i = 3 \/ i = 4)%nat) by lia;
          repeat (destruct Hc as [-> |Hc]); try subst i; try lia; cbn [INR]; unfold Rabs; repeat destruct (Rcase_abs _); lra.
      - split; [lia|]. split; intros i Hi; cbv beta; unfold e; rewrite !(proj2 (cup_grid _ _ _ _ _ _)); assert (Hc : (i = 0 \/ i = 1 \/ i = 2 \/ i = 3 \/ i = 4)%nat) by lia;
          repeat (destruct Hc as [-> |Hc]); try subst i; try lia; cbn [INR]; unfold Rabs; repeat destruct (Rcase_abs _); lra. }
    destruct (H 2%nat 2%nat ltac:(split; cbn; lia)) as (_ & _ & H2). apply H2; [intros (x & c & [] & _)|]. rewrite Es. apply conn_start. }
  assert (HR : forall i j, gR env i j = 1 / 2 + INR i / 4) by (intros i j; apply (cup_grid st cur jt pr i j)).
  assert (HZ : forall i j, gZ env i j = - (1 / 2) + INR j / 4) by (intros i j; apply (cup_grid st cur jt pr i j)).
  assert (Hint : forall a, exists v, area_int env a = Ok v).
  { intros a. destruct (romb2_dyadic 5 5 a (ex_intro _ 2%nat eq_refl) (ex_intro _ 2%nat eq_refl)) as (s & Es). eexists. apply area_int_ok. exists s. split; [exact Es|reflexivity]. }
  assert (HW : weight rpow cup_profile 0 (- (3 / 4)) (Some m) q 2 2 = 1).
  { unfold weight. cbn [mask_at cup_profile alpha_m alpha_n]. rewrite Hm. unfold psinorm. rewrite Hq.
    replace (cup 2 2) with 0 by (unfold cup, EquilibriumProofs2.bowl; cbn [INR]; lra). replace ((0 - 0) / (- (3 / 4) - 0)) with 0 by field.
    rewrite Rbasic_fun.Rmax_left, Rbasic_fun.Rmin_left by lra. unfold rpow at 2. destruct (Req_EM_T 0 0) as [_|]; [|lra]. destruct (Req_EM_T 1 0) as [|_]; [lra|].
    unfold rpow. destruct (Req_EM_T (1 - 0) 0); [lra|]. rewrite Rpower_1 by lra. lra. }
  unfold paxis_Jtor. rewrite EU. cbn [bind]. rewrite EC. cbn [bind].
  set (js := jtorshape rpow cup_profile (psi_norm_of (- (3 / 4)) 0 q) (Some m)). set (lb := (_ / _)%num).
  assert (Hcf : exists J cs, cfinish env cup_profile (- (3 / 4)) 0 js lb = Ok (J, cs)).
  { unfold cfinish. destruct (Hint (fun i j => (js i j * gR env i j / Raxis cup_profile)%num)) as (v1 & ->). destruct (Hint (fun i j => (js i j * Raxis cup_profile / gR env i j)%num)) as (v2 & ->).
    cbn [bind]. eexists. eexists. reflexivity. }
  destruct Hcf as (J & cs & Hcf). exists J, cs. split; [exact Hcf|].
  destruct (cfinish_inv _ _ _ _ _ _ _ _ Hcf) as (IR & I_R & _ & HI & HL & HB & Hpb & Hpa & HJ).
  assert (Elb : lb = 0) by (unfold lb; cbn [cup_profile target Raxis]; nR; unfold Rdiv; ring).
  assert (HI0 : 0 < I_R).
  { apply (weight_positive cup_profile env q (- (3 / 4)) 0 (Some m) I_R); cbn [cup_profile alpha_m alpha_n Raxis]; try lra.
    - intros i j _ _. rewrite HR. assert (H := pos_INR i). lra.
    - rewrite !HR. cbn [INR]. lra.
    - rewrite !HZ. cbn [INR]. lra.
    - intros i j Hi Hj. assert (Hco : core_of env q (- (3 / 4)) 0 (Some m)) by (eexists; split; [exact EU|exact EC]).
      destruct (mask_01 G spline2 e q _ _ _ ltac:(cbn; lia) ltac:(cbn; lia) Hco i j Hi Hj) as [->| ->]; lra.
    - exists 2%nat, 2%nat. split; [cbn; lia|]. split; [cbn; lia|]. rewrite HW. lra.
    - apply (grid_ext _ (fun i j => js i j * Raxis cup_profile / gR env i j)); [|exact HI]. intros i j. unfold js. rewrite jtorshape_at. reflexivity. }
  rewrite Elb in HL, HB. cbn [cup_profile Ip] in HL.
  assert (HL0 : L cs <> 0). { rewrite HL. replace (7 / I_R - 0 * (IR / I_R - 1)) with (7 / I_R) by ring. apply Rgt_not_eq, Rdiv_lt_0_compat; lra. }
  split; [|split; [exact HL0|rewrite Hpb, Hpa; lra]].
  rewrite HJ, HB. unfold js. rewrite jtorshape_at, HW, HR. cbn [cup_profile Raxis INR]. replace (0 / L cs) with 0 by (unfold Rdiv; ring).
  replace (L cs * (0 * (1 / 2 + (1 + 1) / 4) / 1 + (1 - 0) * 1 / (1 / 2 + (1 + 1) / 4)) * 1) with (L cs) by field. exact HL0.
Qed.
Lemma cup_solve st cur jt pr q : (forall i j, q i j = cup i j) ->
  exists st' cur' J cs, solve (fun _ => green) sqrt 1 elimination spline2 (constrained_call spline2 (fun e => Jtor_of Paxis (fun _ => green) spline2 rpow rquad 1 e)) (cup_eq st cur jt pr) (cup_profile, None) None (Some q) None
    = Ok (cup_eq st' cur' (Some J) (Some (cup_profile, Some cs))) /\ Equilibrium.psi_bndry st' = Some (Some (- (3 / 4))) /\ J 2%nat 2%nat <> 0 /\ L cs <> 0 /\ Jtor.psi_bndry cs <> Jtor.psi_axis cs.
Proof.
  intros Hq. unfold solve. change (with_profiles (cup_eq st cur jt pr) (Some (cup_profile, None)) (Equilibrium.control (cup_eq st cur jt pr))) with (cup_eq st cur jt (Some (cup_profile, None))).
  destruct (cup_own st cur jt (Some (cup_profile, None))) as (b1 & -> & _). cbn [bind].
  destruct (cup_Jtor (fun _ => green) b1 cur jt (Some (cup_profile, None)) q None Hq) as (J & cs & EJ & HJ). 
  unfold constrained_call at 1. cbn [fst snd Jtor_of]. rewrite EJ. cbn [bind fst snd].
  destruct (cup_boundary b1 cur jt (Some (cup_profile, None)) q Hq) as (b2 & Eb & _).
  change (e_nx (cup_eq b1 cur jt (Some (cup_profile, None)))) with 5%nat. change (e_ny (cup_eq b1 cur jt (Some (cup_profile, None)))) with 5%nat. rewrite Eb. cbn [bind].
  change (with_profiles (with_bs (cup_eq b1 cur jt (Some (cup_profile, None))) b2) (Some (cup_profile, Some cs)) (Equilibrium.control (cup_eq b1 cur jt (Some (cup_profile, None))))) with (cup_eq b2 cur jt (Some (cup_profile, Some cs))).
  unfold linear_solve, applyBoundary. change (bnd (cup_eq b2 cur jt (Some (cup_profile, Some cs)))) with (BFixed (T := R)).
  change (e_nx (cup_eq b2 cur jt (Some (cup_profile, Some cs)))) with 5%nat. change (e_ny (cup_eq b2 cur jt (Some (cup_profile, Some cs)))) with 5%nat.
  unfold fixedBoundary, set_edges. cbn [Nat.eqb orb bind]. unfold callSolver. cbn [slv cup_eq bind]. unfold update_plasma, eq_spline.
  rewrite RBS_ok; [|lia|lia|apply linspace_increasing; cbn; lra|apply linspace_increasing; cbn; lra]. cbn [bind].
  match goal with |- context [update_own spline2 ?x] => change x with (cup_eq b2 cur jt (Some (cup_profile, Some cs))) end.
  destruct (cup_own b2 cur jt (Some (cup_profile, Some cs))) as (b3 & -> & Hb3). cbn [bind].
  destruct (romb2_dyadic 5 5 J (ex_intro _ 2%nat eq_refl) (ex_intro _ 2%nat eq_refl)) as (s & Es).
  match goal with |- context [romb2 ?a ?b J] => change (romb2 a b J) with (romb2 5 5 J) end. rewrite Es. cbn [bind].
  eexists b3, _, J, cs. split; [reflexivity|]. split; [exact Hb3|exact HJ].
Qed.
Example C185_example : let e := cup_eq no_boundary 0 None None in
  exists s' h, picard 5 5 _ (eq_ops (fun _ => green) sqrt 1 elimination spline2 (constrained_call spline2 (fun e => Jtor_of Paxis (fun _ => green) spline2 rpow rquad 1 e)) None)
      (plain_options (Some 50%Z) (1 / 1000) 1) 52 (e, (cup_profile, None)) = (s', Ok h) /\
    current (fst s') = 7 /\ exists cs, profiles (fst s') = Some (cup_profile, Some cs) /\ cpressure rpow rquad cup_profile cs 0 = 0.
Proof.
  intros e. destruct (no_coils_psi e eq_refl) as (q & Eq & Hq).
  destruct (cup_solve no_boundary 0 None None q Hq) as (st' & cur' & J & cs & Es & Hb & HJ & HL & Hne).
  set (e1 := cup_eq st' cur' (Some J) (Some (cup_profile, Some cs))) in *.
  set (ops := eq_ops (fun _ => green) sqrt 1 elimination spline2 (constrained_call spline2 (fun e => Jtor_of Paxis (fun _ => green) spline2 rpow rquad 1 e)) None).
  set (o := plain_options (Some 50%Z) (1 / 1000) 1). set (v := mkvars q 0 0 None false []).
  destruct (no_coils_psi e1 eq_refl) as (q1 & Eq1 & Hq1).
  assert (Ht : test 5 5 _ ops o v (e1, (cup_profile, Some cs)) (Some (- (3 / 4))) q1 = true).
  { unfold test. change (wait o) with false. cbn [negb orb]. rewrite andb_true_r. apply andb_true_iff. split; apply orb_true_iff; [left|right].
    - apply R_ltb_true. change (atol o) with 1. destruct (amax_spec 5 5 (fun i j => Rabs (psi v i j - q1 i j)) ltac:(lia) ltac:(lia)) as (_ & i & j & _ & _ & M). unfold maxch. rewrite M.
      cbn [psi v]. rewrite Hq, Hq1. change (plasma_psi e i j) with (plasma_psi e1 i j). rewrite Rminus_diag_eq, Rabs_R0 by reflexivity. lra.
    - cbn [newch option_map below bndry v]. apply R_ltb_true. change (atol o) with 1. unfold Rabs. destruct (Rcase_abs _); lra. }
  assert (Et : turn 5 5 _ ops o (e, (cup_profile, None)) v = ((e1, (cup_profile, Some cs)), Ok (inl [entry 5 5 v q1]))).
  { rewrite turn_eq. cbv zeta. change (flag o v) with false. cbv iota. change (user_bndry o) with (@None R).
    replace (eq_solve _ ops (set_check _ ops false (e, (cup_profile, None))) (psi v) None) with ((e1, (cup_profile, Some cs)), Ok tt).
    - replace (bndry_flux _ ops (e1, (cup_profile, Some cs))) with (Some (Some (- (3 / 4)))) by (symmetry; exact Hb).
      replace (Picard.eq_psi _ ops (e1, (cup_profile, Some cs))) with (Ok q1) by (symmetry; exact Eq1). rewrite Ht. reflexivity.
    - cbn [eq_solve ops eq_ops set_check fst snd psi v].
      match goal with |- _ = match ?x with Ok _ => _ | Raise _ => _ end => replace x with (Ok e1 : result (equilibrium R (@cprofile R * option (@cstate R)) unit)) by (symmetry; exact Es) end. reflexivity. }
  assert (Ep : picard 5 5 _ ops o 52 (e, (cup_profile, None)) = ((e1, (cup_profile, Some cs)), Ok [entry 5 5 v q1])).
  { unfold picard, run_constrain. change (constrain _ ops) with (@None (equilibrium R (@cprofile R * option (@cstate R)) unit * (@cprofile R * option (@cstate R)) -> (equilibrium R (@cprofile R * option (@cstate R)) unit * (@cprofile R * option (@cstate R))) * result unit)). cbv iota beta.
    replace (Picard.eq_psi _ ops (e, (cup_profile, None))) with (Ok q) by (symmetry; exact Eq). cbn [loop].
    match goal with |- context [turn ?a ?b ?c ?d ?f ?g ?h] => replace (turn a b c d f g h) with ((e1, (cup_profile, Some cs)), Ok (inl [entry 5 5 v q1]) : result (list (R * option R) + vars (T := R))) by (symmetry; exact Et) end. reflexivity. }
  exists (e1, (cup_profile, Some cs)), [entry 5 5 v q1]. split; [exact Ep|].
  assert (Hk : control_keeps (Ctl := unit) None) by (intros f s s1 r Ef; discriminate).
  destruct (C185_current unit _ _ _ _ _ Paxis None o 5 5 52 (e, (cup_profile, None)) _ _ Hk ltac:(lia) ltac:(lia) Ep) as (J1 & I & EJ & _ & _ & Hd); try (cbn; lra).
  destruct (C185_pressure unit _ _ _ _ None o 5 5 52 (e, (cup_profile, None)) _ _ Hk ltac:(lia) ltac:(lia) Ep) as (cs1 & Ec & Hp); try (cbn; lra).
  split.
  - destruct Hd as [Hd|Hd]; [exact Hd|]. exfalso. change (jtor e1 = Some J1) in EJ. change (Some J = Some J1) in EJ. injection EJ as <-. apply HJ. apply Hd; cbn; lia.
  - exists cs1. split; [exact Ec|]. change (Some (cup_profile, Some cs) = Some (cup_profile, Some cs1)) in Ec. injection Ec as <-. exact (proj1 (Hp Hne HL)).
Qed.
