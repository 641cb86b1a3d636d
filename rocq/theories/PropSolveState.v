(** C174-C176: the boundary attributes after Equilibrium.solve, and the solver made by setSolverVcycle. *)
From Coq Require Import String List Arith ZArith QArith Bool Reals Lia Lra.
From Verif Require Import Py Num Numpy Linalg GradShafranov GradShafranovProofs GS4Proofs Multigrid MultigridProofs MultigridGS Coils Machine MachineSpec MachineProofs Romb RombProofs
  Critical CriticalSpec CriticalProofs CriticalProofs2 CriticalProofs3 Boundary BoundarySpec BoundaryProofs Jtor Equilibrium EquilibriumSpec EquilibriumProofs EquilibriumProofs2
  GSSpec Gauss PropMultigrid PropBoundary PropCritical PropMachine PropEquilibrium PropEquilibrium2 PropSolveFlux FittingProofs EllipticSpec PropGreens Diagnostics FluxQueries.
Import ListNotations.
Local Open Scope R_scope.

(** ** C174 *)
(** The critical points of the total flux of [e], as the constructor and solve look for them. *)
Definition critical_points {P Ctl} spline (e : equilibrium R P Ctl) (psi : nat -> nat -> R) os xs : Prop :=
  eq_find_critical spline e (e_nx e) (e_ny e) psi = Ok (os, xs).

(** After a solve without limiter the attributes are those of the new flux: the axis is the first O-point,
    the boundary flux that of the first X-point, and the mask is 1 only where the normalised flux is
    below 1 (and at the grid point closest to the axis, where the filling starts). *)
Theorem C174_attributes : forall (P Ctl : Type) G mu0 lu spline
    (Jtor_call : P -> equilibrium R P Ctl -> (nat -> nat -> R) -> option R -> result ((nat -> nat -> R) * P * bstate R))
    (e e' : equilibrium R P Ctl) p Jo psi pb,
  solve G sqrt mu0 lu spline Jtor_call e p Jo psi pb = Ok e' ->
  check_limited e = false \/ wall (tok e) = false ->
  exists q os xs, total_psi e' = Ok q /\ critical_points spline e' q os xs /\
    forall o os', os = o :: os' ->
      psi_axis (bs e') = Some (pPsi o) /\ is_limited (bs e') = false /\
      magneticAxis spline e' = Ok o /\ Rmagnetic spline e' = Ok (pR o) /\ Zmagnetic spline e' = Ok (pZ o) /\
      (forall x xs', xs = x :: xs' ->
         psi_bndry (bs e') = Some (Some (pPsi x)) /\
         exists m pn, mask (bs e') = Some (Some m) /\ psiN e' = Ok pn /\
           (forall i j, pn i j = (q i j - pPsi o) / (pPsi x - pPsi o)) /\
           forall i j, (i < e_nx e')%nat -> (j < e_ny e')%nat -> (m i j = 0 \/ m i j = 1) /\ 
             (m i j = 1 -> pn i j < 1 \/ nearest_cell (e_nx e') (e_ny e') (grid_R e') (grid_Z e') (pR o) (pZ o) (i, j))) /\
      (xs = [] -> mask (bs e') = Some None /\
         psi_bndry (bs e') = Some (match bnd e' with BFixed => Some (q 0%nat 0%nat) | _ => None end)).
Proof.
  intros P Ctl G mu0 lu spline Jc e e' p Jo psi pb E Hnl.
  destruct (solve_inv _ _ _ _ _ _ _ _ _ _ _ _ E) as (e1 & J & p1 & rhs & x & p' & I & dR & dZ & b & _ & _ & _ & He & _ & _ & HdR & _ & (q & Eq & e2 & N1 & N2 & R1 & R2 & Z1 & Z2 & B2 & T2 & C2 & Eb) & ->).
  unfold update_boundary in Eb.
  apply bind_ok in Eb. destruct Eb as ((os & xs) & Ef & Eu).
  set (e' := with_profiles _ _ _).
  assert (Eqt : total_psi e' = Ok q) by exact Eq.
  assert (Efc : eq_find_critical spline e' (e_nx e') (e_ny e') q = Ok (os, xs)).
  { rewrite <- Ef. unfold eq_find_critical, eq_spline, grid_R, grid_Z, R_1D, Z_1D. rewrite N1, N2, R1, R2, Z1, Z2. reflexivity. }
  exists q, os, xs. split; [exact Eqt|]. split; [exact Efc|]. intros o os' ->.
  assert (Hpos : (0 < e_nx e /\ 0 < e_ny e)%nat).
  { destruct (Nat.eq_dec (e_nx e) 0); [rewrite set_edges_empty in He by lia; discriminate|].
    destruct (Nat.eq_dec (e_ny e) 0); [rewrite set_edges_empty in He by lia; discriminate|]. lia. }
  assert (Em : magneticAxis spline e' = Ok o) by (unfold magneticAxis; rewrite Eqt; cbn [bind]; rewrite Efc; reflexivity).
  assert (Hc : (check_limited e2 && wall (tok e2))%bool = false) by (rewrite C2, T2; destruct Hnl as [-> | ->]; [reflexivity|apply andb_false_r]).
  unfold update_from in Eu. rewrite Hc in Eu. 
  assert (Eax : Rmagnetic spline e' = Ok (pR o)) by (unfold Rmagnetic; rewrite Em; reflexivity).
  assert (Eaz : Zmagnetic spline e' = Ok (pZ o)) by (unfold Zmagnetic; rewrite Em; reflexivity).
  destruct xs as [|xp xs'].
  - apply ok_inj in Eu. subst b. cbn [bs psi_axis is_limited psi_bndry mask e' with_profiles with_current with_bs with_plasma].
    repeat (split; [reflexivity || assumption|]). split; [discriminate|]. intros _. split; [reflexivity|].
    rewrite B2. reflexivity.
  - apply bind_ok in Eu. destruct Eu as (m & Ec & Eu). apply bind_ok in Eu. destruct Eu as (sp & _ & Eu).
    apply ok_inj in Eu. subst b. cbn [bs psi_axis is_limited psi_bndry mask e' with_profiles with_current with_bs with_plasma].
    repeat (split; [reflexivity || assumption|]). split; [|discriminate]. intros x0 xs0 Ex. injection Ex as <- <-. split; [reflexivity|].
    exists m, (fun i j => (q i j - pPsi o) / (pPsi xp - pPsi o)). split; [reflexivity|]. split.
    { unfold psiN. rewrite Eqt. reflexivity. }
    split; [reflexivity|]. intros i j Hi Hj.
    unfold eq_core_mask in Ec. rewrite N1, N2 in Ec.
    destruct (C40_core_mask_exact _ _ _ _ _ _ _ _ _ _ (proj1 Hpos) (proj2 Hpos) Ec) as (o' & os2 & pb' & s & Eo & Ebd & Hs & H).
    injection Eo as <- <-. cbn in Ebd. injection Ebd as <-. cbv zeta in H.
    destruct (H i j (conj Hi Hj)) as (H01 & Hn & Hf). split; [exact H01|]. intros Hm.
    assert (Hcell := in_blocks (e_nx e) (e_ny e) (grid_R e2) (grid_Z e2) (xp :: xs') (i, j) (proj1 Hpos) (proj2 Hpos) (conj Hi Hj)).
    destruct (in_dec cell_dec (i, j) (flat_map (block (e_nx e) (e_ny e)) (map (fun p => nearest (e_nx e) (e_ny e) (grid_R e2) (grid_Z e2) (pR p) (pZ p)) (xp :: xs')))) as [Hnear|Hnear].
    + left. apply (proj1 (Hn (proj1 Hcell Hnear))) in Hm. exact Hm.
    + apply (proj1 (Hf (fun h => Hnear (proj2 Hcell h)))) in Hm. inversion Hm as [Es|u v _ _ _ (Hl & _) Ev]; [right; subst s|left; exact Hl].
      revert Hs. unfold grid_R, grid_Z, R_1D, Z_1D. rewrite N1, N2, R1, R2, Z1, Z2. intros Hs. exact Hs.
Qed.
Print Assumptions C174_attributes.
(** The flux (r - 1)^2 + z^3 - 3 z on a 9 x 9 grid, found by a solver of the user's: O-point (1, 1) with flux
    -2 and X-point (1, -1) with flux 2. *)
Definition saddle_flux (i j : nat) : Q :=
  let r := Qred ((1 # 4) + (Z.of_nat i # 1) * (1 # 4)) in let z := Qred ((Z.of_nat j # 1) - 4) in
  Qred ((r - 1) * (r - 1) + z * z * z - 3 * z)%Q.
Definition saddle_eq : equilibrium Q unit unit :=
  mkeq 9 9 (1 # 4) (9 # 4) (-4 # 1) (4 # 1) (mktok [] false []) BFixed 2 (SUser (fun _ _ => Ok (saddle_flux, saddle_flux))) true
    (fun _ _ => 0%Q) (fun _ _ => []) 0%Q None no_boundary None None.
Example C174_example :
  match solve (fun _ _ _ _ _ => 0%Q) (fun x => x) 1%Q (fun _ _ b => b) spline3 (fun _ _ _ _ => Raise TypeError) saddle_eq tt (Some (fun _ _ => 1%Q)) None None with
  | Ok e' => (psi_axis (bs e'), psi_bndry (bs e'), is_limited (bs e'), magneticAxis spline3 e',
              match mask (bs e') with Some (Some m) => (m 3%nat 5%nat, m 3%nat 1%nat) | _ => (0%Q, 0%Q) end)
  | Raise _ => (None, None, false, Raise TypeError, (0%Q, 0%Q))
  end = (Some (-2)%Q, Some (Some 2%Q), false, Ok (1, 1, -2)%Q, (1%Q, 0%Q)).
Proof. vm_compute. reflexivity. Qed.

(** At the grid points the normalised flux at a point (psiNRZ) is the normalised flux on the grid (psiN), if
    the machine is the one the equilibrium was made with, up to currents and switches. *)
Theorem C174_normalised_flux : forall (P Ctl : Type) G spline (e : equilibrium R P Ctl) M0 h pn,
  interpolates spline -> (4 <= e_nx e)%nat -> (4 <= e_ny e)%nat -> Rmin e < Rmax e -> Zmin e < Zmax e ->
  labels_distinct M0 -> coils (tok e) = fold_left (machine_step G) h M0 ->
  (forall i j, pgreen e i j = createPsiGreens G M0 (R_1D e i) (Z_1D e j)) ->
  psiN e = Ok pn ->
  forall i j, (i < e_nx e)%nat -> (j < e_ny e)%nat -> psiNRZ G spline e (R_1D e i) (Z_1D e j) = Ok (pn i j).
Proof.
  intros P Ctl G spline e M0 h pn Hs Hnx Hny HR HZ HL Hc Hg E i j Hi Hj.
  unfold psiN in E. apply bind_ok in E. destruct E as (q & Eq & E). apply bind_ok in E. destruct E as ((pa & pb) & Ea & E).
  apply ok_inj in E. subst pn. unfold psiNRZ. rewrite Ea. cbn [bind]. f_equal. nR. f_equal. f_equal.
  unfold total_psi in Eq. apply bind_ok in Eq. destruct Eq as (v0 & _ & Eq). apply ok_inj in Eq. subst q.
  rewrite Hg, Hc, (C11_cached_flux G M0 h _ _ _ HL). unfold psiRZ, psi_func. rewrite Hc. nR. f_equal.
  apply Hs; try assumption; apply linspace_increasing; assumption.
Qed.
Print Assumptions C174_normalised_flux.

(** ** C175 *)
Lemma still_critical nx ny gR gZ psi f :
  (forall i j, (i < nx)%nat -> (j < ny)%nat -> f 1%nat 0%nat (gR i j) (gZ i j) = 0 /\ f 0%nat 1%nat (gR i j) (gZ i j) = 0) ->
  Critical.find_critical nx ny gR gZ psi f true = Ok ([], []).
Proof.
  intros Hf. unfold Critical.find_critical, candidates.
  assert (E : forall s i j, (2 <= i)%nat -> (i < nx - 2)%nat -> (2 <= j)%nat -> (j < ny - 2)%nat -> visit gR gZ psi f s i j = Ok s).
  { intros s i j Hi Hi' Hj Hj'. unfold visit, local_min, Bp2.
    destruct (Hf i j ltac:(lia) ltac:(lia)) as (A1 & A2). destruct (Hf (i + 1)%nat (j + 1)%nat ltac:(lia) ltac:(lia)) as (B1 & B2).
    rewrite A1, A2, B1, B2. nR. replace (R_ltb _ _) with false; [reflexivity|]. symmetry. apply R_ltb_false. unfold Rdiv. lra. }
  assert (Ej : forall i s l, (2 <= i)%nat -> (i < nx - 2)%nat -> (forall j, In j l -> (2 <= j < ny - 2)%nat) -> foldM (fun xo j => visit gR gZ psi f xo i j) l s = Ok s).
  { intros i s l Hi Hi'. revert s. induction l as [|j l IH]; intros s Hl; cbn [foldM]; [reflexivity|].
    rewrite E; try lia; [|apply Hl; left; reflexivity..]. cbn [bind]. apply IH. intros k Hk. apply Hl. right. exact Hk. }
  assert (Ei : forall s l, (forall i, In i l -> (2 <= i < nx - 2)%nat) -> foldM (fun xo i => foldM (fun xo j => visit gR gZ psi f xo i j) (range 2 (ny - 2)) xo) l s = Ok s).
  { intros s l. revert s. induction l as [|i l IH]; intros s Hl; cbn [foldM]; [reflexivity|].
    rewrite Ej; [|apply Hl; left; reflexivity..|intros j Hj; apply in_range in Hj; lia]. cbn [bind]. apply IH. intros k Hk. apply Hl. right. exact Hk. }
  rewrite Ei; [reflexivity|]. intros i Hi. apply in_range in Hi. lia.
Qed.

(** The flux a (r - 1)^2 + b z^2 on 1/2 <= R <= 3/2, -1/2 <= Z <= 1/2 with the fixed boundary. *)
Definition bowl_fixed (A : nat -> nat -> R) (st : bstate R) : equilibrium R unit unit :=
  mkeq 5 5 (1 / 2) (3 / 2) (- (1 / 2)) (1 / 2) (mktok [] false []) BFixed 2 (SMatrix (MGDirect 25 A)) false
    (fun i j => EquilibriumProofs2.bowl (-1) (-2) (1 / 2 + INR i / 4) (- (1 / 2) + INR j / 4)) (fun _ _ => []) 0 None st None None.
Definition bowl_state : bstate R := mkb (Some 0) (Some (Some (- (3 / 4)))) (Some None) None None false None.
(** C174_normalised_flux there: 1 in the corner, 0 on the axis. *)
Example C174_normalised_flux_example : forall A G spline, interpolates spline ->
  (exists pn, psiN (bowl_fixed A bowl_state) = Ok pn) /\
  psiNRZ G spline (bowl_fixed A bowl_state) (R_1D (bowl_fixed A bowl_state) 0%nat) (Z_1D (bowl_fixed A bowl_state) 0%nat) = Ok 1 /\
  psiNRZ G spline (bowl_fixed A bowl_state) (R_1D (bowl_fixed A bowl_state) 2%nat) (Z_1D (bowl_fixed A bowl_state) 2%nat) = Ok 0.
Proof.
  intros A G spline Hs. set (e := bowl_fixed A bowl_state).
  destruct (no_coils_psi e eq_refl) as (q & Eq & Hq).
  assert (E : psiN e = Ok (fun i j => (q i j - 0) / (- (3 / 4) - 0))) by (unfold psiN; rewrite Eq; reflexivity).
  assert (H := C174_normalised_flux unit unit G spline e [] [] _ Hs ltac:(cbn; lia) ltac:(cbn; lia) ltac:(cbn; lra) ltac:(cbn; lra) ltac:(split; constructor) eq_refl ltac:(reflexivity) E).
  split; [eexists; exact E|]. split; (rewrite H by (cbn; lia); f_equal; rewrite Hq; cbn [plasma_psi e bowl_fixed]; unfold EquilibriumProofs2.bowl; cbn [INR]; field).
Qed.

Lemma bowl_fixed_find spline A st psi : exact_for_quadratics spline ->
  (forall i j, psi i j = plasma_psi (bowl_fixed A st) i j) ->
  eq_find_critical spline (bowl_fixed A st) 5 5 psi = Ok ([(1, 0, 0)], []).
Proof.
  intros Hs Hpsi. rewrite <- (bowl_find spline 5 5 (-1) (-2) false [] st psi Hs) by (try lia; try lra; exact Hpsi).
  unfold eq_find_critical, eq_spline, grid_R, grid_Z, R_1D, Z_1D. cbn [e_nx e_ny Rmin Rmax Zmin Zmax bowl_fixed bowl_eq].
  replace (1 / 2 + INR (5 - 1) / 4) with (3 / 2) by (cbn [INR Nat.sub]; lra).
  replace (- (1 / 2) + INR (5 - 1) / 4) with (1 / 2) by (cbn [INR Nat.sub]; lra). reflexivity.
Qed.
Lemma bowl_fixed_own spline A st : exact_for_quadratics spline -> psi_xpt st = None -> psi_limit st = None -> lim st = None ->
  update_own spline (bowl_fixed A st) = Ok (bowl_fixed A bowl_state).
Proof.
  intros Hs S1 S2 S3. unfold update_own. destruct (no_coils_psi (bowl_fixed A st) eq_refl) as (psi & E & Hpsi). rewrite E. cbn [bind].
  unfold update_boundary. change (e_nx (bowl_fixed A st)) with 5%nat. change (e_ny (bowl_fixed A st)) with 5%nat.
  rewrite bowl_fixed_find by assumption. cbn [bind]. unfold update_from.
  change (check_limited (bowl_fixed A st)) with false. change (bs (bowl_fixed A st)) with st. change (bnd (bowl_fixed A st)) with (BFixed (T := R)).
  cbn [andb bind]. rewrite S1, S2, S3, Hpsi. unfold bowl_fixed at 2. cbn [plasma_psi]. unfold with_bs, bowl_fixed, bowl_state, pPsi. cbn [e_nx e_ny Rmin Rmax Zmin Zmax tok bnd order slv check_limited plasma_psi pgreen current jtor profiles control snd].
  do 4 f_equal. do 2 f_equal. unfold EquilibriumProofs2.bowl. cbn [INR]. lra.
Qed.

(** C175 is false: the attributes belong to the flux at first; after a solve without current the flux is
    zero everywhere on the grid and psi_bndry, the value of the old flux, is still -3/4. *)
Theorem C175_no_axis_refuted : exists (e : equilibrium R unit unit), second_order e /\ bnd e = BFixed /\
  forall spline, exact_for_quadratics spline -> update_own spline e = Ok e /\
    psi_bndry (bs e) = Some (Some (plasma_psi e 0%nat 0%nat)) /\
    exists e', solve (fun _ => green) sqrt 1 elimination spline (fun _ _ _ _ => Raise TypeError) e tt (Some (fun _ _ => 0)) None None = Ok e' /\
      (forall x y, (x < e_nx e')%nat -> (y < e_ny e')%nat -> plasma_psi e' x y = 0) /\
      psi_bndry (bs e') = Some (Some (- (3 / 4))).
Proof.
  destruct (GSsparse_rows (1 / 2) (3 / 2) (- (1 / 2)) (1 / 2) 5 5) as (A & EA & _).
  exists (bowl_fixed A bowl_state).
  assert (HS : second_order (bowl_fixed A bowl_state)).
  { unfold second_order. cbn. repeat (split; [lra|]). exists A. split; [exact EA|reflexivity]. }
  split; [exact HS|]. split; [reflexivity|]. intros spline Hs.
  assert (Eo := bowl_fixed_own spline A bowl_state Hs eq_refl eq_refl eq_refl).
  split; [exact Eo|]. split; [cbn [bs psi_bndry plasma_psi bowl_fixed bowl_state]; do 2 f_equal; unfold EquilibriumProofs2.bowl; cbn [INR]; lra|].
  assert (HE : exact_solver elimination) by (intros N M v Hn r Hr; exact (elimination_solves N M v Hn r Hr)).
  (* run the linear part *)
  set (e0 := bowl_fixed A bowl_state) in *. set (e1 := with_profiles e0 (Some tt) (control e0)).
  assert (Eo1 : update_own spline e1 = Ok e1).
  { unfold update_own in Eo |- *. apply bind_ok in Eo. destruct Eo as (psi & E & Eo). change (total_psi e1) with (total_psi e0). rewrite E. cbn [bind].
    change (update_boundary spline e1 (e_nx e1) (e_ny e1) psi) with (update_boundary spline e0 (e_nx e0) (e_ny e0) psi).
    apply bind_ok in Eo. destruct Eo as (b & Eb & Eo). rewrite Eb. cbn [bind]. f_equal. apply ok_inj in Eo.
    change b with (bs (with_bs e0 b)). rewrite Eo. reflexivity. }
  destruct (romb2_dyadic 5 5 (fun _ _ => 0) (ex_intro _ 2%nat eq_refl) (ex_intro _ 2%nat eq_refl)) as (s & Es).
  destruct (proj1 (C28_fixed_boundary 5 5 (plasma_psi e1)) ltac:(lia)) as (q & Eq & Hq).
  set (rhs0 := fun i j => nmul (nmul (nopp 1) (grid_R e1 i j)) 0).
  destruct (set_edges_spec 5 5 rhs0 q ltac:(lia) ltac:(lia)) as (rhs & Er & Hr).
  assert (Ec : exists x, callSolver elimination e1 q rhs = Ok (q, x)).
  { unfold callSolver, solver_call. change (slv e1) with (SMatrix (MGDirect 25 A)). change (e_nx e1) with 5%nat. change (e_ny e1) with 5%nat.
    cbn [mg_call]. change (25 =? 5 * 5)%nat with true. cbn [bind]. eexists. reflexivity. }
  destruct Ec as (x & Ec).
  assert (Hn : nonsingular (5 * 5) A).
  { assert (Hp : 0 <= 1 / 2 /\ 1 / 2 < 3 / 2 /\ - (1 / 2) < 1 / 2) by lra. destruct Hp as (P1 & P2 & P3).
    destruct (C27_grad_shafranov_solvable (1 / 2) (3 / 2) (- (1 / 2)) (1 / 2) 1 5 5 1 2 true P1 P2 P3 ltac:(lia) ltac:(lia)) as (sv & A' & Hc & Hs' & EA' & _).
    unfold createVcycle in Hc. cbn [createVcycle_] in Hc. rewrite EA in Hc. cbn [bind] in Hc. injection Hc as <-. exact Hs'. }
  assert (Hx : forall i j, (i < 5)%nat -> (j < 5)%nat -> x i j = 0).
  { destruct (direct_solves elimination 25 5 5 A rhs x q q Ec (fun b => HE 25%nat A b Hn)) as (_ & Hrow).
    assert (Hz : forall i j, (i < 5)%nat -> (j < 5)%nat -> rhs i j = 0).
    { intros i j Hi Hj. destruct (Hr i j Hi Hj) as (H1 & H2). destruct (interiorb_spec 5 5 i j) as [Hint|Hint]; unfold interior in Hint.
      - rewrite H2 by (unfold inside; lia). unfold rhs0. nR. ring.
      - rewrite H1 by (unfold on_edge; lia). apply Hq; [exact Hi|exact Hj|unfold on_edge; lia]. }
    destruct (GSsparse_apply (1 / 2) (3 / 2) (- (1 / 2)) (1 / 2) 5 5 x) as (A' & EA' & Hg). rewrite EA in EA'. apply ok_inj in EA'. subst A'.
    apply (uniqueness (1 / 2) (3 / 2) (- (1 / 2)) (1 / 2) 5 5 x (fun _ _ => 0)); try lra; try lia.
    - intros i j Hij. assert (Hi : (i < 5)%nat) by (unfold inside, on_edge in Hij; lia). assert (Hj : (j < 5)%nat) by (unfold inside in Hij; lia).
      rewrite elliptic_const. rewrite <- (Hz i j Hi Hj), <- (Hrow i j Hi Hj), (Hg i j Hi Hj).
      destruct (interiorb_spec 5 5 i j) as [Hint|Hint]; [reflexivity|]. unfold interior, inside in *. lia.
    - intros i j Hij. assert (Hi : (i < 5)%nat) by (unfold inside, on_edge in Hij; lia). assert (Hj : (j < 5)%nat) by (unfold on_edge in Hij; lia).
      rewrite <- (Hz i j Hi Hj), <- (Hrow i j Hi Hj), (Hg i j Hi Hj).
      destruct (interiorb_spec 5 5 i j) as [Hint|Hint]; [|reflexivity]. unfold interior, on_edge in *. lia. }
  (* no critical point is found *)
  assert (Ir : increasing_on 5 (R_1D e1)) by (apply linspace_increasing; cbn; lra).
  assert (Iz : increasing_on 5 (Z_1D e1)) by (apply linspace_increasing; cbn; lra).
  assert (Eu : update_plasma spline e1 5 5 x = Ok (with_bs (with_plasma e1 x) (bs e1))).
  { unfold update_plasma, eq_spline. change (e_nx e1) with 5%nat. change (e_ny e1) with 5%nat. rewrite RBS_ok by (try assumption; lia). cbn [bind].
    unfold update_own. destruct (no_coils_psi (with_plasma e1 x) eq_refl) as (psi & E & Hpsi). rewrite E. cbn [bind].
    unfold update_boundary, eq_find_critical, eq_spline. change (e_nx (with_plasma e1 x)) with 5%nat. change (e_ny (with_plasma e1 x)) with 5%nat.
    change (R_1D (with_plasma e1 x)) with (R_1D e1). change (Z_1D (with_plasma e1 x)) with (Z_1D e1).
    rewrite RBS_ok by (try assumption; lia). cbn [bind].
    rewrite still_critical; [reflexivity|]. intros i j Hi Hj. change (grid_R (with_plasma e1 x) i j) with (R_1D e1 i). change (grid_Z (with_plasma e1 x) i j) with (Z_1D e1 j).
    assert (Bx : forall k, (k < 5)%nat -> R_1D e1 0%nat <= R_1D e1 k <= R_1D e1 (5 - 1)%nat).
    { intros k Hk. unfold R_1D. rewrite !linspace_gridpt. unfold gridpt. cbn [Rmin Rmax e_nx e1 e0 with_profiles bowl_fixed].
      assert (INR k <= INR 4) by (apply le_INR; lia). assert (H0 := pos_INR k). cbn [INR Nat.sub] in *. lra. }
    assert (By : forall k, (k < 5)%nat -> Z_1D e1 0%nat <= Z_1D e1 k <= Z_1D e1 (5 - 1)%nat).
    { intros k Hk. unfold Z_1D. rewrite !linspace_gridpt. unfold gridpt. cbn [Zmin Zmax e_ny e1 e0 with_profiles bowl_fixed].
      assert (INR k <= INR 4) by (apply le_INR; lia). assert (H0 := pos_INR k). cbn [INR Nat.sub] in *. lra. }
    assert (Hf : forall dx dy, (dx + dy <= 2)%nat -> spline 5%nat 5%nat (R_1D e1) (Z_1D e1) psi dx dy (R_1D e1 i) (Z_1D e1 j) = quadratic (fun _ => 0) dx dy (R_1D e1 i) (Z_1D e1 j)).
    { intros dx dy Hd. apply Hs; try lia; try assumption; [|apply Bx; exact Hi|apply By; exact Hj].
      intros i' j' Hi' Hj'. rewrite Hpsi. cbn [plasma_psi with_plasma]. rewrite Hx by assumption. unfold quadratic. ring. }
    rewrite !Hf by lia. unfold quadratic. split; ring. }
  eexists. split.
  - unfold solve. fold e1. rewrite Eo1. cbn [bind]. unfold linear_solve, applyBoundary. change (bnd e1) with (BFixed (T := R)).
    change (e_nx e1) with 5%nat. change (e_ny e1) with 5%nat. rewrite Eq. cbn [bind].
    match goal with |- context [set_edges 5 5 ?f q] => change (set_edges 5 5 f q) with (set_edges 5 5 rhs0 q) end. rewrite Er. cbn [bind]. rewrite Ec. cbn [bind]. rewrite Eu. cbn [bind].
    match goal with |- bind (romb2 ?a ?b ?c) _ = _ => change (romb2 a b c) with (romb2 5 5 (fun _ _ : nat => 0)) end. rewrite Es. cbn [bind].
    reflexivity.
  - split; [|reflexivity]. intros i j Hi Hj. apply Hx; assumption.
Qed.
Print Assumptions C175_no_axis_refuted.
(** What happens in general: if the new flux has no O-point, the attributes stay as solve found them before it
    solved. *)
Theorem C175_no_axis_keeps : forall (P Ctl : Type) G mu0 lu spline
    (Jtor_call : P -> equilibrium R P Ctl -> (nat -> nat -> R) -> option R -> result ((nat -> nat -> R) * P * bstate R))
    (e e' : equilibrium R P Ctl) p J psi pb q xs,
  solve G sqrt mu0 lu spline Jtor_call e p (Some J) psi pb = Ok e' ->
  total_psi e' = Ok q -> critical_points spline e' q [] xs ->
  exists e1, update_own spline e = Ok e1 /\ bs e' = bs e1.
Proof.
  intros P Ctl G mu0 lu spline Jc e e' p J psi pb q xs E Eq Ef.
  unfold solve in E. apply bind_ok in E. destruct E as (e1 & E1 & E). cbn [bind] in E.
  apply bind_ok in E. destruct E as (e2 & E2 & E). apply bind_ok in E. destruct E as (Ip & _ & E).
  apply bind_ok in E. destruct E as (dR & _ & E). apply bind_ok in E. destruct E as (dZ & _ & E). apply ok_inj in E. subst e'.
  apply update_own_inv in E1. destruct E1 as (q1 & b1 & Eq1 & Eb1 & ->).
  exists (with_bs e b1). split.
  { unfold update_own. change (total_psi (with_profiles e (Some p) (control e))) with (total_psi e) in Eq1. rewrite Eq1. cbn [bind].
    change (update_boundary spline (with_profiles e (Some p) (control e)) (e_nx (with_profiles e (Some p) (control e))) (e_ny (with_profiles e (Some p) (control e))) q1)
      with (update_boundary spline e (e_nx e) (e_ny e) q1) in Eb1. rewrite Eb1. reflexivity. }
  unfold linear_solve in E2. apply bind_ok in E2. destruct E2 as (p1 & _ & E2). apply bind_ok in E2. destruct E2 as (rhs & _ & E2).
  apply bind_ok in E2. destruct E2 as ((qq & x) & _ & E2). apply update_plasma_inv in E2. destruct E2 as (_ & _ & psi2 & b2 & Ep2 & Eb2 & ->).
  cbn [bs with_current with_bs]. unfold update_boundary in Eb2. apply bind_ok in Eb2. destruct Eb2 as ((os & xs2) & Ef2 & Eu).
  set (e3 := with_plasma (with_bs (with_profiles e (Some p) (control e)) b1) x) in *.
  change (total_psi e3 = Ok q) in Eq. rewrite Ep2 in Eq. apply ok_inj in Eq. subst psi2.
  change (eq_find_critical spline e3 (e_nx e) (e_ny e) q = Ok ([], xs)) in Ef.
  change (eq_find_critical spline e3 (e_nx e) (e_ny e) q = Ok (os, xs2)) in Ef2. rewrite Ef in Ef2. injection Ef2 as <- <-.
  cbn [update_from] in Eu. apply ok_inj in Eu. subst b2. reflexivity.
Qed.
Print Assumptions C175_no_axis_keeps.
Example C175_example : forall A, exists q, total_psi (with_plasma (bowl_fixed A bowl_state) (fun _ _ => 0)) = Ok q /\
  critical_points flat_spline (with_plasma (bowl_fixed A bowl_state) (fun _ _ => 0)) q [] [].
Proof.
  intros A. destruct (no_coils_psi (with_plasma (bowl_fixed A bowl_state) (fun _ _ => 0)) eq_refl) as (q & E & _). exists q. split; [exact E|].
  unfold critical_points, eq_find_critical, eq_spline. rewrite RBS_ok; [|cbn; lia..|apply linspace_increasing; cbn; lra|apply linspace_increasing; cbn; lra].
  cbn [bind]. unfold flat_spline. apply flat_critical.
Qed.

(** ** C176 *)
(** setSolverVcycle with one level and the direct solver: the second order matrix, whatever the order of the
    equilibrium, whose attribute is not changed. *)
Theorem C176_second_order : forall (P Ctl : Type) (e e1 : equilibrium R P Ctl) ncycle niter,
  setSolverVcycle e 1 ncycle niter true = Ok e1 -> 0 <= Rmin e -> Rmin e < Rmax e -> Zmin e < Zmax e ->
  second_order e1 /\ order e1 = order e /\ plasma_psi e1 = plasma_psi e /\ bs e1 = bs e.
Proof.
  intros P Ctl e e1 ncycle niter E H0 HR HZ. unfold setSolverVcycle in E. apply bind_ok in E. destruct E as (s & Es & E). apply ok_inj in E. subst e1.
  unfold createVcycle in Es. cbn [createVcycle_] in Es. apply bind_ok in Es. destruct Es as (A & EA & Es). apply ok_inj in Es. subst s.
  split; [|repeat split; reflexivity]. unfold second_order. cbn [Rmin Rmax Zmin Zmax e_nx e_ny slv with_solver]. repeat (split; [assumption|]).
  exists A. split; [exact EA|reflexivity].
Qed.
Print Assumptions C176_second_order.
Example C176_example : forall A, exists e1, setSolverVcycle (bowl_fixed A bowl_state) 1 1 1 true = Ok e1 /\
  0 <= Rmin (bowl_fixed A bowl_state) /\ Rmin (bowl_fixed A bowl_state) < Rmax (bowl_fixed A bowl_state) /\ Zmin (bowl_fixed A bowl_state) < Zmax (bowl_fixed A bowl_state).
Proof.
  intros A. destruct (GSsparse_rows (1 / 2) (3 / 2) (- (1 / 2)) (1 / 2) 5 5) as (B & EB & _).
  eexists. split; [unfold setSolverVcycle, createVcycle; cbn [createVcycle_ e_nx e_ny Rmin Rmax Zmin Zmax bowl_fixed]; rewrite EB; reflexivity|].
  cbn [Rmin Rmax Zmin Zmax bowl_fixed]. lra.
Qed.

(** A solve with the fixed boundary, a direct solver and no coils succeeds (with the flat spline no O-point
    is found). *)
Lemma flat_run (e : equilibrium R unit unit) A J : dyadic (e_nx e) -> dyadic (e_ny e) -> (4 <= e_nx e)%nat -> (4 <= e_ny e)%nat ->
  Rmin e < Rmax e -> Zmin e < Zmax e -> coils (tok e) = [] -> bnd e = BFixed -> slv e = SMatrix (MGDirect (e_nx e * e_ny e) A) ->
  exists e', solve (fun _ _ _ _ _ => 0) sqrt 1 elimination flat_spline (fun _ _ _ _ => Raise TypeError) e tt (Some J) None None = Ok e' /\ jtor e' = Some J.
Proof.
  intros Dx Dy Hx Hy HR HZ Hc Hb Hs. destruct (romb2_dyadic (e_nx e) (e_ny e) J Dx Dy) as (s & Es).
  destruct (proj1 (C28_fixed_boundary (e_nx e) (e_ny e) (plasma_psi e)) ltac:(lia)) as (q & Eq & _).
  set (e1 := with_profiles e (Some tt) (control e)).
  assert (E1 : update_own flat_spline e1 = Ok (with_bs e1 (bs e1))).
  { unfold update_own. destruct (no_coils_psi e1 Hc) as (psi & E & _). rewrite E. cbn [bind]. rewrite (flat_update e1 psi) by assumption. reflexivity. }
  set (e2 := with_bs e1 (bs e1)) in *.
  destruct (set_edges_spec (e_nx e) (e_ny e) (fun i j => nmul (nmul (nopp 1) (grid_R e2 i j)) (J i j)) q ltac:(lia) ltac:(lia)) as (rhs & Er & _).
  assert (SR : exists d, spacing_R (e_nx e) (e_ny e) (grid_R e) = Ok d).
  { unfold spacing_R. destruct (Nat.ltb_spec (e_nx e) 2); [lia|]. destruct (Nat.ltb_spec (e_ny e) 1); [lia|]. eexists. reflexivity. }
  assert (SZ : exists d, spacing_Z (e_nx e) (e_ny e) (grid_Z e) = Ok d).
  { unfold spacing_Z. destruct (Nat.ltb_spec (e_nx e) 1); [lia|]. destruct (Nat.ltb_spec (e_ny e) 2); [lia|]. eexists. reflexivity. }
  destruct SR as (dR & SR), SZ as (dZ & SZ).
  eexists. unfold solve. fold e1. rewrite E1. cbn [bind]. unfold linear_solve, applyBoundary. change (bnd e2) with (bnd e). rewrite Hb.
  change (e_nx e2) with (e_nx e). change (e_ny e2) with (e_ny e). change (plasma_psi e2) with (plasma_psi e). rewrite Eq. cbn [bind]. rewrite Er. cbn [bind].
  unfold callSolver. change (slv e2) with (slv e). rewrite Hs. unfold solver_call. cbn [mg_call]. rewrite Nat.eqb_refl. cbn [bind].
  assert (U := fun p => flat_update_plasma e2 p Hx Hy HR HZ Hc). change (e_nx e2) with (e_nx e) in U. change (e_ny e2) with (e_ny e) in U. rewrite U. cbn [bind].
  match goal with |- bind (romb2 ?a ?b ?c) _ = _ /\ _ => change (romb2 a b c) with (romb2 (e_nx e) (e_ny e) J) end. rewrite Es. cbn [bind].
  match goal with |- bind (spacing_R ?a ?b ?c) _ = _ /\ _ => change (spacing_R a b c) with (spacing_R (e_nx e) (e_ny e) (grid_R e)) end. rewrite SR. cbn [bind].
  match goal with |- bind (spacing_Z ?a ?b ?c) _ = _ /\ _ => change (spacing_Z a b c) with (spacing_Z (e_nx e) (e_ny e) (grid_Z e)) end. rewrite SZ.
  cbn [bind]. split; reflexivity.
Qed.

(** C176 is false for the order of the equilibrium: an equilibrium made with order 4, given a solver by
    setSolverVcycle, still says order 4, but the flux solve finds does not satisfy the fourth order equation. *)
Definition spike (i j : nat) : R := if ((i =? 4) && (j =? 4))%nat then 1 else 0.
Definition spike_J (i j : nat) : R := - GSElliptic 1 spike 9 9 (1 / 8) (1 / 4) i j / gridpt 1 2 9 i.
Theorem C176_order_refuted : exists (e e1 e2 : equilibrium R unit unit) J A4 x y,
  new_equilibrium (fun _ _ _ _ _ => 0) exp flat_spline (mktok [] false []) 1 2 (-1) 1 9 9 BFixed None 0 4 false = Ok e /\
  setSolverVcycle e 1 1 1 true = Ok e1 /\ order e1 = 4%nat /\
  solve (fun _ _ _ _ _ => 0) sqrt 1 elimination flat_spline (fun _ _ _ _ => Raise TypeError) e1 tt (Some J) None None = Ok e2 /\ exact_solver elimination /\
  GSsparse4thOrder 1 2 (-1) 1 9 9 = Ok A4 /\ inside 9 9 x y /\
  mat_apply A4 (plasma_psi e2) 9 9 (x * 9 + y) <> - 1 * gridpt 1 2 9 x * J x y.
Proof.
  assert (HE : exact_solver elimination) by (intros N M v Hn r Hr; exact (elimination_solves N M v Hn r Hr)).
  destruct (GS4_apply 1 2 (-1) 1 9 9 ltac:(lia) ltac:(lia) spike) as (A4 & EA4 & HA4 & _).
  destruct (GSsparse_rows 1 2 (-1) 1 9 9) as (A & EA & _).
  set (e := mkeq (P := unit) (Ctl := unit) 9 9 1 2 (-1) 1 (mktok [] false []) BFixed 4 (SMatrix (MGDirect 81 A4)) false
              (starting_guess exp 9 9) (fun i j => []) 0 None no_boundary None None).
  assert (Ee : new_equilibrium (fun _ _ _ _ _ => 0) exp flat_spline (mktok [] false []) 1 2 (-1) 1 9 9 BFixed None 0 4 false = Ok e).
  { unfold new_equilibrium. cbn [Nat.ltb Nat.leb orb]. cbv zeta.
    match goal with |- bind (update_plasma _ ?a _ _ ?b) _ = _ => assert (U := flat_update_plasma a b) end.
    specialize (U ltac:(cbn; lia) ltac:(cbn; lia) ltac:(cbn; lra) ltac:(cbn; lra) eq_refl).
    match type of U with ?l = _ => match goal with |- bind ?u _ = _ => change u with l end end. rewrite U. cbn [bind]. unfold generator_of. cbn [Nat.eqb bind].
    unfold createVcycle. cbn [createVcycle_]. rewrite EA4. reflexivity. }
  set (e1 := with_solver e (SMatrix (MGDirect 81 A))).
  assert (E1 : setSolverVcycle e 1 1 1 true = Ok e1).
  { unfold setSolverVcycle, createVcycle. cbn [createVcycle_ e_nx e_ny Rmin Rmax Zmin Zmax e]. rewrite EA. reflexivity. }
  assert (D9 : dyadic 9) by (exists 3%nat; reflexivity).
  destruct (flat_run e1 A spike_J D9 D9 ltac:(cbn; lia) ltac:(cbn; lia) ltac:(cbn; lra) ltac:(cbn; lra) eq_refl eq_refl eq_refl) as (e2 & E2 & EJ).
  exists e, e1, e2, spike_J, A4, 4%nat, 6%nat. split; [exact Ee|]. split; [exact E1|]. split; [reflexivity|]. split; [exact E2|]. split; [exact HE|].
  split; [exact EA4|]. split; [unfold inside; lia|].
  assert (HS : second_order e1) by (unfold second_order; cbn; repeat (split; [lra|]); exists A; split; [exact EA|reflexivity]).
  assert (d1 : (2 - 1) / INR (9 - 1) = 1 / 8) by (cbn [INR Nat.sub]; lra).
  assert (d2 : (1 - -1) / INR (9 - 1) = 1 / 4) by (cbn [INR Nat.sub]; lra).
  assert (Hu : forall x y, (x < 9)%nat -> (y < 9)%nat -> plasma_psi e2 x y = spike x y).
  { destruct (solved _ _ _ _ _ e1 e2 _ _ _ _ spike_J HE HS E2 EJ) as (p1 & Eb & _ & _ & Hed & Hin).
    cbn [e_nx e_ny Rmin Rmax Zmin Zmax e1 e with_solver] in Hed, Hin.
    unfold applyBoundary in Eb. cbn [bnd e1 e with_solver e_nx e_ny] in Eb.
    destruct (proj1 (C28_fixed_boundary 9 9 (plasma_psi e1)) ltac:(lia)) as (p1' & Eb' & Hp). rewrite Eb in Eb'. apply ok_inj in Eb'. subst p1'.
    apply (uniqueness 1 2 (-1) 1 9 9 (plasma_psi e2) spike); try lra; try lia.
    - intros x y Hxy. rewrite Hin by exact Hxy. unfold spike_J. rewrite d1, d2.
      assert (1 <= gridpt 1 2 9 x) by (apply gridpt_ge; [lra|lia]). field. lra.
    - intros x y Hxy. rewrite Hed by exact Hxy. unfold on_edge in Hxy. rewrite (proj1 (Hp x y ltac:(lia) ltac:(lia))) by (unfold on_edge; lia).
      unfold spike. destruct (Nat.eqb_spec x 4), (Nat.eqb_spec y 4); cbn [andb]; try reflexivity. lia. }
  assert (Em : mat_apply A4 (plasma_psi e2) 9 9 (4 * 9 + 6) = mat_apply A4 spike 9 9 (4 * 9 + 6)).
  { unfold mat_apply. apply nsum_ext. intros c Hc. f_equal. apply Hu; [apply Nat.div_lt_upper_bound; lia|apply Nat.mod_upper_bound; lia]. }
  rewrite Em, (HA4 4%nat 6%nat) by (unfold interior; lia).
  assert (EJ0 : spike_J 4 6 = 0).
  { unfold spike_J. rewrite GSElliptic_closed. change (interiorb 9 9 4 6) with true. cbn [Nat.eqb andb spike Nat.add Nat.sub]. unfold Rdiv. ring. }
  rewrite EJ0, d1, d2. unfold zst, r2st, r1st. cbn [Nat.eqb Nat.sub]. unfold centred_2nd, centred_1st. cbn [map fst snd].
  rewrite !lsum_cons, !lsum_nil. unfold spike.
  cbn [Z.of_nat Z.add Z.to_nat Pos.to_nat Nat.eqb andb Z.pos_sub Pos.of_succ_nat Pos.succ Pos.add Pos.pred_double]. nR.
  repeat match goal with |- context [if ?b then 1 else 0] => let v := eval vm_compute in b in change b with v; cbn iota end.
  replace (INR 4) with 4 by (cbn [INR]; lra). intros H. field_simplify in H. lra.
Qed.
Print Assumptions C176_order_refuted.
