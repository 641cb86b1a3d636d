(** Properties C70 - C73 and C111 - C114: G-EQDSK files. *)
From Coq Require Import ZArith Reals List Bool Arith Lia Lra Permutation QArith Qreduction.
From Verif Require Import Py Num Numpy Coils Machine Sensors Romb Critical CriticalProofs CriticalProofs3 Boundary Jtor Equilibrium EquilibriumSpec EquilibriumProofs EquilibriumProofs2 EquilibriumProofs3 Safety Geqdsk GeqdskSpec GeqdskProofs GeqdskExamples.
Import ListNotations.


Local Open Scope R_scope.

(** C70 — geometry, flux, vacuum field and boundary.  Without the restriction on the grid size:
    [C70_any_size]. *)
Theorem C70_geometry_and_flux : forall (P Ctl : Type) G sqrt exp mu0 spline pi sin cos arctan2 quad_interp uspline (methods_of : P -> methods)
  (m m' : gmachine R) (e : equilibrium R P Ctl) ox d fit_sol (r : rstate R P Ctl),
  write G sqrt spline pi sin cos arctan2 quad_interp methods_of m e ox = Ok d ->
  read_setup G exp mu0 spline uspline d m' None fit_sol = Ok r ->
  power_of_two (Z.of_nat (e_nx e) - 1) -> power_of_two (Z.of_nat (e_ny e) - 1) ->
  exists psi o os xs pb p iso f,
    total_psi e = Ok psi /\
    match ox with Some l => l = (o :: os, xs) | None => eq_find_critical spline e (e_nx e) (e_ny e) psi = Ok (o :: os, xs) end /\
    psi_bndry (bs e) = Some (Some pb) /\ profiles e = Some p /\
    (e_nx (r_eq r) = e_nx e /\ e_ny (r_eq r) = e_ny e) /\
    (Rmin (r_eq r) = Rmin e /\ Rmax (r_eq r) = Rmax e /\ Zmin (r_eq r) = Zmin e /\ Zmax (r_eq r) = Zmax e) /\
    (gm_R0 (r_machine r) = gm_R0 m /\ ffvac (r_profiles r) = m_fvac (methods_of p)) /\
    (forall i j, plasma_psi (r_eq r) i j = psi i j - snd o) /\
    (forall i j, clipped 0 (11 / 10) ((psi i j - snd o) / (pb - snd o)) (r_psi_norm r i j)) /\
    eq_spline spline e (e_nx e) (e_ny e) (fun i j => (psi i j - snd o) / (pb - snd o)) = Ok f /\
    find_separatrix pi sin cos arctan2 (Rmin e) (Rmax e) (Zmin e) (Zmax e) (f 0%nat 0%nat) (o :: os) xs 101 1 = Ok iso /\
    closed_curve (g_bdry d) /\ Permutation (removelast (g_bdry d)) iso.
Proof.
  intros P Ctl G sqrt exp mu0 spline pi sin cos arctan2 qi us mo m m' e ox d fs r Ew Er Hx Hy.
  apply write_inv in Ew. destruct Ew as (psi & opoint & xs & p & ro & zo & s & os & pb & q & qpsi & f & iso & Et & Eox & Ep & HR0 & -> & Eb & Ef & Es & _ & _ & ->).
  apply read_inv in Er. cbn [g_nx g_ny g_psi g_rleft g_rdim g_zmid g_zdim g_simagx g_sibdry] in Er.
  destruct Er as (nx & ny & psi' & prof & q' & e' & mk & _ & Er1 & Er2 & Er3 & _ & _ & Em & Epr & Ee & _ & _ & Epn & _).
  rewrite resize_same in Er1 by assumption. injection Er1 as <- <- <-.
  apply new_inv in Er3. destruct Er3 as (_ & _ & H1 & H2 & H3 & H4 & H5 & H6 & _ & _ & _ & _ & _ & _ & _ & _ & H7 & _).
  apply read_profiles_inv in Er2. destruct Er2 as (_ & _ & _ & _ & -> & _).
  exists psi, (ro, zo, s), os, xs, pb, p, iso, f.
  split; [exact Et|]. split; [exact Eox|]. split; [exact Eb|]. split; [exact Ep|].
  rewrite Ee. split; [split; [exact H1|exact H2]|].
  split. { rewrite H3, H4, H5, H6, lit_half. nR. repeat split; lra. }
  split. { rewrite Em, Epr. split; [reflexivity|]. cbn [ffvac g_rcentr g_bcentr]. nR. apply R_eqb_false in HR0. field. exact HR0. }
  split. { intros i j. rewrite H7. reflexivity. }
  split. { intros i j. rewrite Epn. cbn [snd].
           replace (@nlit R Num_R 11 10) with (11 / 10) by (unfold nlit; nR; reflexivity).
           change (clipped 0 (11 / 10) ((psi i j - s) / (pb - s)) (nclip ((psi i j - s - 0) / (pb - s - 0)) 0 (11 / 10))).
           rewrite !Rminus_0_r. apply clip_clipped. lra. }
  split; [exact Ef|]. split; [exact Es|]. cbn [g_bdry].
  assert (Hne : iso <> []).
  { intros ->. apply separatrix_length in Es. destruct Es as (_ & Es). discriminate. }
  destruct (boundary_points_spec iso Hne) as (a & l & Ea & Hp & _). rewrite Ea. split; [exists a, l; reflexivity|].
  change (a :: l ++ [a]) with ((a :: l) ++ [a]). rewrite removelast_last. exact Hp.
Qed.
Print Assumptions C70_geometry_and_flux.
(** ... for any grid size with at least two points each way: the grid is resized to the next sizes
    2^n + 1 and the flux is interpolated. *)
Theorem C70_any_size : forall (P Ctl : Type) G sqrt exp mu0 spline pi sin cos arctan2 quad_interp uspline (methods_of : P -> methods)
  (m m' : gmachine R) (e : equilibrium R P Ctl) ox d fit_sol (r : rstate R P Ctl),
  write G sqrt spline pi sin cos arctan2 quad_interp methods_of m e ox = Ok d ->
  read_setup G exp mu0 spline uspline d m' None fit_sol = Ok r -> (2 <= e_ny e)%nat ->
  exists psi, total_psi e = Ok psi /\
    least_power_above (Z.of_nat (e_nx e) - 1) (Z.of_nat (e_nx (r_eq r)) - 1) /\
    least_power_above (Z.of_nat (e_ny e) - 1) (Z.of_nat (e_ny (r_eq r)) - 1) /\
    (Rmin (r_eq r) = Rmin e /\ Rmax (r_eq r) = Rmax e /\ Zmin (r_eq r) = Zmin e /\ Zmax (r_eq r) = Zmax e) /\
    exists s, forall F, bilinear_through (e_nx e) (e_ny e) (node 0 1 (e_nx e)) (node 0 1 (e_ny e)) (fun i j => psi i j - s) F ->
    forall i j, (i < e_nx (r_eq r))%nat -> (j < e_ny (r_eq r))%nat ->
      plasma_psi (r_eq r) i j = F (node 0 1 (e_nx (r_eq r)) i) (node 0 1 (e_ny (r_eq r)) j).
Proof.
  intros P Ctl G sqrt exp mu0 spline pi sin cos arctan2 qi us mo m m' e ox d fs r Ew Er Hy.
  apply write_inv in Ew. destruct Ew as (psi & opoint & xs & p & ro & zo & s & os & pb & q & qpsi & f & iso & Et & Eox & Ep & HR0 & -> & Eb & Ef & Es & _ & _ & ->).
  apply read_inv in Er. cbn [g_nx g_ny g_psi g_rleft g_rdim g_zmid g_zdim g_simagx g_sibdry] in Er.
  destruct Er as (nx & ny & psi' & prof & q' & e' & mk & _ & Er1 & Er2 & Er3 & _ & _ & Em & Epr & Ee & _ & _ & Epn & _).
  apply read_profiles_inv in Er2. destruct Er2 as (Hx & _). cbn [g_nx] in Hx.
  apply resize_inv in Er1; [|lia|exact Hy]. destruct Er1 as (L1 & L2 & Hx' & Hy' & Hpsi).
  apply new_inv in Er3. destruct Er3 as (_ & _ & H1 & H2 & H3 & H4 & H5 & H6 & _ & _ & _ & _ & _ & _ & _ & _ & H7 & _).
  exists psi. split; [exact Et|]. rewrite Ee, H1, H2. split; [exact L1|]. split; [exact L2|].
  split. { rewrite H3, H4, H5, H6, lit_half. nR. repeat split; lra. }
  exists s. intros F HF i j Hi Hj. rewrite H7, Hpsi by assumption. rewrite !linspace_node.
  assert (I1 : increasing_on (e_nx e) (linspace 0 1 (e_nx e))) by (apply linspace_increasing; lra).
  assert (I2 : increasing_on (e_ny e) (linspace 0 1 (e_ny e))) by (apply linspace_increasing; lra).
  apply (bilinear_unique (e_nx e) (e_ny e) (linspace 0 1 (e_nx e)) (linspace 0 1 (e_ny e)) (fun i j => psi i j - s)).
  - lia.
  - exact Hy.
  - exact I1.
  - exact I2.
  - apply bilinear_is; [lia|exact Hy|exact I1|exact I2].
  - destruct HF as [A B C]. split; intros; rewrite ?linspace_node; [apply A|apply B|apply C]; assumption.
  - rewrite !linspace_node, node_first, node_last by lia. apply node_unit; assumption.
  - rewrite !linspace_node, node_first, node_last by lia. apply node_unit; assumption.
Qed.
Print Assumptions C70_any_size.
(** A 9 x 17 grid, written and read (with rational arithmetic): the axis has normalised flux 0, the
    X-point 1, and the boundary has 101 points and is closed. *)
Example C70_example : exists d r, qwrite no_wall (tall_eq no_wall) = Ok d /\ qread d no_wall None = Ok r /\
  (Rmin (r_eq r) == 1 /\ Zmax (r_eq r) == 8)%Q /\ (r_psi_norm r 4%nat 9%nat == 0 /\ r_psi_norm r 4%nat 7%nat == 1)%Q /\
  length (g_bdry d) = 102%nat /\ (fst (nth 0 (g_bdry d) (0, 0)) == fst (last (g_bdry d) (0, 0)))%Q.
Proof.
  destruct tall_file as (d & r & E1 & E2 & E). rewrite !andb_true_iff in E. rewrite !Qeq_bool_iff, Nat.eqb_eq in E. exists d, r.
  destruct E as [[[[[[[[T1 T2] T3] T4] T5] T6] _] _] _]. split; [exact E1|]. split; [exact E2|]. split; [split; assumption|]. split; [split; assumption|]. split; assumption.
Qed.

(** C71 — profiles.  The values of the file belong to the points k / nx, but are read as values at
    k / (nx - 1): every profile is stretched. *)
Theorem C71_profiles_stretched : forall (P Ctl : Type) G sqrt exp mu0 spline pi sin cos arctan2 quad_interp uspline (methods_of : P -> methods)
  (m m' : gmachine R) (e : equilibrium R P Ctl) ox d domain fit_sol (r : rstate R P Ctl),
  through_points uspline ->
  write G sqrt spline pi sin cos arctan2 quad_interp methods_of m e ox = Ok d ->
  read_setup G exp mu0 spline uspline d m' domain fit_sol = Ok r ->
  exists p pf ff, profiles e = Some p /\ p_func (r_profiles r) = Some pf /\ f_func (r_profiles r) = Some ff /\
    forall k, (k < e_nx e)%nat ->
      pf (INR k / INR (e_nx e - 1)) = m_pressure (methods_of p) (INR k / INR (e_nx e)) /\
      ff (INR k / INR (e_nx e - 1)) = m_fpol (methods_of p) (INR k / INR (e_nx e)).
Proof.
  intros P Ctl G sqrt exp mu0 spline pi sin cos arctan2 qi us mo m m' e ox d dom fs r Hus Ew Er.
  apply write_inv in Ew. destruct Ew as (psi & opoint & xs & p & ro & zo & s & os & pb & q & qpsi & f & iso & Et & Eox & Ep & HR0 & -> & Eb & Ef & Es & _ & _ & ->).
  apply read_inv in Er. destruct Er as (nx & ny & psi' & prof & q' & e' & mk & _ & _ & Er2 & _ & _ & _ & _ & Epr & _).
  apply read_profiles_inv in Er2. cbn [g_nx g_pres g_fpol g_rcentr g_bcentr] in Er2. destruct Er2 as (Hn & Lp & Lf & _ & E & _).
  exists p. eexists. eexists. split; [exact Ep|]. rewrite Epr, E. cbn [p_func f_func]. split; [reflexivity|]. split; [reflexivity|].
  intros k Hk. rewrite <- (closed_nth (e_nx e) k) by lia.
  assert (Lx : length (linspace_list (T := R) 0 1 (e_nx e)) = e_nx e) by (unfold linspace_list; rewrite map_length, seq_length; reflexivity).
  split.
  - rewrite (Hus (linspace_list (T := R) 0 1 (e_nx e))); [apply open_map_nth; exact Hk|rewrite Lx; symmetry; exact Lp|rewrite Lx; exact Hk].
  - rewrite (Hus (linspace_list (T := R) 0 1 (e_nx e))); [apply open_map_nth; exact Hk|rewrite Lx; symmetry; exact Lf|rewrite Lx; exact Hk].
Qed.
Print Assumptions C71_profiles_stretched.
(** The pressure 1 - x, which vanishes at the plasma boundary, comes back as a pressure which is
    1/9 there. *)
Theorem C71_profiles_refuted : exists m e d r pf,
  qwrite m e = Ok d /\ qread d m None = Ok r /\ p_func (r_profiles r) = Some pf /\ (m_pressure (meth tt) 1 == 0 /\ pf 1%Q == 1 # 9)%Q.
Proof.
  destruct tall_file as (d & r & E1 & E2 & E). exists no_wall, (tall_eq no_wall), d, r.
  rewrite !andb_true_iff in E. destruct E as [[_ E] _]. destruct (p_func (r_profiles r)) as [pf|]; [|discriminate].
  exists pf. split; [exact E1|]. split; [exact E2|]. split; [reflexivity|]. split; [reflexivity|]. apply Qeq_bool_iff. exact E.
Qed.
Print Assumptions C71_profiles_refuted.
(** The limiter becomes the wall of the machine, but the limit points used to find the plasma
    boundary stay those of the machine's former wall. *)
Theorem C71_limiter_kept : forall (P Ctl : Type) G exp mu0 spline uspline (m : gmachine R) d domain fit_sol (r : rstate R P Ctl) w,
  read_setup G exp mu0 spline uspline d m domain fit_sol = Ok r -> g_lim d = Some w -> (3 < length w)%nat ->
  v_wall (gm_vessel (r_machine r)) = Some w /\ v_limits (gm_vessel (r_machine r)) = v_limits (gm_vessel m) /\
  limits (tok (r_eq r)) = match v_limits (gm_vessel m) with Some l => l | None => [] end.
Proof.
  intros P Ctl G exp mu0 spline us m d dom fs r w Er Hw Hl. apply read_inv in Er.
  destruct Er as (nx & ny & psi' & prof & q' & e' & mk & _ & _ & _ & Er3 & _ & _ & Em & _ & Er).
  assert (E : gm_vessel (file_machine m d) = mkvessel (Some w) (v_limits (gm_vessel m))).
  { unfold file_machine, read_wall. rewrite Hw. destruct (Nat.ltb_spec 3 (length w)); [reflexivity|lia]. }
  rewrite Em, E. split; [reflexivity|]. split; [reflexivity|].
  assert (Et : tok (r_eq r) = tok_of (file_machine m d)).
  { destruct dom as [dom|].
    - destruct Er as (J' & psi2 & psin' & mk' & Ed & _). apply read_domain_inv in Ed. destruct dom as [[[a b] c] d'].
      destruct Ed as (_ & _ & En & _). apply new_inv in En. destruct En as (_ & _ & _ & _ & _ & _ & _ & _ & En & _). exact En.
    - destruct Er as (-> & _). apply new_inv in Er3. destruct Er3 as (_ & _ & _ & _ & _ & _ & _ & _ & En & _). exact En. }
  rewrite Et. unfold tok_of. rewrite E. reflexivity.
Qed.
Print Assumptions C71_limiter_kept.
Theorem C71_limiter_refuted : exists (m : gmachine Q) d r old new lo ln,
  generate_limit_points qsqrt old 500 = Ok lo /\ m = mkgm [] (mkvessel (Some old) (Some lo)) 2%Q /\
  qread d m None = Ok r /\ v_wall (gm_vessel (r_machine r)) = Some new /\ generate_limit_points qsqrt new 500 = Ok ln /\
  v_limits (gm_vessel (r_machine r)) = Some lo /\ nth 0 lo (0, 0)%Q <> nth 0 ln (0, 0)%Q.
Proof.
  destruct moved_wall as (l & r & ln & Eo & Er & El & Et). assert (Ev : gm_vessel (r_machine r) = mkvessel (Some (square 2 8 3)) (Some l)).
  { unfold qread in Er. apply read_inv in Er. destruct Er as (nx & ny & psi' & prof & q' & e' & mk & _ & _ & _ & _ & _ & _ & Em & _). rewrite Em. reflexivity. }
  exists (walled_by l), (square_file (Some (square 2 8 3))), r, (square 1 9 4), (square 2 8 3), l, ln.
  split; [exact Eo|]. split; [reflexivity|]. split; [exact Er|]. rewrite Ev. split; [reflexivity|]. split; [exact El|]. split; [reflexivity|].
  intros C. apply andb_true_iff in Et. destruct Et as (E1 & E2).
  apply Qeq_bool_iff in E1. apply Qeq_bool_iff in E2. rewrite C in E1. rewrite E1 in E2. discriminate.
Qed.
Print Assumptions C71_limiter_refuted.
Example C71_example : (let l := linspace_list (T := Q) 0 1 5 in
  quspline l (map (fun k => 1 - k / nofZ 5)%num (map nofnat (seq 0 5))) 0 1 == 1 # 5)%Q.
Proof. vm_compute. reflexivity. Qed.

(** C72 — sizes. *)
Theorem C72_isPow2 : forall v, (0 < v)%Z -> isPow2 v = true <-> power_of_two v.
Proof. exact isPow2_spec. Qed.
Print Assumptions C72_isPow2.
Theorem C72_ceilPow2 : forall v, (0 < v)%Z -> exists p, ceilPow2 v = Ok p /\ least_power_above v p /\ (v <= p < 2 * v)%Z /\ isPow2 p = true.
Proof.
  intros v Hv. destruct (ceilPow2_spec v Hv) as (p & E & L). exists p. split; [exact E|]. split; [exact L|].
  split; [apply ceilPow2_lt; assumption|]. apply power_isPow2. apply L.
Qed.
Print Assumptions C72_ceilPow2.
Theorem C72_not_positive : forall v, (v <= 0)%Z -> ceilPow2 v = Raise ValueError.
Proof. intros v Hv. unfold ceilPow2. apply Z.leb_le in Hv. rewrite Hv. reflexivity. Qed.
Print Assumptions C72_not_positive.
Theorem C72_resized : forall (nx ny : nat) (psi : nat -> nat -> R) nx' ny' psi', (2 <= nx)%nat -> (2 <= ny)%nat -> resize nx ny psi = Ok (nx', ny', psi') ->
  least_power_above (Z.of_nat nx - 1) (Z.of_nat nx' - 1) /\ least_power_above (Z.of_nat ny - 1) (Z.of_nat ny' - 1).
Proof. intros nx ny psi nx' ny' psi' Hx Hy E. apply resize_inv in E; [tauto|assumption|assumption]. Qed.
Print Assumptions C72_resized.
Example C72_example : isPow2 64 = true /\ isPow2 65 = false /\ isPow2 0 = true /\ ceilPow2 65 = Ok 128%Z /\ ceilPow2 64 = Ok 64%Z /\ power_of_two 64.
Proof. repeat split; try reflexivity. exists 6%Z. split; [lia|reflexivity]. Qed.

(** C73 — whenever reading with a domain succeeds, the spacing is larger than the spacing of the
    file (resized to n - 1 a power of two). *)
Theorem C73_always_coarser : forall (P Ctl : Type) G exp mu0 spline uspline (m : gmachine R) d rmin rmax zmin zmax fit_sol (r : rstate R P Ctl),
  read_setup G exp mu0 spline uspline d m (Some (rmin, rmax, zmin, zmax)) fit_sol = Ok r -> (2 <= g_ny d)%nat ->
  (Rmin (r_eq r) = rmin /\ Rmax (r_eq r) = rmax /\ Zmin (r_eq r) = zmin /\ Zmax (r_eq r) = zmax) /\
  least_power_above (Z.of_nat (g_nx d) - 1) (Z.of_nat (e_nx (r_eq r)) - 1) /\
  least_power_above (Z.of_nat (g_ny d) - 1) (Z.of_nat (e_ny (r_eq r)) - 1) /\
  spacing 0 (g_rdim d) (e_nx (r_eq r)) < spacing (Rmin (r_eq r)) (Rmax (r_eq r)) (e_nx (r_eq r)) /\
  spacing 0 (g_zdim d) (e_ny (r_eq r)) < spacing (Zmin (r_eq r)) (Zmax (r_eq r)) (e_ny (r_eq r)).
Proof.
  intros P Ctl G exp mu0 spline us m d rmin rmax zmin zmax fs r Er Hy. apply read_inv in Er.
  destruct Er as (nx & ny & psi' & prof & q' & e' & mk & _ & Er1 & Er2 & Er3 & _ & _ & Em & _ & Er).
  apply read_profiles_inv in Er2. destruct Er2 as (Hx & _).
  apply resize_inv in Er1; [|lia|exact Hy]. destruct Er1 as (L1 & L2 & _).
  destruct (new_domain _ _ _ _ _ _ _ _ _ _ _ _ _ _ _ _ Er3) as (Hnx & Hny & Hr & Hz).
  apply new_inv in Er3. destruct Er3 as (_ & _ & H1 & H2 & H3 & H4 & H5 & H6 & _).
  destruct Er as (J' & psi2 & psin' & mk' & Ed & _). apply read_domain_inv in Ed. cbv zeta in Ed.
  destruct Ed as (F1 & F2 & En & _). apply new_inv in En. destruct En as (_ & _ & K1 & K2 & K3 & K4 & K5 & K6 & _).
  rewrite K1, K2, K3, K4, K5, K6. split; [repeat split; reflexivity|]. split; [exact L1|]. split; [exact L2|].
  change (grid_R e' 1%nat 0%nat - grid_R e' 0%nat 0%nat)%num with (grid_R e' 1%nat 0%nat - grid_R e' 0%nat 0%nat) in F1.
  change (grid_Z e' 0%nat 1%nat - grid_Z e' 0%nat 0%nat)%num with (grid_Z e' 0%nat 1%nat - grid_Z e' 0%nat 0%nat) in F2.
  rewrite grid_step in F1 by lia. rewrite grid_stepZ in F2 by lia. rewrite H1, H3, H4 in F1. rewrite H2, H5, H6 in F2.
  rewrite nofnat_INR in F1, F2. apply R_ltb_true in F1. apply R_ltb_true in F2.
  rewrite lit_half in F2, Hz. revert F1 F2 Hr Hz. nR. intros F1 F2 Hr Hz.
  assert (0 < INR (nx - 1)) by (apply lt_0_INR; lia). assert (0 < INR (ny - 1)) by (apply lt_0_INR; lia).
  assert (S1 : spacing (g_rleft d) (g_rleft d + g_rdim d) nx = spacing 0 (g_rdim d) nx) by (unfold spacing; field; lra).
  assert (S2 : spacing (g_zmid d - / 2 * g_zdim d) (g_zmid d + / 2 * g_zdim d) ny = spacing 0 (g_zdim d) ny) by (unfold spacing; field; lra).
  rewrite S1 in F1. rewrite S2 in F2.
  split.
  - apply more_points; [lia|unfold spacing; apply Rdiv_lt_0_compat; lra|exact F1].
  - apply more_points; [lia|unfold spacing; apply Rdiv_lt_0_compat; lra|exact F2].
Qed.
Print Assumptions C73_always_coarser.
(** A file that can be read cannot be read with a domain that is not both wider and higher. *)
Theorem C73_small_domain : forall (P Ctl : Type) G exp mu0 spline uspline (m : gmachine R) d rmin rmax zmin zmax (r : rstate R P Ctl),
  read_setup G exp mu0 spline uspline d m None false = Ok r -> (rmax - rmin <= g_rdim d \/ zmax - zmin <= g_zdim d) ->
  read_setup (P := P) (Ctl := Ctl) G exp mu0 spline uspline d m (Some (rmin, rmax, zmin, zmax)) false = Raise UnboundLocalError.
Proof.
  intros P Ctl G exp mu0 spline us m d rmin rmax zmin zmax r Er Hd. unfold read_setup in Er |- *. cbn [andb] in Er |- *. cbv zeta in Er |- *.
  apply bind_inv in Er. destruct Er as ([[nx ny] psi] & E1 & Er). rewrite E1. cbn [bind].
  apply bind_inv in Er. destruct Er as ([prof q] & E2 & Er). rewrite E2. cbn [bind].
  apply bind_inv in Er. destruct Er as (e & E3 & Er). rewrite E3. cbn [bind].
  apply bind_inv in Er. destruct Er as ([[pb pa] mask'] & E4 & Er). rewrite E4. cbn [bind].
  destruct mask' as [mk|]; [|discriminate]. apply bind_inv in Er. destruct Er as (ri & E5 & Er). rewrite E5. cbn [bind].
  unfold read_domain. cbv zeta.
  destruct (new_domain _ _ _ _ _ _ _ _ _ _ _ _ _ _ _ _ E3) as (Hnx & Hny & Hr & Hz).
  apply new_inv in E3. destruct E3 as (_ & _ & H1 & H2 & H3 & H4 & H5 & H6 & _).
  change (grid_R e 1%nat 0%nat - grid_R e 0%nat 0%nat)%num with (grid_R e 1%nat 0%nat - grid_R e 0%nat 0%nat).
  change (grid_Z e 0%nat 1%nat - grid_Z e 0%nat 0%nat)%num with (grid_Z e 0%nat 1%nat - grid_Z e 0%nat 0%nat).
  rewrite grid_step, grid_stepZ by lia. rewrite H1, H2, H3, H4, H5, H6. rewrite !nofnat_INR, lit_half. rewrite lit_half in Hz. revert Hr Hz. nR. intros Hr Hz.
  assert (P1 : 0 < INR (nx - 1)) by (apply lt_0_INR; lia). assert (P2 : 0 < INR (ny - 1)) by (apply lt_0_INR; lia).
  assert (S1 : spacing (g_rleft d) (g_rleft d + g_rdim d) nx = spacing 0 (g_rdim d) nx) by (unfold spacing; field; lra).
  assert (S2 : spacing (g_zmid d - / 2 * g_zdim d) (g_zmid d + / 2 * g_zdim d) ny = spacing 0 (g_zdim d) ny) by (unfold spacing; field; lra).
  rewrite S1, S2.
  assert (C : R_ltb (INR nx) ((rmax - rmin) / spacing 0 (g_rdim d) nx + 1) = false \/ R_ltb (INR ny) ((zmax - zmin) / spacing 0 (g_zdim d) ny + 1) = false).
  { destruct Hd as [Hd|Hd]; [left|right]; apply R_ltb_false; apply Rnot_lt_le; intros C.
    - apply more_points in C; [|lia|unfold spacing; apply Rdiv_lt_0_compat; lra]. unfold spacing in C.
      apply Rmult_lt_compat_r with (r := INR (nx - 1)) in C; [|exact P1]. unfold Rdiv in C. rewrite !Rmult_assoc, !Rinv_l in C by lra. lra.
    - apply more_points in C; [|lia|unfold spacing; apply Rdiv_lt_0_compat; lra]. unfold spacing in C.
      apply Rmult_lt_compat_r with (r := INR (ny - 1)) in C; [|exact P2]. unfold Rdiv in C. rewrite !Rmult_assoc, !Rinv_l in C by lra. lra. }
  change (@nltb R Num_R) with R_ltb. destruct C as [C|C]; rewrite C; rewrite ?andb_false_r; reflexivity.
Qed.
Print Assumptions C73_small_domain.
(** 9 x 9 points on 8 x 8, read onto 16 x 16: the spacing goes from 1 to 2; the same file read onto its
    own domain fails. *)
Theorem C73_refuted : exists m d r, qread d m (Some (1, 17, -8, 8)%Q) = Ok r /\ (g_nx d = 9%nat /\ g_rdim d = 8%Q) /\
  e_nx (r_eq r) = 9%nat /\ (Rmin (r_eq r) = 1 /\ Rmax (r_eq r) = 17)%Q.
Proof.
  destruct larger_domain as (l & r & Er & Et). exists (walled_by l), (square_file None), r. split; [exact Er|]. split; [split; reflexivity|].
  split; [apply Nat.eqb_eq; exact Et|].
  unfold qread in Er. apply read_inv in Er. destruct Er as (nx & ny & psi' & prof & q' & e' & mk & _ & _ & _ & _ & _ & _ & _ & _ & Er).
  destruct Er as (J' & psi2 & psin' & mk' & Ed & _). apply read_domain_inv in Ed. destruct Ed as (_ & _ & En & _). apply new_inv in En. destruct En as (_ & _ & _ & _ & K1 & K2 & _). split; assumption.
Qed.
Print Assumptions C73_refuted.
Example C73_example : match qread (square_file None) no_wall (Some (1, 9, -4, 4)%Q) with Raise UnboundLocalError => true | _ => false end = true /\
  match qread (square_file None) no_wall None with Ok _ => true | _ => false end = true.
Proof. split; vm_cast_no_check (eq_refl true). Qed.

(** C111 — what a file with a limiter needs to be readable: a square grid, limit points that the
    machine had before, and an X-point. *)
Theorem C111_readable : forall (P Ctl : Type) G exp mu0 spline uspline (m : gmachine R) d fit_sol (r : rstate R P Ctl),
  read_setup G exp mu0 spline uspline d m None fit_sol = Ok r ->
  (exists px, psi_xpt (bs (r_eq r)) = Some px) /\
  (v_wall (gm_vessel (r_machine r)) <> None ->
   e_nx (r_eq r) = e_ny (r_eq r) /\ exists l p, v_limits (gm_vessel m) = Some l /\ In p l).
Proof.
  intros P Ctl G exp mu0 spline us m d fs r Er. apply read_inv in Er.
  destruct Er as (nx & ny & psi' & prof & q' & e' & mk & _ & _ & _ & Er3 & _ & Emk & Em & _ & Ee & _).
  destruct (new_bs _ _ _ _ _ _ _ _ _ _ _ _ _ _ _ _ Er3) as (e0 & tot & opt & xpt & _ & _ & Eu & B1 & B2 & B3 & B4 & B5).
  apply new_inv in Er3. destruct Er3 as (_ & _ & H1 & H2 & _).
  assert (Hx : exists x xs, xpt = x :: xs).
  { unfold update_from in Eu. rewrite B1 in Eu. destruct opt as [|o os]; [injection Eu as Eu; rewrite <- Eu in Emk; discriminate|].
    destruct xpt as [|x xs]; [exfalso|eauto].
    destruct (check_limited e0 && wall (tok e0))%bool; cbv zeta in Eu.
    - apply bind_inv in Eu. destruct Eu as (f & _ & Eu). destruct (argmax _) in Eu; [|discriminate]. injection Eu as Eu. rewrite <- Eu in Emk. discriminate.
    - injection Eu as Eu. rewrite <- Eu in Emk. discriminate. }
  destruct Hx as (x & xs & ->).
  assert (Ho : exists o os, opt = o :: os) by (destruct opt as [|o os]; [cbn in Eu; rewrite B1 in Eu; injection Eu as Eu; rewrite <- Eu in Emk; discriminate|eauto]).
  destruct Ho as (o & os & ->). rewrite Ee, Em, H1, H2. split.
  - unfold update_from in Eu. destruct (check_limited e0 && wall (tok e0))%bool; cbv zeta in Eu.
    + apply bind_inv in Eu. destruct Eu as (f & _ & Eu). destruct (argmax _) in Eu; [|discriminate]. apply bind_inv in Eu. destruct Eu as (mk1 & _ & Eu).
      apply bind_inv in Eu. destruct Eu as (s1 & _ & Eu). injection Eu as Eu. rewrite <- Eu. eexists. reflexivity.
    + apply bind_inv in Eu. destruct Eu as (mk1 & _ & Eu). apply bind_inv in Eu. destruct Eu as (s1 & _ & Eu). injection Eu as Eu. rewrite <- Eu. eexists. reflexivity.
  - intros Hw. apply update_limited_inv in Eu; [|exact B2|].
    + destruct Eu as (Es & p & pl & Hin & _). rewrite B4, B5 in Es. split; [exact Es|]. rewrite B3 in Hin. apply filter_In in Hin. destruct Hin as (Hin & _).
      unfold tok_of, file_machine in Hin. cbn [gm_vessel limits] in Hin.
      assert (El : v_limits (gm_vessel (read_wall m d)) = v_limits (gm_vessel m)) by (unfold read_wall; destruct (g_lim d) as [w|]; [destruct (3 <? length w)%nat|]; reflexivity).
      rewrite El in Hin. destruct (v_limits (gm_vessel m)) as [l|]; [|contradiction]. exists l, p. split; [reflexivity|exact Hin].
    + rewrite B3. unfold tok_of. cbn [wall]. destruct (v_wall (gm_vessel (file_machine m d))); [reflexivity|congruence].
Qed.
Print Assumptions C111_readable.
(** An equilibrium with 9 x 17 points in a machine with a wall can be written, but not read back. *)
Theorem C111_refuted : exists m e d, qwrite m e = Ok d /\ qread d m None = Raise ValueError.
Proof.
  destruct tall_walled as (l & d & E1 & E2). exists (walled_by l), (tall_eq (walled_by l)). exists d. split; [exact E1|].
  destruct (qread d (walled_by l) None) as [|x]; [discriminate E2|]. clear E1. destruct x; try discriminate E2. reflexivity.
Qed.
Print Assumptions C111_refuted.
Example C111_example : match qread (square_file (Some (square 2 8 3))) walled None with Ok r => Nat.eqb (e_nx (r_eq r)) (e_ny (r_eq r)) | Raise _ => false end = true /\
  match qread (square_file (Some (square 2 8 3))) no_wall None with Raise _ => true | Ok _ => false end = true.
Proof. split; vm_cast_no_check (eq_refl true). Qed.

(** C112 — the boundary list starts at the point as far from the end of the separatrix list as the
    lowest point is from its start. *)
Theorem C112_boundary_start : forall iso : list (R * R), iso <> [] ->
  exists k, (k < length iso)%nat /\ (forall i, (i < length iso)%nat -> snd (nth k iso (0, 0)) <= snd (nth i iso (0, 0))) /\
    nth 0 (boundary_points iso) (0, 0) = nth (length iso - 1 - k) iso (0, 0).
Proof.
  intros iso Hne. exists (argmin_list (map snd iso)).
  assert (Hlen : (0 < length iso)%nat) by (destruct iso; [congruence|cbn; lia]).
  assert (En : forall i, (i < length iso)%nat -> nth i (map snd iso) 0 = snd (nth i iso (0, 0))) by (intros i Hi; apply (map_nth snd iso (0, 0) i)).
  unfold argmin_list. rewrite map_length.
  destruct (argmin_spec (length iso) (fun i => nth i (map snd iso) 0) Hlen) as (A & B & _).
  split; [exact A|]. split.
  - intros i Hi. specialize (B i Hi). rewrite !En in B by assumption. exact B.
  - destruct (boundary_points_spec iso Hne) as (p & q & E & _ & Hp). rewrite E. cbn [nth]. rewrite Hp. unfold argmin_list. rewrite map_length. reflexivity.
Qed.
Print Assumptions C112_boundary_start.
Theorem C112_refuted : exists m e d p, qwrite m e = Ok d /\ In p (g_bdry d) /\ (snd p < snd (nth 0 (g_bdry d) (0, 0)))%Q.
Proof.
  destruct tall_file as (d & r & E1 & E2 & E). exists no_wall, (tall_eq no_wall), d. rewrite !andb_true_iff in E. destruct E as [[[_ E] _] _].
  apply existsb_exists in E. destruct E as (p & Hp & E). exists p. split; [exact E1|]. split; [exact Hp|].
  unfold Q_ltb in E. apply negb_true_iff in E. apply Qnot_le_lt. intros L. apply Qle_bool_iff in L. rewrite L in E. discriminate.
Qed.
Print Assumptions C112_refuted.
Example C112_example : boundary_points [(1, 0); (2, -1); (3, 1); (1, 5)]%Q = [(3, 1); (2, -1); (1, 0); (1, 5); (3, 1)]%Q.
Proof. vm_compute. reflexivity. Qed.

(** C113 — resizing interpolates: the new array is the bilinear interpolant of the old one (there is
    only one), its corners are kept and its values lie between the extremes of the old. *)
Theorem C113_interpolates : forall nx ny (psi : nat -> nat -> R) nx' ny' psi' F, (2 <= nx)%nat -> (2 <= ny)%nat -> resize nx ny psi = Ok (nx', ny', psi') ->
  bilinear_through nx ny (node 0 1 nx) (node 0 1 ny) psi F ->
  forall i j, (i < nx')%nat -> (j < ny')%nat -> psi' i j = F (node 0 1 nx' i) (node 0 1 ny' j).
Proof.
  intros nx ny psi nx' ny' psi' F Hx Hy E HF i j Hi Hj. apply resize_inv in E; [|assumption|assumption]. destruct E as (_ & _ & Hx' & Hy' & Hpsi).
  rewrite Hpsi by assumption. rewrite !linspace_node.
  assert (I1 : increasing_on nx (linspace 0 1 nx)) by (apply linspace_increasing; lra).
  assert (I2 : increasing_on ny (linspace 0 1 ny)) by (apply linspace_increasing; lra).
  apply (bilinear_unique nx ny (linspace 0 1 nx) (linspace 0 1 ny) psi); try assumption.
  - apply bilinear_is; assumption.
  - destruct HF as [A B C]. split; intros; rewrite ?linspace_node; [apply A|apply B|apply C]; assumption.
  - rewrite !linspace_node, node_first, node_last by lia. apply node_unit; assumption.
  - rewrite !linspace_node, node_first, node_last by lia. apply node_unit; assumption.
Qed.
Print Assumptions C113_interpolates.
Theorem C113_bounds_and_corners : forall nx ny (psi : nat -> nat -> R) nx' ny' psi' lo hi, (2 <= nx)%nat -> (2 <= ny)%nat -> resize nx ny psi = Ok (nx', ny', psi') ->
  (forall i j, (i < nx)%nat -> (j < ny)%nat -> lo <= psi i j <= hi) ->
  (forall i j, (i < nx')%nat -> (j < ny')%nat -> lo <= psi' i j <= hi) /\
  psi' 0%nat 0%nat = psi 0%nat 0%nat /\ psi' (nx' - 1)%nat (ny' - 1)%nat = psi (nx - 1)%nat (ny - 1)%nat /\
  psi' 0%nat (ny' - 1)%nat = psi 0%nat (ny - 1)%nat /\ psi' (nx' - 1)%nat 0%nat = psi (nx - 1)%nat 0%nat.
Proof.
  intros nx ny psi nx' ny' psi' lo hi Hx Hy E Hb. apply resize_inv in E; [|assumption|assumption]. destruct E as (_ & _ & Hx' & Hy' & Hpsi).
  assert (I1 : increasing_on nx (linspace 0 1 nx)) by (apply linspace_increasing; lra).
  assert (I2 : increasing_on ny (linspace 0 1 ny)) by (apply linspace_increasing; lra).
  destruct (bilinear_is nx ny _ _ psi Hx Hy I1 I2) as [Tt _ _].
  assert (C : forall n, (2 <= n)%nat -> linspace 0 1 n 0%nat = 0 /\ linspace 0 1 n (n - 1)%nat = 1) by (intros n Hn; rewrite !linspace_node, node_first, node_last by exact Hn; split; reflexivity).
  destruct (C nx Hx) as (X0 & X1). destruct (C ny Hy) as (Y0 & Y1). destruct (C nx' Hx') as (X0' & X1'). destruct (C ny' Hy') as (Y0' & Y1').
  split.
  - intros i j Hi Hj. rewrite Hpsi by assumption. unfold bilinear. apply lin_between; [exact I1|exact Hx| |].
    + rewrite X0, X1, linspace_node. apply node_unit; assumption.
    + intros k Hk. apply lin_between; [exact I2|exact Hy| |intros l Hl; apply Hb; assumption]. rewrite Y0, Y1, linspace_node. apply node_unit; assumption.
  - rewrite !Hpsi by lia. rewrite X0', X1', Y0', Y1'. 
    assert (Q1 := Tt 0%nat 0%nat ltac:(lia) ltac:(lia)). assert (Q2 := Tt (nx - 1)%nat (ny - 1)%nat ltac:(lia) ltac:(lia)).
    assert (Q3 := Tt 0%nat (ny - 1)%nat ltac:(lia) ltac:(lia)). assert (Q4 := Tt (nx - 1)%nat 0%nat ltac:(lia) ltac:(lia)).
    rewrite X0, Y0 in Q1. rewrite X1, Y1 in Q2. rewrite X0, Y1 in Q3. rewrite X1, Y0 in Q4. repeat split; assumption.
Qed.
Print Assumptions C113_bounds_and_corners.
Example C113_example : match resize 4 3 (fun i j => Qred (inject_Z (Z.of_nat i) * (1 + inject_Z (Z.of_nat j)))) with
  | Ok (n, m, p) => (n, m, map (fun i => map (p i) (seq 0 m)) (seq 0 n)) | Raise _ => (0%nat, 0%nat, []) end
  = (5%nat, 3%nat, [[0; 0; 0]; [3 # 4; 3 # 2; 9 # 4]; [3 # 2; 3; 9 # 2]; [9 # 4; 9 # 2; 27 # 4]; [3; 6; 9]])%Q.
Proof. vm_compute. reflexivity. Qed.

(** C114 — the safety factor of the file: the values eq.q gives at 1/nx, 2/nx, ..., the first one
    repeated on the axis. *)
Theorem C114_safety_factor : forall (P Ctl : Type) G sqrt spline pi sin cos arctan2 quad_interp (methods_of : P -> methods)
  (m : gmachine R) (e : equilibrium R P Ctl) ox d,
  write G sqrt spline pi sin cos arctan2 quad_interp methods_of m e ox = Ok d -> (3 <= e_nx e)%nat ->
  exists p l q, profiles e = Some p /\
    length l = (e_nx e - 1)%nat /\ (forall k, (k < e_nx e - 1)%nat -> nth k l 0 = INR (S k) / INR (e_nx e)) /\
    eq_q (fun l => find_safety pi sin cos sqrt arctan2 G spline (m_fpol (methods_of p)) e l 128) quad_interp (AArray l) 100 = Ok (RArray q) /\
    length (g_qpsi d) = e_nx e /\ nth 0 (g_qpsi d) 0 = nth 0 q 0 /\ forall k, nth (S k) (g_qpsi d) 0 = nth k q 0.
Proof.
  intros P Ctl G sqrt spline pi sin cos arctan2 qi mo m e ox d Ew Hn. apply write_inv in Ew.
  destruct Ew as (psi & opoint & xs & p & ro & zo & s & os & pb & q & qpsi & f & iso & Et & Eox & Ep & HR0 & -> & Eb & Ef & Es & Eq & Eqp & ->).
  assert (Lo : length (linspace_open (T := R) 0 1 (e_nx e)) = e_nx e) by (unfold linspace_open; rewrite map_length, seq_length; reflexivity).
  set (l := tl (linspace_open (T := R) 0 1 (e_nx e))).
  assert (Ll : length l = (e_nx e - 1)%nat) by (unfold l; destruct (linspace_open _ _ _) eqn:E; [rewrite <- Lo; reflexivity|rewrite <- Lo; cbn; lia]).
  assert (Eql : exists ql, q = RArray ql /\ length ql = (e_nx e - 1)%nat).
  { cbn [eq_q] in Eq. unfold q_values in Eq. change (tl (linspace_open n0 n1 (e_nx e))) with l in Eq.
    assert (TS : forall r : list R, length r = (e_nx e - 1)%nat -> to_scalar r = RArray r) by (intros r Hr; unfold to_scalar; destruct r as [|a [|b r]]; [reflexivity|cbn in Hr; lia|reflexivity]).
    destruct (existsb outside l).
    - apply bind_inv in Eq. destruct Eq as (qi' & _ & Eq). injection Eq as <-. eexists. split; [apply TS|]; rewrite map_length; exact Ll.
    - apply bind_inv in Eq. destruct Eq as (ql & Es' & Eq). injection Eq as <-. apply safety_length in Es'. exists ql. split; [apply TS|]; rewrite Es'; exact Ll. }
  destruct Eql as (ql & -> & Lq). unfold qpsi_of in Eqp. destruct ql as [|a ql]; [cbn in Lq; lia|]. injection Eqp as <-.
  exists p, l, (a :: ql). split; [exact Ep|]. split; [exact Ll|].
  split. { intros k Hk. rewrite <- (open_nth (e_nx e) (S k)) by lia. unfold l. destruct (linspace_open (T := R) 0 1 (e_nx e)); [destruct k; reflexivity|reflexivity]. }
  split; [exact Eq|]. cbn [g_qpsi length]. cbn in Lq. split; [lia|]. split; reflexivity.
Qed.
Print Assumptions C114_safety_factor.
Example C114_example : qpsi_of 4 (RArray [3; 2; 5]%Q) = Ok [3; 3; 2; 5]%Q /\ linspace_open (T := Q) 0%Q 1%Q 4 = [0; 1 # 4; 1 # 2; 3 # 4]%Q.
Proof. vm_compute. split; reflexivity. Qed.
