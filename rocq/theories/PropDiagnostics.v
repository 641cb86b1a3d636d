(** C100 - C102: plasma volume, stored energy, betas and internal inductances. *)
From Coq Require Import List Arith ZArith Bool Reals Lia Lra.
From Coquelicot Require Import Coquelicot.
From Verif Require Import Py Num Numpy Romb RombProofs RombExact Coils Machine Boundary BoundarySpec BoundaryProofs Critical Jtor JtorSpec JtorProofs PropJtor
  Equilibrium EquilibriumProofs Shape ShapeSpec GSSpec Diagnostics DiagnosticsSpec DiagnosticsProofs.
Import ListNotations.
Local Open Scope R_scope.

(** A 3x3 example: R = 1, 2, 3 and Z = 0, 1, 2, flux 0 in the middle and 1 elsewhere, plasma
    current 8, no coils, Br = 1. *)
Definition exSpline : nat -> nat -> (nat -> R) -> (nat -> R) -> arr2 R -> sfun R :=
  fun _ _ _ _ _ dx dy r z => match dx, dy with 0%nat, 1%nat => - r | _, _ => 0 end.
Definition exEq (m : option (option (arr2 R))) : equilibrium R unit unit :=
  mkeq 3 3 1 3 0 2 (mktok [] false []) BFree 2 (SUser (fun _ _ => Raise TypeError)) false exPsi (fun _ _ => []) 8 None
    (mkb (Some 0) (Some (Some 1)) m None None false None) None None.
Lemma exEq_R m i : R_1D (exEq m) i = 1 + INR i.
Proof. unfold R_1D. rewrite linspace_gridpt. unfold gridpt. cbn [Rmin Rmax e_nx exEq Nat.sub INR]. field. Qed.
Lemma exEq_Z m j : Z_1D (exEq m) j = INR j.
Proof. unfold Z_1D. rewrite linspace_gridpt. unfold gridpt. cbn [Zmin Zmax e_ny exEq Nat.sub INR]. field. Qed.

(** C100 — the volume without a mask is that of the hollow cylinder swept by the domain. *)
Theorem C100_volume_of_domain : forall (P Ctl : Type) pi (e : equilibrium R P Ctl),
  dyadic (e_nx e) -> dyadic (e_ny e) -> mask (bs e) = Some None ->
  plasmaVolume pi e = Ok (pi * (Rmax e ^ 2 - Rmin e ^ 2) * (Zmax e - Zmin e)).
Proof.
  intros P Ctl pi e (kx & Hx) (ky & Hy) Hm. rewrite (plasmaVolume_ok pi e None kx ky Hx Hy Hm). f_equal. apply volume_no_mask; assumption.
Qed.
Print Assumptions C100_volume_of_domain.
Example C100_example : plasmaVolume PI (exEq (Some None)) = Ok (16 * PI).
Proof.
  rewrite C100_volume_of_domain; [|exists 1%nat; reflexivity..|reflexivity]. f_equal. cbn. ring.
Qed.

(** With a mask the volume is the weighted integral; it grows with the mask and never exceeds
    the volume of the domain. *)
Theorem C100_volume_of_mask : forall (P Ctl : Type) pi (e : equilibrium R P Ctl) v,
  plasmaVolume pi e = Ok v <-> exists m, mask (bs e) = Some m /\ torus_integral pi e m (fun _ _ => 1) v.
Proof. intros P Ctl pi e v. rewrite plasmaVolume_integral. apply torus_ok. Qed.
Print Assumptions C100_volume_of_mask.
Theorem C100_volume_monotone : forall (P Ctl : Type) pi (e e' : equilibrium R P Ctl) m m' v v', 0 <= pi ->
  e_nx e' = e_nx e -> e_ny e' = e_ny e -> Rmin e' = Rmin e -> Rmax e' = Rmax e -> Zmin e' = Zmin e -> Zmax e' = Zmax e ->
  0 <= Rmin e <= Rmax e -> Zmin e <= Zmax e ->
  mask (bs e) = Some m -> mask (bs e') = Some m' ->
  (forall i j, (i < e_nx e)%nat -> (j < e_ny e)%nat -> 0 <= mask_at m i j <= mask_at m' i j) ->
  plasmaVolume pi e = Ok v -> plasmaVolume pi e' = Ok v' -> 0 <= v <= v'.
Proof.
  intros P Ctl pi e e' m m' v v' Hpi Enx Eny E1 E2 E3 E4 HR HZ Hm Hm' Hle Hv Hv'.
  destruct (volume_dyadic _ _ _ Hv) as (m0 & kx & ky & Hm0 & Hx & Hy & ->). assert (m0 = m) by congruence. subst m0.
  rewrite (plasmaVolume_ok pi e' m' kx ky) in Hv' by (congruence || assumption). injection Hv' as <-.
  assert (Px := Nat.pow_nonzero 2 kx ltac:(lia)). assert (Py := Nat.pow_nonzero 2 ky ltac:(lia)).
  assert (HR1 : forall i, R_1D e' i = R_1D e i) by (intros i; unfold R_1D; congruence).
  assert (HZ1 : forall i, Z_1D e' i = Z_1D e i) by (intros i; unfold Z_1D; congruence).
  assert (Hd : forall i j, (i <= 2 ^ kx)%nat -> (j <= 2 ^ ky)%nat -> 0 <= dV_at pi e m i j <= dV_at pi e' m' i j).
  { intros i j Hi Hj. destruct (Hle i j ltac:(lia) ltac:(lia)) as [H0 H1]. unfold dV_at. rewrite !HR1, !HZ1.
    assert (D := dV_nonneg pi e m i j Hpi ltac:(lia) ltac:(lia) ltac:(lia) HR HZ H0).
    split; [apply Rmult_le_pos; assumption|apply Rmult_le_compat_l; assumption]. }
  split; [apply R2_nonneg|apply R2_mono]; intros i j Hi Hj; apply Hd; assumption.
Qed.
Print Assumptions C100_volume_monotone.
Definition exHalf : arr2 R := fun i _ => if (i =? 2)%nat then 0 else 1.
Example C100_monotone_example : exists v, plasmaVolume PI (exEq (Some (Some exHalf))) = Ok v /\ 0 <= v <= 16 * PI.
Proof.
  eexists. split; [exact (plasmaVolume_ok PI (exEq (Some (Some exHalf))) (Some exHalf) 1 1 eq_refl eq_refl eq_refl)|].
  refine (C100_volume_monotone unit unit PI (exEq (Some (Some exHalf))) (exEq (Some None)) (Some exHalf) None _ _ _ _ _ _ _ _ _ _ _ _ _ _ _ C100_example);
    try reflexivity; try (cbn; lra).
  - assert (H := PI_RGT_0). lra.
  - intros i j _ _. cbn [mask_at]. unfold exHalf. destruct (i =? 2)%nat; lra.
  - apply (plasmaVolume_ok PI (exEq (Some (Some exHalf))) (Some exHalf) 1 1); reflexivity.
Qed.

(** Stored energy, mean pressure and volume agree. *)
Theorem C100_energy : forall (P Ctl : Type) G spline pi pressure fpol fvac (e : equilibrium R P Ctl) w p v,
  w_th pi pressure e = Ok w -> pressure_ave G spline pi pressure fpol fvac e = Ok p -> plasmaVolume pi e = Ok v -> v <> 0 ->
  w = 3 / 2 * (p * v).
Proof.
  intros P Ctl G spline pi pressure fpol fvac e w p v Hw Hp Hv H0. unfold w_th in Hw. unfold pressure_ave in Hp. rewrite Hv in Hp.
  destruct (Btor2 _ _ _ _ _); [|discriminate]. cbn [bind] in Hp.
  destruct (pressure_integral pi pressure e); [|discriminate]. cbn [bind] in Hw, Hp.
  injection Hw as <-. injection Hp as <-. nR. field. exact H0.
Qed.
Print Assumptions C100_energy.
(** The mean pressure lies between the extremes of the pressure in the mask. *)
Theorem C100_mean_pressure : forall (P Ctl : Type) G spline pi pressure fpol fvac (e : equilibrium R P Ctl) psi pa pb m p v lo hi,
  0 <= pi -> 0 <= Rmin e <= Rmax e -> Zmin e <= Zmax e ->
  total_psi e = Ok psi -> psi_axis (bs e) = Some pa -> psi_bndry (bs e) = Some (Some pb) -> mask (bs e) = Some m ->
  (forall i j, 0 <= mask_at m i j) ->
  (forall i j, (i < e_nx e)%nat -> (j < e_ny e)%nat -> mask_at m i j <> 0 -> lo <= pressure (psinorm pa pb (psi i j)) <= hi) ->
  pressure_ave G spline pi pressure fpol fvac e = Ok p -> plasmaVolume pi e = Ok v -> v <> 0 -> lo <= p <= hi.
Proof.
  intros P Ctl G spline pi pressure fpol fvac e psi pa pb m p v lo hi Hpi HR HZ Ht Ha Hb Hm Hm0 Hlh Hp Hv Hv0.
  unfold pressure_ave, pressure_integral, psiN, axis_and_bndry in Hp. rewrite Ht, Ha, Hb, Hv in Hp.
  destruct (Btor2 _ _ _ _ _); [|discriminate]. cbn [bind] in Hp.
  destruct (volume_dyadic _ _ _ Hv) as (m0 & kx & ky & Hm1 & Hx & Hy & Ev). assert (m0 = m) by congruence. subst m0.
  rewrite (volume_integral_ok pi e m kx ky _ Hx Hy Hm) in Hp. cbn [bind] in Hp. injection Hp as <-.
  assert (Px := Nat.pow_nonzero 2 kx ltac:(lia)). assert (Py := Nat.pow_nonzero 2 ky ltac:(lia)).
  assert (Hd : forall i j, (i <= 2 ^ kx)%nat -> 0 <= dV_at pi e m i j).
  { intros i j Hi. unfold dV_at. apply Rmult_le_pos; [|apply Hm0]. apply (dV_nonneg pi e m i j); try assumption; try lia. apply Hm0. }
  assert (Vp : 0 < v).
  { assert (0 <= v) by (rewrite Ev; apply R2_nonneg; intros i j Hi _; apply Hd; exact Hi). lra. }
  assert (B : forall i j, (i <= 2 ^ kx)%nat -> (j <= 2 ^ ky)%nat ->
     lo * dV_at pi e m i j <= pressure ((psi i j - pa) / (pb - pa)) * dV_at pi e m i j <= hi * dV_at pi e m i j).
  { intros i j Hi Hj. specialize (Hd i j Hi). destruct (Req_dec (mask_at m i j) 0) as [E0|E0].
    - assert (Z : dV_at pi e m i j = 0) by (unfold dV_at; rewrite E0; ring). rewrite Z. lra.
    - destruct (Hlh i j ltac:(lia) ltac:(lia) E0) as [L H]. unfold psinorm in L, H. split; apply Rmult_le_compat_r; assumption. }
  nR. set (S := R2 kx ky (fun i j => pressure ((psi i j - pa) / (pb - pa)) * dV_at pi e m i j)).
  assert (L : lo * v <= S) by (rewrite Ev, <- R2_scal; apply R2_mono; intros i j Hi Hj; apply B; assumption).
  assert (U : S <= hi * v) by (rewrite Ev, <- R2_scal; apply R2_mono; intros i j Hi Hj; apply B; assumption).
  split.
  - apply Rmult_le_reg_r with v; [exact Vp|]. unfold Rdiv. rewrite Rmult_assoc, Rinv_l, Rmult_1_r by exact Hv0. exact L.
  - apply Rmult_le_reg_r with v; [exact Vp|]. unfold Rdiv. rewrite Rmult_assoc, Rinv_l, Rmult_1_r by exact Hv0. exact U.
Qed.
Print Assumptions C100_mean_pressure.
Lemma exEq_psi m : exists psi, total_psi (exEq m) = Ok psi /\ forall i j, psi i j = exPsi i j.
Proof. apply (no_coils_psi (exEq m)). reflexivity. Qed.
(** pressure 1 - psinorm: 1 in the middle, 0 elsewhere *)
Lemma exEq_pressure (pr : R -> R) : pr 1 = 0 -> pressure_integral PI pr (exEq (Some None)) = Ok (pr 0 * (64 / 9 * PI)).
Proof.
  intros H1. destruct (exEq_psi (Some None)) as (psi & Ep & Hp). unfold pressure_integral, psiN. rewrite Ep. cbn [bind axis_and_bndry bs exEq psi_axis psi_bndry].
  apply torus_ok. exists None. split; [reflexivity|]. unfold torus_integral. change (e_nx (exEq (Some None))) with 3%nat. change (e_ny (exEq (Some None))) with 3%nat.
  rewrite romb2_3x3. eexists. split; [reflexivity|]. rewrite !exEq_R, !exEq_Z, !Hp. unfold exPsi. cbn [Nat.eqb andb mask_at INR]. nR.
  replace ((1 - 0) / (1 - 0)) with 1 by field. replace ((0 - 0) / (1 - 0)) with 0 by field. rewrite H1. field.
Qed.
Example C100_energy_example : exists w p, w_th PI (fun x => 1 - x) (exEq (Some None)) = Ok w /\
  pressure_ave (fun _ _ _ _ _ => 0) exSpline PI (fun x => 1 - x) (fun _ => 1) 1 (exEq (Some None)) = Ok p /\ w = 3 / 2 * (p * (16 * PI)) /\ p = 4 / 9.
Proof.
  assert (Hp := exEq_pressure (fun x => 1 - x) ltac:(cbv beta; ring)). assert (HPI := PI_RGT_0).
  eexists. eexists. split; [unfold w_th; rewrite Hp; reflexivity|]. split; [unfold pressure_ave; rewrite Hp, C100_example; reflexivity|].
  cbn [bind]. nR. split; field; lra.
Qed.

(** Nothing can be integrated before the boundary has been looked for, or on other grids. *)
Theorem C100_not_available : forall (P Ctl : Type) pi (e : equilibrium R P Ctl), (2 <= e_nx e)%nat -> (2 <= e_ny e)%nat ->
  (mask (bs e) = None -> plasmaVolume pi e = Raise AttributeError) /\
  (forall m, mask (bs e) = Some m -> ~ (dyadic (e_nx e) /\ dyadic (e_ny e)) -> plasmaVolume pi e = Raise ValueError).
Proof.
  intros P Ctl pi e Hx Hy. split.
  - intros Hm. unfold plasmaVolume, volume_element. rewrite spacing_R_ok, spacing_Z_ok, Hm by lia. reflexivity.
  - intros m Hm Hd. destruct (volume_element_ok pi e m Hx Hy Hm) as (dV & Ev & _). unfold plasmaVolume. rewrite Ev. cbn [bind].
    destruct (romb2 (e_nx e) (e_ny e) dV) as [v|x] eqn:Er.
    + exfalso. apply Hd. destruct (romb2_ok _ _ _ _ Er) as (kx & ky & H1 & H2). split; [exists kx|exists ky]; assumption.
    + f_equal. exact (romb2_raise _ _ _ _ Er).
Qed.
Print Assumptions C100_not_available.
Example C100_not_available_example : plasmaVolume PI (exEq None) = Raise AttributeError.
Proof. apply (C100_not_available unit unit PI (exEq None)); cbn; [lia..|reflexivity]. Qed.

(** C101 — the internal inductances. *)
Theorem C101_li_is_li3 : forall (P Ctl : Type) G spline pi mu0 sep (e : equilibrium R P Ctl) n,
  internalInductance G spline pi mu0 sep e n = internalInductance3 G spline pi mu0 sep e n.
Proof.
  intros. unfold internalInductance, internalInductance3. destruct (sep e n) as [s|]; [|reflexivity]. cbn [bind].
  destruct (Rgeometric s) as [r|]; [|reflexivity]. cbn [bind]. destruct (field_integral G spline pi e); [|reflexivity]. cbn [bind].
  nR. f_equal. f_equal. ring.
Qed.
Print Assumptions C101_li_is_li3.
Theorem C101_li2_li3 : forall (P Ctl : Type) G spline pi mu0 sep (e : equilibrium R P Ctl) n s l2 l3 ax r,
  internalInductance2 G spline pi mu0 e = Ok l2 -> internalInductance3 G spline pi mu0 sep e n = Ok l3 ->
  magneticAxis spline e = Ok ax -> sep e n = Ok s -> Rgeometric s = Ok r -> pR ax <> 0 -> r <> 0 ->
  l2 * pR ax = l3 * r.
Proof.
  intros P Ctl G spline pi mu0 sep e n s l2 l3 ax r H2 H3 Ha Hs Hr Ax R0. unfold internalInductance2 in H2. unfold internalInductance3 in H3.
  rewrite Ha in H2. rewrite Hs in H3. cbn [bind] in H2, H3. rewrite Hr in H3. cbn [bind] in H3.
  destruct (field_integral G spline pi e) as [b|]; [|discriminate]. cbn [bind] in H2, H3. injection H2 as <-. injection H3 as <-. nR.
  assert (H : forall u c y, y <> 0 -> u / (c * y) * y = u / c).
  { intros u c y Hy. unfold Rdiv. rewrite Rinv_mult. transitivity (u * / c * (/ y * y)); [ring|]. rewrite Rinv_l by exact Hy. ring. }
  rewrite !H by assumption. reflexivity.
Qed.
Print Assumptions C101_li2_li3.
(** The first definition: the elongations measured on the boundary and from the volume. *)
Theorem C101_li1_li3 : forall (P Ctl : Type) G spline pi mu0 sep (e : equilibrium R P Ctl) n s l1 l3 k vol r a,
  internalInductance1 G spline pi mu0 sep e n = Ok l1 -> internalInductance3 G spline pi mu0 sep e n = Ok l3 ->
  sep e n = Ok s -> elongation s = Ok k -> plasmaVolume pi e = Ok vol -> Rgeometric s = Ok r -> minorRadius s = Ok a ->
  vol <> 0 -> r <> 0 -> a <> 0 -> pi <> 0 ->
  l1 * vol = l3 * (1 + k ^ 2) * (pi ^ 2 * a ^ 2 * r).
Proof.
  intros P Ctl G spline pi mu0 sep e n s l1 l3 k vol r a H1 H3 Hs Hk Hv Hr Ha V0 R0 A0 P0.
  unfold internalInductance1 in H1. unfold internalInductance3 in H3. rewrite Hs in H1, H3. cbn [bind] in H1, H3.
  unfold effectiveElongation in H1. rewrite Hr, Hk, Hv in H1. rewrite Hr in H3. cbn [bind] in H1, H3. rewrite Ha in H1. cbn [bind] in H1.
  destruct (field_integral G spline pi e) as [b|]; [|discriminate]. cbn [bind] in H1, H3. injection H1 as <-. injection H3 as <-. nR.
  unfold Rdiv. set (d := / (mu0 * current e * (mu0 * current e) * r)). field. repeat split; assumption.
Qed.
Print Assumptions C101_li1_li3.

(** The betas combine like 1/beta = 1/beta_pol + 1/beta_tor; the total is the smallest. *)
Theorem C101_total_beta : forall (P Ctl : Type) G spline pi mu0 pressure fpol fvac (e : equilibrium R P Ctl) b bp bt,
  totalBeta G spline pi mu0 pressure fpol fvac e = Ok b -> poloidalBeta G spline pi mu0 pressure e = Ok bp ->
  toroidalBeta G spline pi mu0 pressure fpol fvac e = Ok bt -> 0 < bp -> 0 < bt ->
  / b = / bp + / bt /\ 0 < b < bp /\ b < bt.
Proof.
  intros P Ctl G spline pi mu0 pressure fpol fvac e b bp bt Hb Hp Ht P0 T0. unfold totalBeta in Hb. rewrite Hp, Ht in Hb. cbn [bind] in Hb.
  injection Hb as <-. nR. assert (0 < / bp) by (apply Rinv_0_lt_compat; exact P0). assert (0 < / bt) by (apply Rinv_0_lt_compat; exact T0).
  unfold Rdiv. rewrite !Rmult_1_l. rewrite Rinv_inv. split; [reflexivity|].
  assert (Hlt : forall x, 0 < x -> / x < / bp + / bt -> / (/ bp + / bt) < x).
  { intros x Hx Hl. apply Rlt_le_trans with (/ / x); [|rewrite Rinv_inv; lra]. apply Rinv_lt_contravar; [|exact Hl]. apply Rmult_lt_0_compat; [apply Rinv_0_lt_compat; exact Hx|lra]. }
  split; [split; [apply Rinv_0_lt_compat; lra|]|]; apply Hlt; lra.
Qed.
Print Assumptions C101_total_beta.
(** Poloidal beta, stored energy and internal inductance are tied by the plasma current. *)
Theorem C101_energy_beta : forall (P Ctl : Type) G spline pi mu0 pressure sep (e : equilibrium R P Ctl) n s w bp li r,
  w_th pi pressure e = Ok w -> poloidalBeta G spline pi mu0 pressure e = Ok bp -> internalInductance3 G spline pi mu0 sep e n = Ok li ->
  sep e n = Ok s -> Rgeometric s = Ok r -> r <> 0 -> mu0 <> 0 -> current e <> 0 -> li <> 0 ->
  w = 3 / 8 * mu0 * r * current e ^ 2 * bp * li.
Proof.
  intros P Ctl G spline pi mu0 pressure sep e n s w bp li r Hw Hb Hl Hs Hr R0 M0 I0 L0.
  unfold w_th in Hw. unfold poloidalBeta in Hb. unfold internalInductance3 in Hl. rewrite Hs in Hl. cbn [bind] in Hl. rewrite Hr in Hl. cbn [bind] in Hl.
  destruct (pressure_integral pi pressure e) as [p|]; [|discriminate]. cbn [bind] in Hw, Hb.
  destruct (field_integral G spline pi e) as [b|]; [|discriminate]. cbn [bind] in Hb, Hl.
  injection Hw as <-. injection Hb as <-. injection Hl as <-. nR.
  assert (B0 : b <> 0). { intros ->. apply L0. nR. unfold Rdiv. ring. }
  field. repeat split; assumption.
Qed.
Print Assumptions C101_energy_beta.

(** The third poloidal beta is 4 V <p> / (mu0 Ip^2 R0) times the volume once more: it is not a
    pure number, and has its usual value 4 V <p> / (mu0 Ip^2 R0) only for plasmas of volume 1. *)
Theorem C101_betap3_value : forall (P Ctl : Type) G spline pi mu0 pressure fpol fvac sep (e : equilibrium R P Ctl) s b3 p vol r,
  poloidalBeta3 pi mu0 pressure sep e = Ok b3 -> pressure_ave G spline pi pressure fpol fvac e = Ok p -> plasmaVolume pi e = Ok vol ->
  sep e 360%nat = Ok s -> Rgeometric s = Ok r -> vol <> 0 ->
  b3 = vol * (4 * (vol * p) / (mu0 * current e ^ 2 * r)).
Proof.
  intros P Ctl G spline pi mu0 pressure fpol fvac sep e s b3 p vol r H3 Hp Hv Hs Hr V0. unfold poloidalBeta3 in H3. unfold pressure_ave in Hp.
  rewrite Hv in Hp. rewrite Hv, Hs in H3. destruct (Btor2 _ _ _ _ _); [|discriminate]. cbn [bind] in Hp.
  destruct (pressure_integral pi pressure e) as [q|]; [|discriminate]. cbn [bind] in Hp, H3. rewrite Hr in H3. cbn [bind] in H3.
  injection Hp as <-. injection H3 as <-. nR. replace (vol * (q / vol)) with q by (field; exact V0).
  replace (current e ^ 2) with (current e * current e) by ring. unfold Rdiv. rewrite <- (Rmult_assoc mu0). ring.
Qed.
Print Assumptions C101_betap3_value.
Definition exBox : list (R * R) := [(1, 0); (3, 0); (3, 2); (1, 2)].
Lemma exBox_geo : Rgeometric exBox = Ok 2.
Proof.
  unfold Rgeometric, geometricAxis, exBox, Rlcfs. cbn [map fst argmax argmin_of argmax_from argmin_from bind]. nR.
  assert (Tt : forall a b, a < b -> R_ltb a b = true) by (intros a b; apply R_ltb_true).
  assert (Ff : forall a b, b <= a -> R_ltb a b = false) by (intros a b; apply R_ltb_false).
  repeat (first [rewrite Tt by lra|rewrite Ff by lra]). cbn [nth fst snd bind]. f_equal. unfold half. nR. lra.
Qed.
Theorem C101_betap3_refuted : exists (e : equilibrium R unit unit) pressure sep s b3 p vol r,
  poloidalBeta3 PI 1 pressure sep e = Ok b3 /\ pressure_ave (fun _ _ _ _ _ => 0) exSpline PI pressure (fun _ => 1) 1 e = Ok p /\
  plasmaVolume PI e = Ok vol /\ sep e 360%nat = Ok s /\ Rgeometric s = Ok r /\
  b3 <> 4 * (vol * p) / (1 * current e ^ 2 * r).
Proof.
  assert (Hp := exEq_pressure (fun x => 1 - x) ltac:(cbv beta; ring)). assert (HPI := PI_RGT_0). assert (H3 : PI > 3) by (assert (H := PI2_3_2); lra).
  exists (exEq (Some None)), (fun x => 1 - x), (fun _ _ => Ok exBox), exBox.
  eexists. eexists. exists (16 * PI), 2.
  split; [unfold poloidalBeta3; rewrite Hp, C100_example; cbn [bind]; rewrite exBox_geo; reflexivity|].
  split; [unfold pressure_ave; rewrite Hp, C100_example; reflexivity|]. split; [exact C100_example|]. split; [reflexivity|]. split; [exact exBox_geo|].
  cbn [current exEq]. nR. intros E.
  assert (E1 : (16 * PI - 1) * (4 * (64 / 9 * PI) / 128) = 0).
  { transitivity (4 * (16 * PI) * ((1 - 0) * (64 / 9 * PI)) / (1 * 8 * 8 * 2) - 4 * (16 * PI * ((1 - 0) * (64 / 9 * PI) / (16 * PI))) / (1 * 8 ^ 2 * 2)); [field; lra|].
    rewrite E. ring. }
  apply Rmult_integral in E1. lra.
Qed.
Print Assumptions C101_betap3_refuted.
Example C101_example : exists bp l3, poloidalBeta (fun _ _ _ _ _ => 0) exSpline PI 1 (fun x => 1 - x) (exEq (Some None)) = Ok bp /\
  internalInductance3 (fun _ _ _ _ _ => 0) exSpline PI 1 (fun _ _ => Ok exBox) (exEq (Some None)) 360 = Ok l3 /\ bp = 8 / 9 /\ l3 = PI / 4.
Proof.
  assert (Hp := exEq_pressure (fun x => 1 - x) ltac:(cbv beta; ring)). assert (HPI := PI_RGT_0).
  assert (Hf : field_integral (fun _ _ _ _ _ => 0) exSpline PI (exEq (Some None)) = Ok (16 * PI)).
  { unfold field_integral. apply torus_ok. exists None. split; [reflexivity|]. unfold torus_integral. change (e_nx (exEq (Some None))) with 3%nat. change (e_ny (exEq (Some None))) with 3%nat.
    rewrite romb2_3x3. eexists. split; [reflexivity|].
    assert (HB : forall i j, Diagnostics.Bpol2 (fun _ _ _ _ _ => 0) exSpline (exEq (Some None)) i j = 1).
    { intros i j. unfold Diagnostics.Bpol2, Equilibrium.eqBr, Equilibrium.eqBz, plasmaBr, plasmaBz, psi_func, exSpline, grid_R. rewrite exEq_R.
      cbn [tok exEq coils]. unfold machine_field. cbn. nR. assert (0 <= INR i) by apply pos_INR. field. lra. }
    rewrite !HB, !exEq_R, !exEq_Z. cbn [mask_at INR]. field. }
  eexists. eexists. split; [unfold poloidalBeta; rewrite Hp; cbn [bind]; rewrite Hf; reflexivity|].
  split; [unfold internalInductance3; cbn [bind]; rewrite exBox_geo; cbn [bind]; rewrite Hf; reflexivity|].
  cbn [current exEq]. nR. split; field; lra.
Qed.

(** C102 — the diagnostic poloidalBeta returns the value asked of ConstrainBetapIp, when the
    profile was evaluated with the flux, boundary and field that the equilibrium still has. *)
Theorem C102_constrained_beta : forall (P Ctl : Type) G spline pi mu0 (e : equilibrium R P Ctl) (E : env (T:=R)) p psi psi' arg J s pb pa m W,
  sees E e (Equilibrium.eqBr G spline e) (Equilibrium.eqBz G spline e) ->
  0 <= alpha_m p -> 0 < alpha_n p ->
  betap_Jtor rpow rquad mu0 E p psi arg = Ok (J, s) -> core_of E psi pb pa m ->
  Raxis p <> 0 -> mu0 <> 0 -> pi <> 0 -> L s <> 0 -> pb <> pa ->
  (* the integral of the shape of the pressure does not vanish *)
  (forall Q v, region_pressure E (fun x => RInt (fun t => rpow (1 - rpow t (alpha_m p)) (alpha_n p)) x 1) pa pb m psi Q ->
     grid_integral E (fun i j => Q i j * gR E i j) v -> v <> 0) ->
  (* the equilibrium has the same flux, axis, boundary and mask *)
  total_psi e = Ok psi' -> (forall i j, psi' i j = psi i j) ->
  Equilibrium.psi_axis (bs e) = Some pa -> Equilibrium.psi_bndry (bs e) = Some (Some pb) -> mask (bs e) = Some m ->
  (* the mask is inside the region of the pressure integral, or where the pressure vanishes *)
  (forall i j, mask_at m i j <> 0 -> 0 <= psinorm pa pb (psi i j) /\ (psinorm pa pb (psi i j) < 1 -> interior E i j)) ->
  field_integral G spline pi e = Ok W -> W <> 0 ->
  poloidalBeta G spline pi mu0 (cpressure rpow rquad p s) e = Ok (target p).
Proof.
  intros P Ctl G spline pi mu0 e E p psi psi' arg J s pb pa m W (Hnx & Hny & Hg) Hm Hn HJ Hcore HRa Hmu Hpi HL Hne Hnz Ht Hpsi Ha Hb Hmk Hreg HW HW0.
  assert (Hs := C34_constrained rpow rquad mu0 E p psi arg J s pb pa m (or_intror HJ) Hcore Hmu). destruct Hs as (Sb & Sa & _).
  assert (HWv := HW). apply torus_ok in HWv. destruct HWv as (m0 & Em & sW & EsW & Wv). assert (m0 = m) by congruence. subst m0.
  destruct (romb2_ok _ _ _ _ EsW) as (kx & ky & Hx & Hy).
  set (pr := cpressure rpow rquad p s).
  set (Pf := fun i j => pr (psinorm pa pb (psi i j)) * mask_at m i j).
  assert (HP : region_pressure E pr pa pb m psi Pf).
  { intros i j. split; [reflexivity|]. intros Hout. unfold Pf. destruct (Req_dec (mask_at m i j) 0) as [->|Hz]; [ring|]. destruct (Hreg i j Hz) as [H0 Hi].
    assert (H1 : 1 <= psinorm pa pb (psi i j)) by (apply Rnot_lt_le; intros H1; apply Hout; auto).
    unfold pr, cpressure, pressure, rquad, cpprime. nR. rewrite (RInt_scal_l (fun y => shape rpow p (nclip y 0 1))) by (apply shape_int; lra).
    rewrite (shape_beyond p) by lra. ring. }
  assert (HP1 : torus_integral pi e m (fun i j => pr (psinorm pa pb (psi i j))) (2 * pi * R2 kx ky (fun i j => pr (psinorm pa pb (psi i j)) * mask_at m i j * R_1D e i) *
     (R_1D e 1%nat - R_1D e 0%nat) * (Z_1D e 1%nat - Z_1D e 0%nat))).
  { eexists. split; [rewrite Hx, Hy; apply romb2_rt|]. reflexivity. }
  assert (Hsp : forall a v, romb2 (e_nx e) (e_ny e) a = Ok v -> grid_integral E a (v * (R_1D e 1%nat - R_1D e 0%nat) * (Z_1D e 1%nat - Z_1D e 0%nat))).
  { intros a v Ev. exists v. rewrite Hnx, Hny. split; [exact Ev|]. destruct (Hg 1%nat 0%nat) as (-> & _). destruct (Hg 0%nat 0%nat) as (-> & -> & _).
    destruct (Hg 0%nat 1%nat) as (_ & -> & _). reflexivity. }
  assert (GP : grid_integral E (fun i j => Pf i j * gR E i j) (R2 kx ky (fun i j => pr (psinorm pa pb (psi i j)) * mask_at m i j * R_1D e i) *
     (R_1D e 1%nat - R_1D e 0%nat) * (Z_1D e 1%nat - Z_1D e 0%nat))).
  { apply (grid_ext _ (fun i j => pr (psinorm pa pb (psi i j)) * mask_at m i j * R_1D e i)).
    - intros i j. destruct (Hg i j) as (-> & _). reflexivity.
    - apply Hsp. rewrite Hx, Hy. apply romb2_rt. }
  assert (GB : grid_integral E (fun i j => (Jtor.eqBr E i j ^ 2 + Jtor.eqBz E i j ^ 2) * mask_at m i j * gR E i j) (sW * (R_1D e 1%nat - R_1D e 0%nat) * (Z_1D e 1%nat - Z_1D e 0%nat))).
  { refine (grid_ext _ _ _ _ _ (Hsp _ _ EsW)). intros i j. destruct (Hg i j) as (-> & _ & -> & ->). unfold Diagnostics.Bpol2, grid_R, grid_Z. nR. ring. }
  assert (HC := C33_poloidal_beta mu0 E p psi arg J s pb pa m Pf _ _ Hm ltac:(lra) HJ Hcore HRa Hmu HL HP GP GB Hne Hnz).
  unfold poloidalBeta, pressure_integral, psiN, axis_and_bndry. rewrite Ht, Ha, Hb. cbn [bind].
  assert (HPI : volume_integral pi e (fun i j => pr ((psi' i j - pa) / (pb - pa))) = Ok (2 * pi * R2 kx ky (fun i j => pr (psinorm pa pb (psi i j)) * mask_at m i j * R_1D e i) *
     (R_1D e 1%nat - R_1D e 0%nat) * (Z_1D e 1%nat - Z_1D e 0%nat))).
  { apply torus_ok. exists m. split; [exact Hmk|]. destruct HP1 as (v & Ev & Eq). exists v. split; [|exact Eq]. rewrite <- Ev, Hx, Hy, !romb2_rt. f_equal.
    apply (R2_ext kx ky). intros i j _ _. rewrite Hpsi. reflexivity. }
  change (cpressure rpow rquad p s) with pr. nR. rewrite HPI. cbn [bind]. rewrite HW. cbn [bind]. f_equal. nR.
  set (A := R2 kx ky _) in *. set (h := R_1D e 1%nat - R_1D e 0%nat) in *. set (k := Z_1D e 1%nat - Z_1D e 0%nat) in *.
  replace (2 * mu0 * (2 * pi * A * h * k)) with (2 * pi * (2 * mu0 * (A * h * k))) by ring. rewrite HC.
  replace (2 * pi * (target p * (sW * h * k))) with (target p * W) by (rewrite Wv; ring). field. exact HW0.
Qed.
Print Assumptions C102_constrained_beta.
(** The example: one call of the profile on the 3x3 grid; beta is 1, as asked for. *)
Example C102_example : exists J s, betap_Jtor rpow rquad 1 exEnv exProf exPsi None = Ok (J, s) /\
  poloidalBeta (fun _ _ _ _ _ => 0) exSpline PI 1 (cpressure rpow rquad exProf s) (exEq (Some (Some (fun _ _ => 1)))) = Ok 1.
Proof.
  destruct C33_example as (J & s & P & Wp & HJ & HP & HWp & Hb). exists J, s. split; [exact HJ|].
  set (e := exEq (Some (Some (fun _ _ => 1)))). destruct (exEq_psi (Some (Some (fun _ _ => 1)))) as (psi & Ep & Hp). assert (HPI := PI_RGT_0).
  assert (HB : forall r z, r <> 0 -> Equilibrium.eqBr (fun _ _ _ _ _ => 0) exSpline e r z = 1 /\ Equilibrium.eqBz (fun _ _ _ _ _ => 0) exSpline e r z = 0).
  { intros r z Hr. unfold Equilibrium.eqBr, Equilibrium.eqBz, plasmaBr, plasmaBz, psi_func, exSpline, machine_field. cbn. nR. split; field; exact Hr. }
  assert (Hpos : forall i, 1 + INR i <> 0) by (intros i; assert (H := pos_INR i); lra).
  assert (HL : L s <> 0).
  { intros H0. (* no pressure: the constraint would fail *)
    assert (Hz : forall x, cpressure rpow rquad exProf s x = 0).
    { intros x. unfold cpressure, pressure, rquad, cpprime. rewrite H0. nR. rewrite (RInt_ext (V:=R_CompleteNormedModule) _ (fun _ => 0)).
      - rewrite RInt_const. unfold scal; cbn; unfold mult; cbn. ring.
      - intros y _. unfold Rdiv. change (0 * Beta0 s * / Raxis exProf * shape rpow exProf (nclip y 0 1) = 0). ring. }
    assert (Wp = 0); [|lra].
    destruct HWp as (v & Ev & ->). change (nx exEnv) with 3%nat in Ev. change (ny exEnv) with 3%nat in Ev. rewrite romb2_3x3 in Ev. injection Ev as <-.
    assert (HPz : forall i j, P i j = 0).
    { intros i j. rewrite (ex_region _ _ HP i j), Hz. ring. }
    rewrite !HPz. field. }
  refine (C102_constrained_beta unit unit _ exSpline PI 1 e exEnv exProf exPsi psi None J s 1 0 (Some (fun _ _ => 1)) (16 * PI) _ _ _ HJ exCore _ _ _ HL _ _ Ep Hp eq_refl eq_refl eq_refl _ _ _); try (cbn; lra).
  - split; [reflexivity|]. split; [reflexivity|]. intros i j. unfold e. rewrite exEq_R, exEq_Z. fold e. cbn [gR gZ exEnv]. split; [reflexivity|]. split; [reflexivity|].
    destruct (HB (1 + INR i) (INR j) (Hpos i)) as [-> ->]. split; reflexivity.
  - intros Q v HQ Hv. apply (grid_ext _ _ (fun i j => (if ((i =? 1) && (j =? 1))%nat then 1 else 0) * (1 / 2 * (1 + INR i)))) in Hv.
    + apply exGrid in Hv. rewrite Hv. cbn. lra.
    + intros i j. rewrite (ex_region _ _ HQ). cbn [gR exEnv].
      assert (E : (RInt (fun t => rpow (1 - rpow t (alpha_m exProf)) (alpha_n exProf)) 0 1 : R) = 1 / 2) by apply exShapeInt.
      cbv beta. rewrite E. ring.
  - intros i j _. rewrite ex_psinorm. unfold exPsi, interior. cbn [nx ny exEnv]. destruct ((i =? 1) && (j =? 1))%nat eqn:E; [|lra].
    apply andb_true_iff in E. destruct E as [E1 E2]. apply Nat.eqb_eq in E1, E2. subst. split; [lra|]. intros _. lia.
  - unfold field_integral. apply torus_ok. exists (Some (fun _ _ => 1)). split; [reflexivity|]. unfold torus_integral. change (e_nx e) with 3%nat. change (e_ny e) with 3%nat.
    rewrite romb2_3x3. eexists. split; [reflexivity|].
    assert (HB2 : forall i j, Diagnostics.Bpol2 (fun _ _ _ _ _ => 0) exSpline e i j = 1).
    { intros i j. unfold Diagnostics.Bpol2, grid_R, grid_Z. unfold e. rewrite exEq_R. fold e. destruct (HB (1 + INR i) (Z_1D e j) (Hpos i)) as [-> ->]. nR. ring. }
    rewrite !HB2. unfold e. rewrite !exEq_R, !exEq_Z. cbn [mask_at INR]. field.
Qed.
