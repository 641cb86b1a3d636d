(** Lemmas about the plasma diagnostics. *)
From Coq Require Import List Arith ZArith Bool Reals Lia Lra.
From Verif Require Import Py Num Numpy Romb RombProofs RombExact Coils Machine Boundary BoundarySpec BoundaryProofs Critical Jtor JtorSpec Equilibrium EquilibriumProofs Shape GSSpec Diagnostics DiagnosticsSpec.
Import ListNotations.
Local Open Scope R_scope.

(** dV at a point *)
Definition dV_at {P Ctl} (pi : R) (e : equilibrium R P Ctl) (m : option (nat -> nat -> R)) (i j : nat) : R :=
  2 * pi * R_1D e i * (R_1D e 1%nat - R_1D e 0%nat) * (Z_1D e 1%nat - Z_1D e 0%nat) * mask_at m i j.
Lemma volume_element_ok {P Ctl} pi (e : equilibrium R P Ctl) m : (2 <= e_nx e)%nat -> (2 <= e_ny e)%nat -> mask (bs e) = Some m ->
  exists dV, volume_element pi e = Ok dV /\ forall i j, dV i j = dV_at pi e m i j.
Proof.
  intros Hx Hy Hm. unfold volume_element. rewrite spacing_R_ok, spacing_Z_ok by lia. cbn [bind]. rewrite Hm. destruct m as [m|].
  - eexists. split; [reflexivity|]. intros i j. unfold dV_at, grid_R, grid_Z. cbn [mask_at]. nR. ring.
  - eexists. split; [reflexivity|]. intros i j. unfold dV_at, grid_R, grid_Z. cbn [mask_at]. nR. ring.
Qed.
Lemma volume_integral_ok {P Ctl} pi (e : equilibrium R P Ctl) m kx ky f : e_nx e = S (2 ^ kx) -> e_ny e = S (2 ^ ky) -> mask (bs e) = Some m ->
  volume_integral pi e f = Ok (R2 kx ky (fun i j => f i j * dV_at pi e m i j)).
Proof.
  intros Hx Hy Hm. assert (Px := Nat.pow_nonzero 2 kx ltac:(lia)). assert (Py := Nat.pow_nonzero 2 ky ltac:(lia)).
  destruct (volume_element_ok pi e m ltac:(lia) ltac:(lia) Hm) as (dV & E & HdV). unfold volume_integral. rewrite E. cbn [bind].
  rewrite Hx, Hy, romb2_rt. f_equal. change (R2 kx ky (fun i j => f i j * dV i j) = R2 kx ky (fun i j => f i j * dV_at pi e m i j)).
  apply R2_ext. intros i j _ _. rewrite HdV. reflexivity.
Qed.
Lemma plasmaVolume_ok {P Ctl} pi (e : equilibrium R P Ctl) m kx ky : e_nx e = S (2 ^ kx) -> e_ny e = S (2 ^ ky) -> mask (bs e) = Some m ->
  plasmaVolume pi e = Ok (R2 kx ky (dV_at pi e m)).
Proof.
  intros Hx Hy Hm. assert (Px := Nat.pow_nonzero 2 kx ltac:(lia)). assert (Py := Nat.pow_nonzero 2 ky ltac:(lia)).
  destruct (volume_element_ok pi e m ltac:(lia) ltac:(lia) Hm) as (dV & E & HdV). unfold plasmaVolume. rewrite E. cbn [bind].
  rewrite Hx, Hy, romb2_rt. f_equal. change (R2 kx ky dV = R2 kx ky (dV_at pi e m)).
  apply R2_ext. intros i j _ _. apply HdV.
Qed.
(** the rule integrates a function linear in the first index exactly *)
Lemma R2_line kx ky a b : R2 kx ky (fun i _ => a + b * INR i) = INR (2 ^ ky) * INR (2 ^ kx) * (a + b * INR (2 ^ kx) / 2).
Proof.
  unfold R2. rewrite (rt_ext kx _ (fun i => INR (2 ^ ky) * a + INR (2 ^ ky) * b * INR i)); [|intros t _|lia].
  - rewrite rt_line by lia. field.
  - rewrite (rt_ext ky _ (fun j => (a + b * INR t) + 0 * INR j)) by (intros; try lia; ring). rewrite rt_line by lia. field.
Qed.
Lemma volume_no_mask {P Ctl} pi (e : equilibrium R P Ctl) kx ky : e_nx e = S (2 ^ kx) -> e_ny e = S (2 ^ ky) ->
  R2 kx ky (dV_at pi e None) = pi * (Rmax e ^ 2 - Rmin e ^ 2) * (Zmax e - Zmin e).
Proof.
  intros Hx Hy. assert (Px := Nat.pow_nonzero 2 kx ltac:(lia)). assert (Py := Nat.pow_nonzero 2 ky ltac:(lia)).
  assert (Ix : 0 < INR (2 ^ kx)) by (apply lt_0_INR; lia). assert (Iy : 0 < INR (2 ^ ky)) by (apply lt_0_INR; lia).
  set (N := INR (2 ^ kx)) in *. set (M := INR (2 ^ ky)) in *.
  assert (HR : forall i, R_1D e i = Rmin e + INR i * ((Rmax e - Rmin e) / N)).
  { intros i. unfold R_1D. rewrite linspace_gridpt. unfold gridpt. rewrite Hx. replace (S (2 ^ kx) - 1)%nat with (2 ^ kx)%nat by lia. fold N. field. lra. }
  assert (HZ : forall i, Z_1D e i = Zmin e + INR i * ((Zmax e - Zmin e) / M)).
  { intros i. unfold Z_1D. rewrite linspace_gridpt. unfold gridpt. rewrite Hy. replace (S (2 ^ ky) - 1)%nat with (2 ^ ky)%nat by lia. fold M. field. lra. }
  set (d := (Rmax e - Rmin e) / N). set (c := (Zmax e - Zmin e) / M).
  rewrite (R2_ext kx ky _ (fun i _ => 2 * pi * d * c * Rmin e + 2 * pi * d * c * d * INR i)).
  - rewrite R2_line. fold N M. unfold d, c. field. lra.
  - intros i j _ _. unfold dV_at. cbn [mask_at]. rewrite !HR, !HZ. fold d c. cbn [INR]. ring.
Qed.
Lemma R2_mono kx ky a b : (forall i j, (i <= 2 ^ kx)%nat -> (j <= 2 ^ ky)%nat -> a i j <= b i j) -> R2 kx ky a <= R2 kx ky b.
Proof.
  intros H. assert (H0 : 0 <= R2 kx ky (fun i j => 1 * b i j + (-1) * a i j)).
  { apply R2_nonneg. intros i j Hi Hj. specialize (H i j Hi Hj). lra. }
  rewrite R2_linear in H0. lra.
Qed.
Lemma dV_nonneg {P Ctl} pi (e : equilibrium R P Ctl) m i j : 0 <= pi -> (2 <= e_nx e)%nat -> (2 <= e_ny e)%nat -> (i < e_nx e)%nat ->
  0 <= Rmin e <= Rmax e -> Zmin e <= Zmax e -> 0 <= mask_at m i j ->
  0 <= 2 * pi * R_1D e i * (R_1D e 1%nat - R_1D e 0%nat) * (Z_1D e 1%nat - Z_1D e 0%nat).
Proof.
  intros Hp Hx Hy Hi HR HZ Hm.
  assert (Nx : 0 < INR (e_nx e - 1)) by (apply lt_0_INR; lia). assert (Ny : 0 < INR (e_ny e - 1)) by (apply lt_0_INR; lia).
  assert (A : 0 <= R_1D e i).
  { unfold R_1D. rewrite linspace_gridpt. unfold gridpt. assert (0 <= INR i) by apply pos_INR.
    assert (0 <= (Rmax e - Rmin e) / INR (e_nx e - 1)) by (apply Rmult_le_pos; [lra|left; apply Rinv_0_lt_compat; lra]).
    assert (0 <= INR i * ((Rmax e - Rmin e) / INR (e_nx e - 1))) by (apply Rmult_le_pos; lra). unfold Rdiv in *. lra. }
  assert (B : 0 <= R_1D e 1 - R_1D e 0).
  { unfold R_1D. rewrite !linspace_gridpt. unfold gridpt. cbn [INR].
    assert (0 <= (Rmax e - Rmin e) / INR (e_nx e - 1)) by (apply Rmult_le_pos; [lra|left; apply Rinv_0_lt_compat; lra]). unfold Rdiv in *. lra. }
  assert (C : 0 <= Z_1D e 1 - Z_1D e 0).
  { unfold Z_1D. rewrite !linspace_gridpt. unfold gridpt. cbn [INR].
    assert (0 <= (Zmax e - Zmin e) / INR (e_ny e - 1)) by (apply Rmult_le_pos; [lra|left; apply Rinv_0_lt_compat; lra]). unfold Rdiv in *. lra. }
  repeat apply Rmult_le_pos; lra.
Qed.
Lemma volume_ok_dyadic {P Ctl} pi (e : equilibrium R P Ctl) f v : volume_integral pi e f = Ok v ->
  exists m kx ky, mask (bs e) = Some m /\ e_nx e = S (2 ^ kx) /\ e_ny e = S (2 ^ ky) /\ v = R2 kx ky (fun i j => f i j * dV_at pi e m i j).
Proof.
  intros E. assert (E0 := E). unfold volume_integral in E0. destruct (volume_element pi e) as [dV|] eqn:Ev; [|discriminate]. cbn [bind] in E0.
  destruct (romb2_ok _ _ _ _ E0) as (kx & ky & Hx & Hy). unfold volume_element in Ev.
  destruct (spacing_R _ _ _); [|discriminate]. destruct (spacing_Z _ _ _); [|discriminate]. cbn [bind] in Ev.
  destruct (mask (bs e)) as [m|] eqn:Em; [|discriminate]. exists m, kx, ky. do 3 (split; [assumption || reflexivity|]).
  rewrite (volume_integral_ok pi e m kx ky f Hx Hy Em) in E. injection E as <-. reflexivity.
Qed.
Lemma volume_dyadic {P Ctl} pi (e : equilibrium R P Ctl) v : plasmaVolume pi e = Ok v ->
  exists m kx ky, mask (bs e) = Some m /\ e_nx e = S (2 ^ kx) /\ e_ny e = S (2 ^ ky) /\ v = R2 kx ky (dV_at pi e m).
Proof.
  intros E. assert (E0 := E). unfold plasmaVolume in E0. destruct (volume_element pi e) as [dV|] eqn:Ev; [|discriminate]. cbn [bind] in E0.
  destruct (romb2_ok _ _ _ _ E0) as (kx & ky & Hx & Hy). unfold volume_element in Ev.
  destruct (spacing_R _ _ _); [|discriminate]. destruct (spacing_Z _ _ _); [|discriminate]. cbn [bind] in Ev.
  destruct (mask (bs e)) as [m|] eqn:Em; [|discriminate]. exists m, kx, ky. do 3 (split; [assumption || reflexivity|]).
  rewrite (plasmaVolume_ok pi e m kx ky Hx Hy Em) in E. injection E as <-. reflexivity.
Qed.
Lemma torus_ok {P Ctl} pi (e : equilibrium R P Ctl) f v :
  volume_integral pi e f = Ok v <-> exists m, mask (bs e) = Some m /\ torus_integral pi e m f v.
Proof.
  split.
  - intros E. destruct (volume_ok_dyadic _ _ _ _ E) as (m & kx & ky & Hm & Hx & Hy & ->). exists m. split; [exact Hm|].
    unfold torus_integral. rewrite Hx, Hy. exists (R2 kx ky (fun i j => f i j * mask_at m i j * R_1D e i)). split; [apply romb2_rt|].
    rewrite (R2_ext kx ky _ (fun i j => 2 * pi * (R_1D e 1%nat - R_1D e 0%nat) * (Z_1D e 1%nat - Z_1D e 0%nat) * (f i j * mask_at m i j * R_1D e i))).
    + rewrite R2_scal. ring.
    + intros i j _ _. unfold dV_at. ring.
  - intros (m & Hm & s & Es & ->). destruct (romb2_ok _ _ _ _ Es) as (kx & ky & Hx & Hy).
    rewrite (volume_integral_ok pi e m kx ky f Hx Hy Hm). f_equal. rewrite Hx, Hy, romb2_rt in Es. injection Es as <-.
    change (rt kx _ 1 kx kx) with (R2 kx ky (fun i j => f i j * mask_at m i j * R_1D e i)).
    rewrite (R2_ext kx ky _ (fun i j => 2 * pi * (R_1D e 1%nat - R_1D e 0%nat) * (Z_1D e 1%nat - Z_1D e 0%nat) * (f i j * mask_at m i j * R_1D e i))).
    + rewrite R2_scal. ring.
    + intros i j _ _. unfold dV_at. ring.
Qed.
Lemma romb2_raise nx ny (a : nat -> nat -> R) x : romb2 nx ny a = Raise x -> x = ValueError.
Proof.
  assert (Hr : forall n (y : nat -> R) x, romb n y n1 = Raise x -> x = ValueError).
  { clear. intros n y x E. rewrite romb_bad in E; [congruence|]. intros k Hk. rewrite Hk, romb_rt in E. discriminate. }
  assert (Hm : forall l x, mapM (fun i => romb ny (a i) n1) l = Raise x -> x = ValueError).
  { induction l as [|i l IH]; intros y; cbn [mapM]; [discriminate|]. destruct (romb ny (a i) n1) eqn:E; cbn [bind].
    - destruct (mapM _ l) eqn:El; cbn [bind]; [discriminate|]. intros [= <-]. apply IH. reflexivity.
    - intros [= <-]. exact (Hr _ _ _ E). }
  unfold romb2. destruct (mapM _ _) eqn:E; cbn [bind]; [apply Hr|]. intros [= <-]. exact (Hm _ _ E).
Qed.
Lemma plasmaVolume_integral {P Ctl} pi (e : equilibrium R P Ctl) : plasmaVolume pi e = volume_integral pi e (fun _ _ => 1).
Proof.
  destruct (plasmaVolume pi e) as [v|x] eqn:E.
  - destruct (volume_dyadic _ _ _ E) as (m & kx & ky & Hm & Hx & Hy & ->). rewrite (volume_integral_ok pi e m kx ky _ Hx Hy Hm).
    f_equal. apply R2_ext. intros. ring.
  - destruct (volume_integral pi e (fun _ _ => 1)) as [v|y] eqn:E'.
    + destruct (volume_ok_dyadic _ _ _ _ E') as (m & kx & ky & Hm & Hx & Hy & ->). rewrite (plasmaVolume_ok pi e m kx ky Hx Hy Hm) in E. discriminate.
    + unfold plasmaVolume in E. unfold volume_integral in E'. destruct (volume_element pi e) as [dV|]; [|cbn [bind] in *; congruence]. cbn [bind] in E, E'.
      rewrite (romb2_raise _ _ _ _ E), (romb2_raise _ _ _ _ E'). reflexivity.
Qed.
