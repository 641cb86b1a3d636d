(** The rays along which find_safety looks for flux surfaces. *)
From Coq Require Import List Arith ZArith Bool Reals Lra Lia.
From Verif Require Import Py Num Numpy Critical CriticalSpec CriticalProofs PropCritical Safety.
Import ListNotations.
Local Open Scope R_scope.

Lemma mapM_each {A B} (F : A -> result B) : forall l ps, mapM F l = Ok ps ->
  length ps = length l /\ forall k t, nth_error l k = Some t -> exists p, nth_error ps k = Some p /\ F t = Ok p.
Proof.
  induction l as [|t l IH]; intros pts E; cbn [mapM] in E.
  - injection E as <-. split; [reflexivity|]. intros k t Hk. destruct k; discriminate.
  - destruct (F t) as [p|] eqn:Ep; [|discriminate]. cbn [bind] in E. destruct (mapM F l) as [ps|] eqn:El; [|discriminate]. cbn [bind] in E. injection E as <-.
    destruct (IH _ eq_refl) as (IL & IH'). split; [cbn; rewrite IL; reflexivity|]. intros [|k] s Hk; cbn in *; [injection Hk as <-; exists p; auto|apply IH', Hk].
Qed.

(** ** C158 *)
(** One point for every angle: on the segment from the axis to the point of the ellipse with the
    widths of the domain as half axes, inside the domain, and at the crossing of the value where there is one. *)
Theorem C158_points : forall Rmin Rmax Zmin Zmax g r0 z0 thetas v pts,
  Rmin <= r0 <= Rmax -> Zmin <= z0 <= Zmax ->
  surface sin cos Rmin Rmax Zmin Zmax g r0 z0 thetas v = Ok pts ->
  length pts = length thetas /\
  forall k theta, nth_error thetas k = Some theta -> exists r z, nth_error pts k = Some (r, z) /\
    (exists t, 0 <= t <= 1 /\ r = r0 + t * ((Rmax - Rmin) * sin theta) /\ z = z0 + t * ((Zmax - Zmin) * cos theta)) /\
    (Rmin - tol <= r <= Rmax + tol /\ Zmin - tol <= z <= Zmax + tol) /\
    exists re ze, ray_end Rmin Rmax Zmin Zmax r0 z0 (r0 + (Rmax - Rmin) * sin theta) (z0 + (Zmax - Zmin) * cos theta) re ze /\
      ((exists i, (i < 100)%nat /\ v < g (sample r0 re 100 i) (sample z0 ze 100 i)) -> g r0 z0 <= v -> crossing g r0 z0 re ze v 100 r z).
Proof.
  intros Rmin Rmax Zmin Zmax g r0 z0 thetas v pts HR HZ E. unfold surface in E. apply mapM_each in E as (L & H). split; [exact L|].
  intros k theta Hk. destruct (H k theta Hk) as (p & Hp & Ep). cbv beta in Ep. nR.
  destruct (find_psisurface _ _ _ _ _ _ _ _ _ _ _) as [[[r z] w]|] eqn:Ef in Ep; [|discriminate]. cbn [bind fst] in Ep. injection Ep as <-.
  exists r, z. split; [exact Hp|].
  destruct (C44_on_ray_in_domain _ _ _ _ _ _ _ _ _ _ _ _ _ _ HR HZ Ef) as ((t & Ht & Er & Ez) & B1 & B2 & _).
  split; [exists t; split; [exact Ht|]; split; [rewrite Er; ring|rewrite Ez; ring]|]. split; [split; assumption|].
  exact (proj2 (C44_on_surface _ _ _ _ _ _ _ _ _ _ _ _ _ _ HR HZ Ef)).
Qed.
Print Assumptions C158_points.
(** It always returns. *)
Theorem C158_returns : forall Rmin Rmax Zmin Zmax (g : R -> R -> R) r0 z0 thetas v,
  exists pts, surface sin cos Rmin Rmax Zmin Zmax g r0 z0 thetas v = Ok pts.
Proof.
  intros. unfold surface. induction thetas as [|t l IH]; [exists []; reflexivity|]. destruct IH as (pts & E). cbn [mapM].
  destruct (C44_returns Rmin Rmax Zmin Zmax g r0 z0 (nadd r0 (nmul (nsub Rmax Rmin) (sin t))) (nadd z0 (nmul (nsub Zmax Zmin) (cos t))) v 100 ltac:(lia)) as (p & Ep).
  rewrite Ep. cbn [bind]. rewrite E. cbn [bind]. eexists. reflexivity.
Qed.
Print Assumptions C158_returns.
Example C158_example : exists pts, surface sin cos 1 2 (-1) 1 (fun r z => z) (3 / 2) 0 [0; PI / 2] (1 / 2) = Ok pts /\ length pts = 2%nat /\
  exists z, nth_error pts 0 = Some (3 / 2, z) /\ 0 <= z <= 1 + tol.
Proof.
  destruct (C158_returns 1 2 (-1) 1 (fun r z => z) (3 / 2) 0 [0; PI / 2] (1 / 2)) as (pts & E). exists pts. split; [exact E|].
  destruct (C158_points 1 2 (-1) 1 _ (3 / 2) 0 _ _ _ ltac:(lra) ltac:(lra) E) as (L & H). split; [exact L|].
  destruct (H 0%nat 0 eq_refl) as (r & z & Hn & (t & Ht & -> & Ez) & (_ & B) & _). rewrite sin_0 in Hn. rewrite cos_0 in Ez.
  exists z. rewrite Hn. split; [do 2 f_equal; ring|]. lra.
Qed.

(** ** C159 *)
(** False: the rays are not at the angles of the grid, and one can go through the X-point although the angles
    of the grid have been found to be clear of it.  A domain of width 1 and height sqrt 3. *)
Theorem C159_rays_refuted : exists Rmin Rmax Zmin Zmax r0 z0 (x : R * R * R) thetas theta t,
  Rmin < r0 < Rmax /\ Zmin < z0 < Zmax /\ Rmin < fst (fst x) < Rmax /\ Zmin < snd (fst x) < Zmax /\
  theta_grid PI atan2 8 r0 z0 x = Ok thetas /\ In theta thetas /\
  atan2 ((Rmax - Rmin) * sin theta) ((Zmax - Zmin) * cos theta) <> theta /\
  0 < t < 1 /\ fst (fst x) = r0 + t * ((Rmax - Rmin) * sin theta) /\ snd (fst x) = z0 + t * ((Zmax - Zmin) * cos theta).
Proof.
  assert (Hpi := PI2_3_2). assert (Hpi4 := PI_4).
  assert (S3 : 0 < sqrt 3) by (apply sqrt_lt_R0; lra). assert (Q3 : sqrt 3 * sqrt 3 = 3) by (apply sqrt_sqrt; lra).
  assert (S2 : 0 < sqrt 2) by (apply sqrt_lt_R0; lra). assert (Q2 : sqrt 2 * sqrt 2 = 2) by (apply sqrt_sqrt; lra).
  assert (A : forall c, 0 < c -> atan2 c (sqrt 3 * c) = PI / 6).
  { intros c Hc. unfold atan2. assert (0 < sqrt 3 * c) by (apply Rmult_lt_0_compat; assumption). destruct (Rlt_dec 0 (sqrt 3 * c)); [|lra].
    replace (c / (sqrt 3 * c)) with (tan (PI / 6)) by (rewrite tan_PI6; field; lra). apply atan_tan. lra. }
  exists 1, 2, (- (sqrt 3 / 2)), (sqrt 3 / 2), (3 / 2), 0, (3 / 2 + 1 / 8, sqrt 3 * (1 / 8), 0),
    (map (fun k => INR k * (2 * PI / 8)) (seq 0 8)), (PI / 4), (sqrt 2 / 8). cbn [fst snd].
  split; [lra|]. split; [lra|]. split; [lra|]. split; [lra|]. split.
  { unfold theta_grid. cbn [Nat.ltb Nat.leb]. unfold pR, pZ. cbn [fst snd nsub Num_R].
    replace (3 / 2 + 1 / 8 - 3 / 2) with (1 / 8) by lra. rewrite Rminus_0_r. rewrite A by lra.
    nR. rewrite (proj2 (R_ltb_false (PI / 6) 0)) by lra. replace (existsb _ _) with false.
    + f_equal. apply map_ext. intros k. rewrite <- INR_IZR_INZ. reflexivity.
    + symmetry. apply not_true_is_false. intros He. apply existsb_exists in He. destruct He as (t & Hin & Hlt). rewrite nabs_R in Hlt. apply R_ltb_true in Hlt.
      apply in_map_iff in Hin. destruct Hin as (k & <- & Hk). apply in_seq in Hk. rewrite <- !INR_IZR_INZ in Hlt.
      replace (INR 8) with 8 in Hlt by (cbn; lra). apply Rabs_def2 in Hlt. destruct k as [|k]; [cbn in Hlt; lra|].
      assert (0 <= INR k) by apply pos_INR. rewrite S_INR in Hlt. assert (0 <= INR k * PI) by (apply Rmult_le_pos; lra). lra. }
  split; [right; left; cbn; lra|].
  assert (Es : sin (PI / 4) = / sqrt 2) by (rewrite sin_PI4; field; lra). assert (Ec : cos (PI / 4) = / sqrt 2) by (rewrite cos_PI4; field; lra).
  assert (I2 : 0 < / sqrt 2) by (apply Rinv_0_lt_compat; assumption).
  rewrite Es, Ec. split.
  - replace ((2 - 1) * / sqrt 2) with (/ sqrt 2) by ring. replace ((sqrt 3 / 2 - - (sqrt 3 / 2)) * / sqrt 2) with (sqrt 3 * / sqrt 2) by (field; lra).
    rewrite A by exact I2. lra.
  - split; [split; [lra|]; nra|]. split; [field; lra|field; lra].
Qed.
Print Assumptions C159_rays_refuted.
(** True for domains as wide as high: with C93_shift_or_clear the rays keep clear of the X-point. *)
Theorem C159_square : forall Rmin Rmax Zmin Zmax g r0 z0 thetas v pts, Rmax - Rmin = Zmax - Zmin ->
  Rmin <= r0 <= Rmax -> Zmin <= z0 <= Zmax ->
  surface sin cos Rmin Rmax Zmin Zmax g r0 z0 thetas v = Ok pts ->
  forall k theta, nth_error thetas k = Some theta -> exists s, 0 <= s <= Rmax - Rmin /\
    nth_error pts k = Some (r0 + s * sin theta, z0 + s * cos theta).
Proof.
  intros Rmin Rmax Zmin Zmax g r0 z0 thetas v pts Hsq HR HZ E k theta Hk.
  destruct (proj2 (C158_points _ _ _ _ _ _ _ _ _ _ HR HZ E) k theta Hk) as (r & z & Hn & (t & Ht & -> & ->) & _).
  exists (t * (Rmax - Rmin)). split; [assert (0 <= Rmax - Rmin) by lra; nra|]. rewrite Hn, <- Hsq. do 2 f_equal; ring.
Qed.
Print Assumptions C159_square.
Example C159_example : exists pts s, surface sin cos 1 2 (-1 / 2) (1 / 2) (fun r z => z) (3 / 2) 0 [0; PI / 4] (1 / 2) = Ok pts /\ 0 <= s <= 1 /\
  nth_error pts 1 = Some (3 / 2 + s * sin (PI / 4), 0 + s * cos (PI / 4)).
Proof.
  destruct (C158_returns 1 2 (-1 / 2) (1 / 2) (fun r z => z) (3 / 2) 0 [0; PI / 4] (1 / 2)) as (pts & E).
  destruct (C159_square 1 2 (-1 / 2) (1 / 2) _ (3 / 2) 0 _ _ _ ltac:(lra) ltac:(lra) ltac:(lra) E 1%nat (PI / 4) eq_refl) as (s & Hs & Hn).
  exists pts, s. split; [exact E|]. split; [lra|exact Hn].
Qed.
