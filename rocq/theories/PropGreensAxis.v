(** The Green's functions near the axis. *)
From Coq Require Import Reals ZArith Lra Lia Psatz.
From Coquelicot Require Import Coquelicot.
From Verif Require Import Num GradShafranov EllipticSpec EllipticProofs GreensProofs GreensProofs2 GreensProofs3 GreensProofs4 GreensFloat PropGreens.
Local Open Scope R_scope.

(** ** C161 *)
(** The flux is within elementary bounds: those of the loop with all of its current at the far side,
    and with all of it at the near side. *)
Theorem C161_bounds : forall a h r z, resolved a h r z ->
  mu0 * a ^ 2 * r ^ 2 / (4 * sqrt ((r + a) ^ 2 + (z - h) ^ 2) ^ 3) < green a h r z /\
  green a h r z < mu0 * a ^ 2 * r ^ 2 / (4 * sqrt ((r - a) ^ 2 + (z - h) ^ 2) ^ 3).
Proof.
  intros a h r z H. destruct (resolved_unclipped _ _ _ _ H) as (Ha & Hr & Hm). apply greens_bounds; lra.
Qed.
Print Assumptions C161_bounds.
Example C161_example : mu0 * 1 ^ 2 * 1 ^ 2 / (4 * sqrt ((1 + 1) ^ 2 + (1 - 0) ^ 2) ^ 3) < green 1 0 1 1 /\
  green 1 0 1 1 < mu0 / 4.
Proof.
  destruct (C161_bounds 1 0 1 1) as (L & U); [apply resolved_ex; lra|]. split; [exact L|].
  replace ((1 - 1) ^ 2 + (1 - 0) ^ 2) with 1 in U by ring. rewrite sqrt_1 in U. lra.
Qed.
Lemma greens_at_axis a h z : green a h 0 z = 0.
Proof. rewrite greens_Q. rewrite Rmult_0_l, sqrt_0. ring. Qed.
Lemma far_le a d e : 0 < a -> 0 < e -> 0 < sqrt ((e + a) ^ 2 + d ^ 2) <= sqrt (a ^ 2 + d ^ 2) + e.
Proof.
  intros Ha He. assert (P : 0 < (e + a) ^ 2 + d ^ 2) by nra. split; [apply sqrt_lt_R0; exact P|].
  assert (P' : 0 < a ^ 2 + d ^ 2) by nra. assert (S := sqrt_lt_R0 _ P'). assert (Q : sqrt (a ^ 2 + d ^ 2) * sqrt (a ^ 2 + d ^ 2) = a ^ 2 + d ^ 2) by (apply sqrt_sqrt; lra).
  rewrite <- (sqrt_pow2 (sqrt (a ^ 2 + d ^ 2) + e)) by lra. apply sqrt_le_1_alt.
  assert (a <= sqrt (a ^ 2 + d ^ 2)). { rewrite <- (sqrt_pow2 a) at 1 by lra. apply sqrt_le_1_alt. nra. } nra.
Qed.
Lemma near_ge a d e : 0 < a -> 0 < e < sqrt (a ^ 2 + d ^ 2) -> sqrt (a ^ 2 + d ^ 2) - e <= sqrt ((e - a) ^ 2 + d ^ 2).
Proof.
  intros Ha He. assert (P' : 0 < a ^ 2 + d ^ 2) by nra. assert (Q : sqrt (a ^ 2 + d ^ 2) * sqrt (a ^ 2 + d ^ 2) = a ^ 2 + d ^ 2) by (apply sqrt_sqrt; lra).
  rewrite <- (sqrt_pow2 (sqrt (a ^ 2 + d ^ 2) - e)) by lra. apply sqrt_le_1_alt.
  assert (a <= sqrt (a ^ 2 + d ^ 2)). { rewrite <- (sqrt_pow2 a) at 1 by lra. apply sqrt_le_1_alt. nra. } nra.
Qed.
(** At R = eps the vertical field of GreensBz is the field mu0 a^2 / (2 rho^3) on the axis of a loop,
    rho being the distance from the loop, up to a change of rho by 2 eps. *)
Theorem C161_axis : forall eps a h z, 0 < eps -> 2 * eps < sqrt (a ^ 2 + (z - h) ^ 2) -> resolved a h (2 * eps) z ->
  mu0 * a ^ 2 / (2 * (sqrt (a ^ 2 + (z - h) ^ 2) + 2 * eps) ^ 3) < GreensBz ellipK ellipE eps a h eps z /\
  GreensBz ellipK ellipE eps a h eps z < mu0 * a ^ 2 / (2 * (sqrt (a ^ 2 + (z - h) ^ 2) - 2 * eps) ^ 3).
Proof.
  intros eps a h z He Hs H. assert (Ha := proj1 H). destruct (C161_bounds _ _ _ _ H) as (L & U). assert (M := mu0_pos).
  destruct (far_le a (z - h) (2 * eps) Ha ltac:(lra)) as (F0 & F). assert (N := near_ge a (z - h) (2 * eps) Ha ltac:(lra)).
  unfold GreensBz. replace (eps + eps) with (2 * eps) by ring. replace (eps - eps) with 0 by ring. rewrite greens_at_axis, Rminus_0_r.
  set (rho := sqrt (a ^ 2 + (z - h) ^ 2)) in *. set (f := sqrt ((2 * eps + a) ^ 2 + (z - h) ^ 2)) in *. set (n := sqrt ((2 * eps - a) ^ 2 + (z - h) ^ 2)) in *.
  set (G := green a h (2 * eps) z) in *. clearbody rho f n G.
  assert (E : forall x, 0 < x -> mu0 * a ^ 2 * (2 * eps) ^ 2 / (4 * x ^ 3) / (2 * eps * eps) = mu0 * a ^ 2 / (2 * x ^ 3)) by (intros x Hx; field; lra).
  assert (I : 0 < / (2 * eps * eps)) by (apply Rinv_0_lt_compat; nra).
  assert (Mono : forall x y, 0 < x <= y -> mu0 * a ^ 2 / (2 * y ^ 3) <= mu0 * a ^ 2 / (2 * x ^ 3)).
  { intros x y Hxy. apply Rmult_le_compat_l; [assert (0 < a ^ 2) by (apply pow_lt; lra); nra|]. apply Rinv_le_contravar; [assert (0 < x ^ 3) by (apply pow_lt; lra); lra|].
    apply Rmult_le_compat_l; [lra|]. apply pow_incr. lra. }
  split.
  - apply Rle_lt_trans with (mu0 * a ^ 2 / (2 * f ^ 3)); [apply Mono; lra|]. rewrite <- E by lra. apply Rmult_lt_compat_r; assumption.
  - apply Rlt_le_trans with (mu0 * a ^ 2 / (2 * n ^ 3)); [|apply Mono; lra]. rewrite <- E by lra. apply Rmult_lt_compat_r; assumption.
Qed.
Print Assumptions C161_axis.
(** The coil of test_machine.py's test_coil_axis: radius 1.5, height 1.  In its plane the field on the
    axis is mu0 / 3. *)
Example C161_axis_example : resolved (3 / 2) 1 (2 * eps_default) 1 /\
  995 / 1000 * (mu0 / 3) < GreensBz ellipK ellipE eps_default (3 / 2) 1 eps_default 1 < 1005 / 1000 * (mu0 / 3).
Proof.
  assert (R : resolved (3 / 2) 1 (2 * eps_default) 1) by (unfold eps_default; apply resolved_ex; lra). split; [exact R|].
  assert (Q : sqrt ((3 / 2) ^ 2 + (1 - 1) ^ 2) = 3 / 2). { replace ((3 / 2) ^ 2 + (1 - 1) ^ 2) with ((3 / 2) ^ 2) by ring. apply sqrt_pow2. lra. }
  destruct (C161_axis eps_default (3 / 2) 1 1) as (L & U); [unfold eps_default; lra|rewrite Q; unfold eps_default; lra|exact R|].
  rewrite Q in L, U. assert (M := mu0_pos). unfold eps_default in *. split; lra.
Qed.

(** ** C162 *)
Lemma fGreens_ok a h r z : 0 < a -> 0 <= r -> fGreens ellipK ellipE a h r z = Some (green a h r z).
Proof.
  intros Ha Hr. assert (P : 0 < (r + a) ^ 2 + (z - h) ^ 2) by (assert (0 < (r + a) ^ 2) by (apply pow_lt; lra); assert (0 <= (z - h) ^ 2) by (apply pow2_ge_0); lra). assert (K : fdiv (Some (4 * r * a)) (Some ((r + a) ^ 2 + (z - h) ^ 2)) = Some (MM a h r z)).
  { unfold fdiv. destruct (Req_EM_T ((r + a) ^ 2 + (z - h) ^ 2) 0) as [F|_]; [lra|reflexivity]. }
  unfold fGreens. cbv zeta. rewrite K. cbn [fclip]. unfold Greens. cbv zeta. change (4 * r * a / ((r + a) ^ 2 + (z - h) ^ 2)) with (MM a h r z).
  rewrite nclip_R. fold (clipped (MM a h r z)).
  destruct (clipped_in (MM a h r z)) as (C0 & C1). unfold fsqrt. destruct (Rlt_dec (clipped (MM a h r z)) 0) as [F|_]; [lra|].
  destruct (Rlt_dec (r * a) 0) as [F|_]; [nra|]. unfold fmul, fsub, fapp, fdiv. destruct (Req_EM_T (sqrt (clipped (MM a h r z))) 0) as [F|_].
  - assert (S := sqrt_lt_R0 _ C0). lra.
  - reflexivity.
Qed.
Lemma fGreens_nan a h r z : 0 < a -> r < 0 -> fGreens ellipK ellipE a h r z = None.
Proof.
  intros Ha Hr. assert (K : fsqrt (r * a) = None) by (unfold fsqrt; destruct (Rlt_dec (r * a) 0) as [_|F]; [reflexivity|exfalso; apply F; nra]).
  unfold fGreens. cbv zeta. rewrite K. reflexivity.
Qed.
(** At every radius that is at least the step of the difference the fields are numbers, those of the
    model over the reals; so is the flux at every radius. *)
Theorem C162_defined : forall eps a h r z, 0 < eps -> 0 < a -> 0 < r ->
  fGreens ellipK ellipE a h r z = Some (green a h r z) /\
  fGreensBr ellipK ellipE eps a h r z = Some (GreensBr ellipK ellipE eps a h r z) /\
  (eps <= r -> fGreensBz ellipK ellipE eps a h r z = Some (GreensBz ellipK ellipE eps a h r z)).
Proof.
  intros eps a h r z He Ha Hr. split; [apply fGreens_ok; lra|]. split; [|intros Hre].
  - unfold fGreensBr. rewrite !fGreens_ok by lra. unfold fsub, fdiv. destruct (Req_EM_T (2 * eps * r) 0) as [F|_]; [nra|reflexivity].
  - unfold fGreensBz. rewrite !fGreens_ok by lra. unfold fsub, fdiv. destruct (Req_EM_T (2 * eps * r) 0) as [F|_]; [nra|reflexivity].
Qed.
Print Assumptions C162_defined.
Example C162_example : fGreensBz ellipK ellipE eps_default (3 / 2) 1 eps_default 2 = Some (GreensBz ellipK ellipE eps_default (3 / 2) 1 eps_default 2).
Proof. apply C162_defined; unfold eps_default; lra. Qed.

(** ** C163 *)
(** Closer to the axis than the step the vertical field is not a number, for every coil and height:
    Greens takes the square root of a negative radius. *)
Theorem C163_near_axis_nan : forall eps a h r z, 0 < a -> 0 < r < eps -> fGreensBz ellipK ellipE eps a h r z = None.
Proof. intros eps a h r z Ha Hr. unfold fGreensBz. rewrite (fGreens_nan a h (r - eps)) by lra. destruct (fGreens _ _ _ _ _ _); reflexivity. Qed.
Print Assumptions C163_near_axis_nan.
(** On the axis the flux is 0 and both fields are not numbers: the radial field is 0 / 0. *)
Theorem C163_on_axis_nan : forall eps a h z, 0 < a -> 0 < eps ->
  fGreens ellipK ellipE a h 0 z = Some 0 /\ fGreensBr ellipK ellipE eps a h 0 z = None /\ fGreensBz ellipK ellipE eps a h 0 z = None.
Proof.
  intros eps a h z Ha He.
  assert (G : forall y, fGreens ellipK ellipE a h 0 y = Some 0).
  { intros y. rewrite fGreens_ok by lra. f_equal. unfold Greens. cbv zeta. rewrite Rmult_0_l, sqrt_0. unfold Rdiv. ring. }
  split; [apply G|]. split.
  - unfold fGreensBr. rewrite !G. unfold fsub, fdiv. destruct (Req_EM_T (2 * eps * 0) 0) as [_|F]; [reflexivity|exfalso; apply F; ring].
  - unfold fGreensBz. rewrite (fGreens_nan a h (0 - eps)) by lra. destruct (fGreens _ _ _ _ _ _); reflexivity.
Qed.
Print Assumptions C163_on_axis_nan.
Theorem C163_vertical_field_refuted : exists a h r z, 0 < a /\ 0 < r /\ resolved a h r z /\ fGreensBz ellipK ellipE eps_default a h r z = None /\
  exists b, fGreensBr ellipK ellipE eps_default a h r z = Some b.
Proof.
  exists (3 / 2), 1, (1 / 10000), 2. split; [lra|]. split; [lra|]. split; [apply resolved_ex; lra|]. split.
  - apply C163_near_axis_nan; unfold eps_default; lra.
  - eexists. apply C162_defined; unfold eps_default; lra.
Qed.
Print Assumptions C163_vertical_field_refuted.
Example C163_example : fGreensBz ellipK ellipE eps_default 1 0 (1 / 2000) 0 = None.
Proof. apply C163_near_axis_nan; unfold eps_default; lra. Qed.
