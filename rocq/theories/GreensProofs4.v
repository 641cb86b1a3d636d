(** Elementary bounds of the Green's function. *)
From Coq Require Import Reals Lra Lia Psatz.
From Coquelicot Require Import Coquelicot.
From Verif Require Import Num GradShafranov EllipticSpec EllipticProofs GreensProofs GreensProofs2 GreensProofs3.
Local Open Scope R_scope.

Definition cos_part (m : R) : R := RInt (fun t => cos t ^ 2 * / sqrt (1 - m * sin t ^ 2)) 0 (PI / 2).
Lemma cos2_int : RInt (fun t => cos t ^ 2) 0 (PI / 2) = PI / 4.
Proof.
  apply (is_RInt_unique (V := R_CompleteNormedModule)).
  assert (H : is_RInt (V := R_NormedModule) (fun t => cos t ^ 2) 0 (PI / 2) (minus ((fun t => t / 2 + sin t * cos t / 2) (PI / 2)) ((fun t => t / 2 + sin t * cos t / 2) 0))).
  { apply (is_RInt_derive (V := R_CompleteNormedModule) (fun t => t / 2 + sin t * cos t / 2) (fun t => cos t ^ 2)).
    - intros x _. auto_derive; [exact I|]. assert (X := sin2_cos2 x). unfold Rsqr in X. change (cos x ^ 2) with (cos x * (cos x * 1)). nra.
    - intros x _. apply (ex_derive_continuous (fun t => cos t ^ 2)). auto_derive. exact I. }
  replace (PI / 4) with (minus ((fun t => t / 2 + sin t * cos t / 2) (PI / 2)) ((fun t => t / 2 + sin t * cos t / 2) 0)); [exact H|].
  change ((PI / 2 / 2 + sin (PI / 2) * cos (PI / 2) / 2) - (0 / 2 + sin 0 * cos 0 / 2) = PI / 4). rewrite cos_PI2, sin_0. field.
Qed.
Lemma cos2_ex : ex_RInt (fun t => cos t ^ 2) 0 (PI / 2).
Proof. apply ex_int. intros t. apply (ex_derive_continuous (fun t => cos t ^ 2)). auto_derive. exact I. Qed.
Lemma cos_part_ex m : m < 1 -> ex_RInt (fun t => cos t ^ 2 * / sqrt (1 - m * sin t ^ 2)) 0 (PI / 2).
Proof.
  intros H. apply ex_int. intros t. apply (continuous_mult (fun t => cos t ^ 2)); [|apply invdelta_cont; exact H].
  apply (ex_derive_continuous (fun t => cos t ^ 2)). auto_derive. exact I.
Qed.
Lemma cos_part_bounds m : 0 < m < 1 -> PI / 4 <= cos_part m <= PI / 4 / sqrt (1 - m).
Proof.
  intros H. assert (P := PI_RGT_0). unfold cos_part. assert (S1 : 0 < sqrt (1 - m)) by (apply sqrt_lt_R0; lra).
  assert (B : forall t, 1 - m <= 1 - m * sin t ^ 2 <= 1).
  { intros t. assert (X := sin2_cos2 t). unfold Rsqr in X. assert (0 <= cos t * cos t) by nra. assert (0 <= sin t * sin t) by nra. change (sin t ^ 2) with (sin t * (sin t * 1)). nra. }
  split.
  - rewrite <- cos2_int. apply RInt_le; [lra|apply cos2_ex|apply cos_part_ex; lra|]. intros t _.
    assert (Q := B t). assert (D := sqrt_lt_R0 _ (delta_pos m t ltac:(lra))).
    assert (L : sqrt (1 - m * sin t ^ 2) <= 1) by (apply Rle_trans with (sqrt 1); [apply sqrt_le_1_alt; lra|rewrite sqrt_1; lra]).
    assert (1 <= / sqrt (1 - m * sin t ^ 2)) by (rewrite <- Rinv_1 at 1; apply Rinv_le_contravar; lra).
    assert (0 <= cos t ^ 2) by (apply pow2_ge_0). rewrite <- (Rmult_1_r (cos t ^ 2)) at 1. apply Rmult_le_compat_l; assumption.
  - replace (PI / 4 / sqrt (1 - m)) with (/ sqrt (1 - m) * (PI / 4)) by (unfold Rdiv; ring). rewrite <- cos2_int.
    rewrite <- (rint_scal (fun t => cos t ^ 2)) by exact cos2_ex.
    apply RInt_le; [lra|apply cos_part_ex; lra|apply int_scal, cos2_ex|]. intros t _.
    assert (Q := B t). assert (/ sqrt (1 - m * sin t ^ 2) <= / sqrt (1 - m)) by (apply Rinv_le_contravar; [exact S1|apply sqrt_le_1_alt; lra]).
    assert (0 <= cos t ^ 2) by (apply pow2_ge_0). rewrite Rmult_comm. apply Rmult_le_compat_r; assumption.
Qed.
Lemma F1_cos m : m < 1 -> F1 m = m * cos_part m / (2 * (1 - m)).
Proof. intros H. unfold F1. rewrite (proj1 (E_minus_K m H)). unfold cos_part. field. lra. Qed.
Lemma F_continuity m : m < 1 -> continuity_pt Fm m.
Proof.
  intros H. unfold Fm. apply (continuity_pt_minus (fun m => (2 - m) * ellipK m) (fun m => 2 * ellipE m)).
  - apply (continuity_pt_mult (fun m => 2 - m) ellipK); [|apply K_cont; exact H]. apply continuity_pt_filterlim. apply (ex_derive_continuous (fun m => 2 - m)). auto_derive. exact I.
  - apply (continuity_pt_mult (fun m => 2) ellipE); [|apply E_cont; exact H]. apply continuity_pt_filterlim. apply continuous_const.
Qed.
Lemma F_zero : Fm 0 = 0.
Proof. unfold Fm. destruct K0 as (-> & ->). field. Qed.
Lemma F_lower m : 0 < m < 1 -> PI / 16 * m ^ 2 < Fm m.
Proof.
  intros H. assert (P := PI_RGT_0). cut (0 < Fm m - PI / 16 * m ^ 2); [lra|]. revert m H.
  apply positive_from_zero with (fun m => F1 m - PI / 8 * m).
  - rewrite F_zero. ring.
  - intros m H. apply (continuity_pt_minus Fm (fun m => PI / 16 * m ^ 2)); [apply F_continuity; exact H|].
    apply continuity_pt_filterlim. apply (ex_derive_continuous (fun m => PI / 16 * m ^ 2)). auto_derive. exact I.
  - intros m H. apply d_sub; [apply dF; lra|]. auto_derive; [exact I|]. field.
  - intros m H. rewrite F1_cos by lra. destruct (cos_part_bounds m H) as (B & _).
    assert (A : m * (PI / 4) / (2 * (1 - m)) <= m * cos_part m / (2 * (1 - m))).
    { apply Rmult_le_compat_r; [left; apply Rinv_0_lt_compat; lra|]. apply Rmult_le_compat_l; lra. }
    assert (C : m * (PI / 4) / (2 * (1 - m)) - PI / 8 * m = PI / 8 * m * m / (1 - m)) by (field; lra).
    assert (0 < PI / 8 * m * m / (1 - m)) by (apply Rdiv_lt_0_compat; [apply Rmult_lt_0_compat; [apply Rmult_lt_0_compat|]; lra|lra]). lra.
  - rewrite F1_cos by lra. field.
Qed.
Lemma F_upper m : 0 < m < 1 -> Fm m < PI / 16 * m ^ 2 / ((1 - m) * sqrt (1 - m)).
Proof.
  intros H. assert (P := PI_RGT_0). cut (0 < PI / 16 * m ^ 2 / ((1 - m) * sqrt (1 - m)) - Fm m); [lra|]. revert m H.
  assert (DU : forall m, m < 1 -> is_derive (fun m => PI / 16 * m ^ 2 / ((1 - m) * sqrt (1 - m))) m
     (PI / 8 * m / ((1 - m) * sqrt (1 - m)) + 3 / 32 * PI * m ^ 2 / ((1 - m) * (1 - m) * sqrt (1 - m)))).
  { intros m H. assert (S := sqrt_lt_R0 (1 - m) ltac:(lra)). assert (Q : sqrt (1 - m) * sqrt (1 - m) = 1 - m) by (apply sqrt_sqrt; lra).
    auto_derive.
    - split; [lra|]. split; [|exact I]. apply Rgt_not_eq, Rmult_lt_0_compat; [lra|exact S].
    - replace (1 + - m) with (1 - m) by ring. set (s := sqrt (1 - m)) in *. clearbody s. assert (m = 1 - s * s) by lra. subst m. field. repeat split; lra. }
  apply positive_from_zero with (fun m => PI / 8 * m / ((1 - m) * sqrt (1 - m)) + 3 / 32 * PI * m ^ 2 / ((1 - m) * (1 - m) * sqrt (1 - m)) - F1 m).
  - rewrite F_zero. replace (1 - 0) with 1 by ring. rewrite sqrt_1. field.
  - intros m H. apply (continuity_pt_minus (fun m => PI / 16 * m ^ 2 / ((1 - m) * sqrt (1 - m))) Fm); [|apply F_continuity; exact H].
    apply continuity_pt_filterlim. apply (ex_derive_continuous (fun m => PI / 16 * m ^ 2 / ((1 - m) * sqrt (1 - m)))). eexists. apply DU. exact H.
  - intros m H. apply d_sub; [apply DU; lra|apply dF; lra].
  - intros m H. rewrite F1_cos by lra. destruct (cos_part_bounds m H) as (_ & B). assert (S := sqrt_lt_R0 (1 - m) ltac:(lra)).
    assert (A : m * cos_part m / (2 * (1 - m)) <= m * (PI / 4 / sqrt (1 - m)) / (2 * (1 - m))).
    { apply Rmult_le_compat_r; [left; apply Rinv_0_lt_compat; lra|]. apply Rmult_le_compat_l; lra. }
    assert (C : m * (PI / 4 / sqrt (1 - m)) / (2 * (1 - m)) = PI / 8 * m / ((1 - m) * sqrt (1 - m))) by (field; lra).
    assert (0 < 3 / 32 * PI * m ^ 2 / ((1 - m) * (1 - m) * sqrt (1 - m))).
    { apply Rdiv_lt_0_compat; [apply Rmult_lt_0_compat; [lra|apply pow_lt; lra]|]. apply Rmult_lt_0_compat; [apply Rmult_lt_0_compat; lra|exact S]. } lra.
  - rewrite F1_cos by lra. replace (1 - 0) with 1 by ring. rewrite sqrt_1. field.
Qed.

(** The largest and smallest distance of (r, z) from the loop. *)
Definition dist_far (a h r z : R) : R := sqrt ((r + a) ^ 2 + (z - h) ^ 2).
Definition dist_near (a h r z : R) : R := sqrt ((r - a) ^ 2 + (z - h) ^ 2).
Lemma greens_bounds a h r z : 0 < a -> 0 < r -> 1 / 10 ^ 10 <= MM a h r z <= 1 - 1 / 10 ^ 10 ->
  mu0 * a ^ 2 * r ^ 2 / (4 * dist_far a h r z ^ 3) < Greens ellipK ellipE a h r z < mu0 * a ^ 2 * r ^ 2 / (4 * dist_near a h r z ^ 3).
Proof.
  intros Ha Hr Hm. rewrite (closed_form a h Ha r z Hr Hm), <- Rmult_assoc. assert (HD := DD_pos a h Ha r z Hr). assert (T := tiny). assert (P := PI_RGT_0). assert (M := mu0_pos).
  assert (E1 : dist_far a h r z = sqrt (DD a h r z)) by reflexivity.
  assert (E2 : dist_near a h r z = sqrt (DD a h r z) * sqrt (1 - MM a h r z)).
  { rewrite <- sqrt_mult by lra. unfold dist_near. f_equal. unfold MM. replace (DD a h r z * (1 - 4 * r * a / DD a h r z)) with (DD a h r z - 4 * r * a) by (field; lra). unfold DD. ring. }
  assert (Hra : 4 * r * a = MM a h r z * DD a h r z) by (unfold MM; field; lra).
  rewrite E1, E2. set (m := MM a h r z) in *. set (D := DD a h r z) in *. assert (S := sqrt_lt_R0 _ HD). assert (Q : sqrt D * sqrt D = D) by (apply sqrt_sqrt; lra).
  assert (S1 := sqrt_lt_R0 (1 - m) ltac:(lra)). assert (Q1 : sqrt (1 - m) * sqrt (1 - m) = 1 - m) by (apply sqrt_sqrt; lra).
  assert (L := F_lower m ltac:(lra)). assert (U := F_upper m ltac:(lra)).
  assert (Hra' : 4 * r * a = m * (sqrt D * sqrt D)) by (rewrite Q; exact Hra).
  assert (X : mu0 * a ^ 2 * r ^ 2 / (4 * sqrt D ^ 3) = mu0 / (4 * PI) * sqrt D * (PI / 16 * m ^ 2)).
  { replace (mu0 * a ^ 2 * r ^ 2) with (mu0 * (4 * r * a) ^ 2 / 16) by field. rewrite Hra'. field. lra. }
  assert (Y : mu0 * a ^ 2 * r ^ 2 / (4 * (sqrt D * sqrt (1 - m)) ^ 3) = mu0 / (4 * PI) * sqrt D * (PI / 16 * m ^ 2 / ((1 - m) * sqrt (1 - m)))).
  { replace (mu0 * a ^ 2 * r ^ 2) with (mu0 * (4 * r * a) ^ 2 / 16) by field. rewrite Hra'. transitivity (mu0 / (4 * PI) * sqrt D * (PI / 16 * m ^ 2 / ((sqrt (1 - m) * sqrt (1 - m)) * sqrt (1 - m)))); [field; lra|rewrite Q1; reflexivity]. }
  rewrite X, Y. assert (0 < mu0 / (4 * PI) * sqrt D) by (apply Rmult_lt_0_compat; [apply Rdiv_lt_0_compat; lra|exact S]).
  split; apply Rmult_lt_compat_l; assumption.
Qed.
