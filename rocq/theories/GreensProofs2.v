(** The Green's function as the integral of Biot and Savart; its sign and monotonicity. *)
From Coq Require Import Reals Lra Lia Psatz.
From Coquelicot Require Import Coquelicot.
From Verif Require Import Num GradShafranov EllipticSpec EllipticProofs GreensProofs.
Local Open Scope R_scope.

Lemma rint_scal (f : R -> R) (a b c : R) : ex_RInt f a b -> RInt (fun x => c * f x) a b = c * RInt f a b.
Proof. intros H. exact (RInt_scal (V := R_CompleteNormedModule) f a b c H). Qed.
Lemma rint_sub (f g : R -> R) (a b : R) : ex_RInt f a b -> ex_RInt g a b -> RInt (fun x => f x - g x) a b = RInt f a b - RInt g a b.
Proof. intros Hf Hg. exact (RInt_minus (V := R_CompleteNormedModule) f g a b Hf Hg). Qed.
Lemma int_scal (f : R -> R) (a b c : R) : ex_RInt f a b -> ex_RInt (fun x => c * f x) a b.
Proof. intros H. exact (ex_RInt_scal (V := R_NormedModule) f a b c H). Qed.

(** The integrand with 2 theta + pi for phi. *)
Definition half_integrand (m t : R) : R := (2 - m) * / sqrt (1 - m * sin t ^ 2) - 2 * sqrt (1 - m * sin t ^ 2).
Lemma half_cont m t : m < 1 -> continuous (half_integrand m) t.
Proof.
  intros H. unfold half_integrand. apply (continuous_minus (V := R_NormedModule)).
  - apply (continuous_scal_r (V := R_NormedModule) (2 - m) (fun t => / sqrt (1 - m * sin t ^ 2))). apply invdelta_cont. exact H.
  - apply (continuous_scal_r (V := R_NormedModule) 2 (fun t => sqrt (1 - m * sin t ^ 2))). apply delta_cont. exact H.
Qed.
Lemma half_F m : m < 1 -> RInt (half_integrand m) 0 (PI / 2) = Fm m.
Proof.
  intros H. unfold half_integrand.
  assert (IK := ex_int _ 0 (PI / 2) (fun t => invdelta_cont m t H)). assert (IE := ex_int _ 0 (PI / 2) (fun t => delta_cont m t H)).
  rewrite rint_sub by (apply int_scal; assumption). rewrite !rint_scal by assumption. reflexivity.
Qed.
Lemma half_even m : m < 1 -> RInt (half_integrand m) (- (PI / 2)) (PI / 2) = 2 * Fm m.
Proof.
  intros H. rewrite <- (half_F m H).
  rewrite <- (RInt_Chasles (V := R_CompleteNormedModule) (half_integrand m) (- (PI / 2)) 0 (PI / 2)) by (apply ex_int; intros; apply half_cont; exact H).
  assert (E := RInt_comp_lin (V := R_CompleteNormedModule) (half_integrand m) (-1) 0 0 (PI / 2)).
  replace (-1 * 0 + 0) with 0 in E by ring. replace (-1 * (PI / 2) + 0) with (- (PI / 2)) in E by ring.
  specialize (E ltac:(apply ex_int; intros; apply half_cont; exact H)).
  rewrite <- (opp_RInt_swap (V := R_CompleteNormedModule) (half_integrand m) 0 (- (PI / 2))) by (apply ex_int; intros; apply half_cont; exact H). rewrite <- E.
  rewrite (RInt_ext _ (fun y => -1 * half_integrand m y)).
  2:{ intros t _. change (-1 * half_integrand m (-1 * t + 0) = -1 * half_integrand m t). f_equal. unfold half_integrand. replace (-1 * t + 0) with (- t) by ring.
      rewrite sin_neg. replace ((- sin t) ^ 2) with (sin t ^ 2) by ring. reflexivity. }
  rewrite rint_scal by (apply ex_int; intros; apply half_cont; exact H).
  unfold plus, opp. cbn. ring.
Qed.

Lemma biot_savart a h r z : 0 < a -> 0 < r -> 1 / 10 ^ 10 <= MM a h r z <= 1 - 1 / 10 ^ 10 ->
  Greens ellipK ellipE a h r z = loop_flux mu0 a h r z.
Proof.
  intros Ha Hr Hm. rewrite (closed_form a h Ha r z Hr Hm). unfold loop_flux. assert (HD := DD_pos a h Ha r z Hr). assert (T := tiny).
  set (m := MM a h r z) in *. set (D := DD a h r z) in *. assert (S := sqrt_lt_R0 _ HD).
  set (g := fun phi => a * cos phi / sqrt (r ^ 2 + a ^ 2 + (z - h) ^ 2 - 2 * r * a * cos phi)).
  assert (Hra : 4 * r * a = m * D) by (unfold m, MM; fold D; field; apply Rgt_not_eq; exact HD).
  assert (Ph : forall t, r ^ 2 + a ^ 2 + (z - h) ^ 2 - 2 * r * a * cos (2 * t + PI) = D * (1 - m * sin t ^ 2)).
  { intros t. rewrite neg_cos. rewrite cos_2a_sin. replace (D * (1 - m * sin t ^ 2)) with (D - (m * D) * sin t ^ 2) by ring. rewrite <- Hra. unfold D, DD. ring. }
  assert (Hg : forall t, 2 * g (2 * t + PI) = 2 * a / (sqrt D * m) * half_integrand m t).
  { intros t. unfold g. rewrite Ph. assert (P := delta_pos m t ltac:(lra)). rewrite sqrt_mult by lra. rewrite neg_cos, cos_2a_sin.
    unfold half_integrand. assert (Hd : sqrt (1 - m * sin t ^ 2) ^ 2 = 1 - m * sin t ^ 2) by (rewrite <- Rsqr_pow2; apply Rsqr_sqrt; lra).
    assert (S' := sqrt_lt_R0 _ P). set (d := sqrt (1 - m * sin t ^ 2)) in *. clearbody d.
    assert (Hs : sin t * sin t = (1 - d ^ 2) / m) by (rewrite Hd; field; lra).
    replace (- (1 - 2 * sin t * sin t)) with (2 * ((1 - d ^ 2) / m) - 1) by (rewrite <- Hs; ring). field. repeat split; lra. }
  assert (C : forall p, continuous g p).
  { intros p. apply (ex_derive_continuous g). unfold g. auto_derive.
    assert (P : 0 < r ^ 2 + a ^ 2 + (z - h) ^ 2 - 2 * r * a * cos p).
    { replace p with (2 * ((p - PI) / 2) + PI) by field. rewrite Ph. apply Rmult_lt_0_compat; [exact HD|]. apply delta_pos. lra. }
    replace (r * (r * 1) + a * (a * 1) + (z + - h) * ((z + - h) * 1) + - (2 * r * a * cos p)) with (r ^ 2 + a ^ 2 + (z - h) ^ 2 - 2 * r * a * cos p) by ring.
    assert (S' := sqrt_lt_R0 _ P). repeat split; first [exact P|apply Rgt_not_eq; exact S']. }
  assert (E := RInt_comp_lin (V := R_CompleteNormedModule) g 2 PI (- (PI / 2)) (PI / 2)).
  replace (2 * - (PI / 2) + PI) with 0 in E by field. replace (2 * (PI / 2) + PI) with (2 * PI) in E by field.
  rewrite <- E by (apply ex_int; exact C).
  rewrite (RInt_ext _ (fun t => scal (2 * a / (sqrt D * m)) (half_integrand m t))) by (intros t _; apply Hg).
  rewrite (RInt_scal (V := R_CompleteNormedModule)) by (apply ex_int; intros; apply half_cont; lra). rewrite half_even by lra.
  change (scal (2 * a / (sqrt D * m)) (2 * Fm m)) with (2 * a / (sqrt D * m) * (2 * Fm m)).
  assert (Hs : sqrt D * sqrt D = D) by (apply sqrt_sqrt; lra).
  transitivity (mu0 / (4 * PI) * Fm m * (4 * r * a / (m * sqrt D))).
  - rewrite Hra. rewrite <- Hs at 2. field. repeat split; try lra. apply PI_neq0.
  - field. repeat split; try lra. apply PI_neq0.
Qed.

(** ** Sign *)
Lemma E_minus_K m : m < 1 -> ellipE m - (1 - m) * ellipK m = m * RInt (fun t => cos t ^ 2 * / sqrt (1 - m * sin t ^ 2)) 0 (PI / 2) /\
  ellipK m - ellipE m = m * RInt (fun t => sin t ^ 2 * / sqrt (1 - m * sin t ^ 2)) 0 (PI / 2).
Proof.
  intros H.
  assert (CK := fun t => invdelta_cont m t H). assert (CE := fun t => delta_cont m t H).
  assert (IK := ex_int _ 0 (PI / 2) CK). assert (IE := ex_int _ 0 (PI / 2) CE).
  split; unfold ellipE, ellipK.
  - rewrite <- (rint_scal (fun t => / sqrt (1 - m * sin t ^ 2)) 0 (PI / 2) (1 - m)) by exact IK.
    rewrite <- (rint_sub (fun t => sqrt (1 - m * sin t ^ 2)) (fun t => (1 - m) * / sqrt (1 - m * sin t ^ 2))); [|exact IE|apply int_scal; exact IK].
    rewrite <- (rint_scal (fun t => cos t ^ 2 * / sqrt (1 - m * sin t ^ 2)) 0 (PI / 2) m).
    + apply RInt_ext. intros t _. assert (P := delta_pos m t H). assert (S := sqrt_lt_R0 _ P).
      assert (Hd : sqrt (1 - m * sin t ^ 2) ^ 2 = 1 - m * sin t ^ 2) by (rewrite <- Rsqr_pow2; apply Rsqr_sqrt; lra).
      assert (Hc : cos t ^ 2 = 1 - sin t ^ 2). { assert (X := sin2_cos2 t). unfold Rsqr in X. nra. }
      set (d := sqrt (1 - m * sin t ^ 2)) in *. clearbody d. apply Rmult_eq_reg_r with d; [|lra]. transitivity (d ^ 2 - (1 - m)); [field; lra|].
      rewrite Hd, Hc. field. lra.
    + apply ex_int. intros t. apply (continuous_mult (fun t => cos t ^ 2)); [|apply CK]. apply (ex_derive_continuous (fun t => cos t ^ 2)). auto_derive. exact I.
  - rewrite <- (rint_sub (fun t => / sqrt (1 - m * sin t ^ 2)) (fun t => sqrt (1 - m * sin t ^ 2))) by assumption.
    rewrite <- (rint_scal (fun t => sin t ^ 2 * / sqrt (1 - m * sin t ^ 2)) 0 (PI / 2) m).
    + apply RInt_ext. intros t _. assert (P := delta_pos m t H). assert (S := sqrt_lt_R0 _ P).
      assert (Hd : sqrt (1 - m * sin t ^ 2) ^ 2 = 1 - m * sin t ^ 2) by (rewrite <- Rsqr_pow2; apply Rsqr_sqrt; lra).
      set (d := sqrt (1 - m * sin t ^ 2)) in *. clearbody d. apply Rmult_eq_reg_r with d; [|lra]. transitivity (1 - d ^ 2); [field; lra|].
      rewrite Hd. field. lra.
    + apply ex_int. intros t. apply (continuous_mult (fun t => sin t ^ 2)); [|apply CK]. apply (ex_derive_continuous (fun t => sin t ^ 2)). auto_derive. exact I.
Qed.
Lemma cos_part_pos m : m < 1 -> 0 < RInt (fun t => cos t ^ 2 * / sqrt (1 - m * sin t ^ 2)) 0 (PI / 2).
Proof.
  intros H. assert (P := PI_RGT_0). apply RInt_gt_0; [lra| |].
  - intros t Ht. apply Rmult_lt_0_compat; [apply pow_lt; apply cos_gt_0; lra|]. apply Rinv_0_lt_compat. apply sqrt_lt_R0. apply delta_pos. exact H.
  - intros t _. apply (continuous_mult (fun t => cos t ^ 2)); [|apply invdelta_cont; exact H]. apply (ex_derive_continuous (fun t => cos t ^ 2)). auto_derive. exact I.
Qed.
Lemma sin_part_pos m : m < 1 -> 0 < RInt (fun t => sin t ^ 2 * / sqrt (1 - m * sin t ^ 2)) 0 (PI / 2).
Proof.
  intros H. assert (P := PI_RGT_0). apply RInt_gt_0; [lra| |].
  - intros t Ht. apply Rmult_lt_0_compat; [apply pow_lt; apply sin_gt_0; lra|]. apply Rinv_0_lt_compat. apply sqrt_lt_R0. apply delta_pos. exact H.
  - intros t _. apply (continuous_mult (fun t => sin t ^ 2)); [|apply invdelta_cont; exact H]. apply (ex_derive_continuous (fun t => sin t ^ 2)). auto_derive. exact I.
Qed.

(** A function that vanishes at 0 and increases on (0, 1) is positive there. *)
Lemma positive_from_zero (f df : R -> R) : f 0 = 0 -> (forall m, m < 1 -> continuity_pt f m) ->
  (forall m, 0 < m < 1 -> is_derive f m (df m)) -> (forall m, 0 < m < 1 -> 0 < df m) -> df 0 = 0 -> forall m, 0 < m < 1 -> 0 < f m.
Proof.
  intros F0 C D P d0 m Hm.
  destruct (MVT_gen f 0 (m / 2) df) as (c1 & H1 & E1).
  { intros x Hx. rewrite Rmin_left, Rmax_right in Hx by lra. apply D. lra. }
  { intros x Hx. rewrite Rmin_left, Rmax_right in Hx by lra. apply C. lra. }
  destruct (MVT_gen f (m / 2) m df) as (c2 & H2 & E2).
  { intros x Hx. rewrite Rmin_left, Rmax_right in Hx by lra. apply D. lra. }
  { intros x Hx. rewrite Rmin_left, Rmax_right in Hx by lra. apply C. lra. }
  rewrite Rmin_left, Rmax_right in H1, H2 by lra. rewrite F0 in E1.
  assert (0 <= df c1). { destruct (Req_dec c1 0) as [->|]; [lra|]. left. apply P. lra. }
  assert (0 < df c2) by (apply P; lra). nra.
Qed.
Lemma K_cont m : m < 1 -> continuity_pt ellipK m.
Proof. intros H. apply continuity_pt_filterlim. apply (ex_derive_continuous ellipK). eexists. apply dK_integral. exact H. Qed.
Lemma E_cont m : m < 1 -> continuity_pt ellipE m.
Proof. intros H. apply continuity_pt_filterlim. apply (ex_derive_continuous ellipE). eexists. apply dE_integral. exact H. Qed.
Lemma K0 : ellipK 0 = PI / 2 /\ ellipE 0 = PI / 2.
Proof.
  split.
  - unfold ellipK. rewrite (RInt_ext _ (fun _ => 1)).
    + rewrite (RInt_const (V := R_CompleteNormedModule)). change ((PI / 2 - 0) * 1 = PI / 2). ring.
    + intros t _. replace (1 - 0 * sin t ^ 2) with 1 by ring. rewrite sqrt_1. apply Rinv_1.
  - unfold ellipE. rewrite (RInt_ext _ (fun _ => 1)).
    + rewrite (RInt_const (V := R_CompleteNormedModule)). change ((PI / 2 - 0) * 1 = PI / 2). ring.
    + intros t _. replace (1 - 0 * sin t ^ 2) with 1 by ring. apply sqrt_1.
Qed.
Lemma F1_pos m : 0 < m < 1 -> 0 < F1 m.
Proof.
  intros H. unfold F1. rewrite (proj1 (E_minus_K m ltac:(lra))). assert (P := cos_part_pos m ltac:(lra)).
  apply Rdiv_lt_0_compat; [apply Rmult_lt_0_compat; lra|lra].
Qed.
Lemma F_pos m : 0 < m < 1 -> 0 < Fm m.
Proof.
  revert m. apply positive_from_zero with F1.
  - unfold Fm. destruct K0 as (-> & ->). field.
  - intros m H. unfold Fm. apply (continuity_pt_minus (fun m => (2 - m) * ellipK m) (fun m => 2 * ellipE m)).
    + apply (continuity_pt_mult (fun m => 2 - m) ellipK); [|apply K_cont; exact H]. apply continuity_pt_filterlim. apply (ex_derive_continuous (fun m => 2 - m)). auto_derive. exact I.
    + apply (continuity_pt_mult (fun m => 2) ellipE); [|apply E_cont; exact H]. apply continuity_pt_filterlim. apply continuous_const.
  - intros m H. apply dF; lra.
  - apply F1_pos.
  - unfold F1. destruct K0 as (-> & ->). field.
Qed.
(** (2 - m) E - 2 (1 - m) K *)
Definition Hm (m : R) : R := (2 - m) * ellipE m - 2 * (1 - m) * ellipK m.
Lemma H_pos m : 0 < m < 1 -> 0 < Hm m.
Proof.
  revert m. apply positive_from_zero with (fun m => 3 / 2 * (ellipK m - ellipE m)).
  - unfold Hm. destruct K0 as (-> & ->). field.
  - intros m H. unfold Hm. apply (continuity_pt_minus (fun m => (2 - m) * ellipE m) (fun m => 2 * (1 - m) * ellipK m)).
    + apply (continuity_pt_mult (fun m => 2 - m) ellipE); [|apply E_cont; exact H]. apply continuity_pt_filterlim. apply (ex_derive_continuous (fun m => 2 - m)). auto_derive. exact I.
    + apply (continuity_pt_mult (fun m => 2 * (1 - m)) ellipK); [|apply K_cont; exact H]. apply continuity_pt_filterlim. apply (ex_derive_continuous (fun m => 2 * (1 - m))). auto_derive. exact I.
  - intros m H. eapply is_derive_val.
    + unfold Hm. apply d_sub.
      * eapply (d_mul (fun m => 2 - m) ellipE m (-1)); [auto_derive; [exact I|ring]|apply dE; lra].
      * eapply (d_mul (fun m => 2 * (1 - m)) ellipK m (-2)); [auto_derive; [exact I|ring]|apply dK; lra].
    + field. lra.
  - intros m H. rewrite (proj2 (E_minus_K m ltac:(lra))). assert (P := sin_part_pos m ltac:(lra)). assert (0 < m * RInt (fun t => sin t ^ 2 * / sqrt (1 - m * sin t ^ 2)) 0 (PI / 2)) by (apply Rmult_lt_0_compat; lra). lra.
  - destruct K0 as (-> & ->). field.
Qed.

(** ** Monotonicity in the parameter *)
Definition Qm (m : R) : R := Fm m / sqrt m.
Lemma dQ m : 0 < m < 1 -> is_derive Qm m (Hm m / (2 * m * sqrt m * (1 - m))).
Proof.
  intros H. assert (S := sqrt_lt_R0 m ltac:(lra)). assert (Hs : m = sqrt m * sqrt m) by (symmetry; apply sqrt_sqrt; lra). eapply is_derive_val.
  - unfold Qm. apply (d_div Fm sqrt); [apply dF; lra| |lra]. apply (is_derive_sqrt (fun x => x)); [|lra]. apply (is_derive_id (K := R_AbsRing)).
  - unfold F1, Fm, Hm. change one with 1. set (s := sqrt m) in *. clearbody s. subst m. field. nra.
Qed.
