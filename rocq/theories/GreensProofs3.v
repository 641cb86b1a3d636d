(** Sign and monotonicity of the Green's function, its sums, and the limit of the field formulae. *)
From Coq Require Import String List Reals Lra Lia.
From Coquelicot Require Import Coquelicot.
From Verif Require Import Num Numpy GradShafranov Coils Machine MachineSpec MachineProofs EllipticSpec EllipticProofs GreensProofs GreensProofs2.
Import ListNotations.
Local Open Scope R_scope.

Lemma Q_pos m : 0 < m < 1 -> 0 < Qm m.
Proof. intros H. apply Rdiv_lt_0_compat; [apply F_pos, H|apply sqrt_lt_R0; lra]. Qed.
Lemma Q_incr m1 m2 : 0 < m1 -> m1 < m2 -> m2 < 1 -> Qm m1 < Qm m2.
Proof.
  intros H1 H2 H3.
  destruct (MVT_gen Qm m1 m2 (fun m => Hm m / (2 * m * sqrt m * (1 - m)))) as (c & Hc & E).
  - intros x Hx. rewrite Rmin_left, Rmax_right in Hx by lra. apply dQ. lra.
  - intros x Hx. rewrite Rmin_left, Rmax_right in Hx by lra. apply continuity_pt_filterlim.
    apply (ex_derive_continuous Qm x). eexists. apply dQ. lra.
  - rewrite Rmin_left, Rmax_right in Hc by lra. assert (0 < Hm c / (2 * c * sqrt c * (1 - c))).
    { apply Rdiv_lt_0_compat; [apply H_pos; lra|]. assert (0 < sqrt c) by (apply sqrt_lt_R0; lra).
      repeat apply Rmult_lt_0_compat; lra. }
    assert (0 < (Hm c / (2 * c * sqrt c * (1 - c))) * (m2 - m1)) by (apply Rmult_lt_0_compat; lra). lra.
Qed.

Definition clipped (m : R) : R := Rmin (Rmax m (1 / 10 ^ 10)) (1 - 1 / 10 ^ 10).
Lemma clipped_in m : 0 < clipped m < 1.
Proof.
  assert (T := tiny). unfold clipped. split.
  - apply Rmin_glb_lt; [|lra]. apply Rlt_le_trans with (1 / 10 ^ 10); [lra|apply Rmax_r].
  - eapply Rle_lt_trans; [apply Rmin_r|lra].
Qed.
Lemma clipped_le m1 m2 : m1 <= m2 -> clipped m1 <= clipped m2.
Proof. intros H. unfold clipped. apply Rle_min_compat_r, Rle_max_compat_r, H. Qed.
Lemma clipped_id m : 1 / 10 ^ 10 <= m <= 1 - 1 / 10 ^ 10 -> clipped m = m.
Proof. intros H. unfold clipped. rewrite Rmax_left, Rmin_left; lra. Qed.
Lemma greens_Q a h r z : Greens ellipK ellipE a h r z = mu0 / (2 * PI) * sqrt (r * a) * Qm (clipped (MM a h r z)).
Proof.
  unfold Greens. cbv zeta. change (4 * r * a / ((r + a) ^ 2 + (z - h) ^ 2)) with (MM a h r z).
  rewrite nclip_R. fold (clipped (MM a h r z)). unfold Qm, Fm. unfold Rdiv. ring.
Qed.
Lemma mu0_pos : 0 < mu0.
Proof. unfold mu0. assert (H := PI_RGT_0). apply Rmult_lt_0_compat; [|exact H]. apply Rdiv_lt_0_compat; [lra|apply pow_lt; lra]. Qed.
Lemma pref_pos a r : 0 < a -> 0 < r -> 0 < mu0 / (2 * PI) * sqrt (r * a).
Proof.
  intros Ha Hr. assert (H := PI_RGT_0). assert (M := mu0_pos). apply Rmult_lt_0_compat; [apply Rdiv_lt_0_compat; lra|].
  apply sqrt_lt_R0, Rmult_lt_0_compat; assumption.
Qed.
Lemma greens_pos a h r z : 0 < a -> 0 < r -> 0 < Greens ellipK ellipE a h r z.
Proof. intros Ha Hr. rewrite greens_Q. apply Rmult_lt_0_compat; [apply pref_pos; assumption|apply Q_pos, clipped_in]. Qed.
Lemma Q_mono m1 m2 : 0 < m1 -> m1 <= m2 -> m2 < 1 -> Qm m1 <= Qm m2.
Proof. intros H1 [H| ->] H3; [left; apply Q_incr; assumption|right; reflexivity]. Qed.

(** DD in the distance from the plane of the loop *)
Lemma DD_le a h r z1 z2 : Rabs (z1 - h) <= Rabs (z2 - h) -> DD a h r z1 <= DD a h r z2.
Proof. intros H. unfold DD. assert ((z1 - h) ^ 2 <= (z2 - h) ^ 2); [|lra]. rewrite <- (pow2_abs (z1 - h)), <- (pow2_abs (z2 - h)). apply pow_incr. split; [apply Rabs_pos|exact H]. Qed.
Lemma DD_lt a h r z1 z2 : Rabs (z1 - h) < Rabs (z2 - h) -> DD a h r z1 < DD a h r z2.
Proof.
  intros H. unfold DD. assert ((z1 - h) ^ 2 < (z2 - h) ^ 2); [|lra]. rewrite <- (pow2_abs (z1 - h)), <- (pow2_abs (z2 - h)).
  assert (P := Rabs_pos (z1 - h)). nra.
Qed.
Lemma greens_height a h r z1 z2 : 0 < a -> 0 < r -> Rabs (z1 - h) <= Rabs (z2 - h) ->
  Greens ellipK ellipE a h r z2 <= Greens ellipK ellipE a h r z1.
Proof.
  intros Ha Hr Hz. rewrite !greens_Q. apply Rmult_le_compat_l; [left; apply pref_pos; assumption|].
  apply Q_mono; [apply clipped_in| |apply clipped_in]. apply clipped_le. unfold MM, Rdiv.
  apply Rmult_le_compat_l; [assert (0 < r * a) by (apply Rmult_lt_0_compat; assumption); lra|].
  apply Rinv_le_contravar; [apply DD_pos; assumption|apply DD_le, Hz].
Qed.
Lemma greens_height_strict a h r z1 z2 : 0 < a -> 0 < r -> Rabs (z1 - h) < Rabs (z2 - h) ->
  1 / 10 ^ 10 <= MM a h r z2 -> MM a h r z1 <= 1 - 1 / 10 ^ 10 -> Greens ellipK ellipE a h r z2 < Greens ellipK ellipE a h r z1.
Proof.
  intros Ha Hr Hz H1 H2. rewrite !greens_Q. apply Rmult_lt_compat_l; [apply pref_pos; assumption|].
  assert (HM : MM a h r z2 < MM a h r z1).
  { unfold MM, Rdiv. assert (0 < r * a) by (apply Rmult_lt_0_compat; assumption). apply Rmult_lt_compat_l; [lra|].
    apply Rinv_lt_contravar; [apply Rmult_lt_0_compat; apply DD_pos; assumption|apply DD_lt, Hz]. }
  rewrite !clipped_id by lra. assert (T := tiny). apply Q_incr; lra.
Qed.

Lemma shift_abs h z e : 0 <= e -> h <= z -> Rabs (z - e - h) <= Rabs (z + e - h).
Proof. intros. rewrite (Rabs_pos_eq (z + e - h)) by lra. apply Rabs_le. lra. Qed.
Lemma shift_abs' h z e : 0 <= e -> z <= h -> Rabs (z + e - h) <= Rabs (z - e - h).
Proof. intros. rewrite (Rabs_left1 (z - e - h)) by lra. apply Rabs_le. lra. Qed.
Lemma Br_above eps a h r z : 0 < eps -> 0 < a -> 0 < r -> h <= z -> 0 <= GreensBr ellipK ellipE eps a h r z.
Proof.
  intros He Ha Hr Hz. unfold GreensBr. apply Rmult_le_pos.
  - assert (H := greens_height a h r (z - eps) (z + eps) Ha Hr (shift_abs h z eps (Rlt_le _ _ He) Hz)). lra.
  - left. apply Rinv_0_lt_compat. repeat apply Rmult_lt_0_compat; lra.
Qed.
Lemma Br_below eps a h r z : 0 < eps -> 0 < a -> 0 < r -> z <= h -> GreensBr ellipK ellipE eps a h r z <= 0.
Proof.
  intros He Ha Hr Hz. unfold GreensBr.
  assert (H := greens_height a h r (z + eps) (z - eps) Ha Hr (shift_abs' h z eps (Rlt_le _ _ He) Hz)).
  assert (0 < / (2 * eps * r)) by (apply Rinv_0_lt_compat; repeat apply Rmult_lt_0_compat; lra).
  unfold Rdiv. nra.
Qed.

(** ** Sums *)
Lemma is_gs_add f g r z u v : is_gs f r z u -> is_gs g r z v -> is_gs (fun r z => f r z + g r z) r z (u + v).
Proof.
  intros (fr & frr & fz & fzz & A1 & A2 & A3 & A4 & A5) (gr & grr & gz & gzz & B1 & B2 & B3 & B4 & B5).
  exists (fun x => fr x + gr x), (frr + grr), (fun y => fz y + gz y), (fzz + gzz). refine (conj _ (conj _ (conj _ (conj _ _)))).
  - generalize (filter_and _ _ A1 B1). apply filter_imp. intros x [p q]. apply (d_add (fun x => f x z) (fun x => g x z)); assumption.
  - apply (d_add fr gr); assumption.
  - generalize (filter_and _ _ A3 B3). apply filter_imp. intros y [p q]. apply (d_add (fun y => f r y) (fun y => g r y)); assumption.
  - apply (d_add fz gz); assumption.
  - rewrite A5, B5. unfold Rdiv. ring.
Qed.
Lemma is_gs_scal c f r z u : is_gs f r z u -> is_gs (fun r z => c * f r z) r z (c * u).
Proof.
  intros (fr & frr & fz & fzz & A1 & A2 & A3 & A4 & A5).
  exists (fun x => c * fr x), (c * frr), (fun y => c * fz y), (c * fzz). refine (conj _ (conj _ (conj _ (conj _ _)))).
  - generalize A1. apply filter_imp. intros x p. apply (d_cst (fun x => f x z)); assumption.
  - apply (d_cst fr); assumption.
  - generalize A3. apply filter_imp. intros y p. apply (d_cst (fun y => f r y)); assumption.
  - apply (d_cst fz); assumption.
  - rewrite A5. unfold Rdiv. ring.
Qed.
Lemma is_gs_zero r z : is_gs (fun _ _ => 0) r z 0.
Proof.
  exists (fun _ => 0), 0, (fun _ => 0), 0.
  assert (K : forall x : R, is_derive (fun _ : R => 0) x 0) by (intros; apply (@Derive.is_derive_const R_AbsRing R_NormedModule)).
  refine (conj _ (conj _ (conj _ (conj _ _)))); try apply K; try (apply filter_forall; intros; apply K). unfold Rdiv. ring.
Qed.
Lemma is_gs_ext f g r z v : (forall r z, f r z = g r z) -> is_gs f r z v -> is_gs g r z v.
Proof.
  intros E (fr & frr & fz & fzz & A1 & A2 & A3 & A4 & A5). exists fr, frr, fz, fzz. refine (conj _ (conj _ (conj _ (conj _ _)))); try assumption.
  - generalize A1. apply filter_imp. intros x p. exact (Derive.is_derive_ext (fun t => f t z) (fun t => g t z) x _ (fun t => E t z) p).
  - generalize A3. apply filter_imp. intros y p. exact (Derive.is_derive_ext (fun t => f r t) (fun t => g r t) y _ (fun t => E r t) p).
Qed.
Lemma gs_filaments (l : list filament) r z :
  List.Forall (fun p => 0 < fst (fst p) /\ unclipped (fst (fst p)) (snd (fst p)) r z) l ->
  is_gs (field_of (green_kernel ellipK ellipE) FPsi l) r z 0.
Proof.
  induction l as [|[[a h] w] l IH]; intros H.
  - eapply is_gs_ext; [|apply is_gs_zero]. intros. reflexivity.
  - assert (H1 := Forall_inv H). apply Forall_inv_tail in H. cbn [fst snd] in H1. destruct H1 as (Ha & Hu).
    eapply is_gs_ext; [|replace 0 with (w * 0 + 0) by ring; apply is_gs_add; [apply is_gs_scal, (vacuum a h Ha r z Hu)|apply IH, H]].
    intros x y. unfold field_of. cbn [map]. rewrite lsum_cons. reflexivity.
Qed.

(** ** Small steps *)
Lemma central_limit (f : R -> R) x l : is_derive f x l ->
  is_lim (fun e => (f (x + e) - f (x - e)) / (2 * e)) 0 l.
Proof.
  intros H. apply is_derive_Reals in H. apply is_lim_spec. intros eps.
  destruct (H eps (cond_pos eps)) as (d & Hd).
  exists d. intros e He Hne. change (Rabs (e - 0) < d) in He.
  rewrite Rminus_0_r in He.
  assert (A := Hd e Hne He). assert (B := Hd (- e) (Ropp_neq_0_compat _ Hne) ltac:(rewrite Rabs_Ropp; exact He)).
  replace ((f (x + e) - f (x - e)) / (2 * e) - l) with
    (/ 2 * ((f (x + e) - f x) / e - l) + / 2 * ((f (x + - e) - f x) / (- e) - l)).
  2:{ unfold Rminus. field. assumption. }
  eapply Rle_lt_trans; [apply Rabs_triang|]. rewrite !Rabs_mult, (Rabs_pos_eq (/ 2)) by lra. lra.
Qed.

Lemma resolved_unclipped a h r z : resolved a h r z -> 0 < a /\ unclipped a h r z.
Proof.
  intros (Ha & Hr & H1 & H2). split; [exact Ha|]. split; [exact Hr|]. assert (HD := DD_pos a h Ha r z Hr). unfold MM.
  assert (E : (r - a) ^ 2 + (z - h) ^ 2 = DD a h r z - 4 * r * a) by (unfold DD; ring). rewrite E in H2.
  fold (DD a h r z) in H1, H2. set (t := 10 ^ 10) in *. clearbody t. split.
  - apply (Rmult_lt_reg_r (DD a h r z)); [exact HD|]. replace (4 * r * a / DD a h r z * DD a h r z) with (4 * r * a) by (field; lra).
    unfold Rdiv in *. lra.
  - apply (Rmult_lt_reg_r (DD a h r z)); [exact HD|]. replace (4 * r * a / DD a h r z * DD a h r z) with (4 * r * a) by (field; lra).
    unfold Rdiv in *. lra.
Qed.
