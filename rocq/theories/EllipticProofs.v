(** Derivatives of the complete elliptic integrals. *)
From Coq Require Import Reals Lra Lia Psatz.
From Coquelicot Require Import Coquelicot.
From Verif Require Import EllipticSpec.
Local Open Scope R_scope.

Lemma sin2_le t : 0 <= (sin t) ^ 2 <= 1.
Proof. assert (H := sin2_cos2 t). assert (A := Rle_0_sqr (sin t)). assert (B := Rle_0_sqr (cos t)). unfold Rsqr in *. nra. Qed.
Lemma delta_pos m t : m < 1 -> 0 < 1 - m * (sin t) ^ 2.
Proof. intros H. destruct (sin2_le t) as (A & B). destruct (Rle_lt_dec m 0); nra. Qed.
Lemma below_one m : m < 1 -> locally m (fun u => u < 1).
Proof. intros H. apply (open_lt 1 m H). Qed.

Ltac dpos := match goal with H : ?m < 1 |- context [1 - ?m * sin ?t ^ 2] => assert (0 < 1 - m * sin t ^ 2) by (apply delta_pos; exact H) end.

Lemma invdelta_cont m t : m < 1 -> continuous (fun t => / sqrt (1 - m * (sin t) ^ 2)) t.
Proof.
  intros H. apply (ex_derive_continuous (fun t => / sqrt (1 - m * (sin t) ^ 2))). auto_derive.
  assert (P := delta_pos m t H). cbn in P. split; [exact P|]. split; [|exact I]. apply Rgt_not_eq. apply sqrt_lt_R0. exact P.
Qed.
Lemma delta_cont m t : m < 1 -> continuous (fun t => sqrt (1 - m * (sin t) ^ 2)) t.
Proof.
  intros H. apply (ex_derive_continuous (fun t => sqrt (1 - m * (sin t) ^ 2))). auto_derive.
  assert (P := delta_pos m t H). cbn in P. exact P.
Qed.
Lemma invdelta3_cont m t : m < 1 -> continuous (fun t => / (sqrt (1 - m * (sin t) ^ 2)) ^ 3) t.
Proof.
  intros H. apply (ex_derive_continuous (fun t => / (sqrt (1 - m * (sin t) ^ 2)) ^ 3)). auto_derive.
  assert (P := delta_pos m t H). cbn in P. split; [exact P|]. split; [|exact I]. assert (Q := sqrt_lt_R0 _ P). apply Rgt_not_eq. repeat apply Rmult_lt_0_compat; try exact Q. lra.
Qed.
Lemma ex_int (f : R -> R) (a b : R) : (forall t : R, continuous f t) -> ex_RInt f a b.
Proof. intros H. apply (ex_RInt_continuous (V := R_CompleteNormedModule)). intros; apply H. Qed.

Lemma base_2d m t : continuity_2d_pt (fun u v => 1 - u * sin v ^ 2) m t.
Proof.
  apply continuity_2d_pt_minus; [apply continuity_2d_pt_const|]. apply continuity_2d_pt_mult; [apply continuity_2d_pt_id1|].
  apply (continuity_1d_2d_pt_comp (fun v => sin v ^ 2) (fun _ v => v)); [|apply continuity_2d_pt_id2].
  apply continuity_pt_filterlim. apply (ex_derive_continuous (fun v => sin v ^ 2)). auto_derive. exact I.
Qed.
Lemma sin2_2d m t : continuity_2d_pt (fun _ v => sin v ^ 2) m t.
Proof.
  apply (continuity_1d_2d_pt_comp (fun v => sin v ^ 2) (fun _ v => v)); [|apply continuity_2d_pt_id2].
  apply continuity_pt_filterlim. apply (ex_derive_continuous (fun v => sin v ^ 2)). auto_derive. exact I.
Qed.
Lemma below_one_2d (m t : R) (P : R -> R -> Prop) : m < 1 -> (forall u v, u < 1 -> P u v) -> locally_2d P m t.
Proof.
  intros H HP. exists (mkposreal (1 - m) ltac:(lra)). intros u v Hu Hv. apply HP. cbn in Hu. apply Rabs_def2 in Hu. lra.
Qed.

Lemma dE_integral m : m < 1 -> is_derive ellipE m (RInt (fun t => - (sin t ^ 2) / (2 * sqrt (1 - m * (sin t) ^ 2))) 0 (PI / 2)).
Proof.
  intros H.
  assert (D : forall u t, u < 1 -> is_derive (fun u => sqrt (1 - u * (sin t) ^ 2)) u (- (sin t ^ 2) / (2 * sqrt (1 - u * (sin t) ^ 2)))).
  { intros u t Hu. assert (P := delta_pos u t Hu). auto_derive; [exact P|]. replace (1 + - (u * (sin t * (sin t * 1)))) with (1 - u * sin t ^ 2) by ring. field. apply Rgt_not_eq. apply sqrt_lt_R0. exact P. }
  replace (RInt _ 0 (PI / 2)) with (RInt (fun t => Derive (fun u => sqrt (1 - u * (sin t) ^ 2)) m) 0 (PI / 2)).
  2:{ apply RInt_ext. intros t _. apply is_derive_unique. apply D. exact H. }
  apply (is_derive_RInt_param (fun u t => sqrt (1 - u * (sin t) ^ 2))).
  - eapply filter_imp; [|exact (below_one m H)]. cbv beta. intros u Hu t _. eexists. apply D. exact Hu.
  - intros t _. apply continuity_2d_pt_ext_loc with (f := fun u v => - (sin v ^ 2) / (2 * sqrt (1 - u * sin v ^ 2))).
    + apply below_one_2d; [exact H|]. intros u v Hu. symmetry. apply is_derive_unique. apply D. exact Hu.
    + assert (P := delta_pos m t H). apply continuity_2d_pt_mult.
      * apply continuity_2d_pt_opp. apply sin2_2d.
      * apply continuity_2d_pt_inv; [|apply Rgt_not_eq; apply Rmult_lt_0_compat; [lra|apply sqrt_lt_R0; exact P]].
        apply continuity_2d_pt_mult; [apply continuity_2d_pt_const|].
        apply (continuity_1d_2d_pt_comp sqrt); [|apply base_2d]. apply continuity_pt_sqrt. lra.
  - eapply filter_imp; [|exact (below_one m H)]. cbv beta. intros u Hu. apply ex_int. intros t. apply delta_cont. exact Hu.
Qed.

Lemma dK_integral m : m < 1 -> is_derive ellipK m (RInt (fun t => sin t ^ 2 / (2 * sqrt (1 - m * (sin t) ^ 2) ^ 3)) 0 (PI / 2)).
Proof.
  intros H.
  assert (D : forall u t, u < 1 -> is_derive (fun u => / sqrt (1 - u * (sin t) ^ 2)) u (sin t ^ 2 / (2 * sqrt (1 - u * (sin t) ^ 2) ^ 3))).
  { intros u t Hu. assert (P := delta_pos u t Hu). assert (S := sqrt_lt_R0 _ P). auto_derive; [split; [exact P|split; [apply Rgt_not_eq; exact S|exact I]]|].
    replace (1 + - (u * (sin t * (sin t * 1)))) with (1 - u * sin t ^ 2) by ring. field. apply Rgt_not_eq. exact S. }
  replace (RInt _ 0 (PI / 2)) with (RInt (fun t => Derive (fun u => / sqrt (1 - u * (sin t) ^ 2)) m) 0 (PI / 2)).
  2:{ apply RInt_ext. intros t _. apply is_derive_unique. apply D. exact H. }
  apply (is_derive_RInt_param (fun u t => / sqrt (1 - u * (sin t) ^ 2))).
  - eapply filter_imp; [|exact (below_one m H)]. cbv beta. intros u Hu t _. eexists. apply D. exact Hu.
  - intros t _. apply continuity_2d_pt_ext_loc with (f := fun u v => sin v ^ 2 / (2 * sqrt (1 - u * sin v ^ 2) ^ 3)).
    + apply below_one_2d; [exact H|]. intros u v Hu. symmetry. apply is_derive_unique. apply D. exact Hu.
    + assert (P := delta_pos m t H). apply continuity_2d_pt_mult.
      * apply sin2_2d.
      * apply continuity_2d_pt_inv; [|apply Rgt_not_eq; apply Rmult_lt_0_compat; [lra|apply pow_lt; apply sqrt_lt_R0; exact P]].
        apply continuity_2d_pt_mult; [apply continuity_2d_pt_const|].
        apply (continuity_1d_2d_pt_comp (fun x => sqrt x ^ 3) (fun u v => 1 - u * sin v ^ 2)); [|apply base_2d].
        apply continuity_pt_filterlim. apply (continuous_comp sqrt (fun x => x ^ 3)).
        -- apply continuity_pt_filterlim. apply continuity_pt_sqrt. lra.
        -- apply (ex_derive_continuous (fun x => x ^ 3)). auto_derive. exact I.
  - eapply filter_imp; [|exact (below_one m H)]. cbv beta. intros u Hu. apply ex_int. intros t. apply invdelta_cont. exact Hu.
Qed.

(** E as an integral of the cubed root: m sin t cos t / delta is a primitive of delta - (1 - m) / delta^3. *)
Lemma E_cubed m : m < 1 -> ellipE m = (1 - m) * RInt (fun t => / (sqrt (1 - m * (sin t) ^ 2)) ^ 3) 0 (PI / 2).
Proof.
  intros H. set (F := fun t => m * sin t * cos t / sqrt (1 - m * (sin t) ^ 2)).
  assert (D : forall t, is_derive F t (sqrt (1 - m * (sin t) ^ 2) - (1 - m) * / (sqrt (1 - m * (sin t) ^ 2)) ^ 3)).
  { intros t. assert (P := delta_pos m t H). assert (S := sqrt_lt_R0 _ P). unfold F.
    auto_derive; [split; [exact P|split; [apply Rgt_not_eq; exact S|exact I]]|].
    replace (1 + - (m * (sin t * (sin t * 1)))) with (1 - m * sin t ^ 2) by ring.
    set (d := sqrt (1 - m * sin t ^ 2)) in *.
    assert (Hd : d ^ 2 = 1 - m * sin t ^ 2) by (unfold d; rewrite <- Rsqr_pow2; apply Rsqr_sqrt; lra).
    assert (Hc : cos t ^ 2 = 1 - sin t ^ 2). { assert (X := sin2_cos2 t). unfold Rsqr in X. nra. }
    apply Rmult_eq_reg_r with (d ^ 3); [|apply pow_nonzero; lra].
    transitivity (m * (cos t ^ 2 - sin t ^ 2) * d ^ 2 + m * sin t ^ 2 * cos t ^ 2 * m); [field; lra|].
    transitivity ((d ^ 2) ^ 2 - (1 - m)); [|field; lra]. rewrite Hd, Hc. ring. }
  assert (C : forall t, continuous (fun t => sqrt (1 - m * (sin t) ^ 2) - (1 - m) * / (sqrt (1 - m * (sin t) ^ 2)) ^ 3) t).
  { intros t. apply (continuous_minus (V := R_NormedModule)); [apply delta_cont; exact H|].
    apply (continuous_scal_r (V := R_NormedModule) (1 - m) (fun t => / (sqrt (1 - m * (sin t) ^ 2)) ^ 3)). apply invdelta3_cont. exact H. }
  assert (I := is_RInt_derive F _ 0 (PI / 2) (fun t _ => D t) (fun t _ => C t)).
  apply is_RInt_unique in I. unfold F in I. rewrite cos_PI2, sin_0 in I.
  rewrite (RInt_minus (V := R_CompleteNormedModule)) in I.
  2:{ apply ex_int. intros t. apply delta_cont. exact H. }
  2:{ apply ex_int. intros t. apply (continuous_scal_r (V := R_NormedModule) (1 - m) (fun t => / (sqrt (1 - m * (sin t) ^ 2)) ^ 3)). apply invdelta3_cont. exact H. }
  rewrite (RInt_scal (V := R_CompleteNormedModule) (fun t => / (sqrt (1 - m * (sin t) ^ 2)) ^ 3)) in I.
  2:{ apply ex_int. intros t. apply invdelta3_cont. exact H. }
  assert (X : RInt (fun t => sqrt (1 - m * (sin t) ^ 2)) 0 (PI / 2) - (1 - m) * RInt (fun t => / (sqrt (1 - m * (sin t) ^ 2)) ^ 3) 0 (PI / 2) = 0).
  { etransitivity; [exact I|]. unfold minus, plus, opp. cbn. unfold Rdiv. ring. }
  unfold ellipE. lra.
Qed.

Lemma dE m : m < 1 -> m <> 0 -> is_derive ellipE m ((ellipE m - ellipK m) / (2 * m)).
Proof.
  intros H Hm. assert (D := dE_integral m H). replace ((ellipE m - ellipK m) / (2 * m)) with (RInt (fun t => - (sin t ^ 2) / (2 * sqrt (1 - m * (sin t) ^ 2))) 0 (PI / 2)); [exact D|].
  rewrite (RInt_ext _ (fun t => scal (/ (2 * m)) (minus (sqrt (1 - m * sin t ^ 2)) (/ sqrt (1 - m * sin t ^ 2))))).
  2:{ intros t _. assert (P := delta_pos m t H). assert (S := sqrt_lt_R0 _ P). change (- (sin t ^ 2) / (2 * sqrt (1 - m * sin t ^ 2)) = / (2 * m) * (sqrt (1 - m * sin t ^ 2) - / sqrt (1 - m * sin t ^ 2))).
      assert (Hd : sqrt (1 - m * sin t ^ 2) ^ 2 = 1 - m * sin t ^ 2) by (rewrite <- Rsqr_pow2; apply Rsqr_sqrt; lra).
      set (d := sqrt (1 - m * sin t ^ 2)) in *. clearbody d.
      assert (Hs : sin t ^ 2 = (1 - d ^ 2) / m) by (rewrite Hd; field; exact Hm). rewrite Hs.
      field. split; lra. }
  rewrite (RInt_scal (V := R_CompleteNormedModule)), (RInt_minus (V := R_CompleteNormedModule)).
  - change (/ (2 * m) * (ellipE m - ellipK m) = (ellipE m - ellipK m) / (2 * m)). field. exact Hm.
  - apply ex_int. intros t. apply delta_cont. exact H.
  - apply ex_int. intros t. apply invdelta_cont. exact H.
  - apply ex_int. intros t. apply (continuous_minus (V := R_NormedModule)); [apply delta_cont|apply invdelta_cont]; exact H.
Qed.
Lemma dK m : m < 1 -> m <> 0 -> is_derive ellipK m ((ellipE m - (1 - m) * ellipK m) / (2 * m * (1 - m))).
Proof.
  intros H Hm. assert (D := dK_integral m H). assert (X := E_cubed m H).
  replace ((ellipE m - (1 - m) * ellipK m) / (2 * m * (1 - m))) with (RInt (fun t => sin t ^ 2 / (2 * sqrt (1 - m * (sin t) ^ 2) ^ 3)) 0 (PI / 2)); [exact D|].
  rewrite (RInt_ext _ (fun t => scal (/ (2 * m)) (minus (/ sqrt (1 - m * sin t ^ 2) ^ 3) (/ sqrt (1 - m * sin t ^ 2))))).
  2:{ intros t _. assert (P := delta_pos m t H). assert (S := sqrt_lt_R0 _ P). change (sin t ^ 2 / (2 * sqrt (1 - m * sin t ^ 2) ^ 3) = / (2 * m) * (/ sqrt (1 - m * sin t ^ 2) ^ 3 - / sqrt (1 - m * sin t ^ 2))).
      assert (Hd : sqrt (1 - m * sin t ^ 2) ^ 2 = 1 - m * sin t ^ 2) by (rewrite <- Rsqr_pow2; apply Rsqr_sqrt; lra).
      set (d := sqrt (1 - m * sin t ^ 2)) in *. clearbody d.
      assert (Hs : sin t ^ 2 = (1 - d ^ 2) / m) by (rewrite Hd; field; exact Hm). rewrite Hs.
      field. split; lra. }
  rewrite (RInt_scal (V := R_CompleteNormedModule)), (RInt_minus (V := R_CompleteNormedModule)).
  - rewrite X. change (/ (2 * m) * (RInt (fun t => / (sqrt (1 - m * (sin t) ^ 2)) ^ 3) 0 (PI / 2) - ellipK m) =
      ((1 - m) * RInt (fun t => / (sqrt (1 - m * (sin t) ^ 2)) ^ 3) 0 (PI / 2) - (1 - m) * ellipK m) / (2 * m * (1 - m))). field. split; [lra|exact Hm].
  - apply ex_int. intros t. apply invdelta3_cont. exact H.
  - apply ex_int. intros t. apply invdelta_cont. exact H.
  - apply ex_int. intros t. apply (continuous_minus (V := R_NormedModule)); [apply invdelta3_cont|apply invdelta_cont]; exact H.
Qed.
