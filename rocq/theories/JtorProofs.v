(** Lemmas about the profile classes. *)
From Coq Require Import List Arith ZArith Bool Reals Lra Lia.
From Coquelicot Require Import Coquelicot.
From Verif Require Import Py Num Numpy Romb RombProofs Jtor JtorSpec.
Import ListNotations.
Local Open Scope R_scope.

(** ** Powers *)
Lemma rpow_pos x a : 0 < x -> rpow x a = Rpower x a.
Proof. intros Hx. unfold rpow. destruct (Req_EM_T x 0); [lra|reflexivity]. Qed.
Lemma rpow_0l a : 0 < a -> rpow 0 a = 0.
Proof. intros Ha. unfold rpow. destruct (Req_EM_T 0 0); [|lra]. destruct (Req_EM_T a 0); [lra|reflexivity]. Qed.
Lemma rpow_0r x : rpow x 0 = 1.
Proof.
  unfold rpow. destruct (Req_EM_T x 0); [destruct (Req_EM_T 0 0); [reflexivity|lra]|].
  unfold Rpower. rewrite Rmult_0_l. apply exp_0.
Qed.
Lemma rpow_1l a : rpow 1 a = 1.
Proof. rewrite rpow_pos by lra. unfold Rpower. rewrite ln_1, Rmult_0_r. apply exp_0. Qed.
Lemma rpow_nonneg x a : 0 <= x -> 0 <= rpow x a.
Proof.
  intros Hx. unfold rpow. destruct (Req_EM_T x 0); [destruct (Req_EM_T a 0); lra|].
  unfold Rpower. apply Rlt_le, exp_pos.
Qed.
Lemma rpow_gt0 x a : 0 < x -> 0 < rpow x a.
Proof. intros Hx. rewrite rpow_pos by exact Hx. unfold Rpower. apply exp_pos. Qed.
Lemma rpow_le1 x a : 0 <= x <= 1 -> 0 <= a -> rpow x a <= 1.
Proof.
  intros Hx Ha. unfold rpow. destruct (Req_EM_T x 0); [destruct (Req_EM_T a 0); lra|].
  unfold Rpower. rewrite <- exp_0. destruct (Rle_lt_or_eq_dec x 1 ltac:(lra)) as [Hx1| ->].
  - assert (Hln : ln x < 0) by (rewrite <- ln_1; apply ln_increasing; lra).
    destruct (Rle_lt_or_eq_dec 0 a Ha) as [Ha0|<-].
    + apply Rlt_le, exp_increasing. assert (H := Rmult_lt_0_compat _ _ Ha0 (Ropp_0_gt_lt_contravar _ Hln)). lra.
    + rewrite Rmult_0_l. lra.
  - rewrite ln_1, Rmult_0_r. lra.
Qed.
Lemma rpow_lt1 x a : 0 <= x < 1 -> 0 < a -> rpow x a < 1.
Proof.
  intros Hx Ha. destruct (Rle_lt_or_eq_dec 0 x ltac:(lra)) as [Hx0|<-]; [|rewrite rpow_0l by exact Ha; lra].
  rewrite rpow_pos by exact Hx0. unfold Rpower. rewrite <- exp_0. apply exp_increasing.
  assert (Hln : ln x < 0) by (rewrite <- ln_1; apply ln_increasing; lra).
  assert (H := Rmult_lt_0_compat _ _ Ha (Ropp_0_gt_lt_contravar _ Hln)). lra.
Qed.
Lemma rpow_cont a : 0 < a -> forall y, continuous (fun y => rpow (Rmax 0 y) a) y.
Proof.
  intros Ha y. destruct (Rtotal_order y 0) as [Hy|[->|Hy]].
  - apply (continuous_ext_loc _ (fun _ => 0)).
    + exists (mkposreal (- y) ltac:(lra)). intros z Hz. unfold ball in Hz; cbn in Hz; unfold AbsRing_ball, abs, minus, plus, opp in Hz; cbn in Hz.
      apply Rabs_def2 in Hz. rewrite Rmax_left by lra. rewrite rpow_0l by exact Ha. reflexivity.
    + apply continuous_const.
  - intros P [eps HP]. rewrite Rmax_left in HP by lra. rewrite rpow_0l in HP by exact Ha.
    set (d := Rpower eps (/ a)). assert (Hd : 0 < d) by apply exp_pos.
    exists (mkposreal d Hd). intros z Hz. apply HP.
    unfold ball in Hz |- *; cbn in Hz |- *; unfold AbsRing_ball, abs, minus, plus, opp in Hz |- *; cbn in Hz |- *.
    rewrite Ropp_0, Rplus_0_r in Hz |- *. apply Rabs_def2 in Hz.
    destruct (Rle_dec z 0) as [Hz0|Hz0].
    + rewrite Rmax_left, rpow_0l, Rabs_R0 by lra. apply cond_pos.
    + rewrite Rmax_right by lra. rewrite rpow_pos by lra. rewrite Rabs_right by (apply Rle_ge, Rlt_le, exp_pos).
      replace (pos eps) with (Rpower d a).
      * apply Rlt_Rpower_l; lra.
      * unfold d. rewrite Rpower_mult, Rinv_l, Rpower_1 by (try lra; apply cond_pos). reflexivity.
  - apply (continuous_ext_loc _ (fun y => exp (a * ln y))).
    + exists (mkposreal y Hy). intros z Hz. unfold ball in Hz; cbn in Hz; unfold AbsRing_ball, abs, minus, plus, opp in Hz; cbn in Hz.
      apply Rabs_def2 in Hz. rewrite Rmax_right by lra. rewrite rpow_pos by lra. reflexivity.
    + apply (ex_derive_continuous (fun y => exp (a * ln y))). auto_derive. exact Hy.
Qed.
Lemma cont_max0 y : continuous (fun y => Rmax 0 y) y.
Proof.
  apply (continuous_ext (fun y => (y + Rabs y) / 2)).
  - intros z. unfold Rmax, Rabs. destruct (Rle_dec 0 z), (Rcase_abs z); lra.
  - apply (continuous_mult (fun y => y + Rabs y) (fun _ => / 2)); [|apply continuous_const].
    apply (continuous_plus (fun y => y) Rabs); [apply continuous_id|]. apply continuous_Rabs.
Qed.
Lemma clip_form y : nclip y 0 1 = 1 - Rmax 0 (1 - Rmax 0 y).
Proof. rewrite nclip_R. unfold Rmin, Rmax. repeat destruct (Rle_dec _ _); lra. Qed.
Lemma clip_id y : 0 <= y <= 1 -> nclip y 0 1 = y.
Proof. intros Hy. rewrite nclip_R, Rmax_left, Rmin_left; lra. Qed.
Lemma clip_hi y : 1 <= y -> nclip y 0 1 = 1.
Proof. intros Hy. rewrite nclip_R, Rmax_left, Rmin_right; lra. Qed.
Lemma clip_lo y : y <= 0 -> nclip y 0 1 = 0.
Proof. intros Hy. rewrite nclip_R, Rmax_right, Rmin_left; lra. Qed.
Lemma clip_cont y : continuous (fun y => nclip y 0 1) y.
Proof.
  apply (continuous_ext (fun y => 1 - Rmax 0 (1 - Rmax 0 y))); [intros; rewrite clip_form; reflexivity|].
  apply (continuous_minus (fun _ => 1) (fun y => Rmax 0 (1 - Rmax 0 y))); [apply continuous_const|].
  apply (continuous_comp (fun y => 1 - Rmax 0 y) (Rmax 0)); [|apply cont_max0].
  apply (continuous_minus (fun _ => 1) (Rmax 0)); [apply continuous_const|apply cont_max0].
Qed.

(** ** The profile shape *)
Notation rshape := (shape rpow).
Notation cshape p y := (shape rpow p (nclip y 0 1)).
Section Shape.
  Variable p : cprofile (T:=R).
  Hypothesis Hm : 0 <= alpha_m p.
  Hypothesis Hn : 0 <= alpha_n p.
  Lemma shape_unfold x : rshape p x = rpow (1 - rpow x (alpha_m p)) (alpha_n p).
  Proof. reflexivity. Qed.
  Lemma shape_bounds x : 0 <= x <= 1 -> 0 <= rshape p x <= 1.
  Proof.
    intros Hx. rewrite shape_unfold. assert (H1 := rpow_nonneg x (alpha_m p) ltac:(lra)). assert (H2 := rpow_le1 x _ Hx Hm).
    split; [apply rpow_nonneg; lra|apply rpow_le1; lra].
  Qed.
  Lemma shape_cont y : continuous (fun y => cshape p y) y.
  Proof.
    destruct (Rle_lt_or_eq_dec 0 _ Hn) as [Hn0|Hn0].
    2:{ apply (continuous_ext (fun _ => 1)); [|apply continuous_const]. intros z. rewrite shape_unfold, <- Hn0, rpow_0r. reflexivity. }
    destruct (Rle_lt_or_eq_dec 0 _ Hm) as [Hm0|Hm0].
    2:{ apply (continuous_ext (fun _ => 0)); [|apply continuous_const]. intros z. rewrite shape_unfold, <- Hm0, rpow_0r.
        replace (1 - 1) with 0 by lra. rewrite rpow_0l by exact Hn0. reflexivity. }
    apply (continuous_ext (fun y => rpow (Rmax 0 (1 - rpow (Rmax 0 (nclip y 0 1)) (alpha_m p))) (alpha_n p))).
    { intros z. rewrite shape_unfold. assert (Hb := nclip_bounds z 0 1 ltac:(lra)). rewrite (Rmax_right 0 (nclip z 0 1)) by apply Hb.
      rewrite Rmax_right; [reflexivity|]. assert (H := rpow_le1 (nclip z 0 1) (alpha_m p) Hb Hm). lra. }
    apply (continuous_comp (fun y => 1 - rpow (Rmax 0 (nclip y 0 1)) (alpha_m p)) (fun t => rpow (Rmax 0 t) (alpha_n p))); [|apply rpow_cont, Hn0].
    apply (continuous_minus (fun _ => 1) (fun y => rpow (Rmax 0 (nclip y 0 1)) (alpha_m p))); [apply continuous_const|].
    apply (continuous_comp (fun y => nclip y 0 1) (fun t => rpow (Rmax 0 t) (alpha_m p))); [apply clip_cont|apply rpow_cont, Hm0].
  Qed.
  Lemma shape_int a b : ex_RInt (fun y => cshape p y) a b.
  Proof. apply (ex_RInt_continuous (V:=R_CompleteNormedModule)). intros; apply shape_cont. Qed.
  (** inside [0,1] the clip makes no difference to the integral up to 1 *)
  Lemma shape_quad x : 0 <= x <= 1 -> RInt (rshape p) x 1 = RInt (fun y => cshape p y) x 1.
  Proof.
    intros Hx. apply (RInt_ext (V:=R_CompleteNormedModule)). intros y Hy. rewrite Rmin_left, Rmax_right in Hy by lra.
    rewrite clip_id by lra. reflexivity.
  Qed.
  Lemma shape_axis : 0 < alpha_m p -> rshape p 0 = 1.
  Proof. intros H. rewrite shape_unfold, (rpow_0l _ H). replace (1 - 0) with 1 by lra. apply rpow_1l. Qed.
  Lemma shape_edge : 0 < alpha_n p -> rshape p 1 = 0.
  Proof. intros H. rewrite shape_unfold, rpow_1l. replace (1 - 1) with 0 by lra. apply rpow_0l, H. Qed.
  Lemma shape_pos x : 0 < alpha_m p -> 0 <= x < 1 -> 0 < rshape p x.
  Proof. intros H Hx. rewrite shape_unfold. apply rpow_gt0. assert (H' := rpow_lt1 x _ Hx H). lra. Qed.
  Lemma shape_int_pos x : 0 < alpha_m p -> 0 <= x < 1 -> 0 < RInt (rshape p) x 1.
  Proof.
    intros H Hx. rewrite shape_quad by lra. apply RInt_gt_0; [lra| |intros; apply shape_cont].
    intros y Hy. rewrite clip_id by lra. apply shape_pos; [exact H|lra].
  Qed.
  Lemma shape_beyond x : 1 <= x -> 0 < alpha_n p -> RInt (fun y => cshape p y) x 1 = 0.
  Proof.
    intros Hx H. rewrite (RInt_ext (V:=R_CompleteNormedModule) _ (fun _ => 0)).
    - rewrite RInt_const. unfold scal; cbn; unfold mult; cbn. lra.
    - intros y Hy. rewrite Rmin_right, Rmax_left in Hy by lra. rewrite clip_hi by lra. apply shape_edge, H.
  Qed.
End Shape.

(** ** Integrals of the profile gradients *)
Lemma RInt_scal_l (f : R -> R) a b k : ex_RInt f a b -> RInt (fun y => k * f y) a b = k * RInt f a b.
Proof. intros Hf. apply (RInt_scal (V:=R_CompleteNormedModule) f a b k Hf). Qed.
Lemma int_derive (f : R -> R) (x : R) : (forall y, continuous f y) -> is_derive (fun x => RInt f x 1) x (- f x).
Proof.
  intros Hf. apply (is_derive_RInt' f (fun x => RInt f x 1) x 1); [|apply Hf].
  exists (mkposreal 1 ltac:(lra)). intros y _. apply (RInt_correct (V:=R_CompleteNormedModule)).
  apply (ex_RInt_continuous (V:=R_CompleteNormedModule)). intros; apply Hf.
Qed.
Lemma psinorm_derive pa pb psi : pb <> pa -> is_derive (psinorm pa pb) psi (/ (pb - pa)).
Proof. intros Hne. unfold psinorm. auto_derive; [exact I|]. field. lra. Qed.
Lemma int_psi_derive (f : R -> R) pa pb psi : pb <> pa -> (forall y, continuous f y) ->
  is_derive (fun psi => RInt f (psinorm pa pb psi) 1 * (pa - pb)) psi (f (psinorm pa pb psi)).
Proof.
  intros Hne Hf.
  assert (Hc := is_derive_comp (fun x => RInt f x 1) (psinorm pa pb) psi _ _ (int_derive f _ Hf) (psinorm_derive pa pb psi Hne)).
  assert (Hs := is_derive_scal (fun psi => RInt f (psinorm pa pb psi) 1) psi (pa - pb) _ Hc).
  apply (is_derive_ext (fun t => (pa - pb) * RInt f (psinorm pa pb t) 1)); [intros; apply Rmult_comm|].
  replace (f (psinorm pa pb psi)) with ((pa - pb) * (/ (pb - pa) * - f (psinorm pa pb psi))) by (field; lra).
  exact Hs.
Qed.

(** ** The constrained profiles *)
Lemma masked_at m (a : arr2 R) i j : masked m a i j = a i j * mask_at m i j.
Proof. destruct m as [m|]; cbn; nR; ring. Qed.
Lemma psi_norm_at pb pa psi i j : psi_norm_of pb pa psi i j = psinorm pa pb (psi i j).
Proof. reflexivity. Qed.
Lemma jtorshape_at pow p pb pa m psi i j : jtorshape pow p (psi_norm_of pb pa psi) m i j = weight pow p pa pb m psi i j.
Proof.
  unfold jtorshape, weight. rewrite masked_at, psi_norm_at. unfold shape. rewrite <- nclip_R. nR. reflexivity.
Qed.
Lemma area_int_ok e (a : arr2 R) v : area_int e a = Ok v <-> grid_integral e a v.
Proof.
  unfold area_int, grid_integral, dR, dZ. destruct (romb2 (nx e) (ny e) a) as [s|x]; cbn [bind]; nR.
  - split; [intros [= <-]; exists s; auto|]. intros (s' & [= <-] & ->). reflexivity.
  - split; [discriminate|]. intros (s' & [=] & _).
Qed.
Lemma grid_fun e a v w : grid_integral e a v -> grid_integral e a w -> v = w.
Proof. intros (s & E & ->) (s' & E' & ->). congruence. Qed.
Lemma grid_ext e a b v : (forall i j, a i j = b i j) -> grid_integral e a v -> grid_integral e b v.
Proof.
  intros E (s & Hs & ->). destruct (romb2_ok _ _ _ _ Hs) as (kx & ky & Ex & Ey). exists s. split; [|reflexivity].
  rewrite Ex, Ey in *. rewrite romb2_rt in Hs |- *. rewrite <- Hs. f_equal. symmetry. apply (R2_ext kx ky). auto.
Qed.
Lemma grid_lin e a b u v c d : grid_integral e a u -> grid_integral e b v ->
  grid_integral e (fun i j => c * a i j + d * b i j) (c * u + d * v).
Proof.
  intros (s & Hs & ->) (s' & Hs' & ->). destruct (romb2_ok _ _ _ _ Hs) as (kx & ky & Ex & Ey).
  exists (c * s + d * s'). split; [|ring]. rewrite Ex, Ey in *. rewrite romb2_rt in Hs, Hs' |- *.
  injection Hs as <-. injection Hs' as <-. f_equal. apply (R2_linear kx ky).
Qed.
Lemma grid_scal e a u c : grid_integral e a u -> grid_integral e (fun i j => c * a i j) (c * u).
Proof.
  intros Ha. replace (c * u) with (c * u + 0 * u) by ring. apply (grid_ext e (fun i j => c * a i j + 0 * a i j)); [intros; ring|].
  apply grid_lin; exact Ha.
Qed.
Lemma grid_size e a b v : grid_integral e a v -> exists w, grid_integral e b w.
Proof.
  intros (s & Hs & ->). destruct (romb2_ok _ _ _ _ Hs) as (kx & ky & Ex & Ey).
  unfold grid_integral. rewrite Ex, Ey, romb2_rt. eexists. eexists. split; reflexivity.
Qed.

(** the common tail *)
Lemma cfinish_inv e p pb pa js lb J s : cfinish e p pb pa js lb = Ok (J, s) ->
  exists IR I_R, grid_integral e (fun i j => js i j * gR e i j / Raxis p) IR /\
    grid_integral e (fun i j => js i j * Raxis p / gR e i j) I_R /\
    L s = Ip p / I_R - lb * (IR / I_R - 1) /\ Beta0 s = lb / L s /\ psi_bndry s = pb /\ psi_axis s = pa /\
    forall i j, J i j = L s * (Beta0 s * gR e i j / Raxis p + (1 - Beta0 s) * Raxis p / gR e i j) * js i j.
Proof.
  unfold cfinish. intros Hc.
  destruct (area_int e (fun i j => (js i j * gR e i j / Raxis p)%num)) as [IR|] eqn:E1; [|discriminate].
  destruct (area_int e (fun i j => (js i j * Raxis p / gR e i j)%num)) as [I_R|] eqn:E2; [|discriminate].
  cbn [bind] in Hc. injection Hc as <- <-. exists IR, I_R.
  rewrite area_int_ok in E1, E2. nR. cbn [L Beta0 psi_bndry psi_axis].
  split; [exact E1|]. split; [exact E2|]. repeat split.
Qed.
Lemma cfinish_current e p pb pa js lb J s : cfinish e p pb pa js lb = Ok (J, s) -> L s <> 0 ->
  (forall v, grid_integral e (fun i j => js i j * Raxis p / gR e i j) v -> v <> 0) ->
  grid_integral e J (Ip p).
Proof.
  intros Hc HL HI. destruct (cfinish_inv _ _ _ _ _ _ _ _ Hc) as (IR & I_R & H1 & H2 & HLs & HB & _ & _ & HJ).
  specialize (HI _ H2).
  apply (grid_ext e (fun i j => (L s * Beta0 s) * (js i j * gR e i j / Raxis p) + (L s * (1 - Beta0 s)) * (js i j * Raxis p / gR e i j))).
  - intros i j. rewrite HJ. unfold Rdiv. ring.
  - replace (Ip p) with ((L s * Beta0 s) * IR + (L s * (1 - Beta0 s)) * I_R); [apply grid_lin; assumption|].
    rewrite HB. replace (L s * (lb / L s)) with lb by (field; exact HL).
    replace (L s * (1 - lb / L s)) with (L s - lb) by (field; exact HL). rewrite HLs. field. exact HI.
Qed.
Lemma paxis_inv pow quad e p psi arg J s : paxis_Jtor pow quad e p psi arg = Ok (J, s) ->
  exists pb pa m, core_of e psi pb pa m /\
    cfinish e p pb pa (jtorshape pow p (psi_norm_of pb pa psi) m) (- target p * Raxis p / (quad (shape pow p) 0 1 * (pb - pa))) = Ok (J, s).
Proof.
  unfold paxis_Jtor. intros H. destruct (updated_bndry e psi) as [ub|] eqn:E1; [|discriminate]. cbn [bind] in H.
  destruct (find_core e psi ub) as [[[pb pa] m]|] eqn:E2; [|discriminate]. cbn [bind] in H.
  exists pb, pa, m. split; [exists ub; auto|]. nR. exact H.
Qed.
Lemma betap_inv pow quad mu0 e p psi arg J s : betap_Jtor pow quad mu0 e p psi arg = Ok (J, s) ->
  exists pb pa m pint bint, core_of e psi pb pa m /\
    grid_integral e (fun i j => pfunc pow quad e p pb pa (psi_norm_of pb pa psi) m i j * gR e i j) pint /\
    grid_integral e (fun i j => Bpol2 e m i j * gR e i j) bint /\
    cfinish e p pb pa (jtorshape pow p (psi_norm_of pb pa psi) m) (bint / pint * (- target p * Raxis p) / (2 * mu0)) = Ok (J, s).
Proof.
  unfold betap_Jtor. intros H. destruct (updated_bndry e psi) as [ub|] eqn:E1; [|discriminate]. cbn [bind] in H.
  destruct (find_core e psi ub) as [[[pb pa] m]|] eqn:E2; [|discriminate]. cbn [bind] in H.
  destruct (area_int e (fun i j => (pfunc pow quad e p pb pa (psi_norm_of pb pa psi) m i j * gR e i j)%num)) as [pint|] eqn:E3; [|discriminate].
  destruct (area_int e (fun i j => (Bpol2 e m i j * gR e i j)%num)) as [bint|] eqn:E4; [|discriminate]. cbn [bind] in H.
  exists pb, pa, m, pint, bint. rewrite area_int_ok in E3, E4. nR. repeat split; auto. exists ub; auto.
Qed.
Lemma core_fun e psi pb pa m pb' pa' m' : core_of e psi pb pa m -> core_of e psi pb' pa' m' -> pb = pb' /\ pa = pa' /\ m = m'.
Proof. intros (u & E & F) (u' & E' & F'). rewrite E in E'. injection E' as <-. rewrite F in F'. injection F' as -> -> ->. auto. Qed.
Lemma pfunc_at pow quad e p pb pa m psi i j :
  (interior e i j /\ 0 <= psinorm pa pb (psi i j) < 1 ->
    pfunc pow quad e p pb pa (psi_norm_of pb pa psi) m i j = quad (shape pow p) (psinorm pa pb (psi i j)) 1 * (pb - pa) * mask_at m i j) /\
  (~ (interior e i j /\ 0 <= psinorm pa pb (psi i j) < 1) -> pfunc pow quad e p pb pa (psi_norm_of pb pa psi) m i j = 0).
Proof.
  unfold pfunc. rewrite masked_at. set (b := (_ && _)%bool).
  assert (Hb : b = true <-> (interior e i j /\ 0 <= psinorm pa pb (psi i j) < 1)).
  { unfold b, interior. rewrite !andb_true_iff, psi_norm_at. nR. rewrite negb_true_iff, R_ltb_false, R_ltb_true, !Nat.leb_le, !Nat.ltb_lt. cbn [IZR]. split; [intros ((((?&?)&?)&?)&(?&?))|intros ((?&?)&?&?)]; repeat split; try lia; lra. }
  split; intros Hi.
  - apply Hb in Hi. rewrite Hi. nR. reflexivity.
  - destruct b; [exfalso; apply Hi, Hb; reflexivity|]. nR. ring.
Qed.
(** a 3x3 grid: Simpson's rule in both directions *)
Lemma romb2_3x3 (a : arr2 R) : romb2 3 3 a = Ok ((a 0%nat 0%nat + 4 * a 0%nat 1%nat + a 0%nat 2%nat + 4 * (a 1%nat 0%nat + 4 * a 1%nat 1%nat + a 1%nat 2%nat) + (a 2%nat 0%nat + 4 * a 2%nat 1%nat + a 2%nat 2%nat)) / 9).
Proof.
  change 3%nat with (S (2 ^ 1)). rewrite romb2_rt. f_equal. cbn. field.
Qed.
