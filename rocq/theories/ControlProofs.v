(** Lemmas about the control system. *)
From Coq Require Import String List Arith ZArith Bool Reals Lra Lia.
From Verif Require Import Py Num Numpy Linalg Coils Machine MachineSpec MachineProofs MachineForces Control ControlSpec.
Import ListNotations.
Local Open Scope R_scope.

Lemma pow2_gt_0 x : x <> 0 -> 0 < x ^ 2.
Proof. intros E. rewrite <- Rsqr_pow2. apply Rsqr_pos_lt. exact E. Qed.
(** ** Quadratic forms *)
Section Q.
  Variables (m n : nat) (A : nat -> nat -> R) (b : nat -> R) (g : R).
  Definition res (x : nat -> R) (k : nat) : R := mv n A x k - b k.
  Definition qf (x : nat -> R) : R := nsum m (fun k => res x k ^ 2) + g ^ 2 * nsum n (fun j => x j ^ 2).
  Definition qd (d : nat -> R) : R := nsum m (fun k => mv n A d k ^ 2) + g ^ 2 * nsum n (fun j => d j ^ 2).
  (** half the gradient *)
  Definition grad (x : nat -> R) (j : nat) : R := nsum m (fun k => A k j * res x k) + g ^ 2 * x j.

  Lemma mv_add x d k : mv n A (fun j => x j + d j) k = mv n A x k + mv n A d k.
  Proof. unfold mv. rewrite <- nsum_add. apply nsum_ext. intros; ring. Qed.
  Lemma mv_scal t d k : mv n A (fun j => t * d j) k = t * mv n A d k.
  Proof. unfold mv. rewrite <- nsum_scal. apply nsum_ext. intros; ring. Qed.
  Lemma qf_expand x d : qf (fun j => x j + d j) = qf x + 2 * nsum n (fun j => d j * grad x j) + qd d.
  Proof.
    unfold qf, qd.
    assert (E1 : nsum m (fun k => res (fun j => x j + d j) k ^ 2) =
      nsum m (fun k => res x k ^ 2) + 2 * nsum m (fun k => res x k * mv n A d k) + nsum m (fun k => mv n A d k ^ 2)).
    { rewrite <- nsum_scal, <- !nsum_add. apply nsum_ext. intros k _. unfold res. rewrite mv_add. ring. }
    assert (E2 : nsum n (fun j => (x j + d j) ^ 2) = nsum n (fun j => x j ^ 2) + 2 * nsum n (fun j => x j * d j) + nsum n (fun j => d j ^ 2)).
    { rewrite <- nsum_scal, <- !nsum_add. apply nsum_ext. intros; ring. }
    assert (E3 : nsum n (fun j => d j * grad x j) = nsum m (fun k => res x k * mv n A d k) + g ^ 2 * nsum n (fun j => x j * d j)).
    { unfold grad. rewrite (nsum_ext n _ (fun j => nsum m (fun k => res x k * (A k j * d j)) + g ^ 2 * (x j * d j))).
      - rewrite nsum_add, nsum_scal, nsum_swap. f_equal. apply nsum_ext. intros k _. unfold mv. rewrite <- nsum_scal. reflexivity.
      - intros j _. rewrite Rmult_plus_distr_l, <- nsum_scal. f_equal; [|ring]. apply nsum_ext. intros; ring. }
    rewrite E1, E2, E3. ring.
  Qed.
  Lemma qd_nonneg d : 0 <= qd d.
  Proof.
    unfold qd. apply Rplus_le_le_0_compat.
    - apply nsum_nonneg. intros; apply pow2_ge_0.
    - apply Rmult_le_pos; [apply pow2_ge_0|]. apply nsum_nonneg. intros; apply pow2_ge_0.
  Qed.
  Lemma qd_zero d : g <> 0 -> qd d <= 0 -> forall j, (j < n)%nat -> d j = 0.
  Proof.
    intros Hg Hq j Hj. unfold qd in Hq.
    assert (H1 : 0 <= nsum m (fun k => mv n A d k ^ 2)) by (apply nsum_nonneg; intros; apply pow2_ge_0).
    assert (H2 : 0 <= nsum n (fun j => d j ^ 2)) by (apply nsum_nonneg; intros; apply pow2_ge_0).
    assert (H3 : 0 < g ^ 2) by (apply pow2_gt_0; exact Hg).
    assert (H4 : nsum n (fun j => d j ^ 2) = 0).
    { destruct (Req_dec (nsum n (fun j => d j ^ 2)) 0) as [E|E]; [exact E|].
      assert (0 < g ^ 2 * nsum n (fun j => d j ^ 2)) by (apply Rmult_lt_0_compat; lra). lra. }
    assert (H5 := nsum_nonneg_zero n _ (fun i _ => pow2_ge_0 (d i)) H4 j Hj). cbv beta in H5.
    destruct (Req_dec (d j) 0) as [E|E]; [exact E|]. apply pow2_gt_0 in E. lra.
  Qed.
  Lemma quad_min a q : (forall t, 0 <= 2 * t * a + t ^ 2 * q) -> 0 <= q -> a = 0.
  Proof.
    intros Ht Hq. destruct (Req_dec a 0) as [E|E]; [exact E|]. exfalso.
    specialize (Ht (- a / (q + 1))).
    assert (Ha : 0 < a ^ 2) by (apply pow2_gt_0; exact E).
    assert (Hq1 : 0 < / (q + 1)) by (apply Rinv_0_lt_compat; lra).
    replace (2 * (- a / (q + 1)) * a + (- a / (q + 1)) ^ 2 * q) with (- (a ^ 2 * (/ (q + 1) * (/ (q + 1) * (q + 2))))) in Ht
      by (field; lra).
    assert (0 < a ^ 2 * (/ (q + 1) * (/ (q + 1) * (q + 2)))); [|lra].
    apply Rmult_lt_0_compat; [exact Ha|]. apply Rmult_lt_0_compat; [exact Hq1|]. apply Rmult_lt_0_compat; [exact Hq1|lra].
  Qed.
  (** A point minimises the form exactly when the gradient vanishes. *)
  Lemma qf_min_iff x : (forall y, qf x <= qf y) <-> (forall j, (j < n)%nat -> grad x j = 0).
  Proof.
    split.
    - intros Hmin.
      assert (H0 : nsum n (fun j => grad x j * grad x j) = 0).
      { apply (quad_min _ (qd (grad x))); [|apply qd_nonneg]. intros t.
        specialize (Hmin (fun j => x j + t * grad x j)). rewrite (qf_expand x (fun j => t * grad x j)) in Hmin.
        rewrite (nsum_ext n _ (fun j => t * (grad x j * grad x j))) in Hmin by (intros; ring). rewrite nsum_scal in Hmin.
        assert (E : qd (fun j => t * grad x j) = t ^ 2 * qd (grad x)).
        { unfold qd. rewrite Rmult_plus_distr_l. f_equal.
          - rewrite <- nsum_scal. apply nsum_ext. intros k _. rewrite mv_scal. ring.
          - rewrite <- !nsum_scal. apply nsum_ext. intros; ring. }
        rewrite E in Hmin. lra. }
      intros j Hj. assert (H1 := nsum_nonneg_zero n _ (fun i _ => Rle_0_sqr (grad x i)) H0 j Hj). cbv beta in H1.
      apply Rsqr_0_uniq. exact H1.
    - intros Hg y. replace (qf y) with (qf (fun j => x j + (y j - x j))).
      + rewrite qf_expand. rewrite (nsum_zero n (fun j => (y j - x j) * grad x j)) by (intros i Hi; rewrite Hg by exact Hi; ring).
        assert (H := qd_nonneg (fun j => y j - x j)). lra.
      + unfold qf, res, mv. f_equal; [|f_equal]; apply nsum_ext; intros k _; [|f_equal; ring].
        f_equal. f_equal. apply nsum_ext. intros; ring.
  Qed.
  Lemma qf_ext x y : (forall j, (j < n)%nat -> x j = y j) -> qf x = qf y.
  Proof.
    intros E. unfold qf, res, mv. f_equal; [|f_equal]; apply nsum_ext; intros k Hk.
    - f_equal. f_equal. apply nsum_ext. intros j Hj. rewrite E by exact Hj. reflexivity.
    - rewrite E by exact Hk. reflexivity.
  Qed.
  (** ... and when gamma is not zero there is only one such point. *)
  Lemma qf_unique x y : g <> 0 -> (forall j, (j < n)%nat -> grad x j = 0) -> qf y <= qf x ->
    forall j, (j < n)%nat -> y j = x j.
  Proof.
    intros Hg Hx Hy j Hj.
    assert (E : qf y = qf (fun j => x j + (y j - x j))) by (apply qf_ext; intros; ring).
    rewrite E, qf_expand in Hy.
    rewrite (nsum_zero n (fun j => (y j - x j) * grad x j)) in Hy by (intros i Hi; rewrite Hx by exact Hi; ring).
    assert (H := qd_zero (fun j => y j - x j) Hg ltac:(lra) j Hj). cbv beta in H. lra.
  Qed.
  (** The gradient in terms of the normal equations *)
  Definition nm (i j : nat) : R := nsum m (fun k => A k i * A k j) + g ^ 2 * (if (i =? j)%nat then 1 else 0).
  Definition nr (i : nat) : R := nsum m (fun k => A k i * b k).
  Lemma normal_eq x i : (i < n)%nat -> nsum n (fun j => nm i j * x j) = grad x i + nr i.
  Proof.
    intros Hi. unfold nm, grad, nr, res.
    rewrite (nsum_ext n _ (fun j => nsum m (fun k => A k i * (A k j * x j)) + g ^ 2 * ((if (j =? i)%nat then 1 else 0) * x j))).
    - rewrite nsum_add, nsum_scal, nsum_delta, nsum_swap by exact Hi.
      rewrite (nsum_ext m _ (fun k => A k i * mv n A x k)).
      + rewrite (nsum_ext m (fun k => A k i * (mv n A x k - b k)) (fun k => A k i * mv n A x k - A k i * b k)) by (intros; ring).
        rewrite nsum_sub. ring.
      + intros k _. unfold mv. rewrite <- nsum_scal. reflexivity.
    - intros j Hj. rewrite Rmult_plus_distr_r. f_equal.
      + rewrite Rmult_comm, <- nsum_scal. apply nsum_ext. intros; ring.
      + rewrite Nat.eqb_sym. ring.
  Qed.
  Lemma nm_kernel : g <> 0 -> trivial_kernel n nm.
  Proof.
    intros Hg x Hx j Hj.
    (* the quadratic form of nm at x is qd x *)
    apply (qd_zero x Hg); [|exact Hj].
    assert (E : nsum n (fun i => x i * nsum n (fun j => nm i j * x j)) = qd x).
    { rewrite (nsum_ext n _ (fun i => nsum m (fun k => (A k i * x i) * mv n A x k) + g ^ 2 * (x i ^ 2))).
      - rewrite nsum_add, nsum_scal, nsum_swap. unfold qd. f_equal. apply nsum_ext. intros k _.
        rewrite (nsum_ext n _ (fun i => mv n A x k * (A k i * x i))) by (intros; ring). rewrite nsum_scal. unfold mv. ring.
      - intros i Hi. rewrite normal_eq by exact Hi. unfold grad, res, nr.
        rewrite (nsum_ext m (fun k => A k i * (mv n A x k - b k)) (fun k => A k i * mv n A x k - A k i * b k)) by (intros; ring).
        rewrite nsum_sub.
        rewrite (nsum_ext m (fun k => A k i * x i * mv n A x k) (fun k => x i * (A k i * mv n A x k))) by (intros; ring).
        rewrite nsum_scal. ring. }
    rewrite <- E. rewrite nsum_zero; [lra|]. intros i Hi. rewrite Hx by exact Hi. ring.
  Qed.
End Q.

(** ** Rows of the linear system *)
Lemma nth_map_combine_dot (a x : list R) : length a = length x ->
  dot a x = nsum (length a) (fun j => nth j a 0 * nth j x 0).
Proof.
  unfold dot. revert x. induction a as [|u a IH]; intros [|v x] Hl; try discriminate; [reflexivity|].
  cbn [combine map fst snd length]. rewrite lsum_cons, nsum_head. cbn [nth]. f_equal. apply IH. injection Hl; auto.
Qed.
Lemma dot_comm a : forall x, dot a x = dot x a.
Proof.
  unfold dot. induction a as [|u a IH]; intros [|v x]; try reflexivity.
  cbn [combine map fst snd]. rewrite !lsum_cons, IH. ring.
Qed.
Lemma dot_sub a : forall a' x, length a = length a' ->
  dot (map (fun p => fst p - snd p) (combine a a')) x = dot a x - dot a' x.
Proof.
  unfold dot. induction a as [|u a IH]; intros [|v a'] x Hl; try discriminate.
  - cbn. unfold lsum. cbn. nR. lra.
  - destruct x as [|w x]; [cbn; unfold lsum; cbn; nR; lra|].
    cbn [combine map fst snd]. rewrite !lsum_cons, IH by (injection Hl; auto). ring.
Qed.
Lemma lsum_nsum {A} (d : A) (f : A -> R) l : lsum (map f l) = nsum (length l) (fun i => f (nth i l d)).
Proof.
  induction l as [|a l IH]; [reflexivity|].
  cbn [map length]. rewrite lsum_cons, nsum_head, IH. reflexivity.
Qed.
Lemma nsum_app m n (f : nat -> R) : nsum (m + n) f = nsum m f + nsum n (fun i => f (m + i)%nat).
Proof.
  induction n as [|n IH]; [rewrite Nat.add_0_r, nsum_O; lra|].
  rewrite Nat.add_succ_r, !nsum_S, IH. ring.
Qed.

Section P.
  Variable G : field -> R -> R -> R -> R -> R.
  Variable P : field -> R -> R -> R.
  Notation total := (total G P).
  Notation mc := (machine_control G).

  Lemma sync_total f M r z : total f (machine_sync M) r z = total f M r z.
  Proof.
    unfold ControlSpec.total, response_sum, machine_sync. f_equal. rewrite map_map. f_equal.
    apply map_ext. intros [lb m]. cbn [fst snd].
    rewrite (mctrl_shape G f (mc_sync m) m r z (mc_sync_shape m)). destruct m; reflexivity.
  Qed.
  Lemma sync_control f M r z : mc f (machine_sync M) r z = mc f M r z.
  Proof.
    unfold machine_control, machine_sync. induction M as [|[lb m] M IH]; [reflexivity|].
    cbn [map filter fst snd]. replace (mc_control (mc_sync m)) with (mc_control m) by (destruct m; reflexivity).
    destruct (mc_control m); cbn [map snd]; [|exact IH]. f_equal; [|exact IH].
    apply mctrl_shape, mc_sync_shape.
  Qed.
  Lemma sync_sync M : machine_sync (machine_sync M) = machine_sync M.
  Proof.
    apply machine_sync_synced. unfold machine_sync, machine_synced. apply Forall_forall. intros x Hx.
    apply in_map_iff in Hx as ([lb m] & <- & _). destruct m; cbn; auto. apply resync_is_synced.
  Qed.
  Lemma sync_currents M : controlCurrents (machine_sync M) = controlCurrents M.
  Proof.
    unfold controlCurrents, machine_sync. induction M as [|[lb m] M IH]; [reflexivity|].
    cbn [map filter fst snd]. replace (mc_control (mc_sync m)) with (mc_control m) by (destruct m; reflexivity).
    destruct (mc_control m); cbn [map snd]; [|exact IH]. f_equal; [|exact IH]. destruct m; reflexivity.
  Qed.
  Lemma eqf_eq f M r z : eq_field G (Some P) f M r z = (total f M r z, machine_sync M).
  Proof. unfold eq_field. rewrite machine_field_eq. reflexivity. Qed.

  (** The rows, written down directly *)
  Definition rows_spec (c : constraints R) (M : machine R) : list (list R * R) :=
    flat_map (fun x => [(mc FBr M (fst x) (snd x), - total FBr M (fst x) (snd x)); (mc FBz M (fst x) (snd x), - total FBz M (fst x) (snd x))]) (xpoints c) ++
    map (fun i => (map (fun p => fst p - snd p) (combine (mc FPsi M (fst (fst i)) (snd (fst i))) (mc FPsi M (fst (snd i)) (snd (snd i)))),
                   total FPsi M (fst (snd i)) (snd (snd i)) - total FPsi M (fst (fst i)) (snd (fst i)))) (isoflux c) ++
    map (fun p => (mc FPsi M (fst (fst p)) (snd (fst p)), snd p - total FPsi M (fst (fst p)) (snd (fst p)))) (psivals c).
  Definition same (M M' : machine R) : Prop := M' = M \/ M' = machine_sync M.
  Lemma same_sync M M' : same M M' -> machine_sync M' = machine_sync M.
  Proof. intros [->| ->]; [reflexivity|apply sync_sync]. Qed.
  Lemma same_total M M' f r z : same M M' -> total f M' r z = total f M r z.
  Proof. intros [->| ->]; [reflexivity|apply sync_total]. Qed.
  Lemma same_control M M' f r z : same M M' -> mc f M' r z = mc f M r z.
  Proof. intros [->| ->]; [reflexivity|apply sync_control]. Qed.
  Lemma same_currents M M' : same M M' -> controlCurrents M' = controlCurrents M.
  Proof. intros [->| ->]; [reflexivity|apply sync_currents]. Qed.

  Lemma xp_fold M l : forall rows M', same M M' -> exists M'', same M M'' /\
    fold_left (xpoint_rows G P) l (rows, M') =
    (rows ++ flat_map (fun x => [(mc FBr M (fst x) (snd x), - total FBr M (fst x) (snd x)); (mc FBz M (fst x) (snd x), - total FBz M (fst x) (snd x))]) l, M'').
  Proof.
    induction l as [|[r z] l IH]; intros rows M' HM.
    - exists M'. split; [exact HM|]. cbn. rewrite app_nil_r. reflexivity.
    - cbn [fold_left flat_map fst snd]. unfold xpoint_rows at 2. rewrite !eqf_eq. cbn zeta iota.
      rewrite sync_sync, !sync_total, !sync_control, !(same_total _ _ _ _ _ HM), !(same_control _ _ _ _ _ HM), !(same_sync _ _ HM).
      nR. destruct (IH ((rows ++ [(mc FBr M r z, - total FBr M r z)]) ++ [(mc FBz M r z, - total FBz M r z)]) (machine_sync M))
        as (M2 & HM2 & E); [right; reflexivity|].
      exists M2. split; [exact HM2|]. rewrite E. f_equal. rewrite <- !app_assoc. reflexivity.
  Qed.
  Lemma iso_fold M l : forall rows M', same M M' -> exists M'', same M M'' /\
    fold_left (isoflux_row G P) l (rows, M') =
    (rows ++ map (fun i => (map (fun p => fst p - snd p) (combine (mc FPsi M (fst (fst i)) (snd (fst i))) (mc FPsi M (fst (snd i)) (snd (snd i)))),
                   total FPsi M (fst (snd i)) (snd (snd i)) - total FPsi M (fst (fst i)) (snd (fst i)))) l, M'').
  Proof.
    induction l as [|[[r1 z1] [r2 z2]] l IH]; intros rows M' HM.
    - exists M'. split; [exact HM|]. cbn. rewrite app_nil_r. reflexivity.
    - cbn [fold_left map fst snd]. unfold isoflux_row at 2. rewrite !eqf_eq. cbn zeta iota.
      rewrite sync_sync, !sync_total, !sync_control, !(same_total _ _ _ _ _ HM), !(same_control _ _ _ _ _ HM), !(same_sync _ _ HM).
      destruct (IH (rows ++ [(map (fun p => fst p - snd p) (combine (mc FPsi M r1 z1) (mc FPsi M r2 z2)), total FPsi M r2 z2 - total FPsi M r1 z1)]) (machine_sync M))
        as (M2 & HM2 & E); [right; reflexivity|].
      exists M2. split; [exact HM2|]. etransitivity; [exact E|]. f_equal. rewrite <- !app_assoc. reflexivity.
  Qed.
  Lemma psi_fold M l : forall rows M', same M M' -> exists M'', same M M'' /\
    fold_left (psival_row G P) l (rows, M') =
    (rows ++ map (fun p => (mc FPsi M (fst (fst p)) (snd (fst p)), snd p - total FPsi M (fst (fst p)) (snd (fst p)))) l, M'').
  Proof.
    induction l as [|[[r z] v] l IH]; intros rows M' HM.
    - exists M'. split; [exact HM|]. cbn. rewrite app_nil_r. reflexivity.
    - cbn [fold_left map fst snd]. unfold psival_row at 2. rewrite !eqf_eq. cbn zeta iota.
      rewrite !sync_control, !(same_total _ _ _ _ _ HM), !(same_control _ _ _ _ _ HM), !(same_sync _ _ HM).
      destruct (IH (rows ++ [(mc FPsi M r z, v - total FPsi M r z)]) (machine_sync M))
        as (M2 & HM2 & E); [right; reflexivity|].
      exists M2. split; [exact HM2|]. etransitivity; [exact E|]. f_equal. rewrite <- !app_assoc. reflexivity.
  Qed.
  Lemma build_rows_eq c M : exists M', same M M' /\ build_rows G P c M = (rows_spec c M, M').
  Proof.
    unfold build_rows, rows_spec.
    destruct (xp_fold M (xpoints c) [] M (or_introl eq_refl)) as (M1 & H1 & E1).
    destruct (iso_fold M (isoflux c) ([] ++ flat_map (fun x => [(mc FBr M (fst x) (snd x), - total FBr M (fst x) (snd x)); (mc FBz M (fst x) (snd x), - total FBz M (fst x) (snd x))]) (xpoints c)) M1 H1) as (M2 & H2 & E2).
    cbv zeta. rewrite E1, E2.
    match goal with |- context [fold_left (psival_row G P) _ (?r, M2)] =>
      destruct (psi_fold M (psivals c) r M2 H2) as (M3 & H3 & E3) end. exists M3. split; [exact H3|]. rewrite E3.
    f_equal. cbn [app]. rewrite <- app_assoc. reflexivity.
  Qed.

  (** All rows have one entry per controlled coil. *)
  Lemma control_length f M r z : length (mc f M r z) = length (controlCurrents M).
  Proof. unfold machine_control, controlCurrents. rewrite !map_length. reflexivity. Qed.
  Lemma rows_length c M row : In row (rows_spec c M) -> length (fst row) = length (controlCurrents M).
  Proof.
    unfold rows_spec. rewrite !in_app_iff. intros [Hr|[Hr|Hr]].
    - apply in_flat_map in Hr as (x & _ & [<-|[<-|[]]]); cbn [fst]; apply control_length.
    - apply in_map_iff in Hr as (x & <- & _). cbn [fst]. rewrite map_length, combine_length, !control_length. apply Nat.min_id.
    - apply in_map_iff in Hr as (x & <- & _). cbn [fst]. apply control_length.
  Qed.
  Lemma rows_ncontrols c M : rows_spec c M <> [] -> ncontrols (rows_spec c M) = length (controlCurrents M).
  Proof.
    intros Hne. unfold ncontrols. apply rows_length with c. apply nth_In. destruct (rows_spec c M); [easy|cbn; lia].
  Qed.

  (** The residual of the constraints after an adjustment is the residual of the linear system. *)
  Lemma adjust_total f M x r z : length x = length (controlCurrents M) ->
    total f (controlAdjust M x) r z = total f M r z + dot (mc f M r z) x.
  Proof.
    intros Hl. unfold ControlSpec.total. rewrite adjust_response by exact Hl. rewrite dot_comm. unfold dot. ring.
  Qed.
  Lemma adjust_residuals c M x : length x = length (controlCurrents M) ->
    residuals G P c (controlAdjust M x) = map (fun row => dot (fst row) x - snd row) (rows_spec c M).
  Proof.
    intros Hl. unfold residuals, rows_spec. rewrite !map_app, !map_map. f_equal; [|f_equal].
    - induction (xpoints c) as [|p l IH]; [reflexivity|]. cbn [flat_map app map fst snd]. rewrite !adjust_total by exact Hl.
      rewrite IH. f_equal; [ring|]. f_equal. ring.
    - apply map_ext. intros i. cbn [fst snd]. rewrite !adjust_total by exact Hl.
      rewrite dot_sub by (rewrite !control_length; reflexivity). ring.
    - apply map_ext. intros i. cbn [fst snd]. rewrite !adjust_total by exact Hl. ring.
  Qed.
  Lemma same_adjust_residuals c M M' x : same M M' -> length x = length (controlCurrents M) ->
    residuals G P c (controlAdjust M' x) = residuals G P c (controlAdjust M x).
  Proof.
    intros HM Hl. rewrite !adjust_residuals by (rewrite ?(same_currents _ _ HM); exact Hl).
    unfold rows_spec. f_equal. f_equal; [|f_equal].
    - induction (xpoints c) as [|p l IH]; [reflexivity|]. cbn [flat_map].
      rewrite !(same_total _ _ _ _ _ HM), !(same_control _ _ _ _ _ HM), IH. reflexivity.
    - apply map_ext. intros p. rewrite !(same_total _ _ _ _ _ HM), !(same_control _ _ _ _ _ HM). reflexivity.
    - apply map_ext. intros p. rewrite !(same_total _ _ _ _ _ HM), !(same_control _ _ _ _ _ HM). reflexivity.
  Qed.

  (** The code's objective is the Tikhonov cost. *)
  Section O.
    Variable c : constraints R.
    Variable M : machine R.
    Let rows := rows_spec c M.
    Let n := length (controlCurrents M).
    Hypothesis rows_ne : rows <> [].
    Lemma rows_n : ncontrols rows = n.
    Proof. apply rows_ncontrols. exact rows_ne. Qed.
    Lemma row_dot x k : length x = n -> (k < length rows)%nat ->
      dot (fst (nth k rows ([], 0))) x = mv n (matA rows) (fun j => nth j x 0) k.
    Proof.
      intros Hx Hk. assert (Hl : length (fst (nth k rows ([], 0))) = n) by (apply rows_length with c, nth_In; exact Hk).
      rewrite nth_map_combine_dot by congruence. rewrite Hl. unfold mv, matA. nR. reflexivity.
    Qed.
    Lemma cost_qf x : length x = n -> cost G P c M x = qf (length rows) n (matA rows) (vecb rows) (gamma c) (fun j => nth j x 0).
    Proof.
      intros Hx. unfold cost. rewrite adjust_residuals by exact Hx. fold rows. rewrite map_map.
      unfold qf. f_equal.
      - rewrite (lsum_nsum ([], 0)). apply nsum_ext. intros k Hk. unfold res, vecb. nR. rewrite row_dot by assumption. reflexivity.
      - f_equal. rewrite (lsum_nsum 0), Hx. reflexivity.
    Qed.
    Lemma objective_cost x : length x = n -> objective rows (gamma c) x = cost G P c M x.
    Proof.
      intros Hx. rewrite cost_qf by exact Hx. unfold objective. cbv zeta. rewrite !rows_n, nsum_app. unfold qf. f_equal.
      - apply nsum_ext. intros k Hk. unfold nsqr. nR.
        unfold matA2, vecb2. destruct (Nat.ltb_spec k (length rows)); [|lia].
        unfold res, mv. nR. ring.
      - rewrite <- nsum_scal. apply nsum_ext. intros k Hk. unfold nsqr. nR. unfold matA2, vecb2. destruct (Nat.ltb_spec (length rows + k) (length rows)); [lia|].
        replace (length rows + k - length rows)%nat with k by lia.
        rewrite (nsum_ext n _ (fun j => (if (j =? k)%nat then gamma c else 0) * nth j x 0)).
        + rewrite nsum_delta by exact Hk. nR. ring.
        + intros j _. unfold eye. rewrite Nat.eqb_sym. destruct (j =? k)%nat; nR; ring.
    Qed.
    Lemma normal_matrix_nm i j : normal_matrix rows (gamma c) i j = nm (length rows) (matA rows) (gamma c) i j.
    Proof. unfold normal_matrix, nm, eye, nsqr. destruct (i =? j)%nat; nR; ring. Qed.
    Lemma normal_rhs_nr i : normal_rhs rows i = nr (length rows) (matA rows) (vecb rows) i.
    Proof. reflexivity. Qed.
    Variable inv : nat -> arr2 R -> result (arr2 R).
    Lemma analytic_spec x0 : (forall n A N, inv n A = Ok N -> inverts n A N) -> analytic inv rows (gamma c) = Ok x0 ->
      length x0 = n /\ forall j, (j < n)%nat ->
        grad (length rows) n (matA rows) (vecb rows) (gamma c) (fun j => nth j x0 0) j = 0.
    Proof.
      intros Hinv. unfold analytic. cbv zeta. rewrite !rows_n.
      destruct (inv n (normal_matrix rows (gamma c))) as [N|] eqn:EN; [|discriminate]. cbn [bind]. intros [= <-].
      apply Hinv in EN. split; [rewrite map_length, seq_length; reflexivity|]. intros i Hi.
      match goal with |- grad _ _ _ _ _ ?x _ = 0 => set (X := x) end.
      assert (HX : forall j, (j < n)%nat -> X j = nsum n (fun k => N j k * normal_rhs rows k)).
      { intros j Hj. unfold X. rewrite nth_indep with (d' := nsum n (fun k => N 0%nat k * normal_rhs rows k)) by (rewrite map_length, seq_length; exact Hj).
        rewrite (map_nth (fun i => nsum n (fun k => N i k * normal_rhs rows k))), seq_nth by exact Hj. reflexivity. }
      assert (E := normal_eq (length rows) n (matA rows) (vecb rows) (gamma c) X i Hi).
      assert (E2 : nsum n (fun j => nm (length rows) (matA rows) (gamma c) i j * X j) = nr (length rows) (matA rows) (vecb rows) i).
      { rewrite (nsum_ext n _ (fun j => nsum n (fun k => (nm (length rows) (matA rows) (gamma c) i j * N j k) * normal_rhs rows k))).
        - rewrite nsum_swap. rewrite (nsum_ext n _ (fun k => (if (k =? i)%nat then 1 else 0) * normal_rhs rows k)).
          + rewrite nsum_delta by exact Hi. rewrite Rmult_1_l. apply normal_rhs_nr.
          + intros k Hk. rewrite (nsum_ext n _ (fun j => normal_rhs rows k * (nm (length rows) (matA rows) (gamma c) i j * N j k))) by (intros; ring).
            rewrite nsum_scal, Rmult_comm. f_equal. specialize (EN i k Hi Hk). rewrite Nat.eqb_sym. rewrite <- EN.
            apply nsum_ext. intros j _. rewrite normal_matrix_nm. reflexivity.
        - intros j Hj. rewrite HX by exact Hj. rewrite <- nsum_scal. apply nsum_ext. intros; ring. }
      lra.
    Qed.
    Lemma analytic_ok : inv_ok inv -> gamma c <> 0 -> exists x0, analytic inv rows (gamma c) = Ok x0.
    Proof.
      intros [Hinv _] Hg. unfold analytic. cbv zeta. set (k := ncontrols rows).
      assert (Hk : trivial_kernel k (normal_matrix rows (gamma c))).
      { intros x Hx. apply (nm_kernel (length rows) k (matA rows) (vecb rows) (gamma c) Hg). intros i Hi.
        etransitivity; [|exact (Hx i Hi)]. apply nsum_ext. intros j _. rewrite normal_matrix_nm. reflexivity. }
      specialize (Hinv k _ Hk). destruct (inv k (normal_matrix rows (gamma c))) as [N|]; [|discriminate].
      eexists. reflexivity.
    Qed.
  End O.
End P.

(** ** Limits *)
Lemma list_eq_nth (x y : list R) : length x = length y -> (forall j, (j < length y)%nat -> nth j x 0 = nth j y 0) -> x = y.
Proof. intros Hl H. apply nth_ext with 0 0; [exact Hl|]. intros n Hn. apply H. lia. Qed.
Lemma nth_adjust_cons lb m (M : machine R) x :
  controlAdjust ((lb, m) :: M) x =
  if mc_control m then match x with [] => (lb, m) :: controlAdjust M [] | d :: x' => (lb, mc_set_current m (mc_current m + d)) :: controlAdjust M x' end
  else (lb, m) :: controlAdjust M x.
Proof. reflexivity. Qed.
(** Limits, one per coil of the machine, hold after the adjustment. *)
Lemma lims_adjust : forall (M : machine R) lims x, length lims = length M ->
  Forall2 within (lims_bounds lims M) x ->
  forall i lm, nth_error M i = Some lm -> exists l m',
    nth_error lims i = Some l /\ nth_error (controlAdjust M x) i = Some (fst lm, m') /\
    mc_control m' = mc_control (snd lm) /\
    (mc_control (snd lm) = true -> fst l <= mc_current m' <= snd l) /\
    (mc_control (snd lm) = false -> m' = snd lm).
Proof.
  induction M as [|[lb m] M IH]; intros [|[lo hi] lims] x Hl HF i lm Hi; try discriminate; [destruct i; discriminate|].
  cbn [lims_bounds] in HF. rewrite nth_adjust_cons. destruct (mc_control m) eqn:Ec.
  - inversion HF as [|b d bs x' Hb HF' E1 E2]; subst. unfold within in Hb. cbn [fst snd] in Hb.
    destruct i as [|i].
    + injection Hi as <-. exists (lo, hi), (mc_set_current m (mc_current m + d)). cbn [nth_error fst snd].
      rewrite mc_set_current_control, mc_set_current_current, Ec. repeat split; auto; try discriminate; nR; lra.
    + cbn [nth_error] in *. apply (IH lims x'); [injection Hl; auto|exact HF'|exact Hi].
  - destruct i as [|i].
    + injection Hi as <-. exists (lo, hi), m. cbn [nth_error fst snd]. rewrite Ec. repeat split; auto; discriminate.
    + cbn [nth_error] in *. apply (IH lims x); [injection Hl; auto|exact HF|exact Hi].
Qed.
Lemma lims_bounds_length : forall (M : machine R) lims, length lims = length M -> length (lims_bounds lims M) = length (controlCurrents M).
Proof.
  unfold controlCurrents. induction M as [|[lb m] M IH]; intros [|[lo hi] lims] Hl; try discriminate; [reflexivity|].
  cbn [lims_bounds filter snd]. injection Hl as Hl. destruct (mc_control m); cbn [length map]; rewrite (IH _ Hl); reflexivity.
Qed.
Lemma sync_nth M i lb m : nth_error M i = Some (lb, m) -> nth_error (machine_sync M) i = Some (lb, mc_sync m).
Proof. intros E. unfold machine_sync. rewrite nth_error_map, E. reflexivity. Qed.
Lemma sync_bounds : forall (M : machine R) lims, lims_bounds lims (machine_sync M) = lims_bounds lims M.
Proof.
  induction M as [|[lb m] M IH]; intros lims; [reflexivity|]. unfold machine_sync in *. cbn [map lims_bounds fst snd].
  destruct lims as [|[lo hi] lims]; [reflexivity|]. destruct m; cbn [lims_bounds mc_sync mc_control mc_current]; rewrite !IH; reflexivity.
Qed.
Lemma total_slack_eq mx (M : machine R) x : length x = length (controlCurrents M) ->
  total_slack mx M x = mx - lsum (map Rabs (controlCurrents (controlAdjust M x))).
Proof.
  intros Hl. unfold total_slack. rewrite (adjust_get M x Hl). nR.
  rewrite (fold_left_sum (fun p => nabs (fst p + snd p))).
  rewrite (lsum_ext (fun p => nabs (fst p + snd p)) (fun p => Rabs (fst p + snd p))) by (intros; apply nabs_R).
  assert (E : lsum (map (fun p => Rabs (fst p + snd p)) (combine x (controlCurrents M))) =
              lsum (map Rabs (map (fun p => fst p + snd p) (combine (controlCurrents M) x)))).
  { clear. generalize (controlCurrents M) as l. induction x as [|a x IH]; intros [|b l]; try reflexivity.
    cbn [combine map fst snd]. rewrite !lsum_cons, IH, (Rplus_comm a b). reflexivity. }
  rewrite E. lra.
Qed.

(** ** What a successful call did *)
Section Call.
  Variable G : field -> R -> R -> R -> R -> R.
  Variable P : field -> R -> R -> R.
  Variable inv : nat -> arr2 R -> result (arr2 R).
  Variable slsqp : (list R -> R) -> list R -> list (option R * option R) -> list (list R -> R) -> result (list R).
  Lemma call_inv c M M' x : constrain_call G P inv slsqp c M = Ok (M', x) ->
    exists M1 x0 bnds, same M M1 /\ rows_spec G P c M <> [] /\
      analytic inv (rows_spec G P c M) (gamma c) = Ok x0 /\ length x0 = length (controlCurrents M) /\
      change_bounds c (length (controlCurrents M)) M1 = Ok bnds /\
      (controlCurrents M <> [] ->
         slsqp (objective (rows_spec G P c M) (gamma c)) x0 bnds (match max_total_current c with None => [] | Some mx => [total_slack mx M1] end) = Ok x /\
         M' = controlAdjust M1 x) /\
      (controlCurrents M = [] -> M' = M1 /\ x = [] /\ M' = controlAdjust M1 x).
  Proof.
    unfold constrain_call. destruct (build_rows_eq G P c M) as (M1 & HM & E). rewrite E. cbv zeta.
    destruct (rows_spec G P c M) as [|row rows] eqn:Er; [discriminate|]. rewrite <- Er in *.
    assert (Hne : rows_spec G P c M <> []) by (rewrite Er; discriminate).
    assert (Hn := rows_ncontrols G P c M Hne).
    destruct (analytic inv (rows_spec G P c M) (gamma c)) as [x0|] eqn:Ea; [|discriminate]. cbn [bind].
    assert (Hx0 : length x0 = length (controlCurrents M)).
    { revert Ea. unfold analytic. cbv zeta. rewrite Hn. destruct (inv _ _); [|discriminate]. cbn [bind]. intros [= <-].
      rewrite map_length, seq_length. reflexivity. }
    rewrite Hn. destruct (change_bounds c (length (controlCurrents M)) M1) as [bnds|] eqn:Eb; [|discriminate]. cbn [bind].
    intros Hc. exists M1, x0, bnds. split; [exact HM|]. split; [exact Hne|]. split; [reflexivity|]. split; [exact Hx0|]. split; [exact Eb|].
    rewrite Hx0 in Hc. split; intros HC.
    - destruct (Nat.ltb_spec 0 (length (controlCurrents M))) as [_|Hz]; [|destruct (controlCurrents M); [easy|cbn in Hz; lia]].
      destruct (slsqp _ x0 bnds _) as [x'|]; [|discriminate]. injection Hc as <- <-. split; reflexivity.
    - rewrite HC in Hc. cbn [length] in Hc. change (0 <? 0)%nat with false in Hc. cbv iota in Hc. injection Hc as <- <-.
      rewrite HC in Hx0. destruct x0; [|discriminate]. repeat split.
      assert (HC1 : controlCurrents M1 = []) by (rewrite (same_currents _ _ HM); exact HC). clear -HC1.
      unfold controlAdjust, controlCurrents in *. induction M1 as [|[lb m] M1 IH]; [reflexivity|].
      cbn [filter snd zip_controls] in *. destruct (mc_control m); [discriminate|]. f_equal. apply IH. exact HC1.
  Qed.
  Lemma call_length c M M' x : (forall f x0 b cs x, slsqp f x0 b cs = Ok x -> length x = length x0) ->
    constrain_call G P inv slsqp c M = Ok (M', x) -> length x = length (controlCurrents M).
  Proof.
    intros Hs Hc. destruct (call_inv _ _ _ _ Hc) as (M1 & x0 & bnds & _ & _ & _ & Hl & _ & H1 & H2).
    destruct (controlCurrents M) eqn:E.
    - destruct (H2 eq_refl) as (_ & -> & _). reflexivity.
    - destruct H1 as [H1 _]; [discriminate|]. apply Hs in H1. congruence.
  Qed.
  Lemma call_machine c M M' x : constrain_call G P inv slsqp c M = Ok (M', x) ->
    exists M1, same M M1 /\ M' = controlAdjust M1 x.
  Proof.
    intros Hc. destruct (call_inv _ _ _ _ Hc) as (M1 & x0 & bnds & HM & _ & _ & _ & _ & H1 & H2). exists M1. split; [exact HM|].
    destruct (controlCurrents M) eqn:E; [apply H2; reflexivity|apply H1; discriminate].
  Qed.
End Call.

(** ** Fits of the flux *)
Lemma lsum_combine_sub (a w : list R) k : length w = length a ->
  lsum (map (fun p => fst p * snd p) (combine (map (fun x => x + k) a) w)) =
  lsum (map (fun p => fst p * snd p) (combine a w)) + k * lsum w.
Proof.
  revert w. induction a as [|x a IH]; intros [|y w] Hl; try discriminate.
  - cbn. unfold lsum. cbn. nR. lra.
  - cbn [map combine fst snd]. rewrite !lsum_cons, IH by (injection Hl; auto). lra.
Qed.
Lemma wmean_shift a w k : length w = length a -> lsum w <> 0 -> wmean (map (fun x => x + k) a) w = wmean a w + k.
Proof. intros Hl Hw. unfold wmean. rewrite lsum_combine_sub by exact Hl. field. exact Hw. Qed.
Lemma average_eq (a w : list R) : length w = length a -> lsum w <> 0 -> average a (WArray w) = Ok (wmean a w).
Proof.
  intros Hl Hw. unfold average. rewrite Hl, Nat.eqb_refl. nR. destruct (R_eqb (lsum w) 0) eqn:E; rcmp; [contradiction|].
  reflexivity.
Qed.
(** Every matrix with trivial kernel has an inverse: the hypothesis [inv_ok] can be met. *)
Lemma inverse_exists n A : trivial_kernel n A -> exists N, inverts n A N.
Proof.
  intros Hk.
  assert (Hc : forall m, exists N : nat -> nat -> R, forall i j, (i < n)%nat -> (j < m)%nat ->
    nsum n (fun k => A i k * N k j) = if (i =? j)%nat then 1 else 0).
  { induction m as [|m (N & HN)]; [exists (fun _ _ => 0); intros; lia|].
    destruct (injective_solvable n A Hk (fun i => if (i =? m)%nat then 1 else 0)) as (x & Hx).
    exists (fun k j => if (j =? m)%nat then x k else N k j). intros i j Hi Hj.
    destruct (Nat.eqb_spec j m) as [->|Hne].
    - apply (Hx i Hi).
    - apply HN; lia. }
  destruct (Hc n) as (N & HN). exists N. intros i j Hi Hj. apply HN; assumption.
Qed.
