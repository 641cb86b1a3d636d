(** C173: the truncation error of the fourth-order operator is fourth order for every smooth flux
    (GSsparse4thOrder, freegs/gradshafranov.py 155-269). *)
From Coq Require Import List Arith ZArith Bool Reals Lra Lia.
From Coquelicot Require Import Coquelicot.
From Verif Require Import Py Num Numpy Linalg GradShafranov GradShafranovProofs GS4Proofs GSSpec GSConsistency.
Import ListNotations.
Local Open Scope R_scope.

(** ** Taylor's theorem in both directions *)
Definition tay (n : nat) (f : R -> R) (t a : R) : R :=
  sum_f_R0 (fun k => a ^ k / INR (fact k) * Derive_n f k t) n.

Section Taylor.
  Variables (f : R -> R) (n : nat) (lo hi M : R).
  Hypothesis Hd : forall s k, lo < s < hi -> (k <= S n)%nat -> ex_derive_n f k s.

  Lemma tay_fwd t a : lo < t -> t + a < hi -> 0 < a ->
    (forall s, t <= s <= t + a -> Rabs (Derive_n f (S n) s) <= M) ->
    Rabs (f (t + a) - tay n f t a) <= M * (a ^ S n / INR (fact (S n))).
  Proof.
    intros Ht Ha Hp HM. destruct (Taylor_Lagrange f n t (t + a)) as (z & Hz & E); [lra| |].
    - intros s Hs k Hk. apply Hd; [lra|exact Hk].
    - replace (t + a - t) with a in E by ring. rewrite E. fold (tay n f t a).
      replace (tay n f t a + a ^ S n / INR (fact (S n)) * Derive_n f (S n) z - tay n f t a)
        with (a ^ S n / INR (fact (S n)) * Derive_n f (S n) z) by ring.
      assert (P : 0 <= a ^ S n / INR (fact (S n))).
      { apply Rmult_le_pos; [apply pow_le; lra|]. left. apply Rinv_0_lt_compat, INR_fact_lt_0. }
      rewrite Rabs_mult, (Rabs_right _ (Rle_ge _ _ P)), Rmult_comm.
      apply Rmult_le_compat_r; [exact P|]. apply HM. lra.
  Qed.
End Taylor.

Lemma locally_between lo hi x : lo < x < hi -> locally x (fun y => lo < y < hi).
Proof.
  intros (H1 & H2). apply filter_and; [exact (open_gt lo x H1)|exact (open_lt hi x H2)].
Qed.

Lemma tay_both f n lo hi M t a :
  (forall s k, lo < s < hi -> (k <= S n)%nat -> ex_derive_n f k s) ->
  lo < t < hi -> lo < t + a < hi ->
  (forall s, Rbasic_fun.Rmin t (t + a) <= s <= Rbasic_fun.Rmax t (t + a) -> Rabs (Derive_n f (S n) s) <= M) ->
  Rabs (f (t + a) - tay n f t a) <= M * (Rabs a ^ S n / INR (fact (S n))).
Proof.
  intros Hd Ht Ha HM.
  assert (F := INR_fact_lt_0 (S n)).
  destruct (Rtotal_order a 0) as [N|[N|N]].
  - assert (HD : forall k s, (k <= S n)%nat -> lo < s < hi -> Derive_n (fun y => f (- y)) k (- s) = (-1) ^ k * Derive_n f k s).
    { intros k s Hk Hs. rewrite Derive_n_comp_opp.
      - rewrite Ropp_involutive. reflexivity.
      - rewrite Ropp_involutive. apply (filter_imp (fun y => lo < y < hi)); [|apply locally_between; exact Hs].
        intros y Hy j Hj. apply Hd; [exact Hy|lia]. }
    assert (G := tay_fwd (fun y => f (- y)) n (- hi) (- lo) M).
    specialize (G ltac:(intros s k Hs Hk; apply ex_derive_n_comp_opp;
      apply (filter_imp (fun y => lo < y < hi)); [intros y Hy j Hj; apply Hd; [exact Hy|lia]|apply locally_between; lra])).
    specialize (G (- t) (- a) ltac:(lra) ltac:(lra) ltac:(lra)).
    rewrite (Rabs_left a N).
    replace (tay n f t a) with (tay n (fun y => f (- y)) (- t) (- a)).
    + replace (f (t + a)) with (f (- (- t + - a))) by (f_equal; ring). apply G.
      intros s Hs. replace s with (- - s) by ring. rewrite HD by (lia || lra).
      rewrite Rabs_mult, pow_1_abs, Rmult_1_l.
      apply HM. rewrite Rmin_right, Rmax_left by lra. lra.
    + unfold tay. apply sum_eq. intros k Hk. rewrite HD by (lia || lra).
      replace (a ^ k) with ((- a) ^ k * (-1) ^ k); [unfold Rdiv; ring|].
      rewrite <- Rpow_mult_distr. f_equal. ring.
  - subst a. rewrite Rabs_R0. replace (tay n f t 0) with (f (t + 0)).
    + rewrite Rminus_eq_0, Rabs_R0, pow_i by lia. unfold Rdiv. rewrite Rmult_0_l, Rmult_0_r. lra.
    + unfold tay. rewrite Rplus_0_r. clear. induction n as [|m IH]; cbn [sum_f_R0].
      * cbn. field.
      * rewrite <- IH. rewrite pow_i by lia. unfold Rdiv. ring.
  - rewrite (Rabs_right a) by lra. apply (tay_fwd f n lo hi M Hd); [lra..|].
    intros s Hs. apply HM. rewrite Rmin_left, Rmax_right by lra. lra.
Qed.

(** ** Error of a stencil *)
Definition weight (m : nat) (l : list (Z * R)) : R := lsum (map (fun ow => Rabs (snd ow) * Rabs (IZR (fst ow)) ^ m) l).
Definition st_tay (n : nat) (l : list (Z * R)) (f : R -> R) (t h : R) : R :=
  lsum (map (fun ow => snd ow * tay n f t (h * IZR (fst ow))) l).

Lemma st_error n l f lo hi M t h a b : 0 < h -> lo < a -> b < hi -> a <= t <= b ->
  (forall s k, lo < s < hi -> (k <= S n)%nat -> ex_derive_n f k s) ->
  (forall s, a <= s <= b -> Rabs (Derive_n f (S n) s) <= M) ->
  (forall ow, In ow l -> a <= t + h * IZR (fst ow) <= b) ->
  Rabs (st l f t h - st_tay n l f t h) <= M * (h ^ S n / INR (fact (S n))) * weight (S n) l.
Proof.
  intros Hh La Lb Ht Hd HM. unfold st, st_tay, weight.
  induction l as [|ow l IH]; intros Hin.
  - cbn [map]. rewrite !lsum_nil. rewrite Rminus_0_r, Rabs_R0, Rmult_0_r. lra.
  - cbn [map]. rewrite !lsum_cons.
    specialize (IH (fun q Hq => Hin q (or_intror Hq))). assert (H0 := Hin ow (or_introl eq_refl)).
    set (A := lsum _) in IH |- *. set (B := lsum _) in IH |- *. set (C := lsum _) in IH |- *.
    assert (T := tay_both f n lo hi M t (h * IZR (fst ow)) Hd ltac:(lra) ltac:(lra)).
    specialize (T ltac:(intros s Hs; apply HM; unfold Rbasic_fun.Rmin, Rbasic_fun.Rmax in Hs; repeat destruct (Rle_dec _ _) in Hs; lra)).
    rewrite Rabs_mult, Rpow_mult_distr, (Rabs_right h) in T by lra.
    replace (snd ow * f (t + h * IZR (fst ow)) + A - (snd ow * tay n f t (h * IZR (fst ow)) + B))
      with (snd ow * (f (t + h * IZR (fst ow)) - tay n f t (h * IZR (fst ow))) + (A - B)) by ring.
    eapply Rle_trans; [apply Rabs_triang|]. rewrite Rabs_mult.
    apply (Rmult_le_compat_l (Rabs (snd ow))) in T; [|apply Rabs_pos].
    rewrite Rmult_plus_distr_l. apply Rplus_le_compat; [|exact IH].
    eapply Rle_trans; [exact T|]. right. unfold Rdiv. ring.
Qed.

Ltac stencil_tay := intros; unfold st_tay, tay, mirror, mirror_neg, offset_2nd, offset_1st, centred_2nd, centred_1st;
  cbn [map fst snd Z.opp]; rewrite !lsum_cons, lsum_nil; cbn [sum_f_R0];
  replace (INR (fact 0)) with 1 by reflexivity; replace (INR (fact 1)) with 1 by reflexivity;
  replace (INR (fact 2)) with 2 by (cbn; ring); replace (INR (fact 3)) with 6 by (cbn; ring);
  replace (INR (fact 4)) with 24 by (cbn; ring); try replace (INR (fact 5)) with 120 by (cbn; ring);
  change (Derive ?f ?t) with (Derive_n f 1 t);
  nR; field.
Lemma tay_centred_2nd f t h : st_tay 5 centred_2nd f t h = h * h * Derive_n f 2 t.
Proof. stencil_tay. Qed.
Lemma tay_offset_2nd f t h : st_tay 5 offset_2nd f t h = h * h * Derive_n f 2 t.
Proof. stencil_tay. Qed.
Lemma tay_mirror_2nd f t h : st_tay 5 (mirror offset_2nd) f t h = h * h * Derive_n f 2 t.
Proof. stencil_tay. Qed.
Lemma tay_centred_1st f t h : st_tay 4 centred_1st f t h = h * Derive_n f 1 t.
Proof. stencil_tay. Qed.
Lemma tay_offset_1st f t h : st_tay 4 offset_1st f t h = h * Derive_n f 1 t.
Proof. stencil_tay. Qed.
Lemma tay_mirror_1st f t h : st_tay 4 (mirror_neg offset_1st) f t h = h * Derive_n f 1 t.
Proof. stencil_tay. Qed.

Ltac weigh := unfold weight, mirror, mirror_neg, offset_2nd, offset_1st, centred_2nd, centred_1st;
  cbn [map fst snd Z.opp]; rewrite !lsum_cons, lsum_nil; nR;
  repeat match goal with |- context [Rabs ?x] => first [rewrite (Rabs_right x) by lra | rewrite (Rabs_left x) by lra] end;
  field.
Lemma weight_centred_2nd : weight 6 centred_2nd = 40 / 3.
Proof. weigh. Qed.
Lemma weight_offset_2nd : weight 6 offset_2nd = 2345 / 3.
Proof. weigh. Qed.
Lemma weight_mirror_2nd : weight 6 (mirror offset_2nd) = 2345 / 3.
Proof. weigh. Qed.
Lemma weight_centred_1st : weight 5 centred_1st = 20 / 3.
Proof. weigh. Qed.
Lemma weight_offset_1st : weight 5 offset_1st = 38.
Proof. weigh. Qed.
Lemma weight_mirror_1st : weight 5 (mirror_neg offset_1st) = 38.
Proof. weigh. Qed.

Lemma scale2 a D h w c M : 0 < h -> Rabs (a - h * h * D) <= M * (h ^ 6 / INR (fact 6)) * w -> w / 720 <= c -> 0 <= M ->
  Rabs (a / (h * h) - D) <= M * (c * h ^ 4).
Proof.
  intros Hh E Hc HM. replace (INR (fact 6)) with 720 in E by (cbn; ring).
  replace (a / (h * h) - D) with ((a - h * h * D) * / (h * h)) by (field; lra).
  assert (P : 0 < h * h) by nra. assert (PI := Rinv_0_lt_compat _ P).
  rewrite Rabs_mult, (Rabs_right (/ (h * h))) by lra.
  apply Rle_trans with (M * (h ^ 6 / 720) * w * / (h * h)); [apply Rmult_le_compat_r; lra|].
  replace (M * (h ^ 6 / 720) * w * / (h * h)) with (M * h ^ 4 * (w / 720)) by (field; lra).
  assert (0 <= M * h ^ 4) by (apply Rmult_le_pos; [exact HM|apply pow_le; lra]). nra.
Qed.
Lemma scale1 a D h w c M : 0 < h -> Rabs (a - h * D) <= M * (h ^ 5 / INR (fact 5)) * w -> w / 120 <= c -> 0 <= M ->
  Rabs (a / h - D) <= M * (c * h ^ 4).
Proof.
  intros Hh E Hc HM. replace (INR (fact 5)) with 120 in E by (cbn; ring).
  replace (a / h - D) with ((a - h * D) * / h) by (field; lra).
  assert (PI := Rinv_0_lt_compat _ Hh).
  rewrite Rabs_mult, (Rabs_right (/ h)) by lra.
  apply Rle_trans with (M * (h ^ 5 / 120) * w * / h); [apply Rmult_le_compat_r; lra|].
  replace (M * (h ^ 5 / 120) * w * / h) with (M * h ^ 4 * (w / 120)) by (field; lra).
  assert (0 <= M * h ^ 4) by (apply Rmult_le_pos; [exact HM|apply pow_le; lra]). nra.
Qed.

(** ** The operator *)
(** A flux that is six times differentiable in each variable for r > 0, with fifth and sixth radial
    derivatives and sixth vertical derivative bounded by [M] on the domain. *)
Definition smooth6 (psi : R -> R -> R) (Rmin Rmax Zmin Zmax M : R) : Prop :=
  (forall r z k, 0 < r -> (k <= 6)%nat -> ex_derive_n (fun t => psi t z) k r) /\
  (forall r z k, 0 < r -> (k <= 6)%nat -> ex_derive_n (fun t => psi r t) k z) /\
  (forall r z, Rmin <= r <= Rmax -> Zmin <= z <= Zmax ->
     Rabs (Derive_n (fun t => psi t z) 5 r) <= M /\ Rabs (Derive_n (fun t => psi t z) 6 r) <= M /\
     Rabs (Derive_n (fun t => psi r t) 6 z) <= M).

Section Operator.
  Variables (psi : R -> R -> R) (Rmin Rmax Zmin Zmax M : R) (nx ny : nat).
  Hypotheses (H0 : 0 < Rmin) (HR : Rmin < Rmax) (HZ : Zmin < Zmax) (Hnx : (6 <= nx)%nat) (Hny : (6 <= ny)%nat).
  Hypothesis Hs : smooth6 psi Rmin Rmax Zmin Zmax M.
  Let dR := (Rmax - Rmin) / INR (nx - 1).
  Let dZ := (Zmax - Zmin) / INR (ny - 1).

  Lemma M_pos : 0 <= M.
  Proof.
    destruct Hs as (_ & _ & B). destruct (B Rmin Zmin ltac:(lra) ltac:(lra)) as (B1 & _).
    eapply Rle_trans; [apply Rabs_pos|exact B1].
  Qed.
  Lemma off_range a b n i o : a < b -> (2 <= n)%nat -> (0 <= Z.of_nat i + o < Z.of_nat n)%Z ->
    a <= gridpt a b n i + (b - a) / INR (n - 1) * IZR o <= b.
  Proof.
    intros Hab Hn Ho.
    replace (gridpt a b n i + (b - a) / INR (n - 1) * IZR o) with (gridpt a b n (Z.to_nat (Z.of_nat i + o))).
    - apply gridpt_range; [exact Hab|exact Hn|lia].
    - unfold gridpt. rewrite INR_off by lia. ring.
  Qed.

  (** the error of the row of (x, y), given the constants of its stencils *)
  Lemma row_error x y c2z c2r c1r : interior nx ny x y ->
    weight 6 (zst ny y) / 720 <= c2z -> weight 6 (r2st nx x) / 720 <= c2r -> weight 5 (r1st nx x) / 120 <= c1r ->
    exists A, GSsparse4thOrder Rmin Rmax Zmin Zmax nx ny = Ok A /\
    Rabs (mat_apply A (fun x y => psi (gridpt Rmin Rmax nx x) (gridpt Zmin Zmax ny y)) nx ny (x * ny + y)
          - GSop psi (gridpt Rmin Rmax nx x) (gridpt Zmin Zmax ny y))
    <= M * (c2z * dZ ^ 4 + c2r * dR ^ 4 + c1r * dR ^ 4 / Rmin).
  Proof.
    intros Hi Wz W2 W1. assert (PM := M_pos).
    set (ps := fun x y => psi (gridpt Rmin Rmax nx x) (gridpt Zmin Zmax ny y)).
    destruct (GS4_apply Rmin Rmax Zmin Zmax nx ny Hnx Hny ps) as (A & E & Hin & _).
    exists A. split; [exact E|]. rewrite Hin by exact Hi. clear Hin E.
    fold dR dZ.
    assert (Hi' := Hi). unfold interior in Hi'.
    assert (PR := spacing_pos Rmin Rmax nx HR ltac:(lia)). fold dR in PR.
    assert (PZ := spacing_pos Zmin Zmax ny HZ ltac:(lia)). fold dZ in PZ.
    assert (Gr := gridpt_range Rmin Rmax nx x HR ltac:(lia) ltac:(lia)).
    assert (Gz := gridpt_range Zmin Zmax ny y HZ ltac:(lia) ltac:(lia)).
    assert (EZ : lsum (map (fun ow => snd ow * ps x (Z.to_nat (Z.of_nat y + fst ow))) (zst ny y))
       = st (zst ny y) (psi (gridpt Rmin Rmax nx x)) (gridpt Zmin Zmax ny y) dZ).
    { apply lsum_ext. intros ow Ho. apply zst_range in Ho; [|lia..].
      unfold ps. f_equal. f_equal. unfold gridpt. rewrite INR_off by lia. fold dZ. ring. }
    assert (ERg : forall l, (forall ow, In ow l -> (0 <= Z.of_nat x + fst ow < Z.of_nat nx)%Z) ->
       lsum (map (fun ow => snd ow * ps (Z.to_nat (Z.of_nat x + fst ow)) y) l)
       = st l (fun r => psi r (gridpt Zmin Zmax ny y)) (gridpt Rmin Rmax nx x) dR).
    { intros l Hl. apply lsum_ext. intros ow Ho. specialize (Hl ow Ho).
      unfold ps. f_equal. f_equal. unfold gridpt. rewrite INR_off by lia. fold dR. ring. }
    rewrite EZ, !ERg.
    2:{ intros ow Ho. apply r1st_range in Ho; [exact Ho|lia..]. }
    2:{ intros ow Ho. apply r2st_range in Ho; [exact Ho|lia..]. }
    clear EZ ERg ps.
    change (Rmin + dR * INR x) with (gridpt Rmin Rmax nx x).
    destruct Hs as (Dr & Dz & B).
    assert (OZ : forall ow, In ow (zst ny y) -> Zmin <= gridpt Zmin Zmax ny y + dZ * IZR (fst ow) <= Zmax).
    { intros ow Ho. apply zst_range in Ho; [|lia..]. apply off_range; [exact HZ|lia|exact Ho]. }
    assert (O2 : forall ow, In ow (r2st nx x) -> Rmin <= gridpt Rmin Rmax nx x + dR * IZR (fst ow) <= Rmax).
    { intros ow Ho. apply r2st_range in Ho; [|lia..]. apply off_range; [exact HR|lia|exact Ho]. }
    assert (O1 : forall ow, In ow (r1st nx x) -> Rmin <= gridpt Rmin Rmax nx x + dR * IZR (fst ow) <= Rmax).
    { intros ow Ho. apply r1st_range in Ho; [|lia..]. apply off_range; [exact HR|lia|exact Ho]. }
    set (r := gridpt Rmin Rmax nx x) in *. set (z := gridpt Zmin Zmax ny y) in *.
    assert (F1 := st_error 5 (zst ny y) (psi r) (Zmin - 1) (Zmax + 1) M z dZ Zmin Zmax PZ ltac:(lra) ltac:(lra) Gz
      (fun s k _ Hk => Dz r s k ltac:(lra) Hk) (fun s H => proj2 (proj2 (B r s Gr H))) OZ).
    assert (F2 := st_error 5 (r2st nx x) (fun t => psi t z) 0 (Rmax + 1) M r dR Rmin Rmax PR H0 ltac:(lra) Gr
      (fun s k H Hk => Dr s z k (proj1 H) Hk) (fun s H => proj1 (proj2 (B s z H Gz))) O2).
    assert (F3 := st_error 4 (r1st nx x) (fun t => psi t z) 0 (Rmax + 1) M r dR Rmin Rmax PR H0 ltac:(lra) Gr
      (fun s k H Hk => Dr s z k (proj1 H) (le_S _ _ Hk)) (fun s H => proj1 (B s z H Gz)) O1).
    assert (T1 : st_tay 5 (zst ny y) (psi r) z dZ = dZ * dZ * Derive_n (psi r) 2 z).
    { unfold zst. destruct (y =? 1)%nat; [apply tay_offset_2nd|].
      destruct (y =? ny - 2)%nat; [apply tay_mirror_2nd|apply tay_centred_2nd]. }
    assert (T2 : st_tay 5 (r2st nx x) (fun t => psi t z) r dR = dR * dR * Derive_n (fun t => psi t z) 2 r).
    { unfold r2st. destruct (x =? 1)%nat; [apply tay_offset_2nd|].
      destruct (x =? nx - 2)%nat; [apply tay_mirror_2nd|apply tay_centred_2nd]. }
    assert (T3 : st_tay 4 (r1st nx x) (fun t => psi t z) r dR = dR * Derive_n (fun t => psi t z) 1 r).
    { unfold r1st. destruct (x =? 1)%nat; [apply tay_offset_1st|].
      destruct (x =? nx - 2)%nat; [apply tay_mirror_1st|apply tay_centred_1st]. }
    rewrite T1 in F1. rewrite T2 in F2. rewrite T3 in F3. clear T1 T2 T3.
    apply (scale2 _ _ _ _ c2z _ PZ) in F1; [|exact Wz|exact PM].
    apply (scale2 _ _ _ _ c2r _ PR) in F2; [|exact W2|exact PM].
    apply (scale1 _ _ _ _ c1r _ PR) in F3; [|exact W1|exact PM].
    unfold GSop. change (Derive (fun t => psi t z) r) with (Derive_n (fun t => psi t z) 1 r).
    change (fun t => psi r t) with (psi r).
    set (a1 := st (zst ny y) (psi r) z dZ) in *. set (a2 := st (r2st nx x) _ r dR) in *. set (a3 := st (r1st nx x) _ r dR) in *.
    set (b1 := Derive_n (psi r) 2 z) in *. set (b2 := Derive_n (fun t => psi t z) 2 r) in *. set (b3 := Derive_n (fun t => psi t z) 1 r) in *.
    match goal with |- Rabs ?e <= _ =>
      replace e with ((a1 / (dZ * dZ) - b1) + (a2 / (dR * dR) - b2) + - ((a3 / dR - b3) * / r)) by (field; lra) end.
    eapply Rle_trans; [apply Rabs_triang|]. rewrite Rabs_Ropp, Rabs_mult.
    assert (Hir : 0 < / r <= / Rmin) by (split; [apply Rinv_0_lt_compat; lra|apply Rinv_le_contravar; lra]).
    rewrite (Rabs_right (/ r)) by lra.
    assert (HT := Rabs_triang (a1 / (dZ * dZ) - b1) (a2 / (dR * dR) - b2)).
    assert (G3 : Rabs (a3 / dR - b3) * / r <= M * (c1r * dR ^ 4) * / Rmin)
      by (apply Rmult_le_compat; [apply Rabs_pos|lra|exact F3|lra]).
    replace (M * (c2z * dZ ^ 4 + c2r * dR ^ 4 + c1r * dR ^ 4 / Rmin))
      with (M * (c2z * dZ ^ 4) + M * (c2r * dR ^ 4) + M * (c1r * dR ^ 4) * / Rmin) by (field; lra).
    lra.
  Qed.
End Operator.

(** C173 — the fourth-order operator applied to the samples of any smooth flux differs from the
    Grad-Shafranov operator by at most a constant times h^4, also in the rows next to the boundary,
    where one-sided stencils are used. *)
Theorem C173_fourth_order_truncation : forall psi Rmin Rmax Zmin Zmax nx ny M x y,
  0 < Rmin -> Rmin < Rmax -> Zmin < Zmax -> (6 <= nx)%nat -> (6 <= ny)%nat ->
  (1 <= x)%nat /\ (x + 1 < nx)%nat /\ (1 <= y)%nat /\ (y + 1 < ny)%nat ->
  smooth6 psi Rmin Rmax Zmin Zmax M ->
  let dR := (Rmax - Rmin) / INR (nx - 1) in
  let dZ := (Zmax - Zmin) / INR (ny - 1) in
  exists A, GSsparse4thOrder Rmin Rmax Zmin Zmax nx ny = Ok A /\
  Rabs (mat_apply A (fun x y => psi (gridpt Rmin Rmax nx x) (gridpt Zmin Zmax ny y)) nx ny (x * ny + y)
        - GSop psi (gridpt Rmin Rmax nx x) (gridpt Zmin Zmax ny y))
  <= M * (469 / 432 * dZ ^ 4 + 469 / 432 * dR ^ 4 + 19 / 60 * dR ^ 4 / Rmin).
Proof.
  intros psi Rmin Rmax Zmin Zmax nx ny M x y H0 HR HZ Hnx Hny Hi Hs dR dZ.
  apply row_error; try assumption.
  - unfold zst. destruct (y =? 1)%nat; [rewrite weight_offset_2nd; lra|].
    destruct (y =? ny - 2)%nat; [rewrite weight_mirror_2nd; lra|rewrite weight_centred_2nd; lra].
  - unfold r2st. destruct (x =? 1)%nat; [rewrite weight_offset_2nd; lra|].
    destruct (x =? nx - 2)%nat; [rewrite weight_mirror_2nd; lra|rewrite weight_centred_2nd; lra].
  - unfold r1st. destruct (x =? 1)%nat; [rewrite weight_offset_1st; lra|].
    destruct (x =? nx - 2)%nat; [rewrite weight_mirror_1st; lra|rewrite weight_centred_1st; lra].
Qed.
Print Assumptions C173_fourth_order_truncation.
(** psi = R^5 Z on 1 <= R <= 2, -1 <= Z <= 1: the fifth radial derivative 120 Z is not zero, so the
    radial first derivative is not exact on it. *)
Lemma Derive_n_quintic a b c d e f k t : Derive_n (pl a b c d e f) (S k) t = Derive_n (pl b (2 * c) (3 * d) (4 * e) (5 * f) 0) k t.
Proof.
  replace (S k) with (k + 1)%nat by lia. rewrite <- (Derive_n_comp (pl a b c d e f) k 1 t). apply Derive_n_ext. intros s. cbn [Derive_n].
  change (Derive (fun x => pl a b c d e f x) s) with (Derive (pl a b c d e f) s). rewrite Derive_pl. unfold pl. ring.
Qed.
Lemma ex_derive_n_quintic k : forall a b c d e f t, ex_derive_n (pl a b c d e f) k t.
Proof.
  induction k as [|k IH]; intros a b c d e f t; [exact I|]. destruct k as [|k].
  - cbn. unfold pl. auto_derive. exact I.
  - change (ex_derive (Derive_n (pl a b c d e f) (S k)) t). apply (ex_derive_ext (Derive_n (pl b (2 * c) (3 * d) (4 * e) (5 * f) 0) k)); [intros s; symmetry; apply Derive_n_quintic|].
    exact (IH b (2 * c) (3 * d) (4 * e) (5 * f) 0 t).
Qed.
Example C173_example : smooth6 (fun r z => r ^ 5 * z) 1 2 (-1) 1 120 /\
  GSop (fun r z => r ^ 5 * z) 1 1 = 15 /\ ~ smooth6 (fun r z => r ^ 5 * z) 1 2 (-1) 1 119.
Proof.
  assert (Fr : forall z t, t ^ 5 * z = pl 0 0 0 0 0 z t) by (intros; unfold pl; ring).
  assert (Fz : forall r t, r ^ 5 * t = pl 0 (r ^ 5) 0 0 0 0 t) by (intros; unfold pl; ring).
  assert (D5 : forall r z, Derive_n (fun t => t ^ 5 * z) 5 r = 120 * z).
  { intros r z. rewrite (Derive_n_ext _ _ _ _ (Fr z)), !Derive_n_quintic. cbn [Derive_n]. unfold pl. ring. }
  split; [|split].
  - split; [|split].
    + intros r z k _ _. eapply ex_derive_n_ext; [intros t; symmetry; apply (Fr z t)|apply ex_derive_n_quintic].
    + intros r z k _ _. eapply ex_derive_n_ext; [intros t; symmetry; apply (Fz r t)|apply ex_derive_n_quintic].
    + intros r z Hr Hz. rewrite D5, (Derive_n_ext _ _ _ _ (Fr z)), (Derive_n_ext _ _ _ _ (Fz r)), !Derive_n_quintic.
      cbn [Derive_n]. unfold pl. repeat split; apply Rabs_le; lra.
  - unfold GSop. rewrite (Derive_n_ext _ _ _ _ (Fr 1)), (Derive_n_ext _ _ _ _ (Fz 1)), !Derive2_pl.
    rewrite (Derive_ext _ _ _ (Fr 1)), Derive_pl. field.
  - intros (_ & _ & B). destruct (B 1 1 ltac:(lra) ltac:(lra)) as (B1 & _). rewrite D5 in B1.
    rewrite Rabs_right in B1; lra.
Qed.

(** Two points away from the boundary the centred stencils give much smaller constants. *)
Theorem C173_centred_rows : forall psi Rmin Rmax Zmin Zmax nx ny M x y,
  0 < Rmin -> Rmin < Rmax -> Zmin < Zmax -> (6 <= nx)%nat -> (6 <= ny)%nat ->
  (2 <= x)%nat /\ (x + 2 < nx)%nat /\ (2 <= y)%nat /\ (y + 2 < ny)%nat ->
  smooth6 psi Rmin Rmax Zmin Zmax M ->
  let dR := (Rmax - Rmin) / INR (nx - 1) in
  let dZ := (Zmax - Zmin) / INR (ny - 1) in
  exists A, GSsparse4thOrder Rmin Rmax Zmin Zmax nx ny = Ok A /\
  Rabs (mat_apply A (fun x y => psi (gridpt Rmin Rmax nx x) (gridpt Zmin Zmax ny y)) nx ny (x * ny + y)
        - GSop psi (gridpt Rmin Rmax nx x) (gridpt Zmin Zmax ny y))
  <= M * (1 / 54 * dZ ^ 4 + 1 / 54 * dR ^ 4 + 1 / 18 * dR ^ 4 / Rmin).
Proof.
  intros psi Rmin Rmax Zmin Zmax nx ny M x y H0 HR HZ Hnx Hny Hi Hs dR dZ.
  apply row_error; try assumption; [unfold interior; lia|..].
  - unfold zst. destruct (Nat.eqb_spec y 1); [lia|]. destruct (Nat.eqb_spec y (ny - 2)); [lia|]. rewrite weight_centred_2nd; lra.
  - unfold r2st. destruct (Nat.eqb_spec x 1); [lia|]. destruct (Nat.eqb_spec x (nx - 2)); [lia|]. rewrite weight_centred_2nd; lra.
  - unfold r1st. destruct (Nat.eqb_spec x 1); [lia|]. destruct (Nat.eqb_spec x (nx - 2)); [lia|]. rewrite weight_centred_1st; lra.
Qed.
Print Assumptions C173_centred_rows.
Example C173_centred_rows_example : (2 <= 2)%nat /\ (2 + 2 < 6)%nat /\ (2 <= 3)%nat /\ (3 + 2 < 6)%nat /\
  smooth6 (fun r z => r ^ 5 * z) 1 2 (-1) 1 120.
Proof. split; [lia|]. split; [lia|]. split; [lia|]. split; [lia|]. apply C173_example. Qed.
