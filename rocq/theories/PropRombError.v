(** C169-C170: how far the Romberg rule is from the integral. *)
From Coq Require Import List Arith ZArith Bool Reals Lra Lia.
From Coquelicot Require Import Coquelicot.
From Verif Require Import Py Num Numpy Romb RombProofs RombExact PropRomb Boundary BoundarySpec.
Import ListNotations.
Local Open Scope R_scope.

(** ** Lipschitz functions *)
Definition lip (f : R -> R) (a b K : R) : Prop := forall x y, a <= x <= b -> a <= y <= b -> Rabs (f x - f y) <= K * Rabs (x - y).
Lemma lip_sub f a b a' b' K : a <= a' -> b' <= b -> lip f a b K -> lip f a' b' K.
Proof. intros H1 H2 H x y Hx Hy. apply H; lra. Qed.
(** the nearest point of the interval *)
Definition clamp (a b x : R) : R := Rbasic_fun.Rmax a (Rbasic_fun.Rmin b x).
Lemma clamp_in a b x : a <= b -> a <= clamp a b x <= b.
Proof. intros H. unfold clamp, Rmax, Rbasic_fun.Rmin. destruct (Rle_dec b x); destruct (Rle_dec a _); lra. Qed.
Lemma clamp_id a b x : a <= x <= b -> clamp a b x = x.
Proof. intros H. unfold clamp, Rmax, Rbasic_fun.Rmin. destruct (Rle_dec b x); destruct (Rle_dec a _); lra. Qed.
Lemma clamp_lip a b x y : a <= b -> Rabs (clamp a b x - clamp a b y) <= Rabs (x - y).
Proof.
  intros H. unfold clamp, Rmax, Rbasic_fun.Rmin. destruct (Rle_dec b x); destruct (Rle_dec a _); destruct (Rle_dec b y); try destruct (Rle_dec a _);
  try lra; unfold Rabs; repeat destruct (Rcase_abs _); lra.
Qed.
Lemma lip_pos f a b K : a < b -> lip f a b K -> 0 <= K.
Proof.
  intros H HL. assert (X := HL a b ltac:(lra) ltac:(lra)). assert (Y := Rabs_pos (f a - f b)). assert (0 < Rabs (a - b)) by (apply Rabs_pos_lt; lra). nra.
Qed.
Lemma lip_ex_RInt f a b K : a <= b -> lip f a b K -> ex_RInt f a b.
Proof.
  intros H HL. apply (ex_RInt_ext (fun x => f (clamp a b x))).
  { intros x Hx. rewrite Rmin_left, Rmax_right in Hx by lra. rewrite clamp_id by lra. reflexivity. }
  apply (ex_RInt_continuous (V := R_CompleteNormedModule)). intros z _. apply continuity_pt_filterlim. intros eps Heps.
  assert (HK : 0 < Rabs K + 1) by (assert (X := Rabs_pos K); lra).
  exists (eps / (Rabs K + 1)). split; [apply Rdiv_lt_0_compat; assumption|]. intros x (_ & Hx). cbn in *. unfold R_dist in *.
  eapply Rle_lt_trans; [apply HL; apply clamp_in; exact H|].
  apply Rle_lt_trans with ((Rabs K + 1) * Rabs (x - z)).
  - apply Rle_trans with (Rabs K * Rabs (clamp a b x - clamp a b z)).
    + apply Rmult_le_compat_r; [apply Rabs_pos|apply Rle_abs].
    + apply Rmult_le_compat; try apply Rabs_pos; [lra|apply clamp_lip; exact H].
  - apply Rlt_le_trans with ((Rabs K + 1) * (eps / (Rabs K + 1))); [apply Rmult_lt_compat_l; assumption|]. right. field. lra.
Qed.
Lemma const_int (e a b : R) : is_RInt (fun _ => e) a b (e * (b - a)).
Proof. replace (e * (b - a)) with ((b - a) * e) by ring. exact (is_RInt_const (V := R_NormedModule) a b e). Qed.
Lemma ramp_int K a b s : is_RInt (fun x => K * (s * (x - a))) a b (K * s * (b - a) ^ 2 / 2).
Proof.
  replace (K * s * (b - a) ^ 2 / 2) with (K * s * (b - a) ^ 2 / 2 - K * s * (a - a) ^ 2 / 2) by (unfold Rdiv; ring).
  apply (is_RInt_derive (V := R_CompleteNormedModule) (fun x => K * s * (x - a) ^ 2 / 2)).
  - intros x _. auto_derive; [exact I|]. field.
  - intros x _. apply (ex_derive_continuous (fun x => K * (s * (x - a)))). auto_derive. exact I.
Qed.
Lemma ramp_int' K a b : is_RInt (fun x => K * (b - x)) a b (K * (b - a) ^ 2 / 2).
Proof.
  replace (K * (b - a) ^ 2 / 2) with (- (K * (b - b) ^ 2 / 2) - - (K * (b - a) ^ 2 / 2)) by (unfold Rdiv; ring).
  apply (is_RInt_derive (V := R_CompleteNormedModule) (fun x => - (K * (b - x) ^ 2 / 2))).
  - intros x _. auto_derive; [exact I|]. field.
  - intros x _. apply (ex_derive_continuous (fun x => K * (b - x))). auto_derive. exact I.
Qed.
(** the integral over a half panel and the value at its outer end *)
Lemma half_left f a b K : a <= b -> lip f a b K -> Rabs ((b - a) * f a - RInt f a b) <= K * (b - a) ^ 2 / 2.
Proof.
  intros H HL. assert (EX := lip_ex_RInt f a b K H HL).
  replace ((b - a) * f a - RInt f a b) with (RInt (fun x => f a - f x) a b).
  2:{ etransitivity; [exact (RInt_minus (V := R_CompleteNormedModule) (fun _ => f a) f a b (ex_RInt_const a b (f a)) EX)|]. rewrite RInt_const. reflexivity. }
  apply (norm_RInt_le (V := R_NormedModule) (fun x => f a - f x) (fun x => K * (1 * (x - a))) a b _ _ H).
  - intros x Hx. change (norm (f a - f x)) with (Rabs (f a - f x)). eapply Rle_trans; [apply HL; lra|]. rewrite Rabs_left1 by lra. right. ring.
  - apply (RInt_correct (V := R_CompleteNormedModule)). apply (ex_RInt_minus (V := R_NormedModule) (fun _ => f a) f); [apply ex_RInt_const|exact EX].
  - replace (K * (b - a) ^ 2 / 2) with (K * 1 * (b - a) ^ 2 / 2) by (unfold Rdiv; ring). apply ramp_int.
Qed.
Lemma half_right f a b K : a <= b -> lip f a b K -> Rabs ((b - a) * f b - RInt f a b) <= K * (b - a) ^ 2 / 2.
Proof.
  intros H HL. assert (EX := lip_ex_RInt f a b K H HL).
  replace ((b - a) * f b - RInt f a b) with (RInt (fun x => f b - f x) a b).
  2:{ etransitivity; [exact (RInt_minus (V := R_CompleteNormedModule) (fun _ => f b) f a b (ex_RInt_const a b (f b)) EX)|]. rewrite RInt_const. reflexivity. }
  apply (norm_RInt_le (V := R_NormedModule) (fun x => f b - f x) (fun x => K * (b - x)) a b _ _ H).
  - intros x Hx. change (norm (f b - f x)) with (Rabs (f b - f x)). eapply Rle_trans; [apply HL; lra|]. rewrite Rabs_right by lra. right. ring.
  - apply (RInt_correct (V := R_CompleteNormedModule)). apply (ex_RInt_minus (V := R_NormedModule) (fun _ => f b) f); [apply ex_RInt_const|exact EX].
  - apply ramp_int'.
Qed.
Lemma panel f a b K : a <= b -> lip f a b K -> Rabs ((b - a) * ((f a + f b) / 2) - RInt f a b) <= K * (b - a) ^ 2 / 4.
Proof.
  intros H HL. set (m := (a + b) / 2).
  assert (L1 : lip f a m K) by (apply (lip_sub f a b); unfold m; try lra; exact HL). assert (L2 : lip f m b K) by (apply (lip_sub f a b); unfold m; try lra; exact HL).
  assert (H1 := half_left f a m K ltac:(unfold m; lra) L1). assert (H2 := half_right f m b K ltac:(unfold m; lra) L2).
  assert (C : RInt f a m + RInt f m b = RInt f a b) by (apply (RInt_Chasles (V := R_CompleteNormedModule) f a m b); [apply (lip_ex_RInt f _ _ K); [unfold m; lra|exact L1]|apply (lip_ex_RInt f _ _ K); [unfold m; lra|exact L2]]).
  rewrite <- C. replace ((b - a) * ((f a + f b) / 2) - (RInt f a m + RInt f m b)) with (((m - a) * f a - RInt f a m) + ((b - m) * f b - RInt f m b)) by (unfold m; field).
  eapply Rle_trans; [apply Rabs_triang|]. replace (K * (b - a) ^ 2 / 4) with (K * (m - a) ^ 2 / 2 + K * (b - m) ^ 2 / 2) by (unfold m; field). lra.
Qed.
(** panels side by side *)
Lemma panels f x0 h K n : 0 <= h -> lip f x0 (x0 + INR n * h) K ->
  Rabs (h * nsum n (fun t => (f (x0 + INR t * h) + f (x0 + INR (t + 1) * h)) / 2) - RInt f x0 (x0 + INR n * h)) <= INR n * (K * h ^ 2 / 4).
Proof.
  intros Hh. induction n as [|n IH]; intros HL.
  - rewrite nsum_O. cbn [INR]. rewrite Rmult_0_l, Rplus_0_r, RInt_point. change (zero (G := R_CompleteNormedModule)) with 0. rewrite Rmult_0_r, Rminus_0_r, Rabs_R0. lra.
  - assert (Hn := pos_INR n). rewrite S_INR in *. assert (0 <= INR n * h) by (apply Rmult_le_pos; assumption).
    assert (L1 : lip f x0 (x0 + INR n * h) K) by (apply (lip_sub f x0 (x0 + (INR n + 1) * h)); try lra; exact HL).
    assert (L2 : lip f (x0 + INR n * h) (x0 + (INR n + 1) * h) K) by (apply (lip_sub f x0 (x0 + (INR n + 1) * h)); try lra; exact HL).
    specialize (IH L1). assert (P := panel f (x0 + INR n * h) (x0 + (INR n + 1) * h) K ltac:(lra) L2).
    assert (C : RInt f x0 (x0 + INR n * h) + RInt f (x0 + INR n * h) (x0 + (INR n + 1) * h) = RInt f x0 (x0 + (INR n + 1) * h))
      by (apply (RInt_Chasles (V := R_CompleteNormedModule)); [apply (lip_ex_RInt f _ _ K); [lra|exact L1]|apply (lip_ex_RInt f _ _ K); [lra|exact L2]]).
    rewrite <- C, nsum_S. replace (INR (n + 1)) with (INR n + 1) by (rewrite plus_INR; reflexivity).
    replace (x0 + (INR n + 1) * h - (x0 + INR n * h)) with h in P by ring.
    match goal with |- Rabs (h * (?s + ?l) - (?A + ?B)) <= _ => replace (h * (s + l) - (A + B)) with ((h * s - A) + (h * l - B)) by ring end.
    eapply Rle_trans; [apply Rabs_triang|]. lra.
Qed.

(** ** The extrapolation *)
Lemma tz_scale k y dx i : tz k y dx i = dx * tz k y 1 i.
Proof. induction i as [|i IH]; cbn [tz]; [|rewrite IH]; field; apply pow_nonzero; lra. Qed.
Lemma rt_scale k y dx j : forall i, rt k y dx j i = dx * rt k y 1 j i.
Proof. induction j as [|j IH]; intros i; cbn [rt]; [apply tz_scale|]. rewrite (IH i), (IH (i - 1)%nat). field. apply four_pow. Qed.
Lemma tz_error k f x0 dx K i : 0 < dx -> (i <= k)%nat -> lip f x0 (x0 + INR (2 ^ k) * dx) K ->
  Rabs (tz k (fun t => f (x0 + INR t * dx)) dx i - RInt f x0 (x0 + INR (2 ^ k) * dx)) <= K * (INR (2 ^ k) * dx) ^ 2 / 4 / 2 ^ i.
Proof.
  intros Hdx Hi HL. rewrite tz_trap by exact Hi. set (L := INR (2 ^ k) * dx) in *. set (h := L / 2 ^ i).
  assert (P2 : 0 < 2 ^ i) by (apply pow_lt; lra).
  assert (Eh : INR (2 ^ (k - i)) * dx = h).
  { unfold h, L. rewrite !INR_pow2. replace (2 ^ k) with (2 ^ (k - i) * 2 ^ i) by (rewrite <- pow_add; f_equal; lia). field. lra. }
  assert (EL : INR (2 ^ i) * h = L) by (unfold h; rewrite INR_pow2; field; lra).
  rewrite <- EL in HL. rewrite <- EL at 1.
  assert (X : 0 <= h) by (rewrite <- Eh; apply Rmult_le_pos; [apply pos_INR|lra]).
  assert (P := panels f x0 h K (2 ^ i) X HL).
  replace (K * L ^ 2 / 4 / 2 ^ i) with (INR (2 ^ i) * (K * h ^ 2 / 4)) by (unfold h; rewrite INR_pow2; field; lra).
  rewrite (nsum_ext (2 ^ i) _ (fun t => (f (x0 + INR t * h) + f (x0 + INR (t + 1) * h)) / 2)); [exact P|].
  intros t _. rewrite !mult_INR, <- Eh, !Rmult_assoc. reflexivity.
Qed.
(** the growth of a first order error in the table *)
Fixpoint amp (j : nat) : R := match j with O => 1 | S j' => amp j' * ((4 ^ S j' + 2) / (4 ^ S j' - 1)) end.
Lemma amp_pos j : 0 < amp j.
Proof.
  induction j as [|j IH]; cbn [amp]; [lra|]. apply Rmult_lt_0_compat; [exact IH|]. assert (H := four_gt1 j). apply Rdiv_lt_0_compat; lra.
Qed.
Lemma amp_le j : amp (S j) <= 3 * (1 - (/ 4) ^ S j).
Proof.
  induction j as [|j IH].
  - cbn. lra.
  - change (amp (S (S j))) with (amp (S j) * ((4 ^ S (S j) + 2) / (4 ^ S (S j) - 1))). assert (H := four_gt1 (S j)).
    set (q := (/ 4) ^ S j) in *. assert (Hq : 0 < q) by (apply pow_lt; lra). assert (Hq1 : q <= 1) by (unfold q; rewrite <- (pow1 (S j)); apply pow_incr; lra).
    assert (E : 4 ^ S (S j) = 4 / q).
    { unfold q. rewrite pow_inv. change (4 ^ S (S j)) with (4 * 4 ^ S j). field. apply pow_nonzero; lra. }
    change ((/ 4) ^ S (S j)) with (/ 4 * q). rewrite E in *.
    assert (E2 : (4 / q + 2) / (4 / q - 1) = (4 + 2 * q) / (4 - q)) by (field; lra).
    rewrite E2. assert (0 < (4 + 2 * q) / (4 - q)) by (apply Rdiv_lt_0_compat; lra).
    apply Rle_trans with (3 * (1 - q) * ((4 + 2 * q) / (4 - q))); [apply Rmult_le_compat_r; lra|].
    apply Rmult_le_reg_r with (4 - q); [lra|]. replace (3 * (1 - q) * ((4 + 2 * q) / (4 - q)) * (4 - q)) with (3 * (1 - q) * (4 + 2 * q)) by (field; lra). nra.
Qed.
Lemma amp_3 j : amp j <= 3.
Proof. destruct j as [|j]; [cbn; lra|]. assert (H := amp_le j). assert (0 < (/ 4) ^ S j) by (apply pow_lt; lra). lra. Qed.
Lemma rt_error k y dx I C : (forall i, (i <= k)%nat -> Rabs (tz k y dx i - I) <= C / 2 ^ i) ->
  forall j i, (j <= i)%nat -> (i <= k)%nat -> Rabs (rt k y dx j i - I) <= C * amp j / 2 ^ i.
Proof.
  intros H0. induction j as [|j IH]; intros i Hji Hi.
  - cbn [rt amp]. rewrite Rmult_1_r. apply H0, Hi.
  - destruct i as [|i]; [lia|]. cbn [rt]. replace (S i - 1)%nat with i by lia. assert (A := IH (S i) ltac:(lia) Hi). assert (B := IH i ltac:(lia) ltac:(lia)).
    assert (Hf := four_gt1 j). set (F := 4 ^ S j) in *. set (u := rt k y dx j (S i)) in *. set (v := rt k y dx j i) in *.
    replace (u + (u - v) / (F - 1) - I) with ((F / (F - 1)) * (u - I) + (/ (F - 1)) * (-(v - I))) by (field; lra).
    eapply Rle_trans; [apply Rabs_triang|]. rewrite !Rabs_mult, Rabs_Ropp, (Rabs_right (F / (F - 1))), (Rabs_right (/ (F - 1))).
    2:{ apply Rle_ge, Rlt_le, Rinv_0_lt_compat. lra. }
    2:{ apply Rle_ge, Rlt_le, Rdiv_lt_0_compat; lra. }
    change (amp (S j)) with (amp j * ((F + 2) / (F - 1))). assert (P2 : 0 < 2 ^ i) by (apply pow_lt; lra).
    apply Rle_trans with (F / (F - 1) * (C * amp j / 2 ^ S i) + / (F - 1) * (C * amp j / 2 ^ i)).
    + apply Rplus_le_compat; (apply Rmult_le_compat_l; [|assumption]); apply Rlt_le; [apply Rdiv_lt_0_compat; lra|apply Rinv_0_lt_compat; lra].
    + right. cbn [pow]. field. split; lra.
Qed.

Lemma ok_inj {A} (a b : A) : Ok a = Ok b -> a = b.
Proof. intros E. congruence. Qed.

(** ** C169 *)
(** For a function with Lipschitz constant K the rule is within 3/4 K L dx of the integral over the
    sampled interval of length L. *)
Theorem C169_lipschitz : forall k dx x0 f K, 0 < dx -> lip f x0 (x0 + INR (2 ^ k) * dx) K ->
  exists v, romb (S (2 ^ k)) (fun t => f (x0 + INR t * dx)) dx = Ok v /\
  Rabs (v - RInt f x0 (x0 + INR (2 ^ k) * dx)) <= 3 / 4 * K * (INR (2 ^ k) * dx) * dx.
Proof.
  intros k dx x0 f K Hdx HL. eexists. split; [apply romb_rt|].
  assert (P2 : 0 < 2 ^ k) by (apply pow_lt; lra). assert (HL2 : 0 < INR (2 ^ k) * dx) by (rewrite INR_pow2; apply Rmult_lt_0_compat; lra).
  assert (HK : 0 <= K) by (apply (lip_pos f x0 (x0 + INR (2 ^ k) * dx)); [lra|exact HL]).
  eapply Rle_trans; [apply (rt_error k _ dx (RInt f x0 (x0 + INR (2 ^ k) * dx)) (K * (INR (2 ^ k) * dx) ^ 2 / 4)); [|lia|lia]|].
  - intros i Hi. apply tz_error; assumption.
  - rewrite INR_pow2 in *. assert (A := amp_3 k). assert (B := amp_pos k).
    replace (K * (2 ^ k * dx) ^ 2 / 4 * amp k / 2 ^ k) with (amp k * (K * (2 ^ k * dx) * dx / 4)) by (field; lra).
    replace (3 / 4 * K * (2 ^ k * dx) * dx) with (3 * (K * (2 ^ k * dx) * dx / 4)) by field.
    apply Rmult_le_compat_r; [|exact A]. apply Rmult_le_pos; [|lra]. repeat apply Rmult_le_pos; lra.
Qed.
Print Assumptions C169_lipschitz.
Example C169_example : exists v, romb 65 (fun t => Rabs (-1 + INR t * / 32)) (/ 32) = Ok v /\ Rabs (v - 1) <= / 21.
Proof.
  assert (HL : lip Rabs (-1) (-1 + INR (2 ^ 6) * / 32) 1).
  { intros x y _ _. rewrite Rmult_1_l. apply Rabs_triang_inv2. }
  destruct (C169_lipschitz 6 (/ 32) (-1) Rabs 1 ltac:(lra) HL) as (v & Ev & Hv). exists v. split; [exact Ev|].
  replace (-1 + INR (2 ^ 6) * / 32) with 1 in Hv by (rewrite INR_pow2; field).
  replace (RInt Rabs (-1) 1) with 1 in Hv.
  - rewrite INR_pow2 in Hv. lra.
  - symmetry. rewrite <- (RInt_Chasles (V := R_CompleteNormedModule) Rabs (-1) 0 1).
    + change (RInt Rabs (-1) 0 + RInt Rabs 0 1 = 1).
      rewrite (RInt_ext Rabs (fun x => 1 * (0 - x)) (-1) 0), (RInt_ext Rabs (fun x => 1 * (1 * (x - 0))) 0 1).
      * assert (H1 := is_RInt_unique (V := R_CompleteNormedModule) _ _ _ _ (ramp_int' 1 (-1) 0)).
        assert (H2 := is_RInt_unique (V := R_CompleteNormedModule) _ _ _ _ (ramp_int 1 0 1 1)).
        rewrite H1, H2. field.
      * intros x Hx. rewrite Rmin_left, Rmax_right in Hx by lra. change (Rabs x = 1 * (1 * (x - 0))). rewrite Rabs_right by lra. ring.
      * intros x Hx. rewrite Rmin_left, Rmax_right in Hx by lra. change (Rabs x = 1 * (0 - x)). rewrite Rabs_left by lra. ring.
    + apply (lip_ex_RInt Rabs (-1) 0 1); [lra|]. intros x y _ _. rewrite Rmult_1_l. apply Rabs_triang_inv2.
    + apply (lip_ex_RInt Rabs 0 1 1); [lra|]. intros x y _ _. rewrite Rmult_1_l. apply Rabs_triang_inv2.
Qed.

Lemma romb_abs k y dx e : 0 < dx -> (forall t, (t <= 2 ^ k)%nat -> Rabs (y t) <= e) -> Rabs (rt k y dx k k) <= e * (INR (2 ^ k) * dx).
Proof.
  intros Hdx Hy.
  assert (C : rt k (fun t => e + 0 * INR t) dx k k = e * (INR (2 ^ k) * dx)) by (rewrite rt_line by lia; unfold Rdiv; ring).
  assert (U : 0 <= rt k (fun t => 1 * (e + 0 * INR t) + 1 * y t) dx k k).
  { apply rt_nonneg; [|exact Hdx]. intros t Ht. specialize (Hy t Ht). apply Rabs_le_between in Hy. lra. }
  assert (V : 0 <= rt k (fun t => 1 * (e + 0 * INR t) + (-1) * y t) dx k k).
  { apply rt_nonneg; [|exact Hdx]. intros t Ht. specialize (Hy t Ht). apply Rabs_le_between in Hy. lra. }
  rewrite rt_linear, C in U, V. apply Rabs_le. lra.
Qed.
(** A function within [e] of some polynomial of degree at most 2k+1: the rule is within 2 L e of the integral. *)
Theorem C169_near_polynomial : forall k dx d c f e, 0 < dx -> (d <= 2 * k + 1)%nat -> ex_RInt f 0 (INR (2 ^ k) * dx) ->
  (forall x, 0 <= x <= INR (2 ^ k) * dx -> Rabs (f x - poly d c x) <= e) ->
  exists v, romb (S (2 ^ k)) (fun t => f (INR t * dx)) dx = Ok v /\ Rabs (v - RInt f 0 (INR (2 ^ k) * dx)) <= 2 * (INR (2 ^ k) * dx) * e.
Proof.
  intros k dx d c f e Hdx Hd EX He. eexists. split; [apply romb_rt|]. set (L := INR (2 ^ k) * dx) in *.
  assert (HP := C89_exact_for_polynomials k dx d c Hd). rewrite romb_rt in HP. assert (HP' : rt k (fun t => poly d c (INR t * dx)) dx k k = RInt (poly d c) 0 L) by exact (ok_inj _ _ HP). clear HP.
  assert (L0 : 0 <= L) by (unfold L; apply Rmult_le_pos; [apply pos_INR|lra]).
  assert (EP : ex_RInt (poly d c) 0 L) by (eexists; apply poly_int).
  assert (A : Rabs (rt k (fun t => 1 * f (INR t * dx) + (-1) * poly d c (INR t * dx)) dx k k) <= e * L).
  { apply romb_abs; [exact Hdx|]. intros t Ht. replace (1 * f (INR t * dx) + -1 * poly d c (INR t * dx)) with (f (INR t * dx) - poly d c (INR t * dx)) by ring.
    apply He. split; [apply Rmult_le_pos; [apply pos_INR|lra]|]. unfold L. apply Rmult_le_compat_r; [lra|]. apply le_INR, Ht. }
  rewrite rt_linear, HP' in A.
  assert (B : Rabs (RInt (poly d c) 0 L - RInt f 0 L) <= e * L).
  { replace (RInt (poly d c) 0 L - RInt f 0 L) with (RInt (fun x => poly d c x - f x) 0 L).
    2:{ exact (RInt_minus (V := R_CompleteNormedModule) (poly d c) f 0 L EP EX). }
    apply (norm_RInt_le (V := R_NormedModule) (fun x => poly d c x - f x) (fun _ => e) 0 L _ _ L0).
    - intros x Hx. change (norm (poly d c x - f x)) with (Rabs (poly d c x - f x)). rewrite Rabs_minus_sym. apply He, Hx.
    - apply (RInt_correct (V := R_CompleteNormedModule)). apply (ex_RInt_minus (V := R_NormedModule) (poly d c) f); assumption.
    - replace (e * L) with (e * (L - 0)) by ring. apply const_int. }
  set (u := rt k (fun t => f (INR t * dx)) dx k k) in *. set (p := RInt (poly d c) 0 L) in *.
  replace (u - RInt f 0 L) with ((1 * u + -1 * p) + (p - RInt f 0 L)) by ring. eapply Rle_trans; [apply Rabs_triang|]. lra.
Qed.
Print Assumptions C169_near_polynomial.
(** x^3 with a ripple, three samples *)
Example C169_near_example : exists v, romb 3 (fun t => (INR t * / 2) ^ 3 + cos (INR t * / 2) / 100) (/ 2) = Ok v /\ Rabs (v - (/ 4 + sin 1 / 100)) <= / 50.
Proof.
  set (f := fun x => x ^ 3 + cos x / 100).
  assert (EI : is_RInt f 0 1 (/ 4 + sin 1 / 100)).
  { replace (/ 4 + sin 1 / 100) with ((1 ^ 4 / 4 + sin 1 / 100) - (0 ^ 4 / 4 + sin 0 / 100)) by (rewrite sin_0; field).
    apply (is_RInt_derive (V := R_CompleteNormedModule) (fun x => x ^ 4 / 4 + sin x / 100) f).
    - intros x _. unfold f. auto_derive; [exact I|]. field.
    - intros x _. apply (ex_derive_continuous f). unfold f. auto_derive. exact I. }
  assert (E1 : INR (2 ^ 1) * / 2 = 1) by (rewrite INR_pow2; field).
  destruct (C169_near_polynomial 1 (/ 2) 3 (fun m => if (m =? 3)%nat then 1 else 0) f (/ 100)) as (v & Ev & Hv); [lra|lia| | |].
  - rewrite E1. eexists. exact EI.
  - intros x _. replace (f x - poly 3 (fun m => if (m =? 3)%nat then 1 else 0) x) with (cos x / 100) by (unfold poly, f; rewrite !nsum_S, nsum_O; cbn; ring).
    assert (X := COS_bound x). apply Rabs_le. lra.
  - exists v. split; [exact Ev|]. rewrite E1, (is_RInt_unique (V := R_CompleteNormedModule) _ _ _ _ EI) in Hv. lra.
Qed.

(** ** C170 *)
(** The rule applied twice on a grid: for a function with Lipschitz constants KR and KZ the result is
    within 3/4 LR LZ (KR hR + KZ hZ) of the double integral. *)
Theorem C170_area : forall kx ky hR hZ r0 z0 (f : R -> R -> R) KR KZ v,
  let r1 := r0 + INR (2 ^ kx) * hR in let z1 := z0 + INR (2 ^ ky) * hZ in
  0 < hR -> 0 < hZ ->
  (forall z, z0 <= z <= z1 -> lip (fun r => f r z) r0 r1 KR) -> (forall r, r0 <= r <= r1 -> lip (f r) z0 z1 KZ) ->
  area_integral (S (2 ^ kx)) (S (2 ^ ky)) hR hZ (fun i j => f (r0 + INR i * hR) (z0 + INR j * hZ)) v ->
  Rabs (v - RInt (fun r => RInt (f r) z0 z1) r0 r1) <= 3 / 4 * (r1 - r0) * (z1 - z0) * (KR * hR + KZ * hZ).
Proof.
  intros kx ky hR hZ r0 z0 f KR KZ v r1 z1 HhR HhZ HR HZ (s & Es & ->).
  assert (Px : 0 < INR (2 ^ kx)) by (rewrite INR_pow2; apply pow_lt; lra). assert (Py : 0 < INR (2 ^ ky)) by (rewrite INR_pow2; apply pow_lt; lra).
  assert (Lr : r0 < r1) by (unfold r1; assert (0 < INR (2 ^ kx) * hR) by (apply Rmult_lt_0_compat; assumption); lra).
  assert (Lz : z0 < z1) by (unfold z1; assert (0 < INR (2 ^ ky) * hZ) by (apply Rmult_lt_0_compat; assumption); lra).
  rewrite romb2_rt in Es. assert (Es' : s = rt kx (fun i => rt ky (fun j => f (r0 + INR i * hR) (z0 + INR j * hZ)) 1 ky ky) 1 kx kx) by (symmetry; exact (ok_inj _ _ Es)). clear Es. subst s.
  set (g := fun r => RInt (f r) z0 z1).
  set (q := fun i => rt ky (fun j => f (r0 + INR i * hR) (z0 + INR j * hZ)) hZ ky ky).
  assert (E : rt kx (fun i => rt ky (fun j => f (r0 + INR i * hR) (z0 + INR j * hZ)) 1 ky ky) 1 kx kx * hR * hZ = rt kx q hR kx kx).
  { rewrite (rt_scale kx q hR). rewrite (rt_ext kx q (fun i => hZ * rt ky (fun j => f (r0 + INR i * hR) (z0 + INR j * hZ)) 1 ky ky + 0 * 0)) by (try lia; intros; unfold q; rewrite rt_scale; ring).
    rewrite (rt_linear kx (fun i => rt ky (fun j => f (r0 + INR i * hR) (z0 + INR j * hZ)) 1 ky ky) (fun _ => 0)). ring. }
  rewrite E. clear E.
  assert (Hin : forall i, (i <= 2 ^ kx)%nat -> r0 <= r0 + INR i * hR <= r1).
  { intros i Hi. assert (X := le_INR _ _ Hi). assert (Y := pos_INR i). unfold r1. split; [assert (0 <= INR i * hR) by (apply Rmult_le_pos; lra); lra|].
    apply Rplus_le_compat_l, Rmult_le_compat_r; lra. }
  assert (Q : forall i, (i <= 2 ^ kx)%nat -> Rabs (q i - g (r0 + INR i * hR)) <= 3 / 4 * KZ * (z1 - z0) * hZ).
  { intros i Hi. destruct (C169_lipschitz ky hZ z0 (f (r0 + INR i * hR)) KZ HhZ (HZ _ (Hin i Hi))) as (w & Ew & Hw).
    rewrite romb_rt in Ew. assert (Ew' : w = q i) by (symmetry; exact (ok_inj _ _ Ew)). rewrite Ew' in Hw. unfold g, z1. replace (z0 + INR (2 ^ ky) * hZ - z0) with (INR (2 ^ ky) * hZ) by ring. exact Hw. }
  assert (HKR : 0 <= KR) by (apply (lip_pos (fun r => f r z0) r0 r1 KR Lr); apply HR; lra).
  assert (G : lip g r0 r1 (KR * (z1 - z0))).
  { intros x y Hx Hy. unfold g. assert (EXx := lip_ex_RInt (f x) z0 z1 KZ (Rlt_le _ _ Lz) (HZ x Hx)). assert (EXy := lip_ex_RInt (f y) z0 z1 KZ (Rlt_le _ _ Lz) (HZ y Hy)).
    replace (RInt (f x) z0 z1 - RInt (f y) z0 z1) with (RInt (fun z => f x z - f y z) z0 z1) by exact (RInt_minus (V := R_CompleteNormedModule) (f x) (f y) z0 z1 EXx EXy).
    apply (norm_RInt_le (V := R_NormedModule) (fun z => f x z - f y z) (fun _ => KR * Rabs (x - y)) z0 z1 _ _ (Rlt_le _ _ Lz)).
    - intros z Hz. exact (HR z Hz x y Hx Hy).
    - apply (RInt_correct (V := R_CompleteNormedModule)). apply (ex_RInt_minus (V := R_NormedModule) (f x) (f y)); assumption.
    - replace (KR * (z1 - z0) * Rabs (x - y)) with (KR * Rabs (x - y) * (z1 - z0)) by ring. apply const_int. }
  destruct (C169_lipschitz kx hR r0 g _ HhR G) as (w & Ew & Hw). rewrite romb_rt in Ew. fold r1 in Hw.
  assert (Ew' : w = rt kx (fun t => g (r0 + INR t * hR)) hR kx kx) by (symmetry; exact (ok_inj _ _ Ew)). clear Ew.
  assert (D : Rabs (rt kx (fun i => 1 * q i + (-1) * g (r0 + INR i * hR)) hR kx kx) <= 3 / 4 * KZ * (z1 - z0) * hZ * (INR (2 ^ kx) * hR)).
  { apply romb_abs; [exact HhR|]. intros i Hi. replace (1 * q i + -1 * g (r0 + INR i * hR)) with (q i - g (r0 + INR i * hR)) by ring. apply Q, Hi. }
  rewrite (rt_linear kx q (fun i => g (r0 + INR i * hR))), <- Ew' in D.
  assert (Er : INR (2 ^ kx) * hR = r1 - r0) by (unfold r1; ring). rewrite Er in D, Hw.
  set (u := rt kx q hR kx kx) in *. change (Rabs (u - RInt g r0 r1) <= 3 / 4 * (r1 - r0) * (z1 - z0) * (KR * hR + KZ * hZ)).
  set (J := RInt g r0 r1) in *.
  assert (T : Rabs (u - J) <= Rabs (1 * u + -1 * w) + Rabs (w - J)) by (replace (u - J) with ((1 * u + -1 * w) + (w - J)) by ring; apply Rabs_triang).
  eapply Rle_trans; [exact T|]. eapply Rle_trans; [apply Rplus_le_compat; [exact D|exact Hw]|]. right. ring.
Qed.
Print Assumptions C170_area.
(** R + |Z| on a 5 x 9 grid over [1, 2] x [-1, 1]: the integral is 4 *)
Example C170_example : exists v, area_integral 5 9 (/ 4) (/ 4) (fun i j => (1 + INR i * / 4) + Rabs (-1 + INR j * / 4)) v /\
  Rabs (v - RInt (fun r => RInt (fun z => r + Rabs z) (-1) 1) 1 2) <= 3 / 4.
Proof.
  destruct (romb2 5 9 (fun i j => (1 + INR i * / 4) + Rabs (-1 + INR j * / 4))) as [s|x] eqn:Es.
  2:{ change 5%nat with (S (2 ^ 2)) in Es at 1. change 9%nat with (S (2 ^ 3)) in Es. rewrite romb2_rt in Es. discriminate. }
  exists (s * / 4 * / 4). assert (A : area_integral 5 9 (/ 4) (/ 4) (fun i j => (1 + INR i * / 4) + Rabs (-1 + INR j * / 4)) (s * / 4 * / 4)) by (exists s; split; [exact Es|reflexivity]).
  split; [exact A|]. assert (H := C170_area 2 3 (/ 4) (/ 4) 1 (-1) (fun r z => r + Rabs z) 1 1 (s * / 4 * / 4)). cbv zeta in H.
  assert (E1 : 1 + INR (2 ^ 2) * / 4 = 2) by (rewrite INR_pow2; field). assert (E2 : -1 + INR (2 ^ 3) * / 4 = 1) by (rewrite INR_pow2; field). rewrite E1, E2 in H.
  eapply Rle_trans; [apply H; [lra|lra| | |exact A]|lra].
  - intros z _ x y _ _. replace (x + Rabs z - (y + Rabs z)) with (x - y) by ring. lra.
  - intros r _ x y _ _. replace (r + Rabs x - (r + Rabs y)) with (Rabs x - Rabs y) by ring. rewrite Rmult_1_l. apply Rabs_triang_inv2.
Qed.
