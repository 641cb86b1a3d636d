(** C30 and C89: the Romberg rule. *)
From Coq Require Import List Arith ZArith Bool Reals Lra Lia.
From Coquelicot Require Import Coquelicot.
From Verif Require Import Py Num Numpy Romb RombProofs RombExact.
Import ListNotations.
Local Open Scope R_scope.

(** Which sample counts are accepted; the others raise ValueError. *)
Theorem C30_accepted_sizes : forall n (y : nat -> R) dx,
  ((exists v, romb n y dx = Ok v) <-> exists k, n = S (2 ^ k)) /\
  ((forall k, n <> S (2 ^ k)) -> romb n y dx = Raise ValueError).
Proof. intros n y dx. split; [apply romb_ok_iff|apply romb_bad]. Qed.
Print Assumptions C30_accepted_sizes.
Example C30_sizes_example : romb 4 (fun _ => 1) 1 = Raise ValueError /\ exists v, romb 65 (fun t => INR t) 1 = Ok v.
Proof.
  split.
  - apply C30_accepted_sizes. intros [|[|k]]; [cbn; lia|cbn; lia|]. rewrite !Nat.pow_succ_r'. lia.
  - apply C30_accepted_sizes. exists 6%nat. reflexivity.
Qed.

Theorem C30_linear : forall n (y z : nat -> R) dx a b u v,
  romb n y dx = Ok u -> romb n z dx = Ok v -> romb n (fun t => a * y t + b * z t) dx = Ok (a * u + b * v).
Proof.
  intros n y z dx a b u v Hy Hz. destruct (proj1 (romb_ok_iff n y dx) (ex_intro _ u Hy)) as (k & ->).
  rewrite romb_rt in *. injection Hy as <-. injection Hz as <-. rewrite rt_linear. reflexivity.
Qed.
Print Assumptions C30_linear.

(** Only the samples 0..n-1 matter. *)
Theorem C30_samples : forall n (y z : nat -> R) dx,
  (forall t, (t < n)%nat -> y t = z t) -> romb n y dx = romb n z dx.
Proof.
  intros n y z dx E. destruct (romb n y dx) as [v|x] eqn:Hy.
  - destruct (proj1 (romb_ok_iff n y dx) (ex_intro _ v Hy)) as (k & ->). rewrite <- Hy, !romb_rt. f_equal.
    apply rt_ext; [|lia]. intros t Ht. apply E. lia.
  - destruct (romb n z dx) as [v|x'] eqn:Hz.
    + destruct (proj1 (romb_ok_iff n z dx) (ex_intro _ v Hz)) as (k & ->). rewrite romb_rt in Hy. discriminate.
    + assert (Hk : forall k, n <> S (2 ^ k)) by (intros k ->; rewrite romb_rt in Hy; discriminate).
      rewrite (romb_bad n y dx Hk) in Hy. rewrite (romb_bad n z dx Hk) in Hz. congruence.
Qed.
Print Assumptions C30_samples.

Theorem C30_reversal : forall n (y : nat -> R) dx, romb n (fun t => y (n - 1 - t)%nat) dx = romb n y dx.
Proof.
  intros n y dx. destruct (romb n y dx) as [v|x] eqn:Hy.
  - destruct (proj1 (romb_ok_iff n y dx) (ex_intro _ v Hy)) as (k & ->). rewrite <- Hy, !romb_rt. f_equal.
    rewrite <- (rt_rev k y dx k k) by lia. apply rt_ext; [|lia]. intros t Ht. f_equal. lia.
  - assert (Hk : forall k, n <> S (2 ^ k)) by (intros k ->; rewrite romb_rt in Hy; discriminate).
    rewrite (romb_bad n y dx Hk) in Hy. rewrite (romb_bad n _ dx Hk). congruence.
Qed.
Print Assumptions C30_reversal.

(** Exact for polynomials: with 2^k + 1 samples of a polynomial of degree at most 2k + 1 the
    result is the integral over the sampled interval. *)
Definition poly (d : nat) (c : nat -> R) (x : R) : R := nsum (S d) (fun m => c m * x ^ m).
Lemma poly_int d c b : is_RInt (poly d c) 0 b (nsum (S d) (fun m => c m * (b ^ S m / INR (S m)))).
Proof.
  replace (nsum (S d) (fun m => c m * (b ^ S m / INR (S m)))) with
    (nsum (S d) (fun m => c m * (b ^ S m / INR (S m))) - nsum (S d) (fun m => c m * (0 ^ S m / INR (S m)))).
  2:{ rewrite (nsum_zero (S d) (fun m => c m * (0 ^ S m / INR (S m)))); [lra|]. intros i _. rewrite pow_i by lia. unfold Rdiv. ring. }
  apply (is_RInt_derive (fun x => nsum (S d) (fun m => c m * (x ^ S m / INR (S m)))) (poly d c)).
  - intros x _. unfold poly. induction (S d) as [|n IH].
    + apply (is_derive_ext (fun _ : R => 0)); [intros; rewrite nsum_O; reflexivity|]. rewrite nsum_O. apply (is_derive_const (V:=R_NormedModule) 0 x).
    + apply (is_derive_ext (fun x => nsum n (fun m => c m * (x ^ S m / INR (S m))) + c n * (x ^ S n / INR (S n)))); [intros; rewrite nsum_S; reflexivity|].
      rewrite nsum_S. apply (is_derive_plus (fun x => nsum n (fun m => c m * (x ^ S m / INR (S m)))) (fun x => c n * (x ^ S n / INR (S n)))); [exact IH|].
      assert (Hn : INR (S n) <> 0) by (apply not_0_INR; lia).
      auto_derive; [exact I|]. change (match n with O => 1 | S _ => INR n + 1 end) with (INR (S n)).
      replace (Nat.pred (S n)) with n by reflexivity. field. exact Hn.
  - intros x _. unfold poly. induction (S d) as [|n IH].
    + apply (continuous_ext (fun _ : R => 0)); [intros; rewrite nsum_O; reflexivity|]. apply continuous_const.
    + apply (continuous_ext (fun x => nsum n (fun m => c m * x ^ m) + c n * x ^ n)); [intros; rewrite nsum_S; reflexivity|].
      apply (continuous_plus (fun x => nsum n (fun m => c m * x ^ m)) (fun x => c n * x ^ n)); [exact IH|].
      apply (ex_derive_continuous (fun x => c n * x ^ n)). auto_derive. exact I.
Qed.
Lemma rt_poly k dx d c : (d <= 2 * k + 1)%nat ->
  rt k (fun t => poly d c (INR t * dx)) dx k k = nsum (S d) (fun m => c m * ((INR (2 ^ k) * dx) ^ S m / INR (S m))).
Proof.
  unfold poly. intros Hd. revert Hd.
  enough (forall n, (n <= 2 * k + 2)%nat -> rt k (fun t => nsum n (fun m => c m * (INR t * dx) ^ m)) dx k k = nsum n (fun m => c m * ((INR (2 ^ k) * dx) ^ S m / INR (S m)))) as H
    by (intros Hd; apply H; lia).
  induction n as [|n IH]; intros Hn.
  - rewrite nsum_O. transitivity (rt k (fun t => 0 + 0 * INR t) dx k k); [apply rt_ext; [|lia]; intros; rewrite nsum_O; ring|].
    rewrite rt_line by lia. unfold Rdiv. ring.
  - rewrite nsum_S, <- IH by lia.
    transitivity (rt k (fun t => 1 * (nsum n (fun m => c m * (INR t * dx) ^ m)) + (c n * dx ^ n) * INR t ^ n) dx k k).
    + apply rt_ext; [|lia]. intros t _. rewrite nsum_S, Rpow_mult_distr. ring.
    + rewrite rt_linear, romb_power by lia. rewrite Rpow_mult_distr. cbn [pow]. unfold Rdiv. ring.
Qed.
Theorem C89_exact_for_polynomials : forall k dx d c, (d <= 2 * k + 1)%nat ->
  romb (S (2 ^ k)) (fun t => poly d c (INR t * dx)) dx = Ok (RInt (poly d c) 0 (INR (2 ^ k) * dx)).
Proof.
  intros k dx d c Hd. rewrite romb_rt, rt_poly by exact Hd. apply (f_equal (@Ok R)). symmetry.
  apply (is_RInt_unique (V:=R_CompleteNormedModule)). apply poly_int.
Qed.
Print Assumptions C89_exact_for_polynomials.
(** 5 samples integrate x^5 over [0, 4] exactly *)
Example C89_example : romb 5 (fun t => poly 5 (fun m => if (m =? 5)%nat then 1 else 0) (INR t * 1)) 1 = Ok (4 ^ 6 / 6).
Proof.
  change 5%nat with (S (2 ^ 2)) at 1. rewrite C89_exact_for_polynomials by lia. apply (f_equal (@Ok R)).
  apply (is_RInt_unique (V:=R_CompleteNormedModule)). 
  replace (4 ^ 6 / 6) with (nsum 6 (fun m => (if (m =? 5)%nat then 1 else 0) * ((INR (2 ^ 2) * 1) ^ S m / INR (S m)))); [apply poly_int|].
  rewrite !nsum_S, nsum_O. cbn. field.
Qed.
(** The degree bound is sharp: one interval does not integrate x^2, nor two intervals x^4. *)
Theorem C89_degree_is_sharp : exists k c,
  romb (S (2 ^ k)) (fun t => poly (2 * k + 2) c (INR t * 1)) 1 <> Ok (RInt (poly (2 * k + 2) c) 0 (INR (2 ^ k) * 1)).
Proof.
  exists 0%nat, (fun m => if (m =? 2)%nat then 1 else 0).
  assert (E : RInt (poly 2 (fun m => if (m =? 2)%nat then 1 else 0)) 0 1 = 1 / 3).
  { apply (is_RInt_unique (V:=R_CompleteNormedModule)).
    replace (1 / 3) with (nsum 3 (fun m => (if (m =? 2)%nat then 1 else 0) * (1 ^ S m / INR (S m)))); [apply poly_int|].
    rewrite !nsum_S, nsum_O. cbn. field. }
  cbn [Nat.mul Nat.add]. rewrite romb_rt. replace (INR (2 ^ 0) * 1) with 1 by (cbn; ring). rewrite E. intros H. injection H as H.
  unfold poly in H. cbn in H. unfold nsum in H. cbn in H. nR. lra.
Qed.
Print Assumptions C89_degree_is_sharp.
(** Constants and straight lines are integrated exactly with any accepted number of samples. *)
Theorem C30_exact_for_lines : forall n dx a b v,
  romb n (fun t => a + b * (INR t * dx)) dx = Ok v -> v = RInt (fun x => a + b * x) 0 (INR (n - 1) * dx).
Proof.
  intros n dx a b v Hv. destruct (proj1 (romb_ok_iff n _ dx) (ex_intro _ v Hv)) as (k & ->).
  rewrite romb_rt in Hv. injection Hv as <-. replace (S (2 ^ k) - 1)%nat with (2 ^ k)%nat by lia.
  set (c := fun m : nat => match m with O => a | S O => b | _ => 0 end).
  assert (E : forall x, poly 1 c x = a + b * x) by (intros x; unfold poly; rewrite !nsum_S, nsum_O; cbn; ring).
  transitivity (RInt (poly 1 c) 0 (INR (2 ^ k) * dx)).
  - assert (H := C89_exact_for_polynomials k dx 1 c ltac:(lia)). rewrite romb_rt in H. injection H as H. rewrite <- H.
    apply rt_ext; [|lia]. intros t _. rewrite E. reflexivity.
  - apply (RInt_ext (V:=R_CompleteNormedModule)). intros x _. apply E.
Qed.
Print Assumptions C30_exact_for_lines.
Example C30_example : exists v, romb 3 (fun t => 1 + 2 * (INR t * (1 / 2))) (1 / 2) = Ok v /\ v = 2.
Proof. eexists. split; [change 3%nat with (S (2 ^ 1)); apply romb_rt|]. cbn. field. Qed.

(** C90: the rule is positive and monotone. *)
Theorem C90_monotone : forall n (y z : nat -> R) dx u v, 0 < dx ->
  (forall t, (t < n)%nat -> y t <= z t) -> romb n y dx = Ok u -> romb n z dx = Ok v -> u <= v.
Proof.
  intros n y z dx u v Hdx Hle Hu Hv. destruct (proj1 (romb_ok_iff n y dx) (ex_intro _ u Hu)) as (k & ->).
  rewrite romb_rt in *. injection Hu as <-. injection Hv as <-.
  assert (H : 0 <= rt k (fun t => 1 * z t + (-1) * y t) dx k k).
  { apply rt_nonneg; [|exact Hdx]. intros t Ht. specialize (Hle t ltac:(lia)). lra. }
  rewrite rt_linear in H. lra.
Qed.
Print Assumptions C90_monotone.
Theorem C90_positive : forall n (y : nat -> R) dx v, 0 < dx -> romb n y dx = Ok v ->
  (forall t, (t < n)%nat -> 0 <= y t) -> 0 <= v /\ ((exists t, (t < n)%nat /\ 0 < y t) -> 0 < v).
Proof.
  intros n y dx v Hdx Hv Hy. destruct (proj1 (romb_ok_iff n y dx) (ex_intro _ v Hv)) as (k & ->).
  rewrite romb_rt in Hv. injection Hv as <-. split.
  - apply rt_nonneg; [|exact Hdx]. intros t Ht. apply Hy. lia.
  - intros (t & Ht & Hp). apply (rt_positive k y dx) with (t := t); [|exact Hdx|lia|exact Hp]. intros u Hu. apply Hy. lia.
Qed.
Print Assumptions C90_positive.
Theorem C90_grid_positive : forall nx ny (a : nat -> nat -> R) v, romb2 nx ny a = Ok v ->
  (forall i j, (i < nx)%nat -> (j < ny)%nat -> 0 <= a i j) -> 0 <= v /\ ((exists i j, (i < nx)%nat /\ (j < ny)%nat /\ 0 < a i j) -> 0 < v).
Proof.
  intros nx ny a v Hv Ha. destruct (romb2_ok _ _ _ _ Hv) as (kx & ky & -> & ->). rewrite romb2_rt in Hv. injection Hv as <-. split.
  - apply (R2_nonneg kx ky). intros i j Hi Hj. apply Ha; lia.
  - intros (i & j & Hi & Hj & Hp). apply (R2_positive kx ky) with (i := i) (j := j); [|lia|lia|exact Hp]. intros u w Hu Hw. apply Ha; lia.
Qed.
Print Assumptions C90_grid_positive.
Example C90_example : exists v, romb 9 (fun t => if (t =? 5)%nat then 1 else 0) 1 = Ok v /\ 0 < v.
Proof.
  destruct (proj2 (romb_ok_iff 9 (fun t => if (t =? 5)%nat then 1 else 0) 1)) as [v Hv]; [exists 3%nat; reflexivity|].
  exists v. split; [exact Hv|]. apply (C90_positive _ _ _ _ Rlt_0_1 Hv).
  - intros t _. destruct (t =? 5)%nat; lra.
  - exists 5%nat. split; [lia|]. cbn. lra.
Qed.
