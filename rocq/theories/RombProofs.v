(** Lemmas about the Romberg rule. *)
From Coq Require Import List Arith ZArith Bool Reals Lra Lia ZifyNat.
From Verif Require Import Py Num Numpy Romb.
Import ListNotations.
Local Open Scope R_scope.

(** ** Number of levels *)
Lemma levels_spec : forall fuel n k N, (1 <= n)%nat -> (N <= n + fuel)%nat ->
  let (n', k') := romb_levels fuel n k N in
  (N <= n')%nat /\ (n' = n * 2 ^ (k' - k))%nat /\ (k <= k')%nat /\ ((n <= N)%nat -> forall e, (N = n * 2 ^ e)%nat -> n' = N).
Proof.
  induction fuel as [|fuel IH]; intros n k N Hn Hf; cbn [romb_levels]; destruct (Nat.ltb_spec n N) as [H|H].
  - lia.
  - repeat split; try lia. replace (k - k)%nat with 0%nat by lia. cbn. lia.
  - specialize (IH (n + n)%nat (S k) N ltac:(lia) ltac:(lia)). destruct (romb_levels fuel (n + n) (S k) N) as [n' k'].
    destruct IH as (H1 & H2 & H3 & H4). repeat split; try lia.
    + rewrite H2. replace (k' - k)%nat with (S (k' - S k)) by lia. cbn [Nat.pow]. lia.
    + intros _ e He. destruct e as [|e]; [cbn in He; lia|].
      assert (1 <= 2 ^ e)%nat by (apply Nat.neq_0_lt_0, Nat.pow_nonzero; lia).
      apply (H4 ltac:(cbn [Nat.pow] in He; nia) e). cbn [Nat.pow] in He. lia.
  - repeat split; try lia. replace (k - k)%nat with 0%nat by lia. cbn. lia.
Qed.
Lemma levels_pow2 k : romb_levels (2 ^ k) 1 0 (2 ^ k) = (2 ^ k, k)%nat.
Proof.
  assert (1 <= 2 ^ k)%nat by (apply Nat.neq_0_lt_0, Nat.pow_nonzero; lia).
  assert (H0 := levels_spec (2 ^ k) 1 0 (2 ^ k) ltac:(lia) ltac:(lia)).
  destruct (romb_levels (2 ^ k) 1 0 (2 ^ k)) as [n' k']. destruct H0 as (H1 & H2 & H3 & H4).
  assert (E : n' = (2 ^ k)%nat) by (apply (H4 ltac:(lia) k); lia).
  f_equal; [exact E|]. rewrite Nat.sub_0_r, Nat.mul_1_l in H2. rewrite E in H2. symmetry. apply (Nat.pow_inj_r 2); [lia|exact H2].
Qed.

(** ** The Romberg table *)
Section Table.
  Variables (k : nat) (y : nat -> R) (dx : R).
  Let N := (2 ^ k)%nat.
  (** composite trapezoid with 2^i intervals *)
  Fixpoint tz (i : nat) : R :=
    match i with
    | O => (y 0%nat + y N) / 2 * (INR N * dx)
    | S i' => / 2 * (tz i' + INR N * dx / 2 ^ i' * nsum (2 ^ i') (fun t => y ((2 * t + 1) * 2 ^ (k - S i'))%nat))
    end.
  Fixpoint rt (j i : nat) : R :=
    match j with
    | O => tz i
    | S j' => rt j' i + (rt j' i - rt j' (i - 1)) / (4 ^ S j' - 1)
    end.
  Lemma extrapolate_rt i : forall m j, extrapolate j (rt j (S i)) (map (fun d => rt (j + d) i) (seq 0 m)) =
    map (fun d => rt (j + d) (S i)) (seq 0 (S m)).
  Proof.
    induction m as [|m IH]; intros j.
    - cbn. rewrite Nat.add_0_r. reflexivity.
    - change (seq 0 (S m)) with (0%nat :: seq 1 m) at 1. change (seq 0 (S (S m))) with (0%nat :: seq 1 (S m)).
      cbn [map extrapolate]. rewrite Nat.add_0_r. f_equal.
      rewrite <- seq_shift, map_map.
      rewrite (map_ext (fun x => rt (j + S x) i) (fun d => rt (S j + d) i)) by (intros; f_equal; lia).
      replace (rt j (S i) + (rt j (S i) - rt j i) / nofZ (4 ^ Z.of_nat (S j) - 1))%num with (rt (S j) (S i)).
      + rewrite IH. rewrite <- (seq_shift (S m) 0), map_map. apply map_ext. intros d. f_equal. lia.
      + cbn [rt]. replace (S i - 1)%nat with i by lia. nR. rewrite minus_IZR. f_equal. f_equal. f_equal.
        rewrite <- pow_IZR. reflexivity.
  Qed.
  Lemma slice_sum i : (i < k)%nat ->
    lsum (map y (slice_idx (2 ^ (k - i) / 2) N (2 ^ (k - i)))) = nsum (2 ^ i) (fun t => y ((2 * t + 1) * 2 ^ (k - S i))%nat).
  Proof.
    intros Hi. unfold slice_idx. set (s := (2 ^ (k - S i))%nat).
    assert (Hs : (1 <= s)%nat) by (apply Nat.neq_0_lt_0, Nat.pow_nonzero; lia).
    assert (E : (2 ^ (k - i) = 2 * s)%nat) by (unfold s; replace (k - i)%nat with (S (k - S i)) by lia; reflexivity).
    assert (EN : (N = 2 ^ i * (2 * s))%nat) by (unfold N; rewrite <- E, <- Nat.pow_add_r; f_equal; lia).
    rewrite E, EN. replace (2 * s / 2)%nat with s by (rewrite Nat.mul_comm, Nat.div_mul; lia).
    replace ((2 ^ i * (2 * s) - s + 2 * s - 1) / (2 * s))%nat with (2 ^ i)%nat.
    2:{ assert (1 <= 2 ^ i)%nat by (apply Nat.neq_0_lt_0, Nat.pow_nonzero; lia).
        apply Nat.div_unique with (s - 1)%nat; [lia|]. nia. }
    rewrite map_map. generalize (2 ^ i)%nat. intros n. clear.
    assert (H : forall n b, lsum (map (fun x => y (s + x * (2 * s))%nat) (seq b n)) = nsum n (fun t => y ((2 * (b + t) + 1) * s)%nat)).
    { induction n0 as [|n0 IH]; intros b; [reflexivity|]. cbn [seq map]. rewrite lsum_cons, nsum_head, IH. f_equal.
      - f_equal. lia.
      - apply nsum_ext. intros j _. f_equal. lia. }
    apply H.
  Qed.
  Lemma loop_rt : forall cnt i, (cnt + i = k)%nat ->
    romb_loop cnt y N (2 ^ (k - i)) (2 ^ (k - i)) (INR N * dx / 2 ^ i) (map (fun d => rt d i) (seq 0 (S i))) =
    map (fun d => rt d k) (seq 0 (S k)).
  Proof.
    induction cnt as [|cnt IH]; intros i Hi.
    - cbn [Nat.add] in Hi. subst. reflexivity.
    - cbn [romb_loop]. cbv zeta. rewrite slice_sum by lia.
      replace (2 ^ (k - i) / 2)%nat with (2 ^ (k - S i))%nat.
      2:{ replace (k - i)%nat with (S (k - S i)) by lia. cbn [Nat.pow]. rewrite Nat.mul_comm, Nat.div_mul; lia. }
      nR. assert (E1 : INR N * dx / 2 ^ i / 2 = INR N * dx / 2 ^ S i).
      { cbn [pow]. field. apply pow_nonzero. lra. }
      assert (E2 : 1 / 2 * (nth 0 (map (fun d => rt d i) (seq 0 (S i))) 0 + INR N * dx / 2 ^ i * nsum (2 ^ i) (fun t => y ((2 * t + 1) * 2 ^ (k - S i))%nat)) = rt 0 (S i)).
      { cbn [seq map nth rt tz]. lra. }
      rewrite E1, E2. assert (E3 := extrapolate_rt i (S i) 0). cbn [Nat.add] in E3. rewrite E3. apply IH. lia.
  Qed.
  Lemma romb_rt : romb (S N) y dx = Ok (rt k k).
  Proof.
    unfold romb. unfold N. rewrite levels_pow2, Nat.eqb_refl. cbv zeta. f_equal. fold N.
    assert (H := loop_rt k 0 ltac:(lia)). rewrite Nat.sub_0_r in H. change (2 ^ k)%nat with N in H.
    set (rhs := map (fun d => rt d k) (seq 0 (S k))) in H. cbn [seq map pow rt tz] in H.
    nR. rewrite <- INR_IZR_INZ. replace (INR N * dx / 1) with (INR N * dx) in H by field.
    rewrite H. unfold rhs. rewrite seq_S, map_app. cbn [map]. rewrite Nat.add_0_l. apply last_last.
  Qed.
End Table.

Lemma romb_ok_iff n (y : nat -> R) dx : (exists v, romb n y dx = Ok v) <-> exists k, n = S (2 ^ k).
Proof.
  split.
  - intros (v & E). destruct n as [|N]; [discriminate|]. unfold romb in E.
    assert (H := levels_spec N 1 0 N ltac:(lia) ltac:(lia)). destruct (romb_levels N 1 0 N) as [n' k'].
    destruct H as (H1 & H2 & H3 & _). destruct (Nat.eqb_spec n' N) as [E1|]; [|discriminate].
    exists k'. f_equal. rewrite <- E1, H2, Nat.sub_0_r. lia.
  - intros (k & ->). rewrite romb_rt. eexists. reflexivity.
Qed.
Lemma romb_bad n (y : nat -> R) dx : (forall k, n <> S (2 ^ k)) -> romb n y dx = Raise ValueError.
Proof.
  intros Hn. destruct n as [|N]; [reflexivity|]. unfold romb.
  assert (H := levels_spec N 1 0 N ltac:(lia) ltac:(lia)). destruct (romb_levels N 1 0 N) as [n' k'].
  destruct H as (H1 & H2 & H3 & _). destruct (Nat.eqb_spec n' N) as [E1|]; [|reflexivity].
  exfalso. apply (Hn k'). f_equal. rewrite <- E1, H2, Nat.sub_0_r. lia.
Qed.

(** ** Linearity and exactness *)
Lemma tz_linear k y z a b dx i : tz k (fun t => a * y t + b * z t) dx i = a * tz k y dx i + b * tz k z dx i.
Proof.
  induction i as [|i IH]; cbn [tz]; [field|]. rewrite IH, nsum_add, !nsum_scal. ring.
Qed.
Lemma rt_linear k y z a b dx j : forall i, rt k (fun t => a * y t + b * z t) dx j i = a * rt k y dx j i + b * rt k z dx j i.
Proof.
  induction j as [|j IH]; intros i; cbn [rt]; [apply tz_linear|]. rewrite !IH. unfold Rdiv. ring.
Qed.
Lemma tz_ext k y z dx i : (i <= k)%nat -> (forall t, (t <= 2 ^ k)%nat -> y t = z t) -> tz k y dx i = tz k z dx i.
Proof.
  intros Hi E. induction i as [|i IH]; cbn [tz].
  - rewrite !E by lia. reflexivity.
  - rewrite IH by lia. f_equal. f_equal. f_equal. apply nsum_ext. intros t Ht. apply E.
    assert (E2 : (2 ^ k = 2 ^ i * (2 * 2 ^ (k - S i)))%nat).
    { change (2 * 2 ^ (k - S i))%nat with (2 ^ S (k - S i))%nat. rewrite <- Nat.pow_add_r. f_equal. lia. }
    rewrite E2. nia.
Qed.
Lemma rt_ext k y z dx j : (forall t, (t <= 2 ^ k)%nat -> y t = z t) -> forall i, (i <= k)%nat -> rt k y dx j i = rt k z dx j i.
Proof. intros E. induction j as [|j IH]; intros i Hi; cbn [rt]; [apply tz_ext; assumption|]. rewrite !IH by lia. reflexivity. Qed.
Lemma nsum_odd n a b : nsum n (fun t => a + b * INR (2 * t + 1)) = INR n * a + b * INR n ^ 2.
Proof.
  induction n as [|n IH]; [rewrite nsum_O; cbn; lra|]. rewrite nsum_S, IH, plus_INR, mult_INR, (S_INR n). cbn [INR]. ring.
Qed.
Lemma pow2_split k i : (i < k)%nat -> (2 ^ k = 2 ^ i * (2 * 2 ^ (k - S i)))%nat.
Proof. intros Hi. change (2 * 2 ^ (k - S i))%nat with (2 ^ S (k - S i))%nat. rewrite <- Nat.pow_add_r. f_equal. lia. Qed.
Lemma INR_pow2 i : INR (2 ^ i) = 2 ^ i.
Proof. rewrite pow_INR. f_equal. Qed.
Lemma tz_line k a b dx i : (i <= k)%nat -> tz k (fun t => a + b * INR t) dx i = INR (2 ^ k) * dx * (a + b * INR (2 ^ k) / 2).
Proof.
  intros Hi. induction i as [|i IH]; cbn [tz].
  - cbn [INR]. field.
  - rewrite IH by lia.
    rewrite (nsum_ext _ _ (fun t => a + b * INR (2 ^ (k - S i)) * INR (2 * t + 1))) by (intros; rewrite mult_INR; ring).
    rewrite nsum_odd. rewrite (pow2_split k i) by lia. rewrite !mult_INR, !INR_pow2. cbn [INR]. field. apply pow_nonzero. lra.
Qed.
Lemma four_pow j : 4 ^ S j - 1 <> 0.
Proof. assert (H := pow_R1_Rle 4 j ltac:(lra)). cbn [pow]. lra. Qed.
Lemma rt_line k a b dx j : forall i, (i <= k)%nat -> rt k (fun t => a + b * INR t) dx j i = INR (2 ^ k) * dx * (a + b * INR (2 ^ k) / 2).
Proof.
  induction j as [|j IH]; intros i Hi; cbn [rt]; [apply tz_line; exact Hi|]. rewrite !IH by lia.
  field. apply four_pow.
Qed.
Lemma nsum_rev n (f : nat -> R) : nsum n (fun i => f (n - 1 - i)%nat) = nsum n f.
Proof.
  induction n as [|n IH]; [reflexivity|]. rewrite nsum_head, nsum_S, Rplus_comm. f_equal.
  - rewrite <- IH. apply nsum_ext. intros i Hi. f_equal. lia.
  - f_equal. lia.
Qed.
Lemma tz_rev k y dx i : (i <= k)%nat -> tz k (fun t => y (2 ^ k - t)%nat) dx i = tz k y dx i.
Proof.
  intros Hi. induction i as [|i IH]; cbn [tz].
  - rewrite Nat.sub_diag, Nat.sub_0_r, (Rplus_comm (y (2 ^ k)%nat)). reflexivity.
  - rewrite IH by lia. f_equal. f_equal. f_equal.
    rewrite <- (nsum_rev (2 ^ i) (fun t => y ((2 * t + 1) * 2 ^ (k - S i))%nat)). apply nsum_ext. intros t Ht. f_equal.
    rewrite (pow2_split k i) by lia. nia.
Qed.
Lemma rt_rev k y dx j : forall i, (i <= k)%nat -> rt k (fun t => y (2 ^ k - t)%nat) dx j i = rt k y dx j i.
Proof. induction j as [|j IH]; intros i Hi; cbn [rt]; [apply tz_rev; exact Hi|]. rewrite !IH by lia. reflexivity. Qed.

(** ** The two-dimensional rule *)
Lemma mapM_seq_ok {A} (f : nat -> result A) (g : nat -> A) n : (forall i, f i = Ok (g i)) -> mapM f (seq 0 n) = Ok (map g (seq 0 n)).
Proof. intros E. generalize 0%nat. induction n as [|n IH]; intros b; [reflexivity|]. cbn [seq mapM map]. rewrite E, IH. reflexivity. Qed.
Lemma romb2_rt kx ky (a : nat -> nat -> R) : romb2 (S (2 ^ kx)) (S (2 ^ ky)) a = Ok (rt kx (fun i => rt ky (a i) 1 ky ky) 1 kx kx).
Proof.
  unfold romb2. rewrite (mapM_seq_ok _ (fun i => rt ky (a i) 1 ky ky)) by (intros; nR; apply romb_rt).
  cbn [bind]. nR. rewrite romb_rt. f_equal. apply rt_ext; [|lia]. intros t Ht.
  rewrite nth_indep with (d' := rt ky (a 0%nat) 1 ky ky) by (rewrite map_length, seq_length; lia).
  rewrite (map_nth (fun i => rt ky (a i) 1 ky ky)), seq_nth by lia. reflexivity.
Qed.
Lemma romb2_ok nx ny (a : nat -> nat -> R) v : romb2 nx ny a = Ok v -> exists kx ky, nx = S (2 ^ kx) /\ ny = S (2 ^ ky).
Proof.
  unfold romb2. intros E. destruct (mapM (fun i => romb ny (a i) n1) (seq 0 nx)) as [rows|] eqn:Em; [|discriminate]. cbn [bind] in E.
  destruct (proj1 (romb_ok_iff nx _ _) (ex_intro _ v E)) as (kx & ->). exists kx.
  cbn [seq mapM] in Em. destruct (romb ny (a 0%nat) n1) as [w|] eqn:Ew; [|discriminate].
  destruct (proj1 (romb_ok_iff ny _ _) (ex_intro _ w Ew)) as (ky & ->). exists ky. auto.
Qed.
(** romb2 as a linear functional *)
Definition R2 (kx ky : nat) (a : nat -> nat -> R) : R := rt kx (fun i => rt ky (a i) 1 ky ky) 1 kx kx.
Lemma R2_linear kx ky a b u v : R2 kx ky (fun i j => u * a i j + v * b i j) = u * R2 kx ky a + v * R2 kx ky b.
Proof.
  unfold R2. rewrite <- rt_linear. apply rt_ext; [|lia]. intros t Ht. apply rt_linear.
Qed.
Lemma R2_ext kx ky a b : (forall i j, (i <= 2 ^ kx)%nat -> (j <= 2 ^ ky)%nat -> a i j = b i j) -> R2 kx ky a = R2 kx ky b.
Proof. intros E. unfold R2. apply rt_ext; [|lia]. intros i Hi. apply rt_ext; [|lia]. intros j Hj. apply E; assumption. Qed.
Lemma R2_scal kx ky a u : R2 kx ky (fun i j => u * a i j) = u * R2 kx ky a.
Proof.
  rewrite (R2_ext kx ky _ (fun i j => u * a i j + 0 * a i j)) by (intros; ring). rewrite R2_linear. ring.
Qed.
