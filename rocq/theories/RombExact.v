(** Exactness of the Romberg rule with 2^k+1 samples for polynomials of degree at most 2k+1. *)
From Coq Require Import List Arith ZArith Bool Reals Lra Lia ZifyNat.
From Verif Require Import Py Num Numpy Romb RombProofs.
Import ListNotations.
Local Open Scope R_scope.

(** ** Expansions in even powers *)
Section Rep.
  Context {A : Type}.
  Variable q : A -> R.
  Variable B : nat -> A -> R.
  (** F = sum over l <= n/2 of c_l q^l B_{n-2l}, with leading coefficient c0 *)
  Definition Rep (n : nat) (F : A -> R) (c0 : R) : Prop :=
    exists c : nat -> R, c 0%nat = c0 /\ (forall l, (n < 2 * l)%nat -> c l = 0) /\
      forall x, F x = nsum (S n) (fun l => c l * q x ^ l * B (n - 2 * l) x).
  Lemma Rep_ext n F F' c : (forall x, F' x = F x) -> Rep n F c -> Rep n F' c.
  Proof. intros E (d & H1 & H2 & H3). exists d. repeat split; auto. intros x. rewrite E. apply H3. Qed.
  Lemma Rep_zero n : Rep n (fun _ => 0) 0.
  Proof.
    exists (fun _ => 0). repeat split; auto. intros x. rewrite nsum_zero; [reflexivity|]. intros; ring.
  Qed.
  Lemma Rep_add n F F' c c' : Rep n F c -> Rep n F' c' -> Rep n (fun x => F x + F' x) (c + c').
  Proof.
    intros (d & H1 & H2 & H3) (d' & H1' & H2' & H3'). exists (fun l => d l + d' l). repeat split.
    - congruence.
    - intros l Hl. rewrite H2, H2' by exact Hl. lra.
    - intros x. rewrite H3, H3', <- nsum_add. apply nsum_ext. intros; ring.
  Qed.
  Lemma Rep_scal n F c k : Rep n F c -> Rep n (fun x => k * F x) (k * c).
  Proof.
    intros (d & H1 & H2 & H3). exists (fun l => k * d l). repeat split.
    - congruence.
    - intros l Hl. rewrite H2 by exact Hl. lra.
    - intros x. rewrite H3, <- nsum_scal. apply nsum_ext. intros; ring.
  Qed.
  Lemma Rep_base n : Rep n (B n) 1.
  Proof.
    exists (fun l => if (l =? 0)%nat then 1 else 0). repeat split.
    - intros l Hl. destruct (Nat.eqb_spec l 0); [lia|reflexivity].
    - intros x. rewrite nsum_head, nsum_zero.
      + cbn. rewrite Nat.sub_0_r. ring.
      + intros i _. cbn. ring.
  Qed.
  Lemma Rep_q n F c : Rep n F c -> Rep (S (S n)) (fun x => q x * F x) 0.
  Proof.
    intros (d & H1 & H2 & H3). exists (fun l => match l with O => 0 | S l' => d l' end). repeat split.
    - intros [|l] Hl; [lia|]. apply H2. lia.
    - intros x. rewrite H3, (nsum_head (S (S n))). cbv beta iota. rewrite !Rmult_0_l, Rplus_0_l. rewrite (nsum_S (S n)), H2 by lia.
      rewrite !Rmult_0_l, Rplus_0_r, <- nsum_scal. apply nsum_ext. intros l _. cbn [pow].
      replace (S (S n) - 2 * S l)%nat with (n - 2 * l)%nat by lia. ring.
  Qed.
  Lemma Rep_qpow n F c l : Rep n F c -> Rep (2 * l + n) (fun x => q x ^ l * F x) (if (l =? 0)%nat then c else 0).
  Proof.
    intros HF. induction l as [|l IH].
    - cbn [Nat.eqb pow Nat.mul Nat.add]. apply (Rep_ext n F); [intros; ring|exact HF].
    - apply Rep_q in IH. replace (2 * S l + n)%nat with (S (S (2 * l + n))) by lia. cbn [Nat.eqb].
      eapply Rep_ext; [|exact IH]. intros x. cbn [pow]. ring.
  Qed.
  Lemma Rep_sum m n (F : nat -> A -> R) (c : nat -> R) : (forall l, (l < m)%nat -> Rep n (F l) (c l)) ->
    Rep n (fun x => nsum m (fun l => F l x)) (nsum m c).
  Proof.
    induction m as [|m IH]; intros HF.
    - rewrite nsum_O. eapply Rep_ext; [|apply Rep_zero]. reflexivity.
    - rewrite nsum_S. eapply Rep_ext; [intros x; apply nsum_S|]. apply Rep_add; [apply IH; intros; apply HF; lia|apply HF; lia].
  Qed.
End Rep.

(** ** The power sums of one interval *)
Definition Pk (k : nat) (x : R * R) : R := fst x ^ k + snd x ^ k.
Fixpoint Dk (n : nat) (x : R * R) : R := match n with O => 0 | S n' => snd x * Dk n' x + fst x ^ n' end.
Definition q2 (x : R * R) : R := (snd x - fst x) ^ 2.
Lemma Dk_diff n x : (snd x - fst x) * Dk n x = snd x ^ n - fst x ^ n.
Proof.
  induction n as [|n IH]; cbn [Dk pow]; [ring|]. rewrite Rmult_plus_distr_l.
  replace ((snd x - fst x) * (snd x * Dk n x)) with (snd x * ((snd x - fst x) * Dk n x)) by ring. rewrite IH. ring.
Qed.
Lemma Dk_sym n x : Dk (S n) x = fst x * Dk n x + snd x ^ n.
Proof. cbn [Dk]. assert (H := Dk_diff n x). lra. Qed.
Lemma Dk_step n x : Dk (S n) x = / 2 * ((fst x + snd x) * Dk n x + Pk n x).
Proof. unfold Pk. assert (H1 := Dk_sym n x). cbn [Dk] in *. lra. Qed.
Lemma Pk_step n x : (fst x + snd x) * Pk n x = 2 * Pk (S n) x - q2 x * Dk n x.
Proof.
  unfold q2. replace ((snd x - fst x) ^ 2 * Dk n x) with ((snd x - fst x) * ((snd x - fst x) * Dk n x)) by ring.
  rewrite Dk_diff. unfold Pk. cbn [pow]. ring.
Qed.
Lemma Dk_rep : forall n, Rep q2 Pk n (Dk (S n)) (INR (S n) / 2).
Proof.
  induction n as [n IH] using (well_founded_induction lt_wf). destruct n as [|n].
  - replace (INR 1 / 2) with (/ 2 * 1) by (cbn; lra). apply (Rep_ext q2 Pk 0 (fun x => / 2 * Pk 0 x)).
    + intros x. unfold Pk. cbn [Dk pow]. lra.
    + apply Rep_scal, Rep_base.
  - destruct (IH n (Nat.lt_succ_diag_r n)) as (c & H1 & H2 & H3).
    apply (Rep_ext q2 Pk (S n) (fun x => / 2 * (nsum (S n) (fun l => (if (2 * l <=? n)%nat then c l else 0) *
       (2 * (q2 x ^ l * Pk (S n - 2 * l) x) + (-1) * (q2 x ^ l * (q2 x * Dk (n - 2 * l) x)))) + Pk (S n) x))).
    { intros x. rewrite Dk_step. f_equal. f_equal. rewrite H3, <- nsum_scal. apply nsum_ext. intros l Hl.
      destruct (Nat.leb_spec (2 * l) n) as [Hln|Hln].
      - replace (S n - 2 * l)%nat with (S (n - 2 * l)) by lia. assert (E := Pk_step (n - 2 * l) x).
        replace ((fst x + snd x) * (c l * q2 x ^ l * Pk (n - 2 * l) x)) with (c l * q2 x ^ l * ((fst x + snd x) * Pk (n - 2 * l) x)) by ring.
        rewrite E. ring.
      - rewrite H2 by lia. ring. }
    replace (INR (S (S n)) / 2) with (/ 2 * (nsum (S n) (fun l => if (l =? 0)%nat then 2 * c 0%nat else 0) + 1)).
    2:{ rewrite (nsum_single (S n) _ 0%nat); [|lia|intros i _ Hi; destruct (Nat.eqb_spec i 0); [lia|reflexivity]].
        cbn [Nat.eqb]. rewrite H1, (S_INR (S n)). lra. }
    apply Rep_scal, Rep_add; [|apply Rep_base]. apply Rep_sum. intros l Hl.
    destruct (Nat.leb_spec (2 * l) n) as [Hln|Hln].
    2:{ destruct (Nat.eqb_spec l 0); [lia|]. eapply Rep_ext; [|apply Rep_zero]. intros x. cbv beta. ring. }
    replace (if (l =? 0)%nat then 2 * c 0%nat else 0) with (c l * (2 * (if (l =? 0)%nat then 1 else 0) + (-1) * 0))
      by (destruct (Nat.eqb_spec l 0) as [->|]; ring).
    apply Rep_scal, Rep_add.
    + apply Rep_scal. replace (S n) with (2 * l + (S n - 2 * l))%nat at 1 by lia. apply Rep_qpow, Rep_base.
    + apply Rep_scal. destruct (n - 2 * l)%nat as [|m] eqn:Em.
      * eapply Rep_ext; [|apply Rep_zero]. intros x. cbn [Dk]. ring.
      * replace (S n) with (2 * l + S (S m))%nat by lia.
        assert (Hq := Rep_q q2 Pk _ _ _ (IH m ltac:(lia))). apply (Rep_qpow q2 Pk _ _ _ l) in Hq.
        destruct (l =? 0)%nat; exact Hq.
Qed.

(** ** Trapezoid sums of powers *)
(** sum of the trapezoids of t^m over M equal intervals of [0, X] *)
Definition trap (X : R) (m M : nat) : R :=
  nsum M (fun t => X / INR M * (Pk m (INR t * (X / INR M), INR (S t) * (X / INR M)) / 2)).
Lemma nsum_telescope (f : nat -> R) n : nsum n (fun t => f (S t) - f t) = f n - f 0%nat.
Proof. induction n as [|n IH]; [rewrite nsum_O; lra|]. rewrite nsum_S, IH. lra. Qed.
(** number of intervals, at least one *)
Definition qh (X : R) (M : nat) : R := (X / INR (S M)) ^ 2.
Lemma trap_rep X : forall m, Rep (qh X) (fun _ _ => 1) m (fun M => trap X m (S M)) (X ^ S m / INR (S m)).
Proof.
  induction m as [m IH] using (well_founded_induction lt_wf).
  destruct (Dk_rep m) as (c & H1 & H2 & H3).
  assert (Hm : INR (S m) <> 0) by (apply not_0_INR; lia).
  (* X^(m+1) as a telescoping sum *)
  assert (HT : forall M, X ^ S m = nsum (S m) (fun l => 2 * c l * qh X M ^ l * trap X (m - 2 * l) (S M))).
  { intros M. set (h := X / INR (S M)).
    assert (HM : INR (S M) <> 0) by (apply not_0_INR; lia).
    assert (E0 : nsum (S M) (fun t => (INR (S t) * h) ^ S m - (INR t * h) ^ S m) = X ^ S m).
    { rewrite (nsum_telescope (fun t => (INR t * h) ^ S m) (S M)). cbn [INR]. rewrite Rmult_0_l, pow_i by lia.
      change (match M with O => 1 | S _ => INR M + 1 end) with (INR (S M)). rewrite Rminus_0_r. f_equal. unfold h. field. exact HM. }
    rewrite <- E0.
    rewrite (nsum_ext (S M) _ (fun t => nsum (S m) (fun l => 2 * c l * qh X M ^ l * (h * (Pk (m - 2 * l) (INR t * h, INR (S t) * h) / 2))))).
    - rewrite nsum_swap. apply nsum_ext. intros l _. rewrite nsum_scal. unfold trap. fold h. reflexivity.
    - intros t _. assert (E := Dk_diff (S m) (INR t * h, INR (S t) * h)). cbn [fst snd] in E. rewrite <- E, H3, <- nsum_scal.
      apply nsum_ext. intros l _. unfold q2, qh. cbn [fst snd]. fold h.
      replace (INR (S t) * h - INR t * h) with h by (rewrite S_INR; ring). field. }
  apply (Rep_ext _ _ m (fun M => / INR (S m) * (X ^ S m + (-1) * nsum m (fun l => 2 * c (S l) * (qh X M ^ S l * trap X (m - 2 * S l) (S M)))))).
  { intros M. specialize (HT M). rewrite nsum_head, H1, Nat.mul_0_r, Nat.sub_0_r, pow_O, Rmult_1_r in HT.
    rewrite (nsum_ext m _ (fun l => 2 * c (S l) * (qh X M ^ S l * trap X (m - 2 * S l) (S M)))) in HT by (intros; ring).
    rewrite HT. field. exact Hm. }
  replace (X ^ S m / INR (S m)) with (/ INR (S m) * (X ^ S m * 1 + (-1) * 0)) by (field; exact Hm).
  apply Rep_scal, Rep_add.
  - eapply Rep_ext; [|apply Rep_scal, (Rep_base _ _ m)]. intros x. cbv beta. ring.
  - apply Rep_scal. replace 0 with (nsum m (fun _ : nat => 0)) by (rewrite nsum_const; ring). apply Rep_sum. intros l Hl.
    destruct (Nat.leb_spec (2 * S l) m) as [Hlm|Hlm].
    + replace 0 with (2 * c (S l) * 0) by ring. apply Rep_scal.
      replace m with (2 * S l + (m - 2 * S l))%nat at 1 by lia.
      assert (Hi := IH (m - 2 * S l)%nat ltac:(lia)). apply (Rep_qpow _ _ _ _ _ (S l)) in Hi. exact Hi.
    + rewrite H2 by lia. eapply Rep_ext; [|apply Rep_zero]. intros x. cbv beta. ring.
Qed.

(** ** The table *)
Lemma nsum_pairs n (f : nat -> R) : nsum (2 * n) f = nsum n (fun t => f (2 * t)%nat + f (2 * t + 1)%nat).
Proof.
  induction n as [|n IH]; [reflexivity|]. replace (2 * S n)%nat with (S (S (2 * n))) by lia. rewrite !nsum_S, IH.
  replace (2 * n + 1)%nat with (S (2 * n)) by lia. ring.
Qed.
Lemma tz_trap k y dx i : (i <= k)%nat ->
  tz k y dx i = INR (2 ^ k) * dx / 2 ^ i * nsum (2 ^ i) (fun t => (y (t * 2 ^ (k - i))%nat + y ((t + 1) * 2 ^ (k - i))%nat) / 2).
Proof.
  intros Hi. induction i as [|i IH].
  - cbn [tz pow Nat.pow]. rewrite nsum_S, nsum_O, Nat.sub_0_r, Nat.mul_0_l, Nat.add_0_l, Nat.mul_1_l. field.
  - cbn [tz]. rewrite IH by lia. change (2 ^ S i)%nat with (2 * 2 ^ i)%nat. rewrite nsum_pairs.
    set (s := (2 ^ (k - S i))%nat). assert (Es : (2 ^ (k - i) = 2 * s)%nat) by (unfold s; replace (k - i)%nat with (S (k - S i)) by lia; reflexivity).
    rewrite Es.
    rewrite (nsum_ext (2 ^ i) (fun t => (y (2 * t * s)%nat + y ((2 * t + 1) * s)%nat) / 2 + (y ((2 * t + 1) * s)%nat + y ((2 * t + 1 + 1) * s)%nat) / 2)
      (fun t => (y (t * (2 * s))%nat + y ((t + 1) * (2 * s))%nat) / 2 + y ((2 * t + 1) * s)%nat)).
    + rewrite nsum_add. cbn [pow]. field. apply pow_nonzero. lra.
    + intros t _. replace (2 * t * s)%nat with (t * (2 * s))%nat by lia. replace ((2 * t + 1 + 1) * s)%nat with ((t + 1) * (2 * s))%nat by lia. field.
Qed.
Lemma tz_power k m dx i : (i <= k)%nat -> tz k (fun t => INR t ^ m) dx i = dx * trap (INR (2 ^ k)) m (2 ^ i).
Proof.
  intros Hi. rewrite tz_trap by exact Hi. unfold trap. rewrite nsum_scal.
  assert (Hh : INR (2 ^ k) / INR (2 ^ i) = INR (2 ^ (k - i))).
  { replace k with (i + (k - i))%nat at 1 by lia. rewrite Nat.pow_add_r, mult_INR. field. rewrite INR_pow2. apply pow_nonzero. lra. }
  rewrite <- (INR_pow2 i) at 1. unfold Rdiv at 1. rewrite Rmult_comm with (r1 := INR (2 ^ k)), !Rmult_assoc. f_equal.
  rewrite <- Rmult_assoc. f_equal. apply nsum_ext. intros t _. rewrite Hh. unfold Pk. cbn [fst snd].
  rewrite <- !mult_INR. rewrite Nat.add_1_r. reflexivity.
Qed.

(** ** Extrapolation *)
Fixpoint wt (j l : nat) : R := match j with O => 1 | S j' => wt j' l * (1 + (1 - 4 ^ l) / (4 ^ S j' - 1)) end.
Lemma wt_0 j : wt j 0 = 1.
Proof. induction j as [|j IH]; cbn [wt]; [reflexivity|]. rewrite IH. assert (H := four_pow j). cbn [pow] in *. field. exact H. Qed.
Lemma wt_kill j : forall l, (1 <= l <= j)%nat -> wt j l = 0.
Proof.
  induction j as [|j IH]; intros l Hl; [lia|]. cbn [wt]. destruct (Nat.eq_dec l (S j)) as [->|].
  - assert (H := four_pow j). replace (1 + (1 - 4 ^ S j) / (4 ^ S j - 1)) with 0 by (field; exact H). ring.
  - rewrite IH by lia. ring.
Qed.
Lemma rt_expand k y dx d (e : nat -> R) : (forall i, (i <= k)%nat -> tz k y dx i = nsum d (fun l => e l * (/ 4 ^ i) ^ l)) ->
  forall j i, (j <= i <= k)%nat -> rt k y dx j i = nsum d (fun l => e l * wt j l * (/ 4 ^ i) ^ l).
Proof.
  intros Htz. induction j as [|j IH]; intros i Hi.
  - cbn [rt wt]. rewrite Htz by lia. apply nsum_ext. intros; ring.
  - cbn [rt]. rewrite !IH by lia. destruct i as [|i]; [lia|]. replace (S i - 1)%nat with i by lia.
    assert (H4 := four_pow j). rewrite <- nsum_sub. unfold Rdiv. rewrite Rmult_comm, <- nsum_scal, <- nsum_add. apply nsum_ext. intros l _. cbn [wt].
    assert (E : (/ 4 ^ i) ^ l = 4 ^ l * (/ 4 ^ S i) ^ l).
    { rewrite <- Rpow_mult_distr. f_equal. cbn [pow]. field. apply pow_nonzero. lra. }
    rewrite E. field. exact H4.
Qed.
Lemma pow_comm_2 a l i : ((a / 2 ^ i) ^ 2) ^ l = (a ^ 2) ^ l * (/ 4 ^ i) ^ l.
Proof.
  rewrite <- Rpow_mult_distr. f_equal. unfold Rdiv. rewrite Rpow_mult_distr. f_equal.
  rewrite pow_inv, <- pow_mult, Nat.mul_comm, pow_mult. f_equal. f_equal. lra.
Qed.
(** The value of the rule on t^m for m <= 2k+1 *)
Lemma romb_power k m dx : (m <= 2 * k + 1)%nat ->
  rt k (fun t => INR t ^ m) dx k k = dx * (INR (2 ^ k) ^ S m / INR (S m)).
Proof.
  intros Hm. destruct (trap_rep (INR (2 ^ k)) m) as (c & H1 & H2 & H3).
  rewrite (rt_expand k _ dx (S m) (fun l => dx * c l * (INR (2 ^ k) ^ 2) ^ l)); [| |lia].
  - rewrite nsum_head, nsum_zero.
    + rewrite wt_0, H1. cbn [pow]. ring.
    + intros l Hl. destruct (Nat.leb_spec (S l) k) as [Hlk|Hlk].
      * rewrite wt_kill by lia. ring.
      * rewrite H2 by lia. ring.
  - intros i Hi. rewrite tz_power by exact Hi.
    assert (Hp : (1 <= 2 ^ i)%nat) by (apply Nat.neq_0_lt_0, Nat.pow_nonzero; lia).
    replace (2 ^ i)%nat with (S (2 ^ i - 1)) by lia. rewrite H3, <- nsum_scal. apply nsum_ext. intros l _.
    unfold qh. replace (S (2 ^ i - 1))%nat with (2 ^ i)%nat by lia. rewrite (INR_pow2 i), pow_comm_2. ring.
Qed.

(** ** Positivity: non-negative samples give a non-negative result *)
Definition dj (j : nat) : R := / 6 + / 3 * (/ 4) ^ j.
Lemma q4_pos j : 0 < (/ 4) ^ j.
Proof. apply pow_lt. lra. Qed.
Lemma four_gt1 j : 0 < 4 ^ S j - 1.
Proof. assert (H : 1 <= 4 ^ j) by (apply pow_R1_Rle; lra). cbn [pow]. lra. Qed.
Lemma dj_step j : 4 ^ S j * dj (S j) = 4 ^ S j * dj j - 1.
Proof.
  unfold dj. cbn [pow]. assert (E : 4 ^ j * (/ 4) ^ j = 1) by (rewrite <- Rpow_mult_distr; replace (4 * / 4) with 1 by lra; apply pow1).
  replace (4 * 4 ^ j * (/ 6 + / 3 * (/ 4 * (/ 4) ^ j))) with (4 ^ j * 4 / 6 + / 3 * (4 ^ j * (/ 4) ^ j)) by field.
  replace (4 * 4 ^ j * (/ 6 + / 3 * (/ 4) ^ j)) with (4 ^ j * 4 / 6 + 4 / 3 * (4 ^ j * (/ 4) ^ j)) by field.
  rewrite E. lra.
Qed.
Section Positive.
  Variables (k : nat) (y : nat -> R) (dx : R).
  Hypothesis Hy : forall t, (t <= 2 ^ k)%nat -> 0 <= y t.
  Hypothesis Hdx : 0 < dx.
  Lemma scale_pos i : 0 < INR (2 ^ k) * dx / 2 ^ i.
  Proof.
    apply Rdiv_lt_0_compat; [|apply pow_lt; lra]. apply Rmult_lt_0_compat; [|exact Hdx].
    rewrite INR_pow2. apply pow_lt. lra.
  Qed.
  Lemma sample_idx i t : (i <= k)%nat -> (t < 2 ^ i)%nat -> ((t + 1) * 2 ^ (k - i) <= 2 ^ k)%nat.
  Proof.
    intros Hi Ht. replace (2 ^ k)%nat with (2 ^ i * 2 ^ (k - i))%nat by (rewrite <- Nat.pow_add_r; f_equal; lia).
    apply Nat.mul_le_mono_r. lia.
  Qed.
  Lemma tz_nonneg i : (i <= k)%nat -> 0 <= tz k y dx i.
  Proof.
    intros Hi. rewrite tz_trap by exact Hi. apply Rmult_le_pos; [apply Rlt_le, scale_pos|]. apply nsum_nonneg. intros t Ht.
    assert (H := sample_idx i t Hi Ht). assert (H1 := Hy (t * 2 ^ (k - i))%nat ltac:(nia)). assert (H2 := Hy _ H). lra.
  Qed.
  Lemma tz_half i : (S i <= k)%nat -> dj 0 * tz k y dx i <= tz k y dx (S i).
  Proof.
    intros Hi. replace (dj 0) with (/ 2) by (unfold dj; cbn; field). cbn [tz].
    assert (Ho : 0 <= nsum (2 ^ i) (fun t => y ((2 * t + 1) * 2 ^ (k - S i))%nat)).
    { apply nsum_nonneg. intros t Ht. apply Hy. assert (H := sample_idx (S i) (2 * t) Hi ltac:(cbn [Nat.pow]; lia)). lia. }
    assert (Hs := scale_pos i). assert (Hm := Rmult_le_pos _ _ (Rlt_le _ _ Hs) Ho).
    match goal with |- _ <= ?e => replace e with (/ 2 * tz k y dx i + / 2 * (INR (2 ^ k) * dx / 2 ^ i * nsum (2 ^ i) (fun t => y ((2 * t + 1) * 2 ^ (k - S i))%nat))) end.
    - lra.
    - field. apply pow_nonzero. lra.
  Qed.
  Lemma rt_nonneg_step : forall j,
    (forall i, (j <= i <= k)%nat -> 0 <= rt k y dx j i) /\
    (forall i, (j <= i < k)%nat -> dj j * rt k y dx j i <= rt k y dx j (S i)).
  Proof.
    induction j as [|j [IH1 IH2]].
    - split; intros i Hi; cbn [rt]; [apply tz_nonneg; lia|apply tz_half; lia].
    - assert (H4 := four_gt1 j). assert (Hd := dj_step j). assert (Hq := q4_pos j). assert (Hq' := q4_pos (S j)).
      assert (Hdj : 0 < dj j) by (unfold dj; lra). assert (HdS : 0 < dj (S j)) by (unfold dj; lra).
      assert (Hform : forall i, (S j <= i)%nat -> (4 ^ S j - 1) * rt k y dx (S j) i = 4 ^ S j * rt k y dx j i - rt k y dx j (i - 1)).
      { intros i Hi. cbn [rt]. field. lra. }
      (* lower bound for the extrapolated value *)
      assert (Hlow : forall i, (S j <= i <= k)%nat -> 4 ^ S j * dj (S j) * rt k y dx j (i - 1) <= (4 ^ S j - 1) * rt k y dx (S j) i).
      { intros i Hi. rewrite Hform by lia. assert (H := IH2 (i - 1)%nat ltac:(lia)). replace (S (i - 1)) with i in H by lia.
        rewrite Hd. assert (H' := Rmult_le_compat_l (4 ^ S j) _ _ ltac:(lra) H). lra. }
      split; intros i Hi.
      + assert (H := Hlow i Hi). assert (H1 := IH1 (i - 1)%nat ltac:(lia)).
        assert (H2 := Rmult_le_pos _ _ (Rlt_le _ _ (Rmult_lt_0_compat _ _ (pow_lt 4 (S j) ltac:(lra)) HdS)) H1).
        apply (Rmult_le_reg_l (4 ^ S j - 1)); [exact H4|]. lra.
      + assert (H := Hlow (S i) ltac:(lia)). replace (S i - 1)%nat with i in H by lia.
        assert (H1 := Hform i ltac:(lia)). assert (H2 := IH1 (i - 1)%nat ltac:(lia)).
        apply (Rmult_le_reg_l (4 ^ S j - 1)); [exact H4|].
        replace ((4 ^ S j - 1) * (dj (S j) * rt k y dx (S j) i)) with (dj (S j) * ((4 ^ S j - 1) * rt k y dx (S j) i)) by ring.
        rewrite H1. assert (H3 := Rmult_le_pos _ _ (Rlt_le _ _ HdS) H2). lra.
  Qed.
  Lemma rt_nonneg : 0 <= rt k y dx k k.
  Proof. apply rt_nonneg_step. lia. Qed.
  (** a positive sample gives a positive result *)
  Lemma rt_positive t : (t <= 2 ^ k)%nat -> 0 < y t -> 0 < rt k y dx k k.
  Proof.
    intros Ht Hyt.
    assert (Hk : 0 < tz k y dx k).
    { rewrite tz_trap by lia. apply Rmult_lt_0_compat; [apply scale_pos|].
      rewrite Nat.sub_diag. cbn [Nat.pow].
      assert (Hnn : forall u, (u < 2 ^ k)%nat -> 0 <= (y (u * 1)%nat + y ((u + 1) * 1)%nat) / 2).
      { intros u Hu. rewrite !Nat.mul_1_r. assert (H1 := Hy u ltac:(lia)). assert (H2 := Hy (u + 1)%nat ltac:(lia)). lra. }
      destruct (Rle_lt_or_eq_dec _ _ (nsum_nonneg _ _ Hnn)) as [H|H]; [exact H|exfalso].
      assert (Hz := nsum_nonneg_zero _ _ Hnn (eq_sym H)).
      assert (Hp : (0 < 2 ^ k)%nat) by (apply Nat.neq_0_lt_0, Nat.pow_nonzero; lia).
      destruct (Nat.eq_dec t (2 ^ k)) as [E|E].
      - specialize (Hz (2 ^ k - 1)%nat ltac:(lia)). cbv beta in Hz. rewrite !Nat.mul_1_r in Hz. replace (2 ^ k - 1 + 1)%nat with t in Hz by lia.
        assert (H1 := Hy (2 ^ k - 1)%nat ltac:(lia)). lra.
      - specialize (Hz t ltac:(lia)). cbv beta in Hz. rewrite !Nat.mul_1_r in Hz. assert (H1 := Hy (t + 1)%nat ltac:(lia)). lra. }
    enough (H : forall j, (j <= k)%nat -> 0 < rt k y dx j k) by (apply H; lia).
    induction j as [|j IH]; intros Hj; [cbn [rt]; exact Hk|].
    specialize (IH ltac:(lia)). destruct (rt_nonneg_step j) as [H1 H2].
    assert (H3 := H2 (k - 1)%nat ltac:(lia)). replace (S (k - 1)) with k in H3 by lia. assert (H4 := H1 (k - 1)%nat ltac:(lia)).
    assert (Hd : / 6 < dj j) by (unfold dj; assert (H := q4_pos j); lra).
    assert (Hd0 : j = 0%nat -> dj j = / 2) by (intros ->; unfold dj; cbn; field).
    assert (Hsm : rt k y dx j (k - 1) < 4 ^ S j * rt k y dx j k).
    { assert (E : rt k y dx j (k - 1) <= 6 * rt k y dx j k).
      { assert (H5 := Rmult_le_compat_r (rt k y dx j (k - 1)) _ _ H4 (Rlt_le _ _ Hd)). lra. }
      destruct j as [|j].
      - rewrite Hd0 in H3 by reflexivity. cbn [pow]. lra.
      - assert (H6 : 1 <= 4 ^ j) by (apply pow_R1_Rle; lra). assert (H7 : 16 <= 4 ^ S (S j)) by (cbn [pow]; lra).
        assert (H8 := Rmult_le_compat_r _ _ _ (Rlt_le _ _ IH) H7). lra. }
    cbn [rt]. assert (H9 := four_gt1 j).
    replace (rt k y dx j k + (rt k y dx j k - rt k y dx j (k - 1)) / (4 ^ S j - 1)) with ((4 ^ S j * rt k y dx j k - rt k y dx j (k - 1)) / (4 ^ S j - 1)) by (field; lra).
    apply Rdiv_lt_0_compat; lra.
  Qed.
End Positive.
(** the same for a grid *)
Lemma R2_nonneg kx ky a : (forall i j, (i <= 2 ^ kx)%nat -> (j <= 2 ^ ky)%nat -> 0 <= a i j) -> 0 <= R2 kx ky a.
Proof. intros H. apply rt_nonneg; [|lra]. intros i Hi. apply rt_nonneg; [|lra]. intros j Hj. apply H; assumption. Qed.
Lemma R2_positive kx ky a i j : (forall i j, (i <= 2 ^ kx)%nat -> (j <= 2 ^ ky)%nat -> 0 <= a i j) ->
  (i <= 2 ^ kx)%nat -> (j <= 2 ^ ky)%nat -> 0 < a i j -> 0 < R2 kx ky a.
Proof.
  intros H Hi Hj Ha. unfold R2. apply (rt_positive kx _ 1) with (t := i); [|lra|exact Hi|].
  - intros u Hu. apply rt_nonneg; [|lra]. intros v Hv. apply H; assumption.
  - apply (rt_positive ky _ 1) with (t := j); [|lra|exact Hj|exact Ha]. intros v Hv. apply H; assumption.
Qed.
