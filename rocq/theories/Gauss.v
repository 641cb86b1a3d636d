(** An exact linear solver over R, by elimination: the hypotheses on scipy's factorized can be met. *)
From Coq Require Import Reals Lra Lia List Arith.
From Verif Require Import Num Linalg.
Import ListNotations.
Local Open Scope R_scope.

Lemma find_nonzero n (f : nat -> R) :
  ((forall i, (i < n)%nat -> f i = 0) + {i | (i < n)%nat /\ f i <> 0})%type.
Proof.
  induction n as [|n [IH|(i & Hi & Hf)]].
  - left. intros i Hi. lia.
  - destruct (Req_EM_T (f n) 0) as [E|E].
    + left. intros i Hi. destruct (Nat.eq_dec i n) as [->|]; [exact E|apply IH; lia].
    + right. exists n. split; [lia|exact E].
  - right. exists i. split; [lia|exact Hf].
Qed.

(** n+1 vectors of R^n are linearly dependent, with the coefficients computed. *)
Definition dependence n : forall v : nat -> nat -> R,
  {c : nat -> R | (exists k, (k < S n)%nat /\ c k <> 0) /\
    forall i, (i < n)%nat -> nsum (S n) (fun k => c k * v k i) = 0}.
Proof.
  induction n as [|n IH]; intros v.
  - exists (fun _ => 1). split; [exists 0%nat; split; [lia|lra]|]. intros i Hi. lia.
  - destruct (find_nonzero (S (S n)) (fun k => v k n)) as [Hz|(p & Hp & Hnz)].
    + destruct (IH v) as (c & HH).
      exists (fun j => if (j <? S n)%nat then c j else 0). destruct HH as ((k & Hk & Hck) & Hc). split.
      * exists k. split; [lia|]. destruct (Nat.ltb_spec k (S n)); [exact Hck|lia].
      * intros i Hi. rewrite nsum_S. cbv beta. destruct (Nat.ltb_spec (S n) (S n)); [lia|].
        destruct (Nat.eq_dec i n) as [->|Hin].
        -- rewrite nsum_zero; [lra|]. intros j Hj. rewrite Hz by lia. lra.
        -- rewrite Rmult_0_l, Rplus_0_r. etransitivity; [|apply (Hc i); lia]. apply nsum_ext.
           intros j Hj. destruct (Nat.ltb_spec j (S n)); [reflexivity|lia].
    + destruct (IH (fun k i => v (skip p k) i - v (skip p k) n / v p n * v p i)) as (c & HH).
      set (cp := - nsum (S n) (fun k => c k * (v (skip p k) n / v p n))).
      exists (fun j => if (j =? p)%nat then cp else c (if (j <? p)%nat then j else pred j)).
      destruct HH as ((k & Hk & Hck) & Hc).
      assert (Hs : forall j, (if (skip p j =? p)%nat then cp
                  else c (if (skip p j <? p)%nat then skip p j else pred (skip p j))) = c j).
      { intros j. unfold skip. destruct (Nat.ltb_spec j p).
        - destruct (Nat.eqb_spec j p); [lia|]. destruct (Nat.ltb_spec j p); [reflexivity|lia].
        - destruct (Nat.eqb_spec (S j) p); [lia|]. destruct (Nat.ltb_spec (S j) p); [lia|reflexivity]. }
      split.
      * exists (skip p k). rewrite Hs. split; [|exact Hck].
        unfold skip. destruct (Nat.ltb_spec k p); lia.
      * intros i Hi. rewrite (nsum_skip (S n) _ p) by lia.
        rewrite Nat.eqb_refl.
        rewrite (nsum_ext _ _ (fun k => c k * v (skip p k) i)) by (intros j Hj; rewrite Hs; reflexivity).
        destruct (Nat.eq_dec i n) as [->|Hin].
        -- rewrite (nsum_ext _ (fun k => c k * v (skip p k) n)
              (fun k => v p n * (c k * (v (skip p k) n / v p n)))) by (intros j Hj; field; exact Hnz).
           rewrite nsum_scal. unfold cp. lra.
        -- specialize (Hc i ltac:(lia)).
           rewrite (nsum_ext _ _ (fun k => c k * v (skip p k) i - v p i * (c k * (v (skip p k) n / v p n)))) in Hc
             by (intros j Hj; ring).
           rewrite nsum_sub, nsum_scal in Hc. unfold cp. lra.
Qed.

Definition elimination (n : nat) (A : nat -> nat -> R) (b : nat -> R) : nat -> R :=
  let c := proj1_sig (dependence n (fun k i => if (k <? n)%nat then A i k else b i)) in
  fun j => - c j / c n.

Lemma elimination_solves n (A : nat -> nat -> R) b :
  (forall x, (forall i, (i < n)%nat -> nsum n (fun j => A i j * x j) = 0) -> forall j, (j < n)%nat -> x j = 0) ->
  forall i, (i < n)%nat -> nsum n (fun j => A i j * elimination n A b j) = b i.
Proof.
  intros Hinj. unfold elimination. destruct (dependence _ _) as (c & (k & Hk & Hck) & Hc). cbn [proj1_sig].
  assert (HS : forall i, (i < n)%nat -> nsum n (fun j => A i j * c j) + c n * b i = 0).
  { intros i Hi. etransitivity; [|exact (Hc i Hi)]. rewrite nsum_S.
    destruct (Nat.ltb_spec n n); [lia|]. f_equal. apply nsum_ext. intros j Hj.
    destruct (Nat.ltb_spec j n); [ring|lia]. }
  assert (E : c n <> 0).
  { intros E. apply Hck. destruct (Nat.eq_dec k n) as [->|]; [exact E|].
    apply Hinj; [|lia]. intros i Hi. specialize (HS i Hi). rewrite E in HS. lra. }
  intros i Hi. specialize (HS i Hi).
  rewrite (nsum_ext _ _ (fun j => (- / c n) * (A i j * c j))) by (intros j Hj; field; exact E).
  rewrite nsum_scal.
  replace (nsum n (fun j => A i j * c j)) with (- (c n * b i)) by lra. field. exact E.
Qed.
