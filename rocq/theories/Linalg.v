(** Finite sums and small linear algebra over R used by several proofs. *)
From Coq Require Import Reals Lra Lia List Arith.
From Verif Require Import Num.
Import ListNotations.
Local Open Scope R_scope.

Definition skip (k i : nat) : nat := if (i <? k)%nat then i else S i.

Lemma nsum_skip n : forall (f : nat -> R) k, (k <= n)%nat ->
  nsum (S n) f = nsum n (fun i => f (skip k i)) + f k.
Proof.
  induction n as [|n IH]; intros f k Hk.
  - assert (k = 0)%nat by lia. subst. rewrite nsum_S, !nsum_O. lra.
  - rewrite nsum_S. destruct (Nat.eq_dec k (S n)) as [->|Hne].
    + f_equal. apply nsum_ext. intros i Hi. unfold skip.
      destruct (Nat.ltb_spec i (S n)); [reflexivity|lia].
    + rewrite (IH f k) by lia. rewrite nsum_S. unfold skip at 3.
      destruct (Nat.ltb_spec n k); [lia|]. lra.
Qed.

Lemma dec_all_zero n (f : nat -> R) :
  (forall i, (i < n)%nat -> f i = 0) \/ exists i, (i < n)%nat /\ f i <> 0.
Proof.
  induction n as [|n [IH|(i & Hi & Hf)]].
  - left. intros i Hi. lia.
  - destruct (Req_EM_T (f n) 0) as [E|E].
    + left. intros i Hi. destruct (Nat.eq_dec i n) as [->|]; [exact E|apply IH; lia].
    + right. exists n. split; [lia|exact E].
  - right. exists i. split; [lia|exact Hf].
Qed.

(** n+1 vectors of R^n are linearly dependent. *)
Lemma dependent n : forall v : nat -> nat -> R,
  exists c : nat -> R, (exists k, (k < S n)%nat /\ c k <> 0) /\
    forall i, (i < n)%nat -> nsum (S n) (fun k => c k * v k i) = 0.
Proof.
  induction n as [|n IH]; intros v.
  - exists (fun _ => 1). split; [exists 0%nat; split; [lia|lra]|]. intros i Hi. lia.
  - destruct (dec_all_zero (S (S n)) (fun k => v k n)) as [Hz|(p & Hp & Hnz)].
    + destruct (IH v) as (c & (k & Hk & Hck) & Hc).
      exists (fun j => if (j <? S n)%nat then c j else 0). split.
      * exists k. split; [lia|]. destruct (Nat.ltb_spec k (S n)); [exact Hck|lia].
      * intros i Hi. rewrite nsum_S. cbv beta. destruct (Nat.ltb_spec (S n) (S n)); [lia|].
        destruct (Nat.eq_dec i n) as [->|Hin].
        -- rewrite nsum_zero; [lra|]. intros j Hj. rewrite Hz by lia. lra.
        -- rewrite Rmult_0_l, Rplus_0_r. etransitivity; [|apply (Hc i); lia]. apply nsum_ext.
           intros j Hj. destruct (Nat.ltb_spec j (S n)); [reflexivity|lia].
    + destruct (IH (fun k i => v (skip p k) i - v (skip p k) n / v p n * v p i))
        as (c & (k & Hk & Hck) & Hc).
      (* coefficient of the pivot *)
      set (cp := - nsum (S n) (fun k => c k * (v (skip p k) n / v p n))).
      exists (fun j => if (j =? p)%nat then cp else c (if (j <? p)%nat then j else pred j)).
      assert (Hs : forall j, (if (skip p j =? p)%nat then cp
                  else c (if (skip p j <? p)%nat then skip p j else pred (skip p j))) = c j).
      { intros j. unfold skip. destruct (Nat.ltb_spec j p).
        - destruct (Nat.eqb_spec j p); [lia|]. destruct (Nat.ltb_spec j p); [reflexivity|lia].
        - destruct (Nat.eqb_spec (S j) p); [lia|]. destruct (Nat.ltb_spec (S j) p); [lia|reflexivity]. }
      split.
      * exists (skip p k). rewrite Hs. split; [|exact Hck].
        unfold skip. destruct (Nat.ltb_spec k p); lia.
      * intros i Hi. rewrite (nsum_skip (S n) _ p) by lia.
        rewrite Nat.eqb_refl.
        rewrite (nsum_ext _ _ (fun k => c k * v (skip p k) i)) by (intros j Hj; rewrite Hs; reflexivity).
        destruct (Nat.eq_dec i n) as [->|Hin].
        -- rewrite (nsum_ext _ (fun k => c k * v (skip p k) n)
              (fun k => v p n * (c k * (v (skip p k) n / v p n)))) by (intros j Hj; field; exact Hnz).
           rewrite nsum_scal. unfold cp. lra.
        -- specialize (Hc i ltac:(lia)).
           rewrite (nsum_ext _ _ (fun k => c k * v (skip p k) i - v p i * (c k * (v (skip p k) n / v p n)))) in Hc
             by (intros j Hj; ring).
           rewrite nsum_sub, nsum_scal in Hc. unfold cp. lra.
Qed.

(** Matrix-vector product of an n-column matrix. *)
Definition mv (n : nat) (A : nat -> nat -> R) (x : nat -> R) (i : nat) : R :=
  nsum n (fun j => A i j * x j).

(** A square matrix with trivial kernel is onto. *)
Lemma injective_solvable n (A : nat -> nat -> R) :
  (forall x, (forall i, (i < n)%nat -> mv n A x i = 0) -> forall j, (j < n)%nat -> x j = 0) ->
  forall b, exists x, forall i, (i < n)%nat -> mv n A x i = b i.
Proof.
  intros Hinj b.
  destruct (dependent n (fun k i => if (k <? n)%nat then A i k else b i)) as (c & (k & Hk & Hck) & Hc).
  assert (HS : forall i, (i < n)%nat -> mv n A c i + c n * b i = 0).
  { intros i Hi. etransitivity; [|exact (Hc i Hi)]. rewrite nsum_S.
    destruct (Nat.ltb_spec n n); [lia|]. f_equal. apply nsum_ext. intros j Hj.
    destruct (Nat.ltb_spec j n); [ring|lia]. }
  destruct (Req_EM_T (c n) 0) as [E|E].
  - exfalso. apply Hck. destruct (Nat.eq_dec k n) as [->|]; [exact E|].
    apply Hinj; [|lia]. intros i Hi. specialize (HS i Hi). rewrite E in HS. lra.
  - exists (fun j => - c j / c n). intros i Hi. specialize (HS i Hi).
    unfold mv in *. rewrite (nsum_ext _ _ (fun j => (- / c n) * (A i j * c j)))
      by (intros j Hj; field; exact E).
    rewrite nsum_scal.
    replace (nsum n (fun j => A i j * c j)) with (- (c n * b i)) by lra. field. exact E.
Qed.

Lemma nsum_delta n k (w : R) (v : nat -> R) : (k < n)%nat ->
  nsum n (fun c => (if (c =? k)%nat then w else 0) * v c) = w * v k.
Proof.
  intros Hk. rewrite (nsum_single n _ k Hk).
  - rewrite Nat.eqb_refl. reflexivity.
  - intros i Hi Hne. apply Nat.eqb_neq in Hne. rewrite Hne. lra.
Qed.

(** Finite extrema. *)
Lemma argmin_exists n (f : nat -> R) : (0 < n)%nat ->
  exists k, (k < n)%nat /\ forall i, (i < n)%nat -> f k <= f i.
Proof.
  induction n as [|n IH]; intros Hn; [lia|].
  destruct n as [|n].
  - exists 0%nat. split; [lia|]. intros i Hi. replace i with 0%nat by lia. lra.
  - destruct IH as (k & Hk & Hm); [lia|].
    destruct (Rle_dec (f k) (f (S n))) as [H1|H1].
    + exists k. split; [lia|]. intros i Hi. destruct (Nat.eq_dec i (S n)) as [->|]; [exact H1|apply Hm; lia].
    + exists (S n). split; [lia|]. intros i Hi. destruct (Nat.eq_dec i (S n)) as [->|]; [lra|].
      specialize (Hm i ltac:(lia)). lra.
Qed.
Lemma argmin2_exists nx ny (u : nat -> nat -> R) : (0 < nx)%nat -> (0 < ny)%nat ->
  exists a b, (a < nx)%nat /\ (b < ny)%nat /\
    forall x y, (x < nx)%nat -> (y < ny)%nat -> u a b <= u x y.
Proof.
  intros Hx Hy. induction nx as [|nx IH]; [lia|].
  destruct (argmin_exists ny (u nx) Hy) as (b1 & Hb1 & Hm1).
  destruct nx as [|nx].
  - exists 0%nat, b1. repeat split; [lia|exact Hb1|]. intros x y Hx' Hy'.
    replace x with 0%nat by lia. auto.
  - destruct IH as (a & b & Ha & Hb & Hm); [lia|].
    destruct (Rle_dec (u a b) (u (S nx) b1)) as [H1|H1].
    + exists a, b. repeat split; [lia|exact Hb|]. intros x y Hx' Hy'.
      destruct (Nat.eq_dec x (S nx)) as [->|]; [specialize (Hm1 y Hy'); lra|apply Hm; lia].
    + exists (S nx), b1. repeat split; [lia|exact Hb1|]. intros x y Hx' Hy'.
      destruct (Nat.eq_dec x (S nx)) as [->|]; [apply Hm1; exact Hy'|].
      specialize (Hm x y ltac:(lia) Hy'). lra.
Qed.
