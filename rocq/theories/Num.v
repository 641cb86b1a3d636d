(** Arithmetic interface of the numeric models.

    Model code is written once over the class [Num].  Two instances:
    - [Num_Q]: rationals, reduced after every operation, so the models run under
      [vm_compute];
    - [Num_R]: the reals of the standard library, used by the theorems.
    Both are exact; binary64 rounding, NaN and infinities are not modelled. *)
From Coq Require Import ZArith QArith Qreduction Reals Lra Lia List Bool.
Import ListNotations.

Class Num (T : Type) : Type := MkNum {
  nadd : T -> T -> T;
  nsub : T -> T -> T;
  nmul : T -> T -> T;
  ndiv : T -> T -> T;
  nopp : T -> T;
  nofZ : Z -> T;
  nltb : T -> T -> bool;
  neqb : T -> T -> bool
}.

Declare Scope num_scope.
Delimit Scope num_scope with num.
Infix "+" := nadd : num_scope.
Infix "-" := nsub : num_scope.
Infix "*" := nmul : num_scope.
Infix "/" := ndiv : num_scope.
Notation "- x" := (nopp x) : num_scope.
Infix "<?" := nltb : num_scope.
Infix "=?" := neqb : num_scope.

Definition Q_ltb (a b : Q) : bool := negb (Qle_bool b a).
#[global] Instance Num_Q : Num Q := {|
  nadd a b := Qred (a + b)%Q;
  nsub a b := Qred (a - b)%Q;
  nmul a b := Qred (a * b)%Q;
  ndiv a b := Qred (a / b)%Q;
  nopp a := Qred (- a)%Q;
  nofZ z := inject_Z z;
  nltb := Q_ltb;
  neqb a b := Qeq_bool a b |}.

Definition R_ltb (a b : R) : bool := if Rlt_dec a b then true else false.
Definition R_eqb (a b : R) : bool := if Req_EM_T a b then true else false.
#[global] Instance Num_R : Num R := {|
  nadd := Rplus; nsub := Rminus; nmul := Rmult; ndiv := Rdiv; nopp := Ropp;
  nofZ := IZR; nltb := R_ltb; neqb := R_eqb |}.

Section Derived.
  Context {T : Type} `{Num T}.
  Open Scope num_scope.
  Definition n0 : T := nofZ 0.
  Definition n1 : T := nofZ 1.
  Definition n2 : T := nofZ 2.
  (** Decimal literal p/q. *)
  Definition nlit (p q : Z) : T := nofZ p / nofZ q.
  Definition nofnat (n : nat) : T := nofZ (Z.of_nat n).
  (** Python [a <= b] (= not (b < a) when NaN is excluded). *)
  Definition nleb (a b : T) : bool := negb (b <? a).
  Definition nabs (a : T) : T := if a <? n0 then - a else a.
  (** Python [max(a,b)]: keeps the first on ties. *)
  Definition nmax (a b : T) : T := if a <? b then b else a.
  Definition nmin (a b : T) : T := if b <? a then b else a.
  (** [numpy.clip(x, lo, hi)] = minimum(maximum(x, lo), hi). *)
  Definition nclip (x lo hi : T) : T := nmin (nmax x lo) hi.
  Definition nsqr (a : T) : T := a * a.
  Fixpoint npow (a : T) (k : nat) : T :=
    match k with O => n1 | S k' => a * npow a k' end.
  (** Sum of a list (exact arithmetic, so the order of addition is immaterial). *)
  Definition lsum (l : list T) : T := fold_right nadd n0 l.
  (** Sum of f 0 .. f (n-1). *)
  Fixpoint nsum (n : nat) (f : nat -> T) : T :=
    match n with O => n0 | S n' => nsum n' f + f n' end.
End Derived.

(** Expose the operations of the real instance. *)
Ltac nR :=
  unfold n0, n1, n2, nlit, nofnat, nleb, nsqr in *;
  cbn [nadd nsub nmul ndiv nopp nofZ nltb neqb Num_R] in *.

(** Boolean comparisons on R. *)
Lemma R_ltb_true a b : R_ltb a b = true <-> (a < b)%R.
Proof. unfold R_ltb; destruct (Rlt_dec a b); split; intros; easy. Qed.
Lemma R_ltb_false a b : R_ltb a b = false <-> (b <= a)%R.
Proof. unfold R_ltb; destruct (Rlt_dec a b); split; intros; try easy; lra. Qed.
Lemma R_eqb_true a b : R_eqb a b = true <-> a = b.
Proof. unfold R_eqb; destruct (Req_EM_T a b); split; intros; easy. Qed.
Lemma R_eqb_false a b : R_eqb a b = false <-> a <> b.
Proof. unfold R_eqb; destruct (Req_EM_T a b); split; intros; easy. Qed.

Ltac rcmp :=
  repeat match goal with
  | H : R_ltb _ _ = true |- _ => apply R_ltb_true in H
  | H : R_ltb _ _ = false |- _ => apply R_ltb_false in H
  | H : R_eqb _ _ = true |- _ => apply R_eqb_true in H
  | H : R_eqb _ _ = false |- _ => apply R_eqb_false in H
  | H : negb _ = true |- _ => apply negb_true_iff in H
  | H : negb _ = false |- _ => apply negb_false_iff in H
  end.

Lemma nabs_R (a : R) : nabs a = Rabs a.
Proof.
  unfold nabs; nR. destruct (R_ltb a 0) eqn:E; rcmp.
  - symmetry; apply Rabs_left; assumption.
  - symmetry; apply Rabs_right; lra.
Qed.
Lemma nmax_R (a b : R) : nmax a b = Rmax a b.
Proof.
  unfold nmax, Rmax; nR. destruct (R_ltb a b) eqn:E; rcmp;
    destruct (Rle_dec a b); lra.
Qed.
Lemma nmin_R (a b : R) : nmin a b = Rmin a b.
Proof.
  unfold nmin, Rmin; nR. destruct (R_ltb b a) eqn:E; rcmp;
    destruct (Rle_dec a b); lra.
Qed.
Lemma nclip_R (x lo hi : R) : nclip x lo hi = Rmin (Rmax x lo) hi.
Proof. unfold nclip. rewrite nmin_R, nmax_R. reflexivity. Qed.

Lemma nclip_bounds (x lo hi : R) : (lo <= hi)%R -> (lo <= nclip x lo hi <= hi)%R.
Proof.
  intros Hlh. rewrite nclip_R. unfold Rmin, Rmax.
  repeat destruct Rle_dec; lra.
Qed.

Lemma npow_R (a : R) k : npow a k = (a ^ k)%R.
Proof. induction k as [|k IH]; [reflexivity|]. cbn [npow pow]. rewrite IH. reflexivity. Qed.

(** Reading guide for real sums. *)
Lemma lsum_nil : lsum (@nil R) = 0%R. Proof. reflexivity. Qed.
Lemma lsum_cons (x : R) l : lsum (x :: l) = (x + lsum l)%R. Proof. reflexivity. Qed.
Lemma lsum_app (l1 l2 : list R) : lsum (l1 ++ l2) = (lsum l1 + lsum l2)%R.
Proof.
  induction l1 as [|x l1 IH]; cbn [app]; rewrite ?lsum_cons, ?IH, ?lsum_nil; lra.
Qed.
Lemma lsum_scal {A} (c : R) (f : A -> R) l :
  lsum (map (fun a => c * f a)%R l) = (c * lsum (map f l))%R.
Proof.
  induction l as [|x l IH]; cbn [map]; rewrite ?lsum_cons, ?IH, ?lsum_nil; lra.
Qed.
Lemma lsum_add {A} (f g : A -> R) l :
  lsum (map (fun a => f a + g a)%R l) = (lsum (map f l) + lsum (map g l))%R.
Proof.
  induction l as [|x l IH]; cbn [map]; rewrite ?lsum_cons, ?IH, ?lsum_nil; lra.
Qed.
Lemma lsum_const {A} (c : R) (l : list A) :
  lsum (map (fun _ => c) l) = (INR (length l) * c)%R.
Proof.
  induction l as [|x l IH]; cbn [map length]; rewrite ?lsum_cons, ?IH, ?lsum_nil, ?S_INR; [simpl|]; lra.
Qed.
Lemma lsum_ext {A} (f g : A -> R) l :
  (forall a, In a l -> f a = g a) -> lsum (map f l) = lsum (map g l).
Proof. intros E; f_equal; apply map_ext_in; exact E. Qed.

Lemma nsum_O (f : nat -> R) : nsum 0 f = 0%R. Proof. reflexivity. Qed.
Lemma nsum_S n (f : nat -> R) : nsum (S n) f = (nsum n f + f n)%R. Proof. reflexivity. Qed.
Lemma nsum_ext n (f g : nat -> R) :
  (forall i, (i < n)%nat -> f i = g i) -> nsum n f = nsum n g.
Proof.
  induction n as [|n IH]; intros E; [reflexivity|].
  rewrite !nsum_S, IH, E; auto.
Qed.
Lemma nsum_add n (f g : nat -> R) :
  nsum n (fun i => f i + g i)%R = (nsum n f + nsum n g)%R.
Proof. induction n as [|n IH]; rewrite ?nsum_O, ?nsum_S, ?IH; lra. Qed.
Lemma nsum_sub n (f g : nat -> R) :
  nsum n (fun i => f i - g i)%R = (nsum n f - nsum n g)%R.
Proof. induction n as [|n IH]; rewrite ?nsum_O, ?nsum_S, ?IH; lra. Qed.
Lemma nsum_scal n (c : R) (f : nat -> R) :
  nsum n (fun i => c * f i)%R = (c * nsum n f)%R.
Proof. induction n as [|n IH]; rewrite ?nsum_O, ?nsum_S, ?IH; lra. Qed.
Lemma nsum_const n (c : R) : nsum n (fun _ => c) = (INR n * c)%R.
Proof. induction n as [|n IH]; rewrite ?nsum_O, ?nsum_S, ?S_INR, ?IH; [simpl|]; lra. Qed.
Lemma nsum_zero n (f : nat -> R) : (forall i, (i < n)%nat -> f i = 0%R) -> nsum n f = 0%R.
Proof.
  intros E. rewrite (nsum_ext n f (fun _ => 0%R)) by exact E. rewrite nsum_const. lra.
Qed.
Lemma nsum_head n (f : nat -> R) : nsum (S n) f = (f O + nsum n (fun i => f (S i)))%R.
Proof.
  induction n as [|n IH]; [rewrite !nsum_S, !nsum_O; lra|].
  rewrite nsum_S, IH, nsum_S. lra.
Qed.
Lemma nsum_swap n m (f : nat -> nat -> R) :
  nsum n (fun i => nsum m (fun j => f i j)) = nsum m (fun j => nsum n (fun i => f i j)).
Proof.
  induction n as [|n IH]; rewrite ?nsum_O, ?nsum_S.
  - symmetry; apply nsum_zero; reflexivity.
  - rewrite IH, <- nsum_add. reflexivity.
Qed.
Lemma nsum_nonneg n (f : nat -> R) : (forall i, (i < n)%nat -> (0 <= f i)%R) -> (0 <= nsum n f)%R.
Proof.
  induction n as [|n IH]; intros E; rewrite ?nsum_O, ?nsum_S; [lra|].
  specialize (IH (fun i Hi => E i (Nat.lt_lt_succ_r _ _ Hi))).
  specialize (E n (Nat.lt_succ_diag_r n)). lra.
Qed.
Lemma nsum_nonneg_zero n (f : nat -> R) :
  (forall i, (i < n)%nat -> (0 <= f i)%R) -> nsum n f = 0%R ->
  forall i, (i < n)%nat -> f i = 0%R.
Proof.
  induction n as [|n IH]; intros E Hs i Hi; [inversion Hi|].
  rewrite nsum_S in Hs.
  assert (H1 : (0 <= nsum n f)%R) by (apply nsum_nonneg; auto).
  assert (H2 := E n (Nat.lt_succ_diag_r n)).
  assert (Hc : (i < n \/ i = n)%nat) by lia. destruct Hc as [Hc|Hc].
  - apply IH; [intros j Hj; apply E; lia | lra | exact Hc].
  - subst; lra.
Qed.
Lemma nsum_single n (f : nat -> R) k :
  (k < n)%nat -> (forall i, (i < n)%nat -> i <> k -> f i = 0%R) -> nsum n f = f k.
Proof.
  induction n as [|n IH]; intros Hk E; [inversion Hk|].
  rewrite nsum_S. destruct (Nat.eq_dec k n) as [->|Hn].
  - rewrite nsum_zero; [lra|]. intros i Hi. apply E; lia.
  - rewrite IH; [|lia|intros i Hi Hik; apply E; lia].
    rewrite (E n) by lia. lra.
Qed.
