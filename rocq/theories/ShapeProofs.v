(** Lemmas about the shape diagnostics. *)
From Coq Require Import List Arith ZArith Bool Reals Lia Lra.
From Verif Require Import Py Num Numpy Critical Equilibrium EquilibriumProofs EquilibriumProofs2 Shape ShapeSpec.
Import ListNotations.
Local Open Scope R_scope.

Lemma half_R : (half : R) = / 2.
Proof. unfold half, nlit. nR. lra. Qed.

(** ** argmax, argmin under monotone maps *)
Section Mono.
  Variable f : R -> R.
  Lemma argmax_inc : (forall x y, x < y <-> f x < f y) -> forall l i b v, argmax_from (map f l) i b (f v) = argmax_from l i b v.
  Proof.
    intros Hf. induction l as [|x l IH]; intros i b v; cbn [map argmax_from]; [reflexivity|]. nR.
    destruct (R_ltb v x) eqn:E.
    - apply R_ltb_true in E. replace (R_ltb (f v) (f x)) with true by (symmetry; apply R_ltb_true; exact (proj1 (Hf _ _) E)). apply IH.
    - replace (R_ltb (f v) (f x)) with false; [apply IH|]. symmetry. apply R_ltb_false. apply R_ltb_false in E. destruct (Rle_lt_dec (f x) (f v)) as [H|H]; [lra|]. apply (proj2 (Hf _ _)) in H. lra.
  Qed.
  Lemma argmin_inc : (forall x y, x < y <-> f x < f y) -> forall l i b v, argmin_from (map f l) i b (f v) = argmin_from l i b v.
  Proof.
    intros Hf. induction l as [|x l IH]; intros i b v; cbn [map argmin_from]; [reflexivity|]. nR.
    destruct (R_ltb x v) eqn:E.
    - apply R_ltb_true in E. replace (R_ltb (f x) (f v)) with true by (symmetry; apply R_ltb_true; exact (proj1 (Hf _ _) E)). apply IH.
    - replace (R_ltb (f x) (f v)) with false; [apply IH|]. symmetry. apply R_ltb_false. apply R_ltb_false in E. destruct (Rle_lt_dec (f v) (f x)) as [H|H]; [lra|]. apply (proj2 (Hf _ _)) in H. lra.
  Qed.
  Lemma argmin_dec : (forall x y, x < y <-> f y < f x) -> forall l i b v, argmin_from (map f l) i b (f v) = argmax_from l i b v.
  Proof.
    intros Hf. induction l as [|x l IH]; intros i b v; cbn [map argmin_from argmax_from]; [reflexivity|]. nR.
    destruct (R_ltb v x) eqn:E.
    - apply R_ltb_true in E. replace (R_ltb (f x) (f v)) with true by (symmetry; apply R_ltb_true; exact (proj1 (Hf _ _) E)). apply IH.
    - replace (R_ltb (f x) (f v)) with false; [apply IH|]. symmetry. apply R_ltb_false. apply R_ltb_false in E. destruct (Rle_lt_dec (f v) (f x)) as [H|H]; [lra|]. apply (proj2 (Hf _ _)) in H. lra.
  Qed.
End Mono.
Lemma argmax_of_inc f (l : list R) : (forall x y, x < y <-> f x < f y) -> argmax (map f l) = argmax l.
Proof. intros Hf. destruct l as [|x l]; [reflexivity|]. cbn [map argmax]. rewrite argmax_inc by exact Hf. reflexivity. Qed.
Lemma argmin_of_inc f (l : list R) : (forall x y, x < y <-> f x < f y) -> argmin_of (map f l) = argmin_of l.
Proof. intros Hf. destruct l as [|x l]; [reflexivity|]. cbn [map argmin_of]. rewrite argmin_inc by exact Hf. reflexivity. Qed.
Lemma argmin_of_neg (l : list R) : argmin_of (map Ropp l) = argmax l.
Proof. destruct l as [|x l]; [reflexivity|]. cbn [map argmin_of argmax]. rewrite argmin_dec by (intros; lra). reflexivity. Qed.
Lemma argmax_of_neg (l : list R) : argmax (map Ropp l) = argmin_of l.
Proof. rewrite <- argmin_of_neg, map_map. f_equal. rewrite (map_ext _ (fun x => x)) by (intros; ring). apply map_id. Qed.

Lemma argmin_of_spec (l : list R) : match argmin_of l with
  | None => l = []
  | Some k => (k < length l)%nat /\ forall i, (i < length l)%nat -> nth k l 0 <= nth i l 0
  end.
Proof.
  rewrite <- argmax_of_neg. assert (H := argmax_spec (map Ropp l)). destruct (argmax (map Ropp l)) as [k|].
  - destruct H as (Hk & Hm). rewrite map_length in *. split; [exact Hk|]. intros i Hi. specialize (Hm i Hi).
    replace 0 with (- 0) in Hm at 1 2 by ring. rewrite !map_nth in Hm. lra.
  - destruct l; [reflexivity|discriminate].
Qed.

(** ** max, min *)
Lemma amax_of_spec (l : list R) : match amax_of l with Raise e => l = [] /\ e = ValueError | Ok v => In v l /\ forall x, In x l -> x <= v end.
Proof.
  destruct l as [|x l]; cbn [amax_of]; [auto|]. revert x. induction l as [|y l IH]; intros x; cbn [fold_left].
  - split; [left; reflexivity|]. intros z [->|[]]. lra.
  - destruct (IH (nmax x y)) as (Hi & Hm). rewrite nmax_R in *. split.
    + destruct Hi as [<-|Hi]; [|right; right; exact Hi]. unfold Rbasic_fun.Rmax. destruct (Rle_dec x y); [right; left|left]; reflexivity.
    + assert (Hx := Rmax_l x y). assert (Hy := Rmax_r x y). assert (H0 := Hm _ (or_introl eq_refl)).
      intros z [->|[->|Hz]]; [lra|lra|apply Hm; right; exact Hz].
Qed.
Lemma amin_of_spec (l : list R) : match amin_of l with Raise e => l = [] /\ e = ValueError | Ok v => In v l /\ forall x, In x l -> v <= x end.
Proof.
  destruct l as [|x l]; cbn [amin_of]; [auto|]. revert x. induction l as [|y l IH]; intros x; cbn [fold_left].
  - split; [left; reflexivity|]. intros z [->|[]]. lra.
  - destruct (IH (nmin x y)) as (Hi & Hm). rewrite nmin_R in *. split.
    + destruct Hi as [<-|Hi]; [|right; right; exact Hi]. unfold Rbasic_fun.Rmin. destruct (Rle_dec x y); [left|right; left]; reflexivity.
    + assert (Hx := Rmin_l x y). assert (Hy := Rmin_r x y). assert (H0 := Hm _ (or_introl eq_refl)).
      intros z [->|[->|Hz]]; [lra|lra|apply Hm; right; exact Hz].
Qed.
Lemma amax_unique (l : list R) v : In v l -> (forall x, In x l -> x <= v) -> amax_of l = Ok v.
Proof.
  intros Hi Hm. assert (H := amax_of_spec l). destruct (amax_of l) as [w|e].
  - destruct H as (Hw & Hx). f_equal. apply Rle_antisym; [apply Hm|apply Hx]; assumption.
  - destruct H as (-> & _). destruct Hi.
Qed.
Lemma amin_unique (l : list R) v : In v l -> (forall x, In x l -> v <= x) -> amin_of l = Ok v.
Proof.
  intros Hi Hm. assert (H := amin_of_spec l). destruct (amin_of l) as [w|e].
  - destruct H as (Hw & Hx). f_equal. apply Rle_antisym; [apply Hx|apply Hm]; assumption.
  - destruct H as (-> & _). destruct Hi.
Qed.

(** ** Everything in terms of the extremal points *)
Lemma extremes (s : list (R * R)) : s <> [] -> exists p1 p3 p2 p4,
  highest fst s p1 /\ lowest fst s p3 /\ highest snd s p2 /\ lowest snd s p4 /\
  (exists i1 i3 i2 i4, argmax (Rlcfs s) = Some i1 /\ nth i1 s (0, 0) = p1 /\ argmin_of (Rlcfs s) = Some i3 /\ nth i3 s (0, 0) = p3 /\
     argmax (Zlcfs s) = Some i2 /\ nth i2 s (0, 0) = p2 /\ argmin_of (Zlcfs s) = Some i4 /\ nth i4 s (0, 0) = p4) /\
  amax_of (Rlcfs s) = Ok (fst p1) /\ amin_of (Rlcfs s) = Ok (fst p3) /\ amax_of (Zlcfs s) = Ok (snd p2) /\ amin_of (Zlcfs s) = Ok (snd p4).
Proof.
  intros Hs. assert (Hl : (0 < length s)%nat) by (destruct s; [contradiction|cbn; lia]).
  assert (A : forall f : R * R -> R, f (0, 0) = 0 -> exists i, argmax (map f s) = Some i /\ highest f s (nth i s (0, 0)) /\ amax_of (map f s) = Ok (f (nth i s (0, 0)))).
  { intros f Hf. assert (H := argmax_spec (map f s)). destruct (argmax (map f s)) as [i|] eqn:E; [|destruct s; [contradiction|discriminate]].
    rewrite map_length in H. destruct H as (Hi & Hm). exists i. split; [reflexivity|].
    assert (Hh : highest f s (nth i s (0, 0))).
    { split; [apply nth_In; exact Hi|]. intros q Hq. apply In_nth with (d := (0, 0)) in Hq. destruct Hq as (k & Hk & <-). specialize (Hm k Hk).
      rewrite <- Hf in Hm. rewrite !map_nth in Hm. exact Hm. }
    split; [exact Hh|]. apply amax_unique; [apply in_map; apply Hh|]. intros x Hx. apply in_map_iff in Hx. destruct Hx as (q & <- & Hq). apply Hh. exact Hq. }
  assert (B : forall f : R * R -> R, f (0, 0) = 0 -> exists i, argmin_of (map f s) = Some i /\ lowest f s (nth i s (0, 0)) /\ amin_of (map f s) = Ok (f (nth i s (0, 0)))).
  { intros f Hf. assert (H := argmin_of_spec (map f s)). destruct (argmin_of (map f s)) as [i|] eqn:E; [|destruct s; [contradiction|discriminate]].
    rewrite map_length in H. destruct H as (Hi & Hm). exists i. split; [reflexivity|].
    assert (Hh : lowest f s (nth i s (0, 0))).
    { split; [apply nth_In; exact Hi|]. intros q Hq. apply In_nth with (d := (0, 0)) in Hq. destruct Hq as (k & Hk & <-). specialize (Hm k Hk).
      rewrite <- Hf in Hm. rewrite !map_nth in Hm. exact Hm. }
    split; [exact Hh|]. apply amin_unique; [apply in_map; apply Hh|]. intros x Hx. apply in_map_iff in Hx. destruct Hx as (q & <- & Hq). apply Hh. exact Hq. }
  destruct (A fst eq_refl) as (i1 & E1 & H1 & M1). destruct (B fst eq_refl) as (i3 & E3 & H3 & M3).
  destruct (A snd eq_refl) as (i2 & E2 & H2 & M2). destruct (B snd eq_refl) as (i4 & E4 & H4 & M4).
  exists (nth i1 s (0, 0)), (nth i3 s (0, 0)), (nth i2 s (0, 0)), (nth i4 s (0, 0)).
  repeat (split; [assumption|]). split; [exists i1, i3, i2, i4; repeat split; assumption|]. repeat split; assumption.
Qed.
Lemma nth_fst s i : nth i (Rlcfs s) 0 = fst (nth i s ((0, 0) : R * R)).
Proof. unfold Rlcfs. rewrite <- (map_nth fst). reflexivity. Qed.

(** all diagnostics at once, for one and the same choice of extremal points *)
Lemma diagnostics (s : list (R * R)) : s <> [] -> exists p1 p3 p2 p4,
  highest fst s p1 /\ lowest fst s p3 /\ highest snd s p2 /\ lowest snd s p4 /\
  (exists i1 i3 i2 i4, argmax (Rlcfs s) = Some i1 /\ nth i1 s (0, 0) = p1 /\ argmin_of (Rlcfs s) = Some i3 /\ nth i3 s (0, 0) = p3 /\
     argmax (Zlcfs s) = Some i2 /\ nth i2 s (0, 0) = p2 /\ argmin_of (Zlcfs s) = Some i4 /\ nth i4 s (0, 0) = p4) /\
  let R0 := (fst p1 + fst p3) / 2 in let z0 := (snd p1 + snd p3) / 2 in let a := (fst p1 - fst p3) / 2 in
  geometricAxis s = Ok (R0, z0) /\ Rgeometric s = Ok R0 /\ Zgeometric s = Ok z0 /\ minorRadius s = Ok a /\
  aspectRatio s = Ok (R0 / a) /\ inverseAspectRatio s = Ok (a / R0) /\
  elongation s = Ok ((snd p2 - snd p4) / 2 / a) /\ elongationUpper s = Ok ((snd p2 - z0) / a) /\ elongationLower s = Ok ((z0 - snd p4) / a) /\
  triangularityUpper s = Ok ((R0 - fst p2) / a) /\ triangularityLower s = Ok ((R0 - fst p4) / a) /\
  triangularity s = Ok (((R0 - fst p2) / a + (R0 - fst p4) / a) / 2).
Proof.
  intros Hs. destruct (extremes s Hs) as (p1 & p3 & p2 & p4 & H1 & H3 & H2 & H4 & Hi & M1 & M3 & M2 & M4).
  exists p1, p3, p2, p4. do 5 (split; [assumption|]). destruct Hi as (i1 & i3 & i2 & i4 & E1 & N1 & E3 & N3 & E2 & N2 & E4 & N4). cbv zeta.
  assert (Eg : geometricAxis s = Ok ((fst p1 + fst p3) / 2, (snd p1 + snd p3) / 2)).
  { unfold geometricAxis. rewrite E1, E3. cbv zeta. change (@n0 R Num_R) with 0. rewrite N1, N3, half_R. nR. f_equal. f_equal; lra. }
  assert (ER : Rgeometric s = Ok ((fst p1 + fst p3) / 2)) by (unfold Rgeometric; rewrite Eg; reflexivity).
  assert (EZ : Zgeometric s = Ok ((snd p1 + snd p3) / 2)) by (unfold Zgeometric; rewrite Eg; reflexivity).
  assert (Ea : minorRadius s = Ok ((fst p1 - fst p3) / 2)).
  { unfold minorRadius. rewrite M1, M3. cbn [bind]. rewrite half_R. nR. f_equal. lra. }
  assert (Eu : triangularityUpper s = Ok (((fst p1 + fst p3) / 2 - fst p2) / ((fst p1 - fst p3) / 2))).
  { unfold triangularityUpper. rewrite E2. cbv zeta. rewrite ER, Ea. cbn [bind]. change (@n0 R Num_R) with 0. rewrite nth_fst, N2. reflexivity. }
  assert (El : triangularityLower s = Ok (((fst p1 + fst p3) / 2 - fst p4) / ((fst p1 - fst p3) / 2))).
  { unfold triangularityLower. rewrite E4. cbv zeta. rewrite ER, Ea. cbn [bind]. change (@n0 R Num_R) with 0. rewrite nth_fst, N4. reflexivity. }
  split; [exact Eg|]. split; [exact ER|]. split; [exact EZ|]. split; [exact Ea|].
  split; [unfold aspectRatio; rewrite ER, Ea; reflexivity|]. split; [unfold inverseAspectRatio; rewrite ER, Ea; reflexivity|].
  split; [unfold elongation; rewrite M2, M4, Ea; cbn [bind]; rewrite half_R; nR; f_equal; f_equal; lra|].
  split; [unfold elongationUpper; rewrite M2, EZ, Ea; reflexivity|]. split; [unfold elongationLower; rewrite M4, EZ, Ea; reflexivity|].
  split; [exact Eu|]. split; [exact El|]. unfold triangularity. rewrite Eu, El. cbn [bind]. rewrite half_R. nR. f_equal. lra.
Qed.

(** ** Transformed curves *)
Definition affine (k l u v : R) (p : R * R) : R * R := (k * fst p + u, l * snd p + v).
Lemma affine_R k l u v s : Rlcfs (map (affine k l u v) s) = map (fun x => k * x + u) (Rlcfs s).
Proof. unfold Rlcfs. rewrite !map_map. reflexivity. Qed.
Lemma affine_Z k l u v s : Zlcfs (map (affine k l u v) s) = map (fun x => l * x + v) (Zlcfs s).
Proof. unfold Zlcfs. rewrite !map_map. reflexivity. Qed.
Lemma lin_inc k u : 0 < k -> forall x y, x < y <-> k * x + u < k * y + u.
Proof.
  intros Hk x y. split; intros H.
  - assert (k * x < k * y) by (apply Rmult_lt_compat_l; assumption). lra.
  - apply Rmult_lt_reg_l with k; [exact Hk|]. lra.
Qed.
Lemma nth_affine k l u v s i : (i < length s)%nat -> nth i (map (affine k l u v) s) (0, 0) = affine k l u v (nth i s (0, 0)).
Proof.
  intros Hi. rewrite (nth_indep _ (0, 0) (affine k l u v (0, 0))) by (rewrite map_length; exact Hi). apply map_nth.
Qed.
Lemma arg_bound {A} (f : A -> R) s i : argmax (map f s) = Some i \/ argmin_of (map f s) = Some i -> (i < length s)%nat.
Proof.
  intros [E|E]; [assert (H := argmax_spec (map f s))|assert (H := argmin_of_spec (map f s))]; rewrite E, map_length in H; apply H.
Qed.
(** A stretched and shifted curve has its extremal points at the same places *)
Lemma affine_extremes k l u v s : 0 < k -> 0 < l ->
  let s' := map (affine k l u v) s in
  argmax (Rlcfs s') = argmax (Rlcfs s) /\ argmin_of (Rlcfs s') = argmin_of (Rlcfs s) /\
  argmax (Zlcfs s') = argmax (Zlcfs s) /\ argmin_of (Zlcfs s') = argmin_of (Zlcfs s).
Proof.
  intros Hk Hl s'. unfold s'. rewrite affine_R, affine_Z.
  repeat split; first [apply argmax_of_inc|apply argmin_of_inc]; apply lin_inc; assumption.
Qed.
