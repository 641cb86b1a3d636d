(** C103: the constraint on normalised flux. *)
From Coq Require Import List Arith ZArith Bool Reals Lra Lia.
From Verif Require Import Py Num Numpy Control.
Import ListNotations.
Local Open Scope R_scope.

(** The residual vanishes exactly when every point with non-zero weight has its target. *)
Theorem C103_zero_iff_on_target : forall target w pa pb psi, pa <> pb ->
  length w = length target -> length psi = length target ->
  (exists d, psinorm_difference target (WArray w) pa pb psi = Ok d /\ Forall (fun v => v = 0) d) <->
  (forall i, (i < length w)%nat -> nth i w 0 <> 0 -> nth i psi 0 = pa + nth i target 0 * (pb - pa)).
Proof.
  intros target w pa pb psi Hne Hw Hp. unfold psinorm_difference, arr_sub, weigh. rewrite map_length, Hp, Nat.eqb_refl. cbn [bind].
  rewrite map_length, combine_length, map_length, Hp, Hw, Nat.min_id, Nat.eqb_refl.
  assert (Hd : pb - pa <> 0) by lra.
  assert (Key : forall p t x, (nsub (ndiv (nsub p pa) (nsub pb pa)) t * x = 0 <-> (x <> 0 -> p = pa + t * (pb - pa))) ).
  { intros p t x. nR. split.
    - intros E Hx. apply Rmult_integral in E as [E|E]; [|contradiction]. assert (E1 : (p - pa) / (pb - pa) = t) by lra. rewrite <- E1. field. exact Hd.
    - intros E. destruct (Req_dec x 0) as [->|Hx]; [ring|]. rewrite (E Hx). field. exact Hd. }
  split.
  - intros (d & [= <-] & HF). revert target psi Hw Hp HF. induction w as [|x w IH]; intros [|t target] [|p psi] Hw Hp HF i Hi Hwi; try discriminate; [cbn in Hi; lia|].
    cbn [map combine fst snd] in HF. inversion HF as [|? ? H0 H1]; subst. destruct i as [|i]; cbn [nth] in *.
    + apply (Key p t x); [exact H0|exact Hwi].
    + apply (IH target psi); [injection Hw; auto|injection Hp; auto|exact H1|cbn in Hi; lia|exact Hwi].
  - intros H. eexists. split; [reflexivity|]. revert target psi Hw Hp H. induction w as [|x w IH]; intros [|t target] [|p psi] Hw Hp H; try discriminate; [constructor|].
    cbn [map combine fst snd]. constructor.
    + apply (Key p t x). apply (H 0%nat). cbn. lia.
    + apply IH; [injection Hw; auto|injection Hp; auto|]. intros i Hi. apply (H (S i)). cbn. lia.
Qed.
Print Assumptions C103_zero_iff_on_target.
(** It does not depend on the zero or the unit of the flux. *)
Theorem C103_gauge_invariance : forall target w pa pb psi a b, a <> 0 -> pa <> pb ->
  psinorm_difference target w (a * pa + b) (a * pb + b) (map (fun p => a * p + b) psi) = psinorm_difference target w pa pb psi.
Proof.
  intros target w pa pb psi a b Ha Hne. unfold psinorm_difference. rewrite map_map.
  rewrite (map_ext (fun x => ndiv (nsub (a * x + b) (a * pa + b)) (nsub (a * pb + b) (a * pa + b))) (fun p => ndiv (nsub p pa) (nsub pb pa))); [reflexivity|].
  intros x. nR. assert (Hd : pb - pa <> 0) by lra.
  replace (a * x + b - (a * pa + b)) with (a * (x - pa)) by ring. replace (a * pb + b - (a * pa + b)) with (a * (pb - pa)) by ring.
  field. split; assumption.
Qed.
Print Assumptions C103_gauge_invariance.
(** The scalar residual of the Advanced class is the sum of the squares. *)
Theorem C103_advanced : forall target w lims pa pb psi v,
  advnorm_difference (mkadv target w lims) pa pb psi = Ok v <->
  exists d, psinorm_difference target w pa pb psi = Ok d /\ v = lsum (map (fun x => x ^ 2) d).
Proof.
  intros target w lims pa pb psi v. unfold advnorm_difference. cbn [adv_target adv_weights].
  destruct (psinorm_difference target w pa pb psi) as [d|x]; cbn [bind].
  - split.
    + intros [= <-]. exists d. split; [reflexivity|]. f_equal. apply map_ext. intros x. unfold nsqr. nR. ring.
    + intros (d' & [= <-] & ->). f_equal. f_equal. apply map_ext. intros x. unfold nsqr. nR. ring.
  - split; [discriminate|]. intros (d & H & _). discriminate.
Qed.
Print Assumptions C103_advanced.
Example C103_example : psinorm_difference [0; 1 / 2; 1] (WArray [1; 1; 2]) 3 7 [3; 5; 11] = Ok [0; 0; 2].
Proof. unfold psinorm_difference, arr_sub, weigh. cbn [length map combine Nat.eqb bind fst snd]. nR. repeat (f_equal; [field|]). reflexivity || (repeat f_equal; field). Qed.

(** The residual point by point, for a weight of each point or one weight for all (the default is 1.0);
    arrays of other lengths are refused. *)
Theorem C103_values : forall target w pa pb psi,
  (length psi = length target -> (forall l, w = WArray l -> length l = length target) ->
   exists d, psinorm_difference target w pa pb psi = Ok d /\ length d = length target /\
     forall i, (i < length target)%nat ->
       nth i d 0 = ((nth i psi 0 - pa) / (pb - pa) - nth i target 0) * match w with WScalar x => x | WArray l => nth i l 0 end) /\
  (length psi <> length target \/ (exists l, w = WArray l /\ length l <> length target) ->
   psinorm_difference target w pa pb psi = Raise ValueError).
Proof.
  intros target w pa pb psi. unfold psinorm_difference, arr_sub, weigh. rewrite map_length. split.
  - intros Hp Hw. rewrite Hp, Nat.eqb_refl. cbn [bind]. destruct w as [x|l].
    + eexists. split; [reflexivity|]. rewrite !map_length, combine_length, map_length, Hp, Nat.min_id. split; [reflexivity|].
      clear Hw. revert psi Hp. induction target as [|t target IH]; intros [|p psi] Hp i Hi; try discriminate; [cbn in Hi; lia|].
      cbn [map combine fst snd]. destruct i as [|i]; cbn [nth]; [reflexivity|]. apply IH; [injection Hp; auto|cbn in Hi; lia].
    + rewrite map_length, combine_length, map_length, Hp, Nat.min_id, (Hw l eq_refl), Nat.eqb_refl.
      eexists. split; [reflexivity|]. rewrite map_length, combine_length, map_length, combine_length, map_length, Hp, (Hw l eq_refl), !Nat.min_id. split; [reflexivity|].
      assert (Hl := Hw l eq_refl). clear Hw. revert psi Hp l Hl. induction target as [|t target IH]; intros [|p psi] Hp [|x l] Hl i Hi; try discriminate; [cbn in Hi; lia|].
      cbn [map combine fst snd]. destruct i as [|i]; cbn [nth]; [reflexivity|]. apply IH; [injection Hp; auto|injection Hl; auto|cbn in Hi; lia].
  - intros H. destruct (Nat.eqb_spec (length psi) (length target)) as [Hp|Hp]; [|reflexivity]. cbn [bind].
    destruct H as [H|(l & -> & Hl)]; [contradiction|].
    rewrite map_length, combine_length, map_length, Hp, Nat.min_id. destruct (Nat.eqb_spec (length l) (length target)); [contradiction|reflexivity].
Qed.
Print Assumptions C103_values.
Example C103_values_example : length [3; 5; 11] = length [0; 1 / 2; 1] /\ (forall l, WScalar 2 = WArray l -> length l = length [0; 1 / 2; 1]).
Proof. split; [reflexivity|discriminate]. Qed.

(** ConstrainPsiNorm2DAdvanced.__init__ (control.py 430-452): weights by default 1.0 *)
Definition ConstrainPsiNorm2DAdvanced (target : list R) (w : option (weights R)) (lims : option (list (R * R))) : advanced R :=
  mkadv target (match w with None => WScalar 1 | Some w' => w' end) lims.
(** With the default weights every point counts the same: the residual is the sum over the points of the
    squared distance of the normalised flux from its target.  It is never negative, and zero only when
    every point has its target. *)
Theorem C103_default_weights : forall target lims pa pb psi, pa <> pb -> length psi = length target ->
  exists v, advnorm_difference (ConstrainPsiNorm2DAdvanced target None lims) pa pb psi = Ok v /\
    v = lsum (map (fun i => ((nth i psi 0 - pa) / (pb - pa) - nth i target 0) ^ 2) (seq 0 (length target))) /\
    0 <= v /\ (v = 0 <-> forall i, (i < length target)%nat -> nth i psi 0 = pa + nth i target 0 * (pb - pa)).
Proof.
  intros target lims pa pb psi Hne Hp.
  destruct (proj1 (C103_values target (WScalar 1) pa pb psi) Hp ltac:(discriminate)) as (d & Ed & Ld & Hd).
  unfold ConstrainPsiNorm2DAdvanced. exists (lsum (map (fun x => x ^ 2) d)). split; [apply C103_advanced; exists d; split; [exact Ed|reflexivity]|].
  assert (Es : lsum (map (fun x => x ^ 2) d) = lsum (map (fun i => ((nth i psi 0 - pa) / (pb - pa) - nth i target 0) ^ 2) (seq 0 (length target)))).
  { f_equal. apply nth_ext with (d := 0 ^ 2) (d' := ((nth (length target) psi 0 - pa) / (pb - pa) - nth (length target) target 0) ^ 2).
    - rewrite !map_length, seq_length. exact Ld.
    - intros i Hi. rewrite map_length in Hi. rewrite (map_nth (fun x => x ^ 2)).
      rewrite (map_nth (fun i => ((nth i psi 0 - pa) / (pb - pa) - nth i target 0) ^ 2)), seq_nth by lia. rewrite Hd by lia. cbn [Nat.add]. ring. }
  split; [exact Es|].
  assert (Nn : forall l : list R, 0 <= lsum (map (fun x => x ^ 2) l)).
  { induction l as [|x l IH]; [cbn; lra|]. cbn [map]. rewrite lsum_cons. assert (0 <= x ^ 2) by apply pow2_ge_0. lra. }
  split; [apply Nn|].
  assert (Z : forall l : list R, lsum (map (fun x => x ^ 2) l) = 0 <-> forall i, (i < length l)%nat -> nth i l 0 = 0).
  { induction l as [|x l IH]; [split; [intros _ i Hi; cbn in Hi; lia|reflexivity]|]. cbn [map]. rewrite lsum_cons. assert (X := pow2_ge_0 x). assert (Y := Nn l). split.
    - intros E. assert (Ex : x ^ 2 = 0) by lra. assert (El : lsum (map (fun x => x ^ 2) l) = 0) by lra.
      intros [|i] Hi; cbn [nth]; [|apply IH; [exact El|cbn in Hi; lia]]. assert (x * x = 0) by (rewrite <- Ex; ring). apply Rmult_integral in H. destruct H; assumption.
    - intros H. assert (H0 := H 0%nat ltac:(cbn; lia)). cbn [nth] in H0. subst x. replace (0 ^ 2) with 0 by ring. rewrite Rplus_0_l. apply IH.
      intros i Hi. apply (H (S i)). cbn. lia. }
  rewrite Z, Ld. assert (Hq : pb - pa <> 0) by lra. split; intros H i Hi; specialize (H i Hi).
  - rewrite Hd in H by exact Hi. assert (E : (nth i psi 0 - pa) / (pb - pa) = nth i target 0) by lra. rewrite <- E. field. exact Hq.
  - rewrite Hd by exact Hi. rewrite H. field. exact Hq.
Qed.
Print Assumptions C103_default_weights.
Example C103_default_weights_example : exists v, advnorm_difference (ConstrainPsiNorm2DAdvanced [0; 1 / 2; 1] None None) 3 7 [3; 5; 11] = Ok v /\ v = 1.
Proof.
  destruct (C103_default_weights [0; 1 / 2; 1] None 3 7 [3; 5; 11] ltac:(lra) eq_refl) as (v & E & Hv & _). exists v. split; [exact E|]. rewrite Hv.
  cbn [length seq map nth]. rewrite !lsum_cons, lsum_nil. field.
Qed.
