(** Lemmas about the model of freegs/optimise.py. *)
From Coq Require Import List String ZArith Bool Reals Lra.
From Verif Require Import Py Num Optimise.
Import ListNotations.
Local Open Scope R_scope.

Lemma clamp_nonzero (lo hi x : R) :
  lo <> 0 -> hi <> 0 -> lo <= hi ->
  clamp (Some lo) (Some hi) x = Rmin (Rmax x lo) hi.
Proof.
  intros Hlo Hhi Hle. unfold clamp, truthy; nR.
  destruct (R_eqb lo 0) eqn:E1; rcmp; [contradiction|].
  destruct (R_eqb hi 0) eqn:E2; rcmp; [contradiction|].
  unfold Rmin, Rmax.
  destruct (R_ltb x lo) eqn:E3; rcmp.
  - destruct (R_ltb hi lo) eqn:E4; rcmp; repeat destruct Rle_dec; lra.
  - destruct (R_ltb hi x) eqn:E4; rcmp; repeat destruct Rle_dec; lra.
Qed.
Lemma clamp_lo_only (lo x : R) : lo <> 0 -> clamp (Some lo) None x = Rmax x lo.
Proof.
  intros Hlo. unfold clamp, truthy; nR.
  destruct (R_eqb lo 0) eqn:E1; rcmp; [contradiction|]. unfold Rmax.
  destruct (R_ltb x lo) eqn:E3; rcmp; repeat destruct Rle_dec; lra.
Qed.
Lemma clamp_hi_only (hi x : R) : hi <> 0 -> clamp None (Some hi) x = Rmin x hi.
Proof.
  intros Hlo. unfold clamp, truthy; nR.
  destruct (R_eqb hi 0) eqn:E1; rcmp; [contradiction|]. unfold Rmin.
  destruct (R_ltb hi x) eqn:E3; rcmp; repeat destruct Rle_dec; lra.
Qed.
Lemma clamp_none (x : R) : clamp None None x = x.
Proof. reflexivity. Qed.
Lemma clamp_zero_min (x : R) : clamp (Some 0) None x = x.
Proof.
  unfold clamp, truthy; nR. destruct (R_eqb 0 0) eqn:E; rcmp; [reflexivity|lra].
Qed.
Lemma clamp_zero_max (x : R) : clamp None (Some 0) x = x.
Proof.
  unfold clamp, truthy; nR. destruct (R_eqb 0 0) eqn:E; rcmp; [reflexivity|lra].
Qed.

Section Update.
  Context {T : Type}.
  Notation positions := (@positions T).
  (** Effect of an attribute assignment: the first coil with the label is replaced,
      every other entry of the list is untouched. *)
  Lemma update_spec (m : positions) label f m' :
    update m label f = Ok m' ->
    exists pre c post, m = (pre ++ (label, c) :: post)%list /\
      m' = (pre ++ (label, f c) :: post)%list /\ ~ In label (map fst pre).
  Proof.
    revert m'; induction m as [|[l c] m IH]; intros m' E; cbn [update] in E; [discriminate|].
    destruct (String.eqb_spec l label) as [->|Hne].
    - injection E as <-. exists [], c, m. repeat split. intros [].
    - destruct (update m label f) as [m1|ex] eqn:EU; cbn [rmap] in E; [|discriminate].
      injection E as <-. destruct (IH m1 eq_refl) as (pre & c0 & post & -> & -> & Hn).
      exists ((l, c) :: pre), c0, post. repeat split. cbn. intros [Hc|Hc]; auto.
  Qed.
  Lemma lookup_app pre label c (post : positions) :
    ~ In label (map fst pre) -> lookup (pre ++ (label, c) :: post)%list label = Ok c.
  Proof.
    induction pre as [|[l c'] pre IH]; intros Hn; cbn [app lookup].
    - rewrite String.eqb_refl. reflexivity.
    - destruct (String.eqb_spec l label) as [->|Hne].
      + exfalso. apply Hn. left. reflexivity.
      + apply IH. intros Hi. apply Hn. right. exact Hi.
  Qed.
  Lemma update_total (m : positions) label f :
    In label (map fst m) -> exists m', update m label f = Ok m'.
  Proof.
    induction m as [|[l c] m IH]; intros Hi; cbn [update]; [contradiction|].
    destruct (String.eqb_spec l label) as [->|Hne]; [eauto|].
    destruct Hi as [Hi|Hi]; [cbn in Hi; congruence|].
    destruct (IH Hi) as [m' ->]. cbn. eauto.
  Qed.
  Lemma update_missing (m : positions) label f :
    ~ In label (map fst m) -> update m label f = Raise KeyError.
  Proof.
    induction m as [|[l c] m IH]; intros Hi; cbn [update]; [reflexivity|].
    destruct (String.eqb_spec l label) as [->|Hne].
    - exfalso. apply Hi. left. reflexivity.
    - rewrite IH; [reflexivity|]. intros Hc. apply Hi. right. exact Hc.
  Qed.
End Update.

Lemma coilRadius_set_spec label lo hi (m : @positions R) x m' :
  coilRadius_set label lo hi m x = Ok m' ->
  exists pre c post, m = (pre ++ (label, c) :: post)%list /\ ~ In label (map fst pre) /\
    m' = (pre ++ (label, MkPos (clamp lo hi x) (cZ c)) :: post)%list /\
    coilRadius_get label m' = Ok (clamp lo hi x).
Proof.
  intros E. apply update_spec in E. destruct E as (pre & c & post & -> & -> & Hn).
  exists pre, c, post. repeat split; auto.
  unfold coilRadius_get. rewrite lookup_app by assumption. reflexivity.
Qed.
Lemma coilHeight_set_spec label lo hi (m : @positions R) x m' :
  coilHeight_set label lo hi m x = Ok m' ->
  exists pre c post, m = (pre ++ (label, c) :: post)%list /\ ~ In label (map fst pre) /\
    m' = (pre ++ (label, MkPos (cR c) (clamp lo hi x)) :: post)%list /\
    coilHeight_get label m' = Ok (clamp lo hi x).
Proof.
  intros E. apply update_spec in E. destruct E as (pre & c & post & -> & -> & Hn).
  exists pre, c, post. repeat split; auto.
  unfold coilHeight_get. rewrite lookup_app by assumption. reflexivity.
Qed.

Lemma fold_nmax_spec (l : list R) : forall a,
  In (fold_left nmax l a) (a :: l) /\ forall x, In x (a :: l) -> x <= fold_left nmax l a.
Proof.
  induction l as [|b l IH]; intros a; cbn [fold_left].
  - split; [left; reflexivity|]. intros x [<-|[]]. lra.
  - destruct (IH (nmax a b)) as [H1 H2]. split.
    + destruct H1 as [H1|H1]; [|right; right; exact H1].
      rewrite <- H1. rewrite nmax_R. unfold Rmax. destruct (Rle_dec a b); cbn; auto.
    + assert (Hm : nmax a b <= fold_left nmax l (nmax a b)) by (apply H2; left; reflexivity).
      rewrite nmax_R in *. unfold Rmax in *.
      intros x [<-|[<-|Hx]]; try (destruct (Rle_dec a b); lra).
      apply H2. right. exact Hx.
Qed.
Lemma max_abs_coil_current_spec (l : list R) v :
  max_abs_coil_current l = Ok v ->
  (exists i, In i l /\ v = Rabs i) /\ forall i, In i l -> Rabs i <= v.
Proof.
  unfold max_abs_coil_current. destruct l as [|a l]; cbn [map]; [discriminate|].
  intros E. injection E as <-. destruct (fold_nmax_spec (map nabs l) (nabs a)) as [H1 H2]. split.
  - change (nabs a :: map nabs l) with (map nabs (a :: l)) in H1.
    apply in_map_iff in H1. destruct H1 as (i & E & Hi). exists i. split; [exact Hi|].
    rewrite <- E, nabs_R. reflexivity.
  - intros i Hi. rewrite <- nabs_R. apply H2.
    change (nabs a :: map nabs l) with (map nabs (a :: l)). apply in_map. exact Hi.
Qed.
Lemma weighted_sum_spec {E} (args : list (@warg R E)) e :
  weighted_sum args e =
  fold_right (fun a s => match a with WFun f => f e | WPair f w => w * f e end + s) 0 args.
Proof.
  unfold weighted_sum. induction args as [|a args IH]; [reflexivity|].
  cbn [map fold_right]. rewrite lsum_cons, IH. destruct a; cbn [with_weight fst snd]; nR; lra.
Qed.

Lemma position_limits :
  forall (label : string) (m : @positions R) (x : R) (lo hi : option R),
  (forall l, lo = Some l -> l <> 0) -> (forall h, hi = Some h -> h <> 0) ->
  (forall l h, lo = Some l -> hi = Some h -> l <= h) ->
  let y := match lo, hi with
           | Some l, Some h => Rmin (Rmax x l) h
           | Some l, None => Rmax x l
           | None, Some h => Rmin x h
           | None, None => x end in
  (In label (map fst m) ->
   exists pre c post, m = (pre ++ (label, c) :: post)%list /\ ~ In label (map fst pre) /\
     (let m' := (pre ++ (label, MkPos y (cZ c)) :: post)%list in
      coilRadius_set label lo hi m x = Ok m' /\ coilRadius_get label m' = Ok y) /\
     (let m' := (pre ++ (label, MkPos (cR c) y) :: post)%list in
      coilHeight_set label lo hi m x = Ok m' /\ coilHeight_get label m' = Ok y)) /\
  (~ In label (map fst m) ->
   coilRadius_set label lo hi m x = Raise KeyError /\
   coilHeight_set label lo hi m x = Raise KeyError).
Proof.
  intros label m x lo hi Hlo Hhi Hle y.
  assert (Hy : clamp lo hi x = y).
  { unfold y. destruct lo as [l|], hi as [h|].
    - apply clamp_nonzero; auto.
    - apply clamp_lo_only; auto.
    - apply clamp_hi_only; auto.
    - apply clamp_none. }
  split.
  - intros Hin. destruct (update_total m label (fun c => c) Hin) as [m1 E].
    apply update_spec in E. destruct E as (pre & c & post & -> & _ & Hn).
    exists pre, c, post. split; [reflexivity|]. split; [exact Hn|].
    assert (HU : forall f, update (pre ++ (label, c) :: post)%list label f
                         = Ok (pre ++ (label, f c) :: post)%list).
    { intros f. clear -Hn. induction pre as [|[l c'] pre IH]; cbn [app update].
      - rewrite String.eqb_refl. reflexivity.
      - destruct (String.eqb_spec l label) as [->|Hne].
        + exfalso. apply Hn. left. reflexivity.
        + rewrite IH; [reflexivity|]. intros Hi. apply Hn. right. exact Hi. }
    unfold coilRadius_set, coilHeight_set, coilRadius_get, coilHeight_get.
    cbv zeta. rewrite !HU, Hy, !lookup_app by assumption. repeat split.
  - intros Hn. split; apply update_missing; exact Hn.
Qed.

Lemma zero_limit_ignored : forall (label : string) (c : @poscoil R) (rest : @positions R) (x : R),
  x < 0 ->
  coilRadius_set label coilRadius_default_min None ((label, c) :: rest) x
    = Ok ((label, MkPos x (cZ c)) :: rest) /\
  coilHeight_set label (Some 0) None ((label, c) :: rest) x
    = Ok ((label, MkPos (cR c) x) :: rest) /\
  coilHeight_set label None (Some 0) ((label, c) :: rest) (- x)
    = Ok ((label, MkPos (cR c) (- x)) :: rest).
Proof.
  intros label c rest x Hx.
  unfold coilRadius_set, coilHeight_set, coilRadius_default_min. cbn [update].
  rewrite String.eqb_refl. change (@n0 R Num_R) with 0.
  rewrite clamp_zero_min, clamp_zero_max. repeat split.
Qed.
