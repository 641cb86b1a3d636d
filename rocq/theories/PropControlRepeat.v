(** C202-C204: repeated calls of constrain, the order of the constraints and the size of gamma. *)
From Coq Require Import String List Arith ZArith Bool Reals Lra Lia Permutation.
From Verif Require Import Py Num Numpy Linalg Coils Machine MachineSpec MachineProofs Critical Control ControlSpec ControlProofs PropControl Romb RombProofs Multigrid MultigridProofs Gauss Equilibrium EquilibriumProofs ControlEq PropControlMirror PropControlEq.
Import ListNotations.
Local Open Scope R_scope.

(** ** What the statements mean *)
(** [n] calls of constrain, one after the other, for the same plasma *)
Inductive calls G Pf inv slsqp c : nat -> machine R -> machine R -> Prop :=
| calls_0 M : calls G Pf inv slsqp c 0 M M
| calls_S n M M1 x M' : constrain_call G Pf inv slsqp c M = Ok (M1, x) -> calls G Pf inv slsqp c n M1 M' -> calls G Pf inv slsqp c (S n) M M'.
(** The sum of the squares of what is missed *)
Definition missed G Pf c M : R := sumsq (residuals G Pf c M).
(** The same constraints in another order, where the two points of an isoflux pair may be exchanged *)
Definition same_constraints (c c' : constraints R) : Prop :=
  Permutation (xpoints c) (xpoints c') /\ Permutation (psivals c) (psivals c') /\
  (exists l, Permutation (isoflux c) l /\ Forall2 (fun i j => j = i \/ j = (snd i, fst i)) l (isoflux c')).

(** ** Proofs *)
Definition vsub (y x : list R) : list R := map (fun p => fst p - snd p) (combine y x).
Lemma vsub_length y x : length y = length x -> length (vsub y x) = length x.
Proof. intros H. unfold vsub. rewrite map_length, combine_length. lia. Qed.
Lemma vsub_nth y x j : length y = length x -> nth j (vsub y x) 0 = nth j y 0 - nth j x 0.
Proof.
  unfold vsub. revert x j. induction y as [|v y IH]; intros [|w x] j Hl; try discriminate; [destruct j; cbn; lra|]. injection Hl as Hl.
  destruct j as [|j]; [reflexivity|]. cbn [combine map nth]. apply IH. exact Hl.
Qed.
Lemma dot_vsub a y x : length y = length x -> dot a (vsub y x) = dot a y - dot a x.
Proof. intros Hl. rewrite !(dot_comm a). unfold vsub. apply dot_sub. exact Hl. Qed.
Lemma cost_eq G Pf c M x : cost G Pf c M x = missed G Pf c (controlAdjust M x) + gamma c ^ 2 * sumsq x.
Proof. reflexivity. Qed.
Lemma zero_adjust G Pf c M : missed G Pf c (controlAdjust M (repeat 0 (length (controlCurrents M)))) = missed G Pf c M.
Proof.
  unfold missed. f_equal. apply residuals_ext. intros f r z. rewrite adjust_total by apply repeat_length. rewrite dot_comm.
  assert (E : forall n l, dot (repeat 0 n) l = 0).
  { unfold dot. induction n as [|n IH]; intros [|v l]; try reflexivity. cbn [repeat combine map]. rewrite lsum_cons, IH. cbn [fst snd]. ring. }
  rewrite E. ring.
Qed.
Lemma sumsq_repeat n : sumsq (repeat 0 n) = 0.
Proof. unfold sumsq. induction n as [|n IH]; [reflexivity|]. cbn [repeat map]. rewrite lsum_cons, IH. ring. Qed.
Lemma sumsq_perm l l' : Permutation l l' -> sumsq l = sumsq l'.
Proof. apply sum_perm. Qed.
Lemma sumsq_nonneg l : 0 <= sumsq l.
Proof. unfold sumsq. induction l as [|v l IH]; [cbn [map]; rewrite lsum_nil; lra|]. cbn [map]. rewrite lsum_cons. assert (H := pow2_ge_0 v). lra. Qed.
(** The cost grows with the square of the distance from a minimiser. *)
Lemma strong G Pf c M x y : length x = length (controlCurrents M) -> (forall y, length y = length (controlCurrents M) -> cost G Pf c M x <= cost G Pf c M y) ->
  length y = length x -> cost G Pf c M x + gamma c ^ 2 * sumsq (vsub y x) <= cost G Pf c M y.
Proof.
  intros Hx Hmin Hy. set (n := length (controlCurrents M)) in *.
  assert (Hg : forall j, (j < n)%nat -> grad (length (rows_spec G Pf c M)) n (matA (rows_spec G Pf c M)) (vecb (rows_spec G Pf c M)) (gamma c) (fun j => nth j x 0) j = 0).
  { apply qf_min_iff. intros w. set (yl := map w (seq 0 n)).
    assert (Hyl : length yl = n) by (unfold yl; rewrite map_length, seq_length; reflexivity).
    specialize (Hmin yl Hyl). rewrite !cost_qf in Hmin by assumption. eapply Rle_trans; [exact Hmin|]. right. apply qf_ext. fold n.
    intros j Hj. unfold yl. rewrite nth_indep with (d' := w 0%nat) by (rewrite map_length, seq_length; exact Hj).
    rewrite map_nth, seq_nth by exact Hj. reflexivity. }
  assert (Hy' : length y = n) by congruence. rewrite !cost_qf by assumption. fold n.
  rewrite (qf_ext _ n _ _ _ (fun j => nth j y 0) (fun j => nth j x 0 + (nth j y 0 - nth j x 0))) by (intros; ring).
  rewrite qf_expand. rewrite (nsum_zero n (fun j => (nth j y 0 - nth j x 0) * _)) by (intros i Hi; rewrite Hg by exact Hi; ring).
  unfold qd.
  assert (H1 : 0 <= nsum (length (rows_spec G Pf c M)) (fun k => mv n (matA (rows_spec G Pf c M)) (fun j => nth j y 0 - nth j x 0) k ^ 2)) by (apply nsum_nonneg; intros; apply pow2_ge_0).
  assert (E : sumsq (vsub y x) = nsum n (fun j => (nth j y 0 - nth j x 0) ^ 2)).
  { unfold sumsq. rewrite (lsum_nsum 0), vsub_length by exact Hy. rewrite Hx. apply nsum_ext. intros j _. rewrite vsub_nth by exact Hy. reflexivity. }
  rewrite E. lra.
Qed.
Section S.
  Variable G : field -> R -> R -> R -> R -> R.
  Variable Pf : field -> R -> R -> R.
  Variable inv : nat -> arr2 R -> result (arr2 R).
  Variable slsqp : (list R -> R) -> list R -> list (option R * option R) -> list (list R -> R) -> result (list R).
  Variable c : constraints R.
  Hypothesis Hinv : forall n A N, inv n A = Ok N -> inverts n A N.
  Hypothesis Hs : forall f x0 b cs x, slsqp f x0 b cs = Ok x -> length x = length x0.
  Hypothesis Hw : forall f x0 x, slsqp f x0 (repeat (None, None) (length x0)) [] = Ok x -> f x <= f x0.
  Hypothesis HL : current_lims c = None.
  Hypothesis HT : max_total_current c = None.
  Lemma call_facts M M1 x : constrain_call G Pf inv slsqp c M = Ok (M1, x) ->
    length x = length (controlCurrents M) /\ length (controlCurrents M1) = length (controlCurrents M) /\
    missed G Pf c M1 = missed G Pf c (controlAdjust M x) /\
    (forall y, length y = length (controlCurrents M) -> missed G Pf c (controlAdjust M1 (vsub y x)) = missed G Pf c (controlAdjust M y)) /\
    (forall y, length y = length (controlCurrents M) -> missed G Pf c M1 + gamma c ^ 2 * sumsq x + gamma c ^ 2 * sumsq (vsub y x) <= missed G Pf c (controlAdjust M y) + gamma c ^ 2 * sumsq y).
  Proof.
    intros E. assert (Hl := call_length _ _ _ _ _ _ _ _ Hs E). assert (Hm := C14_result_minimises _ _ _ _ _ _ _ _ Hinv Hs Hw HL HT E).
    destruct (call_machine _ _ _ _ _ _ _ _ E) as (M2 & HM & ->).
    assert (Hl2 : length x = length (controlCurrents M2)) by (rewrite (same_currents _ _ HM); exact Hl).
    assert (Hn : length (controlCurrents (controlAdjust M2 x)) = length (controlCurrents M)).
    { rewrite adjust_get by exact Hl2. rewrite map_length, combine_length. rewrite (same_currents _ _ HM) in *. lia. }
    assert (E1 : missed G Pf c (controlAdjust M2 x) = missed G Pf c (controlAdjust M x)) by (unfold missed; rewrite (same_adjust_residuals G Pf c M M2 x HM Hl); reflexivity).
    split; [exact Hl|]. split; [exact Hn|]. split; [exact E1|]. split.
    - intros y Hy. unfold missed. f_equal. apply residuals_ext. intros f r z.
      rewrite adjust_total by (rewrite vsub_length by congruence; congruence). rewrite adjust_mc by exact Hl2. rewrite !adjust_total by assumption.
      rewrite (same_total _ _ _ _ _ _ _ HM), !(same_control _ _ _ _ _ _ HM). rewrite dot_vsub by congruence. ring.
    - intros y Hy. assert (K := strong G Pf c M x y Hl Hm ltac:(congruence)). rewrite !cost_eq in K. rewrite E1. exact K.
  Qed.
  Lemma call_less M M1 x : constrain_call G Pf inv slsqp c M = Ok (M1, x) -> missed G Pf c M1 + gamma c ^ 2 * sumsq x <= missed G Pf c M.
  Proof.
    intros E. destruct (call_facts M M1 x E) as (Hl & Hn & _ & _ & K). specialize (K (repeat 0 (length (controlCurrents M))) (repeat_length _ _)).
    rewrite zero_adjust, sumsq_repeat in K. assert (H := sumsq_nonneg (vsub (repeat 0 (length (controlCurrents M))) x)). assert (H2 := pow2_ge_0 (gamma c)). nra.
  Qed.
  Lemma calls_last n M M' : calls G Pf inv slsqp c n M M' -> missed G Pf c M' <= missed G Pf c M.
  Proof.
    induction 1 as [M|n M M1 x M' E HC IH]; [lra|]. assert (K := call_less _ _ _ E). assert (H1 := sumsq_nonneg x). assert (H2 := pow2_ge_0 (gamma c)). nra.
  Qed.
  Lemma calls_bound n M M' : calls G Pf inv slsqp c n M M' -> forall y, length y = length (controlCurrents M) ->
    INR n * (missed G Pf c M' - missed G Pf c (controlAdjust M y)) <= gamma c ^ 2 * sumsq y.
  Proof.
    induction 1 as [M|n M M1 x M' E HC IH]; intros y Hy.
    - cbn [INR]. assert (H1 := sumsq_nonneg y). assert (H2 := pow2_ge_0 (gamma c)). nra.
    - destruct (call_facts M M1 x E) as (Hl & Hn & _ & K1 & K2). specialize (IH (vsub y x)). rewrite K1 in IH by exact Hy.
      specialize (IH ltac:(rewrite vsub_length by congruence; congruence)). specialize (K2 y Hy). assert (HM := calls_last _ _ _ HC).
      assert (H1 := sumsq_nonneg x). assert (H2 := pow2_ge_0 (gamma c)). rewrite S_INR. nra.
  Qed.
End S.

(** ** C202 *)
(** Each call leaves the constraints missed by no more than before, less by at least gamma squared times the square of the change. *)
Theorem C202_never_worse : forall G Pf inv slsqp c M M' x,
  (forall n A N, inv n A = Ok N -> inverts n A N) ->
  (forall f x0 b cs x, slsqp f x0 b cs = Ok x -> length x = length x0) ->
  (forall f x0 x, slsqp f x0 (repeat (None, None) (length x0)) [] = Ok x -> f x <= f x0) ->
  current_lims c = None -> max_total_current c = None ->
  constrain_call G Pf inv slsqp c M = Ok (M', x) ->
  missed G Pf c M' + gamma c ^ 2 * sumsq x <= missed G Pf c M.
Proof. intros G Pf inv slsqp c M M' x Hinv Hs Hw HL HT E. exact (call_less G Pf inv slsqp c Hinv Hs Hw HL HT M M' x E). Qed.
Print Assumptions C202_never_worse.
(** After n calls for the same plasma the constraints are missed by at most what any change y of the currents leaves, plus gamma squared times
    the square of y over n: repeated calls reach the least squares solution whatever gamma is. *)
Theorem C202_repeated : forall G Pf inv slsqp c n M M' y,
  (forall n A N, inv n A = Ok N -> inverts n A N) ->
  (forall f x0 b cs x, slsqp f x0 b cs = Ok x -> length x = length x0) ->
  (forall f x0 x, slsqp f x0 (repeat (None, None) (length x0)) [] = Ok x -> f x <= f x0) ->
  current_lims c = None -> max_total_current c = None -> (0 < n)%nat ->
  calls G Pf inv slsqp c n M M' -> length y = length (controlCurrents M) ->
  missed G Pf c M' <= missed G Pf c (controlAdjust M y) + gamma c ^ 2 * sumsq y / INR n.
Proof.
  intros G Pf inv slsqp c n M M' y Hinv Hs Hw HL HT Hn HC Hy. assert (K := calls_bound G Pf inv slsqp c Hinv Hs Hw HL HT n M M' HC y Hy).
  assert (H0 : 0 < INR n) by (apply lt_0_INR; exact Hn).
  apply Rmult_le_reg_l with (INR n); [exact H0|]. replace (INR n * (missed G Pf c (controlAdjust M y) + gamma c ^ 2 * sumsq y / INR n)) with (INR n * missed G Pf c (controlAdjust M y) + gamma c ^ 2 * sumsq y) by (field; lra). lra.
Qed.
Print Assumptions C202_repeated.
(** The calls succeed, any number of times. *)
Theorem C202_always : forall G Pf inv slsqp c,
  inv_ok inv -> (forall f x0, exists x, slsqp f x0 (repeat (None, None) (length x0)) [] = Ok x /\ length x = length x0 /\ f x <= f x0) ->
  gamma c <> 0 -> current_lims c = None -> max_total_current c = None -> (xpoints c <> [] \/ isoflux c <> [] \/ psivals c <> []) ->
  forall n M, exists M', calls G Pf inv slsqp c n M M'.
Proof.
  intros G Pf inv slsqp c Hi Hs Hg HL HT Hne. induction n as [|n IH]; intros M; [exists M; constructor|].
  destruct (C14_unique_minimiser G Pf inv slsqp c M Hi Hs Hg HL HT Hne) as (M1 & x & E & _). destruct (IH M1) as (M' & HC). exists M'. econstructor; eassumption.
Qed.
Print Assumptions C202_always.
(** An inverse that meets the hypotheses: columns by elimination, checked *)
Definition gauss_inv (n : nat) (A : arr2 R) : result (arr2 R) :=
  let N := fun k j => elimination n A (fun i => if (i =? j)%nat then 1 else 0) k in
  if forallb (fun i => forallb (fun j => R_eqb (nsum n (fun k => A i k * N k j)) (if (i =? j)%nat then 1 else 0)) (seq 0 n)) (seq 0 n) then Ok N else Raise LinAlgError.
Lemma gauss_inv_ok : inv_ok gauss_inv.
Proof.
  split; unfold gauss_inv; cbv zeta.
  - intros n A Hk. match goal with |- is_ok (if ?b then _ else _) = true => assert (E : b = true); [|rewrite E; reflexivity] end.
    apply forallb_forall. intros i Hi. apply in_seq in Hi. apply forallb_forall. intros j Hj. apply R_eqb_true. apply elimination_solves; [exact Hk|lia].
  - intros n A N E. match type of E with (if ?b then _ else _) = _ => destruct b eqn:Eb; [|discriminate] end. injection E as <-. intros i j Hi Hj.
    rewrite forallb_forall in Eb. assert (E1 := Eb i ltac:(apply in_seq; lia)). rewrite forallb_forall in E1. assert (E2 := E1 j ltac:(apply in_seq; lia)). apply R_eqb_true in E2. exact E2.
Qed.
(** Two coils, each with current 10, and an X-point wanted at (1,0), which needs the change (-10,-10): after n calls the field there is at most 200/n in square. *)
Definition exg : constraints R := mkcons [(1, 0)] 1 [] [] None None.
Example C202_example : forall n, (0 < n)%nat -> exists M', calls exG (fun _ _ _ => 0) gauss_inv (fun f x0 b cs => Ok x0) exg n exM2 M' /\
  missed exG (fun _ _ _ => 0) exg exM2 = 400 /\ missed exG (fun _ _ _ => 0) exg M' <= 200 / INR n.
Proof.
  intros n Hn. destruct (C202_always exG (fun _ _ _ => 0) gauss_inv (fun f x0 b cs => Ok x0) exg gauss_inv_ok) with (n := n) (M := exM2) as (M' & HC);
    [intros f x0; exists x0; split; [reflexivity|]; split; [reflexivity|lra]|cbn; lra|reflexivity|reflexivity|left; discriminate|].
  exists M'. split; [exact HC|]. split; [unfold missed, sumsq, residuals, total, response_sum; cbn; unfold lsum; cbn; unfold coil_control; cbn; nR; lra|].
  assert (K := C202_repeated exG (fun _ _ _ => 0) gauss_inv (fun f x0 b cs => Ok x0) exg n exM2 M' [-10; -10] (proj2 gauss_inv_ok)
    ltac:(intros f x0 b cs x [= <-]; reflexivity) ltac:(intros f x0 x [= <-]; lra) eq_refl eq_refl Hn HC eq_refl).
  replace (missed exG (fun _ _ _ => 0) exg (controlAdjust exM2 [-10; -10])) with 0 in K.
  - replace (gamma exg ^ 2 * sumsq [-10; -10]) with 200 in K by (unfold sumsq; cbn; unfold lsum; cbn; nR; lra). lra.
  - unfold missed, sumsq, residuals, total, response_sum, controlAdjust. cbn. unfold lsum. cbn. unfold coil_control. cbn. nR. lra.
Qed.

(** ** C203 *)
Lemma sumsq_app l l' : sumsq (l ++ l') = sumsq l + sumsq l'.
Proof. unfold sumsq. rewrite map_app, lsum_app. reflexivity. Qed.
Lemma missed_same G Pf c c' M : same_constraints c c' -> missed G Pf c M = missed G Pf c' M.
Proof.
  intros (H1 & H2 & l & H3 & H4). unfold missed, residuals. rewrite !sumsq_app. f_equal; [|f_equal].
  - apply sumsq_perm. apply Permutation_flat_map. exact H1.
  - etransitivity; [apply sumsq_perm; apply Permutation_map; exact H3|]. clear H3. induction H4 as [|i j l l' E H IH]; [reflexivity|].
    cbn [map]. unfold sumsq in *. cbn [map]. rewrite !lsum_cons, IH. f_equal. destruct E as [->| ->]; [reflexivity|]. cbn [fst snd]. ring.
  - apply sumsq_perm. apply Permutation_map. exact H2.
Qed.
(** The order in which the constraints are given, and the order of the two points of an isoflux pair, do not matter. *)
Theorem C203_order : forall G Pf inv slsqp c c' M M1 M2 x x',
  (forall n A N, inv n A = Ok N -> inverts n A N) ->
  (forall f x0 b cs x, slsqp f x0 b cs = Ok x -> length x = length x0) ->
  (forall f x0 x, slsqp f x0 (repeat (None, None) (length x0)) [] = Ok x -> f x <= f x0) ->
  gamma c <> 0 -> current_lims c = None -> max_total_current c = None ->
  gamma c' = gamma c -> current_lims c' = None -> max_total_current c' = None -> same_constraints c c' ->
  constrain_call G Pf inv slsqp c M = Ok (M1, x) -> constrain_call G Pf inv slsqp c' M = Ok (M2, x') ->
  x' = x /\ forall f r z, fst (eq_field G (Some Pf) f M2 r z) = fst (eq_field G (Some Pf) f M1 r z).
Proof.
  intros G Pf inv slsqp c c' M M1 M2 x x' Hinv Hs Hw Hg HL HT Hg' HL' HT' HC E E'.
  assert (Ec : forall y, cost G Pf c' M y = cost G Pf c M y) by (intros y; rewrite !cost_eq, Hg', (missed_same G Pf c c' _ HC); reflexivity).
  assert (Hl' := call_length _ _ _ _ _ _ _ _ Hs E'). assert (Hl := call_length _ _ _ _ _ _ _ _ Hs E).
  assert (X : x' = x).
  { apply (call_unique _ _ _ _ _ _ _ _ Hinv Hs Hw Hg HL HT E); [exact Hl'|]. rewrite <- !Ec. exact (C14_result_minimises _ _ _ _ _ _ _ _ Hinv Hs Hw HL' HT' E' x Hl). }
  subst x'. split; [reflexivity|]. intros f r z. rewrite !eqf_eq. cbn [fst].
  destruct (call_machine _ _ _ _ _ _ _ _ E) as (N1 & H1 & ->). destruct (call_machine _ _ _ _ _ _ _ _ E') as (N2 & H2 & ->).
  rewrite !adjust_total by (rewrite ?(same_currents _ _ H1), ?(same_currents _ _ H2); exact Hl).
  rewrite !(same_total _ _ _ _ _ _ _ H1), !(same_total _ _ _ _ _ _ _ H2), !(same_control _ _ _ _ _ _ H1), !(same_control _ _ _ _ _ _ H2). reflexivity.
Qed.
Print Assumptions C203_order.
(** Two X-points and an isoflux pair in two orders *)
Example C203_example :
  let c := mkcons [(1, 1); (1, -1)] 1 [((1, 1), (2, -1))] [] None None in
  let c' := mkcons [(1, -1); (1, 1)] 1 [((2, -1), (1, 1))] [] None None in
  same_constraints c c' /\ (exists M1 x, constrain_call exG exP2 gauss_inv (fun f x0 b cs => Ok x0) c exM2 = Ok (M1, x)) /\
  (exists M2 x, constrain_call exG exP2 gauss_inv (fun f x0 b cs => Ok x0) c' exM2 = Ok (M2, x)) /\
  fst (build_rows exG exP2 c exM2) <> fst (build_rows exG exP2 c' exM2).
Proof.
  intros c c'. split.
  { split; [apply perm_swap|]. split; [constructor|]. exists (isoflux c). split; [apply Permutation_refl|]. constructor; [right; reflexivity|constructor]. }
  assert (H : forall c, gamma c = 1 -> current_lims c = None -> max_total_current c = None -> xpoints c <> [] -> exists M1 x, constrain_call exG exP2 gauss_inv (fun f x0 b cs => Ok x0) c exM2 = Ok (M1, x)).
  { intros c0 H1 H2 H3 H4. destruct (C14_unique_minimiser exG exP2 gauss_inv (fun f x0 b cs => Ok x0) c0 exM2 gauss_inv_ok) as (M1 & x & E & _);
      [intros f x0; exists x0; split; [reflexivity|]; split; [reflexivity|lra]|rewrite H1; lra|exact H2|exact H3|left; exact H4|]. exists M1, x. exact E. }
  split; [apply H; [reflexivity..|discriminate]|]. split; [apply H; [reflexivity..|discriminate]|].
  intros K. apply (f_equal (fun l => nth 0 (fst (nth 0 l ([], 0))) 0)) in K. cbn in K. unfold coil_control in K. cbn in K. revert K. nR. lra.
Qed.

(** ** C204 *)
(** A larger gamma: smaller changes of the currents, and the constraints are missed by more. *)
Theorem C204_gamma : forall G Pf inv slsqp c c' M M1 M2 x x',
  (forall n A N, inv n A = Ok N -> inverts n A N) ->
  (forall f x0 b cs x, slsqp f x0 b cs = Ok x -> length x = length x0) ->
  (forall f x0 x, slsqp f x0 (repeat (None, None) (length x0)) [] = Ok x -> f x <= f x0) ->
  current_lims c = None -> max_total_current c = None -> current_lims c' = None -> max_total_current c' = None ->
  same_constraints c c' -> Rabs (gamma c) < Rabs (gamma c') ->
  constrain_call G Pf inv slsqp c M = Ok (M1, x) -> constrain_call G Pf inv slsqp c' M = Ok (M2, x') ->
  sumsq x' <= sumsq x /\ missed G Pf c M1 <= missed G Pf c' M2.
Proof.
  intros G Pf inv slsqp c c' M M1 M2 x x' Hinv Hs Hw HL HT HL' HT' HC Hg E E'.
  destruct (call_facts G Pf inv slsqp c Hinv Hs Hw HL HT M M1 x E) as (Hl & _ & F1 & _). destruct (call_facts G Pf inv slsqp c' Hinv Hs Hw HL' HT' M M2 x' E') as (Hl' & _ & F2 & _).
  assert (A := C14_result_minimises _ _ _ _ _ _ _ _ Hinv Hs Hw HL HT E x' Hl'). assert (B := C14_result_minimises _ _ _ _ _ _ _ _ Hinv Hs Hw HL' HT' E' x Hl).
  rewrite !cost_eq in A, B. rewrite F1, F2. rewrite <- !(missed_same G Pf c c' _ HC) in *. set (f := missed G Pf c (controlAdjust M x)) in *. set (f' := missed G Pf c (controlAdjust M x')) in *.
  assert (Hq : gamma c ^ 2 < gamma c' ^ 2).
  { rewrite <- (pow2_abs (gamma c)), <- (pow2_abs (gamma c')). assert (H0 := Rabs_pos (gamma c)). nra. }
  assert (H0 := pow2_ge_0 (gamma c)). assert (S : sumsq x' <= sumsq x) by nra. split; [exact S|]. nra.
Qed.
Print Assumptions C204_gamma.
Example C204_example : let c g := mkcons [(1, 0)] g [] [] None None in
  exists M1 M2, constrain_call exG exPl (fun _ A => Ok (fun _ _ => / A 0%nat 0%nat)) (fun f x0 b cs => Ok x0) (c 1) exM1 = Ok (M1, [-20 / 3]) /\
    constrain_call exG exPl (fun _ A => Ok (fun _ _ => / A 0%nat 0%nat)) (fun f x0 b cs => Ok x0) (c 2) exM1 = Ok (M2, [-10 / 3]).
Proof.
  intros c. eexists. eexists. split; unfold constrain_call, build_rows; cbn; unfold analytic, normal_matrix, normal_rhs, matA, vecb, nsum, nsqr, eye; cbn; unfold coil_control, coil_field; cbn; nR.
  - match goal with |- Ok (_, [?x]) = _ => replace x with (-20 / 3) by field end. reflexivity.
  - match goal with |- Ok (_, [?x]) = _ => replace x with (-10 / 3) by field end. reflexivity.
Qed.
