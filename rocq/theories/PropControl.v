(** Properties of the plasma control system. *)
From Coq Require Import String List Arith ZArith Bool Reals Lra Lia.
From Verif Require Import Py Num Numpy Coils Machine MachineSpec MachineProofs Control ControlSpec ControlProofs.
Import ListNotations.
Local Open Scope R_scope.

(** A machine with a controlled coil, a coil with control off and another controlled coil, under
    a simple response, and an equilibrium with one X-point and one flux value to control. *)
Definition exG (f : field) (rc zc r z : R) : R := match f with FPsi => rc * r | FBr => zc - z | FBz => rc - r end.
Definition exPl (f : field) (r z : R) : R := match f with FPsi => r | FBr => 1 | FBz => - 1 end.
Definition exM : machine R :=
  [("A"%string, MCoil (Coil 2 1 10 1 true (AFixed 1))); ("B"%string, MCoil (Coil 3 0 5 1 false (AFixed 1)));
   ("C"%string, MCoil (Coil 2 (-1) (-4) 1 true (AFixed 1)))].
Definition exCon (lims : option (list (R * R))) (mx : option R) : constraints R :=
  mkcons [(1, 0)] 1 [((1, 0), (2, 0))] [((1, 0), 3)] lims mx.
(** Stand-ins for the library routines where a theorem makes no use of their results *)
Definition exInv (n : nat) (A : arr2 R) : result (arr2 R) := Ok (fun _ _ => 0).
Definition exOpt (x : list R) (f : list R -> R) (x0 : list R) (b : list (option R * option R)) (cs : list (list R -> R)) : result (list R) := Ok x.

(** ** C13 *)
(** What the control matrix predicts is what happens: after the call every constraint is missed
    by exactly the residual of the linear system. *)
Theorem C13_residual_after_call : forall G P inv slsqp c M M' x,
  (forall f x0 b cs x, slsqp f x0 b cs = Ok x -> length x = length x0) ->
  constrain_call G P inv slsqp c M = Ok (M', x) ->
  residuals G P c M' = map (fun row => dot (fst row) x - snd row) (fst (build_rows G P c M)).
Proof.
  intros G P inv slsqp c M M' x Hs Hc.
  assert (Hl := call_length _ _ _ _ _ _ _ _ Hs Hc).
  destruct (call_machine _ _ _ _ _ _ _ _ Hc) as (M1 & HM & ->).
  rewrite (same_adjust_residuals _ _ _ _ _ _ HM Hl), (adjust_residuals _ _ _ _ _ Hl).
  destruct (build_rows_eq G P c M) as (M2 & _ & E). rewrite E. reflexivity.
Qed.
Print Assumptions C13_residual_after_call.
Theorem C13_solved_constraints_hold : forall G P inv slsqp c M M' x,
  (forall f x0 b cs x, slsqp f x0 b cs = Ok x -> length x = length x0) ->
  constrain_call G P inv slsqp c M = Ok (M', x) ->
  (forall row, In row (fst (build_rows G P c M)) -> dot (fst row) x = snd row) ->
  (forall r z, In (r, z) (xpoints c) ->
     fst (eq_field G (Some P) FBr M' r z) = 0 /\ fst (eq_field G (Some P) FBz M' r z) = 0) /\
  (forall r1 z1 r2 z2, In ((r1, z1), (r2, z2)) (isoflux c) ->
     fst (eq_field G (Some P) FPsi M' r1 z1) = fst (eq_field G (Some P) FPsi M' r2 z2)) /\
  (forall r z psi, In ((r, z), psi) (psivals c) -> fst (eq_field G (Some P) FPsi M' r z) = psi).
Proof.
  intros G P inv slsqp c M M' x Hs Hc Hsol.
  assert (Hz : forall v, In v (residuals G P c M') -> v = 0).
  { rewrite (C13_residual_after_call _ _ _ _ _ _ _ _ Hs Hc). intros v Hv. apply in_map_iff in Hv as (row & <- & Hr).
    rewrite Hsol by exact Hr. lra. }
  unfold residuals in Hz. split; [|split].
  - intros r z Hin. rewrite !eqf_eq. cbn [fst]. split; apply Hz, in_or_app; left; apply in_flat_map; exists (r, z); cbn; auto.
  - intros r1 z1 r2 z2 Hin. rewrite !eqf_eq. cbn [fst]. apply Rminus_diag_uniq, Hz, in_or_app; right. apply in_or_app; left.
    apply in_map_iff. exists ((r1, z1), (r2, z2)). auto.
  - intros r z psi Hin. rewrite eqf_eq. cbn [fst]. apply Rminus_diag_uniq, Hz, in_or_app; right. apply in_or_app; right.
    apply in_map_iff. exists ((r, z), psi). auto.
Qed.
Print Assumptions C13_solved_constraints_hold.
(** One X-point with Br = 1 + 10 + 4, Bz = -1 + 10 + 2*5 - 4, cancelled by changing the two
    controlled currents by -15 and 0. *)
Example C13_example : exists M', constrain_call exG exPl exInv (exOpt [-15; 0]) (mkcons [(1, 0)] 1 [] [] None None) exM = Ok (M', [-15; 0]) /\
  fst (build_rows exG exPl (mkcons [(1, 0)] 1 [] [] None None) exM) = [([1; -1], -15); ([1; 1], -15)] /\
  (forall row, In row (fst (build_rows exG exPl (mkcons [(1, 0)] 1 [] [] None None) exM)) -> dot (fst row) [-15; 0] = snd row).
Proof.
  eexists. split; [reflexivity|].
  assert (E : fst (build_rows exG exPl (mkcons [(1, 0)] 1 [] [] None None) exM) = [([1; -1], -15); ([1; 1], -15)]).
  { destruct (build_rows_eq exG exPl (mkcons [(1, 0)] 1 [] [] None None) exM) as (M1 & _ & E). rewrite E. cbn [fst].
    unfold rows_spec. cbn -[total machine_control].
    unfold total, response_sum, machine_control. cbn. unfold lsum. cbn. unfold coil_control. cbn. nR.
    repeat f_equal; lra. }
  split; [exact E|]. rewrite E. intros row [<-|[<-|[]]]; unfold dot; cbn; unfold lsum; cbn; nR; lra.
Qed.
(** Without regularisation or limits a consistent set of constraints is met exactly, provided
    the matrix can be inverted and the optimiser does not return a point that is worse than the
    one it started from. *)
Theorem C13_consistent_constraints_met : forall G P inv slsqp c M M' x,
  (forall n A N, inv n A = Ok N -> inverts n A N) ->
  (forall f x0 b cs x, slsqp f x0 b cs = Ok x -> length x = length x0) ->
  (forall f x0 x, slsqp f x0 (repeat (None, None) (length x0)) [] = Ok x -> f x <= f x0) ->
  gamma c = 0 -> current_lims c = None -> max_total_current c = None ->
  (exists y, length y = length (controlCurrents M) /\ Forall (fun v => v = 0) (residuals G P c (controlAdjust M y))) ->
  constrain_call G P inv slsqp c M = Ok (M', x) ->
  Forall (fun v => v = 0) (residuals G P c M').
Proof.
  intros G P inv slsqp c M M' x Hinv Hs Hw Hg HL HT (y & Hy & Hres) Hc.
  assert (Hl := call_length _ _ _ _ _ _ _ _ Hs Hc).
  destruct (call_inv _ _ _ _ _ _ _ _ Hc) as (M1 & x0 & bnds & HM & Hne & Ea & Hx0 & Hb & H1 & H2).
  destruct (analytic_spec G P c M Hne inv x0 Hinv Ea) as [_ Hgrad].
  assert (Hmin : cost G P c M x0 <= cost G P c M y).
  { rewrite !cost_qf by congruence. apply qf_min_iff. exact Hgrad. }
  assert (Hxx : cost G P c M x <= cost G P c M x0).
  { destruct (controlCurrents M) as [|i l] eqn:E.
    - destruct x; [|discriminate]. destruct x0; [|discriminate]. lra.
    - rewrite <- E in *. destruct H1 as [H1 _]; [rewrite E; discriminate|].
      unfold change_bounds in Hb. rewrite HL in Hb. injection Hb as <-. rewrite HT in H1. rewrite <- Hx0 in H1.
      apply Hw in H1. rewrite !(objective_cost G P c M Hne) in H1 by congruence. exact H1. }
  assert (Hy0 : cost G P c M y = 0).
  { unfold cost. rewrite Hg. replace (lsum (map (fun v => v ^ 2) (residuals G P c (controlAdjust M y)))) with 0; [ring|].
    symmetry. clear -Hres. induction Hres as [|v l E H IH]; [reflexivity|]. cbn [map]. rewrite lsum_cons, IH, E. ring. }
  assert (Hx : cost G P c M x <= 0) by lra.
  assert (E : residuals G P c M' = residuals G P c (controlAdjust M x)).
  { destruct (call_machine _ _ _ _ _ _ _ _ Hc) as (M2 & HM2 & ->). apply same_adjust_residuals; assumption. }
  rewrite E. unfold cost in Hx. rewrite Hg in Hx. revert Hx.
  generalize (residuals G P c (controlAdjust M x)) as l.
  intros l Hx. assert (Hx' : lsum (map (fun v => v ^ 2) l) <= 0) by lra. clear -Hx'.
  assert (Hnn : forall l, 0 <= lsum (map (fun v => v ^ 2) l)).
  { clear. induction l as [|v l IH]; [cbn [map]; rewrite lsum_nil; lra|]. cbn [map]. rewrite lsum_cons. assert (H := pow2_ge_0 v). lra. }
  induction l as [|v l IH]; [constructor|]. cbn [map] in Hx'. rewrite lsum_cons in Hx'. assert (H := pow2_ge_0 v). specialize (Hnn l).
  constructor; [|apply IH; lra]. destruct (Req_dec v 0) as [Ev|Ev]; [exact Ev|]. apply pow2_gt_0 in Ev. lra.
Qed.
Print Assumptions C13_consistent_constraints_met.
(** The hypothesis on inv is satisfiable at every invertible matrix. *)
Example C13_inverse_example : forall n A, trivial_kernel n A -> exists N, inverts n A N.
Proof. exact inverse_exists. Qed.
(** Flux 21 at (1,0) and 31 requested: raising the current of the coil by 5 does it. *)
Example C13_consistent_example :
  let M := [("A"%string, MCoil (Coil 2 1 10 1 true (AFixed 1)))] in
  let c := mkcons [] 0 [] [((1, 0), 31)] None None in
  residuals exG exPl c M = [-10] /\ residuals exG exPl c (controlAdjust M [5]) = [0] /\ exists M', constrain_call exG exPl (fun _ A => Ok (fun _ _ => / A 0%nat 0%nat)) (fun f x0 b cs => Ok x0) c M = Ok (M', [5]).
Proof.
  cbv zeta. unfold residuals, total, response_sum, controlAdjust. cbn. unfold lsum. cbn. unfold coil_control. cbn. nR.
  split; [f_equal; lra|]. split; [f_equal; lra|].
  eexists. unfold constrain_call, build_rows. cbn. unfold analytic, normal_matrix, normal_rhs, matA, vecb, nsum, nsqr, eye. cbn.
  unfold coil_control, coil_field. cbn. nR.
  match goal with |- Ok (_, [?x]) = _ => replace x with 5 by field end. reflexivity.
Qed.

(** ** C14 *)
Theorem C14_unique_minimiser : forall G P inv slsqp c M,
  inv_ok inv ->
  (forall f x0, exists x, slsqp f x0 (repeat (None, None) (length x0)) [] = Ok x /\ length x = length x0 /\ f x <= f x0) ->
  gamma c <> 0 -> current_lims c = None -> max_total_current c = None ->
  (xpoints c <> [] \/ isoflux c <> [] \/ psivals c <> []) ->
  exists M' x, constrain_call G P inv slsqp c M = Ok (M', x) /\
    length x = length (controlCurrents M) /\
    forall y, length y = length (controlCurrents M) -> y <> x -> cost G P c M x < cost G P c M y.
Proof.
  intros G P inv slsqp c M Hinv Hs Hg HL HT Hsome.
  assert (Hne : rows_spec G P c M <> []).
  { unfold rows_spec. destruct Hsome as [H1|[H1|H1]].
    - destruct (xpoints c); [easy|]. discriminate.
    - destruct (isoflux c); [easy|]. cbn [map]. intros E. apply app_eq_nil in E as [_ E]. discriminate.
    - destruct (psivals c); [easy|]. cbn [map]. intros E. apply app_eq_nil in E as [_ E]. apply app_eq_nil in E as [_ E]. discriminate. }
  destruct (analytic_ok G P c M inv Hinv Hg) as (x0 & Ea).
  destruct (analytic_spec G P c M Hne inv x0 (proj2 Hinv) Ea) as [Hx0 Hgrad].
  assert (Huniq : forall y, length y = length (controlCurrents M) -> cost G P c M y <= cost G P c M x0 -> y = x0).
  { intros y Hy Hle. rewrite !cost_qf in Hle by congruence. apply list_eq_nth; [congruence|]. rewrite Hx0.
    apply (qf_unique _ _ _ _ _ _ (fun j => nth j y 0) Hg Hgrad Hle). }
  destruct (build_rows_eq G P c M) as (M1 & HM & E).
  destruct (Hs (objective (rows_spec G P c M) (gamma c)) x0) as (x & Ex & Hlx & Hle).
  rewrite !(objective_cost G P c M Hne) in Hle by congruence.
  assert (x = x0) by (apply Huniq; [congruence|exact Hle]). subst x.
  assert (Hcall : exists M', constrain_call G P inv slsqp c M = Ok (M', x0)).
  { unfold constrain_call. rewrite E. cbv zeta. destruct (rows_spec G P c M) as [|row rows] eqn:Er; [easy|]. rewrite <- Er in *.
    rewrite Ea. cbn [bind]. unfold change_bounds. rewrite HL. cbn [bind]. rewrite (rows_ncontrols G P c M Hne), <- Hx0, HT, Ex. cbn [bind].
    destruct (0 <? length x0)%nat; eexists; reflexivity. }
  destruct Hcall as (M' & Hcall). exists M', x0. split; [exact Hcall|]. split; [exact Hx0|].
  intros y Hy Hne'. destruct (Rlt_le_dec (cost G P c M x0) (cost G P c M y)) as [H1|H1]; [exact H1|].
  exfalso. apply Hne'. apply Huniq; assumption.
Qed.
Print Assumptions C14_unique_minimiser.
(** The normal equations, written out for the constraint rows, are the optimality condition for
    every gamma, zero included. *)
Theorem C14_normal_equations : forall G P c M x,
  length x = length (controlCurrents M) ->
  let rows := fst (build_rows G P c M) in
  (forall y, length y = length x -> cost G P c M x <= cost G P c M y) <->
  (forall i, (i < length x)%nat ->
     lsum (map (fun row => nth i (fst row) 0 * (dot (fst row) x - snd row)) rows) + gamma c ^ 2 * nth i x 0 = 0).
Proof.
  intros G P c M x Hx rows. assert (Er : rows = rows_spec G P c M).
  { unfold rows. destruct (build_rows_eq G P c M) as (M2 & _ & E). rewrite E. reflexivity. }
  assert (Hgr : forall i, lsum (map (fun row => nth i (fst row) 0 * (dot (fst row) x - snd row)) rows) + gamma c ^ 2 * nth i x 0 =
     grad (length (rows_spec G P c M)) (length (controlCurrents M)) (matA (rows_spec G P c M)) (vecb (rows_spec G P c M)) (gamma c) (fun j => nth j x 0) i).
  { intros i. rewrite Er. unfold grad. f_equal. rewrite (lsum_nsum ([], 0)). apply nsum_ext. intros k Hk.
    unfold res. rewrite (row_dot G P c M x k Hx Hk). unfold matA at 1, vecb. nR. reflexivity. }
  rewrite Hx. split.
  - intros Hmin i Hi. rewrite Hgr. revert i Hi. apply qf_min_iff. intros y.
    set (yl := map y (seq 0 (length (controlCurrents M)))).
    assert (Hyl : length yl = length (controlCurrents M)) by (unfold yl; rewrite map_length, seq_length; reflexivity).
    specialize (Hmin yl Hyl). rewrite !cost_qf in Hmin by congruence. eapply Rle_trans; [exact Hmin|]. right. apply qf_ext.
    intros j Hj. unfold yl. rewrite nth_indep with (d' := y 0%nat) by (rewrite map_length, seq_length; exact Hj).
    rewrite map_nth, seq_nth by exact Hj. reflexivity.
  - intros Hn y Hy. rewrite !cost_qf by congruence. apply qf_min_iff. intros i Hi. rewrite <- Hgr. apply Hn. exact Hi.
Qed.
Print Assumptions C14_normal_equations.
(** Without limits the returned change is a minimiser for every gamma for which the call
    succeeds (the matrix must be invertible). *)
Theorem C14_result_minimises : forall G P inv slsqp c M M' x,
  (forall n A N, inv n A = Ok N -> inverts n A N) ->
  (forall f x0 b cs x, slsqp f x0 b cs = Ok x -> length x = length x0) ->
  (forall f x0 x, slsqp f x0 (repeat (None, None) (length x0)) [] = Ok x -> f x <= f x0) ->
  current_lims c = None -> max_total_current c = None ->
  constrain_call G P inv slsqp c M = Ok (M', x) ->
  forall y, length y = length (controlCurrents M) -> cost G P c M x <= cost G P c M y.
Proof.
  intros G P inv slsqp c M M' x Hinv Hs Hw HL HT Hc y Hy.
  assert (Hl := call_length _ _ _ _ _ _ _ _ Hs Hc).
  destruct (call_inv _ _ _ _ _ _ _ _ Hc) as (M1 & x0 & bnds & HM & Hne & Ea & Hx0 & Hb & H1 & H2).
  destruct (analytic_spec G P c M Hne inv x0 Hinv Ea) as [_ Hgrad].
  apply Rle_trans with (cost G P c M x0).
  - destruct (controlCurrents M) as [|i l] eqn:E.
    + destruct x; [|discriminate]. destruct x0; [|discriminate]. lra.
    + rewrite <- E in *. destruct H1 as [H1 _]; [rewrite E; discriminate|].
      unfold change_bounds in Hb. rewrite HL in Hb. injection Hb as <-. rewrite HT in H1. rewrite <- Hx0 in H1.
      apply Hw in H1. rewrite !(objective_cost G P c M Hne) in H1 by congruence. exact H1.
  - rewrite !cost_qf by congruence. apply qf_min_iff. exact Hgrad.
Qed.
Print Assumptions C14_result_minimises.
(** One controlled coil, response 1, Br = 11 and Bz = 9 with unit weights: minimise
    (x+11)^2 + (x+9)^2 + x^2. *)
Definition exM1 : machine R := [("A"%string, MCoil (Coil 2 1 10 1 true (AFixed 1)))].
Definition exC1 : constraints R := mkcons [(1, 0)] 1 [] [] None None.
Example C14_example : exists M', constrain_call exG exPl (fun _ A => Ok (fun _ _ => / A 0%nat 0%nat)) (fun f x0 b cs => Ok x0) exC1 exM1 = Ok (M', [-20 / 3]) /\
  cost exG exPl exC1 exM1 [-20 / 3] < cost exG exPl exC1 exM1 [-20].
Proof.
  assert (Hne : rows_spec exG exPl exC1 exM1 <> []) by discriminate.
  eexists. split.
  - unfold constrain_call. destruct (build_rows_eq exG exPl exC1 exM1) as (M1 & HM & E). rewrite E. cbv zeta.
    assert (Er : rows_spec exG exPl exC1 exM1 = [([1], -11); ([1], -9)]).
    { unfold rows_spec. cbn -[total machine_control]. unfold total, response_sum, machine_control. cbn. unfold lsum. cbn. unfold coil_control. cbn. nR.
      repeat f_equal; lra. }
    rewrite Er. unfold analytic. cbn [bind]. cbv zeta. unfold ncontrols. cbn [nth fst length seq map].
    assert (EA : nsum 1 (fun j : nat => / normal_matrix [([1], -11); ([1], -9)] (gamma exC1) 0%nat 0%nat * normal_rhs [([1], -11); ([1], -9)] j) = -20 / 3).
    { rewrite nsum_S, nsum_O. unfold normal_matrix, normal_rhs, matA, vecb, nsum, nsqr, eye. cbn. nR. field. }
    assert (Hm : M1 = exM1).
    { destruct HM as [->| ->]; [reflexivity|]. apply machine_sync_synced. repeat constructor. }
    nR. rewrite EA, Hm. reflexivity.
  - assert (H1 : length [-20 / 3] = length (controlCurrents exM1)) by reflexivity.
    assert (H2 : length [-20] = length (controlCurrents exM1)) by reflexivity.
    unfold cost. rewrite !adjust_residuals by assumption.
    replace (rows_spec exG exPl exC1 exM1) with [([1], -11); ([1], -9)].
    + unfold dot. cbn. unfold lsum. cbn. nR. lra.
    + symmetry. unfold rows_spec. cbn -[total machine_control]. unfold total, response_sum, machine_control. cbn. unfold lsum. cbn. unfold coil_control. cbn. nR.
      repeat f_equal; lra.
Qed.

(** ** C15 *)
Theorem C15_current_limits : forall G P inv slsqp c M M' x lims,
  (forall f x0 b cs x, slsqp f x0 b cs = Ok x -> Forall2 within b x) ->
  current_lims c = Some lims ->
  constrain_call G P inv slsqp c M = Ok (M', x) ->
  length lims = length M /\
  forall i lb m, nth_error M i = Some (lb, m) -> exists l m',
    nth_error lims i = Some l /\ nth_error M' i = Some (lb, m') /\
    (mc_control m = true -> fst l <= mc_current m' <= snd l) /\
    (mc_control m = false -> mc_current m' = mc_current m).
Proof.
  intros G P inv slsqp c M M' x lims Hs HL Hc.
  destruct (call_inv _ _ _ _ _ _ _ _ Hc) as (M1 & x0 & bnds & HM & Hne & Ea & Hx0 & Hb & H1 & H2).
  unfold change_bounds in Hb. rewrite HL in Hb. destruct (Nat.eqb_spec (length lims) (length M1)) as [El|]; [|discriminate].
  injection Hb as <-.
  assert (HF : M' = controlAdjust M1 x /\ Forall2 within (lims_bounds lims M1) x).
  { destruct (controlCurrents M) as [|i0 l0] eqn:E.
    - destruct (H2 eq_refl) as (_ & -> & ->). split; [reflexivity|].
      assert (Hl0 := lims_bounds_length M1 lims El). rewrite (same_currents _ _ HM), E in Hl0.
      destruct (lims_bounds lims M1); [constructor|discriminate].
    - destruct H1 as [H1 ->]; [discriminate|]. split; [reflexivity|]. eapply Hs. exact H1. }
  destruct HF as [-> HF].
  assert (Hlen : length M1 = length M).
  { destruct HM as [->| ->]; [reflexivity|]. unfold machine_sync. apply map_length. }
  split; [congruence|]. intros i lb m Hi.
  assert (Hi1 : exists m1, nth_error M1 i = Some (lb, m1) /\ mc_control m1 = mc_control m /\ mc_current m1 = mc_current m).
  { destruct HM as [->| ->]; [exists m; auto|]. exists (mc_sync m). split; [apply sync_nth; exact Hi|]. destruct m; auto. }
  destruct Hi1 as (m1 & Hi1 & Ec & Ecur).
  destruct (lims_adjust M1 lims x El HF i (lb, m1) Hi1) as (l & m' & A1 & A2 & _ & A4 & A5). cbn [fst snd] in *.
  exists l, m'. rewrite <- Ec, <- Ecur. repeat split; auto; try (apply A4; assumption). intros E. rewrite (A5 E). reflexivity.
Qed.
Print Assumptions C15_current_limits.
(** The wrong number of limits is refused. *)
Theorem C15_limits_per_coil : forall G P inv slsqp c M lims,
  current_lims c = Some lims -> length lims <> length M ->
  is_ok (constrain_call G P inv slsqp c M) = false.
Proof.
  intros G P inv slsqp c M lims HL Hne. destruct (constrain_call G P inv slsqp c M) as [[M' x]|] eqn:E; [|reflexivity].
  exfalso. apply Hne. destruct (call_inv _ _ _ _ _ _ _ _ E) as (M1 & x0 & bnds & HM & _ & _ & _ & Hb & _).
  unfold change_bounds in Hb. rewrite HL in Hb. destruct (Nat.eqb_spec (length lims) (length M1)) as [El|]; [|discriminate].
  rewrite El. destruct HM as [->| ->]; [reflexivity|]. unfold machine_sync. apply map_length.
Qed.
Print Assumptions C15_limits_per_coil.
Example C15_example :
  let lims := [(0, 8); (100, 200); (-3, 3)] in
  exists M', constrain_call exG exPl exInv (exOpt [-5; 6]) (exCon (Some lims) None) exM = Ok (M', [-5; 6]) /\
    lims_bounds lims exM = [(Some (0 - 10), Some (8 - 10)); (Some (-3 - -4), Some (3 - -4))] /\
    Forall2 within (lims_bounds lims exM) [-5; 6] /\
    map (fun lm => mc_current (snd lm)) M' = [10 + -5; 5; -4 + 6].
Proof. eexists. split; [reflexivity|]. split; [reflexivity|]. split; [repeat constructor; cbn; nR; lra|reflexivity]. Qed.
(** The flux fits with limits start from a point inside their limits, and from the present
    currents when these are inside. *)
Theorem C15_fit_starts_feasible : forall lims sc s,
  adv_start (Some lims) 0 sc = Ok s ->
  length s = length sc /\
  (forall i x, nth_error s i = Some x -> exists l, nth_error lims i = Some l /\ Rmin (fst l) (snd l) <= x <= Rmax (fst l) (snd l)) /\
  ((forall i x l, nth_error sc i = Some x -> nth_error lims i = Some l -> Rmin (fst l) (snd l) <= x <= Rmax (fst l) (snd l)) -> s = sc).
Proof.
  intros lims sc s.
  assert (Hg : forall sc s i0, adv_start (Some lims) i0 sc = Ok s ->
    length s = length sc /\
    (forall i x, nth_error s i = Some x -> exists l, nth_error lims (i0 + i) = Some l /\ Rmin (fst l) (snd l) <= x <= Rmax (fst l) (snd l)) /\
    ((forall i x l, nth_error sc i = Some x -> nth_error lims (i0 + i) = Some l -> Rmin (fst l) (snd l) <= x <= Rmax (fst l) (snd l)) -> s = sc)).
  { clear. induction sc as [|y sc IH]; intros s i0 E.
    - injection E as <-. repeat split; auto. intros [|i] x; discriminate.
    - cbn [adv_start] in E. unfold adv_limit in E. destruct (nth_error lims i0) as [l|] eqn:El; [|discriminate]. cbn [bind] in E.
      destruct (adv_start (Some lims) (S i0) sc) as [s'|] eqn:Es; [|discriminate]. cbn [bind] in E. injection E as <-.
      destruct (IH s' (S i0) Es) as (H1 & H2 & H3). clear IH.
      assert (Hmm : Rmin (fst l) (snd l) <= Rmax (fst l) (snd l)) by (apply Rle_trans with (fst l); [apply Rmin_l|apply Rmax_l]).
      unfold nleb. rewrite nmin_R, nmax_R. nR.
      set (y' := if negb (R_ltb y (Rmin (fst l) (snd l))) && negb (R_ltb (Rmax (fst l) (snd l)) y) then y else
        if R_ltb y (Rmin (fst l) (snd l)) then Rmin (fst l) (snd l) else Rmax (fst l) (snd l)).
      assert (Hy' : Rmin (fst l) (snd l) <= y' <= Rmax (fst l) (snd l) /\ (Rmin (fst l) (snd l) <= y <= Rmax (fst l) (snd l) -> y' = y)).
      { unfold y'. destruct (R_ltb y (Rmin (fst l) (snd l))) eqn:E1; destruct (R_ltb (Rmax (fst l) (snd l)) y) eqn:E2; cbn [negb andb]; rcmp; split; intros; lra. }
      split; [cbn; congruence|]. split.
      + intros [|i] x Hx.
        * injection Hx as <-. exists l. rewrite Nat.add_0_r. split; [exact El|apply Hy'].
        * destruct (H2 i x Hx) as (l' & Hl' & Hb). exists l'. rewrite Nat.add_succ_r. auto.
      + intros Hin. f_equal.
        * apply Hy'. apply (Hin 0%nat y l); [reflexivity|]. rewrite Nat.add_0_r. exact El.
        * apply H3. intros i x l' Hx Hl'. apply (Hin (S i) x l'); [exact Hx|]. rewrite Nat.add_succ_r. exact Hl'. }
  apply (Hg sc s 0%nat).
Qed.
Print Assumptions C15_fit_starts_feasible.
Example C15_start_example : exists s, adv_start (Some [(0, 8); (-3, 3); (5, 1)]) 0 [10; -2; -7] = Ok s /\ s = [8; -2; 1].
Proof.
  eexists. split; [reflexivity|]. unfold nleb. rewrite !nmax_R, !nmin_R. cbn [fst snd]. nR.
  rewrite (Rmin_left 0 8), (Rmin_left (-3) 3), (Rmin_right 5 1), (Rmax_right 0 8), (Rmax_right (-3) 3), (Rmax_left 5 1) by lra.
  rewrite (proj2 (R_ltb_false 10 0)), (proj2 (R_ltb_true 8 10)), (proj2 (R_ltb_false (-2) (-3))), (proj2 (R_ltb_false 3 (-2))), (proj2 (R_ltb_true (-7) 1)) by lra.
  reflexivity.
Qed.

(** ** C16 *)
Theorem C16_total_current_limit : forall G P inv slsqp c M M' x mx,
  (forall f x0 b cs x, slsqp f x0 b cs = Ok x -> length x = length x0 /\ Forall (fun g => 0 <= g x) cs) ->
  max_total_current c = Some mx -> controlCurrents M <> [] ->
  constrain_call G P inv slsqp c M = Ok (M', x) ->
  lsum (map Rabs (controlCurrents M')) <= mx.
Proof.
  intros G P inv slsqp c M M' x mx Hs HT HC Hc.
  destruct (call_inv _ _ _ _ _ _ _ _ Hc) as (M1 & x0 & bnds & HM & Hne & Ea & Hx0 & Hb & H1 & _).
  destruct (H1 HC) as [H2 ->]. rewrite HT in H2. apply Hs in H2 as [Hl HF]. inversion HF as [|g l Hg _]; subst.
  assert (Hl1 : length x = length (controlCurrents M1)) by (rewrite (same_currents _ _ HM); congruence).
  rewrite (total_slack_eq mx M1 x Hl1) in Hg. lra.
Qed.
Print Assumptions C16_total_current_limit.
Example C16_example : exists M',
  constrain_call exG exPl exInv (exOpt [-5; 6]) (exCon None (Some 7)) exM = Ok (M', [-5; 6]) /\
  total_slack 7 exM [-5; 6] = 0 /\ lsum (map Rabs (controlCurrents M')) = 7.
Proof.
  eexists. split; [reflexivity|].
  assert (E : total_slack 7 exM [-5; 6] = 0).
  { rewrite total_slack_eq by reflexivity. cbn. unfold lsum. cbn. nR. rewrite !Rabs_pos_eq by lra. lra. }
  split; [exact E|]. cbn. unfold lsum. cbn. nR. rewrite !Rabs_pos_eq by lra. lra.
Qed.

(** ** C17 *)
(** The residual of ConstrainPsi2D as a function of target, weights and flux *)
Definition fit_residual (target : list R) (w : option (weights R)) (psi : list R) : result (list R) :=
  bind (ConstrainPsi2D target w) (fun cp => psi_difference cp psi).
Lemma fit_residual_eq target w psi : length w = length target -> length psi = length target -> lsum w <> 0 ->
  fit_residual target (Some (WArray w)) psi =
  Ok (map (fun q => (fst (fst q) - wmean psi w - (snd (fst q) - wmean target w)) * snd q) (combine (combine psi target) w)).
Proof.
  intros Hw Hp Hs. unfold fit_residual, ConstrainPsi2D. rewrite average_eq by assumption. cbn [bind].
  unfold psi_difference. cbn [fst snd]. rewrite average_eq by congruence. cbn [bind].
  unfold arr_sub. rewrite !map_length, Hp, Nat.eqb_refl. cbn [bind]. unfold weigh.
  rewrite !map_length, combine_length, !map_length, Hp, Hw, Nat.min_id, Nat.eqb_refl. f_equal. nR.
  generalize (wmean psi w) (wmean target w). intros a b. clear Hs. revert target psi Hw Hp.
  induction w as [|x w IH]; intros [|t target] [|p psi] Hw Hp; try discriminate; [reflexivity|].
  cbn [map combine fst snd]. f_equal. apply IH; [injection Hw; auto|injection Hp; auto].
Qed.
Theorem C17_offset_invariance : forall target w psi k,
  length w = length target -> length psi = length target -> lsum w <> 0 ->
  fit_residual target (Some (WArray w)) (map (fun p => p + k) psi) = fit_residual target (Some (WArray w)) psi /\
  fit_residual (map (fun t => t + k) target) (Some (WArray w)) psi = fit_residual target (Some (WArray w)) psi.
Proof.
  intros target w psi k Hw Hp Hs. split.
  - rewrite !fit_residual_eq by (rewrite ?map_length; congruence). rewrite wmean_shift by congruence. f_equal.
    generalize (wmean psi w) (wmean target w). intros a b. clear Hs. revert target psi Hw Hp.
    induction w as [|x w IH]; intros [|t target] [|p psi] Hw Hp; try discriminate; [reflexivity|].
    cbn [map combine fst snd]. f_equal; [ring|]. apply IH; [injection Hw; auto|injection Hp; auto].
  - rewrite !fit_residual_eq by (rewrite ?map_length; congruence). rewrite wmean_shift by congruence. f_equal.
    generalize (wmean psi w) (wmean target w). intros a b. clear Hs. revert target psi Hw Hp.
    induction w as [|x w IH]; intros [|t target] [|p psi] Hw Hp; try discriminate; [reflexivity|].
    cbn [map combine fst snd]. f_equal; [ring|]. apply IH; [injection Hw; auto|injection Hp; auto].
Qed.
Print Assumptions C17_offset_invariance.
Theorem C17_zero_iff_offset : forall target w psi,
  length w = length target -> length psi = length target -> lsum w <> 0 ->
  (exists d, fit_residual target (Some (WArray w)) psi = Ok d /\ Forall (fun v => v = 0) d) <->
  (exists k, forall i, (i < length w)%nat -> nth i w 0 <> 0 -> nth i psi 0 = nth i target 0 + k).
Proof.
  intros target w psi Hw Hp Hs. rewrite fit_residual_eq by assumption. split.
  - intros (d & [= <-] & HF). exists (wmean psi w - wmean target w). intros i Hi Hwi.
    rewrite Forall_forall in HF.
    specialize (HF ((nth i psi 0 - wmean psi w - (nth i target 0 - wmean target w)) * nth i w 0)).
    assert (E : (nth i psi 0 - wmean psi w - (nth i target 0 - wmean target w)) * nth i w 0 = 0).
    { apply HF. apply in_map_iff. exists ((nth i psi 0, nth i target 0), nth i w 0). split; [reflexivity|].
      rewrite <- combine_nth by congruence. rewrite <- combine_nth by (rewrite combine_length; lia).
      apply nth_In. rewrite !combine_length. lia. }
    apply Rmult_integral in E as [E|E]; [lra|contradiction].
  - intros (k & Hk).
    assert (Em : wmean psi w = wmean target w + k).
    { unfold wmean. apply (Rmult_eq_reg_r (lsum w)); [|exact Hs].
      replace (lsum (map (fun p => fst p * snd p) (combine psi w)) / lsum w * lsum w) with (lsum (map (fun p => fst p * snd p) (combine psi w))) by (field; exact Hs).
      replace ((lsum (map (fun p => fst p * snd p) (combine target w)) / lsum w + k) * lsum w)
        with (lsum (map (fun p => fst p * snd p) (combine target w)) + k * lsum w) by (field; exact Hs).
      clear Hs. revert target psi Hw Hp Hk. induction w as [|x w IH]; intros [|t target] [|p psi] Hw Hp Hk; try discriminate.
      - cbn. unfold lsum. cbn. nR. lra.
      - cbn [combine map fst snd]. rewrite !lsum_cons. rewrite (IH target psi).
        + assert (E := Hk 0%nat ltac:(cbn; lia)). cbn [nth] in E. destruct (Req_dec x 0) as [->|Hx]; [lra|]. rewrite (E Hx). lra.
        + injection Hw; auto.
        + injection Hp; auto.
        + intros i Hi. apply (Hk (S i)). cbn. lia. }
    eexists. split; [reflexivity|]. rewrite Em. clear Em Hs. generalize (wmean target w). intros a.
    revert target psi Hw Hp Hk. induction w as [|x w IH]; intros [|t target] [|p psi] Hw Hp Hk; try discriminate; [constructor|].
    cbn [combine map fst snd]. constructor.
    + assert (E := Hk 0%nat ltac:(cbn; lia)). cbn [nth] in E. destruct (Req_dec x 0) as [->|Hx]; [lra|]. rewrite (E Hx). ring.
    + apply IH; [injection Hw; auto|injection Hp; auto|]. intros i Hi. apply (Hk (S i)). cbn. lia.
Qed.
Print Assumptions C17_zero_iff_offset.
(** The default: every point has weight one *)
Theorem C17_default_weights : forall target psi,
  fit_residual target None psi = fit_residual target (Some (WArray (repeat 1 (length target)))) psi.
Proof. reflexivity. Qed.
Print Assumptions C17_default_weights.
Example C17_example : lsum [1; 2; 0] <> 0 /\
  fit_residual [1; 5; 9] (Some (WArray [1; 2; 0])) [11; 15; 100] =
  Ok [(11 - 41 / 3 - (1 - 11 / 3)) * 1; (15 - 41 / 3 - (5 - 11 / 3)) * 2; (100 - 41 / 3 - (9 - 11 / 3)) * 0].
Proof.
  assert (Hs : lsum [1; 2; 0] <> 0) by (unfold lsum; cbn; nR; lra). split; [exact Hs|].
  rewrite fit_residual_eq by (auto; reflexivity).
  assert (E1 : wmean [11; 15; 100] [1; 2; 0] = 41 / 3) by (unfold wmean, lsum; cbn; nR; field).
  assert (E2 : wmean [1; 5; 9] [1; 2; 0] = 11 / 3) by (unfold wmean, lsum; cbn; nR; field).
  rewrite E1, E2. reflexivity.
Qed.

(** ** C18 *)
(** Calling either Advanced class without current_lims raises TypeError as soon as the machine
    has a controlled coil. *)
Theorem C18_default_lims_crash : forall lbfgsb (diff : list R -> result R) M,
  controlCurrents M <> [] -> adv_call lbfgsb None diff M = Raise TypeError.
Proof.
  intros lbfgsb diff M HC. unfold adv_call. destruct (controlCurrents M) as [|x l]; [easy|]. reflexivity.
Qed.
Print Assumptions C18_default_lims_crash.
(** With the default weights 1.0 the residual of ConstrainPsi2DAdvanced raises TypeError. *)
Theorem C18_default_weights_crash : forall (target psi : list R) lims mx,
  adv_difference (ConstrainPsi2DAdvanced target None lims mx) psi = Raise TypeError.
Proof. reflexivity. Qed.
Print Assumptions C18_default_weights_crash.
Theorem C18_defaults_usable_refuted : exists (M : machine R) (target : list R),
  controlCurrents M <> [] /\ length target = 2%nat /\
  (forall lbfgsb psi, adv_call lbfgsb (adv_lims (ConstrainPsi2DAdvanced target None None None)) (fun _ => Ok psi) M = Raise TypeError) /\
  (forall psi, adv_difference (ConstrainPsi2DAdvanced target None (Some [(0, 1); (0, 1)]) None) psi = Raise TypeError).
Proof.
  exists exM, [1; 2]. split; [discriminate|]. split; [reflexivity|]. split; [|reflexivity].
  intros. apply C18_default_lims_crash. discriminate.
Qed.
Print Assumptions C18_defaults_usable_refuted.
(** With array weights, the residual at flux = target is the weighted mean of the target times
    the weights: not zero unless the target has mean zero. *)
Theorem C18_residual_at_target : forall target w lims mx,
  length w = length target -> lsum w <> 0 ->
  adv_difference (ConstrainPsi2DAdvanced target (Some (WArray w)) lims mx) target =
  Ok (lsum (map (fun x => (wmean target w * x) ^ 2) w)).
Proof.
  intros target w lims mx Hl Hs. unfold adv_difference, ConstrainPsi2DAdvanced. cbn [adv_weights adv_target].
  rewrite average_eq by assumption. cbn [bind]. unfold arr_sub. rewrite map_length, Nat.eqb_refl. cbn [bind].
  unfold weigh. rewrite map_length, combine_length, map_length, Hl, Nat.min_id, Nat.eqb_refl. cbn [bind]. f_equal.
  rewrite map_map. generalize (wmean target w). intros a. clear Hs. revert target Hl.
  induction w as [|x w IH]; intros [|t target] Hl; try discriminate; [reflexivity|].
  cbn [map combine fst snd]. rewrite !lsum_cons, IH by (injection Hl; auto). f_equal. unfold nsqr. nR. ring.
Qed.
Print Assumptions C18_residual_at_target.
Theorem C18_zero_residual_refuted : exists (target : list R) w v,
  lsum w <> 0 /\ adv_difference (ConstrainPsi2DAdvanced target (Some (WArray w)) None None) target = Ok v /\ v <> 0.
Proof.
  exists [1; 3], [1; 1], 8. assert (Hs : lsum [1; 1] <> 0) by (unfold lsum; cbn; nR; lra). split; [exact Hs|].
  split; [|lra]. rewrite C18_residual_at_target by (auto; reflexivity). unfold wmean, lsum. cbn. nR. f_equal. field.
Qed.
Print Assumptions C18_zero_residual_refuted.
(** Limits are taken by position among the controlled coils: here the limits of coil B (which
    is not controlled) are applied to coil C. *)
Theorem C18_limits_by_coil_refuted : exists (M : machine R) lims i l m',
  length lims = length M /\ nth_error lims i = Some l /\
  (forall lbfgsb diff, (forall f x0 b, lbfgsb f x0 b = Ok x0) ->
     exists M', adv_call lbfgsb (Some lims) diff M = Ok M' /\
     nth_error M' i = Some m' /\ mc_control (snd m') = true /\ ~ (fst l <= mc_current (snd m') <= snd l)).
Proof.
  exists exM, [(0, 20); (100, 100); (-5, 5)], 2%nat, (-5, 5), ("C"%string, MCoil (Coil 2 (-1) 100 1 true (AFixed 1))).
  split; [reflexivity|]. split; [reflexivity|]. intros lbfgsb diff Hid. unfold adv_call.
  change (controlCurrents exM) with [10; -4].
  assert (E : adv_start (Some [(0, 20); (100, 100); (-5, 5)]) 0 [10; -4] = Ok [10; 100]).
  { cbn. unfold nleb. rewrite !nmax_R, !nmin_R. nR. rewrite !Rmin_left, !Rmax_right by lra.
    destruct (R_ltb 10 0) eqn:E1; rcmp; [lra|]. destruct (R_ltb 20 10) eqn:E2; rcmp; [lra|].
    destruct (R_ltb (-4) 100) eqn:E3; rcmp; [|lra]. reflexivity. }
  rewrite E. cbn [bind]. eexists. split; [cbn -[setControlCurrents]; rewrite Hid; reflexivity|].
  split; [reflexivity|]. split; [reflexivity|]. cbn. lra.
Qed.
Print Assumptions C18_limits_by_coil_refuted.
