(** C205-C206: all currents and fluxes times a factor; picard.solve with the control system and all currents reversed. *)
From Coq Require Import String List Arith ZArith Bool Reals Lra Lia Permutation FunctionalExtensionality.
From Verif Require Import Py Num Numpy Linalg Coils Machine MachineSpec MachineProofs Critical CriticalSpec Boundary Jtor Control ControlSpec ControlProofs PropControl Romb RombProofs Multigrid MultigridProofs Gauss Equilibrium EquilibriumSpec EquilibriumProofs EquilibriumProofs2 EquilibriumProofs3
  ControlEq PropControlMirror GSSpec FittingProofs PropSolveFlux PropEquilibrium2 Picard PicardProofs PropPicard PropPicardLimit PropControlEq PropControlRepeat
  GaugeSpec GaugeProofs GaugeProofs2 GaugeProofs3 GaugeProofs4 GaugeProofs5 PropGauge.
Import ListNotations.
Local Open Scope R_scope.

(** ** What the statements mean *)
Definition scaled_constraints (a : R) (c : constraints R) : constraints R :=
  mkcons (xpoints c) (gamma c) (isoflux c) (map (fun p => (fst p, a * snd p)) (psivals c)) (current_lims c) (max_total_current c).
Definition vscal (a : R) (x : list R) : list R := map (fun v => a * v) x.

(** ** Proofs *)
Lemma set_set (m : mcoil R) I J : mc_set_current (mc_set_current m I) J = mc_set_current m J.
Proof. destruct m as [c|ci|s]; [destruct c; reflexivity| |reflexivity]. cbn [mc_set_current]. unfold circuit_set_current. cbn [ci_coils ci_control]. rewrite map_map. reflexivity. Qed.
Lemma set_sync (m : mcoil R) J : mc_set_current (mc_sync m) J = mc_set_current m J.
Proof. destruct m as [c|ci|s]; [reflexivity| |reflexivity]. cbn [mc_sync mc_set_current]. unfold circuit_set_current, resync. cbn [ci_coils ci_control]. rewrite map_map. reflexivity. Qed.
Lemma turned_sync a M : turned_machine a (machine_sync M) = turned_machine a M.
Proof.
  unfold turned_machine, machine_sync. rewrite map_map. apply map_ext. intros (l, m). cbn [fst snd]. rewrite set_sync. destruct m; reflexivity.
Qed.
Lemma turned_same a M M1 : same M M1 -> turned_machine a M1 = turned_machine a M.
Proof. intros [->| ->]; [reflexivity|apply turned_sync]. Qed.
Lemma turned_synced a M : machine_sync (turned_machine a M) = turned_machine a M.
Proof. apply machine_sync_synced. unfold machine_synced, turned_machine. apply Forall_map. apply Forall_forall. intros (l, m) _. apply mc_set_current_synced. Qed.
Lemma turned_currents a M : controlCurrents (turned_machine a M) = vscal a (controlCurrents M).
Proof.
  unfold controlCurrents, turned_machine, vscal. induction M as [|(l, m) M IH]; [reflexivity|]. cbn [map filter snd fst]. rewrite mc_set_current_control.
  destruct (mc_control m); [|exact IH]. cbn [map snd]. rewrite IH, mc_set_current_current. reflexivity.
Qed.
Lemma turned_control G f a M r z : machine_control G f (turned_machine a M) r z = machine_control G f M r z.
Proof.
  unfold machine_control, turned_machine. induction M as [|(l, m) M IH]; [reflexivity|]. cbn [map filter snd fst]. rewrite mc_set_current_control.
  destruct (mc_control m); [|exact IH]. cbn [map snd]. rewrite IH, mc_set_current_ctrl. reflexivity.
Qed.
Lemma turned_adjust a : forall M x, length x = length (controlCurrents M) -> turned_machine a (controlAdjust M x) = controlAdjust (turned_machine a M) (vscal a x).
Proof.
  unfold controlAdjust, turned_machine, controlCurrents, vscal. induction M as [|(l, m) M IH]; intros x Hl; [reflexivity|].
  cbn [map filter snd fst zip_controls] in *. rewrite mc_set_current_control. destruct (mc_control m).
  - destruct x as [|v x]; [discriminate|]. cbn [map]. injection Hl as Hl. rewrite <- IH by exact Hl. f_equal. cbn [fst snd]. f_equal. rewrite !set_set, !mc_set_current_current. nR. f_equal. ring.
  - cbn [map fst snd]. rewrite <- IH by exact Hl. reflexivity.
Qed.
Lemma turned_total G Pf a f M r z : total G (fun f r z => a * Pf f r z) f (turned_machine a M) r z = a * total G Pf f M r z.
Proof.
  assert (E := turned_machine_field G f a M r z). rewrite !machine_field_eq in E. cbn [fst] in E. unfold total. rewrite E. ring.
Qed.
Lemma scaled_residuals G Pf a c M : residuals G (fun f r z => a * Pf f r z) (scaled_constraints a c) (turned_machine a M) = vscal a (residuals G Pf c M).
Proof.
  unfold residuals, vscal. cbn [xpoints isoflux psivals scaled_constraints]. rewrite !map_app, !map_map. f_equal; [|f_equal].
  - induction (xpoints c) as [|p l IH]; [reflexivity|]. cbn [flat_map app map]. rewrite !turned_total, IH. reflexivity.
  - apply map_ext. intros i. rewrite !turned_total. ring.
  - apply map_ext. intros i. cbn [fst snd]. rewrite turned_total. ring.
Qed.
Lemma sumsq_scal a l : sumsq (vscal a l) = a ^ 2 * sumsq l.
Proof. unfold sumsq, vscal. induction l as [|v l IH]; [cbn [map]; rewrite lsum_nil; ring|]. cbn [map]. rewrite !lsum_cons, IH. ring. Qed.
Lemma scaled_cost G Pf a c M x : length x = length (controlCurrents M) ->
  cost G (fun f r z => a * Pf f r z) (scaled_constraints a c) (turned_machine a M) (vscal a x) = a ^ 2 * cost G Pf c M x.
Proof. intros Hl. rewrite !cost_eq. unfold missed. rewrite <- turned_adjust by exact Hl. rewrite scaled_residuals, !sumsq_scal. cbn [gamma scaled_constraints]. ring. Qed.
Lemma vscal_vscal a b x : vscal a (vscal b x) = vscal (a * b) x.
Proof. unfold vscal. rewrite map_map. apply map_ext. intros v. ring. Qed.
Lemma vscal_1 x : vscal 1 x = x.
Proof. unfold vscal. rewrite <- (map_id x) at 2. apply map_ext. intros v. ring. Qed.

(** ** C205 *)
(** With the plasma, the currents of the coils and the wanted fluxes all multiplied by a, the change of the currents is multiplied by a. *)
Theorem C205_scale : forall G Pf inv slsqp a c M M' x,
  inv_ok inv ->
  (forall f x0 b cs x, slsqp f x0 b cs = Ok x -> length x = length x0) ->
  (forall f x0, exists x, slsqp f x0 (repeat (None, None) (length x0)) [] = Ok x /\ f x <= f x0) ->
  a <> 0 -> gamma c <> 0 -> current_lims c = None -> max_total_current c = None ->
  constrain_call G Pf inv slsqp c M = Ok (M', x) ->
  constrain_call G (fun f r z => a * Pf f r z) inv slsqp (scaled_constraints a c) (turned_machine a M) = Ok (turned_machine a M', vscal a x).
Proof.
  intros G Pf inv slsqp a c M M' x Hi Hs Hw Ha Hg HL HT E.
  assert (Hw1 : forall f x0 x, slsqp f x0 (repeat (None, None) (length x0)) [] = Ok x -> f x <= f x0).
  { intros f x0 x1 E1. destruct (Hw f x0) as (x2 & E2 & H2). congruence. }
  assert (Hw2 : forall f x0, exists x, slsqp f x0 (repeat (None, None) (length x0)) [] = Ok x /\ length x = length x0 /\ f x <= f x0).
  { intros f x0. destruct (Hw f x0) as (x2 & E2 & H2). exists x2. split; [exact E2|]. split; [exact (Hs _ _ _ _ _ E2)|exact H2]. }
  assert (Hne : xpoints c <> [] \/ isoflux c <> [] \/ psivals c <> []).
  { destruct (call_inv _ _ _ _ _ _ _ _ E) as (_ & _ & _ & _ & Hne & _). unfold rows_spec in Hne. destruct (xpoints c); [|left; discriminate]. destruct (isoflux c); [|right; left; discriminate].
    destruct (psivals c); [|right; right; discriminate]. exfalso. apply Hne. reflexivity. }
  assert (Hne' : xpoints (scaled_constraints a c) <> [] \/ isoflux (scaled_constraints a c) <> [] \/ psivals (scaled_constraints a c) <> []).
  { cbn [xpoints isoflux psivals scaled_constraints]. destruct Hne as [H|[H|H]]; [left; exact H|right; left; exact H|]. right; right. destruct (psivals c); [easy|discriminate]. }
  destruct (C14_unique_minimiser G (fun f r z => a * Pf f r z) inv slsqp (scaled_constraints a c) (turned_machine a M) Hi Hw2 Hg HL HT Hne') as (M2 & x2 & E2 & Hl2 & Hm2).
  assert (Hl := call_length _ _ _ _ _ _ _ _ Hs E). rewrite turned_currents in Hl2, Hm2. unfold vscal in Hl2, Hm2 at 1. rewrite map_length in Hl2, Hm2.
  assert (X : x2 = vscal a x).
  { destruct (list_eq_dec Req_EM_T (vscal a x) x2) as [<-|Hd]; [reflexivity|]. exfalso. specialize (Hm2 (vscal a x)). unfold vscal at 1 in Hm2. rewrite map_length in Hm2. specialize (Hm2 Hl Hd).
    assert (Ex : x2 = vscal a (vscal (/ a) x2)) by (rewrite vscal_vscal, Rinv_r by exact Ha; symmetry; apply vscal_1).
    assert (Hl3 : length (vscal (/ a) x2) = length (controlCurrents M)) by (unfold vscal; rewrite map_length; exact Hl2).
    rewrite Ex in Hm2. rewrite !scaled_cost in Hm2 by assumption.
    assert (K := C14_result_minimises _ _ _ _ _ _ _ _ (proj2 Hi) Hs Hw1 HL HT E _ Hl3). assert (Hp := pow2_gt_0 a Ha). nra. }
  subst x2. rewrite E2. f_equal. f_equal.
  destruct (call_machine _ _ _ _ _ _ _ _ E) as (N1 & H1 & ->). destruct (call_machine _ _ _ _ _ _ _ _ E2) as (N2 & H2 & ->).
  assert (EN : N2 = turned_machine a M) by (destruct H2 as [->| ->]; [reflexivity|apply turned_synced]). subst N2.
  rewrite turned_adjust by (rewrite (same_currents _ _ H1); exact Hl). rewrite (turned_same a M N1 H1). reflexivity.
Qed.
Print Assumptions C205_scale.
(** The coil currents of C198, tripled and reversed *)
Example C205_example : exists M', constrain_call exG exP2 gauss_inv (fun f x0 b cs => Ok x0) exc2 exM2 = Ok (M', [-76 / 25; -76 / 25]) /\
  exists M2, constrain_call exG (fun f r z => -3 * exP2 f r z) gauss_inv (fun f x0 b cs => Ok x0) (scaled_constraints (-3) exc2) (turned_machine (-3) exM2) = Ok (M2, [228 / 25; 228 / 25]).
Proof.
  destruct C198_example as (_ & _ & _ & _ & M0 & E0).
  destruct (C14_unique_minimiser exG exP2 gauss_inv (fun f x0 b cs => Ok x0) exc2 exM2 gauss_inv_ok) as (M' & x & E & Hl & Hm);
    [intros f x0; exists x0; split; [reflexivity|]; split; [reflexivity|lra]|cbn; lra|reflexivity|reflexivity|left; discriminate|].
  assert (X : [-76 / 25; -76 / 25] = x).
  { apply (call_unique exG exP2 gauss_inv (fun f x0 b cs => Ok x0) exc2 exM2 M' x (proj2 gauss_inv_ok)); try reflexivity; try assumption; try (cbn; lra); try (intros; congruence).
    - intros f x0 x1 [= ->]. lra.
    - apply (C14_result_minimises exG exP2 exinv2 (fun f x0 b cs => Ok x0) exc2 exM2 M0 _ exinv2_inverts); try reflexivity; try assumption; try (intros; congruence). intros f x0 x1 [= ->]. lra. }
  subst x. exists M'. split; [exact E|]. exists (turned_machine (-3) M').
  rewrite (C205_scale exG exP2 gauss_inv (fun f x0 b cs => Ok x0) (-3) exc2 exM2 M' _ gauss_inv_ok ltac:(intros; congruence) ltac:(intros f x0; exists x0; split; [reflexivity|lra]) ltac:(lra) ltac:(cbn; lra) eq_refl eq_refl E).
  unfold vscal. cbn [map]. replace (-3 * (-76 / 25)) with (228 / 25) by field. reflexivity.
Qed.

(** ** C206 *)
Lemma turned_plasma {P} spline (rp : P -> P) (e : equilibrium R P (constraints R)) : spline_follows spline (-1) 0 ->
  plasma_field spline (turned rp (-1) 0 e) = fun f r z => -1 * plasma_field spline e f r z.
Proof.
  intros Hs. extensionality f. extensionality r. extensionality z.
  assert (K : forall m n, psi_func spline (turned rp (-1) 0 e) m n r z = -1 * psi_func spline e m n r z).
  { intros m n. unfold psi_func. change (R_1D (turned rp (-1) 0 e)) with (R_1D e). change (Z_1D (turned rp (-1) 0 e)) with (Z_1D e). cbn [turned e_nx e_ny plasma_psi]. rewrite Hs. destruct m, n; ring. }
  destruct f; unfold plasma_field, plasmaBr, plasmaBz; rewrite K; nR; unfold Rdiv; ring.
Qed.
Lemma turned_constrain {P} G spline inv slsqp (rp : P -> P) c (s s1 : equilibrium R P (constraints R) * P) :
  inv_ok inv ->
  (forall f x0 b cs x, slsqp f x0 b cs = Ok x -> length x = length x0) ->
  (forall f x0, exists x, slsqp f x0 (repeat (None, None) (length x0)) [] = Ok x /\ f x <= f x0) ->
  gamma c <> 0 -> current_lims c = None -> max_total_current c = None -> psivals c = [] -> spline_follows spline (-1) 0 ->
  constrain_eq G spline inv slsqp c s = (s1, Ok tt) ->
  constrain_eq G spline inv slsqp c (turned rp (-1) 0 (fst s), rp (snd s)) = ((turned rp (-1) 0 (fst s1), rp (snd s1)), Ok tt).
Proof.
  intros Hi Hs Hw Hg HL HT Hpv HS E. destruct s as (e, p), s1 as (e1, p1). destruct (constrain_eq_inv _ _ _ _ _ _ _ _ _ E) as (-> & M & x & Ec & ->). cbn [fst snd].
  assert (K := C205_scale G (plasma_field spline e) inv slsqp (-1) c _ _ _ Hi Hs Hw ltac:(lra) Hg HL HT Ec).
  assert (Esc : scaled_constraints (-1) c = c) by (destruct c; cbn in *; subst; reflexivity). rewrite Esc in K.
  unfold constrain_eq. rewrite (turned_plasma spline rp e HS). change (coils (tok (turned rp (-1) 0 e))) with (turned_machine (-1) (coils (tok e))). rewrite K. reflexivity.
Qed.
(** picard.solve with X-points and isoflux pairs: reversing the currents of the coils, the plasma and the profile reverses everything that is returned. *)
Theorem C206_reversed_control : forall (P : Type) G mu0 lu spline (rp : P -> P)
    (Jt Jt' : P -> equilibrium R P (constraints R) -> (nat -> nat -> R) -> option R -> result ((nat -> nat -> R) * P * bstate R))
    inv slsqp c nx ny p s s1 h fuel,
  let rev s := (turned rp (-1) 0 (fst s), rp (snd s)) in
  let f := constrain_eq G spline inv slsqp c in
  let ops := eq_ops G sqrt mu0 lu spline Jt (Some f) in
  let ops' := eq_ops G sqrt mu0 lu spline Jt' (Some f) in
  let p' := mkopts (rtol p) (atol p) (blend p) (option_map Ropp (user_bndry p)) (maxits p) (check p) (wait p) (limit_it p) in
  inv_ok inv ->
  (forall f x0 b cs x, slsqp f x0 b cs = Ok x -> length x = length x0) ->
  (forall f x0, exists x, slsqp f x0 (repeat (None, None) (length x0)) [] = Ok x /\ f x <= f x0) ->
  gamma c <> 0 -> current_lims c = None -> max_total_current c = None -> psivals c = [] ->
  spline_follows spline (-1) 0 -> lu_follows lu (-1) -> profile_follows spline rp (-1) Jt Jt' -> check p = false ->
  (forall s0 psi0, f s = (s0, Ok tt) -> total_psi (fst s0) = Ok psi0 ->
     forall t v, reached G sqrt mu0 lu spline Jt nx ny (Some f) p s0 (mkvars psi0 0 0 None false []) t v -> generic G sqrt mu0 lu spline (-1) Jt p t v) ->
  picard nx ny _ ops p fuel s = (s1, Ok h) ->
  picard nx ny _ ops' p' fuel (rev s) = (rev s1, Ok h).
Proof.
  intros P G mu0 lu spline rp Jt Jt' inv slsqp c nx ny p s s1 h fuel rev f ops ops' p' Hi Hsl Hw Hg HL HT Hpv Hs Hlu Hp Hchk Hgen E.
  apply (C182_picard P (constraints R) G mu0 lu spline rp Jt Jt' nx ny (Some f) (Some f) p s s1 h fuel Hs Hlu Hp); try assumption.
  intros t t1. apply (turned_constrain G spline inv slsqp rp c t t1 Hi Hsl Hw Hg HL HT Hpv Hs).
Qed.
Print Assumptions C206_reversed_control.
Lemma step_bnd {P Ctl} G mu lu spline Jt c (s s1 : equilibrium R P Ctl * P) psi pb chk : eq_solve _ (eq_ops G sqrt mu lu spline Jt c) (with_check (fst s) chk, snd s) psi pb = (s1, Ok tt) ->
  slv (fst s1) = slv (fst s) /\ bnd (fst s1) = bnd (fst s).
Proof.
  cbn [eq_solve eq_ops fst snd]. intros Eq.
  match type of Eq with match ?x with Ok _ => _ | Raise _ => _ end = _ => destruct x as [e1|] eqn:Es end; [|discriminate].
  assert (X := f_equal fst Eq). cbn [fst] in X. subst s1. cbn [fst].
  destruct (solve_inv _ _ _ _ _ _ _ _ _ _ _ _ Es) as (e2 & J & p1 & rhs & x & p' & I & dR & dZ & b & _ & _ & _ & _ & _ & _ & _ & _ & _ & Ee).
  rewrite Ee. split; reflexivity.
Qed.
Example C206_example : exists A at_ s h, let f := constrain_eq exG flat_spline gauss_inv (fun f x0 b cs => Ok x0) exg in
  picard 5 5 _ (eq_ops exG sqrt 1 odd_solver flat_spline copy_profile (Some f)) (plain_options None 0 at_) 1 (coil_eq exG exM2 A, tt) = (s, Ok h) /\
  picard 5 5 _ (eq_ops exG sqrt 1 odd_solver flat_spline copy_profile (Some f)) (plain_options None 0 at_) 1 (turned (fun q => q) (-1) 0 (coil_eq exG exM2 A), tt)
    = ((turned (fun q => q) (-1) 0 (fst s), snd s), Ok h).
Proof.
  exists (fun _ _ => 0). set (A := fun _ _ : nat => 0).
  destruct (C14_unique_minimiser exG (plasma_field flat_spline (coil_eq exG exM2 A)) gauss_inv (fun f x0 b cs => Ok x0) exg exM2 gauss_inv_ok) as (M' & x & E & _);
    [intros f x0; exists x0; split; [reflexivity|]; split; [reflexivity|lra]|cbn; lra|reflexivity|reflexivity|left; discriminate|].
  assert (E1 : exists e1, constrain_eq exG flat_spline gauss_inv (fun f x0 b cs => Ok x0) exg (coil_eq exG exM2 A, tt) = ((e1, tt), Ok tt)).
  { unfold constrain_eq. change (coils (tok (coil_eq exG exM2 A))) with exM2. rewrite E. eexists. reflexivity. }
  destruct E1 as (e1 & E1). destruct (coil_run odd_solver exG exM2 A _ _ _ e1 exM2_labels E1) as (at_ & s & h & Ep). exists at_, s, h. cbv zeta. split; [exact Ep|].
  apply (C206_reversed_control unit exG 1 odd_solver flat_spline (fun q => q) copy_profile copy_profile gauss_inv (fun f x0 b cs => Ok x0) exg 5 5 (plain_options None 0 at_) (coil_eq exG exM2 A, tt) s h 1) in Ep; [exact Ep|..].
  - exact gauss_inv_ok.
  - intros f x0 b cs x1 [= <-]. reflexivity.
  - intros f x0. exists x0. split; [reflexivity|lra].
  - cbn. lra.
  - reflexivity.
  - reflexivity.
  - reflexivity.
  - exact flat_follows.
  - exact odd_follows.
  - intros q e psi pb _ _. unfold copy_profile. reflexivity.
  - reflexivity.
  - intros s0 psi0 E0 _ t v Hr. rewrite E1 in E0. injection E0 as <-. split; [|split; [intros q _; apply flat_separate|split; [apply flat_separate|intros e2 _ q _; apply flat_separate]]].
    assert (Hb : slv (fst t) = SMatrix (MGDirect 25 A) /\ bnd (fst t) = BFixed).
    { clear Ep. induction Hr as [|t v t' v' Hr IH Et].
      - destruct (constrain_eq_inv _ _ _ _ _ _ _ _ _ E1) as (_ & M1 & x1 & _ & ->). split; reflexivity.
      - destruct (turn_next 5 5 _ _ _ _ _ _ _ Et) as (t1 & ob & psi1 & psi2 & (pb & _ & Es & _) & _ & Er & _).
        destruct (step_bnd exG 1 odd_solver flat_spline copy_profile _ t _ _ _ _ Es) as (K1 & K2).
        destruct t1 as (e3, q3), t' as (e4, q4). destruct (constrain_eq_inv _ _ _ _ _ _ _ _ _ Er) as (_ & M1 & x1 & _ & ->). cbn [fst] in *. destruct IH as (I1 & I2). split; [exact (eq_trans K1 I1)|exact (eq_trans K2 I2)]. }
    destruct Hb as (H1 & H2). unfold user_follows. rewrite H1, H2. split; exact I.
Qed.
