(** C199-C201: the control system acting on an equilibrium, and picard.solve with it. *)
From Coq Require Import String List Arith ZArith Bool Reals Lra Lia Permutation.
From Verif Require Import Py Num Numpy Coils Machine MachineSpec MachineProofs Critical Control ControlSpec ControlProofs PropControl Romb RombProofs Multigrid MultigridProofs Gauss Equilibrium EquilibriumProofs EquilibriumProofs2 EquilibriumProofs3 ControlEq
  Boundary BoundarySpec BoundaryProofs PropBoundary GradShafranov GradShafranovProofs PropControlMirror FittingProofs PropSolveFlux PropReturned PropTrueFlux Picard PicardProofs PropPicard.
Import ListNotations.
Local Open Scope R_scope.

(** ** What the statements mean *)
(** By how much the constraints are missed in an equilibrium: radial and vertical field at the X-points, flux differences of the isoflux pairs, flux less the wanted value. *)
Definition misses {P} G spline (c : constraints R) (e : equilibrium R P (constraints R)) : list R :=
  flat_map (fun x => [eqBr G spline e (fst x) (snd x); eqBz G spline e (fst x) (snd x)]) (xpoints c) ++
  map (fun i => psiRZ G spline e (fst (fst i)) (snd (fst i)) - psiRZ G spline e (fst (snd i)) (snd (snd i))) (isoflux c) ++
  map (fun p => psiRZ G spline e (fst (fst p)) (snd (fst p)) - snd p) (psivals c).
Definition sumsq (l : list R) : R := lsum (map (fun v => v ^ 2) l).
(** The equilibrium with the currents of the controlled coils changed by [x] *)
Definition adjusted {P} (e : equilibrium R P (constraints R)) (x : list R) : equilibrium R P (constraints R) := with_coils e (controlAdjust (coils (tok e)) x).

(** For every plasma some change of the currents meets all the constraints. *)
Definition can_meet G (c : constraints R) (M : machine R) : Prop :=
  forall Pf : field -> R -> R -> R, exists y, length y = length (controlCurrents M) /\ Forall (fun v => v = 0) (residuals G Pf c (controlAdjust M y)).

(** ** Proofs *)
Lemma misses_residuals {P} G spline c (e : equilibrium R P (constraints R)) : misses G spline c e = residuals G (plasma_field spline e) c (coils (tok e)).
Proof.
  assert (E : forall f r z, plasma_field spline e f r z + fst (machine_field G f (coils (tok e)) r z) = total G (plasma_field spline e) f (coils (tok e)) r z).
  { intros f r z. unfold total. rewrite machine_field_eq. reflexivity. }
  unfold misses, residuals. f_equal; [|f_equal].
  - apply flat_map_ext. intros x. rewrite <- !E. reflexivity.
  - apply map_ext. intros i. rewrite <- !E. reflexivity.
  - apply map_ext. intros i. rewrite <- !E. reflexivity.
Qed.
Lemma constrain_eq_inv {P} G spline inv slsqp c (e e1 : equilibrium R P (constraints R)) p p1 :
  constrain_eq G spline inv slsqp c (e, p) = ((e1, p1), Ok tt) ->
  p1 = p /\ exists M x, constrain_call G (plasma_field spline e) inv slsqp c (coils (tok e)) = Ok (M, x) /\ e1 = with_profiles (with_coils e M) (profiles e) (Some c).
Proof.
  unfold constrain_eq. intros E. match type of E with match ?t with Ok _ => _ | Raise _ => _ end = _ => destruct t as [(M, x)|] eqn:Ec end; [|discriminate].
  assert (A := f_equal (fun t => fst (fst t)) E). assert (B := f_equal (fun t => snd (fst t)) E). cbn in A, B. subst. split; [reflexivity|]. exists M, x. split; reflexivity.
Qed.
Lemma sumsq_nonneg l : 0 <= sumsq l.
Proof. unfold sumsq. induction l as [|v l IH]; [cbn [map]; rewrite lsum_nil; lra|]. cbn [map]. rewrite lsum_cons. assert (H := pow2_ge_0 v). lra. Qed.
Lemma sumsq_In l v : In v l -> v ^ 2 <= sumsq l.
Proof.
  induction l as [|w l IH]; intros H; [destruct H|]. unfold sumsq in *. cbn [map]. rewrite lsum_cons. destruct H as [->|H].
  - assert (X := sumsq_nonneg l). unfold sumsq in X. lra.
  - assert (X := pow2_ge_0 w). specialize (IH H). lra.
Qed.
Lemma sumsq_zero l : Forall (fun v => v = 0) l -> sumsq l = 0.
Proof. unfold sumsq. induction 1 as [|v l E H IH]; [reflexivity|]. cbn [map]. rewrite lsum_cons, IH, E. ring. Qed.

(** ** C199 *)
(** A call that returns changes the currents of the controlled coils and the stored constraints, and nothing else. *)
Theorem C199_frame : forall P G spline inv slsqp c (e e1 : equilibrium R P (constraints R)) p p1,
  (forall f x0 b cs x, slsqp f x0 b cs = Ok x -> length x = length x0) ->
  constrain_eq G spline inv slsqp c (e, p) = ((e1, p1), Ok tt) ->
  p1 = p /\ control e1 = Some c /\
  (exists M x, (M = coils (tok e) \/ M = machine_sync (coils (tok e))) /\ length x = length (controlCurrents (coils (tok e))) /\
     tok e1 = mktok (controlAdjust M x) (wall (tok e)) (limits (tok e))) /\
  with_profiles (with_tok e1 (tok e)) (profiles e1) (control e) = e.
Proof.
  intros P G spline inv slsqp c e e1 p p1 Hs E. destruct (constrain_eq_inv _ _ _ _ _ _ _ _ _ E) as (-> & M & x & Ec & ->).
  split; [reflexivity|]. split; [reflexivity|]. split; [|destruct e; reflexivity].
  assert (Hl := call_length _ _ _ _ _ _ _ _ Hs Ec). destruct (call_machine _ _ _ _ _ _ _ _ Ec) as (M1 & HM1 & ->). exists M1, x. split; [exact HM1|]. split; [exact Hl|reflexivity].
Qed.
Print Assumptions C199_frame.
(** Without limits: if some change of the currents meets all the constraints, the sum of the squares of what is missed is at most gamma squared
    times the sum of the squares of that change. *)
Theorem C199_missed : forall P G spline inv slsqp c (e e1 : equilibrium R P (constraints R)) p p1,
  (forall n A N, inv n A = Ok N -> inverts n A N) ->
  (forall f x0 b cs x, slsqp f x0 b cs = Ok x -> length x = length x0) ->
  (forall f x0 x, slsqp f x0 (repeat (None, None) (length x0)) [] = Ok x -> f x <= f x0) ->
  current_lims c = None -> max_total_current c = None ->
  constrain_eq G spline inv slsqp c (e, p) = ((e1, p1), Ok tt) ->
  forall y, length y = length (controlCurrents (coils (tok e))) -> Forall (fun v => v = 0) (misses G spline c (adjusted e y)) ->
  sumsq (misses G spline c e1) <= gamma c ^ 2 * sumsq y.
Proof.
  intros P G spline inv slsqp c e e1 p p1 Hinv Hs Hw HL HT E y Hy H0. destruct (constrain_eq_inv _ _ _ _ _ _ _ _ _ E) as (-> & M & x & Ec & ->).
  assert (Hm := C14_result_minimises _ _ _ _ _ _ _ _ Hinv Hs Hw HL HT Ec y Hy). assert (Hl := call_length _ _ _ _ _ _ _ _ Hs Ec).
  destruct (call_machine _ _ _ _ _ _ _ _ Ec) as (M1 & HM1 & EM).
  assert (A : misses G spline c (with_profiles (with_coils e M) (profiles e) (Some c)) = residuals G (plasma_field spline e) c (controlAdjust (coils (tok e)) x)).
  { rewrite misses_residuals. cbn [tok coils with_profiles with_coils with_tok]. rewrite EM. rewrite <- (same_adjust_residuals _ _ c _ _ x HM1 Hl). reflexivity. }
  assert (B : misses G spline c (adjusted e y) = residuals G (plasma_field spline e) c (controlAdjust (coils (tok e)) y)) by (rewrite misses_residuals; reflexivity).
  rewrite A. rewrite B in H0. apply sumsq_zero in H0. unfold cost in Hm. fold (sumsq (residuals G (plasma_field spline e) c (controlAdjust (coils (tok e)) x))) in Hm.
  fold (sumsq (residuals G (plasma_field spline e) c (controlAdjust (coils (tok e)) y))) in Hm. fold (sumsq x) in Hm. fold (sumsq y) in Hm.
  assert (N := sumsq_nonneg x). assert (N2 := Rmult_le_pos _ _ (pow2_ge_0 (gamma c)) N). lra.
Qed.
Print Assumptions C199_missed.

(** ** C200 *)
Lemma total_diff {P Ctl} (e1 e2 : equilibrium R P Ctl) q1 q2 : tok e1 = tok e2 -> pgreen e1 = pgreen e2 -> total_psi e1 = Ok q1 -> total_psi e2 = Ok q2 ->
  forall i j, q1 i j - q2 i j = plasma_psi e1 i j - plasma_psi e2 i j.
Proof.
  intros T1 T2 E1 E2 i j. unfold total_psi in E1, E2. apply bind_ok in E1, E2. destruct E1 as (v1 & _ & E1), E2 as (v2 & _ & E2). apply ok_inj in E1, E2. subst q1 q2. cbv beta.
  rewrite T1, T2. unfold Machine.eq_psi. destruct (calcPsiFromGreens (coils (tok e2)) (pgreen e2 i j)) as [r|]; cbn [bind]; nR; ring.
Qed.
Lemma adjust_mc G f M x r z : length x = length (controlCurrents M) -> machine_control G f (controlAdjust M x) r z = machine_control G f M r z.
Proof.
  unfold controlAdjust, controlCurrents, machine_control. rewrite map_length. revert x. induction M as [|[lb m] M IH]; intros x Hl; [reflexivity|].
  cbn [zip_controls filter snd] in *. destruct (mc_control m) eqn:Ec.
  - destruct x as [|v x]; [discriminate|]. cbn [filter snd]. rewrite mc_set_current_control, Ec. cbn [map snd]. rewrite mc_set_current_ctrl. f_equal. apply IH. injection Hl as Hl. exact Hl.
  - cbn [filter snd]. rewrite Ec. apply IH. exact Hl.
Qed.
Lemma residuals_ext G P1 P2 c M1 M2 : (forall f r z, total G P1 f M1 r z = total G P2 f M2 r z) -> residuals G P1 c M1 = residuals G P2 c M2.
Proof.
  intros E. unfold residuals. f_equal; [|f_equal].
  - apply flat_map_ext. intros x. rewrite !E. reflexivity.
  - apply map_ext. intros x. rewrite !E. reflexivity.
  - apply map_ext. intros x. rewrite !E. reflexivity.
Qed.
Lemma can_meet_adjust G c M M1 x : same M M1 -> length x = length (controlCurrents M) -> can_meet G c M -> can_meet G c (controlAdjust M1 x).
Proof.
  intros HM Hl HC Pf. destruct (HC (fun f r z => Pf f r z + dot (machine_control G f M r z) x)) as (y & Hy & H0).
  assert (Hl1 : length x = length (controlCurrents M1)) by (rewrite (same_currents _ _ HM); exact Hl).
  assert (Hn : length (controlCurrents (controlAdjust M1 x)) = length (controlCurrents M)).
  { rewrite adjust_get by exact Hl1. rewrite map_length, combine_length. rewrite (same_currents _ _ HM) in *. lia. }
  exists y. split; [congruence|]. erewrite residuals_ext; [exact H0|]. intros f r z. rewrite !adjust_total by congruence. rewrite adjust_mc by exact Hl1.
  rewrite (same_total _ _ _ _ _ _ _ HM), (same_control _ _ _ _ _ _ HM). unfold total. ring.
Qed.
Section Run.
  Context {P : Type}.
  Local Notation eqm := (equilibrium R P (constraints R)).
  Variables (G : field -> R -> R -> R -> R -> R) (mu : R) (lu : nat -> arr2 R -> (nat -> R) -> (nat -> R)).
  Variable spline : nat -> nat -> (nat -> R) -> (nat -> R) -> arr2 R -> sfun R.
  Variable Jt : P -> eqm -> (nat -> nat -> R) -> option R -> result ((nat -> nat -> R) * P * bstate R).
  Variables (inv : nat -> arr2 R -> result (arr2 R)) (slsqp : (list R -> R) -> list R -> list (option R * option R) -> list (list R -> R) -> result (list R)).
  Variables (c : constraints R) (mx my : nat) (o : options (T := R)).
  Local Notation ops := (eq_ops G sqrt mu lu spline Jt (Some (constrain_eq G spline inv slsqp c))).
  Lemma step_keeps (s s1 : eqm * P) psi pb chk : eq_solve _ ops (with_check (fst s) chk, snd s) psi pb = (s1, Ok tt) ->
    same_grid (fst s) (fst s1) /\ tok (fst s1) = tok (fst s) /\ pgreen (fst s1) = pgreen (fst s) /\ control (fst s1) = control (fst s).
  Proof.
    cbn [eq_solve eq_ops fst snd]. intros Eq.
    match type of Eq with match ?x with Ok _ => _ | Raise _ => _ end = _ => destruct x as [e1|] eqn:Es end; [|discriminate].
    assert (X := f_equal fst Eq). cbn [fst] in X. subst s1. cbn [fst].
    destruct (solve_inv _ _ _ _ _ _ _ _ _ _ _ _ Es) as (e2 & J & p1 & rhs & x & p' & I & dR & dZ & b & _ & _ & _ & _ & _ & _ & _ & _ & _ & Ee).
    rewrite Ee. repeat split; reflexivity.
  Qed.
  Hypothesis Hs : forall f x0 b cs x, slsqp f x0 b cs = Ok x -> length x = length x0.
  Lemma control_meets (t0 t : eqm * P) : constrain_eq G spline inv slsqp c t0 = (t, Ok tt) -> can_meet G c (coils (tok (fst t0))) -> can_meet G c (coils (tok (fst t))).
  Proof using Hs.
    destruct t0 as (e0, p0), t as (e1, p1). intros E HC. destruct (C199_frame _ _ _ _ _ _ _ _ _ _ Hs E) as (_ & _ & (M & x & HM & Hl & Et) & _).
    cbn [fst] in *. rewrite Et. cbn [coils]. exact (can_meet_adjust _ _ _ _ _ HM Hl HC).
  Qed.
  (** The last two states of the run *)
  Lemma run_end fuel (s s' : eqm * P) h : picard mx my _ ops o fuel s = (s', Ok h) ->
    exists t0 t q q', constrain_eq G spline inv slsqp c t0 = (t, Ok tt) /\ (can_meet G c (coils (tok (fst s))) -> can_meet G c (coils (tok (fst t0)))) /\
      same_grid (fst t) (fst s') /\ tok (fst s') = tok (fst t) /\ pgreen (fst s') = pgreen (fst t) /\ control (fst s') = control (fst t) /\
      total_psi (fst t) = Ok q /\ total_psi (fst s') = Ok q' /\
      (blend o = 0 -> let D := amax mx my (fun i j => Rabs (q i j - q' i j)) in D < atol o \/ (amax mx my q' - amin mx my q' <> 0 /\ D / (amax mx my q' - amin mx my q') < rtol o)).
  Proof using Hs.
    intros Ep. set (I := fun (t : eqm * P) (v : vars (T := R)) => exists t0 q, constrain_eq G spline inv slsqp c t0 = (t, Ok tt) /\ (can_meet G c (coils (tok (fst s))) -> can_meet G c (coils (tok (fst t0)))) /\ total_psi (fst t) = Ok q /\ (blend o = 0 -> forall i j, psi v i j = q i j)).
    destruct (picard_inv mx my _ ops o I s) with (fuel := fuel) (e' := s') (h := h) as (t & v & (t0 & q & I1 & I0 & I2 & I3) & Et); [| |exact Ep|].
    { intros e1 psi0 Er E0. exists s, psi0. split; [exact Er|]. split; [intros H; exact H|]. split; [exact E0|]. intros _ i j. reflexivity. }
    { intros t v t2 v2 (t0 & q & I1 & I0 & _) Et. destruct (turn_next mx my _ _ o _ _ _ _ Et) as (e1 & ob & psi1 & psi2 & (pb & _ & Es & _) & _ & Er & E2 & _ & ->).
      exists e1, psi2. split; [exact Er|]. destruct (step_keeps _ _ _ _ _ Es) as (_ & K2 & _).
      split; [intros HC; rewrite K2; exact (control_meets _ _ I1 (I0 HC))|]. split; [exact E2|]. intros Hb i j. cbn [psi]. rewrite Hb. ring. }
    destruct (turn_done mx my _ _ o _ _ _ _ Et) as (ob & psi1 & (pb & _ & Es & _ & Eps) & Ht & _).
    destruct (step_keeps _ _ _ _ _ Es) as (K1 & K2 & K3 & K4). exists t0, t, q, psi1.
    split; [exact I1|]. split; [exact I0|]. split; [exact K1|]. split; [exact K2|]. split; [exact K3|]. split; [exact K4|]. split; [exact I2|]. split; [exact Eps|].
    intros Hb D. unfold test in Ht. apply andb_true_iff in Ht. destruct Ht as (Ht & _). apply andb_true_iff in Ht. destruct Ht as (Ht & _).
    assert (ED : maxch mx my v psi1 = D) by (unfold D, maxch; apply amax_ext; intros i j; rewrite (I3 Hb); reflexivity).
    unfold relch in Ht. rewrite ED in Ht. apply orb_true_iff in Ht. destruct Ht as [Ht|Ht]; [left; apply R_ltb_true; exact Ht|right].
    unfold quotient in Ht. revert Ht. nR. destruct (R_eqb _ 0) eqn:Eq; [discriminate|]. cbn [below]. nR. rcmp. intros Hr. split; [exact Eq|]. apply R_ltb_true. exact Hr.
  Qed.
End Run.
(** The equilibrium that picard.solve returns has the coil currents of the last call of constrain, made before the last solve.  Its field
    differs from the field after that call by the change of the plasma field in the last solve, and without blending the plasma flux has
    changed by less than the tolerances. *)
Theorem C200_last_control : forall P G mu lu spline Jt inv slsqp c mx my o fuel (s s' : equilibrium R P (constraints R) * P) h,
  (forall f x0 b cs x, slsqp f x0 b cs = Ok x -> length x = length x0) ->
  picard mx my _ (eq_ops G sqrt mu lu spline Jt (Some (constrain_eq G spline inv slsqp c))) o fuel s = (s', Ok h) ->
  exists t0 t : equilibrium R P (constraints R) * P, constrain_eq G spline inv slsqp c t0 = (t, Ok tt) /\
    same_grid (fst t) (fst s') /\ tok (fst s') = tok (fst t) /\ control (fst s') = Some c /\
    (forall r z, eqBr G spline (fst s') r z = eqBr G spline (fst t) r z + (plasmaBr spline (fst s') r z - plasmaBr spline (fst t) r z)) /\
    (forall r z, eqBz G spline (fst s') r z = eqBz G spline (fst t) r z + (plasmaBz spline (fst s') r z - plasmaBz spline (fst t) r z)) /\
    (blend o = 0 -> (0 < mx)%nat -> (0 < my)%nat -> exists d q, total_psi (fst s') = Ok q /\
       (forall i j, (i < mx)%nat -> (j < my)%nat -> Rabs (plasma_psi (fst s') i j - plasma_psi (fst t) i j) <= d) /\
       (d < atol o \/ (amax mx my q - amin mx my q <> 0 /\ d / (amax mx my q - amin mx my q) < rtol o))).
Proof.
  intros P G mu lu spline Jt inv slsqp c mx my o fuel s s' h Hs Ep.
  destruct (run_end G mu lu spline Jt inv slsqp c mx my o Hs fuel s s' h Ep) as (t0 & t & q & q' & E1 & _ & E2 & E3 & E4 & E5 & E6 & E7 & E8).
  exists t0, t. split; [exact E1|]. split; [exact E2|]. split; [exact E3|].
  split. { destruct t0 as (e0, p0), t as (e1, p1). rewrite E5. apply (C199_frame _ _ _ _ _ _ _ _ _ _ Hs E1). }
  split; [intros r z; unfold eqBr; rewrite E3; nR; ring|]. split; [intros r z; unfold eqBz; rewrite E3; nR; ring|].
  intros Hb Hx Hy. exists (amax mx my (fun i j => Rabs (q i j - q' i j))), q'. split; [exact E7|]. split; [|exact (E8 Hb)].
  intros i j Hi Hj. rewrite <- (total_diff (fst s') (fst t) q' q E3 E4 E7 E6 i j), Rabs_minus_sym. exact (proj1 (amax_spec mx my (fun i j => Rabs (q i j - q' i j)) Hx Hy) i j Hi Hj).
Qed.
Print Assumptions C200_last_control.
(** X-points: for a machine that can meet the constraints, with a spline whose derivatives change by at most L times the change of the values,
    the field at a wanted X-point is at most the part that the regularisation leaves and L/R times the last change of the flux. *)
Theorem C200_xpoints : forall P G mu lu spline Jt inv slsqp c mx my o fuel (s s' : equilibrium R P (constraints R) * P) h L r z,
  (forall n A N, inv n A = Ok N -> inverts n A N) ->
  (forall f x0 b cs x, slsqp f x0 b cs = Ok x -> length x = length x0) ->
  (forall f x0 x, slsqp f x0 (repeat (None, None) (length x0)) [] = Ok x -> f x <= f x0) ->
  current_lims c = None -> max_total_current c = None -> can_meet G c (coils (tok (fst s))) ->
  blend o = 0 -> (0 < mx)%nat -> (0 < my)%nat -> 0 < r -> In (r, z) (xpoints c) ->
  (forall nx ny X Y z1 z2 d, (forall i j, (i < mx)%nat -> (j < my)%nat -> Rabs (z1 i j - z2 i j) <= d) ->
     Rabs (spline nx ny X Y z1 0%nat 1%nat r z - spline nx ny X Y z2 0%nat 1%nat r z) <= L * d /\
     Rabs (spline nx ny X Y z1 1%nat 0%nat r z - spline nx ny X Y z2 1%nat 0%nat r z) <= L * d) ->
  picard mx my _ (eq_ops G sqrt mu lu spline Jt (Some (constrain_eq G spline inv slsqp c))) o fuel s = (s', Ok h) ->
  exists (t0 t : equilibrium R P (constraints R) * P) d q, constrain_eq G spline inv slsqp c t0 = (t, Ok tt) /\ tok (fst s') = tok (fst t) /\ total_psi (fst s') = Ok q /\
    (d < atol o \/ (amax mx my q - amin mx my q <> 0 /\ d / (amax mx my q - amin mx my q) < rtol o)) /\
    (exists y, length y = length (controlCurrents (coils (tok (fst t0)))) /\ Forall (fun v => v = 0) (misses G spline c (adjusted (fst t0) y))) /\
    forall y, length y = length (controlCurrents (coils (tok (fst t0)))) -> Forall (fun v => v = 0) (misses G spline c (adjusted (fst t0) y)) ->
      Rabs (eqBr G spline (fst s') r z) <= Rabs (gamma c) * sqrt (sumsq y) + L * d / r /\
      Rabs (eqBz G spline (fst s') r z) <= Rabs (gamma c) * sqrt (sumsq y) + L * d / r.
Proof.
  intros P G mu lu spline Jt inv slsqp c mx my o fuel s s' h L r z Hinv Hs Hw HL HT HC Hb Hx Hy Hr Hin HSp Ep.
  destruct (run_end G mu lu spline Jt inv slsqp c mx my o Hs fuel s s' h Ep) as (t0 & t & q & q' & E1 & EC & E2 & E3 & E4 & E5 & E6 & E7 & E8).
  set (d := amax mx my (fun i j => Rabs (q i j - q' i j))) in *. exists t0, t, d, q'. split; [exact E1|]. split; [exact E3|]. split; [exact E7|]. split; [exact (E8 Hb)|].
  split.
  { destruct (EC HC (plasma_field spline (fst t0))) as (y & Hy1 & Hy2). exists y. split; [exact Hy1|]. rewrite misses_residuals. exact Hy2. }
  assert (Hd : forall i j, (i < mx)%nat -> (j < my)%nat -> Rabs (plasma_psi (fst s') i j - plasma_psi (fst t) i j) <= d).
  { intros i j Hi Hj. rewrite <- (total_diff (fst s') (fst t) q' q E3 E4 E7 E6 i j), Rabs_minus_sym. exact (proj1 (amax_spec mx my (fun i j => Rabs (q i j - q' i j)) Hx Hy) i j Hi Hj). }
  intros y Hy1 Hy2. destruct t0 as (e0, p0), t as (e1, p1). cbn [fst] in *.
  assert (Q := C199_missed P G spline inv slsqp c e0 e1 p0 p1 Hinv Hs Hw HL HT E1 y Hy1 Hy2).
  assert (S : forall v, In v (misses G spline c e1) -> Rabs v <= Rabs (gamma c) * sqrt (sumsq y)).
  { intros v Hv. apply sumsq_In in Hv. rewrite <- (sqrt_Rsqr_abs v), <- (sqrt_Rsqr_abs (gamma c)), <- sqrt_mult; [|apply Rle_0_sqr|apply sumsq_nonneg]. apply sqrt_le_1_alt. unfold Rsqr. nra. }
  assert (I2 : In (eqBr G spline e1 r z) (misses G spline c e1) /\ In (eqBz G spline e1 r z) (misses G spline c e1)).
  { unfold misses. split; apply in_or_app; left; apply in_flat_map; exists (r, z); (split; [exact Hin|]); [left|right; left]; reflexivity. }
  destruct I2 as (I1 & I2). apply S in I1, I2.
  assert (D := proj1 E2). injection D as D1 D2 D3 D4 D5 D6.
  destruct (HSp (e_nx e1) (e_ny e1) (R_1D e1) (Z_1D e1) (plasma_psi (fst s')) (plasma_psi e1) d Hd) as (L1 & L2).
  assert (Ep1 : psi_func spline (fst s') = spline (e_nx e1) (e_ny e1) (R_1D e1) (Z_1D e1) (plasma_psi (fst s'))).
  { unfold psi_func, R_1D, Z_1D. rewrite D1, D2, D3, D4, D5, D6. reflexivity. }
  assert (W : forall a b : R, Rabs (a - b) <= L * d -> Rabs (a / r - b / r) <= L * d / r).
  { intros a b Hab. replace (a / r - b / r) with ((a - b) * / r) by (field; lra). assert (Hr' := Rinv_0_lt_compat r Hr). rewrite Rabs_mult, (Rabs_right (/ r)) by lra.
    unfold Rdiv. apply Rmult_le_compat_r; [lra|exact Hab]. }
  split.
  - replace (eqBr G spline (fst s') r z) with (eqBr G spline e1 r z + (plasmaBr spline (fst s') r z - plasmaBr spline e1 r z)) by (unfold eqBr; rewrite E3; nR; ring).
    eapply Rle_trans; [apply Rabs_triang|]. apply Rplus_le_compat; [exact I1|]. unfold plasmaBr. rewrite Ep1. unfold psi_func. nR.
    match goal with |- Rabs (- ?a / r - - ?b / r) <= _ => replace (- a / r - - b / r) with (- (a / r - b / r)) by (field; lra) end. rewrite Rabs_Ropp. apply W. exact L1.
  - replace (eqBz G spline (fst s') r z) with (eqBz G spline e1 r z + (plasmaBz spline (fst s') r z - plasmaBz spline e1 r z)) by (unfold eqBz; rewrite E3; nR; ring).
    eapply Rle_trans; [apply Rabs_triang|]. apply Rplus_le_compat; [exact I2|]. unfold plasmaBz. rewrite Ep1. unfold psi_func. nR. apply W. exact L2.
Qed.
Print Assumptions C200_xpoints.

(** ** A run *)
(** With splines that are zero there are no critical points, and one iteration is enough if the tolerance is large. *)
Lemma coils_total {P Ctl} (e : equilibrium R P Ctl) p v : calcPsiFromGreens (coils (tok e)) (pgreen e 0%nat 0%nat) = Ok v -> exists q, total_psi (with_plasma e p) = Ok q.
Proof. intros E. unfold total_psi. cbn [plasma_psi tok pgreen with_plasma]. unfold Machine.eq_psi at 1. rewrite E. cbn [bind]. eexists. reflexivity. Qed.
Lemma flat_coils_run {P Ctl} G mu lu Jt (e : equilibrium R P Ctl) p psi A v :
  calcPsiFromGreens (coils (tok e)) (pgreen e 0%nat 0%nat) = Ok v ->
  (forall e1 psi1, exists J, Jt p e1 psi1 None = Ok (J, p, bs e1)) -> bnd e = BFixed -> dyadic (e_nx e) -> dyadic (e_ny e) -> (4 <= e_nx e)%nat -> (4 <= e_ny e)%nat ->
  Rmin e < Rmax e -> Zmin e < Zmax e -> slv e = SMatrix (MGDirect (e_nx e * e_ny e) A) ->
  exists e', solve G sqrt mu lu flat_spline Jt e p None (Some psi) None = Ok e' /\ bs e' = bs e /\ tok e' = tok e /\ pgreen e' = pgreen e.
Proof.
  intros Hv HJ Hb Dx Dy Hx Hy HR HZ Hs. set (e1 := with_profiles e (Some p) (control e)). set (e2 := with_bs e1 (bs e1)).
  assert (T : forall (e3 : equilibrium R P Ctl), coils (tok e3) = coils (tok e) -> pgreen e3 = pgreen e -> exists q, total_psi e3 = Ok q).
  { intros e3 A1 A2. destruct (coils_total e3 (plasma_psi e3) v) as (q & Eq); [rewrite A1, A2; exact Hv|]. exists q. destruct e3. exact Eq. }
  assert (U : forall (e3 : equilibrium R P Ctl), e_nx e3 = e_nx e -> e_ny e3 = e_ny e -> Rmin e3 = Rmin e -> Rmax e3 = Rmax e -> Zmin e3 = Zmin e -> Zmax e3 = Zmax e -> coils (tok e3) = coils (tok e) -> pgreen e3 = pgreen e ->
    update_own flat_spline e3 = Ok (with_bs e3 (bs e3))).
  { intros e3 A1 A2 A3 A4 A5 A6 A7 A8. unfold update_own. destruct (T e3 A7 A8) as (q & ->). cbn [bind]. rewrite flat_update by (rewrite ?A1, ?A2, ?A3, ?A4, ?A5, ?A6; assumption). reflexivity. }
  assert (E1 : update_own flat_spline e1 = Ok e2) by (apply U; reflexivity).
  destruct (HJ e2 psi) as (J & EJ). set (e3 := with_profiles (with_bs e2 (bs e2)) (Some p) (control e2)).
  destruct (romb2_dyadic (e_nx e) (e_ny e) J Dx Dy) as (r & Er).
  destruct (proj1 (C28_fixed_boundary (e_nx e) (e_ny e) (plasma_psi e3)) ltac:(lia)) as (q & Eq & _).
  assert (HB : applyBoundary G sqrt lu e3 J = Ok q) by (unfold applyBoundary; change (bnd e3) with (bnd e); rewrite Hb; exact Eq).
  destruct (set_edges_spec (e_nx e) (e_ny e) (fun i j => nmul (nmul (nopp mu) (grid_R e3 i j)) (J i j)) q ltac:(lia) ltac:(lia)) as (rhs & Erh & _).
  assert (SR : exists d, spacing_R (e_nx e) (e_ny e) (grid_R e) = Ok d) by (eexists; apply spacing_R_ok; lia).
  assert (SZ : exists d, spacing_Z (e_nx e) (e_ny e) (grid_Z e) = Ok d) by (eexists; apply spacing_Z_ok; lia).
  destruct SR as (dR & SR), SZ as (dZ & SZ).
  eexists. split.
  - unfold solve. fold e1. rewrite E1. cbn [bind]. rewrite EJ. cbn [bind].
    change (with_profiles (with_bs e2 (bs e2)) (Some p) (control e2)) with e3. unfold linear_solve. rewrite HB. cbn [bind]. change (e_nx e3) with (e_nx e). change (e_ny e3) with (e_ny e). rewrite Erh. cbn [bind].
    unfold callSolver. change (slv e3) with (slv e). rewrite Hs. unfold solver_call. change (e_nx e3) with (e_nx e). change (e_ny e3) with (e_ny e). cbn [mg_call]. rewrite Nat.eqb_refl. cbn [bind].
    unfold update_plasma, eq_spline. change (e_nx e3) with (e_nx e). change (e_ny e3) with (e_ny e). change (R_1D e3) with (R_1D e). change (Z_1D e3) with (Z_1D e).
    rewrite RBS_ok; [|exact Hx|exact Hy|apply linspace_increasing; exact HR|apply linspace_increasing; exact HZ]. cbn [bind].
    rewrite U by reflexivity. cbn [bind].
    match goal with |- bind (romb2 ?a ?b ?c) _ = _ => change (romb2 a b c) with (romb2 (e_nx e) (e_ny e) J) end. rewrite Er. cbn [bind].
    match goal with |- bind (spacing_R ?a ?b ?c) _ = _ => change (spacing_R a b c) with (spacing_R (e_nx e) (e_ny e) (grid_R e)) end. rewrite SR. cbn [bind].
    match goal with |- bind (spacing_Z ?a ?b ?c) _ = _ => change (spacing_Z a b c) with (spacing_Z (e_nx e) (e_ny e) (grid_Z e)) end. rewrite SZ. reflexivity.
  - repeat split; reflexivity.
Qed.
Lemma flat_picard {P Ctl} G mu lu Jt (f : equilibrium R P Ctl * P -> (equilibrium R P Ctl * P) * result unit) s (e : equilibrium R P Ctl) p A v b :
  f s = ((e, p), Ok tt) -> calcPsiFromGreens (coils (tok e)) (pgreen e 0%nat 0%nat) = Ok v ->
  (forall e1 psi1, exists J, Jt p e1 psi1 None = Ok (J, p, bs e1)) -> bnd e = BFixed -> dyadic (e_nx e) -> dyadic (e_ny e) -> (4 <= e_nx e)%nat -> (4 <= e_ny e)%nat ->
  Rmin e < Rmax e -> Zmin e < Zmax e -> slv e = SMatrix (MGDirect (e_nx e * e_ny e) A) -> psi_bndry (bs e) = Some (Some b) ->
  exists at_ s' h, picard (e_nx e) (e_ny e) _ (eq_ops G sqrt mu lu flat_spline Jt (Some f)) (plain_options None 0 at_) 1 s = (s', Ok h).
Proof.
  intros Hf Hv HJ Hb Dx Dy Hx Hy HR HZ Hs Hbd.
  destruct (coils_total e (plasma_psi e) v Hv) as (q & Eq). assert (Eq' : total_psi e = Ok q) by (destruct e; exact Eq). clear Eq.
  destruct (flat_coils_run G mu lu Jt (with_check e false) p q A v Hv HJ Hb Dx Dy Hx Hy HR HZ Hs) as (e1 & E1 & B1 & T1 & P1).
  destruct (coils_total e1 (plasma_psi e1) v) as (q1 & Eq1); [rewrite T1, P1; exact Hv|]. assert (Eq1' : total_psi e1 = Ok q1) by (destruct e1; exact Eq1). clear Eq1.
  set (m := amax (e_nx e) (e_ny e) (fun i j => Rabs (q i j - q1 i j))).
  exists (Rabs m + Rabs b + 1). do 2 eexists. unfold picard, run_constrain. cbn [constrain eq_ops]. rewrite Hf. cbn [Picard.eq_psi eq_ops fst]. rewrite Eq'.
  cbn [loop]. rewrite turn_eq. cbv zeta. cbn [flag plain_options limit_it iteration been_limited check andb orb Z.leb Z.compare user_bndry set_check eq_ops eq_solve fst snd Picard.psi].
  rewrite E1. cbn [fst bndry_flux eq_ops]. rewrite B1. change (bs (with_check e false)) with (bs e). rewrite Hbd. cbn [Picard.eq_psi eq_ops fst]. rewrite Eq1'.
  match goal with |- context [if ?t then _ else _] => assert (Et : t = true) end.
  { unfold test. cbn [wait plain_options negb]. rewrite andb_true_r. apply andb_true_iff. split; apply orb_true_iff.
    - left. apply R_ltb_true. unfold maxch. cbn [Picard.psi atol plain_options]. fold m. assert (X := Rle_abs m). assert (Y := Rabs_pos b). nR. lra.
    - right. cbn [newch Picard.bndry option_map below atol plain_options]. apply R_ltb_true. nR. replace (0 - b) with (- b) by ring. rewrite Rabs_Ropp. assert (X := Rabs_pos m). lra. }
  rewrite Et. reflexivity.
Qed.

(** Two coils above and below the midplane, each with current 10, and an X-point wanted at (1,0): both currents are turned off. *)
Definition copy_profile (q : unit) (e : equilibrium R unit (constraints R)) (psi : arr2 R) (_ : option R) : result (arr2 R * unit * bstate R) := Ok (psi, q, bs e).
Definition coil_eq G (M : machine R) (A : nat -> nat -> R) : equilibrium R unit (constraints R) :=
  mkeq 5 5 1 2 (-1) 1 (mktok M false []) BFixed 2 (SMatrix (MGDirect 25 A)) false (fun _ _ => 0)
    (fun i j => createPsiGreens G M (linspace 1 2 5 i) (linspace (-1) 1 5 j)) 0 None (mkb None (Some (Some 1)) None None None false None) None None.
Definition exx : constraints R := mkcons [(1, 0)] 0 [] [] None None.
Lemma exx_call A : exists M, constrain_call exG (plasma_field flat_spline (coil_eq exG exM2 A)) exinv2 (fun f x0 b cs => Ok x0) exx exM2 = Ok (M, [-10; -10]).
Proof.
  eexists. unfold constrain_call, build_rows. cbn. unfold analytic, exinv2. cbn. unfold normal_matrix, normal_rhs, matA, vecb, nsum, nsqr, eye. cbn.
  unfold coil_control, coil_field, plasmaBr, plasmaBz, psi_func, flat_spline. cbn. nR.
  destruct (R_eqb _ 0) eqn:E; rcmp; [exfalso; lra|]. cbn.
  match goal with |- Ok (_, [?x; ?y]) = _ => replace x with (-10) by field; replace y with (-10) by field end. reflexivity.
Qed.
Lemma exx_can_meet : can_meet exG exx exM2.
Proof.
  intros Pf. set (a := Pf FBr 1 0). set (b := Pf FBz 1 0). exists [- 10 - (a + b) / 2; - 10 + (a - b) / 2]. split; [reflexivity|].
  rewrite adjust_residuals by reflexivity. unfold rows_spec. cbn -[total machine_control]. unfold total, response_sum, machine_control. cbn. unfold lsum. cbn. unfold coil_control. cbn. fold a b. nR.
  repeat constructor; unfold dot; cbn; unfold lsum; cbn; nR; field.
Qed.
Example C199_example : forall A, exists e1, constrain_eq exG flat_spline exinv2 (fun f x0 b cs => Ok x0) exx (coil_eq exG exM2 A, tt) = ((e1, tt), Ok tt) /\
  controlCurrents (coils (tok (coil_eq exG exM2 A))) = [10; 10] /\ controlCurrents (coils (tok e1)) = [0; 0] /\
  length [-10; -10] = length (controlCurrents (coils (tok (coil_eq exG exM2 A)))) /\ Forall (fun v => v = 0) (misses exG flat_spline exx (adjusted (coil_eq exG exM2 A) [-10; -10])).
Proof.
  intros A. destruct (exx_call A) as (M & E). unfold constrain_eq. change (coils (tok (coil_eq exG exM2 A))) with exM2. rewrite E. eexists. split; [reflexivity|].
  split; [reflexivity|]. cbn [tok coils with_profiles with_coils with_tok].
  destruct (call_machine _ _ _ _ _ _ _ _ E) as (M1 & HM1 & ->). split.
  { rewrite adjust_get by (rewrite (same_currents _ _ HM1); reflexivity). rewrite (same_currents _ _ HM1). cbn. nR. repeat f_equal; ring. }
  split; [reflexivity|]. rewrite misses_residuals. change (coils (tok (adjusted (coil_eq exG exM2 A) [-10; -10]))) with (controlAdjust exM2 [-10; -10]).
  rewrite adjust_residuals by reflexivity. unfold rows_spec. cbn -[total machine_control]. unfold total, response_sum, machine_control. cbn. unfold lsum. cbn. unfold coil_control, plasmaBr, plasmaBz, psi_func, flat_spline. cbn. nR.
  repeat constructor; unfold dot; cbn; unfold lsum; cbn; nR; field.
Qed.
Lemma exM2_labels : labels_distinct exM2.
Proof. split; repeat constructor; cbn; intuition congruence. Qed.
Lemma coil_run lu G M0 A inv slsqp c e1 : labels_distinct M0 -> constrain_eq G flat_spline inv slsqp c (coil_eq G M0 A, tt) = ((e1, tt), Ok tt) ->
  exists at_ s' h, picard 5 5 _ (eq_ops G sqrt 1 lu flat_spline copy_profile (Some (constrain_eq G flat_spline inv slsqp c))) (plain_options None 0 at_) 1 (coil_eq G M0 A, tt) = (s', Ok h).
Proof.
  intros HL E1. assert (D5 : dyadic 5) by (exists 2%nat; reflexivity).
  destruct (constrain_eq_inv _ _ _ _ _ _ _ _ _ E1) as (_ & M & x & Ec & Ee). destruct (call_machine _ _ _ _ _ _ _ _ Ec) as (M1 & HM1 & EM).
  assert (Sh : machine_shape M = machine_shape M0).
  { rewrite EM. transitivity (machine_shape M1).
    - apply (zip_frame (fun m dI => mc_set_current m (nadd (mc_current m) dI))); intros; [apply mc_set_current_shape|apply mc_set_current_control].
    - destruct HM1 as [->| ->]; [reflexivity|apply machine_sync_shape]. }
  assert (V := cached_direct G M0 M (linspace 1 2 5 0) (linspace (-1) 1 5 0) HL Sh).
  destruct (flat_picard G 1 lu copy_profile (constrain_eq G flat_spline inv slsqp c) (coil_eq G M0 A, tt) e1 tt A (response_sum G FPsi M (linspace 1 2 5 0) (linspace (-1) 1 5 0), machine_sync M) 1 E1) as (at_ & s' & h & Ep);
    try (rewrite Ee; first [exact V|reflexivity|exact D5|cbn; lia|cbn; lra]).
  { intros e2 psi. exists psi. reflexivity. }
  exists at_, s', h. rewrite Ee in Ep. exact Ep.
Qed.
Example C200_example : forall A, exists at_ s' h,
  can_meet exG exx (coils (tok (coil_eq exG exM2 A))) /\ In (1, 0) (xpoints exx) /\
  picard 5 5 _ (eq_ops exG sqrt 1 elimination flat_spline copy_profile (Some (constrain_eq exG flat_spline exinv2 (fun f x0 b cs => Ok x0) exx))) (plain_options None 0 at_) 1 (coil_eq exG exM2 A, tt) = (s', Ok h).
Proof.
  intros A. destruct (C199_example A) as (e1 & E1 & _). destruct (coil_run elimination exG exM2 A _ _ _ e1 exM2_labels E1) as (at_ & s' & h & Ep).
  exists at_, s', h. split; [exact exx_can_meet|]. split; [left; reflexivity|]. exact Ep.
Qed.
