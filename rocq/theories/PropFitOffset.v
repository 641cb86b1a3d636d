(** C164, C165: targets that differ from the flux by a constant. *)
From Coq Require Import List Arith ZArith QArith Bool Lia Reals Lra.
From Verif Require Import Py Num Numpy Coils Machine Critical Boundary Equilibrium Control ControlSpec ControlProofs Fitting FittingSpec FittingProofs PropEquilibrium2 PropSafety PropFitting PropFitResiduals.
Import ListNotations.
Local Open Scope R_scope.

Lemma gs_ext nx ny a b : (forall i j, (i < nx)%nat -> (j < ny)%nat -> a i j = b i j) -> grid_sum nx ny a = grid_sum nx ny b.
Proof. intros H. apply nsum_ext. intros i Hi. apply nsum_ext. intros j Hj. apply H; assumption. Qed.
Lemma gs_add nx ny a b : grid_sum nx ny (fun i j => a i j + b i j) = grid_sum nx ny a + grid_sum nx ny b.
Proof. unfold grid_sum. rewrite <- nsum_add. apply nsum_ext. intros i Hi. apply nsum_add. Qed.
Lemma gs_scal nx ny c a : grid_sum nx ny (fun i j => c * a i j) = c * grid_sum nx ny a.
Proof. unfold grid_sum. rewrite <- nsum_scal. apply nsum_ext. intros i Hi. apply nsum_scal. Qed.
Lemma gs_weights nx ny a w l m v : on_grid nx ny a l -> on_grid nx ny w m -> average l (WArray m) = Ok v -> grid_sum nx ny w <> 0.
Proof.
  intros A W E. unfold average in E. rewrite (proj1 A), (proj1 W), Nat.eqb_refl in E. destruct (neqb (lsum m) n0) eqn:B; [discriminate|].
  apply R_eqb_false in B. rewrite <- (grid_total _ _ _ _ W). exact B.
Qed.
(** the weighted mean of what is left without it is zero *)
Lemma gs_centred nx ny a w : grid_sum nx ny w <> 0 -> grid_sum nx ny (fun i j => (a i j - grid_mean nx ny a w) * w i j) = 0.
Proof.
  intros H. rewrite (gs_ext _ _ _ (fun i j => a i j * w i j + (- grid_mean nx ny a w) * w i j)) by (intros; ring).
  rewrite gs_add, gs_scal. unfold grid_mean. field. exact H.
Qed.
Lemma target_weights tl wl cp nx ny target w : on_grid nx ny target tl -> on_grid nx ny w wl -> ConstrainPsi2D tl (Some (WArray wl)) = Ok cp -> grid_sum nx ny w <> 0.
Proof. intros HT HW EC. unfold ConstrainPsi2D in EC. apply bind_ok in EC as (at_ & EA & EC). exact (gs_weights _ _ _ _ _ _ _ HT HW EA). Qed.

(** ** C164 *)
(** Currents whose flux is the target up to a constant leave no residual in ConstrainPsi2D. *)
Theorem C164_exact : forall (P Ctl : Type) (e e' : equilibrium R P Ctl) (target w psi : nat -> nat -> R) tl wl cp x d c,
  on_grid (e_nx e) (e_ny e) target tl -> on_grid (e_nx e) (e_ny e) w wl ->
  ConstrainPsi2D tl (Some (WArray wl)) = Ok cp -> residual_psi cp e x = Ok (e', d) ->
  total_psi (set_currents e x) = Ok psi -> (forall i j, (i < e_nx e)%nat -> (j < e_ny e)%nat -> psi i j = target i j + c) ->
  on_grid (e_nx e) (e_ny e) (fun _ _ => 0) d.
Proof.
  intros P Ctl e e' target w psi tl wl cp x d c HT HW EC E EP HP. assert (W := target_weights _ _ _ _ _ _ _ HT HW EC).
  destruct (C160_flux _ _ _ _ _ _ _ _ _ _ _ HT HW EC E) as (psi' & EP' & _ & HG). cbv zeta in HG. rewrite EP in EP'. injection EP' as <-.
  assert (M : grid_mean (e_nx e) (e_ny e) psi w = grid_mean (e_nx e) (e_ny e) target w + c).
  { unfold grid_mean. rewrite (gs_ext _ _ (fun i j => psi i j * w i j) (fun i j => target i j * w i j + c * w i j)) by (intros i j Hi Hj; rewrite HP by assumption; ring).
    rewrite gs_add, gs_scal. field. exact W. }
  revert HG. apply on_grid_ext. intros i j Hi Hj. rewrite M, HP by assumption. ring.
Qed.
Print Assumptions C164_exact.
(** If the weights are zero or one, or all the same, the sum of squares of ConstrainPsi2DAdvanced is
    that of ConstrainPsi2D but for a number that does not depend on the currents. *)
Theorem C164_advanced : forall (P Ctl : Type) spline (e e1 e2 : equilibrium R P Ctl) (target w : nat -> nat -> R) tl wl cp lims x d s k,
  on_grid (e_nx e) (e_ny e) target tl -> on_grid (e_nx e) (e_ny e) w wl ->
  (forall i j, (i < e_nx e)%nat -> (j < e_ny e)%nat -> w i j ^ 2 = k * w i j) ->
  ConstrainPsi2D tl (Some (WArray wl)) = Ok cp -> residual_psi cp e x = Ok (e1, d) ->
  residual_adv spline (mkadv tl (WArray wl) lims) e x = Ok (e2, s) ->
  s = lsum (map (fun v => v ^ 2) d) + k * grid_mean (e_nx e) (e_ny e) target w ^ 2 * grid_sum (e_nx e) (e_ny e) w.
Proof.
  intros P Ctl spline e e1 e2 target w tl wl cp lims x d s k HT HW Hk EC E EA. assert (W := target_weights _ _ _ _ _ _ _ HT HW EC).
  destruct (C160_flux _ _ _ _ _ _ _ _ _ _ _ HT HW EC E) as (psi & EP & _ & HG). cbv zeta in HG.
  destruct (proj1 (C160_advanced _ _ spline e e2 e2 target w tl wl lims x s 0 HT HW) EA) as (psi' & EP' & ->). rewrite EP in EP'. injection EP' as <-.
  rewrite (grid_total _ _ _ _ (grid_map _ _ _ _ (fun v => v ^ 2) HG)).
  set (mp := grid_mean (e_nx e) (e_ny e) psi w) in *. set (mt := grid_mean (e_nx e) (e_ny e) target w) in *.
  rewrite (gs_ext _ _ _ (fun i j => ((((psi i j - mp) - (target i j - mt)) * w i j) ^ 2 + (k * mt ^ 2) * w i j) + ((- (2 * k * mt)) * ((psi i j - mp) * w i j) + (2 * k * mt) * ((target i j - mt) * w i j)))).
  - rewrite !gs_add, !gs_scal. unfold mp, mt. rewrite !gs_centred by exact W. ring.
  - intros i j Hi Hj. assert (K := Hk i j Hi Hj).
    replace (((psi i j - mp - target i j) * w i j) ^ 2) with ((psi i j - mp - target i j) ^ 2 * w i j ^ 2) by ring.
    replace (((psi i j - mp - (target i j - mt)) * w i j) ^ 2) with ((psi i j - mp - (target i j - mt)) ^ 2 * w i j ^ 2) by ring. rewrite K. ring.
Qed.
Print Assumptions C164_advanced.
(** Hence both prefer the same currents. *)
Theorem C164_same_order : forall (P Ctl : Type) spline (e e1 e2 e3 e4 : equilibrium R P Ctl) (target w : nat -> nat -> R) tl wl cp lims x y d1 d2 s1 s2 k,
  on_grid (e_nx e) (e_ny e) target tl -> on_grid (e_nx e) (e_ny e) w wl ->
  (forall i j, (i < e_nx e)%nat -> (j < e_ny e)%nat -> w i j ^ 2 = k * w i j) ->
  ConstrainPsi2D tl (Some (WArray wl)) = Ok cp ->
  residual_psi cp e x = Ok (e1, d1) -> residual_psi cp e y = Ok (e2, d2) ->
  residual_adv spline (mkadv tl (WArray wl) lims) e x = Ok (e3, s1) -> residual_adv spline (mkadv tl (WArray wl) lims) e y = Ok (e4, s2) ->
  s1 <= s2 <-> lsum (map (fun v => v ^ 2) d1) <= lsum (map (fun v => v ^ 2) d2).
Proof.
  intros P Ctl spline e e1 e2 e3 e4 target w tl wl cp lims x y d1 d2 s1 s2 k HT HW Hk EC E1 E2 A1 A2.
  rewrite (C164_advanced _ _ _ _ _ _ _ _ _ _ _ _ _ _ _ _ HT HW Hk EC E1 A1), (C164_advanced _ _ _ _ _ _ _ _ _ _ _ _ _ _ _ _ HT HW Hk EC E2 A2). lra.
Qed.
Print Assumptions C164_same_order.
(** The weights 0 and 1 of the mask, and constant weights, are such. *)
Example C164_weights : (forall v : R, v = 0 \/ v = 1 -> v ^ 2 = 1 * v) /\ (forall k : R, k ^ 2 = k * k).
Proof. split; [intros v [->| ->]; ring|intros; ring]. Qed.
(** 2 by 2 points, flux i + 10 j, target 3 more than that, weights 1 and 3 *)
Example C164_example : exists cp d e', ConstrainPsi2D [3; 13; 4; 14] (Some (WArray [1; 3; 1; 3])) = Ok cp /\ residual_psi cp small [] = Ok (e', d) /\
  on_grid 2 2 (fun _ _ => 0) d.
Proof.
  assert (HT : on_grid 2 2 (fun i j => INR i + 10 * INR j + 3) [3; 13; 4; 14]).
  { split; [reflexivity|]. intros [|[|i]] [|[|j]] Hi Hj; try lia; cbn; f_equal; lra. }
  assert (HW : on_grid 2 2 (fun i j => if (j =? 0)%nat then 1 else 3) [1; 3; 1; 3]).
  { split; [reflexivity|]. intros [|[|i]] [|[|j]] Hi Hj; try lia; reflexivity. }
  assert (L8 : lsum [1; 3; 1; 3] = 8) by (cbn; nR; lra).
  assert (AV : forall a, length a = 4%nat -> average a (WArray [1; 3; 1; 3]) = Ok (wmean a [1; 3; 1; 3])) by (intros a Ha; apply average_eq; [symmetry; exact Ha|rewrite L8; lra]).
  assert (EC : exists cp, ConstrainPsi2D [3; 13; 4; 14] (Some (WArray [1; 3; 1; 3])) = Ok cp).
  { unfold ConstrainPsi2D. rewrite AV by reflexivity. cbn [bind]. eexists. reflexivity. }
  destruct EC as (cp & EC).
  assert (ER : exists p, residual_psi cp small [] = Ok p).
  { unfold ConstrainPsi2D in EC. rewrite AV in EC by reflexivity. injection EC as <-. unfold residual_psi, trial_psi.
    destruct (total_psi (set_currents small [])) as [psi|] eqn:Et; [|vm_compute in Et; discriminate]. cbn [bind].
    assert (LV : length (values (set_currents small []) psi) = 4%nat) by reflexivity.
    destruct (values (set_currents small []) psi) as [|a [|b [|c [|f [|]]]]]; try discriminate.
    unfold psi_difference. cbn [fst snd]. rewrite AV by reflexivity. cbn [bind]. generalize (wmean [a; b; c; f] [1; 3; 1; 3]). intros m. eexists. reflexivity. }
  destruct ER as ((e' & d) & ER). exists cp, d, e'. split; [exact EC|]. split; [exact ER|].
  destruct (total_psi (set_currents small [])) as [psi|] eqn:Et; [|vm_compute in Et; discriminate].
  refine (C164_exact _ _ small e' _ _ psi _ _ cp [] d (-3) HT HW EC ER Et _).
  intros i j _ _. unfold total_psi in Et. cbn in Et. injection Et as <-. cbn. nR. ring.
Qed.
(** [hill] of C146 and currents (1, 0), target 1 everywhere, weights 1: both sums, and the sum of the weights times the square of the mean of the target *)
Example C164_advanced_example : exists e1 e2 d s cp, ConstrainPsi2D (repeat 1%Q 49) (Some w49) = Ok cp /\ residual_psi cp hill [1; 0]%Q = Ok (e1, d) /\
  residual_adv spline_ridge (mkadv (repeat 1%Q 49) w49 (Some [(-10, 10); (-10, 10)]%Q)) hill [1; 0]%Q = Ok (e2, s) /\
  (s == lsum (map (fun v => v * v) d) + 1 * (1 * 1) * 49 /\ 0 < lsum (map (fun v => v * v) d))%Q.
Proof.
  set (c0 := ConstrainPsi2D (repeat 1%Q 49) (Some w49)). assert (O0 : is_ok c0 = true) by (vm_compute; reflexivity). set (cp := get ([], w49) c0).
  set (r1 := residual_psi cp hill [1; 0]%Q). assert (O1 : is_ok r1 = true) by (vm_compute; reflexivity).
  set (r2 := residual_adv spline_ridge (mkadv (repeat 1%Q 49) w49 (Some [(-10, 10); (-10, 10)]%Q)) hill [1; 0]%Q). assert (O2 : is_ok r2 = true) by (vm_compute; reflexivity).
  exists (fst (get (hill, []) r1)), (fst (get (hill, 0%Q) r2)), (snd (get (hill, []) r1)), (snd (get (hill, 0%Q) r2)), cp.
  split; [apply get_ok; exact O0|]. split; [rewrite <- surjective_pairing; apply (get_ok (hill, [])); exact O1|].
  split; [rewrite <- surjective_pairing; apply (get_ok (hill, 0%Q)); exact O2|]. split; vm_compute; reflexivity.
Qed.

(** ** C165 *)
(** With other weights ConstrainPsi2DAdvanced prefers other currents to those that give exactly the
    target: weights 2 at the lowest height and 1 elsewhere. *)
Definition wlow : list Q := map (fun k => if Nat.eqb (Nat.modulo k 7) 0 then 2%Q else 1%Q) (seq 0 49).
Definition target10 : list Q := values hill (get (fun _ _ => 0%Q) (total_psi (set_currents hill [10; 0]%Q))).
Definition lims10 : option (list (Q * Q)) := Some [(-10, 10); (-10, 10)]%Q.
Theorem C165_exact_refuted : exists (e e1 e2 : equilibrium Q unit unit) spline target w lims x y psi s1 s2 cp d,
  total_psi (set_currents e x) = Ok psi /\ target = values e psi /\ List.Forall (fun v => 0 < v)%Q w /\
  residual_adv spline (mkadv target (WArray w) (Some lims)) e x = Ok (e1, s1) /\
  residual_adv spline (mkadv target (WArray w) (Some lims)) e y = Ok (e2, s2) /\
  (s2 < s1)%Q /\
  ConstrainPsi2D target (Some (WArray w)) = Ok cp /\ rmap snd (residual_psi cp e x) = Ok d /\ List.Forall (fun v => v == 0)%Q d.
Proof.
  set (p0 := total_psi (set_currents hill [10; 0]%Q)). assert (O0 : is_ok p0 = true) by (vm_compute; reflexivity).
  set (r1 := residual_adv spline_ridge (mkadv target10 (WArray wlow) lims10) hill [10; 0]%Q). assert (O1 : is_ok r1 = true) by (vm_compute; reflexivity).
  set (r2 := residual_adv spline_ridge (mkadv target10 (WArray wlow) lims10) hill [10; -1 # 10]%Q). assert (O2 : is_ok r2 = true) by (vm_compute; reflexivity).
  set (c0 := ConstrainPsi2D target10 (Some (WArray wlow))). assert (O3 : is_ok c0 = true) by (vm_compute; reflexivity). set (cp := get ([], w49) c0).
  set (d := rmap snd (residual_psi cp hill [10; 0]%Q)). assert (O4 : is_ok d = true) by (vm_compute; reflexivity).
  exists hill, (fst (get (hill, 0%Q) r1)), (fst (get (hill, 0%Q) r2)), spline_ridge, target10, wlow, [(-10, 10); (-10, 10)]%Q, [10; 0]%Q, [10; -1 # 10]%Q,
    (get (fun _ _ => 0%Q) p0), (snd (get (hill, 0%Q) r1)), (snd (get (hill, 0%Q) r2)), cp, (get [] d).
  split; [apply get_ok; exact O0|].
  split; [unfold target10, p0; reflexivity|].
  split; [apply List.Forall_forall; intros v Hv; unfold wlow in Hv; apply in_map_iff in Hv as (k & <- & _); destruct (Nat.modulo k 7 =? 0)%nat; reflexivity|].
  split; [rewrite <- surjective_pairing; apply (get_ok (hill, 0%Q)); exact O1|]. split; [rewrite <- surjective_pairing; apply (get_ok (hill, 0%Q)); exact O2|].
  split; [vm_compute; reflexivity|]. split; [apply get_ok; exact O3|]. split; [apply get_ok; exact O4|].
  apply List.Forall_forall. intros v Hv. assert (B : forallb (fun v => Qeq_bool v 0) (get [] d) = true) by (vm_compute; reflexivity).
  rewrite forallb_forall in B. apply Qeq_bool_iff, B, Hv.
Qed.
Print Assumptions C165_exact_refuted.
