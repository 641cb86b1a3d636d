(** C160: what the flux fits of control.py minimise, in terms of the flux on the grid. *)
From Coq Require Import List Arith ZArith QArith Bool Lia Reals Lra.
From Verif Require Import Py Num Numpy Coils Machine Critical Boundary Equilibrium Control ControlSpec ControlProofs Fitting FittingSpec FittingProofs PropEquilibrium2 PropSafety PropFitting.
Import ListNotations.
Local Open Scope R_scope.

(** [l] lists the values of [a] on a grid of nx by ny points, the second index running fastest. *)
Definition on_grid {T : Type} (nx ny : nat) (a : nat -> nat -> T) (l : list T) : Prop :=
  length l = (nx * ny)%nat /\ forall i j, (i < nx)%nat -> (j < ny)%nat -> nth_error l (i * ny + j) = Some (a i j).
(** Sum over the grid, and the mean with weights [w]. *)
Definition grid_sum (nx ny : nat) (a : nat -> nat -> R) : R := nsum nx (fun i => nsum ny (a i)).
Definition grid_mean (nx ny : nat) (a w : nat -> nat -> R) : R :=
  grid_sum nx ny (fun i j => a i j * w i j) / grid_sum nx ny w.

Lemma nsum_grid nx ny (f : nat -> R) : nsum (nx * ny) f = nsum nx (fun i => nsum ny (fun j => f (i * ny + j)%nat)).
Proof.
  induction nx as [|nx IH]; [reflexivity|]. replace (S nx * ny)%nat with (nx * ny + ny)%nat by lia.
  rewrite nsum_app, IH, nsum_S. reflexivity.
Qed.
Lemma grid_total nx ny a l : on_grid nx ny a l -> lsum l = grid_sum nx ny a.
Proof.
  intros (L & N). rewrite <- (map_id l) at 1. rewrite (lsum_nsum 0), L, nsum_grid. unfold grid_sum.
  apply nsum_ext. intros i Hi. apply nsum_ext. intros j Hj. apply nth_error_nth, N; assumption.
Qed.
Lemma grid_map {T U} nx ny (a : nat -> nat -> T) l (f : T -> U) : on_grid nx ny a l -> on_grid nx ny (fun i j => f (a i j)) (map f l).
Proof.
  intros (L & N). split; [rewrite map_length; exact L|]. intros i j Hi Hj. rewrite nth_error_map, (N i j Hi Hj). reflexivity.
Qed.
Lemma grid_map2 {T U V} nx ny (a : nat -> nat -> T) (b : nat -> nat -> U) l m (f : T -> U -> V) : on_grid nx ny a l -> on_grid nx ny b m ->
  on_grid nx ny (fun i j => f (a i j) (b i j)) (map (fun p => f (fst p) (snd p)) (combine l m)).
Proof.
  intros (L & N) (L' & N'). split; [rewrite map_length, combine_length; lia|]. intros i j Hi Hj.
  assert (C : nth_error (combine l m) (i * ny + j) = Some (a i j, b i j)); [|rewrite nth_error_map, C; reflexivity].
  assert (A := N i j Hi Hj). assert (B := N' i j Hi Hj). revert A B. generalize (i * ny + j)%nat (a i j) (b i j). clear. revert m.
  induction l as [|x l IH]; intros [|y m] [|k] u v A B; cbn in *; try discriminate; [congruence|apply IH; assumption].
Qed.
Lemma values_grid {T} `{Num T} {P Ctl} (e : equilibrium T P Ctl) a : on_grid (e_nx e) (e_ny e) a (values e a).
Proof.
  unfold values, on_grid. generalize (e_nx e) (e_ny e). clear. intros nx ny.
  assert (G : forall n s, length (flat_map (fun i => map (a i) (seq 0 ny)) (seq s n)) = (n * ny)%nat /\
    forall i j, (i < n)%nat -> (j < ny)%nat -> nth_error (flat_map (fun i => map (a i) (seq 0 ny)) (seq s n)) (i * ny + j) = Some (a (s + i)%nat j)).
  { induction n as [|n IH]; intros s; [split; [reflexivity|intros; lia]|]. cbn [seq flat_map]. destruct (IH (S s)) as (L & N).
    assert (Lm : length (map (a s) (seq 0 ny)) = ny) by (rewrite map_length, seq_length; reflexivity).
    split; [rewrite app_length, L, Lm; lia|]. intros [|i] j Hi Hj.
    - cbn [Nat.mul Nat.add]. rewrite nth_error_app1 by lia. rewrite nth_error_map. rewrite (nth_error_nth' _ 0%nat) by (rewrite seq_length; exact Hj).
      rewrite seq_nth by exact Hj. cbn. rewrite Nat.add_0_r. reflexivity.
    - rewrite nth_error_app2 by (rewrite Lm; nia). rewrite Lm. replace (S i * ny + j - ny)%nat with (i * ny + j)%nat by lia. rewrite N by lia. do 2 f_equal. lia. }
  exact (G nx 0%nat).
Qed.
Lemma average_grid nx ny a w l m v : on_grid nx ny a l -> on_grid nx ny w m -> average l (WArray m) = Ok v -> v = grid_mean nx ny a w.
Proof.
  intros A W E. unfold average in E. rewrite (proj1 A), (proj1 W), Nat.eqb_refl in E. destruct (neqb (lsum m) n0); [discriminate|]. injection E as <-.
  nR. rewrite (grid_total nx ny (fun i j => a i j * w i j)) by (apply grid_map2; assumption). rewrite (grid_total nx ny w) by exact W. reflexivity.
Qed.
Lemma sub_grid {T} `{Num T} nx ny a b l m d : on_grid nx ny a l -> on_grid nx ny b m -> arr_sub l m = Ok d -> on_grid nx ny (fun i j => nsub (a i j) (b i j)) d.
Proof. intros A B E. unfold arr_sub in E. destruct (_ =? _)%nat; [|discriminate]. injection E as <-. apply (grid_map2 nx ny a b l m nsub); assumption. Qed.
Lemma weigh_grid {T} `{Num T} nx ny a w l m d : on_grid nx ny a l -> on_grid nx ny w m -> weigh l (WArray m) = Ok d -> on_grid nx ny (fun i j => nmul (a i j) (w i j)) d.
Proof. intros A B E. unfold weigh in E. destruct (_ =? _)%nat; [|discriminate]. injection E as <-. apply (grid_map2 nx ny a w l m nmul); assumption. Qed.
Lemma on_grid_ext {T} nx ny (a b : nat -> nat -> T) l : (forall i j, (i < nx)%nat -> (j < ny)%nat -> a i j = b i j) -> on_grid nx ny a l -> on_grid nx ny b l.
Proof. intros H (L & N). split; [exact L|]. intros i j Hi Hj. rewrite <- H by assumption. apply N; assumption. Qed.

(** ConstrainPsi2D: at every grid point the weight times the difference between flux and target, each
    without its weighted mean. *)
Theorem C160_flux : forall (P Ctl : Type) (e e' : equilibrium R P Ctl) (target w : nat -> nat -> R) tl wl cp x d,
  on_grid (e_nx e) (e_ny e) target tl -> on_grid (e_nx e) (e_ny e) w wl ->
  ConstrainPsi2D tl (Some (WArray wl)) = Ok cp -> residual_psi cp e x = Ok (e', d) ->
  exists psi, total_psi (set_currents e x) = Ok psi /\ e' = set_currents e x /\
    let mean a := grid_mean (e_nx e) (e_ny e) a w in
    on_grid (e_nx e) (e_ny e) (fun i j => ((psi i j - mean psi) - (target i j - mean target)) * w i j) d.
Proof.
  intros P Ctl e e' target w tl wl cp x d HT HW EC E. unfold ConstrainPsi2D in EC. apply bind_ok in EC as (at_ & EA & EC).
  assert (Eat := average_grid _ _ _ _ _ _ _ HT HW EA). injection EC as <-. unfold residual_psi, trial_psi in E.
  apply bind_ok in E as ((e1 & psi) & E1 & E). apply bind_ok in E1 as (psi' & Ep & E1). injection E1 as <- <-.
  apply bind_ok in E as (dd & Ed & E). injection E as <- <-. exists psi'. split; [exact Ep|]. split; [reflexivity|].
  unfold psi_difference in Ed. cbn [fst snd] in Ed. apply bind_ok in Ed as (av & Eav & Ed). apply bind_ok in Ed as (d1 & Ed1 & Ed).
  assert (HP := values_grid (set_currents e x) psi'). change (e_nx (set_currents e x)) with (e_nx e) in HP. change (e_ny (set_currents e x)) with (e_ny e) in HP.
  assert (Ev := average_grid _ _ _ _ _ _ _ HP HW Eav). cbv zeta.
  assert (H1 := sub_grid _ _ _ _ _ _ _ (grid_map _ _ _ _ (fun p => p - av) HP) (grid_map _ _ _ _ (fun t => t - at_) HT) Ed1).
  assert (H2 := weigh_grid _ _ _ _ _ _ _ H1 HW Ed). cbv beta in H2. rewrite Ev, Eat in H2. exact H2.
Qed.
Print Assumptions C160_flux.

(** ConstrainPsiNorm2D: the weight times the difference between the flux normalised to the axis and boundary
    found for the trial currents and the target. *)
Theorem C160_normalised : forall (T : Type) (N : Num T) (P Ctl : Type) spline (e e' : equilibrium T P Ctl) (target w : nat -> nat -> T) tl wl x d,
  on_grid (e_nx e) (e_ny e) target tl -> on_grid (e_nx e) (e_ny e) w wl ->
  residual_norm spline tl (WArray wl) e x = Ok (e', d) ->
  exists psi b pa pb, total_psi (set_currents e x) = Ok psi /\
    update_boundary spline (set_currents e x) (e_nx e) (e_ny e) psi = Ok b /\ e' = with_bs (set_currents e x) b /\
    psi_axis b = Some pa /\ psi_bndry b = Some (Some pb) /\
    on_grid (e_nx e) (e_ny e) (fun i j => ((psi i j - pa) / (pb - pa) - target i j) * w i j)%num d.
Proof.
  intros T N P Ctl spline e e' target w tl wl x d HT HW E. unfold residual_norm, trial_psi, update_trial, trial_bounds in E.
  apply bind_ok in E as ((e1 & psi) & E1 & E). apply bind_ok in E1 as (psi' & Ep & E1). injection E1 as <- <-.
  apply bind_ok in E as (e2 & E2 & E). apply bind_ok in E2 as (b & Eb & E2). injection E2 as <-.
  apply bind_ok in E as ((pa & pb) & E3 & E). apply bind_ok in E as (dd & Ed & E). injection E as <- <-.
  change (bs (with_bs (set_currents e x) b)) with b in E3.
  destruct (psi_axis b) as [pa'|] eqn:Ea; [|discriminate]. destruct (psi_bndry b) as [[pb'|]|] eqn:Epb; try discriminate. injection E3 as <- <-.
  exists psi', b, pa', pb'. split; [exact Ep|]. split; [exact Eb|]. split; [reflexivity|]. split; [exact Ea|]. split; [exact Epb|].
  unfold psinorm_difference in Ed. apply bind_ok in Ed as (d1 & Ed1 & Ed).
  assert (HP := values_grid (with_bs (set_currents e x) b) psi'). change (e_nx (with_bs (set_currents e x) b)) with (e_nx e) in HP. change (e_ny (with_bs (set_currents e x) b)) with (e_ny e) in HP.
  assert (H1 := sub_grid _ _ _ _ _ _ _ (grid_map _ _ _ _ (fun p => (p - pa') / (pb' - pa'))%num HP) HT Ed1).
  exact (weigh_grid _ _ _ _ _ _ _ H1 HW Ed).
Qed.
Print Assumptions C160_normalised.
(** on the equilibrium [hill] of C146, target 0 and the weights there *)
Example C160_normalised_example : on_grid 7 7 (fun i j => nth (i * 7 + j) zeros49 0%Q) zeros49 /\ is_ok (residual_norm spline_ridge zeros49 w49 hill [1; 0]%Q) = true.
Proof.
  split; [split; [reflexivity|]|vm_compute; reflexivity]. intros i j Hi Hj. apply nth_error_nth'. change (length zeros49) with 49%nat. lia.
Qed.

(** The Advanced variants minimise the sum of the squares; that of the flux itself takes its mean away, but not that of the target. *)
Theorem C160_advanced : forall (P Ctl : Type) spline (e e1 e2 : equilibrium R P Ctl) (target w : nat -> nat -> R) tl wl lims x d1 d2,
  on_grid (e_nx e) (e_ny e) target tl -> on_grid (e_nx e) (e_ny e) w wl ->
  let a := mkadv tl (WArray wl) lims in
  (residual_adv spline a e x = Ok (e1, d1) -> exists psi, total_psi (set_currents e x) = Ok psi /\
     d1 = grid_sum (e_nx e) (e_ny e) (fun i j => ((psi i j - grid_mean (e_nx e) (e_ny e) psi w - target i j) * w i j) ^ 2)) /\
  (residual_advnorm spline a e x = Ok (e2, d2) -> exists psi b pa pb, total_psi (set_currents e x) = Ok psi /\
     update_boundary spline (set_currents e x) (e_nx e) (e_ny e) psi = Ok b /\ psi_axis b = Some pa /\ psi_bndry b = Some (Some pb) /\
     d2 = grid_sum (e_nx e) (e_ny e) (fun i j => (((psi i j - pa) / (pb - pa) - target i j) * w i j) ^ 2)).
Proof.
  intros P Ctl spline e e1 e2 target w tl wl lims x d1 d2 HT HW a.
  assert (SQ : forall b l, on_grid (e_nx e) (e_ny e) b l -> lsum (map nsqr l) = grid_sum (e_nx e) (e_ny e) (fun i j => b i j ^ 2)).
  { intros b l Hb. apply grid_total. apply (on_grid_ext _ _ (fun i j => nsqr (b i j))); [intros; unfold nsqr; nR; ring|]. apply grid_map, Hb. }
  split; intros E.
  - unfold residual_adv, trial_psi, update_trial in E.
    apply bind_ok in E as ((e3 & psi) & E1 & E). apply bind_ok in E1 as (psi' & Ep & E1). injection E1 as <- <-.
    apply bind_ok in E as (e4 & E2 & E). apply bind_ok in E2 as (b & Eb & E2). injection E2 as <-.
    apply bind_ok in E as (dd & Ed & E). injection E as <- <-. exists psi'. split; [exact Ep|].
    unfold adv_difference in Ed. cbn [a adv_weights adv_target] in Ed. apply bind_ok in Ed as (av & Eav & Ed). apply bind_ok in Ed as (d & Ed1 & Ed). apply bind_ok in Ed as (dw & Ed2 & Ed).
    injection Ed as <-.
    assert (HP := values_grid (with_bs (set_currents e x) b) psi'). change (e_nx (with_bs (set_currents e x) b)) with (e_nx e) in HP. change (e_ny (with_bs (set_currents e x) b)) with (e_ny e) in HP.
    assert (Ev := average_grid _ _ _ _ _ _ _ HP HW Eav). rewrite <- Ev. apply (SQ (fun i j => (psi' i j - av - target i j) * w i j)).
    exact (weigh_grid _ _ _ _ _ _ _ (sub_grid _ _ _ _ _ _ _ (grid_map _ _ _ _ (fun p => p - av) HP) HT Ed1) HW Ed2).
  - unfold residual_advnorm in E. apply bind_ok in E as ((e3 & psi) & E1 & E). apply bind_ok in E as (e4 & E2 & E). apply bind_ok in E as ((pa & pb) & E3 & E). apply bind_ok in E as (dd & Ed & E).
    injection E as <- <-. unfold advnorm_difference in Ed. cbn [a adv_weights adv_target] in Ed. apply bind_ok in Ed as (dw & Ed1 & Ed). injection Ed as <-.
    assert (EN : residual_norm spline tl (WArray wl) e x = Ok (e4, dw)).
    { unfold residual_norm. rewrite E1. cbn [bind]. rewrite E2. cbn [bind]. rewrite E3. cbn [bind]. rewrite Ed1. reflexivity. }
    destruct (C160_normalised _ _ _ _ _ _ _ _ _ _ _ _ _ HT HW EN) as (psi' & b & pa' & pb' & Ep & Eb & _ & Ea & Epb & HG).
    exists psi', b, pa', pb'. repeat (split; [assumption|]). apply SQ, HG.
Qed.
Print Assumptions C160_advanced.
(** A grid of 2 by 2 points, no coils, flux i + 10 j, target 0 except for 4 at (1, 0), weights 1 and 3. *)
Definition small : equilibrium R unit unit :=
  mkeq 2 2 1 2 (-1) 1 (mktok [] true []) BFixed 2 (SUser (fun _ _ => Raise TypeError)) true (fun i j => INR i + 10 * INR j) (fun _ _ => []) 0 None
    (mkb None (Some None) None None None false None) (Some tt) None.
Example C160_example : exists cp d e',
  on_grid 2 2 (fun i j => if ((i =? 1) && (j =? 0))%nat then 4 else 0) [0; 0; 4; 0] /\ on_grid 2 2 (fun i j => if (j =? 0)%nat then 1 else 3) [1; 3; 1; 3] /\
  ConstrainPsi2D [0; 0; 4; 0] (Some (WArray [1; 3; 1; 3])) = Ok cp /\ residual_psi cp small [] = Ok (e', d) /\
  nth_error d 2 = Some ((1 - 8) - (4 - 1 / 2)) /\ nth_error d 3 = Some (((11 - 8) - (0 - 1 / 2)) * 3).
Proof.
  assert (HT : on_grid 2 2 (fun i j => if ((i =? 1) && (j =? 0))%nat then 4 else 0) [0; 0; 4; 0]).
  { split; [reflexivity|]. intros [|[|i]] [|[|j]] Hi Hj; try lia; reflexivity. }
  assert (HW : on_grid 2 2 (fun i j => if (j =? 0)%nat then 1 else 3) [1; 3; 1; 3]).
  { split; [reflexivity|]. intros [|[|i]] [|[|j]] Hi Hj; try lia; reflexivity. }
  assert (L8 : lsum [1; 3; 1; 3] = 8) by (cbn; nR; lra).
  assert (AV : forall a, length a = 4%nat -> average a (WArray [1; 3; 1; 3]) = Ok (wmean a [1; 3; 1; 3])) by (intros a Ha; apply average_eq; [symmetry; exact Ha|rewrite L8; lra]).
  assert (EC : exists cp, ConstrainPsi2D [0; 0; 4; 0] (Some (WArray [1; 3; 1; 3])) = Ok cp).
  { unfold ConstrainPsi2D. rewrite AV by reflexivity. cbn [bind]. eexists. reflexivity. }
  destruct EC as (cp & EC).
  assert (ER : exists p, residual_psi cp small [] = Ok p).
  { unfold ConstrainPsi2D in EC. rewrite AV in EC by reflexivity. injection EC as <-. unfold residual_psi, trial_psi.

    destruct (total_psi (set_currents small [])) as [psi|] eqn:Et; [|vm_compute in Et; discriminate]. cbn [bind].
    assert (LV : length (values (set_currents small []) psi) = 4%nat) by reflexivity.
    destruct (values (set_currents small []) psi) as [|a [|b [|c [|f [|]]]]]; try discriminate.
    unfold psi_difference. cbn [fst snd]. rewrite AV by reflexivity. cbn [bind]. generalize (wmean [a; b; c; f] [1; 3; 1; 3]). intros m. eexists. reflexivity. }
  destruct ER as ((e' & d) & ER). exists cp, d, e'. split; [exact HT|]. split; [exact HW|]. split; [exact EC|]. split; [exact ER|].
  destruct (C160_flux _ _ small e' _ _ _ _ _ _ _ HT HW EC ER) as (psi & Ep & _ & (_ & HN)).
  assert (Hpsi : forall i j, psi i j = INR i + 10 * INR j).
  { intros i j. unfold total_psi in Ep. cbn in Ep. injection Ep as <-. cbn. nR. ring. }
  assert (M1 : grid_mean 2 2 psi (fun i j => if (j =? 0)%nat then 1 else 3) = 8).
  { unfold grid_mean, grid_sum. rewrite !nsum_S, !nsum_O, !Hpsi. cbn. lra. }
  assert (M2 : grid_mean 2 2 (fun i j => if ((i =? 1) && (j =? 0))%nat then 4 else 0) (fun i j => if (j =? 0)%nat then 1 else 3) = 1 / 2).
  { unfold grid_mean, grid_sum. rewrite !nsum_S, !nsum_O. cbn. lra. }
  split.
  - assert (E := HN 1%nat 0%nat ltac:(cbn; lia) ltac:(cbn; lia)). change (1 * e_ny small + 0)%nat with 2%nat in E. rewrite E.
    change (e_nx small) with 2%nat. change (e_ny small) with 2%nat. rewrite M1, M2, Hpsi. f_equal. cbn. lra.
  - assert (E := HN 1%nat 1%nat ltac:(cbn; lia) ltac:(cbn; lia)). change (1 * e_ny small + 1)%nat with 3%nat in E. rewrite E.
    change (e_nx small) with 2%nat. change (e_ny small) with 2%nat. rewrite M1, M2, Hpsi. f_equal. cbn. lra.
Qed.
