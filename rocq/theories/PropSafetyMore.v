(** C144: the profile of the safety factor. *)
From Coq Require Import List Arith ZArith QArith Bool Reals Lia Lra.
From Verif Require Import Py Num Numpy Coils Machine RombProofs SensorsProofs Critical Boundary Equilibrium EquilibriumProofs PropEquilibrium2
  GSSpec Safety SafetySpec SafetyProofs PropSafety.
Import ListNotations.
Local Open Scope R_scope.

(** C144 — without an argument the profile is returned on 1/(n+1), ..., n/(n+1): equally spaced,
    neither the axis nor the boundary. *)
Theorem C144_default_grid : forall (safety : list R -> result (list R)) interp1d n r,
  eq_q safety interp1d ANone n = Ok r ->
  exists l q, r = RPair l q /\ safety l = Ok q /\ List.length l = n /\
    (forall k, (k < n)%nat -> nth k l 0 = INR (S k) / INR (S n)) /\ Forall (fun x => 0 < x < 1) l.
Proof.
  intros safety interp1d n r E. cbn [eq_q] in E. set (l := linspace_open _ _ _) in E. destruct (safety l) as [q|] eqn:Es; [|discriminate].
  cbn [bind] in E. injection E as <-. exists l, q. split; [reflexivity|]. split; [exact Es|].
  assert (V : forall k, (k < n)%nat -> 1 / INR (n + 1) + INR k * ((1 - 1 / INR (n + 1)) / INR n) = INR (S k) / INR (S n)).
  { intros k Hk. assert (Hn : INR n <> 0) by (apply not_0_INR; lia). rewrite plus_INR, !S_INR. cbn [INR]. assert (0 <= INR n) by apply pos_INR. field. split; lra. }
  assert (Nn : forall k, (k < n)%nat -> nth k l 0 = INR (S k) / INR (S n)).
  { intros k Hk. rewrite <- (V k Hk). unfold l, linspace_open. set (F := fun k : nat => _). rewrite (nth_indep _ 0 (F 0%nat)) by (rewrite map_length, seq_length; exact Hk).
    rewrite map_nth, seq_nth by exact Hk. unfold F. cbn [Nat.add]. nR. rewrite <- !INR_IZR_INZ. reflexivity. }
  assert (L : List.length l = n) by (unfold l, linspace_open; rewrite map_length, seq_length; reflexivity).
  split; [exact L|]. split; [exact Nn|]. apply Forall_forall. intros x Hx. apply (In_nth _ _ 0) in Hx. destruct Hx as (k & Hk & <-). rewrite L in Hk. rewrite (Nn k Hk).
  assert (0 < INR (S k)) by (apply lt_0_INR; lia). assert (INR (S k) < INR (S n)) by (apply lt_INR; lia).
  split; [apply Rdiv_lt_0_compat; lra|]. apply Rmult_lt_reg_r with (INR (S n)); [lra|]. unfold Rdiv. rewrite Rmult_assoc, Rinv_l by lra. lra.
Qed.
Print Assumptions C144_default_grid.
Example C144_default_example : eq_q (fun l : list Q => Ok l) (fun _ _ _ => 0%Q) ANone 4 = Ok (RPair [1 # 5; 2 # 5; 3 # 5; 4 # 5] [1 # 5; 2 # 5; 3 # 5; 4 # 5])%Q.
Proof. vm_compute. reflexivity. Qed.

(** A value of [1/100, 99/100] at a node of the inner grid is the same whether or not other values
    are outside, as long as the interpolation passes through its nodes. *)
Theorem C144_inner_nodes : forall (safety : list R -> result (list R)) interp1d l n q k i,
  (forall xs ys j, (j < List.length xs)%nat -> List.length ys = List.length xs -> interp1d xs ys (nth j xs 0) = nth j ys 0) ->
  (exists x, In x l /\ (x < 1 / 100 \/ 99 / 100 < x)) -> (2 <= n)%nat ->
  safety (map (fun j => 1 / 100 + INR j * (98 / 100 / INR (n - 1))) (seq 0 n)) = Ok q -> List.length q = n ->
  (k < n)%nat -> (i < List.length l)%nat -> nth i l 0 = 1 / 100 + INR k * (98 / 100 / INR (n - 1)) -> (2 <= List.length l)%nat ->
  exists r, eq_q safety interp1d (AArray l) n = Ok (RArray r) /\ List.length r = List.length l /\ nth i r 0 = nth k q 0.
Proof.
  intros safety interp1d l n q k i Hint (x & Hx & Hout) Hn Hs Hq Hk Hi Hik Hl. cbn [eq_q]. unfold q_values.
  assert (V : existsb outside l = true).
  { apply existsb_exists. exists x. split; [exact Hx|]. unfold outside. nR. apply orb_true_iff. destruct Hout; [left|right]; apply R_ltb_true; lra. }
  rewrite V. assert (Hn1 : INR (n - 1) <> 0) by (apply not_0_INR; lia).
  assert (E : linspace_list (nlit 1 100) (nlit 99 100) n = map (fun j => 1 / 100 + INR j * (98 / 100 / INR (n - 1))) (seq 0 n)).
  { unfold linspace_list. apply map_ext_in. intros j Hj. apply in_seq in Hj. rewrite linspace_gridpt. unfold gridpt. nR. field. exact Hn1. }
  rewrite E. nR. rewrite Hs. cbn [bind]. set (inner := map (fun j => 1 / 100 + INR j * (98 / 100 / INR (n - 1))) (seq 0 n)) in *.
  assert (Ei : List.length inner = n) by (unfold inner; rewrite map_length, seq_length; reflexivity).
  exists (map (interp1d inner q) l). split; [|split].
  - destruct l as [|a [|b l]]; cbn in Hl; try lia. reflexivity.
  - apply map_length.
  - rewrite (nth_indep _ 0 (interp1d inner q 0)) by (rewrite map_length; exact Hi). rewrite map_nth, Hik.
    replace (1 / 100 + INR k * (98 / 100 / INR (n - 1))) with (nth k inner 0).
    + apply Hint; lia.
    + unfold inner. set (F := fun j : nat => _). rewrite (nth_indep _ 0 (F 0%nat)) by (rewrite map_length, seq_length; exact Hk). rewrite map_nth, seq_nth by exact Hk. reflexivity.
Qed.
Print Assumptions C144_inner_nodes.
(** linear interpolation between the two ends, as interp1d *)
Definition chord (xs ys : list Q) (x : Q) : Q :=
  match xs, ys with
  | [x0; x1], [y0; y1] => Qred (y0 + (y1 - y0) * (x - x0) / (x1 - x0))
  | _, _ => 0
  end%Q.
Example C144_inner_example : eq_q (fun l => Ok (map (fun x => Qred (1 + x)) l)) chord (AArray [0; 1 # 100; 1]%Q) 2 = Ok (RArray [1; 101 # 100; 2]%Q).
Proof. vm_compute. reflexivity. Qed.

(** The k-th value is the loop integral with f at the k-th normalised flux, around points that do
    not depend on f: one on each ray, where the flux normalised to axis and X-point was looked for. *)
Theorem C144_surfaces : forall (T : Type) (H : Num T) (P Ctl : Type) pi sin cos sqrt arctan2 G spline fpol (e : equilibrium T P Ctl) l ntheta q,
  find_safety pi sin cos sqrt arctan2 G spline fpol e l ntheta = Ok q ->
  exists psi o os x xs psifunc thetas surfs,
    total_psi e = Ok psi /\ eq_find_critical spline e (e_nx e) (e_ny e) psi = Ok (o :: os, x :: xs) /\
    eq_spline spline e (e_nx e) (e_ny e) (fun i j => ndiv (nsub (psi i j) (pPsi o)) (nsub (pPsi x) (pPsi o))) = Ok psifunc /\
    theta_grid pi arctan2 ntheta (pR o) (pZ o) x = Ok thetas /\ List.length surfs = List.length l /\
    (forall k, (k < List.length l)%nat -> surface sin cos (Rmin e) (Rmax e) (Zmin e) (Zmax e) (psifunc 0%nat 0%nat) (pR o) (pZ o) thetas (nth k l n0) = Ok (nth k surfs [])) /\
    forall f, find_safety pi sin cos sqrt arctan2 G spline f e l ntheta =
      Ok (map (fun k => q_integral pi sqrt (eqBr G spline e) (eqBz G spline e) (f (nth k l n0)) (nth k surfs [])) (seq 0 (List.length l))).
Proof.
  intros T H P Ctl pi sin cos sqrt arctan2 G spline fpol e l ntheta q E. unfold find_safety in *.
  destruct (total_psi e) as [psi|] eqn:E1; [|discriminate]. cbn [bind] in *.
  destruct (eq_find_critical spline e (e_nx e) (e_ny e) psi) as [[opt xpt]|] eqn:E2; [|discriminate]. cbn [bind] in *.
  destruct xpt as [|x xs]; [discriminate|]. destruct opt as [|o os]; [discriminate|].
  destruct (eq_spline spline e (e_nx e) (e_ny e) (safety_psinorm psi o x)) as [psifunc|] eqn:E3; [|discriminate]. cbn [bind] in *.
  destruct (theta_grid pi arctan2 ntheta (pR o) (pZ o) x) as [thetas|] eqn:E4; [|discriminate]. cbn [bind] in *.
  set (S1 := surface _ _ _ _ _ _ _ _ _ _) in *. destruct (mapM S1 l) as [surfs|] eqn:E5; [|discriminate]. cbn [bind] in *.
  assert (M : List.length surfs = List.length l /\ forall k, (k < List.length l)%nat -> S1 (nth k l n0) = Ok (nth k surfs [])).
  { revert E5. clear. revert surfs. induction l as [|a l IH]; intros surfs H0; cbn [mapM] in H0.
    - injection H0 as <-. split; [reflexivity|]. intros k Hk. cbn in Hk. lia.
    - destruct (S1 a) as [b|] eqn:Ea; [|discriminate]. cbn [bind] in H0. destruct (mapM S1 l) as [bs|]; [|discriminate]. cbn [bind] in H0. injection H0 as <-.
      destruct (IH bs eq_refl) as (L & N). split; [cbn; rewrite L; reflexivity|]. intros [|k] Hk; [exact Ea|]. cbn [nth]. apply N. cbn in Hk. lia. }
  destruct M as (L & N). exists psi, o, os, x, xs, psifunc, thetas, surfs. split; [reflexivity|]. split; [exact E2|]. split; [exact E3|]. split; [exact E4|]. split; [exact L|]. split; [exact N|].
  intros f. f_equal. clear -L. revert surfs L. induction l as [|a l IH]; intros [|b surfs] L; cbn in L; try discriminate; [reflexivity|].
  cbn [combine map List.length seq fst snd nth]. f_equal. rewrite <- seq_shift, map_map. cbn [nth]. apply (IH surfs). congruence.
Qed.
Print Assumptions C144_surfaces.
(** so f = 0 at one surface makes q = 0 there, whatever f is elsewhere *)
Example C144_surfaces_example :
  match find_safety 3 (fun _ => 1) (fun t => Qred (1 - t / 2)) (fun x => x) (fun _ _ => 1) (fun _ _ _ _ _ => 0) spline_ridge (fun x => Qred (x - (1 # 2))) ridge [1 # 16; 1 # 2]%Q 3 with
  | Ok [q1; q2] => Qeq_bool q1 0 = false /\ Qeq_bool q2 0 = true
  | _ => False
  end%Q.
Proof. vm_compute. split; reflexivity. Qed.
