(** C104-C107: the safety factor and the toroidal flux. *)
From Coq Require Import String List Arith ZArith QArith Bool Reals Lia Lra.
From Verif Require Import Py Num Numpy Coils Machine RombProofs SensorsProofs Critical Boundary Equilibrium EquilibriumProofs PropEquilibrium2
  Safety SafetySpec SafetyProofs.
Import ListNotations.
Local Open Scope R_scope.

(** C104 — the loop integral.  It is linear in f, ... *)
Theorem C104_linear : forall Br Bz f g a b l,
  q_integral PI R_sqrt.sqrt Br Bz (a * f + b * g) l = a * q_integral PI R_sqrt.sqrt Br Bz f l + b * q_integral PI R_sqrt.sqrt Br Bz g l.
Proof.
  intros. rewrite !q_cyc. unfold Rdiv at 1 2 3. rewrite <- !Rmult_assoc, <- !nsum_scal. rewrite <- Rmult_plus_distr_r. f_equal. rewrite <- nsum_add. apply nsum_ext. intros j _.
  unfold hq, weightq. unfold Rdiv. ring.
Qed.
Print Assumptions C104_linear.
(** ... has the sign of f, ... *)
Theorem C104_sign : forall Br Bz f l, 0 <= f -> 0 <= q_integral PI R_sqrt.sqrt Br Bz f l.
Proof.
  intros Br Bz f l Hf. rewrite q_cyc. apply Rmult_le_pos; [|left; apply Rinv_0_lt_compat; assert (H := PI_RGT_0); lra].
  apply nsum_nonneg. intros j _. unfold hq. apply Rmult_le_pos; [|assert (H := dist_nonneg (cyc l (j + length l - 1)) (cyc l (j + 1))); lra].
  unfold weightq, Rdiv. apply Rmult_le_pos; [exact Hf|]. set (d := fst _ * _ * _).
  assert (Hd : 0 <= d) by (apply Rmult_le_pos; [apply Rle_0_sqr|apply sqrt_pos]).
  destruct Hd as [Hd|Hd]; [left; apply Rinv_0_lt_compat; exact Hd|rewrite <- Hd, Rinv_0; lra].
Qed.
Print Assumptions C104_sign.
(** ... and does not depend on the point the loop starts from or on its direction. *)
Theorem C104_start : forall Br Bz f l1 l2,
  q_integral PI R_sqrt.sqrt Br Bz f (l2 ++ l1) = q_integral PI R_sqrt.sqrt Br Bz f (l1 ++ l2).
Proof. intros. apply q_rotate. Qed.
Print Assumptions C104_start.
Theorem C104_direction : forall Br Bz f l,
  q_integral PI R_sqrt.sqrt Br Bz f (rev l) = q_integral PI R_sqrt.sqrt Br Bz f l.
Proof. intros. apply q_reverse. Qed.
Print Assumptions C104_direction.
(** The line elements never add up to more than the length of the polygon. *)
Theorem C104_length : forall l, nsum (List.length l) (dl R_sqrt.sqrt l) <= polygon_length l.
Proof. intros. apply dl_sum. Qed.
Print Assumptions C104_length.
(** Points on a circle of radius a on which f / (R^2 Bpol) is c: the value, and its distance
    from the integral (1 / 2 pi) (c 2 pi a). *)
Theorem C104_circle : forall Br Bz f n r0 z0 a t0 c, (0 < n)%nat -> 0 <= a ->
  (forall r z, In (r, z) (circle n r0 z0 a t0) -> f / (r * r * R_sqrt.sqrt (Br r z ^ 2 + Bz r z ^ 2)) = c) ->
  q_integral PI R_sqrt.sqrt Br Bz f (circle n r0 z0 a t0) = c * (INR n * (a * Rabs (sin (2 * PI / INR n)))) / (2 * PI).
Proof.
  intros Br Bz f n r0 z0 a t0 c Hn Ha Hc. unfold q_integral. nR. rewrite circle_length. f_equal.
  rewrite (nsum_ext n _ (fun _ => c * (a * Rabs (sin (2 * PI / INR n))))).
  - rewrite nsum_const. nR. ring.
  - intros j Hj. rewrite circle_dl by assumption. assert (Hin : In (nth j (circle n r0 z0 a t0) (0, 0)) (circle n r0 z0 a t0)) by (apply nth_In; rewrite circle_length; exact Hj).
    destruct (nth j (circle n r0 z0 a t0) (0, 0)) as [r z]. f_equal. rewrite <- (Hc r z Hin). do 4 f_equal; ring.
Qed.
Print Assumptions C104_circle.
Theorem C104_circle_error : forall Br Bz f n r0 z0 a t0 c, (2 <= n)%nat -> 0 <= a ->
  (forall r z, In (r, z) (circle n r0 z0 a t0) -> f / (r * r * R_sqrt.sqrt (Br r z ^ 2 + Bz r z ^ 2)) = c) ->
  Rabs (q_integral PI R_sqrt.sqrt Br Bz f (circle n r0 z0 a t0) - c * a) <= Rabs c * a * (2 * PI / INR n) ^ 2 / 6.
Proof.
  intros Br Bz f n r0 z0 a t0 c Hn Ha Hc. rewrite (C104_circle Br Bz f n r0 z0 a t0 c ltac:(lia) Ha Hc).
  assert (Hn' : 2 <= INR n) by (change 2 with (INR 2); apply le_INR; exact Hn). assert (Hpi := PI_RGT_0). assert (HP4 := PI_4).
  set (h := 2 * PI / INR n). assert (Hh : 0 < h) by (apply Rmult_lt_0_compat; [lra|apply Rinv_0_lt_compat; lra]).
  assert (Hh2 : h <= PI). { unfold h. apply (Rmult_le_reg_r (INR n)); [lra|]. unfold Rdiv. rewrite Rmult_assoc, Rinv_l, Rmult_1_r by lra. assert (PI * 2 <= PI * INR n) by (apply Rmult_le_compat_l; lra). lra. }
  rewrite (Rabs_pos_eq (sin h)) by (apply sin_ge_0; lra).
  replace (c * (INR n * (a * sin h)) / (2 * PI) - c * a) with (c * a * ((sin h - h) / h)) by (unfold h; field; split; lra).
  rewrite Rabs_mult, Rabs_mult, (Rabs_pos_eq a) by exact Ha. replace (Rabs c * a * h ^ 2 / 6) with (Rabs c * a * (h ^ 2 * / 6)) by field.
  apply Rmult_le_compat_l; [apply Rmult_le_pos; [apply Rabs_pos|exact Ha]|].
  assert (L := sin_third h ltac:(lra)). assert (U := sin_lt_x h Hh).
  assert (Hih : 0 < / h) by (apply Rinv_0_lt_compat; exact Hh).
  rewrite Rabs_left1.
  - apply (Rmult_le_reg_r h); [exact Hh|]. replace (- ((sin h - h) / h) * h) with (h - sin h) by (field; lra).
    replace (h ^ 2 * / 6 * h) with (h ^ 3 / 6) by (field). lra.
  - unfold Rdiv. assert (0 <= (h - sin h) * / h) by (apply Rmult_le_pos; lra). lra.
Qed.
Print Assumptions C104_circle_error.
(** f = 2 with B_pol = 1/R^2 in the Z direction: q tends to 2 a *)
Example C104_example : forall r z, In (r, z) (circle 128 2 0 1 0) -> 2 / (r * r * R_sqrt.sqrt (0 ^ 2 + (/ (r * r)) ^ 2)) = 2.
Proof.
  intros r z Hin. unfold circle in Hin. apply in_map_iff in Hin. destruct Hin as (k & E & _).
  injection E as <- _. assert (B := SIN_bound (0 + 2 * PI * INR k / INR 128)). set (s := sin _) in *. clearbody s.
  assert (Hr : 0 < 2 + 1 * s) by lra. set (r := 2 + 1 * s) in *. clearbody r. assert (Hi : 0 < / (r * r)) by (apply Rinv_0_lt_compat; apply Rmult_lt_0_compat; lra).
  replace (0 ^ 2 + (/ (r * r)) ^ 2) with (/ (r * r) * / (r * r)) by ring. rewrite sqrt_square by lra. rewrite Rinv_r; [lra|]. assert (0 < r * r) by (apply Rmult_lt_0_compat; lra). lra.
Qed.

(** C105 — the profile at given surfaces.  A Python list, which the documentation gives as an
    example, always raises TypeError; *)
Theorem C105_list_always_raises : forall (safety : list R -> result (list R)) interp1d l npsi,
  eq_q safety interp1d (AList l) npsi = Raise TypeError.
Proof. reflexivity. Qed.
Print Assumptions C105_list_always_raises.
Theorem C105_list_refuted : exists (l : list R) (safety : list R -> result (list R)) interp1d npsi, l <> [] /\ Forall (fun x => 1 / 100 <= x <= 99 / 100) l /\
  is_ok (safety l) = true /\ is_ok (eq_q safety interp1d (AArray l) npsi) = true /\ is_ok (eq_q safety interp1d (AList l) npsi) = false.
Proof.
  exists [2 / 10; 5 / 10; 9 / 10], (fun l => Ok l), (fun _ _ _ => 0), 100%nat. split; [discriminate|]. split; [repeat constructor; lra|]. split; [reflexivity|].
  split; [|reflexivity]. unfold eq_q, q_values. destruct (existsb _ _); reflexivity.
Qed.
Print Assumptions C105_list_refuted.
(** numbers and arrays inside [0.01, 0.99] give what find_safety gives. *)
Theorem C105_inside : forall (safety : list R -> result (list R)) interp1d l npsi, Forall (fun x => 1 / 100 <= x <= 99 / 100) l ->
  (forall q, safety l = Ok q -> List.length q = List.length l) ->
  match safety l with
  | Ok q => eq_q safety interp1d (AArray l) npsi = Ok (match l with [_] => RScalar (nth 0 q 0) | _ => RArray q end) /\
            (forall x, l = [x] -> eq_q safety interp1d (AScalar x) npsi = Ok (RScalar (nth 0 q 0)))
  | Raise e => eq_q safety interp1d (AArray l) npsi = Raise e /\ (forall x, l = [x] -> eq_q safety interp1d (AScalar x) npsi = Raise e)
  end.
Proof.
  intros safety interp1d l npsi Hl Hlen.
  assert (V : existsb outside l = false).
  { apply not_true_iff_false. intros H. apply existsb_exists in H. destruct H as (x & Hx & Ho). rewrite Forall_forall in Hl. specialize (Hl x Hx).
    unfold outside in Ho. nR. apply orb_true_iff in Ho. destruct Ho as [Ho|Ho]; apply R_ltb_true in Ho; lra. }
  assert (E : eq_q safety interp1d (AArray l) npsi = bind (safety l) (fun r => Ok (to_scalar r))) by (cbn [eq_q]; unfold q_values; rewrite V; reflexivity).
  assert (E1 : forall x, l = [x] -> eq_q safety interp1d (AScalar x) npsi = eq_q safety interp1d (AArray l) npsi) by (intros x ->; reflexivity).
  destruct (safety l) as [q|e].
  - specialize (Hlen q eq_refl). assert (F : to_scalar q = match l with [_] => RScalar (nth 0 q 0) | _ => RArray q end).
    { destruct l as [|a [|b l]]; destruct q as [|c [|d q]]; try discriminate; reflexivity. }
    rewrite E. cbn [bind]. rewrite F. split; [reflexivity|]. intros x Hx. rewrite (E1 x Hx), E. cbn [bind]. rewrite F, Hx. reflexivity.
  - rewrite E. split; [reflexivity|]. intros x Hx. rewrite (E1 x Hx), E. reflexivity.
Qed.
Print Assumptions C105_inside.
(** find_safety treats the surfaces independently: the profile on several surfaces is the list
    of the values on each. *)
Theorem C105_pointwise : forall (P Ctl : Type) pi sin cos sqrt arctan2 G spline fpol (e : equilibrium R P Ctl) ntheta l q,
  find_safety pi sin cos sqrt arctan2 G spline fpol e l ntheta = Ok q ->
  List.length q = List.length l /\
  forall k, (k < List.length l)%nat -> find_safety pi sin cos sqrt arctan2 G spline fpol e [nth k l 0] ntheta = Ok [nth k q 0].
Proof.
  intros P Ctl pi sin cos sqrt arctan2 G spline fpol e ntheta l q E. unfold find_safety in *. inv_bind E. inv_bind E. destruct v0 as [opt xpt].
  destruct xpt as [|x xs]; [discriminate|]. destruct opt as [|o os]; [discriminate|]. inv_bind E. inv_bind E. inv_bind E.
  set (S1 := surface _ _ _ _ _ _ _ _ _ _) in *. rename v2 into surfs.
  assert (M : List.length surfs = List.length l /\ forall k, (k < List.length l)%nat -> S1 (nth k l 0) = Ok (nth k surfs [])).
  { match goal with H : mapM S1 l = Ok surfs |- _ => revert H end. clear. revert surfs. induction l as [|a l IH]; intros surfs H; cbn [mapM] in H.
    - injection H as <-. split; [reflexivity|]. intros k Hk. cbn in Hk. lia.
    - destruct (S1 a) as [b|] eqn:Ea; [|discriminate]. cbn [bind] in H. destruct (mapM S1 l) as [bs|]; [|discriminate]. cbn [bind] in H. injection H as <-.
      destruct (IH bs eq_refl) as (L & N). split; [cbn; rewrite L; reflexivity|]. intros [|k] Hk; [exact Ea|]. cbn [nth]. apply N. cbn in Hk. lia. }
  destruct M as (L & N). injection E as <-. rewrite map_length, combine_length, L, Nat.min_id. split; [reflexivity|]. intros k Hk.
  cbn [bind]. repeat match goal with H : ?x = Ok _ |- context [bind ?x] => rewrite H; cbn [bind] end. fold S1. cbn [mapM].
  rewrite (N k Hk). cbn [bind combine map fst snd].
  set (F := fun ps : R * list (R * R) => _). fold F. change ([F (nth k l 0, nth k surfs [])]) with (map F [(nth k l 0, nth k surfs [])]). do 2 f_equal.
  rewrite (nth_indep (map F (combine l surfs)) 0 (F (0, []))) by (rewrite map_length, combine_length, L, Nat.min_id; exact Hk). rewrite map_nth, combine_nth by (symmetry; exact L). reflexivity.
Qed.
Print Assumptions C105_pointwise.

(** C106 — find_safety does not look at the plasma boundary ... *)
Theorem C106_ignores_the_boundary : forall (P Ctl : Type) pi sin cos sqrt arctan2 G spline fpol (e : equilibrium R P Ctl) b l ntheta,
  find_safety pi sin cos sqrt arctan2 G spline fpol (with_bs e b) l ntheta = find_safety pi sin cos sqrt arctan2 G spline fpol e l ntheta.
Proof. reflexivity. Qed.
Print Assumptions C106_ignores_the_boundary.
(** ... and needs an X-point: *)
Theorem C106_no_xpoint : forall (P Ctl : Type) pi sin cos sqrt arctan2 G spline fpol (e : equilibrium R P Ctl) l ntheta psi opt,
  total_psi e = Ok psi -> eq_find_critical spline e (e_nx e) (e_ny e) psi = Ok (opt, []) ->
  find_safety pi sin cos sqrt arctan2 G spline fpol e l ntheta = Raise ValueError.
Proof. intros P Ctl pi sin cos sqrt arctan2 G spline fpol e l ntheta psi opt E1 E2. unfold find_safety. rewrite E1. cbn [bind]. rewrite E2. reflexivity. Qed.
Print Assumptions C106_no_xpoint.
(** the flux - (r - 1)^2 - z^3 + 3 z: axis (1, 1) with flux 2, X-point (1, -1) with flux -2,
    limit point (1, 0) with flux 0 *)
Definition ridge : equilibrium Q unit unit :=
  with_plasma valley (fun i j => Qred (- plasma_psi valley i j)).
(** C106 is false: the plasma is limited, but the flux is normalised to that of the X-point; at
    (1, 0), which is on the plasma boundary, the normalised flux used for the safety factor is 1/2. *)
Definition get {A} (d : A) (r : result A) : A := match r with Ok v => v | Raise _ => d end.
(** derivatives of - (r - 1)^2 - z^3 + 3 z *)
Definition dridge (dx dy : nat) (r z : Q) : Q :=
  match dx, dy with
  | 0%nat, 0%nat => Qred (- (r - 1) * (r - 1) - z * z * z + 3 * z)
  | 1%nat, 0%nat => Qred (-2 * (r - 1))
  | 2%nat, 0%nat => -2
  | 0%nat, 1%nat => Qred (3 - 3 * z * z)
  | 0%nat, 2%nat => Qred (-6 * z)
  | _, _ => 0
  end%Q.
(** interpolation in the space of a + b * ridge *)
Definition spline_ridge (n m : nat) (x y : nat -> Q) (f : arr2 Q) : sfun Q := fun dx dy r z =>
  let b := Qred ((f 3%nat 4%nat - f 3%nat 2%nat) / 4) in
  match dx, dy with
  | 0%nat, 0%nat => Qred (f 3%nat 4%nat + b * (dridge 0 0 r z - 2))
  | _, _ => Qred (b * dridge dx dy r z)
  end%Q.
Definition ridge_psi : arr2 Q := get (fun _ _ => 0%Q) (total_psi ridge).
Definition ridge_state := get ridge (update_own spline3 ridge).
Lemma get_ok {A} (d : A) r : is_ok r = true -> r = Ok (get d r).
Proof. destruct r; [reflexivity|discriminate]. Qed.
Theorem C106_limited_plasma_refuted : exists (e : equilibrium Q unit unit) spline psi o os x xs e',
  total_psi e = Ok psi /\ eq_find_critical spline e (e_nx e) (e_ny e) psi = Ok (o :: os, x :: xs) /\
  update_own spline e = Ok e' /\ is_limited (bs e') = true /\ Equilibrium.psi_axis (bs e') = Some (pPsi o) /\
  exists pb i j, psi_bndry (bs e') = Some (Some pb) /\ (psi i j == pb)%Q /\ (safety_psinorm psi o x i j == 1 # 2)%Q.
Proof.
  exists ridge, spline3, ridge_psi, (1, 1, 2)%Q, [], (1, -1 # 1, -2 # 1)%Q, [], ridge_state.
  split; [apply get_ok; vm_compute; reflexivity|]. split; [vm_compute; reflexivity|]. split; [apply get_ok; vm_compute; reflexivity|].
  split; [vm_compute; reflexivity|]. split; [vm_compute; reflexivity|].
  exists 0%Q, 3%nat, 3%nat. split; [vm_compute; reflexivity|]. split; vm_compute; reflexivity.
Qed.
Print Assumptions C106_limited_plasma_refuted.

(** C107 — the toroidal flux of an array of fluxes: zero at the first, the trapezoid rule between
    neighbours. *)
Theorem C107_trapezoid : forall safety interp1d pa pb l npsi t,
  tor_flux PI safety interp1d pa pb (AArray l) npsi = Ok t ->
  exists q, eq_q safety interp1d (AArray (map (fun x => (x - pa) / (pb - pa)) l)) npsi = Ok (RArray q) /\
    List.length t = List.length l /\ nth 0 t 0 = 0 /\
    forall k, (S k < List.length l)%nat ->
      nth (S k) t 0 - nth k t 0 = - ((nth (S k) l 0 - nth k l 0) * (nth (S k) q 0 + nth k q 0)) / (4 * PI).
Proof.
  intros safety interp1d pa pb l npsi t E. destruct (tor_flux_inv _ _ _ _ _ _ _ E) as (q & Eq & ->). exists q. split; [exact Eq|].
  split; [apply tors_length|]. split; [|intros k Hk; apply tors_step; exact Hk].
  destruct l as [|a l]; [reflexivity|]. rewrite tors_nth by (cbn; lia). cbn. unfold Rdiv. ring.
Qed.
Print Assumptions C107_trapezoid.
(** So the flux is counted from the first requested value, not from the axis: the value at the
    same poloidal flux depends on which others are asked for. *)
Theorem C107_from_the_axis_refuted : exists safety interp1d pa pb l l' i i' npsi t t',
  tor_flux PI safety interp1d pa pb (AArray l) npsi = Ok t /\ tor_flux PI safety interp1d pa pb (AArray l') npsi = Ok t' /\
  nth i l 0 = nth i' l' 0 /\ nth i t 0 <> nth i' t' 0.
Proof.
  exists (fun l => Ok (map (fun _ => 1) l)), (fun _ _ _ => 1), 4, 0, [3; 2], [2; 1], 1%nat, 0%nat, 100%nat.
  assert (E : forall a b, eq_q (fun l => Ok (map (fun _ => 1) l)) (fun _ _ _ => 1) (AArray (map (fun x => (x - 4) / (0 - 4)) [a; b])) 100 = Ok (RArray [1; 1])).
  { intros a b. cbn [eq_q]. unfold q_values. destruct (existsb _ _); reflexivity. }
  exists (tors [1; 1] [3; 2]), (tors [1; 1] [2; 1]). split; [apply tor_flux_ok; apply E|]. split; [apply tor_flux_ok; apply E|]. split; [reflexivity|].
  assert (H := PI_RGT_0). assert (Hi : 0 < / (2 * PI)) by (apply Rinv_0_lt_compat; lra).
  assert (A : nth 1 (tors [1; 1] [3; 2]) 0 = / (2 * PI)) by (rewrite tors_nth by (cbn; lia); rewrite nsum_S, nsum_O; cbn [nth]; nR; field; lra).
  assert (B : nth 0 (tors [1; 1] [2; 1]) 0 = 0) by (rewrite tors_nth by (cbn; lia); rewrite nsum_O; nR; unfold Rdiv; ring).
  rewrite A, B. lra.
Qed.
Print Assumptions C107_from_the_axis_refuted.
(** Single values never give a result, neither as numbers nor as arrays with one element. *)
Theorem C107_single_values_raise : forall safety interp1d pa pb x npsi,
  (forall y q, safety [y] = Ok q -> List.length q = 1%nat) ->
  is_ok (tor_flux PI safety interp1d pa pb (AScalar x) npsi) = false /\ is_ok (tor_flux PI safety interp1d pa pb (AArray [x]) npsi) = false /\
  is_ok (rhotor PI R_sqrt.sqrt safety interp1d pa pb (AScalar x) npsi) = false /\ is_ok (rhotor PI R_sqrt.sqrt safety interp1d pa pb (AArray [x]) npsi) = false.
Proof.
  intros safety interp1d pa pb x npsi Hs.
  assert (A : is_ok (tor_flux PI safety interp1d pa pb (AScalar x) npsi) = false) by (cbn [tor_flux]; destruct (eq_q _ _ _ _); reflexivity).
  assert (B : is_ok (tor_flux PI safety interp1d pa pb (AArray [x]) npsi) = false).
  { destruct (tor_flux PI safety interp1d pa pb (AArray [x]) npsi) as [t|] eqn:E; [|reflexivity]. exfalso.
    destruct (tor_flux_inv _ _ _ _ _ _ _ E) as (q & Eq & _). cbn [map eq_q] in Eq. unfold q_values in Eq. destruct (existsb _ _).
    - destruct (safety _) as [q'|]; [|discriminate]. cbn in Eq. discriminate.
    - destruct (safety _) as [q'|] eqn:Es; [|discriminate]. cbn [bind] in Eq. specialize (Hs _ _ Es). destruct q' as [|a [|b q']]; try discriminate. }
  split; [exact A|]. split; [exact B|]. unfold rhotor. split.
  - destruct (tor_flux PI safety interp1d pa pb (AScalar x) npsi); [discriminate A|reflexivity].
  - destruct (tor_flux PI safety interp1d pa pb (AArray [x]) npsi); [discriminate B|reflexivity].
Qed.
Print Assumptions C107_single_values_raise.
Theorem C107_single_value_refuted : exists safety interp1d (pa pb x : R) npsi,
  is_ok (eq_q safety interp1d (AScalar ((x - pa) / (pb - pa))) npsi) = true /\ is_ok (tor_flux PI safety interp1d pa pb (AScalar x) npsi) = false.
Proof.
  exists (fun l => Ok (map (fun _ => 1) l)), (fun _ _ _ => 1), 1, 0, (1 / 2), 100%nat. split; [|apply C107_single_values_raise].
  - cbn [eq_q]. unfold q_values. destruct (existsb _ _); reflexivity.
  - intros y q E. injection E as <-. reflexivity.
Qed.
Print Assumptions C107_single_value_refuted.
(** The normalised toroidal flux from the axis to the boundary: when the flux falls outwards and q
    is positive it increases from 0 to 1; *)
Theorem C107_rhotor : forall safety interp1d pa pb npsi q, pb < pa ->
  eq_q safety interp1d (AArray (map (fun x => (x - pa) / (pb - pa)) (linspace_list pa pb 101))) npsi = Ok (RArray q) ->
  (forall k, (k < 101)%nat -> 0 < nth k q 0) ->
  exists rho, rhotor PI R_sqrt.sqrt safety interp1d pa pb (AArray (linspace_list pa pb 101)) npsi = Ok rho /\
    List.length rho = 101%nat /\ nth 0 rho 0 = 0 /\ nth 100 rho 0 = 1 /\ ascending rho.
Proof.
  intros safety interp1d pa pb npsi q Hp Eq Hq. set (l := linspace_list pa pb 101). assert (Hpi := PI_RGT_0).
  assert (E := tor_flux_ok safety interp1d pa pb l npsi q Eq). assert (Hl : List.length l = 101%nat) by apply grid101_length.
  unfold rhotor. fold l. rewrite E. cbn [bind]. 
  assert (Hlen : List.length (tors q l) = 101%nat) by (rewrite tors_length; exact Hl).
  assert (Hstep : forall k, (S k < List.length (tors q l))%nat -> nth k (tors q l) 0 < nth (S k) (tors q l) 0).
  { intros k Hk. rewrite Hlen in Hk. assert (S0 := tors_step q l k ltac:(lia)). assert (S1 := grid101_step pa pb k Hk). fold (grid101 pa pb) in l. fold l in S1. rewrite S1 in S0.
    assert (P1 : 0 < (pa - pb) * (nth (S k) q 0 + nth k q 0)) by (apply Rmult_lt_0_compat; [lra|]; assert (A1 := Hq k ltac:(lia)); assert (A2 := Hq (S k) ltac:(lia)); lra).
    assert (Hi : 0 < / (400 * PI)) by (apply Rinv_0_lt_compat; lra).
    replace (- ((pb - pa) / 100 * (nth (S k) q 0 + nth k q 0)) / (4 * PI)) with ((pa - pb) * (nth (S k) q 0 + nth k q 0) * / (400 * PI)) in S0 by (field; lra).
    assert (P2 := Rmult_lt_0_compat _ _ P1 Hi). lra. }
  assert (Hasc := step_ascending _ Hstep). assert (Hz : nth 0 (tors q l) 0 = 0) by (rewrite tors_nth by lia; cbn; unfold Rdiv; ring).
  destruct (tors q l) as [|a t] eqn:Et; [discriminate|]. eexists. split; [reflexivity|]. rewrite ascending_max by exact Hasc.
  assert (Ht : List.length t = 100%nat) by (cbn in Hlen; lia). rewrite Ht. set (m := nth 100 (a :: t) 0).
  assert (Hm : 0 < m) by (assert (A := Hasc 0%nat 100%nat ltac:(lia) ltac:(lia)); unfold m; lra). assert (Him : 0 < / m) by (apply Rinv_0_lt_compat; exact Hm).
  set (F := fun v => R_sqrt.sqrt (v / m)). change (map _ (a :: t)) with (map F (a :: t)).
  assert (F0 : F 0 = 0) by (unfold F, Rdiv; rewrite Rmult_0_l, sqrt_0; reflexivity).
  assert (N : forall k, nth k (map F (a :: t)) 0 = F (nth k (a :: t) 0)) by (intros k; rewrite <- F0 at 1; apply map_nth).
  split; [rewrite map_length; exact Hlen|]. split; [rewrite N, Hz; exact F0|]. split.
  - rewrite N. fold m. unfold F. unfold Rdiv. rewrite Rinv_r by lra. apply sqrt_1.
  - intros i j Hij Hj. rewrite map_length in Hj. rewrite !N. unfold F. apply sqrt_lt_1_alt. split.
    + apply Rmult_le_pos; [|lra]. destruct (Nat.eq_dec i 0) as [->|Hi]; [lra|]. assert (A := Hasc 0%nat i ltac:(lia) ltac:(lia)). lra.
    + apply Rmult_lt_compat_r; [exact Him|]. apply Hasc; [exact Hij|exact Hj].
Qed.
Print Assumptions C107_rhotor.
(** when it rises outwards (current in the other direction) the largest toroidal flux is the
    zero at the axis, and rhotor divides by zero. *)
Theorem C107_reversed_current : forall safety interp1d pa pb npsi q, pa < pb ->
  eq_q safety interp1d (AArray (map (fun x => (x - pa) / (pb - pa)) (linspace_list pa pb 101))) npsi = Ok (RArray q) ->
  (forall k, (k < 101)%nat -> 0 < nth k q 0) ->
  exists a t, tor_flux PI safety interp1d pa pb (AArray (linspace_list pa pb 101)) npsi = Ok (a :: t) /\ fold_left nmax t a = 0 /\ Forall (fun v => v < 0) t.
Proof.
  intros safety interp1d pa pb npsi q Hp Eq Hq. set (l := linspace_list pa pb 101). assert (Hpi := PI_RGT_0).
  assert (E := tor_flux_ok safety interp1d pa pb l npsi q Eq). assert (Hl : List.length l = 101%nat) by apply grid101_length. rewrite E.
  assert (Hlen : List.length (tors q l) = 101%nat) by (rewrite tors_length; exact Hl).
  assert (Hneg : forall k, (0 < k < 101)%nat -> nth k (tors q l) 0 < 0).
  { intros k Hk. rewrite tors_nth by lia. assert (Hi : 0 < / (2 * PI)) by (apply Rinv_0_lt_compat; lra).
    assert (G : forall n, (n <= 100)%nat -> (0 < n)%nat -> 0 < nsum n (fun i => (nth (S i) l 0 - nth i l 0) * (nth (S i) q 0 + nth i q 0) / 2)).
    { induction n as [|n IH]; [lia|]. intros Hn _. rewrite nsum_S. assert (S1 := grid101_step pa pb n ltac:(lia)). fold (grid101 pa pb) in l. fold l in S1. rewrite S1.
      assert (A1 := Hq n ltac:(lia)). assert (A2 := Hq (S n) ltac:(lia)).
      assert (P1 : 0 < (pb - pa) / 100 * (nth (S n) q 0 + nth n q 0) / 2) by (apply Rmult_lt_0_compat; [apply Rmult_lt_0_compat; lra|lra]).
      destruct n as [|n]; [rewrite nsum_O; nR; lra|]. assert (IH' := IH ltac:(lia) ltac:(lia)). nR. lra. }
    assert (G1 := G k ltac:(lia) ltac:(lia)). assert (G2 := Rmult_lt_0_compat _ _ G1 Hi). unfold Rdiv in *. lra. }
  assert (Hz : nth 0 (tors q l) 0 = 0) by (rewrite tors_nth by lia; cbn; unfold Rdiv; ring).
  destruct (tors q l) as [|a t]; [discriminate|]. cbn [nth] in Hz. exists a, t. split; [reflexivity|].
  assert (F : Forall (fun v => v < 0) t).
  { apply Forall_forall. intros x Hx. destruct (In_nth _ _ 0 Hx) as (k & Hk & <-). cbn in Hlen. apply (Hneg (S k)). lia. }
  split; [|exact F]. destruct (fold_max t a) as (H1 & _ & H3). destruct H3 as [->|H3]; [exact Hz|]. rewrite Forall_forall in F. specialize (F _ H3). lra.
Qed.
Print Assumptions C107_reversed_current.
Lemma flat_q a b : eq_q (fun l : list R => Ok (map (fun _ => 1) l)) (fun _ _ _ => 1) (AArray (map (fun x => (x - a) / (b - a)) (linspace_list a b 101))) 100 = Ok (RArray (repeat 1 101)).
Proof.
  cbn [eq_q]. unfold q_values. set (l := map _ _). assert (Hl : List.length l = 101%nat) by (unfold l; rewrite map_length; apply grid101_length).
  assert (M : map (fun _ => 1) l = repeat 1 101) by (rewrite <- Hl; clear; induction l as [|x l IH]; [reflexivity|cbn; rewrite IH; reflexivity]).
  destruct (existsb _ _); cbn [bind]; rewrite M; reflexivity.
Qed.
Lemma flat_pos k : (k < 101)%nat -> 0 < nth k (repeat 1 101) 0.
Proof. intros Hk. rewrite (nth_indep _ 0 1) by (rewrite repeat_length; exact Hk). rewrite nth_repeat. lra. Qed.
Theorem C107_normalisation_refuted : exists safety interp1d (pa pb : R) npsi q a t,
  eq_q safety interp1d (AArray (map (fun x => (x - pa) / (pb - pa)) (linspace_list pa pb 101))) npsi = Ok (RArray q) /\ (forall k, (k < 101)%nat -> 0 < nth k q 0) /\
  tor_flux PI safety interp1d pa pb (AArray (linspace_list pa pb 101)) npsi = Ok (a :: t) /\ fold_left nmax t a = 0.
Proof.
  destruct (C107_reversed_current _ _ 0 1 100 _ ltac:(lra) (flat_q 0 1) flat_pos) as (a & t & E & M & _).
  exists (fun l => Ok (map (fun _ => 1) l)), (fun _ _ _ => 1), 0, 1, 100%nat, (repeat 1 101), a, t. split; [apply flat_q|]. split; [exact flat_pos|]. split; assumption.
Qed.
Print Assumptions C107_normalisation_refuted.
Example C107_example : 0 < 1 /\ eq_q (fun l : list R => Ok (map (fun _ => 1) l)) (fun _ _ _ => 1) (AArray (map (fun x => (x - 1) / (0 - 1)) (linspace_list 1 0 101))) 100 = Ok (RArray (repeat 1 101)).
Proof. split; [lra|apply flat_q]. Qed.
