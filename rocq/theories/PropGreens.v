(** The Green's functions of gradshafranov.py with the true complete elliptic integrals. *)
From Coq Require Import String List Arith ZArith Bool Reals Lra Lia.
From Coquelicot Require Import Coquelicot.
From Verif Require Import Py Num Numpy GradShafranov Coils Machine MachineSpec MachineProofs MachineForces PropMachine
  Romb RombProofs RombExact Boundary BoundarySpec BoundaryProofs PropBoundary EllipticSpec EllipticProofs GreensProofs GreensProofs2 GreensProofs3.
Import ListNotations.
Local Open Scope R_scope.
Local Open Scope string_scope.
Local Open Scope list_scope.

(** The kernel the coil classes use, with the elliptic integrals scipy computes. *)
Notation kernel := (green_kernel ellipK ellipE).
Notation green := (Greens ellipK ellipE).

(** ** C153 *)
(** Greens is the flux of a loop by Biot and Savart. *)
Theorem C153_biot_savart : forall a h r z, resolved a h r z -> green a h r z = loop_flux mu0 a h r z.
Proof.
  intros a h r z H. destruct (resolved_unclipped _ _ _ _ H) as (Ha & Hr & Hm). apply biot_savart; lra.
Qed.
Print Assumptions C153_biot_savart.
Lemma resolved_ex a h r z : 0 < a -> 0 < r -> (r + a) ^ 2 + (z - h) ^ 2 < 10 ^ 10 * (4 * r * a) ->
  (r + a) ^ 2 + (z - h) ^ 2 < 10 ^ 10 * ((r - a) ^ 2 + (z - h) ^ 2) -> resolved a h r z.
Proof.
  intros Ha Hr H1 H2. assert (Ht : 0 < 10 ^ 10) by (apply pow_lt; lra). repeat split; try assumption.
  - apply (Rmult_lt_reg_l (10 ^ 10)); [exact Ht|]. replace (10 ^ 10 * (((r + a) ^ 2 + (z - h) ^ 2) / 10 ^ 10)) with ((r + a) ^ 2 + (z - h) ^ 2) by (field; lra). exact H1.
  - apply (Rmult_lt_reg_l (10 ^ 10)); [exact Ht|]. replace (10 ^ 10 * (((r + a) ^ 2 + (z - h) ^ 2) / 10 ^ 10)) with ((r + a) ^ 2 + (z - h) ^ 2) by (field; lra). exact H2.
Qed.
Example C153_example : resolved 1 0 2 1 /\ resolved 1 0 1 (1 / 1000) /\ ~ resolved 1 0 1 0 /\ green 1 0 2 1 = loop_flux mu0 1 0 2 1.
Proof.
  assert (H : resolved 1 0 2 1) by (apply resolved_ex; lra).
  split; [exact H|]. split; [apply resolved_ex; lra|]. split; [intros (_ & _ & _ & F); lra|]. apply C153_biot_savart, H.
Qed.
(** The flux a machine reports is the Biot-Savart flux of all its filaments. *)
Theorem C153_machine : forall (M : machine R) r z,
  List.Forall (fun lm => no_precalc (snd lm)) M ->
  List.Forall (fun p => resolved (fst (fst p)) (snd (fst p)) r z) (machine_filaments M) ->
  fst (machine_field kernel FPsi M r z) =
  lsum (map (fun p => snd p * loop_flux mu0 (fst (fst p)) (snd (fst p)) r z) (machine_filaments M)).
Proof.
  intros M r z HM HF. rewrite C03_superposition by exact HM. unfold field_of. apply lsum_ext. intros p Hp.
  rewrite List.Forall_forall in HF. cbn [green_kernel]. rewrite C153_biot_savart by exact (HF p Hp). reflexivity.
Qed.
Print Assumptions C153_machine.
(** A coil above and a coil below the midplane. *)
Definition pairM : machine R := [("up", MCoil (Coil 1 1 100 2 true (AFixed 1))); ("down", MCoil (Coil 1 (-1) 100 2 true (AFixed 1)))].
Lemma pair_resolved : List.Forall (fun p => resolved (fst (fst p)) (snd (fst p)) 2 (1 / 2)) (machine_filaments pairM).
Proof. apply List.Forall_cons; [|apply List.Forall_cons; [|apply List.Forall_nil]]; cbn; apply resolved_ex; lra. Qed.
Example C153_machine_example : List.Forall (fun lm => no_precalc (snd lm)) pairM /\
  fst (machine_field kernel FPsi pairM 2 (1 / 2)) = 200 * loop_flux mu0 1 1 2 (1 / 2) + 200 * loop_flux mu0 1 (-1) 2 (1 / 2).
Proof.
  assert (H : List.Forall (fun lm => no_precalc (snd lm)) pairM) by (repeat constructor). split; [exact H|].
  rewrite (C153_machine _ _ _ H pair_resolved). unfold lsum. cbn. nR. ring.
Qed.
(** The flux of the plasma at the edge of the grid is the Romberg integral of Biot-Savart fluxes. *)
Theorem C153_free_boundary : forall nx ny gR gZ (J psi p : nat -> nat -> R),
  (forall x y i j, on_edge nx ny x y -> (i < nx)%nat -> (j < ny)%nat -> (i, j) <> (x, y) -> resolved (gR i j) (gZ i j) (gR x y) (gZ x y)) ->
  freeBoundary green nx ny gR gZ J psi = Ok p ->
  forall x y, on_edge nx ny x y -> plasma_flux_at (loop_flux mu0) nx ny gR gZ J x y (p x y).
Proof.
  intros nx ny gR gZ J psi p HG E x y He.
  assert (D : dyadic nx /\ dyadic ny).
  { destruct (Classical_Prop.classic (dyadic nx /\ dyadic ny)) as [D|D]; [exact D|].
    destruct (freeBoundary_bad green nx ny gR gZ J psi D) as (e & Ee). congruence. }
  destruct D as (Dx & Dy). assert (Lx := proj1 He). assert (Ly := proj1 (proj2 He)).
  destruct (freeBoundary_spec green nx ny gR gZ J psi Dx Dy) as (p' & E' & H). rewrite E in E'. injection E' as <-.
  destruct (proj1 (H x y Lx Ly) He) as (s & S & Hs). exists s. split; [|exact Hs]. rewrite <- S.
  destruct Dx as (kx & ->), Dy as (ky & ->). rewrite !romb2_rt. f_equal. apply R2_ext. intros i j Hi Hj.
  destruct ((i =? x)%nat && (j =? y)%nat)%bool eqn:B; [reflexivity|]. f_equal. symmetry. apply C153_biot_savart, HG; try assumption; try lia.
  intros F. injection F as -> ->. rewrite !Nat.eqb_refl in B. discriminate.
Qed.
Print Assumptions C153_free_boundary.
Example C153_boundary_example : exists p, freeBoundary green 3 3 (fun x _ => INR x + 1) (fun _ y => INR y) (fun x y => if ((x =? 1) && (y =? 1))%nat then 5 else 0) (fun _ _ => 0) = Ok p /\
  plasma_flux_at (loop_flux mu0) 3 3 (fun x _ => INR x + 1) (fun _ y => INR y) (fun x y => if ((x =? 1) && (y =? 1))%nat then 5 else 0) 0 2 (p 0%nat 2%nat).
Proof.
  destruct (proj1 (C28_free_boundary green 3 3 (fun x _ => INR x + 1) (fun _ y => INR y) (fun x y => if ((x =? 1) && (y =? 1))%nat then 5 else 0) (fun _ _ => 0)))
    as (p & E & _); [split; exists 1%nat; reflexivity|].
  exists p. split; [exact E|]. refine (C153_free_boundary _ _ _ _ _ _ _ _ E _ _ _); [|repeat split; lia].
  intros x y i j (Hx & Hy & _) Hi Hj Hne.
  destruct x as [|[|[|x]]], y as [|[|[|y]]], i as [|[|[|i]]], j as [|[|[|j]]]; try lia; try congruence; cbn [INR]; apply resolved_ex; lra.
Qed.

(** ** C154 *)
(** The flux of a loop satisfies the vacuum equation away from the loop. *)
Theorem C154_vacuum : forall a h r z, resolved a h r z -> is_gs (green a h) r z 0.
Proof. intros a h r z H. destruct (resolved_unclipped _ _ _ _ H) as (Ha & Hu). apply vacuum; assumption. Qed.
Print Assumptions C154_vacuum.
Example C154_example : is_gs (green 1 0) 2 1 0.
Proof. apply C154_vacuum, C153_example. Qed.
(** The flux of a machine does so away from its filaments. *)
Theorem C154_machine : forall (M : machine R) r z,
  List.Forall (fun lm => no_precalc (snd lm)) M ->
  List.Forall (fun p => resolved (fst (fst p)) (snd (fst p)) r z) (machine_filaments M) ->
  is_gs (fun r z => fst (machine_field kernel FPsi M r z)) r z 0.
Proof.
  intros M r z HM HF. eapply is_gs_ext; [|apply gs_filaments; eapply List.Forall_impl; [|exact HF]; intros p Hp; apply resolved_unclipped, Hp].
  intros x y. symmetry. apply C03_superposition, HM.
Qed.
Print Assumptions C154_machine.
Example C154_machine_example : is_gs (fun r z => fst (machine_field kernel FPsi pairM r z)) 2 (1 / 2) 0.
Proof. apply C154_machine; [repeat constructor|apply pair_resolved]. Qed.
(** The operator sees currents: it is not zero for every flux. *)
Example C154_not_always : is_gs (fun r z => z ^ 2) 2 1 2 /\ ~ is_gs (fun r z => z ^ 2) 2 1 0.
Proof.
  assert (U : forall v, is_gs (fun r z => z ^ 2) 2 1 v -> v = 2).
  { intros v (pr & prr & pz & pzz & A1 & A2 & A3 & A4 & ->).
    assert (Z1 : locally 2 (fun x => pr x = 0)).
    { generalize A1. apply filter_imp. intros x Hx. apply is_derive_unique in Hx. rewrite <- Hx. apply Derive_const. }
    assert (Z2 : locally 1 (fun y => pz y = 2 * y)).
    { generalize A3. apply filter_imp. intros y Hy. apply is_derive_unique in Hy. rewrite <- Hy. apply is_derive_unique. auto_derive; [trivial|ring]. }
    assert (E1 : prr = 0).
    { apply is_derive_unique in A2. rewrite <- A2. rewrite (Derive_ext_loc pr (fun _ => 0)) by exact Z1. apply Derive_const. }
    assert (E2 : pzz = 2).
    { apply is_derive_unique in A4. rewrite <- A4. rewrite (Derive_ext_loc pz (fun y => 2 * y)) by exact Z2. apply is_derive_unique. auto_derive; [trivial|ring]. }
    assert (E3 : pr 2 = 0) by exact (locally_singleton _ _ Z1). rewrite E1, E2, E3. lra. }
  split.
  - exists (fun _ => 0), 0, (fun y => 2 * y), 2. refine (conj _ (conj _ (conj _ (conj _ _)))).
    + apply filter_forall. intros x. auto_derive; [trivial|ring].
    + auto_derive; [trivial|ring].
    + apply filter_forall. intros y. auto_derive; [trivial|ring].
    + auto_derive; [trivial|ring].
    + lra.
  - intros F. apply U in F. lra.
Qed.

(** ** C155 *)
(** The flux of a loop is positive, and falls with the distance from the plane of the loop; this
    includes the places where the parameter is clipped. *)
Theorem C155_positive : forall a h r z, 0 < a -> 0 < r -> 0 < green a h r z.
Proof. exact greens_pos. Qed.
Print Assumptions C155_positive.
Theorem C155_height : forall a h r z1 z2, 0 < a -> 0 < r -> Rabs (z1 - h) <= Rabs (z2 - h) ->
  green a h r z2 <= green a h r z1 /\
  (Rabs (z1 - h) < Rabs (z2 - h) -> resolved a h r z1 -> resolved a h r z2 -> green a h r z2 < green a h r z1).
Proof.
  intros a h r z1 z2 Ha Hr Hz. split; [apply greens_height; assumption|]. intros Hz' H1 H2.
  destruct (resolved_unclipped _ _ _ _ H1) as (_ & _ & U1). destruct (resolved_unclipped _ _ _ _ H2) as (_ & _ & U2).
  apply greens_height_strict; try assumption; lra.
Qed.
Print Assumptions C155_height.
Example C155_example : 0 < green 1 0 1 0 /\ green 1 0 2 3 < green 1 0 2 (-1) /\ green 1 0 1 (1 / 10 ^ 9) <= green 1 0 1 0.
Proof.
  split; [apply C155_positive; lra|]. split.
  - apply C155_height; try lra; try (apply resolved_ex; lra); unfold Rabs; destruct (Rcase_abs _), (Rcase_abs _); lra.
  - apply C155_height; try lra. rewrite !Rminus_0_r, Rabs_R0. apply Rabs_pos.
Qed.
(** A plasma current of one sign gives a flux of that sign at the edge of the grid. *)
Theorem C155_free_boundary : forall nx ny gR gZ (J psi p : nat -> nat -> R),
  gR 0%nat 0%nat < gR 1%nat 0%nat -> gZ 0%nat 0%nat < gZ 0%nat 1%nat ->
  (forall i j, (i < nx)%nat -> (j < ny)%nat -> 0 < gR i j /\ 0 <= J i j) ->
  freeBoundary green nx ny gR gZ J psi = Ok p -> forall x y, on_edge nx ny x y ->
  0 <= p x y /\ forall i j, (i < nx)%nat -> (j < ny)%nat -> (i, j) <> (x, y) -> 0 < J i j -> 0 < p x y.
Proof.
  intros nx ny gR gZ J psi p H1 H2 HJ E x y He.
  apply (proj2 (C28_free_boundary_sign green nx ny gR gZ J psi p H1 H2 E x y He)).
  - intros i j Hi Hj. apply (HJ i j Hi Hj).
  - intros i j Hi Hj _. apply C155_positive; [apply (HJ i j Hi Hj)|]. apply (HJ x y); [apply He|apply (proj2 He)].
Qed.
Print Assumptions C155_free_boundary.
Example C155_boundary_example : exists p, freeBoundary green 3 3 (fun x _ => INR x + 1) (fun _ y => INR y) (fun x y => if ((x =? 1) && (y =? 1))%nat then 5 else 0) (fun _ _ => 0) = Ok p /\
  0 < p 0%nat 2%nat.
Proof.
  destruct (proj1 (C28_free_boundary green 3 3 (fun x _ => INR x + 1) (fun _ y => INR y) (fun x y => if ((x =? 1) && (y =? 1))%nat then 5 else 0) (fun _ _ => 0)))
    as (p & E & _); [split; exists 1%nat; reflexivity|].
  exists p. split; [exact E|].
  eapply C155_free_boundary with (i := 1%nat) (j := 1%nat); [..|exact E| | | | |]; cbv beta.
  - cbn. lra.
  - cbn. lra.
  - intros i j _ _. split; [assert (P := pos_INR i); lra|destruct ((i =? 1) && (j =? 1))%nat; lra].
  - repeat split; lia.
  - lia.
  - lia.
  - discriminate.
  - cbn. lra.
Qed.

(** ** C156 *)
(** The radial field of a loop points outwards above the loop and inwards below it. *)
Theorem C156_radial_field : forall eps a h r z, 0 < eps -> 0 < a -> 0 < r ->
  (h <= z -> 0 <= GreensBr ellipK ellipE eps a h r z) /\ (z <= h -> GreensBr ellipK ellipE eps a h r z <= 0).
Proof. intros eps a h r z He Ha Hr. split; intros Hz; [apply Br_above|apply Br_below]; assumption. Qed.
Print Assumptions C156_radial_field.
Lemma lsum_nonneg {A} (f : A -> R) l : (forall x, In x l -> 0 <= f x) -> 0 <= lsum (map f l).
Proof.
  induction l as [|x l IH]; intros H; [cbn; lra|]. cbn [map]. rewrite lsum_cons.
  assert (0 <= f x) by (apply H; left; reflexivity). assert (0 <= lsum (map f l)) by (apply IH; intros; apply H; right; assumption). lra.
Qed.
Lemma nth_error_skip {A} : forall n (l : list A) j, nth_error (skipn n l) j = nth_error l (n + j).
Proof. induction n as [|n IH]; intros [|x l] j; try reflexivity; [destruct j; reflexivity|]. apply IH. Qed.
(** A machine of plain coils at positive radius. *)
Definition plain_coil (m : mcoil R) : Prop :=
  match m with MCoil c => match c_kind c with KPoint r _ => 0 < r | _ => False end | _ => False end.
(** [s] is a unit: with [s = 1] every other coil is above with a like current or below with an
    opposite one, with [s = -1] the other way round. *)
Definition pulled (s : R) (c : coil R) (m : mcoil R) : Prop :=
  match m with
  | MCoil c' => 0 <= s * ((coil_Z c' - coil_Z c) * (c_current c * IZR (c_turns c) * (c_current c' * IZR (c_turns c'))))
  | _ => False
  end.
Lemma pull_sign s u v w b : 0 <= s * (u * (v * w)) -> (0 <= u -> b <= 0) -> (u <= 0 -> 0 <= b) -> 0 <= s * (- (v * (w * b))).
Proof.
  intros H H1 H2. replace (s * - (v * (w * b))) with (s * (v * w) * - b) by ring.
  replace (s * (u * (v * w))) with (u * (s * (v * w))) in H by ring. set (k := s * (v * w)) in *. clearbody k.
  destruct (Rtotal_order u 0) as [L|[L|L]].
  - assert (B := H2 (Rlt_le _ _ L)). assert (k <= 0) by (destruct (Rle_or_lt k 0); [assumption|nra]). nra.
  - assert (b = 0) by (assert (A := H1 ltac:(lra)); assert (B := H2 ltac:(lra)); lra). subst b. right. ring.
  - assert (B := H1 ltac:(lra)). assert (0 <= k) by (destruct (Rle_or_lt 0 k); [assumption|nra]). nra.
Qed.
(** Like currents attract and opposite currents repel, vertically. *)
Theorem C156_attraction : forall s mu (M : machine R) i lb c,
  s = 1 \/ s = -1 -> NoDup (map fst M) -> List.Forall (fun lm => plain_coil (snd lm)) M -> nth_error M i = Some (lb, MCoil c) ->
  (forall j lm, j <> i -> nth_error M j = Some lm -> pulled s c (snd lm)) ->
  exists F, nth_error (fst (getForces kernel mu PI sqrt ln None M)) i = Some (lb, FCoil F) /\ 0 <= s * snd F.
Proof.
  intros s mu M i lb c Hs N HP E HO.
  assert (HS : machine_synced M).
  { eapply List.Forall_impl; [|exact HP]. intros [l m] H. cbn [snd] in *. destruct m; easy. }
  assert (HR : List.Forall (fun lm => mcoil_R_ok (snd lm)) M).
  { eapply List.Forall_impl; [|exact HP]. intros [l m] H. cbn [snd] in *. destruct m as [d|ci|so]; try easy.
    cbn in *. unfold coil_R. destruct (c_kind d); try easy. apply Rgt_not_eq. exact H. }
  rewrite getForces_eq by assumption. cbn [fst]. exists (direct_entry kernel mu None M i c). split.
  - rewrite nth_error_map. assert (EC : nth_error (combine (seq 0 (length M)) M) i = Some (i, (lb, MCoil c))); [|rewrite EC; reflexivity].
    change i with (0 + i)%nat at 2. generalize 0%nat. clear -E. revert i E. induction M as [|x M IH]; intros [|i] E t; try discriminate; cbn in *.
    + injection E as ->. rewrite Nat.add_0_r. reflexivity.
    + rewrite (IH i E (S t)). do 2 f_equal. lia.
  - unfold direct_entry, coil_force, loop_force. cbn [snd plasma_field]. rewrite Rplus_0_l. unfold response_sum.
    rewrite List.Forall_forall in HP. assert (Pc := HP _ (nth_error_In _ _ E)). cbn [snd plain_coil] in Pc.
    assert (Hr : 0 < coil_R c) by (unfold coil_R; destruct (c_kind c); easy).
    match goal with |- 0 <= s * - (2 * PI * ?r * ?I * lsum (map ?f ?l)) =>
      replace (s * - (2 * PI * r * I * lsum (map f l))) with (lsum (map (fun lm => s * - (2 * PI * r * I) * f lm) l)) by (rewrite lsum_scal; ring) end.
    apply lsum_nonneg. intros [l' m'] Hin.
    assert (Hj : exists j, j <> i /\ nth_error M j = Some (l', m')).
    { unfold remove_nth in Hin. apply in_app_or in Hin as [H|H]; apply In_nth_error in H as (j & Hj).
      - exists j. assert (j < length (firstn i M))%nat by (apply nth_error_Some; congruence). rewrite firstn_length in *. split; [lia|].
        rewrite <- Hj. symmetry. rewrite <- (firstn_skipn i M) at 2. rewrite nth_error_app1 by (rewrite firstn_length; lia). reflexivity.
      - exists (S i + j)%nat. split; [lia|]. rewrite <- Hj. symmetry. apply nth_error_skip. }
    destruct Hj as (j & Hne & Hj). assert (HQ := HO j _ Hne Hj). assert (Pm := HP _ (nth_error_In _ _ Hj)). cbn [snd] in *.
    destruct m' as [c'|ci|so]; try easy. cbn [pulled plain_coil] in *.
    cbn [mc_current mc_ctrl]. assert (EC : coil_control kernel FBr c' (coil_R c) (coil_Z c) = IZR (c_turns c') * GreensBr ellipK ellipE eps_default (coil_R c') (coil_Z c') (coil_R c) (coil_Z c)).
    { generalize (coil_R c) (coil_Z c). intros rc zc. unfold coil_control, coil_R, coil_Z. destruct (c_kind c') as [r' z'| | | |]; try easy. nR. cbn [green_kernel]. ring. }
    rewrite EC. assert (Hr' : 0 < coil_R c') by (unfold coil_R; destruct (c_kind c'); easy).
    set (b := GreensBr _ _ _ _ _ _ _) in *.
    assert (B1 : 0 <= coil_Z c' - coil_Z c -> b <= 0) by (intros; apply Br_below; try assumption; try lra; unfold eps_default; lra).
    assert (B2 : coil_Z c' - coil_Z c <= 0 -> 0 <= b) by (intros; apply Br_above; try assumption; try lra; unfold eps_default; lra).
    assert (P := pull_sign s _ _ _ _ HQ B1 B2). assert (PP := PI_RGT_0).
    match goal with |- 0 <= ?x => replace x with (2 * PI * coil_R c * (s * - (c_current c * IZR (c_turns c) * (c_current c' * IZR (c_turns c') * b)))) by ring end.
    apply Rmult_le_pos; [|exact P]. apply Rmult_le_pos; lra.
Qed.
Print Assumptions C156_attraction.
Example C156_example : exists F F',
  nth_error (fst (getForces kernel mu0 PI sqrt ln None pairM)) 0 = Some ("up", FCoil F) /\ snd F <= 0 /\
  nth_error (fst (getForces kernel mu0 PI sqrt ln None pairM)) 1 = Some ("down", FCoil F') /\ 0 <= snd F'.
Proof.
  assert (N : NoDup (map fst pairM)) by (repeat constructor; cbn; intuition discriminate).
  assert (P : List.Forall (fun lm => plain_coil (snd lm)) pairM) by (repeat constructor; cbn; lra).
  destruct (C156_attraction (-1) mu0 pairM 0 "up" _ (or_intror eq_refl) N P eq_refl) as (F & E & H).
  { intros [|[|j]] lm Hj El; cbn in El; try easy; [|destruct j; discriminate]. injection El as <-. cbn. lra. }
  destruct (C156_attraction 1 mu0 pairM 1 "down" _ (or_introl eq_refl) N P eq_refl) as (F' & E' & H').
  { intros [|[|j]] lm Hj El; cbn in El; try easy; [|destruct j; discriminate]. injection El as <-. cbn. lra. }
  exists F, F'. repeat split; try assumption; lra.
Qed.

(** ** C157 *)
(** For a small step the field formulae give the components of the poloidal field, - (1/r) d psi / dz and (1/r) d psi / dr. *)
Theorem C157_field : forall a h r z, resolved a h r z ->
  exists psi_r psi_z, is_derive (fun x => loop_flux mu0 a h x z) r psi_r /\ is_derive (fun y => loop_flux mu0 a h r y) z psi_z /\
  is_lim (fun eps => GreensBr ellipK ellipE eps a h r z) 0 (- psi_z / r) /\
  is_lim (fun eps => GreensBz ellipK ellipE eps a h r z) 0 (psi_r / r).
Proof.
  intros a h r z H. destruct (resolved_unclipped _ _ _ _ H) as (Ha & U). assert (Hr := proj1 U).
  assert (Dr := G_r_spec a h Ha r z U). assert (Dz := G_z_spec a h Ha r z U).
  exists (G_r a h z r), (G_z a h r z). refine (conj _ (conj _ (conj _ _))).
  - apply (is_derive_ext_loc (fun x => green a h x z)); [|exact Dr].
    generalize (unclipped_open_r a h Ha z r U). apply filter_imp. intros x (Hx & Hm). apply biot_savart; lra.
  - apply (is_derive_ext_loc (fun y => green a h r y)); [|exact Dz].
    generalize (unclipped_open_z a h Ha r z U). apply filter_imp. intros x (Hx & Hm). apply biot_savart; lra.
  - apply (is_lim_ext_loc (fun e => - / r * ((green a h r (z + e) - green a h r (z - e)) / (2 * e)))).
    + exists (mkposreal 1 Rlt_0_1). intros e _ He. unfold GreensBr. cbn in He. field. split; lra.
    + replace (Finite (- G_z a h r z / r)) with (Rbar_mult (- / r) (G_z a h r z)) by (cbn; f_equal; field; lra).
      apply is_lim_scal_l. apply (central_limit (fun y => green a h r y)). exact Dz.
  - apply (is_lim_ext_loc (fun e => / r * ((green a h (r + e) z - green a h (r - e) z) / (2 * e)))).
    + exists (mkposreal 1 Rlt_0_1). intros e _ He. unfold GreensBz. cbn in He. field. split; lra.
    + replace (Finite (G_r a h z r / r)) with (Rbar_mult (/ r) (G_r a h z r)) by (cbn; f_equal; field; lra).
      apply is_lim_scal_l. apply (central_limit (fun x => green a h x z)). exact Dr.
Qed.
Print Assumptions C157_field.
Example C157_example : exists v, is_lim (fun eps => GreensBz ellipK ellipE eps 1 0 2 1) 0 v.
Proof. destruct (C157_field 1 0 2 1) as (a & b & _ & _ & _ & H); [apply C153_example|]. eexists. exact H. Qed.
