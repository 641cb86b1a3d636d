(** C76, C98, C99: the shape of the plasma. *)
From Coq Require Import List Arith ZArith QArith Bool Reals Lia Lra Permutation.
From Verif Require Import Py Num Numpy Critical Equilibrium EquilibriumSpec EquilibriumProofs EquilibriumProofs2 Shape ShapeSpec ShapeProofs PropEquilibrium2.
Import ListNotations.
Local Open Scope R_scope.

(** C76 — the diagnostics are those of the extremal points of the curve; relations between them. *)
Theorem C76_defining_relations : forall s : list (R * R), s <> [] ->
  exists p1 p3 p2 p4 R0 z0 a, highest fst s p1 /\ lowest fst s p3 /\ highest snd s p2 /\ lowest snd s p4 /\
    R0 = (fst p1 + fst p3) / 2 /\ z0 = (snd p1 + snd p3) / 2 /\ a = (fst p1 - fst p3) / 2 /\
    geometricAxis s = Ok (R0, z0) /\ minorRadius s = Ok a /\ aspectRatio s = Ok (R0 / a) /\ inverseAspectRatio s = Ok (a / R0) /\
    elongation s = Ok ((snd p2 - snd p4) / (2 * a)) /\
    elongationUpper s = Ok ((snd p2 - z0) / a) /\ elongationLower s = Ok ((z0 - snd p4) / a) /\
    triangularityUpper s = Ok ((R0 - fst p2) / a) /\ triangularityLower s = Ok ((R0 - fst p4) / a).
Proof.
  intros s Hs. destruct (diagnostics s Hs) as (p1 & p3 & p2 & p4 & H1 & H3 & H2 & H4 & _ & D). cbv zeta in D.
  destruct D as (Eg & ER & EZ & Ea & Er & Ei & Ek & Eku & Ekl & Etu & Etl & Et).
  exists p1, p3, p2, p4, ((fst p1 + fst p3) / 2), ((snd p1 + snd p3) / 2), ((fst p1 - fst p3) / 2).
  repeat (split; [first [assumption|reflexivity]|]). split; [|auto].
  rewrite Ek. f_equal. set (w := (fst p1 - fst p3) / 2). unfold Rdiv. rewrite Rinv_mult. ring.
Qed.
Print Assumptions C76_defining_relations.
Theorem C76_sums : forall (s : list (R * R)) a, minorRadius s = Ok a -> a <> 0 ->
  exists k ku kl d du dl A e, elongation s = Ok k /\ elongationUpper s = Ok ku /\ elongationLower s = Ok kl /\
    triangularity s = Ok d /\ triangularityUpper s = Ok du /\ triangularityLower s = Ok dl /\ aspectRatio s = Ok A /\ inverseAspectRatio s = Ok e /\
    ku + kl = 2 * k /\ d = (du + dl) / 2 /\ (Rgeometric s <> Ok 0 -> A * e = 1).
Proof.
  intros s a Ha Hn. destruct (diagnostics s ltac:(intros ->; discriminate)) as (p1 & p3 & p2 & p4 & H1 & H3 & H2 & H4 & _ & D). cbv zeta in D.
  destruct D as (Eg & ER & EZ & Ea & Er & Ei & Ek & Eku & Ekl & Etu & Etl & Et).
  rewrite Ea in Ha. injection Ha as <-. do 8 eexists. repeat (split; [eassumption|]). split; [field; lra|]. split; [reflexivity|].
  intros HR. rewrite ER in HR. assert (fst p1 + fst p3 <> 0) by (intros E; apply HR; f_equal; lra). field. split; lra.
Qed.
Print Assumptions C76_sums.
(** Translation. *)
Theorem C76_translation : forall (s : list (R * R)) u v, s <> [] ->
  let s' := map (shift u v) s in
  (exists R0 z0, geometricAxis s = Ok (R0, z0) /\ geometricAxis s' = Ok (R0 + u, z0 + v)) /\
  minorRadius s' = minorRadius s /\ elongation s' = elongation s /\ elongationUpper s' = elongationUpper s /\ elongationLower s' = elongationLower s /\
  triangularityUpper s' = triangularityUpper s /\ triangularityLower s' = triangularityLower s /\ triangularity s' = triangularity s.
Proof.
  intros s u v Hs s'. assert (Es : s' = map (affine 1 1 u v) s).
  { unfold s'. apply map_ext. intros p. unfold shift, affine. f_equal; ring. }
  destruct (diagnostics s Hs) as (p1 & p3 & p2 & p4 & _ & _ & _ & _ & I & D).
  destruct (diagnostics s') as (q1 & q3 & q2 & q4 & _ & _ & _ & _ & I' & D'). { rewrite Es. destruct s; [contradiction|discriminate]. }
  destruct I as (i1 & i3 & i2 & i4 & E1 & N1 & E3 & N3 & E2 & N2 & E4 & N4). destruct I' as (j1 & j3 & j2 & j4 & F1 & M1 & F3 & M3 & F2 & M2 & F4 & M4).
  rewrite Es in F1, F3, F2, F4, M1, M3, M2, M4.
  destruct (affine_extremes 1 1 u v s ltac:(lra) ltac:(lra)) as (A1 & A3 & A2 & A4). cbv zeta in A1, A3, A2, A4.
  rewrite A1, E1 in F1. rewrite A3, E3 in F3. rewrite A2, E2 in F2. rewrite A4, E4 in F4. injection F1 as <-. injection F3 as <-. injection F2 as <-. injection F4 as <-.
  rewrite nth_affine in M1, M3, M2, M4 by (first [apply (arg_bound fst); tauto|apply (arg_bound snd); tauto]). rewrite N1 in M1. rewrite N3 in M3. rewrite N2 in M2. rewrite N4 in M4.
  subst q1 q3 q2 q4. unfold affine in D'. cbn [fst snd] in D'. cbv zeta in D, D'.
  destruct D as (Eg & ER & EZ & Ea & Er & Ei & Ek & Eku & Ekl & Etu & Etl & Et). destruct D' as (Eg' & ER' & EZ' & Ea' & Er' & Ei' & Ek' & Eku' & Ekl' & Etu' & Etl' & Et').
  split; [do 2 eexists; split; [exact Eg|]; rewrite Eg'; f_equal; f_equal; lra|].
  assert (Ha : (1 * fst p1 + u - (1 * fst p3 + u)) / 2 = (fst p1 - fst p3) / 2) by lra. rewrite Ha in *.
  rewrite Ea, Ea', Ek, Ek', Eku, Eku', Ekl, Ekl', Etu, Etu', Etl, Etl', Et, Et'. set (w := (fst p1 - fst p3) / 2).
  repeat split; f_equal; first [reflexivity|apply (f_equal (fun x => x / w)); lra|apply (f_equal2 (fun x y => (x / w + y / w) / 2)); lra|unfold Rdiv; ring].
Qed.
Print Assumptions C76_translation.
(** no points, no shape *)
Theorem C76_no_points : geometricAxis ([] : list (R * R)) = Raise ValueError /\ minorRadius ([] : list (R * R)) = Raise ValueError /\
  elongation ([] : list (R * R)) = Raise ValueError /\ triangularity ([] : list (R * R)) = Raise ValueError.
Proof. repeat split. Qed.
Print Assumptions C76_no_points.
Definition diamond : list (Q * Q) := [(3, 0); (2, 2); (1, 1); (3 # 2, -2)]%Q.
Example C76_example : (geometricAxis diamond, minorRadius diamond, aspectRatio diamond, elongation diamond, elongationUpper diamond, elongationLower diamond,
    triangularityUpper diamond, triangularityLower diamond, triangularity diamond) =
  (Ok (2, 1 # 2), Ok 1, Ok 2, Ok 2, Ok (3 # 2), Ok (5 # 2), Ok 0, Ok (1 # 2), Ok (1 # 4))%Q.
Proof. vm_compute. reflexivity. Qed.

(** C98 — bounds and symmetries. *)
Theorem C98_bounds : forall (s : list (R * R)) a, minorRadius s = Ok a ->
  0 <= a /\
  (0 < a -> exists k ku kl d du dl, elongation s = Ok k /\ elongationUpper s = Ok ku /\ elongationLower s = Ok kl /\
     triangularity s = Ok d /\ triangularityUpper s = Ok du /\ triangularityLower s = Ok dl /\
     0 <= k /\ 0 <= ku /\ 0 <= kl /\ -1 <= d <= 1 /\ -1 <= du <= 1 /\ -1 <= dl <= 1 /\
     ((forall p, In p s -> 0 < fst p) -> exists A, aspectRatio s = Ok A /\ 1 < A)).
Proof.
  intros s a Ha. destruct (diagnostics s ltac:(intros ->; discriminate)) as (p1 & p3 & p2 & p4 & H1 & H3 & H2 & H4 & _ & D). cbv zeta in D.
  destruct D as (Eg & ER & EZ & Ea & Er & Ei & Ek & Eku & Ekl & Etu & Etl & Et). rewrite Ea in Ha. injection Ha as <-.
  destruct H1 as (I1 & H1), H3 as (I3 & H3), H2 as (I2 & H2), H4 as (I4 & H4).
  assert (A1 := H3 p1 I1). split; [lra|]. intros Hp.
  assert (B1 := H1 p2 I2). assert (B2 := H3 p2 I2). assert (B3 := H1 p4 I4). assert (B4 := H3 p4 I4).
  assert (C1 := H2 p1 I1). assert (C2 := H2 p3 I3). assert (C3 := H4 p1 I1). assert (C4 := H4 p3 I3).
  set (w := (fst p1 - fst p3) / 2) in *.
  assert (Q : forall x y, y * w = x -> x / w = y) by (intros x y <-; field; lra).
  assert (B : forall x, - w <= x <= w -> -1 <= x / w <= 1).
  { intros x Hx. split; [apply Rmult_le_reg_r with w; [exact Hp|]|apply Rmult_le_reg_r with w; [exact Hp|]]; unfold Rdiv; rewrite Rmult_assoc, Rinv_l by lra; lra. }
  assert (P : forall x, 0 <= x -> 0 <= x / w) by (intros x Hx; unfold Rdiv; apply Rmult_le_pos; [exact Hx|]; left; apply Rinv_0_lt_compat; exact Hp).
  assert (T2 : -1 <= ((fst p1 + fst p3) / 2 - fst p2) / w <= 1) by (apply B; unfold w; lra).
  assert (T4 : -1 <= ((fst p1 + fst p3) / 2 - fst p4) / w <= 1) by (apply B; unfold w; lra).
  do 6 eexists. repeat (split; [eassumption|]). split; [apply P; lra|]. split; [apply P; lra|]. split; [apply P; lra|].
  split; [lra|]. split; [exact T2|]. split; [exact T4|].
  intros Hpos. eexists. split; [exact Er|]. assert (0 < fst p3) by (apply Hpos; exact I3).
  apply Rmult_lt_reg_r with w; [exact Hp|]. unfold Rdiv at 1. rewrite (Rmult_assoc _ (/ w)), Rinv_l by lra. unfold w. lra.
Qed.
Print Assumptions C98_bounds.
(** Scaling leaves the numbers without dimension as they are. *)
Theorem C98_scaling : forall (s : list (R * R)) k, s <> [] -> 0 < k ->
  let s' := map (scale k) s in
  (exists R0 z0 a, geometricAxis s = Ok (R0, z0) /\ geometricAxis s' = Ok (k * R0, k * z0) /\ minorRadius s = Ok a /\ minorRadius s' = Ok (k * a)) /\
  (minorRadius s <> Ok 0 -> elongation s' = elongation s /\ elongationUpper s' = elongationUpper s /\ elongationLower s' = elongationLower s /\
     triangularityUpper s' = triangularityUpper s /\ triangularityLower s' = triangularityLower s /\ triangularity s' = triangularity s /\
     aspectRatio s' = aspectRatio s).
Proof.
  intros s k Hs Hk s'. assert (Es : s' = map (affine k k 0 0) s).
  { unfold s'. apply map_ext. intros p. unfold scale, affine. f_equal; ring. }
  destruct (diagnostics s Hs) as (p1 & p3 & p2 & p4 & _ & _ & _ & _ & I & D).
  destruct (diagnostics s') as (q1 & q3 & q2 & q4 & _ & _ & _ & _ & I' & D'). { rewrite Es. destruct s; [contradiction|discriminate]. }
  destruct I as (i1 & i3 & i2 & i4 & E1 & N1 & E3 & N3 & E2 & N2 & E4 & N4). destruct I' as (j1 & j3 & j2 & j4 & F1 & M1 & F3 & M3 & F2 & M2 & F4 & M4).
  rewrite Es in F1, F3, F2, F4, M1, M3, M2, M4.
  destruct (affine_extremes k k 0 0 s Hk Hk) as (A1 & A3 & A2 & A4). cbv zeta in A1, A3, A2, A4.
  rewrite A1, E1 in F1. rewrite A3, E3 in F3. rewrite A2, E2 in F2. rewrite A4, E4 in F4. injection F1 as <-. injection F3 as <-. injection F2 as <-. injection F4 as <-.
  rewrite nth_affine in M1, M3, M2, M4 by (first [apply (arg_bound fst); tauto|apply (arg_bound snd); tauto]). rewrite N1 in M1. rewrite N3 in M3. rewrite N2 in M2. rewrite N4 in M4.
  subst q1 q3 q2 q4. unfold affine in D'. cbn [fst snd] in D'. cbv zeta in D, D'.
  destruct D as (Eg & ER & EZ & Ea & Er & Ei & Ek & Eku & Ekl & Etu & Etl & Et). destruct D' as (Eg' & ER' & EZ' & Ea' & Er' & Ei' & Ek' & Eku' & Ekl' & Etu' & Etl' & Et').
  split; [do 3 eexists; split; [exact Eg|]; split; [rewrite Eg'; f_equal; f_equal; lra|]; split; [exact Ea|]; rewrite Ea'; f_equal; lra|].
  intros Hn. rewrite Ea in Hn. assert (Hw : fst p1 - fst p3 <> 0) by (intros E; apply Hn; f_equal; lra).
  assert (Hw' : k * fst p1 - k * fst p3 <> 0) by (replace (k * fst p1 - k * fst p3) with (k * (fst p1 - fst p3)) by ring; apply Rmult_integral_contrapositive; split; [lra|exact Hw]).
  rewrite Ek, Ek', Eku, Eku', Ekl, Ekl', Etu, Etu', Etl, Etl', Et, Et', Er, Er'.
  repeat split; f_equal; field; repeat split; intros E; first [lra|apply Hw; lra|apply Hw'; lra].
Qed.
Print Assumptions C98_scaling.
(** A mirror image has upper and lower quantities exchanged. *)
Theorem C98_mirror : forall s : list (R * R), s <> [] ->
  let s' := map mirror s in
  (exists R0 z0, geometricAxis s = Ok (R0, z0) /\ geometricAxis s' = Ok (R0, - z0)) /\
  minorRadius s' = minorRadius s /\ elongation s' = elongation s /\ triangularity s' = triangularity s /\
  elongationUpper s' = elongationLower s /\ elongationLower s' = elongationUpper s /\
  triangularityUpper s' = triangularityLower s /\ triangularityLower s' = triangularityUpper s.
Proof.
  intros s Hs s'. destruct (diagnostics s Hs) as (p1 & p3 & p2 & p4 & _ & _ & _ & _ & I & D).
  destruct (diagnostics s') as (q1 & q3 & q2 & q4 & _ & _ & _ & _ & I' & D'). { unfold s'. destruct s; [contradiction|discriminate]. }
  destruct I as (i1 & i3 & i2 & i4 & E1 & N1 & E3 & N3 & E2 & N2 & E4 & N4). destruct I' as (j1 & j3 & j2 & j4 & F1 & M1 & F3 & M3 & F2 & M2 & F4 & M4).
  assert (HR : Rlcfs s' = Rlcfs s) by (unfold s', Rlcfs; rewrite map_map; reflexivity).
  assert (HZ : Zlcfs s' = map Ropp (Zlcfs s)) by (unfold s', Zlcfs; rewrite !map_map; reflexivity).
  rewrite HR, E1 in F1. rewrite HR, E3 in F3. rewrite HZ, argmax_of_neg, E4 in F2. rewrite HZ, argmin_of_neg, E2 in F4.
  injection F1 as <-. injection F3 as <-. injection F2 as <-. injection F4 as <-.
  assert (Hm : forall i, nth i s' (0, 0) = mirror (nth i s (0, 0))).
  { intros i. unfold s'. replace (0, 0) with (mirror (0, 0)) at 1 by (unfold mirror; cbn; f_equal; ring). apply map_nth. }
  rewrite Hm in M1, M3, M2, M4. rewrite N1 in M1. rewrite N3 in M3. rewrite N4 in M2. rewrite N2 in M4. subst q1 q3 q2 q4.
  unfold mirror in D'. cbn [fst snd] in D'. cbv zeta in D, D'.
  destruct D as (Eg & ER & EZ & Ea & Er & Ei & Ek & Eku & Ekl & Etu & Etl & Et). destruct D' as (Eg' & ER' & EZ' & Ea' & Er' & Ei' & Ek' & Eku' & Ekl' & Etu' & Etl' & Et').
  split; [do 2 eexists; split; [exact Eg|]; rewrite Eg'; f_equal; f_equal; lra|].
  rewrite Ea, Ea', Ek, Ek', Eku, Eku', Ekl, Ekl', Etu, Etu', Etl, Etl', Et, Et'. set (w := (fst p1 - fst p3) / 2).
  repeat split; f_equal; first [reflexivity|apply (f_equal (fun x => x / w)); lra|apply (f_equal2 (fun x y => (x / w + y / w) / 2)); lra|unfold Rdiv; ring].
Qed.
Print Assumptions C98_mirror.
(** The order of the points does not matter for the size and the elongation. *)
Theorem C98_order : forall s s' : list (R * R), Permutation s s' -> minorRadius s' = minorRadius s /\ elongation s' = elongation s /\ Rgeometric s' = Rgeometric s.
Proof.
  intros s s' HP. destruct s as [|p s].
  - apply Permutation_nil in HP. subst. auto.
  - assert (Hs : p :: s <> []) by discriminate. assert (Hs' : s' <> []) by (intros ->; apply Permutation_sym, Permutation_nil in HP; discriminate).
    set (t := p :: s) in *. destruct (diagnostics t Hs) as (p1 & p3 & p2 & p4 & H1 & H3 & H2 & H4 & _ & D).
    destruct (diagnostics s' Hs') as (q1 & q3 & q2 & q4 & G1 & G3 & G2 & G4 & _ & D'). cbv zeta in D, D'.
    assert (U : forall f x y, highest f t x -> highest f s' y -> f x = f y).
    { intros f x y (Ix & Hx) (Iy & Hy). apply Rle_antisym; [apply Hy; apply (Permutation_in _ HP); exact Ix|apply Hx; apply (Permutation_in _ (Permutation_sym HP)); exact Iy]. }
    assert (L : forall f x y, lowest f t x -> lowest f s' y -> f x = f y).
    { intros f x y (Ix & Hx) (Iy & Hy). apply Rle_antisym; [apply Hx; apply (Permutation_in _ (Permutation_sym HP)); exact Iy|apply Hy; apply (Permutation_in _ HP); exact Ix]. }
    rewrite <- (U fst p1 q1 H1 G1), <- (L fst p3 q3 H3 G3), <- (U snd p2 q2 H2 G2), <- (L snd p4 q4 H4 G4) in D'.
    destruct D as (_ & ER & _ & Ea & _ & _ & Ek & _). destruct D' as (_ & ER' & _ & Ea' & _ & _ & Ek' & _).
    rewrite Ea, Ea', Ek, Ek', ER, ER'. auto.
Qed.
Print Assumptions C98_order.
Example C98_example : (elongationUpper (map (fun p => (fst p, - snd p)%Q) diamond), elongationLower (map (fun p => (fst p, - snd p)%Q) diamond)) = (Ok (5 # 2), Ok (3 # 2))%Q.
Proof. vm_compute. reflexivity. Qed.

(** C99 — the separatrix, and with it every shape diagnostic, needs an X-point: IndexError without. *)
Theorem C99_separatrix_needs_xpoint : forall (P Ctl : Type) spline pi sin cos arctan2 (e : equilibrium R P Ctl) n psi o opt,
  total_psi e = Ok psi -> eq_find_critical spline e (e_nx e) (e_ny e) psi = Ok (o :: opt, []) ->
  forall pb, psi_bndry (bs e) = Some (Some pb) -> (4 <= e_nx e)%nat -> (4 <= e_ny e)%nat -> Rmin e < Rmax e -> Zmin e < Zmax e ->
  separatrix spline pi sin cos arctan2 e n = Raise IndexError.
Proof.
  intros P Ctl spline pi sin cos arctan2 e n psi o opt Ep Ef pb Hb Hx Hy HR HZ. unfold separatrix. rewrite Ep. cbn [bind]. rewrite Ef. cbn [bind]. rewrite Hb.
  unfold eq_spline. rewrite RBS_ok; [|exact Hx|exact Hy|apply linspace_increasing; exact HR|apply linspace_increasing; exact HZ]. reflexivity.
Qed.
Print Assumptions C99_separatrix_needs_xpoint.
(** C99 is false: a round plasma bounded by the flux 1/8, well inside the domain. *)
Theorem C99_shape_of_limited_plasma_refuted : exists e : equilibrium R unit unit,
  (forall i j, plasma_psi e i j = (R_1D e i - 1) ^ 2 + Z_1D e j ^ 2) /\ psi_axis (bs e) = Some 0 /\ psi_bndry (bs e) = Some (Some (1 / 8)) /\
  forall spline pi sin cos arctan2 n, exact_for_quadratics spline -> separatrix spline pi sin cos arctan2 e n = Raise IndexError.
Proof.
  exists (round (1 / 8)). split; [|split; [reflexivity|split; [reflexivity|]]].
  - intros i j. unfold round. rewrite bowl_r1d, bowl_z1d by lia. cbn [plasma_psi bowl_eq]. unfold bowl. ring.
  - intros spline pi sin cos arctan2 n Hs. destruct (bowl_psi 5 5 1 1 false [] (mkb (Some 0) (Some (Some (1 / 8))) None None None false None)) as (psi & Ep & Hpsi).
    apply (C99_separatrix_needs_xpoint _ _ spline pi sin cos arctan2 (round (1 / 8)) n psi (1, 0, 0) [] Ep) with (pb := 1 / 8); try reflexivity; try (cbn; lia); try (cbn; lra).
    apply (bowl_find spline 5 5 1 1 false [] _ psi Hs); try lia; try lra. exact Hpsi.
Qed.
Print Assumptions C99_shape_of_limited_plasma_refuted.
