(** C215: the diagnostics have the dimensions of what they stand for. *)
From Coq Require Import List Arith ZArith Bool Reals Lra Lia FunctionalExtensionality.
From Verif Require Import Py Num Numpy Linalg Romb RombProofs Coils Machine MachineProofs Boundary BoundaryProofs Critical CriticalSpec Equilibrium EquilibriumProofs GSSpec GS4Proofs
  Shape ShapeSpec ShapeProofs PropShape Diagnostics DiagnosticsProofs GaugeProofs2 PropSolveFlux PropSimilar.
Import ListNotations.
From Verif Require JtorProofs.
Local Open Scope R_scope.

Section Dimension.
  Context {P Ctl : Type}.
  Variables (G : field -> R -> R -> R -> R -> R) (spline : nat -> nat -> (nat -> R) -> (nat -> R) -> (nat -> nat -> R) -> sfun R).
  Notation eqm := (equilibrium R P Ctl).
  (** [e'] is [k] times as large as [e] and its field is [b] times as strong: the flux is k^2 b times as large and the current k b times. *)
  Record similar (k b : R) (e e' : eqm) : Prop := {
    sim_size : larger k e e';
    sim_mask : mask (bs e') = mask (bs e);
    sim_current : current e' = k * b * current e;
    sim_axis : psi_axis (bs e') = option_map (Rmult (k * k * b)) (psi_axis (bs e));
    sim_bndry : psi_bndry (bs e') = option_map (option_map (Rmult (k * k * b))) (psi_bndry (bs e));
    sim_psi : total_psi e' = rmap (fun psi i j => k * k * b * psi i j) (total_psi e);
    sim_Br : forall r z, eqBr G spline e' (k * r) (k * z) = b * eqBr G spline e r z;
    sim_Bz : forall r z, eqBz G spline e' (k * r) (k * z) = b * eqBz G spline e r z;
    sim_psiRZ : forall r z, psiRZ G spline e' (k * r) (k * z) = k * k * b * psiRZ G spline e r z;
    sim_core : forall m r z, mask (bs e) = Some (Some m) ->
      spline (e_nx e') (e_ny e') (R_1D e') (Z_1D e') m 0%nat 0%nat (k * r) (k * z) = spline (e_nx e) (e_ny e) (R_1D e) (Z_1D e) m 0%nat 0%nat r z }.
  Variables (pi mu0 k b : R) (pressure fpol pressure' fpol' : R -> R) (fvac fvac' : R) (sep : eqm -> nat -> result (list (R * R))) (e e' : eqm).
  Hypothesis Hk : 0 < k.
  Hypothesis Hb : b <> 0.
  Hypothesis S : similar k b e e'.
  Hypothesis Hp : forall x, pressure' x = b * b * pressure x.
  Hypothesis Hf : forall x, fpol' x = k * b * fpol x.
  Hypothesis Hv : fvac' = k * b * fvac.
  (** the separatrix of the larger device *)
  Hypothesis Hsep : forall n, sep e' n = rmap (map (scale k)) (sep e n).

  Lemma sim_gR i j : grid_R e' i j = k * grid_R e i j.
  Proof. destruct (sim_size _ _ _ _ S) as (N & M & A1 & A2 & A3 & A4). rewrite !gridR_is, N, A1, A2. apply gridpt_scaled. Qed.
  Lemma sim_gZ i j : grid_Z e' i j = k * grid_Z e i j.
  Proof. destruct (sim_size _ _ _ _ S) as (N & M & A1 & A2 & A3 & A4). rewrite !gridZ_is, M, A3, A4. apply gridpt_scaled. Qed.
  Lemma sim_nx : e_nx e' = e_nx e. Proof. exact (proj1 (sim_size _ _ _ _ S)). Qed.
  Lemma sim_ny : e_ny e' = e_ny e. Proof. exact (proj1 (proj2 (sim_size _ _ _ _ S))). Qed.
  Lemma sim_dR : spacing_R (e_nx e') (e_ny e') (grid_R e') = rmap (Rmult k) (spacing_R (e_nx e) (e_ny e) (grid_R e)).
  Proof. rewrite sim_nx, sim_ny. unfold spacing_R. destruct (_ || _)%bool; cbn [rmap]; [reflexivity|]. rewrite !sim_gR. nR. f_equal. ring. Qed.
  Lemma sim_dZ : spacing_Z (e_nx e') (e_ny e') (grid_Z e') = rmap (Rmult k) (spacing_Z (e_nx e) (e_ny e) (grid_Z e)).
  Proof. rewrite sim_nx, sim_ny. unfold spacing_Z. destruct (_ || _)%bool; cbn [rmap]; [reflexivity|]. rewrite !sim_gZ. nR. f_equal. ring. Qed.
  Lemma sim_element : volume_element pi e' = rmap (fun dV i j => k ^ 3 * dV i j) (volume_element pi e).
  Proof.
    unfold volume_element. rewrite sim_dR, sim_dZ, (sim_mask _ _ _ _ S).
    destruct (spacing_R (e_nx e) (e_ny e) (grid_R e)) as [dR|]; cbn [rmap bind]; [|reflexivity].
    destruct (spacing_Z (e_nx e) (e_ny e) (grid_Z e)) as [dZ|]; cbn [rmap bind]; [|reflexivity].
    destruct (mask (bs e)) as [[m|]|]; cbn [rmap]; [| |reflexivity]; f_equal; extensionality i; extensionality j; rewrite sim_gR; nR; ring.
  Qed.
  Lemma sim_integral f f' c : (forall i j, f' i j = c * f i j) -> volume_integral pi e' f' = rmap (Rmult (k ^ 3 * c)) (volume_integral pi e f).
  Proof.
    intros E. unfold volume_integral. rewrite sim_element. destruct (volume_element pi e) as [dV|]; cbn [rmap bind]; [|reflexivity].
    rewrite sim_nx, sim_ny, <- romb2_scal. f_equal. extensionality i. extensionality j. rewrite E. nR. ring.
  Qed.
  Lemma sim_psiN : psiN e' = psiN e.
  Proof.
    unfold psiN, axis_and_bndry. rewrite (sim_psi _ _ _ _ S), (sim_axis _ _ _ _ S), (sim_bndry _ _ _ _ S). destruct (total_psi e) as [psi|]; cbn [rmap bind]; [|reflexivity].
    destruct (psi_axis (bs e)) as [pa|]; cbn [option_map]; [|reflexivity]. destruct (psi_bndry (bs e)) as [[pb|]|]; cbn [option_map]; try reflexivity. cbn [bind].
    f_equal. extensionality i. extensionality j. nR. replace (k * k * b * pb - k * k * b * pa) with ((k * k * b) * (pb - pa)) by ring. unfold Rdiv. rewrite Rinv_mult.
    set (d := / (pb - pa)). field. split; [exact Hb|lra].
  Qed.
  Lemma sim_pressure : pressure_integral pi pressure' e' = rmap (Rmult (k ^ 3 * (b * b))) (pressure_integral pi pressure e).
  Proof. unfold pressure_integral. rewrite sim_psiN. destruct (psiN e) as [pn|]; cbn [bind rmap]; [|reflexivity]. apply sim_integral. intros i j. apply Hp. Qed.
  Lemma sim_field : field_integral G spline pi e' = rmap (Rmult (k ^ 3 * (b * b))) (field_integral G spline pi e).
  Proof. unfold field_integral. apply sim_integral. intros i j. unfold Bpol2. rewrite sim_gR, sim_gZ, (sim_Br _ _ _ _ S), (sim_Bz _ _ _ _ S). nR. ring. Qed.
  Lemma sim_Btor r z : Btor G spline fpol' fvac' e' (k * r) (k * z) = rmap (Rmult b) (Btor G spline fpol fvac e r z).
  Proof.
    unfold Btor, axis_and_bndry. rewrite (sim_axis _ _ _ _ S), (sim_bndry _ _ _ _ S), (sim_mask _ _ _ _ S), (sim_psiRZ _ _ _ _ S).
    destruct (psi_axis (bs e)) as [pa|]; cbn [option_map]; [|reflexivity]. destruct (psi_bndry (bs e)) as [[pb|]|]; cbn [option_map]; try reflexivity. cbn [bind]. nR.
    assert (E : (k * k * b * psiRZ G spline e r z - k * k * b * pa) / (k * k * b * pb - k * k * b * pa) = (psiRZ G spline e r z - pa) / (pb - pa)).
    { replace (k * k * b * pb - k * k * b * pa) with ((k * k * b) * (pb - pa)) by ring. unfold Rdiv. rewrite Rinv_mult. set (d := / (pb - pa)). field. split; [exact Hb|lra]. }
    rewrite E. destruct (mask (bs e)) as [[m|]|] eqn:Em; cbn [rmap]; [| |reflexivity]; f_equal; rewrite ?(sim_core _ _ _ _ S) by exact Em; rewrite ?Hf, ?Hv; nR; unfold Rdiv; rewrite Rinv_mult;
      set (d := / r); field; lra.
  Qed.
  Lemma sim_Btor2 : Btor2 G spline fpol' fvac' e' = rmap (fun a i j => b * b * a i j) (Btor2 G spline fpol fvac e).
  Proof.
    unfold Btor2. rewrite sim_gR, sim_gZ, sim_Btor. destruct (Btor G spline fpol fvac e (grid_R e 0%nat 0%nat) (grid_Z e 0%nat 0%nat)) as [v|]; cbn [rmap bind]; [|reflexivity].
    f_equal. extensionality i. extensionality j. rewrite sim_gR, sim_gZ, sim_Btor. destruct (Btor G spline fpol fvac e (grid_R e i j) (grid_Z e i j)); cbn [rmap]; nR; ring.
  Qed.
  Lemma k3b : k ^ 3 * (b * b) <> 0.
  Proof. apply Rmult_integral_contrapositive. split; [apply pow_nonzero; lra|]. apply Rmult_integral_contrapositive. split; exact Hb. Qed.
  Lemma quot c x y : c <> 0 -> c * x / (c * y) = x / y.
  Proof. intros Hc. unfold Rdiv. rewrite Rinv_mult. set (d := / y). field. exact Hc. Qed.

  (** ** Volume, pressure and energy *)
  Lemma D_volume : plasmaVolume pi e' = rmap (Rmult (k ^ 3)) (plasmaVolume pi e).
  Proof. unfold plasmaVolume. rewrite sim_element. destruct (volume_element pi e) as [dV|]; cbn [rmap bind]; [|reflexivity]. rewrite sim_nx, sim_ny. apply romb2_scal. Qed.
  Lemma D_wth : w_th pi pressure' e' = rmap (Rmult (k ^ 3 * (b * b))) (w_th pi pressure e).
  Proof. unfold w_th. rewrite sim_pressure. destruct (pressure_integral pi pressure e); cbn [rmap bind]; [|reflexivity]. f_equal. nR. field. Qed.
  Lemma D_pave : pressure_ave G spline pi pressure' fpol' fvac' e' = rmap (Rmult (b * b)) (pressure_ave G spline pi pressure fpol fvac e).
  Proof.
    unfold pressure_ave. rewrite sim_Btor2, sim_pressure, D_volume. destruct (Btor2 G spline fpol fvac e); cbn [rmap bind]; [|reflexivity].
    destruct (pressure_integral pi pressure e) as [p|]; cbn [rmap bind]; [|reflexivity]. destruct (plasmaVolume pi e) as [v|]; cbn [rmap bind]; [|reflexivity]. f_equal. nR.
    unfold Rdiv. rewrite Rinv_mult. set (d := / v). field. lra.
  Qed.
  (** ** Betas *)
  Lemma D_betap : poloidalBeta G spline pi mu0 pressure' e' = poloidalBeta G spline pi mu0 pressure e.
  Proof.
    unfold poloidalBeta. rewrite sim_pressure, sim_field. destruct (pressure_integral pi pressure e) as [p|]; cbn [rmap bind]; [|reflexivity].
    destruct (field_integral G spline pi e) as [f|]; cbn [rmap bind]; [|reflexivity]. f_equal. nR.
    replace (2 * mu0 * (k ^ 3 * (b * b) * p)) with (k ^ 3 * (b * b) * (2 * mu0 * p)) by ring. apply quot, k3b.
  Qed.
  Lemma kb2 : k * b <> 0. Proof. apply Rmult_integral_contrapositive. split; [lra|exact Hb]. Qed.
  Lemma D_betap2 : poloidalBeta2 pi mu0 pressure' e' = poloidalBeta2 pi mu0 pressure e.
  Proof.
    unfold poloidalBeta2. rewrite sim_dR, sim_dZ, sim_psiN, (sim_mask _ _ _ _ S), (sim_current _ _ _ _ S), sim_nx, sim_ny.
    destruct (spacing_R (e_nx e) (e_ny e) (grid_R e)) as [dR|]; cbn [rmap bind]; [|reflexivity]. destruct (spacing_Z (e_nx e) (e_ny e) (grid_Z e)) as [dZ|]; cbn [rmap bind]; [|reflexivity].
    destruct (psiN e) as [pn|]; cbn [bind]; [|reflexivity]. destruct (mask (bs e)) as [m|]; [|reflexivity].
    set (a := fun i j : nat => match m with Some m0 => (pressure (pn i j) * m0 i j)%num | None => pressure (pn i j) end).
    replace (fun i j : nat => match m with Some m0 => (pressure' (pn i j) * m0 i j)%num | None => pressure' (pn i j) end) with (fun i j => b * b * a i j)
      by (extensionality i; extensionality j; unfold a; destruct m; rewrite Hp; nR; ring).
    rewrite romb2_scal. destruct (romb2 (e_nx e) (e_ny e) a) as [p|]; cbn [rmap bind]; [|reflexivity]. f_equal. nR.
    replace (8 * pi / mu0 * (b * b * p) * (k * dR) * (k * dZ)) with ((k * b) * (k * b) * (8 * pi / mu0 * p * dR * dZ)) by (unfold Rdiv; ring).
    replace (k * b * current e * (k * b * current e)) with ((k * b) * (k * b) * (current e * current e)) by ring. apply quot. apply Rmult_integral_contrapositive. split; apply kb2.
  Qed.
  Lemma D_betat : toroidalBeta G spline pi mu0 pressure' fpol' fvac' e' = toroidalBeta G spline pi mu0 pressure fpol fvac e.
  Proof.
    unfold toroidalBeta. rewrite sim_Btor2, sim_pressure. destruct (Btor2 G spline fpol fvac e) as [bt|]; cbn [rmap bind]; [|reflexivity].
    destruct (pressure_integral pi pressure e) as [p|]; cbn [rmap bind]; [|reflexivity]. rewrite (sim_integral bt (fun i j => b * b * bt i j) (b * b)) by reflexivity.
    destruct (volume_integral pi e bt) as [f|]; cbn [rmap bind]; [|reflexivity]. f_equal. nR.
    replace (2 * mu0 * (k ^ 3 * (b * b) * p)) with (k ^ 3 * (b * b) * (2 * mu0 * p)) by ring. apply quot, k3b.
  Qed.
  Lemma D_beta : totalBeta G spline pi mu0 pressure' fpol' fvac' e' = totalBeta G spline pi mu0 pressure fpol fvac e.
  Proof. unfold totalBeta. rewrite D_betap, D_betat. reflexivity. Qed.
  (** ** With the shape of the plasma *)
  Lemma geo_scaled s : geometricAxis (map (scale k) s) = rmap (fun c => (k * fst c, k * snd c)) (geometricAxis s).
  Proof. destruct s as [|p s]; [reflexivity|]. destruct (C98_scaling (p :: s) k ltac:(discriminate) Hk) as ((R0 & z0 & a & E1 & E2 & _) & _). rewrite E1, E2. reflexivity. Qed.
  Lemma Rgeo_scaled s : Rgeometric (map (scale k) s) = rmap (Rmult k) (Rgeometric s).
  Proof. unfold Rgeometric. rewrite geo_scaled. destruct (geometricAxis s); reflexivity. Qed.
  Lemma minor_scaled s : minorRadius (map (scale k) s) = rmap (Rmult k) (minorRadius s).
  Proof. destruct s as [|p s]; [reflexivity|]. destruct (C98_scaling (p :: s) k ltac:(discriminate) Hk) as ((R0 & z0 & a & _ & _ & E1 & E2) & _). rewrite E1, E2. reflexivity. Qed.
  Lemma elong_scaled s : minorRadius s <> Ok 0 -> elongation (map (scale k) s) = elongation s.
  Proof. intros Hs. destruct s as [|p s]; [reflexivity|]. destruct (C98_scaling (p :: s) k ltac:(discriminate) Hk) as (_ & H). exact (proj1 (H Hs)). Qed.
  Lemma li_quot f r : 2 * (k ^ 3 * (b * b) * f) / (mu0 * (k * b * current e) * (mu0 * (k * b * current e)) * (k * r)) = 2 * f / (mu0 * current e * (mu0 * current e) * r).
  Proof.
    replace (2 * (k ^ 3 * (b * b) * f)) with (k ^ 3 * (b * b) * (2 * f)) by ring.
    replace (mu0 * (k * b * current e) * (mu0 * (k * b * current e)) * (k * r)) with (k ^ 3 * (b * b) * (mu0 * current e * (mu0 * current e) * r)) by ring. apply quot, k3b.
  Qed.
  Lemma D_li3 n : internalInductance3 G spline pi mu0 sep e' n = internalInductance3 G spline pi mu0 sep e n.
  Proof.
    unfold internalInductance3. rewrite Hsep, sim_field, (sim_current _ _ _ _ S). destruct (sep e n) as [s|]; cbn [rmap bind]; [|reflexivity].
    rewrite Rgeo_scaled. destruct (Rgeometric s) as [r|]; cbn [rmap bind]; [|reflexivity]. destruct (field_integral G spline pi e) as [f|]; cbn [rmap bind]; [|reflexivity]. f_equal. nR. apply li_quot.
  Qed.
  Lemma D_li n : internalInductance G spline pi mu0 sep e' n = internalInductance G spline pi mu0 sep e n.
  Proof.
    unfold internalInductance. rewrite Hsep, sim_field, (sim_current _ _ _ _ S). destruct (sep e n) as [s|]; cbn [rmap bind]; [|reflexivity].
    rewrite Rgeo_scaled. destruct (Rgeometric s) as [r|]; cbn [rmap bind]; [|reflexivity]. destruct (field_integral G spline pi e) as [f|]; cbn [rmap bind]; [|reflexivity]. f_equal. nR.
    replace (mu0 * mu0 * (k * r) * (k * b * current e) * (k * b * current e)) with (mu0 * (k * b * current e) * (mu0 * (k * b * current e)) * (k * r)) by ring. rewrite li_quot. f_equal. ring.
  Qed.
  Lemma D_li2 : magneticAxis spline e' = rmap (fun p => (k * fst (fst p), k * snd (fst p), k * k * b * snd p)) (magneticAxis spline e) ->
    internalInductance2 G spline pi mu0 e' = internalInductance2 G spline pi mu0 e.
  Proof.
    intros Hax. unfold internalInductance2. rewrite Hax, sim_field, (sim_current _ _ _ _ S). destruct (magneticAxis spline e) as [ax|]; cbn [rmap bind]; [|reflexivity].
    destruct (field_integral G spline pi e) as [f|]; cbn [rmap bind]; [|reflexivity]. f_equal. unfold pR. cbn [fst snd]. nR. apply li_quot.
  Qed.
  Lemma D_li1 n : (forall s, sep e n = Ok s -> minorRadius s <> Ok 0) -> internalInductance1 G spline pi mu0 sep e' n = internalInductance1 G spline pi mu0 sep e n.
  Proof.
    intros Hs. unfold internalInductance1. rewrite Hsep, D_volume, sim_field, (sim_current _ _ _ _ S). destruct (sep e n) as [s|]; cbn [rmap bind]; [|reflexivity]. specialize (Hs s eq_refl).
    rewrite Rgeo_scaled, elong_scaled by exact Hs. destruct (Rgeometric s) as [r|] eqn:Er; cbn [rmap bind]; [|reflexivity]. destruct (elongation s) as [kp|]; cbn [bind]; [|reflexivity].
    destruct (plasmaVolume pi e) as [v|]; cbn [rmap bind]; [|reflexivity]. unfold effectiveElongation. rewrite Rgeo_scaled, minor_scaled, Er. cbn [rmap bind].
    destruct (minorRadius s) as [a|]; cbn [rmap bind]; [|reflexivity]. destruct (field_integral G spline pi e) as [f|]; cbn [rmap bind]; [|reflexivity]. f_equal. nR. rewrite li_quot.
    replace (2 * pi * (k * r) * pi * (k * a * (k * a))) with (k ^ 3 * (2 * pi * r * pi * (a * a))) by ring. rewrite quot by (apply pow_nonzero; lra). reflexivity.
  Qed.
  Lemma D_betaN : betaN G spline pi mu0 pressure' fpol' fvac' sep e' = betaN G spline pi mu0 pressure fpol fvac sep e.
  Proof.
    unfold betaN. rewrite Hsep, D_betat, (sim_current _ _ _ _ S). destruct (sep e 360%nat) as [s|]; cbn [rmap bind]; [|reflexivity]. rewrite geo_scaled, minor_scaled.
    destruct (geometricAxis s) as [c|]; cbn [rmap bind]; [|reflexivity]. cbn [fst snd]. rewrite sim_Btor. destruct (Btor G spline fpol fvac e (fst c) (snd c)) as [bt|]; cbn [rmap bind]; [|reflexivity].
    destruct (toroidalBeta G spline pi mu0 pressure fpol fvac e) as [x|]; cbn [bind]; [|reflexivity]. destruct (minorRadius s) as [a|]; cbn [rmap bind]; [|reflexivity]. f_equal. nR. f_equal.
    replace (k * a * (b * bt)) with (k * b * (a * bt)) by ring. apply quot, kb2.
  Qed.
  Lemma D_qcyl : (forall s, sep e 360%nat = Ok s -> minorRadius s <> Ok 0) -> qcyl pi mu0 fvac' sep e' = qcyl pi mu0 fvac sep e.
  Proof.
    intros Hs. unfold qcyl. rewrite Hsep, (sim_current _ _ _ _ S). destruct (sep e 360%nat) as [s|]; cbn [rmap bind]; [|reflexivity]. specialize (Hs s eq_refl).
    unfold inverseAspectRatio. rewrite minor_scaled, Rgeo_scaled, elong_scaled by exact Hs. destruct (minorRadius s) as [a|]; cbn [rmap bind]; [|reflexivity].
    destruct (Rgeometric s) as [r|]; cbn [rmap bind]; [|reflexivity]. destruct (elongation s) as [kp|]; cbn [bind]; [|reflexivity]. f_equal. nR. f_equal. rewrite Hv.
    rewrite (quot k a r) by lra. unfold Rdiv. rewrite !Rinv_mult. set (d := / r). set (m := / mu0). set (c := / current e). field. split; [exact Hb|lra].
  Qed.
  Lemma D_betap3 : poloidalBeta3 pi mu0 pressure' sep e' = rmap (Rmult (k ^ 3)) (poloidalBeta3 pi mu0 pressure sep e).
  Proof.
    unfold poloidalBeta3. rewrite sim_pressure, D_volume, Hsep, (sim_current _ _ _ _ S). destruct (pressure_integral pi pressure e) as [p|]; cbn [rmap bind]; [|reflexivity].
    destruct (plasmaVolume pi e) as [v|]; cbn [rmap bind]; [|reflexivity]. destruct (sep e 360%nat) as [s|]; cbn [rmap bind]; [|reflexivity]. rewrite Rgeo_scaled.
    destruct (Rgeometric s) as [r|]; cbn [rmap bind]; [|reflexivity]. f_equal. nR. unfold Rdiv. rewrite !Rinv_mult. set (d := / r). set (m := / mu0). set (c := / current e). field. split; [lra|exact Hb].
  Qed.
End Dimension.

(** ** C215 *)
Theorem C215_energy : forall (P Ctl : Type) G spline pi k b pressure fpol pressure' fpol' fvac fvac' (e e' : equilibrium R P Ctl), 0 < k -> b <> 0 ->
  similar G spline k b e e' -> (forall x, pressure' x = b * b * pressure x) -> (forall x, fpol' x = k * b * fpol x) -> fvac' = k * b * fvac ->
  plasmaVolume pi e' = rmap (Rmult (k ^ 3)) (plasmaVolume pi e) /\
  pressure_ave G spline pi pressure' fpol' fvac' e' = rmap (Rmult (b * b)) (pressure_ave G spline pi pressure fpol fvac e) /\
  w_th pi pressure' e' = rmap (Rmult (k ^ 3 * (b * b))) (w_th pi pressure e).
Proof.
  intros P Ctl G spline pi k b pressure fpol pressure' fpol' fvac fvac' e e' Hk Hb S Hp Hf Hv.
  split; [|split]; [eapply D_volume|eapply D_pave|eapply D_wth]; eassumption.
Qed.
Print Assumptions C215_energy.
(** The betas and the internal inductances are numbers without dimension. *)
Theorem C215_betas : forall (P Ctl : Type) G spline pi mu0 k b pressure fpol pressure' fpol' fvac fvac' sep (e e' : equilibrium R P Ctl), 0 < k -> b <> 0 ->
  similar G spline k b e e' -> (forall x, pressure' x = b * b * pressure x) -> (forall x, fpol' x = k * b * fpol x) -> fvac' = k * b * fvac ->
  (forall n, sep e' n = rmap (map (scale k)) (sep e n)) ->
  poloidalBeta G spline pi mu0 pressure' e' = poloidalBeta G spline pi mu0 pressure e /\
  poloidalBeta2 pi mu0 pressure' e' = poloidalBeta2 pi mu0 pressure e /\
  toroidalBeta G spline pi mu0 pressure' fpol' fvac' e' = toroidalBeta G spline pi mu0 pressure fpol fvac e /\
  totalBeta G spline pi mu0 pressure' fpol' fvac' e' = totalBeta G spline pi mu0 pressure fpol fvac e /\
  betaN G spline pi mu0 pressure' fpol' fvac' sep e' = betaN G spline pi mu0 pressure fpol fvac sep e.
Proof.
  intros P Ctl G spline pi mu0 k b pressure fpol pressure' fpol' fvac fvac' sep e e' Hk Hb S Hp Hf Hv Hsep.
  repeat split; [eapply D_betap|eapply D_betap2|eapply D_betat|eapply D_beta|eapply D_betaN]; eassumption.
Qed.
Print Assumptions C215_betas.
Theorem C215_inductance : forall (P Ctl : Type) G spline pi mu0 k b fvac fvac' sep (e e' : equilibrium R P Ctl) n, 0 < k -> b <> 0 ->
  similar G spline k b e e' -> fvac' = k * b * fvac -> (forall n, sep e' n = rmap (map (scale k)) (sep e n)) ->
  internalInductance G spline pi mu0 sep e' n = internalInductance G spline pi mu0 sep e n /\
  internalInductance3 G spline pi mu0 sep e' n = internalInductance3 G spline pi mu0 sep e n /\
  ((forall n s, sep e n = Ok s -> minorRadius s <> Ok 0) ->
     internalInductance1 G spline pi mu0 sep e' n = internalInductance1 G spline pi mu0 sep e n /\ qcyl pi mu0 fvac' sep e' = qcyl pi mu0 fvac sep e) /\
  (magneticAxis spline e' = rmap (fun p => (k * fst (fst p), k * snd (fst p), k * k * b * snd p)) (magneticAxis spline e) ->
     internalInductance2 G spline pi mu0 e' = internalInductance2 G spline pi mu0 e).
Proof.
  intros P Ctl G spline pi mu0 k b fvac fvac' sep e e' n Hk Hb S Hv Hsep. split; [eapply D_li; eassumption|]. split; [eapply D_li3; eassumption|]. split.
  - intros Hs. split; [eapply D_li1|eapply D_qcyl]; try eassumption; intros s; apply Hs.
  - intros Hax. eapply D_li2; eassumption.
Qed.
Print Assumptions C215_inductance.

(** Two equilibria: [exDim k b] is k times as large with b times the field, from a function of the flux in the corner that a
    spline could be: (r / R_0)^2. *)
Definition dimSpline : nat -> nat -> (nat -> R) -> (nat -> R) -> arr2 R -> sfun R := fun _ _ x _ z dx dy r _ =>
  match dx, dy with
  | 0%nat, 0%nat => z 0%nat 0%nat * (r / x 0%nat * (r / x 0%nat))
  | 1%nat, 0%nat => z 0%nat 0%nat * (2 * r / (x 0%nat * x 0%nat))
  | _, _ => 0
  end.
Definition exDim (k b : R) : equilibrium R unit unit :=
  mkeq 3 3 k (k * 3) 0 (k * 2) (mktok [] false []) BFree 2 (SUser (fun _ _ => Raise TypeError)) false (fun _ _ => k * k * b) (fun _ _ => []) (k * b * 8) None
    (mkb (Some 0) (Some (Some (k * k * b))) (Some (Some (fun i j => if ((i =? 1) && (j =? 1))%nat then 1 else 0))) None None false None) None None.
Lemma exDim_R k b i : R_1D (exDim k b) i = k * (1 + INR i).
Proof. unfold R_1D. rewrite linspace_gridpt. unfold gridpt. cbn [Rmin Rmax e_nx exDim Nat.sub INR]. field. Qed.
Lemma exDim_similar k b : 0 < k -> similar (fun _ _ _ _ _ => 0) dimSpline k b (exDim 1 1) (exDim k b).
Proof.
  intros Hk. split.
  - unfold larger. cbn. repeat split; lra.
  - reflexivity.
  - cbn. ring.
  - cbn. f_equal. ring.
  - cbn. do 2 f_equal. ring.
  - destruct (no_coils_psi (exDim 1 1) eq_refl) as (p1 & E1 & F1). destruct (no_coils_psi (exDim k b) eq_refl) as (p2 & E2 & F2). rewrite E1, E2. cbn [rmap]. f_equal.
    extensionality i. extensionality j. rewrite F1, F2. cbn. ring.
  - intros r z. unfold eqBr, plasmaBr, psi_func, dimSpline. cbn [tok exDim coils]. unfold machine_field. cbn. nR. unfold Rdiv. ring.
  - intros r z. unfold eqBz, plasmaBz, psi_func, dimSpline. rewrite !exDim_R. cbn [tok exDim coils plasma_psi]. unfold machine_field. cbn. nR.
    unfold Rdiv. rewrite !Rinv_mult. set (d := / r). field; repeat split; lra.
  - intros r z. unfold psiRZ, psi_func, dimSpline. rewrite !exDim_R. cbn [tok exDim coils plasma_psi]. unfold machine_field. cbn. nR. field; repeat split; lra.
  - intros m r z _. unfold dimSpline. rewrite !exDim_R. cbn. field; repeat split; lra.
Qed.
Example C215_example : forall k b, 0 < k -> b <> 0 -> exists v w,
  plasmaVolume PI (exDim 1 1) = Ok v /\ plasmaVolume PI (exDim k b) = Ok (k ^ 3 * v) /\ 0 < v /\
  field_integral (fun _ _ _ _ _ => 0) dimSpline PI (exDim 1 1) = Ok w /\ 0 < w /\
  poloidalBeta (fun _ _ _ _ _ => 0) dimSpline PI 1 (fun x => b * b * x) (exDim k b) = poloidalBeta (fun _ _ _ _ _ => 0) dimSpline PI 1 (fun x => x) (exDim 1 1).
Proof.
  intros k b Hk Hb. assert (Hpi := PI_RGT_0).
  assert (V : plasmaVolume PI (exDim 1 1) = Ok (64 / 9 * PI)).
  { unfold plasmaVolume, volume_element. cbn [e_nx e_ny exDim]. rewrite spacing_R_ok, spacing_Z_ok by lia. cbn [bind mask bs exDim]. rewrite JtorProofs.romb2_3x3. f_equal.
    rewrite !gridR_is, !gridZ_is. unfold gridpt. cbn. nR. field. }
  assert (W : exists w, field_integral (fun _ _ _ _ _ => 0) dimSpline PI (exDim 1 1) = Ok w /\ 0 < w).
  { exists (256 / 9 * PI). split; [|lra]. unfold field_integral, volume_integral, volume_element. cbn [e_nx e_ny exDim]. rewrite spacing_R_ok, spacing_Z_ok by lia. cbn [bind mask bs exDim]. rewrite JtorProofs.romb2_3x3. f_equal.
    unfold Bpol2, eqBr, eqBz, plasmaBr, plasmaBz, psi_func, dimSpline. rewrite !exDim_R, !gridR_is, !gridZ_is. unfold gridpt, machine_field. cbn. nR. field. }
  destruct W as (w & W & Hw). exists (64 / 9 * PI), w. split; [exact V|]. split.
  - rewrite (proj1 (C215_energy unit unit (fun _ _ _ _ _ => 0) dimSpline PI k b (fun x => x) (fun x => x) (fun x => b * b * x) (fun x => k * b * x) 1 (k * b) (exDim 1 1) (exDim k b) Hk Hb (exDim_similar k b Hk) ltac:(reflexivity) ltac:(reflexivity) ltac:(ring))).
    rewrite V. reflexivity.
  - split; [lra|]. split; [exact W|]. split; [exact Hw|].
    exact (proj1 (C215_betas unit unit (fun _ _ _ _ _ => 0) dimSpline PI 1 k b (fun x => x) (fun x => x) (fun x => b * b * x) (fun x => k * b * x) 1 (k * b) (fun _ _ => Raise ValueError) (exDim 1 1) (exDim k b) Hk Hb (exDim_similar k b Hk)
      ltac:(reflexivity) ltac:(reflexivity) ltac:(ring) ltac:(reflexivity))).
Qed.

(** poloidalBeta3, which should have no dimension, has that of a volume (see [C101_betap3_refuted]). *)
Theorem C215_betap3 : forall (P Ctl : Type) G spline pi mu0 k b pressure pressure' sep (e e' : equilibrium R P Ctl), 0 < k -> b <> 0 ->
  similar G spline k b e e' -> (forall x, pressure' x = b * b * pressure x) -> (forall n, sep e' n = rmap (map (scale k)) (sep e n)) ->
  poloidalBeta3 pi mu0 pressure' sep e' = rmap (Rmult (k ^ 3)) (poloidalBeta3 pi mu0 pressure sep e).
Proof. intros P Ctl G spline pi mu0 k b pressure pressure' sep e e' Hk Hb S Hp Hsep. eapply D_betap3; eassumption. Qed.
Print Assumptions C215_betap3.
