(** C66 to C69 and C110: saving and loading. *)
From Coq Require Import String Ascii List Arith ZArith QArith Bool Reals Lra Lia Permutation.
From Verif Require Import Py Num Numpy Polygons Coils Machine MachineSpec MachineProofs Sensors SensorsProofs GradShafranov GS4Proofs Multigrid Critical Boundary Jtor Equilibrium EquilibriumProofs EquilibriumProofs3 Serial SerialSpec SerialProofs PropMachine.
Import ListNotations.
Local Open Scope R_scope.
Local Open Scope string_scope.

(** ** C66 *)
(** Every savable coil, circuit or solenoid comes back the same; only the area of a plain coil,
    which the comparison of coils does not look at, is not kept. *)
Theorem C66_round_trip : forall int_of fuel (m : mcoil R), (forall n, int_of (INR n) = n) -> savable fuel m ->
  exists d m', to_numpy m = Ok d /\ from_numpy int_of fuel (class_of m) d = Ok m' /\ restored m m'.
Proof. intros int_of fuel m Hi Hs. exact (round_trip int_of fuel Hi m Hs). Qed.
Print Assumptions C66_round_trip.

(** A restored coil carries the same current, has the same control flag and makes the same field. *)
Theorem C66_same_field : forall int_of fuel (m : mcoil R) d m' G f r z, (forall n, int_of (INR n) = n) -> savable fuel m ->
  to_numpy m = Ok d -> from_numpy int_of fuel (class_of m) d = Ok m' ->
  fst (mc_field G f m' r z) = fst (mc_field G f m r z) /\ mc_ctrl G f m' r z = mc_ctrl G f m r z /\
  mc_current m' = mc_current m /\ mc_control m' = mc_control m.
Proof.
  intros int_of fuel m d m' G f r z Hi Hs Ed Em. destruct (round_trip int_of fuel Hi m Hs) as (d' & m1 & Ed' & Em' & HR).
  rewrite Ed in Ed'. injection Ed' as <-. rewrite Em in Em'. injection Em' as <-.
  destruct (restored_response G f _ _ r z HR) as (E1 & E2 & E3). rewrite !mc_field_eq. cbn [fst]. rewrite E1, E2. auto.
Qed.
Print Assumptions C66_same_field.

(** The savable objects are those that the constructors and the setters of current and control
    make: a ShapedCoil with at most ten vertices that was not moved ... *)
Theorem C66_shaped_reached : forall fuel shape I t b n c I' b', ShapedCoil fuel shape I t b n = Ok c -> (length shape <= 10)%nat ->
  savable fuel (MCoil (set_control (set_current c I') b')).
Proof.
  intros fuel shape I t b n c I' b' E Hl. unfold ShapedCoil in E. destruct (2 <? length shape)%nat eqn:E2; [|discriminate].
  destruct (Quadrature.polygon_quad fuel shape n) as [pts|e] eqn:Eq; [|discriminate]. cbn [bind] in E. injection E as <-.
  cbn [savable c_kind set_control set_current]. split; [exact Hl|]. unfold ShapedCoil. rewrite E2, Eq. reflexivity.
Qed.
Print Assumptions C66_shaped_reached.
(** ... and any history of a circuit of point coils whose first multiplier is not zero. *)
Theorem C66_circuit_reached : forall fuel G (coils : list (member R)) I b h,
  Forall (fun m => is_point (m_coil m)) coils -> match coils with [] => False | m :: _ => m_mult m <> 0 end ->
  savable fuel (MCircuit (fold_left (circuit_step G) h (Circuit coils I b))).
Proof.
  intros fuel G coils I b h HP H0.
  assert (K : forall ci, Forall (fun m => is_point (m_coil m)) (ci_coils ci) -> circuit_synced ci -> flags_agree ci ->
            match ci_coils ci with [] => False | m :: _ => m_mult m <> 0 end -> savable fuel (MCircuit (fold_left (circuit_step G) h ci))).
  { induction h as [|o h IH]; intros ci K1 K2 K3 K4; [cbn; auto|]. cbn [fold_left]. apply IH.
    - destruct o; cbn [circuit_step].
      + unfold circuit_set_current. cbn [ci_coils]. rewrite Forall_map. exact K1.
      + unfold circuit_set_control. cbn [ci_coils]. rewrite Forall_map. exact K1.
      + rewrite circuit_field_eq. cbn [snd resync ci_coils]. rewrite Forall_map. exact K1.
      + destruct (circuit_from_greens ci g) as [[v ci']|e] eqn:E; [apply circuit_from_greens_state in E as ->|]; cbn [resync ci_coils]; rewrite Forall_map; exact K1.
    - apply circuit_step_synced, K2.
    - unfold flags_agree in *. destruct o; cbn [circuit_step].
      + unfold circuit_set_current. cbn [ci_coils ci_control]. rewrite Forall_map. exact K3.
      + unfold circuit_set_control. cbn [ci_coils ci_control]. rewrite Forall_map. apply Forall_forall. intros; reflexivity.
      + rewrite circuit_field_eq. cbn [snd resync ci_coils ci_control]. rewrite Forall_map. exact K3.
      + destruct (circuit_from_greens ci g) as [[v ci']|e] eqn:E; [apply circuit_from_greens_state in E as ->|]; cbn [resync ci_coils ci_control]; rewrite Forall_map; exact K3.
    - destruct o; cbn [circuit_step].
      + unfold circuit_set_current. cbn [ci_coils]. destruct (ci_coils ci); exact K4.
      + unfold circuit_set_control. cbn [ci_coils]. destruct (ci_coils ci); exact K4.
      + rewrite circuit_field_eq. cbn [snd resync ci_coils]. destruct (ci_coils ci); exact K4.
      + destruct (circuit_from_greens ci g) as [[v ci']|e] eqn:E; [apply circuit_from_greens_state in E as ->|]; cbn [resync ci_coils]; destruct (ci_coils ci); exact K4. }
  apply K; unfold Circuit, circuit_set_control, circuit_set_current, flags_agree, circuit_synced; cbn [ci_coils ci_current ci_control].
  - rewrite map_map, Forall_map. exact HP.
  - rewrite map_map, Forall_map. apply Forall_forall. intros m _. cbn. nR. apply Rmult_comm.
  - rewrite map_map, Forall_map. apply Forall_forall. intros m _. reflexivity.
  - destruct coils; cbn; [exact H0|]. exact H0.
Qed.
Print Assumptions C66_circuit_reached.

Definition int_R (x : R) : nat := Z.to_nat (up x - 1).
Lemma int_R_ok n : int_R (INR n) = n.
Proof.
  unfold int_R. rewrite <- (tech_up (INR n) (Z.of_nat n + 1)).
  - rewrite Z.add_simpl_r. apply Nat2Z.id.
  - rewrite plus_IZR, <- INR_IZR_INZ. lra.
  - rewrite plus_IZR, <- INR_IZR_INZ. lra.
Qed.
(** A triangle *)
Lemma triangle_coil fuel I t b : exists c, ShapedCoil fuel [(1, 0); (1, 1); (2, 0)] I t b 1 = Ok c /\ c_current c = I.
Proof.
  unfold ShapedCoil. cbn [length Nat.ltb Nat.leb]. unfold Quadrature.polygon_quad, triangulate. cbv zeta.
  assert (E : exists a b c : R * R, (if clockwise [(1, 0); (1, 1); (2, 0)] then [(1, 0); (1, 1); (2, 0)] else rev [(1, 0); (1, 1); (2, 0)]) = [a; b; c]).
  { destruct (clockwise _); cbn [rev app]; eauto. }
  destruct E as ([p1 p2] & [q1 q2] & [s1 s2] & ->). destruct fuel; eexists; split; reflexivity.
Qed.
Example C66_example :
  savable 5 (MCoil exP) /\ savable 5 (MCircuit exC) /\ savable 5 (MSolenoid exS) /\
  (exists c, savable 5 (MCoil c) /\ c_current c = 12) /\
  from_numpy int_R 5 CSolenoid (DSolenoid 1 2 3 (INR 4) 5 true) = Ok (MSolenoid (mksol 1 2 3 4 5 true)) /\
  (exists d m', to_numpy (MCircuit exC) = Ok d /\ from_numpy int_R 5 CCircuit d = Ok m' /\ mc_current m' = 500 /\
    match m' with MCircuit ci => map (fun m => (m_label m, c_current (m_coil m), m_mult m)) (ci_coils ci) = [("U", 500, 1); ("L", -500, -1)] | _ => False end).
Proof.
  assert (SC : savable 5 (MCircuit exC)).
  { apply (C66_circuit_reached 5 exG _ 500 true []); [repeat constructor|]. unfold m_mult. cbn. lra. }
  split; [exact I|]. split; [exact SC|]. split; [exact I|]. split.
  { destruct (triangle_coil 5 3 7 true) as (c & E & _). exists (set_control (set_current c 12) true). split; [|reflexivity].
    eapply C66_shaped_reached; [exact E|]. cbn. lia. }
  split; [cbn [from_numpy]; rewrite int_R_ok; reflexivity|].
  do 2 eexists. split; [reflexivity|]. split; [reflexivity|]. cbn. nR. split; [lra|].
  unfold m_label, m_mult, m_coil. cbn. repeat f_equal; lra.
Qed.

(** ** C67 *)
(** A ShapedCoil that is moved is saved as if it had not been: loading puts it back. *)
Theorem C67_moved_coil_goes_back : forall int_of fuel (c : coil R) shape n pts ctr r z d,
  c_kind c = KShaped shape n pts ctr -> savable fuel (MCoil c) -> to_numpy (MCoil (set_Z (set_R c r) z)) = Ok d ->
  from_numpy int_of fuel CShaped d = Ok (MCoil c).
Proof.
  intros int_of fuel c shape n pts ctr r z d Ek Hs Ed. cbn [savable] in Hs. rewrite Ek in Hs. destruct Hs as (Hl & Hs).
  assert (E : to_numpy (MCoil (set_Z (set_R c r) z)) = to_numpy (MCoil c)).
  { cbn [to_numpy]. unfold coil_to_numpy, set_Z, set_R. cbn. rewrite Ek. destruct ctr as [rc zc]. cbn. reflexivity. }
  rewrite E in Ed. cbn [to_numpy] in Ed. destruct (shaped_round int_of fuel c _ _ _ _ _ _ _ Ek Hl eq_refl eq_refl eq_refl) as (d' & E1 & E2).
  rewrite E1 in Ed. injection Ed as <-. rewrite E2, Hs. reflexivity.
Qed.
Print Assumptions C67_moved_coil_goes_back.
Theorem C67_moved_coil_refuted : exists (c c' : coil R) r d,
  to_numpy (MCoil (set_R c r)) = Ok d /\ from_numpy int_R 5 CShaped d = Ok (MCoil c') /\ coil_R (set_R c r) = r /\ coil_R c' <> r.
Proof.
  destruct (triangle_coil 5 3 7 true) as (c & E & _). assert (Hs := C66_shaped_reached _ _ _ _ _ _ _ 3 true E ltac:(cbn; lia)).
  unfold ShapedCoil in E. cbn [length Nat.ltb Nat.leb] in E. destruct (Quadrature.polygon_quad _ _ _) as [pts|]; [|discriminate].
  cbn [bind] in E. injection E as <-. unfold set_control, set_current in Hs. cbn [c_kind c_turns c_area] in Hs.
  match type of Hs with savable _ (MCoil ?x) => set (c := x) in * end.
  assert (Ek : exists p0, c_kind c = KShaped [(1, 0); (1, 1); (2, 0)] 1 p0 (mean_point [(1, 0); (1, 1); (2, 0)])) by (eexists; reflexivity).
  destruct Ek as (p0 & Ek).
  destruct (shaped_round int_R 5 (set_R c 9) [(1, 0); (1, 1); (2, 0)] 1 (map (fun p => ((fst (fst p) + (9 - fst (mean_point [(1, 0); (1, 1); (2, 0)])), snd (fst p)), snd p)) p0)
      (9, snd (mean_point [(1, 0); (1, 1); (2, 0)])) 3 7 true) as (d & Ed & _); [|cbn; lia|reflexivity|reflexivity|reflexivity|].
  { unfold set_R. rewrite Ek. cbn. reflexivity. }
  exists c, c, 9, d. split; [exact Ed|]. split; [|split].
  - apply (C67_moved_coil_goes_back int_R 5 c _ _ _ _ 9 (coil_Z c) d Ek Hs). rewrite <- Ed. cbn [to_numpy]. unfold coil_to_numpy, set_Z, set_R. rewrite Ek. reflexivity.
  - unfold set_R, coil_R. rewrite Ek. reflexivity.
  - unfold coil_R. rewrite Ek. cbn. unfold lsum. cbn. nR. lra.
Qed.
Print Assumptions C67_moved_coil_refuted.

(** A machine with a FilamentCoil, a MultiCoil or a PreCalcCoil, or with a coil of one of these
    classes or a ShapedCoil inside of a circuit, cannot be saved at all. *)
Definition awkward (c : coil R) : Prop := match c_kind c with KFilament _ _ _ _ | KMulti _ _ _ _ _ | KPreCalc _ _ _ => True | _ => False end.
Lemma foldM_fails {S A} (f : S -> A -> result S) a : (forall s, is_ok (f s a) = false) -> forall l s, In a l -> is_ok (foldM f l s) = false.
Proof.
  intros Hf. induction l as [|b l IH]; intros s Hin; [destruct Hin|]. cbn [foldM]. destruct Hin as [->|Hin].
  - specialize (Hf s). destruct (f s a); [discriminate|reflexivity].
  - destruct (f s b); [apply IH, Hin|reflexivity].
Qed.
Lemma mapM_fails {A B} (f : A -> result B) a : is_ok (f a) = false -> forall l, In a l -> is_ok (mapM f l) = false.
Proof.
  intros Hf. induction l as [|b l IH]; intros Hin; [destruct Hin|]. cbn [mapM]. destruct Hin as [->|Hin].
  - destruct (f a); [discriminate|reflexivity].
  - destruct (f b); [cbn [bind]|reflexivity]. specialize (IH Hin). destruct (mapM f l); [discriminate|reflexivity].
Qed.
Theorem C67_unsavable : forall (M : machine R) label m, In (label, m) M ->
  match m with
  | MCoil c => awkward c \/ match c_kind c with KShaped shape _ _ _ => (10 < length shape)%nat | _ => False end
  | MCircuit ci => exists x, In x (ci_coils ci) /\ ~ is_point (m_coil x)
  | MSolenoid _ => False
  end -> is_ok (write_coils M) = false.
Proof.
  intros M label m Hin Hm. unfold write_coils. eapply foldM_fails; [|exact Hin]. intros g. cbn [fst snd].
  destruct m as [c|ci|s]; [| |contradiction].
  - cbn [class_of to_numpy]. unfold coil_to_numpy. destruct Hm as [Ha|Hs].
    + unfold awkward in Ha. destruct (c_kind c); try contradiction; reflexivity.
    + destruct (c_kind c); try contradiction. cbn [has_type]. rewrite padded_long by (rewrite map_length; exact Hs). reflexivity.
  - cbn [class_of has_type to_numpy]. destruct Hm as (x & Hx & Hp). unfold circuit_to_numpy.
    assert (Hf : is_ok (mapM member_to_numpy (ci_coils ci)) = false).
    { eapply mapM_fails; [|exact Hx]. unfold member_to_numpy, is_point in *. unfold coil_to_numpy.
      destruct (c_kind (m_coil x)); try reflexivity; try tauto.
      - destruct (padded 10 (map fst shape)) ; [|reflexivity]. destruct (padded 10 (map snd shape)); reflexivity.
      - destruct (_ <=? _)%nat; [|reflexivity]. destruct (padded 500 Rfil) ; [|reflexivity]. destruct (padded 500 Zfil); reflexivity.
      - destruct (padded 10 (map fst shape)) ; [|reflexivity]. destruct (padded 10 (map snd shape)); reflexivity. }
    destruct (mapM member_to_numpy (ci_coils ci)); [discriminate|reflexivity].
Qed.
Print Assumptions C67_unsavable.
Theorem C67_filament_coil_refuted : exists c : coil R, FilamentCoil [1; 2] [0; 0] None 5 1 true = Ok c /\ is_ok (write_coils [("P", MCoil c)]) = false.
Proof.
  eexists. split; [reflexivity|]. eapply C67_unsavable; [left; reflexivity|]. left. exact I.
Qed.
Print Assumptions C67_filament_coil_refuted.
Theorem C67_multi_coil_refuted : exists c : coil R, MultiCoil_list [1; 2] [0; 0] 5 1 true false (1, 1) (AFixed 1) = Ok c /\
  is_ok (write_coils [("P", MCoil c)]) = false /\
  (exists d, to_numpy (MCoil c) = Ok d /\ from_numpy int_R 5 CMulti d = Raise ValueError).
Proof.
  eexists. split; [reflexivity|]. split; [eapply C67_unsavable; [left; reflexivity|]; left; exact I|].
  eexists. split; [|reflexivity]. reflexivity.
Qed.
Print Assumptions C67_multi_coil_refuted.
Theorem C67_precalc_coil_refuted : exists c : coil R, PreCalcCoil [(1, 0); (1, 1); (2, 0)] (fun _ _ _ => 0) 5 1 true = Ok c /\
  is_ok (write_coils [("P", MCoil c)]) = false.
Proof. eexists. split; [reflexivity|]. eapply C67_unsavable; [left; reflexivity|]. left. exact I. Qed.
Print Assumptions C67_precalc_coil_refuted.
(** The area given for a plain coil is lost. *)
Theorem C67_area_refuted : exists (c c' : coil R) d, to_numpy (MCoil c) = Ok d /\ from_numpy int_R 5 CCoil d = Ok (MCoil c') /\
  c_area c = AFixed 1 /\ c_area c' = ALimit 3500000000.
Proof. exists exP. do 2 eexists. split; [reflexivity|]. split; [reflexivity|]. split; reflexivity. Qed.
Print Assumptions C67_area_refuted.
(** A circuit whose first coil was given another current directly (circuit["U"].current = ...)
    comes back with another circuit current. *)
Theorem C67_edited_circuit_refuted : exists (ci ci' : circuit R) d, to_numpy (MCircuit ci) = Ok d /\ from_numpy int_R 5 CCircuit d = Ok (MCircuit ci') /\
  ci_coils ci = [("U", Coil 1 1 7 1 true default_area, 1); ("L", Coil 1 (-1) 5 1 true default_area, 1)] /\
  ci_current ci = 5 /\ ci_current ci' = 7 /\ map (fun m => c_current (m_coil m)) (ci_coils ci') = [7; 7].
Proof.
  exists (mkcircuit [("U", Coil 1 1 7 1 true default_area, 1); ("L", Coil 1 (-1) 5 1 true default_area, 1)] 5 true). do 2 eexists.
  split; [reflexivity|]. split; [reflexivity|]. split; [reflexivity|]. split; [reflexivity|]. cbn. unfold m_coil. cbn. nR. split; [lra|].
  repeat f_equal; lra.
Qed.
Print Assumptions C67_edited_circuit_refuted.

(** ** C68 *)
(** Savable coils with distinct plain labels can be written. *)
Theorem C68_write_succeeds : forall fuel int_of user (e : equilibrium R unit unit) w psi, (forall n, int_of (INR n) = n) ->
  Forall (fun lm => savable fuel (snd lm) /\ plain (fst lm)) (coils (tok e)) -> NoDup (map fst (coils (tok e))) -> total_psi e = Ok psi ->
  exists f, write user e w = Ok f.
Proof.
  intros fuel int_of user e w psi Hi HF HN Hp. unfold write. rewrite Hp. cbn [bind]. rewrite (write_coils_ok int_of fuel Hi _ HF HN). cbn [bind]. eauto.
Qed.
Print Assumptions C68_write_succeeds.

(** What is read back: the same coils with the same labels (in some order), wall, domain, grid,
    plasma flux, plasma current and boundary condition; and the same flux and field everywhere. *)
Theorem C68_round_trip : forall int_of fuel G sqrt exp spline user (e e' : equilibrium R unit unit) w w' f, (forall n, int_of (INR n) = n) ->
  Forall (fun lm => savable fuel (snd lm) /\ plain (fst lm)) (coils (tok e)) -> NoDup (map fst (coils (tok e))) ->
  match bnd e with BUser _ => False | _ => True end ->
  write user e w = Ok f -> read int_of fuel G sqrt exp spline f = Ok (e', w') ->
  (exists l, Permutation l (coils (tok e')) /\ Forall2 (fun a b => fst b = fst a /\ restored (snd a) (snd b)) (coils (tok e)) l) /\
  w' = w /\
  Equilibrium.Rmin e' = Equilibrium.Rmin e /\ Equilibrium.Rmax e' = Equilibrium.Rmax e /\ Equilibrium.Zmin e' = Equilibrium.Zmin e /\ Equilibrium.Zmax e' = Equilibrium.Zmax e /\
  e_nx e' = e_nx e /\ e_ny e' = e_ny e /\ plasma_psi e' = plasma_psi e /\ current e' = current e /\ bnd e' = bnd e /\
  (forall r z, psiRZ G spline e' r z = psiRZ G spline e r z) /\
  (forall r z, Equilibrium.eqBr G spline e' r z = Equilibrium.eqBr G spline e r z) /\
  (forall r z, Equilibrium.eqBz G spline e' r z = Equilibrium.eqBz G spline e r z).
Proof.
  intros int_of fuel G sq ex spline user e e' w w' f Hi HF HN Hb Ew Er.
  unfold write in Ew. destruct (total_psi e) as [tp|]; [|discriminate]. cbn [bind] in Ew. rewrite (write_coils_ok int_of fuel Hi _ HF HN) in Ew. cbn [bind] in Ew. injection Ew as <-.
  assert (HS : Forall (fun lm => savable fuel (snd lm)) (coils (tok e))) by (eapply Forall_impl; [|exact HF]; intros a [Ha _]; exact Ha).
  unfold read in Er. cbn [f_coils f_wall f_boundary f_Rmin f_Rmax f_Zmin f_Zmax f_shape f_plasma_psi f_current fst snd] in Er.
  rewrite (read_coils_ok int_of fuel Hi _ HS) in Er. cbn [bind] in Er.
  destruct (Vessel sq w 500) as [v|] eqn:Ev; [|discriminate]. cbn [bind] in Er.
  assert (Hw : v_wall v = w).
  { unfold Vessel in Ev. destruct w; [|injection Ev as <-; reflexivity]. destruct (generate_limit_points _ _ _); [|discriminate]. cbn [bind] in Ev. injection Ev as <-. reflexivity. }
  assert (Eb : boundary_of_name (boundary_name user (bnd e)) = Ok (bnd e)) by (destruct (bnd e); [reflexivity..|contradiction]).
  rewrite Eb in Er. cbn [bind] in Er.
  match type of Er with bind ?x _ = _ => destruct x as [e1|] eqn:En; [|discriminate] end. cbn [bind] in Er. injection Er as <- <-.
  apply new_inv in En. destruct En as (_ & _ & H1 & H2 & H3 & H4 & H5 & H6 & H7 & H8 & _ & _ & H9 & _ & _ & _ & H10 & _).
  assert (HC : exists l, Permutation l (coils (tok e1)) /\ Forall2 (fun a b => fst b = fst a /\ restored (snd a) (snd b)) (coils (tok e)) l).
  { exists (map (fun lm => (fst lm, back int_of fuel (snd lm))) (coils (tok e))). split.
    - rewrite H7. cbn [coils]. apply Permutation_map, Permutation_sym, items_perm.
    - apply restored_back; assumption. }
  split; [exact HC|]. split; [exact Hw|]. do 9 (split; [assumption|]).
  destruct HC as (l & HP & HF2).
  assert (HM : forall fd r z, fst (machine_field G fd (coils (tok e1)) r z) = fst (machine_field G fd (coils (tok e)) r z)).
  { intros fd r z. rewrite !machine_field_eq. cbn [fst]. eapply restored_field; eassumption. }
  unfold psiRZ, Equilibrium.eqBr, Equilibrium.eqBz, plasmaBr, plasmaBz, psi_func, R_1D, Z_1D. rewrite H1, H2, H3, H4, H5, H6, H10. cbv iota.
  repeat split; intros r z; rewrite HM; reflexivity.
Qed.
Print Assumptions C68_round_trip.

(** Reading succeeds whenever the wall and the equilibrium can be built. *)
Lemma total_psi_ok {P Ctl} G (e : equilibrium R P Ctl) (M0 : machine R) : labels_distinct M0 -> machine_shape (coils (tok e)) = machine_shape M0 ->
  (forall i j, exists r z, pgreen e i j = createPsiGreens G M0 r z) -> exists psi, total_psi e = Ok psi.
Proof.
  intros HL HS HG. unfold total_psi, eq_psi. destruct (HG 0%nat 0%nat) as (r & z & ->). rewrite (cached_direct G M0 _ r z HL HS). cbn [bind]. eauto.
Qed.
Lemma flat_new_coils {P Ctl} G t rmin rmax zmin zmax nx ny b psi I gen A ord chk : labels_distinct (coils t) -> (4 <= nx)%nat -> (4 <= ny)%nat -> rmin < rmax -> zmin < zmax ->
  generator_of ord rmin rmax zmin zmax = Ok gen -> gen nx ny = Ok A ->
  exists e : equilibrium R P Ctl, new_equilibrium G exp flat_spline t rmin rmax zmin zmax nx ny b psi I ord chk = Ok e.
Proof.
  intros Hc Hx Hy HR HZ Eg EA. unfold new_equilibrium. destruct (Nat.ltb_spec nx 2); [lia|]. destruct (Nat.ltb_spec ny 2); [lia|]. cbn [orb]. cbv zeta.
  match goal with |- context [update_plasma flat_spline ?e1 nx ny ?p] => set (e := e1); set (q := p) end.
  assert (Hu : update_plasma flat_spline e nx ny q = Ok (with_bs (with_plasma e q) (bs e))).
  { unfold update_plasma, eq_spline. change (e_nx e) with nx. change (e_ny e) with ny.
    rewrite RBS_ok; [|exact Hx|exact Hy|apply linspace_increasing; exact HR|apply linspace_increasing; exact HZ]. cbn [bind]. unfold update_own.
    destruct (total_psi_ok G (with_plasma e q) (coils t) Hc eq_refl) as (tp & Et); [intros i j; do 2 eexists; reflexivity|]. rewrite Et. cbn [bind].
    assert (Hf := flat_update (with_plasma e q) tp Hx Hy HR HZ). rewrite Hf. reflexivity. }
  rewrite Hu. cbn [bind]. rewrite Eg. cbn [bind]. unfold createVcycle. cbn [createVcycle_]. rewrite EA. cbn [bind]. eauto.
Qed.
(** The machine of the examples in an equilibrium on a 9 x 9 grid *)
Definition exEq (chk : bool) : equilibrium R unit unit :=
  mkeq 9 9 1 2 (-1) 1 (mktok exM false []) BHagenow 2 (SUser (fun _ _ => Raise TypeError)) chk (fun i j => INR i * INR j)
       (fun i j => createPsiGreens exG exM (INR i) (INR j)) 1000 None no_boundary None None.
Lemma exEq_read chk : Forall (fun lm => savable 5 (snd lm) /\ plain (fst lm)) exM /\
  exists f (e' : equilibrium R unit unit), write "f" (exEq chk) None = Ok f /\ read int_R 5 exG sqrt exp flat_spline f = Ok (e', None) /\ coils (tok e') = map (fun lm => (fst lm, back int_R 5 (snd lm))) (items exM).
Proof.
  assert (HF : Forall (fun lm => savable 5 (snd lm) /\ plain (fst lm)) exM).
  { assert (SC : savable 5 (MCircuit exC)).
    { apply (C66_circuit_reached 5 exG _ 500 true []); [repeat constructor|]. unfold m_mult. cbn. lra. }
    assert (PL : forall l, l = "P1" \/ l = "C" \/ l = "S" -> plain l).
    { intros l [->|[->| ->]]; (split; [discriminate|split; [discriminate|cbn; intuition congruence]]). }
    constructor; [split; [exact I|apply PL; auto]|]. constructor; [split; [exact SC|apply PL; auto]|].
    constructor; [split; [exact I|apply PL; auto]|]. constructor. }
  split; [exact HF|].
  assert (HN : NoDup (map fst exM)) by (repeat constructor; cbn; intuition congruence).
  assert (HS : Forall (fun lm => savable 5 (snd lm)) exM) by (eapply Forall_impl; [|exact HF]; intros a [Ha _]; exact Ha).
  destruct (total_psi_ok exG (exEq chk) exM exM_labels eq_refl) as (tp & Et); [intros i j; do 2 eexists; reflexivity|].
  destruct (GS4_rows 1 2 (-1) 1 9 9) as (A & EA & _); [lia..|].
  set (M' := map (fun lm => (fst lm, back int_R 5 (snd lm))) (items exM)).
  assert (HL : labels_distinct M').
  { unfold M'. change (items exM) with [("C", MCircuit exC); ("P1", MCoil exP); ("S", MSolenoid exS)]. split; [repeat constructor; cbn; intuition congruence|].
    cbn [map fst snd]. repeat constructor; cbn; repeat constructor; cbn; intuition congruence. }
  destruct (@flat_new_coils unit unit exG (mktok M' false []) 1 2 (-1) 1 9 9 BHagenow (Some (fun i j => INR i * INR j)) 1000 (GSsparse4thOrder 1 2 (-1) 1) A 4 false) as (e' & Ee);
    try reflexivity; try lia; try lra; try exact EA; try exact HL.
  exists (mkfile 1 2 (-1) 1 (9%nat, 9%nat) 1000 (fun i j => INR i * INR j) "freeBoundaryHagenow" None (map put exM)), e'.
  split.
  - unfold write. rewrite Et. cbn [bind]. change (coils (tok (exEq chk))) with exM. rewrite (write_coils_ok int_R 5 int_R_ok _ HF HN). reflexivity.
  - split.
    + unfold read. cbn [f_coils f_wall f_boundary f_Rmin f_Rmax f_Zmin f_Zmax f_shape f_plasma_psi f_current fst snd].
      rewrite (read_coils_ok int_R 5 int_R_ok _ HS). fold M'. cbn [bind Vessel v_wall v_limits].
      change (boundary_of_name "freeBoundaryHagenow") with (Ok (A := boundary R) BHagenow). cbn [bind]. match goal with |- bind ?x _ = _ => replace x with (Ok e') by (symmetry; exact Ee) end. reflexivity.
    + apply new_inv in Ee. destruct Ee as (_ & _ & _ & _ & _ & _ & _ & _ & -> & _). reflexivity.
Qed.
Example C68_example : exists f (e' : equilibrium R unit unit), write "f" (exEq true) None = Ok f /\ read int_R 5 exG sqrt exp flat_spline f = Ok (e', None) /\
  map fst (coils (tok e')) = ["C"; "P1"; "S"] /\ current e' = 1000 /\ plasma_psi e' 2%nat 3%nat = 6.
Proof.
  destruct (exEq_read true) as (HF & f & e' & Ew & Er & Hc). exists f, e'. split; [exact Ew|]. split; [exact Er|].
  assert (HN : NoDup (map fst exM)) by (repeat constructor; cbn; intuition congruence).
  destruct (C68_round_trip _ _ _ _ _ _ _ (exEq true) _ _ _ _ int_R_ok HF HN I Ew Er) as (_ & _ & _ & _ & _ & _ & _ & _ & Hp & Hcur & _).
  rewrite Hc, Hp, Hcur. split; [reflexivity|]. split; [reflexivity|]. cbn. lra.
Qed.

(** A boundary function of the user's is not saved: the file cannot be read, or, when the function
    has the name of one in the module boundary, that one is taken. *)
Theorem C69_user_boundary_refuted : exists (f : arr2 R -> arr2 R -> result (arr2 R)),
  boundary_of_name (T := R) (boundary_name "my_boundary" (BUser f)) = Raise KeyError /\ boundary_of_name (T := R) (boundary_name "freeBoundary" (BUser f)) = Ok BFree.
Proof. exists (fun _ p => Ok p). split; reflexivity. Qed.
Print Assumptions C69_user_boundary_refuted.

(** ** C69 *)
(** Every equilibrium that is read has the fourth-order solver and no limiter check, and its coils
    are in the alphabetical order of their labels. *)
Theorem C69_what_is_read : forall int_of fuel G sqrt exp spline f (e' : equilibrium R unit unit) w', read int_of fuel G sqrt exp spline f = Ok (e', w') ->
  order e' = 4%nat /\ check_limited e' = false /\ profiles e' = None /\ jtor e' = None.
Proof.
  intros int_of fuel G sq ex spline f e' w' Er. unfold read in Er. destruct (read_coils _ _ _); [|discriminate]. cbn [bind] in Er.
  destruct (Vessel _ _ _); [|discriminate]. cbn [bind] in Er. destruct (boundary_of_name _); [|discriminate]. cbn [bind] in Er.
  match type of Er with bind ?x _ = _ => destruct x as [e1|] eqn:En; [|discriminate] end. cbn [bind] in Er. injection Er as <- _.
  apply new_inv in En. destruct En as (_ & _ & _ & _ & _ & _ & _ & _ & _ & _ & H1 & H2 & _ & H3 & H4 & _). auto.
Qed.
Print Assumptions C69_what_is_read.
Theorem C69_alphabetical : forall int_of fuel (M : machine R), (forall n, int_of (INR n) = n) ->
  Forall (fun lm => savable fuel (snd lm) /\ plain (fst lm)) M -> NoDup (map fst M) ->
  exists g M', write_coils M = Ok g /\ read_coils int_of fuel g = Ok M' /\ alphabetical (map fst M') /\
    (alphabetical (map fst M) -> Forall2 (fun a b => fst b = fst a /\ restored (snd a) (snd b)) M M').
Proof.
  intros int_of fuel M Hi HF HN. assert (HS : Forall (fun lm => savable fuel (snd lm)) M) by (eapply Forall_impl; [|exact HF]; intros a [Ha _]; exact Ha).
  exists (map put M), (map (fun lm => (fst lm, back int_of fuel (snd lm))) (items M)).
  split; [apply (write_coils_ok int_of fuel Hi); assumption|]. split; [apply read_coils_ok; assumption|]. rewrite map_map. split; [apply items_alphabetical|].
  intros Ha. rewrite (items_sorted M Ha). apply restored_back; assumption.
Qed.
Print Assumptions C69_alphabetical.
(** The coils of a machine come back in another order: lists of currents no longer match. *)
Theorem C69_coil_order_refuted : exists (M M' : machine R) g, write_coils M = Ok g /\ read_coils int_R 5 g = Ok M' /\
  map fst M = ["P2"; "P10"] /\ map fst M' = ["P10"; "P2"] /\
  map (fun lm => mc_current (snd lm)) M = [2; 10] /\ map (fun lm => mc_current (snd lm)) M' = [10; 2].
Proof.
  exists [("P2", MCoil (Coil 1 1 2 1 true default_area)); ("P10", MCoil (Coil 1 1 10 1 true default_area))]. do 2 eexists.
  repeat split; reflexivity.
Qed.
Print Assumptions C69_coil_order_refuted.
(** The order of the discretisation and the limiter check change. *)
Theorem C69_settings_refuted : exists (e e' : equilibrium R unit unit) f, write "f" e None = Ok f /\ read int_R 5 exG sqrt exp flat_spline f = Ok (e', None) /\
  order e = 2%nat /\ order e' = 4%nat /\ check_limited e = true /\ check_limited e' = false.
Proof.
  destruct (exEq_read true) as (_ & f & e' & Ew & Er & _). exists (exEq true), e', f. split; [exact Ew|]. split; [exact Er|].
  destruct (C69_what_is_read _ _ _ _ _ _ _ _ _ Er) as (H1 & H2 & _). auto.
Qed.
Print Assumptions C69_settings_refuted.
Example C69_example : alphabetical (map fst [("C", MCircuit exC); ("P1", MCoil exP); ("S", MSolenoid exS)]) /\ ~ alphabetical (map fst exM).
Proof. cbn. intuition congruence. Qed.

(** ** C110 *)
(** A label with a slash in it: the file is written, and can never be read again. *)
Theorem C110_slash_in_label : forall int_of fuel (M : machine R) g label m, write_coils M = Ok g -> In (label, m) M -> has_slash label = true ->
  exists x, read_coils int_of fuel g = Raise x.
Proof.
  intros int_of fuel M g label m Ew Hin Hs.
  assert (K : forall M g0 g, foldM (fun g lm => if has_type (class_of (snd lm)) then bind (to_numpy (snd lm)) (fun d => create g (fst lm) (class_of (snd lm)) d) else Raise ValueError) M g0 = Ok g ->
            (exists n, In (n, EGroup) g0) \/ In (label, m) M -> exists n, In (n, EGroup (T := R)) g).
  { clear M g Ew Hin. induction M as [|[lb x] M IH]; intros g0 g E H; cbn [foldM] in E.
    - injection E as <-. destruct H as [H|[]]. exact H.
    - cbn [fst snd] in E. destruct (has_type (class_of x)); [|discriminate]. destruct (to_numpy x) as [d|]; [|discriminate]. cbn [bind] in E.
      destruct (create g0 lb (class_of x) d) as [g1|] eqn:Ec; [|discriminate]. cbn [bind] in E. apply (IH _ _ E).
      unfold create in Ec. destruct (_ || _); [discriminate|].
      destruct H as [(n & Hn)|[H|H]].
      + left. exists n. destruct (has_slash lb); destruct (dict_get g0 (before_slash lb)) as [[k' d'|]|]; try discriminate; injection Ec as <-; try (apply in_or_app; left); exact Hn.
      + left. injection H as -> ->. rewrite Hs in Ec. destruct (dict_get g0 (before_slash label)) as [[k' d'|]|] eqn:Ed; try discriminate; injection Ec as <-.
        * exists (before_slash label). clear -Ed. induction g0 as [|[k v] g0 IH]; [discriminate|]. cbn in Ed. destruct (String.eqb_spec k (before_slash label)) as [->|]; [injection Ed as ->; left; reflexivity|right; apply IH, Ed].
        * exists (before_slash label). apply in_or_app. right. left. reflexivity.
      + right. exact H. }
  destruct (K M [] g Ew (or_intror Hin)) as (n & Hn).
  assert (Hf : is_ok (read_coils int_of fuel g) = false).
  { unfold read_coils. eapply (mapM_fails _ (n, EGroup)); [reflexivity|]. apply (Permutation_in _ (Permutation_sym (items_perm g))), Hn. }
  destruct (read_coils int_of fuel g); [discriminate|]. eauto.
Qed.
Print Assumptions C110_slash_in_label.
Theorem C110_slash_refuted : exists (M : machine R) g, write_coils M = Ok g /\ map fst M = ["PF/1"; "PF/2"] /\ read_coils int_R 5 g = Raise KeyError.
Proof.
  exists [("PF/1", MCoil exP); ("PF/2", MCoil exP)]. eexists. repeat split; reflexivity.
Qed.
Print Assumptions C110_slash_refuted.
(** Two coils with the same label cannot be saved. *)
Theorem C110_repeated_label : forall (M : machine R), Forall (fun lm => plain (fst lm)) M -> ~ NoDup (map fst M) -> is_ok (write_coils M) = false.
Proof.
  intros M HP HN. destruct (write_coils M) as [g|] eqn:Ew; [|reflexivity]. exfalso. apply HN.
  assert (K : forall M g0 g, foldM (fun g lm => if has_type (class_of (snd lm)) then bind (to_numpy (snd lm)) (fun d => create g (fst lm) (class_of (snd lm)) d) else Raise ValueError) M g0 = Ok g ->
            Forall (fun lm => plain (fst lm)) M -> NoDup (map fst g0) -> NoDup (map fst M) /\ forall l, In l (map fst M) -> ~ In l (map fst g0)).
  { clear. induction M as [|[lb x] M IH]; intros g0 g E HP H0; cbn [foldM] in E.
    - split; [constructor|]. intros l [].
    - cbn [fst snd] in E. inversion HP as [|? ? P1 P2]; subst. destruct (has_type (class_of x)); [|discriminate]. destruct (to_numpy x) as [d|]; [|discriminate]. cbn [bind] in E.
      rewrite plain_create in E by exact P1. destruct (dict_get g0 lb) eqn:Ed; [discriminate|]. cbn [bind] in E. apply dict_get_none in Ed.
      destruct (IH _ _ E P2) as (N1 & N2).
      + rewrite map_app. cbn [map fst]. apply NoDup_app_single; assumption.
      + cbn [map fst]. split.
        * constructor; [|exact N1]. intros Hin. apply (N2 _ Hin). rewrite map_app. apply in_or_app. right. left. reflexivity.
        * intros l [<-|Hin]; [exact Ed|]. intros Hg. apply (N2 _ Hin). rewrite map_app. apply in_or_app. left. exact Hg. }
  exact (proj1 (K M [] g Ew HP (NoDup_nil _))).
Qed.
Print Assumptions C110_repeated_label.
Example C110_example : is_ok (write_coils [("P", MCoil exP); ("P", MSolenoid exS)]) = false.
Proof. reflexivity. Qed.

(** A label with a slash leaves a group with the name before its first slash, and shares that name with a coil of the
    same name: of the two only the first can be written, in either order. *)
Theorem C110_slash_name : forall name rest (c d : mcoil R) dc dd, plain name ->
  let label := (name ++ String "/" rest)%string in
  has_type (class_of c) = true -> to_numpy c = Ok dc -> has_type (class_of d) = true -> to_numpy d = Ok dd ->
  write_coils [(label, c)] = Ok [(name, EGroup)] /\
  write_coils [(label, c); (name, d)] = Raise ValueError /\
  write_coils [(name, d); (label, c)] = Raise ValueError.
Proof.
  intros name rest c d dc dd Hn label Tc Ec Td Ed.
  assert (B : before_slash label = name /\ has_slash label = true).
  { destruct Hn as (_ & _ & H3). unfold label, has_slash. clear label. induction name as [|a s IH]; cbn [append before_slash list_ascii_of_string existsb]; [split; reflexivity|].
    destruct (IH (fun H => H3 (or_intror H))) as (E1 & E2). assert (Ea : a <> slash) by (intros ->; apply H3; left; reflexivity).
    rewrite (proj2 (Ascii.eqb_neq a slash) Ea), E1, E2, orb_true_r. split; reflexivity. }
  destruct B as [B S]. assert (Hn' := Hn). destruct Hn' as (H1 & H2 & _).
  assert (K : forall g0, create g0 label (class_of c) dc = match dict_get g0 name with None => Ok (g0 ++ [(name, EGroup)])%list | Some EGroup => Ok g0 | Some (EData _ _) => Raise ValueError end).
  { intros g0. unfold create. rewrite B, S, (proj2 (String.eqb_neq _ _) H1), (proj2 (String.eqb_neq _ _) H2). reflexivity. }
  unfold write_coils. cbn [foldM fst snd]. rewrite Tc, Td, Ec, Ed. cbn [bind]. rewrite !K, !plain_create by exact Hn. cbn [dict_get bind app fst snd].
  assert (G1 : forall e : entry R, dict_get [(name, e)] name = Some e) by (intros e; cbn; rewrite String.eqb_refl; reflexivity).
  repeat split.
  - rewrite ?plain_create by exact Hn. rewrite ?G1. reflexivity.
  - rewrite ?K, ?G1. reflexivity.
Qed.
Print Assumptions C110_slash_name.
Example C110_slash_name_example : write_coils [("PF", MCoil exP); ("PF/1", MCoil exP)] = Raise ValueError.
Proof. eapply (C110_slash_name "PF" "1" (MCoil exP) (MCoil exP)); try reflexivity. repeat split; try discriminate. cbn. intuition discriminate. Qed.
