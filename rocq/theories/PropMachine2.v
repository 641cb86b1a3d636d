(** Moving coils, cross-sections, labels, control switches, fields as differences of the flux,
    and forces with stale member currents. *)
From Coq Require Import String List Arith ZArith Bool Reals Lra Lia.
From Verif Require Import Py Num Numpy Polygons Quadrature QuadratureProofs PolySpec Coils Machine MachineSpec MachineProofs MachineForces
  GradShafranov Sensors MovingSpec MovingProofs PolygonsProofs PropMachine.
Import ListNotations.
Local Open Scope R_scope.
Local Open Scope string_scope.
Local Open Scope list_scope.

(** ** C120 *)
(** Assigning R or Z moves every filament of the coil by the same amount and changes nothing else. *)
Theorem C120_move_R : forall (c : coil R) r, is_precalc c = false ->
  coil_filaments (set_R c r) = map (moved (r - coil_R c) 0) (coil_filaments c) /\
  coil_R (set_R c r) = r /\ coil_Z (set_R c r) = coil_Z c /\ same_settings c (set_R c r).
Proof.
  intros c r _. split; [apply set_R_filaments|]. destruct (set_R_pos c r). repeat split; assumption.
Qed.
Print Assumptions C120_move_R.
(** The mirror image moves the other way. *)
Theorem C120_move_Z : forall (c : coil R) z, is_precalc c = false ->
  coil_filaments (set_Z c z) = map (moved 0 (z - coil_Z c)) (upper_half c) ++ map (moved 0 (coil_Z c - z)) (lower_half c) /\
  (is_mirrored c = false -> coil_filaments (set_Z c z) = map (moved 0 (z - coil_Z c)) (coil_filaments c)) /\
  coil_R (set_Z c z) = coil_R c /\ coil_Z (set_Z c z) = z /\ same_settings c (set_Z c z).
Proof.
  intros c z _. destruct (set_Z_halves c z) as [H1 H2]. split; [rewrite halves, H1, H2; reflexivity|]. split.
  - intros Hm. rewrite (halves (set_Z c z)), (halves c), H1, H2, (not_mirrored c Hm). cbn [map]. rewrite !app_nil_r. reflexivity.
  - destruct (set_Z_pos c z). repeat split; assumption.
Qed.
Print Assumptions C120_move_Z.
(** The field of a coil moved up by d is the old field moved up by d. *)
Theorem C120_field_moves : forall ellipk ellipe f (c : coil R) d r z,
  is_precalc c = false -> is_mirrored c = false ->
  coil_field (green_kernel ellipk ellipe) f (set_Z c (coil_Z c + d)) r (z + d) = coil_field (green_kernel ellipk ellipe) f c r z.
Proof.
  intros ellipk ellipe f c d r z Hp Hm. rewrite !coil_of_filaments.
  - destruct (C120_move_Z c (coil_Z c + d) Hp) as (_ & E & _ & _ & (Ec & _)). rewrite (E Hm), Ec.
    replace (coil_Z c + d - coil_Z c) with d by ring. rewrite field_of_moved by apply kernel_height. reflexivity.
  - exact Hp.
  - destruct c as [k I t b a]. destruct k as [? ?|? ? ? [? ?]|? ? ? [? ?]|? ? ? ? [? ?]|? ? [? ?]]; try reflexivity. discriminate.
Qed.
Print Assumptions C120_field_moves.
(** Moving a coil back restores it completely. *)
Theorem C120_move_back : forall (c : coil R) r z, set_R (set_R c r) (coil_R c) = c /\ set_Z (set_Z c z) (coil_Z c) = c.
Proof. intros. split; [apply set_R_back|apply set_Z_back]. Qed.
Print Assumptions C120_move_back.
Definition exFil : coil R := mkcoil (KFilament [(1, 0); (1, 1); (3, 1)] [(1, 0); (2, 1); (3, 2)] 3 (2, 1)) 10 6 true (AFixed 1).
Definition exMul : coil R := mkcoil (KMulti [1; 3] [2; 4] true (1, -1) (2, 3)) 10 2 true (AFixed 1).
Example C120_example : is_precalc exFil = false /\ is_mirrored exFil = false /\
  coil_filaments (set_R exFil 5) = [((4, 0), 6 / 3); ((5, 1), 6 / 3); ((6, 2), 6 / 3)] /\
  coil_filaments (set_Z exMul 4) = [((1, 3), 1); ((3, 5), 1); ((1, -3), -1); ((3, -5), -1)].
Proof.
  split; [reflexivity|]. split; [reflexivity|].
  split; cbn; nR; repeat match goal with |- (_ :: _) = (_ :: _) => apply f_equal2 | |- (_, _) = (_, _) => apply f_equal2 end; try reflexivity; lra.
Qed.

(** ** C121 *)
(** A PreCalcCoil keeps its field when it is moved. *)
Theorem C121_precalc_field_stays : forall G f (c : coil R) r z r' z', is_precalc c = true ->
  coil_field G f (set_Z (set_R c r) z) r' z' = coil_field G f c r' z'.
Proof. intros G f c r z r' z' Hp. destruct c as [k I t b a]. destruct k as [? ?|? ? ? [? ?]|? ? ? [? ?]|? ? ? ? [? ?]|? ? [? ?]]; try discriminate. reflexivity. Qed.
Print Assumptions C121_precalc_field_stays.
Theorem C121_precalc_refuted : exists (c : coil R) d r z, c_current c <> 0 /\ coil_Z (set_Z c (coil_Z c + d)) = coil_Z c + d /\
  coil_field exG FBr (set_Z c (coil_Z c + d)) r (z + d) <> coil_field exG FBr c r z.
Proof.
  exists (mkcoil (KPreCalc [(1, 0); (1, 1); (2, 1)] (fun _ _ z => z) (1, 1)) 1 1 true (AFixed 1)), 1, 1, 0.
  unfold coil_field, coil_control. cbn. nR. repeat split; lra.
Qed.
Print Assumptions C121_precalc_refuted.
(** No class moves its outline, so a Rogowski loop sees a moved ShapedCoil where it was. *)
Theorem C121_outline_stays : forall (c : coil R) r z, outline (set_Z (set_R c r) z) = outline c.
Proof. intros c r z. destruct c as [k I t b a]. destruct k as [? ?|? ? ? [? ?]|? ? ? [? ?]|? ? ? ? [? ?]|? ? [? ?]]; reflexivity. Qed.
Print Assumptions C121_outline_stays.
Theorem C121_shaped_sensor_stale : forall contains overlap (c : coil R) r z,
  match c_kind c with KShaped _ _ _ _ => True | _ => False end ->
  coil_inShape contains overlap (set_Z (set_R c r) z) = coil_inShape contains overlap c.
Proof. intros contains overlap c r z. destruct c as [k I t b a]. destruct k as [? ?|? ? ? [? ?]|? ? ? [? ?]|? ? ? ? [? ?]|? ? [? ?]]; easy. Qed.
Print Assumptions C121_shaped_sensor_stale.
Theorem C121_outline_refuted : exists (c : coil R) r s, outline c = Some s /\
  coil_R (set_R c r) = coil_R c + 10 /\ (forall p, In p s -> fst p <= 2) /\
  Forall (fun p => 11 <= fst (fst p)) (coil_filaments (set_R c r)) /\ coil_filaments c <> [] /\ outline (set_R c r) = Some s.
Proof.
  exists (mkcoil (KShaped [(1, 0); (1, 1); (2, 1); (2, 0)] 1 [((3 / 2, 1 / 2), 1)] (3 / 2, 1 / 2)) 1 1 true (AFixed 1)), (23 / 2), [(1, 0); (1, 1); (2, 1); (2, 0)].
  cbn. split; [reflexivity|]. split; [lra|]. split; [|split; [|split; [discriminate|reflexivity]]].
  - intros p [<-|[<-|[<-|[<-|[]]]]]; cbn; lra.
  - repeat constructor. cbn. nR. lra.
Qed.
Print Assumptions C121_outline_refuted.

(** ** C122 *)
(** The classes with an outline take their cross-section from it, whatever its orientation. *)
Theorem C122_outline_area :
  (forall fuel s I t b n c, ShapedCoil fuel s I t b n = Ok c -> coil_area c = Rabs (shoelace s)) /\
  (forall s maps I t b c, PreCalcCoil s maps I t b = Ok c -> coil_area c = Rabs (shoelace s)) /\
  (forall Rf Zf s I t b c, FilamentCoil Rf Zf (Some s) I t b = Ok c -> coil_area c = Rabs (shoelace s)).
Proof.
  split; [|split].
  - intros fuel s I t b n c E. unfold ShapedCoil in E. destruct (2 <? length s)%nat eqn:E2; [|discriminate].
    apply Nat.ltb_lt in E2.
    destruct (polygon_quad fuel s n); [|discriminate]. cbn [bind] in E. injection E as <-. unfold coil_area. cbn [c_area]. rewrite nabs_R, <- area_shoelace. reflexivity.
  - intros s maps I t b c E. unfold PreCalcCoil in E. destruct (2 <? length s)%nat eqn:E2; [|discriminate].
    injection E as <-. unfold coil_area. cbn [c_area]. rewrite nabs_R, <- area_shoelace. reflexivity.
  - intros Rf Zf s I t b c E. unfold FilamentCoil in E. cbn [bind] in E. destruct (2 <? length s)%nat eqn:E2; [|discriminate].
    injection E as <-. unfold coil_area. cbn [c_area]. rewrite nabs_R, <- area_shoelace. reflexivity.
Qed.
Print Assumptions C122_outline_area.
Example C122_outline_example : exists c, FilamentCoil [1; 2] [0; 1] (Some [(1, 0); (2, 0); (2, 1); (1, 1)]) 1 2 true = Ok c /\ coil_area c = 1.
Proof.
  eexists. split; [reflexivity|]. unfold coil_area. cbn [c_area]. rewrite nabs_R.
  assert (E : area [(1, 0); (2, 0); (2, 1); (1, 1)] = -1) by (unfold area; cbn; nR; lra). rewrite E, Rabs_left by lra. lra.
Qed.
(** A FilamentCoil without outline gets the smallest box around its filaments. *)
Theorem C122_box : forall Rf Zf I t b c, FilamentCoil Rf Zf None I t b = Ok c -> length Rf = length Zf ->
  exists r1 r2 z1 z2, In r1 Rf /\ In r2 Rf /\ In z1 Zf /\ In z2 Zf /\
    (forall p, In p (combine Rf Zf) -> r1 <= fst p <= r2 /\ z1 <= snd p <= z2) /\
    outline c = Some [(r1, z1); (r1, z2); (r2, z2); (r2, z1); (r1, z1)] /\ coil_area c = (r2 - r1) * (z2 - z1).
Proof.
  intros Rf Zf I t b c E _. unfold FilamentCoil in E.
  assert (Hr : Rf <> []) by (destruct Rf; [discriminate|easy]). assert (Hz : Zf <> []) by (destruct Rf; [discriminate|]; destruct Zf; easy).
  replace (match Rf with [] => Raise ValueError | _ :: _ => match Zf with [] => Raise ValueError | _ :: _ =>
     Ok [(lmin Rf, lmin Zf); (lmin Rf, lmax Zf); (lmax Rf, lmax Zf); (lmax Rf, lmin Zf); (lmin Rf, lmin Zf)] end end)
    with (@Ok (list (R * R)) [(lmin Rf, lmin Zf); (lmin Rf, lmax Zf); (lmax Rf, lmax Zf); (lmax Rf, lmin Zf); (lmin Rf, lmin Zf)]) in E by (destruct Rf, Zf; easy).
  cbn [bind length Nat.ltb Nat.leb] in E. injection E as <-.
  exists (lmin Rf), (lmax Rf), (lmin Zf), (lmax Zf).
  assert (B1 : forall x, In x Rf -> lmin Rf <= x <= lmax Rf) by (intros x Hx; split; [apply lmin_le|apply lmax_ge]; exact Hx).
  assert (B2 : forall x, In x Zf -> lmin Zf <= x <= lmax Zf) by (intros x Hx; split; [apply lmin_le|apply lmax_ge]; exact Hx).
  repeat split; try (apply lmin_in || apply lmax_in); try assumption.
  - apply B1, (in_combine_l Rf Zf (fst p) (snd p)). rewrite <- surjective_pairing. assumption.
  - apply B1, (in_combine_l Rf Zf (fst p) (snd p)). rewrite <- surjective_pairing. assumption.
  - apply B2, (in_combine_r Rf Zf (fst p) (snd p)). rewrite <- surjective_pairing. assumption.
  - apply B2, (in_combine_r Rf Zf (fst p) (snd p)). rewrite <- surjective_pairing. assumption.
  - unfold coil_area. cbn [c_area]. rewrite nabs_R. apply box_area.
    + specialize (B1 _ (lmin_in _ Hr)). lra. + specialize (B2 _ (lmin_in _ Hz)). lra.
Qed.
Print Assumptions C122_box.
Example C122_box_example : exists c, FilamentCoil [1; 3; 2] [5; 4; 7] None 10 6 true = Ok c.
Proof. eexists. reflexivity. Qed.
(** With an AreaCurrentLimit the current density is the limit, whatever current and turns. *)
Theorem C122_density : forall k I t b d, 0 < d ->
  coil_area (mkcoil k I t b (ALimit d)) = Rabs (I * IZR t) / d /\
  (I * IZR t <> 0 -> 0 < coil_area (mkcoil k I t b (ALimit d)) /\ Rabs (I * IZR t) / coil_area (mkcoil k I t b (ALimit d)) = d).
Proof.
  intros k I t b d Hd. unfold coil_area. cbn [c_area c_current c_turns]. rewrite nabs_R. nR. split; [reflexivity|]. intros Hn.
  assert (Ha := Rabs_pos_lt _ Hn). split; [apply Rdiv_lt_0_compat; assumption|]. field. lra.
Qed.
Print Assumptions C122_density.
Example C122_density_example : coil_area (Coil 1 0 (-1000) 10 true (ALimit 5000)) = 2.
Proof. unfold coil_area. cbn. rewrite nabs_R. nR. rewrite Rabs_left by lra. lra. Qed.
(** Only plain coils and MultiCoils can be given another area. *)
Theorem C122_setter : forall (c : coil R) a,
  match outline c with
  | Some _ => set_area c a = Raise ValueError
  | None => exists c', set_area c a = Ok c' /\ c_area c' = a /\ c_kind c' = c_kind c /\ c_current c' = c_current c /\ c_turns c' = c_turns c /\ c_control c' = c_control c
  end.
Proof. intros c a. destruct c as [k I t b ar]. destruct k; cbn; try reflexivity; eexists; repeat split. Qed.
Print Assumptions C122_setter.
Example C122_setter_example : outline exFil = Some [(1, 0); (1, 1); (3, 1)] /\ outline exMul = None.
Proof. split; reflexivity. Qed.
(** The cross-section of an unpowered coil with the default AreaCurrentLimit is zero, so getForces
    divides by a zero minor radius. *)
Theorem C122_positive_refuted : exists (c : coil R), c_area c = ALimit 3500000000 /\ c_turns c = 1%Z /\ coil_area c = 0 /\ sqrt (coil_area c / PI) = 0.
Proof.
  exists (Coil 1 0 0 1 true (ALimit 3500000000)).
  assert (E : coil_area (Coil 1 0 0 1 true (ALimit 3500000000)) = 0).
  { unfold coil_area. cbn. rewrite nabs_R. nR. rewrite Rmult_0_l, Rabs_R0. unfold Rdiv. ring. }
  repeat split; try exact E. rewrite E. unfold Rdiv. rewrite Rmult_0_l. apply sqrt_0.
Qed.
Print Assumptions C122_positive_refuted.

(** ** C123 *)
(** Indexing a machine or a circuit gives the first coil with that label, or KeyError *)
Theorem C123_getitem : forall (M : machine R) k,
  match machine_getitem M k with
  | Ok m => exists lm, first_with fst k M lm /\ snd lm = m
  | Raise e => e = KeyError /\ ~ In k (map fst M)
  end.
Proof.
  intros M k. unfold machine_getitem. assert (F := find_first (@fst string (mcoil R)) k M).
  destruct (find _ M) as [lm|]; [exists lm; split; [exact F|reflexivity]|]. split; [reflexivity|]. intros Hin.
  apply in_map_iff in Hin as (lm & E & Hin). rewrite Forall_forall in F. exact (F _ Hin E).
Qed.
Print Assumptions C123_getitem.
Theorem C123_circuit_getitem : forall (ci : circuit R) k,
  match circuit_getitem ci k with
  | Ok c => exists m, first_with (@m_label R) k (ci_coils ci) m /\ m_coil m = c
  | Raise e => e = KeyError /\ ~ In k (map (@m_label R) (ci_coils ci))
  end.
Proof.
  intros ci k. unfold circuit_getitem. assert (F := find_first (@m_label R) k (ci_coils ci)).
  destruct (find _ (ci_coils ci)) as [lm|]; [exists lm; split; [exact F|reflexivity]|]. split; [reflexivity|]. intros Hin.
  apply in_map_iff in Hin as (lm & E & Hin). rewrite Forall_forall in F. exact (F _ Hin E).
Qed.
Print Assumptions C123_circuit_getitem.
(** getCurrents has the labels of the machine, each with the current of the last coil of that label *)
Theorem C123_getCurrents : forall (M : machine R) k,
  (In k (map fst (getCurrents M)) <-> In k (map fst M)) /\
  (forall lm, last_with fst k M lm -> dict_get (getCurrents M) k = Some (mc_current (snd lm))) /\
  (NoDup (map fst M) -> getCurrents M = map (fun lm => (fst lm, mc_current (snd lm))) M).
Proof.
  intros M k. unfold getCurrents. split; [|split].
  - rewrite (fold_dict_keys fst (fun lm => mc_current (snd lm)) k M []). cbn [map In]. tauto.
  - intros lm Hl. destruct (fold_dict_get fst (fun lm => mc_current (snd lm)) k M []) as [H _]. exact (H _ Hl).
  - intros N. rewrite (dict_fill_nodup fst (fun lm => mc_current (snd lm))); [reflexivity|]. exact N.
Qed.
Print Assumptions C123_getCurrents.
Example C123_example : exists m, machine_getitem exM "C" = Ok m /\ mc_current m = 500 /\
  circuit_getitem exC "L" = Ok (set_current (Coil 2 (-1) 8 5 true (AFixed 1)) (-1 * 500)) /\ machine_getitem exM "U" = Raise KeyError /\
  getCurrents exM = [("P1", 1000); ("C", 500); ("S", 20)].
Proof. eexists. repeat split. Qed.
(** The control switch of a circuit is that of all its members; currents are not changed. *)
Theorem C123_circuit_control : forall (ci : circuit R) b,
  ci_control (circuit_set_control ci b) = b /\ ci_current (circuit_set_control ci b) = ci_current ci /\
  map (fun m => (m_label m, c_control (m_coil m), c_current (m_coil m), c_kind (m_coil m), m_mult m)) (ci_coils (circuit_set_control ci b)) =
  map (fun m => (m_label m, b, c_current (m_coil m), c_kind (m_coil m), m_mult m)) (ci_coils ci).
Proof. intros ci b. repeat split. unfold circuit_set_control. cbn [ci_coils]. rewrite map_map. reflexivity. Qed.
Print Assumptions C123_circuit_control.
(** The control system sees exactly the coils that are switched on. *)
Theorem C123_switch : forall (M : machine R) i lm b, nth_error M i = Some lm ->
  let M' := upd_nth i (fun lm => (fst lm, mc_set_control (snd lm) b)) M in
  length (controlCurrents M') = (length (controlCurrents M) + (if b then 1 else 0) - (if mc_control (snd lm) then 1 else 0))%nat /\
  getCurrents M' = getCurrents M.
Proof.
  intros M i lm b E M'. split.
  - unfold M', controlCurrents. rewrite !map_length. revert i E M'. induction M as [|a M IH]; intros [|i] E M'; try discriminate.
    + cbn [upd_nth filter snd]. injection E as ->.
      assert (Hc : mc_control (mc_set_control (snd lm) b) = b) by (destruct (snd lm); reflexivity). rewrite Hc.
      destruct b, (mc_control (snd lm)); cbn [length]; lia.
    + cbn [upd_nth filter nth_error] in *. specialize (IH i E). cbv zeta in IH.
      assert (Hle : ((if mc_control (snd lm) then 1 else 0) <= length (filter (fun lm => mc_control (snd lm)) M))%nat).
      { clear -E. revert i E. induction M as [|a M IH]; intros [|i] E; try discriminate; cbn [nth_error filter] in *.
        - injection E as ->. destruct (mc_control (snd lm)); cbn [length]; lia.
        - specialize (IH i E). destruct (mc_control (snd a)); cbn [length]; lia. }
      destruct (mc_control (snd a)); cbn [length]; lia.
  - unfold M', getCurrents. generalize (@nil (string * R)). revert i E M'. induction M as [|a M IH]; intros [|i] E M' d; try discriminate; cbn [upd_nth fold_left].
    + cbn [fst snd]. f_equal. f_equal. destruct (snd a); reflexivity.
    + apply (IH i E).
Qed.
Print Assumptions C123_switch.
Example C123_switch_example : nth_error exM 2 = Some ("S", MSolenoid exS) /\ mc_control (MSolenoid exS) = false.
Proof. split; reflexivity. Qed.

(** ** C124 *)
(** The field of a machine is the central difference of its flux, in all classes and circuits. *)
Theorem C124_field_from_flux : forall ellipk ellipe (M : machine R) r z,
  Forall (fun lm => no_precalc (snd lm)) M ->
  fst (machine_field (green_kernel ellipk ellipe) FBr M r z) =
    difference_Br (1 / 1000) (fun r z => fst (machine_field (green_kernel ellipk ellipe) FPsi M r z)) r z /\
  fst (machine_field (green_kernel ellipk ellipe) FBz M r z) =
    difference_Bz (1 / 1000) (fun r z => fst (machine_field (green_kernel ellipk ellipe) FPsi M r z)) r z.
Proof.
  intros ellipk ellipe M r z H. unfold difference_Br, difference_Bz.
  rewrite !(C03_superposition (green_kernel ellipk ellipe)) by exact H. split; [apply field_of_Br|apply field_of_Bz].
Qed.
Print Assumptions C124_field_from_flux.
(** The field therefore has no net outflow: the discrete divergence over a cell of twice the step vanishes. *)
Theorem C124_divergence_free : forall ellipk ellipe (M : machine R) r z,
  Forall (fun lm => no_precalc (snd lm)) M -> r - 1 / 1000 <> 0 -> r <> 0 -> r + 1 / 1000 <> 0 ->
  let B f r z := fst (machine_field (green_kernel ellipk ellipe) f M r z) in
  let h := 1 / 1000 in
  ((r + h) * B FBr (r + h) z - (r - h) * B FBr (r - h) z) / (2 * h * r) + (B FBz r (z + h) - B FBz r (z - h)) / (2 * h) = 0.
Proof.
  intros ellipk ellipe M r z H H1 H2 H3 B h. unfold B, h.
  rewrite !(proj1 (C124_field_from_flux _ _ _ _ _ H)), !(proj2 (C124_field_from_flux _ _ _ _ _ H)).
  unfold difference_Br, difference_Bz. field. repeat split; assumption || lra.
Qed.
Print Assumptions C124_divergence_free.
Example C124_example : Forall (fun lm => no_precalc (snd lm)) exM /\ 2 - 1 / 1000 <> 0.
Proof. split; [repeat constructor|lra]. Qed.

(** ** C125 *)
(** If the first entry is a coil, currents stored in circuit members do not matter to the forces,
    and afterwards they agree with the circuits. *)
Theorem C125_forces_ignore_stored : forall G mu P lb (c : coil R) M M',
  same_up_to_stored ((lb, MCoil c) :: M) M' ->
  getForces G mu PI sqrt ln P M' = getForces G mu PI sqrt ln P ((lb, MCoil c) :: M).
Proof.
  intros G mu P lb c M M' H. assert (E := machine_sync_stored _ _ H). inversion H as [|a b l l' [E1 E2] H']; subst.
  destruct b as [lb' m']. cbn [fst snd same_but_stored] in *. subst lb'. destruct m'; try discriminate. injection E2 as ->.
  rewrite (getForces_sync G mu P lb c l'), (getForces_sync G mu P lb c M), E. reflexivity.
Qed.
Print Assumptions C125_forces_ignore_stored.
Theorem C125_members_follow : forall G mu P lb (c : coil R) M,
  Forall (fun lm => mcoil_R_ok (snd lm)) ((lb, MCoil c) :: M) ->
  machine_synced (snd (getForces G mu PI sqrt ln P ((lb, MCoil c) :: M))) /\
  same_up_to_stored ((lb, MCoil c) :: M) (snd (getForces G mu PI sqrt ln P ((lb, MCoil c) :: M))).
Proof.
  intros G mu P lb c M HR. set (N := (lb, MCoil c) :: M) in *.
  assert (E : snd (getForces G mu PI sqrt ln P N) = machine_sync N).
  { unfold N at 1. rewrite getForces_sync. fold N. unfold getForces. rewrite machine_forces_eq; [reflexivity|apply machine_sync_is_synced| |reflexivity].
    unfold machine_sync. apply Forall_forall. intros lm Hin. apply in_map_iff in Hin as ([l m] & <- & Hin). cbn [snd].
    rewrite Forall_forall in HR. specialize (HR _ Hin). cbn [snd] in HR. destruct m as [c0|ci|s]; cbn [mc_sync mcoil_R_ok] in *; try assumption.
    unfold resync. cbn [ci_coils]. apply Forall_forall. intros m Hm. apply in_map_iff in Hm as (m0 & <- & Hm). rewrite Forall_forall in HR. exact (HR _ Hm). }
  rewrite E. split; [apply machine_sync_is_synced|apply sync_same].
Qed.
Print Assumptions C125_members_follow.
(** A circuit whose member "U" was given another current by hand *)
Definition exStale (x : R) : circuit R := mkcircuit [("U", Coil 2 1 x 1 true (AFixed 1), 1)] 500 true.
Example C125_example : same_up_to_stored [("P1", MCoil exP); ("C", MCircuit (exStale 500))] [("P1", MCoil exP); ("C", MCircuit (exStale 7))] /\
  Forall (fun lm => mcoil_R_ok (snd lm)) [("P1", MCoil exP); ("C", MCircuit (exStale 7))] /\
  ~ machine_synced [("P1", MCoil exP); ("C", MCircuit (exStale 7))].
Proof.
  split; [|split].
  - repeat constructor.
  - repeat constructor; cbn; lra.
  - intros H. inversion H as [|? ? _ H2]; subst. inversion H2 as [|? ? H3 _]; subst. cbn in H3. inversion H3 as [|? ? H4 _]; subst. cbn in H4. lra.
Qed.
(** If the first entry is a circuit, the force on a member is that on the current stored in it,
    in the field of the currents of the circuits. *)
Theorem C125_stale_force : forall G mu P lb m I b (M : machine R), coil_R (m_coil m) <> 0 ->
  let N := (lb, MCircuit (mkcircuit [m] I b)) :: M in
  let r := coil_R (m_coil m) in let z := coil_Z (m_coil m) in
  fst (coil_getForces G mu PI sqrt ln P N (InCircuit 0 0) (m_coil m)) =
  loop_force mu r (c_current (m_coil m) * IZR (c_turns (m_coil m))) (coil_area (m_coil m))
    (plasma_field P FBr r z + response_sum G FBr N r z) (plasma_field P FBz r z + response_sum G FBz N r z).
Proof.
  intros G mu P lb m I b M Hr N r z. rewrite (getF_eq _ _ _ _ _ _ _ _ _ _ (eq_field_eq _ _ _ _ _ _) (eq_field_eq _ _ _ _ _ _) Hr). cbn [fst].
  rewrite resp_sync, !assign_member_resp. reflexivity.
Qed.
Print Assumptions C125_stale_force.
Theorem C125_forces_refuted : exists G (M M' : machine R), same_up_to_stored M M' /\
  getForces G 1 PI sqrt ln None M <> getForces G 1 PI sqrt ln None M'.
Proof.
  exists (fun f _ _ _ _ => match f with FBr => 1 | _ => 0 end), [("C", MCircuit (exStale 500))], [("C", MCircuit (exStale 7))].
  split; [repeat constructor|]. set (G := fun (f : field) (_ _ _ _ : R) => match f with FBr => 1 | _ => 0 end).
  assert (F : forall x, exists d, fst (getForces G 1 PI sqrt ln None [("C", MCircuit (exStale x))]) = [("C", FCircuit [("U", d)])] /\ snd d = - (2 * PI * 2 * x * 500)).
  { intros x. exists (fst (coil_getForces G 1 PI sqrt ln None [("C", MCircuit (exStale x))] (InCircuit 0 0) (Coil 2 1 x 1 true (AFixed 1)))). split.
    - unfold getForces. cbn [machine_forces_from circuit_forces ci_coils exStale get_coil nth_error m_coil fst snd]. unfold exStale.
      destruct (coil_getForces _ _ _ _ _ _ _ _ _) as [F M']. reflexivity.
    - assert (E := C125_stale_force G 1 None "C" ("U", Coil 2 1 x 1 true (AFixed 1), 1) 500 true []). cbv zeta in E.
      assert (Hr : coil_R (m_coil ("U", Coil 2 1 x 1 true (AFixed 1), 1)) <> 0) by (cbn; lra).
      specialize (E Hr). change (m_coil ("U", Coil 2 1 x 1 true (AFixed 1), 1)) with (Coil 2 1 x 1 true (AFixed 1)) in E.
      etransitivity; [exact (f_equal snd E)|]. unfold loop_force. cbn [snd coil_R coil_Z c_kind Coil c_current c_turns plasma_field].
      unfold response_sum. cbn [map snd mc_current mc_ctrl ci_current]. rewrite lsum_cons, lsum_nil, circuit_ctrl_sum. cbn [map ci_coils]. rewrite lsum_cons, lsum_nil.
      unfold coil_control. cbn. nR. ring. }
  intros E. apply (f_equal fst) in E. destruct (F 500) as (d & E1 & H1), (F 7) as (d' & E2 & H2). rewrite E1, E2 in E. injection E as E. subst d'.
  rewrite H1 in H2. assert (HP := PI_RGT_0). nra.
Qed.
Print Assumptions C125_forces_refuted.
