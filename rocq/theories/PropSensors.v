(** Properties of sensors and of the limit points on the wall. *)
From Coq Require Import String List Arith ZArith Bool Reals Lra Lia.
From Verif Require Import Py Num Numpy Coils Machine MachineSpec MachineProofs Sensors SensorsProofs.
Import ListNotations.
Local Open Scope R_scope.
Local Open Scope string_scope.

(** Right half plane as the outline of a sensor *)
Definition exIn (r z : R) : bool := R_ltb 1 r.
Definition exOv (l : list (R * R)) : R := 1 / 2.

(** ** C79 *)
(** Machines of single-turn point and filament coils, also in circuits: enclosed amp-turns *)
Theorem C79_enclosed_current : forall contains overlap m (M : machine R) eq,
  Forall (fun lm => thin_entry (snd lm)) M ->
  rogowski_measure contains overlap (mksensor true m) M eq =
  Ok (mksensor true (Some (
    match eq with
    | None => 0
    | Some g => lsum (map (fun p => snd p * overlap (cell g (fst (fst p)) (snd (fst p)))) (pg_points g))
    end +
    amp_turns (filter (fun p => contains (fst (fst p)) (snd (fst p))) (machine_filaments M))))).
Proof.
  intros contains overlap m M eq H. rewrite rogowski_eq.
  - rewrite thin_sum by exact H. reflexivity.
  - eapply Forall_impl; [|exact H]. intros [lb x]; destruct x; easy.
Qed.
Print Assumptions C79_enclosed_current.
Definition exR : machine R :=
  [("A", MCoil (Coil 2 0 30 1 true (AFixed 1))); ("B", MCoil (Coil (1 / 2) 0 50 1 true (AFixed 1)));
   ("C", MCircuit (Circuit [("U", Coil 3 1 0 1 true (AFixed 1), 1); ("L", Coil 3 (-1) 0 1 true (AFixed 1), -2)] 7 true))].
Example C79_example : Forall (fun lm => thin_entry (snd lm)) exR /\
  rogowski_measure exIn exOv (mksensor true None) exR (Some (mkplasma [((1, 0), 10); ((2, 0), 30)] 1 1)) =
  Ok (mksensor true (Some (10 / 2 + 30 / 2 + (30 + 7 - 14)))).
Proof.
  assert (H : Forall (fun lm => thin_entry (snd lm)) exR) by (repeat constructor).
  split; [exact H|]. rewrite C79_enclosed_current by exact H. do 3 f_equal. unfold machine_filaments, exR. cbn.
  assert (E1 : exIn 2 0 = true) by (apply R_ltb_true; lra). assert (E2 : exIn (1 / 2) 0 = false) by (apply R_ltb_false; lra).
  assert (E3 : exIn 3 1 = true) by (apply R_ltb_true; lra). assert (E4 : exIn 3 (-1) = true) by (apply R_ltb_true; lra).
  rewrite E1, E2, E3, E4. unfold amp_turns, lsum, exOv. cbn. nR. lra.
Qed.
(** Shaped coils count with the fraction of their area inside *)
Theorem C79_shaped : forall contains overlap m lb shape n pts ce I t b A eq,
  rogowski_measure contains overlap (mksensor true m) [(lb, MCoil (mkcoil (KShaped shape n pts ce) I t b (AFixed A)))] eq =
  Ok (mksensor true (Some (plasma_total overlap eq + overlap shape / A * I))).
Proof.
  intros. rewrite rogowski_eq by (repeat constructor). do 4 f_equal. cbn [map snd mc_share mc_current c_current]. rewrite lsum_cons, lsum_nil.
  unfold coil_inShape, coil_area. cbn. nR. lra.
Qed.
Print Assumptions C79_shaped.
Example C79_shaped_example : rogowski_measure exIn exOv (mksensor true None)
  [("S", MCoil (mkcoil (KShaped [(1, 0); (2, 0); (2, 1)] 1 [] (1, 1)) 10 1 true (AFixed 1)))] None = Ok (mksensor true (Some (0 + 1 / 2 / 1 * 10))).
Proof. rewrite C79_shaped. reflexivity. Qed.
(** Linear in the currents of all coils and circuits *)
Theorem C79_linear : forall contains overlap m (M : machine R) eq l,
  Forall (fun lm => no_solenoid (snd lm) /\ fixed_areas (snd lm)) M -> length l = length M ->
  exists w, length w = length M /\ w = map (fun lm => mc_share contains overlap (snd lm)) M /\
  rogowski_measure contains overlap (mksensor true m) (set_all M l) eq =
  Ok (mksensor true (Some (plasma_total overlap eq + lsum (map (fun p => fst p * snd p) (combine w l))))).
Proof.
  intros contains overlap m M eq l H Hl. exists (map (fun lm => mc_share contains overlap (snd lm)) M).
  split; [apply map_length|]. split; [reflexivity|]. apply rogowski_linear; assumption.
Qed.
Print Assumptions C79_linear.
Example C79_linear_example : Forall (fun lm => no_solenoid (snd lm) /\ fixed_areas (snd lm)) exR /\ length [1; 2; 3] = length exR.
Proof. split; [repeat constructor|reflexivity]. Qed.
Theorem C79_switched_off : forall contains overlap m (M : machine R) eq,
  rogowski_measure contains overlap (mksensor false m) M eq = Ok (mksensor false m).
Proof. reflexivity. Qed.
Print Assumptions C79_switched_off.

(** ** C80 *)
(** The number of turns of a point coil has no effect on the measurement. *)
Theorem C80_turns_ignored : forall contains overlap m lb r z (I : R) t b a eq,
  rogowski_measure contains overlap (mksensor true m) [(lb, MCoil (Coil r z I t b a))] eq =
  Ok (mksensor true (Some (plasma_total overlap eq + (if contains r z then I else 0)))).
Proof.
  intros. rewrite rogowski_eq by (repeat constructor). do 4 f_equal. cbn [map snd mc_share mc_current]. rewrite lsum_cons, lsum_nil.
  unfold coil_inShape. cbn. destruct (contains r z); nR; lra.
Qed.
Print Assumptions C80_turns_ignored.
Theorem C80_turns_refuted : exists contains overlap (I : R) t,
  rogowski_measure contains overlap (mksensor true None) [("P", MCoil (Coil 2 0 I t true (AFixed 1)))] None <>
  Ok (mksensor true (Some (I * IZR t))).
Proof.
  exists exIn, exOv, 5, 10%Z. rewrite C80_turns_ignored.
  assert (E1 : exIn 2 0 = true) by (apply R_ltb_true; lra). rewrite E1. cbn [plasma_total]. intros E. injection E as E. lra.
Qed.
Print Assumptions C80_turns_refuted.
(** A machine with a solenoid cannot be measured at all. *)
Theorem C80_solenoid_refuted : exists contains overlap (M : machine R),
  rogowski_measure contains overlap (mksensor true None) M None = Raise AttributeError.
Proof. exists exIn, exOv, [("S", MSolenoid (mksol 1 (-1) 1 10 5 true))]. reflexivity. Qed.
Print Assumptions C80_solenoid_refuted.

(** ** C81 *)
Theorem C81_on_wall : forall (w : list (R * R)) n, (2 <= length w)%nat -> nth 0 w (0, 0) <> nth 1 w (0, 0) ->
  exists l, generate_limit_points sqrt w n = Ok l /\ length l = n /\
  (forall p, In p l -> exists k t, (S k < length w)%nat /\ 0 <= t <= 1 /\
     p = (fst (nth k w (0, 0)) + t * (fst (nth (S k) w (0, 0)) - fst (nth k w (0, 0))),
          snd (nth k w (0, 0)) + t * (snd (nth (S k) w (0, 0)) - snd (nth k w (0, 0))))) /\
  ((1 <= n)%nat -> nth 0 l (0, 0) = nth 0 w (0, 0)) /\
  ((2 <= n)%nat -> nth (n - 1) l (0, 0) = nth (length w - 1) w (0, 0)).
Proof.
  intros w n Hl Hne. assert (Hw : wall_ok w) by (split; assumption). eexists. split; [apply limit_points_eq, Hw|].
  split; [rewrite map_length, seq_length; reflexivity|].
  assert (Hnth : forall i, (i < n)%nat -> nth i (map (fun i => wall_point w (INR i / INR (n - 1))) (seq 0 n)) (0, 0) = wall_point w (INR i / INR (n - 1))).
  { intros i Hi. rewrite (nth_indep _ (0, 0) (wall_point w (INR 0 / INR (n - 1)))) by (rewrite map_length, seq_length; exact Hi).
    rewrite (map_nth (fun i => wall_point w (INR i / INR (n - 1)))), seq_nth by exact Hi. reflexivity. }
  split; [|split].
  - intros p Hp. apply in_map_iff in Hp as (i & <- & Hi). apply in_seq in Hi. apply (wall_point_on w); [exact Hw|].
    destruct (Nat.eq_dec n 1) as [->|Hn].
    + replace i with 0%nat by lia. cbn. unfold Rdiv. rewrite Rmult_0_l. lra.
    + assert (H1 : 0 < INR (n - 1)) by (apply lt_0_INR; lia). assert (H2 : INR i <= INR (n - 1)) by (apply le_INR; lia).
      assert (H3 := pos_INR i). split; [apply Rmult_le_pos; [exact H3|apply Rlt_le, Rinv_0_lt_compat, H1]|].
      apply (Rmult_le_reg_r (INR (n - 1))); [exact H1|]. unfold Rdiv. rewrite Rmult_assoc, Rinv_l by lra. lra.
  - intros Hn. rewrite Hnth by lia. cbn [INR]. unfold Rdiv. rewrite Rmult_0_l. apply wall_point_first, Hw.
  - intros Hn. rewrite Hnth by lia. replace (INR (n - 1) / INR (n - 1)) with 1 by (field; apply not_0_INR; lia). apply wall_point_last, Hw.
Qed.
Print Assumptions C81_on_wall.
Definition square : list (R * R) := [(1, 0); (2, 0); (2, 1); (1, 1)].
Example C81_example : (2 <= length square)%nat /\ nth 0 square (0, 0) <> nth 1 square (0, 0).
Proof. split; [cbn; lia|]. cbn. intros E. injection E. lra. Qed.

(** ** C82 *)
(** Whatever the number of limit points, none lies inside the side that closes the polygon. *)
Theorem C82_closing_side_refuted : exists w : list (R * R), forall n l, generate_limit_points sqrt w n = Ok l ->
  forall t, 0 < t < 1 ->
  ~ In (fst (last w (0, 0)) + t * (fst (hd (0, 0) w) - fst (last w (0, 0))),
        snd (last w (0, 0)) + t * (snd (hd (0, 0) w) - snd (last w (0, 0)))) l.
Proof.
  exists square. intros n l E t Ht Hin. destruct (C81_on_wall square n) as (l' & E' & _ & H & _); [cbn; lia|apply C81_example|].
  rewrite E in E'. injection E' as <-. destruct (H _ Hin) as (k & s & Hk & Hs & Ep). cbn in Hk, Ep.
  destruct k as [|[|[|k]]]; [| | |lia]; injection Ep; cbn; intros; lra.
Qed.
Print Assumptions C82_closing_side_refuted.
(** Assigning a wall leaves the limit points of the old one. *)
Theorem C82_new_wall_refuted : exists (v : vessel R) w n, Vessel sqrt (Some square) n = Ok v /\
  forall l, generate_limit_points sqrt w n = Ok l -> v_limits (assign_wall v w) <> Some l.
Proof.
  destruct (C81_on_wall square 2) as (l0 & E0 & L0 & _ & F0 & _); [cbn; lia|apply C81_example|].
  set (w := [(5, 0); (6, 0)]). destruct (C81_on_wall w 2) as (l1 & E1 & L1 & _ & F1 & _); [cbn; lia|cbn; intros E; injection E; lra|].
  exists (mkvessel (Some square) (Some l0)), w, 2%nat. split.
  - unfold Vessel. rewrite E0. reflexivity.
  - intros l E. rewrite E1 in E. injection E as <-. cbn. intros E. injection E as ->.
    assert (A := F0 ltac:(lia)). assert (B := F1 ltac:(lia)). rewrite A in B. cbn in B. injection B. lra.
Qed.
Print Assumptions C82_new_wall_refuted.

(** ** C88 *)
Theorem C88_point_sensors : forall (G : field -> R -> R -> R -> R -> R) m r z c s (M : machine R) P Q, machine_synced M ->
  field_sensor_measure G (mksensor true m) r z c s M P =
    (mksensor true (Some ((fst (machine_field G FBr M r z) + plasma_field P FBr r z) * c +
                          (fst (machine_field G FBz M r z) + plasma_field P FBz r z) * s)), M) /\
  flux_loop_measure G (mksensor true m) r z M Q =
    (mksensor true (Some (match Q with None => 0 | Some q => q r z end + fst (machine_field G FPsi M r z))), M) /\
  field_sensor_measure G (mksensor false m) r z c s M P = (mksensor false m, M) /\
  flux_loop_measure G (mksensor false m) r z M Q = (mksensor false m, M).
Proof.
  intros G m r z c s M P Q HS. unfold field_sensor_measure, flux_loop_measure. cbn [sn_status]. rewrite !machine_field_eq. cbn [fst].
  rewrite !(machine_sync_synced M HS).
  split; [|split; [|split; reflexivity]].
  - f_equal. do 2 f_equal. unfold plasma_field. destruct P; nR; ring.
  - f_equal. do 2 f_equal. destruct Q; nR; ring.
Qed.
Print Assumptions C88_point_sensors.
Example C88_example : machine_synced exR.
Proof. repeat constructor; cbn; nR; lra. Qed.
