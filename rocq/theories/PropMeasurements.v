(** Properties of taking and printing measurements. *)
From Coq Require Import String List Arith ZArith Bool Reals Lra Lia.
From Verif Require Import Py Num Numpy PolySpec Coils Machine MachineSpec MachineProofs Sensors SensorsProofs MovingSpec MovingProofs Measurements MeasurementsProofs
  PropMachine PropSensors.
Import ListNotations.
Local Open Scope R_scope.
Local Open Scope string_scope.
Local Open Scope list_scope.

(** ** C126 *)
(** Every switched-on sensor reads the same as if it were alone; the others and the machine are untouched. *)
Theorem C126_independent : forall G (M : machine R) eq ss, machine_synced M -> Forall (can_measure M) ss ->
  takeMeasurements G (Some ss) M eq = Ok (map (fun s => measured G s M eq) ss, M).
Proof. intros G M eq ss HS H. apply measure_all_eq; assumption. Qed.
Print Assumptions C126_independent.
(** printing works if all sensors are switched on, and shows the readings *)
Theorem C126_printed : forall G (M : machine R) eq ss, machine_synced M -> Forall (can_measure M) ss ->
  Forall (fun s => sn_status (ms_state s) = true) ss ->
  printMeasurements G (Some ss) M eq = Ok (map (fun s => (ms_name s, reading G (ms_device s) M eq)) ss).
Proof.
  intros G M eq ss HS H Hon. unfold printMeasurements. rewrite (C126_independent G M eq ss HS H). cbn [bind fst].
  clear H. induction Hon as [|s ss Hs Hon IH]; [reflexivity|]. cbn [map mapM]. rewrite IH.
  unfold measured. rewrite Hs. reflexivity.
Qed.
Print Assumptions C126_printed.
(** Taking measurements assigns the current of every circuit to its coils if a switched-on sensor
    reads a field or a flux, and leaves the machine alone otherwise. *)
Theorem C126_machine : forall G (M M' : machine R) eq ss l, takeMeasurements G (Some ss) M eq = Ok (l, M') ->
  M' = if existsb (fun s => sn_status (ms_state s) && negb (is_rogowski s)) ss then machine_sync M else M.
Proof.
  intros G M M' eq ss l. cbn [takeMeasurements]. revert M l. induction ss as [|s ss IH]; intros M l E; cbn [measure_all] in E; [injection E as _ <-; reflexivity|].
  destruct (get_measure G s M eq) as [[s' M1]|] eqn:Es; [|discriminate]. cbn [bind snd fst] in E.
  destruct (measure_all G ss M1 eq) as [[l' M2]|] eqn:Em; [|discriminate]. cbn [bind snd fst] in E. injection E as _ <-.
  apply IH in Em. rewrite Em. cbn [existsb].
  assert (E1 : M1 = if sn_status (ms_state s) && negb (is_rogowski s) then machine_sync M else M).
  { unfold get_measure in Es. destruct s as [nm d [[] mm]]; cbn [ms_device ms_state ms_name sn_status andb] in *.
    - destruct d as [contains overlap|r z c sn|r z].
      + destruct (rogowski_measure _ _ _ _ _); [|discriminate]. injection Es as _ <-. reflexivity.
      + unfold field_sensor_measure in Es. cbn [sn_status] in Es. rewrite !machine_field_eq in Es. injection Es as _ <-. apply machine_sync_idem.
      + unfold flux_loop_measure in Es. cbn [sn_status] in Es. rewrite !machine_field_eq in Es. injection Es as _ <-. reflexivity.
    - destruct d; cbn in Es; injection Es as _ <-; reflexivity. }
  rewrite E1. destruct (sn_status (ms_state s) && negb (is_rogowski s)); [|reflexivity]. cbn [orb]. rewrite machine_sync_idem. destruct (existsb _ ss); reflexivity.
Qed.
Print Assumptions C126_machine.
Definition exSensors : list (msensor R) :=
  [mkms (Some "BP1") (DField 1 0 1 0) (Sensor true 0); mkms None (DFlux 1 0) (Sensor true 0); mkms (Some "off") (DFlux 2 0) (Sensor false 0)].
Lemma exSensors_ok n : Forall (can_measure exM) (firstn n exSensors).
Proof.
  apply Forall_forall. intros s Hs _ E. assert (In s exSensors) as Hin by (rewrite <- (firstn_skipn n exSensors); apply in_or_app; left; exact Hs).
  destruct Hin as [<-|[<-|[<-|[]]]]; discriminate.
Qed.
Example C126_example : machine_synced exM /\ Forall (can_measure exM) exSensors /\
  exists v w, printMeasurements exG (Some (firstn 2 exSensors)) exM None = Ok [(Some "BP1", v); (None, w)].
Proof.
  split; [exact exM_synced|]. assert (H : Forall (can_measure exM) exSensors) by (exact (exSensors_ok 3)).
  split; [exact H|]. eexists. eexists. rewrite C126_printed.
  - cbn [map firstn exSensors ms_name ms_device]. reflexivity.
  - exact exM_synced.
  - exact (exSensors_ok 2).
  - repeat constructor.
Qed.
(** A sensor created switched off makes printing fail, even though taking the measurements worked. *)
Theorem C126_off_sensor_fails : forall G (M : machine R) eq ss s m, machine_synced M -> Forall (can_measure M) ss -> In s ss ->
  ms_state s = Sensor false m -> printMeasurements G (Some ss) M eq = Raise AttributeError.
Proof.
  intros G M eq ss s m HS H Hin Hoff. unfold printMeasurements. rewrite (C126_independent G M eq ss HS H). cbn [bind fst]. clear H.
  assert (Hm : measured G s M eq = s) by (unfold measured; rewrite Hoff; reflexivity).
  induction ss as [|a ss IH]; [destruct Hin|]. cbn [map mapM]. destruct Hin as [->|Hin].
  - rewrite Hm, Hoff. reflexivity.
  - destruct (sn_measurement (ms_state (measured G a M eq))); [|reflexivity]. cbn [bind]. rewrite IH by exact Hin. reflexivity.
Qed.
Print Assumptions C126_off_sensor_fails.
Theorem C126_print_refuted : exists G (M : machine R) ss, machine_synced M /\ Forall (can_measure M) ss /\
  is_ok (takeMeasurements G (Some ss) M None) = true /\ printMeasurements G (Some ss) M None = Raise AttributeError.
Proof.
  exists exG, exM, exSensors. assert (H : Forall (can_measure exM) exSensors) by (exact (exSensors_ok 3)).
  split; [exact exM_synced|]. split; [exact H|]. split; [rewrite C126_independent by (exact exM_synced || exact H); reflexivity|].
  apply (C126_off_sensor_fails _ _ _ _ (mkms (Some "off") (DFlux 2 0) (Sensor false 0)) 0); [exact exM_synced|exact H| |reflexivity].
  right. right. left. reflexivity.
Qed.
Print Assumptions C126_print_refuted.
(** A machine created without a list of sensors cannot be measured. *)
Theorem C126_default_refuted : exists G (M : machine R), takeMeasurements G None M None = Raise TypeError.
Proof. exists exG, exM. reflexivity. Qed.
Print Assumptions C126_default_refuted.

(** ** C127 *)
(** The cells of the grid points have the area dR dZ, and those of neighbouring points share an edge: the cells
    tile the domain without gaps and overlaps. *)
Theorem C127_cells : forall (g : plasma_grid R) r z,
  shoelace (cell g r z) = pg_dR g * pg_dZ g /\
  (forall a b, (r - pg_dR g / 2 <= a <= r + pg_dR g / 2 /\ z - pg_dZ g / 2 <= b <= z + pg_dZ g / 2) <->
     (fst (vertex (cell g r z) 0) <= a <= fst (vertex (cell g r z) 1) /\ snd (vertex (cell g r z) 2) <= b <= snd (vertex (cell g r z) 1))) /\
  vertex (cell g r z) 1 = vertex (cell g (r + pg_dR g) z) 0 /\ vertex (cell g r z) 2 = vertex (cell g (r + pg_dR g) z) 3 /\
  vertex (cell g r z) 0 = vertex (cell g r (z + pg_dZ g)) 3 /\ vertex (cell g r z) 1 = vertex (cell g r (z + pg_dZ g)) 2.
Proof.
  intros g r z. split; [apply cell_shoelace|]. unfold vertex, cell. cbn. nR. split; [intros; tauto|].
  repeat split; f_equal; lra.
Qed.
Print Assumptions C127_cells.
(** A loop around the whole plasma, and around no coil, measures the sum of Jtor dR dZ over the grid. *)
Theorem C127_total_current : forall contains overlap m (M : machine R) g,
  (forall p, In p (pg_points g) -> snd p <> 0 -> overlap (cell g (fst (fst p)) (snd (fst p))) = Rabs (shoelace (cell g (fst (fst p)) (snd (fst p))))) ->
  0 <= pg_dR g -> 0 <= pg_dZ g ->
  Forall (fun lm => thin_entry (snd lm)) M -> (forall p, In p (machine_filaments M) -> contains (fst (fst p)) (snd (fst p)) = false) ->
  rogowski_measure contains overlap (mksensor true m) M (Some g) =
  Ok (mksensor true (Some (lsum (map snd (pg_points g)) * (pg_dR g * pg_dZ g)))).
Proof.
  intros contains overlap m M g Ho H1 H2 HT Hc. rewrite C79_enclosed_current by exact HT. do 3 f_equal.
  assert (E : filter (fun p => contains (fst (fst p)) (snd (fst p))) (machine_filaments M) = []).
  { induction (machine_filaments M) as [|p l IH]; [reflexivity|]. cbn [filter]. rewrite Hc by (left; reflexivity). apply IH. intros q Hq. apply Hc. right. exact Hq. }
  rewrite E. unfold amp_turns. cbn [map]. rewrite lsum_nil, Rplus_0_r, Rmult_comm, <- lsum_scal. apply lsum_ext. intros p Hp.
  destruct (Req_dec (snd p) 0) as [Hz|Hz]; [rewrite Hz; ring|]. rewrite (Ho p Hp Hz), cell_shoelace, Rabs_pos_eq by (apply Rmult_le_pos; assumption). ring.
Qed.
Print Assumptions C127_total_current.
Example C127_example : rogowski_measure (fun r _ => false) (fun l => Rabs (shoelace l)) (mksensor true None) exR (Some (mkplasma [((1, 0), 10); ((2, 0), 30)] (1 / 2) (1 / 4))) =
  Ok (mksensor true (Some ((10 + 30) * (1 / 2 * (1 / 4))))).
Proof.
  rewrite C127_total_current.
  - cbn [pg_points map snd pg_dR pg_dZ]. rewrite !lsum_cons, lsum_nil. do 3 f_equal. lra.
  - reflexivity. - cbn; lra. - cbn; lra.
  - repeat constructor.
  - reflexivity.
Qed.
