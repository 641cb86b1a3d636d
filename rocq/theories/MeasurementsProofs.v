(** Lemmas about taking and printing measurements. *)
From Coq Require Import String List Arith ZArith Bool Reals Lra Lia.
From Verif Require Import Py Num Numpy Coils Machine MachineSpec MachineProofs Sensors SensorsProofs Measurements MovingSpec MovingProofs.
Import ListNotations.
Local Open Scope R_scope.

(** What a sensor reads in a machine [M] with plasma [eq] *)
Definition reading (G : field -> R -> R -> R -> R -> R) (d : device R) (M : machine R) (eq : option (plasma_state R)) : R :=
  match d with
  | DRogowski contains overlap =>
      plasma_total overlap (option_map ps_grid eq) + lsum (map (fun lm => mc_share contains overlap (snd lm) * mc_current (snd lm)) M)
  | DField r z c s =>
      (response_sum G FBr M r z + match eq with None => 0 | Some e => ps_field e FBr r z end) * c +
      (response_sum G FBz M r z + match eq with None => 0 | Some e => ps_field e FBz r z end) * s
  | DFlux r z => response_sum G FPsi M r z + match eq with None => 0 | Some e => ps_psi e r z end
  end.
Definition measured (G : field -> R -> R -> R -> R -> R) (s : msensor R) (M : machine R) (eq : option (plasma_state R)) : msensor R :=
  if sn_status (ms_state s) then mkms (ms_name s) (ms_device s) (mksensor true (Some (reading G (ms_device s) M eq))) else s.
Definition is_rogowski (s : msensor R) : bool := match ms_device s with DRogowski _ _ => true | _ => false end.
(** A switched-on Rogowski loop cannot be used with a solenoid in the machine. *)
Definition can_measure (M : machine R) (s : msensor R) : Prop :=
  sn_status (ms_state s) = true -> is_rogowski s = true -> Forall (fun lm => no_solenoid (snd lm)) M.


Lemma ms_eta (s : msensor R) : mkms (ms_name s) (ms_device s) (ms_state s) = s.
Proof. destruct s; reflexivity. Qed.
Section G.
  Variable G : field -> R -> R -> R -> R -> R.
  Lemma get_measure_eq s (M : machine R) eq : can_measure M s ->
    exists M', get_measure G s M eq = Ok (measured G s M eq, M') /\ (M' = M \/ M' = machine_sync M).
  Proof.
    intros H. unfold get_measure, measured. destruct s as [nm d [[] mm]]; cbn [ms_device ms_state ms_name sn_status].
    - destruct d as [contains overlap|r z c sn|r z].
      + rewrite rogowski_eq by (apply H; reflexivity). cbn [bind]. eexists. split; [reflexivity|]. left; reflexivity.
      + unfold field_sensor_measure. cbn [sn_status]. rewrite !machine_field_eq. eexists. split; [|right; apply machine_sync_idem].
        do 3 f_equal. f_equal. f_equal. unfold reading. rewrite resp_sync. destruct eq; cbn [option_map]; nR; ring.
      + unfold flux_loop_measure. cbn [sn_status]. rewrite !machine_field_eq. eexists. split; [|right; reflexivity].
        do 3 f_equal. f_equal. f_equal. unfold reading. destruct eq; cbn [option_map]; nR; ring.
    - exists M. split; [|left; reflexivity]. destruct d; reflexivity.
  Qed.
End G.
Section G2.
  Variable G : field -> R -> R -> R -> R -> R.
  Lemma measure_all_eq eq (M : machine R) : machine_synced M -> forall ss, Forall (can_measure M) ss ->
    measure_all G ss M eq = Ok (map (fun s => measured G s M eq) ss, M).
  Proof.
    intros HS. induction 1 as [|s ss Hs H IH]; [reflexivity|]. cbn [measure_all map].
    destruct (get_measure_eq G s M eq Hs) as (M' & E & HM). assert (M' = M) by (destruct HM; [assumption|rewrite H0; apply machine_sync_synced, HS]). subst M'.
    rewrite E. cbn [bind snd fst]. rewrite IH. reflexivity.
  Qed.
End G2.
(** Area of the cell of a grid point *)
Lemma cell_shoelace (g : plasma_grid R) r z : PolySpec.shoelace (cell g r z) = pg_dR g * pg_dZ g.
Proof. unfold PolySpec.shoelace, PolySpec.vertex, cell. cbn. nR. field. Qed.
