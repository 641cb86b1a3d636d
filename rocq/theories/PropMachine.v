(** Properties of coils, circuits and machines. *)
From Coq Require Import String List Arith ZArith QArith Bool Reals Lra Lia.
From Verif Require Import Py Num Numpy Polygons Quadrature QuadratureProofs Coils Machine MachineSpec MachineProofs MachineForces
  GradShafranov GradShafranovProofs PolySpec.
Import ListNotations.
Local Open Scope R_scope.
Local Open Scope string_scope.

(** A machine with a plain coil of ten turns, an antisymmetric pair in series and a solenoid. *)
Definition exP : coil R := Coil 1 1 1000 10 true (AFixed 1).
Definition exC : circuit R := Circuit [("U", Coil 2 1 7 1 true (AFixed 1), 1); ("L", Coil 2 (-1) 8 5 true (AFixed 1), -1)] 500 true.
Definition exS : solenoid R := mksol (1 / 10) (-1) 1 3 20 false.
Definition exM : machine R := [("P1", MCoil exP); ("C", MCircuit exC); ("S", MSolenoid exS)].
Lemma exM_synced : machine_synced exM.
Proof. repeat constructor; cbn; nR; lra. Qed.
Lemma exM_labels : labels_distinct exM.
Proof. split; repeat constructor; cbn; intuition congruence. Qed.
(** A stand-in for the Green's functions *)
Definition exG (f : field) (rc zc r z : R) : R := match f with FPsi => rc * r | FBr => zc - z | FBz => rc - r end.

(** ** C02 *)
Theorem C02_net_vertical_force : forall ellipk ellipe mu (M : machine R),
  NoDup (map fst M) ->
  Forall (fun lm => match snd lm with
                    | MCoil c => match c_kind c with KPoint r _ => r <> 0 | _ => False end
                    | _ => False end) M ->
  lsum (map (fun e => match snd e with FCoil F => snd F | _ => 0 end)
       (fst (getForces (green_kernel ellipk ellipe) mu PI sqrt ln None M))) = 0 /\
  length (fst (getForces (green_kernel ellipk ellipe) mu PI sqrt ln None M)) = length M.
Proof.
  intros. split; [apply (net_vertical ellipk ellipe mu M); assumption|].
  rewrite getForces_eq; [|clear H|clear H|assumption].
  - cbn [fst]. rewrite map_length, combine_length, seq_length. lia.
  - eapply Forall_impl; [|eassumption]. intros [lb m]; cbn; destruct m; easy.
  - eapply Forall_impl; [|eassumption]. intros [lb m]; cbn. destruct m as [c|ci|s]; try easy. unfold mcoil_R_ok, coil_R. destruct (c_kind c); easy.
Qed.
Print Assumptions C02_net_vertical_force.
Definition exM2 : machine R := [("P1", MCoil exP); ("P2", MCoil (Coil 2 (-1) (-300) 5 false (ALimit 1000))); ("P3", MCoil (Coil 3 0 70 1 true (ALimit 1000)))].
Example C02_example : NoDup (map fst exM2) /\
  Forall (fun lm => match snd lm with MCoil c => match c_kind c with KPoint r _ => r <> 0 | _ => False end | _ => False end) exM2 /\
  exists a, nth_error (fst (getForces (green_kernel (fun _ => 1) (fun _ => 0)) mu0 PI sqrt ln None exM2)) 1 = Some ("P2", FCoil a).
Proof.
  split; [repeat constructor; cbn; intuition congruence|]. split; [repeat constructor; cbn; lra|].
  rewrite getForces_eq.
  - eexists. reflexivity.
  - repeat constructor.
  - repeat constructor; cbn; lra.
  - repeat constructor; cbn; intuition congruence.
Qed.

(** ** C03 *)
Theorem C03_superposition : forall (G : field -> R -> R -> R -> R -> R) f (M : machine R) r z,
  Forall (fun lm => no_precalc (snd lm)) M ->
  fst (machine_field G f M r z) = field_of G f (machine_filaments M) r z.
Proof. intros. rewrite machine_field_eq. apply machine_filaments_field; assumption. Qed.
Print Assumptions C03_superposition.
Example C03_example : Forall (fun lm => no_precalc (snd lm)) exM /\ length (machine_filaments exM) = 6%nat /\
  fst (machine_field exG FBr exM 1 0) = 10000 * 1 + 500 * 1 + -2500 * -1 + (20 * -1 + 20 * 0 + 20 * 1).
Proof.
  assert (H : Forall (fun lm => no_precalc (snd lm)) exM) by (repeat constructor).
  split; [exact H|]. split; [reflexivity|]. rewrite C03_superposition by exact H.
  unfold field_of. cbn. unfold lsum. cbn. nR. lra.
Qed.

(** Every coil carries current*turns, split between its filaments by weights adding up to one
    (for the six-point rule to 1 - 1e-15, the sum of the literals in the source). *)
Theorem C03_amp_turns :
  (forall r z I t b a, coil_filaments (Coil r z I t b a) = [((r, z), IZR t)]) /\
  (forall fuel shape I t b n c, ShapedCoil fuel shape I t b n = Ok c -> area shape <> 0 ->
     amp_turns (coil_filaments c) = IZR t * weight_sum n) /\
  (forall Rf Zf shape I t b c, FilamentCoil Rf Zf shape I t b = Ok c -> length Rf = length Zf -> Rf <> [] ->
     coil_filaments c = map (fun p => (p, IZR t / INR (length Rf))) (combine Rf Zf) /\ amp_turns (coil_filaments c) = IZR t) /\
  (forall Rf Zf I t b pol a c, MultiCoil_list Rf Zf I t b false pol a = Ok c ->
     amp_turns (coil_filaments c) = fst pol * IZR (c_turns c)) /\
  (forall s, amp_turns (mcoil_filaments (MSolenoid s)) = INR (s_Ns s) * s_current s).
Proof.
  split; [reflexivity|]. split; [|split; [|split]].
  - intros fuel shape I t b n c E Ha. unfold ShapedCoil in E. destruct (2 <? length shape)%nat; [|discriminate].
    destruct (polygon_quad fuel shape n) as [q|] eqn:Eq; [|discriminate]. cbn [bind] in E. injection E as <-.
    unfold coil_filaments. cbn [c_kind c_turns]. unfold amp_turns, scale. rewrite map_map. cbn [snd].
    rewrite lsum_scal. f_equal. assert (L := polygon_quad_linear _ _ _ _ 1 0 0 Eq Ha).
    unfold average in L. etransitivity; [|etransitivity; [exact L|ring]]. apply lsum_ext. intros [[r z] w] _. cbn. ring.
  - intros Rf Zf shape I t b c E Hl Hne. unfold FilamentCoil in E.
    destruct (match shape with Some s => Ok s | None => _ end) as [sh|]; [|discriminate]. cbn [bind] in E.
    destruct (2 <? length sh)%nat; [|discriminate]. injection E as <-. unfold coil_filaments. cbn [c_kind c_turns]. split; [reflexivity|].
    unfold amp_turns. rewrite map_map. cbn [snd]. rewrite lsum_const, combine_length, <- Hl, Nat.min_id.
    field. apply not_0_INR. destruct Rf; easy.
  - intros Rf Zf I t b pol a c E. unfold MultiCoil_list in E. destruct (Nat.eqb_spec (length Rf) (length Zf)) as [Hl|]; [|discriminate]. injection E as <-.
    unfold coil_filaments, amp_turns. cbn [c_kind c_turns]. rewrite app_nil_r, map_map. cbn [snd].
    rewrite lsum_const, combine_length, <- Hl, Nat.min_id, <- INR_IZR_INZ. ring.
  - intros s. unfold amp_turns. cbn [mcoil_filaments]. rewrite map_map. cbn [snd]. rewrite lsum_const, seq_length. reflexivity.
Qed.
Print Assumptions C03_amp_turns.
Example C03_amp_turns_example : exists c,
  FilamentCoil [1; 2; 3] [0; 1; 0] None 10 6 true = Ok c /\ coil_filaments c = [((1, 0), 6 / 3); ((2, 1), 6 / 3); ((3, 0), 6 / 3)].
Proof.
  eexists. split; [reflexivity|]. cbn. repeat f_equal; lra.
Qed.
Example C03_shaped_example : (* at the rationals: the unit square with 3 points per triangle *)
  exists c : coil Q, ShapedCoil 20 [(1, 0); (1, 1); (2, 1); (2, 0)]%Q 10%Q 6 true 3 = Ok c.
Proof. eexists. vm_compute. reflexivity. Qed.

(** ** C04 *)
Theorem C04_turns_scale : forall (G : field -> R -> R -> R -> R -> R) f k I t b a r z,
  match k with KMulti _ _ _ _ _ | KPreCalc _ _ _ => False | _ => True end ->
  coil_field G f (mkcoil k I t b a) r z = (I * IZR t) * coil_field G f (mkcoil k 1 1 b a) r z.
Proof.
  intros G f k I t b a r z Hk. unfold coil_field, coil_control. cbn [c_kind c_turns c_current].
  destruct k; try easy; nR; unfold Rdiv; ring.
Qed.
Print Assumptions C04_turns_scale.
Example C04_scale_example : coil_field exG FPsi (Coil 2 0 10 3 true (AFixed 1)) 1 0 = 60.
Proof. unfold coil_field, coil_control. cbn. nR. lra. Qed.
(** The other two classes ignore the number of turns. *)
Theorem C04_turns_ignored : forall (G : field -> R -> R -> R -> R -> R) f k I t t' b a r z,
  match k with KMulti _ _ _ _ _ | KPreCalc _ _ _ => True | _ => False end ->
  coil_field G f (mkcoil k I t b a) r z = coil_field G f (mkcoil k I t' b a) r z.
Proof. intros G f k I t t' b a r z Hk. destruct k; try easy. Qed.
Print Assumptions C04_turns_ignored.
Theorem C04_turns_refuted : exists (G : field -> R -> R -> R -> R -> R) r z,
  coil_field G FPsi (MultiCoil_single 2 0 10 3 true false (1, 1) (AFixed 1)) r z <>
  3 * coil_field G FPsi (MultiCoil_single 2 0 10 1 true false (1, 1) (AFixed 1)) r z.
Proof. exists exG, 1, 0. unfold coil_field, coil_control. cbn. nR. lra. Qed.
Print Assumptions C04_turns_refuted.

(** ** C05 *)
Theorem C05_linear_response : forall (G : field -> R -> R -> R -> R -> R) f (M : machine R) dI r z,
  length dI = length (machine_control G f M r z) ->
  fst (machine_field G f (controlAdjust M dI) r z) =
  fst (machine_field G f M r z) + lsum (map (fun p => fst p * snd p) (combine dI (machine_control G f M r z))) /\
  (forall i lm, nth_error M i = Some lm -> mc_control (snd lm) = false -> nth_error (controlAdjust M dI) i = Some lm).
Proof.
  intros G f M dI r z Hl. rewrite !machine_field_eq. cbn [fst]. split.
  - apply adjust_response. rewrite Hl. unfold machine_control, controlCurrents. rewrite !map_length. reflexivity.
  - intros i lm E Hc. apply (zip_frame (fun m dI => mc_set_current m (nadd (mc_current m) dI))); auto; intros.
    + apply mc_set_current_shape. + apply mc_set_current_control.
Qed.
Print Assumptions C05_linear_response.
Example C05_example : machine_control exG FPsi exM 1 0 = [10; -8] /\
  fst (machine_field exG FPsi (controlAdjust exM [3; 4]) 1 0) = fst (machine_field exG FPsi exM 1 0) + (3 * 10 + 4 * -8).
Proof.
  assert (E : machine_control exG FPsi exM 1 0 = [10; -8]).
  { unfold machine_control. cbn. unfold coil_control, circuit_ctrl. cbn. unfold coil_control. cbn. nR. repeat f_equal; lra. }
  split; [exact E|]. destruct (C05_linear_response exG FPsi exM [3; 4] 1 0) as [H _]; [rewrite E; reflexivity|].
  rewrite H, E. cbn [combine map fst snd]. rewrite !lsum_cons, lsum_nil. lra.
Qed.

(** ** C06 *)
Theorem C06_control_round_trip : forall (M : machine R) c, length c = length (controlCurrents M) ->
  controlCurrents (setControlCurrents M c) = c /\
  controlCurrents (controlAdjust M c) = map (fun p => fst p + snd p) (combine (controlCurrents M) c) /\
  (machine_synced M -> setControlCurrents M (controlCurrents M) = M) /\
  (forall M', M' = setControlCurrents M c \/ M' = controlAdjust M c ->
     map fst M' = map fst M /\ machine_shape M' = machine_shape M /\
     map (fun lm => mc_control (snd lm)) M' = map (fun lm => mc_control (snd lm)) M /\
     (forall i lm, nth_error M i = Some lm -> mc_control (snd lm) = false -> nth_error M' i = Some lm)).
Proof.
  intros M c Hl. split; [apply set_get, Hl|]. split; [apply adjust_get, Hl|]. split; [apply get_set|].
  intros M' HM.
  assert (Hf : machine_shape M' = machine_shape M /\ map (fun lm => mc_control (snd lm)) M' = map (fun lm => mc_control (snd lm)) M /\
     (forall i lm, nth_error M i = Some lm -> mc_control (snd lm) = false -> nth_error M' i = Some lm)).
  { destruct HM as [->| ->].
    - apply (zip_frame mc_set_current); intros; [apply mc_set_current_shape|apply mc_set_current_control].
    - apply (zip_frame (fun m dI => mc_set_current m (nadd (mc_current m) dI))); intros; [apply mc_set_current_shape|apply mc_set_current_control]. }
  split; [|exact Hf]. destruct Hf as [Hf _]. apply (f_equal (map fst)) in Hf. unfold machine_shape in Hf. rewrite !map_map in Hf. exact Hf.
Qed.
Print Assumptions C06_control_round_trip.
Example C06_example : machine_synced exM /\ controlCurrents exM = [1000; 500] /\ controlCurrents (setControlCurrents exM [1; 2]) = [1; 2] /\
  nth_error (setControlCurrents exM [1; 2]) 2 = nth_error exM 2.
Proof. split; [apply exM_synced|]. repeat split; reflexivity. Qed.

(** ** C07 *)
Theorem C07_members_follow : forall (G : field -> R -> R -> R -> R -> R) coils I b (h : list circuit_op),
  let ci := fold_left (circuit_step G) h (Circuit coils I b) in
  Forall (fun m => c_current (m_coil m) = ci_current ci * m_mult m) (ci_coils ci) /\
  (forall f r z, fst (circuit_field G f ci r z) = ci_current ci * circuit_ctrl G f ci r z).
Proof.
  intros G coils I b h ci. split.
  - apply (circuit_history_synced G h). apply set_control_synced, set_current_is_synced.
  - intros f r z. rewrite circuit_field_eq. reflexivity.
Qed.
Print Assumptions C07_members_follow.
(** The same in a machine, where circuits are also changed by the control system. *)
Theorem C07_members_follow_machine : forall (G : field -> R -> R -> R -> R -> R) (M : machine R) (h : list machine_op),
  machine_synced M -> machine_synced (fold_left (machine_step G) h M).
Proof. intros. apply machine_history_synced. assumption. Qed.
Print Assumptions C07_members_follow_machine.
Example C07_example :
  map (fun m => c_current (m_coil m)) (ci_coils (fold_left (circuit_step exG) [CSetCurrent 100; CField FBr 1 0; CSetControl false; CSetCurrent 3] exC)) = [1 * 3; -1 * 3].
Proof. reflexivity. Qed.

(** ** C08 *)
Theorem C08_force_without_own_field : forall (G : field -> R -> R -> R -> R -> R) mu P (M : machine R) i lb c,
  machine_synced M -> Forall (fun lm => mcoil_R_ok (snd lm)) M -> NoDup (map fst M) ->
  nth_error M i = Some (lb, MCoil c) ->
  let r := coil_R c in let z := coil_Z c in
  let others f := fst (machine_field G f (remove_nth i M) r z) + plasma_field P f r z in
  dict_get (fst (getForces G mu PI sqrt ln P M)) lb =
    Some (FCoil (loop_force mu r (c_current c * IZR (c_turns c)) (coil_area c) (others FBr) (others FBz))) /\
  snd (getForces G mu PI sqrt ln P M) = M.
Proof.
  intros G mu P M i lb c HS HR N E r z others. rewrite getForces_eq by assumption. cbn [fst snd]. split; [|reflexivity].
  replace (loop_force mu r (c_current c * IZR (c_turns c)) (coil_area c) (others FBr) (others FBz)) with (direct_entry G mu P M i c).
  - apply dict_get_nodup.
    + rewrite map_map. cbn [fst]. replace (map _ _) with (map fst M); [exact N|].
      generalize 0%nat. clear. induction M as [|lm M IH]; intros i; [reflexivity|]. cbn. f_equal. apply IH.
    + apply in_map_iff. exists (i, (lb, MCoil c)). split; [reflexivity|].
      apply (nth_error_In _ i), (nth_error_enum M i 0 _ E).
  - unfold direct_entry, coil_force, others. rewrite !machine_field_eq. cbn [fst]. fold r z.
    rewrite !(Rplus_comm (plasma_field _ _ _ _)). reflexivity.
Qed.
Print Assumptions C08_force_without_own_field.
(** No side effects, whatever the labels and also for circuits *)
Theorem C08_no_side_effects : forall (G : field -> R -> R -> R -> R -> R) mu P (M : machine R),
  machine_synced M -> Forall (fun lm => mcoil_R_ok (snd lm)) M -> snd (getForces G mu PI sqrt ln P M) = M.
Proof. intros G mu P M HS HR. unfold getForces. rewrite machine_forces_eq by (try reflexivity; assumption). reflexivity. Qed.
Print Assumptions C08_no_side_effects.
Example C08_example : machine_synced exM /\ Forall (fun lm => mcoil_R_ok (snd lm)) exM /\ NoDup (map fst exM) /\ nth_error exM 0 = Some ("P1", MCoil exP) /\
  fst (machine_field exG FBr (remove_nth 0 exM) 1 1) = -500 * 0 + 500 * 5 * 2 + 20 * (-2 + -1 + 0).
Proof.
  split; [apply exM_synced|]. split; [repeat constructor; cbn; lra|]. split; [apply exM_labels|]. split; [reflexivity|].
  rewrite machine_field_eq. cbn. unfold response_sum. cbn. unfold lsum. cbn. unfold circuit_ctrl, sol_ctrl, coil_control. cbn.
  unfold linspace. cbn. nR. unfold exG. lra.
Qed.

(** ** C09 *)
(** A circuit member: the field used includes the member's own field. *)
Theorem C09_own_field_included : forall (G : field -> R -> R -> R -> R -> R) mu P (M : machine R) i j lb ci m,
  machine_synced M -> nth_error M i = Some (lb, MCircuit ci) -> nth_error (ci_coils ci) j = Some m -> coil_R (m_coil m) <> 0 ->
  let c := m_coil m in let r := coil_R c in let z := coil_Z c in
  let all f := fst (machine_field G f M r z) + plasma_field P f r z in
  fst (coil_getForces G mu PI sqrt ln P M (InCircuit i j) c) =
  loop_force mu r (c_current c * IZR (c_turns c)) (coil_area c) (all FBr) (all FBz).
Proof.
  intros G mu P M i j lb ci m HS E Em Hr c r z all. unfold c. rewrite (member_force G mu P M i j lb ci m HS E Em Hr). cbn [fst].
  unfold coil_force, all. rewrite !machine_field_eq. cbn [fst]. rewrite !(Rplus_comm (plasma_field _ _ _ _)). reflexivity.
Qed.
Print Assumptions C09_own_field_included.
Theorem C09_member_force_refuted : exists (G : field -> R -> R -> R -> R -> R) (ci : circuit R) (m : member R),
  circuit_synced ci /\ ci_coils ci = [m] /\
  fst (coil_getForces G mu0 PI sqrt ln None [("C", MCircuit ci)] (InCircuit 0 0) (m_coil m)) <>
  fst (coil_getForces G mu0 PI sqrt ln None [("C", MCoil (m_coil m))] (Direct 0) (m_coil m)).
Proof.
  exists (fun _ _ _ _ _ => 1), (Circuit [("U", Coil 1 0 0 1 true (AFixed 1), 1)] 10 true).
  set (ci := Circuit _ _ _). exists (hd ("", Coil 1 0 0 1 true (AFixed 1), 1) (ci_coils ci)). split; [|split; [reflexivity|]].
  - repeat constructor; cbn; nR; lra.
  - rewrite (member_force _ _ _ _ 0 0 "C" ci (hd ("", Coil 1 0 0 1 true (AFixed 1), 1) (ci_coils ci)));
      [|repeat constructor; cbn; nR; lra|reflexivity|reflexivity|cbn; lra].
    rewrite (direct_force _ _ _ _ 0 "C" (m_coil (hd ("", Coil 1 0 0 1 true (AFixed 1), 1) (ci_coils ci)))); [|repeat constructor|reflexivity|cbn; lra].
    cbn [fst]. unfold coil_force, loop_force. intros E. injection E as E1 E2. clear E1. revert E2.
    cbn. unfold response_sum. cbn. unfold lsum. cbn. unfold circuit_ctrl, coil_control. cbn. nR. assert (HP := PI_RGT_0). nra.
Qed.
Print Assumptions C09_member_force_refuted.

(** ** C10 *)
(** Both coils of the pair are at +Z, and the given current and control flag are lost. *)
Theorem C10_pair_as_built : forall r z I t b a s,
  let ci := MirroredCoil r z I t b a s in
  map (fun m => coil_Z (m_coil m)) (ci_coils ci) = [z; z] /\
  map (fun m => c_current (m_coil m)) (ci_coils ci) = [0; 0] /\ ci_control ci = true /\
  (forall G f x y, fst (circuit_field G f ci x y) = 0) /\
  (forall G f J x y, fst (circuit_field G f (circuit_set_current ci J) x y) =
     J * (1 + (if s then 1 else -1)) * (IZR t * G f r z x y)).
Proof.
  intros r z I t b a s ci. split; [reflexivity|]. split; [destruct s; cbn; nR; repeat f_equal; lra|]. split; [reflexivity|]. split.
  - intros. rewrite circuit_field_eq. cbn. nR. lra.
  - intros. rewrite circuit_field_eq. cbn [fst ci_current circuit_set_current]. unfold circuit_ctrl. cbn. unfold coil_control. cbn. destruct s; nR; ring.
Qed.
Print Assumptions C10_pair_as_built.
Example C10_example : fst (circuit_field exG FPsi (circuit_set_current (MirroredCoil 2 1 5 3 true (AFixed 1) true) 4) 1 0) = 48.
Proof. destruct (C10_pair_as_built 2 1 5 3 true (AFixed 1) true) as (_ & _ & _ & _ & H). rewrite H. cbn. lra. Qed.
Theorem C10_mirrored_refuted : exists r z I t b a s,
  let ci := MirroredCoil r z I t b a s in
  ~ In (- z) (map (fun m => coil_Z (m_coil m)) (ci_coils ci)) /\ ci_current ci <> I /\ ci_control ci <> b.
Proof.
  exists 1, 1, 1, 1%Z, false, (AFixed 1), true. cbn. repeat split; [|nR; lra|discriminate].
  intros [H|[H|[]]]; lra.
Qed.
Print Assumptions C10_mirrored_refuted.

(** ** C11 *)
Theorem C11_cached_flux : forall (G : field -> R -> R -> R -> R -> R) (M0 : machine R) (h : list machine_op) plasma r z,
  labels_distinct M0 ->
  let M := fold_left (machine_step G) h M0 in
  eq_psi plasma M (createPsiGreens G M0 r z) = Ok (plasma + fst (machine_field G FPsi M r z)).
Proof.
  intros G M0 h plasma r z HL M. unfold eq_psi. rewrite (cached_direct G M0 M r z HL) by apply machine_history_shape.
  rewrite machine_field_eq. reflexivity.
Qed.
Print Assumptions C11_cached_flux.
Example C11_example : labels_distinct exM /\
  exists v, eq_psi 7 (fold_left (machine_step exG) [OSetCurrent 0 5; OSetControl 1 false; OAdjust [2]; OSetCurrent 1 9] exM) (createPsiGreens exG exM 1 0) = Ok v /\
  v = 7 + (7 * 10 + 9 * -8 + 20 * (3 / 10)).
Proof.
  split; [apply exM_labels|]. eexists. split; [apply C11_cached_flux, exM_labels|]. f_equal. rewrite machine_field_eq. cbn [fst].
  unfold response_sum. cbn. unfold lsum. cbn. unfold circuit_ctrl, sol_ctrl, coil_control. cbn. unfold coil_control, linspace. cbn. nR. lra.
Qed.

(** ** C12 *)
(** In general the last coil with a label provides the response for all coils with it. *)
Theorem C12_last_label_wins : forall (G : field -> R -> R -> R -> R -> R) (M : machine R) r z,
  Forall (fun lm => match snd lm with MCircuit _ => False | _ => True end) M ->
  exists v, calcPsiFromGreens M (createPsiGreens G M r z) = Ok (v, M) /\
  v = lsum (map (fun lm => mc_current (snd lm) *
        match last_with fst (fst lm) M with Some lm' => mc_ctrl G FPsi (snd lm') r z | None => 0 end) M).
Proof.
  intros G M r z HM. eexists. split; [|reflexivity].
  unfold calcPsiFromGreens. nR.
  assert (K : forall k, dict_get (createPsiGreens G M r z) k = match last_with fst k M with Some lm => Some (mc_greens G (snd lm) r z) | None => None end).
  { intros k. unfold createPsiGreens. rewrite (dict_fill fst (fun lm : string * mcoil R => mc_greens G (snd lm) r z)). reflexivity. }
  assert (L : forall lm, In lm M -> exists lm', last_with fst (fst lm) M = Some lm' /\ In lm' M).
  { intros lm H. unfold last_with. destruct (find _ (rev M)) as [lm'|] eqn:E.
    - exists lm'. split; [reflexivity|]. apply find_some in E as [E _]. apply in_rev, E.
    - exfalso. apply in_rev in H. apply (find_none _ _ E) in H. rewrite String.eqb_refl in H. discriminate. }
  set (W := fun lm : string * mcoil R => match last_with fst (fst lm) M with Some lm' => mc_ctrl G FPsi (snd lm') r z | None => 0 end).
  change (calcPsi_from 0 M (createPsiGreens G M r z) = Ok (lsum (map (fun lm => mc_current (snd lm) * W lm) M), M)).
  enough (forall M' acc, (forall lm, In lm M' -> In lm M) ->
    calcPsi_from acc M' (createPsiGreens G M r z) = Ok (acc + lsum (map (fun lm => mc_current (snd lm) * W lm) M'), M')).
  { rewrite H by auto. rewrite Rplus_0_l. reflexivity. }
  induction M' as [|[lb m] M' IH]; intros acc Hin; cbn [calcPsi_from map]; [rewrite lsum_nil, Rplus_0_r; reflexivity|].
  rewrite K. destruct (L (lb, m) (Hin _ (or_introl eq_refl))) as (lm' & El & Hl). cbn [fst] in El. rewrite El.
  rewrite Forall_forall in HM. assert (H1 := HM _ (Hin _ (or_introl eq_refl))). assert (H2 := HM _ Hl). cbn [snd] in H1.
  assert (EW : W (lb, m) = mc_ctrl G FPsi (snd lm') r z) by (unfold W; cbn [fst]; rewrite El; reflexivity).
  assert (E1 : mc_from_greens m (mc_greens G (snd lm') r z) = Ok (mc_current m * W (lb, m), m)).
  { rewrite EW. destruct m, (snd lm'); try easy. }
  rewrite E1. cbn [bind fst snd]. rewrite IH by (intros; apply Hin; right; auto). cbn [bind fst snd]. rewrite lsum_cons. cbn [snd].
  do 2 f_equal. nR. ring.
Qed.
Print Assumptions C12_last_label_wins.
Example C12_last_example : Forall (fun lm => match snd lm with MCircuit _ => False | _ => True end) exM2 /\
  last_with fst "P1" ([("P1", MCoil (Coil 1 0 1 1 true (AFixed 1)))] ++ exM2) = Some ("P1", MCoil exP).
Proof. split; [repeat constructor|reflexivity]. Qed.
(** Repeated labels: the cached flux differs from the direct one. *)
Theorem C12_repeated_labels_refuted : exists (G : field -> R -> R -> R -> R -> R) (M : machine R) r z,
  machine_synced M /\ eq_psi 0 M (createPsiGreens G M r z) <> Ok (eq_psiRZ G 0 M r z).
Proof.
  exists exG, [("P", MCoil (Coil 1 0 1 1 true (AFixed 1))); ("P", MCoil (Coil 2 0 1 1 true (AFixed 1)))], 1, 0.
  split; [repeat constructor|]. unfold eq_psiRZ. rewrite machine_field_eq. unfold eq_psi. cbn. unfold response_sum. cbn. unfold lsum. cbn.
  unfold coil_greens, coil_from_greens, coil_control. cbn. nR. intros E. injection E as E. lra.
Qed.
Print Assumptions C12_repeated_labels_refuted.
(** A moved coil: the cached flux is that of the old position. *)
Theorem C12_moved_coil_refuted : exists (G : field -> R -> R -> R -> R -> R) (c : coil R) Rnew r z,
  let M0 := [("P", MCoil c)] in let M1 := [("P", MCoil (set_R c Rnew))] in
  eq_psi 0 M1 (createPsiGreens G M0 r z) <> Ok (eq_psiRZ G 0 M1 r z).
Proof.
  exists exG, (Coil 1 0 1 1 true (AFixed 1)), 2, 1, 0. cbn zeta.
  unfold eq_psiRZ. rewrite machine_field_eq. unfold eq_psi. cbn. unfold response_sum. cbn. unfold lsum. cbn.
  unfold coil_greens, coil_from_greens, coil_control. cbn. nR. intros E. injection E as E. lra.
Qed.
Print Assumptions C12_moved_coil_refuted.
