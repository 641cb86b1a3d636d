(** Moving coils and measures for the optimiser. *)
From Coq Require Import String List Arith ZArith Bool Reals Lra Lia.
From Verif Require Import Py Num Numpy Coils Machine MachineSpec MachineProofs MachineForces Optimise OptimiseProofs Measures MovingSpec MovingProofs.
Import ListNotations.
Local Open Scope R_scope.
Local Open Scope string_scope.
Local Open Scope list_scope.

(** flux at a point from stored Green's functions, and from the coils *)
Definition stored_flux (M : machine R) (pg : list (string * greens_val (T:=R))) : result R := rmap fst (calcPsiFromGreens M pg).
Definition direct_flux (G : field -> R -> R -> R -> R -> R) (M : machine R) (r z : R) : R := fst (machine_field G FPsi M r z).
(** a solver that changes currents and control only, and keeps the stored Green's functions *)
Definition currents_only {S} (solve : estate S -> estate S * result unit) : Prop :=
  forall e, machine_shape (es_tokamak (fst (solve e))) = machine_shape (es_tokamak e) /\ es_pgreen (fst (solve e)) = es_pgreen e.

(** ** C132 *)
(** Every candidate of the optimiser is scored, and the Green's functions it is solved with are
    those of its coils. *)
Theorem C132_scored : forall G S (solve : estate S -> estate S * result unit) measure e,
  let e1 := mkes (es_tokamak e) (fun r z => createPsiGreens G (es_tokamak e) r z) (es_rest e) in
  snd (solve_and_measure G solve measure e) = fst (solve e1) /\
  (forall v, fst (solve_and_measure G solve measure e) = Some v <-> snd (solve e1) = Ok tt /\ measure (fst (solve e1)) = Ok v).
Proof.
  intros G S solve measure e e1. unfold solve_and_measure. fold e1. destruct (solve e1) as [e2 r]. cbn [fst snd]. split; [reflexivity|].
  intros v. destruct r as [[]|x]; cbn [bind].
  - destruct (measure e2) as [u|]; split; try (intros H; injection H as <-; auto); try (intros [_ H]; congruence); discriminate.
  - split; [discriminate|]. intros [H _]. discriminate.
Qed.
Print Assumptions C132_scored.
Theorem C132_flux_follows : forall G S (solve : estate S -> estate S * result unit) measure e r z,
  currents_only solve -> labels_distinct (es_tokamak e) ->
  let e' := snd (solve_and_measure G solve measure e) in
  stored_flux (es_tokamak e') (es_pgreen e' r z) = Ok (direct_flux G (es_tokamak e') r z).
Proof.
  intros G S solve measure e r z Hs Hl e'.
  destruct (C132_scored G S solve measure e) as [E _]. unfold e'. rewrite E. destruct (Hs (mkes (es_tokamak e) (fun r z => createPsiGreens G (es_tokamak e) r z) (es_rest e))) as [E1 E2].
  rewrite E2. cbn [es_pgreen es_tokamak] in *. unfold stored_flux. rewrite (cached_direct G _ _ r z Hl E1). cbn [rmap fst]. unfold direct_flux. rewrite machine_field_eq. reflexivity.
Qed.
Print Assumptions C132_flux_follows.
Definition exSolve (e : estate unit) : estate unit * result unit := (mkes (setControlCurrents (es_tokamak e) [7]) (es_pgreen e) tt, Ok tt).
Example C132_example : currents_only exSolve /\ labels_distinct [("P", MCoil (Coil 1 0 3 1 true (AFixed 1)))].
Proof.
  split; [|split; repeat constructor; intros []]. intros e. cbn [exSolve fst es_tokamak es_pgreen]. split; [|reflexivity].
  apply (zip_frame mc_set_current); intros; [apply mc_set_current_shape|apply mc_set_current_control].
Qed.
(** Without that, the flux from the stored Green's functions is the one from before the move. *)
Theorem C132_stale : forall (M M' : machine R) label x pg,
  assign_position M label (fun c => set_R c x) = Ok M' \/ assign_position M label (fun c => set_Z c x) = Ok M' ->
  stored_flux M' pg = stored_flux M pg.
Proof.
  assert (K : forall f : coil R -> coil R, (forall c, c_current (f c) = c_current c) -> forall M M' label pg acc,
    assign_position M label f = Ok M' -> rmap fst (calcPsi_from acc M' pg) = rmap fst (calcPsi_from acc M pg)).
  { intros f Hf. induction M as [|[l m] M IH]; intros M' label pg acc E; cbn [assign_position] in E; [discriminate|].
    destruct (String.eqb l label).
    - injection E as <-. cbn [calcPsi_from]. destruct (dict_get pg l) as [g|]; [|reflexivity]. destruct m as [c|ci|s]; try reflexivity.
      destruct g as [v|d]; [|reflexivity]. cbn [mc_from_greens bind fst snd]. unfold coil_from_greens. rewrite Hf.
      destruct (calcPsi_from _ M pg) as [[? ?]|]; reflexivity.
    - destruct (assign_position M label f) as [r|] eqn:Er; [|discriminate]. cbn [bind] in E. injection E as <-. cbn [calcPsi_from].
      destruct (dict_get pg l) as [g|]; [|reflexivity]. destruct (mc_from_greens m g) as [[v m']|]; [|reflexivity]. cbn [bind fst snd].
      specialize (IH r label pg (nadd acc v) Er). destruct (calcPsi_from _ r pg) as [[? ?]|], (calcPsi_from _ M pg) as [[? ?]|]; cbn [bind rmap fst snd] in *; try discriminate; exact IH. }
  intros M M' label x pg [E|E]; unfold stored_flux, calcPsiFromGreens; (eapply K; [|exact E]); intros c; unfold set_R, set_Z, with_kind; destruct (c_kind c) as [? ?|? ? ? [? ?]|? ? ? [? ?]|? ? ? ? [? ?]|? ? [? ?]]; reflexivity.
Qed.
Print Assumptions C132_stale.
Theorem C132_flux_follows_refuted : exists G (M M' : machine R) r z,
  labels_distinct M /\ radius_set "P" None None M 2 = Ok M' /\
  stored_flux M (createPsiGreens G M r z) = Ok (direct_flux G M r z) /\
  stored_flux M' (createPsiGreens G M r z) <> Ok (direct_flux G M' r z).
Proof.
  exists (fun _ rc _ _ _ => rc), [("P", MCoil (Coil 1 0 3 1 true (AFixed 1)))]. eexists. exists 1, 0.
  split; [split; repeat constructor; intros []|]. split; [reflexivity|]. split.
  - unfold stored_flux. rewrite (cached_direct _ _ _ 1 0); [cbn [rmap fst]; unfold direct_flux; rewrite machine_field_eq; reflexivity| |reflexivity].
    split; repeat constructor; intros [].
  - unfold direct_flux, stored_flux. cbn. unfold coil_from_greens, coil_greens, coil_field, coil_control. cbn. nR. intros E. injection E as E. unfold clamp, truthy in E. cbn in E. lra.
Qed.
Print Assumptions C132_flux_follows_refuted.
(** The controls work for coils: the value is clamped, read back, and all else stays. *)
Theorem C132_control : forall (M : machine R) label c lo hi x, machine_getitem M label = Ok (MCoil c) ->
  exists M', radius_set label lo hi M x = Ok M' /\ position_get (@coil_R R) M' label = Ok (clamp lo hi x) /\
  (forall k, k <> label -> machine_getitem M' k = machine_getitem M k) /\ map fst M' = map fst M.
Proof.
  intros M label c lo hi x. unfold radius_set. generalize (clamp lo hi x). intros y. unfold position_get, machine_getitem.
  induction M as [|[l m] M IH]; cbn [find assign_position]; [discriminate|]. cbn [fst]. destruct (String.eqb l label) eqn:El.
  - intros E. injection E as ->. eexists. split; [reflexivity|]. cbn [find fst snd]. rewrite El. cbn [bind snd]. split.
    + f_equal. unfold set_R, with_kind, coil_R. destruct (c_kind c) as [? ?|? ? ? [? ?]|? ? ? [? ?]|? ? ? ? [? ?]|? ? [? ?]]; reflexivity.
    + split; [|reflexivity]. intros k Hk. apply String.eqb_eq in El. subst l. destruct (String.eqb label k) eqn:Ek; [apply String.eqb_eq in Ek; congruence|reflexivity].
  - intros E. destruct (IH E) as (M' & E1 & E2 & E3 & E4). rewrite E1. cbn [bind]. eexists. split; [reflexivity|]. cbn [find fst map]. rewrite El. split; [exact E2|]. split; [|congruence].
    intros k Hk. destruct (String.eqb l k); [reflexivity|apply E3, Hk].
Qed.
Print Assumptions C132_control.
Theorem C132_height_control : forall (M : machine R) label c lo hi x, machine_getitem M label = Ok (MCoil c) ->
  exists M', height_set label lo hi M x = Ok M' /\ position_get (@coil_Z R) M' label = Ok (clamp lo hi x) /\
  (forall k, k <> label -> machine_getitem M' k = machine_getitem M k) /\ map fst M' = map fst M.
Proof.
  intros M label c lo hi x. unfold height_set. generalize (clamp lo hi x). intros y. unfold position_get, machine_getitem.
  induction M as [|[l m] M IH]; cbn [find assign_position]; [discriminate|]. cbn [fst]. destruct (String.eqb l label) eqn:El.
  - intros E. injection E as ->. eexists. split; [reflexivity|]. cbn [find fst snd]. rewrite El. cbn [bind snd]. split.
    + f_equal. unfold set_Z, with_kind, coil_Z. destruct (c_kind c) as [? ?|? ? ? [? ?]|? ? ? [? ?]|? ? ? ? [? ?]|? ? [? ?]]; reflexivity.
    + split; [|reflexivity]. intros k Hk. apply String.eqb_eq in El. subst l. destruct (String.eqb label k) eqn:Ek; [apply String.eqb_eq in Ek; congruence|reflexivity].
  - intros E. destruct (IH E) as (M' & E1 & E2 & E3 & E4). rewrite E1. cbn [bind]. eexists. split; [reflexivity|]. cbn [find fst map]. rewrite El. split; [exact E2|]. split; [|congruence].
    intros k Hk. destruct (String.eqb l k); [reflexivity|apply E3, Hk].
Qed.
Print Assumptions C132_height_control.
Example C132_control_example : machine_getitem [("A", MSolenoid (mksol 1 0 1 3 5 true)); ("P", MCoil (Coil 1 0 3 1 true (AFixed 1)))] "P" = Ok (MCoil (Coil 1 0 3 1 true (AFixed 1))).
Proof. reflexivity. Qed.

(** A circuit or solenoid has no position: it cannot be read, and setting it moves nothing.  An unknown
    label is refused. *)
Theorem C132_no_position : forall (M : machine R) label lo hi x (sel : coil R -> R),
  (forall m, machine_getitem M label = Ok m -> (forall c, m <> MCoil c) ->
     position_get sel M label = Raise AttributeError /\ radius_set label lo hi M x = Ok M /\ height_set label lo hi M x = Ok M) /\
  (~ In label (map fst M) -> position_get sel M label = Raise KeyError /\ radius_set label lo hi M x = Raise KeyError /\ height_set label lo hi M x = Raise KeyError).
Proof.
  intros M label lo hi x sel.
  assert (KS : forall f m, machine_getitem M label = Ok m -> (forall c, m <> MCoil c) -> assign_position M label f = Ok M).
  { intros f m. unfold machine_getitem. induction M as [|[l a] M0 IH]; cbn [find assign_position fst]; [discriminate|]. destruct (String.eqb l label).
    - intros E Hm. injection E as ->. destruct m as [c| |]; [destruct (Hm c eq_refl)|reflexivity|reflexivity].
    - intros E Hm. rewrite (IH E Hm). reflexivity. }
  split.
  - intros m E Hm. split; [|split; [exact (KS _ m E Hm)|exact (KS _ m E Hm)]].
    unfold position_get. rewrite E. cbn [bind]. destruct m as [c| |]; [destruct (Hm c eq_refl)|reflexivity|reflexivity].
  - intros Hn.
    assert (KN : forall f, assign_position M label f = Raise KeyError).
    { intros f. induction M as [|[l a] M0 IH]; cbn [assign_position]; [reflexivity|]. cbn [map fst In] in Hn.
      destruct (String.eqb_spec l label) as [->|_]; [exfalso; apply Hn; left; reflexivity|]. rewrite IH; [reflexivity| |intros H; apply Hn; right; exact H].
      intros f0 m0. unfold machine_getitem in KS. intros E0 Hm0. specialize (KS f0 m0). cbn [find fst assign_position] in KS.
      destruct (String.eqb_spec l label) as [->|_]; [exfalso; apply Hn; left; reflexivity|]. specialize (KS E0 Hm0).
      destruct (assign_position M0 label f0) as [r|]; cbn [bind] in KS; [injection KS as ->; reflexivity|discriminate]. }
    split; [|split; apply KN]. unfold position_get, machine_getitem. clear KS KN.
    induction M as [|[l a] M0 IH]; cbn [find fst]; [reflexivity|]. cbn [map fst In] in Hn.
    destruct (String.eqb_spec l label) as [->|_]; [exfalso; apply Hn; left; reflexivity|]. apply IH. intros H; apply Hn; right; exact H.
Qed.
Print Assumptions C132_no_position.
Example C132_no_position_example : let M := [("A", MSolenoid (mksol 1 0 1 3 5 true)); ("P", MCoil (Coil 1 0 3 1 true (AFixed 1)))] in
  machine_getitem M "A" = Ok (MSolenoid (mksol 1 0 1 3 5 true)) /\ (forall c, MSolenoid (mksol 1 0 1 3 5 true) <> MCoil c) /\ ~ In "B" (map fst M).
Proof. split; [reflexivity|]. split; [discriminate|]. cbn. intros [E|[E|[]]]; discriminate E. Qed.

(** ** C133 *)
Lemma py_max_spec (l : list R) v : py_max l = Ok v -> In v l /\ forall x, In x l -> x <= v.
Proof.
  destruct l as [|a l]; [discriminate|]. intros E. injection E as <-. destruct (fold_nmax_spec l a) as [H1 H2]. split; [exact H1|exact H2].
Qed.
(** The largest current, for distinct labels *)
Theorem C133_current : forall (M : machine R) v, NoDup (map fst M) -> measure_current M = Ok v ->
  (exists lm, In lm M /\ v = Rabs (mc_current (snd lm))) /\ forall lm, In lm M -> Rabs (mc_current (snd lm)) <= v.
Proof.
  intros M v N E. unfold measure_current, getCurrents in E. rewrite (dict_fill_nodup fst (fun lm => mc_current (snd lm))) in E by exact N. cbn [app] in E. rewrite map_map in E. cbn [snd] in E.
  destruct (max_abs_coil_current_spec _ _ E) as [(i & Hi & Ev) H2]. split.
  - apply in_map_iff in Hi as (lm & <- & Hlm). eauto.
  - intros lm Hlm. apply H2. apply (in_map (fun lm => mc_current (snd lm))), Hlm.
Qed.
Print Assumptions C133_current.
(** The largest force, for machines of coils alone: that of the coil in the field of the others. *)
Definition modulus (F : R * R) : R := sqrt (fst F ^ 2 + snd F ^ 2).
Theorem C133_force : forall G mu (M : machine R) v, NoDup (map fst M) -> M <> [] ->
  Forall (fun lm => exists c, snd lm = MCoil c /\ coil_R c <> 0) M ->
  let force i c := loop_force mu (coil_R c) (c_current c * IZR (c_turns c)) (coil_area c)
    (fst (machine_field G FBr (remove_nth i M) (coil_R c) (coil_Z c))) (fst (machine_field G FBz (remove_nth i M) (coil_R c) (coil_Z c))) in
  max_coil_force G mu PI sqrt ln M = Ok v <->
  (exists i lb c, nth_error M i = Some (lb, MCoil c) /\ v = modulus (force i c)) /\
  (forall i lb c, nth_error M i = Some (lb, MCoil c) -> modulus (force i c) <= v).
Proof.
  intros G mu M v N Hne HM force.
  assert (HS : machine_synced M).
  { apply Forall_forall. intros [lb m] Hlm. rewrite Forall_forall in HM. destruct (HM _ Hlm) as (c & E & _). cbn [snd] in *. subst m. exact I. }
  assert (HR : Forall (fun lm => mcoil_R_ok (snd lm)) M).
  { apply Forall_forall. intros [lb m] Hlm. rewrite Forall_forall in HM. destruct (HM _ Hlm) as (c & E & Hc). cbn [snd] in *. subst m. exact Hc. }
  unfold max_coil_force. rewrite (getForces_eq G mu None M HS HR N).
  assert (Em : forall l : list (nat * (string * mcoil R)), Forall (fun p => exists c, snd (snd p) = MCoil c /\ nth_error M (fst p) = Some (snd p)) l ->
    mapM (fun kv => force_modulus sqrt (snd kv)) (map (fun p => (fst (snd p), entry_force G mu None M (fst p) (snd (snd p)))) l) =
    Ok (map (fun p => match snd (snd p) with MCoil c => modulus (force (fst p) c) | _ => 0 end) l)).
  { induction 1 as [|[i [lb m]] l (c & Ec & En) F IH]; [reflexivity|]. cbn [fst snd] in *. subst m. cbn [map mapM fst snd entry_force].
    rewrite IH. cbn [force_modulus bind]. do 2 f_equal. unfold force, modulus. rewrite !machine_field_eq. cbn [fst plasma_field].
    unfold direct_entry. cbn [plasma_field]. rewrite !Rplus_0_l. unfold nsqr. nR. f_equal. cbn [pow]. rewrite !Rmult_1_r. reflexivity. }
  set (enum := combine (seq 0 (length M)) M).
  assert (Hen : Forall (fun p => exists c, snd (snd p) = MCoil c /\ nth_error M (fst p) = Some (snd p)) enum).
  { unfold enum. apply Forall_forall. intros [i lm] Hin. apply In_nth_error in Hin as (k & Hk).
    assert (Hlt : (k < length M)%nat).
    { assert (Hk' : nth_error (combine (seq 0 (length M)) M) k <> None) by congruence. apply nth_error_Some in Hk'. rewrite combine_length, seq_length in Hk'. lia. }
    destruct (nth_error M k) as [lm'|] eqn:Ek; [|apply nth_error_None in Ek; lia]. rewrite (nth_error_enum _ _ 0%nat _ Ek) in Hk. injection Hk as <- <-. cbn [Nat.add fst snd].
    rewrite Forall_forall in HM. destruct (HM _ (nth_error_In _ _ Ek)) as (c & Ec & _). eauto. }
  rewrite (Em enum Hen). cbn [bind].
  assert (Hin : forall i lb c, nth_error M i = Some (lb, MCoil c) -> In (modulus (force i c)) (map (fun p => match snd (snd p) with MCoil c => modulus (force (fst p) c) | _ => 0 end) enum)).
  { intros i lb c E. apply in_map_iff. exists (i, (lb, MCoil c)). split; [reflexivity|]. apply (nth_error_In _ i). unfold enum. rewrite (nth_error_enum _ _ 0%nat _ E). reflexivity. }
  assert (Hout : forall x, In x (map (fun p => match snd (snd p) with MCoil c => modulus (force (fst p) c) | _ => 0 end) enum) -> exists i lb c, nth_error M i = Some (lb, MCoil c) /\ x = modulus (force i c)).
  { intros x Hx. apply in_map_iff in Hx as ([i [lb m]] & Ex & Hp). rewrite Forall_forall in Hen. destruct (Hen _ Hp) as (c & Ec & En). cbn [fst snd] in *. subst m. eauto 6. }
  split.
  - intros E. apply py_max_spec in E as [H1 H2]. split; [apply Hout, H1|]. intros i lb c E. apply H2. eapply Hin, E.
  - intros [(i & lb & c & E & ->) H2].
    destruct (py_max _) as [w|] eqn:Ew.
    + f_equal. apply py_max_spec in Ew as [H3 H4]. destruct (Hout _ H3) as (i' & lb' & c' & E' & ->). apply Rle_antisym; [exact (H2 _ _ _ E')|apply H4; eapply Hin, E].
    + exfalso. specialize (Hin _ _ _ E). destruct (map _ enum); [destruct Hin|discriminate].
Qed.
Print Assumptions C133_force.
Example C133_example : NoDup (map fst [("P", MCoil (Coil 1 0 3 1 true (AFixed 1))); ("Q", MCoil (Coil 2 0 3 1 true (AFixed 1)))]) /\
  Forall (fun lm : string * mcoil R => exists c, snd lm = MCoil c /\ coil_R c <> 0) [("P", MCoil (Coil 1 0 3 1 true (AFixed 1))); ("Q", MCoil (Coil 2 0 3 1 true (AFixed 1)))].
Proof. split; [repeat constructor; cbn; intuition discriminate|]. repeat constructor; eexists; (split; [reflexivity|cbn; lra]). Qed.
(** With a circuit or a solenoid the measure fails, so every candidate scores infinity. *)
Theorem C133_force_fails : forall G mu (M : machine R), NoDup (map fst M) -> machine_synced M -> Forall (fun lm => mcoil_R_ok (snd lm)) M ->
  (exists lm, In lm M /\ match snd lm with MCoil _ => False | _ => True end) ->
  max_coil_force G mu PI sqrt ln M = Raise KeyError.
Proof.
  intros G mu M N HS HR (lm & Hlm & Hc). unfold max_coil_force. rewrite (getForces_eq G mu None M HS HR N).
  apply In_nth_error in Hlm as (k & Hk). assert (Hin := nth_error_In _ _ (nth_error_enum _ _ 0%nat _ Hk)). cbn [Nat.add] in Hin. revert Hin.
  generalize (combine (seq 0 (length M)) M). induction l as [|p l IH]; intros Hin; [destruct Hin|]. cbn [map mapM snd].
  destruct (snd (snd p)) as [c|ci|s] eqn:Ep; cbn [entry_force force_modulus bind]; try reflexivity.
  destruct Hin as [->|Hin]; [cbn [snd] in Ep; rewrite Ep in Hc; contradiction|]. specialize (IH Hin).
  destruct (mapM _ _) as [l'|] eqn:El.
  - cbn [bind] in IH. destruct l'; discriminate.
  - cbn [bind] in *. exact IH.
Qed.
Print Assumptions C133_force_fails.
Theorem C133_force_refuted : exists G mu (M : machine R), machine_synced M /\ measure_current M <> Raise ValueError /\
  max_coil_force G mu PI sqrt ln M = Raise KeyError /\
  (forall solve, (forall e : estate unit, es_tokamak (fst (solve e)) = es_tokamak e) ->
    forall e, es_tokamak e = M -> fst (solve_and_measure G solve (fun e => max_coil_force G mu PI sqrt ln (es_tokamak e)) e) = None).
Proof.
  exists (fun _ _ _ _ _ => 1), 1, [("P", MCoil (Coil 1 0 3 1 true (AFixed 1))); ("S", MSolenoid (mksol 1 0 1 3 5 true))].
  set (M := [_; _]). assert (E : max_coil_force (fun _ _ _ _ _ => 1) 1 PI sqrt ln M = Raise KeyError).
  { apply C133_force_fails; [repeat constructor; cbn; intuition discriminate|repeat constructor|repeat constructor; cbn; lra|].
    exists ("S", MSolenoid (mksol 1 0 1 3 5 true)). split; [right; left; reflexivity|exact I]. }
  split; [repeat constructor|]. split; [discriminate|]. split; [exact E|].
  intros solve Hs e He. unfold solve_and_measure. specialize (Hs (mkes (es_tokamak e) (fun r z => createPsiGreens (fun _ _ _ _ _ => 1) (es_tokamak e) r z) (es_rest e))).
  destruct (solve _) as [e2 r]. cbn [fst es_tokamak] in *. rewrite Hs, He, E. destruct r; reflexivity.
Qed.
Print Assumptions C133_force_refuted.
(** The force of the plasma is left out. *)
Theorem C133_plasma_refuted : exists G mu (M : machine R) P c, M = [("P", MCoil c)] /\
  max_coil_force G mu PI sqrt ln M = Ok 0 /\ dict_get (fst (getForces G mu PI sqrt ln (Some P) M)) "P" = Some (FCoil (2 * PI * 3, 0)).
Proof.
  exists (fun _ _ _ _ _ => 0), 0. eexists. exists (fun f _ _ => match f with FBz => 1 | _ => 0 end), (Coil 1 0 3 1 true (AFixed 1)). split; [reflexivity|].
  set (M := [_]).
  assert (N : NoDup (map fst M)) by (repeat constructor; intros []). assert (HS : machine_synced M) by repeat constructor.
  assert (HR : Forall (fun lm => mcoil_R_ok (snd lm)) M) by (repeat constructor; cbn; lra). split.
  - unfold max_coil_force. rewrite (getForces_eq _ _ _ M HS HR N). cbn [length seq combine map fst snd M entry_force mapM force_modulus bind].
    cbn [py_max fold_left]. f_equal. unfold direct_entry, coil_force, loop_force, response_sum, remove_nth, M. cbn [firstn skipn app map fst snd plasma_field]. rewrite lsum_nil. unfold nsqr. nR.
    match goal with |- sqrt ?x = 0 => replace x with 0 by (unfold Rdiv; ring) end. apply sqrt_0.
  - rewrite (getForces_eq _ _ _ M HS HR N). cbn [length seq combine map fst snd M entry_force dict_get]. rewrite String.eqb_refl. do 2 f_equal.
    unfold direct_entry, coil_force, loop_force, response_sum, remove_nth, M. cbn [firstn skipn app map fst snd plasma_field coil_R coil_Z c_kind Coil c_current c_turns]. rewrite lsum_nil. apply f_equal2; unfold Rdiv; ring.
Qed.
Print Assumptions C133_plasma_refuted.
