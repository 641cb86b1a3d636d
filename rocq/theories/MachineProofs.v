(** Proofs about coils and machines. *)
From Coq Require Import String List Arith ZArith Bool Reals Lra Lia.
From Verif Require Import Py Num Numpy Coils Machine MachineSpec Polygons Quadrature PolygonsProofs QuadratureProofs.
Import ListNotations.
Local Open Scope R_scope.

Lemma fold_left_sum {A} (f : A -> R) : forall l acc,
  fold_left (fun r a => r + f a) l acc = acc + lsum (map f l).
Proof.
  induction l as [|a l IH]; intros acc; cbn [fold_left map]; rewrite ?lsum_nil, ?lsum_cons; [lra|].
  rewrite IH. lra.
Qed.

Lemma set_current_same (c : coil R) : set_current c (c_current c) = c.
Proof. destruct c; reflexivity. Qed.
Lemma set_m_coil_same (m : member R) : set_m_coil m (m_coil m) = m.
Proof. destruct m as [[? ?] ?]; reflexivity. Qed.

Section P.
  Variable G : field -> R -> R -> R -> R -> R.
  Notation ctrl := (coil_control G).
  Notation mfield := (mc_field G).
  Notation mctrl := (mc_ctrl G).

  Lemma coil_field_eq f c r z : coil_field G f c r z = c_current c * ctrl f c r z.
  Proof. unfold coil_field; nR; ring. Qed.

  Lemma circuit_ctrl_sum f (ci : circuit R) r z :
    circuit_ctrl G f ci r z = lsum (map (fun m => m_mult m * ctrl f (m_coil m) r z) (ci_coils ci)).
  Proof.
    unfold circuit_ctrl. nR. rewrite (fold_left_sum (fun m => m_mult m * ctrl f (m_coil m) r z)). lra.
  Qed.
  Lemma circuit_field_eq f (ci : circuit R) r z :
    circuit_field G f ci r z = (ci_current ci * circuit_ctrl G f ci r z, resync ci).
  Proof.
    unfold circuit_field. f_equal. nR.
    rewrite (fold_left_sum (fun m => coil_field G f (set_current (m_coil m) (ci_current ci * m_mult m)) r z)).
    rewrite circuit_ctrl_sum, <- lsum_scal, Rplus_0_l. apply lsum_ext. intros m _.
    unfold coil_field. cbn [c_current set_current]. nR.
    replace (ctrl f (set_current (m_coil m) (ci_current ci * m_mult m)) r z) with (ctrl f (m_coil m) r z) by reflexivity. ring.
  Qed.
  Lemma sol_ctrl_sum f (s : solenoid R) r z :
    sol_ctrl G f s r z = lsum (map (fun zs => G f (s_Rs s) zs r z) (map (linspace (s_Zsmin s) (s_Zsmax s) (s_Ns s)) (seq 0 (s_Ns s)))).
  Proof. unfold sol_ctrl. nR. rewrite (fold_left_sum (fun zs => G f (s_Rs s) zs r z)). lra. Qed.

  Definition mc_sync (m : mcoil R) : mcoil R := match m with MCircuit ci => MCircuit (resync ci) | _ => m end.
  Lemma mc_field_eq f m r z : mfield f m r z = (mc_current m * mctrl f m r z, mc_sync m).
  Proof.
    destruct m as [c|ci|s]; cbn [mc_field mc_current mc_ctrl mc_sync].
    - f_equal. apply coil_field_eq.
    - rewrite circuit_field_eq. reflexivity.
    - f_equal. unfold sol_field. nR. ring.
  Qed.
  Definition machine_sync (M : machine R) : machine R := map (fun lm => (fst lm, mc_sync (snd lm))) M.
  Lemma machine_field_from_eq f r z : forall (M : machine R) acc,
    machine_field_from G acc f M r z = (acc + response_sum G f M r z, machine_sync M).
  Proof.
    induction M as [|[lb m] M IH]; intros acc; cbn [machine_field_from machine_sync map fst snd].
    - unfold response_sum. cbn [map]. rewrite lsum_nil. f_equal. lra.
    - rewrite mc_field_eq, IH. f_equal. unfold response_sum. cbn [map snd]. rewrite lsum_cons. nR. lra.
  Qed.
  Lemma machine_field_eq f (M : machine R) r z :
    machine_field G f M r z = (response_sum G f M r z, machine_sync M).
  Proof. unfold machine_field. rewrite machine_field_from_eq. f_equal. nR. lra. Qed.

  Lemma resync_synced ci : circuit_synced ci -> resync ci = ci.
  Proof.
    destruct ci as [l I b]. unfold circuit_synced, resync. cbn [ci_coils ci_current ci_control]. intros H. f_equal.
    induction H as [|m l E H IH]; [reflexivity|]. cbn [map]. f_equal; [|exact IH].
    nR. rewrite <- E, set_current_same. apply set_m_coil_same.
  Qed.
  Lemma mc_sync_synced m : mcoil_synced m -> mc_sync m = m.
  Proof. destruct m; cbn; intros H; [reflexivity| |reflexivity]. rewrite resync_synced; auto. Qed.
  Lemma machine_sync_synced M : machine_synced M -> machine_sync M = M.
  Proof.
    induction 1 as [|[lb m] M H HM IH]; [reflexivity|]. cbn [machine_sync map fst snd] in *.
    rewrite mc_sync_synced by exact H. f_equal. exact IH.
  Qed.
  Lemma resync_is_synced ci : circuit_synced (resync ci).
  Proof.
    unfold circuit_synced, resync. cbn [ci_coils ci_current]. apply Forall_forall. intros m Hm.
    apply in_map_iff in Hm as (m0 & <- & _). reflexivity.
  Qed.
  Lemma set_current_is_synced ci I : circuit_synced (circuit_set_current ci I).
  Proof.
    unfold circuit_synced, circuit_set_current. cbn [ci_coils ci_current]. apply Forall_forall. intros m Hm.
    apply in_map_iff in Hm as (m0 & <- & _). cbn. nR. ring.
  Qed.
  Lemma set_control_synced ci b : circuit_synced ci -> circuit_synced (circuit_set_control ci b).
  Proof.
    unfold circuit_synced, circuit_set_control. cbn [ci_coils ci_current]. rewrite !Forall_forall. intros H m Hm.
    apply in_map_iff in Hm as (m0 & <- & Hm). exact (H _ Hm).
  Qed.

  (** ** Shapes *)
  Lemma ctrl_shape f c r z : ctrl f (coil_shape c) r z = ctrl f c r z.
  Proof. reflexivity. Qed.
  Lemma circuit_ctrl_shape f l I b l' I' b' r z : map member_shape l = map member_shape l' ->
    circuit_ctrl G f (mkcircuit l I b) r z = circuit_ctrl G f (mkcircuit l' I' b') r z.
  Proof.
    intros E. rewrite !circuit_ctrl_sum. cbn [ci_coils].
    transitivity (lsum (map (fun m => m_mult m * ctrl f (m_coil m) r z) (map member_shape l))).
    - rewrite map_map. reflexivity.
    - rewrite E, map_map. reflexivity.
  Qed.
  Lemma mctrl_shape f m m' r z : mcoil_shape m = mcoil_shape m' -> mctrl f m r z = mctrl f m' r z.
  Proof.
    destruct m as [c|[l I b]|s], m' as [c'|[l' I' b']|s']; cbn [mcoil_shape mc_ctrl]; intros E; try discriminate.
    - injection E as E. rewrite <- (ctrl_shape f c), <- (ctrl_shape f c'). unfold coil_shape, set_control, set_current in *.
      cbn [c_current c_turns c_control c_area c_kind] in *. congruence.
    - injection E as E. apply circuit_ctrl_shape. exact E.
    - injection E as E1 E2 E3 E4. unfold sol_ctrl. rewrite E1, E2, E3, E4. reflexivity.
  Qed.
  Lemma mc_set_current_shape m I : mcoil_shape (mc_set_current m I) = mcoil_shape m.
  Proof.
    destruct m as [c|ci|s]; cbn; [reflexivity| |reflexivity]. rewrite map_map. reflexivity.
  Qed.
  Lemma mc_set_control_shape m b : mcoil_shape (mc_set_control m b) = mcoil_shape m.
  Proof.
    destruct m as [c|ci|s]; cbn; [reflexivity| |reflexivity]. rewrite map_map. reflexivity.
  Qed.
  Lemma mc_sync_shape m : mcoil_shape (mc_sync m) = mcoil_shape m.
  Proof.
    destruct m as [c|ci|s]; cbn; [reflexivity| |reflexivity]. rewrite map_map. reflexivity.
  Qed.
  Lemma mc_set_current_current m I : mc_current (mc_set_current m I) = I.
  Proof. destruct m; reflexivity. Qed.
  Lemma mc_set_current_control m I : mc_control (mc_set_current m I) = mc_control m.
  Proof. destruct m; reflexivity. Qed.
  Lemma mc_set_current_ctrl f m I r z : mctrl f (mc_set_current m I) r z = mctrl f m r z.
  Proof. apply mctrl_shape, mc_set_current_shape. Qed.
  Lemma mc_set_current_synced m I : mcoil_synced (mc_set_current m I).
  Proof. destruct m; cbn; auto. apply set_current_is_synced. Qed.
  Lemma mc_set_current_same m : mcoil_synced m -> mc_set_current m (mc_current m) = m.
  Proof.
    destruct m as [c|[l I b]|s]; cbn [mc_set_current mc_current mcoil_synced ci_current]; intros H.
    - rewrite set_current_same. reflexivity.
    - f_equal. unfold circuit_set_current, circuit_synced in *. cbn [ci_coils ci_current ci_control] in *. f_equal.
      induction H as [|m l E H IH]; [reflexivity|]. cbn [map]. f_equal; [|exact IH].
      nR. rewrite Rmult_comm, <- E, set_current_same. apply set_m_coil_same.
    - destruct s; reflexivity.
  Qed.

  (** ** C05 and C06 *)
  Lemma response_cons f lb m (M : machine R) r z :
    response_sum G f ((lb, m) :: M) r z = mc_current m * mctrl f m r z + response_sum G f M r z.
  Proof. reflexivity. Qed.
  Lemma adjust_response f r z : forall (M : machine R) dI,
    length dI = length (controlCurrents M) ->
    response_sum G f (controlAdjust M dI) r z =
    response_sum G f M r z + lsum (map (fun p => fst p * snd p) (combine dI (machine_control G f M r z))).
  Proof.
    unfold controlAdjust. induction M as [|[lb m] M IH]; intros dI Hl.
    - destruct dI; [|discriminate]. unfold response_sum. cbn [zip_controls map combine]. rewrite !lsum_nil. lra.
    - unfold controlCurrents, machine_control in *. cbn [zip_controls filter snd] in *. destruct (mc_control m) eqn:Ec.
      + destruct dI as [|d dI]; [discriminate|]. cbn [map length combine snd fst] in *.
        rewrite !response_cons, IH, lsum_cons by (injection Hl; auto). cbn [fst snd].
        rewrite mc_set_current_current, mc_set_current_ctrl. nR. ring.
      + rewrite !response_cons, IH by exact Hl. ring.
  Qed.
  Lemma set_get : forall (M : machine R) c, length c = length (controlCurrents M) -> controlCurrents (setControlCurrents M c) = c.
  Proof.
    unfold controlCurrents, setControlCurrents. induction M as [|[lb m] M IH]; intros c Hl.
    - destruct c; [reflexivity|discriminate].
    - cbn [zip_controls filter snd] in *. destruct (mc_control m) eqn:Ec.
      + destruct c as [|x c]; [discriminate|]. cbn [filter snd]. rewrite mc_set_current_control, Ec. cbn [map snd].
        rewrite mc_set_current_current. f_equal. apply IH. injection Hl; auto.
      + cbn [filter snd]. rewrite Ec. apply IH. exact Hl.
  Qed.
  Lemma get_set : forall M : machine R, machine_synced M -> setControlCurrents M (controlCurrents M) = M.
  Proof.
    unfold controlCurrents, setControlCurrents. induction 1 as [|[lb m] M H HM IH]; [reflexivity|].
    cbn [zip_controls filter snd] in *. destruct (mc_control m) eqn:Ec.
    - cbn [map snd]. rewrite mc_set_current_same by exact H. f_equal. exact IH.
    - f_equal. exact IH.
  Qed.
  Lemma adjust_get : forall (M : machine R) dI, length dI = length (controlCurrents M) ->
    controlCurrents (controlAdjust M dI) = map (fun p => fst p + snd p) (combine (controlCurrents M) dI).
  Proof.
    unfold controlCurrents, controlAdjust. induction M as [|[lb m] M IH]; intros c Hl.
    - destruct c; [reflexivity|discriminate].
    - cbn [zip_controls filter snd] in *. destruct (mc_control m) eqn:Ec.
      + destruct c as [|x c]; [discriminate|]. cbn [filter snd]. rewrite mc_set_current_control, Ec. cbn [map snd combine fst].
        rewrite mc_set_current_current. nR. f_equal. apply IH. injection Hl; auto.
      + cbn [filter snd]. rewrite Ec. apply IH. exact Hl.
  Qed.
  (** What the control loops leave alone *)
  Lemma zip_frame upd (Hs : forall m x, mcoil_shape (upd m x) = mcoil_shape m) (Hc : forall m x, mc_control (upd m x) = mc_control m) :
    forall (M : machine R) l,
    let M' := zip_controls upd M l in
    machine_shape M' = machine_shape M /\ map (fun lm => mc_control (snd lm)) M' = map (fun lm => mc_control (snd lm)) M /\
    (forall i lm, nth_error M i = Some lm -> mc_control (snd lm) = false -> nth_error M' i = Some lm).
  Proof.
    induction M as [|[lb m] M IH]; intros l; cbn [zip_controls].
    - repeat split. intros i lm E. destruct i; discriminate.
    - destruct (mc_control m) eqn:Ec.
      + destruct l as [|x l].
        * destruct (IH (@nil R)) as (H1 & H2 & H3). cbn [machine_shape map fst snd]. repeat split.
          -- f_equal. exact H1.
          -- f_equal. exact H2.
          -- intros [|i] lm E Hn; [exact E|]. apply H3; auto.
        * destruct (IH l) as (H1 & H2 & H3). cbn [machine_shape map fst snd]. rewrite Hs, Hc. repeat split.
          -- f_equal. exact H1.
          -- f_equal. exact H2.
          -- intros [|i] lm E Hn; [|apply H3; auto]. injection E as <-. cbn [snd] in Hn. congruence.
      + destruct (IH l) as (H1 & H2 & H3). cbn [machine_shape map fst snd]. repeat split.
        * f_equal. exact H1.
        * f_equal. exact H2.
        * intros [|i] lm E Hn; [exact E|]. apply H3; auto.
  Qed.
  Lemma zip_synced upd (Hs : forall m x, mcoil_synced (upd m x)) : forall (M : machine R) l, machine_synced M -> machine_synced (zip_controls upd M l).
  Proof.
    intros M l H. revert l. induction H as [|[lb m] M H HM IH]; intros l; cbn [zip_controls]; [constructor|].
    destruct (mc_control m); [destruct l|]; constructor; cbn [snd]; auto; apply IH.
  Qed.

  (** ** C07 *)
  Definition circuit_step (ci : circuit R) (o : circuit_op) : circuit R :=
    match o with
    | CSetCurrent x => circuit_set_current ci x
    | CSetControl b => circuit_set_control ci b
    | CField f r z => snd (circuit_field G f ci r z)
    | CFromGreens g => match circuit_from_greens ci g with Ok (_, ci') => ci' | Raise _ => resync ci end
    end.
  Lemma circuit_from_greens_state ci g v ci' : circuit_from_greens ci g = Ok (v, ci') -> ci' = resync ci.
  Proof. unfold circuit_from_greens. destruct (foldM _ _ _); cbn [bind]; congruence. Qed.
  Lemma circuit_step_synced ci o : circuit_synced ci -> circuit_synced (circuit_step ci o).
  Proof.
    intros H. destruct o; cbn [circuit_step].
    - apply set_current_is_synced.
    - apply set_control_synced, H.
    - rewrite circuit_field_eq. apply resync_is_synced.
    - destruct circuit_from_greens as [[v ci']|e] eqn:E; [|apply resync_is_synced].
      apply circuit_from_greens_state in E as ->. apply resync_is_synced.
  Qed.
  Lemma circuit_history_synced : forall h ci, circuit_synced ci -> circuit_synced (fold_left circuit_step h ci).
  Proof. induction h as [|o h IH]; intros ci H; [exact H|]. apply IH, circuit_step_synced, H. Qed.

  (** ** C11: dictionaries *)
  Lemma dict_get_set_same {V} (d : list (string * V)) k v : dict_get (dict_set d k v) k = Some v.
  Proof.
    induction d as [|[k' v'] d IH]; cbn [dict_set dict_get].
    - rewrite String.eqb_refl. reflexivity.
    - destruct (String.eqb k' k) eqn:E; cbn [dict_get]; rewrite E; auto.
  Qed.
  Lemma dict_get_set_other {V} (d : list (string * V)) k k0 v : k0 <> k -> dict_get (dict_set d k v) k0 = dict_get d k0.
  Proof.
    intros N. induction d as [|[k' v'] d IH]; cbn [dict_set dict_get].
    - destruct (String.eqb_spec k k0); congruence.
    - destruct (String.eqb_spec k' k) as [->|E]; cbn [dict_get].
      + destruct (String.eqb_spec k k0); congruence.
      + rewrite IH. reflexivity.
  Qed.
  (** a dictionary filled by a loop: the last entry with a label wins *)
  Definition last_with {A} (key : A -> string) (k : string) (l : list A) : option A :=
    find (fun a => String.eqb (key a) k) (rev l).
  Lemma find_app {A} (p : A -> bool) : forall l1 l2, find p (l1 ++ l2) = match find p l1 with Some a => Some a | None => find p l2 end.
  Proof. induction l1 as [|a l1 IH]; intros l2; cbn [app find]; [reflexivity|]. destruct (p a); auto. Qed.
  Lemma dict_fill {A V} (key : A -> string) (val : A -> V) k : forall l d,
    dict_get (fold_left (fun d a => dict_set d (key a) (val a)) l d) k =
    match last_with key k l with Some a => Some (val a) | None => dict_get d k end.
  Proof.
    unfold last_with. induction l as [|a l IH]; intros d; cbn [fold_left rev]; [reflexivity|].
    rewrite IH, find_app. destruct (find _ (rev l)); [reflexivity|]. cbn [find].
    destruct (String.eqb_spec (key a) k) as [->|E].
    - apply dict_get_set_same.
    - apply dict_get_set_other. congruence.
  Qed.
  Lemma last_with_nodup {A} (key : A -> string) (l : list A) a : NoDup (map key l) -> In a l -> last_with key (key a) l = Some a.
  Proof.
    intros N H. unfold last_with. rewrite in_rev in H.
    assert (N' : NoDup (map key (rev l))) by (rewrite map_rev; apply NoDup_rev, N).
    clear N. revert N' H. generalize (rev l). intros l' N' H. induction l' as [|b l' IH]; [easy|]. cbn [find map] in *.
    inversion N' as [|? ? Hn N'']; subst. destruct H as [->|H].
    - rewrite String.eqb_refl. reflexivity.
    - destruct (String.eqb_spec (key b) (key a)) as [E|E]; [|auto].
      exfalso. apply Hn. rewrite E. apply in_map, H.
  Qed.

  Lemma foldM_sum {A} (g : A -> option R) (F : A -> R -> R) : forall l acc,
    (forall a, In a l -> exists v, g a = Some v) ->
    foldM (fun s a => match g a with None => Raise KeyError | Some v => Ok (s + F a v) end) l acc =
    Ok (acc + lsum (map (fun a => match g a with Some v => F a v | None => 0 end) l)).
  Proof.
    induction l as [|a l IH]; intros acc H; cbn [foldM map]; [rewrite lsum_nil; f_equal; lra|].
    destruct (H a (or_introl eq_refl)) as (v & E). rewrite E. cbn [bind]. rewrite IH by (intros; apply H; right; auto).
    rewrite lsum_cons. f_equal. lra.
  Qed.

  (** Cached flux of a circuit whose Green's functions were made for a circuit of the same shape *)
  Lemma circuit_cached (ci0 ci : circuit R) r z : NoDup (map (@m_label R) (ci_coils ci0)) ->
    map member_shape (ci_coils ci0) = map member_shape (ci_coils ci) ->
    circuit_from_greens ci (circuit_greens G ci0 r z) = Ok (ci_current ci * circuit_ctrl G FPsi ci r z, resync ci).
  Proof.
    intros N E. unfold circuit_from_greens.
    assert (K : forall m, In m (ci_coils ci) -> dict_get (circuit_greens G ci0 r z) (m_label m) = Some (coil_greens G (m_coil m) r z)).
    { intros m Hm. unfold circuit_greens. rewrite (dict_fill (@m_label R) (fun m => coil_greens G (m_coil m) r z)).
      assert (Hs : In (member_shape m) (map member_shape (ci_coils ci0))) by (rewrite E; apply in_map, Hm).
      apply in_map_iff in Hs as (m0 & E0 & Hm0).
      replace (m_label m) with (m_label m0) by (apply (f_equal (@m_label R)) in E0; exact E0).
      rewrite last_with_nodup by assumption. f_equal. unfold coil_greens.
      rewrite <- (ctrl_shape FPsi (m_coil m0)), <- (ctrl_shape FPsi (m_coil m)).
      apply (f_equal (@m_coil R)) in E0. cbn in E0. rewrite E0. reflexivity. }
    nR. rewrite (foldM_sum (fun m => dict_get (circuit_greens G ci0 r z) (m_label m))
                 (fun m g => coil_from_greens (set_current (m_coil m) (ci_current ci * m_mult m)) g)).
    - cbn [bind]. f_equal. f_equal. rewrite circuit_ctrl_sum, <- lsum_scal, Rplus_0_l. apply lsum_ext. intros m Hm.
      rewrite (K m Hm). unfold coil_from_greens, coil_greens. cbn [c_current set_current]. nR. ring.
    - intros m Hm. rewrite (K m Hm). eauto.
  Qed.
  Lemma mc_cached m0 m r z :
    (match m0 with MCircuit ci => NoDup (map (@m_label R) (ci_coils ci)) | _ => True end) ->
    mcoil_shape m0 = mcoil_shape m ->
    mc_from_greens m (mc_greens G m0 r z) = Ok (mc_current m * mctrl FPsi m r z, mc_sync m).
  Proof.
    intros N E. assert (Ec := mctrl_shape FPsi _ _ r z E).
    destruct m0 as [c0|ci0|s0], m as [c|ci|s]; try discriminate E; cbn [mc_from_greens mc_greens mc_current mc_ctrl mc_sync] in *.
    - unfold coil_from_greens, coil_greens. nR. rewrite Ec. reflexivity.
    - injection E as E. rewrite circuit_cached by assumption. reflexivity.
    - nR. rewrite Ec. reflexivity.
  Qed.
  Lemma calcPsi_from_eq pg r z : forall (M : machine R) acc,
    (forall lm, In lm M -> exists m0, dict_get pg (fst lm) = Some (mc_greens G m0 r z) /\
       (match m0 with MCircuit ci => NoDup (map (@m_label R) (ci_coils ci)) | _ => True end) /\ mcoil_shape m0 = mcoil_shape (snd lm)) ->
    calcPsi_from acc M pg = Ok (acc + response_sum G FPsi M r z, machine_sync M).
  Proof.
    induction M as [|[lb m] M IH]; intros acc H; cbn [calcPsi_from].
    - unfold response_sum. cbn [map]. rewrite lsum_nil. f_equal. f_equal. lra.
    - destruct (H (lb, m) (or_introl eq_refl)) as (m0 & E & N & S). cbn [fst snd] in *. rewrite E, (mc_cached m0 m) by assumption.
      cbn [bind fst snd]. rewrite IH by (intros; apply H; right; auto). cbn [bind fst snd]. rewrite response_cons.
      f_equal. f_equal. nR. lra.
  Qed.
  Lemma cached_direct (M0 M : machine R) r z : labels_distinct M0 -> machine_shape M = machine_shape M0 ->
    calcPsiFromGreens M (createPsiGreens G M0 r z) = Ok (response_sum G FPsi M r z, machine_sync M).
  Proof.
    intros [N NC] E. unfold calcPsiFromGreens. rewrite (calcPsi_from_eq _ r z).
    - f_equal. f_equal. nR. lra.
    - intros lm Hlm.
      assert (Hs : In (fst lm, mcoil_shape (snd lm)) (machine_shape M0)).
      { rewrite <- E. apply (in_map (fun lm => (fst lm, mcoil_shape (snd lm)))), Hlm. }
      apply in_map_iff in Hs as (lm0 & E0 & Hlm0). injection E0 as E1 E2. exists (snd lm0). repeat split.
      + unfold createPsiGreens. rewrite (dict_fill fst (fun lm : string * mcoil R => mc_greens G (snd lm) r z)).
        rewrite <- E1, last_with_nodup by assumption. reflexivity.
      + rewrite Forall_forall in NC. exact (NC _ Hlm0).
      + exact E2.
  Qed.

  Definition machine_step (M : machine R) (o : machine_op) : machine R :=
    match o with
    | OSetCurrent i x => upd_nth i (fun lm => (fst lm, mc_set_current (snd lm) x)) M
    | OSetControl i b => upd_nth i (fun lm => (fst lm, mc_set_control (snd lm) b)) M
    | OAdjust dI => controlAdjust M dI
    | OSetControls c => setControlCurrents M c
    | OField f r z => snd (machine_field G f M r z)
    | OCached g => match calcPsiFromGreens M g with Ok (_, M') => M' | Raise _ => M end
    end.
  Lemma upd_nth_map {A B} (g : A -> B) f : (forall a, g (f a) = g a) -> forall l i, map g (upd_nth i f l) = map g l.
  Proof.
    intros H. induction l as [|a l IH]; intros [|i]; cbn [upd_nth map]; [reflexivity|reflexivity| |].
    - rewrite H. reflexivity.
    - rewrite IH. reflexivity.
  Qed.
  Lemma upd_nth_Forall {A} (P : A -> Prop) f : (forall a, P a -> P (f a)) -> forall l i, Forall P l -> Forall P (upd_nth i f l).
  Proof.
    intros H. induction l as [|a l IH]; intros [|i] HF; cbn [upd_nth]; auto; inversion HF; subst; constructor; auto.
  Qed.
  Lemma machine_sync_shape M : machine_shape (machine_sync M) = machine_shape M.
  Proof. unfold machine_shape, machine_sync. rewrite map_map. apply map_ext. intros lm. cbn [fst snd]. rewrite mc_sync_shape. reflexivity. Qed.
  Lemma calcPsi_state pg : forall M acc v M', calcPsi_from acc M pg = Ok (v, M') -> M' = machine_sync M.
  Proof.
    induction M as [|[lb m] M IH]; intros acc v M' E; cbn [calcPsi_from] in E; [injection E as _ <-; reflexivity|].
    destruct (dict_get pg lb) as [g|]; [|discriminate].
    destruct (mc_from_greens m g) as [[v1 m1]|] eqn:E1; [|discriminate]. cbn [bind fst snd] in E.
    destruct (calcPsi_from _ M pg) as [[v2 M2]|] eqn:E2; [|discriminate]. cbn [bind fst snd] in E. injection E as <- <-.
    apply IH in E2 as ->. cbn [machine_sync map fst snd]. f_equal. f_equal.
    destruct m as [c|ci|s], g as [g|d]; cbn [mc_from_greens] in E1; try discriminate; try (injection E1 as _ <-; reflexivity).
    destruct (circuit_from_greens ci d) as [[v3 ci3]|] eqn:E3; [|discriminate]. cbn [bind fst snd] in E1. injection E1 as _ <-.
    apply circuit_from_greens_state in E3 as ->. reflexivity.
  Qed.
  Lemma machine_step_shape M o : machine_shape (machine_step M o) = machine_shape M.
  Proof.
    destruct o; cbn [machine_step].
    - unfold machine_shape. apply upd_nth_map. intros lm. cbn [fst snd]. rewrite mc_set_current_shape. reflexivity.
    - unfold machine_shape. apply upd_nth_map. intros lm. cbn [fst snd]. rewrite mc_set_control_shape. reflexivity.
    - apply zip_frame; intros; [apply mc_set_current_shape|apply mc_set_current_control].
    - apply zip_frame; intros; [apply mc_set_current_shape|apply mc_set_current_control].
    - rewrite machine_field_eq. apply machine_sync_shape.
    - destruct calcPsiFromGreens as [[v M']|] eqn:E; [|reflexivity]. apply calcPsi_state in E as ->. apply machine_sync_shape.
  Qed.
  Lemma machine_history_shape : forall h M, machine_shape (fold_left machine_step h M) = machine_shape M.
  Proof. induction h as [|o h IH]; intros M; [reflexivity|]. cbn [fold_left]. rewrite IH. apply machine_step_shape. Qed.
  Lemma machine_sync_is_synced M : machine_synced (machine_sync M).
  Proof.
    unfold machine_synced, machine_sync. apply Forall_forall. intros lm Hlm. apply in_map_iff in Hlm as (lm0 & <- & _). cbn [snd].
    destruct (snd lm0); cbn; auto. apply resync_is_synced.
  Qed.
  Lemma machine_step_synced M o : machine_synced M -> machine_synced (machine_step M o).
  Proof.
    intros H. destruct o; cbn [machine_step].
    - apply upd_nth_Forall; [|exact H]. intros lm _. apply mc_set_current_synced.
    - apply upd_nth_Forall; [|exact H]. intros lm Hm. cbn [snd]. destruct (snd lm); cbn in *; auto. apply set_control_synced, Hm.
    - apply zip_synced; [intros; apply mc_set_current_synced|exact H].
    - apply zip_synced; [intros; apply mc_set_current_synced|exact H].
    - rewrite machine_field_eq. apply machine_sync_is_synced.
    - destruct calcPsiFromGreens as [[v M']|] eqn:E; [|exact H]. apply calcPsi_state in E as ->. apply machine_sync_is_synced.
  Qed.
  Lemma machine_history_synced : forall h M, machine_synced M -> machine_synced (fold_left machine_step h M).
  Proof. induction h as [|o h IH]; intros M H; [exact H|]. cbn [fold_left]. apply IH, machine_step_synced, H. Qed.

  (** ** C03 *)
  Lemma field_of_app f l1 l2 r z : field_of G f (l1 ++ l2) r z = field_of G f l1 r z + field_of G f l2 r z.
  Proof. unfold field_of. rewrite map_app, lsum_app. reflexivity. Qed.
  Lemma field_of_scale f k l r z : field_of G f (scale k l) r z = k * field_of G f l r z.
  Proof.
    unfold field_of, scale. rewrite map_map. cbn [fst snd].
    rewrite <- (lsum_scal k (fun p => snd p * G f (fst (fst p)) (snd (fst p)) r z)). apply lsum_ext. intros; ring.
  Qed.
  Lemma field_of_flat {A} f (g : A -> list filament) r z : forall l,
    field_of G f (flat_map g l) r z = lsum (map (fun a => field_of G f (g a) r z) l).
  Proof. induction l as [|a l IH]; [reflexivity|]. cbn [flat_map map]. rewrite field_of_app, IH. reflexivity. Qed.
  Lemma coil_control_filaments f c r z : is_precalc c = false -> ctrl f c r z = field_of G f (coil_filaments c) r z.
  Proof.
    unfold coil_control, coil_filaments, is_precalc. destruct (c_kind c) as [a b|sh n pts p|sh pts n p|Rf Zf mi pol p|sh mp p]; intros H; try discriminate.
    - unfold field_of. cbn [map fst snd]. rewrite lsum_cons, lsum_nil. nR. ring.
    - rewrite field_of_scale. nR. rewrite (fold_left_sum (fun p => G f (fst (fst p)) (snd (fst p)) r z * snd p)).
      unfold field_of.
      rewrite (lsum_ext (fun p => snd p * G f (fst (fst p)) (snd (fst p)) r z) (fun p => G f (fst (fst p)) (snd (fst p)) r z * snd p) pts)
        by (intros; ring). ring.
    - unfold field_of. rewrite map_map. cbn [fst snd]. nR. rewrite (fold_left_sum (fun p => G f (fst p) (snd p) r z)), lsum_scal, <- INR_IZR_INZ.
      unfold Rdiv. ring.
    - rewrite field_of_app. unfold field_of at 1. rewrite map_map. cbn [fst snd]. nR.
      rewrite (fold_left_sum (fun p => G f (fst p) (snd p) r z * fst pol)).
      destruct mi.
      + rewrite (fold_left_sum (fun p => G f (fst p) (- snd p) r z * snd pol)).
        unfold field_of. rewrite map_map. cbn [fst snd]. rewrite Rplus_0_l. f_equal; apply lsum_ext; intros; ring.
      + unfold field_of. cbn [map]. rewrite lsum_nil, Rplus_0_l, Rplus_0_r. apply lsum_ext. intros; ring.
  Qed.
  Lemma linspace_R (a b : R) n i : linspace a b n i = a + INR i * ((b - a) / INR (n - 1)).
  Proof. unfold linspace. nR. rewrite <- !INR_IZR_INZ. reflexivity. Qed.
  Lemma mcoil_filaments_field f m r z : no_precalc m -> mc_current m * mctrl f m r z = field_of G f (mcoil_filaments m) r z.
  Proof.
    destruct m as [c|ci|s]; cbn [no_precalc mc_current mc_ctrl mcoil_filaments]; intros H.
    - rewrite field_of_scale, coil_control_filaments by exact H. reflexivity.
    - rewrite field_of_flat, circuit_ctrl_sum, <- lsum_scal. apply lsum_ext. intros m Hm.
      rewrite Forall_forall in H. rewrite field_of_scale, coil_control_filaments by exact (H _ Hm). ring.
    - rewrite sol_ctrl_sum. unfold field_of. rewrite !map_map. cbn [fst snd]. rewrite lsum_scal. f_equal. apply lsum_ext.
      intros i _. rewrite linspace_R. reflexivity.
  Qed.
  Lemma machine_filaments_field f (M : machine R) r z : Forall (fun lm => no_precalc (snd lm)) M ->
    response_sum G f M r z = field_of G f (machine_filaments M) r z.
  Proof.
    intros H. unfold machine_filaments. rewrite field_of_flat. unfold response_sum. apply lsum_ext. intros lm Hlm.
    rewrite Forall_forall in H. apply mcoil_filaments_field, (H _ Hlm).
  Qed.
End P.
