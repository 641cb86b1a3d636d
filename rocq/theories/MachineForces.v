(** Proofs about the forces on coils. *)
From Coq Require Import String List Arith ZArith Bool Reals Lra Lia.
From Verif Require Import Py Num Numpy Coils Machine MachineSpec MachineProofs GradShafranov GradShafranovProofs.
Import ListNotations.
Local Open Scope R_scope.

Lemma nth_split_remove {A} : forall (l : list A) i a, nth_error l i = Some a -> l = firstn i l ++ a :: skipn (S i) l.
Proof.
  induction l as [|x l IH]; intros [|i] a E; cbn in *; try discriminate.
  - congruence.
  - f_equal. apply IH, E.
Qed.
Lemma lsum_remove_nth {A} (f : A -> R) (l : list A) i a : nth_error l i = Some a ->
  lsum (map f l) = f a + lsum (map f (remove_nth i l)).
Proof.
  intros E. rewrite (nth_split_remove _ _ _ E) at 1. unfold remove_nth. rewrite !map_app, !lsum_app. cbn [map].
  rewrite lsum_cons. lra.
Qed.
Lemma upd_nth_split {A} (f : A -> A) : forall (l : list A) i a, nth_error l i = Some a -> upd_nth i f l = firstn i l ++ f a :: skipn (S i) l.
Proof.
  induction l as [|x l IH]; intros [|i] a E; cbn in *; try discriminate.
  - congruence.
  - f_equal. apply IH, E.
Qed.
Lemma upd_nth_id {A} (f : A -> A) : forall (l : list A) i a, nth_error l i = Some a -> f a = a -> upd_nth i f l = l.
Proof. intros l i a E H. rewrite (upd_nth_split f l i a E), H, <- nth_split_remove by exact E. reflexivity. Qed.
Lemma upd_nth_twice {A} (f g : A -> A) : forall (l : list A) i, upd_nth i f (upd_nth i g l) = upd_nth i (fun a => f (g a)) l.
Proof. induction l as [|x l IH]; intros [|i]; cbn; auto. f_equal. apply IH. Qed.
Lemma nth_error_upd {A} (f : A -> A) : forall (l : list A) i a, nth_error l i = Some a -> nth_error (upd_nth i f l) i = Some (f a).
Proof. induction l as [|x l IH]; intros [|i] a E; cbn in *; try discriminate; [congruence|auto]. Qed.

Lemma skipn_cons_nth {A} : forall (l : list A) j a r, skipn j l = a :: r -> nth_error l j = Some a /\ skipn (S j) l = r.
Proof.
  induction l as [|x l IH]; intros [|j] a r E; cbn in *; try discriminate.
  - injection E as -> ->. auto.
  - apply IH in E. exact E.
Qed.

Lemma nth_error_enum {A} : forall (l : list A) i s a, nth_error l i = Some a ->
  nth_error (combine (seq s (length l)) l) i = Some ((s + i)%nat, a).
Proof.
  induction l as [|x l IH]; intros [|i] s a E; cbn in *; try discriminate.
  - injection E as ->. rewrite Nat.add_0_r. reflexivity.
  - rewrite (IH i (S s) a E). do 2 f_equal. lia.
Qed.

(** A dictionary filled with distinct labels *)
Lemma dict_set_new {V} : forall (d : list (string * V)) k v, ~ In k (map fst d) -> dict_set d k v = d ++ [(k, v)].
Proof.
  induction d as [|[k' v'] d IH]; intros k v N; [reflexivity|]. cbn [dict_set map fst In] in *.
  destruct (String.eqb_spec k' k) as [E|E]; [tauto|]. cbn [app]. f_equal. apply IH. tauto.
Qed.
Lemma dict_fill_nodup {A V} (key : A -> string) (val : A -> V) : forall l d, NoDup (map fst d ++ map key l) ->
  fold_left (fun d a => dict_set d (key a) (val a)) l d = d ++ map (fun a => (key a, val a)) l.
Proof.
  induction l as [|a l IH]; intros d N; cbn [fold_left map]; [rewrite app_nil_r; reflexivity|].
  cbn [map] in N. assert (N1 := NoDup_remove_2 _ _ _ N).
  rewrite dict_set_new by (intros H; apply N1, in_or_app; auto).
  rewrite IH, <- app_assoc; [reflexivity|]. rewrite map_app. cbn [map fst]. rewrite <- app_assoc. exact N.
Qed.
Lemma dict_get_nodup {V} : forall (d : list (string * V)) k v, NoDup (map fst d) -> In (k, v) d -> dict_get d k = Some v.
Proof.
  induction d as [|[k' v'] d IH]; intros k v N H; [easy|]. cbn [dict_get map fst] in *. inversion N as [|? ? N1 N2]; subst.
  destruct H as [H|H].
  - injection H as -> ->. rewrite String.eqb_refl. reflexivity.
  - destruct (String.eqb_spec k' k) as [->|E]; [|auto]. exfalso. apply N1. apply (in_map fst) in H. exact H.
Qed.

Section F.
  Variable G : field -> R -> R -> R -> R -> R.
  Variable mu : R.
  Variable P : option (field -> R -> R -> R).
  Notation ctrl := (coil_control G).
  Notation resp := (response_sum G).
  Notation getF := (coil_getForces G mu PI sqrt ln P).

  Lemma eq_field_eq f M r z : eq_field G P f M r z = (plasma_field P f r z + resp f M r z, machine_sync M).
  Proof. unfold eq_field. rewrite machine_field_eq. unfold plasma_field. destruct P; nR; f_equal. lra. Qed.

  (** The force formula *)
  Definition coil_force (c : coil R) (br bz : R) : R * R :=
    loop_force mu (coil_R c) (c_current c * IZR (c_turns c)) (coil_area c) br bz.
  Lemma getF_eq M p c br bz M1 M2 :
    eq_field G P FBr (assign_current M p 0) (coil_R c) (coil_Z c) = (br, M1) ->
    eq_field G P FBz M1 (coil_R c) (coil_Z c) = (bz, M2) -> coil_R c <> 0 ->
    getF M p c = (coil_force c br bz, assign_current M2 p (c_current c)).
  Proof.
    intros E1 E2 Hr. unfold coil_getForces. unfold n0. cbn [nofZ Num_R]. rewrite E1, E2. f_equal.
    unfold coil_force, loop_force. assert (HP := PI_neq0). nR. f_equal; field; auto.
  Qed.

  Lemma assign_direct_resp f M i lb c x r z : nth_error M i = Some (lb, MCoil c) ->
    resp f (assign_current M (Direct i) x) r z = x * ctrl f c r z + resp f (remove_nth i M) r z.
  Proof.
    intros E. unfold assign_current. rewrite (upd_nth_split _ _ _ _ E). cbn [snd fst].
    unfold response_sum, remove_nth. rewrite !map_app, !lsum_app. cbn [map snd mc_current mc_ctrl]. rewrite lsum_cons.
    cbn [c_current set_current]. replace (ctrl f (set_current c x) r z) with (ctrl f c r z) by reflexivity. lra.
  Qed.
  Lemma direct_force M i lb c : machine_synced M -> nth_error M i = Some (lb, MCoil c) -> coil_R c <> 0 ->
    getF M (Direct i) c =
    (coil_force c (plasma_field P FBr (coil_R c) (coil_Z c) + resp FBr (remove_nth i M) (coil_R c) (coil_Z c))
                  (plasma_field P FBz (coil_R c) (coil_Z c) + resp FBz (remove_nth i M) (coil_R c) (coil_Z c)), M).
  Proof.
    intros HS E Hr.
    assert (HS0 : machine_synced (assign_current M (Direct i) 0)).
    { unfold assign_current, machine_synced. apply upd_nth_Forall; [|exact HS]. intros [l m]. cbn [snd fst]. destruct m; auto. }
    rewrite (getF_eq _ _ _ _ _ _ _ (eq_field_eq _ _ _ _) (eq_field_eq _ _ _ _) Hr).
    rewrite !machine_sync_synced by (rewrite ?machine_sync_synced; assumption).
    rewrite !(assign_direct_resp _ _ _ _ _ _ _ _ E), !Rmult_0_l, !Rplus_0_l. f_equal.
    unfold assign_current. rewrite upd_nth_twice. apply (upd_nth_id _ _ _ _ E). cbn [fst snd].
    f_equal. f_equal. destruct c; reflexivity.
  Qed.

  Lemma assign_member_resp f M i j x r z : resp f (assign_current M (InCircuit i j) x) r z = resp f M r z.
  Proof.
    unfold assign_current, response_sum. f_equal. apply upd_nth_map. intros [lb m]. cbn [fst snd]. destruct m as [c|ci|s]; try reflexivity.
    cbn [snd mc_current mc_ctrl ci_current]. f_equal. destruct ci as [l I b]. cbn [ci_coils]. apply circuit_ctrl_shape.
    apply upd_nth_map. intros m. reflexivity.
  Qed.
  Lemma assign_member_sync M i j x : machine_sync (assign_current M (InCircuit i j) x) = machine_sync M.
  Proof.
    unfold machine_sync, assign_current. apply upd_nth_map. intros [lb m]. cbn [fst snd]. destruct m as [c|ci|s]; try reflexivity.
    cbn [fst snd mc_sync]. unfold resync. cbn [ci_coils ci_current ci_control]. do 3 f_equal. apply upd_nth_map. intros m. reflexivity.
  Qed.
  Lemma member_force M i j lb ci m : machine_synced M -> nth_error M i = Some (lb, MCircuit ci) -> nth_error (ci_coils ci) j = Some m ->
    coil_R (m_coil m) <> 0 ->
    getF M (InCircuit i j) (m_coil m) =
    (coil_force (m_coil m) (plasma_field P FBr (coil_R (m_coil m)) (coil_Z (m_coil m)) + resp FBr M (coil_R (m_coil m)) (coil_Z (m_coil m)))
                           (plasma_field P FBz (coil_R (m_coil m)) (coil_Z (m_coil m)) + resp FBz M (coil_R (m_coil m)) (coil_Z (m_coil m))), M).
  Proof.
    intros HS E Em Hr. set (c := m_coil m) in *.
    rewrite (getF_eq _ _ _ _ _ _ _ (eq_field_eq _ _ _ _) (eq_field_eq _ _ _ _) Hr).
    rewrite assign_member_sync, assign_member_resp. rewrite !(machine_sync_synced M HS). f_equal.
    unfold assign_current. apply (upd_nth_id _ _ _ _ E). cbn [fst snd]. f_equal. f_equal. destruct ci as [l I b]. cbn [ci_coils ci_current ci_control] in *.
    f_equal. apply (upd_nth_id _ _ _ _ Em). unfold c. rewrite set_current_same. apply set_m_coil_same.
  Qed.

  (** All forces *)
  Definition mcoil_R_ok (m : mcoil R) : Prop :=
    match m with
    | MCoil c => coil_R c <> 0
    | MCircuit ci => Forall (fun m => coil_R (m_coil m) <> 0) (ci_coils ci)
    | MSolenoid _ => True
    end.
  Definition member_entry (M : machine R) (m : member R) : R * R :=
    let c := m_coil m in
    coil_force c (plasma_field P FBr (coil_R c) (coil_Z c) + resp FBr M (coil_R c) (coil_Z c))
                 (plasma_field P FBz (coil_R c) (coil_Z c) + resp FBz M (coil_R c) (coil_Z c)).
  Definition direct_entry (M : machine R) (i : nat) (c : coil R) : R * R :=
    coil_force c (plasma_field P FBr (coil_R c) (coil_Z c) + resp FBr (remove_nth i M) (coil_R c) (coil_Z c))
                 (plasma_field P FBz (coil_R c) (coil_Z c) + resp FBz (remove_nth i M) (coil_R c) (coil_Z c)).
  Definition entry_force (M : machine R) (i : nat) (m : mcoil R) : @force_val R :=
    match m with
    | MCoil c => FCoil (direct_entry M i c)
    | MCircuit ci => FCircuit (fold_left (fun d m => dict_set d (m_label m) (member_entry M m)) (ci_coils ci) [])
    | MSolenoid _ => FEmpty
    end.
  Lemma circuit_forces_eq M i lb ci : machine_synced M -> nth_error M i = Some (lb, MCircuit ci) ->
    Forall (fun m => coil_R (m_coil m) <> 0) (ci_coils ci) ->
    forall ms j d, skipn j (ci_coils ci) = ms ->
    circuit_forces G mu PI sqrt ln P M i j ms d = (fold_left (fun d m => dict_set d (m_label m) (member_entry M m)) ms d, M).
  Proof.
    intros HS E HR. induction ms as [|m ms IH]; intros j d Hsk; cbn [circuit_forces fold_left]; [reflexivity|].
    destruct (skipn_cons_nth _ _ _ _ Hsk) as [Em Hs'].
    cbn [get_coil]. rewrite E, Em. rewrite (member_force M i j lb ci m HS E Em).
    - apply IH, Hs'.
    - rewrite Forall_forall in HR. apply HR. apply nth_error_In in Em. exact Em.
  Qed.
  Lemma machine_forces_eq M : machine_synced M -> Forall (fun lm => mcoil_R_ok (snd lm)) M ->
    forall rest i d, skipn i M = rest ->
    machine_forces_from G mu PI sqrt ln P M i rest d =
    (fold_left (fun d p => dict_set d (fst (snd p)) (entry_force M (fst p) (snd (snd p)))) (combine (seq i (length rest)) rest) d, M).
  Proof.
    intros HS HR. induction rest as [|[lb m] rest IH]; intros i d Hsk; [reflexivity|].
    cbn [machine_forces_from length seq combine fold_left fst snd].
    destruct (skipn_cons_nth _ _ _ _ Hsk) as [Em Hs'].
    assert (Hm : mcoil_R_ok m) by (rewrite Forall_forall in HR; exact (HR _ (nth_error_In _ _ Em))).
    destruct m as [c|ci|s]; cbn [entry_force].
    - cbn [get_coil]. rewrite Em. rewrite (direct_force M i lb c HS Em Hm). apply IH, Hs'.
    - rewrite (circuit_forces_eq M i lb ci HS Em Hm) by reflexivity. apply IH, Hs'.
    - apply IH, Hs'.
  Qed.
  Lemma getForces_eq M : machine_synced M -> Forall (fun lm => mcoil_R_ok (snd lm)) M -> NoDup (map fst M) ->
    getForces G mu PI sqrt ln P M =
    (map (fun p => (fst (snd p), entry_force M (fst p) (snd (snd p)))) (combine (seq 0 (length M)) M), M).
  Proof.
    intros HS HR N. unfold getForces. rewrite (machine_forces_eq M HS HR) by reflexivity. f_equal.
    rewrite (dict_fill_nodup (fun p => fst (snd p)) (fun p => entry_force M (fst p) (snd (snd p)))); [reflexivity|].
    cbn [map app]. replace (map _ (combine (seq 0 (length M)) M)) with (map fst M); [exact N|].
    generalize 0%nat. clear. induction M as [|lm M IH]; intros i; [reflexivity|]. cbn. f_equal. apply IH.
  Qed.
End F.

(** ** Action and reaction *)
Lemma lsum_swap {A B} (h : A -> B -> R) (la : list A) (lb : list B) :
  lsum (map (fun a => lsum (map (fun b => h a b) lb)) la) = lsum (map (fun b => lsum (map (fun a => h a b) la)) lb).
Proof.
  induction la as [|a la IH]; cbn [map].
  - rewrite lsum_nil. symmetry. etransitivity; [apply lsum_const|]. lra.
  - rewrite lsum_cons, IH, <- lsum_add. apply lsum_ext. intros; rewrite lsum_cons; reflexivity.
Qed.
Lemma antisym_sum {A} (h : A -> A -> R) (l : list A) : (forall a b, In a l -> In b l -> h a b = - h b a) ->
  lsum (map (fun a => lsum (map (fun b => h a b) l)) l) = 0.
Proof.
  intros H. set (S := lsum _). enough (S = - S) by lra. unfold S at 1.
  rewrite lsum_swap. unfold S. replace (- lsum _) with (-1 * lsum (map (fun a => lsum (map (fun b => h a b) l)) l)) by ring.
  rewrite <- lsum_scal. apply lsum_ext. intros b Hb. rewrite <- lsum_scal. apply lsum_ext. intros a Ha.
  rewrite (H a b Ha Hb). ring.
Qed.
Lemma lsum_combine_nth {A} (f : nat -> A -> R) (g : A -> R) : forall (l : list A) s,
  (forall i a, nth_error l i = Some a -> f (s + i)%nat a = g a) ->
  lsum (map (fun p => f (fst p) (snd p)) (combine (seq s (length l)) l)) = lsum (map g l).
Proof.
  induction l as [|a l IH]; intros s H; [reflexivity|]. cbn [length seq combine map]. rewrite !lsum_cons. cbn [fst snd].
  rewrite IH by (intros i b E; replace (S s + i)%nat with (s + S i)%nat by lia; exact (H (S i) b E)).
  rewrite <- (H 0%nat a eq_refl), Nat.add_0_r. reflexivity.
Qed.

Definition plain (lm : string * mcoil R) : Prop :=
  match snd lm with MCoil c => match c_kind c with KPoint r _ => r <> 0 | _ => False end | _ => False end.
Definition fz_of (e : string * @force_val R) : R := match snd e with FCoil F => snd F | _ => 0 end.

Lemma net_vertical ellipk ellipe mu (M : machine R) : NoDup (map fst M) -> Forall plain M ->
  lsum (map fz_of (fst (getForces (green_kernel ellipk ellipe) mu PI sqrt ln None M))) = 0.
Proof.
  intros N HP.
  assert (HS : machine_synced M).
  { eapply Forall_impl; [|exact HP]. intros [lb m] H. unfold plain in H. cbn [snd] in *. destruct m; easy. }
  assert (HR : Forall (fun lm => mcoil_R_ok (snd lm)) M).
  { eapply Forall_impl; [|exact HP]. intros [lb m] H. unfold plain in H. cbn [snd] in *. destruct m as [c|ci|s]; try easy.
    cbn. unfold coil_R. destruct (c_kind c); easy. }
  rewrite getForces_eq by assumption. cbn [fst]. rewrite map_map.
  set (G := green_kernel ellipk ellipe).
  set (rr := fun lm : string * mcoil R => match snd lm with MCoil c => coil_R c | _ => 0 end).
  set (zz := fun lm : string * mcoil R => match snd lm with MCoil c => coil_Z c | _ => 0 end).
  set (aa := fun lm : string * mcoil R => match snd lm with MCoil c => c_current c * IZR (c_turns c) | _ => 0 end).
  set (h := fun a b => - (2 * PI * rr a * aa a * (aa b * G FBr (rr b) (zz b) (rr a) (zz a)))).
  assert (Hanti : forall a b, In a M -> In b M -> h a b = - h b a).
  { intros a b Ha Hb. unfold h. rewrite Forall_forall in HP. assert (Pa := HP _ Ha). assert (Pb := HP _ Hb).
    assert (Hra : rr a <> 0) by (unfold rr; unfold plain in Pa; destruct (snd a); try easy; unfold coil_R; destruct (c_kind _); easy).
    assert (Hrb : rr b <> 0) by (unfold rr; unfold plain in Pb; destruct (snd b); try easy; unfold coil_R; destruct (c_kind _); easy).
    assert (E := GreensBr_antisym ellipk ellipe eps_default (rr a) (zz a) (rr b) (zz b)).
    assert (He : eps_default <> 0) by (unfold eps_default; lra). specialize (E He Hra Hrb).
    change (G FBr) with (GreensBr ellipk ellipe eps_default).
    transitivity (- (2 * PI) * aa a * aa b * (rr a * GreensBr ellipk ellipe eps_default (rr b) (zz b) (rr a) (zz a))); [ring|].
    transitivity ((2 * PI) * aa a * aa b * (rr b * GreensBr ellipk ellipe eps_default (rr a) (zz a) (rr b) (zz b))); [|ring].
    rewrite E. ring. }
  rewrite <- (antisym_sum h M Hanti).
  apply (lsum_combine_nth (fun i lm => fz_of (fst lm, entry_force G mu None M i (snd lm)))).
  intros i [lb m] E. cbn [fst snd Nat.add]. unfold fz_of. cbn [snd].
  rewrite Forall_forall in HP. assert (Pm := HP _ (nth_error_In _ _ E)). unfold plain in Pm. cbn [snd] in Pm.
  destruct m as [c|ci|s]; try easy. cbn [entry_force]. unfold direct_entry, coil_force, loop_force. cbn [snd plasma_field].
  rewrite (lsum_remove_nth (fun b => h (lb, MCoil c) b) M i _ E).
  assert (Hd : h (lb, MCoil c) (lb, MCoil c) = 0) by (assert (E0 := Hanti _ _ (nth_error_In _ _ E) (nth_error_In _ _ E)); lra).
  rewrite Hd, !Rplus_0_l.
  unfold response_sum. transitivity (- (2 * PI * coil_R c * (c_current c * IZR (c_turns c))) *
     lsum (map (fun lm => mc_current (snd lm) * mc_ctrl G FBr (snd lm) (coil_R c) (coil_Z c)) (remove_nth i M))); [ring|].
  rewrite <- lsum_scal. apply lsum_ext. intros [lb' m'] Hin.
  assert (Hin' : In (lb', m') M).
  { unfold remove_nth in Hin. rewrite (nth_split_remove _ _ _ E). apply in_app_or in Hin as [H|H]; apply in_or_app; [left|right; right]; exact H. }
  assert (Pm' := HP _ Hin'). unfold plain in Pm'. cbn [snd] in Pm'. destruct m' as [c'|ci'|s']; try easy.
  unfold h, rr, zz, aa. cbn [snd mc_current mc_ctrl]. generalize (coil_R c) (coil_Z c). intros rc zc.
  unfold coil_control, coil_R, coil_Z. destruct (c_kind c') as [r' z'| | | |]; try easy. nR. ring.
Qed.
