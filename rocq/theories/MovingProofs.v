(** Lemmas about moving coils, cross-sections and labels. *)
From Coq Require Import List Arith ZArith Bool String Reals Lra Lia.
From Verif Require Import Py Num Numpy Polygons Quadrature PolySpec Coils Machine MachineSpec MachineProofs MachineForces MovingSpec
  GradShafranov.
Import ListNotations.
Local Open Scope R_scope.

Lemma combine_map_l {A B C} (f : A -> C) : forall (l : list A) (m : list B), combine (map f l) m = map (fun p => (f (fst p), snd p)) (combine l m).
Proof. induction l as [|a l IH]; intros [|b m]; cbn; auto. f_equal. apply IH. Qed.
Lemma combine_map_r {A B C} (f : B -> C) : forall (l : list A) (m : list B), combine l (map f m) = map (fun p => (fst p, f (snd p))) (combine l m).
Proof. induction l as [|a l IH]; intros [|b m]; cbn; auto. f_equal. apply IH. Qed.

(** ** Moving *)
Lemma set_R_settings (c : coil R) r : same_settings c (set_R c r).
Proof. repeat split. Qed.
Lemma set_Z_settings (c : coil R) z : same_settings c (set_Z c z).
Proof. repeat split. Qed.
Lemma set_R_pos (c : coil R) r : coil_R (set_R c r) = r /\ coil_Z (set_R c r) = coil_Z c.
Proof. destruct c as [k I t b a]. destruct k as [? ?|? ? ? [? ?]|? ? ? [? ?]|? ? ? ? [? ?]|? ? [? ?]]; split; reflexivity. Qed.
Lemma set_Z_pos (c : coil R) z : coil_R (set_Z c z) = coil_R c /\ coil_Z (set_Z c z) = z.
Proof. destruct c as [k I t b a]. destruct k as [? ?|? ? ? [? ?]|? ? ? [? ?]|? ? ? ? [? ?]|? ? [? ?]]; split; reflexivity. Qed.

Ltac flat3 := unfold moved; cbn [fst snd]; nR; repeat match goal with |- (_, _) = (_, _) => apply f_equal2 end; try reflexivity; try lra.
Lemma set_R_filaments (c : coil R) r : coil_filaments (set_R c r) = map (moved (r - coil_R c) 0) (coil_filaments c).
Proof.
  destruct c as [k I t b a].
  destruct k as [? ?|? ? ? [? ?]|? ? ? [? ?]|Rf Zf m pol [rc zc]|? ? [? ?]]; unfold set_R, with_kind, coil_filaments, coil_R; cbn beta iota zeta delta [c_kind c_turns fst snd].
  - cbn [map]. apply (f_equal (fun x => [x])). flat3.
  - unfold scale. rewrite !map_map. apply map_ext. intros [[? ?] ?]. flat3.
  - rewrite !map_map. apply map_ext. intros [? ?]. flat3.
  - rewrite map_app, combine_map_l. destruct m; rewrite ?map_map; [apply f_equal2|rewrite app_nil_r; cbn [map]; rewrite app_nil_r]; try (apply map_ext; intros [? ?]; flat3).
  - reflexivity.
Qed.
Lemma set_Z_halves (c : coil R) z :
  upper_half (set_Z c z) = map (moved 0 (z - coil_Z c)) (upper_half c) /\
  lower_half (set_Z c z) = map (moved 0 (coil_Z c - z)) (lower_half c).
Proof.
  destruct c as [k I t b a].
  destruct k as [? ?|? ? ? [? ?]|? ? ? [? ?]|Rf Zf m pol [rc zc]|? ? [? ?]]; unfold set_Z, with_kind, upper_half, lower_half, coil_filaments, coil_Z; cbn beta iota zeta delta [c_kind c_turns fst snd map]; (split; [|try reflexivity]).
  - apply (f_equal (fun x => [x])). flat3.
  - unfold scale. rewrite !map_map. apply map_ext. intros [[? ?] ?]. flat3.
  - rewrite !map_map. apply map_ext. intros [? ?]. flat3.
  - rewrite combine_map_r, !map_map. apply map_ext. intros [? ?]. flat3.
  - destruct m; [|reflexivity]. rewrite combine_map_r, !map_map. apply map_ext. intros [? ?]. flat3.
  - reflexivity.
Qed.
Lemma halves (c : coil R) : coil_filaments c = upper_half c ++ lower_half c.
Proof. destruct c as [k I t b a]. destruct k; unfold upper_half, lower_half, coil_filaments; cbn [c_kind]; rewrite ?app_nil_r; try reflexivity. Qed.
Lemma not_mirrored (c : coil R) : is_mirrored c = false -> lower_half c = [].
Proof. destruct c as [k I t b a]. destruct k; unfold is_mirrored, lower_half; cbn [c_kind]; intros E; try reflexivity. rewrite E. reflexivity. Qed.

Lemma map_id_pointwise {A} (f : A -> A) (l : list A) : (forall x, f x = x) -> map f l = l.
Proof. intros E. induction l as [|a l IH]; cbn [map]; [reflexivity|]. rewrite E, IH. reflexivity. Qed.
Lemma set_R_back (c : coil R) r : set_R (set_R c r) (coil_R c) = c.
Proof.
  destruct c as [k I t b a]. unfold set_R, with_kind, coil_R.
  destruct k as [? ?|? ? ? [? ?]|? ? ? [? ?]|Rf Zf m pol [rc zc]|? ? [? ?]]; cbn beta iota zeta delta [c_kind c_turns c_current c_control c_area fst snd]; try reflexivity;
  do 2 f_equal; rewrite map_map; apply map_id_pointwise; intros x; cbn [fst snd]; [destruct x as [[? ?] ?]|destruct x as [? ?]|]; cbn [fst snd]; flat3.
Qed.
Lemma set_Z_back (c : coil R) z : set_Z (set_Z c z) (coil_Z c) = c.
Proof.
  destruct c as [k I t b a]. unfold set_Z, with_kind, coil_Z.
  destruct k as [? ?|? ? ? [? ?]|? ? ? [? ?]|Rf Zf m pol [rc zc]|? ? [? ?]]; cbn beta iota zeta delta [c_kind c_turns c_current c_control c_area fst snd]; try reflexivity;
  do 2 f_equal; rewrite map_map; apply map_id_pointwise; intros x; cbn [fst snd]; [destruct x as [[? ?] ?]|destruct x as [? ?]|]; cbn [fst snd]; flat3.
Qed.

(** ** Fields and filaments *)
Section G.
  Variable G : field -> R -> R -> R -> R -> R.
  Lemma coil_of_filaments f (c : coil R) r z : is_precalc c = false -> coil_field G f c r z = c_current c * field_of G f (coil_filaments c) r z.
  Proof.
    intros Hp. assert (E := machine_filaments_field G f [(""%string, MCoil c)] r z).
    unfold response_sum in E. cbn [map snd mc_current mc_ctrl] in E. rewrite lsum_cons, lsum_nil, Rplus_0_r in E.
    rewrite coil_field_eq. rewrite E by (repeat constructor; exact Hp).
    unfold machine_filaments. cbn [flat_map snd mcoil_filaments]. rewrite app_nil_r.
    unfold field_of, scale. rewrite map_map, <- lsum_scal. apply lsum_ext. intros p _. cbn [fst snd]. nR. ring.
  Qed.
  Lemma field_of_moved f d (l : list filament) r z : height_invariant G ->
    field_of G f (map (moved 0 d) l) r (z + d) = field_of G f l r z.
  Proof.
    intros HG. unfold field_of. rewrite map_map. apply lsum_ext. intros p _. unfold moved. cbn [fst snd]. rewrite HG, Rplus_0_r. reflexivity.
  Qed.
End G.

Lemma greens_height ellipk ellipe rc zc r z d : Greens ellipk ellipe rc (zc + d) r (z + d) = Greens ellipk ellipe rc zc r z.
Proof. unfold Greens. replace (z + d - (zc + d)) with (z - zc) by ring. reflexivity. Qed.
Lemma kernel_height ellipk ellipe : height_invariant (green_kernel ellipk ellipe).
Proof.
  intros f rc zc r z d. destruct f; cbn [green_kernel].
  - apply greens_height.
  - unfold GreensBr. replace (z + d - eps_default) with (z - eps_default + d) by ring. replace (z + d + eps_default) with (z + eps_default + d) by ring.
    rewrite !greens_height. reflexivity.
  - unfold GreensBz. rewrite !greens_height. reflexivity.
Qed.

(** ** Central differences *)
Lemma field_of_Br ellipk ellipe (l : list filament) r z :
  field_of (green_kernel ellipk ellipe) FBr l r z = difference_Br eps_default (field_of (green_kernel ellipk ellipe) FPsi l) r z.
Proof.
  unfold field_of, difference_Br. induction l as [|p l IH]; cbn [map]; rewrite ?lsum_nil, ?lsum_cons.
  - unfold Rdiv. ring.
  - rewrite IH. cbn [green_kernel]. unfold GreensBr, Rdiv. rewrite !Rinv_mult. ring.
Qed.
Lemma field_of_Bz ellipk ellipe (l : list filament) r z :
  field_of (green_kernel ellipk ellipe) FBz l r z = difference_Bz eps_default (field_of (green_kernel ellipk ellipe) FPsi l) r z.
Proof.
  unfold field_of, difference_Bz. induction l as [|p l IH]; cbn [map]; rewrite ?lsum_nil, ?lsum_cons.
  - unfold Rdiv. ring.
  - rewrite IH. cbn [green_kernel]. unfold GreensBz, Rdiv. rewrite !Rinv_mult. ring.
Qed.

(** ** Areas *)
Lemma lmin_le (l : list R) x : In x l -> lmin l <= x.
Proof.
  unfold lmin. generalize (hd n0 l). intros d. induction l as [|a l IH]; [easy|]. cbn [fold_right]. rewrite nmin_R.
  intros [->|H]; [apply Rmin_l|]. eapply Rle_trans; [apply Rmin_r|apply IH, H].
Qed.
Lemma lmax_ge (l : list R) x : In x l -> x <= lmax l.
Proof.
  unfold lmax. generalize (hd n0 l). intros d. induction l as [|a l IH]; [easy|]. cbn [fold_right]. rewrite nmax_R.
  intros [->|H]; [apply Rmax_l|]. eapply Rle_trans; [apply IH, H|apply Rmax_r].
Qed.
Lemma lmin_in (l : list R) : l <> [] -> In (lmin l) l.
Proof.
  intros Hne. unfold lmin. destruct l as [|a l]; [easy|]. cbn [hd].
  assert (H : forall m, (forall x, In x m -> In x (a :: l)) -> In (fold_right nmin a m) (a :: l)).
  { induction m as [|b m IH]; intros Hs; cbn [fold_right]; [left; reflexivity|]. rewrite nmin_R. unfold Rmin.
    destruct (Rle_dec b _); [apply Hs; left; reflexivity|apply IH; intros x Hx; apply Hs; right; exact Hx]. }
  apply H. auto.
Qed.
Lemma lmax_in (l : list R) : l <> [] -> In (lmax l) l.
Proof.
  intros Hne. unfold lmax. destruct l as [|a l]; [easy|]. cbn [hd].
  assert (H : forall m, (forall x, In x m -> In x (a :: l)) -> In (fold_right nmax a m) (a :: l)).
  { induction m as [|b m IH]; intros Hs; cbn [fold_right]; [left; reflexivity|]. rewrite nmax_R. unfold Rmax.
    destruct (Rle_dec b _); [apply IH; intros x Hx; apply Hs; right; exact Hx|apply Hs; left; reflexivity]. }
  apply H. auto.
Qed.
Lemma box_area (a b c d : R) : a <= b -> c <= d -> Rabs (area [(a, c); (a, d); (b, d); (b, c); (a, c)]) = (b - a) * (d - c).
Proof.
  intros H1 H2. assert (E : area [(a, c); (a, d); (b, d); (b, c); (a, c)] = (b - a) * (d - c)).
  { unfold area. cbn. nR. field. }
  rewrite E. apply Rabs_pos_eq. apply Rmult_le_pos; lra.
Qed.

(** ** Labels *)
Lemma find_first {A} (key : A -> string) k : forall (l : list A),
  match find (fun a => String.eqb (key a) k) l with
  | Some a => first_with key k l a
  | None => Forall (fun a => key a <> k) l
  end.
Proof.
  induction l as [|a l IH]; cbn [find]; [constructor|]. destruct (String.eqb_spec (key a) k) as [E|E].
  - exists [], l. split; [reflexivity|]. split; [exact E|constructor].
  - destruct (find _ l) as [b|].
    + destruct IH as (l1 & l2 & -> & Hk & Hn). exists (a :: l1), l2. split; [reflexivity|]. split; [exact Hk|]. constructor; assumption.
    + constructor; assumption.
Qed.
Lemma first_unique {A} (key : A -> string) k (l : list A) a b : first_with key k l a -> first_with key k l b -> a = b.
Proof.
  intros (l1 & l2 & -> & Ha & H1) (m1 & m2 & E & Hb & H2). revert m1 E H1 H2. induction l1 as [|x l1 IH]; intros [|y m1] E H1 H2; cbn in E; injection E.
  - auto.
  - intros _ ->. inversion H2; contradiction.
  - intros _ ->. inversion H1; contradiction.
  - intros E' ->. inversion H1; inversion H2; subst. eapply IH; eassumption.
Qed.
Lemma fold_dict_get {A V} (key : A -> string) (val : A -> V) k : forall (l : list A) d,
  (forall a, last_with key k l a -> dict_get (fold_left (fun d a => dict_set d (key a) (val a)) l d) k = Some (val a)) /\
  (Forall (fun a => key a <> k) l -> dict_get (fold_left (fun d a => dict_set d (key a) (val a)) l d) k = dict_get d k).
Proof.
  assert (G1 : forall (d : list (string * V)) k v, dict_get (dict_set d k v) k = Some v).
  { induction d as [|[k' v'] d IH]; intros k0 v; cbn; [rewrite String.eqb_refl; reflexivity|].
    destruct (String.eqb_spec k' k0) as [E|E]; cbn; [rewrite (proj2 (String.eqb_eq _ _) E); reflexivity|]. rewrite (proj2 (String.eqb_neq _ _) E). apply IH. }
  assert (G2 : forall (d : list (string * V)) k k' v, k' <> k -> dict_get (dict_set d k' v) k = dict_get d k).
  { intros d k0 k' v Hn. induction d as [|[k2 v2] d IH]; cbn; [rewrite (proj2 (String.eqb_neq _ _) Hn); reflexivity|].
    destruct (String.eqb_spec k2 k') as [->|E]; cbn; [rewrite (proj2 (String.eqb_neq _ _) Hn); reflexivity|]. rewrite IH. reflexivity. }
  assert (B : forall (l : list A) d, Forall (fun a => key a <> k) l -> dict_get (fold_left (fun d a => dict_set d (key a) (val a)) l d) k = dict_get d k).
  { induction l as [|a l IH]; intros d Hf; cbn [fold_left]; [reflexivity|]. inversion Hf; subst. rewrite IH by assumption. apply G2. assumption. }
  intros l d. split; [|apply B]. intros a (l1 & l2 & -> & Hk & Hf). rewrite fold_left_app. cbn [fold_left]. rewrite B by exact Hf. rewrite Hk. apply G1.
Qed.
Lemma fold_dict_keys {A V} (key : A -> string) (val : A -> V) k : forall (l : list A) d,
  In k (map fst (fold_left (fun d a => dict_set d (key a) (val a)) l d)) <-> In k (map fst d) \/ In k (map key l).
Proof.
  assert (K : forall (d : list (string * V)) k' v, In k (map fst (dict_set d k' v)) <-> In k (map fst d) \/ k' = k).
  { intros d k' v. induction d as [|[k2 v2] d IH]; cbn; [tauto|]. destruct (String.eqb_spec k2 k') as [->|E]; cbn; [tauto|]. rewrite IH. tauto. }
  induction l as [|a l IH]; intros d; cbn [fold_left map In]; [tauto|]. rewrite IH, K. tauto.
Qed.

(** ** Stale members *)
Lemma resync_stored (l l' : list (member R)) I b : map (fun m => (m_label m, set_current (m_coil m) 0, m_mult m)) l' = map (fun m => (m_label m, set_current (m_coil m) 0, m_mult m)) l ->
  resync (mkcircuit l' I b) = resync (mkcircuit l I b).
Proof.
  intros E. unfold resync. cbn [ci_coils ci_current ci_control]. f_equal.
  assert (R0 : forall k : list (member R), map (fun m => set_m_coil m (set_current (m_coil m) (nmul I (m_mult m)))) k =
     map (fun p => set_m_coil p (set_current (m_coil p) (nmul I (m_mult p)))) (map (fun m => (m_label m, set_current (m_coil m) 0, m_mult m)) k)).
  { intros k. rewrite map_map. reflexivity. }
  rewrite R0, E, <- R0. reflexivity.
Qed.
Lemma sync_stored (m m' : mcoil R) : same_but_stored m m' -> mc_sync m' = mc_sync m.
Proof.
  destruct m as [c|[l I b]|s], m' as [c'|[l' I' b']|s']; cbn; intros E; try congruence.
  destruct E as (-> & -> & E). f_equal. apply resync_stored, E.
Qed.
Lemma machine_sync_stored (M M' : machine R) : same_up_to_stored M M' -> machine_sync M' = machine_sync M.
Proof.
  induction 1 as [|[l m] [l' m'] M M' [E1 E2] H IH]; [reflexivity|]. cbn [fst snd] in *. subst l'. cbn [machine_sync map fst snd].
  rewrite (sync_stored _ _ E2). f_equal. exact IH.
Qed.
Lemma mc_sync_idem (m : mcoil R) : mc_sync (mc_sync m) = mc_sync m.
Proof. destruct m as [c|ci|s]; cbn [mc_sync]; try reflexivity. f_equal. apply resync_synced, resync_is_synced. Qed.
Lemma machine_sync_idem (M : machine R) : machine_sync (machine_sync M) = machine_sync M.
Proof. unfold machine_sync. rewrite map_map. apply map_ext. intros [l m]. cbn [fst snd]. rewrite mc_sync_idem. reflexivity. Qed.
Lemma machine_sync_is_synced (M : machine R) : machine_synced (machine_sync M).
Proof.
  unfold machine_synced, machine_sync. apply Forall_forall. intros lm H. apply in_map_iff in H as ([l m] & <- & _). cbn [snd].
  destruct m; cbn; auto. apply resync_is_synced.
Qed.
Lemma resp_sync G f (M : machine R) r z : response_sum G f (machine_sync M) r z = response_sum G f M r z.
Proof.
  unfold response_sum, machine_sync. rewrite map_map. f_equal. apply map_ext. intros [l m]. cbn [fst snd]. f_equal.
  - destruct m; reflexivity.
  - apply mctrl_shape, mc_sync_shape.
Qed.

Section F.
  Variable G : field -> R -> R -> R -> R -> R.
  Variable mu : R.
  Variable P : option (field -> R -> R -> R).
  Notation forces_from := (machine_forces_from G mu PI sqrt ln P).
  Lemma circuit_forces_labels : forall (ms ms' : list (member R)) M i j d, map (@m_label R) ms = map (@m_label R) ms' ->
    circuit_forces G mu PI sqrt ln P M i j ms d = circuit_forces G mu PI sqrt ln P M i j ms' d.
  Proof.
    induction ms as [|m ms IH]; intros [|m' ms'] M i j d E; try discriminate; [reflexivity|]. cbn [map] in E. injection E as E1 E2.
    cbn [circuit_forces]. destruct (get_coil M (InCircuit i j)); [|reflexivity]. destruct (coil_getForces _ _ _ _ _ _ _ _ _). rewrite E1. apply IH, E2.
  Qed.
  Lemma forces_from_sync : forall (rest : machine R) M i d, forces_from M i (machine_sync rest) d = forces_from M i rest d.
  Proof.
    induction rest as [|[l m] rest IH]; intros M i d; [reflexivity|]. cbn [machine_sync map fst snd machine_forces_from].
    destruct m as [c|ci|s]; cbn [mc_sync].
    - destruct (get_coil M (Direct i)); [destruct (coil_getForces _ _ _ _ _ _ _ _ _)|]; apply IH.
    - rewrite (circuit_forces_labels (ci_coils (resync ci)) (ci_coils ci)).
      + destruct (circuit_forces _ _ _ _ _ _ _ _ _ _ _). apply IH.
      + unfold resync. cbn [ci_coils]. rewrite map_map. reflexivity.
    - apply IH.
  Qed.
  Lemma first_coil_force lb c (M : machine R) :
    coil_getForces G mu PI sqrt ln P ((lb, MCoil c) :: M) (Direct 0) c =
    (fst (coil_getForces G mu PI sqrt ln P (machine_sync ((lb, MCoil c) :: M)) (Direct 0) c), machine_sync ((lb, MCoil c) :: M)).
  Proof.
    assert (A : forall x, machine_sync (assign_current ((lb, MCoil c) :: M) (Direct 0) x) = (lb, MCoil (set_current c x)) :: machine_sync M) by reflexivity.
    unfold coil_getForces.
    assert (Ev : forall f N r z, eq_field G P f N r z = (plasma_field P f r z + response_sum G f N r z, machine_sync N)) by (intros; apply eq_field_eq).
    cbv zeta. rewrite !Ev. cbv beta iota. rewrite ?Ev. cbv beta iota. rewrite !resp_sync, !machine_sync_idem.
    assert (B : forall x, assign_current (machine_sync ((lb, MCoil c) :: M)) (Direct 0) x = machine_sync (assign_current ((lb, MCoil c) :: M) (Direct 0) x)) by reflexivity.
    rewrite !B, !resp_sync. cbn [fst]. f_equal. rewrite A. cbn. destruct c; reflexivity.
  Qed.
  Lemma getForces_first lb c (M : machine R) :
    getForces G mu PI sqrt ln P ((lb, MCoil c) :: M) =
    forces_from ((lb, MCoil c) :: machine_sync M) 1 M
      [(lb, FCoil (fst (coil_getForces G mu PI sqrt ln P ((lb, MCoil c) :: machine_sync M) (Direct 0) c)))].
  Proof.
    unfold getForces. cbn [machine_forces_from get_coil nth_error]. rewrite (first_coil_force lb c M). reflexivity.
  Qed.
  Lemma getForces_sync lb c (M : machine R) :
    getForces G mu PI sqrt ln P ((lb, MCoil c) :: M) = getForces G mu PI sqrt ln P (machine_sync ((lb, MCoil c) :: M)).
  Proof.
    change (machine_sync ((lb, MCoil c) :: M)) with ((lb, MCoil c) :: machine_sync M).
    rewrite !getForces_first, machine_sync_idem, forces_from_sync. reflexivity.
  Qed.
End F.
Lemma sync_same (M : machine R) : same_up_to_stored M (machine_sync M).
Proof.
  induction M as [|[l m] M IH]; constructor; [|exact IH]. cbn [fst snd]. split; [reflexivity|]. destruct m as [c|ci|s]; cbn [mc_sync same_but_stored]; try reflexivity.
  split; [reflexivity|]. split; [reflexivity|]. unfold resync. cbn [ci_coils]. rewrite map_map. apply map_ext. intros [[? ?] ?]. reflexivity.
Qed.
