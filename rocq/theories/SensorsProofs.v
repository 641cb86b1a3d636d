(** Proofs about sensors and limit points. *)
From Coq Require Import String List Arith ZArith Bool Reals Lra Lia.
From Verif Require Import Py Num Numpy Coils Machine MachineSpec MachineProofs Sensors.
Import ListNotations.
Local Open Scope R_scope.

Section Rogowski.
  Variable contains : R -> R -> bool.
  Variable overlap : list (R * R) -> R.
  Notation cin := (coil_inShape contains overlap).
  Notation inside := (fun p : filament => contains (fst (fst p)) (snd (fst p))).

  Lemma fold_count (w : R) : forall (l : list (R * R)) acc,
    fold_left (fun c p => if contains (fst p) (snd p) then c + w else c) l acc =
    acc + amp_turns (filter inside (map (fun p => (p, w)) l)).
  Proof.
    unfold amp_turns. induction l as [|p l IH]; intros acc; cbn [fold_left map filter fst snd]; [rewrite lsum_nil; lra|].
    rewrite IH. destruct (contains (fst p) (snd p)); cbn [map snd]; rewrite ?lsum_cons; lra.
  Qed.
  Definition thin (c : coil R) : Prop :=
    match c_kind c with KPoint _ _ | KFilament _ _ _ _ => True | _ => False end /\ c_turns c = 1%Z.
  Lemma thin_inShape c : thin c -> cin c = amp_turns (filter inside (coil_filaments c)).
  Proof.
    intros [Hk Ht]. unfold coil_inShape, coil_filaments, coil_R, coil_Z. rewrite Ht. destruct (c_kind c) as [r z|sh n p ce|sh p n ce| |]; try easy.
    - cbn [filter fst snd]. destruct (contains r z); unfold amp_turns; cbn [map snd]; rewrite ?lsum_cons, ?lsum_nil; nR; lra.
    - nR. rewrite fold_count, <- INR_IZR_INZ. lra.
  Qed.
  Lemma filter_scale k l : filter inside (scale k l) = scale k (filter inside l).
  Proof.
    induction l as [|p l IH]; [reflexivity|]. unfold scale in *. cbn [map filter fst snd]. destruct (contains _ _); cbn [map]; [f_equal|]; exact IH.
  Qed.
  Lemma amp_scale k l : amp_turns (scale k l) = k * amp_turns l.
  Proof. unfold amp_turns, scale. rewrite map_map. cbn [snd]. apply lsum_scal. Qed.
  Lemma amp_app a b : amp_turns (a ++ b) = amp_turns a + amp_turns b.
  Proof. unfold amp_turns. rewrite map_app, lsum_app. reflexivity. Qed.
  Definition thin_entry (m : mcoil R) : Prop :=
    match m with MCoil c => thin c | MCircuit ci => Forall (fun m => thin (m_coil m)) (ci_coils ci) | MSolenoid _ => False end.
  Definition mc_share (m : mcoil R) : R :=
    match m with MCoil c => cin c | MCircuit ci => lsum (map (fun m => cin (m_coil m) * m_mult m) (ci_coils ci)) | MSolenoid _ => 0 end.
  Definition no_solenoid (m : mcoil R) : Prop := match m with MSolenoid _ => False | _ => True end.
  Lemma mc_inShape_eq m : no_solenoid m -> mc_inShape contains overlap m = Ok (mc_share m).
  Proof.
    destruct m as [c|ci|s]; cbn; intros H; try easy. f_equal. unfold circuit_inShape. nR.
    rewrite (fold_left_sum (fun m => cin (m_coil m) * m_mult m)). lra.
  Qed.
  Lemma thin_entry_share m : thin_entry m -> mc_share m * mc_current m = amp_turns (filter inside (mcoil_filaments m)).
  Proof.
    destruct m as [c|ci|s]; cbn [thin_entry mc_share mc_current mcoil_filaments]; intros H; try easy.
    - rewrite thin_inShape by exact H. rewrite filter_scale, amp_scale. ring.
    - destruct ci as [l I b]. cbn [ci_coils ci_current] in *. induction H as [|m l Hm H IH]; cbn [map flat_map].
      + unfold amp_turns. cbn [filter map]. rewrite !lsum_nil. lra.
      + rewrite lsum_cons, filter_app, amp_app, <- IH, filter_scale, amp_scale, thin_inShape by exact Hm. ring.
  Qed.
  Lemma coil_total : forall (M : machine R) acc, Forall (fun lm => no_solenoid (snd lm)) M ->
    foldM (fun acc lm => bind (mc_inShape contains overlap (snd lm)) (fun x => Ok (nadd acc (nmul x (mc_current (snd lm)))))) M acc =
    Ok (acc + lsum (map (fun lm => mc_share (snd lm) * mc_current (snd lm)) M)).
  Proof.
    intros M acc H. revert acc. induction H as [|lm M Hm H IH]; intros acc; cbn [foldM map]; [rewrite lsum_nil; f_equal; lra|].
    rewrite mc_inShape_eq by exact Hm. cbn [bind]. rewrite IH, lsum_cons. f_equal. nR. lra.
  Qed.
  Definition plasma_total (eq : option (plasma_grid R)) : R :=
    match eq with
    | None => 0
    | Some g => lsum (map (fun p => snd p * overlap (cell g (fst (fst p)) (snd (fst p)))) (pg_points g))
    end.
  Lemma rogowski_eq m (M : machine R) eq : Forall (fun lm => no_solenoid (snd lm)) M ->
    rogowski_measure contains overlap (mksensor true m) M eq =
    Ok (mksensor true (Some (plasma_total eq + lsum (map (fun lm => mc_share (snd lm) * mc_current (snd lm)) M)))).
  Proof.
    intros H. unfold rogowski_measure. cbn [sn_status]. rewrite coil_total by exact H. cbn [bind]. do 3 f_equal. nR.
    unfold plasma_total. destruct eq as [g|]; [|nR; lra].
    rewrite (fold_left_sum (fun p => snd p * overlap (cell g (fst (fst p)) (snd (fst p))))). lra.
  Qed.
  Lemma thin_sum (M : machine R) : Forall (fun lm => thin_entry (snd lm)) M ->
    lsum (map (fun lm => mc_share (snd lm) * mc_current (snd lm)) M) = amp_turns (filter inside (machine_filaments M)).
  Proof.
    induction 1 as [|lm M Hm H IH]; [reflexivity|]. cbn [map machine_filaments flat_map].
    rewrite lsum_cons, filter_app, amp_app, thin_entry_share by exact Hm. f_equal. exact IH.
  Qed.
  Definition set_all (M : machine R) (l : list R) : machine R := map (fun p => (fst (fst p), mc_set_current (snd (fst p)) (snd p))) (combine M l).
  (** The area of a shaped coil is a number (its constructor computes it). *)
  Definition fixed_area (c : coil R) : Prop :=
    match c_kind c, c_area c with KShaped _ _ _ _, ALimit _ => False | _, _ => True end.
  Definition fixed_areas (m : mcoil R) : Prop :=
    match m with MCoil c => fixed_area c | MCircuit ci => Forall (fun m => fixed_area (m_coil m)) (ci_coils ci) | _ => True end.
  Lemma cin_set c I : fixed_area c -> cin (set_current c I) = cin c.
  Proof. unfold fixed_area, coil_inShape, coil_area. cbn [c_kind set_current c_area]. destruct (c_kind c), (c_area c); easy. Qed.
  Lemma mc_share_set m I : fixed_areas m -> mc_share (mc_set_current m I) = mc_share m.
  Proof.
    destruct m as [c|ci|s]; cbn [mc_set_current mc_share fixed_areas]; intros H; [apply cin_set, H| |reflexivity].
    cbn [ci_coils circuit_set_current]. rewrite map_map. apply lsum_ext. intros m Hm. cbn [m_coil set_m_coil fst snd m_mult].
    rewrite Forall_forall in H. f_equal. apply (cin_set (m_coil m)). exact (H _ Hm).
  Qed.
  Lemma no_solenoid_set m I : no_solenoid m -> no_solenoid (mc_set_current m I).
  Proof. destruct m; easy. Qed.
  Lemma rogowski_linear m (M : machine R) eq l : Forall (fun lm => no_solenoid (snd lm) /\ fixed_areas (snd lm)) M -> length l = length M ->
    rogowski_measure contains overlap (mksensor true m) (set_all M l) eq =
    Ok (mksensor true (Some (plasma_total eq + lsum (map (fun p => fst p * snd p) (combine (map (fun lm => mc_share (snd lm)) M) l))))).
  Proof.
    intros H Hl. rewrite rogowski_eq.
    - do 4 f_equal. revert l Hl. induction H as [|lm M [Hm Hf] H IH]; intros [|x l] Hl; try discriminate; [reflexivity|].
      unfold set_all in *. cbn [combine map fst snd]. rewrite !lsum_cons. cbn [fst snd]. rewrite mc_share_set, mc_set_current_current by exact Hf.
      f_equal. apply IH. injection Hl; auto.
    - revert l Hl. induction H as [|lm M [Hm Hf] H IH]; intros [|x l] Hl; try discriminate; [constructor|].
      unfold set_all in *. cbn [combine map fst snd]. constructor; [apply no_solenoid_set, Hm|]. apply IH. injection Hl; auto.
  Qed.
End Rogowski.

(** ** Interpolation along the wall *)
Lemma searchsorted_below (x : list R) v j : (j < searchsorted x v)%nat -> nth j x 0 < v.
Proof.
  revert j. induction x as [|a x IH]; intros j Hj; cbn [searchsorted] in Hj; [lia|]. nR.
  destruct (R_ltb a v) eqn:E; [|lia]. rcmp. destruct j as [|j]; cbn [nth]; [exact E|]. apply IH. lia.
Qed.
Lemma searchsorted_at (x : list R) v : (searchsorted x v < length x)%nat -> v <= nth (searchsorted x v) x 0.
Proof.
  induction x as [|a x IH]; intros Hj; cbn [searchsorted length] in *; [lia|]. nR.
  destruct (R_ltb a v) eqn:E; rcmp; cbn [nth]; [|exact E]. apply IH. lia.
Qed.
Lemma searchsorted_le (x : list R) v : (searchsorted x v <= length x)%nat.
Proof. induction x as [|a x IH]; cbn; [lia|]. nR. destruct (R_ltb a v); lia. Qed.
Lemma searchsorted_last (x : list R) v : x <> [] -> v <= nth (length x - 1) x 0 -> (searchsorted x v <= length x - 1)%nat.
Proof.
  intros Hx Hv. destruct (le_lt_dec (searchsorted x v) (length x - 1)) as [|L]; [assumption|].
  apply searchsorted_below in L. lra.
Qed.

(** The bracket chosen by the interpolation *)
Definition bracket (x : list R) (v : R) : nat := Nat.min (Nat.max (searchsorted x v) 1) (length x - 1).
Lemma bracket_spec (x : list R) v : (2 <= length x)%nat -> nth 0 x 0 <= v <= nth (length x - 1) x 0 -> nth 0 x 0 < nth 1 x 0 ->
  let hi := bracket x v in
  (1 <= hi <= length x - 1)%nat /\ nth (hi - 1) x 0 <= v <= nth hi x 0 /\ nth (hi - 1) x 0 < nth hi x 0 /\ (hi = 1%nat \/ nth (hi - 1) x 0 < v).
Proof.
  intros Hl Hv H01 hi. assert (Hx : x <> []) by (destruct x; [cbn in Hl; lia|discriminate]).
  assert (HL := searchsorted_last x v Hx (proj2 Hv)). unfold hi, bracket.
  destruct (searchsorted x v) as [|s] eqn:E.
  - rewrite Nat.max_r, Nat.min_l by lia. assert (Ha := searchsorted_at x v). rewrite E in Ha. specialize (Ha ltac:(lia)).
    cbn [Nat.sub]. repeat split; try lia; try lra.
  - rewrite Nat.max_l, Nat.min_l by lia. assert (Ha := searchsorted_at x v). rewrite E in Ha. specialize (Ha ltac:(lia)).
    assert (Hb := searchsorted_below x v s). rewrite E in Hb. specialize (Hb ltac:(lia)).
    replace (S s - 1)%nat with s by lia. repeat split; try lia; lra.
Qed.
Lemma interp1d_eq (x y : list R) v : nth 0 x 0 <= v <= nth (length x - 1) x 0 ->
  interp1d x y v = Ok (let hi := bracket x v in
    (nth hi y 0 - nth (hi - 1) y 0) / (nth hi x 0 - nth (hi - 1) x 0) * (v - nth (hi - 1) x 0) + nth (hi - 1) y 0).
Proof.
  intros [H1 H2]. unfold interp1d. nR.
  destruct (R_ltb v _) eqn:E1; rcmp; [lra|]. destruct (R_ltb _ v) eqn:E2; rcmp; [lra|]. reflexivity.
Qed.

Section Wall.
  Variable w : list (R * R).
  Notation Pt k := (nth k w (0, 0)).
  Definition seg (a b : R * R) : R := sqrt ((fst b - fst a) * (fst b - fst a) + (snd b - snd a) * (snd b - snd a)).
  Lemma seg_nonneg a b : 0 <= seg a b. Proof. apply sqrt_pos. Qed.
  Lemma seg_zero a b : seg a b = 0 -> a = b.
  Proof.
    unfold seg. intros H. apply sqrt_eq_0 in H; [|apply Rplus_le_le_0_compat; apply Rle_0_sqr]. destruct a as [a1 a2], b as [b1 b2]. cbn [fst snd] in *.
    assert (H1 := Rle_0_sqr (b1 - a1)). assert (H2 := Rle_0_sqr (b2 - a2)). unfold Rsqr in *.
    assert (E1 : b1 - a1 = 0) by (apply Rsqr_0_uniq; unfold Rsqr; lra). assert (E2 : b2 - a2 = 0) by (apply Rsqr_0_uniq; unfold Rsqr; lra).
    f_equal; lra.
  Qed.
  Definition segs : list R := map (fun d => sqrt (nsqr (fst d) + nsqr (snd d))) (diffs w).
  Lemma cumsum_nth : forall (l : list R) acc k, (k <= length l)%nat -> nth k (acc :: cumsum_from acc l) 0 = acc + lsum (firstn k l).
  Proof.
    induction l as [|a l IH]; intros acc k Hk.
    - destruct k; [|cbn in Hk; lia]. cbn [nth firstn]. rewrite lsum_nil. lra.
    - destruct k as [|k]; [cbn [nth firstn]; rewrite lsum_nil; lra|]. change (nth k ((acc + a) :: cumsum_from (acc + a) l) 0 = acc + lsum (a :: firstn k l)).
      rewrite lsum_cons, IH by (cbn [length] in Hk; lia). lra.
  Qed.
  Lemma cumsum_length : forall (l : list R) acc, length (cumsum_from acc l) = length l.
  Proof. induction l as [|a l IH]; intros acc; cbn; auto. Qed.
End Wall.
Lemma diffs_length : forall w : list (R * R), length (diffs w) = (length w - 1)%nat.
Proof. induction w as [|a [|b w] IH]; cbn in *; auto. rewrite IH. lia. Qed.
Lemma diffs_nth : forall (w : list (R * R)) k, (S k < length w)%nat ->
  nth k (diffs w) (0, 0) = (fst (nth (S k) w (0, 0)) - fst (nth k w (0, 0)), snd (nth (S k) w (0, 0)) - snd (nth k w (0, 0))).
Proof.
  induction w as [|a [|b w] IH]; intros k Hk; cbn [length] in Hk; try lia.
  destruct k as [|k]; [reflexivity|]. change (nth (S k) (diffs (a :: b :: w)) (0, 0)) with (nth k (diffs (b :: w)) (0, 0)).
  rewrite IH by (cbn [length]; lia). reflexivity.
Qed.
Lemma segs_length w : length (segs w) = (length w - 1)%nat.
Proof. unfold segs. rewrite map_length, diffs_length. reflexivity. Qed.
Lemma segs_nth w k : (S k < length w)%nat -> nth k (segs w) 0 = seg (nth k w (0, 0)) (nth (S k) w (0, 0)).
Proof.
  intros Hk. unfold segs.
  rewrite (nth_indep _ 0 (sqrt (nsqr (fst (0, 0)) + nsqr (snd (0, 0))))) by (rewrite map_length, diffs_length; lia).
  rewrite (map_nth (fun d => sqrt (nsqr (fst d) + nsqr (snd d)))), diffs_nth by exact Hk. reflexivity.
Qed.
(** arc length up to point k *)
Definition arc (w : list (R * R)) (k : nat) : R := lsum (firstn k (segs w)).
Lemma arc_0 w : arc w 0 = 0. Proof. reflexivity. Qed.
Lemma firstn_S_nth {A} (d : A) : forall l k, (k < length l)%nat -> firstn (S k) l = firstn k l ++ [nth k l d].
Proof. induction l as [|a l IH]; intros [|k] Hk; cbn in *; try lia; [reflexivity|]. f_equal. apply IH. lia. Qed.
Lemma arc_S w k : (S k < length w)%nat -> arc w (S k) = arc w k + seg (nth k w (0, 0)) (nth (S k) w (0, 0)).
Proof.
  intros Hk. unfold arc. rewrite (firstn_S_nth 0) by (rewrite segs_length; lia). rewrite lsum_app, lsum_cons, lsum_nil, segs_nth by exact Hk. lra.
Qed.
Lemma arc_mono w j k : (j <= k < length w)%nat -> arc w j <= arc w k.
Proof.
  intros [Hjk Hk]. induction Hjk as [|k Hjk IH]; [lra|]. rewrite arc_S by lia. assert (H := seg_nonneg (nth k w (0, 0)) (nth (S k) w (0, 0))).
  specialize (IH ltac:(lia)). lra.
Qed.
Lemma arc_eq_points w j k : (j <= k < length w)%nat -> arc w j = arc w k -> nth j w (0, 0) = nth k w (0, 0).
Proof.
  intros [Hjk Hk]. induction Hjk as [|k Hjk IH]; [reflexivity|]. rewrite arc_S by lia. intros E.
  assert (H := seg_nonneg (nth k w (0, 0)) (nth (S k) w (0, 0))). assert (M := arc_mono w j k ltac:(lia)).
  rewrite IH by (lia || lra). apply seg_zero. lra.
Qed.

Definition wall_ok (w : list (R * R)) : Prop := (2 <= length w)%nat /\ nth 0 w (0, 0) <> nth 1 w (0, 0).
Definition distances (w : list (R * R)) : list R := map (fun d => d / arc w (length w - 1)) (0 :: cumsum_from 0 (segs w)).
Lemma arc_pos w : wall_ok w -> 0 < arc w 1 /\ arc w 1 <= arc w (length w - 1).
Proof.
  intros [Hl Hne]. split; [|apply arc_mono; lia]. rewrite arc_S, arc_0 by lia.
  assert (H := seg_nonneg (nth 0 w (0, 0)) (nth 1 w (0, 0))). destruct (Req_dec (seg (nth 0 w (0, 0)) (nth 1 w (0, 0))) 0) as [E|E]; [|lra].
  apply seg_zero in E. contradiction.
Qed.
Lemma distances_length w : (2 <= length w)%nat -> length (distances w) = length w.
Proof. intros H. unfold distances. rewrite map_length. cbn [length]. rewrite cumsum_length, segs_length. lia. Qed.
Lemma distances_nth w k : (k < length w)%nat -> nth k (distances w) 0 = arc w k / arc w (length w - 1).
Proof.
  intros Hk. unfold distances. set (L := arc w (length w - 1)).
  rewrite (nth_indep _ 0 (0 / L)) by (rewrite map_length; cbn [length]; rewrite cumsum_length, segs_length; lia).
  rewrite (map_nth (fun d => d / L)), cumsum_nth by (rewrite segs_length; lia). rewrite Rplus_0_l. reflexivity.
Qed.
Lemma last_nth_R : forall (l : list R) (d : R), l <> [] -> last l d = nth (length l - 1) l 0.
Proof.
  induction l as [|a [|b l] IH]; intros d H; [easy|reflexivity|]. change (last (a :: b :: l) d) with (last (b :: l) d).
  rewrite IH by discriminate. cbn [length]. replace (S (S (length l)) - 1)%nat with (S (length l)) by lia.
  replace (S (length l) - 1)%nat with (length l) by lia. reflexivity.
Qed.
Lemma mapM_ok {A B} (f : A -> result B) (g : A -> B) l : (forall a, In a l -> f a = Ok (g a)) -> mapM f l = Ok (map g l).
Proof.
  induction l as [|a l IH]; intros H; [reflexivity|]. cbn [mapM map]. rewrite H by (left; reflexivity). cbn [bind].
  rewrite IH by (intros; apply H; right; auto). reflexivity.
Qed.

(** Point at normalised arc length v *)
Definition wall_point (w : list (R * R)) (v : R) : R * R :=
  let x := distances w in let hi := bracket x v in let t := (v - nth (hi - 1) x 0) / (nth hi x 0 - nth (hi - 1) x 0) in
  let p := nth (hi - 1) w (0, 0) in let q := nth hi w (0, 0) in
  (fst p + t * (fst q - fst p), snd p + t * (snd q - snd p)).
Lemma limit_points_eq w n : wall_ok w ->
  generate_limit_points sqrt w n = Ok (map (fun i => wall_point w (INR i / INR (n - 1))) (seq 0 n)).
Proof.
  intros Hw. assert (HA := arc_pos w Hw). destruct Hw as [Hl Hne]. unfold generate_limit_points. nR. fold (segs w).
  change (map (fun d => sqrt (fst d * fst d + snd d * snd d)) (diffs w)) with (segs w).
  destruct (cumsum_from 0 (segs w)) as [|c0 cs] eqn:Ec.
  { apply (f_equal (@length R)) in Ec. rewrite cumsum_length, segs_length in Ec. cbn in Ec. lia. }
  rewrite <- Ec.
  assert (EL : last (cumsum_from 0 (segs w)) 0 = arc w (length w - 1)).
  { rewrite last_nth_R by (rewrite Ec; discriminate). rewrite cumsum_length, segs_length.
    assert (E := cumsum_nth (segs w) 0 (length w - 1)). rewrite segs_length in E. specialize (E ltac:(lia)).
    replace (length w - 1)%nat with (S (length w - 1 - 1)) in E at 1 by lia. cbn [nth] in E. rewrite E. unfold arc. rewrite Rplus_0_l. reflexivity. }
  rewrite EL. fold (distances w). rewrite (mapM_ok _ (fun v => wall_point w v)).
  - f_equal. rewrite map_map. apply map_ext. intros i. rewrite linspace_R. f_equal. unfold Rdiv. ring.
  - intros v Hv. apply in_map_iff in Hv as (i & <- & Hi). apply in_seq in Hi. rewrite linspace_R.
    set (v := 0 + _). assert (Hv : 0 <= v <= 1).
    { unfold v. destruct (Nat.eq_dec n 1) as [->|Hn].
      - replace i with 0%nat by lia. cbn [INR]. lra.
      - assert (H1 : 0 < INR (n - 1)) by (apply lt_0_INR; lia). assert (H2 : INR i <= INR (n - 1)) by (apply le_INR; lia).
        assert (H3 := pos_INR i). split.
        + rewrite Rplus_0_l. apply Rmult_le_pos; [exact H3|]. apply Rlt_le, Rdiv_lt_0_compat; lra.
        + apply (Rmult_le_reg_r (INR (n - 1))); [exact H1|]. field_simplify; lra. }
    assert (Hb : nth 0 (distances w) 0 <= v <= nth (length (distances w) - 1) (distances w) 0).
    { rewrite distances_length, !distances_nth, arc_0 by lia. replace (arc w (length w - 1) / arc w (length w - 1)) with 1 by (field; lra). lra. }
    rewrite !interp1d_eq by exact Hb. cbn [bind]. f_equal. unfold wall_point. cbv zeta.
    assert (Ef : forall k, nth k (map fst w) 0 = fst (nth k w (0, 0))) by (intros k; exact (map_nth fst w (0, 0) k)).
    assert (Es : forall k, nth k (map snd w) 0 = snd (nth k w (0, 0))) by (intros k; exact (map_nth snd w (0, 0) k)).
    rewrite !Ef, !Es. f_equal; unfold Rdiv; ring.
Qed.
Lemma wall_point_on w v : wall_ok w -> 0 <= v <= 1 ->
  exists k t, (S k < length w)%nat /\ 0 <= t <= 1 /\
  wall_point w v = (fst (nth k w (0, 0)) + t * (fst (nth (S k) w (0, 0)) - fst (nth k w (0, 0))),
                    snd (nth k w (0, 0)) + t * (snd (nth (S k) w (0, 0)) - snd (nth k w (0, 0)))).
Proof.
  intros Hw Hv. assert (HA := arc_pos w Hw). destruct Hw as [Hl Hne].
  destruct (bracket_spec (distances w) v) as (B1 & B2 & B3 & _).
  - rewrite distances_length; lia.
  - rewrite distances_length, !distances_nth, arc_0 by lia. replace (arc w (length w - 1) / arc w (length w - 1)) with 1 by (field; lra). lra.
  - rewrite !distances_nth, arc_0 by lia. unfold Rdiv. rewrite Rmult_0_l. apply Rmult_lt_0_compat; [lra|]. apply Rinv_0_lt_compat. lra.
  - rewrite distances_length in B1 by lia. set (hi := bracket (distances w) v) in *. set (x := distances w) in *.
    exists (hi - 1)%nat, ((v - nth (hi - 1) x 0) / (nth hi x 0 - nth (hi - 1) x 0)). replace (S (hi - 1)) with hi by lia.
    split; [lia|]. split; [|reflexivity]. split.
    + apply Rmult_le_pos; [lra|]. apply Rlt_le, Rinv_0_lt_compat. lra.
    + apply (Rmult_le_reg_r (nth hi x 0 - nth (hi - 1) x 0)); [lra|]. unfold Rdiv. rewrite Rmult_assoc, Rinv_l by lra. lra.
Qed.
Lemma wall_point_first w : wall_ok w -> wall_point w 0 = nth 0 w (0, 0).
Proof.
  intros Hw. assert (HA := arc_pos w Hw). destruct Hw as [Hl Hne].
  destruct (bracket_spec (distances w) 0) as (B1 & B2 & B3 & B4).
  - rewrite distances_length; lia.
  - rewrite distances_length, !distances_nth, arc_0 by lia. replace (arc w (length w - 1) / arc w (length w - 1)) with 1 by (field; lra). lra.
  - rewrite !distances_nth, arc_0 by lia. unfold Rdiv. rewrite Rmult_0_l. apply Rmult_lt_0_compat; [lra|]. apply Rinv_0_lt_compat. lra.
  - rewrite distances_length in B1 by lia. unfold wall_point. set (hi := bracket (distances w) 0) in *. cbv zeta.
    assert (E : hi = 1%nat).
    { destruct B4 as [|B4]; [assumption|]. exfalso. rewrite distances_nth in B4 by lia.
      assert (0 <= arc w (hi - 1) / arc w (length w - 1)); [|lra].
      apply Rmult_le_pos; [|apply Rlt_le, Rinv_0_lt_compat; lra]. rewrite <- (arc_0 w). apply arc_mono. lia. }
    rewrite E. cbn [Nat.sub]. rewrite distances_nth, arc_0 by lia. unfold Rdiv. rewrite Rmult_0_l, Rminus_0_r, Rmult_0_l.
    destruct (nth 0 w (0, 0)); cbn [fst snd]. f_equal; ring.
Qed.
Lemma wall_point_last w : wall_ok w -> wall_point w 1 = nth (length w - 1) w (0, 0).
Proof.
  intros Hw. assert (HA := arc_pos w Hw). destruct Hw as [Hl Hne].
  assert (E1 : arc w (length w - 1) / arc w (length w - 1) = 1) by (field; lra).
  destruct (bracket_spec (distances w) 1) as (B1 & B2 & B3 & B4).
  - rewrite distances_length; lia.
  - rewrite distances_length, !distances_nth, arc_0 by lia. lra.
  - rewrite !distances_nth, arc_0 by lia. unfold Rdiv. rewrite Rmult_0_l. apply Rmult_lt_0_compat; [lra|]. apply Rinv_0_lt_compat. lra.
  - rewrite distances_length in B1 by lia. unfold wall_point. set (hi := bracket (distances w) 1) in *. cbv zeta.
    assert (Eh : arc w hi = arc w (length w - 1)).
    { apply Rle_antisym; [apply arc_mono; lia|]. destruct B2 as [_ B2]. rewrite distances_nth in B2 by lia.
      apply (Rmult_le_reg_r (/ arc w (length w - 1))); [apply Rinv_0_lt_compat; lra|]. unfold Rdiv in *. lra. }
    rewrite <- (arc_eq_points w hi (length w - 1)) by (lia || exact Eh).
    assert (Ex : nth hi (distances w) 0 = 1) by (rewrite distances_nth, Eh by lia; exact E1).
    rewrite Ex in *. replace ((1 - nth (hi - 1) (distances w) 0) / (1 - nth (hi - 1) (distances w) 0)) with 1 by (field; lra).
    destruct (nth hi w (0, 0)); cbn [fst snd]. f_equal; ring.
Qed.
