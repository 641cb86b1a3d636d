(** C140: the walls of the predefined machines and the limit points on them. *)
From Coq Require Import String Ascii List Arith ZArith QArith Bool Reals Lra Lia.
From Verif Require Import Py Num Numpy Coils Machine Sensors SensorsProofs PropSensors Machines MachinesSpec MachinesProofs PropMachines PropMachinesMore.
Import ListNotations.
Local Open Scope R_scope.
Local Open Scope string_scope.
Local Open Scope list_scope.

(** Corner k of a wall, and the point at the fraction t of the side from corner k to corner k + 1 *)
Definition corner (w : list (R * R)) (k : nat) : R * R := nth k w (0, 0).
Definition along (w : list (R * R)) (k : nat) (t : R) : R * R :=
  (fst (corner w k) + t * (fst (corner w (S k)) - fst (corner w k)), snd (corner w k) + t * (snd (corner w (S k)) - snd (corner w k))).
(** The side from the last corner to the first that closes the polygon *)
Definition closing (w : list (R * R)) (t : R) : R * R :=
  (fst (last w (0, 0)) + t * (fst (corner w 0) - fst (last w (0, 0))), snd (last w (0, 0)) + t * (snd (corner w 0) - snd (last w (0, 0)))).
(** Walls made of an upper part and its image (machine.py 1376-1377, 2832-2833) are mirror symmetric. *)
Lemma combine_rev {A B} (l : list A) (k : list B) : List.length l = List.length k -> combine (rev l) (rev k) = rev (combine l k).
Proof.
  assert (App : forall (l1 l2 : list A) (k1 k2 : list B), List.length l1 = List.length k1 -> combine (l1 ++ l2) (k1 ++ k2) = combine l1 k1 ++ combine l2 k2).
  { induction l1 as [|a l1 IH]; intros l2 [|b k1] k2 E; try discriminate; [reflexivity|]. cbn. f_equal. apply IH. cbn in E. lia. }
  revert k. induction l as [|a l IH]; intros [|b k] E; try discriminate; [reflexivity|]. cbn [rev combine]. cbn in E.
  rewrite App, IH; [reflexivity|lia|]. rewrite !rev_length. lia.
Qed.
Definition mirrored (w : list (R * R)) : list (R * R) := map (fun p => (fst p, - snd p)) w.
Lemma mirrored_wall (r z : list R) : List.length r = List.length z ->
  let w := combine (r ++ rev r) (z ++ map nopp (rev z)) in rev (mirrored w) = w.
Proof.
  intros E w. assert (App : w = combine r z ++ mirrored (rev (combine r z))).
  { unfold w, mirrored. rewrite <- combine_rev by exact E.
    assert (H : forall (l1 l2 k1 k2 : list R), List.length l1 = List.length k1 -> combine (l1 ++ l2) (k1 ++ k2) = combine l1 k1 ++ combine l2 k2).
    { induction l1 as [|a l1 IH]; intros l2 [|b k1] k2 El; try discriminate; [reflexivity|]. cbn. f_equal. apply IH. cbn in El. lia. }
    rewrite H by exact E. f_equal. generalize (rev r), (rev z). clear. induction l as [|a l IH]; intros [|b k]; [reflexivity..|]. cbn. nR. f_equal. apply IH. }
  rewrite App. unfold mirrored. rewrite map_app, rev_app_distr, map_map. rewrite !map_rev, rev_involutive. f_equal.
  rewrite <- (map_id (combine r z)) at 2. apply map_ext. intros [a b]. cbn. rewrite Ropp_involutive. reflexivity.
Qed.
Theorem C140_mirror : rev (mirrored MASTU_simple_wall) = MASTU_simple_wall /\ rev (mirrored MASTU_wall) = MASTU_wall /\ MASTU_wall (T := R) = MASTU_simple_wall.
Proof.
  split; [apply mirrored_wall; reflexivity|]. split; [apply mirrored_wall; reflexivity|].
  unfold MASTU_wall, MASTU_simple_wall. f_equal.
Qed.
Print Assumptions C140_mirror.
Ltac decimals := rewrite ?dec_R;
  repeat match goal with |- context [(10 ^ Z.of_nat ?e)%Z] => let v := eval vm_compute in (10 ^ Z.of_nat e)%Z in change (10 ^ Z.of_nat e)%Z with v end.
(** FALSE: "the wall of MASTU is a simple polygon": two of its sides cross (near R = 0.906, Z = 1.879) ... *)
Theorem C140_crossing_refuted : exists w i j s t, tk_wall MASTU_simple = Some w /\ (S i < j)%nat /\ (S j < List.length w)%nat /\
  0 < s < 1 /\ 0 < t < 1 /\ along w i s = along w j t.
Proof.
  exists MASTU_simple_wall, 31%nat, 34%nat, (10343673/10343984), (4915137/5171992).
  split; [reflexivity|]. split; [lia|]. split; [vm_compute; lia|]. split; [lra|]. split; [lra|].
  unfold along. replace (corner MASTU_simple_wall 31) with (dec (T := R) 109 2, dec (T := R) 206 2) by reflexivity.
  replace (corner MASTU_simple_wall 32) with (dec (T := R) 90576 5, dec (T := R) 18786 4) by reflexivity.
  replace (corner MASTU_simple_wall 34) with (dec (T := R) 87889 5, dec (T := R) 19055 4) by reflexivity.
  replace (corner MASTU_simple_wall 35) with (dec (T := R) 90717 5, dec (T := R) 18772 4) by reflexivity.
  cbn [fst snd]. decimals. apply f_equal2; lra.
Qed.
Print Assumptions C140_crossing_refuted.
(** ... and two follow each other back along the same line. *)
Theorem C140_backtracking_refuted : exists w k t, tk_wall MASTU_simple = Some w /\ (S (S k) < List.length w)%nat /\
  corner w k <> corner w (S k) /\ 0 < t <= 1 /\ corner w k = along w (S k) t.
Proof.
  exists MASTU_simple_wall, 47%nat, (58 / 59). split; [reflexivity|]. split; [vm_compute; lia|]. unfold along.
  replace (corner MASTU_simple_wall 47) with (dec (T := R) 333 3, dec (T := R) 11 1) by reflexivity.
  replace (corner MASTU_simple_wall 48) with (dec (T := R) 275 3, dec (T := R) 11 1) by reflexivity.
  replace (corner MASTU_simple_wall 49) with (dec (T := R) 334 3, dec (T := R) 11 1) by reflexivity.
  cbn [fst snd]. split.
  - intros E. apply (f_equal fst) in E. cbn [fst] in E. revert E. decimals. lra.
  - split; [lra|]. decimals. apply f_equal2; lra.
Qed.
Print Assumptions C140_backtracking_refuted.

(** FALSE: "the limit points lie all round the wall": the polygon of MASTU_simple is closed by a side of 2 m at R = 1.6,
    and none of the limit points lies there. *)
Definition decpair (p : (BinNums.Z * nat) * (BinNums.Z * nat)) : R * R := (dec (fst (fst p)) (snd (fst p)), dec (fst (snd p)) (snd (snd p))).
Lemma combine_decs a b : combine (decs a) (decs b) = map decpair (combine a b).
Proof. revert b. induction a as [|x a IH]; intros [|y b]; [reflexivity..|]. cbn. f_equal. apply IH. Qed.
Lemma opp_decs l : map nopp (decs l) = decs (map (fun me => (- fst me, snd me)%Z) l).
Proof. unfold decs. rewrite !map_map. apply map_ext. intros me. cbn [fst snd]. rewrite dec_opp. nR. reflexivity. Qed.
Lemma mirrored_decs r z : combine (decs r ++ rev (decs r)) (decs z ++ map nopp (rev (decs z))) =
  map decpair (combine (r ++ rev r) (z ++ map (fun me => (- fst me, snd me)%Z) (rev z))).
Proof.
  rewrite <- combine_decs. unfold decs at 2 4. rewrite <- !map_rev. fold (decs (rev r)). fold (decs (rev z)). rewrite opp_decs. unfold decs. rewrite !map_app. reflexivity.
Qed.
(** A side with both ends at R < 1.6, both at Z >= 1 or both at Z <= -1, in integers *)
Definition side_ok (p q : (BinNums.Z * nat) * (BinNums.Z * nat)) : bool :=
  let left m := (10 * fst (fst m) <? 16 * 10 ^ Z.of_nat (snd (fst m)))%Z in
  let above m := (10 ^ Z.of_nat (snd (snd m)) <=? fst (snd m))%Z in
  let under m := (fst (snd m) <=? - 10 ^ Z.of_nat (snd (snd m)))%Z in
  (left p && left q || above p && above q || under p && under q)%bool.
Lemma side_ok_clear p q t : side_ok p q = true -> 0 <= t <= 1 ->
  fst (decpair p) + t * (fst (decpair q) - fst (decpair p)) = 16 / 10 ->
  -1 < snd (decpair p) + t * (snd (decpair q) - snd (decpair p)) < 1 -> False.
Proof.
  intros E Ht Er Ez. destruct p as [[m1 e1] [m2 e2]], q as [[m3 e3] [m4 e4]]. unfold side_ok, decpair in *. cbn [fst snd] in *.
  assert (P : forall e, 0 < IZR (10 ^ Z.of_nat e)) by (intros e; apply IZR_lt, Z.pow_pos_nonneg; lia).
  assert (A : forall m e, (10 * m <? 16 * 10 ^ Z.of_nat e)%Z = true -> dec m e < 16 / 10).
  { intros m e H. apply Z.ltb_lt, IZR_lt in H. rewrite !mult_IZR in H. rewrite dec_R. apply (Rmult_lt_reg_r (IZR (10 ^ Z.of_nat e))); [apply P|].
    unfold Rdiv. rewrite Rmult_assoc, Rinv_l, Rmult_1_r by (apply Rgt_not_eq, P). lra. }
  assert (B : forall m e, (10 ^ Z.of_nat e <=? m)%Z = true -> 1 <= dec m e).
  { intros m e H. apply Z.leb_le, IZR_le in H. rewrite dec_R. apply (Rmult_le_reg_r (IZR (10 ^ Z.of_nat e))); [apply P|].
    unfold Rdiv. rewrite Rmult_assoc, Rinv_l, Rmult_1_r by (apply Rgt_not_eq, P). lra. }
  assert (C : forall m e, (m <=? - 10 ^ Z.of_nat e)%Z = true -> dec m e <= -1).
  { intros m e H. apply Z.leb_le, IZR_le in H. rewrite opp_IZR in H. rewrite dec_R. apply (Rmult_le_reg_r (IZR (10 ^ Z.of_nat e))); [apply P|].
    unfold Rdiv. rewrite Rmult_assoc, Rinv_l, Rmult_1_r by (apply Rgt_not_eq, P). lra. }
  apply orb_prop in E. destruct E as [E|E]; [apply orb_prop in E; destruct E as [E|E]|]; apply andb_prop in E; destruct E as (E1 & E2).
  - apply A in E1, E2. destruct (Rle_dec t (1 / 2)).
    + assert (0 <= t * (16 / 10 - dec m3 e3)) by (apply Rmult_le_pos; lra). assert (0 < (1 - t) * (16 / 10 - dec m1 e1)) by (apply Rmult_lt_0_compat; lra). lra.
    + assert (0 < t * (16 / 10 - dec m3 e3)) by (apply Rmult_lt_0_compat; lra). assert (0 <= (1 - t) * (16 / 10 - dec m1 e1)) by (apply Rmult_le_pos; lra). lra.
  - apply B in E1, E2. nra.
  - apply C in E1, E2. nra.
Qed.
Lemma MASTU_side k t : (S k < List.length (MASTU_simple_wall (T := R)))%nat -> 0 <= t <= 1 ->
  fst (along MASTU_simple_wall k t) = 16 / 10 -> -1 < snd (along MASTU_simple_wall k t) < 1 -> False.
Proof.
  intros Hk Ht. unfold along, corner, MASTU_simple_wall in *.
  match goal with |- context [nth k (combine (?r ++ rev ?r) (?z ++ map nopp (rev ?z))) _] =>
    let r0 := eval unfold MASTU_simple_rwall in r in let r' := reify r0 in
    let z0 := eval unfold MASTU_simple_zwall in z in let z' := reify z0 in
    change r with (decs r') in *; change z with (decs z') in *; set (lr := r') in *; set (lz := z') in * end.
  rewrite mirrored_decs in *. set (l := combine _ _) in *. rewrite map_length in Hk.
  assert (F : forallb (fun k => side_ok (nth k l ((0%Z, 0%nat), (0%Z, 0%nat))) (nth (S k) l ((0%Z, 0%nat), (0%Z, 0%nat)))) (seq 0 (List.length l - 1)) = true) by (vm_compute; reflexivity).
  clearbody l. rewrite forallb_forall in F. assert (Hin : In k (seq 0 (List.length l - 1))) by (apply in_seq; lia).
  rewrite !(nth_indep (map decpair l) (0, 0) (decpair ((0%Z, 0%nat), (0%Z, 0%nat)))) by (rewrite map_length; lia). rewrite !map_nth.
  intros E1 E2. exact (side_ok_clear _ _ t (F k Hin) Ht E1 E2).
Qed.
Theorem C140_gap : forall n l p, generate_limit_points sqrt (MASTU_simple_wall (T := R)) n = Ok l -> In p l -> ~ (fst p = 16 / 10 /\ -1 < snd p < 1).
Proof.
  intros n l p E Hin (E1 & E2). destruct (C81_on_wall MASTU_simple_wall n) as (l' & E' & _ & H & _).
  - vm_compute. lia.
  - change (corner MASTU_simple_wall 0 <> corner MASTU_simple_wall 1).
    replace (corner MASTU_simple_wall 0) with (dec (T := R) 16 1, dec (T := R) 1 0) by reflexivity.
    replace (corner MASTU_simple_wall 1) with (dec (T := R) 12503 4, dec (T := R) 1 0) by reflexivity.
    intros N. apply (f_equal fst) in N. cbn [fst] in N. revert N. decimals. lra.
  - rewrite E in E'. apply ok_inj in E'. subst l'. destruct (H p Hin) as (k & t & Hk & Ht & ->).
    exact (MASTU_side k t Hk Ht E1 E2).
Qed.
Print Assumptions C140_gap.
Theorem C140_gap_refuted : exists tk w, predefined tk /\ tk_wall tk = Some w /\
  (forall t, closing w t = (16 / 10, -1 + 2 * t)) /\
  forall n l t, generate_limit_points sqrt w n = Ok l -> 0 < t < 1 -> ~ In (closing w t) l.
Proof.
  exists MASTU_simple, MASTU_simple_wall. split; [apply pre_MASTU_simple|]. split; [reflexivity|].
  assert (C : forall t, closing MASTU_simple_wall t = (16 / 10, -1 + 2 * t)).
  { intros t. unfold closing. replace (corner MASTU_simple_wall 0) with (dec (T := R) 16 1, dec (T := R) 1 0) by reflexivity.
    replace (last MASTU_simple_wall (0, 0)) with (dec (T := R) 16 1, nopp (dec (T := R) 1 0)) by reflexivity.
    cbn [fst snd]. nR. decimals. apply f_equal2; lra. }
  split; [exact C|]. intros n l t E Ht Hin. apply (C140_gap n l _ E Hin). rewrite C. cbn [fst snd]. lra.
Qed.
Print Assumptions C140_gap_refuted.
Example C140_gap_example : exists l, generate_limit_points sqrt (MASTU_simple_wall (T := R)) 500 = Ok l /\ List.length l = 500%nat.
Proof.
  destruct (C81_on_wall MASTU_simple_wall 500) as (l & E & Hl & _).
  - vm_compute. lia.
  - change (corner MASTU_simple_wall 0 <> corner MASTU_simple_wall 1).
    replace (corner MASTU_simple_wall 0) with (dec (T := R) 16 1, dec (T := R) 1 0) by reflexivity.
    replace (corner MASTU_simple_wall 1) with (dec (T := R) 12503 4, dec (T := R) 1 0) by reflexivity.
    intros N. apply (f_equal fst) in N. cbn [fst] in N. revert N. decimals. lra.
  - exists l. split; assumption.
Qed.
