(** Lemmas about the loop integral for the safety factor. *)
From Coq Require Import List Arith ZArith Bool Reals Lia Lra.
From Verif Require Import Py Num Numpy RombProofs ControlProofs Safety SafetySpec.
Import ListNotations.
Local Open Scope R_scope.

(** ** Cyclic sums *)
Lemma nsum_shift1 n (h : nat -> R) : (forall k, h (k + n)%nat = h k) -> nsum n (fun j => h (j + 1)%nat) = nsum n h.
Proof.
  intros Hp. assert (E := nsum_head n h). rewrite nsum_S in E.
  assert (E0 := Hp 0%nat). cbn [Nat.add] in E0. rewrite (nsum_ext n (fun j => h (j + 1)%nat) (fun i => h (S i))) by (intros; f_equal; lia). lra.
Qed.
Lemma nsum_shift n a (h : nat -> R) : (forall k, h (k + n)%nat = h k) -> nsum n (fun j => h (j + a)%nat) = nsum n h.
Proof.
  revert h. induction a as [|a IH]; intros h Hp.
  - apply nsum_ext. intros i _. f_equal. lia.
  - rewrite <- (nsum_shift1 n h Hp). rewrite <- (IH (fun j => h (j + 1)%nat)).
    + apply nsum_ext. intros i _. f_equal. lia.
    + intros k. rewrite <- (Hp (k + 1)%nat). f_equal. lia.
Qed.
Definition cyc (l : list (R * R)) (k : nat) : R * R := nth (k mod length l) l (0, 0).
Lemma cyc_period l k : cyc l (k + length l) = cyc l k.
Proof.
  unfold cyc. destruct l as [|a l]; [cbn; destruct (k + 0)%nat; destruct k; reflexivity|]. set (n := length (a :: l)). f_equal.
  replace (k + n)%nat with (k + 1 * n)%nat by lia. apply Nat.mod_add. unfold n. cbn. lia.
Qed.
Lemma cyc_small l k : (k < length l)%nat -> cyc l k = nth k l (0, 0).
Proof. intros Hk. unfold cyc. rewrite Nat.mod_small by exact Hk. reflexivity. Qed.
Lemma cyc_rotate l1 l2 k : cyc (l2 ++ l1) k = cyc (l1 ++ l2) (k + length l1).
Proof.
  destruct (length (l1 ++ l2)) as [|n] eqn:En.
  - rewrite app_length in En. destruct l1; [|discriminate]. destruct l2; [|discriminate]. unfold cyc. cbn. destruct k; reflexivity.
  - unfold cyc. rewrite app_length, Nat.add_comm, <- app_length, En. assert (H0 : S n <> 0%nat) by lia.
    rewrite Nat.add_mod by lia. assert (Hl : (length l1 + length l2 = S n)%nat) by (rewrite <- app_length; exact En).
    set (m := (k mod S n)%nat). assert (Hm : (m < S n)%nat) by (apply Nat.mod_upper_bound; lia).
    destruct (Nat.eq_dec (length l1) (S n)) as [E1|E1].
    + rewrite E1, Nat.mod_same, Nat.add_0_r, Nat.mod_small by lia. assert (l2 = []) by (destruct l2; [reflexivity|cbn in Hl; lia]). subst. rewrite app_nil_r. reflexivity.
    + rewrite (Nat.mod_small (length l1)) by lia. destruct (Nat.lt_ge_cases m (length l2)) as [Hm2|Hm2].
      * rewrite Nat.mod_small by lia. rewrite app_nth1 by exact Hm2. rewrite app_nth2 by lia. f_equal. lia.
      * replace (m + length l1)%nat with ((m - length l2) + 1 * S n)%nat by lia. rewrite Nat.mod_add, Nat.mod_small by lia.
        rewrite app_nth2 by lia. rewrite app_nth1 by lia. reflexivity.
Qed.

(** ** The integrand in cyclic form *)
Section Q.
  Variables (Br Bz : R -> R -> R) (f : R).
  Local Notation dist := distance.
  Definition weightq (a : R * R) : R := f / (fst a * fst a * R_sqrt.sqrt (Br (fst a) (snd a) ^ 2 + Bz (fst a) (snd a) ^ 2)).
  Lemma half_dist a b : R_sqrt.sqrt (((fst a - fst b) / 2) * ((fst a - fst b) / 2) + ((snd a - snd b) / 2) * ((snd a - snd b) / 2)) = dist a b / 2.
  Proof.
    unfold distance. replace ((fst a - fst b) / 2 * ((fst a - fst b) / 2) + (snd a - snd b) / 2 * ((snd a - snd b) / 2))
      with (((fst a - fst b) ^ 2 + (snd a - snd b) ^ 2) * (/ 2 * / 2)) by field.
    rewrite sqrt_mult; [|assert (H1 := pow2_ge_0 (fst a - fst b)); assert (H2 := pow2_ge_0 (snd a - snd b)); lra|lra].
    rewrite sqrt_square by lra. reflexivity.
  Qed.
  Lemma dist_sym a b : dist a b = dist b a.
  Proof. unfold distance. f_equal. ring. Qed.
  Definition hq (l : list (R * R)) (j : nat) : R := weightq (cyc l j) * (dist (cyc l (j + length l - 1)) (cyc l (j + 1)) / 2).
  Lemma q_cyc pi l : q_integral pi R_sqrt.sqrt Br Bz f l = nsum (length l) (hq l) / (2 * pi).
  Proof.
    unfold q_integral. nR. f_equal. apply nsum_ext. intros j Hj. unfold hq. rewrite (cyc_small l j Hj). unfold weightq, dl, roll_prev, roll_next. nR.
    rewrite half_dist. fold (cyc l (j + length l - 1)) (cyc l (j + 1)). destruct (nth j l (0, 0)) as [r z]. cbn [fst snd].
    replace (Br r z ^ 2) with (Br r z * Br r z) by ring. replace (Bz r z ^ 2) with (Bz r z * Bz r z) by ring. reflexivity.
  Qed.
  Lemma hq_period l k : l <> [] -> hq l (k + length l) = hq l k.
  Proof.
    intros Hl. assert (Hn : (0 < length l)%nat) by (destruct l; [congruence|cbn; lia]). unfold hq.
    replace (k + length l + length l - 1)%nat with ((k + length l - 1) + length l)%nat by lia.
    replace (k + length l + 1)%nat with (k + 1 + length l)%nat by lia. rewrite !cyc_period. reflexivity.
  Qed.
  Lemma q_rotate pi l1 l2 : q_integral pi R_sqrt.sqrt Br Bz f (l2 ++ l1) = q_integral pi R_sqrt.sqrt Br Bz f (l1 ++ l2).
  Proof.
    rewrite !q_cyc. f_equal. replace (length (l2 ++ l1)) with (length (l1 ++ l2)) by (rewrite !app_length; lia).
    destruct (l1 ++ l2) as [|p l] eqn:E; [reflexivity|]. rewrite <- E. assert (Hne : l1 ++ l2 <> []) by (rewrite E; discriminate).
    rewrite <- (nsum_shift _ (length l1) (hq (l1 ++ l2))) by (intros k; apply hq_period; exact Hne).
    assert (Hn : (0 < length (l1 ++ l2))%nat) by (rewrite E; cbn; lia).
    apply nsum_ext. intros j Hj. unfold hq. rewrite !(cyc_rotate l1 l2). f_equal.
    replace (length (l2 ++ l1)) with (length (l1 ++ l2)) by (rewrite !app_length; lia).
    replace (j + length (l1 ++ l2) - 1 + length l1)%nat with (j + length l1 + length (l1 ++ l2) - 1)%nat by lia.
    replace (j + 1 + length l1)%nat with (j + length l1 + 1)%nat by lia. reflexivity.
  Qed.
  Lemma cyc_rev l k : (0 < length l)%nat -> (k <= 2 * length l - 1)%nat -> cyc (rev l) k = cyc l (2 * length l - 1 - k).
  Proof.
    intros Hn Hk. unfold cyc. rewrite rev_length. set (n := length l) in *.
    destruct (Nat.lt_ge_cases k n) as [H|H].
    - rewrite Nat.mod_small by exact H. rewrite rev_nth by exact H. fold n. f_equal.
      replace (2 * n - 1 - k)%nat with ((n - S k) + 1 * n)%nat by lia. rewrite Nat.mod_add by lia. rewrite Nat.mod_small; lia.
    - replace k with ((k - n) + 1 * n)%nat at 1 by lia. rewrite Nat.mod_add by lia. rewrite Nat.mod_small by lia. rewrite rev_nth by (fold n; lia). fold n.
      rewrite Nat.mod_small by lia. f_equal. lia.
  Qed.
  Lemma q_reverse pi l : q_integral pi R_sqrt.sqrt Br Bz f (rev l) = q_integral pi R_sqrt.sqrt Br Bz f l.
  Proof.
    rewrite !q_cyc, rev_length. f_equal. destruct l as [|a l']; [reflexivity|]. set (l := a :: l'). assert (Hn : (0 < length l)%nat) by (cbn; lia). clearbody l.
    rewrite <- (nsum_rev (length l) (hq l)). apply nsum_ext. intros j Hj. unfold hq. rewrite rev_length.
    rewrite (cyc_rev l j) by lia. f_equal.
    - f_equal. replace (2 * length l - 1 - j)%nat with ((length l - 1 - j) + length l)%nat by lia. apply cyc_period.
    - f_equal. rewrite dist_sym. f_equal.
      + rewrite cyc_rev by lia. f_equal. lia.
      + rewrite cyc_rev by lia. replace (length l - 1 - j + 1)%nat with (2 * length l - 1 - (j + length l - 1))%nat by lia. reflexivity.
  Qed.
End Q.
Local Notation dist := distance.
Lemma dist_nonneg a b : 0 <= dist a b.
Proof. apply sqrt_pos. Qed.
Lemma dist_triangle a b c : dist a c <= dist a b + dist b c.
Proof.
  unfold distance. assert (H := triangle (fst a) (snd a) (fst c) (snd c) (fst b) (snd b)). unfold dist_euc in H.
  replace ((fst a - fst c) ^ 2) with (Rsqr (fst a - fst c)) by (unfold Rsqr; ring). replace ((snd a - snd c) ^ 2) with (Rsqr (snd a - snd c)) by (unfold Rsqr; ring).
  replace ((fst a - fst b) ^ 2) with (Rsqr (fst a - fst b)) by (unfold Rsqr; ring). replace ((snd a - snd b) ^ 2) with (Rsqr (snd a - snd b)) by (unfold Rsqr; ring).
  replace ((fst b - fst c) ^ 2) with (Rsqr (fst b - fst c)) by (unfold Rsqr; ring). replace ((snd b - snd c) ^ 2) with (Rsqr (snd b - snd c)) by (unfold Rsqr; ring).
  exact H.
Qed.

Lemma path_nth l : path_length l = nsum (length l - 1) (fun j => dist (nth j l (0, 0)) (nth (S j) l (0, 0))).
Proof.
  induction l as [|a l IH]; [reflexivity|]. destruct l as [|b l]; [reflexivity|].
  cbn [path_length length] in *. rewrite IH. replace (S (S (length l)) - 1)%nat with (S (S (length l) - 1)) by lia.
  rewrite nsum_head. cbn [nth]. reflexivity.
Qed.
Lemma polygon_cyc l : polygon_length l = nsum (length l) (fun j => dist (cyc l j) (cyc l (j + 1))).
Proof.
  destruct l as [|a l]; [reflexivity|]. unfold polygon_length. rewrite path_nth, app_length. cbn [length].
  replace (S (length l) + 1 - 1)%nat with (S (length l)) by lia. apply nsum_ext. intros j Hj.
  rewrite (cyc_small (a :: l) j) by (cbn; lia). rewrite (app_nth1 (a :: l)) by (cbn; lia). f_equal.
  destruct (Nat.eq_dec j (length l)) as [->|Hj2].
  - rewrite app_nth2 by (cbn; lia). cbn [length]. rewrite Nat.sub_diag. cbn [nth]. unfold cyc. cbn [length].
    replace (length l + 1)%nat with (S (length l)) by lia. rewrite Nat.mod_same by lia. reflexivity.
  - rewrite (app_nth1 (a :: l)) by (cbn; lia). replace (j + 1)%nat with (S j) by lia. rewrite cyc_small by (cbn; lia). reflexivity.
Qed.
Lemma dl_cyc l j : dl R_sqrt.sqrt l j = dist (cyc l (j + length l - 1)) (cyc l (j + 1)) / 2.
Proof. unfold dl, roll_prev, roll_next. nR. rewrite half_dist. reflexivity. Qed.
Lemma dl_sum l : nsum (length l) (dl R_sqrt.sqrt l) <= polygon_length l.
Proof.
  rewrite polygon_cyc. destruct (Nat.eq_dec (length l) 0) as [E0|E0]; [rewrite E0; cbn; lra|].
  assert (Hne : l <> []) by (intros ->; apply E0; reflexivity).
  set (d := fun j => dist (cyc l j) (cyc l (j + 1))).
  assert (Hp : forall k, d (k + length l)%nat = d k).
  { intros k. unfold d. replace (k + length l + 1)%nat with (k + 1 + length l)%nat by lia. rewrite !cyc_period. reflexivity. }
  assert (E : nsum (length l) (fun j => d (j + (length l - 1))%nat) = nsum (length l) d) by (apply nsum_shift; exact Hp).
  assert (L : nsum (length l) (dl R_sqrt.sqrt l) <= nsum (length l) (fun j => / 2 * d (j + (length l - 1))%nat + / 2 * d j)).
  { clear E. assert (G : forall n, nsum n (dl R_sqrt.sqrt l) <= nsum n (fun j => / 2 * d (j + (length l - 1))%nat + / 2 * d j)).
    { induction n as [|n IH]; [cbn; lra|]. rewrite !nsum_S. apply Rplus_le_compat; [exact IH|]. rewrite dl_cyc. unfold d.
      replace (n + (length l - 1))%nat with (n + length l - 1)%nat by lia.
      replace (n + length l - 1 + 1)%nat with (n + length l)%nat by lia. rewrite cyc_period.
      assert (T := dist_triangle (cyc l (n + length l - 1)) (cyc l n) (cyc l (n + 1))). lra. }
    apply G. }
  rewrite nsum_add in L. rewrite !nsum_scal in L. rewrite E in L. lra.
Qed.

(** ** Points on a circle *)
Lemma circle_length n r0 z0 a t0 : length (circle n r0 z0 a t0) = n.
Proof. unfold circle. rewrite map_length, seq_length. reflexivity. Qed.
Lemma circle_nth n r0 z0 a t0 k : (k < n)%nat ->
  nth k (circle n r0 z0 a t0) (0, 0) = (r0 + a * sin (t0 + 2 * PI * INR k / INR n), z0 + a * cos (t0 + 2 * PI * INR k / INR n)).
Proof.
  intros Hk. unfold circle. rewrite (nth_indep _ (0, 0) ((fun k => (r0 + a * sin (t0 + 2 * PI * INR k / INR n), z0 + a * cos (t0 + 2 * PI * INR k / INR n))) 0%nat)) by (rewrite map_length, seq_length; exact Hk).
  rewrite (map_nth (fun k => (r0 + a * sin (t0 + 2 * PI * INR k / INR n), z0 + a * cos (t0 + 2 * PI * INR k / INR n)))). rewrite seq_nth by exact Hk. reflexivity.
Qed.
Lemma circle_cyc n r0 z0 a t0 k : (0 < n)%nat ->
  cyc (circle n r0 z0 a t0) k = (r0 + a * sin (t0 + 2 * PI * INR k / INR n), z0 + a * cos (t0 + 2 * PI * INR k / INR n)).
Proof.
  intros Hn. assert (Hn' : 0 < INR n) by (apply lt_0_INR; exact Hn). unfold cyc. rewrite circle_length, circle_nth by (apply Nat.mod_upper_bound; lia).
  assert (E : t0 + 2 * PI * INR k / INR n = (t0 + 2 * PI * INR (k mod n) / INR n) + 2 * INR (k / n) * PI).
  { rewrite (Nat.div_mod k n) at 1 by lia. rewrite plus_INR, mult_INR. field. lra. }
  rewrite E, sin_period, cos_period. reflexivity.
Qed.
Lemma chord r0 z0 a t h : 0 <= a ->
  dist (r0 + a * sin (t - h), z0 + a * cos (t - h)) (r0 + a * sin (t + h), z0 + a * cos (t + h)) = 2 * a * Rabs (sin h).
Proof.
  intros Ha. unfold distance. cbn [fst snd]. rewrite !sin_plus, !cos_plus, !sin_minus, !cos_minus.
  match goal with |- R_sqrt.sqrt ?X = _ => replace X with ((2 * a * sin h) ^ 2 * ((sin t) ^ 2 + (cos t) ^ 2)) by ring end.
  assert (E := sin2_cos2 t). unfold Rsqr in E. replace ((sin t) ^ 2 + (cos t) ^ 2) with 1 by (rewrite <- E; ring).
  rewrite Rmult_1_r. replace ((2 * a * sin h) ^ 2) with (Rsqr (2 * a * sin h)) by (unfold Rsqr; ring). rewrite sqrt_Rsqr_abs.
  rewrite Rabs_mult. rewrite (Rabs_pos_eq (2 * a)) by lra. reflexivity.
Qed.
Lemma circle_dl n r0 z0 a t0 j : (0 < n)%nat -> 0 <= a -> dl R_sqrt.sqrt (circle n r0 z0 a t0) j = a * Rabs (sin (2 * PI / INR n)).
Proof.
  intros Hn Ha. rewrite dl_cyc, circle_length, !circle_cyc by exact Hn. assert (Hn' : 0 < INR n) by (apply lt_0_INR; exact Hn).
  set (h := 2 * PI / INR n). set (t := t0 + h * INR j).
  assert (E1 : t0 + 2 * PI * INR (j + 1) / INR n = t + h) by (unfold t, h; rewrite plus_INR; change (INR 1) with 1; field; lra).
  assert (E2 : sin (t0 + 2 * PI * INR (j + n - 1) / INR n) = sin (t - h) /\ cos (t0 + 2 * PI * INR (j + n - 1) / INR n) = cos (t - h)).
  { assert (E : t0 + 2 * PI * INR (j + n - 1) / INR n = (t - h) + 2 * INR 1 * PI).
    { unfold t, h. rewrite minus_INR by lia. rewrite plus_INR. change (INR 1) with 1. field. lra. }
    rewrite E, sin_period, cos_period. split; reflexivity. }
  destruct E2 as (-> & ->). rewrite E1, chord by exact Ha. field.
Qed.
Lemma sin_third x : 0 <= x <= 4 -> x - x ^ 3 / 6 <= sin x.
Proof.
  intros Hx. destruct (pre_sin_bound x 0 ltac:(lra) ltac:(lra)) as (H & _).
  unfold sin_approx, sin_term in H. cbn [sum_f_R0 Nat.mul Nat.add fact] in H. replace (INR 1) with 1 in H by reflexivity. replace (INR 6) with 6 in H by (cbn; ring).
  cbn [pow] in H. replace (INR (3 * 2 * 1)) with 6 in H by (cbn; ring). 
  eapply Rle_trans; [|exact H]. right. cbn. field.
Qed.

(** ** Toroidal flux *)
Definition grid101 (a b : R) : list R := linspace_list a b 101.
Lemma grid101_length a b : length (grid101 a b) = 101%nat.
Proof. unfold grid101, linspace_list. rewrite map_length, seq_length. reflexivity. Qed.
Lemma grid101_step a b k : (S k < 101)%nat -> nth (S k) (grid101 a b) 0 - nth k (grid101 a b) 0 = (b - a) / 100.
Proof.
  intros Hk. assert (N : forall i, (i < 101)%nat -> nth i (grid101 a b) 0 = a + INR i * ((b - a) / 100)).
  { intros i Hi. unfold grid101, linspace_list. rewrite (nth_indep _ 0 (linspace a b 101 0)) by (rewrite map_length, seq_length; exact Hi).
    rewrite map_nth, seq_nth by exact Hi. cbn [Nat.add]. unfold linspace. nR. rewrite INR_IZR_INZ. reflexivity. }
  rewrite !N by lia. rewrite S_INR. field.
Qed.
Definition tors (qv l : list R) : list R := map (fun v => v * (- (1) / (2 * PI))) (cumtrapz qv l).
Lemma tors_length qv l : length (tors qv l) = length l.
Proof. unfold tors, cumtrapz. rewrite !map_length, seq_length. reflexivity. Qed.
Lemma tors_nth qv l k : (k < length l)%nat ->
  nth k (tors qv l) 0 = - nsum k (fun i => (nth (S i) l 0 - nth i l 0) * (nth (S i) qv 0 + nth i qv 0) / 2) / (2 * PI).
Proof.
  intros Hk. unfold tors. rewrite (nth_indep _ 0 (0 * (- (1) / (2 * PI)))) by (unfold cumtrapz; rewrite !map_length, seq_length; exact Hk).
  rewrite (map_nth (fun v => v * (- (1) / (2 * PI)))). unfold cumtrapz.
  set (F := fun k : nat => nsum k _). rewrite (nth_indep _ 0 (F 0%nat)) by (rewrite map_length, seq_length; exact Hk). rewrite map_nth, seq_nth by exact Hk. cbn [Nat.add].
  unfold F. nR. unfold Rdiv. ring.
Qed.
Lemma tors_step qv l k : (S k < length l)%nat ->
  nth (S k) (tors qv l) 0 - nth k (tors qv l) 0 = - ((nth (S k) l 0 - nth k l 0) * (nth (S k) qv 0 + nth k qv 0)) / (4 * PI).
Proof. intros Hk. rewrite !tors_nth by lia. rewrite nsum_S. assert (H := PI_RGT_0). field. lra. Qed.
Lemma tor_flux_inv safety interp1d pa pb l npsi t : tor_flux PI safety interp1d pa pb (AArray l) npsi = Ok t ->
  exists qv, eq_q safety interp1d (AArray (map (fun x => (x - pa) / (pb - pa)) l)) npsi = Ok (RArray qv) /\ t = tors qv l.
Proof.
  intros E. cbn [tor_flux] in E. nR. destruct (eq_q _ _ _ _) as [[p q|q|q]|] eqn:Eq; cbn [bind] in E; try discriminate.
  exists q. split; [reflexivity|]. injection E as <-. reflexivity.
Qed.
Lemma tor_flux_ok safety interp1d pa pb l npsi qv :
  eq_q safety interp1d (AArray (map (fun x => (x - pa) / (pb - pa)) l)) npsi = Ok (RArray qv) ->
  tor_flux PI safety interp1d pa pb (AArray l) npsi = Ok (tors qv l).
Proof. intros E. cbn [tor_flux]. nR. unfold eq_q in *. rewrite E. reflexivity. Qed.
Lemma fold_max (l : list R) : forall a, a <= fold_left nmax l a /\ (forall x, In x l -> x <= fold_left nmax l a) /\ (fold_left nmax l a = a \/ In (fold_left nmax l a) l).
Proof.
  induction l as [|b l IH]; intros a; cbn [fold_left].
  - split; [lra|]. split; [intros x []|]. left. reflexivity.
  - destruct (IH (nmax a b)) as (H1 & H2 & H3). rewrite nmax_R in *. assert (La := Rmax_l a b). assert (Lb := Rmax_r a b). split; [lra|]. split.
    + intros x [<-|Hx]; [lra|]. apply H2. exact Hx.
    + destruct H3 as [H3|H3]; [|right; right; exact H3]. rewrite H3. unfold Rmax. destruct (Rle_dec a b); [right; left; reflexivity|left; reflexivity].
Qed.
Lemma step_ascending (l : list R) : (forall k, (S k < length l)%nat -> nth k l 0 < nth (S k) l 0) -> ascending l.
Proof.
  intros Hs i j Hij. induction Hij as [|j Hij IH]; intros Hj; [apply Hs; exact Hj|].
  apply Rlt_trans with (nth j l 0); [apply IH; lia|apply Hs; exact Hj].
Qed.
Lemma ascending_max (l : list R) a : ascending (a :: l) -> fold_left nmax l a = nth (length l) (a :: l) 0.
Proof.
  intros Ha. destruct (fold_max l a) as (H1 & H2 & H3). assert (Hin : In (nth (length l) (a :: l) 0) (a :: l)) by (apply nth_In; cbn; lia).
  assert (Hge : nth (length l) (a :: l) 0 <= fold_left nmax l a) by (destruct Hin as [<-|Hin]; [exact H1|apply H2; exact Hin]).
  assert (Hm : In (fold_left nmax l a) (a :: l)) by (destruct H3 as [->|H3]; [left; reflexivity|right; exact H3]).
  destruct (In_nth _ _ 0 Hm) as (k & Hk & E). destruct (Nat.eq_dec k (length l)) as [->|Hne]; [symmetry; exact E|].
  assert (L : nth k (a :: l) 0 < nth (length l) (a :: l) 0) by (apply Ha; cbn in *; lia). lra.
Qed.
