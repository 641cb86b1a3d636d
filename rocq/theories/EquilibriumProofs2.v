(** Lemmas about the search for the plasma boundary. *)
From Coq Require Import String List Arith ZArith Bool Reals Lia Lra.
From Verif Require Import Py Num Numpy Coils Machine Romb
  Critical CriticalSpec CriticalProofs CriticalProofs2 CriticalProofs3 Boundary BoundarySpec BoundaryProofs Jtor Equilibrium EquilibriumSpec EquilibriumProofs GSSpec.
Import ListNotations.
Local Open Scope R_scope.

(** ** numpy.argmax *)
Lemma argmax_from_spec (l : list R) : forall pre best v, (best < length pre)%nat -> nth best pre 0 = v -> (forall k, (k < length pre)%nat -> nth k pre 0 <= v) ->
  let k := argmax_from l (length pre) best v in
  (k < length (pre ++ l))%nat /\ forall i, (i < length (pre ++ l))%nat -> nth i (pre ++ l) 0 <= nth k (pre ++ l) 0.
Proof.
  induction l as [|x l IH]; intros pre best v Hb Hv Hm; cbn [argmax_from].
  - rewrite app_nil_r. cbv zeta. split; [exact Hb|]. intros i Hi. rewrite Hv. apply Hm. exact Hi.
  - replace (pre ++ x :: l) with ((pre ++ [x]) ++ l) by (rewrite <- app_assoc; reflexivity).
    assert (EL : length (pre ++ [x]) = S (length pre)) by (rewrite app_length; cbn; lia).
    change (@nltb R Num_R) with R_ltb. destruct (R_ltb v x) eqn:E; rcmp.
    + assert (H := IH (pre ++ [x]) (length pre) x). rewrite EL in H. apply H; clear H.
      * lia.
      * rewrite app_nth2, Nat.sub_diag by lia. reflexivity.
      * intros k Hk. destruct (Nat.eq_dec k (length pre)) as [ -> | Hne].
        -- rewrite app_nth2, Nat.sub_diag by lia. cbn. lra.
        -- rewrite app_nth1 by lia. specialize (Hm k ltac:(lia)). lra.
    + assert (H := IH (pre ++ [x]) best v). rewrite EL in H. apply H; clear H.
      * lia.
      * rewrite app_nth1 by lia. exact Hv.
      * intros k Hk. destruct (Nat.eq_dec k (length pre)) as [ -> | Hne].
        -- rewrite app_nth2, Nat.sub_diag by lia. cbn. lra.
        -- rewrite app_nth1 by lia. apply Hm. lia.
Qed.
Lemma argmax_spec (l : list R) : match argmax l with
  | None => l = []
  | Some k => (k < length l)%nat /\ forall i, (i < length l)%nat -> nth i l 0 <= nth k l 0 end.
Proof.
  destruct l as [|x l]; [reflexivity|]. cbn [argmax].
  apply (argmax_from_spec l [x] 0 x); cbn; [lia|reflexivity|].
  intros k Hk. destruct k; [cbn; lra|lia].
Qed.

(** ** A bowl-shaped flux map has one O-point *)
Lemma foldM_single {S A} (f : S -> A -> result S) a : forall l s, NoDup l -> In a l -> (forall s b, In b l -> b <> a -> f s b = Ok s) ->
  foldM f l s = f s a.
Proof.
  induction l as [|b l IH]; intros s Hn Hi Hf; [destruct Hi|]. inversion_clear Hn. cbn [foldM].
  destruct Hi as [ -> | Hi].
  - destruct (f s a) as [s'|]; [|reflexivity]. cbn [bind].
    assert (H' : forall l', (forall b, In b l' -> In b l) -> forall s, foldM f l' s = Ok s).
    { induction l' as [|c l' IH']; intros Hl t; [reflexivity|]. cbn [foldM]. rewrite Hf; [|right; apply Hl; left; reflexivity|].
      - cbn [bind]. apply IH'. intros d Hd. apply Hl. right. exact Hd.
      - intros ->. apply H. apply Hl. left. reflexivity. }
    apply H'. auto.
  - rewrite Hf; [|left; reflexivity|intros ->; contradiction]. cbn [bind]. apply IH; [assumption|exact Hi|]. intros t c Hc. apply Hf. right. exact Hc.
Qed.
Lemma foldM_none {S A} (f : S -> A -> result S) : forall l s, (forall s b, In b l -> f s b = Ok s) -> foldM f l s = Ok s.
Proof.
  induction l as [|b l IH]; intros s Hf; cbn [foldM]; [reflexivity|]. rewrite Hf by (left; reflexivity). cbn [bind]. apply IH.
  intros t c Hc. apply Hf. right. exact Hc.
Qed.

Section Bowl.
  Variables (nx ny : nat) (r z : nat -> R) (psi : nat -> nat -> R) (f : nat -> nat -> R -> R -> R) (a b p0 : R) (i0 j0 : nat).
  Hypothesis Hi0 : (2 <= i0 /\ i0 + 2 < nx)%nat.
  Hypothesis Hj0 : (2 <= j0 /\ j0 + 2 < ny)%nat.
  Hypothesis Hab : 0 < a * b.
  Hypothesis Hr : increasing_on nx r.
  Hypothesis Hz : increasing_on ny z.
  Hypothesis Hr0 : 0 < r 0%nat.
  Hypothesis H10 : forall i j, (i < nx)%nat -> (j < ny)%nat -> f 1%nat 0%nat (r i) (z j) = 2 * a * (r i - r i0).
  Hypothesis H01 : forall i j, (i < nx)%nat -> (j < ny)%nat -> f 0%nat 1%nat (r i) (z j) = 2 * b * (z j - z j0).
  Hypothesis H00 : f 0%nat 0%nat (r i0) (z j0) = p0.
  Hypothesis Hpsi : forall i j, (i < nx)%nat -> (j < ny)%nat -> psi i j = p0 + a * (r i - r i0) ^ 2 + b * (z j - z j0) ^ 2.
  Let gR := fun i (_ : nat) => r i.
  Let gZ := fun (_ : nat) j => z j.

  Lemma inc_lt n (x : nat -> R) : increasing_on n x -> forall i j, (i < j)%nat -> (j < n)%nat -> x i < x j.
  Proof.
    intros H i j. induction j as [|j IH]; intros Hij Hj; [lia|]. destruct (Nat.eq_dec i j) as [ -> |]; [apply H; lia|].
    apply Rlt_trans with (x j); [apply IH; lia|apply H; lia].
  Qed.
  Lemma r_pos i : (i < nx)%nat -> 0 < r i.
  Proof. intros Hi. destruct i; [exact Hr0|]. assert (H := inc_lt nx r Hr 0 (S i) ltac:(lia) Hi). lra. Qed.

  Lemma bowl_Bp2 i j : (i < nx)%nat -> (j < ny)%nat ->
    Bp2 gR gZ f i j = (4 * a ^ 2 * (r i - r i0) ^ 2 + 4 * b ^ 2 * (z j - z j0) ^ 2) / r i ^ 2.
  Proof. intros Hi Hj. unfold Bp2, gR, gZ. nR. rewrite H10, H01 by assumption. assert (H := r_pos i Hi). field. lra. Qed.

  Lemma ab_nz : 0 < a ^ 2 /\ 0 < b ^ 2.
  Proof.
    assert (Ha : a <> 0) by (intros ->; rewrite Rmult_0_l in Hab; lra). assert (Hb : b <> 0) by (intros ->; rewrite Rmult_0_r in Hab; lra).
    split; rewrite <- Rsqr_pow2; apply Rsqr_pos_lt; assumption.
  Qed.

  (** one step towards the centre in Z lowers the field *)
  Lemma bowl_z i j j' : (i < nx)%nat -> (j < ny)%nat -> (j' < ny)%nat -> (z j' - z j0) ^ 2 < (z j - z j0) ^ 2 -> Bp2 gR gZ f i j' < Bp2 gR gZ f i j.
  Proof.
    intros Hi Hj Hj' Hlt. rewrite !bowl_Bp2 by assumption. assert (Hp := r_pos i Hi). destruct ab_nz as (Ha & Hb).
    unfold Rdiv. apply Rmult_lt_compat_r; [apply Rinv_0_lt_compat; apply pow_lt; lra|].
    assert (b ^ 2 * (z j' - z j0) ^ 2 < b ^ 2 * (z j - z j0) ^ 2) by (apply Rmult_lt_compat_l; assumption). lra.
  Qed.
  (** and, at the height of the centre, in R *)
  Lemma bowl_r i i' : (i < nx)%nat -> (i' < nx)%nat -> ((i0 <= i' /\ i' < i) \/ (i < i' /\ i' <= i0))%nat -> Bp2 gR gZ f i' j0 < Bp2 gR gZ f i j0.
  Proof.
    intros Hi Hi' Hor. rewrite !bowl_Bp2 by lia. assert (Hp := r_pos i Hi). assert (Hp' := r_pos i' Hi'). assert (Hp0 := r_pos i0 ltac:(lia)). destruct ab_nz as (Ha & Hb).
    replace ((4 * a ^ 2 * (r i' - r i0) ^ 2 + 4 * b ^ 2 * (z j0 - z j0) ^ 2) / r i' ^ 2) with (4 * a ^ 2 * (1 - r i0 / r i') ^ 2) by (field; lra).
    replace ((4 * a ^ 2 * (r i - r i0) ^ 2 + 4 * b ^ 2 * (z j0 - z j0) ^ 2) / r i ^ 2) with (4 * a ^ 2 * (1 - r i0 / r i) ^ 2) by (field; lra).
    apply Rmult_lt_compat_l; [lra|].
    set (q := r i0 / r i). set (q' := r i0 / r i').
    assert (Hq : (q < q' /\ q' <= 1) \/ (q' < q /\ 1 <= q')).
    { destruct Hor as [(A & B)|(A & B)].
      - left. assert (r i' < r i) by (apply (inc_lt nx); assumption). split; unfold q, q', Rdiv.
        + apply Rmult_lt_compat_l; [exact Hp0|]. apply Rinv_lt_contravar; [apply Rmult_lt_0_compat; assumption|exact H].
        + apply Rmult_le_reg_r with (r i'); [exact Hp'|]. rewrite Rmult_assoc, Rinv_l, Rmult_1_r, Rmult_1_l by lra.
          destruct (Nat.eq_dec i0 i') as [ -> |]; [lra|]. left. apply (inc_lt nx); [exact Hr|lia|exact Hi'].
      - right. assert (r i < r i') by (apply (inc_lt nx); assumption). split; unfold q, q', Rdiv.
        + apply Rmult_lt_compat_l; [exact Hp0|]. apply Rinv_lt_contravar; [apply Rmult_lt_0_compat; assumption|exact H].
        + apply Rmult_le_reg_r with (r i'); [exact Hp'|]. rewrite Rmult_assoc, Rinv_l, Rmult_1_r, Rmult_1_l by lra.
          destruct (Nat.eq_dec i0 i') as [ -> |]; [lra|]. left. apply (inc_lt nx); [exact Hr|lia|lia]. }
    clearbody q q'.
    destruct Hq as [(A & B)|(A & B)].
    - assert (0 < (q' - q) * (2 - q - q')) by (apply Rmult_lt_0_compat; lra). lra.
    - assert (0 < (q - q') * (q + q' - 2)) by (apply Rmult_lt_0_compat; lra). lra.
  Qed.

  Lemma z_step j j' : (j < ny)%nat -> (j' < ny)%nat -> ((j0 <= j' /\ j' < j) \/ (j < j' /\ j' <= j0))%nat -> (z j' - z j0) ^ 2 < (z j - z j0) ^ 2.
  Proof.
    intros Hj Hj' Hor. destruct Hor as [(A & B)|(A & B)].
    - assert (z j' < z j) by (apply (inc_lt ny); assumption).
      assert (z j0 <= z j') by (destruct (Nat.eq_dec j0 j') as [ -> |]; [lra|left; apply (inc_lt ny); [exact Hz|lia|exact Hj']]).
      assert (0 < (z j - z j') * (z j + z j' - 2 * z j0)) by (apply Rmult_lt_0_compat; lra). lra.
    - assert (z j < z j') by (apply (inc_lt ny); assumption).
      assert (z j' <= z j0) by (destruct (Nat.eq_dec j0 j') as [ -> |]; [lra|left; apply (inc_lt ny); [exact Hz|lia|lia]]).
      assert (0 < (z j' - z j) * (2 * z j0 - z j - z j')) by (apply Rmult_lt_0_compat; lra). lra.
  Qed.
  Lemma bowl_not_min i j : (2 <= i /\ i + 2 < nx)%nat -> (2 <= j /\ j + 2 < ny)%nat -> (i <> i0 \/ j <> j0) -> local_min gR gZ f i j = false.
  Proof.
    intros Hi Hj Hne. unfold local_min. change (@nltb R Num_R) with R_ltb.
    assert (HF : forall x y, y < x -> R_ltb x y = false) by (intros; apply R_ltb_false; lra).
    destruct (lt_eq_lt_dec j j0) as [[Hlt|Heq]|Hgt].
    - rewrite (HF _ _ (bowl_z i j (j + 1) ltac:(lia) ltac:(lia) ltac:(lia) (z_step j (j + 1) ltac:(lia) ltac:(lia) ltac:(lia)))), ?andb_false_r. reflexivity.
    - subst j. destruct Hne as [Hne|Hne]; [|lia]. destruct (lt_eq_lt_dec i i0) as [[Hlt|Heq]|Hgt]; [|lia|].
      + rewrite (HF _ _ (bowl_r i (i + 1) ltac:(lia) ltac:(lia) ltac:(lia))), ?andb_false_r. reflexivity.
      + rewrite (HF _ _ (bowl_r i (i - 1) ltac:(lia) ltac:(lia) ltac:(lia))), ?andb_false_r. reflexivity.
    - rewrite (HF _ _ (bowl_z i j (j - 1) ltac:(lia) ltac:(lia) ltac:(lia) (z_step j (j - 1) ltac:(lia) ltac:(lia) ltac:(lia)))), ?andb_false_r. reflexivity.
  Qed.
  Lemma bowl_centre_min : local_min gR gZ f i0 j0 = true.
  Proof.
    unfold local_min. change (@nltb R Num_R) with R_ltb.
    assert (H0 : Bp2 gR gZ f i0 j0 = 0). { rewrite bowl_Bp2 by lia. assert (H := r_pos i0 ltac:(lia)). field. lra. }
    assert (HT : forall i j, (i < nx)%nat -> (j < ny)%nat -> (i <> i0 \/ j <> j0) -> R_ltb (Bp2 gR gZ f i0 j0) (Bp2 gR gZ f i j) = true).
    { intros i j Hi Hj Hne. apply R_ltb_true. rewrite H0, bowl_Bp2 by assumption. assert (Hp := r_pos i Hi). destruct ab_nz as (Ha & Hb).
      apply Rdiv_lt_0_compat; [|apply pow_lt; lra].
      assert (E1 : 0 <= (r i - r i0) ^ 2) by (rewrite <- Rsqr_pow2; apply Rle_0_sqr). assert (E2 : 0 <= (z j - z j0) ^ 2) by (rewrite <- Rsqr_pow2; apply Rle_0_sqr).
      assert (E3 : 0 <= a ^ 2 * (r i - r i0) ^ 2) by (apply Rmult_le_pos; lra). assert (E4 : 0 <= b ^ 2 * (z j - z j0) ^ 2) by (apply Rmult_le_pos; lra).
      destruct Hne as [Hne|Hne].
      - assert (0 < a ^ 2 * (r i - r i0) ^ 2); [|lra]. apply Rmult_lt_0_compat; [exact Ha|]. rewrite <- Rsqr_pow2. apply Rsqr_pos_lt.
        destruct (Nat.lt_total i i0) as [H|[H|H]]; [|lia|]; [assert (r i < r i0) by (apply (inc_lt nx); [exact Hr|lia|lia]); lra|].
        assert (r i0 < r i) by (apply (inc_lt nx); [exact Hr|lia|lia]). lra.
      - assert (0 < b ^ 2 * (z j - z j0) ^ 2); [|lra]. apply Rmult_lt_0_compat; [exact Hb|]. rewrite <- Rsqr_pow2. apply Rsqr_pos_lt.
        destruct (Nat.lt_total j j0) as [H|[H|H]]; [|lia|]; [assert (z j < z j0) by (apply (inc_lt ny); [exact Hz|lia|lia]); lra|].
        assert (z j0 < z j) by (apply (inc_lt ny); [exact Hz|lia|lia]). lra. }
    rewrite !HT by lia. reflexivity.
  Qed.
  Lemma bowl_hessian : R_ltb (hessian gR gZ psi i0 j0) 0 = false.
  Proof.
    apply R_ltb_false. unfold hessian, Critical.dR, Critical.dZ, gR, gZ. nR. rewrite !Hpsi by lia.
    set (h := r 1%nat - r 0%nat). set (k := z 1%nat - z 0%nat).
    assert (Hh : 0 < h) by (unfold h; assert (r 0%nat < r 1%nat) by (apply (inc_lt nx); [exact Hr|lia|lia]); lra).
    assert (Hk : 0 < k) by (unfold k; assert (z 0%nat < z 1%nat) by (apply (inc_lt ny); [exact Hz|lia|lia]); lra).
    set (u := r (i0 + 2)%nat - r i0). set (u' := r (i0 - 2)%nat - r i0). set (v := z (j0 + 2)%nat - z j0). set (v' := z (j0 - 2)%nat - z j0).
    clearbody h k u u' v v'.
    match goal with |- 0 <= ?x => replace x with ((a * b) * ((u ^ 2 + u' ^ 2) * (v ^ 2 + v' ^ 2) * / ((2 * h) ^ 2 * (2 * k) ^ 2))) by (field; lra) end.
    assert (E : forall x y : R, 0 <= x ^ 2 + y ^ 2) by (intros x y; assert (A := Rle_0_sqr x); assert (B := Rle_0_sqr y); unfold Rsqr in *; lra).
    apply Rmult_le_pos; [lra|]. apply Rmult_le_pos; [apply Rmult_le_pos; apply E|]. left. apply Rinv_0_lt_compat.
    apply Rmult_lt_0_compat; apply pow_lt; lra.
  Qed.
  Lemma bowl_visit xo : visit gR gZ psi f xo i0 j0 = Ok (fst xo, snd xo ++ [(r i0, z j0, p0)]).
  Proof.
    unfold visit. rewrite bowl_centre_min.
    assert (EN : forall k, newton gR gZ f (S k) (gR i0 j0) (gZ i0 j0) 0 (gR i0 j0) (gZ i0 j0) = Ok (Some (r i0, z j0))).
    { intros k. cbn [newton]. unfold Br, Bz, gR, gZ. rewrite H10, H01 by lia. nR.
      replace (R_ltb _ _) with true; [reflexivity|]. symmetry. apply R_ltb_true.
      assert (Hp := r_pos i0 ltac:(lia)).
      match goal with |- ?x < _ => replace x with 0 by (field; lra) end. lra. }
    rewrite (EN 100%nat). cbn [bind]. change (@nltb R Num_R) with R_ltb. change (@n0 R Num_R) with 0. rewrite bowl_hessian, H00. reflexivity.
  Qed.
  Lemma bowl_critical disc : Critical.find_critical nx ny gR gZ psi f disc = Ok ([(r i0, z j0, p0)], []).
  Proof.
    assert (EC : candidates nx ny gR gZ psi f = Ok ([], [(r i0, z j0, p0)])).
    { unfold candidates. rewrite (foldM_single _ i0).
      - rewrite (foldM_single _ j0).
        + rewrite bowl_visit. reflexivity.
        + apply seq_NoDup.
        + apply in_seq. lia.
        + intros s j Hj Hne. apply in_seq in Hj. unfold visit. rewrite bowl_not_min by lia. reflexivity.
      - apply seq_NoDup.
      - apply in_seq. lia.
      - intros s i Hi Hne. apply in_seq in Hi. apply foldM_none. intros s' j Hj. apply in_seq in Hj. unfold visit. rewrite bowl_not_min by lia. reflexivity. }
    unfold Critical.find_critical. rewrite EC. cbn. destruct disc; reflexivity.
  Qed.
End Bowl.

(** ** _updateBoundaryPsi *)
Lemma update_limited_inv {P Ctl} spline (e : equilibrium R P Ctl) psi o os xpt b :
  check_limited e = true -> wall (tok e) = true -> update_from spline e psi (o :: os) xpt = Ok b ->
  e_nx e = e_ny e /\
  exists p pl, let lims := match xpt with [] => limits (tok e) | x :: _ => filter (fun p => R_ltb (Rabs (snd p)) (Rabs (75 / 100 * snd (fst x)))) (limits (tok e)) end in
    let fl := fun q : R * R => spline (e_nx e) (e_ny e) (R_1D e) (Z_1D e) (fun i j => psi j i) 0%nat 0%nat (fst q) (snd q) in
    In p lims /\ lim b = Some p /\ psi_limit b = Some pl /\ pl = fl p /\ (forall q, In q lims -> fl q <= pl) /\
    psi_axis b = Some (snd o) /\
    match xpt with
    | [] => psi_bndry b = Some (Some pl) /\ is_limited b = true /\ mask b = Some None
    | x :: _ => psi_bndry b = Some (Some (Rbasic_fun.Rmax (snd x) pl)) /\ is_limited b = R_eqb (Rbasic_fun.Rmax (snd x) pl) pl /\ psi_xpt b = Some (snd x) /\
        exists m, mask b = Some (Some m) /\ eq_core_mask e psi (o :: os) xpt (Some (Rbasic_fun.Rmax (snd x) pl)) = Ok m
    end.
Proof.
  intros Hc Hw E. unfold update_from in E. rewrite Hc, Hw in E. cbn [andb] in E. cbv zeta in E.
  set (L := match xpt with [] => _ | x :: _ => _ end) in E. inv_bind E.
  assert (Hsz : e_nx e = e_ny e).
  { unfold eq_spline in E0. destruct (Nat.eq_dec (e_nx e) (e_ny e)); [assumption|]. rewrite RBS_shape in E0 by lia. discriminate. }
  split; [exact Hsz|].
  assert (EL : L = match xpt with [] => limits (tok e) | x :: _ => filter (fun p => R_ltb (Rabs (snd p)) (Rabs (75 / 100 * snd (fst x)))) (limits (tok e)) end).
  { unfold L. destruct xpt as [|x xs]; [reflexivity|]. apply filter_ext. intros a. rewrite !nabs_R. reflexivity. }
  assert (Ev : v = spline (e_nx e) (e_ny e) (R_1D e) (Z_1D e) (fun i j => psi j i)).
  { unfold eq_spline, RectBivariateSpline in E0. destruct (_ && _)%bool in E0; [injection E0 as <-; reflexivity|discriminate]. }
  set (vals := map _ _) in E. assert (Ha := argmax_spec vals). destruct (argmax vals) as [k|]; [|discriminate].
  destruct Ha as (Hk & Hmax). assert (Hk' : (k < length L)%nat) by (unfold vals in Hk; rewrite map_length in Hk; exact Hk).
  set (fl := fun q : R * R => v 0%nat 0%nat (fst q) (snd q)) in *.
  assert (Hn : forall i, (i < length L)%nat -> nth i vals 0 = fl (nth i L (0, 0))).
  { intros i Hi. unfold vals. change 0 with (@n0 R Num_R) at 1. rewrite (nth_indep _ _ (fl (0, 0))) by (rewrite map_length; exact Hi). apply (map_nth fl). }
  exists (nth k L (0, 0)), (nth k vals 0). cbv zeta. rewrite <- Ev, <- EL.
  split; [apply nth_In; exact Hk'|].
  assert (Hmx : forall q, In q L -> fl q <= nth k vals 0).
  { intros q Hq. apply In_nth with (d := (0, 0)) in Hq. destruct Hq as (i & Hi & <-). rewrite <- Hn by exact Hi. apply Hmax. unfold vals. rewrite map_length. exact Hi. }
  destruct xpt as [|x xs].
  - injection E as <-. cbn. repeat split; try assumption; try reflexivity. apply Hn. exact Hk'.
  - rewrite nmax_R in E. inv_bind E. inv_bind E. injection E as <-. cbn. repeat split; try assumption; try reflexivity.
    + apply Hn. exact Hk'.
    + exists v0. split; [reflexivity|exact E1].
Qed.
Lemma update_not_square {P Ctl} spline (e : equilibrium R P Ctl) psi o os xpt :
  check_limited e = true -> wall (tok e) = true -> e_nx e <> e_ny e -> update_from spline e psi (o :: os) xpt = Raise ValueError.
Proof.
  intros Hc Hw Hne. unfold update_from. rewrite Hc, Hw. cbn [andb]. cbv zeta. unfold eq_spline. rewrite RBS_shape by lia. reflexivity.
Qed.

(** ** Bowl equilibria: flux a (r - 1)^2 + b z^2 on the grid 1/2, 3/4, ... x -1/2, -1/4, ... *)
Definition bowl (a b r z : R) : R := a * (r - 1) ^ 2 + b * z ^ 2.
Definition bowl_eq (nx ny : nat) (a b : R) (chk : bool) (lims : list (R * R)) (st : bstate R) : equilibrium R unit unit :=
  mkeq nx ny (1 / 2) (1 / 2 + INR (nx - 1) / 4) (- (1 / 2)) (- (1 / 2) + INR (ny - 1) / 4) (mktok [] true lims) BFree 2
    (SUser (fun _ _ => Raise TypeError)) chk
    (fun i j => bowl a b (1 / 2 + INR i / 4) (- (1 / 2) + INR j / 4)) (fun _ _ => []) 0 None st None None.
Lemma bowl_r1d nx ny a b chk lims st i : (5 <= nx)%nat -> R_1D (bowl_eq nx ny a b chk lims st) i = 1 / 2 + INR i / 4.
Proof.
  intros Hn. unfold R_1D. rewrite linspace_gridpt. unfold gridpt. cbn [Rmin Rmax e_nx bowl_eq].
  assert (0 < INR (nx - 1)) by (apply lt_0_INR; lia). field. lra.
Qed.
Lemma bowl_z1d nx ny a b chk lims st j : (5 <= ny)%nat -> Z_1D (bowl_eq nx ny a b chk lims st) j = - (1 / 2) + INR j / 4.
Proof.
  intros Hn. unfold Z_1D. rewrite linspace_gridpt. unfold gridpt. cbn [Zmin Zmax e_ny bowl_eq].
  assert (0 < INR (ny - 1)) by (apply lt_0_INR; lia). field. lra.
Qed.
Lemma quarter_inc n c (x : nat -> R) : (forall i, x i = c + INR i / 4) -> increasing_on n x.
Proof. intros E i Hi. rewrite !E, S_INR. lra. Qed.
Lemma bowl_inc nx ny a b chk lims st : (5 <= nx)%nat -> (5 <= ny)%nat ->
  let e := bowl_eq nx ny a b chk lims st in increasing_on nx (R_1D e) /\ increasing_on ny (Z_1D e).
Proof.
  intros Hx Hy e. split; eapply quarter_inc; intros i; [apply bowl_r1d; exact Hx|apply bowl_z1d; exact Hy].
Qed.
Definition bowl_c (a b : R) : nat -> R := fun k => match k with 0%nat => a | 1%nat => - (2 * a) | 3%nat => a | 5%nat => b | _ => 0 end.
Lemma bowl_quadratic a b r z : bowl a b r z = quadratic (bowl_c a b) 0 0 r z.
Proof. unfold bowl, quadratic, bowl_c. ring. Qed.
Lemma bowl_find spline nx ny a b chk lims st psi : exact_for_quadratics spline -> (5 <= nx)%nat -> (5 <= ny)%nat -> 0 < a * b ->
  (forall i j, psi i j = plasma_psi (bowl_eq nx ny a b chk lims st) i j) ->
  eq_find_critical spline (bowl_eq nx ny a b chk lims st) nx ny psi = Ok ([(1, 0, 0)], []).
Proof.
  intros Hs Hx Hy Hab Hpsi. set (e := bowl_eq nx ny a b chk lims st) in *.
  destruct (bowl_inc nx ny a b chk lims st Hx Hy) as (Ir & Iz). fold e in Ir, Iz.
  assert (HR : forall i, R_1D e i = 1 / 2 + INR i / 4) by (intros i; apply bowl_r1d; exact Hx).
  assert (HZ : forall j, Z_1D e j = - (1 / 2) + INR j / 4) by (intros i; apply bowl_z1d; exact Hy).
  assert (Hf : forall dx dy r s, (dx + dy <= 2)%nat -> R_1D e 0%nat <= r <= R_1D e (nx - 1)%nat -> Z_1D e 0%nat <= s <= Z_1D e (ny - 1)%nat ->
     spline nx ny (R_1D e) (Z_1D e) psi dx dy r s = quadratic (bowl_c a b) dx dy r s).
  { apply Hs; try lia; try assumption. intros i j Hi Hj. rewrite Hpsi, HR, HZ. apply bowl_quadratic. }
  unfold eq_find_critical, eq_spline. change (e_nx e) with nx. change (e_ny e) with ny.
  rewrite RBS_ok by (try assumption; lia). cbn [bind].
  assert (E1 : (1, 0, 0) = (R_1D e 2%nat, Z_1D e 2%nat, 0)) by (rewrite HR, HZ; cbn [INR]; f_equal; f_equal; lra).
  rewrite E1.
  assert (Bx : forall i, (i < nx)%nat -> R_1D e 0%nat <= R_1D e i <= R_1D e (nx - 1)%nat).
  { intros i Hi. rewrite !HR. assert (INR i <= INR (nx - 1)) by (apply le_INR; lia). assert (Hp := pos_INR i). cbn [INR]. lra. }
  assert (By : forall j, (j < ny)%nat -> Z_1D e 0%nat <= Z_1D e j <= Z_1D e (ny - 1)%nat).
  { intros j Hj. rewrite !HZ. assert (INR j <= INR (ny - 1)) by (apply le_INR; lia). assert (Hp := pos_INR j). cbn [INR]. lra. }
  apply (bowl_critical nx ny (R_1D e) (Z_1D e) psi _ a b 0 2 2); try lia; try assumption.
  - rewrite HR. cbn [INR]. lra.
  - intros i j Hi Hj. rewrite Hf by (try lia; auto). unfold quadratic, bowl_c. rewrite (HR 2%nat). cbn [INR]. lra.
  - intros i j Hi Hj. rewrite Hf by (try lia; auto). unfold quadratic, bowl_c. rewrite (HZ 2%nat). cbn [INR]. lra.
  - rewrite Hf; [|lia|apply Bx; lia|apply By; lia]. rewrite <- bowl_quadratic. rewrite HR, HZ. unfold bowl. cbn [INR]. lra.
  - intros i j Hi Hj. rewrite Hpsi. cbn [plasma_psi e bowl_eq]. unfold bowl. rewrite !HR, !HZ. cbn [INR]. lra.
Qed.
Lemma bowl_psi nx ny a b chk lims st : exists psi, total_psi (bowl_eq nx ny a b chk lims st) = Ok psi /\
  forall i j, psi i j = plasma_psi (bowl_eq nx ny a b chk lims st) i j.
Proof. apply no_coils_psi. reflexivity. Qed.

(** ** Rows of normalised flux *)
Lemma fold_max_spec (l : list nat) : forall i0, let k := fold_left Nat.max l i0 in In k (i0 :: l) /\ forall i, In i (i0 :: l) -> (i <= k)%nat.
Proof.
  induction l as [|x l IH]; intros i0; cbn [fold_left].
  - split; [left; reflexivity|]. intros i [->|[]]. reflexivity.
  - destruct (IH (Nat.max i0 x)) as (Hin & Hm). set (k := fold_left Nat.max l (Nat.max i0 x)) in *. cbv zeta. split.
    + destruct Hin as [<-|Hin]; [|right; right; exact Hin]. destruct (Nat.max_spec i0 x) as [(_ & ->)|(_ & ->)]; [right; left|left]; reflexivity.
    + intros i [->|[->|Hi]]; [| |apply Hm; right; exact Hi]; (eapply Nat.le_trans; [|apply Hm; left; reflexivity]); lia.
Qed.
Lemma fold_min_spec (l : list nat) : forall i0, let k := fold_left Nat.min l i0 in In k (i0 :: l) /\ forall i, In i (i0 :: l) -> (k <= i)%nat.
Proof.
  induction l as [|x l IH]; intros i0; cbn [fold_left].
  - split; [left; reflexivity|]. intros i [->|[]]. reflexivity.
  - destruct (IH (Nat.min i0 x)) as (Hin & Hm). set (k := fold_left Nat.min l (Nat.min i0 x)) in *. cbv zeta. split.
    + destruct Hin as [<-|Hin]; [|right; right; exact Hin]. destruct (Nat.min_spec i0 x) as [(_ & ->)|(_ & ->)]; [left|right; left]; reflexivity.
    + intros i [->|[->|Hi]]; [| |apply Hm; right; exact Hi]; (eapply Nat.le_trans; [apply Hm; left; reflexivity|]); lia.
Qed.
Lemma in_outside (q : nat -> R) a b i : In i (filter (fun i => nltb n1 (q i)) (range a b)) <-> (a <= i < b)%nat /\ 1 < q i.
Proof.
  rewrite filter_In. unfold range. rewrite in_seq. nR. rewrite R_ltb_true. split; intros (H1 & H2); (split; [lia|exact H2]).
Qed.
Lemma inner_spec nx rmin rmax (r q : nat -> R) ia : let ri := fst (inner_outer nx rmin rmax r q ia) in
  ((forall i, (i < ia)%nat -> q i <= 1) /\ ri = rmin) \/
  exists i, (i < ia)%nat /\ 1 < q i /\ (forall k, (i < k < ia)%nat -> q k <= 1) /\
    ri = (r i * (1 - q (S i)) + r (S i) * (q i - 1)) / (q i - q (S i)).
Proof.
  cbv zeta. unfold inner_outer. cbn [fst].
  assert (Hin := in_outside q 0 ia). destruct (filter _ (range 0 ia)) as [|i0 l] eqn:E.
  - left. split; [|reflexivity]. intros i Hi. destruct (Rle_lt_dec (q i) 1) as [|Hl]; [assumption|]. exfalso. apply (Hin i). split; [lia|exact Hl].
  - right. destruct (fold_max_spec l i0) as (Hi & Hm). cbv zeta in Hi, Hm. set (k := fold_left Nat.max l i0) in *. apply Hin in Hi.
    exists k. split; [lia|]. split; [apply Hi|]. split; [|reflexivity].
    intros j Hj. destruct (Rle_lt_dec (q j) 1) as [|Hl]; [assumption|]. exfalso. assert (j <= k)%nat; [|lia]. apply Hm. apply Hin. split; [lia|exact Hl].
Qed.
Lemma outer_spec nx rmin rmax (r q : nat -> R) ia : let ro := snd (inner_outer nx rmin rmax r q ia) in
  ((forall i, (ia <= i < nx)%nat -> q i <= 1) /\ ro = rmax) \/
  exists i, (ia <= i < nx)%nat /\ 1 < q i /\ (forall k, (ia <= k < i)%nat -> q k <= 1) /\
    ro = (r i * (1 - q (wrap nx i)) + r (wrap nx i) * (q i - 1)) / (q i - q (wrap nx i)).
Proof.
  cbv zeta. unfold inner_outer. cbn [snd].
  assert (Hin := in_outside q ia nx). destruct (filter _ (range ia nx)) as [|i0 l] eqn:E.
  - left. split; [|reflexivity]. intros i Hi. destruct (Rle_lt_dec (q i) 1) as [|Hl]; [assumption|]. exfalso. apply (Hin i). split; [lia|exact Hl].
  - right. destruct (fold_min_spec l i0) as (Hi & Hm). cbv zeta in Hi, Hm. set (k := fold_left Nat.min l i0) in *. apply Hin in Hi.
    exists k. split; [apply Hi|]. split; [apply Hi|]. split; [|reflexivity].
    intros j Hj. destruct (Rle_lt_dec (q j) 1) as [|Hl]; [assumption|]. exfalso. assert (k <= j)%nat; [|lia]. apply Hm. apply Hin. split; [lia|exact Hl].
Qed.
(** the crossing of the straight line *)
Lemma crossing_line a b p q : a < b -> 1 < p -> q <= 1 -> let r := (a * (1 - q) + b * (p - 1)) / (p - q) in
  a < r <= b /\ line a p b q r = 1.
Proof.
  intros Hab Hp Hq r. assert (Hr : r * (p - q) = a * (1 - q) + b * (p - 1)) by (unfold r; field; lra).
  assert (Hpq : 0 < p - q) by lra.
  assert (0 < (b - a) * (p - 1)) by (apply Rmult_lt_0_compat; lra). assert (0 <= (b - a) * (1 - q)) by (apply Rmult_le_pos; lra).
  split; [split|].
  - apply Rmult_lt_reg_r with (p - q); [exact Hpq|]. lra.
  - apply Rmult_le_reg_r with (p - q); [exact Hpq|]. lra.
  - unfold line. replace (r - a) with ((b - a) * (p - 1) / (p - q)) by (unfold r; field; lra). field. lra.
Qed.
Lemma crossing_line' a b p q : a < b -> p <= 1 -> 1 < q -> let r := (b * (1 - p) + a * (q - 1)) / (q - p) in
  a <= r < b /\ line a p b q r = 1.
Proof.
  intros Hab Hp Hq r. assert (Hr : r * (q - p) = b * (1 - p) + a * (q - 1)) by (unfold r; field; lra).
  assert (Hpq : 0 < q - p) by lra.
  assert (0 < (b - a) * (q - 1)) by (apply Rmult_lt_0_compat; lra). assert (0 <= (b - a) * (1 - p)) by (apply Rmult_le_pos; lra).
  split; [split|].
  - apply Rmult_le_reg_r with (q - p); [exact Hpq|]. lra.
  - apply Rmult_lt_reg_r with (q - p); [exact Hpq|]. lra.
  - unfold line. replace (r - a) with ((b - a) * (1 - p) / (q - p)) by (unfold r; field; lra). field. lra.
Qed.

(** ** The spline of the examples *)
Lemma newton2_exact x a b c d r : x 0%nat <> x 1%nat -> x 1%nat <> x 2%nat -> x 0%nat <> x 2%nat ->
  newton2 x (fun i => a + b * x i + c * x i ^ 2) d r = match d with 0%nat => a + b * r + c * r ^ 2 | 1%nat => b + 2 * c * r | 2%nat => 2 * c | _ => 0 end.
Proof.
  intros H01 H12 H02. unfold newton2.
  destruct d as [|[|[|d]]]; [| | |reflexivity]; field; repeat split; intros H; lra.
Qed.
Lemma newton2_ext x f g d r : (forall i, (i < 3)%nat -> f i = g i) -> newton2 x f d r = newton2 x g d r.
Proof. intros H. unfold newton2. rewrite !H by lia. reflexivity. Qed.
Lemma spline2_exact : exact_for_quadratics spline2.
Proof.
  intros n m x y z c Hn Hm Hx Hy Hz dx dy r s Hd _ _. unfold spline2.
  assert (x 0%nat < x 1%nat) by (apply Hx; lia). assert (x 1%nat < x 2%nat) by (apply Hx; lia).
  assert (y 0%nat < y 1%nat) by (apply Hy; lia). assert (y 1%nat < y 2%nat) by (apply Hy; lia).
  assert (E : forall i, (i < 3)%nat -> newton2 y (z i) dy s =
     newton2 y (fun j => (c 0%nat + c 1%nat * x i + c 3%nat * x i ^ 2) + (c 2%nat + c 4%nat * x i) * y j + c 5%nat * y j ^ 2) dy s).
  { intros i Hi. apply newton2_ext. intros j Hj. rewrite Hz by lia. unfold quadratic. ring. }
  rewrite (newton2_ext x _ _ dx r E).
  assert (E2 : forall i, (i < 3)%nat -> newton2 y (fun j => (c 0%nat + c 1%nat * x i + c 3%nat * x i ^ 2) + (c 2%nat + c 4%nat * x i) * y j + c 5%nat * y j ^ 2) dy s =
     (match dy with 0%nat => c 0%nat + c 2%nat * s + c 5%nat * s ^ 2 | 1%nat => c 2%nat + 2 * c 5%nat * s | 2%nat => 2 * c 5%nat | _ => 0 end) +
     (match dy with 0%nat => c 1%nat + c 4%nat * s | 1%nat => c 4%nat | _ => 0 end) * x i + (match dy with 0%nat => c 3%nat | _ => 0 end) * x i ^ 2).
  { intros i Hi. rewrite newton2_exact by lra. destruct dy as [|[|[|dy]]]; ring. }
  rewrite (newton2_ext x _ _ dx r E2). rewrite newton2_exact by lra.
  destruct dx as [|[|[|dx]]]; destruct dy as [|[|[|dy]]]; unfold quadratic; try lia; ring.
Qed.
