(** Bounds for solutions of systems with the fourth-order matrix (see C220). *)
From Coq Require Import List Arith ZArith Bool Reals Lra Lia.
From Coquelicot Require Import Rcomplements.
From Verif Require Import Py Num Numpy Linalg Gauss GradShafranov GradShafranovProofs GS4Proofs EquilibriumSpec FourthProofs.
Import ListNotations.
Local Open Scope R_scope.

Lemma nsum_le n (f g : nat -> R) : (forall i, (i < n)%nat -> f i <= g i) -> nsum n f <= nsum n g.
Proof. intros H. assert (X := nsum_nonneg n (fun i => g i - f i)). rewrite nsum_sub in X. assert (0 <= nsum n g - nsum n f); [|lra]. apply X. intros i Hi. specialize (H i Hi). lra. Qed.
Lemma nsum_abs n (f : nat -> R) : Rabs (nsum n f) <= nsum n (fun i => Rabs (f i)).
Proof.
  induction n as [|n IH]; [rewrite !nsum_O, Rabs_R0; lra|]. rewrite !nsum_S. eapply Rle_trans; [apply Rabs_triang|]. lra.
Qed.

(** ** Every matrix whose systems can be solved *)
Lemma solves_bounded lu N A : solves_systems lu N A ->
  exists K, 0 <= K /\ forall v m, (forall r, (r < N)%nat -> Rabs (nsum N (fun c => A r c * v c)) <= m) -> forall c, (c < N)%nat -> Rabs (v c) <= K * m.
Proof.
  intros Hs. set (B := fun r c => lu N A (fun i => if (i =? c)%nat then 1 else 0) r).
  assert (AB : forall w r, (r < N)%nat -> nsum N (fun k => A r k * nsum N (fun c => B k c * w c)) = w r).
  { intros w r Hr. rewrite (nsum_ext N _ (fun k => nsum N (fun c => A r k * B k c * w c))).
    2:{ intros k Hk. rewrite <- nsum_scal. apply nsum_ext. intros c Hc. ring. }
    rewrite nsum_swap. rewrite (nsum_ext N _ (fun c => (if (c =? r)%nat then 1 else 0) * w c)).
    - rewrite nsum_delta by exact Hr. ring.
    - intros c Hc. rewrite (nsum_ext N _ (fun k => w c * (A r k * B k c))) by (intros k Hk; ring). rewrite nsum_scal. unfold B. rewrite Hs by exact Hr.
      rewrite (Nat.eqb_sym r c). ring. }
  exists (nsum N (fun c => nsum N (fun r => Rabs (B c r)))). split; [apply nsum_nonneg; intros; apply nsum_nonneg; intros; apply Rabs_pos|].
  intros v m Hv c Hc. set (w := fun r => nsum N (fun c => A r c * v c)) in *.
  assert (V : v c = nsum N (fun r => B c r * w r)).
  { assert (X := solves_injective lu N A Hs (fun c => v c - nsum N (fun r => B c r * w r))). cbv beta in X.
    assert (Y := X ltac:(intros r Hr; rewrite (nsum_ext N _ (fun k => A r k * v k - A r k * nsum N (fun c => B k c * w c))) by (intros; ring); rewrite nsum_sub, AB by exact Hr; unfold w; ring) c Hc). lra. }
  assert (Hm : 0 <= m) by (eapply Rle_trans; [apply Rabs_pos|exact (Hv c Hc)]).
  rewrite V. eapply Rle_trans; [apply nsum_abs|]. apply Rle_trans with (nsum N (fun r => m * Rabs (B c r))).
  - apply nsum_le. intros r Hr. rewrite Rabs_mult, Rmult_comm. apply Rmult_le_compat_r; [apply Rabs_pos|apply Hv, Hr].
  - rewrite nsum_scal, Rmult_comm. apply Rmult_le_compat_r; [exact Hm|].
    assert (Z := nsum_le N (fun k => if (k =? c)%nat then nsum N (fun r => Rabs (B k r)) else 0) (fun k => nsum N (fun r => Rabs (B k r)))).
    rewrite (nsum_single N _ c) in Z; [rewrite Nat.eqb_refl in Z; apply Z|exact Hc|].
    + intros k Hk. destruct (k =? c)%nat; [lra|]. apply nsum_nonneg. intros; apply Rabs_pos.
    + intros k Hk Hkc. destruct (Nat.eqb_spec k c); [contradiction|reflexivity].
Qed.

(** ** Nine points in R *)
Lemma radial_edges v0 v1 v2 v3 v4 v5 v6 v7 v8 t1 t2 t3 t4 t5 t6 t7 b d :
  t1 = (10 * v0 - 15 * v1 - 4 * v2 + 14 * v3 - 6 * v4 + v5) / 12 ->
  t2 = (- v0 + 16 * v1 - 30 * v2 + 16 * v3 - v4) / 12 ->
  t3 = (- v1 + 16 * v2 - 30 * v3 + 16 * v4 - v5) / 12 ->
  t4 = (- v2 + 16 * v3 - 30 * v4 + 16 * v5 - v6) / 12 ->
  t5 = (- v3 + 16 * v4 - 30 * v5 + 16 * v6 - v7) / 12 ->
  t6 = (- v4 + 16 * v5 - 30 * v6 + 16 * v7 - v8) / 12 ->
  t7 = (v3 - 6 * v4 + 14 * v5 - 4 * v6 - 15 * v7 + 10 * v8) / 12 ->
  Rabs t1 <= b -> Rabs t2 <= b -> Rabs t3 <= b -> Rabs t4 <= b -> Rabs t5 <= b -> Rabs t6 <= b -> Rabs t7 <= b -> Rabs v0 <= d -> Rabs v8 <= d ->
  let c := 8 * (b + 10 / 12 * d) in
  Rabs v1 <= c /\ Rabs v2 <= c /\ Rabs v3 <= c /\ Rabs v4 <= c /\ Rabs v5 <= c /\ Rabs v6 <= c /\ Rabs v7 <= c.
Proof.
  intros E1 E2 E3 E4 E5 E6 E7 B1 B2 B3 B4 B5 B6 B7 D0 D8 c.
  apply Rabs_le_between in B1, B2, B3, B4, B5, B6, B7, D0, D8. unfold c.
  apply (radial_inverse v1 v2 v3 v4 v5 v6 v7 (t1 - 10 / 12 * v0) (t2 + v0 / 12) t3 t4 t5 (t6 + v8 / 12) (t7 - 10 / 12 * v8)); try lra; apply Rabs_le_between; lra.
Qed.
Lemma bounded9 rmin rmax zmin zmax ny A : (6 <= ny)%nat -> GSsparse4thOrder rmin rmax zmin zmax 9 ny = Ok A ->
  let dR := (rmax - rmin) / 8 in let dZ := (zmax - zmin) / INR (ny - 1) in 0 < dR -> 10 * dR <= dZ -> 60 * dR <= rmin ->
  forall psi d s, 0 <= s -> (forall x y, (x < 9)%nat -> (y < ny)%nat -> ~ interior 9 ny x y -> Rabs (psi x y) <= d) ->
  (forall x y, interior 9 ny x y -> Rabs (mat_apply A psi 9 ny (x * ny + y)%nat) <= s) ->
  forall x y, (x < 9)%nat -> (y < ny)%nat -> Rabs (psi x y) <= 47 * d + 56 * (dR * dR) * s.
Proof.
  intros Hny EA dR dZ HdR HdZ HR psi d s Hs0 Hed Hrow.
  assert (H6 : (6 <= 9)%nat) by lia. set (v := fun c => psi (c / ny)%nat (c mod ny)%nat).
  assert (Hd0 : 0 <= d) by (eapply Rle_trans; [apply Rabs_pos|apply (Hed 0%nat 0%nat); unfold interior; lia]).
  destruct (argmax (9 * ny - 1) (fun c => Rabs (v c))) as (k & Hk & Hm). replace (S (9 * ny - 1)) with (9 * ny)%nat in * by lia.
  set (m := Rabs (v k)) in *. assert (Hm0 : 0 <= m) by apply Rabs_pos.
  assert (Hv : forall x y, (x < 9)%nat -> (y < ny)%nat -> Rabs (psi x y) <= m).
  { intros x y Hx Hy. assert (X := Hm (x * ny + y)%nat (row_bound 9 ny x y Hx Hy)). unfold v in X at 1. rewrite Nat.div_add_l, (Nat.div_small y ny), Nat.add_0_r in X by lia. rewrite Nat.add_comm, Nat.mod_add, Nat.mod_small in X by lia. exact X. }
  set (K := fun x y => if ((x <? 9) && (y <? ny))%nat%bool then psi x y else 0).
  assert (HK : forall x y, Rabs (K x y) <= m).
  { intros x y. unfold K. destruct (Nat.ltb_spec x 9), (Nat.ltb_spec y ny); cbn [andb]; try (rewrite Rabs_R0; exact Hm0). apply Hv; assumption. }
  assert (KE : forall x y, (x < 9)%nat -> (y < ny)%nat -> psi x y = K x y).
  { intros x y Hx Hy. unfold K. destruct (Nat.ltb_spec x 9), (Nat.ltb_spec y ny); try lia. reflexivity. }
  assert (Eq : forall x y, interior 9 ny x y -> Rabs (lsum (map (fun ow => snd ow * K (Z.to_nat (Z.of_nat x + fst ow)) y) (r2st 9 x))) <= 107 / 1000 * m + dR * dR * s).
  { intros x y Hxy. assert (E := row_in rmin rmax zmin zmax 9 ny A H6 Hny EA psi x y Hxy). assert (Hw := Hrow x y Hxy).
    set (w := mat_apply A psi 9 ny (x * ny + y)) in *.
    replace ((rmax - rmin) / INR (9 - 1)) with dR in E by (unfold dR; cbn [Nat.sub INR]; f_equal; lra). fold dZ in E.
    rewrite (map_ext_in _ (fun ow => snd ow * K x (Z.to_nat (Z.of_nat y + fst ow)))) in E.
    2:{ intros ow Ho. apply zst_range in Ho; [|unfold interior in Hxy; lia..]. rewrite KE by (unfold interior in Hxy; lia). reflexivity. }
    rewrite (map_ext_in (fun ow => snd ow * psi (Z.to_nat (Z.of_nat x + fst ow)) y) (fun ow => snd ow * K (Z.to_nat (Z.of_nat x + fst ow)) y) (r2st 9 x)) in E.
    2:{ intros ow Ho. apply (r2st_range 9) in Ho; [|lia..|unfold interior in Hxy; lia|unfold interior in Hxy; lia]. rewrite KE by (unfold interior in Hxy; lia). reflexivity. }
    rewrite (map_ext_in (fun ow => snd ow * psi (Z.to_nat (Z.of_nat x + fst ow)) y) (fun ow => snd ow * K (Z.to_nat (Z.of_nat x + fst ow)) y) (r1st 9 x)) in E.
    2:{ intros ow Ho. apply (r1st_range 9) in Ho; [|lia..|unfold interior in Hxy; lia|unfold interior in Hxy; lia]. rewrite KE by (unfold interior in Hxy; lia). reflexivity. }
    assert (B1 := zst_bound ny y (fun o => K x (Z.to_nat (Z.of_nat y + o))) m (fun o => HK _ _)). assert (B2 := r1st_bound 9 x (fun o => K (Z.to_nat (Z.of_nat x + o)) y) m (fun o => HK _ _)).
    cbv beta in B1, B2. set (a := lsum (map _ (zst ny y))) in *. set (c := lsum (map _ (r1st 9 x))) in *. set (t := lsum (map _ (r2st 9 x))) in *.
    assert (Hr : 60 * dR <= rmin + dR * INR x). { assert (0 <= dR * INR x) by (apply Rmult_le_pos; [lra|apply pos_INR]). lra. }
    set (r := rmin + dR * INR x) in *. clearbody a c t r w.
    assert (Et : t = c * (dR / r) - a * ((dR / dZ) * (dR / dZ)) + dR * dR * w).
    { apply (Rmult_eq_reg_r (/ (dR * dR))); [|apply Rinv_neq_0_compat; nra].
      transitivity (c / (dR * r) - a / (dZ * dZ) + w); [unfold Rdiv in *; lra|field; repeat split; lra]. }
    assert (Q1 : 0 <= dR / r <= 1 / 60).
    { split; [apply Rle_mult_inv_pos; lra|]. apply (Rmult_le_reg_r r); [lra|]. replace (dR / r * r) with dR by (field; lra). lra. }
    assert (Q2 : 0 <= dR / dZ <= 1 / 10).
    { split; [apply Rle_mult_inv_pos; lra|]. apply (Rmult_le_reg_r dZ); [lra|]. replace (dR / dZ * dZ) with dR by (field; lra). lra. }
    set (q1 := dR / r) in *. set (q2 := dR / dZ) in *. clearbody q1 q2. rewrite Et.
    assert (X1 : Rabs (c * q1) <= 38 / 12 * m * (1 / 60)). { rewrite Rabs_mult, (Rabs_right q1) by lra. apply Rmult_le_compat; try lra. apply Rabs_pos. }
    assert (X2 : Rabs (a * (q2 * q2)) <= 64 / 12 * m * (1 / 100)). { rewrite Rabs_mult, (Rabs_right (q2 * q2)) by nra. apply Rmult_le_compat; [apply Rabs_pos|nra|lra|nra]. }
    assert (X3 : Rabs (dR * dR * w) <= dR * dR * s). { rewrite Rabs_mult, (Rabs_right (dR * dR)) by nra. apply Rmult_le_compat_l; [nra|exact Hw]. }
    apply Rabs_le_between. apply Rabs_le_between in X1, X2, X3. lra. }
  set (b := 107 / 1000 * m + dR * dR * s) in *.
  assert (Hall : forall x y, interior 9 ny x y -> Rabs (K x y) <= 8 * (b + 10 / 12 * d)).
  { intros x y Hxy.
    assert (T : forall x, (1 <= x)%nat -> (x <= 7)%nat -> interior 9 ny x y) by (intros x' H1 H2; unfold interior in *; lia).
    assert (Z0 : Rabs (K 0%nat y) <= d) by (rewrite <- KE by (unfold interior in Hxy; lia); apply Hed; unfold interior in *; lia).
    assert (Z8 : Rabs (K 8%nat y) <= d) by (rewrite <- KE by (unfold interior in Hxy; lia); apply Hed; unfold interior in *; lia).
    set (t := fun x => lsum (map (fun ow => snd ow * K (Z.to_nat (Z.of_nat x + fst ow)) y) (r2st 9 x))).
    assert (B : forall x, (1 <= x)%nat -> (x <= 7)%nat -> Rabs (t x) <= b) by (intros x' H1 H2; exact (Eq x' y (T x' H1 H2))).
    destruct (radial_edges (K 0%nat y) (K 1%nat y) (K 2%nat y) (K 3%nat y) (K 4%nat y) (K 5%nat y) (K 6%nat y) (K 7%nat y) (K 8%nat y) (t 1%nat) (t 2%nat) (t 3%nat) (t 4%nat) (t 5%nat) (t 6%nat) (t 7%nat) b d) as (V1 & V2 & V3 & V4 & V5 & V6 & V7);
      try (apply B; lia); try assumption;
      try (unfold t, r2st, GS4Proofs.mirror, offset_2nd, centred_2nd; cbn [Nat.eqb Nat.sub map fst snd Z.opp]; rewrite ?lsum_cons, ?lsum_nil; nR;
           repeat match goal with |- context [Z.to_nat ?a] => let b := eval vm_compute in (Z.to_nat a) in change (Z.to_nat a) with b end; lra).
    clear - Hxy V1 V2 V3 V4 V5 V6 V7. unfold interior in Hxy.
    do 8 (destruct x as [|x]; [try assumption; exfalso; lia|]). exfalso. lia. }
  assert (HRs : 0 <= dR * dR * s) by (apply Rmult_le_pos; [nra|exact Hs0]).
  assert (Hm1 : m <= d \/ m <= 8 * (b + 10 / 12 * d)).
  { assert (Ek : k = (k / ny * ny + k mod ny)%nat) by (rewrite Nat.mul_comm; apply Nat.div_mod; lia).
    assert (Hxk : (k / ny < 9)%nat) by (apply Nat.div_lt_upper_bound; lia). assert (Hyk : (k mod ny < ny)%nat) by (apply Nat.mod_upper_bound; lia).
    destruct (interiorb_spec 9 ny (k / ny) (k mod ny)) as [H|H].
    - right. unfold m, v. rewrite KE by assumption. apply Hall. exact H.
    - left. unfold m, v. apply Hed; assumption. }
  intros x y Hx Hy. eapply Rle_trans; [exact (Hv x y Hx Hy)|]. unfold b in Hm1. destruct Hm1 as [Hm1|Hm1]; nra.
Qed.
