(** Lemmas about the fourth-order matrix: uniqueness, mirror images and a family of grids on which it is regular
    (freegs/gradshafranov.py 153-269). *)
From Coq Require Import List Arith ZArith QArith Bool Reals Lra Lia.
From Coquelicot Require Import Rcomplements.
From Verif Require Import Py Num Numpy Linalg Gauss GradShafranov GradShafranovProofs GS4Proofs EquilibriumSpec.
Import ListNotations.
Local Open Scope R_scope.

(** A matrix whose systems can all be solved has no kernel. *)
Lemma solves_injective lu N A : solves_systems lu N A ->
  forall v, (forall r, (r < N)%nat -> nsum N (fun c => A r c * v c) = 0) -> forall c, (c < N)%nat -> v c = 0.
Proof.
  intros Hs v Hv. set (B := fun r c => lu N A (fun i => if (i =? c)%nat then 1 else 0) r).
  assert (AB : forall w r, (r < N)%nat -> nsum N (fun k => A r k * nsum N (fun c => B k c * w c)) = w r).
  { intros w r Hr. rewrite (nsum_ext N _ (fun k => nsum N (fun c => A r k * B k c * w c))).
    2:{ intros k Hk. rewrite <- nsum_scal. apply nsum_ext. intros c Hc. ring. }
    rewrite nsum_swap. rewrite (nsum_ext N _ (fun c => (if (c =? r)%nat then 1 else 0) * w c)).
    - rewrite nsum_delta by exact Hr. ring.
    - intros c Hc. rewrite (nsum_ext N _ (fun k => w c * (A r k * B k c))) by (intros k Hk; ring). rewrite nsum_scal. unfold B. rewrite Hs by exact Hr.
      rewrite (Nat.eqb_sym r c). ring. }
  assert (HB : forall x, (forall i, (i < N)%nat -> nsum N (fun j => B i j * x j) = 0) -> forall j, (j < N)%nat -> x j = 0).
  { intros x Hx j Hj. rewrite <- (AB x j Hj). apply nsum_zero. intros k Hk. rewrite Hx by exact Hk. ring. }
  assert (E := elimination_solves N B v HB). set (x := elimination N B v) in *.
  assert (X0 : forall j, (j < N)%nat -> x j = 0).
  { intros j Hj. rewrite <- (AB x j Hj), <- (Hv j Hj). apply nsum_ext. intros k Hk. rewrite E by exact Hk. reflexivity. }
  intros c Hc. rewrite <- (E c Hc). apply nsum_zero. intros k Hk. rewrite X0 by exact Hk. ring.
Qed.

(** ** The rows *)
Section Rows.
  Variables (Rmin Rmax Zmin Zmax : R) (nx ny : nat) (A : arr2 R).
  Hypothesis Hnx : (6 <= nx)%nat.
  Hypothesis Hny : (6 <= ny)%nat.
  Hypothesis EA : GSsparse4thOrder Rmin Rmax Zmin Zmax nx ny = Ok A.
  Let dR := (Rmax - Rmin) / INR (nx - 1).
  Let dZ := (Zmax - Zmin) / INR (ny - 1).
  Lemma row_in psi x y : interior nx ny x y -> mat_apply A psi nx ny (x * ny + y)%nat =
    lsum (map (fun ow => snd ow * psi x (Z.to_nat (Z.of_nat y + fst ow))) (zst ny y)) / (dZ * dZ)
    + lsum (map (fun ow => snd ow * psi (Z.to_nat (Z.of_nat x + fst ow)) y) (r2st nx x)) / (dR * dR)
    - lsum (map (fun ow => snd ow * psi (Z.to_nat (Z.of_nat x + fst ow)) y) (r1st nx x)) / (dR * (Rmin + dR * INR x)).
  Proof using Hnx Hny EA.
    intros H. destruct (GS4_apply Rmin Rmax Zmin Zmax nx ny Hnx Hny psi) as (A' & EA' & H1 & _). rewrite EA in EA'. injection EA' as <-. exact (H1 x y H).
  Qed.
  Lemma row_edge psi x y : (x < nx)%nat -> (y < ny)%nat -> ~ interior nx ny x y -> mat_apply A psi nx ny (x * ny + y)%nat = psi x y.
  Proof using Hnx Hny EA.
    intros Hx Hy H. destruct (GS4_apply Rmin Rmax Zmin Zmax nx ny Hnx Hny psi) as (A' & EA' & _ & H2). rewrite EA in EA'. injection EA' as <-. exact (H2 x y Hx Hy H).
  Qed.

  (** *** Two fluxes with the same equation and the same edge are the same. *)
  Lemma unique4 lu u v : solves_systems lu (nx * ny) A ->
    (forall x y, interior nx ny x y -> mat_apply A u nx ny (x * ny + y)%nat = mat_apply A v nx ny (x * ny + y)%nat) ->
    (forall x y, (x < nx)%nat -> (y < ny)%nat -> ~ interior nx ny x y -> u x y = v x y) ->
    forall x y, (x < nx)%nat -> (y < ny)%nat -> u x y = v x y.
  Proof using Hnx Hny EA.
    intros Hs Hi He x y Hx Hy. set (w := fun x y => 1 * u x y + (-1) * v x y).
    assert (Hrow : forall r, (r < nx * ny)%nat -> nsum (nx * ny) (fun c => A r c * w (c / ny)%nat (c mod ny)%nat) = 0).
    { intros r Hr. change (mat_apply A w nx ny r = 0).
      assert (Er : r = (r / ny * ny + r mod ny)%nat) by (rewrite Nat.mul_comm; apply Nat.div_mod; lia).
      assert (Hxr : (r / ny < nx)%nat) by (apply Nat.div_lt_upper_bound; lia). assert (Hyr : (r mod ny < ny)%nat) by (apply Nat.mod_upper_bound; lia).
      rewrite Er. unfold w. rewrite mat_apply_lin. set (xx := (r / ny)%nat) in *. set (yy := (r mod ny)%nat) in *.
      destruct (interiorb_spec nx ny xx yy) as [H|H].
      - rewrite (Hi xx yy H). ring.
      - rewrite !row_edge by assumption. rewrite (He xx yy Hxr Hyr H). ring. }
    assert (W := solves_injective lu (nx * ny) A Hs (fun c => w (c / ny)%nat (c mod ny)%nat) Hrow (x * ny + y)%nat (row_bound nx ny x y Hx Hy)).
    cbv beta in W. rewrite Nat.div_add_l, (Nat.div_small y ny), Nat.add_0_r in W by lia. rewrite Nat.add_comm, Nat.mod_add, Nat.mod_small in W by lia. unfold w in W. lra.
  Qed.

  (** *** The mirror image in the middle of the domain *)
  Lemma zst_mirror (g : Z -> R) y : (1 <= y)%nat -> (y + 1 < ny)%nat ->
    lsum (map (fun ow => snd ow * g (fst ow)) (zst ny (ny - 1 - y))) = lsum (map (fun ow => snd ow * g (- fst ow)%Z) (zst ny y)).
  Proof using Hny.
    clear Hnx EA. intros H1 H2. unfold zst. destruct (Nat.eqb_spec (ny - 1 - y) 1), (Nat.eqb_spec y 1), (Nat.eqb_spec y (ny - 2)), (Nat.eqb_spec (ny - 1 - y) (ny - 2)); try lia;
      unfold GS4Proofs.mirror, offset_2nd, centred_2nd; cbn [map fst snd Z.opp]; rewrite ?lsum_cons, ?lsum_nil; ring.
  Qed.
  Lemma row_mirror psi x y : interior nx ny x y ->
    mat_apply A (fun x y => psi x (ny - 1 - y)%nat) nx ny (x * ny + y)%nat = mat_apply A psi nx ny (x * ny + (ny - 1 - y))%nat.
  Proof using Hnx Hny EA.
    intros H. assert (H' : interior nx ny x (ny - 1 - y)) by (unfold interior in *; lia). rewrite (row_in _ x y H), (row_in _ x _ H'). f_equal. f_equal. f_equal.
    rewrite (zst_mirror (fun o => psi x (Z.to_nat (Z.of_nat (ny - 1 - y) + o)))) by (unfold interior in H; lia).
    f_equal. apply map_ext_in. intros ow Ho. apply zst_range in Ho; [|unfold interior in H; lia..]. f_equal. f_equal. unfold interior in H. lia.
  Qed.
End Rows.

(** ** Nine points in R: the radial part of the matrix dominates if the cells are tall and far from the axis *)
Lemma radial_inverse v1 v2 v3 v4 v5 v6 v7 t1 t2 t3 t4 t5 t6 t7 b :
  t1 = (-15 * v1 - 4 * v2 + 14 * v3 - 6 * v4 + v5) / 12 ->
  t2 = (16 * v1 - 30 * v2 + 16 * v3 - v4) / 12 ->
  t3 = (- v1 + 16 * v2 - 30 * v3 + 16 * v4 - v5) / 12 ->
  t4 = (- v2 + 16 * v3 - 30 * v4 + 16 * v5 - v6) / 12 ->
  t5 = (- v3 + 16 * v4 - 30 * v5 + 16 * v6 - v7) / 12 ->
  t6 = (- v4 + 16 * v5 - 30 * v6 + 16 * v7) / 12 ->
  t7 = (v3 - 6 * v4 + 14 * v5 - 4 * v6 - 15 * v7) / 12 ->
  Rabs t1 <= b -> Rabs t2 <= b -> Rabs t3 <= b -> Rabs t4 <= b -> Rabs t5 <= b -> Rabs t6 <= b -> Rabs t7 <= b ->
  Rabs v1 <= 8 * b /\ Rabs v2 <= 8 * b /\ Rabs v3 <= 8 * b /\ Rabs v4 <= 8 * b /\ Rabs v5 <= 8 * b /\ Rabs v6 <= 8 * b /\ Rabs v7 <= 8 * b.
Proof.
  intros E1 E2 E3 E4 E5 E6 E7 B1 B2 B3 B4 B5 B6 B7.
  assert (V1 : v1 = -23511/21728*t1 - 3483/10864*t2 - 19527/21728*t3 - 42/97*t4 - 26959/65184*t5 - 5987/32592*t6 - 10975/65184*t7) by lra.
  assert (V2 : v2 = -292/291*t1 - 301/291*t2 - 436/291*t3 - 90/97*t4 - 242/291*t5 - 107/291*t6 - 98/291*t7) by lra.
  assert (V3 : v3 = -54851/65184*t1 - 29815/32592*t2 - 131315/65184*t3 - 138/97*t4 - 81457/65184*t5 - 17981/32592*t6 - 32929/65184*t7) by lra.
  assert (V4 : v4 = -196/291*t1 - 214/291*t2 - 484/291*t3 - 180/97*t4 - 484/291*t5 - 214/291*t6 - 196/291*t7) by lra.
  assert (V5 : v5 = -32929/65184*t1 - 17981/32592*t2 - 81457/65184*t3 - 138/97*t4 - 131315/65184*t5 - 29815/32592*t6 - 54851/65184*t7) by lra.
  assert (V6 : v6 = -98/291*t1 - 107/291*t2 - 242/291*t3 - 90/97*t4 - 436/291*t5 - 301/291*t6 - 292/291*t7) by lra.
  assert (V7 : v7 = -10975/65184*t1 - 5987/32592*t2 - 26959/65184*t3 - 42/97*t4 - 19527/21728*t5 - 3483/10864*t6 - 23511/21728*t7) by lra.
  clear E1 E2 E3 E4 E5 E6 E7. apply Rabs_le_between in B1, B2, B3, B4, B5, B6, B7.
  repeat split; apply Rabs_le_between; lra.
Qed.

Lemma argmax n (f : nat -> R) : exists k, (k < S n)%nat /\ forall i, (i < S n)%nat -> f i <= f k.
Proof.
  induction n as [|n (k & Hk & H)]; [exists 0%nat; split; [lia|]; intros i Hi; replace i with 0%nat by lia; lra|].
  destruct (Rle_dec (f (S n)) (f k)) as [L|L].
  - exists k. split; [lia|]. intros i Hi. destruct (Nat.eq_dec i (S n)) as [->|]; [exact L|apply H; lia].
  - exists (S n). split; [lia|]. intros i Hi. destruct (Nat.eq_dec i (S n)) as [->|]; [lra|]. assert (X := H i ltac:(lia)). lra.
Qed.
Lemma zst_bound ny y (g : Z -> R) m : (forall o, Rabs (g o) <= m) -> Rabs (lsum (map (fun ow => snd ow * g (fst ow)) (zst ny y))) <= 64 / 12 * m.
Proof.
  intros H. assert (B : forall o, - m <= g o <= m) by (intros o; apply Rabs_le_between, H).
  assert (B1 := B (-4)%Z). assert (B2 := B (-3)%Z). assert (B3 := B (-2)%Z). assert (B4 := B (-1)%Z). assert (B5 := B 0%Z). assert (B6 := B 1%Z). assert (B7 := B 2%Z). assert (B8 := B 3%Z). assert (B9 := B 4%Z).
  unfold zst. destruct (y =? 1)%nat; [|destruct (y =? ny - 2)%nat]; unfold GS4Proofs.mirror, offset_2nd, centred_2nd; cbn [map fst snd Z.opp]; rewrite ?lsum_cons, ?lsum_nil; nR; apply Rabs_le_between; lra.
Qed.
Lemma r1st_bound nx x (g : Z -> R) m : (forall o, Rabs (g o) <= m) -> Rabs (lsum (map (fun ow => snd ow * g (fst ow)) (r1st nx x))) <= 38 / 12 * m.
Proof.
  intros H. assert (B : forall o, - m <= g o <= m) by (intros o; apply Rabs_le_between, H).
  assert (B2 := B (-3)%Z). assert (B3 := B (-2)%Z). assert (B4 := B (-1)%Z). assert (B5 := B 0%Z). assert (B6 := B 1%Z). assert (B7 := B 2%Z). assert (B8 := B 3%Z).
  unfold r1st. destruct (x =? 1)%nat; [|destruct (x =? nx - 2)%nat]; unfold mirror_neg, offset_1st, centred_1st; cbn [map fst snd Z.opp]; rewrite ?lsum_cons, ?lsum_nil; nR; apply Rabs_le_between; lra.
Qed.
Lemma regular9 rmin rmax zmin zmax ny A : (6 <= ny)%nat -> GSsparse4thOrder rmin rmax zmin zmax 9 ny = Ok A ->
  let dR := (rmax - rmin) / 8 in let dZ := (zmax - zmin) / INR (ny - 1) in 0 < dR -> 10 * dR <= dZ -> 60 * dR <= rmin ->
  forall v, (forall r, (r < 9 * ny)%nat -> nsum (9 * ny) (fun c => A r c * v c) = 0) -> forall c, (c < 9 * ny)%nat -> v c = 0.
Proof.
  intros Hny EA dR dZ HdR HdZ HR v Hv. set (psi := fun x y => v (x * ny + y)%nat).
  assert (Hrow : forall x y, (x < 9)%nat -> (y < ny)%nat -> mat_apply A psi 9 ny (x * ny + y)%nat = 0).
  { intros x y Hx Hy. rewrite <- (Hv _ (row_bound 9 ny x y Hx Hy)). unfold mat_apply. apply nsum_ext. intros c Hc. nR. unfold psi.
    rewrite (Nat.mul_comm (c / ny)), <- Nat.div_mod by lia. reflexivity. }
  assert (H6 : (6 <= 9)%nat) by lia.
  assert (Hed : forall x y, (x < 9)%nat -> (y < ny)%nat -> ~ interior 9 ny x y -> psi x y = 0).
  { intros x y Hx Hy He. rewrite <- (Hrow x y Hx Hy). symmetry. exact (row_edge rmin rmax zmin zmax 9 ny A H6 Hny EA psi x y Hx Hy He). }
  destruct (argmax (9 * ny - 1) (fun c => Rabs (v c))) as (k & Hk & Hm). replace (S (9 * ny - 1)) with (9 * ny)%nat in * by lia.
  set (m := Rabs (v k)) in *. assert (Hm0 : 0 <= m) by apply Rabs_pos.
  set (K := fun x y => if ((x <? 9) && (y <? ny))%nat%bool then psi x y else 0).
  assert (HK : forall x y, Rabs (K x y) <= m).
  { intros x y. unfold K. destruct (Nat.ltb_spec x 9), (Nat.ltb_spec y ny); cbn [andb]; try (rewrite Rabs_R0; exact Hm0). apply Hm. apply row_bound; assumption. }
  assert (KE : forall x y, (x < 9)%nat -> (y < ny)%nat -> psi x y = K x y).
  { intros x y Hx Hy. unfold K. destruct (Nat.ltb_spec x 9), (Nat.ltb_spec y ny); try lia. reflexivity. }
  assert (Eq : forall x y, interior 9 ny x y -> Rabs (lsum (map (fun ow => snd ow * K (Z.to_nat (Z.of_nat x + fst ow)) y) (r2st 9 x))) <= 107 / 1000 * m).
  { intros x y Hxy. assert (E := row_in rmin rmax zmin zmax 9 ny A H6 Hny EA psi x y Hxy). rewrite Hrow in E by (unfold interior in Hxy; lia).
    replace ((rmax - rmin) / INR (9 - 1)) with dR in E by (unfold dR; cbn [Nat.sub INR]; f_equal; lra). fold dZ in E.
    rewrite (map_ext_in _ (fun ow => snd ow * K x (Z.to_nat (Z.of_nat y + fst ow)))) in E.
    2:{ intros ow Ho. apply zst_range in Ho; [|unfold interior in Hxy; lia..]. rewrite KE by (unfold interior in Hxy; lia). reflexivity. }
    rewrite (map_ext_in (fun ow => snd ow * psi (Z.to_nat (Z.of_nat x + fst ow)) y) (fun ow => snd ow * K (Z.to_nat (Z.of_nat x + fst ow)) y) (r2st 9 x)) in E.
    2:{ intros ow Ho. apply (r2st_range 9) in Ho; [|lia..|unfold interior in Hxy; lia|unfold interior in Hxy; lia]. rewrite KE by (unfold interior in Hxy; lia). reflexivity. }
    rewrite (map_ext_in (fun ow => snd ow * psi (Z.to_nat (Z.of_nat x + fst ow)) y) (fun ow => snd ow * K (Z.to_nat (Z.of_nat x + fst ow)) y) (r1st 9 x)) in E.
    2:{ intros ow Ho. apply (r1st_range 9) in Ho; [|lia..|unfold interior in Hxy; lia|unfold interior in Hxy; lia]. rewrite KE by (unfold interior in Hxy; lia). reflexivity. }
    assert (B1 := zst_bound ny y (fun o => K x (Z.to_nat (Z.of_nat y + o))) m (fun o => HK _ _)). assert (B2 := r1st_bound 9 x (fun o => K (Z.to_nat (Z.of_nat x + o)) y) m (fun o => HK _ _)).
    cbv beta in B1, B2. set (a := lsum (map _ (zst ny y))) in *. set (c := lsum (map _ (r1st 9 x))) in *. set (t := lsum (map _ (r2st 9 x))) in *.
    assert (Hr : 60 * dR <= rmin + dR * INR x). { assert (0 <= dR * INR x) by (apply Rmult_le_pos; [lra|apply pos_INR]). lra. }
    set (r := rmin + dR * INR x) in *. clearbody a c t r.
    assert (Et : t = c * (dR / r) - a * ((dR / dZ) * (dR / dZ))).
    { apply (Rmult_eq_reg_r (/ (dR * dR))); [|apply Rinv_neq_0_compat; nra].
      transitivity (c / (dR * r) - a / (dZ * dZ)); [unfold Rdiv in *; lra|field; repeat split; lra]. }
    assert (Q1 : 0 <= dR / r <= 1 / 60).
    { split; [apply Rle_mult_inv_pos; lra|]. apply (Rmult_le_reg_r r); [lra|]. replace (dR / r * r) with dR by (field; lra). lra. }
    assert (Q2 : 0 <= dR / dZ <= 1 / 10).
    { split; [apply Rle_mult_inv_pos; lra|]. apply (Rmult_le_reg_r dZ); [lra|]. replace (dR / dZ * dZ) with dR by (field; lra). lra. }
    set (q1 := dR / r) in *. set (q2 := dR / dZ) in *. clearbody q1 q2. rewrite Et.
    assert (X1 : Rabs (c * q1) <= 38 / 12 * m * (1 / 60)). { rewrite Rabs_mult, (Rabs_right q1) by lra. apply Rmult_le_compat; try lra. apply Rabs_pos. }
    assert (X2 : Rabs (a * (q2 * q2)) <= 64 / 12 * m * (1 / 100)). { rewrite Rabs_mult, (Rabs_right (q2 * q2)) by nra. apply Rmult_le_compat; [apply Rabs_pos|nra|lra|nra]. }
    apply Rabs_le_between. apply Rabs_le_between in X1, X2. lra. }
  assert (Hall : forall x y, interior 9 ny x y -> Rabs (K x y) <= 8 * (107 / 1000 * m)).
  { intros x y Hxy.
    assert (T : forall x, (1 <= x)%nat -> (x <= 7)%nat -> interior 9 ny x y) by (intros x' H1 H2; unfold interior in *; lia).
    assert (Z0 : K 0%nat y = 0) by (rewrite <- KE by (unfold interior in Hxy; lia); apply Hed; unfold interior in *; lia).
    assert (Z8 : K 8%nat y = 0) by (rewrite <- KE by (unfold interior in Hxy; lia); apply Hed; unfold interior in *; lia).
    set (t := fun x => lsum (map (fun ow => snd ow * K (Z.to_nat (Z.of_nat x + fst ow)) y) (r2st 9 x))).
    assert (B : forall x, (1 <= x)%nat -> (x <= 7)%nat -> Rabs (t x) <= 107 / 1000 * m) by (intros x' H1 H2; exact (Eq x' y (T x' H1 H2))).
    destruct (radial_inverse (K 1%nat y) (K 2%nat y) (K 3%nat y) (K 4%nat y) (K 5%nat y) (K 6%nat y) (K 7%nat y) (t 1%nat) (t 2%nat) (t 3%nat) (t 4%nat) (t 5%nat) (t 6%nat) (t 7%nat) (107 / 1000 * m)) as (V1 & V2 & V3 & V4 & V5 & V6 & V7);
      try (apply B; lia);
      try (unfold t, r2st, GS4Proofs.mirror, offset_2nd, centred_2nd; cbn [Nat.eqb Nat.sub map fst snd Z.opp]; rewrite ?lsum_cons, ?lsum_nil; nR;
           repeat match goal with |- context [Z.to_nat ?a] => let b := eval vm_compute in (Z.to_nat a) in change (Z.to_nat a) with b end; rewrite ?Z0, ?Z8; lra).
    clear - Hxy V1 V2 V3 V4 V5 V6 V7. unfold interior in Hxy.
    do 8 (destruct x as [|x]; [try assumption; exfalso; lia|]). exfalso. lia. }
  assert (Hm1 : m <= 8 * (107 / 1000 * m)).
  { assert (Ek : k = (k / ny * ny + k mod ny)%nat) by (rewrite Nat.mul_comm; apply Nat.div_mod; lia).
    assert (Hxk : (k / ny < 9)%nat) by (apply Nat.div_lt_upper_bound; lia). assert (Hyk : (k mod ny < ny)%nat) by (apply Nat.mod_upper_bound; lia).
    assert (Em : m = Rabs (psi (k / ny)%nat (k mod ny)%nat)) by (unfold m, psi; rewrite <- Ek; reflexivity).
    destruct (interiorb_spec 9 ny (k / ny) (k mod ny)) as [H|H].
    - rewrite Em at 1. rewrite KE by assumption. apply Hall. exact H.
    - rewrite (Hed _ _ Hxk Hyk H), Rabs_R0 in Em. lra. }
  assert (M0 : m = 0) by lra. intros c Hc. assert (X := Hm c Hc). rewrite M0 in X. assert (Y := Rabs_pos (v c)). destruct (Req_dec (v c) 0) as [E|E]; [exact E|]. apply Rabs_pos_lt in E. lra.
Qed.
