(** Consistency of the discrete operators with the differential operator. *)
From Coq Require Import List Arith ZArith Bool Reals Lra Lia.
From Coquelicot Require Import Coquelicot.
From Verif Require Import Py Num Numpy Linalg GradShafranov GradShafranovProofs GS4Proofs GSSpec.
Import ListNotations.
Local Open Scope R_scope.

Definition pl (c0 c1 c2 c3 c4 c5 t : R) : R := c0 + c1 * t + c2 * t ^ 2 + c3 * t ^ 3 + c4 * t ^ 4 + c5 * t ^ 5.
Lemma Derive_pl c0 c1 c2 c3 c4 c5 t :
  Derive (pl c0 c1 c2 c3 c4 c5) t = c1 + 2 * c2 * t + 3 * c3 * t ^ 2 + 4 * c4 * t ^ 3 + 5 * c5 * t ^ 4.
Proof. apply is_derive_unique. unfold pl. auto_derive; [exact I|]. ring. Qed.
Lemma Derive2_pl c0 c1 c2 c3 c4 c5 t :
  Derive_n (pl c0 c1 c2 c3 c4 c5) 2 t = 2 * c2 + 6 * c3 * t + 12 * c4 * t ^ 2 + 20 * c5 * t ^ 3.
Proof.
  transitivity (Derive (fun t => c1 + 2 * c2 * t + 3 * c3 * t ^ 2 + 4 * c4 * t ^ 3 + 5 * c5 * t ^ 4) t).
  { apply Derive_ext. intros s. apply Derive_pl. }
  apply is_derive_unique. auto_derive; [exact I|]. ring.
Qed.

Lemma INR_off y o : (0 <= Z.of_nat y + o)%Z -> INR (Z.to_nat (Z.of_nat y + o)) = INR y + IZR o.
Proof. intros H. rewrite INR_IZR_INZ, Z2Nat.id, plus_IZR, <- INR_IZR_INZ by exact H. reflexivity. Qed.

Definition st (l : list (Z * R)) (f : R -> R) (t h : R) : R :=
  lsum (map (fun ow => snd ow * f (t + h * IZR (fst ow))) l).

Ltac stencil := intros; unfold st, mirror, mirror_neg, offset_2nd, offset_1st, centred_2nd, centred_1st;
  cbn [map fst snd Z.opp]; rewrite !lsum_cons, lsum_nil; unfold pl; nR; field.

Lemma st_centred_2nd c0 c1 c2 c3 c4 c5 t h : st centred_2nd (pl c0 c1 c2 c3 c4 c5) t h
  = h * h * (2 * c2 + 6 * c3 * t + 12 * c4 * t ^ 2 + 20 * c5 * t ^ 3).
Proof. stencil. Qed.
Lemma st_offset_2nd c0 c1 c2 c3 c4 c5 t h : st offset_2nd (pl c0 c1 c2 c3 c4 c5) t h
  = h * h * (2 * c2 + 6 * c3 * t + 12 * c4 * t ^ 2 + 20 * c5 * t ^ 3).
Proof. stencil. Qed.
Lemma st_mirror_2nd c0 c1 c2 c3 c4 c5 t h : st (mirror offset_2nd) (pl c0 c1 c2 c3 c4 c5) t h
  = h * h * (2 * c2 + 6 * c3 * t + 12 * c4 * t ^ 2 + 20 * c5 * t ^ 3).
Proof. stencil. Qed.
Lemma st_centred_1st c0 c1 c2 c3 c4 t h : st centred_1st (pl c0 c1 c2 c3 c4 0) t h
  = h * (c1 + 2 * c2 * t + 3 * c3 * t ^ 2 + 4 * c4 * t ^ 3).
Proof. stencil. Qed.
Lemma st_offset_1st c0 c1 c2 c3 c4 t h : st offset_1st (pl c0 c1 c2 c3 c4 0) t h
  = h * (c1 + 2 * c2 * t + 3 * c3 * t ^ 2 + 4 * c4 * t ^ 3).
Proof. stencil. Qed.
Lemma st_mirror_1st c0 c1 c2 c3 c4 t h : st (mirror_neg offset_1st) (pl c0 c1 c2 c3 c4 0) t h
  = h * (c1 + 2 * c2 * t + 3 * c3 * t ^ 2 + 4 * c4 * t ^ 3).
Proof. stencil. Qed.

Lemma poly2_in_z c r z : poly2 c 5 6 r z
  = let b j := nsum 5 (fun i => c i j * r ^ i) in pl (b 0%nat) (b 1%nat) (b 2%nat) (b 3%nat) (b 4%nat) (b 5%nat) z.
Proof. unfold poly2, pl. cbv zeta. rewrite !nsum_S, !nsum_O. ring. Qed.
Lemma poly2_in_r c r z : poly2 c 5 6 r z
  = let b i := nsum 6 (fun j => c i j * z ^ j) in pl (b 0%nat) (b 1%nat) (b 2%nat) (b 3%nat) (b 4%nat) 0 r.
Proof. unfold poly2, pl. cbv zeta. rewrite !nsum_S, !nsum_O. ring. Qed.

Lemma GS4_exact Rmin Rmax Zmin Zmax nx ny (c : nat -> nat -> R) :
  (6 <= nx)%nat -> (6 <= ny)%nat -> Rmin < Rmax -> Zmin < Zmax ->
  exists A, GSsparse4thOrder Rmin Rmax Zmin Zmax nx ny = Ok A /\
    let psi x y := poly2 c 5 6 (gridpt Rmin Rmax nx x) (gridpt Zmin Zmax ny y) in
    (forall x y, interior nx ny x y -> gridpt Rmin Rmax nx x <> 0 ->
       mat_apply A psi nx ny (x * ny + y) = GSop (poly2 c 5 6) (gridpt Rmin Rmax nx x) (gridpt Zmin Zmax ny y)) /\
    (forall x y, (x < nx)%nat -> (y < ny)%nat -> ~ interior nx ny x y ->
       mat_apply A psi nx ny (x * ny + y) = psi x y).
Proof.
  intros Hnx Hny HR HZ.
  set (psi := fun x y => poly2 c 5 6 (gridpt Rmin Rmax nx x) (gridpt Zmin Zmax ny y)).
  destruct (GS4_apply Rmin Rmax Zmin Zmax nx ny Hnx Hny psi) as (A & E & Hin & Hbd).
  exists A. split; [exact E|]. split; [|exact Hbd].
  intros x y Hi Hr. rewrite Hin by exact Hi.
  assert (PR := spacing_pos Rmin Rmax nx HR ltac:(lia)).
  assert (PZ := spacing_pos Zmin Zmax ny HZ ltac:(lia)).
  set (dR := (Rmax - Rmin) / INR (nx - 1)) in *.
  set (dZ := (Zmax - Zmin) / INR (ny - 1)) in *.
  assert (EZ : lsum (map (fun ow => snd ow * psi x (Z.to_nat (Z.of_nat y + fst ow))) (zst ny y))
     = st (zst ny y) (poly2 c 5 6 (gridpt Rmin Rmax nx x)) (gridpt Zmin Zmax ny y) dZ).
  { apply lsum_ext. intros ow Ho. unfold interior in Hi. apply zst_range in Ho; [|lia..].
    unfold psi. f_equal. f_equal. unfold gridpt. rewrite INR_off by lia. fold dZ. ring. }
  assert (ERg : forall l, (forall ow, In ow l -> (0 <= Z.of_nat x + fst ow < Z.of_nat nx)%Z) ->
     lsum (map (fun ow => snd ow * psi (Z.to_nat (Z.of_nat x + fst ow)) y) l)
     = st l (fun r => poly2 c 5 6 r (gridpt Zmin Zmax ny y)) (gridpt Rmin Rmax nx x) dR).
  { intros l Hl. apply lsum_ext. intros ow Ho. specialize (Hl ow Ho).
    unfold psi. f_equal. f_equal. unfold gridpt. rewrite INR_off by lia. fold dR. ring. }
  rewrite EZ, !ERg; unfold interior in Hi.
  2:{ intros ow Ho. apply r1st_range in Ho; [exact Ho|lia..]. }
  2:{ intros ow Ho. apply r2st_range in Ho; [exact Ho|lia..]. }
  change (Rmin + dR * INR x) with (gridpt Rmin Rmax nx x).
  set (r := gridpt Rmin Rmax nx x) in *. set (z := gridpt Zmin Zmax ny y) in *.
  set (bz := fun j => nsum 5 (fun i => c i j * r ^ i)).
  set (br := fun i => nsum 6 (fun j => c i j * z ^ j)).
  unfold GSop.
  assert (Fz : forall t, poly2 c 5 6 r t = pl (bz 0%nat) (bz 1%nat) (bz 2%nat) (bz 3%nat) (bz 4%nat) (bz 5%nat) t)
    by (intros t; apply poly2_in_z).
  assert (Fr : forall t, poly2 c 5 6 t z = pl (br 0%nat) (br 1%nat) (br 2%nat) (br 3%nat) (br 4%nat) 0 t)
    by (intros t; apply poly2_in_r).
  rewrite (Derive_n_ext (fun t => poly2 c 5 6 t z) _ 2 r Fr), (Derive_n_ext (fun t => poly2 c 5 6 r t) _ 2 z Fz), (Derive_ext (fun t => poly2 c 5 6 t z) _ r Fr).
  rewrite !Derive2_pl, Derive_pl.
  assert (Sext : forall l f g t h, (forall t, f t = g t) -> st l f t h = st l g t h).
  { intros l f g t h Hfg. apply lsum_ext. intros ow _. rewrite Hfg. reflexivity. }
  rewrite (Sext _ _ _ _ _ Fz), !(Sext _ _ _ _ _ Fr).
  assert (ZZ : forall c0 c1 c2 c3 c4 c5 t h, st (zst ny y) (pl c0 c1 c2 c3 c4 c5) t h
      = h * h * (2 * c2 + 6 * c3 * t + 12 * c4 * t ^ 2 + 20 * c5 * t ^ 3)).
  { intros. unfold zst. destruct (y =? 1)%nat; [apply st_offset_2nd|].
    destruct (y =? ny - 2)%nat; [apply st_mirror_2nd|apply st_centred_2nd]. }
  assert (RR : forall c0 c1 c2 c3 c4 c5 t h, st (r2st nx x) (pl c0 c1 c2 c3 c4 c5) t h
      = h * h * (2 * c2 + 6 * c3 * t + 12 * c4 * t ^ 2 + 20 * c5 * t ^ 3)).
  { intros. unfold r2st. destruct (x =? 1)%nat; [apply st_offset_2nd|].
    destruct (x =? nx - 2)%nat; [apply st_mirror_2nd|apply st_centred_2nd]. }
  assert (R1 : forall c0 c1 c2 c3 c4 t h, st (r1st nx x) (pl c0 c1 c2 c3 c4 0) t h
      = h * (c1 + 2 * c2 * t + 3 * c3 * t ^ 2 + 4 * c4 * t ^ 3)).
  { intros. unfold r1st. destruct (x =? 1)%nat; [apply st_offset_1st|].
    destruct (x =? nx - 2)%nat; [apply st_mirror_1st|apply st_centred_1st]. }
  rewrite ZZ, RR, R1. field. repeat split; try exact Hr; lra.
Qed.

(** Second-order operator: exact on the polynomials annihilated by the leading error. *)
Definition low (a b c d e f : R) (r z : R) : R := a + b * z + c * z ^ 2 + d * z ^ 3 + e * r ^ 2 + f * r ^ 2 * z.

Lemma GS2_exact Rmin dR dZ Zmin nx ny a b c d e f x y :
  dR <> 0 -> dZ <> 0 -> interior nx ny x y -> Rmin + dR * INR x <> 0 ->
  GSElliptic Rmin (fun x y => low a b c d e f (Rmin + dR * INR x) (Zmin + dZ * INR y)) nx ny dR dZ x y
  = GSop (low a b c d e f) (Rmin + dR * INR x) (Zmin + dZ * INR y).
Proof.
  intros HdR HdZ Hi Hr. rewrite GSElliptic_interior by assumption.
  set (r := Rmin + dR * INR x) in *. set (z := Zmin + dZ * INR y) in *.
  assert (Fz : forall t, low a b c d e f r t = pl (a + e * r ^ 2) (b + f * r ^ 2) c d 0 0 t) by (intros; unfold low, pl; ring).
  assert (Fr : forall t, low a b c d e f t z = pl (a + b * z + c * z ^ 2 + d * z ^ 3) 0 (e + f * z) 0 0 0 t)
    by (intros; unfold low, pl; ring).
  unfold GSop. rewrite (Derive_n_ext (fun t => low a b c d e f t z) _ 2 r Fr), (Derive_n_ext (fun t => low a b c d e f r t) _ 2 z Fz), (Derive_ext (fun t => low a b c d e f t z) _ r Fr).
  rewrite !Derive2_pl, Derive_pl. unfold five_point, low.
  unfold interior in Hi. rewrite !minus_INR, !plus_INR by lia. unfold r, z in *. simpl (INR 1). field. auto.
Qed.

Lemma GS2_quartic Rmin dR dZ nx ny x y :
  dR <> 0 -> dZ <> 0 -> interior nx ny x y -> Rmin + dR * INR x <> 0 ->
  GSElliptic Rmin (fun x y => (Rmin + dR * INR x) ^ 4) nx ny dR dZ x y
  = GSop (fun r z => r ^ 4) (Rmin + dR * INR x) 0 - 2 * dR ^ 2.
Proof.
  intros HdR HdZ Hi Hr. rewrite GSElliptic_interior by assumption.
  set (r := Rmin + dR * INR x) in *.
  assert (Fr : forall t, t ^ 4 = pl 0 0 0 0 1 0 t) by (intros; unfold pl; ring).
  assert (Fz : forall t : R, r ^ 4 = pl (r ^ 4) 0 0 0 0 0 t) by (intros; unfold pl; ring).
  unfold GSop. rewrite (Derive_n_ext (fun t => t ^ 4) _ 2 r Fr), (Derive_n_ext (fun t => r ^ 4) _ 2 0 Fz), (Derive_ext (fun t => t ^ 4) _ r Fr).
  rewrite !Derive2_pl, Derive_pl. unfold five_point.
  unfold interior in Hi. rewrite !minus_INR, !plus_INR by lia. unfold r in *. simpl (INR 1). field. auto.
Qed.

(** ** Truncation error of the second-order operator for smooth flux *)
Section Taylor.
  Variables (f : R -> R) (a : R).
  Hypothesis Hd : forall t k, a < t -> (k <= 4)%nat -> ex_derive_n f k t.

  Lemma taylor_plus t h : a < t -> 0 < h ->
    exists z, t < z < t + h /\ f (t + h) = f t + h * Derive f t + h ^ 2 / 2 * Derive_n f 2 t + h ^ 3 / 6 * Derive_n f 3 t + h ^ 4 / 24 * Derive_n f 4 z.
  Proof.
    intros Ht Hh. destruct (Taylor_Lagrange f 3 t (t + h)) as (z & Hz & E); [lra| |].
    - intros s Hs k Hk. apply Hd; [lra|exact Hk].
    - exists z. split; [lra|]. rewrite E. unfold sum_f_R0. simpl fact. simpl INR.
      replace (t + h - t) with h by ring. change (Derive_n f 0 t) with (f t). change (Derive_n f 1 t) with (Derive f t).
      field.
  Qed.
  Lemma locally_gt x : a < x -> locally x (fun y => a < y).
  Proof. intros Hx. apply (open_gt a x Hx). Qed.
  Lemma taylor_minus t h : a < t - h -> 0 < h ->
    exists z, t - h < z < t /\ f (t - h) = f t - h * Derive f t + h ^ 2 / 2 * Derive_n f 2 t - h ^ 3 / 6 * Derive_n f 3 t + h ^ 4 / 24 * Derive_n f 4 z.
  Proof.
    intros Ht Hh.
    assert (HD : forall k s, (k <= 4)%nat -> a < s -> Derive_n (fun y => f (- y)) k (- s) = (-1) ^ k * Derive_n f k s).
    { intros k s Hk Hs. rewrite Derive_n_comp_opp.
      - rewrite Ropp_involutive. reflexivity.
      - rewrite Ropp_involutive. apply (filter_imp (fun y => a < y)); [|apply locally_gt; exact Hs].
        intros y Hy j Hj. apply Hd; [exact Hy|lia]. }
    destruct (Taylor_Lagrange (fun y => f (- y)) 3 (- t) (- t + h)) as (z & Hz & E); [lra| |].
    - intros s Hs k Hk. apply ex_derive_n_comp_opp.
      apply (filter_imp (fun y => a < y)); [|apply locally_gt; lra].
      intros y Hy j Hj. apply Hd; [exact Hy|lia].
    - exists (- z). split; [lra|].
      replace (- (- t + h)) with (t - h) in E by ring. rewrite E.
      unfold sum_f_R0. rewrite !HD by (lia || lra).
      replace z with (- - z) at 1 by ring. rewrite HD by (lia || lra).
      change (Derive_n f 0 t) with (f t). change (Derive_n f 1 t) with (Derive f t).
      simpl fact. simpl INR. replace (- t + h - - t) with h by ring. field.
  Qed.

  Lemma second_difference t h M4 : a < t - h -> 0 < h ->
    (forall s, t - h <= s <= t + h -> Rabs (Derive_n f 4 s) <= M4) ->
    Rabs ((f (t + h) - 2 * f t + f (t - h)) / h ^ 2 - Derive_n f 2 t) <= M4 * h ^ 2 / 12.
  Proof.
    intros Ht Hh HM.
    destruct (taylor_plus t h) as (z1 & Hz1 & E1); [lra|lra|].
    destruct (taylor_minus t h) as (z2 & Hz2 & E2); [lra|lra|].
    rewrite E1, E2.
    match goal with |- Rabs ?e <= _ => replace e with (h ^ 2 / 24 * (Derive_n f 4 z1 + Derive_n f 4 z2)) by (field; lra) end.
    assert (B1 := HM z1 ltac:(lra)). assert (B2 := HM z2 ltac:(lra)).
    apply Rabs_le_between in B1. apply Rabs_le_between in B2. apply Rabs_le. nra.
  Qed.
  Lemma first_difference t h M3 M4 : a < t - h -> 0 < h ->
    (forall s, t - h <= s <= t + h -> Rabs (Derive_n f 3 s) <= M3) ->
    (forall s, t - h <= s <= t + h -> Rabs (Derive_n f 4 s) <= M4) ->
    Rabs ((f (t + h) - f (t - h)) / (2 * h) - Derive f t) <= M3 * h ^ 2 / 6 + M4 * h ^ 3 / 24.
  Proof.
    intros Ht Hh HM3 HM.
    destruct (taylor_plus t h) as (z1 & Hz1 & E1); [lra|lra|].
    destruct (taylor_minus t h) as (z2 & Hz2 & E2); [lra|lra|].
    rewrite E1, E2.
    match goal with |- Rabs ?e <= _ => replace e with (h ^ 2 / 6 * Derive_n f 3 t + h ^ 3 / 48 * (Derive_n f 4 z1 - Derive_n f 4 z2)) by (field; lra) end.
    assert (B1 := HM z1 ltac:(lra)). assert (B2 := HM z2 ltac:(lra)). assert (B3 := HM3 t ltac:(lra)).
    apply Rabs_le_between in B1. apply Rabs_le_between in B2. apply Rabs_le_between in B3.
    assert (0 < h ^ 2) by nra. assert (0 < h ^ 3) by (simpl; nra).
    apply Rabs_le. nra.
  Qed.
End Taylor.

Lemma gridpt_range a b n i : a < b -> (2 <= n)%nat -> (i < n)%nat -> a <= gridpt a b n i <= b.
Proof.
  intros Hab Hn Hi. unfold gridpt.
  assert (P := spacing_pos a b n Hab Hn). assert (H0 := pos_INR i).
  assert (Hi' : INR i <= INR (n - 1)) by (apply le_INR; lia).
  assert (HN : 0 < INR (n - 1)) by (apply lt_0_INR; lia).
  split; [nra|]. apply Rle_trans with (a + (b - a) / INR (n - 1) * INR (n - 1)); [nra|].
  right. field. lra.
Qed.
Lemma gridpt_succ a b n i : gridpt a b n (i + 1) = gridpt a b n i + (b - a) / INR (n - 1).
Proof. unfold gridpt. rewrite plus_INR. simpl (INR 1). ring. Qed.
Lemma gridpt_pred a b n i : (1 <= i)%nat -> gridpt a b n (i - 1) = gridpt a b n i - (b - a) / INR (n - 1).
Proof. intros Hi. unfold gridpt. rewrite (minus_INR i 1) by exact Hi. simpl (INR 1). ring. Qed.

Lemma GS2_truncation psi Rmin Rmax Zmin Zmax nx ny M x y :
  0 < Rmin -> Rmin < Rmax -> Zmin < Zmax -> interior nx ny x y ->
  smooth_flux psi Rmin Rmax Zmin Zmax M ->
  let dR := (Rmax - Rmin) / INR (nx - 1) in
  let dZ := (Zmax - Zmin) / INR (ny - 1) in
  let r := gridpt Rmin Rmax nx x in
  let z := gridpt Zmin Zmax ny y in
  Rabs (GSElliptic Rmin (fun x y => psi (gridpt Rmin Rmax nx x) (gridpt Zmin Zmax ny y)) nx ny dR dZ x y
        - GSop psi r z)
  <= M * (dR ^ 2 / 12 + dZ ^ 2 / 12 + (dR ^ 2 / 6 + dR ^ 3 / 24) / Rmin).
Proof.
  intros HR0 HR HZ Hi (Hdr & Hdz & HM) dR dZ r z.
  assert (Hi' := Hi). unfold interior in Hi'.
  assert (PR := spacing_pos Rmin Rmax nx HR ltac:(lia)). fold dR in PR.
  assert (PZ := spacing_pos Zmin Zmax ny HZ ltac:(lia)). fold dZ in PZ.
  assert (Gr := gridpt_range Rmin Rmax nx x HR ltac:(lia) ltac:(lia)). fold r in Gr.
  assert (Gr1 := gridpt_range Rmin Rmax nx (x - 1) HR ltac:(lia) ltac:(lia)).
  assert (Gr2 := gridpt_range Rmin Rmax nx (x + 1) HR ltac:(lia) ltac:(lia)).
  assert (Gz := gridpt_range Zmin Zmax ny y HZ ltac:(lia) ltac:(lia)). fold z in Gz.
  assert (Gz1 := gridpt_range Zmin Zmax ny (y - 1) HZ ltac:(lia) ltac:(lia)).
  assert (Gz2 := gridpt_range Zmin Zmax ny (y + 1) HZ ltac:(lia) ltac:(lia)).
  rewrite gridpt_pred in Gr1, Gz1 by lia. rewrite gridpt_succ in Gr2, Gz2.
  fold dR r in Gr1, Gr2. fold dZ z in Gz1, Gz2.
  rewrite GSElliptic_interior; [|exact Hi|lra|lra|change (r <> 0); lra].
  unfold five_point. cbv zeta.
  change (Rmin + dR * INR x) with r.
  rewrite !gridpt_pred, !gridpt_succ by lia. fold dR dZ r z.
  assert (D2r := second_difference (fun t => psi t z) 0 (fun t k H1 H2 => Hdr t z k H1 H2) r dR M ltac:(lra) PR
     (fun s Hs => proj1 (proj2 (HM s z ltac:(lra) Gz)))).
  assert (D2z := second_difference (fun t => psi r t) (z - dZ - 1) (fun t k H1 H2 => Hdz r t k ltac:(lra) H2) z dZ M ltac:(lra) PZ
     (fun s Hs => proj2 (proj2 (HM r s Gr ltac:(lra))))).
  assert (D1r := first_difference (fun t => psi t z) 0 (fun t k H1 H2 => Hdr t z k H1 H2) r dR M M ltac:(lra) PR
     (fun s Hs => proj1 (HM s z ltac:(lra) Gz)) (fun s Hs => proj1 (proj2 (HM s z ltac:(lra) Gz)))).
  cbv beta in D2r, D2z, D1r. unfold GSop.
  set (a1 := (psi (r + dR) z - 2 * psi r z + psi (r - dR) z) / dR ^ 2) in *.
  set (a2 := (psi (r + dR) z - psi (r - dR) z) / (2 * dR)) in *.
  set (a3 := (psi r (z + dZ) - 2 * psi r z + psi r (z - dZ)) / dZ ^ 2) in *.
  set (b1 := Derive_n (fun t => psi t z) 2 r) in *. set (b2 := Derive (fun t => psi t z) r) in *.
  set (b3 := Derive_n (fun t => psi r t) 2 z) in *.
  replace (a1 - a2 / r + a3 - (b1 - / r * b2 + b3)) with ((a1 - b1) + (a3 - b3) + - ((a2 - b2) * / r)) by (field; lra).
  eapply Rle_trans; [apply Rabs_triang|]. rewrite Rabs_Ropp, Rabs_mult.
  assert (Hir : 0 < / r <= / Rmin) by (split; [apply Rinv_0_lt_compat; lra|apply Rinv_le_contravar; lra]).
  rewrite (Rabs_right (/ r)) by lra.
  assert (HT := Rabs_triang (a1 - b1) (a3 - b3)).
  assert (H0 : 0 <= Rabs (a2 - b2)) by apply Rabs_pos.
  assert (H1 : Rabs (a2 - b2) * / r <= (M * dR ^ 2 / 6 + M * dR ^ 3 / 24) * / Rmin) by nra.
  replace (M * (dR ^ 2 / 12 + dZ ^ 2 / 12 + (dR ^ 2 / 6 + dR ^ 3 / 24) / Rmin))
    with (M * dR ^ 2 / 12 + M * dZ ^ 2 / 12 + (M * dR ^ 2 / 6 + M * dR ^ 3 / 24) * / Rmin) by (field; lra).
  lra.
Qed.

(** ** Convergence of the direct second-order solve *)
Lemma GS2_convergence psi Rmin Rmax Zmin Zmax nx ny M A (u : nat -> nat -> R) :
  0 < Rmin -> Rmin < Rmax -> Zmin < Zmax -> (2 <= nx)%nat -> (2 <= ny)%nat ->
  smooth_flux psi Rmin Rmax Zmin Zmax M ->
  GSsparse Rmin Rmax Zmin Zmax nx ny = Ok A ->
  (forall x y, (x < nx)%nat -> (y < ny)%nat ->
     mat_apply A u nx ny (x * ny + y) =
     if interiorb nx ny x y then GSop psi (gridpt Rmin Rmax nx x) (gridpt Zmin Zmax ny y)
     else psi (gridpt Rmin Rmax nx x) (gridpt Zmin Zmax ny y)) ->
  let dR := (Rmax - Rmin) / INR (nx - 1) in
  let dZ := (Zmax - Zmin) / INR (ny - 1) in
  forall x y, (x < nx)%nat -> (y < ny)%nat ->
  Rabs (u x y - psi (gridpt Rmin Rmax nx x) (gridpt Zmin Zmax ny y))
  <= (Zmax - Zmin) ^ 2 / 8 * (M * (dR ^ 2 / 12 + dZ ^ 2 / 12 + (dR ^ 2 / 6 + dR ^ 3 / 24) / Rmin)).
Proof.
  intros HR0 HR HZ Hnx Hny HS HA Hu dR dZ.
  set (g := fun x y => psi (gridpt Rmin Rmax nx x) (gridpt Zmin Zmax ny y)).
  set (tau := M * (dR ^ 2 / 12 + dZ ^ 2 / 12 + (dR ^ 2 / 6 + dR ^ 3 / 24) / Rmin)).
  assert (PR := spacing_pos Rmin Rmax nx HR ltac:(lia)). fold dR in PR.
  assert (PZ := spacing_pos Zmin Zmax ny HZ ltac:(lia)). fold dZ in PZ.
  set (w := fun (x y : nat) => (gridpt Zmin Zmax ny y - Zmin) * (Zmax - gridpt Zmin Zmax ny y) / 2).
  assert (Lw : forall x y, interior nx ny x y -> GSElliptic Rmin w nx ny dR dZ x y = -1).
  { intros x y Hi. unfold interior in Hi. rewrite GSElliptic_interior; [|exact Hi|lra|lra|].
    - unfold five_point, w. cbv zeta. rewrite gridpt_succ, gridpt_pred by lia. fold dZ.
      assert (Hr : Rmin + dR * INR x <> 0) by (assert (0 <= INR x) by apply pos_INR; nra).
      field. repeat split; try exact Hr; lra.
    - assert (0 <= INR x) by apply pos_INR; nra. }
  assert (Wb : forall y, (y < ny)%nat -> 0 <= w O y <= (Zmax - Zmin) ^ 2 / 8).
  { intros y Hy. unfold w. assert (G := gridpt_range Zmin Zmax ny y HZ Hny Hy). split; [nra|].
    assert (0 <= (2 * gridpt Zmin Zmax ny y - Zmin - Zmax) ^ 2) by apply pow2_ge_0. nra. }
  assert (TAU : 0 <= tau).
  { destruct HS as (_ & _ & HM). destruct (HM Rmin Zmin ltac:(lra) ltac:(lra)) as [B _].
    assert (0 <= M) by (eapply Rle_trans; [apply Rabs_pos|exact B]).
    unfold tau. apply Rmult_le_pos; [assumption|].
    assert (0 <= (dR ^ 2 / 6 + dR ^ 3 / 24) / Rmin).
    { apply Rmult_le_pos; [|left; apply Rinv_0_lt_compat; lra]. assert (0 < dR ^ 3) by (apply pow_lt; exact PR). assert (0 < dR ^ 2) by (apply pow_lt; exact PR). lra. }
    nra. }
  assert (Le : forall x y, interior nx ny x y ->
     Rabs (GSElliptic Rmin u nx ny dR dZ x y - GSElliptic Rmin g nx ny dR dZ x y) <= tau).
  { intros x y Hi. assert (Hi' := Hi). unfold interior in Hi'.
    specialize (Hu x y ltac:(lia) ltac:(lia)).
    rewrite (A_apply Rmin Rmax Zmin Zmax nx ny A HA) in Hu by lia.
    destruct (interiorb_spec nx ny x y) as [_|]; [|contradiction]. fold dR dZ in Hu. rewrite Hu.
    rewrite Rabs_minus_sym. unfold g, tau. apply GS2_truncation; assumption. }
  assert (Be : forall x y, (x < nx)%nat -> (y < ny)%nat -> ~ interior nx ny x y -> u x y = g x y).
  { intros x y Hx Hy Hn. specialize (Hu x y Hx Hy).
    rewrite (A_apply Rmin Rmax Zmin Zmax nx ny A HA) in Hu by assumption.
    destruct (interiorb_spec nx ny x y) as [|_]; [contradiction|]. exact Hu. }
  assert (KEY : forall s, s = 1 \/ s = -1 -> forall x y, (x < nx)%nat -> (y < ny)%nat ->
     0 <= 1 * (tau * w x y + 0 * w x y) + s * (1 * u x y + (-1) * g x y)).
  { intros s Hs x y Hx Hy.
    apply (min_principle Rmin dR dZ nx ny ltac:(lra) PR PZ
      (fun x y => 1 * (tau * w x y + 0 * w x y) + s * (1 * u x y + (-1) * g x y)) 0); try assumption.
    - intros a b Hi. rewrite (GSElliptic_lin Rmin (fun x y => tau * w x y + 0 * w x y) (fun x y => 1 * u x y + (-1) * g x y)).
      rewrite !GSElliptic_lin, Lw by exact Hi. specialize (Le a b Hi). apply Rabs_le_between in Le.
      destruct Hs as [-> | ->]; lra.
    - intros a b Ha Hb Hn. rewrite (Be a b Ha Hb Hn).
      assert (Hw := proj1 (Wb b Hb)). change (w O b) with (w a b) in Hw.
      assert (0 <= tau * w a b) by (apply Rmult_le_pos; assumption). destruct Hs as [-> | ->]; lra. }
  intros x y Hx Hy.
  assert (K1 := KEY 1 (or_introl eq_refl) x y Hx Hy). assert (K2 := KEY (-1) (or_intror eq_refl) x y Hx Hy).
  assert (Hw := Wb y Hy). change (w O y) with (w x y) in Hw. fold (g x y).
  assert (tau * w x y <= (Zmax - Zmin) ^ 2 / 8 * tau) by (rewrite (Rmult_comm _ tau); apply Rmult_le_compat_l; lra).
  apply Rabs_le. lra.
Qed.

Lemma smooth_flux_example : smooth_flux (fun r z => r ^ 2 * z) 1 2 (-1) 1 0.
Proof.
  assert (Hr : forall z t, t ^ 2 * z = pl 0 0 z 0 0 0 t) by (intros; unfold pl; ring).
  assert (Hz : forall r t, r ^ 2 * t = pl 0 (r ^ 2) 0 0 0 0 t) by (intros; unfold pl; ring).
  assert (D : forall c0 c1 c2 k t, Derive_n (pl c0 c1 c2 0 0 0) (S (S (S k))) t = 0).
  { intros c0 c1 c2 k t. replace (S (S (S k))) with (S k + 2)%nat by lia. rewrite <- (Derive_n_comp (pl c0 c1 c2 0 0 0) (S k) 2 t).
    rewrite (Derive_n_ext _ (fun _ => 2 * c2)); [apply Derive_n_const|].
    intros s. rewrite Derive2_pl. ring. }
  assert (EX : forall c0 c1 c2 k t, ex_derive_n (pl c0 c1 c2 0 0 0) k t).
  { intros c0 c1 c2 k t.
    assert (H1 : forall s, c1 + 2 * c2 * s = Derive (pl c0 c1 c2 0 0 0) s) by (intros; rewrite Derive_pl; ring).
    assert (H2 : forall s, 2 * c2 = Derive_n (pl c0 c1 c2 0 0 0) 2 s) by (intros; rewrite Derive2_pl; ring).
    destruct k as [|[|[|k]]]; [exact I| | |].
    - cbn. unfold pl. auto_derive. exact I.
    - cbn. apply (ex_derive_ext (fun t => c1 + 2 * c2 * t)).
      + exact H1.
      + auto_derive. exact I.
    - cbn. destruct k as [|k].
      + apply (ex_derive_ext (fun t => 2 * c2)).
        * exact H2.
        * auto_derive. exact I.
      + apply (ex_derive_ext (fun _ => 0)); [|apply ex_derive_const].
        intros s. symmetry. apply (D c0 c1 c2 k s). }
  split; [|split].
  - intros r z k _ _. apply (ex_derive_n_ext (pl 0 0 z 0 0 0)); [intros; symmetry; apply Hr|apply EX].
  - intros r z k _ _. apply (ex_derive_n_ext (pl 0 (r ^ 2) 0 0 0 0)); [intros; symmetry; apply Hz|apply EX].
  - intros r z _ _. rewrite !(Derive_n_ext (fun t => t ^ 2 * z) _ _ r (Hr z)).
    rewrite (Derive_n_ext (fun t => r ^ 2 * t) _ 4 z (Hz r)). rewrite !D, Rabs_R0. lra.
Qed.
