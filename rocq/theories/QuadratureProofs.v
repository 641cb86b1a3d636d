(** Lemmas about quadrature.py. *)
From Coq Require Import List Arith ZArith Bool Reals Lra Lia.
From Coquelicot Require Import Coquelicot.
From Verif Require Import Py Num Numpy Polygons PolySpec PolygonsProofs Quadrature QuadSpec.
Import ListNotations.
Local Open Scope R_scope.

(** ** The mean of a quartic over a triangle *)
Definition anti4 (k : nat -> nat -> R) (u : R) : R :=
  k 0%nat 0%nat * ((1) * u ^ 1 / 1 + (-1) * u ^ 2 / 2)
  + k 0%nat 1%nat * ((1) * u ^ 1 / 2 + (-2) * u ^ 2 / 4 + (1) * u ^ 3 / 6)
  + k 0%nat 2%nat * ((1) * u ^ 1 / 3 + (-3) * u ^ 2 / 6 + (3) * u ^ 3 / 9 + (-1) * u ^ 4 / 12)
  + k 0%nat 3%nat * ((1) * u ^ 1 / 4 + (-4) * u ^ 2 / 8 + (6) * u ^ 3 / 12 + (-4) * u ^ 4 / 16 + (1) * u ^ 5 / 20)
  + k 0%nat 4%nat * ((1) * u ^ 1 / 5 + (-5) * u ^ 2 / 10 + (10) * u ^ 3 / 15 + (-10) * u ^ 4 / 20 + (5) * u ^ 5 / 25 + (-1) * u ^ 6 / 30)
  + k 1%nat 0%nat * ((1) * u ^ 2 / 2 + (-1) * u ^ 3 / 3)
  + k 1%nat 1%nat * ((1) * u ^ 2 / 4 + (-2) * u ^ 3 / 6 + (1) * u ^ 4 / 8)
  + k 1%nat 2%nat * ((1) * u ^ 2 / 6 + (-3) * u ^ 3 / 9 + (3) * u ^ 4 / 12 + (-1) * u ^ 5 / 15)
  + k 1%nat 3%nat * ((1) * u ^ 2 / 8 + (-4) * u ^ 3 / 12 + (6) * u ^ 4 / 16 + (-4) * u ^ 5 / 20 + (1) * u ^ 6 / 24)
  + k 2%nat 0%nat * ((1) * u ^ 3 / 3 + (-1) * u ^ 4 / 4)
  + k 2%nat 1%nat * ((1) * u ^ 3 / 6 + (-2) * u ^ 4 / 8 + (1) * u ^ 5 / 10)
  + k 2%nat 2%nat * ((1) * u ^ 3 / 9 + (-3) * u ^ 4 / 12 + (3) * u ^ 5 / 15 + (-1) * u ^ 6 / 18)
  + k 3%nat 0%nat * ((1) * u ^ 4 / 4 + (-1) * u ^ 5 / 5)
  + k 3%nat 1%nat * ((1) * u ^ 4 / 8 + (-2) * u ^ 5 / 10 + (1) * u ^ 6 / 12)
  + k 4%nat 0%nat * ((1) * u ^ 5 / 5 + (-1) * u ^ 6 / 6).
Definition mean4 (k : nat -> nat -> R) : R :=
  k 0%nat 0%nat * (2 / 2)
  + k 0%nat 1%nat * (2 / 6)
  + k 0%nat 2%nat * (4 / 24)
  + k 0%nat 3%nat * (12 / 120)
  + k 0%nat 4%nat * (48 / 720)
  + k 1%nat 0%nat * (2 / 6)
  + k 1%nat 1%nat * (2 / 24)
  + k 1%nat 2%nat * (4 / 120)
  + k 1%nat 3%nat * (12 / 720)
  + k 2%nat 0%nat * (4 / 24)
  + k 2%nat 1%nat * (4 / 120)
  + k 2%nat 2%nat * (8 / 720)
  + k 3%nat 0%nat * (12 / 120)
  + k 3%nat 1%nat * (12 / 720)
  + k 4%nat 0%nat * (48 / 720).
Definition inner4 (k : nat -> nat -> R) (u t : R) : R :=
  k 0%nat 0%nat * u ^ 0 * t ^ 1 / 1
  + k 0%nat 1%nat * u ^ 0 * t ^ 2 / 2
  + k 0%nat 2%nat * u ^ 0 * t ^ 3 / 3
  + k 0%nat 3%nat * u ^ 0 * t ^ 4 / 4
  + k 0%nat 4%nat * u ^ 0 * t ^ 5 / 5
  + k 1%nat 0%nat * u ^ 1 * t ^ 1 / 1
  + k 1%nat 1%nat * u ^ 1 * t ^ 2 / 2
  + k 1%nat 2%nat * u ^ 1 * t ^ 3 / 3
  + k 1%nat 3%nat * u ^ 1 * t ^ 4 / 4
  + k 2%nat 0%nat * u ^ 2 * t ^ 1 / 1
  + k 2%nat 1%nat * u ^ 2 * t ^ 2 / 2
  + k 2%nat 2%nat * u ^ 2 * t ^ 3 / 3
  + k 3%nat 0%nat * u ^ 3 * t ^ 1 / 1
  + k 3%nat 1%nat * u ^ 3 * t ^ 2 / 2
  + k 4%nat 0%nat * u ^ 4 * t ^ 1 / 1.

Definition poly4 (k : nat -> nat -> R) (u v : R) : R :=
  k 0%nat 0%nat * u ^ 0 * v ^ 0 + k 0%nat 1%nat * u ^ 0 * v ^ 1 + k 0%nat 2%nat * u ^ 0 * v ^ 2 + k 0%nat 3%nat * u ^ 0 * v ^ 3 + k 0%nat 4%nat * u ^ 0 * v ^ 4 + k 1%nat 0%nat * u ^ 1 * v ^ 0 + k 1%nat 1%nat * u ^ 1 * v ^ 1 + k 1%nat 2%nat * u ^ 1 * v ^ 2 + k 1%nat 3%nat * u ^ 1 * v ^ 3 + k 2%nat 0%nat * u ^ 2 * v ^ 0 + k 2%nat 1%nat * u ^ 2 * v ^ 1 + k 2%nat 2%nat * u ^ 2 * v ^ 2 + k 3%nat 0%nat * u ^ 3 * v ^ 0 + k 3%nat 1%nat * u ^ 3 * v ^ 1 + k 4%nat 0%nat * u ^ 4 * v ^ 0.
Lemma poly4_expand k u v : poly_uv 4 k u v = poly4 k u v.
Proof. unfold poly_uv, poly4. rewrite !nsum_S. cbn [Nat.sub]. rewrite !nsum_S, !nsum_O. ring. Qed.
Lemma poly4_inner k u t : RInt (fun v => poly_uv 4 k u v) 0 t = inner4 k u t.
Proof.
  rewrite (RInt_ext _ (poly4 k u)) by (intros v _; apply poly4_expand).
  apply is_RInt_unique.
  replace (inner4 k u t) with (minus (inner4 k u t) (inner4 k u 0)).
  - apply (is_RInt_derive (inner4 k u) (poly4 k u)).
    + intros v _. unfold inner4, poly4. auto_derive; [exact I|]. field.
    + intros v _. apply (ex_derive_continuous (poly4 k u)). unfold poly4. auto_derive. exact I.
  - unfold minus, plus, opp; cbn. unfold inner4. field.
Qed.

Lemma poly4_mean k : 2 * RInt (fun u => RInt (fun v => poly_uv 4 k u v) 0 (1 - u)) 0 1 = mean4 k.
Proof.
  rewrite (RInt_ext _ (fun u => inner4 k u (1 - u))) by (intros u _; apply poly4_inner).
  assert (E : RInt (fun u => inner4 k u (1 - u)) 0 1 = anti4 k 1 - anti4 k 0).
  { apply is_RInt_unique. apply (is_RInt_derive (anti4 k) (fun u => inner4 k u (1 - u))).
    - intros u _. unfold anti4, inner4. auto_derive; [exact I|]. field.
    - intros u _. apply (ex_derive_continuous (fun u => inner4 k u (1 - u))). unfold inner4. auto_derive. exact I. }
  rewrite E. unfold anti4, mean4. field.
Qed.

Lemma tri_mean_poly4 k f p1 p2 p3 : is_poly_on 4 k f p1 p2 p3 -> tri_mean f p1 p2 p3 = mean4 k.
Proof.
  intros Hf. unfold tri_mean. rewrite <- poly4_mean. f_equal. apply RInt_ext. intros u _. apply RInt_ext. intros v _. apply Hf.
Qed.
(** lower degrees are the case of vanishing coefficients *)
Definition trunc (d : nat) (k : nat -> nat -> R) (i j : nat) : R := if (i + j <=? d)%nat then k i j else 0.
Lemma poly_trunc d k f p1 p2 p3 : (d <= 4)%nat -> is_poly_on d k f p1 p2 p3 -> is_poly_on 4 (trunc d k) f p1 p2 p3.
Proof.
  intros Hd Hf u v. rewrite (Hf u v). do 5 (destruct d as [|d]; [unfold poly_uv; rewrite !nsum_S; cbn [Nat.sub]; rewrite !nsum_S, !nsum_O; unfold trunc; cbn [Nat.leb Nat.add]; ring|]). lia.
Qed.

(** ** The rules for one triangle *)
Definition qavg (f : R -> R -> R) (q : list (R * R * R)) : R := average f q.
Lemma average_cons f r z w q : average f ((r, z, w) :: q) = f r z * w + average f q.
Proof. unfold average. cbn [map]. rewrite lsum_cons. reflexivity. Qed.
Lemma average_nil f : average f (@nil (R * R * R)) = 0. Proof. reflexivity. Qed.
Lemma average_app f (q1 q2 : list (R * R * R)) : average f (q1 ++ q2) = average f q1 + average f q2.
Proof. unfold average. rewrite map_app. apply lsum_app. Qed.
Lemma average_scale f c (q : list (R * R * R)) : average f (map (fun p => (fst p, snd p * c)) q) = average f q * c.
Proof.
  induction q as [|[[r z] w] q IH]; [rewrite average_nil; cbn [map]; rewrite average_nil; lra|].
  cbn [map fst snd]. rewrite !average_cons, IH. lra.
Qed.

Lemma at_point k d f p1 p2 p3 u v r z : is_poly_on d k f p1 p2 p3 -> (r, z) = tri_point p1 p2 p3 u v -> f r z = poly_uv d k u v.
Proof. intros Hf E. rewrite <- (Hf u v), <- E. reflexivity. Qed.

Ltac solve_point := unfold tri_point; cbn [fst snd]; f_equal; field.

Lemma tri_quad1 (p1 p2 p3 : pt) q : triangle_quad [p1; p2; p3] 1 = Ok q ->
  forall k f, is_poly_on 1 k f p1 p2 p3 -> average f q = tri_mean f p1 p2 p3.
Proof.
  intros E k f Hf. rewrite (tri_mean_poly4 _ _ _ _ _ (poly_trunc 1 k f p1 p2 p3 ltac:(lia) Hf)).
  destruct p1 as [r1 z1], p2 as [r2 z2], p3 as [r3 z3]. cbn [triangle_quad] in E. nR. injection E as <-.
  rewrite average_cons, average_nil.
  rewrite (at_point k 1 f _ _ _ (1 / 3) (1 / 3) _ _ Hf) by solve_point.
  unfold poly_uv. rewrite !nsum_S. cbn [Nat.sub]. rewrite !nsum_S, !nsum_O. unfold mean4, trunc. cbn [Nat.leb Nat.add]. field.
Qed.
Lemma tri_quad3 (p1 p2 p3 : pt) q : triangle_quad [p1; p2; p3] 3 = Ok q ->
  forall k f, is_poly_on 2 k f p1 p2 p3 -> average f q = tri_mean f p1 p2 p3.
Proof.
  intros E k f Hf. rewrite (tri_mean_poly4 _ _ _ _ _ (poly_trunc 2 k f p1 p2 p3 ltac:(lia) Hf)).
  destruct p1 as [r1 z1], p2 as [r2 z2], p3 as [r3 z3]. cbn [triangle_quad] in E. nR. injection E as <-.
  rewrite !average_cons, average_nil.
  rewrite (at_point k 2 f _ _ _ (1 / 6) (1 / 6) _ _ Hf) by solve_point.
  rewrite (at_point k 2 f _ _ _ (4 / 6) (1 / 6) _ _ Hf) by solve_point.
  rewrite (at_point k 2 f _ _ _ (1 / 6) (4 / 6) _ _ Hf) by solve_point.
  unfold poly_uv. rewrite !nsum_S. cbn [Nat.sub]. rewrite !nsum_S, !nsum_O. unfold mean4, trunc. cbn [Nat.leb Nat.add]. field.
Qed.

Definition wa : R := 816847572980459 / 1000000000000000.
Definition wb : R := / 2 * (1 - wa).
Definition wc : R := 108103018168070 / 1000000000000000.
Definition wd : R := / 2 * (1 - wc).
Definition w1 : R := 109951743655322 / 1000000000000000.
Definition w2 : R := 223381589678011 / 1000000000000000.
Definition six (u v : nat) : R :=
  w1 * (wb ^ u * wb ^ v + wa ^ u * wb ^ v + wb ^ u * wa ^ v) + w2 * (wd ^ u * wd ^ v + wc ^ u * wd ^ v + wd ^ u * wc ^ v).

Lemma tri_quad6_form (p1 p2 p3 : pt) q : triangle_quad [p1; p2; p3] 6 = Ok q ->
  q = [(tri_point p1 p2 p3 wb wb, w1); (tri_point p1 p2 p3 wa wb, w1); (tri_point p1 p2 p3 wb wa, w1);
       (tri_point p1 p2 p3 wd wd, w2); (tri_point p1 p2 p3 wc wd, w2); (tri_point p1 p2 p3 wd wc, w2)].
Proof.
  assert (Ea : dec15 816847572980459 = wa) by (unfold dec15; nR; reflexivity).
  assert (Ec : dec15 108103018168070 = wc) by (unfold dec15; nR; reflexivity).
  assert (E1 : dec15 109951743655322 = w1) by (unfold dec15; nR; reflexivity).
  assert (E2 : dec15 223381589678011 = w2) by (unfold dec15; nR; reflexivity).
  destruct p1 as [r1 z1], p2 as [r2 z2], p3 as [r3 z3]. cbn [triangle_quad]. rewrite Ea, Ec, E1, E2. nR. intros E. injection E as <-.
  assert (Hb : wa = 1 - 2 * wb) by (unfold wb; field). assert (Hd : wc = 1 - 2 * wd) by (unfold wd; field).
  replace (1 / 2 * (1 - wa)) with wb by (unfold wb; field). replace (1 / 2 * (1 - wc)) with wd by (unfold wd; field).
  unfold tri_point. cbn [fst snd]. rewrite Hb, Hd. repeat (f_equal; try ring).
Qed.

Lemma six_poly k (p1 p2 p3 : pt) q : triangle_quad [p1; p2; p3] 6 = Ok q -> forall f, is_poly_on 4 k f p1 p2 p3 ->
  average f q = nsum 5 (fun i => nsum (5 - i) (fun j => k i j * six i j)).
Proof.
  intros E f Hf. rewrite (tri_quad6_form _ _ _ _ E).
  assert (Ev : forall u v w l, average f ((tri_point p1 p2 p3 u v, w) :: l) = poly_uv 4 k u v * w + average f l).
  { intros u v w l. unfold average. cbn [map]. rewrite lsum_cons. cbn [fst snd]. rewrite (Hf u v). reflexivity. }
  rewrite !Ev, average_nil, !poly4_expand. unfold poly4.
  rewrite !nsum_S. cbn [Nat.sub]. rewrite !nsum_S, !nsum_O. unfold six. ring.
Qed.

Definition exact4 (i j : nat) : R := 2 * INR (fact i) * INR (fact j) / INR (fact (i + j + 2)).
Lemma six_close i j : (i + j <= 4)%nat -> Rabs (six i j - exact4 i j) <= 1 / 1000000000000000.
Proof.
  intros Hij. unfold six, exact4, wb, wd, wa, wc, w1, w2.
  do 5 (destruct i as [|i]; [do 5 (destruct j as [|j]; [first [exfalso; lia|apply Rabs_le; cbn [fact Nat.mul Nat.add pow]; rewrite !INR_IZR_INZ; cbn [Z.of_nat Pos.of_succ_nat Pos.succ]; lra]|]); lia|]). lia.
Qed.

Lemma nsum_close n (f g h : nat -> R) : (forall i, (i < n)%nat -> Rabs (f i - g i) <= h i) -> Rabs (nsum n f - nsum n g) <= nsum n h.
Proof.
  induction n as [|n IH]; intros Hh; rewrite ?nsum_O, ?nsum_S; [rewrite Rminus_diag_eq, Rabs_R0 by reflexivity; lra|].
  replace (nsum n f + f n - (nsum n g + g n)) with ((nsum n f - nsum n g) + (f n - g n)) by ring.
  eapply Rle_trans; [apply Rabs_triang|]. apply Rplus_le_compat; [apply IH; intros; apply Hh; lia|apply Hh; lia].
Qed.
Lemma mean4_nsum k : mean4 k = nsum 5 (fun i => nsum (5 - i) (fun j => k i j * exact4 i j)).
Proof.
  rewrite !nsum_S. cbn [Nat.sub]. rewrite !nsum_S, !nsum_O. unfold mean4, exact4. cbn [fact Nat.mul Nat.add].
  rewrite !INR_IZR_INZ; cbn [Z.of_nat Pos.of_succ_nat Pos.succ]. field.
Qed.
Lemma tri_quad6 (p1 p2 p3 : pt) q : triangle_quad [p1; p2; p3] 6 = Ok q ->
  forall k f, is_poly_on 4 k f p1 p2 p3 -> Rabs (average f q - tri_mean f p1 p2 p3) <= 1 / 1000000000000000 * poly_size 4 k.
Proof.
  intros E k f Hf. rewrite (tri_mean_poly4 _ _ _ _ _ Hf), mean4_nsum, (six_poly k _ _ _ _ E f Hf).
  unfold poly_size. rewrite <- nsum_scal. apply nsum_close. intros i Hi. rewrite <- nsum_scal. apply nsum_close. intros j Hj.
  rewrite <- Rmult_minus_distr_l, Rabs_mult, Rmult_comm. apply Rmult_le_compat_r; [apply Rabs_pos|]. apply six_close. lia.
Qed.

(** every rule: positive weights with the right sum, points inside the triangle *)
Definition weight_sum (n : nat) : R := if (n =? 6)%nat then 1 - 1 / 1000000000000000 else 1.
Lemma tri_quad_weights n (p1 p2 p3 : pt) q : triangle_quad [p1; p2; p3] n = Ok q ->
  lsum (map snd q) = weight_sum n /\
  forall p w, In (p, w) q -> 0 < w /\ exists u v, 0 < u /\ 0 < v /\ u + v < 1 /\ p = tri_point p1 p2 p3 u v.
Proof.
  intros E.
  assert (Hn : n = 1%nat \/ n = 3%nat \/ n = 6%nat).
  { destruct p1, p2, p3. cbn [triangle_quad] in E. do 7 (destruct n as [|n]; [try discriminate; auto|]). discriminate. }
  destruct Hn as [->|[->| ->]].
  - destruct p1 as [r1 z1], p2 as [r2 z2], p3 as [r3 z3]. cbn [triangle_quad] in E. nR. injection E as <-.
    split; [cbn [map snd]; rewrite lsum_cons, lsum_nil; unfold weight_sum; cbn [Nat.eqb]; lra|].
    intros p w [H|[]]. injection H as <- <-. split; [lra|]. exists (1 / 3), (1 / 3). repeat split; try lra. solve_point.
  - destruct p1 as [r1 z1], p2 as [r2 z2], p3 as [r3 z3]. cbn [triangle_quad] in E. nR. injection E as <-.
    split; [cbn [map snd]; rewrite !lsum_cons, lsum_nil; unfold weight_sum; cbn [Nat.eqb]; lra|].
    intros p w [H|[H|[H|[]]]]; injection H as <- <-; (split; [lra|]).
    + exists (1 / 6), (1 / 6). repeat split; try lra. solve_point.
    + exists (4 / 6), (1 / 6). repeat split; try lra. solve_point.
    + exists (1 / 6), (4 / 6). repeat split; try lra. solve_point.
  - rewrite (tri_quad6_form _ _ _ _ E).
    split; [cbn [map snd]; rewrite !lsum_cons, lsum_nil; unfold weight_sum, w1, w2; cbn [Nat.eqb]; lra|].
    assert (Hw : 0 < w1 /\ 0 < w2) by (unfold w1, w2; lra).
    assert (Hu : 0 < wa /\ 0 < wb /\ 0 < wc /\ 0 < wd /\ wb + wb < 1 /\ wa + wb < 1 /\ wb + wa < 1 /\ wd + wd < 1 /\ wc + wd < 1 /\ wd + wc < 1)
      by (unfold wb, wd, wa, wc; lra).
    intros p w [H|[H|[H|[H|[H|[H|[]]]]]]]; injection H as <- <-; (split; [tauto|]); do 2 eexists; (split; [|split; [|split; [|reflexivity]]]); tauto.
Qed.

(** ** Polygons: weights and centroid *)
Definition gr (p q : pt) : R := (fst p + fst q) * (fst q * snd p - fst p * snd q).
Definition gz (p q : pt) : R := (snd p + snd q) * (fst q * snd p - fst p * snd q).
Lemma gr_antisym p q : gr p q = - gr q p. Proof. unfold gr; ring. Qed.
Lemma gz_antisym p q : gz p q = - gz q p. Proof. unfold gz; ring. Qed.
Lemma centroid_r_cyc p : centroid_r p = / 6 * cyc gr p / area p.
Proof.
  unfold centroid_r. rewrite area_shoelace, cyc_nsum. do 2 f_equal. apply nsum_ext. intros i _. unfold gr.
  destruct (vertex p i), (vertex p (i + 1)). reflexivity.
Qed.
Lemma centroid_z_cyc p : centroid_z p = / 6 * cyc gz p / area p.
Proof.
  unfold centroid_z. rewrite area_shoelace, cyc_nsum. do 2 f_equal. apply nsum_ext. intros i _. unfold gz.
  destruct (vertex p i), (vertex p (i + 1)). reflexivity.
Qed.

Lemma tri_quad_linear n (p1 p2 p3 : pt) q a b c : triangle_quad [p1; p2; p3] n = Ok q ->
  average (fun r z => a + b * r + c * z) q * area [p1; p2; p3] =
  weight_sum n * (a * area [p1; p2; p3] + b * (/ 6 * cyc gr [p1; p2; p3]) + c * (/ 6 * cyc gz [p1; p2; p3])).
Proof.
  intros E.
  assert (EA : area [p1; p2; p3] = / 2 * (gsh p1 p2 + gsh p2 p3 + gsh p3 p1)).
  { rewrite area_gsh. unfold cyc. cbn [app firstn psum]. ring. }
  assert (ER : cyc gr [p1; p2; p3] = gr p1 p2 + gr p2 p3 + gr p3 p1) by (unfold cyc; cbn [app firstn psum]; ring).
  assert (EZ : cyc gz [p1; p2; p3] = gz p1 p2 + gz p2 p3 + gz p3 p1) by (unfold cyc; cbn [app firstn psum]; ring).
  rewrite EA, ER, EZ.
  assert (Hn : n = 1%nat \/ n = 3%nat \/ n = 6%nat).
  { destruct p1, p2, p3. cbn [triangle_quad] in E. do 7 (destruct n as [|n]; [try discriminate; auto|]). discriminate. }
  destruct Hn as [->|[->| ->]].
  - destruct p1 as [r1 z1], p2 as [r2 z2], p3 as [r3 z3]. cbn [triangle_quad] in E. nR. injection E as <-.
    rewrite average_cons, average_nil. unfold weight_sum, gsh, gr, gz. cbn [Nat.eqb fst snd]. field.
  - destruct p1 as [r1 z1], p2 as [r2 z2], p3 as [r3 z3]. cbn [triangle_quad] in E. nR. injection E as <-.
    rewrite !average_cons, average_nil. unfold weight_sum, gsh, gr, gz. cbn [Nat.eqb fst snd]. field.
  - rewrite (tri_quad6_form _ _ _ _ E).
    assert (Ha : wa = 1 - 2 * wb) by (unfold wb; field). assert (Hc : wc = 1 - 2 * wd) by (unfold wd; field).
    assert (Hw : weight_sum 6 = 3 * w1 + 3 * w2) by (unfold weight_sum, w1, w2; cbn [Nat.eqb]; lra).
    rewrite Hw, Ha, Hc. destruct p1 as [r1 z1], p2 as [r2 z2], p3 as [r3 z3]. unfold tri_point. cbn [fst snd].
    rewrite !average_cons, average_nil. unfold gsh, gr, gz. cbn [fst snd]. field.
Qed.

Lemma foldM_quad n total f : forall (tas : list (list pt * R)) acc q,
  foldM (fun quadrature ta => let '(triangle, area) := ta in
     bind (triangle_quad triangle n) (fun points => Ok (quadrature ++ map (fun p => (fst p, snd p * area / total)) points))) tas acc = Ok q ->
  exists l, Forall2 (fun ta x => exists pts, triangle_quad (fst ta) n = Ok pts /\ x = average f pts * snd ta / total) tas l /\
            average f q = average f acc + lsum l.
Proof.
  induction tas as [|[t a] tas IH]; intros acc q E; cbn [foldM] in E.
  - injection E as <-. exists []. split; [constructor|rewrite lsum_nil; lra].
  - destruct (triangle_quad t n) as [pts|e] eqn:Et; cbn [bind] in E; [|discriminate].
    destruct (IH _ _ E) as (l & Hl & Hs). exists (average f pts * a / total :: l). split.
    + constructor; [exists pts; split; [exact Et|reflexivity]|exact Hl].
    + rewrite Hs, lsum_cons, average_app.
      rewrite (map_ext _ (fun p => (fst p, snd p * (a / total)))) by (intros p; unfold Rdiv; rewrite Rmult_assoc; reflexivity).
      rewrite average_scale. unfold Rdiv. ring.
Qed.

Lemma polygon_quad_linear fuel n (p : list pt) q a b c : polygon_quad fuel p n = Ok q -> area p <> 0 ->
  average (fun r z => a + b * r + c * z) q = weight_sum n * (a + b * centroid_r p + c * centroid_z p).
Proof.
  unfold polygon_quad. destruct (triangulate fuel p) as [ts|e] eqn:Et; cbn [bind]; [|discriminate]. intros E Ha.
  destruct (triangulate_good _ _ _ Et) as (_ & Hg & Hq). cbv zeta in Hg, Hq. set (pp := if clockwise p then p else rev p) in *.
  assert (Hsum := good_area _ _ Hg). destruct Hg as (_ & Hlen & _ & Hcyc & _).
  set (f := fun r z => a + b * r + c * z) in *. rewrite Hsum in E.
  destruct (foldM_quad n (area pp) f _ _ _ E) as (l & Hl & ->). rewrite average_nil, Rplus_0_l.
  assert (Hpp : area pp <> 0) by (rewrite Hq; apply Rabs_no_R0; exact Ha).
  assert (El : lsum l = lsum (map (fun t => weight_sum n / area pp * (a * area t + b * (/ 6 * cyc gr t) + c * (/ 6 * cyc gz t))) ts)).
  { clear E Hsum Hcyc Et. revert l Hl. induction ts as [|t ts IH]; intros l Hl; cbn [map combine] in Hl.
    - inversion Hl; subst. reflexivity.
    - inversion Hl as [|? x ? l' (pts & E1 & E2) H2]; subst. cbn [map fst snd] in *. rewrite !lsum_cons. f_equal.
      + assert (Lt := Hlen t (or_introl eq_refl)). destruct t as [|p1 [|p2 [|p3 [|]]]]; try discriminate.
        assert (H := tri_quad_linear n p1 p2 p3 pts a b c E1). fold f in H.
        apply Rmult_eq_reg_r with (area pp); [|exact Hpp]. unfold Rdiv. rewrite Rmult_assoc, Rinv_l, Rmult_1_r by exact Hpp.
        etransitivity; [exact H|]. field. exact Hpp.
      + apply IH; [intros t0 Ht0; apply Hlen; right; exact Ht0|exact H2]. }
  rewrite El, lsum_scal, !lsum_add, !lsum_scal, Hsum.
  assert (Hr := Hcyc gr gr_antisym). assert (Hz := Hcyc gz gz_antisym).
  rewrite Hr, Hz, centroid_r_cyc, centroid_z_cyc.
  assert (Es : (area pp = area p /\ cyc gr pp = cyc gr p /\ cyc gz pp = cyc gz p) \/ (area pp = - area p /\ cyc gr pp = - cyc gr p /\ cyc gz pp = - cyc gz p)).
  { unfold pp. destruct (clockwise p); [left; repeat split|right]. rewrite area_rev, (cyc_rev gr gr_antisym), (cyc_rev gz gz_antisym). repeat split. }
  destruct Es as [(-> & -> & ->)|(-> & -> & ->)]; field; exact Ha.
Qed.
