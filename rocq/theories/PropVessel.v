(** Properties C151 and C152: the test for a plasma that touches the wall. *)
From Coq Require Import ZArith Reals List Bool Arith Lia Lra Psatz QArith Qreduction.
From Verif Require Import Py Num Numpy Coils Machine Sensors Critical Polygons PolySpec PolygonsProofs Equilibrium Geqdsk GeqdskProofs GeqdskExamples Vessel.
Import ListNotations.
Local Open Scope R_scope.

(** The point [p] lies strictly on the inner side of every edge of the clockwise polygon [w]. *)
Definition inside_all_edges (w : list (R * R)) (p : R * R) : Prop :=
  forall j, (j < length w)%nat -> 0 < orient (vertex w j) (vertex w (j + 1)) p.
(** Every edge of the closed polygon is at most [d] long, in both coordinates. *)
Definition edges_within (d : R) (w : list (R * R)) : Prop :=
  forall j, (j < length w)%nat -> Rabs (fst (vertex w (j + 1)) - fst (vertex w j)) <= d /\ Rabs (snd (vertex w (j + 1)) - snd (vertex w j)) <= d.

(** The X-point equilibrium of [C70_example], with a "spline" whose values tell only whether a point
    is in the square of size 1/16 around the axis, and with a wall that is half that size. *)
Definition boxspline (n m : nat) (x y : nat -> Q) (z : nat -> nat -> Q) : sfun Q :=
  let f := qspline n m x y z in
  let inner := z (n / 2)%nat (S (m / 2)) in
  let outer := Qred (2 * z (n / 2)%nat (m / 2 - 1)%nat - z (n / 2)%nat (m / 2)%nat)%Q in
  fun dx dy r s =>
    match dx, dy with
    | 0%nat, 0%nat => if (Qle_bool (159 # 32) r && Qle_bool r (161 # 32) && Qle_bool (31 # 32) s && Qle_bool s (33 # 32))%bool then inner else outer
    | _, _ => f dx dy r s
    end.
Definition small_vessel : gmachine Q :=
  mkgm [] (mkvessel (Some [(319 # 64, 63 # 64); (321 # 64, 63 # 64); (321 # 64, 65 # 64); (319 # 64, 65 # 64)]%Q) None) 2%Q.
(** outside the closed square with corners (a, c) and (b, d) *)
Definition outside_box (a b c d : Q) (p : Q * Q) : bool := negb (Qle_bool a (fst p) && Qle_bool (fst p) b && Qle_bool c (snd p) && Qle_bool (snd p) d)%bool.
Definition large_vessel : gmachine Q :=
  mkgm [] (mkvessel (Some [(319 # 64, 63 # 64); (6, 63 # 64); (6, 2); (319 # 64, 2)]%Q) None) 2%Q.
Lemma box_separatrix : exists sep, separatrix boxspline 4%Q sq_sin sq_cos (fun _ _ => 2%Q) (tall_eq no_wall) 360 = Ok sep /\ length sep = 360%nat /\
  (forall p, In p sep -> outside_box (319 # 64) (321 # 64) (63 # 64) (65 # 64) p = true) /\
  intersect (map fst sep) (map snd sep) [319 # 64; 321 # 64; 321 # 64; 319 # 64]%Q [63 # 64; 63 # 64; 65 # 64; 65 # 64]%Q true true = Ok false /\
  intersect (map fst sep) (map snd sep) [319 # 64; 6; 6; 319 # 64]%Q [63 # 64; 63 # 64; 2; 2]%Q true true = Ok true.
Proof.
  assert (H := both_ok (separatrix boxspline 4%Q sq_sin sq_cos (fun _ _ => 2%Q) (tall_eq no_wall) 360)
    (fun sep => intersect (map fst sep) (map snd sep) [319 # 64; 321 # 64; 321 # 64; 319 # 64]%Q [63 # 64; 63 # 64; 65 # 64; 65 # 64]%Q true true)
    (fun sep b => Nat.eqb (length sep) 360 && forallb (outside_box (319 # 64) (321 # 64) (63 # 64) (65 # 64)) sep && negb b
       && match intersect (map fst sep) (map snd sep) [319 # 64; 6; 6; 319 # 64]%Q [63 # 64; 63 # 64; 2; 2]%Q true true with Ok c => c | Raise _ => false end)%bool).
  destruct H as (sep & b & Es & Ei & Et). { vm_cast_no_check (eq_refl true). }
  rewrite !andb_true_iff in Et. destruct Et as (((L & F) & Hb) & Hc). destruct b; [discriminate|].
  exists sep. split; [exact Es|]. split; [apply Nat.eqb_eq; exact L|].
  split; [intros p Hp; rewrite forallb_forall in F; apply F; exact Hp|]. split; [exact Ei|].
  match type of Hc with match ?x with _ => _ end = _ => destruct x as [[]|]; [reflexivity|discriminate|discriminate] end.
Qed.
(** C151 — what is tested: the wall and the plasma boundary, both closed, have two edges that cross
    at inner points of both, and are not nearly parallel or very short. *)
Theorem C151_tested : forall (P Ctl : Type) spline pi sin cos arctan2 (m : gmachine R) (e : equilibrium R P Ctl) sep w,
  separatrix spline pi sin cos arctan2 e 360 = Ok sep -> v_wall (gm_vessel m) = Some w ->
  exists b, intersectsWall spline pi sin cos arctan2 m e = Ok b /\
    (b = true <-> exists i j, (i < length sep)%nat /\ (j < length w)%nat /\
       segments_cross (vertex sep i) (vertex sep (i + 1)) (vertex w j) (vertex w (j + 1)) /\
       1 / 1000000 <= Rabs (dir_cross (vertex sep i) (vertex sep (i + 1)) (vertex w j) (vertex w (j + 1)))) /\
    no_wall_intersection spline pi sin cos arctan2 m e = Ok (if b then None else Some 0).
Proof.
  intros P Ctl spline pi sin cos arctan2 m e sep w Es Ew. destruct (intersect_spec sep w true true) as (b & E & Hb).
  assert (Ei : intersectsWall spline pi sin cos arctan2 m e = Ok b) by (unfold intersectsWall; rewrite Es; cbn [bind]; rewrite Ew; exact E).
  exists b. split; [exact Ei|]. split; [|unfold no_wall_intersection; rewrite Ei; reflexivity].
  rewrite Hb. unfold vertex. split; intros (i & j & Hi & Hj & Hx); exists i, j; split; try exact Hi; split; try exact Hj;
    rewrite (Nat.mod_small i), (Nat.mod_small j) in *; assumption.
Qed.
Print Assumptions C151_tested.
(** With a larger vessel the boundary crosses the wall. *)
Example C151_tested_example : intersectsWall boxspline 4%Q sq_sin sq_cos (fun _ _ => 2%Q) large_vessel (tall_eq no_wall) = Ok true.
Proof.
  destruct box_separatrix as (sep & Es & _ & _ & _ & Ei). unfold intersectsWall. rewrite Es. cbn [bind gm_vessel large_vessel v_wall map fst snd]. exact Ei.
Qed.
(** A plasma whose boundary points are all strictly inside a convex wall costs nothing. *)
Theorem C151_inside : forall (P Ctl : Type) spline pi sin cos arctan2 (m : gmachine R) (e : equilibrium R P Ctl) sep w,
  separatrix spline pi sin cos arctan2 e 360 = Ok sep -> v_wall (gm_vessel m) = Some w ->
  (forall p, In p sep -> inside_all_edges w p) ->
  intersectsWall spline pi sin cos arctan2 m e = Ok false /\ no_wall_intersection spline pi sin cos arctan2 m e = Ok (Some 0).
Proof.
  intros P Ctl spline pi sin cos arctan2 m e sep w Es Ew Hin.
  destruct (C151_tested P Ctl spline pi sin cos arctan2 m e sep w Es Ew) as (b & E & Hb & En). rewrite E, En. destruct b; [exfalso|split; reflexivity].
  destruct (proj1 Hb eq_refl) as (i & j & Hi & Hj & (al & be & Ha & Hbe & E1 & E2) & _).
  assert (I : forall k, In (vertex sep k) sep). { intros k. unfold vertex. apply nth_In. apply Nat.mod_upper_bound. lia. }
  assert (H1 := Hin _ (I i) j Hj). assert (H2 := Hin _ (I (i + 1)%nat) j Hj). unfold orient in H1, H2.
  set (p := vertex sep i) in *. set (q := vertex sep (i + 1)) in *. set (r := vertex w j) in *. set (s := vertex w (j + 1)) in *.
  assert (H : (1 - al) * ((snd s - snd r) * (fst p - fst s) - (fst s - fst r) * (snd p - snd s)) + al * ((snd s - snd r) * (fst q - fst s) - (fst s - fst r) * (snd q - snd s)) = 0).
  { transitivity ((snd s - snd r) * (fst p + al * (fst q - fst p) - fst s) - (fst s - fst r) * (snd p + al * (snd q - snd p) - snd s)); [ring|].
    rewrite E1, E2. ring. }
  assert (0 < 1 - al) by lra. assert (A := Rmult_lt_0_compat _ _ H0 H1). assert (B := Rmult_lt_0_compat al _ (proj1 Ha) H2). lra.
Qed.
Print Assumptions C151_inside.
(** A square wall and points inside it. *)
Example C151_inside_example : forall p, In p [(3 / 2, 0); (1 + 1 / 4, 1 / 4); (7 / 4, - 1 / 2)] -> inside_all_edges [(1, -1); (1, 1); (2, 1); (2, -1)] p.
Proof.
  intros p Hp j Hj. cbn [length] in Hj. unfold vertex.
  do 4 (destruct j as [|j]; [cbn; cbn in Hp; destruct Hp as [<-|[<-|[<-|[]]]]; unfold orient; cbn; lra|]). lia.
Qed.
Theorem C151_no_wall : forall (P Ctl : Type) spline pi sin cos arctan2 (m : gmachine R) (e : equilibrium R P Ctl) sep,
  separatrix spline pi sin cos arctan2 e 360 = Ok sep -> v_wall (gm_vessel m) = None ->
  no_wall_intersection spline pi sin cos arctan2 m e = Raise AttributeError.
Proof.
  intros P Ctl spline pi sin cos arctan2 m e sep Es Ew. unfold no_wall_intersection, intersectsWall. rewrite Es. cbn [bind]. rewrite Ew. reflexivity.
Qed.
Print Assumptions C151_no_wall.
(** C152 — short edges are never tested: if the edges of plasma boundary and wall are at most a and b long
    and 2 a b < 1e-6, no crossing is found whatever the position of the plasma. *)
Theorem C152_short_edges : forall (P Ctl : Type) spline pi sin cos arctan2 (m : gmachine R) (e : equilibrium R P Ctl) sep w a b,
  separatrix spline pi sin cos arctan2 e 360 = Ok sep -> v_wall (gm_vessel m) = Some w ->
  edges_within a sep -> edges_within b w -> 2 * a * b < 1 / 1000000 ->
  intersectsWall spline pi sin cos arctan2 m e = Ok false.
Proof.
  intros P Ctl spline pi sin cos arctan2 m e sep w da db Es Ew Ha Hb Hab.
  destruct (C151_tested P Ctl spline pi sin cos arctan2 m e sep w Es Ew) as (b & E & Hb' & _). rewrite E. destruct b; [exfalso|reflexivity].
  destruct (proj1 Hb' eq_refl) as (i & j & Hi & Hj & _ & Hd). destruct (Ha i Hi) as (A1 & A2). destruct (Hb j Hj) as (B1 & B2).
  unfold dir_cross in Hd.
  set (x := fst (vertex sep (i + 1)) - fst (vertex sep i)) in *. set (y := snd (vertex sep (i + 1)) - snd (vertex sep i)) in *.
  set (u := fst (vertex w (j + 1)) - fst (vertex w j)) in *. set (v := snd (vertex w (j + 1)) - snd (vertex w j)) in *.
  assert (T := Rabs_triang (x * v) (- (u * y))). rewrite Rabs_Ropp, !Rabs_mult in T. change (x * v + - (u * y)) with (x * v - u * y) in T.
  assert (P1 := Rabs_pos x). assert (P2 := Rabs_pos y). assert (P3 := Rabs_pos u). assert (P4 := Rabs_pos v).
  assert (Rabs x * Rabs v <= da * db) by (apply Rmult_le_compat; assumption).
  assert (Rabs u * Rabs y <= db * da) by (apply Rmult_le_compat; assumption). lra.
Qed.
Print Assumptions C152_short_edges.
(** Edges of 1/2 mm and 1/2 mm (a boundary of 360 points around a plasma of less than 6 cm). *)
Example C152_short_edges_example : edges_within (1 / 2000) [(1, 0); (1, 1 / 2000); (1 + 1 / 2000, 0)] /\ 2 * (1 / 2000) * (1 / 2000) < 1 / 1000000.
Proof.
  split; [|lra]. intros j Hj. cbn [length] in Hj. unfold vertex.
  do 3 (destruct j as [|j]; [cbn; split; (apply Rabs_le; lra)|]). lia.
Qed.
(** C152 — "a plasma that is not inside the vessel is penalised" is false: every point of the plasma
    boundary is outside the vessel, which surrounds the magnetic axis, and the measure is 0. *)
Theorem C152_outside_refuted : exists (m : gmachine Q) (e : equilibrium Q unit unit) sep a b c d,
  v_wall (gm_vessel m) = Some [(a, c); (b, c); (b, d); (a, d)]%Q /\ (a < 5 < b /\ c < 1 < d)%Q /\
  separatrix boxspline 4%Q sq_sin sq_cos (fun _ _ => 2%Q) e 360 = Ok sep /\ length sep = 360%nat /\
  (forall p, In p sep -> outside_box a b c d p = true) /\
  no_wall_intersection boxspline 4%Q sq_sin sq_cos (fun _ _ => 2%Q) m e = Ok (Some 0%Q).
Proof.
  destruct box_separatrix as (sep & Es & L & F & Ei & _).
  exists small_vessel, (tall_eq no_wall), sep, (319 # 64)%Q, (321 # 64)%Q, (63 # 64)%Q, (65 # 64)%Q.
  split; [reflexivity|]. split; [repeat split|]. split; [exact Es|]. split; [exact L|]. split; [exact F|].
  unfold no_wall_intersection, intersectsWall. rewrite Es. cbn [bind gm_vessel small_vessel v_wall map fst snd]. rewrite Ei. reflexivity.
Qed.
Print Assumptions C152_outside_refuted.
