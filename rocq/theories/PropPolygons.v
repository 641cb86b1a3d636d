(** Properties of polygons.py and quadrature.py: C59 - C65. *)
From Coq Require Import List Arith ZArith QArith Bool Reals Lra Lia.
From Coquelicot Require Import Coquelicot.
From Verif Require Import Py Num Numpy Polygons Quadrature PolySpec QuadSpec PolygonsProofs QuadratureProofs.
Import ListNotations.
Local Open Scope R_scope.

(** C59 *)
Theorem C59_area_invariants : forall p : list (R * R),
  area p = shoelace p /\
  (forall l1 l2, p = l1 ++ l2 -> area (l2 ++ l1) = area p) /\
  area (rev p) = - area p /\
  (forall a b, area (map (fun q => (fst q + a, snd q + b)) p) = area p) /\
  (forall c, area (map (fun q => (c * fst q, c * snd q)) p) = c ^ 2 * area p) /\
  (clockwise p = true <-> 0 < area p).
Proof.
  intros p. split; [apply area_shoelace|]. split; [intros l1 l2 ->; symmetry; apply area_rot|].
  split; [apply area_rev|]. split; [intros; apply area_shift|]. split; [intros; rewrite area_scale; ring|].
  unfold clockwise. nR. apply R_ltb_true.
Qed.
Print Assumptions C59_area_invariants.
Example C59_example :
  (area [(0, 0); (0, 2); (3, 2); (3, 0)] == 6)%Q /\ (area [(3, 0); (3, 2); (0, 2); (0, 0)] == -6)%Q /\
  clockwise [(0, 0)%Q; (0, 2)%Q; (3, 2)%Q; (3, 0)%Q] = true.
Proof. split; [|split]; reflexivity. Qed.

(** C60: whenever triangulation returns *)
Theorem C60_triangulation_conserves_area : forall fuel (p : list (R * R)) ts, triangulate fuel p = Ok ts ->
  (length ts + 2 = length p)%nat /\
  (forall t, In t ts -> length t = 3%nat /\ forall v, In v t -> In v p) /\
  lsum (map area ts) = Rabs (area p) /\
  (forall t, In t (removelast ts) -> 0 <= area t).
Proof.
  intros fuel p ts E. destruct (triangulate_good _ _ _ E) as (_ & Hg & Hq). cbv zeta in *.
  assert (Hs := good_area _ _ Hg). destruct Hg as (G1 & G2 & G3 & _ & G5).
  assert (Hin : forall v, In v (if clockwise p then p else rev p) -> In v p).
  { intros v. destruct (clockwise p); [tauto|]. intros Hv. apply in_rev. exact Hv. }
  split; [rewrite G1; destruct (clockwise p); [reflexivity|apply rev_length]|].
  split; [intros t Ht; split; [apply G2; exact Ht|intros v Hv; apply Hin; exact (G3 t v Ht Hv)]|].
  split; [rewrite Hs; exact Hq|exact G5].
Qed.
Print Assumptions C60_triangulation_conserves_area.
Example C60_example :
  triangulate 10 [(0, 0)%Q; (0, 2)%Q; (3, 2)%Q; (3, 0)%Q] = Ok [[(3, 0); (0, 0); (0, 2)]; [(0, 2); (3, 2); (3, 0)]]%Q.
Proof. vm_compute. reflexivity. Qed.

(** C60: it returns for every convex polygon, in either orientation, after at most one pass per vertex *)
Theorem C60_convex_terminates : forall p : list (R * R),
  (3 <= length p)%nat -> convex_cw p \/ convex_cw (rev p) -> area p <> 0 ->
  exists ts, forall fuel, (length p <= fuel)%nat -> triangulate fuel p = Ok ts.
Proof. exact triangulate_convex. Qed.
Print Assumptions C60_convex_terminates.
Example C60_convex_example : convex_cw [(0, 0); (0, 2); (3, 2); (3, 0)] /\ area [(0, 0); (0, 2); (3, 2); (3, 0)] <> 0.
Proof.
  split.
  - intros i j k Hij Hjk Hk. cbn [length] in Hk.
    do 4 (destruct k as [|k]; [do 4 (destruct j as [|j]; [do 4 (destruct i as [|i]; [first [lia|unfold orient; cbn; lra]|]); lia|]); lia|]). lia.
  - rewrite area_shoelace. unfold shoelace, vertex. cbn. lra.
Qed.

(** C61: a simple hexagon on which no vertex is ever accepted as an ear: the while loop of
    triangulate makes no progress and does not end, whatever the number of passes. *)
Definition stuck_hexagon : list (Q * Q) := [(0, 2); (5, 6); (5, 0); (4, 5); (3, 3); (2, 0)]%Q.
Theorem C61_termination_refuted :
  exists p : list (Q * Q), (3 <= length p)%nat /\ simple_polygonQ p = true /\
    forall fuel, triangulate fuel p = Raise OutOfFuel.
Proof.
  exists stuck_hexagon. split; [cbn; lia|]. split; [vm_compute; reflexivity|]. intros fuel.
  unfold triangulate.
  replace (if clockwise stuck_hexagon then stuck_hexagon else rev stuck_hexagon) with stuck_hexagon by (vm_compute; reflexivity).
  replace (2 <? length stuck_hexagon)%nat with true by reflexivity.
  first [ apply clip_stuck; [cbn; lia|vm_compute; reflexivity]
        | eapply clip_step; [cbn; lia|vm_compute; reflexivity|cbn [firstn skipn app Nat.add]];
          first [ apply clip_stuck; [cbn; lia|vm_compute; reflexivity]
                | eapply clip_step; [cbn; lia|vm_compute; reflexivity|cbn [firstn skipn app Nat.add]];
                  apply clip_stuck; [cbn; lia|vm_compute; reflexivity] ] ].
Qed.
Print Assumptions C61_termination_refuted.

(** C61: a simple quadrilateral one of whose two triangles has negative area *)
Theorem C61_positive_triangles_refuted :
  exists (p : list (Q * Q)) ts t, simple_polygonQ p = true /\ triangulate 10 p = Ok ts /\ In t ts /\ (area t < 0)%Q.
Proof.
  exists [(0, 2); (1, 6); (1, 3); (6, 3)]%Q.
  remember (triangulate 10 [(0, 2); (1, 6); (1, 3); (6, 3)]%Q) as r eqn:E. vm_compute in E.
  destruct r as [ts|e]; [|discriminate]. injection E as E.
  exists ts, (last ts []). split; [vm_compute; reflexivity|]. split; [reflexivity|]. rewrite E.
  split; [right; left; reflexivity|]. vm_compute. reflexivity.
Qed.
Print Assumptions C61_positive_triangles_refuted.

(** C61: in general a pass that finds no ear is repeated for ever *)
Theorem C61_no_ear_no_end : forall (T : Type) (N : Num T) (p : list (T * T)),
  (3 < length p)%nat -> find_ear p (range 0 (length p)) = Ok None ->
  forall fuel triangles, clip_loop fuel p triangles = Raise OutOfFuel.
Proof. intros T N p. exact (clip_stuck p). Qed.
Print Assumptions C61_no_ear_no_end.
Example C61_no_ear_example :
  let p := [(5, 6); (4, 5); (3, 3); (2, 0)]%Q in find_ear p (range 0 (length p)) = Ok None.
Proof. vm_compute. reflexivity. Qed.

(** C62 *)
Theorem C62_intersect_closed : forall p1 p2 : list (R * R),
  exists b, intersect (map fst p1) (map snd p1) (map fst p2) (map snd p2) true true = Ok b /\
  (b = true <-> exists i j, (i < length p1)%nat /\ (j < length p2)%nat /\
     segments_cross (vertex p1 i) (vertex p1 (i + 1)) (vertex p2 j) (vertex p2 (j + 1)) /\
     1 / 1000000 <= Rabs (dir_cross (vertex p1 i) (vertex p1 (i + 1)) (vertex p2 j) (vertex p2 (j + 1)))).
Proof.
  intros p1 p2. destruct (intersect_spec p1 p2 true true) as (b & E & H). exists b. split; [exact E|].
  rewrite H. unfold vertex. split; intros (i & j & Hi & Hj & Hx); exists i, j; split; try exact Hi; split; try exact Hj;
    rewrite (Nat.mod_small i), (Nat.mod_small j) in *; assumption.
Qed.
Print Assumptions C62_intersect_closed.
Example C62_example :
  intersect [0; 0; 2; 2]%Q [0; 2; 2; 0]%Q [1; 1; 3; 3]%Q [1; 3; 3; 1]%Q true true = Ok true /\
  intersect [0; 0; 2; 2]%Q [0; 2; 2; 0]%Q [5; 5; 6; 6]%Q [1; 3; 3; 1]%Q true true = Ok false.
Proof. split; vm_compute; reflexivity. Qed.

(** C63: two open segments that cross in their midpoints are reported not to intersect *)
Theorem C63_open_polylines_refuted :
  exists p1 p2 : list (R * R),
    segments_cross (nth 0 p1 (0, 0)) (nth 1 p1 (0, 0)) (nth 0 p2 (0, 0)) (nth 1 p2 (0, 0)) /\
    1 / 1000000 <= Rabs (dir_cross (nth 0 p1 (0, 0)) (nth 1 p1 (0, 0)) (nth 0 p2 (0, 0)) (nth 1 p2 (0, 0))) /\
    length p1 = 2%nat /\ length p2 = 2%nat /\
    intersect (map fst p1) (map snd p1) (map fst p2) (map snd p2) false false = Ok false.
Proof.
  exists [(0, 0); (2, 2)], [(0, 2); (2, 0)]. split.
  { exists (1 / 2), (1 / 2). cbn. repeat split; lra. }
  split. { unfold dir_cross. cbn. rewrite Rabs_left by lra. lra. }
  split; [reflexivity|]. split; [reflexivity|].
  destruct (intersect_spec [(0, 0); (2, 2)] [(0, 2); (2, 0)] false false) as (b & E & H). rewrite E. destruct b; [|reflexivity].
  exfalso. destruct (proj1 H eq_refl) as (i & j & Hi & Hj & _ & Hd). cbn in Hi, Hj.
  replace i with 0%nat in Hd by lia. replace j with 0%nat in Hd by lia. cbn in Hd. unfold dir_cross in Hd. cbn in Hd.
  replace ((0 - 0) * (2 - 2) - (0 - 0) * (0 - 0)) with 0 in Hd by ring. rewrite Rabs_R0 in Hd. lra.
Qed.
Print Assumptions C63_open_polylines_refuted.

(** C63: what is tested for open polylines: edge i runs from point i to point (i+1) mod (n-1),
    so the last edge is replaced by the closing edge of the polyline without its last point,
    and the last point is never used *)
Theorem C63_open_edges_tested : forall p1 p2 : list (R * R),
  let m1 := (length p1 - 1)%nat in let m2 := (length p2 - 1)%nat in
  exists b, intersect (map fst p1) (map snd p1) (map fst p2) (map snd p2) false false = Ok b /\
  (b = true <-> exists i j, (i < m1)%nat /\ (j < m2)%nat /\
     let p := nth i p1 (0, 0) in let q := nth ((i + 1) mod m1) p1 (0, 0) in
     let r := nth j p2 (0, 0) in let s := nth ((j + 1) mod m2) p2 (0, 0) in
     segments_cross p q r s /\ 1 / 1000000 <= Rabs (dir_cross p q r s)) /\
  intersect (map fst p1) (map snd p1) (map fst p2) (map snd p2) false false =
  intersect (map fst (removelast p1)) (map snd (removelast p1)) (map fst (removelast p2)) (map snd (removelast p2)) true true.
Proof.
  intros p1 p2 m1 m2. destruct (intersect_spec p1 p2 false false) as (b & E & H). exists b. split; [exact E|]. split; [exact H|].
  rewrite E. destruct (intersect_spec (removelast p1) (removelast p2) true true) as (b' & E' & H'). rewrite E'. f_equal.
  assert (L : forall p : list (R * R), length (removelast p) = (length p - 1)%nat).
  { intros p. destruct p as [|a l] using rev_ind; [reflexivity|]. rewrite removelast_last, app_length. cbn. lia. }
  assert (N : forall (p : list (R * R)) k, (k < length p - 1)%nat -> nth k (removelast p) (0, 0) = nth k p (0, 0)).
  { intros p k Hk. destruct p as [|a l] using rev_ind; [reflexivity|]. rewrite removelast_last.
    rewrite app_length in Hk. cbn in Hk. rewrite app_nth1 by lia. reflexivity. }
  cbv zeta in H'. rewrite !L in H'. fold m1 m2 in H, H'.
  assert (HH : b = true <-> b' = true).
  { rewrite H, H'. split; intros (i & j & Hi & Hj & Hx); exists i, j; (split; [exact Hi|]; split; [exact Hj|]);
      rewrite !N in *; try exact Hx; try assumption; apply Nat.mod_upper_bound; lia. }
  destruct b, b'; try reflexivity; [symmetry|]; apply HH; reflexivity.
Qed.
Print Assumptions C63_open_edges_tested.
Example C63_example :
  intersect [0; 2; 4]%Q [0; 2; 0]%Q [1; 0; 7]%Q [0; 3; 7]%Q false false = Ok true /\
  intersect [0; 0; 4]%Q [0; 1; 0]%Q [3; 3; 3]%Q [-1; -2; 3]%Q false false = Ok false.
Proof. split; vm_compute; reflexivity. Qed.

(** C64 *)
Theorem C64_triangle_quadrature : forall (p1 p2 p3 : R * R) n q, triangle_quad [p1; p2; p3] n = Ok q ->
  lsum (map snd q) = (if (n =? 6)%nat then 1 - 1 / 10 ^ 15 else 1) /\
  (forall p w, In (p, w) q -> 0 < w /\ exists u v, 0 < u /\ 0 < v /\ u + v < 1 /\ p = tri_point p1 p2 p3 u v) /\
  (n = 1%nat -> forall k f, is_poly_on 1 k f p1 p2 p3 -> average f q = tri_mean f p1 p2 p3) /\
  (n = 3%nat -> forall k f, is_poly_on 2 k f p1 p2 p3 -> average f q = tri_mean f p1 p2 p3) /\
  (n = 6%nat -> forall k f, is_poly_on 4 k f p1 p2 p3 ->
     Rabs (average f q - tri_mean f p1 p2 p3) <= 1 / 10 ^ 15 * poly_size 4 k).
Proof.
  intros p1 p2 p3 n q E. destruct (tri_quad_weights _ _ _ _ _ E) as (Hs & Hp).
  replace (10 ^ 15) with 1000000000000000 by (cbn; lra).
  split; [exact Hs|]. split; [exact Hp|]. split; [intros ->; apply tri_quad1; exact E|]. split; [intros ->; apply tri_quad3; exact E|].
  intros ->. apply tri_quad6. exact E.
Qed.
Print Assumptions C64_triangle_quadrature.
Example C64_example :
  exists q, triangle_quad [(0, 0); (1, 0); (0, 1)]%Q 3 = Ok q /\
    (average (fun r z => r * z) q == 1 # 12)%Q /\ (average (fun r z => r * r) q == 1 # 6)%Q.
Proof. eexists. split; [reflexivity|]. split; reflexivity. Qed.

Theorem C64_other_orders_rejected : forall (tri : list (R * R)) n,
  length tri = 3%nat -> n <> 1%nat -> n <> 3%nat -> n <> 6%nat -> triangle_quad tri n = Raise ValueError.
Proof.
  intros tri n Hl H1 H3 H6. destruct tri as [|[] [|[] [|[] [|]]]]; try discriminate. cbn [triangle_quad].
  do 7 (destruct n as [|n]; [congruence|]). reflexivity.
Qed.
Print Assumptions C64_other_orders_rejected.
Example C64_other_example : triangle_quad [(0, 0); (1, 0); (0, 1)]%Q 4 = Raise ValueError.
Proof. reflexivity. Qed.

(** C65 *)
Theorem C65_centroid : forall fuel n (p : list (R * R)) q, polygon_quad fuel p n = Ok q -> area p <> 0 ->
  forall a b c, average (fun r z => a + b * r + c * z) q =
    (if (n =? 6)%nat then 1 - 1 / 10 ^ 15 else 1) * (a + b * centroid_r p + c * centroid_z p).
Proof.
  intros fuel n p q E Ha a b c. rewrite (polygon_quad_linear _ _ _ _ a b c E Ha).
  replace (10 ^ 15) with 1000000000000000 by (cbn; lra). reflexivity.
Qed.
Print Assumptions C65_centroid.
Example C65_example :
  exists q, polygon_quad 5 [(0, 0); (3, 0); (3, 2); (0, 2)]%Q 3 = Ok q /\ length q = 6%nat /\
    (average (fun r z => r) q == 3 # 2)%Q /\ (average (fun r z => z) q == 1)%Q.
Proof. eexists. split; [vm_compute; reflexivity|]. split; [reflexivity|]. split; vm_compute; reflexivity. Qed.
