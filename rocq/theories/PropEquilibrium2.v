(** C46, C47, C77: the plasma boundary and the midplane separatrix. *)
From Coq Require Import String List Arith ZArith QArith Bool Reals Lia Lra.
From Verif Require Import Py Num Numpy Coils Machine Romb
  Critical CriticalSpec CriticalProofs CriticalProofs2 CriticalProofs3 Boundary Jtor Equilibrium EquilibriumSpec EquilibriumProofs EquilibriumProofs2 GSSpec.
Import ListNotations.
Local Open Scope R_scope.

(** C46 — what the limiter flux is: the largest value at the limit points (those allowed by
    the first X-point) of the spline of the TRANSPOSED map, and the grid has to be square. *)
Theorem C46_limiter_flux_is_transposed : forall (P Ctl : Type) spline (e : equilibrium R P Ctl) psi o os xpt b,
  check_limited e = true -> wall (tok e) = true -> update_from spline e psi (o :: os) xpt = Ok b ->
  e_nx e = e_ny e /\
  exists p, In p (limits (tok e)) /\ lim b = Some p /\
    (forall x xs, xpt = x :: xs -> Rabs (snd p) < Rabs (75 / 100 * snd (fst x))) /\
    let flux := fun q : R * R => spline (e_nx e) (e_ny e) (R_1D e) (Z_1D e) (fun i j => psi j i) 0%nat 0%nat (fst q) (snd q) in
    psi_limit b = Some (flux p) /\
    forall q, In q (limits (tok e)) -> (forall x xs, xpt = x :: xs -> Rabs (snd q) < Rabs (75 / 100 * snd (fst x))) -> flux q <= flux p.
Proof.
  intros P Ctl spline e psi o os xpt b Hc Hw E. destruct (update_limited_inv spline e psi o os xpt b Hc Hw E) as (Hsq & p & pl & H).
  cbv zeta in H. destruct H as (Hin & Hl & Hpl & Efl & Hmax & _). split; [exact Hsq|]. exists p. cbv zeta.
  destruct xpt as [|x xs].
  - split; [exact Hin|]. split; [exact Hl|]. split; [discriminate|]. split; [rewrite Hpl, Efl; reflexivity|].
    intros q Hq _. rewrite <- Efl. apply Hmax. exact Hq.
  - apply filter_In in Hin. destruct Hin as (Hin & Hlt). apply R_ltb_true in Hlt. split; [exact Hin|]. split; [exact Hl|].
    split; [intros x0 xs0 Ex; injection Ex as <- <-; exact Hlt|]. split; [rewrite Hpl, Efl; reflexivity|].
    intros q Hq Hq2. rewrite <- Efl. apply Hmax. apply filter_In. split; [exact Hq|]. apply R_ltb_true. apply (Hq2 x xs). reflexivity.
Qed.
Print Assumptions C46_limiter_flux_is_transposed.
(** Every grid that is not square: the check fails as soon as there is an O-point. *)
Theorem C46_grid_must_be_square : forall (P Ctl : Type) spline (e : equilibrium R P Ctl) psi o os xpt,
  check_limited e = true -> wall (tok e) = true -> e_nx e <> e_ny e ->
  update_from spline e psi (o :: os) xpt = Raise ValueError.
Proof. intros. apply update_not_square; assumption. Qed.
Print Assumptions C46_grid_must_be_square.

(** the flux - (r - 1)^2 - 2 z^2 with its maximum on the axis (1, 0), one limit point at (5/4, 0) *)
Definition hill : equilibrium R unit unit := bowl_eq 5 5 (-1) (-2) true [(5 / 4, 0)] no_boundary.
(** C46 is false: the flux at the limit point is -1/16, the limiter flux is -1/8, whatever
    spline is used that is exact for quadratic functions. *)
Theorem C46_limiter_flux_refuted : exists (e : equilibrium R unit unit) (p : R * R), forall spline, exact_for_quadratics spline ->
  limits (tok e) = [p] /\
  (forall i j, (i < e_nx e)%nat -> (j < e_ny e)%nat -> plasma_psi e i j = bowl (-1) (-2) (R_1D e i) (Z_1D e j)) /\
  bowl (-1) (-2) (fst p) (snd p) = - (1 / 16) /\
  exists e', update_own spline e = Ok e' /\ psi_limit (bs e') = Some (- (1 / 8)) /\ psi_bndry (bs e') = Some (Some (- (1 / 8))).
Proof.
  exists hill, (5 / 4, 0). intros spline Hs. split; [reflexivity|]. split; [|split].
  - intros i j _ _. unfold hill. rewrite bowl_r1d, bowl_z1d by lia. reflexivity.
  - unfold bowl. cbn [fst snd]. lra.
  - unfold update_own. destruct (bowl_psi 5 5 (-1) (-2) true [(5 / 4, 0)] no_boundary) as (psi & Ep & Hpsi). fold hill in Ep, Hpsi. rewrite Ep. cbn [bind].
    unfold update_boundary. change (e_nx hill) with 5%nat. change (e_ny hill) with 5%nat.
    unfold hill at 1. rewrite (bowl_find spline 5 5 (-1) (-2) true [(5 / 4, 0)] no_boundary psi Hs) by (try lia; try lra; exact Hpsi). cbn [bind].
    unfold update_from. change (check_limited hill) with true. change (wall (tok hill)) with true. cbn [andb]. cbv zeta.
    destruct (bowl_inc 5 5 (-1) (-2) true [(5 / 4, 0)] no_boundary ltac:(lia) ltac:(lia)) as (Ir & Iz). cbv zeta in Ir, Iz. fold hill in Ir, Iz.
    assert (HR : forall i, R_1D hill i = 1 / 2 + INR i / 4) by (intros i; apply bowl_r1d; lia).
    assert (HZ : forall j, Z_1D hill j = - (1 / 2) + INR j / 4) by (intros i; apply bowl_z1d; lia).
    unfold eq_spline. change (e_nx hill) with 5%nat. change (e_ny hill) with 5%nat. rewrite RBS_ok by (try assumption; lia). cbn [bind].
    change (limits (tok hill)) with [(5 / 4, 0)]. cbn [map argmax argmax_from nth].
    eexists. split; [reflexivity|]. cbn [bs with_bs psi_limit psi_bndry fst snd].
    assert (E : spline 5%nat 5%nat (R_1D hill) (Z_1D hill) (fun i j => psi j i) 0%nat 0%nat (5 / 4) 0 = - (1 / 8)).
    { rewrite (Hs 5%nat 5%nat (R_1D hill) (Z_1D hill) _ (bowl_c (-2) (-1))); try lia; try assumption.
      - rewrite <- bowl_quadratic. unfold bowl. lra.
      - intros i j Hi Hj. rewrite Hpsi. cbn [plasma_psi hill bowl_eq]. rewrite <- bowl_quadratic. unfold bowl. rewrite HR, HZ. lra.
      - rewrite !HR. cbn. lra.
      - rewrite !HZ. cbn. lra. }
    rewrite E. split; reflexivity.
Qed.
Print Assumptions C46_limiter_flux_refuted.
(** ... and on a grid that is not square there is none. *)
Theorem C46_grid_shape_refuted : exists (e : equilibrium R unit unit), forall spline, exact_for_quadratics spline ->
  update_own spline e = Raise ValueError /\
  exists e', update_own spline (with_check e false) = Ok e' /\ psi_axis (bs e') = Some 0.
Proof.
  exists (bowl_eq 5 6 (-1) (-2) true [(5 / 4, 0)] no_boundary). intros spline Hs.
  assert (F : forall chk, exists psi, total_psi (bowl_eq 5 6 (-1) (-2) chk [(5 / 4, 0)] no_boundary) = Ok psi /\
      eq_find_critical spline (bowl_eq 5 6 (-1) (-2) chk [(5 / 4, 0)] no_boundary) 5 6 psi = Ok ([(1, 0, 0)], [])).
  { intros chk. destruct (bowl_psi 5 6 (-1) (-2) chk [(5 / 4, 0)] no_boundary) as (psi & Ep & Hpsi). exists psi. split; [exact Ep|].
    apply bowl_find; try lia; try lra; assumption. }
  split.
  - destruct (F true) as (psi & Ep & Ef). unfold update_own. rewrite Ep. cbn [bind]. unfold update_boundary.
    change (e_nx (bowl_eq 5 6 (-1) (-2) true [(5 / 4, 0)] no_boundary)) with 5%nat.
    change (e_ny (bowl_eq 5 6 (-1) (-2) true [(5 / 4, 0)] no_boundary)) with 6%nat. rewrite Ef. cbn [bind].
    rewrite update_not_square; [reflexivity|reflexivity|reflexivity|]. cbn. lia.
  - change (with_check (bowl_eq 5 6 (-1) (-2) true [(5 / 4, 0)] no_boundary) false) with (bowl_eq 5 6 (-1) (-2) false [(5 / 4, 0)] no_boundary).
    destruct (F false) as (psi & Ep & Ef). unfold update_own. rewrite Ep. cbn [bind]. unfold update_boundary.
    change (e_nx (bowl_eq 5 6 (-1) (-2) false [(5 / 4, 0)] no_boundary)) with 5%nat.
    change (e_ny (bowl_eq 5 6 (-1) (-2) false [(5 / 4, 0)] no_boundary)) with 6%nat. rewrite Ef. cbn [bind].
    eexists. split; reflexivity.
Qed.
Print Assumptions C46_grid_shape_refuted.
(** Splines that are exact for quadratic functions exist. *)
Example C46_example : exact_for_quadratics spline2.
Proof. exact spline2_exact. Qed.

(** C47 — the boundary is the larger of the two fluxes.  When neither exceeds the flux on the
    axis (the axis is the maximum) that is the one closest to the axis, and is_limited says
    which it is; the limiter counts when they are equal. *)
Theorem C47_boundary_closest_when_axis_is_maximum : forall (P Ctl : Type) spline (e : equilibrium R P Ctl) psi o os xpt b,
  check_limited e = true -> wall (tok e) = true -> update_from spline e psi (o :: os) xpt = Ok b ->
  exists pl, psi_limit b = Some pl /\ psi_axis b = Some (snd o) /\
    match xpt with
    | [] => psi_bndry b = Some (Some pl) /\ is_limited b = true
    | x :: _ => snd x <= snd o -> pl <= snd o ->
        exists v, psi_bndry b = Some (Some v) /\ closest (snd o) (snd x) pl v /\ (is_limited b = true <-> v = pl) /\ psi_xpt b = Some (snd x)
    end.
Proof.
  intros P Ctl spline e psi o os xpt b Hc Hw E. destruct (update_limited_inv spline e psi o os xpt b Hc Hw E) as (Hsq & p & pl & H).
  cbv zeta in H. destruct H as (Hin & Hl & Hpl & Efl & Hmax & Hpa & H). exists pl. split; [exact Hpl|]. split; [exact Hpa|].
  destruct xpt as [|x xs].
  - destruct H as (H1 & H2 & _). split; assumption.
  - destruct H as (Hb & Hlim & Hpx & _). intros Hx Hp. eexists. split; [exact Hb|]. split; [|split; [|exact Hpx]].
    + unfold closest, Rbasic_fun.Rmax. destruct (Rle_dec (snd x) pl); (split; [tauto|]); rewrite !(Rabs_left1 _) by lra; lra.
    + rewrite Hlim. apply R_eqb_true.
Qed.
Print Assumptions C47_boundary_closest_when_axis_is_maximum.
(** When the axis is the minimum, the boundary is the one furthest from the axis. *)
Theorem C47_boundary_furthest_when_axis_is_minimum : forall (P Ctl : Type) spline (e : equilibrium R P Ctl) psi o os x xs b pl v,
  check_limited e = true -> wall (tok e) = true -> update_from spline e psi (o :: os) (x :: xs) = Ok b ->
  psi_limit b = Some pl -> psi_bndry b = Some (Some v) ->
  snd o <= snd x -> snd o <= pl -> snd x <> pl -> ~ closest (snd o) (snd x) pl v.
Proof.
  intros P Ctl spline e psi o os x xs b pl v Hc Hw E Epl Ev Hx Hp Hne. destruct (update_limited_inv spline e psi o os (x :: xs) b Hc Hw E) as (Hsq & p & pl' & H).
  cbv zeta in H. destruct H as (Hin & Hl & Hpl & Efl & Hmax & Hpa & Hb & _). rewrite Hpl in Epl. injection Epl as ->. rewrite Hb in Ev. injection Ev as <-.
  unfold closest, Rbasic_fun.Rmax. destruct (Rle_dec (snd x) pl) as [Hle|Hle]; intros (_ & H1 & H2); rewrite !Rabs_pos_eq in H1 by lra; rewrite !Rabs_pos_eq in H2 by lra; [apply Hne|apply Hle]; lra.
Qed.
Print Assumptions C47_boundary_furthest_when_axis_is_minimum.

(** C47 is false: with the flux (r - 1)^2 + z^2, which has its minimum on the axis, the limit
    points (5/4, 0) and (1, 1/2) have the fluxes 1/16 and 1/4.  The code takes 1/4. *)
Theorem C47_limit_point_refuted : exists (e : equilibrium R unit unit) (p q : R * R), forall spline, exact_for_quadratics spline ->
  limits (tok e) = [p; q] /\
  (forall i j, (i < e_nx e)%nat -> (j < e_ny e)%nat -> plasma_psi e i j = bowl 1 1 (R_1D e i) (Z_1D e j)) /\
  exists e' v, update_own spline e = Ok e' /\ psi_axis (bs e') = Some 0 /\ psi_bndry (bs e') = Some (Some v) /\
    ~ closest 0 (bowl 1 1 (fst p) (snd p)) (bowl 1 1 (fst q) (snd q)) v.
Proof.
  set (L := [(5 / 4, 0); (1, 1 / 2)]). set (e := bowl_eq 5 5 1 1 true L no_boundary).
  exists e, (5 / 4, 0), (1, 1 / 2). intros spline Hs. split; [reflexivity|]. split.
  - intros i j _ _. unfold e. rewrite bowl_r1d, bowl_z1d by lia. reflexivity.
  - unfold update_own. destruct (bowl_psi 5 5 1 1 true L no_boundary) as (psi & Ep & Hpsi). fold e in Ep, Hpsi. rewrite Ep. cbn [bind].
    unfold update_boundary. change (e_nx e) with 5%nat. change (e_ny e) with 5%nat.
    unfold e at 1. rewrite (bowl_find spline 5 5 1 1 true L no_boundary psi Hs) by (try lia; try lra; exact Hpsi). cbn [bind].
    unfold update_from. change (check_limited e) with true. change (wall (tok e)) with true. cbn [andb]. cbv zeta.
    destruct (bowl_inc 5 5 1 1 true L no_boundary ltac:(lia) ltac:(lia)) as (Ir & Iz). cbv zeta in Ir, Iz. fold e in Ir, Iz.
    assert (HR : forall i, R_1D e i = 1 / 2 + INR i / 4) by (intros i; apply bowl_r1d; lia).
    assert (HZ : forall j, Z_1D e j = - (1 / 2) + INR j / 4) by (intros i; apply bowl_z1d; lia).
    unfold eq_spline. change (e_nx e) with 5%nat. change (e_ny e) with 5%nat. rewrite RBS_ok by (try assumption; lia). cbn [bind].
    change (limits (tok e)) with L. unfold L. cbn [map argmax argmax_from fst snd].
    assert (E : forall r s, 1 / 2 <= r <= 3 / 2 -> - (1 / 2) <= s <= 1 / 2 ->
      spline 5%nat 5%nat (R_1D e) (Z_1D e) (fun i j => psi j i) 0%nat 0%nat r s = bowl 1 1 r s).
    { intros r s Hr Hz. rewrite (Hs 5%nat 5%nat (R_1D e) (Z_1D e) _ (bowl_c 1 1)); try lia; try assumption.
      - rewrite <- bowl_quadratic. reflexivity.
      - intros i j Hi Hj. rewrite Hpsi. cbn [plasma_psi e bowl_eq]. rewrite <- bowl_quadratic. unfold bowl. rewrite HR, HZ. lra.
      - rewrite !HR. cbn. lra.
      - rewrite !HZ. cbn. lra. }
    rewrite !E by lra. nR. replace (R_ltb (bowl 1 1 (5 / 4) 0) (bowl 1 1 1 (1 / 2))) with true by (symmetry; apply R_ltb_true; unfold bowl; lra).
    cbn [nth]. eexists. eexists. split; [reflexivity|]. cbn [bs with_bs psi_axis psi_bndry fst snd]. split; [reflexivity|]. split; [reflexivity|].
    unfold closest, bowl. intros (_ & H1 & _). rewrite !Rabs_pos_eq in H1 by lra. lra.
Qed.
Print Assumptions C47_limit_point_refuted.
(** ... and the same choice between X-point and limiter: the flux (r - 1)^2 + z^3 - 3 z on a
    7 x 7 grid has the O-point (1, 1) with flux -2 and the X-point (1, -1) with flux 2; the flux at the
    limit point (1, 0) is 0, but the plasma is taken to be bounded by the X-point. *)
Definition cubic3 (x f : nat -> Q) (d : nat) (r : Q) : Q :=
  let x0 := x 0%nat in let x1 := x 1%nat in let x2 := x 2%nat in let x3 := x 3%nat in
  let f0 := f 0%nat in let f1 := f 1%nat in let f2 := f 2%nat in let f3 := f 3%nat in
  let d01 := Qred ((f1 - f0) / (x1 - x0))%Q in
  let d12 := Qred ((f2 - f1) / (x2 - x1))%Q in
  let d23 := Qred ((f3 - f2) / (x3 - x2))%Q in
  let d02 := Qred ((d12 - d01) / (x2 - x0))%Q in
  let d13 := Qred ((d23 - d12) / (x3 - x1))%Q in
  let d3 := Qred ((d13 - d02) / (x3 - x0))%Q in
  let a := Qred (r - x0)%Q in let b := Qred (r - x1)%Q in let c := Qred (r - x2)%Q in
  Qred match d with
  | 0%nat => f0 + a * d01 + a * b * d02 + a * b * c * d3
  | 1%nat => d01 + (a + b) * d02 + (a * b + a * c + b * c) * d3
  | 2%nat => inject_Z 2 * d02 + inject_Z 2 * (a + b + c) * d3
  | _ => 0
  end%Q.
Definition spline3 (n m : nat) (x y : nat -> Q) (z : nat -> nat -> Q) (dx dy : nat) (r s : Q) : Q :=
  cubic3 x (fun i => cubic3 y (z i) dy s) dx r.
Definition valley : equilibrium Q unit unit :=
  mkeq 7 7 (1 # 4) (7 # 4) (-3 # 1) (3 # 1) (mktok [] true [(1, 0)%Q]) BFree 2 (SUser (fun _ _ => Raise TypeError)) true
    (fun i j => let r := Qred ((1 # 4) + (Z.of_nat i # 1) * (1 # 4)) in let z := Qred ((Z.of_nat j # 1) - 3) in
                Qred ((r - 1) * (r - 1) + z * z * z - 3 * z)%Q) (fun _ _ => []) 0%Q None no_boundary None None.
Example C47_xpoint_example :
  match update_own spline3 valley with
  | Ok e' => (psi_axis (bs e'), psi_xpt (bs e'), psi_limit (bs e'), psi_bndry (bs e'), is_limited (bs e'))
  | Raise _ => (None, None, None, None, false)
  end = (Some (-2)%Q, Some 2%Q, Some 0%Q, Some (Some 2%Q), false).
Proof. vm_compute. reflexivity. Qed.
Example C47_example : closest 3 1 2 2 /\ ~ closest (-3) 1 2 2.
Proof.
  unfold closest. split.
  - split; [tauto|]. rewrite !Rabs_left1 by lra. lra.
  - intros (_ & H & _). rewrite !Rabs_pos_eq in H by lra. lra.
Qed.

(** C77 — the radii returned for a row with normalised flux at most 1 at the grid point
    closest to the axis. *)
Theorem C77_midplane_radii : forall (P Ctl : Type) spline (e : equilibrium R P Ctl) z ri ro,
  (2 <= e_nx e)%nat -> increasing_on (e_nx e) (R_1D e) ->
  innerOuterSeparatrix spline e z = Ok (ri, ro) ->
  exists psi pa pb ax jz ia, total_psi e = Ok psi /\ psi_axis (bs e) = Some pa /\ psi_bndry (bs e) = Some (Some pb) /\
    magneticAxis spline e = Ok ax /\
    ((0 < e_ny e)%nat -> nearest_index (e_ny e) (Z_1D e) z jz) /\ nearest_index (e_nx e) (R_1D e) (pR ax) ia /\
    let r := R_1D e in let q := fun i => (psi i jz - pa) / (pb - pa) in
    q ia <= 1 ->
    (if existsb (fun i => R_ltb 1 (q i)) (seq 0 ia)
     then exists i, (i < ia)%nat /\ 1 < q i /\ (forall k, (i < k <= ia)%nat -> q k <= 1) /\ r i < ri <= r (S i) /\ line (r i) (q i) (r (S i)) (q (S i)) ri = 1
     else ri = Rmin e) /\
    (if existsb (fun i => R_ltb 1 (q i)) (seq ia (e_nx e - ia))
     then exists i, (ia <= i)%nat /\ (S i < e_nx e)%nat /\ 1 < q (S i) /\ (forall k, (ia <= k <= i)%nat -> q k <= 1) /\ r i <= ro < r (S i) /\
            line (r i) (q i) (r (S i)) (q (S i)) ro = 1
     else ro = Rmax e).
Proof.
  intros P Ctl spline e z ri ro Hnx Hr E. unfold innerOuterSeparatrix in E. cbv zeta in E. inv_bind E. rename v into psi.
  destruct (psi_axis (bs e)) as [pa|]; [|destruct (psi_bndry (bs e)) as [[|]|]; discriminate].
  destruct (psi_bndry (bs e)) as [[pb|]|]; [|discriminate|discriminate]. inv_bind E. rename v into ax.
  set (jz := argmin (e_ny e) _) in E. set (ia := argmin (e_nx e) _) in E. apply (f_equal (fun o => match o with Ok v => v | Raise _ => (0, 0) end)) in E. cbv beta iota in E. rename E into Ein.
  exists psi, pa, pb, ax, jz, ia. split; [reflexivity|]. split; [reflexivity|]. split; [reflexivity|]. split; [first [exact E1|reflexivity]|].
  split; [|split].
  - intros Hny. destruct (argmin_spec (e_ny e) (fun j => nabs (nsub (Z_1D e j) z)) Hny) as (H1 & H2 & H3). fold jz in H1, H2, H3.
    unfold nearest_index. split; [exact H1|]. split; intros k Hk; [specialize (H2 k Hk)|specialize (H3 k Hk)]; rewrite !nabs_R in *; assumption.
  - destruct (argmin_spec (e_nx e) (fun j => nabs (nsub (R_1D e j) (pR ax))) ltac:(lia)) as (H1 & H2 & H3). fold ia in H1, H2, H3.
    unfold nearest_index. split; [exact H1|]. split; intros k Hk; [specialize (H2 k Hk)|specialize (H3 k Hk)]; rewrite !nabs_R in *; assumption.
  - cbv zeta. intros Hq1. set (q := fun i => (psi i jz - pa) / (pb - pa)) in *.
    assert (Hia : (ia < e_nx e)%nat) by (apply (argmin_spec (e_nx e)); lia).
    set (fi := inner_outer _ _ _ _ _ _) in Ein. 
    assert (Hi := inner_spec (e_nx e) (Rmin e) (Rmax e) (R_1D e) q ia). assert (Ho := outer_spec (e_nx e) (Rmin e) (Rmax e) (R_1D e) q ia).
    change (inner_outer (e_nx e) (Rmin e) (Rmax e) (R_1D e) q ia) with fi in Hi, Ho. rewrite Ein in Hi, Ho. cbv zeta in Hi, Ho. cbn [fst snd] in Hi, Ho.
    split.
    + destruct (existsb _ _) eqn:Ex.
      * apply existsb_exists in Ex. destruct Ex as (i0 & Hi0 & Hq0). apply in_seq in Hi0. apply R_ltb_true in Hq0.
        destruct Hi as [(Hn & _)|(i & Hi & Hqi & Hk & ->)]; [specialize (Hn i0 ltac:(lia)); lra|].
        assert (HS : q (S i) <= 1) by (destruct (Nat.eq_dec (S i) ia) as [->|]; [exact Hq1|apply Hk; lia]).
        exists i. split; [exact Hi|]. split; [exact Hqi|]. split; [intros k Hk2; destruct (Nat.eq_dec k ia) as [->|]; [exact Hq1|apply Hk; lia]|].
        apply crossing_line; [apply Hr; lia|exact Hqi|exact HS].
      * destruct Hi as [(_ & ->)|(i & Hi & Hqi & _)]; [reflexivity|]. exfalso. assert (existsb (fun i => R_ltb 1 (q i)) (seq 0 ia) = true); [|congruence].
        apply existsb_exists. exists i. split; [apply in_seq; lia|]. apply R_ltb_true. exact Hqi.
    + destruct (existsb _ _) eqn:Ex.
      * apply existsb_exists in Ex. destruct Ex as (i0 & Hi0 & Hq0). apply in_seq in Hi0. apply R_ltb_true in Hq0.
        destruct Ho as [(Hn & _)|(i & Hi2 & Hqi & Hk & ->)]; [specialize (Hn i0 ltac:(lia)); lra|].
        assert (i <> ia) by (intros ->; lra). destruct i as [|i]; [lia|]. cbn [wrap].
        exists i. split; [lia|]. split; [lia|]. split; [exact Hqi|]. split; [intros k Hk2; apply Hk; lia|].
        apply crossing_line'; [apply Hr; lia|apply Hk; lia|exact Hqi].
      * destruct Ho as [(_ & ->)|(i & Hi2 & Hqi & _)]; [reflexivity|]. exfalso. assert (existsb (fun i => R_ltb 1 (q i)) (seq ia (e_nx e - ia)) = true); [|congruence].
        apply existsb_exists. exists i. split; [apply in_seq; lia|]. apply R_ltb_true. exact Hqi.
Qed.
Print Assumptions C77_midplane_radii.

(** the flux (r - 1)^2 + z^2 with a given flux at the boundary *)
Definition round (pb : R) : equilibrium R unit unit := bowl_eq 5 5 1 1 false [] (mkb (Some 0) (Some (Some pb)) None None None false None).
Lemma round_row spline pb : exact_for_quadratics spline -> innerOuterSeparatrix spline (round pb) 0 =
  Ok (inner_outer 5 (1 / 2) (3 / 2) (fun i => 1 / 2 + INR i / 4) (fun i => (1 / 2 + INR i / 4 - 1) ^ 2 / pb) 2).
Proof.
  intros Hs. set (e := round pb). set (st := mkb (Some 0) (Some (Some pb)) None None None false None).
  assert (HR : forall i, R_1D e i = 1 / 2 + INR i / 4) by (intros i; apply bowl_r1d; lia).
  assert (HZ : forall j, Z_1D e j = - (1 / 2) + INR j / 4) by (intros i; apply bowl_z1d; lia).
  destruct (bowl_inc 5 5 1 1 false [] st ltac:(lia) ltac:(lia)) as (Ir & Iz). change (bowl_eq 5 5 1 1 false [] st) with e in Ir, Iz.
  destruct (bowl_psi 5 5 1 1 false [] st) as (psi & Ep & Hpsi). change (bowl_eq 5 5 1 1 false [] st) with e in Ep, Hpsi.
  unfold innerOuterSeparatrix. cbv zeta. rewrite Ep. cbn [bind]. change (psi_axis (bs e)) with (Some 0). change (psi_bndry (bs e)) with (Some (Some pb)). cbv iota.
  unfold magneticAxis. rewrite Ep. cbn [bind]. change (e_nx e) with 5%nat. change (e_ny e) with 5%nat.
  assert (Ef := bowl_find spline 5 5 1 1 false [] st psi Hs ltac:(lia) ltac:(lia) ltac:(lra) Hpsi). change (bowl_eq 5 5 1 1 false [] st) with e in Ef. rewrite Ef. cbn [bind].
  assert (U : forall (a : nat -> R) v, (forall i, a i = a 0%nat + INR i / 4) -> v = a 2%nat -> argmin 5 (fun i => nabs (nsub (a i) v)) = 2%nat).
  { intros a v Ha ->. destruct (argmin_spec 5 (fun i => nabs (nsub (a i) (a 2%nat))) ltac:(lia)) as (H1 & H2 & H3).
    set (k := argmin 5 _) in *. specialize (H2 2%nat ltac:(lia)). rewrite !nabs_R in H2. nR.
    replace (a 2%nat - a 2%nat) with 0 in H2 by ring. rewrite Rabs_R0 in H2.
    destruct k as [|[|[|[|[|k]]]]]; try lia; [| | |]; exfalso; rewrite (Ha 2%nat) in H2; try rewrite (Ha 1%nat) in H2; try rewrite (Ha 3%nat) in H2; try rewrite (Ha 4%nat) in H2; cbn [INR] in H2.
    - rewrite Rabs_left1 in H2 by lra. lra.
    - rewrite Rabs_left1 in H2 by lra. lra.
    - rewrite Rabs_pos_eq in H2 by lra. lra.
    - rewrite Rabs_pos_eq in H2 by lra. lra. }
  rewrite (U (Z_1D e) 0) by (intros; rewrite !HZ; cbn [INR]; lra). cbn [pR fst].
  rewrite (U (R_1D e) 1) by (intros; rewrite !HR; cbn [INR]; lra).
  assert (Ext : forall rmin rmax r q r' q', (forall i, r i = r' i) -> (forall i, q i = q' i) -> inner_outer 5 rmin rmax r q 2 = inner_outer 5 rmin rmax r' q' 2).
  { intros rmin rmax r q r' q' Er Eq. unfold inner_outer.
    assert (Hf : forall l, filter (fun i => nltb n1 (q i)) l = filter (fun i => nltb n1 (q' i)) l) by (intros l; apply filter_ext; intros i; rewrite Eq; reflexivity).
    rewrite !Hf. f_equal; (destruct (filter _ _); [reflexivity|]); rewrite !Er, !Eq; reflexivity. }
  f_equal. replace (Rmax e) with (3 / 2) by (cbn [Rmax e round bowl_eq Nat.sub INR]; lra). change (Rmin e) with (1 / 2). apply Ext; [exact HR|].
  intros i. nR. rewrite Hpsi. cbn [plasma_psi e round bowl_eq]. unfold bowl. cbn [INR]. unfold Rdiv. rewrite Rminus_0_r, Rminus_0_r. f_equal. lra.
Qed.
(** C77 is false: on a row without any crossing the edges of the domain are returned as if the
    separatrix were there. *)
Theorem C77_no_crossing_refuted : exists (e : equilibrium R unit unit), forall spline, exact_for_quadratics spline ->
  exists psi, total_psi e = Ok psi /\ psi_axis (bs e) = Some 0 /\ psi_bndry (bs e) = Some (Some 10) /\
    (forall i j, (i < e_nx e)%nat -> (j < e_ny e)%nat -> psi i j / 10 < 1) /\
    innerOuterSeparatrix spline e 0 = Ok (Rmin e, Rmax e).
Proof.
  exists (round 10). intros spline Hs. destruct (bowl_psi 5 5 1 1 false [] (mkb (Some 0) (Some (Some 10)) None None None false None)) as (psi & Ep & Hpsi).
  exists psi. split; [exact Ep|]. split; [reflexivity|]. split; [reflexivity|]. split.
  - intros i j Hi Hj. rewrite Hpsi. cbn [plasma_psi bowl_eq]. unfold bowl. change (e_nx (round 10)) with 5%nat in Hi. change (e_ny (round 10)) with 5%nat in Hj.
    do 5 (destruct i as [|i]; [do 5 (destruct j as [|j]; [cbn [INR]; lra|]); lia|]). lia.
  - rewrite (round_row spline 10 Hs). f_equal. apply injective_projections.
    + destruct (inner_spec 5 (1 / 2) (3 / 2) (fun i => 1 / 2 + INR i / 4) (fun i => (1 / 2 + INR i / 4 - 1) ^ 2 / 10) 2) as [(_ & ->)|(i & Hi & Hq & _)]; [reflexivity|].
      exfalso. do 2 (destruct i as [|i]; [cbn [INR] in Hq; lra|]). lia.
    + destruct (outer_spec 5 (1 / 2) (3 / 2) (fun i => 1 / 2 + INR i / 4) (fun i => (1 / 2 + INR i / 4 - 1) ^ 2 / 10) 2) as [(_ & ->)|(i & Hi & Hq & _)].
      * cbn [Rmax round bowl_eq Nat.sub INR snd]. lra.
      * exfalso. do 5 (destruct i as [|i]; [cbn [INR] in Hq; lra|]). lia.
Qed.
Print Assumptions C77_no_crossing_refuted.
(** A row with crossings: with the boundary flux 1/8, on both sides between the second and the
    last grid point. *)
Example C77_example : forall spline, exact_for_quadratics spline -> innerOuterSeparatrix spline (round (1 / 8)) 0 = Ok (2 / 3, 4 / 3).
Proof.
  intros spline Hs. assert (E8 : forall x, x / (1 / 8) = 8 * x) by (intros; field). rewrite (round_row spline (1 / 8) Hs). f_equal. apply injective_projections.
  - destruct (inner_spec 5 (1 / 2) (3 / 2) (fun i => 1 / 2 + INR i / 4) (fun i => (1 / 2 + INR i / 4 - 1) ^ 2 / (1 / 8)) 2) as [(Hn & _)|(i & Hi & Hq & _ & ->)].
    + specialize (Hn 0%nat ltac:(lia)). rewrite E8 in Hn. cbn [INR] in Hn. lra.
    + destruct i as [|[|i]]; [cbn [INR fst]; rewrite !E8; field; lra|exfalso; rewrite E8 in Hq; cbn [INR] in Hq; lra|lia].
  - destruct (outer_spec 5 (1 / 2) (3 / 2) (fun i => 1 / 2 + INR i / 4) (fun i => (1 / 2 + INR i / 4 - 1) ^ 2 / (1 / 8)) 2) as [(Hn & _)|(i & Hi & Hq & _ & ->)].
    + specialize (Hn 4%nat ltac:(lia)). rewrite E8 in Hn. cbn [INR] in Hn. lra.
    + do 4 (destruct i as [|i]; [exfalso; first [lia|idtac]; rewrite E8 in Hq; cbn [INR] in Hq; lra|]). destruct i; [|lia]. cbn [wrap Nat.sub INR snd]. rewrite !E8. field; lra.
Qed.
