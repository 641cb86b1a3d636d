(** Properties C78 and C115 - C119: field line tracing. *)
From Coq Require Import ZArith Reals List Bool Arith Lia Lra QArith Qreduction.
From Coquelicot Require Import Coquelicot.
From Verif Require Import Py Num Numpy CriticalProofs3 FieldTracer FieldTracerSpec FieldTracerProofs.
Import ListNotations.
Local Open Scope R_scope.

(** C78 — whatever points are evaluated in whatever order: after an evaluation with line k outside,
    all rates of line k are zero. *)
Theorem C78_stopped_for_good : forall sqrt (s : scene R) backward ev points x later ev' rates k,
  evaluations sqrt s backward ev (points ++ x :: later) = Ok (ev', rates) ->
  (k < length ev)%nat -> outside s (nth (3 * k) x 0) (nth (3 * k + 1) x 0) = true ->
  forall j c, (length points <= j < length rates)%nat -> (c < 3)%nat -> nth (3 * k + c) (nth j rates []) 0 = 0.
Proof.
  intros sqrt s bw ev points x later ev' rates k E Hk Ho j c Hj Hc.
  apply evaluations_app in E. destruct E as (ev1 & rs1 & rs2 & _ & E & -> & L1 & Lev).
  cbn [evaluations] in E. apply ft_bind in E. destruct E as ([ev2 r] & E1 & E). apply ft_bind in E. destruct E as ([ev3 rs] & E2 & E). injection E as <- <-.
  destruct (stops _ _ _ _ _ _ _ k E1 ltac:(lia) Ho) as (A & B). destruct (one_line _ _ _ _ _ _ _ k E1 ltac:(lia)) as (L2 & _).
  destruct (evaluations_still _ _ _ _ _ _ _ k E2 ltac:(lia) A) as (_ & D).
  rewrite app_length in Hj. cbn [length] in Hj.
  assert (Hin : In (nth j (rs1 ++ r :: rs) []) (r :: rs)) by (rewrite app_nth2 by lia; apply nth_In; cbn; lia).
  destruct Hin as [<-|Hin]; [apply B; exact Hc|apply (D _ Hin c Hc)].
Qed.
Print Assumptions C78_stopped_for_good.
(** So every explicit Runge-Kutta integrator, with any step sizes and any rejected steps, leaves a
    line that has left the domain where it is, with its length ... *)
Theorem C78_runge_kutta : forall sqrt (s : scene R) backward ev pos sts ev' pos' k,
  trace sqrt s backward ev pos sts = Ok (ev', pos') ->
  (forall st, In st sts -> exists rows, st_rows st = [] :: rows) ->
  (k < length ev)%nat -> outside s (nth (3 * k) pos 0) (nth (3 * k + 1) pos 0) = true ->
  forall c, (c < 3)%nat -> nth (3 * k + c) pos' 0 = nth (3 * k + c) pos 0.
Proof.
  intros sqrt s bw ev pos sts ev' pos' k E Hst Hk Ho c Hc. destruct sts as [|[rows w h keep] sts].
  - injection E as <- <-. reflexivity.
  - destruct (Hst _ (or_introl eq_refl)) as (rows' & Er). cbn [st_rows] in Er. subst rows.
    unfold trace in E. cbn [foldM] in E. apply ft_bind in E. destruct E as ([ev1 pos1] & E1 & E).
    destruct (rk_stops _ _ _ _ _ _ _ _ _ _ _ k E1 Hk Ho) as (A & B & D).
    destruct (trace_still _ _ _ _ _ _ _ _ k E ltac:(lia) A) as (_ & F). rewrite F, D by exact Hc. reflexivity.
Qed.
Print Assumptions C78_runge_kutta.
(** ... and the lines do not influence one another. *)
Theorem C78_lines_independent : forall sqrt (s : scene R) backward ev1 ev2 pos1 pos2 ev1' ev2' r1 r2 k,
  fieldDirection sqrt s backward ev1 pos1 = Ok (ev1', r1) -> fieldDirection sqrt s backward ev2 pos2 = Ok (ev2', r2) ->
  (k < length ev1)%nat -> (k < length ev2)%nat -> nth k ev1 0 = nth k ev2 0 ->
  (forall c, (c < 3)%nat -> nth (3 * k + c) pos1 0 = nth (3 * k + c) pos2 0) ->
  nth k ev1' 0 = nth k ev2' 0 /\ forall c, (c < 3)%nat -> nth (3 * k + c) r1 0 = nth (3 * k + c) r2 0.
Proof.
  intros sqrt s bw ev1 ev2 pos1 pos2 ev1' ev2' r1 r2 k E1 E2 K1 K2 Hev Hp.
  destruct (one_line _ _ _ _ _ _ _ k E1 K1) as (_ & _ & _ & A1 & B1). destruct (one_line _ _ _ _ _ _ _ k E2 K2) as (_ & _ & _ & A2 & B2). cbv zeta in *.
  assert (P0 := Hp 0%nat ltac:(lia)). rewrite Nat.add_0_r in P0. rewrite A1, A2, Hev, P0, (Hp 1%nat), (Hp 2%nat) by lia. split; [reflexivity|].
  intros c Hc. rewrite B1, B2 by exact Hc. rewrite Hev, P0, (Hp 1%nat), (Hp 2%nat) by lia. reflexivity.
Qed.
Print Assumptions C78_lines_independent.
(** Following backward reverses R and Z and keeps the rate of the length, which is positive where
    the toroidal field is. *)
Theorem C78_backward : forall sqrt (s : scene R) ev x,
  let f := snd (direction sqrt s false ev x) in let b := snd (direction sqrt s true ev x) in
  fst (fst b) = - fst (fst f) /\ snd (fst b) = - snd (fst f) /\ snd b = snd f /\
  fst (direction sqrt s true ev x) = fst (direction sqrt s false ev x).
Proof. intros sqrt s ev [[r z] l]. unfold direction. cbv zeta. cbn [fst snd]. nR. repeat split; ring. Qed.
Print Assumptions C78_backward.
Theorem C78_length : forall (s : scene R) backward ev r z l, 0 <= ev -> 0 <= r -> 0 < s_Btor s r z ->
  0 <= snd (snd (direction R_sqrt.sqrt s backward ev (r, z, l))).
Proof.
  intros s bw ev r z l Hev Hr Hb. unfold direction. cbv zeta. nR.
  assert (H : forall e, 0 <= e -> 0 <= e * r / s_Btor s r z * R_sqrt.sqrt (s_Br s r z * s_Br s r z + s_Bz s r z * s_Bz s r z + s_Btor s r z * s_Btor s r z)).
  { intros e He. apply Rmult_le_pos; [|apply sqrt_pos]. unfold Rdiv. apply Rmult_le_pos; [apply Rmult_le_pos; assumption|]. apply Rlt_le, Rinv_0_lt_compat, Hb. }
  assert (G : 0 <= if outside s r z then 0 else ev) by (destruct (outside s r z); lra).
  destruct bw; cbn [snd]; apply H; exact G.
Qed.
Print Assumptions C78_length.
(** With a toroidal field in the other direction lengths are negative. *)
Theorem C78_length_refuted : exists (s : scene R) r z, 0 < r /\ outside s r z = false /\ snd (snd (direction R_sqrt.sqrt s false 1 (r, z, 0))) < 0.
Proof.
  exists (mkscene 0 10 0 10 None (fun _ _ => 0) (fun _ _ => 0) (fun _ _ => -1)), 5, 5. split; [lra|].
  assert (Ho : outside (mkscene 0 10 0 10 None (fun _ _ => 0) (fun _ _ => 0) (fun _ _ => -1)) 5 5 = false).
  { unfold outside, eqDomain. cbn [s_wall s_Rmin s_Rmax s_Zmin s_Zmax]. cbv zeta. nR. rewrite !orb_false_iff, !R_ltb_false. lra. }
  split; [exact Ho|]. unfold direction. cbv zeta. rewrite Ho. cbn [s_Br s_Bz s_Btor snd]. nR.
  replace (0 * 0 + 0 * 0 + -1 * -1) with (1 * 1) by ring. rewrite sqrt_square by lra. lra.
Qed.
Print Assumptions C78_length_refuted.
(** odeint uses multistep formulas: with the rate at the place where the line left (zero) and the rate
    before, the next position differs from the place where it left. *)
Definition qscene : scene Q := mkscene 0%Q 10%Q 0%Q 10%Q None (fun _ _ => 1%Q) (fun _ _ => 0%Q) (fun _ _ => 1%Q).
Theorem C78_multistep_refuted : exists (s : scene Q) x' x ev r' r h,
  evaluations (fun v => v) s false [1%Q] [x'; x] = Ok (ev, [r'; r]) /\ outside s (nth 0 x 0%Q) (nth 1 x 0%Q) = true /\
  ~ (nth 0 (adams2 x h r r') 0 == nth 0 x 0)%Q.
Proof.
  exists qscene, [8; 5; 0]%Q, [9999 # 1000; 5; 1]%Q. eexists. eexists. eexists. exists (1 # 4)%Q.
  split; [vm_compute; reflexivity|]. split; [vm_compute; reflexivity|]. vm_compute. discriminate.
Qed.
Print Assumptions C78_multistep_refuted.
Example C78_example : exists ev r1 r2, evaluations (fun v => v) qscene false [1; 1]%Q [[8; 5; 0; 3; 3; 0]%Q; [11; 5; 0; 3; 3; 0]%Q; [8; 5; 0; 3; 3; 0]%Q] = Ok (ev, [r1; r2; r2]) /\
  r1 = [8; 0; 16; 3; 0; 6]%Q /\ r2 = [0; 0; 0; 3; 0; 6]%Q.
Proof. eexists. eexists. eexists. split; [vm_compute; reflexivity|]. split; reflexivity. Qed.

(** C115 — the rates at a point do not depend on earlier evaluations as long as no line was outside
    in any of them ... *)
Theorem C115_inside : forall sqrt (s : scene R) backward ev points,
  (forall x, In x points -> exists lines, x = flat3 lines /\ length lines = length ev /\ forall r z l, In (r, z, l) lines -> outside s r z = false) ->
  exists rates, evaluations sqrt s backward ev points = Ok (ev, rates) /\ length rates = length points /\
    forall j, (j < length points)%nat -> fieldDirection sqrt s backward ev (nth j points []) = Ok (ev, nth j rates []).
Proof.
  intros sqrt s bw ev. induction points as [|x points IH]; intros Hin.
  - exists []. split; [reflexivity|]. split; [reflexivity|]. intros j Hj. cbn in Hj. lia.
  - destruct IH as (rates & E & L & Hr); [intros y Hy; apply Hin; right; exact Hy|].
    destruct (Hin x (or_introl eq_refl)) as (lines & -> & Ll & Ho).
    assert (F : exists r, fieldDirection sqrt s bw ev (flat3 lines) = Ok (ev, r)).
    { unfold fieldDirection. rewrite flat3_rows. cbn [bind]. rewrite Ll, Nat.eqb_refl. eexists. f_equal. f_equal.
      rewrite map_map. apply inside_ev; assumption. }
    destruct F as (r & F). exists (r :: rates). cbn [evaluations]. rewrite F. cbn [bind]. rewrite E. cbn [bind].
    split; [reflexivity|]. split; [cbn; lia|]. intros [|j] Hj; [exact F|]. apply Hr. cbn in Hj. lia.
Qed.
Print Assumptions C115_inside.
(** ... but one trial point outside, in a step that is rejected, stops a line that never leaves. *)
Theorem C115_refuted : exists (s : scene Q) ev pos rejected kept ev1 ev2 stuck moved,
  st_keep rejected = false /\
  trace (fun v => v) s false ev pos [rejected; kept] = Ok (ev1, stuck) /\
  trace (fun v => v) s false ev pos [kept] = Ok (ev2, moved) /\
  stuck = pos /\ moved <> pos /\ outside s (nth 0 moved 0%Q) (nth 1 moved 0%Q) = false.
Proof.
  exists qscene, [1%Q], [8; 5; 0]%Q, (mkstep [[]; [1%Q]] [1 # 2; 1 # 2]%Q 1%Q false), (mkstep [[]; [1%Q]] [1 # 2; 1 # 2]%Q (1 # 16)%Q true).
  eexists. eexists. eexists. eexists. split; [reflexivity|]. split; [vm_compute; reflexivity|]. split; [vm_compute; reflexivity|].
  split; [reflexivity|]. split; [discriminate|vm_compute; reflexivity].
Qed.
Print Assumptions C115_refuted.
Example C115_example : exists ev r, evaluations (fun v => v) qscene true [1%Q] [[8; 5; 0]%Q; [2; 5; 0]%Q; [8; 5; 1]%Q] = Ok (ev, r) /\ ev = [1%Q] /\
  nth 0 r [] = [-8; 0; 16]%Q /\ nth 2 r [] = [-8; 0; 16]%Q.
Proof. eexists. eexists. split; [vm_compute; reflexivity|]. repeat split; reflexivity. Qed.

(** C116 — the wall test: an odd number of wall segments is crossed by the line from the middle of
    the domain, leaving out nearly parallel ones ... *)
Theorem C116_parity : forall (s : scene R) w r z, wallDomain s w r z = true <->
  odd_number (length w) (fun i => / 1000000 < Rabs (cross (minus (r, z) (middle s)) (minus (vertex w (next w i)) (vertex w i))) /\
                                  meet (middle s) (r, z) (vertex w i) (vertex w (next w i))).
Proof. exact wall_parity. Qed.
Print Assumptions C116_parity.
(** ... so that for a convex wall around the middle of the domain exactly the points beyond it are
    found, unless the line runs through a vertex or along a segment. *)
Theorem C116_convex_wall : forall (s : scene R) w r z, strictly_convex w -> inside w (middle s) ->
  (forall k t, (k < length w)%nat -> 0 <= t <= 1 -> along (middle s) (r, z) t <> vertex w k) ->
  (forall i, (i < length w)%nat -> meet (middle s) (r, z) (vertex w i) (vertex w (next w i)) ->
     / 1000000 < Rabs (cross (minus (r, z) (middle s)) (minus (vertex w (next w i)) (vertex w i)))) ->
  wallDomain s w r z = true <-> beyond w (r, z).
Proof. exact convex_wall. Qed.
Print Assumptions C116_convex_wall.
Theorem C116_domain : forall (s : scene R) r z, eqDomain s r z = false <->
  s_Rmin s + / 100 <= r <= s_Rmax s - / 100 /\ s_Zmin s + / 100 <= z <= s_Zmax s - / 100.
Proof. intros s r z. unfold eqDomain. cbv zeta. nR. rewrite !orb_false_iff, !R_ltb_false. replace (1 / 100) with (/ 100) by lra. tauto. Qed.
Print Assumptions C116_domain.
Definition sq : list (R * R) := [(1, -1); (3, -1); (3, 1); (1, 1)].
Lemma sq_convex : strictly_convex sq.
Proof.
  split; [cbn; lia|]. intros i k Hi Hk H1 H2. cbn [length sq] in Hi, Hk.
  do 4 (destruct i as [|i]; [do 4 (destruct k as [|k]; [try (exfalso; cbn in H1, H2; lia); unfold side, cross, minus, vertex, next, sq; cbn; lra|]); lia|]). lia.
Qed.
(** On the line through a corner the wall is never seen. *)
Theorem C116_corner_refuted : exists (s : scene R) w r z, strictly_convex w /\ inside w (middle s) /\ beyond w (r, z) /\ wallDomain s w r z = false.
Proof.
  exists (mkscene 0 4 (-2) 2 (Some sq) (fun _ _ => 0) (fun _ _ => 0) (fun _ _ => 1)), sq, 4, 2.
  split; [exact sq_convex|]. split; [|split].
  - intros i Hi. cbn [length sq] in Hi. do 4 (destruct i as [|i]; [unfold side, cross, minus, vertex, next, sq, middle; cbn; lra|]). lia.
  - exists 1%nat. split; [cbn; lia|]. unfold side, cross, minus, vertex, next, sq. cbn. lra.
  - apply not_true_is_false. intros C. apply wall_parity in C. destruct C as (l & _ & Hl & Ho). destruct l as [|i l]; [discriminate|].
    destruct (proj1 (Hl i) (or_introl eq_refl)) as (Hi & _ & (t & u & Ht & Hu & E)). clear Hl Ho.
    unfold along, middle, vertex, next in E. cbn [s_Rmin s_Rmax s_Zmin s_Zmax fst snd length sq] in *.
    do 4 (destruct i as [|i]; [cbn in E; injection E as E1 E2; lra|]). lia.
Qed.
Print Assumptions C116_corner_refuted.
(** If the middle of the domain is not inside the wall the test is the wrong way round. *)
Theorem C116_middle_refuted : exists (s : scene R) w r z, strictly_convex w /\ inside w (r, z) /\ wallDomain s w r z = true.
Proof.
  exists (mkscene (-10) 4 (-2) 3 (Some sq) (fun _ _ => 0) (fun _ _ => 0) (fun _ _ => 1)), sq, 2, 0.
  split; [exact sq_convex|]. split.
  - intros i Hi. cbn [length sq] in Hi. do 4 (destruct i as [|i]; [unfold side, cross, minus, vertex, next, sq, middle; cbn; lra|]). lia.
  - apply wall_parity. exists [3%nat]. split; [constructor; [intros []|constructor]|]. split; [|reflexivity].
    intros i. split.
    + intros [<-|[]]. split; [cbn; lia|]. unfold cross, minus, meet, along, vertex, next, middle, sq. cbn.
      split; [unfold Rabs; destruct (Rcase_abs _); lra|]. exists (4 / 5), (9 / 20). split; [lra|]. split; [lra|]. f_equal; lra.
    + intros (Hi & _ & (t & u & Ht & Hu & E)). cbn [length sq] in Hi. unfold along, middle, vertex, next, sq in E. cbn [s_Rmin s_Rmax s_Zmin s_Zmax fst snd length] in E.
      do 4 (destruct i as [|i]; [cbn in E; injection E as E1 E2; try (left; reflexivity); exfalso; lra|]). lia.
Qed.
Print Assumptions C116_middle_refuted.
(** Short wall segments are never seen. *)
Theorem C116_short_refuted : exists (s : scene R) w r z, strictly_convex w /\ inside w (middle s) /\ beyond w (r, z) /\
  (forall k t, (k < length w)%nat -> 0 <= t <= 1 -> along (middle s) (r, z) t <> vertex w k) /\ wallDomain s w r z = false.
Proof.
  set (w := [(0, 0); (1, -1 / 10000000); (1, 1 / 10000000)]).
  exists (mkscene (-1) 2 (-1) 1 (Some w) (fun _ _ => 0) (fun _ _ => 0) (fun _ _ => 1)), w, 2, 0.
  split. { split; [cbn; lia|]. intros i k Hi Hk H1 H2. cbn [length w] in Hi, Hk.
    do 3 (destruct i as [|i]; [do 3 (destruct k as [|k]; [try (exfalso; cbn in H1, H2; lia); unfold side, cross, minus, vertex, next, w; cbn; lra|]); lia|]). lia. }
  split. { intros i Hi. cbn [length w] in Hi. do 3 (destruct i as [|i]; [unfold side, cross, minus, vertex, next, w, middle; cbn; lra|]). lia. }
  split. { exists 1%nat. split; [cbn; lia|]. unfold side, cross, minus, vertex, next, w. cbn. lra. }
  split. { intros k t Hk Ht E. unfold along, middle, vertex, w in E. cbn [length w] in Hk. cbn [s_Rmin s_Rmax s_Zmin s_Zmax fst snd] in E.
    do 3 (destruct k as [|k]; [cbn in E; injection E as E1 E2; lra|]). lia. }
  apply not_true_is_false. intros C. apply wall_parity in C. destruct C as (l & _ & Hl & Ho). destruct l as [|i l]; [discriminate|].
  destruct (proj1 (Hl i) (or_introl eq_refl)) as (Hi & Hd & (t & u & Ht & Hu & E)). clear Hl Ho. cbn [length w] in Hi.
  unfold cross, minus, along, middle, vertex, next, w in *. cbn [s_Rmin s_Rmax s_Zmin s_Zmax fst snd length] in *.
  destruct i as [|[|[|i]]]; [| | |lia]; cbn in E, Hd; injection E as E1 E2.
  - lra.
  - revert Hd. apply Rle_not_lt. apply Rabs_le. lra.
  - lra.
Qed.
Print Assumptions C116_short_refuted.
Example C116_example : let s := mkscene 0 4 (-2) 2 (Some sq) (fun _ _ => 0) (fun _ _ => 0) (fun _ _ => 1) in wallDomain s sq 4 1 = true /\ inside sq (middle s).
Proof.
  cbv zeta. assert (Hi : inside sq (middle (mkscene 0 4 (-2) 2 (Some sq) (fun _ _ => 0) (fun _ _ => 0) (fun _ _ => 1)))).
  { intros i Hi. cbn [length sq] in Hi. do 4 (destruct i as [|i]; [unfold side, cross, minus, vertex, next, sq, middle; cbn; lra|]). lia. }
  split; [|exact Hi]. apply C116_convex_wall; [exact sq_convex|exact Hi| | |].
  - intros k t Hk Ht E. cbn [length sq] in Hk. unfold along, middle, vertex, sq in E. cbn [s_Rmin s_Rmax s_Zmin s_Zmax fst snd] in E.
    do 4 (destruct k as [|k]; [cbn in E; injection E as E1 E2; lra|]). lia.
  - intros i Hi' (t & u & Ht & Hu & E). cbn [length sq] in Hi'. unfold cross, minus, along, middle, vertex, next, sq in *. cbn [s_Rmin s_Rmax s_Zmin s_Zmax fst snd length] in *.
    do 4 (destruct i as [|i]; [cbn in E |- *; injection E as E1 E2; try (exfalso; lra); unfold Rabs; destruct (Rcase_abs _); lra|]). lia.
  - exists 1%nat. split; [cbn; lia|]. unfold side, cross, minus, vertex, next, sq. cbn. lra.
Qed.

(** C117 — the rates follow the field; the length is that of the line in space. *)
Theorem C117_follows_field : forall (s : scene R) r z l, outside s r z = false -> s_Btor s r z <> 0 ->
  let d := snd (direction R_sqrt.sqrt s false 1 (r, z, l)) in
  along_field r (s_Br s r z) (s_Bz s r z) (s_Btor s r z) (fst (fst d)) (snd (fst d)) /\
  snd d * snd d = fst (fst d) * fst (fst d) + snd (fst d) * snd (fst d) + r * r.
Proof.
  intros s r z l Ho Hb. unfold direction. cbv zeta. rewrite Ho. cbn [fst snd]. nR. split.
  - split; [field; exact Hb|]. split; [field; exact Hb|ring].
  - set (B2 := s_Br s r z * s_Br s r z + s_Bz s r z * s_Bz s r z + s_Btor s r z * s_Btor s r z).
    assert (H : R_sqrt.sqrt B2 * R_sqrt.sqrt B2 = B2) by (apply sqrt_sqrt; unfold B2; repeat apply Rplus_le_le_0_compat; apply Rle_0_sqr).
    replace (1 * r / s_Btor s r z * R_sqrt.sqrt B2 * (1 * r / s_Btor s r z * R_sqrt.sqrt B2)) with (1 * r / s_Btor s r z * (1 * r / s_Btor s r z) * (R_sqrt.sqrt B2 * R_sqrt.sqrt B2)) by ring.
    rewrite H. unfold B2. field. exact Hb.
Qed.
Print Assumptions C117_follows_field.
(** An exact solution stays on its flux surface, forward and backward, whenever it is stopped. *)
Theorem C117_flux_constant : forall sqrt (s : scene R) backward psi psiR psiZ (ev r z l : R -> R),
  (forall x y, differentiable_pt_lim psi x y (psiR x y) (psiZ x y)) ->
  (forall x y, s_Br s x y = - psiZ x y / x /\ s_Bz s x y = psiR x y / x) ->
  (forall phi, let d := snd (direction sqrt s backward (ev phi) (r phi, z phi, l phi)) in is_derive r phi (fst (fst d)) /\ is_derive z phi (snd (fst d))) ->
  forall phi, psi (r phi) (z phi) = psi (r 0) (z 0).
Proof.
  intros sqrt s bw psi psiR psiZ ev r z l Hpsi HB Hd.
  assert (D : forall t, is_derive (fun t => psi (r t) (z t)) t zero).
  { intros t. destruct (Hd t) as (Dr & Dz). cbv zeta in Dr, Dz. apply is_derive_Reals in Dr. apply is_derive_Reals in Dz. apply is_derive_Reals.
    assert (K := derivable_pt_lim_comp_2d psi r z t _ _ _ _ (Hpsi (r t) (z t)) Dr Dz).
    assert (E : forall a b, a = b -> derivable_pt_lim (fun t => psi (r t) (z t)) t a -> derivable_pt_lim (fun t => psi (r t) (z t)) t b) by (intros a b ->; trivial).
    revert K. apply E. destruct (HB (r t) (z t)) as (H1 & H2). unfold direction. cbv zeta. cbn [fst snd]. change (@zero R_AbelianGroup) with 0.
    destruct bw; cbn [fst snd]; rewrite H1, H2; nR; unfold Rdiv, zero; cbn; ring. }
  intros phi. destruct (Rtotal_order 0 phi) as [L|[<-|L]].
  - symmetry. apply (eq_is_derive (fun t => psi (r t) (z t)) 0 phi); [intros; apply D|exact L].
  - reflexivity.
  - apply (eq_is_derive (fun t => psi (r t) (z t)) phi 0); [intros; apply D|exact L].
Qed.
Print Assumptions C117_flux_constant.
(** A vertical field (psi = R^2/2): lines go straight up. *)
Example C117_example : let s := mkscene 0 10 0 10 None (fun _ _ => 0) (fun x _ => x / x) (fun _ _ => 1) in
  snd (direction R_sqrt.sqrt s false 1 (5, 5, 0)) = (0, 5, 5 * R_sqrt.sqrt 2).
Proof.
  cbv zeta. unfold direction, outside, eqDomain. cbn [s_wall s_Rmin s_Rmax s_Zmin s_Zmax s_Br s_Bz s_Btor]. cbv zeta. nR.
  replace (R_ltb 5 (0 + 1 / 100) || R_ltb (10 - 1 / 100) 5 || (R_ltb 5 (0 + 1 / 100) || R_ltb (10 - 1 / 100) 5))%bool with false
    by (symmetry; rewrite !orb_false_iff, !R_ltb_false; lra).
  cbn [snd]. replace (0 * 0 + 5 / 5 * (5 / 5) + 1 * 1) with 2 by field. f_equal; [f_equal|]; field.
Qed.

(** C118 — which arrays of starting points work: those with one axis, and arrays with a single
    element (but not scalars). *)
Theorem C118_shapes : forall a b : array R, well_formed a -> well_formed b -> a_shape b = a_shape a -> (0 < size (a_shape a))%nat ->
  (exists pos, follow_start a b = Ok pos) <-> (exists n, a_shape a = [n]) \/ (a_shape a <> [] /\ forall d, In d (a_shape a) -> d = 1%nat).
Proof. exact start_shapes. Qed.
Print Assumptions C118_shapes.
Theorem C118_start : forall (x y : list R) pos, length y = length x -> follow_start (mkarray [length x] x) (mkarray [length x] y) = Ok pos ->
  exists lines, pos = flat3 lines /\ length lines = length x /\ forall k, (k < length x)%nat -> nth k lines (0, 0, 0) = (nth k x 0, nth k y 0, 0).
Proof.
  intros x y pos Ly E. unfold follow_start in E. cbn [a_shape a_data] in E.
  destruct (list_eq_dec Nat.eq_dec [length x] [length x]) as [_|N]; [|contradiction]. cbn [negb] in E. cbv zeta in E.
  rewrite column_stack_lines in E by (rewrite ?map_length; assumption || reflexivity). rewrite flat3_rows in E. cbn [bind] in E.
  assert (Ep : pos = flat3 (combine (combine x y) (map (fun _ => n0) x))).
  { repeat match type of E with context [if ?c then _ else _] => destruct c; try discriminate end; injection E as <-; reflexivity. }
  exists (combine (combine x y) (map (fun _ => n0) x)). split; [exact Ep|].
  split; [rewrite !combine_length, map_length; lia|]. intros k Hk.
  rewrite combine_nth by (rewrite combine_length, map_length; lia). rewrite combine_nth by (symmetry; exact Ly). f_equal.
  rewrite (nth_indep _ 0 (@n0 R Num_R)) by (rewrite map_length; exact Hk). rewrite (map_nth (fun _ : R => @n0 R Num_R) x 0). reflexivity.
Qed.
Print Assumptions C118_start.
Theorem C118_refuted : exists a b c : array Q, well_formed a /\ well_formed b /\ well_formed c /\
  (a_shape a = [] /\ follow_start a a = Raise IndexError) /\ (a_shape b = [2; 2]%nat /\ follow_start b b = Raise IndexError) /\
  (a_shape c = [2; 1]%nat /\ follow_start c c = Raise RuntimeError).
Proof.
  exists (mkarray [] [1%Q]), (mkarray [2; 2]%nat [1; 2; 3; 4]%Q), (mkarray [2; 1]%nat [1; 2]%Q).
  repeat split.
Qed.
Print Assumptions C118_refuted.
Example C118_example : follow_start (mkarray [2%nat] [1; 2]%Q) (mkarray [2%nat] [3; 4]%Q) = Ok [1; 3; 0; 2; 4; 0]%Q.
Proof. reflexivity. Qed.

(** C119 — traceFieldLines starts line k at a distance (k + 1) solwidth / nlines outside the plasma. *)
Theorem C119_starts : forall rmid zmid width n l, starting_points rmid zmid width n = Ok l ->
  length l = n /\ forall k, (k < n)%nat -> nth k l (0, 0) = (rmid + INR (S k) * width / INR n, zmid).
Proof.
  intros rmid zmid width n l E. unfold starting_points in E. destruct (Nat.eqb_spec n 0) as [->|Hn]; [discriminate|]. injection E as <-.
  split; [rewrite map_length, seq_length; reflexivity|]. intros k Hk.
  match goal with |- nth k (map ?g _) _ = _ => set (f := g) end.
  rewrite (nth_indep _ (0, 0) (f 0%nat)) by (rewrite map_length, seq_length; exact Hk). rewrite map_nth, seq_nth by exact Hk.
  unfold f, linspace. rewrite <- !INR_IZR_INZ. f_equal. cbn [Nat.add].
  assert (Hp : 0 < INR n) by (apply lt_0_INR; lia).
  destruct (Nat.eq_dec n 1) as [->|H1].
  - replace k with 0%nat by lia. cbn [INR]. unfold Rdiv. rewrite Rinv_1. ring.
  - assert (Hq : 0 < INR (n - 1)) by (apply lt_0_INR; lia). rewrite S_INR. replace (INR n) with (INR (n - 1) + 1) by (rewrite <- S_INR; f_equal; lia). field. lra.
Qed.
Print Assumptions C119_starts.
Example C119_example : starting_points 1%Q 0%Q 3%Q 3 = Ok [(2, 0); (3, 0); (4, 0)]%Q /\ starting_points 1%Q 0%Q 3%Q 0 = Raise ZeroDivisionError.
Proof. vm_compute. split; reflexivity. Qed.
