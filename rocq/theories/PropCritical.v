(** Properties of critical.py. *)
From Coq Require Import List Arith ZArith QArith Bool Reals Lra Lia Permutation Sorted.
From Coquelicot Require Import Coquelicot.
From Verif Require Import Py Num Numpy Critical CriticalSpec CriticalProofs CriticalProofs2 CriticalProofs3.
Import ListNotations.
Local Open Scope R_scope.

(** ** C39 *)
Theorem C39_core_mask_terminates : forall nx ny gR gZ psi opoint xpoint psi_bndry fuel,
  (0 < nx)%nat -> (0 < ny)%nat -> (6 * (nx * ny) + 4 <= fuel)%nat ->
  match opoint, bndry_of xpoint psi_bndry with
  | _ :: _, Some _ => exists m, core_mask fuel nx ny gR gZ psi opoint xpoint psi_bndry = Ok m
  | _, _ => core_mask fuel nx ny gR gZ psi opoint xpoint psi_bndry = Raise IndexError
  end.
Proof.
  intros nx ny gR gZ psi opoint xpoint psi_bndry fuel Hx Hy Hf. destruct opoint as [|o os]; [reflexivity|].
  destruct (bndry_of xpoint psi_bndry) as [pb|] eqn:Eb.
  - exact (core_mask_total nx ny gR gZ psi o os xpoint psi_bndry pb Hx Hy Eb fuel Hf).
  - unfold core_mask. destruct o as ((Ro, Zo), pa). destruct psi_bndry; [discriminate|]. destruct xpoint; [reflexivity|discriminate].
Qed.
Print Assumptions C39_core_mask_terminates.
(** More steps do not change the result. *)
Theorem C39_bound_irrelevant : forall nx ny gR gZ psi opoint xpoint psi_bndry fuel fuel' m,
  (0 < nx)%nat -> (0 < ny)%nat ->
  core_mask fuel nx ny gR gZ psi opoint xpoint psi_bndry = Ok m -> (fuel <= fuel')%nat ->
  core_mask fuel' nx ny gR gZ psi opoint xpoint psi_bndry = Ok m.
Proof.
  intros nx ny gR gZ psi opoint xpoint psi_bndry fuel fuel' m Hx Hy E Hle. destruct opoint as [|o os]; [discriminate|].
  destruct (bndry_of xpoint psi_bndry) as [pb|] eqn:Eb.
  - exact (core_mask_fuel nx ny gR gZ psi o os xpoint psi_bndry pb Eb fuel fuel' m E Hle).
  - unfold core_mask in E. destruct o as ((Ro, Zo), pa). destruct psi_bndry; [discriminate|]. destruct xpoint; discriminate.
Qed.
Print Assumptions C39_bound_irrelevant.
(** A 7x7 map with a saddle point in the middle, two cells of low flux above and below *)
Definition saddleZ (i j : nat) : BinNums.Z := ((Z.of_nat j - 3) ^ 2 - (Z.of_nat i - 3) ^ 2)%Z.
Definition maskQ : result (list (list bool)) :=
  match core_mask 298 7 7 (fun i _ => inject_Z (Z.of_nat i)) (fun _ j => inject_Z (Z.of_nat j))
          (fun i j => 1 - inject_Z (saddleZ i j) / 9)%Q [(3, 6, 0)%Q] [(3, 3, 1)%Q] None with
  | Ok m => Ok (map (fun i => map (fun j => Qeq_bool (m i j) 1) (seq 0 7)) (seq 0 7))
  | Raise e => Raise e
  end.
Example C39_example : exists rows, maskQ = Ok rows /\
  map (map Nat.b2n) rows = [[0;0;0;0;0;0;0]; [0;0;0;0;0;0;1]; [0;0;0;0;0;1;1]; [0;0;1;0;1;1;1]; [0;0;0;0;0;1;1]; [0;0;0;0;0;0;1]; [0;0;0;0;0;0;0]]%nat.
Proof. eexists. split; vm_compute; reflexivity. Qed.

(** ** C40 *)
Theorem C40_core_mask_exact : forall nx ny gR gZ psi opoint xpoint psi_bndry fuel m,
  (0 < nx)%nat -> (0 < ny)%nat -> core_mask fuel nx ny gR gZ psi opoint xpoint psi_bndry = Ok m ->
  exists o os pb s, opoint = o :: os /\ bndry_of xpoint psi_bndry = Some pb /\
    nearest_cell nx ny gR gZ (fst (fst o)) (snd (fst o)) s /\
    let low := fun c => (psi (fst c) (snd c) - snd o) / (pb - snd o) < 1 in
    let near := near_xpoint nx ny gR gZ xpoint in
    forall i j, in_grid nx ny (i, j) ->
      (m i j = 0 \/ m i j = 1) /\
      (near (i, j) -> (m i j = 1 <-> low (i, j))) /\
      (~ near (i, j) -> (m i j = 1 <-> connected nx ny (fun c => low c /\ ~ near c) s (i, j))).
Proof.
  intros nx ny gR gZ psi opoint xpoint psi_bndry fuel m Hx Hy E. destruct opoint as [|o os]; [discriminate|].
  destruct (bndry_of xpoint psi_bndry) as [pb|] eqn:Eb.
  - exists o, os, pb, (nearest nx ny gR gZ (fst (fst o)) (snd (fst o))). split; [reflexivity|]. split; [reflexivity|].
    split; [apply nearest_is_nearest; assumption|]. cbv zeta.
    intros i j Hg. exact (core_mask_char nx ny gR gZ psi o os xpoint psi_bndry pb Hx Hy Eb fuel m E i j Hg).
  - unfold core_mask in E. destruct o as ((Ro, Zo), pa). destruct psi_bndry; [discriminate|]. destruct xpoint; discriminate.
Qed.
Print Assumptions C40_core_mask_exact.
(** The nearest cell is unique, so the theorem determines the mask. *)
Theorem C40_nearest_unique : forall nx ny gR gZ r z c c',
  nearest_cell nx ny gR gZ r z c -> nearest_cell nx ny gR gZ r z c' -> c = c'.
Proof. exact nearest_cell_unique. Qed.
Print Assumptions C40_nearest_unique.
Definition saddle (i j : nat) : R := 1 - IZR (saddleZ i j) / 9.
Definition idR (i j : nat) : R := INR i.
Definition idZ (i j : nat) : R := INR j.
Definition saddleO : list (R * R * R) := [(3, 6, 0)].
Definition saddleX : list (R * R * R) := [(3, 3, 1)].
Lemma nearest_grid nx ny i j : (i < nx)%nat -> (j < ny)%nat -> nearest_cell nx ny idR idZ (INR i) (INR j) (i, j).
Proof.
  intros Hi Hj. unfold idR, idZ. split; (split; [assumption|]); cbn [fst snd]; (split; intros k Hk; [rewrite Rminus_eq_0, Rabs_R0; apply Rabs_pos|]);
    rewrite Rminus_eq_0, Rabs_R0; apply Rabs_pos_lt; apply lt_INR in Hk; lra.
Qed.
Example C40_example : exists m, core_mask 298 7 7 idR idZ saddle saddleO saddleX None = Ok m /\ m 3%nat 6%nat = 1 /\ m 3%nat 2%nat = 1 /\ m 3%nat 1%nat = 0.
Proof.
  destruct (C39_core_mask_terminates 7 7 idR idZ saddle saddleO saddleX None 298 ltac:(lia) ltac:(lia) ltac:(lia)) as (m & Em).
  exists m. split; [exact Em|].
  destruct (C40_core_mask_exact 7 7 idR idZ saddle saddleO saddleX None 298 m ltac:(lia) ltac:(lia) Em) as (o & os & pb & s & Eo & Eb & Hs & Hm).
  injection Eo as <- <-. injection Eb as <-. cbn [fst snd] in Hs, Hm. cbv zeta in Hm.
  assert (Ns : nearest_cell 7 7 idR idZ 3 6 (3, 6)%nat).
  { replace 3 with (INR 3) by (cbn; lra). replace 6 with (INR 6) by (cbn; lra). apply nearest_grid; lia. }
  assert (Nx : nearest_cell 7 7 idR idZ 3 3 (3, 3)%nat) by (replace 3 with (INR 3) by (cbn; lra); apply nearest_grid; lia).
  rewrite (nearest_cell_unique _ _ _ _ _ _ _ _ Hs Ns) in *.
  assert (Hnear : forall q, near_xpoint 7 7 idR idZ saddleX q <-> around (3, 3)%nat q).
  { intros q. split.
    - intros (x & c & [<-|[]] & Hc & Ha). cbn [fst snd] in Hc. rewrite (nearest_cell_unique _ _ _ _ _ _ _ _ Hc Nx) in Ha. exact Ha.
    - intros Ha. exists (3, 3, 1), (3, 3)%nat. split; [left; reflexivity|]. split; assumption. }
  unfold saddle, saddleZ, saddleX in *. cbn [fst snd] in *.
  split; [|split].
  - destruct (Hm 3%nat 6%nat ltac:(split; cbn; lia)) as (_ & _ & H). apply H; [|constructor].
    rewrite Hnear. unfold around. cbn. lia.
  - destruct (Hm 3%nat 2%nat ltac:(split; cbn; lia)) as (_ & H & _). apply H; [rewrite Hnear; unfold around; cbn; lia|]. cbn. lra.
  - destruct (Hm 3%nat 1%nat ltac:(split; cbn; lia)) as ([H|H] & _ & H2); [exact H|]. exfalso.
    apply H2 in H; [|rewrite Hnear; unfold around; cbn; lia].
    assert (Hinv : forall c, connected 7 7 (fun c => (1 - IZR (saddleZ (fst c) (snd c)) / 9 - 0) / (1 - 0) < 1 /\ ~ near_xpoint 7 7 idR idZ [(3, 3, 1)] c) (3, 6)%nat c -> (3 < snd c)%nat).
    { intros c Hc. induction Hc as [|p q Hp IH Ha Hg (Hl & Hq)]; [cbn; lia|].
      assert (Hz : (0 < saddleZ (fst q) (snd q))%Z) by (apply lt_IZR; lra). unfold saddleZ in Hz. destruct p as (pi, pj), q as (qi, qj). unfold adjacent in Ha. cbn [fst snd] in *.
      assert (qj <> 3)%nat by (intros ->; nia). lia. }
    apply Hinv in H. cbn in H. lia.
Qed.

(** ** C41 *)
Theorem C41_private_flux_refuted : exists nx ny gR gZ psi o x fuel m s c,
  (0 < nx)%nat /\ (0 < ny)%nat /\ core_mask fuel nx ny gR gZ psi [o] [x] None = Ok m /\
  nearest_cell nx ny gR gZ (fst (fst o)) (snd (fst o)) s /\ in_grid nx ny c /\ m (fst c) (snd c) = 1 /\
  ~ connected nx ny (fun c => (psi (fst c) (snd c) - snd o) / (snd x - snd o) < 1) s c.
Proof.
  destruct C40_example as (m & Em & _ & H32 & _).
  exists 7%nat, 7%nat, idR, idZ, saddle, (3, 6, 0), (3, 3, 1), 298%nat, m, (3, 6)%nat, (3, 2)%nat. cbn [fst snd].
  split; [lia|]. split; [lia|]. split; [exact Em|]. split.
  { replace 3 with (INR 3) by (cbn; lra). replace 6 with (INR 6) by (cbn; lra). apply nearest_grid; lia. }
  split; [split; cbn; lia|]. split; [exact H32|]. intros Hc.
  assert (Hinv : forall c, connected 7 7 (fun c => (saddle (fst c) (snd c) - 0) / (1 - 0) < 1) (3, 6)%nat c -> (Z.abs (Z.of_nat (fst c) - 3) < Z.of_nat (snd c) - 3)%Z).
  { intros c Hc'. induction Hc' as [|p q Hp IH Ha Hg Hl]; [cbn; lia|].
    assert (Hz : (0 < saddleZ (fst q) (snd q))%Z) by (apply lt_IZR; unfold saddle in Hl; lra). unfold saddleZ in Hz. destruct p as (pi, pj), q as (qi, qj). unfold adjacent in Ha. cbn [fst snd] in *.
    assert (Z.abs (Z.of_nat qi - 3) <> Z.of_nat qj - 3)%Z by nia. lia. }
  apply Hinv in Hc. cbn in Hc. lia.
Qed.
Print Assumptions C41_private_flux_refuted.
(** It can only happen in the blocks around X-points. *)
Theorem C41_outside_blocks : forall nx ny gR gZ psi opoint xpoint psi_bndry fuel m i j,
  (0 < nx)%nat -> (0 < ny)%nat -> core_mask fuel nx ny gR gZ psi opoint xpoint psi_bndry = Ok m ->
  in_grid nx ny (i, j) -> m i j = 1 -> ~ near_xpoint nx ny gR gZ xpoint (i, j) ->
  exists o os pb s, opoint = o :: os /\ bndry_of xpoint psi_bndry = Some pb /\
    nearest_cell nx ny gR gZ (fst (fst o)) (snd (fst o)) s /\
    connected nx ny (fun c => (psi (fst c) (snd c) - snd o) / (pb - snd o) < 1) s (i, j).
Proof.
  intros nx ny gR gZ psi opoint xpoint psi_bndry fuel m i j Hx Hy E Hg Hm Hn.
  destruct (C40_core_mask_exact nx ny gR gZ psi opoint xpoint psi_bndry fuel m Hx Hy E) as (o & os & pb & s & Eo & Eb & Hs & H).
  exists o, os, pb, s. split; [exact Eo|]. split; [exact Eb|]. split; [exact Hs|]. cbv zeta in H.
  destruct (H i j Hg) as (_ & _ & H'). apply (proj1 (H' Hn)) in Hm. clear -Hm.
  induction Hm as [|p q Hp IH Ha Hg (Hl & _)]; [constructor|]. econstructor; eassumption.
Qed.
Print Assumptions C41_outside_blocks.
Example C41_example : exists m, core_mask 298 7 7 idR idZ saddle saddleO saddleX None = Ok m /\ in_grid 7 7 (3, 6)%nat /\ m 3%nat 6%nat = 1.
Proof. destruct C40_example as (m & Em & H & _). exists m. split; [exact Em|]. split; [split; cbn; lia|exact H]. Qed.

(** ** C42 *)
Theorem C42_remove_dup : forall points,
  sublist (remove_dup points) points /\ ForallOrdPairs apart (remove_dup points) /\
  forall p, In p points -> exists q, In q (remove_dup points) /\ dist2 p q < 1 / 100000.
Proof. exact remove_dup_spec. Qed.
Print Assumptions C42_remove_dup.
Theorem C42_returned_points_apart : forall nx ny gR gZ psi f disc os xs,
  find_critical nx ny gR gZ psi f disc = Ok (os, xs) -> ForallOrdPairs apart os /\ ForallOrdPairs apart xs.
Proof.
  intros nx ny gR gZ psi f disc os xs E. destruct (find_critical_inv _ _ _ _ _ _ _ _ _ E) as (xo & Ec & Po & _ & H0 & H1).
  destruct (remove_dup_spec (fst xo)) as (_ & Ax & _). destruct (remove_dup_spec (snd xo)) as (_ & Ao & _).
  split; [exact (apart_perm _ _ Po Ao)|].
  destruct os as [|o os']; [rewrite H0 by reflexivity; exact Ax|]. destruct (H1 o os' eq_refl) as (_ & Px).
  apply (apart_perm _ _ Px). destruct disc; [apply apart_filter|]; exact Ax.
Qed.
Print Assumptions C42_returned_points_apart.
Example C42_example : let l := [(1, 1, 5); (1, 1 + 1 / 1000, 5); (2, 1, 6)] in remove_dup l = [(1, 1, 5); (2, 1, 6)].
Proof.
  cbv zeta. unfold remove_dup. cbn [fold_left existsb app].
  replace (close (1, 1 + 1 / 1000, 5) (1, 1, 5)) with true by (symmetry; apply close_true; unfold dist2; cbn [fst snd]; lra). cbn [orb existsb].
  replace (close (2, 1, 6) (1, 1, 5)) with false; [reflexivity|]. symmetry. destruct (close _ _) eqn:E; [|reflexivity].
  apply close_true in E. unfold dist2 in E. cbn [fst snd] in E. lra.
Qed.

(** ** C43 *)
Theorem C43_points_genuine : forall nx ny gR gZ psi f disc os xs,
  gR 1%nat 0%nat <> gR 0%nat 0%nat -> gZ 0%nat 1%nat <> gZ 0%nat 0%nat ->
  find_critical nx ny gR gZ psi f disc = Ok (os, xs) ->
  (forall p, In p os -> exists i j, inner nx ny i j /\ strict_local_min (field2 gR gZ f) i j /\ genuine_at gR gZ f i j p /\ 0 <= det2 gR gZ psi i j) /\
  (forall p, In p xs -> exists i j, inner nx ny i j /\ strict_local_min (field2 gR gZ f) i j /\ genuine_at gR gZ f i j p /\ det2 gR gZ psi i j < 0).
Proof.
  intros nx ny gR gZ psi f disc os xs HR HZ E. destruct (find_critical_inv _ _ _ _ _ _ _ _ _ E) as (xo & Ec & Po & _ & H0 & H1).
  destruct (in_candidates nx ny gR gZ psi f xo Ec) as (Hx & Ho). split; intros p Hp.
  - apply (Permutation_in p (Permutation_sym Po)) in Hp. apply (sublist_in _ _ _ (proj1 (remove_dup_spec (snd xo)))) in Hp.
    destruct (Ho p Hp) as (i & j & Hs & Hh). exists i, j. rewrite <- hessian_det2 by assumption. destruct (source_genuine _ _ _ _ _ _ _ _ Hs) as (A & B & C). auto.
  - assert (Hp' : In p (remove_dup (fst xo))).
    { destruct os as [|o os']; [rewrite <- H0 by reflexivity; exact Hp|]. destruct (H1 o os' eq_refl) as (_ & Px).
      apply (Permutation_in p (Permutation_sym Px)) in Hp. destruct disc; [apply filter_In in Hp; apply Hp|exact Hp]. }
    apply (sublist_in _ _ _ (proj1 (remove_dup_spec (fst xo)))) in Hp'.
    destruct (Hx p Hp') as (i & j & Hs & Hh). exists i, j. rewrite <- hessian_det2 by assumption. destruct (source_genuine _ _ _ _ _ _ _ _ Hs) as (A & B & C). auto.
Qed.
Print Assumptions C43_points_genuine.
(** The loop of at most 101 Newton steps always ends by itself. *)
Theorem C43_newton_bounded : forall nx ny gR gZ psi f disc, find_critical nx ny gR gZ psi f disc <> Raise OutOfFuel.
Proof.
  intros nx ny gR gZ psi f disc. unfold find_critical. assert (H := candidates_fuel nx ny gR gZ psi f).
  destruct (candidates nx ny gR gZ psi f) as [xo|e]; cbn [bind]; [|congruence]. destruct (sort_by _ _); discriminate.
Qed.
Print Assumptions C43_newton_bounded.
Theorem C43_sorted : forall nx ny gR gZ psi f disc os xs,
  find_critical nx ny gR gZ psi f disc = Ok (os, xs) ->
  StronglySorted (fun p q => mid_dist nx ny gR gZ p <= mid_dist nx ny gR gZ q) os /\
  forall o os', os = o :: os' -> StronglySorted (fun p q => (snd p - snd o) ^ 2 <= (snd q - snd o) ^ 2) xs.
Proof.
  intros nx ny gR gZ psi f disc os xs E. destruct (find_critical_inv _ _ _ _ _ _ _ _ _ E) as (xo & Ec & Po & So & H0 & H1).
  split; [exact So|]. intros o os' Eo. apply (H1 o os' Eo).
Qed.
Print Assumptions C43_sorted.
Theorem C43_discard_only_removes : forall nx ny gR gZ psi f os xs,
  find_critical nx ny gR gZ psi f true = Ok (os, xs) ->
  exists xs' gone, find_critical nx ny gR gZ psi f false = Ok (os, xs') /\ Permutation xs' (xs ++ gone).
Proof. exact find_critical_discard. Qed.
Print Assumptions C43_discard_only_removes.
(** Every interior minimum of the field from which the search converges is represented. *)
Theorem C43_complete : forall nx ny gR gZ psi f os xs i j r z,
  gR 1%nat 0%nat <> gR 0%nat 0%nat -> gZ 0%nat 1%nat <> gZ 0%nat 0%nat ->
  find_critical nx ny gR gZ psi f false = Ok (os, xs) -> inner nx ny i j -> strict_local_min (field2 gR gZ f) i j ->
  newton gR gZ f 101 (gR i j) (gZ i j) 0 (gR i j) (gZ i j) = Ok (Some (r, z)) ->
  exists q, dist2 (r, z, f 0%nat 0%nat r z) q < 1 / 100000 /\
    (0 <= det2 gR gZ psi i j -> In q os) /\ (det2 gR gZ psi i j < 0 -> In q xs).
Proof.
  intros nx ny gR gZ psi f os xs i j r z HR HZ E Hi Hm Hn. destruct (find_critical_inv _ _ _ _ _ _ _ _ _ E) as (xo & Ec & Po & _ & H0 & H1).
  assert (Hc := candidates_complete nx ny gR gZ psi f xo i j Ec Hi r z).
  assert (Hi' := Hi). destruct Hi' as (A & B & C & D).
  specialize (Hc (proj2 (local_min_true gR gZ f i j ltac:(lia) ltac:(lia)) Hm) Hn). rewrite hessian_det2 in Hc by assumption.
  destruct (R_ltb (det2 gR gZ psi i j) 0) eqn:Ed; rcmp.
  - destruct (proj2 (proj2 (remove_dup_spec (fst xo))) _ Hc) as (q & Hq & Hd). exists q. split; [exact Hd|]. split; [intros; lra|]. intros _.
    destruct os as [|o os']; [rewrite H0 by reflexivity; exact Hq|]. destruct (H1 o os' eq_refl) as (_ & Px). exact (Permutation_in _ Px Hq).
  - destruct (proj2 (proj2 (remove_dup_spec (snd xo))) _ Hc) as (q & Hq & Hd). exists q. split; [exact Hd|]. split; [|intros; lra]. intros _.
    exact (Permutation_in _ Po Hq).
Qed.
Print Assumptions C43_complete.
(** flux (r-5)^2 + z^3/3 - z around (5,0): an O-point at z=1 and an X-point at z=-1 *)
Definition exf (a b : nat) (r z : Q) : Q :=
  match (a, b) with
  | (0, 0)%nat => ((r - 5) * (r - 5) + z * z * z / 3 - z)%Q
  | (1, 0)%nat => (2 * (r - 5))%Q | (0, 1)%nat => (z * z - 1)%Q | (2, 0)%nat => 2%Q | (0, 2)%nat => (2 * z)%Q | _ => 0%Q end.
Definition exgR (i j : nat) : Q := inject_Z (Z.of_nat i + 1).
Definition exgZ (i j : nat) : Q := inject_Z (Z.of_nat j - 4).
Definition expsi (i j : nat) : Q := exf 0 0 (exgR i j) (exgZ i j).
Definition red3 (p : Q * Q * Q) : Q * Q * Q := (Qred (fst (fst p)), Qred (snd (fst p)), Qred (snd p)).
Example C43_example :
  match find_critical 9 9 exgR exgZ expsi exf false with
  | Ok (os, xs) => map red3 os = [(5, 1, - 2 # 3)%Q] /\ map red3 xs = [(5, - 1, 2 # 3)%Q]
  | Raise _ => False
  end.
Proof. vm_compute. split; reflexivity. Qed.

(** ** C44 *)
Theorem C44_on_ray_in_domain : forall Rmin Rmax Zmin Zmax g r0 z0 r1 z1 v n r z w,
  Rmin <= r0 <= Rmax -> Zmin <= z0 <= Zmax ->
  find_psisurface Rmin Rmax Zmin Zmax g r0 z0 r1 z1 v n = Ok (r, z, w) ->
  (exists t, 0 <= t <= 1 /\ r = r0 + t * (r1 - r0) /\ z = z0 + t * (z1 - z0)) /\
  Rmin - tol <= r <= Rmax + tol /\ Zmin - tol <= z <= Zmax + tol /\ (tol < Rabs (r1 - r0) -> Rmin <= r <= Rmax).
Proof.
  intros Rmin Rmax Zmin Zmax g r0 z0 r1 z1 v n r z w HR HZ E.
  destruct (surface_spec _ _ _ _ _ _ _ _ _ _ _ _ _ _ HR HZ E) as (re & ze & He & Hn & _ & [(-> & -> & _)|(_ & Hc)]).
  - assert (K := ray_end_frac _ _ _ _ _ _ _ _ _ _ 0 HR HZ ltac:(lra) He). cbv zeta in K.
    replace (r0 + 0 * (re - r0)) with r0 in K by ring. replace (z0 + 0 * (ze - z0)) with z0 in K by ring. exact K.
  - destruct (crossing_frac _ _ _ _ _ _ _ _ _ Hc) as (s & Hs & -> & ->). exact (ray_end_frac _ _ _ _ _ _ _ _ _ _ s HR HZ Hs He).
Qed.
Print Assumptions C44_on_ray_in_domain.
(** The samples go from the start to the last point of the ray in the domain; where one of them
    exceeds the value and the first does not, the result is the crossing.  No warning is ever given. *)
Theorem C44_on_surface : forall Rmin Rmax Zmin Zmax g r0 z0 r1 z1 v n r z w,
  Rmin <= r0 <= Rmax -> Zmin <= z0 <= Zmax ->
  find_psisurface Rmin Rmax Zmin Zmax g r0 z0 r1 z1 v n = Ok (r, z, w) ->
  w = false /\ exists re ze, ray_end Rmin Rmax Zmin Zmax r0 z0 r1 z1 re ze /\
    ((exists k, (k < n)%nat /\ v < g (sample r0 re n k) (sample z0 ze n k)) -> g r0 z0 <= v ->
     crossing g r0 z0 re ze v n r z).
Proof.
  intros Rmin Rmax Zmin Zmax g r0 z0 r1 z1 v n r z w HR HZ E.
  destruct (surface_spec _ _ _ _ _ _ _ _ _ _ _ _ _ _ HR HZ E) as (re & ze & He & Hn & Hw & Hcase).
  split; [exact Hw|]. exists re, ze. split; [exact He|]. intros (k & Hk & Hv) H0.
  destruct Hcase as [(_ & _ & [Hall|Hgt])|(_ & Hc)]; [specialize (Hall k Hk); lra|lra|exact Hc].
Qed.
Print Assumptions C44_on_surface.
(** A call always returns (for a positive number of samples). *)
Theorem C44_returns : forall Rmin Rmax Zmin Zmax (g : R -> R -> R) r0 z0 r1 z1 v n,
  (0 < n)%nat -> exists p, find_psisurface Rmin Rmax Zmin Zmax g r0 z0 r1 z1 v n = Ok p.
Proof.
  intros. unfold find_psisurface. destruct (n =? 0)%nat eqn:En; [apply Nat.eqb_eq in En; lia|].
  destruct (clip_end _ _ _ _ _ _ _ _) as (a, b). match goal with |- exists p, (if ?c then _ else _) = _ => destruct c end; eexists; reflexivity.
Qed.
Print Assumptions C44_returns.
Lemma exsurf : find_psisurface 0 1 0 2 (fun r z => z) 1 0 (1 + 1 / 2000000) 1 (1 / 2) 2 = Ok (1 + 1 / 4000000, 1 / 2, false).
Proof.
  unfold find_psisurface, clip_end. cbn [Nat.eqb]. rewrite nabs_R. nR.
  rewrite (proj2 (R_ltb_false (1 / 1000000) (Rabs (1 + 1 / 2000000 - 1)))) by (rewrite Rabs_right; lra). cbv beta iota zeta.
  rewrite !nabs_R, nclip_R.
  rewrite (proj2 (R_ltb_true (1 / 1000000) (Rabs (1 - 0)))) by (rewrite Rabs_right; lra).
  replace (Rmin (Rmax 1 0) 2) with 1 by (unfold Rmin, Rmax; repeat destruct Rle_dec; lra).
  replace (Rabs ((1 - 0) / (1 - 0))) with 1 by (replace ((1 - 0) / (1 - 0)) with 1 by lra; rewrite Rabs_right; lra).
  unfold argtrue. replace (find _ (range 0 2)) with (Some 1%nat).
  - cbn [Nat.eqb]. rewrite !linspace_sample. unfold sample. cbn [INR Nat.sub]. f_equal. f_equal; [f_equal; field|]. apply R_ltb_false. lra.
  - cbn [range seq Nat.sub find]. rewrite !linspace_sample. unfold sample. cbn [INR Nat.sub].
    rewrite (proj2 (R_ltb_false _ _)) by lra. rewrite (proj2 (R_ltb_true _ _)) by lra. reflexivity.
Qed.
Example C44_example : exists r z w, 0 <= 1 <= 1 /\ 0 <= 0 <= 2 /\ find_psisurface 0 1 0 2 (fun r z => z) 1 0 (1 + 1 / 2000000) 1 (1 / 2) 2 = Ok (r, z, w) /\ z = 1 / 2.
Proof. exists (1 + 1 / 4000000), (1 / 2), false. split; [lra|]. split; [lra|]. split; [exact exsurf|reflexivity]. Qed.
(** Strictly inside is not guaranteed: a ray leaving the edge almost parallel to it is not clipped. *)
Theorem C44_inside_domain_refuted : exists Rmin Rmax Zmin Zmax (g : R -> R -> R) r0 z0 r1 z1 v n r z w,
  Rmin <= r0 <= Rmax /\ Zmin <= z0 <= Zmax /\
  find_psisurface Rmin Rmax Zmin Zmax g r0 z0 r1 z1 v n = Ok (r, z, w) /\ Rmax < r.
Proof.
  exists 0, 1, 0, 2, (fun r z => z), 1, 0, (1 + 1 / 2000000), 1, (1 / 2), 2%nat, (1 + 1 / 4000000), (1 / 2), false.
  split; [lra|]. split; [lra|]. split; [exact exsurf|lra].
Qed.
Print Assumptions C44_inside_domain_refuted.

(** ** C45 *)
Theorem C45_missing_surface_refuted : exists Rmin Rmax Zmin Zmax (g : R -> R -> R) r0 z0 r1 z1 v n r z,
  Rmin <= r0 <= Rmax /\ Zmin <= z0 <= Zmax /\ (2 <= n)%nat /\ (forall r z, g r z < v) /\
  find_psisurface Rmin Rmax Zmin Zmax g r0 z0 r1 z1 v n = Ok (r, z, false).
Proof.
  exists 0, 1, 0, 2, (fun _ _ => 0), 1, 0, 1, 1, 1, 2%nat.
  destruct (C44_returns 0 1 0 2 (fun _ _ => 0) 1 0 1 1 1 2 ltac:(lia)) as (((r, z), w) & E).
  assert (Hw := proj1 (C44_on_surface 0 1 0 2 (fun _ _ => 0) 1 0 1 1 1 2 r z w ltac:(lra) ltac:(lra) E)). subst w.
  exists r, z. repeat split; try lra; try lia; [intros; lra|exact E].
Qed.
Print Assumptions C45_missing_surface_refuted.
(** In that case the start of the ray is always returned, without a warning. *)
Theorem C45_start_returned : forall Rmin Rmax Zmin Zmax g r0 z0 r1 z1 v n r z w,
  Rmin <= r0 <= Rmax -> Zmin <= z0 <= Zmax -> (forall r z, g r z <= v) ->
  find_psisurface Rmin Rmax Zmin Zmax g r0 z0 r1 z1 v n = Ok (r, z, w) -> r = r0 /\ z = z0 /\ w = false.
Proof.
  intros Rmin Rmax Zmin Zmax g r0 z0 r1 z1 v n r z w HR HZ Hg E.
  destruct (surface_spec _ _ _ _ _ _ _ _ _ _ _ _ _ _ HR HZ E) as (re & ze & He & Hn & Hw & [(-> & -> & _)|(_ & Hc)]); [auto|].
  destruct Hc as (k & l & _ & _ & Hk). cbv zeta in Hk. destruct Hk as (Hk & _). specialize (Hg (sample r0 re n k) (sample z0 ze n k)). lra.
Qed.
Print Assumptions C45_start_returned.
Example C45_example : (forall r z : R, (fun _ _ => 0) r z <= 1) /\ exists p, find_psisurface 0 1 0 2 (fun _ _ => 0) 1 0 1 1 1 2 = Ok p.
Proof. split; [intros; cbn; lra|]. apply C44_returns. lia. Qed.

(** ** C91 *)
(** The 2x2 matrix inverted in the search is the matrix of derivatives of (Br, Bz). *)
Theorem C91_newton_step : forall gR gZ f fuel R0 Z0 count r z, partials f -> r <> 0 ->
  1 / 1000000 <= (- f 0%nat 1%nat r z / r) ^ 2 + (f 1%nat 0%nat r z / r) ^ 2 ->
  exists brr brz bzr bzz,
    is_derive (fun x => - f 0%nat 1%nat x z / x) r brr /\ is_derive (fun y => - f 0%nat 1%nat r y / r) z brz /\
    is_derive (fun x => f 1%nat 0%nat x z / x) r bzr /\ is_derive (fun y => f 1%nat 0%nat r y / r) z bzz /\
    ((brr * bzz - brz * bzr = 0 /\ newton gR gZ f (S fuel) R0 Z0 count r z = Raise LinAlgError) \/
     (brr * bzz - brz * bzr <> 0 /\ exists d0 d1,
        brr * d0 + brz * d1 = - f 0%nat 1%nat r z / r /\ bzr * d0 + bzz * d1 = f 1%nat 0%nat r z / r /\
        (search_radius2 gR gZ < (r - d0 - R0) ^ 2 + (z - d1 - Z0) ^ 2 -> newton gR gZ f (S fuel) R0 Z0 count r z = Ok None) /\
        ((r - d0 - R0) ^ 2 + (z - d1 - Z0) ^ 2 <= search_radius2 gR gZ -> (100 <= count)%nat -> newton gR gZ f (S fuel) R0 Z0 count r z = Ok None) /\
        ((r - d0 - R0) ^ 2 + (z - d1 - Z0) ^ 2 <= search_radius2 gR gZ -> (count < 100)%nat ->
           newton gR gZ f (S fuel) R0 Z0 count r z = newton gR gZ f fuel R0 Z0 (S count) (r - d0) (z - d1)))).
Proof. exact newton_step. Qed.
Print Assumptions C91_newton_step.
(** ... and a point where the field is below the limit is accepted at once *)
Theorem C91_newton_stop : forall gR gZ f fuel R0 Z0 count r z,
  (- f 0%nat 1%nat r z / r) ^ 2 + (f 1%nat 0%nat r z / r) ^ 2 < 1 / 1000000 ->
  newton gR gZ f (S fuel) R0 Z0 count r z = Ok (Some (r, z)).
Proof.
  intros gR gZ f fuel R0 Z0 count r z H. cbn [newton]. unfold Br, Bz. nR. rewrite (proj2 (R_ltb_true _ _)); [reflexivity|]. cbn [pow] in H. lra.
Qed.
Print Assumptions C91_newton_stop.
Definition bowl (a b : nat) (r z : R) : R :=
  match (a, b) with (0, 0)%nat => r ^ 2 + z ^ 2 | (1, 0)%nat => 2 * r | (0, 1)%nat => 2 * z | (2, 0)%nat | (0, 2)%nat => 2 | _ => 0 end.
Example C91_example : partials bowl /\ 1 / 1000000 <= (- bowl 0 1 1 1 / 1) ^ 2 + (bowl 1 0 1 1 / 1) ^ 2.
Proof.
  split; [|cbn; lra]. intros a b r z Hab.
  assert (C : (a = 0 /\ b = 0 \/ a = 1 /\ b = 0 \/ a = 0 /\ b = 1)%nat) by lia.
  destruct C as [(-> & ->)|[(-> & ->)|(-> & ->)]]; cbn [bowl]; split; auto_derive; auto; try ring.
Qed.
(** The test that separates O- from X-points uses the second derivatives; it is exact for a
    quadratic flux on a uniform grid. *)
Theorem C91_classification_exact : forall gR gZ psi i j r0 z0 h k a b c d e g,
  h <> 0 -> k <> 0 -> (2 <= i)%nat -> (2 <= j)%nat ->
  (forall i j, gR i j = r0 + INR i * h) -> (forall i j, gZ i j = z0 + INR j * k) ->
  (forall i j, psi i j = a + b * gR i j + c * gZ i j + d * gR i j ^ 2 + e * (gR i j * gZ i j) + g * gZ i j ^ 2) ->
  hessian gR gZ psi i j = (2 * d) * (2 * g) - e ^ 2.
Proof.
  intros gR gZ psi i j r0 z0 h k a b c d e g Hh Hk Hi Hj HR HZ Hp.
  rewrite hessian_det2 by (rewrite ?HR, ?HZ; cbn [INR]; lra). unfold det2.
  destruct (det2_quadratic gR gZ psi i j r0 z0 h k a b c d e g Hh Hk Hi Hj HR HZ Hp) as (-> & -> & ->). reflexivity.
Qed.
Print Assumptions C91_classification_exact.
Example C91_classification_example : hessian (fun i _ => 1 + INR i * 1) (fun _ j => 0 + INR j * 1) (fun i j => (1 + INR i) ^ 2 - INR j ^ 2) 2 2 = - 4.
Proof.
  rewrite (C91_classification_exact _ _ _ 2 2 1 0 1 1 0 0 0 1 0 (-1)); try lra; try lia; intros; ring.
Qed.

(** ** C92 *)
(** An X-point reached from the O-point along a line of increasing flux is kept. *)
Theorem C92_monotone_kept : forall f o x,
  (forall k, (k < 49)%nat -> line_flux f o x k <= line_flux f o x (S k)) -> keep_xpt f o x = true.
Proof.
  intros f o x Hm. rewrite keep_unfold. cbv zeta.
  assert (Hle : forall k l, (k <= l)%nat -> (l <= 49)%nat -> line_flux f o x k <= line_flux f o x l).
  { intros k l Hkl. induction Hkl as [|l Hkl IH]; intros Hl; [lra|]. specialize (IH ltac:(lia)). specialize (Hm l ltac:(lia)). lra. }
  destruct (amax_spec 50 (line_flux f o x) ltac:(lia)) as (Ha & (i & Hi & Ei)).
  assert (Em : amax 50 (line_flux f o x) = line_flux f o x 49).
  { apply Rle_antisym; [rewrite Ei; apply Hle; lia|apply Ha; lia]. }
  destruct (argmin_spec 50 (line_flux f o x) ltac:(lia)) as (_ & _ & Hmin).
  assert (E0 : argmin 50 (line_flux f o x) = 0%nat).
  { destruct (argmin 50 (line_flux f o x)) as [|k] eqn:Ek; [reflexivity|]. specialize (Hmin 0%nat ltac:(lia)).
    destruct (argmin_spec 50 (line_flux f o x) ltac:(lia)) as (Hk & _). rewrite Ek in Hk. specialize (Hle 0%nat (S k) ltac:(lia) ltac:(lia)). lra. }
  rewrite Em, E0, !sample_0. rewrite Rminus_eq_0.
  replace (0 / (line_flux f o x 49 - line_flux f o x 0)) with 0 by (unfold Rdiv; ring).
  rewrite (proj2 (R_ltb_false 0 0)) by lra. rewrite (proj2 (R_ltb_false (1 / 1000) 0)) by lra.
  rewrite !Rminus_eq_0. rewrite (proj2 (R_ltb_false (1 / 10000) _)) by (cbn; lra).
  destruct (R_eqb _ 0); reflexivity.
Qed.
Print Assumptions C92_monotone_kept.
(** A kept X-point is (almost) the highest point of the line, and the lowest one lies near the O-point. *)
Theorem C92_kept_visible : forall f o x, keep_xpt f o x = true ->
  (forall k, (k < 50)%nat -> exists top, (exists l, (l < 50)%nat /\ top = line_flux f o x l) /\ line_flux f o x k <= top /\
     top - line_flux f o x 49 <= 1 / 1000 * (top - line_flux f o x 0)) /\
  exists l, (l < 50)%nat /\ (forall k, (k < 50)%nat -> line_flux f o x l <= line_flux f o x k) /\
    (sample (fst (fst o)) (fst (fst x)) 50 l - fst (fst o)) ^ 2 + (sample (snd (fst o)) (snd (fst x)) 50 l - snd (fst o)) ^ 2 <= 1 / 10000.
Proof.
  intros f o x. rewrite keep_unfold. cbv zeta.
  destruct (amax_spec 50 (line_flux f o x) ltac:(lia)) as (Ha & Hi).
  destruct (argmin_spec 50 (line_flux f o x) ltac:(lia)) as (L1 & L2 & _).
  set (mx := amax 50 (line_flux f o x)) in *. set (l := argmin 50 (line_flux f o x)) in *. clearbody mx l.
  assert (H0 := Ha 0%nat ltac:(lia)). assert (H49 := Ha 49%nat ltac:(lia)).
  destruct (if R_eqb (mx - line_flux f o x 0) 0 then _ else _) eqn:E1; [discriminate|].
  destruct (R_ltb (1 / 10000) _) eqn:E2; [discriminate|]. intros _. rcmp. split; [|exists l; auto].
  intros k Hk. exists mx. split; [exact Hi|]. split; [apply Ha; exact Hk|].
  destruct (R_eqb (mx - line_flux f o x 0) 0) eqn:E3; rcmp; [lra|].
  set (a := mx - line_flux f o x 49) in *. set (b := mx - line_flux f o x 0) in *.
  assert (Hb : 0 < b) by (unfold b in *; lra). replace a with (a / b * b) by (field; lra). apply Rmult_le_compat_r; lra.
Qed.
Print Assumptions C92_kept_visible.
Example C92_example : keep_xpt bowl (0, 0, 0) (1, 0, 1) = true.
Proof.
  apply C92_monotone_kept. intros k Hk. unfold line_flux. cbn [fst snd bowl].
  destruct (Rlt_dec 1 0); [lra|]. unfold sample. replace (INR (50 - 1)) with 49 by (cbn; lra). rewrite S_INR. assert (0 <= INR k) by apply pos_INR. nra.
Qed.

(** ** C93 *)
(** An X-point just short of the angle 2 pi is not noticed to be close to the ray at angle 0. *)
Theorem C93_rays_avoid_xpoint_refuted : exists ntheta r0 z0 (x : R * R * R) thetas,
  theta_grid PI atan2 ntheta r0 z0 x = Ok thetas /\
  exists t, In t thetas /\ Rabs (t - atan2 (fst (fst x) - r0) (snd (fst x) - z0)) < 1 / 1000.
Proof.
  set (a := - (1 / 2000)). assert (Hpi := PI2_3_2). assert (Hpi4 := PI_4).
  assert (Hcos : 0 < cos a) by (apply cos_gt_0; unfold a; lra).
  assert (Ht : atan2 (1 + sin a - 1) (0 + cos a - 0) = a).
  { unfold atan2. destruct (Rlt_dec 0 (0 + cos a - 0)) as [_|Hc]; [|lra]. replace ((1 + sin a - 1) / (0 + cos a - 0)) with (tan a) by (unfold tan; field; lra).
    apply atan_tan. unfold a. lra. }
  exists 4%nat, 1, 0, (1 + sin a, 0 + cos a, 0), (map (fun k => INR k * (2 * PI / 4)) (seq 0 4)). cbn [fst snd]. split.
  - unfold theta_grid. cbn [Nat.ltb Nat.leb]. unfold pR, pZ. cbn [fst snd nsub Num_R]. rewrite Ht.
    nR. rewrite (proj2 (R_ltb_true a 0)) by (unfold a; lra).
    replace (existsb _ _) with false.
    + f_equal. apply map_ext. intros k. rewrite <- INR_IZR_INZ. reflexivity.
    + symmetry. apply not_true_is_false. intros He. apply existsb_exists in He. destruct He as (t & Hin & Hlt). rewrite nabs_R in Hlt. apply R_ltb_true in Hlt.
      apply in_map_iff in Hin. destruct Hin as (k & <- & Hk). apply in_seq in Hk. rewrite <- !INR_IZR_INZ in Hlt.
      assert (Hk3 : INR k <= 3) by (replace 3 with (INR 3) by (cbn; lra); apply le_INR; lia). assert (Hk0 : 0 <= INR k) by apply pos_INR.
      replace (INR 4) with 4 in Hlt by (cbn; lra). apply Rabs_def2 in Hlt. unfold a in Hlt. nra.
  - exists 0. split; [left; cbn; lra|]. rewrite Ht. rewrite Rabs_right by (unfold a; lra). unfold a. lra.
Qed.
Print Assumptions C93_rays_avoid_xpoint_refuted.
(** Away from the wrap-around the angles do avoid the X-point, unless the steps are so small
    that the shifted ones meet it again. *)
Theorem C93_shift_or_clear : forall ntheta r0 z0 x thetas, theta_grid PI atan2 ntheta r0 z0 x = Ok thetas ->
  let xt := atan2 (fst (fst x) - r0) (snd (fst x) - z0) in
  let xt' := if Rlt_dec xt 0 then xt + 2 * PI else xt in
  4 / 1000 < 2 * PI / INR ntheta -> forall t, In t thetas -> 1 / 1000 <= Rabs (t - xt').
Proof.
  intros ntheta r0 z0 x thetas E xt xt' Hd t Hin. unfold theta_grid in E. destruct (ntheta <? 2)%nat eqn:En; [discriminate|]. apply Nat.ltb_ge in En.
  unfold pR, pZ in E. nR. fold xt in E.
  replace (if R_ltb xt 0 then xt + 2 * PI else xt) with xt' in E by (unfold xt', R_ltb; destruct Rlt_dec; reflexivity).
  assert (HN : 2 <= INR ntheta) by (replace 2 with (INR 2) by (cbn; lra); apply le_INR; exact En).
  rewrite <- !INR_IZR_INZ in E.
  set (d := 2 * PI / INR ntheta) in *.
  destruct (existsb _ _) eqn:Ee in E; injection E as <-.
  - apply existsb_exists in Ee. destruct Ee as (t0 & Hin0 & Hlt). rewrite nabs_R in Hlt. apply R_ltb_true in Hlt. apply Rabs_def2 in Hlt.
    apply in_map_iff in Hin. destruct Hin as (t1 & <- & Hin). apply in_map_iff in Hin0, Hin. destruct Hin0 as (k0 & <- & _), Hin as (k1 & <- & _).
    rewrite <- !INR_IZR_INZ in *.
    destruct (Nat.lt_trichotomy k0 k1) as [L|[->|L]].
    + apply lt_INR in L || idtac. assert (INR k0 + 1 <= INR k1) by (rewrite <- S_INR; apply le_INR; apply INR_lt in L; lia).
      rewrite Rabs_right; nra.
    + rewrite Rabs_right; nra.
    + assert (INR k1 + 1 <= INR k0) by (rewrite <- S_INR; apply le_INR; lia). rewrite Rabs_left; nra.
  - apply Rnot_lt_le. intros Hlt.
    assert (Hex : existsb (fun t => R_ltb (nabs (t - xt')) (1 / 1000)) (map (fun k => IZR (Z.of_nat k) * d) (seq 0 ntheta)) = true).
    { apply existsb_exists. exists t. split; [exact Hin|]. rewrite nabs_R. apply R_ltb_true. exact Hlt. }
    rewrite Hex in Ee. discriminate.
Qed.
Print Assumptions C93_shift_or_clear.
Example C93_example : 4 / 1000 < 2 * PI / INR 4 /\ exists thetas, theta_grid PI atan2 4 1 0 (2, 1, 0) = Ok thetas.
Proof.
  assert (H := PI2_3_2). split; [replace (INR 4) with 4 by (cbn; lra); lra|]. unfold theta_grid. cbn [Nat.ltb Nat.leb]. cbv zeta.
  destruct (existsb _ _); eexists; reflexivity.
Qed.

(** ** C94 *)
(** find_separatrix returns one point on each of [ntheta] rays at equal angles from the O-point,
    each of them the crossing of the requested value if the ray has one. *)
Theorem C94_separatrix_points : forall Rmin Rmax Zmin Zmax g opoint xpoint ntheta v pts,
  find_separatrix PI sin cos atan2 Rmin Rmax Zmin Zmax g opoint xpoint ntheta v = Ok pts ->
  exists o os x xs shift, opoint = o :: os /\ xpoint = x :: xs /\ (2 <= ntheta)%nat /\ length pts = ntheta /\
    (shift = 0 \/ shift = PI / INR ntheta) /\
    let Ro := fst (fst o) in let Zo := snd (fst o) in
    (Rmin <= Ro <= Rmax -> Zmin <= Zo <= Zmax ->
     forall k, (k < ntheta)%nat -> exists r z, nth_error pts k = Some (r, z) /\
       let theta := 2 * PI * INR k / INR ntheta + shift in
       (exists t, 0 <= t <= 10 /\ r = Ro + t * sin theta /\ z = Zo + t * cos theta) /\
       exists re ze, ray_end Rmin Rmax Zmin Zmax Ro Zo (Ro + 10 * sin theta) (Zo + 10 * cos theta) re ze /\
         ((exists i, (i < 1000)%nat /\ v < g (sample Ro re 1000 i) (sample Zo ze 1000 i)) -> g Ro Zo <= v ->
          crossing g Ro Zo re ze v 1000 r z)).
Proof.
  intros Rmin Rmax Zmin Zmax g opoint xpoint ntheta v pts E. unfold find_separatrix in E.
  destruct opoint as [|o os]; [discriminate|]. destruct xpoint as [|x xs]; [discriminate|].
  destruct (theta_grid PI atan2 ntheta (pR o) (pZ o) x) as [thetas|] eqn:Et; [|discriminate]. cbn [bind] in E.
  assert (Hth : (2 <= ntheta)%nat /\ exists shift, (shift = 0 \/ shift = PI / INR ntheta) /\ thetas = map (fun k => 2 * PI * INR k / INR ntheta + shift) (seq 0 ntheta)).
  { unfold theta_grid in Et. destruct (ntheta <? 2)%nat eqn:En; [discriminate|]. apply Nat.ltb_ge in En. split; [exact En|].
    assert (HN : 0 < INR ntheta) by (apply lt_0_INR; lia). nR. rewrite <- !INR_IZR_INZ in Et.
    destruct (existsb _ _) in Et; injection Et as <-.
    - exists (PI / INR ntheta). split; [right; reflexivity|]. rewrite map_map. apply map_ext. intros k. rewrite <- !INR_IZR_INZ. field. lra.
    - exists 0. split; [left; reflexivity|]. apply map_ext. intros k. rewrite <- INR_IZR_INZ. field. lra. }
  destruct Hth as (Hn & shift & Hs & ->).
  exists o, os, x, xs, shift. split; [reflexivity|]. split; [reflexivity|]. split; [exact Hn|].
  set (F := fun t : R => bind _ _) in E.
  assert (HL : forall l pts, mapM F l = Ok pts -> length pts = length l /\ forall k t, nth_error l k = Some t -> exists p, nth_error pts k = Some p /\ F t = Ok p).
  { clear. induction l as [|t l IH]; intros pts E; cbn [mapM] in E.
    - injection E as <-. split; [reflexivity|]. intros k t Hk. destruct k; discriminate.
    - destruct (F t) as [p|] eqn:Ep; [|discriminate]. cbn [bind] in E. destruct (mapM F l) as [ps|] eqn:El; [|discriminate]. cbn [bind] in E. injection E as <-.
      destruct (IH ps eq_refl) as (A & B). split; [cbn; rewrite A; reflexivity|]. intros [|k] t' Hk; cbn [nth_error] in *; [injection Hk as <-; eauto|apply B; exact Hk]. }
  destruct (HL _ _ E) as (Hlen & Hnth). split; [rewrite Hlen, map_length, seq_length; reflexivity|]. split; [exact Hs|].
  cbv zeta. intros HR HZ k Hk. set (theta := 2 * PI * INR k / INR ntheta + shift).
  destruct (Hnth k theta) as ((r, z) & Hp & Ef).
  { unfold theta. rewrite nth_error_map. rewrite (nth_error_nth' _ 0%nat) by (rewrite seq_length; exact Hk). rewrite seq_nth by exact Hk. reflexivity. }
  exists r, z. split; [exact Hp|]. unfold F in Ef. unfold pR, pZ in Ef. cbn [nadd nmul nofZ Num_R] in Ef.
  destruct (find_psisurface Rmin Rmax Zmin Zmax g _ _ _ _ v 1000) as [((r', z'), w)|] eqn:Es; [|discriminate]. cbn [bind fst] in Ef. injection Ef as -> ->.
  split.
  - destruct (C44_on_ray_in_domain _ _ _ _ _ _ _ _ _ _ _ _ _ _ HR HZ Es) as ((t & Ht & Er & Ez) & _). exists (10 * t). split; [lra|].
    rewrite Er, Ez. split; ring.
  - exact (proj2 (C44_on_surface _ _ _ _ _ _ _ _ _ _ _ _ _ _ HR HZ Es)).
Qed.
Print Assumptions C94_separatrix_points.
(** Without an O-point or X-point - a limited plasma far from any X-point - there is an IndexError. *)
Theorem C94_needs_xpoint : forall Rmin Rmax Zmin Zmax g opoint xpoint ntheta v,
  (exists pts, find_separatrix PI sin cos atan2 Rmin Rmax Zmin Zmax g opoint xpoint ntheta v = Ok pts) <->
  (opoint <> [] /\ xpoint <> [] /\ (2 <= ntheta)%nat).
Proof.
  intros. unfold find_separatrix. split.
  - intros (pts & E). destruct opoint as [|o os]; [discriminate|]. destruct xpoint as [|x xs]; [discriminate|].
    split; [discriminate|]. split; [discriminate|]. unfold theta_grid in E. destruct (ntheta <? 2)%nat eqn:En; [discriminate|]. apply Nat.ltb_ge in En. exact En.
  - intros (Ho & Hx & Hn). destruct opoint as [|o os]; [contradiction|]. destruct xpoint as [|x xs]; [contradiction|].
    unfold theta_grid. replace (ntheta <? 2)%nat with false by (symmetry; apply Nat.ltb_ge; exact Hn). cbv zeta.
    match goal with |- exists pts, bind (if ?b then Ok ?l else Ok ?l') _ = _ => assert (H : exists thetas, (if b then Ok l else Ok l') = @Ok (list R) thetas) by (destruct b; eauto) end.
    destruct H as (thetas & ->). cbn [bind]. clear. induction thetas as [|t l (pts & IH)]; [eexists; reflexivity|]. cbn [mapM].
    destruct (C44_returns Rmin Rmax Zmin Zmax g (pR o) (pZ o) (pR o + nofZ 10 * sin t)%num (pZ o + nofZ 10 * cos t)%num v 1000 ltac:(lia)) as (p & ->).
    cbn [bind]. rewrite IH. eexists. reflexivity.
Qed.
Print Assumptions C94_needs_xpoint.
Example C94_example : exists pts, find_separatrix PI sin cos atan2 0 10 (-5) 5 (fun r z => (r - 5) ^ 2 + z ^ 2) [(5, 0, 0)] [(9, 0, 1)] 8 1 = Ok pts.
Proof. apply C94_needs_xpoint. repeat split; try discriminate. lia. Qed.
