(** critical.py under a change of sign and zero of the flux. *)
From Coq Require Import List Arith ZArith Bool Reals Lra Lia FunctionalExtensionality.
From Verif Require Import Py Num Numpy Critical GaugeSpec.
Import ListNotations.
Local Open Scope R_scope.

Lemma sq1 a : unit_sign a -> a * a = 1. Proof. intros [->| ->]; lra. Qed.
Lemma unit_nz a : unit_sign a -> a <> 0. Proof. intros [->| ->]; lra. Qed.
Lemma existsb_ext' {A} (f g : A -> bool) l : (forall x, f x = g x) -> existsb f l = existsb g l.
Proof. intros E. induction l as [|x l IH]; cbn [existsb]; [reflexivity|]. rewrite E, IH. reflexivity. Qed.
Lemma existsb_map {A B} (g : A -> B) f l : existsb f (map g l) = existsb (fun x => f (g x)) l.
Proof. induction l as [|x l IH]; cbn; [reflexivity|]. rewrite IH. reflexivity. Qed.
Lemma filter_map_comm {A} (g : A -> A) (p q : A -> bool) l : (forall x, In x l -> p (g x) = q x) -> filter p (map g l) = map g (filter q l).
Proof.
  induction l as [|x l IH]; intros E; cbn [map filter]; [reflexivity|]. rewrite (E x (or_introl eq_refl)), IH by (intros y Hy; apply E; right; exact Hy).
  destruct (q x); reflexivity.
Qed.
Lemma sort_insert_map {A} (g : A -> A) (k k' : A -> R) x l : (forall y, k' (g y) = k y) -> sort_insert k' (g x) (map g l) = map g (sort_insert k x l).
Proof.
  intros E. induction l as [|y l IH]; cbn [map sort_insert]; [reflexivity|]. rewrite !E. destruct (k y <? k x)%num; cbn [map]; rewrite ?IH; reflexivity.
Qed.
Lemma sort_by_map {A} (g : A -> A) (k k' : A -> R) l : (forall y, k' (g y) = k y) -> sort_by k' (map g l) = map g (sort_by k l).
Proof. intros E. induction l as [|x l IH]; cbn [map sort_by]; [reflexivity|]. rewrite IH. apply sort_insert_map. exact E. Qed.

Section Follow.
  Variables (nx ny : nat) (gR gZ psi : arr2 R) (a c : R) (f f' : sfun R).
  Hypothesis Ha : unit_sign a.
  Hypothesis Hf : follows a c f f'.

  Lemma Bp2_follow i j : Bp2 gR gZ f' i j = Bp2 gR gZ f i j.
  Proof.
    unfold Bp2. rewrite !Hf. nR. rewrite !Rplus_0_r. f_equal.
    transitivity (a * a * (f 1%nat 0%nat (gR i j) (gZ i j) * f 1%nat 0%nat (gR i j) (gZ i j)) + a * a * (f 0%nat 1%nat (gR i j) (gZ i j) * f 0%nat 1%nat (gR i j) (gZ i j))); [ring|].
    rewrite (sq1 a Ha). ring.
  Qed.
  Lemma local_min_follow i j : local_min gR gZ f' i j = local_min gR gZ f i j.
  Proof. unfold local_min. rewrite !Bp2_follow. reflexivity. Qed.
  Lemma Br_follow r z : Br f' r z = a * Br f r z.
  Proof. unfold Br. rewrite Hf. nR. unfold Rdiv. ring. Qed.
  Lemma Bz_follow r z : Bz f' r z = a * Bz f r z.
  Proof. unfold Bz. rewrite Hf. nR. unfold Rdiv. ring. Qed.
  Lemma newton_follow : forall fuel R0 Z0 count R1 Z1, newton gR gZ f' fuel R0 Z0 count R1 Z1 = newton gR gZ f fuel R0 Z0 count R1 Z1.
  Proof.
    assert (A := sq1 a Ha).
    induction fuel as [|fuel IH]; intros R0 Z0 count R1 Z1; cbn [newton]; [reflexivity|].
    rewrite Br_follow, Bz_follow, !Hf. cbv zeta.
    set (br := Br f R1 Z1). set (bz := Bz f R1 Z1). set (f11 := f 1%nat 1%nat R1 Z1). set (f02 := f 0%nat 2%nat R1 Z1). set (f20 := f 2%nat 0%nat R1 Z1).
    nR. rewrite !Rplus_0_r.
    replace (a * br * (a * br) + a * bz * (a * bz)) with (a * a * (br * br + bz * bz)) by ring. rewrite A, Rmult_1_l.
    replace (- (a * br) / R1 - a * f11 / R1) with (a * (- br / R1 - f11 / R1)) by (unfold Rdiv; ring).
    replace (- (a * f02) / R1) with (a * (- f02 / R1)) by (unfold Rdiv; ring).
    replace (- (a * bz) / R1 + a * f20 / R1) with (a * (- bz / R1 + f20 / R1)) by (unfold Rdiv; ring).
    replace (a * f11 / R1) with (a * (f11 / R1)) by (unfold Rdiv; ring).
    set (J00 := - br / R1 - f11 / R1). set (J01 := - f02 / R1). set (J10 := - bz / R1 + f20 / R1). set (J11 := f11 / R1).
    replace (a * J00 * (a * J11) - a * J01 * (a * J10)) with (a * a * (J00 * J11 - J01 * J10)) by ring.
    replace (a * J11 * (a * br) - a * J01 * (a * bz)) with (a * a * (J11 * br - J01 * bz)) by ring.
    replace (a * J00 * (a * bz) - a * J10 * (a * br)) with (a * a * (J00 * bz - J10 * br)) by ring.
    rewrite A, !Rmult_1_l. destruct (R_ltb _ _); [reflexivity|]. destruct (R_eqb _ _); [reflexivity|]. destruct (_ || _); [reflexivity|]. apply IH.
  Qed.
  Lemma hessian_follow i j : hessian gR gZ (shifted a c psi) i j = hessian gR gZ psi i j.
  Proof.
    assert (A := sq1 a Ha). unfold hessian, shifted, Critical.dR, Critical.dZ. nR.
    set (x := 2 * (gR 1%nat 0%nat - gR 0%nat 0%nat)). set (y := 2 * (gZ 0%nat 1%nat - gZ 0%nat 0%nat)).
    set (u := 4 * (gZ 0%nat 1%nat - gZ 0%nat 0%nat)). set (v := 4 * (gR 1%nat 0%nat - gR 0%nat 0%nat)).
    set (p0 := psi i j). set (p1 := psi (i + 2)%nat j). set (p2 := psi (i - 2)%nat j). set (p3 := psi i (j + 2)%nat). set (p4 := psi i (j - 2)%nat).
    set (q1 := psi (i + 2)%nat (j + 2)%nat). set (q2 := psi (i + 2)%nat (j - 2)%nat). set (q3 := psi (i - 2)%nat (j + 2)%nat). set (q4 := psi (i - 2)%nat (j - 2)%nat).
    unfold Rdiv. set (X := / (x * x)). set (Y := / (y * y)). set (U := / u). set (V := / v).
    transitivity (a * a * ((p1 - 2 * p0 + p2) * X * ((p3 - 2 * p0 + p4) * Y) - ((q1 - q2) * U - (q3 - q4) * U) * V * (((q1 - q2) * U - (q3 - q4) * U) * V))); [ring|].
    rewrite A. ring.
  Qed.
  Lemma visit_follow xo i j : visit gR gZ (shifted a c psi) f' (moved2 a c xo) i j = rmap (moved2 a c) (visit gR gZ psi f xo i j).
  Proof.
    unfold visit. rewrite local_min_follow. destruct (local_min gR gZ f i j); [|reflexivity].
    rewrite newton_follow. destruct (newton gR gZ f 101 (gR i j) (gZ i j) 0 (gR i j) (gZ i j)) as [[(R1, Z1)|]|]; cbn [bind rmap]; try reflexivity.
    rewrite hessian_follow, Hf. destruct (hessian gR gZ psi i j <? n0)%num; cbn [rmap moved2 fst snd]; unfold moved2; cbn [fst snd]; rewrite map_app; reflexivity.
  Qed.
  Lemma candidates_follow : candidates nx ny gR gZ (shifted a c psi) f' = rmap (moved2 a c) (candidates nx ny gR gZ psi f).
  Proof.
    unfold candidates. change (@nil (point R), @nil (point R)) with (moved2 a c ([], [])) at 1. rewrite !foldM_nested.
    generalize (@nil (point R), @nil (point R)). induction (list_prod _ _) as [|q l IH]; intros xo; cbn [foldM]; [reflexivity|].
    rewrite visit_follow. destruct (visit gR gZ psi f xo (fst q) (snd q)) as [xo'|]; cbn [bind rmap]; [apply IH|reflexivity].
  Qed.
  Lemma close_moved p q : close (moved a c p) (moved a c q) = close p q.
  Proof. destruct p as ((?, ?), ?), q as ((?, ?), ?). reflexivity. Qed.
  Lemma remove_dup_moved l : remove_dup (map (moved a c) l) = map (moved a c) (remove_dup l).
  Proof.
    unfold remove_dup. set (g := fun (res : list (point R)) q => if existsb (close q) res then res else res ++ [q]).
    assert (K : forall l acc, fold_left g (map (moved a c) l) (map (moved a c) acc) = map (moved a c) (fold_left g l acc)).
    { clear l. induction l as [|p l IH]; intros acc; cbn [map fold_left]; [reflexivity|]. unfold g at 2 4. rewrite existsb_map.
      rewrite (existsb_ext' _ (close p)) by (intros q; apply close_moved). destruct (existsb (close p) acc); [apply IH|].
      rewrite <- IH. rewrite map_app. reflexivity. }
    exact (K l []).
  Qed.

  (** the profile along the line from the O- to the X-point *)
  Lemma fold_max_shift (p : nat -> R) d l : forall m, fold_left (fun m i => nmax m (p i + d)) l (m + d) = fold_left (fun m i => nmax m (p i)) l m + d.
  Proof.
    induction l as [|x l IH]; intros m; cbn [fold_left]; [reflexivity|]. rewrite !nmax_R.
    replace (Rmax (m + d) (p x + d)) with (Rmax m (p x) + d) by (unfold Rmax; repeat destruct (Rle_dec _ _); lra). exact (IH _).
  Qed.
  Lemma argmin_from_shift (p : nat -> R) d : forall k i b, argmin_from (fun x => p x + d) k i b = argmin_from p k i b.
  Proof.
    induction k as [|k IH]; intros i b; cbn [argmin_from]; [reflexivity|]. rewrite IH. f_equal. nR.
    destruct (R_ltb (p i + d) (p b + d)) eqn:E, (R_ltb (p i) (p b)) eqn:E'; rcmp; try reflexivity; lra.
  Qed.
  Definition keep_line (rl zl pl : nat -> R) (ro zo : R) : bool :=
    let maxp := amax 50 pl in
    let num := (maxp - pl 49%nat)%num in
    let den := (maxp - pl 0%nat)%num in
    if (if den =? n0 then n0 <? num else nlit 1 1000 <? num / den)%num then false
    else
      let ind := argmin 50 pl in
      if (nlit 1 10000 <? nsqr (rl ind - ro) + nsqr (zl ind - zo))%num then false else true.
  Lemma keep_line_shift rl zl pl pl' ro zo d : (forall k, pl' k = pl k + d) -> keep_line rl zl pl' ro zo = keep_line rl zl pl ro zo.
  Proof.
    intros E. replace pl' with (fun k => pl k + d) by (extensionality k; symmetry; apply E). unfold keep_line.
    assert (M : amax 50 (fun k => pl k + d) = amax 50 pl + d) by (unfold amax; apply fold_max_shift).
    rewrite M. unfold argmin. rewrite argmin_from_shift. nR.
    replace (amax 50 pl + d - (pl 49%nat + d)) with (amax 50 pl - pl 49%nat) by ring.
    replace (amax 50 pl + d - (pl 0%nat + d)) with (amax 50 pl - pl 0%nat) by ring. reflexivity.
  Qed.
  Lemma keep_as_line (g : sfun R) o x : keep_xpt g o x =
    keep_line (linspace (pR o) (pR x) 50) (linspace (pZ o) (pZ x) 50)
      (fun k => if R_ltb (pPsi x) (pPsi o) then - g 0%nat 0%nat (linspace (pR o) (pR x) 50 k) (linspace (pZ o) (pZ x) 50 k) else g 0%nat 0%nat (linspace (pR o) (pR x) 50 k) (linspace (pZ o) (pZ x) 50 k)) (pR o) (pZ o).
  Proof. reflexivity. Qed.
  Lemma keep_moved o x : (a = 1 \/ snd x <> snd o) -> keep_xpt f' (moved a c o) (moved a c x) = keep_xpt f o x.
  Proof.
    intros Hx. rewrite !keep_as_line. destruct o as ((ro, zo), po), x as ((rx, zx), px). unfold pR, pZ, pPsi, moved. cbn [fst snd] in *.
    set (rl := linspace ro rx 50). set (zl := linspace zo zx 50).
    destruct Ha as [->| ->].
    - destruct (R_ltb px po) eqn:E2; rcmp.
      + apply (keep_line_shift _ _ _ _ _ _ (- c)). intros k. rewrite (proj2 (R_ltb_true (1 * px + c) (1 * po + c))) by lra. rewrite Hf. lra.
      + apply (keep_line_shift _ _ _ _ _ _ c). intros k. rewrite (proj2 (R_ltb_false (1 * px + c) (1 * po + c))) by lra. rewrite Hf. lra.
    - assert (px <> po) by (destruct Hx; [lra|assumption]). destruct (R_ltb px po) eqn:E2; rcmp.
      + apply (keep_line_shift _ _ _ _ _ _ c). intros k. rewrite (proj2 (R_ltb_false (-1 * px + c) (-1 * po + c))) by lra. rewrite Hf. lra.
      + apply (keep_line_shift _ _ _ _ _ _ (- c)). intros k. rewrite (proj2 (R_ltb_true (-1 * px + c) (-1 * po + c))) by lra. rewrite Hf. lra.
  Qed.
  (** X- and O-points before the search for visible ones *)
  Definition distinct_flux : Prop :=
    forall xo o x, candidates nx ny gR gZ psi f = Ok xo -> In o (snd xo) -> In x (fst xo) -> snd x <> snd o.
  Lemma in_dup_from p l : forall acc, In p (fold_left (fun res q => if existsb (close q) res then res else res ++ [q]) l acc) -> In p acc \/ In p l.
  Proof.
    induction l as [|q l IH]; intros acc Hp; cbn [fold_left] in Hp; [left; exact Hp|]. destruct (IH _ Hp) as [Q|Q]; [|right; right; exact Q].
    destruct (existsb (close q) acc); [left; exact Q|]. apply in_app_iff in Q. destruct Q as [Q|[->|[]]]; [left; exact Q|right; left; reflexivity].
  Qed.
  Lemma in_dup p l : In p (remove_dup l) -> In p l.
  Proof. intros Hp. unfold remove_dup in Hp. destruct (in_dup_from p l [] Hp) as [[]|Q]. exact Q. Qed.
  Lemma in_insert {A} (k : A -> R) x y l : In x (sort_insert k y l) -> x = y \/ In x l.
  Proof.
    induction l as [|z l IH]; cbn [sort_insert]; [intros [->|[]]; left; reflexivity|].
    destruct (k z <? k y)%num; intros [->|Q]; [right; left; reflexivity|destruct (IH Q); [left; assumption|right; right; assumption]|left; reflexivity|right; exact Q].
  Qed.
  Lemma in_sort {A} (k : A -> R) x l : In x (sort_by k l) -> In x l.
  Proof. induction l as [|y l IH]; cbn [sort_by]; [tauto|]. intros Q. destruct (in_insert k x y _ Q) as [->|Q']; [left; reflexivity|right; exact (IH Q')]. Qed.

  Lemma find_critical_follow d : (a = 1 \/ d = false \/ distinct_flux) ->
    find_critical nx ny gR gZ (shifted a c psi) f' d = rmap (moved2 a c) (find_critical nx ny gR gZ psi f d).
  Proof.
    intros Hd. unfold find_critical. rewrite candidates_follow. destruct (candidates nx ny gR gZ psi f) as [xo|] eqn:Ec; cbn [bind rmap]; [|reflexivity].
    unfold moved2 at 1 2 3. cbn [fst snd]. rewrite !remove_dup_moved. cbv zeta.
    rewrite (sort_by_map (moved a c) (fun p => (nsqr (pR p - nlit 1 2 * (gR (nx - 1)%nat 0%nat + gR 0%nat 0%nat)) + nsqr (pZ p - nlit 1 2 * (gZ 0%nat (ny - 1)%nat + gZ 0%nat 0%nat)))%num)) by reflexivity.
    set (os := sort_by _ (remove_dup (snd xo))). assert (Hos : forall o, In o os -> In o (snd xo)) by (intros o Ho; apply in_dup; exact (in_sort _ _ _ Ho)).
    destruct os as [|o os]; cbn [map]; [reflexivity|]. cbn [rmap]. unfold moved2. cbn [fst snd map]. f_equal. f_equal.
    assert (E : (if d then filter (keep_xpt f' (moved a c o)) (map (moved a c) (remove_dup (fst xo))) else map (moved a c) (remove_dup (fst xo)))
                = map (moved a c) (if d then filter (keep_xpt f o) (remove_dup (fst xo)) else remove_dup (fst xo))).
    { destruct d; [|reflexivity]. apply filter_map_comm. intros x Hx. apply keep_moved. destruct Hd as [Q|[Q|Q]]; [left; exact Q|discriminate|right].
      apply (Q xo o x Ec); [apply Hos; left; reflexivity|apply in_dup; exact Hx]. }
    rewrite remove_dup_moved, E. apply sort_by_map. intros y. unfold pPsi, moved. cbn [snd]. nR.
    transitivity (a * a * ((snd y - snd o) * (snd y - snd o))); [ring|]. rewrite (sq1 a Ha). ring.
  Qed.
End Follow.

(** ** core_mask, for any factor a <> 0 *)
Lemma psin_follow psi a c pa pb : a <> 0 -> pb <> pa -> psin_of (shifted a c psi) (a * pa + c) (a * pb + c) = psin_of psi pa pb.
Proof.
  intros Ha Hp. unfold psin_of, shifted. extensionality i. extensionality j. nR.
  replace (a * pb + c - (a * pa + c)) with (a * (pb - pa)) by ring. replace (a * psi i j + c - (a * pa + c)) with (a * (psi i j - pa)) by ring.
  field. split; [lra|exact Ha].
Qed.
Lemma core_mask_follow fuel nx ny gR gZ psi a c opt xpt pb : a <> 0 ->
  (forall o v, hd_error opt = Some o -> bndry_used xpt pb = Some v -> v <> snd o) ->
  core_mask fuel nx ny gR gZ (shifted a c psi) (map (moved a c) opt) (map (moved a c) xpt) (moved_bndry a c pb) = core_mask fuel nx ny gR gZ psi opt xpt pb.
Proof.
  intros Ha Hp. unfold core_mask. destruct opt as [|((ro, zo), pa) opt]; [reflexivity|]. cbn [map moved fst snd].
  assert (Hx : map (fun p => nearest nx ny gR gZ (pR p) (pZ p)) (map (moved a c) xpt) = map (fun p => nearest nx ny gR gZ (pR p) (pZ p)) xpt) by (rewrite map_map; reflexivity).
  destruct pb as [v|]; cbn [moved_bndry bind].
  - rewrite psin_follow by (first [exact Ha|exact (Hp _ v eq_refl eq_refl)]). rewrite Hx. reflexivity.
  - destruct xpt as [|((rx, zx), v) xpt]; [reflexivity|]. cbn [map moved fst snd bind] in *. rewrite psin_follow by (first [exact Ha|exact (Hp _ v eq_refl eq_refl)]).
    change (nearest nx ny gR gZ (pR (rx, zx, a * v + c)) (pZ (rx, zx, a * v + c)) :: map (fun p => nearest nx ny gR gZ (pR p) (pZ p)) (map (moved a c) xpt)) with (map (fun p => nearest nx ny gR gZ (pR p) (pZ p)) (map (moved a c) ((rx, zx, v) :: xpt))).
    rewrite map_map. reflexivity.
Qed.
