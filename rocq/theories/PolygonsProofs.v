(** Lemmas about polygons.py. *)
From Coq Require Import List Arith ZArith Bool Reals Lra Lia.
From Verif Require Import Py Num Numpy Polygons PolySpec.
Import ListNotations.
Local Open Scope R_scope.

Notation pt := (R * R)%type.

(** ** Sums over the edges of a path *)
Section Paths.
  Variable g : pt -> pt -> R.
  Fixpoint psum (l : list pt) : R :=
    match l with
    | a :: ((b :: _) as l') => g a b + psum l'
    | _ => 0
    end.
  Lemma psum_cons2 a b l : psum (a :: b :: l) = g a b + psum (b :: l).
  Proof. reflexivity. Qed.
  Lemma psum_app l1 a l2 : psum (l1 ++ a :: l2) = psum (l1 ++ [a]) + psum (a :: l2).
  Proof.
    induction l1 as [|x l1 IH]; cbn [app].
    - change (psum [a]) with 0. lra.
    - destruct l1 as [|y l1]; cbn [app] in *.
      + rewrite !psum_cons2. change (psum [a]) with 0. lra.
      + rewrite !psum_cons2, IH. lra.
  Qed.
  (** sum over a closed polygon *)
  Definition cyc (p : list pt) : R := psum (p ++ firstn 1 p).

  Lemma cyc_rot l1 l2 : cyc (l1 ++ l2) = cyc (l2 ++ l1).
  Proof.
    destruct l1 as [|a l1]; [rewrite app_nil_r; reflexivity|].
    destruct l2 as [|b l2]; [rewrite app_nil_r; reflexivity|].
    unfold cyc. cbn [app firstn].
    change (a :: (l1 ++ b :: l2) ++ [a]) with (((a :: l1) ++ b :: l2) ++ [a]).
    change (b :: (l2 ++ a :: l1) ++ [b]) with (((b :: l2) ++ a :: l1) ++ [b]).
    rewrite <- !app_assoc. cbn [app].
    change (a :: l1 ++ b :: l2 ++ [a]) with ((a :: l1) ++ b :: l2 ++ [a]).
    change (b :: l2 ++ a :: l1 ++ [b]) with ((b :: l2) ++ a :: l1 ++ [b]).
    rewrite (psum_app (a :: l1)), (psum_app (b :: l2)). cbn [app]. lra.
  Qed.

  Hypothesis antisym : forall p q, g p q = - g q p.
  Lemma psum_rev l : psum (rev l) = - psum l.
  Proof.
    induction l as [|a l IH]; [cbn; lra|]. destruct l as [|b l]; [cbn; lra|].
    rewrite psum_cons2. cbn [rev] in *. rewrite <- app_assoc. cbn [app]. rewrite psum_app, IH.
    rewrite psum_cons2. change (psum [a]) with 0. rewrite (antisym a b). lra.
  Qed.
  Lemma cyc_rev p : cyc (rev p) = - cyc p.
  Proof.
    destruct p as [|a l]; [cbn; lra|]. cbn [rev]. rewrite cyc_rot. unfold cyc. cbn [app firstn].
    replace (a :: rev l ++ [a]) with (rev (a :: l ++ [a])).
    - apply psum_rev.
    - cbn [rev]. rewrite rev_app_distr. reflexivity.
  Qed.
  (** Cutting off a vertex. *)
  Lemma cyc_ear l1 v l2 : l1 ++ l2 <> [] ->
    cyc (l1 ++ v :: l2) = cyc [last (l2 ++ l1) (0, 0); v; hd (0, 0) (l2 ++ l1)] + cyc (l1 ++ l2).
  Proof.
    intros Hne. rewrite (cyc_rot l1 (v :: l2)), (cyc_rot l1 l2). cbn [app].
    assert (Hm : l2 ++ l1 <> []) by (destruct l2, l1; cbn in *; congruence).
    set (m := l2 ++ l1) in *. clearbody m. clear Hne l1 l2.
    destruct (exists_last Hm) as (m' & pv & E). rewrite E, last_last.
    unfold cyc. cbn [firstn app].
    destruct m' as [|nx m']; cbn [hd app firstn].
    - repeat rewrite psum_cons2. change (psum [v]) with 0. change (psum [pv]) with 0.
      rewrite (antisym pv pv), (antisym v pv). assert (H := antisym pv pv). lra.
    - rewrite (psum_cons2 v nx), (psum_cons2 pv v), (psum_cons2 v nx), (psum_cons2 nx pv).
      change (nx :: (m' ++ [pv]) ++ [v]) with (((nx :: m') ++ [pv]) ++ [v]).
      change (nx :: (m' ++ [pv]) ++ [nx]) with (((nx :: m') ++ [pv]) ++ [nx]).
      rewrite <- !app_assoc. cbn [app].
      change (nx :: m' ++ pv :: [v]) with ((nx :: m') ++ pv :: [v]).
      change (nx :: m' ++ pv :: [nx]) with ((nx :: m') ++ pv :: [nx]).
      rewrite (psum_app (nx :: m') pv [v]), (psum_app (nx :: m') pv [nx]). cbn [app]. rewrite (psum_cons2 pv v), (psum_cons2 pv nx). change (psum [v]) with 0. change (psum [nx]) with 0. change (psum [pv]) with 0.
      rewrite (antisym nx pv). lra.
  Qed.

  (** as an indexed sum *)
  Lemma psum_nsum l : psum l = nsum (length l - 1) (fun i => g (nth i l (0, 0)) (nth (i + 1) l (0, 0))).
  Proof.
    induction l as [|a l IH]; [reflexivity|]. destruct l as [|b l]; [reflexivity|].
    rewrite psum_cons2, IH. cbn [length]. replace (S (S (length l)) - 1)%nat with (S (S (length l) - 1)) by lia.
    rewrite nsum_head. cbn [nth Nat.add]. f_equal.
  Qed.
  Lemma cyc_nsum p : cyc p = nsum (length p) (fun i => g (vertex p i) (vertex p (i + 1))).
  Proof.
    destruct p as [|a l]; [reflexivity|]. unfold cyc. cbn [firstn]. set (p := a :: l).
    rewrite psum_nsum, app_length. cbn [length]. replace (length p + 1 - 1)%nat with (length p) by lia.
    apply nsum_ext. intros i Hi. unfold vertex. rewrite (app_nth1 p) by exact Hi.
    rewrite (Nat.mod_small i) by exact Hi. f_equal.
    destruct (Nat.eq_dec (i + 1) (length p)) as [E|E].
    - rewrite E, Nat.mod_same by (cbn; lia). rewrite app_nth2 by lia. rewrite Nat.sub_diag. reflexivity.
    - rewrite app_nth1 by lia. rewrite Nat.mod_small by lia. reflexivity.
  Qed.
End Paths.

Definition ga (p q : pt) : R := (fst q - fst p) * (snd p + snd q).
Lemma ga_antisym p q : ga p q = - ga q p. Proof. unfold ga; ring. Qed.

Lemma fold_left_sum {A} (f : A -> R) l : forall a, fold_left (fun acc x => acc + f x) l a = a + lsum (map f l).
Proof.
  induction l as [|x l IH]; intros a; cbn [fold_left map]; [rewrite lsum_nil; lra|].
  rewrite IH, lsum_cons. lra.
Qed.
Lemma fold_left_ext {A B} (f g : A -> B -> A) l : (forall a b, f a b = g a b) -> forall a, fold_left f l a = fold_left g l a.
Proof. intros E. induction l as [|x l IH]; intros a; cbn [fold_left]; [reflexivity|]. rewrite E. apply IH. Qed.
Lemma lsum_range_nsum n (f : nat -> R) : lsum (map f (range 0 n)) = nsum n f.
Proof.
  unfold range. rewrite Nat.sub_0_r. induction n as [|n IH]; [reflexivity|].
  rewrite seq_S, map_app, lsum_app, IH, nsum_S. cbn [map]. rewrite lsum_cons, lsum_nil. cbn. lra.
Qed.

Lemma area_cyc (p : list pt) : area p = / 2 * cyc ga p.
Proof.
  rewrite cyc_nsum. unfold area. nR.
  rewrite (fold_left_ext _ (fun acc i => acc + ga (nth i p (0, 0)) (nth ((i + 1) mod length p) p (0, 0)))).
  - rewrite fold_left_sum, lsum_range_nsum. replace (1 / 2) with (/ 2) by lra. rewrite Rplus_0_l. f_equal.
    apply nsum_ext. intros i Hi. unfold vertex. rewrite (Nat.mod_small i) by exact Hi. reflexivity.
  - intros acc i. change (getp p i) with (nth i p (0, 0)). change (getp p ((i + 1) mod length p)) with (nth ((i + 1) mod length p) p (0, 0)).
    destruct (nth i p (0, 0)), (nth ((i + 1) mod length p) p (0, 0)). reflexivity.
Qed.

(** telescoping perturbations do not change a closed sum *)
Lemma psum_telescope g g' (h : pt -> R) l : (forall p q, g p q = g' p q + (h q - h p)) ->
  l <> [] -> psum g l = psum g' l + (h (last l (0, 0)) - h (hd (0, 0) l)).
Proof.
  intros E. induction l as [|a l IH]; intros Hl; [congruence|]. destruct l as [|b l]; [cbn; lra|].
  rewrite !psum_cons2, IH by congruence. rewrite E. cbn [hd]. change (last (a :: b :: l) (0, 0)) with (last (b :: l) (0, 0)). lra.
Qed.
Lemma cyc_telescope g g' (h : pt -> R) p : (forall a b, g a b = g' a b + (h b - h a)) -> cyc g p = cyc g' p.
Proof.
  intros E. destruct p as [|a l]; [reflexivity|]. unfold cyc. cbn [firstn].
  rewrite (psum_telescope g g' h) by (try exact E; destruct l; discriminate).
  rewrite last_last. cbn [app hd]. lra.
Qed.
Lemma psum_map g g' (f : pt -> pt) l : (forall a b, g (f a) (f b) = g' a b) -> psum g (map f l) = psum g' l.
Proof.
  intros E. induction l as [|a l IH]; [reflexivity|]. destruct l as [|b l]; [reflexivity|].
  cbn [map] in *. rewrite !psum_cons2, IH, E. reflexivity.
Qed.
Lemma cyc_map g g' (f : pt -> pt) p : (forall a b, g (f a) (f b) = g' a b) -> cyc g (map f p) = cyc g' p.
Proof.
  intros E. unfold cyc. replace (map f p ++ firstn 1 (map f p)) with (map f (p ++ firstn 1 p)).
  - apply psum_map. exact E.
  - rewrite map_app. f_equal. rewrite firstn_map. reflexivity.
Qed.
Lemma cyc_ext g g' p : (forall a b, g a b = g' a b) -> cyc g p = cyc g' p.
Proof. intros E. rewrite <- (cyc_map g' g' (fun x => x) p) by reflexivity. rewrite map_id. apply cyc_telescope with (h := fun _ => 0). intros; rewrite E; lra. Qed.
Lemma cyc_scal c g p : cyc (fun a b => c * g a b) p = c * cyc g p.
Proof. rewrite !cyc_nsum. apply nsum_scal. Qed.

Lemma area_rot l1 l2 : area (l1 ++ l2 : list pt) = area (l2 ++ l1).
Proof. rewrite !area_cyc, cyc_rot. reflexivity. Qed.
Lemma area_rev (p : list pt) : area (rev p) = - area p.
Proof. rewrite !area_cyc, cyc_rev by exact ga_antisym. lra. Qed.
Lemma area_shift a b (p : list pt) : area (map (fun q => (fst q + a, snd q + b)) p) = area p.
Proof.
  rewrite !area_cyc. f_equal.
  rewrite (cyc_map ga (fun p q => (fst q - fst p) * (snd p + snd q + 2 * b))) by (intros; unfold ga; cbn [fst snd]; ring).
  apply cyc_telescope with (h := fun q => 2 * b * fst q). intros. unfold ga. ring.
Qed.
Lemma area_scale c d (p : list pt) : area (map (fun q => (c * fst q, d * snd q)) p) = c * d * area p.
Proof.
  rewrite !area_cyc, (cyc_map ga (fun p q => (c * d) * ga p q)) by (intros; unfold ga; cbn [fst snd]; ring).
  rewrite cyc_scal. lra.
Qed.
Definition gsh (p q : pt) : R := fst q * snd p - fst p * snd q.
Lemma gsh_antisym p q : gsh p q = - gsh q p. Proof. unfold gsh; ring. Qed.
Lemma area_gsh (p : list pt) : area p = / 2 * cyc gsh p.
Proof.
  rewrite area_cyc. f_equal. apply cyc_telescope with (h := fun q => fst q * snd q). intros. unfold ga, gsh. ring.
Qed.
Lemma area_shoelace (p : list pt) : area p = shoelace p.
Proof.
  rewrite area_gsh, cyc_nsum. unfold shoelace. f_equal. apply nsum_ext. intros i _. unfold gsh.
  destruct (vertex p i), (vertex p (i + 1)). reflexivity.
Qed.

(** ** intersect *)
Lemma seg_cross_spec (r1 z1 r2 z2 : list R) i ip j jp :
  let p := (nth i r1 0, nth i z1 0) in let q := (nth ip r1 0, nth ip z1 0) in
  let r := (nth j r2 0, nth j z2 0) in let s := (nth jp r2 0, nth jp z2 0) in
  seg_cross r1 z1 r2 z2 i ip j jp = true <-> segments_cross p q r s /\ 1 / 1000000 <= Rabs (dir_cross p q r s).
Proof.
  intros p q r s. unfold seg_cross, getf. nR.
  change (nth ip r1 0) with (fst q). change (nth i r1 0) with (fst p). change (nth jp r2 0) with (fst s). change (nth j r2 0) with (fst r).
  change (nth ip z1 0) with (snd q). change (nth i z1 0) with (snd p). change (nth jp z2 0) with (snd s). change (nth j z2 0) with (snd r).
  clearbody p q r s. rewrite nabs_R. fold (dir_cross p q r s).
  destruct (R_ltb (Rabs (dir_cross p q r s)) (1 / 1000000)) eqn:E; rcmp.
  - split; [discriminate|]. intros (_ & H). lra.
  - assert (Hd : dir_cross p q r s <> 0).
    { intros H0. rewrite H0, Rabs_R0 in E. lra. }
    set (al := _ / dir_cross p q r s). set (be := _ / dir_cross p q r s).
    assert (E1 : al * dir_cross p q r s = (snd s - snd r) * (fst s - fst p) - (fst s - fst r) * (snd s - snd p)) by (unfold al; field; exact Hd).
    assert (E2 : be * dir_cross p q r s = (fst q - fst p) * (snd s - snd p) - (snd q - snd p) * (fst s - fst p)) by (unfold be; field; exact Hd).
    rewrite !andb_true_iff, !R_ltb_true. split.
    + intros (((H1 & H2) & H3) & H4). split; [|exact E]. exists al, (1 - be). split; [lra|]. split; [lra|].
      split; apply Rmult_eq_reg_r with (dir_cross p q r s); try exact Hd.
      * replace ((fst p + al * (fst q - fst p)) * dir_cross p q r s) with (fst p * dir_cross p q r s + al * dir_cross p q r s * (fst q - fst p)) by ring.
        replace ((fst r + (1 - be) * (fst s - fst r)) * dir_cross p q r s) with (fst s * dir_cross p q r s - be * dir_cross p q r s * (fst s - fst r)) by ring.
        rewrite E1, E2. unfold dir_cross. ring.
      * replace ((snd p + al * (snd q - snd p)) * dir_cross p q r s) with (snd p * dir_cross p q r s + al * dir_cross p q r s * (snd q - snd p)) by ring.
        replace ((snd r + (1 - be) * (snd s - snd r)) * dir_cross p q r s) with (snd s * dir_cross p q r s - be * dir_cross p q r s * (snd s - snd r)) by ring.
        rewrite E1, E2. unfold dir_cross. ring.
    + intros ((a & b & Ha & Hb & Hr & Hz) & _).
      assert (Ea : al = a).
      { apply Rmult_eq_reg_r with (dir_cross p q r s); [|exact Hd]. rewrite E1. unfold dir_cross.
        assert (Hr' : fst s - fst p = a * (fst q - fst p) + (1 - b) * (fst s - fst r)) by lra.
        assert (Hz' : snd s - snd p = a * (snd q - snd p) + (1 - b) * (snd s - snd r)) by lra.
        rewrite Hr', Hz'. ring. }
      assert (Eb : be = 1 - b).
      { apply Rmult_eq_reg_r with (dir_cross p q r s); [|exact Hd]. rewrite E2. unfold dir_cross.
        assert (Hr' : fst s - fst p = a * (fst q - fst p) + (1 - b) * (fst s - fst r)) by lra.
        assert (Hz' : snd s - snd p = a * (snd q - snd p) + (1 - b) * (snd s - snd r)) by lra.
        rewrite Hr', Hz'. ring. }
      rewrite Ea, Eb. repeat split; lra.
Qed.

Lemma intersect_spec (p1 p2 : list pt) (c1 c2 : bool) :
  let n1 := if c1 then length p1 else (length p1 - 1)%nat in
  let n2 := if c2 then length p2 else (length p2 - 1)%nat in
  exists b, intersect (map fst p1) (map snd p1) (map fst p2) (map snd p2) c1 c2 = Ok b /\
  (b = true <-> exists i j, (i < n1)%nat /\ (j < n2)%nat /\
     let p := nth i p1 (0, 0) in let q := nth ((i + 1) mod n1) p1 (0, 0) in
     let r := nth j p2 (0, 0) in let s := nth ((j + 1) mod n2) p2 (0, 0) in
     segments_cross p q r s /\ 1 / 1000000 <= Rabs (dir_cross p q r s)).
Proof.
  intros n1 n2. unfold intersect. rewrite !map_length, !Nat.eqb_refl. cbn [negb]. fold n1 n2.
  eexists. split; [reflexivity|]. rewrite existsb_exists.
  assert (Hn : forall (l : list pt) k, (nth k (map fst l) 0, nth k (map snd l) 0) = nth k l (0, 0)).
  { intros l k. assert (E1 := map_nth fst l (0, 0) k). assert (E2 := map_nth snd l (0, 0) k). cbn [fst snd] in E1, E2.
    rewrite E1, E2. symmetry. apply surjective_pairing. }
  split.
  - intros (i & Hi & H). apply existsb_exists in H. destruct H as (j & Hj & H).
    apply in_seq in Hi, Hj. apply seg_cross_spec in H. rewrite !Hn in H.
    exists i, j. split; [lia|]. split; [lia|]. exact H.
  - intros (i & j & Hi & Hj & H). exists i. split; [apply in_seq; lia|]. apply existsb_exists. exists j.
    split; [apply in_seq; lia|]. apply seg_cross_spec. rewrite !Hn. exact H.
Qed.

(** ** Triangulation *)
Lemma getp_split (l1 : list pt) v l2 : getp (l1 ++ v :: l2) (length l1) = v.
Proof. unfold getp. rewrite app_nth2 by lia. rewrite Nat.sub_diag. reflexivity. Qed.
Lemma getp_next (l1 : list pt) v l2 : l1 ++ l2 <> [] ->
  getp (l1 ++ v :: l2) ((length l1 + 1) mod length (l1 ++ v :: l2)) = hd (0, 0) (l2 ++ l1).
Proof.
  intros Hne. unfold getp. rewrite app_length. cbn [length]. destruct l2 as [|b l2]; cbn [app hd].
  - cbn [length]. rewrite Nat.mod_same by lia. destruct l1; [contradiction|reflexivity].
  - cbn [length]. rewrite Nat.mod_small by lia. rewrite app_nth2 by lia. replace (length l1 + 1 - length l1)%nat with 1%nat by lia. reflexivity.
Qed.
Lemma nth_last (l : list pt) : nth (length l - 1) l (0, 0) = last l (0, 0).
Proof.
  destruct l as [|a l] using rev_ind; [reflexivity|]. rewrite last_last, app_length. cbn [length].
  rewrite app_nth2 by lia. replace (length l + 1 - 1 - length l)%nat with O by lia. reflexivity.
Qed.
Lemma getp_prev (l1 : list pt) v l2 : l1 ++ l2 <> [] ->
  getp (l1 ++ v :: l2) ((length l1 + length (l1 ++ v :: l2) - 1) mod length (l1 ++ v :: l2)) = last (l2 ++ l1) (0, 0).
Proof.
  intros Hne. unfold getp. rewrite app_length. cbn [length]. set (n := (length l1 + S (length l2))%nat).
  change (@origin R _) with ((0, 0) : pt).
  destruct l1 as [|a l1].
  - cbn [app length] in *. rewrite app_nil_r. replace (0 + n - 1)%nat with (length l2) by (unfold n; cbn; lia).
    rewrite Nat.mod_small by (unfold n; cbn; lia). rewrite <- nth_last.
    destruct l2 as [|b l2]; [contradiction|]. cbn [length nth]. replace (S (length l2) - 1)%nat with (length l2) by lia. reflexivity.
  - replace (length (a :: l1) + n - 1)%nat with (length l1 + 1 * n)%nat by (cbn [length]; lia).
    rewrite Nat.mod_add by (unfold n; lia). rewrite Nat.mod_small by (unfold n; cbn [length]; lia).
    rewrite app_nth1 by (cbn [length]; lia). destruct (exists_last (l := a :: l1) ltac:(discriminate)) as (l' & z & E).
    assert (El : length (a :: l1) = S (length l')) by (rewrite E, app_length; cbn; lia). cbn [length] in El.
    rewrite E, app_assoc, last_last. rewrite app_nth2 by lia. replace (length l1 - length l')%nat with O by lia. reflexivity.
Qed.
Lemma split_at (p : list pt) i : (i < length p)%nat -> exists v, p = firstn i p ++ v :: skipn (i + 1) p /\ length (firstn i p) = i.
Proof.
  intros Hi. exists (nth i p (0, 0)). split; [|apply firstn_length_le; lia].
  rewrite <- (firstn_skipn i p) at 1. f_equal.
  revert p Hi. induction i as [|i IH]; intros [|a p] Hi; cbn [length] in Hi; try lia; cbn [skipn nth]; [reflexivity|].
  replace (S i + 1)%nat with (S (i + 1)) by lia. cbn [skipn]. apply IH. lia.
Qed.

Lemma find_ear_in (p : list pt) l i : find_ear p l = Ok (Some i) -> In i l /\ is_ear p i = Ok true.
Proof.
  induction l as [|k l IH]; cbn [find_ear]; [discriminate|].
  destruct (is_ear p k) as [[]|e] eqn:E; cbn [bind]; intros H.
  - injection H as <-. split; [left; reflexivity|exact E].
  - destruct (IH H). split; [right|]; assumption.
  - discriminate.
Qed.

(** Invariant: for every antisymmetric edge weight the closed sums of the triangles add up;
    the triangles use vertices of the polygon; the count is right. *)
Definition good (p : list pt) (ts : list (list pt)) : Prop :=
  (length ts + 2 = length p)%nat /\
  (forall t, In t ts -> length t = 3%nat) /\
  (forall t v, In t ts -> In v t -> In v p) /\
  (forall g, (forall a b, g a b = - g b a) -> lsum (map (cyc g) ts) = cyc g p) /\
  (forall t, In t (removelast ts) -> 0 <= area t).

Lemma orient_area a b c : orient a b c = 2 * area [a; b; c].
Proof.
  rewrite area_cyc. unfold cyc. cbn [app firstn]. rewrite !psum_cons2. unfold ga, orient. change (psum (fun p q : pt => (fst q - fst p) * (snd p + snd q)) [a]) with 0.
  change (psum ga [a]) with 0. lra.
Qed.

Lemma is_ear_cross (l1 : list pt) v l2 : l1 ++ l2 <> [] -> is_ear (l1 ++ v :: l2) (length l1) = Ok true ->
  0 <= area [last (l2 ++ l1) (0, 0); v; hd (0, 0) (l2 ++ l1)].
Proof.
  intros Hne. unfold is_ear; cbv zeta. rewrite getp_split, (getp_next l1 v l2 Hne), (getp_prev l1 v l2 Hne). nR.
  fold (orient (last (l2 ++ l1) (0, 0)) v (hd (0, 0) (l2 ++ l1))).
  destruct (R_ltb (orient _ _ _) 0) eqn:E; [discriminate|]. intros _. rcmp. rewrite orient_area in E. lra.
Qed.

Lemma in_firstn {A} (l : list A) n x : In x (firstn n l) -> In x l.
Proof. intros Hx. rewrite <- (firstn_skipn n l). apply in_or_app. left; exact Hx. Qed.
Lemma in_skipn {A} (l : list A) n x : In x (skipn n l) -> In x l.
Proof. intros Hx. rewrite <- (firstn_skipn n l). apply in_or_app. right; exact Hx. Qed.
Lemma removelast_cons {A} (a : A) l : l <> [] -> removelast (a :: l) = a :: removelast l.
Proof. destruct l; [congruence|reflexivity]. Qed.

Lemma clip_good fuel : forall (p : list pt) acc ts, (3 <= length p)%nat ->
  clip_loop fuel p acc = Ok ts -> exists new, ts = acc ++ new /\ good p new.
Proof.
  induction fuel as [|fuel IH]; intros p acc ts Hp E; cbn [clip_loop] in E; 
    destruct (Nat.ltb_spec 3 (length p)) as [Hl|Hl]; try discriminate.
  1,3: injection E as <-; exists [p]; (split; [reflexivity|]); unfold good; cbn [length map removelast In];
    (split; [lia|]); (split; [intros t [<-|[]]; lia|]); (split; [intros t v [<-|[]] Hv; exact Hv|]);
    (split; [intros g _; rewrite lsum_cons, lsum_nil; lra|intros t []]).
  destruct (find_ear p (range 0 (length p))) as [[i|]|e] eqn:Ef; cbn [bind] in E; [|apply IH; assumption|discriminate].
  destruct (find_ear_in _ _ _ Ef) as (Hin & Hear). apply in_seq in Hin.
  destruct (split_at p i ltac:(lia)) as (v & Ep & Li).
  set (l1 := firstn i p) in *. set (l2 := skipn (i + 1) p) in *. clearbody l1 l2. subst p.
  assert (Hlen : length (l1 ++ l2) = (length (l1 ++ v :: l2) - 1)%nat) by (rewrite !app_length; cbn [length]; lia).
  assert (Hne : l1 ++ l2 <> []) by (destruct (l1 ++ l2); [cbn in Hlen; lia|discriminate]).
  rewrite <- Li in E, Hear. rewrite getp_split, (getp_next l1 v l2 Hne), (getp_prev l1 v l2 Hne) in E.
  apply IH in E; [|lia]. destruct E as (new & -> & G1 & G2 & G3 & G4 & G5).
  eexists. split; [rewrite <- app_assoc; reflexivity|]. cbn [app].
  assert (Hnew : new <> []) by (intros ->; cbn in G1; lia).
  assert (Hm : l2 ++ l1 <> []) by (intros H0; apply Hne; destruct l1, l2; try discriminate; reflexivity).
  unfold good. cbn [length map In].
  split; [lia|]. split; [intros t [<-|Ht]; [reflexivity|apply G2; exact Ht]|]. split.
  { intros t w [<-|Ht] Hw.
    - assert (Hperm : forall x, In x (l2 ++ l1) -> In x (l1 ++ v :: l2)).
      { intros x Hx. apply in_app_or in Hx. apply in_or_app. destruct Hx; [right; right|left]; assumption. }
      cbn [In] in Hw. destruct Hw as [<-|[<-|[<-|[]]]].
      + apply Hperm. destruct (exists_last Hm) as (m & z & ->). rewrite last_last. apply in_or_app. right. left. reflexivity.
      + apply in_or_app. right. left. reflexivity.
      + apply Hperm. destruct (l2 ++ l1); [contradiction|left; reflexivity].
    - apply (G3 t w Ht) in Hw. apply in_app_or in Hw. apply in_or_app. destruct Hw; [left|right; right]; assumption. }
  split.
  - intros g Hg. rewrite lsum_cons, (G4 g Hg). rewrite (cyc_ear g Hg l1 v l2 Hne). reflexivity.
  - intros t Ht. rewrite removelast_cons in Ht by exact Hnew. destruct Ht as [<-|Ht]; [|apply G5; exact Ht].
    apply is_ear_cross; assumption.
Qed.

Lemma triangulate_good fuel (p : list pt) ts : triangulate fuel p = Ok ts ->
  let q := if clockwise p then p else rev p in (3 <= length p)%nat /\ good q ts /\ area q = Rabs (area p).
Proof.
  unfold triangulate. cbv zeta. intros E. set (q := if clockwise p then p else rev p) in *.
  assert (Hq : length q = length p) by (unfold q; destruct (clockwise p); [reflexivity|apply rev_length]).
  destruct (Nat.ltb_spec 2 (length q)) as [Hl|Hl]; [|discriminate].
  split; [lia|]. split.
  - destruct (clip_good fuel q [] ts ltac:(lia) E) as (new & -> & Hg). exact Hg.
  - unfold q, clockwise. nR. destruct (R_ltb 0 (area p)) eqn:Ec; rcmp.
    + symmetry. apply Rabs_right. lra.
    + rewrite area_rev. symmetry. apply Rabs_left1. exact Ec.
Qed.

(** ** Convex polygons *)
Lemma orient_cyc a b c : orient a b c = orient b c a. Proof. unfold orient; ring. Qed.

Lemma no_cross_one_side p q r s : (0 <= orient p q r /\ 0 <= orient p q s) \/ (orient p q r <= 0 /\ orient p q s <= 0) ->
  segments_cross p q r s -> dir_cross p q r s = 0.
Proof.
  intros Hs (a & b & Ha & Hb & Hr & Hz).
  assert (E : (1 - b) * orient p q r + b * orient p q s = 0).
  { replace ((1 - b) * orient p q r + b * orient p q s) with
      ((snd q - snd p) * (fst r + b * (fst s - fst r) - fst q) - (fst q - fst p) * (snd r + b * (snd s - snd r) - snd q)) by (unfold orient; ring).
    rewrite <- Hr, <- Hz. ring. }
  replace (dir_cross p q r s) with (orient p q r - orient p q s) by (unfold dir_cross, orient; ring).
  set (x := orient p q r) in *. set (y := orient p q s) in *. clearbody x y.
  destruct Hs as [(H1 & H2)|(H1 & H2)].
  - assert (0 <= (1 - b) * x) by (apply Rmult_le_pos; lra). assert (0 <= b * y) by (apply Rmult_le_pos; lra).
    assert ((1 - b) * x = 0) by lra. assert (b * y = 0) by lra.
    assert (x = 0) by (apply Rmult_integral in H3; lra). assert (y = 0) by (apply Rmult_integral in H4; lra). lra.
  - assert (0 <= (1 - b) * - x) by (apply Rmult_le_pos; lra). assert (0 <= b * - y) by (apply Rmult_le_pos; lra).
    assert (E1 : (1 - b) * x = 0) by lra. assert (E2 : b * y = 0) by lra.
    apply Rmult_integral in E1. apply Rmult_integral in E2. lra.
Qed.

Lemma convex_ear0 (p : list pt) : (4 <= length p)%nat -> convex_cw p -> is_ear p 0 = Ok true.
Proof.
  intros Hl Hc. destruct p as [|v l]; [cbn in Hl; lia|].
  assert (Hne : l <> []) by (destruct l; [cbn in Hl; lia|discriminate]).
  assert (Hv : is_ear (v :: l) 0 = is_ear ([] ++ v :: l) (length (@nil pt))) by reflexivity. rewrite Hv. clear Hv.
  unfold is_ear; cbv zeta. rewrite getp_split, (getp_next [] v l), (getp_prev [] v l) by (cbn [app]; exact Hne).
  cbn [app length]. rewrite app_nil_r. nR. set (pv := last l (0, 0)). set (nx := hd (0, 0) l).
  fold (orient pv v nx).
  assert (Hside : forall i, (i < length l)%nat -> 0 <= orient pv v (nth i l (0, 0))).
  { intros i Hi. rewrite orient_cyc. unfold pv. rewrite <- nth_last.
    destruct (Nat.eq_dec i (length l - 1)) as [->|Hi'].
    - replace (orient v (nth (length l - 1) l (0, 0)) (nth (length l - 1) l (0, 0))) with 0 by (unfold orient; ring). lra.
    - assert (H := Hc O (S i) (S (length l - 1)) ltac:(lia) ltac:(lia) ltac:(cbn [length]; lia)). cbn [nth] in H. exact H. }
  assert (Hnx : nx = nth 0 l (0, 0)) by (unfold nx; destruct l; reflexivity).
  destruct (R_ltb (orient pv v nx) 0) eqn:E; rcmp.
  { assert (H := Hside O ltac:(cbn in Hl; lia)). rewrite <- Hnx in H. lra. }
  replace (0 <? S (length l) - 1)%nat with true by (symmetry; apply Nat.ltb_lt; cbn [length] in Hl; lia).
  replace (0 <? 0)%nat with false by reflexivity. cbn [Nat.add skipn]. rewrite app_nil_r.
  destruct (intersect_spec [pv; v; nx] l false false) as (b & Eb & Hb).
  cbn [map] in Eb. rewrite Eb. cbn [bind].
  destruct b; [|reflexivity]. exfalso. destruct (proj1 Hb eq_refl) as (i & j & Hi & Hj & Hx & Hdet).
  cbn [length] in Hi. set (j' := ((j + 1) mod (length l - 1))%nat) in *.
  assert (Hj' : (j' < length l)%nat) by (assert ((j' < length l - 1)%nat) by (apply Nat.mod_upper_bound; lia); lia).
  assert (E0 : dir_cross (nth i [pv; v; nx] (0, 0)) (nth ((i + 1) mod (3 - 1)) [pv; v; nx] (0, 0)) (nth j l (0, 0)) (nth j' l (0, 0)) = 0).
  { apply no_cross_one_side; [|exact Hx].
    assert (H1 := Hside j ltac:(lia)). assert (H2 := Hside j' Hj').
    destruct i as [|[|i]]; [left|right|lia]; cbn [nth Nat.add Nat.sub]; [split; assumption|].
    change ((2 mod 2)%nat) with 0%nat. cbn [nth].
    assert (Hop : forall w, orient v pv w = - orient pv v w) by (intros w; unfold orient; ring). rewrite !Hop. lra. }
  cbn [length] in Hdet. rewrite E0, Rabs_R0 in Hdet. lra.
Qed.

Lemma convex_tail v (l : list pt) : convex_cw (v :: l) -> convex_cw l.
Proof. intros Hc i j k Hij Hjk Hk. apply (Hc (S i) (S j) (S k)); cbn [length]; lia. Qed.

Lemma clip_convex : forall (p : list pt) acc, (3 <= length p)%nat -> convex_cw p ->
  exists ts, forall fuel, (length p <= fuel)%nat -> clip_loop fuel p acc = Ok ts.
Proof.
  induction p as [|v l IH]; intros acc Hl Hc; [cbn in Hl; lia|].
  destruct (Nat.eq_dec (length l) 2) as [E|E].
  - eexists. intros fuel Hf. destruct fuel; cbn [clip_loop length]; rewrite E; cbn [Nat.ltb Nat.leb]; reflexivity.
  - assert (Hl' : (3 <= length l)%nat) by (cbn [length] in Hl; lia).
    destruct (IH (acc ++ [[getp (v :: l) ((0 + length (v :: l) - 1) mod length (v :: l)); getp (v :: l) 0; getp (v :: l) ((0 + 1) mod length (v :: l))]]) Hl' (convex_tail v l Hc)) as (ts & Hts).
    exists ts. intros fuel Hf. destruct fuel as [|fuel]; [cbn in Hf; lia|].
    assert (Ef : find_ear (v :: l) (range 0 (length (v :: l))) = Ok (Some 0%nat)).
    { unfold range. rewrite Nat.sub_0_r. cbn [length seq find_ear]. rewrite convex_ear0 by (cbn [length]; try exact Hc; lia). reflexivity. }
    cbn [clip_loop]. replace (3 <? length (v :: l))%nat with true by (symmetry; apply Nat.ltb_lt; cbn [length]; lia).
    rewrite Ef. cbn [bind firstn app Nat.add skipn]. apply Hts. cbn [length] in Hf. lia.
Qed.

Lemma good_area p ts : good p ts -> lsum (map area ts) = area p.
Proof.
  intros (_ & _ & _ & G & _). rewrite area_cyc, <- (G ga ga_antisym).
  rewrite (lsum_ext area (fun t => / 2 * cyc ga t)) by (intros t _; apply area_cyc). apply lsum_scal.
Qed.

(** The signed area of a clockwise convex polygon is not negative: fan from the first vertex. *)
Lemma convex_area (p : list pt) : convex_cw p -> 0 <= area p.
Proof.
  induction p as [|v l IH]; intros Hc; [rewrite area_cyc; cbn; lra|].
  destruct l as [|a l]; [rewrite area_cyc; cbn; unfold ga; lra|].
  assert (E : area (v :: a :: l) = area [last (a :: l) (0, 0); v; a] + area (a :: l)).
  { rewrite !area_cyc. change (v :: a :: l) with ([] ++ v :: a :: l).
    rewrite (cyc_ear ga ga_antisym [] v (a :: l)) by discriminate. rewrite app_nil_r. cbn [hd app]. lra. }
  rewrite E. assert (H1 := IH (convex_tail _ _ Hc)).
  assert (H2 : 0 <= orient (last (a :: l) (0, 0)) v a).
  { rewrite orient_cyc. rewrite <- nth_last. destruct l as [|b l].
    - cbn. unfold orient; cbn; lra.
    - assert (H := Hc 0%nat 1%nat (S (length (a :: b :: l) - 1))%nat ltac:(lia) ltac:(cbn [length]; lia) ltac:(cbn [length]; lia)).
      exact H. }
  rewrite orient_area in H2. lra.
Qed.

Lemma triangulate_convex (p : list pt) : (3 <= length p)%nat -> (convex_cw p \/ convex_cw (rev p)) -> area p <> 0 ->
  exists ts, forall fuel, (length p <= fuel)%nat -> triangulate fuel p = Ok ts.
Proof.
  intros Hl Hc Ha. set (q := if clockwise p then p else rev p).
  assert (Hq : length q = length p) by (unfold q; destruct (clockwise p); [reflexivity|apply rev_length]).
  assert (Hcq : convex_cw q).
  { unfold q, clockwise. nR. destruct (R_ltb 0 (area p)) eqn:E; rcmp.
    - destruct Hc as [Hc|Hc]; [exact Hc|]. apply convex_area in Hc. rewrite area_rev in Hc. lra.
    - destruct Hc as [Hc|Hc]; [|exact Hc]. apply convex_area in Hc. lra. }
  destruct (clip_convex q [] ltac:(lia) Hcq) as (ts & Hts). exists ts. intros fuel Hf. unfold triangulate. fold q.
  replace (2 <? length q)%nat with true by (symmetry; apply Nat.ltb_lt; lia). apply Hts. lia.
Qed.

(** ** A polygon without an accepted ear is scanned for ever *)
Section Stuck.
  Context {T : Type} `{Num T}.
  Lemma clip_stuck (p : list (T * T)) : (3 < length p)%nat -> find_ear p (range 0 (length p)) = Ok None ->
    forall fuel acc, clip_loop fuel p acc = Raise OutOfFuel.
  Proof.
    intros Hl Hf fuel. induction fuel as [|fuel IH]; intros acc; cbn [clip_loop];
      replace (3 <? length p)%nat with true by (symmetry; apply Nat.ltb_lt; lia); [reflexivity|].
    rewrite Hf. cbn [bind]. apply IH.
  Qed.
  Lemma clip_step (p : list (T * T)) i : (3 < length p)%nat -> find_ear p (range 0 (length p)) = Ok (Some i) ->
    (forall fuel acc, clip_loop fuel (firstn i p ++ skipn (i + 1) p) acc = Raise OutOfFuel) ->
    forall fuel acc, clip_loop fuel p acc = Raise OutOfFuel.
  Proof.
    intros Hl Hf Hn fuel acc. destruct fuel as [|fuel]; cbn [clip_loop];
      replace (3 <? length p)%nat with true by (symmetry; apply Nat.ltb_lt; lia); [reflexivity|].
    rewrite Hf. cbn [bind]. apply Hn.
  Qed.
End Stuck.
