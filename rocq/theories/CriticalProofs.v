(** Lemmas about the model of critical.py. *)
From Coq Require Import List Arith ZArith Bool Reals Lra Lia Permutation Sorted.
From Verif Require Import Py Num Numpy Critical CriticalSpec.
Import ListNotations.
Local Open Scope R_scope.

(** ** argmin *)
Lemma argmin_from_spec (a : nat -> R) : forall k i best, (best < i)%nat ->
  (forall j, (j < i)%nat -> a best <= a j) -> (forall j, (j < best)%nat -> a best < a j) ->
  let m := argmin_from a k i best in
  (m < i + k)%nat /\ (forall j, (j < i + k)%nat -> a m <= a j) /\ (forall j, (j < m)%nat -> a m < a j).
Proof.
  induction k as [|k IH]; intros i best Hb H1 H2 m; subst m; cbn [argmin_from].
  - rewrite Nat.add_0_r. auto.
  - nR. replace (i + S k)%nat with (S i + k)%nat by lia. destruct (R_ltb (a i) (a best)) eqn:E; rcmp.
    + apply IH; [lia| |].
      * intros j Hj. destruct (Nat.eq_dec j i) as [->|]; [lra|]. specialize (H1 j ltac:(lia)). lra.
      * intros j Hj. specialize (H1 j Hj). lra.
    + apply IH; [lia| |assumption].
      intros j Hj. destruct (Nat.eq_dec j i) as [->|]; [lra|]. apply H1. lia.
Qed.
Lemma argmin_spec n (a : nat -> R) : (0 < n)%nat ->
  (argmin n a < n)%nat /\ (forall j, (j < n)%nat -> a (argmin n a) <= a j) /\ (forall j, (j < argmin n a)%nat -> a (argmin n a) < a j).
Proof.
  intros Hn. unfold argmin. assert (H := argmin_from_spec a (n - 1) 1 0 ltac:(lia)). cbv zeta in H.
  replace (1 + (n - 1))%nat with n in H by lia. apply H.
  - intros j Hj. replace j with 0%nat by lia. lra.
  - intros j Hj. lia.
Qed.
Lemma nearest_index_unique n a v k k' : nearest_index n a v k -> nearest_index n a v k' -> k = k'.
Proof.
  intros (H1 & H2 & H3) (K1 & K2 & K3). destruct (Nat.lt_trichotomy k k') as [L|[E|L]]; [|exact E|].
  - specialize (K3 k L). specialize (H2 k' K1). lra.
  - specialize (H3 k' L). specialize (K2 k H1). lra.
Qed.
Lemma nearest_cell_unique nx ny R Z r z c c' : nearest_cell nx ny R Z r z c -> nearest_cell nx ny R Z r z c' -> c = c'.
Proof. intros (A & B) (A' & B'). destruct c, c'. cbn in *. f_equal; eapply nearest_index_unique; eassumption. Qed.
Lemma nearest_is_nearest nx ny R Z r z : (0 < nx)%nat -> (0 < ny)%nat -> nearest_cell nx ny R Z r z (nearest nx ny R Z r z).
Proof.
  intros Hx Hy. unfold nearest, nearest_cell, nearest_index. cbn [fst snd].
  destruct (argmin_spec nx (fun i => nabs (R i 0%nat - r)%num) Hx) as (A1 & A2 & A3).
  destruct (argmin_spec ny (fun i => nabs (Z 0%nat i - z)%num) Hy) as (B1 & B2 & B3).
  set (k := argmin nx _) in *. set (l := argmin ny _) in *. clearbody k l. cbv beta in *.
  split; (split; [assumption|split; intros q Hq]).
  - specialize (A2 q Hq). rewrite !nabs_R in A2. exact A2.
  - specialize (A3 q Hq). rewrite !nabs_R in A3. exact A3.
  - specialize (B2 q Hq). rewrite !nabs_R in B2. exact B2.
  - specialize (B3 q Hq). rewrite !nabs_R in B3. exact B3.
Qed.

(** ** The blocks *)
Lemma in_block nx ny c q : in_grid nx ny c -> in_grid nx ny q -> (In q (block nx ny c) <-> around c q).
Proof.
  destruct c as (i, j), q as (i', j'). unfold in_grid, around, block, clip3. cbn [fst snd]. intros (Hi & Hj) (Hi' & Hj').
  rewrite in_prod_iff. cbn [In]. lia.
Qed.
Lemma block_in_grid nx ny c q : in_grid nx ny c -> In q (block nx ny c) -> in_grid nx ny q.
Proof.
  destruct c as (i, j), q as (i', j'). unfold in_grid, block, clip3. cbn [fst snd]. intros (Hi & Hj).
  rewrite in_prod_iff. cbn [In]. lia.
Qed.
Lemma in_blocks nx ny R Z xs q : (0 < nx)%nat -> (0 < ny)%nat -> in_grid nx ny q ->
  (In q (flat_map (block nx ny) (map (fun p => nearest nx ny R Z (pR p) (pZ p)) xs)) <-> near_xpoint nx ny R Z xs q).
Proof.
  intros Hx Hy Hq. rewrite in_flat_map. unfold near_xpoint. split.
  - intros (c & Hc & Hin). apply in_map_iff in Hc. destruct Hc as (x & <- & Hx'). exists x, (nearest nx ny R Z (pR x) (pZ x)).
    assert (HN := nearest_is_nearest nx ny R Z (pR x) (pZ x) Hx Hy).
    split; [assumption|]. split; [exact HN|]. apply (in_block nx ny); [|assumption|assumption].
    destruct HN as ((A & _) & (B & _)). split; assumption.
  - intros (x & c & Hx' & HN & Ha). exists c. split.
    + apply in_map_iff. exists x. split; [|assumption]. eapply nearest_cell_unique; [apply nearest_is_nearest; assumption|exact HN].
    + apply in_block; try assumption. destruct HN as ((A & _) & (B & _)). split; assumption.
Qed.

(** ** Assignments over lists of cells *)
Lemma upd2_same {T} (a : arr2 T) x y v : upd2 a x y v x y = v.
Proof. unfold upd2. rewrite !Nat.eqb_refl. reflexivity. Qed.
Lemma upd2_other {T} (a : arr2 T) x y v x' y' : (x', y') <> (x, y) -> upd2 a x y v x' y' = a x' y'.
Proof.
  intros Hn. unfold upd2. destruct (Nat.eqb_spec x' x) as [->|], (Nat.eqb_spec y' y) as [->|]; cbn; congruence.
Qed.
Lemma fold_upd_in {T} (v : nat * nat -> T) : forall l m i j, In (i, j) l ->
  fold_left (fun m ij => upd2 m (fst ij) (snd ij) (v ij)) l m i j = v (i, j).
Proof.
  assert (H0 : forall l m i j, ~ In (i, j) l -> fold_left (fun m ij => upd2 m (fst ij) (snd ij) (v ij)) l m i j = m i j).
  { induction l as [|(a, b) l IH]; intros m i j Hn; cbn [fold_left fst snd]; [reflexivity|].
    rewrite IH by (intros Hc; apply Hn; right; exact Hc). apply upd2_other. intros Hc. apply Hn. left. congruence. }
  induction l as [|(a, b) l IH]; intros m i j Hin; [destruct Hin|]. cbn [fold_left fst snd].
  destruct (in_dec (fun p q : nat * nat => ltac:(decide equality; apply Nat.eq_dec)) (i, j) l) as [Hl|Hl].
  - apply IH. exact Hl.
  - rewrite H0 by exact Hl. destruct Hin as [E|Hin]; [|contradiction]. injection E as -> ->. apply upd2_same.
Qed.
Lemma fold_upd_out {T} (v : nat * nat -> T) : forall l m i j, ~ In (i, j) l ->
  fold_left (fun m ij => upd2 m (fst ij) (snd ij) (v ij)) l m i j = m i j.
Proof.
  induction l as [|(a, b) l IH]; intros m i j Hn; cbn [fold_left fst snd]; [reflexivity|].
  rewrite IH by (intros Hc; apply Hn; right; exact Hc). apply upd2_other. intros Hc. apply Hn. left. congruence.
Qed.

(** ** The flood fill *)
Section Fill.
  Variables (nx ny : nat) (psin : nat -> nat -> R).
  Definition vals (m : nat -> nat -> R) : Prop := forall i j, m i j = 0 \/ m i j = 1 \/ m i j = 2.
  Definition um (m : nat -> nat -> R) (c : nat * nat) : bool := R_ltb (m (fst c) (snd c)) (1 / 2).
  Definition fr (m : nat -> nat -> R) (c : nat * nat) : Prop := psin (fst c) (snd c) < 1 /\ m (fst c) (snd c) = 0.
  Definition mk (m : nat -> nat -> R) (c : nat * nat) : Prop := m (fst c) (snd c) = 1.

  Lemma um_true m c : vals m -> um m c = true <-> m (fst c) (snd c) = 0.
  Proof. intros Hv. unfold um. rewrite R_ltb_true. destruct (Hv (fst c) (snd c)) as [E|[E|E]]; rewrite E; split; intros; lra. Qed.
  Lemma free_true m i j : vals m -> free psin m i j = true <-> fr m (i, j).
  Proof.
    intros Hv. unfold free, fr. cbn [fst snd]. nR. rewrite andb_true_iff, !R_ltb_true.
    destruct (Hv i j) as [E|[E|E]]; rewrite E; split; intros (A & B); split; lra.
  Qed.
  Lemma free_case m i j : vals m -> if free psin m i j then fr m (i, j) else ~ fr m (i, j).
  Proof.
    intros Hv. destruct (free psin m i j) eqn:E; [apply free_true; assumption|]. intros Hf. apply free_true in Hf; [congruence|assumption].
  Qed.
  Lemma vals_upd m i j : vals m -> vals (upd2 m i j 1%R).
  Proof. intros Hv a b. unfold upd2. destruct (_ && _); auto. Qed.
  Lemma stop_false m i j : vals m ->
    (nleb n1 (psin i j) || R_ltb (1 / 2) (m i j))%bool = false <-> fr m (i, j).
  Proof.
    intros Hv. unfold fr. cbn [fst snd]. nR. rewrite orb_false_iff, negb_false_iff, R_ltb_true, R_ltb_false.
    destruct (Hv i j) as [E|[E|E]]; rewrite E; split; intros (A & B); split; lra.
  Qed.

  (** number of unmarked cells *)
  Definition cells : list (nat * nat) := list_prod (seq 0 nx) (seq 0 ny).
  Definition U (m : nat -> nat -> R) : nat := length (filter (um m) cells).
  Lemma in_cells c : In c cells <-> in_grid nx ny c.
  Proof. destruct c as (i, j). unfold cells, in_grid. cbn [fst snd]. rewrite in_prod_iff, !in_seq. lia. Qed.
  Lemma nodup_app {A} (l l' : list A) : NoDup l -> NoDup l' -> (forall x, In x l -> ~ In x l') -> NoDup (l ++ l').
  Proof.
    induction 1 as [|a l Hn Hl IH]; intros Hl' Hd; cbn [app]; [exact Hl'|]. constructor.
    - rewrite in_app_iff. intros [Hc|Hc]; [contradiction|]. exact (Hd a (or_introl eq_refl) Hc).
    - apply IH; [exact Hl'|]. intros x Hx. apply Hd. right. exact Hx.
  Qed.
  Lemma nodup_prod {A B} (l : list A) (l' : list B) : NoDup l -> NoDup l' -> NoDup (list_prod l l').
  Proof.
    induction 1 as [|a l Hn Hl IH]; intros Hl'; cbn [list_prod]; [constructor|].
    apply nodup_app; [|apply IH; exact Hl'|].
    - apply FinFun.Injective_map_NoDup; [intros u v; congruence|assumption].
    - intros (u, v) Hu Hc. apply in_map_iff in Hu. destruct Hu as (y & E & _). injection E as <- <-. apply in_prod_iff in Hc. tauto.
  Qed.
  Lemma nodup_cells : NoDup cells.
  Proof. apply nodup_prod; apply seq_NoDup. Qed.
  Lemma filter_len_le {A} (f : A -> bool) l : (length (filter f l) <= length l)%nat.
  Proof. induction l as [|a l IH]; cbn [filter length]; [lia|]. destruct (f a); cbn [length]; lia. Qed.
  Lemma U_le m : (U m <= nx * ny)%nat.
  Proof. unfold U. etransitivity; [apply filter_len_le|]. unfold cells. rewrite prod_length, !seq_length. lia. Qed.
  Lemma um_upd m i j c : um (upd2 m i j 1%R) c = (um m c && negb ((fst c =? i)%nat && (snd c =? j)%nat))%bool.
  Proof.
    unfold um, upd2. destruct (_ && _)%bool eqn:E; cbn [negb].
    - rewrite andb_false_r. apply R_ltb_false. lra.
    - rewrite andb_true_r. reflexivity.
  Qed.
  Lemma filter_remove (m : nat -> nat -> R) i j : forall l, NoDup l ->
    length (filter (um m) l) = (length (filter (um (upd2 m i j 1%R)) l) + (if in_dec (fun p q : nat * nat => ltac:(decide equality; apply Nat.eq_dec)) (i, j) l then (if um m (i, j) then 1 else 0) else 0))%nat.
  Proof.
    induction 1 as [|c l Hn Hl IH]; [reflexivity|]. cbn [filter]. rewrite um_upd.
    destruct c as (a, b). cbn [fst snd].
    destruct (in_dec _ (i, j) l) as [Hin|Hout] in IH; destruct (in_dec _ (i, j) ((a, b) :: l)) as [Hin'|Hout'].
    - assert (Hne : ((a =? i)%nat && (b =? j)%nat)%bool = false).
      { destruct (Nat.eqb_spec a i) as [->|], (Nat.eqb_spec b j) as [->|]; cbn; try reflexivity. contradiction. }
      rewrite Hne. cbn [negb]. rewrite andb_true_r. destruct (um m (a, b)); cbn [length]; rewrite IH; lia.
    - exfalso. apply Hout'. right. exact Hin.
    - destruct Hin' as [E|Hc]; [|contradiction]. injection E as -> ->. rewrite !Nat.eqb_refl. cbn [andb negb]. rewrite andb_false_r.
      destruct (um m (i, j)); cbn [length]; rewrite IH; lia.
    - assert (Hne : ((a =? i)%nat && (b =? j)%nat)%bool = false).
      { destruct (Nat.eqb_spec a i) as [->|], (Nat.eqb_spec b j) as [->|]; cbn; try reflexivity. exfalso. apply Hout'. left. reflexivity. }
      rewrite Hne. cbn [negb]. rewrite andb_true_r. destruct (um m (a, b)); cbn [length]; rewrite IH; lia.
  Qed.
  Lemma U_upd m i j : in_grid nx ny (i, j) -> U m = (U (upd2 m i j 1%R) + (if um m (i, j) then 1 else 0))%nat.
  Proof.
    intros Hg. unfold U. rewrite (filter_remove m i j cells nodup_cells).
    destruct (in_dec _ (i, j) cells) as [_|Hn]; [reflexivity|]. exfalso. apply Hn. apply in_cells. exact Hg.
  Qed.

  (** *** What one row scan does *)
  Definition pushes (m : nat -> nat -> R) (i j : nat) (st : list (nat * nat)) : list (nat * nat) :=
    let m := upd2 m i j 1%R in
    let st := if (i <? nx - 1)%nat && free psin m (i + 1) j then (i + 1, j)%nat :: st else st in
    if (0 <? i)%nat && free psin m (i - 1) j then (i - 1, j)%nat :: st else st.
  Lemma scan_eq k i j m st : scan nx ny psin k i j m st =
    match k with
    | O => (upd2 m i j 1%R, pushes m i j st)
    | S k' => if (j =? ny - 1)%nat then (upd2 m i j 1%R, pushes m i j st)
              else if (nleb n1 (psin i (j + 1)%nat) || R_ltb (1 / 2) (upd2 m i j 1%R i (j + 1)%nat))%bool then (upd2 m i j 1%R, pushes m i j st)
              else scan nx ny psin k' i (j + 1) (upd2 m i j 1%R) (pushes m i j st)
    end.
  Proof. destruct k; reflexivity. Qed.
  Lemma pushes_in m i j st q : vals m -> (In q (pushes m i j st) <->
    In q st \/ ((q = (i + 1, j)%nat /\ (i < nx - 1)%nat \/ q = (i - 1, j)%nat /\ (0 < i)%nat) /\ fr (upd2 m i j 1%R) q)).
  Proof.
    intros Hv. unfold pushes. assert (Hv' := vals_upd m i j Hv). cbv zeta.
    assert (H1 := free_case (upd2 m i j 1%R) (i + 1) j Hv'). assert (H2 := free_case (upd2 m i j 1%R) (i - 1) j Hv').
    destruct (Nat.ltb_spec i (nx - 1)); destruct (Nat.ltb_spec 0 i);
      destruct (free psin (upd2 m i j 1%R) (i + 1) j); destruct (free psin (upd2 m i j 1%R) (i - 1) j); cbn [andb In];
      split; intros Hc; intuition (subst; try lia; try contradiction; auto).
  Qed.
  Lemma pushes_app m i j st : exists l, pushes m i j st = l ++ st /\ (length l <= 2)%nat /\
    forall q, In q l -> fst q <> i /\ um (upd2 m i j 1%R) q = true.
  Proof.
    unfold pushes. cbv zeta.
    assert (K : forall i', free psin (upd2 m i j 1%R) i' j = true -> um (upd2 m i j 1%R) (i', j) = true).
    { intros i' Hf. unfold free in Hf. nR. apply andb_prop in Hf. exact (proj2 Hf). }
    destruct (Nat.ltb_spec i (nx - 1)), (free psin (upd2 m i j 1%R) (i + 1) j) eqn:E1; destruct (Nat.ltb_spec 0 i), (free psin (upd2 m i j 1%R) (i - 1) j) eqn:E2; cbn [andb];
    match goal with
    | |- exists l, ?a :: ?b :: st = l ++ st /\ _ => exists [a; b]
    | |- exists l, ?a :: st = l ++ st /\ _ => exists [a]
    | |- _ => exists []
    end; split; try reflexivity; (split; [cbn; lia|]); cbn [In]; intros q Hq; intuition (subst; cbn [fst snd] in *; auto; try lia).
  Qed.

  Lemma scan_vals k : forall i j m st, vals m -> vals (fst (scan nx ny psin k i j m st)).
  Proof.
    induction k as [|k IH]; intros i j m st Hv; rewrite scan_eq; [apply vals_upd; exact Hv|].
    destruct (j =? ny - 1)%nat; [apply vals_upd; exact Hv|]. destruct (_ || _)%bool; [apply vals_upd; exact Hv|].
    apply IH, vals_upd, Hv.
  Qed.
  (** the scan changes only cells of row i from column j on, and marks (i,j) *)
  Lemma scan_other k : forall i j m st a b, (a <> i \/ (b < j)%nat) -> fst (scan nx ny psin k i j m st) a b = m a b.
  Proof.
    induction k as [|k IH]; intros i j m st a b Hab; rewrite scan_eq.
    - cbn [fst]. apply upd2_other. intros Hc. injection Hc as -> ->. lia.
    - assert (E : upd2 m i j 1%R a b = m a b) by (apply upd2_other; intros Hc; injection Hc as -> ->; lia).
      destruct (j =? ny - 1)%nat; [exact E|]. destruct (_ || _)%bool; [exact E|]. rewrite IH; [exact E|]. lia.
  Qed.
  Lemma scan_mono k : forall i j m st c, mk m c -> mk (fst (scan nx ny psin k i j m st)) c.
  Proof.
    unfold mk. induction k as [|k IH]; intros i j m st (a, b) Hc; cbn [fst snd] in *; rewrite scan_eq;
    assert (E : upd2 m i j 1%R a b = 1) by (unfold upd2; destruct (_ && _)%bool; auto); [exact E|].
    destruct (j =? ny - 1)%nat; [exact E|]. destruct (_ || _)%bool; [exact E|].
    apply (IH i (j + 1)%nat (upd2 m i j 1%R) (pushes m i j st) (a, b)). exact E.
  Qed.
  Lemma scan_marks k i j m st : mk (fst (scan nx ny psin k i j m st)) (i, j).
  Proof.
    rewrite scan_eq. destruct k; [apply upd2_same|]. destruct (j =? ny - 1)%nat; [apply upd2_same|].
    destruct (_ || _)%bool; [apply upd2_same|]. apply scan_mono. apply upd2_same.
  Qed.
  (** potential *)
  Lemma scan_count k : forall i j m st, vals m -> in_grid nx ny (i, j) ->
    let m' := fst (scan nx ny psin k i j m st) in
    exists l, snd (scan nx ny psin k i j m st) = l ++ st /\
      (length l + 2 * U m' <= 2 * U m + (if um m (i, j) then 0 else 2))%nat /\
      (U m' + (if um m (i, j) then 1 else 0) <= U m)%nat /\
      forall q, In q l -> fst q <> i /\ um m' q = true.
  Proof.
    induction k as [|k IH]; intros i j m st Hv Hg m'; subst m'; rewrite scan_eq.
    all: assert (HU := U_upd m i j Hg); destruct (pushes_app m i j st) as (l & El & Hl & Hq).
    all: assert (Hstop : exists l0, snd (upd2 m i j 1%R, pushes m i j st) = l0 ++ st /\
      (length l0 + 2 * U (fst (upd2 m i j 1%R, pushes m i j st)) <= 2 * U m + (if um m (i, j) then 0 else 2))%nat /\
      (U (fst (upd2 m i j 1%R, pushes m i j st)) + (if um m (i, j) then 1 else 0) <= U m)%nat /\
      forall q, In q l0 -> fst q <> i /\ um (fst (upd2 m i j 1%R, pushes m i j st)) q = true).
    all: try (exists l; cbn [fst snd]; split; [exact El|]; destruct (um m (i, j)); (split; [lia|]; split; [lia|exact Hq])).
    - destruct (Nat.eqb_spec j (ny - 1)) as [Ej|Ej]; [exact Hstop|].
      destruct (nleb n1 (psin i (j + 1)%nat) || R_ltb (1 / 2) (upd2 m i j 1%R i (j + 1)%nat))%bool eqn:Es; [exact Hstop|].
      assert (Hv' := vals_upd m i j Hv). apply stop_false in Es; [|exact Hv'].
      assert (Hg' : in_grid nx ny (i, j + 1)%nat) by (unfold in_grid in *; cbn [fst snd] in *; lia).
      destruct (IH i (j + 1)%nat (upd2 m i j 1%R) (pushes m i j st) Hv' Hg') as (l' & El' & H1 & H2 & H3).
      assert (Hum : um (upd2 m i j 1%R) (i, j + 1)%nat = true) by (apply um_true; [exact Hv'|apply Es]).
      rewrite Hum in H1, H2. exists (l' ++ l). set (M' := fst (scan nx ny psin k i (j + 1) (upd2 m i j 1%R) (pushes m i j st))) in *.
      assert (EM : forall a b, (a <> i \/ (b < j + 1)%nat) -> M' a b = upd2 m i j 1%R a b) by (intros a b Hab; apply scan_other; exact Hab).
      clearbody M'. rewrite El', El, <- app_assoc. split; [reflexivity|].
      rewrite app_length. split; [destruct (um m (i, j)); lia|]. split; [destruct (um m (i, j)); lia|].
      intros q Hin. apply in_app_iff in Hin. destruct Hin as [Hin|Hin]; [apply H3; exact Hin|].
      destruct (Hq q Hin) as (Hne & Hu). split; [exact Hne|]. unfold um in *. rewrite EM by (left; exact Hne). exact Hu.
  Qed.

  (** *** Invariants *)
  Variable blk : nat * nat -> Prop.
  Variable s : nat * nat.
  Let ok (c : nat * nat) : Prop := psin (fst c) (snd c) < 1 /\ ~ blk c.
  Let conn := connected nx ny ok s.
  Record inv (m : nat -> nat -> R) (st : list (nat * nat)) : Prop := {
    i_vals : vals m;
    i_two : forall c, in_grid nx ny c -> m (fst c) (snd c) = 2 -> blk c;
    i_blk : forall c, in_grid nx ny c -> blk c -> c <> s -> m (fst c) (snd c) = 2;
    i_blks : forall c, in_grid nx ny c -> blk c -> m (fst c) (snd c) <> 0;
    i_conn : forall c, in_grid nx ny c -> mk m c -> conn c;
    i_stack : forall c, In c st -> in_grid nx ny c /\ conn c }.
  Definition closed_but (m : nat -> nat -> R) (st : list (nat * nat)) (x : nat * nat) : Prop :=
    forall p q, in_grid nx ny p -> in_grid nx ny q -> adjacent p q -> mk m p -> fr m q -> q <> x -> In q st.
  Definition closed (m : nat -> nat -> R) (st : list (nat * nat)) : Prop :=
    forall p q, in_grid nx ny p -> in_grid nx ny q -> adjacent p q -> mk m p -> fr m q -> In q st.

  Lemma inv_mark m st c : inv m st -> in_grid nx ny c -> conn c -> (c = s \/ ~ blk c) -> inv (upd2 m (fst c) (snd c) 1) st.
  Proof.
    intros HI Hg Hc Hb. destruct HI as [I1 I2 I3 I3' I4 I5]. destruct c as (i, j). cbn [fst snd] in *.
    assert (Hcase : forall a b, (a, b) = (i, j) \/ upd2 m i j 1%R a b = m a b).
    { intros a b. destruct (Nat.eq_dec a i) as [->|], (Nat.eq_dec b j) as [->|]; [left; reflexivity|right..]; apply upd2_other; congruence. }
    constructor.
    - apply vals_upd, I1.
    - intros (a, b) Hg' E. cbn [fst snd] in *. destruct (Hcase a b) as [Ec|Ec]; [injection Ec as -> ->; rewrite upd2_same in E; lra|].
      rewrite Ec in E. exact (I2 (a, b) Hg' E).
    - intros (a, b) Hg' Hb' Hn. cbn [fst snd] in *. destruct (Hcase a b) as [Ec|Ec]; [injection Ec as -> ->; tauto|].
      rewrite Ec. exact (I3 (a, b) Hg' Hb' Hn).
    - intros (a, b) Hg' Hb'. cbn [fst snd] in *. destruct (Hcase a b) as [Ec|Ec]; [injection Ec as -> ->; rewrite upd2_same; lra|].
      rewrite Ec. exact (I3' (a, b) Hg' Hb').
    - intros (a, b) Hg' Hm. unfold mk in Hm. cbn [fst snd] in *. destruct (Hcase a b) as [Ec|Ec]; [injection Ec as -> ->; exact Hc|].
      rewrite Ec in Hm. exact (I4 (a, b) Hg' Hm).
    - exact I5.
  Qed.
  Lemma fr_conn m st p q : inv m st -> in_grid nx ny q -> conn p -> adjacent p q -> fr m q -> conn q /\ ~ blk q.
  Proof.
    intros HI Hg Hc Ha (Hp & Hm). assert (Hb : ~ blk q) by (intros Hb; apply (i_blks _ _ HI q Hg Hb); exact Hm).
    split; [|exact Hb]. eapply conn_step; [exact Hc|exact Ha|exact Hg|]. split; assumption.
  Qed.
  Lemma inv_pushes m i j st : inv (upd2 m i j 1%R) st -> vals m -> in_grid nx ny (i, j) -> conn (i, j) -> inv (upd2 m i j 1%R) (pushes m i j st).
  Proof.
    intros HI Hv Hg Hc. destruct HI as [I1 I2 I3 I3' I4 I5]. constructor; try assumption.
    intros c Hin. apply (pushes_in m i j st c Hv) in Hin. destruct Hin as [Hin|(Hwhere & Hf)]; [apply I5; exact Hin|].
    assert (Hgc : in_grid nx ny c) by (unfold in_grid in *; cbn [fst snd] in *; destruct Hwhere as [(-> & L)|(-> & L)]; cbn [fst snd]; lia).
    split; [exact Hgc|]. eapply (fr_conn (upd2 m i j 1%R) st (i, j)); [constructor; assumption|exact Hgc|exact Hc| |exact Hf].
    unfold adjacent. destruct Hwhere as [(-> & L)|(-> & L)]; cbn [fst snd]; lia.
  Qed.

  Lemma scan_inv k : forall i j m st, (ny - 1 - j <= k)%nat -> in_grid nx ny (i, j) -> conn (i, j) -> ((i, j) = s \/ ~ blk (i, j)) ->
    inv m st -> closed_but m st (i, j) ->
    ((0 < j)%nat -> fr m (i, j - 1)%nat -> In (i, j - 1)%nat st) ->
    inv (fst (scan nx ny psin k i j m st)) (snd (scan nx ny psin k i j m st)) /\
    closed (fst (scan nx ny psin k i j m st)) (snd (scan nx ny psin k i j m st)).
  Proof.
    induction k as [|k IH]; intros i j m st Hk Hg Hc Hb HI Hcl Hleft; rewrite scan_eq.
    all: assert (Hv := i_vals _ _ HI); assert (Hv' := vals_upd m i j Hv).
    all: assert (HI' : inv (upd2 m i j 1%R) (pushes m i j st)) by (apply inv_pushes; [apply (inv_mark m st (i, j)); assumption|assumption..]).
    (* closure except for the right neighbour *)
    all: assert (Hcl' : closed_but (upd2 m i j 1%R) (pushes m i j st) (i, j + 1)%nat).
    1,3: intros (a, b) (a', b') Hp Hq Hadj Hm Hf Hne; apply (pushes_in m i j st (a', b') Hv).
    1,2: assert (Hqn : (a', b') <> (i, j)) by (intros E; injection E as -> ->; destruct Hf as (_ & Hf); cbn [fst snd] in Hf; rewrite upd2_same in Hf; lra).
    1,2: assert (Hf0 : fr m (a', b')) by (destruct Hf as (F1 & F2); split; [exact F1|]; cbn [fst snd] in *; rewrite upd2_other in F2 by exact Hqn; exact F2).
    1,2: destruct (Nat.eq_dec a i) as [Ea|Ea]; [destruct (Nat.eq_dec b j) as [Eb|Eb]|].
    1,4: subst a b; unfold adjacent, in_grid in *; cbn [fst snd] in *.
    1,2: destruct Hadj as [(E1 & [E2|E2])|(E1 & [E2|E2])].
    1,5: left; subst a'; replace b' with (j - 1)%nat in * by lia; apply Hleft; [lia|exact Hf0].
    1,4: exfalso; apply Hne; f_equal; lia.
    1,3: right; split; [right; split; [f_equal; lia|lia]|exact Hf].
    1,2: right; split; [left; split; [f_equal; lia|lia]|exact Hf].
    1,2,3,4: left; apply (Hcl (a, b) (a', b')); try assumption; unfold mk in *; cbn [fst snd] in *; rewrite upd2_other in Hm by congruence; exact Hm.
    - cbn [fst snd]. split; [exact HI'|]. intros p q Hp Hq Ha Hm Hf. apply (Hcl' p q); try assumption.
      intros ->. unfold in_grid in *. cbn [fst snd] in *. lia.
    - assert (Hstop : ~ fr (upd2 m i j 1%R) (i, j + 1)%nat \/ (j = ny - 1)%nat -> closed (upd2 m i j 1%R) (pushes m i j st)).
      { intros Hs p q Hp Hq Ha Hm Hf. apply (Hcl' p q); try assumption. intros ->. destruct Hs as [Hs|Hs]; [exact (Hs Hf)|].
        unfold in_grid in *. cbn [fst snd] in *. lia. }
      destruct (Nat.eqb_spec j (ny - 1)) as [Ej|Ej]; [cbn [fst snd]; split; [exact HI'|apply Hstop; right; exact Ej]|].
      destruct (nleb n1 (psin i (j + 1)%nat) || R_ltb (1 / 2) (upd2 m i j 1%R i (j + 1)%nat))%bool eqn:Es.
      + cbn [fst snd]. split; [exact HI'|]. apply Hstop. left. intros Hf. apply stop_false in Hf; [|exact Hv']. congruence.
      + apply stop_false in Es; [|exact Hv'].
        assert (Hg' : in_grid nx ny (i, j + 1)%nat) by (unfold in_grid in *; cbn [fst snd] in *; lia).
        assert (Ha : adjacent (i, j) (i, j + 1)%nat) by (unfold adjacent; cbn [fst snd]; lia).
        destruct (fr_conn (upd2 m i j 1%R) _ (i, j) _ HI' Hg' Hc Ha Es) as (Hc' & Hb').
        apply IH; try assumption; [lia|right; exact Hb'|].
        intros _ (_ & Hm). cbn [fst snd] in Hm. replace (j + 1 - 1)%nat with j in Hm by lia. rewrite upd2_same in Hm. lra.
  Qed.

  (** state between two turns of the loop *)
  Record good (m : nat -> nat -> R) (st : list (nat * nat)) : Prop := {
    g_inv : inv m st; g_closed : closed m st;
    g_start : mk m s \/ In s st; g_blk : forall c, In c st -> c = s \/ ~ blk c }.

  Lemma scan_stack k : forall i j m st q, vals m -> In q (snd (scan nx ny psin k i j m st)) -> In q st \/ um m q = true.
  Proof.
    induction k as [|k IH]; intros i j m st q Hv; rewrite scan_eq; assert (Hp := pushes_in m i j st q Hv); assert (Hv' := vals_upd m i j Hv).
    all: assert (Hst : In q (pushes m i j st) -> In q st \/ um m q = true).
    1,3: intros Hin; apply Hp in Hin; destruct Hin as [Hin|(_ & Hf & Hz)]; [left; exact Hin|right].
    1,2: assert (Hu : um (upd2 m i j 1%R) q = true) by (apply um_true; assumption); rewrite um_upd in Hu; apply andb_prop in Hu; apply Hu.
    - exact Hst.
    - destruct (j =? ny - 1)%nat; [exact Hst|]. destruct (_ || _)%bool; [exact Hst|].
      intros Hin. apply IH in Hin; [|exact Hv']. destruct Hin as [Hin|Hu]; [apply Hst; exact Hin|right].
      rewrite um_upd in Hu. apply andb_prop in Hu. apply Hu.
  Qed.
  Lemma scan_keeps k : forall i j m st q, In q st -> In q (snd (scan nx ny psin k i j m st)).
  Proof.
    induction k as [|k IH]; intros i j m st q Hin; rewrite scan_eq; destruct (pushes_app m i j st) as (l & El & _);
    assert (Hin' : In q (pushes m i j st)) by (rewrite El; apply in_app_iff; right; exact Hin); [exact Hin'|].
    destruct (j =? ny - 1)%nat; [exact Hin'|]. destruct (_ || _)%bool; [exact Hin'|]. apply IH. exact Hin'.
  Qed.

  Definition left_push (m : nat -> nat -> R) (i j : nat) (st : list (nat * nat)) : list (nat * nat) :=
    if (0 <? j)%nat && free psin m i (j - 1) then (i, j - 1)%nat :: st else st.
  Lemma left_push_in m i j st q : vals m -> (In q (left_push m i j st) <-> In q st \/ (q = (i, j - 1)%nat /\ (0 < j)%nat /\ fr m q)).
  Proof.
    intros Hv. unfold left_push. assert (Hf := free_case m i (j - 1) Hv).
    destruct (Nat.ltb_spec 0 j), (free psin m i (j - 1)); cbn [andb In]; split; intros Hc; intuition (subst; try lia; try contradiction; auto).
  Qed.
  Lemma step_good m i j st : good m ((i, j) :: st) -> good (fst (fill_step nx ny psin i j m st)) (snd (fill_step nx ny psin i j m st)).
  Proof.
    intros [HI Hcl Hs Hb]. unfold fill_step. fold (left_push m i j st).
    assert (Hv := i_vals _ _ HI).
    assert (Hij : in_grid nx ny (i, j) /\ conn (i, j)) by (apply (i_stack _ _ HI); left; reflexivity). destruct Hij as (Hg & Hc).
    assert (Hbij : (i, j) = s \/ ~ blk (i, j)) by (apply Hb; left; reflexivity).
    assert (Hadj : (0 < j)%nat -> adjacent (i, j) (i, j - 1)%nat) by (intros; unfold adjacent; cbn [fst snd]; lia).
    assert (Hgl : in_grid nx ny (i, j - 1)%nat) by (unfold in_grid in *; cbn [fst snd] in *; lia).
    assert (HI1 : inv m (left_push m i j st)).
    { destruct HI as [I1 I2 I3 I3' I4 I5]. constructor; try assumption. intros c Hin. apply (left_push_in m i j st c Hv) in Hin.
      destruct Hin as [Hin|(-> & Hj & Hf)]; [apply I5; right; exact Hin|]. split; [exact Hgl|].
      eapply fr_conn; [constructor; eassumption|exact Hgl|exact Hc|apply Hadj; exact Hj|exact Hf]. }
    assert (Hcl1 : closed_but m (left_push m i j st) (i, j)).
    { intros p q Hp Hq Ha Hm Hf Hne. apply (left_push_in m i j st q Hv). left. destruct (Hcl p q Hp Hq Ha Hm Hf) as [E|Hin]; [congruence|exact Hin]. }
    assert (Hl1 : (0 < j)%nat -> fr m (i, j - 1)%nat -> In (i, j - 1)%nat (left_push m i j st)).
    { intros Hj Hf. apply (left_push_in m i j st _ Hv). right. auto. }
    destruct (scan_inv ny i j m (left_push m i j st) ltac:(lia) Hg Hc Hbij HI1 Hcl1 Hl1) as (HI2 & Hcl2).
    constructor; [exact HI2|exact Hcl2| |].
    - destruct Hs as [Hs|[E|Hin]].
      + left. apply scan_mono, Hs.
      + left. rewrite <- E. apply scan_marks.
      + right. apply scan_keeps. apply (left_push_in m i j st s Hv). left. exact Hin.
    - intros c Hin. destruct (scan_stack _ _ _ _ _ _ Hv Hin) as [Hin'|Hu].
      + apply (left_push_in m i j st c Hv) in Hin'. destruct Hin' as [Hin'|(-> & Hj & Hf)]; [apply Hb; right; exact Hin'|].
        right. eapply fr_conn; [exact HI|exact Hgl|exact Hc|apply Hadj; exact Hj|exact Hf].
      + right. intros Hbc. apply (um_true m c Hv) in Hu. assert (Hgc := proj1 (i_stack _ _ HI2 c Hin)). exact (i_blks _ _ HI c Hgc Hbc Hu).
  Qed.

  Definition flag (m : nat -> nat -> R) (st : list (nat * nat)) : nat := match st with [] => 0 | c :: _ => if um m c then 0 else 1 end.
  Definition potential (m : nat -> nat -> R) (st : list (nat * nat)) : nat := (length st + 6 * U m + 3 * flag m st)%nat.
  Lemma step_potential m i j st : good m ((i, j) :: st) ->
    (potential (fst (fill_step nx ny psin i j m st)) (snd (fill_step nx ny psin i j m st)) < potential m ((i, j) :: st))%nat.
  Proof.
    intros [HI Hcl Hs Hb]. unfold fill_step. fold (left_push m i j st).
    assert (Hv := i_vals _ _ HI).
    assert (Hg : in_grid nx ny (i, j)) by (apply (i_stack _ _ HI); left; reflexivity).
    destruct (scan_count ny i j m (left_push m i j st) Hv Hg) as (l & El & H1 & H2 & H3).
    set (m' := fst _) in *. rewrite El. unfold potential. cbn [length flag].
    assert (Hlp : exists l0, left_push m i j st = l0 ++ st /\ (length l0 <= 1)%nat /\ forall q, In q l0 -> um m' q = true).
    { unfold left_push. destruct (Nat.ltb_spec 0 j) as [Hj|Hj]; cbn [andb]; [|exists []; cbn; intuition lia].
      destruct (free psin m i (j - 1)) eqn:Ef; [|exists []; cbn; intuition lia].
      exists [(i, j - 1)%nat]. split; [reflexivity|]. split; [cbn; lia|]. intros q [<-|[]]. apply (free_true m i (j - 1) Hv) in Ef. destruct Ef as (_ & Ez).
      unfold um, m'. cbn [fst snd] in *. rewrite scan_other by (right; lia). rewrite Ez. apply R_ltb_true. lra. }
    destruct Hlp as (l0 & E0 & Hl0 & Hu0). rewrite E0, app_assoc.
    assert (Hlen : (length (l ++ l0) + 2 * U m' <= 1 + 2 * U m + (if um m (i, j) then 0 else 2))%nat) by (rewrite app_length; lia).
    assert (Hall : forall q, In q (l ++ l0) -> um m' q = true) by (intros q Hin; apply in_app_iff in Hin; destruct Hin as [Hin|Hin]; [apply H3; exact Hin|apply Hu0; exact Hin]).
    rewrite app_length.
    destruct (l ++ l0) as [|q t] eqn:Ell.
    - cbn [length app] in *. assert (flag m' st <= 1)%nat by (unfold flag; destruct st as [|c ?]; [lia|destruct (um m' c); lia]).
      destruct (um m (i, j)); lia.
    - cbn [app flag]. rewrite (Hall q) by (left; reflexivity). destruct (um m (i, j)); lia.
  Qed.

  Theorem fill_total : forall fuel m st, good m st -> (potential m st <= fuel)%nat ->
    exists m', fill nx ny psin fuel m st = Ok m' /\ good m' [].
  Proof.
    induction fuel as [|fuel IH]; intros m st HG Hp; destruct st as [|(i, j) st]; cbn [fill].
    - exists m. auto.
    - unfold potential in Hp. cbn [length] in Hp. lia.
    - exists m. auto.
    - apply IH; [apply step_good; exact HG|]. assert (H := step_potential m i j st HG). lia.
  Qed.
  Lemma fill_fuel_mono : forall fuel m st m', fill nx ny psin fuel m st = Ok m' -> forall fuel', (fuel <= fuel')%nat -> fill nx ny psin fuel' m st = Ok m'.
  Proof.
    induction fuel as [|fuel IH]; intros m st m' E fuel' Hle; destruct st as [|(i, j) st]; cbn [fill] in E.
    - destruct fuel'; exact E.
    - discriminate.
    - destruct fuel'; exact E.
    - destruct fuel' as [|fuel']; [lia|]. cbn [fill]. apply (IH _ _ _ E). lia.
  Qed.
  Theorem good_final m c : good m [] -> in_grid nx ny s -> in_grid nx ny c -> (mk m c <-> conn c).
  Proof.
    intros [HI Hcl Hs Hb] Hgs Hg. split; [apply (i_conn _ _ HI); exact Hg|].
    intros Hc. revert Hg. induction Hc as [|p q Hp IH Ha Hgq (Hok & Hnb)]; intros Hg.
    - destruct Hs as [Hs|[]]. exact Hs.
    - assert (Hgp : in_grid nx ny p) by (inversion Hp; subst; assumption). specialize (IH Hgp).
      destruct (i_vals _ _ HI (fst q) (snd q)) as [E|[E|E]].
      + exfalso. apply (Hcl p q Hgp Hg Ha IH). split; assumption.
      + exact E.
      + exfalso. apply Hnb. exact (i_two _ _ HI q Hg E).
  Qed.
End Fill.
