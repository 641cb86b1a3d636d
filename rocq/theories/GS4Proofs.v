(** Lemmas about the fourth-order matrix (freegs/gradshafranov.py 153-269). *)
From Coq Require Import List Arith ZArith QArith Bool Reals Lra Lia.
From Verif Require Import Py Num Numpy Linalg GradShafranov GradShafranovProofs.
Import ListNotations.
Local Open Scope nat_scope.

Lemma deltas_app l1 l2 j : deltas (l1 ++ l2) j = (deltas l1 j + deltas l2 j)%R.
Proof. unfold deltas. rewrite map_app, lsum_app. reflexivity. Qed.

(** A loop of [+=] along one row. *)
Lemma foldM_lil_add {W} N row (cz : W -> Z) (w : W -> R) l :
  row < N -> (forall ow, In ow l -> (0 <= cz ow < Z.of_nat N)%Z) ->
  forall A, exists A', foldM (fun A ow => lil_add N A (Z.of_nat row) (cz ow) (w ow)) l A = Ok A' /\
    (forall j, A' row j = (A row j + deltas (map (fun ow => (Z.to_nat (cz ow), w ow)) l) j)%R) /\
    (forall r j, r <> row -> A' r j = A r j).
Proof.
  intros Hr. induction l as [|ow l IH]; intros Hl A; cbn [foldM map].
  - exists A. split; [reflexivity|]. split; [|reflexivity]. intros j. unfold deltas. cbn [map].
    rewrite lsum_nil. lra.
  - assert (Hc := Hl ow (or_introl eq_refl)).
    rewrite (lil_add_nat N A row (Z.to_nat (cz ow))) by lia. cbn [bind].
    destruct (IH (fun o H => Hl o (or_intror H)) (upd2 A row (Z.to_nat (cz ow)) (A row (Z.to_nat (cz ow)) + w ow)%num))
      as (A' & E & H1 & H2).
    exists A'. split; [exact E|]. split.
    + intros j. rewrite H1. unfold upd2. rewrite Nat.eqb_refl. cbn [andb].
      unfold deltas. cbn [map fst snd]. rewrite lsum_cons. nR.
      destruct (Nat.eqb_spec j (Z.to_nat (cz ow))) as [->|]; lra.
    + intros r j Hne. rewrite H2 by exact Hne. unfold upd2.
      apply Nat.eqb_neq in Hne. rewrite Hne. reflexivity.
Qed.

(** Loops setting diagonal entries to one. *)
Lemma foldM_diag {W} N (row : W -> nat) l : (forall p, In p l -> row p < N) -> forall A : arr2 R,
  exists A', foldM (fun A p => lil_set N A (Z.of_nat (row p)) (Z.of_nat (row p)) (@n1 R _)) l A = Ok A' /\
  forall i j, A' i j = if (i =? j) && existsb (fun p => i =? row p) l then 1%R else A i j.
Proof.
  induction l as [|p l IH]; intros Hl A; cbn [foldM existsb].
  - exists A. split; [reflexivity|]. intros i j. rewrite andb_false_r. reflexivity.
  - rewrite (lil_set_nat N A (row p) (row p)) by (try reflexivity; apply Hl; left; reflexivity). cbn [bind].
    destruct (IH (fun q H => Hl q (or_intror H)) (upd2 A (row p) (row p) (@n1 R _))) as (A' & E & H1).
    exists A'. split; [exact E|]. intros i j. rewrite H1. unfold upd2.
    destruct (Nat.eqb_spec i j) as [->|Hij]; cbn [andb].
    + rewrite andb_diag. destruct (j =? row p); cbn [orb]; [|reflexivity].
      destruct (existsb _ l); reflexivity.
    + destruct (Nat.eqb_spec i (row p)), (Nat.eqb_spec j (row p)); cbn [andb]; auto; congruence.
Qed.

Section Fourth.
  Variables (Rmin Rmax Zmin Zmax : R) (nx ny : nat).
  Let dR := ((Rmax - Rmin) / INR (nx - 1))%R.
  Let dZ := ((Zmax - Zmin) / INR (ny - 1))%R.
  Hypothesis Hnx : 6 <= nx.
  Hypothesis Hny : 6 <= ny.

  (** Stencils used at a point: (offset, weight) lists. *)
  Definition mirror (l : list (Z * R)) : list (Z * R) := map (fun ow => (Z.opp (fst ow), snd ow)) l.
  Definition mirror_neg (l : list (Z * R)) : list (Z * R) := map (fun ow => (Z.opp (fst ow), Ropp (snd ow))) l.
  Definition zst (y : nat) : list (Z * R) :=
    if y =? 1 then offset_2nd else if y =? ny - 2 then mirror offset_2nd else centred_2nd.
  Definition r2st (x : nat) : list (Z * R) :=
    if x =? 1 then offset_2nd else if x =? nx - 2 then mirror offset_2nd else centred_2nd.
  Definition r1st (x : nat) : list (Z * R) :=
    if x =? 1 then offset_1st else if x =? nx - 2 then mirror_neg offset_1st else centred_1st.

  Definition coef4 (p : nat * nat) : list (nat * R) :=
    let '(x, y) := p in
    let row := Z.of_nat (x * ny + y)%nat in
    let r := (Rmin + dR * INR x)%R in
    map (fun ow => (Z.to_nat (row + fst ow), (snd ow * (1 / (dZ * dZ)))%R)) (zst y)
    ++ map (fun ow => (Z.to_nat (row + fst ow * Z.of_nat ny), (snd ow * (1 / (dR * dR)))%R)) (r2st x)
    ++ map (fun ow => (Z.to_nat (row + fst ow * Z.of_nat ny), (- (snd ow / (r * dR)))%R)) (r1st x).

  Lemma deltas_ext (l1 l2 : list (nat * R)) : l1 = l2 -> forall j, deltas l1 j = deltas l2 j.
  Proof. intros ->. reflexivity. Qed.

  Lemma zst_range y ow : 1 <= y -> y + 1 < ny -> In ow (zst y) -> (0 <= Z.of_nat y + fst ow < Z.of_nat ny)%Z.
  Proof.
    clear Hnx. intros H1 H2. unfold zst. destruct (Nat.eqb_spec y 1); [|destruct (Nat.eqb_spec y (ny - 2))];
      cbn; intros H; decompose [or] H; try contradiction; subst ow; cbn [fst]; lia.
  Qed.
  Lemma r2st_range x ow : 1 <= x -> x + 1 < nx -> In ow (r2st x) -> (0 <= Z.of_nat x + fst ow < Z.of_nat nx)%Z.
  Proof.
    clear Hny. intros H1 H2. unfold r2st. destruct (Nat.eqb_spec x 1); [|destruct (Nat.eqb_spec x (nx - 2))];
      cbn; intros H; decompose [or] H; try contradiction; subst ow; cbn [fst]; lia.
  Qed.
  Lemma r1st_range x ow : 1 <= x -> x + 1 < nx -> In ow (r1st x) -> (0 <= Z.of_nat x + fst ow < Z.of_nat nx)%Z.
  Proof.
    clear Hny. intros H1 H2. unfold r1st. destruct (Nat.eqb_spec x 1); [|destruct (Nat.eqb_spec x (nx - 2))];
      cbn; intros H; decompose [or] H; try contradiction; subst ow; cbn [fst]; lia.
  Qed.

  Lemma colz x y o : (0 <= Z.of_nat y + o < Z.of_nat ny)%Z ->
    (Z.of_nat (x * ny + y)%nat + o = Z.of_nat (x * ny + Z.to_nat (Z.of_nat y + o)))%Z.
  Proof. lia. Qed.
  Lemma colr x y o : (0 <= Z.of_nat x + o < Z.of_nat nx)%Z ->
    (Z.of_nat (x * ny + y)%nat + o * Z.of_nat ny = Z.of_nat (Z.to_nat (Z.of_nat x + o) * ny + y))%Z.
  Proof. intros Ho. rewrite !Nat2Z.inj_add, !Nat2Z.inj_mul, Z2Nat.id by lia. ring. Qed.

  Lemma GS4_rows : exists A, GSsparse4thOrder Rmin Rmax Zmin Zmax nx ny = Ok A /\
    (forall x y, interior nx ny x y -> forall j, A (x * ny + y)%nat j = deltas (coef4 (x, y)) j) /\
    (forall x y, x < nx -> y < ny -> ~ interior nx ny x y -> forall j, A (x * ny + y)%nat j = @eye R _ (x * ny + y)%nat j).
  Proof.
    unfold GSsparse4thOrder. rewrite foldM_nested. fold (cells nx ny).
    match goal with |- context [foldM ?f (cells nx ny) zeros2] => set (body := f) end.
    destruct (foldM_rows body (rowof ny) (fun p a j => (a j + deltas (coef4 p) j)%R) (cells nx ny))
      with (A := @zeros2 R _) as (A & E & HA & HB).
    - intros A [x y] Hin. apply in_cells in Hin. unfold interior in Hin. cbn [fst snd] in Hin.
      assert (B3 : x * ny + y < nx * ny) by (apply row_bound; lia).
      assert (CZ : forall ow, In ow (zst y) -> (0 <= Z.of_nat (x * ny + y)%nat + fst ow < Z.of_nat (nx * ny))%Z).
      { intros ow Ho. apply zst_range in Ho; [|lia|lia]. rewrite colz by exact Ho.
        assert (x * ny + Z.to_nat (Z.of_nat y + fst ow) < nx * ny) by (apply row_bound; lia). lia. }
      assert (CR : forall o, (0 <= Z.of_nat x + o < Z.of_nat nx)%Z ->
          (0 <= Z.of_nat (x * ny + y)%nat + o * Z.of_nat ny < Z.of_nat (nx * ny))%Z).
      { intros o Ho. rewrite colr by exact Ho.
        assert (Hb : Z.to_nat (Z.of_nat x + o) * ny + y < nx * ny) by (apply row_bound; lia).
        apply Nat2Z.inj_lt in Hb. split; [apply Nat2Z.is_nonneg|exact Hb]. }
      unfold body, rowof. cbn [fst snd].
      (* Z derivative *)
      match goal with |- context [bind ?e _] => set (zpart := e) end.
      assert (HZ : exists A1, zpart = Ok A1 /\
        (forall j, A1 (x * ny + y)%nat j = (A (x * ny + y)%nat j + deltas (map (fun ow => (Z.to_nat (Z.of_nat (x * ny + y)%nat + fst ow), (snd ow * (1 / (dZ * dZ)))%R)) (zst y)) j)%R) /\
        (forall r j, r <> x * ny + y -> A1 r j = A r j)).
      { unfold zpart, zst in *. clear zpart.
        destruct (y =? 1); [|destruct (y =? ny - 2)].
        - destruct (foldM_lil_add (nx * ny) (x * ny + y)%nat (fun ow => Z.of_nat (x * ny + y)%nat + fst ow)%Z
            (fun ow => snd ow * (1 / (dZ * dZ)))%R (@offset_2nd R _) B3 CZ A) as (A1 & E1 & H1 & H2).
          exists A1. split; [|auto]. rewrite <- E1. apply foldM_ext. intros s a. nR. rewrite <- ?INR_IZR_INZ. try reflexivity.
        - destruct (foldM_lil_add (nx * ny) (x * ny + y)%nat (fun ow => Z.of_nat (x * ny + y)%nat - fst ow)%Z
            (fun ow => snd ow * (1 / (dZ * dZ)))%R (@offset_2nd R _) B3) with (A := A) as (A1 & E1 & H1 & H2).
          { intros ow Ho. apply (CZ (Z.opp (fst ow), snd ow)). unfold mirror. apply in_map_iff. exists ow. auto. }
          exists A1. split; [|split; [|exact H2]].
          + rewrite <- E1. apply foldM_ext. intros s a. nR. rewrite <- ?INR_IZR_INZ. try reflexivity.
          + intros j. rewrite H1. reflexivity.
        - destruct (foldM_lil_add (nx * ny) (x * ny + y)%nat (fun ow => Z.of_nat (x * ny + y)%nat + fst ow)%Z
            (fun ow => snd ow * (1 / (dZ * dZ)))%R (@centred_2nd R _) B3 CZ A) as (A1 & E1 & H1 & H2).
          exists A1. split; [|auto]. rewrite <- E1. apply foldM_ext. intros s a. nR. rewrite <- ?INR_IZR_INZ. try reflexivity. }
      destruct HZ as (A1 & -> & HZ1 & HZ2). cbn [bind].
      assert (HRp : forall l2 l1 (w1 : Z * R -> R), (forall ow, In ow l2 -> (0 <= Z.of_nat x + fst ow < Z.of_nat nx)%Z) ->
         (forall ow, In ow l1 -> (0 <= Z.of_nat x + fst ow < Z.of_nat nx)%Z) ->
         exists A2, bind (foldM (fun A ow => lil_add (nx * ny) A (Z.of_nat (x * ny + y)%nat) (Z.of_nat (x * ny + y)%nat + fst ow * Z.of_nat ny) (snd ow * (1 / (dR * dR)))%R) l2 A1)
            (foldM (fun A ow => lil_add (nx * ny) A (Z.of_nat (x * ny + y)%nat) (Z.of_nat (x * ny + y)%nat + fst ow * Z.of_nat ny) (w1 ow)) l1) = Ok A2 /\
         (forall j, A2 (x * ny + y)%nat j = (A1 (x * ny + y)%nat j
             + deltas (map (fun ow => (Z.to_nat (Z.of_nat (x * ny + y)%nat + fst ow * Z.of_nat ny), (snd ow * (1 / (dR * dR)))%R)) l2) j
             + deltas (map (fun ow => (Z.to_nat (Z.of_nat (x * ny + y)%nat + fst ow * Z.of_nat ny), w1 ow)) l1) j)%R) /\
         (forall r j, r <> x * ny + y -> A2 r j = A1 r j)).
      { intros l2 l1 w1 Hl2 Hl1.
        destruct (foldM_lil_add (nx * ny) (x * ny + y)%nat (fun ow => Z.of_nat (x * ny + y)%nat + fst ow * Z.of_nat ny)%Z
            (fun ow => snd ow * (1 / (dR * dR)))%R l2 B3) with (A := A1) as (A2 & E2 & H1 & H2).
        { intros ow Ho. apply CR. apply Hl2. exact Ho. }
        rewrite E2. cbn [bind].
        destruct (foldM_lil_add (nx * ny) (x * ny + y)%nat (fun ow => Z.of_nat (x * ny + y)%nat + fst ow * Z.of_nat ny)%Z
            w1 l1 B3) with (A := A2) as (A3 & E3 & H3 & H4).
        { intros ow Ho. apply CR. apply Hl1. exact Ho. }
        exists A3. split; [exact E3|]. split.
        - intros j. rewrite H3, H1. reflexivity.
        - intros r j Hr. rewrite H4, H2 by exact Hr. reflexivity. }
      set (r := (Rmin + dR * INR x)%R).
      assert (HR2 := fun ow => r2st_range x ow ltac:(lia) ltac:(lia)).
      assert (HR1 := fun ow => r1st_range x ow ltac:(lia) ltac:(lia)).
      destruct (HRp (r2st x) (r1st x) (fun ow => (- (snd ow / (r * dR)))%R) HR2 HR1) as (A2 & E2 & H1 & H2).
      exists A2. split; [|split].
      + rewrite <- E2. unfold r2st, r1st. destruct (x =? 1); [|destruct (x =? nx - 2)].
        * nR. rewrite <- !INR_IZR_INZ. reflexivity.
        * nR. rewrite <- !INR_IZR_INZ. fold dR. fold r.
          assert (FM : forall (W V : Type) (f : arr2 R -> V -> result (arr2 R)) (h : W -> V) l s,
             foldM f (map h l) s = foldM (fun s w => f s (h w)) l s).
          { intros W V f h l. induction l as [|w l IH]; intros s0; cbn [foldM map]; [reflexivity|].
            destruct (f s0 (h w)); cbn [bind]; auto. }
          unfold mirror, mirror_neg. rewrite !FM. cbn [fst snd].
          match goal with |- bind ?a ?f = bind ?b ?g => assert (Hab : a = b) end.
          { apply foldM_ext. intros s a. f_equal. lia. }
          rewrite Hab. apply bind_ext. intros A3. rewrite FM. apply foldM_ext. intros s a. cbn [fst snd]. f_equal; [lia|].
          unfold Rdiv. ring.
        * nR. rewrite <- !INR_IZR_INZ. reflexivity.
      + intros j. rewrite H1, HZ1. unfold coef4. rewrite !deltas_app. fold r. lra.
      + intros r0 j Hr. rewrite H2, HZ2 by exact Hr. reflexivity.
    - intros c a b Hab j. rewrite Hab. reflexivity.
    - apply cells_NoDup.
    - rewrite E. cbn [bind].
      rewrite (foldM_nested (fun A x y => lil_set (nx * ny) A (Z.of_nat (x * ny + y)%nat) (Z.of_nat (x * ny + y)%nat) n1)).
      destruct (foldM_diag (nx * ny) (rowof ny) (list_prod (range 0 nx) [0; ny - 1])) with (A := A) as (A1 & E1 & H1).
      { intros [x y] Hp. apply in_prod_iff in Hp. rewrite in_range in Hp. cbn in Hp. unfold rowof. cbn [fst snd].
        apply row_bound; lia. }
      unfold rowof in E1. rewrite E1. cbn [bind].
      rewrite (foldM_nested (fun A x y => lil_set (nx * ny) A (Z.of_nat (x * ny + y)%nat) (Z.of_nat (x * ny + y)%nat) n1)).
      destruct (foldM_diag (nx * ny) (rowof ny) (list_prod [0; nx - 1] (range 0 ny))) with (A := A1) as (A2 & E2 & H2).
      { intros [x y] Hp. apply in_prod_iff in Hp. rewrite in_range in Hp. cbn in Hp. unfold rowof. cbn [fst snd].
        apply row_bound; lia. }
      unfold rowof in E2. rewrite E2. exists A2. split; [reflexivity|].
      assert (EX : forall x y lx ly, x < nx -> y < ny -> (forall y', In y' ly -> y' < ny) ->
        existsb (fun p => x * ny + y =? rowof ny p) (list_prod lx ly) = true <-> In x lx /\ In y ly).
      { intros x y lx ly Hx Hy Hly. rewrite existsb_exists. split.
        - intros ([x' y'] & Hin & Heq). apply in_prod_iff in Hin. apply Nat.eqb_eq in Heq.
          unfold rowof in Heq. cbn [fst snd] in Heq.
          destruct (row_inj ny x y x' y') as [-> ->]; [lia|apply Hly; tauto|exact Heq|exact Hin].
        - intros Hin. exists (x, y). split; [apply in_prod_iff; exact Hin|]. apply Nat.eqb_refl. }
      assert (LY : forall y', In y' [0; ny - 1] -> y' < ny) by (cbn; lia).
      assert (LR : forall y', In y' (range 0 ny) -> y' < ny) by (intros y'; rewrite in_range; lia).
      split.
      + intros x y Hi j. rewrite H2, H1.
        replace (existsb _ (list_prod [0; nx - 1] (range 0 ny))) with false.
        2:{ symmetry. apply not_true_iff_false. rewrite EX by (auto; unfold interior in Hi; lia).
            cbn. unfold interior in Hi. lia. }
        replace (existsb _ (list_prod (range 0 nx) [0; ny - 1])) with false.
        2:{ symmetry. apply not_true_iff_false. rewrite EX by (auto; unfold interior in Hi; lia).
            cbn. unfold interior in Hi. lia. }
        rewrite !andb_false_r.
        specialize (HA (x, y) (proj2 (in_cells nx ny (x, y)) Hi) j). unfold rowof in HA. cbn [fst snd] in HA.
        rewrite HA. unfold zeros2. nR. lra.
      + intros x y Hx Hy Hni j. rewrite H2, H1.
        assert (Hz : A (x * ny + y)%nat j = 0%R).
        { rewrite HB; [reflexivity|]. rewrite in_map_iff. intros ([x' y'] & Er & Hin).
          apply in_cells in Hin. unfold rowof in Er. cbn [fst snd] in *.
          destruct (row_inj ny x' y' x y) as [-> ->]; [unfold interior in Hin; lia|lia|exact Er|].
          contradiction. }
        rewrite Hz. unfold eye. destruct (Nat.eqb_spec (x * ny + y)%nat j) as [Ej|Ej]; cbn [andb]; [|reflexivity].
        destruct (existsb _ (list_prod [0; nx - 1] (range 0 ny))) eqn:X1; [reflexivity|].
        destruct (existsb _ (list_prod (range 0 nx) [0; ny - 1])) eqn:X2; [reflexivity|].
        exfalso. apply not_true_iff_false in X1, X2. rewrite EX in X1, X2 by auto.
        apply Hni. rewrite !in_range in *. cbn in *. unfold interior. lia.
  Qed.

  Lemma GS4_apply psi : exists A, GSsparse4thOrder Rmin Rmax Zmin Zmax nx ny = Ok A /\
    (forall x y, interior nx ny x y -> mat_apply A psi nx ny (x * ny + y)%nat =
       (lsum (map (fun ow => snd ow * psi x (Z.to_nat (Z.of_nat y + fst ow))) (zst y)) / (dZ * dZ)
        + lsum (map (fun ow => snd ow * psi (Z.to_nat (Z.of_nat x + fst ow)) y) (r2st x)) / (dR * dR)
        - lsum (map (fun ow => snd ow * psi (Z.to_nat (Z.of_nat x + fst ow)) y) (r1st x)) / (dR * (Rmin + dR * INR x)))%R) /\
    (forall x y, x < nx -> y < ny -> ~ interior nx ny x y -> mat_apply A psi nx ny (x * ny + y)%nat = psi x y).
  Proof.
    destruct GS4_rows as (A & E & Hin & Hbd). exists A. split; [exact E|]. split.
    - intros x y Hi. unfold mat_apply.
      rewrite (nsum_ext _ _ (fun c => deltas (coef4 (x, y)) c * psi (c / ny)%nat (c mod ny)%nat)%R)
        by (intros c Hc; rewrite Hin by exact Hi; reflexivity).
      unfold interior in Hi.
      assert (HR2 := fun ow => r2st_range x ow ltac:(lia) ltac:(lia)).
      assert (HR1 := fun ow => r1st_range x ow ltac:(lia) ltac:(lia)).
      assert (HZ := fun ow => zst_range y ow ltac:(lia) ltac:(lia)).
      rewrite (deltas_apply (nx * ny) (coef4 (x, y)) (fun c => psi (c / ny) (c mod ny))).
      + unfold coef4. rewrite !map_app, !lsum_app, !map_map. cbn [fst snd].
        rewrite (lsum_ext (fun ow => (snd ow * (1 / (dZ * dZ)) * psi (Z.to_nat (Z.of_nat (x * ny + y)%nat + fst ow) / ny)%nat (Z.to_nat (Z.of_nat (x * ny + y)%nat + fst ow) mod ny)%nat)%R)
           (fun ow => ((1 / (dZ * dZ)) * (snd ow * psi x (Z.to_nat (Z.of_nat y + fst ow))))%R)).
        2:{ intros ow Ho. rewrite colz by (apply HZ; exact Ho). specialize (HZ ow Ho).
            rewrite Nat2Z.id, row_div, row_mod by lia. ring. }
        rewrite (lsum_ext (fun ow => (snd ow * (1 / (dR * dR)) * psi (Z.to_nat (Z.of_nat (x * ny + y)%nat + fst ow * Z.of_nat ny) / ny)%nat (Z.to_nat (Z.of_nat (x * ny + y)%nat + fst ow * Z.of_nat ny) mod ny)%nat)%R)
           (fun ow => ((1 / (dR * dR)) * (snd ow * psi (Z.to_nat (Z.of_nat x + fst ow)) y))%R)).
        2:{ intros ow Ho. rewrite colr by (apply HR2; exact Ho).
            rewrite Nat2Z.id, row_div, row_mod by lia. ring. }
        rewrite (lsum_ext (fun ow => (- (snd ow / ((Rmin + dR * INR x) * dR)) * psi (Z.to_nat (Z.of_nat (x * ny + y)%nat + fst ow * Z.of_nat ny) / ny)%nat (Z.to_nat (Z.of_nat (x * ny + y)%nat + fst ow * Z.of_nat ny) mod ny)%nat)%R)
           (fun ow => ((- / (dR * (Rmin + dR * INR x))) * (snd ow * psi (Z.to_nat (Z.of_nat x + fst ow)) y))%R)).
        2:{ intros ow Ho. rewrite colr by (apply HR1; exact Ho).
            rewrite Nat2Z.id, row_div, row_mod by lia. unfold Rdiv. rewrite (Rmult_comm dR (Rmin + dR * INR x)). ring. }
        rewrite !lsum_scal. unfold Rdiv. ring.
      + intros kw Hk. unfold coef4 in Hk. rewrite !in_app_iff, !in_map_iff in Hk.
        destruct Hk as [(ow & <- & Ho)|[(ow & <- & Ho)|(ow & <- & Ho)]]; cbn [fst].
        * rewrite colz by (apply HZ; exact Ho). specialize (HZ ow Ho). rewrite Nat2Z.id. apply row_bound; lia.
        * rewrite colr by (apply HR2; exact Ho). specialize (HR2 ow Ho). rewrite Nat2Z.id. apply row_bound; lia.
        * rewrite colr by (apply HR1; exact Ho). specialize (HR1 ow Ho). rewrite Nat2Z.id. apply row_bound; lia.
    - intros x y Hx Hy Hni. unfold mat_apply.
      rewrite (nsum_ext _ _ (fun c => (if (c =? x * ny + y)%nat then 1 else 0) * psi (c / ny)%nat (c mod ny)%nat)%R).
      + rewrite (nsum_delta (nx * ny) (x * ny + y)%nat 1%R (fun c => psi (c / ny) (c mod ny))) by (apply row_bound; assumption).
        rewrite row_div, row_mod by assumption. ring.
      + intros c Hc. rewrite Hbd by assumption. unfold eye. rewrite Nat.eqb_sym. nR. reflexivity.
  Qed.
End Fourth.

(** ** Grids too small for the stencils *)
Lemma pyindex_cases n i : pyindex n i = Raise IndexError \/ exists k, pyindex n i = Ok k.
Proof. unfold pyindex. destruct (_ && _); eauto. destruct (_ && _); eauto. Qed.
Lemma pyindex_high n i : (Z.of_nat n <= i)%Z -> pyindex n i = Raise IndexError.
Proof.
  intros H. unfold pyindex.
  destruct ((0 <=? i)%Z && (i <? Z.of_nat n)%Z) eqn:E1; [apply andb_true_iff in E1; lia|].
  destruct ((- Z.of_nat n <=? i)%Z && (i <? 0)%Z) eqn:E2; [apply andb_true_iff in E2; lia|]. reflexivity.
Qed.
Lemma lil_add_cases N A i j (v : R) : lil_add N A i j v = Raise IndexError \/ exists A', lil_add N A i j v = Ok A'.
Proof.
  unfold lil_add. destruct (pyindex_cases N i) as [->|(k & ->)]; cbn [bind]; [auto|].
  destruct (pyindex_cases N j) as [->|(k' & ->)]; cbn [bind]; eauto.
Qed.
Lemma foldM_lil_add_cases {W} N i (cz : W -> Z) (w : W -> R) l : forall A,
  foldM (fun A ow => lil_add N A i (cz ow) (w ow)) l A = Raise IndexError \/
  exists A', foldM (fun A ow => lil_add N A i (cz ow) (w ow)) l A = Ok A'.
Proof.
  induction l as [|ow l IH]; intros A; cbn [foldM]; [eauto|].
  destruct (lil_add_cases N A i (cz ow) (w ow)) as [->|(A' & ->)]; cbn [bind]; [auto|]. apply IH.
Qed.
Lemma foldM_lil_add_bad {W} N i (cz : W -> Z) (w : W -> R) l : forall A,
  (exists ow, In ow l /\ (Z.of_nat N <= cz ow)%Z) ->
  foldM (fun A ow => lil_add N A i (cz ow) (w ow)) l A = Raise IndexError.
Proof.
  induction l as [|ow l IH]; intros A (o & Ho & Hb); cbn [foldM]; [contradiction|].
  destruct (lil_add_cases N A i (cz ow) (w ow)) as [->|(A' & E)]; [reflexivity|].
  destruct Ho as [->|Ho].
  - unfold lil_add in E. destruct (pyindex N i); [|discriminate]. cbn [bind] in E.
    rewrite pyindex_high in E by exact Hb. discriminate.
  - rewrite E. cbn [bind]. apply IH. eauto.
Qed.

Lemma foldM_head {A B} (f : A -> B -> result A) b l a e : f a b = Raise e -> foldM f (b :: l) a = Raise e.
Proof. intros H. cbn [foldM]. rewrite H. reflexivity. Qed.
Lemma bind_raise {A B} (m : result A) (f : A -> result B) e : m = Raise e -> bind m f = Raise e.
Proof. intros ->. reflexivity. Qed.

Lemma GS4_small_nx Rmin Rmax Zmin Zmax nx ny : 3 <= nx <= 5 -> 3 <= ny ->
  GSsparse4thOrder (T := R) Rmin Rmax Zmin Zmax nx ny = Raise IndexError.
Proof.
  intros Hnx Hny. unfold GSsparse4thOrder.
  assert (E1 : range 1 (nx - 1) = 1 :: range 2 (nx - 1)).
  { unfold range. replace (nx - 1 - 1) with (S (nx - 1 - 2)) by lia. reflexivity. }
  assert (E2 : range 1 (ny - 1) = 1 :: range 2 (ny - 1)).
  { unfold range. replace (ny - 1 - 1) with (S (ny - 1 - 2)) by lia. reflexivity. }
  apply bind_raise. rewrite E1. apply foldM_head. rewrite E2. apply foldM_head.
  change (1 =? 1) with true. cbv iota.
  match goal with |- bind ?m _ = _ => destruct m as [A|e] eqn:E end.
  - cbn [bind]. apply bind_raise.
    apply (foldM_lil_add_bad (nx * ny) (Z.of_nat (1 * ny + 1)) (fun ow => Z.of_nat (1 * ny + 1) + fst ow * Z.of_nat ny)%Z).
    exists (4%Z, nlit 1 12). split; [unfold offset_2nd; cbn; auto 10|]. cbn [fst]. nia.
  - cbn [bind]. f_equal.
    destruct (foldM_lil_add_cases (nx * ny) (Z.of_nat (1 * ny + 1)) (fun ow => Z.of_nat (1 * ny + 1) + fst ow)%Z
      (fun ow => (snd ow * (n1 / nsqr ((Zmax - Zmin) / nofnat (ny - 1))))%num) (@offset_2nd R _) zeros2) as [E'|(A & E')];
    congruence.
Qed.

(** ny = 5: point (2,1) is coupled to point (3,0). *)
Lemma GS4_wraps : exists (nx ny : nat) A x y x' y',
  GSsparse4thOrder (T := Q) (1#10) 2%Q (-1)%Q 1%Q nx ny = Ok A /\
  (x < nx /\ y < ny /\ x' < nx /\ y' < ny /\ x <> x' /\ y <> y')%nat /\
  ~ (A (x * ny + y)%nat (x' * ny + y')%nat == 0)%Q.
Proof.
  assert (E : match GSsparse4thOrder (T := Q) (1#10) 2%Q (-1)%Q 1%Q 6 5 with
              | Ok A => Qeq_bool (A 11 15) 0 | Raise _ => true end = false) by (vm_compute; reflexivity).
  destruct (GSsparse4thOrder (T := Q) (1#10) 2%Q (-1)%Q 1%Q 6 5) as [A|e] eqn:EA; [|discriminate].
  exists 6, 5, A, 2, 1, 3, 0. split; [exact EA|]. split; [lia|].
  intros H. apply Qeq_bool_iff in H. cbn [Nat.mul Nat.add] in H. congruence.
Qed.
