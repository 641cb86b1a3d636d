(** Lemmas about the model of freegs/gradshafranov.py. *)
From Coq Require Import List Arith ZArith Bool Reals Lra Lia.
From Verif Require Import Py Num Numpy Linalg GradShafranov.
Import ListNotations.
Local Open Scope nat_scope.

(** ** Array filling loops *)
Lemma in_range a b x : In x (range a b) <-> a <= x < b.
Proof. unfold range. rewrite in_seq. lia. Qed.

Lemma fill_inner {T} x (v : nat -> T) l : forall b x' y',
  fold_left (fun b y => upd2 b x y (v y)) l b x' y'
  = if (x' =? x) && existsb (Nat.eqb y') l then v y' else b x' y'.
Proof.
  induction l as [|y l IH]; intros b x' y'; cbn [fold_left existsb].
  - rewrite andb_false_r. reflexivity.
  - rewrite IH. unfold upd2. destruct (Nat.eqb_spec x' x) as [->|]; cbn [andb]; [|reflexivity].
    destruct (Nat.eqb_spec y' y) as [->|]; cbn [orb]; [|reflexivity].
    destruct (existsb (Nat.eqb y) l); reflexivity.
Qed.
Lemma fill_outer {T} (v : nat -> nat -> T) lx ly : forall b x' y',
  fold_left (fun b x => fold_left (fun b y => upd2 b x y (v x y)) ly b) lx b x' y'
  = if existsb (Nat.eqb x') lx && existsb (Nat.eqb y') ly then v x' y' else b x' y'.
Proof.
  induction lx as [|x lx IH]; intros b x' y'; cbn [fold_left existsb]; [reflexivity|].
  rewrite IH, fill_inner. destruct (Nat.eqb_spec x' x) as [->|]; cbn [andb orb]; [|reflexivity].
  destruct (existsb (Nat.eqb x) lx); cbn [andb]; [|reflexivity].
  destruct (existsb (Nat.eqb y') ly); reflexivity.
Qed.
Lemma existsb_range a b x : existsb (Nat.eqb x) (range a b) = (a <=? x) && (x <? b).
Proof.
  destruct (existsb (Nat.eqb x) (range a b)) eqn:E.
  - apply existsb_exists in E. destruct E as (y & Hy & E). apply Nat.eqb_eq in E. subst y.
    apply in_range in Hy. symmetry. apply andb_true_iff. split; [apply Nat.leb_le|apply Nat.ltb_lt]; lia.
  - symmetry. destruct ((a <=? x) && (x <? b)) eqn:E2; [|reflexivity].
    apply andb_true_iff in E2. destruct E2 as [E2 E3]. apply Nat.leb_le in E2. apply Nat.ltb_lt in E3.
    rewrite <- E. symmetry. apply existsb_exists. exists x. split; [apply in_range; lia|apply Nat.eqb_refl].
Qed.

Definition interior (nx ny x y : nat) : Prop := 1 <= x /\ x + 1 < nx /\ 1 <= y /\ y + 1 < ny.
Definition interiorb (nx ny x y : nat) : bool :=
  ((1 <=? x) && (x <? nx - 1)) && ((1 <=? y) && (y <? ny - 1)).
Lemma interiorb_spec nx ny x y : reflect (interior nx ny x y) (interiorb nx ny x y).
Proof.
  apply iff_reflect. unfold interiorb, interior.
  rewrite !andb_true_iff, !Nat.leb_le, !Nat.ltb_lt. lia.
Qed.

(** The five point formula at one point. *)
Definition five_point (Rmin dR dZ : R) (psi : nat -> nat -> R) (x y : nat) : R :=
  (let r := Rmin + dR * INR x in
   (psi (x + 1)%nat y - 2 * psi x y + psi (x - 1)%nat y) / dR ^ 2
   - (psi (x + 1)%nat y - psi (x - 1)%nat y) / (2 * dR) / r
   + (psi x (y + 1)%nat - 2 * psi x y + psi x (y - 1)%nat) / dZ ^ 2)%R.

Lemma GSElliptic_closed (Rmin : R) psi nx ny dR dZ x y :
  GSElliptic Rmin psi nx ny dR dZ x y =
  if interiorb nx ny x y then
    (psi x (y - 1)%nat * (1 / (dZ * dZ))
     + (1 / (dR * dR) + 1 / (2 * (Rmin + dR * INR x) * dR)) * psi (x - 1)%nat y
     - 2 * (1 / (dR * dR) + 1 / (dZ * dZ)) * psi x y
     + (1 / (dR * dR) - 1 / (2 * (Rmin + dR * INR x) * dR)) * psi (x + 1)%nat y
     + psi x (y + 1)%nat * (1 / (dZ * dZ)))%R
  else 0%R.
Proof.
  unfold GSElliptic. rewrite fill_outer, !existsb_range. unfold interiorb.
  destruct (((1 <=? x) && (x <? nx - 1)) && ((1 <=? y) && (y <? ny - 1))); [|reflexivity].
  nR. rewrite <- INR_IZR_INZ. reflexivity.
Qed.

Lemma GSElliptic_interior (Rmin : R) psi nx ny dR dZ x y :
  interior nx ny x y -> (dR <> 0)%R -> (dZ <> 0)%R -> (Rmin + dR * INR x <> 0)%R ->
  GSElliptic Rmin psi nx ny dR dZ x y = five_point Rmin dR dZ psi x y.
Proof.
  intros Hi HR HZ Hr. rewrite GSElliptic_closed.
  destruct (interiorb_spec nx ny x y); [|contradiction].
  unfold five_point. field. auto.
Qed.
Lemma GSElliptic_boundary (Rmin : R) psi nx ny dR dZ x y :
  ~ interior nx ny x y -> GSElliptic Rmin psi nx ny dR dZ x y = 0%R.
Proof.
  intros Hi. rewrite GSElliptic_closed. destruct (interiorb_spec nx ny x y); [contradiction|reflexivity].
Qed.

(** ** Matrix assembly *)
Lemma pyindex_nat n i : i < n -> pyindex n (Z.of_nat i) = Ok i.
Proof.
  intros Hi. unfold pyindex.
  destruct ((0 <=? Z.of_nat i)%Z && (Z.of_nat i <? Z.of_nat n)%Z) eqn:E.
  - rewrite Nat2Z.id. reflexivity.
  - apply andb_false_iff in E. destruct E as [E|E]; [apply Z.leb_gt in E|apply Z.ltb_ge in E]; lia.
Qed.
Lemma lil_set_nat {T} `{Num T} N (A : arr2 T) i j iz jz v :
  iz = Z.of_nat i -> jz = Z.of_nat j -> i < N -> j < N -> lil_set N A iz jz v = Ok (upd2 A i j v).
Proof. intros -> -> Hi Hj. unfold lil_set. rewrite !pyindex_nat by assumption. reflexivity. Qed.
Lemma lil_add_nat {T} `{Num T} N (A : arr2 T) i j iz jz v :
  iz = Z.of_nat i -> jz = Z.of_nat j -> i < N -> j < N ->
  lil_add N A iz jz v = Ok (upd2 A i j (A i j + v)%num).
Proof. intros -> -> Hi Hj. unfold lil_add. rewrite !pyindex_nat by assumption. reflexivity. Qed.

(** A loop whose iterations each rewrite one row, all rows different. *)
Lemma foldM_rows {T C} (f : arr2 T -> C -> result (arr2 T)) (rowof : C -> nat)
  (g : C -> (nat -> T) -> nat -> T) cells :
  (forall A c, In c cells -> exists A', f A c = Ok A' /\
     (forall j, A' (rowof c) j = g c (A (rowof c)) j) /\
     (forall r j, r <> rowof c -> A' r j = A r j)) ->
  (forall c a b, (forall j, a j = b j) -> forall j, g c a j = g c b j) ->
  NoDup (map rowof cells) ->
  forall A, exists A', foldM f cells A = Ok A' /\
    (forall c, In c cells -> forall j, A' (rowof c) j = g c (A (rowof c)) j) /\
    (forall r, ~ In r (map rowof cells) -> forall j, A' r j = A r j).
Proof.
  intros Hf Hg. induction cells as [|c cells IH]; intros HN A.
  - exists A. split; [reflexivity|]. split; [intros c []|reflexivity].
  - inversion HN as [|? ? Hni HN']; subst.
    destruct (Hf A c (or_introl eq_refl)) as (A1 & E1 & Hr & Ho).
    destruct (IH (fun A c H => Hf A c (or_intror H)) HN' A1) as (A2 & E2 & Hr2 & Ho2).
    exists A2. cbn [foldM]. rewrite E1. cbn [bind]. split; [exact E2|]. split.
    + intros c' [<-|Hc'] j.
      * rewrite Ho2 by exact Hni. apply Hr.
      * rewrite Hr2 by exact Hc'. apply Hg. intros j'. apply Ho. intros Heq. apply Hni.
        rewrite <- Heq. apply in_map. exact Hc'.
    + intros r Hr' j. rewrite Ho2; [apply Ho|].
      * intros ->. apply Hr'. left. reflexivity.
      * intros Hi. apply Hr'. right. exact Hi.
Qed.

Lemma row_inj ny x y x' y' : y < ny -> y' < ny -> x * ny + y = x' * ny + y' -> x = x' /\ y = y'.
Proof.
  intros Hy Hy' E.
  assert (E1 : (x * ny + y) / ny = (x' * ny + y') / ny) by (rewrite E; reflexivity).
  rewrite !Nat.div_add_l, !Nat.div_small in E1 by lia.
  assert (x = x') by lia. subst. lia.
Qed.
Lemma row_div ny x y : y < ny -> (x * ny + y) / ny = x.
Proof. intros Hy. rewrite Nat.div_add_l, Nat.div_small by lia. lia. Qed.
Lemma row_mod ny x y : y < ny -> (x * ny + y) mod ny = y.
Proof. intros Hy. rewrite Nat.add_comm, Nat.mod_add, Nat.mod_small by lia. reflexivity. Qed.
Lemma row_bound nx ny x y : x < nx -> y < ny -> x * ny + y < nx * ny.
Proof. intros Hx Hy. nia. Qed.

Lemma NoDup_list_prod {A B} (la : list A) (lb : list B) :
  NoDup la -> NoDup lb -> NoDup (list_prod la lb).
Proof.
  intros Ha Hb. induction Ha as [|a la Hn Ha IH]; cbn [list_prod]; [constructor|].
  assert (HD : forall l1 l2 : list (A * B), NoDup l1 -> NoDup l2 -> (forall z, In z l1 -> ~ In z l2) -> NoDup (l1 ++ l2)).
  { induction l1 as [|z l1 IHl]; intros l2 H1 H2 Hd; [exact H2|]. inversion H1; subst. cbn. constructor.
    - rewrite in_app_iff. intros [Hz|Hz]; [contradiction|]. apply (Hd z); [left; reflexivity|exact Hz].
    - apply IHl; auto. intros z' Hz'. apply Hd. right. exact Hz'. }
  apply HD; [|exact IH|].
  - clear -Hb. induction Hb as [|b lb Hn Hb IH]; cbn [map]; constructor; [|exact IH].
    rewrite in_map_iff. intros (b' & E & Hb'). injection E as ->. contradiction.
  - intros z Hz Hz'. apply in_map_iff in Hz. destruct Hz as (b & <- & Hb').
    apply in_prod_iff in Hz'. tauto.
Qed.

Lemma NoDup_map_in {A B} (f : A -> B) l :
  (forall a b, In a l -> In b l -> f a = f b -> a = b) -> NoDup l -> NoDup (map f l).
Proof.
  intros Hf Hn. induction Hn as [|a l Hni Hn IH]; cbn [map]; constructor.
  - rewrite in_map_iff. intros (b & E & Hb). apply Hni. rewrite (Hf a b); cbn; auto.
  - apply IH. intros a' b' Ha Hb. apply Hf; right; assumption.
Qed.

Definition cells (nx ny : nat) := list_prod (range 1 (nx - 1)) (range 1 (ny - 1)).
Definition rowof (ny : nat) (p : nat * nat) := fst p * ny + snd p.
Lemma in_cells nx ny p : In p (cells nx ny) <-> interior nx ny (fst p) (snd p).
Proof. destruct p as [x y]. unfold cells, interior. rewrite in_prod_iff, !in_range. cbn. lia. Qed.
Lemma cells_NoDup nx ny : NoDup (map (rowof ny) (cells nx ny)).
Proof.
  apply NoDup_map_in; [|apply NoDup_list_prod; apply seq_NoDup].
  intros [x y] [x' y'] Ha Hb E. apply in_cells in Ha, Hb. unfold interior, rowof in *. cbn in *.
  destruct (row_inj ny x y x' y') as [-> ->]; [lia|lia|exact E|reflexivity].
Qed.

(** Sum of weighted unit columns. *)
Definition deltas (l : list (nat * R)) (j : nat) : R :=
  lsum (map (fun kw => if j =? fst kw then snd kw else 0%R) l).
Lemma deltas_apply n l (v : nat -> R) :
  (forall kw, In kw l -> fst kw < n) ->
  nsum n (fun c => deltas l c * v c)%R = lsum (map (fun kw => snd kw * v (fst kw))%R l).
Proof.
  induction l as [|[k w] l IH]; intros Hl.
  - cbn [map]. rewrite lsum_nil. apply nsum_zero. intros i Hi. unfold deltas. cbn [map]. rewrite lsum_nil. lra.
  - cbn [map]. rewrite lsum_cons. cbn [fst snd]. rewrite <- IH by (intros kw Hk; apply Hl; right; exact Hk).
    rewrite <- (nsum_delta n k w v) by (apply (Hl (k, w)); left; reflexivity).
    rewrite <- nsum_add. apply nsum_ext. intros i Hi. unfold deltas. cbn [map]. rewrite lsum_cons.
    cbn [fst snd]. ring.
Qed.

(** ** The second-order matrix *)
Section Second.
  Variables (Rmin Rmax Zmin Zmax : R) (nx ny : nat).
  Let dR := ((Rmax - Rmin) / INR (nx - 1))%R.
  Let dZ := ((Zmax - Zmin) / INR (ny - 1))%R.

  Definition coef2 (p : nat * nat) : list (nat * R) :=
    let '(x, y) := p in let row := x * ny + y in
    let r := (Rmin + dR * INR x)%R in
    [(row - 1, (1 / (dZ * dZ))%R); (row - ny, (1 / (dR * dR) + 1 / (2 * r * dR))%R);
     (row, (- (2) * (1 / (dR * dR) + 1 / (dZ * dZ)))%R);
     (row + ny, (1 / (dR * dR) - 1 / (2 * r * dR))%R); (row + 1, (1 / (dZ * dZ))%R)].

  Lemma GSsparse_rows : exists A, GSsparse Rmin Rmax Zmin Zmax nx ny = Ok A /\
    (forall x y, interior nx ny x y -> forall j, A (x * ny + y) j = deltas (coef2 (x, y)) j) /\
    (forall x y, x < nx -> y < ny -> ~ interior nx ny x y -> forall j, A (x * ny + y) j = @eye R _ (x * ny + y) j).
  Proof.
    unfold GSsparse. rewrite foldM_nested. fold (cells nx ny).
    match goal with |- context [foldM ?f (cells nx ny) eye] => set (body := f) end.
    destruct (foldM_rows body (rowof ny)
      (fun p a j => if (j =? rowof ny p - 1) || (j =? rowof ny p - ny) || (j =? rowof ny p)
                       || (j =? rowof ny p + ny) || (j =? rowof ny p + 1) then deltas (coef2 p) j else a j) (cells nx ny))
      with (A := @eye R _) as (A & E & HA & HB).
    - intros A [x y] Hin. apply in_cells in Hin. unfold interior in Hin. cbn [fst snd] in Hin.
      assert (B1 : x * ny + y - 1 < nx * ny) by nia.
      assert (B2 : x * ny + y - ny < nx * ny) by nia.
      assert (B3 : x * ny + y < nx * ny) by nia.
      assert (B4 : x * ny + y + ny < nx * ny) by nia.
      assert (B5 : x * ny + y + 1 < nx * ny) by nia.
      assert (B6 : ny <= x * ny) by nia.
      unfold body, rowof. cbn [fst snd].
      rewrite (lil_set_nat _ _ (x * ny + y) (x * ny + y - 1)) by (try reflexivity; lia). cbn [bind].
      rewrite (lil_set_nat _ _ (x * ny + y) (x * ny + y - ny)) by (try reflexivity; lia). cbn [bind].
      rewrite (lil_set_nat _ _ (x * ny + y) (x * ny + y)) by (try reflexivity; lia). cbn [bind].
      rewrite (lil_set_nat _ _ (x * ny + y) (x * ny + y + ny)) by (try reflexivity; lia). cbn [bind].
      rewrite (lil_set_nat _ _ (x * ny + y) (x * ny + y + 1)) by (try reflexivity; lia).
      eexists. split; [reflexivity|]. split.
      + intros j. unfold upd2. rewrite Nat.eqb_refl. cbn [andb].
        unfold deltas, coef2. cbn [map fst snd]. rewrite !lsum_cons, lsum_nil. nR.
        rewrite <- !INR_IZR_INZ. fold dR dZ. set (row := x * ny + y) in *.
        destruct (Nat.eqb_spec j (row - 1)), (Nat.eqb_spec j (row - ny)), (Nat.eqb_spec j row),
          (Nat.eqb_spec j (row + ny)), (Nat.eqb_spec j (row + 1)); try lia; cbn [orb]; try ring; reflexivity.
      + intros r j Hr. unfold upd2. apply Nat.eqb_neq in Hr. rewrite Hr. reflexivity.
    - intros c a b Hab j. destruct (_ || _ || _ || _ || _); auto.
    - apply cells_NoDup.
    - exists A. split; [exact E|]. split.
      + intros x y Hi j. specialize (HA (x, y) (proj2 (in_cells nx ny (x, y)) Hi) j).
        unfold rowof in HA. cbn [fst snd] in HA. rewrite HA.
        unfold interior in Hi. assert (B6 : ny <= x * ny) by nia.
        unfold deltas, coef2, eye. cbn [map fst snd]. rewrite !lsum_cons, lsum_nil.
        set (row := x * ny + y) in *.
        destruct (Nat.eqb_spec j (row - 1)), (Nat.eqb_spec j (row - ny)), (Nat.eqb_spec j row),
          (Nat.eqb_spec j (row + ny)), (Nat.eqb_spec j (row + 1)); try lia; cbn [orb]; try reflexivity.
        destruct (Nat.eqb_spec row j); [congruence|]. nR. ring.
      + intros x y Hx Hy Hni j. apply HB. rewrite in_map_iff. intros ([x' y'] & Er & Hin).
        apply in_cells in Hin. unfold rowof in Er. cbn [fst snd] in *.
        destruct (row_inj ny x' y' x y) as [-> ->]; [unfold interior in Hin; lia|lia|exact Er|].
        contradiction.
  Qed.

  Lemma GSsparse_apply psi : exists A, GSsparse Rmin Rmax Zmin Zmax nx ny = Ok A /\
    forall x y, x < nx -> y < ny ->
      mat_apply A psi nx ny (x * ny + y)
      = if interiorb nx ny x y then GSElliptic Rmin psi nx ny dR dZ x y else psi x y.
  Proof.
    destruct GSsparse_rows as (A & E & Hin & Hbd). exists A. split; [exact E|].
    intros x y Hx Hy. unfold mat_apply. rewrite GSElliptic_closed.
    destruct (interiorb_spec nx ny x y) as [Hi|Hi].
    - rewrite (nsum_ext _ _ (fun c => deltas (coef2 (x, y)) c * psi (c / ny)%nat (c mod ny)%nat)%R)
        by (intros c Hc; rewrite Hin by exact Hi; reflexivity).
      unfold interior in Hi. assert (B6 : ny <= x * ny) by nia.
      rewrite (deltas_apply (nx * ny) (coef2 (x, y)) (fun c => psi (c / ny) (c mod ny))).
      + unfold coef2. cbn [map fst snd]. rewrite !lsum_cons, lsum_nil.
        replace (x * ny + y - 1) with (x * ny + (y - 1)) by lia.
        replace (x * ny + y - ny) with ((x - 1) * ny + y) by nia.
        replace (x * ny + y + ny) with ((x + 1) * ny + y) by nia.
        replace (x * ny + y + 1) with (x * ny + (y + 1)) by lia.
        rewrite !row_div, !row_mod by lia. ring.
      + intros kw Hk. unfold coef2 in Hk. cbn in Hk.
        decompose [or] Hk; subst; cbn [fst]; try contradiction; nia.
    - rewrite (nsum_ext _ _ (fun c => (if (c =? x * ny + y)%nat then 1 else 0) * psi (c / ny)%nat (c mod ny)%nat)%R).
      + rewrite (nsum_delta (nx * ny) (x * ny + y) 1%R (fun c => psi (c / ny) (c mod ny))) by (apply row_bound; assumption).
        rewrite row_div, row_mod by assumption. ring.
      + intros c Hc. rewrite Hbd by assumption. unfold eye. rewrite Nat.eqb_sym. nR. reflexivity.
  Qed.
End Second.

(** ** Discrete maximum principle *)
Section MaxPrinciple.
  Open Scope R_scope.
  Variables (Rmin dR dZ : R) (nx ny : nat).
  Hypothesis HR0 : 0 <= Rmin.
  Hypothesis HdR : 0 < dR.
  Hypothesis HdZ : 0 < dZ.

  Lemma stencil_positive x : (1 <= x)%nat -> 0 < 1 / (dR * dR) - 1 / (2 * (Rmin + dR * INR x) * dR)
    /\ 0 < 1 / (dR * dR) + 1 / (2 * (Rmin + dR * INR x) * dR).
  Proof.
    intros Hx. assert (H1 : 1 <= INR x) by (apply (le_INR 1) in Hx; exact Hx).
    assert (Hr : dR <= Rmin + dR * INR x) by nra.
    assert (HA : 0 < / (2 * (Rmin + dR * INR x) * dR)) by (apply Rinv_0_lt_compat; nra).
    set (r := Rmin + dR * INR x) in *.
    assert (HB : / (2 * r * dR) < / (dR * dR)).
    { apply Rinv_lt_contravar; [|nra]. apply Rmult_lt_0_compat; [nra|]. apply Rmult_lt_0_compat; nra. }
    unfold Rdiv. rewrite !Rmult_1_l. split; lra.
  Qed.

  Lemma min_spreads (u : nat -> nat -> R) m x y :
    interior nx ny x y -> GSElliptic Rmin u nx ny dR dZ x y <= 0 ->
    (forall x y, (x < nx)%nat -> (y < ny)%nat -> m <= u x y) -> u x y = m -> u x (y - 1)%nat = m.
  Proof.
    intros Hi HL Hm Hu. rewrite GSElliptic_closed in HL.
    destruct (interiorb_spec nx ny x y); [|contradiction]. unfold interior in Hi.
    destruct (stencil_positive x) as [S1 S2]; [lia|].
    assert (HZ : 0 < 1 / (dZ * dZ)) by (unfold Rdiv; rewrite Rmult_1_l; apply Rinv_0_lt_compat; nra).
    rewrite Hu in HL.
    assert (G1 := Hm x (y - 1)%nat ltac:(lia) ltac:(lia)).
    assert (G2 := Hm x (y + 1)%nat ltac:(lia) ltac:(lia)).
    assert (G3 := Hm (x - 1)%nat y ltac:(lia) ltac:(lia)).
    assert (G4 := Hm (x + 1)%nat y ltac:(lia) ltac:(lia)).
    set (cz := 1 / (dZ * dZ)) in *. set (c := 1 / (dR * dR)) in *.
    set (d := 1 / (2 * (Rmin + dR * INR x) * dR)) in *.
    assert (E : cz * (u x (y - 1)%nat - m) + (c + d) * (u (x - 1)%nat y - m)
              + (c - d) * (u (x + 1)%nat y - m) + cz * (u x (y + 1)%nat - m) <= 0) by lra.
    assert (0 <= (c + d) * (u (x - 1)%nat y - m)) by nra.
    assert (0 <= (c - d) * (u (x + 1)%nat y - m)) by nra.
    assert (0 <= cz * (u x (y + 1)%nat - m)) by nra.
    assert (0 <= cz * (u x (y - 1)%nat - m)) by nra.
    assert (cz * (u x (y - 1)%nat - m) = 0) by lra.
    assert (u x (y - 1)%nat - m = 0) by (apply (Rmult_eq_reg_l cz); lra). lra.
  Qed.

  Lemma min_principle (u : nat -> nat -> R) (b : R) :
    (forall x y, interior nx ny x y -> GSElliptic Rmin u nx ny dR dZ x y <= 0) ->
    (forall x y, (x < nx)%nat -> (y < ny)%nat -> ~ interior nx ny x y -> b <= u x y) ->
    forall x y, (x < nx)%nat -> (y < ny)%nat -> b <= u x y.
  Proof.
    intros HL Hb.
    assert (HM : forall m, (forall x y, (x < nx)%nat -> (y < ny)%nat -> m <= u x y) ->
             forall y x, (x < nx)%nat -> (y < ny)%nat -> u x y = m -> b <= m).
    { intros m Hm. induction y as [|y IH]; intros x Hx Hy Hu.
      - rewrite <- Hu. apply Hb; auto. unfold interior. lia.
      - destruct (interiorb_spec nx ny x (S y)) as [Hi|Hi].
        + apply (IH x Hx); [lia|]. replace y with (S y - 1)%nat by lia.
          apply min_spreads with (m := m); auto.
        + rewrite <- Hu. apply Hb; auto. }
    intros x y Hx Hy.
    destruct (argmin2_exists nx ny u) as (a & c & Ha & Hc & Hmin); [lia|lia|].
    specialize (HM (u a c) Hmin c a Ha Hc eq_refl). specialize (Hmin x y Hx Hy). lra.
  Qed.
End MaxPrinciple.

Lemma GSElliptic_lin (Rmin : R) u v nx ny dR dZ a b x y :
  GSElliptic Rmin (fun x y => a * u x y + b * v x y)%R nx ny dR dZ x y
  = (a * GSElliptic Rmin u nx ny dR dZ x y + b * GSElliptic Rmin v nx ny dR dZ x y)%R.
Proof. rewrite !GSElliptic_closed. destruct (interiorb nx ny x y); ring. Qed.

Lemma mat_apply_lin (A : arr2 R) u v nx ny a b r :
  mat_apply A (fun x y => a * u x y + b * v x y)%R nx ny r
  = (a * mat_apply A u nx ny r + b * mat_apply A v nx ny r)%R.
Proof.
  unfold mat_apply. rewrite <- !nsum_scal, <- nsum_add. apply nsum_ext. intros i Hi. nR. ring.
Qed.

Lemma spacing_pos (a b : R) n : (a < b)%R -> (2 <= n)%nat -> (0 < (b - a) / INR (n - 1))%R.
Proof.
  intros Hab Hn. apply Rdiv_lt_0_compat; [lra|]. apply lt_0_INR. lia.
Qed.

Section WellPosed.
  Open Scope R_scope.
  Variables (Rmin Rmax Zmin Zmax : R) (nx ny : nat).
  Hypothesis HR0 : 0 <= Rmin.
  Hypothesis HR : Rmin < Rmax.
  Hypothesis HZ : Zmin < Zmax.
  Hypothesis Hnx : (2 <= nx)%nat.
  Hypothesis Hny : (2 <= ny)%nat.
  Variable A : arr2 R.
  Hypothesis HA : GSsparse Rmin Rmax Zmin Zmax nx ny = Ok A.

  Lemma A_apply u x y : (x < nx)%nat -> (y < ny)%nat ->
      mat_apply A u nx ny (x * ny + y)
      = if interiorb nx ny x y then GSElliptic Rmin u nx ny ((Rmax - Rmin) / INR (nx - 1)) ((Zmax - Zmin) / INR (ny - 1)) x y else u x y.
  Proof.
    destruct (GSsparse_apply Rmin Rmax Zmin Zmax nx ny u) as (A' & E & H).
    rewrite HA in E. injection E as <-. apply H.
  Qed.

  Lemma wp_sign (u : arr2 R) :
    (forall x y, interior nx ny x y -> mat_apply A u nx ny (x * ny + y) <= 0) ->
    forall b, (forall x y, (x < nx)%nat -> (y < ny)%nat -> ~ interior nx ny x y ->
        b <= mat_apply A u nx ny (x * ny + y)) ->
    forall x y, (x < nx)%nat -> (y < ny)%nat -> b <= u x y.
  Proof.
    intros Hi b Hb. apply min_principle with (Rmin := Rmin)
      (dR := (Rmax - Rmin) / INR (nx - 1)) (dZ := (Zmax - Zmin) / INR (ny - 1)); auto using spacing_pos.
    - intros x y Hxy. specialize (Hi x y Hxy). unfold interior in Hxy. rewrite A_apply in Hi by lia.
      destruct (interiorb_spec nx ny x y); [exact Hi|contradiction].
    - intros x y Hx Hy Hn. specialize (Hb x y Hx Hy Hn). rewrite A_apply in Hb by assumption.
      destruct (interiorb_spec nx ny x y); [contradiction|exact Hb].
  Qed.

  Lemma wp_bounds (u : arr2 R) lo hi :
    (forall x y, interior nx ny x y -> mat_apply A u nx ny (x * ny + y) = 0) ->
    (forall x y, (x < nx)%nat -> (y < ny)%nat -> ~ interior nx ny x y -> lo <= mat_apply A u nx ny (x * ny + y) <= hi) ->
    forall x y, (x < nx)%nat -> (y < ny)%nat -> lo <= u x y <= hi.
  Proof.
    intros Hi Hb x y Hx Hy. split.
    - apply wp_sign; auto.
      + intros a c Hac. rewrite (Hi a c Hac). lra.
      + intros a c Ha Hc Hn. apply Hb; auto.
    - cut (- hi <= (-1) * u x y + 0 * u x y); [lra|].
      apply (wp_sign (fun x y => (-1) * u x y + 0 * u x y)); auto.
      + intros a c Hac. rewrite mat_apply_lin, (Hi a c Hac). lra.
      + intros a c Ha Hc Hn. rewrite mat_apply_lin. specialize (Hb a c Ha Hc Hn). lra.
  Qed.

  Lemma wp_unique (u v : arr2 R) :
    (forall r, (r < nx * ny)%nat -> mat_apply A u nx ny r = mat_apply A v nx ny r) ->
    forall x y, (x < nx)%nat -> (y < ny)%nat -> u x y = v x y.
  Proof.
    intros He x y Hx Hy.
    cut (0 <= 1 * u x y + (-1) * v x y <= 0); [lra|].
    apply (wp_bounds (fun x y => 1 * u x y + (-1) * v x y)); auto.
    - intros a c Hac. unfold interior in Hac. rewrite mat_apply_lin, He by (apply row_bound; lia). lra.
    - intros a c Ha Hc Hn. rewrite mat_apply_lin, He by (apply row_bound; lia). lra.
  Qed.

  Lemma wp_solvable (b : nat -> R) : exists u : arr2 R,
    forall r, (r < nx * ny)%nat -> mat_apply A u nx ny r = b r.
  Proof.
    assert (Hrow : forall r, (r < nx * ny)%nat -> (r / ny < nx /\ r mod ny < ny)%nat /\ r = (r / ny * ny + r mod ny)%nat).
    { intros r Hr. assert (H1 : (ny <> 0)%nat) by lia. assert (H2 := Nat.div_mod r ny H1).
      assert (H3 := Nat.mod_upper_bound r ny H1). split; [split; [|exact H3]|lia].
      apply Nat.div_lt_upper_bound; lia. }
    assert (Hc : forall x r, (r < nx * ny)%nat ->
      mat_apply A (fun a c => x (a * ny + c)%nat) nx ny r = mv (nx * ny) A x r).
    { intros x r Hr. unfold mat_apply, mv. apply nsum_ext. intros c Hc.
      destruct (Hrow c Hc) as (_ & E). rewrite <- E. reflexivity. }
    destruct (injective_solvable (nx * ny) A) with (b := b) as (x & Hx).
    - intros x Hx j Hj. destruct (Hrow j Hj) as ([H1 H2] & E). rewrite E.
      apply (wp_unique (fun a c => x (a * ny + c)%nat) (fun _ _ => 0)); auto.
      intros r Hr. rewrite Hc, Hx by exact Hr. unfold mat_apply. symmetry. apply nsum_zero.
      intros i Hi. nR. ring.
    - exists (fun a c => x (a * ny + c)%nat). intros r Hr. rewrite Hc by exact Hr. apply Hx. exact Hr.
  Qed.
End WellPosed.

(** ** Green's functions *)
Section GreensLemmas.
  Open Scope R_scope.
  Variables ellipk ellipe : R -> R.
  Notation G := (Greens ellipk ellipe).

  Lemma Greens_sym Rc Zc r z : G Rc Zc r z = G r z Rc Zc.
  Proof.
    unfold Greens. replace (4 * r * Rc / ((r + Rc) ^ 2 + (z - Zc) ^ 2))
      with (4 * Rc * r / ((Rc + r) ^ 2 + (Zc - z) ^ 2)).
    - rewrite (Rmult_comm r Rc). reflexivity.
    - f_equal; [ring|f_equal; ring].
  Qed.
  Lemma Greens_shift Rc Zc r z s : G Rc (Zc + s) r (z + s) = G Rc Zc r z.
  Proof. unfold Greens. replace (z + s - (Zc + s)) with (z - Zc) by ring. reflexivity. Qed.
  Lemma Greens_even Rc Zc r z : G Rc (- Zc) r (- z) = G Rc Zc r z.
  Proof.
    unfold Greens. replace ((- z - - Zc) ^ 2) with ((z - Zc) ^ 2) by ring. reflexivity.
  Qed.
  Lemma Greens_scale Rc Zc r z s : 0 < s -> 0 <= r * Rc -> (r + Rc) ^ 2 + (z - Zc) ^ 2 <> 0 ->
    G (s * Rc) (s * Zc) (s * r) (s * z) = s * G Rc Zc r z.
  Proof.
    intros Hs Hr Hd. unfold Greens.
    replace (4 * (s * r) * (s * Rc) / ((s * r + s * Rc) ^ 2 + (s * z - s * Zc) ^ 2))
      with (4 * r * Rc / ((r + Rc) ^ 2 + (z - Zc) ^ 2)).
    - replace (s * r * (s * Rc)) with (s * s * (r * Rc)) by ring.
      rewrite sqrt_mult_alt by nra. rewrite (sqrt_square s) by lra. unfold Rdiv. ring.
    - replace ((s * r + s * Rc) ^ 2 + (s * z - s * Zc) ^ 2) with (s * s * ((r + Rc) ^ 2 + (z - Zc) ^ 2)) by ring.
      field. split; [exact Hd|lra].
  Qed.
  Notation Br := (GreensBr ellipk ellipe).
  Notation Bz := (GreensBz ellipk ellipe).
  Lemma GreensBr_odd eps Rc Zc r d : Br eps Rc Zc r (Zc - d) = - Br eps Rc Zc r (Zc + d).
  Proof.
    unfold GreensBr.
    assert (E : forall t, G Rc Zc r (Zc - t) = G Rc Zc r (Zc + t)).
    { intros t. rewrite <- (Greens_even Rc Zc r (Zc - t)).
      rewrite <- (Greens_shift Rc (- Zc) r (- (Zc - t)) (2 * Zc)).
      f_equal; ring. }
    replace (Zc - d - eps) with (Zc - (d + eps)) by ring.
    replace (Zc - d + eps) with (Zc - (d - eps)) by ring.
    rewrite !E. replace (Zc + (d + eps)) with (Zc + d + eps) by ring.
    replace (Zc + (d - eps)) with (Zc + d - eps) by ring. unfold Rdiv. ring.
  Qed.
  Lemma GreensBr_midplane eps Rc Zc r : Br eps Rc Zc r Zc = 0.
  Proof.
    assert (H := GreensBr_odd eps Rc Zc r 0). rewrite Rminus_0_r, Rplus_0_r in H. lra.
  Qed.
  Lemma GreensBz_even eps Rc Zc r d : Bz eps Rc Zc r (Zc - d) = Bz eps Rc Zc r (Zc + d).
  Proof.
    unfold GreensBz.
    assert (E : forall r t, G Rc Zc r (Zc - t) = G Rc Zc r (Zc + t)).
    { intros r0 t. rewrite <- (Greens_even Rc Zc r0 (Zc - t)).
      rewrite <- (Greens_shift Rc (- Zc) r0 (- (Zc - t)) (2 * Zc)).
      f_equal; ring. }
    rewrite !E. reflexivity.
  Qed.
  (** Radial field times radius is antisymmetric under exchange (action = reaction). *)
  Lemma GreensBr_antisym eps R1 Z1 R2 Z2 : eps <> 0 -> R1 <> 0 -> R2 <> 0 ->
    R2 * Br eps R1 Z1 R2 Z2 = - (R1 * Br eps R2 Z2 R1 Z1).
  Proof.
    intros He H1 H2. unfold GreensBr.
    rewrite (Greens_sym R2 Z2 R1 (Z1 - eps)), (Greens_sym R2 Z2 R1 (Z1 + eps)).
    rewrite <- (Greens_shift R1 (Z1 - eps) R2 Z2 eps), <- (Greens_shift R1 (Z1 + eps) R2 Z2 (- eps)).
    replace (Z1 - eps + eps) with Z1 by ring. replace (Z1 + eps + - eps) with Z1 by ring.
    replace (Z2 + - eps) with (Z2 - eps) by ring. field. auto.
  Qed.
End GreensLemmas.

Lemma GS_well_posed : forall (Rmin Rmax Zmin Zmax : R) (nx ny : nat),
  (0 <= Rmin -> Rmin < Rmax -> Zmin < Zmax -> (2 <= nx)%nat -> (2 <= ny)%nat ->
  exists A, GSsparse Rmin Rmax Zmin Zmax nx ny = Ok A /\
  let inner x y := ((1 <= x)%nat /\ (x + 1 < nx)%nat /\ (1 <= y)%nat /\ (y + 1 < ny)%nat) in
  let row u x y := mat_apply A u nx ny (x * ny + y)%nat in
  (forall u v, (forall x y, (x < nx)%nat -> (y < ny)%nat -> row u x y = row v x y) ->
     forall x y, (x < nx)%nat -> (y < ny)%nat -> u x y = v x y) /\
  (forall b : nat -> nat -> R, exists u, forall x y, (x < nx)%nat -> (y < ny)%nat -> row u x y = b x y) /\
  (forall u, (forall x y, inner x y -> row u x y <= 0) ->
     (forall x y, (x < nx)%nat -> (y < ny)%nat -> ~ inner x y -> 0 <= row u x y) ->
     forall x y, (x < nx)%nat -> (y < ny)%nat -> 0 <= u x y) /\
  (forall u lo hi, (forall x y, inner x y -> row u x y = 0) ->
     (forall x y, (x < nx)%nat -> (y < ny)%nat -> ~ inner x y -> lo <= row u x y <= hi) ->
     forall x y, (x < nx)%nat -> (y < ny)%nat -> lo <= u x y <= hi))%R.
Proof.
  intros Rmin Rmax Zmin Zmax nx ny HR0 HR HZ Hnx Hny.
  destruct (GSsparse_apply Rmin Rmax Zmin Zmax nx ny (fun _ _ => 0%R)) as (A & E & _).
  exists A. split; [exact E|]. intros inner row.
  assert (Hrow : forall r, (r < nx * ny)%nat -> (r / ny < nx /\ r mod ny < ny)%nat /\ r = (r / ny * ny + r mod ny)%nat).
  { intros r Hr. assert (H1 : (ny <> 0)%nat) by lia. assert (H2 := Nat.div_mod r ny H1).
    assert (H3 := Nat.mod_upper_bound r ny H1). split; [split; [|exact H3]|lia].
    apply Nat.div_lt_upper_bound; lia. }
  split; [|split; [|split]].
  - intros u v Huv. apply (wp_unique Rmin Rmax Zmin Zmax nx ny HR0 HR HZ Hnx Hny A E).
    intros r Hr. destruct (Hrow r Hr) as ((H1 & H2) & Er). rewrite Er. apply Huv; assumption.
  - intros b. destruct (wp_solvable Rmin Rmax Zmin Zmax nx ny HR0 HR HZ Hnx Hny A E (fun r => b (r / ny) (r mod ny)))
      as (u & Hu). exists u. intros x y Hx Hy. unfold row. rewrite Hu by (apply row_bound; assumption).
    rewrite row_div, row_mod by assumption. reflexivity.
  - intros u Hi Hb. apply (wp_sign Rmin Rmax Zmin Zmax nx ny HR0 HR HZ Hnx Hny A E u Hi 0 Hb).
  - intros u lo hi Hi Hb. apply (wp_bounds Rmin Rmax Zmin Zmax nx ny HR0 HR HZ Hnx Hny A E u lo hi Hi Hb).
Qed.
