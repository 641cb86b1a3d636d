(** Multigrid applied to the Laplace and Grad-Shafranov operators. *)
From Coq Require Import List Arith ZArith Bool Reals Lra Lia ZifyNat.
From Verif Require Import Py Num Numpy Linalg GradShafranov GradShafranovProofs Multigrid MultigridProofs.
Import ListNotations.
Ltac Zify.zify_post_hook ::= Z.div_mod_to_equations.
Local Open Scope R_scope.

(** ** LaplaceSparse is LaplacianOp *)
Lemma Laplacian_closed (f : arr2 R) nx ny dx dy x y :
  LaplacianOp_call f nx ny dx dy x y =
  if interiorb nx ny x y then
    (f (x - 1)%nat y - 2 * f x y + f (x + 1)%nat y) / (dx * dx)
    + (f x (y - 1)%nat - 2 * f x y + f x (y + 1)%nat) / (dy * dy)
  else 0.
Proof.
  unfold LaplacianOp_call.
  rewrite (fill_outer (fun x y => ((f (x - 1)%nat y - n2 * f x y + f (x + 1)%nat y) / nsqr dx
                    + (f x (y - 1)%nat - n2 * f x y + f x (y + 1)%nat) / nsqr dy)%num)), !existsb_range.
  fold (interiorb nx ny x y). reflexivity.
Qed.

Section Laplace.
  Variables (Lx Ly : R) (nx ny : nat).
  Let dx := Lx / INR (nx - 1).
  Let dy := Ly / INR (ny - 1).

  Definition coefL (p : nat * nat) : list (nat * R) :=
    let row := (fst p * ny + snd p)%nat in
    [(row, - (2) / (dx * dx) - 2 / (dy * dy)); ((row - 1)%nat, 1 / (dy * dy)); ((row + 1)%nat, 1 / (dy * dy));
     ((row - ny)%nat, 1 / (dx * dx)); ((row + ny)%nat, 1 / (dx * dx))].

  Lemma LaplaceSparse_rows : exists A, LaplaceSparse Lx Ly nx ny = Ok A /\
    (forall x y, interior nx ny x y -> forall j, A (x * ny + y)%nat j = deltas (coefL (x, y)) j) /\
    (forall x y, (x < nx)%nat -> (y < ny)%nat -> ~ interior nx ny x y ->
       forall j, A (x * ny + y)%nat j = @eye R _ (x * ny + y)%nat j).
  Proof.
    unfold LaplaceSparse. rewrite foldM_nested. fold (cells nx ny).
    match goal with |- context [foldM ?f (cells nx ny) eye] => set (body := f) end.
    destruct (foldM_rows body (rowof ny)
      (fun p a j => if ((j =? rowof ny p - 1) || (j =? rowof ny p - ny) || (j =? rowof ny p)
                       || (j =? rowof ny p + ny) || (j =? rowof ny p + 1))%nat then deltas (coefL p) j else a j) (cells nx ny))
      with (A := @eye R _) as (A & E & HA & HB).
    - intros A [x y] Hin. apply in_cells in Hin. unfold interior in Hin. cbn [fst snd] in Hin.
      assert (B1 : (x * ny + y - 1 < nx * ny)%nat) by nia.
      assert (B2 : (x * ny + y - ny < nx * ny)%nat) by nia.
      assert (B3 : (x * ny + y < nx * ny)%nat) by nia.
      assert (B4 : (x * ny + y + ny < nx * ny)%nat) by nia.
      assert (B5 : (x * ny + y + 1 < nx * ny)%nat) by nia.
      assert (B6 : (ny <= x * ny)%nat) by nia.
      unfold body, rowof. cbn [fst snd].
      rewrite (lil_set_nat _ _ (x * ny + y) (x * ny + y)) by (try reflexivity; lia). cbn [bind].
      rewrite (lil_set_nat _ _ (x * ny + y) (x * ny + y - 1)) by (try reflexivity; lia). cbn [bind].
      rewrite (lil_set_nat _ _ (x * ny + y) (x * ny + y + 1)) by (try reflexivity; lia). cbn [bind].
      rewrite (lil_set_nat _ _ (x * ny + y) (x * ny + y - ny)) by (try reflexivity; lia). cbn [bind].
      rewrite (lil_set_nat _ _ (x * ny + y) (x * ny + y + ny)) by (try reflexivity; lia).
      eexists. split; [reflexivity|]. split.
      + intros j. unfold upd2. rewrite Nat.eqb_refl. cbn [andb].
        unfold deltas, coefL. cbn [map fst snd]. rewrite !lsum_cons, lsum_nil. nR.
        rewrite <- !INR_IZR_INZ. fold dx dy. set (row := (x * ny + y)%nat) in *.
        destruct (Nat.eqb_spec j (row - 1)), (Nat.eqb_spec j (row - ny)), (Nat.eqb_spec j row),
          (Nat.eqb_spec j (row + ny)), (Nat.eqb_spec j (row + 1)); try lia; cbn [orb]; try ring; reflexivity.
      + intros r j Hr. unfold upd2. apply Nat.eqb_neq in Hr. rewrite Hr. reflexivity.
    - intros c a b Hab j. destruct (_ || _ || _ || _ || _); auto.
    - apply cells_NoDup.
    - exists A. split; [exact E|]. split.
      + intros x y Hi j. specialize (HA (x, y) (proj2 (in_cells nx ny (x, y)) Hi) j).
        unfold rowof in HA. cbn [fst snd] in HA. rewrite HA.
        unfold interior in Hi. assert (B6 : (ny <= x * ny)%nat) by nia.
        unfold deltas, coefL, eye. cbn [map fst snd]. rewrite !lsum_cons, lsum_nil.
        set (row := (x * ny + y)%nat) in *.
        destruct (Nat.eqb_spec j (row - 1)), (Nat.eqb_spec j (row - ny)), (Nat.eqb_spec j row),
          (Nat.eqb_spec j (row + ny)), (Nat.eqb_spec j (row + 1)); try lia; cbn [orb]; try reflexivity.
        destruct (Nat.eqb_spec row j); [congruence|]. nR. ring.
      + intros x y Hx Hy Hni j. apply HB. rewrite in_map_iff. intros ([x' y'] & Er & Hin).
        apply in_cells in Hin. unfold rowof in Er. cbn [fst snd] in *.
        destruct (row_inj ny x' y' x y) as [-> ->]; [unfold interior in Hin; lia|lia|exact Er|].
        contradiction.
  Qed.

  Lemma LaplaceSparse_apply psi : exists A, LaplaceSparse Lx Ly nx ny = Ok A /\
    forall x y, (x < nx)%nat -> (y < ny)%nat ->
      mat_apply A psi nx ny (x * ny + y)
      = if interiorb nx ny x y then LaplacianOp_call psi nx ny dx dy x y else psi x y.
  Proof.
    destruct LaplaceSparse_rows as (A & E & Hin & Hbd). exists A. split; [exact E|].
    intros x y Hx Hy. unfold mat_apply. rewrite Laplacian_closed.
    destruct (interiorb_spec nx ny x y) as [Hi|Hi].
    - rewrite (nsum_ext _ _ (fun c => deltas (coefL (x, y)) c * psi (c / ny)%nat (c mod ny)%nat)%R)
        by (intros c Hc; rewrite Hin by exact Hi; reflexivity).
      unfold interior in Hi. assert (B6 : (ny <= x * ny)%nat) by nia.
      rewrite (deltas_apply (nx * ny) (coefL (x, y)) (fun c => psi (c / ny)%nat (c mod ny)%nat)).
      + unfold coefL. cbn [map fst snd]. rewrite !lsum_cons, lsum_nil.
        replace (x * ny + y - 1)%nat with (x * ny + (y - 1))%nat by lia.
        replace (x * ny + y - ny)%nat with ((x - 1) * ny + y)%nat by nia.
        replace (x * ny + y + ny)%nat with ((x + 1) * ny + y)%nat by nia.
        replace (x * ny + y + 1)%nat with (x * ny + (y + 1))%nat by lia.
        rewrite !row_div, !row_mod by lia. unfold Rdiv. ring.
      + intros kw Hk. unfold coefL in Hk. cbn in Hk.
        decompose [or] Hk; subst; cbn [fst]; try contradiction; nia.
    - rewrite (nsum_ext _ _ (fun c => (if (c =? x * ny + y)%nat then 1 else 0) * psi (c / ny)%nat (c mod ny)%nat)%R).
      + rewrite (nsum_delta (nx * ny) (x * ny + y) 1%R (fun c => psi (c / ny)%nat (c mod ny)%nat)) by (apply row_bound; assumption).
        rewrite row_div, row_mod by assumption. ring.
      + intros c Hc. rewrite Hbd by assumption. unfold eye. rewrite Nat.eqb_sym. nR. reflexivity.
  Qed.
End Laplace.

(** ** Matrix-free V-cycles *)
Definition zero_on_boundary (A : operator (T := R)) : Prop :=
  forall f nx ny dx dy x y, ~ interior nx ny x y -> op_call A f nx ny dx dy x y = 0.
Definition op_linear (A : operator (T := R)) : Prop :=
  forall nx ny dx dy a a' u u' v, lc2 nx ny a a' u u' v ->
    lc2 nx ny a a' (op_call A u nx ny dx dy) (op_call A u' nx ny dx dy) (op_call A v nx ny dx dy).

Lemma Laplacian_zero : zero_on_boundary LaplacianOp.
Proof.
  intros f nx ny dx dy x y Hi. cbn [op_call LaplacianOp]. rewrite Laplacian_closed.
  destruct (interiorb_spec nx ny x y); [contradiction|reflexivity].
Qed.
Lemma Laplacian_linear : op_linear LaplacianOp.
Proof.
  intros nx ny dx dy a a' u u' v Hl x y Hx Hy. cbn [op_call LaplacianOp]. rewrite !Laplacian_closed.
  destruct (interiorb_spec nx ny x y) as [Hi|Hi]; [|lra]. unfold interior in Hi.
  rewrite !Hl by lia. unfold Rdiv. ring.
Qed.
Definition GSop_obj (Rmin : R) : operator := MkOp (GSElliptic Rmin) GSElliptic_diag.
Lemma GSE_zero Rmin : zero_on_boundary (GSop_obj Rmin).
Proof.
  intros f nx ny dx dy x y Hi. cbn [op_call GSop_obj]. rewrite GSElliptic_closed.
  destruct (interiorb_spec nx ny x y); [contradiction|reflexivity].
Qed.
Lemma GSE_linear Rmin : op_linear (GSop_obj Rmin).
Proof.
  intros nx ny dx dy a a' u u' v Hl x y Hx Hy. cbn [op_call GSop_obj]. rewrite !GSElliptic_closed.
  destruct (interiorb_spec nx ny x y) as [Hi|Hi]; [|lra]. unfold interior in Hi.
  rewrite !Hl by lia. unfold Rdiv. ring.
Qed.

(** Grids that can be halved [n] times. *)
Fixpoint halvable_n (n nx ny : nat) : Prop :=
  match n with O => True | S n' => halvable nx ny /\ halvable_n n' (half nx) (half ny) end.

Lemma interp_boundary (c : arr2 R) nx ny x y : (1 <= nx)%nat -> (1 <= ny)%nat ->
  ~ interior (2 * (nx - 1) + 1) (2 * (ny - 1) + 1) x y -> interp_arr c nx ny x y = 0.
Proof.
  intros Hnx Hny Hi. rewrite interp_closed. unfold refine1.
  assert (Hz : forall a b, ~ interior nx ny a b -> zero_edge nx ny c a b = 0).
  { intros a b Hab. unfold zero_edge. destruct (interiorb_spec nx ny a b); [contradiction|reflexivity]. }
  unfold interior in *.
  destruct (Nat.even x) eqn:Ex, (Nat.even y) eqn:Ey;
    repeat match goal with
    | H : Nat.even _ = true |- _ => apply Nat.even_spec in H; destruct H as (? & H)
    | H : Nat.even ?n = false |- _ =>
        let H' := fresh in assert (H' : Nat.odd n = true) by (rewrite <- Nat.negb_even, H; reflexivity);
        clear H; apply Nat.odd_spec in H'; destruct H' as (? & H')
    end; subst; rewrite !Hz by lia; lra.
Qed.

Lemma smooth_boundary A n : zero_on_boundary A -> forall nx ny x b dx dy niter, (1 <= nx)%nat -> (1 <= ny)%nat ->
  halvable_n n nx ny ->
  (forall i j, (i < nx)%nat -> (j < ny)%nat -> ~ interior nx ny i j -> b i j = 0) ->
  exists x', smoothVcycle A nx ny x b dx dy niter n = Ok x' /\
    forall i j, (i < nx)%nat -> (j < ny)%nat -> ~ interior nx ny i j -> x' i j = x i j.
Proof.
  intros HA. induction n as [|n IH]; intros nx ny x b dx dy niter Hnx Hny Hh Hb.
  - cbn [smoothVcycle bind]. eexists. split; [reflexivity|].
    set (P := fun x' : arr2 R => forall i j, (i < nx)%nat -> (j < ny)%nat -> ~ interior nx ny i j -> x' i j = x i j).
    change (P (iter niter (fun x0 => smoothJacobi A nx ny x0 b dx dy) (iter niter (fun x0 => smoothJacobi A nx ny x0 b dx dy) x))).
    assert (HP : forall u, P u -> P (smoothJacobi A nx ny u b dx dy)).
    { intros u Hu i j Hi Hj Hn. unfold smoothJacobi. nR. rewrite (HA _ _ _ _ _ _ _ Hn), (Hb i j Hi Hj Hn), (Hu i j Hi Hj Hn).
      unfold Rdiv. ring. }
    apply (iter_inv P); [exact HP|]. apply (iter_inv P); [exact HP|]. intros i j _ _ _. reflexivity.
  - cbn [smoothVcycle]. destruct Hh as (Hh & Hh').
    set (P := fun x' : arr2 R => forall i j, (i < nx)%nat -> (j < ny)%nat -> ~ interior nx ny i j -> x' i j = x i j).
    assert (HP : forall u, P u -> P (smoothJacobi A nx ny u b dx dy)).
    { intros u Hu i j Hi Hj Hn. unfold smoothJacobi. nR. rewrite (HA _ _ _ _ _ _ _ Hn), (Hb i j Hi Hj Hn), (Hu i j Hi Hj Hn).
      unfold Rdiv. ring. }
    set (x1 := iter niter _ x). assert (H1 : P x1) by (apply (iter_inv P); [exact HP|intros i j _ _ _; reflexivity]).
    set (e := fun i j => (b i j - op_call A x1 nx ny dx dy i j)%num).
    destruct (restrict_shape e nx ny false Hh) as (o & Eo). rewrite Eo.
    destruct (IH (half nx) (half ny) zeros2 o (dx * n2)%num (dy * n2)%num niter) as (Cx & EC & HC).
    + unfold half; lia.
    + unfold half; lia.
    + exact Hh'.
    + intros i j Hi Hj Hn. assert (Ho : restr_arr e nx ny false i j = o i j) by (unfold restr_arr; rewrite Eo; reflexivity).
      rewrite <- Ho, restrict_closed by exact Hh.
      destruct (interiorb_spec (half nx) (half ny) i j); [contradiction|reflexivity].
    + rewrite EC. cbn [bind]. unfold interpolate. rewrite (double_half nx Hnx (proj1 Hh)), (double_half ny Hny (proj2 Hh)).
      rewrite !Nat.eqb_refl. cbn [andb bind]. eexists. split; [reflexivity|].
      apply (iter_inv P); [exact HP|]. intros i j Hi Hj Hn. nR. rewrite (H1 i j Hi Hj Hn).
      fold (interp_arr Cx (half nx) (half ny)).
      change (x i j + interp_arr Cx (half nx) (half ny) i j = x i j).
      rewrite interp_boundary; [lra|unfold half; lia|unfold half; lia|].
      rewrite (double_half nx Hnx (proj1 Hh)), (double_half ny Hny (proj2 Hh)). exact Hn.
Qed.

Lemma smooth_fixed A n : op_linear A -> forall nx ny x b dx dy niter, (1 <= nx)%nat -> (1 <= ny)%nat ->
  halvable_n n nx ny ->
  (forall i j, (i < nx)%nat -> (j < ny)%nat -> op_call A x nx ny dx dy i j = b i j) ->
  exists x', smoothVcycle A nx ny x b dx dy niter n = Ok x' /\
    forall i j, (i < nx)%nat -> (j < ny)%nat -> x' i j = x i j.
Proof.
  intros HA. induction n as [|n IH]; intros nx ny x b dx dy niter Hnx Hny Hh Hb;
    set (P := fun x' : arr2 R => forall i j, (i < nx)%nat -> (j < ny)%nat -> x' i j = x i j);
    (assert (Hr : forall u, P u -> forall i j, (i < nx)%nat -> (j < ny)%nat -> b i j - op_call A u nx ny dx dy i j = 0);
     [intros u Hu i j Hi Hj; rewrite <- (Hb i j Hi Hj);
      assert (E := HA nx ny dx dy 1 0 x x u ltac:(intros a c Ha Hc; rewrite (Hu a c Ha Hc); lra) i j Hi Hj); lra|]);
    (assert (HP : forall u, P u -> P (smoothJacobi A nx ny u b dx dy));
     [intros u Hu i j Hi Hj; unfold smoothJacobi; nR; rewrite (Hr u Hu i j Hi Hj), (Hu i j Hi Hj); unfold Rdiv; ring|]).
  - cbn [smoothVcycle bind]. eexists. split; [reflexivity|].
    apply (iter_inv P); [exact HP|]. apply (iter_inv P); [exact HP|]. intros i j _ _. reflexivity.
  - cbn [smoothVcycle]. destruct Hh as (Hh & Hh').
    set (x1 := iter niter _ x). assert (H1 : P x1) by (apply (iter_inv P); [exact HP|intros i j _ _; reflexivity]).
    set (e := fun i j => (b i j - op_call A x1 nx ny dx dy i j)%num).
    destruct (restrict_shape e nx ny false Hh) as (o & Eo). rewrite Eo.
    destruct (IH (half nx) (half ny) zeros2 o (dx * n2)%num (dy * n2)%num niter) as (Cx & EC & HC).
    + unfold half; lia.
    + unfold half; lia.
    + exact Hh'.
    + intros i j Hi Hj. assert (Ho : restr_arr e nx ny false i j = o i j) by (unfold restr_arr; rewrite Eo; reflexivity).
      rewrite <- Ho, restrict_closed by exact Hh.
      assert (Hz : lc2 (half nx) (half ny) 0 0 zeros2 zeros2 zeros2).
      { intros a c _ _. change (0 = 0 * 0 + 0 * 0). lra. }
      rewrite (HA (half nx) (half ny) (dx * n2)%num (dy * n2)%num 0 0 zeros2 zeros2 zeros2 Hz i j Hi Hj).
      destruct (interiorb_spec (half nx) (half ny) i j) as [Hin|Hin]; [|lra].
      unfold interior, half in Hin. unfold e. nR. rewrite (Hr x1 H1) by lia. lra.
    + rewrite EC. cbn [bind]. unfold interpolate. rewrite (double_half nx Hnx (proj1 Hh)), (double_half ny Hny (proj2 Hh)).
      rewrite !Nat.eqb_refl. cbn [andb bind]. eexists. split; [reflexivity|].
      apply (iter_inv P); [exact HP|]. intros i j Hi Hj. nR. rewrite (H1 i j Hi Hj).
      change (x i j + interp_arr Cx (half nx) (half ny) i j = x i j).
      rewrite (interp_lc (half nx) (half ny) 0 0 (fun _ _ => 0) (fun _ _ => 0) Cx); [lra|].
      intros a c Ha Hc. rewrite (HC a c Ha Hc). unfold zeros2; nR. lra.
Qed.

Lemma smooth_not_halvable A nx ny x b dx dy niter n : (2 <= nx)%nat -> (2 <= ny)%nat -> ~ halvable nx ny ->
  forall e, smoothVcycle (T := R) A nx ny x b dx dy niter (S n) <> Ok e.
Proof.
  intros Hnx Hny Hh e. cbn [smoothVcycle]. rewrite restrict_odd by exact Hh.
  destruct (smoothVcycle A nx ny zeros2 _ _ _ niter n) as [Cx|err]; cbn [bind]; [|discriminate].
  unfold interpolate. destruct (Nat.eqb_spec (2 * (nx - 1) + 1) nx); [lia|]. cbn [andb bind]. discriminate.
Qed.

(** ** Jacobi iteration for the Grad-Shafranov matrix converges *)
Lemma Rabs_between a b : Rabs a <= b -> - b <= a <= b.
Proof. intros H. assert (H1 := Rle_abs a). assert (H2 := Rle_abs (- a)). rewrite Rabs_Ropp in H2. lra. Qed.

Section JacobiConv.
  Variables (Rmin Rmax Zmin Zmax : R) (nx ny : nat).
  Hypothesis HR0 : 0 <= Rmin.
  Hypothesis HR : Rmin < Rmax.
  Hypothesis HZ : Zmin < Zmax.
  Hypothesis Hnx : (2 <= nx)%nat.
  Hypothesis Hny : (2 <= ny)%nat.
  Variable A : arr2 R.
  Hypothesis HA : GSsparse Rmin Rmax Zmin Zmax nx ny = Ok A.
  Let dR := (Rmax - Rmin) / INR (nx - 1).
  Let dZ := (Zmax - Zmin) / INR (ny - 1).
  Let H := Zmax - Zmin.
  Let S := 1 / (dR * dR) + 1 / (dZ * dZ).
  Let w (y : nat) := H ^ 2 - (Zmin + dZ * INR y - (Zmin + Zmax) / 2) ^ 2.
  Let rho := 1 - 1 / (H ^ 2 * S).

  Lemma jc_dR : 0 < dR. Proof. apply spacing_pos; assumption. Qed.
  Lemma jc_dZ : 0 < dZ. Proof. apply spacing_pos; assumption. Qed.
  Lemma jc_S : 0 < S.
  Proof.
    assert (H1 := jc_dR). assert (H2 := jc_dZ). unfold S.
    assert (0 < 1 / (dR * dR)) by (apply Rdiv_lt_0_compat; [lra|apply Rmult_lt_0_compat; lra]).
    assert (0 < 1 / (dZ * dZ)) by (apply Rdiv_lt_0_compat; [lra|apply Rmult_lt_0_compat; lra]). lra.
  Qed.
  Lemma jc_H : 0 < H. Proof. unfold H. lra. Qed.

  Lemma jc_w y : (y < ny)%nat -> 3 / 4 * H ^ 2 <= w y <= H ^ 2.
  Proof.
    intros Hy. unfold w.
    assert (Hz : 0 <= dZ * INR y <= H).
    { assert (H1 := jc_dZ). split; [apply Rmult_le_pos; [lra|apply pos_INR]|].
      replace H with (dZ * INR (ny - 1)).
      - apply Rmult_le_compat_l; [lra|]. apply le_INR. lia.
      - unfold dZ, H. field. apply not_0_INR. lia. }
    set (t := dZ * INR y) in *. replace (Zmin + t - (Zmin + Zmax) / 2) with (t - H / 2) by (unfold H; lra).
    split; [|assert (Hs := pow2_ge_0 (t - H / 2)); lra]. nra.
  Qed.
  Lemma jc_w_diff y : (1 <= y)%nat -> w (y - 1) + w (y + 1) - 2 * w y = - (2) * (dZ * dZ).
  Proof. intros Hy. unfold w. rewrite minus_INR, plus_INR by exact Hy. simpl (INR 1). ring. Qed.

  Lemma jc_rho : 0 <= rho < 1.
  Proof.
    assert (HS := jc_S). assert (Hp := jc_H). assert (Hz := jc_dZ). assert (Hr := jc_dR).
    assert (HH : 0 < H ^ 2) by (apply pow_lt; exact Hp).
    assert (H1 : 1 <= H ^ 2 * S).
    { unfold S. assert (0 < 1 / (dR * dR)) by (apply Rdiv_lt_0_compat; [lra|apply Rmult_lt_0_compat; lra]).
      assert (1 <= H ^ 2 * (1 / (dZ * dZ))); [|nra].
      replace (H ^ 2 * (1 / (dZ * dZ))) with (INR (ny - 1) ^ 2).
      - assert (1 <= INR (ny - 1)) by (apply (le_INR 1); lia). nra.
      - unfold dZ. unfold H in *. field. split; [apply not_0_INR; lia|lra]. }
    unfold rho. assert (0 < 1 / (H ^ 2 * S)) by (apply Rdiv_lt_0_compat; lra).
    assert (1 / (H ^ 2 * S) <= 1); [|lra].
    apply Rmult_le_reg_r with (H ^ 2 * S); [lra|]. unfold Rdiv. rewrite Rmult_assoc, Rinv_l; lra.
  Qed.

  Lemma jc_diag x y : (x < nx)%nat -> (y < ny)%nat ->
    A (x * ny + y)%nat (x * ny + y)%nat = if interiorb nx ny x y then - (2) * S else 1.
  Proof.
    intros Hx Hy. destruct (GSsparse_rows Rmin Rmax Zmin Zmax nx ny) as (A' & E & Hi & Hb).
    rewrite HA in E. injection E as <-.
    destruct (interiorb_spec nx ny x y) as [Hin|Hin].
    - rewrite (Hi x y Hin). unfold deltas, coef2. cbn [map fst snd]. rewrite !lsum_cons, lsum_nil.
      unfold interior in Hin. assert (B : (ny <= x * ny)%nat) by nia. set (row := (x * ny + y)%nat) in *.
      destruct (Nat.eqb_spec row (row - 1)), (Nat.eqb_spec row (row - ny)), (Nat.eqb_spec row row),
        (Nat.eqb_spec row (row + ny)), (Nat.eqb_spec row (row + 1)); try lia. fold dR dZ. unfold S. ring.
    - rewrite (Hb x y Hx Hy Hin). unfold eye. rewrite Nat.eqb_refl. reflexivity.
  Qed.

  Lemma jc_step (e : arr2 R) K : 0 <= K ->
    (forall x y, (x < nx)%nat -> (y < ny)%nat -> Rabs (e x y) <= K * w y) ->
    forall x y, (x < nx)%nat -> (y < ny)%nat ->
      Rabs (e x y - mat_apply A e nx ny (x * ny + y) / A (x * ny + y)%nat (x * ny + y)%nat) <= rho * K * w y.
  Proof.
    intros HK He x y Hx Hy. assert (HS := jc_S). assert (Hr := jc_rho). assert (Hp := jc_H).
    assert (Hw := jc_w y Hy). assert (HH : 0 < H ^ 2) by (apply pow_lt; exact Hp).
    rewrite (A_apply Rmin Rmax Zmin Zmax nx ny A HA) by assumption. fold dR dZ. rewrite (jc_diag x y Hx Hy).
    destruct (interiorb_spec nx ny x y) as [Hin|Hin].
    - rewrite GSElliptic_closed. destruct (interiorb_spec nx ny x y) as [_|]; [|contradiction].
      unfold interior in Hin. destruct (stencil_positive Rmin dR HR0 jc_dR x ltac:(lia)) as (Hm & Hpl).
      set (am := 1 / (dR * dR) - 1 / (2 * (Rmin + dR * INR x) * dR)) in *.
      set (ap := 1 / (dR * dR) + 1 / (2 * (Rmin + dR * INR x) * dR)) in *.
      assert (Hz : 0 < 1 / (dZ * dZ)) by (assert (Q := jc_dZ); apply Rdiv_lt_0_compat; [lra|apply Rmult_lt_0_compat; lra]).
      assert (ES : 2 * S = ap + am + 2 * (1 / (dZ * dZ))) by (unfold S, ap, am; lra).
      assert (EW : w (y - 1) * (1 / (dZ * dZ)) + w (y + 1) * (1 / (dZ * dZ)) = 2 * w y * (1 / (dZ * dZ)) - 2).
      { assert (D := jc_w_diff y ltac:(lia)). assert (Q := jc_dZ).
        replace (w (y - 1) * (1 / (dZ * dZ)) + w (y + 1) * (1 / (dZ * dZ))) with ((w (y-1) + w (y+1) - 2 * w y) * (1 / (dZ * dZ)) + 2 * w y * (1 / (dZ * dZ))) by ring.
        rewrite D. field. lra. }
      set (iz := 1 / (dZ * dZ)) in *.
      set (num := e x (y - 1)%nat * iz + ap * e (x - 1)%nat y + am * e (x + 1)%nat y + e x (y + 1)%nat * iz).
      match goal with |- Rabs ?t <= _ => replace t with (num / (2 * S)) end.
      2:{ unfold num. fold S. field. lra. }
      assert (Hnum : Rabs num <= K * (2 * S * w y - 2)).
      { assert (B1 := He x (y - 1)%nat Hx ltac:(lia)). assert (B2 := He (x - 1)%nat y ltac:(lia) Hy).
        assert (B3 := He (x + 1)%nat y ltac:(lia) Hy). assert (B4 := He x (y + 1)%nat Hx ltac:(lia)).
        apply Rabs_between in B1. apply Rabs_between in B2. apply Rabs_between in B3. apply Rabs_between in B4.
        replace (K * (2 * S * w y - 2)) with (K * w (y - 1)%nat * iz + ap * (K * w y) + am * (K * w y) + K * w (y + 1)%nat * iz).
        2:{ rewrite ES. replace (K * w (y - 1)%nat * iz + ap * (K * w y) + am * (K * w y) + K * w (y + 1)%nat * iz)
              with (K * (w (y - 1)%nat * iz + w (y + 1)%nat * iz) + K * (ap + am) * w y) by ring. rewrite EW. ring. }
        unfold num. apply Rabs_le.
        assert (C1 : - (K * w (y-1)%nat * iz) <= e x (y - 1)%nat * iz <= K * w (y-1)%nat * iz) by nra.
        assert (C2 : - (ap * (K * w y)) <= ap * e (x - 1)%nat y <= ap * (K * w y)) by nra.
        assert (C3 : - (am * (K * w y)) <= am * e (x + 1)%nat y <= am * (K * w y)) by nra.
        assert (C4 : - (K * w (y+1)%nat * iz) <= e x (y + 1)%nat * iz <= K * w (y+1)%nat * iz) by nra.
        lra. }
      unfold Rdiv. rewrite Rabs_mult, (Rabs_right (/ (2 * S))) by (apply Rle_ge, Rlt_le, Rinv_0_lt_compat; lra).
      apply Rle_trans with (K * (2 * S * w y - 2) * / (2 * S)).
      + apply Rmult_le_compat_r; [apply Rlt_le, Rinv_0_lt_compat; lra|exact Hnum].
      + replace (K * (2 * S * w y - 2) * / (2 * S)) with (K * (w y - / S)) by (field; lra).
        replace (rho * K * w y) with (K * (w y - w y * / H ^ 2 * / S)) by (unfold rho; field; split; lra).
        apply Rmult_le_compat_l; [exact HK|].
        assert (w y * / H ^ 2 <= 1).
        { apply Rmult_le_reg_r with (H ^ 2); [lra|]. rewrite Rmult_assoc, Rinv_l; lra. }
        assert (0 < / S) by (apply Rinv_0_lt_compat; lra). nra.
    - replace (e x y - e x y / 1) with 0 by lra. rewrite Rabs_R0.
      apply Rmult_le_pos; [apply Rmult_le_pos; lra|]. lra.
  Qed.

  Lemma ravel_unravel (v : nat -> R) r : (r < nx * ny)%nat -> ravel ny (unravel ny v) r = v r.
  Proof.
    clear -Hny. intros Hr. unfold ravel, unravel. f_equal. rewrite Nat.mul_comm. symmetry. apply Nat.div_mod. lia.
  Qed.

  Lemma jc_iter (xs b : nat -> R) n : (forall r, (r < nx * ny)%nat -> mdot (nx * ny) A xs r = b r) ->
    forall K v, 0 <= K ->
    (forall x y, (x < nx)%nat -> (y < ny)%nat -> Rabs (v (x * ny + y)%nat - xs (x * ny + y)%nat) <= K * w y) ->
    forall x y, (x < nx)%nat -> (y < ny)%nat ->
      Rabs (iter n (jacobi (nx * ny) A b) v (x * ny + y)%nat - xs (x * ny + y)%nat) <= rho ^ n * K * w y.
  Proof.
    intros Hxs. induction n as [|n IH]; intros K v HK Hv x y Hx Hy; cbn [iter].
    - cbn [pow]. rewrite Rmult_1_l. apply Hv; assumption.
    - replace (rho ^ Datatypes.S n * K * w y) with (rho ^ n * (rho * K) * w y) by (cbn [pow]; ring).
      assert (Hr := jc_rho). apply IH; [apply Rmult_le_pos; lra| |exact Hx|exact Hy].
      clear x y Hx Hy. intros x y Hx Hy.
      assert (E := jc_step (unravel ny (fun r => v r - xs r)) K HK Hv x y Hx Hy).
      assert (Hrow := row_bound nx ny x y Hx Hy).
      assert (EM : mat_apply A (unravel ny (fun r => v r - xs r)) nx ny (x * ny + y)
        = mdot (nx * ny) A v (x * ny + y)%nat - b (x * ny + y)%nat).
      { rewrite <- (Hxs _ Hrow).
        replace (mdot (nx * ny) A v (x * ny + y)%nat - mdot (nx * ny) A xs (x * ny + y)%nat)
          with (1 * mdot (nx * ny) A v (x * ny + y)%nat + (-1) * mdot (nx * ny) A xs (x * ny + y)%nat) by ring.
        rewrite <- (mdot_lc (nx * ny) A 1 (-1) v xs (fun r => v r - xs r)) by (intros r _; lra).
        unfold mat_apply, mdot. apply nsum_ext. intros c Hc. f_equal.
        apply (ravel_unravel (fun r => v r - xs r) c Hc). }
      rewrite EM in E. unfold unravel in E. unfold jacobi. nR.
      match goal with |- Rabs ?t <= _ => match type of E with Rabs ?t' <= _ => replace t with t' end end; [exact E|].
      unfold Rdiv. ring.
  Qed.

  Lemma jc_solver lu nc ni (u us b : arr2 R) M :
    (forall x y, (x < nx)%nat -> (y < ny)%nat -> mat_apply A us nx ny (x * ny + y) = b x y) ->
    (forall x y, (x < nx)%nat -> (y < ny)%nat -> Rabs (u x y - us x y) <= M) ->
    exists u', mg_call lu (MGJacobi (nx * ny) A nc ni None) nx ny u b = Ok u' /\
      forall x y, (x < nx)%nat -> (y < ny)%nat -> Rabs (u' x y - us x y) <= 4 / 3 * M * rho ^ (2 * ni * nc).
  Proof.
    intros Hus Hu. rewrite mg_call_pure by constructor. eexists. split; [reflexivity|].
    assert (HM : 0 <= M) by (apply Rle_trans with (2 := Hu O O ltac:(lia) ltac:(lia)); apply Rabs_pos).
    assert (Hp := jc_H). assert (HH : 0 < H ^ 2) by (apply pow_lt; exact Hp). assert (Hrho := jc_rho).
    assert (Hxs : forall r, (r < nx * ny)%nat -> mdot (nx * ny) A (ravel ny us) r = ravel ny b r).
    { intros r Hr. assert (Hn : (ny <> 0)%nat) by lia.
      assert (E := Hus (r / ny)%nat (r mod ny)%nat ltac:(apply Nat.div_lt_upper_bound; lia) ltac:(apply Nat.mod_upper_bound; lia)).
      replace (r / ny * ny + r mod ny)%nat with r in E by (rewrite Nat.mul_comm; apply Nat.div_mod; exact Hn).
      exact E. }
    set (K := 4 / 3 * M / H ^ 2).
    assert (HK : 0 <= K).
    { unfold K. unfold Rdiv. apply Rmult_le_pos; [lra|]. apply Rlt_le, Rinv_0_lt_compat. exact HH. }
    assert (EIT : forall n v, iter n (fun x => iter ni (jacobi (nx * ny) A (ravel ny b)) (iter ni (jacobi (nx * ny) A (ravel ny b)) x)) v
       = iter (2 * ni * n) (jacobi (nx * ny) A (ravel ny b)) v).
    { assert (Hadd : forall {X} (f : X -> X) p q x, iter (p + q) f x = iter q f (iter p f x)).
      { clear. intros X f p q. induction p as [|p IHp]; intros x; cbn [iter Nat.add]; [reflexivity|]. apply IHp. }
      induction n as [|n IHn]; intros v; cbn [iter]; [rewrite Nat.mul_0_r; reflexivity|].
      rewrite IHn. replace (2 * ni * Datatypes.S n)%nat with (ni + ni + 2 * ni * n)%nat by lia.
      rewrite !Hadd. reflexivity. }
    intros x y Hx Hy. unfold unravel at 1. cbn [mgv]. rewrite EIT.
    assert (E := jc_iter (ravel ny us) (ravel ny b) (2 * ni * nc) Hxs K (ravel ny u) HK).
    assert (Rv : forall (a : arr2 R) x y, (y < ny)%nat -> ravel ny a (x * ny + y)%nat = a x y).
    { intros a x' y' Hy'. unfold ravel. rewrite row_div, row_mod by exact Hy'. reflexivity. }
    eapply Rle_trans; [rewrite <- (Rv us x y Hy); apply E; [|exact Hx|exact Hy]|].
    - intros x' y' Hx' Hy'. rewrite !Rv by exact Hy'. eapply Rle_trans; [apply Hu; assumption|].
      assert (Hw := jc_w y' Hy').
      apply Rle_trans with (K * (3 / 4 * H ^ 2)); [unfold K; right; field; lra|].
      apply Rmult_le_compat_l; [exact HK|lra].
    - assert (Hw := jc_w y Hy).
      assert (Hpow : 0 <= rho ^ (2 * ni * nc)) by (apply pow_le; lra).
      apply Rle_trans with (rho ^ (2 * ni * nc) * K * H ^ 2).
      + apply Rmult_le_compat_l; [apply Rmult_le_pos; assumption|lra].
      + right. unfold K. field. lra.
  Qed.
End JacobiConv.

(** ** The solver returned by createVcycle, in terms of arrays *)
Lemma ravel_at (a : arr2 R) ny x y : (y < ny)%nat -> ravel ny a (x * ny + y)%nat = a x y.
Proof. intros Hy. unfold ravel. rewrite row_div, row_mod by exact Hy. reflexivity. Qed.
Lemma rows_of_grid nx ny (P : nat -> Prop) : (forall x y, (x < nx)%nat -> (y < ny)%nat -> P (x * ny + y)%nat) ->
  forall r, (r < nx * ny)%nat -> P r.
Proof.
  intros HP r Hr. assert (Hn : (ny <> 0)%nat) by nia.
  replace r with (r / ny * ny + r mod ny)%nat by (rewrite Nat.mul_comm; symmetry; apply Nat.div_mod; exact Hn).
  apply HP; [apply Nat.div_lt_upper_bound; lia|apply Nat.mod_upper_bound; exact Hn].
Qed.
Lemma system_rows nx ny (A us b : arr2 R) :
  (forall x y, (x < nx)%nat -> (y < ny)%nat -> mat_apply A us nx ny (x * ny + y) = b x y) ->
  forall r, (r < nx * ny)%nat -> mdot (nx * ny) A (ravel ny us) r = ravel ny b r.
Proof.
  intros Hs. apply rows_of_grid. intros x y Hx Hy. rewrite ravel_at by exact Hy. apply (Hs x y Hx Hy).
Qed.

Section VCycle.
  Variable lu : nat -> arr2 R -> (nat -> R) -> (nat -> R).
  Hypothesis lu_solves : forall N A b, nonsingular N A -> forall r, (r < N)%nat -> mdot N A (lu N A b) r = b r.
  Variables (gen : nat -> nat -> result (arr2 R)) (nx ny nl nc ni : nat) (d : bool) (s : solver (T := R)).
  Hypothesis Hnx : (1 <= nx)%nat.
  Hypothesis Hny : (1 <= ny)%nat.
  Hypothesis Hs : createVcycle nx ny gen nl nc ni d = Ok s.
  Hypothesis Hsol : solvable s.
  Variable A : arr2 R.
  Hypothesis HA : gen nx ny = Ok A.

  Lemma vc_top : top_matrix s = A.
  Proof. assert (E := create_top _ _ _ _ _ _ _ _ Hs). congruence. Qed.
  Lemma vc_wf : wf nx ny s. Proof. eapply create_wf; eassumption. Qed.

  Lemma vc_fixed us b : (forall x y, (x < nx)%nat -> (y < ny)%nat -> mat_apply A us nx ny (x * ny + y) = b x y) ->
    exists u', mg_call lu s nx ny us b = Ok u' /\ forall x y, (x < nx)%nat -> (y < ny)%nat -> u' x y = us x y.
  Proof.
    intros Hus. rewrite (mg_call_pure lu s nx ny us b vc_wf). eexists. split; [reflexivity|].
    intros x y Hx Hy. unfold unravel. rewrite (mgv_fixed lu lu_solves s nx ny (ravel ny us) (ravel ny b) vc_wf Hsol).
    - apply ravel_at. exact Hy.
    - rewrite vc_top. apply system_rows. exact Hus.
    - apply row_bound; assumption.
  Qed.
  Lemma vc_error : exists E : arr2 R -> arr2 R,
    (forall a a' u u' v, (forall x y, (x < nx)%nat -> (y < ny)%nat -> v x y = a * u x y + a' * u' x y) ->
       forall x y, (x < nx)%nat -> (y < ny)%nat -> E v x y = a * E u x y + a' * E u' x y) /\
    forall u us b, (forall x y, (x < nx)%nat -> (y < ny)%nat -> mat_apply A us nx ny (x * ny + y) = b x y) ->
      exists u', mg_call lu s nx ny u b = Ok u' /\
        forall x y, (x < nx)%nat -> (y < ny)%nat -> u' x y - us x y = E (fun x y => u x y - us x y) x y.
  Proof.
    exists (fun e => unravel ny (mgv lu s nx ny (ravel ny e) (fun _ => 0))). split.
    - intros a a' u u' v Hv. apply unravel_lc. apply mgv_lc; [exact lu_solves|exact vc_wf|exact Hsol| |].
      + apply ravel_lc. exact Hv.
      + intros r _. lra.
    - intros u us b Hus. rewrite (mg_call_pure lu s nx ny u b vc_wf). eexists. split; [reflexivity|].
      intros x y Hx Hy. unfold unravel.
      rewrite (mgv_error lu lu_solves s nx ny (ravel ny u) (ravel ny us) (ravel ny b) vc_wf Hsol).
      + rewrite ravel_at by exact Hy. unfold ravel. ring.
      + rewrite vc_top. apply system_rows. exact Hus.
      + apply row_bound; assumption.
  Qed.
  Lemma vc_dirichlet u b x0 y0 : (1 <= nc)%nat -> (1 <= ni)%nat -> (x0 < nx)%nat -> (y0 < ny)%nat ->
    (forall v, mat_apply A v nx ny (x0 * ny + y0) = v x0 y0) ->
    exists u', mg_call lu s nx ny u b = Ok u' /\ u' x0 y0 = b x0 y0.
  Proof.
    intros Hnc Hni Hx Hy Hrow. rewrite (mg_call_pure lu s nx ny u b vc_wf). eexists. split; [reflexivity|].
    unfold unravel. rewrite (mgv_dirichlet lu lu_solves s nx ny _ (ravel ny b) (x0 * ny + y0) vc_wf Hsol).
    - apply ravel_at. exact Hy.
    - apply row_bound; assumption.
    - rewrite vc_top. intros c Hc.
      specialize (Hrow (unravel ny (fun k => if (k =? c)%nat then 1 else 0))). unfold mat_apply in Hrow.
      rewrite (nsum_ext _ _ (fun k => (if (k =? c)%nat then 1 else 0) * A (x0 * ny + y0)%nat k)) in Hrow.
      2:{ intros k Hk. unfold unravel. assert (Hn : ny <> O) by lia.
          replace (k / ny * ny + k mod ny)%nat with k by (rewrite Nat.mul_comm; apply Nat.div_mod; exact Hn). nR. ring. }
      rewrite (nsum_delta (nx * ny) c 1 (fun k => A (x0 * ny + y0)%nat k) Hc) in Hrow.
      unfold unravel in Hrow. rewrite Nat.eqb_sym. lra.
    - assert (E := create_ncycle _ _ _ _ _ _ _ _ Hs). destruct s as [?|? ? ? ? ?]; [exact I|]. destruct E; lia.
  Qed.
  Lemma vc_stationary u b : (forall r, (r < nx * ny)%nat -> A r r <> 0) ->
    (forall r, (r < nx * ny)%nat -> jacobi (nx * ny) A (ravel ny b) (ravel ny u) r = ravel ny u r) ->
    forall x y, (x < nx)%nat -> (y < ny)%nat -> mat_apply A u nx ny (x * ny + y) = b x y.
  Proof.
    intros Hd Hj x y Hx Hy. assert (Hr := row_bound nx ny x y Hx Hy).
    rewrite <- (ravel_at b ny x y Hy). apply jacobi_stationary; [apply Hd; exact Hr|apply Hj; exact Hr].
  Qed.
End VCycle.

(** Every hierarchy built for the second-order Grad-Shafranov matrix is solvable *)
Lemma GS_nonsingular Rmin Rmax Zmin Zmax nx ny A : 0 <= Rmin -> Rmin < Rmax -> Zmin < Zmax -> (2 <= nx)%nat -> (2 <= ny)%nat ->
  GSsparse Rmin Rmax Zmin Zmax nx ny = Ok A -> nonsingular (nx * ny) A.
Proof.
  intros H0 HR HZ Hnx Hny E v Hv. destruct (GS_well_posed Rmin Rmax Zmin Zmax nx ny H0 HR HZ Hnx Hny) as (A' & E' & Huniq & _).
  rewrite E in E'. injection E' as <-. apply rows_of_grid. intros x y Hx Hy.
  assert (EM : forall r, mat_apply A (fun _ _ => 0) nx ny r = 0).
  { intros r. unfold mat_apply. rewrite (nsum_ext _ _ (fun _ => 0 * 0)) by (intros; nR; ring).
    clear. induction (nx * ny)%nat as [|n IH]; cbn [nsum]; [reflexivity|]. rewrite IH. nR. ring. }
  assert (Hz := Huniq (unravel ny v) (fun _ _ => 0)). cbn beta in Hz. unfold unravel in Hz at 2.
  apply Hz; [|exact Hx|exact Hy]. intros x' y' Hx' Hy'. rewrite EM.
  rewrite <- (Hv (x' * ny + y')%nat) by (apply row_bound; assumption).
  unfold mat_apply, mdot. apply nsum_ext. intros c Hc. unfold unravel. f_equal. f_equal.
  rewrite Nat.mul_comm. symmetry. apply Nat.div_mod. lia.
Qed.
Lemma GS_solvable Rmin Rmax Zmin Zmax nl : 0 <= Rmin -> Rmin < Rmax -> Zmin < Zmax ->
  forall nx ny nc ni d s, (2 <= nx)%nat -> (2 <= ny)%nat ->
  createVcycle nx ny (GSsparse Rmin Rmax Zmin Zmax) nl nc ni d = Ok s -> solvable s.
Proof.
  intros H0 HR HZ.
  assert (Hlow : forall nx ny nc ni (d : bool) s, (2 <= nx)%nat -> (2 <= ny)%nat ->
      bind (GSsparse Rmin Rmax Zmin Zmax nx ny) (fun A => if d then Ok (MGDirect (nx * ny) A) else Ok (MGJacobi (nx * ny) A nc ni None)) = Ok s ->
      solvable s).
  { intros nx ny nc ni d s Hnx Hny E. destruct (GSsparse Rmin Rmax Zmin Zmax nx ny) as [A|e] eqn:EA; cbn [bind] in E; [|discriminate].
    destruct d; injection E as <-; cbn [solvable]; [|exact I]. exact (GS_nonsingular Rmin Rmax Zmin Zmax nx ny A H0 HR HZ Hnx Hny EA). }
  induction nl as [|nl IH]; intros nx ny nc ni d s Hnx Hny E; unfold createVcycle in E; cbn [createVcycle_] in E.
  - exact (Hlow nx ny nc ni d s Hnx Hny E).
  - destruct nl as [|nl]; [exact (Hlow nx ny nc ni d s Hnx Hny E)|].
    destruct ((((nx - 1) mod 2 =? 1) || ((ny - 1) mod 2 =? 1))%nat) eqn:Eh; [exact (Hlow nx ny nc ni d s Hnx Hny E)|].
    apply halvable_dec in Eh. fold (half nx) (half ny) in E.
    match type of E with bind ?m _ = _ => destruct m as [sub|e] eqn:Es end; cbn [bind] in E; [|discriminate].
    destruct (GSsparse Rmin Rmax Zmin Zmax nx ny) as [A|e]; cbn [bind] in E; [|discriminate]. injection E as <-.
    cbn [solvable]. unfold halvable in Eh. eapply IH; [| |exact Es]; unfold half; lia.
Qed.
