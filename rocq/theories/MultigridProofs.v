(** Lemmas about the model of freegs/multigrid.py. *)
From Coq Require Import List Arith ZArith Bool Reals Lra Lia ZifyNat.
From Verif Require Import Py Num Numpy Linalg GradShafranov GradShafranovProofs Multigrid.
Import ListNotations.
Ltac Zify.zify_post_hook ::= Z.div_mod_to_equations.

(** ** Nested loops *)
Lemma fold_left_nested {A B C} (f : A -> B -> C -> A) lx ly : forall a,
  fold_left (fun a x => fold_left (fun a y => f a x y) ly a) lx a =
  fold_left (fun a p => f a (fst p) (snd p)) (list_prod lx ly) a.
Proof.
  induction lx as [|x lx IH]; intros a; cbn [fold_left list_prod]; [reflexivity|].
  assert (E : forall l a', fold_left (fun a y => f a x y) l a' =
    fold_left (fun a p => f a (fst p) (snd p)) (map (fun y => (x, y)) l) a').
  { induction l as [|y l IHl]; intros a'; cbn [fold_left map]; [reflexivity|]. apply IHl. }
  rewrite fold_left_app, <- IH, <- E. reflexivity.
Qed.

Local Open Scope R_scope.

(** ** Sums over lists *)
Lemma lsum_map_ext {A} (f g : A -> R) l : (forall x, In x l -> f x = g x) -> lsum (map f l) = lsum (map g l).
Proof. intros Hl. f_equal. apply map_ext_in. exact Hl. Qed.
Lemma lsum_map_add {A} (f g : A -> R) l : lsum (map (fun x => f x + g x) l) = lsum (map f l) + lsum (map g l).
Proof. induction l as [|x l IH]; cbn [map]; [cbn; nR; lra|]. rewrite !lsum_cons, IH. lra. Qed.
Lemma lsum_map_scal {A} k (f : A -> R) l : lsum (map (fun x => k * f x) l) = k * lsum (map f l).
Proof. induction l as [|x l IH]; cbn [map]; [cbn; nR; lra|]. rewrite !lsum_cons, IH. lra. Qed.
Lemma lsum_map_zero {A} (f : A -> R) l : (forall x, In x l -> f x = 0) -> lsum (map f l) = 0.
Proof.
  induction l as [|x l IH]; intros Hf; cbn [map]; [reflexivity|].
  rewrite lsum_cons, (Hf x (or_introl eq_refl)), IH; [lra|]. intros y Hy. apply Hf. right. exact Hy.
Qed.
Lemma lsum_list_prod {A B} (f : A -> B -> R) la lb :
  lsum (map (fun p => f (fst p) (snd p)) (list_prod la lb)) = lsum (map (fun a => lsum (map (f a) lb)) la).
Proof.
  induction la as [|a la IH]; cbn [list_prod map]; [reflexivity|].
  rewrite map_app, lsum_app, IH, lsum_cons, map_map. reflexivity.
Qed.
Lemma lsum_delta a b k (g : nat -> R) :
  lsum (map (fun x => (if (x =? k)%nat then 1 else 0) * g x) (range a b)) =
  if ((a <=? k) && (k <? b))%nat then g k else 0.
Proof.
  unfold range. remember (b - a)%nat as n eqn:En. revert a b En.
  induction n as [|n IH]; intros a b En; cbn [seq map].
  - rewrite lsum_nil. destruct (Nat.leb_spec a k), (Nat.ltb_spec k b); cbn [andb]; reflexivity || (exfalso; lia).
  - rewrite lsum_cons, (IH (S a) b) by lia.
    destruct (Nat.eqb_spec a k), (Nat.leb_spec a k), (Nat.leb_spec (S a) k), (Nat.ltb_spec k b); cbn [andb];
      subst; lra || (exfalso; lia).
Qed.

(** ** Interpolation *)
Definition hat (X x : nat) : R :=
  if (X =? 2 * x)%nat then 1 else if ((X + 1 =? 2 * x) || (X =? 2 * x + 1))%nat then 1 / 2 else 0.

Lemma add2_get (out : arr2 R) a b v X Y :
  add2 out a b v X Y = out X Y + (if ((X =? a) && (Y =? b))%nat then v else 0).
Proof.
  unfold add2, upd2. destruct (Nat.eqb_spec X a), (Nat.eqb_spec Y b); cbn; subst; nR; lra.
Qed.
Lemma interp_cell_get orig out x y X Y : (1 <= x)%nat -> (1 <= y)%nat ->
  interp_cell (T := R) orig out x y X Y =
  if ((X =? 2 * x) && (Y =? 2 * y))%nat then orig x y else out X Y + hat X x * hat Y y * orig x y.
Proof.
  intros Hx Hy. unfold interp_cell. cbv zeta. rewrite !add2_get. unfold upd2. rewrite !add2_get. unfold hat. nR.
  destruct (Nat.eqb_spec X (2 * x - 1)), (Nat.eqb_spec X (2 * x)), (Nat.eqb_spec X (2 * x + 1)),
    (Nat.eqb_spec (X + 1) (2 * x)); try (exfalso; lia);
  destruct (Nat.eqb_spec Y (2 * y - 1)), (Nat.eqb_spec Y (2 * y)), (Nat.eqb_spec Y (2 * y + 1)),
    (Nat.eqb_spec (Y + 1) (2 * y)); try (exfalso; lia); cbn [andb orb]; lra.
Qed.

Lemma hat_even x x' : x <> x' -> hat (2 * x') x = 0.
Proof.
  intros Hx. unfold hat. destruct (Nat.eqb_spec (2 * x') (2 * x)); [lia|].
  destruct (Nat.eqb_spec (2 * x' + 1) (2 * x)), (Nat.eqb_spec (2 * x') (2 * x + 1)); lia || reflexivity.
Qed.

Lemma interp_fold orig l : forall out X Y, NoDup l ->
  (forall p, In p l -> (1 <= fst p)%nat /\ (1 <= snd p)%nat /\ out (2 * fst p)%nat (2 * snd p)%nat = 0) ->
  fold_left (fun out p => interp_cell orig out (fst p) (snd p)) l out X Y =
  out X Y + lsum (map (fun p => hat X (fst p) * hat Y (snd p) * orig (fst p) (snd p)) l).
Proof.
  induction l as [|(x, y) l IH]; intros out X Y Hnd Hl; cbn [fold_left map]; [cbn; nR; lra|].
  inversion Hnd as [|p l' Hp Hnd']; subst.
  destruct (Hl (x, y) (or_introl eq_refl)) as (Hx & Hy & H0). cbn [fst snd] in *.
  rewrite IH; [|exact Hnd'|].
  - rewrite interp_cell_get by assumption. rewrite lsum_cons. cbn [fst snd].
    destruct (Nat.eqb_spec X (2 * x)), (Nat.eqb_spec Y (2 * y)); cbn [andb]; try lra.
    subst X Y. rewrite H0. unfold hat. rewrite !Nat.eqb_refl. lra.
  - intros (x', y') Hin. destruct (Hl _ (or_intror Hin)) as (Hx' & Hy' & H0'). cbn [fst snd] in *.
    split; [exact Hx'|]. split; [exact Hy'|]. rewrite interp_cell_get by assumption.
    destruct (Nat.eq_dec x x') as [->|Nx], (Nat.eq_dec y y') as [->|Ny].
    + contradiction.
    + rewrite (hat_even y y') by assumption. rewrite H0'.
      destruct (Nat.eqb_spec (2 * y') (2 * y)); [lia|]. rewrite andb_false_r. lra.
    + rewrite (hat_even x x') by assumption. rewrite H0'.
      destruct (Nat.eqb_spec (2 * x') (2 * x)); [lia|]. cbn [andb]. lra.
    + rewrite (hat_even x x') by assumption. rewrite H0'.
      destruct (Nat.eqb_spec (2 * x') (2 * x)); [lia|]. cbn [andb]. lra.
Qed.

Definition refine1 (g : nat -> R) (X : nat) : R :=
  if Nat.even X then g (X / 2)%nat else (g (X / 2)%nat + g (X / 2 + 1)%nat) / 2.
Definition zero_edge (nx ny : nat) (c : nat -> nat -> R) (x y : nat) : R :=
  if interiorb nx ny x y then c x y else 0.

Lemma hat_parity X x :
  hat X x = if Nat.even X then (if (x =? X / 2)%nat then 1 else 0)
            else 1 / 2 * (if (x =? X / 2)%nat then 1 else 0) + 1 / 2 * (if (x =? X / 2 + 1)%nat then 1 else 0).
Proof.
  unfold hat.
  destruct (Nat.even X) eqn:E.
  - apply Nat.even_spec in E. destruct E as (k & ->).
    replace (2 * k / 2)%nat with k by lia.
    destruct (Nat.eqb_spec (2 * k) (2 * x)), (Nat.eqb_spec x k); try (exfalso; lia); try reflexivity.
    destruct (Nat.eqb_spec (2 * k + 1) (2 * x)), (Nat.eqb_spec (2 * k) (2 * x + 1)); reflexivity || (exfalso; lia).
  - assert (Ho : Nat.odd X = true) by (rewrite <- Nat.negb_even, E; reflexivity).
    apply Nat.odd_spec in Ho. destruct Ho as (k & ->).
    replace ((2 * k + 1) / 2)%nat with k by lia.
    destruct (Nat.eqb_spec (2 * k + 1) (2 * x)); [lia|].
    destruct (Nat.eqb_spec (2 * k + 1 + 1) (2 * x)), (Nat.eqb_spec (2 * k + 1) (2 * x + 1)), (Nat.eqb_spec x k),
      (Nat.eqb_spec x (k + 1)); cbn [orb]; try (exfalso; lia); lra.
Qed.
Lemma hat_sum a b X (g : nat -> R) :
  lsum (map (fun x => hat X x * g x) (range a b)) =
  refine1 (fun x => if ((a <=? x) && (x <? b))%nat then g x else 0) X.
Proof.
  unfold refine1.
  rewrite (lsum_map_ext _ (fun x => if Nat.even X then (if (x =? X / 2)%nat then 1 else 0) * g x
     else 1 / 2 * ((if (x =? X / 2)%nat then 1 else 0) * g x) + 1 / 2 * ((if (x =? X / 2 + 1)%nat then 1 else 0) * g x))).
  2:{ intros x _. rewrite hat_parity. destruct (Nat.even X); [reflexivity|lra]. }
  destruct (Nat.even X).
  - apply lsum_delta.
  - rewrite (lsum_map_add (fun x => 1 / 2 * ((if (x =? X / 2)%nat then 1 else 0) * g x))
                          (fun x => 1 / 2 * ((if (x =? X / 2 + 1)%nat then 1 else 0) * g x))).
    rewrite !(lsum_map_scal (1/2)). rewrite !lsum_delta. lra.
Qed.
Lemma refine1_ext g h X : (forall x, g x = h x) -> refine1 g X = refine1 h X.
Proof. intros Hg. unfold refine1. rewrite !Hg. reflexivity. Qed.

Definition interp_arr (c : arr2 R) (nx ny : nat) : arr2 R := fst (fst (interpolate c nx ny)).
Lemma interp_closed (c : arr2 R) nx ny X Y :
  interp_arr c nx ny X Y = refine1 (fun x => refine1 (fun y => zero_edge nx ny c x y) Y) X.
Proof.
  unfold interp_arr, interpolate. cbn [fst].
  rewrite (fold_left_nested (fun out x y => interp_cell c out x y)).
  rewrite interp_fold.
  - unfold zeros2. nR. rewrite Rplus_0_l.
    rewrite (lsum_list_prod (fun x y => hat X x * hat Y y * c x y)).
    rewrite (lsum_map_ext _ (fun x => hat X x * lsum (map (fun y => hat Y y * c x y) (range 1 (ny - 1))))).
    2:{ intros x _. rewrite <- lsum_map_scal. apply lsum_map_ext. intros; lra. }
    rewrite hat_sum. apply refine1_ext. intros x. unfold zero_edge, interiorb.
    destruct (Nat.leb_spec 1 x), (Nat.ltb_spec x (nx - 1)); cbn [andb].
    + rewrite hat_sum. apply refine1_ext. intros y.
      destruct (Nat.leb_spec 1 y), (Nat.ltb_spec y (ny - 1)); destruct (Nat.ltb_spec (x + 1) nx), (Nat.ltb_spec (y + 1) ny); cbn [andb];
      reflexivity || (exfalso; lia).
    + unfold refine1. destruct (Nat.ltb_spec (x + 1) nx); [exfalso; lia|]. cbn [andb].
      rewrite ?andb_false_r. cbn. destruct (Nat.even Y); cbn; lra.
    + unfold refine1. destruct (Nat.even Y); cbn; lra.
    + unfold refine1. destruct (Nat.even Y); cbn; lra.
  - apply NoDup_list_prod; apply seq_NoDup.
  - intros (x, y) Hp. apply in_prod_iff in Hp. destruct Hp as (Hx & Hy). apply in_range in Hx, Hy.
    cbn [fst snd]. repeat split; try lia.
Qed.

(** ** Restriction *)
Definition halvable (nx ny : nat) : Prop := ((nx - 1) mod 2 = 0 /\ (ny - 1) mod 2 = 0)%nat.
Definition half (n : nat) : nat := ((n - 1) / 2 + 1)%nat.

Lemma odd_test n : ((n - 1) mod 2 =? 1)%nat = negb ((n - 1) mod 2 =? 0)%nat.
Proof. destruct (Nat.eqb_spec ((n - 1) mod 2) 1), (Nat.eqb_spec ((n - 1) mod 2) 0); cbn; reflexivity || (exfalso; lia). Qed.

Lemma restrict_shape (e : arr2 R) nx ny avg : halvable nx ny ->
  exists o, restrict e nx ny avg = (o, half nx, half ny).
Proof.
  intros (Hx & Hy). unfold restrict. rewrite !odd_test, Hx, Hy. cbn. eexists. reflexivity.
Qed.
Lemma restrict_odd (e : arr2 R) nx ny avg : ~ halvable nx ny -> restrict e nx ny avg = (e, nx, ny).
Proof.
  intros Hn. unfold restrict. rewrite !odd_test.
  destruct (Nat.eqb_spec ((nx - 1) mod 2) 0), (Nat.eqb_spec ((ny - 1) mod 2) 0); cbn; try reflexivity.
  exfalso. apply Hn. split; assumption.
Qed.
Definition restr_arr (e : arr2 R) nx ny avg : arr2 R := fst (fst (restrict e nx ny avg)).
Lemma restrict_closed (e : arr2 R) nx ny avg x y : halvable nx ny ->
  restr_arr e nx ny avg x y =
  if interiorb (half nx) (half ny) x y then e (2 * x)%nat (2 * y)%nat * (if avg then 1 / 4 else 1) else 0.
Proof.
  intros (Hx & Hy). unfold restr_arr, restrict. rewrite !odd_test, Hx, Hy. cbn [Nat.eqb negb orb]. cbv zeta. cbn [fst].
  fold (half nx) (half ny).
  assert (E : forall x y, fold_left (fun out x => fold_left (fun out y =>
      upd2 out x y (e (2 * x)%nat (2 * y)%nat / nofZ 4)%num) (range 1 (half ny - 1)) out)
      (range 1 (half nx - 1)) zeros2 x y =
    if interiorb (half nx) (half ny) x y then e (2 * x)%nat (2 * y)%nat / 4 else 0).
  { intros a b. rewrite (fill_outer (fun x y => (e (2 * x)%nat (2 * y)%nat / nofZ 4)%num)), !existsb_range. reflexivity. }
  destruct avg; rewrite E; nR; destruct (interiorb (half nx) (half ny) x y); lra.
Qed.

(** restrict after interpolate *)
Lemma half_double n : half (2 * (n - 1) + 1) = (n - 1 + 1)%nat.
Proof. unfold half. lia. Qed.
Lemma restrict_interpolate (c : arr2 R) nx ny : (1 <= nx)%nat -> (1 <= ny)%nat ->
  exists o, (let '(f, nx2, ny2) := interpolate c nx ny in restrict f nx2 ny2 false) = (o, nx, ny) /\
  forall x y, o x y = if interiorb nx ny x y then c x y else 0.
Proof.
  intros Hnx Hny.
  assert (Hh : halvable (2 * (nx - 1) + 1) (2 * (ny - 1) + 1)) by (split; lia).
  unfold interpolate at 1.
  destruct (restrict_shape (interp_arr c nx ny) _ _ false Hh) as (o & E).
  exists o. rewrite !half_double in E. replace (nx - 1 + 1)%nat with nx in E by lia.
  replace (ny - 1 + 1)%nat with ny in E by lia. split; [exact E|].
  intros x y. assert (E2 := restrict_closed (interp_arr c nx ny) _ _ false x y Hh).
  unfold restr_arr in E2. rewrite E in E2. cbn [fst] in E2. rewrite E2.
  rewrite !half_double. replace (nx - 1 + 1)%nat with nx by lia. replace (ny - 1 + 1)%nat with ny by lia.
  destruct (interiorb nx ny x y) eqn:Ei; [|reflexivity].
  rewrite interp_closed. unfold refine1.
  replace (Nat.even (2 * x)) with true by (symmetry; apply Nat.even_spec; exists x; reflexivity).
  replace (Nat.even (2 * y)) with true by (symmetry; apply Nat.even_spec; exists y; reflexivity).
  replace (2 * x / 2)%nat with x by lia. replace (2 * y / 2)%nat with y by lia.
  unfold zero_edge. rewrite Ei. lra.
Qed.

Lemma double_half n : (1 <= n)%nat -> ((n - 1) mod 2 = 0)%nat -> (2 * (half n - 1) + 1)%nat = n.
Proof. unfold half. lia. Qed.

(** ** The solver hierarchy as a function of vectors *)
Section Hierarchy.
  Variable lu : nat -> arr2 R -> (nat -> R) -> (nat -> R).

  Inductive wf : nat -> nat -> solver (T := R) -> Prop :=
  | wf_direct nx ny A : wf nx ny (MGDirect (nx * ny) A)
  | wf_jacobi nx ny A nc ni : wf nx ny (MGJacobi (nx * ny) A nc ni None)
  | wf_sub nx ny A nc ni s : halvable nx ny -> (1 <= nx)%nat -> (1 <= ny)%nat -> wf (half nx) (half ny) s ->
      wf nx ny (MGJacobi (nx * ny) A nc ni (Some s)).

  Fixpoint mgv (s : solver (T := R)) (nx ny : nat) (x b : nat -> R) : nat -> R :=
    match s with
    | MGDirect N A => lu N A b
    | MGJacobi N A nc ni sub =>
        iter nc (fun x =>
          let x1 := iter ni (jacobi N A b) x in
          let x2 := match sub with
            | None => x1
            | Some s' =>
                let e := unravel ny (fun r => b r - mdot N A x1 r) in
                let sb := restr_arr e nx ny false in
                let sx := unravel (half ny) (mgv s' (half nx) (half ny) (fun _ => 0) (ravel (half ny) sb)) in
                fun r => x1 r + ravel ny (interp_arr sx (half nx) (half ny)) r
            end in
          iter ni (jacobi N A b) x2) x
    end.

  Lemma foldM_iter {A} (f : A -> A) n : forall k x, foldM (fun x _ => Ok (f x)) (seq k n) x = Ok (iter n f x).
  Proof. induction n as [|n IH]; intros k x; cbn [seq foldM iter bind]; [reflexivity|]. apply IH. Qed.
  Lemma foldM_pure {A} (g : A -> result A) (f : A -> A) n : (forall x, g x = Ok (f x)) ->
    forall k x, foldM (fun x _ => g x) (seq k n) x = Ok (iter n f x).
  Proof.
    intros Hg. induction n as [|n IH]; intros k x; cbn [seq foldM iter]; [reflexivity|].
    rewrite Hg. cbn [bind]. apply IH.
  Qed.

  Lemma mg_call_pure s : forall nx ny xi bi, wf nx ny s ->
    mg_call lu s nx ny xi bi = Ok (unravel ny (mgv s nx ny (ravel ny xi) (ravel ny bi))).
  Proof.
    revert s. fix IH 1. intros s nx ny xi bi Hwf. destruct s as [N A|N A nc ni [s|]].
    - inversion Hwf; subst. cbn [mg_call mgv]. rewrite Nat.eqb_refl. reflexivity.
    - cbn [mg_call mgv]. inversion Hwf as [| |a1 a2 a3 a4 a5 a6 Hh Hnx Hny Hw]; subst.
      + rewrite Nat.eqb_refl.
        match goal with |- bind (foldM ?g _ _) _ = Ok (unravel ny (iter nc ?f _)) =>
          rewrite (foldM_pure (fun x => g x O) f) end; [reflexivity|].
        intros x. cbv zeta. set (x1 := iter ni _ x).
        set (e := unravel ny _).
        destruct (restrict_shape e nx ny false Hh) as (o & Eo).
        match goal with |- context [restrict ?e' nx ny false] => change e' with e end.
        rewrite Eo. assert (Ho : restr_arr e nx ny false = o) by (unfold restr_arr; rewrite Eo; reflexivity).
        rewrite (IH s (half nx) (half ny) _ _ Hw). cbn [bind]. rewrite Ho.
        unfold interpolate. rewrite !double_half by (try assumption; apply Hh).
        rewrite Nat.eqb_refl. cbn [bind]. reflexivity.
    - cbn [mg_call mgv]. inversion Hwf; subst.
      rewrite Nat.eqb_refl. cbn [bind]. rewrite foldM_iter. reflexivity.
  Qed.

End Hierarchy.

(** *** Linear combinations on the first N entries *)
  Definition lc (N : nat) (a a' : R) (u u' v : nat -> R) : Prop :=
    forall r, (r < N)%nat -> v r = a * u r + a' * u' r.

  Lemma mdot_lc N A a a' u u' v : lc N a a' u u' v -> forall r, mdot N A v r = a * mdot N A u r + a' * mdot N A u' r.
  Proof.
    intros Hl r. unfold mdot. rewrite <- !nsum_scal, <- nsum_add. apply nsum_ext. intros c Hc.
    nR. rewrite (Hl c Hc). lra.
  Qed.
  Lemma jacobi_lc N A a a' b b' B x x' X : lc N a a' b b' B -> lc N a a' x x' X ->
    lc N a a' (jacobi N A b x) (jacobi N A b' x') (jacobi N A B X).
  Proof.
    intros Hb Hx r Hr. unfold jacobi. nR. rewrite (Hb r Hr), (Hx r Hr), (mdot_lc _ _ _ _ _ _ _ Hx).
    unfold Rdiv. ring.
  Qed.
  Lemma iter_lc N a a' (f f' F : (nat -> R) -> nat -> R) n :
    (forall x x' X, lc N a a' x x' X -> lc N a a' (f x) (f' x') (F X)) ->
    forall x x' X, lc N a a' x x' X -> lc N a a' (iter n f x) (iter n f' x') (iter n F X).
  Proof. intros Hf. induction n as [|n IH]; intros x x' X Hx; cbn [iter]; [exact Hx|]. apply IH, Hf, Hx. Qed.

  Definition lc2 (nx ny : nat) (a a' : R) (u u' v : arr2 R) : Prop :=
    forall x y, (x < nx)%nat -> (y < ny)%nat -> v x y = a * u x y + a' * u' x y.
  Lemma unravel_lc nx ny a a' u u' v : lc (nx * ny) a a' u u' v ->
    lc2 nx ny a a' (unravel ny u) (unravel ny u') (unravel ny v).
  Proof. intros Hl x y Hx Hy. unfold unravel. apply Hl. apply row_bound; assumption. Qed.
  Lemma ravel_lc nx ny a a' u u' v : lc2 nx ny a a' u u' v ->
    lc (nx * ny) a a' (ravel ny u) (ravel ny u') (ravel ny v).
  Proof.
    intros Hl r Hr. unfold ravel. assert (ny <> 0)%nat by lia. apply Hl.
    - apply Nat.div_lt_upper_bound; lia.
    - apply Nat.mod_upper_bound; lia.
  Qed.
  Lemma restr_lc nx ny a a' u u' v : halvable nx ny -> (1 <= nx)%nat -> (1 <= ny)%nat -> lc2 nx ny a a' u u' v ->
    lc2 (half nx) (half ny) a a' (restr_arr u nx ny false) (restr_arr u' nx ny false) (restr_arr v nx ny false).
  Proof.
    intros Hh Hnx Hny Hl x y Hx Hy. rewrite !restrict_closed by exact Hh.
    destruct (interiorb_spec (half nx) (half ny) x y) as [Hi|Hi]; [|lra].
    unfold interior, half in Hi. rewrite Hl by lia. lra.
  Qed.
  Lemma interp_lc nx ny a a' u u' v : lc2 nx ny a a' u u' v ->
    forall x y, interp_arr v nx ny x y = a * interp_arr u nx ny x y + a' * interp_arr u' nx ny x y.
  Proof.
    intros Hl X Y. rewrite !interp_closed.
    assert (Hz : forall x y, zero_edge nx ny v x y = a * zero_edge nx ny u x y + a' * zero_edge nx ny u' x y).
    { intros x y. unfold zero_edge. destruct (interiorb_spec nx ny x y) as [Hi|Hi]; [|lra].
      unfold interior in Hi. apply Hl; lia. }
    unfold refine1. destruct (Nat.even X), (Nat.even Y); rewrite !Hz; lra.
  Qed.

Section Hierarchy2.
  Variable lu : nat -> arr2 R -> (nat -> R) -> (nat -> R).
  Local Notation mgv := (mgv lu).
  (** Direct levels: nonsingular matrix, and [lu] solves nonsingular systems. *)
  Definition nonsingular (N : nat) (A : arr2 R) : Prop :=
    forall v, (forall r, (r < N)%nat -> mdot N A v r = 0) -> forall c, (c < N)%nat -> v c = 0.
  Fixpoint solvable (s : solver (T := R)) : Prop :=
    match s with
    | MGDirect N A => nonsingular N A
    | MGJacobi N A nc ni None => True
    | MGJacobi N A nc ni (Some s') => solvable s'
    end.
  Hypothesis lu_solves : forall N A b, nonsingular N A -> forall r, (r < N)%nat -> mdot N A (lu N A b) r = b r.

  Lemma lu_lc N A a a' b b' B : nonsingular N A -> lc N a a' b b' B -> lc N a a' (lu N A b) (lu N A b') (lu N A B).
  Proof.
    intros HA Hb r Hr.
    cut (lu N A B r - (a * lu N A b r + a' * lu N A b' r) = 0); [lra|].
    apply (HA (fun r => lu N A B r - (a * lu N A b r + a' * lu N A b' r))); [|exact Hr].
    intros i Hi.
    rewrite (mdot_lc N A 1 (-1) (lu N A B) (fun r => a * lu N A b r + a' * lu N A b' r) _)
      by (intros c _; lra).
    rewrite (mdot_lc N A a a' (lu N A b) (lu N A b') (fun r => a * lu N A b r + a' * lu N A b' r)) by (intros c _; lra).
    rewrite !lu_solves by assumption. rewrite (Hb i Hi). lra.
  Qed.

  Lemma mgv_lc s : forall nx ny a a' x x' X b b' B, wf nx ny s -> solvable s ->
    lc (nx * ny) a a' x x' X -> lc (nx * ny) a a' b b' B ->
    lc (nx * ny) a a' (mgv s nx ny x b) (mgv s nx ny x' b') (mgv s nx ny X B).
  Proof.
    revert s. fix IH 1. intros s nx ny a a' x x' X b b' B Hwf Hs Hx Hb.
    destruct s as [N A|N A nc ni [s|]]; cbn [mgv].
    - inversion Hwf; subst. apply lu_lc; assumption.
    - inversion Hwf as [| |a1 a2 a3 a4 a5 a6 Hh Hnx Hny Hw]; subst.
      apply iter_lc; [|exact Hx]. clear x x' X Hx. intros x x' X Hx. cbv zeta.
      apply iter_lc; [intros; apply jacobi_lc; assumption|].
      assert (H1 : lc (nx * ny) a a' (iter ni (jacobi (nx * ny) A b) x) (iter ni (jacobi (nx * ny) A b') x')
                     (iter ni (jacobi (nx * ny) A B) X)).
      { apply iter_lc; [intros; apply jacobi_lc; assumption|exact Hx]. }
      revert H1. generalize (iter ni (jacobi (nx * ny) A b) x) (iter ni (jacobi (nx * ny) A b') x')
        (iter ni (jacobi (nx * ny) A B) X). intros x1 x1' X1 H1.
      assert (HE : lc2 nx ny a a' (unravel ny (fun r => b r - mdot (nx * ny) A x1 r))
        (unravel ny (fun r => b' r - mdot (nx * ny) A x1' r)) (unravel ny (fun r => B r - mdot (nx * ny) A X1 r))).
      { apply unravel_lc. intros r Hr. rewrite (Hb r Hr), (mdot_lc _ _ _ _ _ _ _ H1). lra. }
      assert (Hsub := IH s (half nx) (half ny) a a' (fun _ => 0) (fun _ => 0) (fun _ => 0) _ _ _ Hw Hs
        ltac:(intros r Hr; lra) (ravel_lc _ _ _ _ _ _ _ (restr_lc _ _ _ _ _ _ _ Hh Hnx Hny HE))).
      intros r Hr. unfold ravel at 1 3 5. rewrite (H1 r Hr), (interp_lc _ _ _ _ _ _ _ (unravel_lc _ _ _ _ _ _ _ Hsub)).
      lra.
    - inversion Hwf; subst. apply iter_lc; [|exact Hx]. clear x x' X Hx. intros x x' X Hx. cbv zeta.
      apply iter_lc; [intros; apply jacobi_lc; assumption|].
      apply iter_lc; [intros; apply jacobi_lc; assumption|exact Hx].
  Qed.

  Lemma mgv_zero s nx ny x b : wf nx ny s -> solvable s ->
    (forall r, (r < nx * ny)%nat -> x r = 0) -> (forall r, (r < nx * ny)%nat -> b r = 0) ->
    forall r, (r < nx * ny)%nat -> mgv s nx ny x b r = 0.
  Proof.
    intros Hwf Hs Hx Hb r Hr.
    rewrite (mgv_lc s nx ny 0 0 x x x b b b Hwf Hs) by
      (first [exact Hr | intros i Hi; rewrite ?(Hx i Hi), ?(Hb i Hi); lra]). lra.
  Qed.

  Definition top_matrix (s : solver (T := R)) : arr2 R :=
    match s with MGDirect _ A => A | MGJacobi _ A _ _ _ => A end.

  Lemma iter_fix {A} (f : A -> A) n x : f x = x -> iter n f x = x.
  Proof. intros Hf. induction n as [|n IH]; cbn [iter]; [reflexivity|]. rewrite Hf. exact IH. Qed.
  Lemma iter_inv {A} (P : A -> Prop) (f : A -> A) n : (forall x, P x -> P (f x)) -> forall x, P x -> P (iter n f x).
  Proof. intros Hf. induction n as [|n IH]; intros x Hx; cbn [iter]; [exact Hx|]. apply IH, Hf, Hx. Qed.

  Lemma mgv_fixed s nx ny xs b : wf nx ny s -> solvable s ->
    (forall r, (r < nx * ny)%nat -> mdot (nx * ny) (top_matrix s) xs r = b r) ->
    forall r, (r < nx * ny)%nat -> mgv s nx ny xs b r = xs r.
  Proof.
    intros Hwf Hs Hxs. destruct s as [N A|N A nc ni sub].
    - inversion Hwf; subst. cbn [mgv top_matrix solvable] in *. intros r Hr.
      cut (lu (nx * ny) A b r - xs r = 0); [lra|]. apply (Hs (fun r => lu (nx * ny) A b r - xs r)); [|exact Hr].
      intros i Hi. rewrite (mdot_lc _ A 1 (-1) (lu (nx * ny) A b) xs) by (intros c _; lra).
      rewrite lu_solves, Hxs by assumption. lra.
    - assert (EN : N = (nx * ny)%nat) by (inversion Hwf; reflexivity). subst N. cbn [mgv top_matrix] in *.
      set (P := fun x : nat -> R => forall r, (r < nx * ny)%nat -> x r = xs r).
      assert (Hres : forall x, P x -> forall r, (r < nx * ny)%nat -> b r - mdot (nx * ny) A x r = 0).
      { intros x Hx r Hr. rewrite <- (Hxs r Hr).
        rewrite (mdot_lc (nx * ny) A 1 0 xs xs x) by (intros c Hc; rewrite (Hx c Hc); lra). lra. }
      assert (Hj : forall x, P x -> P (jacobi (nx * ny) A b x)).
      { intros x Hx r Hr. unfold jacobi. nR. rewrite (Hres x Hx r Hr), (Hx r Hr). unfold Rdiv. lra. }
      apply (iter_inv P); [|intros r _; reflexivity]. intros x Hx. cbv zeta.
      apply iter_inv; [exact Hj|]. assert (H1 := iter_inv P _ ni Hj x Hx).
      destruct sub as [s|]; [|exact H1].
      inversion Hwf as [| |a1 a2 a3 a4 a5 a6 Hh Hnx Hny Hw]; subst.
      revert H1. generalize (iter ni (jacobi (nx * ny) A b) x). intros x1 H1 r Hr.
      assert (Hz : forall i, (i < half nx * half ny)%nat ->
        mgv s (half nx) (half ny) (fun _ => 0) (ravel (half ny) (restr_arr (unravel ny
          (fun r => b r - mdot (nx * ny) A x1 r)) nx ny false)) i = 0).
      { apply mgv_zero; [exact Hw|exact Hs|reflexivity|].
        assert (HE : lc2 nx ny 0 0 (fun _ _ => 0) (fun _ _ => 0) (unravel ny (fun r => b r - mdot (nx * ny) A x1 r))).
        { intros i j Hi Hj'. unfold unravel. rewrite (Hres x1 H1) by (apply row_bound; assumption). lra. }
        intros i Hi. rewrite (ravel_lc _ _ _ _ _ _ _ (restr_lc _ _ _ _ _ _ _ Hh Hnx Hny HE) i Hi). lra. }
      unfold ravel at 1.
      rewrite (interp_lc (half nx) (half ny) 0 0 (fun _ _ => 0) (fun _ _ => 0)).
      + rewrite (H1 r Hr). lra.
      + intros i j Hi Hj'. unfold unravel at 1. rewrite Hz by (apply row_bound; assumption). lra.
  Qed.

  Lemma mgv_error s nx ny x xs b : wf nx ny s -> solvable s ->
    (forall r, (r < nx * ny)%nat -> mdot (nx * ny) (top_matrix s) xs r = b r) ->
    forall r, (r < nx * ny)%nat ->
      mgv s nx ny x b r = xs r + mgv s nx ny (fun r => x r - xs r) (fun _ => 0) r.
  Proof.
    intros Hwf Hs Hxs r Hr.
    rewrite (mgv_lc s nx ny 1 1 xs (fun r => x r - xs r) x b (fun _ => 0) b Hwf Hs) by
      (first [exact Hr | intros i Hi; lra]).
    rewrite mgv_fixed by assumption. lra.
  Qed.

  (** Rows of the identity are satisfied exactly after a sweep. *)
  Lemma iter_S {A} (f : A -> A) n x : iter (S n) f x = f (iter n f x).
  Proof.
    revert x. induction n as [|n IH]; intros x; [reflexivity|].
    change (iter (S (S n)) f x) with (iter (S n) f (f x)). rewrite IH. reflexivity.
  Qed.
  Lemma mdot_identity N A x r : (r < N)%nat -> (forall c, (c < N)%nat -> A r c = if (c =? r)%nat then 1 else 0) ->
    mdot N A x r = x r.
  Proof.
    intros Hr HA. unfold mdot. rewrite (nsum_ext _ _ (fun c => (if (c =? r)%nat then 1 else 0) * x c)).
    - rewrite nsum_delta by exact Hr. lra.
    - intros c Hc. rewrite (HA c Hc). reflexivity.
  Qed.
  Lemma mgv_dirichlet s nx ny x b r : wf nx ny s -> solvable s -> (r < nx * ny)%nat ->
    (forall c, (c < nx * ny)%nat -> top_matrix s r c = if (c =? r)%nat then 1 else 0) ->
    (match s with MGDirect _ _ => True | MGJacobi _ _ nc ni _ => (1 <= nc)%nat /\ (1 <= ni)%nat end) ->
    mgv s nx ny x b r = b r.
  Proof.
    intros Hwf Hs Hr HA Hn. destruct s as [N A|N A nc ni sub]; cbn [mgv top_matrix] in *.
    - inversion Hwf; subst. rewrite <- (lu_solves _ A b Hs r Hr). symmetry. apply mdot_identity; assumption.
    - assert (EN : N = (nx * ny)%nat) by (inversion Hwf; reflexivity). subst N.
      destruct Hn as (Hc & Hi). destruct nc as [|nc]; [lia|]. destruct ni as [|ni]; [lia|].
      rewrite iter_S. cbv zeta. rewrite (iter_S _ ni (match sub with None => _ | Some _ => _ end)).
      unfold jacobi at 1. nR. rewrite mdot_identity by assumption. rewrite (HA r Hr), Nat.eqb_refl. field.
  Qed.

  (** A sweep that changes nothing solves the system. *)
  Lemma jacobi_stationary N A b x r : A r r <> 0 -> jacobi N A b x r = x r -> mdot N A x r = b r.
  Proof.
    intros HA E. unfold jacobi in E. nR.
    assert ((b r - mdot N A x r) / A r r = 0) by lra.
    assert (b r - mdot N A x r = 0); [|lra].
    replace (b r - mdot N A x r) with ((b r - mdot N A x r) / A r r * A r r) by (field; exact HA). nra.
  Qed.
End Hierarchy2.

(** ** createVcycle *)
  Lemma halvable_dec nx ny :
    ((((nx - 1) mod 2 =? 1) || ((ny - 1) mod 2 =? 1))%nat = false <-> halvable nx ny).
  Proof.
    rewrite !odd_test. unfold halvable.
    destruct (Nat.eqb_spec ((nx - 1) mod 2) 0), (Nat.eqb_spec ((ny - 1) mod 2) 0); cbn; intuition; try discriminate; try lia.
  Qed.
Section Create.
  Variable gen : nat -> nat -> result (arr2 R).

  (** The levels of a solver, finest first: dimension, matrix, ncycle (0 for a direct level). *)
  Fixpoint levels (s : solver (T := R)) : list (nat * arr2 R) :=
    match s with
    | MGDirect N A => [(N, A)]
    | MGJacobi N A _ _ None => [(N, A)]
    | MGJacobi N A _ _ (Some s') => (N, A) :: levels s'
    end.


  Lemma create_wf nl : forall nx ny nc ni d s, (1 <= nx)%nat -> (1 <= ny)%nat ->
    createVcycle nx ny gen nl nc ni d = Ok s -> wf nx ny s.
  Proof.
    assert (Hlow : forall nx ny nc ni d s,
      bind (gen nx ny) (fun A => if (d : bool) then Ok (MGDirect (nx * ny) A) else Ok (MGJacobi (nx * ny) A nc ni None)) = Ok s ->
      wf nx ny s).
    { intros nx ny nc ni d s E. destruct (gen nx ny) as [A|e]; cbn [bind] in E; [|discriminate].
      destruct d; injection E as <-; constructor. }
    induction nl as [|nl IH]; intros nx ny nc ni d s Hnx Hny E; cbn [createVcycle createVcycle_] in E.
    - eapply Hlow; exact E.
    - destruct nl as [|nl]; [eapply Hlow; exact E|].
      destruct ((((nx - 1) mod 2 =? 1) || ((ny - 1) mod 2 =? 1))%nat) eqn:Eh; [eapply Hlow; exact E|].
      apply halvable_dec in Eh. fold (half nx) (half ny) in E.
      match type of E with bind ?m _ = _ => destruct m as [sub|e] eqn:Es end; cbn [bind] in E; [|discriminate].
      destruct (gen nx ny) as [A|e]; cbn [bind] in E; [|discriminate]. injection E as <-.
      constructor; try assumption. eapply IH; [| |exact Es]; unfold half; lia.
  Qed.

  Lemma create_levels nl : forall nx ny nc ni d s, createVcycle nx ny gen nl nc ni d = Ok s ->
    (length (levels s) <= Nat.max 1 nl)%nat /\
    (forall i N A, nth_error (levels s) i = Some (N, A) ->
       N = (iter i half nx * iter i half ny)%nat /\ gen (iter i half nx) (iter i half ny) = Ok A) /\
    (forall i, (S i < length (levels s))%nat -> halvable (iter i half nx) (iter i half ny)) /\
    (length (levels s) < Nat.max 1 nl -> ~ halvable (iter (length (levels s) - 1) half nx) (iter (length (levels s) - 1) half ny))%nat.
  Proof.
    assert (Hlow : forall nl nx ny nc ni d s,
      bind (gen nx ny) (fun A => if (d : bool) then Ok (MGDirect (nx * ny) A) else Ok (MGJacobi (nx * ny) A nc ni None)) = Ok s ->
      (nl <= 1 \/ ~ halvable nx ny)%nat ->
      (length (levels s) <= Nat.max 1 nl)%nat /\
      (forall i N A, nth_error (levels s) i = Some (N, A) ->
         N = (iter i half nx * iter i half ny)%nat /\ gen (iter i half nx) (iter i half ny) = Ok A) /\
      (forall i, (S i < length (levels s))%nat -> halvable (iter i half nx) (iter i half ny)) /\
      (length (levels s) < Nat.max 1 nl -> ~ halvable (iter (length (levels s) - 1) half nx) (iter (length (levels s) - 1) half ny))%nat).
    { clear nl. intros nl nx ny nc ni d s E Hnl. destruct (gen nx ny) as [A|e] eqn:EA; cbn [bind] in E; [|discriminate].
      assert (El : levels s = [((nx * ny)%nat, A)]) by (destruct d; injection E as <-; reflexivity).
      rewrite El. cbn [length Nat.sub iter]. split; [lia|]. split; [|split].
      - intros [|i] N A' Hi; cbn [nth_error] in Hi; [injection Hi as <- <-; split; [reflexivity|exact EA]|destruct i; discriminate].
      - intros i Hi. lia.
      - intros Hl. destruct Hnl as [Hnl|Hnl]; [lia|exact Hnl]. }
    induction nl as [|nl IH]; intros nx ny nc ni d s E; cbn [createVcycle createVcycle_] in E.
    - eapply Hlow; [exact E|lia].
    - destruct nl as [|nl]; [eapply Hlow; [exact E|lia]|].
      destruct ((((nx - 1) mod 2 =? 1) || ((ny - 1) mod 2 =? 1))%nat) eqn:Eh.
      { eapply Hlow; [exact E|]. right. intros Hh. apply halvable_dec in Hh. congruence. }
      apply halvable_dec in Eh. fold (half nx) (half ny) in E.
      match type of E with bind ?m _ = _ => destruct m as [sub|e] eqn:Es end; cbn [bind] in E; [|discriminate].
      destruct (gen nx ny) as [A|e] eqn:EA; cbn [bind] in E; [|discriminate]. injection E as <-.
      destruct (IH (half nx) (half ny) 1%nat ni d sub Es) as (H1 & H2 & H3 & H4). cbn [levels length].
      assert (Hpos : (1 <= length (levels sub))%nat) by (destruct sub as [?|? ? ? ? [?|]]; cbn; lia).
      split; [lia|]. split; [|split].
      + intros [|i] N A' Hi; cbn [nth_error iter] in *; [injection Hi as <- <-; split; [reflexivity|exact EA]|].
        apply (H2 i N A' Hi).
      + intros [|i] Hi; cbn [iter]; [exact Eh|]. apply H3. lia.
      + intros Hl. replace (S (length (levels sub)) - 1)%nat with (S (length (levels sub) - 1)) by lia.
        cbn [iter]. apply H4. lia.
  Qed.
End Create.

(** Closed forms used in the property statements *)
Lemma iter_half i n : (1 <= n)%nat -> iter i half n = ((n - 1) / 2 ^ i + 1)%nat.
Proof.
  revert n. induction i as [|i IH]; intros n Hn; cbn [iter].
  - cbn [Nat.pow]. rewrite Nat.div_1_r. lia.
  - rewrite IH by (unfold half; lia). unfold half. replace ((n - 1) / 2 + 1 - 1)%nat with ((n - 1) / 2)%nat by lia.
    rewrite Nat.div_div by (try lia; apply Nat.pow_nonzero; lia). reflexivity.
Qed.
Lemma create_dims (gen : nat -> nat -> result (arr2 R)) nl nx ny nc ni d s : (1 <= nx)%nat -> (1 <= ny)%nat ->
  createVcycle nx ny gen nl nc ni d = Ok s ->
  let L := length (levels s) in
  (1 <= L <= Nat.max 1 nl)%nat /\
  (forall i, (i < L)%nat -> (Nat.divide (2 ^ i) (nx - 1) /\ Nat.divide (2 ^ i) (ny - 1)) /\
     exists A, gen ((nx - 1) / 2 ^ i + 1)%nat ((ny - 1) / 2 ^ i + 1)%nat = Ok A /\
       nth_error (levels s) i = Some ((((nx - 1) / 2 ^ i + 1) * ((ny - 1) / 2 ^ i + 1))%nat, A)) /\
  ((L < nl)%nat -> Nat.odd ((nx - 1) / 2 ^ (L - 1)) = true \/ Nat.odd ((ny - 1) / 2 ^ (L - 1)) = true).
Proof.
  intros Hnx Hny E L. destruct (create_levels gen nl nx ny nc ni d s E) as (H1 & H2 & H3 & H4). fold L in H1, H3, H4.
  assert (HL : (1 <= L)%nat) by (unfold L; destruct s as [? ?|? ? ? ? [?|]]; cbn; lia).
  split; [lia|]. split.
  - intros i Hi. split.
    + assert (HD : forall k, (k <= i)%nat -> Nat.divide (2 ^ k) (nx - 1) /\ Nat.divide (2 ^ k) (ny - 1)).
      { induction k as [|k IHk]; intros Hk; [split; apply Nat.divide_1_l|].
        destruct IHk as (D1 & D2); [lia|]. destruct (H3 k ltac:(lia)) as (P1 & P2).
        rewrite !iter_half in P1, P2 by assumption.
        rewrite Nat.add_sub in P1.
        rewrite Nat.add_sub in P2.
        assert (Hp : (2 ^ k <> 0)%nat) by (apply Nat.pow_nonzero; lia).
        destruct D1 as (a & Ea), D2 as (c & Ec). rewrite Ea, Nat.div_mul in P1 by exact Hp. rewrite Ec, Nat.div_mul in P2 by exact Hp.
        cbn [Nat.pow]. split; [exists (a / 2)%nat|exists (c / 2)%nat].
        - rewrite Ea. assert (a = 2 * (a / 2))%nat by lia. nia.
        - rewrite Ec. assert (c = 2 * (c / 2))%nat by lia. nia. }
      apply HD. lia.
    + destruct (nth_error (levels s) i) as [(N, A)|] eqn:En.
      * destruct (H2 i N A En) as (EN & EA). rewrite !iter_half in EN, EA by assumption. exists A. split; [exact EA|]. rewrite EN. reflexivity.
      * apply nth_error_None in En. unfold L in Hi. lia.
  - intros Hl. assert (H4' := H4 ltac:(lia)). rewrite !iter_half in H4' by assumption. unfold halvable in H4'.
    rewrite !Nat.add_sub in H4'.
    set (a := ((nx - 1) / 2 ^ (L - 1))%nat) in *. set (c := ((ny - 1) / 2 ^ (L - 1))%nat) in *.
    destruct (Nat.odd a) eqn:Oa; [left; reflexivity|]. destruct (Nat.odd c) eqn:Oc; [right; reflexivity|].
    exfalso. apply H4'. rewrite <- Nat.negb_even in Oa, Oc. apply negb_false_iff in Oa, Oc.
    apply Nat.even_spec in Oa, Oc. destruct Oa as (p & ->), Oc as (q & ->). lia.
Qed.
Lemma create_top (gen : nat -> nat -> result (arr2 R)) nl nx ny nc ni d s : createVcycle nx ny gen nl nc ni d = Ok s -> gen nx ny = Ok (top_matrix s).
Proof.
  intros E. destruct (create_levels gen nl nx ny nc ni d s E) as (_ & H2 & _).
  destruct s as [N A|N A c i [s'|]]; cbn [top_matrix]; apply (H2 O N A); reflexivity.
Qed.
Lemma create_ncycle (gen : nat -> nat -> result (arr2 R)) nl nx ny nc ni d s : createVcycle nx ny gen nl nc ni d = Ok s ->
  match s with MGDirect _ _ => True | MGJacobi _ _ nc' ni' _ => nc' = nc /\ ni' = ni end.
Proof.
  intros E. destruct nl as [|[|nl]]; unfold createVcycle in E; cbn [createVcycle_] in E.
  1,2: destruct (gen nx ny) as [A|]; cbn [bind] in E; [|discriminate]; destruct d; injection E as <-; auto.
  destruct (((nx - 1) mod 2 =? 1) || ((ny - 1) mod 2 =? 1))%nat.
  - destruct (gen nx ny) as [A|]; cbn [bind] in E; [|discriminate]; destruct d; injection E as <-; auto.
  - match type of E with bind ?m _ = _ => destruct m as [sub|e] eqn:Es end; cbn [bind] in E; [|discriminate].
    destruct (gen nx ny) as [A|]; cbn [bind] in E; [|discriminate]; injection E as <-; auto.
Qed.
