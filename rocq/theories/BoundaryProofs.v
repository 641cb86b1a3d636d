(** Lemmas about the boundary conditions. *)
From Coq Require Import List Arith ZArith Bool Reals Lra Lia FunctionalExtensionality.
From Coquelicot Require Import Coquelicot.
From Verif Require Import Py Num Numpy Romb RombProofs RombExact Boundary BoundarySpec.
Import ListNotations.
Local Open Scope R_scope.

Lemma foldM_map {S A B} (f : S -> B -> result S) (g : A -> B) l : forall s, foldM f (map g l) s = foldM (fun s a => f s (g a)) l s.
Proof. induction l as [|a l IH]; intros s; cbn [map foldM]; [reflexivity|]. destruct (f s (g a)); cbn [bind]; auto. Qed.

(** ** Edges *)
Lemma edge_cases nx ny x y : (x < nx)%nat -> (y < ny)%nat -> on_edge nx ny x y \/ inside nx ny x y.
Proof. unfold on_edge, inside. lia. Qed.
Lemma edge_not_inside nx ny x y : on_edge nx ny x y -> ~ inside nx ny x y.
Proof. unfold on_edge, inside. lia. Qed.

Ltac bcase := repeat match goal with
  | |- context [(?a =? ?b)%nat] => destruct (Nat.eqb_spec a b)
  | |- context [(?a <? ?b)%nat] => destruct (Nat.ltb_spec a b)
  end; cbn [andb orb].

Lemma set_edges_spec {T} `{Num T} nx ny (a v : arr2 T) : (0 < nx)%nat -> (0 < ny)%nat ->
  exists a', set_edges nx ny a v = Ok a' /\
  forall x y, (x < nx)%nat -> (y < ny)%nat -> (on_edge nx ny x y -> a' x y = v x y) /\ (inside nx ny x y -> a' x y = a x y).
Proof.
  intros Hx Hy. unfold set_edges. destruct (Nat.eqb_spec nx 0); [lia|]. destruct (Nat.eqb_spec ny 0); [lia|]. cbn [orb].
  eexists. split; [reflexivity|]. intros x y Lx Ly. unfold set_col, set_row, on_edge, inside.
  split; intros E; bcase; try reflexivity; lia.
Qed.
Lemma set_edges_empty {T} `{Num T} nx ny (a v : arr2 T) : (nx = 0 \/ ny = 0)%nat -> set_edges nx ny a v = Raise IndexError.
Proof. intros E. unfold set_edges. bcase; try reflexivity; lia. Qed.

(** ** Runs of assignments *)
Lemma run_x (F : nat -> result R) (G : nat -> R) y0 : forall n, (forall x, (x < n)%nat -> F x = Ok (G x)) -> forall psi : arr2 R,
  foldM (fun p x => bind (F x) (fun v => Ok (upd2 p x y0 v))) (range 0 n) psi
  = Ok (fun x y => if ((x <? n) && (y =? y0))%nat then G x else psi x y).
Proof.
  unfold range. intros n. rewrite Nat.sub_0_r. induction n as [|n IH]; intros HF psi.
  - reflexivity.
  - rewrite seq_S, foldM_app, IH by (intros; apply HF; lia). cbn [bind foldM Nat.add]. rewrite HF by lia. cbn [bind].
    f_equal. extensionality x. extensionality y. unfold upd2. bcase; subst; try reflexivity; try lia.
Qed.
Lemma run_y (F : nat -> result R) (G : nat -> R) x0 : forall n, (forall y, (y < n)%nat -> F y = Ok (G y)) -> forall psi : arr2 R,
  foldM (fun p y => bind (F y) (fun v => Ok (upd2 p x0 y v))) (range 0 n) psi
  = Ok (fun x y => if ((y <? n) && (x =? x0))%nat then G y else psi x y).
Proof.
  unfold range. intros n. rewrite Nat.sub_0_r. induction n as [|n IH]; intros HF psi.
  - reflexivity.
  - rewrite seq_S, foldM_app, IH by (intros; apply HF; lia). cbn [bind foldM Nat.add]. rewrite HF by lia. cbn [bind].
    f_equal. extensionality x. extensionality y. unfold upd2. bcase; subst; try reflexivity; try lia.
Qed.

(** The loops over the four edges: the value at an edge point is the one of the last assignment. *)
Lemma edge_loop (F : nat -> nat -> nat -> result R) (G : nat -> nat -> nat -> R) nx ny (psi : arr2 R) :
  (forall d x y, (x < nx)%nat -> (y < ny)%nat -> F d x y = Ok (G d x y)) -> (0 < nx)%nat -> (0 < ny)%nat ->
  exists psi',
    foldM (fun p (dxy : nat * (nat * nat)) => bind (F (fst dxy) (fst (snd dxy)) (snd (snd dxy)))
            (fun v => Ok (upd2 p (fst (snd dxy)) (snd (snd dxy)) v)))
      (map (fun x => (0, (x, 0)))%nat (range 0 nx) ++ map (fun x => (1, (x, ny - 1)))%nat (range 0 nx)
       ++ map (fun y => (2, (0, y)))%nat (range 0 ny) ++ map (fun y => (3, (nx - 1, y)))%nat (range 0 ny)) psi = Ok psi' /\
    forall x y, (x < nx)%nat -> (y < ny)%nat ->
      (on_edge nx ny x y -> psi' x y = G (if S x =? nx then 3 else if x =? 0 then 2 else if S y =? ny then 1 else 0)%nat x y) /\
      (inside nx ny x y -> psi' x y = psi x y).
Proof.
  intros HF Hx Hy. rewrite !foldM_app, !foldM_map. cbn [fst snd].
  rewrite (run_x (fun x => F 0%nat x 0%nat) (fun x => G 0%nat x 0%nat)) by (intros; apply HF; lia). cbn [bind].
  rewrite !foldM_app, !foldM_map. cbn [fst snd].
  rewrite (run_x (fun x => F 1%nat x (ny - 1)%nat) (fun x => G 1%nat x (ny - 1)%nat)) by (intros; apply HF; lia). cbn [bind].
  rewrite !foldM_app, !foldM_map. cbn [fst snd].
  rewrite (run_y (fun y => F 2%nat 0%nat y) (fun y => G 2%nat 0%nat y)) by (intros; apply HF; lia). cbn [bind].
  rewrite !foldM_map. cbn [fst snd].
  rewrite (run_y (fun y => F 3%nat (nx - 1)%nat y) (fun y => G 3%nat (nx - 1)%nat y)) by (intros; apply HF; lia).
  eexists. split; [reflexivity|]. intros x y Lx Ly. unfold on_edge, inside.
  split; intros E; bcase; subst; try lia; try reflexivity; f_equal; try lia.
Qed.

(** ** freeBoundary *)
Lemma spacing_R_ok nx ny (gR : nat -> nat -> R) : (2 <= nx)%nat -> (1 <= ny)%nat -> spacing_R nx ny gR = Ok (gR 1%nat 0%nat - gR 0%nat 0%nat).
Proof. intros. unfold spacing_R. bcase; try lia. reflexivity. Qed.
Lemma spacing_Z_ok nx ny (gZ : nat -> nat -> R) : (1 <= nx)%nat -> (2 <= ny)%nat -> spacing_Z nx ny gZ = Ok (gZ 0%nat 1%nat - gZ 0%nat 0%nat).
Proof. intros. unfold spacing_Z. bcase; try lia. reflexivity. Qed.
Section Free.
  Variables (greens : R -> R -> R -> R -> R) (nx ny : nat) (gR gZ J : nat -> nat -> R).
  Let gf x y := fun i j => upd2 (fun i j => greens (gR i j) (gZ i j) (gR x y) (gZ x y)) x y 0 i j * J i j.

  Lemma dyadic_ge2 n : dyadic n -> (2 <= n)%nat.
  Proof. intros (k & ->). assert (H := Nat.pow_nonzero 2 k). lia. Qed.

  Lemma romb2_dyadic a : dyadic nx -> dyadic ny -> exists s, romb2 nx ny a = Ok s.
  Proof. intros (kx & ->) (ky & ->). rewrite romb2_rt. eauto. Qed.

  Lemma freeBoundary_spec (psi : nat -> nat -> R) : dyadic nx -> dyadic ny ->
    exists psi', freeBoundary greens nx ny gR gZ J psi = Ok psi' /\
    forall x y, (x < nx)%nat -> (y < ny)%nat ->
      (on_edge nx ny x y -> plasma_flux_at greens nx ny gR gZ J x y (psi' x y)) /\
      (inside nx ny x y -> psi' x y = psi x y).
  Proof.
    intros Dx Dy. assert (Nx := dyadic_ge2 _ Dx). assert (Ny := dyadic_ge2 _ Dy).
    unfold freeBoundary. rewrite spacing_R_ok, spacing_Z_ok by lia. cbn [bind].
    set (hR := gR 1%nat 0%nat - gR 0%nat 0%nat). set (hZ := gZ 0%nat 1%nat - gZ 0%nat 0%nat).
    destruct Dx as (kx & Ex), Dy as (ky & Ey).
    assert (HF : forall d x y : nat, (x < nx)%nat -> (y < ny)%nat ->
        (fun (d x y : nat) => bind (romb2 nx ny (gf x y)) (fun v => Ok (v * hR * hZ))) d x y = Ok ((fun (d x y : nat) => R2 kx ky (gf x y) * hR * hZ) d x y)).
    { intros d x y _ _. cbn beta. rewrite Ex, Ey, romb2_rt. reflexivity. }
    destruct (edge_loop _ _ nx ny psi HF ltac:(lia) ltac:(lia)) as (psi' & E & HS).
    exists psi'. split.
    - rewrite <- E. unfold bndry_indices. rewrite !foldM_app, !foldM_map.
      assert (EQ : forall p x y, (let (a, b) := (x, y) : nat * nat in
          bind (romb2 nx ny (fun i j => upd2 (fun i j => greens (gR i j) (gZ i j) (gR a b) (gZ a b)) a b n0 i j * J i j)%num) (fun v => Ok (upd2 p a b (v * hR * hZ)%num)))
          = bind (bind (romb2 nx ny (gf x y)) (fun v => Ok (v * hR * hZ))) (fun v => Ok (upd2 p x y v))).
      { intros p x y. cbn iota. change (fun i j : nat => (upd2 (fun i0 j0 => greens (gR i0 j0) (gZ i0 j0) (gR x y) (gZ x y)) x y n0 i j * J i j)%num) with (gf x y).
        destruct (romb2 nx ny (gf x y)); reflexivity. }
      rewrite (foldM_ext _ _ _ _ (fun p x => EQ p x 0%nat)). cbn [fst snd].
      match goal with |- bind ?a _ = bind ?b _ => change b with a; destruct a as [p1|e]; cbn [bind]; [|reflexivity] end.
      rewrite !foldM_app, !foldM_map. rewrite (foldM_ext _ _ _ _ (fun p x => EQ p x (ny - 1)%nat)). cbn [fst snd].
      match goal with |- bind ?a _ = bind ?b _ => change b with a; destruct a as [p2|e]; cbn [bind]; [|reflexivity] end.
      rewrite !foldM_app, !foldM_map. rewrite (foldM_ext _ _ _ _ (fun p y => EQ p 0%nat y)). cbn [fst snd].
      match goal with |- bind ?a _ = bind ?b _ => change b with a; destruct a as [p3|e]; cbn [bind]; [|reflexivity] end.
      rewrite !foldM_map. rewrite (foldM_ext _ _ _ _ (fun p y => EQ p (nx - 1)%nat y)). reflexivity.
    - intros x y Lx Ly. destruct (HS x y Lx Ly) as (H1 & H2). split; [|exact H2]. intros Hedge. rewrite (H1 Hedge).
      exists (R2 kx ky (gf x y)). split; [|reflexivity]. rewrite Ex, Ey, romb2_rt. reflexivity.
  Qed.

  Lemma freeBoundary_bad (psi : nat -> nat -> R) : ~ (dyadic nx /\ dyadic ny) -> exists e, freeBoundary greens nx ny gR gZ J psi = Raise e.
  Proof.
    intros HD. unfold freeBoundary. destruct (spacing_R nx ny gR) as [hR|e] eqn:ER; cbn [bind]; [|eauto].
    destruct (spacing_Z nx ny gZ) as [hZ|e] eqn:EZ; cbn [bind]; [|eauto].
    assert (Nx : (2 <= nx)%nat) by (unfold spacing_R in ER; revert ER; bcase; intros; try discriminate; lia).
    unfold bndry_indices, range. rewrite Nat.sub_0_r. destruct nx as [|n] eqn:Enx; [lia|]. cbn [seq map app foldM].
    destruct (romb2 (S n) ny _) as [v|e] eqn:E2; cbn [bind]; [|eauto].
    exfalso. apply HD. apply romb2_ok in E2. destruct E2 as (kx & ky & E1 & E2). split; [exists kx|exists ky]; assumption.
  Qed.
End Free.

(** ** von Hagenow's method *)
Lemma onesided_R (g : nat -> R) h : onesided g h = minus_slope g h.
Proof.
  unfold onesided, minus_slope, coeffs, lsum, nlit. cbn [map fold_right fst snd]. nR. f_equal. lra.
Qed.
Lemma slope_ext (g g' : nat -> R) h : (forall k, (k <= 4)%nat -> g k = g' k) -> minus_slope g h = minus_slope g' h.
Proof. intros E. unfold minus_slope. rewrite !E by lia. reflexivity. Qed.
Lemma outward_L nx ny hR hZ (u : nat -> nat -> R) y : (5 <= nx)%nat -> (5 <= ny)%nat -> (y < ny)%nat ->
  dUdn_L nx ny u hR (sqrt (hR * hR + hZ * hZ)) y = outward nx ny hR hZ u 0 y.
Proof.
  intros Hx Hy Ly. unfold dUdn_L, outward. rewrite !onesided_R. replace (hR ^ 2 + hZ ^ 2) with (hR * hR + hZ * hZ) by ring.
  bcase; try lia; subst; try reflexivity; apply slope_ext; intros k Hk; cbn beta; f_equal; lia.
Qed.
Lemma outward_R nx ny hR hZ (u : nat -> nat -> R) y : (5 <= nx)%nat -> (5 <= ny)%nat -> (y < ny)%nat ->
  dUdn_R nx ny u hR (sqrt (hR * hR + hZ * hZ)) y = outward nx ny hR hZ u (nx - 1) y.
Proof.
  intros Hx Hy Ly. unfold dUdn_R, outward. rewrite !onesided_R. replace (hR ^ 2 + hZ ^ 2) with (hR * hR + hZ * hZ) by ring.
  bcase; try lia; subst; try reflexivity; apply slope_ext; intros k Hk; cbn beta; f_equal; lia.
Qed.
Lemma outward_D nx ny hR hZ (u : nat -> nat -> R) x : (5 <= nx)%nat -> (5 <= ny)%nat -> (x < nx)%nat ->
  dUdn_D nx ny u hZ (sqrt (hR * hR + hZ * hZ)) x = outward nx ny hR hZ u x 0.
Proof.
  intros Hx Hy Ly. unfold dUdn_D, outward. rewrite !onesided_R. replace (hR ^ 2 + hZ ^ 2) with (hR * hR + hZ * hZ) by ring.
  bcase; try lia; subst; try reflexivity; apply slope_ext; intros k Hk; cbn beta; f_equal; lia.
Qed.
Lemma outward_U nx ny hR hZ (u : nat -> nat -> R) x : (5 <= nx)%nat -> (5 <= ny)%nat -> (x < nx)%nat ->
  dUdn_U nx ny u hZ (sqrt (hR * hR + hZ * hZ)) x = outward nx ny hR hZ u x (ny - 1).
Proof.
  intros Hx Hy Ly. unfold dUdn_U, outward. rewrite !onesided_R. replace (hR ^ 2 + hZ ^ 2) with (hR * hR + hZ * hZ) by ring.
  bcase; try lia; subst; try reflexivity; apply slope_ext; intros k Hk; cbn beta; f_equal; lia.
Qed.

Lemma romb_dyadic n (a : nat -> R) dx : dyadic n -> exists s, romb n a dx = Ok s.
Proof. intros (k & ->). apply romb_ok_iff. eauto. Qed.
Lemma romb_ext n (a b : nat -> R) dx : (forall i, (i < n)%nat -> a i = b i) -> romb n a dx = romb n b dx.
Proof.
  intros E. destruct (romb n a dx) as [s|e] eqn:Ea.
  - assert (D : exists k, n = S (2 ^ k)) by (apply (romb_ok_iff n a dx); eauto). destruct D as (k & ->).
    rewrite romb_rt in Ea |- *. rewrite <- Ea. f_equal. apply rt_ext; [|lia]. intros t Ht. apply E. lia.
  - assert (Hb : forall k, n <> S (2 ^ k)).
    { intros k Hk. assert (D : exists v, romb n a dx = Ok v) by (apply romb_ok_iff; eauto). destruct D as (v & D). congruence. }
    rewrite romb_bad in Ea by exact Hb. rewrite romb_bad by exact Hb. congruence.
Qed.

Section Hagenow.
  Variables (greens : R -> R -> R -> R -> R) (nx ny : nat) (gR gZ J : nat -> nat -> R).
  Let hR := gR 1%nat 0%nat - gR 0%nat 0%nat.
  Let hZ := gZ 0%nat 1%nat - gZ 0%nat 0%nat.

  Lemma loop_integral_spec (u : nat -> nat -> R) r z : dyadic nx -> dyadic ny -> (5 <= nx)%nat -> (5 <= ny)%nat ->
    exists v, loop_integral greens nx ny gR gZ u hR hZ (sqrt (hR * hR + hZ * hZ)) r z = Ok v /\ contour_flux greens nx ny gR gZ u r z v.
  Proof.
    intros Dx Dy Nx Ny. unfold loop_integral, contour_flux. fold hR hZ.
    set (d x y := greens (gR x y) (gZ x y) r z * outward nx ny hR hZ u x y / gR x y). cbv zeta.
    rewrite (romb_ext ny (fun i => (greens (gR 0%nat i) (gZ 0%nat i) r z * dUdn_L nx ny u hR (sqrt (hR * hR + hZ * hZ)) i / gR 0%nat i)%num) (fun y => d 0%nat y) n1) by (intros i Hi; rewrite outward_L by assumption; reflexivity).
    rewrite (romb_ext ny (fun i => (greens (gR (nx - 1)%nat i) (gZ (nx - 1)%nat i) r z * dUdn_R nx ny u hR (sqrt (hR * hR + hZ * hZ)) i / gR (nx - 1)%nat i)%num) (fun y => d (nx - 1)%nat y) n1) by (intros i Hi; rewrite outward_R by assumption; reflexivity).
    rewrite (romb_ext nx (fun i => (greens (gR i 0%nat) (gZ i 0%nat) r z * dUdn_D nx ny u hZ (sqrt (hR * hR + hZ * hZ)) i / gR i 0%nat)%num) (fun x => d x 0%nat) n1) by (intros i Hi; rewrite outward_D by assumption; reflexivity).
    rewrite (romb_ext nx (fun i => (greens (gR i (ny - 1)%nat) (gZ i (ny - 1)%nat) r z * dUdn_U nx ny u hZ (sqrt (hR * hR + hZ * hZ)) i / gR i (ny - 1)%nat)%num) (fun x => d x (ny - 1)%nat) n1) by (intros i Hi; rewrite outward_U by assumption; reflexivity).
    destruct (romb_dyadic ny (fun y => d 0%nat y) n1 Dy) as (s1 & E1).
    destruct (romb_dyadic ny (fun y => d (nx - 1)%nat y) n1 Dy) as (s2 & E2).
    destruct (romb_dyadic nx (fun x => d x 0%nat) n1 Dx) as (s3 & E3).
    destruct (romb_dyadic nx (fun x => d x (ny - 1)%nat) n1 Dx) as (s4 & E4).
    rewrite E1; cbn [bind]. rewrite E2; cbn [bind]. rewrite E3; cbn [bind]. rewrite E4; cbn [bind].
    eexists. split; [reflexivity|]. exists (s1 * hZ), (s2 * hZ), (s3 * hR), (s4 * hR).
    repeat split; [exists s1|exists s2|exists s3|exists s4]; split; try reflexivity; assumption.
  Qed.

  Lemma hagenow_spec (callSolver : (nat -> nat -> R) -> (nat -> nat -> R) -> result ((nat -> nat -> R) * (nat -> nat -> R))) (psi : nat -> nat -> R) :
    dyadic nx -> dyadic ny -> (5 <= nx)%nat -> (5 <= ny)%nat ->
    exists s, current_source nx ny gR J s /\
      (forall e, callSolver psi s = Raise e -> freeBoundaryHagenow greens sqrt nx ny callSolver gR gZ J psi = Raise e) /\
      (forall psi1 u, callSolver psi s = Ok (psi1, u) ->
        exists psi', freeBoundaryHagenow greens sqrt nx ny callSolver gR gZ J psi = Ok psi' /\
        forall x y, (x < nx)%nat -> (y < ny)%nat ->
          (on_edge nx ny x y -> let (r, z) := observer nx ny gR gZ x y in contour_flux greens nx ny gR gZ u r z (psi' x y)) /\
          (inside nx ny x y -> psi' x y = psi1 x y)).
  Proof.
    intros Dx Dy Nx Ny. unfold freeBoundaryHagenow. rewrite (spacing_R_ok nx ny gR), (spacing_Z_ok nx ny gZ) by lia. cbn [bind]. fold hR hZ.
    assert (Px : (0 < nx)%nat) by lia. assert (Py : (0 < ny)%nat) by lia.
    destruct (set_edges_spec nx ny (fun i j => (gR i j * J i j)%num) zeros2 Px Py) as (s & Es & Hs).
    exists s. split.
    { intros x y. split.
      - intros Hi. destruct (Hs x y) as (_ & H2); [unfold inside in Hi; lia|unfold inside in Hi; lia|]. exact (H2 Hi).
      - intros He. destruct (Hs x y) as (H1 & _); [apply He|apply He|]. exact (H1 He). }
    rewrite Es. cbn [bind]. split.
    { intros e Ee. rewrite Ee. reflexivity. }
    intros psi1 u Eu. rewrite Eu. cbn [bind].
    destruct (Nat.ltb_spec nx 5); [lia|]. destruct (Nat.ltb_spec ny 5); [lia|]. cbn [orb].
    change (@nsqr R Num_R) with (fun a : R => a * a). cbv beta. change (@nadd R Num_R) with Rplus.
    set (offR d := match d with 2%nat => - hagenow_eps | 3%nat => hagenow_eps | _ => 0 end).
    set (offZ d := match d with 0%nat => - hagenow_eps | 1%nat => hagenow_eps | _ => 0 end).
    assert (HF : exists G : nat -> nat -> nat -> R, forall d x y, 
      loop_integral greens nx ny gR gZ u hR hZ (sqrt (hR * hR + hZ * hZ)) (gR x y + offR d) (gZ x y + offZ d) = Ok (G d x y) /\
      contour_flux greens nx ny gR gZ u (gR x y + offR d) (gZ x y + offZ d) (G d x y)).
    { exists (fun d x y => match loop_integral greens nx ny gR gZ u hR hZ (sqrt (hR * hR + hZ * hZ)) (gR x y + offR d) (gZ x y + offZ d) with Ok v => v | Raise _ => 0 end).
      intros d x y. destruct (loop_integral_spec u (gR x y + offR d) (gZ x y + offZ d) Dx Dy Nx Ny) as (v & E & Hv).
      rewrite E. auto. }
    destruct HF as (G & HG).
    destruct (edge_loop (fun d x y => loop_integral greens nx ny gR gZ u hR hZ (sqrt (hR * hR + hZ * hZ)) (gR x y + offR d) (gZ x y + offZ d)) G nx ny psi1
      (fun d x y _ _ => proj1 (HG d x y)) ltac:(lia) ltac:(lia)) as (psi' & E & HS).
    exists psi'. split.
    - rewrite <- E. unfold hagenow_indices.
      rewrite !foldM_app, !foldM_map. cbn [fst snd].
      match goal with |- bind ?a _ = bind ?b _ => change b with a; destruct a as [p1|e]; cbn [bind]; [|reflexivity] end.
      rewrite !foldM_app, !foldM_map. cbn [fst snd].
      match goal with |- bind ?a _ = bind ?b _ => change b with a; destruct a as [p2|e]; cbn [bind]; [|reflexivity] end.
      rewrite !foldM_app, !foldM_map. cbn [fst snd].
      match goal with |- bind ?a _ = bind ?b _ => change b with a; destruct a as [p3|e]; cbn [bind]; [|reflexivity] end.
      rewrite !foldM_map. reflexivity.
    - intros x y Lx Ly. destruct (HS x y Lx Ly) as (H1 & H2). split; [|exact H2]. intros He. rewrite (H1 He).
      unfold observer. assert (Eps : @hagenow_eps R Num_R = 1 / 100) by (unfold hagenow_eps, nlit; nR; lra).
      match goal with |- context [G ?d x y] => assert (Hd := proj2 (HG d x y)); set (dd := d) in * end.
      assert (EO : offR dd = (if (S x =? nx)%nat then 1 / 100 else if (x =? 0)%nat then - (1 / 100) else 0) /\
        offZ dd = (if ((S x =? nx) || (x =? 0))%nat then 0 else if (S y =? ny)%nat then 1 / 100 else - (1 / 100))).
      { unfold dd, offR, offZ. rewrite Eps. revert He. unfold on_edge. intros He. bcase; try lia; split; reflexivity. }
      destruct EO as (-> & ->) in Hd. exact Hd.
  Qed.
End Hagenow.

(** ** The one-sided difference is a derivative to fourth order *)
Lemma slope_error (f : R -> R) t h M : 0 < h ->
  (forall s k, t <= s <= t + 4 * h -> (k <= 5)%nat -> ex_derive_n f k s) ->
  (forall s, t <= s <= t + 4 * h -> Rabs (Derive_n f 5 s) <= M) ->
  Rabs (minus_slope (fun k => f (t + INR k * h)) h - - Derive f t) <= 17 / 3 * M * h ^ 4.
Proof.
  intros Hh HD HM.
  assert (TL : forall k, (1 <= k <= 4)%nat -> exists z, Rabs (Derive_n f 5 z) <= M /\
     f (t + INR k * h) = f t + INR k * h * Derive f t + (INR k * h) ^ 2 / 2 * Derive_n f 2 t + (INR k * h) ^ 3 / 6 * Derive_n f 3 t
       + (INR k * h) ^ 4 / 24 * Derive_n f 4 t + (INR k * h) ^ 5 / 120 * Derive_n f 5 z).
  { intros k Hk. assert (K1 : 1 <= INR k) by (apply (le_INR 1); lia).
    assert (K4 : INR k <= 4) by (replace 4 with (INR 4) by (cbn; lra); apply le_INR; lia).
    assert (Kh : 0 < INR k * h) by (apply Rmult_lt_0_compat; lra).
    assert (Kh4 : INR k * h <= 4 * h) by (apply Rmult_le_compat_r; lra).
    destruct (Taylor_Lagrange f 4 t (t + INR k * h)) as (z & Hz & E); [lra| |].
    - intros s Hs m Hm. apply HD; [lra|exact Hm].
    - exists z. split; [apply HM; lra|]. rewrite E. replace (t + INR k * h - t) with (INR k * h) by ring.
      set (a := INR k * h). cbn [sum_f_R0]. 
      replace (INR (fact 0)) with 1 by reflexivity. replace (INR (fact 1)) with 1 by reflexivity.
      replace (INR (fact 2)) with 2 by (cbn; ring). replace (INR (fact 3)) with 6 by (cbn; ring).
      replace (INR (fact 4)) with 24 by (cbn; ring). replace (INR (fact 5)) with 120 by (cbn; ring).
      change (Derive_n f 0 t) with (f t). change (Derive_n f 1 t) with (Derive f t). unfold Rdiv. rewrite Rinv_1. cbn [pow]. ring. }
  destruct (TL 1%nat ltac:(lia)) as (z1 & B1 & E1). destruct (TL 2%nat ltac:(lia)) as (z2 & B2 & E2).
  destruct (TL 3%nat ltac:(lia)) as (z3 & B3 & E3). destruct (TL 4%nat ltac:(lia)) as (z4 & B4 & E4).
  unfold minus_slope. rewrite E1, E2, E3, E4. clear E1 E2 E3 E4 TL.
  replace (INR 0) with 0 by reflexivity. replace (INR 1) with 1 by reflexivity. replace (INR 2) with 2 by (cbn; ring).
  replace (INR 3) with 3 by (cbn; ring). replace (INR 4) with 4 by (cbn; ring). rewrite Rmult_0_l, Rplus_0_r.
  set (d1 := Derive_n f 5 z1) in *. set (d2 := Derive_n f 5 z2) in *. set (d3 := Derive_n f 5 z3) in *. set (d4 := Derive_n f 5 z4) in *.
  match goal with |- Rabs ?a <= _ => replace a with (h ^ 4 * ((- 4 * d1 + 96 * d2 - 324 * d3 + 256 * d4) / 120)) by (field; lra) end.
  rewrite Rabs_mult, (Rabs_right (h ^ 4)) by (apply Rle_ge, pow_le; lra).
  rewrite (Rmult_comm (17 / 3 * M)). apply Rmult_le_compat_l; [apply pow_le; lra|].
  assert (A1 := Rabs_def1). clear A1.
  assert (P : forall d, Rabs d <= M -> - M <= d <= M) by (intros d Hd; unfold Rabs in Hd; destruct (Rcase_abs d); lra).
  apply P in B1, B2, B3, B4. unfold Rabs. destruct (Rcase_abs _); lra.
Qed.

Lemma slope_error_left (f : R -> R) t h M : 0 < h ->
  (forall s k, (k <= 5)%nat -> ex_derive_n f k s) ->
  (forall s, t - 4 * h <= s <= t -> Rabs (Derive_n f 5 s) <= M) ->
  Rabs (minus_slope (fun k => f (t - INR k * h)) h - Derive f t) <= 17 / 3 * M * h ^ 4.
Proof.
  intros Hh HD HM.
  assert (HE : forall k s, (k <= 5)%nat -> Derive_n (fun y => f (- y)) k s = (-1) ^ k * Derive_n f k (- s)).
  { intros k s Hk. rewrite Derive_n_comp_opp; [reflexivity|]. apply filter_forall. intros y j Hj. apply HD. lia. }
  assert (H := slope_error (fun y => f (- y)) (- t) h M Hh).
  rewrite (slope_ext _ (fun k => f (- (- t + INR k * h)))) by (intros k _; f_equal; ring).
  replace (- Derive (fun y => f (- y)) (- t)) with (Derive f t) in H.
  - apply H.
    + intros s k Hs Hk. apply ex_derive_n_comp_opp. apply filter_forall. intros y j Hj. apply HD. lia.
    + intros s Hs. rewrite HE by lia. rewrite Rabs_mult. replace (Rabs ((-1) ^ 5)) with 1.
      * rewrite Rmult_1_l. apply HM. lra.
      * replace ((-1) ^ 5) with (-1) by ring. rewrite Rabs_left by lra. lra.
  - change (Derive (fun y => f (- y)) (- t)) with (Derive_n (fun y => f (- y)) 1 (- t)). rewrite HE by lia.
    change (Derive_n f 1) with (Derive f). rewrite Ropp_involutive. ring.
Qed.
