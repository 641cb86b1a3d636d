(** C186-C187: existence and uniqueness of the discrete equilibrium, and contraction with the free boundary. *)
From Coq Require Import String List Arith ZArith QArith Bool Reals Lia Lra FunctionalExtensionality.
From Coquelicot Require Import Coquelicot.
From Verif Require DiagnosticsProofs.
From Verif Require Import Py Num Numpy Linalg GradShafranov GradShafranovProofs Multigrid Coils Machine MachineSpec Critical Romb RombProofs RombExact Boundary BoundarySpec BoundaryProofs
  Equilibrium EquilibriumSpec EquilibriumProofs EquilibriumProofs2 EquilibriumProofs3 GSSpec Gauss EllipticSpec PropGreens PropBoundary PropEquilibrium PropSolveFlux PropSolveError FittingProofs Picard PicardProofs PropPicard PropPicardLimit.
Import ListNotations.
Local Open Scope R_scope.

(** ** Contractions of grid functions *)
Lemma within_trans nx ny a b c d1 d2 : within nx ny a b d1 -> within nx ny b c d2 -> within nx ny a c (d1 + d2).
Proof.
  intros H1 H2 i j Hi Hj. replace (a i j - c i j) with ((a i j - b i j) + (b i j - c i j)) by ring.
  eapply Rle_trans; [apply Rabs_triang|]. apply Rplus_le_compat; [apply H1|apply H2]; assumption.
Qed.
Lemma within_sym nx ny a b d : within nx ny a b d -> within nx ny b a d.
Proof. intros H i j Hi Hj. rewrite Rabs_minus_sym. apply H; assumption. Qed.
Section Banach.
  Variables (nx ny : nat) (f : arr2 R -> arr2 R) (q : R).
  Hypothesis Hq : 0 <= q < 1.
  Hypothesis Hf : forall a b d, within nx ny a b d -> within nx ny (f a) (f b) (q * d).
  Variables (a0 : arr2 R) (D : R).
  Hypothesis HD : within nx ny a0 (f a0) D.
  Hypothesis D0 : 0 <= D.
  Fixpoint iter (n : nat) : arr2 R := match n with O => a0 | S n => f (iter n) end.
  Lemma iter_step n : within nx ny (iter n) (iter (S n)) (q ^ n * D).
  Proof using Hf HD.
    induction n as [|n IH]; [replace (q ^ 0 * D) with D by (cbn; ring); exact HD|].
    change (within nx ny (f (iter n)) (f (iter (S n))) (q ^ S n * D)). replace (q ^ S n * D) with (q * (q ^ n * D)) by (cbn [pow]; ring). apply Hf, IH.
  Qed.
  Lemma iter_far n k : within nx ny (iter n) (iter (n + k)) (q ^ n * D / (1 - q)).
  Proof using Hq Hf HD D0.
    assert (H : within nx ny (iter n) (iter (n + k)) (q ^ n * D * (1 - q ^ k) / (1 - q))).
    { induction k as [|k IH].
      - rewrite Nat.add_0_r. intros i j Hi Hj. rewrite Rminus_diag_eq, Rabs_R0 by reflexivity. cbn [pow]. unfold Rdiv. rewrite Rminus_diag_eq by reflexivity. lra.
      - replace (q ^ n * D * (1 - q ^ S k) / (1 - q)) with (q ^ n * D * (1 - q ^ k) / (1 - q) + q ^ (n + k) * D) by (rewrite pow_add; cbn [pow]; field; lra).
        apply within_trans with (1 := IH). replace (n + S k)%nat with (S (n + k)) by lia. apply iter_step. }
    intros i j Hi Hj. eapply Rle_trans; [apply H; assumption|]. unfold Rdiv. apply Rmult_le_compat_r; [apply Rlt_le, Rinv_0_lt_compat; lra|].
    rewrite <- (Rmult_1_r (q ^ n * D)) at 2. assert (A := pow_le q n (proj1 Hq)). assert (B := pow_le q k (proj1 Hq)). apply Rmult_le_compat_l; [apply Rmult_le_pos; assumption|lra].
  Qed.
  Lemma power_small x : 0 < x -> exists n, q ^ n * D / (1 - q) < x.
  Proof using Hq D0.
    intros Hx. destruct (pow_lt_1_zero q) with (y := x * (1 - q) / (D + 1)) as (N & HN); [rewrite Rabs_right; lra|apply Rdiv_lt_0_compat; [apply Rmult_lt_0_compat; lra|lra]|].
    exists N. specialize (HN N (le_n N)). assert (A := pow_le q N (proj1 Hq)). rewrite Rabs_right in HN by lra.
    apply Rmult_lt_reg_r with (1 - q); [lra|]. unfold Rdiv. rewrite Rmult_assoc, Rinv_l, Rmult_1_r by lra.
    apply Rle_lt_trans with (q ^ N * (D + 1)); [apply Rmult_le_compat_l; lra|]. apply (Rmult_lt_compat_r (D + 1)) in HN; [|lra].
    unfold Rdiv in HN. rewrite Rmult_assoc, Rinv_l, Rmult_1_r in HN by lra. exact HN.
  Qed.
  Definition limit : arr2 R := fun i j => real (Lim_seq (fun n => iter n i j)).
  Lemma limit_is i j : (i < nx)%nat -> (j < ny)%nat -> is_lim_seq (fun n => iter n i j) (limit i j).
  Proof using Hq Hf HD D0.
    intros Hi Hj. apply Lim_seq_correct'. apply ex_lim_seq_cauchy_corr. intros eps. destruct (power_small (eps / 2)) as (N & HN); [destruct eps; cbn; lra|].
    exists N. intros n m Hn Hm. assert (A := iter_far N (n - N) i j Hi Hj). assert (B := iter_far N (m - N) i j Hi Hj).
    replace (N + (n - N))%nat with n in A by lia. replace (N + (m - N))%nat with m in B by lia.
    replace (iter n i j - iter m i j) with ((iter N i j - iter m i j) + - (iter N i j - iter n i j)) by ring. eapply Rle_lt_trans; [apply Rabs_triang|]. rewrite Rabs_Ropp. lra.
  Qed.
  Lemma limit_near n : within nx ny (iter n) limit (q ^ n * D / (1 - q)).
  Proof using Hq Hf HD D0.
    intros i j Hi Hj. assert (L := limit_is i j Hi Hj).
    assert (L2 : is_lim_seq (fun m => Rabs (iter n i j - iter m i j)) (Rabs (iter n i j - limit i j))).
    { apply (is_lim_seq_abs _ (Finite (iter n i j - limit i j))). apply is_lim_seq_minus'; [apply is_lim_seq_const|exact L]. }
    apply (is_lim_seq_le_loc (fun m => Rabs (iter n i j - iter m i j)) (fun _ => q ^ n * D / (1 - q)) (Rabs (iter n i j - limit i j)) (q ^ n * D / (1 - q))); [|exact L2|apply is_lim_seq_const].
    exists n. intros m Hm. assert (A := iter_far n (m - n) i j Hi Hj). replace (n + (m - n))%nat with m in A by lia. exact A.
  Qed.
  Lemma limit_fixed i j : (i < nx)%nat -> (j < ny)%nat -> f limit i j = limit i j.
  Proof using Hq Hf HD D0.
    intros Hi Hj. apply Rminus_diag_uniq. apply Rabs_eq_0. apply Rle_antisym; [|apply Rabs_pos]. apply Rnot_lt_le. intros Hp.
    destruct (power_small (Rabs (f limit i j - limit i j) / 2)) as (n & Hn); [lra|].
    assert (A := Hf _ _ _ (limit_near n) i j Hi Hj). assert (B := limit_near (S n) i j Hi Hj). change (iter (S n)) with (f (iter n)) in B.
    assert (C : Rabs (f limit i j - limit i j) <= q * (q ^ n * D / (1 - q)) + q ^ S n * D / (1 - q)).
    { replace (f limit i j - limit i j) with (- (f (iter n) i j - f limit i j) + (f (iter n) i j - limit i j)) by ring. eapply Rle_trans; [apply Rabs_triang|]. rewrite Rabs_Ropp. lra. }
    assert (E : q * (q ^ n * D / (1 - q)) = q ^ S n * D / (1 - q)) by (cbn [pow]; field; lra). rewrite E in C.
    assert (F : q ^ S n * D / (1 - q) <= q ^ n * D / (1 - q)).
    { unfold Rdiv. apply Rmult_le_compat_r; [apply Rlt_le, Rinv_0_lt_compat; lra|]. apply Rmult_le_compat_r; [exact D0|]. cbn [pow]. assert (G := pow_le q n (proj1 Hq)).
      rewrite <- (Rmult_1_l (q ^ n)) at 2. apply Rmult_le_compat_r; lra. }
    lra.
  Qed.
End Banach.

(** ** C186 *)
(** [psi] is an equilibrium flux: solving with it, from any state of the family, gives it back on the grid. *)
Definition equilibrium_flux {E} nx ny (o : ops (T := R) E) pb (S : E -> Prop) (psi : arr2 R) : Prop :=
  forall e, S e -> exists e' psi', eq_solve E o e psi pb = (e', Ok tt) /\ eq_psi E o e' = Ok psi' /\ forall i j, (i < nx)%nat -> (j < ny)%nat -> psi' i j = psi i j.
Section Exists.
  Variables (nx ny : nat) (E : Type) (o : ops (T := R) E) (pb : option R) (S : E -> Prop) (q L : R).
  Hypothesis Hx : (0 < nx)%nat.
  Hypothesis Hy : (0 < ny)%nat.
  Hypothesis HC : contracts nx ny o pb S q L.
  Hypothesis Hq : 0 <= q < 1.
  (** the flux after a solve from the state [e] *)
  Definition next (e : E) (psi : arr2 R) : arr2 R := match eq_psi E o (fst (eq_solve E o e psi pb)) with Ok p => p | Raise _ => psi end.
  Lemma next_ok e psi : S e -> exists e' b, eq_solve E o e psi pb = (e', Ok tt) /\ S e' /\ eq_psi E o e' = Ok (next e psi) /\ bndry_flux E o e' = Some (Some b).
  Proof using HC.
    intros He. destruct HC as (_ & C2 & _). destruct (C2 e psi He) as (e' & psi' & b & Es & He' & Ep & Eb). exists e', b. unfold next. rewrite Es. cbn [fst]. rewrite Ep.
    repeat split; assumption.
  Qed.
  Lemma next_contracts e1 e2 a b d : S e1 -> S e2 -> within nx ny a b d -> within nx ny (next e1 a) (next e2 b) (q * d).
  Proof using HC.
    intros H1 H2 Hw. destruct (next_ok e1 a H1) as (e1' & b1 & Es1 & _ & Ep1 & Eb1). destruct (next_ok e2 b H2) as (e2' & b2 & Es2 & _ & Ep2 & Eb2).
    destruct HC as (_ & _ & C3). exact (proj1 (C3 _ _ _ _ _ _ _ _ _ _ _ H1 H2 Hw Es1 Ep1 Eb1 Es2 Ep2 Eb2)).
  Qed.
  Lemma next_state e1 e2 a i j : S e1 -> S e2 -> (i < nx)%nat -> (j < ny)%nat -> next e1 a i j = next e2 a i j.
  Proof using HC.
    intros H1 H2 Hi Hj. assert (W : within nx ny a a 0) by (intros u v _ _; rewrite Rminus_diag_eq, Rabs_R0 by reflexivity; lra).
    assert (A := next_contracts e1 e2 a a 0 H1 H2 W i j Hi Hj). rewrite Rmult_0_r in A. apply Rminus_diag_uniq, Rabs_eq_0, Rle_antisym; [exact A|apply Rabs_pos].
  Qed.
End Exists.
(** If solving contracts, there is exactly one equilibrium flux; the fluxes of repeated solves converge to it. *)
Theorem C186_exists_unique : forall nx ny E (o : ops (T := R) E) pb (S : E -> Prop) q L e, (0 < nx)%nat -> (0 < ny)%nat ->
  contracts nx ny o pb S q L -> 0 <= q < 1 -> S e ->
  exists psis, equilibrium_flux nx ny o pb S psis /\
    forall psi, equilibrium_flux nx ny o pb S psi -> forall i j, (i < nx)%nat -> (j < ny)%nat -> psi i j = psis i j.
Proof.
  intros nx ny E o pb S q L e Hx Hy HC Hq He.
  set (f := next E o pb e). set (a0 := fun _ _ : nat => 0). set (v := mkvars a0 0 0 None false []).
  assert (HD := maxch_within nx ny v (f a0) Hx Hy). cbn [psi v] in HD. set (D := maxch nx ny v (f a0)) in HD.
  assert (D0 : 0 <= D) by (eapply Rle_trans; [apply Rabs_pos|exact (HD 0%nat 0%nat Hx Hy)]).
  assert (Hf : forall a b d, within nx ny a b d -> within nx ny (f a) (f b) (q * d)) by (intros a b d W; exact (next_contracts nx ny E o pb S q L HC e e a b d He He W)).
  exists (limit f a0). split.
  - intros e1 H1. destruct (next_ok nx ny E o pb S q L HC e1 (limit f a0) H1) as (e' & b & Es & _ & Ep & _). exists e', (next E o pb e1 (limit f a0)). split; [exact Es|]. split; [exact Ep|].
    intros i j Hi Hj. rewrite (next_state nx ny E o pb S q L HC e1 e _ i j H1 He Hi Hj). exact (limit_fixed nx ny f q Hq Hf a0 D HD D0 i j Hi Hj).
  - intros psi Hpsi i j Hi Hj. destruct (Hpsi e He) as (e' & psi' & Es & Ep & Hfix).
    assert (Hn : forall u w, (u < nx)%nat -> (w < ny)%nat -> f psi u w = psi u w).
    { intros u w Hu Hw. unfold f, next. rewrite Es. cbn [fst]. rewrite Ep. apply Hfix; assumption. }
    set (w := mkvars psi 0 0 None false []). assert (W := maxch_within nx ny w (limit f a0) Hx Hy). cbn [Picard.psi w] in W. set (d := maxch nx ny w (limit f a0)) in W.
    assert (Hd : d <= q * d).
    { apply (within_maxch nx ny w (limit f a0)); try assumption. intros u y Hu Hy'. cbn [Picard.psi w]. rewrite <- (Hn u y Hu Hy'), <- (limit_fixed nx ny f q Hq Hf a0 D HD D0 u y Hu Hy'). apply Hf; assumption. }
    assert (A := W i j Hi Hj). assert (B := Rabs_pos (psi i j - limit f a0 i j)). apply Rminus_diag_uniq, Rabs_eq_0. nra.
Qed.
Print Assumptions C186_exists_unique.
(** Two calls of picard.solve, from different states and with different tolerances, blending and iteration limits,
    return nearly the same flux: both are near the one equilibrium flux. *)
Theorem C186_same_result : forall nx ny E (o : ops (T := R) E) (S : E -> Prop) q L p1 p2 fuel1 fuel2 e1 e2 e1' e2' h1 h2 psi1 psi2,
  (0 < nx)%nat -> (0 < ny)%nat -> user_bndry p1 = user_bndry p2 -> contracts nx ny o (user_bndry p1) S q L -> 0 <= q < 1 -> constrain E o = None ->
  check p1 = false -> check p2 = false -> S e1 -> S e2 ->
  picard nx ny E o p1 fuel1 e1 = (e1', Ok h1) -> eq_psi E o e1' = Ok psi1 -> picard nx ny E o p2 fuel2 e2 = (e2', Ok h2) -> eq_psi E o e2' = Ok psi2 ->
  exists psis m1 m2, equilibrium_flux nx ny o (user_bndry p1) S psis /\
    (m1 < atol p1 \/ m1 < rtol p1 * (amax nx ny psi1 - amin nx ny psi1)) /\ (m2 < atol p2 \/ m2 < rtol p2 * (amax nx ny psi2 - amin nx ny psi2)) /\
    within nx ny psi1 psis (q / (1 - q) * m1) /\ within nx ny psi2 psis (q / (1 - q) * m2) /\ within nx ny psi1 psi2 (q / (1 - q) * (m1 + m2)).
Proof.
  intros nx ny E o S q L p1 p2 fuel1 fuel2 e1 e2 e1' e2' h1 h2 psi1 psi2 Hx Hy Hu HC Hq Hcon Hc1 Hc2 H1 H2 R1 E1 R2 E2.
  destruct (C186_exists_unique nx ny E o (user_bndry p1) S q L e1 Hx Hy HC Hq H1) as (psis & Hs & _).
  destruct (C177_accuracy nx ny E o p1 S q L fuel1 e1 e1' h1 psi1 Hx Hy HC Hq Hcon Hc1 H1 R1 E1) as (m1 & _ & _ & _ & _ & M1 & A1).
  assert (HC2 := HC). rewrite Hu in HC2.
  destruct (C177_accuracy nx ny E o p2 S q L fuel2 e2 e2' h2 psi2 Hx Hy HC2 Hq Hcon Hc2 H2 R2 E2) as (m2 & _ & _ & _ & _ & M2 & A2).
  destruct (Hs e1 H1) as (f & psi' & F1 & F2 & F3). assert (F4 := F1). rewrite Hu in F4.
  assert (W1 := A1 _ _ _ _ H1 F1 F2 F3). assert (W2 := A2 _ _ _ _ H1 F4 F2 F3).
  exists psis, m1, m2. split; [exact Hs|]. split; [exact M1|]. split; [exact M2|]. split; [exact W1|]. split; [exact W2|].
  rewrite Rmult_plus_distr_l. apply within_trans with (1 := W1). apply within_sym, W2.
Qed.
Print Assumptions C186_same_result.
Example C186_example : exists A, exists psis,
  equilibrium_flux 5 5 (eq_ops (fun _ _ _ _ _ => 0) sqrt 1 elimination flat_spline linear_profile None) None (lin_state A) psis /\ lin_state A (lin_eq A, tt).
Proof.
  destruct (lin_props elimination elimination_exact) as (A & HS & _ & HC). exists A.
  destruct (C186_exists_unique 5 5 _ _ None (lin_state A) (1 / 10) 0 (lin_eq A, tt) ltac:(lia) ltac:(lia) HC ltac:(lra) HS) as (psis & H & _). exists psis. split; assumption.
Qed.

(** ** C187 *)
(** The flux at any edge point from a unit current density, with the absolute value of the Green's function, is at most B. *)
Definition edge_response {P Ctl} (G : R -> R -> R -> R -> R) (e : equilibrium R P Ctl) (B : R) : Prop :=
  forall x y v, on_edge (e_nx e) (e_ny e) x y ->
    plasma_flux_at (fun r z r' z' => Rabs (G r z r' z')) (e_nx e) (e_ny e) (grid_R e) (grid_Z e) (fun _ _ => 1) x y v -> v <= B.
Lemma R2_abs kx ky a b : (forall i j, (i <= 2 ^ kx)%nat -> (j <= 2 ^ ky)%nat -> Rabs (a i j) <= b i j) -> Rabs (RombProofs.R2 kx ky a) <= RombProofs.R2 kx ky b.
Proof.
  intros H. assert (A := R2_nonneg kx ky (fun i j => 1 * b i j + 1 * a i j)). assert (B := R2_nonneg kx ky (fun i j => 1 * b i j + (-1) * a i j)).
  rewrite !RombProofs.R2_linear in *. apply Rabs_le. split.
  - enough (0 <= 1 * RombProofs.R2 kx ky b + 1 * RombProofs.R2 kx ky a) by lra. apply A. intros i j Hi Hj. specialize (H i j Hi Hj). assert (C := Rle_abs (- a i j)). rewrite Rabs_Ropp in C. lra.
  - enough (0 <= 1 * RombProofs.R2 kx ky b + -1 * RombProofs.R2 kx ky a) by lra. apply B. intros i j Hi Hj. specialize (H i j Hi Hj). assert (C := Rle_abs (a i j)). lra.
Qed.
(** Two current densities that differ by at most D: their fluxes at an edge point differ by at most B D. *)
Lemma edge_diff (G : R -> R -> R -> R -> R) kx ky gR gZ J1 J2 u w v1 v2 B D :
  let nx := S (2 ^ kx) in let ny := S (2 ^ ky) in
  0 < gR 1%nat 0%nat - gR 0%nat 0%nat -> 0 < gZ 0%nat 1%nat - gZ 0%nat 0%nat ->
  (forall v, plasma_flux_at (fun r z r' z' => Rabs (G r z r' z')) nx ny gR gZ (fun _ _ => 1) u w v -> v <= B) ->
  (forall x y, (x < nx)%nat -> (y < ny)%nat -> Rabs (J1 x y - J2 x y) <= D) -> 0 <= D ->
  plasma_flux_at G nx ny gR gZ J1 u w v1 -> plasma_flux_at G nx ny gR gZ J2 u w v2 -> Rabs (v1 - v2) <= B * D.
Proof.
  intros nx ny. set (hR := gR 1%nat 0%nat - gR 0%nat 0%nat). set (hZ := gZ 0%nat 1%nat - gZ 0%nat 0%nat). intros HhR HhZ HB HJ HD (w1 & V1 & ->) (w2 & V2 & ->).
  set (K := fun i j => if ((i =? u)%nat && (j =? w)%nat)%bool then 0 else G (gR i j) (gZ i j) (gR u w) (gZ u w)).
  set (Ka := fun i j => (if ((i =? u)%nat && (j =? w)%nat)%bool then 0 else Rabs (G (gR i j) (gZ i j) (gR u w) (gZ u w))) * 1).
  assert (HBv := HB (RombProofs.R2 kx ky Ka * hR * hZ)).
  unfold nx, ny in V1, V2. rewrite romb2_R2 in V1, V2. apply ok_inj in V1. apply ok_inj in V2. subst w1 w2. fold hR hZ.
  change (Rabs (RombProofs.R2 kx ky (fun i j => K i j * J1 i j) * hR * hZ - RombProofs.R2 kx ky (fun i j => K i j * J2 i j) * hR * hZ) <= B * D).
  replace (RombProofs.R2 kx ky (fun i j => K i j * J1 i j) * hR * hZ - RombProofs.R2 kx ky (fun i j => K i j * J2 i j) * hR * hZ)
    with ((1 * RombProofs.R2 kx ky (fun i j => K i j * J1 i j) + (-1) * RombProofs.R2 kx ky (fun i j => K i j * J2 i j)) * (hR * hZ)) by ring.
  rewrite <- RombProofs.R2_linear, Rabs_mult, (Rabs_right (hR * hZ)) by (apply Rle_ge, Rmult_le_pos; lra).
  assert (Hab : Rabs (RombProofs.R2 kx ky (fun i j => 1 * (K i j * J1 i j) + -1 * (K i j * J2 i j))) <= RombProofs.R2 kx ky (fun i j => D * Ka i j)).
  { apply R2_abs. intros i j Hi Hj. replace (1 * (K i j * J1 i j) + -1 * (K i j * J2 i j)) with (K i j * (J1 i j - J2 i j)) by ring. rewrite Rabs_mult.
    unfold K, Ka. destruct ((i =? u)%nat && (j =? w)%nat)%bool; [rewrite Rabs_R0; lra|]. rewrite Rmult_1_r, Rmult_comm. apply Rmult_le_compat_r; [apply Rabs_pos|]. apply HJ; unfold nx, ny; lia. }
  rewrite RombProofs.R2_scal in Hab.
  assert (HBv' : RombProofs.R2 kx ky Ka * hR * hZ <= B).
  { apply HBv. exists (RombProofs.R2 kx ky Ka). split; [|reflexivity]. unfold nx, ny; rewrite romb2_R2. reflexivity. }
  apply Rle_trans with (D * RombProofs.R2 kx ky Ka * (hR * hZ)); [apply Rmult_le_compat_r; [apply Rmult_le_pos; lra|exact Hab]|].
  replace (D * RombProofs.R2 kx ky Ka * (hR * hZ)) with ((RombProofs.R2 kx ky Ka * hR * hZ) * D) by ring. apply Rmult_le_compat_r; assumption.
Qed.
(** Free boundary: the flux depends on the current density with the constant B + mu0 Rmax (Zmax - Zmin)^2 / 8. *)
Theorem C187_stability : forall (P Ctl : Type) G mu lu spline
    (Jtor_call : P -> equilibrium R P Ctl -> (nat -> nat -> R) -> option R -> result ((nat -> nat -> R) * P * bstate R))
    (e1 e2 e1' e2' : equilibrium R P Ctl) p1 p2 o1 o2 s1 s2 t1 t2 J1 J2 B D,
  exact_solver lu -> second_order e1 -> second_order e2 -> 0 < mu ->
  (e_nx e1, e_ny e1, Rmin e1, Rmax e1, Zmin e1, Zmax e1) = (e_nx e2, e_ny e2, Rmin e2, Rmax e2, Zmin e2, Zmax e2) ->
  solve G sqrt mu lu spline Jtor_call e1 p1 o1 s1 t1 = Ok e1' -> jtor e1' = Some J1 ->
  solve G sqrt mu lu spline Jtor_call e2 p2 o2 s2 t2 = Ok e2' -> jtor e2' = Some J2 ->
  bnd e1 = BFree -> bnd e2 = BFree -> edge_response (G FPsi) e2 B ->
  (forall x y, (x < e_nx e2)%nat -> (y < e_ny e2)%nat -> Rabs (J1 x y - J2 x y) <= D) -> 0 <= D ->
  forall x y, (x < e_nx e2)%nat -> (y < e_ny e2)%nat ->
  Rabs (plasma_psi e1' x y - plasma_psi e2' x y) <= (B + mu * Rmax e2 * ((Zmax e2 - Zmin e2) ^ 2 / 8)) * D.
Proof.
  intros P Ctl G mu lu spline Jc e1 e2 e1' e2' p1 p2 o1 o2 s1 s2 t1 t2 J1 J2 B D Hlu HS1 HS2 Hmu E12 E1 EJ1 E2 EJ2 B1 B2 HB HJ HD.
  intros x y Hx Hy. replace ((B + mu * Rmax e2 * ((Zmax e2 - Zmin e2) ^ 2 / 8)) * D) with (B * D + (Zmax e2 - Zmin e2) ^ 2 / 8 * (mu * Rmax e2 * D)) by ring.
  apply (C171_stability P Ctl G mu lu spline Jc e1 e2 e1' e2' p1 p2 o1 o2 s1 s2 t1 t2 J1 J2 (B * D) D); try assumption.
  2: { intros u w Hin. apply HJ; unfold inside in Hin; lia. }
  right. intros u w Hed.
  destruct (PropSolveFlux.solved G mu lu spline Jc e1 e1' _ _ _ _ J1 Hlu HS1 E1 EJ1) as (q1 & Q1 & _ & _ & He1 & _).
  destruct (PropSolveFlux.solved G mu lu spline Jc e2 e2' _ _ _ _ J2 Hlu HS2 E2 EJ2) as (q2 & Q2 & Hnx & Hny & He2 & _).
  assert (Hdy : exists kx ky, e_nx e2 = S (2 ^ kx) /\ e_ny e2 = S (2 ^ ky)).
  { destruct (solve_inv _ _ _ _ _ _ _ _ _ _ _ _ E2) as (ea & J & pp & rhs & x' & p' & I & dR & dZ & b & _ & _ & _ & _ & _ & HI & _). exact (romb2_ok _ _ _ _ HI). }
  destruct Hdy as (kx & ky & Ex & Ey). injection E12 as N M A1 A2 A3 A4.
  assert (HgR : grid_R e1 = grid_R e2) by (unfold grid_R, R_1D; rewrite N, A1, A2; reflexivity).
  assert (HgZ : grid_Z e1 = grid_Z e2) by (unfold grid_Z, Z_1D; rewrite M, A3, A4; reflexivity).
  unfold applyBoundary in Q1, Q2. rewrite B1, N, M, HgR, HgZ in Q1. rewrite B2 in Q2. rewrite N, M in He1.
  destruct (freeBoundary_spec (G FPsi) (e_nx e2) (e_ny e2) (grid_R e2) (grid_Z e2) J1 (plasma_psi e1) (ex_intro _ kx Ex) (ex_intro _ ky Ey)) as (q1' & Q1' & F1).
  rewrite Q1 in Q1'. apply ok_inj in Q1'. subst q1'.
  destruct (freeBoundary_spec (G FPsi) (e_nx e2) (e_ny e2) (grid_R e2) (grid_Z e2) J2 (plasma_psi e2) (ex_intro _ kx Ex) (ex_intro _ ky Ey)) as (q2' & Q2' & F2).
  rewrite Q2 in Q2'. apply ok_inj in Q2'. subst q2'.
  rewrite He1, He2 by exact Hed. destruct Hed as (Hu & Hw & Hed0). assert (Hed : on_edge (e_nx e2) (e_ny e2) u w) by (split; [exact Hu|split; [exact Hw|exact Hed0]]).
  assert (V1 := proj1 (F1 u w Hu Hw) Hed). assert (V2 := proj1 (F2 u w Hu Hw) Hed).
  assert (HhR : 0 < grid_R e2 1%nat 0%nat - grid_R e2 0%nat 0%nat) by (rewrite !gridR_is; assert (X := gridpt_step (Rmin e2) (Rmax e2) (e_nx e2)); destruct HS2 as (_ & X1 & _); specialize (X X1 Hnx); lra).
  assert (HhZ : 0 < grid_Z e2 0%nat 1%nat - grid_Z e2 0%nat 0%nat) by (rewrite !gridZ_is; assert (X := gridpt_step (Zmin e2) (Zmax e2) (e_ny e2)); destruct HS2 as (_ & _ & X1 & _); specialize (X X1 Hny); lra).
  assert (HBv := fun v => HB u w v Hed). rewrite Ex, Ey in HJ, HBv, V1, V2.
  exact (edge_diff (G FPsi) kx ky (grid_R e2) (grid_Z e2) J1 J2 u w _ _ B D HhR HhZ HBv HJ HD V1 V2).
Qed.
Print Assumptions C187_stability.

(** As [like] and [lipschitz_profile], with the free boundary; the current density at the edge counts too. *)
Definition like_free {P Ctl} (e0 e : equilibrium R P Ctl) : Prop :=
  (e_nx e, e_ny e, Rmin e, Rmax e, Zmin e, Zmax e) = (e_nx e0, e_ny e0, Rmin e0, Rmax e0, Zmin e0, Zmax e0) /\
  second_order e /\ bnd e = BFree /\ tok e = tok e0 /\ pgreen e = pgreen e0.
Definition lipschitz_free {P Ctl} (Jt : P -> equilibrium R P Ctl -> (nat -> nat -> R) -> option R -> result ((nat -> nat -> R) * P * bstate R)) (e0 : equilibrium R P Ctl)
    (Q : P -> Prop) (pb : option R) (K : R) : Prop :=
  forall p1 p2 e1 e2 psi1 psi2 J1 J2 p1' p2' b1 b2 d, Q p1 -> Q p2 -> like_free e0 e1 -> like_free e0 e2 -> within (e_nx e0) (e_ny e0) psi1 psi2 d ->
    Jt p1 e1 psi1 pb = Ok (J1, p1', b1) -> Jt p2 e2 psi2 pb = Ok (J2, p2', b2) ->
    forall x y, (x < e_nx e0)%nat -> (y < e_ny e0)%nat -> Rabs (J1 x y - J2 x y) <= K * d.
Theorem C187_contracts : forall (P Ctl : Type) G mu lu spline
    (Jt : P -> equilibrium R P Ctl -> (nat -> nat -> R) -> option R -> result ((nat -> nat -> R) * P * bstate R))
    (S : equilibrium R P Ctl * P -> Prop) e0 (Q : P -> Prop) pb B K L,
  let run s psi := solve G sqrt mu lu spline Jt (fst s) (snd s) None (Some psi) pb in
  let after s e' := (e', match profiles e' with Some q => q | None => snd s end) in
  exact_solver lu -> 0 < mu -> 0 <= K -> edge_response (G FPsi) e0 B ->
  (forall s, S s -> like_free e0 (fst s) /\ Q (snd s) /\ S (with_check (fst s) false, snd s)) ->
  (forall s psi, S s -> exists e' b, run s psi = Ok e' /\ S (after s e') /\ psi_bndry (bs e') = Some (Some b)) ->
  (forall s1 s2 psi1 psi2 e1 e2 b1 b2 d, S s1 -> S s2 -> within (e_nx e0) (e_ny e0) psi1 psi2 d -> run s1 psi1 = Ok e1 -> run s2 psi2 = Ok e2 ->
     psi_bndry (bs e1) = Some (Some b1) -> psi_bndry (bs e2) = Some (Some b2) -> Rabs (b1 - b2) <= L * d) ->
  lipschitz_free Jt e0 Q pb K -> (0 < e_nx e0)%nat -> (0 < e_ny e0)%nat ->
  contracts (e_nx e0) (e_ny e0) (eq_ops G sqrt mu lu spline Jt None) pb S ((B + mu * Rmax e0 * ((Zmax e0 - Zmin e0) ^ 2 / 8)) * K) L.
Proof.
  intros P Ctl G mu lu spline Jt S e0 Q pb B K L run after Hlu Hmu HK HB HS Hrun Hbd HJ Hnx Hny. split; [|split].
  - intros s Hs. exact (proj2 (proj2 (HS s Hs))).
  - intros s psi0 Hs. destruct (Hrun s psi0 Hs) as (e' & b & E1 & E2 & E3). cbn [eq_solve eq_ops]. unfold run in E1. rewrite E1.
    destruct (solve_inv _ _ _ _ _ _ _ _ _ _ _ _ E1) as (ea & J & p1 & rhs & x & p' & I & dR & dZ & b' & _ & _ & _ & _ & _ & _ & _ & _ & (q & Eq & _) & Ee).
    exists (after s e'), q, b. split; [reflexivity|]. split; [exact E2|]. cbn [Picard.eq_psi bndry_flux eq_ops after fst]. split; [|exact E3]. rewrite Ee. exact Eq.
  - intros s1 s2 psi1 psi2 s1' s2' psi1' psi2' b1 b2 d H1 H2 Hw Es1 Ep1 Eb1 Es2 Ep2 Eb2.
    cbn [eq_solve eq_ops Picard.eq_psi bndry_flux] in Es1, Es2, Ep1, Ep2, Eb1, Eb2.
    destruct (solve G sqrt mu lu spline Jt (fst s1) (snd s1) None (Some psi1) pb) as [e1|] eqn:E1; [|discriminate]. injection Es1 as <-.
    destruct (solve G sqrt mu lu spline Jt (fst s2) (snd s2) None (Some psi2) pb) as [e2|] eqn:E2; [|discriminate]. injection Es2 as <-.
    cbn [fst] in Ep1, Ep2, Eb1, Eb2. split; [|exact (Hbd s1 s2 psi1 psi2 e1 e2 b1 b2 d H1 H2 Hw E1 E2 Eb1 Eb2)].
    assert (Hd : 0 <= d) by (eapply Rle_trans; [apply Rabs_pos|exact (Hw 0%nat 0%nat Hnx Hny)]).
    destruct (HS s1 H1) as (L1 & Q1 & _), (HS s2 H2) as (L2 & Q2 & _).
    destruct (solve_inv _ _ _ _ _ _ _ _ _ _ _ _ E1) as (ea & J1 & p1 & rhs1 & x1 & p1' & I1 & dR1 & dZ1 & c1 & Ea & (ba & bx & pa & Hpa & EJ1) & _ & _ & _ & _ & _ & _ & _ & Ee1).
    destruct (solve_inv _ _ _ _ _ _ _ _ _ _ _ _ E2) as (eb & J2 & p2 & rhs2 & x2 & p2' & I2 & dR2 & dZ2 & c2 & Eb & (bb & by2 & pc & Hpc & EJ2) & _ & _ & _ & _ & _ & _ & _ & Ee2).
    subst pa pc ea eb.
    assert (HJd : forall x y, (x < e_nx e0)%nat -> (y < e_ny e0)%nat -> Rabs (J1 x y - J2 x y) <= K * d) by (refine (HJ _ _ _ _ _ _ _ _ _ _ _ _ d Q1 Q2 _ _ Hw EJ1 EJ2); [exact L1|exact L2]).
    destruct L1 as (D1 & SO1 & B1 & T1 & P1), L2 as (D2 & SO2 & B2 & T2 & P2).
    assert (D12 := eq_trans D1 (eq_sym D2)). injection D2 as N M A A' C F.
    assert (JT1 : jtor e1 = Some J1) by (rewrite Ee1; reflexivity). assert (JT2 : jtor e2 = Some J2) by (rewrite Ee2; reflexivity).
    assert (HB2 : edge_response (G FPsi) (fst s2) B).
    { unfold edge_response in *. replace (grid_R (fst s2)) with (grid_R e0) by (unfold grid_R, R_1D; rewrite N, A, A'; reflexivity).
      replace (grid_Z (fst s2)) with (grid_Z e0) by (unfold grid_Z, Z_1D; rewrite M, C, F; reflexivity). rewrite N, M. exact HB. }
    assert (Hst := C187_stability P Ctl G mu lu spline Jt (fst s1) (fst s2) e1 e2 _ _ _ _ _ _ _ _ J1 J2 B (K * d) Hlu SO1 SO2 Hmu D12 E1 JT1 E2 JT2 B1 B2 HB2).
    rewrite N, M, A', C, F in Hst. specialize (Hst HJd ltac:(apply Rmult_le_pos; assumption)).
    intros i j Hi Hj. rewrite (total_diff e1 e2 psi1' psi2'); [|rewrite Ee1, Ee2; cbn [tok with_profiles with_current with_bs with_plasma]; congruence|rewrite Ee1, Ee2; cbn [pgreen with_profiles with_current with_bs with_plasma]; congruence|exact Ep1|exact Ep2].
    specialize (Hst i j Hi Hj). rewrite Rmult_assoc. exact Hst.
Qed.
Print Assumptions C187_contracts.
(** So there is exactly one free-boundary equilibrium and the iteration ends. *)
Theorem C187_converges : forall (P Ctl : Type) G mu lu spline
    (Jt : P -> equilibrium R P Ctl -> (nat -> nat -> R) -> option R -> result ((nat -> nat -> R) * P * bstate R))
    (S : equilibrium R P Ctl * P -> Prop) e0 (Q : P -> Prop) B K L p s,
  let run s psi := solve G sqrt mu lu spline Jt (fst s) (snd s) None (Some psi) (user_bndry p) in
  let after s e' := (e', match profiles e' with Some q => q | None => snd s end) in
  exact_solver lu -> 0 < mu -> 0 <= K -> 0 <= B -> 0 <= L -> edge_response (G FPsi) e0 B ->
  (forall s, S s -> like_free e0 (fst s) /\ Q (snd s) /\ S (with_check (fst s) false, snd s)) ->
  (forall s psi, S s -> exists e' b, run s psi = Ok e' /\ S (after s e') /\ psi_bndry (bs e') = Some (Some b)) ->
  (forall s1 s2 psi1 psi2 e1 e2 b1 b2 d, S s1 -> S s2 -> within (e_nx e0) (e_ny e0) psi1 psi2 d -> run s1 psi1 = Ok e1 -> run s2 psi2 = Ok e2 ->
     psi_bndry (bs e1) = Some (Some b1) -> psi_bndry (bs e2) = Some (Some b2) -> Rabs (b1 - b2) <= L * d) ->
  lipschitz_free Jt e0 Q (user_bndry p) K -> (0 < e_nx e0)%nat -> (0 < e_ny e0)%nat ->
  (B + mu * Rmax e0 * ((Zmax e0 - Zmin e0) ^ 2 / 8)) * K < 1 -> S s ->
  (exists psi, equilibrium_flux (e_nx e0) (e_ny e0) (eq_ops G sqrt mu lu spline Jt None) (user_bndry p) S psi /\
     forall psi', equilibrium_flux (e_nx e0) (e_ny e0) (eq_ops G sqrt mu lu spline Jt None) (user_bndry p) S psi' -> forall i j, (i < e_nx e0)%nat -> (j < e_ny e0)%nat -> psi' i j = psi i j) /\
  (check p = false -> wait p = false -> 0 <= blend p < 1 -> 0 < atol p -> maxits p = None \/ maxits p = Some 0%Z ->
   exists n, forall fuel, (n < fuel)%nat -> exists s' h, picard (e_nx e0) (e_ny e0) _ (eq_ops G sqrt mu lu spline Jt None) p fuel s = (s', Ok h) /\ S s').
Proof.
  intros P Ctl G mu lu spline Jt S e0 Q B K L p s run after Hlu Hmu HK HB0 HL HB HS Hrun Hbd HJ Hnx Hny Hq1 Hs.
  assert (HC := C187_contracts P Ctl G mu lu spline Jt S e0 Q (user_bndry p) B K L Hlu Hmu HK HB HS Hrun Hbd HJ Hnx Hny).
  assert (Hq : 0 <= (B + mu * Rmax e0 * ((Zmax e0 - Zmin e0) ^ 2 / 8)) * K < 1).
  { split; [|exact Hq1]. destruct (HS s Hs) as ((D & (R0 & R1 & _) & _) & _). injection D as _ _ A A' _ _. rewrite A in R0. rewrite A, A' in R1.
    assert (X := pow2_ge_0 (Zmax e0 - Zmin e0)). apply Rmult_le_pos; [|exact HK]. apply Rplus_le_le_0_compat; [exact HB0|]. apply Rmult_le_pos; [apply Rmult_le_pos; lra|lra]. }
  split.
  - destruct (C186_exists_unique _ _ _ _ (user_bndry p) S _ L s Hnx Hny HC Hq Hs) as (psi & H1 & H2). exists psi. split; [exact H1|]. intros psi' H' i j Hi Hj. apply (H2 psi' H' i j Hi Hj).
  - intros Hchk Hw Hb Ha Hm. destruct (Hrun s (fun _ _ => 0) Hs) as (e' & b & E1 & _). unfold run in E1.
    destruct (solve_ok_psi G mu lu spline Jt _ _ _ _ _ _ E1) as (psi0 & E0).
    exact (C177_eventually (e_nx e0) (e_ny e0) _ (eq_ops G sqrt mu lu spline Jt None) p S _ L s psi0 Hnx Hny HC Hq HL eq_refl Hchk Hw Hb Ha Hm Hs E0).
Qed.
Print Assumptions C187_converges.
(** The profile 1 + psi / 10 of C178 with the free boundary and the Green's function 1/10: B is at most 1/5 and q is 3/25. *)
Definition G10 (_ : field) (_ _ _ _ : R) : R := 1 / 10.
Definition free_eq (A : nat -> nat -> R) : equilibrium R unit unit :=
  mkeq 5 5 1 2 (-1) 1 (mktok [] false []) BFree 2 (SMatrix (MGDirect 25 A)) false (fun _ _ => 0) (fun i j => []) 0 None (mkb None (Some (Some 1)) None None None false None) None None.
Definition free_state (A : nat -> nat -> R) (s : equilibrium R unit unit * unit) : Prop :=
  like_free (free_eq A) (fst s) /\ slv (fst s) = SMatrix (MGDirect 25 A) /\ psi_bndry (bs (fst s)) = Some (Some 1).
Lemma free_response A : edge_response (G10 FPsi) (free_eq A) (1 / 5).
Proof.
  intros x y v _ (s & Es & ->). cbn [e_nx e_ny free_eq] in Es. change (romb2 5 5) with (romb2 (T := R) (S (2 ^ 2)) (S (2 ^ 2))) in Es. rewrite romb2_R2 in Es. apply ok_inj in Es. subst s.
  match goal with |- RombProofs.R2 2 2 ?g * _ * _ <= _ => assert (H := DiagnosticsProofs.R2_mono 2 2 g (fun i _ => 1 / 10 + 0 * INR i)) end.
  rewrite DiagnosticsProofs.R2_line in H.
  assert (X : forall i j : nat, (i <= 2 ^ 2)%nat -> (j <= 2 ^ 2)%nat -> (if ((i =? x)%nat && (j =? y)%nat)%bool then 0 else Rabs (G10 FPsi (grid_R (free_eq A) i j) (grid_Z (free_eq A) i j) (grid_R (free_eq A) x y) (grid_Z (free_eq A) x y))) * 1 <= 1 / 10 + 0 * INR i).
  { intros i j _ _. unfold G10. rewrite Rabs_right by lra. destruct ((i =? x)%nat && (j =? y)%nat)%bool; lra. }
  specialize (H X).
  match goal with |- ?w * _ * _ <= _ => set (W := w) in * end. clearbody W. rewrite !gridR_is, !gridZ_is. cbn [Rmin Rmax Zmin Zmax e_nx e_ny free_eq]. 
  replace (INR (2 ^ 2)) with 4 in H by (cbn; lra).
  replace (gridpt 1 2 5 1 - gridpt 1 2 5 0) with (1 / 4) by (unfold gridpt; cbn; nR; cbn; lra).
  replace (gridpt (-1) 1 5 1 - gridpt (-1) 1 5 0) with (1 / 2) by (unfold gridpt; cbn; nR; cbn; lra).
  lra.
Qed.
Lemma free_run lu A s psi : free_state A s -> exists e', solve G10 sqrt 1 lu flat_spline linear_profile (fst s) (snd s) None (Some psi) None = Ok e' /\
  free_state A (e', match profiles e' with Some q => q | None => snd s end).
Proof.
  destruct s as (e, u). cbn [fst snd]. intros ((D & SO & Hb & Ht & Hp) & Hs & Hbd). cbn [fst snd] in *. cbn [e_nx e_ny Rmin Rmax Zmin Zmax tok pgreen free_eq] in D, Ht, Hp. injection D as N M A1 A2 A3 A4.
  assert (Hc : coils (tok e) = []) by (rewrite Ht; reflexivity).
  assert (D5 : dyadic 5) by (exists 2%nat; reflexivity).
  set (J := fun i j => 1 + psi i j / 10).
  destruct (romb2_dyadic 5 5 J D5 D5) as (r & Er).
  set (e1 := with_profiles e (Some u) (control e)). set (e2 := with_bs e1 (bs e1)). set (e3 := with_profiles (with_bs e2 (bs e2)) (Some u) (control e2)).
  destruct (freeBoundary_spec (G10 FPsi) 5 5 (grid_R e) (grid_Z e) J (plasma_psi e) D5 D5) as (q & Eq & _).
  destruct (set_edges_spec 5 5 (fun i j => nmul (nmul (nopp 1) (grid_R e3 i j)) (J i j)) q ltac:(lia) ltac:(lia)) as (rhs & Erh & _).
  assert (SR : exists d, spacing_R (e_nx e) (e_ny e) (grid_R e) = Ok d) by (rewrite N, M; eexists; reflexivity).
  assert (SZ : exists d, spacing_Z (e_nx e) (e_ny e) (grid_Z e) = Ok d) by (rewrite N, M; eexists; reflexivity).
  destruct SR as (dR & SR), SZ as (dZ & SZ).
  assert (E1 : update_own flat_spline e1 = Ok e2) by (apply flat_own; cbn [tok e_nx e_ny Rmin Rmax Zmin Zmax e1 with_profiles]; rewrite ?N, ?M, ?A1, ?A2, ?A3, ?A4; try lia; try lra; exact Hc).
  eexists. split.
  - unfold solve. fold e1. rewrite E1. cbn [bind]. unfold linear_profile at 1. cbn [bind]. fold J.
    change (with_profiles (with_bs e2 (bs e2)) (Some u) (control e2)) with e3. unfold linear_solve, applyBoundary.
    change (bnd e3) with (bnd e). rewrite Hb. change (grid_R e3) with (grid_R e). change (grid_Z e3) with (grid_Z e). change (e_nx e3) with (e_nx e). change (e_ny e3) with (e_ny e). rewrite N, M. change (plasma_psi e3) with (plasma_psi e). rewrite Eq. cbn [bind].
    change (grid_R e3) with (grid_R e) in Erh. rewrite Erh. cbn [bind].
    unfold callSolver. change (slv e3) with (slv e). rewrite Hs. unfold solver_call. change (e_nx e3) with (e_nx e). change (e_ny e3) with (e_ny e). rewrite N, M. cbn [mg_call]. change (25 =? 5 * 5)%nat with true. cbn [bind].
    assert (U := fun x => flat_update_plasma e3 x). cbn [e_nx e_ny Rmin Rmax Zmin Zmax tok e3 e2 e1 with_profiles with_bs] in U. rewrite N, M, A1, A2, A3, A4 in U.
    rewrite U; [|lia|lia|lra|lra|exact Hc]. cbn [bind].
    match goal with |- bind (romb2 ?a ?b ?c) _ = _ => change (romb2 a b c) with (romb2 (e_nx e) (e_ny e) J) end. rewrite N, M, Er. cbn [bind].
    match goal with |- bind (spacing_R ?a ?b ?c) _ = _ => change (spacing_R a b c) with (spacing_R (e_nx e) (e_ny e) (grid_R e)) end. rewrite SR. cbn [bind].
    match goal with |- bind (spacing_Z ?a ?b ?c) _ = _ => change (spacing_Z a b c) with (spacing_Z (e_nx e) (e_ny e) (grid_Z e)) end. rewrite SZ. reflexivity.
  - split; [|split; [exact Hs|exact Hbd]]. split; [cbn; congruence|]. split; [exact SO|]. split; [exact Hb|]. split; [exact Ht|exact Hp].
Qed.
Example C187_example : exists A, free_state A (free_eq A, tt) /\
  (exists psi, equilibrium_flux 5 5 (eq_ops G10 sqrt 1 elimination flat_spline linear_profile None) None (free_state A) psi) /\
  exists n, forall fuel, (n < fuel)%nat -> exists s' h,
    picard 5 5 _ (eq_ops G10 sqrt 1 elimination flat_spline linear_profile None) (plain_options None (1 / 1000) (1 / 1000000)) fuel (free_eq A, tt) = (s', Ok h) /\ free_state A s'.
Proof.
  destruct (GSsparse_rows 1 2 (-1) 1 5 5) as (A & EA & _). exists A.
  assert (HS : free_state A (free_eq A, tt)).
  { split; [|split; reflexivity]. repeat (split; [reflexivity|]). split; [|repeat split; reflexivity]. cbn [fst]. unfold second_order. cbn [Rmin Rmax Zmin Zmax e_nx e_ny slv free_eq].
    repeat (split; [lra|]). exists A. split; [exact EA|reflexivity]. }
  split; [exact HS|].
  destruct (C187_converges unit unit G10 1 elimination flat_spline linear_profile (free_state A) (free_eq A) (fun _ => True) (1 / 5) (1 / 10) 0 (plain_options None (1 / 1000) (1 / 1000000)) (free_eq A, tt)) as ((psi & H1 & _) & H2).
  - exact elimination_exact.
  - lra.
  - lra.
  - lra.
  - lra.
  - apply free_response.
  - intros s Hs. split; [apply Hs|]. split; [exact I|exact Hs].
  - intros s psi0 Hs. destruct (free_run elimination A s psi0 Hs) as (e' & E1 & E2). exists e', 1. split; [exact E1|]. split; [exact E2|]. exact (proj2 (proj2 E2)).
  - intros s1 s2 psi1 psi2 e1 e2 b1 b2 d H1 H2 _ E1 E2 B1 B2. destruct (free_run elimination A s1 psi1 H1) as (e1' & E1' & S1). destruct (free_run elimination A s2 psi2 H2) as (e2' & E2' & S2).
    change (user_bndry (plain_options None (1 / 1000) (1 / 1000000))) with (@None R) in E1, E2.
    rewrite E1 in E1'. apply ok_inj in E1'. subst e1'. rewrite E2 in E2'. apply ok_inj in E2'. subst e2'.
    assert (X1 := proj2 (proj2 S1)). assert (X2 := proj2 (proj2 S2)). cbn [fst] in X1, X2. rewrite B1 in X1. rewrite B2 in X2. injection X1 as ->. injection X2 as ->. rewrite Rminus_diag_eq by reflexivity. rewrite Rabs_R0. lra.
  - intros p1 p2 e1 e2 psi1 psi2 J1 J2 p1' p2' b1 b2 d _ _ _ _ Hw E1 E2 x y Hx Hy. injection E1 as <- _ _. injection E2 as <- _ _.
    replace (1 + psi1 x y / 10 - (1 + psi2 x y / 10)) with (/ 10 * (psi1 x y - psi2 x y)) by field. rewrite Rabs_mult, (Rabs_right (/ 10)) by lra.
    assert (H := Hw x y Hx Hy). lra.
  - cbn; lia.
  - cbn; lia.
  - cbn [Rmax Zmax Zmin free_eq]. lra.
  - exact HS.
  - split; [exists psi; exact H1|]. apply H2; try reflexivity; try (cbn [plain_options blend atol]; nR; lra). left. reflexivity.
Qed.
