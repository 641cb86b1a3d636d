(** Property C150: DivGeo files. *)
From Coq Require Import ZArith Reals List Bool Arith Lia Lra QArith Qreduction.
From Verif Require Import Py Num Numpy Coils Machine Sensors Critical Equilibrium GSSpec GSConsistency Safety Geqdsk GeqdskProofs GeqdskExamples DivGeo.
Import ListNotations.
Local Open Scope R_scope.

(** [l] lists f i k, for all i < n and k < m, i changing fastest *)
Definition lists2 (n m : nat) (f : nat -> nat -> R) (l : list R) : Prop :=
  length l = (m * n)%nat /\ forall i k, (i < n)%nat -> (k < m)%nat -> nth (k * n + i) l 0 = f i k.

Lemma flat_nth (n : nat) (f : nat -> nat -> R) : forall m s, let l := flat_map (fun k => map (fun j => f j k) (range 0 n)) (seq s m) in
  length l = (m * n)%nat /\ forall i k, (i < n)%nat -> (k < m)%nat -> nth (k * n + i) l 0 = f i (s + k)%nat.
Proof.
  induction m as [|m IH]; intros s l; subst l.
  - split; [reflexivity|intros; lia].
  - cbn [seq flat_map]. destruct (IH (S s)) as (L & N).
    assert (La : length (map (fun j => f j s) (range 0 n)) = n) by (rewrite map_length; unfold range; rewrite seq_length; lia).
    split; [rewrite app_length, La, L; lia|]. intros i k Hi Hk. destruct k as [|k].
    + rewrite app_nth1 by (rewrite La; lia). cbn [Nat.mul Nat.add]. rewrite Nat.add_0_r.
      rewrite nth_indep with (d' := f 0%nat s) by (rewrite La; lia). rewrite (map_nth (fun j => f j s)).
      unfold range. rewrite seq_nth by lia. reflexivity.
    + rewrite app_nth2 by (rewrite La; nia). rewrite La. replace (S k * n + i - n)%nat with (k * n + i)%nat by lia.
      rewrite N by lia. f_equal. lia.
Qed.
Lemma coordinates_ok (n : nat) (a b : R) l : coordinates n a b = Ok l ->
  n <> 1%nat /\ length l = n /\ forall i, (i < n)%nat -> nth i l 0 = gridpt a b n i.
Proof.
  unfold coordinates. destruct (Nat.eqb_spec n 1) as [|Hn]; [discriminate|]. intros [= <-]. split; [exact Hn|].
  split; [rewrite map_length; unfold range; rewrite seq_length; lia|]. intros i Hi.
  set (g := fun i => _). rewrite nth_indep with (d' := g 0%nat) by (rewrite map_length; unfold range; rewrite seq_length; lia).
  rewrite map_nth. unfold range. rewrite seq_nth by lia. subst g. cbn beta. unfold gridpt. nR. rewrite <- !INR_IZR_INZ.
  rewrite minus_INR by lia. cbn [INR Nat.add]. ring.
Qed.

(** C150 — the file holds the grid of the equilibrium, and the total poloidal flux measured from its
    value at the plasma boundary.  psib is the flux from the axis to the boundary, so that adding it
    gives the flux measured from the magnetic axis. *)
Theorem C150_divgeo : forall (P Ctl : Type) G sqrt spline pi sin cos arctan2 quad_interp (methods_of : P -> methods)
  (m : gmachine R) (e : equilibrium R P Ctl) ox f,
  divgeo_write G sqrt spline pi sin cos arctan2 quad_interp methods_of m e ox = Ok f ->
  exists psi o os xs pb p,
    total_psi e = Ok psi /\
    match ox with Some l => l = (o :: os, xs) | None => eq_find_critical spline e (e_nx e) (e_ny e) psi = Ok (o :: os, xs) end /\
    psi_bndry (bs e) = Some (Some pb) /\ profiles e = Some p /\
    dg_jm f = e_nx e /\ dg_km f = e_ny e /\
    (length (dg_r f) = e_nx e /\ forall i, (i < e_nx e)%nat -> nth i (dg_r f) 0 = gridpt (Rmin e) (Rmax e) (e_nx e) i) /\
    (length (dg_z f) = e_ny e /\ forall k, (k < e_ny e)%nat -> nth k (dg_z f) 0 = gridpt (Zmin e) (Zmax e) (e_ny e) k) /\
    lists2 (e_nx e) (e_ny e) (fun i k => psi i k - pb) (dg_psi f) /\
    dg_psib f = pb - snd o /\
    dg_rtf f = gm_R0 m /\ dg_btf f * dg_rtf f = m_fvac (methods_of p).
Proof.
  intros P Ctl G sqrt spline pi sin cos arctan2 qi mo m e ox f E. unfold divgeo_write in E.
  apply bind_inv in E. destruct E as (d & Ew & E).
  apply write_inv in Ew. destruct Ew as (psi & opoint & xs & p & ro & zo & s & os & pb & q & qpsi & g & iso & Et & Eox & Ep & HR0 & -> & Eb & _ & _ & _ & _ & ->).
  unfold dg_write in E. cbn [g_nx g_ny g_rleft g_rdim g_zmid g_zdim g_psi g_sibdry g_bcentr g_rcentr] in E.
  apply bind_inv in E. destruct E as (r & Er & E). apply bind_inv in E. destruct E as (z & Ez & E).
  injection E as <-. cbn [dg_jm dg_km dg_r dg_z dg_psi dg_psib dg_rtf dg_btf].
  exists psi, (ro, zo, s), os, xs, pb, p. split; [exact Et|]. split; [exact Eox|]. split; [exact Eb|]. split; [exact Ep|].
  split; [reflexivity|]. split; [reflexivity|].
  apply coordinates_ok in Er. destruct Er as (_ & Lr & Nr). apply coordinates_ok in Ez. destruct Ez as (_ & Lz & Nz).
  split. { split; [exact Lr|]. intros i Hi. rewrite Nr by exact Hi. f_equal. nR. lra. }
  split. { split; [exact Lz|]. intros i Hi. rewrite Nz by exact Hi. unfold nlit. nR. f_equal; lra. }
  split. { destruct (flat_nth (e_nx e) (fun j k => psi j k - s - (pb - s)) (e_ny e - 0) 0) as (L & N). split.
           - unfold range at 2. rewrite Nat.sub_0_r in *. exact L.
           - intros i k Hi Hk. unfold range at 2. rewrite Nat.sub_0_r in *. etransitivity; [exact (N i k Hi Hk)|]. cbn [Nat.add]. ring. }
  split; [reflexivity|]. split; [reflexivity|]. apply R_eqb_false in HR0. nR. field. exact HR0.
Qed.
Print Assumptions C150_divgeo.
(** Whatever can be written as a G-EQDSK file can be written for DivGeo, if there are at least two
    points each way. *)
Theorem C150_defined : forall (T : Type) (N : Num T) (P Ctl : Type) G sqrt spline pi sin cos arctan2 quad_interp (methods_of : P -> methods)
  (m : gmachine T) (e : equilibrium T P Ctl) ox d,
  write G sqrt spline pi sin cos arctan2 quad_interp methods_of m e ox = Ok d -> (2 <= e_nx e)%nat -> (2 <= e_ny e)%nat ->
  exists f, divgeo_write G sqrt spline pi sin cos arctan2 quad_interp methods_of m e ox = Ok f.
Proof.
  intros T N P Ctl G sqrt spline pi sin cos arctan2 qi mo m e ox d E Hx Hy. unfold divgeo_write. rewrite E. cbn [bind].
  apply write_inv in E. destruct E as (psi & opoint & xs & p & ro & zo & s & os & pb & q & qpsi & g & iso & _ & _ & _ & _ & _ & _ & _ & _ & _ & _ & ->).
  unfold dg_write. cbn [g_nx g_ny]. unfold coordinates. destruct (Nat.eqb_spec (e_nx e) 1); [lia|]. destruct (Nat.eqb_spec (e_ny e) 1); [lia|].
  cbn [bind]. eexists. reflexivity.
Qed.
Print Assumptions C150_defined.
Lemma qwrite_is (m : gmachine Q) (e : equilibrium Q unit unit) :
  qwrite m e = write G0 qsqrt qspline 4%Q sq_sin sq_cos (fun _ _ => 2%Q) (fun _ l _ => nth 0 l 0%Q) meth m e None.
Proof. reflexivity. Qed.
(** The equilibrium of [C70_example] with 9 x 17 points is one. *)
Example C150_defined_example : exists d,
  write G0 qsqrt qspline 4%Q sq_sin sq_cos (fun _ _ => 2%Q) (fun _ l _ => nth 0 l 0%Q) meth no_wall (tall_eq no_wall) None = Ok d.
Proof. destruct tall_file as (d & r & E & _). rewrite qwrite_is in E. exists d. exact E. Qed.
(** What is written for 9 x 9 points, with -2 on the axis and 2 on the boundary: the coordinates, and
    the flux at the axis and at the X-point measured from the boundary. *)
Example C150_example : exists f, dg_write (square_file None) = Ok f /\
  (firstn 3 (dg_r f) = [1; 2; 3] /\ firstn 3 (dg_z f) = [-4; -3; -2] /\
   nth (5 * 9 + 4) (dg_psi f) 0 == -4 /\ nth (3 * 9 + 4) (dg_psi f) 1 == 0 /\ dg_psib f == 2)%Q.
Proof. eexists. split; [reflexivity|]. repeat split; vm_compute; reflexivity. Qed.
