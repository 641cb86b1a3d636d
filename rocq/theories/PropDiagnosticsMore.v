(** C142, C143: effective elongation, Shafranov shift, toroidal field, normalised beta, cylindrical
    safety factor. *)
From Coq Require Import List Arith ZArith Bool Reals Lia Lra.
From Coquelicot Require Import Coquelicot.
From Verif Require Import Py Num Numpy Romb RombProofs RombExact Coils Machine Boundary BoundarySpec BoundaryProofs Critical Jtor JtorSpec JtorProofs PropJtor
  Equilibrium EquilibriumProofs Shape ShapeSpec ShapeProofs PropShape GSSpec Diagnostics DiagnosticsSpec DiagnosticsProofs PropDiagnostics FieldStrength.
Import ListNotations.
Local Open Scope R_scope.

Lemma Ok_inj : forall {A} (a b : A), Ok a = Ok b -> a = b.
Proof. intros A a b E. injection E. auto. Qed.

(** C142 — the effective elongation is the ratio of the volume to that of the torus with circular
    cross-section of the same radii; for an elliptical torus it is the elongation. *)
Theorem C142_effective_elongation : forall (s : list (R * R)) vol r a k,
  Rgeometric s = Ok r -> minorRadius s = Ok a -> r <> 0 -> a <> 0 ->
  effectiveElongation PI vol s = Ok k <-> vol = k * (2 * PI * r * (PI * a ^ 2)).
Proof.
  intros s vol r a k Hr Ha R0 A0. assert (HPI := PI_RGT_0). unfold effectiveElongation. rewrite Hr, Ha. cbn [bind]. nR. split.
  - intros E. apply Ok_inj in E. subst k. field. repeat split; lra.
  - intros ->. f_equal. field. repeat split; lra.
Qed.
Print Assumptions C142_effective_elongation.
Corollary C142_elliptical_torus : forall (s : list (R * R)) r a b, Rgeometric s = Ok r -> minorRadius s = Ok a -> r <> 0 -> a <> 0 ->
  (* semi-axes a and b: the area is pi a b, the volume 2 pi r times that *)
  effectiveElongation PI (2 * PI * r * (PI * a * b)) s = Ok (b / a).
Proof. intros s r a b Hr Ha R0 A0. apply (C142_effective_elongation s _ r a); try assumption. field. exact A0. Qed.
Print Assumptions C142_elliptical_torus.
(** The Shafranov shift leads from the geometric axis to the magnetic axis; it does not depend on
    where both are. *)
Theorem C142_shift : forall (s : list (R * R)) ax, s <> [] ->
  exists c d, geometricAxis s = Ok c /\ shafranovShift ax s = Ok d /\ fst c + fst d = fst ax /\ snd c + snd d = snd ax /\
    forall u v, shafranovShift (shift u v ax) (map (shift u v) s) = Ok d.
Proof.
  intros s ax Hs. destruct (C76_translation s 0 0 Hs) as ((r & z & Eg & _) & _). exists (r, z), (fst ax - r, snd ax - z).
  unfold shafranovShift, Rgeometric, Zgeometric. rewrite Eg. cbn [bind fst snd]. repeat split; try (nR; ring); try reflexivity.
  intros u v. destruct (C76_translation s u v Hs) as ((r' & z' & Eg' & Em) & _). rewrite Em. cbn [bind fst snd]. rewrite Eg in Eg'. apply Ok_inj in Eg'. injection Eg' as <- <-.
  unfold shift. cbn [fst snd]. f_equal. nR. f_equal; ring.
Qed.
Print Assumptions C142_shift.
Lemma exBox_axis : geometricAxis exBox = Ok (2, 0).
Proof.
  unfold geometricAxis, exBox, Rlcfs. cbn [map fst argmax argmin_of argmax_from argmin_from bind]. nR.
  assert (Tt : forall a b, a < b -> R_ltb a b = true) by (intros a b; apply R_ltb_true).
  assert (Ff : forall a b, b <= a -> R_ltb a b = false) by (intros a b; apply R_ltb_false).
  repeat (first [rewrite Tt by lra|rewrite Ff by lra]). cbn [nth fst snd bind]. f_equal. unfold half. nR. f_equal; lra.
Qed.
Lemma exBox_minor : minorRadius exBox = Ok 1.
Proof.
  unfold minorRadius. rewrite (amax_unique _ 3), (amin_unique _ 1).
  - cbn [bind]. f_equal. unfold half. nR. lra.
  - cbn. auto.
  - cbn. intros x [<-|[<-|[<-|[<-|[]]]]]; lra.
  - cbn. auto.
  - cbn. intros x [<-|[<-|[<-|[<-|[]]]]]; lra.
Qed.
Example C142_example : effectiveElongation PI (16 * PI) exBox = Ok (4 / PI) /\ shafranovShift (5 / 2, 1 / 2) exBox = Ok (1 / 2, 1 / 2).
Proof.
  assert (HPI := PI_RGT_0). split.
  - apply (C142_effective_elongation exBox _ 2 1); [exact exBox_geo|exact exBox_minor|lra|lra|]. field. lra.
  - unfold shafranovShift, Rgeometric, Zgeometric. rewrite exBox_axis. cbn [bind fst snd]. f_equal. nR. f_equal; lra.
Qed.

(** C143 — the toroidal field: f / R where the mask is 1, the vacuum field where it is 0, and
    between the two elsewhere. *)
Section Btor.
  Context {P Ctl : Type} (G : field -> R -> R -> R -> R -> R) (spline : nat -> nat -> (nat -> R) -> (nat -> R) -> arr2 R -> sfun R).
  Context (fpol : R -> R) (fvac : R) (e : equilibrium R P Ctl) (pa pb : R).
  Hypotheses (Ha : psi_axis (bs e) = Some pa) (Hb : psi_bndry (bs e) = Some (Some pb)).
  Let f r z := fpol (psinorm pa pb (psiRZ G spline e r z)).
  (** the spline of the mask *)
  Let mk m r z := spline (e_nx e) (e_ny e) (R_1D e) (Z_1D e) m 0%nat 0%nat r z.
  Lemma Btor_nomask r z : mask (bs e) = Some None -> Btor G spline fpol fvac e r z = Ok (f r z / r).
  Proof. intros Hm. unfold Btor, axis_and_bndry. rewrite Ha, Hb. cbn [bind]. rewrite Hm. reflexivity. Qed.
  Lemma Btor_mask r z m : mask (bs e) = Some (Some m) -> Btor G spline fpol fvac e r z = Ok ((f r z * mk m r z + (1 - mk m r z) * fvac) / r).
  Proof. intros Hm. unfold Btor, axis_and_bndry. rewrite Ha, Hb. cbn [bind]. rewrite Hm. reflexivity. Qed.
End Btor.
Theorem C143_core : forall (P Ctl : Type) G spline fpol fvac (e : equilibrium R P Ctl) pa pb r z,
  psi_axis (bs e) = Some pa -> psi_bndry (bs e) = Some (Some pb) ->
  mask (bs e) = Some None \/ (exists m, mask (bs e) = Some (Some m) /\ spline (e_nx e) (e_ny e) (R_1D e) (Z_1D e) m 0%nat 0%nat r z = 1) ->
  Btor G spline fpol fvac e r z = Ok (fpol (psinorm pa pb (psiRZ G spline e r z)) / r).
Proof.
  intros P Ctl G spline fpol fvac e pa pb r z Ha Hb [Hm|(m & Hm & H1)].
  - apply Btor_nomask; assumption.
  - rewrite (Btor_mask G spline fpol fvac e pa pb Ha Hb r z m Hm), H1. do 2 f_equal. ring.
Qed.
Print Assumptions C143_core.
Theorem C143_vacuum : forall (P Ctl : Type) G spline fpol fvac (e : equilibrium R P Ctl) pa pb r z m,
  psi_axis (bs e) = Some pa -> psi_bndry (bs e) = Some (Some pb) ->
  mask (bs e) = Some (Some m) -> spline (e_nx e) (e_ny e) (R_1D e) (Z_1D e) m 0%nat 0%nat r z = 0 ->
  Btor G spline fpol fvac e r z = Ok (fvac / r).
Proof.
  intros P Ctl G spline fpol fvac e pa pb r z m Ha Hb Hm H0. rewrite (Btor_mask G spline fpol fvac e pa pb Ha Hb r z m Hm), H0. do 2 f_equal. ring.
Qed.
Print Assumptions C143_vacuum.
Theorem C143_between : forall (P Ctl : Type) G spline fpol fvac (e : equilibrium R P Ctl) pa pb r z m,
  psi_axis (bs e) = Some pa -> psi_bndry (bs e) = Some (Some pb) -> mask (bs e) = Some (Some m) ->
  0 <= spline (e_nx e) (e_ny e) (R_1D e) (Z_1D e) m 0%nat 0%nat r z <= 1 -> 0 < r ->
  exists b, Btor G spline fpol fvac e r z = Ok b /\
    let f := fpol (psinorm pa pb (psiRZ G spline e r z)) in
    Rbasic_fun.Rmin f fvac <= b * r <= Rbasic_fun.Rmax f fvac.
Proof.
  intros P Ctl G spline fpol fvac e pa pb r z m Ha Hb Hm Hk Hr. eexists. split; [apply (Btor_mask G spline fpol fvac e pa pb Ha Hb r z m Hm)|]. cbv zeta.
  set (f := fpol _). set (k := spline _ _ _ _ _ _ _ _ _) in *. replace ((f * k + (1 - k) * fvac) / r * r) with (f * k + (1 - k) * fvac) by (field; lra).
  unfold Rbasic_fun.Rmin, Rbasic_fun.Rmax. destruct (Rle_dec f fvac); nra.
Qed.
Print Assumptions C143_between.
(** Outside the plasma the field does not depend on what the profile returns there. *)
Theorem C143_total : forall (P Ctl : Type) G spline fpol fvac (e : equilibrium R P Ctl) r z bt,
  Btor G spline fpol fvac e r z = Ok bt ->
  exists b, Btot G spline R_sqrt.sqrt fpol fvac e r z = Ok b /\ b ^ 2 = Bpol G spline R_sqrt.sqrt e r z ^ 2 + bt ^ 2 /\ Rabs bt <= b /\ Bpol G spline R_sqrt.sqrt e r z <= b.
Proof.
  intros P Ctl G spline fpol fvac e r z bt Hb. unfold Btot, Bpol. rewrite Hb. cbn [bind]. nR.
  set (x := Equilibrium.eqBr _ _ _ _ _). set (y := Equilibrium.eqBz _ _ _ _ _). eexists. split; [reflexivity|].
  assert (Hx : 0 <= x * x) by apply Rle_0_sqr. assert (Hy : 0 <= y * y) by apply Rle_0_sqr. assert (Ht : 0 <= bt * bt) by apply Rle_0_sqr.
  assert (S2 : forall u, 0 <= u -> R_sqrt.sqrt u ^ 2 = u) by (intros u Hu; cbn [pow]; rewrite Rmult_1_r; apply sqrt_sqrt; exact Hu).
  split; [rewrite !S2 by lra; ring|]. split.
  - rewrite <- (sqrt_Rsqr_abs bt). apply sqrt_le_1_alt. unfold Rsqr. lra.
  - apply sqrt_le_1_alt. lra.
Qed.
Print Assumptions C143_total.
Definition one_where (p : R -> bool) : nat -> nat -> (nat -> R) -> (nat -> R) -> arr2 R -> sfun R :=
  fun _ _ _ _ _ dx dy r z => match dx, dy with 0%nat, 0%nat => if p r then 1 else 0 | _, _ => 0 end.
Definition left_of_2 (r : R) : bool := if Rlt_dec r 2 then true else false.
Example C143_example :
  Btor (fun _ _ _ _ _ => 0) (one_where left_of_2) (fun x => 5 + x) 7 (exEq (Some (Some exHalf))) (3 / 2) 0 = Ok (6 / (3 / 2)) /\
  Btor (fun _ _ _ _ _ => 0) (one_where left_of_2) (fun x => 5 + x) 7 (exEq (Some (Some exHalf))) (5 / 2) 0 = Ok (7 / (5 / 2)).
Proof.
  split.
  - rewrite (C143_core unit unit _ _ _ _ (exEq (Some (Some exHalf))) 0 1); [|reflexivity|reflexivity|].
    + do 2 f_equal. unfold psinorm, psiRZ, psi_func, one_where, left_of_2. cbn. nR. destruct (Rlt_dec (3 / 2) 2); [|lra]. lra.
    + right. exists exHalf. split; [reflexivity|]. unfold one_where, left_of_2. destruct (Rlt_dec (3 / 2) 2); [reflexivity|lra].
  - apply (C143_vacuum unit unit _ _ _ _ (exEq (Some (Some exHalf))) 0 1 _ _ exHalf); try reflexivity.
    unfold one_where, left_of_2. destruct (Rlt_dec (5 / 2) 2); [lra|reflexivity].
Qed.

(** Normalised beta: percent, with the current in MA, the minor radius and the toroidal field at
    the geometric axis. *)
Theorem C143_betaN : forall (P Ctl : Type) G spline pi mu0 pressure fpol fvac sep (e : equilibrium R P Ctl) s c a bt beta,
  sep e 360%nat = Ok s -> geometricAxis s = Ok c -> minorRadius s = Ok a ->
  Btor G spline fpol fvac e (fst c) (snd c) = Ok bt -> toroidalBeta G spline pi mu0 pressure fpol fvac e = Ok beta -> current e <> 0 ->
  exists b, betaN G spline pi mu0 pressure fpol fvac sep e = Ok b /\ b * (current e / 10 ^ 6) = (100 * beta) * a * bt.
Proof.
  intros P Ctl G spline pi mu0 pressure fpol fvac sep e s c a bt beta Hs Hc Ha Hb Ht I0. unfold betaN. rewrite Hs. cbn [bind]. rewrite Hc. cbn [bind]. rewrite Hb. cbn [bind].
  rewrite Ht. cbn [bind]. rewrite Ha. cbn [bind]. eexists. split; [reflexivity|]. nR. field. exact I0.
Qed.
Print Assumptions C143_betaN.
(** The cylindrical safety factor in terms of the vacuum field fvac / R0 at the geometric axis:
    2 pi a^2 B / (mu0 I R0) times (1 + k^2) / 2, the mean square radius of the ellipse. *)
Theorem C143_qcyl : forall (P Ctl : Type) pi mu0 fvac sep (e : equilibrium R P Ctl) s r a k,
  sep e 360%nat = Ok s -> Rgeometric s = Ok r -> minorRadius s = Ok a -> elongation s = Ok k -> r <> 0 -> mu0 <> 0 -> current e <> 0 ->
  exists q, qcyl pi mu0 fvac sep e = Ok q /\ q * (mu0 * current e * r) = 2 * pi * ((a ^ 2 + (k * a) ^ 2) / 2) * (fvac / r).
Proof.
  intros P Ctl pi mu0 fvac sep e s r a k Hs Hr Ha Hk R0 M0 I0. unfold qcyl, inverseAspectRatio. rewrite Hs. cbn [bind]. rewrite Ha. cbn [bind]. rewrite Hr. cbn [bind]. rewrite Hk. cbn [bind].
  eexists. split; [reflexivity|]. nR. field. repeat split; assumption.
Qed.
Print Assumptions C143_qcyl.
(** the second poloidal beta: 8 pi / (mu0 I^2) times the integral of the pressure over the
    cross-section of the mask; pressures outside the mask do not count *)
Theorem C143_betap2 : forall (P Ctl : Type) pi mu0 pressure (e : equilibrium R P Ctl) psi pa pb m b kx ky,
  e_nx e = S (2 ^ kx) -> e_ny e = S (2 ^ ky) ->
  total_psi e = Ok psi -> psi_axis (bs e) = Some pa -> psi_bndry (bs e) = Some (Some pb) -> mask (bs e) = Some m -> mu0 <> 0 -> current e <> 0 ->
  poloidalBeta2 pi mu0 pressure e = Ok b ->
  exists s, romb2 (e_nx e) (e_ny e) (fun i j => pressure (psinorm pa pb (psi i j)) * mask_at m i j) = Ok s /\
    b * (mu0 * current e ^ 2) = 8 * pi * (s * (R_1D e 1%nat - R_1D e 0%nat) * (Z_1D e 1%nat - Z_1D e 0%nat)).
Proof.
  intros P Ctl pi mu0 pressure e psi pa pb m b kx ky Hx Hy Ht Ha Hb Hm M0 I0 E. assert (Px := Nat.pow_nonzero 2 kx ltac:(lia)). assert (Py := Nat.pow_nonzero 2 ky ltac:(lia)).
  unfold poloidalBeta2, psiN, axis_and_bndry in E. rewrite spacing_R_ok, spacing_Z_ok in E by lia. cbn [bind] in E. rewrite Ht, Ha, Hb in E. cbn [bind] in E. rewrite Hm in E.
  rewrite Hx, Hy, romb2_rt in E. cbn [bind] in E. apply Ok_inj in E. subst b. rewrite Hx, Hy, romb2_rt. eexists. split; [reflexivity|]. nR.
  assert (Es : forall g h, (forall i j, g i j = h i j) -> R2 kx ky g = R2 kx ky h) by (intros g h Hgh; apply R2_ext; intros; apply Hgh).
  match goal with |- 8 * pi / mu0 * ?a * _ * _ / _ * _ = 8 * pi * (?b * _ * _) => assert (Eab : a = b) end.
  { apply Es. intros i j. unfold psinorm. destruct m; cbn [mask_at]; ring. }
  rewrite Eab. unfold grid_R, grid_Z. field. split; assumption.
Qed.
Print Assumptions C143_betap2.
Lemma exBox_elongation : elongation exBox = Ok 1.
Proof.
  unfold elongation. rewrite (amax_unique _ 2), (amin_unique _ 0), exBox_minor.
  - cbn [bind]. f_equal. unfold half. nR. lra.
  - cbn. auto.
  - cbn. intros x [<-|[<-|[<-|[<-|[]]]]]; lra.
  - cbn. auto.
  - cbn. intros x [<-|[<-|[<-|[<-|[]]]]]; lra.
Qed.
Example C143_qcyl_example : qcyl PI 1 3 (fun _ _ => Ok exBox) (exEq (Some None)) = Ok (3 * PI / 16).
Proof.
  destruct (C143_qcyl unit unit PI 1 3 (fun _ _ => Ok exBox) (exEq (Some None)) exBox 2 1 1 eq_refl exBox_geo exBox_minor exBox_elongation) as (q & E & H); try lra; [cbn; lra|].
  rewrite E. f_equal. cbn [current exEq] in H. lra.
Qed.
Example C143_betap2_example : poloidalBeta2 PI 1 (fun x => 1 - x) (exEq (Some None)) = Ok (2 * PI / 9).
Proof.
  destruct (exEq_psi (Some None)) as (psi & Ep & Hp).
  assert (E : exists b, poloidalBeta2 PI 1 (fun x => 1 - x) (exEq (Some None)) = Ok b).
  { unfold poloidalBeta2, psiN. rewrite spacing_R_ok, spacing_Z_ok by (cbn; lia). cbn [bind]. rewrite Ep. cbn [bind axis_and_bndry bs exEq psi_axis psi_bndry mask e_nx e_ny].
    rewrite romb2_3x3. eexists. reflexivity. }
  destruct E as (b & E). rewrite E. f_equal.
  destruct (C143_betap2 unit unit PI 1 _ (exEq (Some None)) psi 0 1 None b 1 1 eq_refl eq_refl Ep eq_refl eq_refl eq_refl ltac:(lra) ltac:(cbn; lra) E) as (s & Es & H).
  change (e_nx (exEq (Some None))) with 3%nat in Es. change (e_ny (exEq (Some None))) with 3%nat in Es. rewrite romb2_3x3 in Es. apply Ok_inj in Es. subst s.
  rewrite !exEq_R, !exEq_Z, !Hp in H. unfold exPsi, psinorm in H. cbn [Nat.eqb andb mask_at INR current exEq] in H.
  assert (HPI := PI_RGT_0). nra.
Qed.
Example C143_betaN_example : betaN (fun _ _ _ _ _ => 0) exSpline PI 1 (fun x => 1 - x) (fun _ => 1) 1 (fun _ _ => Ok exBox) (exEq (Some None)) = Ok 20000000.
Proof.
  assert (HPI := PI_RGT_0).
  assert (Hb : forall r z, Btor (fun _ _ _ _ _ => 0) exSpline (fun _ => 1) 1 (exEq (Some None)) r z = Ok (1 / r)).
  { intros r z. apply (Btor_nomask (fun _ _ _ _ _ => 0) exSpline (fun _ => 1) 1 (exEq (Some None)) 0 1); reflexivity. }
  assert (Ht : toroidalBeta (fun _ _ _ _ _ => 0) exSpline PI 1 (fun x => 1 - x) (fun _ => 1) 1 (exEq (Some None)) = Ok (16 / 5)).
  { unfold toroidalBeta, Btor2. nR. rewrite Hb. cbn [bind]. rewrite (exEq_pressure (fun x => 1 - x) ltac:(cbv beta; ring)). cbn [bind].
    assert (Ev : volume_integral PI (exEq (Some None))
       (fun i j => match Btor (fun _ _ _ _ _ => 0) exSpline (fun _ => 1) 1 (exEq (Some None)) (grid_R (exEq (Some None)) i j) (grid_Z (exEq (Some None)) i j) with Ok b => nsqr b | Raise _ => n0 end) = Ok (40 / 9 * PI)).
    { apply torus_ok. exists None. split; [reflexivity|]. unfold torus_integral. change (e_nx (exEq (Some None))) with 3%nat. change (e_ny (exEq (Some None))) with 3%nat.
      rewrite romb2_3x3. eexists. split; [reflexivity|]. rewrite !Hb. unfold grid_R. rewrite !exEq_R, !exEq_Z. cbn [mask_at INR]. nR. field. }
    nR. rewrite Ev. cbn [bind]. f_equal. nR. field. lra. }
  destruct (C143_betaN unit unit (fun _ _ _ _ _ => 0) exSpline PI 1 (fun x => 1 - x) (fun _ => 1) 1 (fun _ _ => Ok exBox) (exEq (Some None)) exBox (2, 0) 1 (1 / 2) (16 / 5) eq_refl exBox_axis exBox_minor (Hb 2 0) Ht)
    as (b & E & H); [cbn; lra|]. rewrite E. f_equal. cbn [current exEq] in H. lra.
Qed.

(** Poloidal and toroidal beta: 2 mu0 times the integral of the pressure over the plasma divided
    by the integral of the square of the field, both integrals being over the torus swept by the
    mask. *)
Theorem C143_betas : forall (P Ctl : Type) G spline pi mu0 pressure fpol fvac (e : equilibrium R P Ctl) psi pa pb m B ip it ib,
  total_psi e = Ok psi -> psi_axis (bs e) = Some pa -> psi_bndry (bs e) = Some (Some pb) -> mask (bs e) = Some m ->
  (forall i j, Btor G spline fpol fvac e (R_1D e i) (Z_1D e j) = Ok (B i j)) ->
  torus_integral pi e m (fun i j => pressure (psinorm pa pb (psi i j))) ip ->
  torus_integral pi e m (fun i j => B i j ^ 2) it ->
  torus_integral pi e m (fun i j => Equilibrium.eqBr G spline e (R_1D e i) (Z_1D e j) ^ 2 + Equilibrium.eqBz G spline e (R_1D e i) (Z_1D e j) ^ 2) ib ->
  (it <> 0 -> exists bt, toroidalBeta G spline pi mu0 pressure fpol fvac e = Ok bt /\ bt * it = 2 * mu0 * ip) /\
  (ib <> 0 -> exists bp, poloidalBeta G spline pi mu0 pressure e = Ok bp /\ bp * ib = 2 * mu0 * ip).
Proof.
  intros P Ctl G spline pi mu0 pressure fpol fvac e psi pa pb m B ip it ib Ht Ha Hb Hm HB Hp Hi Hq.
  assert (Ext : forall f g v, (forall i j, f i j = g i j) -> torus_integral pi e m f v -> volume_integral pi e g = Ok v).
  { intros f g v Efg (s & Es & Ev). assert (V : volume_integral pi e f = Ok v) by (apply torus_ok; exists m; split; [exact Hm|]; exists s; split; assumption).
    destruct (volume_ok_dyadic _ _ _ _ V) as (m0 & kx & ky & Hm0 & Hx & Hy & _). rewrite (volume_integral_ok pi e m kx ky g Hx Hy Hm).
    rewrite (volume_integral_ok pi e m kx ky f Hx Hy Hm) in V. rewrite <- V. f_equal. apply R2_ext. intros i j _ _. rewrite Efg. reflexivity. }
  assert (Ep : pressure_integral pi pressure e = Ok ip).
  { unfold pressure_integral, psiN, axis_and_bndry. rewrite Ht, Ha, Hb. cbn [bind]. refine (Ext _ _ _ _ Hp). intros i j. unfold psinorm. reflexivity. }
  split; intros N0.
  - unfold toroidalBeta, Btor2. unfold grid_R at 1, grid_Z at 1. rewrite HB. cbn [bind]. rewrite Ep. cbn [bind].
    rewrite (Ext _ (fun i j => match Btor G spline fpol fvac e (grid_R e i j) (grid_Z e i j) with Ok b => nsqr b | Raise _ => n0 end) it) with (2 := Hi).
    + cbn [bind]. eexists. split; [reflexivity|]. nR. field. exact N0.
    + intros i j. unfold grid_R, grid_Z. rewrite HB. unfold nsqr. nR. ring.
  - unfold poloidalBeta, field_integral. rewrite Ep. cbn [bind].
    rewrite (Ext _ (Bpol2 G spline e) ib) with (2 := Hq).
    + cbn [bind]. eexists. split; [reflexivity|]. nR. field. exact N0.
    + intros i j. unfold Bpol2, grid_R, grid_Z, nsqr. nR. ring.
Qed.
Print Assumptions C143_betas.
Example C143_betas_example : toroidalBeta (fun _ _ _ _ _ => 0) exSpline PI 1 (fun x => 1 - x) (fun _ => 1) 1 (exEq (Some None)) = Ok (16 / 5).
Proof.
  assert (HPI := PI_RGT_0). destruct (exEq_psi (Some None)) as (psi & Ep & Hp).
  assert (T3 : forall f v, (exists s, romb2 3 3 (fun i j => f i j * mask_at None i j * R_1D (exEq (Some None)) i) = Ok s /\
     v = 2 * PI * s * (R_1D (exEq (Some None)) 1%nat - R_1D (exEq (Some None)) 0%nat) * (Z_1D (exEq (Some None)) 1%nat - Z_1D (exEq (Some None)) 0%nat)) ->
     torus_integral PI (exEq (Some None)) None f v) by (intros f v H; exact H).
  edestruct (C143_betas unit unit (fun _ _ _ _ _ => 0) exSpline PI 1 (fun x => 1 - x) (fun _ => 1) 1 (exEq (Some None)) psi 0 1 None
    (fun i _ => 1 / R_1D (exEq (Some None)) i) (64 / 9 * PI) (40 / 9 * PI)) as [H _].
  - exact Ep.
  - reflexivity.
  - reflexivity.
  - reflexivity.
  - intros i j. apply (Btor_nomask (fun _ _ _ _ _ => 0) exSpline (fun _ => 1) 1 (exEq (Some None)) 0 1); reflexivity.
  - apply T3. rewrite romb2_3x3. eexists. split; [reflexivity|]. rewrite !exEq_R, !exEq_Z, !Hp. unfold exPsi, psinorm. cbn [Nat.eqb andb mask_at INR]. field.
  - apply T3. rewrite romb2_3x3. eexists. split; [reflexivity|]. rewrite !exEq_R, !exEq_Z. cbn [mask_at INR]. field.
  - apply T3. rewrite romb2_3x3. eexists. split; [reflexivity|reflexivity].
  - destruct H as (b & E & Hb); [lra|]. rewrite E. f_equal. nra.
Qed.
