(** The Green's function with the true elliptic integrals. *)
From Coq Require Import Reals Lra Lia Psatz.
From Coquelicot Require Import Coquelicot.
From Verif Require Import Num GradShafranov EllipticSpec EllipticProofs.
Local Open Scope R_scope.

Definition Fm (m : R) : R := (2 - m) * ellipK m - 2 * ellipE m.
Definition F1 (m : R) : R := (ellipE m - (1 - m) * ellipK m) / (2 * (1 - m)).
Definition F2 (m : R) : R :=
  ((ellipE m - ellipK m) / (2 * m) + ellipK m - (1 - m) * ((ellipE m - (1 - m) * ellipK m) / (2 * m * (1 - m)))) / (2 * (1 - m)) +
  (ellipE m - (1 - m) * ellipK m) / (2 * (1 - m) ^ 2).

Lemma is_derive_val (f : R -> R) (x l l' : R) : is_derive f x l -> l = l' -> is_derive f x l'.
Proof. intros H <-. exact H. Qed.
Lemma d_mul (f g : R -> R) (x a b : R) : is_derive f x a -> is_derive g x b -> is_derive (fun x => f x * g x) x (a * g x + f x * b).
Proof. intros Hf Hg. apply (is_derive_mult f g x a b Hf Hg). intros; apply Rmult_comm. Qed.
Lemma d_sub (f g : R -> R) (x a b : R) : is_derive f x a -> is_derive g x b -> is_derive (fun x => f x - g x) x (a - b).
Proof. intros Hf Hg. exact (is_derive_minus f g x a b Hf Hg). Qed.
Lemma d_add (f g : R -> R) (x a b : R) : is_derive f x a -> is_derive g x b -> is_derive (fun x => f x + g x) x (a + b).
Proof. intros Hf Hg. exact (is_derive_plus f g x a b Hf Hg). Qed.
Lemma d_cst (f : R -> R) (x c a : R) : is_derive f x a -> is_derive (fun x => c * f x) x (c * a).
Proof. intros Hf. exact (is_derive_scal f x c a Hf). Qed.
Lemma d_comp (f g : R -> R) (x a b : R) : is_derive f (g x) a -> is_derive g x b -> is_derive (fun x => f (g x)) x (b * a).
Proof. intros Hf Hg. exact (is_derive_comp f g x a b Hf Hg). Qed.
Lemma d_sqrt (g : R -> R) (x b : R) : 0 < g x -> is_derive g x b -> is_derive (fun x => sqrt (g x)) x (b / (2 * sqrt (g x))).
Proof. intros Hp Hg. exact (is_derive_sqrt g x b Hg Hp). Qed.
Lemma d_div (f g : R -> R) (x a b : R) : is_derive f x a -> is_derive g x b -> g x <> 0 -> is_derive (fun x => f x / g x) x ((a * g x - f x * b) / g x ^ 2).
Proof. intros Hf Hg H. exact (is_derive_div f g x a b Hf Hg H). Qed.

Lemma dF m : m < 1 -> m <> 0 -> is_derive Fm m (F1 m).
Proof.
  intros H Hm. eapply is_derive_val.
  - unfold Fm. apply d_sub.
    + eapply (d_mul (fun m => 2 - m) ellipK m (-1)); [|apply dK; assumption]. auto_derive; [exact I|ring].
    + apply d_cst. apply dE; assumption.
  - unfold F1. field. split; lra.
Qed.
Lemma dF1 m : m < 1 -> m <> 0 -> is_derive F1 m (F2 m).
Proof.
  intros H Hm. eapply is_derive_val.
  - unfold F1. eapply (d_div (fun m => ellipE m - (1 - m) * ellipK m) (fun m => 2 * (1 - m)) m).
    + apply d_sub; [apply dE; assumption|].
      eapply (d_mul (fun m => 1 - m) ellipK m (-1)); [|apply dK; assumption]. auto_derive; [exact I|ring].
    + instantiate (1 := -2). auto_derive; [exact I|ring].
    + lra.
  - unfold F2. field. split; lra.
Qed.

(** sqrt(D(x)) F(M(x)) and its derivatives *)
Section Chain.
  Variables (D D1 M M1 : R -> R) (D2 M2 : R).
  Definition T0 (x : R) : R := sqrt (D x) * Fm (M x).
  Definition T1 (x : R) : R := D1 x / (2 * sqrt (D x)) * Fm (M x) + sqrt (D x) * (M1 x * F1 (M x)).
  Lemma chain1 x : 0 < D x -> 0 < M x < 1 -> is_derive D x (D1 x) -> is_derive M x (M1 x) -> is_derive T0 x (T1 x).
  Proof.
    intros HD HM dD dM. unfold T0, T1. apply (d_mul (fun x => sqrt (D x)) (fun x => Fm (M x))).
    - apply (d_sqrt D); assumption.
    - apply (d_comp Fm M); [apply dF; lra|exact dM].
  Qed.
  Lemma chain2 x : 0 < D x -> 0 < M x < 1 -> is_derive D x (D1 x) -> is_derive M x (M1 x) -> is_derive D1 x D2 -> is_derive M1 x M2 ->
    is_derive T1 x ((Fm (M x) * (D2 / 2 - D1 x ^ 2 / (4 * D x)) + D1 x * M1 x * F1 (M x) + D x * (M2 * F1 (M x) + M1 x ^ 2 * F2 (M x))) / sqrt (D x)).
  Proof.
    intros HD HM dD dM dD1 dM1. assert (S := sqrt_lt_R0 _ HD). assert (Hs : sqrt (D x) * sqrt (D x) = D x) by (apply sqrt_sqrt; lra).
    eapply is_derive_val.
    - unfold T1. apply (d_add (fun x => D1 x / (2 * sqrt (D x)) * Fm (M x)) (fun x => sqrt (D x) * (M1 x * F1 (M x)))).
      + apply (d_mul (fun x => D1 x / (2 * sqrt (D x))) (fun x => Fm (M x))).
        * apply (d_div D1 (fun x => 2 * sqrt (D x))); [exact dD1| |lra]. apply (d_cst (fun x => sqrt (D x))). apply (d_sqrt D); [exact HD|exact dD].
        * apply (d_comp Fm M); [apply dF; lra|exact dM].
      + apply (d_mul (fun x => sqrt (D x)) (fun x => M1 x * F1 (M x))); [apply (d_sqrt D); [exact HD|exact dD]|].
        apply (d_mul M1 (fun x => F1 (M x))); [exact dM1|]. apply (d_comp F1 M); [apply dF1; lra|exact dM].
    - set (s := sqrt (D x)) in *. rewrite <- Hs. field. lra.
  Qed.
End Chain.

(** The identity behind the vacuum equation: D = (r + a)^2 + w^2, M = 4 r a / D. *)
Lemma vacuum_identity (r a w K E : R) : 0 < r -> 0 < a -> 0 < (r - a) ^ 2 + w ^ 2 ->
  let D := (r + a) ^ 2 + w ^ 2 in
  let m := 4 * r * a / D in
  let F := (2 - m) * K - 2 * E in
  let G1 := (E - (1 - m) * K) / (2 * (1 - m)) in
  let G2 := ((E - K) / (2 * m) + K - (1 - m) * ((E - (1 - m) * K) / (2 * m * (1 - m)))) / (2 * (1 - m)) + (E - (1 - m) * K) / (2 * (1 - m) ^ 2) in
  let Dr := 2 * (r + a) in let Dz := 2 * w in
  let Mr := 4 * a / D - 4 * r * a * Dr / D ^ 2 in let Mz := - 4 * r * a * Dz / D ^ 2 in
  let Mrr := - 8 * a * Dr / D ^ 2 - 8 * r * a / D ^ 2 + 8 * r * a * Dr ^ 2 / D ^ 3 in
  let Mzz := - 8 * r * a / D ^ 2 + 8 * r * a * Dz ^ 2 / D ^ 3 in
  (F * (2 / 2 - Dr ^ 2 / (4 * D)) + Dr * Mr * G1 + D * (Mrr * G1 + Mr ^ 2 * G2)) - (Dr / 2 * F + D * (Mr * G1)) / r
  + (F * (2 / 2 - Dz ^ 2 / (4 * D)) + Dz * Mz * G1 + D * (Mzz * G1 + Mz ^ 2 * G2)) = 0.
Proof.
  intros Hr Ha Hw. cbv zeta. assert (0 < (r + a) ^ 2) by (apply pow_lt; lra). assert (0 <= w ^ 2) by apply pow2_ge_0.
  assert (Hm : 1 - 4 * r * a / ((r + a) ^ 2 + w ^ 2) = ((r - a) ^ 2 + w ^ 2) / ((r + a) ^ 2 + w ^ 2)) by (field; lra).
  field. repeat split; try lra; nra.
Qed.

(** ** The function in the code *)
Section Loop.
  Variables a h : R.
  Hypothesis Ha : 0 < a.
  Definition DD (r z : R) : R := (r + a) ^ 2 + (z - h) ^ 2.
  Definition MM (r z : R) : R := 4 * r * a / DD r z.
  Definition unclipped (r z : R) : Prop := 0 < r /\ 1 / 10 ^ 10 < MM r z < 1 - 1 / 10 ^ 10.

  Lemma DD_pos r z : 0 < r -> 0 < DD r z.
  Proof. intros H. unfold DD. assert (0 < (r + a) ^ 2) by (apply pow_lt; lra). assert (0 <= (z - h) ^ 2) by apply pow2_ge_0. lra. Qed.
  Lemma tiny : 0 < 1 / 10 ^ 10 < 1 / 2.
  Proof. assert (P : 2 < 10 ^ 10) by lra. split; [apply Rdiv_lt_0_compat; lra|]. apply Rmult_lt_compat_l; [lra|]. apply Rinv_lt_contravar; lra. Qed.

  Lemma closed_form r z : 0 < r -> 1 / 10 ^ 10 <= MM r z <= 1 - 1 / 10 ^ 10 ->
    Greens ellipK ellipE a h r z = mu0 / (4 * PI) * (sqrt (DD r z) * Fm (MM r z)).
  Proof.
    intros Hr Hm. assert (HD := DD_pos r z Hr). assert (T := tiny). unfold Greens. cbv zeta.
    change (4 * r * a / ((r + a) ^ 2 + (z - h) ^ 2)) with (MM r z).
    replace (nclip (MM r z) (1 / 10 ^ 10) (1 - 1 / 10 ^ 10)) with (MM r z).
    2:{ rewrite nclip_R, Rmax_left, Rmin_left; lra. }
    change ((2 - MM r z) * ellipK (MM r z) - 2 * ellipE (MM r z)) with (Fm (MM r z)).
    assert (E : sqrt (r * a) = sqrt (DD r z) * sqrt (MM r z) / 2).
    { rewrite <- sqrt_mult by lra. replace (DD r z * MM r z) with (2 ^ 2 * (r * a)) by (unfold MM; field; lra).
      rewrite (sqrt_mult (2 ^ 2) (r * a)) by nra. rewrite sqrt_pow2 by lra. field. }
    rewrite E. assert (0 < sqrt (MM r z)) by (apply sqrt_lt_R0; lra). field. split; [apply PI_neq0|lra].
  Qed.

  Lemma unclipped_open_r z x : unclipped x z -> locally x (fun y => unclipped y z).
  Proof.
    intros (Hx & H1 & H2). assert (HD := DD_pos x z Hx).
    assert (C : continuous (fun y => MM y z) x).
    { apply (ex_derive_continuous (fun y => MM y z)). unfold MM, DD. auto_derive. unfold DD in HD. cbn in HD |- *. lra. }
    apply filter_and; [apply (open_gt 0 x Hx)|]. apply filter_and; [apply (C _ (open_gt _ _ H1))|apply (C _ (open_lt _ _ H2))].
  Qed.
  Lemma unclipped_open_z r y : unclipped r y -> locally y (fun y => unclipped r y).
  Proof.
    intros (Hx & H1 & H2). assert (HD := DD_pos r y Hx).
    assert (C : continuous (fun y => MM r y) y).
    { apply (ex_derive_continuous (fun y => MM r y)). unfold MM, DD. auto_derive. unfold DD in HD. cbn in HD |- *. lra. }
    apply filter_and; [apply filter_forall; intros _; exact Hx|]. apply filter_and; [apply (C _ (open_gt _ _ H1))|apply (C _ (open_lt _ _ H2))].
  Qed.

  Definition D_r (z r : R) : R := 2 * (r + a).
  Definition D_z (r z : R) : R := 2 * (z - h).
  Definition M_r (z r : R) : R := 4 * a / DD r z - 4 * r * a * D_r z r / DD r z ^ 2.
  Definition M_z (r z : R) : R := - 4 * r * a * D_z r z / DD r z ^ 2.

  Lemma dDr z r : is_derive (fun r => DD r z) r (D_r z r).
  Proof. unfold DD, D_r. auto_derive; [exact I|ring]. Qed.
  Lemma dDz r z : is_derive (fun z => DD r z) z (D_z r z).
  Proof. unfold DD, D_z. auto_derive; [exact I|ring]. Qed.
  Lemma dMr z r : 0 < r -> is_derive (fun r => MM r z) r (M_r z r).
  Proof.
    intros Hr. assert (HD := DD_pos r z Hr). eapply is_derive_val.
    - unfold MM. apply (d_div (fun r => 4 * r * a) (fun r => DD r z)); [|apply dDr|lra]. instantiate (1 := 4 * a). auto_derive; [exact I|ring].
    - unfold M_r. field. lra.
  Qed.
  Lemma dMz r z : 0 < r -> is_derive (fun z => MM r z) z (M_z r z).
  Proof.
    intros Hr. assert (HD := DD_pos r z Hr). eapply is_derive_val.
    - unfold MM. apply (d_div (fun z => 4 * r * a) (fun z => DD r z)); [|apply dDz|lra]. instantiate (1 := 0). auto_derive; [exact I|ring].
    - unfold M_z. field. lra.
  Qed.
  Lemma dDrr z r : is_derive (D_r z) r 2.
  Proof. unfold D_r. auto_derive; [exact I|ring]. Qed.
  Lemma dDzz r z : is_derive (D_z r) z 2.
  Proof. unfold D_z. auto_derive; [exact I|ring]. Qed.
  Lemma dMrr z r : 0 < r -> is_derive (M_r z) r (- 8 * a * D_r z r / DD r z ^ 2 - 8 * r * a / DD r z ^ 2 + 8 * r * a * D_r z r ^ 2 / DD r z ^ 3).
  Proof.
    intros Hr. assert (HD := DD_pos r z Hr). assert (HD' := HD). unfold DD in HD'. eapply is_derive_val.
    - unfold M_r, DD, D_r. auto_derive; [|reflexivity]. cbn in HD' |- *. repeat split; try lra. intros C. assert (0 < (r + a) * ((r + a) * 1) + (z - h) * ((z - h) * 1)) by lra. unfold Rminus in *. nra.
    - unfold DD, D_r in *. cbn in HD' |- *. field. cbn in *. lra.
  Qed.
  Lemma dMzz r z : 0 < r -> is_derive (M_z r) z (- 8 * r * a / DD r z ^ 2 + 8 * r * a * D_z r z ^ 2 / DD r z ^ 3).
  Proof.
    intros Hr. assert (HD := DD_pos r z Hr). assert (HD' := HD). unfold DD in HD'. eapply is_derive_val.
    - unfold M_z, DD, D_z. auto_derive; [|reflexivity]. cbn in HD' |- *. repeat split; try lra. intros C. assert (0 < (r + a) * ((r + a) * 1) + (z - h) * ((z - h) * 1)) by lra. unfold Rminus in *. nra.
    - unfold DD, D_z in *. cbn in HD' |- *. field. cbn in *. lra.
  Qed.

  Lemma below1 r z : unclipped r z -> 0 < MM r z < 1.
  Proof. intros (_ & H). assert (T := tiny). lra. Qed.
  Definition cc : R := mu0 / (4 * PI).
  Definition G_r (z : R) : R -> R := fun x => cc * T1 (fun x => DD x z) (D_r z) (fun x => MM x z) (M_r z) x.
  Definition G_z (r : R) : R -> R := fun y => cc * T1 (fun y => DD r y) (D_z r) (fun y => MM r y) (M_z r) y.
  Lemma G_r_spec r z : unclipped r z -> is_derive (fun x => Greens ellipK ellipE a h x z) r (G_r z r).
  Proof.
    intros U. apply is_derive_ext_loc with (fun x => cc * T0 (fun x => DD x z) (fun x => MM x z) x).
    - eapply filter_imp; [|exact (unclipped_open_r z r U)]. intros x (Hx & Hm). symmetry. apply closed_form; [exact Hx|lra].
    - apply d_cst. apply chain1; [apply DD_pos; apply U|apply below1; exact U|apply dDr|apply dMr; apply U].
  Qed.
  Lemma G_z_spec r z : unclipped r z -> is_derive (fun y => Greens ellipK ellipE a h r y) z (G_z r z).
  Proof.
    intros U. apply is_derive_ext_loc with (fun y => cc * T0 (fun y => DD r y) (fun y => MM r y) y).
    - eapply filter_imp; [|exact (unclipped_open_z r z U)]. intros x (Hx & Hm). symmetry. apply closed_form; [exact Hx|lra].
    - apply d_cst. apply chain1; [apply DD_pos; apply U|apply below1; exact U|apply dDz|apply dMz; apply U].
  Qed.
  Lemma vacuum r z : unclipped r z -> is_gs (Greens ellipK ellipE a h) r z 0.
  Proof.
    intros U. assert (Hr := proj1 U). assert (HD := DD_pos r z Hr). assert (HM := below1 r z U). assert (S := sqrt_lt_R0 _ HD).
    exists (G_r z). eexists. exists (G_z r). eexists. split; [|split; [|split; [|split]]].
    - eapply filter_imp; [|exact (unclipped_open_r z r U)]. intros x Ux. apply G_r_spec. exact Ux.
    - apply d_cst. apply chain2; [exact HD|exact HM|apply dDr|apply dMr; exact Hr|apply dDrr|apply dMrr; exact Hr].
    - eapply filter_imp; [|exact (unclipped_open_z r z U)]. intros x Ux. apply G_z_spec. exact Ux.
    - apply d_cst. apply chain2; [exact HD|exact HM|apply dDz|apply dMz; exact Hr|apply dDzz|apply dMzz; exact Hr].
    - assert (P : 0 < (r - a) ^ 2 + (z - h) ^ 2).
      { assert (L : 4 * r * a < DD r z).
        { apply Rmult_lt_reg_r with (/ DD r z); [apply Rinv_0_lt_compat; exact HD|]. rewrite Rinv_r by lra. apply HM. }
        unfold DD in L. nra. }
      assert (V := vacuum_identity r a (z - h) (ellipK (MM r z)) (ellipE (MM r z)) Hr Ha P). cbv zeta in V.
      unfold G_r, T1. set (A := Fm (MM r z) * (2 / 2 - D_r z r ^ 2 / (4 * DD r z)) + _ + _).
      set (B := Fm (MM r z) * (2 / 2 - D_z r z ^ 2 / (4 * DD r z)) + _ + _).
      assert (Hs : sqrt (DD r z) * sqrt (DD r z) = DD r z) by (apply sqrt_sqrt; lra).
      transitivity (cc / sqrt (DD r z) * (A - (D_r z r / 2 * Fm (MM r z) + DD r z * (M_r z r * F1 (MM r z))) / r + B)).
      + assert (V' : A - (D_r z r / 2 * Fm (MM r z) + DD r z * (M_r z r * F1 (MM r z))) / r + B = 0) by exact V. rewrite V'. ring.
      + clearbody A B. clear V. set (d := DD r z) in *. clearbody d. set (s := sqrt d) in *. clearbody s. rewrite <- Hs. field. split; lra.
  Qed.
End Loop.
