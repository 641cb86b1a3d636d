(** C31 - C38: the plasma profile classes. *)
From Coq Require Import List Arith ZArith Bool Reals Lra Lia.
From Coquelicot Require Import Coquelicot.
From Verif Require Import Py Num Numpy Romb RombProofs RombExact Jtor JtorSpec JtorProofs.
Import ListNotations.
Local Open Scope R_scope.

(** ** An example on a 3x3 grid: R = 1, 2, 3 and Z = 0, 1, 2, flux 0 in the middle and 1 elsewhere *)
Definition exPsi : nat -> nat -> R := fun i j => if ((i =? 1) && (j =? 1))%nat then 0 else 1.
Definition exEnv : env (T:=R) :=
  mkenv 3 3 (fun i _ => 1 + INR i) (fun _ j => INR j)
    (fun _ => Ok ([(2, 1, 0)], [])) (fun _ _ _ _ => Ok (fun _ _ => 1)) (fun _ => Ok (Some 1))
    (fun _ _ => 1) (fun _ _ => 0).
Definition exProf : cprofile (T:=R) := mkcprofile 1 8 (-2) 1 1 1.
Lemma exCore : core_of exEnv exPsi 1 0 (Some (fun _ _ => 1)).
Proof. exists (Some 1). split; reflexivity. Qed.
Lemma exWeight i j : weight rpow exProf 0 1 (Some (fun _ _ => 1)) exPsi i j = if ((i =? 1) && (j =? 1))%nat then 1 else 0.
Proof.
  unfold weight, psinorm, exPsi. cbn [alpha_m alpha_n exProf mask_at]. destruct ((i =? 1) && (j =? 1))%nat.
  - replace ((0 - 0) / (1 - 0)) with 0 by field. rewrite Rmax_left, Rmin_left, rpow_0l by lra. replace (1 - 0) with 1 by lra. rewrite rpow_1l. lra.
  - replace ((1 - 0) / (1 - 0)) with 1 by field. rewrite Rmax_left, Rmin_left, rpow_1l by lra. replace (1 - 1) with 0 by lra. rewrite rpow_0l; lra.
Qed.
Lemma exGrid (a : nat -> nat -> R) v :
  grid_integral exEnv (fun i j => (if ((i =? 1) && (j =? 1))%nat then 1 else 0) * a i j) v <-> v = 16 / 9 * a 1%nat 1%nat.
Proof.
  unfold grid_integral. cbn [nx ny gR gZ exEnv]. rewrite romb2_3x3. cbn [Nat.eqb andb INR]. split.
  - intros (s & [= <-] & ->). field.
  - intros ->. eexists. split; [reflexivity|]. field.
Qed.
(** the result of ConstrainPaxisIp.Jtor on the example: L = 15, Beta0 = -2/15 *)
Lemma exShapeInt : RInt (shape rpow exProf) 0 1 = 1 / 2.
Proof.
  rewrite (RInt_ext (V:=R_CompleteNormedModule) _ (fun x => 1 - x)).
  - apply (is_RInt_unique (V:=R_CompleteNormedModule)). replace (1 / 2) with ((1 - 1 ^ 2 / 2) - (0 - 0 ^ 2 / 2)) by lra.
    apply (is_RInt_derive (fun x => x - x ^ 2 / 2) (fun x => 1 - x)).
    + intros x _. auto_derive; [exact I|]. field.
    + intros x _. apply (ex_derive_continuous (fun x => 1 - x)). auto_derive. exact I.
  - intros x Hx. rewrite Rmin_left, Rmax_right in Hx by lra. unfold shape. cbn [alpha_m alpha_n exProf]. nR.
    rewrite !rpow_pos by (try rewrite rpow_pos by lra; rewrite ?Rpower_1 by lra; lra). rewrite !Rpower_1 by (rewrite ?Rpower_1; lra). reflexivity.
Qed.
Lemma exFinish lb pa pb js : (forall i j, js i j = if ((i =? 1) && (j =? 1))%nat then 1 else 0) ->
  exists J s, cfinish exEnv exProf pb pa js lb = Ok (J, s) /\ L s = 9 - 3 * lb /\ Beta0 s = lb / (9 - 3 * lb).
Proof.
  intros Hjs. unfold cfinish.
  destruct (area_int exEnv (fun i j => (js i j * gR exEnv i j / Raxis exProf)%num)) as [IR|] eqn:E1.
  2:{ assert (H : area_int exEnv (fun i j => (js i j * gR exEnv i j / Raxis exProf)%num) = Ok (16 / 9 * 2)); [|congruence].
      apply area_int_ok. apply (grid_ext _ (fun i j => (if ((i =? 1) && (j =? 1))%nat then 1 else 0) * (1 + INR i))).
      - intros i j. rewrite Hjs. cbn [gR exEnv Raxis exProf]. nR. field.
      - apply exGrid. cbn. lra. }
  destruct (area_int exEnv (fun i j => (js i j * Raxis exProf / gR exEnv i j)%num)) as [I_R|] eqn:E2.
  2:{ assert (H : area_int exEnv (fun i j => (js i j * Raxis exProf / gR exEnv i j)%num) = Ok (16 / 9 * / 2)); [|congruence].
      apply area_int_ok. apply (grid_ext _ (fun i j => (if ((i =? 1) && (j =? 1))%nat then 1 else 0) * / (1 + INR i))).
      - intros i j. rewrite Hjs. cbn [gR exEnv Raxis exProf]. nR. unfold Rdiv. ring.
      - apply exGrid. cbn. field. }
  cbn [bind]. eexists. eexists. split; [reflexivity|]. cbn [L Beta0].
  apply area_int_ok in E1. apply area_int_ok in E2.
  assert (F1 : IR = 32 / 9).
  { apply (grid_ext _ _ (fun i j => (if ((i =? 1) && (j =? 1))%nat then 1 else 0) * (1 + INR i))) in E1.
    - apply exGrid in E1. rewrite E1. cbn. field.
    - intros i j. rewrite Hjs. cbn [gR exEnv Raxis exProf]. nR. field. }
  assert (F2 : I_R = 8 / 9).
  { apply (grid_ext _ _ (fun i j => (if ((i =? 1) && (j =? 1))%nat then 1 else 0) * / (1 + INR i))) in E2.
    - apply exGrid in E2. rewrite E2. cbn. field.
    - intros i j. rewrite Hjs. cbn [gR exEnv Raxis exProf]. nR. unfold Rdiv. ring. }
  rewrite F1, F2. cbn [Ip exProf]. nR.
  assert (E : 8 / (8 / 9) - lb * (32 / 9 / (8 / 9) - 1) = 9 - 3 * lb) by field. rewrite E. auto.
Qed.
Lemma exPaxis arg : exists J s, paxis_Jtor rpow rquad exEnv exProf exPsi arg = Ok (J, s) /\ L s = 15 /\ psi_bndry s <> psi_axis s.
Proof.
  unfold paxis_Jtor. cbn [updated_bndry exEnv bind find_core find_critical core_mask]. unfold rquad. nR. rewrite exShapeInt.
  destruct (exFinish (- target exProf * Raxis exProf / (1 / 2 * (1 - 0))) 0 1 (jtorshape rpow exProf (psi_norm_of 1 0 exPsi) (Some (fun _ _ => 1)))) as (J & s & Hf & HL & HB).
  { intros i j. rewrite jtorshape_at. apply exWeight. }
  exists J, s. split; [exact Hf|]. split; [rewrite HL; cbn [target Raxis exProf]; field|].
  destruct (cfinish_inv _ _ _ _ _ _ _ _ Hf) as (_ & _ & _ & _ & _ & _ & -> & -> & _). lra.
Qed.

(** ** C31 *)
(** The integral of weight * Raxis / R does not vanish when the exponents are positive, R > 0
    everywhere, the mask is nowhere negative and some point of the mask has normalised flux
    below 1. *)
Theorem C31_shape_integral_positive : forall p (e : env (T:=R)) psi pb pa m v,
  0 < alpha_m p -> 0 <= alpha_n p -> 0 < Raxis p ->
  (forall i j, 0 < gR e i j) -> gR e 0%nat 0%nat < gR e 1%nat 0%nat -> gZ e 0%nat 0%nat < gZ e 0%nat 1%nat ->
  (forall i j, 0 <= mask_at m i j) ->
  (exists i j, (i < nx e)%nat /\ (j < ny e)%nat /\ 0 < mask_at m i j /\ psinorm pa pb (psi i j) < 1) ->
  grid_integral e (fun i j => weight rpow p pa pb m psi i j * Raxis p / gR e i j) v -> 0 < v.
Proof.
  intros p e psi pb pa m v Hm Hn HRa HR HdR HdZ Hmask (i0 & j0 & Hi0 & Hj0 & Hm0 & Hpn) (s & Hs & ->).
  destruct (romb2_ok _ _ _ _ Hs) as (kx & ky & Ex & Ey). rewrite Ex, Ey, romb2_rt in Hs. injection Hs as Hs.
  assert (Hsh : forall i j, 0 <= weight rpow p pa pb m psi i j).
  { intros i j. unfold weight. apply Rmult_le_pos; [|apply Hmask]. rewrite <- nclip_R.
    apply (shape_bounds p (Rlt_le _ _ Hm) Hn). apply nclip_bounds. lra. }
  assert (Hp : 0 < s).
  { rewrite <- Hs. apply (R2_positive kx ky) with (i := i0) (j := j0); [|lia|lia|].
    - intros i j _ _. apply Rmult_le_pos; [apply Rmult_le_pos; [apply Hsh|lra]|]. apply Rlt_le, Rinv_0_lt_compat, HR.
    - apply Rmult_lt_0_compat; [|apply Rinv_0_lt_compat, HR]. apply Rmult_lt_0_compat; [|exact HRa].
      unfold weight. apply Rmult_lt_0_compat; [|exact Hm0]. apply (shape_pos p); [exact Hm|].
      unfold Rmin, Rmax. destruct (Rle_dec (psinorm pa pb (psi i0 j0)) 0); destruct (Rle_dec _ 1); lra. }
  apply Rmult_lt_0_compat; [|lra]. apply Rmult_lt_0_compat; lra.
Qed.
Print Assumptions C31_shape_integral_positive.
(** The returned current density integrates to Ip: for any power and quadrature routines. *)
Theorem C31_paxis_current : forall pow quad (e : env (T:=R)) p psi arg J s pb pa m,
  paxis_Jtor pow quad e p psi arg = Ok (J, s) -> core_of e psi pb pa m ->
  (forall v, grid_integral e (fun i j => weight pow p pa pb m psi i j * Raxis p / gR e i j) v -> v <> 0) ->
  L s <> 0 -> grid_integral e J (Ip p).
Proof.
  intros pow quad e p psi arg J s pb pa m HJ Hcore HI HL.
  destruct (paxis_inv _ _ _ _ _ _ _ _ HJ) as (pb' & pa' & m' & Hc & Hf).
  destruct (core_fun _ _ _ _ _ _ _ _ Hc Hcore) as (-> & -> & ->).
  apply (cfinish_current _ _ _ _ _ _ _ _ Hf HL). intros v Hv. apply HI.
  apply (grid_ext _ _ (fun i j => weight pow p pa pb m psi i j * Raxis p / gR e i j)) in Hv; [exact Hv|].
  intros i j. rewrite jtorshape_at. reflexivity.
Qed.
Print Assumptions C31_paxis_current.
Theorem C31_betap_current : forall pow quad mu0 (e : env (T:=R)) p psi arg J s pb pa m,
  betap_Jtor pow quad mu0 e p psi arg = Ok (J, s) -> core_of e psi pb pa m ->
  (forall v, grid_integral e (fun i j => weight pow p pa pb m psi i j * Raxis p / gR e i j) v -> v <> 0) ->
  L s <> 0 -> grid_integral e J (Ip p).
Proof.
  intros pow quad mu0 e p psi arg J s pb pa m HJ Hcore HI HL.
  destruct (betap_inv _ _ _ _ _ _ _ _ _ HJ) as (pb' & pa' & m' & pint & bint & Hc & _ & _ & Hf).
  destruct (core_fun _ _ _ _ _ _ _ _ Hc Hcore) as (-> & -> & ->).
  apply (cfinish_current _ _ _ _ _ _ _ _ Hf HL). intros v Hv. apply HI.
  apply (grid_ext _ _ (fun i j => weight pow p pa pb m psi i j * Raxis p / gR e i j)) in Hv; [exact Hv|].
  intros i j. rewrite jtorshape_at. reflexivity.
Qed.
Print Assumptions C31_betap_current.
Example C31_example : exists J s, paxis_Jtor rpow rquad exEnv exProf exPsi None = Ok (J, s) /\ grid_integral exEnv J 8.
Proof.
  destruct (exPaxis None) as (J & s & HJ & HL & _). exists J, s. split; [exact HJ|].
  apply (C31_paxis_current _ _ _ _ _ _ _ _ _ _ _ HJ exCore); [|lra].
  intros v Hv. apply Rgt_not_eq. refine (C31_shape_integral_positive _ _ _ _ _ _ _ _ _ _ _ _ _ _ _ Hv); cbn; try lra.
  - intros i _. assert (H := pos_INR i). lra.
  - intros; lra.
  - exists 1%nat, 1%nat. repeat split; try lia; try lra. unfold psinorm, exPsi. cbn. lra.
Qed.

(** ** C32 *)
Theorem C32_pressure_on_axis : forall (e : env (T:=R)) p psi arg J s,
  0 <= alpha_m p -> 0 <= alpha_n p -> (0 < alpha_m p \/ alpha_n p = 0) ->
  paxis_Jtor rpow rquad e p psi arg = Ok (J, s) ->
  Raxis p <> 0 -> psi_bndry s <> psi_axis s -> L s <> 0 ->
  cpressure rpow rquad p s 0 = target p /\ cpressure rpow rquad p s 1 = 0.
Proof.
  intros e p psi arg J s Hm Hn Hor HJ HRa Hne HL.
  destruct (paxis_inv _ _ _ _ _ _ _ _ HJ) as (pb & pa & m & _ & Hf).
  destruct (cfinish_inv _ _ _ _ _ _ _ _ Hf) as (IR & I_R & _ & _ & _ & HB & Epb & Epa & _).
  rewrite Epb, Epa in Hne. unfold rquad in HB.
  set (S0 := RInt (shape rpow p) 0 1) in *.
  assert (HS0 : S0 <> 0).
  { destruct Hor as [H|H]; [apply Rgt_not_eq, (shape_int_pos p Hm Hn); [exact H|lra]|].
    unfold S0. rewrite (RInt_ext (V:=R_CompleteNormedModule) _ (fun _ => 1)).
    - rewrite RInt_const. unfold scal; cbn; unfold mult; cbn. lra.
    - intros x _. unfold shape. rewrite H. apply rpow_0r. }
  unfold cpressure, pressure, rquad, cpprime. nR. split.
  - rewrite (RInt_scal_l (fun y => shape rpow p (nclip y 0 1)) 0 1) by (apply shape_int; assumption).
    rewrite <- (shape_quad p 0) by lra. fold S0. rewrite HB, Epb, Epa.
    replace (L s * (- target p * Raxis p / (S0 * (pb - pa)) / L s) / Raxis p) with (- target p / (S0 * (pb - pa))) by (field; repeat split; try assumption; lra).
    field. split; [lra|exact HS0].
  - rewrite RInt_point. apply Rmult_0_l.
Qed.
Print Assumptions C32_pressure_on_axis.
Example C32_example : exists J s, paxis_Jtor rpow rquad exEnv exProf exPsi None = Ok (J, s) /\ cpressure rpow rquad exProf s 0 = 1.
Proof.
  destruct (exPaxis None) as (J & s & HJ & HL & Hne). exists J, s. split; [exact HJ|].
  apply (C32_pressure_on_axis exEnv exProf exPsi None J s); cbn; try lra; assumption.
Qed.

(** ** C33 *)
Theorem C33_poloidal_beta : forall mu0 (e : env (T:=R)) p psi arg J s pb pa m P Wp Wb,
  0 <= alpha_m p -> 0 <= alpha_n p ->
  betap_Jtor rpow rquad mu0 e p psi arg = Ok (J, s) -> core_of e psi pb pa m ->
  Raxis p <> 0 -> mu0 <> 0 -> L s <> 0 ->
  (* P: pressure over the integration region; Wp, Wb: the integrals of P and Bpol^2 *)
  region_pressure e (cpressure rpow rquad p s) pa pb m psi P ->
  grid_integral e (fun i j => P i j * gR e i j) Wp ->
  grid_integral e (fun i j => (eqBr e i j ^ 2 + eqBz e i j ^ 2) * mask_at m i j * gR e i j) Wb ->
  (* and the integral of the shape of the pressure does not vanish *)
  pb <> pa ->
  (forall Q v, region_pressure e (fun x => RInt (fun t => rpow (1 - rpow t (alpha_m p)) (alpha_n p)) x 1) pa pb m psi Q ->
     grid_integral e (fun i j => Q i j * gR e i j) v -> v <> 0) ->
  2 * mu0 * Wp = target p * Wb.
Proof.
  intros mu0 e p psi arg J s pb pa m P Wp Wb Hm Hn HJ Hcore HRa Hmu HL HP HWp HWb Hne Hnz.
  destruct (betap_inv _ _ _ _ _ _ _ _ _ HJ) as (pb' & pa' & m' & pint & bint & Hc & Hpi & Hbi & Hf).
  destruct (core_fun _ _ _ _ _ _ _ _ Hc Hcore) as (-> & -> & ->). clear Hc Hcore.
  assert (Hpint : pint <> 0).
  { intros H0. subst pint.
    apply (Hnz (fun i j => / (pb - pa) * pfunc rpow rquad e p pb pa (psi_norm_of pb pa psi) m i j) 0); [| |reflexivity].
    - intros i j. destruct (pfunc_at rpow rquad e p pb pa m psi i j) as [H1 H2]. split; intros D.
      + rewrite (H1 D). unfold rquad, shape. nR. field. lra.
      + rewrite (H2 D). ring.
    - apply (grid_ext e (fun i j => / (pb - pa) * (pfunc rpow rquad e p pb pa (psi_norm_of pb pa psi) m i j * gR e i j))); [intros; ring|].
      replace 0 with (/ (pb - pa) * 0) by ring. apply grid_scal, Hpi. }
  destruct (cfinish_inv _ _ _ _ _ _ _ _ Hf) as (IR & I_R & _ & _ & _ & HB & Epb & Epa & _).
  assert (Eb : bint = Wb).
  { refine (grid_fun e _ _ _ (grid_ext e _ _ _ _ Hbi) HWb). intros i j. unfold Bpol2. rewrite masked_at. nR. ring. }
  assert (EP : Wp = - (L s * Beta0 s / Raxis p) * pint).
  { refine (grid_fun e _ _ _ (grid_ext e _ _ _ _ HWp) (grid_scal e _ _ _ Hpi)). intros i j.
    destruct (HP i j) as [H1 H2]. destruct (pfunc_at rpow rquad e p pb pa m psi i j) as [H3 H4].
    assert (D : (interior e i j /\ 0 <= psinorm pa pb (psi i j) < 1) \/ ~ (interior e i j /\ 0 <= psinorm pa pb (psi i j) < 1)).
    { unfold interior. destruct (Rle_dec 0 (psinorm pa pb (psi i j))), (Rlt_dec (psinorm pa pb (psi i j)) 1),
        (le_lt_dec i 0), (le_lt_dec j 0), (le_lt_dec (nx e - 1) i), (le_lt_dec (ny e - 1) j); try (right; lia || (intros [_ H]; lra)); try (right; intros [[[? ?] [? ?]] ?]; lia).
      left. repeat split; try lia; lra. }
    destruct D as [D|D].
    - rewrite (H1 D), (H3 D). unfold cpressure, pressure, rquad, cpprime. nR. destruct D as [_ D].
      rewrite (RInt_scal_l (fun y => shape rpow p (nclip y 0 1))) by (apply shape_int; assumption).
      rewrite <- (shape_quad p) by lra. rewrite Epb, Epa. unfold Rdiv. ring.
    - rewrite (H2 D), (H4 D). ring. }
  rewrite EP, HB, Eb. field. repeat split; assumption.
Qed.
Print Assumptions C33_poloidal_beta.
(** The pressure over the region is simply the pressure function times the mask when the mask is
    zero on the edge of the grid and the masked points have non-negative normalised flux. *)
Theorem C33_region : forall (e : env (T:=R)) p s pa pb m psi,
  0 <= alpha_m p -> 0 < alpha_n p -> psi_axis s = pa -> psi_bndry s = pb ->
  (forall i j, mask_at m i j <> 0 -> interior e i j /\ 0 <= psinorm pa pb (psi i j)) ->
  region_pressure e (cpressure rpow rquad p s) pa pb m psi
    (fun i j => cpressure rpow rquad p s (psinorm pa pb (psi i j)) * mask_at m i j).
Proof.
  intros e p s pa pb m psi Hm Hn Ea Eb Hmask i j. split; [reflexivity|]. intros Hout.
  destruct (Req_dec (mask_at m i j) 0) as [->|Hnz]; [ring|]. destruct (Hmask i j Hnz) as [Hi H0].
  assert (H1 : 1 <= psinorm pa pb (psi i j)) by (apply Rnot_lt_le; intros H1; apply Hout; auto).
  unfold cpressure, pressure, rquad, cpprime. nR.
  rewrite (RInt_scal_l (fun y => shape rpow p (nclip y 0 1))) by (apply shape_int; lra).
  rewrite (shape_beyond p) by lra. ring.
Qed.
Print Assumptions C33_region.
Lemma ex_psinorm i j : psinorm 0 1 (exPsi i j) = exPsi i j.
Proof. unfold psinorm. field. Qed.
Lemma ex_region (pr : R -> R) Q : region_pressure exEnv pr 0 1 (Some (fun _ _ => 1)) exPsi Q ->
  forall i j, Q i j = (if ((i =? 1) && (j =? 1))%nat then 1 else 0) * pr 0.
Proof.
  intros H i j. destruct (H i j) as [H1 H2]. rewrite ex_psinorm in H1, H2. unfold interior in H1, H2. cbn [nx ny exEnv mask_at] in H1, H2. unfold exPsi in H1, H2.
  destruct ((i =? 1) && (j =? 1))%nat eqn:E.
  - apply andb_true_iff in E. destruct E as [E1 E2]. apply Nat.eqb_eq in E1, E2. subst. rewrite H1; [ring|]. split; [lia|lra].
  - rewrite H2; [ring|]. intros [_ Hx]. lra.
Qed.
Example C33_example : exists J s P Wp, betap_Jtor rpow rquad 1 exEnv exProf exPsi None = Ok (J, s) /\
  region_pressure exEnv (cpressure rpow rquad exProf s) 0 1 (Some (fun _ _ => 1)) exPsi P /\
  grid_integral exEnv (fun i j => P i j * gR exEnv i j) Wp /\ 2 * 1 * Wp = 1 * 8.
Proof.
  assert (HB : grid_integral exEnv (fun i j => (eqBr exEnv i j ^ 2 + eqBz exEnv i j ^ 2) * mask_at (Some (fun _ _ => 1)) i j * gR exEnv i j) 8).
  { unfold grid_integral. cbn [nx ny exEnv]. rewrite romb2_3x3. eexists. split; [reflexivity|]. cbn. field. }
  assert (HP : grid_integral exEnv (fun i j => pfunc rpow rquad exEnv exProf 1 0 (psi_norm_of 1 0 exPsi) (Some (fun _ _ => 1)) i j * gR exEnv i j) (16 / 9)).
  { apply (grid_ext _ (fun i j => (if ((i =? 1) && (j =? 1))%nat then 1 else 0) * (/ 2 * (1 + INR i)))).
    - intros i j. destruct (pfunc_at rpow rquad exEnv exProf 1 0 (Some (fun _ _ => 1)) exPsi i j) as [H1 H2].
      rewrite ex_psinorm in H1, H2. unfold interior in H1, H2. cbn [nx ny exEnv mask_at] in H1, H2. unfold exPsi in H1, H2.
      destruct ((i =? 1) && (j =? 1))%nat eqn:E.
      + apply andb_true_iff in E. destruct E as [E1 E2]. apply Nat.eqb_eq in E1, E2. subst. unfold exPsi. rewrite H1 by (split; [lia|lra]).
        unfold rquad. rewrite exShapeInt. cbn. field.
      + unfold exPsi. rewrite H2 by (intros [_ Hx]; lra). ring.
    - apply exGrid. cbn. field. }
  destruct (exFinish (8 / (16 / 9) * (- target exProf * Raxis exProf) / (2 * 1)) 0 1 (jtorshape rpow exProf (psi_norm_of 1 0 exPsi) (Some (fun _ _ => 1)))) as (J & s & Hf & HL & HBt).
  { intros i j. rewrite jtorshape_at. apply exWeight. }
  assert (HJ : betap_Jtor rpow rquad 1 exEnv exProf exPsi None = Ok (J, s)).
  { unfold betap_Jtor. change (updated_bndry exEnv exPsi) with (@Ok (option R) (Some 1)). cbn [bind].
    change (find_core exEnv exPsi (Some 1)) with (@Ok (R * R * option (arr2 R)) (1, 0, Some (fun _ _ => 1))). cbn [bind].
    apply area_int_ok in HP. nR. rewrite HP. cbn [bind].
    assert (HB' : area_int exEnv (fun i j => Bpol2 exEnv (Some (fun _ _ => 1)) i j * gR exEnv i j) = Ok 8).
    { apply area_int_ok. refine (grid_ext _ _ _ _ _ HB). intros i j. unfold Bpol2. rewrite masked_at. nR. ring. }
    rewrite HB'. cbn [bind]. exact Hf. }
  set (P := fun i j => (if ((i =? 1) && (j =? 1))%nat then 1 else 0) * cpressure rpow rquad exProf s 0).
  assert (HR : region_pressure exEnv (cpressure rpow rquad exProf s) 0 1 (Some (fun _ _ => 1)) exPsi P).
  { intros i j. rewrite ex_psinorm. unfold interior, P, exPsi. cbn [nx ny exEnv mask_at]. destruct ((i =? 1) && (j =? 1))%nat eqn:E; split; intros D; try ring.
    - apply andb_true_iff in E. destruct E as [E1 E2]. apply Nat.eqb_eq in E1, E2. subst. exfalso. apply D. split; [lia|lra].
    - destruct D as [_ D]. lra. }
  assert (HW : exists Wp, grid_integral exEnv (fun i j => P i j * gR exEnv i j) Wp) by (apply (grid_size _ _ _ _ HP)).
  destruct HW as [Wp HW]. exists J, s, P, Wp. split; [exact HJ|]. split; [exact HR|]. split; [exact HW|].
  refine (C33_poloidal_beta 1 exEnv exProf exPsi None J s 1 0 (Some (fun _ _ => 1)) P Wp 8 _ _ HJ exCore _ _ _ HR HW HB _ _); try (cbn; lra).
  - rewrite HL. cbn [target Raxis exProf]. lra.
  - intros Q v HQ Hv. apply (grid_ext _ _ (fun i j => (if ((i =? 1) && (j =? 1))%nat then 1 else 0) * (1 / 2 * (1 + INR i)))) in Hv.
    + apply exGrid in Hv. rewrite Hv. cbn. lra.
    + intros i j. rewrite (ex_region _ _ HQ). cbn [gR exEnv].
      assert (E : (RInt (fun t => rpow (1 - rpow t (alpha_m exProf)) (alpha_n exProf)) 0 1 : R) = 1 / 2) by apply exShapeInt.
      cbv beta. rewrite E. ring.
Qed.

(** ** C34 *)
(** Both constrained classes: R p' + ff'/(mu0 R) times the mask, with the profile functions of the object after the call. *)
Theorem C34_constrained : forall pow quad mu0 (e : env (T:=R)) p psi arg J s pb pa m,
  (paxis_Jtor pow quad e p psi arg = Ok (J, s) \/ betap_Jtor pow quad mu0 e p psi arg = Ok (J, s)) ->
  core_of e psi pb pa m -> mu0 <> 0 ->
  psi_bndry s = pb /\ psi_axis s = pa /\
  forall i j, gR e i j <> 0 ->
    J i j = (gR e i j * cpprime pow p s (psinorm pa pb (psi i j)) +
             cffprime pow mu0 p s (psinorm pa pb (psi i j)) / (mu0 * gR e i j)) * mask_at m i j.
Proof.
  intros pow quad mu0 e p psi arg J s pb pa m HJ Hcore Hmu.
  assert (Hf : exists lb, cfinish e p pb pa (jtorshape pow p (psi_norm_of pb pa psi) m) lb = Ok (J, s)).
  { destruct HJ as [HJ|HJ].
    - destruct (paxis_inv _ _ _ _ _ _ _ _ HJ) as (pb' & pa' & m' & Hc & Hf).
      destruct (core_fun _ _ _ _ _ _ _ _ Hc Hcore) as (-> & -> & ->). eexists; exact Hf.
    - destruct (betap_inv _ _ _ _ _ _ _ _ _ HJ) as (pb' & pa' & m' & pint & bint & Hc & _ & _ & Hf).
      destruct (core_fun _ _ _ _ _ _ _ _ Hc Hcore) as (-> & -> & ->). eexists; exact Hf. }
  destruct Hf as [lb Hf].
  destruct (cfinish_inv _ _ _ _ _ _ _ _ Hf) as (IR & I_R & _ & _ & _ & _ & Epb & Epa & HJe).
  split; [exact Epb|]. split; [exact Epa|]. intros i j HR. rewrite HJe, jtorshape_at. unfold weight, cpprime, cffprime, shape.
  rewrite <- nclip_R. nR. unfold Rdiv. rewrite Rinv_mult. set (sh := pow _ _). 
  replace (mu0 * L s * (1 - Beta0 s) * Raxis p * sh * (/ mu0 * / gR e i j)) with ((mu0 * / mu0) * (L s * (1 - Beta0 s) * Raxis p * sh * / gR e i j)) by ring.
  rewrite Rinv_r by exact Hmu. ring.
Qed.
Print Assumptions C34_constrained.
(** Profiles given as functions *)
Theorem C34_functions : forall mu0 (e : env (T:=R)) p psi arg J s pb pa m,
  func_Jtor mu0 e p psi arg = Ok (J, s) -> find_core e psi arg = Ok (pb, pa, m) ->
  f_bndry s = pb /\ f_axis s = pa /\
  forall i j, 0 <= psinorm pa pb (psi i j) <= 1 ->
    J i j = (gR e i j * fpprime p (psinorm pa pb (psi i j)) +
             fffprime p (psinorm pa pb (psi i j)) / (mu0 * gR e i j)) * mask_at m i j.
Proof.
  intros mu0 e p psi arg J s pb pa m HJ Hc. unfold func_Jtor in HJ. rewrite Hc in HJ. cbn [bind] in HJ. injection HJ as <- <-.
  split; [reflexivity|]. split; [reflexivity|]. intros i j Hpn. rewrite masked_at. nR.
  change ((psi i j - pa) / (pb - pa)) with (psinorm pa pb (psi i j)). rewrite clip_id by exact Hpn. rewrite (Rmult_comm (gR e i j) mu0). reflexivity.
Qed.
Print Assumptions C34_functions.
(** Outside the mask there is no current. *)
Theorem C34_zero_outside : forall pow quad mu0 (e : env (T:=R)) p psi arg J s pb pa m i j,
  (paxis_Jtor pow quad e p psi arg = Ok (J, s) \/ betap_Jtor pow quad mu0 e p psi arg = Ok (J, s)) ->
  core_of e psi pb pa (Some m) -> m i j = 0 -> J i j = 0.
Proof.
  intros pow quad mu0 e p psi arg J s pb pa m i j HJ Hcore Hm.
  assert (Hf : exists lb, cfinish e p pb pa (jtorshape pow p (psi_norm_of pb pa psi) (Some m)) lb = Ok (J, s)).
  { destruct HJ as [HJ|HJ].
    - destruct (paxis_inv _ _ _ _ _ _ _ _ HJ) as (pb' & pa' & m' & Hc & Hf).
      destruct (core_fun _ _ _ _ _ _ _ _ Hc Hcore) as (-> & -> & ->). eexists; exact Hf.
    - destruct (betap_inv _ _ _ _ _ _ _ _ _ HJ) as (pb' & pa' & m' & pint & bint & Hc & _ & _ & Hf).
      destruct (core_fun _ _ _ _ _ _ _ _ Hc Hcore) as (-> & -> & ->). eexists; exact Hf. }
  destruct Hf as [lb Hf]. destruct (cfinish_inv _ _ _ _ _ _ _ _ Hf) as (IR & I_R & _ & _ & _ & _ & _ & _ & HJe).
  rewrite HJe, jtorshape_at. unfold weight. cbn [mask_at]. rewrite Hm. ring.
Qed.
Print Assumptions C34_zero_outside.
Theorem C34_functions_zero_outside : forall mu0 (e : env (T:=R)) p psi arg J s pb pa m i j,
  func_Jtor mu0 e p psi arg = Ok (J, s) -> find_core e psi arg = Ok (pb, pa, Some m) -> m i j = 0 -> J i j = 0.
Proof.
  intros mu0 e p psi arg J s pb pa m i j HJ Hc Hm. unfold func_Jtor in HJ. rewrite Hc in HJ. cbn [bind] in HJ. injection HJ as <- <-.
  cbn [masked]. nR. rewrite Hm. ring.
Qed.
Print Assumptions C34_functions_zero_outside.
Example C34_example : exists J s, func_Jtor 1 exEnv (mkfprofile (fun x => 1 - x) (fun x => 2) 1 None None) exPsi (Some 1) = Ok (J, s) /\ J 1%nat 1%nat = 2 * 1 + 2 / (1 * 2).
Proof.
  eexists. eexists. split; [reflexivity|].
  set (p := mkfprofile _ _ _ _ _).
  destruct (C34_functions 1 exEnv p exPsi (Some 1) _ _ 1 0 (Some (fun _ _ => 1)) eq_refl eq_refl) as (_ & _ & H).
  rewrite H by (rewrite ex_psinorm; cbn; lra). rewrite ex_psinorm. cbn. field.
Qed.

(** ** C35 *)
Theorem C35_pressure_derivative : forall pprime pa pb psi, pb <> pa -> (forall x, continuous pprime x) ->
  is_derive (fun psi => pressure rquad pprime pa pb (psinorm pa pb psi)) psi (pprime (psinorm pa pb psi)) /\
  pressure rquad pprime pa pb 1 = 0.
Proof.
  intros pprime pa pb psi Hne Hc. unfold pressure, rquad. nR. split; [apply int_psi_derive; assumption|].
  rewrite RInt_point. apply Rmult_0_l.
Qed.
Print Assumptions C35_pressure_derivative.
Theorem C35_fpol_derivative : forall ffprime pa pb fvac psi, pb <> pa -> (forall x, continuous ffprime x) ->
  0 < fpol rquad sqrt ffprime pa pb fvac (psinorm pa pb psi) ->
  is_derive (fun psi => fpol rquad sqrt ffprime pa pb fvac (psinorm pa pb psi) ^ 2 / 2) psi (ffprime (psinorm pa pb psi)).
Proof.
  intros ffprime pa pb fvac psi Hne Hc Hpos. unfold fpol, rquad in *. nR.
  set (V := fun psi => RInt ffprime (psinorm pa pb psi) 1 * (pa - pb)) in *.
  assert (HV := int_psi_derive ffprime pa pb psi Hne Hc). fold V in HV.
  assert (Hp : 0 < 2 * V psi + fvac * fvac).
  { apply Rnot_le_lt. intros Hle. unfold V in *. rewrite (sqrt_neg_0 _ Hle) in Hpos. lra. }
  apply (is_derive_ext_loc (fun t => V t + fvac * fvac / 2)).
  - assert (Hcont : continuous (fun t => 2 * V t + fvac * fvac) psi).
    { apply (continuous_plus (fun t => 2 * V t) (fun _ => fvac * fvac)); [|apply continuous_const].
      apply (continuous_mult (fun _ => 2) V); [apply continuous_const|]. apply (ex_derive_continuous V). eexists. exact HV. }
    assert (Hl : locally psi (fun t => 0 < 2 * V t + fvac * fvac)).
    { apply (Hcont (fun z => 0 < z)). apply (open_gt 0). exact Hp. }
    revert Hl. apply filter_imp. intros t Ht.
    change (@eq R (V t + fvac * fvac / 2) (sqrt (2 * V t + fvac * fvac) ^ 2 / 2)). rewrite <- Rsqr_pow2, Rsqr_sqrt by lra. field.
  - replace (ffprime (psinorm pa pb psi)) with (ffprime (psinorm pa pb psi) + 0) by ring.
    apply (is_derive_plus V (fun _ => fvac * fvac / 2)); [exact HV|]. apply (is_derive_const (V:=R_NormedModule)).
Qed.
Print Assumptions C35_fpol_derivative.
Theorem C35_fpol_boundary : forall ffprime pa pb fvac, fpol rquad sqrt ffprime pa pb fvac 1 = Rabs fvac.
Proof.
  intros. unfold fpol, rquad. nR. rewrite RInt_point. change (@zero R_CompleteNormedModule) with 0.
  replace (2 * (0 * (pa - pb)) + fvac * fvac) with (Rsqr fvac) by (unfold Rsqr; ring). apply sqrt_Rsqr_abs.
Qed.
Print Assumptions C35_fpol_boundary.
(** The profile gradients of the constrained classes are continuous, so the above applies to them. *)
Theorem C35_constrained : forall mu0 (p : cprofile (T:=R)) s psi,
  0 <= alpha_m p -> 0 <= alpha_n p -> psi_bndry s <> psi_axis s ->
  is_derive (fun psi => cpressure rpow rquad p s (psinorm (psi_axis s) (psi_bndry s) psi)) psi
    (cpprime rpow p s (psinorm (psi_axis s) (psi_bndry s) psi)) /\
  (0 < cfpol rpow rquad mu0 sqrt p s (psinorm (psi_axis s) (psi_bndry s) psi) ->
   is_derive (fun psi => cfpol rpow rquad mu0 sqrt p s (psinorm (psi_axis s) (psi_bndry s) psi) ^ 2 / 2) psi
    (cffprime rpow mu0 p s (psinorm (psi_axis s) (psi_bndry s) psi))) /\
  cpressure rpow rquad p s 1 = 0 /\ cfpol rpow rquad mu0 sqrt p s 1 = Rabs (fvac_ p).
Proof.
  intros mu0 p s psi Hm Hn Hne.
  assert (Hc : forall c x, continuous (fun y => c * shape rpow p (nclip y 0 1)) x).
  { intros c x. apply (continuous_mult (fun _ => c) (fun y => shape rpow p (nclip y 0 1))); [apply continuous_const|apply shape_cont; assumption]. }
  assert (Hc1 : forall x, continuous (cpprime rpow p s) x) by (intros x; apply Hc).
  assert (Hc2 : forall x, continuous (cffprime rpow mu0 p s) x) by (intros x; apply Hc).
  destruct (C35_pressure_derivative _ _ _ psi Hne Hc1) as [H1 H2].
  split; [exact H1|]. split; [|split; [exact H2|apply C35_fpol_boundary]].
  intros Hp. exact (C35_fpol_derivative _ _ _ _ psi Hne Hc2 Hp).
Qed.
Print Assumptions C35_constrained.
(** Array arguments are evaluated point by point; an output array of the wrong length is refused. *)
Theorem C35_arrays : forall quad sqrt f pa pb fvac pv out,
  (out = None \/ out = Some (length pv) ->
     pressure_arr quad f pa pb pv out = Ok (map (@pressure R _ quad f pa pb) pv) /\
     fpol_arr quad sqrt f pa pb fvac pv out = Ok (map (@fpol R _ quad sqrt f pa pb fvac) pv)) /\
  (forall n, n <> length pv -> out = Some n ->
     pressure_arr quad f pa pb pv out = Raise ValueError /\ fpol_arr quad sqrt f pa pb fvac pv out = Raise ValueError).
Proof.
  intros. split.
  - intros [->| ->]; unfold pressure_arr, fpol_arr; rewrite ?Nat.eqb_refl; split; reflexivity.
  - intros n Hn ->. unfold pressure_arr, fpol_arr. destruct (Nat.eqb_spec (length pv) n); [congruence|]. split; reflexivity.
Qed.
Print Assumptions C35_arrays.
Example C35_example : is_derive (fun psi => pressure rquad (fun x => 3 * x) 0 2 (psinorm 0 2 psi)) 1 (3 / 2).
Proof.
  destruct (C35_pressure_derivative (fun x => 3 * x) 0 2 1) as [H _]; [lra| |].
  - intros x. apply (ex_derive_continuous (fun x => 3 * x)). auto_derive. exact I.
  - replace (3 / 2) with (3 * psinorm 0 2 1) by (unfold psinorm; field). exact H.
Qed.

(** ** C36 (refuted) *)
Theorem C36_toroidal_field_direction_refuted : exists (p : cprofile (T:=R)) s,
  cprofile_init (target p) (Ip p) (fvac_ p) (alpha_m p) (alpha_n p) (Raxis p) = Ok p /\
  cfpol rpow rquad 1 sqrt p s 1 <> fvac_ p.
Proof.
  exists exProf, (mkcstate 15 (-2 / 15) 1 0). split.
  - unfold cprofile_init. cbn [target Ip fvac_ alpha_m alpha_n Raxis exProf]. nR.
    rewrite (proj2 (R_ltb_false 1 0)) by lra. reflexivity.
  - unfold cfpol. rewrite C35_fpol_boundary. cbn [fvac_ exProf]. rewrite Rabs_left; lra.
Qed.
Print Assumptions C36_toroidal_field_direction_refuted.
(** fpol is never negative, so it differs from fvac at the boundary for every negative fvac. *)
Theorem C36_fpol_never_negative : forall ffprime pa pb fvac x,
  0 <= fpol rquad sqrt ffprime pa pb fvac x /\ (fvac < 0 -> fpol rquad sqrt ffprime pa pb fvac 1 <> fvac) /\
  (0 <= fvac -> fpol rquad sqrt ffprime pa pb fvac 1 = fvac).
Proof.
  intros. split; [apply sqrt_pos|]. rewrite C35_fpol_boundary. split; intros H.
  - rewrite Rabs_left; lra.
  - apply Rabs_right. lra.
Qed.
Print Assumptions C36_fpol_never_negative.

(** ** C37 *)
Theorem C37_negative_exponents_rejected : forall (t ip fv am an ra : R),
  (am < 0 \/ an < 0 <-> cprofile_init t ip fv am an ra = Raise ValueError) /\
  (0 <= am -> 0 <= an -> cprofile_init t ip fv am an ra = Ok (mkcprofile t ip fv am an ra)).
Proof.
  intros. unfold cprofile_init. nR. destruct (R_ltb am 0) eqn:E1; destruct (R_ltb an 0) eqn:E2; rcmp; split; try split; intros; auto; try discriminate; try lra.
Qed.
Print Assumptions C37_negative_exponents_rejected.
Theorem C37_positive_exponents : forall p : cprofile (T:=R), 0 < alpha_m p -> 0 < alpha_n p ->
  shape rpow p 0 = 1 /\ shape rpow p 1 = 0 /\ (forall x, 0 <= x <= 1 -> 0 <= shape rpow p x <= 1) /\
  0 < RInt (shape rpow p) 0 1.
Proof.
  intros p Hm Hn. split; [apply shape_axis, Hm|]. split; [apply shape_edge, Hn|].
  split; [intros x Hx; apply shape_bounds; lra|]. apply shape_int_pos; lra.
Qed.
Print Assumptions C37_positive_exponents.
Example C37_example : shape rpow exProf 0 = 1 /\ 0 < RInt (shape rpow exProf) 0 1.
Proof. destruct (C37_positive_exponents exProf) as (H & _ & _ & H'); cbn; try lra. auto. Qed.
(** alpha_m = 0 is accepted but the profile vanishes identically; alpha_n = 0 is accepted but
    the profile does not vanish at the boundary. *)
Theorem C37_zero_alpha_m_refuted : exists p : cprofile (T:=R),
  cprofile_init (target p) (Ip p) (fvac_ p) (alpha_m p) (alpha_n p) (Raxis p) = Ok p /\
  shape rpow p 0 <> 1 /\ RInt (shape rpow p) 0 1 = 0.
Proof.
  exists (mkcprofile 1 1 1 0 2 1). split.
  - apply C37_negative_exponents_rejected; cbn; lra.
  - assert (E : forall x, shape rpow (mkcprofile 1 1 1 0 2 1) x = 0).
    { intros x. unfold shape. cbn [alpha_m alpha_n]. nR. rewrite rpow_0r. replace (1 - 1) with 0 by lra. apply rpow_0l. lra. }
    rewrite E. split; [lra|]. rewrite (RInt_ext (V:=R_CompleteNormedModule) _ (fun _ => 0)) by (intros; apply E).
    rewrite RInt_const. unfold scal; cbn; unfold mult; cbn. lra.
Qed.
Print Assumptions C37_zero_alpha_m_refuted.
Theorem C37_zero_alpha_n_refuted : exists p : cprofile (T:=R),
  cprofile_init (target p) (Ip p) (fvac_ p) (alpha_m p) (alpha_n p) (Raxis p) = Ok p /\ shape rpow p 1 = 1.
Proof.
  exists (mkcprofile 1 1 1 1 0 1). split.
  - apply C37_negative_exponents_rejected; cbn; lra.
  - unfold shape. cbn [alpha_n]. apply rpow_0r.
Qed.
Print Assumptions C37_zero_alpha_n_refuted.

(** ** C38 *)
(** ProfilesPprimeFfprime honours a boundary flux given as an argument. *)
Theorem C38_functions_honour_psi_bndry : forall mu0 (e : env (T:=R)) p psi pb J s,
  func_Jtor mu0 e p psi (Some pb) = Ok (J, s) ->
  f_bndry s = pb /\ exists opt xpt m, find_critical e psi = Ok (opt, xpt) /\ core_mask e psi opt xpt (Some pb) = Ok m /\
    forall i j, m i j = 0 -> J i j = 0.
Proof.
  intros mu0 e p psi pb J s HJ. unfold func_Jtor, find_core in HJ.
  destruct (find_critical e psi) as [[opt xpt]|] eqn:E1; [|discriminate]. cbn [bind] in HJ.
  destruct opt as [|[[r z] pa] opt]; [discriminate HJ|]. cbv beta iota in HJ.
  match type of HJ with context[core_mask e psi ?o ?x ?b] => destruct (core_mask e psi o x b) as [m|] eqn:E2; [|discriminate HJ] end.
  cbn [bind] in HJ.
  injection HJ as <- <-. split; [reflexivity|]. exists ((r, z, pa) :: opt), xpt, m. split; [reflexivity|]. split; [exact E2|].
  intros i j Hm. cbn [masked]. nR. rewrite Hm. ring.
Qed.
Print Assumptions C38_functions_honour_psi_bndry.
(** The constrained classes ignore the argument. *)
Theorem C38_constrained_ignore_psi_bndry : forall pow quad mu0 (e : env (T:=R)) p psi a b,
  paxis_Jtor pow quad e p psi a = paxis_Jtor pow quad e p psi b /\
  betap_Jtor pow quad mu0 e p psi a = betap_Jtor pow quad mu0 e p psi b.
Proof. intros. split; reflexivity. Qed.
Print Assumptions C38_constrained_ignore_psi_bndry.
Theorem C38_psi_bndry_honoured_refuted : exists (e : env (T:=R)) p psi pb J s,
  paxis_Jtor rpow rquad e p psi (Some pb) = Ok (J, s) /\ psi_bndry s <> pb.
Proof.
  destruct (exPaxis (Some (1 / 2))) as (J & s & HJ & _ & _). exists exEnv, exProf, exPsi, (1 / 2), J, s.
  split; [exact HJ|]. destruct (paxis_inv _ _ _ _ _ _ _ _ HJ) as (pb' & pa' & m' & Hc & Hf).
  destruct (core_fun _ _ _ _ _ _ _ _ Hc exCore) as (-> & -> & ->).
  destruct (cfinish_inv _ _ _ _ _ _ _ _ Hf) as (_ & _ & _ & _ & _ & _ & -> & _). lra.
Qed.
Print Assumptions C38_psi_bndry_honoured_refuted.
