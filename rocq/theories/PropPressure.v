(** C208: the pressure profile of ConstrainPaxisIp and ConstrainBetapIp. *)
From Coq Require Import List Arith ZArith Bool Reals Lra Lia.
From Coquelicot Require Import Coquelicot.
From Verif Require Import Py Num Numpy Romb RombProofs RombExact Jtor JtorSpec JtorProofs PropJtor.
Import ListNotations.
Local Open Scope R_scope.

(** ** What the statements mean *)
(** The part of the integral of (1 - t^m)^n that lies outside the surface with normalised flux x *)
Definition tail (am an x : R) : R := RInt (fun t => rpow (1 - rpow t am) an) x 1.
(** No negative values, falling all the way from the axis to the edge, and 0 at the edge *)
Definition falling (pr : R -> R) : Prop := pr 1 = 0 /\ forall x y, 0 <= x -> x < y -> y <= 1 -> 0 <= pr y < pr x.

(** ** Proofs *)
Lemma tail_shape (p : cprofile (T:=R)) x : 0 <= alpha_m p -> 0 <= alpha_n p -> 0 <= x <= 1 ->
  tail (alpha_m p) (alpha_n p) x = RInt (fun y => shape rpow p (nclip y 0 1)) x 1.
Proof. intros Hm Hn Hx. rewrite <- (shape_quad p x Hx). unfold tail, shape. nR. reflexivity. Qed.
Lemma tail_falling am an : 0 < am -> 0 <= an -> falling (tail am an).
Proof.
  intros Hm Hn. set (p := mkcprofile 0 0 0 am an 1 : cprofile (T:=R)). assert (Hm' : 0 <= alpha_m p) by (cbn; lra). split.
  { unfold tail. apply (RInt_point (V := R_CompleteNormedModule)). }
  assert (T : forall x, 0 <= x <= 1 -> tail am an x = RInt (fun y => shape rpow p (nclip y 0 1)) x 1) by (intros x Hx; exact (tail_shape p x Hm' Hn Hx)).
  assert (C : forall y, continuous (fun y => shape rpow p (nclip y 0 1)) y) by (intros y; apply shape_cont; assumption).
  assert (Pos : forall x y, 0 <= x -> x < y -> y <= 1 -> 0 < RInt (fun y => shape rpow p (nclip y 0 1)) x y).
  { intros x y H0 Hxy H1. apply RInt_gt_0; [exact Hxy| |intros; apply C]. intros t Ht. rewrite clip_id by lra. apply (shape_pos p); [exact Hm|lra]. }
  intros x y H0 Hxy H1. rewrite !T by lra.
  rewrite <- (RInt_Chasles (fun y => shape rpow p (nclip y 0 1)) x y 1) by (apply shape_int; assumption). change (@plus R_CompleteNormedModule) with Rplus.
  assert (P1 := Pos x y H0 Hxy H1). destruct (Rle_lt_or_eq_dec _ _ H1) as [H2| ->].
  - assert (P2 := Pos y 1 ltac:(lra) H2 ltac:(lra)). split; [apply Rlt_le; exact P2|]. set (u := RInt _ y 1) in *. set (w := RInt _ x y) in *. clearbody u w. change (u < w + u). lra.
  - rewrite (RInt_point (V := R_CompleteNormedModule) 1). change (@zero R_CompleteNormedModule) with 0. split; [lra|]. set (w := RInt _ x 1) in *. clearbody w. change (0 < w + 0). lra.
Qed.
Lemma cpressure_tail (p : cprofile (T:=R)) s x : 0 <= alpha_m p -> 0 <= alpha_n p -> 0 <= x <= 1 ->
  cpressure rpow rquad p s x = L s * Beta0 s / Raxis p * tail (alpha_m p) (alpha_n p) x * (psi_axis s - psi_bndry s).
Proof.
  intros Hm Hn Hx. unfold cpressure, pressure, rquad, cpprime. nR. rewrite (RInt_scal_l (fun y => shape rpow p (nclip y 0 1))) by (apply shape_int; assumption).
  rewrite <- tail_shape by assumption. reflexivity.
Qed.
Lemma falling_scal k f : 0 < k -> falling f -> falling (fun x => k * f x).
Proof. intros Hk (F1 & F2). split; [rewrite F1; ring|]. intros x y H0 Hxy H1. destruct (F2 x y H0 Hxy H1) as (A & B). split; [apply Rmult_le_pos; lra|]. apply Rmult_lt_compat_l; assumption. Qed.
Lemma grid_nonneg (e : env (T:=R)) a v : gR e 0%nat 0%nat < gR e 1%nat 0%nat -> gZ e 0%nat 0%nat < gZ e 0%nat 1%nat ->
  grid_integral e a v -> (forall i j, (i < nx e)%nat -> (j < ny e)%nat -> 0 <= a i j) ->
  0 <= v /\ ((exists i j, (i < nx e)%nat /\ (j < ny e)%nat /\ 0 < a i j) -> 0 < v).
Proof.
  intros HR HZ (s & Hs & ->) Ha. destruct (romb2_ok _ _ _ _ Hs) as (kx & ky & Ex & Ey). rewrite Ex, Ey, romb2_rt in Hs. injection Hs as Hs.
  assert (A : forall i j, (i <= 2 ^ kx)%nat -> (j <= 2 ^ ky)%nat -> 0 <= a i j) by (intros i j Hi Hj; apply Ha; lia).
  split.
  - apply Rmult_le_pos; [apply Rmult_le_pos; [|lra]|lra]. rewrite <- Hs. apply (R2_nonneg kx ky). exact A.
  - intros (i & j & Hi & Hj & Hp). apply Rmult_lt_0_compat; [apply Rmult_lt_0_compat; [|lra]|lra]. rewrite <- Hs. apply (R2_positive kx ky) with (i := i) (j := j); [exact A|lia|lia|exact Hp].
Qed.
(** ** C208 *)
(** ConstrainPaxisIp: the pressure is paxis times the part of the shape that lies outside, over all of it. *)
Theorem C208_paxis : forall (e : env (T:=R)) p psi arg J s,
  0 < alpha_m p -> 0 <= alpha_n p -> Raxis p <> 0 ->
  paxis_Jtor rpow rquad e p psi arg = Ok (J, s) -> psi_bndry s <> psi_axis s -> L s <> 0 ->
  (forall x, 0 <= x <= 1 -> cpressure rpow rquad p s x = target p * (tail (alpha_m p) (alpha_n p) x / tail (alpha_m p) (alpha_n p) 0)) /\
  (0 < target p -> falling (cpressure rpow rquad p s)).
Proof.
  intros e p psi arg J s Hm Hn HRa HJ Hne HL. assert (Hm' : 0 <= alpha_m p) by lra.
  assert (F := tail_falling _ _ Hm Hn). assert (H0 : 0 < tail (alpha_m p) (alpha_n p) 0) by (destruct F as (F1 & F2); assert (X := F2 0 1 ltac:(lra) ltac:(lra) ltac:(lra)); lra).
  assert (E : forall x, 0 <= x <= 1 -> cpressure rpow rquad p s x = target p * (tail (alpha_m p) (alpha_n p) x / tail (alpha_m p) (alpha_n p) 0)).
  { intros x Hx. rewrite cpressure_tail by assumption.
    destruct (paxis_inv _ _ _ _ _ _ _ _ HJ) as (pb & pa & m & _ & Hf). destruct (cfinish_inv _ _ _ _ _ _ _ _ Hf) as (IR & I_R & _ & _ & _ & HB & Epb & Epa & _).
    change (rquad (shape rpow p) 0 1) with (tail (alpha_m p) (alpha_n p) 0) in HB. rewrite Epb, Epa in Hne. rewrite HB, Epb, Epa. set (t0 := tail _ _ 0) in *. field. repeat split; lra. }
  split; [exact E|]. intros Ht. assert (Fs := falling_scal (target p / tail (alpha_m p) (alpha_n p) 0) _ ltac:(apply Rdiv_lt_0_compat; assumption) F). destruct Fs as (F1 & F2).
  split; [rewrite E by lra; rewrite (proj1 F); unfold Rdiv; ring|]. intros x y Hx Hxy Hy. destruct (F2 x y Hx Hxy Hy) as (A & B). rewrite !E by lra.
  replace (target p * (tail (alpha_m p) (alpha_n p) x / tail (alpha_m p) (alpha_n p) 0)) with (target p / tail (alpha_m p) (alpha_n p) 0 * tail (alpha_m p) (alpha_n p) x) by (unfold Rdiv; ring).
  replace (target p * (tail (alpha_m p) (alpha_n p) y / tail (alpha_m p) (alpha_n p) 0)) with (target p / tail (alpha_m p) (alpha_n p) 0 * tail (alpha_m p) (alpha_n p) y) by (unfold Rdiv; ring). split; assumption.
Qed.
Print Assumptions C208_paxis.
Example C208_paxis_example : exists J s, paxis_Jtor rpow rquad exEnv exProf exPsi None = Ok (J, s) /\ falling (cpressure rpow rquad exProf s).
Proof.
  destruct (exPaxis None) as (J & s & E & HL & Hne). exists J, s. split; [exact E|].
  destruct (C208_paxis exEnv exProf exPsi None J s) as (_ & H); try (cbn; lra); try assumption. apply H. cbn. lra.
Qed.
(** ConstrainBetapIp: betap times a positive constant times the same function, whichever way the current flows. *)
Theorem C208_betap : forall mu0 (e : env (T:=R)) p psi arg J s pb pa m,
  0 < alpha_m p -> 0 <= alpha_n p -> Raxis p <> 0 -> 0 < mu0 ->
  (forall i j, 0 < gR e i j) -> gR e 0%nat 0%nat < gR e 1%nat 0%nat -> gZ e 0%nat 0%nat < gZ e 0%nat 1%nat ->
  betap_Jtor rpow rquad mu0 e p psi arg = Ok (J, s) -> core_of e psi pb pa m -> pb <> pa -> L s <> 0 ->
  (forall i j, 0 <= mask_at m i j) ->
  (exists i j, interior e i j /\ 0 < mask_at m i j /\ 0 <= psinorm pa pb (psi i j) < 1) ->
  exists k, 0 <= k /\ (forall x, 0 <= x <= 1 -> cpressure rpow rquad p s x = target p * k * tail (alpha_m p) (alpha_n p) x) /\
    ((exists i j, (i < nx e)%nat /\ (j < ny e)%nat /\ 0 < mask_at m i j /\ (eqBr e i j <> 0 \/ eqBz e i j <> 0)) -> 0 < k) /\
    (0 < k -> 0 < target p -> falling (cpressure rpow rquad p s)).
Proof.
  intros mu0 e p psi arg J s pb pa m Hm Hn HRa Hmu HgR HdR HdZ HJ Hcore Hne HL Hmask (i0 & j0 & Hi0 & Hm0 & Hp0). assert (Hm' : 0 <= alpha_m p) by lra.
  assert (F := tail_falling _ _ Hm Hn). destruct F as (F1 & F2).
  assert (Tp : forall x, 0 <= x < 1 -> 0 < tail (alpha_m p) (alpha_n p) x) by (intros x Hx; assert (X := F2 x 1 ltac:(lra) ltac:(lra) ltac:(lra)); lra).
  destruct (betap_inv _ _ _ _ _ _ _ _ _ HJ) as (pb' & pa' & m' & pint & bint & Hc & Hpi & Hbi & Hf). destruct (core_fun _ _ _ _ _ _ _ _ Hc Hcore) as (-> & -> & ->).
  destruct (cfinish_inv _ _ _ _ _ _ _ _ Hf) as (IR & I_R & _ & _ & _ & HB & Epb & Epa & _).
  assert (Hd : pb - pa <> 0) by lra.
  assert (Hq : 0 < pint / (pb - pa)).
  { assert (G := grid_scal e _ _ (/ (pb - pa)) Hpi). replace (/ (pb - pa) * pint) with (pint / (pb - pa)) in G by (unfold Rdiv; ring).
    assert (V : forall i j, (interior e i j /\ 0 <= psinorm pa pb (psi i j) < 1 /\ / (pb - pa) * (pfunc rpow rquad e p pb pa (psi_norm_of pb pa psi) m i j * gR e i j) = tail (alpha_m p) (alpha_n p) (psinorm pa pb (psi i j)) * mask_at m i j * gR e i j) \/
      (~ (interior e i j /\ 0 <= psinorm pa pb (psi i j) < 1) /\ / (pb - pa) * (pfunc rpow rquad e p pb pa (psi_norm_of pb pa psi) m i j * gR e i j) = 0)).
    { intros i j. destruct (pfunc_at rpow rquad e p pb pa m psi i j) as (H3 & H4).
      assert (D : (interior e i j /\ 0 <= psinorm pa pb (psi i j) < 1) \/ ~ (interior e i j /\ 0 <= psinorm pa pb (psi i j) < 1)).
      { unfold interior. destruct (Rle_dec 0 (psinorm pa pb (psi i j))), (Rlt_dec (psinorm pa pb (psi i j)) 1),
          (le_lt_dec i 0), (le_lt_dec j 0), (le_lt_dec (nx e - 1) i), (le_lt_dec (ny e - 1) j); try (right; lia || (intros [_ H]; lra)); try (right; intros [[[? ?] [? ?]] ?]; lia).
        left. repeat split; try lia; lra. }
      destruct D as [D|D].
      - left. destruct D as (D1 & D2). split; [exact D1|]. split; [exact D2|]. rewrite (H3 (conj D1 D2)). change (rquad (shape rpow p) (psinorm pa pb (psi i j)) 1) with (tail (alpha_m p) (alpha_n p) (psinorm pa pb (psi i j))).
        set (t := tail _ _ _). field. exact Hd.
      - right. split; [exact D|]. rewrite (H4 D). ring. }
    destruct (grid_nonneg e _ _ HdR HdZ G) as (_ & Gp).
    - intros i j _ _. destruct (V i j) as [(D1 & D2 & ->)|(_ & ->)]; [|lra]. apply Rmult_le_pos; [apply Rmult_le_pos; [apply Rlt_le, Tp; exact D2|apply Hmask]|apply Rlt_le, HgR].
    - apply Gp. exists i0, j0. destruct Hi0 as (A1 & A2). split; [lia|]. split; [lia|]. destruct (V i0 j0) as [(D1 & D2 & ->)|(D & _)].
      + apply Rmult_lt_0_compat; [apply Rmult_lt_0_compat; [apply Tp; exact D2|exact Hm0]|apply HgR].
      + exfalso. apply D. split; [split; [exact A1|exact A2]|exact Hp0]. }
  assert (Bv : forall i j, Bpol2 e m i j * gR e i j = (eqBr e i j * eqBr e i j + eqBz e i j * eqBz e i j) * mask_at m i j * gR e i j) by (intros i j; unfold Bpol2; rewrite masked_at; nR; ring).
  destruct (grid_nonneg e _ _ HdR HdZ Hbi) as (Hb0 & Hbp).
  { intros i j _ _. rewrite Bv. apply Rmult_le_pos; [apply Rmult_le_pos; [|apply Hmask]|apply Rlt_le, HgR]. nra. }
  set (q := pint / (pb - pa)) in *. assert (Ep : pint = q * (pb - pa)) by (unfold q; field; exact Hd).
  set (k := bint / (q * (2 * mu0))). assert (Hden : 0 < q * (2 * mu0)) by (apply Rmult_lt_0_compat; lra).
  assert (E : forall x, 0 <= x <= 1 -> cpressure rpow rquad p s x = target p * k * tail (alpha_m p) (alpha_n p) x).
  { intros x Hx. rewrite cpressure_tail by assumption. rewrite HB, Epb, Epa, Ep. unfold k. set (t := tail _ _ x). field. repeat split; try assumption; lra. }
  exists k. split; [unfold k; apply Rmult_le_pos; [exact Hb0|apply Rlt_le, Rinv_0_lt_compat; exact Hden]|]. split; [exact E|]. split.
  - intros (i & j & Hi & Hj & Hmm & Hbb). unfold k. apply Rdiv_lt_0_compat; [|exact Hden]. apply Hbp. exists i, j. split; [exact Hi|]. split; [exact Hj|]. rewrite Bv.
    apply Rmult_lt_0_compat; [apply Rmult_lt_0_compat; [|exact Hmm]|apply HgR]. destruct Hbb as [Hbb|Hbb]; assert (X := Rsqr_pos_lt _ Hbb); unfold Rsqr in X; nra.
  - intros Hk Ht. destruct (falling_scal (target p * k) _ ltac:(apply Rmult_lt_0_compat; assumption) (conj F1 F2)) as (G1 & G2). split; [rewrite E by lra; exact G1|].
    intros x y Hx Hxy Hy. rewrite !E by lra. exact (G2 x y Hx Hxy Hy).
Qed.
Print Assumptions C208_betap.
Example C208_betap_example : exists J s, betap_Jtor rpow rquad 1 exEnv exProf exPsi None = Ok (J, s) /\ falling (cpressure rpow rquad exProf s).
Proof.
  destruct C33_example as (J & s & P & Wp & E & HP & HW & Ew). exists J, s. split; [exact E|].
  assert (HL : L s <> 0).
  { intros HL. assert (Z : forall x, 0 <= x <= 1 -> cpressure rpow rquad exProf s x = 0) by (intros x Hx; rewrite cpressure_tail by (cbn; lra); rewrite HL; unfold Rdiv; ring).
    assert (HP0 : forall i j, P i j = 0).
    { intros i j. rewrite (ex_region _ _ HP), Z by lra. ring. }
    assert (W0 : Wp = 0).
    { destruct HW as (v & Ev & ->). cbn [nx ny exEnv] in Ev. rewrite romb2_3x3 in Ev. injection Ev as <-. rewrite !HP0. unfold Rdiv. ring. }
    lra. }
  destruct (C208_betap 1 exEnv exProf exPsi None J s 1 0 (Some (fun _ _ => 1))) as (k & Hk & _ & H1 & H2); try (cbn; lra); try assumption; try exact exCore.
  - intros i j. cbn. pose proof (pos_INR i). lra.
  - intros i j. cbn. lra.
  - exists 1%nat, 1%nat. rewrite ex_psinorm. unfold interior. cbn. repeat split; try lia; lra.
  - apply H2; [|cbn; lra]. apply H1. exists 1%nat, 1%nat. cbn. repeat split; try lia; try lra.
Qed.
