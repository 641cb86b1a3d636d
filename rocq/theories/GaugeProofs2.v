(** jtor.py under a change of sign and zero of the flux. *)
From Coq Require Import List Arith ZArith Bool Reals Lra Lia FunctionalExtensionality.
From Verif Require Import Py Num Numpy Romb RombProofs Critical Jtor GaugeSpec GaugeProofs.
Import ListNotations.
Local Open Scope R_scope.

Lemma div_unit a x y : unit_sign a -> a * x / (a * y) = x / y.
Proof. intros [->| ->]; [rewrite !Rmult_1_l; reflexivity|]. unfold Rdiv. replace (-1 * y) with (- y) by ring. rewrite Rinv_opp. ring. Qed.
Lemma div_unit_r a x y : unit_sign a -> x / (a * y) = a * (x / y).
Proof. intros [->| ->]; [rewrite !Rmult_1_l; reflexivity|]. unfold Rdiv. replace (-1 * y) with (- y) by ring. rewrite Rinv_opp. ring. Qed.

(** romb of a multiple *)
Lemma romb_raise_ext n (y y' : nat -> R) d x : romb n y d = Raise x -> romb n y' d = Raise x.
Proof.
  unfold romb. destruct n as [|N]; [exact (fun E => E)|]. destruct (romb_levels N 1 0 N) as (n, k). destruct (n =? N)%nat; [discriminate|exact (fun E => E)].
Qed.
Lemma romb_raise_any n (y y' : nat -> R) d x : romb n y d = Raise x -> forall x', romb n y' d = Raise x' -> x = x'.
Proof. intros E x' E'. rewrite (romb_raise_ext n y' y d x' E') in E. injection E as ->. reflexivity. Qed.
Lemma mapM_romb_raise ny (a b : nat -> nat -> R) d x l : mapM (fun i => romb ny (a i) d) l = Raise x -> mapM (fun i => romb ny (b i) d) l = Raise x.
Proof.
  destruct l as [|i l]; [discriminate|]. cbn [mapM]. destruct (romb ny (a i) d) as [v|y] eqn:E.
  - assert (Q : forall g, exists w, romb ny g d = Ok w).
    { intros g. destruct (romb ny g d) as [w|z] eqn:Eg; [exists w; reflexivity|]. rewrite (romb_raise_ext _ _ (a i) _ _ Eg) in E. discriminate. }
    assert (K : forall l, exists r, mapM (fun i => romb ny (a i) d) l = Ok r).
    { clear -Q. induction l as [|k l (r & IH)]; [exists []; reflexivity|]. cbn [mapM]. destruct (Q (a k)) as (w & ->). cbn [bind]. rewrite IH. eexists. reflexivity. }
    cbn [bind]. destruct (K l) as (r & ->). discriminate.
  - cbn [bind]. intros [= ->]. rewrite (romb_raise_ext _ _ (b i) _ _ E). reflexivity.
Qed.
Lemma romb2_raise_ext nx ny (a b : nat -> nat -> R) x : romb2 nx ny a = Raise x -> romb2 nx ny b = Raise x.
Proof.
  unfold romb2. destruct (mapM (fun i => romb ny (a i) n1) (seq 0 nx)) as [r|y] eqn:E; cbn [bind].
  - destruct (mapM (fun i => romb ny (b i) n1) (seq 0 nx)) as [r'|y'] eqn:E'; [cbn [bind]; apply romb_raise_ext|].
    rewrite (mapM_romb_raise _ _ a _ _ _ E') in E. discriminate.
  - intros [= ->]. rewrite (mapM_romb_raise _ _ b _ _ _ E). reflexivity.
Qed.
Lemma romb2_scal nx ny (f : nat -> nat -> R) a : romb2 nx ny (fun i j => a * f i j) = rmap (Rmult a) (romb2 nx ny f).
Proof.
  destruct (romb2 nx ny f) as [v|x] eqn:E; [|exact (romb2_raise_ext _ _ _ _ _ E)].
  destruct (romb2_ok _ _ _ _ E) as (kx & ky & -> & ->). rewrite romb2_rt in E |- *. injection E as <-. cbn [rmap]. f_equal. apply (R2_scal kx ky f a).
Qed.
Lemma area_int_scal (e : env) f a : area_int e (fun i j => a * f i j) = rmap (Rmult a) (area_int e f).
Proof. unfold area_int. rewrite romb2_scal. destruct (romb2 (nx e) (ny e) f); cbn [bind rmap]; [|reflexivity]. f_equal. nR. ring. Qed.

Definition moved_core (a c : R) (x : R * R * option (arr2 R)) : R * R * option (arr2 R) := let '(pb, pa, m) := x in (a * pb + c, a * pa + c, m).

Section JtorFollow.
  Variables (pow : R -> R -> R) (quad : (R -> R) -> R -> R -> R) (mu0 : R).
  Variables (e e' : @env R) (a c : R) (psi : arr2 R).
  Hypothesis Ha : unit_sign a.
  Hypothesis Hnx : nx e' = nx e.
  Hypothesis Hny : ny e' = ny e.
  Hypothesis HR : gR e' = gR e.
  Hypothesis HZ : gZ e' = gZ e.
  Hypothesis HB : forall m, Bpol2 e' m = Bpol2 e m.
  Hypothesis Hcore : forall pb, find_core e' (shifted a c psi) (moved_bndry a c pb) = rmap (moved_core a c) (find_core e psi pb).
  Hypothesis Hub : updated_bndry e' (shifted a c psi) = rmap (moved_bndry a c) (updated_bndry e psi).

  Lemma norm_follow pb pa : psi_norm_of (a * pb + c) (a * pa + c) (shifted a c psi) = psi_norm_of pb pa psi.
  Proof.
    unfold psi_norm_of, shifted. extensionality i. extensionality j. nR.
    replace (a * psi i j + c - (a * pa + c)) with (a * (psi i j - pa)) by ring. replace (a * pb + c - (a * pa + c)) with (a * (pb - pa)) by ring.
    apply div_unit. exact Ha.
  Qed.
  Lemma area_same f : area_int e' f = area_int e f.
  Proof. unfold area_int, dR, dZ. rewrite Hnx, Hny, HR, HZ. reflexivity. Qed.
  Lemma cfinish_follow p pb pa js LB : cfinish e' (with_Ip a p) (a * pb + c) (a * pa + c) js (a * LB) = rmap (moved_J a c) (cfinish e p pb pa js LB).
  Proof.
    unfold cfinish. cbn [Raxis with_Ip Ip]. rewrite !area_same, !HR.
    destruct (area_int e (fun i j => (js i j * gR e i j / Raxis p)%num)) as [IR|]; cbn [bind rmap]; [|reflexivity].
    destruct (area_int e (fun i j => (js i j * Raxis p / gR e i j)%num)) as [I_R|]; cbn [bind rmap]; [|reflexivity].
    unfold moved_J, moved_state. cbn [fst snd L Beta0 psi_bndry psi_axis]. nR.
    set (L0 := Ip p / I_R - LB * (IR / I_R - 1)).
    replace (a * Ip p / I_R - a * LB * (IR / I_R - 1)) with (a * L0) by (unfold L0, Rdiv; ring).
    rewrite div_unit by exact Ha. f_equal. f_equal. extensionality i. extensionality j. ring.
  Qed.
  Lemma jshape_same p n m : jtorshape pow (with_Ip a p) n m = jtorshape pow p n m.
  Proof. reflexivity. Qed.
  Lemma shape_same p : Jtor.shape pow (with_Ip a p) = Jtor.shape pow p.
  Proof. reflexivity. Qed.

  Lemma paxis_follow p arg arg' : paxis_Jtor pow quad e' (with_Ip a p) (shifted a c psi) arg' = rmap (moved_J a c) (paxis_Jtor pow quad e p psi arg).
  Proof.
    unfold paxis_Jtor. rewrite Hub. destruct (updated_bndry e psi) as [ub|]; cbn [bind rmap]; [|reflexivity]. rewrite Hcore.
    destruct (find_core e psi ub) as [((pb, pa), m)|]; cbn [bind rmap moved_core]; [|reflexivity].
    rewrite norm_follow, jshape_same, shape_same. cbn [target Raxis with_Ip]. rewrite <- cfinish_follow. f_equal. nR.
    replace (quad (Jtor.shape pow p) 0 1 * (a * pb + c - (a * pa + c))) with (a * (quad (Jtor.shape pow p) 0 1 * (pb - pa))) by ring. apply div_unit_r. exact Ha.
  Qed.
  Lemma pfunc_follow p pb pa n m : pfunc pow quad e' (with_Ip a p) (a * pb + c) (a * pa + c) n m = fun i j => a * pfunc pow quad e p pb pa n m i j.
  Proof.
    unfold pfunc. rewrite Hnx, Hny, shape_same. extensionality i. extensionality j. unfold masked. destruct m as [m|]; nR;
      destruct (_ && _)%bool; ring.
  Qed.
  Lemma betap_follow p arg arg' : betap_Jtor pow quad mu0 e' (with_Ip a p) (shifted a c psi) arg' = rmap (moved_J a c) (betap_Jtor pow quad mu0 e p psi arg).
  Proof.
    unfold betap_Jtor. rewrite Hub. destruct (updated_bndry e psi) as [ub|]; cbn [bind rmap]; [|reflexivity]. rewrite Hcore.
    destruct (find_core e psi ub) as [((pb, pa), m)|]; cbn [bind rmap moved_core]; [|reflexivity].
    rewrite norm_follow, jshape_same, pfunc_follow, HB, !area_same, !HR. set (pf := pfunc pow quad e p pb pa (psi_norm_of pb pa psi) m).
    match goal with |- bind (area_int e ?h) _ = _ => assert (E : area_int e h = rmap (Rmult a) (area_int e (fun i j => pf i j * gR e i j))) end.
    { rewrite <- area_int_scal. f_equal. extensionality i. extensionality j. nR. ring. }
    rewrite E. change (fun i j => (pf i j * gR e i j)%num) with (fun i j => pf i j * gR e i j).
    destruct (area_int e (fun i j => pf i j * gR e i j)) as [pint|]; cbn [bind rmap]; [|reflexivity].
    destruct (area_int e (fun i j => (Bpol2 e m i j * gR e i j)%num)) as [bint|]; cbn [bind rmap]; [|reflexivity].
    cbn [target Raxis with_Ip]. rewrite <- cfinish_follow. f_equal. nR. rewrite (div_unit_r a bint pint Ha). unfold Rdiv. ring.
  Qed.
  Lemma func_follow p arg : func_Jtor mu0 e' (with_slope a p) (shifted a c psi) (moved_bndry a c arg) = rmap (moved_fJ a c) (func_Jtor mu0 e p psi arg).
  Proof.
    unfold func_Jtor. rewrite Hcore. destruct (find_core e psi arg) as [((pb, pa), m)|]; cbn [bind rmap moved_core]; [|reflexivity].
    unfold moved_fJ, moved_fstate. cbn [fst snd f_bndry f_axis]. f_equal. f_equal. rewrite HR. cbn [fpprime fffprime with_slope].
    assert (N : forall i j, nclip ((shifted a c psi i j - (a * pa + c)) / (a * pb + c - (a * pa + c)))%num n0 n1 = nclip ((psi i j - pa) / (pb - pa))%num n0 n1).
    { intros i j. f_equal. exact (f_equal (fun h => h i j) (norm_follow pb pa)). }
    extensionality i. extensionality j. unfold masked. destruct m as [m|]; rewrite N; nR; unfold Rdiv; ring.
  Qed.
End JtorFollow.
