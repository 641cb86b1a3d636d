(** Lemmas about the model of critical.py: Newton step, classification, flux surfaces. *)
From Coq Require Import List Arith ZArith Bool Reals Lra Lia Permutation Sorted.
From Coquelicot Require Import Coquelicot.
From Verif Require Import Py Num Numpy Critical CriticalSpec CriticalProofs CriticalProofs2.
Import ListNotations.
Local Open Scope R_scope.

Lemma nofnat_INR k : nofnat k = INR k.
Proof. unfold nofnat. cbn [nofZ Num_R]. symmetry. apply INR_IZR_INZ. Qed.
Lemma linspace_sample a b n k : linspace a b n k = sample a b n k.
Proof. unfold linspace, sample. rewrite !nofnat_INR. cbn [nadd nsub nmul ndiv Num_R]. unfold Rdiv. ring. Qed.

Lemma local_min_true gR gZ f i j : (1 <= i)%nat -> (1 <= j)%nat ->
  (local_min gR gZ f i j = true <-> strict_local_min (field2 gR gZ f) i j).
Proof.
  intros Hi Hj. unfold local_min.
  assert (E : forall a b, Bp2 gR gZ f a b = field2 gR gZ f a b).
  { intros a b. unfold Bp2, field2. nR. cbn [pow]. rewrite !Rmult_1_r. reflexivity. }
  rewrite !E. set (g := field2 gR gZ f). nR. rewrite !andb_true_iff, !R_ltb_true. unfold strict_local_min, around. cbn [fst snd].
  split.
  - intros (((((((H1 & H2) & H3) & H4) & H5) & H6) & H7) & H8) i' j' Ha Hn.
    assert (Ci : (i' = i + 1 \/ i' = i \/ i' = i - 1)%nat) by lia. assert (Cj : (j' = j + 1 \/ j' = j \/ j' = j - 1)%nat) by lia.
    destruct Ci as [Ci|[Ci|Ci]], Cj as [Cj|[Cj|Cj]]; subst i' j'; try assumption. contradiction.
  - intros H. repeat split; apply H; try lia; intros E'; injection E'; lia.
Qed.

Ltac dfield := match goal with |- @eq _ ?a ?b => change (@eq R a b) end; unfold scal, opp; cbn; unfold mult; cbn; field; assumption.
Section Newton.
  Variables (gR gZ psi : nat -> nat -> R) (f : sfun R).
  Lemma hessian_det2 i j : gR 1%nat 0%nat <> gR 0%nat 0%nat -> gZ 0%nat 1%nat <> gZ 0%nat 0%nat ->
    hessian gR gZ psi i j = det2 gR gZ psi i j.
  Proof.
    intros HR HZ. unfold hessian, det2, second_rr, second_zz, second_rz, Critical.dR, Critical.dZ. nR. field. split; lra.
  Qed.
  Lemma det2_quadratic i j r0 z0 h k a b c d e g : h <> 0 -> k <> 0 -> (2 <= i)%nat -> (2 <= j)%nat ->
    (forall i j, gR i j = r0 + INR i * h) -> (forall i j, gZ i j = z0 + INR j * k) ->
    (forall i j, psi i j = a + b * gR i j + c * gZ i j + d * gR i j ^ 2 + e * (gR i j * gZ i j) + g * gZ i j ^ 2) ->
    second_rr gR psi i j = 2 * d /\ second_zz gZ psi i j = 2 * g /\ second_rz gR gZ psi i j = e.
  Proof.
    intros Hh Hk Hi Hj HR HZ Hp.
    assert (Ei : INR (i + 2) = INR i + 2) by (rewrite plus_INR; cbn; lra). assert (Ej : INR (j + 2) = INR j + 2) by (rewrite plus_INR; cbn; lra).
    assert (Ei' : INR (i - 2) = INR i - 2) by (rewrite minus_INR by lia; cbn; lra). assert (Ej' : INR (j - 2) = INR j - 2) by (rewrite minus_INR by lia; cbn; lra).
    unfold second_rr, second_zz, second_rz. rewrite !Hp, !HR, !HZ, ?Ei, ?Ej, ?Ei', ?Ej'. cbn [INR].
    repeat split; field; lra.
  Qed.
  Lemma newton_step fuel R0 Z0 count r z : partials f -> r <> 0 ->
    1 / 1000000 <= (- f 0%nat 1%nat r z / r) ^ 2 + (f 1%nat 0%nat r z / r) ^ 2 ->
    exists brr brz bzr bzz,
      is_derive (fun x => - f 0%nat 1%nat x z / x) r brr /\ is_derive (fun y => - f 0%nat 1%nat r y / r) z brz /\
      is_derive (fun x => f 1%nat 0%nat x z / x) r bzr /\ is_derive (fun y => f 1%nat 0%nat r y / r) z bzz /\
      ((brr * bzz - brz * bzr = 0 /\ newton gR gZ f (S fuel) R0 Z0 count r z = Raise LinAlgError) \/
       (brr * bzz - brz * bzr <> 0 /\ exists d0 d1,
          brr * d0 + brz * d1 = - f 0%nat 1%nat r z / r /\ bzr * d0 + bzz * d1 = f 1%nat 0%nat r z / r /\
          (search_radius2 gR gZ < (r - d0 - R0) ^ 2 + (z - d1 - Z0) ^ 2 -> newton gR gZ f (S fuel) R0 Z0 count r z = Ok None) /\
          ((r - d0 - R0) ^ 2 + (z - d1 - Z0) ^ 2 <= search_radius2 gR gZ -> (100 <= count)%nat -> newton gR gZ f (S fuel) R0 Z0 count r z = Ok None) /\
          ((r - d0 - R0) ^ 2 + (z - d1 - Z0) ^ 2 <= search_radius2 gR gZ -> (count < 100)%nat ->
             newton gR gZ f (S fuel) R0 Z0 count r z = newton gR gZ f fuel R0 Z0 (S count) (r - d0) (z - d1)))).
  Proof.
    intros Hf Hr Hbig.
    set (br := - f 0%nat 1%nat r z / r) in *. set (bz := f 1%nat 0%nat r z / r) in *.
    exists (- br / r - f 1%nat 1%nat r z / r), (- f 0%nat 2%nat r z / r), (- bz / r + f 2%nat 0%nat r z / r), (f 1%nat 1%nat r z / r).
    destruct (Hf 0%nat 1%nat r z ltac:(lia)) as (D1 & D2). destruct (Hf 1%nat 0%nat r z ltac:(lia)) as (D3 & D4).
    assert (Q : forall (g : R -> R) g', is_derive g r g' -> is_derive (fun x => g x / x) r (g' / r - g r / r / r)).
    { intros g g' Hg. evar_last; [apply (is_derive_div g (fun x => x) r g' 1 Hg (is_derive_id r) Hr)|]. dfield. }
    split; [|split; [|split; [|split]]].
    - evar_last; [apply (Q (fun x => - f 0%nat 1%nat x z) (- f 1%nat 1%nat r z)); apply (is_derive_opp (fun x => f 0%nat 1%nat x z)); exact D1|]. unfold br. dfield.
    - evar_last; [apply (is_derive_ext (fun y => (- / r) * f 0%nat 1%nat r y)); [intros t; dfield|apply is_derive_scal; exact D2]|]. dfield.
    - evar_last; [apply (Q (fun x => f 1%nat 0%nat x z)); exact D3|]. unfold bz. dfield.
    - evar_last; [apply (is_derive_ext (fun y => (/ r) * f 1%nat 0%nat r y)); [intros t; dfield|apply is_derive_scal; exact D4]|]. dfield.
    - cbn [newton]. unfold Br, Bz. nR. fold br bz.
      rewrite (proj2 (R_ltb_false (br * br + bz * bz) (1 / 1000000))) by (cbn [pow] in Hbig; lra).
      set (J00 := - br / r - f 1%nat 1%nat r z / r). set (J01 := - f 0%nat 2%nat r z / r). set (J10 := - bz / r + f 2%nat 0%nat r z / r). set (J11 := f 1%nat 1%nat r z / r).
      destruct (R_eqb (J00 * J11 - J01 * J10) 0) eqn:E; rcmp; [left; split; [exact E|reflexivity]|].
      right. split; [exact E|]. exists ((J11 * br - J01 * bz) / (J00 * J11 - J01 * J10)), ((J00 * bz - J10 * br) / (J00 * J11 - J01 * J10)).
      set (d0 := (J11 * br - J01 * bz) / _). set (d1 := (J00 * bz - J10 * br) / _).
      split; [unfold d0, d1; field; exact E|]. split; [unfold d0, d1; field; exact E|].
      unfold radius_sq, Critical.dR, Critical.dZ. nR.
      assert (ES : 9 * ((gR 1%nat 0%nat - gR 0%nat 0%nat) * (gR 1%nat 0%nat - gR 0%nat 0%nat) + (gZ 0%nat 1%nat - gZ 0%nat 0%nat) * (gZ 0%nat 1%nat - gZ 0%nat 0%nat)) = search_radius2 gR gZ)
        by (unfold search_radius2; ring).
      rewrite ES. replace ((r - d0 - R0) * (r - d0 - R0) + (z - d1 - Z0) * (z - d1 - Z0)) with ((r - d0 - R0) ^ 2 + (z - d1 - Z0) ^ 2) by ring.
      split; [|split].
      + intros Hl. rewrite (proj2 (R_ltb_true _ _) Hl). reflexivity.
      + intros _ Hc. replace (100 <? S count)%nat with true by (symmetry; apply Nat.ltb_lt; lia). rewrite orb_true_r. reflexivity.
      + intros Hl Hc. rewrite (proj2 (R_ltb_false _ _) Hl). replace (100 <? S count)%nat with false by (symmetry; apply Nat.ltb_ge; lia). reflexivity.
  Qed.
End Newton.

(** ** Every candidate is collected *)
Section Complete.
  Variables (nx ny : nat) (gR gZ psi : nat -> nat -> R) (f : sfun R).
  Definition collected (xo : list (point R) * list (point R)) (i j : nat) : Prop :=
    forall r z, local_min gR gZ f i j = true -> newton gR gZ f 101 (gR i j) (gZ i j) 0 (gR i j) (gZ i j) = Ok (Some (r, z)) ->
      In (r, z, f 0%nat 0%nat r z) (if R_ltb (hessian gR gZ psi i j) 0 then fst xo else snd xo).
  Definition grows (a b : list (point R) * list (point R)) : Prop := incl (fst a) (fst b) /\ incl (snd a) (snd b).
  Lemma grows_refl a : grows a a. Proof. split; apply incl_refl. Qed.
  Lemma grows_trans a b c : grows a b -> grows b c -> grows a c.
  Proof. intros (A & B) (C & D). split; eapply incl_tran; eassumption. Qed.
  Lemma grows_collected a b i j : grows a b -> collected a i j -> collected b i j.
  Proof. intros (A & B) H r z H1 H2. specialize (H r z H1 H2). destruct (R_ltb _ _); auto. Qed.
  Lemma visit_spec xo i j xo' : visit gR gZ psi f xo i j = Ok xo' -> grows xo xo' /\ collected xo' i j.
  Proof.
    unfold visit, collected. destruct (local_min gR gZ f i j); [|intros E; injection E as <-; split; [apply grows_refl|discriminate]].
    destruct (newton gR gZ f 101 _ _ _ _ _) as [[(r, z)|]|]; cbn [bind]; [| |discriminate].
    - nR. destruct (R_ltb (hessian gR gZ psi i j) 0); intros E; injection E as <-; (split; [split; cbn [fst snd]; try apply incl_refl; apply incl_appl, incl_refl|]);
        intros r' z' _ E; injection E as <- <-; cbn [fst snd]; apply in_app_iff; right; left; reflexivity.
    - intros E. injection E as <-. split; [apply grows_refl|]. intros r z _ E. discriminate.
  Qed.
  Lemma foldM_grow {A} (g : _ -> A -> result _) (Q : list (point R) * list (point R) -> A -> Prop) :
    (forall a b x, grows a b -> Q a x -> Q b x) -> (forall a x b, g a x = Ok b -> grows a b /\ Q b x) ->
    forall l a b, foldM g l a = Ok b -> grows a b /\ forall x, In x l -> Q b x.
  Proof.
    intros HQ Hg. induction l as [|x l IH]; intros a b E; cbn [foldM] in E; [injection E as <-; split; [apply grows_refl|intros x []]|].
    destruct (g a x) as [a1|] eqn:E1; [|discriminate]. cbn [bind] in E. destruct (Hg _ _ _ E1) as (G1 & Q1). destruct (IH _ _ E) as (G2 & Q2).
    split; [eapply grows_trans; eassumption|]. intros y [<-|Hy]; [eapply HQ; eassumption|apply Q2; exact Hy].
  Qed.
  Lemma candidates_complete xo i j : candidates nx ny gR gZ psi f = Ok xo -> inner nx ny i j -> collected xo i j.
  Proof.
    unfold candidates. intros E (H1 & H2 & H3 & H4).
    eapply (foldM_grow _ (fun xo i => forall j, In j (range 2 (ny - 2)) -> collected xo i j)) in E.
    - destruct E as (_ & E). apply E; apply in_range; lia.
    - intros a b i' G Ha j' Hj'. eapply grows_collected; [exact G|]. apply Ha. exact Hj'.
    - intros a i' b Eb. eapply (foldM_grow _ (fun xo j => collected xo i' j)) in Eb; [exact Eb| |].
      + intros a' b' j' G Ha. eapply grows_collected; eassumption.
      + intros a' j' b' Ev. apply visit_spec. exact Ev.
  Qed.
  Definition source (i j : nat) (p : point R) : Prop :=
    inner nx ny i j /\ local_min gR gZ f i j = true /\
    newton gR gZ f 101 (gR i j) (gZ i j) 0 (gR i j) (gZ i j) = Ok (Some (fst (fst p), snd (fst p))) /\
    snd p = f 0%nat 0%nat (fst (fst p)) (snd (fst p)).
  Lemma in_candidates xo : candidates nx ny gR gZ psi f = Ok xo ->
    (forall p, In p (fst xo) -> exists i j, source i j p /\ hessian gR gZ psi i j < 0) /\
    (forall p, In p (snd xo) -> exists i j, source i j p /\ 0 <= hessian gR gZ psi i j).
  Proof.
    set (P := fun xo : list (point R) * list (point R) =>
      (forall p, In p (fst xo) -> exists i j, source i j p /\ hessian gR gZ psi i j < 0) /\
      (forall p, In p (snd xo) -> exists i j, source i j p /\ 0 <= hessian gR gZ psi i j)).
    intros E. change (P xo). unfold candidates in E. eapply (foldM_inv P) in E; [exact E| |split; intros p []].
    intros s i s' Hi Hs E1. eapply (foldM_inv P) in E1; [exact E1| |exact Hs]. clear s s' Hs E1 E.
    intros s j s' Hj (Hx & Ho) E. apply in_range in Hi, Hj. unfold visit in E.
    destruct (local_min gR gZ f i j) eqn:El; [|injection E as <-; split; assumption].
    destruct (newton gR gZ f 101 (gR i j) (gZ i j) 0 (gR i j) (gZ i j)) as [[(r, z)|]|] eqn:En; cbn [bind] in E; [| |discriminate]; [|injection E as <-; split; assumption].
    assert (New : source i j (r, z, f 0%nat 0%nat r z)).
    { split; [unfold inner; lia|]. split; [exact El|]. split; [exact En|reflexivity]. }
    nR. destruct (R_ltb (hessian gR gZ psi i j) 0) eqn:Eh; rcmp; injection E as <-; split; cbn [fst snd]; try assumption;
      intros p Hp; apply in_app_iff in Hp; destruct Hp as [Hp|[<-|[]]]; auto; exists i, j; auto.
  Qed.
  Lemma source_genuine i j p : source i j p -> inner nx ny i j /\ strict_local_min (field2 gR gZ f) i j /\ genuine_at gR gZ f i j p.
  Proof.
    intros (Hi & Hm & Hn & Hp). split; [exact Hi|]. destruct Hi as (A & B & C & D).
    split; [apply local_min_true; [lia|lia|exact Hm]|].
    assert (H0 : (gR i j - gR i j) ^ 2 + (gZ i j - gZ i j) ^ 2 <= search_radius2 gR gZ).
    { unfold search_radius2. assert (K := pow2_ge_0 (gR 1%nat 0%nat - gR 0%nat 0%nat)). assert (L := pow2_ge_0 (gZ 0%nat 1%nat - gZ 0%nat 0%nat)).
      replace ((gR i j - gR i j) ^ 2 + (gZ i j - gZ i j) ^ 2) with 0 by ring. lra. }
    destruct (newton_genuine gR gZ f _ _ _ _ _ _ _ H0 Hn) as (Hb & Hd). split; [exact Hp|]. split; assumption.
  Qed.
End Complete.

(** ** Which X-points are kept *)
Lemma fold_max_spec (a : nat -> R) : forall l m, let r := fold_left (fun m i => nmax m (a i)) l m in
  m <= r /\ (forall i, In i l -> a i <= r) /\ (r = m \/ exists i, In i l /\ r = a i).
Proof.
  induction l as [|i l IH]; intros m r; subst r; cbn [fold_left].
  - split; [lra|]. split; [intros i []|left; reflexivity].
  - destruct (IH (nmax m (a i))) as (H1 & H2 & H3). set (r := fold_left _ _ _) in *. rewrite nmax_R in *.
    assert (M1 := Rmax_l m (a i)). assert (M2 := Rmax_r m (a i)). split; [lra|]. split.
    + intros k [<-|Hk]; [lra|apply H2; exact Hk].
    + destruct H3 as [ -> | (k & Hk & ->) ]; [|right; exists k; split; [right; exact Hk|reflexivity]].
      unfold Rmax. destruct Rle_dec; [right; exists i; split; [left; reflexivity|reflexivity]|left; reflexivity].
Qed.
Lemma amax_spec n (a : nat -> R) : (0 < n)%nat -> (forall i, (i < n)%nat -> a i <= amax n a) /\ exists i, (i < n)%nat /\ amax n a = a i.
Proof.
  intros Hn. unfold amax. destruct (fold_max_spec a (range 1 n) (a 0%nat)) as (H1 & H2 & H3). set (r := fold_left _ _ _) in *. split.
  - intros i Hi. destruct i; [exact H1|]. apply H2. apply in_range. lia.
  - destruct H3 as [ -> | (i & Hi & ->) ]; [exists 0%nat; auto|]. apply in_range in Hi. exists i. split; [lia|reflexivity].
Qed.
Lemma keep_unfold f o x : keep_xpt f o x =
  let p := line_flux f o x in
  let mx := amax 50 p in
  if (if R_eqb (mx - p 0%nat) 0 then R_ltb 0 (mx - p 49%nat) else R_ltb (1 / 1000) ((mx - p 49%nat) / (mx - p 0%nat))) then false
  else if R_ltb (1 / 10000) ((sample (fst (fst o)) (fst (fst x)) 50 (argmin 50 p) - fst (fst o)) ^ 2
                             + (sample (snd (fst o)) (snd (fst x)) 50 (argmin 50 p) - snd (fst o)) ^ 2) then false else true.
Proof.
  unfold keep_xpt. cbv zeta.
  assert (E2 : forall k, (if (pPsi x <? pPsi o)%num
      then (- f 0%nat 0%nat (linspace (pR o) (pR x) 50 k) (linspace (pZ o) (pZ x) 50 k))%num
      else f 0%nat 0%nat (linspace (pR o) (pR x) 50 k) (linspace (pZ o) (pZ x) 50 k)) = line_flux f o x k).
  { intros k. unfold line_flux. rewrite !linspace_sample. unfold pPsi, pR, pZ. nR. unfold R_ltb. destruct Rlt_dec; ring. }
  rewrite !E2.
  set (P := fun k : nat => if (pPsi x <? pPsi o)%num then _ else _).
  assert (EP : P = line_flux f o x) by (apply FunctionalExtensionality.functional_extensionality; intros k; apply E2).
  rewrite EP. rewrite !linspace_sample. nR. unfold pR, pZ. cbn [pow]. rewrite !Rmult_1_r. reflexivity.
Qed.
Lemma sample_0 a b n : sample a b n 0 = a.
Proof. unfold sample. cbn [INR]. unfold Rdiv. ring. Qed.
Lemma sample_last a b n : (2 <= n)%nat -> sample a b n (n - 1) = b.
Proof. intros Hn. unfold sample. assert (0 < INR (n - 1)) by (apply lt_0_INR; lia). field. lra. Qed.

(** ** find_psisurface *)
Section Surface.
  Variables (Rmin Rmax Zmin Zmax : R) (g : R -> R -> R) (r0 z0 r1 z1 v : R) (n : nat) (r z : R) (w : bool).
  Hypothesis HR : Rmin <= r0 <= Rmax.
  Hypothesis HZ : Zmin <= z0 <= Zmax.
  Hypothesis HE : find_psisurface Rmin Rmax Zmin Zmax g r0 z0 r1 z1 v n = Ok (r, z, w).
  Lemma surface_spec : exists re ze, ray_end Rmin Rmax Zmin Zmax r0 z0 r1 z1 re ze /\ (0 < n)%nat /\ w = false /\
    ((r = r0 /\ z = z0 /\ ((forall k, (k < n)%nat -> g (sample r0 re n k) (sample z0 ze n k) <= v) \/ v < g r0 z0)) \/
     (g r0 z0 <= v /\ crossing g r0 z0 re ze v n r z)).
  Proof.
    unfold find_psisurface in HE. destruct (n =? 0)%nat eqn:En; [discriminate|]. apply Nat.eqb_neq in En.
    destruct (clip_end_spec Rmin Rmax Zmin Zmax r0 z0 r1 z1 HR HZ) as (t & Ht & Hc & H1 & H2 & H3 & H4).
    rewrite Hc in HE. set (re := r0 + t * (r1 - r0)) in *. set (ze := z0 + t * (z1 - z0)) in *.
    exists re, ze. split; [exists t; repeat split; auto; lra|]. split; [lia|].
    rewrite !linspace_sample in HE.
    assert (EB : argtrue n (fun k => (v <? g (linspace r0 re n k) (linspace z0 ze n k))%num) = argtrue n (fun k => R_ltb v (g (sample r0 re n k) (sample z0 ze n k)))).
    { f_equal. apply FunctionalExtensionality.functional_extensionality. intros k. rewrite !linspace_sample. reflexivity. }
    rewrite EB in HE. clear EB. unfold argtrue in HE.
    assert (HF := find_range (fun k => R_ltb v (g (sample r0 re n k) (sample z0 ze n k))) (n - 0) 0). fold (range 0 n) in HF.
    destruct (find _ (range 0 n)) as [[|k]|].
    - destruct HF as (_ & HF & _). rcmp. rewrite !sample_0 in HF. cbn [Nat.eqb] in HE. injection HE as <- <- <-. rewrite !sample_0.
      split; [reflexivity|]. left. auto.
    - destruct HF as (Hk & HF & HB). cbn [Nat.eqb] in HE. replace (S k - 1)%nat with k in HE by lia. rcmp.
      assert (Hprev : g (sample r0 re n k) (sample z0 ze n k) <= v) by (apply R_ltb_false; apply HB; lia).
      set (pk := g (sample r0 re n (S k)) (sample z0 ze n (S k))) in *. set (pp := g (sample r0 re n k) (sample z0 ze n k)) in *.
      set (l := (pk - v) / (pk - pp)).
      assert (Hl : 0 <= l <= 1).
      { unfold l. assert (Hi : 0 < / (pk - pp)) by (apply Rinv_0_lt_compat; lra). split; [apply Rmult_le_pos; lra|].
        apply Rmult_le_reg_r with (pk - pp); [lra|]. unfold Rdiv. rewrite Rmult_assoc, Rinv_l by lra. lra. }
      nR. fold l in HE. injection HE as <- <- <-.
      split; [apply R_ltb_false; lra|]. right. split.
      + specialize (HB 0%nat ltac:(lia)). rcmp. rewrite !sample_0 in HB. exact HB.
      + exists (S k), l. split; [lia|]. split; [exact Hl|]. cbv zeta. replace (S k - 1)%nat with k by lia. fold pk pp.
        split; [exact HF|]. split; [intros i Hi; apply R_ltb_false; apply HB; lia|]. split; [reflexivity|]. split; [reflexivity|].
        unfold l. field. lra.
    - cbn [Nat.eqb] in HE. injection HE as <- <- <-. rewrite !sample_0. split; [reflexivity|]. left. split; [reflexivity|]. split; [reflexivity|].
      left. intros k Hk. apply R_ltb_false. apply HF. lia.
  Qed.
End Surface.
Lemma sample_frac n k : (k < n)%nat -> exists t, 0 <= t <= 1 /\ forall a b, sample a b n k = a + t * (b - a).
Proof.
  intros Hk. exists (INR k / INR (n - 1)). split; [|intros; reflexivity].
  destruct (Nat.eq_dec n 1) as [->|Hn]; [replace k with 0%nat by lia; cbn [INR Nat.sub]; unfold Rdiv; lra|].
  assert (0 < INR (n - 1)) by (apply lt_0_INR; lia). assert (INR k <= INR (n - 1)) by (apply le_INR; lia).
  assert (0 <= INR k) by apply pos_INR. assert (Hi : 0 < / INR (n - 1)) by (apply Rinv_0_lt_compat; lra). split; [apply Rmult_le_pos; lra|].
  apply Rmult_le_reg_r with (INR (n - 1)); [lra|]. unfold Rdiv. rewrite Rmult_assoc, Rinv_l by lra. lra.
Qed.
Lemma crossing_frac g r0 z0 re ze v n r z : crossing g r0 z0 re ze v n r z ->
  exists t, 0 <= t <= 1 /\ r = r0 + t * (re - r0) /\ z = z0 + t * (ze - z0).
Proof.
  intros (k & l & Hk & Hl & H). cbv zeta in H. destruct H as (_ & _ & Er & Ez & _).
  destruct (sample_frac n k ltac:(lia)) as (t1 & Ht1 & E1). destruct (sample_frac n (k - 1) ltac:(lia)) as (t2 & Ht2 & E2).
  exists ((1 - l) * t1 + l * t2). split; [split; nra|]. rewrite Er, Ez, !E1, !E2. split; ring.
Qed.
Lemma ray_end_frac Rmin Rmax Zmin Zmax r0 z0 r1 z1 re ze s :
  Rmin <= r0 <= Rmax -> Zmin <= z0 <= Zmax -> 0 <= s <= 1 ->
  ray_end Rmin Rmax Zmin Zmax r0 z0 r1 z1 re ze ->
  let r := r0 + s * (re - r0) in let z := z0 + s * (ze - z0) in
  (exists t, 0 <= t <= 1 /\ r = r0 + t * (r1 - r0) /\ z = z0 + t * (z1 - z0)) /\
  Rmin - tol <= r <= Rmax + tol /\ Zmin - tol <= z <= Zmax + tol /\ (tol < Rabs (r1 - r0) -> Rmin <= r <= Rmax).
Proof.
  intros HR HZ Hs (t & Ht & Er & Ez & B1 & B2 & B3 & _) r z.
  split; [|split; [|split]].
  - exists (s * t). split; [split; nra|]. unfold r, z. rewrite Er, Ez. split; ring.
  - apply mid_bounds; unfold tol in *; lra.
  - apply mid_bounds; unfold tol in *; lra.
  - intros Hb. apply mid_bounds; auto.
Qed.
