(** Lemmas about the model of critical.py: the mask as a whole, the lists of critical points,
    flux surfaces. *)
From Coq Require Import List Arith ZArith Bool Reals Lra Lia Permutation Sorted.
From Verif Require Import Py Num Numpy Critical CriticalSpec CriticalProofs.
Import ListNotations.
Local Open Scope R_scope.

(** ** core_mask *)
Definition nx_fuel (nx ny : nat) : nat := (6 * (nx * ny) + 4)%nat.

Section CoreMask.
  Variables (nx ny : nat) (gR gZ psi : nat -> nat -> R) (o : R * R * R) (os xs : list (R * R * R)) (pbo : option R) (pb : R).
  Hypothesis Hnx : (0 < nx)%nat.
  Hypothesis Hny : (0 < ny)%nat.
  Hypothesis Hpb : bndry_of xs pbo = Some pb.
  Let psin : nat -> nat -> R := fun i j => (psi i j - snd o) / (pb - snd o).
  Let s := nearest nx ny gR gZ (fst (fst o)) (snd (fst o)).
  Let near := near_xpoint nx ny gR gZ xs.
  Let xinds := map (fun p => nearest nx ny gR gZ (pR p) (pZ p)) xs.

  Lemma core_mask_unfold fuel : core_mask fuel nx ny gR gZ psi (o :: os) xs pbo =
    bind (fill nx ny psin fuel (mark_blocks nx ny xinds zeros2) [s]) (fun m => Ok (finish_blocks nx ny psin xinds m)).
  Proof.
    unfold core_mask. destruct o as ((Ro, Zo), pa). destruct pbo as [b|]; cbn [bndry_of] in Hpb.
    - injection Hpb as ->. reflexivity.
    - destruct xs as [|((xr, xz), xp) xs']; [discriminate|]. cbn [snd] in Hpb. injection Hpb as ->. reflexivity.
  Qed.
  Lemma mark_in i j : In (i, j) (flat_map (block nx ny) xinds) -> mark_blocks nx ny xinds zeros2 i j = 2.
  Proof. intros Hin. unfold mark_blocks. exact (fold_upd_in (fun _ => 2) _ _ _ _ Hin). Qed.
  Lemma mark_out i j : ~ In (i, j) (flat_map (block nx ny) xinds) -> mark_blocks nx ny xinds zeros2 i j = 0.
  Proof. intros Hin. unfold mark_blocks. exact (fold_upd_out (fun _ => 2) _ _ _ _ Hin). Qed.
  Lemma cell_dec (p q : nat * nat) : {p = q} + {p <> q}.
  Proof. decide equality; apply Nat.eq_dec. Qed.
  Lemma near_in i j : in_grid nx ny (i, j) -> (In (i, j) (flat_map (block nx ny) xinds) <-> near (i, j)).
  Proof. intros Hg. apply in_blocks; assumption. Qed.
  Lemma s_grid : in_grid nx ny s.
  Proof. destruct (nearest_is_nearest nx ny gR gZ (fst (fst o)) (snd (fst o)) Hnx Hny) as ((A & _) & (B & _)). split; assumption. Qed.
  Lemma start_good : good nx ny psin near s (mark_blocks nx ny xinds zeros2) [s].
  Proof.
    assert (Hv : forall i j, mark_blocks nx ny xinds zeros2 i j = 0 \/ mark_blocks nx ny xinds zeros2 i j = 2).
    { intros i j. destruct (in_dec cell_dec (i, j) (flat_map (block nx ny) xinds)) as [Hin|Hout]; [right; apply mark_in; exact Hin|left; apply mark_out; exact Hout]. }
    constructor; [constructor| | |].
    - intros i j. destruct (Hv i j); auto.
    - intros (i, j) Hg E. cbn [fst snd] in E. apply near_in; [exact Hg|].
      destruct (in_dec cell_dec (i, j) (flat_map (block nx ny) xinds)) as [Hin|Hout]; [exact Hin|]. rewrite (mark_out i j Hout) in E. lra.
    - intros (i, j) Hg Hb _. apply mark_in. apply near_in; assumption.
    - intros (i, j) Hg Hb. cbn [fst snd]. rewrite mark_in by (apply near_in; assumption). lra.
    - intros (i, j) Hg Hm. unfold mk in Hm. cbn [fst snd] in Hm. destruct (Hv i j); lra.
    - intros c [<-|[]]. split; [apply s_grid|constructor].
    - intros (i, j) q _ _ _ Hm. unfold mk in Hm. cbn [fst snd] in Hm. destruct (Hv i j); lra.
    - right. left. reflexivity.
    - intros c [<-|[]]. left. reflexivity.
  Qed.
  Lemma core_mask_total fuel : (nx_fuel nx ny <= fuel)%nat ->
    exists m, core_mask fuel nx ny gR gZ psi (o :: os) xs pbo = Ok m.
  Proof.
    intros Hf. rewrite core_mask_unfold.
    destruct (fill_total nx ny psin near s fuel (mark_blocks nx ny xinds zeros2) [s] start_good) as (m & Em & _).
    - unfold potential. cbn [length flag]. assert (HU := U_le nx ny (mark_blocks nx ny xinds zeros2)). unfold nx_fuel in Hf.
      destruct (um _ s); lia.
    - rewrite Em. eexists. reflexivity.
  Qed.
  Lemma core_mask_char fuel m : core_mask fuel nx ny gR gZ psi (o :: os) xs pbo = Ok m ->
    forall i j, in_grid nx ny (i, j) ->
      (m i j = 0 \/ m i j = 1) /\
      (near (i, j) -> (m i j = 1 <-> psin i j < 1)) /\
      (~ near (i, j) -> (m i j = 1 <-> connected nx ny (fun c => psin (fst c) (snd c) < 1 /\ ~ near c) s (i, j))).
  Proof.
    rewrite core_mask_unfold. destruct (fill nx ny psin fuel _ [s]) as [mf|e] eqn:Ef; [|discriminate]. cbn [bind]. intros E. injection E as <-.
    assert (HG : good nx ny psin near s mf []).
    { destruct (fill_total nx ny psin near s (fuel + potential nx ny (mark_blocks nx ny xinds zeros2) [s]) (mark_blocks nx ny xinds zeros2) [s] start_good (Nat.le_add_l _ _)) as (m' & Em' & HG).
      rewrite (fill_fuel_mono nx ny psin _ _ _ _ Ef _ (Nat.le_add_r _ _)) in Em'. injection Em' as ->. exact HG. }
    intros i j Hg. unfold finish_blocks.
    destruct (in_dec cell_dec (i, j) (flat_map (block nx ny) xinds)) as [Hin|Hout].
    - rewrite (fold_upd_in (fun ij => if (psin (fst ij) (snd ij) <? n1)%num then n1 else n0) _ _ _ _ Hin). cbn [fst snd]. nR.
      destruct (R_ltb (psin i j) 1) eqn:E; rcmp; (split; [auto|]; split; [intros _; split; intros; lra|]).
      + intros Hn. exfalso. apply Hn. apply near_in; assumption.
      + intros Hn. exfalso. apply Hn. apply near_in; assumption.
    - rewrite (fold_upd_out (fun ij => if (psin (fst ij) (snd ij) <? n1)%num then n1 else n0) _ _ _ _ Hout).
      assert (Hnn : ~ near (i, j)) by (intros Hn; apply Hout; apply near_in; assumption).
      split.
      + destruct (i_vals _ _ _ _ _ _ _ (g_inv _ _ _ _ _ _ _ HG) i j) as [E|[E|E]]; auto.
        exfalso. apply Hnn. exact (i_two _ _ _ _ _ _ _ (g_inv _ _ _ _ _ _ _ HG) (i, j) Hg E).
      + split; [intros Hn; contradiction|]. intros _. exact (good_final nx ny psin near s mf (i, j) HG s_grid Hg).
  Qed.
  Lemma core_mask_fuel fuel fuel' m : core_mask fuel nx ny gR gZ psi (o :: os) xs pbo = Ok m -> (fuel <= fuel')%nat ->
    core_mask fuel' nx ny gR gZ psi (o :: os) xs pbo = Ok m.
  Proof.
    rewrite !core_mask_unfold. destruct (fill nx ny psin fuel _ [s]) as [mf|e] eqn:Ef; [|discriminate]. cbn [bind]. intros E Hle.
    rewrite (fill_fuel_mono nx ny psin _ _ _ _ Ef _ Hle). exact E.
  Qed.
End CoreMask.

(** ** Sorting *)
Section Sort.
  Context {A : Type} (key : A -> R).
  Lemma insert_perm x l : Permutation (x :: l) (sort_insert key x l).
  Proof.
    induction l as [|y l IH]; cbn [sort_insert]; [reflexivity|]. destruct (key y <? key x)%num; [|reflexivity].
    rewrite perm_swap. constructor. exact IH.
  Qed.
  Lemma sort_perm l : Permutation l (sort_by key l).
  Proof. induction l as [|x l IH]; cbn [sort_by]; [reflexivity|]. rewrite <- insert_perm. constructor. exact IH. Qed.
  Lemma insert_sorted x l : StronglySorted (fun a b => key a <= key b) l -> StronglySorted (fun a b => key a <= key b) (sort_insert key x l).
  Proof.
    induction 1 as [|y l Hl IH Hy]; cbn [sort_insert]; [repeat constructor|]. nR. destruct (R_ltb (key y) (key x)) eqn:E; rcmp.
    - constructor; [exact IH|]. rewrite Forall_forall in *. intros z Hz. apply (Permutation_in z (Permutation_sym (insert_perm x l))) in Hz.
      destruct Hz as [<-|Hz]; [lra|apply Hy; exact Hz].
    - constructor; [constructor; assumption|]. constructor; [lra|]. rewrite Forall_forall in *. intros z Hz. specialize (Hy z Hz). lra.
  Qed.
  Lemma sort_sorted l : StronglySorted (fun a b => key a <= key b) (sort_by key l).
  Proof. induction l as [|x l IH]; cbn [sort_by]; [constructor|apply insert_sorted; exact IH]. Qed.
End Sort.

(** ** remove_dup *)
Lemma close_true p q : close p q = true <-> dist2 p q < 1 / 100000.
Proof.
  unfold close, dist2, pR, pZ. nR. rewrite R_ltb_true. cbn [pow]. rewrite !Rmult_1_r. reflexivity.
Qed.
Lemma dist2_sym p q : dist2 p q = dist2 q p.
Proof. unfold dist2. ring. Qed.
Lemma dist2_self p : dist2 p p = 0.
Proof. unfold dist2. ring. Qed.
Lemma sublist_app {A} (l1 l1' l2 l2' : list A) : sublist l1' l1 -> sublist l2' l2 -> sublist (l1' ++ l2') (l1 ++ l2).
Proof. induction 1; intros; cbn [app]; [assumption|constructor; auto|constructor; auto]. Qed.
Lemma sublist_in {A} (l l' : list A) x : sublist l' l -> In x l' -> In x l.
Proof. induction 1; intros Hin; [exact Hin| |right; auto]. destruct Hin as [->|Hin]; [left; reflexivity|right; auto]. Qed.
Lemma apart_snoc l p : ForallOrdPairs apart l -> Forall (fun q => apart q p) l -> ForallOrdPairs apart (l ++ [p]).
Proof.
  induction 1 as [|a l Ha Hl IH]; intros Hp; cbn [app]; [repeat constructor|]. inversion Hp; subst. constructor.
  - apply Forall_app. split; [assumption|]. constructor; [assumption|constructor].
  - apply IH. assumption.
Qed.
Lemma remove_dup_spec l : sublist (remove_dup l) l /\ ForallOrdPairs apart (remove_dup l) /\
  forall p, In p l -> exists q, In q (remove_dup l) /\ dist2 p q < 1 / 100000.
Proof.
  unfold remove_dup.
  assert (K : forall l done acc, sublist acc done -> ForallOrdPairs apart acc ->
      (forall p, In p done -> exists q, In q acc /\ dist2 p q < 1 / 100000) ->
      let r := fold_left (fun result p => if existsb (close p) result then result else result ++ [p]) l acc in
      sublist r (done ++ l) /\ ForallOrdPairs apart r /\ forall p, In p (done ++ l) -> exists q, In q r /\ dist2 p q < 1 / 100000).
  { clear l. induction l as [|p l IH]; intros done acc Hs Ha Hc r; subst r; cbn [fold_left].
    - rewrite app_nil_r. auto.
    - replace (done ++ p :: l) with ((done ++ [p]) ++ l) by (rewrite <- app_assoc; reflexivity).
      destruct (existsb (close p) acc) eqn:E.
      + apply IH; [| assumption|].
        * rewrite <- (app_nil_r acc). apply sublist_app; [exact Hs|]. constructor. constructor.
        * intros p' Hin. apply in_app_iff in Hin. destruct Hin as [Hin|[<-|[]]]; [apply Hc; exact Hin|].
          apply existsb_exists in E. destruct E as (q & Hq & E). exists q. split; [exact Hq|]. apply close_true. exact E.
      + apply IH.
        * apply sublist_app; [exact Hs|]. repeat constructor.
        * apply apart_snoc; [exact Ha|]. apply Forall_forall. intros q Hq. unfold apart. apply Rnot_lt_le. intros Hlt.
          assert (existsb (close p) acc = true); [|congruence]. apply existsb_exists. exists q. split; [exact Hq|]. apply close_true. rewrite dist2_sym. exact Hlt.
        * intros p' Hin. apply in_app_iff in Hin. destruct Hin as [Hin|[<-|[]]].
          -- destruct (Hc p' Hin) as (q & Hq & Hd). exists q. split; [apply in_app_iff; left; exact Hq|exact Hd].
          -- exists p. split; [apply in_app_iff; right; left; reflexivity|]. rewrite dist2_self. lra. }
  apply (K l [] []); [constructor|constructor|intros p []].
Qed.
Lemma apart_sym p q : apart p q -> apart q p.
Proof. unfold apart. rewrite dist2_sym. auto. Qed.
Lemma apart_perm l l' : Permutation l l' -> ForallOrdPairs apart l -> ForallOrdPairs apart l'.
Proof.
  induction 1 as [|a l l' Hp IH|a b l|l l' l'' H1 IH1 H2 IH2]; intros HF.
  - exact HF.
  - inversion HF; subst. constructor; [|apply IH; assumption]. rewrite Forall_forall in *. intros x Hx. apply H1. eapply Permutation_in; [symmetry; exact Hp|exact Hx].
  - inversion HF as [|? ? H1 H2]; subst. inversion H2 as [|? ? H3 H4]; subst. inversion H1; subst.
    constructor; [constructor; [apply apart_sym; assumption|assumption]|constructor; assumption].
  - auto.
Qed.
Lemma apart_filter (f : R * R * R -> bool) l : ForallOrdPairs apart l -> ForallOrdPairs apart (filter f l).
Proof.
  induction 1 as [|a l Ha Hl IH]; cbn [filter]; [constructor|]. destruct (f a); [|exact IH]. constructor; [|exact IH].
  rewrite Forall_forall in *. intros x Hx. apply filter_In in Hx. apply Ha. apply Hx.
Qed.

(** ** find_critical *)
Lemma foldM_inv {S A} (P : S -> Prop) (f : S -> A -> result S) : forall l s s',
  (forall s a s', In a l -> P s -> f s a = Ok s' -> P s') -> P s -> foldM f l s = Ok s' -> P s'.
Proof.
  induction l as [|a l IH]; intros s s' Hstep Hs E; cbn [foldM] in E; [injection E as <-; exact Hs|].
  destruct (f s a) as [s1|] eqn:E1; [|discriminate]. cbn [bind] in E.
  apply (IH s1 s'); [|apply (Hstep s a s1); [left; reflexivity|exact Hs|exact E1]|exact E].
  intros s2 a2 s2' Hin. apply Hstep. right. exact Hin.
Qed.
Lemma foldM_never {S A} (e : exn) (f : S -> A -> result S) : (forall s a, f s a <> Raise e) -> forall l s, foldM f l s <> Raise e.
Proof.
  intros Hf. induction l as [|a l IH]; intros s; cbn [foldM]; [discriminate|]. specialize (Hf s a). destruct (f s a) as [s1|e']; cbn [bind]; [apply IH|congruence].
Qed.

Section FindCritical.
  Variables (nx ny : nat) (gR gZ psi : nat -> nat -> R) (f : sfun R).
  Local Notation search_radius2 := (search_radius2 gR gZ).
  Local Notation mid_dist := (mid_dist nx ny gR gZ).
  Lemma newton_genuine : forall fuel R0 Z0 count R1 Z1 p,
    (R1 - R0) ^ 2 + (Z1 - Z0) ^ 2 <= search_radius2 ->
    newton gR gZ f fuel R0 Z0 count R1 Z1 = Ok (Some p) ->
    (- f 0%nat 1%nat (fst p) (snd p) / fst p) ^ 2 + (f 1%nat 0%nat (fst p) (snd p) / fst p) ^ 2 < 1 / 1000000 /\
    (fst p - R0) ^ 2 + (snd p - Z0) ^ 2 <= search_radius2.
  Proof.
    induction fuel as [|fuel IH]; intros R0 Z0 count R1 Z1 p Hd E; cbn [newton] in E; [discriminate|].
    destruct (nsqr (Br f R1 Z1) + nsqr (Bz f R1 Z1) <? nlit 1 1000000)%num eqn:Eb.
    - injection E as <-. cbn [fst snd]. split; [|exact Hd]. unfold Br, Bz in Eb. nR. rcmp. cbn [pow]. rewrite !Rmult_1_r. exact Eb.
    - destruct (_ =? n0)%num in E; [discriminate|].
      match type of E with (if ?b then _ else _) = _ => destruct b eqn:Eo end; [discriminate|].
      apply orb_false_iff in Eo. destruct Eo as (Eo & _). eapply IH; [|exact E].
      unfold radius_sq, Critical.dR, Critical.dZ in Eo. unfold CriticalSpec.search_radius2. nR. rcmp. cbn [pow]. rewrite !Rmult_1_r. exact Eo.
  Qed.
  Lemma newton_fuel : forall fuel R0 Z0 count R1 Z1, (0 < fuel)%nat -> (101 <= fuel + count)%nat ->
    newton gR gZ f fuel R0 Z0 count R1 Z1 <> Raise OutOfFuel.
  Proof.
    induction fuel as [|fuel IH]; intros R0 Z0 count R1 Z1 H0 Hc; [lia|]. cbn [newton].
    destruct (_ <? nlit 1 1000000)%num; [discriminate|]. destruct (_ =? n0)%num; [discriminate|].
    match goal with |- (if ?b then _ else _) <> _ => destruct b eqn:Eo end; [discriminate|].
    apply orb_false_iff in Eo. destruct Eo as (_ & Eo). apply Nat.ltb_ge in Eo. apply IH; lia.
  Qed.
  Lemma in_range a b i : In i (range a b) <-> (a <= i < b)%nat.
  Proof. unfold range. rewrite in_seq. lia. Qed.
  Lemma candidates_fuel : candidates nx ny gR gZ psi f <> Raise OutOfFuel.
  Proof.
    unfold candidates. apply foldM_never. intros s i. apply foldM_never. clear s. intros s j. unfold visit.
    destruct (local_min gR gZ f i j); [|discriminate].
    assert (H := newton_fuel 101 (gR i j) (gZ i j) 0 (gR i j) (gZ i j) ltac:(lia) ltac:(lia)).
    destruct (newton gR gZ f 101 _ _ _ _ _) as [[(r, z)|]|e]; cbn [bind]; [destruct (_ <? n0)%num; discriminate|discriminate|congruence].
  Qed.
  Lemma find_critical_inv disc os xs : find_critical nx ny gR gZ psi f disc = Ok (os, xs) ->
    exists xo, candidates nx ny gR gZ psi f = Ok xo /\
      Permutation (remove_dup (snd xo)) os /\ StronglySorted (fun p q => mid_dist p <= mid_dist q) os /\
      (os = [] -> xs = remove_dup (fst xo)) /\
      (forall o os', os = o :: os' -> StronglySorted (fun p q => (snd p - snd o) ^ 2 <= (snd q - snd o) ^ 2) xs /\
         Permutation (if disc then filter (keep_xpt f o) (remove_dup (fst xo)) else remove_dup (fst xo)) xs).
  Proof.
    unfold find_critical. destruct (candidates nx ny gR gZ psi f) as [xo|]; [|discriminate]. cbn [bind]. intros E.
    exists xo. split; [reflexivity|].
    set (key := fun p : point R => _) in E at 1.
    assert (Hp := sort_perm key (remove_dup (snd xo))). assert (Hs := sort_sorted key (remove_dup (snd xo))).
    assert (Hs' : StronglySorted (fun p q => mid_dist p <= mid_dist q) (sort_by key (remove_dup (snd xo)))).
    { replace (fun p q => mid_dist p <= mid_dist q) with (fun p q => key p <= key q); [exact Hs|].
      unfold key, CriticalSpec.mid_dist, pR, pZ. nR. apply FunctionalExtensionality.functional_extensionality. intros p. apply FunctionalExtensionality.functional_extensionality. intros q.
      cbn [pow]. rewrite !Rmult_1_r. replace (1 / 2 * (gR (nx - 1)%nat 0%nat + gR 0%nat 0%nat)) with ((gR (nx - 1)%nat 0%nat + gR 0%nat 0%nat) / 2) by lra.
      replace (1 / 2 * (gZ 0%nat (ny - 1)%nat + gZ 0%nat 0%nat)) with ((gZ 0%nat (ny - 1)%nat + gZ 0%nat 0%nat) / 2) by lra. reflexivity. }
    destruct (sort_by key (remove_dup (snd xo))) as [|o os'] eqn:Eo.
    - apply Permutation_sym, Permutation_nil in Hp. injection E as <- <-. rewrite Hp.
      split; [constructor|]. split; [constructor|]. split; [reflexivity|]. intros o os' Hc. discriminate.
    - injection E as <- <-. split; [exact Hp|]. split; [exact Hs'|]. split; [discriminate|].
      intros o1 os1 Hc. injection Hc as <- <-. split.
      + assert (HS := sort_sorted (fun p : point R => nsqr (pPsi p - pPsi o)%num) (if disc then filter (keep_xpt f o) (remove_dup (fst xo)) else remove_dup (fst xo))).
        unfold nsqr, pPsi in *. nR. cbn [pow]. 
        replace (fun p q : R * R * R => (snd p - snd o) * ((snd p - snd o) * 1) <= (snd q - snd o) * ((snd q - snd o) * 1))
          with (fun p q : R * R * R => (snd p - snd o) * (snd p - snd o) <= (snd q - snd o) * (snd q - snd o)); [exact HS|].
        apply FunctionalExtensionality.functional_extensionality. intros p. apply FunctionalExtensionality.functional_extensionality. intros q. rewrite !Rmult_1_r. reflexivity.
      + apply sort_perm.
  Qed.
  Lemma find_critical_discard os xs : find_critical nx ny gR gZ psi f true = Ok (os, xs) ->
    exists xs' gone, find_critical nx ny gR gZ psi f false = Ok (os, xs') /\ Permutation xs' (xs ++ gone).
  Proof.
    unfold find_critical. destruct (candidates nx ny gR gZ psi f) as [xo|]; [|discriminate]. cbn [bind].
    destruct (sort_by _ (remove_dup (snd xo))) as [|o os']; intros E; injection E as <- <-.
    - exists (remove_dup (fst xo)), []. rewrite app_nil_r. auto.
    - eexists. exists (filter (fun p => negb (keep_xpt f o p)) (remove_dup (fst xo))). split; [reflexivity|].
      rewrite <- !sort_perm. induction (remove_dup (fst xo)) as [|x l IH]; cbn [filter]; [reflexivity|].
      destruct (keep_xpt f o x); cbn [negb app]; [constructor; exact IH|]. rewrite IH at 1. apply Permutation_middle.
  Qed.
End FindCritical.

(** ** find_psisurface *)
Lemma find_range (b : nat -> bool) : forall n a, match find b (seq a n) with
  | Some k => (a <= k < a + n)%nat /\ b k = true /\ forall i, (a <= i < k)%nat -> b i = false
  | None => forall i, (a <= i < a + n)%nat -> b i = false end.
Proof.
  induction n as [|n IH]; intros a; cbn [seq find]; [intros i Hi; lia|].
  destruct (b a) eqn:E; [split; [lia|]; split; [exact E|]; intros i Hi; lia|].
  specialize (IH (S a)). destruct (find b (seq (S a) n)) as [k|].
  - destruct IH as (H1 & H2 & H3). split; [lia|]. split; [exact H2|]. intros i Hi. destruct (Nat.eq_dec i a) as [->|]; [exact E|]. apply H3. lia.
  - intros i Hi. destruct (Nat.eq_dec i a) as [->|]; [exact E|]. apply IH. lia.
Qed.
Lemma clip_frac lo hi a0 a1 : lo <= a0 <= hi -> a1 - a0 <> 0 ->
  exists t, 0 <= t <= 1 /\ nclip a1 lo hi = a0 + t * (a1 - a0) /\ Rabs ((nclip a1 lo hi - a0) / (a1 - a0)) = t /\
    (t = 1 \/ nclip a1 lo hi = lo \/ nclip a1 lo hi = hi).
Proof.
  intros Ha Hne. exists ((nclip a1 lo hi - a0) / (a1 - a0)).
  assert (Hc : nclip a1 lo hi = a0 + (nclip a1 lo hi - a0) / (a1 - a0) * (a1 - a0)) by (field; exact Hne).
  assert (Hcase : nclip a1 lo hi = a1 \/ (nclip a1 lo hi = lo /\ a1 < lo) \/ (nclip a1 lo hi = hi /\ hi < a1)).
  { rewrite nclip_R. unfold Rmin, Rmax. destruct (Rle_lt_dec lo a1) as [L1|L1]; [destruct (Rle_lt_dec a1 hi) as [L2|L2]; [left|right; right]|right; left];
    repeat destruct Rle_dec; try split; lra. }
  set (t := (nclip a1 lo hi - a0) / (a1 - a0)) in *.
  assert (Ht : 0 <= t <= 1).
  { unfold t. destruct Hcase as [E|[(E & L)|(E & L)]]; rewrite E.
    - replace ((a1 - a0) / (a1 - a0)) with 1 by (field; exact Hne). lra.
    - assert (Hp : 0 < / (a0 - a1)) by (apply Rinv_0_lt_compat; lra). replace ((lo - a0) / (a1 - a0)) with ((a0 - lo) * / (a0 - a1)) by (field; lra).
      assert (0 <= (a0 - lo) * / (a0 - a1)) by (apply Rmult_le_pos; lra). split; [assumption|].
      apply Rmult_le_reg_r with (a0 - a1); [lra|]. rewrite Rmult_assoc, Rinv_l by lra. lra.
    - assert (Hp : 0 < / (a1 - a0)) by (apply Rinv_0_lt_compat; lra). unfold Rdiv.
      assert (0 <= (hi - a0) * / (a1 - a0)) by (apply Rmult_le_pos; lra). split; [assumption|].
      apply Rmult_le_reg_r with (a1 - a0); [lra|]. rewrite Rmult_assoc, Rinv_l by lra. lra. }
  split; [exact Ht|]. split; [exact Hc|]. split; [apply Rabs_right; lra|].
  destruct Hcase as [E|[(E & _)|(E & _)]]; auto. left. unfold t. rewrite E. field. exact Hne.
Qed.
Lemma mid_bounds lo hi a b t : lo <= a <= hi -> lo <= b <= hi -> 0 <= t <= 1 -> lo <= a + t * (b - a) <= hi.
Proof. intros. split; nra. Qed.
Lemma Rabs_le_inv x y : Rabs x <= y -> - y <= x <= y.
Proof. unfold Rabs. destruct Rcase_abs; lra. Qed.
Lemma clip_end_spec Rmin Rmax Zmin Zmax r0 z0 r1 z1 : Rmin <= r0 <= Rmax -> Zmin <= z0 <= Zmax ->
  exists t, 0 <= t <= 1 /\
    let re := r0 + t * (r1 - r0) in let ze := z0 + t * (z1 - z0) in
    clip_end Rmin Rmax Zmin Zmax r0 z0 r1 z1 = (re, ze) /\
    Rmin - tol <= re <= Rmax + tol /\ Zmin - tol <= ze <= Zmax + tol /\
    (tol < Rabs (r1 - r0) -> Rmin <= re <= Rmax) /\
    (t = 1 \/ re = Rmin \/ re = Rmax \/ ze = Zmin \/ ze = Zmax).
Proof.
  intros HR HZ. unfold clip_end.
  set (first := if (nlit 1 1000000 <? nabs (r1 - r0))%num then _ else _).
  assert (H1 : exists t, 0 <= t <= 1 /\ first = (r0 + t * (r1 - r0), z0 + t * (z1 - z0)) /\
    Rmin - tol <= r0 + t * (r1 - r0) <= Rmax + tol /\ (tol < Rabs (r1 - r0) -> Rmin <= r0 + t * (r1 - r0) <= Rmax) /\
    (t = 1 \/ r0 + t * (r1 - r0) = Rmin \/ r0 + t * (r1 - r0) = Rmax)).
  { subst first. rewrite nabs_R. nR. fold tol. destruct (R_ltb tol (Rabs (r1 - r0))) eqn:E; rcmp.
    - assert (Hne : r1 - r0 <> 0) by (intros Hz; rewrite Hz, Rabs_R0 in E; unfold tol in E; lra).
      destruct (clip_frac Rmin Rmax r0 r1 HR Hne) as (t & Ht & Hc & Habs & Hcase). exists t. split; [exact Ht|].
      assert (Hb := nclip_bounds r1 Rmin Rmax ltac:(lra)). rewrite nabs_R, Habs. rewrite <- Hc. split; [f_equal; ring|].
      unfold tol. split; [lra|]. split; [intros _; exact Hb|exact Hcase].
    - exists 1. split; [lra|]. split; [f_equal; ring|].
      assert (Hd : - tol <= r1 - r0 <= tol) by (split; [apply Rabs_le_inv in E; lra|apply Rabs_le_inv in E; lra]).
      split; [lra|]. split; [intros Hc; lra|left; reflexivity]. }
  destruct H1 as (t1 & Ht1 & E1 & Hr1 & Hr1' & Hc1). rewrite E1. clear first E1.
  set (ra := r0 + t1 * (r1 - r0)) in *. set (za := z0 + t1 * (z1 - z0)) in *.
  rewrite nabs_R. nR. fold tol. destruct (R_ltb tol (Rabs (za - z0))) eqn:E; rcmp.
  - assert (Hne : za - z0 <> 0) by (intros Hz; rewrite Hz, Rabs_R0 in E; unfold tol in E; lra).
    destruct (clip_frac Zmin Zmax z0 za HZ Hne) as (t2 & Ht2 & Hc & Habs & Hcase). exists (t1 * t2).
    assert (Hb := nclip_bounds za Zmin Zmax ltac:(lra)). rewrite nabs_R, Habs.
    assert (Er : r0 + t1 * t2 * (r1 - r0) = r0 + t2 * (ra - r0)) by (unfold ra; ring).
    assert (Ez : z0 + t1 * t2 * (z1 - z0) = nclip za Zmin Zmax) by (rewrite Hc; unfold za; ring).
    cbv zeta. rewrite Er, Ez. split; [split; nra|]. split; [f_equal; ring|].
    split; [apply mid_bounds; unfold tol in *; lra|]. split; [unfold tol; lra|].
    split; [intros Hbig; apply mid_bounds; [lra|apply Hr1'; exact Hbig|lra]|].
    destruct Hcase as [->|[E2|E2]]; [|auto..]. rewrite Rmult_1_r.
    replace (r0 + 1 * (ra - r0)) with ra by ring. destruct Hc1 as [->|[E2|E2]]; auto.
  - exists t1. split; [exact Ht1|]. cbv zeta. fold ra za. split; [reflexivity|]. split; [exact Hr1|].
    assert (Hd : - tol <= za - z0 <= tol) by (apply Rabs_le_inv; exact E).
    split; [lra|]. split; [exact Hr1'|]. destruct Hc1 as [->|[E2|E2]]; auto.
Qed.
