(** Lemmas about equality of machines. *)
From Coq Require Import String Ascii NArith List Arith ZArith Bool Reals Lra Lia Permutation Sorted.
From Verif Require Import Py Num Numpy Coils Machine MachineSpec MachineProofs Equality EqualitySpec.
Import ListNotations.
Local Open Scope R_scope.
Local Open Scope list_scope.

(** ** Order of labels *)
Definition slt (a b : string) : Prop := String.ltb a b = true.
Lemma slt_cmp a b : slt a b <-> String.compare a b = Lt.
Proof. unfold slt, String.ltb. destruct (String.compare a b); split; congruence. Qed.
Lemma cmp_trans : forall a b c, String.compare a b = Lt -> String.compare b c = Lt -> String.compare a c = Lt.
Proof.
  induction a as [|x a IH]; intros [|y b] [|z c]; cbn [String.compare]; try congruence.
  destruct (Ascii.compare x y) eqn:E1; destruct (Ascii.compare y z) eqn:E2; intros H1 H2; try discriminate;
    unfold Ascii.compare in *.
  - apply N.compare_eq in E1, E2. rewrite E1, E2, N.compare_refl. eapply IH; eassumption.
  - apply N.compare_eq in E1. rewrite E1, E2. reflexivity.
  - apply N.compare_eq in E2. rewrite <- E2, E1. reflexivity.
  - rewrite N.compare_lt_iff in *. replace (N.compare _ _) with Lt; [reflexivity|]. symmetry. apply N.compare_lt_iff. eapply N.lt_trans; eassumption.
Qed.
Lemma slt_trans a b c : slt a b -> slt b c -> slt a c.
Proof. rewrite !slt_cmp. apply cmp_trans. Qed.
Lemma cmp_refl a : String.compare a a = Eq.
Proof. induction a as [|x a IH]; [reflexivity|]. cbn [String.compare]. unfold Ascii.compare. rewrite N.compare_refl. exact IH. Qed.
Lemma slt_irrefl a : ~ slt a a.
Proof. rewrite slt_cmp, cmp_refl. discriminate. Qed.
Lemma slt_total a b : a <> b -> ~ slt a b -> slt b a.
Proof.
  rewrite !slt_cmp. intros Hn Hl. rewrite String.compare_antisym. destruct (String.compare a b) eqn:E; cbn [CompOpp].
  - apply String.compare_eq_iff in E. contradiction.
  - congruence.
  - reflexivity.
Qed.

(** ** Sorting *)
Section Sorting.
  Implicit Types (l s : machine R) (x y : string * mcoil R).
  Definition below x y : Prop := slt (fst x) (fst y).
  Lemma entry_lt_distinct x y : fst x <> fst y -> entry_lt x y = Ok (String.ltb (fst x) (fst y)).
  Proof. intros N. unfold entry_lt. apply String.eqb_neq in N. rewrite N. reflexivity. Qed.
  Lemma insert_perm : forall l x s, insert x l = Ok s -> Permutation (x :: l) s.
  Proof.
    induction l as [|y l IH]; intros x s E; cbn [insert] in E.
    - injection E as <-. constructor. constructor.
    - destruct (entry_lt y x) as [[]|]; [| |discriminate]; cbn [bind] in E.
      + destruct (insert x l) as [r|] eqn:Er; [|discriminate]. injection E as <-. specialize (IH _ _ Er).
        eapply perm_trans; [apply perm_swap|]. constructor. exact IH.
      + injection E as <-. apply Permutation_refl.
  Qed.
  Lemma sorted_perm : forall l s, sorted_coils l = Ok s -> Permutation l s.
  Proof.
    induction l as [|x l IH]; intros s E; cbn [sorted_coils] in E.
    - injection E as <-. constructor.
    - destruct (sorted_coils l) as [r|] eqn:Er; [|discriminate]. cbn [bind] in E. eapply perm_trans; [apply perm_skip, (IH _ eq_refl)|]. apply insert_perm, E.
  Qed.
  Lemma insert_ok : forall l x, ~ In (fst x) (map fst l) -> StronglySorted below l ->
    exists s, insert x l = Ok s /\ StronglySorted below s.
  Proof.
    induction l as [|y l IH]; intros x N S; cbn [insert].
    - exists [x]. split; [reflexivity|]. repeat constructor.
    - cbn [map] in N. rewrite entry_lt_distinct by (intros E; apply N; left; exact E). inversion S as [|? ? S' F]; subst. cbn [bind].
      destruct (String.ltb (fst y) (fst x)) eqn:El.
      + destruct (IH x) as (s & Es & Ss); [intros I; apply N; right; exact I|exact S'|]. rewrite Es. cbn [bind]. exists (y :: s). split; [reflexivity|].
        constructor; [exact Ss|]. assert (P := insert_perm _ _ _ Es). apply Forall_forall. intros z Hz.
        apply (Permutation_in _ (Permutation_sym P)) in Hz. destruct Hz as [<-|Hz]; [exact El|]. rewrite Forall_forall in F. exact (F z Hz).
      + exists (x :: y :: l). split; [reflexivity|]. constructor; [exact S|].
        assert (Hxy : below x y) by (apply slt_total; [intros E; apply N; left; exact E|unfold slt; rewrite El; discriminate]).
        constructor; [exact Hxy|]. apply Forall_forall. intros z Hz. rewrite Forall_forall in F. exact (slt_trans _ _ _ Hxy (F z Hz)).
  Qed.
  Lemma sorted_ok : forall l, NoDup (map fst l) -> exists s, sorted_coils l = Ok s /\ StronglySorted below s.
  Proof.
    induction l as [|x l IH]; intros N.
    - exists []. split; [reflexivity|constructor].
    - cbn [map] in N. inversion N as [|? ? Nx N']; subst. destruct (IH N') as (r & Er & Sr). cbn [sorted_coils]. rewrite Er. cbn [bind].
      apply insert_ok; [|exact Sr]. intros I. apply Nx. apply (Permutation_in _ (Permutation_map fst (Permutation_sym (sorted_perm _ _ Er)))). exact I.
  Qed.
  Lemma sorted_unique : forall l l', StronglySorted below l -> StronglySorted below l' -> Permutation l l' -> l = l'.
  Proof.
    induction l as [|x l IH]; intros l' S S' P.
    - apply Permutation_nil in P. congruence.
    - destruct l' as [|y l']; [apply Permutation_sym, Permutation_nil in P; discriminate|].
      inversion S as [|? ? Sl Fx]; inversion S' as [|? ? Sl' Fy]; subst. rewrite Forall_forall in Fx, Fy.
      assert (Exy : x = y).
      { assert (Hx : In x (y :: l')) by (apply (Permutation_in _ P); left; reflexivity).
        assert (Hy : In y (x :: l)) by (apply (Permutation_in _ (Permutation_sym P)); left; reflexivity).
        destruct Hx as [Hx|Hx]; [congruence|]. destruct Hy as [Hy|Hy]; [congruence|].
        exfalso. exact (slt_irrefl _ (slt_trans _ _ _ (Fy x Hx) (Fx y Hy))). }
      subst y. f_equal. apply IH; [exact Sl|exact Sl'|]. exact (Permutation_cons_inv P).
  Qed.
End Sorting.

(** ** Comparisons *)
Lemma close_near a b : close a b = true <-> near a b.
Proof.
  unfold close, near, nleb. rewrite !nabs_R. nR. unfold nlit. nR.
  replace (1 / 100000000) with (/ 100000000) by lra. replace (1 / 100000) with (/ 100000) by lra.
  destruct (R_ltb _ _) eqn:E; rcmp; cbn [negb]; split; intros; try lra; try discriminate; reflexivity.
Qed.
Lemma near_refl a : near a a.
Proof. unfold near. rewrite Rminus_diag_eq, Rabs_R0 by reflexivity. assert (H := Rabs_pos a). lra. Qed.
Lemma allclose_same {A} (cl : A -> A -> bool) : (forall x, cl x x = true) -> forall l, allclose cl l l = Ok true.
Proof.
  intros Hc l. unfold allclose. rewrite Nat.eqb_refl. f_equal. induction l as [|x l IH]; [reflexivity|]. cbn [combine forallb fst snd]. rewrite Hc. exact IH.
Qed.
Lemma allclose_len {A} (cl : A -> A -> bool) l l' : length l = length l' -> exists b, allclose cl l l' = Ok b.
Proof. intros E. unfold allclose. rewrite E, Nat.eqb_refl. eauto. Qed.
Lemma allclose_near l l' : length l = length l' -> (allclose close l l' = Ok true <-> Forall2 near l l').
Proof.
  intros E. unfold allclose. rewrite E, Nat.eqb_refl. split.
  - intros H. injection H as H. revert l' E H. induction l as [|x l IH]; intros [|y l'] E H; try discriminate; constructor.
    + cbn [combine forallb fst snd] in H. apply andb_true_iff in H as [H _]. apply close_near, H.
    + cbn [combine forallb fst snd] in H. apply andb_true_iff in H as [_ H]. apply IH; [injection E; auto|exact H].
  - intros F. f_equal. induction F as [|x y l l' H F IH]; [reflexivity|]. cbn [combine forallb fst snd]. apply close_near in H. rewrite H, IH; [reflexivity|injection E; auto].
Qed.
Lemma plain_eq_spec c d : plain_eq c d = true <-> same_position c d.
Proof.
  unfold plain_eq, same_position. rewrite !andb_true_iff, Z.eqb_eq, Bool.eqb_true_iff. nR. rewrite !R_eqb_true. tauto.
Qed.
Lemma coil_eq_refl (c : coil R) : coil_eq c c = Ok true.
Proof.
  assert (P : plain_eq c c = true) by (apply plain_eq_spec; repeat split; reflexivity).
  unfold coil_eq. destruct (c_kind c) as [r z|s n p ce|s p n ce|rf zf m pol ce|s mp ce] eqn:E; try (rewrite P; reflexivity).
  unfold shaped_eq, shape_attr, npt_attr. rewrite E. cbn [bind]. rewrite allclose_same.
  - cbn [bind andb]. nR. rewrite (proj2 (R_eqb_true _ _) eq_refl), Z.eqb_refl, Bool.eqb_reflx, Nat.eqb_refl. reflexivity.
  - intros q. unfold close_point. rewrite !(proj2 (close_near _ _) (near_refl _)). reflexivity.
Qed.
Lemma elems_eq_refl {A} (eq : A -> A -> result bool) : (forall x, eq x x = Ok true) -> forall l, elems_eq eq l l = Ok true.
Proof. intros H. induction l as [|x l IH]; [reflexivity|]. cbn [elems_eq]. rewrite H. exact IH. Qed.
Lemma list_eq_refl {A} (eq : A -> A -> result bool) : (forall x, eq x x = Ok true) -> forall l, list_eq eq l l = Ok true.
Proof. intros H l. unfold list_eq. rewrite Nat.eqb_refl. apply elems_eq_refl, H. Qed.
Lemma mcoil_eq_refl (m : mcoil R) : mcoil_eq m m = Ok true.
Proof.
  destruct m as [c|ci|s]; cbn [mcoil_eq].
  - apply coil_eq_refl.
  - unfold circuit_eq. rewrite list_eq_refl.
    + cbn [bind]. nR. rewrite (proj2 (R_eqb_true _ _) eq_refl), Bool.eqb_reflx. reflexivity.
    + intros x. unfold member_eq. rewrite String.eqb_refl, coil_eq_refl. cbn [bind]. nR. rewrite (proj2 (R_eqb_true _ _) eq_refl). reflexivity.
  - unfold solenoid_eq. nR. rewrite !(proj2 (R_eqb_true _ _) eq_refl), Bool.eqb_reflx, Nat.eqb_refl. reflexivity.
Qed.
Lemma elems_eq_inv {A} (eq : A -> A -> result bool) : forall l l', length l = length l' -> elems_eq eq l l' = Ok true ->
  Forall2 (fun x y => eq x y = Ok true) l l'.
Proof.
  induction l as [|x l IH]; intros [|y l'] E H; try discriminate; constructor; cbn [elems_eq] in H;
    destruct (eq x y) as [[]|] eqn:Ee; try discriminate; auto.
Qed.
Lemma list_eq_inv {A} (eq : A -> A -> result bool) l l' : list_eq eq l l' = Ok true -> Forall2 (fun x y => eq x y = Ok true) l l'.
Proof.
  unfold list_eq. destruct (length l =? length l')%nat eqn:E; [|discriminate]. apply Nat.eqb_eq in E. apply elems_eq_inv, E.
Qed.
Lemma elems_eq_ok {A} (eq : A -> A -> result bool) : forall l l', Forall2 (fun x y => exists b, eq x y = Ok b) l l' -> exists b, elems_eq eq l l' = Ok b.
Proof.
  induction l as [|x l IH]; intros l' F; inversion F as [|? y ? l2 [b E] F']; subst; cbn [elems_eq]; eauto.
  rewrite E. cbn [bind]. destruct b; eauto.
Qed.
Lemma wall_eq_refl (w : option (list R * list R)) : wall_eq w w = Ok true.
Proof.
  destruct w as [[a b]|]; [|reflexivity]. cbn [wall_eq fst snd]. rewrite !allclose_same; [reflexivity| |]; intros; apply close_near, near_refl.
Qed.
(** ** Fields *)
Section Fields.
  Variable G : field -> R -> R -> R -> R -> R.
  Lemma loop_eq_field c d f r z : is_loop c -> is_loop d -> coil_eq c d = Ok true ->
    c_current c = c_current d /\ coil_control G f c r z = coil_control G f d r z.
  Proof.
    unfold is_loop, coil_eq, coil_control. destruct (c_kind c) eqn:Ec; try contradiction. destruct (c_kind d) eqn:Ed; try contradiction.
    intros _ _ E. injection E as E. apply plain_eq_spec in E as (E1 & E2 & E3 & E4 & E5). unfold coil_R, coil_Z in *. rewrite Ec, Ed in *. subst. rewrite E4. auto.
  Qed.
  Lemma members_ctrl f r z : forall l l', Forall2 (fun x y => member_eq x y = Ok true) l l' ->
    Forall (fun x => is_loop (m_coil x)) l -> Forall (fun x => is_loop (m_coil x)) l' ->
    lsum (map (fun m => m_mult m * coil_control G f (m_coil m) r z) l) = lsum (map (fun m => m_mult m * coil_control G f (m_coil m) r z) l').
  Proof.
    induction 1 as [|x y l l' E F IH]; intros H H'; [reflexivity|]. inversion H as [|? ? Hx Hl]; inversion H' as [|? ? Hy Hl']; subst. cbn [map]. rewrite !lsum_cons.
    rewrite (IH Hl Hl'). f_equal. unfold member_eq in E. destruct (String.eqb _ _); [|discriminate].
    destruct (coil_eq (m_coil x) (m_coil y)) as [[]|] eqn:Ec; try discriminate. cbn [bind andb] in E. injection E as E. apply R_eqb_true in E. nR. rewrite E.
    rewrite (proj2 (loop_eq_field _ _ f r z Hx Hy Ec)). reflexivity.
  Qed.
  Lemma mcoil_eq_field m m' f r z : made_of_loops m -> made_of_loops m' -> mcoil_eq m m' = Ok true ->
    mc_current m * mc_ctrl G f m r z = mc_current m' * mc_ctrl G f m' r z /\ mc_control m = mc_control m' /\ mc_current m = mc_current m'.
  Proof.
    destruct m as [c|ci|s], m' as [d|di|t]; cbn [made_of_loops mcoil_eq mc_current mc_ctrl mc_control]; intros H H' E; try discriminate.
    - destruct (loop_eq_field c d f r z H H' E) as [-> ->]. split; [reflexivity|]. split; [|reflexivity].
      unfold coil_eq, is_loop in *. destruct (c_kind c); try contradiction. destruct (c_kind d); try contradiction. injection E as E. apply plain_eq_spec in E. apply E.
    - unfold circuit_eq in E. destruct (list_eq _ _ _) as [[]|] eqn:El; try discriminate. cbn [bind andb] in E. injection E as E. apply andb_true_iff in E as [E1 E2].
      apply R_eqb_true in E1. apply (proj1 (Bool.eqb_true_iff _ _)) in E2. rewrite E1. split; [|auto]. f_equal. rewrite !circuit_ctrl_sum.
      apply members_ctrl; [apply list_eq_inv, El|exact H|exact H'].
    - unfold solenoid_eq in E. injection E as E. rewrite !andb_true_iff, Nat.eqb_eq, Bool.eqb_true_iff in E. destruct E as (((((E1 & E2) & E3) & E4) & E5) & E6).
      nR. apply R_eqb_true in E1, E2, E3, E5. unfold sol_ctrl. rewrite E1, E2, E3, E4, E5. auto.
  Qed.
  Lemma lsum_perm : forall l l' : list R, Permutation l l' -> lsum l = lsum l'.
  Proof. induction 1; rewrite ?lsum_cons; try congruence. nR. lra. Qed.
End Fields.
