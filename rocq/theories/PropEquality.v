(** Equality of machines. *)
From Coq Require Import String List Arith ZArith Bool Reals Lra Lia Permutation Sorted.
From Verif Require Import Py Num Numpy Polygons Coils Machine MachineSpec MachineProofs Equality EqualitySpec EqualityProofs.
Import ListNotations.
Local Open Scope R_scope.
Local Open Scope string_scope.
Local Open Scope list_scope.

Definition loop (r z I : R) : mcoil R := MCoil (Coil r z I 1 true (AFixed 1)).
Definition eqA : machine R := [("P2", loop 2 1 5); ("P1", loop 1 0 3); ("S", MSolenoid (mksol 1 (-1) 1 10 4 true))].
Definition eqB : machine R := [("P1", loop 1 0 3); ("S", MSolenoid (mksol 1 (-1) 1 10 4 true)); ("P2", loop 2 1 5)].
Lemma eqA_nodup : NoDup (map fst eqA).
Proof. cbn. repeat constructor; cbn; intuition discriminate. Qed.
Lemma eqAB : Permutation eqA eqB.
Proof. unfold eqA, eqB. apply (Permutation_cons_append [("P1", loop 1 0 3); ("S", MSolenoid (mksol 1 (-1) 1 10 4 true))] ("P2", loop 2 1 5)). Qed.

(** ** C129 *)
(** Machines of loops, circuits of loops and solenoids with distinct labels can be compared if
    equal labels stand for the same kind of thing and their walls have the same number of points. *)
Theorem C129_compare : forall (M M' : machine R) w w',
  NoDup (map fst M) -> NoDup (map fst M') ->
  Forall (fun x => made_of_loops (snd x)) M -> Forall (fun x => made_of_loops (snd x)) M' ->
  (forall x y, In x M -> In y M' -> fst x = fst y -> same_family (snd x) (snd y)) -> walls_match w w' ->
  exists b, machine_eq M w M' w' = Ok b.
Proof.
  intros M M' w w' N N' L L' Hf Hw. unfold machine_eq.
  destruct (sorted_ok _ N) as (s & Es & _). destruct (sorted_ok _ N') as (s' & Es' & _). rewrite Es, Es'. cbn [bind].
  assert (Hc : exists b, list_eq entry_eq s s' = Ok b).
  { unfold list_eq. destruct (length s =? length s')%nat eqn:El; [|eauto]. apply Nat.eqb_eq in El. apply elems_eq_ok.
    assert (P := sorted_perm _ _ Es). assert (P' := sorted_perm _ _ Es').
    assert (A : forall x, In x s -> In x M) by (intros x; apply Permutation_in, Permutation_sym, P).
    assert (A' : forall x, In x s' -> In x M') by (intros x; apply Permutation_in, Permutation_sym, P').
    rewrite Forall_forall in L, L'. clear Es Es' P P'. revert s' El A'. induction s as [|x s IH]; intros [|y s'] El A'; try discriminate; constructor.
    - unfold entry_eq. destruct (String.eqb (fst x) (fst y)) eqn:E; [|eauto]. apply String.eqb_eq in E.
      assert (Hx := A x (or_introl eq_refl)). assert (Hy := A' y (or_introl eq_refl)). assert (F := Hf x y Hx Hy E).
      specialize (L x Hx). specialize (L' y Hy). destruct x as [lx [c|ci|so]], y as [ly [d|di|so']]; cbn [fst snd same_family made_of_loops mcoil_eq] in *; try contradiction.
      + unfold is_loop, coil_eq in *. destruct (c_kind c), (c_kind d); try contradiction. eauto.
      + unfold circuit_eq. assert (Q : exists b, list_eq member_eq (ci_coils ci) (ci_coils di) = Ok b).
        { unfold list_eq. destruct (_ =? _)%nat eqn:Em; [|eauto]. apply Nat.eqb_eq in Em. apply elems_eq_ok. revert Em L L'. generalize (ci_coils ci), (ci_coils di). clear.
          induction l as [|x l IH]; intros [|y l'] Em L L'; try discriminate; constructor; inversion L; inversion L'; subst.
          - unfold member_eq. destruct (String.eqb _ _); [|eauto]. assert (Hc : exists b, coil_eq (m_coil x) (m_coil y) = Ok b).
            { unfold is_loop, coil_eq in *. destruct (c_kind (m_coil x)), (c_kind (m_coil y)); try contradiction. eauto. }
            destruct Hc as [b ->]. cbn [bind]. eauto.
          - apply IH; [injection Em; auto|assumption|assumption]. }
        destruct Q as [b ->]. cbn [bind]. eauto.
      + eauto.
    - apply IH; [intros z Hz; apply A; right; exact Hz|injection El; auto|intros z Hz; apply A'; right; exact Hz]. }
  destruct Hc as [b ->]. cbn [bind]. destruct b; [|eauto].
  destruct w as [[a1 a2]|], w' as [[b1 b2]|]; cbn [walls_match wall_eq fst snd] in *; try contradiction; [|eauto].
  destruct Hw as [H1 H2]. destruct (allclose_len close a1 b1 H1) as [[] ->]; cbn [bind]; [|eauto]. apply allclose_len, H2.
Qed.
Print Assumptions C129_compare.
Example C129_example : NoDup (map fst eqA) /\ Forall (fun x => made_of_loops (snd x)) eqA /\
  (forall x y, In x eqA -> In y eqB -> fst x = fst y -> same_family (snd x) (snd y)) /\
  walls_match (Some ([1; 2], [0; 0])) (Some ([1; 3], [0; 1])).
Proof.
  split; [exact eqA_nodup|]. split; [repeat constructor|]. split; [|split; reflexivity].
  intros x y Hx Hy. destruct Hx as [<-|[<-|[<-|[]]]]; destruct Hy as [<-|[<-|[<-|[]]]]; cbn; intros; try discriminate; exact I.
Qed.
(** A machine with two different coils under one label cannot be compared with itself. *)
Theorem C129_labels_refuted : exists (M : machine R), Forall (fun x => made_of_loops (snd x)) M /\ machine_eq M None M None = Raise TypeError.
Proof.
  exists [("P", loop 1 0 3); ("P", loop 2 0 3)]. split; [repeat constructor|]. unfold machine_eq, loop.
  cbn [sorted_coils bind insert]. unfold entry_lt. cbn [fst snd]. rewrite String.eqb_refl. cbn [mcoil_eq]. unfold coil_eq. cbn [c_kind Coil bind].
  destruct (plain_eq _ _) eqn:E; [|reflexivity]. apply plain_eq_spec in E. destruct E as [E _]. cbn in E. lra.
Qed.
Print Assumptions C129_labels_refuted.
(** A coil and a circuit under the same label, a machine with and one without wall, and walls
    with different numbers of points cannot be compared. *)
Theorem C129_compare_refuted : exists (M M' : machine R) (a b : list R), NoDup (map fst M) /\ NoDup (map fst M') /\
  machine_eq M None M' None = Raise AttributeError /\
  machine_eq M (Some (a, a)) M None = Raise AttributeError /\ machine_eq M None M (Some (a, a)) = Raise AttributeError /\
  machine_eq M (Some (a, a)) M (Some (b, b)) = Raise ValueError.
Proof.
  exists [("P", loop 1 0 3)], [("P", MCircuit (mkcircuit [] 0 true))], [1; 2], [1; 2; 3].
  assert (E : list_eq entry_eq [("P", loop 1 0 3)] [("P", loop 1 0 3)] = Ok true).
  { apply list_eq_refl. intros x. unfold entry_eq. rewrite String.eqb_refl. apply mcoil_eq_refl. }
  split; [repeat constructor; intros []|]. split; [repeat constructor; intros []|]. split; [reflexivity|].
  unfold machine_eq. cbn [sorted_coils bind insert]. rewrite E. cbn [bind wall_eq]. auto.
Qed.
Print Assumptions C129_compare_refuted.
(** [==] is not symmetric between classes, nor for walls. *)
Theorem C129_symmetric_refuted : exists (c d : coil R) (w w' : option (list R * list R)),
  coil_eq c d = Ok true /\ coil_eq d c = Raise AttributeError /\ wall_eq w w' = Ok true /\ wall_eq w' w = Ok false.
Proof.
  exists (mkcoil (KMulti [1; 3] [0; 0] false (1, 1) (2, 0)) 5 2 true (AFixed 1)),
    (mkcoil (KShaped [(1, 0); (2, 0); (3, 0)] 6 [] (2, 0)) 5 2 true (AFixed 0)),
    (Some ([99998999 / 100000000], [0])), (Some ([1], [0])).
  split.
  - unfold coil_eq. cbn [c_kind]. f_equal. apply plain_eq_spec. repeat split.
  - split; [reflexivity|].
    assert (Z0 : allclose close [0] [0] = Ok true) by (apply allclose_same; intros; apply close_near, near_refl).
    assert (N : near (99998999 / 100000000) 1) by (unfold near; rewrite Rabs_left, Rabs_right by lra; lra).
    assert (NN : ~ near 1 (99998999 / 100000000)) by (unfold near; rewrite !Rabs_right by lra; lra).
    cbn [wall_eq fst snd]. unfold allclose at 1. cbn [length Nat.eqb combine forallb fst snd]. rewrite (proj2 (close_near _ _) N). cbn [andb bind]. split; [exact Z0|].
    unfold allclose at 1. cbn [length Nat.eqb combine forallb fst snd]. destruct (close 1 _) eqn:E; [apply close_near in E; contradiction|reflexivity].
Qed.
Print Assumptions C129_symmetric_refuted.
(** A point coil and a shaped coil cannot be compared in either order. *)
Theorem C129_point_shaped : forall (c d : coil R) r z s w l p, c_kind c = KPoint r z -> c_kind d = KShaped s w l p ->
  coil_eq c d = Raise AttributeError /\ coil_eq d c = Raise AttributeError.
Proof. intros c d r z s w l p Hc Hd. unfold coil_eq, shaped_eq, shape_attr. rewrite Hc, Hd. split; reflexivity. Qed.
Print Assumptions C129_point_shaped.

(** ** C130 *)
(** Equal machines of loops, circuits of loops and solenoids give the same field everywhere. *)
Theorem C130_same_field : forall G f (M M' : machine R) w w' r z,
  Forall (fun x => made_of_loops (snd x)) M -> Forall (fun x => made_of_loops (snd x)) M' ->
  machine_eq M w M' w' = Ok true -> fst (machine_field G f M r z) = fst (machine_field G f M' r z).
Proof.
  intros G f M M' w w' r z L L' E. unfold machine_eq in E.
  destruct (sorted_coils M) as [s|] eqn:Es; [|discriminate]. destruct (sorted_coils M') as [s'|] eqn:Es'; [|discriminate]. cbn [bind] in E.
  destruct (list_eq entry_eq s s') as [[]|] eqn:El; try discriminate. rewrite !machine_field_eq. cbn [fst]. unfold response_sum.
  assert (P := sorted_perm _ _ Es). assert (P' := sorted_perm _ _ Es').
  rewrite (lsum_perm _ _ (Permutation_map _ P)), (lsum_perm _ _ (Permutation_map _ P')). apply list_eq_inv in El.
  assert (Ls : Forall (fun x => made_of_loops (snd x)) s) by (eapply Permutation_Forall; eassumption).
  assert (Ls' : Forall (fun x => made_of_loops (snd x)) s') by (eapply Permutation_Forall; eassumption).
  clear -El Ls Ls'. induction El as [|x y s s' E El IH]; [reflexivity|]. inversion Ls as [|? ? Hx Hs]; inversion Ls' as [|? ? Hy Hs']; subst.
  cbn [map]. rewrite !lsum_cons, (IH Hs Hs'). f_equal. unfold entry_eq in E. destruct (String.eqb _ _); [|discriminate].
  apply (mcoil_eq_field G _ _ f r z Hx Hy E).
Qed.
Print Assumptions C130_same_field.
Lemma C130_ex_eq : machine_eq eqA None eqB None = Ok true.
Proof.
  destruct (sorted_ok _ eqA_nodup) as (s & Es & S).
  assert (NB : NoDup (map fst eqB)) by (cbn; repeat constructor; cbn; intuition discriminate).
  destruct (sorted_ok _ NB) as (s' & Es' & S'). unfold machine_eq. rewrite Es, Es'. cbn [bind].
  assert (E : s = s').
  { apply sorted_unique; [exact S|exact S'|]. eapply perm_trans; [apply Permutation_sym, (sorted_perm _ _ Es)|]. eapply perm_trans; [exact eqAB|]. apply sorted_perm, Es'. }
  subst s'. rewrite list_eq_refl; [reflexivity|]. intros x. unfold entry_eq. rewrite String.eqb_refl. apply mcoil_eq_refl.
Qed.
Example C130_example : Forall (fun x => made_of_loops (snd x)) eqA /\ Forall (fun x => made_of_loops (snd x)) eqB /\ machine_eq eqA None eqB None = Ok true.
Proof. split; [repeat constructor|]. split; [repeat constructor|exact C130_ex_eq]. Qed.
(** Multi-filament coils with the same middle are equal, wherever their filaments are, and
    whether mirrored or not; so are filament coils. *)
Theorem C130_multi_equal : forall (Rf Rf' Zf Zf' : list R) m m' p p' ce I t b a a',
  coil_eq (mkcoil (KMulti Rf Zf m p ce) I t b a) (mkcoil (KMulti Rf' Zf' m' p' ce) I t b a') = Ok true.
Proof. intros. unfold coil_eq. cbn [c_kind]. f_equal. apply plain_eq_spec. repeat split. Qed.
Print Assumptions C130_multi_equal.
Theorem C130_same_field_refuted : exists G (c d : coil R) r z,
  MultiCoil_list [1; 3] [0; 0] 5 1 true false (1, 1) (AFixed 1) = Ok c /\ MultiCoil_list [2; 2] [0; 0] 5 1 true false (1, 1) (AFixed 1) = Ok d /\
  machine_eq [("P", MCoil c)] None [("P", MCoil d)] None = Ok true /\
  fst (machine_field G FPsi [("P", MCoil c)] r z) <> fst (machine_field G FPsi [("P", MCoil d)] r z).
Proof.
  exists (fun _ rc _ _ _ => rc * rc). eexists. eexists. exists 1, 0. split; [reflexivity|]. split; [reflexivity|]. split.
  - unfold machine_eq. cbn [sorted_coils bind insert]. unfold list_eq. cbn [length Nat.eqb elems_eq]. unfold entry_eq. cbn [fst snd]. rewrite String.eqb_refl.
    cbn [mcoil_eq]. unfold coil_eq. cbn [c_kind].
    assert (P : forall c d : coil R, same_position c d -> plain_eq c d = true) by (intros; apply plain_eq_spec; assumption). rewrite P; [reflexivity|].
    unfold same_position, coil_R, coil_Z, lmean. cbn [c_kind c_current c_turns c_control fst snd length]. rewrite !lsum_cons, lsum_nil. nR. repeat split; try reflexivity; lra.
  - rewrite !machine_field_eq. cbn [fst]. unfold response_sum. cbn [map snd mc_current mc_ctrl c_current]. rewrite !lsum_cons, lsum_nil.
    unfold coil_control. cbn [c_kind combine fold_left fst snd]. nR. lra.
Qed.
Print Assumptions C130_same_field_refuted.
(** Equal machines can have different forces: the area is not compared. *)
Theorem C130_area_ignored : forall r z I t b a a' lb, machine_eq [(lb, MCoil (Coil r z I t b a))] None [(lb, MCoil (Coil r z I t b a'))] None = Ok true.
Proof.
  intros. unfold machine_eq. cbn [sorted_coils bind insert]. unfold list_eq. cbn [length Nat.eqb elems_eq]. unfold entry_eq. cbn [fst snd]. rewrite String.eqb_refl.
  cbn [mcoil_eq]. unfold coil_eq. cbn [c_kind Coil].
  assert (P : forall c d : coil R, same_position c d -> plain_eq c d = true) by (intros; apply plain_eq_spec; assumption). rewrite P; [reflexivity|]. repeat split.
Qed.
Print Assumptions C130_area_ignored.

(** ** C131 *)
(** The order of the coils does not matter. *)
Theorem C131_order : forall (M M' : machine R) w, NoDup (map fst M) -> Permutation M M' -> machine_eq M w M' w = Ok true.
Proof.
  intros M M' w N P. assert (N' : NoDup (map fst M')) by (eapply Permutation_NoDup; [apply Permutation_map, P|exact N]).
  destruct (sorted_ok _ N) as (s & Es & S). destruct (sorted_ok _ N') as (s' & Es' & S'). unfold machine_eq. rewrite Es, Es'. cbn [bind].
  assert (E : s = s').
  { apply sorted_unique; [exact S|exact S'|]. eapply perm_trans; [apply Permutation_sym, (sorted_perm _ _ Es)|]. eapply perm_trans; [exact P|]. apply sorted_perm, Es'. }
  subst s'. rewrite list_eq_refl; [cbn [bind]; apply wall_eq_refl|]. intros x. unfold entry_eq. rewrite String.eqb_refl. apply mcoil_eq_refl.
Qed.
Print Assumptions C131_order.
Example C131_example : NoDup (map fst eqA) /\ Permutation eqA eqB /\ eqA <> eqB.
Proof. split; [exact eqA_nodup|]. split; [exact eqAB|discriminate]. Qed.
(** Equal machines have the same labels, and equal coils under them. *)
Theorem C131_labels : forall (M M' : machine R) w w', machine_eq M w M' w' = Ok true ->
  wall_eq w w' = Ok true /\
  exists N, Permutation M' N /\ Forall2 (fun x y => fst x = fst y /\ mcoil_eq (snd x) (snd y) = Ok true) M N.
Proof.
  intros M M' w w' E. unfold machine_eq in E.
  destruct (sorted_coils M) as [s|] eqn:Es; [|discriminate]. destruct (sorted_coils M') as [s'|] eqn:Es'; [|discriminate]. cbn [bind] in E.
  destruct (list_eq entry_eq s s') as [[]|] eqn:El; try discriminate. cbn [bind] in E. split; [exact E|]. apply list_eq_inv in El.
  destruct (Permutation_Forall2 (Permutation_sym (sorted_perm _ _ Es)) El) as (N & P & F). exists N. split; [exact (perm_trans (sorted_perm _ _ Es') P)|].
  clear -F. induction F as [|x y l l' H F IH]; constructor; [|exact IH]. unfold entry_eq in H. destruct (String.eqb (fst x) (fst y)) eqn:Ee; [|discriminate].
  apply String.eqb_eq in Ee. auto.
Qed.
Print Assumptions C131_labels.
(** Walls with the same numbers of points are equal if all coordinates agree within the tolerances. *)
Theorem C131_walls : forall w w', walls_match w w' -> (wall_eq w w' = Ok true <-> walls_near w w').
Proof.
  intros [[a1 a2]|] [[b1 b2]|]; cbn [walls_match wall_eq walls_near fst snd]; try contradiction; [|tauto].
  intros [H1 H2]. rewrite <- (allclose_near _ _ H1), <- (allclose_near _ _ H2). destruct (allclose_len close a1 b1 H1) as [[] ->]; cbn [bind]; split.
  - auto.
  - intros [_ E]. exact E.
  - discriminate.
  - intros [E _]. discriminate.
Qed.
Print Assumptions C131_walls.
Example C131_wall_example : walls_match (Some ([1; 2], [0; 0])) (Some ([1; 2], [0; 0])) /\ walls_near (Some ([1; 2], [0; 0])) (Some ([1; 2], [0; 0])).
Proof. split; [split; reflexivity|]. cbn [walls_near fst snd]. split; repeat (constructor; [apply near_refl|]); constructor. Qed.

(** Two shaped coils with equally many vertices are equal exactly when every vertex agrees within the
    tolerances of numpy in both coordinates and current, turns, control and number of points per triangle
    are the same; different numbers of vertices, neither being one, cannot be compared. *)
Theorem C131_shaped : forall (c d : coil R) s n l p s' n' l' p', c_kind c = KShaped s n l p -> c_kind d = KShaped s' n' l' p' ->
  (length s = length s' ->
   (coil_eq c d = Ok true <->
    Forall2 (fun x y => near (fst x) (fst y) /\ near (snd x) (snd y)) s s' /\
    c_current c = c_current d /\ c_turns c = c_turns d /\ c_control c = c_control d /\ n = n') /\
   (coil_eq c d = Ok true \/ coil_eq c d = Ok false)) /\
  (length s <> length s' -> length s <> 1%nat -> length s' <> 1%nat -> coil_eq c d = Raise ValueError).
Proof.
  intros c d s n l p s' n' l' p' Hc Hd. unfold coil_eq. rewrite Hc. unfold shaped_eq, shape_attr, npt_attr. rewrite Hc, Hd. cbn [bind]. split.
  - intros Hl. unfold allclose. rewrite Hl, Nat.eqb_refl. cbn [bind].
    assert (F : forallb (fun q => close_point (fst q) (snd q)) (combine s s') = true <-> Forall2 (fun x y => near (fst x) (fst y) /\ near (snd x) (snd y)) s s').
    { clear Hc Hd. revert s' Hl. induction s as [|x s IH]; intros [|y s'] Hl; try discriminate.
      - split; [constructor|reflexivity].
      - cbn [combine forallb fst snd]. rewrite andb_true_iff, (IH s') by (injection Hl; auto). unfold close_point at 1. rewrite andb_true_iff, !close_near. split.
        + intros [H F]. constructor; assumption.
        + intros F. inversion F; subst. split; assumption. }
    destruct (forallb _ _) eqn:E1; cbn [andb].
    + destruct (neqb (c_current c) (c_current d)) eqn:E2; cbn [andb].
      * destruct (Z.eqb (c_turns c) (c_turns d)) eqn:E3; cbn [andb].
        -- destruct (Bool.eqb (c_control c) (c_control d)) eqn:E4.
           ++ cbn [bind]. apply R_eqb_true in E2. apply Z.eqb_eq in E3. apply Bool.eqb_prop in E4. split; [|destruct (n =? n')%nat; auto]. split.
              ** intros [= E5]. apply Nat.eqb_eq in E5. repeat split; try assumption. apply F, eq_refl.
              ** intros (_ & _ & _ & _ & ->). rewrite Nat.eqb_refl. reflexivity.
           ++ split; [|auto]. split; [discriminate|]. intros (_ & _ & _ & H & _). rewrite H, Bool.eqb_reflx in E4. discriminate.
        -- split; [|auto]. split; [discriminate|]. intros (_ & _ & H & _). rewrite H, Z.eqb_refl in E3. discriminate.
      * split; [|auto]. split; [discriminate|]. intros (_ & H & _). apply R_eqb_true in H. change (neqb (c_current c) (c_current d) = true) in H. congruence.
    + split; [|auto]. split; [discriminate|]. intros (H & _). apply F in H. discriminate.
  - intros Hl H1 H2. unfold allclose. destruct (Nat.eqb_spec (length s) (length s')); [contradiction|].
    destruct s as [|x [|x2 s]]; destruct s' as [|y [|y2 s']]; cbn [length] in *; try reflexivity; try contradiction; lia.
Qed.
Print Assumptions C131_shaped.
Example C131_shaped_example :
  let c := mkcoil (KShaped [(1, 0); (2, 0); (2, 1)] 6 [] (2, 0)) 5 2 true (AFixed 0) in
  let d := mkcoil (KShaped [(1, 0); (2, 0); (2, 1 + / 1000000)] 6 [] (2, 0)) 5 2 true (AFixed 0) in
  let e := mkcoil (KShaped [(1, 0); (2, 0); (2, 2)] 6 [] (2, 0)) 5 2 true (AFixed 0) in
  coil_eq c d = Ok true /\ coil_eq c e <> Ok true.
Proof.
  cbv zeta. split.
  - match goal with |- coil_eq ?c ?d = _ => edestruct (C131_shaped c d) as [H _]; [reflexivity|reflexivity|] end. apply (proj1 (H eq_refl)). clear H. split; [|repeat split].
    do 2 (constructor; [split; apply near_refl|]). constructor; [|constructor]. split; [apply near_refl|]. cbn [fst snd].
    unfold near. rewrite Rabs_left by lra. rewrite Rabs_right by lra. lra.
  - match goal with |- coil_eq ?c ?d <> _ => edestruct (C131_shaped c d) as [H0 _]; [reflexivity|reflexivity|] end. intros E. apply (proj1 (H0 eq_refl)) in E. clear H0. destruct E as [F _].
    inversion F as [|a b u v _ F1]; subst. inversion F1 as [|a b u v _ F2]; subst. inversion F2 as [|a b u v [_ H] _]; subst. cbn [fst snd] in H.
    unfold near in H. rewrite Rabs_left in H by lra. rewrite Rabs_right in H by lra. lra.
Qed.
(** A wall of one point is compared with every point of the other wall. *)
Theorem C131_one_point : forall r z (a b : list R), length a <> 1%nat -> length b <> 1%nat ->
  (wall_eq (Some ([r], [z])) (Some (a, b)) = Ok true <-> Forall (near r) a /\ Forall (near z) b) /\
  (wall_eq (Some (a, b)) (Some ([r], [z])) = Ok true <-> Forall (fun x => near x r) a /\ Forall (fun x => near x z) b).
Proof.
  assert (F : forall (q : R -> bool) (Q : R -> Prop), (forall x, q x = true <-> Q x) -> forall l, forallb q l = true <-> Forall Q l).
  { intros q Q H l. rewrite forallb_forall, Forall_forall. split; intros A x Hx; apply H, A, Hx. }
  assert (A1 : forall r (a : list R), length a <> 1%nat -> allclose close [r] a = Ok (forallb (close r) a)).
  { intros r a Ha. unfold allclose. destruct (Nat.eqb_spec (length [r]) (length a)) as [E|_]; [cbn in E; congruence|reflexivity]. }
  assert (A2 : forall r (a : list R), length a <> 1%nat -> allclose close a [r] = Ok (forallb (fun x => close x r) a)).
  { intros r a Ha. unfold allclose. destruct (Nat.eqb_spec (length a) (length [r])) as [E|_]; [cbn in E; congruence|]. destruct a as [|x [|y a]]; [reflexivity|cbn in Ha; congruence|reflexivity]. }
  intros r z a b Ha Hb. unfold wall_eq. cbn [fst snd]. rewrite !A1, !A2 by assumption. cbn [bind].
  rewrite <- (F (close r) _ (fun x => close_near r x)), <- (F (close z) _ (fun x => close_near z x)). rewrite <- (F (fun x => close x r) _ (fun x => close_near x r)), <- (F (fun x => close x z) _ (fun x => close_near x z)).
  split; destruct (forallb _ a); split; intros H; try discriminate; try (destruct H; congruence); split; congruence.
Qed.
Print Assumptions C131_one_point.
Example C131_one_point_example : wall_eq (Some ([1], [0])) (Some ([1; 1], [0; 0; 0])) = Ok true.
Proof. apply (C131_one_point 1 0 [1; 1] [0; 0; 0]); [cbn; lia|cbn; lia|]. split; repeat (apply Forall_cons; [apply near_refl|]); apply Forall_nil. Qed.
