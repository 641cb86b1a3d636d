(** Saving, loading and comparing. *)
From Coq Require Import String Ascii List Arith ZArith QArith Bool Reals Lra Lia Permutation Sorted.
From Verif Require Import Py Num Numpy Polygons Coils Machine MachineSpec MachineProofs Sensors SensorsProofs Critical Boundary Jtor Equilibrium EquilibriumProofs EquilibriumProofs3 Serial SerialSpec SerialProofs PropMachine PropSerial Equality EqualitySpec EqualityProofs.
Import ListNotations.
Local Open Scope R_scope.
Local Open Scope string_scope.
Local Open Scope list_scope.

(** the wall as the arrays R and Z *)
Definition arrays (w : option (list (R * R))) : option (list R * list R) := option_map (fun l => (map fst l, map snd l)) w.

(** ** Restored coils are equal *)
Lemma close_point_refl (p : R * R) : close_point p p = true.
Proof. unfold close_point. rewrite !(proj2 (close_near _ _)); [reflexivity|apply near_refl..]. Qed.
Lemma same_attr_eq (c d : coil R) : c_kind d = c_kind c -> c_current d = c_current c -> c_turns d = c_turns c -> c_control d = c_control c -> coil_eq c d = Ok true.
Proof.
  intros Ek Ec Et Eb.
  assert (P : plain_eq c d = true).
  { apply plain_eq_spec. unfold same_position, coil_R, coil_Z. rewrite Ek, Ec, Et, Eb. repeat split. }
  unfold coil_eq. rewrite Ek. destruct (c_kind c) as [r z|s n p ce|s p n ce|rf zf m pol ce|s mp ce] eqn:E; try (rewrite P; reflexivity).
  unfold shaped_eq, shape_attr, npt_attr. rewrite Ek, E, Ec, Et, Eb. cbn [bind]. rewrite (allclose_same close_point close_point_refl). cbn [bind].
  rewrite Z.eqb_refl, Bool.eqb_reflx. replace (neqb (c_current c) (c_current c)) with true by (symmetry; apply R_eqb_true; reflexivity). cbn [andb bind]. rewrite Nat.eqb_refl. reflexivity.
Qed.
Lemma restored_sym_coil c d : restored_coil c d -> restored_coil d c.
Proof. intros (H1 & H2 & H3 & H4 & H5). unfold restored_coil. rewrite H1 in *. repeat split; try congruence. destruct (c_kind c); auto. Qed.
Lemma restored_member_eq x y : restored_member x y -> member_eq x y = Ok true.
Proof.
  intros (H1 & H2 & H3 & H4 & H5 & H6 & _). unfold member_eq. rewrite H1, String.eqb_refl, same_attr_eq by assumption. cbn [bind]. rewrite H2.
  replace (neqb (m_mult x) (m_mult x)) with true by (symmetry; apply R_eqb_true; reflexivity). reflexivity.
Qed.
Lemma elems_eq_true {A} (eq : A -> A -> result bool) l l' : Forall2 (fun x y => eq x y = Ok true) l l' -> list_eq eq l l' = Ok true.
Proof.
  intros F. unfold list_eq. assert (E : length l = length l') by (induction F; cbn; congruence). rewrite E, Nat.eqb_refl. clear E. induction F as [|x y l l' H F IH]; [reflexivity|].
  cbn [elems_eq]. rewrite H. exact IH.
Qed.
Lemma restored_eq m m' : restored m m' -> mcoil_eq m m' = Ok true /\ mcoil_eq m' m = Ok true.
Proof.
  destruct m as [c|a|a], m' as [d|b|b]; cbn [restored]; try contradiction.
  - intros H. assert (H' := restored_sym_coil _ _ H). destruct H as (H1 & H2 & H3 & H4 & _), H' as (K1 & K2 & K3 & K4 & _). split; apply same_attr_eq; assumption.
  - intros (HF & Hc & Hb). cbn [mcoil_eq]. unfold circuit_eq. rewrite !elems_eq_true.
    + cbn [bind]. rewrite Hc, Hb, Bool.eqb_reflx. replace (neqb (ci_current a) (ci_current a)) with true by (symmetry; apply R_eqb_true; reflexivity). split; reflexivity.
    + clear Hc Hb. induction HF as [|x y l l' H F IH]; constructor; [|exact IH]. apply restored_member_eq. destruct H as (H1 & H2 & H3). split; [congruence|]. split; [congruence|]. apply restored_sym_coil, H3.
    + clear Hc Hb. induction HF as [|x y l l' H F IH]; constructor; [|exact IH]. apply restored_member_eq, H.
  - intros ->. split; apply mcoil_eq_refl.
Qed.

(** ** Sorting looks at the labels only when they are distinct *)
Definition alike (Q : mcoil R -> mcoil R -> Prop) (a b : string * mcoil R) : Prop := fst b = fst a /\ Q (snd a) (snd b).
Lemma insert_alike Q x y l l' r : alike Q x y -> Forall2 (alike Q) l l' -> ~ In (fst x) (map fst l) -> Equality.insert x l = Ok r ->
  exists r', Equality.insert y l' = Ok r' /\ Forall2 (alike Q) r r'.
Proof.
  intros Hxy F. revert r. induction F as [|a b l l' Hab F IH]; intros r Hn E; cbn [Equality.insert] in E |- *.
  - injection E as <-. eexists. split; [reflexivity|]. constructor; [exact Hxy|constructor].
  - cbn [map In] in Hn. assert (N : fst a <> fst x) by (intros K; apply Hn; left; exact K).
    assert (E1 : entry_lt a x = Ok (String.ltb (fst a) (fst x))) by (unfold entry_lt; rewrite (proj2 (String.eqb_neq _ _) N); reflexivity).
    assert (E2 : entry_lt b y = Ok (String.ltb (fst a) (fst x))).
    { unfold entry_lt. destruct Hab as [Hab _], Hxy as [Hx _]. rewrite Hab, Hx, (proj2 (String.eqb_neq _ _) N). reflexivity. }
    rewrite E1 in E. rewrite E2. cbn [bind] in E |- *. destruct (String.ltb (fst a) (fst x)).
    + destruct (Equality.insert x l) as [r0|] eqn:Er; [|discriminate]. cbn [bind] in E. injection E as <-.
      destruct (IH r0) as (r' & E' & F'); [intros K; apply Hn; right; exact K|reflexivity|]. rewrite E'. cbn [bind]. eexists. split; [reflexivity|]. constructor; assumption.
    + injection E as <-. eexists. split; [reflexivity|]. constructor; [exact Hxy|]. constructor; assumption.
Qed.
Lemma sorted_alike Q l l' : Forall2 (alike Q) l l' -> NoDup (map fst l) -> exists s s', sorted_coils l = Ok s /\ sorted_coils l' = Ok s' /\ Forall2 (alike Q) s s'.
Proof.
  induction 1 as [|x y l l' H F IH]; intros N; cbn [sorted_coils].
  - do 2 eexists. split; [reflexivity|]. split; [reflexivity|constructor].
  - cbn [map] in N. inversion N as [|? ? Nx Nl]; subst. destruct (IH Nl) as (s & s' & E & E' & Fs). rewrite E, E'. cbn [bind].
    assert (Hn : ~ In (fst x) (map fst s)).
    { intros K. apply Nx. apply (Permutation_in _ (Permutation_map fst (Permutation_sym (sorted_perm _ _ E)))). exact K. }
    destruct (sorted_ok (x :: l) N) as (r & Er & _). cbn [sorted_coils] in Er. rewrite E in Er. cbn [bind] in Er.
    destruct (insert_alike Q x y s s' r H Fs Hn Er) as (r' & Er' & Fr). exists r, r'. split; [exact Er|]. split; assumption.
Qed.
Lemma machine_alike M l M' w : NoDup (map fst M) -> Forall2 (alike restored) M l -> Permutation l M' ->
  machine_eq M w M' w = Ok true /\ machine_eq M' w M w = Ok true.
Proof.
  intros N F P. destruct (sorted_alike restored M l F N) as (s & s1 & Es & Es1 & Fs).
  assert (El : map fst l = map fst M) by (clear -F; induction F as [|a b l l' [H _] F IH]; cbn [map]; congruence).
  assert (Nl : NoDup (map fst l)) by (rewrite El; exact N).
  assert (N' : NoDup (map fst M')) by (eapply Permutation_NoDup; [apply Permutation_map, P|exact Nl]).
  destruct (sorted_ok _ N') as (s' & Es' & S'). destruct (sorted_ok _ Nl) as (s2 & Es2 & S2). rewrite Es1 in Es2. injection Es2 as <-.
  assert (E : s1 = s').
  { apply sorted_unique; [exact S2|exact S'|]. eapply perm_trans; [apply Permutation_sym, (sorted_perm _ _ Es1)|]. eapply perm_trans; [exact P|]. apply sorted_perm, Es'. }
  subst s'. unfold machine_eq. rewrite Es, Es'. cbn [bind].
  assert (F1 : Forall2 (fun x y => entry_eq x y = Ok true) s s1).
  { clear -Fs. induction Fs as [|a b l l' [H1 H2] F IH]; constructor; [|exact IH]. unfold entry_eq. rewrite H1, String.eqb_refl. apply (proj1 (restored_eq _ _ H2)). }
  assert (F2 : Forall2 (fun x y => entry_eq x y = Ok true) s1 s).
  { clear -Fs. induction Fs as [|a b l l' [H1 H2] F IH]; constructor; [|exact IH]. unfold entry_eq. rewrite H1, String.eqb_refl. apply (proj2 (restored_eq _ _ H2)). }
  rewrite (elems_eq_true _ _ _ F1), (elems_eq_true _ _ _ F2). cbn [bind]. split; apply wall_eq_refl.
Qed.

(** ** C136 *)
(** The machine that is read from a file is equal to the one that was written, whichever is on the
    left. *)
Theorem C136_loaded_equal : forall int_of fuel G sqrt exp spline user (e e' : equilibrium R unit unit) w w' f, (forall n, int_of (INR n) = n) ->
  Forall (fun lm => savable fuel (snd lm) /\ plain (fst lm)) (coils (tok e)) -> NoDup (map fst (coils (tok e))) ->
  match bnd e with BUser _ => False | _ => True end ->
  write user e w = Ok f -> read int_of fuel G sqrt exp spline f = Ok (e', w') ->
  machine_eq (coils (tok e)) (arrays w) (coils (tok e')) (arrays w') = Ok true /\ machine_eq (coils (tok e')) (arrays w') (coils (tok e)) (arrays w) = Ok true.
Proof.
  intros int_of fuel G sq ex spline user e e' w w' f Hi HF HN Hb Ew Er.
  destruct (C68_round_trip int_of fuel G sq ex spline user e e' w w' f Hi HF HN Hb Ew Er) as ((l & HP & HF2) & -> & _).
  apply (machine_alike _ l); assumption.
Qed.
Print Assumptions C136_loaded_equal.
Example C136_loaded_equal_example : exists f (e' : equilibrium R unit unit), write "f" (exEq true) None = Ok f /\ read int_R 5 exG sqrt exp flat_spline f = Ok (e', None) /\
  machine_eq exM None (coils (tok e')) None = Ok true /\ map fst exM = ["P1"; "C"; "S"] /\ map fst (coils (tok e')) = ["C"; "P1"; "S"].
Proof.
  destruct (exEq_read true) as (HF & f & e' & Ew & Er & Hc). exists f, e'. split; [exact Ew|]. split; [exact Er|].
  assert (HN : NoDup (map fst exM)) by (repeat constructor; cbn; intuition congruence).
  split; [exact (proj1 (C136_loaded_equal _ _ _ _ _ _ _ (exEq true) _ None None _ int_R_ok HF HN I Ew Er))|]. split; [reflexivity|]. rewrite Hc. reflexivity.
Qed.
(** A shaped coil that was moved is read back at its old place (C67), and the comparison does not notice. *)
Theorem C136_moved_unnoticed : forall int_of fuel (c : coil R) shape n pts ctr r z d,
  c_kind c = KShaped shape n pts ctr -> savable fuel (MCoil c) -> to_numpy (MCoil (set_Z (set_R c r) z)) = Ok d ->
  from_numpy int_of fuel CShaped d = Ok (MCoil c) /\ mcoil_eq (MCoil (set_Z (set_R c r) z)) (MCoil c) = Ok true.
Proof.
  intros int_of fuel c shape n pts ctr r z d Ek Hs Ed. split; [exact (C67_moved_coil_goes_back int_of fuel c shape n pts ctr r z d Ek Hs Ed)|].
  cbn [mcoil_eq]. unfold coil_eq, set_Z, set_R. cbn. rewrite Ek. destruct ctr as [rc zc]. cbn.
  unfold shaped_eq, shape_attr, npt_attr. cbn. rewrite Ek. cbn [bind]. rewrite (allclose_same close_point close_point_refl). cbn [bind].
  rewrite Z.eqb_refl, Bool.eqb_reflx. replace (R_eqb (c_current c) (c_current c)) with true by (symmetry; apply R_eqb_true; reflexivity). cbn [andb bind]. rewrite Nat.eqb_refl. reflexivity.
Qed.
Print Assumptions C136_moved_unnoticed.
(** FALSE: "a loaded coil that is equal to the saved one is at the same place". *)
Theorem C136_same_place_refuted : exists (c c' : coil R) d, to_numpy (MCoil c) = Ok d /\ from_numpy int_R 5 CShaped d = Ok (MCoil c') /\
  mcoil_eq (MCoil c) (MCoil c') = Ok true /\ coil_R c <> coil_R c'.
Proof.
  destruct (triangle_coil 5 3 7 true) as (c & E & _). assert (Hs := C66_shaped_reached _ _ _ _ _ _ _ 3 true E ltac:(cbn; lia)).
  unfold ShapedCoil in E. cbn [length Nat.ltb Nat.leb] in E. destruct (Quadrature.polygon_quad _ _ _) as [pts|]; [|discriminate].
  cbn [bind] in E. injection E as <-. unfold set_control, set_current in Hs. cbn [c_kind c_turns c_area] in Hs.
  match type of Hs with savable _ (MCoil ?x) => set (c := x) in * end.
  assert (Ek : exists p0, c_kind c = KShaped [(1, 0); (1, 1); (2, 0)] 1 p0 (mean_point [(1, 0); (1, 1); (2, 0)])) by (eexists; reflexivity).
  destruct Ek as (p0 & Ek). clearbody c.
  assert (Ed : exists d, to_numpy (MCoil (set_Z (set_R c 9) 1)) = Ok d).
  { cbn [to_numpy]. unfold coil_to_numpy, set_Z, set_R. cbn. rewrite Ek. cbn. eexists. reflexivity. }
  destruct Ed as (d & Ed). destruct (C136_moved_unnoticed int_R 5 c _ _ _ _ 9 1 d Ek Hs Ed) as [H1 H2].
  exists (set_Z (set_R c 9) 1), c, d. split; [exact Ed|]. split; [exact H1|]. split; [exact H2|].
  unfold set_Z, set_R, coil_R. rewrite Ek. cbn. unfold mean_point. cbn. nR. lra.
Qed.
Print Assumptions C136_same_place_refuted.
