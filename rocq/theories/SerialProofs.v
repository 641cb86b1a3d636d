(** Proofs about saving and loading. *)
From Coq Require Import String Ascii List Arith ZArith Bool Reals Lra Lia Permutation.
From Verif Require Import Py Num Numpy Coils Machine MachineSpec MachineProofs Sensors SensorsProofs Equilibrium EquilibriumProofs Serial SerialSpec.
Import ListNotations.
Local Open Scope R_scope.

(** ** Padding *)
Lemma padded_ok n (l : list R) : (length l <= n)%nat -> padded n l = Ok (l ++ repeat 0 (n - length l)).
Proof. intros Hl. unfold padded. rewrite (proj2 (Nat.leb_le _ _) Hl). reflexivity. Qed.
Lemma padded_long n (l : list R) : (n < length l)%nat -> padded n l = Raise ValueError.
Proof. intros Hl. unfold padded. rewrite (proj2 (Nat.leb_gt _ _) Hl). reflexivity. Qed.
Lemma firstn_padded {A} (l r : list A) k : k = length l -> firstn k (l ++ r) = l.
Proof. intros ->. rewrite firstn_app, Nat.sub_diag, firstn_all. cbn. apply app_nil_r. Qed.
Lemma combine_split_pairs {A B} (l : list (A * B)) : combine (map fst l) (map snd l) = l.
Proof. induction l as [|[a b] l IH]; cbn; [reflexivity|]. rewrite IH. reflexivity. Qed.

Section Coils.
  Variables (int_of : R -> nat) (fuel : nat).
  Hypothesis Hint : forall n, int_of (INR n) = n.
  Notation from := (from_numpy int_of fuel).

  Lemma point_to_numpy (c : coil R) r z : c_kind c = KPoint r z -> coil_to_numpy c = Ok (DCoil (mkcd r z (c_current c) (c_turns c) (c_control c))).
  Proof. intros E. unfold coil_to_numpy. rewrite E. reflexivity. Qed.

  Lemma shaped_round (c : coil R) shape n pts ctr I t b : c_kind c = KShaped shape n pts ctr -> (length shape <= 10)%nat ->
    c_current c = I -> c_turns c = t -> c_control c = b ->
    exists d, coil_to_numpy c = Ok d /\ from CShaped d = bind (ShapedCoil fuel shape I t b n) (fun c' => Ok (MCoil c')).
  Proof.
    intros E Hl <- <- <-. unfold coil_to_numpy. rewrite E. rewrite !padded_ok by (rewrite map_length; exact Hl). cbn [bind].
    eexists. split; [reflexivity|]. cbn [from_numpy]. rewrite !firstn_padded by (rewrite map_length; reflexivity).
    rewrite combine_split_pairs. reflexivity.
  Qed.

  Definition loaded_member (m : member R) : member R :=
    (m_label m, mkcoil (c_kind (m_coil m)) (c_current (m_coil m)) (c_turns (m_coil m)) (c_control (m_coil m)) default_area, m_mult m).
  Lemma members_to_numpy (l : list (member R)) : Forall (fun m => is_point (m_coil m)) l ->
    exists d, mapM member_to_numpy l = Ok d /\ length d = length l /\
      map (fun x => (fst (fst x), coil_of_data (snd (fst x)), snd x)) d = map loaded_member l /\
      (forall m l', l = m :: l' -> exists x d', d = x :: d' /\ snd x = m_mult m /\ d_current (snd (fst x)) = c_current (m_coil m) /\ d_control (snd (fst x)) = c_control (m_coil m)).
  Proof.
    induction l as [|m l IH]; intros HF.
    - exists []. repeat split. intros; discriminate.
    - inversion HF as [|? ? Hm HF']; subst. destruct (IH HF') as (d & Ed & Hlen & Hd & _).
      cbn [mapM]. unfold member_to_numpy at 1. unfold is_point in Hm. destruct (c_kind (m_coil m)) eqn:Ek; try contradiction.
      rewrite (point_to_numpy _ _ _ Ek). cbn [bind]. rewrite Ed. cbn [bind].
      eexists. split; [reflexivity|]. split; [cbn; rewrite Hlen; reflexivity|]. split.
      + cbn [map fst snd]. rewrite Hd. f_equal. unfold loaded_member. rewrite Ek. reflexivity.
      + intros m' l' E. injection E as <- <-. do 2 eexists. repeat split.
  Qed.

  Theorem round_trip (m : mcoil R) : savable fuel m ->
    exists d m', to_numpy m = Ok d /\ from (class_of m) d = Ok m' /\ restored m m'.
  Proof.
    destruct m as [c|ci|s]; cbn [savable to_numpy class_of].
    - destruct (c_kind c) eqn:Ek; intros HS; try contradiction.
      + rewrite (point_to_numpy _ _ _ Ek). do 2 eexists. split; [reflexivity|]. split; [reflexivity|].
        unfold restored, restored_coil. rewrite Ek. cbn. auto.
      + destruct HS as (Hl & Hs). destruct (shaped_round c _ _ _ _ _ _ _ Ek Hl eq_refl eq_refl eq_refl) as (d & E1 & E2).
        exists d, (MCoil c). split; [exact E1|]. split; [rewrite E2, Hs; reflexivity|]. unfold restored, restored_coil. destruct (c_kind c); auto.
    - intros (HP & HS & HF & H0). destruct (members_to_numpy _ HP) as (d & Ed & Hlen & Hd & Hh).
      unfold circuit_to_numpy. rewrite Ed. cbn [bind]. exists (DCircuit d).
      destruct (ci_coils ci) as [|m0 l] eqn:Ec; [contradiction|].
      destruct (Hh m0 l eq_refl) as (x & d' & -> & Hm & HI & Hb). destruct x as [[lb cd] mu]. cbn [fst snd] in *.
      eexists. split; [reflexivity|]. cbn [from_numpy]. split; [reflexivity|].
      cbn [map fst snd] in Hd. cbn [map fst snd]. rewrite Hd.
      unfold circuit_synced in HS. unfold flags_agree in HF. rewrite Ec in HS, HF.
      assert (EI : d_current cd / mu = ci_current ci).
      { rewrite HI, Hm. inversion HS as [|? ? E0 _]; subst. rewrite E0. field. exact H0. }
      assert (Eb : d_control cd = ci_control ci) by (rewrite Hb; inversion HF; subst; assumption).
      nR. rewrite EI, Eb. unfold restored, Circuit, circuit_set_control, circuit_set_current. cbn [ci_coils ci_current ci_control].
      split; [|split; reflexivity].
      change (loaded_member m0 :: map loaded_member l) with (map loaded_member (m0 :: l)). rewrite Ec. clear Ec.
      clear Hd Hh Hlen Ed H0 Hm HI Hb EI Eb. revert HP HS HF. generalize (m0 :: l). intros k HP HS HF. induction k as [|m k IH]; [constructor|].
      inversion HP as [|? ? P1 P2]; inversion HS as [|? ? S1 S2]; inversion HF as [|? ? F1 F2]; subst. constructor; [|apply IH; assumption].
      unfold restored_member, restored_coil, loaded_member, m_label, m_mult, m_coil, set_m_coil, set_control, set_current. cbn.
      unfold is_point, m_coil, m_mult in *. repeat split.
      * rewrite S1. nR. ring.
      * symmetry. exact F1.
      * destruct (c_kind (snd (fst m))); tauto.
    - intros _. unfold solenoid_to_numpy. do 2 eexists. split; [reflexivity|]. split; [reflexivity|].
      cbn. destruct s as [a b c n I k]. cbn. f_equal. nR. rewrite <- INR_IZR_INZ. apply Hint.
  Qed.

  (** The fields of a restored coil *)
  Lemma restored_coil_control G f c c' r z : restored_coil c c' -> coil_control G f c' r z = coil_control G f c r z.
  Proof. intros (Ek & _ & Et & _ & _). unfold coil_control. rewrite Ek, Et. reflexivity. Qed.
  Lemma restored_response G f m m' r z : restored m m' -> mc_current m' = mc_current m /\ mc_ctrl G f m' r z = mc_ctrl G f m r z /\ mc_control m' = mc_control m.
  Proof.
    destruct m as [c|a|s], m' as [c'|b|s']; cbn [restored]; try contradiction; intros HR; cbn [mc_current mc_ctrl mc_control].
    - assert (HR' := HR). destruct HR as (_ & E & _ & E' & _). repeat split; try assumption. apply restored_coil_control, HR'.
    - destruct HR as (HF & EI & Eb). repeat split; try assumption. rewrite !circuit_ctrl_sum.
      f_equal. clear EI Eb. induction HF as [|x y l l' (_ & Hm & Hc) HF IH]; cbn [map]; [reflexivity|].
      rewrite IH, Hm, (restored_coil_control G f _ _ r z Hc). reflexivity.
    - subst. auto.
  Qed.
End Coils.

(** ** The group of coils *)
Lemma insert_perm {V} (x : string * V) l : Permutation (insert x l) (x :: l).
Proof. induction l as [|y l IH]; cbn; [constructor; constructor|]. destruct (String.leb (fst x) (fst y)); [reflexivity|]. rewrite IH. constructor. Qed.
Lemma items_perm {V} (l : list (string * V)) : Permutation (items l) l.
Proof. induction l as [|x l IH]; cbn; [constructor|]. rewrite insert_perm. constructor. exact IH. Qed.
Lemma insert_map {V W} (F : string * V -> string * W) x l : (forall y, fst (F y) = fst y) -> insert (F x) (map F l) = map F (insert x l).
Proof. intros HF. induction l as [|y l IH]; cbn; [reflexivity|]. rewrite !HF. destruct (String.leb (fst x) (fst y)); cbn; [reflexivity|]. rewrite IH. reflexivity. Qed.
Lemma items_map {V W} (F : string * V -> string * W) l : (forall y, fst (F y) = fst y) -> items (map F l) = map F (items l).
Proof. intros HF. induction l as [|x l IH]; cbn [map]; [reflexivity|]. change (insert (F x) (items (map F l)) = map F (insert x (items l))). rewrite IH. apply insert_map, HF. Qed.
Lemma items_sorted {V} (l : list (string * V)) : alphabetical (map fst l) -> items l = l.
Proof.
  induction l as [|x l IH]; [reflexivity|]. intros (H1 & H2). change (insert x (items l) = x :: l). rewrite (IH H2).
  destruct l as [|y l]; [reflexivity|]. cbn [map] in H1. cbn [insert]. rewrite H1. reflexivity.
Qed.
(** and the result is in alphabetical order *)
Lemma leb_flip a b : String.leb a b = false -> String.leb b a = true.
Proof. intros E. destruct (String.leb_total a b) as [E'|E']; [congruence|exact E']. Qed.
Lemma insert_sorted {V} (x : string * V) l : alphabetical (map fst l) -> alphabetical (map fst (insert x l)).
Proof.
  induction l as [|y l IH]; intros HS; cbn [insert]; [cbn; auto|]. destruct (String.leb (fst x) (fst y)) eqn:E.
  - cbn [map alphabetical]. split; [exact E|exact HS].
  - cbn [map alphabetical] in HS |- *. destruct HS as (H1 & H2). split; [|apply IH, H2].
    destruct l as [|z l]; cbn [insert map]; [apply leb_flip, E|]. destruct (String.leb (fst x) (fst z)); cbn [map]; [apply leb_flip, E|exact H1].
Qed.
Lemma items_alphabetical {V} (l : list (string * V)) : alphabetical (map fst (items l)).
Proof. induction l as [|x l IH]; cbn; [exact I|]. apply insert_sorted, IH. Qed.

Lemma plain_slash s : ~ In "/"%char (list_ascii_of_string s) -> has_slash s = false /\ before_slash s = s.
Proof.
  unfold has_slash. induction s as [|a s IH]; cbn [list_ascii_of_string existsb before_slash]; intros Hn; [auto|].
  destruct (IH (fun H => Hn (or_intror H))) as (E1 & E2). rewrite E1, E2.
  assert (Ea : a <> slash) by (intros ->; apply Hn; left; reflexivity).
  split.
  - rewrite orb_false_r. apply Ascii.eqb_neq. congruence.
  - rewrite (proj2 (Ascii.eqb_neq a slash) Ea). reflexivity.
Qed.
Lemma plain_create (g : list (string * entry R)) label k d : plain label ->
  create g label k d = match dict_get g label with None => Ok (g ++ [(label, EData k d)])%list | Some _ => Raise ValueError end.
Proof.
  intros (H1 & H2 & H3). destruct (plain_slash _ H3) as (E1 & E2). unfold create. rewrite E1, E2.
  rewrite (proj2 (String.eqb_neq _ _) H1), (proj2 (String.eqb_neq _ _) H2). reflexivity.
Qed.
Lemma dict_get_none {V} (d : list (string * V)) k : ~ In k (map fst d) <-> dict_get d k = None.
Proof.
  induction d as [|[k' v] d IH]; cbn; [tauto|]. destruct (String.eqb_spec k' k) as [->|Hk].
  - split; [intros H; exfalso; apply H; left; reflexivity|discriminate].
  - rewrite <- IH. tauto.
Qed.

Section Group.
  Variables (int_of : R -> nat) (fuel : nat).
  Hypothesis Hint : forall n, int_of (INR n) = n.
  Definition data (m : mcoil R) : dataset R := match to_numpy m with Ok d => d | Raise _ => DCircuit [] end.
  Definition put (lm : string * mcoil R) : string * entry R := (fst lm, EData (class_of (snd lm)) (data (snd lm))).
  Lemma savable_type m : savable fuel m -> has_type (class_of m) = true.
  Proof. destruct m as [c|ci|s]; cbn; auto. destruct (c_kind c); cbn; tauto. Qed.

  Lemma write_coils_from (M : machine R) : forall g, Forall (fun lm => savable fuel (snd lm) /\ plain (fst lm)) M -> NoDup (map fst g ++ map fst M) ->
    foldM (fun g lm => if has_type (class_of (snd lm)) then bind (to_numpy (snd lm)) (fun d => create g (fst lm) (class_of (snd lm)) d) else Raise ValueError) M g
    = Ok (g ++ map put M)%list.
  Proof.
    induction M as [|[lb m] M IH]; intros g HF HN; cbn [foldM map]; [rewrite app_nil_r; reflexivity|].
    inversion HF as [|? ? [Hs Hp] HF']; subst. cbn [fst snd] in *. rewrite (savable_type _ Hs).
    destruct (round_trip int_of fuel Hint m Hs) as (d & m' & Ed & _). rewrite Ed. cbn [bind]. rewrite plain_create by exact Hp.
    cbn [map fst] in HN. assert (Hg := NoDup_remove_2 _ _ _ HN).
    rewrite (proj1 (dict_get_none g lb)) by (intros Hin; apply Hg, in_or_app; left; exact Hin). cbn [bind].
    rewrite IH; [|exact HF'|].
    - rewrite <- app_assoc. cbn [app]. unfold put at 2. cbn [fst snd]. unfold data. rewrite Ed. reflexivity.
    - rewrite map_app. cbn [map fst]. rewrite <- app_assoc. exact HN.
  Qed.
  Lemma write_coils_ok (M : machine R) : Forall (fun lm => savable fuel (snd lm) /\ plain (fst lm)) M -> NoDup (map fst M) ->
    write_coils M = Ok (map put M).
  Proof. intros HF HN. unfold write_coils. rewrite write_coils_from by assumption. reflexivity. Qed.

  Definition back (m : mcoil R) : mcoil R := match from_numpy int_of fuel (class_of m) (data m) with Ok m' => m' | Raise _ => m end.
  Lemma back_restored m : savable fuel m -> from_numpy int_of fuel (class_of m) (data m) = Ok (back m) /\ restored m (back m).
  Proof.
    intros Hs. destruct (round_trip int_of fuel Hint m Hs) as (d & m' & Ed & Em & HR). unfold back, data. rewrite Ed, Em. auto.
  Qed.
  Lemma read_coils_ok (M : machine R) : Forall (fun lm => savable fuel (snd lm)) M ->
    read_coils int_of fuel (map put M) = Ok (map (fun lm => (fst lm, back (snd lm))) (items M)).
  Proof.
    intros HF. unfold read_coils. rewrite items_map by reflexivity.
    assert (HF' : Forall (fun lm => savable fuel (snd lm)) (items M)) by (rewrite Forall_forall in *; intros x Hx; apply HF, (Permutation_in _ (items_perm M)), Hx).
    induction (items M) as [|[lb m] l IH]; cbn [map mapM]; [reflexivity|]. inversion HF' as [|? ? Hs HF2]; subst. cbn [snd fst] in *.
    cbn [put fst snd]. destruct (back_restored m Hs) as (E & _). rewrite E. cbn [bind]. rewrite (IH HF2). reflexivity.
  Qed.
  Lemma restored_back (M : machine R) : Forall (fun lm => savable fuel (snd lm)) M ->
    Forall2 (fun a b => fst b = fst a /\ restored (snd a) (snd b)) M (map (fun lm => (fst lm, back (snd lm))) M).
  Proof.
    induction 1 as [|[lb m] M Hs HF IH]; cbn [map]; constructor; [|exact IH]. cbn. split; [reflexivity|]. apply back_restored, Hs.
  Qed.
End Group.

Lemma lsum_perm {A} (f : A -> R) l l' : Permutation l l' -> lsum (map f l) = lsum (map f l').
Proof.
  induction 1 as [|x l l' HP IH|x y l|l1 l2 l3 H1 IH1 H2 IH2]; cbn [map]; rewrite ?lsum_cons.
  - reflexivity.
  - rewrite IH. reflexivity.
  - lra.
  - congruence.
Qed.
Lemma restored_field G f (M M' l : machine R) r z : Permutation l M' -> Forall2 (fun a b => fst b = fst a /\ restored (snd a) (snd b)) M l ->
  response_sum G f M' r z = response_sum G f M r z.
Proof.
  intros HP HF. unfold response_sum. rewrite <- (lsum_perm _ _ _ HP). clear HP. induction HF as [|x y M l (_ & HR) HF IH]; cbn [map]; [reflexivity|].
  rewrite !lsum_cons, IH. destruct (restored_response G f _ _ r z HR) as (E1 & E2 & _). rewrite E1, E2. reflexivity.
Qed.
Lemma NoDup_app_single {A} (l : list A) a : NoDup l -> ~ In a l -> NoDup (l ++ [a]).
Proof.
  induction l as [|b l IH]; cbn [app]; intros HN Hi; [repeat constructor; intros []|]. inversion HN; subst. constructor.
  - intros Hin. apply in_app_or in Hin. destruct Hin as [Hin|[->|[]]]; [contradiction|]. apply Hi. left. reflexivity.
  - apply IH; [assumption|]. intros Hin. apply Hi. right. exact Hin.
Qed.
