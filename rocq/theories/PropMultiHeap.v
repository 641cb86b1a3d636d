(** Moving multi-filament coils that share lists with their caller or with each other. *)
From Coq Require Import List Arith ZArith Bool Reals Lra Lia.
From Verif Require Import Py Num Numpy Coils MultiHeap.
Import ListNotations.
Local Open Scope R_scope.

(** lists and float arrays hold any number *)
Definition holds_floats (c : cell R) : Prop := match c with PyList _ | FloatArray _ => True | _ => False end.
(** no list in common *)
Definition separate (o o' : mobj R) : Prop :=
  mo_Rfil o <> mo_Rfil o' /\ mo_Rfil o <> mo_Zfil o' /\ mo_Zfil o <> mo_Rfil o' /\ mo_Zfil o <> mo_Zfil o'.
Definition own_lists (h : heap R) (o : mobj R) : Prop :=
  mo_Rfil o <> mo_Zfil o /\ (mo_Rfil o < length h)%nat /\ (mo_Zfil o < length h)%nat /\
  holds_floats (deref h (mo_Rfil o)) /\ holds_floats (deref h (mo_Zfil o)).

Lemma deref_store : forall (h : heap R) a c, (a < length h)%nat -> deref (store h a c) a = c.
Proof. unfold deref. induction h as [|x h IH]; intros [|a] c H; cbn in *; try lia; [reflexivity|]. apply IH. lia. Qed.
Lemma deref_other : forall (h : heap R) a b c, a <> b -> deref (store h a c) b = deref h b.
Proof. unfold deref. induction h as [|x h IH]; intros [|a] [|b] c H; cbn; try reflexivity; try congruence. apply IH. congruence. Qed.
Lemma store_length : forall (h : heap R) a c, length (store h a c) = length h.
Proof. induction h as [|x h IH]; intros [|a] c; cbn; auto. Qed.
Lemma shift_floats trunc c s : holds_floats c -> exists c', shift_cell trunc c s = Ok c' /\ holds_floats c' /\ values c' = map (fun x => x + s) (values c).
Proof. destruct c; cbn; try contradiction; intros _; eexists; split; reflexivity || (split; reflexivity || exact I). Qed.

(** ** C134 *)
(** A coil with lists or float arrays of its own moves as the model of coils by value says, and
    coils with other lists stay. *)
Theorem C134_move_R : forall trunc (h : heap R) o r, own_lists h o ->
  exists h' o', heap_set_R trunc h o r = Ok (h', o') /\ contents h' o' = set_R (contents h o) r /\ own_lists h' o' /\
  (forall q, separate o q -> contents h' q = contents h q).
Proof.
  intros trunc h o r (Hrz & H1 & H2 & F1 & F2). unfold heap_set_R.
  destruct (shift_floats trunc _ (r - fst (mo_centre o)) F1) as (c & E & Fc & V). nR. rewrite E. cbn [bind]. eexists. eexists. split; [reflexivity|].
  split; [|split].
  - unfold contents, set_R, with_kind. cbn [mo_Rfil mo_Zfil mo_centre mo_mirror mo_polarity mo_current mo_turns mo_control mo_area c_kind c_current c_turns c_control c_area].
    rewrite deref_store, deref_other, V by assumption. destruct (mo_centre o) as [rc zc]. reflexivity.
  - unfold own_lists. cbn [mo_Rfil mo_Zfil]. rewrite store_length, deref_store, deref_other by assumption. auto.
  - intros q (N1 & N2 & N3 & N4). unfold contents. rewrite !deref_other by assumption. reflexivity.
Qed.
Print Assumptions C134_move_R.
Theorem C134_move_Z : forall trunc (h : heap R) o z, own_lists h o ->
  exists h' o', heap_set_Z trunc h o z = Ok (h', o') /\ contents h' o' = set_Z (contents h o) z /\ own_lists h' o' /\
  (forall q, separate o q -> contents h' q = contents h q).
Proof.
  intros trunc h o z (Hrz & H1 & H2 & F1 & F2). unfold heap_set_Z.
  destruct (shift_floats trunc _ (z - snd (mo_centre o)) F2) as (c & E & Fc & V). nR. rewrite E. cbn [bind]. eexists. eexists. split; [reflexivity|].
  assert (Hzr : mo_Zfil o <> mo_Rfil o) by congruence. split; [|split].
  - unfold contents, set_Z, with_kind. cbn [mo_Rfil mo_Zfil mo_centre mo_mirror mo_polarity mo_current mo_turns mo_control mo_area c_kind c_current c_turns c_control c_area].
    rewrite deref_store, deref_other, V by assumption. destruct (mo_centre o) as [rc zc]. reflexivity.
  - unfold own_lists. cbn [mo_Rfil mo_Zfil]. rewrite store_length, deref_store, deref_other by assumption. auto.
  - intros q (N1 & N2 & N3 & N4). unfold contents. rewrite !deref_other by assumption. reflexivity.
Qed.
Print Assumptions C134_move_Z.
(** The constructor needs lists of the same length; it keeps them and takes their means as the centre. *)
Theorem C134_new : forall (h : heap R) a b I ctl mirror pol area,
  (length (values (deref h a)) = length (values (deref h b)) -> exists o, new_multi h a b I ctl mirror pol area = Ok o /\ mo_Rfil o = a /\ mo_Zfil o = b /\
    contents h o = mkcoil (KMulti (values (deref h a)) (values (deref h b)) mirror pol (lmean (values (deref h a)), lmean (values (deref h b)))) I
      (Z.of_nat (length (values (deref h b)))) ctl area) /\
  (length (values (deref h a)) <> length (values (deref h b)) -> new_multi h a b I ctl mirror pol area = Raise AssertionError).
Proof.
  intros. unfold new_multi. destruct (Nat.eqb_spec (length (values (deref h a))) (length (values (deref h b)))) as [E|E]; split; intros H; try congruence.
  eexists. split; [reflexivity|]. split; [reflexivity|]. split; [reflexivity|]. unfold contents. cbn. rewrite E. reflexivity.
Qed.
Print Assumptions C134_new.
Definition mh0 : heap R := [PyList [1; 3]; PyList [0; 1]; FloatArray [4; 6]; FloatArray [2; 2]].
Definition mo (a b : nat) (r z : R) : mobj R := mkmobj a b (r, z) false (1, 1) 5 2 true (AFixed 1).
Example C134_example : own_lists mh0 (mo 0 1 2 (1 / 2)) /\ separate (mo 0 1 2 (1 / 2)) (mo 2 3 5 2) /\
  new_multi mh0 2 3 5 true false (1, 1) (AFixed 1) = Ok (mkmobj 2 3 (lmean [4; 6], lmean [2; 2]) false (1, 1) 5 2 true (AFixed 1)).
Proof. split; [repeat split; cbn; lia || discriminate|]. split; [repeat split; cbn; discriminate|reflexivity]. Qed.
(** Two coils made from the same list: moving one moves the filaments of the other, whose centre
    stays. *)
Theorem C134_shared_list : forall trunc (h : heap R) o q r, own_lists h o -> mo_Rfil q = mo_Rfil o -> mo_Zfil q <> mo_Rfil o ->
  exists h' o', heap_set_R trunc h o r = Ok (h', o') /\ coil_R (contents h' q) = coil_R (contents h q) /\
  values (deref h' (mo_Rfil q)) = map (fun x => x + (r - fst (mo_centre o))) (values (deref h (mo_Rfil q))).
Proof.
  intros trunc h o q r (Hrz & H1 & H2 & F1 & F2) E1 E2. unfold heap_set_R.
  destruct (shift_floats trunc _ (r - fst (mo_centre o)) F1) as (c & E & Fc & V). nR. rewrite E. cbn [bind]. eexists. eexists. split; [reflexivity|].
  split; [reflexivity|]. rewrite E1, deref_store, V by assumption. reflexivity.
Qed.
Print Assumptions C134_shared_list.
Theorem C134_moves_alone_refuted : exists (h h' : heap R) o q o' trunc G,
  new_multi h 0 1 5 true false (1, 1) (AFixed 1) = Ok o /\ new_multi h 0 2 5 true false (1, 1) (AFixed 1) = Ok q /\
  heap_set_R trunc h o 7 = Ok (h', o') /\
  coil_field G FPsi (contents h' q) 1 0 <> coil_field G FPsi (contents h q) 1 0 /\ coil_R (contents h' q) = coil_R (contents h q).
Proof.
  exists [PyList [1; 3]; PyList [0; 1]; PyList [4; 5]]. eexists. eexists. eexists. eexists. exists (fun _ => 0%Z), (fun _ rc _ _ _ => rc).
  split; [reflexivity|]. split; [reflexivity|]. split; [reflexivity|]. split; [|reflexivity].
  unfold coil_field, coil_control, contents, deref. cbn. nR. unfold lmean, lsum. cbn. nR. lra.
Qed.
Print Assumptions C134_moves_alone_refuted.
(** Coils made from tuples cannot be moved; integer arrays take whole steps only: here a coil
    moved by half a metre has the new centre and the old filaments. *)
Theorem C134_other_sequences_refuted : exists (h h' : heap R) o q q' trunc,
  new_multi h 0 0 5 true false (1, 1) (AFixed 1) = Ok o /\ heap_set_R trunc h o 7 = Raise TypeError /\
  new_multi h 1 2 5 true false (1, 1) (AFixed 1) = Ok q /\ heap_set_R trunc h q (5 / 2) = Ok (h', q') /\
  coil_R (contents h' q') = 5 / 2 /\ values (deref h' (mo_Rfil q')) = [1; 3] /\
  (forall x, 0 <= x -> IZR (trunc x) <= x < IZR (trunc x) + 1).
Proof.
  set (tr := fun x : R => (up x - 1)%Z).
  assert (T : forall x k, IZR k <= x < IZR k + 1 -> tr x = k).
  { intros x k Hk. unfold tr. rewrite <- (tech_up x (k + 1)); [lia| |]; rewrite plus_IZR; lra. }
  exists [PyTuple [1; 3]; IntArray [1; 3]%Z; PyList [0; 1]]. eexists. eexists. eexists. eexists. exists tr.
  split; [reflexivity|]. split; [reflexivity|]. split; [reflexivity|]. split; [reflexivity|]. split; [reflexivity|]. split.
  - unfold deref. cbn. nR. unfold lmean, lsum. cbn. nR.
    rewrite (T _ 1%Z), (T _ 3%Z) by lra. reflexivity.
  - intros x Hx. unfold tr. destruct (archimed x) as [A B]. rewrite minus_IZR. lra.
Qed.
Print Assumptions C134_other_sequences_refuted.
