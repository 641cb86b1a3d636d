(** Proofs about the predefined machines. *)
From Coq Require Import List Arith ZArith Bool String Reals Lra Lia Permutation.
From Verif Require Import Py Num Numpy Coils GradShafranov GradShafranovProofs Machine MachineSpec MachineProofs MovingProofs Machines MachinesSpec.
Import ListNotations.
Local Open Scope R_scope.
Local Open Scope string_scope.
Local Open Scope list_scope.

Lemma kernel_mirror ellipk ellipe : mirror_kernel (green_kernel ellipk ellipe).
Proof.
  intros f rc zc r z. destruct f; cbn [green_kernel parity].
  - rewrite Greens_even. ring.
  - unfold GreensBr. replace (- z - eps_default) with (- (z + eps_default)) by ring. replace (- z + eps_default) with (- (z - eps_default)) by ring.
    rewrite !Greens_even. unfold Rdiv. ring.
  - unfold GreensBz. rewrite !Greens_even. ring.
Qed.

Section Mirror.
  Variable G : field -> R -> R -> R -> R -> R.
  Hypothesis HG : mirror_kernel G.
  Local Notation ctrl := (coil_control G).
  Local Notation mctrl := (mc_ctrl G).

  Lemma kernel_swap f rc zc r z : G f rc zc r (- z) = parity f * G f rc (- zc) r z.
  Proof. rewrite <- HG, Ropp_involutive. reflexivity. Qed.

  (** two coils which are images of each other *)
  Definition images (c d : coil R) : Prop := forall f r z, ctrl f c r (- z) = parity f * ctrl f d r z.
  Lemma loop_images R0 Z0 Z1 t : Z1 = - Z0 -> images (loop R0 Z0 t) (loop R0 Z1 t).
  Proof. intros -> f r z. unfold coil_control, loop, Coil. cbn [c_kind c_turns]. nR. rewrite kernel_swap. ring. Qed.
  Lemma fold_G_sum f r z (l : list (R * R)) acc :
    fold_left (fun result p => result + G f (fst p) (snd p) r z) l acc = acc + lsum (map (fun p => G f (fst p) (snd p) r z) l).
  Proof. apply (fold_left_sum (fun p => G f (fst p) (snd p) r z)). Qed.
  Lemma strands_inv Rf Zf (c : coil R) : strands Rf Zf = Ok c ->
    c_turns c = 1%Z /\ exists s ctr, c_kind c = KFilament s (combine Rf Zf) (List.length Rf) ctr.
  Proof.
    unfold strands, FilamentCoil. destruct Rf as [|r Rf]; [discriminate|]. destruct Zf as [|z Zf]; [discriminate|]. cbn [bind List.length Nat.ltb Nat.leb].
    intros E. injection E as <-. split; [reflexivity|]. cbn [c_kind]. eexists. eexists. reflexivity.
  Qed.
  Lemma strands_ok (Rf Zf : list R) : Rf <> [] -> Zf <> [] -> exists c, strands Rf Zf = Ok c.
  Proof.
    intros Hr Hz. unfold strands, FilamentCoil. destruct Rf as [|r Rf]; [congruence|]. destruct Zf as [|z Zf]; [congruence|].
    cbn [bind List.length Nat.ltb Nat.leb]. eexists. reflexivity.
  Qed.
  Lemma strands_images Rf Zf c d : strands Rf Zf = Ok c -> strands Rf (map (fun x => nmul x (nofZ (-1))) Zf) = Ok d -> images c d /\ images d c.
  Proof.
    intros Ec Ed. apply strands_inv in Ec, Ed. destruct Ec as (Tc & s & ctr & Kc), Ed as (Td & s' & ctr' & Kd).
    assert (E : forall f r z, lsum (map (fun p => G f (fst p) (snd p) r (- z)) (combine Rf Zf)) =
      parity f * lsum (map (fun p => G f (fst p) (snd p) r z) (combine Rf (map (fun x => nmul x (nofZ (-1))) Zf)))).
    { intros f r z. rewrite combine_map_r, map_map, <- lsum_scal. apply lsum_ext. intros p _. cbn [fst snd]. nR.
      rewrite kernel_swap. do 2 f_equal. ring. }
    split; intros f r z; unfold coil_control; rewrite Kc, Kd, Tc, Td; nR; rewrite !fold_G_sum.
    - rewrite E. unfold Rdiv. ring.
    - assert (E' := E f r (- z)). rewrite Ropp_involutive in E'. rewrite E'.
      destruct f; cbn [parity]; unfold Rdiv; ring.
  Qed.

  (** entries of a machine: even, odd *)
  Definition entry_parity (s : R) (m : mcoil R) : Prop := forall f r z, mctrl f m r (- z) = s * parity f * mctrl f m r z.
  Lemma series_ctrl f l1 c l2 d s r z : mctrl f (series l1 c l2 d s) r z = ctrl f c r z + s * ctrl f d r z.
  Proof.
    unfold series, Circuit. cbn [mc_ctrl]. rewrite circuit_ctrl_sum. unfold circuit_set_control, circuit_set_current. cbn [ci_coils map].
    rewrite !lsum_cons, lsum_nil. unfold m_mult, m_coil. cbn [fst snd]. nR. unfold coil_control. cbn. ring.
  Qed.
  Lemma series_even l1 c l2 d : images c d -> images d c -> entry_parity 1 (series l1 c l2 d 1).
  Proof. intros Hc Hd f r z. rewrite !series_ctrl, Hc, Hd. ring. Qed.
  Lemma series_odd l1 c l2 d : images c d -> images d c -> entry_parity (-1) (series l1 c l2 d (-1)).
  Proof. intros Hc Hd f r z. rewrite !series_ctrl, Hc, Hd. ring. Qed.
  Lemma lsum_seq_rev (g : nat -> R) n : lsum (map g (seq 0 n)) = lsum (map (fun i => g (n - 1 - i)%nat) (seq 0 n)).
  Proof.
    assert (P : Permutation (map (fun i => (n - 1 - i)%nat) (seq 0 n)) (seq 0 n)).
    { apply NoDup_Permutation.
      - apply (proj2 (NoDup_nth _ 0%nat)). rewrite map_length, seq_length. intros i j Hi Hj.
        rewrite !(nth_indep _ 0%nat (n - 1 - 0)%nat) by (rewrite map_length, seq_length; assumption).
        rewrite !(map_nth (fun i => (n - 1 - i)%nat)), !seq_nth by assumption. lia.
      - apply seq_NoDup.
      - intros x. rewrite in_map_iff, in_seq. split.
        + intros (i & <- & Hi). apply in_seq in Hi. lia.
        + intros Hx. exists (n - 1 - x)%nat. rewrite in_seq. lia. }
    assert (E : forall l l' : list nat, Permutation l l' -> lsum (map g l) = lsum (map g l')).
    { intros l l' HP. induction HP; cbn [map]; rewrite ?lsum_cons; lra. }
    rewrite <- (E _ _ P), map_map. reflexivity.
  Qed.
  Lemma solenoid_even Rs Zs Ze Ns b : Ze = - Zs -> Ns <> 1%nat -> entry_parity 1 (MSolenoid (mksol Rs Zs Ze Ns 0 b)).
  Proof.
    intros -> Hn f r z. cbn [mc_ctrl]. rewrite !sol_ctrl_sum. cbn [s_Ns s_Rs s_Zsmin s_Zsmax]. rewrite !map_map.
    rewrite (lsum_seq_rev (fun i => G f Rs (linspace Zs (- Zs) Ns i) r z)), <- lsum_scal. apply lsum_ext.
    intros i Hi. apply in_seq in Hi. rewrite kernel_swap, Rmult_1_l. f_equal. f_equal. rewrite !linspace_R.
    rewrite (minus_INR (Ns - 1) i) by lia. field. apply not_0_INR. lia.
  Qed.
  Lemma winding_images Rs Zs Ze Ns : Ze = - Zs -> Ns <> 1%nat -> images (winding Rs Zs Ze Ns) (winding Rs Zs Ze Ns).
  Proof.
    intros -> Hn f r z. unfold coil_control, winding. cbn [c_kind c_turns]. nR. rewrite !fold_G_sum, !map_map. cbn [fst snd].
    rewrite (lsum_seq_rev (fun i => G f Rs (linspace Zs (- Zs) Ns i) r z)).
    rewrite (lsum_ext (fun i => G f Rs (linspace Zs (- Zs) Ns i) r (- z)) (fun i => parity f * G f Rs (linspace Zs (- Zs) Ns (Ns - 1 - i)) r z)).
    - rewrite lsum_scal. unfold Rdiv. ring.
    - intros i Hi. apply in_seq in Hi. rewrite kernel_swap. f_equal. f_equal. rewrite !linspace_R.
      rewrite (minus_INR (Ns - 1) i) by lia. field. apply not_0_INR. lia.
  Qed.
  Lemma Circuit_ctrl f (l : list (member R)) I b r z :
    mctrl f (MCircuit (Circuit l I b)) r z = lsum (map (fun m => m_mult m * ctrl f (m_coil m) r z) l).
  Proof.
    cbn [mc_ctrl]. rewrite circuit_ctrl_sum. unfold Circuit, circuit_set_control, circuit_set_current. cbn [ci_coils]. rewrite !map_map.
    apply lsum_ext. intros m _. reflexivity.
  Qed.
End Mirror.

(** ** Machines *)
Lemma powered_field G f I (M : machine R) r z :
  fst (machine_field G f (powered I M) r z) = lsum (map (fun lm => I (fst lm) * mc_ctrl G f (snd lm) r z) M).
Proof.
  rewrite machine_field_eq. cbn [fst]. unfold response_sum, powered. rewrite map_map. cbn [fst snd]. apply lsum_ext. intros lm _.
  rewrite mc_set_current_current, mc_set_current_ctrl. reflexivity.
Qed.
(** It is enough to know the parity of the sum. *)
Lemma symmetric_of I (M : machine R) : (forall G, mirror_kernel G -> forall f r z,
    lsum (map (fun lm => I (fst lm) * mc_ctrl G f (snd lm) r (- z)) M) = parity f * lsum (map (fun lm => I (fst lm) * mc_ctrl G f (snd lm) r z) M)) ->
  symmetric (powered I M).
Proof.
  intros H ellipk ellipe r z B. unfold B, coils_field. rewrite !powered_field, !(H _ (kernel_mirror ellipk ellipe)). cbn [parity]. repeat split; ring.
Qed.
Lemma antisymmetric_of I (M : machine R) : (forall G, mirror_kernel G -> forall f r z,
    lsum (map (fun lm => I (fst lm) * mc_ctrl G f (snd lm) r (- z)) M) = - parity f * lsum (map (fun lm => I (fst lm) * mc_ctrl G f (snd lm) r z) M)) ->
  antisymmetric (powered I M).
Proof.
  intros H ellipk ellipe r z B. unfold B, coils_field. rewrite !powered_field, !(H _ (kernel_mirror ellipk ellipe)). cbn [parity]. repeat split; ring.
Qed.
(** Every entry with current has the parity [s]. *)
Lemma entries_parity G s I (M : machine R) : Forall (fun lm => I (fst lm) = 0 \/ entry_parity G s (snd lm)) M -> forall f r z,
  lsum (map (fun lm => I (fst lm) * mc_ctrl G f (snd lm) r (- z)) M) = s * parity f * lsum (map (fun lm => I (fst lm) * mc_ctrl G f (snd lm) r z) M).
Proof.
  intros F f r z. rewrite <- lsum_scal. apply lsum_ext. intros lm Hlm. rewrite Forall_forall in F. destruct (F lm Hlm) as [E|E].
  - rewrite E. ring.
  - rewrite E. ring.
Qed.
Lemma dec_opp m e : dec (T := R) (- m) e = - dec m e.
Proof. unfold dec. nR. rewrite opp_IZR. unfold Rdiv. ring. Qed.
