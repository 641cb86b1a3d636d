(** C198: the control system keeps up-down symmetry. *)
From Coq Require Import String List Arith ZArith Bool Reals Lra Lia Permutation.
From Verif Require Import Py Num Numpy Coils Machine MachineSpec MachineProofs Control ControlSpec ControlProofs PropControl Machines MachinesSpec MachinesProofs PropMachines.
Import ListNotations.
Local Open Scope R_scope.

(** ** What the statements mean *)
Definition flipz (p : R * R) : R * R := (fst p, - snd p).
(** A field (of the plasma, or of the coils) with up-down symmetry *)
Definition mirror_field (B : field -> R -> R -> R) : Prop := forall f r z, B f r (- z) = parity f * B f r z.
(** [pi] pairs the controls of the machine: the field of one is the mirror image of the field of the other, with the sign [sg].
    A control may be its own image. *)
Definition mirrored_controls (G : field -> R -> R -> R -> R -> R) (M : machine R) (pi : nat -> nat) (sg : nat -> R) : Prop :=
  forall i, (i < length (controlCurrents M))%nat -> (pi i < length (controlCurrents M))%nat /\ pi (pi i) = i /\ (sg i = 1 \/ sg i = -1) /\ sg (pi i) = sg i /\
    forall f r z, nth (pi i) (machine_control G f M r z) 0 = sg i * parity f * nth i (machine_control G f M r (- z)) 0.
(** The mirror images of the constraints are constraints; the ends of an isoflux pair may be exchanged. *)
Definition mirrored_constraints (c : constraints R) : Prop :=
  Permutation (map flipz (xpoints c)) (xpoints c) /\
  (exists l, Forall2 (fun i j => j = (flipz (fst i), flipz (snd i)) \/ j = (flipz (snd i), flipz (fst i))) (isoflux c) l /\ Permutation l (isoflux c)) /\
  Permutation (map (fun p => (flipz (fst p), snd p)) (psivals c)) (psivals c).

(** ** Proofs *)
Lemma sum_perm {A} (f : A -> R) l l' : Permutation l l' -> lsum (map f l) = lsum (map f l').
Proof. intros H. induction H; cbn [map]; rewrite ?lsum_cons; lra. Qed.
Lemma dot_seq : forall a x, length a = length x -> dot a x = lsum (map (fun i => nth i a 0 * nth i x 0) (seq 0 (length x))).
Proof.
  unfold dot. induction a as [|u a IH]; intros [|v x] Hl; try discriminate; [reflexivity|]. injection Hl as Hl.
  cbn [combine map length seq fst snd]. rewrite <- seq_shift, map_map, !lsum_cons. cbn [nth]. rewrite IH by exact Hl. reflexivity.
Qed.
Lemma map_NoDup {A B} (f : A -> B) : forall l, (forall a b, In a l -> In b l -> f a = f b -> a = b) -> NoDup l -> NoDup (map f l).
Proof.
  induction l as [|a l IH]; intros Hf Hn; [constructor|]. inversion Hn as [|? ? Ha Hl]; subst. constructor.
  - intros Hin. apply in_map_iff in Hin. destruct Hin as (b & E & Hb). apply Ha. rewrite <- (Hf b a (or_intror Hb) (or_introl eq_refl) E). exact Hb.
  - apply IH; [|exact Hl]. intros x y Hx Hy. apply Hf; right; assumption.
Qed.
Lemma control_length G f M r z : length (machine_control G f M r z) = length (controlCurrents M).
Proof. unfold machine_control, controlCurrents. rewrite !map_length. reflexivity. Qed.
Lemma parity_sq f : parity f * parity f = 1. Proof. destruct f; cbn; ring. Qed.
Section Swap.
  Variables (n : nat) (pi : nat -> nat).
  Hypothesis Hpi : forall i, (i < n)%nat -> (pi i < n)%nat /\ pi (pi i) = i.
  Lemma pi_perm : Permutation (map pi (seq 0 n)) (seq 0 n).
  Proof using Hpi.
    apply NoDup_Permutation.
    - apply map_NoDup; [|apply seq_NoDup]. intros i j Hi Hj E. apply in_seq in Hi, Hj.
      assert (Hi' : (i < n)%nat) by lia. assert (Hj' : (j < n)%nat) by lia.
      rewrite <- (proj2 (Hpi i Hi')), <- (proj2 (Hpi j Hj')), E. reflexivity.
    - apply seq_NoDup.
    - intros i. rewrite in_map_iff, in_seq. split.
      + intros (j & <- & Hj). apply in_seq in Hj. assert (H := proj1 (Hpi j ltac:(lia))). lia.
      + intros Hi. exists (pi i). assert (H := Hpi i ltac:(lia)). split; [apply H|]. apply in_seq. lia.
  Qed.
  Lemma sum_pi (g : nat -> R) : lsum (map (fun i => g (pi i)) (seq 0 n)) = lsum (map g (seq 0 n)).
  Proof using Hpi. rewrite <- (map_map pi g). apply sum_perm, pi_perm. Qed.
  Variable sg : nat -> R.
  Definition swapped (x : list R) : list R := map (fun i => sg i * nth (pi i) x 0) (seq 0 n).
  Lemma swapped_length x : length (swapped x) = n. Proof. unfold swapped. rewrite map_length, seq_length. reflexivity. Qed.
  Lemma swapped_nth x i : (i < n)%nat -> nth i (swapped x) 0 = sg i * nth (pi i) x 0.
  Proof. intros Hi. unfold swapped. rewrite (nth_indep _ 0 (sg 0%nat * nth (pi 0%nat) x 0)) by (rewrite map_length, seq_length; exact Hi). rewrite (map_nth (fun i => sg i * nth (pi i) x 0)), seq_nth by exact Hi. reflexivity. Qed.
End Swap.
Section Mirror.
  Variables (G : field -> R -> R -> R -> R -> R) (P : field -> R -> R -> R) (c : constraints R) (M : machine R) (pi : nat -> nat) (sg : nat -> R).
  Hypothesis HM : mirrored_controls G M pi sg.
  Hypothesis HG : mirror_field (fun f => response_sum G f M).
  Local Notation n := (length (controlCurrents M)).
  Let Hpi : forall i, (i < n)%nat -> (pi i < n)%nat /\ pi (pi i) = i.
  Proof. intros i Hi. destruct (HM i Hi) as (A & B & _). split; assumption. Qed.
  Lemma dot_swapped f r z x : length x = n -> dot (machine_control G f M r z) (swapped n pi sg x) = parity f * dot (machine_control G f M r (- z)) x.
  Proof using HM.
    intros Hx. rewrite !dot_seq by (rewrite control_length, ?swapped_length; congruence). rewrite swapped_length, Hx, <- lsum_scal.
    rewrite <- (sum_pi n pi Hpi). apply lsum_ext. intros i Hi. apply in_seq in Hi. assert (Hi' : (i < n)%nat) by lia.
    rewrite swapped_nth by apply Hpi, Hi'. destruct (HM i Hi') as (_ & -> & Hs & -> & ->).
    destruct Hs as [-> | ->]; ring.
  Qed.
  Lemma total_swapped f r z x : mirror_field P -> length x = n -> total G P f (controlAdjust M (swapped n pi sg x)) r z = parity f * total G P f (controlAdjust M x) r (- z).
  Proof using HM HG.
    intros HP Hx. rewrite !adjust_total by (rewrite ?swapped_length; congruence). rewrite dot_swapped by exact Hx. unfold total. rewrite (HP f r z), (HG f r z).
    assert (S := parity_sq f). transitivity (parity f * parity f * (P f r z + response_sum G f M r z) + parity f * dot (machine_control G f M r (- z)) x); [rewrite S; ring|ring].
  Qed.
  Lemma cost_swapped x : mirror_field P -> mirrored_constraints c -> length x = n -> cost G P c M (swapped n pi sg x) = cost G P c M x.
  Proof using HM HG.
    intros HP (C1 & (l & C2 & C2') & C3) Hx. unfold cost. f_equal.
    - unfold residuals. rewrite !map_app, !lsum_app, !map_map. f_equal; [|f_equal].
      + assert (F : forall (t : field -> R * R -> R) l, lsum (map (fun v => v ^ 2) (flat_map (fun x => [t FBr x; t FBz x]) l)) = lsum (map (fun x => t FBr x ^ 2 + t FBz x ^ 2) l)).
        { intros t l'. induction l' as [|p l' IH]; [reflexivity|]. cbn [flat_map app map]. rewrite !lsum_cons, IH. ring. }
        rewrite (F (fun f x0 => total G P f (controlAdjust M (swapped n pi sg x)) (fst x0) (snd x0))), (F (fun f x0 => total G P f (controlAdjust M x) (fst x0) (snd x0))).
        rewrite <- (sum_perm (fun x0 => total G P FBr (controlAdjust M x) (fst x0) (snd x0) ^ 2 + total G P FBz (controlAdjust M x) (fst x0) (snd x0) ^ 2) _ _ C1), map_map.
        apply lsum_ext. intros p _. cbn [fst snd flipz]. rewrite !total_swapped by assumption. cbn [parity]. ring.
      + rewrite <- (sum_perm (fun i => (total G P FPsi (controlAdjust M x) (fst (fst i)) (snd (fst i)) - total G P FPsi (controlAdjust M x) (fst (snd i)) (snd (snd i))) ^ 2) _ _ C2').
        clear C2'. induction C2 as [|i j l1 l2 Hij _ IH]; [reflexivity|]. cbn [map]. rewrite !lsum_cons, IH. f_equal. rewrite !total_swapped by assumption. cbn [parity].
        destruct Hij as [-> | ->]; cbn [fst snd flipz]; ring.
      + rewrite <- (sum_perm (fun p => (total G P FPsi (controlAdjust M x) (fst (fst p)) (snd (fst p)) - snd p) ^ 2) _ _ C3), map_map.
        apply lsum_ext. intros p _. cbn [fst snd flipz]. rewrite !total_swapped by assumption. cbn [parity]. ring.
    - f_equal. unfold swapped. rewrite map_map.
      rewrite (lsum_ext (fun i => (sg i * nth (pi i) x 0) ^ 2) (fun i => nth (pi i) x 0 ^ 2)).
      2:{ intros i Hi. apply in_seq in Hi. assert (Hi' : (i < n)%nat) by lia. destruct (HM i Hi') as (_ & _ & [-> | ->] & _); ring. }
      rewrite (sum_pi n pi Hpi (fun i => nth i x 0 ^ 2)).
      transitivity (lsum (map (fun v => v ^ 2) (map (fun i => nth i x 0) (seq 0 n)))); [rewrite map_map; reflexivity|]. f_equal. f_equal.
      rewrite <- Hx. apply nth_ext with 0 0; rewrite map_length, seq_length; [reflexivity|]. intros k Hk.
      rewrite (nth_indep _ 0 (nth 0 x 0)) by (rewrite map_length, seq_length; exact Hk). rewrite (map_nth (fun i => nth i x 0)), seq_nth by exact Hk. reflexivity.
  Qed.
End Mirror.

Lemma call_unique G P inv slsqp c M M' x :
  (forall n A N, inv n A = Ok N -> inverts n A N) ->
  (forall f x0 b cs x, slsqp f x0 b cs = Ok x -> length x = length x0) ->
  (forall f x0 x, slsqp f x0 (repeat (None, None) (length x0)) [] = Ok x -> f x <= f x0) ->
  gamma c <> 0 -> current_lims c = None -> max_total_current c = None ->
  constrain_call G P inv slsqp c M = Ok (M', x) ->
  forall y, length y = length (controlCurrents M) -> cost G P c M y <= cost G P c M x -> y = x.
Proof.
  intros Hinv Hs Hw Hg HL HT Hc.
  assert (Hl := call_length _ _ _ _ _ _ _ _ Hs Hc).
  destruct (call_inv _ _ _ _ _ _ _ _ Hc) as (M1 & x0 & bnds & HM & Hne & Ea & Hx0 & Hb & H1 & H2).
  destruct (analytic_spec G P c M Hne inv x0 Hinv Ea) as [_ Hgrad].
  assert (U : forall y, length y = length (controlCurrents M) -> cost G P c M y <= cost G P c M x0 -> y = x0).
  { intros y Hy Hle. rewrite !cost_qf in Hle by congruence. apply list_eq_nth; [congruence|]. rewrite Hx0.
    apply (qf_unique _ _ _ _ _ _ (fun j => nth j y 0) Hg Hgrad Hle). }
  assert (Hxx : cost G P c M x <= cost G P c M x0).
  { destruct (controlCurrents M) as [|i l] eqn:E.
    - destruct x; [|discriminate]. destruct x0; [|discriminate]. lra.
    - rewrite <- E in *. destruct H1 as [H1 _]; [rewrite E; discriminate|].
      unfold change_bounds in Hb. rewrite HL in Hb. injection Hb as <-. rewrite HT in H1. rewrite <- Hx0 in H1.
      apply Hw in H1. rewrite !(objective_cost G P c M Hne) in H1 by congruence. exact H1. }
  intros y Hy Hle. rewrite (U x Hl Hxx). apply U; [exact Hy|]. lra.
Qed.
(** ** C198 *)
(** In a symmetric machine, with a symmetric plasma and symmetric constraints, paired coils get the same change of current and the field stays symmetric. *)
Theorem C198_symmetric_control : forall G P inv slsqp c M M' x pi sg,
  (forall n A N, inv n A = Ok N -> inverts n A N) ->
  (forall f x0 b cs x, slsqp f x0 b cs = Ok x -> length x = length x0) ->
  (forall f x0 x, slsqp f x0 (repeat (None, None) (length x0)) [] = Ok x -> f x <= f x0) ->
  gamma c <> 0 -> current_lims c = None -> max_total_current c = None ->
  mirrored_controls G M pi sg -> mirror_field (fun f => response_sum G f M) -> mirror_field P -> mirrored_constraints c ->
  constrain_call G P inv slsqp c M = Ok (M', x) ->
  (forall i, (i < length x)%nat -> nth (pi i) x 0 = sg i * nth i x 0) /\ mirror_field (fun f => response_sum G f M').
Proof.
  intros G P inv slsqp c M M' x pi sg Hinv Hs Hw Hg HL HT HM HG HP HC Hc.
  assert (Hl := call_length _ _ _ _ _ _ _ _ Hs Hc). set (n := length (controlCurrents M)) in *.
  assert (E : swapped n pi sg x = x).
  { apply (call_unique G P inv slsqp c M M' x Hinv Hs Hw Hg HL HT Hc); [apply swapped_length|].
    unfold n. rewrite (cost_swapped G P c M pi sg HM HG x HP HC Hl). lra. }
  split.
  - intros i Hi. rewrite Hl in Hi. rewrite <- E at 2. rewrite (swapped_nth n pi sg x i Hi).
    destruct (HM i Hi) as (_ & _ & [-> | ->] & _); ring.
  - destruct (call_machine _ _ _ _ _ _ _ _ Hc) as (M1 & HM1 & ->).
    assert (Z : mirror_field (fun _ _ _ => 0)) by (intros f r z; ring).
    assert (T : forall f r z, response_sum G f (controlAdjust M1 x) r z = total G (fun _ _ _ => 0) f (controlAdjust M x) r z).
    { intros f r z. transitivity (total G (fun _ _ _ => 0) f (controlAdjust M1 x) r z); [unfold total; ring|].
      rewrite !adjust_total by (rewrite ?(same_currents _ _ HM1); exact Hl). rewrite (same_total _ _ _ _ _ _ _ HM1), (same_control _ _ _ _ _ _ HM1). reflexivity. }
    intros f r z. rewrite !T. rewrite <- E at 1. unfold n. rewrite (total_swapped G (fun _ _ _ => 0) M pi sg HM HG f r (- z) x Z Hl), Ropp_involutive. reflexivity.
Qed.
Print Assumptions C198_symmetric_control.
(** Two coils above and below the midplane and the plasma exPl.  Flux 41 is asked at (1,1) and (1,-1). *)
Definition exM2 : machine R := [("U"%string, MCoil (Coil 2 1 10 1 true (AFixed 1))); ("L"%string, MCoil (Coil 2 (-1) 10 1 true (AFixed 1)))].
Definition exinv2 (n : nat) (A : arr2 R) : result (arr2 R) :=
  if (n =? 2)%nat then
    let d := A 0%nat 0%nat * A 1%nat 1%nat - A 0%nat 1%nat * A 1%nat 0%nat in
    if R_eqb d 0 then Raise LinAlgError else
    Ok (fun i j => match i, j with O, O => A 1%nat 1%nat | O, _ => - A 0%nat 1%nat | _, O => - A 1%nat 0%nat | _, _ => A 0%nat 0%nat end / d)
  else Raise LinAlgError.
Lemma exinv2_inverts n A N : exinv2 n A = Ok N -> inverts n A N.
Proof.
  unfold exinv2. destruct (Nat.eqb_spec n 2) as [->|]; [|discriminate]. cbv zeta. destruct (R_eqb _ 0) eqn:E; [discriminate|]. rcmp. intros [= <-].
  intros i j Hi Hj. unfold nsum. destruct i as [|[|i]]; [| |lia]; (destruct j as [|[|j]]; [| |lia]); cbn; unfold lsum; cbn; nR; field; exact E.
Qed.
Definition exc2 : constraints R := mkcons [(1, 1); (1, -1)] 1 [((1, 1), (1, -1))] [((1, 1), 41); ((1, -1), 41)] None None.
Definition exP2 (f : field) (r z : R) : R := match f with FPsi => r | FBr => z | FBz => - 1 end.
Definition exswap (i : nat) : nat := match i with O => 1 | 1 => 0 | _ => i end%nat.
Lemma exM2_controls : mirrored_controls exG exM2 exswap (fun _ => 1).
Proof. intros i Hi. cbn in Hi. destruct i as [|[|i]]; [| |lia]; (split; [cbn; lia|split; [reflexivity|split; [left; reflexivity|split; [reflexivity|]]]]); intros [] r z; cbn; unfold coil_control; cbn; nR; ring. Qed.
Example C198_example : mirrored_controls exG exM2 exswap (fun _ => 1) /\ mirror_field (fun f => response_sum exG f exM2) /\ mirror_field exP2 /\ mirrored_constraints exc2 /\
  exists M', constrain_call exG exP2 exinv2 (fun f x0 b cs => Ok x0) exc2 exM2 = Ok (M', [-76 / 25; -76 / 25]).
Proof.
  split; [exact exM2_controls|]. split; [intros [] r z; unfold response_sum; cbn; unfold lsum; cbn; nR; ring|]. split; [intros [] r z; cbn; ring|].
  split.
  - assert (F1 : flipz (1, 1) = (1, -1)) by (unfold flipz; cbn; f_equal; lra). assert (F2 : flipz (1, -1) = (1, 1)) by (unfold flipz; cbn; f_equal; lra).
    split; [|split]; cbn [exc2 xpoints isoflux psivals map fst snd].
    + rewrite F1, F2. apply perm_swap.
    + exists [((1, 1), (1, -1))]. split; [|apply Permutation_refl]. constructor; [|constructor]. right. cbn [fst snd]. rewrite F1, F2. reflexivity.
    + rewrite F1, F2. apply perm_swap.
  - assert (Hne : rows_spec exG exP2 exc2 exM2 <> []) by discriminate.
    eexists. unfold constrain_call, build_rows. cbn. unfold analytic, exinv2. cbn. unfold normal_matrix, normal_rhs, matA, vecb, nsum, nsqr, eye. cbn.
    unfold coil_control, coil_field. cbn. nR.
    destruct (R_eqb _ 0) eqn:E; rcmp; [exfalso; lra|]. cbn.
    match goal with |- Ok (_, [?x; ?y]) = _ => replace x with (-76 / 25) by field; replace y with (-76 / 25) by field end. reflexivity.
Qed.

(** MAST_sym: P6 drives the two halves in opposite directions.  Symmetric constraints leave its current at zero. *)
Definition MAST_signs (i : nat) : R := if (i =? 4)%nat then -1 else 1.
Lemma filter_all {A} (p : A -> bool) l : Forall (fun a => p a = true) l -> filter p l = l.
Proof. intros F. induction F as [|a l E F IH]; [reflexivity|]. cbn [filter]. rewrite E, IH. reflexivity. Qed.
Lemma MAST_filter I : filter (fun lm => mc_control (snd lm)) (powered I (tk_coils MAST_sym)) = powered I (tk_coils (T := R) MAST_sym).
Proof.
  apply filter_all. unfold powered. apply Forall_map. unfold MAST_sym. cbn [tk_coils].
  repeat (apply Forall_cons; [cbn [snd]; rewrite mc_set_current_control; reflexivity|]). apply Forall_nil.
Qed.
Lemma MAST_controls G I : mirror_kernel G -> mirrored_controls G (powered I (tk_coils MAST_sym)) (fun i => i) MAST_signs.
Proof.
  intros HG.
  assert (E : forall f r z, machine_control G f (powered I (tk_coils MAST_sym)) r z = map (fun lm => mc_ctrl G f (snd lm) r z) (tk_coils MAST_sym)).
  { intros f r z. unfold machine_control. rewrite MAST_filter.
    unfold powered. rewrite map_map. apply map_ext. intros lm. cbn [snd]. apply mc_set_current_ctrl. }
  assert (N : length (controlCurrents (powered I (tk_coils MAST_sym))) = 6%nat).
  { unfold controlCurrents. rewrite map_length, MAST_filter. unfold powered. rewrite map_length. reflexivity. }
  intros i Hi. rewrite N in *. split; [exact Hi|]. split; [reflexivity|].
  split; [unfold MAST_signs; destruct (i =? 4)%nat; [right|left]; reflexivity|]. split; [reflexivity|].
  assert (P : forall m s, entry_parity G s m -> forall f r z, mc_ctrl G f m r z = s * parity f * mc_ctrl G f m r (- z)).
  { intros m s H f r z. rewrite <- (Ropp_involutive z) at 1. apply H. }
  intros f r z. rewrite !E. clear E N. unfold MAST_sym. cbn [tk_coils map].
  destruct i as [|[|[|[|[|[|i]]]]]]; [| | | | | |lia]; cbn [nth snd];
    match goal with |- _ = MAST_signs ?k * _ * _ => let v := eval cbn in (MAST_signs k) in change (MAST_signs k) with v end; apply P.
  1-4: apply series_even; loops.
  - apply series_odd; loops.
  - apply solenoid_even; [assumption|rewrite <- dec_opp; reflexivity|lia].
Qed.
Theorem C198_MAST_sym : forall G P inv slsqp c I M' x,
  (forall n A N, inv n A = Ok N -> inverts n A N) ->
  (forall f x0 b cs x, slsqp f x0 b cs = Ok x -> length x = length x0) ->
  (forall f x0 x, slsqp f x0 (repeat (None, None) (length x0)) [] = Ok x -> f x <= f x0) ->
  gamma c <> 0 -> current_lims c = None -> max_total_current c = None ->
  mirror_kernel G -> I "P6"%string = 0 -> mirror_field P -> mirrored_constraints c ->
  constrain_call G P inv slsqp c (powered I (tk_coils MAST_sym)) = Ok (M', x) ->
  length x = 6%nat /\ nth 4 x 0 = 0 /\ nth 4 (controlCurrents M') 0 = 0 /\ mirror_field (fun f => response_sum G f M').
Proof.
  intros G P inv slsqp c I M' x Hinv Hs Hw Hg HL HT HG H6 HP HC Hc.
  assert (HM := MAST_controls G I HG).
  assert (C6 : controlCurrents (powered I (tk_coils MAST_sym)) = map (fun lm => I (fst lm)) (tk_coils MAST_sym)).
  { unfold controlCurrents. rewrite MAST_filter. unfold powered. rewrite map_map. apply map_ext. intros lm. cbn [snd]. apply mc_set_current_current. }
  assert (S : mirror_field (fun f => response_sum G f (powered I (tk_coils MAST_sym)))).
  { intros f r z. assert (F := fun z => powered_field G f I (tk_coils MAST_sym) r z). setoid_rewrite machine_field_eq in F. cbn [fst] in F. rewrite !F.
    rewrite (entries_parity G 1 I); [ring|]. clear F C6 HM Hc. unfold MAST_sym. cbn [tk_coils]. repeat (apply Forall_cons; [cbn [fst]; even|]). apply Forall_nil. }
  set (M := powered I (tk_coils MAST_sym)) in *. clearbody M.
  assert (Hl := call_length _ _ _ _ _ _ _ _ Hs Hc).
  assert (H6l : length (controlCurrents M) = 6%nat) by (rewrite C6, map_length; reflexivity).
  destruct (C198_symmetric_control G P inv slsqp c M M' x (fun i => i) MAST_signs Hinv Hs Hw Hg HL HT HM S HP HC Hc) as [X F].
  assert (Z : nth 4 x 0 = 0) by (assert (H := X 4%nat ltac:(lia)); unfold MAST_signs in H; cbn [Nat.eqb] in H; lra).
  assert (Z0 : nth 4 (controlCurrents M) 0 = 0) by (rewrite C6; exact H6).
  split; [congruence|]. split; [exact Z|]. split; [|exact F].
  destruct (call_machine _ _ _ _ _ _ _ _ Hc) as (M1 & HM1 & ->).
  rewrite adjust_get by (rewrite (same_currents _ _ HM1); exact Hl). rewrite (same_currents _ _ HM1).
  rewrite (nth_indep _ 0 (0 + 0)) by (rewrite map_length, combine_length; lia).
  rewrite (map_nth (fun p => fst p + snd p) _ (0, 0)), combine_nth by congruence. cbn [fst snd]. rewrite Z, Z0. ring.
Qed.
Print Assumptions C198_MAST_sym.
(** With any sound inverse the call gives a result, here for an X-point pair and the Green's functions of the code. *)
Example C198_MAST_sym_example : forall ek ee inv, inv_ok inv ->
  let I := fun l => if String.eqb l "P2" then 1000 else 0 in
  mirror_kernel (green_kernel ek ee) /\ I "P6"%string = 0 /\ mirror_field exP2 /\ mirrored_constraints exc2 /\ 
  exists M' x, constrain_call (green_kernel ek ee) exP2 inv (fun f x0 b cs => Ok x0) exc2 (powered I (tk_coils MAST_sym)) = Ok (M', x).
Proof.
  intros ek ee inv Hinv I. split; [apply kernel_mirror|]. split; [reflexivity|]. split; [apply C198_example|]. split; [apply C198_example|].
  destruct (C14_unique_minimiser (green_kernel ek ee) exP2 inv (fun f x0 b cs => Ok x0) exc2 (powered I (tk_coils MAST_sym)) Hinv) as (M' & x & E & _);
    [intros f x0; exists x0; split; [reflexivity|]; split; [reflexivity|lra]|cbn; lra|reflexivity|reflexivity|left; discriminate|].
  exists M', x. exact E.
Qed.
