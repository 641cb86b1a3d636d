(** Limits in bounded flux matching. *)
From Coq Require Import String List Arith ZArith Bool Reals Lra Lia.
From Verif Require Import Py Num Numpy Coils Machine MachineSpec MachineProofs Control PropControl.
Import ListNotations.
Local Open Scope R_scope.
Local Open Scope string_scope.
Local Open Scope list_scope.

(** A current inside optional bounds *)
Definition in_bounds (b : option R * option R) (x : R) : Prop :=
  match fst b with Some l => l <= x | None => True end /\ match snd b with Some u => x <= u | None => True end.
(** What is assumed of scipy's L-BFGS-B: started inside the bounds it returns a point inside the bounds *)
Definition respects_bounds (lbfgsb : (list R -> result R) -> list R -> list (option R * option R) -> result (list R)) : Prop :=
  forall f x0 b x, Forall2 in_bounds b x0 -> lbfgsb f x0 b = Ok x -> Forall2 in_bounds b x.

Lemma adv_bounds_eq lims n : (n <= length lims)%nat ->
  adv_bounds (Some lims) n = Ok (map (fun p : R * R => (Some (Rmin (fst p) (snd p)), Some (Rmax (fst p) (snd p)))) (firstn n lims)).
Proof.
  intros H. unfold adv_bounds.
  assert (G : forall l s, (forall i, (i < length l)%nat -> nth_error lims (s + i) = nth_error l i) ->
    mapM (fun i => bind (adv_limit (Some lims) i) (fun p => Ok (Some (fst p), Some (snd p)))) (seq s (length l)) =
    Ok (map (fun p : R * R => (Some (Rmin (fst p) (snd p)), Some (Rmax (fst p) (snd p)))) l)).
  { induction l as [|p l IH]; intros s Hs; [reflexivity|]. cbn [length seq mapM map].
    unfold adv_limit. rewrite <- (Nat.add_0_r s) at 1. rewrite (Hs 0%nat) by (cbn; lia). cbn [nth_error bind fst snd].
    fold (adv_limit (Some lims)). rewrite IH.
    - cbn [bind]. rewrite nmin_R, nmax_R. reflexivity.
    - intros i Hi. specialize (Hs (S i)). rewrite Nat.add_succ_r in Hs. apply Hs. cbn. lia. }
  specialize (G (firstn n lims) 0%nat). rewrite firstn_length_le in G by exact H. apply G.
  intros i Hi. cbn [Nat.add]. rewrite <- (firstn_skipn n lims) at 1. apply nth_error_app1. rewrite firstn_length_le by exact H. exact Hi.
Qed.
Lemma adv_start_bounds : forall (sc s lims : list _) pre, adv_start (Some (pre ++ lims)) (length pre) sc = Ok s ->
  (length sc <= length lims)%nat /\
  Forall2 in_bounds (map (fun p : R * R => (Some (Rmin (fst p) (snd p)), Some (Rmax (fst p) (snd p)))) (firstn (length sc) lims)) s.
Proof.
  induction sc as [|x sc IH]; intros s lims pre E; cbn [adv_start] in E.
  - injection E as <-. split; [cbn; lia|constructor].
  - unfold adv_limit in E. rewrite nth_error_app2, Nat.sub_diag in E by lia. destruct lims as [|p lims]; [discriminate|]. cbn [nth_error bind] in E.
    destruct (adv_start _ _ sc) as [rest|] eqn:Er; [|discriminate]. cbn [bind] in E. injection E as <-.
    replace (pre ++ p :: lims) with ((pre ++ [p]) ++ lims) in Er by (rewrite <- app_assoc; reflexivity).
    replace (S (length pre)) with (length (pre ++ [p])) in Er by (rewrite app_length; cbn; lia).
    destruct (IH _ _ _ Er) as [H1 H2]. split; [cbn; lia|]. cbn [length firstn map]. constructor; [|exact H2].
    unfold in_bounds. cbn [fst snd]. rewrite nmin_R, nmax_R. nR.
    assert (Hm : Rmin (fst p) (snd p) <= Rmax (fst p) (snd p)) by (unfold Rmin, Rmax; repeat destruct (Rle_dec _ _); lra).
    destruct (R_ltb x (Rmin (fst p) (snd p))) eqn:E1; rcmp; cbn [negb andb].
    + lra.
    + destruct (R_ltb (Rmax (fst p) (snd p)) x) eqn:E2; rcmp; cbn [negb]; lra.
Qed.

Lemma F2_length {A B} (P : A -> B -> Prop) l l' : Forall2 P l l' -> length l = length l'.
Proof. induction 1; cbn; congruence. Qed.

(** ** C128 *)
(** Every controlled coil ends inside its limits, in either order of the pair; nothing else changes. *)
Theorem C128_within_limits : forall lbfgsb lims diff (M M' : machine R), respects_bounds lbfgsb ->
  adv_call lbfgsb (Some lims) diff M = Ok M' ->
  Forall2 (fun p x => Rmin (fst p) (snd p) <= x <= Rmax (fst p) (snd p)) (firstn (length (controlCurrents M)) lims) (controlCurrents M') /\
  machine_shape M' = machine_shape M /\
  (forall i lm, nth_error M i = Some lm -> mc_control (snd lm) = false -> nth_error M' i = Some lm).
Proof.
  intros lbfgsb lims diff M M' Hb E. unfold adv_call in E.
  destruct (adv_start (Some lims) 0 (controlCurrents M)) as [s|] eqn:Es; [|discriminate]. cbn [bind] in E.
  destruct (adv_start_bounds _ _ lims [] Es) as [Hl Hs]. rewrite (adv_bounds_eq _ _ Hl) in E. cbn [bind] in E.
  destruct (lbfgsb diff s _) as [x|] eqn:Ex; [|discriminate]. cbn [bind] in E. injection E as <-.
  assert (Hx := Hb _ _ _ _ Hs Ex). assert (Hlen := F2_length _ _ _ Hx). rewrite map_length, firstn_length_le in Hlen by exact Hl.
  split; [|split].
  - rewrite set_get by (symmetry; exact Hlen). clear -Hx. revert x Hx. induction (firstn (length (controlCurrents M)) lims) as [|p l IH]; intros x Hx; inversion Hx; subst; constructor.
    + destruct H1 as [A B]. cbn [fst snd] in A, B. lra.
    + apply IH. assumption.
  - apply (zip_frame mc_set_current); intros; [apply mc_set_current_shape|apply mc_set_current_control].
  - intros i lm. apply (zip_frame mc_set_current); intros; [apply mc_set_current_shape|apply mc_set_current_control].
Qed.
Print Assumptions C128_within_limits.
(** Fewer limits than controlled coils are an error before anything is changed. *)
Theorem C128_too_few : forall lbfgsb lims diff (M : machine R), (length lims < length (controlCurrents M))%nat ->
  adv_call lbfgsb (Some lims) diff M = Raise IndexError.
Proof.
  intros lbfgsb lims diff M H. unfold adv_call.
  assert (G : forall sc pre l, (length l < length sc)%nat -> @adv_start R Num_R (Some (pre ++ l)) (length pre) sc = Raise IndexError).
  { induction sc as [|x sc IH]; intros pre l Hl; [cbn in Hl; lia|]. cbn [adv_start]. unfold adv_limit. rewrite nth_error_app2, Nat.sub_diag by lia.
    destruct l as [|p l]; [reflexivity|]. cbn [nth_error bind].
    replace (pre ++ p :: l) with ((pre ++ [p]) ++ l) by (rewrite <- app_assoc; reflexivity).
    replace (S (length pre)) with (length (pre ++ [p])) by (rewrite app_length; cbn; lia). rewrite IH by (cbn in Hl; lia). reflexivity. }
  specialize (G (controlCurrents M) [] lims H). cbn [app length] in G. rewrite G. reflexivity.
Qed.
Print Assumptions C128_too_few.
Definition exLim (f : list R -> result R) (x0 : list R) (b : list (option R * option R)) : result (list R) := Ok x0.
Example C128_example : respects_bounds exLim /\
  adv_call exLim (Some [(3, 0)]) (fun _ => Ok 0) [("A", MCoil (Coil 1 0 10 1 true (AFixed 1)))] = Ok [("A", MCoil (Coil 1 0 3 1 true (AFixed 1)))].
Proof.
  split; [intros f x0 b x H E; injection E as <-; exact H|]. unfold adv_call, exLim. cbn [controlCurrents map filter snd mc_control c_control Coil mc_current c_current adv_start adv_limit nth_error bind fst].
  rewrite nmin_R, nmax_R, Rmin_right, Rmax_left by lra. nR.
  assert (E1 : R_ltb 10 0 = false) by (apply R_ltb_false; lra). assert (E2 : R_ltb 3 10 = true) by (apply R_ltb_true; lra). rewrite E1, E2. reflexivity.
Qed.
