(** C207: limits of the coil currents in the equilibrium that picard.solve returns. *)
From Coq Require Import String List Arith ZArith Bool Reals Lra Lia Permutation.
From Verif Require Import Py Num Numpy Linalg Coils Machine MachineSpec MachineProofs Critical Control ControlSpec ControlProofs PropControl Romb RombProofs Multigrid MultigridProofs Gauss Equilibrium EquilibriumProofs EquilibriumProofs2 EquilibriumProofs3
  ControlEq PropControlMirror FittingProofs PropSolveFlux PropReturned PropTrueFlux Picard PicardProofs PropPicard PropControlEq PropControlRepeat.
Import ListNotations.
Local Open Scope R_scope.

(** ** What the statements mean *)
(** Label, geometry and control flag of every coil are the same, and so is the current if the control flag is off. *)
Definition kept_machine (M M' : machine R) : Prop :=
  Forall2 (fun a b => fst b = fst a /\ mcoil_shape (snd b) = mcoil_shape (snd a) /\ mc_control (snd b) = mc_control (snd a) /\ (mc_control (snd a) = false -> mc_current (snd b) = mc_current (snd a))) M M'.

(** ** Proofs *)
Lemma kept_refl M : kept_machine M M.
Proof. unfold kept_machine. induction M; constructor; auto. Qed.
Lemma kept_trans M1 M2 M3 : kept_machine M1 M2 -> kept_machine M2 M3 -> kept_machine M1 M3.
Proof.
  unfold kept_machine. intros H. revert M3. induction H as [|a b l l' (E1 & E2 & E3 & E4) H IH]; intros M3 K; inversion K as [|b' d l2 l3 (F1 & F2 & F3 & F4) K2]; subst; constructor; [|apply IH; exact K2].
  split; [congruence|]. split; [congruence|]. split; [congruence|]. intros Hc. rewrite F4 by congruence. apply E4. exact Hc.
Qed.
Lemma kept_adjust M x : kept_machine M (controlAdjust M x).
Proof.
  unfold kept_machine, controlAdjust. revert x. induction M as [|(l, m) M IH]; intros x; [constructor|]. cbn [zip_controls]. destruct (mc_control m) eqn:Ec.
  - destruct x as [|v x]; (constructor; [|apply IH]); cbn [fst snd].
    + repeat split; auto.
    + split; [reflexivity|]. split; [apply mc_set_current_shape|]. split; [apply mc_set_current_control|congruence].
  - constructor; [|apply IH]. repeat split; auto.
Qed.
Lemma kept_same M M1 : same M M1 -> kept_machine M M1.
Proof.
  intros [->| ->]; [apply kept_refl|]. unfold kept_machine, machine_sync. induction M as [|(l, m) M IH]; [constructor|]. cbn [map]. constructor; [|exact IH]. cbn [fst snd].
  split; [reflexivity|]. split; [apply mc_sync_shape|]. destruct m; auto.
Qed.
Lemma kept_nth M M' i lb m : kept_machine M M' -> nth_error M' i = Some (lb, m) -> exists m0, nth_error M i = Some (lb, m0) /\ mc_control m = mc_control m0.
Proof.
  intros H. revert i. unfold kept_machine in H. induction H as [|(l1, a) (l2, b) l l' (E1 & E2 & E3 & E4) H IH]; intros [|i] E; try discriminate.
  - injection E as -> ->. cbn [fst snd] in *. subst l1. exists a. split; [reflexivity|exact E3].
  - apply IH. exact E.
Qed.
Section Run.
  Context {P : Type}.
  Local Notation eqm := (equilibrium R P (constraints R)).
  Variables (G : field -> R -> R -> R -> R -> R) (mu : R) (lu : nat -> arr2 R -> (nat -> R) -> (nat -> R)) (spline : nat -> nat -> (nat -> R) -> (nat -> R) -> arr2 R -> sfun R).
  Variable Jt : P -> eqm -> arr2 R -> option R -> result (arr2 R * P * bstate R).
  Variables (inv : nat -> arr2 R -> result (arr2 R)) (slsqp : (list R -> R) -> list R -> list (option R * option R) -> list (list R -> R) -> result (list R)) (c : constraints R).
  Variables (mx my : nat) (o : options (T := R)).
  Let ops := eq_ops G sqrt mu lu spline Jt (Some (constrain_eq G spline inv slsqp c)).
  Lemma control_kept (t t1 : eqm * P) : constrain_eq G spline inv slsqp c t = (t1, Ok tt) -> kept_machine (coils (tok (fst t))) (coils (tok (fst t1))).
  Proof.
    intros E. destruct t as (e, p), t1 as (e1, p1). destruct (constrain_eq_inv _ _ _ _ _ _ _ _ _ E) as (-> & M & x & Ec & ->). cbn [fst tok coils with_profiles with_coils with_tok].
    destruct (call_machine _ _ _ _ _ _ _ _ Ec) as (M1 & HM & ->). eapply kept_trans; [apply kept_same; exact HM|apply kept_adjust].
  Qed.
  Lemma run_kept fuel (s s' : eqm * P) h : picard mx my _ ops o fuel s = (s', Ok h) ->
    exists t0 t : eqm * P, kept_machine (coils (tok (fst s))) (coils (tok (fst t0))) /\ constrain_eq G spline inv slsqp c t0 = (t, Ok tt) /\ tok (fst s') = tok (fst t).
  Proof.
    intros Ep. set (I := fun (t : eqm * P) (v : vars (T := R)) => exists t0 : eqm * P, kept_machine (coils (tok (fst s))) (coils (tok (fst t0))) /\ constrain_eq G spline inv slsqp c t0 = (t, Ok tt)).
    destruct (picard_inv mx my _ ops o I s) with (fuel := fuel) (e' := s') (h := h) as (t & v & (t0 & I1 & I2) & Et); [| |exact Ep|].
    { intros e1 psi0 Er E0. exists s. split; [apply kept_refl|exact Er]. }
    { intros t v t2 v2 (t0 & I1 & I2) Et. destruct (turn_next mx my _ _ o _ _ _ _ Et) as (e1 & ob & psi1 & psi2 & (pb & _ & Es & _) & _ & Er & _).
      exists e1. destruct (step_keeps _ _ _ _ _ _ _ _ _ _ _ _ _ Es) as (_ & K2 & _). split; [|exact Er]. rewrite K2. eapply kept_trans; [exact I1|]. apply control_kept. exact I2. }
    destruct (turn_done mx my _ _ o _ _ _ _ Et) as (ob & psi1 & (pb & _ & Es & _ & Eps) & Ht & _).
    destruct (step_keeps _ _ _ _ _ _ _ _ _ _ _ _ _ Es) as (_ & K2 & _). exists t0, t. split; [exact I1|]. split; [exact I2|exact K2].
  Qed.
End Run.
(** ** C207 *)
(** picard.solve with constrain changes nothing in the machine but the currents of controlled coils. *)
Theorem C207_uncontrolled : forall P G mu lu spline Jt inv slsqp c mx my o fuel (s s' : equilibrium R P (constraints R) * P) h,
  picard mx my _ (eq_ops G sqrt mu lu spline Jt (Some (constrain_eq G spline inv slsqp c))) o fuel s = (s', Ok h) ->
  kept_machine (coils (tok (fst s))) (coils (tok (fst s'))).
Proof.
  intros P G mu lu spline Jt inv slsqp c mx my o fuel s s' h Ep. destruct (run_kept _ _ _ _ _ _ _ _ _ _ _ _ _ _ _ Ep) as (t0 & t & K1 & E & K2).
  rewrite K2. eapply kept_trans; [exact K1|]. apply (control_kept _ _ _ _ _ _ _ E).
Qed.
Print Assumptions C207_uncontrolled.
(** If the bounded optimiser respects its bounds, every controlled coil of the equilibrium returned has a current inside its own limits. *)
Theorem C207_limits : forall P G mu lu spline Jt inv slsqp c mx my o fuel (s s' : equilibrium R P (constraints R) * P) h lims,
  (forall f x0 b cs x, slsqp f x0 b cs = Ok x -> Forall2 within b x) -> current_lims c = Some lims ->
  picard mx my _ (eq_ops G sqrt mu lu spline Jt (Some (constrain_eq G spline inv slsqp c))) o fuel s = (s', Ok h) ->
  length lims = length (coils (tok (fst s'))) /\
  forall i lb m, nth_error (coils (tok (fst s'))) i = Some (lb, m) -> mc_control m = true -> exists lo hi, nth_error lims i = Some (lo, hi) /\ lo <= mc_current m <= hi.
Proof.
  intros P G mu lu spline Jt inv slsqp c mx my o fuel s s' h lims Hs HL Ep. destruct (run_kept _ _ _ _ _ _ _ _ _ _ _ _ _ _ _ Ep) as (t0 & t & K1 & E & K2).
  rewrite K2. assert (K := control_kept _ _ _ _ _ _ _ E). destruct t0 as (e0, p0), t as (e, p). destruct (constrain_eq_inv _ _ _ _ _ _ _ _ _ E) as (-> & M & x & Ec & ->).
  cbn [fst tok coils with_profiles with_coils with_tok] in *. destruct (C15_current_limits _ _ _ _ _ _ _ _ _ Hs HL Ec) as (Hlen & H).
  split; [rewrite Hlen; clear -K; induction K; cbn [length]; congruence|]. intros i lb m Hi Hc. destruct (kept_nth _ _ _ _ _ K Hi) as (m0 & Hi0 & Hc0).
  destruct (H i lb m0 Hi0) as ((lo, hi) & m' & A1 & A2 & A3 & _). rewrite Hi in A2. injection A2 as <-. exists lo, hi. split; [exact A1|]. apply A3. congruence.
Qed.
Print Assumptions C207_limits.
Theorem C207_total : forall P G mu lu spline Jt inv slsqp c mx my o fuel (s s' : equilibrium R P (constraints R) * P) h tot,
  (forall f x0 b cs x, slsqp f x0 b cs = Ok x -> length x = length x0 /\ Forall (fun g => 0 <= g x) cs) -> max_total_current c = Some tot ->
  picard mx my _ (eq_ops G sqrt mu lu spline Jt (Some (constrain_eq G spline inv slsqp c))) o fuel s = (s', Ok h) ->
  controlCurrents (coils (tok (fst s'))) <> [] -> lsum (map Rabs (controlCurrents (coils (tok (fst s'))))) <= tot.
Proof.
  intros P G mu lu spline Jt inv slsqp c mx my o fuel s s' h tot Hs HT Ep Hne. destruct (run_kept _ _ _ _ _ _ _ _ _ _ _ _ _ _ _ Ep) as (t0 & t & K1 & E & K2).
  rewrite K2 in *. assert (K := control_kept _ _ _ _ _ _ _ E). destruct t0 as (e0, p0), t as (e, p). destruct (constrain_eq_inv _ _ _ _ _ _ _ _ _ E) as (-> & M & x & Ec & ->).
  cbn [fst tok coils with_profiles with_coils with_tok] in *. apply (C16_total_current_limit _ _ _ _ _ _ _ _ _ Hs HT) in Ec; [exact Ec|].
  intros E0. apply Hne. clear -K E0. revert E0. unfold controlCurrents. unfold kept_machine in K. induction K as [|(l1, a) (l2, b) l l' (E1 & E2 & E3 & E4) H IH]; intros E0; [reflexivity|].
  cbn [filter snd] in *. rewrite E3. destruct (mc_control a); [discriminate|]. exact (IH E0).
Qed.
Print Assumptions C207_total.
(** An optimiser that returns the lower bounds, or fails *)
Definition low_opt (f : list R -> R) (x0 : list R) (b : list (option R * option R)) (cs : list (list R -> R)) : result (list R) :=
  if (forallb (fun lu => match lu with (Some l, Some u) => negb (R_ltb u l) | (Some _, None) => true | _ => false end) b && (length b =? length x0)%nat)%bool
  then Ok (map (fun lu => match fst lu with Some l => l | None => 0 end) b) else Raise ValueError.
Lemma low_within f x0 b cs x : low_opt f x0 b cs = Ok x -> Forall2 within b x.
Proof.
  unfold low_opt. destruct (forallb _ b) eqn:E; [|discriminate]. cbn [andb]. destruct (_ =? _)%nat; [|discriminate]. intros [= <-]. clear x0.
  induction b as [|([l|], u) b IH]; [constructor| |discriminate]. cbn [forallb map fst] in *. apply andb_true_iff in E. destruct E as (E1 & E2). constructor; [|exact (IH E2)].
  split; cbn [fst snd]; [lra|]. destruct u as [u|]; [|exact I]. apply negb_true_iff in E1. apply R_ltb_false in E1. lra.
Qed.
Example C207_example : forall A, let c := mkcons [(1, 0)] 0 [] [] (Some [(1, 3); (2, 4)]) None in
  exists at_ s' h, picard 5 5 _ (eq_ops exG sqrt 1 elimination flat_spline copy_profile (Some (constrain_eq exG flat_spline exinv2 low_opt c))) (plain_options None 0 at_) 1 (coil_eq exG exM2 A, tt) = (s', Ok h).
Proof.
  intros A c.
  assert (E : exists M, constrain_call exG (plasma_field flat_spline (coil_eq exG exM2 A)) exinv2 low_opt c exM2 = Ok (M, [-9; -8])).
  { eexists. unfold constrain_call, build_rows. cbn. unfold analytic, exinv2. cbn. unfold normal_matrix, normal_rhs, matA, vecb, nsum, nsqr, eye. cbn.
    unfold coil_control, coil_field, plasmaBr, plasmaBz, psi_func, flat_spline. cbn. nR.
    destruct (R_eqb _ 0) eqn:E; rcmp; [exfalso; lra|]. cbn. unfold low_opt. cbn. nR. rewrite (proj2 (R_ltb_false (3 - 10) (1 - 10))), (proj2 (R_ltb_false (4 - 10) (2 - 10))) by lra. cbn [negb andb bind].
    replace (1 - 10) with (-9) by lra. replace (2 - 10) with (-8) by lra. reflexivity. }
  destruct E as (M & E).
  assert (E1 : exists e1, constrain_eq exG flat_spline exinv2 low_opt c (coil_eq exG exM2 A, tt) = ((e1, tt), Ok tt)).
  { unfold constrain_eq. change (coils (tok (coil_eq exG exM2 A))) with exM2. rewrite E. eexists. reflexivity. }
  destruct E1 as (e1 & E1). exact (coil_run elimination exG exM2 A _ _ _ e1 exM2_labels E1).
Qed.
