(** Proofs about [Fitting]. *)
From Coq Require Import String List Arith Bool Lia.
From Verif Require Import Py Num Numpy Coils Machine Critical Boundary Equilibrium Control Fitting FittingSpec.
Import ListNotations.

Section FittingProofs.
  Context {T : Type} `{Num T} {P Ctl : Type}.
  Variable spline : nat -> nat -> (nat -> T) -> (nat -> T) -> arr2 T -> sfun T.
  Local Notation equilibrium := (equilibrium T P Ctl).

  Lemma set_current_twice (m : mcoil T) x y : mc_set_current (mc_set_current m x) y = mc_set_current m y.
  Proof.
    destruct m as [c|[l I b]|s]; cbn; try reflexivity. unfold circuit_set_current. cbn [ci_coils ci_control]. rewrite map_map. reflexivity.
  Qed.
  Lemma set_current_control (m : mcoil T) x : mc_control (mc_set_current m x) = mc_control m.
  Proof. destruct m; reflexivity. Qed.
  Lemma set_current_current (m : mcoil T) x : mc_current (mc_set_current m x) = x.
  Proof. destruct m; reflexivity. Qed.
  Lemma controls_length : forall (M : machine T) x, length (controlCurrents (setControlCurrents M x)) = length (controlCurrents M).
  Proof.
    unfold controlCurrents, setControlCurrents. induction M as [|[lb m] M IH]; intros x; [reflexivity|].
    cbn [zip_controls filter snd]. destruct (mc_control m) eqn:Ec.
    - destruct x as [|a x]; cbn [filter snd]; [rewrite Ec|rewrite set_current_control, Ec]; cbn [map length]; f_equal; apply IH.
    - cbn [filter snd]. rewrite Ec. apply IH.
  Qed.
  Lemma set_twice : forall (M : machine T) y x, length x = length (controlCurrents M) ->
    setControlCurrents (setControlCurrents M y) x = setControlCurrents M x.
  Proof.
    unfold controlCurrents, setControlCurrents. induction M as [|[lb m] M IH]; intros y x Hl; [reflexivity|].
    cbn [zip_controls filter snd] in *. destruct (mc_control m) eqn:Ec.
    - cbn [map length] in Hl. destruct x as [|a x]; [discriminate|]. cbn [length] in Hl.
      destruct y as [|b y]; cbn [zip_controls]; [rewrite Ec|rewrite set_current_control, Ec, set_current_twice]; f_equal; apply IH; lia.
    - cbn [zip_controls]. rewrite Ec. f_equal. apply IH. exact Hl.
  Qed.
  Lemma set_controlled : forall (M : machine T) x, length x = length (controlCurrents M) ->
    controlled_only M (setControlCurrents M x) x /\ controlCurrents (setControlCurrents M x) = x.
  Proof.
    unfold controlCurrents, setControlCurrents. induction M as [|[lb m] M IH]; intros x Hl.
    - destruct x; [split; [constructor|reflexivity]|discriminate].
    - cbn [zip_controls filter snd] in *. destruct (mc_control m) eqn:Ec.
      + destruct x as [|a x]; [discriminate|]. cbn [map length] in Hl. destruct (IH x ltac:(lia)) as (H1 & H2). split.
        * apply co_control; assumption.
        * cbn [filter snd]. rewrite set_current_control, Ec. cbn [map snd]. rewrite set_current_current. f_equal. exact H2.
      + destruct (IH x Hl) as (H1 & H2). split; [apply co_free; assumption|]. cbn [filter snd]. rewrite Ec. exact H2.
  Qed.

  Definition ncontrol (e : equilibrium) : nat := length (controlCurrents (coils (tok e))).
  Lemma set_currents_number (e : equilibrium) x : ncontrol (set_currents e x) = ncontrol e.
  Proof. apply controls_length. Qed.
  Lemma set_currents_twice (e : equilibrium) y b x : length x = ncontrol e ->
    set_currents (with_bs (set_currents e y) b) x = with_bs (set_currents e x) b.
  Proof. intros Hl. unfold set_currents, with_tok, with_bs. cbn. rewrite set_twice by exact Hl. reflexivity. Qed.

  (** what a call of a residual function does to the equilibrium *)
  Definition settles {A} (residual : equilibrium -> list T -> result (equilibrium * A)) : Prop :=
    forall e x e' v, residual e x = Ok (e', v) -> exists b, e' = with_bs (set_currents e x) b.
  Definition settles_boundary {A} (residual : equilibrium -> list T -> result (equilibrium * A)) : Prop :=
    forall e x e' v, residual e x = Ok (e', v) -> exists psi b, total_psi (set_currents e x) = Ok psi /\
      update_boundary spline (set_currents e x) (e_nx e) (e_ny e) psi = Ok b /\ e' = with_bs (set_currents e x) b.
  Lemma boundary_settles {A} (f : equilibrium -> list T -> result (equilibrium * A)) : settles_boundary f -> settles f.
  Proof. intros Hf e x e' v E. destruct (Hf _ _ _ _ E) as (psi & b & _ & _ & ->). exists b. reflexivity. Qed.

  Lemma bind_ok {A B} (r : result A) (k : A -> result B) v : bind r k = Ok v -> exists a, r = Ok a /\ k a = Ok v.
  Proof. destruct r as [a|]; [|discriminate]. intros E. exists a. split; [reflexivity|exact E]. Qed.
  Lemma ok_pair {A B} (a a' : A) (b b' : B) : Ok (a, b) = Ok (a', b') -> a = a' /\ b = b'.
  Proof. intros E. injection E as -> ->. split; reflexivity. Qed.

  Lemma run_settles {A} (f : equilibrium -> list T -> result (equilibrium * A)) (Hf : settles f) :
    forall s e e' x, run f s e = Ok (e', x) ->
    exists l, stops s l x /\ ncontrol e' = ncontrol e /\
      match l with None => e' = e
      | Some y => forall z, length z = ncontrol e -> exists b, set_currents e' z = with_bs (set_currents e z) b end.
  Proof.
    induction s as [y|y next IH]; intros e e' x E.
    - cbn [run] in E. apply ok_pair in E as (-> & ->). exists None. split; [constructor|]. split; reflexivity.
    - cbn [run] in E. apply bind_ok in E as ((e1 & v) & E1 & E2). apply Hf in E1 as (b & ->).
      assert (Hn : ncontrol (with_bs (set_currents e y) b) = ncontrol e) by (unfold with_bs, ncontrol; cbn [tok]; apply set_currents_number).
      destruct (IH v _ _ _ E2) as (l & Hs & Hn2 & Hl). rewrite Hn in Hn2, Hl.
      destruct l as [z|].
      + exists (Some z). split; [eapply stops_later; exact Hs|]. split; [exact Hn2|]. intros w Hw. destruct (Hl w Hw) as (b' & E').
        exists b'. rewrite E'. rewrite set_currents_twice by exact Hw. reflexivity.
      + subst e'. exists (Some y). split; [eapply stops_here; exact Hs|]. split; [exact Hn|]. intros w Hw. exists b. apply set_currents_twice. exact Hw.
  Qed.

  (** the boundary attributes after [run] are those made for the last trial *)
  Definition same_machine (e e0 : equilibrium) : Prop :=
    ncontrol e0 = ncontrol e /\ forall z, length z = ncontrol e -> exists c, set_currents e0 z = with_bs (set_currents e z) c.
  Lemma same_machine_refl e : same_machine e e.
  Proof. split; [reflexivity|]. intros z _. exists (bs e). destruct e; reflexivity. Qed.
  Lemma same_machine_trial e e0 y b : same_machine e e0 -> same_machine e (with_bs (set_currents e0 y) b).
  Proof.
    intros (Hn & He). split.
    - rewrite <- Hn. unfold with_bs, ncontrol; cbn [tok]. apply set_currents_number.
    - intros z Hz. destruct (He z Hz) as (c & Ec). exists b. rewrite set_currents_twice by congruence. rewrite Ec. reflexivity.
  Qed.
  Lemma run_boundary {A} (f : equilibrium -> list T -> result (equilibrium * A)) (Hf : settles_boundary f) e :
    forall s e0 e' x, same_machine e e0 -> run f s e0 = Ok (e', x) -> exists l, stops s l x /\
      match l with None => e' = e0
      | Some y => length y = ncontrol e -> exists c psi b, total_psi (set_currents e y) = Ok psi /\
          update_boundary spline (with_bs (set_currents e y) c) (e_nx e) (e_ny e) psi = Ok b /\ bs e' = b
      end.
  Proof.
    induction s as [y|y next IH]; intros e0 e' x H0 E.
    - cbn [run] in E. apply ok_pair in E as (-> & ->). exists None. split; [constructor|reflexivity].
    - cbn [run] in E. apply bind_ok in E as ((e1 & v) & E1 & E2). apply Hf in E1 as (psi & b & Ep & Eb & ->).
      destruct (IH v _ _ _ (same_machine_trial e e0 y b H0) E2) as (l & Hs & Hl). destruct l as [z|].
      + exists (Some z). split; [eapply stops_later; exact Hs|exact Hl].
      + subst e'. exists (Some y). split; [eapply stops_here; exact Hs|]. intros Hy. destruct H0 as (_ & H0). destruct (H0 y Hy) as (c & Ec).
        exists c, psi, b. rewrite Ec in Ep, Eb.
        assert (En : e_nx e0 = e_nx e /\ e_ny e0 = e_ny e).
        { split; [apply (f_equal e_nx) in Ec|apply (f_equal e_ny) in Ec]; exact Ec. }
        destruct En as (En1 & En2). rewrite En1, En2 in Eb. split; [exact Ep|]. split; [exact Eb|reflexivity].
  Qed.
  (** what matters of the attributes is that of the flux, if that has an O-point *)
  Lemma update_boundary_fresh (e : equilibrium) c nx ny psi o os xs b b0 :
    eq_find_critical spline e nx ny psi = Ok (o :: os, xs) ->
    update_boundary spline (with_bs e c) nx ny psi = Ok b -> update_boundary spline e nx ny psi = Ok b0 ->
    psi_axis b = psi_axis b0 /\ psi_bndry b = psi_bndry b0 /\ mask b = mask b0 /\ is_limited b = is_limited b0.
  Proof.
    unfold update_boundary. intros E. change (eq_find_critical spline (with_bs e c) nx ny psi) with (eq_find_critical spline e nx ny psi).
    rewrite E. cbn [bind]. unfold update_from.
    change (eq_spline spline (with_bs e c)) with (eq_spline spline e). change (eq_core_mask (with_bs e c)) with (eq_core_mask e).
    cbn [with_bs check_limited tok bnd e_nx e_ny bs].
    destruct (check_limited e && wall (tok e))%bool.
    - destruct (eq_spline spline e (e_ny e) (e_nx e) _) as [f|]; [|discriminate]. cbn [bind]. destruct (argmax _) as [k|]; [|discriminate].
      destruct xs as [|x xs].
      + intros [= <-] [= <-]. cbn. repeat split.
      + destruct (eq_core_mask _ _ _ _ _) as [m|]; [|discriminate]. cbn [bind]. destruct (eq_spline spline e (e_nx e) (e_ny e) m); [|discriminate]. cbn [bind].
        intros [= <-] [= <-]. cbn. repeat split.
    - destruct xs as [|x xs].
      + intros [= <-] [= <-]. cbn. repeat split.
      + destruct (eq_core_mask _ _ _ _ _) as [m|]; [|discriminate]. cbn [bind]. destruct (eq_spline spline e (e_nx e) (e_ny e) m); [|discriminate]. cbn [bind].
        intros [= <-] [= <-]. cbn. repeat split.
  Qed.

  Lemma psi_settles cp : settles (residual_psi cp).
  Proof.
    intros e x e' v E. unfold residual_psi, trial_psi in E. apply bind_ok in E as ((e1 & psi) & E1 & E2).
    apply bind_ok in E1 as (psi1 & _ & E1). apply ok_pair in E1 as (<- & <-).
    apply bind_ok in E2 as (d & _ & E2). apply ok_pair in E2 as (<- & _). exists (bs (set_currents e x)). destruct e; reflexivity.
  Qed.
  Lemma psi_keeps cp : forall s (e e' : equilibrium) x, run (residual_psi cp) s e = Ok (e', x) -> bs e' = bs e.
  Proof.
    induction s as [y|y next IH]; intros e e' x E; cbn [run] in E.
    - apply ok_pair in E as (-> & _). reflexivity.
    - apply bind_ok in E as ((e1 & v) & E1 & E2). rewrite (IH _ _ _ _ E2). unfold residual_psi, trial_psi in E1.
      apply bind_ok in E1 as ((e2 & psi) & E1 & E3). apply bind_ok in E1 as (psi1 & _ & E1). apply ok_pair in E1 as (<- & <-).
      apply bind_ok in E3 as (d & _ & E3). apply ok_pair in E3 as (<- & _). reflexivity.
  Qed.
  Lemma trial_update (e : equilibrium) x e1 psi e2 : trial_psi e x = Ok (e1, psi) -> update_trial spline e1 psi = Ok e2 ->
    exists b, total_psi (set_currents e x) = Ok psi /\ update_boundary spline (set_currents e x) (e_nx e) (e_ny e) psi = Ok b /\ e2 = with_bs (set_currents e x) b.
  Proof.
    unfold trial_psi, update_trial. intros E1 E2. apply bind_ok in E1 as (psi1 & Ep & E1). apply ok_pair in E1 as (<- & <-).
    apply bind_ok in E2 as (b & Eb & E2). exists b. injection E2 as <-. split; [exact Ep|]. split; [exact Eb|reflexivity].
  Qed.
  Lemma norm_settles t w : settles_boundary (residual_norm spline t w).
  Proof.
    intros e x e' v E. unfold residual_norm in E. apply bind_ok in E as ((e1 & psi) & E1 & E). apply bind_ok in E as (e2 & E2 & E).
    apply bind_ok in E as ((pa & pb) & _ & E). apply bind_ok in E as (d & _ & E). apply ok_pair in E as (<- & _).
    destruct (trial_update _ _ _ _ _ E1 E2) as (b & H1 & H2 & H3). exists psi, b. auto.
  Qed.
  Lemma adv_settles a : settles_boundary (residual_adv spline a).
  Proof.
    intros e x e' v E. unfold residual_adv in E. apply bind_ok in E as ((e1 & psi) & E1 & E). apply bind_ok in E as (e2 & E2 & E).
    apply bind_ok in E as (d & _ & E). apply ok_pair in E as (<- & _).
    destruct (trial_update _ _ _ _ _ E1 E2) as (b & H1 & H2 & H3). exists psi, b. auto.
  Qed.
  Lemma advnorm_settles a : settles_boundary (residual_advnorm spline a).
  Proof.
    intros e x e' v E. unfold residual_advnorm in E. apply bind_ok in E as ((e1 & psi) & E1 & E). apply bind_ok in E as (e2 & E2 & E).
    apply bind_ok in E as ((pa & pb) & _ & E). apply bind_ok in E as (d & _ & E). apply ok_pair in E as (<- & _).
    destruct (trial_update _ _ _ _ _ E1 E2) as (b & H1 & H2 & H3). exists psi, b. auto.
  Qed.

  (** C145 *)
  Lemma fit_result {A} (f : equilibrium -> list T -> result (equilibrium * A)) (Hf : settles f) opt (e e' : equilibrium) :
    fit f opt e = Ok e' ->
    exists s l x b, opt (controlCurrents (coils (tok e))) = Ok s /\ stops s l x /\
      (length x = ncontrol e -> e' = with_bs (set_currents e x) b).
  Proof.
    unfold fit. intros E. apply bind_ok in E as (s & Es & E). apply bind_ok in E as ((e1 & x) & E1 & E). injection E as <-.
    destruct (run_settles f Hf _ _ _ _ E1) as (l & Hs & Hn & Hl). destruct l as [y|].
    - destruct (Nat.eq_dec (length x) (ncontrol e)) as [Ex|Ex].
      + destruct (Hl x Ex) as (b & Eb). exists s, (Some y), x, b. split; [exact Es|]. split; [exact Hs|]. intros _. exact Eb.
      + exists s, (Some y), x, (bs e). split; [exact Es|]. split; [exact Hs|]. intros C. contradiction.
    - subst e1. exists s, None, x, (bs e). split; [exact Es|]. split; [exact Hs|]. intros _. destruct e; reflexivity.
  Qed.
End FittingProofs.
