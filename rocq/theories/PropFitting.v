(** C145 to C147: what a flux fit of control.py does to the equilibrium. *)
From Coq Require Import String List Arith ZArith QArith Bool Lia Reals Lra.
From Verif Require Import Py Num Numpy Coils Machine Critical Boundary Equilibrium Control Fitting FittingSpec FittingProofs GeqdskProofs SensorsProofs PropEquilibrium2 PropSafety.
Import ListNotations.
Local Open Scope R_scope.

(** [e'] is [e] with the currents [x] in the controlled coils; only the attributes describing the
    plasma boundary may differ besides. *)
Definition fitted {T} `{Num T} {P Ctl} (e e' : equilibrium T P Ctl) (x : list T) : Prop :=
  controlled_only (coils (tok e)) (coils (tok e')) x /\ controlCurrents (coils (tok e')) = x /\
  wall (tok e') = wall (tok e) /\ limits (tok e') = limits (tok e) /\
  (e_nx e', e_ny e', Equilibrium.Rmin e', Equilibrium.Rmax e', Zmin e', Zmax e') = (e_nx e, e_ny e, Equilibrium.Rmin e, Equilibrium.Rmax e, Zmin e, Zmax e) /\
  bnd e' = bnd e /\ order e' = order e /\ slv e' = slv e /\ check_limited e' = check_limited e /\
  plasma_psi e' = plasma_psi e /\ pgreen e' = pgreen e /\ current e' = current e /\ jtor e' = jtor e /\
  profiles e' = profiles e /\ control e' = control e.

Lemma fit_fitted {T} `{Num T} {P Ctl A} (f : equilibrium T P Ctl -> list T -> result (equilibrium T P Ctl * A)) (Hf : settles f) opt e e' :
  (forall s, opt (controlCurrents (coils (tok e))) = Ok s -> same_number (length (controlCurrents (coils (tok e)))) s) ->
  fit f opt e = Ok e' ->
  exists s l x, opt (controlCurrents (coils (tok e))) = Ok s /\ stops s l x /\ fitted e e' x.
Proof.
  intros Hn E. destruct (fit_result f Hf _ _ _ E) as (s & l & x & b & Es & Hs & He). exists s, l, x. split; [exact Es|]. split; [exact Hs|].
  assert (Hl := Hn _ Es _ _ Hs). rewrite (He Hl). unfold fitted, with_bs, set_currents, with_tok. cbn.
  destruct (set_controlled (coils (tok e)) x Hl) as (H1 & H2). repeat (split; [first [assumption|reflexivity]|]). reflexivity.
Qed.

(** C145 — the two fits with optimize.leastsq: the controlled currents are those the optimiser
    stops with, whatever it tried before. *)
Theorem C145_leastsq : forall (T : Type) (N : Num T) (P Ctl : Type) spline leastsq (e e' : equilibrium T P Ctl) cp t w,
  (forall start, same_number (length start) (leastsq start)) ->
  fit_psi leastsq cp e = Ok e' \/ fit_norm spline leastsq t w e = Ok e' ->
  exists l x, stops (leastsq (controlCurrents (coils (tok e)))) l x /\ fitted e e' x.
Proof.
  intros T N P Ctl spline leastsq e e' cp t w Hn E.
  assert (Hs : forall s, (fun x => Ok (leastsq x)) (controlCurrents (coils (tok e))) = Ok s -> same_number (length (controlCurrents (coils (tok e)))) s).
  { intros s Es. injection Es as <-. apply Hn. }
  destruct E as [E|E].
  - destruct (fit_fitted _ (psi_settles cp) _ _ _ Hs E) as (s & l & x & Es & H). injection Es as <-. exists l, x. exact H.
  - destruct (fit_fitted _ (boundary_settles spline _ (norm_settles spline t w)) _ _ _ Hs E) as (s & l & x & Es & H). injection Es as <-. exists l, x. exact H.
Qed.
Print Assumptions C145_leastsq.
(** Two coils with constant flux 1 and flux - ridge per ampere, on the flux of [ridge], which has its
    O-point (1, 1) with flux 2 and its X-point (1, -1) with flux -2 *)
Definition two : machine Q := [("A"%string, MCoil (Coil 1 3 0 1 true (AFixed 1))); ("B"%string, MCoil (Coil 1 4 0 1 true (AFixed 1)))]%Q.
Definition hill : equilibrium Q unit unit :=
  mkeq 7 7 (1 # 4) (7 # 4) (-3 # 1) (3 # 1) (mktok two false []) BFree 2 (SUser (fun _ _ => Raise TypeError)) false
    (plasma_psi ridge) (fun i j => [("A"%string, GNum 1%Q); ("B"%string, GNum (Qred (- plasma_psi ridge i j)))]) 0%Q None no_boundary None None.
(** an optimiser that makes the given trials and then stops with [x] *)
Fixpoint tries {A} (l : list (list Q)) (x : list Q) : search Q A :=
  match l with [] => Stop x | y :: l' => Try y (fun _ => tries l' x) end.
Lemma tries_stops {A} l x : exists z, forall l' y, @stops Q A (tries l x) l' y -> y = x /\ l' = z.
Proof.
  induction l as [|t l IH]; cbn [tries].
  - exists None. intros l' y E. inversion E; subst. split; reflexivity.
  - destruct IH as (z & IH). exists (Some (match z with None => t | Some w => w end)). intros l' y E. inversion E; subst.
    + destruct (IH _ _ H3) as (-> & <-). split; reflexivity.
    + destruct (IH _ _ H3) as (-> & <-). split; reflexivity.
Qed.
Definition flat : list Q * weights Q := (repeat 0%Q 49, WArray (repeat 1%Q 49)).
Definition fit1 : equilibrium Q unit unit := get hill (fit_psi (fun _ => tries [[1; 0]; [0; 1]] [5; 7])%Q flat hill).
Example C145_leastsq_example : fit_psi (fun _ => tries [[1; 0]; [0; 1]] [5; 7])%Q flat hill = Ok fit1 /\
  controlCurrents (coils (tok fit1)) = [5; 7]%Q.
Proof. split; [apply get_ok|]; vm_compute; reflexivity. Qed.

(** The currents an optimiser stops with obey the bounds it is given, if these can be obeyed. *)
Definition obeys (lbfgsb : list R -> list (option R * option R) -> search R R) : Prop :=
  forall start bnds l x, Forall (fun b => forall lo hi, b = (Some lo, Some hi) -> lo <= hi) bnds -> stops (lbfgsb start bnds) l x ->
    Forall2 (fun b v => (forall lo, fst b = Some lo -> lo <= v) /\ (forall hi, snd b = Some hi -> v <= hi)) bnds x.
Lemma f2_length {A B} (Q : A -> B -> Prop) l l' : Forall2 Q l l' -> length l = length l'.
Proof. induction 1; cbn; congruence. Qed.
Lemma adv_bounds_nth (lims : list (R * R)) : forall n i0 bnds,
  mapM (fun i => bind (adv_limit (Some lims) i) (fun p => Ok (Some (fst p), Some (snd p)))) (seq i0 n) = Ok bnds ->
  length bnds = n /\ forall i b, nth_error bnds i = Some b -> exists p, nth_error lims (i0 + i)%nat = Some p /\
    b = (Some (Rbasic_fun.Rmin (fst p) (snd p)), Some (Rbasic_fun.Rmax (fst p) (snd p))).
Proof.
  induction n as [|n IH]; intros i0 bnds E.
  - cbn in E. injection E as <-. split; [reflexivity|]. intros [|i] b C; discriminate.
  - cbn [seq mapM] in E. apply bind_ok in E as (b0 & E0 & E). apply bind_ok in E as (bs & E1 & E). injection E as <-.
    apply bind_ok in E0 as (q & Eq & E0). injection E0 as <-. unfold adv_limit in Eq.
    destruct (nth_error lims i0) as [p|] eqn:Ep; [|discriminate]. injection Eq as <-.
    destruct (IH _ _ E1) as (Hl & Hi). split; [cbn; congruence|]. intros [|i] b C.
    + cbn in C. injection C as <-. exists p. rewrite Nat.add_0_r. split; [exact Ep|]. cbn [fst snd]. rewrite nmin_R, nmax_R. reflexivity.
    + cbn in C. destruct (Hi _ _ C) as (p' & Hp & Hb). exists p'. split; [|exact Hb]. rewrite <- Hp. f_equal. lia.
Qed.

Lemma bounded_fitted {P Ctl} lbfgsb (f : equilibrium R P Ctl -> list R -> result (equilibrium R P Ctl * R)) (Hf0 : settles f) lim0 e e' :
  obeys lbfgsb -> fit f (bounded lbfgsb lim0) e = Ok e' ->
  exists x, fitted e e' x /\
    forall lims, lim0 = Some lims -> forall i v, nth_error x i = Some v ->
      exists p, nth_error lims i = Some p /\ Rbasic_fun.Rmin (fst p) (snd p) <= v <= Rbasic_fun.Rmax (fst p) (snd p).
Proof.
  intros Ho E. set (sc := controlCurrents (coils (tok e))).
  assert (Hb : forall s, bounded lbfgsb lim0 sc = Ok s ->
    exists start bnds, adv_bounds lim0 (length sc) = Ok bnds /\ s = lbfgsb start bnds).
  { intros s Es. unfold bounded in Es. apply bind_ok in Es as (start & _ & Es). apply bind_ok in Es as (bnds & Eb & Es). injection Es as <-.
    exists start, bnds. split; [exact Eb|reflexivity]. }
  assert (Hlen : forall bnds, adv_bounds lim0 (length sc) = Ok bnds -> length bnds = length sc).
  { intros bnds Eb. unfold adv_bounds in Eb. apply mapM_length in Eb. rewrite seq_length in Eb. exact Eb. }
  assert (Hc : forall bnds, adv_bounds lim0 (length sc) = Ok bnds -> Forall (fun b => forall lo hi, b = (Some lo, Some hi) -> lo <= hi) bnds).
  { intros bnds Eb. unfold adv_bounds in Eb. apply Forall_forall. intros b Hb2. destruct lim0 as [lims|].
    - destruct (adv_bounds_nth lims _ _ _ Eb) as (_ & Hi). apply In_nth_error in Hb2 as (i & Hb2). destruct (Hi _ _ Hb2) as (p & _ & ->).
      intros lo hi [= <- <-]. apply Rle_trans with (fst p); [apply Rmin_l|apply Rmax_l].
    - rewrite (mapM_ok _ (fun _ => (None, None))) in Eb by reflexivity. injection Eb as <-. apply in_map_iff in Hb2 as (i & <- & _). intros lo hi [=]. }
  assert (Hs : forall s, bounded lbfgsb lim0 sc = Ok s -> same_number (length sc) s).
  { intros s Es l x Hx. destruct (Hb _ Es) as (start & bnds & Eb & ->). apply Ho, f2_length in Hx; [|apply Hc; exact Eb]. rewrite <- Hx. apply Hlen. exact Eb. }
  assert (Hf : exists s l x, bounded lbfgsb lim0 sc = Ok s /\ stops s l x /\ fitted e e' x).
  { exact (fit_fitted _ Hf0 _ _ _ Hs E). }
  destruct Hf as (s & l & x & Es & Hx & Hf). exists x. split; [exact Hf|]. intros lims El i v Ev.
  destruct (Hb _ Es) as (start & bnds & Eb & ->). apply Ho in Hx; [|apply Hc; exact Eb].
  unfold adv_bounds in Eb. rewrite El in Eb. destruct (adv_bounds_nth lims _ _ _ Eb) as (_ & Hi).
  clear - Hx Hi Ev. revert lims Hi i Ev. 
  assert (G : forall i, nth_error x i = Some v -> exists b, nth_error bnds i = Some b /\ (forall lo, fst b = Some lo -> lo <= v) /\ (forall hi, snd b = Some hi -> v <= hi)).
  { induction Hx as [|b w bnds x Hb Hx IH]; intros [|i] Ev; try discriminate.
    - cbn in Ev. injection Ev as <-. exists b. split; [reflexivity|exact Hb].
    - apply IH. exact Ev. }
  intros lims Hi i Ev. destruct (G i Ev) as (b & Enb & H1 & H2). destruct (Hi i b Enb) as (p & Ep & ->). exists p. split; [exact Ep|].
  split; [apply H1|apply H2]; reflexivity.
Qed.
(** ... and the Advanced ones: the currents are those the optimiser stops with, and obey the limits
    given to the control system, in whichever order the two are written. *)
Theorem C145_lbfgsb : forall (P Ctl : Type) spline lbfgsb (e e' : equilibrium R P Ctl) a,
  obeys lbfgsb ->
  fit_adv spline lbfgsb a e = Ok e' \/ fit_advnorm spline lbfgsb a e = Ok e' ->
  exists x, fitted e e' x /\
    forall lims, adv_lims a = Some lims -> forall i v, nth_error x i = Some v ->
      exists p, nth_error lims i = Some p /\ Rbasic_fun.Rmin (fst p) (snd p) <= v <= Rbasic_fun.Rmax (fst p) (snd p).
Proof.
  intros P Ctl spline lbfgsb e e' a Ho [E|E].
  - exact (bounded_fitted lbfgsb _ (boundary_settles spline _ (adv_settles spline a)) _ _ _ Ho E).
  - exact (bounded_fitted lbfgsb _ (boundary_settles spline _ (advnorm_settles spline a)) _ _ _ Ho E).
Qed.
Print Assumptions C145_lbfgsb.
(** an optimiser that stops at the lower bounds; the limits are written the wrong way round *)
Definition lowest (start : list R) (bnds : list (option R * option R)) : search R R :=
  Stop (map (fun b => match b with (Some lo, _) => lo | (None, Some hi) => hi | (None, None) => 0 end) bnds).
Definition dot : equilibrium R unit unit :=
  mkeq 1 1 1 2 0 1 (mktok [("A"%string, MCoil (Coil 1 3 10 1 true (AFixed 1))); ("F"%string, MCoil (Coil 1 4 6 1 false (AFixed 1)))] false [])
    BFree 2 (SUser (fun _ _ => Raise TypeError)) false (fun _ _ => 0) (fun _ _ => []) 0 None no_boundary None None.
Example C145_lbfgsb_example : obeys lowest /\
  exists e', fit_adv (fun _ _ _ _ _ _ _ _ _ => 0) lowest (mkadv [0] (WArray [1]) (Some [(8, 5)])) dot = Ok e' /\ controlCurrents (coils (tok e')) = [5].
Proof.
  split.
  - intros start bnds l x Hc E. inversion E; subst. clear E. induction Hc as [|b bnds Hb Hc IH]; [constructor|]. cbn [map]. constructor; [|exact IH].
    destruct b as [[lo|] [hi|]]; cbn; split; intros v [= <-]; try lra. apply Hb. reflexivity.
  - unfold fit_adv, fit, bounded. cbn [adv_lims].
    assert (E : adv_start (Some [(8, 5)]) 0 (controlCurrents (coils (tok dot))) = Ok [8]).
    { cbn. nR. unfold nleb. rewrite nmin_R, nmax_R, Rmin_right, Rmax_left by lra. rewrite (proj2 (R_ltb_false 10 5)), (proj2 (R_ltb_true 8 10)) by lra. reflexivity. }
    rewrite E. cbn. nR. eexists. split; [reflexivity|]. cbn. rewrite nmin_R, Rmin_right by lra. reflexivity.
Qed.

(** The state after trials made earlier in the same fit *)
Definition earlier {T A} `{Num T} {P Ctl} (residual : equilibrium T P Ctl -> list T -> result (equilibrium T P Ctl * A)) (ys : list (list T)) (e : equilibrium T P Ctl) :=
  foldM (fun e y => rmap fst (residual e y)) ys e.
Lemma earlier_same {T A} `{Num T} {P Ctl} (f : equilibrium T P Ctl -> list T -> result (equilibrium T P Ctl * A)) (Hf : settles f) e :
  forall ys e0 e1, same_machine e e0 -> earlier f ys e0 = Ok e1 -> same_machine e e1.
Proof.
  induction ys as [|y ys IH]; intros e0 e1 H0 E.
  - cbn in E. injection E as <-. exact H0.
  - unfold earlier in E. cbn [foldM] in E. apply bind_ok in E as (e2 & E2 & E). destruct (f e0 y) as [[e3 v]|] eqn:Ef; [|discriminate]. cbn in E2. injection E2 as <-.
    destruct (Hf _ _ _ _ Ef) as (b & ->). apply (IH _ _ (same_machine_trial e e0 y b H0) E).
Qed.
Lemma update_boundary_raises {T} `{Num T} {P Ctl} spline (e : equilibrium T P Ctl) c nx ny psi :
  rmap (fun _ => tt) (update_boundary spline (with_bs e c) nx ny psi) = rmap (fun _ => tt) (update_boundary spline e nx ny psi).
Proof.
  unfold update_boundary. change (eq_find_critical spline (with_bs e c) nx ny psi) with (eq_find_critical spline e nx ny psi).
  destruct (eq_find_critical spline e nx ny psi) as [[opt xs]|]; [|reflexivity]. cbn [bind]. unfold update_from.
  change (eq_spline spline (with_bs e c)) with (eq_spline spline e). change (eq_core_mask (with_bs e c)) with (eq_core_mask e).
  cbn [with_bs check_limited tok bnd e_nx e_ny bs]. destruct opt as [|o os]; [reflexivity|].
  destruct (check_limited e && wall (tok e))%bool.
  - destruct (eq_spline spline e (e_ny e) (e_nx e) _) as [f|]; [|reflexivity]. cbn [bind]. destruct (argmax _) as [k|]; [|reflexivity].
    destruct xs as [|x xs]; [reflexivity|].
    destruct (eq_core_mask _ _ _ _ _) as [m|]; [|reflexivity]. cbn [bind]. destruct (eq_spline spline e (e_nx e) (e_ny e) m); reflexivity.
  - destruct xs as [|x xs]; [reflexivity|].
    destruct (eq_core_mask _ _ _ _ _) as [m|]; [|reflexivity]. cbn [bind]. destruct (eq_spline spline e (e_nx e) (e_ny e) m); reflexivity.
Qed.

(** C146 — the value that the optimiser is told for trial currents does not depend on what it tried
    before: fits of the flux itself. *)
Theorem C146_flux : forall (T : Type) (N : Num T) (P Ctl : Type) spline (e e1 e2 : equilibrium T P Ctl) cp a ys x,
  length x = length (controlCurrents (coils (tok e))) ->
  earlier (residual_psi cp) ys e = Ok e1 -> earlier (residual_adv spline a) ys e = Ok e2 ->
  rmap snd (residual_psi cp e1 x) = rmap snd (residual_psi cp e x) /\
  rmap snd (residual_adv spline a e2 x) = rmap snd (residual_adv spline a e x).
Proof.
  intros T N P Ctl spline e e1 e2 cp a ys x Hx E1 E2. split.
  - destruct (earlier_same _ (psi_settles cp) e _ _ _ (same_machine_refl e) E1) as (_ & Hs). destruct (Hs x Hx) as (c & Ec).
    unfold residual_psi, trial_psi. rewrite Ec. change (total_psi (with_bs (set_currents e x) c)) with (total_psi (set_currents e x)).
    destruct (total_psi (set_currents e x)) as [psi|]; [|reflexivity]. cbn [bind]. change (values (with_bs (set_currents e x) c) psi) with (values (set_currents e x) psi).
    destruct (psi_difference _ _); reflexivity.
  - destruct (earlier_same _ (boundary_settles spline _ (adv_settles spline a)) e _ _ _ (same_machine_refl e) E2) as (_ & Hs). destruct (Hs x Hx) as (c & Ec).
    unfold residual_adv, trial_psi, update_trial. rewrite Ec. change (total_psi (with_bs (set_currents e x) c)) with (total_psi (set_currents e x)).
    destruct (total_psi (set_currents e x)) as [psi|]; [|reflexivity]. cbn [bind].
    change (e_nx (with_bs (set_currents e x) c)) with (e_nx (set_currents e x)). change (e_ny (with_bs (set_currents e x) c)) with (e_ny (set_currents e x)).
    assert (Hr := update_boundary_raises spline (set_currents e x) c (e_nx (set_currents e x)) (e_ny (set_currents e x)) psi).
    destruct (update_boundary spline (with_bs _ _) _ _ psi) as [b|]; destruct (update_boundary spline (set_currents e x) _ _ psi) as [b0|]; cbn in Hr; try discriminate.
    + cbn [bind]. change (values (with_bs (with_bs (set_currents e x) c) b) psi) with (values (set_currents e x) psi).
      change (values (with_bs (set_currents e x) b0) psi) with (values (set_currents e x) psi). destruct (adv_difference a _); reflexivity.
    + cbn. congruence.
Qed.
Print Assumptions C146_flux.

(** ... and fits of the normalised flux, for trial currents with which there is an O-point. *)
Theorem C146_normalised : forall (T : Type) (N : Num T) (P Ctl : Type) spline (e e1 e2 : equilibrium T P Ctl) t w a ys x psi o os xs,
  length x = length (controlCurrents (coils (tok e))) ->
  total_psi (set_currents e x) = Ok psi -> eq_find_critical spline (set_currents e x) (e_nx e) (e_ny e) psi = Ok (o :: os, xs) ->
  earlier (residual_norm spline t w) ys e = Ok e1 -> earlier (residual_advnorm spline a) ys e = Ok e2 ->
  rmap snd (residual_norm spline t w e1 x) = rmap snd (residual_norm spline t w e x) /\
  rmap snd (residual_advnorm spline a e2 x) = rmap snd (residual_advnorm spline a e x).
Proof.
  intros T N P Ctl spline e e1 e2 t w a ys x psi o os xs Hx Ep Eo E1 E2.
  assert (G : forall c, match update_boundary spline (with_bs (set_currents e x) c) (e_nx e) (e_ny e) psi, update_boundary spline (set_currents e x) (e_nx e) (e_ny e) psi with
    | Ok b, Ok b0 => trial_bounds (with_bs (with_bs (set_currents e x) c) b) = trial_bounds (with_bs (set_currents e x) b0)
    | Raise v, Raise v0 => v = v0 | _, _ => False end).
  { intros c. assert (Hr := update_boundary_raises spline (set_currents e x) c (e_nx e) (e_ny e) psi).
    assert (Hf := update_boundary_fresh spline (set_currents e x) c (e_nx e) (e_ny e) psi o os xs).
    destruct (update_boundary spline (with_bs _ _) _ _ psi) as [b|]; destruct (update_boundary spline (set_currents e x) _ _ psi) as [b0|]; cbn in Hr; try discriminate.
    - destruct (Hf _ _ Eo eq_refl eq_refl) as (H1 & H2 & _). unfold trial_bounds. cbn [with_bs bs]. rewrite H1, H2. reflexivity.
    - congruence. }
  split.
  - destruct (earlier_same _ (boundary_settles spline _ (norm_settles spline t w)) e _ _ _ (same_machine_refl e) E1) as (_ & Hs). destruct (Hs x Hx) as (c & Ec).
    unfold residual_norm, trial_psi, update_trial. rewrite Ec. change (total_psi (with_bs (set_currents e x) c)) with (total_psi (set_currents e x)). rewrite Ep. cbn [bind].
    change (e_nx (with_bs (set_currents e x) c)) with (e_nx e). change (e_ny (with_bs (set_currents e x) c)) with (e_ny e).
    change (e_nx (set_currents e x)) with (e_nx e). change (e_ny (set_currents e x)) with (e_ny e). specialize (G c).
    destruct (update_boundary spline (with_bs _ _) _ _ psi) as [b|]; destruct (update_boundary spline (set_currents e x) _ _ psi) as [b0|]; try contradiction.
    + cbn [bind]. rewrite G. clear G. destruct (trial_bounds (with_bs (set_currents e x) b0)) as [[pa pb]|]; [|reflexivity]. cbn [bind].
      change (values (with_bs (with_bs (set_currents e x) c) b) psi) with (values (set_currents e x) psi).
      change (values (with_bs (set_currents e x) b0) psi) with (values (set_currents e x) psi). destruct (psinorm_difference t w pa pb _); reflexivity.
    + cbn. congruence.
  - destruct (earlier_same _ (boundary_settles spline _ (advnorm_settles spline a)) e _ _ _ (same_machine_refl e) E2) as (_ & Hs). destruct (Hs x Hx) as (c & Ec).
    unfold residual_advnorm, trial_psi, update_trial. rewrite Ec. change (total_psi (with_bs (set_currents e x) c)) with (total_psi (set_currents e x)). rewrite Ep. cbn [bind].
    change (e_nx (with_bs (set_currents e x) c)) with (e_nx e). change (e_ny (with_bs (set_currents e x) c)) with (e_ny e).
    change (e_nx (set_currents e x)) with (e_nx e). change (e_ny (set_currents e x)) with (e_ny e). specialize (G c).
    destruct (update_boundary spline (with_bs _ _) _ _ psi) as [b|]; destruct (update_boundary spline (set_currents e x) _ _ psi) as [b0|]; try contradiction.
    + cbn [bind]. rewrite G. clear G. destruct (trial_bounds (with_bs (set_currents e x) b0)) as [[pa pb]|]; [|reflexivity]. cbn [bind].
      change (values (with_bs (with_bs (set_currents e x) c) b) psi) with (values (set_currents e x) psi).
      change (values (with_bs (set_currents e x) b0) psi) with (values (set_currents e x) psi). destruct (advnorm_difference a pa pb _); reflexivity.
    + cbn. congruence.
Qed.
Print Assumptions C146_normalised.

Example C146_normalised_example : length [0; 0]%Q = length (controlCurrents (coils (tok hill))) /\
  is_ok (earlier (residual_norm spline_ridge (repeat 0%Q 49) (WArray (repeat 1%Q 49))) [[1; 0]]%Q hill) = true /\
  (exists d, rmap snd (residual_norm spline_ridge (repeat 0%Q 49) (WArray (repeat 1%Q 49)) hill [0; 0]%Q) = Ok d /\ (nth 24 d 0 == 1 # 2)%Q).
Proof.
  split; [reflexivity|]. split; [vm_compute; reflexivity|].
  exists (get [] (rmap snd (residual_norm spline_ridge (repeat 0%Q 49) (WArray (repeat 1%Q 49)) hill [0; 0]%Q))).
  split; [apply get_ok|]; vm_compute; reflexivity.
Qed.
(** Without an O-point it does: with currents (0, 1) the flux of [hill] is 0 everywhere; after the
    trial (1, 0) it is normalised to 3/4, after the trial (0, 0) to 1/2. *)
Definition zeros49 : list Q := repeat 0%Q 49.
Definition w49 : weights Q := WArray (repeat 1%Q 49).
Theorem C146_normalised_refuted : exists (e e1 e2 : equilibrium Q unit unit) spline t w ys1 ys2 x d1 d2 e3 e4,
  length x = length (controlCurrents (coils (tok e))) /\
  earlier (residual_norm spline t w) ys1 e = Ok e1 /\ earlier (residual_norm spline t w) ys2 e = Ok e2 /\
  residual_norm spline t w e1 x = Ok (e3, d1) /\ residual_norm spline t w e2 x = Ok (e4, d2) /\
  (nth 0 d1 0 == 3 # 4)%Q /\ (nth 0 d2 0 == 1 # 2)%Q.
Proof.
  set (s1 := earlier (residual_norm spline_ridge zeros49 w49) [[1; 0]]%Q hill). set (s2 := earlier (residual_norm spline_ridge zeros49 w49) [[0; 0]]%Q hill).
  assert (O1 : is_ok s1 = true) by (vm_compute; reflexivity). assert (O2 : is_ok s2 = true) by (vm_compute; reflexivity).
  set (r1 := residual_norm spline_ridge zeros49 w49 (get hill s1) [0; 1]%Q). set (r2 := residual_norm spline_ridge zeros49 w49 (get hill s2) [0; 1]%Q).
  assert (O3 : is_ok r1 = true) by (vm_compute; reflexivity). assert (O4 : is_ok r2 = true) by (vm_compute; reflexivity).
  exists hill, (get hill s1), (get hill s2), spline_ridge, zeros49, w49, [[1; 0]]%Q, [[0; 0]]%Q, [0; 1]%Q, (snd (get (hill, []) r1)), (snd (get (hill, []) r2)), (fst (get (hill, []) r1)), (fst (get (hill, []) r2)).
  split; [reflexivity|]. split; [apply get_ok; exact O1|]. split; [apply get_ok; exact O2|].
  split; [rewrite <- surjective_pairing; apply (get_ok (hill, [])); exact O3|]. split; [rewrite <- surjective_pairing; apply (get_ok (hill, [])); exact O4|].
  split; vm_compute; reflexivity.
Qed.
Print Assumptions C146_normalised_refuted.

(** C147 — the attributes describing the plasma boundary after a fit: a fit of the flux with leastsq
    leaves them as they were, *)
Theorem C147_flux_fit : forall (T : Type) (N : Num T) (P Ctl : Type) leastsq (e e' : equilibrium T P Ctl) cp,
  fit_psi leastsq cp e = Ok e' -> bs e' = bs e.
Proof.
  intros T N P Ctl leastsq e e' cp E. unfold fit_psi, fit in E. apply bind_ok in E as (s & _ & E). apply bind_ok in E as ((e1 & x) & E1 & E).
  injection E as <-. rewrite <- (psi_keeps cp _ _ _ _ E1). reflexivity.
Qed.
Print Assumptions C147_flux_fit.
(** and the other fits leave those of the trial that was made last (if that has an O-point). *)
Definition left_by {T} `{Num T} {P Ctl} spline (e e' : equilibrium T P Ctl) (last : option (list T)) : Prop :=
  match last with
  | None => bs e' = bs e
  | Some y => length y = length (controlCurrents (coils (tok e))) -> exists psi b0,
      total_psi (set_currents e y) = Ok psi /\ update_boundary spline (set_currents e y) (e_nx e) (e_ny e) psi = Ok b0 /\
      forall o os xs, eq_find_critical spline (set_currents e y) (e_nx e) (e_ny e) psi = Ok (o :: os, xs) ->
      Equilibrium.psi_axis (bs e') = Equilibrium.psi_axis b0 /\ psi_bndry (bs e') = psi_bndry b0 /\ mask (bs e') = mask b0 /\ is_limited (bs e') = is_limited b0
  end.
Lemma fit_left_by {T} `{Num T} {P Ctl A} spline (f : equilibrium T P Ctl -> list T -> result (equilibrium T P Ctl * A)) (Hf : settles_boundary spline f) opt e e' :
  fit f opt e = Ok e' -> exists s l x, opt (controlCurrents (coils (tok e))) = Ok s /\ stops s l x /\ left_by spline e e' l.
Proof.
  unfold fit. intros E. apply bind_ok in E as (s & Es & E). apply bind_ok in E as ((e1 & x) & E1 & E). injection E as <-.
  destruct (run_boundary spline f Hf e _ _ _ _ (same_machine_refl e) E1) as (l & Hs & Hl). exists s, l, x. split; [exact Es|]. split; [exact Hs|].
  destruct l as [y|]; cbn [left_by].
  - intros Hy. destruct (Hl Hy) as (c & psi & b & Ep & Eb & Ebs). assert (Hr := update_boundary_raises spline (set_currents e y) c (e_nx e) (e_ny e) psi). rewrite Eb in Hr.
    destruct (update_boundary spline (set_currents e y) (e_nx e) (e_ny e) psi) as [b0|] eqn:Eb0; [|discriminate]. exists psi, b0. split; [exact Ep|]. split; [exact Eb0|].
    intros o os xs Eo. change (bs (set_currents e1 x)) with (bs e1). rewrite Ebs. exact (update_boundary_fresh spline _ _ _ _ _ _ _ _ _ _ Eo Eb Eb0).
  - subst e1. reflexivity.
Qed.
Theorem C147_last_trial : forall (T : Type) (N : Num T) (P Ctl : Type) spline leastsq lbfgsb (e e' : equilibrium T P Ctl) t w a,
  (fit_norm spline leastsq t w e = Ok e' -> exists l x, stops (leastsq (controlCurrents (coils (tok e)))) l x /\ left_by spline e e' l) /\
  (fit_adv spline lbfgsb a e = Ok e' \/ fit_advnorm spline lbfgsb a e = Ok e' ->
   exists start bnds l x, stops (lbfgsb start bnds) l x /\ left_by spline e e' l).
Proof.
  intros T N P Ctl spline leastsq lbfgsb e e' t w a. split.
  - intros E. destruct (fit_left_by spline _ (norm_settles spline t w) _ _ _ E) as (s & l & x & Es & H). injection Es as <-. exists l, x. exact H.
  - intros E. assert (Hf : exists s l x, bounded lbfgsb (adv_lims a) (controlCurrents (coils (tok e))) = Ok s /\ stops s l x /\ left_by spline e e' l).
    { destruct E as [E|E]; [exact (fit_left_by spline _ (adv_settles spline a) _ _ _ E)|exact (fit_left_by spline _ (advnorm_settles spline a) _ _ _ E)]. }
    destruct Hf as (s & l & x & Es & Hs & Hb). unfold bounded in Es. apply bind_ok in Es as (start & _ & Es). apply bind_ok in Es as (bnds & _ & Es). injection Es as <-.
    exists start, bnds, l, x. split; [exact Hs|exact Hb].
Qed.
Print Assumptions C147_last_trial.

(** So they need not be those of the flux that the equilibrium has after the fit.  [hill] has the axis
    flux 2 and the boundary flux -2; after a fit that tried (1, 0) and stopped with (0, 0) its
    attributes say 3 and -1. *)
Definition probe {A} (start : list Q) : search Q A :=
  Try (match start with _ :: l => 1%Q :: l | [] => [] end) (fun _ => Stop start).
Lemma probe_number {A} start : same_number (length start) (@probe A start).
Proof. intros l x E. inversion E; subst; match goal with H : stops _ _ _ |- _ => inversion H; subst end. reflexivity. Qed.
Definition fluxes (e : equilibrium Q unit unit) := (Equilibrium.psi_axis (bs e), psi_bndry (bs e)).
Definition fit2 : equilibrium Q unit unit := get hill (fit_norm spline_ridge probe zeros49 w49 hill).
Theorem C147_attributes_refuted : exists (e e' e1 : equilibrium Q unit unit) spline leastsq t w,
  (forall start, same_number (length start) (leastsq start)) /\
  fit_norm spline leastsq t w e = Ok e' /\ update_own spline e' = Ok e1 /\
  fluxes e' = (Some 3%Q, Some (Some (-1)%Q)) /\ fluxes e1 = (Some 2%Q, Some (Some (-2)%Q)).
Proof.
  exists hill, fit2, (get hill (update_own spline_ridge fit2)), spline_ridge, probe, zeros49, w49. split; [intros start; apply probe_number|].
  split; [apply get_ok; vm_compute; reflexivity|]. split; [apply get_ok; vm_compute; reflexivity|]. split; vm_compute; reflexivity.
Qed.
Print Assumptions C147_attributes_refuted.
(** A fit of the flux that changes the currents to (1, 0) leaves the attributes 2 and -2 of the flux
    before, which is 1 smaller than the flux after. *)
Definition raise1 {A} (start : list Q) : search Q A := Stop (match start with _ :: l => 1%Q :: l | [] => [] end).
Definition hill0 : equilibrium Q unit unit := get hill (update_own spline_ridge hill).
Definition fit3 : equilibrium Q unit unit := get hill (fit_psi raise1 flat hill0).
Theorem C147_flux_fit_refuted : exists (e0 e e' e1 : equilibrium Q unit unit) spline leastsq cp,
  (forall start, same_number (length start) (leastsq start)) /\ update_own spline e0 = Ok e /\
  fit_psi leastsq cp e = Ok e' /\ update_own spline e' = Ok e1 /\
  fluxes e' = (Some 2%Q, Some (Some (-2)%Q)) /\ fluxes e1 = (Some 3%Q, Some (Some (-1)%Q)).
Proof.
  exists hill, hill0, fit3, (get hill (update_own spline_ridge fit3)), spline_ridge, raise1, flat.
  split; [intros start l x E; inversion E; destruct start; reflexivity|].
  split; [apply get_ok; vm_compute; reflexivity|]. split; [apply get_ok; vm_compute; reflexivity|]. split; [apply get_ok; vm_compute; reflexivity|].
  split; vm_compute; reflexivity.
Qed.
Print Assumptions C147_flux_fit_refuted.
