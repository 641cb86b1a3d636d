(** C148 and C149: the equilibrium returned by geqdsk.read, and its control system. *)
From Coq Require Import String List Arith ZArith QArith Bool Lia Reals Lra.
From Verif Require Import Py Num Numpy Coils Machine Critical Boundary BoundarySpec BoundaryProofs Jtor Equilibrium EquilibriumProofs Control Fitting FittingSpec FittingProofs Picard PicardProofs Geqdsk GeqdskProofs GeqdskFit PropEquilibrium2 PropSafety PropFitting.
From Verif Require Sensors.
Import ListNotations.
Local Open Scope R_scope.

(** [e] has the machine of [e0], with currents in the controlled coils that obey the limits. *)
Definition held {P Ctl} (bounds : option (list (R * R))) (e0 e : equilibrium R P Ctl) : Prop :=
  exists x, controlled_only (coils (tok e0)) (coils (tok e)) x /\ wall (tok e) = wall (tok e0) /\ limits (tok e) = limits (tok e0) /\
    (e_nx e, e_ny e, Equilibrium.Rmin e, Equilibrium.Rmax e, Zmin e, Zmax e) = (e_nx e0, e_ny e0, Equilibrium.Rmin e0, Equilibrium.Rmax e0, Zmin e0, Zmax e0) /\
    forall lims, bounds = Some lims -> forall i v, nth_error x i = Some v ->
      exists p, nth_error lims i = Some p /\ Rbasic_fun.Rmin (fst p) (snd p) <= v <= Rbasic_fun.Rmax (fst p) (snd p).

Lemma controlled_set {T} `{Num T} : forall (M M' : machine T) x, controlled_only M M' x ->
  M' = setControlCurrents M x /\ length x = length (controlCurrents M).
Proof.
  unfold setControlCurrents, controlCurrents. induction 1 as [|lb m M M' l Ec Hc (IH1 & IH2)|lb m M M' v l Ec Hc (IH1 & IH2)].
  - split; reflexivity.
  - cbn [zip_controls filter snd]. rewrite Ec. split; [congruence|exact IH2].
  - cbn [zip_controls filter snd]. rewrite Ec. cbn [map length]. split; [congruence|lia].
Qed.
Lemma controlled_trans {T} `{Num T} (M M1 M2 : machine T) x y : controlled_only M M1 x -> controlled_only M1 M2 y -> controlled_only M M2 y.
Proof.
  intros H1 H2. apply controlled_set in H1 as (-> & L1). apply controlled_set in H2 as (-> & L2). rewrite controls_length in L2. rewrite set_twice by exact L2.
  apply set_controlled. exact L2.
Qed.

Section Read.
  Context {P Ctl : Type}.
  Variable G : field -> R -> R -> R -> R -> R.
  Variables (sqrt : R -> R) (mu0 : R).
  Variable lu : nat -> arr2 R -> (nat -> R) -> (nat -> R).
  Variable spline : nat -> nat -> (nat -> R) -> (nat -> R) -> arr2 R -> sfun R.
  Variables (pi : R) (sin cos : R -> R) (arctan2 : R -> R -> R).
  Local Notation equilibrium := (equilibrium R P Ctl).
  Variable Jtor_call : P -> equilibrium -> arr2 R -> option R -> result (arr2 R * P * bstate R).
  Variable inj : @fprofile R -> P.
  Variable leastsq : list R -> search R (list R).
  Variable lbfgsb : list R -> list (option R * option R) -> search R R.
  Variable constrain : list (point R) -> list (R * R * (R * R)) -> R -> Ctl.
  Hypothesis Hl : forall start, same_number (length start) (leastsq start).
  Hypothesis Hb : obeys lbfgsb.

  Definition grid6 (e : equilibrium) := (e_nx e, e_ny e, Equilibrium.Rmin e, Equilibrium.Rmax e, Zmin e, Zmax e).
  (** the machine of [e0] or with other currents *)
  Definition near (e0 e : equilibrium) : Prop :=
    (tok e = tok e0 \/ exists bounds, held bounds e0 e) /\ grid6 e = grid6 e0.
  Lemma fitted_held bounds (e0 e e' : equilibrium) x : near e0 e -> fitted e e' x ->
    (forall lims, bounds = Some lims -> forall i v, nth_error x i = Some v ->
      exists p, nth_error lims i = Some p /\ Rbasic_fun.Rmin (fst p) (snd p) <= v <= Rbasic_fun.Rmax (fst p) (snd p)) -> held bounds e0 e'.
  Proof.
    intros (Hn & Hg) (F1 & F2 & F3 & F4 & F5 & _) Hx. exists x. split; [|split; [|split; [|split]]].
    - destruct Hn as [E|(b0 & y & Y & _)]; [rewrite <- E; exact F1|]. exact (controlled_trans _ _ _ _ _ Y F1).
    - rewrite F3. destruct Hn as [E|(b0 & y & _ & Y & _)]; [rewrite E; reflexivity|exact Y].
    - rewrite F4. destruct Hn as [E|(b0 & y & _ & _ & Y & _)]; [rewrite E; reflexivity|exact Y].
    - rewrite F5. exact Hg.
    - exact Hx.
  Qed.
  Lemma none_settles {A} c : @settles R _ P Ctl A (residual_none spline c).
  Proof.
    intros e x e' v E. unfold residual_none in E. apply bind_ok in E as ((e1 & psi) & _ & E). apply bind_ok in E as (e2 & _ & E).
    destruct c; [apply bind_ok in E as (? & _ & E)|]; discriminate.
  Qed.
  Lemma leastsq_start (e : equilibrium) (s : search R (list R)) :
    Ok (leastsq (controlCurrents (coils (tok e)))) = Ok s -> same_number (length (controlCurrents (coils (tok e)))) s.
  Proof. intros E. injection E as <-. apply Hl. Qed.
  Lemma first_held psi m fs bounds (e0 e e' : equilibrium) : near e0 e -> first_fit spline leastsq lbfgsb psi m fs bounds e = Ok e' -> held bounds e0 e'.
  Proof.
    intros Hn E. unfold first_fit in E. cbv zeta in E. destruct bounds as [lims|].
    - assert (F : exists x, fitted e e' x /\ forall l, Some lims = Some l -> forall i v, nth_error x i = Some v ->
        exists p, nth_error l i = Some p /\ Rbasic_fun.Rmin (fst p) (snd p) <= v <= Rbasic_fun.Rmax (fst p) (snd p)).
      { assert (A : forall w, fit_adv spline lbfgsb (ConstrainPsi2DAdvanced (values e psi) w (Some lims) None) e = Ok e' -> exists x, fitted e e' x /\ forall l, Some lims = Some l -> forall i v, nth_error x i = Some v ->
          exists p, nth_error l i = Some p /\ Rbasic_fun.Rmin (fst p) (snd p) <= v <= Rbasic_fun.Rmax (fst p) (snd p)).
        { intros w E'. exact (C145_lbfgsb P Ctl spline lbfgsb e e' _ Hb (or_introl E')). }
        destruct fs; [exact (A _ E)|]. destruct m as [m|]; [exact (A _ E)|]. exact (bounded_fitted lbfgsb _ (none_settles false) _ _ _ Hb E). }
      destruct F as (x & F & Fx). exact (fitted_held _ _ _ _ x Hn F Fx).
    - apply bind_ok in E as (cp & _ & E). destruct (fit_fitted _ (psi_settles cp) _ _ _ (leastsq_start e) E) as (s & l & x & _ & _ & F).
      apply (fitted_held None _ _ _ x Hn F). intros lims [=].
  Qed.
  Lemma second_held psi m bounds (e0 e e' : equilibrium) : near e0 e -> second_fit spline leastsq lbfgsb psi m bounds e = Ok e' -> held bounds e0 e'.
  Proof.
    intros Hn E. unfold second_fit in E. cbv zeta in E. destruct m as [m|]; destruct bounds as [lims|].
    - destruct (C145_lbfgsb P Ctl spline lbfgsb e e' _ Hb (or_intror E)) as (x & F & Fx). exact (fitted_held _ _ _ _ x Hn F Fx).
    - destruct (fit_fitted _ (boundary_settles spline _ (norm_settles spline _ _)) _ _ _ (leastsq_start e) E) as (s & l & x & _ & _ & F).
      apply (fitted_held None _ _ _ x Hn F). intros lims [=].
    - destruct (bounded_fitted lbfgsb _ (none_settles true) _ _ _ Hb E) as (x & F & Fx). exact (fitted_held _ _ _ _ x Hn F Fx).
    - destruct (fit_fitted _ (none_settles true) _ _ _ (leastsq_start e) E) as (s & l & x & _ & _ & F).
      apply (fitted_held None _ _ _ x Hn F). intros lims [=].
  Qed.
  Lemma held_near bounds (e0 e : equilibrium) : held bounds e0 e -> near e0 e.
  Proof. intros Hh. split; [right; exists bounds; exact Hh|]. destruct Hh as (x & _ & _ & _ & Hg & _). exact Hg. Qed.
  Lemma held_tok bounds (e0 e e' : equilibrium) : held bounds e0 e -> tok e' = tok e -> grid6 e' = grid6 e -> held bounds e0 e'.
  Proof. intros (x & H1 & H2 & H3 & H4 & H5) Et Eg. exists x. rewrite Et. unfold grid6 in Eg. rewrite Eg. auto. Qed.
  Lemma solve_keeps (e e' : equilibrium) p Jo q pb : Equilibrium.solve G sqrt mu0 lu spline Jtor_call e p Jo q pb = Ok e' ->
    tok e' = tok e /\ grid6 e' = grid6 e /\ check_limited e' = check_limited e.
  Proof.
    intros E. apply solve_inv in E as (e1 & J & p1 & rhs & x & p' & I & dR & dZ & b & _ & _ & _ & _ & _ & _ & _ & _ & _ & ->). repeat split.
  Qed.

  Variables (r : rstate R P Ctl) (fit_sol : bool) (bounds : option (list (R * R))) (rtol blend : R) (maxits : option BinNums.Z) (ntheta fuel : nat).
  Local Notation finish := (read_finish G sqrt mu0 lu spline pi sin cos arctan2 Jtor_call inj leastsq lbfgsb constrain r fit_sol bounds rtol blend maxits ntheta fuel).
  Local Notation refine := (as_constrain (second_fit spline leastsq lbfgsb (r_psi_norm r) (r_mask r) bounds)).

  (** the last turn of the Picard iteration: [e1] is the equilibrium after the fit, [e2] after the
      solve, [e'] with the control system *)
  Lemma finish_inv e' : finish = Ok e' -> exists e1 p psi0 pb e2 psi2,
    held bounds (r_eq r) e1 /\ Equilibrium.psi_bndry (bs e1) = Some pb /\
    (blend = 0 -> exists psi, total_psi e1 = Ok psi /\ forall i j, psi0 i j = psi i j) /\
    Equilibrium.solve G sqrt mu0 lu spline Jtor_call (with_check e1 true) p None (Some psi0) pb = Ok e2 /\
    total_psi e2 = Ok psi2 /\
    ((0 < e_nx e2)%nat -> (0 < e_ny e2)%nat ->
     (forall i j, (i < e_nx e2)%nat -> (j < e_ny e2)%nat -> Rabs (psi0 i j - psi2 i j) < 1 / 10000000000) \/
     (exists i1 j1 i2 j2, (i1 < e_nx e2)%nat /\ (j1 < e_ny e2)%nat /\ (i2 < e_nx e2)%nat /\ (j2 < e_ny e2)%nat /\ psi2 i2 j2 < psi2 i1 j1 /\
        forall i j, (i < e_nx e2)%nat -> (j < e_ny e2)%nat -> Rabs (psi0 i j - psi2 i j) < rtol * (psi2 i1 j1 - psi2 i2 j2))) /\
    set_control_system spline pi sin cos arctan2 constrain e2 ntheta = Ok e'.
  Proof.
    unfold read_finish. intros E. apply bind_ok in E as (ea & Ea & E). apply bind_ok in E as (eb & Eb & E). cbv zeta in E.
    unfold read_solve in Ea. apply solve_keeps in Ea as (A1 & A2 & _).
    assert (Na : near (r_eq r) ea) by (split; [left; exact A1|exact A2]).
    assert (Hb1 := first_held _ _ _ _ _ _ _ Na Eb).
    set (nx := e_nx eb) in E. set (ny := e_ny eb) in E. set (o := eq_ops _ _ _ _ _ _ _) in E. set (pp := read_options _ _ _ _) in E.
    destruct (picard nx ny _ o pp fuel _) as [[e2 p2] [h|]] eqn:Ep; [|discriminate]. cbn [fst] in E.
    assert (Gb : grid6 eb = grid6 (r_eq r)) by (destruct Hb1 as (? & _ & _ & _ & Hg & _); exact Hg).
    assert (Hcon : forall s s', near (r_eq r) (fst s) -> run_constrain _ o s = (s', Ok tt) -> held bounds (r_eq r) (fst s')).
    { intros s s' Hn Er. unfold run_constrain, o, eq_ops in Er. cbn [Picard.constrain] in Er. unfold as_constrain in Er.
      destruct (second_fit _ _ _ _ _ _ (fst s)) as [e3|] eqn:E3; [|discriminate]. injection Er as <-. exact (second_held _ _ _ _ _ _ Hn E3). }
    assert (Hsol : forall s b q pb s', Picard.eq_solve _ o (Picard.set_check _ o b s) q pb = (s', Ok tt) ->
      exists p, Equilibrium.solve G sqrt mu0 lu spline Jtor_call (with_check (fst s) b) p None (Some q) pb = Ok (fst s')).
    { intros s b q pb s' Es. unfold o, eq_ops in Es. cbn [Picard.eq_solve Picard.set_check fst snd] in Es.
      destruct (Equilibrium.solve _ _ _ _ _ _ _ _ _ _ _) as [e3|] eqn:E3; [|discriminate]. injection Es as <-. exists (snd s). exact E3. }
    set (I := fun (s : equilibrium * P) (v : vars (T := R)) => held bounds (r_eq r) (fst s) /\ (0 <= iteration v)%Z /\
      (blend = 0 -> exists q, total_psi (fst s) = Ok q /\ forall i j, psi v i j = q i j)).
    destruct (picard_inv nx ny _ o pp I (eb, inj (r_profiles r))) with (fuel := fuel) (e' := (e2, p2)) (h := h) as (s0 & v0 & (I1 & I2 & I3) & Et); [| |exact Ep|].
    { intros s1 psi0 Er Eps. split; [apply (Hcon (eb, inj (r_profiles r)) s1 (held_near _ _ _ Hb1) Er)|]. split; [cbn; lia|]. intros _. exists psi0. split; [exact Eps|reflexivity]. }
    { intros s v s' v' (J1 & J2 & _) Et. destruct (turn_next nx ny _ o pp _ _ _ _ Et) as (s1 & ob & psi1 & psi2 & (pb & Hg & Es & _ & _) & _ & Er & Ep2 & _ & ->).
      split; [|split].
      - apply (Hcon s1); [|exact Er]. apply Hsol in Es as (p & Es). apply solve_keeps in Es as (B1 & B2 & _). apply held_near with bounds.
        apply (held_tok _ _ (fst s)); [exact J1|exact B1|exact B2].
      - cbn [iteration]. lia.
      - intros Hz. exists psi2. split; [exact Ep2|]. intros i j. cbn [psi]. change (Picard.blend pp) with blend. rewrite Hz. ring. }
    destruct (turn_done nx ny _ o pp _ _ _ _ Et) as (ob & psi1 & (pb & Hg & Es & _ & Eps) & Ht & _).
    assert (Hf : flag pp v0 = true).
    { unfold flag. change (limit_it pp) with 0%Z. change (Picard.check pp) with true. replace (0 <=? iteration v0)%Z with true by (symmetry; apply Z.leb_le; exact I2). reflexivity. }
    unfold given in Hg. rewrite Hf in Hg. rewrite Hf in Es. apply Hsol in Es as (p & Es). cbn [fst] in Es.
    exists (fst s0), p, (psi v0), pb, e2, psi1. split; [exact I1|]. split; [exact Hg|]. split; [exact I3|]. split; [exact Es|]. split; [exact Eps|].
    split; [|exact E].
    assert (G2 : grid6 e2 = grid6 eb).
    { apply solve_keeps in Es as (_ & B2 & _). rewrite B2. change (grid6 (fst s0) = grid6 eb). destruct I1 as (? & _ & _ & _ & Hg1 & _). rewrite Gb. exact Hg1. }
    assert (N1 : e_nx e2 = nx /\ e_ny e2 = ny) by (unfold grid6 in G2; injection G2; intros; split; assumption). destruct N1 as (N1 & N2). rewrite N1, N2. intros Hx Hy.
    unfold test in Ht. apply andb_true_iff in Ht. destruct Ht as (Ht & _). apply andb_true_iff in Ht. destruct Ht as (Hp & _).
    destruct (amax_spec nx ny (fun i j => Rabs (psi v0 i j - psi1 i j)) Hx Hy) as (M1 & _). fold (maxch nx ny v0 psi1) in M1.
    apply orb_true_iff in Hp. destruct Hp as [Hp|Hp].
    - apply R_ltb_true in Hp. left. intros i j Hi Hj. specialize (M1 i j Hi Hj). cbv beta in M1.
      replace (Picard.atol pp) with (1 / 10000000000) in Hp by (unfold pp, read_options; cbn [Picard.atol]; unfold nlit; nR; reflexivity). lra.
    - right. change (Picard.rtol pp) with rtol in Hp. unfold relch, quotient in Hp. nR. destruct (R_eqb _ 0) eqn:E0; cbn [below] in Hp; [discriminate|]. apply R_eqb_false in E0. apply R_ltb_true in Hp.
      destruct (amax_spec nx ny psi1 Hx Hy) as (A3 & i1 & j1 & Hi1 & Hj1 & A4). destruct (amin_spec nx ny psi1 Hx Hy) as (B1 & i2 & j2 & Hi2 & Hj2 & B2).
      exists i1, j1, i2, j2. do 4 (split; [assumption|]). rewrite <- A4, <- B2. assert (Hle := A3 0%nat 0%nat Hx Hy). assert (Hle2 := B1 0%nat 0%nat Hx Hy).
      set (d := amax nx ny psi1 - amin nx ny psi1) in *. assert (Hd : 0 < d) by (unfold d in *; lra). split; [unfold d in Hd; lra|]. intros i j Hi Hj.
      specialize (M1 i j Hi Hj). cbv beta in M1. apply Rle_lt_trans with (1 := M1). apply (Rmult_lt_compat_r d) in Hp; [|exact Hd].
      replace (maxch nx ny v0 psi1 / d * d) with (maxch nx ny v0 psi1) in Hp by (field; lra). exact Hp.
  Qed.
End Read.

(** C148 — the equilibrium returned by read has the machine given to it with other currents in the
    controlled coils only; with current_bounds these lie between the bounds. *)
Theorem C148_machine : forall (P Ctl : Type) G sqrt mu0 lu spline pi sin cos arctan2 Jtor_call inj leastsq lbfgsb constrain
    (r : rstate R P Ctl) fit_sol bounds rtol blend maxits ntheta fuel e',
  (forall start, same_number (length start) (leastsq start)) -> obeys lbfgsb ->
  read_finish G sqrt mu0 lu spline pi sin cos arctan2 Jtor_call inj leastsq lbfgsb constrain r fit_sol bounds rtol blend maxits ntheta fuel = Ok e' ->
  held bounds (r_eq r) e'.
Proof.
  intros P Ctl G sqrt mu0 lu spline pi sin cos arctan2 Jtor_call inj leastsq lbfgsb constrain r fs bounds rtol blend maxits ntheta fuel e' Hl Hb E.
  destruct (finish_inv G sqrt mu0 lu spline pi sin cos arctan2 Jtor_call inj leastsq lbfgsb constrain Hl Hb _ _ _ _ _ _ _ _ _ E) as (e1 & p & psi0 & pb & e2 & psi2 & H1 & _ & _ & Es & _ & _ & Ec).
  apply solve_keeps in Es as (K1 & K2 & _). apply (held_tok _ _ e1); [exact H1| |].
  - unfold set_control_system in Ec. apply bind_ok in Ec as (psi & _ & Ec). apply bind_ok in Ec as ((opt & xpt) & _ & Ec). destruct xpt as [|x xpt]; [injection Ec as <-; exact K1|].
    destruct opt as [|o opt]; [discriminate|]. destruct (Equilibrium.psi_bndry (bs e2)) as [[b|]|]; try discriminate.
    apply bind_ok in Ec as (f & _ & Ec). apply bind_ok in Ec as (iso & _ & Ec). injection Ec as <-. exact K1.
  - unfold set_control_system in Ec. apply bind_ok in Ec as (psi & _ & Ec). apply bind_ok in Ec as ((opt & xpt) & _ & Ec). destruct xpt as [|x xpt]; [injection Ec as <-; exact K2|].
    destruct opt as [|o opt]; [discriminate|]. destruct (Equilibrium.psi_bndry (bs e2)) as [[b|]|]; try discriminate.
    apply bind_ok in Ec as (f & _ & Ec). apply bind_ok in Ec as (iso & _ & Ec). injection Ec as <-. exact K2.
Qed.
Print Assumptions C148_machine.

(** ... it is the result of a solve with the limiter checked, which changed the flux by less than the
    tolerance; the boundary flux given to that solve is the one left behind by the fit. *)
Theorem C148_converged : forall (P Ctl : Type) G sqrt mu0 lu spline pi sin cos arctan2 Jtor_call inj leastsq lbfgsb constrain
    (r : rstate R P Ctl) fit_sol bounds rtol blend maxits ntheta fuel e',
  (forall start, same_number (length start) (leastsq start)) -> obeys lbfgsb ->
  read_finish G sqrt mu0 lu spline pi sin cos arctan2 Jtor_call inj leastsq lbfgsb constrain r fit_sol bounds rtol blend maxits ntheta fuel = Ok e' ->
  exists e1 p psi0 pb e2 psi2,
    check_limited e1 = true /\ Equilibrium.psi_bndry (bs e1) = Some pb /\
    Equilibrium.solve G sqrt mu0 lu spline Jtor_call e1 p None (Some psi0) pb = Ok e2 /\ total_psi e2 = Ok psi2 /\
    e' = with_profiles e2 (profiles e2) (control e') /\
    (blend = 0 -> exists psi, total_psi e1 = Ok psi /\ forall i j, psi0 i j = psi i j) /\
    ((0 < e_nx e')%nat -> (0 < e_ny e')%nat ->
     (forall i j, (i < e_nx e')%nat -> (j < e_ny e')%nat -> Rabs (psi0 i j - psi2 i j) < 1 / 10000000000) \/
     (exists i1 j1 i2 j2, (i1 < e_nx e')%nat /\ (j1 < e_ny e')%nat /\ (i2 < e_nx e')%nat /\ (j2 < e_ny e')%nat /\ psi2 i2 j2 < psi2 i1 j1 /\
        forall i j, (i < e_nx e')%nat -> (j < e_ny e')%nat -> Rabs (psi0 i j - psi2 i j) < rtol * (psi2 i1 j1 - psi2 i2 j2))).
Proof.
  intros P Ctl G sqrt mu0 lu spline pi sin cos arctan2 Jtor_call inj leastsq lbfgsb constrain r fs bounds rtol blend maxits ntheta fuel e' Hl Hb E.
  destruct (finish_inv G sqrt mu0 lu spline pi sin cos arctan2 Jtor_call inj leastsq lbfgsb constrain Hl Hb _ _ _ _ _ _ _ _ _ E) as (e1 & p & psi0 & pb & e2 & psi2 & H1 & H2 & H3 & Es & H4 & H5 & Ec).
  assert (Ee : e' = with_profiles e2 (profiles e2) (control e')).
  { unfold set_control_system in Ec. apply bind_ok in Ec as (psi & _ & Ec). apply bind_ok in Ec as ((opt & xpt) & _ & Ec). destruct xpt as [|x xpt]; [injection Ec as <-; destruct e2; reflexivity|].
    destruct opt as [|o opt]; [discriminate|]. destruct (Equilibrium.psi_bndry (bs e2)) as [[b|]|]; try discriminate.
    apply bind_ok in Ec as (f & _ & Ec). apply bind_ok in Ec as (iso & _ & Ec). injection Ec as <-. reflexivity. }
  exists (with_check e1 true), p, psi0, pb, e2, psi2. split; [reflexivity|]. split; [exact H2|]. split; [exact Es|]. split; [exact H4|]. split; [exact Ee|].
  split; [exact H3|]. rewrite Ee. exact H5.
Qed.
Print Assumptions C148_converged.

(** ... and if its flux has an X-point, its control system holds all X-points and pairs each of
    [ntheta] points of the separatrix with the first one. *)
Theorem C148_control : forall (T : Type) (N : Num T) (P Ctl : Type) spline pi sin cos arctan2 constrain (e e' : equilibrium T P Ctl) ntheta,
  set_control_system spline pi sin cos arctan2 constrain e ntheta = Ok e' ->
  exists psi opt xpt, total_psi e = Ok psi /\ eq_find_critical spline e (e_nx e) (e_ny e) psi = Ok (opt, xpt) /\
    match xpt with
    | [] => control e' = control e
    | x :: _ => exists o os pb f iso, opt = o :: os /\ Equilibrium.psi_bndry (bs e) = Some (Some pb) /\
        eq_spline spline e (e_nx e) (e_ny e) (fun i j => (psi i j - pPsi o) / (pb - pPsi o))%num = Ok f /\
        find_separatrix pi sin cos arctan2 (Equilibrium.Rmin e) (Equilibrium.Rmax e) (Zmin e) (Zmax e) (f 0%nat 0%nat) opt xpt ntheta n1 = Ok iso /\
        exists isoflux, control e' = Some (constrain xpt isoflux (nlit 1 100000000000000)) /\ length isoflux = ntheta /\ map fst isoflux = iso /\
          Forall (fun q => snd q = (pR x, pZ x)) isoflux
    end.
Proof.
  intros T N P Ctl spline pi sin cos arctan2 constrain e e' ntheta Ec. unfold set_control_system in Ec.
  apply bind_ok in Ec as (psi & Ep & Ec). apply bind_ok in Ec as ((opt & xpt) & Ex & Ec). exists psi, opt, xpt. split; [exact Ep|]. split; [exact Ex|].
  destruct xpt as [|x xpt]; [injection Ec as <-; reflexivity|].
  destruct opt as [|o opt]; [discriminate|]. destruct (Equilibrium.psi_bndry (bs e)) as [[b|]|]; try discriminate.
  apply bind_ok in Ec as (f & Ef & Ec). apply bind_ok in Ec as (iso & Ei & Ec). injection Ec as <-. exists o, opt, b, f, iso.
  split; [reflexivity|]. split; [reflexivity|]. split; [exact Ef|]. split; [exact Ei|].
  exists (map (fun p => (p, (pR x, pZ x))) iso). split; [|split; [|split]].
  - reflexivity.
  - rewrite map_length. apply (separatrix_length _ _ _ _ _ _ _ _ _ _ _ _ _ _ Ei).
  - rewrite map_map. apply map_id.
  - apply Forall_forall. intros q Hq. apply in_map_iff in Hq as (p & <- & _). reflexivity.
Qed.
Print Assumptions C148_control.
(** The flux of [hill] has an O-point at (1, 1) and an X-point at (1, -1).  Here the two rays go
    upwards; the flux is that of the X-point at (1, 2). *)
Definition hillc {Ctl} : equilibrium Q unit Ctl :=
  mkeq (e_nx hill0) (e_ny hill0) (Equilibrium.Rmin hill0) (Equilibrium.Rmax hill0) (Zmin hill0) (Zmax hill0) (tok hill0) BFree 2 (SUser (fun _ _ => Raise TypeError)) false
    (plasma_psi hill0) (pgreen hill0) 0%Q None (bs hill0) None None.
Definition upwards (e : equilibrium Q unit (list (Q * Q * (Q * Q)))) (n : nat) := set_control_system spline_ridge 1%Q (fun _ => 0%Q) (fun _ => 1%Q) (fun _ _ => 0%Q) (fun x i g => i) e n.
Example C148_control_example :
  rmap (fun e => option_map (map (fun p => (fst (fst p), Qle_bool (199 # 100) (snd (fst p)), Qle_bool (snd (fst p)) (201 # 100), snd p))) (control e)) (upwards hillc 2)
  = Ok (Some [(1%Q, true, true, (1%Q, (-1)%Q)); (1%Q, true, true, (1%Q, (-1)%Q))]).
Proof. vm_compute. reflexivity. Qed.

(** A controlled coil that gives no flux and one that is not controlled; the solver returns zero.  The
    limits are written the wrong way round; the coil ends at the lower one. *)
Definition bs0 : bstate R := mkb (Some 0) (Some (Some 0)) (Some None) None None false None.
Definition two5 (c : R) : machine R :=
  [("A"%string, MCoil (Coil 1 3 c 1 true (AFixed 1))); ("F"%string, MCoil (Coil 1 4 6 1 false (AFixed 1)))].
Definition still (c : R) (psi : arr2 R) (Ip : R) (J : option (arr2 R)) (pr : option unit) (chk : bool) : equilibrium R unit (list (R * R * (R * R))) :=
  mkeq 5 5 1 2 (-1) 1 (mktok (two5 c) false []) (BUser (fun _ p => Ok p)) 2 (SUser (fun p _ => Ok (p, fun _ _ => 0))) chk psi
    (fun _ _ => [("A"%string, GNum 0); ("F"%string, GNum 0)]) Ip J bs0 pr None.
Definition none_call (p : unit) (e : equilibrium R unit (list (R * R * (R * R)))) (psi : arr2 R) (pb : option R) : result (arr2 R * unit * bstate R) :=
  Ok (fun _ _ => 0, p, bs e).
Lemma still_psi c psi Ip J pr chk : exists q, total_psi (still c psi Ip J pr chk) = Ok q /\ forall i j, q i j = psi i j.
Proof.
  unfold total_psi, eq_psi, calcPsiFromGreens, still. cbn. nR. eexists. split; [reflexivity|]. intros i j. cbn. ring.
Qed.
Lemma still_own c psi Ip J pr chk : update_own flat_spline (still c psi Ip J pr chk) = Ok (still c psi Ip J pr chk).
Proof.
  unfold update_own. destruct (still_psi c psi Ip J pr chk) as (q & -> & _). cbn [bind].
  rewrite (flat_update (still c psi Ip J pr chk) q); [reflexivity| | | |]; cbn; try lia; lra.
Qed.
Lemma still_solve G sqrt mu0 lu c psi Ip J pr chk p Jo qo pb : exists Ip' J',
  Equilibrium.solve G sqrt mu0 lu flat_spline none_call (still c psi Ip J pr chk) p Jo qo pb = Ok (still c (fun _ _ => 0) Ip' (Some J') (Some p) chk).
Proof.
  unfold Equilibrium.solve. cbv zeta. change (with_profiles (still c psi Ip J pr chk) (Some p) (control (still c psi Ip J pr chk))) with (still c psi Ip J (Some p) chk). rewrite still_own. cbn [bind].
  assert (L : forall J0, linear_solve G sqrt mu0 lu flat_spline (still c psi Ip J (Some p) chk) J0 = Ok (still c (fun _ _ => 0) Ip J (Some p) chk)).
  { intros J0. unfold linear_solve. unfold applyBoundary. cbn [bnd still bind].
    destruct (set_edges_spec 5 5 (fun i j => nmul (nmul (nopp mu0) (grid_R (still c psi Ip J (Some p) chk) i j)) (J0 i j)) psi) as (rhs & Er & _); [lia|lia|].
    change (e_nx _) with 5%nat in *. change (e_ny _) with 5%nat in *. cbn [plasma_psi still]. rewrite Er. cbn [bind]. unfold callSolver. cbn [slv still bind].
    unfold update_plasma. change (with_plasma _ _) with (still c (fun _ _ => 0) Ip J (Some p) chk).
    assert (E : eq_spline flat_spline (still c psi Ip J (Some p) chk) 5 5 (fun _ _ => 0) = Ok (flat_spline 5 5 (R_1D (still c psi Ip J (Some p) chk)) (Z_1D (still c psi Ip J (Some p) chk)) (fun _ _ => 0))).
    { unfold eq_spline. apply RBS_ok; cbn; try lia; apply linspace_increasing; cbn; lra. }
    rewrite E. cbn [bind]. apply still_own. }
  assert (D : dyadic 5) by (exists 2%nat; reflexivity).
  destruct Jo as [J0|].
  - cbn [bind]. rewrite L. cbn [bind e_nx e_ny still]. destruct (romb2_dyadic 5 5 J0 D D) as (s & ->). cbn [bind].
    rewrite spacing_R_ok, spacing_Z_ok by lia. cbn [bind]. eexists. eexists. reflexivity.
  - destruct (still_psi c psi Ip J (Some p) chk) as (q0 & Eq & _).
    assert (E : exists q, match qo with Some q => Ok q | None => total_psi (still c psi Ip J (Some p) chk) end = Ok q) by (destruct qo; eauto).
    destruct E as (q & ->). cbn [bind]. unfold none_call at 1. cbn [bind].
    change (with_profiles (with_bs (still c psi Ip J (Some p) chk) (bs (still c psi Ip J (Some p) chk))) (Some p) (control (still c psi Ip J (Some p) chk))) with (still c psi Ip J (Some p) chk). rewrite L. cbn [bind e_nx e_ny still]. destruct (romb2_dyadic 5 5 (fun _ _ => 0) D D) as (s & ->). cbn [bind].
    rewrite spacing_R_ok, spacing_Z_ok by lia. cbn [bind]. eexists. eexists. reflexivity.
Qed.
Definition rstill (prof : @fprofile R) : rstate R unit (list (R * R * (R * R))) :=
  mkrs (mkgm [] (Sensors.mkvessel None None) 0) (still 10 (fun _ _ => 7) 0 None None false) prof (fun _ _ => 1) (fun _ _ => 0) (fun _ _ => 0) (Some (fun _ _ => 1)).

Lemma still_fit c psi Ip J pr chk residual : c = 10 \/ c = 5 ->
  fit residual (bounded lowest (Some [(8, 5)])) (still c psi Ip J pr chk) = Ok (still 5 psi Ip J pr chk).
Proof.
  intros Hc. unfold fit, bounded.
  assert (E : exists v, adv_start (Some [(8, 5)]) 0 (controlCurrents (coils (tok (still c psi Ip J pr chk)))) = Ok [v]).
  { cbn. nR. unfold nleb. rewrite nmin_R, nmax_R, Rmin_right, Rmax_left by lra. destruct Hc as [->| ->].
    - rewrite (proj2 (R_ltb_false 10 5)), (proj2 (R_ltb_true 8 10)) by lra. eexists. reflexivity.
    - destruct (R_ltb 5 5); cbn [negb]; [eexists; reflexivity|]. destruct (R_ltb 8 5); eexists; reflexivity. }
  destruct E as (v & E). rewrite E. cbn [bind]. cbn. nR. rewrite nmin_R, Rmin_right by lra. reflexivity.
Qed.
Lemma still_turn G sqrt mu0 lu con rtol blend maxits bounds c Ip J p chk (q : arr2 R) : (forall i j, q i j = 0) -> exists Ip' J' h,
  turn 5 5 _ (eq_ops G sqrt mu0 lu flat_spline none_call con) (read_options rtol blend maxits bounds) (still c (fun _ _ => 0) Ip J (Some p) chk, p)
    (mkvars q 0 0 None false []) = ((still c (fun _ _ => 0) Ip' (Some J') (Some p) true, p), Ok (inl h)).
Proof.
  intros Hq. set (o := eq_ops _ _ _ _ _ _ _). set (pp := read_options _ _ _ _). unfold turn. cbv zeta. cbn [iteration been_limited].
  change (((limit_it pp <=? 0)%Z || false) && check pp)%bool with true. cbn iota.
  change (Picard.set_check _ o true (still c (fun _ _ => 0) Ip J (Some p) chk, p)) with (still c (fun _ _ => 0) Ip J (Some p) true, p).
  change (bndry_flux _ o (still c (fun _ _ => 0) Ip J (Some p) true, p)) with (Some (Some 0)). cbn iota beta.
  unfold o at 1. unfold eq_ops. cbn [Picard.eq_solve fst snd].
  destruct (still_solve G sqrt mu0 lu c (fun _ _ => 0) Ip J (Some p) true p None (Some q) (Some 0)) as (I2 & J2 & E). cbn [Picard.psi]. rewrite E. clear E.
  cbn [profiles still]. change (mkeq 5 5 1 2 _ _ _ _ _ _ true _ _ I2 _ _ _ _) with (still c (fun _ _ => 0) I2 (Some J2) (Some p) true).
  exists I2, J2. fold (eq_ops G sqrt mu0 lu flat_spline none_call con). fold o.
  change (bndry_flux _ o (still c (fun _ _ => 0) I2 (Some J2) (Some p) true, p)) with (Some (Some 0)). cbn iota beta.
  change (Picard.eq_psi _ o (still c (fun _ _ => 0) I2 (Some J2) (Some p) true, p)) with (total_psi (still c (fun _ _ => 0) I2 (Some J2) (Some p) true)).
  destruct (still_psi c (fun _ _ => 0) I2 (Some J2) (Some p) true) as (q2 & -> & Hq2). cbn [bndry]. nR.
  assert (E1 : R_ltb (amax 5 5 (fun i j => nabs (q i j - q2 i j))) (Picard.atol pp) = true).
  { apply R_ltb_true. destruct (amax_spec 5 5 (fun i j => nabs (q i j - q2 i j))) as (_ & i & j & _ & _ & ->); try lia. rewrite nabs_R, Hq, Hq2, Rminus_0_r, Rabs_R0.
    unfold pp, read_options. cbn [Picard.atol]. unfold nlit. nR. lra. }
  rewrite E1. cbn [orb andb].
  assert (E2 : below (option_map nabs (Some (0 - 0))) (Picard.atol pp) = true).
  { cbn [option_map below]. unfold pp, read_options. cbn [Picard.atol]. unfold nlit. nR. apply R_ltb_true. rewrite nabs_R, Rminus_0_r, Rabs_R0. lra. }
  rewrite E2, orb_true_r. cbn [andb]. change (negb (wait pp)) with true. cbn [orb]. eexists. reflexivity.
Qed.
Example C148_machine_example prof (constrain : list (point R) -> list (R * R * (R * R)) -> R -> list (R * R * (R * R))) (leastsq : list R -> search R (list R)) : exists e',
  read_finish (fun _ _ _ _ _ => 0) (fun x => x) 1 (fun _ _ b => b) flat_spline 3 (fun x => x) (fun x => x) (fun x y => x) none_call (fun _ => tt) leastsq lowest constrain
    (rstill prof) false (Some [(8, 5)]) (1 / 1000) 0 None 10 1 = Ok e' /\
  controlCurrents (coils (tok (r_eq (rstill prof)))) = [10] /\ coils (tok e') = two5 5 /\ control e' = None /\ forall i j, plasma_psi e' i j = 0.
Proof.
  unfold read_finish. unfold read_solve. change (with_check (r_eq (rstill prof)) true) with (still 10 (fun _ _ => 7) 0 None None true).
  destruct (still_solve (fun _ _ _ _ _ => 0) (fun x => x) 1 (fun _ _ b => b) 10 (fun _ _ => 7) 0 None None true tt (Some (r_Jtor (rstill prof))) None None) as (I1 & J1 & ->). cbn [bind].
  unfold first_fit. cbn [r_mask rstill]. unfold fit_adv. cbn [adv_lims ConstrainPsi2DAdvanced]. rewrite still_fit by (left; reflexivity). cbn [bind].
  unfold picard, run_constrain, eq_ops. cbn [Picard.constrain]. unfold as_constrain at 1. cbn [fst snd]. unfold second_fit at 1. unfold fit_advnorm at 1. cbn [adv_lims]. rewrite still_fit by (right; reflexivity).
  cbn [Picard.eq_psi fst].
  destruct (still_psi 5 (fun _ _ => 0) I1 (Some J1) (Some tt) true) as (q & Eq & Hq). rewrite Eq. cbn [loop].
  change (e_nx _) with 5%nat. change (e_ny _) with 5%nat.
  fold (eq_ops (fun _ _ _ _ _ => 0) (fun x => x) 1 (fun _ _ b => b) flat_spline none_call (Some (as_constrain (second_fit flat_spline leastsq lowest (r_psi_norm (rstill prof)) (Some (fun _ _ => 1)) (Some [(8, 5)]))))).
  destruct (still_turn (fun _ _ _ _ _ => 0) (fun x => x) 1 (fun _ _ b => b) (Some (as_constrain (second_fit flat_spline leastsq lowest (r_psi_norm (rstill prof)) (Some (fun _ _ => 1)) (Some [(8, 5)])))) (1 / 1000) 0 None (Some [(8, 5)])
    5 I1 (Some J1) tt true q Hq) as (I2 & J2 & h & E). change (@n0 R _) with 0. rewrite E. clear E. cbn [fst].
  exists (still 5 (fun _ _ => 0) I2 (Some J2) (Some tt) true). split; [|repeat split].
  unfold set_control_system. destruct (still_psi 5 (fun _ _ => 0) I2 (Some J2) (Some tt) true) as (q2 & -> & _). cbn [bind].
  unfold eq_find_critical, eq_spline. rewrite RBS_ok; [|cbn; lia|cbn; lia|apply linspace_increasing; cbn; lra|apply linspace_increasing; cbn; lra].
  cbn [bind]. unfold flat_spline. rewrite flat_critical. reflexivity.
Qed.

(** C149 — with fit_sol and current_bounds together read never succeeds, if the optimiser makes at
    least one trial: numpy.average refuses the scalar weights of ConstrainPsi2DAdvanced. *)
Theorem C149_fit_sol_bounds : forall (T : Type) (N : Num T) (P Ctl : Type) G sqrt mu0 lu spline pi sin cos arctan2 Jtor_call inj leastsq lbfgsb constrain
    (r : rstate T P Ctl) lims rtol blend maxits ntheta fuel e',
  (forall start bnds, exists x next, lbfgsb start bnds = Try x next) ->
  read_finish G sqrt mu0 lu spline pi sin cos arctan2 Jtor_call inj leastsq lbfgsb constrain r true (Some lims) rtol blend maxits ntheta fuel <> Ok e'.
Proof.
  intros T N P Ctl G sqrt mu0 lu spline pi sin cos arctan2 Jtor_call inj leastsq lbfgsb constrain r lims rtol blend maxits ntheta fuel e' Ht E.
  unfold read_finish in E. apply bind_ok in E as (ea & _ & E). apply bind_ok in E as (eb & Eb & _).
  unfold first_fit, fit_adv, fit in Eb. cbv zeta in Eb. apply bind_ok in Eb as (s & Es & Eb). unfold bounded in Es. apply bind_ok in Es as (st & _ & Es). apply bind_ok in Es as (bn & _ & Es).
  injection Es as <-. destruct (Ht st bn) as (x & next & Ex). rewrite Ex in Eb. cbn [run] in Eb. apply bind_ok in Eb as ((e1 & x1) & Er & _). apply bind_ok in Er as ((e2 & v) & Er & _).
  unfold residual_adv in Er. apply bind_ok in Er as ((e3 & psi) & _ & Er). apply bind_ok in Er as (e4 & _ & Er). discriminate Er.
Qed.
Print Assumptions C149_fit_sol_bounds.
(** [still] over Q, with a solver that makes the flux 1 smaller until it is zero and an
    optimiser that tries its start and then stops at the lower bounds *)
Definition flatq : nat -> nat -> (nat -> Q) -> (nat -> Q) -> arr2 Q -> sfun Q := fun _ _ _ _ _ _ _ _ _ => 0%Q.
Definition stillq (start : Q) : equilibrium Q unit unit :=
  mkeq 5 5 1%Q 2%Q (-1)%Q 1%Q (mktok [("A"%string, MCoil (Coil 1 3 10 1 true (AFixed 1)))%Q] false []) (BUser (fun _ p => Ok p)) 2 (SUser (fun (p _ : arr2 Q) => let v := nmax (p 0%nat 0%nat - n1)%num 0%Q in Ok (p, fun _ _ => v))) false
    (fun _ _ => start) (fun _ _ => [("A"%string, GNum 0%Q)]) 0%Q None (mkb (Some 1%Q) (Some (Some 0%Q)) (Some None) None None false None) None None.
Definition rstillq (start : Q) (mask : option (arr2 Q)) : rstate Q unit unit :=
  mkrs (mkgm [] (Sensors.mkvessel None None) 0%Q) (stillq start) (mkfprofile (fun _ => 0) (fun _ => 0) 0 None None)%Q (fun _ _ => 1%Q) (fun _ _ => 0%Q) (fun _ _ => 0%Q) mask.
Definition trylow (start : list Q) (bnds : list (option Q * option Q)) : search Q Q :=
  Try start (fun _ => Stop (map (fun b => match b with (Some lo, _) => lo | _ => 0%Q end) bnds)).
Definition readq (start : Q) (mask : option (arr2 Q)) (fit_sol : bool) (bounds : option (list (Q * Q))) (maxits : option BinNums.Z) :=
  read_finish (fun _ _ _ _ _ => 0%Q) (fun x => x) 1%Q (fun _ _ b => b) flatq 3%Q (fun x => x) (fun x => x) (fun x y => x)
    (fun p e _ _ => Ok (fun _ _ => 0%Q, p, bs e)) (fun _ => tt) (fun x => Try x (fun _ => Stop (map (fun _ => 5%Q) x))) trylow (fun _ _ _ => tt)
    (rstillq start mask) fit_sol bounds (1 # 1000)%Q 0%Q maxits 10 4.
Definition ones25 : option (arr2 Q) := Some (fun _ _ => 1%Q).
Definition outcome (r : result (equilibrium Q unit unit)) := rmap (fun e => controlCurrents (coils (tok e))) r.
(** So fit_sol = True fails with bounds although fit_sol = False and no bounds do not. *)
Theorem C149_fit_sol_refuted : exists mask bounds,
  outcome (readq 1 mask false bounds None) = Ok [5%Q] /\ outcome (readq 1 mask true None None) = Ok [5%Q] /\
  outcome (readq 1 mask false None None) = Ok [5%Q] /\
  readq 1 mask true bounds None = Raise TypeError.
Proof. exists ones25, (Some [(8, 5)%Q]). repeat split; vm_compute; reflexivity. Qed.
Print Assumptions C149_fit_sol_refuted.

(** ... the number of iterations asked for has no effect when current_bounds are given *)
Theorem C149_maxits_ignored : forall (T : Type) (N : Num T) (P Ctl : Type) G sqrt mu0 lu spline pi sin cos arctan2 Jtor_call inj leastsq lbfgsb constrain
    (r : rstate T P Ctl) fit_sol lims rtol blend m1 m2 ntheta fuel,
  read_finish G sqrt mu0 lu spline pi sin cos arctan2 Jtor_call inj leastsq lbfgsb constrain r fit_sol (Some lims) rtol blend m1 ntheta fuel =
  read_finish G sqrt mu0 lu spline pi sin cos arctan2 Jtor_call inj leastsq lbfgsb constrain r fit_sol (Some lims) rtol blend m2 ntheta fuel.
Proof. reflexivity. Qed.
Print Assumptions C149_maxits_ignored.
(** Two iterations are refused without bounds and made with them. *)
Theorem C149_maxits_refuted : exists start bounds,
  readq start ones25 false None (Some 1%Z) = Raise RuntimeError /\ outcome (readq start ones25 false bounds (Some 1%Z)) = Ok [5%Q].
Proof. exists 3%Q, (Some [(8, 5)%Q]). split; vm_compute; reflexivity. Qed.
Print Assumptions C149_maxits_refuted.

(** ... without a mask (there is no X-point and the plasma is not limited) read never succeeds *)
Theorem C149_no_mask : forall (T : Type) (N : Num T) (P Ctl : Type) G sqrt mu0 lu spline pi sin cos arctan2 Jtor_call inj leastsq lbfgsb constrain
    (r : rstate T P Ctl) fit_sol bounds rtol blend maxits ntheta fuel e',
  (forall start, exists x next, leastsq start = Try x next) -> (forall start bnds, exists x next, lbfgsb start bnds = Try x next) ->
  r_mask r = None ->
  read_finish G sqrt mu0 lu spline pi sin cos arctan2 Jtor_call inj leastsq lbfgsb constrain r fit_sol bounds rtol blend maxits ntheta fuel <> Ok e'.
Proof.
  intros T N P Ctl G sqrt mu0 lu spline pi sin cos arctan2 Jtor_call inj leastsq lbfgsb constrain r fs bounds rtol blend maxits ntheta fuel e' Hl Hb Hm E.
  assert (Hn : forall A b (e1 : equilibrium T P Ctl) x (v : equilibrium T P Ctl * A), residual_none spline b e1 x <> Ok v).
  { intros A b e1 x v F. unfold residual_none in F. apply bind_ok in F as ((e2 & psi) & _ & F). apply bind_ok in F as (e3 & _ & F).
    destruct b; [apply bind_ok in F as (? & _ & F)|]; discriminate. }
  assert (F : forall e1 e2 : equilibrium T P Ctl, second_fit spline leastsq lbfgsb (r_psi_norm r) (r_mask r) bounds e1 <> Ok e2).
  { intros e1 e2 F. rewrite Hm in F. unfold second_fit, fit in F. destruct bounds as [lims|].
    - apply bind_ok in F as (s & Es & F). unfold bounded in Es. apply bind_ok in Es as (st & _ & Es). apply bind_ok in Es as (bn & _ & Es).
      injection Es as <-. destruct (Hb st bn) as (x & next & Ex). rewrite Ex in F. cbn [run] in F. apply bind_ok in F as ((e3 & x1) & Er & _). apply bind_ok in Er as ((e4 & v) & Er & _).
      exact (Hn _ _ _ _ _ Er).
    - cbn [bind] in F. destruct (Hl (controlCurrents (coils (tok e1)))) as (x & next & Ex). rewrite Ex in F. cbn [run] in F. apply bind_ok in F as ((e3 & x1) & Er & _). apply bind_ok in Er as ((e4 & v) & Er & _).
      exact (Hn _ _ _ _ _ Er). }
  unfold read_finish in E. apply bind_ok in E as (ea & _ & E). apply bind_ok in E as (eb & _ & E). cbv zeta in E.
  unfold picard, run_constrain, eq_ops in E. cbn [Picard.constrain] in E. unfold as_constrain in E at 1.
  cbn [fst snd] in E. destruct (second_fit spline leastsq lbfgsb (r_psi_norm r) (r_mask r) bounds eb) as [e2|] eqn:E2; [exact (F _ _ E2)|discriminate].
Qed.
Print Assumptions C149_no_mask.
Example C149_no_mask_example : outcome (readq 1 ones25 false None None) = Ok [5%Q] /\ readq 1 None false None None = Raise TypeError /\
  readq 1 None false (Some [(8, 5)%Q]) None = Raise TypeError.
Proof. repeat split; vm_compute; reflexivity. Qed.

(** ... and plotConstraints cannot plot the X-points that read stores in the control system. *)
Theorem C149_plot : forall (T : Type) (xpts : list (point T)),
  plot_xpoints (map (fun p => [pR p; pZ p]) xpts) = Ok (map (fun p => (pR p, pZ p)) xpts) /\
  (xpts <> [] -> plot_xpoints (map (fun p => [pR p; pZ p; pPsi p]) xpts) = Raise ValueError).
Proof.
  intros T xpts. unfold plot_xpoints. split.
  - induction xpts as [|x l IH]; [reflexivity|]. cbn [map mapM]. rewrite IH. reflexivity.
  - intros Hx. destruct xpts as [|x l]; [congruence|]. reflexivity.
Qed.
Print Assumptions C149_plot.
Definition stored {Ctl} (constrain : list (point Q) -> list (Q * Q * (Q * Q)) -> Q -> Ctl) :=
  set_control_system spline_ridge 1%Q (fun _ => 0%Q) (fun _ => 1%Q) (fun _ _ => 0%Q) constrain hillc 2.
Theorem C149_plot_refuted : exists (e e' : equilibrium Q unit (list (list Q))) spline pi sin cos arctan2 xpts,
  set_control_system spline pi sin cos arctan2 (fun x i g => map (fun p => [pR p; pZ p; pPsi p]) x) e 2 = Ok e' /\
  control e' = Some xpts /\ plot_xpoints xpts = Raise ValueError.
Proof.
  exists hillc, (get hillc (stored (fun x i g => map (fun p => [pR p; pZ p; pPsi p]) x))), spline_ridge, 1%Q, (fun _ => 0%Q), (fun _ => 1%Q), (fun _ _ => 0%Q), [[1; -1; -2]%Q].
  split; [apply get_ok; vm_compute; reflexivity|]. split; vm_compute; reflexivity.
Qed.
Print Assumptions C149_plot_refuted.
