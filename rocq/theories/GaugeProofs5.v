(** Equilibrium.solve and picard.solve with the sign of all currents changed. *)
From Coq Require Import String List Arith ZArith Bool Reals Lra Lia FunctionalExtensionality.
From Verif Require Import Py Num Numpy Romb RombProofs Multigrid MultigridProofs Coils Machine Critical Boundary Jtor Equilibrium EquilibriumProofs Picard GaugeSpec GaugeProofs GaugeProofs2 GaugeProofs3 GaugeProofs4.
Import ListNotations.
Local Open Scope R_scope.

Section Solve.
  Context {P Ctl : Type}.
  Variables (G : field -> R -> R -> R -> R -> R) (sq : R -> R) (mu0 : R) (lu : nat -> arr2 R -> (nat -> R) -> (nat -> R)).
  Variables (spline : nat -> nat -> (nat -> R) -> (nat -> R) -> arr2 R -> sfun R) (rp : P -> P) (a : R).
  Variables Jtor_call Jtor_call' : P -> equilibrium R P Ctl -> arr2 R -> option R -> result (arr2 R * P * bstate R).
  Hypothesis Ha : unit_sign a.
  Hypothesis Hs : spline_follows spline a 0.
  Hypothesis Hlu : lu_follows lu a.
  Local Notation eqm := (equilibrium R P Ctl).
  Local Notation turn_e := (turned rp a 0).

  (** functions of the user's, if any, follow the sign *)
  Definition user_follows (e : eqm) : Prop :=
    match slv e with SMatrix _ => True | SUser f => forall p q, f (scal2 a p) (scal2 a q) = rmap (both_scal a) (f p q) end /\
    match bnd e with BUser f => forall J p, f (scal2 a J) (scal2 a p) = rmap (scal2 a) (f J p) | _ => True end.
  (** the X-points of the flux of [e] have other values than its O-points *)
  Definition flux_separate (e : eqm) : Prop := forall q, total_psi e = Ok q -> separate spline e q.

  Lemma turned_call e p q : user_follows e -> callSolver lu (turn_e e) (scal2 a p) (scal2 a q) = rmap (both_scal a) (callSolver lu e p q).
  Proof.
    intros (Hu & _). unfold callSolver. change (slv (turn_e e)) with (slv e). change (e_nx (turn_e e)) with (e_nx e). change (e_ny (turn_e e)) with (e_ny e).
    destruct (slv e); [apply solver_scal; exact Hlu|apply Hu].
  Qed.
  Lemma turned_apply e J : user_follows e -> applyBoundary G sq lu (turn_e e) (scal2 a J) = rmap (scal2 a) (applyBoundary G sq lu e J).
  Proof.
    intros Hu. unfold applyBoundary. change (bnd (turn_e e)) with (bnd e). change (e_nx (turn_e e)) with (e_nx e). change (e_ny (turn_e e)) with (e_ny e).
    change (grid_R (turn_e e)) with (grid_R e). change (grid_Z (turn_e e)) with (grid_Z e). change (plasma_psi (turn_e e)) with (shifted a 0 (plasma_psi e)). rewrite shifted0.
    assert (Hb := proj2 Hu). destruct (bnd e).
    - apply fixed_scal.
    - apply free_scal.
    - apply hagenow_scal. intros p q. apply turned_call. exact Hu.
    - apply Hb.
  Qed.
  Lemma turned_own e : check_limited e = false -> flux_separate e -> update_own spline (turn_e e) = rmap turn_e (update_own spline e).
  Proof.
    intros Hc Hf. unfold update_own. rewrite turned_total_psi. destruct (total_psi e) as [q|] eqn:Eq; cbn [rmap bind]; [|reflexivity].
    change (e_nx (turn_e e)) with (e_nx e). change (e_ny (turn_e e)) with (e_ny e).
    rewrite (turned_boundary G spline rp a 0 Ha Hs e (e_nx e) (e_ny e) q) by (right; split; [exact Hc|exact (Hf q Eq)]).
    destruct (update_boundary spline e (e_nx e) (e_ny e) q); reflexivity.
  Qed.
  Lemma turned_plasma e x : check_limited e = false -> flux_separate (with_plasma e x) ->
    update_plasma spline (turn_e e) (e_nx e) (e_ny e) (scal2 a x) = rmap turn_e (update_plasma spline e (e_nx e) (e_ny e) x).
  Proof.
    intros Hc Hf. unfold update_plasma. unfold eq_spline, RectBivariateSpline. change (e_nx (turn_e e)) with (e_nx e). change (e_ny (turn_e e)) with (e_ny e).
    change (R_1D (turn_e e)) with (R_1D e). change (Z_1D (turn_e e)) with (Z_1D e). destruct (increasing (e_nx e) (R_1D e) && _ && _ && _ && _ && _)%bool; cbn [bind rmap]; [|reflexivity].
    rewrite <- shifted0. exact (turned_own (with_plasma e x) Hc Hf).
  Qed.
  Lemma turned_linear e J : check_limited e = false -> user_follows e ->
    forall e1, linear_solve G sq mu0 lu spline e J = Ok e1 -> flux_separate e1 -> linear_solve G sq mu0 lu spline (turn_e e) (scal2 a J) = Ok (turn_e e1).
  Proof.
    intros Hc Hu e1 E Hf. unfold linear_solve in *. rewrite turned_apply by exact Hu. destruct (applyBoundary G sq lu e J) as [p|]; cbn [rmap bind] in *; [|discriminate].
    change (e_nx (turn_e e)) with (e_nx e). change (e_ny (turn_e e)) with (e_ny e). change (grid_R (turn_e e)) with (grid_R e).
    replace (fun i j => (- mu0 * grid_R e i j * scal2 a J i j)%num) with (scal2 a (fun i j => (- mu0 * grid_R e i j * J i j)%num)) by (extensionality i; extensionality j; unfold scal2; nR; ring).
    rewrite edges_scal. destruct (set_edges (e_nx e) (e_ny e) (fun i j => (- mu0 * grid_R e i j * J i j)%num) p) as [rhs|]; cbn [rmap bind] in *; [|discriminate].
    rewrite turned_call by exact Hu. destruct (callSolver lu e p rhs) as [(q, x)|]; cbn [rmap bind both_scal fst snd] in *; [|discriminate].
    destruct (update_plasma_inv spline _ _ _ _ _ E) as (_ & _ & q0 & b0 & _ & _ & ->).
    rewrite turned_plasma; [|exact Hc|exact Hf]. rewrite E. reflexivity.
  Qed.

  (** the profile with the sign of its current changed gives the current with the sign changed *)
  Definition turned_res (r : arr2 R * P * bstate R) : arr2 R * P * bstate R := let '(J, p, b) := r in (scal2 a J, rp p, moved_b a 0 b).
  Definition profile_follows : Prop := forall p e psi pb, check_limited e = false -> separate spline e psi ->
    Jtor_call' (rp p) (turn_e e) (scal2 a psi) (moved_bndry a 0 pb) = rmap turned_res (Jtor_call p e psi pb).
  Local Notation slv_ := (solve G sq mu0 lu spline Jtor_call).
  Local Notation slv_' := (solve G sq mu0 lu spline Jtor_call').
  Lemma turned_solve e p Jo psi pb e1 : profile_follows -> user_follows e -> check_limited e = false -> flux_separate e ->
    (Jo = None -> match psi with None => True | Some q => separate spline e q end) ->
    slv_ e p Jo psi pb = Ok e1 -> flux_separate e1 ->
    slv_' (turn_e e) (rp p) (option_map (scal2 a) Jo) (option_map (scal2 a) psi) (moved_bndry a 0 pb) = Ok (turn_e e1).
  Proof.
    intros Hp Hu Hc Hf Hq E Hf1. unfold solve in *. set (e0 := with_profiles e (Some p) (control e)) in *.
    change (with_profiles (turn_e e) (Some (rp p)) (control (turn_e e))) with (turn_e e0). rewrite (turned_own e0 Hc Hf).
    destruct (update_own spline e0) as [e2|] eqn:E2; cbn [bind rmap] in E |- *; [|discriminate].
    destruct (update_own_inv spline _ _ E2) as (q0 & b0 & _ & _ & H2).
    assert (Fe : forall e3 J, (exists b p', e3 = with_profiles (with_bs e0 b) p' (control e)) ->
      bind (linear_solve G sq mu0 lu spline e3 J) (fun e => bind (romb2 (e_nx e) (e_ny e) J) (fun Ip => bind (spacing_R (e_nx e) (e_ny e) (grid_R e)) (fun dR =>
        bind (spacing_Z (e_nx e) (e_ny e) (grid_Z e)) (fun dZ => Ok (with_current e (Ip * dR * dZ)%num J))))) = Ok e1 ->
      bind (linear_solve G sq mu0 lu spline (turn_e e3) (scal2 a J)) (fun e => bind (romb2 (e_nx e) (e_ny e) (scal2 a J)) (fun Ip => bind (spacing_R (e_nx e) (e_ny e) (grid_R e)) (fun dR =>
        bind (spacing_Z (e_nx e) (e_ny e) (grid_Z e)) (fun dZ => Ok (with_current e (Ip * dR * dZ)%num (scal2 a J)))))) = Ok (turn_e e1)).
    { clear E. intros e3 J (b & p' & ->) E. set (e3 := with_profiles (with_bs e0 b) p' (control e)) in *.
      destruct (linear_solve G sq mu0 lu spline e3 J) as [e4|] eqn:E4; cbn [bind] in E; [|discriminate].
      destruct (romb2 (e_nx e4) (e_ny e4) J) as [Ip|] eqn:EI; cbn [bind] in E; [|discriminate].
      destruct (spacing_R (e_nx e4) (e_ny e4) (grid_R e4)) as [dR|] eqn:ER; cbn [bind] in E; [|discriminate].
      destruct (spacing_Z (e_nx e4) (e_ny e4) (grid_Z e4)) as [dZ|] eqn:EZ; cbn [bind] in E; [|discriminate].
      assert (E1 : e1 = with_current e4 (Ip * dR * dZ)%num J) by (injection E as <-; reflexivity). clear E. subst e1.
      rewrite (turned_linear e3 J Hc Hu e4 E4 Hf1). cbn [bind]. change (e_nx (turn_e e4)) with (e_nx e4). change (e_ny (turn_e e4)) with (e_ny e4).
      change (grid_R (turn_e e4)) with (grid_R e4). change (grid_Z (turn_e e4)) with (grid_Z e4). unfold scal2 at 1. rewrite romb2_scal, EI. cbn [rmap bind]. rewrite ER, EZ. cbn [bind]. f_equal.
      change (turn_e (with_current e4 (Ip * dR * dZ)%num J)) with (with_current (turn_e e4) (a * (Ip * dR * dZ)%num) (scal2 a J)). f_equal. nR. ring. }
    destruct Jo as [J|]; cbn [option_map bind] in E |- *.
    - apply Fe; [exists b0, (Some p); exact H2|exact E].
    - specialize (Hq eq_refl).
      assert (Fq : forall q, separate spline e q ->
        bind (bind (Jtor_call p e2 q pb) (fun '(J, p', b) => Ok (J, with_profiles (with_bs e2 b) (Some p') (control e2)))) (fun '(J, e) =>
          bind (linear_solve G sq mu0 lu spline e J) (fun e => bind (romb2 (e_nx e) (e_ny e) J) (fun Ip => bind (spacing_R (e_nx e) (e_ny e) (grid_R e)) (fun dR =>
          bind (spacing_Z (e_nx e) (e_ny e) (grid_Z e)) (fun dZ => Ok (with_current e (Ip * dR * dZ)%num J)))))) = Ok e1 ->
        bind (bind (Jtor_call' (rp p) (turn_e e2) (scal2 a q) (moved_bndry a 0 pb)) (fun '(J, p', b) => Ok (J, with_profiles (with_bs (turn_e e2) b) (Some p') (control (turn_e e2))))) (fun '(J, e) =>
          bind (linear_solve G sq mu0 lu spline e J) (fun e => bind (romb2 (e_nx e) (e_ny e) J) (fun Ip => bind (spacing_R (e_nx e) (e_ny e) (grid_R e)) (fun dR =>
          bind (spacing_Z (e_nx e) (e_ny e) (grid_Z e)) (fun dZ => Ok (with_current e (Ip * dR * dZ)%num J)))))) = Ok (turn_e e1)).
      { clear E. intros q Hsq E. assert (Hc2 : check_limited e2 = false) by (rewrite H2; exact Hc). assert (Hs2 : separate spline e2 q) by (rewrite H2; exact Hsq).
        rewrite (Hp p e2 q pb Hc2 Hs2). destruct (Jtor_call p e2 q pb) as [((J, p'), b)|]; cbn [bind rmap turned_res] in E |- *; [|discriminate].
        apply (Fe (with_profiles (with_bs e2 b) (Some p') (control e2)) J); [|exact E]. exists b, (Some p'). rewrite H2. reflexivity. }
      destruct psi as [q|]; cbn [option_map bind] in E |- *.
      + exact (Fq q Hq E).
      + rewrite turned_total_psi. destruct (total_psi e2) as [q|] eqn:Eq; cbn [rmap bind] in E |- *; [|discriminate]. rewrite shifted0.
        apply (Fq q); [|exact E]. apply Hf. rewrite <- Eq, H2. reflexivity.
  Qed.

  (** ** The Picard iteration *)
  Variables (nx ny : nat).
  Lemma cells_scal (x : arr2 R) : cells nx ny (scal2 a x) = map (Rmult a) (cells nx ny x).
  Proof. unfold cells. rewrite !flat_map_concat_map, concat_map, map_map. f_equal. apply map_ext. intros i. rewrite map_map. reflexivity. Qed.
  Lemma fold_opp l : forall s, fold_left nmax (map (Rmult (-1)) l) (-1 * s) = -1 * fold_left nmin l s /\ fold_left nmin (map (Rmult (-1)) l) (-1 * s) = -1 * fold_left nmax l s.
  Proof.
    induction l as [|x l IH]; intros s; cbn [map fold_left]; [auto|].
    replace (nmax (-1 * s) (-1 * x)) with (-1 * nmin s x) by (rewrite nmax_R, nmin_R; unfold Rbasic_fun.Rmax, Rbasic_fun.Rmin; repeat destruct (Rle_dec _ _); lra).
    replace (nmin (-1 * s) (-1 * x)) with (-1 * nmax s x) by (rewrite nmax_R, nmin_R; unfold Rbasic_fun.Rmax, Rbasic_fun.Rmin; repeat destruct (Rle_dec _ _); lra).
    split; [apply (proj1 (IH _))|apply (proj2 (IH _))].
  Qed.
  Lemma range_scal (x : arr2 R) : amax nx ny (scal2 a x) - amin nx ny (scal2 a x) = amax nx ny x - amin nx ny x.
  Proof.
    unfold amax, amin. rewrite cells_scal. change (scal2 a x 0%nat 0%nat) with (a * x 0%nat 0%nat). destruct Ha as [->| ->].
    - rewrite Rmult_1_l. replace (map (Rmult 1) (cells nx ny x)) with (cells nx ny x); [reflexivity|]. rewrite <- map_id at 1. apply map_ext. intros y. ring.
    - rewrite (proj1 (fold_opp _ _)), (proj2 (fold_opp _ _)). ring.
  Qed.
  Lemma abs_unit x : nabs (a * x) = nabs x.
  Proof. rewrite !nabs_R, Rabs_mult. destruct Ha as [->| ->]; [rewrite Rabs_R1|rewrite (Rabs_left (-1)) by lra]; ring. Qed.
  Lemma change_scal (x y : arr2 R) : amax nx ny (fun i j => nabs (scal2 a x i j - scal2 a y i j)%num) = amax nx ny (fun i j => nabs (x i j - y i j)%num).
  Proof. f_equal. extensionality i. extensionality j. unfold scal2. nR. rewrite <- (abs_unit (x i j - y i j)). f_equal. ring. Qed.
  Lemma quotient_unit x y : quotient (a * x) (a * y) = quotient x y.
  Proof.
    unfold quotient. nR. assert (Hz : a <> 0) by (destruct Ha as [->| ->]; lra).
    destruct (R_eqb (a * y) 0) eqn:E1, (R_eqb y 0) eqn:E2; rcmp; try reflexivity.
    - exfalso. apply Rmult_integral in E1. tauto.
    - exfalso. apply E1. rewrite E2. ring.
    - f_equal. apply div_unit. exact Ha.
  Qed.

  Definition turn_s (s : eqm * P) : eqm * P := (turn_e (fst s), rp (snd s)).
  Definition turn_v (v : @vars R) : @vars R := mkvars (scal2 a (psi v)) (iteration v) (a * bndry v) (option_map (Rmult a) (change v)) (been_limited v) (history v).
  Definition turn_o (o : @options R) : @options R := mkopts (rtol o) (atol o) (blend o) (moved_bndry a 0 (user_bndry o)) (maxits o) (check o) (wait o) (limit_it o).
  Variables (c c' : option (eqm * P -> (eqm * P) * result unit)) (o : @options R).
  (** the control system for the changed sign does the same with the sign changed *)
  Definition control_follows : Prop := forall s s1, run_constrain (eqm * P) (eq_ops G sq mu0 lu spline Jtor_call c) s = (s1, Ok tt) ->
    run_constrain (eqm * P) (eq_ops G sq mu0 lu spline Jtor_call' c') (turn_s s) = (turn_s s1, Ok tt).
  Local Notation turn_ := (turn nx ny (eqm * P) (eq_ops G sq mu0 lu spline Jtor_call c) o).
  Local Notation loop_ := (loop nx ny (eqm * P) (eq_ops G sq mu0 lu spline Jtor_call c) o).
  (** the states at the top of the loop *)
  Inductive reached (s0 : eqm * P) (v0 : vars) : eqm * P -> vars -> Prop :=
  | reached_start : reached s0 v0 s0 v0
  | reached_step s v s' v' : reached s0 v0 s v -> turn_ s v = (s', Ok (inr v')) -> reached s0 v0 s' v'.
  Definition generic (s : eqm * P) (v : vars) : Prop :=
    user_follows (fst s) /\ flux_separate (fst s) /\ separate spline (fst s) (psi v) /\
    forall e1, slv_ (with_check (fst s) false) (snd s) None (Some (psi v)) (user_bndry o) = Ok e1 -> flux_separate e1.
  Hypothesis Hp : profile_follows.
  Hypothesis Hc : control_follows.
  Hypothesis Hchk : check o = false.
  Local Notation turn_' := (turn nx ny (eqm * P) (eq_ops G sq mu0 lu spline Jtor_call' c') (turn_o o)).
  Local Notation loop_' := (loop nx ny (eqm * P) (eq_ops G sq mu0 lu spline Jtor_call' c') (turn_o o)).
  Lemma turned_turn s v s' r : generic s v -> turn_ s v = (s', Ok r) ->
    turn_' (turn_s s) (turn_v v) = (turn_s s', Ok match r with inl h => inl h | inr w => inr (turn_v w) end).
  Proof.
    intros (Hu & Hf & Hq & Hn) E. unfold turn in *. change (check (turn_o o)) with (check o). rewrite Hchk in *. rewrite !andb_false_r in *.
    change (user_bndry (turn_o o)) with (moved_bndry a 0 (user_bndry o)). change (rtol (turn_o o)) with (rtol o).
    cbn [set_check eq_ops eq_solve limited bndry_flux Picard.eq_psi] in *.
    change (fst (turn_s s), snd (turn_s s)) with (turn_s s). cbn [fst snd turn_s turn_v psi iteration bndry change been_limited history] in *.
    destruct (slv_ (with_check (fst s) false) (snd s) None (Some (psi v)) (user_bndry o)) as [e1|] eqn:Es; [|discriminate].
    assert (Hf1 := Hn e1 eq_refl).
    assert (Es' := turned_solve (with_check (fst s) false) (snd s) None (Some (psi v)) (user_bndry o) e1 Hp Hu eq_refl Hf (fun _ => Hq) Es Hf1). cbn [option_map] in Es'.
    change (with_check (turn_e (fst s)) false) with (turn_e (with_check (fst s) false)). rewrite Es'.
    change (profiles (turn_e e1)) with (option_map rp (profiles e1)).
    set (q1 := match profiles e1 with Some q => q | None => snd s end) in *.
    assert (Eq1 : match option_map rp (profiles e1) with Some q => q | None => rp (snd s) end = rp q1) by (unfold q1; destruct (profiles e1); reflexivity). rewrite Eq1.
    cbn [fst snd] in *. change (Equilibrium.psi_bndry (bs (turn_e e1))) with (option_map (moved_bndry a 0) (Equilibrium.psi_bndry (bs e1))).
    change (is_limited (bs (turn_e e1))) with (is_limited (bs e1)).
    destruct (Equilibrium.psi_bndry (bs e1)) as [ob|]; cbn [option_map] in *; [|discriminate].
    rewrite turned_total_psi. destruct (total_psi e1) as [psi1|] eqn:E1; cbn [rmap bind] in *; [|destruct ob; discriminate].
    rewrite shifted0. set (V := match ob with Some b => (b, Some (bndry v - b)%num, option_map nabs (quotient (bndry v - b)%num b)) | None => (bndry v, change v, Some (n2 * rtol o)%num) end) in *.
    assert (EV : match moved_bndry a 0 ob with Some b => (b, Some ((a * bndry v)%R - b)%num, option_map nabs (quotient ((a * bndry v)%R - b)%num b)) | None => (a * bndry v, option_map (Rmult a) (change v), Some (n2 * rtol o)%num) end
               = (a * fst (fst V), option_map (Rmult a) (snd (fst V)), snd V)).
    { unfold V. destruct ob as [b|]; cbn [moved_bndry fst snd option_map]; [|reflexivity]. rewrite Rplus_0_r. replace ((a * bndry v)%R - (a * b)%R)%num with (a * (bndry v - b)%num) by (nR; ring).
      rewrite quotient_unit. reflexivity. }
    rewrite EV. clear EV. destruct V as ((b, ch), rel). cbn [fst snd].
    change (amax nx ny (fun i j => nabs (scal2 a (psi v) i j - scal2 a psi1 i j)%num)) with (amax nx ny (fun i j => nabs (scal2 a (psi v) i j - scal2 a psi1 i j)%num)).
    rewrite change_scal. change (amax nx ny (scal2 a psi1) - amin nx ny (scal2 a psi1))%num with (amax nx ny (scal2 a psi1) - amin nx ny (scal2 a psi1)). rewrite range_scal.
    change (rtol (turn_o o)) with (rtol o). change (atol (turn_o o)) with (atol o). change (wait (turn_o o)) with (wait o). change (blend (turn_o o)) with (blend o). change (maxits (turn_o o)) with (maxits o).
    assert (Ech : option_map nabs (option_map (Rmult a) ch) = option_map nabs ch) by (destruct ch; cbn [option_map]; [rewrite abs_unit|]; reflexivity). rewrite Ech.
    change (amax nx ny psi1 - amin nx ny psi1)%num with (amax nx ny psi1 - amin nx ny psi1) in E.
    destruct ((((_ <? _)%num || _) && _) && _)%bool.
    - injection E as <- <-. reflexivity.
    - destruct (run_constrain (eqm * P) (eq_ops G sq mu0 lu spline Jtor_call c) (e1, q1)) as (s2, [[]|]) eqn:Ec; [|discriminate].
      change (turn_e e1, rp q1) with (turn_s (e1, q1)). rewrite (Hc _ _ Ec). cbn [Picard.eq_psi eq_ops] in *. change (fst (turn_s s2)) with (turn_e (fst s2)). rewrite turned_total_psi.
      destruct (total_psi (fst s2)) as [psi2|]; cbn [rmap bind] in *; [|discriminate]. rewrite shifted0.
      replace (fun i j => ((n1 - blend o) * scal2 a psi2 i j + blend o * scal2 a (psi v) i j)%num) with (scal2 a (fun i j => ((n1 - blend o) * psi2 i j + blend o * psi v i j)%num))
        by (extensionality i; extensionality j; unfold scal2; nR; ring).
      destruct (maxits o) as [m|].
      + destruct (negb (m =? 0)%Z && _)%bool; [discriminate|]. injection E as <- <-. reflexivity.
      + injection E as <- <-. reflexivity.
  Qed.
  Lemma turned_loop s0 v0 : (forall s v, reached s0 v0 s v -> generic s v) -> forall fuel s v s1 h, reached s0 v0 s v -> loop_ fuel s v = (s1, Ok h) ->
    loop_' fuel (turn_s s) (turn_v v) = (turn_s s1, Ok h).
  Proof.
    intros Hg. induction fuel as [|k IH]; intros s v s1 h Hr E; cbn [loop] in *; [discriminate|].
    destruct (turn_ s v) as (s', [r|]) eqn:Et; [|discriminate]. rewrite (turned_turn s v s' r (Hg s v Hr) Et).
    destruct r as [h'|w]; [injection E as <- <-; reflexivity|]. apply IH; [|exact E]. exact (reached_step _ _ _ _ _ _ Hr Et).
  Qed.
  Theorem turned_picard s s1 h fuel :
    (forall s0 psi0, run_constrain (eqm * P) (eq_ops G sq mu0 lu spline Jtor_call c) s = (s0, Ok tt) -> total_psi (fst s0) = Ok psi0 ->
       forall t v, reached s0 (mkvars psi0 0 0 None false []) t v -> generic t v) ->
    picard nx ny (eqm * P) (eq_ops G sq mu0 lu spline Jtor_call c) o fuel s = (s1, Ok h) ->
    picard nx ny (eqm * P) (eq_ops G sq mu0 lu spline Jtor_call' c') (turn_o o) fuel (turn_s s) = (turn_s s1, Ok h).
  Proof.
    intros Hg E. unfold picard in *. destruct (run_constrain (eqm * P) (eq_ops G sq mu0 lu spline Jtor_call c) s) as (s0, [[]|]) eqn:Ec; [|discriminate].
    rewrite (Hc _ _ Ec). cbn [Picard.eq_psi eq_ops] in *. change (fst (turn_s s0)) with (turn_e (fst s0)). rewrite turned_total_psi.
    destruct (total_psi (fst s0)) as [psi0|] eqn:E0; cbn [rmap bind] in *; [|discriminate]. rewrite shifted0.
    assert (K := turned_loop s0 (mkvars psi0 0 0 None false []) (fun t v Hr => Hg s0 psi0 eq_refl E0 t v Hr) fuel s0 _ s1 h (reached_start _ _) E).
    rewrite <- K. f_equal. unfold turn_v. cbn [psi iteration bndry change been_limited history option_map]. nR. rewrite Rmult_0_r. reflexivity.
  Qed.
End Solve.
