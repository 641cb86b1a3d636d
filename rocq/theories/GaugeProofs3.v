(** equilibrium.py under a change of sign and zero of the flux. *)
From Coq Require Import String List Arith ZArith Bool Reals Lra Lia FunctionalExtensionality.
From Verif Require Import Py Num Numpy Romb RombProofs Coils Machine Critical Boundary Jtor Equilibrium GaugeSpec GaugeProofs GaugeProofs2.
Import ListNotations.
Local Open Scope R_scope.


(** ** Coils *)
Lemma fold_add_scal {A} (f g : A -> R) a l : (forall x, In x l -> g x = a * f x) -> forall s t, t = a * s -> fold_left (fun r x => r + g x) l t = a * fold_left (fun r x => r + f x) l s.
Proof.
  induction l as [|x l IH]; intros E s t Es; cbn [fold_left]; [exact Es|]. apply IH; [intros y Hy; apply E; right; exact Hy|]. rewrite (E x (or_introl eq_refl)), Es. ring.
Qed.
Lemma fold_left_map_in {A B S} (f : S -> B -> S) (g : A -> B) l : forall s, fold_left f (map g l) s = fold_left (fun s x => f s (g x)) l s.
Proof. induction l as [|x l IH]; intros s; cbn [map fold_left]; [reflexivity|apply IH]. Qed.
Lemma turned_field G f a m r z : fst (mc_field G f (mc_set_current m (a * mc_current m)) r z) = a * fst (mc_field G f m r z).
Proof.
  destruct m as [k|ci|s]; cbn [mc_set_current mc_current mc_field fst].
  - unfold coil_field, coil_control. cbn [c_kind c_current set_current c_turns]. nR. ring.
  - unfold circuit_field, circuit_set_current. cbn [ci_coils ci_current fst]. rewrite fold_left_map_in.
    refine (fold_add_scal (fun m => coil_field G f (set_current (m_coil m) (ci_current ci * m_mult m)) r z) _ a (ci_coils ci) _ 0 0 _); [|ring].
    intros x _. unfold coil_field, coil_control. cbn [m_coil set_m_coil m_mult fst snd c_kind c_current set_current c_turns]. nR. ring.
  - unfold sol_field, sol_ctrl. cbn [s_Rs s_Zsmin s_Zsmax s_Ns s_current]. nR. ring.
Qed.
Lemma turned_machine_from G f a M r z : forall s, fst (machine_field_from G (a * s) f (turned_machine a M) r z) = a * fst (machine_field_from G s f M r z).
Proof.
  induction M as [|(l, m) M IH]; intros s; cbn [turned_machine map machine_field_from fst snd]; [reflexivity|].
  assert (E := turned_field G f a m r z). destruct (mc_field G f (mc_set_current m (a * mc_current m)) r z) as (v', m'), (mc_field G f m r z) as (v, m''). cbn [fst] in E. subst v'.
  assert (E2 := IH (s + v)). nR. replace (a * s + a * v) with (a * (s + v)) by ring. fold (turned_machine a M).
  destruct (machine_field_from G (a * (s + v)) f (turned_machine a M) r z), (machine_field_from G (s + v) f M r z). exact E2.
Qed.
Lemma turned_machine_field G f a M r z : fst (machine_field G f (turned_machine a M) r z) = a * fst (machine_field G f M r z).
Proof. unfold machine_field. rewrite <- turned_machine_from. nR. rewrite Rmult_0_r. reflexivity. Qed.
(** flux from the stored Green's functions *)
Lemma turned_circuit_greens a ci d : rmap fst (circuit_from_greens (circuit_set_current ci (a * ci_current ci)) d) = rmap (fun r => a * fst r) (circuit_from_greens ci d).
Proof.
  unfold circuit_from_greens, circuit_set_current. cbn [ci_coils ci_current ci_control].
  set (stepf := fun I psival m => match dict_get d (m_label m) with None => Raise KeyError | Some g => Ok (psival + coil_from_greens (set_current (m_coil m) (I * m_mult m)) g) end).
  assert (K : forall l s, foldM (stepf (a * ci_current ci)) (map (fun m => set_m_coil m (set_current (m_coil m) (m_mult m * (a * ci_current ci)))) l) (a * s) = rmap (Rmult a) (foldM (stepf (ci_current ci)) l s)).
  { induction l as [|m l IH]; intros s; cbn [map foldM]; [reflexivity|]. unfold stepf at 1 3. cbn [m_label set_m_coil fst snd m_coil m_mult].
    change (m_label (set_m_coil m (set_current (m_coil m) (m_mult m * (a * ci_current ci))))) with (m_label m).
    destruct (dict_get d (m_label m)) as [g|]; cbn [bind rmap]; [|reflexivity]. rewrite <- IH. f_equal.
    unfold coil_from_greens. cbn [c_current set_current]. change (m_mult (set_m_coil m (set_current (m_coil m) (m_mult m * (a * ci_current ci))))) with (m_mult m). nR. ring. }
  specialize (K (ci_coils ci) 0). rewrite Rmult_0_r in K. unfold stepf in K.
  match goal with |- rmap fst (bind ?u _) = rmap _ (bind ?v _) => change u with (foldM (stepf (a * ci_current ci)) (map (fun m => set_m_coil m (set_current (m_coil m) (m_mult m * (a * ci_current ci)))) (ci_coils ci)) 0); change v with (foldM (stepf (ci_current ci)) (ci_coils ci) 0) end.
  unfold stepf. rewrite K. destruct (foldM _ (ci_coils ci) 0); reflexivity.
Qed.
Lemma turned_mc_greens a m g : rmap fst (mc_from_greens (mc_set_current m (a * mc_current m)) g) = rmap (fun r => a * fst r) (mc_from_greens m g).
Proof.
  destruct m as [k|ci|s], g as [v|d]; cbn [mc_set_current mc_current mc_from_greens rmap fst]; try reflexivity.
  - unfold coil_from_greens. cbn [c_current set_current]. nR. f_equal. ring.
  - assert (K := turned_circuit_greens a ci d). destruct (circuit_from_greens (circuit_set_current ci (a * ci_current ci)) d), (circuit_from_greens ci d); cbn [rmap bind fst] in *; congruence.
  - cbn [s_current]. nR. f_equal. ring.
Qed.
Lemma turned_calcPsi a M pg : forall s, rmap fst (calcPsi_from (a * s) (turned_machine a M) pg) = rmap (fun r => a * fst r) (calcPsi_from s M pg).
Proof.
  induction M as [|(l, m) M IH]; intros s; cbn [turned_machine map calcPsi_from fst snd]; [reflexivity|].
  destruct (dict_get pg l) as [g|]; [|reflexivity]. assert (K := turned_mc_greens a m g).
  destruct (mc_from_greens (mc_set_current m (a * mc_current m)) g) as [(v', m')|], (mc_from_greens m g) as [(v, m'')|]; cbn [rmap bind fst snd] in *; try congruence.
  assert (Ev : v' = a * v) by congruence. subst v'. fold (turned_machine a M). specialize (IH (s + v)). nR. replace (a * s + a * v) with (a * (s + v)) by ring.
  destruct (calcPsi_from (a * (s + v)) (turned_machine a M) pg) as [(w, ?)|], (calcPsi_from (s + v) M pg) as [(w', ?)|]; cbn [rmap bind fst snd] in *; congruence.
Qed.
Lemma turned_eq_psi a c p M pg : Machine.eq_psi (a * p + c) (turned_machine a M) pg = rmap (fun v => a * v + c) (Machine.eq_psi p M pg).
Proof.
  unfold Machine.eq_psi, calcPsiFromGreens. assert (K := turned_calcPsi a M pg 0). rewrite Rmult_0_r in K. nR.
  destruct (calcPsi_from 0 (turned_machine a M) pg) as [(w, ?)|], (calcPsi_from 0 M pg) as [(w', ?)|]; cbn [rmap bind fst snd] in *; try congruence.
  assert (Ev : w = a * w') by congruence. subst w. f_equal. ring.
Qed.
Lemma turned_total_psi {P Ctl} rp a c (e : equilibrium R P Ctl) : total_psi (turned rp a c e) = rmap (shifted a c) (total_psi e).
Proof.
  unfold total_psi. cbn [plasma_psi tok coils pgreen turned turned_tok]. unfold shifted at 1. rewrite turned_eq_psi.
  destruct (Machine.eq_psi (plasma_psi e 0%nat 0%nat) (coils (tok e)) (pgreen e 0%nat 0%nat)) as [v|]; cbn [bind rmap]; [|reflexivity].
  f_equal. extensionality i. extensionality j. unfold shifted at 1 3. rewrite turned_eq_psi. destruct (Machine.eq_psi _ _ _); reflexivity.
Qed.
Section Turned.
  Context {P Ctl : Type}.
  Variables (G : field -> R -> R -> R -> R -> R) (spline : nat -> nat -> (nat -> R) -> (nat -> R) -> arr2 R -> sfun R) (rp : P -> P) (a c : R).
  Hypothesis Ha : unit_sign a.
  Hypothesis Hs : spline_follows spline a c.
  Variable e : equilibrium R P Ctl.
  Let e' := turned rp a c e.

  Lemma turned_Br r z : eqBr G spline e' r z = a * eqBr G spline e r z.
  Proof. unfold eqBr, plasmaBr, psi_func. change (R_1D e') with (R_1D e). change (Z_1D e') with (Z_1D e). cbn [e' turned e_nx e_ny plasma_psi tok turned_tok coils]. rewrite turned_machine_field. rewrite Hs. nR. unfold Rdiv. ring. Qed.
  Lemma turned_Bz r z : eqBz G spline e' r z = a * eqBz G spline e r z.
  Proof. unfold eqBz, plasmaBz, psi_func. change (R_1D e') with (R_1D e). change (Z_1D e') with (Z_1D e). cbn [e' turned e_nx e_ny plasma_psi tok turned_tok coils]. rewrite turned_machine_field. rewrite Hs. nR. unfold Rdiv. ring. Qed.

  (** the flux of the X-points found differs from that of the O-points *)
  Definition separate (psi : arr2 R) : Prop :=
    distinct_flux (e_nx e) (e_ny e) (grid_R e) (grid_Z e) psi (spline (e_nx e) (e_ny e) (R_1D e) (Z_1D e) psi).

  Lemma turned_find mx my psi : (a = 1 \/ separate psi) -> eq_find_critical spline e' mx my (shifted a c psi) = rmap (moved2 a c) (eq_find_critical spline e mx my psi).
  Proof.
    intros Hd. unfold eq_find_critical, eq_spline, RectBivariateSpline. change (R_1D e') with (R_1D e). change (Z_1D e') with (Z_1D e).
    change (e_nx e') with (e_nx e). change (e_ny e') with (e_ny e). change (grid_R e') with (grid_R e). change (grid_Z e') with (grid_Z e).
    destruct (_ && _)%bool; cbn [bind rmap]; [|reflexivity]. apply find_critical_follow; [exact Ha|apply Hs|]. destruct Hd as [Q|Q]; [left; exact Q|right; right; exact Q].
  Qed.
  Lemma psin_unit psi pa pb : psin_of (shifted a c psi) (a * pa + c) (a * pb + c) = psin_of psi pa pb.
  Proof. exact (norm_follow a c psi Ha pb pa). Qed.
  Lemma turned_mask psi opt xpt pb : eq_core_mask e' (shifted a c psi) (map (moved a c) opt) (map (moved a c) xpt) (moved_bndry a c pb) = eq_core_mask e psi opt xpt pb.
  Proof.
    unfold eq_core_mask. change (e_nx e') with (e_nx e). change (e_ny e') with (e_ny e). change (grid_R e') with (grid_R e). change (grid_Z e') with (grid_Z e).
    unfold Critical.core_mask. destruct opt as [|((ro, zo), pa) opt]; [reflexivity|]. cbn [map moved fst snd].
    destruct pb as [v|]; cbn [moved_bndry bind].
    - rewrite psin_unit, map_map. reflexivity.
    - destruct xpt as [|((rx, zx), v) xpt]; [reflexivity|]. cbn [map moved fst snd bind]. rewrite psin_unit, map_map. reflexivity.
  Qed.
  Lemma argmax_from_shift d : forall l i best v, argmax_from (map (fun x => x + d) l) i best (v + d) = argmax_from l i best v.
  Proof.
    induction l as [|x l IH]; intros i best v; cbn [map argmax_from]; [reflexivity|]. nR.
    destruct (R_ltb (v + d) (x + d)) eqn:E1, (R_ltb v x) eqn:E2; rcmp; try (exfalso; lra); apply IH.
  Qed.
  Lemma argmax_from_range : forall (l : list R) i best v, argmax_from l i best v = best \/ (i <= argmax_from l i best v < i + List.length l)%nat.
  Proof.
    induction l as [|x l IH]; intros i best v; cbn [argmax_from List.length]; [left; reflexivity|].
    destruct (v <? x)%num.
    - destruct (IH (S i) i x) as [->|Q]; [right; lia|right; lia].
    - destruct (IH (S i) best v) as [->|Q]; [left; reflexivity|right; lia].
  Qed.
  Lemma argmax_shift d (l : list R) : argmax (map (fun x => x + d) l) = argmax l.
  Proof. destruct l as [|x l]; cbn [map argmax]; [reflexivity|]. rewrite argmax_from_shift. reflexivity. Qed.
  Lemma argmax_lt (l : list R) k : argmax l = Some k -> (k < List.length l)%nat.
  Proof. destruct l as [|x l]; [discriminate|]. cbn [argmax List.length]. intros [= <-]. destruct (argmax_from_range l 1 0 x) as [->|Q]; lia. Qed.
  Lemma nmax_shift x y d : nmax (x + d) (y + d) = nmax x y + d.
  Proof. rewrite !nmax_R. unfold Rbasic_fun.Rmax. repeat destruct (Rle_dec _ _); lra. Qed.

  (** _updateBoundaryPsi *)
  Let spline_guard := (increasing (e_nx e) (R_1D e) && increasing (e_ny e) (Z_1D e) && (e_nx e =? e_ny e)%nat && (e_ny e =? e_nx e)%nat && (3 <? e_nx e)%nat && (3 <? e_ny e)%nat)%bool.
  Lemma turned_update psi opt xpt : (a = 1 \/ check_limited e = false) ->
    update_from spline e' (shifted a c psi) (map (moved a c) opt) (map (moved a c) xpt) = rmap (moved_b a c) (update_from spline e psi opt xpt).
  Proof.
    intros Hl. unfold update_from. change (bs e') with (moved_b a c (bs e)). destruct opt as [|o opt]; [reflexivity|].
    cbn [map]. change (moved a c o :: map (moved a c) opt) with (map (moved a c) (o :: opt)).
    change (check_limited e') with (check_limited e). change (wall (tok e')) with (wall (tok e)). change (limits (tok e')) with (limits (tok e)).
    change (e_nx e') with (e_nx e). change (e_ny e') with (e_ny e). change (bnd e') with (bnd e).
    assert (Esp : forall n m z, eq_spline spline e' n m z = eq_spline spline e n m z) by reflexivity. rewrite !Esp.
    destruct (check_limited e && wall (tok e))%bool eqn:Ec.
    - destruct Hl as [Q|Q]; [|rewrite Q in Ec; discriminate]. assert (Ha1 : a = 1) by exact Q. clear Q.
      assert (Elim : match map (moved a c) xpt with [] => limits (tok e) | x :: _ => filter (fun p => (nabs (snd p) <? nabs (nlit 75 100 * pZ x))%num) (limits (tok e)) end
                   = match xpt with [] => limits (tok e) | x :: _ => filter (fun p => (nabs (snd p) <? nabs (nlit 75 100 * pZ x))%num) (limits (tok e)) end) by (destruct xpt; reflexivity).
      rewrite Elim. set (lims := match xpt with [] => _ | _ => _ end).
      assert (Eif : forall z, eq_spline spline e (e_ny e) (e_nx e) z = if spline_guard then Ok (spline (e_nx e) (e_ny e) (R_1D e) (Z_1D e) z) else Raise ValueError) by reflexivity.
      rewrite !Eif. destruct spline_guard; cbn [bind rmap]; [|reflexivity].
      change (fun i j => shifted a c psi j i) with (shifted a c (fun i j => psi j i)). set (sp := spline (e_nx e) (e_ny e) (R_1D e) (Z_1D e) (fun i j => psi j i)).
      assert (Ev : map (fun p => spline (e_nx e) (e_ny e) (R_1D e) (Z_1D e) (shifted a c (fun i j => psi j i)) 0%nat 0%nat (fst p) (snd p)) lims = map (fun x => x + c) (map (fun p => sp 0%nat 0%nat (fst p) (snd p)) lims)).
      { rewrite map_map. apply map_ext. intros p. rewrite Hs. fold sp. rewrite Ha1. ring. }
      rewrite Ev, argmax_shift. set (vals := map (fun p => sp 0%nat 0%nat (fst p) (snd p)) lims).
      destruct (argmax vals) as [k|] eqn:Ek; [|reflexivity]. apply argmax_lt in Ek.
      assert (En : nth k (map (fun x => x + c) vals) n0 = nth k vals n0 + c).
      { rewrite (nth_indep _ n0 (n0 + c)) by (rewrite map_length; exact Ek). exact (map_nth (fun x => x + c) vals n0 k). }
      rewrite En. set (pl := nth k vals n0). destruct xpt as [|x xpt]; cbn [map].
      + cbn [rmap bind]. unfold moved_b. cbn [Equilibrium.psi_axis Equilibrium.psi_bndry mask psi_xpt psi_limit is_limited lim option_map moved_bndry].
        replace (a * pl + c) with (pl + c) by (rewrite Ha1; ring). reflexivity.
      + change (moved a c x :: map (moved a c) xpt) with (map (moved a c) (x :: xpt)).
        change (pPsi (moved a c x)) with (a * pPsi x + c). replace (nmax (a * pPsi x + c) (pl + c)) with (a * nmax (pPsi x) pl + c) by (rewrite Ha1, !Rmult_1_l, nmax_shift; reflexivity).
        assert (Em := turned_mask psi (o :: opt) (x :: xpt) (Some (nmax (pPsi x) pl))). cbn [map moved_bndry] in Em. cbn [map]. rewrite Em. clear Em.
        destruct (eq_core_mask e psi (o :: opt) (x :: xpt) (Some (nmax (pPsi x) pl))) as [m|]; cbn [bind rmap]; [|reflexivity].
        rewrite Esp. destruct (eq_spline spline e (e_nx e) (e_ny e) m) as [g|]; cbn [bind rmap]; [|reflexivity].
        unfold moved_b. cbn [Equilibrium.psi_axis Equilibrium.psi_bndry mask psi_xpt psi_limit is_limited lim option_map moved_bndry]. f_equal.
        replace ((a * nmax (pPsi x) pl + c)%R =? (pl + c)%R)%num with (nmax (pPsi x) pl =? pl)%num.
        * replace (a * pl + c) with (pl + c) by (rewrite Ha1; ring). reflexivity.
        * nR. rewrite Ha1. destruct (R_eqb (nmax (pPsi x) pl) pl) eqn:E1, (R_eqb (1 * nmax (pPsi x) pl + c) (pl + c)) eqn:E2; rcmp; try reflexivity; exfalso; lra.
    - destruct xpt as [|x xpt]; cbn [map].
      + destruct (bnd e); reflexivity.
      + change (moved a c x :: map (moved a c) xpt) with (map (moved a c) (x :: xpt)). assert (Em := turned_mask psi (o :: opt) (x :: xpt) None). cbn [map moved_bndry] in Em. cbn [map]. rewrite Em. clear Em.
        destruct (eq_core_mask e psi (o :: opt) (x :: xpt) None) as [m|]; cbn [bind rmap]; [|reflexivity].
        rewrite Esp. destruct (eq_spline spline e (e_nx e) (e_ny e) m) as [g|]; cbn [bind rmap]; [|reflexivity]. reflexivity.
  Qed.
  Lemma turned_boundary mx my psi : (a = 1 \/ (check_limited e = false /\ separate psi)) ->
    update_boundary spline e' mx my (shifted a c psi) = rmap (moved_b a c) (update_boundary spline e mx my psi).
  Proof.
    intros Hd. unfold update_boundary. rewrite turned_find by tauto. destruct (eq_find_critical spline e mx my psi) as [(opt, xpt)|]; cbn [bind rmap moved2 fst snd]; [|reflexivity].
    unfold moved2. cbn [fst snd]. apply turned_update. tauto.
  Qed.

  (** the environment of the profiles *)
  Lemma turned_core psi pb : (a = 1 \/ separate psi) ->
    Jtor.find_core (env_of G spline e' e') (shifted a c psi) (moved_bndry a c pb) = rmap (moved_core a c) (Jtor.find_core (env_of G spline e e) psi pb).
  Proof.
    intros Hd. unfold Jtor.find_core, env_of. cbn [Jtor.find_critical Jtor.core_mask]. change (e_nx e') with (e_nx e). change (e_ny e') with (e_ny e). rewrite turned_find by exact Hd.
    destruct (eq_find_critical spline e (e_nx e) (e_ny e) psi) as [(opt, xpt)|]; cbn [bind rmap moved2 fst snd]; [|reflexivity]. unfold moved2. cbn [fst snd].
    destruct opt as [|((ro, zo), pa) opt]; [reflexivity|]. assert (Em := turned_mask psi ((ro, zo, pa) :: opt) xpt pb).
    destruct pb as [v|]; cbn [moved_bndry map moved fst snd] in *.
    - rewrite Em. destruct (eq_core_mask e psi _ xpt (Some v)); reflexivity.
    - destruct xpt as [|((rx, zx), v) xpt]; [reflexivity|]. cbn [map moved fst snd] in *. rewrite Em. destruct (eq_core_mask e psi _ _ None); reflexivity.
  Qed.
  Lemma turned_updated psi : (a = 1 \/ (check_limited e = false /\ separate psi)) ->
    Jtor.updated_bndry (env_of G spline e' e') (shifted a c psi) = rmap (moved_bndry a c) (Jtor.updated_bndry (env_of G spline e e) psi).
  Proof.
    intros Hd. unfold env_of. cbn [Jtor.updated_bndry]. change (e_nx e') with (e_nx e). change (e_ny e') with (e_ny e). rewrite turned_boundary by exact Hd.
    destruct (update_boundary spline e (e_nx e) (e_ny e) psi) as [b|]; cbn [bind rmap]; [|reflexivity]. unfold moved_b. cbn [Equilibrium.psi_bndry].
    destruct (Equilibrium.psi_bndry b); reflexivity.
  Qed.
  Lemma turned_Bpol2 m : Jtor.Bpol2 (env_of G spline e' e') m = Jtor.Bpol2 (env_of G spline e e) m.
  Proof.
    unfold Jtor.Bpol2, env_of. cbn [Jtor.eqBr Jtor.eqBz]. f_equal. extensionality i. extensionality j. rewrite turned_Br, turned_Bz. change (grid_R e') with (grid_R e). change (grid_Z e') with (grid_Z e). nR.
    set (x := eqBr G spline e (grid_R e i j) (grid_Z e i j)). set (y := eqBz G spline e (grid_R e i j) (grid_Z e i j)).
    transitivity (a * a * (x * x + y * y)); [ring|]. rewrite (sq1 a Ha). ring.
  Qed.
End Turned.
