(** C201: picard.solve with the control system keeps up-down symmetry. *)
From Coq Require Import String List Arith ZArith Bool Reals Lra Lia Permutation.
From Verif Require Import Py Num Numpy Coils Machine MachineSpec MachineProofs Critical CriticalProofs Control ControlSpec ControlProofs PropControl Machines MachinesSpec MachinesProofs PropMachines PropControlMirror
  Multigrid MultigridProofs GradShafranov GradShafranovProofs Equilibrium EquilibriumSpec EquilibriumProofs EquilibriumProofs2 GSSpec EllipticSpec Gauss ControlEq Boundary BoundarySpec BoundaryProofs FittingProofs PropGreens PropBoundary PropSolveFlux PropSolveError PropReturned PropTrueFlux PropMachine PropMachinesMade
  Picard PicardProofs PropPicard PropControlEq PropPicardMirror.
Import ListNotations.
Local Open Scope R_scope.

(** ** What the statements mean *)
(** Splines through symmetric values on a symmetric grid are symmetric. *)
Definition mirror_spline (spline : nat -> nat -> (nat -> R) -> (nat -> R) -> arr2 R -> sfun R) : Prop :=
  forall nx ny X Y p, (forall j, (j < ny)%nat -> Y (ny - 1 - j)%nat = - Y j) -> mirror nx ny p -> forall r z,
    spline nx ny X Y p 0%nat 0%nat r (- z) = spline nx ny X Y p 0%nat 0%nat r z /\
    spline nx ny X Y p 0%nat 1%nat r (- z) = - spline nx ny X Y p 0%nat 1%nat r z /\
    spline nx ny X Y p 1%nat 0%nat r (- z) = spline nx ny X Y p 1%nat 0%nat r z.
(** A machine with symmetric field whose controls come in mirror pairs, on a domain centred on the midplane, with the stored Green's functions of its coils *)
Definition mirror_machine {P Ctl} ellipk ellipe (M0 : machine R) pi sg (e : equilibrium R P Ctl) : Prop :=
  let G := green_kernel ellipk ellipe in
  Zmin e = - Zmax e /\ (2 <= e_ny e)%nat /\ labels_distinct M0 /\ machine_shape (coils (tok e)) = machine_shape M0 /\
  pgreen e = (fun i j => createPsiGreens G M0 (grid_R e i j) (grid_Z e i j)) /\
  mirrored_controls G (coils (tok e)) pi sg /\ mirror_field (fun f => response_sum G f (coils (tok e))).

(** ** Proofs *)
Lemma Z_mirror {P Ctl} (e : equilibrium R P Ctl) : Zmin e = - Zmax e -> (2 <= e_ny e)%nat -> forall j, (j < e_ny e)%nat -> Z_1D e (e_ny e - 1 - j)%nat = - Z_1D e j.
Proof.
  intros HZ Hny j Hj. assert (E := gridZ_is e 0%nat). unfold grid_Z in E. rewrite !E, mirror_point by assumption. rewrite HZ. ring.
Qed.
Lemma machine_coils {P Ctl} ek ee M0 pi sg (e : equilibrium R P Ctl) : mirror_machine ek ee M0 pi sg e -> mirror_coils e.
Proof.
  intros (HZ & Hny & HL & Hsh & Hpg & _ & HF).
  exists (fun i j => response_sum (green_kernel ek ee) FPsi (coils (tok e)) (grid_R e i j) (grid_Z e i j)). split.
  - intros e1 q T1 T2 E i j. unfold total_psi in E. apply bind_ok in E. destruct E as (v & _ & E). apply ok_inj in E. subst q. cbv beta.
    rewrite T1, T2, Hpg. unfold Machine.eq_psi. rewrite (cached_direct (green_kernel ek ee) M0 (coils (tok e)) _ _ HL Hsh). cbn [bind fst]. reflexivity.
  - intros x y Hx Hy. cbv beta. assert (Z := Z_mirror e HZ Hny y Hy). unfold grid_Z. rewrite Z. unfold grid_R. rewrite HF. cbn [parity]. ring.
Qed.
Lemma machine_about {P Ctl} ek ee M0 pi sg : about_machine (P := P) (Ctl := Ctl) (mirror_machine ek ee M0 pi sg).
Proof.
  intros e e1 (D & _) T1 T2 (HZ & Hny & HL & Hsh & Hpg & HM & HF). injection D as D1 D2 D3 D4 D5 D6. unfold mirror_machine. cbv zeta. rewrite T1, T2, D2, D5, D6.
  split; [exact HZ|]. split; [exact Hny|]. split; [exact HL|]. split; [exact Hsh|]. split; [|split; [exact HM|exact HF]].
  rewrite Hpg. unfold grid_R, grid_Z, R_1D, Z_1D. rewrite D1, D2, D3, D4, D5, D6. reflexivity.
Qed.
Lemma plasma_mirror {P} spline (e : equilibrium R P (constraints R)) : mirror_spline spline -> Zmin e = - Zmax e -> (2 <= e_ny e)%nat -> mirror (e_nx e) (e_ny e) (plasma_psi e) ->
  mirror_field (plasma_field spline e).
Proof.
  intros HS HZ Hny Hm f r z. destruct (HS _ _ (R_1D e) _ _ (Z_mirror e HZ Hny) Hm r z) as (S0 & S1 & S2). fold (psi_func spline e) in S0, S1, S2.
  destruct f; cbn [plasma_field parity]; [|unfold plasmaBr|unfold plasmaBz]; rewrite ?S0, ?S1, ?S2; nR; unfold Rdiv; ring.
Qed.
Lemma control_machine {P} ek ee M0 pi sg spline inv slsqp c (e0 : equilibrium R P (constraints R)) :
  (forall n A N, inv n A = Ok N -> inverts n A N) ->
  (forall f x0 b cs x, slsqp f x0 b cs = Ok x -> length x = length x0) ->
  (forall f x0 x, slsqp f x0 (repeat (None, None) (length x0)) [] = Ok x -> f x <= f x0) ->
  gamma c <> 0 -> current_lims c = None -> max_total_current c = None -> mirror_spline spline -> mirrored_constraints c ->
  keeps_control (mirror_machine ek ee M0 pi sg) e0 (Some (constrain_eq (green_kernel ek ee) spline inv slsqp c)).
Proof.
  intros Hinv Hs Hw Hg HL HT HS HC f (e, p) (e1, p1) Ef Hsg Hm (HZ & Hny & HLb & Hsh & Hpg & HM & HF) E. injection Ef as <-. cbn [fst] in *.
  destruct (constrain_eq_inv _ _ _ _ _ _ _ _ _ E) as (-> & M & x & Ec & ->).
  split; [split; reflexivity|]. split; [reflexivity|]. split; [reflexivity|].
  assert (D := proj1 Hsg). injection D as D1 D2 _ _ _ _. rewrite <- D1, <- D2 in Hm.
  assert (HP := plasma_mirror spline e HS HZ Hny Hm).
  destruct (C198_symmetric_control _ _ _ _ _ _ _ _ _ _ Hinv Hs Hw Hg HL HT HM HF HP HC Ec) as (_ & HF').
  assert (Hl := call_length _ _ _ _ _ _ _ _ Hs Ec). destruct (call_machine _ _ _ _ _ _ _ _ Ec) as (M1 & HM1 & EM).
  assert (Hl1 : length x = length (controlCurrents M1)) by (rewrite (same_currents _ _ HM1); exact Hl).
  unfold mirror_machine. cbv zeta. cbn [Zmin Zmax e_ny tok coils pgreen with_profiles with_coils with_tok].
  split; [exact HZ|]. split; [exact Hny|]. split; [exact HLb|]. split; [|split; [exact Hpg|split; [|exact HF']]].
  - rewrite <- Hsh, EM. transitivity (machine_shape M1).
    + apply (zip_frame (fun m dI => mc_set_current m (nadd (mc_current m) dI))); intros; [apply mc_set_current_shape|apply mc_set_current_control].
    + destruct HM1 as [->| ->]; [reflexivity|apply machine_sync_shape].
  - assert (Ectl : forall f r z, machine_control (green_kernel ek ee) f M r z = machine_control (green_kernel ek ee) f (coils (tok e)) r z).
    { intros f r z. rewrite EM, adjust_mc by exact Hl1. apply same_control. exact HM1. }
    assert (En : length (controlCurrents M) = length (controlCurrents (coils (tok e)))).
    { rewrite <- (control_length (green_kernel ek ee) FPsi M 0 0), Ectl. apply control_length. }
    intros i Hi. rewrite En in *. destruct (HM i Hi) as (A1 & A2 & A3 & A4 & A5). repeat (split; [assumption|]). intros f r z. rewrite !Ectl. apply A5.
Qed.

(** ** C201 *)
(** A symmetric machine, symmetric constraints, a symmetric profile and a symmetric starting flux: the plasma flux, the total flux, the current
    density and the field of the coils that picard.solve returns are symmetric. *)
Theorem C201_symmetric_run : forall (P : Type) mu lu spline ellipk ellipe Jt inv slsqp c M0 pi sg mx my o fuel (s s' : equilibrium R P (constraints R) * P) h,
  let e := fst s in
  (forall n A N, inv n A = Ok N -> inverts n A N) ->
  (forall f x0 b cs x, slsqp f x0 b cs = Ok x -> length x = length x0) ->
  (forall f x0 x, slsqp f x0 (repeat (None, None) (length x0)) [] = Ok x -> f x <= f x0) ->
  exact_solver lu -> second_order e -> bnd e = BFixed \/ bnd e = BFree -> mirror_spline spline -> mirror_profile Jt e ->
  gamma c <> 0 -> current_lims c = None -> max_total_current c = None -> mirrored_constraints c ->
  mirror_machine ellipk ellipe M0 pi sg e -> mirror (e_nx e) (e_ny e) (plasma_psi e) ->
  picard mx my _ (eq_ops (green_kernel ellipk ellipe) sqrt mu lu spline Jt (Some (constrain_eq (green_kernel ellipk ellipe) spline inv slsqp c))) o fuel s = (s', Ok h) ->
  mirror (e_nx e) (e_ny e) (plasma_psi (fst s')) /\
  (forall psi, total_psi (fst s') = Ok psi -> mirror (e_nx e) (e_ny e) psi) /\
  (exists J, jtor (fst s') = Some J /\ mirror (e_nx e) (e_ny e) J) /\
  mirror_field (fun f r z => fst (machine_field (green_kernel ellipk ellipe) f (coils (tok (fst s'))) r z)).
Proof.
  intros P mu lu spline ek ee Jt inv slsqp c M0 pi sg mx my o fuel s s' h e Hinv Hs Hw Hlu HSO Hb HSp HJ Hg HL HT HC HM Hp Ep.
  assert (Hb' : bnd e = BFixed \/ bnd e = BFree /\ green_kernel ek ee FPsi = Greens ek ee) by (destruct Hb as [Hb|Hb]; [left; exact Hb|right; split; [exact Hb|reflexivity]]).
  destruct (C196_invariant P (constraints R) (green_kernel ek ee) mu lu spline ek ee Jt (Some (constrain_eq (green_kernel ek ee) spline inv slsqp c)) (mirror_machine ek ee M0 pi sg) mx my o fuel s s' h
    Hlu HSO Hb' HJ (machine_coils ek ee M0 pi sg) (machine_about ek ee M0 pi sg) (control_machine ek ee M0 pi sg spline inv slsqp c (fst s) Hinv Hs Hw Hg HL HT HSp HC) Hp HM Ep) as (A1 & A2 & A3 & A4).
  split; [exact A1|]. split; [exact A3|]. split; [exact A4|]. destruct A2 as (_ & _ & _ & _ & _ & _ & HF). intros f r z. rewrite !machine_field_eq. apply HF.
Qed.
Print Assumptions C201_symmetric_run.
(** MAST_sym with a pair of X-points: the run returns for every sound inverse. *)
Example C201_example : forall ek ee inv, inv_ok inv -> exists A at_ s' h,
  let M := powered (fun l => if String.eqb l "P2" then 1000 else 0) (tk_coils MAST_sym) in
  let e := coil_eq (green_kernel ek ee) M A in
  second_order e /\ bnd e = BFixed /\ mirror_spline flat_spline /\ mirror_profile copy_profile e /\ mirrored_constraints exc2 /\ gamma exc2 <> 0 /\
  mirror_machine ek ee M (fun i => i) MAST_signs e /\ mirror 5 5 (plasma_psi e) /\
  picard 5 5 _ (eq_ops (green_kernel ek ee) sqrt 1 elimination flat_spline copy_profile (Some (constrain_eq (green_kernel ek ee) flat_spline inv (fun f x0 b cs => Ok x0) exc2))) (plain_options None 0 at_) 1 (e, tt) = (s', Ok h).
Proof.
  intros ek ee inv Hinv. destruct (GSsparse_rows 1 2 (-1) 1 5 5) as (A & EA & _). exists A. set (I := fun l => if String.eqb l "P2" then 1000 else 0).
  assert (L0 : labels_distinct (powered I (tk_coils MAST_sym))).
  { assert (L := C137_labels MAST_sym pre_MAST_sym). destruct L as (L1 & L2). split.
    - unfold powered. rewrite map_map. exact L1.
    - unfold powered. apply Forall_map. revert L2. apply Forall_impl. intros (l, m). cbn [snd]. destruct m; intros H; try exact H.
      cbn [mc_set_current]. unfold circuit_set_current. cbn [ci_coils]. rewrite ?map_map. exact H. }
  assert (SF : mirror_field (fun f => response_sum (green_kernel ek ee) f (powered I (tk_coils MAST_sym)))).
  { intros f r z. assert (S := proj1 (C138_MAST_sym I) eq_refl ek ee r z). cbv zeta in S. unfold coils_field in S. rewrite !machine_field_eq in S. cbn [fst] in S. destruct S as (S1 & S2 & S3).
    destruct f; cbn [parity]; [rewrite S1|rewrite S2|rewrite S3]; ring. }
  set (M := powered I (tk_coils MAST_sym)) in *. assert (CM : mirrored_controls (green_kernel ek ee) M (fun i => i) MAST_signs) by (apply MAST_controls, kernel_mirror). clearbody M.
  destruct (C14_unique_minimiser (green_kernel ek ee) (plasma_field flat_spline (coil_eq (green_kernel ek ee) M A)) inv (fun f x0 b cs => Ok x0) exc2 M Hinv) as (M' & x & E & _);
    [intros f x0; exists x0; split; [reflexivity|]; split; [reflexivity|lra]|cbn; lra|reflexivity|reflexivity|left; discriminate|].
  assert (E1 : exists e1, constrain_eq (green_kernel ek ee) flat_spline inv (fun f x0 b cs => Ok x0) exc2 (coil_eq (green_kernel ek ee) M A, tt) = ((e1, tt), Ok tt)).
  { unfold constrain_eq. change (coils (tok (coil_eq (green_kernel ek ee) M A))) with M. rewrite E. eexists. reflexivity. }
  destruct E1 as (e1 & E1). destruct (coil_run elimination _ M A _ _ _ e1 L0 E1) as (at_ & s' & h & Ep). exists at_, s', h. cbv zeta.
  split. { unfold second_order. cbn [Rmin Rmax Zmin Zmax e_nx e_ny slv coil_eq]. repeat (split; [lra|]). exists A. split; [exact EA|reflexivity]. }
  split; [reflexivity|]. split; [intros nx ny X Y p _ _ r z; unfold flat_spline; repeat split; ring|].
  split. { intros p e psi pb J p' b _ Hm EJ. injection EJ as <- _ _. exact Hm. }
  split; [apply C198_example|]. split; [cbn; lra|].
  split. { unfold mirror_machine. cbv zeta. cbn [Zmin Zmax e_ny tok coils pgreen coil_eq]. split; [lra|]. split; [lia|]. split; [exact L0|]. split; [reflexivity|]. split; [reflexivity|]. split; [exact CM|exact SF]. }
  split; [intros i j _ _; reflexivity|exact Ep].
Qed.
