(** C231 and C232: solving with an equilibrium that was saved and loaded. *)
From Coq Require Import String Ascii List Arith ZArith QArith Bool Reals Lra Lia Permutation Classical.
From Verif Require Import Py Num Numpy Romb RombProofs Polygons Coils Machine MachineSpec MachineProofs Sensors SensorsProofs Multigrid MultigridProofs Gauss Critical Boundary BoundarySpec BoundaryProofs Jtor
  GradShafranov GradShafranovProofs GS4Proofs Equilibrium EquilibriumSpec EquilibriumProofs EquilibriumProofs2 EquilibriumProofs3 GSSpec FourthProofs EllipticSpec Serial SerialSpec SerialProofs PropMachine PropGreens PropBoundary PropEquilibrium FittingProofs PropSolveFlux PropFourth PropFourthSign PropSerial.
Import ListNotations.
Local Open Scope R_scope.
Local Open Scope string_scope.

(** ** Proofs *)
(** What a solve with a given current density produces depends on the grid, the boundary condition,
    the solver and the plasma flux only. *)
Lemma solve_same {P Ctl P' Ctl' : Type} G mu lu spline
  (Jc : P -> equilibrium R P Ctl -> (nat -> nat -> R) -> option R -> result ((nat -> nat -> R) * P * bstate R))
  (Jc' : P' -> equilibrium R P' Ctl' -> (nat -> nat -> R) -> option R -> result ((nat -> nat -> R) * P' * bstate R))
  (e e1 : equilibrium R P Ctl) (e' e1' : equilibrium R P' Ctl') p p' J psi psi' pb pb' :
  e_nx e' = e_nx e -> e_ny e' = e_ny e -> Equilibrium.Rmin e' = Equilibrium.Rmin e -> Equilibrium.Rmax e' = Equilibrium.Rmax e -> Equilibrium.Zmin e' = Equilibrium.Zmin e -> Equilibrium.Zmax e' = Equilibrium.Zmax e ->
  bnd e' = bnd e -> slv e' = slv e -> plasma_psi e' = plasma_psi e ->
  solve G sqrt mu lu spline Jc e p (Some J) psi pb = Ok e1 -> solve G sqrt mu lu spline Jc' e' p' (Some J) psi' pb' = Ok e1' ->
  plasma_psi e1' = plasma_psi e1 /\ jtor e1' = jtor e1 /\ current e1' = current e1.
Proof.
  intros H1 H2 H3 H4 H5 H6 H7 H8 H9 E E'.
  apply solve_inv in E as (u & Ja & p1 & rhs & x & q & I & dR & dZ & b & _ & (-> & _) & Eb & Er & (s & Ex) & EI & ER & EZ & _ & ->).
  apply solve_inv in E' as (u' & Jb & p1' & rhs' & x' & q' & I' & dR' & dZ' & b' & _ & (-> & _) & Eb' & Er' & (s' & Ex') & EI' & ER' & EZ' & _ & ->).
  cbn [plasma_psi jtor current with_profiles with_current with_bs with_plasma].
  assert (A : applyBoundary G sqrt lu e' J = applyBoundary G sqrt lu e J).
  { unfold applyBoundary, callSolver, grid_R, grid_Z, R_1D, Z_1D. rewrite H1, H2, H3, H4, H5, H6, H7, H8, H9. reflexivity. }
  rewrite A in Eb'. assert (X : Ok p1' = Ok p1) by (rewrite <- Eb, <- Eb'; reflexivity). apply ok_inj in X. subst p1'.
  unfold callSolver, grid_R, grid_Z, R_1D, Z_1D in *. rewrite H1, H2, ?H3, ?H4, ?H5, ?H6 in *. rewrite H8 in Ex'.
  assert (X : Ok rhs' = Ok rhs) by (rewrite <- Er, <- Er'; reflexivity). apply ok_inj in X. subst rhs'.
  assert (X : Ok (s', x') = Ok (s, x)) by (rewrite <- Ex, <- Ex'; reflexivity). apply ok_inj in X. injection X as -> ->.
  assert (X : Ok I' = Ok I) by (rewrite <- EI, <- EI'; reflexivity). apply ok_inj in X. subst I'.
  assert (X : Ok dR' = Ok dR) by (rewrite <- ER, <- ER'; reflexivity). apply ok_inj in X. subst dR'.
  assert (X : Ok dZ' = Ok dZ) by (rewrite <- EZ, <- EZ'; reflexivity). apply ok_inj in X. subst dZ'.
  repeat split.
Qed.
(** The matrix of an equilibrium that is read. *)
Lemma read_slv int_of fuel G sqrt exp spline f (e' : equilibrium R unit unit) w' : read int_of fuel G sqrt exp spline f = Ok (e', w') ->
  exists A, GSsparse4thOrder (Equilibrium.Rmin e') (Equilibrium.Rmax e') (Equilibrium.Zmin e') (Equilibrium.Zmax e') (e_nx e') (e_ny e') = Ok A /\ slv e' = SMatrix (MGDirect (e_nx e' * e_ny e') A).
Proof.
  intros Er. unfold read in Er. inv_bind Er. inv_bind Er. inv_bind Er. inv_bind Er. injection Er as <- _.
  match goal with H : new_equilibrium _ _ _ _ _ _ _ _ _ _ _ _ _ _ _ = Ok ?e |- context [slv ?e] => apply new_inv in H; destruct H as (_ & _ & -> & -> & -> & -> & -> & -> & _ & _ & _ & _ & _ & _ & _ & _ & _ & _ & gen & A & Eg & EA & Es) end.
  exists A. unfold generator_of in Eg. cbn [Nat.eqb] in Eg. injection Eg as <-. split; [exact EA|exact Es].
Qed.

(** ** C231 *)
(** A fourth-order equilibrium that is saved and loaded gives, for the same current density, the
    same plasma flux, plasma current, total flux and field as the one that was saved. *)
Theorem C231_same_solve : forall int_of fuel G exp spline user mu lu
    (Jc Jc' : unit -> equilibrium R unit unit -> (nat -> nat -> R) -> option R -> result ((nat -> nat -> R) * unit * bstate R))
    (e e' e1 e1' : equilibrium R unit unit) w w' f p p' J psi psi' pb pb' A,
  (forall n, int_of (INR n) = n) ->
  Forall (fun lm => savable fuel (snd lm) /\ plain (fst lm)) (coils (tok e)) -> NoDup (map fst (coils (tok e))) ->
  match bnd e with BUser _ => False | _ => True end ->
  GSsparse4thOrder (Equilibrium.Rmin e) (Equilibrium.Rmax e) (Equilibrium.Zmin e) (Equilibrium.Zmax e) (e_nx e) (e_ny e) = Ok A -> slv e = SMatrix (MGDirect (e_nx e * e_ny e) A) ->
  write user e w = Ok f -> read int_of fuel G sqrt exp spline f = Ok (e', w') ->
  solve G sqrt mu lu spline Jc e p (Some J) psi pb = Ok e1 -> solve G sqrt mu lu spline Jc' e' p' (Some J) psi' pb' = Ok e1' ->
  plasma_psi e1' = plasma_psi e1 /\ jtor e1' = jtor e1 /\ current e1' = current e1 /\
  (forall r z, psiRZ G spline e1' r z = psiRZ G spline e1 r z) /\
  (forall r z, Equilibrium.eqBr G spline e1' r z = Equilibrium.eqBr G spline e1 r z) /\
  (forall r z, Equilibrium.eqBz G spline e1' r z = Equilibrium.eqBz G spline e1 r z).
Proof.
  intros int_of fuel G ex spline user mu lu Jc Jc' e e' e1 e1' w w' f p p' J psi psi' pb pb' A Hi HF HN Hb EA Es Ew Er E E'.
  destruct (read_slv _ _ _ _ _ _ _ _ _ Er) as (A' & EA' & Es').
  destruct (C68_round_trip _ _ _ _ _ _ _ e e' _ _ _ Hi HF HN Hb Ew Er) as ((l & HP & HF2) & _ & H3 & H4 & H5 & H6 & H1 & H2 & H9 & _ & H7 & _).
  rewrite H1, H2, H3, H4, H5, H6, EA in EA'. apply ok_inj in EA'. subst A'. rewrite H1, H2 in Es'.
  destruct (solve_same G mu lu spline Jc Jc' e e1 e' e1' p p' J psi psi' pb pb') as (S1 & S2 & S3); try assumption; [congruence|].
  split; [exact S1|]. split; [exact S2|]. split; [exact S3|].
  assert (HS : Forall (fun lm => savable fuel (snd lm)) (coils (tok e))) by (eapply Forall_impl; [|exact HF]; intros a [Ha _]; exact Ha).
  assert (HM : forall fd r z, fst (machine_field G fd (coils (tok e')) r z) = fst (machine_field G fd (coils (tok e)) r z)).
  { intros fd r z. rewrite !machine_field_eq. cbn [fst]. eapply restored_field; eassumption. }
  apply solve_inv in E as (u & Ja & p1 & rhs & x & q & I & dR & dZ & b & _ & _ & _ & _ & _ & _ & _ & _ & _ & Ee).
  apply solve_inv in E' as (u' & Jb & p1' & rhs' & x' & q' & I' & dR' & dZ' & b' & _ & _ & _ & _ & _ & _ & _ & _ & _ & Ee').
  unfold psiRZ, Equilibrium.eqBr, Equilibrium.eqBz, plasmaBr, plasmaBz, psi_func, R_1D, Z_1D. rewrite S1.
  assert (D : e_nx e1' = e_nx e1 /\ e_ny e1' = e_ny e1 /\ Equilibrium.Rmin e1' = Equilibrium.Rmin e1 /\ Equilibrium.Rmax e1' = Equilibrium.Rmax e1 /\ Equilibrium.Zmin e1' = Equilibrium.Zmin e1 /\ Equilibrium.Zmax e1' = Equilibrium.Zmax e1).
  { rewrite Ee, Ee'. cbn. repeat split; assumption. }
  destruct D as (-> & -> & -> & -> & -> & ->).
  assert (T1 : tok e1' = tok e') by (rewrite Ee'; reflexivity). assert (T2 : tok e1 = tok e) by (rewrite Ee; reflexivity). rewrite T1, T2.
  repeat split; intros r z; rewrite HM; reflexivity.
Qed.
Print Assumptions C231_same_solve.

(** ** A box without coils, saved and loaded *)
Definition unit9 (o : nat) (A : arr2 R) : equilibrium R unit unit :=
  mkeq 9 9 100 108 (-40) 40 (mktok [] false []) BFixed o (SMatrix (MGDirect 81 A)) false (fun _ _ => 0) (fun _ _ => []) 0 None no_boundary None None.
Definition no_profile (p : unit) (e : equilibrium R unit unit) (psi : nat -> nat -> R) (o : option R) : result ((nat -> nat -> R) * unit * bstate R) := Raise TypeError.
Lemma fixed9_run (e : equilibrium R unit unit) A J : coils (tok e) = [] -> bnd e = BFixed -> e_nx e = 9%nat -> e_ny e = 9%nat -> Equilibrium.Rmin e = 100 -> Equilibrium.Rmax e = 108 -> Equilibrium.Zmin e = -40 -> Equilibrium.Zmax e = 40 ->
  slv e = SMatrix (MGDirect 81 A) -> exists e', solve (fun _ => green) sqrt 1 elimination flat_spline no_profile e tt (Some J) None None = Ok e' /\ jtor e' = Some J.
Proof.
  intros Hc Hb Nx Ny R1 R2 Z1 Z2 Es. assert (D9 : dyadic 9) by (exists 3%nat; reflexivity).
  set (e0 := with_profiles e (Some tt) (control e)).
  destruct (proj1 (C28_fixed_boundary 9 9 (plasma_psi e0)) ltac:(lia)) as (q & Eq & _).
  destruct (set_edges_spec 9 9 (fun i j => nmul (nmul (nopp 1) (grid_R e0 i j)) (J i j)) q ltac:(lia) ltac:(lia)) as (rhs & Erh & _).
  destruct (romb2_dyadic 9 9 J D9 D9) as (t & Et).
  assert (Q1 : coils (tok e0) = []) by exact Hc. assert (Q2 : e_nx e0 = 9%nat) by exact Nx. assert (Q3 : e_ny e0 = 9%nat) by exact Ny.
  assert (Q4 : Equilibrium.Rmin e0 < Equilibrium.Rmax e0) by (cbn; rewrite R1, R2; lra). assert (Q5 : Equilibrium.Zmin e0 < Equilibrium.Zmax e0) by (cbn; rewrite Z1, Z2; lra).
  assert (E1 : update_own flat_spline e0 = Ok (with_bs e0 (bs e0))) by (apply flat_own; try assumption; lia).
  eexists. unfold solve. fold e0. rewrite E1. cbn [bind]. unfold linear_solve, applyBoundary.
  change (bnd (with_bs e0 (bs e0))) with (bnd e). rewrite Hb. cbn iota.
  change (e_nx (with_bs e0 (bs e0))) with (e_nx e). change (e_ny (with_bs e0 (bs e0))) with (e_ny e). rewrite Nx, Ny.
  change (plasma_psi (with_bs e0 (bs e0))) with (plasma_psi e0). rewrite Eq. cbn [bind].
  match goal with |- context [set_edges 9 9 ?a q] => change (set_edges 9 9 a q) with (set_edges 9 9 (fun i j => nmul (nmul (nopp 1) (grid_R e0 i j)) (J i j)) q) end. rewrite Erh. cbn [bind].
  unfold callSolver. change (slv (with_bs e0 (bs e0))) with (slv e). rewrite Es. unfold solver_call. cbn [mg_call]. 
  change (e_nx (with_bs e0 (bs e0))) with (e_nx e). change (e_ny (with_bs e0 (bs e0))) with (e_ny e). rewrite Nx, Ny. change (Nat.eqb 81 (9 * 9)) with true. cbn [bind].
  match goal with |- context [update_plasma flat_spline ?a 9 9 ?b] => assert (U := flat_update_plasma a b); change (e_nx a) with (e_nx e) in U; change (e_ny a) with (e_ny e) in U; rewrite Nx, Ny in U; rewrite U; [|lia|lia|exact Q4|exact Q5|exact Hc] end. cbn [bind].
  match goal with |- context [romb2 ?a ?b ?c] => replace (romb2 a b c) with (Ok t) by (rewrite <- Et; symmetry; change a with (e_nx e); change b with (e_ny e); rewrite Nx, Ny; reflexivity) end. cbn [bind].
  match goal with |- context [spacing_R ?a ?b _] => change a with (e_nx e); change b with (e_ny e) end.
  rewrite spacing_R_ok, spacing_Z_ok by lia. cbn [bind]. split; reflexivity.
Qed.
Lemma unit9_read o A : exists f (e' : equilibrium R unit unit), write "f" (unit9 o A) None = Ok f /\ read int_R 5 (fun _ => green) sqrt exp flat_spline f = Ok (e', None) /\ coils (tok e') = [].
Proof.
  destruct (no_coils_psi (unit9 o A) eq_refl) as (tp & Et & _).
  destruct C218_regular_example as (A4 & EA & _).
  destruct (@flat_new_coils unit unit (fun _ => green) (mktok [] false []) 100 108 (-40) 40 9 9 BFixed (Some (fun _ _ => 0)) 0 (GSsparse4thOrder 100 108 (-40) 40) A4 4 false) as (e' & Ee);
    try reflexivity; try lia; try lra; try exact EA.
  { split; constructor. }
  exists (mkfile 100 108 (-40) 40 (9%nat, 9%nat) 0 (fun _ _ => 0) "fixedBoundary" None []), e'. split; [|split].
  - unfold write. rewrite Et. reflexivity.
  - unfold read. cbn [f_coils f_wall f_boundary f_Rmin f_Rmax f_Zmin f_Zmax f_shape f_plasma_psi f_current fst snd].
    match goal with |- bind ?x _ = _ => change x with (Ok (A := machine R) []) end. cbn [bind Vessel v_wall v_limits].
    change (boundary_of_name "fixedBoundary") with (Ok (A := boundary R) BFixed). cbn [bind]. match goal with |- bind ?x _ = _ => replace x with (Ok e') by (symmetry; exact Ee) end. reflexivity.
  - apply new_inv in Ee. destruct Ee as (_ & _ & _ & _ & _ & _ & _ & _ & -> & _). reflexivity.
Qed.
(** the loaded one can be solved with any current density *)
Lemma unit9_loaded o A f (e' : equilibrium R unit unit) : write "f" (unit9 o A) None = Ok f -> read int_R 5 (fun _ => green) sqrt exp flat_spline f = Ok (e', None) -> coils (tok e') = [] ->
  fourth_order elimination e' /\ bnd e' = BFixed /\ e_nx e' = 9%nat /\ e_ny e' = 9%nat /\ Equilibrium.Rmin e' = 100 /\ Equilibrium.Rmax e' = 108 /\ Equilibrium.Zmin e' = -40 /\ Equilibrium.Zmax e' = 40 /\
  forall J, exists e1', solve (fun _ => green) sqrt 1 elimination flat_spline no_profile e' tt (Some J) None None = Ok e1' /\ jtor e1' = Some J.
Proof.
  intros Ew Er Hc. destruct (read_slv _ _ _ _ _ _ _ _ _ Er) as (A' & EA' & Es').
  destruct (C68_round_trip _ _ _ _ _ _ _ (unit9 o A) e' _ _ _ int_R_ok ltac:(constructor) ltac:(constructor) I Ew Er) as (_ & _ & H3 & H4 & H5 & H6 & H1 & H2 & _ & _ & H7 & _).
  cbn [unit9 Equilibrium.Rmin Equilibrium.Rmax Equilibrium.Zmin Equilibrium.Zmax e_nx e_ny bnd] in *.
  destruct C218_regular_example as (A4 & EA & HA).
  split.
  { unfold fourth_order. rewrite H1, H2, H3, H4, H5, H6. split; [lia|]. split; [lia|]. split; [lra|]. split; [lra|]. exists A4. split; [exact EA|].
    rewrite H1, H2, H3, H4, H5, H6, EA in EA'. apply ok_inj in EA'. subst A'. rewrite H1, H2 in Es'. split; [exact Es'|exact HA]. }
  do 7 (split; [assumption|]). intros J. apply (fixed9_run e' A' J); try assumption. rewrite H1, H2 in Es'. exact Es'.
Qed.
Example C231_same_solve_example : exists A f (e' : equilibrium R unit unit), GSsparse4thOrder 100 108 (-40) 40 9 9 = Ok A /\ write "f" (unit9 4 A) None = Ok f /\
  read int_R 5 (fun _ => green) sqrt exp flat_spline f = Ok (e', None) /\
  forall J, exists e1 e1', solve (fun _ => green) sqrt 1 elimination flat_spline no_profile (unit9 4 A) tt (Some J) None None = Ok e1 /\
    solve (fun _ => green) sqrt 1 elimination flat_spline no_profile e' tt (Some J) None None = Ok e1' /\ plasma_psi e1' = plasma_psi e1.
Proof.
  destruct C218_regular_example as (A & EA & HA). destruct (unit9_read 4 A) as (f & e' & Ew & Er & Hc). exists A, f, e'. split; [exact EA|]. split; [exact Ew|]. split; [exact Er|].
  intros J. destruct (fixed9_run (unit9 4 A) A J) as (e1 & E & _); try reflexivity.
  destruct (unit9_loaded 4 A f e' Ew Er Hc) as (_ & _ & _ & _ & _ & _ & _ & _ & HJ). destruct (HJ J) as (e1' & E' & _).
  exists e1, e1'. split; [exact E|]. split; [exact E'|].
  apply (C231_same_solve int_R 5 (fun _ => green) exp flat_spline "f" 1 elimination no_profile no_profile (unit9 4 A) e' e1 e1' None None f tt tt J None None None None A int_R_ok); try assumption; try reflexivity; constructor.
Qed.

(** ** C232 *)
(** The order of the solver is not saved: a second-order equilibrium gives another plasma flux, for
    the same current density, once it is loaded. *)
Definition delta_table : list (list Z) := ([[0; 0; 0; 0; 0; 0; 0; 0; 0]; [0; 0; 0; 0; 0; 0; 0; 0; 0]; [0; 0; 0; 0; 0; 0; 0; 0; 0]; [0; 0; 0; 0; 0; 0; 0; 0; 0]; [0; 0; 0; 0; 1; 0; 0; 0; 0]; [0; 0; 0; 0; 0; 0; 0; 0; 0]; [0; 0; 0; 0; 0; 0; 0; 0; 0]; [0; 0; 0; 0; 0; 0; 0; 0; 0]; [0; 0; 0; 0; 0; 0; 0; 0; 0]])%Z.
Lemma delta_edge x y : ~ GradShafranovProofs.interior 9 9 x y -> tabled delta_table x y = 0.
Proof.
  intros H. unfold GradShafranovProofs.interior in H. unfold tabled, delta_table.
  do 9 (destruct x as [|x]; [do 9 (destruct y as [|y]; [first [reflexivity|exfalso; apply H; lia]|]); destruct y; reflexivity|]). destruct x, y; reflexivity.
Qed.
Theorem C232_second_order_refuted : exists (e e' e1 e1' : equilibrium R unit unit) f J x y,
  order e = 2%nat /\ exact_solver elimination /\ second_order e /\
  write "f" e None = Ok f /\ read int_R 5 (fun _ => green) sqrt exp flat_spline f = Ok (e', None) /\
  solve (fun _ => green) sqrt 1 elimination flat_spline no_profile e tt (Some J) None None = Ok e1 /\
  solve (fun _ => green) sqrt 1 elimination flat_spline no_profile e' tt (Some J) None None = Ok e1' /\
  (x < 9)%nat /\ (y < 9)%nat /\ plasma_psi e1' x y <> plasma_psi e1 x y.
Proof.
  destruct (GSsparse_rows 100 108 (-40) 40 9 9) as (A & EA & _). destruct (unit9_read 2 A) as (f & e' & Ew & Er & Hc).
  destruct (unit9_loaded 2 A f e' Ew Er Hc) as (HF & Hb & Nx & Ny & R1 & R2 & Z1 & Z2 & HJ).
  set (J := source9 100 1 10 1 (tabled delta_table)).
  destruct (fixed9_run (unit9 2 A) A J) as (e1 & E & EJ); try reflexivity. destruct (HJ J) as (e1' & E' & EJ').
  assert (HX : exact_solver elimination) by (intros N M v Hn r Hr; exact (elimination_solves N M v Hn r Hr)).
  assert (HS : second_order (unit9 2 A)). { unfold second_order. cbn. repeat (split; [lra|]). exists A. split; [exact EA|reflexivity]. }
  exists (unit9 2 A), e', e1, e1', f, J.
  assert (K : exists x y, (x < 9)%nat /\ (y < 9)%nat /\ plasma_psi e1' x y <> plasma_psi e1 x y).
  { apply NNPP. intros F. assert (S : forall x y, (x < 9)%nat -> (y < 9)%nat -> plasma_psi e1 x y = tabled delta_table x y).
    { intros x y Hx Hy. rewrite <- (box9_flux unit unit (fun _ => green) 1 elimination flat_spline no_profile e' e1' tt (Some J) None None (tabled delta_table)); try assumption; try lra.
      - apply NNPP. intros D. apply F. exists x, y. split; [exact Hx|]. split; [exact Hy|]. intros Q. apply D. symmetry. exact Q.
      - exact delta_edge.
      - rewrite R1, R2, Z1, Z2, EJ'. unfold J. replace ((108 - 100) / 8) with 1 by field. replace ((40 - -40) / 8) with 10 by field. reflexivity. }
    destruct (solved (fun _ => green) 1 elimination flat_spline no_profile (unit9 2 A) e1 tt (Some J) None None J HX HS E EJ) as (p1 & _ & _ & _ & _ & Hi).
    specialize (Hi 4%nat 2%nat ltac:(unfold inside; cbn; lia)). cbn [unit9 Equilibrium.Rmin Equilibrium.Rmax Equilibrium.Zmin Equilibrium.Zmax e_nx e_ny] in Hi.
    rewrite GSElliptic_closed in Hi. change (interiorb 9 9 4 2) with true in Hi. cbn [Nat.add Nat.sub] in Hi. rewrite !S in Hi by lia.
    assert (P : row9 100 1 10 (tabled delta_table) 4 2 = - 1 / 1200) by point.
    unfold J, source9 in Hi. change (interiorb 9 9 4 2) with true in Hi. cbn iota in Hi. rewrite P in Hi. unfold gridpt in Hi.
    repeat match type of Hi with context [tabled ?t ?x ?y] => let v := eval vm_compute in (nth y (nth x t []) 0%Z) in change (tabled t x y) with (IZR v) in Hi end.
    rewrite ?INR_IZR_INZ in Hi. cbn [Z.of_nat Pos.of_succ_nat Pos.succ Nat.sub] in Hi. cbn [Nat.sub Z.of_nat Pos.of_succ_nat Pos.succ] in Hi. lra. }
  destruct K as (x & y & Hx & Hy & D). exists x, y.
  split; [reflexivity|]. repeat (split; [assumption|]). exact D.
Qed.
Print Assumptions C232_second_order_refuted.
