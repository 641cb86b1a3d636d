(** C233 and C234: solving again with the same current density. *)
From Coq Require Import String List Arith ZArith QArith Bool Reals Lra Lia.
From Verif Require Import Py Num Numpy Romb RombProofs Multigrid MultigridProofs Gauss Coils Machine Critical Boundary BoundarySpec BoundaryProofs
  GradShafranov GradShafranovProofs Equilibrium EquilibriumSpec EquilibriumProofs EquilibriumProofs2 EquilibriumProofs3 GSSpec PropGreens PropBoundary PropEquilibrium FittingProofs PropSolveFlux
  PropFourth PropHagenow PropHagenow4 PropFourthSign Serial PropSerial PropSerialSolve.
Import ListNotations.
Local Open Scope R_scope.

(** ** Proofs *)
(** the direct solver, of second or fourth order *)
Definition direct_order {P Ctl} lu (e : equilibrium R P Ctl) : Prop := (exact_solver lu /\ second_order e) \/ fourth_order lu e.
Lemma same_second {P Ctl} (e e1 : equilibrium R P Ctl) : slv e1 = slv e -> (e_nx e1, e_ny e1, Rmin e1, Rmax e1, Zmin e1, Zmax e1) = (e_nx e, e_ny e, Rmin e, Rmax e, Zmin e, Zmax e) -> second_order e -> second_order e1.
Proof. intros S D HS. injection D as N M R1 R2 Z1 Z2. unfold second_order in *. rewrite N, M, R1, R2, Z1, Z2, S. exact HS. Qed.
Lemma current_of {P Ctl} G mu lu spline Jc (e e' : equilibrium R P Ctl) p o s t J : solve G sqrt mu lu spline Jc e p o s t = Ok e' -> jtor e' = Some J ->
  exists I dR dZ, romb2 (e_nx e) (e_ny e) J = Ok I /\ spacing_R (e_nx e) (e_ny e) (grid_R e) = Ok dR /\ spacing_Z (e_nx e) (e_ny e) (grid_Z e) = Ok dZ /\ current e' = I * dR * dZ.
Proof.
  intros E EJ. apply solve_inv in E as (u & Ja & p1 & rhs & x & q & I & dR & dZ & b & _ & _ & _ & _ & _ & EI & ER & EZ & _ & ->).
  cbn [jtor with_profiles with_current] in EJ. injection EJ as ->. exists I, dR, dZ. repeat (split; [assumption|]). reflexivity.
Qed.

(** ** C233 *)
(** With a direct solver, of second or fourth order, and any of the three boundary conditions of the
    library, the plasma flux and plasma current after a solve depend on the current density alone,
    not on the plasma flux before. *)
Theorem C233_start : forall (P Ctl : Type) G mu lu spline
    (Jtor_call : P -> equilibrium R P Ctl -> (nat -> nat -> R) -> option R -> result ((nat -> nat -> R) * P * bstate R))
    (e1 e2 e1' e2' : equilibrium R P Ctl) p1 p2 o1 o2 s1 s2 t1 t2 J,
  direct_order lu e1 -> slv e2 = slv e1 -> bnd e1 = BFixed \/ bnd e1 = BFree \/ bnd e1 = BHagenow -> bnd e2 = bnd e1 ->
  (e_nx e2, e_ny e2, Rmin e2, Rmax e2, Zmin e2, Zmax e2) = (e_nx e1, e_ny e1, Rmin e1, Rmax e1, Zmin e1, Zmax e1) ->
  solve G sqrt mu lu spline Jtor_call e1 p1 o1 s1 t1 = Ok e1' -> jtor e1' = Some J ->
  solve G sqrt mu lu spline Jtor_call e2 p2 o2 s2 t2 = Ok e2' -> jtor e2' = Some J ->
  (forall x y, (x < e_nx e1)%nat -> (y < e_ny e1)%nat -> plasma_psi e2' x y = plasma_psi e1' x y) /\ current e2' = current e1'.
Proof.
  intros P Ctl G mu lu spline Jc e1 e2 e1' e2' p1 p2 o1 o2 s1 s2 t1 t2 J HO S Hb B D E1 J1 E2 J2. split.
  - intros x y Hx Hy. transitivity (1 * plasma_psi e1' x y + 0 * plasma_psi e1' x y); [|ring].
    assert (K : forall a b, J a b = 1 * J a b + 0 * J a b) by (intros; ring).
    assert (Hx2 : (x < e_nx e2)%nat) by (injection D as -> _; exact Hx). assert (Hy2 : (y < e_ny e2)%nat) by (injection D as _ -> _; exact Hy).
    symmetry in D. assert (Hb2 : bnd e2 = BFixed \/ bnd e2 = BFree \/ bnd e2 = BHagenow) by (rewrite B; exact Hb).
    destruct HO as [(Hlu & HS)|HF].
    + assert (HS2 : second_order e2) by (apply (same_second e1); [exact S|symmetry; exact D|exact HS]).
      destruct Hb2 as [F|[F|F]];
        [apply (C167_linear P Ctl G mu lu spline Jc e1 e1 e2 e1' e1' e2' p1 p1 p2 o1 o1 o2 s1 s1 s2 t1 t1 t2 1 0 J J J); try assumption; auto; congruence..|].
      apply (C225_linear P Ctl G mu lu spline Jc e1 e1 e2 e1' e1' e2' p1 p1 p2 o1 o1 o2 s1 s1 s2 t1 t1 t2 1 0 J J J); try assumption; auto; congruence.
    + assert (HF2 : fourth_order lu e2) by (apply (same_fourth lu e1); [split; [symmetry; exact D|exact S]|exact HF]).
      destruct Hb2 as [F|[F|F]];
        [apply (C218_linear P Ctl G mu lu spline Jc e1 e1 e2 e1' e1' e2' p1 p1 p2 o1 o1 o2 s1 s1 s2 t1 t1 t2 1 0 J J J); try assumption; auto; congruence..|].
      apply (C228_linear P Ctl G mu lu spline Jc e1 e1 e2 e1' e1' e2' p1 p1 p2 o1 o1 o2 s1 s1 s2 t1 t1 t2 1 0 J J J); try assumption; auto; congruence.
  - destruct (current_of _ _ _ _ _ _ _ _ _ _ _ _ E1 J1) as (I & dR & dZ & A1 & A2 & A3 & ->).
    destruct (current_of _ _ _ _ _ _ _ _ _ _ _ _ E2 J2) as (I' & dR' & dZ' & A1' & A2' & A3' & ->).
    injection D as N M R1 R2 Z1 Z2. unfold grid_R, grid_Z, R_1D, Z_1D in *. rewrite N, M, ?R1, ?R2, ?Z1, ?Z2 in *.
    rewrite A1 in A1'. rewrite A2 in A2'. rewrite A3 in A3'. apply ok_inj in A1'. apply ok_inj in A2'. apply ok_inj in A3'. subst. reflexivity.
Qed.
Print Assumptions C233_start.
(** So a second solve with the same current density changes nothing. *)
Theorem C233_repeat : forall (P Ctl : Type) G mu lu spline
    (Jtor_call : P -> equilibrium R P Ctl -> (nat -> nat -> R) -> option R -> result ((nat -> nat -> R) * P * bstate R))
    (e e1 e2 : equilibrium R P Ctl) p1 p2 s1 s2 t1 t2 J,
  direct_order lu e -> bnd e = BFixed \/ bnd e = BFree \/ bnd e = BHagenow ->
  solve G sqrt mu lu spline Jtor_call e p1 (Some J) s1 t1 = Ok e1 -> solve G sqrt mu lu spline Jtor_call e1 p2 (Some J) s2 t2 = Ok e2 ->
  (forall x y, (x < e_nx e)%nat -> (y < e_ny e)%nat -> plasma_psi e2 x y = plasma_psi e1 x y) /\ current e2 = current e1.
Proof.
  intros P Ctl G mu lu spline Jc e e1 e2 p1 p2 s1 s2 t1 t2 J HO Hb E1 E2.
  assert (K1 := E1). apply solve_inv in K1 as (u & Ja & q1 & rhs & x & q & I & dR & dZ & b & _ & (-> & _) & _ & _ & _ & _ & _ & _ & _ & X1).
  assert (K2 := E2). apply solve_inv in K2 as (u' & Jb & q1' & rhs' & x' & q' & I' & dR' & dZ' & b' & _ & (-> & _) & _ & _ & _ & _ & _ & _ & _ & X2).
  apply (C233_start P Ctl G mu lu spline Jc e e1 e1 e2 p1 p2 (Some J) (Some J) s1 s2 t1 t2 J); try assumption; rewrite ?X1, ?X2; reflexivity.
Qed.
Print Assumptions C233_repeat.
(** A box of 9 x 9 points with the fourth-order solver *)
Example C233_example : exists A, GSsparse4thOrder 100 108 (-40) 40 9 9 = Ok A /\ direct_order elimination (unit9 4 A) /\
  forall J, exists e1 e2, solve (fun _ => green) sqrt 1 elimination flat_spline no_profile (unit9 4 A) tt (Some J) None None = Ok e1 /\
    solve (fun _ => green) sqrt 1 elimination flat_spline no_profile e1 tt (Some J) None None = Ok e2.
Proof.
  destruct C218_regular_example as (A & EA & HA). exists A. split; [exact EA|]. split.
  { right. unfold fourth_order. cbn [Rmin Rmax Zmin Zmax e_nx e_ny slv unit9]. split; [lia|]. split; [lia|]. split; [lra|]. split; [lra|]. exists A. split; [exact EA|]. split; [reflexivity|exact HA]. }
  intros J. destruct (fixed9_run (unit9 4 A) A J) as (e1 & E & _); try reflexivity.
  assert (K1 := E). apply solve_inv in K1 as (u & Ja & q1 & rhs & x & q & I & dR & dZ & b & _ & (-> & _) & _ & _ & _ & _ & _ & _ & _ & X1).
  destruct (fixed9_run e1 A J) as (e2 & E2 & _); try (rewrite X1; reflexivity). exists e1, e2. split; [exact E|exact E2].
Qed.

(** ** C234 *)
(** With the iterative solver of setSolverVcycle (one level, one Jacobi iteration) a second solve
    with the same current density gives another plasma flux. *)
Definition q5 : equilibrium Q unit unit :=
  mkeq 5 5 1%Q 2%Q (-1)%Q 1%Q (mktok [] false []) BFixed 2 (SUser (fun _ _ => Raise TypeError)) false (fun _ _ => 0%Q) (fun _ _ => []) 0%Q None no_boundary None None.
Definition qJ (i j : nat) : Q := if (Nat.eqb i 2 && Nat.eqb j 2)%bool then 1%Q else 0%Q.
Definition qrun (e : equilibrium Q unit unit) : result (equilibrium Q unit unit) :=
  solve (fun _ _ _ _ _ => 0%Q) (fun x => x) 1%Q (fun _ _ b => b) (fun _ _ _ _ _ _ _ _ _ => 0%Q) (fun _ _ _ _ => Raise TypeError) e tt (Some qJ) None None.
Lemma three_ok {A} (x : result A) (f g : A -> result A) (test : A -> A -> bool) :
  match x with Ok a => match f a with Ok b => match g b with Ok c => test b c | Raise _ => false end | Raise _ => false end | Raise _ => false end = true ->
  exists a b c, x = Ok a /\ f a = Ok b /\ g b = Ok c /\ test b c = true.
Proof. destruct x as [a|]; [|discriminate]. destruct (f a) as [b|] eqn:Eb; [|discriminate]. destruct (g b) as [c|] eqn:Ec; [|discriminate]. intros H. exists a, b, c. auto. Qed.
Theorem C234_jacobi_refuted : exists (e e1 e2 e3 : equilibrium Q unit unit),
  setSolverVcycle e 1 1 1 false = Ok e1 /\ qrun e1 = Ok e2 /\ qrun e2 = Ok e3 /\ ~ (plasma_psi e3 1%nat 2%nat == plasma_psi e2 1%nat 2%nat)%Q.
Proof.
  exists q5. destruct (three_ok (setSolverVcycle q5 1 1 1 false) qrun qrun (fun a b => negb (Qeq_bool (plasma_psi b 1%nat 2%nat) (plasma_psi a 1%nat 2%nat)))) as (a & b & c & E1 & E2 & E3 & H).
  { vm_compute. reflexivity. }
  exists a, b, c. split; [exact E1|]. split; [exact E2|]. split; [exact E3|]. intros F. apply Qeq_eq_bool in F. rewrite F in H. discriminate H.
Qed.
Print Assumptions C234_jacobi_refuted.
