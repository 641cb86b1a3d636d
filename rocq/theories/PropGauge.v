(** C180–C184: the zero of the flux and the sign of the currents. *)
From Coq Require Import String List Arith ZArith QArith Bool Reals Lra Lia FunctionalExtensionality.
From Verif Require Import Py Num Numpy Romb RombProofs Multigrid MultigridProofs Gauss Coils Machine Critical CriticalSpec Boundary Jtor
  Equilibrium EquilibriumSpec EquilibriumProofs EquilibriumProofs2 EquilibriumProofs3 GSSpec FittingProofs PropSolveFlux PropEquilibrium2 Picard PicardProofs PropPicard PropPicardLimit
  GaugeSpec GaugeProofs GaugeProofs2 GaugeProofs3 GaugeProofs4 GaugeProofs5.
Import ListNotations.
Local Open Scope R_scope.

(** ** C180 — a constant added to the flux changes nothing but the fluxes *)
Theorem C180_critical_points : forall nx ny gR gZ psi f f' c discard, follows 1 c f f' ->
  Critical.find_critical nx ny gR gZ (fun i j => psi i j + c) f' discard =
  rmap (fun ox => (map (fun p => (fst p, snd p + c)) (fst ox), map (fun p => (fst p, snd p + c)) (snd ox))) (Critical.find_critical nx ny gR gZ psi f discard).
Proof.
  intros nx ny gR gZ psi f f' c d Hf. assert (K := find_critical_follow nx ny gR gZ psi 1 c f f' (or_introl eq_refl) Hf d (or_introl eq_refl)).
  replace (fun i j => psi i j + c) with (shifted 1 c psi) by (extensionality i; extensionality j; unfold shifted; ring). rewrite K.
  destruct (Critical.find_critical nx ny gR gZ psi f d) as [ox|]; cbn [rmap bind]; [|reflexivity]. unfold moved2, moved. f_equal. f_equal; apply map_ext; intros p; f_equal; ring.
Qed.
Print Assumptions C180_critical_points.
(** The core does not depend on the zero, the sign or the unit of the flux. *)
Theorem C180_core : forall fuel nx ny gR gZ psi a c opt xpt pb, a <> 0 ->
  (forall o v, hd_error opt = Some o -> bndry_used xpt pb = Some v -> v <> snd o) ->
  Critical.core_mask fuel nx ny gR gZ (fun i j => a * psi i j + c) (map (fun p => (fst p, a * snd p + c)) opt) (map (fun p => (fst p, a * snd p + c)) xpt)
    (option_map (fun v => a * v + c) pb) = Critical.core_mask fuel nx ny gR gZ psi opt xpt pb.
Proof. intros fuel nx ny gR gZ psi a c opt xpt pb Ha Hp. rewrite <- (core_mask_follow fuel nx ny gR gZ psi a c opt xpt pb Ha Hp). destruct pb; reflexivity. Qed.
Print Assumptions C180_core.
Example C180_core_example :
  (forall (o : point R) v, hd_error [(1, 0, 0)] = Some o -> bndry_used [] (Some (1 / 8)) = Some v -> v <> snd o) /\
  let g a c := Critical.core_mask 100 5 5 (fun i _ => (1 # 2) + inject_Z (Z.of_nat i) * (1 # 4))%Q (fun _ j => (-1 # 2) + inject_Z (Z.of_nat j) * (1 # 4))%Q
    (fun i j => a * (inject_Z ((Z.of_nat i - 2) ^ 2 + (Z.of_nat j - 2) ^ 2) * (1 # 16)) + c)%Q [(1, 0, c)%Q] [] (Some (a * (1 # 8) + c)%Q) in
  rmap (fun m => map (fun k => m (k / 5)%nat (k mod 5)%nat) (seq 0 25)) (g 1%Q 0%Q) = rmap (fun m => map (fun k => m (k / 5)%nat (k mod 5)%nat) (seq 0 25)) (g (-3)%Q 2%Q) /\
  is_ok (g 1%Q 0%Q) = true.
Proof.
  split; [|split; vm_compute; reflexivity]. intros o v [= <-] [= <-]. cbn. lra.
Qed.
(** The attributes of the boundary, with or without the limiter check. *)
Theorem C180_boundary : forall (P Ctl : Type) spline c (e : equilibrium R P Ctl) psi b, spline_follows spline 1 c ->
  update_boundary spline e (e_nx e) (e_ny e) psi = Ok b ->
  exists b', update_boundary spline (turned (fun p => p) 1 c e) (e_nx e) (e_ny e) (fun i j => psi i j + c) = Ok b' /\
    mask b' = mask b /\ is_limited b' = is_limited b /\ lim b' = lim b /\
    (forall v, Equilibrium.psi_axis b = Some v -> Equilibrium.psi_axis b' = Some (v + c)) /\
    (forall v, Equilibrium.psi_bndry b = Some (Some v) -> Equilibrium.psi_bndry b' = Some (Some (v + c))).
Proof.
  intros P Ctl spline c e psi b Hs E. exists (moved_b 1 c b).
  assert (K := turned_boundary (fun _ _ _ _ _ => 0) spline (fun p : P => p) 1 c (or_introl eq_refl) Hs e (e_nx e) (e_ny e) psi (or_introl eq_refl)). rewrite E in K.
  replace (fun i j => psi i j + c) with (shifted 1 c psi) by (extensionality i; extensionality j; unfold shifted; ring). split; [exact K|].
  unfold moved_b. cbn [mask is_limited lim Equilibrium.psi_axis Equilibrium.psi_bndry]. repeat (split; [reflexivity|]).
  split; intros v ->; cbn [option_map moved_bndry]; repeat f_equal; ring.
Qed.
Print Assumptions C180_boundary.
Lemma with_Ip1 p : with_Ip 1 p = p.
Proof. destruct p. unfold with_Ip. cbn. rewrite Rmult_1_l. reflexivity. Qed.
Lemma with_slope1 p : with_slope 1 p = p.
Proof. destruct p. unfold with_slope. cbn. f_equal; extensionality x; ring. Qed.
(** what [r'] has to be when a call gives [r] *)
Definition same_current (c : R) (r r' : result (arr2 R * @cstate R)) : Prop :=
  match r, r' with
  | Ok (J, s), Ok (J', s') => J' = J /\ L s' = L s /\ Beta0 s' = Beta0 s /\ Jtor.psi_bndry s' = Jtor.psi_bndry s + c /\ Jtor.psi_axis s' = Jtor.psi_axis s + c
  | Raise x, Raise x' => x' = x
  | _, _ => False
  end.
Lemma same_moved c r : same_current c r (rmap (moved_J 1 c) r).
Proof.
  destruct r as [(J, s)|x]; cbn; [|reflexivity]. repeat split; try ring. extensionality i. extensionality j. ring.
Qed.
(** The current density of the three profiles, called by solve with the flux shifted. *)
Theorem C180_current : forall (P Ctl : Type) G spline pow quad mu0 c (e : equilibrium R P Ctl) psi p fp arg, spline_follows spline 1 c ->
  let env := env_of G spline e e in
  let e' := turned (fun q => q) 1 c e in
  let env' := env_of G spline e' e' in
  let psi' := fun i j => psi i j + c in
  (forall arg', same_current c (paxis_Jtor pow quad env p psi arg) (paxis_Jtor pow quad env' p psi' arg')) /\
  (forall arg', same_current c (betap_Jtor pow quad mu0 env p psi arg) (betap_Jtor pow quad mu0 env' p psi' arg')) /\
  rmap fst (func_Jtor mu0 env' fp psi' (option_map (fun v => v + c) arg)) = rmap fst (func_Jtor mu0 env fp psi arg).
Proof.
  intros P Ctl G spline pow quad mu0 c e psi p fp arg Hs env e' env' psi'.
  assert (Ep : psi' = shifted 1 c psi) by (extensionality i; extensionality j; unfold psi', shifted; ring). rewrite Ep.
  assert (H1 : unit_sign 1) by (left; reflexivity).
  assert (HB : forall m, Bpol2 env' m = Bpol2 env m) by (intros m; apply turned_Bpol2; assumption).
  assert (HC : forall pb, find_core env' (shifted 1 c psi) (moved_bndry 1 c pb) = rmap (moved_core 1 c) (find_core env psi pb)) by (intros pb; apply turned_core; [exact H1|exact Hs|left; reflexivity]).
  assert (HU : updated_bndry env' (shifted 1 c psi) = rmap (moved_bndry 1 c) (updated_bndry env psi)) by (apply turned_updated; [exact H1|exact Hs|left; reflexivity]).
  split; [|split].
  - intros arg'. rewrite <- (with_Ip1 p) at 2. rewrite (paxis_follow pow quad env env' 1 c psi H1 eq_refl eq_refl eq_refl eq_refl HC HU p arg arg'). apply same_moved.
  - intros arg'. rewrite <- (with_Ip1 p) at 2. rewrite (betap_follow pow quad mu0 env env' 1 c psi H1 eq_refl eq_refl eq_refl eq_refl HB HC HU p arg arg'). apply same_moved.
  - rewrite <- (with_slope1 fp) at 1. replace (option_map (fun v => v + c) arg) with (moved_bndry 1 c arg) by (destruct arg; cbn [moved_bndry option_map]; [f_equal; ring|reflexivity]).
    rewrite (func_follow mu0 env env' 1 c psi H1 eq_refl HC fp arg).
    destruct (func_Jtor mu0 env fp psi arg) as [(J, s)|]; cbn [rmap bind moved_fJ fst snd]; [|reflexivity]. f_equal. extensionality i. extensionality j. ring.
Qed.
Print Assumptions C180_current.

(** A bowl on 5 x 5 points, with 7 added. *)
Definition ex_r (i : nat) : R := 1 / 2 + INR i / 4.
Definition ex_z (j : nat) : R := - (1 / 2) + INR j / 4.
Definition ex_f : sfun R := fun m n r z => match m, n with 0%nat, 0%nat => (r - 1) ^ 2 + z ^ 2 | 1%nat, 0%nat => 2 * 1 * (r - 1) | 0%nat, 1%nat => 2 * 1 * (z - 0) | 2%nat, 0%nat => 2 | 0%nat, 2%nat => 2 | _, _ => 0 end.
Lemma ex_bowl a d : unit_sign a -> Critical.find_critical 5 5 (fun i _ => ex_r i) (fun _ j => ex_z j) (fun i j => a * ((ex_r i - 1) ^ 2 + ex_z j ^ 2)) (fun m n r z => a * ex_f m n r z) d = Ok ([(1, 0, 0)], []).
Proof.
  intros Ha. assert (E : (1, 0, 0) = (ex_r 2%nat, ex_z 2%nat, 0)) by (unfold ex_r, ex_z; cbn [INR]; f_equal; f_equal; lra). rewrite E.
  apply (bowl_critical 5 5 ex_r ex_z _ _ a a 0 2 2); try lia.
  - destruct Ha as [->| ->]; lra.
  - intros i Hi. unfold ex_r. rewrite S_INR. lra.
  - intros i Hi. unfold ex_z. rewrite S_INR. lra.
  - unfold ex_r. cbn [INR]. lra.
  - intros i j Hi Hj. unfold ex_f, ex_r. cbn [INR]. lra.
  - intros i j Hi Hj. unfold ex_f, ex_z. cbn [INR]. lra.
  - unfold ex_f, ex_r, ex_z. cbn [INR]. lra.
  - intros i j Hi Hj. unfold ex_r, ex_z. cbn [INR]. lra.
Qed.
Example C180_example :
  let f' : sfun R := fun m n r z => ex_f m n r z + match m, n with 0%nat, 0%nat => 7 | _, _ => 0 end in
  follows 1 7 ex_f f' /\
  Critical.find_critical 5 5 (fun i _ => ex_r i) (fun _ j => ex_z j) (fun i j => (ex_r i - 1) ^ 2 + ex_z j ^ 2 + 7) f' true = Ok ([(1, 0, 7)], []).
Proof.
  cbv zeta. match goal with |- ?A /\ _ => assert (Hf : A) end.
  { intros m n r z. ring. }
  split; [exact Hf|]. rewrite (C180_critical_points 5 5 _ _ (fun i j => (ex_r i - 1) ^ 2 + ex_z j ^ 2) ex_f _ 7 true Hf).
  assert (K := ex_bowl 1 true (or_introl eq_refl)).
  replace (fun i j => 1 * ((ex_r i - 1) ^ 2 + ex_z j ^ 2)) with (fun i j => (ex_r i - 1) ^ 2 + ex_z j ^ 2) in K by (extensionality i; extensionality j; ring).
  replace (fun m n r z => 1 * ex_f m n r z) with ex_f in K by (extensionality m; extensionality n; extensionality r; extensionality z; ring). rewrite K.
  cbn [rmap bind map fst snd]. replace (0 + 7) with 7 by ring. reflexivity.
Qed.

(** Polynomial interpolation follows every change; the flux of the bowl on its own grid. *)
Lemma newton2_follows x f a c d r : newton2 x (fun i => a * f i + c) d r = a * newton2 x f d r + match d with 0%nat => c | _ => 0 end.
Proof.
  unfold newton2. replace ((a * f 1%nat + c - (a * f 0%nat + c)) / (x 1%nat - x 0%nat)) with (a * ((f 1%nat - f 0%nat) / (x 1%nat - x 0%nat))) by (unfold Rdiv; ring).
  replace ((a * f 2%nat + c - (a * f 1%nat + c)) / (x 2%nat - x 1%nat)) with (a * ((f 2%nat - f 1%nat) / (x 2%nat - x 1%nat))) by (unfold Rdiv; ring).
  destruct d as [|[|[|d]]]; unfold Rdiv; ring.
Qed.
Lemma spline2_follows a c : spline_follows spline2 a c.
Proof.
  intros n m x y z i j r u. unfold spline2, shifted.
  replace (fun k => newton2 y (fun j0 => a * z k j0 + c) j u) with (fun k => a * newton2 y (z k) j u + match j with 0%nat => c | _ => 0 end) by (extensionality k; symmetry; apply newton2_follows).
  rewrite newton2_follows. destruct i, j; ring.
Qed.
Example C180_boundary_example : spline_follows spline2 1 7 /\
  let e := bowl_eq 5 5 1 1 false [] no_boundary in
  exists b, update_boundary spline2 e (e_nx e) (e_ny e) (plasma_psi e) = Ok b /\ Equilibrium.psi_axis b = Some 0.
Proof.
  split; [apply spline2_follows|]. intros e. unfold update_boundary, e. change (e_nx _) with 5%nat. change (e_ny _) with 5%nat.
  rewrite (bowl_find spline2 5 5 1 1 false [] no_boundary _ spline2_exact) by (try lia; try lra; reflexivity). eexists. split; reflexivity.
Qed.

(** ** C181 — all currents reversed *)
(** The critical points stay where they are, provided no X-point candidate has exactly the flux of an O-point candidate. *)
Theorem C181_critical_points : forall nx ny gR gZ psi f discard,
  (forall os xs o x, candidates nx ny gR gZ psi f = Ok (xs, os) -> In o os -> In x xs -> snd x <> snd o) ->
  Critical.find_critical nx ny gR gZ (fun i j => - psi i j) (fun m n r z => - f m n r z) discard =
  rmap (fun ox => (map (fun p => (fst p, - snd p)) (fst ox), map (fun p => (fst p, - snd p)) (snd ox))) (Critical.find_critical nx ny gR gZ psi f discard).
Proof.
  intros nx ny gR gZ psi f d Hd.
  assert (Hf : follows (-1) 0 f (fun m n r z => - f m n r z)) by (intros m n r z; destruct m, n; ring).
  assert (K := find_critical_follow nx ny gR gZ psi (-1) 0 f _ (or_intror eq_refl) Hf d).
  replace (fun i j => - psi i j) with (shifted (-1) 0 psi) by (extensionality i; extensionality j; unfold shifted; ring). rewrite K.
  - destruct (Critical.find_critical nx ny gR gZ psi f d) as [ox|]; cbn [rmap bind]; [|reflexivity]. unfold moved2, moved. f_equal. f_equal; apply map_ext; intros p; f_equal; ring.
  - right. right. intros (xs, os) o x E Ho Hx. exact (Hd os xs o x E Ho Hx).
Qed.
Print Assumptions C181_critical_points.
(** Equilibrium.solve with the currents of all coils, the flux of the plasma, the profile and the given
    arrays reversed gives the result reversed: without limiter check, for every boundary condition and
    every matrix solver. *)
Theorem C181_solve : forall (P Ctl : Type) G mu0 lu spline (rp : P -> P)
    (Jt Jt' : P -> equilibrium R P Ctl -> (nat -> nat -> R) -> option R -> result ((nat -> nat -> R) * P * bstate R)) e p Jo psi pb e1,
  let rev := turned rp (-1) 0 in
  spline_follows spline (-1) 0 -> lu_follows lu (-1) -> profile_follows spline rp (-1) Jt Jt' -> user_follows (-1) e ->
  check_limited e = false ->
  flux_separate spline e -> flux_separate spline e1 -> (Jo = None -> forall q, psi = Some q -> separate spline e q) ->
  solve G sqrt mu0 lu spline Jt e p Jo psi pb = Ok e1 ->
  solve G sqrt mu0 lu spline Jt' (rev e) (rp p) (option_map (scal2 (-1)) Jo) (option_map (scal2 (-1)) psi) (option_map Ropp pb) = Ok (rev e1).
Proof.
  intros P Ctl G mu0 lu spline rp Jt Jt' e p Jo psi pb e1 rev Hs Hlu Hp Hu Hc Hf Hf1 Hq E.
  replace (option_map Ropp pb) with (moved_bndry (-1) 0 pb) by (destruct pb; cbn [moved_bndry option_map]; [f_equal; ring|reflexivity]).
  apply (turned_solve G sqrt mu0 lu spline rp (-1) Jt Jt' (or_intror eq_refl) Hs Hlu); try assumption.
  intros EJ. destruct psi as [q|]; [exact (Hq EJ q eq_refl)|exact I].
Qed.
Print Assumptions C181_solve.
(** ConstrainPaxisIp and ConstrainBetapIp as solve calls them: the object keeps what Jtor leaves in it; the
    boundary attributes afterwards are those of the flux given (jtor.py 183, 345). *)
Definition constrained_call {Ctl} spline
    (jt : equilibrium R (@cprofile R * option (@cstate R)) Ctl -> @cprofile R -> (nat -> nat -> R) -> option R -> result ((nat -> nat -> R) * @cstate R))
    (p : @cprofile R * option (@cstate R)) (e : equilibrium R (@cprofile R * option (@cstate R)) Ctl) psi pb :=
  bind (jt e (fst p) psi pb) (fun r => bind (update_boundary spline e (e_nx e) (e_ny e) psi) (fun b => Ok (fst r, (fst p, Some (snd r)), b))).
Definition reversed_profile (p : @cprofile R * option (@cstate R)) : @cprofile R * option (@cstate R) := (with_Ip (-1) (fst p), option_map (moved_state (-1) 0) (snd p)).
(** These profiles follow: what is reversed is the plasma current asked for. *)
Theorem C181_profiles : forall (Ctl : Type) G spline pow quad mu0, spline_follows spline (-1) 0 ->
  (let call := constrained_call (Ctl := Ctl) spline (fun e => paxis_Jtor pow quad (env_of G spline e e)) in profile_follows spline reversed_profile (-1) call call) /\
  (let call := constrained_call (Ctl := Ctl) spline (fun e => betap_Jtor pow quad mu0 (env_of G spline e e)) in profile_follows spline reversed_profile (-1) call call).
Proof.
  intros Ctl G spline pow quad mu0 Hs. assert (H1 : unit_sign (-1)) by (right; reflexivity).
  split; intros call p e psi pb Hc Hq; set (e' := turned reversed_profile (-1) 0 e); rewrite <- shifted0;
  (assert (HB : forall m, Bpol2 (env_of G spline e' e') m = Bpol2 (env_of G spline e e) m) by (intros m; apply turned_Bpol2; assumption));
  (assert (HC : forall pb, find_core (env_of G spline e' e') (shifted (-1) 0 psi) (moved_bndry (-1) 0 pb) = rmap (moved_core (-1) 0) (find_core (env_of G spline e e) psi pb)) by (intros pb'; apply turned_core; [exact H1|exact Hs|right; exact Hq]));
  (assert (HU : updated_bndry (env_of G spline e' e') (shifted (-1) 0 psi) = rmap (moved_bndry (-1) 0) (updated_bndry (env_of G spline e e) psi)) by (apply turned_updated; [exact H1|exact Hs|right; split; assumption]));
  assert (HUB := turned_boundary G spline reversed_profile (-1) 0 H1 Hs e (e_nx e) (e_ny e) psi (or_intror (conj Hc Hq))); fold e' in HUB;
  unfold call, constrained_call; cbn [fst snd reversed_profile].
  - rewrite (paxis_follow pow quad (env_of G spline e e) (env_of G spline e' e') (-1) 0 psi H1 eq_refl eq_refl eq_refl eq_refl HC HU (fst p) pb (moved_bndry (-1) 0 pb)).
    destruct (paxis_Jtor pow quad (env_of G spline e e) (fst p) psi pb) as [(J, s)|]; cbn [rmap bind]; [|reflexivity].
    change (e_nx e') with (e_nx e). change (e_ny e') with (e_ny e). rewrite HUB. destruct (update_boundary spline e (e_nx e) (e_ny e) psi); reflexivity.
  - rewrite (betap_follow pow quad mu0 (env_of G spline e e) (env_of G spline e' e') (-1) 0 psi H1 eq_refl eq_refl eq_refl eq_refl HB HC HU (fst p) pb (moved_bndry (-1) 0 pb)).
    destruct (betap_Jtor pow quad mu0 (env_of G spline e e) (fst p) psi pb) as [(J, s)|]; cbn [rmap bind]; [|reflexivity].
    change (e_nx e') with (e_nx e). change (e_ny e') with (e_ny e). rewrite HUB. destruct (update_boundary spline e (e_nx e) (e_ny e) psi); reflexivity.
Qed.
Print Assumptions C181_profiles.
Example C181_critical_example : let psi := fun i j => (ex_r i - 1) ^ 2 + ex_z j ^ 2 in
  (forall os xs o x, candidates 5 5 (fun i _ => ex_r i) (fun _ j => ex_z j) psi ex_f = Ok (xs, os) -> In o os -> In x xs -> snd x <> snd o) /\
  Critical.find_critical 5 5 (fun i _ => ex_r i) (fun _ j => ex_z j) (fun i j => - psi i j) (fun m n r z => - ex_f m n r z) true = Ok ([(1, 0, 0)], []).
Proof.
  intros psi. split.
  - intros os xs o x E Ho Hx. exfalso. assert (K := ex_bowl 1 false (or_introl eq_refl)).
    replace (fun i j => 1 * ((ex_r i - 1) ^ 2 + ex_z j ^ 2)) with psi in K by (extensionality i; extensionality j; unfold psi; ring).
    replace (fun m n r z => 1 * ex_f m n r z) with ex_f in K by (extensionality m; extensionality n; extensionality r; extensionality z; ring).
    destruct (CriticalProofs2.find_critical_inv _ _ _ _ _ _ _ _ _ K) as (xo & Ec & Po & _ & H0 & H1'). rewrite E in Ec. injection Ec as <-. cbn [fst snd] in *.
    destruct (H1' (1, 0, 0) [] eq_refl) as (_ & Px). destruct xs as [|y ys]; [destruct Hx|]. assert (Px' := Permutation.Permutation_length Px).
    destruct (CriticalProofs2.remove_dup_spec (y :: ys)) as (_ & _ & Hin). destruct (Hin y (or_introl eq_refl)) as (q & Hq & _).
    cbn [fst snd] in Px'. destruct (remove_dup (y :: ys)); [destruct Hq|discriminate].
  - assert (K := ex_bowl (-1) true (or_intror eq_refl)).
    replace (fun i j => - psi i j) with (fun i j => -1 * ((ex_r i - 1) ^ 2 + ex_z j ^ 2)) by (extensionality i; extensionality j; unfold psi; ring).
    replace (fun m n r z => - ex_f m n r z) with (fun m n r z => -1 * ex_f m n r z) by (extensionality m; extensionality n; extensionality r; extensionality z; ring). exact K.
Qed.

(** ** C182 — the Picard iteration with all currents reversed *)
Theorem C182_picard : forall (P Ctl : Type) G mu0 lu spline (rp : P -> P)
    (Jt Jt' : P -> equilibrium R P Ctl -> (nat -> nat -> R) -> option R -> result ((nat -> nat -> R) * P * bstate R))
    nx ny (control control' : option (equilibrium R P Ctl * P -> (equilibrium R P Ctl * P) * result unit)) p s s1 h fuel,
  let rev s := (turned rp (-1) 0 (fst s), rp (snd s)) in
  let ops := eq_ops G sqrt mu0 lu spline Jt control in
  let ops' := eq_ops G sqrt mu0 lu spline Jt' control' in
  let p' := mkopts (rtol p) (atol p) (blend p) (option_map Ropp (user_bndry p)) (maxits p) (check p) (wait p) (limit_it p) in
  spline_follows spline (-1) 0 -> lu_follows lu (-1) -> profile_follows spline rp (-1) Jt Jt' ->
  (forall s s1, run_constrain _ ops s = (s1, Ok tt) -> run_constrain _ ops' (rev s) = (rev s1, Ok tt)) ->
  check p = false ->
  (forall s0 psi0, run_constrain _ ops s = (s0, Ok tt) -> total_psi (fst s0) = Ok psi0 ->
     forall t v, reached G sqrt mu0 lu spline Jt nx ny control p s0 (mkvars psi0 0 0 None false []) t v -> generic G sqrt mu0 lu spline (-1) Jt p t v) ->
  picard nx ny _ ops p fuel s = (s1, Ok h) ->
  picard nx ny _ ops' p' fuel (rev s) = (rev s1, Ok h).
Proof.
  intros P Ctl G mu0 lu spline rp Jt Jt' nx ny c c' p s s1 h fuel rev ops ops' p' Hs Hlu Hp Hc Hchk Hg E.
  assert (Ep : p' = turn_o (-1) p) by (unfold p', turn_o; f_equal; destruct (user_bndry p); cbn [moved_bndry option_map]; [f_equal; ring|reflexivity]). rewrite Ep.
  exact (turned_picard G sqrt mu0 lu spline rp (-1) Jt Jt' (or_intror eq_refl) Hs Hlu nx ny c c' p Hp Hc Hchk s s1 h fuel Hg E).
Qed.
Print Assumptions C182_picard.
(** The iteration of C177 with current density 1 + psi / 10, and its reverse with - 1 + psi / 10. *)
Definition odd_solver (N : nat) (A : nat -> nat -> R) (b : nat -> R) : nat -> R := fun i => (elimination N A b i - elimination N A (scal1 (-1) b) i) / 2.
Lemma odd_follows : lu_follows odd_solver (-1).
Proof.
  intros N A b. extensionality i. change (odd_solver N A (scal1 (-1) b) i = -1 * odd_solver N A b i). unfold odd_solver.
  replace (scal1 (-1) (scal1 (-1) b)) with b by (extensionality k; unfold scal1; ring). field.
Qed.
Lemma odd_exact : exact_solver odd_solver.
Proof.
  intros N A b Hn r Hr. unfold odd_solver.
  rewrite (nsum_ext N _ (fun c => / 2 * (A r c * elimination N A b c) + - / 2 * (A r c * elimination N A (scal1 (-1) b) c))) by (intros c _; field).
  rewrite nsum_add, !nsum_scal. rewrite (elimination_solves N A b Hn r Hr), (elimination_solves N A _ Hn r Hr). unfold scal1. field.
Qed.
Definition reversed_linear (q : unit) (e : equilibrium R unit unit) (psi : arr2 R) (_ : option R) : result (arr2 R * unit * bstate R) := Ok (fun i j => -1 + psi i j / 10, q, bs e).
Lemma flat_no_candidates nx ny gR gZ psi : candidates nx ny gR gZ psi (fun _ _ _ _ => 0) = Ok ([], []).
Proof.
  unfold candidates. rewrite (EquilibriumProofs.foldM_const _ _ _); [reflexivity|]. intros s i. apply EquilibriumProofs.foldM_const. intros s' j.
  unfold visit, local_min, Bp2. nR.
  assert (E : forall a b : R, R_ltb ((0 * 0 + 0 * 0) / (a * a)) ((0 * 0 + 0 * 0) / (b * b)) = false) by (intros a b; apply R_ltb_false; unfold Rdiv; lra).
  rewrite E. reflexivity.
Qed.
Lemma flat_separate {P Ctl} (e : equilibrium R P Ctl) psi : separate flat_spline e psi.
Proof. intros xo o x E Ho Hx. unfold flat_spline in E. rewrite flat_no_candidates in E. injection E as <-. destruct Ho. Qed.
Lemma reversed_follows : profile_follows flat_spline (fun q => q) (-1) linear_profile reversed_linear.
Proof.
  intros p e psi pb _ _. unfold reversed_linear, linear_profile. cbn [rmap bind turned_res].
  match goal with |- Ok (?J, _, _) = Ok (?K, _, _) => assert (EJ : J = K) by (extensionality i; extensionality j; unfold scal2; field); rewrite EJ end. reflexivity.
Qed.
Lemma flat_follows : spline_follows flat_spline (-1) 0.
Proof. intros n m x y z i j r u. unfold flat_spline. destruct i, j; ring. Qed.
Example C182_example : exists A s h, (List.length h <= 3)%nat /\
  picard 5 5 _ (eq_ops (fun _ _ _ _ _ => 0) sqrt 1 odd_solver flat_spline linear_profile None) (plain_options (Some 50%Z) (1 / 1000) (1 / 50)) 52 (lin_eq A, tt) = (s, Ok h) /\
  picard 5 5 _ (eq_ops (fun _ _ _ _ _ => 0) sqrt 1 odd_solver flat_spline reversed_linear None) (plain_options (Some 50%Z) (1 / 1000) (1 / 50)) 52 (turned (fun q => q) (-1) 0 (lin_eq A), tt)
    = (turned (fun q => q) (-1) 0 (fst s), snd s, Ok h).
Proof.
  destruct (lin_converges odd_solver odd_exact) as (A & s & h & HS & Hl & E). exists A, s, h. split; [exact Hl|]. split; [exact E|].
  apply (C182_picard unit unit (fun _ _ _ _ _ => 0) 1 odd_solver flat_spline (fun q => q) linear_profile reversed_linear 5 5 None None _ _ _ _ _) in E; [exact E|..].
  - exact flat_follows.
  - exact odd_follows.
  - exact reversed_follows.
  - intros s0 s1. cbn. intros [= <-]. reflexivity.
  - reflexivity.
  - intros s0 psi0 [= <-] E0 t v Hr. split; [|split; [intros q _; apply flat_separate|split; [apply flat_separate|intros e1 _ q _; apply flat_separate]]].
    assert (Hb : lin_state A t).
    { clear E. induction Hr as [|t v t' v' Hr IH Et]; [exact HS|]. unfold turn in Et. change (check (plain_options _ _ _)) with false in Et. rewrite andb_false_r in Et.
      change (user_bndry (plain_options _ _ _)) with (@None R) in Et. cbn [set_check eq_ops eq_solve limited bndry_flux Picard.eq_psi fst snd] in Et.
      destruct (lin_run odd_solver A (with_check (fst t) false, snd t) (psi v)) as (e' & E1 & E2); [exact IH|]. cbn [fst snd] in E1, E2. rewrite E1 in Et. cbn [fst snd] in Et.
      destruct (Equilibrium.psi_bndry (bs e')) as [ob|]; [|discriminate]. destruct (match ob with Some _ => _ | None => _ end) as ((b, ch), rel).
      destruct (total_psi e') as [psi1|] eqn:Ep; [|discriminate]. destruct ((((_ <? _)%num || _) && _) && _)%bool; [discriminate|].
      change (run_constrain _ _ ?x) with (x, Ok tt) in Et. cbv iota beta in Et. cbn [Picard.eq_psi eq_ops fst] in Et. rewrite Ep in Et.
      change (maxits (plain_options _ _ _)) with (Some 50%Z) in Et. cbv iota beta in Et. destruct (_ <? _)%Z; [discriminate|]. injection Et as <- _. exact E2. }
    destruct Hb as ((_ & _ & Hb & _) & Hs & _). unfold user_follows. rewrite Hs, Hb. split; exact I.
Qed.

(** One solve of it. *)
Example C181_solve_example : exists A e1 J,
  solve (fun _ _ _ _ _ => 0) sqrt 1 odd_solver flat_spline linear_profile (lin_eq A) tt None (Some (fun i j => INR i)) None = Ok e1 /\ jtor e1 = Some J /\ J 2%nat 2%nat = 6 / 5 /\
  solve (fun _ _ _ _ _ => 0) sqrt 1 odd_solver flat_spline reversed_linear (turned (fun q => q) (-1) 0 (lin_eq A)) tt None (Some (fun i j => - INR i)) None = Ok (turned (fun q => q) (-1) 0 e1).
Proof.
  destruct (lin_converges odd_solver odd_exact) as (A & s & h & HS & _). destruct (lin_run odd_solver A (lin_eq A, tt) (fun i j => INR i) HS) as (e1 & E1 & _). cbn [fst snd] in E1.
  assert (HJ : jtor e1 = Some (fun i j => 1 + INR i / 10)).
  { unfold solve in E1. destruct (bind_ok _ _ _ E1) as (e2 & _ & E2). unfold linear_profile in E2. cbn [bind] in E2.
    destruct (bind_ok _ _ _ E2) as (e3 & _ & E3). destruct (bind_ok _ _ _ E3) as (Ip & _ & E4). destruct (bind_ok _ _ _ E4) as (dR & _ & E5). destruct (bind_ok _ _ _ E5) as (dZ & _ & E6).
    apply ok_inj in E6. rewrite <- E6. reflexivity. }
  exists A, e1, (fun i j => 1 + INR i / 10). split; [exact E1|]. split; [exact HJ|]. split; [cbn [INR]; field|].
  apply (C181_solve unit unit (fun _ _ _ _ _ => 0) 1 odd_solver flat_spline (fun q => q) linear_profile reversed_linear) in E1;
    [|exact flat_follows|exact odd_follows|exact reversed_follows|split; exact I|reflexivity|intros q _; apply flat_separate|intros q _; apply flat_separate|intros _ q _; apply flat_separate].
  cbn [option_map] in E1. replace (fun i j => - INR i) with (scal2 (-1) (fun i j => INR i)) by (extensionality i; extensionality j; unfold scal2; ring). exact E1.
Qed.

(** ** C183 — with the limiter check the sign matters *)
(** The fluxes on the axis, at the X-point and at the limiter are reversed, but the boundary is not: with the
    flux (r - 1)^2 + z^3 - 3 z the plasma is bounded by the X-point, with the reversed flux by the limiter
    (equilibrium.py 570, 585). *)
Definition observed (e : equilibrium Q unit unit) :=
  match update_own spline3 e with
  | Ok e' => let b := bs e' in Some (Equilibrium.psi_axis b, psi_xpt b, psi_limit b, Equilibrium.psi_bndry b, is_limited b)
  | Raise _ => None
  end.
Definition reversed_flux (e : equilibrium Q unit unit) : equilibrium Q unit unit :=
  mkeq (e_nx e) (e_ny e) (Rmin e) (Rmax e) (Zmin e) (Zmax e) (tok e) (bnd e) (order e) (slv e) (check_limited e)
       (fun i j => Qred (- plasma_psi e i j)) (pgreen e) (current e) (jtor e) (bs e) (profiles e) (Equilibrium.control e).
Theorem C183_limiter_refuted : exists e : equilibrium Q unit unit, coils (tok e) = [] /\ check_limited e = true /\
  observed e = Some (Some (-2)%Q, Some 2%Q, Some 0%Q, Some (Some 2%Q), false) /\
  observed (reversed_flux e) = Some (Some 2%Q, Some (-2)%Q, Some 0%Q, Some (Some 0%Q), true).
Proof. exists valley. split; [reflexivity|]. split; [reflexivity|]. split; vm_compute; reflexivity. Qed.
Print Assumptions C183_limiter_refuted.
(** Without the limiter check the same equilibrium behaves: the boundary flux is reversed. *)
Definition unlimited (e : equilibrium Q unit unit) : equilibrium Q unit unit :=
  mkeq (e_nx e) (e_ny e) (Rmin e) (Rmax e) (Zmin e) (Zmax e) (tok e) (bnd e) (order e) (slv e) false (plasma_psi e) (pgreen e) (current e) (jtor e) (bs e) (profiles e) (Equilibrium.control e).
Example C183_example :
  option_map (fun t => let '(a, x, l, b, k) := t in (a, b)) (observed (unlimited valley)) = Some (Some (-2)%Q, Some (Some 2%Q)) /\
  option_map (fun t => let '(a, x, l, b, k) := t in (a, b)) (observed (unlimited (reversed_flux valley))) = Some (Some 2%Q, Some (Some (-2)%Q)).
Proof. split; vm_compute; reflexivity. Qed.

(** ** C184 — the unit of the flux matters *)
(** The flux k ((r - 103/100)^2 + z^2) has its only critical point at (103/100, 0) for every k.  Newton's iteration is
    stopped when Br^2 + Bz^2 is below 1e-6 (critical.py 117): with k = 1 the O-point found is within 1e-4
    of it, with k = 1/100 it is the grid point (1, 0). *)
Definition scaled_bowl (k : Q) : nat -> nat -> Q -> Q -> Q := fun m n r z =>
  (match m, n with
   | 0%nat, 0%nat => k * ((r - (103 # 100)) * (r - (103 # 100)) + z * z)
   | 1%nat, 0%nat => k * (2 * (r - (103 # 100)))
   | 0%nat, 1%nat => k * (2 * z)
   | 2%nat, 0%nat => k * 2
   | 0%nat, 2%nat => k * 2
   | _, _ => 0
   end)%Q.
Definition q_R : nat -> nat -> Q := fun i _ => ((1 # 2) + inject_Z (Z.of_nat i) * (1 # 4))%Q.
Definition q_Z : nat -> nat -> Q := fun _ j => (- (1 # 2) + inject_Z (Z.of_nat j) * (1 # 4))%Q.
Definition o_points (k : Q) : list (Q * Q) :=
  match Critical.find_critical 5 5 q_R q_Z (fun i j => scaled_bowl k 0 0 (q_R i j) (q_Z i j)) (scaled_bowl k) true with
  | Ok (os, _) => map (fun o => (Qred (fst (fst o)), Qred (snd (fst o)))) os
  | Raise _ => []
  end.
Theorem C184_scale_refuted : exists (r : Q), o_points 1 = [(r, 0%Q)] /\ (103 # 100 <= r + (1 # 10000) /\ r <= (103 # 100) + (1 # 10000))%Q /\ o_points (1 # 100) = [(1, 0)%Q].
Proof. eexists. split; [vm_compute; reflexivity|]. split; [split; apply Qle_bool_iff; vm_compute; reflexivity|vm_compute; reflexivity]. Qed.
Print Assumptions C184_scale_refuted.
(** The critical point of both functions. *)
Example C184_example : forall k : Q, (scaled_bowl k 1 0 (103 # 100) 0 == 0 /\ scaled_bowl k 0 1 (103 # 100) 0 == 0)%Q.
Proof. intros k. unfold scaled_bowl. split; ring. Qed.
