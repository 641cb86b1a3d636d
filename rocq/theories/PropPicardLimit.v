(** C177-C178: convergence of the Picard iteration. *)
From Coq Require Import String List Arith ZArith QArith Bool Reals Lia Lra.
From Verif Require Import Py Num Numpy Linalg GradShafranov GradShafranovProofs Multigrid Coils Machine MachineSpec Critical Romb RombProofs Boundary BoundarySpec BoundaryProofs
  Equilibrium EquilibriumSpec EquilibriumProofs EquilibriumProofs2 EquilibriumProofs3 GSSpec Gauss PropBoundary PropEquilibrium PropSolveFlux PropSolveError FittingProofs Picard PicardProofs PropPicard.
Import ListNotations.
Local Open Scope R_scope.

(** Two fluxes on the grid differ by at most d. *)
Definition within (nx ny : nat) (a b : arr2 R) (d : R) : Prop := forall i j, (i < nx)%nat -> (j < ny)%nat -> Rabs (a i j - b i j) <= d.

(** A family S of states on which eq.solve never fails and shrinks differences: solved with fluxes that
    differ by at most d, the new fluxes differ by at most q d and the new boundary fluxes by at most L d. *)
Definition contracts {E} nx ny (o : ops (T := R) E) (pb : option R) (S : E -> Prop) (q L : R) : Prop :=
  (forall e, S e -> S (set_check E o false e)) /\
  (forall e psi, S e -> exists e' psi' b, eq_solve E o e psi pb = (e', Ok tt) /\ S e' /\ eq_psi E o e' = Ok psi' /\ bndry_flux E o e' = Some (Some b)) /\
  (forall e1 e2 psi1 psi2 e1' e2' psi1' psi2' b1 b2 d, S e1 -> S e2 -> within nx ny psi1 psi2 d ->
     eq_solve E o e1 psi1 pb = (e1', Ok tt) -> eq_psi E o e1' = Ok psi1' -> bndry_flux E o e1' = Some (Some b1) ->
     eq_solve E o e2 psi2 pb = (e2', Ok tt) -> eq_psi E o e2' = Ok psi2' -> bndry_flux E o e2' = Some (Some b2) ->
     within nx ny psi1' psi2' (q * d) /\ Rabs (b1 - b2) <= L * d).

Lemma within_maxch nx ny v psi1 d : (0 < nx)%nat -> (0 < ny)%nat -> within nx ny (psi v) psi1 d -> maxch nx ny v psi1 <= d.
Proof.
  intros Hx Hy H. unfold maxch. destruct (amax_spec nx ny (fun i j => Rabs (psi v i j - psi1 i j)) Hx Hy) as (_ & i & j & Hi & Hj & ->). apply H; assumption.
Qed.
Lemma maxch_within nx ny v psi1 : (0 < nx)%nat -> (0 < ny)%nat -> within nx ny (psi v) psi1 (maxch nx ny v psi1).
Proof. intros Hx Hy i j Hi Hj. unfold maxch. exact (proj1 (amax_spec nx ny (fun i j => Rabs (psi v i j - psi1 i j)) Hx Hy) i j Hi Hj). Qed.

Section Limit.
  Variables (nx ny : nat) (E : Type) (o : ops (T := R) E) (p : options (T := R)) (S : E -> Prop) (q L : R).
  Hypothesis Hx : (0 < nx)%nat.
  Hypothesis Hy : (0 < ny)%nat.
  Hypothesis HC : contracts nx ny o (user_bndry p) S q L.
  Hypothesis Hq : 0 <= q < 1.
  Hypothesis HL : 0 <= L.
  Hypothesis Hcon : constrain E o = None.
  Hypothesis Hchk : check p = false.
  Hypothesis Hw : wait p = false.
  Hypothesis Hb : 0 <= blend p < 1.

  Let c := (1 - blend p) * q + blend p.
  Lemma c_range : 0 <= c < 1.
  Proof using Hq Hb. unfold c. split; nra. Qed.
  Lemma flag_off v : flag p v = false.
  Proof using Hchk. unfold flag. rewrite Hchk. apply andb_false_r. Qed.

  (** one turn: the state after the solve, and either the end or a smaller change the next time *)
  Lemma turn_step e v : S e -> exists e1 psi1 b, S e1 /\ solved E o p e v e1 (Some b) psi1 /\
    turn nx ny E o p e v =
      if test nx ny E o p v e1 (Some b) psi1 then (e1, Ok (inl (history v ++ [entry nx ny v psi1])))
      else if exceeded p (iteration v + 1) then (e1, Raise RuntimeError)
      else (e1, Ok (inr (mkvars (fun i j => (1 - blend p) * psi1 i j + blend p * psi v i j) (iteration v + 1) b (Some (bndry v - b))
                           (been_limited v || limited E o e1) (history v ++ [entry nx ny v psi1])))).
  Proof using HC Hchk Hcon.
    intros He. destruct HC as (C1 & C2 & _). destruct (C2 (set_check E o false e) (psi v) (C1 e He)) as (e1 & psi1 & b & Es & H1 & Ep & Eb).
    exists e1, psi1, b. split; [exact H1|]. split.
    - exists (user_bndry p). unfold given. rewrite flag_off. repeat split; assumption.
    - rewrite turn_eq. cbv zeta. rewrite flag_off, Es, Eb, Ep. unfold run_constrain. rewrite Hcon, Ep. reflexivity.
  Qed.

  Lemma loop_converges : forall k e v D B fuel, S e -> (k < fuel)%nat ->
    (forall e1 psi1, eq_solve E o (set_check E o false e) (psi v) (user_bndry p) = (e1, Ok tt) -> eq_psi E o e1 = Ok psi1 -> within nx ny (psi v) psi1 D) ->
    (forall e1 b, eq_solve E o (set_check E o false e) (psi v) (user_bndry p) = (e1, Ok tt) -> bndry_flux E o e1 = Some (Some b) -> Rabs (bndry v - b) <= B) ->
    c ^ k * D < atol p -> (match k with O => B | Datatypes.S m => L * (1 - blend p) * c ^ m * D end) < atol p ->
    (forall j, (1 <= j <= k)%nat -> exceeded p (iteration v + Z.of_nat j) = false) ->
    exists e' h, loop nx ny E o p fuel e v = (e', Ok h) /\ S e' /\ (List.length h <= List.length (history v) + Datatypes.S k)%nat.
  Proof using Hx Hy HC Hchk Hcon Hw Hb Hq HL.
    induction k as [|k IH]; intros e v D B fuel He Hf HD HB Hk1 Hk2 Hex; (destruct fuel as [|fuel]; [lia|]); cbn [loop];
      destruct (turn_step e v He) as (e1 & psi1 & b & He1 & (pb & Hg & Es & Eb & Ep) & ->);
      unfold given in Hg; rewrite flag_off in Hg, Es; subst pb; assert (HD1 := HD _ _ Es Ep); assert (HB1 := HB _ _ Es Eb).
    - assert (Ht : test nx ny E o p v e1 (Some b) psi1 = true).
      { unfold test. assert (M := within_maxch nx ny v psi1 D Hx Hy HD1). rewrite (proj2 (R_ltb_true _ (atol p))) by lra. cbn [orb andb].
        unfold newch. cbn [option_map below]. nR. rewrite (proj2 (R_ltb_true (Rabs (bndry v - b)) (atol p))) by lra. rewrite orb_true_r, Hw. reflexivity. }
      rewrite Ht. exists e1. eexists. split; [reflexivity|]. split; [exact He1|]. rewrite app_length. cbn [List.length]. lia.
    - destruct (test nx ny E o p v e1 (Some b) psi1).
      { exists e1. eexists. split; [reflexivity|]. split; [exact He1|]. rewrite app_length. cbn [List.length]. lia. }
      assert (Hx1 := Hex 1%nat ltac:(lia)). change (Z.of_nat 1) with 1%Z in Hx1. rewrite Hx1.
      set (v' := mkvars _ _ _ _ _ _).
      assert (Hpp : within nx ny (psi v) (psi v') ((1 - blend p) * D)).
      { intros i j Hi Hj. unfold v'. cbn [psi]. replace (psi v i j - ((1 - blend p) * psi1 i j + blend p * psi v i j)) with ((1 - blend p) * (psi v i j - psi1 i j)) by ring.
        rewrite Rabs_mult, (Rabs_right (1 - blend p)) by lra. apply Rmult_le_compat_l; [lra|]. apply HD1; assumption. }
      destruct HC as (C1 & _ & C3).
      destruct (IH e1 v' (c * D) (L * (1 - blend p) * D) fuel He1 ltac:(lia)) as (e' & h & El & Hs' & Hl).
      + intros e2 psi2 Es2 Ep2 i j Hi Hj.
        destruct (HC) as (_ & C2 & _). destruct (C2 (set_check E o false e1) (psi v') (C1 e1 He1)) as (e2' & psi2' & b2 & Es2' & _ & Ep2' & Eb2). rewrite Es2 in Es2'. injection Es2' as <-. rewrite Ep2 in Ep2'. apply (f_equal (fun r => match r with Ok x => x | Raise _ => psi2 end)) in Ep2'. subst psi2'.
        destruct (C3 _ _ _ _ _ _ _ _ _ _ _ (C1 e He) (C1 e1 He1) Hpp Es Ep Eb Es2 Ep2 Eb2) as (W & _).
        specialize (W i j Hi Hj). specialize (HD1 i j Hi Hj). unfold v'. cbn [psi].
        replace ((1 - blend p) * psi1 i j + blend p * psi v i j - psi2 i j) with ((psi1 i j - psi2 i j) + blend p * (psi v i j - psi1 i j)) by ring.
        eapply Rle_trans; [apply Rabs_triang|]. rewrite Rabs_mult, (Rabs_right (blend p)) by lra. unfold c.
        assert (blend p * Rabs (psi v i j - psi1 i j) <= blend p * D) by (apply Rmult_le_compat_l; lra). lra.
      + intros e2 b2 Es2 Eb2.
        destruct (HC) as (_ & C2 & _). destruct (C2 (set_check E o false e1) (psi v') (C1 e1 He1)) as (e2' & psi2 & b2' & Es2' & _ & Ep2 & _). rewrite Es2 in Es2'. injection Es2' as <-.
        destruct (C3 _ _ _ _ _ _ _ _ _ _ _ (C1 e He) (C1 e1 He1) Hpp Es Ep Eb Es2 Ep2 Eb2) as (_ & W). unfold v'. cbn [bndry]. lra.
      + cbn [pow] in Hk1. lra.
      + destruct k as [|k]; [cbn [pow] in Hk2; lra|]. cbn [pow] in Hk2. lra.
      + intros j Hj. unfold v'. cbn [iteration]. replace (iteration v + 1 + Z.of_nat j)%Z with (iteration v + Z.of_nat (Datatypes.S j))%Z by lia. apply Hex. lia.
      + exists e', h. split; [exact El|]. split; [exact Hs'|]. unfold v' in Hl. cbn [history] in Hl. rewrite app_length in Hl. cbn [List.length] in Hl. lia.
  Qed.
End Limit.

(** ** C177 *)
(** If the first solve changes the flux by at most D, the iteration returns after at most n + 1 solves, for every
    n >= 1 for which c^n D and L (1 - blend) c^(n-1) D are below atol, c = (1 - blend) q + blend, unless maxits is below n. *)
Theorem C177_converges : forall nx ny E (o : ops (T := R) E) p (S : E -> Prop) q L D n fuel e psi0,
  let c := (1 - blend p) * q + blend p in
  (0 < nx)%nat -> (0 < ny)%nat -> contracts nx ny o (user_bndry p) S q L -> 0 <= q < 1 -> 0 <= L -> constrain E o = None ->
  check p = false -> wait p = false -> 0 <= blend p < 1 ->
  S e -> eq_psi E o e = Ok psi0 ->
  (forall e1 psi1, eq_solve E o (set_check E o false e) psi0 (user_bndry p) = (e1, Ok tt) -> eq_psi E o e1 = Ok psi1 -> within nx ny psi0 psi1 D) ->
  (1 <= n)%nat -> c ^ n * D < atol p -> L * (1 - blend p) * c ^ (n - 1) * D < atol p ->
  (maxits p = None \/ maxits p = Some 0%Z \/ exists m, maxits p = Some m /\ (Z.of_nat n <= m)%Z) -> (n < fuel)%nat ->
  exists e' h, picard nx ny E o p fuel e = (e', Ok h) /\ S e' /\ (List.length h <= n + 1)%nat.
Proof.
  intros nx ny E o p S q L D n fuel e psi0 c Hx Hy HC Hq HL Hcon Hchk Hw Hb He Ep HD Hn H1 H2 Hm Hf.
  unfold picard, run_constrain. rewrite Hcon, Ep.
  set (v := mkvars psi0 0 n0 None false []).
  destruct HC as (C1 & C2 & C3) eqn:EC. destruct (C2 (set_check E o false e) psi0 (C1 e He)) as (e1 & psi1 & b & Es & He1 & Ep1 & Eb1).
  destruct (loop_converges nx ny E o p S q L Hx Hy HC Hq HL Hcon Hchk Hw Hb n e v D (Rabs (0 - b)) fuel He Hf) as (e' & h & El & Hs & Hl).
  - intros e2 psi2 Es2 Ep2. apply HD with (1 := Es2) (2 := Ep2).
  - intros e2 b2 Es2 Eb2. cbn [psi v] in Es2. rewrite Es in Es2. injection Es2 as <-. rewrite Eb1 in Eb2. injection Eb2 as <-. cbn [bndry v]. nR. lra.
  - exact H1.
  - destruct n as [|n]; [lia|]. replace (Datatypes.S n - 1)%nat with n in H2 by lia. exact H2.
  - intros j Hj. cbn [iteration v]. unfold exceeded. destruct Hm as [->|[->|(m & -> & Hm)]]; [reflexivity|reflexivity|].
    apply andb_false_iff. right. apply Z.ltb_ge. lia.
  - exists e', h. split; [exact El|]. split; [exact Hs|]. cbn [history v List.length] in Hl. lia.
Qed.
Print Assumptions C177_converges.
(** Without maxits it always returns. *)
Theorem C177_eventually : forall nx ny E (o : ops (T := R) E) p (S : E -> Prop) q L e psi0,
  (0 < nx)%nat -> (0 < ny)%nat -> contracts nx ny o (user_bndry p) S q L -> 0 <= q < 1 -> 0 <= L -> constrain E o = None ->
  check p = false -> wait p = false -> 0 <= blend p < 1 -> 0 < atol p -> maxits p = None \/ maxits p = Some 0%Z ->
  S e -> eq_psi E o e = Ok psi0 ->
  exists n, forall fuel, (n < fuel)%nat -> exists e' h, picard nx ny E o p fuel e = (e', Ok h) /\ S e'.
Proof.
  intros nx ny E o p S q L e psi0 Hx Hy HC Hq HL Hcon Hchk Hw Hb Ha Hm He Ep.
  set (c := (1 - blend p) * q + blend p). assert (Hc : 0 <= c < 1) by (unfold c; nra).
  destruct HC as (C1 & C2 & C3) eqn:EC. destruct (C2 (set_check E o false e) psi0 (C1 e He)) as (e1 & psi1 & b & Es & He1 & Ep1 & Eb1).
  set (v := mkvars psi0 0 n0 None false []). set (D := maxch nx ny v psi1).
  assert (HD : within nx ny psi0 psi1 D) by exact (maxch_within nx ny v psi1 Hx Hy).
  assert (D0 : 0 <= D) by (eapply Rle_trans; [apply Rabs_pos|exact (HD 0%nat 0%nat Hx Hy)]).
  destruct (pow_lt_1_zero c) with (y := atol p / ((1 + L) * (D + 1))) as (N & HN).
  { rewrite Rabs_right; lra. } { apply Rdiv_lt_0_compat; [lra|]. apply Rmult_lt_0_compat; lra. }
  assert (Hp : forall n, (N <= n)%nat -> c ^ n * ((1 + L) * (D + 1)) < atol p).
  { intros n Hn. specialize (HN n Hn). assert (Hc0 : 0 <= c ^ n) by (apply pow_le; lra). rewrite Rabs_right in HN by lra.
    assert (Q : 0 < (1 + L) * (D + 1)) by (apply Rmult_lt_0_compat; lra). apply (Rmult_lt_compat_r _ _ _ Q) in HN.
    unfold Rdiv in HN. rewrite Rmult_assoc, Rinv_l, Rmult_1_r in HN by lra. exact HN. }
  exists (Datatypes.S N). intros fuel Hf.
  destruct (C177_converges nx ny E o p S q L D (Datatypes.S N) fuel e psi0 Hx Hy HC Hq HL Hcon Hchk Hw Hb He Ep) as (e' & h & E1 & E2 & _); try lia.
  - intros e2 psi2 Es2 Ep2. rewrite Es in Es2. injection Es2 as <-. rewrite Ep1 in Ep2. apply (f_equal (fun r => match r with Ok x => x | Raise _ => psi1 end)) in Ep2. subst psi2. exact HD.
  - fold c. specialize (Hp (Datatypes.S N) ltac:(lia)). assert (0 <= c ^ Datatypes.S N) by (apply pow_le; lra). nra.
  - fold c. cbn [Nat.sub]. rewrite Nat.sub_0_r. specialize (Hp N ltac:(lia)). assert (0 <= c ^ N) by (apply pow_le; lra).
    assert (L * (1 - blend p) * D <= (1 + L) * (D + 1)).
    { assert (L * (1 - blend p) <= 1 + L) by nra. assert (0 <= L * (1 - blend p)) by (apply Rmult_le_pos; lra). nra. }
    assert (c ^ N * (L * (1 - blend p) * D) <= c ^ N * ((1 + L) * (D + 1))) by (apply Rmult_le_compat_l; assumption). lra.
  - tauto.
  - exists e', h. split; assumption.
Qed.
Print Assumptions C177_eventually.
(** What it returns: a flux within q / (1 - q) times the last change of every solution (a flux that
    solving keeps), and the last change is below atol or below rtol times the range of the flux. *)
Theorem C177_accuracy : forall nx ny E (o : ops (T := R) E) p (S : E -> Prop) q L fuel e e' h psi1,
  (0 < nx)%nat -> (0 < ny)%nat -> contracts nx ny o (user_bndry p) S q L -> 0 <= q < 1 -> constrain E o = None -> check p = false ->
  S e -> picard nx ny E o p fuel e = (e', Ok h) -> eq_psi E o e' = Ok psi1 ->
  exists m hs r, h = hs ++ [(m, r)] /\ 0 <= m /\ (m < atol p \/ m < rtol p * (amax nx ny psi1 - amin nx ny psi1)) /\
  forall es es' psis psis', S es -> eq_solve E o es psis (user_bndry p) = (es', Ok tt) -> eq_psi E o es' = Ok psis' ->
    (forall i j, (i < nx)%nat -> (j < ny)%nat -> psis' i j = psis i j) -> within nx ny psi1 psis (q / (1 - q) * m).
Proof.
  intros nx ny E o p S q L fuel e e' h psi1 Hx Hy HC Hq Hcon Hchk He Epic Ep.
  destruct HC as (C1 & C2 & C3) eqn:EC.
  assert (Hst : forall ea va eb r, S ea -> turn nx ny E o p ea va = (eb, Ok r) -> S eb).
  { intros ea va eb r Ha Et. destruct (turn_step nx ny E o p S q L HC Hcon Hchk ea va Ha) as (e1 & psi2 & b & H1 & _ & E1). rewrite E1 in Et.
    destruct (test nx ny E o p va e1 (Some b) psi2); [injection Et as <- _; exact H1|]. destruct (exceeded p (iteration va + 1)); [discriminate|]. injection Et as <- _. exact H1. }
  destruct (picard_inv nx ny E o p (fun e _ => S e) e) with (fuel := fuel) (e' := e') (h := h) as (ea & va & Ha & Et); [| |exact Epic|].
  { intros e1 psi0 Er _. unfold run_constrain in Er. rewrite Hcon in Er. injection Er as <-. exact He. }
  { intros ea va eb vb Ha Et. exact (Hst _ _ _ _ Ha Et). }
  assert (He' := Hst _ _ _ _ Ha Et).
  destruct (turn_done nx ny E o p _ _ _ _ Et) as (ob & psi2 & (pb & Hg & Es & Eb & Ep2) & Ht & ->).
  rewrite Ep in Ep2. apply (f_equal (fun r => match r with Ok x => x | Raise _ => psi1 end)) in Ep2. subst psi2.
  unfold given in Hg. rewrite (flag_off p Hchk) in Hg, Es. subst pb.
  set (m := maxch nx ny va psi1). assert (W0 := maxch_within nx ny va psi1 Hx Hy). fold m in W0.
  assert (M0 : 0 <= m) by (eapply Rle_trans; [apply Rabs_pos|exact (W0 0%nat 0%nat Hx Hy)]).
  exists m, (history va), (relch nx ny va psi1). split; [reflexivity|]. split; [exact M0|]. split.
  { unfold test in Ht. apply andb_true_iff in Ht. destruct Ht as (Ht & _). apply andb_true_iff in Ht. destruct Ht as (Hp & _). fold m in Hp. apply orb_true_iff in Hp.
    destruct Hp as [Hp|Hp]; [left; apply R_ltb_true in Hp; exact Hp|right]. unfold relch, quotient in Hp. fold m in Hp. nR. destruct (R_eqb _ 0) eqn:E0; cbn [below] in Hp; [discriminate|].
    apply R_eqb_false in E0. apply R_ltb_true in Hp.
    assert (A1 := proj1 (amax_spec nx ny psi1 Hx Hy) 0%nat 0%nat Hx Hy). assert (A2 := proj1 (amin_spec nx ny psi1 Hx Hy) 0%nat 0%nat Hx Hy).
    set (dd := amax nx ny psi1 - amin nx ny psi1) in *. assert (Hd : 0 < dd) by (unfold dd in *; lra).
    apply (Rmult_lt_compat_r dd) in Hp; [|exact Hd]. replace (m / dd * dd) with m in Hp by (field; lra). exact Hp. }
  intros es es' psis psis' Hes Ess Eps Hfix.
  destruct (C2 es psis Hes) as (es2 & psis2 & bs & Ess2 & _ & _ & Ebs). rewrite Ess in Ess2. injection Ess2 as <-.
  destruct (C2 (set_check E o false ea) (psi va) (C1 ea Ha)) as (e2 & psi2 & b2 & Es2 & _ & _ & Eb2). rewrite Es in Es2. injection Es2 as <-.
  (* the distance of psi va to the solution *)
  set (w := mkvars psis 0 0 None false []). set (d := maxch nx ny w (psi va)).
  assert (Wd := maxch_within nx ny w (psi va) Hx Hy). fold d in Wd. cbn [psi w] in Wd.
  assert (Wd' : within nx ny (psi va) psis d) by (intros i j Hi Hj; rewrite Rabs_minus_sym; apply Wd; assumption).
  destruct (C3 _ _ _ _ _ _ _ _ _ _ _ (C1 ea Ha) Hes Wd' Es Ep Eb2 Ess Eps Ebs) as (W & _).
  assert (Hd : d <= m / (1 - q)).
  { assert (Hdd : d <= m + q * d).
    { apply (within_maxch nx ny w (psi va)); try assumption. intros i j Hi Hj. cbn [psi w]. specialize (W i j Hi Hj). specialize (W0 i j Hi Hj). rewrite Hfix in W by assumption.
      replace (psis i j - psi va i j) with (- (psi1 i j - psis i j) + - (psi va i j - psi1 i j)) by ring. eapply Rle_trans; [apply Rabs_triang|]. rewrite !Rabs_Ropp. lra. }
    apply Rmult_le_reg_r with (1 - q); [lra|]. unfold Rdiv. rewrite Rmult_assoc, Rinv_l, Rmult_1_r by lra. lra. }
  intros i j Hi Hj. specialize (W i j Hi Hj). rewrite Hfix in W by assumption. eapply Rle_trans; [exact W|].
  replace (q / (1 - q) * m) with (q * (m / (1 - q))) by (field; lra). apply Rmult_le_compat_l; lra.
Qed.
Print Assumptions C177_accuracy.

(** ** C178 *)
(** Equilibria on the grid and with the machine of e0. *)
Definition like {P Ctl} (e0 e : equilibrium R P Ctl) : Prop :=
  (e_nx e, e_ny e, Rmin e, Rmax e, Zmin e, Zmax e) = (e_nx e0, e_ny e0, Rmin e0, Rmax e0, Zmin e0, Zmax e0) /\
  second_order e /\ bnd e = BFixed /\ tok e = tok e0 /\ pgreen e = pgreen e0.
(** A profile whose current density changes by at most K d inside the grid when the flux changes by at most d. *)
Definition lipschitz_profile {P Ctl} (Jt : P -> equilibrium R P Ctl -> (nat -> nat -> R) -> option R -> result ((nat -> nat -> R) * P * bstate R)) (e0 : equilibrium R P Ctl)
    (Q : P -> Prop) (pb : option R) (K : R) : Prop :=
  forall p1 p2 e1 e2 psi1 psi2 J1 J2 p1' p2' b1 b2 d, Q p1 -> Q p2 -> like e0 e1 -> like e0 e2 -> within (e_nx e0) (e_ny e0) psi1 psi2 d ->
    Jt p1 e1 psi1 pb = Ok (J1, p1', b1) -> Jt p2 e2 psi2 pb = Ok (J2, p2', b2) ->
    forall x y, inside (e_nx e0) (e_ny e0) x y -> Rabs (J1 x y - J2 x y) <= K * d.

Lemma total_diff {P Ctl} (e1 e2 : equilibrium R P Ctl) psi1 psi2 : tok e1 = tok e2 -> pgreen e1 = pgreen e2 -> total_psi e1 = Ok psi1 -> total_psi e2 = Ok psi2 ->
  forall i j, psi1 i j - psi2 i j = plasma_psi e1 i j - plasma_psi e2 i j.
Proof.
  intros Ht Hp E1 E2 i j. unfold total_psi in *. apply bind_ok in E1. destruct E1 as (v1 & _ & E1). apply bind_ok in E2. destruct E2 as (v2 & _ & E2).
  apply ok_inj in E1. apply ok_inj in E2. subst psi1 psi2. rewrite Ht, Hp. unfold Machine.eq_psi. destruct (calcPsiFromGreens (coils (tok e2)) (pgreen e2 i j)) as [r|]; cbn [bind]; nR; ring.
Qed.

(** Fixed boundary and exact linear solver: with such a profile eq.solve contracts as soon as
    q = mu0 Rmax (Zmax - Zmin)^2 / 8 K is below 1, provided it succeeds and finds a boundary flux that depends on the flux with the
    constant L. *)
Theorem C178_contracts : forall (P Ctl : Type) G mu lu spline
    (Jt : P -> equilibrium R P Ctl -> (nat -> nat -> R) -> option R -> result ((nat -> nat -> R) * P * bstate R))
    (S : equilibrium R P Ctl * P -> Prop) e0 (Q : P -> Prop) pb K L,
  let run s psi := solve G sqrt mu lu spline Jt (fst s) (snd s) None (Some psi) pb in
  let after s e' := (e', match profiles e' with Some q => q | None => snd s end) in
  exact_solver lu -> 0 < mu -> 0 <= K ->
  (forall s, S s -> like e0 (fst s) /\ Q (snd s) /\ S (with_check (fst s) false, snd s)) ->
  (forall s psi, S s -> exists e' b, run s psi = Ok e' /\ S (after s e') /\ psi_bndry (bs e') = Some (Some b)) ->
  (forall s1 s2 psi1 psi2 e1 e2 b1 b2 d, S s1 -> S s2 -> within (e_nx e0) (e_ny e0) psi1 psi2 d -> run s1 psi1 = Ok e1 -> run s2 psi2 = Ok e2 ->
     psi_bndry (bs e1) = Some (Some b1) -> psi_bndry (bs e2) = Some (Some b2) -> Rabs (b1 - b2) <= L * d) ->
  lipschitz_profile Jt e0 Q pb K -> (0 < e_nx e0)%nat -> (0 < e_ny e0)%nat ->
  contracts (e_nx e0) (e_ny e0) (eq_ops G sqrt mu lu spline Jt None) pb S (mu * Rmax e0 * ((Zmax e0 - Zmin e0) ^ 2 / 8) * K) L.
Proof.
  intros P Ctl G mu lu spline Jt S e0 Q pb K L run after Hlu Hmu HK HS Hrun Hbd HJ Hnx Hny. split; [|split].
  - intros s Hs. exact (proj2 (proj2 (HS s Hs))).
  - intros s psi0 Hs. destruct (Hrun s psi0 Hs) as (e' & b & E1 & E2 & E3). cbn [eq_solve eq_ops]. unfold run in E1. rewrite E1.
    destruct (solve_inv _ _ _ _ _ _ _ _ _ _ _ _ E1) as (ea & J & p1 & rhs & x & p' & I & dR & dZ & b' & _ & _ & _ & _ & _ & _ & _ & _ & (q & Eq & _) & Ee).
    exists (after s e'), q, b. split; [reflexivity|]. split; [exact E2|]. cbn [Picard.eq_psi bndry_flux eq_ops after fst]. split; [|exact E3]. rewrite Ee. exact Eq.
  - intros s1 s2 psi1 psi2 s1' s2' psi1' psi2' b1 b2 d H1 H2 Hw Es1 Ep1 Eb1 Es2 Ep2 Eb2.
    cbn [eq_solve eq_ops Picard.eq_psi bndry_flux] in Es1, Es2, Ep1, Ep2, Eb1, Eb2.
    destruct (solve G sqrt mu lu spline Jt (fst s1) (snd s1) None (Some psi1) pb) as [e1|] eqn:E1; [|discriminate]. injection Es1 as <-.
    destruct (solve G sqrt mu lu spline Jt (fst s2) (snd s2) None (Some psi2) pb) as [e2|] eqn:E2; [|discriminate]. injection Es2 as <-.
    cbn [fst] in Ep1, Ep2, Eb1, Eb2. split; [|exact (Hbd s1 s2 psi1 psi2 e1 e2 b1 b2 d H1 H2 Hw E1 E2 Eb1 Eb2)].
    assert (Hd : 0 <= d) by (eapply Rle_trans; [apply Rabs_pos|exact (Hw 0%nat 0%nat Hnx Hny)]).
    destruct (HS s1 H1) as (L1 & Q1 & _), (HS s2 H2) as (L2 & Q2 & _).
    destruct (solve_inv _ _ _ _ _ _ _ _ _ _ _ _ E1) as (ea & J1 & p1 & rhs1 & x1 & p1' & I1 & dR1 & dZ1 & c1 & Ea & (ba & bx & pa & Hpa & EJ1) & _ & _ & _ & _ & _ & _ & _ & Ee1).
    destruct (solve_inv _ _ _ _ _ _ _ _ _ _ _ _ E2) as (eb & J2 & p2 & rhs2 & x2 & p2' & I2 & dR2 & dZ2 & c2 & Eb & (bb & by2 & pc & Hpc & EJ2) & _ & _ & _ & _ & _ & _ & _ & Ee2).
    subst pa pc ea eb.
    assert (HJd : forall x y, inside (e_nx e0) (e_ny e0) x y -> Rabs (J1 x y - J2 x y) <= K * d) by (refine (HJ _ _ _ _ _ _ _ _ _ _ _ _ d Q1 Q2 _ _ Hw EJ1 EJ2); [exact L1|exact L2]).
    destruct L1 as (D1 & SO1 & B1 & T1 & P1), L2 as (D2 & SO2 & B2 & T2 & P2).
    assert (D12 := eq_trans D1 (eq_sym D2)). injection D2 as N M A B C F.
    assert (JT1 : jtor e1 = Some J1) by (rewrite Ee1; reflexivity). assert (JT2 : jtor e2 = Some J2) by (rewrite Ee2; reflexivity).
    assert (Hst := C171_stability P Ctl G mu lu spline Jt (fst s1) (fst s2) e1 e2 _ _ _ _ _ _ _ _ J1 J2 0 (K * d) Hlu SO1 SO2 Hmu D12 E1 JT1 E2 JT2
              (or_introl (conj B1 (conj B2 eq_refl)))).
    rewrite N, M, B, C, F in Hst. specialize (Hst HJd ltac:(apply Rmult_le_pos; assumption)).
    intros i j Hi Hj. rewrite (total_diff e1 e2 psi1' psi2'); [|rewrite Ee1, Ee2; cbn [tok with_profiles with_current with_bs with_plasma]; congruence|rewrite Ee1, Ee2; cbn [pgreen with_profiles with_current with_bs with_plasma]; congruence|exact Ep1|exact Ep2].
    specialize (Hst i j Hi Hj). lra.
Qed.
Print Assumptions C178_contracts.
Lemma solve_ok_psi {P Ctl} G mu lu spline Jt (e e' : equilibrium R P Ctl) p Jo psi pb : solve G sqrt mu lu spline Jt e p Jo psi pb = Ok e' -> exists psi0, total_psi e = Ok psi0.
Proof. intros E. unfold solve in E. apply bind_ok in E. destruct E as (e1 & E1 & _). unfold update_own in E1. apply bind_ok in E1. destruct E1 as (q & Eq & _). exists q. exact Eq. Qed.
(** So the iteration converges. *)
Theorem C178_converges : forall (P Ctl : Type) G mu lu spline
    (Jt : P -> equilibrium R P Ctl -> (nat -> nat -> R) -> option R -> result ((nat -> nat -> R) * P * bstate R))
    (S : equilibrium R P Ctl * P -> Prop) e0 (Q : P -> Prop) K L p s,
  let run s psi := solve G sqrt mu lu spline Jt (fst s) (snd s) None (Some psi) (user_bndry p) in
  let after s e' := (e', match profiles e' with Some q => q | None => snd s end) in
  exact_solver lu -> 0 < mu -> 0 <= K -> 0 <= L ->
  (forall s, S s -> like e0 (fst s) /\ Q (snd s) /\ S (with_check (fst s) false, snd s)) ->
  (forall s psi, S s -> exists e' b, run s psi = Ok e' /\ S (after s e') /\ psi_bndry (bs e') = Some (Some b)) ->
  (forall s1 s2 psi1 psi2 e1 e2 b1 b2 d, S s1 -> S s2 -> within (e_nx e0) (e_ny e0) psi1 psi2 d -> run s1 psi1 = Ok e1 -> run s2 psi2 = Ok e2 ->
     psi_bndry (bs e1) = Some (Some b1) -> psi_bndry (bs e2) = Some (Some b2) -> Rabs (b1 - b2) <= L * d) ->
  lipschitz_profile Jt e0 Q (user_bndry p) K -> (0 < e_nx e0)%nat -> (0 < e_ny e0)%nat ->
  mu * Rmax e0 * ((Zmax e0 - Zmin e0) ^ 2 / 8) * K < 1 ->
  check p = false -> wait p = false -> 0 <= blend p < 1 -> 0 < atol p -> maxits p = None \/ maxits p = Some 0%Z ->
  S s -> exists n, forall fuel, (n < fuel)%nat -> exists s' h, picard (e_nx e0) (e_ny e0) _ (eq_ops G sqrt mu lu spline Jt None) p fuel s = (s', Ok h) /\ S s'.
Proof.
  intros P Ctl G mu lu spline Jt S e0 Q K L p s run after Hlu Hmu HK HL HS Hrun Hbd HJ Hnx Hny Hq1 Hchk Hw Hb Ha Hm Hs.
  assert (HC := C178_contracts P Ctl G mu lu spline Jt S e0 Q (user_bndry p) K L Hlu Hmu HK HS Hrun Hbd HJ Hnx Hny).
  assert (Hq : 0 <= mu * Rmax e0 * ((Zmax e0 - Zmin e0) ^ 2 / 8) * K < 1).
  { split; [|exact Hq1]. destruct (HS s Hs) as ((D & (R0 & R1 & _) & _) & _). injection D as _ _ A B _ _. rewrite A in R0. rewrite A, B in R1.
    assert (X := pow2_ge_0 (Zmax e0 - Zmin e0)). apply Rmult_le_pos; [|exact HK]. apply Rmult_le_pos; [apply Rmult_le_pos; lra|lra]. }
  destruct (HS s Hs) as (_ & _ & Hs').
  destruct (Hrun s (fun _ _ => 0) Hs) as (e' & b & E1 & _). unfold run in E1.
  destruct (solve_ok_psi G mu lu spline Jt _ _ _ _ _ _ E1) as (psi0 & E0).
  exact (C177_eventually (e_nx e0) (e_ny e0) _ (eq_ops G sqrt mu lu spline Jt None) p S _ L s psi0 Hnx Hny HC Hq HL eq_refl Hchk Hw Hb Ha Hm Hs E0).
Qed.
Print Assumptions C178_converges.
(** A current density 1 + psi / 10 on 1 <= R <= 2, -1 <= Z <= 1, mu0 = 1: q is 1 / 10.  The boundary flux is that of the
    equilibrium before, since the flat spline has no O-point. *)
Definition linear_profile (q : unit) (e : equilibrium R unit unit) (psi : arr2 R) (_ : option R) : result (arr2 R * unit * bstate R) := Ok (fun i j => 1 + psi i j / 10, q, bs e).
Definition lin_eq (A : nat -> nat -> R) : equilibrium R unit unit :=
  mkeq 5 5 1 2 (-1) 1 (mktok [] false []) BFixed 2 (SMatrix (MGDirect 25 A)) false (fun _ _ => 0) (fun i j => []) 0 None (mkb None (Some (Some 1)) None None None false None) None None.
Definition lin_state (A : nat -> nat -> R) (s : equilibrium R unit unit * unit) : Prop :=
  like (lin_eq A) (fst s) /\ slv (fst s) = SMatrix (MGDirect 25 A) /\ psi_bndry (bs (fst s)) = Some (Some 1).
Lemma lin_run lu A s psi : lin_state A s -> exists e', solve (fun _ _ _ _ _ => 0) sqrt 1 lu flat_spline linear_profile (fst s) (snd s) None (Some psi) None = Ok e' /\
  lin_state A (e', match profiles e' with Some q => q | None => snd s end).
Proof.
  destruct s as (e, u). cbn [fst snd]. intros ((D & SO & Hb & Ht & Hp) & Hs & Hbd). cbn [fst snd] in *. cbn [e_nx e_ny Rmin Rmax Zmin Zmax tok pgreen lin_eq] in D, Ht, Hp. injection D as N M A1 A2 A3 A4.
  assert (Hc : coils (tok e) = []) by (rewrite Ht; reflexivity).
  assert (D5 : dyadic 5) by (exists 2%nat; reflexivity).
  set (J := fun i j => 1 + psi i j / 10).
  destruct (romb2_dyadic 5 5 J D5 D5) as (r & Er).
  set (e1 := with_profiles e (Some u) (control e)). set (e2 := with_bs e1 (bs e1)). set (e3 := with_profiles (with_bs e2 (bs e2)) (Some u) (control e2)).
  destruct (proj1 (C28_fixed_boundary 5 5 (plasma_psi e)) ltac:(lia)) as (q & Eq & _).
  destruct (set_edges_spec 5 5 (fun i j => nmul (nmul (nopp 1) (grid_R e3 i j)) (J i j)) q ltac:(lia) ltac:(lia)) as (rhs & Erh & _).
  assert (SR : exists d, spacing_R (e_nx e) (e_ny e) (grid_R e) = Ok d) by (rewrite N, M; eexists; reflexivity).
  assert (SZ : exists d, spacing_Z (e_nx e) (e_ny e) (grid_Z e) = Ok d) by (rewrite N, M; eexists; reflexivity).
  destruct SR as (dR & SR), SZ as (dZ & SZ).
  assert (E1 : update_own flat_spline e1 = Ok e2) by (apply flat_own; cbn [tok e_nx e_ny Rmin Rmax Zmin Zmax e1 with_profiles]; rewrite ?N, ?M, ?A1, ?A2, ?A3, ?A4; try lia; try lra; exact Hc).
  eexists. split.
  - unfold solve. fold e1. rewrite E1. cbn [bind]. unfold linear_profile at 1. cbn [bind]. fold J.
    change (with_profiles (with_bs e2 (bs e2)) (Some u) (control e2)) with e3. unfold linear_solve, applyBoundary.
    change (bnd e3) with (bnd e). rewrite Hb. change (e_nx e3) with (e_nx e). change (e_ny e3) with (e_ny e). rewrite N, M. change (plasma_psi e3) with (plasma_psi e). rewrite Eq. cbn [bind]. rewrite Erh. cbn [bind].
    unfold callSolver. change (slv e3) with (slv e). rewrite Hs. unfold solver_call. change (e_nx e3) with (e_nx e). change (e_ny e3) with (e_ny e). rewrite N, M. cbn [mg_call]. change (25 =? 5 * 5)%nat with true. cbn [bind].
    assert (U := fun x => flat_update_plasma e3 x). cbn [e_nx e_ny Rmin Rmax Zmin Zmax tok e3 e2 e1 with_profiles with_bs] in U. rewrite N, M, A1, A2, A3, A4 in U.
    rewrite U; [|lia|lia|lra|lra|exact Hc]. cbn [bind].
    match goal with |- bind (romb2 ?a ?b ?c) _ = _ => change (romb2 a b c) with (romb2 (e_nx e) (e_ny e) J) end. rewrite N, M, Er. cbn [bind].
    match goal with |- bind (spacing_R ?a ?b ?c) _ = _ => change (spacing_R a b c) with (spacing_R (e_nx e) (e_ny e) (grid_R e)) end. rewrite SR. cbn [bind].
    match goal with |- bind (spacing_Z ?a ?b ?c) _ = _ => change (spacing_Z a b c) with (spacing_Z (e_nx e) (e_ny e) (grid_Z e)) end. rewrite SZ. reflexivity.
  - split; [|split; [exact Hs|exact Hbd]]. split; [cbn; congruence|]. split; [exact SO|]. split; [exact Hb|]. split; [exact Ht|exact Hp].
Qed.
Lemma lin_props lu : exact_solver lu -> exists A, lin_state A (lin_eq A, tt) /\ lipschitz_profile linear_profile (lin_eq A) (fun _ => True) None (1 / 10) /\
  contracts 5 5 (eq_ops (fun _ _ _ _ _ => 0) sqrt 1 lu flat_spline linear_profile None) None (lin_state A) (1 / 10) 0.
Proof.
  intros HE.
  destruct (GSsparse_rows 1 2 (-1) 1 5 5) as (A & EA & _). exists A.
  assert (HJ : lipschitz_profile linear_profile (lin_eq A) (fun _ => True) None (1 / 10)).
  { intros p1 p2 e1 e2 psi1 psi2 J1 J2 p1' p2' b1 b2 d _ _ _ _ Hw E1 E2 x y Hxy. injection E1 as <- _ _. injection E2 as <- _ _.
    replace (1 + psi1 x y / 10 - (1 + psi2 x y / 10)) with (/ 10 * (psi1 x y - psi2 x y)) by field. rewrite Rabs_mult, (Rabs_right (/ 10)) by lra.
    assert (H := Hw x y ltac:(unfold inside in Hxy; lia) ltac:(unfold inside in Hxy; lia)). lra. }
  split; [|split; [exact HJ|]].
  - split; [|split; reflexivity]. repeat (split; [reflexivity|]). split; [|repeat split; reflexivity]. cbn [fst]. unfold second_order. cbn [Rmin Rmax Zmin Zmax e_nx e_ny slv lin_eq].
    repeat (split; [lra|]). exists A. split; [exact EA|reflexivity].
  - replace (1 / 10) with (1 * Rmax (lin_eq A) * ((Zmax (lin_eq A) - Zmin (lin_eq A)) ^ 2 / 8) * (1 / 10)) by (cbn; lra).
    apply (C178_contracts unit unit (fun _ _ _ _ _ => 0) 1 lu flat_spline linear_profile (lin_state A) (lin_eq A) (fun _ => True) None (1 / 10) 0); try assumption; try lra; try (cbn; lia).
    + intros s Hs. split; [apply Hs|]. split; [exact I|exact Hs].
    + intros s psi0 Hs. destruct (lin_run lu A s psi0 Hs) as (e' & E1 & E2). exists e', 1. split; [exact E1|]. split; [exact E2|]. exact (proj2 (proj2 E2)).
    + intros s1 s2 psi1 psi2 e1 e2 b1 b2 d H1 H2 _ E1 E2 B1 B2. destruct (lin_run lu A s1 psi1 H1) as (e1' & E1' & S1). destruct (lin_run lu A s2 psi2 H2) as (e2' & E2' & S2).
      rewrite E1 in E1'. apply ok_inj in E1'. subst e1'. rewrite E2 in E2'. apply ok_inj in E2'. subst e2'.
      assert (X1 := proj2 (proj2 S1)). assert (X2 := proj2 (proj2 S2)). cbn [fst] in X1, X2. rewrite B1 in X1. rewrite B2 in X2. injection X1 as ->. injection X2 as ->. rewrite Rminus_diag_eq by reflexivity. rewrite Rabs_R0. lra.
Qed.
Lemma elimination_exact : exact_solver elimination.
Proof. intros N M v Hn r Hr. exact (elimination_solves N M v Hn r Hr). Qed.
(** From flux 0 the first solve changes the flux by at most 1; two more solves are enough for a tolerance of 1/50. *)
Lemma lin_converges lu : exact_solver lu -> exists A e' h, lin_state A (lin_eq A, tt) /\ (List.length h <= 3)%nat /\
  picard 5 5 _ (eq_ops (fun _ _ _ _ _ => 0) sqrt 1 lu flat_spline linear_profile None) (plain_options (Some 50%Z) (1 / 1000) (1 / 50)) 52 (lin_eq A, tt) = (e', Ok h).
Proof.
  intros HE. destruct (lin_props lu HE) as (A & HS & HJ & HC). exists A.
  destruct (no_coils_psi (lin_eq A) eq_refl) as (psi0 & E0 & H0).
  destruct (C177_converges 5 5 _ (eq_ops (fun _ _ _ _ _ => 0) sqrt 1 lu flat_spline linear_profile None) (plain_options (Some 50%Z) (1 / 1000) (1 / 50)) (lin_state A) (1 / 10) 0 1 2 52 (lin_eq A, tt) psi0)
    as (e' & h & E1 & _ & Hl); try lia; try assumption; try reflexivity; try (cbn [plain_options blend atol pow Nat.sub]; nR; lra).
  - intros (e1, u) psi1 Es Ep. cbn [eq_solve eq_ops set_check fst snd user_bndry plain_options] in Es.
    destruct (solve _ _ _ _ _ _ _ _ _ _ _) as [e2|] eqn:E2; [|discriminate]. injection Es as <- _. cbn [Picard.eq_psi eq_ops fst] in Ep.
    assert (S0 : second_order (with_check (lin_eq A) false)) by exact (proj1 (proj2 (proj1 HS))).
    destruct (solve_inv _ _ _ _ _ _ _ _ _ _ _ _ E2) as (ea & J & p1 & rhs & x & p' & I1 & dR & dZ & b' & _ & (b1 & b2 & qq & -> & EJ) & _ & _ & _ & _ & _ & _ & _ & Ee).
    injection EJ as EJ _ _.
    (* against the solve with J = 0 *)
    destruct (proj1 (C28_fixed_boundary 5 5 (plasma_psi (lin_eq A))) ltac:(lia)) as (qb & Eqb & Hqb).
    destruct (PropSolveFlux.solved (fun _ _ _ _ _ => 0) 1 lu flat_spline linear_profile _ _ _ _ _ _ J HE S0 E2 ltac:(rewrite Ee; reflexivity)) as (pb & Epb & _ & _ & Hed & Hin).
    cbn [e_nx e_ny Rmin Rmax Zmin Zmax with_check lin_eq] in Hed, Hin.
    unfold applyBoundary in Epb. cbn [bnd e_nx e_ny with_check lin_eq plasma_psi] in Epb, Eqb, Hqb. rewrite Eqb in Epb. apply ok_inj in Epb. subst pb.
    intros i j Hi Hj. rewrite H0. cbn [plasma_psi lin_eq].
    destruct (no_coils_psi e2) as (psi2 & E3 & H3); [rewrite Ee; reflexivity|]. rewrite Ep in E3. apply ok_inj in E3. subst psi2. rewrite H3.
    rewrite Rminus_0_l, Rabs_Ropp. replace 1 with (0 + (1 - -1) ^ 2 / 8 * 2) by lra.
    apply (bounded 1 2 (-1) 1 5 5 (plasma_psi e2) 0 2); try lra; try lia.
    + intros x' y' Hxy. rewrite Hin by exact Hxy. rewrite <- EJ, H0. cbn [plasma_psi lin_eq].
      assert (G1 := gridpt_ge 1 2 5 x' ltac:(lra) ltac:(lia)). assert (G2 := gridpt_le 1 2 5 x' ltac:(lra) ltac:(lia) ltac:(unfold inside in Hxy; lia)).
      apply Rabs_le. lra.
    + intros x' y' Hxy. rewrite Hed by exact Hxy. rewrite (proj1 (Hqb x' y' ltac:(unfold on_edge in Hxy; lia) ltac:(unfold on_edge in Hxy; lia))) by exact Hxy. rewrite Rabs_R0. lra.
  - right. right. exists 50%Z. split; [reflexivity|lia].
  - exists e', h. split; [exact HS|]. split; [lia|exact E1].
Qed.
Example C177_example : exists A e' h, (List.length h <= 3)%nat /\
  picard 5 5 _ (eq_ops (fun _ _ _ _ _ => 0) sqrt 1 elimination flat_spline linear_profile None) (plain_options (Some 50%Z) (1 / 1000) (1 / 50)) 52 (lin_eq A, tt) = (e', Ok h).
Proof. destruct (lin_converges elimination elimination_exact) as (A & e' & h & _ & Hl & E). exists A, e', h. split; assumption. Qed.
Example C178_example : exists A n, forall fuel, (n < fuel)%nat -> exists s' h,
  picard 5 5 _ (eq_ops (fun _ _ _ _ _ => 0) sqrt 1 elimination flat_spline linear_profile None) (plain_options None (1 / 1000) (1 / 1000000)) fuel (lin_eq A, tt) = (s', Ok h) /\ lin_state A s'.
Proof.
  destruct (lin_props elimination elimination_exact) as (A & HS & HJ & HC). exists A.
  destruct (no_coils_psi (lin_eq A) eq_refl) as (psi0 & E0 & H0).
  apply (C177_eventually 5 5 _ (eq_ops (fun _ _ _ _ _ => 0) sqrt 1 elimination flat_spline linear_profile None) (plain_options None (1 / 1000) (1 / 1000000)) (lin_state A) (1 / 10) 0 (lin_eq A, tt) psi0);
    try lia; try assumption; try reflexivity; try (cbn [plain_options blend atol]; nR; lra). left. reflexivity.
Qed.

(** ** C179 *)
(** [log]: the boundary fluxes eq.solve has been called with. *)
Definition logs {T} `{Num T} {E} (o : ops (T := T) E) (log : E -> list (option T)) : Prop :=
  (forall b e, log (set_check E o b e) = log e) /\
  (forall e psi pb, log (fst (eq_solve E o e psi pb)) = log e ++ [pb]) /\
  (forall f e, constrain E o = Some f -> log (fst (f e)) = log e).
Lemma turn_log nx ny E (o : ops (T := R) E) p log e v : logs o log -> check p = false ->
  exists l, log (fst (turn nx ny E o p e v)) = log e ++ l /\ Forall (eq (user_bndry p)) l.
Proof.
  intros (L1 & L2 & L3) Hc. rewrite turn_eq. cbv zeta. rewrite (flag_off p Hc).
  assert (H2 := L2 (set_check E o false e) (psi v) (user_bndry p)). rewrite L1 in H2.
  assert (X : Forall (eq (user_bndry p)) [user_bndry p]) by (constructor; [reflexivity|constructor]).
  exists [user_bndry p]. split; [|exact X]. rewrite <- H2.
  destruct (eq_solve E o (set_check E o false e) (psi v) (user_bndry p)) as [e1 [u|x]]; [|reflexivity].
  destruct (bndry_flux E o e1) as [ob|]; [|reflexivity]. destruct (eq_psi E o e1) as [psi1|]; [|reflexivity].
  destruct (test nx ny E o p v e1 ob psi1); [reflexivity|]. cbn [fst].
  assert (Hr : log (fst (run_constrain E o e1)) = log e1) by (unfold run_constrain; destruct (constrain E o) as [f|] eqn:Ef; [apply L3; reflexivity|reflexivity]).
  destruct (run_constrain E o e1) as [e2 [w|]]; [|exact Hr]. destruct (eq_psi E o e2) as [psi2|]; [|exact Hr]. destruct (exceeded p (iteration v + 1)); exact Hr.
Qed.
(** Without the limiter check every solve is given the boundary flux of the user, whether the iteration
    converges or fails. *)
Theorem C179_given : forall nx ny E (o : ops (T := R) E) p log fuel e, logs o log -> check p = false ->
  exists l, log (fst (picard nx ny E o p fuel e)) = log e ++ l /\ Forall (eq (user_bndry p)) l.
Proof.
  intros nx ny E o p log fuel e HL Hc.
  assert (Hl : forall fuel e v, exists l, log (fst (loop nx ny E o p fuel e v)) = log e ++ l /\ Forall (eq (user_bndry p)) l).
  { clear fuel e. induction fuel as [|fuel IH]; intros e v; cbn [loop]; [exists []; split; [symmetry; apply app_nil_r|constructor]|].
    destruct (turn_log nx ny E o p log e v HL Hc) as (l & E1 & F1). destruct (turn nx ny E o p e v) as [e1 [[h|v1]|x]]; cbn [fst] in E1 |- *; [exists l; split; assumption| |exists l; split; assumption].
    destruct (IH e1 v1) as (l2 & E2 & F2). exists (l ++ l2). rewrite E2, E1, app_assoc. split; [reflexivity|]. apply Forall_app. split; assumption. }
  unfold picard. destruct HL as (_ & _ & L3).
  assert (Hr : log (fst (run_constrain E o e)) = log e) by (unfold run_constrain; destruct (constrain E o) as [f|] eqn:Ef; [apply L3; reflexivity|reflexivity]).
  destruct (run_constrain E o e) as [e1 [w|]]; cbn [fst] in Hr; [|exists []; split; [cbn [fst]; rewrite Hr; symmetry; apply app_nil_r|constructor]].
  destruct (eq_psi E o e1) as [psi0|]; [|exists []; split; [cbn [fst]; rewrite Hr; symmetry; apply app_nil_r|constructor]].
  destruct (Hl fuel e1 (mkvars psi0 0 n0 None false [])) as (l & E1 & F1). exists l. rewrite E1, Hr. split; [reflexivity|exact F1].
Qed.
Print Assumptions C179_given.
(** An equilibrium at rest that writes down what it is called with. *)
Definition logops {T} `{Num T} : ops (T := T) (list (option T)) :=
  mkops (list (option T)) (fun _ => Ok (fun i _ => nofZ (Z.of_nat i))) (fun _ l => l) (fun l _ pb => (l ++ [pb], Ok tt)) (fun _ => false) (fun _ => Some (Some (nofZ 1))) None.
Definition log_options {T} `{Num T} (x : option T) (tol : T) (chk : bool) : options (T := T) := mkopts tol tol (nofZ 0) x (Some 50%Z) chk false 0.
Example C179_given_example : logs (T := R) logops (fun l => l) /\
  fst (picard 2 2 _ logops (log_options (Some 5%Q) (1 # 1000)%Q false) 52 []) = [Some 5%Q; Some 5%Q].
Proof. split; [|vm_compute; reflexivity]. split; [reflexivity|]. split; [reflexivity|]. intros f e E. discriminate. Qed.
(** With it, and limit_it at its default 0, the argument is never used. *)
Theorem C179_bndry_refuted : exists nx ny E (o : ops (T := Q) E) log p fuel e e' h,
  logs o log /\ user_bndry p = Some 5%Q /\ check p = true /\ log e = [] /\ picard nx ny E o p fuel e = (e', Ok h) /\ log e' <> [] /\ ~ In (Some 5%Q) (log e').
Proof.
  exists 2%nat, 2%nat, (list (option Q)), logops, (fun l => l), (log_options (Some 5%Q) (1 # 1000)%Q true), 52%nat, [], [Some 1%Q; Some 1%Q]. eexists.
  split; [split; [reflexivity|split; [reflexivity|intros f e E; discriminate]]|]. do 3 (split; [reflexivity|]). split; [vm_compute; reflexivity|]. split; [discriminate|].
  intros [F|[F|[]]]; discriminate.
Qed.
Print Assumptions C179_bndry_refuted.
Definition with_bndry (p : options (T := R)) x : options (T := R) := mkopts (rtol p) (atol p) (blend p) x (maxits p) (check p) (wait p) (limit_it p).
Theorem C179_bndry_ignored : forall nx ny E (o : ops (T := R) E) p x y fuel e, check p = true -> (limit_it p <= 0)%Z ->
  picard nx ny E o (with_bndry p x) fuel e = picard nx ny E o (with_bndry p y) fuel e.
Proof.
  intros nx ny E o p x y fuel e Hc Hl. unfold picard. destruct (run_constrain E o e) as [e1 [w|]]; [|reflexivity]. destruct (eq_psi E o e1) as [psi0|]; [|reflexivity].
  assert (H : forall fuel e v, (0 <= iteration v)%Z -> loop nx ny E o (with_bndry p x) fuel e v = loop nx ny E o (with_bndry p y) fuel e v).
  { clear -Hc Hl. induction fuel as [|fuel IH]; intros e v Hv; cbn [loop]; [reflexivity|].
    assert (Hf : forall z, flag (with_bndry p z) v = true). { intros z. unfold flag. cbn [with_bndry limit_it check]. rewrite Hc, (proj2 (Z.leb_le _ _)) by lia. reflexivity. }
    assert (Et : turn nx ny E o (with_bndry p x) e v = turn nx ny E o (with_bndry p y) e v) by (rewrite !turn_eq; cbv zeta; rewrite !Hf; reflexivity).
    rewrite Et. destruct (turn nx ny E o (with_bndry p y) e v) as [e1 [[h|v1]|z]] eqn:E1; try reflexivity. apply IH.
    destruct (turn_next nx ny E o (with_bndry p y) _ _ _ _ E1) as (e2 & ob & psi1 & psi2 & _ & _ & _ & _ & _ & ->). cbn [iteration]. lia. }
  apply H. cbn [iteration]. lia.
Qed.
Print Assumptions C179_bndry_ignored.
Example C179_ignored_example : check (log_options (T := R) (Some 5%R) (1 / 1000)%R true) = true /\ Z.le (limit_it (log_options (T := R) (Some 5%R) (1 / 1000)%R true)) 0.
Proof. split; [reflexivity|cbn; lia]. Qed.
