(** Properties C190 and C191: combined measures. *)
From Coq Require Import Reals Lra Lia List Arith Bool QArith Permutation.
From Verif Require Import Py Num Optimise OptimiseProofs Optimiser OptimiserProofs MeasureSum.
Import ListNotations.
Local Open Scope R_scope.

(** The specification: the weight a user meant, and the sum of the terms. *)
Definition meant {E} (a : measure_arg (T := R) E) : (E -> result (ext R)) * R := match a with MFun f => (f, 1) | MPair f w => (f, w) end.
Fixpoint rsum (l : list R) : R := match l with [] => 0 | x :: l => x + rsum l end.
Lemma rsum_app l1 l2 : rsum (l1 ++ l2) = rsum l1 + rsum l2.
Proof. induction l1 as [|x l IH]; cbn [app rsum]; [ring|rewrite IH; ring]. Qed.
Lemma rsum_perm l1 l2 : Permutation l1 l2 -> rsum l1 = rsum l2.
Proof. induction 1; cbn [rsum]; lra. Qed.

Definition step {E} (eq : E) := fun (s : ext R) (fw : (E -> result (ext R)) * R) => bind (fst fw eq) (fun v => Ok (eadd s (emul v (snd fw)))).

Lemma sum_finite {E} (eq : E) (v : (E -> result (ext R)) -> R) : forall l s,
  (forall f w, In (f, w) l -> f eq = Ok (Fin (v f))) ->
  foldM (step eq) l (Fin s) = Ok (Fin (s + rsum (map (fun fw => snd fw * v (fst fw)) l))).
Proof.
  induction l as [|[f w] l IH]; intros s Hl; cbn [foldM map rsum]; [rewrite Rplus_0_r; reflexivity|].
  unfold step at 1. cbn [fst snd]. rewrite (Hl f w (or_introl eq_refl)). cbn [bind emul eadd].
  rewrite IH by (intros f' w' Hi; exact (Hl f' w' (or_intror Hi))). do 2 f_equal. nR. ring.
Qed.

Lemma add_weight_meant {E} (a : measure_arg (T := R) E) : add_weight a = meant a.
Proof. destruct a; reflexivity. Qed.
Lemma combined_eq {E} (args : list (measure_arg E)) (eq : E) : combined_measure args eq = foldM (step eq) (map meant args) (Fin 0).
Proof. unfold combined_measure. rewrite (map_ext _ _ add_weight_meant). reflexivity. Qed.

(** C190 — finite measures: the result is the weighted sum, whatever the order of the arguments *)
Theorem C190_weighted_sum : forall (E : Type) (args : list (measure_arg E)) (eq : E) (v : (E -> result (ext R)) -> R),
  (forall f w, In (f, w) (map meant args) -> f eq = Ok (Fin (v f))) ->
  let total := rsum (map (fun a => snd (meant a) * v (fst (meant a))) args) in
  combined_measure args eq = Ok (Fin total) /\
  forall args', Permutation args args' -> combined_measure args' eq = Ok (Fin total).
Proof.
  intros E args eq v Hv total.
  assert (G : forall l, (forall f w, In (f, w) (map meant l) -> f eq = Ok (Fin (v f))) ->
    combined_measure l eq = Ok (Fin (rsum (map (fun a => snd (meant a) * v (fst (meant a))) l)))).
  { intros l Hl. rewrite combined_eq, (sum_finite eq v _ 0 Hl), map_map. do 2 f_equal. nR. ring. }
  split; [exact (G args Hv)|]. intros args' HP.
  rewrite (G args'); [unfold total; do 2 f_equal; apply rsum_perm, Permutation_map, Permutation_sym, HP|].
  intros f w Hi. apply (Hv f w). apply (Permutation_in _ (Permutation_sym (Permutation_map meant HP))). exact Hi.
Qed.
Print Assumptions C190_weighted_sum.
Example C190_example :
  combined_measure [MFun (fun x => Ok (Fin x)); MPair (fun x => Ok (Fin (x * x))) (1 / 2)] 4 = Ok (Fin 12).
Proof. cbn. do 2 f_equal. nR. lra. Qed.

(** the model on numbers is the same function *)
Theorem C190_numbers : forall (E : Type) (args : list (warg E)) (eq : E),
  combined_measure (T := R) (map (fun a => match a with WFun f => MFun (fun e => Ok (Fin (f e))) | WPair f w => MPair (fun e => Ok (Fin (f e))) w end) args) eq
  = Ok (Fin (weighted_sum args eq)) /\
  weighted_sum args eq = rsum (map (fun a => match a with WFun f => f eq | WPair f w => w * f eq end) args).
Proof.
  intros E args eq. assert (Hw : weighted_sum args eq = rsum (map (fun a => match a with WFun f => f eq | WPair f w => w * f eq end) args)).
  { rewrite OptimiseProofs.weighted_sum_spec. induction args as [|a l IH]; cbn [fold_right map rsum]; [reflexivity|].
    destruct a; rewrite IH; reflexivity. }
  split; [|exact Hw]. rewrite Hw. unfold combined_measure. clear Hw. rewrite map_map.
  assert (G : forall s, foldM (step eq) (map (fun x => add_weight (match x with WFun f => MFun (fun e => Ok (Fin (f e))) | WPair f w => MPair (fun e => Ok (Fin (f e))) w end)) args) (Fin s)
     = Ok (Fin (s + rsum (map (fun a => match a with WFun f => f eq | WPair f w => w * f eq end) args)))).
  { induction args as [|a l IH]; intros s; cbn [map foldM rsum]; [rewrite Rplus_0_r; reflexivity|].
    destruct a; unfold step at 1; cbn [add_weight fst snd bind emul eadd]; rewrite IH; do 2 f_equal; nR; ring. }
  specialize (G 0). unfold step in G. etransitivity; [exact G|]. do 2 f_equal. nR. ring.
Qed.
Print Assumptions C190_numbers.
Example C190_numbers_example : weighted_sum [WFun (fun x => x); WPair (fun x : R => x * x) 2] 3 = 21.
Proof. destruct (C190_numbers R [WFun (fun x => x); WPair (fun x => x * x) 2] 3) as [_ ->]. cbn. lra. Qed.

(** C190 — an infinite penalty with a positive weight makes the sum infinite: with weights that
    are not negative, positive for every measure that is infinite, the sum is +inf exactly when
    some measure is *)
Lemma sum_pinf {E} (eq : E) : forall l s, (s = PInf \/ exists x, s = Fin x) ->
  (forall f w, In (f, w) l -> (exists x, f eq = Ok (Fin x)) \/ (f eq = Ok PInf /\ 0 < w)) ->
  exists r, foldM (step eq) l s = Ok r /\ (r = PInf \/ exists x, r = Fin x) /\
    (r = PInf <-> s = PInf \/ exists f w, In (f, w) l /\ f eq = Ok PInf).
Proof.
  induction l as [|[f w] l IH]; intros s Hs Hl; cbn [foldM].
  - exists s. split; [reflexivity|]. split; [exact Hs|]. split; [auto|]. intros [H|(f & w & [] & _)]. exact H.
  - assert (Hl' : forall f' w', In (f', w') l -> (exists x, f' eq = Ok (Fin x)) \/ (f' eq = Ok PInf /\ 0 < w')) by (intros f' w' Hi; exact (Hl f' w' (or_intror Hi))).
    unfold step at 1. cbn [fst snd]. destruct (Hl f w (or_introl eq_refl)) as [(x & Ex)|(Ex & Hw)]; rewrite Ex; cbn [bind].
    + assert (Hs' : (eadd s (emul (Fin x) w) = PInf \/ exists y, eadd s (emul (Fin x) w) = Fin y) /\ (eadd s (emul (Fin x) w) = PInf <-> s = PInf)).
      { destruct Hs as [->|(y & ->)]; cbn [emul eadd]; (split; [eauto|]); split; (congruence || discriminate). }
      destruct Hs' as [Hs1 Hs2]. destruct (IH _ Hs1 Hl') as (r & Er & Hr & HP). exists r. split; [exact Er|]. split; [exact Hr|].
      rewrite HP, Hs2. split; intros [H|(f' & w' & Hi & H)]; auto.
      * right. exists f', w'. split; [right; exact Hi|exact H].
      * destruct Hi as [Hi|Hi]; [injection Hi as <- <-; congruence|right; exists f', w'; auto].
    + assert (Es : eadd s (emul PInf w) = PInf).
      { cbn [emul]. unfold inf_times. nR. rewrite (proj2 (R_ltb_true 0 w) Hw). destruct Hs as [->|(y & ->)]; reflexivity. }
      rewrite Es. destruct (IH PInf (or_introl eq_refl) Hl') as (r & Er & Hr & HP). exists r. split; [exact Er|]. split; [exact Hr|].
      split; [intros _; right; exists f, w; split; [left; reflexivity|exact Ex]|intros _; apply HP; left; reflexivity].
Qed.
Theorem C190_infinite : forall (E : Type) (args : list (measure_arg E)) (eq : E),
  (forall f w, In (f, w) (map meant args) -> (exists x, f eq = Ok (Fin x)) \/ (f eq = Ok PInf /\ 0 < w)) ->
  exists r, combined_measure args eq = Ok r /\ (r = PInf \/ exists x, r = Fin x) /\
    (r = PInf <-> exists a, In a args /\ fst (meant a) eq = Ok PInf).
Proof.
  intros E args eq H. rewrite combined_eq.
  destruct (sum_pinf eq (map meant args) (Fin 0) (or_intror (ex_intro _ 0 eq_refl)) H) as (r & Er & Hr & HP).
  exists r. split; [exact Er|]. split; [exact Hr|]. rewrite HP. split.
  - intros [Hc|(f & w & Hi & Hf)]; [discriminate|]. apply in_map_iff in Hi. destruct Hi as (a & Ea & Hi). exists a. rewrite Ea. auto.
  - intros (a & Hi & Hf). right. destruct (meant a) as [f w] eqn:Ea. exists f, w. split; [|exact Hf]. rewrite <- Ea. apply in_map, Hi.
Qed.
Print Assumptions C190_infinite.
Example C190_infinite_example : combined_measure [MFun (fun x => Ok (Fin x)); MPair (fun _ => Ok PInf) 2] 3 = Ok PInf.
Proof. cbn. unfold inf_times. nR. rewrite (proj2 (R_ltb_true 0 2)) by lra. reflexivity. Qed.

(** C190 — the first measure that raises decides; the rest are not called *)
Theorem C190_raises : forall (E : Type) pre (a : measure_arg (T := R) E) post (eq : E) x,
  (forall f w, In (f, w) (map meant pre) -> exists v, f eq = Ok v) -> fst (meant a) eq = Raise x ->
  combined_measure (pre ++ a :: post) eq = Raise x.
Proof.
  intros E pre a post eq x Hp Ha. rewrite combined_eq, map_app. cbn [map]. generalize (Fin 0 : ext R). revert Hp. generalize (map meant pre).
  induction l as [|[f w] l IH]; intros Hp s; cbn [app foldM]; unfold step at 1.
  - rewrite Ha. reflexivity.
  - cbn [fst]. destruct (Hp f w (or_introl eq_refl)) as (v & Ev). rewrite Ev. cbn [bind]. apply IH. intros f' w' Hi. exact (Hp f' w' (or_intror Hi)).
Qed.
Print Assumptions C190_raises.
Example C190_raises_example : combined_measure [MFun (fun x : R => Ok (Fin x)); MFun (fun _ => Raise KeyError); MFun (fun _ => Raise ValueError)] 1 = Raise KeyError.
Proof. apply (C190_raises R [MFun (fun x => Ok (Fin x))]); [|reflexivity]. intros f w [H|[]]. injection H as <- _. eexists. reflexivity. Qed.

(** C191 — "a weight of 0 switches a measure off": the infinite measure times 0 is nan *)
Theorem C191_zero_weight_refuted : exists (args : list (measure_arg (T := R) R)) (m : R -> result (ext R)) (eq v : R),
  combined_measure args eq = Ok (Fin v) /\ m eq = Ok PInf /\ combined_measure (args ++ [MPair m 0]) eq = Ok NaN.
Proof.
  exists [MFun (fun x => Ok (Fin x))], (fun _ => Ok PInf), 3, (0 + 3 * 1). split; [reflexivity|]. split; [reflexivity|].
  cbn. unfold inf_times. nR. rewrite !(proj2 (R_ltb_false 0 0)) by lra. reflexivity.
Qed.
Print Assumptions C191_zero_weight_refuted.

(** C191 — what a nan does to the optimiser: a score with which nothing compares (nan) at the start
    is never replaced, so [optimise] returns the starting object whatever the other candidates
    score *)
Section Stuck.
  Context {T : Type} `{Num T} {Obj S : Type}.
  Variables (lt : S -> S -> bool) (measure : Obj -> S * Obj) (controls : list (control T Obj)).
  Lemma init_pop_stuck b (Hb : forall s, lt (fst b) s = false) : forall k obj pop g r pop' g',
    init_pop lt measure controls k obj b pop g = (r, pop', g') -> r = b.
  Proof.
    induction k as [|k IH]; intros obj pop g r pop' g'; cbn [init_pop]; [intros E; injection E; auto|].
    destruct (mutate controls obj g) as [a g1]. cbn zeta. rewrite Hb. apply IH.
  Qed.
  Lemma gen_loop_stuck b (Hb : forall s, lt s (fst b) = false) N CR F population : forall todo ai next g r next' g',
    gen_loop lt measure controls N CR F population ai todo next b g = Ok (r, next', g') -> r = b.
  Proof.
    induction todo as [|a todo IH]; intros ai next g r next' g'; cbn [gen_loop]; [intros E; injection E; auto|].
    destruct (trial controls N CR F population ai a g) as [[new g1]|x]; cbn [bind]; [|discriminate].
    rewrite Hb. destruct (lt (fst (measure new)) (fst a)); apply IH.
  Qed.
  Lemma evolve_stuck b (Hb : forall s, lt s (fst b) = false) N CR F : forall m population g hist final,
    evolve lt measure controls N CR F m b population g = Ok (hist, final) -> final = b.
  Proof.
    induction m as [|m IH]; intros population g hist final; cbn [evolve]; [intros E; injection E; auto|].
    destruct (gen_loop lt measure controls N CR F population 0 population [] b g) as [[[b' next] g']|x] eqn:EG; cbn [bind]; [|discriminate].
    apply (gen_loop_stuck b Hb) in EG. subst b'.
    destruct (evolve lt measure controls N CR F m b next g') as [[h f]|x] eqn:EE; cbn [bind]; [|discriminate].
    intros E. injection E as _ <-. exact (IH _ _ _ _ EE).
  Qed.
End Stuck.
Theorem C191_nan_start : forall (T : Type) (HT : Num T) (V : Type) (HV : Num V) (Obj : Type) (measure : Obj -> ext V * Obj)
    (controls : list (control T Obj)) obj maxgen N CR F (g : rng T) hist final,
  fst (measure obj) = NaN -> optimise eltb measure controls obj maxgen N CR F g = Ok (hist, final) ->
  final = measure obj.
Proof.
  intros T HT V HV Obj measure controls obj maxgen N CR F g hist final Hn. unfold optimise. destruct (4 <=? N)%nat; [|discriminate].
  destruct (init_pop eltb measure controls (N - 1) (snd (measure obj)) (measure obj) [measure obj] g) as [[best pop] g1] eqn:EI.
  assert (Eb : best = measure obj) by (apply (init_pop_stuck eltb measure controls (measure obj)) in EI; [exact EI|intros s; rewrite Hn; reflexivity]). subst best.
  destruct (evolve eltb measure controls N CR F maxgen (measure obj) pop g1) as [[h f]|x] eqn:EE; cbn [bind]; [|discriminate].
  intros E. injection E as _ <-. apply (evolve_stuck eltb measure controls (measure obj)) in EE; [exact EE|].
  intros s. rewrite Hn. destruct s; reflexivity.
Qed.
Print Assumptions C191_nan_start.
(** so there is a run in which every candidate but the first scores 0 and the first, with a nan, is
    returned *)
Definition nan_meas (o : Q * Q) : ext Q * (Q * Q) := (if Qeq_bool (fst o) 1 then NaN else Fin 0%Q, o).
Theorem C191_nan_returned_refuted : exists hist final a,
  optimise eltb nan_meas [demo_cx; demo_cy] (1, 1)%Q 2 5 (1 # 2)%Q 1%Q demo_tape = Ok (hist, final) /\
  final = nan_meas (1, 1)%Q /\ fst final = NaN /\ In a (flat_map snd hist) /\ fst a = Fin 0%Q.
Proof.
  eexists _, _, _. split; [vm_compute; reflexivity|]. split; [vm_compute; reflexivity|]. split; [reflexivity|]. split; [right; left; reflexivity|reflexivity].
Qed.
Print Assumptions C191_nan_returned_refuted.
