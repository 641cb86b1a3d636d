(** C239: what the generations of the optimiser cannot change (optimiser.py 131-166). *)
From Coq Require Import List Arith ZArith QArith Bool Reals Lra Lia.
From Verif Require Import Py Num Optimiser OptimiserProofs PropMutate.
Import ListNotations.
Open Scope nat_scope.

(** ** Proofs *)
Section Frozen.
  Context {T : Type} `{Num T} {Obj Sc X : Type}.
  Variables (score_lt : Sc -> Sc -> bool) (measure : Obj -> Sc * Obj) (controls : list (control T Obj)).
  Variables (CR F : T) (N : nat) (good : Obj -> Prop).
  Notation agent := (Sc * Obj)%type.
  Hypothesis Hm : forall o, good o -> good (snd (measure o)).
  (** a trial made of good agents is good *)
  Hypothesis Ht : forall (pop : list agent) ai a g new g', Forall (fun p => good (snd p)) pop -> good (snd a) ->
    trial controls N CR F pop ai a g = Ok (new, g') -> good new.

  Lemma gen_good (pop : list agent) : Forall (fun p => good (snd p)) pop ->
    forall todo ai next best g best' next' g', Forall (fun p => good (snd p)) todo -> Forall (fun p => good (snd p)) next -> good (snd best) ->
    gen_loop score_lt measure controls N CR F pop ai todo next best g = Ok (best', next', g') ->
    good (snd best') /\ Forall (fun p => good (snd p)) next'.
  Proof.
    intros Hp. induction todo as [|a todo IH]; intros ai next best g best' next' g' Htd Hn Hb E; cbn [gen_loop] in E.
    - injection E as <- <- _. split; assumption.
    - inversion Htd as [|? ? Ha Htd']; subst.
      destruct (trial controls N CR F pop ai a g) as [[new g1]|] eqn:ET; cbn [bind] in E; [|discriminate].
      assert (Hnew := Hm _ (Ht _ _ _ _ _ _ Hp Ha ET)).
      destruct (score_lt (fst (measure new)) (fst a)).
      + apply IH in E; [exact E|exact Htd'|apply Forall_app; split; [exact Hn|repeat constructor; exact Hnew]|].
        destruct (score_lt (fst (measure new)) (fst best)); assumption.
      + apply IH in E; [exact E|exact Htd'|apply Forall_app; split; [exact Hn|repeat constructor; exact Ha]|exact Hb].
  Qed.
  Lemma evolve_good maxgen : forall best (pop : list agent) g hist final, good (snd best) -> Forall (fun p => good (snd p)) pop ->
    evolve score_lt measure controls N CR F maxgen best pop g = Ok (hist, final) ->
    good (snd final) /\ Forall (fun bp => good (snd (fst bp)) /\ Forall (fun p => good (snd p)) (snd bp)) hist.
  Proof.
    induction maxgen as [|n IH]; intros best pop g hist final Hb Hp E; cbn [evolve] in E.
    - injection E as <- <-. split; [exact Hb|constructor].
    - destruct (gen_loop _ _ _ _ _ _ _ _ _ _ _ _) as [[[best' next] g']|] eqn:EG; cbn [bind] in E; [|discriminate].
      destruct (evolve _ _ _ _ _ _ n best' next g') as [[h f]|] eqn:EE; cbn [bind] in E; [|discriminate].
      injection E as <- <-. destruct (gen_good pop Hp pop 0 [] best g best' next g' Hp (Forall_nil _) Hb EG) as (Hb' & Hn).
      destruct (IH _ _ _ _ _ Hb' Hn EE) as (Hf & Hh). split; [exact Hf|]. constructor; [split; assumption|exact Hh].
  Qed.
End Frozen.

Lemma trial_objects {T} `{Num T} {Obj Sc} (controls : list (control T Obj)) N CR F (pop : list (Sc * Obj)) ai a g new g' :
  trial controls N CR F pop ai a g = Ok (new, g') ->
  exists p0 p1 p2 R g2, In p0 pop /\ In p1 pop /\ In p2 pop /\
    new = fst (apply_controls R 0 CR F (snd p0) (snd p1) (snd p2) controls (snd a) g2).
Proof.
  intros E. unfold trial in E. destruct (pickUnique N 3 [ai] g) as [[idx g1]|ex]; cbn [bind] in E; [|discriminate].
  assert (HM : forall l r, mapM (fun i => match nth_error pop i with Some p => Ok (snd p) | None => Raise IndexError end) l = Ok r ->
    Forall (fun o => exists p, In p pop /\ o = snd p) r).
  { induction l as [|i l IH]; intros r Er; cbn [mapM] in Er; [injection Er as <-; constructor|].
    destruct (nth_error pop i) as [p|] eqn:Ep; cbn [bind] in Er; [|discriminate].
    destruct (mapM _ l) as [r'|]; cbn [bind] in Er; [|discriminate]. injection Er as <-.
    constructor; [exists p; split; [exact (nth_error_In _ _ Ep)|reflexivity]|apply IH; reflexivity]. }
  destruct (mapM _ idx) as [others|ex] eqn:EM; cbn [bind] in E; [|discriminate]. apply HM in EM.
  destruct others as [|o0 [|o1 [|o2 [|]]]]; try discriminate E.
  inversion EM as [|? ? (p0 & I0 & ->) EM1]; subst. inversion EM1 as [|? ? (p1 & I1 & ->) EM2]; subst. inversion EM2 as [|? ? (p2 & I2 & ->) _]; subst.
  destruct (randint (length controls - 1) g1) as [[R0 g2]|ex]; cbn [bind] in E; [|discriminate]. injection E as E.
  exists p0, p1, p2, R0, g2. repeat (split; [assumption|]). rewrite E. reflexivity.
Qed.

(** ** C239 *)
(** A control with the same value in all agents keeps it in every generation and in the result: the
    differences that drive the evolution vanish. *)
Theorem C239_same_value : forall (Obj Sc : Type) (score_lt : Sc -> Sc -> bool) measure (cs cs2 : list (control R Obj)) c
    N CR F maxgen best (pop : list (Sc * Obj)) (g : rng R) hist final v,
  reads_back c -> (forall c', In c' (cs ++ cs2) -> leaves c' c) -> (forall o, cget c (snd (measure o)) = cget c o) ->
  cget c (snd best) = v -> Forall (fun p => cget c (snd p) = v) pop ->
  evolve score_lt measure (cs ++ c :: cs2) N CR F maxgen best pop g = Ok (hist, final) ->
  cget c (snd final) = v /\ Forall (fun bp => cget c (snd (fst bp)) = v /\ Forall (fun p => cget c (snd p) = v) (snd bp)) hist.
Proof.
  intros Obj Sc score_lt measure cs cs2 c N CR F maxgen best pop g hist final v Hc Hl Hm Hb Hp E.
  refine (evolve_good score_lt measure (cs ++ c :: cs2) CR F N (fun o => cget c o = v) _ _ maxgen best pop g hist final Hb Hp E).
  - intros o Ho. rewrite Hm. exact Ho.
  - intros pop0 ai a g0 new g' Hp0 Ha ET. rewrite Forall_forall in Hp0.
    destruct (trial_objects _ _ _ _ _ _ _ _ _ _ ET) as (p0 & p1 & p2 & R0 & g2 & I0 & I1 & I2 & ->).
    destruct (apply_value R0 CR F (snd p0) (snd p1) (snd p2) c cs2 Hc ltac:(intros c' Hi; apply Hl, in_or_app; right; exact Hi) cs 0 (snd a) g2) as (_ & H2 & _).
    destruct H2 as [->| ->]; [intros c' Hi; apply Hl, in_or_app; left; exact Hi| |exact Ha].
    unfold combined. rewrite (Hp0 p0 I0), (Hp0 p1 I1), (Hp0 p2 I2). nR. ring.
Qed.
Print Assumptions C239_same_value.

(** What no control and no measurement changes is the same in the result of optimise as in the object
    given to it, and in all agents. *)
Theorem C239_untouched : forall (T : Type) (N0 : Num T) (Obj Sc X : Type) (score_lt : Sc -> Sc -> bool) measure (controls : list (control T Obj))
    (look : Obj -> X) obj maxgen N CR F (g : rng T) hist final,
  (forall c o v, In c controls -> look (cset c o v) = look o) -> (forall o, look (snd (measure o)) = look o) ->
  optimise score_lt measure controls obj maxgen N CR F g = Ok (hist, final) ->
  look (snd final) = look obj /\ Forall (fun bp => look (snd (fst bp)) = look obj /\ Forall (fun p => look (snd p) = look obj) (snd bp)) hist.
Proof.
  intros T N0 Obj Sc X score_lt measure controls look obj maxgen N CR F g hist final Hs Hm E.
  assert (Hmut : forall o h, look (fst (mutate controls o h)) = look o).
  { intros o h. unfold mutate. assert (K : forall l st, (forall c, In c l -> In c controls) -> look (fst (fold_left (fun st c => mutate_one o c st) l st)) = look (fst st)).
    { induction l as [|c l IH]; intros st Hin; [reflexivity|]. cbn [fold_left]. rewrite IH by (intros c' Hc'; apply Hin; right; exact Hc').
      destruct st as [new h1]. unfold mutate_one, random_uniform, random_normal. cbn [fst].
      match goal with |- context [if ?b then _ else _] => destruct b end; apply Hs, Hin; left; reflexivity. }
    apply (K controls (o, h)). intros c Hc. exact Hc. }
  unfold optimise in E. destruct (4 <=? N); [|discriminate].
  set (good := fun o => look o = look obj).
  assert (Hinit : forall k o best pop h, good o -> good (snd best) -> Forall (fun p => good (snd p)) pop ->
    good (snd (fst (fst (init_pop (S := Sc) score_lt measure controls k o best pop h)))) /\
    Forall (fun p => good (snd p)) (snd (fst (init_pop (S := Sc) score_lt measure controls k o best pop h)))).
  { induction k as [|k IH]; intros o best pop h Ho Hb Hp; cbn [init_pop]; [split; assumption|].
    assert (Ha := Hmut o h). destruct (mutate controls o h) as [a g1]. cbn [fst] in Ha.
    assert (Hsa : good (snd (measure a))) by (unfold good; rewrite Hm, Ha; exact Ho).
    apply IH; [exact Ho| |apply Forall_app; split; [exact Hp|repeat constructor; exact Hsa]].
    destruct (score_lt (fst best) (fst (measure a))); assumption. }
  assert (H0 : good (snd (measure obj))) by (unfold good; apply Hm).
  specialize (Hinit (N - 1) (snd (measure obj)) (measure obj) [measure obj] g H0 H0 ltac:(repeat constructor; exact H0)).
  destruct (init_pop score_lt measure controls (N - 1) (snd (measure obj)) (measure obj) [measure obj] g) as [[best pop] g1]. cbn [fst snd] in Hinit. destruct Hinit as (Hb & Hp).
  destruct (evolve score_lt measure controls N CR F maxgen best pop g1) as [[h f]|] eqn:EE; cbn [bind] in E; [|discriminate]. injection E as <- <-.
  destruct (evolve_good score_lt measure controls CR F N good ltac:(intros o Ho; unfold good; rewrite Hm; exact Ho)) with (maxgen := maxgen) (best := best) (pop := pop) (g := g1) (hist := h) (final := f) as (Hf & Hh); try assumption.
  - intros pop0 ai a g0 new g' _ Ha ET. destruct (trial_objects _ _ _ _ _ _ _ _ _ _ ET) as (p0 & p1 & p2 & R0 & g2 & _ & _ & _ & ->).
    assert (K : forall l i o h0, (forall c, In c l -> In c controls) -> look (fst (apply_controls R0 i CR F (snd p0) (snd p1) (snd p2) l o h0)) = look o).
    { induction l as [|c l IH]; intros i o h0 Hin; [reflexivity|]. cbn [apply_controls].
      destruct (if i =? R0 then (true, h0) else let (u, g'0) := random_uniform h0 in (nltb u CR, g'0)) as [go h1].
      rewrite IH by (intros c' Hc'; apply Hin; right; exact Hc'). destruct go; [apply Hs, Hin; left; reflexivity|reflexivity]. }
    unfold good. rewrite K by (intros c Hc; exact Hc). exact Ha.
  - split; [exact Hf|]. constructor; [split; assumption|exact Hh].
Qed.
Print Assumptions C239_untouched.

(** Pairs of numbers with two controls of the first, measured by the first: the second stays. *)
Definition dq : control Q (Q * Q) := MkControl (fun o => fst o + 1)%Q (fun o v => (v - 1, snd o)%Q).
Example C239_example :
  (forall c o v, In c [fq; dq] -> snd (cset c o v) = snd o) /\
  (exists hist final, optimise (fun a b => nltb a b) (fun o => (fst o * fst o, o)%Q) [fq; dq] (3, 7)%Q 2 4 (1 # 2)%Q 1%Q tapeQ = Ok (hist, final)) /\
  reads_back sndc /\ leaves fstc sndc.
Proof.
  split; [intros c o v [<-|[<-|[]]]; reflexivity|]. split; [|split; [intros o v; reflexivity|intros o v; reflexivity]].
  match goal with |- exists _ _, ?e = _ => assert (K : is_ok e = true) by (vm_compute; reflexivity); destruct e as [[h f]|] end; [exists h, f; reflexivity|discriminate K].
Qed.
