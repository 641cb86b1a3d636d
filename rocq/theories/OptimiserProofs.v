(** Lemmas about the model of freegs/optimiser.py. *)
From Coq Require Import List Arith ZArith QArith Bool Lia Permutation Sorting.Sorted.
From Verif Require Import Py Num Optimiser.
Import ListNotations.
Close Scope Q_scope.

(** * Sorted insertion *)
Lemma insort_perm x l : Permutation (insort x l) (x :: l).
Proof.
  induction l as [|y l IH]; cbn [insort]; [reflexivity|].
  destruct (x <? y); [reflexivity|].
  rewrite IH. apply perm_swap.
Qed.
Lemma sorted_perm l : Permutation (sorted l) l.
Proof.
  induction l as [|y l IH]; [reflexivity|].
  change (sorted (y :: l)) with (insort y (sorted l)). rewrite insort_perm. auto.
Qed.
Lemma insort_sorted x l :
  StronglySorted lt l -> ~ In x l -> StronglySorted lt (insort x l).
Proof.
  induction l as [|y l IH]; intros Hs Hx; cbn [insort].
  - constructor; constructor.
  - apply StronglySorted_inv in Hs as [Hs Hf].
    destruct (Nat.ltb_spec x y) as [Hlt|Hge].
    + constructor; [constructor; assumption|].
      constructor; [assumption|]. eapply Forall_impl; [|exact Hf]. simpl; lia.
    + assert (Hxy : x <> y) by (intros ->; apply Hx; left; reflexivity).
      constructor; [apply IH; [assumption|intros Hi; apply Hx; right; assumption]|].
      apply Forall_forall. intros z Hz. rewrite insort_perm in Hz. destruct Hz as [<-|Hz]; [lia|].
      rewrite Forall_forall in Hf. auto.
Qed.
Lemma sorted_sorted l : NoDup l -> StronglySorted lt (sorted l).
Proof.
  induction 1 as [|x l Hx Hnd IH]; [constructor|].
  change (sorted (x :: l)) with (insort x (sorted l)).
  apply insort_sorted; [assumption|]. rewrite sorted_perm. assumption.
Qed.
Lemma strongly_sorted_nodup l : StronglySorted lt l -> NoDup l.
Proof.
  induction l as [|x l IH]; intros Hs; [constructor|].
  apply StronglySorted_inv in Hs as [Hs Hf]. constructor; [|auto].
  rewrite Forall_forall in Hf. intros Hi. specialize (Hf x Hi). lia.
Qed.

(** * Stepping over clashes *)
Lemma bump_spec inds : forall v,
  StronglySorted lt inds ->
  v <= bump v inds /\ ~ In (bump v inds) inds /\
  (forall x, v <= x < bump v inds -> In x inds).
Proof.
  induction inds as [|a l IH]; intros v Hs; cbn [bump].
  - repeat split; [lia|auto|intros; lia].
  - apply StronglySorted_inv in Hs as [Hs Hf]. rewrite Forall_forall in Hf.
    destruct (Nat.eqb_spec v a) as [->|Hva].
    + destruct (IH (S a) Hs) as (H1 & H2 & H3). repeat split; [lia| |].
      * intros [He|Hi]; [lia|auto].
      * intros x Hx. destruct (Nat.eq_dec x a) as [->|Hxa]; [left; reflexivity|].
        right. apply H3. lia.
    + destruct (IH v Hs) as (H1 & H2 & H3). repeat split; [lia| |].
      * intros [He|Hi]; [|auto].
        destruct (Nat.eq_dec (bump v l) v) as [E|E]; [lia|].
        assert (Hin : In v l) by (apply H3; lia).
        specialize (Hf v Hin). lia.
      * intros x Hx. right. apply H3. lia.
Qed.
Lemma bump_le v inds :
  StronglySorted lt inds -> bump v inds <= v + length inds.
Proof.
  intros Hs. destruct (bump_spec inds v Hs) as (H1 & H2 & H3).
  assert (Hl : length (seq v (bump v inds - v)) <= length inds).
  { apply NoDup_incl_length; [apply seq_NoDup|].
    intros x Hx. apply in_seq in Hx. apply H3. lia. }
  rewrite seq_length in Hl. lia.
Qed.

(** * pickUnique *)
Lemma pick_loop_spec {T} N len_e : forall fuel i inds others (g : rng T),
  StronglySorted lt inds -> length inds = len_e + i ->
  (forall x, In x inds -> x < N) -> len_e + i + fuel <= N ->
  exists l g', pick_loop N len_e i fuel inds others g = Ok (others ++ l, g') /\
    length l = fuel /\ NoDup l /\
    forall x, In x l -> x < N /\ ~ In x inds /\ (len_e + i + fuel < N -> S x < N).
Proof.
  induction fuel as [|fuel IH]; intros i inds others g Hs Hlen Hlt Hle.
  - exists [], g. cbn. rewrite app_nil_r. repeat split; [constructor|contradiction..].
  - cbn [pick_loop]. set (high := N - 1 - i - len_e).
    assert (Hv : exists v g1, (if 0 <? high then randint high g else Ok (0, g)) = Ok (v, g1)
                 /\ (0 < high -> v < high) /\ (high = 0 -> v = 0)).
    { destruct (Nat.ltb_spec 0 high) as [Hh|Hh].
      - destruct high as [|h]; [lia|]. eexists _, _. split; [reflexivity|]. split; [|lia].
        intros _. apply Nat.mod_upper_bound. lia.
      - exists 0, g. split; [reflexivity|]. lia. }
    destruct Hv as (v & g1 & -> & Hv1 & Hv2). cbn [bind].
    destruct (bump_spec inds v Hs) as (B1 & B2 & B3).
    pose proof (bump_le v inds Hs) as B4. set (w := bump v inds) in *.
    assert (Hw : w < N) by (unfold high in *; lia).
    assert (Hw' : len_e + i + S fuel < N -> S w < N) by (unfold high in *; lia).
    destruct (IH (S i) (insort w inds) (others ++ [w]) g1) as (l & g' & E & L & ND & P).
    + apply insort_sorted; assumption.
    + rewrite (Permutation_length (insort_perm w inds)). cbn. lia.
    + intros x Hx. rewrite insort_perm in Hx. destruct Hx as [<-|Hx]; [exact Hw|auto].
    + lia.
    + exists (w :: l), g'. rewrite E, <- app_assoc. split; [reflexivity|].
      split; [cbn; lia|]. split.
      * constructor; [|assumption]. intros Hi. destruct (P w Hi) as (_ & Hn & _).
        apply Hn. rewrite insort_perm. left. reflexivity.
      * intros x [<-|Hx]; [auto|]. destruct (P x Hx) as (P1 & P2 & P3).
        split; [assumption|]. split; [|intros; apply P3; lia].
        intros Hi. apply P2. rewrite insort_perm. right. assumption.
Qed.

Lemma pickUnique_spec {T} N m e (g : rng T) :
  NoDup e -> (forall x, In x e -> x < N) -> m + length e <= N ->
  exists l g', pickUnique N m e g = Ok (l, g') /\ length l = m /\ NoDup l /\
    forall x, In x l -> x < N /\ ~ In x e /\ (m + length e < N -> S x < N).
Proof.
  intros Hnd Hlt Hle. unfold pickUnique.
  destruct (Nat.leb_spec (m + length e) N) as [_|Hc]; [|lia].
  destruct (pick_loop_spec N (length e) m 0 (sorted e) [] g) as (l & g' & E & L & ND & P).
  - apply sorted_sorted; assumption.
  - rewrite (Permutation_length (sorted_perm e)). lia.
  - intros x Hx. rewrite sorted_perm in Hx. auto.
  - lia.
  - exists l, g'. split; [exact E|]. split; [exact L|]. split; [exact ND|].
    intros x Hx. destruct (P x Hx) as (P1 & P2 & P3). split; [exact P1|]. split.
    + intros Hi. apply P2. rewrite sorted_perm. exact Hi.
    + intros Hc. apply P3. lia.
Qed.
Lemma pickUnique_rejects {T} N m e (g : rng T) :
  N < m + length e -> pickUnique N m e g = Raise AssertionError.
Proof.
  intros Hc. unfold pickUnique. destruct (Nat.leb_spec (m + length e) N); [lia|reflexivity].
Qed.

Lemma last_cons {A} (l : list A) : forall a d, last (a :: l) d = last l a.
Proof.
  induction l as [|b l IH]; intros a d; [reflexivity|].
  change (last (a :: b :: l) d) with (last (b :: l) d). rewrite !IH. reflexivity.
Qed.

(** * Differential evolution *)
Section DE.
  Context {T : Type} `{Num T} {Obj Sc : Type}.
  Variable score_lt : Sc -> Sc -> bool.
  Variable measure : Obj -> Sc * Obj.
  Variable controls : list (control T Obj).
  Hypothesis lt_irrefl : forall a, score_lt a a = false.
  Hypothesis lt_trans : forall a b c, score_lt a b = true -> score_lt b c = true -> score_lt a c = true.
  Hypothesis ge_trans : forall a b c, score_lt a b = false -> score_lt b c = false -> score_lt a c = false.

  Notation agent := (Sc * Obj)%type.
  Notation trial := (Optimiser.trial controls).

  Lemma lt_asym a b : score_lt a b = true -> score_lt b a = false.
  Proof.
    intros Hab. destruct (score_lt b a) eqn:E; [|reflexivity].
    pose proof (lt_trans _ _ _ Hab E) as Hc. rewrite lt_irrefl in Hc. discriminate.
  Qed.

  Lemma init_pop_spec : forall k obj best (pop : list agent) (g : rng T) best' pop' g',
    init_pop score_lt measure controls k obj best pop g = (best', pop', g') ->
    In best pop -> (forall a, In a pop -> score_lt (fst best) (fst a) = false) ->
    exists l, pop' = pop ++ l /\ length l = k /\
      (forall a, In a l -> exists o, a = measure o) /\
      In best' pop' /\ (forall a, In a pop' -> score_lt (fst best') (fst a) = false).
  Proof.
    induction k as [|k IH]; intros obj best pop g best' pop' g' E Hin Hmax; cbn [init_pop] in E.
    - injection E as <- <- <-. exists []. rewrite app_nil_r. repeat split; auto. contradiction.
    - destruct (mutate controls obj g) as [a g1].
      apply IH in E.
      + destruct E as (l & -> & L & P & Q1 & Q2). exists (measure a :: l).
        rewrite <- app_assoc in *. cbn [app] in *. split; [reflexivity|]. split; [cbn; lia|].
        split; [|split; assumption]. intros b [<-|Hb]; [exists a; reflexivity|auto].
      + destruct (score_lt (fst best) (fst (measure a))); apply in_or_app; [right; left; reflexivity|left; assumption].
      + intros b Hb. apply in_app_or in Hb. destruct (score_lt (fst best) (fst (measure a))) eqn:E1.
        * destruct Hb as [Hb|[<-|[]]]; [|apply lt_irrefl].
          apply (ge_trans _ (fst best)); [apply lt_asym; assumption|auto].
        * destruct Hb as [Hb|[<-|[]]]; auto.
  Qed.

  (** What one generation does to one slot. *)
  Definition slot_step (old new : agent) : Prop :=
    new = old \/ (score_lt (fst new) (fst old) = true /\ exists o, new = measure o).

  Lemma gen_loop_spec N CR F pop : forall todo ai next best (g : rng T) best' next' g',
    gen_loop score_lt measure controls N CR F pop ai todo next best g = Ok (best', next', g') ->
    exists l, next' = next ++ l /\ Forall2 slot_step todo l /\
      (best' = best \/ (In best' l /\ score_lt (fst best') (fst best) = true)) /\
      (forall a, In a l -> In a todo \/ score_lt (fst a) (fst best') = false).
  Proof.
    induction todo as [|a todo IH]; intros ai next best g best' next' g' E; cbn [gen_loop] in E.
    - injection E as <- <- <-. exists []. rewrite app_nil_r. repeat split; auto.
    - destruct (trial N CR F pop ai a g) as [[new g1]|ex]; cbn [bind] in E; [|discriminate].
      set (sn := measure new) in *.
      destruct (score_lt (fst sn) (fst a)) eqn:Ea.
      + set (best1 := if score_lt (fst sn) (fst best) then sn else best) in *.
        apply IH in E. destruct E as (l & -> & F2 & Hb & Hl).
        exists (sn :: l). rewrite <- app_assoc. split; [reflexivity|]. split.
        { constructor; [|assumption]. right. split; [assumption|]. exists new. reflexivity. }
        assert (Hb1 : score_lt (fst sn) (fst best1) = false).
        { unfold best1. destruct (score_lt (fst sn) (fst best)) eqn:E2; [apply lt_irrefl|assumption]. }
        assert (Hbb : best1 = best \/ best1 = sn /\ score_lt (fst sn) (fst best) = true).
        { unfold best1. destruct (score_lt (fst sn) (fst best)) eqn:E2; auto. }
        split.
        * destruct Hb as [->|[Hi Hlt]].
          -- destruct Hbb as [->|[-> Hlt]]; [left; reflexivity|right; split; [left; reflexivity|assumption]].
          -- right. split; [right; assumption|].
             destruct Hbb as [E1|[E1 Hlt1]]; rewrite E1 in Hlt; [assumption|eauto].
        * intros b [<-|Hi].
          -- right. destruct Hb as [->|[_ Hlt]]; [assumption|].
             apply (ge_trans _ (fst best1)); [assumption|]. apply lt_asym. assumption.
          -- destruct (Hl b Hi); [left; right; assumption|right; assumption].
      + apply IH in E. destruct E as (l & -> & F2 & Hb & Hl).
        exists (a :: l). rewrite <- app_assoc. split; [reflexivity|]. split.
        { constructor; [left; reflexivity|assumption]. }
        split.
        * destruct Hb as [->|[Hi Hlt]]; [left; reflexivity|right; split; [right; assumption|assumption]].
        * intros b [<-|Hi]; [left; left; reflexivity|].
          destruct (Hl b Hi); [left; right; assumption|right; assumption].
  Qed.

  Lemma slot_step_noninc old new : slot_step old new -> score_lt (fst old) (fst new) = false.
  Proof. intros [->|[Hlt _]]; [apply lt_irrefl|apply lt_asym; assumption]. Qed.

  (** Relation between consecutive snapshots (best, population). *)
  Definition gen_step (s s' : agent * list agent) : Prop :=
    Forall2 slot_step (snd s) (snd s') /\
    score_lt (fst (fst s)) (fst (fst s')) = false.

  (** Consecutive elements of a list satisfy [P]. *)
  Fixpoint chain {A} (P : A -> A -> Prop) (a : A) (l : list A) : Prop :=
    match l with [] => True | b :: l' => P a b /\ chain P b l' end.

  Lemma Forall2_slot_in l1 : forall l2 a, Forall2 slot_step l1 l2 -> In a l2 ->
    In a l1 \/ exists o, a = measure o.
  Proof.
    induction l1 as [|x l1 IH]; intros l2 a F2 Hi; inversion F2 as [|y z l1' l2' Hs F2']; subst;
      [contradiction|].
    destruct Hi as [<-|Hi].
    - destruct Hs as [->|[_ Ho]]; [left; left; reflexivity|right; assumption].
    - destruct (IH _ _ F2' Hi); [left; right; assumption|right; assumption].
  Qed.

  (** Invariant carried through the generations. *)
  Definition pop_inv (pop0 : list agent) (s : agent * list agent) : Prop :=
    length (snd s) = length pop0 /\
    (forall a, In a (fst s :: snd s) -> exists o, a = measure o) /\
    (forall a, In a (snd s) -> In a pop0 \/ score_lt (fst a) (fst (fst s)) = false).

  Lemma Forall2_slot_len l1 l2 : Forall2 slot_step l1 l2 -> length l1 = length l2.
  Proof. induction 1; cbn; congruence. Qed.

  Lemma evolve_spec N CR F pop0 : forall maxgen best pop (g : rng T) hist final,
    evolve score_lt measure controls N CR F maxgen best pop g = Ok (hist, final) ->
    pop_inv pop0 (best, pop) ->
    length hist = maxgen /\ chain gen_step (best, pop) hist /\
    Forall (pop_inv pop0) hist /\ final = fst (last hist (best, pop)).
  Proof.
    induction maxgen as [|m IH]; intros best pop g hist final E Hinv; cbn [evolve] in E.
    - injection E as <- <-. repeat split; constructor.
    - destruct (gen_loop score_lt measure controls N CR F pop 0 pop [] best g)
        as [[[best' next] g']|ex] eqn:EG; cbn [bind] in E; [|discriminate].
      destruct (evolve score_lt measure controls N CR F m best' next g')
        as [[hist' final']|ex] eqn:EE; cbn [bind] in E; [|discriminate].
      injection E as <- <-.
      apply gen_loop_spec in EG. destruct EG as (l & E1 & F2 & Hb & Hl). cbn [app] in E1. subst next.
      destruct Hinv as (I1 & I2 & I3). cbn [fst snd] in *.
      assert (Hnb : score_lt (fst best) (fst best') = false).
      { destruct Hb as [->|[_ Hlt]]; [apply lt_irrefl|apply lt_asym; assumption]. }
      assert (Hinv' : pop_inv pop0 (best', l)).
      { repeat split; cbn [fst snd].
        - rewrite <- (Forall2_slot_len _ _ F2). assumption.
        - assert (Hin : forall a, In a l -> exists o, a = measure o).
          { intros a Ha. destruct (Forall2_slot_in _ _ a F2 Ha) as [Ha'|Ho]; [|assumption].
            apply I2. right. assumption. }
          intros a [<-|Ha]; [|auto].
          destruct Hb as [->|[Hi _]]; [apply I2; left; reflexivity|auto].
        - intros a Ha. destruct (Hl a Ha) as [Ht|Hlt]; [|right; assumption].
          destruct (I3 a Ht) as [Hp|Hlt]; [left; assumption|right].
          apply (ge_trans _ (fst best)); assumption. }
      apply IH in EE; [|assumption]. destruct EE as (L & C & FI & Fin).
      split; [cbn; lia|]. split; [|split].
      + cbn [chain]. split; [split; assumption|assumption].
      + constructor; assumption.
      + rewrite Fin, last_cons. reflexivity.
  Qed.

  Lemma optimise_spec obj maxgen N CR F (g : rng T) hist final :
    optimise score_lt measure controls obj maxgen N CR F g = Ok (hist, final) ->
    exists best0 pop0 rest, hist = (best0, pop0) :: rest /\
      length pop0 = N /\ length rest = maxgen /\
      hd_error pop0 = Some (measure obj) /\
      In best0 pop0 /\ (forall a, In a pop0 -> score_lt (fst best0) (fst a) = false) /\
      Forall (pop_inv pop0) hist /\ chain gen_step (best0, pop0) rest /\
      final = fst (last hist (best0, pop0)).
  Proof.
    unfold optimise. intros E. destruct (Nat.leb_spec 4 N) as [HN|HN]; [|discriminate].
    destruct (init_pop score_lt measure controls (N - 1) (snd (measure obj)) (measure obj)
                [measure obj] g) as [[best0 pop0] g1] eqn:EI.
    destruct (evolve score_lt measure controls N CR F maxgen best0 pop0 g1)
      as [[rest final']|ex] eqn:EE; cbn [bind] in E; [|discriminate].
    injection E as <- <-.
    apply init_pop_spec in EI.
    - destruct EI as (l & -> & L & P & Q1 & Q2).
      set (pop0 := [measure obj] ++ l) in *.
      assert (Hm : forall a, In a pop0 -> exists o, a = measure o).
      { intros a [<-|Ha]; [exists obj; reflexivity|auto]. }
      assert (Hinv : pop_inv pop0 (best0, pop0)).
      { repeat split; cbn [fst snd]; auto. intros a [<-|Ha]; auto. }
      apply (evolve_spec _ _ _ pop0) in EE; [|assumption]. destruct EE as (EL & C & FI & Fin).
      exists best0, pop0, rest. split; [reflexivity|].
      split; [unfold pop0; cbn [app length]; rewrite L; lia|]. split; [exact EL|]. split; [reflexivity|].
      split; [exact Q1|]. split; [exact Q2|]. split; [constructor; assumption|].
      split; [exact C|]. rewrite Fin, last_cons. reflexivity.
    - left; reflexivity.
    - intros a [<-|[]]. apply lt_irrefl.
  Qed.

  (** Totality: with at least two controls nothing is raised. *)
  Lemma trial_total N CR F (pop : list agent) ai (a : agent) (g : rng T) :
    2 <= length controls -> 4 <= N -> length pop = N -> ai < N ->
    exists r, trial N CR F pop ai a g = Ok r.
  Proof.
    intros Hc HN Hp Ha. unfold Optimiser.trial.
    destruct (pickUnique_spec N 3 [ai] g) as (l & g1 & -> & L & ND & P).
    - constructor; [intros []|constructor].
    - intros x [<-|[]]. assumption.
    - cbn; lia.
    - cbn [bind]. destruct l as [|i0 [|i1 [|i2 [|]]]]; try discriminate L.
      assert (Hn : forall i, In i [i0;i1;i2] -> exists p, nth_error pop i = Some p).
      { intros i Hi. destruct (P i Hi) as (Hi' & _).
        destruct (nth_error pop i) as [p|] eqn:En; [eauto|]. apply nth_error_None in En. lia. }
      destruct (Hn i0) as [p0 E0]; [cbn; auto|].
      destruct (Hn i1) as [p1 E1]; [cbn; auto|].
      destruct (Hn i2) as [p2 E2]; [cbn; auto|].
      cbn [mapM]. rewrite E0, E1, E2. cbn [bind].
      destruct (length controls - 1) as [|h] eqn:Eh; [lia|]. cbn [randint bind]. eauto.
  Qed.

  Lemma gen_loop_total N CR F pop : forall todo ai next best (g : rng T),
    2 <= length controls -> 4 <= N -> length pop = N -> ai + length todo <= N ->
    exists r, gen_loop score_lt measure controls N CR F pop ai todo next best g = Ok r.
  Proof.
    induction todo as [|a todo IH]; intros ai next best g Hc HN Hp Hl; cbn [gen_loop]; [eauto|].
    cbn [length] in Hl.
    destruct (trial_total N CR F pop ai a g) as [[new g1] E]; [lia..|]. rewrite E. cbn [bind].
    destruct (score_lt (fst (measure new)) (fst a)); apply IH; lia.
  Qed.

  Lemma evolve_total N CR F : forall maxgen best pop (g : rng T),
    2 <= length controls -> 4 <= N -> length pop = N ->
    exists r, evolve score_lt measure controls N CR F maxgen best pop g = Ok r.
  Proof.
    induction maxgen as [|m IH]; intros best pop g Hc HN Hp; cbn [evolve]; [eauto|].
    destruct (gen_loop_total N CR F pop pop 0 [] best g) as [[[b n] g'] E]; [lia..|].
    rewrite E. cbn [bind].
    apply gen_loop_spec in E. destruct E as (l & -> & F2 & _).
    destruct (IH b ([] ++ l) g') as [[h f] E2]; [lia|lia| |].
    - cbn [app]. rewrite <- (Forall2_slot_len _ _ F2). assumption.
    - rewrite E2. cbn [bind]. eauto.
  Qed.

  Lemma optimise_total obj maxgen N CR F (g : rng T) :
    2 <= length controls -> 4 <= N ->
    exists r, optimise score_lt measure controls obj maxgen N CR F g = Ok r.
  Proof.
    intros Hc HN. unfold optimise. destruct (Nat.leb_spec 4 N) as [_|HN']; [|lia].
    destruct (init_pop score_lt measure controls (N - 1) (snd (measure obj)) (measure obj)
                [measure obj] g) as [[best0 pop0] g1] eqn:EI.
    apply init_pop_spec in EI.
    - destruct EI as (l & -> & L & _).
      destruct (evolve_total N CR F maxgen best0 ([measure obj] ++ l) g1) as [[h f] E];
        [lia|lia|cbn [app length]; rewrite L; lia|]. rewrite E. cbn [bind]. eauto.
    - left; reflexivity.
    - intros a [<-|[]]. apply lt_irrefl.
  Qed.
End DE.

(** With fewer than two controls the first trial raises ValueError. *)
Lemma optimise_one_control {T} `{Num T} {Obj Sc} (score_lt : Sc -> Sc -> bool) measure
      (controls : list (control T Obj)) obj maxgen N CR F (g : rng T) :
  length controls <= 1 -> 4 <= N -> 1 <= maxgen ->
  optimise score_lt measure controls obj maxgen N CR F g = Raise ValueError.
Proof.
  intros Hc HN Hm. unfold optimise. destruct (Nat.leb_spec 4 N) as [_|HN']; [|lia].
  assert (Hpop : forall k (o : Obj) (b : Sc * Obj) pop (g : rng T),
    exists b' l g', init_pop score_lt measure controls k o b pop g = (b', pop ++ l, g') /\ length l = k).
  { induction k as [|k IH]; intros o b pop g0; cbn [init_pop].
    - exists b, [], g0. rewrite app_nil_r. auto.
    - destruct (mutate controls o g0) as [a g1].
      edestruct (IH o (if score_lt (fst b) (fst (measure a)) then measure a else b)
                   (pop ++ [measure a]) g1) as (b' & l & g' & E & L).
      exists b', (measure a :: l), g'. rewrite E, <- app_assoc. cbn. split; [reflexivity|lia]. }
  destruct (Hpop (N - 1) (snd (measure obj)) (measure obj) [measure obj] g) as (b' & l & g' & -> & L).
  destruct maxgen as [|m]; [lia|]. cbn [evolve].
  set (pop := [measure obj] ++ l) in *.
  assert (Hlen : length pop = N) by (unfold pop; cbn [app length]; rewrite L; lia).
  assert (Htr : forall ai (a : Sc * Obj) (g : rng T), ai < N -> trial controls N CR F pop ai a g = Raise ValueError).
  { intros ai a g0 Hai. unfold trial.
    destruct (pickUnique_spec N 3 [ai] g0) as (l0 & g1 & -> & L0 & ND & P).
    - constructor; [intros []|constructor].
    - intros x [<-|[]]. assumption.
    - cbn; lia.
    - cbn [bind]. destruct l0 as [|i0 [|i1 [|i2 [|]]]]; try discriminate L0.
      assert (Hn : forall i, In i [i0;i1;i2] -> exists p, nth_error pop i = Some p).
      { intros i Hi. destruct (P i Hi) as (Hi' & _).
        destruct (nth_error pop i) as [p|] eqn:En; [eauto|]. apply nth_error_None in En. lia. }
      destruct (Hn i0) as [p0 E0]; [cbn; auto|].
      destruct (Hn i1) as [p1 E1]; [cbn; auto|].
      destruct (Hn i2) as [p2 E2]; [cbn; auto|].
      cbn [mapM]. rewrite E0, E1, E2. cbn [bind].
      replace (length controls - 1) with 0 by lia. reflexivity. }
  destruct pop as [|a pop'] eqn:Ep; [cbn in Hlen; lia|].
  cbn [gen_loop]. rewrite Htr by lia. reflexivity.
Qed.

(** With CR <= 0 every trial sets exactly one control, and never the last one. *)
Lemma apply_controls_CR0 {T} `{Num T} {Obj} (F CR : T) (o0 o1 o2 : Obj) : forall cs R i new (g : rng T),
  (forall k, nltb (unis g k) CR = false) ->
  apply_controls R i CR F o0 o1 o2 cs new g =
  match (if i <=? R then nth_error cs (R - i) else None) with
  | Some c => (cset c new (nadd (cget c o0) (nmul F (nsub (cget c o1) (cget c o2)))),
               MkRng (ints g) (fun n => unis g ((length cs - 1) + n)) (norms g))
  | None => (new, MkRng (ints g) (fun n => unis g (length cs + n)) (norms g))
  end.
Proof.
  induction cs as [|c cs IH]; intros R i new g Hu; cbn [apply_controls].
  - destruct g as [gi gu gn]. destruct (i <=? R), (R - i); reflexivity.
  - destruct (Nat.eqb_spec i R) as [->|Hne].
    + rewrite Nat.leb_refl, Nat.sub_diag. cbn [nth_error].
      rewrite IH by assumption.
      destruct (Nat.leb_spec (S R) R) as [Hc|_]; [lia|].
      cbn [length]. rewrite Nat.sub_succ, Nat.sub_0_r. reflexivity.
    + cbn [random_uniform]. rewrite Hu.
      rewrite IH by (intros k; cbn; apply Hu).
      destruct (Nat.leb_spec i R) as [Hle|Hgt].
      * destruct (Nat.leb_spec (S i) R) as [_|Hc]; [|lia].
        replace (R - i) with (S (R - S i)) by lia. cbn [nth_error].
        destruct (nth_error cs (R - S i)) as [c'|] eqn:En; cbn [ints unis norms length].
        -- assert (Hlt : R - S i < length cs) by (apply nth_error_Some; rewrite En; discriminate).
           f_equal. f_equal. destruct cs as [|c1 cs]; [cbn in Hlt; lia|].
           cbn [length]. rewrite Nat.sub_succ, !Nat.sub_0_r. reflexivity.
        -- reflexivity.
      * destruct (Nat.leb_spec (S i) R) as [Hc|_]; [lia|]. reflexivity.
Qed.

(** * A concrete run (used for the refutation and as a non-vacuity example) *)
Open Scope Q_scope.
(** Two controls: the coordinates of a point; the measure is the squared distance
    from the origin.  The tapes make every mutation grow the coordinates by 4%. *)
Definition demo_cx : control Q (Q * Q) := MkControl fst (fun o v => (v, snd o)).
Definition demo_cy : control Q (Q * Q) := MkControl snd (fun o v => (fst o, v)).
Definition demo_meas (o : Q * Q) : Q * (Q * Q) := (Qred (fst o * fst o + snd o * snd o), o).
Definition demo_tape : rng Q := MkRng (fun n => n) (fun _ => 9 # 10) (fun _ => 1).
Definition demo_run (maxgen : nat) :=
  optimise Q_ltb demo_meas [demo_cx; demo_cy] (1, 1) maxgen 5 (3 # 10) 1 demo_tape.
Close Scope Q_scope.

Lemma Q_ltb_irrefl a : Q_ltb a a = false.
Proof.
  unfold Q_ltb. apply negb_false_iff. apply Qle_bool_iff. apply Qle_refl.
Qed.
Lemma Q_ltb_true a b : Q_ltb a b = true <-> (a < b)%Q.
Proof.
  unfold Q_ltb. rewrite negb_true_iff. split; intros Hab.
  - apply Qnot_le_lt. intros Hc. apply Qle_bool_iff in Hc. congruence.
  - destruct (Qle_bool b a) eqn:E; [|reflexivity]. apply Qle_bool_iff in E.
    exfalso. apply (Qlt_not_le _ _ Hab E).
Qed.
Lemma Q_ltb_false a b : Q_ltb a b = false <-> (b <= a)%Q.
Proof. unfold Q_ltb. rewrite negb_false_iff. apply Qle_bool_iff. Qed.
Lemma Q_ltb_trans a b c : Q_ltb a b = true -> Q_ltb b c = true -> Q_ltb a c = true.
Proof. rewrite !Q_ltb_true. apply Qlt_trans. Qed.
Lemma Q_ltb_ge_trans a b c : Q_ltb a b = false -> Q_ltb b c = false -> Q_ltb a c = false.
Proof. rewrite !Q_ltb_false. intros H1 H2. eapply Qle_trans; eassumption. Qed.

Lemma chain_nth {A} (P : A -> A -> Prop) l : forall a k s s',
  chain P a l -> nth_error (a :: l) k = Some s -> nth_error (a :: l) (S k) = Some s' -> P s s'.
Proof.
  induction l as [|b l IH]; intros a k s s' Hc H1 H2.
  - destruct k; discriminate.
  - destruct Hc as [Hab Hc]. destruct k as [|k]; cbn in H1, H2.
    + injection H1 as <-. injection H2 as <-. exact Hab.
    + apply (IH b k); assumption.
Qed.
Lemma nth_error_last {A} (l : list A) : forall a d,
  nth_error (a :: l) (length l) = Some (last (a :: l) d).
Proof.
  induction l as [|b l IH]; intros a d; [reflexivity|].
  cbn [length]. change (nth_error (a :: b :: l) (S (length l))) with (nth_error (b :: l) (length l)).
  rewrite (IH b d). reflexivity.
Qed.

Lemma optimise_history {T} `{Num T} {Obj Sc} (lt : Sc -> Sc -> bool) measure
  (controls : list (control T Obj)) :
  (forall a, lt a a = false) ->
  (forall a b c, lt a b = true -> lt b c = true -> lt a c = true) ->
  (forall a b c, lt a b = false -> lt b c = false -> lt a c = false) ->
  forall obj maxgen N CR F (g : rng T) hist final,
  optimise lt measure controls obj maxgen N CR F g = Ok (hist, final) ->
  length hist = 1 + maxgen /\
  (forall s, In s hist -> length (snd s) = N /\
      forall a, In a (fst s :: snd s) -> exists o, a = measure o) /\
  (forall k s s', nth_error hist k = Some s -> nth_error hist (1 + k) = Some s' ->
      Forall2 (fun old new => new = old \/ lt (fst new) (fst old) = true) (snd s) (snd s') /\
      lt (fst (fst s)) (fst (fst s')) = false) /\
  (forall s0 s a, nth_error hist 0 = Some s0 -> In s hist -> In a (snd s) ->
      In a (snd s0) \/ lt (fst a) (fst (fst s)) = false) /\
  (exists s, nth_error hist maxgen = Some s /\ final = fst s).
Proof.
  intros Hi Ht Hg obj maxgen N CR F g hist final E.
  apply optimise_spec in E; try assumption.
  destruct E as (best0 & pop0 & rest & -> & LN & LR & Hd & Hb & Hw & FI & C & Fin).
  rewrite Forall_forall in FI.
  split; [cbn; lia|]. split; [|split; [|split]].
  - intros s Hs. destruct (FI s Hs) as (I1 & I2 & I3). split; [congruence|exact I2].
  - intros k s s' H1 H2. destruct (chain_nth _ _ _ k s s' C H1 H2) as [G1 G2]. split; [|exact G2].
    clear -G1. induction G1 as [|old new l l' [->|[Hl _]] ? IH]; constructor; auto.
  - intros s0 s a H0 Hs Ha. cbn in H0. injection H0 as <-. cbn [snd].
    destruct (FI s Hs) as (I1 & I2 & I3). auto.
  - exists (last ((best0, pop0) :: rest) (best0, pop0)). split; [|exact Fin].
    rewrite <- LR. apply nth_error_last.
Qed.

Lemma optimise_first_best : forall (T : Type) (HT : Num T) (Obj S : Type) (lt : S -> S -> bool)
   (measure : Obj -> S * Obj) (controls : list (control T Obj)),
   (forall a, lt a a = false) ->
   (forall a b c, lt a b = true -> lt b c = true -> lt a c = true) ->
   (forall a b c, lt a b = false -> lt b c = false -> lt a c = false) ->
   forall obj maxgen N CR F (g : rng T) best0 pop0 rest final,
   optimise lt measure controls obj maxgen N CR F g = Ok ((best0, pop0) :: rest, final) ->
   In best0 pop0 /\ (forall a, In a pop0 -> lt (fst best0) (fst a) = false) /\
   hd_error pop0 = Some (measure obj).
Proof.
  intros T HT Obj S lt measure controls Hi Ht Hg obj maxgen N CR F g best0 pop0 rest final E.
  apply optimise_spec in E; try assumption.
  destruct E as (b & p & r & Eq & LN & LR & Hd & Hb & Hw & _).
  injection Eq as <- <- <-. auto.
Qed.

From Coq Require Import Reals Lra.
Lemma trial_CR0 : forall (Obj S : Type) (controls : list (control R Obj)) N F (pop : list (S * Obj)) ai a (g : rng R) new g',
   (forall k, (0 <= unis g k)%R) ->
   trial controls N 0%R F pop ai a g = Ok (new, g') ->
   exists k c o0 o1 o2, 1 + k < length controls /\ nth_error controls k = Some c /\
     new = cset c (snd a) (cget c o0 + F * (cget c o1 - cget c o2))%R.
Proof.
  intros Obj S controls N F pop ai a g new g' Hu E. unfold trial in E.
  destruct (pickUnique N 3 [ai] g) as [[idx g1]|ex] eqn:EP; cbn [bind] in E; [|discriminate].
  destruct (mapM _ idx) as [others|ex]; cbn [bind] in E; [|discriminate].
  destruct others as [|o0 [|o1 [|o2 [|]]]]; try discriminate E.
  destruct (randint (length controls - 1) g1) as [[R0 g2]|ex] eqn:ER; cbn [bind] in E; [|discriminate].
  (* the uniform tape is not touched by integer draws *)
  assert (Hpl : forall fuel N le i inds others (h : rng R) l h',
    pick_loop N le i fuel inds others h = Ok (l, h') -> unis h' = unis h).
  { induction fuel as [|fuel IH]; intros N0 le i inds ot h l h' EE; cbn [pick_loop] in EE.
    - injection EE as <- <-. reflexivity.
    - destruct (0 <? N0 - 1 - i - le); [|cbn [bind] in EE; apply IH in EE; exact EE].
      destruct (N0 - 1 - i - le) as [|hh]; cbn [randint bind] in EE; [discriminate|].
      apply IH in EE. rewrite EE. reflexivity. }
  assert (U1 : unis g1 = unis g).
  { unfold pickUnique in EP. destruct (3 + length [ai] <=? N); [|discriminate]. eapply Hpl; eassumption. }
  destruct (length controls - 1) as [|h] eqn:EL; cbn [randint] in ER; [discriminate|].
  injection ER as ER1 ER2.
  assert (HR : R0 < Datatypes.S h).
  { rewrite <- ER1. change (Nat.modulo (ints g1 0) (Datatypes.S h) < Datatypes.S h).
    apply Nat.mod_upper_bound. lia. }
  injection E as E. rewrite apply_controls_CR0 in E.
  - cbn [Nat.leb] in E. rewrite Nat.sub_0_r in E.
    destruct (nth_error controls R0) as [c|] eqn:EN.
    + injection E as <- _. exists R0, c, o0, o1, o2. repeat split; [lia|exact EN].
    + apply nth_error_None in EN. lia.
  - intros k. cbn. rewrite <- ER2. cbn. rewrite U1. apply R_ltb_false. apply Hu.
Qed.
