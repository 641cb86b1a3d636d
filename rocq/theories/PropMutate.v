(** What the optimiser does to the controls: the starting population
    (optimiser.py 40-56) and the trial of an agent (optimiser.py 134-145). *)
From Coq Require Import List Arith ZArith QArith Bool Reals Lra Lia Psatz.
From Verif Require Import Py Num Optimiser OptimiserProofs.
Import ListNotations.
Open Scope nat_scope.

(** ** Specification *)
(** A control reads back what it has set. *)
Definition reads_back {T Obj} (c : control T Obj) : Prop := forall o v, cget c (cset c o v) = v.
(** Setting [c'] leaves the value of [c] as it is. *)
Definition leaves {T Obj} (c' c : control T Obj) : Prop := forall o v, cget c (cset c' o v) = cget c o.

(** The value 10% wide band around [x], at position [u] in the band. *)
Definition varied (x u : R) : R := (x * (1 + (u - 1 / 2) / 10))%R.
(** too small to tell the scale *)
Definition tiny (v : R) : Prop := (Rabs v < / 10 ^ 10)%R.

(** The number of the controls [cs] whose varied value is tiny, so that each has drawn from the
    normal distribution; the [k]-th control takes the [k]-th uniform number. *)
Inductive tinies {Obj} (obj : Obj) (u : nat -> R) : list (control R Obj) -> nat -> Prop :=
| tinies_nil : tinies obj u [] 0
| tinies_yes cs c m : tinies obj u cs m -> tiny (varied (cget c obj) (u (length cs))) ->
    tinies obj u (cs ++ [c]) (S m)
| tinies_no cs c m : tinies obj u cs m -> ~ tiny (varied (cget c obj) (u (length cs))) ->
    tinies obj u (cs ++ [c]) m.

(** ** Proofs *)
Section Mut.
  Context {Obj : Type}.
  Implicit Types (cs : list (control R Obj)) (obj : Obj) (g : rng R).

  Lemma mutate_snoc cs c obj g :
    mutate (T := R) (cs ++ [c]) obj g = mutate_one obj c (mutate cs obj g).
  Proof. unfold mutate. rewrite fold_left_app. reflexivity. Qed.

  Lemma one_tiny obj c new g : tiny (varied (cget c obj) (unis g 0)) ->
    mutate_one (T := R) obj c (new, g) =
    (cset c new (varied (cget c obj) (unis g 0) + norms g 0)%R,
     MkRng (ints g) (fun n => unis g (S n)) (fun n => norms g (S n))).
  Proof.
    intros H. unfold mutate_one, random_uniform, random_normal. cbn [unis norms ints].
    match goal with |- context [nabs ?v] => replace v with (varied (cget c obj) (unis g 0)) by (unfold varied; nR; field) end.
    rewrite nabs_R. unfold tiny in H. nR.
    match goal with |- context [R_ltb ?a ?b] => destruct (R_ltb a b) eqn:E end; [reflexivity|rcmp; exfalso; lra].
  Qed.
  Lemma one_big obj c new g : ~ tiny (varied (cget c obj) (unis g 0)) ->
    mutate_one (T := R) obj c (new, g) =
    (cset c new (varied (cget c obj) (unis g 0)), MkRng (ints g) (fun n => unis g (S n)) (norms g)).
  Proof.
    intros H. unfold mutate_one, random_uniform, random_normal. cbn [unis norms ints].
    match goal with |- context [nabs ?v] => replace v with (varied (cget c obj) (unis g 0)) by (unfold varied; nR; field) end.
    rewrite nabs_R. unfold tiny in H. nR.
    match goal with |- context [R_ltb ?a ?b] => destruct (R_ltb a b) eqn:E end; [rcmp; exfalso; lra|reflexivity].
  Qed.

  Lemma mutate_tape cs obj g : exists m, tinies obj (unis g) cs m /\
    (forall i, ints (snd (mutate (T := R) cs obj g)) i = ints g i) /\
    (forall i, unis (snd (mutate (T := R) cs obj g)) i = unis g (length cs + i)) /\
    (forall i, norms (snd (mutate (T := R) cs obj g)) i = norms g (m + i)).
  Proof.
    induction cs as [|c cs (m & Hm & HI & HU & HN)] using rev_ind.
    - exists 0. split; [constructor|]. repeat split.
    - rewrite mutate_snoc, app_length, Nat.add_comm. cbn [length Nat.add].
      destruct (mutate cs obj g) as [new g1]. cbn [snd] in HI, HU, HN.
      assert (E0 : unis g1 0 = unis g (length cs)) by (rewrite HU; f_equal; lia).
      destruct (Rlt_dec (Rabs (varied (cget c obj) (unis g1 0))) (/ 10 ^ 10)) as [Ht|Ht].
      + rewrite one_tiny by exact Ht. cbn [snd ints unis norms]. exists (S m). rewrite E0 in Ht.
        split; [apply tinies_yes; assumption|]. repeat split; intros i; rewrite ?HI, ?HU, ?HN; f_equal; lia.
      + rewrite one_big by exact Ht. cbn [snd ints unis norms]. exists m. rewrite E0 in Ht.
        split; [apply tinies_no; assumption|]. repeat split; intros i; rewrite ?HI, ?HU, ?HN; f_equal; lia.
  Qed.

  Lemma mutate_leaves c (cs2 : list (control R Obj)) : (forall c', In c' cs2 -> leaves c' c) -> forall cs obj g,
    cget c (fst (mutate (T := R) (cs ++ cs2) obj g)) = cget c (fst (mutate (T := R) cs obj g)).
  Proof.
    induction cs2 as [|d cs2 IH] using rev_ind; intros Hl cs obj g; [rewrite app_nil_r; reflexivity|].
    rewrite app_assoc, mutate_snoc.
    rewrite <- (IH ltac:(intros c' Hc; apply Hl, in_or_app; left; exact Hc) cs obj g).
    destruct (mutate (cs ++ cs2) obj g) as [new g1].
    assert (Hd : leaves d c) by (apply Hl, in_or_app; right; left; reflexivity).
    destruct (Rlt_dec (Rabs (varied (cget d obj) (unis g1 0))) (/ 10 ^ 10)) as [Ht|Ht].
    - rewrite one_tiny by exact Ht. cbn [fst]. apply Hd.
    - rewrite one_big by exact Ht. cbn [fst]. apply Hd.
  Qed.

  Lemma tinies_fun obj u cs m m' : tinies obj u cs m -> tinies obj u cs m' -> m = m'.
  Proof.
    intros H. revert m'. induction H as [|cs c m H IH Ht|cs c m H IH Ht]; intros m' H'.
    - inversion H' as [E|a b n _ _ E|a b n _ _ E]; [reflexivity| |]; destruct a; discriminate.
    - inversion H' as [E|a b n Ha Hb E|a b n Ha Hb E]; [destruct cs; discriminate| |];
        apply app_inj_tail in E; destruct E as [-> ->]; [f_equal; exact (IH _ Ha)|contradiction].
    - inversion H' as [E|a b n Ha Hb E|a b n Ha Hb E]; [destruct cs; discriminate| |];
        apply app_inj_tail in E; destruct E as [-> ->]; [contradiction|exact (IH _ Ha)].
  Qed.
End Mut.

(** ** C236 — the starting population: a control that is not disturbed by the controls after it gets
    the value read from the original object, moved by at most 5%; a tiny value gets the next normal
    number added.  What the controls before it have done to the copy has no influence. *)
Theorem C236_values : forall (Obj : Type) (cs cs2 : list (control R Obj)) c obj (g : rng R) m,
  reads_back c -> (forall c', In c' cs2 -> leaves c' c) -> tinies obj (unis g) cs m ->
  let v := varied (cget c obj) (unis g (length cs)) in
  let r := cget c (fst (mutate (T := R) (cs ++ c :: cs2) obj g)) in
  (tiny v -> r = (v + norms g m)%R) /\ (~ tiny v -> r = v).
Proof.
  intros Obj cs cs2 c obj g m Hc Hl Hm v r.
  destruct (mutate_tape cs obj g) as (m' & Hm' & _ & HU & HN).
  rewrite <- (tinies_fun _ _ _ _ _ Hm Hm') in HN.
  assert (Er : r = cget c (fst (mutate_one obj c (mutate (T := R) cs obj g)))).
  { unfold r. replace (cs ++ c :: cs2) with ((cs ++ [c]) ++ cs2) by (rewrite <- app_assoc; reflexivity).
    rewrite mutate_leaves by exact Hl. rewrite mutate_snoc. reflexivity. }
  destruct (mutate cs obj g) as [new g1]. cbn [snd] in HU, HN.
  assert (E0 : unis g1 0 = unis g (length cs)) by (rewrite HU; f_equal; lia).
  assert (E1 : norms g1 0 = norms g m) by (rewrite HN; f_equal; lia).
  split; intros Ht; rewrite Er.
  - rewrite one_tiny by (rewrite E0; exact Ht). cbn [fst]. rewrite Hc, E0, E1. reflexivity.
  - rewrite one_big by (rewrite E0; exact Ht). cbn [fst]. rewrite Hc, E0. reflexivity.
Qed.
Print Assumptions C236_values.

(** The variation is at most 5% either way (the comment in the code says 10%), it keeps the sign, and
    a control that reads zero is always given a random value. *)
Theorem C236_within : forall (Obj : Type) (cs cs2 : list (control R Obj)) c obj (g : rng R),
  reads_back c -> (forall c', In c' cs2 -> leaves c' c) ->
  (forall k, 0 <= unis g k < 1)%R ->
  let x := cget c obj in
  let r := cget c (fst (mutate (T := R) (cs ++ c :: cs2) obj g)) in
  ((/ 10 ^ 9 <= Rabs x)%R -> (Rabs (r - x) <= Rabs x / 20)%R /\ (0 < r * x)%R) /\
  (x = 0%R -> exists m, (m <= length cs)%nat /\ r = norms g m).
Proof.
  intros Obj cs cs2 c obj g Hc Hl Hu x r.
  destruct (mutate_tape cs obj g) as (m & Hm & _).
  destruct (C236_values Obj cs cs2 c obj g m Hc Hl Hm) as [Ht Hb]. fold r x in Ht, Hb.
  specialize (Hu (length cs)). set (u := unis g (length cs)) in *.
  split.
  - intros Hx.
    assert (Hv : (Rabs (varied x u) >= / 10 ^ 9 * (95 / 100))%R).
    { unfold varied. rewrite Rabs_mult. rewrite (Rabs_pos_eq (1 + (u - 1 / 2) / 10)) by lra.
      apply Rle_ge. apply Rmult_le_compat; lra. }
    rewrite Hb by (unfold tiny; lra). unfold varied. split.
    + replace (x * (1 + (u - 1 / 2) / 10) - x)%R with (x * ((u - 1 / 2) / 10))%R by lra.
      rewrite Rabs_mult. unfold Rdiv at 3. apply Rmult_le_compat_l; [apply Rabs_pos|]. apply Rabs_le. lra.
    + assert (Hxx : (0 < x * x)%R). { destruct (Req_dec x 0) as [E|E]; [rewrite E, Rabs_R0 in Hx; lra|]. apply Rsqr_pos_lt in E. exact E. }
      replace (x * (1 + (u - 1 / 2) / 10) * x)%R with (x * x * (1 + (u - 1 / 2) / 10))%R by ring.
      apply Rmult_lt_0_compat; lra.
  - intros Hx. exists m. split.
    + clear - Hm. induction Hm as [|? ? ? ? IH|? ? ? ? IH]; rewrite ?app_length; cbn [length]; lia.
    + rewrite Ht; rewrite Hx; unfold varied, tiny; [ring|]. rewrite Rmult_0_l, Rabs_R0. lra.
Qed.
Print Assumptions C236_within.

(** Two controls of the same number and one of another number: the second wins, and reads the
    original value; the number that is zero takes the normal number. *)
Definition fstc : control R (R * R) := MkControl fst (fun o v => (v, snd o)).
Definition sndc : control R (R * R) := MkControl snd (fun o v => (fst o, v)).
Definition tapeR : rng R := MkRng (fun n => n) (fun n => (/ INR (n + 2))%R) (fun n => INR (n + 3)).
Example C236_example :
  reads_back fstc /\ (forall c', In c' [sndc] -> leaves c' fstc) /\
  (forall k, 0 <= unis tapeR k < 1)%R /\ tinies (2%R, 0%R) (unis tapeR) [fstc] 0 /\
  ~ tiny (varied (cget fstc (2, 0)%R) (unis tapeR 1)) /\
  tiny (varied (cget sndc (2, 0)%R) (unis tapeR 2)).
Proof.
  repeat split.
  - intros c' [<-|[]] o v. reflexivity.
  - cbn. left. apply Rinv_0_lt_compat, lt_0_INR. lia.
  - cbn. rewrite <- Rinv_1. apply Rinv_lt_contravar.
    + rewrite Rmult_1_l. apply lt_0_INR. lia.
    + change 1%R with (INR 1). apply lt_INR. lia.
  - change [fstc] with ([] ++ [fstc]). apply tinies_no; [constructor|].
    unfold tiny, varied. cbn. rewrite Rabs_pos_eq by lra. lra.
  - unfold tiny, varied. cbn. rewrite Rabs_pos_eq by lra. lra.
  - unfold tiny, varied. cbn. rewrite Rmult_0_l, Rabs_R0. lra.
Qed.

(** ** C237 — the trial of an agent *)
(** What one control of the trial may hold: the value of the agent, or the combination of the values
    of the three others. *)
Definition combined {T Obj} `{Num T} (F : T) (o0 o1 o2 : Obj) (c : control T Obj) : T :=
  nadd (cget c o0) (nmul F (nsub (cget c o1) (cget c o2))).

Section Trial.
  Context {T : Type} `{Num T} {Obj : Type}.
  Implicit Types (cs : list (control T Obj)).

  Lemma apply_leaves R CR F (o0 o1 o2 : Obj) c : forall cs i new (g : rng T), (forall c', In c' cs -> leaves c' c) ->
    cget c (fst (apply_controls R i CR F o0 o1 o2 cs new g)) = cget c new.
  Proof.
    induction cs as [|d cs IH]; intros i new g Hl; [reflexivity|]. cbn [apply_controls].
    destruct (if i =? R then (true, g) else let (u, g') := random_uniform g in (nltb u CR, g')) as [go g1].
    rewrite IH by (intros c' Hc; apply Hl; right; exact Hc).
    destruct go; [apply Hl; left; reflexivity|reflexivity].
  Qed.

  Lemma apply_value R CR F (o0 o1 o2 : Obj) c cs2 : reads_back c -> (forall c', In c' cs2 -> leaves c' c) ->
    forall cs i new (g : rng T),
    let r := cget c (fst (apply_controls R i CR F o0 o1 o2 (cs ++ c :: cs2) new g)) in
    ((i + length cs = R \/ forall k, nltb (unis g k) CR = true) -> r = combined F o0 o1 o2 c) /\
    ((forall c', In c' cs -> leaves c' c) -> r = combined F o0 o1 o2 c \/ r = cget c new) /\
    ((forall c', In c' cs -> leaves c' c) -> i + length cs <> R -> (forall k, nltb (unis g k) CR = false) -> r = cget c new).
  Proof.
    intros Hc Hl. induction cs as [|d cs IH]; intros i new g; cbn [app apply_controls length].
    - rewrite Nat.add_0_r. destruct (Nat.eqb_spec i R) as [E|E].
      + cbn zeta. rewrite apply_leaves by exact Hl. rewrite Hc. repeat split; [left; reflexivity|intros; contradiction].
      + unfold random_uniform. cbn zeta. rewrite apply_leaves by exact Hl.
        destruct (nltb (unis g 0) CR) eqn:EU.
        * rewrite Hc. repeat split; [left; reflexivity|]. intros _ _ HU. rewrite HU in EU. discriminate.
        * repeat split; [|right; reflexivity]. intros [HU|HU]; [contradiction|]. rewrite HU in EU. discriminate.
    - destruct (if i =? R then (true, g) else let (u, g') := random_uniform g in (nltb u CR, g')) as [go g1] eqn:EG.
      assert (HU : exists s, forall k, unis g1 k = unis g (s + k)).
      { destruct (i =? R); [injection EG as _ <-; exists 0; reflexivity|].
        unfold random_uniform in EG. injection EG as _ <-. exists 1. reflexivity. }
      destruct HU as [s HU].
      match goal with |- context [apply_controls R (S i) CR F o0 o1 o2 (cs ++ c :: cs2) ?n g1] =>
        destruct (IH (S i) n g1) as (H1 & H2 & H3) end. cbn zeta.
      replace (i + S (length cs)) with (S i + length cs) by lia.
      assert (En : (forall c', In c' (d :: cs) -> leaves c' c) ->
        cget c (if go then cset d new (nadd (cget d o0) (nmul F (nsub (cget d o1) (cget d o2)))) else new) = cget c new).
      { intros Hd. destruct go; [apply Hd; left; reflexivity|reflexivity]. }
      repeat split.
      + intros [E|E]; apply H1; [left; exact E|right; intros k; rewrite HU; apply E].
      + intros Hd. rewrite <- (En Hd). apply H2. intros c' Hin. apply Hd. right. exact Hin.
      + intros Hd E HF. rewrite <- (En Hd). apply H3; [intros c' Hin; apply Hd; right; exact Hin|exact E|].
        intros k. rewrite HU. apply HF.
  Qed.
End Trial.

Lemma pick_unis {T} (N m : nat) e (g : rng T) l g' : pickUnique N m e g = Ok (l, g') -> unis g' = unis g.
Proof.
  assert (Hpl : forall fuel N le i inds others (h : rng T) l h',
    pick_loop N le i fuel inds others h = Ok (l, h') -> unis h' = unis h).
  { induction fuel as [|fuel IH]; intros N0 le i inds ot h l0 h' EE; cbn [pick_loop] in EE.
    - injection EE as <- <-. reflexivity.
    - destruct (0 <? N0 - 1 - i - le); [|cbn [bind] in EE; apply IH in EE; exact EE].
      destruct (N0 - 1 - i - le) as [|hh]; cbn [randint bind] in EE; [discriminate|].
      apply IH in EE. rewrite EE. reflexivity. }
  unfold pickUnique. destruct (m + length e <=? N); [|discriminate]. apply Hpl.
Qed.

(** Three agents, different from each other and from the agent, are combined.  One control is always
    replaced; with a crossover probability that no draw reaches all are, with one that every draw
    reaches no other is; in between each control that the others do not disturb holds one of the two
    values. *)
Theorem C237_trial : forall (T : Type) (N0 : Num T) (Obj Sc : Type) (controls : list (control T Obj)) N CR F
    (pop : list (Sc * Obj)) ai a (g : rng T) new g',
  ai < N -> trial controls N CR F pop ai a g = Ok (new, g') ->
  exists i0 i1 i2 p0 p1 p2 R,
    NoDup [ai; i0; i1; i2] /\
    nth_error pop i0 = Some p0 /\ nth_error pop i1 = Some p1 /\ nth_error pop i2 = Some p2 /\
    R < length controls /\
    forall cs c cs2, controls = cs ++ c :: cs2 -> reads_back c -> (forall c', In c' cs2 -> leaves c' c) ->
    let full := combined F (snd p0) (snd p1) (snd p2) c in
    (length cs = R \/ (forall k, nltb (unis g k) CR = true) -> cget c new = full) /\
    ((forall c', In c' cs -> leaves c' c) ->
       (cget c new = full \/ cget c new = cget c (snd a)) /\
       (length cs <> R -> (forall k, nltb (unis g k) CR = false) -> cget c new = cget c (snd a))).
Proof.
  intros T N0 Obj Sc controls N CR F pop ai a g new g' Hai E. unfold trial in E.
  destruct (pickUnique N 3 [ai] g) as [[idx g1]|ex] eqn:EP; cbn [bind] in E; [|discriminate].
  assert (HN : 3 + length [ai] <= N).
  { destruct (le_lt_dec (3 + length [ai]) N) as [L|L]; [exact L|]. rewrite pickUnique_rejects in EP by exact L. discriminate. }
  destruct (pickUnique_spec N 3 [ai] g) as (l & g0 & EQ & L & ND & P);
    [constructor; [intros []|constructor]|intros x [<-|[]]; exact Hai|exact HN|].
  rewrite EP in EQ. injection EQ as <- <-.
  destruct idx as [|i0 [|i1 [|i2 [|]]]]; try discriminate L. cbn [mapM] in E.
  destruct (nth_error pop i0) as [p0|] eqn:E0; cbn [bind] in E; [|discriminate].
  destruct (nth_error pop i1) as [p1|] eqn:E1; cbn [bind] in E; [|discriminate].
  destruct (nth_error pop i2) as [p2|] eqn:E2; cbn [bind] in E; [|discriminate].
  destruct (randint (length controls - 1) g1) as [[R0 g2]|ex] eqn:ER; cbn [bind] in E; [|discriminate].
  injection E as E.
  assert (HR : R0 < length controls /\ unis g2 = unis g).
  { destruct (length controls - 1) as [|h] eqn:EL; cbn [randint] in ER; [discriminate|].
    injection ER as <- <-. split.
    - change (Nat.modulo (ints g1 0) (S h) < length controls).
      assert (Nat.modulo (ints g1 0) (S h) < S h) by (apply Nat.mod_upper_bound; lia). lia.
    - cbn. exact (pick_unis _ _ _ _ _ _ EP). }
  destruct HR as [HR HU].
  exists i0, i1, i2, p0, p1, p2, R0. split; [|repeat (split; [assumption|])].
  - constructor; [|exact ND]. intros Hi. destruct (P _ Hi) as (_ & Hn & _). apply Hn. left. reflexivity.
  - intros cs c cs2 -> Hc Hl full.
    destruct (apply_value R0 CR F (snd p0) (snd p1) (snd p2) c cs2 Hc Hl cs 0 (snd a) g2) as (H1 & H2 & H3).
    rewrite E in H1, H2, H3. cbn [fst Nat.add] in H1, H2, H3. rewrite HU in H1, H3.
    split; [exact H1|]. intros Hd. split; [exact (H2 Hd)|exact (H3 Hd)].
Qed.
Print Assumptions C237_trial.

(** A population of four pairs, two controls, CR = 3/10: the first control is replaced, and the second
    one, whose draw is 1/2, stays. *)
Definition fq : control Q (Q * Q) := MkControl fst (fun o v => (v, snd o)).
Definition sq : control Q (Q * Q) := MkControl snd (fun o v => (fst o, v)).
Definition tapeQ : rng Q := MkRng (fun n => n) (fun n => (1 # 2)%Q) (fun n => 1%Q).
Definition popQ : list (Q * (Q * Q)) := [(1, (1, 2)); (2, (3, 5)); (3, (7, 11)); (4, (13, 17))]%Q.
Example C237_example :
  (exists new g', trial [fq; sq] 4 (3 # 10)%Q 1%Q popQ 0 (1, (1, 2))%Q tapeQ = Ok (new, g') /\
     fst new == 3 + (7 - 13) /\ snd new == 2)%Q /\
  reads_back fq /\ reads_back sq /\ leaves fq sq /\ leaves sq fq.
Proof. split; [|repeat split]. eexists. eexists. split; [reflexivity|]. split; vm_compute; reflexivity. Qed.
