(** Properties of the optimiser (freegs/optimiser.py, freegs/optimise.py).
    Theorems only; proofs are in OptimiserProofs.v and OptimiseProofs.v. *)
From Coq Require Import String List Arith ZArith QArith Bool Reals Lra Lia.
From Verif Require Import Py Num Optimiser OptimiserProofs Optimise OptimiseProofs.
Import ListNotations.
Open Scope nat_scope.

(** C52 — pickUnique returns m distinct indices of 0..N-1 outside e, for every
    outcome of the random generator; too large requests raise AssertionError. *)
Theorem C52_pickUnique_distinct : forall (T : Type) (N m : nat) (e : list nat) (g : rng T),
  NoDup e -> (forall x, In x e -> x < N) ->
  (m + length e <= N ->
   exists l g', pickUnique N m e g = Ok (l, g') /\ length l = m /\ NoDup l /\
     forall x, In x l -> x < N /\ ~ In x e) /\
  (N < m + length e -> pickUnique N m e g = Raise AssertionError).
Proof.
  intros T N m e g He Hlt. split.
  - intros Hle. destruct (pickUnique_spec N m e g He Hlt Hle) as (l & g' & E & L & ND & P).
    exists l, g'. repeat split; try assumption; apply (P _ H).
  - exact (pickUnique_rejects N m e g).
Qed.
Print Assumptions C52_pickUnique_distinct.
Example C52_example :
  pickUnique 10 3 [4] demo_tape = Ok ([0; 1; 2], MkRng (fun n => S (S (S n))) (unis demo_tape) (norms demo_tape)).
Proof. reflexivity. Qed.

(** C53 — false: whenever not all admissible indices are requested, index N-1 is
    never returned, whatever the random numbers. *)
Theorem C53_last_index_never_picked : forall (T : Type) (N m : nat) (e : list nat),
  NoDup e -> (forall x, In x e -> x < N) -> m + length e < N -> ~ In (N - 1) e ->
  forall (g : rng T) l g', pickUnique N m e g = Ok (l, g') -> ~ In (N - 1) l.
Proof.
  intros T N m e He Hlt Hm Hn g l g' E Hi.
  destruct (pickUnique_spec N m e g He Hlt) as (l0 & g0 & E0 & L & ND & P); [lia|].
  rewrite E in E0. injection E0 as <- <-.
  destruct (P _ Hi) as (_ & _ & H3). specialize (H3 Hm). lia.
Qed.
Print Assumptions C53_last_index_never_picked.
(** The default set-up of optimise: N=10 agents, three others for agent 0. *)
Example C53_example :
  NoDup [0] /\ (forall x, In x [0] -> x < 10) /\ 3 + length [0] < 10 /\ ~ In (10 - 1) [0].
Proof. repeat split; [repeat constructor; intros []|intros x [<-|[]]; lia|cbn; lia|cbn; lia]. Qed.
Theorem C53_pickUnique_coverage_refuted :
  exists (N m : nat) (e : list nat) (x : nat),
    1 <= m /\ m + length e <= N /\ NoDup e /\ (forall y, In y e -> y < N) /\
    x < N /\ ~ In x e /\
    forall (g : rng Q) l g', pickUnique N m e g = Ok (l, g') -> ~ In x l.
Proof.
  exists 10, 3, [0], 9. destruct C53_example as (H1 & H2 & H3 & H4).
  repeat split; try assumption; try (cbn; lia).
  exact (C53_last_index_never_picked Q 10 3 [0] H1 H2 H3 H4).
Qed.
Print Assumptions C53_pickUnique_coverage_refuted.

(** C54 — along the generations: population size stays N; slot by slot an agent is either
    kept or replaced by a strictly better measured object; the best score never increases;
    every agent is the outcome of a measurement; the best is not worse than any agent
    accepted during the evolution; the returned object is the last best. With at least two
    controls and N >= 4 no exception is raised. *)
Theorem C54_evolution_monotone :
  forall (T : Type) (HT : Num T) (Obj S : Type) (lt : S -> S -> bool) (measure : Obj -> S * Obj)
         (controls : list (control T Obj)),
  (forall a, lt a a = false) ->
  (forall a b c, lt a b = true -> lt b c = true -> lt a c = true) ->
  (forall a b c, lt a b = false -> lt b c = false -> lt a c = false) ->
  forall obj maxgen N CR F (g : rng T),
  (2 <= length controls -> 4 <= N ->
   exists r, optimise lt measure controls obj maxgen N CR F g = Ok r) /\
  forall hist final,
  optimise lt measure controls obj maxgen N CR F g = Ok (hist, final) ->
  length hist = 1 + maxgen /\
  (forall s, In s hist -> length (snd s) = N /\
      forall a, In a (fst s :: snd s) -> exists o, a = measure o) /\
  (forall k s s', nth_error hist k = Some s -> nth_error hist (1 + k) = Some s' ->
      Forall2 (fun old new => new = old \/ lt (fst new) (fst old) = true) (snd s) (snd s') /\
      lt (fst (fst s)) (fst (fst s')) = false) /\
  (forall s0 s a, nth_error hist 0 = Some s0 -> In s hist -> In a (snd s) ->
      In a (snd s0) \/ lt (fst a) (fst (fst s)) = false) /\
  (exists s, nth_error hist maxgen = Some s /\ final = fst s).
Proof.
  intros T HT Obj S lt measure controls Hi Ht Hg obj maxgen N CR F g. split.
  - exact (optimise_total lt measure controls Hi Ht Hg obj maxgen N CR F g).
  - exact (optimise_history lt measure controls Hi Ht Hg obj maxgen N CR F g).
Qed.
Print Assumptions C54_evolution_monotone.
Example C54_example :
  (forall a, Q_ltb a a = false) /\
  (forall a b c, Q_ltb a b = true -> Q_ltb b c = true -> Q_ltb a c = true) /\
  (forall a b c, Q_ltb a b = false -> Q_ltb b c = false -> Q_ltb a c = false) /\
  exists hist final, demo_run 2 = Ok (hist, final).
Proof.
  split; [exact Q_ltb_irrefl|]. split; [exact Q_ltb_trans|]. split; [exact Q_ltb_ge_trans|].
  eexists _, _. vm_compute. reflexivity.
Qed.

(** C55 — false: the first best is the WORST of the initial population (the comparison
    is the wrong way round) ... *)
Theorem C55_first_best_is_worst :
  forall (T : Type) (HT : Num T) (Obj S : Type) (lt : S -> S -> bool) (measure : Obj -> S * Obj)
         (controls : list (control T Obj)),
   (forall a, lt a a = false) ->
   (forall a b c, lt a b = true -> lt b c = true -> lt a c = true) ->
   (forall a b c, lt a b = false -> lt b c = false -> lt a c = false) ->
   forall obj maxgen N CR F (g : rng T) best0 pop0 rest final,
   optimise lt measure controls obj maxgen N CR F g = Ok ((best0, pop0) :: rest, final) ->
   In best0 pop0 /\ (forall a, In a pop0 -> lt (fst best0) (fst a) = false) /\
   hd_error pop0 = Some (measure obj).
Proof. exact (@optimise_first_best). Qed.
Print Assumptions C55_first_best_is_worst.
(** ... and there is a run with two controls, five agents and two generations which
    returns an object with a worse score than the starting object. *)
Theorem C55_best_is_lowest_refuted :
  exists hist final, demo_run 2 = Ok (hist, final) /\
     Q_ltb (fst (demo_meas (1, 1)%Q)) (fst final) = true.
Proof. eexists _, _. split; [vm_compute; reflexivity|vm_compute; reflexivity]. Qed.
Print Assumptions C55_best_is_lowest_refuted.

(** C56 — false: with a single control every run raises ValueError in its first
    generation ... *)
Theorem C56_single_control_raises :
  forall (T : Type) (HT : Num T) (Obj S : Type) (lt : S -> S -> bool) (measure : Obj -> S * Obj)
          (c : control T Obj) obj maxgen N CR F (g : rng T),
   4 <= N -> 1 <= maxgen ->
   optimise lt measure [c] obj maxgen N CR F g = Raise ValueError.
Proof. intros. apply optimise_one_control; cbn; auto. Qed.
Print Assumptions C56_single_control_raises.
(** ... and with CR = 0 a trial changes exactly one control, which is never the last. *)
Theorem C56_last_control_never_drawn :
  forall (Obj S : Type) (controls : list (control R Obj)) N F (pop : list (S * Obj)) ai a (g : rng R) new g',
   (forall k, (0 <= unis g k)%R) ->
   trial controls N 0%R F pop ai a g = Ok (new, g') ->
   exists k c o0 o1 o2, 1 + k < length controls /\ nth_error controls k = Some c /\
     new = cset c (snd a) (cget c o0 + F * (cget c o1 - cget c o2))%R.
Proof. exact (@trial_CR0). Qed.
Print Assumptions C56_last_control_never_drawn.
Example C56_example : exists new g', (forall k, (0 <= unis (MkRng (fun n : nat => n) (fun _ => 0%R) (fun _ => 0%R)) k)%R) /\
  trial [MkControl fst (fun o v => (v, snd o)); MkControl snd (fun o v => (fst o, v))] 4 0%R 1%R
     [(0,(1,2)%R);(0,(3,4)%R);(0,(5,6)%R);(0,(7,8)%R)] 0 (0,(1,2)%R)
     (MkRng (fun n : nat => n) (fun _ => 0%R) (fun _ => 0%R)) = Ok (new, g').
Proof. eexists _, _. split; [intros; cbn; lra|]. cbn. reflexivity. Qed.
Theorem C56_any_number_of_controls_refuted :
  exists (c : control Q (Q * Q)) obj maxgen N,
   4 <= N /\ 1 <= maxgen /\
   forall CR F (g : rng Q), optimise Q_ltb demo_meas [c] obj maxgen N CR F g = Raise ValueError.
Proof.
  exists demo_cx, (1, 1)%Q, 10, 10. repeat split; [lia|lia|].
  intros CR F g. apply C56_single_control_raises; lia.
Qed.
Print Assumptions C56_any_number_of_controls_refuted.

(** C57 — with nonzero limits the assigned position is the requested value clamped to the
    limits, get returns it, the other coordinate and all other coils are untouched; an
    unknown label raises KeyError. *)
Theorem C57_position_limits :
  forall (label : string) (m : @positions R) (x : R) (lo hi : option R),
  (forall l, lo = Some l -> l <> 0%R) -> (forall h, hi = Some h -> h <> 0%R) ->
  (forall l h, lo = Some l -> hi = Some h -> (l <= h)%R) ->
  let y := match lo, hi with
           | Some l, Some h => Rmin (Rmax x l) h
           | Some l, None => Rmax x l
           | None, Some h => Rmin x h
           | None, None => x end in
  (In label (map fst m) ->
   exists pre c post, m = (pre ++ (label, c) :: post)%list /\ ~ In label (map fst pre) /\
     (let m' := (pre ++ (label, MkPos y (cZ c)) :: post)%list in
      coilRadius_set label lo hi m x = Ok m' /\ coilRadius_get label m' = Ok y) /\
     (let m' := (pre ++ (label, MkPos (cR c) y) :: post)%list in
      coilHeight_set label lo hi m x = Ok m' /\ coilHeight_get label m' = Ok y)) /\
  (~ In label (map fst m) ->
   coilRadius_set label lo hi m x = Raise KeyError /\
   coilHeight_set label lo hi m x = Raise KeyError).
Proof. exact position_limits. Qed.
Print Assumptions C57_position_limits.
Example C57_example : exists m',
  coilRadius_set "P2" (Some 1%R) (Some 3%R) [("P1", MkPos 1%R 0%R); ("P2", MkPos 2%R 1%R)]%string 5%R = Ok m'
  /\ coilRadius_get "P2" m' = Ok 3%R.
Proof.
  edestruct (proj1 (C57_position_limits "P2" [("P1", MkPos 1%R 0%R); ("P2", MkPos 2%R 1%R)]%string 5%R
                (Some 1%R) (Some 3%R) ltac:(intros ? [= <-]; lra) ltac:(intros ? [= <-]; lra)
                ltac:(intros ? ? [= <-] [= <-]; lra)) ltac:(cbn; auto))
    as (pre & c & post & E & Hn & [E1 E2] & _).
  eexists. split; [exact E1|]. rewrite E2. f_equal. unfold Rmin, Rmax.
  repeat destruct Rle_dec; lra.
Qed.

(** C58 — false: a limit equal to zero is ignored. The default CoilRadius accepts any
    negative radius, and CoilHeight with maximum 0 (or minimum 0) accepts any height. *)
Theorem C58_zero_limit_ignored : forall (label : string) (c : @poscoil R) (rest : @positions R) (x : R),
  (x < 0)%R ->
  coilRadius_set label coilRadius_default_min None ((label, c) :: rest) x
    = Ok ((label, MkPos x (cZ c)) :: rest) /\
  coilHeight_set label (Some 0%R) None ((label, c) :: rest) x
    = Ok ((label, MkPos (cR c) x) :: rest) /\
  coilHeight_set label None (Some 0%R) ((label, c) :: rest) (- x)%R
    = Ok ((label, MkPos (cR c) (- x)%R) :: rest).
Proof. exact zero_limit_ignored. Qed.
Print Assumptions C58_zero_limit_ignored.
Theorem C58_zero_limit_refuted : exists (m m' : @positions R) (label : string) (x r : R),
  coilRadius_set label (Some 0%R) None m x = Ok m' /\ coilRadius_get label m' = Ok r /\ (r < 0)%R.
Proof.
  exists [("P1", MkPos 1%R 0%R)]%string, [("P1", MkPos (-1)%R 0%R)]%string, "P1"%string, (-1)%R, (-1)%R.
  repeat split; [|lra].
  exact (proj1 (zero_limit_ignored "P1" (MkPos 1%R 0%R) [] (-1)%R ltac:(lra))).
Qed.
Print Assumptions C58_zero_limit_refuted.

(** With the default limits any height, and any radius, is set as it is, and read back. *)
Theorem C57_defaults : forall (T : Type) (N : Num T) (label : string) (m : @positions T) (x : T), In label (map fst m) ->
  (exists m', coilHeight_set label coilHeight_default_min None m x = Ok m' /\ coilHeight_get label m' = Ok x /\
     forall l, l <> label -> coilHeight_get l m' = coilHeight_get l m /\ coilRadius_get l m' = coilRadius_get l m) /\
  (neqb n0 n0 = true -> exists m', coilRadius_set label coilRadius_default_min None m x = Ok m' /\ coilRadius_get label m' = Ok x).
Proof.
  intros T N label m x Hin. split.
  - unfold coilHeight_set, coilHeight_get, coilRadius_get, coilHeight_default_min, clamp, truthy.
    induction m as [|(l, c) m IH]; [contradiction|]. cbn [update map fst In] in *. destruct (String.eqb_spec l label) as [->|Hl].
    + eexists. split; [reflexivity|]. cbn [lookup]. rewrite String.eqb_refl. split; [reflexivity|]. intros l Hl.
      destruct (String.eqb_spec label l); [congruence|split; reflexivity].
    + destruct Hin as [F|Hin]; [contradiction|]. destruct (IH Hin) as (m' & E & Eg & Ho). rewrite E. cbn [rmap]. eexists. split; [reflexivity|].
      cbn [lookup]. destruct (String.eqb_spec l label); [contradiction|]. split; [exact Eg|]. intros l' Hl'. destruct (String.eqb_spec l l'); [split; reflexivity|apply Ho, Hl'].
  - intros H0. unfold coilRadius_set, coilRadius_get, coilRadius_default_min, clamp, truthy. rewrite H0.
    induction m as [|(l, c) m IH]; [contradiction|]. cbn [update map fst In] in *. destruct (String.eqb_spec l label) as [->|Hl].
    + eexists. split; [reflexivity|]. cbn [lookup]. rewrite String.eqb_refl. reflexivity.
    + destruct Hin as [F|Hin]; [contradiction|]. destruct (IH Hin) as (m' & E & Eg). rewrite E. cbn [rmap]. eexists. split; [reflexivity|].
      cbn [lookup]. destruct (String.eqb_spec l label); [contradiction|]. exact Eg.
Qed.
Print Assumptions C57_defaults.
Example C57_defaults_example : coilHeight_set "P2" coilHeight_default_min None [("P1", MkPos 1%R 0%R); ("P2", MkPos 2%R 0%R)]%string (-3)%R = Ok [("P1", MkPos 1%R 0%R); ("P2", MkPos 2%R (-3)%R)]%string.
Proof. reflexivity. Qed.
