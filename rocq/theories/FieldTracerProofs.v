(** Proofs about field line tracing. *)
From Coq Require Import ZArith Reals List Bool Arith Lia Lra.
From Verif Require Import Py Num Numpy FieldTracer FieldTracerSpec.
Import ListNotations.
Local Open Scope R_scope.

Lemma ft_bind {A B} (e : result A) (f : A -> result B) r : bind e f = Ok r -> exists a, e = Ok a /\ f a = Ok r.
Proof. destruct e; [|discriminate]. intros E. eexists. split; [reflexivity|exact E]. Qed.

(** ** Rows of three *)
Lemma list_ind3 {A} (P : list A -> Prop) : P [] -> (forall a, P [a]) -> (forall a b, P [a; b]) -> (forall a b c l, P l -> P (a :: b :: c :: l)) -> forall l, P l.
Proof.
  intros H0 H1 H2 H3 l. assert (G : P l /\ (forall a, P (a :: l)) /\ (forall a b, P (a :: b :: l))); [|apply G].
  induction l as [|x l (I0 & I1 & I2)]; [auto|]. split; [apply I1|]. split; [intros a; apply I2|]. intros a b. apply H3. exact I0.
Qed.
Lemma rows3_flat {T} (pos : list T) lines : rows3 pos = Ok lines <-> pos = flat3 lines.
Proof.
  revert lines. induction pos as [|a|a b|a b c pos IH] using list_ind3; intros lines.
  - split; [intros E; injection E as <-; reflexivity|]. destruct lines as [|[[x y] z] lines]; [reflexivity|discriminate].
  - split; [discriminate|]. destruct lines as [|[[x y] z] lines]; discriminate.
  - split; [discriminate|]. destruct lines as [|[[x y] z] lines]; discriminate.
  - cbn [rows3]. split.
    + intros E. apply ft_bind in E. destruct E as (r & Er & E). injection E as <-. apply IH in Er. cbn. f_equal. f_equal. f_equal. exact Er.
    + destruct lines as [|[[x y] z] lines]; [discriminate|]. cbn. intros E. injection E as -> -> -> E. apply IH in E. rewrite E. reflexivity.
Qed.
Lemma flat3_rows {T} (l : list (T * T * T)) : rows3 (flat3 l) = Ok l.
Proof. apply rows3_flat. reflexivity. Qed.
Lemma flat3_length {T} (l : list (T * T * T)) : length (flat3 l) = (3 * length l)%nat.
Proof. induction l as [|[[a b] c] l IH]; [reflexivity|]. cbn [flat3 flat_map]. rewrite app_length. cbn [length]. unfold flat3 in IH. rewrite IH. lia. Qed.
Definition coord {T} (x : T * T * T) (c : nat) : T := let '(a, b, z) := x in match c with 0%nat => a | 1%nat => b | _ => z end.
Lemma flat3_nth {T} (l : list (T * T * T)) k c d0 : (k < length l)%nat -> (c < 3)%nat -> nth (3 * k + c) (flat3 l) d0 = coord (nth k l (d0, d0, d0)) c.
Proof.
  revert k. induction l as [|[[a b] z] l IH]; intros k Hk Hc; [cbn in Hk; lia|]. destruct k as [|k].
  - destruct c as [|[|[|c]]]; [reflexivity|reflexivity|reflexivity|lia].
  - replace (3 * S k + c)%nat with (S (S (S (3 * k + c)))) by lia. cbn [flat3 flat_map app nth]. apply IH; [cbn in Hk; lia|exact Hc].
Qed.

(** ** One evaluation *)
Section Direction.
  Variables (sqrt : R -> R) (s : scene R) (backward : bool).
  Lemma fieldDirection_inv ev pos ev' r : fieldDirection sqrt s backward ev pos = Ok (ev', r) ->
    exists lines, pos = flat3 lines /\ length lines = length ev /\
      ev' = map (fun ex => fst (direction sqrt s backward (fst ex) (snd ex))) (combine ev lines) /\
      r = flat3 (map (fun ex => snd (direction sqrt s backward (fst ex) (snd ex))) (combine ev lines)).
  Proof.
    intros E. unfold fieldDirection in E. apply ft_bind in E. destruct E as (lines & El & E). apply rows3_flat in El.
    destruct (Nat.eqb_spec (length lines) (length ev)) as [L|L]; [|discriminate]. injection E as <- <-.
    exists lines. split; [exact El|]. split; [exact L|]. rewrite !map_map. split; reflexivity.
  Qed.
  Lemma direction_zero x : direction sqrt s backward 0 x = (0, (0, 0, 0)).
  Proof.
    destruct x as [[r z] l]. unfold direction. cbv zeta. nR.
    replace (if outside s r z then 0 else 0) with 0 by (destruct (outside s r z); reflexivity).
    destruct backward; f_equal; repeat apply f_equal2; unfold Rdiv; ring.
  Qed.
  Lemma direction_out ev r z l : outside s r z = true -> direction sqrt s backward ev (r, z, l) = (0, (0, 0, 0)).
  Proof.
    intros Ho. unfold direction. cbv zeta. rewrite Ho. nR.
    destruct backward; f_equal; repeat apply f_equal2; unfold Rdiv; ring.
  Qed.
  Lemma one_line ev pos ev' r k : fieldDirection sqrt s backward ev pos = Ok (ev', r) -> (k < length ev)%nat ->
    length ev' = length ev /\ length r = length pos /\ length pos = (3 * length ev)%nat /\
    let x := (nth (3 * k) pos 0, nth (3 * k + 1) pos 0, nth (3 * k + 2) pos 0) in
    nth k ev' 0 = fst (direction sqrt s backward (nth k ev 0) x) /\
    forall c, (c < 3)%nat -> nth (3 * k + c) r 0 = coord (snd (direction sqrt s backward (nth k ev 0) x)) c.
  Proof.
    intros E Hk. apply fieldDirection_inv in E. destruct E as (lines & -> & L & -> & ->).
    rewrite !map_length, combine_length, flat3_length, map_length, combine_length, flat3_length, L, Nat.min_id.
    split; [reflexivity|]. split; [reflexivity|]. split; [reflexivity|]. cbv zeta.
    assert (Hl : (k < length lines)%nat) by lia.
    replace (nth (3 * k) (flat3 lines) 0) with (coord (nth k lines (0, 0, 0)) 0) by (rewrite <- (flat3_nth lines k 0 0) by lia; f_equal; lia).
    rewrite (flat3_nth lines k 1), (flat3_nth lines k 2) by lia.
    replace (coord (nth k lines (0, 0, 0)) 0, coord (nth k lines (0, 0, 0)) 1, coord (nth k lines (0, 0, 0)) 2) with (nth k lines (0, 0, 0)) by (destruct (nth k lines (0, 0, 0)) as [[? ?] ?]; reflexivity).
    assert (En : nth k (combine ev lines) (0, (0, 0, 0)) = (nth k ev 0, nth k lines (0, 0, 0))) by (apply combine_nth; symmetry; exact L).
    split.
    - rewrite (nth_indep _ 0 (fst (direction sqrt s backward (fst (0, (0, 0, 0))) (snd (0, (0, 0, 0)))))) by (rewrite map_length, combine_length; lia).
      rewrite (map_nth (fun ex => fst (direction sqrt s backward (fst ex) (snd ex))) (combine ev lines) (0, (0, 0, 0))). rewrite En. reflexivity.
    - intros c Hc. rewrite flat3_nth by (rewrite ?map_length, ?combine_length; lia). f_equal.
      rewrite (nth_indep _ (0, 0, 0) (snd (direction sqrt s backward (fst (0, (0, 0, 0))) (snd (0, (0, 0, 0)))))) by (rewrite map_length, combine_length; lia).
      rewrite (map_nth (fun ex => snd (direction sqrt s backward (fst ex) (snd ex))) (combine ev lines) (0, (0, 0, 0))). rewrite En. reflexivity.
  Qed.
  Definition still (k : nat) (r : list R) : Prop := forall c, (c < 3)%nat -> nth (3 * k + c) r 0 = 0.
  Lemma coord_zero c : coord (0, 0, 0) c = 0.
  Proof. destruct c as [|[|[|c]]]; reflexivity. Qed.
  Lemma stays_still ev pos ev' r k : fieldDirection sqrt s backward ev pos = Ok (ev', r) -> (k < length ev)%nat -> nth k ev 0 = 0 -> nth k ev' 0 = 0 /\ still k r.
  Proof.
    intros E Hk H0. destruct (one_line _ _ _ _ _ E Hk) as (_ & _ & _ & H1 & H2). cbv zeta in H1, H2. rewrite H0, direction_zero in H1, H2.
    split; [exact H1|]. intros c Hc. rewrite H2 by exact Hc. apply coord_zero.
  Qed.
  Lemma stops ev pos ev' r k : fieldDirection sqrt s backward ev pos = Ok (ev', r) -> (k < length ev)%nat -> outside s (nth (3 * k) pos 0) (nth (3 * k + 1) pos 0) = true ->
    nth k ev' 0 = 0 /\ still k r.
  Proof.
    intros E Hk Ho. destruct (one_line _ _ _ _ _ E Hk) as (_ & _ & _ & H1 & H2). cbv zeta in H1, H2. rewrite direction_out in H1, H2 by exact Ho.
    split; [exact H1|]. intros c Hc. rewrite H2 by exact Hc. apply coord_zero.
  Qed.
  Lemma evaluations_still : forall points ev ev' rs k, evaluations sqrt s backward ev points = Ok (ev', rs) -> (k < length ev)%nat -> nth k ev 0 = 0 ->
    nth k ev' 0 = 0 /\ forall r, In r rs -> still k r.
  Proof.
    induction points as [|x points IH]; intros ev ev' rs k E Hk H0.
    - injection E as <- <-. split; [exact H0|]. contradiction.
    - cbn [evaluations] in E. apply ft_bind in E. destruct E as ([ev1 r] & E1 & E). apply ft_bind in E. destruct E as ([ev2 rs'] & E2 & E). injection E as <- <-.
      destruct (stays_still _ _ _ _ _ E1 Hk H0) as (A & B). destruct (one_line _ _ _ _ _ E1 Hk) as (L & _).
      destruct (IH _ _ _ k E2 ltac:(lia) A) as (C & D). split; [exact C|]. intros r' [<-|Hr]; [exact B|apply D; exact Hr].
  Qed.
  Lemma evaluations_app : forall p1 p2 ev ev' rs, evaluations sqrt s backward ev (p1 ++ p2) = Ok (ev', rs) ->
    exists ev1 rs1 rs2, evaluations sqrt s backward ev p1 = Ok (ev1, rs1) /\ evaluations sqrt s backward ev1 p2 = Ok (ev', rs2) /\ rs = rs1 ++ rs2 /\ length rs1 = length p1 /\ length ev1 = length ev.
  Proof.
    induction p1 as [|x p1 IH]; intros p2 ev ev' rs E.
    - exists ev, [], rs. repeat split; assumption.
    - cbn [app evaluations] in E. apply ft_bind in E. destruct E as ([ev1 r] & E1 & E). apply ft_bind in E. destruct E as ([ev2 rs'] & E2 & E). injection E as <- <-.
      apply IH in E2. destruct E2 as (ev3 & rs1 & rs2 & F1 & F2 & -> & F3 & F4). exists ev3, (r :: rs1), rs2. cbn [evaluations]. rewrite E1. cbn [bind]. rewrite F1. cbn [bind].
      apply fieldDirection_inv in E1. destruct E1 as (lines & _ & L & -> & _). rewrite map_length, combine_length in F4.
      repeat split; [exact F2|cbn; lia|lia].
  Qed.
End Direction.

(** ** Runge-Kutta steps *)
Section Steps.
  Variables (sqrt : R -> R) (s : scene R) (backward : bool).
  Lemma add_still acc w h r i : nth i r 0 = 0 -> length acc = length r ->
    nth i (map (fun ak => (fst ak + h * w * snd ak)%num) (combine acc r)) 0 = nth i acc 0.
  Proof.
    intros H0 L. destruct (Nat.lt_ge_cases i (length acc)) as [Hi|Hi].
    - rewrite (nth_indep _ 0 ((fun ak => (fst ak + h * w * snd ak)%num) (0, 0))) by (rewrite map_length, combine_length; lia).
      rewrite (map_nth (fun ak => (fst ak + h * w * snd ak)%num)). rewrite combine_nth by exact L. rewrite H0. cbn [fst snd]. nR. ring.
    - rewrite !nth_overflow; [reflexivity|exact Hi|rewrite map_length, combine_length; lia].
  Qed.
  Lemma combination_still : forall w ks pos h k, (forall r, In r ks -> still k r /\ length r = length pos) ->
    length (combination pos h w ks) = length pos /\ forall c, (c < 3)%nat -> nth (3 * k + c) (combination pos h w ks) 0 = nth (3 * k + c) pos 0.
  Proof.
    unfold combination. induction w as [|a w IH]; intros ks pos h k Hk; [split; [reflexivity|intros; reflexivity]|].
    destruct ks as [|r ks]; [split; [reflexivity|intros; reflexivity]|]. cbn [combine fold_left fst snd].
    destruct (Hk r (or_introl eq_refl)) as (Hs & L).
    set (pos' := map _ (combine pos r)).
    assert (L' : length pos' = length pos) by (unfold pos'; rewrite map_length, combine_length; lia).
    destruct (IH ks pos' h k) as (A & B).
    { intros r' Hr. destruct (Hk r' (or_intror Hr)) as (C & D). split; [exact C|lia]. }
    split; [lia|]. intros c Hc. rewrite B by exact Hc. apply add_still; [apply Hs; exact Hc|symmetry; exact L].
  Qed.
  Lemma combination_length : forall w ks pos h, (forall r, In r ks -> length r = length pos) -> length (combination pos h w ks) = length pos.
  Proof.
    unfold combination. induction w as [|a w IH]; intros ks pos h Hk; [reflexivity|]. destruct ks as [|r ks]; [reflexivity|]. cbn [combine fold_left fst snd].
    assert (L := Hk r (or_introl eq_refl)). set (pos' := map _ (combine pos r)).
    assert (L' : length pos' = length pos) by (unfold pos'; rewrite map_length, combine_length; lia).
    rewrite IH; [exact L'|]. intros r' Hr. rewrite L'. apply Hk. right. exact Hr.
  Qed.
  Lemma stages_still : forall rows ks ev pos h ev' ks' k, stages sqrt s backward ev pos h rows ks = Ok (ev', ks') -> (k < length ev)%nat -> nth k ev 0 = 0 ->
    (forall r, In r ks -> still k r /\ length r = length pos) ->
    nth k ev' 0 = 0 /\ length ev' = length ev /\ forall r, In r ks' -> still k r /\ length r = length pos.
  Proof.
    induction rows as [|a rows IH]; intros ks ev pos h ev' ks' k E Hk H0 Hks.
    - injection E as <- <-. auto.
    - cbn [stages] in E. apply ft_bind in E. destruct E as ([ev1 r] & E1 & E).
      destruct (stays_still _ _ _ _ _ _ _ _ E1 Hk H0) as (A & B). destruct (one_line _ _ _ _ _ _ _ _ E1 Hk) as (L1 & L2 & _).
      destruct (combination_still a ks pos h k Hks) as (L3 & _).
      destruct (IH _ _ _ _ _ _ k E ltac:(lia) A) as (C & D & F).
      { intros r' Hr. apply in_app_or in Hr. destruct Hr as [Hr|[<-|[]]]; [apply Hks; exact Hr|]. split; [exact B|lia]. }
      split; [exact C|]. split; [lia|exact F].
  Qed.
  Lemma rk_still ev pos st ev' pos' k : rk sqrt s backward (ev, pos) st = Ok (ev', pos') -> (k < length ev)%nat -> nth k ev 0 = 0 ->
    nth k ev' 0 = 0 /\ length ev' = length ev /\ length pos' = length pos /\ forall c, (c < 3)%nat -> nth (3 * k + c) pos' 0 = nth (3 * k + c) pos 0.
  Proof.
    intros E Hk H0. unfold rk in E. apply ft_bind in E. destruct E as ([ev1 ks] & E1 & E). injection E as <- <-.
    destruct (stages_still _ _ _ _ _ _ _ k E1 Hk H0) as (A & B & C); [contradiction|].
    split; [exact A|]. split; [exact B|]. destruct (st_keep st); [|split; [reflexivity|intros; reflexivity]].
    apply combination_still. exact C.
  Qed.
  Lemma trace_still : forall sts ev pos ev' pos' k, trace sqrt s backward ev pos sts = Ok (ev', pos') -> (k < length ev)%nat -> nth k ev 0 = 0 ->
    nth k ev' 0 = 0 /\ forall c, (c < 3)%nat -> nth (3 * k + c) pos' 0 = nth (3 * k + c) pos 0.
  Proof.
    induction sts as [|st sts IH]; intros ev pos ev' pos' k E Hk H0.
    - injection E as <- <-. split; [exact H0|intros; reflexivity].
    - unfold trace in E. cbn [foldM] in E. apply ft_bind in E. destruct E as ([ev1 pos1] & E1 & E).
      destruct (rk_still _ _ _ _ _ k E1 Hk H0) as (A & B & _ & D). destruct (IH _ _ _ _ k E ltac:(lia) A) as (F & G).
      split; [exact F|]. intros c Hc. rewrite G, D by exact Hc. reflexivity.
  Qed.
  (** a step whose first stage is at the present position *)
  Lemma rk_stops ev pos rows w h keep ev' pos' k : rk sqrt s backward (ev, pos) (mkstep ([] :: rows) w h keep) = Ok (ev', pos') -> (k < length ev)%nat ->
    outside s (nth (3 * k) pos 0) (nth (3 * k + 1) pos 0) = true ->
    nth k ev' 0 = 0 /\ length ev' = length ev /\ forall c, (c < 3)%nat -> nth (3 * k + c) pos' 0 = nth (3 * k + c) pos 0.
  Proof.
    intros E Hk Ho. unfold rk in E. cbn [st_h st_rows st_weights st_keep] in E. apply ft_bind in E. destruct E as ([ev1 ks] & E1 & E). injection E as <- <-.
    cbn [stages] in E1. apply ft_bind in E1. destruct E1 as ([ev2 r] & E2 & E1). change (combination pos h [] []) with pos in E2.
    destruct (stops _ _ _ _ _ _ _ _ E2 Hk Ho) as (A & B). destruct (one_line _ _ _ _ _ _ _ _ E2 Hk) as (L1 & L2 & _).
    destruct (stages_still _ _ _ _ _ _ _ k E1 ltac:(lia) A) as (C & D & F).
    { intros r' [<-|[]]. split; [exact B|exact L2]. }
    split; [exact C|]. split; [lia|]. destruct keep; [|intros; reflexivity]. apply combination_still. exact F.
  Qed.
End Steps.

(** ** Crossing the wall *)
Lemma xor_fold {A} (f : A -> bool) : forall l b, fold_left (fun o x => xorb o (f x)) l b = xorb b (Nat.odd (length (filter f l))).
Proof.
  induction l as [|x l IH]; intros b; cbn [fold_left filter]; [destruct b; reflexivity|]. rewrite IH. destruct (f x); [|rewrite xorb_false_r; reflexivity].
  cbn [length]. rewrite Nat.odd_succ, <- Nat.negb_odd. destruct b, (Nat.odd (length (filter f l))); reflexivity.
Qed.
Lemma odd_filter (n : nat) (f : nat -> bool) (P : nat -> Prop) : (forall i, (i < n)%nat -> f i = true <-> P i) ->
  Nat.odd (length (filter f (seq 0 n))) = true <-> odd_number n P.
Proof.
  intros Hf. assert (Hin : forall i, In i (filter f (seq 0 n)) <-> (i < n)%nat /\ P i).
  { intros i. rewrite filter_In, in_seq. split.
    - intros ((_ & Hi) & Ht). split; [lia|]. apply Hf; [lia|exact Ht].
    - intros (Hi & Hp). split; [lia|]. apply Hf; assumption. }
  split.
  - intros Ho. exists (filter f (seq 0 n)). split; [apply NoDup_filter, seq_NoDup|]. split; [exact Hin|exact Ho].
  - intros (l & Hd & Hl & Ho). assert (E : length (filter f (seq 0 n)) = length l); [|rewrite E; exact Ho].
    apply Nat.le_antisymm; apply NoDup_incl_length.
    + apply NoDup_filter, seq_NoDup.
    + intros i Hi. apply Hl, Hin, Hi.
    + exact Hd.
    + intros i Hi. apply Hin, Hl, Hi.
Qed.
Definition middle (s : scene R) : R * R := ((s_Rmin s + s_Rmax s) / 2, (s_Zmin s + s_Zmax s) / 2).
Lemma crosses_spec s w r z i : crosses s w r z i = true <->
  / 1000000 < Rabs (cross (minus (r, z) (middle s)) (minus (vertex w (next w i)) (vertex w i))) /\ meet (middle s) (r, z) (vertex w i) (vertex w (next w i)).
Proof.
  unfold crosses. cbv zeta.
  change (nth i w (n0, n0)) with (vertex w i). change (nth ((i + 1) mod length w) w (n0, n0)) with (vertex w (next w i)).
  destruct (vertex w i) as [px py]. destruct (vertex w (next w i)) as [qx qy].
  replace (nlit 1 2 * (s_Rmin s + s_Rmax s))%num with (fst (middle s)) by (unfold middle; nR; cbn [fst]; field).
  replace (nlit 1 2 * (s_Zmin s + s_Zmax s))%num with (snd (middle s)) by (unfold middle; nR; cbn [snd]; field).
  replace (nlit 1 1000000)%num with (/ 1000000) by (nR; field).
  destruct (middle s) as [mx my]. unfold cross, minus, meet, along. cbn [fst snd]. rewrite nabs_R. nR.
  rewrite !andb_true_iff, !R_ltb_true.
  replace ((r - mx) * (qy - py) - (z - my) * (qx - px)) with ((r - mx) * (qy - py) - (qx - px) * (z - my)) by ring.
  set (det := (r - mx) * (qy - py) - (qx - px) * (z - my)).
  set (al := ((qy - py) * (qx - mx) - (qx - px) * (qy - my)) / det). set (be := ((r - mx) * (qy - my) - (z - my) * (qx - mx)) / det).
  split.
  - intros ((((Hd & A1) & A2) & B1) & B2). split; [exact Hd|]. assert (D : det <> 0) by (intros C; rewrite C, Rabs_R0 in Hd; lra).
    exists al, (1 - be). split; [lra|]. split; [lra|]. unfold al, be. f_equal; apply Rmult_eq_reg_r with det; try exact D; unfold det; field; exact D.
  - intros (Hd & (t & u & Ht & Hu & E)). assert (D : det <> 0) by (intros C; rewrite C, Rabs_R0 in Hd; lra).
    injection E as E1 E2.
    assert (X : qx - mx = t * (r - mx) + (1 - u) * (qx - px)) by lra. assert (Y : qy - my = t * (z - my) + (1 - u) * (qy - py)) by lra.
    assert (Ha : al = t) by (unfold al; rewrite X, Y; apply Rmult_eq_reg_r with det; [|exact D]; unfold det; field; exact D).
    assert (Hb : be = 1 - u) by (unfold be; rewrite X, Y; apply Rmult_eq_reg_r with det; [|exact D]; unfold det; field; exact D).
    rewrite Ha, Hb. repeat split; lra.
Qed.
Lemma wall_parity s w r z : wallDomain s w r z = true <->
  odd_number (length w) (fun i => / 1000000 < Rabs (cross (minus (r, z) (middle s)) (minus (vertex w (next w i)) (vertex w i))) /\ meet (middle s) (r, z) (vertex w i) (vertex w (next w i))).
Proof. unfold wallDomain. rewrite xor_fold, xorb_false_l. apply odd_filter. intros i _. apply crosses_spec. Qed.

(** ** Convex walls *)
Lemma next_lt w i : (i < length w)%nat -> (next w i < length w)%nat.
Proof. intros Hi. unfold next. apply Nat.mod_upper_bound. lia. Qed.
Lemma next_cases w i : (i < length w)%nat -> next w i = S i /\ (S i < length w)%nat \/ next w i = 0%nat /\ S i = length w.
Proof.
  intros Hi. unfold next. destruct (Nat.eq_dec (S i) (length w)) as [E|E].
  - right. split; [|exact E]. replace (i + 1)%nat with (length w) by lia. apply Nat.mod_same. lia.
  - left. split; [|lia]. rewrite Nat.mod_small; lia.
Qed.
Lemma prev_exists w i : (3 <= length w)%nat -> (i < length w)%nat -> exists j, (j < length w)%nat /\ next w j = i.
Proof.
  intros Hn Hi. destruct i as [|i].
  - exists (length w - 1)%nat. split; [lia|]. destruct (next_cases w (length w - 1) ltac:(lia)) as [[A B]|[A B]]; [lia|exact A].
  - exists i. split; [lia|]. destruct (next_cases w i ltac:(lia)) as [[A B]|[A B]]; [exact A|lia].
Qed.
Lemma side_along w i p q t : side w i (along p q t) = (1 - t) * side w i p + t * side w i q.
Proof. unfold side, cross, minus, along. cbn [fst snd]. ring. Qed.
Lemma side_start w i : side w i (vertex w i) = 0.
Proof. unfold side, cross, minus. cbn [fst snd]. ring. Qed.
Lemma side_end w i : side w i (vertex w (next w i)) = 0.
Proof. unfold side, cross, minus. cbn [fst snd]. ring. Qed.
Lemma list_min {A} (f : A -> R) (l : list A) : l <> [] -> exists x, In x l /\ forall y, In y l -> f x <= f y.
Proof.
  induction l as [|a l IH]; [congruence|]. intros _. destruct l as [|b l].
  - exists a. split; [left; reflexivity|]. intros y [<-|[]]. lra.
  - destruct IH as (x & Hx & Hm); [discriminate|]. destruct (Rle_dec (f a) (f x)) as [L|L].
    + exists a. split; [left; reflexivity|]. intros y [<-|Hy]; [lra|]. specialize (Hm y Hy). lra.
    + exists x. split; [right; exact Hx|]. intros y [<-|Hy]; [lra|apply Hm; exact Hy].
Qed.
Section Convex.
  Variables (w : list (R * R)) (m p : R * R).
  Hypothesis Hw : strictly_convex w.
  Hypothesis Hm : inside w m.
  Local Notation n := (length w).
  Lemma vertex_side i k : (i < n)%nat -> (k < n)%nat -> 0 <= side w i (vertex w k).
  Proof.
    intros Hi Hk. destruct (Nat.eq_dec k i) as [->|H1]; [rewrite side_start; lra|].
    destruct (Nat.eq_dec k (next w i)) as [->|H2]; [rewrite side_end; lra|]. destruct Hw as (_ & Hc). apply Rlt_le. apply Hc; assumption.
  Qed.
  Lemma met_beyond i : (i < n)%nat -> meet m p (vertex w i) (vertex w (next w i)) -> side w i p < 0.
  Proof.
    intros Hi (s & t & Hs & Ht & E). assert (E' : side w i (along m p s) = 0) by (rewrite E, side_along, side_start, side_end; ring).
    rewrite side_along in E'. assert (H := Hm i Hi). apply Rnot_le_lt. intros C.
    assert (0 < (1 - s) * side w i m) by (apply Rmult_lt_0_compat; lra). assert (0 <= s * side w i p) by (apply Rmult_le_pos; lra). lra.
  Qed.
  Lemma met_once i j : (i < n)%nat -> (j < n)%nat -> meet m p (vertex w i) (vertex w (next w i)) -> meet m p (vertex w j) (vertex w (next w j)) -> i = j.
  Proof.
    assert (W : forall i j, (i < n)%nat -> (j < n)%nat -> i <> j -> forall s t s' t', 0 < s < 1 -> 0 < s' < 1 -> 0 < t' < 1 ->
      along m p s = along (vertex w i) (vertex w (next w i)) t -> along m p s' = along (vertex w j) (vertex w (next w j)) t' -> s <= s' -> False).
    { clear i j. intros i j Hi Hj Hij s t s' t' Hs Hs' Ht' E E' L.
      assert (A : side w i (along m p s) = 0) by (rewrite E, side_along, side_start, side_end; ring). rewrite side_along in A.
      assert (B : 0 < side w i (along m p s')).
      { rewrite E', side_along. assert (V1 := vertex_side i j Hi Hj). assert (V2 := vertex_side i (next w j) Hi (next_lt w j Hj)).
        assert (V : 0 < side w i (vertex w j) \/ 0 < side w i (vertex w (next w j))).
        { destruct Hw as (Hn & Hc). destruct (Nat.eq_dec j (next w i)) as [Ej|Ej].
          - right. apply Hc; [exact Hi|apply next_lt; exact Hj| |].
            + rewrite Ej. destruct (next_cases w i Hi) as [[A1 B1]|[A1 B1]]; rewrite A1;
                match goal with |- next w ?x <> _ => destruct (next_cases w x ltac:(lia)) as [[A2 B2]|[A2 B2]]; rewrite A2; lia end.
            + rewrite <- Ej. destruct (next_cases w j Hj) as [[A1 B1]|[A1 B1]]; lia.
          - left. apply Hc; try assumption. congruence. }
        assert (0 <= (1 - t') * side w i (vertex w j)) by (apply Rmult_le_pos; lra). assert (0 <= t' * side w i (vertex w (next w j))) by (apply Rmult_le_pos; lra).
        destruct V as [V|V].
        - assert (0 < (1 - t') * side w i (vertex w j)) by (apply Rmult_lt_0_compat; lra). lra.
        - assert (0 < t' * side w i (vertex w (next w j))) by (apply Rmult_lt_0_compat; lra). lra. }
      rewrite side_along in B. assert (H := Hm i Hi).
      assert (P1 : side w i m - side w i p > 0).
      { apply Rnot_le_gt. intros C. assert (0 < (1 - s) * side w i m) by (apply Rmult_lt_0_compat; lra). assert (0 < s * side w i p) by (apply Rmult_lt_0_compat; lra). lra. }
      assert (P2 : (s' - s) * (side w i m - side w i p) >= 0) by (apply Rle_ge, Rmult_le_pos; lra). lra. }
    intros Hi Hj (s & t & Hs & Ht & E) (s' & t' & Hs' & Ht' & E'). destruct (Nat.eq_dec i j) as [->|N]; [reflexivity|exfalso].
    destruct (Rle_dec s s') as [L|L].
    - exact (W i j Hi Hj N s t s' t' Hs Hs' Ht' E E' L).
    - apply (W j i Hj Hi (not_eq_sym N) s' t' s t Hs' Hs Ht E' E). lra.
  Qed.
  Hypothesis Hclear : forall k s, (k < n)%nat -> 0 <= s <= 1 -> along m p s <> vertex w k.
  Lemma beyond_met : beyond w p -> exists i, (i < n)%nat /\ meet m p (vertex w i) (vertex w (next w i)).
  Proof.
    intros (i0 & Hi0 & Hb0).
    destruct (list_min (fun i => side w i m / (side w i m - side w i p)) (filter (fun i => R_ltb (side w i p) 0) (seq 0 n))) as (i & Hi & Hmin).
    { intros C. assert (Hin : In i0 (filter (fun i => R_ltb (side w i p) 0) (seq 0 n))) by (apply filter_In; split; [apply in_seq; lia|apply R_ltb_true; exact Hb0]). rewrite C in Hin. contradiction. }
    apply filter_In in Hi. destruct Hi as (Hi & Hb). apply in_seq in Hi. apply R_ltb_true in Hb.
    assert (Hin : (i < n)%nat) by lia. clear Hi. exists i. split; [exact Hin|].
    set (al := side w i m / (side w i m - side w i p)) in *. assert (Hmi := Hm i Hin).
    assert (Hal : 0 < al < 1).
    { unfold al. split; [apply Rdiv_lt_0_compat; lra|]. apply Rmult_lt_reg_r with (side w i m - side w i p); [lra|]. unfold Rdiv. rewrite Rmult_assoc, Rinv_l by lra. lra. }
    set (x := along m p al).
    assert (Hx0 : side w i x = 0) by (unfold x; rewrite side_along; unfold al; field; lra).
    assert (Hx : forall j, (j < n)%nat -> 0 <= side w j x).
    { intros j Hj. unfold x. rewrite side_along. assert (Hmj := Hm j Hj). destruct (Rlt_dec (side w j p) 0) as [L|L].
      - assert (Hle : al <= side w j m / (side w j m - side w j p)) by (apply Hmin; apply filter_In; split; [apply in_seq; lia|apply R_ltb_true; exact L]).
        apply Rmult_le_compat_r with (r := side w j m - side w j p) in Hle; [|lra].
        replace (side w j m / (side w j m - side w j p) * (side w j m - side w j p)) with (side w j m) in Hle by (field; lra). lra.
      - assert (0 <= (1 - al) * side w j m) by (apply Rmult_le_pos; lra). assert (0 <= al * side w j p) by (apply Rmult_le_pos; lra). lra. }
    destruct Hw as (Hn & Hc).
    (* the edge is not degenerate *)
    set (a := vertex w i). set (b := vertex w (next w i)). set (dx := fst b - fst a). set (dy := snd b - snd a).
    assert (HD : 0 < dx * dx + dy * dy).
    { destruct (prev_exists w i Hn Hin) as (j & Hj & Ej).
      assert (0 < side w i (vertex w j)).
      { apply Hc; try assumption; destruct (next_cases w j Hj) as [[A1 B1]|[A1 B1]], (next_cases w i Hin) as [[A2 B2]|[A2 B2]]; lia. }
      unfold side, cross, minus in H. fold a b in H. cbn [fst snd] in H. fold dx dy in H.
      destruct (Req_dec dx 0) as [Z1|Z1]; [destruct (Req_dec dy 0) as [Z2|Z2]|]; [rewrite Z1, Z2 in H; lra| |].
      - assert (0 < dy * dy) by nra. nra.
      - assert (0 < dx * dx) by nra. nra. }
    set (t := ((fst x - fst a) * dx + (snd x - snd a) * dy) / (dx * dx + dy * dy)).
    assert (Ex : x = along a b t).
    { unfold side, cross, minus in Hx0. fold a b in Hx0. cbn [fst snd] in Hx0. fold dx dy in Hx0.
      rewrite (surjective_pairing x). unfold along. fold dx dy.
      f_equal; apply Rmult_eq_reg_r with (dx * dx + dy * dy); try lra; rewrite Rmult_plus_distr_r; unfold t.
      - replace (((fst x - fst a) * dx + (snd x - snd a) * dy) / (dx * dx + dy * dy) * dx * (dx * dx + dy * dy)) with (((fst x - fst a) * dx + (snd x - snd a) * dy) * dx) by (field; lra).
        assert (E : dy * (dx * (snd x - snd a) - dy * (fst x - fst a)) = 0) by (rewrite Hx0; ring). lra.
      - replace (((fst x - fst a) * dx + (snd x - snd a) * dy) / (dx * dx + dy * dy) * dy * (dx * dx + dy * dy)) with (((fst x - fst a) * dx + (snd x - snd a) * dy) * dy) by (field; lra).
        assert (E : dx * (dx * (snd x - snd a) - dy * (fst x - fst a)) = 0) by (rewrite Hx0; ring). lra. }
    exists al, t. split; [exact Hal|]. split; [|exact Ex].
    assert (Hni := next_lt w i Hin). destruct (prev_exists w i Hn Hin) as (j & Hj & Ej).
    assert (T1 : t <= 1).
    { assert (S1 := Hx (next w i) Hni). rewrite Ex, side_along in S1. unfold b in S1. rewrite side_start in S1.
      assert (S2 : 0 < side w (next w i) a).
      { unfold a. apply Hc; try assumption.
        - destruct (next_cases w i Hin) as [[A1 B1]|[A1 B1]]; lia.
        - destruct (next_cases w i Hin) as [[A1 B1]|[A1 B1]], (next_cases w (next w i) Hni) as [[A2 B2]|[A2 B2]]; lia. }
      apply Rnot_lt_le. intros C. assert (0 < (t - 1) * side w (next w i) a) by (apply Rmult_lt_0_compat; lra). lra. }
    assert (T0 : 0 <= t).
    { assert (S1 := Hx j Hj). rewrite Ex, side_along in S1. unfold a in S1. rewrite <- Ej in S1 at 1. rewrite side_end in S1.
      assert (S2 : 0 < side w j b).
      { unfold b. apply Hc; try assumption.
        - destruct (next_cases w i Hin) as [[A1 B1]|[A1 B1]], (next_cases w j Hj) as [[A2 B2]|[A2 B2]]; lia.
        - rewrite Ej. destruct (next_cases w i Hin) as [[A1 B1]|[A1 B1]]; lia. }
      apply Rnot_lt_le. intros C. assert (0 < (- t) * side w j b) by (apply Rmult_lt_0_compat; lra). lra. }
    assert (N0 : t <> 0).
    { intros C. apply (Hclear i al Hin); [lra|]. fold x. rewrite Ex, C. unfold along. fold a. rewrite (surjective_pairing a). cbn [fst snd]. f_equal; ring. }
    assert (N1 : t <> 1).
    { intros C. apply (Hclear (next w i) al Hni); [lra|]. fold x. rewrite Ex, C. unfold along. fold b. rewrite (surjective_pairing b). cbn [fst snd]. f_equal; ring. }
    lra.
  Qed.
End Convex.
Lemma convex_wall s w r z : strictly_convex w -> inside w (middle s) ->
  (forall k t, (k < length w)%nat -> 0 <= t <= 1 -> along (middle s) (r, z) t <> vertex w k) ->
  (forall i, (i < length w)%nat -> meet (middle s) (r, z) (vertex w i) (vertex w (next w i)) ->
     / 1000000 < Rabs (cross (minus (r, z) (middle s)) (minus (vertex w (next w i)) (vertex w i)))) ->
  wallDomain s w r z = true <-> beyond w (r, z).
Proof.
  intros Hw Hm Hc Hd. rewrite wall_parity. split.
  - intros (l & _ & Hl & Ho). destruct l as [|i l]; [discriminate|]. destruct (proj1 (Hl i) (or_introl eq_refl)) as (Hi & _ & Hmt).
    exists i. split; [exact Hi|]. apply (met_beyond w (middle s) (r, z) Hm i Hi Hmt).
  - intros Hb. destruct (beyond_met w (middle s) (r, z) Hw Hm Hc Hb) as (i & Hi & Hmt).
    exists [i]. split; [constructor; [intros []|constructor]|]. split; [|reflexivity].
    intros j. split.
    + intros [<-|[]]. split; [exact Hi|]. split; [apply Hd; assumption|exact Hmt].
    + intros (Hj & _ & Hmj). left. exact (met_once w (middle s) (r, z) Hw Hm i j Hi Hj Hmt Hmj).
Qed.

(** ** Shapes of the arrays of starting points *)
Lemma rows3_total {T} : forall n (pos : list T), length pos = (3 * n)%nat -> exists lines, rows3 pos = Ok lines /\ length lines = n.
Proof.
  induction n as [|n IH]; intros pos L.
  - destruct pos; [|discriminate]. exists []. split; reflexivity.
  - destruct pos as [|a [|b [|c pos]]]; try (cbn in L; lia). destruct (IH pos) as (lines & E & El); [cbn in L; lia|].
    exists ((a, b, c) :: lines). cbn [rows3]. rewrite E. split; [reflexivity|]. cbn. lia.
Qed.
Lemma rows_of_spec {T} k : forall m (l : list T), length l = (m * k)%nat -> length (rows_of m k l) = m /\ (forall r, In r (rows_of m k l) -> length r = k) /\ concat (rows_of m k l) = l.
Proof.
  induction m as [|m IH]; intros l L; cbn [rows_of].
  - destruct l; [|discriminate]. split; [reflexivity|]. split; [contradiction|reflexivity].
  - destruct (IH (skipn k l)) as (A & B & C); [rewrite skipn_length; lia|].
    split; [cbn; lia|]. split.
    + intros r [<-|Hr]; [rewrite firstn_length; lia|apply B; exact Hr].
    + cbn [concat]. rewrite C. apply firstn_skipn.
Qed.
Lemma stack_length {T} k : forall (x y z : list (list T)), length y = length x -> length z = length x ->
  (forall r, In r x \/ In r y \/ In r z -> length r = k) ->
  length (concat (map (fun r => let '(a, b, c) := r in a ++ b ++ c) (combine (combine x y) z))) = (3 * (length x * k))%nat.
Proof.
  induction x as [|a x IH]; intros [|b y] [|c z] Ly Lz Hr; try discriminate; [reflexivity|].
  cbn [combine map concat]. rewrite !app_length. rewrite IH.
  - rewrite (Hr a), (Hr b), (Hr c) by (cbn; tauto). cbn [length]. lia.
  - cbn in Ly. lia.
  - cbn in Lz. lia.
  - intros r [H|[H|H]]; apply Hr; cbn; tauto.
Qed.
Lemma column_stack_length {T} sh (x y z : list T) : length x = size sh -> length y = size sh -> length z = size sh -> length (column_stack sh x y z) = (3 * size sh)%nat.
Proof.
  intros Lx Ly Lz. unfold column_stack.
  assert (G : forall m k, size sh = (m * k)%nat ->
    length (concat (map (fun r => let '(a, b, c) := r in a ++ b ++ c) (combine (combine (rows_of m k x) (rows_of m k y)) (rows_of m k z)))) = (3 * size sh)%nat).
  { intros m k E. destruct (rows_of_spec k m x ltac:(lia)) as (A1 & B1 & _). destruct (rows_of_spec k m y ltac:(lia)) as (A2 & B2 & _). destruct (rows_of_spec k m z ltac:(lia)) as (A3 & B3 & _).
    rewrite (stack_length k); [rewrite A1; lia|lia|lia|]. intros r [H|[H|H]]; auto. }
  destruct sh as [|m rest]; apply G; [reflexivity|reflexivity].
Qed.
Lemma size_one l : size l = 1%nat <-> forall d, In d l -> d = 1%nat.
Proof.
  induction l as [|a l IH]; [split; [contradiction|reflexivity]|]. cbn [size fold_right]. fold (size l). split.
  - intros E. apply Nat.eq_mul_1 in E. destruct E as (-> & E). intros d [<-|Hd]; [reflexivity|]. apply IH; assumption.
  - intros Hd. rewrite (Hd a) by (left; reflexivity). rewrite (proj2 IH); [reflexivity|]. intros d H. apply Hd. right. exact H.
Qed.
Lemma start_shapes {T} `{Num T} (a b : array T) : well_formed a -> well_formed b -> a_shape b = a_shape a -> (0 < size (a_shape a))%nat ->
  (exists pos, follow_start a b = Ok pos) <-> (exists n, a_shape a = [n]) \/ (a_shape a <> [] /\ forall d, In d (a_shape a) -> d = 1%nat).
Proof.
  intros Wa Wb Es Hs. unfold follow_start. destruct (list_eq_dec Nat.eq_dec (a_shape b) (a_shape a)) as [_|N]; [|contradiction]. cbn [negb].
  set (pos := column_stack _ _ _ _). cbv zeta.
  assert (L : length pos = (3 * size (a_shape a))%nat).
  { unfold pos. apply column_stack_length; [exact Wa|rewrite <- Es; exact Wb|rewrite map_length; exact Wa]. }
  destruct (rows3_total _ pos L) as (lines & El & Ll). rewrite El. cbn [bind]. rewrite Ll, L.
  destruct (a_shape a) as [|m rest] eqn:Esh.
  { cbn [mask_fits]. split; [intros (p & C); discriminate|]. intros [(n & C)|(C & _)]; [discriminate|congruence]. }
  cbn [mask_fits]. cbn [size fold_right] in *. fold (size rest) in *.
  destruct (Nat.eqb_spec m (m * size rest)) as [E|E].
  2:{ split; [intros (p & C); discriminate|]. intros [(n & C)|(_ & C)].
      - injection C as -> ->. cbn in E. lia.
      - exfalso. apply E. rewrite (proj2 (size_one rest)); [lia|]. intros d Hd. apply C. right. exact Hd. }
  assert (R1 : size rest = 1%nat) by nia. rewrite R1, Nat.mul_1_r in *.
  destruct rest as [|d rest].
  - cbn [last removelast]. cbn [size fold_right]. rewrite Nat.eqb_refl. rewrite orb_true_r. cbn [orb].
    replace (1 * (if (m =? 1)%nat then m else m))%nat with m by (destruct (m =? 1)%nat; lia). rewrite Nat.eqb_refl.
    split; [intros _; left; exists m; reflexivity|]. intros _. eexists. reflexivity.
  - assert (Hone := proj1 (size_one (d :: rest)) R1).
    assert (Hl : last (m :: d :: rest) 0%nat = 1%nat).
    { change (last (m :: d :: rest) 0%nat) with (last (d :: rest) 0%nat). apply Hone.
      assert (Q : exists l x, d :: rest = l ++ [x]) by (destruct (@exists_last _ (d :: rest)) as (l & x & Q); [discriminate|eauto]).
      destruct Q as (l & x & Q). rewrite Q. rewrite last_last. apply in_or_app. right. left. reflexivity. }
    rewrite Hl. cbn [Nat.eqb orb].
    assert (Hr : size (removelast (m :: d :: rest)) = m).
    { change (removelast (m :: d :: rest)) with (m :: removelast (d :: rest)). cbn [size fold_right]. fold (size (removelast (d :: rest))).
      rewrite (proj2 (size_one (removelast (d :: rest)))); [lia|]. intros x Hx. apply Hone.
      assert (Q : exists l y, d :: rest = l ++ [y]) by (destruct (@exists_last _ (d :: rest)) as (l & y & Q); [discriminate|eauto]).
      destruct Q as (l & y & Q). rewrite Q in Hx |- *. rewrite removelast_last in Hx. apply in_or_app. left. exact Hx. }
    rewrite Hr. destruct (Nat.eqb_spec (3 * (m * m)) (3 * m)) as [E3|E3].
    + split; [intros _|intros _; eexists; reflexivity]. right. split; [discriminate|]. intros x [<-|Hx]; [nia|apply Hone; exact Hx].
    + split; [intros (p & C); discriminate|]. intros [(n & C)|(_ & C)]; [discriminate|]. exfalso. apply E3. rewrite (C m) by (left; reflexivity). reflexivity.
Qed.
Lemma column_stack_lines {T} : forall (x y z : list T), length y = length x -> length z = length x -> column_stack [length x] x y z = flat3 (combine (combine x y) z).
Proof.
  unfold column_stack. cbn [size fold_right].
  induction x as [|a x IH]; intros [|b y] [|c z] Ly Lz; try discriminate; [reflexivity|].
  cbn [length rows_of firstn skipn combine map concat flat3 flat_map app]. f_equal. f_equal. f_equal. apply IH; [cbn in Ly; lia|cbn in Lz; lia].
Qed.
Lemma inside_ev sqrt (s : scene R) bw : forall ev lines, length lines = length ev -> (forall r z l, In (r, z, l) lines -> outside s r z = false) ->
  map (fun ex => fst (direction sqrt s bw (fst ex) (snd ex))) (combine ev lines) = ev.
Proof.
  induction ev as [|e ev IHe]; intros [|[[r z] l] lines] Ll Ho; try discriminate; [reflexivity|].
  cbn [combine map]. f_equal.
  - unfold direction. cbv zeta. cbn [fst snd]. rewrite (Ho r z l) by (left; reflexivity). reflexivity.
  - apply IHe; [cbn in Ll; lia|]. intros r' z' l' H. apply (Ho r' z' l'). right. exact H.
Qed.
