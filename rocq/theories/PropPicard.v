(** C48-C51, C108, C109: the Picard iteration. *)
From Coq Require Import String List Arith ZArith QArith Bool Reals Lia Lra.
From Verif Require Import Py Num Numpy Critical Equilibrium EquilibriumProofs Picard PicardProofs.
Import ListNotations.
Local Open Scope R_scope.

(** [nsolve] and [ncon] count the calls of eq.solve and of the constraint function, whether they
    succeed or not. *)
Definition counts {E} (o : ops (T := R) E) (nsolve ncon : E -> nat) : Prop :=
  (forall b e, nsolve (set_check E o b e) = nsolve e /\ ncon (set_check E o b e) = ncon e) /\
  (forall e psi pb, nsolve (fst (eq_solve E o e psi pb)) = S (nsolve e) /\ ncon (fst (eq_solve E o e psi pb)) = ncon e) /\
  (forall f e, constrain E o = Some f -> nsolve (fst (f e)) = nsolve e /\ ncon (fst (f e)) = S (ncon e)).
(** no operation raises x *)
Definition never_raises {E} (o : ops (T := R) E) (x : exn) : Prop :=
  (forall e, eq_psi E o e <> Raise x) /\ (forall e psi pb, snd (eq_solve E o e psi pb) <> Raise x) /\
  (forall f e, constrain E o = Some f -> snd (f e) <> Raise x).
Definition calls (c : bool) (n : nat) : nat := if c then n else 0%nat.
Definition has_constraint {E} (o : ops (T := R) E) : bool := match constrain E o with Some _ => true | None => false end.

Section Counting.
  Variables (nx ny : nat) (E : Type) (o : ops (T := R) E) (p : options (T := R)) (nsolve ncon : E -> nat).
  Hypothesis HC : counts o nsolve ncon.
  Lemma run_count e : nsolve (fst (run_constrain E o e)) = nsolve e /\ ncon (fst (run_constrain E o e)) = (ncon e + calls (has_constraint o) 1)%nat.
  Proof.
    unfold run_constrain, has_constraint. destruct (constrain E o) as [f|] eqn:Ef; cbn [calls fst]; [|lia].
    destruct HC as (_ & _ & H3). specialize (H3 f e Ef). lia.
  Qed.
  Lemma turn_count e v e' r : turn nx ny E o p e v = (e', r) ->
    match r with
    | Ok (inl h) => nsolve e' = S (nsolve e) /\ ncon e' = ncon e /\ List.length h = S (List.length (history v))
    | Ok (inr v') => nsolve e' = S (nsolve e) /\ ncon e' = (ncon e + calls (has_constraint o) 1)%nat /\
        List.length (history v') = S (List.length (history v)) /\ iteration v' = (iteration v + 1)%Z /\ exceeded p (iteration v') = false
    | Raise x => (nsolve e' <= S (nsolve e))%nat /\ (x = RuntimeError -> never_raises o RuntimeError -> nsolve e' = S (nsolve e) /\ exceeded p (iteration v + 1) = true)
    end.
  Proof.
    rewrite turn_eq. cbv zeta. destruct HC as (H1 & H2 & H3). set (e0 := set_check E o (flag p v) e). assert (N0 := H1 (flag p v) e). fold e0 in N0. intros Et.
    destruct (if flag p v then _ else _) as [pb|x] eqn:Epb.
    2:{ injection Et as <- <-. split; [lia|]. intros -> _. destruct (flag p v); [|discriminate]. destruct (bndry_flux E o e0); discriminate. }
    assert (N1 := H2 e0 (psi v) pb). destruct (eq_solve E o e0 (psi v) pb) as [e1 [u|x]] eqn:Es; cbn [fst] in N1.
    2:{ injection Et as <- <-. split; [lia|]. intros -> (_ & Hn & _). exfalso. apply (Hn e0 (psi v) pb). rewrite Es. reflexivity. }
    destruct (bndry_flux E o e1) as [ob|]; [|injection Et as <- <-; split; [lia|discriminate]].
    destruct (eq_psi E o e1) as [psi1|x] eqn:Ep; [|injection Et as <- <-; split; [lia|intros -> (Hn & _); exfalso; apply (Hn e1 Ep)]].
    destruct (test nx ny E o p v e1 ob psi1).
    - injection Et as <- <-. rewrite app_length. cbn [List.length]. lia.
    - assert (N2 := run_count e1). destruct (run_constrain E o e1) as [e2 [w|x]] eqn:Er; cbn [fst] in N2.
      2:{ injection Et as <- <-. split; [lia|]. intros -> (_ & _ & Hn). exfalso. unfold run_constrain in Er. destruct (constrain E o) as [f|] eqn:Ef; [|discriminate].
          apply (Hn f e1 eq_refl). rewrite Er. reflexivity. }
      destruct (eq_psi E o e2) as [psi2|x] eqn:Ep2; [|injection Et as <- <-; split; [lia|intros -> (Hn & _); exfalso; apply (Hn e2 Ep2)]].
      destruct (exceeded p (iteration v + 1)) eqn:Ex.
      + injection Et as <- <-. split; [lia|]. intros _ _. split; [lia|reflexivity].
      + injection Et as <- <-. cbn [history iteration]. rewrite app_length. cbn [List.length]. split; [lia|]. split; [lia|]. split; [lia|]. split; [reflexivity|exact Ex].
  Qed.
End Counting.

Lemma below_dummy r : 0 <= r -> below (T := R) (Some (2 * r)) r = false.
Proof. intros Hr. cbn [below]. nR. apply R_ltb_false. lra. Qed.
Lemma exceeded_bound p it : exceeded p it = false -> forall m, maxits p = Some m -> m <> 0%Z -> (it <= m)%Z.
Proof. unfold exceeded. intros Hx m Em Hm. rewrite Em in Hx. apply andb_false_iff in Hx. destruct Hx as [Hx|Hx]; [apply negb_false_iff in Hx; apply Z.eqb_eq in Hx; lia|apply Z.ltb_ge in Hx; lia]. Qed.

(** C48 — with maxits = m, not 0, there are at most max(0, m) + 1 solves; when solve returns
    the history has one entry for each solve, and the constraint function has been called once
    before the loop and once for each turn but the last. *)
Theorem C48_calls : forall nx ny E (o : ops (T := R) E) p nsolve ncon fuel e e' r, counts o nsolve ncon ->
  picard nx ny E o p fuel e = (e', r) ->
  (forall m, maxits p = Some m -> m <> 0%Z -> (nsolve e' <= nsolve e + Z.to_nat (Z.max 0 m) + 1)%nat) /\
  (forall h, r = Ok h -> (1 <= List.length h)%nat /\ nsolve e' = (nsolve e + List.length h)%nat /\
     ncon e' = (ncon e + calls (has_constraint o) (List.length h))%nat).
Proof.
  intros nx ny E o p nsolve ncon fuel e e' r HC Ep. unfold picard in Ep.
  assert (N0 := run_count E o nsolve ncon HC e). destruct (run_constrain E o e) as [e1 [u|x]]; cbn [fst] in N0.
  2:{ injection Ep as <- <-. split; [intros; lia|discriminate]. }
  destruct (eq_psi E o e1) as [psi0|x]; [|injection Ep as <- <-; split; [intros; lia|discriminate]].
  set (I := fun (e : E) (v : vars (T := R)) => iteration v = Z.of_nat (List.length (history v)) /\ (0 <= iteration v)%Z /\ nsolve e = (nsolve e1 + List.length (history v))%nat /\
            ncon e = (ncon e1 + calls (has_constraint o) (List.length (history v)))%nat /\ (iteration v = 0%Z \/ exceeded p (iteration v) = false)).
  assert (Hstep : forall e v e' v', I e v -> turn nx ny E o p e v = (e', Ok (inr v')) -> I e' v').
  { intros ea va eb vb (I1 & I2 & I3 & I4 & I5) Et. assert (Tc := turn_count nx ny E o p nsolve ncon HC _ _ _ _ Et). cbv beta iota in Tc. destruct Tc as (T1 & T2 & T3 & T4 & T5).
    unfold I. rewrite T3. split; [lia|]. split; [lia|]. split; [lia|]. split; [|right; exact T5]. rewrite T2, I4. unfold calls. destruct (has_constraint o); lia. }
  destruct (loop_inv nx ny E o p I Hstep fuel e1 (mkvars psi0 0 0 None false [])) with (e' := e') (r := r) as (ea & va & (I1 & I2 & I3 & I4 & I5) & Hr).
  { unfold I. cbn. split; [reflexivity|]. split; [lia|]. split; [lia|]. split; [unfold calls; destruct (has_constraint o); lia|]. left. reflexivity. }
  { exact Ep. }
  assert (B : forall m, maxits p = Some m -> m <> 0%Z -> (List.length (history va) <= Z.to_nat (Z.max 0 m))%nat).
  { intros m Em Hm. destruct I5 as [I5|I5]; [lia|]. assert (Hb := exceeded_bound p _ I5 m Em Hm). lia. }
  destruct r as [h|x].
  - assert (Tc := turn_count nx ny E o p nsolve ncon HC _ _ _ _ Hr). cbv beta iota in Tc. destruct Tc as (T1 & T2 & T3). split.
    + intros m Em Hm. specialize (B m Em Hm). lia.
    + intros h' Eh. injection Eh as <-. split; [lia|]. split; [lia|]. rewrite T2, I4, T3. destruct N0 as (_ & ->). unfold calls. destruct (has_constraint o); lia.
  - split; [|discriminate]. intros m Em Hm. specialize (B m Em Hm). destruct Hr as [Hr|(_ & ->)]; [|lia].
    assert (Tc := turn_count nx ny E o p nsolve ncon HC _ _ _ _ Hr). cbv beta iota in Tc. lia.
Qed.
Print Assumptions C48_calls.
(** It ends: with enough fuel the outcome is a history, the RuntimeError after exactly
    max(0, m) + 1 solves, or an exception of an operation. *)
Theorem C48_ends : forall nx ny E (o : ops (T := R) E) p nsolve ncon fuel e e' r m, counts o nsolve ncon ->
  maxits p = Some m -> m <> 0%Z -> (Z.to_nat (Z.max 0 m) < fuel)%nat ->
  picard nx ny E o p fuel e = (e', r) ->
  (never_raises o OutOfFuel -> r <> Raise OutOfFuel) /\
  (never_raises o RuntimeError -> r = Raise RuntimeError -> nsolve e' = (nsolve e + Z.to_nat (Z.max 0 m) + 1)%nat).
Proof.
  intros nx ny E o p nsolve ncon fuel e e' r m HC Em Hm Hf Ep. unfold picard in Ep.
  assert (N0 := run_count E o nsolve ncon HC e). destruct (run_constrain E o e) as [e1 [u|x]] eqn:Er; cbn [fst] in N0.
  2:{ injection Ep as <- <-. unfold run_constrain in Er. destruct (constrain E o) as [f|] eqn:Ef; [|discriminate].
      split; intros (_ & _ & Hn); specialize (Hn f e Ef); rewrite Er in Hn; cbn in Hn; congruence. }
  destruct (eq_psi E o e1) as [psi0|x] eqn:Eps; [|injection Ep as <- <-; split; intros (Hn & _); specialize (Hn e1); congruence].
  assert (G : forall fuel e v, (0 <= iteration v)%Z -> (iteration v = 0%Z \/ (iteration v <= m)%Z) -> nsolve e = (nsolve e1 + Z.to_nat (iteration v))%nat ->
             (Z.max 0 m - iteration v < Z.of_nat fuel)%Z -> loop nx ny E o p fuel e v = (e', r) ->
             (never_raises o OutOfFuel -> r <> Raise OutOfFuel) /\
             (never_raises o RuntimeError -> r = Raise RuntimeError -> nsolve e' = (nsolve e1 + Z.to_nat (Z.max 0 m) + 1)%nat)).
  { clear - HC Em Hm. induction fuel as [|k IH]; intros e v H0 H1 H2 H3 El; [lia|]. cbn [loop] in El.
    destruct (turn nx ny E o p e v) as [ea [[h|va]|x]] eqn:Et.
    - injection El as <- <-. split; discriminate.
    - assert (Tc := turn_count nx ny E o p nsolve ncon HC _ _ _ _ Et). cbv beta iota in Tc. destruct Tc as (T1 & T2 & T3 & T4 & T5).
      assert (Hb := exceeded_bound p _ T5 m Em Hm). apply (IH ea va); [lia|right; exact Hb|rewrite T4; lia|lia|exact El].
    - injection El as <- <-. split.
      + intros Hn Ex. injection Ex as ->. rewrite turn_eq in Et. cbv zeta in Et. destruct Hn as (Hn1 & Hn2 & Hn3). set (e0 := set_check E o (flag p v) e) in *.
        destruct (if flag p v then _ else _) as [pb|x] eqn:Epb.
        2:{ injection Et as <- ->. destruct (flag p v); [|discriminate]. destruct (bndry_flux E o e0); discriminate. }
        specialize (Hn2 e0 (psi v) pb). destruct (eq_solve E o e0 (psi v) pb) as [e2 [u|x]]; cbn [snd] in Hn2; [|injection Et as <- ->; congruence].
        destruct (bndry_flux E o e2) as [ob|]; [|discriminate]. assert (Hn1a := Hn1 e2). destruct (eq_psi E o e2) as [psi1|x]; [|injection Et as <- ->; congruence].
        destruct (test nx ny E o p v e2 ob psi1); [discriminate|]. destruct (run_constrain E o e2) as [e3 [w|x]] eqn:Er.
        2:{ injection Et as <- ->. unfold run_constrain in Er. destruct (constrain E o) as [f|] eqn:Ef; [|discriminate]. apply (Hn3 f e2 eq_refl). rewrite Er. reflexivity. }
        assert (Hn1b := Hn1 e3). destruct (eq_psi E o e3) as [psi2|x]; [|injection Et as <- ->; congruence]. destruct (exceeded p (iteration v + 1)); discriminate.
      + intros Hn Ex. injection Ex as ->. assert (Tc := turn_count nx ny E o p nsolve ncon HC _ _ _ _ Et). cbv beta iota in Tc. destruct Tc as (_ & Tc).
        destruct (Tc eq_refl Hn) as (T1 & T2). unfold exceeded in T2. rewrite Em in T2. apply andb_true_iff in T2. destruct T2 as (_ & T2). apply Z.ltb_lt in T2. lia. }
  destruct (G fuel e1 (mkvars psi0 0 0 None false [])) as (G1 & G2); cbn [iteration]; try lia; [exact Ep|]. split; [exact G1|].
  intros Hn Hr. specialize (G2 Hn Hr). lia.
Qed.
Print Assumptions C48_ends.
(** A sequence of states given in advance: psi, boundary flux and is_limited after k solves; the
    constraint function only counts. *)
Definition seqops {T} (ps : nat -> arr2 T) (bs : nat -> option T) (ls : nat -> bool) : ops (T := T) (nat * nat) :=
  mkops (nat * nat) (fun e => Ok (ps (fst e))) (fun _ e => e) (fun e _ _ => ((S (fst e), snd e), Ok tt)) (fun e => ls (fst e)) (fun e => Some (bs (fst e)))
    (Some (fun e => ((fst e, S (snd e)), Ok tt))).
Lemma seqops_counts ps bs ls : counts (seqops ps bs ls) fst snd.
Proof. split; [intros b e; split; reflexivity|]. split; [intros e psi pb; split; reflexivity|]. intros f e Ef. injection Ef as <-. split; reflexivity. Qed.
Lemma seqops_safe ps bs ls x : never_raises (seqops ps bs ls) x.
Proof. split; [discriminate|]. split; [discriminate|]. intros f e Ef. injection Ef as <-. discriminate. Qed.
Definition plain_options {T} `{Num T} (m : option Z) (rt at_ : T) : options (T := T) := mkopts rt at_ (nofZ 0) None m false false 0.
(** a flux that halves its distance to the solution: three solves, three calls of the constraint *)
Example C48_example : counts (seqops (fun k i _ => INR i) (fun _ => Some 1) (fun _ => false)) fst snd /\
  fst (picard 2 2 (nat * nat) (seqops (fun k i _ => match i with O => 0 | _ => 1 + (1 # 2 ^ Pos.of_nat (S k)) end)%Q (fun _ => Some (1 # 1)%Q) (fun _ => false))
         (plain_options (Some 50%Z) (1 # 10)%Q (1 # 1000)%Q) 52 (0, 0)%nat) = (3, 3)%nat /\
  picard 2 2 (nat * nat) (seqops (fun k i _ => match i with O => 0 | _ => inject_Z (Z.of_nat k) end)%Q (fun _ => Some (1 # 1)%Q) (fun _ => false))
         (plain_options (Some 3%Z) (1 # 100)%Q (1 # 1000)%Q) 52 (0, 0)%nat = ((4, 5)%nat, Raise RuntimeError).
Proof. split; [apply seqops_counts|]. split; vm_compute; reflexivity. Qed.

(** C49 — every maxits but 0 is a bound (C48).  C49 is false for 0, which is no bound at all: for
    any number of solves there is an execution that has not ended after them. *)
Theorem C49_no_bound : forall nx ny ps ls p fuel e, 0 <= rtol p -> (maxits p = Some 0%Z \/ maxits p = None) ->
  exists e', picard nx ny (nat * nat) (seqops ps (fun _ => None) ls) p fuel e = (e', Raise OutOfFuel) /\ fst e' = (fst e + fuel)%nat.
Proof.
  intros nx ny ps ls p fuel e Hr Hm. unfold picard. cbn [run_constrain seqops constrain eq_psi].
  assert (Hex : forall it, exceeded p it = false) by (intros it; unfold exceeded; destruct Hm as [-> | ->]; reflexivity).
  assert (G : forall fuel e v, change v = None -> exists e', loop nx ny (nat * nat) (seqops ps (fun _ => None) ls) p fuel e v = (e', Raise OutOfFuel) /\ fst e' = (fst e + fuel)%nat).
  { clear e fuel. induction fuel as [|k IH]; intros e v Hv; [exists e; split; [reflexivity|lia]|]. cbn [loop].
    rewrite turn_eq. cbv zeta. cbn [seqops set_check bndry_flux eq_solve eq_psi].
    replace (if flag p v then Ok None else Ok (user_bndry p)) with (Ok (A := option R) (if flag p v then None else user_bndry p)) by (destruct (flag p v); reflexivity).
    assert (Ht : forall e1 psi1, test nx ny (nat * nat) (seqops ps (fun _ => None) ls) p v e1 None psi1 = false).
    { intros e1 psi1. unfold test, newrel, newch. rewrite Hv, below_dummy by exact Hr. cbn [option_map below orb]. rewrite andb_false_r. reflexivity. }
    rewrite Ht. cbn [run_constrain seqops constrain fst snd]. rewrite Hex.
    destruct (IH (S (fst e), S (snd e)) (mkvars (fun i j => (1 - blend p) * ps (S (fst e)) i j + blend p * psi v i j) (iteration v + 1) (newb v None) (newch v None)
      (been_limited v || limited (nat * nat) (seqops ps (fun _ => None) ls) (S (fst e), snd e)) (history v ++ [entry nx ny v (ps (S (fst e)))]))) as (e' & E1 & E2); [exact Hv|].
    exists e'. split; [exact E1|]. cbn [fst] in E2. lia. }
  destruct (G fuel (fst e, S (snd e)) (mkvars (ps (fst e)) 0 0 None false [])) as (e' & E1 & E2); [reflexivity|]. exists e'. split; [exact E1|exact E2].
Qed.
Print Assumptions C49_no_bound.
Theorem C49_zero_refuted : exists nx ny E (o : ops (T := R) E) p nsolve ncon e, counts o nsolve ncon /\ maxits p = Some 0%Z /\
  forall n, exists fuel e', picard nx ny E o p fuel e = (e', Raise OutOfFuel) /\ (n <= nsolve e')%nat.
Proof.
  exists 2%nat, 2%nat, (nat * nat)%type, (seqops (fun _ i _ => INR i) (fun _ => None) (fun _ => false)), (plain_options (Some 0%Z) (1 / 1000) (1 / 1000)), fst, snd, (0, 0)%nat.
  split; [apply seqops_counts|]. split; [reflexivity|]. intros n. exists n.
  destruct (C49_no_bound 2 2 (fun _ i _ => INR i) (fun _ => false) (plain_options (Some 0%Z) (1 / 1000) (1 / 1000)) n (0, 0)%nat) as (e' & E1 & E2); [cbn; lra|left; reflexivity|].
  exists e'. split; [exact E1|]. cbn [fst] in E2. lia.
Qed.
Print Assumptions C49_zero_refuted.

(** C50 — what holds when solve returns.  [last] is the boundary flux found last, 0 before any
    is found. *)
Definition tracks_boundary {E} (o : ops (T := R) E) (last : E -> R) : Prop :=
  (forall b e, last (set_check E o b e) = last e) /\
  (forall e psi pb, last (fst (eq_solve E o e psi pb)) = match bndry_flux E o (fst (eq_solve E o e psi pb)) with Some (Some b) => b | _ => last e end) /\
  (forall f e, constrain E o = Some f -> last (fst (f e)) = last e).
Lemma run_last E (o : ops (T := R) E) last e : tracks_boundary o last -> last (fst (run_constrain E o e)) = last e.
Proof. intros (_ & _ & H). unfold run_constrain. destruct (constrain E o) as [f|]; [apply H; reflexivity|reflexivity]. Qed.
Theorem C50_converged : forall nx ny E (o : ops (T := R) E) p last fuel e e' h, (0 < nx)%nat -> (0 < ny)%nat -> tracks_boundary o last -> last e = 0 ->
  picard nx ny E o p fuel e = (e', Ok h) ->
  exists e0 psi0 pb chk psi1, eq_solve E o (set_check E o chk e0) psi0 pb = (e', Ok tt) /\ eq_psi E o e' = Ok psi1 /\
    (* psi *)
    ((forall i j, (i < nx)%nat -> (j < ny)%nat -> Rabs (psi0 i j - psi1 i j) < atol p) \/
     (exists i1 j1 i2 j2, (i1 < nx)%nat /\ (j1 < ny)%nat /\ (i2 < nx)%nat /\ (j2 < ny)%nat /\ psi1 i2 j2 < psi1 i1 j1 /\
        forall i j, (i < nx)%nat -> (j < ny)%nat -> Rabs (psi0 i j - psi1 i j) < rtol p * (psi1 i1 j1 - psi1 i2 j2))) /\
    (* the boundary flux, if the last solve found one *)
    (forall b, bndry_flux E o e' = Some (Some b) -> Rabs (last e0 - b) < atol p \/ (b <> 0 /\ Rabs (last e0 - b) < rtol p * Rabs b)) /\
    (wait p = true -> limited E o e' = true) /\
    (* the last solve started from the flux of the equilibrium *)
    (blend p = 0 -> exists psi, eq_psi E o e0 = Ok psi /\ forall i j, psi0 i j = psi i j).
Proof.
  intros nx ny E o p last fuel e e' h Hx Hy HT H0 Ep.
  set (I := fun (e : E) (v : vars (T := R)) => bndry v = last e /\ (blend p = 0 -> exists psi', eq_psi E o e = Ok psi' /\ forall i j, psi v i j = psi' i j)).
  destruct (picard_inv nx ny E o p I e) with (fuel := fuel) (e' := e') (h := h) as (ea & va & (I1 & I2) & Et); [| |exact Ep|].
  { intros e1 psi0 Er Eps. split; cbn [bndry psi].
    - assert (Hl := run_last E o last e HT). rewrite Er in Hl. cbn [fst] in Hl. lra.
    - intros _. exists psi0. split; [exact Eps|reflexivity]. }
  { intros ea va eb vb (I1 & I2) Et. destruct (turn_next nx ny E o p _ _ _ _ Et) as (e1 & ob & psi1 & psi2 & (pb & Hg & Es & Eb & Eps) & _ & Er & Ep2 & _ & ->). split; cbn [bndry psi].
    - assert (Hl := run_last E o last e1 HT). rewrite Er in Hl. cbn [fst] in Hl. destruct HT as (T1 & T2 & T3).
      specialize (T2 (set_check E o (flag p va) ea) (psi va) pb). rewrite Es in T2. cbn [fst] in T2. rewrite Eb, T1 in T2. unfold newb. destruct ob as [b|]; lra.
    - intros Hb. exists psi2. split; [exact Ep2|]. intros i j. rewrite Hb. ring. }
  destruct (turn_done nx ny E o p _ _ _ _ Et) as (ob & psi1 & (pb & Hg & Es & Eb & Eps) & Ht & ->).
  unfold test in Ht. apply andb_true_iff in Ht. destruct Ht as (Ht & Hw). apply andb_true_iff in Ht. destruct Ht as (Hp & Hb).
  exists ea, (psi va), pb, (flag p va), psi1. split; [exact Es|]. split; [exact Eps|]. split; [|split; [|split]].
  - destruct (amax_spec nx ny (fun i j => Rabs (psi va i j - psi1 i j)) Hx Hy) as (M1 & _). fold (maxch nx ny va psi1) in M1.
    apply orb_true_iff in Hp. destruct Hp as [Hp|Hp].
    + apply R_ltb_true in Hp. left. intros i j Hi Hj. specialize (M1 i j Hi Hj). cbv beta in M1. lra.
    + right. unfold relch, quotient in Hp. nR. destruct (R_eqb _ 0) eqn:E0; cbn [below] in Hp; [discriminate|]. apply R_eqb_false in E0. apply R_ltb_true in Hp.
      destruct (amax_spec nx ny psi1 Hx Hy) as (A1 & i1 & j1 & Hi1 & Hj1 & A2). destruct (amin_spec nx ny psi1 Hx Hy) as (B1 & i2 & j2 & Hi2 & Hj2 & B2).
      exists i1, j1, i2, j2. do 4 (split; [assumption|]). rewrite <- A2, <- B2. assert (Hle := A1 0%nat 0%nat Hx Hy). assert (Hle2 := B1 0%nat 0%nat Hx Hy).
      set (d := amax nx ny psi1 - amin nx ny psi1) in *. assert (Hd : 0 < d) by (unfold d in *; lra). split; [unfold d in Hd; lra|]. intros i j Hi Hj.
      specialize (M1 i j Hi Hj). cbv beta in M1. apply Rle_lt_trans with (1 := M1). apply (Rmult_lt_compat_r d) in Hp; [|exact Hd].
      replace (maxch nx ny va psi1 / d * d) with (maxch nx ny va psi1) in Hp by (field; lra). exact Hp.
  - intros b Eb'. rewrite Eb in Eb'. injection Eb' as ->. rewrite <- I1. unfold newrel, newch in Hb. cbn [option_map] in Hb. apply orb_true_iff in Hb. destruct Hb as [Hb|Hb].
    + right. unfold quotient in Hb. nR. destruct (R_eqb b 0) eqn:E0; cbn [option_map below] in Hb; [discriminate|]. apply R_eqb_false in E0. apply R_ltb_true in Hb.
      split; [exact E0|]. unfold Rdiv in Hb. rewrite Rabs_mult, Rabs_inv in Hb. assert (Hab := Rabs_pos_lt b E0). apply (Rmult_lt_compat_r (Rabs b)) in Hb; [|exact Hab].
      rewrite Rmult_assoc, Rinv_l, Rmult_1_r in Hb by lra. exact Hb.
    + left. apply R_ltb_true in Hb. exact Hb.
  - intros Hw2. rewrite Hw2 in Hw. exact Hw.
  - exact I2.
Qed.
Print Assumptions C50_converged.
(** If no solve ever finds a boundary flux, it never returns. *)
Theorem C50_never_without_boundary : forall nx ny E (o : ops (T := R) E) p fuel e e' h, 0 <= rtol p ->
  (forall e psi pb b, bndry_flux E o (fst (eq_solve E o e psi pb)) <> Some (Some b)) ->
  picard nx ny E o p fuel e <> (e', Ok h).
Proof.
  intros nx ny E o p fuel e e' h Hr Hn Ep.
  destruct (picard_inv nx ny E o p (fun _ v => change v = None) e) with (fuel := fuel) (e' := e') (h := h) as (ea & va & I1 & Et); [reflexivity| |exact Ep|].
  { intros ea va eb vb I1 Et. destruct (turn_next nx ny E o p _ _ _ _ Et) as (e1 & ob & psi1 & psi2 & (pb & Hg & Es & Eb & Eps) & _ & Er & Ep2 & _ & ->). cbn [change]. unfold newch.
    destruct ob as [b|]; [|exact I1]. exfalso. apply (Hn (set_check E o (flag p va) ea) (psi va) pb b). rewrite Es. exact Eb. }
  destruct (turn_done nx ny E o p _ _ _ _ Et) as (ob & psi1 & (pb & Hg & Es & Eb & Eps) & Ht & ->).
  destruct ob as [b|]; [apply (Hn (set_check E o (flag p va) ea) (psi va) pb b); rewrite Es; exact Eb|].
  unfold test, newrel, newch in Ht. rewrite I1, below_dummy in Ht by exact Hr. cbn [option_map below orb] in Ht. rewrite andb_false_r in Ht. discriminate.
Qed.
Print Assumptions C50_never_without_boundary.
(** the sequence machine with its k-th boundary flux tracked *)
Example C50_example : let o := seqops (T := R) (fun k i _ => INR i) (fun _ => Some 1) (fun _ => false) in
  tracks_boundary o (fun e => match fst e with O => 0 | _ => 1 end) /\ (fun e : nat * nat => match fst e with O => 0 | _ => 1 end) (0, 0)%nat = 0.
Proof. split; [|reflexivity]. split; [reflexivity|]. split; [reflexivity|]. intros f e Ef. injection Ef as <-. reflexivity. Qed.

(** C51 is false: a boundary that is found twice with the same flux and then lost.  In the third
    turn psi has settled, no boundary is found, and solve returns. *)
Theorem C51_lost_boundary_refuted : exists nx ny E (o : ops (T := Q) E) p fuel e e' h, (0 < rtol p)%Q /\ (0 < atol p)%Q /\
  picard nx ny E o p fuel e = (e', Ok h) /\ bndry_flux E o e' = Some None.
Proof.
  exists 2%nat, 2%nat, (nat * nat)%type,
    (seqops (fun k i _ => match i, k with O, _ => 0 | _, O => 1 | _, 1%nat => 2 | _, _ => 3 end)%Q (fun k => match k with 1%nat | 2%nat => Some (1 # 1) | _ => None end)%Q (fun _ => false)),
    (plain_options (Some 50%Z) (1 # 1000)%Q (1 # 1000)%Q), 52%nat, (0, 0)%nat.
  eexists. eexists. split; [reflexivity|]. split; [reflexivity|]. split; vm_compute; reflexivity.
Qed.
Print Assumptions C51_lost_boundary_refuted.
(** It cannot happen in the first turn. *)
Theorem C51_at_least_two : forall nx ny E (o : ops (T := R) E) p fuel e e' h, 0 <= rtol p ->
  picard nx ny E o p fuel e = (e', Ok h) -> bndry_flux E o e' = Some None -> (2 <= List.length h)%nat.
Proof.
  intros nx ny E o p fuel e e' h Hr Ep Hb.
  destruct (picard_inv nx ny E o p (fun _ v => change v = None \/ history v <> []) e) with (fuel := fuel) (e' := e') (h := h) as (ea & va & I1 & Et); [left; reflexivity| |exact Ep|].
  { intros ea va eb vb I1 Et. destruct (turn_next nx ny E o p _ _ _ _ Et) as (e1 & ob & psi1 & psi2 & _ & _ & _ & _ & _ & ->). cbn [history]. right. destruct (history va); discriminate. }
  destruct (turn_done nx ny E o p _ _ _ _ Et) as (ob & psi1 & (pb & Hg & Es & Eb & Eps) & Ht & ->). rewrite Hb in Eb. injection Eb as <-. rewrite app_length. cbn [List.length].
  destruct I1 as [I1|I1]; [|destruct (history va); [congruence|cbn; lia]].
  unfold test, newrel, newch in Ht. rewrite I1, below_dummy in Ht by exact Hr. cbn [option_map below orb] in Ht. rewrite andb_false_r in Ht. discriminate.
Qed.
Print Assumptions C51_at_least_two.

(** C108 — the first turn never counts as converged: the boundary flux is compared with 0, so
    at least two solves are made unless the boundary flux itself is below the tolerance. *)
Theorem C108_first_turn : forall nx ny E (o : ops (T := R) E) p fuel e e' h, 0 <= rtol p <= 1 ->
  (forall e psi pb b, bndry_flux E o (fst (eq_solve E o e psi pb)) = Some (Some b) -> atol p <= Rabs b) ->
  picard nx ny E o p fuel e = (e', Ok h) -> (2 <= List.length h)%nat.
Proof.
  intros nx ny E o p fuel e e' h Hr Hb Ep.
  destruct (picard_inv nx ny E o p (fun _ v => (change v = None /\ bndry v = 0) \/ history v <> []) e) with (fuel := fuel) (e' := e') (h := h) as (ea & va & I1 & Et);
    [left; split; reflexivity| |exact Ep|].
  { intros ea va eb vb I1 Et. destruct (turn_next nx ny E o p _ _ _ _ Et) as (e1 & ob & psi1 & psi2 & _ & _ & _ & _ & _ & ->). cbn [history]. right. destruct (history va); discriminate. }
  destruct (turn_done nx ny E o p _ _ _ _ Et) as (ob & psi1 & (pb & Hg & Es & Eb & Eps) & Ht & ->). rewrite app_length. cbn [List.length].
  destruct I1 as [(I1 & I2)|I1]; [|destruct (history va); [congruence|cbn; lia]]. exfalso.
  unfold test in Ht. apply andb_true_iff in Ht. destruct Ht as (Ht & _). apply andb_true_iff in Ht. destruct Ht as (_ & Ht).
  destruct ob as [b|].
  - assert (Hab : atol p <= Rabs b). { apply (Hb (set_check E o (flag p va) ea) (psi va) pb). rewrite Es. exact Eb. }
    unfold newrel, newch in Ht. rewrite I2 in Ht. replace (0 - b) with (- b) in Ht by ring. apply orb_true_iff in Ht. destruct Ht as [Ht|Ht].
    + unfold quotient in Ht. nR. destruct (R_eqb b 0) eqn:E0; cbn [option_map below] in Ht; [discriminate|]. apply R_eqb_false in E0. apply R_ltb_true in Ht.
      replace (- b / b) with (-1) in Ht by (field; exact E0). rewrite Rabs_left in Ht by lra. lra.
    + cbn [option_map below] in Ht. apply R_ltb_true in Ht. rewrite Rabs_Ropp in Ht. lra.
  - unfold newrel, newch in Ht. rewrite I1, below_dummy in Ht by lra. cbn in Ht. discriminate.
Qed.
Print Assumptions C108_first_turn.
(** An equilibrium that is a fixed point — solving and constraining keep its flux and its
    boundary flux — is recognised after exactly two solves, whatever the blending. *)
Theorem C108_fixed_point : forall nx ny E (o : ops (T := R) E) p (S : E -> Prop) psi0 b fuel e, (0 < nx)%nat -> (0 < ny)%nat -> (2 <= fuel)%nat ->
  0 < rtol p <= 1 -> 0 < atol p <= Rabs b -> wait p = false -> (maxits p = None \/ exists m, maxits p = Some m /\ (0 <= m)%Z) ->
  (forall e, S e -> eq_psi E o e = Ok psi0 /\ bndry_flux E o e = Some (Some b)) ->
  (forall c e, S e -> S (set_check E o c e)) ->
  (forall e psi pb, S e -> (forall i j, psi i j = psi0 i j) -> exists e', eq_solve E o e psi pb = (e', Ok tt) /\ S e') ->
  (forall e, S e -> exists e', run_constrain E o e = (e', Ok tt) /\ S e') ->
  S e -> exists e' c d, picard nx ny E o p fuel e = (e', Ok [(0, c); (0, d)]) /\ S e'.
Proof.
  intros nx ny E o p S psi0 b fuel e Hx Hy Hf Hr Ha Hw Hm Hop Hchk Hsol Hcon He.
  assert (Hz : forall v, (forall i j, psi v i j = psi0 i j) -> maxch nx ny v psi0 = 0).
  { intros v Hv. unfold maxch. destruct (amax_spec nx ny (fun i j => Rabs (psi v i j - psi0 i j)) Hx Hy) as (_ & i & j & _ & _ & ->). rewrite Hv.
    replace (psi0 i j - psi0 i j) with 0 by ring. apply Rabs_R0. }
  assert (Hex : exceeded p 1 = false).
  { unfold exceeded. destruct Hm as [->|(m & -> & Hm)]; [reflexivity|]. destruct (m =? 0)%Z eqn:E0; [reflexivity|]. apply Z.eqb_neq in E0. cbn [negb andb]. apply Z.ltb_ge. lia. }
  assert (Hturn : forall e v, S e -> (forall i j, psi v i j = psi0 i j) -> exists e1, solved E o p e v e1 (Some b) psi0 /\ S e1 /\
            turn nx ny E o p e v = if test nx ny E o p v e1 (Some b) psi0 then (e1, Ok (inl (history v ++ [entry nx ny v psi0])))
              else let (e2, r) := run_constrain E o e1 in
                match r with Raise x => (e2, Raise x) | Ok _ =>
                match eq_psi E o e2 with Raise x => (e2, Raise x) | Ok psi2 =>
                if exceeded p (iteration v + 1) then (e2, Raise RuntimeError)
                else (e2, Ok (inr (mkvars (fun i j => (1 - blend p) * psi2 i j + blend p * psi v i j) (iteration v + 1) (newb v (Some b)) (newch v (Some b))
                           (been_limited v || limited E o e1) (history v ++ [entry nx ny v psi0])))) end end).
  { intros e1 v He1 Hv. set (pb := if flag p v then Some b else user_bndry p). assert (He1c := Hchk (flag p v) e1 He1).
    destruct (Hsol (set_check E o (flag p v) e1) (psi v) pb He1c Hv) as (e2 & Es & He2). exists e2. destruct (Hop e2 He2) as (Ep & Eb).
    split; [|split; [exact He2|]].
    - exists pb. split; [|repeat split; assumption]. unfold given, pb. destruct (flag p v); [apply (Hop _ He1c)|reflexivity].
    - rewrite turn_eq. cbv zeta. replace (if flag p v then _ else _) with (Ok (A := option R) pb) by (unfold pb; destruct (flag p v); [rewrite (proj2 (Hop _ He1c))|]; reflexivity).
      rewrite Es, Eb, Ep. reflexivity. }
  unfold picard. destruct (Hcon e He) as (e1 & Er & He1). rewrite Er, (proj1 (Hop e1 He1)).
  destruct fuel as [|[|fuel]]; [lia|lia|]. cbn [loop]. nR. destruct (Hturn e1 (mkvars psi0 0 0 None false []) He1 ltac:(reflexivity)) as (e2 & Hs & He2 & ->).
  assert (Hb0 : b <> 0) by (intros ->; rewrite Rabs_R0 in Ha; lra).
  assert (T1 : test nx ny E o p (mkvars psi0 0 0 None false []) e2 (Some b) psi0 = false).
  { unfold test, newrel, newch, quotient. cbn [bndry]. nR. rewrite (proj2 (R_eqb_false b 0)) by exact Hb0. cbn [option_map below]. nR.
    replace ((0 - b) / b) with (-1) by (field; exact Hb0). rewrite (Rabs_left (-1)) by lra. replace (0 - b) with (- b) by ring. rewrite Rabs_Ropp.
    rewrite (proj2 (R_ltb_false (- (-1)) (rtol p))) by lra. rewrite (proj2 (R_ltb_false (Rabs b) (atol p))) by lra. cbn [orb]. rewrite andb_false_r. reflexivity. }
  rewrite T1. destruct (Hcon e2 He2) as (e3 & Er2 & He3). rewrite Er2, (proj1 (Hop e3 He3)). cbn [iteration psi history app been_limited orb]. change (0 + 1)%Z with 1%Z. rewrite Hex.
  match goal with |- context [turn nx ny E o p e3 ?v] => set (v1 := v) end.
  destruct (Hturn e3 v1 He3) as (e4 & Hs4 & He4 & ->). { intros i j. unfold v1. cbn [psi]. ring. }
  assert (T2 : test nx ny E o p v1 e4 (Some b) psi0 = true).
  { unfold test. rewrite Hz by (intros i j; unfold v1; cbn [psi]; ring). rewrite (proj2 (R_ltb_true 0 (atol p))) by lra. cbn [orb andb].
    unfold newrel, newch, v1, newb, quotient. cbn [bndry]. nR. replace (b - b) with 0 by ring. cbn [option_map below]. nR. rewrite Rabs_R0. rewrite (proj2 (R_ltb_true 0 (atol p))) by lra.
    rewrite orb_true_r, Hw. reflexivity. }
  rewrite T2. exists e4. unfold entry. rewrite (Hz v1) by (intros i j; unfold v1; cbn [psi]; ring). unfold v1 at 1. cbn [history app]. unfold entry.
  rewrite Hz by (intros i j; reflexivity). eexists. eexists. split; [reflexivity|exact He4].
Qed.
Print Assumptions C108_fixed_point.
(** the sequence machine at rest, with a tolerance of 1 / 1000 *)
Example C108_example : exists e' c d, picard 2 2 (nat * nat) (seqops (fun _ i _ => INR i) (fun _ => Some 1) (fun _ => false)) (plain_options (Some 50%Z) (1 / 1000) (1 / 1000)) 52 (0, 0)%nat
  = (e', Ok [(0, c); (0, d)]).
Proof.
  destruct (C108_fixed_point 2 2 (nat * nat) (seqops (fun _ i _ => INR i) (fun _ => Some 1) (fun _ => false)) (plain_options (Some 50%Z) (1 / 1000) (1 / 1000)) (fun _ => True) (fun i _ => INR i) 1 52 (0, 0)%nat)
    as (e' & c & d & E1 & _).
  - lia.
  - lia.
  - lia.
  - cbn. lra.
  - cbn [plain_options atol]. rewrite Rabs_R1. lra.
  - reflexivity.
  - right. exists 50%Z. split; [reflexivity|lia].
  - intros. split; reflexivity.
  - tauto.
  - intros. eexists. split; [reflexivity|tauto].
  - intros. eexists. split; [reflexivity|tauto].
  - exact I.
  - exists e', c, d. exact E1.
Qed.

(** C109 — waiting for a limited plasma without checking for one.  For the equilibria of
    [Equilibrium.v]: is_limited is only ever set by the check, so a solve that waits for it never
    returns, however well the flux has converged. *)
Lemma update_from_unchecked {P Ctl} spline (e : equilibrium R P Ctl) psi opt xpt b :
  check_limited e = false -> is_limited (bs e) = false -> update_from spline e psi opt xpt = Ok b -> is_limited b = false.
Proof.
  intros Hc Hl E. unfold update_from in E. cbv zeta in E. destruct opt as [|o os]; [injection E as <-; exact Hl|]. rewrite Hc in E. cbn [andb] in E.
  destruct xpt as [|x xs].
  - injection E as <-. reflexivity.
  - inv_bind E. inv_bind E. apply (f_equal (fun o => match o with Ok v => is_limited v | Raise _ => false end)) in E. exact (eq_sym E).
Qed.
Lemma update_own_unchecked {P Ctl} spline (e e' : equilibrium R P Ctl) :
  check_limited e = false -> is_limited (bs e) = false -> update_own spline e = Ok e' -> check_limited e' = false /\ is_limited (bs e') = false.
Proof.
  intros Hc Hl E. unfold update_own in E. inv_bind E. inv_bind E. injection E as <-. split; [exact Hc|].
  match goal with H : update_boundary _ _ _ _ _ = Ok _ |- _ => unfold update_boundary in H; rename H into Eu end. inv_bind Eu. destruct v1 as [opt xpt].
  apply (update_from_unchecked spline e v opt xpt); assumption.
Qed.
Lemma solve_unchecked {P Ctl} G sqrt mu0 lu spline Jt (e e' : equilibrium R P Ctl) q Jtor psi pb :
  (forall q e psi pb J q' b, check_limited e = false -> is_limited (bs e) = false -> Jt q e psi pb = Ok (J, q', b) -> is_limited b = false) ->
  check_limited e = false -> is_limited (bs e) = false -> solve G sqrt mu0 lu spline Jt e q Jtor psi pb = Ok e' -> check_limited e' = false /\ is_limited (bs e') = false.
Proof.
  intros HJ Hc Hl E. unfold solve in E. cbv zeta in E. inv_bind E. rename v into e1.
  destruct (update_own_unchecked spline (with_profiles e (Some q) (control e)) e1 Hc Hl E0) as (C1 & L1).
  inv_bind E. destruct v as [J e2]. inv_bind E. rename v into e3. inv_bind E. inv_bind E. inv_bind E. injection E as <-. cbn [check_limited with_current bs].
  assert (C2 : check_limited e2 = false /\ is_limited (bs e2) = false).
  { destruct Jtor as [J0|]; [injection E1 as _ <-; split; assumption|]. inv_bind E1. inv_bind E1. destruct v3 as [[J1 q1] b1]. injection E1 as _ <-. cbn [check_limited bs with_bs with_profiles].
    split; [exact C1|]. match goal with H : Jt _ _ _ _ = Ok _ |- _ => apply (HJ _ _ _ _ _ _ _ C1 L1 H) end. }
  destruct C2 as (C2 & L2). unfold linear_solve in E2. inv_bind E2. inv_bind E2. inv_bind E2. destruct v4 as [y x]. unfold update_plasma in E2. inv_bind E2.
  apply (update_own_unchecked spline _ e3) in E2; [exact E2|exact C2|exact L2].
Qed.
Theorem C109_wait_without_check : forall (P Ctl : Type) nx ny G sqrt mu0 lu spline Jt c p (s s' : equilibrium R P Ctl * P) fuel h,
  (forall q e psi pb J q' b, check_limited e = false -> is_limited (bs e) = false -> Jt q e psi pb = Ok (J, q', b) -> is_limited b = false) ->
  (forall f s, c = Some f -> is_limited (bs (fst s)) = false -> is_limited (bs (fst (fst (f s)))) = false) ->
  check p = false -> wait p = true -> is_limited (bs (fst s)) = false ->
  picard nx ny _ (eq_ops G sqrt mu0 lu spline Jt c) p fuel s <> (s', Ok h).
Proof.
  intros P Ctl nx ny G sqrt mu0 lu spline Jt c p s s' fuel h HJ Hcn Hc Hw Hs Ep. set (o := eq_ops G sqrt mu0 lu spline Jt c) in *.
  assert (Hrun : forall s, is_limited (bs (fst s)) = false -> is_limited (bs (fst (fst (run_constrain _ o s)))) = false).
  { intros s1 H1. unfold run_constrain, o, eq_ops. cbn [constrain]. destruct c as [f|]; [apply (Hcn f s1 eq_refl H1)|exact H1]. }
  assert (Hsol : forall s v s1 ob psi1, is_limited (bs (fst s)) = false -> solved _ o p s v s1 ob psi1 -> is_limited (bs (fst s1)) = false).
  { intros s1 v s2 ob psi1 H1 (pb & _ & Es & _). unfold flag in Es. rewrite Hc, andb_false_r in Es. unfold o, eq_ops in Es. cbn [eq_solve set_check fst snd] in Es.
    destruct (solve G sqrt mu0 lu spline Jt (with_check (fst s1) false) (snd s1) None (Some (psi v)) pb) as [e2|x] eqn:E2; [|discriminate]. injection Es as <-. cbn [fst].
    exact (proj2 (solve_unchecked G sqrt mu0 lu spline Jt (with_check (fst s1) false) e2 (snd s1) None (Some (psi v)) pb HJ eq_refl H1 E2)). }
  destruct (picard_inv nx ny _ o p (fun s _ => is_limited (bs (fst s)) = false) s) with (fuel := fuel) (e' := s') (h := h) as (ea & va & I1 & Et); [| |exact Ep|].
  - intros e1 psi0 Er _. assert (H1 := Hrun s Hs). rewrite Er in H1. exact H1.
  - intros ea va eb vb I1 Et. destruct (turn_next nx ny _ o p _ _ _ _ Et) as (e1 & ob & psi1 & psi2 & Hsv & _ & Er & _). assert (H1 := Hrun e1 (Hsol _ _ _ _ _ I1 Hsv)). rewrite Er in H1. exact H1.
  - destruct (turn_done nx ny _ o p _ _ _ _ Et) as (ob & psi1 & Hsv & Ht & _). assert (H1 := Hsol _ _ _ _ _ I1 Hsv).
    unfold test in Ht. apply andb_true_iff in Ht. destruct Ht as (_ & Ht). rewrite Hw in Ht. cbn [negb orb] in Ht. unfold o, eq_ops in Ht. cbn [limited] in Ht. rewrite H1 in Ht. discriminate.
Qed.
Print Assumptions C109_wait_without_check.
(** a profile with the same current density everywhere, which leaves the boundary alone *)
Definition uniform (q : unit) (e : equilibrium R unit unit) (_ : arr2 R) (_ : option R) : result (arr2 R * unit * bstate R) := Ok ((fun _ _ => 1) : arr2 R, q, bs e).
Example C109_example : forall q (e : equilibrium R unit unit) psi (pb : option R) J q' b,
  check_limited e = false -> is_limited (bs e) = false -> uniform q e psi pb = Ok (J, q', b) -> is_limited b = false.
Proof. intros q e psi pb J q' b _ Hl E. injection E as _ _ <-. exact Hl. Qed.
