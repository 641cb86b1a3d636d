(** Lemmas about the Picard iteration. *)
From Coq Require Import List Arith ZArith Bool Reals Lia Lra.
From Verif Require Import Py Num Numpy Picard.
Import ListNotations.
Local Open Scope R_scope.

(** ** amax, amin *)
Lemma cells_in nx ny (a : arr2 R) x : In x (cells nx ny a) <-> exists i j, (i < nx)%nat /\ (j < ny)%nat /\ x = a i j.
Proof.
  unfold cells. rewrite in_flat_map. split.
  - intros (i & Hi & Hx). apply in_map_iff in Hx. destruct Hx as (j & <- & Hj). rewrite in_seq in Hi, Hj. exists i, j. repeat split; lia.
  - intros (i & j & Hi & Hj & ->). exists i. split; [apply in_seq; lia|]. apply in_map. apply in_seq. lia.
Qed.
Lemma fold_nmax (l : list R) : forall a, a <= fold_left nmax l a /\ (forall x, In x l -> x <= fold_left nmax l a) /\ (fold_left nmax l a = a \/ In (fold_left nmax l a) l).
Proof.
  induction l as [|b l IH]; intros a; cbn [fold_left].
  - split; [lra|]. split; [intros x []|]. left. reflexivity.
  - destruct (IH (nmax a b)) as (H1 & H2 & H3). rewrite nmax_R in *. assert (La := Rmax_l a b). assert (Lb := Rmax_r a b). split; [lra|]. split.
    + intros x [<-|Hx]; [lra|]. apply H2. exact Hx.
    + destruct H3 as [H3|H3]; [|right; right; exact H3]. rewrite H3. unfold Rmax. destruct (Rle_dec a b); [right; left; reflexivity|left; reflexivity].
Qed.
Lemma fold_nmin (l : list R) : forall a, fold_left nmin l a <= a /\ (forall x, In x l -> fold_left nmin l a <= x) /\ (fold_left nmin l a = a \/ In (fold_left nmin l a) l).
Proof.
  induction l as [|b l IH]; intros a; cbn [fold_left].
  - split; [lra|]. split; [intros x []|]. left. reflexivity.
  - destruct (IH (nmin a b)) as (H1 & H2 & H3). rewrite nmin_R in *. assert (La := Rmin_l a b). assert (Lb := Rmin_r a b). split; [lra|]. split.
    + intros x [<-|Hx]; [lra|]. apply H2. exact Hx.
    + destruct H3 as [H3|H3]; [|right; right; exact H3]. rewrite H3. unfold Rmin. destruct (Rle_dec a b); [left; reflexivity|right; left; reflexivity].
Qed.
Lemma amax_spec nx ny (a : arr2 R) : (0 < nx)%nat -> (0 < ny)%nat ->
  (forall i j, (i < nx)%nat -> (j < ny)%nat -> a i j <= amax nx ny a) /\ exists i j, (i < nx)%nat /\ (j < ny)%nat /\ amax nx ny a = a i j.
Proof.
  intros Hx Hy. unfold amax. destruct (fold_nmax (cells nx ny a) (a 0%nat 0%nat)) as (_ & H2 & H3). split.
  - intros i j Hi Hj. apply H2. apply cells_in. exists i, j. tauto.
  - destruct H3 as [H3|H3]; [exists 0%nat, 0%nat; tauto|]. apply cells_in in H3. exact H3.
Qed.
Lemma amin_spec nx ny (a : arr2 R) : (0 < nx)%nat -> (0 < ny)%nat ->
  (forall i j, (i < nx)%nat -> (j < ny)%nat -> amin nx ny a <= a i j) /\ exists i j, (i < nx)%nat /\ (j < ny)%nat /\ amin nx ny a = a i j.
Proof.
  intros Hx Hy. unfold amin. destruct (fold_nmin (cells nx ny a) (a 0%nat 0%nat)) as (_ & H2 & H3). split.
  - intros i j Hi Hj. apply H2. apply cells_in. exists i, j. tauto.
  - destruct H3 as [H3|H3]; [exists 0%nat, 0%nat; tauto|]. apply cells_in in H3. exact H3.
Qed.

(** ** One turn *)
Section Turn.
  Variables (nx ny : nat) (E : Type) (o : ops (T := R) E) (p : options (T := R)).
  Notation turn := (turn nx ny E o p).
  Notation loop := (loop nx ny E o p).
  Notation picard := (picard nx ny E o p).
  (** the flags used in a turn *)
  Definition flag (v : vars (T := R)) : bool := ((limit_it p <=? iteration v)%Z || been_limited v) && check p.
  Definition given (e : E) (v : vars (T := R)) (pb : option R) : Prop :=
    if flag v then bndry_flux E o (set_check E o true e) = Some pb else pb = user_bndry p.
  (** what the turn does up to the test: the state after the solve, its boundary flux and psi *)
  Definition solved (e : E) (v : vars (T := R)) (e1 : E) (ob : option R) (psi1 : arr2 R) : Prop :=
    exists pb, given e v pb /\ eq_solve E o (set_check E o (flag v) e) (psi v) pb = (e1, Ok tt) /\
      bndry_flux E o e1 = Some ob /\ eq_psi E o e1 = Ok psi1.
  Definition maxch (v : vars (T := R)) (psi1 : arr2 R) : R := amax nx ny (fun i j => Rabs (psi v i j - psi1 i j)).
  Definition relch (v : vars (T := R)) (psi1 : arr2 R) : option R := quotient (maxch v psi1) (amax nx ny psi1 - amin nx ny psi1).
  Definition newb (v : vars (T := R)) (ob : option R) : R := match ob with Some b => b | None => bndry v end.
  Definition newch (v : vars (T := R)) (ob : option R) : option R := match ob with Some b => Some (bndry v - b) | None => change v end.
  Definition newrel (v : vars (T := R)) (ob : option R) : option R :=
    match ob with Some b => option_map Rabs (quotient (bndry v - b) b) | None => Some (2 * rtol p) end.
  Definition test (v : vars (T := R)) (e1 : E) (ob : option R) (psi1 : arr2 R) : bool :=
    (R_ltb (maxch v psi1) (atol p) || below (relch v psi1) (rtol p))
    && (below (newrel v ob) (rtol p) || below (option_map Rabs (newch v ob)) (atol p))
    && (negb (wait p) || limited E o e1).
  Definition entry (v : vars (T := R)) (psi1 : arr2 R) : R * option R := (maxch v psi1, relch v psi1).
  Definition exceeded (it : Z) : bool := match maxits p with Some m => negb (m =? 0)%Z && (m <? it)%Z | None => false end.

  Lemma amax_ext a b : (forall i j, a i j = b i j) -> amax nx ny a = amax nx ny b.
  Proof.
    intros Hab. unfold amax. rewrite Hab. f_equal. unfold cells. apply flat_map_ext. intros i. apply map_ext. intros j. apply Hab.
  Qed.
  Lemma turn_eq e v : turn e v =
    let e0 := set_check E o (flag v) e in
    match (if flag v then match bndry_flux E o e0 with None => Raise AttributeError | Some b => Ok b end else Ok (user_bndry p)) with
    | Raise x => (e0, Raise x)
    | Ok pb =>
    let (e1, r) := eq_solve E o e0 (psi v) pb in
    match r with
    | Raise x => (e1, Raise x)
    | Ok _ =>
    match bndry_flux E o e1 with
    | None => (e1, Raise AttributeError)
    | Some ob =>
    match eq_psi E o e1 with
    | Raise x => (e1, Raise x)
    | Ok psi1 =>
    if test v e1 ob psi1 then (e1, Ok (inl (history v ++ [entry v psi1])))
    else let (e2, r) := run_constrain E o e1 in
    match r with
    | Raise x => (e2, Raise x)
    | Ok _ =>
    match eq_psi E o e2 with
    | Raise x => (e2, Raise x)
    | Ok psi2 =>
      if exceeded (iteration v + 1) then (e2, Raise RuntimeError)
      else (e2, Ok (inr (mkvars (fun i j => (1 - blend p) * psi2 i j + blend p * psi v i j) (iteration v + 1) (newb v ob) (newch v ob)
                           (been_limited v || limited E o e1) (history v ++ [entry v psi1]))))
    end end end end end end.
  Proof.
    unfold Picard.turn. fold (flag v). cbv zeta. destruct (if flag v then _ else _) as [pb|]; [|reflexivity].
    destruct (eq_solve E o _ _ pb) as [e1 [u|]]; [|reflexivity]. destruct (bndry_flux E o e1) as [ob|]; [|reflexivity].
    assert (Em : forall psi1, amax nx ny (fun i j => nabs (psi v i j - psi1 i j)%num) = maxch v psi1).
    { intros psi1. apply amax_ext. intros i j. rewrite nabs_R. reflexivity. }
    assert (Ea : forall x : option R, option_map nabs x = option_map Rabs x) by (intros [x|]; [cbn; rewrite nabs_R|]; reflexivity).
    unfold exceeded, test, newb, newch, newrel, entry, relch.
    destruct ob as [b|]; cbv zeta beta iota; destruct (eq_psi E o e1) as [psi1|]; try reflexivity; rewrite !Em, ?Ea; nR;
      (match goal with |- context [if ?c then (e1, Ok (inl _)) else _] => destruct c end; [reflexivity|]);
      destruct (run_constrain E o e1) as [e2 [w|]]; try reflexivity; destruct (eq_psi E o e2) as [psi2|]; try reflexivity;
      destruct (maxits p) as [m|]; try reflexivity; destruct (negb (m =? 0)%Z && (m <? iteration v + 1)%Z); reflexivity.
  Qed.
  Lemma turn_done e v e' h : turn e v = (e', Ok (inl h)) ->
    exists ob psi1, solved e v e' ob psi1 /\ test v e' ob psi1 = true /\ h = history v ++ [entry v psi1].
  Proof.
    rewrite turn_eq. cbv zeta. intros Et. destruct (if flag v then _ else _) as [pb|] eqn:Epb; [|discriminate].
    destruct (eq_solve E o _ _ pb) as [e1 [u|]] eqn:Es; [|discriminate]. destruct (bndry_flux E o e1) as [ob|] eqn:Eb; [|discriminate].
    destruct (eq_psi E o e1) as [psi1|] eqn:Ep; [|discriminate]. destruct (test v e1 ob psi1) eqn:Ec.
    - injection Et as <- <-. exists ob, psi1. split; [|split; [exact Ec|reflexivity]]. exists pb. split; [|destruct u; repeat split; assumption].
      unfold given. destruct (flag v); [|congruence]. destruct (bndry_flux E o (set_check E o true e)); congruence.
    - destruct (run_constrain E o e1) as [e2 [w|]]; [|discriminate]. destruct (eq_psi E o e2) as [psi2|]; [|discriminate].
      destruct (exceeded (iteration v + 1)); discriminate.
  Qed.
  Lemma turn_next e v e' v' : turn e v = (e', Ok (inr v')) ->
    exists e1 ob psi1 psi2, solved e v e1 ob psi1 /\ test v e1 ob psi1 = false /\ run_constrain E o e1 = (e', Ok tt) /\ eq_psi E o e' = Ok psi2 /\
      exceeded (iteration v + 1) = false /\
      v' = mkvars (fun i j => (1 - blend p) * psi2 i j + blend p * psi v i j) (iteration v + 1) (newb v ob) (newch v ob)
                           (been_limited v || limited E o e1) (history v ++ [entry v psi1]).
  Proof.
    rewrite turn_eq. cbv zeta. intros Et. destruct (if flag v then _ else _) as [pb|] eqn:Epb; [|discriminate].
    destruct (eq_solve E o _ _ pb) as [e1 [u|]] eqn:Es; [|discriminate]. destruct (bndry_flux E o e1) as [ob|] eqn:Eb; [|discriminate].
    destruct (eq_psi E o e1) as [psi1|] eqn:Ep; [|discriminate]. destruct (test v e1 ob psi1) eqn:Ec; [discriminate|].
    destruct (run_constrain E o e1) as [e2 [w|]] eqn:Er; [|discriminate]. destruct (eq_psi E o e2) as [psi2|] eqn:Ep2; [|discriminate].
    destruct (exceeded (iteration v + 1)) eqn:Ex; [discriminate|]. injection Et as <- <-. exists e1, ob, psi1, psi2. split.
    - exists pb. split; [|destruct u; repeat split; assumption]. unfold given. destruct (flag v); [|congruence]. destruct (bndry_flux E o (set_check E o true e)); congruence.
    - split; [exact Ec|]. split; [destruct w; exact Er|]. split; [exact Ep2|]. split; reflexivity.
  Qed.

  (** ** Invariants: a property of state and variables that is kept by every turn *)
  Lemma loop_inv (I : E -> vars (T := R) -> Prop) :
    (forall e v e' v', I e v -> turn e v = (e', Ok (inr v')) -> I e' v') ->
    forall fuel e v, I e v -> forall e' r, loop fuel e v = (e', r) ->
    (exists e0 v0, I e0 v0 /\ match r with Ok h => turn e0 v0 = (e', Ok (inl h)) | Raise x => turn e0 v0 = (e', Raise x) \/ (x = OutOfFuel /\ e' = e0 ) end).
  Proof.
    intros Hstep. induction fuel as [|k IH]; intros e v HI e' r El; cbn [Picard.loop] in El.
    - injection El as <- <-. exists e, v. split; [exact HI|]. right. split; reflexivity.
    - destruct (turn e v) as [e1 [[h|v1]|x]] eqn:Et.
      + injection El as <- <-. exists e, v. split; [exact HI|exact Et].
      + apply (IH e1 v1); [apply (Hstep e v); assumption|exact El].
      + injection El as <- <-. exists e, v. split; [exact HI|]. left. exact Et.
  Qed.
  Lemma picard_inv (I : E -> vars (T := R) -> Prop) e :
    (forall e1 psi0, run_constrain E o e = (e1, Ok tt) -> eq_psi E o e1 = Ok psi0 -> I e1 (mkvars psi0 0 0 None false [])) ->
    (forall e v e' v', I e v -> turn e v = (e', Ok (inr v')) -> I e' v') ->
    forall fuel e' h, picard fuel e = (e', Ok h) -> exists e0 v0, I e0 v0 /\ turn e0 v0 = (e', Ok (inl h)).
  Proof.
    intros H0 Hstep fuel e' h Ep. unfold Picard.picard in Ep. destruct (run_constrain E o e) as [e1 [u|]] eqn:Er; [|discriminate].
    destruct (eq_psi E o e1) as [psi0|] eqn:Epsi; [|discriminate].
    apply (loop_inv I Hstep fuel e1 (mkvars psi0 0 0 None false [])) in Ep; [exact Ep|]. apply H0; [destruct u; reflexivity|exact Epsi].
  Qed.
End Turn.
