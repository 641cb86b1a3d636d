(** Automatic placing of filaments. *)
From Coq Require Import List Arith ZArith Bool QArith Reals Lra Lia.
From Verif Require Import Py Num Numpy Polygons Coils MovingProofs Populate.
Import ListNotations.
Local Open Scope R_scope.

(** what is used of ceil *)
Definition is_ceil (ceil : R -> Z) : Prop := forall x, IZR (ceil x) - 1 < x <= IZR (ceil x).
(** the bounding box of the shape *)
Definition bounds (shape : list (R * R)) : R * R * R * R :=
  (lmin (map fst shape), lmax (map fst shape), lmin (map snd shape), lmax (map snd shape)).
(** an open box inside the shape *)
Definition holds_box (contains : R -> R -> bool) (a b c e : R) : Prop :=
  a < b /\ c < e /\ forall r z, a < r < b -> c < z < e -> contains r z = true.

(** ** Counting *)
Lemma nofnat_INR n : @nofnat R Num_R n = INR n.
Proof. unfold nofnat. nR. symmetry. apply INR_IZR_INZ. Qed.
Lemma filter_count {A} (p : A -> bool) (f : nat -> A) n j0 N : (j0 + N <= n)%nat -> (forall j, (j0 <= j < j0 + N)%nat -> p (f j) = true) ->
  (N <= length (filter p (map f (seq 0 n))))%nat.
Proof.
  intros H Hp. replace n with (j0 + (N + (n - j0 - N)))%nat by lia. rewrite seq_app, map_app, filter_app, app_length. cbn [Nat.add].
  rewrite seq_app, map_app, filter_app, app_length.
  assert (E : filter p (map f (seq j0 N)) = map f (seq j0 N)).
  { assert (G : forall l, (forall j, In j l -> p (f j) = true) -> filter p (map f l) = map f l).
    { induction l as [|x l IH]; intros Hl; [reflexivity|]. cbn [map filter]. rewrite (Hl x (or_introl eq_refl)). f_equal. apply IH. intros j Hj. apply Hl. right. exact Hj. }
    apply G. intros j Hj. apply in_seq in Hj. apply Hp. lia. }
  rewrite E, map_length, seq_length. lia.
Qed.
Lemma flat_count {A B} (p : B -> bool) (f : A -> list B) l x : In x l -> (length (filter p (f x)) <= length (filter p (flat_map f l)))%nat.
Proof.
  induction l as [|y l IH]; [easy|]. intros [<-|H]; cbn [flat_map]; rewrite filter_app, app_length; [lia|]. specialize (IH H). lia.
Qed.
(** first grid value beyond [a] *)
Lemma first_beyond x0 a d : 0 < d -> x0 <= a -> exists i : nat, a < x0 + INR i * d <= a + d.
Proof.
  intros Hd H. destruct (archimed ((a - x0) / d)) as [A B].
  assert (Hp : (0 <= up ((a - x0) / d))%Z).
  { apply le_IZR. assert (0 <= (a - x0) / d) by (apply Rmult_le_pos; [lra|left; apply Rinv_0_lt_compat, Hd]). lra. }
  exists (Z.to_nat (up ((a - x0) / d))). rewrite INR_IZR_INZ, Z2Nat.id by exact Hp.
  assert (E : (a - x0) / d * d = a - x0) by (field; lra). split; [nra|]. assert (IZR (up ((a - x0) / d)) * d <= ((a - x0) / d + 1) * d) by (apply Rmult_le_compat_r; lra). lra.
Qed.
Lemma in_arange ceil (Hc : is_ceil ceil) x0 x1 d i : 0 < d -> x0 + INR i * d < x1 -> (i < Z.to_nat (ceil ((x1 - x0) / d)%R))%nat.
Proof.
  intros Hd H. destruct (Hc ((x1 - x0) / d)) as [_ B]. assert (E : INR i < (x1 - x0) / d) by (apply Rmult_lt_reg_r with d; [exact Hd|]; unfold Rdiv; rewrite Rmult_assoc, Rinv_l by lra; lra).
  rewrite INR_IZR_INZ in E. assert (F : IZR (Z.of_nat i) < IZR (ceil ((x1 - x0) / d))) by lra. apply lt_IZR in F. lia.
Qed.
Lemma count_box ceil contains rmin rmax zmin zmax a b c e d N : is_ceil ceil -> holds_box contains a b c e ->
  rmin <= a -> b <= rmax -> zmin <= c -> e <= zmax -> 0 < d -> d < e - c -> (INR N + 1) * d < b - a ->
  (N <= length (inside_points ceil contains rmin rmax zmin zmax d))%nat.
Proof.
  intros Hc (Hab & Hce & Hin) H1 H2 H3 H4 Hd Hz Hr.
  destruct (first_beyond zmin c d Hd H3) as (i & Ei).
  set (off := if Nat.odd i then / 2 * d else 0). assert (Hoff : 0 <= off < d) by (unfold off; destruct (Nat.odd i); lra).
  destruct (first_beyond rmin a d Hd H1) as (j0 & Ej).
  assert (Hi := in_arange ceil Hc zmin zmax d i Hd ltac:(lra)).
  unfold inside_points, grid_points.
  eapply Nat.le_trans; [|apply (flat_count _ _ _ (i, zmin + INR i * d))].
  - cbn [fst snd]. unfold arange. rewrite map_map.
    assert (HjN : (j0 + N <= Z.to_nat (ceil ((rmax - rmin) / d)%num))%nat).
    { destruct N as [|N']; nR.
      - cbn [INR] in Hr. assert (K := in_arange ceil Hc rmin rmax d j0 Hd ltac:(lra)). lia.
      - assert (K := in_arange ceil Hc rmin rmax d (j0 + N')%nat Hd). rewrite plus_INR in K. rewrite S_INR in Hr. assert (P := pos_INR N').
        assert (rmin + (INR j0 + INR N') * d < rmax) by nra. specialize (K H). lia. }
    apply (filter_count _ (fun x => (Nat.odd i, (nadd (nadd rmin (nmul (nofnat x) d)) (if Nat.odd i then nmul (nlit 1 2) d else n0), zmin + INR i * d))) _ j0 N HjN).
    intros j Hj. cbn [fst snd]. rewrite nofnat_INR. unfold nlit. nR. replace (1 / 2 * d) with (/ 2 * d) by lra. change (if Nat.odd i then / 2 * d else 0) with off.
    apply Hin; [|lra]. assert (Hj0 : INR j0 <= INR j) by (apply le_INR; lia). assert (HjN' : INR j <= INR j0 + INR N - 1).
    { assert (K : INR (S j) <= INR (j0 + N)) by (apply le_INR; lia). rewrite S_INR, plus_INR in K. lra. }
    split; nra.
  - apply (nth_error_In _ i). clear -Hi. unfold arange. change (ceil ((zmax - zmin) / d)%num) with (ceil ((zmax - zmin) / d)). set (n := Z.to_nat _) in *. rewrite map_length, seq_length.
    assert (G : forall n s i (f : nat -> R), (i < n)%nat -> nth_error (combine (seq s n) (map f (seq s n))) i = Some ((s + i)%nat, f (s + i)%nat)).
    { clear. induction n as [|n IH]; intros s i f H; [lia|]. cbn [seq map combine]. destruct i as [|i]; cbn [nth_error]; [rewrite Nat.add_0_r; reflexivity|].
      rewrite IH by lia. rewrite Nat.add_succ_comm. reflexivity. }
    rewrite G by exact Hi. cbn [Nat.add]. rewrite nofnat_INR. reflexivity.
Qed.

Lemma in_grid ceil rmin rmax zmin zmax d p : In p (grid_points ceil rmin rmax zmin zmax d) ->
  exists i j : nat, p = (Nat.odd i, (rmin + (INR j + (if Nat.odd i then / 2 else 0)) * d, zmin + INR i * d)).
Proof.
  intros Hg. unfold grid_points in Hg. apply in_flat_map in Hg as ([i z] & Hi & Hm). cbn [fst snd] in Hm. apply in_map_iff in Hm as (r & <- & Hr).
  unfold arange in Hr. apply in_map_iff in Hr as (j & <- & _).
  assert (Ez : z = zmin + INR i * d).
  { unfold arange in Hi. rewrite map_length, seq_length in Hi. revert Hi. generalize (Z.to_nat (ceil ((zmax - zmin) / d)%num)). intros n Hi.
    apply In_nth_error in Hi as (k & Hk).
    assert (G : forall n s k (f : nat -> R), nth_error (combine (seq s n) (map f (seq s n))) k = Some (i, z) -> z = f i).
    { clear. induction n as [|n IH]; intros s k f H; [destruct k; discriminate|]. cbn [seq map combine] in H. destruct k as [|k]; cbn [nth_error] in H; [injection H as <- <-; reflexivity|]. exact (IH _ _ _ H). }
    rewrite (G _ _ _ _ Hk). rewrite nofnat_INR. nR. reflexivity. }
  exists i, j. apply f_equal. apply f_equal2; [|exact Ez]. rewrite nofnat_INR. unfold nlit. nR. destruct (Nat.odd i); field.
Qed.

(** ** C135 *)
(** Every filament is inside the shape and on the staggered grid. *)
Theorem C135_inside : forall sqrt ceil contains fuel shape N l, populate sqrt ceil contains fuel shape N = Ok l ->
  let '(rmin, _, zmin, _) := bounds shape in
  exists d, Forall (fun p => contains (fst (snd p)) (snd (snd p)) = true /\
    exists i j : nat, p = (Nat.odd i, (rmin + (INR j + (if Nat.odd i then / 2 else 0)) * d, zmin + INR i * d))) l.
Proof.
  intros sqrt ceil contains fuel shape N l E. unfold bounds. unfold populate in E. destruct shape as [|s0 shape]; [discriminate|]. set (sh := s0 :: shape) in *.
  destruct (N =? 0)%Z; [discriminate|]. destruct (N <? 0)%Z; [discriminate|]. destruct (search _ _ _ _ _ _) as [[pv ls]|]; [|discriminate]. cbn [bind fst snd] in E. injection E as <-.
  set (d := interp_last _ _ _). exists d. apply Forall_forall. intros p Hp. unfold inside_points in Hp. apply filter_In in Hp as [Hg Hc]. split; [exact Hc|].
  exact (in_grid _ _ _ _ _ _ _ Hg).
Qed.
Print Assumptions C135_inside.
(** The search ends for every shape that contains a box, and for every number of filaments. *)
Theorem C135_terminates : forall ceil contains shape a b c e (N : Z), is_ceil ceil -> (0 < N)%Z -> area shape <> 0 ->
  let '(rmin, rmax, zmin, zmax) := bounds shape in
  rmin <= a -> b <= rmax -> zmin <= c -> e <= zmax -> holds_box contains a b c e ->
  exists k l, forall fuel, (k <= fuel)%nat -> populate sqrt ceil contains fuel shape N = Ok l.
Proof.
  intros ceil contains shape a b c e N Hc HN HA. unfold bounds. set (rmin := lmin (map fst shape)). set (rmax := lmax (map fst shape)). set (zmin := lmin (map snd shape)). set (zmax := lmax (map snd shape)).
  intros H1 H2 H3 H4 Hb. set (n := Z.to_nat N). set (d0 := sqrt (Rabs (area shape) / INR n)).
  assert (Hn : 0 < INR n) by (apply lt_0_INR; unfold n; lia).
  assert (Hd0 : 0 < d0) by (apply sqrt_lt_R0; apply Rdiv_lt_0_compat; [apply Rabs_pos_lt, HA|exact Hn]).
  destruct Hb as (Hab & Hce & Hin). set (dm := Rmin (e - c) ((b - a) / (INR n + 1))).
  assert (Hdm : 0 < dm) by (apply Rmin_glb_lt; [lra|apply Rdiv_lt_0_compat; lra]).
  destruct (pow_lt_1_zero (995 / 1000) ltac:(rewrite Rabs_right; lra) (dm / d0) ltac:(apply Rdiv_lt_0_compat; assumption)) as (k & Hk).
  specialize (Hk k (le_n k)). rewrite Rabs_right in Hk by (left; apply pow_lt; lra).
  assert (Hdk : 0 < d0 * (995 / 1000) ^ k) by (apply Rmult_lt_0_compat; [exact Hd0|apply pow_lt; lra]).
  assert (Hsm : d0 * (995 / 1000) ^ k < dm) by (apply Rmult_lt_compat_l with (r := d0) in Hk; [|exact Hd0]; replace (d0 * (dm / d0)) with dm in Hk by (field; lra); exact Hk).
  assert (Hcount : (n <= length (inside_points ceil contains rmin rmax zmin zmax (d0 * (995 / 1000) ^ k)%R))%nat).
  { apply (count_box ceil contains rmin rmax zmin zmax a b c e); try assumption; [split; [exact Hab|split; [exact Hce|exact Hin]]| |].
    - eapply Rlt_le_trans; [exact Hsm|apply Rmin_l].
    - assert (K : d0 * (995 / 1000) ^ k < (b - a) / (INR n + 1)) by (eapply Rlt_le_trans; [exact Hsm|apply Rmin_r]).
      apply Rmult_lt_compat_r with (r := INR n + 1) in K; [|lra]. replace ((b - a) / (INR n + 1) * (INR n + 1)) with (b - a) in K by (field; lra). lra. }
  assert (S : forall k d pv, 0 < d -> (n <= length (inside_points ceil contains rmin rmax zmin zmax (d * (995 / 1000) ^ k)%R))%nat ->
    exists r, forall fuel, (S k <= fuel)%nat -> search ceil contains fuel (rmin, rmax, zmin, zmax) n pv d = Ok r).
  { clear. induction k as [|k IH]; intros d pv Hd Hcnt.
    - cbn [pow] in Hcnt. rewrite Rmult_1_r in Hcnt. exists (pv, (length (inside_points ceil contains rmin rmax zmin zmax d), d)). intros [|fuel] Hf; [lia|]. cbn [search].
      nR. destruct (R_eqb d 0) eqn:E; [rcmp; lra|]. destruct (_ <? n)%nat eqn:El; [apply Nat.ltb_lt in El; lia|reflexivity].
    - destruct (IH (d * (995 / 1000)) (Some (length (inside_points ceil contains rmin rmax zmin zmax d), d))) as (r & Hr); [lra| |].
      + replace (d * (995 / 1000) * (995 / 1000) ^ k) with (d * (995 / 1000) ^ S k) by (cbn [pow]; ring). exact Hcnt.
      + destruct (length (inside_points ceil contains rmin rmax zmin zmax d) <? n)%nat eqn:El.
        * exists r. intros [|fuel] Hf; [lia|]. cbn [search]. nR. destruct (R_eqb d 0) eqn:E; [rcmp; lra|]. rewrite El. unfold nlit. nR. apply Hr. lia.
        * exists (pv, (length (inside_points ceil contains rmin rmax zmin zmax d), d)). intros [|fuel] Hf; [lia|]. cbn [search]. nR. destruct (R_eqb d 0) eqn:E; [rcmp; lra|]. rewrite El. reflexivity. }
  destruct (S k d0 None Hd0 Hcount) as (r & Hr).
  exists (Datatypes.S k), (inside_points ceil contains rmin rmax zmin zmax (interp_last n (fst r) (snd r))). intros fuel Hf. unfold populate.
  destruct shape as [|s0 shape]; [exfalso; apply HA; unfold area; cbn; nR; lra|].
  assert (E1 : (N =? 0)%Z = false) by (apply Z.eqb_neq; lia). assert (E2 : (N <? 0)%Z = false) by (apply Z.ltb_ge; lia). rewrite E1, E2. fold n rmin rmax zmin zmax.
  rewrite nabs_R, nofnat_INR. nR. change (sqrt (Rabs (area (s0 :: shape)) / INR n)) with d0. rewrite (Hr fuel Hf). reflexivity.
Qed.
Print Assumptions C135_terminates.
(** A square of size 2: for every number of filaments the search ends. *)
Example C135_terminates_example : forall N : Z, (0 < N)%Z ->
  let ceil := fun x => (1 - up (- x))%Z in
  let contains := fun r z => (nltb 0 r && nltb r 2 && nltb 0 z && nltb z 2)%bool in
  exists k l, forall fuel, (k <= fuel)%nat -> populate sqrt ceil contains fuel [(0, 0); (0, 2); (2, 2); (2, 0)] N = Ok l.
Proof.
  intros N HN ceil contains.
  assert (C := C135_terminates ceil contains [(0, 0); (0, 2); (2, 2); (2, 0)] 0 2 0 2 N).
  assert (Hc : is_ceil ceil) by (intros x; unfold ceil; rewrite minus_IZR; destruct (archimed (- x)); lra).
  assert (HA : area [(0, 0); (0, 2); (2, 2); (2, 0)] <> 0) by (cbv -[IZR Rplus Rminus Rmult Ropp Rdiv Rinv]; lra).
  specialize (C Hc HN HA). unfold bounds in C.
  assert (L : forall a b : R, nmin a b = Rmin a b) by apply nmin_R. assert (U : forall a b : R, nmax a b = Rmax a b) by apply nmax_R.
  unfold lmin, lmax in C. cbn [map fold_right hd fst snd] in C. rewrite !L, !U in C.
  assert (A1 : Rmin 0 0 = 0) by (apply Rmin_left; lra). assert (A2 : Rmin 2 0 = 0) by (apply Rmin_right; lra).
  assert (A3 : Rmax 0 0 = 0) by (apply Rmax_left; lra). assert (A4 : Rmax 2 0 = 2) by (apply Rmax_left; lra).
  assert (A5 : Rmax 0 2 = 2) by (apply Rmax_right; lra). assert (A6 : Rmax 2 2 = 2) by (apply Rmax_left; lra).
  repeat first [rewrite A1 in C | rewrite A2 in C | rewrite A3 in C | rewrite A4 in C | rewrite A5 in C | rewrite A6 in C].
  apply C; try lra. split; [lra|]. split; [lra|]. intros r z Hr Hz. unfold contains. nR. rewrite !(proj2 (R_ltb_true _ _)) by lra. reflexivity.
Qed.

(** The grid spacing found by the search has at least N points inside; when they are not more than
    1.1 N they are the filaments, so the number asked for is met within ten percent. *)
Theorem C135_number : forall sqrt ceil contains fuel shape (N : Z) l, populate sqrt ceil contains fuel shape N = Ok l ->
  exists d n, let '(rmin, rmax, zmin, zmax) := bounds shape in
    n = length (inside_points ceil contains rmin rmax zmin zmax d) /\ (N <= Z.of_nat n)%Z /\
    ((10 * Z.of_nat n <= 11 * N)%Z -> l = inside_points ceil contains rmin rmax zmin zmax d).
Proof.
  intros sqrt ceil contains fuel shape N l E. unfold bounds. unfold populate in E. destruct shape as [|s0 shape]; [discriminate|]. set (sh := s0 :: shape) in *.
  destruct (N =? 0)%Z eqn:E0; [discriminate|]. destruct (N <? 0)%Z eqn:E1; [discriminate|]. apply Z.eqb_neq in E0. apply Z.ltb_ge in E1.
  revert E. clearbody sh. clear s0 shape. generalize (lmin (map fst sh)) (lmax (map fst sh)) (lmin (map snd sh)) (lmax (map snd sh)). intros rmin rmax zmin zmax E.
  destruct (search _ _ _ _ _ _) as [[pv [n d]]|] eqn:Es; [|discriminate]. cbn [bind fst snd] in E. injection E as <-.
  assert (S : n = length (inside_points ceil contains rmin rmax zmin zmax d) /\ (Z.to_nat N <= n)%nat).
  { revert Es. match goal with |- search _ _ _ _ _ ?p ?x = _ -> _ => generalize p x end. clear. induction fuel as [|fuel IH]; intros p x E; [discriminate|]. cbn [search] in E.
    destruct (neqb _ _); [discriminate|]. destruct (_ <? _)%nat eqn:El; [exact (IH _ _ E)|]. injection E as _ <- <-. apply Nat.ltb_ge in El. split; [reflexivity|exact El]. }
  destruct S as [S1 S2]. exists d, n. split; [exact S1|]. split; [lia|]. intros H. unfold interp_last. cbn [fst snd].
  rewrite !nofnat_INR. nR. destruct (R_ltb _ _) eqn:El; cbn [negb]; [|reflexivity]. exfalso. rcmp.
  rewrite !INR_IZR_INZ in El. assert (K : IZR (10 * Z.of_nat n) <= IZR (11 * N)) by (apply IZR_le, H). rewrite !mult_IZR in K. rewrite Z2Nat.id in El by lia. lra.
Qed.
Print Assumptions C135_number.

(** What FilamentCoil makes of the filaments: as soon as one is in a staggered row the constructor
    fails, and else it keeps exactly these. *)
Theorem C135_coil : forall sqrt ceil contains fuel shape I (N turns : Z) ctl (l : list (bool * (R * R))),
  (2 < length shape)%nat -> populate sqrt ceil contains fuel shape N = Ok l ->
  (forall p, In p l -> fst p = true -> FilamentCoil_auto sqrt ceil contains fuel shape I N turns ctl = Raise ValueError) /\
  ((forall p, In p l -> fst p = false) -> exists c centre, FilamentCoil_auto sqrt ceil contains fuel shape I N turns ctl = Ok c /\
    c_kind c = KFilament shape (map snd l) (length l) centre /\ c_current c = I /\ c_turns c = turns /\ c_control c = ctl).
Proof.
  intros sqrt ceil contains fuel shape I N turns ctl l H2 E. unfold FilamentCoil_auto. rewrite (proj2 (Nat.ltb_lt _ _) H2), E. cbn [bind]. split.
  - intros p Hp Ht. destruct (existsb fst l) eqn:Ex; [reflexivity|]. exfalso. assert (K : existsb fst l = true) by (apply existsb_exists; exists p; split; assumption). congruence.
  - intros Hf. destruct (existsb fst l) eqn:Ex; [apply existsb_exists in Ex as (p & Hp & Ht); rewrite (Hf p Hp) in Ht; discriminate|].
    unfold FilamentCoil. cbn [bind]. rewrite (proj2 (Nat.ltb_lt _ _) H2). eexists. eexists. split; [reflexivity|]. cbn [c_kind c_current c_turns c_control]. split; [|easy].
    rewrite map_length. f_equal. clear. induction l as [|[b [r z]] l IH]; [reflexivity|]. cbn [map combine fst snd]. rewrite IH. reflexivity.
Qed.
Print Assumptions C135_coil.

(** A rectangle and a rectangle with a foot, and ceil, on rationals. *)
Definition rect (w h : Q) : list (Q * Q) := [(0, 0); (0, h); (w, h); (w, 0)]%Q.
Definition in_rect (w h r z : Q) : bool := nltb 0%Q r && nltb r w && nltb 0%Q z && nltb z h.
Definition Qceil (x : Q) : Z := (- (Qnum (- x) / QDen (- x)))%Z.
Definition foot : list (Q * Q) := [(0, 0); (0, 21 # 10); (197 # 120, 21 # 10); (197 # 120, 3 # 2); (1 # 100, 3 # 2); (1 # 100, 0)]%Q.
Definition in_foot (r z : Q) : bool := in_rect (1 # 100) (21 # 10) r z || (in_rect (197 # 120) (21 # 10) r z && nltb (3 # 2)%Q z).
Definition shows (r : result (list (bool * (Q * Q)))) : option (list (bool * (Q * Q))) :=
  match r with Ok l => Some (map (fun p => (fst p, (Qred (fst (snd p)), Qred (snd (snd p))))) l) | Raise _ => None end.
Example C135_number_example : let sqrt1 := fun x : Q => if neqb x 1%Q then 1%Q else 0%Q in
  shows (populate sqrt1 Qceil in_foot 5 foot 1) = Some [(false, (1, 2))]%Q /\
  match FilamentCoil_auto sqrt1 Qceil in_foot 5 foot (7 # 1)%Q 1 3 true with
  | Ok c => match c_kind c with KFilament _ l n _ => map (fun p => (Qred (fst p), Qred (snd p))) l = [(1, 2)]%Q /\ n = 1%nat | _ => False end
  | Raise _ => False end.
Proof. vm_compute. repeat split. Qed.

(** FALSE: "FilamentCoil(shape=...) makes a coil".  A square with four filaments: the search ends, four
    filaments lie inside, and the constructor fails. *)
Theorem C135_coil_refuted : exists (sqrt : Q -> Q) w N l, (sqrt (w * w / (4 # 1)) * sqrt (w * w / (4 # 1)) == w * w / (4 # 1))%Q /\ N = 4%Z /\
  populate sqrt Qceil (in_rect w w) 5 (rect w w) N = Ok l /\ length l = 4%nat /\
  forall fuel I turns ctl, FilamentCoil_auto sqrt Qceil (in_rect w w) (5 + fuel) (rect w w) I N turns ctl = Raise ValueError.
Proof.
  exists (fun _ => (3 # 2)%Q), (3 # 1)%Q, 4%Z. eexists. split; [reflexivity|]. split; [reflexivity|]. split; [vm_compute; reflexivity|]. split; [reflexivity|].
  intros fuel I turns ctl. unfold FilamentCoil_auto.
  assert (E : populate (fun _ => (3 # 2)%Q) Qceil (in_rect (3 # 1) (3 # 1)) (5 + fuel) (rect (3 # 1) (3 # 1)) 4 = populate (fun _ => (3 # 2)%Q) Qceil (in_rect (3 # 1) (3 # 1)) 5 (rect (3 # 1) (3 # 1)) 4) by (vm_compute; reflexivity).
  rewrite E. vm_compute. reflexivity.
Qed.
Print Assumptions C135_coil_refuted.
(** FALSE: "at least one filament is placed".  A rectangle of size 961/625 by 1 and one filament: the
    count goes from 0 to 2 in one step of the search, and the interpolated spacing is back among
    those with no point inside.  The coil is then made without filaments. *)
Theorem C135_some_refuted : exists (sqrt : Q -> Q) w fuel c, (sqrt w * sqrt w == w)%Q /\ (0 < w)%Q /\ (area (rect w 1) == w)%Q /\
  populate sqrt Qceil (in_rect w 1) fuel (rect w 1) 1 = Ok [] /\
  FilamentCoil_auto sqrt Qceil (in_rect w 1) fuel (rect w 1) 1%Q 1 1 true = Ok c /\
  match c_kind c with KFilament _ l n _ => l = [] /\ n = 0%nat | _ => False end.
Proof.
  exists (fun _ => (31 # 25)%Q), (961 # 625)%Q, 50%nat. eexists. split; [reflexivity|]. split; [reflexivity|]. split; [vm_compute; reflexivity|]. split; [vm_compute; reflexivity|].
  split; [vm_compute; reflexivity|]. cbn. split; reflexivity.
Qed.
Print Assumptions C135_some_refuted.
(** Nfils of zero or less fails. *)
Theorem C135_none : forall sqrt ceil contains fuel shape (N : Z), shape <> [] -> (N <= 0)%Z ->
  populate (T := R) sqrt ceil contains fuel shape N = Raise (if (N =? 0)%Z then ZeroDivisionError else ValueError).
Proof.
  intros sqrt ceil contains fuel shape N Hs HN. unfold populate. destruct shape; [easy|]. destruct (N =? 0)%Z eqn:E; [reflexivity|]. apply Z.eqb_neq in E.
  rewrite (proj2 (Z.ltb_lt N 0)) by lia. reflexivity.
Qed.
Print Assumptions C135_none.
