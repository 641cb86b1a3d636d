(** Proofs about the G-EQDSK model. *)
From Coq Require Import ZArith Reals List Bool Arith Lia Lra Permutation.
From Verif Require Import Py Num Numpy Coils Machine Sensors Romb Critical CriticalProofs CriticalProofs3 Boundary Jtor Equilibrium EquilibriumSpec EquilibriumProofs EquilibriumProofs2 EquilibriumProofs3 Safety Geqdsk GeqdskSpec.
Import ListNotations.

(** ** Powers of two *)
Lemma isPow2_spec v : (0 < v)%Z -> isPow2 v = true <-> power_of_two v.
Proof.
  intros Hv. unfold isPow2. rewrite Z.eqb_eq. split.
  - intros H. exists (Z.log2 v). assert (Hk := Z.log2_nonneg v). split; [exact Hk|].
    destruct (Z.log2_spec v Hv) as [H1 H2].
    destruct (Z.eq_dec v (2 ^ Z.log2 v)) as [E|E]; [exact E|exfalso].
    assert (L : Z.log2 (v - 1) = Z.log2 v) by (apply Z.log2_unique; lia).
    assert (B1 := Z.bit_log2 v Hv). assert (0 < 2 ^ Z.log2 v)%Z by (apply Z.pow_pos_nonneg; lia).
    assert (B2 := Z.bit_log2 (v - 1) ltac:(lia)). rewrite L in B2.
    assert (B : Z.testbit (Z.land v (v - 1)) (Z.log2 v) = true) by (rewrite Z.land_spec, B1, B2; reflexivity).
    rewrite H, Z.bits_0 in B. discriminate.
  - intros (k & Hk & ->). replace (2 ^ k - 1)%Z with (Z.ones k) by (rewrite Z.ones_equiv; lia).
    rewrite Z.land_ones by exact Hk. apply Z.mod_same. assert (0 < 2 ^ k)%Z by (apply Z.pow_pos_nonneg; lia). lia.
Qed.
Lemma ceilPow2_spec v : (0 < v)%Z -> exists p, ceilPow2 v = Ok p /\ least_power_above v p.
Proof.
  intros Hv. unfold ceilPow2. replace (Z.leb v 0) with false by (symmetry; apply Z.leb_gt; exact Hv).
  eexists. split; [reflexivity|]. assert (Hn := Z.log2_up_nonneg v). split; [exists (Z.log2_up v); split; [exact Hn|reflexivity]|].
  destruct (Z.eq_dec v 1) as [->|H1].
  - cbn. split; [lia|]. intros q (k & Hk & ->) _. assert (0 < 2 ^ k)%Z by (apply Z.pow_pos_nonneg; lia). lia.
  - destruct (Z.log2_up_spec v ltac:(lia)) as [L U]. split; [exact U|].
    intros q (k & Hk & ->) Hq. apply Z.pow_le_mono_r; [lia|].
    destruct (Z_lt_le_dec k (Z.log2_up v)) as [C|C]; [|exact C]. exfalso.
    assert (2 ^ k <= 2 ^ Z.pred (Z.log2_up v))%Z by (apply Z.pow_le_mono_r; lia). lia.
Qed.
Lemma ceilPow2_lt v p : (0 < v)%Z -> ceilPow2 v = Ok p -> (v <= p < 2 * v)%Z.
Proof.
  intros Hv E. destruct (ceilPow2_spec v Hv) as (p' & E' & Hp & Hle & Hm). rewrite E in E'. injection E' as <-.
  split; [exact Hle|]. destruct Hp as (k & Hk & ->).
  destruct (Z.eq_dec k 0) as [->|Hk0]; [rewrite Z.pow_0_r in *; lia|].
  destruct (Z_lt_le_dec (2 ^ k) (2 * v)) as [C|C]; [exact C|exfalso].
  assert (E2 : (2 ^ k = 2 * 2 ^ (k - 1))%Z) by (rewrite <- Z.pow_succ_r by lia; f_equal; lia).
  assert (0 < 2 ^ (k - 1))%Z by (apply Z.pow_pos_nonneg; lia).
  specialize (Hm (2 ^ (k - 1))%Z ltac:(exists (k - 1)%Z; split; [lia|reflexivity]) ltac:(lia)). lia.
Qed.
Lemma power_isPow2 p : power_of_two p -> isPow2 p = true.
Proof. intros (k & Hk & ->). apply isPow2_spec; [apply Z.pow_pos_nonneg; lia|exists k; split; [exact Hk|reflexivity]]. Qed.

Local Open Scope R_scope.

(** ** Linear interpolation *)
Lemma filter_true {A} (f : A -> bool) l : (forall a, In a l -> f a = true) -> filter f l = l.
Proof. induction l as [|a l IH]; cbn; intros H; [reflexivity|]. rewrite (H a) by (left; reflexivity). f_equal. apply IH. intros b Hb. apply H. right. exact Hb. Qed.
Lemma filter_false {A} (f : A -> bool) l : (forall a, In a l -> f a = false) -> filter f l = [].
Proof. induction l as [|a l IH]; cbn; intros H; [reflexivity|]. rewrite (H a) by (left; reflexivity). apply IH. intros b Hb. apply H. right. exact Hb. Qed.
Lemma increasing_lt n x : increasing_on n x -> forall j i, (i < j < n)%nat -> x i < x j.
Proof.
  intros Hx. induction j as [|j IH]; intros i Hi; [lia|].
  destruct (Nat.eq_dec i j) as [->|]; [apply Hx; lia|].
  apply Rlt_trans with (x j); [apply IH; lia|apply Hx; lia].
Qed.
Lemma increasing_le n x : increasing_on n x -> forall j i, (i <= j < n)%nat -> x i <= x j.
Proof. intros Hx j i Hi. destruct (Nat.eq_dec i j) as [->|]; [lra|]. left. apply (increasing_lt n); [exact Hx|lia]. Qed.
Lemma cell_spec n x k v : increasing_on n x -> (S k < n)%nat -> (x k <= v \/ k = 0%nat) -> (v < x (S k) \/ S (S k) = n) -> cell n x v = k.
Proof.
  intros Hx Hk H1 H2. unfold cell, range. replace (n - 1 - 1)%nat with (k + (n - 2 - k))%nat by lia.
  rewrite seq_app, filter_app, app_length. 
  rewrite filter_true, filter_false; [rewrite seq_length; cbn; lia| |].
  - intros i Hi. apply in_seq in Hi. unfold nleb. nR. apply negb_false_iff. apply R_ltb_true.
    destruct H2 as [H2|H2]; [|lia]. apply Rlt_le_trans with (x (S k)); [exact H2|]. apply (increasing_le n); [exact Hx|lia].
  - intros i Hi. apply in_seq in Hi. unfold nleb. nR. apply negb_true_iff. apply R_ltb_false.
    destruct H1 as [H1| ->]; [|lia]. apply Rle_trans with (x k); [|exact H1]. apply (increasing_le n); [exact Hx|lia].
Qed.
Lemma lin_on n x f k v : increasing_on n x -> (S k < n)%nat -> x k <= v <= x (S k) ->
  lin n x f v = f k + (v - x k) * ((f (S k) - f k) / (x (S k) - x k)).
Proof.
  intros Hx Hk Hv. unfold lin. nR. cbv zeta.
  destruct (Rlt_dec v (x (S k))) as [H|H].
  - rewrite (cell_spec n x k v Hx Hk) by (left; lra). reflexivity.
  - assert (E : v = x (S k)) by lra. assert (x k < x (S k)) by (apply Hx; exact Hk).
    destruct (Nat.eq_dec (S (S k)) n) as [En|En].
    + rewrite (cell_spec n x k v Hx Hk); [reflexivity|left; lra|right; exact En].
    + assert (x (S k) < x (S (S k))) by (apply Hx; lia).
      rewrite (cell_spec n x (S k) v Hx ltac:(lia)); [|left; lra|left; lra]. rewrite E. field. lra.
Qed.
Lemma lin_node n x f i : increasing_on n x -> (2 <= n)%nat -> (i < n)%nat -> lin n x f (x i) = f i.
Proof.
  intros Hx Hn Hi. destruct (Nat.eq_dec (S i) n) as [E|E].
  - destruct i as [|k]; [lia|]. assert (x k < x (S k)) by (apply Hx; exact Hi).
    rewrite (lin_on n x f k) by (exact Hx || lia || lra). field. lra.
  - assert (x i < x (S i)) by (apply Hx; lia). rewrite (lin_on n x f i) by (exact Hx || lia || lra). field. lra.
Qed.
Lemma lin_ext n x f g v : (forall i, f i = g i) -> lin n x f v = lin n x g v.
Proof. intros E. unfold lin. rewrite !E. reflexivity. Qed.
Lemma lin_affine n x f a b v : lin n x (fun i => a * f i + b) v = a * lin n x f v + b.
Proof. unfold lin. nR. cbv zeta. unfold Rdiv. ring. Qed.
Lemma lin_comb n x f g a b v : lin n x (fun i => a * f i + b * g i) v = a * lin n x f v + b * lin n x g v.
Proof. unfold lin. nR. cbv zeta. unfold Rdiv. ring. Qed.
Lemma bilinear_affine n m x y z a b u v : bilinear n m x y (fun i j => a * z i j + b) u v = a * bilinear n m x y z u v + b.
Proof.
  unfold bilinear. rewrite <- (lin_affine n x (fun i => lin m y (z i) v) a b u). apply lin_ext. intros i. apply (lin_affine m y (z i)).
Qed.
Lemma bilinear_is n m x y z : (2 <= n)%nat -> (2 <= m)%nat -> increasing_on n x -> increasing_on m y ->
  bilinear_through n m x y z (bilinear n m x y z).
Proof.
  intros Hn Hm Hx Hy. split.
  - intros i j Hi Hj. unfold bilinear. rewrite lin_node by assumption. rewrite lin_node by assumption. reflexivity.
  - intros i v Hi. unfold straight, bilinear. set (f := fun i => lin m y (z i) v).
    exists (f i - x i * ((f (S i) - f i) / (x (S i) - x i))), ((f (S i) - f i) / (x (S i) - x i)).
    intros u Hu. rewrite (lin_on n x f i u) by assumption. ring.
  - intros j u Hj. unfold straight, bilinear.
    set (k := cell n x u). set (w := (u - x k) / (x (S k) - x k)).
    set (a := fun i => (z i (S j) - z i j) / (y (S j) - y j)).
    exists ((z k j - y j * a k) + w * ((z (S k) j - y j * a (S k)) - (z k j - y j * a k))), (a k + w * (a (S k) - a k)).
    intros v Hv. unfold lin at 1. nR. cbv zeta. fold k.
    rewrite !(lin_on m y _ j v) by assumption. unfold w, a. unfold Rdiv. ring.
Qed.
(** the conditions determine the function on the grid's rectangle *)
Lemma straight_two a b f c d : a < b -> straight a b f -> f a = c -> f b = d -> forall v, a <= v <= b -> f v = c + (v - a) * ((d - c) / (b - a)).
Proof.
  intros Hab (p & q & H) Ha Hb v Hv. rewrite H in Ha by lra. rewrite H in Hb by lra. rewrite H by lra. subst c d. field. lra.
Qed.
Lemma find_cell n x v : increasing_on n x -> (2 <= n)%nat -> x 0%nat <= v <= x (n - 1)%nat -> exists k, (S k < n)%nat /\ x k <= v <= x (S k).
Proof.
  intros Hx Hn Hv.
  assert (H : forall m, (m < n)%nat -> v <= x m -> m = 0%nat \/ exists k, (S k < n)%nat /\ x k <= v <= x (S k)).
  { induction m as [|m IH]; intros Hm Hvm; [left; reflexivity|right].
    destruct (Rle_dec (x m) v) as [C|C]; [exists m; split; [exact Hm|lra]|].
    destruct (IH ltac:(lia) ltac:(lra)) as [->|Hk]; [lra|exact Hk]. }
  destruct (H (n - 1)%nat ltac:(lia) ltac:(lra)) as [E|E]; [lia|exact E].
Qed.
Lemma bilinear_unique n m x y z F F' : (2 <= n)%nat -> (2 <= m)%nat -> increasing_on n x -> increasing_on m y ->
  bilinear_through n m x y z F -> bilinear_through n m x y z F' ->
  forall u v, x 0%nat <= u <= x (n - 1)%nat -> y 0%nat <= v <= y (m - 1)%nat -> F u v = F' u v.
Proof.
  intros Hn Hm Hx Hy [T1 SX1 SY1] [T2 SX2 SY2] u v Hu Hv.
  destruct (find_cell n x u Hx Hn Hu) as (i & Hi & Hui). destruct (find_cell m y v Hy Hm Hv) as (j & Hj & Hvj).
  assert (Lx := Hx i Hi). assert (Ly := Hy j Hj).
  assert (E : forall k, (k < n)%nat -> F (x k) v = F' (x k) v).
  { intros k Hk. rewrite (straight_two _ _ _ _ _ Ly (SY1 j (x k) Hj) eq_refl eq_refl v Hvj).
    rewrite (straight_two _ _ _ _ _ Ly (SY2 j (x k) Hj) eq_refl eq_refl v Hvj).
    rewrite !T1, !T2 by lia. reflexivity. }
  rewrite (straight_two _ _ _ _ _ Lx (SX1 i v Hi) eq_refl eq_refl u Hui).
  rewrite (straight_two _ _ _ _ _ Lx (SX2 i v Hi) eq_refl eq_refl u Hui).
  rewrite !E by lia. reflexivity.
Qed.
(** values of the interpolant lie between those of the data *)
Lemma lin_between n x f lo hi v : increasing_on n x -> (2 <= n)%nat -> x 0%nat <= v <= x (n - 1)%nat ->
  (forall i, (i < n)%nat -> lo <= f i <= hi) -> lo <= lin n x f v <= hi.
Proof.
  intros Hx Hn Hv Hf. destruct (find_cell n x v Hx Hn Hv) as (k & Hk & Hvk). rewrite (lin_on n x f k v) by assumption.
  assert (L := Hx k Hk). assert (H1 := Hf k ltac:(lia)). assert (H2 := Hf (S k) Hk).
  set (w := (v - x k) / (x (S k) - x k)).
  assert (Hw : 0 <= w <= 1).
  { unfold w. split; [apply Rmult_le_pos; [lra|left; apply Rinv_0_lt_compat; lra]|].
    apply Rmult_le_reg_r with (x (S k) - x k); [lra|]. unfold Rdiv. rewrite Rmult_assoc, Rinv_l by lra. lra. }
  replace (f k + (v - x k) * ((f (S k) - f k) / (x (S k) - x k))) with ((1 - w) * f k + w * f (S k)) by (unfold w; field; lra).
  split; nra.
Qed.

(** ** The boundary list *)
Lemma roll_perm {A} (l : list A) k : Permutation (roll l k) l.
Proof. unfold roll. rewrite Permutation_app_comm. rewrite firstn_skipn. apply Permutation_refl. Qed.
Lemma argmin_list_lt (l : list R) : l <> [] -> (argmin_list l < length l)%nat.
Proof.
  intros Hl. unfold argmin_list. destruct l as [|a l]; [congruence|].
  destruct (argmin_spec (length (a :: l)) (fun i => nth i (a :: l) 0) ltac:(cbn; lia)) as (H & _ & _). exact H.
Qed.
Lemma boundary_points_spec (l : list (R * R)) : l <> [] ->
  exists p q, boundary_points l = p :: q ++ [p] /\ Permutation (p :: q) l /\
    p = nth (length l - 1 - argmin_list (map snd l)) l (0, 0).
Proof.
  intros Hl. unfold boundary_points. set (k := argmin_list (map snd l)).
  assert (Hk : (k < length l)%nat) by (unfold k; rewrite <- (map_length snd l); apply argmin_list_lt; destruct l; [congruence|discriminate]).
  assert (Hp := roll_perm (rev l) k). remember (roll (rev l) k) as s eqn:Es.
  destruct s as [|p q].
  - apply Permutation_nil in Hp. apply (f_equal (@length _)) in Hp. rewrite rev_length in Hp. destruct l; [congruence|discriminate].
  - exists p, q. split; [reflexivity|]. split; [rewrite Hp; symmetry; apply Permutation_rev|].
    assert (E : nth 0 (roll (rev l) k) (0, 0) = p) by (rewrite <- Es; reflexivity).
    rewrite <- E. unfold roll. rewrite app_nth1 by (rewrite skipn_length, rev_length; lia).
    replace (nth 0 (skipn k (rev l)) (0, 0)) with (nth (k + 0) (rev l) (0, 0)).
    + rewrite rev_nth by lia. f_equal. lia.
    + clear. generalize (rev l) as s. induction k as [|k IH]; intros s; [reflexivity|]. destruct s as [|a s]; cbn; [reflexivity|apply IH].
Qed.

(** ** Inversion of write and read *)
Lemma bind_inv {A B} (x : result A) (k : A -> result B) b : bind x k = Ok b -> exists a, x = Ok a /\ k a = Ok b.
Proof. destruct x as [a|]; cbn; [intros H; exists a; split; [reflexivity|exact H]|discriminate]. Qed.
Section Inv.
  Context {T : Type} `{Num T}.
  Context {P Ctl : Type}.
  Variable G : field -> T -> T -> T -> T -> T.
  Variables (sqrt exp : T -> T) (mu0 : T).
  Variable spline : nat -> nat -> (nat -> T) -> (nat -> T) -> arr2 T -> sfun T.
  Variables (pi : T) (sin cos : T -> T) (arctan2 : T -> T -> T).
  Variable quad_interp : list T -> list T -> T -> T.
  Variable uspline : list T -> list T -> nat -> T -> T.
  Variable methods_of : P -> @methods T.
  Lemma write_inv m (e : equilibrium T P Ctl) ox d :
    write G sqrt spline pi sin cos arctan2 quad_interp methods_of m e ox = Ok d ->
    exists psi opoint xpoint p r z s os pb q qpsi f iso,
      total_psi e = Ok psi /\
      match ox with Some l => l = (opoint, xpoint) | None => eq_find_critical spline e (e_nx e) (e_ny e) psi = Ok (opoint, xpoint) end /\
      profiles e = Some p /\ neqb (gm_R0 m) n0 = false /\ opoint = (r, z, s) :: os /\ psi_bndry (bs e) = Some (Some pb) /\
      eq_spline spline e (e_nx e) (e_ny e) (fun i j => ((psi i j - s) / (pb - s))%num) = Ok f /\
      find_separatrix pi sin cos arctan2 (Rmin e) (Rmax e) (Zmin e) (Zmax e) (f 0%nat 0%nat) opoint xpoint 101 n1 = Ok iso /\
      let psinorm := linspace_open n0 n1 (e_nx e) in
      let g := methods_of p in
      eq_q (fun l => find_safety pi sin cos sqrt arctan2 G spline (m_fpol g) e l 128) quad_interp (AArray (tl psinorm)) 100 = Ok q /\
      qpsi_of (e_nx e) q = Ok qpsi /\
      d = (mkdata (e_nx e) (e_ny e) (Rmax e - Rmin e) (Zmax e - Zmin e) (gm_R0 m) (m_fvac g / gm_R0 m) (Rmin e)
             (nlit 1 2 * (Zmin e + Zmax e)) r z n0 (pb - s) (current e)
             (map (m_fpol g) psinorm) (map (m_pressure g) psinorm) (map (m_ffprime g) psinorm) (map (m_pprime g) psinorm)
             (fun i j => psi i j - s) qpsi (v_wall (gm_vessel m)) (boundary_points iso))%num.
  Proof.
    intros E. unfold write in E. cbv zeta in E.
    apply bind_inv in E. destruct E as (psi & E1 & E). apply bind_inv in E. destruct E as ([opoint xpoint] & E2 & E).
    apply bind_inv in E. destruct E as (g & E3 & E). destruct (neqb (gm_R0 m) n0) eqn:E4; [discriminate|].
    destruct opoint as [|[[r z] s] os]; [discriminate|].
    apply bind_inv in E. destruct E as (pb & E5 & E). apply bind_inv in E. destruct E as (q & E6 & E).
    apply bind_inv in E. destruct E as (qpsi & E7 & E). apply bind_inv in E. destruct E as (f & E8 & E).
    apply bind_inv in E. destruct E as (iso & E9 & E). injection E as <-.
    destruct (profiles e) as [p|] eqn:Ep; [|discriminate]. injection E3 as <-.
    exists psi, ((r, z, s) :: os), xpoint, p, r, z, s, os, pb, q, qpsi, f, iso.
    split; [exact E1|]. split; [destruct ox as [l|]; [injection E2 as ->; reflexivity|exact E2]|].
    split; [reflexivity|]. split; [reflexivity|]. split; [reflexivity|].
    split; [destruct (psi_bndry (bs e)) as [[v|]|]; [injection E5 as ->; reflexivity|discriminate|discriminate]|].
    split; [exact E8|]. split; [exact E9|]. split; [exact E6|]. split; [exact E7|]. reflexivity.
  Qed.

  Lemma read_domain_inv m (e : equilibrium T P Ctl) nx ny dom dR dZ Jtor psi e' Jtor' psi' psin' mask' :
    read_domain G exp spline m e nx ny dom dR dZ Jtor psi = Ok (e', Jtor', psi', psin', mask') ->
    let '(rmin, rmax, zmin, zmax) := dom in
    nltb (nofnat nx) ((rmax - rmin) / dR + n1)%num = true /\ nltb (nofnat ny) ((zmax - zmin) / dZ + n1)%num = true /\
    new_equilibrium G exp spline (tok_of m) rmin rmax zmin zmax nx ny BFree None n0 4 true = Ok e' /\
    exists pa pb, psi_axis (bs e') = Some pa /\ psi_bndry (bs e') = Some (Some pb) /\ mask (bs e') = Some mask' /\
      exists f, eq_spline spline e nx ny psi = Ok f /\ psi' = (fun i j => f 0%nat 0%nat (R_1D e' i) (Z_1D e' j)) /\
        psin' = (fun i j => nclip ((psi' i j - pa) / (pb - pa))%num n0 n1).
  Proof.
    destruct dom as [[[rmin rmax] zmin] zmax]. unfold read_domain. cbv zeta.
    destruct (nltb (nofnat nx) ((rmax - rmin) / dR + n1)%num); [|discriminate].
    destruct (nltb (nofnat ny) ((zmax - zmin) / dZ + n1)%num); [|discriminate]. cbn [andb negb].
    intros E. apply bind_inv in E. destruct E as (jf & E1 & E). apply bind_inv in E. destruct E as (pf & E2 & E).
    apply bind_inv in E. destruct E as (e1 & E3 & E). apply bind_inv in E. destruct E as ([[pb pa] mk] & E4 & E).
    destruct pb as [pb|]; [|discriminate]. injection E as <- _ <- <- <-.
    split; [reflexivity|]. split; [reflexivity|]. split; [exact E3|].
    unfold attributes in E4. destruct (psi_bndry (bs e1)) as [pb'|] eqn:B1; [|discriminate].
    destruct (psi_axis (bs e1)) as [pa'|] eqn:B2; [|discriminate]. destruct (mask (bs e1)) as [mk'|] eqn:B3; [|discriminate].
    injection E4 as -> -> ->. exists pa, pb. split; [reflexivity|]. split; [reflexivity|]. split; [reflexivity|].
    exists pf. split; [exact E2|]. split; reflexivity.
  Qed.

  (** the file's machine: wall and R0 *)
  Definition file_machine (m : gmachine T) (d : data T) : gmachine T :=
    mkgm (gm_coils m) (gm_vessel (read_wall m d)) (g_rcentr d).
  Lemma read_inv d m dom fs (r : rstate T P Ctl) :
    read_setup G exp mu0 spline uspline d m dom fs = Ok r ->
    exists nx ny psi prof q e mk,
      (fs = true -> dom = None) /\
      resize (g_nx d) (g_ny d) (g_psi d) = Ok (nx, ny, psi) /\
      read_profiles uspline d = Ok (prof, q) /\
      new_equilibrium G exp spline (tok_of (file_machine m d)) (g_rleft d) (g_rleft d + g_rdim d)%num
        (g_zmid d - nlit 1 2 * g_zdim d)%num (g_zmid d + nlit 1 2 * g_zdim d)%num nx ny BFree (Some psi) n0 4 true = Ok e /\
      (exists pb pa, psi_bndry (bs e) = Some pb /\ psi_axis (bs e) = Some pa) /\ mask (bs e) = Some (Some mk) /\
      r_machine r = file_machine m d /\ r_profiles r = prof /\
      let psin := fun i j => nclip ((psi i j - g_simagx d) / (g_sibdry d - g_simagx d))%num n0 (nlit 11 10) in
      let J := fun i j => ((grid_R e i j * fpprime prof (psin i j) + fffprime prof (psin i j) / (grid_R e i j * mu0)) * mk i j)%num in
      match dom with
      | None => r_eq r = e /\ r_Jtor r = J /\ r_psi r = psi /\ r_psi_norm r = psin /\ r_mask r = Some mk
      | Some dom =>
          exists J' psi' psin' mk',
          read_domain G exp spline (file_machine m d) e nx ny dom (grid_R e 1%nat 0%nat - grid_R e 0%nat 0%nat)%num
            (grid_Z e 0%nat 1%nat - grid_Z e 0%nat 0%nat)%num J psi = Ok (r_eq r, J', psi', psin', mk') /\
          r_Jtor r = J' /\ r_psi r = psi' /\ r_psi_norm r = psin' /\ r_mask r = mk'
      end.
  Proof.
    intros E. unfold read_setup in E. cbv zeta in E.
    destruct (fs && match dom with Some _ => true | None => false end)%bool eqn:Efs; [discriminate|].
    apply bind_inv in E. destruct E as ([[nx ny] psi] & E1 & E). apply bind_inv in E. destruct E as ([prof q] & E2 & E).
    apply bind_inv in E. destruct E as (e & E3 & E). apply bind_inv in E. destruct E as ([[pb pa] mask'] & E4 & E).
    destruct mask' as [mk|]; [|discriminate]. apply bind_inv in E. destruct E as (ri & E5 & E).
    exists nx, ny, psi, prof, q, e, mk.
    split; [intros ->; destruct dom; [discriminate|reflexivity]|].
    split; [exact E1|]. split; [exact E2|].
    assert (C : gm_coils (read_wall m d) = gm_coils m) by (unfold read_wall; destruct (g_lim d) as [w|]; [destruct (3 <? _)%nat|]; reflexivity).
    rewrite C in *. fold (file_machine m d) in E3, E. split; [exact E3|].
    unfold attributes in E4. destruct (psi_bndry (bs e)) as [pb'|] eqn:B1; [|discriminate].
    destruct (psi_axis (bs e)) as [pa'|] eqn:B2; [|discriminate]. destruct (mask (bs e)) as [mk'|] eqn:B3; [|discriminate].
    injection E4 as -> -> ->. split; [exists pb, pa; split; reflexivity|]. split; [reflexivity|].
    destruct dom as [dom|].
    - apply bind_inv in E. destruct E as ([[[[e' J'] psi'] psin'] mk'] & E6 & E). injection E as <-. cbn.
      split; [reflexivity|]. split; [reflexivity|]. exists J', psi', psin', mk'. split; [exact E6|]. do 3 (split; [reflexivity|]). reflexivity.
    - injection E as <-. cbn. do 6 (split; [reflexivity|]). reflexivity.
  Qed.
End Inv.

Lemma lit_half : nlit (T := R) 1 2 = / 2.
Proof. unfold nlit. nR. lra. Qed.
Lemma clip_clipped lo hi v : lo <= hi -> clipped lo hi v (nclip v lo hi).
Proof.
  intros Hl. unfold clipped. rewrite nclip_R.
  destruct (Rlt_dec v lo) as [H|H]; [left; split; [exact H|]|destruct (Rle_dec v hi) as [H'|H']; right; [left|right]; split; try lra].
  - unfold Rbasic_fun.Rmax, Rbasic_fun.Rmin. repeat destruct (Rle_dec _ _); lra.
  - unfold Rbasic_fun.Rmax, Rbasic_fun.Rmin. repeat destruct (Rle_dec _ _); lra.
  - unfold Rbasic_fun.Rmax, Rbasic_fun.Rmin. repeat destruct (Rle_dec _ _); lra.
Qed.

(** ** Resizing *)
Lemma sz_pos n : (2 <= n)%nat -> (0 < Z.of_nat n - 1)%Z.
Proof. lia. Qed.
Lemma resize_same (nx ny : nat) (psi : arr2 R) : power_of_two (Z.of_nat nx - 1) -> power_of_two (Z.of_nat ny - 1) -> resize nx ny psi = Ok (nx, ny, psi).
Proof. intros Hx Hy. unfold resize. rewrite !power_isPow2 by assumption. reflexivity. Qed.
Lemma resize_inv (nx ny : nat) (psi : arr2 R) nx' ny' psi' : (2 <= nx)%nat -> (2 <= ny)%nat -> resize nx ny psi = Ok (nx', ny', psi') ->
  least_power_above (Z.of_nat nx - 1) (Z.of_nat nx' - 1) /\ least_power_above (Z.of_nat ny - 1) (Z.of_nat ny' - 1) /\
  (2 <= nx')%nat /\ (2 <= ny')%nat /\
  forall i j, (i < nx')%nat -> (j < ny')%nat -> psi' i j = bilinear nx ny (linspace 0 1 nx) (linspace 0 1 ny) psi (linspace 0 1 nx' i) (linspace 0 1 ny' j).
Proof.
  intros Hx Hy. unfold resize.
  destruct (isPow2 (Z.of_nat nx - 1) && isPow2 (Z.of_nat ny - 1))%bool eqn:E.
  - intros E'. injection E' as <- <- <-. apply andb_true_iff in E. destruct E as [Ex Ey].
    apply isPow2_spec in Ex; [|lia]. apply isPow2_spec in Ey; [|lia].
    split; [split; [exact Ex|split; [lia|intros; assumption]]|]. split; [split; [exact Ey|split; [lia|intros; assumption]]|].
    split; [exact Hx|]. split; [exact Hy|].
    intros i j Hi Hj.
    destruct (bilinear_is nx ny (linspace 0 1 nx) (linspace 0 1 ny) psi Hx Hy (linspace_increasing 0 1 nx ltac:(lra)) (linspace_increasing 0 1 ny ltac:(lra))) as [Tt _ _].
    symmetry. apply Tt; assumption.
  - replace ((nx <? 2) || (ny <? 2))%nat%bool with false by (symmetry; apply orb_false_iff; split; apply Nat.ltb_ge; assumption).
    destruct (ceilPow2_spec (Z.of_nat nx - 1) (sz_pos nx Hx)) as (cx & Ecx & Lx). destruct (ceilPow2_spec (Z.of_nat ny - 1) (sz_pos ny Hy)) as (cy & Ecy & Ly).
    rewrite Ecx, Ecy. cbn [bind]. intros E'. injection E' as <- <- <-.
    assert (Hcx : (0 < cx)%Z) by (destruct Lx as (_ & L & _); lia). assert (Hcy : (0 < cy)%Z) by (destruct Ly as (_ & L & _); lia).
    replace (Z.of_nat (Z.to_nat cx + 1) - 1)%Z with cx by lia. replace (Z.of_nat (Z.to_nat cy + 1) - 1)%Z with cy by lia.
    split; [exact Lx|]. split; [exact Ly|]. split; [lia|]. split; [lia|]. intros i j _ _. reflexivity.
Qed.
Lemma linspace_node a b n i : linspace a b n i = node a b n i.
Proof. rewrite linspace_gridpt. unfold GSSpec.gridpt, node. unfold Rdiv. ring. Qed.
Lemma node_last a b n : (2 <= n)%nat -> node a b n (n - 1) = b.
Proof. intros Hn. unfold node. assert (0 < INR (n - 1)) by (apply lt_0_INR; lia). field. lra. Qed.
Lemma node_first a b n : node a b n 0 = a.
Proof. unfold node. cbn. ring. Qed.
Lemma node_unit n i : (2 <= n)%nat -> (i < n)%nat -> 0 <= node 0 1 n i <= 1.
Proof.
  intros Hn Hi. unfold node. assert (0 < INR (n - 1)) by (apply lt_0_INR; lia). assert (0 <= INR i) by apply pos_INR.
  assert (INR i <= INR (n - 1)) by (apply le_INR; lia).
  assert (0 <= / INR (n - 1)) by (left; apply Rinv_0_lt_compat; lra).
  replace (0 + INR i * ((1 - 0) / INR (n - 1))) with (INR i * / INR (n - 1)) by (field; lra).
  split; [apply Rmult_le_pos; assumption|]. apply Rmult_le_reg_r with (INR (n - 1)); [lra|]. rewrite Rmult_assoc, Rinv_l by lra. lra.
Qed.
Lemma open_nth n i : (i < n)%nat -> nth i (linspace_open (T := R) 0 1 n) 0 = INR i / INR n.
Proof.
  intros Hi. unfold linspace_open. rewrite nth_indep with (d' := (fun k => 0 + INR k * ((1 - 0) / INR n)) 0%nat) by (rewrite map_length, seq_length; exact Hi).
  rewrite (map_ext (fun k => (0 + nofnat k * ((1 - 0) / nofnat n))%num) (fun k => 0 + INR k * ((1 - 0) / INR n))) by (intros k; rewrite !nofnat_INR; reflexivity).
  rewrite (map_nth (fun k => 0 + INR k * ((1 - 0) / INR n))), seq_nth by exact Hi.
  assert (0 < INR n) by (apply lt_0_INR; lia). cbn [Nat.add]. field. lra.
Qed.
Lemma open_map_nth (f : R -> R) n i : (i < n)%nat -> nth i (map f (linspace_open (T := R) 0 1 n)) 0 = f (INR i / INR n).
Proof.
  intros Hi. rewrite (nth_indep _ 0 (f 0)) by (rewrite map_length; unfold linspace_open; rewrite map_length, seq_length; exact Hi).
  rewrite map_nth. f_equal. apply open_nth. exact Hi.
Qed.
Lemma closed_nth n i : (2 <= n)%nat -> (i < n)%nat -> nth i (linspace_list (T := R) 0 1 n) 0 = INR i / INR (n - 1).
Proof.
  intros Hn Hi. unfold linspace_list. rewrite (nth_indep _ 0 (linspace 0 1 n 0%nat)) by (rewrite map_length, seq_length; exact Hi).
  rewrite (map_nth (linspace 0 1 n)), seq_nth by exact Hi. rewrite linspace_node. unfold node.
  assert (0 < INR (n - 1)) by (apply lt_0_INR; lia). cbn [Nat.add]. field. lra.
Qed.
Lemma read_profiles_inv {T} `{Num T} (us : list T -> list T -> nat -> T -> T) d prof q : read_profiles us d = Ok (prof, q) ->
  let x := linspace_list n0 n1 (g_nx d) in
  let ran := (g_sibdry d - g_simagx d)%num in
  (4 <= g_nx d)%nat /\ length (g_pres d) = g_nx d /\ length (g_fpol d) = g_nx d /\ length (g_qpsi d) = g_nx d /\
  prof = mkfprofile (us x (map (fun v => v / ran)%num (g_pres d)) 1%nat) (us x (map (fun v => nlit 1 2 * nsqr v / ran)%num (g_fpol d)) 1%nat)
           (g_rcentr d * g_bcentr d)%num (Some (us x (g_pres d) 0%nat)) (Some (us x (g_fpol d) 0%nat)) /\
  q = us x (g_qpsi d) 0%nat.
Proof.
  unfold read_profiles. cbv zeta. intros E.
  assert (U : forall y f, uspl us (linspace_list n0 n1 (g_nx d)) y = Ok f -> length y = g_nx d /\ (4 <= g_nx d)%nat /\ f = us (linspace_list n0 n1 (g_nx d)) y).
  { intros y f. unfold uspl. unfold linspace_list at 1 2. rewrite map_length, seq_length.
    destruct (g_nx d =? length y)%nat eqn:E1; [|discriminate]. destruct (3 <? g_nx d)%nat eqn:E2; [|discriminate]. cbn [andb]. intros E3.
    injection E3 as <-. apply Nat.eqb_eq in E1. apply Nat.ltb_lt in E2. split; [symmetry; exact E1|]. split; [lia|reflexivity]. }
  apply bind_inv in E. destruct E as (f1 & E1 & E). apply bind_inv in E. destruct E as (f2 & E2 & E). apply bind_inv in E. destruct E as (f3 & E3 & E).
  apply bind_inv in E. destruct E as (f4 & E4 & E). apply bind_inv in E. destruct E as (f5 & E5 & E). injection E as <- <-.
  apply U in E1. apply U in E2. apply U in E3. apply U in E4. apply U in E5.
  destruct E1 as (L1 & L0 & ->). destruct E2 as (_ & _ & ->). destruct E3 as (L3 & _ & ->). destruct E4 as (_ & _ & ->). destruct E5 as (L5 & _ & ->).
  repeat split; assumption.
Qed.

(** ** The boundary attributes of a new equilibrium *)
Lemma new_bs {T} `{Num T} {P Ctl} G exp spline t (rmin rmax zmin zmax : T) nx ny b psi I ord chk (e : equilibrium T P Ctl) :
  new_equilibrium G exp spline t rmin rmax zmin zmax nx ny b psi I ord chk = Ok e ->
  exists (e0 : equilibrium T P Ctl) tot opt xpt,
    total_psi e = Ok tot /\ eq_find_critical spline e nx ny tot = Ok (opt, xpt) /\ update_from spline e0 tot opt xpt = Ok (bs e) /\
    bs e0 = no_boundary /\ check_limited e0 = chk /\ tok e0 = t /\ e_nx e0 = nx /\ e_ny e0 = ny.
Proof.
  intros E. unfold new_equilibrium in E. destruct ((nx <? 2) || (ny <? 2))%nat; [discriminate|].
  cbv zeta in E. inv_bind E. apply update_plasma_inv in E0. destruct E0 as (_ & _ & tot & bb & Et & Eu & ->).
  inv_bind E. inv_bind E. injection E as <-. unfold update_boundary in Eu. apply bind_inv in Eu. destruct Eu as ([opt xpt] & Ef & Eu).
  eexists. exists tot, opt, xpt. split; [exact Et|]. split; [exact Ef|]. split; [exact Eu|]. repeat split; reflexivity.
Qed.
Lemma RBS_increasing spline n m (x y : nat -> R) mx my z s : RectBivariateSpline spline n m x y mx my z = Ok s -> (4 <= n)%nat /\ (4 <= m)%nat /\ x 0%nat < x 1%nat /\ y 0%nat < y 1%nat.
Proof.
  unfold RectBivariateSpline. destruct (increasing n x) eqn:Ex; [|discriminate]. destruct (increasing m y) eqn:Ey; [|discriminate].
  destruct (n =? mx)%nat; [|discriminate]. destruct (m =? my)%nat; [|discriminate].
  destruct (Nat.ltb_spec 3 n); [|discriminate]. destruct (Nat.ltb_spec 3 m); [|discriminate]. intros _.
  split; [lia|]. split; [lia|].
  unfold increasing in Ex, Ey. rewrite forallb_forall in Ex, Ey.
  split; [specialize (Ex 0%nat)|specialize (Ey 0%nat)]; apply R_ltb_true; [apply Ex|apply Ey]; apply in_seq; lia.
Qed.
Lemma new_domain {P Ctl} G exp spline t (rmin rmax zmin zmax : R) nx ny b psi I ord chk (e : equilibrium R P Ctl) :
  new_equilibrium G exp spline t rmin rmax zmin zmax nx ny b psi I ord chk = Ok e ->
  (4 <= nx)%nat /\ (4 <= ny)%nat /\ rmin < rmax /\ zmin < zmax.
Proof.
  intros E. unfold new_equilibrium in E. destruct ((nx <? 2) || (ny <? 2))%nat; [discriminate|].
  cbv zeta in E. inv_bind E. unfold update_plasma in E0. inv_bind E0. unfold eq_spline in E1. apply RBS_increasing in E1.
  destruct E1 as (Hx & Hy & H1 & H2). cbn in Hx, Hy. split; [exact Hx|]. split; [exact Hy|].
  unfold R_1D, Z_1D in H1, H2. cbn [Rmin Rmax Zmin Zmax e_nx e_ny] in H1, H2. rewrite !linspace_node in H1, H2. unfold node in H1, H2. cbn [INR] in H1, H2.
  assert (0 < INR (nx - 1)) by (apply lt_0_INR; lia). assert (0 < INR (ny - 1)) by (apply lt_0_INR; lia).
  split.
  - apply Rnot_le_lt. intros C. assert ((rmax - rmin) / INR (nx - 1) <= 0); [|lra]. apply Rmult_le_reg_r with (INR (nx - 1)); [lra|]. unfold Rdiv. rewrite Rmult_assoc, Rinv_l by lra. lra.
  - apply Rnot_le_lt. intros C. assert ((zmax - zmin) / INR (ny - 1) <= 0); [|lra]. apply Rmult_le_reg_r with (INR (ny - 1)); [lra|]. unfold Rdiv. rewrite Rmult_assoc, Rinv_l by lra. lra.
Qed.
Lemma grid_step {P Ctl} (e : equilibrium R P Ctl) : (2 <= e_nx e)%nat -> grid_R e 1%nat 0%nat - grid_R e 0%nat 0%nat = spacing (Rmin e) (Rmax e) (e_nx e).
Proof. intros Hn. unfold grid_R, R_1D. rewrite !linspace_node. unfold node, spacing. cbn [INR]. ring. Qed.
Lemma grid_stepZ {P Ctl} (e : equilibrium R P Ctl) : (2 <= e_ny e)%nat -> grid_Z e 0%nat 1%nat - grid_Z e 0%nat 0%nat = spacing (Zmin e) (Zmax e) (e_ny e).
Proof. intros Hn. unfold grid_Z, Z_1D. rewrite !linspace_node. unfold node, spacing. cbn [INR]. ring. Qed.
Lemma more_points (w d : R) n : (2 <= n)%nat -> 0 < d -> INR n < w / d + 1 -> d < w / INR (n - 1).
Proof.
  intros Hn Hd H. assert (Hk : 0 < INR (n - 1)) by (apply lt_0_INR; lia).
  replace (INR n) with (INR (n - 1) + 1) in H by (rewrite <- S_INR; f_equal; lia).
  assert (L : INR (n - 1) < w / d) by lra.
  apply Rmult_lt_reg_r with (INR (n - 1)); [exact Hk|]. replace (w / INR (n - 1) * INR (n - 1)) with w by (field; lra).
  apply Rmult_lt_compat_r with (r := d) in L; [|exact Hd]. replace (w / d * d) with w in L by (field; lra). lra.
Qed.
Lemma mapM_length {A B} (f : A -> result B) l r : mapM f l = Ok r -> length r = length l.
Proof.
  revert r. induction l as [|a l IH]; intros r E; [injection E as <-; reflexivity|]. cbn in E. destruct (f a); [|discriminate]. cbn in E.
  destruct (mapM f l) eqn:El; [|discriminate]. injection E as <-. cbn. f_equal. apply IH. reflexivity.
Qed.
Lemma safety_length {T} `{Num T} {P Ctl} pi sin cos sqrt arctan2 G spline fpol (e : equilibrium T P Ctl) l n q :
  find_safety pi sin cos sqrt arctan2 G spline fpol e l n = Ok q -> length q = length l.
Proof.
  unfold find_safety. intros E. apply bind_inv in E. destruct E as (tot & _ & E). apply bind_inv in E. destruct E as ([opt xpt] & _ & E).
  destruct xpt as [|x xs]; [discriminate|]. destruct opt as [|o os]; [discriminate|].
  apply bind_inv in E. destruct E as (f & _ & E). apply bind_inv in E. destruct E as (th & _ & E). apply bind_inv in E. destruct E as (surfs & Es & E).
  injection E as <-. rewrite map_length, combine_length. apply mapM_length in Es. rewrite Es. apply Nat.min_id.
Qed.
Lemma separatrix_length {T} `{Num T} pi sin cos arctan2 (rmin rmax zmin zmax : T) f os xs n v iso :
  find_separatrix pi sin cos arctan2 rmin rmax zmin zmax f os xs n v = Ok iso -> (2 <= n)%nat /\ length iso = n.
Proof.
  unfold find_separatrix. destruct os as [|o os]; [discriminate|]. destruct xs as [|x xs]; [discriminate|]. intros E.
  apply bind_inv in E. destruct E as (th & Et & E). apply mapM_length in E. rewrite E. unfold theta_grid in Et.
  destruct (Nat.ltb_spec n 2) as [L|L]; [discriminate|]. split; [exact L|]. cbv zeta in Et.
  match type of Et with context [if ?c then _ else _] => match type of c with bool => destruct c end end; injection Et as <-; rewrite ?map_length, seq_length; reflexivity.
Qed.
