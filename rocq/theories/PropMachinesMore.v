(** More about the predefined machines: the Pc coil of MASTU, the quadrature of TestTokamak, turns, walls, saving. *)
From Coq Require Import String Ascii List Arith ZArith QArith Bool Reals Lra Lia.
From Verif Require Import Py Num Numpy Polygons Quadrature Coils GradShafranov Machine MachineSpec MachineProofs Sensors SensorsProofs PropSensors Machines MachinesSpec MachinesProofs PropMachines.
Import ListNotations.
Local Open Scope R_scope.
Local Open Scope string_scope.
Local Open Scope list_scope.

(** ** C138, continued *)
(** The Pc coil of MASTU is not symmetric: it reaches from z = -0.78 to z = 0.77.  There are functions
    ellipk, ellipe with which already the flux at one of its strands differs from the flux at the mirror image. *)
Lemma dec_R m e : dec (T := R) m e = IZR m / IZR (10 ^ Z.of_nat e).
Proof. unfold dec. nR. reflexivity. Qed.
Lemma dec_between lo hi m e : ((lo * 10 ^ Z.of_nat e <? 100 * m) && (100 * m <? hi * 10 ^ Z.of_nat e))%Z%bool = true -> IZR lo / 100 < dec m e < IZR hi / 100.
Proof.
  intros E. apply andb_prop in E. destruct E as (E1 & E2). apply Z.ltb_lt in E1, E2. apply IZR_lt in E1, E2. rewrite !mult_IZR in E1, E2.
  rewrite dec_R. assert (P : 0 < IZR (10 ^ Z.of_nat e)) by (apply IZR_lt, Z.pow_pos_nonneg; lia). set (q := IZR (10 ^ Z.of_nat e)) in *.
  split; (apply (Rmult_lt_reg_r (100 * q)); [lra|]); field_simplify; lra.
Qed.
(** Bounds for lists of decimal numbers, by computation *)
Definition decs (l : list (BinNums.Z * nat)) : list R := map (fun me => dec (fst me) (snd me)) l.
Ltac reify l := match l with
  | nil => constr:(@nil (BinNums.Z * nat))
  | cons (dec ?m ?e) ?t => let t' := reify t in constr:(cons (m, e) t') end.
Lemma decs_between lo hi l :
  forallb (fun me => (lo * 10 ^ Z.of_nat (snd me) <? 100 * fst me) && (100 * fst me <? hi * 10 ^ Z.of_nat (snd me)))%Z%bool l = true ->
  Forall (fun x => IZR lo / 100 < x < IZR hi / 100) (decs l).
Proof.
  intros E. rewrite forallb_forall in E. apply Forall_forall. intros x Hx. apply in_map_iff in Hx. destruct Hx as (me & <- & Hin).
  apply dec_between, E, Hin.
Qed.
Ltac between := match goal with |- Forall _ ?l => let l' := reify l in change l with (decs l') end; apply decs_between; vm_compute; reflexivity.
Lemma Forall_combine {A B} (P : A -> Prop) (Q : B -> Prop) l k : Forall P l -> Forall Q k -> Forall (fun p => P (fst p) /\ Q (snd p)) (combine l k).
Proof.
  intros H. revert k. induction H as [|a l Ha H IH]; intros k K; [constructor|]. destruct K as [|b k Hb K]; [constructor|].
  cbn [combine]. constructor; [split; assumption|apply IH, K].
Qed.
Lemma pc_inside : Forall (fun p : R * R => (0 / 100 < fst p < 100 / 100) /\ (-100 / 100 < snd p < 77 / 100)) (combine pc_r pc_z).
Proof.
  apply (Forall_combine (fun x => 0 / 100 < x < 100 / 100) (fun x => -100 / 100 < x < 77 / 100)).
  - unfold pc_r. between.
  - unfold pc_z. between.
Qed.
Definition spike (x : R) : R := if Req_EM_T x (1 - 1 / 10 ^ 10) then 1 else 0.
Lemma spike_pos x : 0 <= spike x.
Proof. unfold spike. destruct (Req_EM_T _ _); lra. Qed.
Lemma clip_in k2 : 1 / 10 ^ 10 <= nclip k2 (1 / 10 ^ 10) (1 - 1 / 10 ^ 10) <= 1 - 1 / 10 ^ 10.
Proof. apply nclip_bounds. lra. Qed.
Lemma spike_nonneg Rc Zc r z : 0 <= Greens spike (fun _ => 0) Rc Zc r z.
Proof.
  unfold Greens. assert (B := clip_in (4 * r * Rc / ((r + Rc) ^ 2 + (z - Zc) ^ 2))).
  set (k2 := nclip _ _ _) in *. clearbody k2.
  assert (0 < sqrt k2) by (apply sqrt_lt_R0; lra). assert (Hs := spike_pos k2). assert (Hq := sqrt_pos (r * Rc)).
  assert (Hm : 0 <= mu0 / (2 * PI)). { unfold mu0. assert (HP := PI_RGT_0). replace (4 / 10 ^ 7 * PI / (2 * PI)) with (2 / 10 ^ 7) by (field; lra). lra. }
  apply Rmult_le_pos; [|left; apply Rinv_0_lt_compat; assumption].
  apply Rmult_le_pos; [apply Rmult_le_pos; assumption|]. nra.
Qed.
Lemma spike_on Rc Zc : 0 < Rc -> 0 < Greens spike (fun _ => 0) Rc Zc Rc Zc.
Proof.
  intros H. unfold Greens. replace (4 * Rc * Rc / ((Rc + Rc) ^ 2 + (Zc - Zc) ^ 2)) with 1 by (field; nra).
  replace (nclip 1 (1 / 10 ^ 10) (1 - 1 / 10 ^ 10)) with (1 - 1 / 10 ^ 10) by (rewrite nclip_R; unfold Rbasic_fun.Rmin, Rbasic_fun.Rmax; repeat destruct (Rle_dec _ _); lra).
  unfold spike. destruct (Req_EM_T _ _) as [_|N]; [|congruence].
  assert (0 < sqrt (1 - 1 / 10 ^ 10)) by (apply sqrt_lt_R0; lra). assert (Hq : 0 < sqrt (Rc * Rc)) by (apply sqrt_lt_R0; nra).
  assert (Hm : 0 < mu0 / (2 * PI)). { unfold mu0. assert (HP := PI_RGT_0). replace (4 / 10 ^ 7 * PI / (2 * PI)) with (2 / 10 ^ 7) by (field; lra). lra. }
  apply Rmult_lt_0_compat; [|apply Rinv_0_lt_compat; assumption].
  apply Rmult_lt_0_compat; [apply Rmult_lt_0_compat; assumption|]. lra.
Qed.
Lemma spike_off Rc Zc r z : 0 < Rc < 1 -> 0 < r < 1 -> -1 < Zc -> z < 1 -> Zc + 1 / 100 < z -> Greens spike (fun _ => 0) Rc Zc r z = 0.
Proof.
  intros HR Hr HZ Hz1 Hz. unfold Greens.
  assert (D : 0 < (r + Rc) ^ 2 + (z - Zc) ^ 2) by nra.
  assert (K : 4 * r * Rc / ((r + Rc) ^ 2 + (z - Zc) ^ 2) < 1 - 1 / 10 ^ 10).
  { apply (Rmult_lt_reg_r ((r + Rc) ^ 2 + (z - Zc) ^ 2)); [exact D|]. unfold Rdiv. rewrite Rmult_assoc, Rinv_l, Rmult_1_r by lra.
    assert ((r + Rc) ^ 2 + (z - Zc) ^ 2 <= 8) by nra. assert (1 / 10000 < (z - Zc) ^ 2) by nra. assert (0 <= (r - Rc) ^ 2) by apply pow2_ge_0.
    assert (4 * r * Rc = ((r + Rc) ^ 2 + (z - Zc) ^ 2) - (r - Rc) ^ 2 - (z - Zc) ^ 2) by ring. lra. }
  set (k2 := 4 * r * Rc / _) in *. clearbody k2.
  assert (S : spike (nclip k2 (1 / 10 ^ 10) (1 - 1 / 10 ^ 10)) = 0).
  { unfold spike. destruct (Req_EM_T _ _) as [E|N]; [exfalso|reflexivity]. revert E.
    rewrite nclip_R. unfold Rbasic_fun.Rmin, Rbasic_fun.Rmax. repeat destruct (Rle_dec _ _); lra. }
  rewrite S. unfold Rdiv. ring.
Qed.
Theorem C138_MASTU_Pc_refuted : exists (tk : tokamak R) (I : string -> R), MASTU = Ok tk /\ (forall l, l <> "Pc" -> I l = 0) /\
  ~ symmetric (powered I (tk_coils tk)).
Proof.
  destruct MASTU_made as (tk & E). exists tk, (fun l => if String.eqb l "Pc" then 1 else 0). split; [exact E|]. split.
  { intros l Hl. apply String.eqb_neq in Hl. rewrite Hl. reflexivity. }
  unfold MASTU in E.
  repeat (let c := fresh "c" in let Ec := fresh "Ec" in apply bind_ok in E; destruct E as (c & Ec & E)).
  apply ok_inj in E. subst tk. cbn [tk_coils]. clear - Ec.
  intros S. specialize (S spike (fun _ => 0) (dec 5950115 8) (dec (-781521082) 9)). destruct S as (S & _). revert S. unfold coils_field.
  rewrite !powered_field. cbn [map fst snd String.eqb Ascii.eqb Bool.eqb]. rewrite !lsum_cons, !lsum_nil, !Rmult_0_l, !Rmult_1_l, !Rplus_0_l, !Rplus_0_r.
  cbn [mc_ctrl green_kernel]. unfold coil_control. apply strands_inv in Ec. destruct Ec as (Et & s & ctr & ->). rewrite Et. nR.
  rewrite !fold_G_sum. cbn [green_kernel].
  assert (B := pc_inside). assert (Hin : In (dec 5950115 8, dec (-781521082) 9) (combine (pc_r (T := R)) pc_z)) by (left; reflexivity).
  assert (Hr := dec_between 0 100 5950115 8 eq_refl). assert (Hz := dec_between (-79) (-78) (-781521082) 9 eq_refl).
  assert (Hn : 0 < IZR (Z.of_nat (List.length (pc_r (T := R))))) by (apply IZR_lt; reflexivity).
  set (r0 := dec 5950115 8) in *. set (z0 := dec (-781521082) 9) in *. clearbody r0 z0. set (n := IZR (Z.of_nat _)) in *. clearbody n.
  set (l := combine _ _) in *. clearbody l.
  rewrite (lsum_ext _ (fun _ => 0) l).
  2:{ intros p Hp. rewrite Forall_forall in B. specialize (B p Hp). cbn [fst snd]. apply spike_off; lra. }
  assert (P : 0 < lsum (map (fun p => Greens spike (fun _ => 0) (fst p) (snd p) r0 z0) l)).
  { clear - Hin Hr. induction l as [|a l IH]; [contradiction|]. cbn [map]. rewrite lsum_cons.
    assert (0 <= Greens spike (fun _ => 0) (fst a) (snd a) r0 z0) by apply spike_nonneg.
    assert (0 <= lsum (map (fun p => Greens spike (fun _ => 0) (fst p) (snd p) r0 z0) l)).
    { clear. induction l as [|b l IH]; [cbn [map]; rewrite lsum_nil; lra|]. cbn [map]. rewrite lsum_cons. assert (X := spike_nonneg (fst b) (snd b) r0 z0). lra. }
    destruct Hin as [->|Hin].
    - cbn [fst snd] in *. assert (X := spike_on r0 z0 ltac:(lra)). lra.
    - specialize (IH Hin). lra. }
  assert (Z0 : lsum (map (fun _ : R * R => 0) l) = 0). { clear. induction l as [|a l IH]; [reflexivity|]. cbn [map]. rewrite lsum_cons, IH. ring. }
  rewrite Z0. intros E. set (S := lsum _) in *. clearbody S.
  assert (X : 0 < S * 1 / n) by (apply Rdiv_lt_0_compat; lra). rewrite ?Rplus_0_l in E. unfold Rdiv in *. lra.
Qed.
Print Assumptions C138_MASTU_Pc_refuted.

(** TestTokamak: the shapes of P1U and P1L are mirror images, but P1U is cut along the other diagonal than
    the image of P1L.  A polynomial of degree 5 shows the difference (the six points are exact up to degree 4). *)
Definition quintic (f : field) (rc zc r z : Q) : Q := match f with FPsi => (rc * rc * rc * ((z - zc) * (z - zc)))%num | _ => 0%Q end.
Theorem C138_TestTokamak_refuted : exists (tk : tokamak Q) (G : field -> Q -> Q -> Q -> Q -> Q) (I : string -> Q) (r z : Q),
  TestTokamak 10 = Ok tk /\
  (forall f rc zc r z, (G f rc (- zc) r (- z) == (match f with FBr => -(1) | _ => 1 end) * G f rc zc r z)%Q) /\
  I "P1L" = I "P1U" /\ I "P2L" = I "P2U" /\
  ~ (fst (machine_field G FPsi (powered I (tk_coils tk)) r (- z)) == fst (machine_field G FPsi (powered I (tk_coils tk)) r z))%Q.
Proof.
  destruct (TestTokamak (T := Q) 10) as [tk|e] eqn:E; [|exfalso; vm_compute in E; discriminate].
  exists tk, quintic, (fun l => if String.eqb l "P1L" || String.eqb l "P1U" then 1%Q else 0%Q)%bool, 1%Q, 1%Q. split; [reflexivity|]. split.
  { intros f rc zc r z. destruct f; cbn [quintic]; [|reflexivity|reflexivity].
    cbn [nmul nsub Num_Q]. rewrite !Qred_correct. ring. }
  split; [reflexivity|]. split; [reflexivity|].
  assert (H : match TestTokamak (T := Q) 10 with Ok t =>
      negb (Qeq_bool (fst (machine_field quintic FPsi (powered (fun l => if String.eqb l "P1L" || String.eqb l "P1U" then 1%Q else 0%Q)%bool (tk_coils t)) 1%Q (- (1))%Q))
               (fst (machine_field quintic FPsi (powered (fun l => if String.eqb l "P1L" || String.eqb l "P1U" then 1%Q else 0%Q)%bool (tk_coils t)) 1%Q 1%Q))) | _ => false end = true)
    by (vm_cast_no_check (eq_refl true)).
  rewrite E in H. intros N. apply Qeq_eq_bool in N. change (-(1))%Q with (Qopp 1) in *. rewrite N in H. discriminate.
Qed.
Print Assumptions C138_TestTokamak_refuted.


(** In a symmetric machine the sensors of TestTokamakSensor (machine.py 922-957) come in pairs: two field probes at
    mirror positions with opposite angles read opposite values, two flux loops the same value. *)
Theorem C138_sensors : forall ellipk ellipe (M : machine R) m m' r z c s, symmetric M -> machine_synced M ->
  let G := green_kernel ellipk ellipe in
  sn_measurement (fst (field_sensor_measure G (mksensor true m) r (- z) c (- s) M None)) =
    option_map Ropp (sn_measurement (fst (field_sensor_measure G (mksensor true m') r z c s M None))) /\
  sn_measurement (fst (flux_loop_measure G (mksensor true m) r (- z) M None)) = sn_measurement (fst (flux_loop_measure G (mksensor true m') r z M None)).
Proof.
  intros ellipk ellipe M m m' r z c s HS Hy G. destruct (HS ellipk ellipe r z) as (E1 & E2 & E3). unfold coils_field in *. fold G in E1, E2, E3.
  destruct (C88_point_sensors G m r (- z) c (- s) M None None Hy) as (-> & -> & _).
  destruct (C88_point_sensors G m' r z c s M None None Hy) as (-> & -> & _).
  cbn [fst sn_measurement option_map plasma_field]. rewrite E1, E2, E3. split; [|reflexivity]. f_equal. ring.
Qed.
Print Assumptions C138_sensors.
Example C138_sensors_example : let M := powered (fun l => if String.eqb l "P2" then 1000 else 0) (tk_coils MAST_sym) in symmetric M /\ machine_synced M.
Proof.
  split; [apply C138_MAST_sym; reflexivity|]. unfold machine_synced, powered. apply Forall_map, Forall_forall. intros lm _. cbn [snd]. apply mc_set_current_synced.
Qed.
