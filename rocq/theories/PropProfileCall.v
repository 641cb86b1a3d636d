(** Properties C192 and C193: calling pressure and fpol. *)
From Coq Require Import Reals Lra Lia List Arith Bool.
From Coquelicot Require Import Coquelicot.
From Verif Require Import Py Num Numpy Romb Jtor JtorSpec JtorProofs PropJtor ProfileCall.
Import ListNotations.
Local Open Scope R_scope.

(** C192 — numbers and arrays: every entry is the value at that entry, the output array is filled
    with the same values, and one of another length is refused *)
Theorem C192_elementwise : forall quad sqrt (p : @fprofile R) pa pb (l : list R) (out : option (list R)) x,
  let s := mkfstate pb pa in
  (p_func p = None -> pressure_call quad p (Some (pa, pb)) (PNum x) out = Ok (VNum (fpressure quad p s x), out)) /\
  (f_func p = None -> fpol_call quad sqrt p (Some (pa, pb)) (PNum x) out = Ok (VNum (ffpol quad sqrt p s x), out)) /\
  (forall o, out = Some o -> length o = length l ->
     (p_func p = None -> pressure_call quad p (Some (pa, pb)) (PArr l) out = Ok (VArr (map (fpressure quad p s) l), Some (map (fpressure quad p s) l))) /\
     (f_func p = None -> fpol_call quad sqrt p (Some (pa, pb)) (PArr l) out = Ok (VArr (map (ffpol quad sqrt p s) l), Some (map (ffpol quad sqrt p s) l)))) /\
  (out = None ->
     (pressure_call quad p (Some (pa, pb)) (PArr l) out = Ok (VArr (map (fpressure quad p s) l), None)) /\
     (fpol_call quad sqrt p (Some (pa, pb)) (PArr l) out = Ok (VArr (map (ffpol quad sqrt p s) l), None))) /\
  (forall o, out = Some o -> length o <> length l ->
     (p_func p = None -> pressure_call quad p (Some (pa, pb)) (PArr l) out = Raise ValueError) /\
     (f_func p = None -> fpol_call quad sqrt p (Some (pa, pb)) (PArr l) out = Raise ValueError)).
Proof.
  intros quad sqrt p pa pb l out x s.
  assert (F : forall f (o : list R), length o = length l -> fill (T := R) f (Some (pa, pb)) l (Some o) = Ok (VArr (map (f pa pb) l), Some (map (f pa pb) l))).
  { intros f o Ho. unfold fill. rewrite Ho, Nat.eqb_refl. cbn [negb]. destruct l; [|reflexivity]. destruct o; [reflexivity|discriminate]. }
  assert (F0 : forall f, fill (T := R) f (Some (pa, pb)) l None = Ok (VArr (map (f pa pb) l), None)).
  { intros f. unfold fill. rewrite Nat.eqb_refl. cbn [negb]. destruct l; reflexivity. }
  split; [|split; [|split; [|split]]].
  - intros Hp. unfold pressure_call, fpressure. rewrite Hp. reflexivity.
  - intros Hf. unfold fpol_call, ffpol. rewrite Hf. reflexivity.
  - intros o -> Ho. split; intros E.
    + unfold pressure_call. rewrite E. cbn [base_pressure]. rewrite F by exact Ho. unfold fpressure. rewrite E. reflexivity.
    + unfold fpol_call. rewrite E. cbn [base_fpol]. rewrite F by exact Ho. unfold ffpol. rewrite E. reflexivity.
  - intros ->. split.
    + unfold pressure_call, fpressure. destruct (p_func p); [reflexivity|]. cbn [base_pressure]. rewrite F0. reflexivity.
    + unfold fpol_call, ffpol. destruct (f_func p); [reflexivity|]. cbn [base_fpol]. rewrite F0. reflexivity.
  - intros o -> Ho. assert (G : forall f, fill (T := R) f (Some (pa, pb)) l (Some o) = Raise ValueError).
    { intros f. unfold fill. destruct (Nat.eqb_spec (length l) (length o)); [congruence|reflexivity]. }
    split; intros E; [unfold pressure_call|unfold fpol_call]; rewrite E; apply G.
Qed.
Print Assumptions C192_elementwise.
Definition linear_profile : @fprofile R := mkfprofile (fun x => 1 - x) (fun _ => 2) 3 None None.
Example C192_elementwise_example :
  pressure_call rquad linear_profile (Some (0, 2)) (PArr [0; 1]) (Some [7; 7]) =
  Ok (VArr [fpressure rquad linear_profile (mkfstate 2 0) 0; fpressure rquad linear_profile (mkfstate 2 0) 1],
      Some [fpressure rquad linear_profile (mkfstate 2 0) 0; fpressure rquad linear_profile (mkfstate 2 0) 1]).
Proof. destruct (C192_elementwise rquad sqrt linear_profile 0 2 [0; 1] (Some [7; 7]) 0) as (_ & _ & H & _). apply (H [7; 7]); reflexivity. Qed.

(** C192 — before the first Jtor there is no flux on the axis and at the boundary: an integrated
    profile raises, a given function works *)
Theorem C192_before_jtor : forall quad sqrt (p : @fprofile R) x l out,
  (p_func p = None -> pressure_call quad p None (PNum x) out = Raise AttributeError) /\
  (f_func p = None -> fpol_call quad sqrt p None (PNum x) out = Raise AttributeError) /\
  (p_func p = None -> pressure_call quad p None (PArr (x :: l)) None = Raise AttributeError) /\
  (f_func p = None -> fpol_call quad sqrt p None (PArr (x :: l)) None = Raise AttributeError) /\
  (forall f, p_func p = Some f -> pressure_call quad p None (PNum x) out = Ok (VNum (f x), out)) /\
  (forall f, f_func p = Some f -> fpol_call quad sqrt p None (PNum x) out = Ok (VNum (f x), out)).
Proof.
  intros quad sqrt p x l out.
  assert (F : forall f, fill (T := R) f None (x :: l) None = Raise AttributeError) by (intros f; unfold fill; rewrite Nat.eqb_refl; reflexivity).
  repeat split; intros; unfold pressure_call, fpol_call; match goal with E : _ = _ |- _ => rewrite E end; try reflexivity; apply F.
Qed.
Print Assumptions C192_before_jtor.
Example C192_before_jtor_example : pressure_call rquad linear_profile None (PNum 0) None = Raise AttributeError.
Proof. apply (C192_before_jtor rquad sqrt linear_profile 0 [] None). reflexivity. Qed.

(** C192 — without given functions the pressure has the slope pprime and vanishes at the boundary,
    and fpol^2/2 has the slope ffprime and fpol is |fvac| at the boundary *)
Theorem C192_integrated : forall (p : @fprofile R) s psi, f_bndry s <> f_axis s ->
  (p_func p = None -> (forall x, continuous (fpprime p) x) ->
   is_derive (fun psi => fpressure rquad p s (psinorm (f_axis s) (f_bndry s) psi)) psi (fpprime p (psinorm (f_axis s) (f_bndry s) psi)) /\
   fpressure rquad p s 1 = 0) /\
  (f_func p = None -> (forall x, continuous (fffprime p) x) ->
   (0 < ffpol rquad sqrt p s (psinorm (f_axis s) (f_bndry s) psi) ->
    is_derive (fun psi => ffpol rquad sqrt p s (psinorm (f_axis s) (f_bndry s) psi) ^ 2 / 2) psi (fffprime p (psinorm (f_axis s) (f_bndry s) psi))) /\
   ffpol rquad sqrt p s 1 = Rabs (ffvac p)).
Proof.
  intros p s psi Hne. unfold fpressure, ffpol. split.
  - intros -> Hc. exact (C35_pressure_derivative _ _ _ psi Hne Hc).
  - intros -> Hc. split; [intros Hp; exact (C35_fpol_derivative _ _ _ _ psi Hne Hc Hp)|apply C35_fpol_boundary].
Qed.
Print Assumptions C192_integrated.
Example C192_integrated_example : fpressure rquad linear_profile (mkfstate 2 0) 1 = 0 /\ ffpol rquad sqrt linear_profile (mkfstate 2 0) 1 = 3.
Proof.
  destruct (C192_integrated linear_profile (mkfstate 2 0) 0) as [H1 H2]; [cbn; lra|]. split.
  - apply (H1 eq_refl). intros x. cbn. apply (continuous_minus (fun _ => 1) (fun x => x)); [apply continuous_const|apply continuous_id].
  - destruct (H2 eq_refl) as [_ ->]; [intros x; apply continuous_const|]. cbn. apply Rabs_pos_eq. lra.
Qed.

(** C192 — given functions that fit the slopes: with the flux as variable, a pressure with the
    slope pprime and the value 0 at the boundary is the integral, and so is a positive f *)
Lemma same_slope : forall f g (h : R -> R), (forall x, is_derive f x (h x)) -> (forall x, is_derive g x (h x)) -> forall a b, f a - f b = g a - g b.
Proof.
  intros f g h Hf Hg a b.
  assert (D : forall x, is_derive (fun t => f t - g t) x 0).
  { intros x. replace 0 with (h x - h x) by ring. apply (is_derive_minus f g); auto. }
  destruct (MVT_gen (fun t => f t - g t) a b (fun _ => 0)) as (c & _ & E).
  - intros x _. apply D.
  - intros x _. apply continuity_pt_filterlim. apply (ex_derive_continuous (fun t => f t - g t)). eexists. apply D.
  - lra.
Qed.
Theorem C192_given : forall (p : @fprofile R) s pf x, f_bndry s <> f_axis s -> (forall x, continuous (fpprime p) x) ->
  (forall psi, is_derive (fun psi => pf (psinorm (f_axis s) (f_bndry s) psi)) psi (fpprime p (psinorm (f_axis s) (f_bndry s) psi))) -> pf 1 = 0 ->
  fpressure rquad (mkfprofile (fpprime p) (fffprime p) (ffvac p) (Some pf) (f_func p)) s x =
  fpressure rquad (mkfprofile (fpprime p) (fffprime p) (ffvac p) None (f_func p)) s x.
Proof.
  intros p s pf x Hne Hc Hd H1. unfold fpressure. cbn [p_func fpprime].
  set (pa := f_axis s) in *. set (pb := f_bndry s) in *.
  assert (N1 : psinorm pa pb pb = 1) by (unfold psinorm; field; lra).
  assert (Nx : psinorm pa pb (pa + x * (pb - pa)) = x) by (unfold psinorm; field; lra).
  assert (E := same_slope _ _ _ Hd (fun psi => proj1 (C35_pressure_derivative (fpprime p) pa pb psi Hne Hc)) (pa + x * (pb - pa)) pb).
  cbv beta in E. rewrite N1, Nx, H1 in E.
  destruct (C35_pressure_derivative (fpprime p) pa pb pb Hne Hc) as [_ H0].
  change (pf x = pressure rquad (fpprime p) pa pb x).
  assert (H0' : pressure rquad (fpprime p) pa pb 1 = 0) by exact H0. rewrite H0' in E. lra.
Qed.
Print Assumptions C192_given.
Example C192_given_example : forall x, fpressure rquad (mkfprofile (fun _ => 3) (fun _ => 2) 1 (Some (fun x => 6 * x - 6)) None) (mkfstate 2 0) x =
  fpressure rquad (mkfprofile (fun _ => 3) (fun _ => 2) 1 None None) (mkfstate 2 0) x.
Proof.
  intros x. apply (C192_given (mkfprofile (fun _ => 3) (fun _ => 2) 1 None None) (mkfstate 2 0)); cbn [fpprime f_axis f_bndry].
  - lra.
  - intros y. apply continuous_const.
  - intros psi. unfold psinorm. auto_derive; [exact I|field].
  - lra.
Qed.

(** C193 — "a list is as good as an array": fpol takes it, pressure does not *)
Theorem C193_list_refuted : exists (p : @fprofile R) l v,
  fpol_call rquad sqrt p (Some (0, 2)) (PList l) None = Ok (VArr v, None) /\
  pressure_call rquad p (Some (0, 2)) (PList l) None = Raise TypeError.
Proof. exists linear_profile, [0; 1]. eexists. split; reflexivity. Qed.
Print Assumptions C193_list_refuted.
(** C193 — "the output array is filled": not when a function was given; it is not looked at, so that
    one of the wrong length is accepted *)
Theorem C193_out_refuted : exists (p : @fprofile R) l v out,
  pressure_call rquad p (Some (0, 2)) (PArr l) (Some out) = Ok (VArr v, Some out) /\ v <> out /\ length out <> length l.
Proof.
  exists (mkfprofile (fun _ => 3) (fun _ => 2) 1 (Some (fun x => 6 * x - 6)) None), [0; 1], [6 * 0 - 6; 6 * 1 - 6], [0].
  split; [reflexivity|]. split; [discriminate|cbn; lia].
Qed.
Print Assumptions C193_out_refuted.
(** C193 — "the pressure belongs to the current": a given pressure is not compared with pprime, so
    the current can be made with one pressure gradient while another pressure is returned *)
Theorem C193_unchecked_refuted : exists (p : @fprofile R) (e : env) psi J s x,
  func_Jtor 1 e p psi (Some 1) = Ok (J, s) /\ f_bndry s <> f_axis s /\
  ~ is_derive (fun psi => fpressure rquad p s (psinorm (f_axis s) (f_bndry s) psi)) x (fpprime p (psinorm (f_axis s) (f_bndry s) x)).
Proof.
  exists (mkfprofile (fun _ => 1) (fun _ => 0) 1 (Some (fun _ => 0)) None), exEnv, exPsi. eexists. eexists. exists 0.
  split; [reflexivity|]. cbn [f_bndry f_axis fpprime]. split; [lra|]. intros H.
  assert (H0 : is_derive (fun _ : R => 0) 0 0) by apply (is_derive_const (V := R_NormedModule)).
  assert (E := is_derive_unique _ _ _ H). assert (E0 := is_derive_unique _ _ _ H0).
  change (Derive (fun _ : R => 0) 0 = 1) in E. rewrite E0 in E. lra.
Qed.
Print Assumptions C193_unchecked_refuted.
