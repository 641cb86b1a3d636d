(** The core used by the profile classes, stated from the critical points. *)
From Coq Require Import List Arith ZArith Bool Reals Lra Lia.
From Verif Require Import Py Num Numpy Romb Jtor JtorSpec JtorProofs PropJtor.
Import ListNotations.
Local Open Scope R_scope.

(** ** C34 *)
(** The axis value is that of the first O-point; the boundary value and the mask are those asked
    for or those of the first X-point. *)
Theorem C34_core : forall (e : env (T:=R)) psi arg opt xpt pb pa m,
  find_critical e psi = Ok (opt, xpt) -> find_core e psi arg = Ok (pb, pa, m) ->
  (exists o os, opt = o :: os /\ pa = snd o) /\
  match arg, xpt with
  | Some b, _ => pb = b /\ exists mk, m = Some mk /\ core_mask e psi opt xpt (Some b) = Ok mk
  | None, x :: _ => pb = snd x /\ exists mk, m = Some mk /\ core_mask e psi opt xpt None = Ok mk
  | None, [] => pb = psi 0%nat 0%nat /\ m = None
  end.
Proof.
  intros e psi arg opt xpt pb pa m Ef Ec. unfold find_core in Ec. rewrite Ef in Ec. cbn [bind] in Ec.
  destruct opt as [|((ro, zo), po) os]; [discriminate|].
  destruct arg as [b|].
  - destruct (core_mask _ _ _ _ _) as [mk|] eqn:Em; [|discriminate]. cbn [bind] in Ec. injection Ec as <- <- <-. eauto 10.
  - destruct xpt as [|((rx, zx), px) xs].
    + injection Ec as <- <- <-. eauto 10.
    + destruct (core_mask _ _ _ _ _) as [mk|] eqn:Em; [|discriminate]. cbn [bind] in Ec. injection Ec as <- <- <-. eauto 10.
Qed.
Print Assumptions C34_core.
(** With a boundary given or an X-point found, the current vanishes outside the core. *)
Theorem C34_outside_core : forall pow quad mu0 (e : env (T:=R)) p psi arg ub J s opt xpt mk i j,
  (paxis_Jtor pow quad e p psi arg = Ok (J, s) \/ betap_Jtor pow quad mu0 e p psi arg = Ok (J, s)) ->
  updated_bndry e psi = Ok ub -> find_critical e psi = Ok (opt, xpt) -> ub <> None \/ xpt <> [] ->
  core_mask e psi opt xpt ub = Ok mk -> mk i j = 0 -> J i j = 0.
Proof.
  intros pow quad mu0 e p psi arg ub J s opt xpt mk i j HJ Eu Ef Hx Em Hm.
  assert (Hc : exists pb pa m, core_of e psi pb pa m).
  { destruct HJ as [HJ|HJ].
    - destruct (paxis_inv _ _ _ _ _ _ _ _ HJ) as (pb & pa & m & Hc & _). eauto.
    - destruct (betap_inv _ _ _ _ _ _ _ _ _ HJ) as (pb & pa & m & _ & _ & Hc & _). eauto. }
  destruct Hc as (pb & pa & m & ub' & Eu' & Ec). rewrite Eu in Eu'. injection Eu' as <-.
  destruct (C34_core _ _ _ _ _ _ _ _ Ef Ec) as [_ H].
  assert (Hmm : m = Some mk).
  { destruct ub as [b|]; [|destruct xpt as [|x xs]; [destruct Hx; congruence|]]; destruct H as (_ & mk' & -> & Em'); rewrite Em in Em'; injection Em' as <-; reflexivity. }
  subst m. apply (C34_zero_outside pow quad mu0 e p psi arg J s pb pa mk i j HJ); [exists ub; split; assumption|exact Hm].
Qed.
Print Assumptions C34_outside_core.
Theorem C34_functions_outside_core : forall mu0 (e : env (T:=R)) p psi arg J s opt xpt mk i j,
  func_Jtor mu0 e p psi arg = Ok (J, s) -> find_critical e psi = Ok (opt, xpt) -> arg <> None \/ xpt <> [] ->
  core_mask e psi opt xpt arg = Ok mk -> mk i j = 0 -> J i j = 0.
Proof.
  intros mu0 e p psi arg J s opt xpt mk i j HJ Ef Hx Em Hm.
  assert (HJ' := HJ). unfold func_Jtor in HJ. destruct (find_core e psi arg) as [[[pb pa] m]|] eqn:Ec; [|discriminate]. clear HJ.
  destruct (C34_core _ _ _ _ _ _ _ _ Ef Ec) as [_ H].
  assert (Hmm : m = Some mk).
  { destruct arg as [b|]; [|destruct xpt as [|x xs]; [destruct Hx; congruence|]]; destruct H as (_ & mk' & -> & Em'); rewrite Em in Em'; injection Em' as <-; reflexivity. }
  subst m. exact (C34_functions_zero_outside mu0 e p psi arg J s pb pa mk i j HJ' Ec Hm).
Qed.
Print Assumptions C34_functions_outside_core.
(** The unit-square core of a 2 by 2 grid *)
Definition coreEnv : env (T:=R) := mkenv 2 2 (fun i _ => 1 + INR i) (fun _ j => INR j) (fun _ => Ok ([(1, 0, 3)], [(2, 1, 1)]))
  (fun _ _ _ _ => Ok (fun i j => if (i + j =? 0)%nat then 1 else 0)) (fun _ => Ok None) (fun _ _ => 0) (fun _ _ => 0).
Example C34_core_example : exists J s,
  func_Jtor 1 coreEnv (mkfprofile (fun x => 1 - x) (fun _ => 2) 1 None None) (fun i j => 3 - INR i - INR j) None = Ok (J, s) /\
  f_bndry s = 1 /\ f_axis s = 3 /\ J 0%nat 0%nat = 3 /\ J 1%nat 0%nat = 0.
Proof.
  eexists. eexists. split; [reflexivity|]. split; [reflexivity|]. split; [reflexivity|].
  cbn. rewrite nclip_R. nR. split; [|ring].
  replace ((3 - 0 - 0 - 3) / (1 - 3)) with 0 by field. unfold Rmin, Rmax. repeat destruct (Rle_dec _ _); try lra; field.
Qed.
