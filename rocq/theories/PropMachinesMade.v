(** C137: the predefined machines as they are made. *)
From Coq Require Import String Ascii List Arith ZArith QArith Bool Reals Lra Lia.
From Verif Require Import Py Num Numpy Polygons Quadrature Coils GradShafranov Machine MachineSpec MachineProofs Measurements Sensors SensorsProofs Serial SerialSpec Machines MachinesSpec MachinesProofs PropMachine PropSerial PropMachines.
Import ListNotations.
Local Open Scope R_scope.
Local Open Scope string_scope.
Local Open Scope list_scope.

(** ** C137 *)
Fixpoint distinctb (l : list string) : bool :=
  match l with [] => true | a :: l => negb (existsb (String.eqb a) l) && distinctb l end.
Lemma distinct_NoDup l : distinctb l = true -> NoDup l.
Proof.
  induction l as [|a l IH]; cbn; [constructor|]. intros E. apply andb_prop in E. destruct E as (E1 & E2). constructor; [|apply IH, E2].
  intros Hin. apply negb_true_iff in E1. rewrite <- not_true_iff_false in E1. apply E1. apply existsb_exists. exists a. split; [exact Hin|apply String.eqb_refl].
Qed.
Ltac opened E := repeat (let c := fresh "c" in let Ec := fresh "Ec" in apply bind_ok in E; destruct E as (c & Ec & E)); apply ok_inj in E; subst.
Ltac each tac := repeat (apply Forall_cons; [tac|]); apply Forall_nil.
(** A statement about a list of coils that holds for all predefined machines *)
Ltac all_machines H tac := destruct H as [|fuel tk E|fuel tk E|fuel tk E| | | | |tk E];
  [|unfold TestTokamak in E; opened E|unfold TestTokamakLimited in E; opened E|unfold DIIID in E; opened E| | | | |unfold MASTU in E; opened E];
  unfold EmptyTokamak, MAST, MAST_sym, TCV, MASTU_simple; cbn [tk_coils]; tac.
Lemma block_kind fuel shape (c : coil R) : block fuel shape = Ok c -> c_current c = 0 /\ c_control c = true /\ c_turns c = 1%Z /\
  (exists pts ctr, c_kind c = KShaped shape 6 pts ctr) /\ (2 < List.length shape)%nat.
Proof.
  unfold block, ShapedCoil. destruct (2 <? List.length shape)%nat eqn:E2; [|discriminate]. apply Nat.ltb_lt in E2.
  destruct (polygon_quad fuel shape 6) as [pts|]; [|discriminate]. cbn [bind]. intros E. injection E as <-. cbn.
  repeat split; [eexists; eexists; reflexivity|exact E2].
Qed.
Lemma strands_kind Rf Zf (c : coil R) : strands Rf Zf = Ok c -> c_current c = 0 /\ c_control c = true.
Proof.
  unfold strands, FilamentCoil. destruct Rf as [|r Rf]; [discriminate|]. destruct Zf as [|z Zf]; [discriminate|]. cbn [bind List.length Nat.ltb Nat.leb].
  intros E. injection E as <-. split; reflexivity.
Qed.
Theorem C137_labels : forall tk, predefined tk -> labels_distinct (tk_coils tk).
Proof.
  intros tk H. all_machines H ltac:(split; [apply distinct_NoDup; reflexivity|each ltac:(cbn [snd series]; first [exact I|apply distinct_NoDup; reflexivity])]).
Qed.
Print Assumptions C137_labels.
Example C137_labels_example : predefined MAST_sym /\ List.length (tk_coils (T := R) MAST_sym) = 6%nat.
Proof. split; [constructor|reflexivity]. Qed.
(** Hence the flux from the cached Green's functions is the flux computed directly, whatever has been done to the
    currents since. *)
Theorem C137_cached_flux : forall tk, predefined tk -> forall (G : field -> R -> R -> R -> R -> R) (h : list machine_op) plasma r z,
  let M := fold_left (machine_step G) h (tk_coils tk) in
  eq_psi plasma M (createPsiGreens G (tk_coils tk) r z) = Ok (plasma + fst (machine_field G FPsi M r z)).
Proof. intros tk H G h plasma r z. apply C11_cached_flux, C137_labels, H. Qed.
Print Assumptions C137_cached_flux.
(** A new machine carries no currents, so it makes no field. *)
Theorem C137_no_currents : forall tk, predefined tk ->
  Forall (fun lm => mc_current (snd lm) = 0) (tk_coils tk) /\ machine_synced (tk_coils tk) /\
  forall G f r z, fst (machine_field G f (tk_coils tk) r z) = 0.
Proof.
  intros tk H.
  assert (C : Forall (fun lm => mc_current (snd lm) = 0) (tk_coils tk)).
  { all_machines H ltac:(each ltac:(cbn [snd series mc_current Circuit ci_current circuit_set_control circuit_set_current]; first
      [reflexivity
      |match goal with E : block _ _ = Ok ?c |- c_current ?c = 0 => apply block_kind in E; apply E end
      |match goal with E : strands _ _ = Ok ?c |- c_current ?c = 0 => apply strands_kind in E; apply E end])). }
  split; [exact C|]. split.
  - clear C. unfold machine_synced. all_machines H ltac:(each ltac:(cbn [snd series mcoil_synced]; first [exact I|unfold circuit_synced, Circuit, circuit_set_control, circuit_set_current; cbn [ci_coils map ci_current]; each ltac:(unfold m_coil, m_mult; cbn; ring)])).
  - intros G f r z. rewrite machine_field_eq. cbn [fst]. unfold response_sum. rewrite Forall_forall in C.
    rewrite (lsum_ext _ (fun lm => 0 * mc_ctrl G f (snd lm) r z) (tk_coils tk)) by (intros lm Hlm; rewrite (C lm Hlm); reflexivity).
    rewrite lsum_scal. ring.
Qed.
Print Assumptions C137_no_currents.
(** Everything is under control of the feedback except for the solenoid of MASTU. *)
Theorem C137_controls : forall tk, predefined tk ->
  Forall (fun lm => mc_control (snd lm) = false -> MASTU = Ok tk /\ fst lm = "Solenoid") (tk_coils tk).
Proof.
  intros tk H. assert (K : (exists x, MASTU = Ok x /\ x = tk) \/ Forall (fun lm => mc_control (snd lm) = true) (tk_coils tk)).
  { destruct H; try (left; eexists; split; [eassumption|reflexivity]); right.
    - constructor.
    - unfold TestTokamak in H. opened H. cbn [tk_coils]. each ltac:(cbn [snd mc_control]; first [reflexivity|match goal with E : block _ _ = Ok ?c |- c_control ?c = true => apply block_kind in E; apply E end]).
    - unfold TestTokamakLimited in H. opened H. cbn [tk_coils]. each ltac:(cbn [snd mc_control]; first [reflexivity|match goal with E : block _ _ = Ok ?c |- c_control ?c = true => apply block_kind in E; apply E end]).
    - unfold DIIID in H. opened H. cbn [tk_coils]. each ltac:(cbn [snd mc_control]; first [reflexivity|match goal with E : block _ _ = Ok ?c |- c_control ?c = true => apply block_kind in E; apply E end]).
    - unfold MAST. cbn [tk_coils]. each ltac:(reflexivity).
    - unfold MAST_sym. cbn [tk_coils]. each ltac:(reflexivity).
    - unfold TCV. cbn [tk_coils]. each ltac:(reflexivity).
    - unfold MASTU_simple. cbn [tk_coils]. each ltac:(reflexivity). }
  destruct K as [(x & E & ->)|K].
  - assert (E0 := E). unfold MASTU in E. opened E. cbn [tk_coils].
    each ltac:(cbn [fst snd mc_control]; intros N; split; [exact E0|first [reflexivity|exfalso; first [discriminate N|match goal with E : strands _ _ = Ok ?c |- _ => apply strands_kind in E; destruct E; congruence end]]]).
  - apply Forall_forall. intros lm Hlm N. rewrite Forall_forall in K. rewrite (K lm Hlm) in N. discriminate.
Qed.
Print Assumptions C137_controls.

(** The shaped coils can be made: with exact arithmetic the triangulations succeed, and all conductors of the machines are
    at positive radii, with positive weights that add up to 1 (up to the rounding of the tabulated quadrature). *)
Definition conductors {T} `{Num T} (m : mcoil T) : list (T * T * T) :=
  match m with
  | MCoil c => match c_kind c with KShaped _ _ points _ => points | _ => [] end
  | _ => []
  end.
Definition below (a b : Q) : bool := negb (Qle_bool b a).
Definition sound (tk : result (tokamak Q)) : bool :=
  match tk with
  | Ok tk => forallb (fun lm => forallb (fun p => below 0 (fst (fst p)) && below 0 (snd p)) (conductors (snd lm)) &&
               match conductors (snd lm) with
               | [] => true
               | l => let s := fold_right (fun p a => Qred (snd p + a)) 0%Q l in below (1 - (1 # 1000000000000)) s && below s (1 + (1 # 1000000000000))
               end)%bool (tk_coils tk)
  | Raise _ => false
  end.
Theorem C137_shaped : sound (TestTokamak 10) = true /\ sound (TestTokamakLimited 10) = true /\ sound (DIIID 10) = true.
Proof. split; [|split]; vm_cast_no_check (eq_refl true). Qed.
Print Assumptions C137_shaped.
