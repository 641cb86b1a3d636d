(** C209, C210: the table of forces that printForces prints. *)
From Coq Require Import String List Arith ZArith Bool Reals Lra Lia.
From Verif Require Import Py Num Numpy Polygons Coils Machine MachineSpec MachineProofs MachineForces GradShafranov PropMachine MovingSpec MovingProofs PropMachine2 ForceTable.
Import ListNotations.
Local Open Scope R_scope.
Local Open Scope string_scope.

(** ** What the statements mean *)
(** The field at the coil [c] of the machine [M] and the plasma [P] *)
Definition field_at (G : field -> R -> R -> R -> R -> R) P (M : machine R) (c : coil R) (f : field) : R :=
  fst (machine_field G f M (coil_R c) (coil_Z c)) + plasma_field P f (coil_R c) (coil_Z c).
(** The line for a coil with the force on it, in kN, in the field of the machine [M] *)
Definition coil_line (G : field -> R -> R -> R -> R -> R) mu P (fmt : R -> string) (indent label : string) (M : machine R) (c : coil R) : string :=
  let F := loop_force mu (coil_R c) (c_current c * IZR (c_turns c)) (coil_area c) (field_at G P M c FBr) (field_at G P M c FBz) in
  indent ++ label ++ " : R = " ++ fmt (fst F / 1000) ++ " kN , Z = " ++ fmt (snd F / 1000) ++ " kN".
(** The lines for the entry [m] with label [label], at position [i] *)
Definition block (G : field -> R -> R -> R -> R -> R) mu P (fmt : R -> string) (M : machine R) (i : nat) (label : string) (m : mcoil R) : list string :=
  match m with
  | MCoil c => [coil_line G mu P fmt "" label (remove_nth i M) c]
  | MCircuit ci => (label ++ " (circuit)") :: map (fun m => coil_line G mu P fmt "  " (m_label m) M (m_coil m)) (ci_coils ci)
  | MSolenoid _ => [label ++ " (circuit)"]
  end.
Definition member_labels_differ (m : mcoil R) : Prop := match m with MCircuit ci => NoDup (map m_label (ci_coils ci)) | _ => True end.

(** ** Proofs *)
Lemma kilo x : x * nlit 1 1000 = x / 1000.
Proof. unfold nlit. nR. lra. Qed.
Lemma line_eq G mu P fmt indent label M c :
  force_line fmt indent label (coil_force mu c (plasma_field P FBr (coil_R c) (coil_Z c) + response_sum G FBr M (coil_R c) (coil_Z c)) (plasma_field P FBz (coil_R c) (coil_Z c) + response_sum G FBz M (coil_R c) (coil_Z c))) =
  coil_line G mu P fmt indent label M c.
Proof.
  unfold force_line, coil_line, field_at. rewrite !machine_field_eq. cbn [fst]. unfold coil_force. rewrite !(Rplus_comm (plasma_field _ _ _ _)). nR. rewrite !kilo. reflexivity.
Qed.
Lemma block_eq G mu P fmt M i label m : member_labels_differ m ->
  (match entry_force G mu P M i m with
   | FCoil F => [force_line fmt "" label F]
   | FCircuit d => ("" ++ label ++ " (circuit)") :: print_members fmt ("" ++ "  ") d
   | FEmpty => ("" ++ label ++ " (circuit)") :: print_members fmt ("" ++ "  ") []
   end) = block G mu P fmt M i label m.
Proof.
  intros Hd. destruct m as [c|ci|s]; cbn [entry_force block member_labels_differ] in *; [|f_equal|reflexivity].
  - f_equal. apply line_eq.
  - rewrite (dict_fill_nodup m_label (fun m => member_entry G mu P M m)) by exact Hd. cbn [app]. unfold print_members. rewrite map_map. cbn [fst snd].
    apply map_ext. intros m. apply line_eq.
Qed.
Lemma flat_map_combine {A B} (f : nat * A -> list B) (g : nat -> A -> list B) (l : list A) : (forall i a, In a l -> f (i, a) = g i a) ->
  forall k, flat_map f (combine (seq k (length l)) l) = concat (map (fun p => g (fst p) (snd p)) (combine (seq k (length l)) l)).
Proof.
  induction l as [|a l IH]; intros H k; [reflexivity|]. cbn [length seq combine flat_map map concat fst snd]. rewrite H by (left; reflexivity). f_equal. apply IH. intros i b Hb. apply H. right. exact Hb.
Qed.
Lemma table_length G mu P fmt (M0 M : machine R) k :
  List.length (concat (map (fun p => block G mu P fmt M0 (fst p) (fst (snd p)) (snd (snd p))) (combine (seq k (List.length M)) M))) =
  list_sum (map (fun lm => match snd lm with MCircuit ci => S (List.length (ci_coils ci)) | _ => 1%nat end) M).
Proof.
  revert k. induction M as [|(lb, m) M IH]; intros k; [reflexivity|]. cbn [List.length seq combine map concat fst snd list_sum fold_right]. rewrite app_length, IH. cbn [list_sum fold_right]. apply (f_equal2 plus); [|reflexivity].
  destruct m as [c|ci|s]; cbn [block List.length]; [reflexivity|rewrite map_length; reflexivity|reflexivity].
Qed.
(** ** C209 *)
(** The table has a title and then, in the order of the machine, one block per entry: a line for a coil, and for a circuit a heading and a line for each member.  Nothing in the machine changes. *)
Theorem C209_table : forall (G : field -> R -> R -> R -> R -> R) mu P fmt (M : machine R),
  machine_synced M -> Forall (fun lm => mcoil_R_ok (snd lm)) M -> NoDup (map fst M) -> Forall (fun lm => member_labels_differ (snd lm)) M ->
  printForces G mu PI sqrt ln P fmt M =
  ("Forces on coils" :: concat (map (fun p => block G mu P fmt M (fst p) (fst (snd p)) (snd (snd p))) (combine (seq 0 (length M)) M)), M).
Proof.
  intros G mu P fmt M HS HR HN HD. unfold printForces. rewrite getForces_eq by assumption. f_equal. f_equal. unfold print_forces. rewrite flat_map_concat_map, map_map, <- flat_map_concat_map. cbn [fst snd].
  apply (flat_map_combine _ (fun i lm => block G mu P fmt M i (fst lm) (snd lm))). intros i (lb, m) Hin. cbn [fst snd]. apply block_eq. rewrite Forall_forall in HD. exact (HD _ Hin).
Qed.
Print Assumptions C209_table.
(** One line per coil and per member and one per heading *)
Theorem C209_length : forall (G : field -> R -> R -> R -> R -> R) mu P fmt (M : machine R),
  machine_synced M -> Forall (fun lm => mcoil_R_ok (snd lm)) M -> NoDup (map fst M) -> Forall (fun lm => member_labels_differ (snd lm)) M ->
  List.length (fst (printForces G mu PI sqrt ln P fmt M)) =
  S (list_sum (map (fun lm => match snd lm with MCircuit ci => S (List.length (ci_coils ci)) | _ => 1%nat end) M)).
Proof.
  intros G mu P fmt M HS HR HN HD. rewrite C209_table by assumption. cbn [fst List.length]. f_equal. apply table_length.
Qed.
Print Assumptions C209_length.
Example C209_example : machine_synced exM /\ Forall (fun lm => mcoil_R_ok (snd lm)) exM /\ NoDup (map fst exM) /\ Forall (fun lm => member_labels_differ (snd lm)) exM /\
  list_sum (map (fun lm => match snd lm with MCircuit ci => S (List.length (ci_coils ci)) | _ => 1%nat end) exM) = 5%nat.
Proof.
  split; [apply exM_synced|]. split; [repeat constructor; cbn; lra|]. split; [apply exM_labels|]. split; [|reflexivity].
  repeat constructor; cbn; intuition discriminate.
Qed.
(** If the first entry is a coil, currents stored in circuit members do not change the table, and
    after it is printed they agree with the circuits. *)
Theorem C209_stored : forall (G : field -> R -> R -> R -> R -> R) mu P fmt lb (c : coil R) M M',
  let N := (lb, MCoil c) :: M in
  same_up_to_stored N M' -> Forall (fun lm => mcoil_R_ok (snd lm)) N ->
  printForces G mu PI sqrt ln P fmt M' = printForces G mu PI sqrt ln P fmt N /\ machine_synced (snd (printForces G mu PI sqrt ln P fmt N)) /\ same_up_to_stored N (snd (printForces G mu PI sqrt ln P fmt N)).
Proof.
  intros G mu P fmt lb c M M' N H HR. assert (E : forall K, snd (printForces G mu PI sqrt ln P fmt K) = snd (getForces G mu PI sqrt ln P K)).
  { intros K. unfold printForces. destruct (getForces G mu PI sqrt ln P K). reflexivity. }
  rewrite E. split; [|exact (C125_members_follow G mu P lb c M HR)]. unfold printForces. rewrite (C125_forces_ignore_stored G mu P lb c M M' H). reflexivity.
Qed.
Print Assumptions C209_stored.
Example C209_stored_example : same_up_to_stored [("P1", MCoil exP); ("C", MCircuit (exStale 7))] [("P1", MCoil exP); ("C", MCircuit (exStale 500))] /\ Forall (fun lm => mcoil_R_ok (snd lm)) [("P1", MCoil exP); ("C", MCircuit (exStale 7))] /\ forall G mu P fmt, snd (printForces G mu PI sqrt ln P fmt [("P1", MCoil exP); ("C", MCircuit (exStale 7))]) <> [("P1", MCoil exP); ("C", MCircuit (exStale 7))].
Proof.
  destruct C125_example as (_ & HR & HN). split; [repeat constructor|]. split; [exact HR|]. intros G mu P fmt E.
  destruct (C209_stored G mu P fmt "P1" exP [("C", MCircuit (exStale 7))] [("P1", MCoil exP); ("C", MCircuit (exStale 500))]) as (_ & HS & _); [repeat constructor|exact HR|].
  rewrite E in HS. exact (HN HS).
Qed.
(** ** C210 (refuted) *)
(** A machine with two coils of the same label: one line for both of them. *)
Theorem C210_every_coil_refuted : exists (M : machine R), machine_synced M /\ Forall (fun lm => mcoil_R_ok (snd lm)) M /\ List.length M = 2%nat /\
  forall (G : field -> R -> R -> R -> R -> R) mu P fmt, List.length (fst (printForces G mu PI sqrt ln P fmt M)) = 2%nat.
Proof.
  exists [("P", MCoil (Coil 1 0 3 1 true (AFixed 1))); ("P", MCoil (Coil 2 0 5 1 true (AFixed 1)))].
  set (M := [_; _]). assert (HS : machine_synced M) by repeat constructor. assert (HR : Forall (fun lm => mcoil_R_ok (snd lm)) M) by (repeat constructor; cbn; lra).
  split; [exact HS|]. split; [exact HR|]. split; [reflexivity|]. intros G mu P fmt. unfold printForces, getForces.
  rewrite (machine_forces_eq G mu P M HS HR M 0 []) by reflexivity. reflexivity.
Qed.
Print Assumptions C210_every_coil_refuted.
(** A Solenoid is printed with the heading of a circuit and no force. *)
Theorem C210_solenoid_refuted : exists (M : machine R), machine_synced M /\ NoDup (map fst M) /\ (exists s, M = [("S", MSolenoid s)]) /\
  forall (G : field -> R -> R -> R -> R -> R) mu P fmt, fst (printForces G mu PI sqrt ln P fmt M) = ["Forces on coils"; "S (circuit)"].
Proof.
  exists [("S", MSolenoid exS)]. split; [repeat constructor|]. split; [repeat constructor; intros []|]. split; [eexists; reflexivity|]. intros G mu P fmt. reflexivity.
Qed.
Print Assumptions C210_solenoid_refuted.
