(** C235: the list of currents that printCurrents prints. *)
From Coq Require Import String List Arith ZArith QArith Bool Lia.
From Verif Require Import Py Num Coils Machine PrintCurrents.
Import ListNotations.
Local Open Scope string_scope.

(** ** What the statements mean *)
(** The text [s] is part of the line [t] *)
Definition part_of (s t : string) : Prop := exists a b, t = a ++ s ++ b.

(** ** Proofs *)
Lemma sapp_assoc (a b c : string) : (a ++ b) ++ c = a ++ b ++ c.
Proof. induction a as [|x a IH]; [reflexivity|]. cbn. rewrite IH. reflexivity. Qed.
Lemma sapp_nil (a : string) : a ++ "" = a.
Proof. induction a as [|x a IH]; [reflexivity|]. cbn. rewrite IH. reflexivity. Qed.
Lemma part_refl s : part_of s s.
Proof. exists "", "". cbn. symmetry. apply sapp_nil. Qed.
Lemma part_l s t u : part_of s u -> part_of s (t ++ u).
Proof. intros (a & b & ->). exists (t ++ a), b. symmetry. apply sapp_assoc. Qed.
Lemma part_r s t u : part_of s t -> part_of s (t ++ u).
Proof. intros (a & b & ->). exists a, (b ++ u). rewrite !sapp_assoc. reflexivity. Qed.
Lemma part_trans s t u : part_of s t -> part_of t u -> part_of s u.
Proof. intros H (a & b & ->). apply part_l, part_r, H. Qed.
Lemma part_concat s sep l : In s l -> part_of s (String.concat sep l).
Proof.
  induction l as [|x l IH]; [contradiction|]. intros [->|H].
  - destruct l; [apply part_refl|]. cbn [String.concat]. apply part_r, part_refl.
  - destruct l as [|y l]; [contradiction|]. change (String.concat sep (x :: y :: l)) with (x ++ sep ++ String.concat sep (y :: l)). apply part_l, part_l, IH, H.
Qed.
Section Parts.
  Context {T : Type} `{Num T}.
  Variables (str fmt1 : T -> string) (zstr : Z -> string) (lstr : list T -> string) (pstr : list (T * T) -> string) (polstr : T * T -> string).
  Lemma end_part c : part_of ("current=" ++ fmt1 (c_current c) ++ ", turns=" ++ zstr (c_turns c) ++ ", control=" ++ (if c_control c then "True" else "False")) (coil_repr str fmt1 zstr lstr pstr polstr c).
  Proof. change (part_of (coil_end fmt1 zstr c) (coil_repr str fmt1 zstr lstr pstr polstr c)). unfold coil_repr. destruct (c_kind c); repeat first [exact (part_r _ _ _ (part_refl _))|apply part_l]. Qed.
End Parts.

(** ** C235 *)
(** One line for every entry, in order, between two lines of equal signs; it begins with the label
    and shows current, turns and control of a coil, current and control of a circuit or solenoid,
    and for every member of a circuit its label, current, turns, control and multiplier. *)
Theorem C235_lines : forall (T : Type) (N : Num T) (str fmt1 : T -> string) zstr lstr pstr polstr (M : machine T),
  let out := printCurrents str fmt1 zstr lstr pstr polstr M in
  let flag (b : bool) := if b then "True" else "False" in
  let coil_text c := "current=" ++ fmt1 (c_current c) ++ ", turns=" ++ zstr (c_turns c) ++ ", control=" ++ flag (c_control c) in
  List.length out = (List.length M + 2)%nat /\ nth 0 out "" = "==========================" /\ nth (S (List.length M)) out "" = "==========================" /\
  forall k label m, nth_error M k = Some (label, m) -> exists text,
    nth (S k) out "" = label ++ " : " ++ text /\
    match m with
    | MCoil c => part_of (coil_text c) text
    | MSolenoid s => part_of ("current=" ++ str (s_current s)) text /\ part_of ("control=" ++ flag (s_control s)) text
    | MCircuit ci => part_of ("], current=" ++ str (ci_current ci) ++ ", control=" ++ flag (ci_control ci) ++ ")") text /\
        forall x, In x (ci_coils ci) -> exists ct, part_of (coil_text (m_coil x)) ct /\ part_of ("(""" ++ m_label x ++ """, " ++ ct ++ ", " ++ str (m_mult x) ++ ")") text
    end.
Proof.
  intros T N str fmt1 zstr lstr pstr polstr M out flag coil_text. unfold out, printCurrents. split; [cbn [List.length]; rewrite app_length, map_length; cbn; lia|].
  split; [reflexivity|]. split.
  { cbn [nth]. rewrite app_nth2 by (rewrite map_length; lia). rewrite map_length, Nat.sub_diag. reflexivity. }
  intros k label m E. exists (mc_repr str fmt1 zstr lstr pstr polstr m). split.
  { cbn [nth]. assert (Hk : (k < List.length M)%nat) by (apply nth_error_Some; rewrite E; discriminate).
    rewrite app_nth1 by (rewrite map_length; exact Hk). apply nth_error_nth. rewrite nth_error_map, E. reflexivity. }
  destruct m as [c|ci|s]; cbn [mc_repr].
  - apply end_part.
  - unfold circuit_repr. split.
    + apply part_l, part_l. exact (part_refl _).
    + intros x Hx. exists (coil_repr str fmt1 zstr lstr pstr polstr (m_coil x)). split; [apply end_part|].
      apply part_l, part_r, part_concat. apply in_map_iff. exists x. split; [reflexivity|exact Hx].
  - unfold solenoid_repr. split.
    + do 6 apply part_l. exists ", ", (", Ns=" ++ zstr (Z.of_nat (s_Ns s)) ++ ", control=" ++ bstr (s_control s) ++ ")"). rewrite !sapp_assoc. reflexivity.
    + do 10 apply part_l. exists ", ", ")". unfold flag, bstr. rewrite !sapp_assoc. reflexivity.
Qed.
Print Assumptions C235_lines.
(** whole numbers written as tallies *)
Definition dstr (n : nat) : string := String.concat "" (repeat "I" n).
Definition qs (q : Q) : string := (if (Qnum q <? 0)%Z then "-" else "") ++ dstr (Z.to_nat (Z.abs (Qnum q))).
Definition exCircuit : circuit Q := Circuit [("U", Coil 1%Q 1%Q 0%Q 1 true (AFixed 1%Q), 1%Q); ("L", Coil 1%Q (-1)%Q 0%Q 1 true (AFixed 1%Q), 2%Q)] 3%Q true.
Example C235_lines_example : printCurrents qs qs (fun z => dstr (Z.to_nat z)) (fun _ => "[]") (fun _ => "[]") (fun _ => "[]") [("P", MCoil (Coil 2%Q 1%Q 4%Q 1 false (AFixed 1%Q))); ("C", MCircuit exCircuit)]
  = ["=========================="; "P : Coil(R=II, Z=I, current=IIII, turns=I, control=False)";
     "C : Circuit([(""U"", Coil(R=I, Z=I, current=III, turns=I, control=True), I), (""L"", Coil(R=I, Z=-I, current=IIIIII, turns=I, control=True), II)], current=III, control=True)";
     "=========================="].
Proof. vm_compute. reflexivity. Qed.

(** After the current of a circuit is set, its line shows for every member the multiplier times that
    current, also before any field is evaluated. *)
Theorem C235_circuit : forall (T : Type) (N : Num T) (str fmt1 : T -> string) zstr lstr pstr polstr (ci : circuit T) I x, In x (ci_coils ci) ->
  exists ct, part_of ("current=" ++ fmt1 (nmul (m_mult x) I) ++ ", turns=" ++ zstr (c_turns (m_coil x))) ct /\
    part_of ("(""" ++ m_label x ++ """, " ++ ct ++ ", " ++ str (m_mult x) ++ ")") (mc_repr str fmt1 zstr lstr pstr polstr (mc_set_current (MCircuit ci) I)).
Proof.
  intros T N str fmt1 zstr lstr pstr polstr ci I x Hx.
  set (x' := set_m_coil x (set_current (m_coil x) (nmul (m_mult x) I))).
  exists (coil_repr str fmt1 zstr lstr pstr polstr (m_coil x')). split.
  - eapply part_trans; [|apply end_part]. cbn [x' set_m_coil m_coil fst snd c_current c_turns c_control set_current].
    exists "", (", control=" ++ (if c_control (snd (fst x)) then "True" else "False")). cbn [append]. rewrite !sapp_assoc. reflexivity.
  - cbn [mc_repr mc_set_current]. unfold circuit_repr. apply part_l, part_r, part_concat. apply in_map_iff. exists x'. split; [reflexivity|].
    cbn [circuit_set_current ci_coils]. apply in_map_iff. exists x. split; [reflexivity|exact Hx].
Qed.
Print Assumptions C235_circuit.
Example C235_circuit_example : mc_repr qs qs (fun z => dstr (Z.to_nat z)) (fun _ => "[]") (fun _ => "[]") (fun _ => "[]") (mc_set_current (MCircuit exCircuit) 1%Q)
  = "Circuit([(""U"", Coil(R=I, Z=I, current=I, turns=I, control=True), I), (""L"", Coil(R=I, Z=-I, current=II, turns=I, control=True), II)], current=I, control=True)".
Proof. vm_compute. reflexivity. Qed.

(** The text of a coil names its class and shows where it is; that of a solenoid shows its radius, its
    ends and its number of turns. *)
Definition starts_with (s t : string) : Prop := exists b, t = s ++ b.
Theorem C235_place : forall (T : Type) (N : Num T) (str fmt1 : T -> string) zstr lstr pstr polstr,
  (forall c, let t := coil_repr str fmt1 zstr lstr pstr polstr c in
    match c_kind c with
    | KPoint R Z => starts_with ("Coil(R=" ++ str R ++ ", Z=" ++ str Z ++ ", ") t
    | KShaped shape _ _ _ => starts_with ("ShapedCoil(" ++ pstr shape ++ ", ") t
    | KFilament _ points _ _ => starts_with ("FilamentCoil(" ++ pstr points ++ ", ") t
    | KMulti Rfil Zfil mirror polarity _ => starts_with ("MultiCoil(R=" ++ lstr Rfil ++ ", Z=" ++ lstr Zfil ++ ", ") t /\
        part_of (", mirror=" ++ (if mirror then "True" else "False") ++ ", polarity=" ++ polstr polarity ++ ")") t
    | KPreCalc shape _ _ => starts_with ("PreCalcCoil(" ++ pstr shape ++ ", ") t
    end) /\
  (forall s, let t := solenoid_repr str zstr s in
    starts_with ("Solenoid(Rs=" ++ str (s_Rs s) ++ ", Zsmin=" ++ str (s_Zsmin s) ++ ", Zsmax=" ++ str (s_Zsmax s) ++ ", ") t /\
    part_of (", Ns=" ++ zstr (Z.of_nat (s_Ns s)) ++ ", ") t).
Proof.
  intros T N str fmt1 zstr lstr pstr polstr. split.
  - intros c t. unfold t, coil_repr. destruct (c_kind c) as [R Z|sh n pt ce|sh pt n ce|Rf Zf mi po ce|sh mp ce];
      [eexists; rewrite !sapp_assoc; reflexivity..| |eexists; rewrite !sapp_assoc; reflexivity].
    split; [eexists; rewrite !sapp_assoc; reflexivity|]. do 6 apply part_l. exact (part_refl _).
  - intros s t. unfold t, solenoid_repr. split.
    + exists ("current=" ++ str (s_current s) ++ ", Ns=" ++ zstr (Z.of_nat (s_Ns s)) ++ ", control=" ++ bstr (s_control s) ++ ")"). rewrite !sapp_assoc. reflexivity.
    + do 8 apply part_l. exists "", ("control=" ++ bstr (s_control s) ++ ")"). rewrite !sapp_assoc. reflexivity.
Qed.
Print Assumptions C235_place.
Example C235_place_example : solenoid_repr qs (fun z => dstr (Z.to_nat z)) (mksol 1%Q (-2)%Q 2%Q 3 1%Q true) = "Solenoid(Rs=I, Zsmin=-II, Zsmax=II, current=I, Ns=III, control=True)" /\
  coil_repr qs qs (fun z => dstr (Z.to_nat z)) (fun _ => "[I]") (fun _ => "[]") (fun _ => "[I, -I]") (MultiCoil_single 1%Q 1%Q 2%Q 1 false true (1%Q, -1%Q) (AFixed 1%Q))
    = "MultiCoil(R=[I], Z=[I], current=II, turns=I, control=False, mirror=True, polarity=[I, -I])".
Proof. split; vm_compute; reflexivity. Qed.
