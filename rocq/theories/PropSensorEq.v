(** C221: equality of sensors. *)
From Coq Require Import String List Arith ZArith QArith Bool Reals Lra Lia.
From Verif Require Import Py Num Numpy Coils Machine Sensors Measurements Equality EqualitySpec EqualityProofs SensorEq.
Import ListNotations.
Local Open Scope R_scope.

(** ** C221 *)
(** Sensors with the same number of points can be compared: they are equal if corresponding coordinates agree within the
    tolerances of numpy, whatever else they are. *)
Theorem C221_places : forall s t : sited R, length (s_R s) = length (s_R t) -> length (s_Z s) = length (s_Z t) ->
  exists b, sensor_eq s t = Ok b /\ (b = true <-> Forall2 near (s_R s) (s_R t) /\ Forall2 near (s_Z s) (s_Z t)).
Proof.
  intros s t H1 H2. unfold sensor_eq. assert (N1 := allclose_near _ _ H1). assert (N2 := allclose_near _ _ H2).
  destruct (allclose_len close _ _ H1) as [b1 E1], (allclose_len close _ _ H2) as [b2 E2]. rewrite E1 in N1. rewrite E2 in N2. rewrite E1. cbn [bind]. destruct b1.
  - exists b2. split; [exact E2|]. split.
    + intros ->. split; [apply N1|apply N2]; reflexivity.
    + intros [_ F]. apply N2 in F. injection F as ->. reflexivity.
  - exists false. split; [reflexivity|]. split; [discriminate|]. intros [F _]. apply N1 in F. discriminate.
Qed.
Print Assumptions C221_places.
(** a flux loop, and a field sensor a micrometre away: they are equal *)
Example C221_example : near 1 (1 + 1 / 1000000) /\ sensor_eq (flux_loop 1 0) (field_sensor (1 + 1 / 1000000) 0 1 0) = Ok true.
Proof.
  assert (N : near 1 (1 + 1 / 1000000)).
  { unfold near. replace (1 - (1 + 1 / 1000000)) with (- (1 / 1000000)) by lra. rewrite Rabs_Ropp, !Rabs_right by lra. lra. }
  split; [exact N|]. destruct (C221_places (flux_loop 1 0) (field_sensor (1 + 1 / 1000000) 0 1 0) eq_refl eq_refl) as (b & E & H). rewrite E. f_equal. apply H. split; (constructor; [|constructor]); [exact N|apply near_refl].
Qed.

(** Sensors of the same machine that compare equal do not give the same reading: a flux loop and a field sensor at one place ... *)
Definition quiet_plasma : plasma_state Q := mkps (mkplasma [] 1 1)%Q (fun f _ _ => match f with FBr => 3 | FBz => 4 | _ => 0 end)%Q (fun _ _ => 5)%Q.
Theorem C221_kind_refuted : exists (s t : sited Q) G M eq, sensor_eq s t = Ok true /\ reading G s M eq = Ok (Some 5%Q) /\ reading G t M eq = Ok (Some 3%Q).
Proof. exists (flux_loop 1 0)%Q, (field_sensor 1 0 1 0)%Q, (fun _ _ _ _ _ => 0%Q), [], (Some quiet_plasma). vm_compute. repeat split. Qed.
Print Assumptions C221_kind_refuted.
(** ... or two field sensors at right angles. *)
Theorem C221_angle_refuted : exists (s t : sited Q) G M eq, sensor_eq s t = Ok true /\ reading G s M eq = Ok (Some 3%Q) /\ reading G t M eq = Ok (Some 4%Q).
Proof. exists (field_sensor 1 0 1 0)%Q, (field_sensor 1 0 0 1)%Q, (fun _ _ _ _ _ => 0%Q), [], (Some quiet_plasma). vm_compute. repeat split. Qed.
Print Assumptions C221_angle_refuted.
(** Rogowski loops with different numbers of corners cannot be compared at all. *)
Theorem C221_compare_refuted : exists (s t : sited Q), sensor_eq s t = Raise ValueError.
Proof. exists (rogowski [1; 2; 2] [0; 0; 1] (fun _ _ => true) (fun _ => 1))%Q, (rogowski [1; 2; 2; 1] [0; 0; 1; 1] (fun _ _ => true) (fun _ => 1))%Q. reflexivity. Qed.
Print Assumptions C221_compare_refuted.
(** The places that are compared: the point of a field sensor or flux loop, the corners of a Rogowski loop in both
    coordinates. *)
Theorem C221_constructed : forall (R1 Z1 R2 Z2 : list R) i1 o1 i2 o2 (r z c s r' z' : R),
  (length R1 = length R2 -> length Z1 = length Z2 ->
   (sensor_eq (rogowski R1 Z1 i1 o1) (rogowski R2 Z2 i2 o2) = Ok true <-> Forall2 near R1 R2 /\ Forall2 near Z1 Z2)) /\
  (sensor_eq (field_sensor r z c s) (flux_loop r' z') = Ok true <-> near r r' /\ near z z').
Proof.
  intros R1 Z1 R2 Z2 i1 o1 i2 o2 r z c s r' z'. split.
  - intros HR HZ. destruct (C221_places (rogowski R1 Z1 i1 o1) (rogowski R2 Z2 i2 o2) HR HZ) as (b & -> & H). cbn [s_R s_Z rogowski] in H. rewrite <- H.
    split; [intros E; injection E as ->; reflexivity|intros ->; reflexivity].
  - destruct (C221_places (field_sensor r z c s) (flux_loop r' z') eq_refl eq_refl) as (b & -> & H). cbn [s_R s_Z field_sensor flux_loop] in H.
    assert (S : forall x y : R, Forall2 near [x] [y] <-> near x y) by (intros x y; split; [intros F; inversion F; assumption|intros N; constructor; [exact N|constructor]]).
    rewrite !S in H. rewrite <- H. split; [intros E; injection E as ->; reflexivity|intros ->; reflexivity].
Qed.
Print Assumptions C221_constructed.
Example C221_constructed_example : sensor_eq (rogowski [1; 2; 2] [0; 0; 1] (fun _ _ => true) (fun _ => 1)) (rogowski [1; 2; 2] [0; 0; 2] (fun _ _ => true) (fun _ => 1)) <> Ok true.
Proof.
  intros E. apply (C221_constructed [1; 2; 2] [0; 0; 1] [1; 2; 2] [0; 0; 2] (fun _ _ => true) (fun _ => 1) (fun _ _ => true) (fun _ => 1) 0 0 0 0 0 0) in E; [|reflexivity|reflexivity].
  destruct E as [_ F]. inversion F as [|a b u v _ F1]; subst. inversion F1 as [|a b u v _ F2]; subst. inversion F2 as [|a b u v H _]; subst.
  unfold near in H. rewrite Rabs_left in H by lra. rewrite Rabs_right in H by lra. lra.
Qed.
