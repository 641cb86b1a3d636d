(** Rational witnesses for the G-EQDSK theorems and examples. *)
From Coq Require Import ZArith Reals List Bool Arith Lia Lra Permutation QArith Qreduction.
From Verif Require Import Py Num Numpy Coils Machine Sensors Romb Critical CriticalProofs Boundary Jtor Equilibrium EquilibriumSpec EquilibriumProofs EquilibriumProofs2 EquilibriumProofs3 Safety Geqdsk GeqdskSpec GeqdskProofs.
Import ListNotations.

(** ** Witnesses with rational numbers
    The flux 16 u^2 + w^3 - 3 w in units of the grid spacing, seen from the middle of the grid: an O-point one
    row above the middle, an X-point one row below; or a paraboloid, for data symmetric in the rows
    next to the middle.  The "spline" rounds the place where it is evaluated to 1/4096, and for values
    further to the grid, away from the middle, so that rays meet the boundary soon. *)
Definition rnd (x : Q) : Q := Qred (Qmake (Z.div (Qnum x * 4096) (Zpos (Qden x))) 4096).
Definition shape2 (saddle : bool) (dx dy : nat) (u w : Q) : Q :=
  if saddle then
    match dx, dy with
    | 0%nat, 0%nat => Qred (16 * u * u + w * w * w - 3 * w)
    | 1%nat, 0%nat => Qred (32 * u)
    | 0%nat, 1%nat => Qred (3 * w * w - 3)
    | 2%nat, 0%nat => 32
    | 0%nat, 2%nat => Qred (6 * w)
    | _, _ => 0
    end%Q
  else
    match dx, dy with
    | 0%nat, 0%nat => Qred (u * u + w * w)
    | 1%nat, 0%nat => Qred (2 * u)
    | 0%nat, 1%nat => Qred (2 * w)
    | 2%nat, 0%nat => 2
    | 0%nat, 2%nat => 2
    | _, _ => 0
    end%Q.
Definition outward (x : Q) : Q := inject_Z (if Z.ltb (Qnum x) 0 then Z.div (Qnum x) (Zpos (Qden x)) else - Z.div (- Qnum x) (Zpos (Qden x))).
Definition qspline (n m : nat) (x y : nat -> Q) (z : nat -> nat -> Q) : sfun Q :=
  let i := (n / 2)%nat in
  let j := (m / 2)%nat in
  let hx := Qred (x 1%nat - x 0%nat) in
  let hy := Qred (y 1%nat - y 0%nat) in
  let xc := x i in
  let yc := y j in
  let sad := negb (Qeq_bool (z i (j - 1)%nat) (z i (S j))) in
  let g := shape2 sad in
  let a := Qred ((z i j - z i (j - 1)%nat) / (g 0%nat 0%nat 0 0 - g 0%nat 0%nat 0 (-1)))%Q in
  let b := Qred (z i j - a * g 0%nat 0%nat 0 0)%Q in
  let sc := fun d h => match d with 0%nat => 1 | 1%nat => Qred (1 / h) | _ => Qred (1 / (h * h)) end%Q in
  fun dx dy r s =>
    let u := Qred ((rnd r - xc) / hx) in
    let w := Qred ((rnd s - yc) / hy) in
    match dx, dy with
    | 0%nat, 0%nat => Qred (a * g 0%nat 0%nat (outward u) (outward w) + b)
    | _, _ => Qred (a * g dx dy u w * sc dx hx * sc dy hy)
    end%Q.
Definition G0 : field -> Q -> Q -> Q -> Q -> Q := fun _ _ _ _ _ => 0%Q.
(** angles as lengths along the edge of a square with one corner cut off, pi = 4 *)
Definition sq_sin (t : Q) : Q := (if Qle_bool t 1 then t else if Qle_bool t 3 then 1 else if Qle_bool t 5 then Qred (4 - t) else if Qle_bool t 7 then -1 else Qred (t - 8))%Q.
Definition sq_cos (t : Q) : Q := (if Qle_bool t 1 then 1 else if Qle_bool t 3 then Qred (2 - t) else if Qle_bool t 5 then Qred ((t - 7) / 4) else if Qle_bool t 7 then Qred ((3 * t - 17) / 4) else 1)%Q.
(** square roots of squares of fractions with denominator 4; 0 for anything else *)
Definition qsqrt (x : Q) : Q := (let s := Qred (Qmake (Z.sqrt (Qnum (Qred (x * 16)))) 4) in if Qeq_bool (s * s) x then s else 0)%Q.
(** linear interpolation and its slope *)
Definition quspline (x y : list Q) (d : nat) (v : Q) : Q :=
  match d with
  | 0%nat => lin (length x) (fun i => nth i x 0%Q) (fun i => nth i y 0%Q) v
  | _ => let k := cell (length x) (fun i => nth i x 0%Q) v in Qred ((nth (S k) y 0 - nth k y 0) / (nth (S k) x 0 - nth k x 0))%Q
  end.
Definition meth (p : unit) : @methods Q := mkmethods 3 (fun x => Qred (3 + (1 - x) / 10)) (fun x => Qred (1 - x)) (fun _ => 1) (fun _ => 1)%Q.
(** an equilibrium with 9 x 17 points *)
Definition saddle_psi (nx ny : nat) : nat -> nat -> Q :=
  fun i j => shape2 true 0 0 (Qred (inject_Z (Z.of_nat i) - inject_Z (Z.of_nat (nx / 2)))) (Qred (inject_Z (Z.of_nat j) - inject_Z (Z.of_nat (ny / 2)))).
Definition tall_eq (m : gmachine Q) : equilibrium Q unit unit :=
  mkeq 9 17 1 9 (-8) 8 (tok_of m) BFree 4 (SUser (fun _ _ => Raise TypeError)) true (saddle_psi 9 17) (fun _ _ => []) 7 None
       (mkb (Some (-2)) (Some (Some 2)) (Some None) None None false None) (Some tt) None.
Definition qwrite (m : gmachine Q) (e : equilibrium Q unit unit) : result (data Q) :=
  write G0 qsqrt qspline 4%Q sq_sin sq_cos (fun _ _ => 2%Q) (fun _ l _ => nth 0 l 0%Q) meth m e None.
Definition qread (d : data Q) (m : gmachine Q) (dom : option (Q * Q * Q * Q)) : result (rstate Q unit unit) :=
  read_setup G0 (fun x => 1 + x / nofZ 10)%num 1%Q qspline quspline d m dom false.
Definition both {A B} (x : result A) (y : A -> result B) (test : A -> B -> bool) : bool :=
  match x with Ok a => match y a with Ok b => test a b | Raise _ => false end | Raise _ => false end.
Lemma both_ok {A B} (x : result A) (y : A -> result B) test : both x y test = true -> exists a b, x = Ok a /\ y a = Ok b /\ test a b = true.
Proof. unfold both. destruct x as [a|]; [|discriminate]. destruct (y a) as [b|] eqn:E; [|discriminate]. intros H. exists a, b. repeat split; assumption. Qed.
Definition no_wall : gmachine Q := mkgm [] (mkvessel None None) 2%Q.
Lemma tall_file : exists d r, qwrite no_wall (tall_eq no_wall) = Ok d /\ qread d no_wall None = Ok r /\
  (Qeq_bool (fst (nth 0 (g_bdry d) (0, 0))) (fst (last (g_bdry d) (0, 0))) && Nat.eqb (length (g_bdry d)) 102
   && Qeq_bool (Rmin (r_eq r)) 1 && Qeq_bool (Zmax (r_eq r)) 8
   && Qeq_bool (r_psi_norm r 4%nat 9%nat) 0 && Qeq_bool (r_psi_norm r 4%nat 7%nat) 1
   && existsb (fun p => Q_ltb (snd p) (snd (nth 0 (g_bdry d) (0, 0)))) (g_bdry d)
   && match p_func (r_profiles r) with Some f => Qeq_bool (f 1) (1 # 9) | None => false end
   && match f_func (r_profiles r) with Some f => Qeq_bool (f 1) (271 # 90) | None => false end)%Q%bool = true.
Proof. apply both_ok. vm_cast_no_check (eq_refl true). Qed.

(** A grid with 9 x 9 points, a machine whose wall is a square and a file with a smaller square. *)
Definition square (a b c : Q) : list (Q * Q) := [(a, -c); (b, -c); (b, c); (a, c); (a, -c)]%Q.
Definition old_limits : list (Q * Q) := match generate_limit_points qsqrt (square 1 9 4) 500 with Ok l => l | Raise _ => [] end.
Lemma old_limits_ok : generate_limit_points qsqrt (square 1 9 4) 500 = Ok old_limits.
Proof. vm_cast_no_check (eq_refl (Ok old_limits)). Qed.
Definition walled_by (l : list (Q * Q)) : gmachine Q := mkgm [] (mkvessel (Some (square 1 9 4)) (Some l)) 2%Q.
Definition walled : gmachine Q := walled_by old_limits.
Definition square_file (w : option (list (Q * Q))) : data Q :=
  mkdata 9 9 8 8 2 (3 # 2) 1 0 5 1 (-2) 2 7 (repeat 3 9) (map (fun k => Qred (1 - inject_Z (Z.of_nat k) / 8)) (seq 0 9)) (repeat 0 9) (repeat (-1 # 4) 9)
         (saddle_psi 9 9) (repeat 1 9) w [].
(** The file with the smaller square, read by the machine with the larger one. *)
Lemma moved_wall_0 : exists r ln, qread (square_file (Some (square 2 8 3))) (walled_by old_limits) None = Ok r /\ generate_limit_points qsqrt (square 2 8 3) 500 = Ok ln /\
  (Qeq_bool (fst (nth 0 old_limits (0, 0)%Q)) 1 && Qeq_bool (fst (nth 0 ln (0, 0)%Q)) 2)%bool = true.
Proof. apply (both_ok (qread (square_file (Some (square 2 8 3))) (walled_by old_limits) None) (fun _ => generate_limit_points qsqrt (square 2 8 3) 500)
   (fun _ ln => (Qeq_bool (fst (nth 0 old_limits (0, 0)%Q)) 1 && Qeq_bool (fst (nth 0 ln (0, 0)%Q)) 2)%bool)). vm_cast_no_check (eq_refl true). Qed.
Lemma moved_wall : exists l r ln, generate_limit_points qsqrt (square 1 9 4) 500 = Ok l /\
  qread (square_file (Some (square 2 8 3))) (walled_by l) None = Ok r /\ generate_limit_points qsqrt (square 2 8 3) 500 = Ok ln /\
  (Qeq_bool (fst (nth 0 l (0, 0)%Q)) 1 && Qeq_bool (fst (nth 0 ln (0, 0)%Q)) 2)%bool = true.
Proof. destruct moved_wall_0 as (r & ln & E). exists old_limits, r, ln. split; [exact old_limits_ok|exact E]. Qed.
Lemma larger_domain_0 : exists r (u : unit), qread (square_file None) (walled_by old_limits) (Some (1, 17, -8, 8)%Q) = Ok r /\ Ok tt = Ok u /\ Nat.eqb (e_nx (r_eq r)) 9 = true.
Proof. apply (both_ok (qread (square_file None) (walled_by old_limits) (Some (1, 17, -8, 8)%Q)) (fun _ => Ok tt) (fun r _ => Nat.eqb (e_nx (r_eq r)) 9)). vm_cast_no_check (eq_refl true). Qed.
Lemma larger_domain : exists l r, qread (square_file None) (walled_by l) (Some (1, 17, -8, 8)%Q) = Ok r /\ Nat.eqb (e_nx (r_eq r)) 9 = true.
Proof. destruct larger_domain_0 as (r & _ & E & _ & E'). exists old_limits, r. split; [exact E|exact E']. Qed.
Lemma tall_walled_0 : exists d (u : unit), qwrite (walled_by old_limits) (tall_eq (walled_by old_limits)) = Ok d /\
  match qread d (walled_by old_limits) None with Raise ValueError => Ok tt | _ => Raise TypeError end = Ok u /\ true = true.
Proof. apply (both_ok (qwrite (walled_by old_limits) (tall_eq (walled_by old_limits))) (fun d => match qread d (walled_by old_limits) None with Raise ValueError => Ok tt | _ => Raise TypeError end) (fun _ _ => true)).
  vm_cast_no_check (eq_refl true). Qed.
Lemma tall_walled : exists l d, qwrite (walled_by l) (tall_eq (walled_by l)) = Ok d /\
  match qread d (walled_by l) None with Raise ValueError => Ok tt | _ => Raise TypeError end = Ok tt.
Proof. destruct tall_walled_0 as (d & [] & E & E' & _). exists old_limits, d. split; [exact E|exact E']. Qed.
