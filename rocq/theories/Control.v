(** Model of freegs/control.py.  Shapes of 2-D flux arrays play no role in this file: they are
    given as the flat list of their values. *)
From Coq Require Import String List Arith ZArith Bool.
From Verif Require Import Py Num Numpy Coils Machine.
Import ListNotations.
Local Open Scope num_scope.

Section Control.
  Context {T : Type} `{Num T}.
  Local Notation "'let*' x := e 'in' k" := (bind e (fun x => k))
    (at level 200, x name, e at level 100, k at level 200, right associativity).
  Variable G : field -> T -> T -> T -> T -> T.
  (** Plasma flux and field at a point (Equilibrium.psi_func, plasmaBr, plasmaBz).  The coil
      currents do not enter. *)
  Variable P : field -> T -> T -> T.
  (** numpy.linalg.inv of an n by n matrix *)
  Variable inv : nat -> arr2 T -> result (arr2 T).
  (** scipy.optimize.minimize(objective, x0, method="SLSQP", bounds, constraints).x ; a bound
      that is None is infinite, the constraints are the functions required to be >= 0 *)
  Variable slsqp : (list T -> T) -> list T -> list (option T * option T) -> list (list T -> T) -> result (list T).

  (** The attributes of class constrain (control.py 50-67) *)
  Record constraints : Type := mkcons {
    xpoints : list (T * T);
    gamma : T;
    isoflux : list (T * T * (T * T));
    psivals : list (T * T * T);
    current_lims : option (list (T * T));
    max_total_current : option T }.

  (** A row of the constraint matrix with its right hand side *)
  Local Notation row := (list T * T)%type.
  Local Notation eqf := (eq_field G (Some P)).
  (** constraint_matrix, constraint_rhs and the machine, whose circuits are synchronised by the
      field evaluations *)
  Local Notation st := (list row * machine T)%type.

  (** The body of the loop over xpoints (79-97) *)
  Definition xpoint_rows (s : st) (xpt : T * T) : st :=
    let (rows, M) := s in
    let (r, z) := xpt in
    let (Br, M1) := eqf FBr M r z in
    let rows1 := rows ++ [(machine_control G FBr M1 r z, - Br)] in
    let (Bz, M2) := eqf FBz M1 r z in
    (rows1 ++ [(machine_control G FBz M2 r z, - Bz)], M2).
  (** The body of the loop over isoflux (100-111) *)
  Definition isoflux_row (s : st) (iso : T * T * (T * T)) : st :=
    let (rows, M) := s in
    let '((r1, z1), (r2, z2)) := iso in
    let (p1, M1) := eqf FPsi M r1 z1 in
    let (p2, M2) := eqf FPsi M1 r2 z2 in
    let c1 := machine_control G FPsi M2 r1 z1 in
    let c2 := machine_control G FPsi M2 r2 z2 in
    (rows ++ [(map (fun p => fst p - snd p) (combine c1 c2), p2 - p1)], M2).
  (** The body of the loop over psivals (114-120) *)
  Definition psival_row (s : st) (pv : T * T * T) : st :=
    let (rows, M) := s in
    let '((r, z), psi) := pv in
    let (p1, M1) := eqf FPsi M r z in
    (rows ++ [(machine_control G FPsi M1 r z, psi - p1)], M1).
  (** control.py 77-120 *)
  Definition build_rows (c : constraints) (M : machine T) : st :=
    let s0 := ([], M) in
    let s1 := fold_left xpoint_rows (xpoints c) s0 in
    let s2 := fold_left isoflux_row (isoflux c) s1 in
    fold_left psival_row (psivals c) s2.

  (** A = array(constraint_matrix), b = array(constraint_rhs), ncontrols = A.shape[1] (125-130).
      All rows have the length of the list of controlled coils. *)
  Definition matA (rows : list row) : arr2 T := fun i j => nth j (fst (nth i rows ([], n0))) n0.
  Definition vecb (rows : list row) : nat -> T := fun i => snd (nth i rows ([], n0)).
  Definition ncontrols (rows : list row) : nat := length (fst (nth 0 rows ([], n0))).
  (** dot(transpose(A), A) + gamma**2 * eye(ncontrols) (137) *)
  Definition normal_matrix (rows : list row) (g : T) : arr2 T :=
    fun i j => nsum (length rows) (fun k => matA rows k i * matA rows k j) + nsqr g * eye i j.
  (** dot(transpose(A), b) (138) *)
  Definition normal_rhs (rows : list row) : nat -> T :=
    fun i => nsum (length rows) (fun k => matA rows k i * vecb rows k).
  (** The analytic solution (136-139) *)
  Definition analytic (rows : list row) (g : T) : result (list T) :=
    let n := ncontrols rows in
    let* N := inv n (normal_matrix rows g) in
    Ok (map (fun i => nsum n (fun j => N i j * normal_rhs rows j)) (seq 0 n)).

  (** current_change_bounds (146-160) *)
  Fixpoint lims_bounds (lims : list (T * T)) (M : machine T) : list (option T * option T) :=
    match M, lims with
    | (_, m) :: M', (lo, hi) :: lims' =>
        if mc_control m then (Some (lo - mc_current m), Some (hi - mc_current m)) :: lims_bounds lims' M'
        else lims_bounds lims' M'
    | _, _ => []
    end.
  Definition change_bounds (c : constraints) (n : nat) (M : machine T) : result (list (option T * option T)) :=
    match current_lims c with
    | None => Ok (repeat (None, None) n)
    | Some lims => if (length lims =? length M)%nat then Ok (lims_bounds lims M) else Raise AssertionError
    end.
  (** A2, b2 (163-164) and objective (168-169); the square of the norm is written as the sum of
      squares *)
  Definition matA2 (rows : list row) (g : T) : arr2 T :=
    fun i j => if (i <? length rows)%nat then matA rows i j else g * eye (i - length rows)%nat j.
  Definition vecb2 (rows : list row) : nat -> T :=
    fun i => if (i <? length rows)%nat then vecb rows i else n0.
  Definition objective (rows : list row) (g : T) (x : list T) : T :=
    let n := ncontrols rows in
    nsum (length rows + n)%nat (fun i => nsqr (nsum n (fun j => matA2 rows g i j * nth j x n0) - vecb2 rows i)).
  (** max_total_currents (174-178).  The closure reads the currents of the machine, which
      minimize does not change. *)
  Definition total_slack (mx : T) (M : machine T) (x : list T) : T :=
    - (fold_left (fun s p => s + nabs (fst p + snd p)) (combine x (controlCurrents M)) n0 - mx).

  (** constrain.__call__ (69-194): the machine afterwards and self.current_change *)
  Definition constrain_call (c : constraints) (M : machine T) : result (machine T * list T) :=
    let (rows, M1) := build_rows c M in
    match rows with
    | [] => Raise ValueError
    | _ :: _ =>
        let n := ncontrols rows in
        let* x0 := analytic rows (gamma c) in
        let* bnds := change_bounds c n M1 in
        let cons := match max_total_current c with None => [] | Some mx => [total_slack mx M1] end in
        if (0 <? length x0)%nat
        then
          let* x := slsqp (objective rows (gamma c)) x0 bnds cons in
          Ok (controlAdjust M1 x, x)
        else Ok (M1, x0)
    end.

  (** ** Fits to a 2-D flux *)
  (** The argument weights: a number or an array *)
  Inductive weights : Type := WScalar (w : T) | WArray (l : list T).
  (** numpy.average(a, weights=...) without axis: weights of another shape (in particular a
      number) raise TypeError, a zero sum ZeroDivisionError *)
  Definition average (a : list T) (w : weights) : result T :=
    match w with
    | WScalar _ => Raise TypeError
    | WArray l =>
        if (length l =? length a)%nat
        then if neqb (lsum l) n0 then Raise ZeroDivisionError
             else Ok (lsum (map (fun p => fst p * snd p) (combine a l)) / lsum l)
        else Raise TypeError
    end.
  (** array * weights; arrays of another size do not broadcast (ValueError).  Broadcasting of
      one-row arrays is not modelled. *)
  Definition weigh (a : list T) (w : weights) : result (list T) :=
    match w with
    | WScalar x => Ok (map (fun v => v * x) a)
    | WArray l => if (length l =? length a)%nat then Ok (map (fun p => fst p * snd p) (combine a l)) else Raise ValueError
    end.
  Definition arr_sub (a b : list T) : result (list T) :=
    if (length a =? length b)%nat then Ok (map (fun p => fst p - snd p) (combine a b)) else Raise ValueError.

  (** ConstrainPsi2D.__init__ (217-235): target_psi without its average, and weights *)
  Definition ConstrainPsi2D (target : list T) (w : option weights) : result (list T * weights) :=
    let w' := match w with None => WArray (repeat n1 (length target)) | Some w' => w' end in
    let* av := average target w' in
    Ok (map (fun t => t - av) target, w').
  (** ConstrainPsi2D.psi_difference (253-263) for the flux [psi] that the equilibrium has with
      the trial currents *)
  Definition psi_difference (cp : list T * weights) (psi : list T) : result (list T) :=
    let* av := average psi (snd cp) in
    let* d := arr_sub (map (fun p => p - av) psi) (fst cp) in
    weigh d (snd cp).

  (** psi_norm of ConstrainPsiNorm2D.psinorm_difference (299-321) and of the Advanced class *)
  Definition psinorm_difference (target : list T) (w : weights) (psi_axis psi_bndry : T) (psi : list T) : result (list T) :=
    let* d := arr_sub (map (fun p => (p - psi_axis) / (psi_bndry - psi_axis)) psi) target in
    weigh d w.

  (** The attributes of ConstrainPsi2DAdvanced (333-358): target_psi as given, weights by
      default 1.0, current_lims by default None; max_total_current is not stored *)
  Record advanced : Type := mkadv { adv_target : list T; adv_weights : weights; adv_lims : option (list (T * T)) }.
  Definition ConstrainPsi2DAdvanced (target : list T) (w : option weights) (lims : option (list (T * T))) (max_total : option T) : advanced :=
    mkadv target (match w with None => WScalar n1 | Some w' => w' end) lims.
  (** ConstrainPsi2DAdvanced.psi_difference (404-419) *)
  Definition adv_difference (a : advanced) (psi : list T) : result T :=
    let* av := average psi (adv_weights a) in
    let* d := arr_sub (map (fun p => p - av) psi) (adv_target a) in
    let* dw := weigh d (adv_weights a) in
    Ok (lsum (map nsqr dw)).
  (** ConstrainPsiNorm2DAdvanced.psinorm_difference (500-520) *)
  Definition advnorm_difference (a : advanced) (psi_axis psi_bndry : T) (psi : list T) : result T :=
    let* dw := psinorm_difference (adv_target a) (adv_weights a) psi_axis psi_bndry psi in
    Ok (lsum (map nsqr dw)).
  (** max(...) and min(...) of self.current_lims[i] *)
  Definition adv_limit (lims : option (list (T * T))) (i : nat) : result (T * T) :=
    match lims with
    | None => Raise TypeError
    | Some l => match nth_error l i with
                | Some p => Ok (nmin (fst p) (snd p), nmax (fst p) (snd p))
                | None => Raise IndexError
                end
    end.
  (** The start clipped to the limits (370-378, 468-476): currents from control i on *)
  Fixpoint adv_start (lims : option (list (T * T))) (i : nat) (sc : list T) : result (list T) :=
    match sc with
    | [] => Ok []
    | x :: sc' =>
        let* p := adv_limit lims i in
        let (lower, upper) := p in
        let x' := if (nleb lower x && nleb x upper)%bool then x
                  else if nltb x lower then lower else upper in
        let* rest := adv_start lims (S i) sc' in
        Ok (x' :: rest)
    end.
  (** The bounds (380-388, 478-486) *)
  Definition adv_bounds (lims : option (list (T * T))) (n : nat) : result (list (option T * option T)) :=
    mapM (fun i => match lims with
                   | None => Ok (None, None)
                   | Some _ => let* p := adv_limit lims i in Ok (Some (fst p), Some (snd p))
                   end) (seq 0 n).
  (** scipy.optimize.minimize(f, x0, method="L-BFGS-B", bounds).x; [f] may raise *)
  Variable lbfgsb : (list T -> result T) -> list T -> list (option T * option T) -> result (list T).
  (** __call__ of the two Advanced classes (360-402, 458-498); [diff] is psi_difference or
      psinorm_difference as a function of the trial currents *)
  Definition adv_call (lims : option (list (T * T))) (diff : list T -> result T) (M : machine T) : result (machine T) :=
    let sc := controlCurrents M in
    let* start := adv_start lims 0 sc in
    let* bnds := adv_bounds lims (length sc) in
    let* x := lbfgsb diff start bnds in
    Ok (setControlCurrents M x).
End Control.
Arguments constraints T : clear implicits.
Arguments weights T : clear implicits.
Arguments advanced T : clear implicits.
