(** Model of freegs/critical.py: O- and X-points, the core mask, flux surfaces. *)
From Coq Require Import List Arith ZArith Bool.
From Verif Require Import Py Num Numpy.
Import ListNotations.
Local Open Scope num_scope.

Section Critical.
  Context {T : Type} `{Num T}.
  Local Notation "'let*' x := e 'in' k" := (bind e (fun x => k))
    (at level 200, x name, e at level 100, k at level 200, right associativity).

  (** a critical point (R, Z, psi) *)
  Definition point : Type := (T * T * T)%type.
  Definition pR (p : point) : T := fst (fst p).
  Definition pZ (p : point) : T := snd (fst p).
  Definition pPsi (p : point) : T := snd p.

  (** A spline object: [f dx dy r z] is f(r, z, dx=dx, dy=dy, grid=False).  The spline of an
      array is an oracle; what it has to satisfy is said in the theorems. *)
  Definition sfun : Type := nat -> nat -> T -> T -> T.

  (** numpy.argmin of a_0 .. a_(n-1): first index of the smallest value *)
  Fixpoint argmin_from (a : nat -> T) (k i best : nat) : nat :=
    match k with
    | O => best
    | S k' => argmin_from a k' (S i) (if a i <? a best then i else best)
    end.
  Definition argmin (n : nat) (a : nat -> T) : nat := argmin_from a (n - 1) 1 0.
  (** numpy.amax *)
  Definition amax (n : nat) (a : nat -> T) : T := fold_left (fun m i => nmax m (a i)) (range 1 n) (a O).
  (** list.sort(key=...): stable *)
  Fixpoint sort_insert {A} (key : A -> T) (x : A) (l : list A) : list A :=
    match l with
    | [] => [x]
    | y :: l' => if key y <? key x then y :: sort_insert key x l' else x :: l
    end.
  Fixpoint sort_by {A} (key : A -> T) (l : list A) : list A :=
    match l with [] => [] | x :: l' => sort_insert key x (sort_by key l') end.

  (** ** find_critical (46-231) *)
  Section Find.
    Variables (nx ny : nat) (R Z psi : arr2 T).
    Variable f : sfun.        (* RectBivariateSpline(R[:,0], Z[0,:], psi), line 67 *)

    (** 70 *)
    Definition Bp2 (i j : nat) : T :=
      (nsqr (f 1%nat 0%nat (R i j) (Z i j)) + nsqr (f 0%nat 1%nat (R i j) (Z i j))) / nsqr (R i j).
    (** 74-76 *)
    Definition dR : T := R 1%nat 0%nat - R 0%nat 0%nat.
    Definition dZ : T := Z 0%nat 1%nat - Z 0%nat 0%nat.
    Definition radius_sq : T := nofZ 9 * (nsqr dR + nsqr dZ).
    (** 88-97 *)
    Definition local_min (i j : nat) : bool :=
      (Bp2 i j <? Bp2 (i + 1)%nat (j + 1)%nat) && (Bp2 i j <? Bp2 (i + 1)%nat j)
      && (Bp2 i j <? Bp2 (i + 1)%nat (j - 1)%nat) && (Bp2 i j <? Bp2 (i - 1)%nat (j + 1)%nat)
      && (Bp2 i j <? Bp2 (i - 1)%nat j) && (Bp2 i j <? Bp2 (i - 1)%nat (j - 1)%nat)
      && (Bp2 i j <? Bp2 i (j + 1)%nat) && (Bp2 i j <? Bp2 i (j - 1)%nat).

    (** 112-113 *)
    Definition Br (r z : T) : T := - f 0%nat 1%nat r z / r.
    Definition Bz (r z : T) : T := f 1%nat 0%nat r z / r.
    (** The Newton loop (110-162) from (R0, Z0).  [None]: the point is discarded.  numpy.linalg.inv
        raises LinAlgError for a singular matrix; the inverse of the 2x2 matrix is written out. *)
    Fixpoint newton (fuel : nat) (R0 Z0 : T) (count : nat) (R1 Z1 : T) : result (option (T * T)) :=
      match fuel with
      | O => Raise OutOfFuel
      | S fuel' =>
          let br := Br R1 Z1 in
          let bz := Bz R1 Z1 in
          if nsqr br + nsqr bz <? nlit 1 1000000 then Ok (Some (R1, Z1))
          else
            let J00 := - br / R1 - f 1%nat 1%nat R1 Z1 / R1 in
            let J01 := - f 0%nat 2%nat R1 Z1 / R1 in
            let J10 := - bz / R1 + f 2%nat 0%nat R1 Z1 / R1 in
            let J11 := f 1%nat 1%nat R1 Z1 / R1 in
            let det := J00 * J11 - J01 * J10 in
            if det =? n0 then Raise LinAlgError
            else
              let d0 := (J11 * br - J01 * bz) / det in
              let d1 := (J00 * bz - J10 * br) / det in
              let R1 := R1 - d0 in
              let Z1 := Z1 - d1 in
              let count := S count in
              if (radius_sq <? nsqr (R1 - R0) + nsqr (Z1 - Z0)) || (100 <? count)%nat then Ok None
              else newton fuel' R0 Z0 count R1 Z1
      end.
    (** 119-132: classification of the point found from grid point (i,j) *)
    Definition hessian (i j : nat) : T :=
      let d2dr2 := (psi (i + 2)%nat j - n2 * psi i j + psi (i - 2)%nat j) / nsqr (n2 * dR) in
      let d2dz2 := (psi i (j + 2)%nat - n2 * psi i j + psi i (j - 2)%nat) / nsqr (n2 * dZ) in
      let d2drdz := ((psi (i + 2)%nat (j + 2)%nat - psi (i + 2)%nat (j - 2)%nat) / (nofZ 4 * dZ)
                     - (psi (i - 2)%nat (j + 2)%nat - psi (i - 2)%nat (j - 2)%nat) / (nofZ 4 * dZ)) / (nofZ 4 * dR) in
      d2dr2 * d2dz2 - nsqr d2drdz.
    (** 86-162: one grid point; the lists are (xpoint, opoint) *)
    Definition visit (xo : list point * list point) (i j : nat) : result (list point * list point) :=
      if local_min i j then
        let* p := newton 101 (R i j) (Z i j) 0 (R i j) (Z i j) in
        match p with
        | None => Ok xo
        | Some (R1, Z1) =>
            let pt := (R1, Z1, f 0%nat 0%nat R1 Z1) in
            if hessian i j <? n0 then Ok (fst xo ++ [pt], snd xo) else Ok (fst xo, snd xo ++ [pt])
        end
      else Ok xo.
    (** 81-162 *)
    Definition candidates : result (list point * list point) :=
      foldM (fun xo i => foldM (fun xo j => visit xo i j) (range 2 (ny - 2)) xo) (range 2 (nx - 2)) ([], []).

    (** 165-175 *)
    Definition close (p q : point) : bool := nsqr (pR p - pR q) + nsqr (pZ p - pZ q) <? nlit 1 100000.
    Definition remove_dup (points : list point) : list point :=
      fold_left (fun result p => if existsb (close p) result then result else result ++ [p]) points [].

    (** 192-224: is the X-point kept?  For maxp = pline[0] the quotient is 0/0 = nan (not larger
        than 0.001) or positive/0 = inf. *)
    Definition keep_xpt (o x : point) : bool :=
      let rline := linspace (pR o) (pR x) 50 in
      let zline := linspace (pZ o) (pZ x) 50 in
      let pline := fun k => if pPsi x <? pPsi o then - f 0%nat 0%nat (rline k) (zline k) else f 0%nat 0%nat (rline k) (zline k) in
      let maxp := amax 50 pline in
      let num := maxp - pline 49%nat in
      let den := maxp - pline 0%nat in
      if (if den =? n0 then n0 <? num else nlit 1 1000 <? num / den) then false
      else
        let ind := argmin 50 pline in
        if nlit 1 10000 <? nsqr (rline ind - pR o) + nsqr (zline ind - pZ o) then false else true.

    (** find_critical (46-231): (opoint, xpoint) *)
    Definition find_critical (discard_xpoints : bool) : result (list point * list point) :=
      let* xo := candidates in
      let xpoint := remove_dup (fst xo) in
      let opoint := remove_dup (snd xo) in
      let Rmid := nlit 1 2 * (R (nx - 1)%nat 0%nat + R 0%nat 0%nat) in
      let Zmid := nlit 1 2 * (Z 0%nat (ny - 1)%nat + Z 0%nat 0%nat) in
      match sort_by (fun p => nsqr (pR p - Rmid) + nsqr (pZ p - Zmid)) opoint with
      | [] => Ok (opoint, xpoint)
      | o :: os =>
          let xpoint := if discard_xpoints then filter (keep_xpt o) xpoint else xpoint in
          Ok (o :: os, sort_by (fun p => nsqr (pPsi p - pPsi o)) xpoint)
      end.
  End Find.

  (** ** core_mask (234-323) *)
  Section Mask.
    Variables (nx ny : nat) (R Z psi : arr2 T).
    (** numpy.clip([i-1, i, i+1], 0, n-1) for an index i of an axis with n points *)
    Definition clip3 (n i : nat) : list nat := [i - 1; i; Nat.min (i + 1) (n - 1)]%nat.
    Definition block (ij : nat * nat) : list (nat * nat) := list_prod (clip3 nx (fst ij)) (clip3 ny (snd ij)).
    (** nearest grid index (276-277, 285-286) *)
    Definition nearest (r z : T) : nat * nat :=
      (argmin nx (fun i => nabs (R i 0%nat - r)), argmin ny (fun j => nabs (Z 0%nat j - z))).

    Variable psin : arr2 T.
    Definition free (mask : arr2 T) (i j : nat) : bool := (psin i j <? n1) && (mask i j <? nlit 1 2).
    (** the row scan (298-312); [k] bounds the number of steps, ny - j of them are possible *)
    Fixpoint scan (k : nat) (i j : nat) (mask : arr2 T) (stack : list (nat * nat)) : arr2 T * list (nat * nat) :=
      let mask := upd2 mask i j n1 in
      let stack := if (i <? nx - 1)%nat && free mask (i + 1)%nat j then (i + 1, j)%nat :: stack else stack in
      let stack := if (0 <? i)%nat && free mask (i - 1)%nat j then (i - 1, j)%nat :: stack else stack in
      match k with
      | O => (mask, stack)
      | S k' =>
          if (j =? ny - 1)%nat then (mask, stack)
          else if nleb n1 (psin i (j + 1)%nat) || (nlit 1 2 <? mask i (j + 1)%nat) then (mask, stack)
          else scan k' i (j + 1) mask stack
      end.
    (** one turn of the loop 290-312 *)
    Definition fill_step (i j : nat) (mask : arr2 T) (stack : list (nat * nat)) : arr2 T * list (nat * nat) :=
      let stack := if (0 <? j)%nat && free mask i (j - 1)%nat then (i, j - 1)%nat :: stack else stack in
      scan ny i j mask stack.
    (** 290-312; the top of the stack is the head of the list *)
    Fixpoint fill (fuel : nat) (mask : arr2 T) (stack : list (nat * nat)) : result (arr2 T) :=
      match stack with
      | [] => Ok mask
      | (i, j) :: stack' =>
          match fuel with
          | O => Raise OutOfFuel
          | S fuel' => let ms := fill_step i j mask stack' in fill fuel' (fst ms) (snd ms)
          end
      end.
    (** 271-282, 315-321 *)
    Definition mark_blocks (xinds : list (nat * nat)) (mask : arr2 T) : arr2 T :=
      fold_left (fun m ij => upd2 m (fst ij) (snd ij) n2) (flat_map block xinds) mask.
    Definition finish_blocks (xinds : list (nat * nat)) (mask : arr2 T) : arr2 T :=
      fold_left (fun m ij => upd2 m (fst ij) (snd ij) (if psin (fst ij) (snd ij) <? n1 then n1 else n0)) (flat_map block xinds) mask.
  End Mask.
  Definition psin_of (psi : arr2 T) (pa pb : T) : arr2 T := fun i j => (psi i j - pa) / (pb - pa).
  Definition core_mask (fuel : nat) (nx ny : nat) (R Z psi : arr2 T) (opoint xpoint : list point) (psi_bndry : option T) : result (arr2 T) :=
    match opoint with
    | [] => Raise IndexError
    | (Ro, Zo, psi_axis) :: _ =>
        let* psi_bndry := match psi_bndry, xpoint with
          | Some pb, _ => Ok pb
          | None, [] => Raise IndexError
          | None, (_, _, pb) :: _ => Ok pb
          end in
        let psin := psin_of psi psi_axis psi_bndry in
        let xinds := map (fun p => nearest nx ny R Z (pR p) (pZ p)) xpoint in
        let mask := mark_blocks nx ny xinds zeros2 in
        let* mask := fill nx ny psin fuel mask [nearest nx ny R Z Ro Zo] in
        Ok (finish_blocks nx ny psin xinds mask)
    end.

  (** ** find_psisurface (326-381) for a single value psival *)
  (** numpy.argmax of booleans: first true index, 0 if there is none *)
  Definition argtrue (n : nat) (b : nat -> bool) : nat :=
    match find b (range 0 n) with Some i => i | None => 0%nat end.
  (** 335-343: the end of the ray is moved into the domain *)
  Definition clip_end (Rmin Rmax Zmin Zmax r0 z0 r1 z1 : T) : T * T :=
    let '(r1, z1) :=
      if nlit 1 1000000 <? nabs (r1 - r0) then
        let rclip := nclip r1 Rmin Rmax in
        (rclip, z0 + (z1 - z0) * nabs ((rclip - r0) / (r1 - r0)))
      else (r1, z1) in
    if nlit 1 1000000 <? nabs (z1 - z0) then
      let zclip := nclip z1 Zmin Zmax in
      (r0 + (r1 - r0) * nabs ((zclip - z0) / (z1 - z0)), zclip)
    else (r1, z1).
  (** The result with a flag saying whether the extrapolation warning was given. *)
  Definition find_psisurface (Rmin Rmax Zmin Zmax : T) (psifunc : T -> T -> T) (r0 z0 r1 z1 psival : T) (n : nat) : result (T * T * bool) :=
    if (n =? 0)%nat then Raise ValueError
    else
      let '(r1, z1) := clip_end Rmin Rmax Zmin Zmax r0 z0 r1 z1 in
      let r := linspace r0 r1 n in
      let z := linspace z0 z1 n in
      let pnorm := fun k => psifunc (r k) (z k) in
      let ind := argtrue n (fun k => psival <? pnorm k) in
      if (ind =? 0)%nat then Ok (r ind, z ind, false)
      else
        let f := (pnorm ind - psival) / (pnorm ind - pnorm (ind - 1)%nat) in
        Ok ((n1 - f) * r ind + f * r (ind - 1)%nat, (n1 - f) * z ind + f * z (ind - 1)%nat, n1 <? f).

  (** ** Flux surfaces at many angles *)
  Variables (pi : T) (sin cos : T -> T) (arctan2 : T -> T -> T).
  (** 416-430, 480-495: the angles, shifted by half a step if one is close to the X-point *)
  Definition theta_grid (ntheta : nat) (r0 z0 : T) (x : point) : result (list T) :=
    if (ntheta <? 2)%nat then Raise IndexError
    else
      let theta := map (fun k => nofnat k * (n2 * pi / nofnat ntheta)) (seq 0 ntheta) in
      let dtheta := n2 * pi / nofnat ntheta in
      let xt := arctan2 (pR x - r0) (pZ x - z0) in
      let xt := if xt <? n0 then xt + n2 * pi else xt in
      if existsb (fun t => nabs (t - xt) <? nlit 1 1000) theta
      then Ok (map (fun t => t + dtheta / n2) theta) else Ok theta.
  (** find_separatrix (384-442) with O- and X-points given; [psifunc] is the spline of the
      normalised flux *)
  Definition find_separatrix (Rmin Rmax Zmin Zmax : T) (psifunc : T -> T -> T) (opoint xpoint : list point) (ntheta : nat) (psival : T) : result (list (T * T)) :=
    match opoint, xpoint with
    | o :: _, x :: _ =>
        let* thetas := theta_grid ntheta (pR o) (pZ o) x in
        mapM (fun t =>
          let* p := find_psisurface Rmin Rmax Zmin Zmax psifunc (pR o) (pZ o)
                      (pR o + nofZ 10 * sin t) (pZ o + nofZ 10 * cos t) psival 1000 in
          Ok (fst p)) thetas
    | _, _ => Raise IndexError
    end.
End Critical.
Arguments point T : clear implicits.
Arguments sfun T : clear implicits.
