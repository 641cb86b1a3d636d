(** Model of populate_with_fils (freegs/filament_coil.py 32-157) and of FilamentCoil without given
    filaments (194-271). *)
From Coq Require Import List Arith ZArith Bool.
From Verif Require Import Py Num Numpy Polygons Coils.
Import ListNotations.

Section Populate.
  Context {T : Type} `{Num T}.
  (** square root; ceiling, which gives the length of np.arange; contains of the shapely polygon *)
  Variables (sqrt : T -> T) (ceil : T -> BinNums.Z) (contains : T -> T -> bool).
  Open Scope num_scope.
  Local Notation "'let*' x := e 'in' k" := (bind e (fun x => k))
    (at level 200, x pattern, e at level 100, k at level 200, right associativity).

  (** np.arange(start, stop, step) for a positive step *)
  Definition arange (start stop step : T) : list T :=
    map (fun i => start + nofnat i * step) (seq 0 (Z.to_nat (ceil ((stop - start) / step)))).
  (** the points of the staggered grid, row by row (77-100, 133-152), each with the mark whether
      its row is staggered *)
  Definition grid_points (rmin rmax zmin zmax d : T) : list (bool * (T * T)) :=
    flat_map (fun iz => map (fun r => (Nat.odd (fst iz), (r + (if Nat.odd (fst iz) then nlit 1 2 * d else n0), snd iz))) (arange rmin rmax d))
      (combine (seq 0 (length (arange zmin zmax d))) (arange zmin zmax d)).
  Definition inside_points (rmin rmax zmin zmax d : T) : list (bool * (T * T)) :=
    filter (fun p => contains (fst (snd p)) (snd (snd p))) (grid_points rmin rmax zmin zmax d).
  (** the loop (73-112).  Of the lists d_data and nInside_data only the last two entries are kept,
      see [interp_last].  A step of zero is a ZeroDivisionError in np.arange. *)
  Fixpoint search (fuel : nat) (box : T * T * T * T) (Nfils : nat) (prev : option (nat * T)) (d : T) : result (option (nat * T) * (nat * T)) :=
    match fuel with
    | O => Raise OutOfFuel
    | S fuel =>
        let '(rmin, rmax, zmin, zmax) := box in
        if d =? n0 then Raise ZeroDivisionError
        else
          let n := length (inside_points rmin rmax zmin zmax d) in
          if (n <? Nfils)%nat then search fuel box Nfils (Some (n, d)) (d * nlit 995 1000) else Ok (prev, (n, d))
    end.
  (** np.interp([Nfils * 1.1], nInside_data, d_data) (118-120).  All entries but the last are below
      Nfils, so the binary search of numpy ends in the last interval, beyond the last entry, or
      before the only one. *)
  Definition interp_last (Nfils : nat) (prev : option (nat * T)) (last : nat * T) : T :=
    let x := nofnat Nfils * nlit 11 10 in
    if nleb (nofnat (fst last)) x then snd last
    else match prev with
         | None => snd last
         | Some p => (snd last - snd p) / (nofnat (fst last) - nofnat (fst p)) * (x - nofnat (fst p)) + snd p
         end.
  (** The final placing of populate_with_fils (32-157), before lines 154-155 make arrays of the two
      lists.  Nfils = 0 divides by zero, a negative number leaves the lists empty for np.interp. *)
  Definition populate (fuel : nat) (shape : list (T * T)) (Nfils : BinNums.Z) : result (list (bool * (T * T))) :=
    match shape with
    | [] => Raise IndexError
    | _ =>
        let rmin := lmin (map fst shape) in let rmax := lmax (map fst shape) in
        let zmin := lmin (map snd shape) in let zmax := lmax (map snd shape) in
        let A := nabs (area shape) in
        if (Nfils =? 0)%Z then Raise ZeroDivisionError
        else if (Nfils <? 0)%Z then Raise ValueError
        else
          let N := Z.to_nat Nfils in
          let* r := search fuel (rmin, rmax, zmin, zmax) N None (sqrt (A / nofnat N)) in
          Ok (inside_points rmin rmax zmin zmax (interp_last N (fst r) (snd r)))
    end.
  (** FilamentCoil(shape=shape, current=..., Nfils=..., turns=..., control=...).  np.interp is called
      with a list, so d_opt and the offset of the staggered rows (141-142) are arrays of one element,
      and so is rpoint in these rows, while it is a number in the others.  np.asarray(rfils) (154)
      of a mixed list, or np.array(list(zip(Rfil, Zfil))) (267) when all filaments are in staggered
      rows, is then a ragged array: ValueError for the numpy that pyproject.toml asks for. *)
  Definition FilamentCoil_auto (fuel : nat) (shape : list (T * T)) (current : T) (Nfils turns : BinNums.Z) (control : bool) : result (coil T) :=
    if (2 <? length shape)%nat then
      let* p := populate fuel shape Nfils in
      if existsb fst p then Raise ValueError
      else FilamentCoil (map (fun q => fst (snd q)) p) (map (fun q => snd (snd q)) p) (Some shape) current turns control
    else Raise AssertionError.
End Populate.
