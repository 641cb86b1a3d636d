(** Model of freegs/gradshafranov.py. *)
From Coq Require Import List Arith ZArith Bool Reals.
From Verif Require Import Py Num Numpy.
Import ListNotations.

Section Operators.
  Context {T : Type} `{Num T}.
  Open Scope num_scope.

  (** GSElliptic.__call__ (gradshafranov.py 57-88); [psi] has shape (nx, ny). *)
  Definition GSElliptic (Rmin : T) (psi : arr2 T) (nx ny : nat) (dR dZ : T) : arr2 T :=
    let invdR2 := n1 / nsqr dR in
    let invdZ2 := n1 / nsqr dZ in
    fold_left (fun b x =>
      let R := Rmin + dR * nofnat x in
      fold_left (fun b y =>
        upd2 b x y
          (psi x (y - 1)%nat * invdZ2
           + (invdR2 + n1 / (n2 * R * dR)) * psi (x - 1)%nat y
           - n2 * (invdR2 + invdZ2) * psi x y
           + (invdR2 - n1 / (n2 * R * dR)) * psi (x + 1)%nat y
           + psi x (y + 1)%nat * invdZ2))
        (range 1 (ny - 1)) b)
      (range 1 (nx - 1)) zeros2.

  (** GSElliptic.diag (gradshafranov.py 90-95) *)
  Definition GSElliptic_diag (dR dZ : T) : T := - n2 / nsqr dR - n2 / nsqr dZ.

  Notation "'let*' x := e 'in' k" := (bind e (fun x => k))
    (at level 200, x name, e at level 100, k at level 200).

  (** GSsparse.__call__ (gradshafranov.py 109-150). The csr conversion is the
      identity on entries.  Zero division for nx = 1 or ny = 1 is not modelled. *)
  Definition GSsparse (Rmin Rmax Zmin Zmax : T) (nx ny : nat) : result (arr2 T) :=
    let dR := (Rmax - Rmin) / nofnat (nx - 1) in
    let dZ := (Zmax - Zmin) / nofnat (ny - 1) in
    let N := (nx * ny)%nat in
    let invdR2 := n1 / nsqr dR in
    let invdZ2 := n1 / nsqr dZ in
    foldM (fun A x =>
      let R := Rmin + dR * nofnat x in
      foldM (fun A y =>
        let row := Z.of_nat (x * ny + y) in
        let* A := lil_set N A row (row - 1) invdZ2 in
        let* A := lil_set N A row (row - Z.of_nat ny) (invdR2 + n1 / (n2 * R * dR)) in
        let* A := lil_set N A row row (- n2 * (invdR2 + invdZ2)) in
        let* A := lil_set N A row (row + Z.of_nat ny) (invdR2 - n1 / (n2 * R * dR)) in
        lil_set N A row (row + 1) invdZ2)
        (range 1 (ny - 1)) A)
      (range 1 (nx - 1)) eye.

  (** Finite difference weights (gradshafranov.py 162-189) *)
  Definition centred_1st : list (Z * T) :=
    [(-2, nlit 1 12); (-1, nlit (-8) 12); (1, nlit 8 12); (2, nlit (-1) 12)]%Z.
  Definition offset_1st : list (Z * T) :=
    [(-1, nlit (-3) 12); (0, nlit (-10) 12); (1, nlit 18 12); (2, nlit (-6) 12); (3, nlit 1 12)]%Z.
  Definition centred_2nd : list (Z * T) :=
    [(-2, nlit (-1) 12); (-1, nlit 16 12); (0, nlit (-30) 12); (1, nlit 16 12); (2, nlit (-1) 12)]%Z.
  Definition offset_2nd : list (Z * T) :=
    [(-1, nlit 10 12); (0, nlit (-15) 12); (1, nlit (-4) 12); (2, nlit 14 12); (3, nlit (-6) 12);
     (4, nlit 1 12)]%Z.

  (** GSsparse4thOrder.__call__ (gradshafranov.py 197-269) *)
  Definition GSsparse4thOrder (Rmin Rmax Zmin Zmax : T) (nx ny : nat) : result (arr2 T) :=
    let dR := (Rmax - Rmin) / nofnat (nx - 1) in
    let dZ := (Zmax - Zmin) / nofnat (ny - 1) in
    let N := (nx * ny)%nat in
    let invdR2 := n1 / nsqr dR in
    let invdZ2 := n1 / nsqr dZ in
    let nyz := Z.of_nat ny in
    let* A := foldM (fun A x =>
      let R := Rmin + dR * nofnat x in
      foldM (fun A y =>
        let row := Z.of_nat (x * ny + y) in
        let* A :=
          if (y =? 1)%nat then
            foldM (fun A ow => lil_add N A row (row + fst ow)%Z (snd ow * invdZ2)) offset_2nd A
          else if (y =? ny - 2)%nat then
            foldM (fun A ow => lil_add N A row (row - fst ow)%Z (snd ow * invdZ2)) offset_2nd A
          else
            foldM (fun A ow => lil_add N A row (row + fst ow)%Z (snd ow * invdZ2)) centred_2nd A in
        if (x =? 1)%nat then
          let* A := foldM (fun A ow => lil_add N A row (row + fst ow * nyz)%Z (snd ow * invdR2)) offset_2nd A in
          foldM (fun A ow => lil_add N A row (row + fst ow * nyz)%Z (- (snd ow / (R * dR)))) offset_1st A
        else if (x =? nx - 2)%nat then
          let* A := foldM (fun A ow => lil_add N A row (row - fst ow * nyz)%Z (snd ow * invdR2)) offset_2nd A in
          foldM (fun A ow => lil_add N A row (row - fst ow * nyz)%Z (snd ow / (R * dR))) offset_1st A
        else
          let* A := foldM (fun A ow => lil_add N A row (row + fst ow * nyz)%Z (snd ow * invdR2)) centred_2nd A in
          foldM (fun A ow => lil_add N A row (row + fst ow * nyz)%Z (- (snd ow / (R * dR)))) centred_1st A)
        (range 1 (ny - 1)) A)
      (range 1 (nx - 1)) zeros2 in
    let* A := foldM (fun A x => foldM (fun A y =>
        let row := Z.of_nat (x * ny + y) in lil_set N A row row n1) [0; ny - 1]%nat A) (range 0 nx) A in
    foldM (fun A x => foldM (fun A y =>
        let row := Z.of_nat (x * ny + y) in lil_set N A row row n1) (range 0 ny) A) [0; nx - 1]%nat A.

  (** Row of a matrix applied to a flux array flattened as psi[row // ny, row % ny]
      ([A * x.reshape(nx*ny)], multigrid.py 37-44 and 97-109). *)
  Definition mat_apply (A : arr2 T) (psi : arr2 T) (nx ny : nat) (row : nat) : T :=
    nsum (nx * ny) (fun c => A row c * psi (c / ny)%nat (c mod ny)%nat).
End Operators.

Section Greens.
  Open Scope R_scope.
  (** scipy.special.ellipk / ellipe: arbitrary functions of the parameter k^2. *)
  Variables ellipk ellipe : R -> R.

  (** gradshafranov.py 33 *)
  Definition mu0 : R := 4 / 10^7 * PI.

  (** Greens (gradshafranov.py 272-292).  For R*Rc < 0 numpy's sqrt gives NaN while
      Coq's gives 0: only R*Rc >= 0 is meaningful. *)
  Definition Greens (Rc Zc r z : R) : R :=
    let k2 := 4 * r * Rc / ((r + Rc) ^ 2 + (z - Zc) ^ 2) in
    let k2 := nclip k2 (1 / 10^10) (1 - 1 / 10^10) in
    let k := sqrt k2 in
    (mu0 / (2 * PI)) * sqrt (r * Rc) * ((2 - k2) * ellipk k2 - 2 * ellipe k2) / k.

  Definition eps_default : R := 1 / 1000.
  (** GreensBz (gradshafranov.py 295-303) *)
  Definition GreensBz (eps Rc Zc r z : R) : R :=
    (Greens Rc Zc (r + eps) z - Greens Rc Zc (r - eps) z) / (2 * eps * r).
  (** GreensBr (gradshafranov.py 306-314) *)
  Definition GreensBr (eps Rc Zc r z : R) : R :=
    (Greens Rc Zc r (z - eps) - Greens Rc Zc r (z + eps)) / (2 * eps * r).
End Greens.
