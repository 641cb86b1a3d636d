(** Model of freegs/polygons.py. *)
From Coq Require Import List Arith ZArith Bool.
From Verif Require Import Py Num Numpy.
Import ListNotations.

Section Polygons.
  Context {T : Type} `{Num T}.
  Open Scope num_scope.
  Local Notation "'let*' x := e 'in' k" := (bind e (fun x => k))
    (at level 200, x pattern, e at level 100, k at level 200).

  Local Notation point := (T * T)%type.
  Definition origin : point := (n0, n0).
  (** [l[i]] for an index known to be in range. *)
  Definition getf (l : list T) (i : nat) : T := nth i l n0.
  Definition getp (l : list point) (i : nat) : point := nth i l origin.

  (** The test of one pair of segments (polygons.py 45-65): from (p,q) with the next points
      at indices ip, jp. *)
  Definition seg_cross (r1 z1 r2 z2 : list T) (i ip j jp : nat) : bool :=
    let a := getf r1 ip - getf r1 i in
    let b := getf r2 jp - getf r2 j in
    let c := getf z1 ip - getf z1 i in
    let d := getf z2 jp - getf z2 j in
    let dr := getf r2 jp - getf r1 i in
    let dz := getf z2 jp - getf z1 i in
    let det := a * d - b * c in
    if nabs det <? nlit 1 1000000 then false
    else
      let alpha := (d * dr - b * dz) / det in
      let beta := (a * dz - c * dr) / det in
      (n0 <? alpha) && (alpha <? n1) && (n0 <? beta) && (beta <? n1).

  (** intersect (polygons.py 27-68).  [return True] inside the double loop = existsb. *)
  Definition intersect (r1 z1 r2 z2 : list T) (closed1 closed2 : bool) : result bool :=
    if negb (length r1 =? length z1)%nat then Raise AssertionError
    else if negb (length r2 =? length z2)%nat then Raise AssertionError
    else
      let n1 := if closed1 then length r1 else (length r1 - 1)%nat in
      let n2 := if closed2 then length r2 else (length r2 - 1)%nat in
      Ok (existsb (fun i => existsb (fun j =>
            seg_cross r1 z1 r2 z2 i ((i + 1) mod n1)%nat j ((j + 1) mod n2)%nat)
          (range 0 n2)) (range 0 n1)).

  (** area (polygons.py 71-88) *)
  Definition area (polygon : list point) : T :=
    let nvert := length polygon in
    nlit 1 2 * fold_left (fun acc i =>
      let '(r1, z1) := getp polygon i in
      let '(r2, z2) := getp polygon ((i + 1) mod nvert) in
      acc + (r2 - r1) * (z1 + z2)) (range 0 nvert) n0.

  (** clockwise (polygons.py 91-102) *)
  Definition clockwise (polygon : list point) : bool := n0 <? area polygon.

  (** The test of vertex [i] in triangulate (polygons.py 130-158): is it accepted as an ear? *)
  Definition is_ear (polygon : list point) (i : nat) : result bool :=
    let nvert := length polygon in
    let vert := getp polygon i in
    let next_vert := getp polygon ((i + 1) mod nvert) in
    let prev_vert := getp polygon ((i + nvert - 1) mod nvert) in
    let cross := (snd vert - snd prev_vert) * (fst next_vert - fst vert)
                 - (fst vert - fst prev_vert) * (snd next_vert - snd vert) in
    if cross <? n0 then Ok false
    else
      let r1 := [fst prev_vert; fst vert; fst next_vert] in
      let z1 := [snd prev_vert; snd vert; snd next_vert] in
      let rest := (if (i <? nvert - 1)%nat then skipn (i + 1) polygon else [])
                  ++ (if (0 <? i)%nat then firstn i polygon else []) in
      let* b := intersect r1 z1 (map fst rest) (map snd rest) false false in
      Ok (negb b).

  (** The for loop of triangulate (129-164): the first accepted vertex, if any. *)
  Fixpoint find_ear (polygon : list point) (l : list nat) : result (option nat) :=
    match l with
    | [] => Ok None
    | i :: l' => let* b := is_ear polygon i in if (b : bool) then Ok (Some i) else find_ear polygon l'
    end.

  (** The while loop (127-166).  When no vertex is accepted the loop runs again on the same
      list: [fuel] counts the passes. *)
  Fixpoint clip_loop (fuel : nat) (polygon : list point) (triangles : list (list point)) : result (list (list point)) :=
    let nvert := length polygon in
    if (3 <? nvert)%nat then
      match fuel with
      | O => Raise OutOfFuel
      | S fuel =>
          let* e := find_ear polygon (range 0 nvert) in
          match e with
          | None => clip_loop fuel polygon triangles
          | Some i =>
              let tri := [getp polygon ((i + nvert - 1) mod nvert); getp polygon i; getp polygon ((i + 1) mod nvert)] in
              clip_loop fuel (firstn i polygon ++ skipn (i + 1) polygon) (triangles ++ [tri])
          end
      end
    else Ok (triangles ++ [polygon]).

  (** triangulate (polygons.py 105-167) *)
  Definition triangulate (fuel : nat) (polygon : list point) : result (list (list point)) :=
    let polygon := if clockwise polygon then polygon else rev polygon in
    if (2 <? length polygon)%nat then clip_loop fuel polygon []
    else Raise AssertionError.
End Polygons.
