(** C61: what the ear test of triangulate accepts. *)
From Coq Require Import List Arith ZArith QArith Bool Reals Lra Lia.
From Verif Require Import Py Num Numpy Polygons PolySpec PolygonsProofs PropPolygons.
Import ListNotations.
Local Open Scope R_scope.

Lemma cross_sym (p q r s : R * R) : segments_cross q p r s -> segments_cross p q r s.
Proof.
  unfold segments_cross. intros (a & b & Ha & Hb & E1 & E2). exists (1 - a), b. repeat split; try lra.
Qed.

(** Vertex v of a polygon whose other vertices are, in order from v, those of q and then prev
    is accepted if the corner is not reflex and no edge of the closed polygon q crosses the
    edge from prev to v.  Neither the other edge at v nor the diagonal is looked at. *)
Theorem C61_ear_test : forall (l1 : list (R * R)) v l2 q prev, l2 ++ l1 = q ++ [prev] -> q <> [] ->
  exists b, is_ear (l1 ++ v :: l2) (length l1) = Ok b /\
  (b = true <-> 0 <= area [prev; v; hd (0, 0) q] /\
     ~ exists j, (j < length q)%nat /\ segments_cross prev v (vertex q j) (vertex q (j + 1)) /\
         1 / 1000000 <= Rabs (dir_cross prev v (vertex q j) (vertex q (j + 1)))).
Proof.
  intros l1 v l2 q prev Hq Hne.
  assert (Hne' : l1 ++ l2 <> []).
  { intros H. apply app_eq_nil in H. destruct H as [-> ->]. destruct q; discriminate. }
  unfold is_ear; cbv zeta. rewrite getp_split, (getp_next l1 v l2 Hne'), (getp_prev l1 v l2 Hne'). rewrite Hq, last_last.
  replace (hd (0, 0) (q ++ [prev])) with (hd (0, 0) q) by (destruct q; [congruence|reflexivity]). nR.
  fold (orient prev v (hd (0, 0) q)). destruct (R_ltb (orient prev v (hd (0, 0) q)) 0) eqn:E; rcmp; rewrite orient_area in E.
  - exists false. split; [reflexivity|]. split; [discriminate|]. intros [H _]. lra.
  - assert (Hrest : (if (length l1 <? length (l1 ++ v :: l2) - 1)%nat then skipn (length l1 + 1) (l1 ++ v :: l2) else []) ++
       (if (0 <? length l1)%nat then firstn (length l1) (l1 ++ v :: l2) else []) = q ++ [prev]).
    { rewrite <- Hq. f_equal.
      - rewrite skipn_app, skipn_all2 by lia. replace (length l1 + 1 - length l1)%nat with 1%nat by lia. cbn [skipn app].
        rewrite app_length. cbn [length]. destruct (Nat.ltb_spec (length l1) (length l1 + S (length l2) - 1)); [reflexivity|]. destruct l2; [reflexivity|cbn in *; lia].
      - rewrite firstn_app, Nat.sub_diag, firstn_all. cbn [firstn]. rewrite app_nil_r. destruct l1; reflexivity. }
    rewrite Hrest. destruct (C63_open_edges_tested [prev; v; hd (0, 0) q] (q ++ [prev])) as (b & Eb & Hb & _). cbv zeta in Hb.
    change (map fst [prev; v; hd (0, 0) q]) with [fst prev; fst v; fst (hd (0, 0) q)] in Eb. change (map snd [prev; v; hd (0, 0) q]) with [snd prev; snd v; snd (hd (0, 0) q)] in Eb.
    rewrite Eb. cbn [bind]. exists (negb b). split; [reflexivity|].
    assert (Lq : (length (q ++ [prev]) - 1 = length q)%nat) by (rewrite app_length; cbn; lia). rewrite Lq in Hb. cbn [length Nat.sub] in Hb.
    assert (Hl : (0 < length q)%nat) by (destruct q; [congruence|cbn; lia]).
    assert (N : forall j, (j < length q)%nat -> nth j (q ++ [prev]) (0, 0) = vertex q j /\ nth ((j + 1) mod length q) (q ++ [prev]) (0, 0) = vertex q (j + 1)).
    { intros j Hj. unfold vertex. rewrite (Nat.mod_small j) by exact Hj. rewrite !app_nth1; [split; reflexivity| |exact Hj]. apply Nat.mod_upper_bound. lia. }
    split.
    + intros H. split; [lra|]. intros (j & Hj & Hc & Hd). destruct (N j Hj) as [N1 N2].
      assert (b = true); [|subst; discriminate]. apply Hb. exists 0%nat, j. split; [lia|]. split; [exact Hj|]. cbn [nth Nat.add Nat.modulo Nat.divmod fst Nat.sub].
      rewrite N1, N2. split; assumption.
    + intros [_ H]. destruct b; [|reflexivity]. exfalso. apply H. destruct (proj1 Hb eq_refl) as (i & j & Hi & Hj & Hc). destruct (N j Hj) as [N1 N2]. rewrite N1, N2 in Hc.
      exists j. split; [exact Hj|]. destruct i as [|[|i]]; [| |lia]; cbn [nth Nat.add Nat.modulo Nat.divmod fst Nat.sub] in Hc; destruct Hc as [Hc Hd].
      * split; assumption.
      * split; [apply cross_sym; exact Hc|]. replace (dir_cross prev v (vertex q j) (vertex q (j + 1))) with (- dir_cross v prev (vertex q j) (vertex q (j + 1))) by (unfold dir_cross; ring).
        rewrite Rabs_Ropp. exact Hd.
Qed.
Print Assumptions C61_ear_test.
(** The consequence: a corner is cut off although another vertex lies in the triangle. *)
Example C61_ear_example : is_ear [(0, 0); (0, 4); (4, 0); (1, 1)]%Q 1 = Ok true /\ is_ear [(2, 0); (0, 4); (3, 4); (4, 0); (5, 3)]%Q 0 = Ok false.
Proof. split; vm_compute; reflexivity. Qed.
