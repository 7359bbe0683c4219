(** C34: the level structure of a connected graph. *)
From Coq Require Import ZArith List Lia Bool Arith ZifyBool ZifyNat Permutation.
From Verif Require Import Base BaseProofs HashProofs SortModel AttModel AttProps TopoModel TopoProofs ParModel ParProps GraphModel GraphProofs GraphProofs2.
Import ListNotations.
Open Scope Z_scope.

(** ** Specification *)

(** A graph is a list of neighbour lists; the C arrays hold the degrees, the
    lists one after the other, and where each of them starts. *)
Definition connected (nbs : list (list Z)) (root : Z) : Prop := forall v, 0 <= v < Zlen nbs -> exists k, walk_to (nbrs nbs) root k v.
(** [k] is the length of a shortest walk. *)
Definition dist (nbs : list (list Z)) (u v : Z) (k : nat) : Prop := walk_to (nbrs nbs) u k v /\ forall j, walk_to (nbrs nbs) u j v -> (k <= j)%nat.
(** The number of nodes with level [i] in a list of levels. *)
Definition width (level : list Z) (i : Z) : nat := count_occ Z.eq_dec level i.

Lemma count_width : forall n f i, 0 <= n -> count n f i = Z.of_nat (width (map f (zrange 0 n)) i).
Proof.
  intros n f i Hn. unfold count, width, ZL. f_equal. generalize (zrange 0 n). induction l as [|x l IH]; cbn; auto.
  destruct (Z.eqb_spec (f x) i), (Z.eq_dec (f x) i); cbn; try congruence; lia.
Qed.
Theorem C34_level_structure : forall nbs root nodemap0 level0, wf_nbs nbs -> 0 <= root < Zlen nbs -> connected nbs root -> Zlen nodemap0 = Zlen nbs -> Zlen level0 = Zlen nbs ->
  exists order level depth maxwidth,
    Graph_Build_LevelStructure (Zlen nbs) (concat nbs) (degrees nbs) (starts_at nbs) root nodemap0 level0 = Ok (map Some order, map Some level, depth, maxwidth) /\
    (* every node listed exactly once, in the order of the levels *)
    Permutation order (zrange 0 (Zlen nbs)) /\
    (forall i j, (i <= j < length order)%nat -> nth (Z.to_nat (nth i order 0)) level 0 <= nth (Z.to_nat (nth j order 0)) level 0) /\
    (* the level is one more than the distance from the root *)
    length level = length nbs /\
    (forall v k, 0 <= v < Zlen nbs -> dist nbs root v k -> nth (Z.to_nat v) level 0 = Z.of_nat k + 1) /\
    (forall v, 0 <= v < Zlen nbs -> exists k, dist nbs root v k) /\
    (* depth and width *)
    (forall l, In l level -> 1 <= l <= depth) /\ In depth level /\
    (forall i, Z.of_nat (width level i) <= maxwidth) /\ exists i, Z.of_nat (width level i) = maxwidth.
Proof.
  intros nbs root nm0 l0 W Hr C Ln Ll. destruct (build_ok _ _ _ _ _ root nm0 l0 (wf_graph nbs W) Hr C) as (order & l & lv & depth & w & E & H & L); auto.
  assert (Hn : 0 <= Zlen nbs) by (unfold Zlen; lia). assert (El : l = map Some (map lv (zrange 0 (Zlen nbs)))) by (apply holds_full; auto).
  assert (D : forall v, 0 <= v < Zlen nbs -> exists k, dist nbs root v k /\ lv v = Z.of_nat k + 1).
  { intros v Hv. destruct (l_walk _ _ _ _ _ _ _ L v Hv) as (k & Wk & Ek). exists k. split; auto. split; auto. intros j Wj. apply (l_least _ _ _ _ _ _ _ L) in Wj. lia. }
  assert (RO : forall x, In x order -> 0 <= x < Zlen nbs). { intros x Hx. apply (Permutation_in _ (l_perm _ _ _ _ _ _ _ L)), In_zrange in Hx. auto. }
  exists order, (map lv (zrange 0 (Zlen nbs))), depth, w. split. congruence. split. apply (l_perm _ _ _ _ _ _ _ L). split.
  { intros i j Hij. rewrite !nth_map_zrange by (apply RO, nth_In; lia). apply (l_order _ _ _ _ _ _ _ L). lia. }
  split. rewrite map_length, zrange_length. unfold Zlen. lia. split.
  { intros v k Hv Dk. rewrite nth_map_zrange by auto. destruct (D v Hv) as (k' & D' & Ek). destruct Dk as (D1 & D2), D' as (D3 & D4). specialize (D2 _ D3). specialize (D4 _ D1). lia. }
  split. intros v Hv. destruct (D v Hv) as (k & Dk & _). eauto. destruct (l_depth _ _ _ _ _ _ _ L) as (D1 & v & Rv & Ev & _). split.
  { intros x Hx. apply in_map_iff in Hx. destruct Hx as (u & <- & Hu). apply In_zrange in Hu. destruct (D u Hu) as (k & _ & Ek). split. lia. auto. }
  split. apply in_map_iff. exists v. split; auto. apply In_zrange; auto.
  destruct (l_width _ _ _ _ _ _ _ L) as (W1 & i & _ & W2). split. intros j. rewrite <- count_width by auto. auto. exists i. rewrite <- count_width by auto. auto.
Qed.
Print Assumptions C34_level_structure.

(** A 3 x 3 grid of nodes, from a corner. *)
Definition grid3 : list (list Z) := [[1; 3]; [0; 2; 4]; [1; 5]; [0; 4; 6]; [1; 3; 5; 7]; [2; 4; 8]; [3; 7]; [4; 6; 8]; [5; 7]].
Fixpoint route (nb : Z -> list Z) (u : Z) (p : list Z) : bool := match p with [] => true | v :: p' => existsb (Z.eqb v) (nb u) && route nb v p' end.
Lemma route_walk : forall nb p root k u, walk_to nb root k u -> route nb u p = true -> exists j, walk_to nb root j (last p u).
Proof.
  intros nb. induction p as [|v p IH]; intros root k u W R. exists k; auto. cbn in R. apply andb_true_iff in R. destruct R as (R1 & R2). apply existsb_exists in R1. destruct R1 as (x & Hx & E). apply Z.eqb_eq in E. subst x.
  destruct (IH root (S k) v) as (j & Wj); auto. econstructor; eauto. exists j. destruct p as [|z p]; auto. replace (last (v :: z :: p) u) with (last (z :: p) v). auto. cbn. clear. revert z. induction p as [|y p IH]; intros; cbn; auto.
Qed.
Example C34_ex : wf_nbs grid3 /\ connected grid3 0 /\
  Graph_Build_LevelStructure 9 (concat grid3) (degrees grid3) (starts_at grid3) 0 (malloc 9) (malloc 9) = Ok (map Some [0; 1; 3; 2; 4; 6; 5; 7; 8], map Some [1; 2; 3; 2; 3; 4; 3; 4; 5], 5, 3).
Proof.
  split. unfold wf_nbs, grid3. repeat constructor; try (vm_compute; congruence). split; [|vm_compute; reflexivity].
  intros v Hv. change (Zlen grid3) with 9 in Hv. assert (v = 0 \/ v = 1 \/ v = 2 \/ v = 3 \/ v = 4 \/ v = 5 \/ v = 6 \/ v = 7 \/ v = 8) by lia.
  repeat (destruct H as [->|H]); [apply (route_walk _ []) with (k := 0%nat) (u := 0) (root := 0)|apply (route_walk _ [1]) with (k := 0%nat) (u := 0) (root := 0)|apply (route_walk _ [1; 2]) with (k := 0%nat) (u := 0) (root := 0)|
    apply (route_walk _ [3]) with (k := 0%nat) (u := 0) (root := 0)|apply (route_walk _ [3; 4]) with (k := 0%nat) (u := 0) (root := 0)|apply (route_walk _ [1; 2; 5]) with (k := 0%nat) (u := 0) (root := 0)|
    apply (route_walk _ [3; 6]) with (k := 0%nat) (u := 0) (root := 0)|apply (route_walk _ [3; 6; 7]) with (k := 0%nat) (u := 0) (root := 0)|subst v; apply (route_walk _ [3; 6; 7; 8]) with (k := 0%nat) (u := 0) (root := 0)]; try constructor; vm_compute; reflexivity.
Qed.

(** A graph that is not connected: the error message at line 166 is never
    reached, a cell of nodemap that was never written is used as a node first. *)
Theorem C34_unconnected_refuted : exists nbs root, wf_nbs nbs /\ 0 <= root < Zlen nbs /\
  Graph_Build_LevelStructure (Zlen nbs) (concat nbs) (degrees nbs) (starts_at nbs) root (malloc (Zlen nbs)) (malloc (Zlen nbs)) = Undef.
Proof. exists [[1]; [0]; []], 0. split. repeat constructor; vm_compute; congruence. split. unfold Zlen; cbn; lia. vm_compute. reflexivity. Qed.
Print Assumptions C34_unconnected_refuted.
