(** The result of Graph_Build_LevelStructure; adjacency arrays of a list of
    neighbour lists. *)
From Coq Require Import ZArith List Lia Bool Arith ZifyBool ZifyNat Permutation.
From Verif Require Import Base BaseProofs HashProofs SortModel AttModel AttProps TopoModel TopoProofs ParModel ParProps GraphModel GraphProofs.
Import ListNotations.
Open Scope Z_scope.

(** Number of nodes [v] of 0..n-1 with [f v = i]. *)
Definition count (n : Z) (f : Z -> Z) (i : Z) : Z := ZL (filter (fun v => f v =? i) (zrange 0 n)).

Lemma bl_width_ok : forall n level lv i, 0 <= n -> holds level n lv -> bl_width n level i = Ok (count n lv i).
Proof.
  intros n level lv i Hn (L & H). unfold bl_width, count.
  destruct (foldM_up _ (fun k w => w = ZL (filter (fun v => lv v =? i) (zrange 0 k))) (fun w j => l <- rd level j ;; Ok (if l =? i then w + 1 else w)) 0 n 0) as (w & E & P); auto.
  intros k s Hk ->. rewrite H by auto. cbn [bind]. eexists. split; [reflexivity|]. rewrite zrange_snoc by lia. rewrite filter_app. unfold ZL. rewrite app_length. cbn [filter]. destruct (lv k =? i); cbn [length]; lia.
  congruence.
Qed.
Lemma count_nonneg : forall n f i, 0 <= count n f i.
Proof. intros. unfold count, ZL. lia. Qed.
Lemma count_le : forall n f i, 0 <= n -> count n f i <= n.
Proof.
  intros. unfold count. apply bounded_length; auto. apply NoDup_filter, NoDup_zrange. intros x Hx. apply filter_In in Hx. destruct Hx as (Hx & _). apply In_zrange in Hx. auto.
Qed.

(** The greatest of [g a], ..., [g (b-1)] is found. *)
Lemma max_loop : forall (g : Z -> Z) (F : Z -> result Z) a b, a <= b -> (forall i, a <= i < b -> F i = Ok (g i)) -> (forall i, a <= i < b -> 0 <= g i) ->
  exists m, foldM (fun m i => w <- F i ;; Ok (if w >? m then w else m)) 0 (zrange a b) = Ok m /\ 0 <= m /\ (forall i, a <= i < b -> g i <= m) /\ (a < b -> exists i, a <= i < b /\ g i = m).
Proof.
  intros g F a b Hab HF Hg. destruct (foldM_up _ (fun k m => 0 <= m /\ (forall i, a <= i < k -> g i <= m) /\ (a < k -> exists i, a <= i < k /\ g i = m) /\ (k <= a -> m = 0)) (fun m i => w <- F i ;; Ok (if w >? m then w else m)) a b 0) as (m & E & P); auto.
  - split. lia. split. intros; lia. split; lia.
  - intros k s Hk (P1 & P2 & P3 & P4). rewrite HF by auto. cbn [bind]. eexists. split; [reflexivity|]. pose proof (Hg k Hk). destruct (g k >? s) eqn:C.
    + split. lia. split. intros i Hi. destruct (Z.eq_dec i k) as [->|]. lia. specialize (P2 i). lia. split; [|lia]. intros _. exists k. lia.
    + split; auto. split. intros i Hi. destruct (Z.eq_dec i k) as [->|]. lia. apply P2. lia. split; [|lia]. intros _. destruct (Z.eq_dec a k) as [->|].
      exists k. split; [lia|]. lia. destruct P3 as (i & Hi & Ei). lia. exists i. split. lia. auto.
  - exists m. split; auto. tauto.
Qed.

Lemma filter_none : forall A (f : A -> bool) l, (forall x, In x l -> f x = false) -> filter f l = [].
Proof. intros A f. induction l as [|x l IH]; intros H; cbn; auto. rewrite H by (left; auto). apply IH. intros; apply H; right; auto. Qed.

(** What the level structure must be. *)
Record levels (n : Z) (nb : Z -> list Z) (root : Z) (order : list Z) (lv : Z -> Z) (depth maxw : Z) : Prop := mkLv {
  l_perm : Permutation order (zrange 0 n);
  l_walk : forall v, 0 <= v < n -> exists k, walk_to nb root k v /\ lv v = Z.of_nat k + 1;
  l_least : forall v k, walk_to nb root k v -> lv v <= Z.of_nat k + 1;
  l_order : forall i j, (i <= j < length order)%nat -> lv (nth i order 0) <= lv (nth j order 0);
  l_depth : (forall v, 0 <= v < n -> lv v <= depth) /\ exists v, 0 <= v < n /\ lv v = depth /\ nth (length order - 1) order 0 = v;
  l_width : (forall i, count n lv i <= maxw) /\ exists i, 1 <= i <= depth /\ count n lv i = maxw }.

Lemma build_ok : forall n adj nadj off nb root nm level, graph n adj nadj off nb -> 0 <= root < n -> (forall v, 0 <= v < n -> exists k, walk_to nb root k v) ->
  Z.of_nat (length nm) = n -> Z.of_nat (length level) = n ->
  exists order level' lv depth maxw, Graph_Build_LevelStructure n adj nadj off root nm level = Ok (map Some order, level', depth, maxw) /\ holds level' n lv /\ levels n nb root order lv depth maxw.
Proof.
  intros n adj nadj off nb root nm level G Hr C Ln Ll. unfold Graph_Build_LevelStructure.
  destruct (fill (fun _ => 0) level n Ll) as (l0 & E0 & H0). rewrite E0. cbn [bind].
  destruct (starts_snoc nm n [] root (starts_nil _ _ Ln)) as (nm1 & E1 & S1). unfold ZL. cbn. lia. change (ZL (@nil Z)) with 0 in E1. rewrite E1. cbn [bind].
  destruct (holds_wr l0 n _ root 1 H0 Hr) as (l1 & E2 & H1). rewrite E2. cbn [bind].
  destruct (bfs_run n adj nadj off nb root G Hr C nm1 l1 S1 H1) as (nm2 & l2 & m & lv & E3 & B & -> & Lm & H2). rewrite E3. cbn [bind]. rewrite Z.eqb_refl. cbn [negb].
  assert (Lm' : length m = Z.to_nat n) by (unfold ZL in Lm; lia). rewrite <- Lm' in B.
  assert (Last : In (nth (length m - 1) m 0) m) by (apply nth_In; lia). set (la := nth (length m - 1) m 0) in *. pose proof (b_rng _ _ _ _ _ _ B _ Last) as Rl.
  rewrite rd_some by (unfold ZL; lia). replace (Z.to_nat (n - 1)) with (length m - 1)%nat by lia. fold la. cbn [bind]. rewrite (proj2 H2 la Rl). cbn [bind].
  assert (Nodes : forall v, 0 <= v < n -> In v m) by (intros v Hv; apply (bfs_nodes n nb root C m lv B); auto).
  assert (Ld : forall v, 0 <= v < n -> lv v <= lv la). { intros v Hv. destruct (In_nth _ _ 0 (Nodes v Hv)) as (j & Hj & <-). apply (b_mono _ _ _ _ _ _ B). lia. }
  assert (L1 : forall v, 0 <= v < n -> 1 <= lv v). { intros v Hv. pose proof (b_pos _ _ _ _ _ _ B v Hv). pose proof (proj2 (b_in _ _ _ _ _ _ B v Hv) (Nodes v Hv)). lia. }
  destruct (max_loop (count n lv) (bl_width n l2) 1 (lv la + 1)) as (w & Ew & W0 & W1 & W2). specialize (L1 la Rl). lia. intros. apply bl_width_ok; auto. lia. intros. apply count_nonneg.
  rewrite Ew. cbn [bind]. exists m, l2, lv, (lv la), w. split; auto. split; auto. constructor.
  - apply full_perm. lia. apply (b_nd _ _ _ _ _ _ B). apply (b_rng _ _ _ _ _ _ B). lia.
  - intros v Hv. apply (bfs_walk n nb root C m lv B). auto.
  - intros v k W. apply (bfs_least n nb root Hr C m lv B). auto.
  - apply (b_mono _ _ _ _ _ _ B).
  - split; auto. exists la. auto.
  - split.
    + intros i. destruct (Z_le_gt_dec 1 i); [destruct (Z_le_gt_dec i (lv la))|]. apply W1. lia.
      * unfold count. replace (filter _ _) with (@nil Z). unfold ZL. cbn. lia. symmetry. apply filter_none. intros v Hv. apply In_zrange in Hv. specialize (Ld v Hv). lia.
      * unfold count. replace (filter _ _) with (@nil Z). unfold ZL. cbn. lia. symmetry. apply filter_none. intros v Hv. apply In_zrange in Hv. specialize (L1 v Hv). lia.
    + destruct W2 as (i & Hi & Ei). specialize (L1 la Rl). lia. exists i. split; auto. lia.
Qed.

(** ** Arrays from neighbour lists *)

Definition Zlen {A} (l : list A) : Z := Z.of_nat (length l).
(** Neighbours of node [u]. *)
Definition nbrs (nbs : list (list Z)) (u : Z) : list Z := nth (Z.to_nat u) nbs [].
Definition degrees (nbs : list (list Z)) : list Z := map (fun l => ZL l) nbs.
Definition starts_at (nbs : list (list Z)) : list Z := map (fun i => ZL (concat (firstn i nbs))) (seq 0 (length nbs)).
Definition wf_nbs (nbs : list (list Z)) : Prop := Forall (Forall (fun v => 0 <= v < Zlen nbs)) nbs.

Lemma nth_concat_at : forall (nbs : list (list Z)) i j d, (i < length nbs)%nat -> (j < length (nth i nbs []))%nat ->
  nth (length (concat (firstn i nbs)) + j) (concat nbs) d = nth j (nth i nbs []) d /\ (length (concat (firstn i nbs)) + j < length (concat nbs))%nat.
Proof.
  induction nbs as [|l nbs IH]; intros [|i] j d Hi Hj; cbn [length] in Hi; try lia; cbn [nth firstn concat] in *.
  - cbn [length]. rewrite app_nth1 by lia. rewrite app_length. split; auto. lia.
  - rewrite !app_length. destruct (IH i j d) as (E & L); auto. lia. split; [|lia]. rewrite app_nth2 by lia. rewrite <- E. f_equal. lia.
Qed.
Lemma wf_graph : forall nbs, wf_nbs nbs -> graph (Zlen nbs) (concat nbs) (degrees nbs) (starts_at nbs) (nbrs nbs).
Proof.
  intros nbs W. constructor.
  - intros u Hu. unfold Zlen in Hu. unfold degrees. rewrite rdl_ok by (rewrite map_length; lia). f_equal. rewrite (nth_indep _ 0 (ZL (@nil Z))) by (rewrite map_length; lia). rewrite (map_nth (fun l => ZL l)). auto.
  - intros u Hu. unfold Zlen in Hu. unfold starts_at. rewrite rdl_ok by (rewrite map_length, seq_length; lia). eexists. split; [reflexivity|].
    rewrite (nth_indep _ 0 (ZL (concat (firstn 0 nbs)))) by (rewrite map_length, seq_length; lia). rewrite (map_nth (fun i => ZL (concat (firstn i nbs)))). rewrite seq_nth by lia. cbn [plus].
    intros j Hj. unfold nbrs, ZL in *. destruct (nth_concat_at nbs (Z.to_nat u) (Z.to_nat j) 0) as (E & L); try lia. rewrite rdl_ok by lia. f_equal. rewrite <- E. f_equal. lia.
  - intros u v Hu Hv. unfold wf_nbs in W. rewrite Forall_forall in W. assert (In (nbrs nbs u) nbs) by (apply nth_In; unfold Zlen in Hu; lia). specialize (W _ H). rewrite Forall_forall in W. auto.
  - unfold degrees, Zlen. rewrite map_length. auto.
Qed.
