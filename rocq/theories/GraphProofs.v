(** Lemmas about the model of Graph_renumber.c: arrays, adjacency lists, and the
    breadth first level structure. *)
From Coq Require Import ZArith List Lia Bool Arith ZifyBool ZifyNat Permutation.
From Verif Require Import Base BaseProofs HashProofs SortModel AttModel AttProps TopoModel TopoProofs ParModel ParProps GraphModel.
Import ListNotations.
Open Scope Z_scope.

(** * Arrays *)

(** Every cell of an array of [n] cells has a value. *)
Definition holds (a : array Z) (n : Z) (f : Z -> Z) : Prop := Z.of_nat (length a) = n /\ forall i, 0 <= i < n -> rd a i = Ok (f i).
(** The first cells hold the list [m]. *)
Definition starts (a : array Z) (n : Z) (m : list Z) : Prop := Z.of_nat (length a) = n /\ forall i, 0 <= i < ZL m -> rd a i = Ok (nth (Z.to_nat i) m 0).

Lemma holds_wr : forall a n f i x, holds a n f -> 0 <= i < n -> exists a', wr a i x = Ok a' /\ holds a' n (zupd f i x).
Proof.
  intros a n f i x (L & H) Hi. destruct (wr_ok a i x) as (a' & E & L' & R & O). lia. exists a'. split; auto. split. lia.
  intros j Hj. unfold zupd. destruct (Z.eqb_spec j i). subst; auto. rewrite O; auto.
Qed.
Lemma holds_ext : forall a n f g, holds a n f -> (forall i, 0 <= i < n -> f i = g i) -> holds a n g.
Proof. intros a n f g (L & H) E. split; auto. intros. rewrite <- E; auto. Qed.
Lemma starts_snoc : forall a n m x, starts a n m -> ZL m < n -> exists a', wr a (ZL m) x = Ok a' /\ starts a' n (m ++ [x]).
Proof.
  intros a n m x (L & H) Hm. unfold ZL in *. destruct (wr_ok a (Z.of_nat (length m)) x) as (a' & E & L' & R & O). lia. exists a'. split; auto. split. lia.
  intros j Hj. unfold ZL in Hj. rewrite app_length in Hj. cbn in Hj. destruct (Z.eq_dec j (Z.of_nat (length m))) as [->|N].
  - rewrite Nat2Z.id, app_nth2, Nat.sub_diag by lia. auto.
  - rewrite O, app_nth1 by lia. apply H. lia.
Qed.
Lemma starts_nil : forall a n, Z.of_nat (length a) = n -> starts a n [].
Proof. intros. split; auto. cbn. unfold ZL. cbn. lia. Qed.
Lemma array_ext : forall (a b : array Z), length a = length b -> (forall i, 0 <= i < Z.of_nat (length a) -> exists x, rd a i = Ok x /\ rd b i = Ok x) -> a = b.
Proof.
  induction a as [|x a IH]; intros [|y b] L H; try discriminate; auto. f_equal.
  - destruct (H 0) as (z & H1 & H2). cbn. lia. unfold rd in *. change (0 <=? 0) with true in *. change (Z.to_nat 0) with 0%nat in *. cbn [nth_error] in *. destruct x, y; congruence.
  - apply IH. cbn in L. lia. intros i Hi. destruct (H (i + 1)) as (z & H1 & H2). cbn [length]. lia. exists z. unfold rd in *.
    replace (0 <=? i + 1) with true in * by lia. replace (0 <=? i) with true by lia. replace (Z.to_nat (i + 1)) with (S (Z.to_nat i)) in * by lia. auto.
Qed.
Lemma rd_some : forall (m : list Z) i, 0 <= i < ZL m -> rd (map Some m) i = Ok (nth (Z.to_nat i) m 0).
Proof.
  intros m i Hi. unfold ZL in Hi. unfold rd. replace (0 <=? i) with true by lia. rewrite nth_error_map, (nth_error_nth' m 0) by lia. auto.
Qed.
Lemma starts_full : forall a m, starts a (ZL m) m -> a = map Some m.
Proof.
  intros a m (L & H). apply array_ext. rewrite map_length. unfold ZL in L. lia. intros i Hi. eexists. split. apply H. lia. apply rd_some. lia.
Qed.
Lemma nth_map_zrange : forall (f : Z -> Z) n i d, 0 <= i < n -> nth (Z.to_nat i) (map f (zrange 0 n)) d = f i.
Proof.
  intros. rewrite (nth_indep _ d (f 0)) by (rewrite map_length, zrange_length; lia). rewrite map_nth, nth_zrange by lia. f_equal. lia.
Qed.
Lemma holds_full : forall a n f, 0 <= n -> holds a n f -> a = map Some (map f (zrange 0 n)).
Proof.
  intros a n f Hn (L & H). apply array_ext. rewrite !map_length, zrange_length. lia. intros i Hi. exists (f i). split. apply H. lia.
  rewrite rd_some. rewrite nth_map_zrange by lia. auto. unfold ZL. rewrite map_length, zrange_length. lia.
Qed.
Lemma holds_map : forall m, holds (map Some m) (ZL m) (fun i => nth (Z.to_nat i) m 0).
Proof. intros. split. unfold ZL. rewrite map_length. auto. apply rd_some. Qed.
Lemma malloc_len : forall n, 0 <= n -> Z.of_nat (length (@malloc Z n)) = n.
Proof. intros. unfold malloc. rewrite repeat_length. lia. Qed.
Lemma NoDup_app_single : forall A (l : list A) x, NoDup l -> ~ In x l -> NoDup (l ++ [x]).
Proof. intros A l x N H. apply NoDup_rev in N. rewrite <- (rev_involutive (l ++ [x])), rev_app_distr. apply NoDup_rev. cbn. constructor; auto. rewrite <- in_rev. auto. Qed.
Lemma In_zrange : forall a b x, In x (zrange a b) <-> a <= x < b.
Proof.
  intros. unfold zrange. rewrite in_map_iff. split. intros (i & <- & Hi). apply in_seq in Hi. lia.
  intros. exists (Z.to_nat (x - a)). rewrite in_seq. lia.
Qed.
Lemma NoDup_zrange : forall a b, NoDup (zrange a b).
Proof.
  intros. unfold zrange. generalize (seq_NoDup (Z.to_nat (b - a)) 0). generalize (seq 0 (Z.to_nat (b - a))). induction l as [|x l IH]; intros N; cbn; constructor; inversion N; subst; auto.
  intros HI. apply in_map_iff in HI. destruct HI as (y & E & Hy). assert (y = x) by lia. subst. auto.
Qed.
Lemma bounded_length : forall (m : list Z) n, 0 <= n -> NoDup m -> (forall x, In x m -> 0 <= x < n) -> ZL m <= n.
Proof.
  intros m n Hn N H. assert (E : incl m (zrange 0 n)) by (intros x Hx; apply In_zrange; auto). pose proof (NoDup_incl_length N E) as L. rewrite zrange_length in L. unfold ZL. lia.
Qed.
Lemma full_perm : forall (m : list Z) n, 0 <= n -> NoDup m -> (forall x, In x m -> 0 <= x < n) -> n <= ZL m -> Permutation m (zrange 0 n).
Proof.
  intros m n Hn N H L. apply NoDup_Permutation_bis; auto. rewrite zrange_length. unfold ZL in L. lia. intros x Hx. apply In_zrange. auto.
Qed.
(** Initialisation of a whole array. *)
Lemma fill : forall (g : Z -> Z) a n, Z.of_nat (length a) = n -> exists a', foldM (fun a i => wr a i (g i)) a (zrange 0 n) = Ok a' /\ holds a' n g.
Proof.
  intros g a n L. destruct (foldM_up _ (fun k a => Z.of_nat (length a) = n /\ forall i, 0 <= i < k -> rd a i = Ok (g i)) (fun a i => wr a i (g i)) 0 n a) as (a' & E & L' & H).
  - lia.
  - split; auto. lia.
  - intros k s Hk (Ls & Hs). destruct (wr_ok s k (g k)) as (s' & E & L' & R & O). lia. exists s'. split; auto. split. lia. intros i Hi. destruct (Z.eq_dec i k) as [->|]; auto. rewrite O by lia. apply Hs. lia.
  - exists a'. split; auto. split; auto.
Qed.
Lemma foldM_ext : forall S A (F G : S -> A -> result S) l s, (forall s x, In x l -> F s x = G s x) -> foldM F s l = foldM G s l.
Proof.
  intros S A F G. induction l as [|x l IH]; intros s H; cbn [foldM]; auto. rewrite H by (left; auto). destruct (G s x); cbn [bind]; auto. apply IH. intros; apply H; right; auto.
Qed.

(** * Adjacency *)

Record graph (n : Z) (adj nadj off : list Z) (nb : Z -> list Z) : Prop := mkG {
  g_nadj : forall u, 0 <= u < n -> rdl nadj u = Ok (ZL (nb u));
  g_off : forall u, 0 <= u < n -> exists o, rdl off u = Ok o /\ forall j, 0 <= j < ZL (nb u) -> rdl adj (o + j) = Ok (nth (Z.to_nat j) (nb u) 0);
  g_rng : forall u v, 0 <= u < n -> In v (nb u) -> 0 <= v < n;
  g_len : Z.of_nat (length nadj) = n }.

Lemma nb_fold : forall S (F : S -> Z -> result S) (G : S -> Z -> result S) (l : list Z) s,
  (forall s j, 0 <= j < ZL l -> F s j = G s (nth (Z.to_nat j) l 0)) -> foldM F s (zrange 0 (ZL l)) = foldM G s l.
Proof.
  intros S F G l s H.
  assert (K : forall m s, foldM F s (map (fun i => Z.of_nat i) (seq (length l - m) m)) = foldM G s (skipn (length l - m) l) \/ (length l < m)%nat).
  { induction m as [|m IH]; intros s0. left. rewrite Nat.sub_0_r, skipn_all. reflexivity.
    destruct (le_lt_dec (Datatypes.S m) (length l)) as [Hm|Hm]; [left|right; lia].
    cbn [seq map foldM]. replace (skipn (length l - Datatypes.S m) l) with (nth (length l - Datatypes.S m) l 0 :: skipn (length l - m) l).
    - cbn [foldM]. rewrite H by (unfold ZL; lia). rewrite Nat2Z.id. destruct (G s0 _) as [s1| | |]; cbn [bind]; auto. replace (Datatypes.S (length l - Datatypes.S m)) with (length l - m)%nat by lia. destruct (IH s1); auto. lia.
    - assert (Q : forall (k : nat) (l0 : list Z), (k < length l0)%nat -> skipn k l0 = nth k l0 0 :: skipn (Datatypes.S k) l0).
      { induction k; intros [|x l0] Hk; cbn in Hk; try lia; auto. cbn [skipn nth]. rewrite IHk by lia. auto. }
      rewrite (Q (length l - Datatypes.S m)%nat) by lia. f_equal. f_equal. lia. }
  destruct (K (length l) s) as [E|]; [|lia]. rewrite Nat.sub_diag in E. cbn [skipn] in E. rewrite <- E. unfold zrange, ZL. rewrite Z.sub_0_r, Nat2Z.id. f_equal.
Qed.

(** * Distances *)

(** A walk of [k] steps from [u] to the last argument. *)
Inductive walk_to (nb : Z -> list Z) (u : Z) : nat -> Z -> Prop :=
| walk_0 : walk_to nb u 0 u
| walk_S : forall k v w, walk_to nb u k v -> In w (nb v) -> walk_to nb u (S k) w.

Section BFS.
Variables (n : Z) (adj nadj off : list Z) (nb : Z -> list Z) (root : Z).
Hypothesis G : graph n adj nadj off nb.
Hypothesis Hroot : 0 <= root < n.

(** [i] nodes of the queue [m] have been expanded. *)
Record bfs (i : nat) (m : list Z) (lv : Z -> Z) : Prop := mkB {
  b_nd : NoDup m;
  b_rng : forall v, In v m -> 0 <= v < n;
  b_in : forall v, 0 <= v < n -> (lv v <> 0 <-> In v m);
  b_pos : forall v, 0 <= v < n -> 0 <= lv v;
  b_root : In root m /\ lv root = 1;
  b_mono : forall j k, (j <= k < length m)%nat -> lv (nth j m 0) <= lv (nth k m 0);
  b_par : forall v, In v m -> v <> root -> exists u, In u m /\ In v (nb u) /\ lv v = lv u + 1;
  b_done : forall j w, (j < i)%nat -> (j < length m)%nat -> In w (nb (nth j m 0)) -> In w m /\ lv w <= lv (nth j m 0) + 1;
  b_next : forall j k, (i <= j < length m)%nat -> (k < length m)%nat -> lv (nth k m 0) <= lv (nth j m 0) + 1 }.

Lemma bfs_add : forall i m lv w, bfs i m lv -> (i < length m)%nat -> 0 <= w < n -> lv w = 0 -> In w (nb (nth i m 0)) ->
  bfs i (m ++ [w]) (zupd lv w (lv (nth i m 0) + 1)).
Proof.
  intros i m lv w B Hi Hw Lw Hn. set (c := lv (nth i m 0)). assert (Nw : ~ In w m). { intros HH. apply (b_in _ _ _ B w Hw) in HH. auto. }
  assert (K : forall v, In v m -> zupd lv w (c + 1) v = lv v). { intros v Hv. apply zupd_other. intros ->. auto. }
  assert (KW : zupd lv w (c + 1) w = c + 1) by apply zupd_same.
  assert (KN : forall j, (j < length m)%nat -> nth j (m ++ [w]) 0 = nth j m 0) by (intros; apply app_nth1; auto).
  assert (KE : nth (length m) (m ++ [w]) 0 = w) by (rewrite app_nth2, Nat.sub_diag by lia; auto).
  assert (NI : forall j, (j < length m)%nat -> In (nth j m 0) m) by (intros; apply nth_In; auto).
  assert (Lc : 1 <= c). { pose proof (NI i Hi) as HH. pose proof (b_rng _ _ _ B _ HH) as HR. apply (b_in _ _ _ B _ HR) in HH. pose proof (b_pos _ _ _ B _ HR). unfold c. lia. }
  constructor.
  - apply NoDup_app_single; auto. apply (b_nd _ _ _ B).
  - intros v Hv. apply in_app_iff in Hv. destruct Hv as [Hv|[<-|[]]]; auto. eapply b_rng; eauto.
  - intros v Hv. rewrite in_app_iff. cbn. unfold zupd. destruct (Z.eqb_spec v w) as [->|E]. split; auto. lia. rewrite (b_in _ _ _ B v Hv). split; auto. intros [|[HH|[]]]; auto. congruence.
  - intros v Hv. unfold zupd. destruct (Z.eqb_spec v w). lia. eapply b_pos; eauto.
  - destruct (b_root _ _ _ B) as (R1 & R2). split. apply in_app_iff; auto. rewrite K; auto.
  - intros j k Hjk. rewrite app_length in Hjk. cbn in Hjk. destruct (Nat.eq_dec k (length m)) as [->|].
    + rewrite KE, KW. destruct (Nat.eq_dec j (length m)) as [->|]. rewrite KE, KW. lia. rewrite KN by lia. rewrite K by (apply NI; lia). unfold c. apply (b_next _ _ _ B i j); lia.
    + rewrite !KN by lia. rewrite !K by (apply NI; lia). apply (b_mono _ _ _ B). lia.
  - intros v Hv Nv. apply in_app_iff in Hv. destruct Hv as [Hv|[<-|[]]].
    + destruct (b_par _ _ _ B v Hv Nv) as (u & Hu & Hvu & E). exists u. split. apply in_app_iff; auto. split; auto. rewrite !K; auto.
    + exists (nth i m 0). split. apply in_app_iff; auto. split; auto. rewrite KW, K; auto.
  - intros j x Hj _ Hx. rewrite KN in * by lia. destruct (b_done _ _ _ B j x) as (D1 & D2); auto. lia. split. apply in_app_iff; auto. rewrite !K; auto. apply NI. lia.
  - intros j k Hj Hk. rewrite app_length in Hj, Hk. cbn in Hj, Hk. destruct (Nat.eq_dec j (length m)) as [->|].
    + rewrite KE, KW. destruct (Nat.eq_dec k (length m)) as [->|]. rewrite KE, KW. lia. rewrite KN by lia. rewrite K by (apply NI; lia). pose proof (b_next _ _ _ B i k). unfold c. lia.
    + rewrite (KN j) by lia. rewrite (K (nth j m 0)) by (apply NI; lia). destruct (Nat.eq_dec k (length m)) as [->|].
      * rewrite KE, KW. pose proof (b_mono _ _ _ B i j). unfold c. lia.
      * rewrite KN by lia. rewrite K by (apply NI; lia). apply (b_next _ _ _ B); lia.
Qed.

Lemma bl_visit_ok : forall i nm level m lv, bfs i m lv -> (i < length m)%nat -> starts nm n m -> holds level n lv ->
  exists nm' level' m' lv', bl_visit adj nadj off (nm, level, ZL m) (Z.of_nat i) = Ok (nm', level', ZL m') /\ bfs (S i) m' lv' /\ starts nm' n m' /\ holds level' n lv'.
Proof.
  intros i nm level m lv B Hi SN HL. assert (Hc : In (nth i m 0) m) by (apply nth_In; auto). pose proof (b_rng _ _ _ B _ Hc) as Rc. set (cur := nth i m 0) in *.
  unfold bl_visit. destruct SN as (Ln & SN). rewrite SN by (unfold ZL; lia). rewrite Nat2Z.id. fold cur. cbn [bind]. destruct HL as (Ll & HL). rewrite HL by auto. cbn [bind]. rewrite (g_nadj _ _ _ _ _ G) by auto. cbn [bind].
  destruct (g_off _ _ _ _ _ G cur Rc) as (o & Eo & Ho).
  rewrite (nb_fold _ _ (fun (st : array Z * array Z * Z) an => let '(nodemap, level, nnew) := st in l <- rd level an ;; if negb (l =? 0) then Ok st else level <- wr level an (lv cur + 1) ;; nodemap <- wr nodemap nnew an ;; Ok (nodemap, level, nnew + 1))).
  2: { intros [[a1 a2] a3] j Hj. rewrite Eo. cbn [bind]. rewrite Ho by auto. reflexivity. }
  destruct (foldM_list _ _ (fun pre (st : array Z * array Z * Z) => exists m' lv', let '(nm', level', k) := st in k = ZL m' /\ bfs i m' lv' /\ starts nm' n m' /\ holds level' n lv' /\
     (i < length m')%nat /\ nth i m' 0 = cur /\ lv' cur = lv cur /\ forall w, In w pre -> In w m') (fun (st : array Z * array Z * Z) an => let '(nodemap, level, nnew) := st in l <- rd level an ;; if negb (l =? 0) then Ok st else level <- wr level an (lv cur + 1) ;; nodemap <- wr nodemap nnew an ;; Ok (nodemap, level, nnew + 1)) (nb cur) (nm, level, ZL m)) as (st & E & P).
  - exists m, lv. split; auto. split; auto. split. split; auto. split. split; auto. split; auto. split; auto. split; auto. intros w [].
  - intros pre w suf [[nm1 l1] k1] Epre (m1 & lv1 & -> & B1 & S1 & H1 & Hi1 & Ec & El & Hp).
    assert (Hw : In w (nb cur)) by (rewrite Epre; apply in_app_iff; right; left; auto). pose proof (g_rng _ _ _ _ _ G cur w Rc Hw) as Rw.
    destruct H1 as (L1 & H1). rewrite (H1 w Rw). cbn [bind]. destruct (Z.eqb_spec (lv1 w) 0) as [E0|E0]; cbn [negb].
    + destruct (holds_wr l1 n lv1 w (lv cur + 1) (conj L1 H1) Rw) as (l2 & E2 & H2). rewrite E2. cbn [bind].
      assert (LB : ZL m1 < n). { assert (ZL (m1 ++ [w]) <= n). { apply bounded_length. lia. apply NoDup_app_single. apply (b_nd _ _ _ B1). intros HH. apply (b_in _ _ _ B1 w Rw) in HH. auto. intros x Hx. apply in_app_iff in Hx. destruct Hx as [Hx|[<-|[]]]; auto. eapply b_rng; eauto. } unfold ZL in *. rewrite app_length in H. cbn in H. lia. }
      destruct (starts_snoc nm1 n m1 w S1 LB) as (nm2 & E3 & S2). rewrite E3. cbn [bind]. eexists. split; [reflexivity|]. exists (m1 ++ [w]), (zupd lv1 w (lv cur + 1)). split. unfold ZL. rewrite app_length. cbn. lia.
      assert (Hc1 : In cur m1) by (rewrite <- Ec; apply nth_In; auto).
      split. { rewrite <- El, <- Ec. apply bfs_add; auto. rewrite Ec. auto. } split; auto. split; auto. split. rewrite app_length; lia. split. rewrite app_nth1 by auto. auto. split. { rewrite zupd_other; auto. intros EE. subst w. apply (b_in _ _ _ B1 cur Rc) in Hc1. auto. }
      intros x Hx. apply in_app_iff in Hx. apply in_app_iff. destruct Hx as [Hx|[<-|[]]]; auto. right; left; auto.
    + eexists. split; [reflexivity|]. exists m1, lv1. split; auto. split; auto. split; auto. split. split; auto. split; auto. split; auto. split; auto. intros x Hx. apply in_app_iff in Hx. destruct Hx as [Hx|[<-|[]]]; auto. apply (b_in _ _ _ B1); auto.
  - destruct st as [[nm2 l2] k2]. destruct P as (m2 & lv2 & -> & B2 & S2 & H2 & Hi2 & Ec & El & Hp). exists nm2, l2, m2, lv2. split; auto. split; auto.
    constructor; try (apply B2). 
    + intros j w Hj Hjm Hw. destruct (Nat.eq_dec j i) as [->|]. rewrite Ec in Hw. split; auto. destruct (In_nth _ _ 0 (Hp _ Hw)) as (k & Hk & <-). apply (b_next _ _ _ B2); lia. apply (b_done _ _ _ B2); auto; lia.
    + intros j k Hj Hk. apply (b_next _ _ _ B2); lia.
Qed.

Hypothesis conn : forall v, 0 <= v < n -> exists k, walk_to nb root k v.

Lemma bfs_nodes : forall m lv, bfs (length m) m lv -> forall v, 0 <= v < n -> In v m.
Proof.
  intros m lv B v Hv. destruct (conn v Hv) as (k & W). clear Hv. induction W. apply (b_root _ _ _ B).
  destruct (In_nth _ _ 0 IHW) as (j & Hj & E). destruct (b_done _ _ _ B j w); auto. rewrite E. auto.
Qed.
Lemma bfs_run : forall nm level, starts nm n [root] -> holds level n (zupd (fun _ => 0) root 1) ->
  exists nm' level' m lv, foldM (bl_visit adj nadj off) (nm, level, 1) (zrange 0 n) = Ok (nm', level', n) /\ bfs (Z.to_nat n) m lv /\ nm' = map Some m /\ ZL m = n /\ holds level' n lv.
Proof.
  intros nm level SN HL.
  destruct (foldM_up _ (fun k (st : array Z * array Z * Z) => exists m lv, let '(nm, level, c) := st in c = ZL m /\ bfs (Z.to_nat k) m lv /\ starts nm n m /\ holds level n lv /\ k <= ZL m) (bl_visit adj nadj off) 0 n (nm, level, 1)) as (st & E & P).
  - lia.
  - exists [root], (zupd (fun _ => 0) root 1). split; auto. split; [|split; auto; split; auto; unfold ZL; cbn; lia]. constructor.
    + repeat constructor. intros [].
    + intros v [<-|[]]. auto.
    + intros v Hv. unfold zupd. cbn. destruct (Z.eqb_spec v root) as [->|N]. split; auto. lia. split. lia. intros [HH|[]]. congruence.
    + intros v Hv. unfold zupd. destruct (v =? root); lia.
    + split. left; auto. apply zupd_same.
    + intros j k Hjk. cbn in Hjk. replace j with 0%nat by lia. replace k with 0%nat by lia. lia.
    + intros v [<-|[]] HH. congruence.
    + intros j w Hj. change (Z.to_nat 0) with 0%nat in Hj. lia.
    + intros j k Hj Hk. cbn in *. replace j with 0%nat by lia. replace k with 0%nat by lia. lia.
  - intros k [[nm1 l1] c1] Hk (m & lv & -> & B & S1 & H1 & Hkm).
    assert (Hlt : (Z.to_nat k < length m)%nat).
    { destruct (Z.eq_dec k (ZL m)) as [E|]; [|unfold ZL in *; lia]. exfalso. assert (B' : bfs (length m) m lv) by (replace (length m) with (Z.to_nat k) by (unfold ZL in E; lia); auto).
      assert (I : incl (zrange 0 n) m) by (intros x Hx; apply In_zrange in Hx; eapply bfs_nodes; eauto). pose proof (NoDup_incl_length (NoDup_zrange 0 n) I) as L. rewrite zrange_length in L. unfold ZL in E. lia. }
    destruct (bl_visit_ok (Z.to_nat k) nm1 l1 m lv B Hlt S1 H1) as (nm2 & l2 & m2 & lv2 & E2 & B2 & S2 & H2). rewrite Z2Nat.id in E2 by lia. exists (nm2, l2, ZL m2). split; auto. exists m2, lv2. split; auto.
    replace (Z.to_nat (k + 1)) with (S (Z.to_nat k)) by lia. split; auto. split; auto. split; auto.
    destruct (Z_le_gt_dec (k + 1) (ZL m2)) as [|HH]; auto. exfalso. assert (L2 : (length m2 <= Z.to_nat k)%nat) by (unfold ZL in HH; lia).
    (* the queue never shrinks: node k is still there *)
    assert (B3 : bfs (length m2) m2 lv2). { constructor; try apply B2. intros j w Hj Hjm Hw. apply (b_done _ _ _ B2); auto. lia. intros j k' Hj Hk'. lia. }
    assert (I : incl (zrange 0 n) m2) by (intros x Hx; apply In_zrange in Hx; eapply bfs_nodes; eauto). pose proof (NoDup_incl_length (NoDup_zrange 0 n) I) as L. rewrite zrange_length in L. lia.
  - destruct st as [[nm2 l2] c2]. destruct P as (m & lv & -> & B & S2 & H2 & Hn).
    assert (ZL m = n). { assert (ZL m <= n). apply bounded_length. lia. apply (b_nd _ _ _ B). apply (b_rng _ _ _ B). lia. }
    exists nm2, l2, m, lv. rewrite H in E. split; auto. split; auto. split; auto. apply starts_full. rewrite H. auto.
Qed.

Lemma bfs_walk : forall m lv, bfs (length m) m lv -> forall v, In v m -> exists k, walk_to nb root k v /\ lv v = Z.of_nat k + 1.
Proof.
  intros m lv B. assert (H : forall c v, In v m -> lv v <= Z.of_nat c -> exists k, walk_to nb root k v /\ lv v = Z.of_nat k + 1).
  { induction c as [|c IH]; intros v Hv Lv; pose proof (b_rng _ _ _ B _ Hv) as Rv; pose proof (b_pos _ _ _ B _ Rv); pose proof (proj2 (b_in _ _ _ B _ Rv) Hv).
    - lia.
    - destruct (Z.eq_dec v root) as [->|N]. exists 0%nat. split. constructor. destruct (b_root _ _ _ B). lia.
      destruct (b_par _ _ _ B v Hv N) as (u & Hu & Huv & E). destruct (IH u Hu) as (k & W & Ek). lia. exists (S k). split. econstructor; eauto. lia. }
  intros v Hv. apply (H (Z.to_nat (lv v)) v Hv). pose proof (b_rng _ _ _ B _ Hv) as Rv. pose proof (b_pos _ _ _ B _ Rv). lia.
Qed.
Lemma bfs_least : forall m lv, bfs (length m) m lv -> forall k v, walk_to nb root k v -> lv v <= Z.of_nat k + 1.
Proof.
  intros m lv B k v W. assert (H : In v m /\ lv v <= Z.of_nat k + 1); [|tauto]. induction W.
  - destruct (b_root _ _ _ B). split; auto. lia.
  - destruct IHW as (I1 & I2). destruct (In_nth _ _ 0 I1) as (j & Hj & E). destruct (b_done _ _ _ B j w) as (D1 & D2); auto. rewrite E; auto. split; auto. rewrite E in D2. lia.
Qed.
End BFS.
