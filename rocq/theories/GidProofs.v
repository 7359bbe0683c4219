(** Proofs about the assignment of global IDs: sorting, gathered arrays, records. *)
From Coq Require Import ZArith List Lia Bool Arith ZifyBool ZifyNat Permutation Sorting.Sorted.
From Verif Require Import Base BaseProofs SortModel CompareModel CompareProps MeshModel AttModel AttProps TopoModel TopoProofs ParModel ParProps CommModel CommProofs CommProofs2 ExchModel ExchProofs ExchProofs2 ExchProofs4 LabelModel GidModel.
Import ListNotations.
Open Scope Z_scope.

(** ** Sorting with any order *)
Lemma pins_ord : forall cmp (C : ptr -> ptr -> Z) x s, (forall a b, In a (x :: s) -> In b (x :: s) -> cmp a b = Ok (C a b)) ->
  (forall a b, In a (x :: s) -> In b (x :: s) -> C a b > 0 -> C b a <= 0) -> (forall a b d, In a (x :: s) -> In b (x :: s) -> In d (x :: s) -> C a b <= 0 -> C b d <= 0 -> C a d <= 0) ->
  StronglySorted (fun a b => C a b <= 0) s -> exists r, pins cmp x s = Ok r /\ Permutation r (x :: s) /\ StronglySorted (fun a b => C a b <= 0) r.
Proof.
  intros cmp C x. induction s as [|y s IH]; intros H1 H2 H3 SS; cbn [pins]. exists [x]. split; auto. split; auto. constructor; constructor.
  rewrite H1 by (cbn; auto). cbn [bind]. inversion SS as [|? ? SS' F]; subst. rewrite Forall_forall in F. destruct (Z.leb_spec (C x y) 0) as [L|L].
  - exists (x :: y :: s). split; auto. split; auto. constructor; auto. constructor; auto. apply Forall_forall. intros z Hz. apply (H3 x y z); cbn; auto.
  - destruct IH as (r & E & P & SR); auto.
    + intros a b Ha Hb. apply H1; cbn in *; tauto.
    + intros a b Ha Hb. apply H2; cbn in *; tauto.
    + intros a b d Ha Hb Hd. apply H3; cbn in *; tauto.
    + rewrite E. cbn [bind]. exists (y :: r). split; auto. split. rewrite P. apply perm_swap. constructor; auto. apply Forall_forall. intros z Hz. apply (Permutation_in _ P) in Hz. destruct Hz as [<-|Hz]; auto. apply H2; cbn; auto. lia.
Qed.
Lemma pqsort_ord : forall cmp (C : ptr -> ptr -> Z) s, (forall a b, In a s -> In b s -> cmp a b = Ok (C a b)) ->
  (forall a b, In a s -> In b s -> C a b > 0 -> C b a <= 0) -> (forall a b d, In a s -> In b s -> In d s -> C a b <= 0 -> C b d <= 0 -> C a d <= 0) ->
  exists r, pqsort cmp s = Ok r /\ Permutation r s /\ StronglySorted (fun a b => C a b <= 0) r.
Proof.
  intros cmp C. induction s as [|x s IH]; intros H1 H2 H3; cbn [pqsort]. exists []. repeat split; auto. constructor.
  destruct IH as (r & E & P & SR).
  - intros. apply H1; cbn; auto.
  - intros a b Ha Hb. apply H2; cbn; auto.
  - intros a b d Ha Hb Hd. apply H3; cbn; auto.
  - rewrite E. cbn [bind]. assert (IN : forall z, In z (x :: r) -> In z (x :: s)). { intros z [<-|Hz]; [left; auto|right]. eapply Permutation_in; eauto. }
    destruct (pins_ord cmp C x r) as (r' & E' & P' & S'); auto.
    + intros a b d Ha Hb Hd. apply H3; auto.
    + exists r'. split; auto. split; auto. rewrite P', P. auto.
Qed.
Lemma sorted_nth : forall (R : ptr -> ptr -> Prop) l i j, StronglySorted R l -> (i < j < length l)%nat -> R (nth i l 0) (nth j l 0).
Proof.
  intros R l i j SS. revert i j. induction SS as [|x l SS IH F]; cbn [length]; intros i j H. lia. rewrite Forall_forall in F. destruct j as [|j]; [lia|]. destruct i as [|i]; cbn [nth]. apply F, nth_In. lia. apply IH. lia.
Qed.

(** ** Gathered arrays *)
Lemma ranks_length : forall N, length (ranks (Z.of_nat N)) = N.
Proof. intros. unfold ranks. rewrite map_length, seq_length. lia. Qed.
Lemma nth_ranks : forall A (x : Z -> A) N j d, on (Z.of_nat N) j -> nth (Z.to_nat j) (map x (ranks (Z.of_nat N))) d = x j.
Proof.
  intros A x N j d H. unfold on in H. rewrite (nth_indep _ d (x 0)) by (rewrite map_length, ranks_length; lia). rewrite map_nth. f_equal. unfold ranks. change 0 with (Z.of_nat 0). rewrite map_nth, seq_nth; lia.
Qed.
Lemma in_map_ranks : forall A (x : Z -> A) n y, In y (map x (ranks n)) <-> exists p, on n p /\ x p = y.
Proof. intros. rewrite in_map_iff. split; intros (p & H1 & H2); exists p; (split; [|auto]); auto; apply (CommProofs.in_ranks n); auto. Qed.

Lemma gather_length : forall N (x : Z -> list Z) W, (forall p, on (Z.of_nat N) p -> length (x p) = W) -> length (concat (map x (ranks (Z.of_nat N)))) = (N * W)%nat.
Proof. intros N x W H. rewrite (concat_len W). rewrite map_length, ranks_length. auto. intros w Hw. apply in_map_ranks in Hw. destruct Hw as (p & Hp & <-). auto. Qed.
Lemma skipn_concat : forall W (ws : list (list Z)) t, (forall w, In w ws -> length w = W) -> (t < length ws)%nat -> exists rest, skipn (t * W) (concat ws) = nth t ws [] ++ rest.
Proof.
  intros W ws. induction ws as [|w ws IH]; intros t H Ht; cbn in Ht. lia. assert (Lw : length w = W) by (apply H; cbn; auto). destruct t as [|t]; cbn [Nat.mul concat nth skipn]. eexists; reflexivity.
  rewrite skipn_app, Lw. rewrite (skipn_all2 w) by lia. cbn [app]. replace (W + t * W - W)%nat with (t * W)%nat by lia. apply IH. intros; apply H; cbn; auto. lia.
Qed.
Lemma nth_skipn0 : forall (l : list Z) k i, nth i (skipn k l) 0 = nth (k + i) l 0.
Proof. intros l k. revert l. induction k as [|k IH]; intros l i; cbn [skipn Nat.add]; auto. destruct l; cbn [nth]; auto. destruct i; auto. Qed.
Lemma skipn_skipn' : forall (l : list Z) a b, skipn b (skipn a l) = skipn (a + b) l.
Proof. intros l a. revert l. induction a as [|a IH]; intros l b; cbn [skipn Nat.add]; auto. destruct l; cbn [skipn]; auto. destruct b; auto. Qed.

Section Gather.
  Variables (N : nat) (x : Z -> list Z) (W : Z).
  Hypothesis HW : forall p, on (Z.of_nat N) p -> Z.of_nat (length (x p)) = W.
  Let g := concat (map x (ranks (Z.of_nat N))).
  Lemma g_split : forall j, on (Z.of_nat N) j -> exists rest, skipn (Z.to_nat (W * j)) g = x j ++ rest.
  Proof.
    intros j Hj. pose proof (HW j Hj). unfold g. assert (A : (Z.to_nat j < length (map x (ranks (Z.of_nat N))))%nat) by (rewrite map_length, ranks_length; unfold on in Hj; lia).
    assert (B : forall w, In w (map x (ranks (Z.of_nat N))) -> length w = Z.to_nat W). { intros w Hw. apply in_map_ranks in Hw. destruct Hw as (p & Hp & <-). pose proof (HW p Hp). lia. }
    destruct (skipn_concat (Z.to_nat W) (map x (ranks (Z.of_nat N))) (Z.to_nat j) B A) as (rest & E). exists rest. rewrite nth_ranks in E by auto. rewrite <- E. f_equal. unfold on in Hj. nia.
  Qed.
  Lemma g_len : (N > 0)%nat -> Z.of_nat (length g) = Z.of_nat N * W.
  Proof. intros HN. pose proof (HW 0 ltac:(unfold on; lia)). unfold g. rewrite (gather_length N x (Z.to_nat W)). nia. intros p Hp. pose proof (HW p Hp). lia. Qed.
  Lemma rdl_gather : forall j i, on (Z.of_nat N) j -> 0 <= i < W -> rdl g (W * j + i) = Ok (nth (Z.to_nat i) (x j) 0).
  Proof.
    intros j i Hj Hi. unfold on in Hj. assert (N > 0)%nat by lia. pose proof (g_len H). rewrite rdl_ok by nia. f_equal. destruct (g_split j Hj) as (rest & E).
    replace (Z.to_nat (W * j + i)) with (Z.to_nat (W * j) + Z.to_nat i)%nat by nia. rewrite <- nth_skipn0, E, app_nth1. auto. pose proof (HW j Hj). lia.
  Qed.
  Lemma rdrec_gather : forall j o wd, on (Z.of_nat N) j -> 0 <= o -> 0 <= wd -> o + wd <= W -> rdrec g (W * j + o) wd = Ok (firstn (Z.to_nat wd) (skipn (Z.to_nat o) (x j))).
  Proof.
    intros j o wd Hj Ho Hw HL. unfold on in Hj. assert (N > 0)%nat by lia. pose proof (g_len H). unfold rdrec. replace ((0 <=? W * j + o) && (W * j + o + wd <=? Z.of_nat (length g))) with true by nia. f_equal.
    destruct (g_split j Hj) as (rest & E). replace (Z.to_nat (W * j + o)) with (Z.to_nat (W * j) + Z.to_nat o)%nat by nia. rewrite <- skipn_skipn', E. pose proof (HW j Hj).
    rewrite skipn_app, firstn_app. replace (Z.to_nat wd - length (skipn (Z.to_nat o) (x j)))%nat with 0%nat by (rewrite skipn_length; lia). cbn [firstn]. rewrite app_nil_r. auto.
  Qed.
End Gather.

(** ** Packing *)
Lemma lent_ok : forall l i, 0 <= i -> lent l i = Ok (nth (Z.to_nat i) l 0).
Proof. intros. unfold lent, NULL. replace (i <? 0) with false by lia. auto. Qed.
Lemma malloc_length : forall k, length (@malloc Z k) = Z.to_nat k.
Proof. intros. unfold malloc. apply repeat_length. Qed.

Lemma pack_ok : forall c mx bl key (k : ptr -> list Z), 1 <= c_wd c -> ZL bl <= mx -> (forall e, In e bl -> key e = Ok (k e) /\ Z.of_nat (length (k e)) <= c_wd c) ->
  exists a, pack c mx bl key = Ok a /\ Z.of_nat (length a) = c_wd c * mx /\ forall i, 0 <= i < ZL bl -> holds a (c_wd c * i) (k (nth (Z.to_nat i) bl 0)).
Proof.
  intros c mx bl key k Hw Hm HK. unfold ZL in *. unfold pack. 
  destruct (foldM_up _ (fun m (a : array Z) => Z.of_nat (length a) = c_wd c * mx /\ forall i, 0 <= i < m -> holds a (c_wd c * i) (k (nth (Z.to_nat i) bl 0))) (fun a i => e <- lent bl i ;; k <- key e ;; put a (c_wd c * i) k) 0 (ZL bl) (malloc (c_wd c * mx))) as (a & E & H1 & H2).
  - unfold ZL. lia.
  - split. rewrite malloc_length. nia. intros; lia.
  - intros m a Hmm (L & H). unfold ZL in Hmm. assert (I : In (nth (Z.to_nat m) bl 0) bl) by (apply nth_In; lia). destruct (HK _ I) as (K1 & K2). rewrite lent_ok by lia. cbn [bind]. rewrite K1. cbn [bind].
    destruct (put_ok a (c_wd c * m) (k (nth (Z.to_nat m) bl 0))) as (a' & E' & L' & H' & O'). nia. nia.
    exists a'. split; auto. split. lia. intros i Hi. destruct (Z.eq_dec i m) as [->|Ne]; auto. apply O'. apply H. lia. left.
    assert (I2 : In (nth (Z.to_nat i) bl 0) bl) by (apply nth_In; lia). destruct (HK _ I2) as (_ & K3). nia.
  - exists a. auto.
Qed.
Lemma fill_length : forall junk a, length (fill junk a) = length a.
Proof. intros. unfold fill. rewrite map_length, seq_length. auto. Qed.
Lemma fill_nth : forall junk a i, (i < length a)%nat -> nth i (fill junk a) 0 = match nth i a None with Some x => x | None => junk (Z.of_nat i) end.
Proof.
  intros. unfold fill. set (f := fun i => match nth i a None with Some x => x | None => junk (Z.of_nat i) end). rewrite (nth_indep _ 0 (f 0%nat)) by (rewrite map_length, seq_length; auto). rewrite (map_nth f), seq_nth by auto. auto.
Qed.
(** A record: the key and then anything. *)
Lemma fill_rec : forall junk a pos k wd, holds a pos k -> Z.of_nat (length k) <= wd -> pos + wd <= Z.of_nat (length a) ->
  exists j, firstn (Z.to_nat wd) (skipn (Z.to_nat pos) (fill junk a)) = k ++ j /\ Z.of_nat (length (k ++ j)) = wd.
Proof.
  intros junk a pos k wd (H1 & H2 & H3) Hk Hp. set (r := firstn (Z.to_nat wd) (skipn (Z.to_nat pos) (fill junk a))). assert (L : length r = Z.to_nat wd). { unfold r. rewrite firstn_length, skipn_length, fill_length. lia. }
  exists (skipn (length k) r). assert (E : firstn (length k) r = k).
  { apply nth_ext with (d := 0) (d' := 0). rewrite firstn_length. lia. intros i Hi. rewrite firstn_length in Hi. assert (X : forall m (l : list Z) j, (j < m)%nat -> nth j (firstn m l) 0 = nth j l 0). { induction m as [|m IH]; intros l j Hj. lia. destruct l; cbn [firstn]; auto. destruct j; cbn [nth]; auto. apply IH. lia. }
    rewrite X by lia. unfold r. rewrite X by lia. rewrite nth_skipn0, fill_nth by lia. rewrite H3 by lia. auto. }
  rewrite <- E at 1 3. rewrite firstn_skipn. split; auto. lia.
Qed.

(** ** Searching *)
Lemma ksearch_ok : forall cmp a base wd cnt (c : Z -> Z) , (forall i, 0 <= i < cnt -> exists x, rdrec a (base + wd * i) wd = Ok x /\ cmp x = Ok (c i)) ->
  forall k lo hi, 0 <= lo <= hi -> hi <= cnt -> hi - lo <= Z.of_nat k -> (forall t, 0 <= t < lo -> c t > 0) -> (forall t, hi <= t < cnt -> c t < 0) ->
  (forall i j, 0 <= i < j -> j < cnt -> (c i <= 0 -> c j < 0) /\ (c j >= 0 -> c i > 0)) ->
  exists r, ksearch k cmp a base wd lo hi = Ok r /\ match r with Some i => 0 <= i < cnt /\ c i = 0 | None => forall i, 0 <= i < cnt -> c i <> 0 end.
Proof.
  intros cmp a base wd cnt c HR. induction k as [|k IH]; intros lo hi H1 H2 H3 HL HH MON; cbn [ksearch].
  - replace (lo <? hi) with false by lia. exists None. split; auto. intros i Hi. destruct (Z_lt_dec i lo). specialize (HL i). lia. specialize (HH i). lia.
  - destruct (Z.ltb_spec lo hi) as [D|D]; [|exists None; split; auto; intros i Hi; destruct (Z_lt_dec i lo); [specialize (HL i); lia|specialize (HH i); lia]].
    assert (M : lo <= (lo + hi) / 2 < hi) by (split; [apply Z.div_le_lower_bound; lia|apply Z.div_lt_upper_bound; lia]). set (x := (lo + hi) / 2) in *. destruct (HR x) as (v & E1 & E2). lia. rewrite E1. cbn [bind]. rewrite E2. cbn [bind].
    destruct (Z.ltb_spec (c x) 0) as [C1|C1]; [|destruct (c x >? 0) eqn:C2].
    + apply IH; try lia; auto. intros t Ht. destruct (Z.eq_dec t x) as [->|Ne]. lia. apply (MON x t); lia.
    + apply IH; try lia; auto. intros t Ht. destruct (Z.eq_dec t x) as [->|Ne]. lia. apply (MON t x); lia.
    + exists (Some x). split; auto. lia.
Qed.
