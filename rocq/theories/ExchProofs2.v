(** Proofs about the exchange of values: buffers, the loop over the partners, the
    search in the buffers. *)
From Coq Require Import ZArith List Lia Bool Arith ZifyBool ZifyNat Sorting.Sorted.
From Verif Require Import Base BaseProofs SortModel AttModel TopoModel ParModel ParProps CommModel CommProofs CommProofs2 ExchModel ExchProofs.
Import ListNotations.
Open Scope Z_scope.

(** ** Blocks in buffers *)
Definition holds (a : array Z) (pos : Z) (l : list Z) : Prop :=
  0 <= pos /\ pos + Z.of_nat (length l) <= Z.of_nat (length a) /\ forall t, (t < length l)%nat -> nth (Z.to_nat pos + t) a None = Some (nth t l 0).

Lemma put_ok : forall a pos l, 0 <= pos -> pos + Z.of_nat (length l) <= Z.of_nat (length a) ->
  exists a', put a pos l = Ok a' /\ length a' = length a /\ holds a' pos l /\ forall pos' l', holds a pos' l' -> pos' + Z.of_nat (length l') <= pos \/ pos + Z.of_nat (length l) <= pos' -> holds a' pos' l'.
Proof.
  intros a pos l Hp Hl. unfold put, memcpy. rewrite map_length. replace ((0 <=? pos) && (0 <=? Z.of_nat (length l)) && (pos + Z.of_nat (length l) <=? Z.of_nat (length a)) && (Z.of_nat (length l) <=? Z.of_nat (length l))) with true by lia.
  rewrite Nat2Z.id. eexists. split; [reflexivity|]. rewrite (firstn_all2 (map Some l)) by (rewrite map_length; lia).
  set (a' := firstn (Z.to_nat pos) a ++ map Some l ++ skipn (Z.to_nat (pos + Z.of_nat (length l))) a).
  assert (L : length a' = length a). { unfold a'. rewrite !app_length, map_length, firstn_length, skipn_length. lia. }
  assert (N : forall i, (i < length a)%nat -> nth i a' None = if (Z.to_nat pos <=? i)%nat && (i <? Z.to_nat pos + length l)%nat then Some (nth (i - Z.to_nat pos) l 0) else nth i a None).
  { intros i Hi. unfold a'. destruct (Nat.leb_spec (Z.to_nat pos) i) as [A|A]; cbn [andb].
    - rewrite app_nth2 by (rewrite firstn_length; lia). rewrite firstn_length, Nat.min_l by lia. destruct (Nat.ltb_spec i (Z.to_nat pos + length l)) as [B|B].
      + rewrite app_nth1 by (rewrite map_length; lia). rewrite (nth_indep _ None (Some 0)) by (rewrite map_length; lia). rewrite map_nth. auto.
      + rewrite app_nth2 by (rewrite map_length; lia). rewrite map_length. replace (Z.to_nat (pos + Z.of_nat (length l))) with (Z.to_nat pos + length l)%nat by lia.
        assert (X : forall k (b : array Z) j, nth j (skipn k b) None = nth (k + j) b None). { induction k as [|k IH]; intros b j; cbn [skipn Nat.add]; auto. destruct b; cbn [nth]. destruct j; auto. apply IH. } rewrite X. f_equal. lia.
    - rewrite app_nth1 by (rewrite firstn_length; lia). assert (X : forall k (b : array Z) j, (j < k)%nat -> nth j (firstn k b) None = nth j b None). { induction k as [|k IH]; intros b j Hj. lia. destruct b; cbn [firstn]; auto. destruct j; cbn [nth]; auto. apply IH. lia. } apply X. lia. }
  split; auto. split.
  - split; auto. split. lia. intros t Ht. rewrite N by lia. replace ((Z.to_nat pos <=? Z.to_nat pos + t)%nat && (Z.to_nat pos + t <? Z.to_nat pos + length l)%nat) with true by lia. f_equal. f_equal. lia.
  - intros pos' l' (H1 & H2 & H3) D. split; auto. split. lia. intros t Ht. rewrite N by lia. replace ((Z.to_nat pos <=? Z.to_nat pos' + t)%nat && (Z.to_nat pos' + t <? Z.to_nat pos + length l)%nat) with false by lia. auto.
Qed.
Lemma holds_rd : forall a pos l t, holds a pos l -> 0 <= t < Z.of_nat (length l) -> rd a (pos + t) = Ok (nth (Z.to_nat t) l 0).
Proof.
  intros a pos l t (H1 & H2 & H3) Ht. unfold rd. replace (0 <=? pos + t) with true by lia. specialize (H3 (Z.to_nat t) ltac:(lia)). replace (Z.to_nat (pos + t)) with (Z.to_nat pos + Z.to_nat t)%nat by lia.
  destruct (nth_error a (Z.to_nat pos + Z.to_nat t)) eqn:E. rewrite (nth_error_nth _ _ None E) in H3. rewrite H3. auto. apply nth_error_None in E. lia.
Qed.
Lemma holds_block : forall a pos l k t, holds a pos l -> 0 <= t -> t + Z.of_nat k <= Z.of_nat (length l) -> rd_block a (pos + t) k = Ok (firstn k (skipn (Z.to_nat t) l)).
Proof.
  intros a pos l k. induction k as [|k IH]; intros t H Ht Hk; cbn [rd_block]. auto. rewrite (holds_rd a pos l t H) by lia. cbn [bind]. replace (pos + t + 1) with (pos + (t + 1)) by lia. rewrite IH by (auto; lia). cbn [bind].
  replace (Z.to_nat (t + 1)) with (S (Z.to_nat t)) by lia. assert (X : forall (l' : list Z) j, (j < length l')%nat -> skipn j l' = nth j l' 0 :: skipn (S j) l'). { induction l' as [|x l' IH']; intros j Hj; cbn in Hj. lia. destruct j; auto. cbn [skipn nth]. rewrite IH' by lia. auto. } rewrite (X l (Z.to_nat t)) by lia. cbn [firstn]. auto.
Qed.

(** ** Binary search *)
Lemma search_ok : forall a base l key, holds a base l -> StronglySorted Z.lt l -> (forall x, In x l -> 0 <= x < 2 ^ 31) -> 0 <= key < 2 ^ 31 ->
  forall k lo hi, 0 <= lo <= hi -> hi <= Z.of_nat (length l) -> hi - lo <= Z.of_nat k ->
  (forall t, 0 <= t < lo -> nth (Z.to_nat t) l 0 < key) -> (forall t, hi <= t < Z.of_nat (length l) -> key < nth (Z.to_nat t) l 0) ->
  exists r, bsearch_at k key a base lo hi = Ok r /\ match r with Some i => base <= i < base + Z.of_nat (length l) /\ nth (Z.to_nat (i - base)) l 0 = key | None => ~ In key l end.
Proof.
  intros a base l key H SS Hx Hk. assert (MON : forall i j, (i < j < length l)%nat -> nth i l 0 < nth j l 0). { clear -SS. induction SS as [|x l SS IH F]; cbn [length]; intros i j Hij. lia. destruct j as [|j]; [lia|]. destruct i as [|i]; cbn [nth]. rewrite Forall_forall in F. apply F. apply nth_In. lia. apply IH. lia. }
  assert (NONE : forall lo hi, lo >= hi -> (forall t, 0 <= t < lo -> nth (Z.to_nat t) l 0 < key) -> (forall t, hi <= t < Z.of_nat (length l) -> key < nth (Z.to_nat t) l 0) -> ~ In key l).
  { intros lo hi Hlh HL HR Hi. destruct (In_nth _ _ 0 Hi) as (i & Hi' & E). destruct (Z_lt_dec (Z.of_nat i) lo) as [D|D]. specialize (HL (Z.of_nat i) ltac:(lia)). rewrite Nat2Z.id in HL. lia. specialize (HR (Z.of_nat i) ltac:(lia)). rewrite Nat2Z.id in HR. lia. }
  induction k as [|k IH]; intros lo hi H1 H2 H3 HL HR; cbn [bsearch_at].
  - replace (lo <? hi) with false by lia. exists None. split; auto. apply (NONE lo hi); auto. lia.
  - destruct (Z.ltb_spec lo hi) as [D|D]; [|exists None; split; auto; apply (NONE lo hi); auto; lia].
    assert (M : lo <= (lo + hi) / 2 < hi) by (split; [apply Z.div_le_lower_bound; lia|apply Z.div_lt_upper_bound; lia]). set (x := (lo + hi) / 2) in *. rewrite (holds_rd a base l x H) by lia. cbn [bind].
    set (v := nth (Z.to_nat x) l 0). assert (V : 0 <= v < 2 ^ 31) by (apply Hx, nth_In; lia). unfold ck32. replace ((- 2 ^ 31 <=? key - v) && (key - v <? 2 ^ 31)) with true by lia. cbn [bind].
    destruct (Z.ltb_spec (key - v) 0) as [C1|C1]; [|destruct (key - v >? 0) eqn:C2].
    + apply IH; try lia; auto. intros t Ht. destruct (Z.eq_dec t x) as [->|Ne]. fold v. lia. assert (v < nth (Z.to_nat t) l 0) by (apply MON; lia). lia.
    + apply IH; try lia; auto. intros t Ht. destruct (Z.eq_dec t x) as [->|Ne]. fold v. lia. assert (nth (Z.to_nat t) l 0 < v) by (apply MON; lia). lia.
    + exists (Some (base + x)). split; auto. split. lia. replace (base + x - base) with x by lia. fold v. lia.
Qed.
Lemma find_ok : forall a base l key, holds a base l -> StronglySorted Z.lt l -> (forall x, In x l -> 0 <= x < 2 ^ 31) -> 0 <= key < 2 ^ 31 -> exists r, find_gid key a base (Z.of_nat (length l)) = Ok r /\
  match r with Some i => base <= i < base + Z.of_nat (length l) /\ nth (Z.to_nat (i - base)) l 0 = key | None => ~ In key l end.
Proof. intros a base l key H SS Hx Hk. unfold find_gid. rewrite Nat2Z.id. apply search_ok; auto; try lia. Qed.

(** ** Positions *)
Fixpoint psum (size : Z -> Z) (l : list Z) : Z := match l with [] => 0 | x :: t => size x + psum size t end.
Lemma psum_nonneg : forall size l, (forall q, In q l -> 0 <= size q) -> 0 <= psum size l.
Proof. intros size. induction l as [|x l IH]; intros H; cbn. lia. specialize (IH (fun q Hq => H q (or_intror Hq))). specialize (H x (or_introl eq_refl)). lia. Qed.
Definition offs (size : Z -> Z) (l : list Z) (z : Z) : list Z := map (fun j => z + psum size (firstn j l)) (seq 0 (S (length l))).
Lemma offs_S : forall size x l z, offs size (x :: l) z = z :: offs size l (z + size x).
Proof.
  intros. unfold offs. cbn [length]. change (seq 0 (S (S (length l)))) with (0%nat :: seq 1 (S (length l))). rewrite <- (seq_shift (S (length l)) 0). cbn [map]. rewrite map_map. f_equal.
  - cbn [firstn psum]. lia.
  - apply map_ext. intros. cbn [firstn psum]. lia.
Qed.
Lemma positions_ok : forall m k size rp z, (forall q, In q rp -> MESH_Num_Recv_From_Prtn m q k = Ok (size q)) -> positions m k rp z = Ok (offs size rp z).
Proof.
  intros m k size. induction rp as [|p rp IH]; intros z H; cbn [positions]. unfold offs. cbn [length seq map firstn psum]. rewrite Z.add_0_r. auto. rewrite H by (cbn; auto). cbn [bind]. rewrite IH by (intros; apply H; cbn; auto). cbn [bind]. rewrite offs_S. auto.
Qed.
Lemma offs_length : forall size l z, length (offs size l z) = S (length l).
Proof. intros. unfold offs. rewrite map_length, seq_length. auto. Qed.
Lemma offs_nth : forall size l z j, (j <= length l)%nat -> nth j (offs size l z) 0 = z + psum size (firstn j l).
Proof. intros. unfold offs. rewrite (nth_indep _ 0 (z + psum size (firstn 0 l))) by (rewrite map_length, seq_length; lia). rewrite (map_nth (fun j => z + psum size (firstn j l))), seq_nth by lia. auto. Qed.
Lemma offs_last : forall size l z, last (offs size l z) 0 = z + psum size l.
Proof.
  intros size l. induction l as [|x l IH]; intros z. unfold offs. cbn. lia. rewrite offs_S. assert (forall a (b : list Z), b <> [] -> last (a :: b) 0 = last b 0) by (intros a [|y b] Hb; [congruence|auto]). rewrite H. rewrite IH. cbn [psum]. lia. intro E. apply (f_equal (@length Z)) in E. rewrite offs_length in E. discriminate.
Qed.
Lemma psum_split : forall size l j, (j < length l)%nat -> psum size (firstn (S j) l) = psum size (firstn j l) + size (nth j l 0).
Proof. intros size. induction l as [|x l IH]; intros j Hj; cbn in Hj. lia. destruct j. cbn. lia. cbn [firstn psum nth] in *. rewrite IH by lia. lia. Qed.
Lemma psum_mono : forall size l i j, (forall q, In q l -> 0 <= size q) -> (i <= j <= length l)%nat -> psum size (firstn i l) <= psum size (firstn j l).
Proof.
  intros size l i j H Hij. replace j with (i + (j - i))%nat by lia. assert (Hd : (i + (j - i) <= length l)%nat) by lia. revert Hd. generalize (j - i)%nat as d. induction d as [|d IH]; intros Hd. rewrite Nat.add_0_r. lia. rewrite Nat.add_succ_r, psum_split by lia. specialize (IH ltac:(lia)). specialize (H (nth (i + d) l 0) ltac:(apply nth_In; lia)). lia.
Qed.
Lemma psum_total : forall size l, psum size (firstn (length l) l) = psum size l.
Proof. intros. rewrite firstn_all. auto. Qed.

Lemma find_rank_ok : forall i rp k, NoDup rp -> match find_rank rp i k with Some j => exists t, (t < length rp)%nat /\ j = k + Z.of_nat t /\ nth t rp 0 = i | None => ~ In i rp end.
Proof.
  intros i. induction rp as [|p rp IH]; intros k N; cbn [find_rank]. auto. inversion N as [|? ? N1 N2]; subst. destruct (Z.eqb_spec p i) as [->|E]. exists 0%nat. cbn. split. lia. split; auto. lia. specialize (IH (k + 1) N2). destruct (find_rank rp i (k + 1)) as [j|]. destruct IH as (t & H1 & H2 & H3). exists (S t). cbn. split. lia. split; auto. lia. intros [H|H]; auto.
Qed.
Lemma g2l_ok : forall n rp, NoDup rp -> (forall q, In q rp -> on n q) -> exists g, g2l n rp = Ok g /\ forall t, (t < length rp)%nat -> rd g (nth t rp 0) = Ok (Z.of_nat t).
Proof.
  intros n rp N H. unfold g2l.
  assert (X : forall rp (done : list Z) (a : array Z) z, z = Z.of_nat (length done) -> Z.of_nat (length a) = Z.max 0 (n + 1) -> NoDup (done ++ rp) -> (forall q, In q (done ++ rp) -> on n q) ->
    (forall t, (t < length done)%nat -> nth (Z.to_nat (nth t done 0)) a None = Some (Z.of_nat t)) ->
    exists a' z', foldM (fun (s : array Z * Z) p => a <- wr (fst s) p (snd s) ;; Ok (a, snd s + 1)) (a, z) rp = Ok (a', z') /\ length a' = length a /\ forall t, (t < length (done ++ rp))%nat -> nth (Z.to_nat (nth t (done ++ rp) 0)) a' None = Some (Z.of_nat t)).
  { clear. induction rp as [|p rp IH]; intros done a z Hz La N H HD; cbn [foldM].
    - exists a, z. split; auto. split; auto. rewrite app_nil_r. auto.
    - assert (Hp : on n p) by (apply H; rewrite in_app_iff; cbn; auto). cbn [fst snd]. unfold wr. replace ((0 <=? p) && (p <? Z.of_nat (length a))) with true by (unfold on in Hp; lia). cbn [bind fst snd].
      destruct (IH (done ++ [p]) (upd_nth a (Z.to_nat p) (Some z)) (z + 1)) as (a' & z' & E & L & R).
      + rewrite app_length. cbn. lia. + rewrite upd_nth_length. auto. + rewrite <- app_assoc. auto. + rewrite <- app_assoc. auto.
      + intros t Ht. rewrite app_length in Ht. cbn in Ht. destruct (Nat.eq_dec t (length done)) as [->|Ne].
        * rewrite app_nth2, Nat.sub_diag by lia. cbn [nth]. rewrite nth_upd_nth. rewrite Nat.eqb_refl. replace (Z.to_nat p <? length a)%nat with true by (unfold on in Hp; lia). congruence.
        * rewrite app_nth1 by lia. rewrite nth_upd_nth. assert (nth t done 0 <> p). { intro E. apply NoDup_remove_2 in N. apply N. rewrite in_app_iff. left. rewrite <- E. apply nth_In. lia. }
          assert (on n (nth t done 0)) by (apply H; rewrite in_app_iff; left; apply nth_In; lia). destruct (Nat.eqb_spec (Z.to_nat (nth t done 0)) (Z.to_nat p)). unfold on in *. lia. apply HD. lia.
      + exists a', z'. split; [exact E|]. rewrite upd_nth_length in L. split; auto. rewrite <- app_assoc in R. auto. }
  destruct (X rp [] (malloc (n + 1)) 0) as (a' & z' & E & L & R); auto. unfold malloc. rewrite repeat_length. lia. cbn. lia. rewrite E. cbn [bind fst]. exists a'. split; auto. intros t Ht. cbn [app] in R. specialize (R t Ht). unfold rd. assert (Hq : on n (nth t rp 0)) by (apply H, nth_In; auto). replace (0 <=? nth t rp 0) with true by (unfold on in Hq; lia).
  destruct (nth_error a' (Z.to_nat (nth t rp 0))) eqn:E'. rewrite (nth_error_nth _ _ None E') in R. rewrite R. auto. apply nth_error_None in E'. rewrite nth_overflow in R by auto. discriminate.
Qed.
