(** Lemmas about histories: one list, several lists, walks. *)
From Coq Require Import ZArith List Lia Bool Arith ZifyBool ZifyNat.
From Verif Require Import Base BaseProofs ListModel ListSpec ListHist ListProofs ListProofs2.
Import ListNotations.
Open Scope Z_scope.

Lemma mrun_app : forall a b l l1 r1, mrun l a = Ok (l1, r1) ->
  mrun l (a ++ b) = ('(l2, r2) <- mrun l1 b ;; Ok (l2, r1 ++ r2)).
Proof.
  induction a; simpl; intros.
  - inversion H. subst. destruct (mrun l1 b) as [[? ?]| | |]; auto.
  - destruct (mstep l a) as [[l2 r2]| | |]; simpl in *; try discriminate.
    destruct (mrun l2 a0) as [[l3 r3]| | |] eqn:E; simpl in *; try discriminate.
    inversion H. subst. rewrite (IHa b _ _ _ E). destruct (mrun l1 b) as [[? ?]| | |]; auto.
Qed.

Lemma reachable_rep : forall l s, reachable l s -> exists raw, rep l raw /\ valid raw = s.
Proof.
  intros l s [n [ops [l0 [outs [Hn [HN [Ha [HL [Hr Hs]]]]]]]]].
  destruct (New_rep n Hn) as [l1 [E R]]. rewrite HN in E. inversion E. subst l1.
  destruct (mrun_rep ops l0 [] R) as [l' [raw' [E' [R' [V _]]]]]; auto.
  rewrite Hr in E'. inversion E'. subst. exists raw'. split; auto.
Qed.

Lemma reachable_rep_len : forall l s, reachable l s -> exists raw, rep l raw /\ valid raw = s /\ List_Size_Raw l = Z.of_nat (length raw).
Proof.
  intros. destruct (reachable_rep _ _ H) as [raw [R V]]. exists raw. split; auto. split; auto. apply size_rep; auto.
Qed.

Lemma rep_behaves : forall l raw, rep l raw -> behaves l (valid raw) (2 ^ 27 - 1 - List_Size_Raw l).
Proof.
  intros l raw R ops Ha HL. rewrite (size_rep l raw) in HL by auto.
  destruct (mrun_rep ops l raw R Ha) as [l' [raw' [E _]]]; [lia|]. eauto.
Qed.

Lemma query_wrep : forall l raw o, wrep l raw -> is_query o = true -> lpre (valid raw) o ->
  mstep l o = Ok (l, snd (lstep (valid raw) o)).
Proof.
  intros l raw o R Q P. destruct o; try discriminate; cbn [mstep lstep snd lpre] in *.
  - rewrite (num_rep l raw); auto.
  - rewrite (Entry_rep l raw); auto.
  - rewrite (Contains_rep l raw); auto.
  - rewrite (Locate_rep l raw); auto.
  - rewrite (Walk_rep l raw); auto.
Qed.

Lemma gaps_sizes : forall l raw, wrep l raw -> (List_Size_Raw l = List_Num_Entries l <-> gaps raw = 0).
Proof.
  intros. rewrite (size_rep l raw), (num_rep l raw) by auto. unfold gaps. lia.
Qed.

(** ** Raw removal *)
Lemma Remi_Raw_rep : forall l raw j, rep l raw -> (j < length raw)%nat ->
  List_Entry_Raw l (Z.of_nat j) = Ok (nth j raw 0) /\
  exists l' raw', List_Remi_Raw l (Z.of_nat j) = Ok (l', 1) /\ rep l' raw' /\ length raw' = length raw /\
    valid raw' = if nth j raw 0 =? 0 then valid raw else delete_at (length (valid (firstn j raw))) (valid raw).
Proof.
  intros l raw j R Hj. unfold List_Entry_Raw, List_Remi_Raw. rewrite (size_rep l raw) by auto.
  replace (Z.of_nat j >=? Z.of_nat (length raw)) with false by lia.
  rewrite (rd_rep l raw) by (auto; lia). rewrite Nat2Z.id. split; auto. cbn [bind]. unfold NULL.
  destruct (nth j raw 0 =? 0) eqn:E; simpl.
  - exists l, raw. repeat split; auto.
  - destruct (blank_rep l raw j) as [l' [B R']]; auto; try lia. rewrite B. simpl.
    exists l', (upd_nth raw j 0). repeat split; auto.
    + apply upd_nth_length.
    + rewrite valid_upd0 by auto. rewrite (valid_self raw j) by (auto; lia). unfold delete_at.
      rewrite firstn_app, Nat.sub_diag, firstn_O, app_nil_r.
      rewrite firstn_all. f_equal.
      rewrite skipn_app. rewrite (skipn_all2 (valid (firstn j raw))) by auto.
      replace (S (length (valid (firstn j raw))) - length (valid (firstn j raw)))%nat with 1%nat by lia. reflexivity.
Qed.

(** ** Several lists *)
Definition srep (st : list LList) (sa : list (list Z)) : Prop :=
  Forall2 (fun l s => exists raw, rep l raw /\ valid raw = s) st sa.

Lemma srep_nth : forall st sa i l, srep st sa -> nth_error st i = Some l ->
  exists raw, rep l raw /\ valid raw = nth i sa [].
Proof.
  intros st sa i l H. revert i l. induction H; intros i l0 E; destruct i; simpl in *; try discriminate; eauto.
  inversion E. subst. auto.
Qed.

Lemma srep_upd : forall st sa i l raw, srep st sa -> rep l raw -> srep (upd_nth st i l) (upd_nth sa i (valid raw)).
Proof.
  intros st sa i l raw H R. revert i. induction H; intros i; destruct i; simpl; constructor; eauto; apply IHForall2.
Qed.

Lemma srun_rep : forall ops st sa, srep st sa -> sallowed true st sa ops ->
  exists st', srun st ops = Ok (st', snd (arun sa ops)) /\ srep st' (fst (arun sa ops)).
Proof.
  induction ops as [|o ops IH]; intros st sa R Ha.
  - exists st. simpl. auto.
  - destruct Ha as [Hp Ha].
    assert (exists st1, sstep st o = Ok (st1, snd (aspec sa o)) /\ srep st1 (fst (aspec sa o))) as [st1 [E1 R1]].
    { destruct o; cbn [sstep aspec spre] in *.
      - destruct (New_rep n Hp) as [l [E R']]. rewrite E. simpl. eexists. split; [reflexivity|].
        apply Forall2_app; auto. constructor; auto. eauto.
      - destruct Hp as [l [E [P L]]]. rewrite E. destruct (srep_nth _ _ _ _ R E) as [raw [Rl V]].
        rewrite <- V in P. rewrite (size_rep l raw) in L by auto.
        destruct (mstep_rep l raw o Rl P L) as [l' [raw' [E' [R' [V' _]]]]].
        rewrite E'. simpl. rewrite V in *. destruct (lstep (nth i sa []) o) as [s' r]. simpl in *. subst s'.
        eexists. split; [reflexivity|]. apply srep_upd; auto.
      - destruct Hp as [ld [ls [E1 [E2 [ND [L S]]]]]]. rewrite E1, E2.
        destruct (srep_nth _ _ _ _ R E1) as [rawd [Rd Vd]]. destruct (srep_nth _ _ _ _ R E2) as [raws [Rs Vs]].
        specialize (S eq_refl).
        rewrite (size_rep ld rawd), (size_rep ls raws) in L by auto.
        destruct (Cat_rep _ _ _ _ Rd Rs L) as [d' [E [_ R']]]. rewrite E. simpl.
        eexists. split; [reflexivity|]. rewrite <- Vd, <- Vs, <- valid_app. apply srep_upd; auto. apply R'.
        pose proof (gaps_sizes ls raws (rep_wrep _ _ Rs)) as G1. pose proof (gaps_sizes ld rawd (rep_wrep _ _ Rd)) as G2.
        destruct S; [right; tauto|left]. tauto. }
    rewrite E1 in Ha. destruct (IH st1 _ R1 Ha) as [st2 [E2 R2]].
    cbn [srun arun]. rewrite E1. cbn [bind]. rewrite E2. cbn [bind].
    destruct (aspec sa o) as [sa1 r1]. simpl in *. destruct (arun sa1 ops) as [sa2 rs]. simpl in *. eauto.
Qed.

(** ** Walks *)

Lemma firstn_upd_ge : forall A (l : list A) n m x, (m <= n)%nat -> firstn m (upd_nth l n x) = firstn m l.
Proof. induction l; destruct n, m; simpl; intros; auto; try lia. f_equal. apply IHl. lia. Qed.
Lemma firstn_upd_lt : forall A (l : list A) n m x, (n < m)%nat -> firstn m (upd_nth l n x) = upd_nth (firstn m l) n x.
Proof. induction l; destruct n, m; simpl; intros; auto; try lia. f_equal. apply IHl. lia. Qed.
Lemma skipn_upd_ge : forall A (l : list A) n m x, (m <= n)%nat -> skipn m (upd_nth l n x) = upd_nth (skipn m l) (n - m) x.
Proof. induction l; destruct n, m; simpl; intros; auto; try lia. apply IHl. lia. Qed.
Lemma skipn_upd_lt : forall A (l : list A) n m x, (n < m)%nat -> skipn m (upd_nth l n x) = skipn m l.
Proof. induction l; destruct n, m; simpl; intros; auto; try lia. apply IHl. lia. Qed.

Lemma firstn_plus : forall A (l : list A) a b, firstn (a + b) l = firstn a l ++ firstn b (skipn a l).
Proof. induction l; intros m b; destruct m; simpl; auto. destruct b; auto. f_equal. auto. Qed.

Definition wr_rep (st : LList * Z) (vp : list Z * list Z) (k : nat) : Prop :=
  exists raw idx, rep (fst st) raw /\ snd st = Z.of_nat idx /\ (idx <= length raw)%nat /\
    valid (firstn idx raw) = fst vp /\ valid (skipn idx raw) = snd vp /\ (length raw <= k)%nat.

Lemma pos_app : forall a b e, pos (a ++ b) e =
  match pos a e with Some k => Some k | None => match pos b e with Some k => Some (length a + k)%nat | None => None end end.
Proof.
  induction a; intros b e; simpl.
  - destruct (pos b e); auto.
  - destruct (a =? e); auto. rewrite IHa. destruct (pos a0 e); auto. destruct (pos b e); auto.
Qed.

Lemma vpos_app : forall a b i, vpos (a ++ b) i =
  if (i <? length (valid a))%nat then vpos a i
  else match vpos b (i - length (valid a)) with Some k => Some (length a + k)%nat | None => None end.
Proof.
  induction a; intros b i.
  - simpl. rewrite Nat.sub_0_r. destruct (vpos b i); auto.
  - simpl. unfold isv. destruct (a =? 0) eqn:E; simpl.
    + rewrite IHa. unfold valid. destruct (i <? length (filter isv a0))%nat; auto.
      destruct (vpos b _); auto.
    + destruct i; simpl; auto. rewrite IHa. unfold valid.
      change (S i <? S (length (filter isv a0)))%nat with (i <? length (filter isv a0))%nat.
      destruct (i <? length (filter isv a0))%nat; auto. destruct (vpos b _); auto.
Qed.

Lemma Rem_pos : forall l raw e, rep l raw -> e <> 0 ->
  exists l', List_Rem l e = Ok (l', match pos raw e with Some _ => 1 | None => 0 end) /\
    rep l' (match pos raw e with Some k => upd_nth raw k 0 | None => raw end).
Proof.
  intros l raw e R He. unfold List_Rem. rewrite (find_eq_rep _ _ _ (rep_wrep _ _ R)). cbn [bind].
  destruct (pos raw e) as [k|] eqn:E; simpl; eauto.
  destruct (pos_nth _ _ _ E) as [E1 E2].
  destruct (blank_rep l raw k) as [l' [B R']]; auto; try lia. rewrite B. simpl. eauto.
Qed.

Lemma Remi_pos : forall l raw i, rep l raw ->
  exists l' r, List_Remi l (Z.of_nat i) = Ok (l', r) /\
    rep l' (match vpos raw i with Some k => upd_nth raw k 0 | None => raw end).
Proof.
  intros l raw i R. pose proof R as R0. destruct R as [p [r1 H]]. unfold List_Remi. rewrite (pars_rep _ _ _ _ _ H ltac:(lia)). simpl.
  destruct (Z.of_nat i >=? Z.of_nat (length (valid raw))) eqn:E.
  - rewrite vpos_none by lia. eauto.
  - destruct (rp_tail _ _ _ _ _ H) as [t Et].
    destruct (locate_ith_rep _ l l raw p r1 (Z.of_nat i) (entry l) t H ltac:(lia)) as [j [A B]]; auto; try lia.
    rewrite B. simpl. rewrite Z.eqb_refl. simpl. rewrite Nat2Z.id in A. rewrite A.
    destruct (vpos_split _ _ _ A) as [C1 [C2 _]].
    destruct (blank_rep l raw j) as [l' [BB R']]; auto. rewrite BB. simpl. eauto.
Qed.

Lemma pos_upd_valid : forall raw e, e <> 0 ->
  valid (match pos raw e with Some k => upd_nth raw k 0 | None => raw end) = remove1 e (valid raw).
Proof.
  intros raw e He. destruct (pos raw e) as [k|] eqn:E.
  - destruct (pos_nth _ _ _ E) as [E1 E2].
    rewrite valid_upd0 by auto. rewrite (valid_self raw k) by (auto; lia). rewrite E1.
    rewrite remove1_app; auto. rewrite valid_In. intros [A _]. destruct (pos_split _ _ _ E) as [_ [C _]]. auto.
  - symmetry. apply remove1_notin. rewrite valid_In. intros [A _]. apply pos_none in E. auto.
Qed.

Lemma vpos_upd_valid : forall raw i,
  valid (match vpos raw i with Some k => upd_nth raw k 0 | None => raw end) = delete_at i (valid raw).
Proof.
  intros raw i. destruct (vpos raw i) as [k|] eqn:E.
  - destruct (vpos_split _ _ _ E) as [C1 [C2 _]]. destruct (vpos_valid _ _ _ E) as [_ [D1 [D2 _]]].
    rewrite valid_upd0 by auto. unfold delete_at. congruence.
  - assert (length (valid raw) <= i)%nat.
    { destruct (Nat.le_gt_cases (length (valid raw)) i); auto. destruct (vpos_some raw i H). congruence. }
    unfold delete_at. rewrite firstn_all2, skipn_all2, app_nil_r by lia. auto.
Qed.

Lemma split_raw : forall (raw : list Z) idx, (idx <= length raw)%nat ->
  raw = firstn idx raw ++ skipn idx raw /\ length (firstn idx raw) = idx.
Proof. intros. rewrite firstn_skipn, firstn_length. split; auto. lia. Qed.

Lemma wstep_rep : forall st vp k o, wr_rep st vp k -> wop_ok o -> Z.of_nat k + 1 < 2 ^ 27 ->
  exists st', wstep st o = Ok (st', snd (vstep vp o)) /\ wr_rep st' (fst (vstep vp o)) (S k).
Proof.
  intros [l idx0] [v p] k o [raw [idx [R [E [Hi [V [P HK]]]]]]] Ho HL. simpl in *. subst idx0.
  destruct (split_raw raw idx Hi) as [SR SL].
  assert (VV : valid raw = v ++ p) by (rewrite SR, valid_app; congruence).
  destruct o; cbn [wstep vstep wop_ok] in *.
  - rewrite (Next_rep l raw) by auto. pose proof (vpos0_valid (skipn idx raw)) as W.
    destruct (vpos (skipn idx raw) 0) as [j|] eqn:EV; simpl.
    + destruct W as [W1 [W2 W3]]. rewrite nth_skipn_z, skipn_skipn_z in W1. rewrite nth_skipn_z in W2.
      rewrite skipn_length in W3. rewrite <- P, W1. simpl.
      eexists. split; [reflexivity|]. exists raw, (S (idx + j)). cbn [fst snd]. repeat split; auto; try lia.
      * destruct (vpos_valid _ _ _ EV) as [_ [D1 _]]. simpl in D1.
        rewrite <- V. replace (S (idx + j)) with (idx + S j)%nat by lia.
        rewrite firstn_plus, valid_app. f_equal.
        rewrite firstn_S by (rewrite skipn_length; lia). rewrite valid_app, D1. rewrite nth_skipn_z.
        simpl. rewrite isv_true; auto.
      * rewrite Nat.add_succ_r. auto.
    + rewrite <- P, W. simpl. eexists. split; [reflexivity|]. exists raw, idx. simpl. repeat split; auto; lia.
  - destruct (Add_rep l raw x R Ho ltac:(lia)) as [l' [EA R']]. rewrite EA. simpl.
    eexists. split; [reflexivity|]. exists (raw ++ [x]), idx. simpl. repeat split; auto; try (rewrite ?app_length; simpl; lia).
    + rewrite firstn_app. replace (idx - length raw)%nat with 0%nat by lia. simpl. rewrite app_nil_r. auto.
    + rewrite skipn_app. replace (idx - length raw)%nat with 0%nat by lia. simpl.
      rewrite valid_app. simpl. rewrite isv_true by auto. congruence.
  - destruct (ChknAdd_rep l raw x R Ho ltac:(lia)) as [l' [EA R']]. rewrite EA. simpl. rewrite <- VV.
    eexists. split; [reflexivity|]. destruct (ListSpec.mem x (valid raw)).
    + exists raw, idx. simpl. repeat split; auto; lia.
    + exists (raw ++ [x]), idx. simpl. repeat split; auto; try (rewrite ?app_length; simpl; lia).
      * rewrite firstn_app. replace (idx - length raw)%nat with 0%nat by lia. simpl. rewrite app_nil_r. auto.
      * rewrite skipn_app. replace (idx - length raw)%nat with 0%nat by lia. simpl.
        rewrite valid_app. simpl. rewrite isv_true by auto. congruence.
  - destruct (Rem_pos l raw x R Ho) as [l' [EA R']]. rewrite EA. simpl.
    pose proof (pos_upd_valid (firstn idx raw) x Ho) as A1. pose proof (pos_upd_valid (skipn idx raw) x Ho) as A2.
    pose proof (mem_pos (firstn idx raw) x Ho) as M. rewrite V in M. rewrite M.
    rewrite SR in R' at 1. rewrite pos_app, SL in R'.
    destruct (pos (firstn idx raw) x) as [j|] eqn:EJ.
    + simpl. eexists. split; [reflexivity|]. exists (upd_nth raw j 0), idx. simpl.
      destruct (pos_nth _ _ _ EJ) as [J1 J2]. rewrite SL in J2.
      rewrite upd_nth_length. repeat split; auto; try lia.
      * rewrite firstn_upd_lt by lia. congruence.
      * rewrite skipn_upd_lt by lia. auto.
    + destruct (pos (skipn idx raw) x) as [j|] eqn:EJ2.
      * simpl. eexists. split; [reflexivity|]. exists (upd_nth raw (idx + j) 0), idx. simpl.
        rewrite upd_nth_length. repeat split; auto; try lia.
        { rewrite firstn_upd_ge by lia. auto. }
        { rewrite skipn_upd_ge by lia. replace (idx + j - idx)%nat with j by lia. congruence. }
      * simpl. eexists. split; [reflexivity|]. exists raw, idx. simpl. repeat split; auto; try lia. congruence.
  - destruct (Remi_pos l raw i R) as [l' [r [EA R']]]. rewrite EA. simpl.
    pose proof (vpos_upd_valid (firstn idx raw) i) as A1. pose proof (vpos_upd_valid (skipn idx raw) (i - length v)) as A2.
    rewrite SR in R' at 1. rewrite vpos_app, SL, V in R'.
    destruct (i <? length v)%nat eqn:EI.
    + simpl. eexists. split; [reflexivity|]. rewrite V in A1.
      destruct (vpos_some (firstn idx raw) i) as [j EJ]; [rewrite V; lia|]. rewrite EJ in *.
      destruct (vpos_split _ _ _ EJ) as [J2 _]. rewrite SL in J2.
      exists (upd_nth raw j 0), idx. simpl.
      rewrite upd_nth_length. repeat split; auto; try lia.
      * rewrite firstn_upd_lt by lia. congruence.
      * rewrite skipn_upd_lt by lia. auto.
    + destruct (vpos (skipn idx raw) (i - length v)) as [j|] eqn:EJ2.
      * simpl. eexists. split; [reflexivity|]. exists (upd_nth raw (idx + j) 0), idx. simpl.
        rewrite upd_nth_length. repeat split; auto; try lia.
        { rewrite firstn_upd_ge by lia. auto. }
        { rewrite skipn_upd_ge by lia. replace (idx + j - idx)%nat with j by lia. congruence. }
      * simpl. eexists. split; [reflexivity|]. exists raw, idx. simpl. repeat split; auto; try lia. congruence.
Qed.

Lemma wrun_rep : forall ops st vp k, wr_rep st vp k -> Forall wop_ok ops -> Z.of_nat k + Z.of_nat (length ops) < 2 ^ 27 ->
  exists st', wrun st ops = Ok (st', snd (vrun vp ops)) /\ wr_rep st' (fst (vrun vp ops)) (k + length ops).
Proof.
  induction ops as [|o ops IH]; intros st vp k R Ho HL.
  - exists st. simpl. rewrite Nat.add_0_r. auto.
  - inversion Ho. subst. simpl length in *.
    destruct (wstep_rep st vp k o R H1) as [st1 [E1 R1]]; [lia|].
    destruct (IH st1 _ _ R1 H2) as [st2 [E2 R2]]; [lia|].
    cbn [wrun vrun]. rewrite E1. cbn [bind]. rewrite E2. cbn [bind].
    destruct (vstep vp o) as [vp1 r1]. simpl in *. destruct (vrun vp1 ops) as [vp2 rs]. simpl in *.
    exists st2. split; auto. rewrite Nat.add_succ_r. auto.
Qed.

(** The abstract walk: what has been passed is a subsequence of what was
    returned, which together with the rest is a subsequence of start ++ added. *)
Lemma subseq_refl : forall a, subseq a a.
Proof. induction a; [apply ss_nil|apply ss_take; auto]. Qed.
Lemma subseq_nil_l : forall a, subseq [] a.
Proof. induction a; constructor; auto. Qed.
Lemma subseq_app : forall a b c d, subseq a b -> subseq c d -> subseq (a ++ c) (b ++ d).
Proof. intros a b c d H. induction H; simpl; auto; intros; [apply ss_skip|apply ss_take]; auto. Qed.
Lemma subseq_trans : forall b c, subseq b c -> forall a, subseq a b -> subseq a c.
Proof.
  intros b c H. induction H; intros a' Ha; auto.
  - apply ss_skip; auto.
  - inversion Ha; subst; [apply ss_skip|apply ss_take]; auto.
Qed.
Lemma subseq_remove1 : forall x s, subseq (remove1 x s) s.
Proof. induction s; simpl; [constructor|]. destruct (a =? x); [apply ss_skip, subseq_refl|apply ss_take; auto]. Qed.
Lemma subseq_delete : forall i s, subseq (delete_at i s) s.
Proof.
  intros. rewrite <- (firstn_skipn i s) at 2. unfold delete_at. apply subseq_app; [apply subseq_refl|].
  revert i. induction s as [|y s IHs]; intros i; destruct i; simpl; try apply ss_nil; [apply ss_skip, subseq_refl|apply IHs].
Qed.

Lemma remove1_In : forall x y s, In y (remove1 x s) -> In y s.
Proof. induction s; simpl; auto. destruct (a =? x); simpl; intros; tauto. Qed.
Lemma subseq_In : forall a b, subseq a b -> forall x, In x a -> In x b.
Proof. intros a b H. induction H; simpl; intros; auto. destruct H0; auto. Qed.

Lemma vstep_subseq : forall o v p r v1 p1 r1, ~ In 0 p -> wop_ok o -> subseq v r ->
  vstep (v, p) o = (v1, p1, r1) ->
  subseq v1 (r ++ filter isv r1) /\ subseq (filter isv r1 ++ p1) (p ++ added [o]) /\ ~ In 0 p1.
Proof.
  intros o v p r v1 p1 r1 Hp Ho H E. destruct o; simpl in E, Ho; cbn [added].
  - destruct p as [|y p]; inversion E; subst; simpl.
    + rewrite app_nil_r. repeat split; auto. constructor.
    + assert (y <> 0) by (intro; apply Hp; left; auto). rewrite isv_true by auto. rewrite app_nil_r.
      repeat split.
      * apply subseq_app; auto. apply subseq_refl.
      * apply subseq_refl.
      * intro X. apply Hp. right; auto.
  - inversion E; subst. simpl. rewrite app_nil_r. repeat split; auto. apply subseq_refl.
    intro X. apply in_app_or in X. destruct X as [X|[X|[]]]; auto.
  - inversion E; subst. simpl. rewrite app_nil_r.
    destruct (mem x (v1 ++ p)); repeat split; auto.
    + rewrite <- (app_nil_r p) at 1. apply subseq_app; [apply subseq_refl|apply subseq_nil_l].
    + apply subseq_refl.
    + intro X. apply in_app_or in X. destruct X as [X|[X|[]]]; auto.
  - destruct (mem x v); inversion E; subst; simpl; rewrite !app_nil_r; repeat split; auto.
    + eapply subseq_trans; eauto. apply subseq_remove1.
    + apply subseq_refl.
    + apply subseq_remove1.
    + intro X. apply Hp. eapply remove1_In; eauto.
  - destruct (i <? length v)%nat; inversion E; subst; simpl; rewrite !app_nil_r; repeat split; auto.
    + eapply subseq_trans; eauto. apply subseq_delete.
    + apply subseq_refl.
    + apply subseq_delete.
    + intro X. apply Hp. eapply subseq_In; [apply subseq_delete|eauto].
Qed.

Lemma added_cons : forall o ops, added (o :: ops) = added [o] ++ added ops.
Proof. destruct o; reflexivity. Qed.

Lemma vrun_subseq : forall ops v p r v' p' out, ~ In 0 p -> Forall wop_ok ops -> subseq v r ->
  vrun (v, p) ops = (v', p', out) ->
  subseq v' (r ++ filter isv out) /\ subseq (filter isv out ++ p') (p ++ added ops) /\ ~ In 0 p'.
Proof.
  induction ops as [|o ops IH]; intros v p r v' p' out Hp Ho H E.
  - simpl in E. inversion E. subst. simpl. rewrite !app_nil_r. repeat split; auto. apply subseq_refl.
  - inversion Ho. subst. cbn [vrun] in E. destruct (vstep (v, p) o) as [[v1 p1] r1] eqn:E1.
    destruct (vrun (v1, p1) ops) as [[v2 p2] rs] eqn:E2. inversion E. subst. clear E.
    destruct (vstep_subseq _ _ _ _ _ _ _ Hp H2 H E1) as [A [B C]].
    destruct (IH _ _ (r ++ filter isv r1) _ _ _ C H3 A E2) as [A' [B' C']].
    rewrite filter_app. split; [rewrite app_assoc; auto|]. split; auto.
    rewrite added_cons, <- app_assoc.
    eapply subseq_trans with (b := filter isv r1 ++ p1 ++ added ops).
    + rewrite !app_assoc. apply subseq_app; auto. apply subseq_refl.
    + apply subseq_app; auto. apply subseq_refl.
Qed.

(** ** Statements used in ListProps.v *)

Lemma New_behaves : forall n, n < 2 ^ 30 -> exists l0, List_New n = Ok l0 /\ behaves l0 [] (2 ^ 27 - 1).
Proof.
  intros n Hn. destruct (New_rep n Hn) as [l [E R]]. exists l. split; auto.
  pose proof (rep_behaves l [] R) as B. rewrite (size_rep l []) in B by auto.
  replace (2 ^ 27 - 1) with (2 ^ 27 - 1 - Z.of_nat (length (@nil Z))) by (simpl length; lia). exact B.
Qed.

(** The number of non-NULL raw entries before raw position j. *)
Definition raw_before (l : LList) (j : nat) : nat :=
  length (filter (fun i => match List_Entry_Raw l (Z.of_nat i) with Ok y => negb (y =? 0) | _ => false end) (seq 0 j)).

Lemma raw_before_rep : forall l raw j, rep l raw -> (j <= length raw)%nat -> raw_before l j = length (valid (firstn j raw)).
Proof.
  intros l raw j R. unfold raw_before. induction j; intros Hj; auto.
  rewrite seq_S, filter_app, app_length, IHj by lia. rewrite firstn_S by lia. rewrite valid_app, app_length. f_equal.
  simpl. destruct (Remi_Raw_rep l raw j R ltac:(lia)) as [E _]. rewrite E. unfold isv. destruct (nth j raw 0 =? 0); auto.
Qed.

Lemma Remi_Raw_spec : forall l s j, reachable l s -> Z.of_nat j < List_Size_Raw l ->
  exists x l', List_Entry_Raw l (Z.of_nat j) = Ok x /\ List_Remi_Raw l (Z.of_nat j) = Ok (l', 1) /\
    List_Size_Raw l' = List_Size_Raw l /\
    (x = 0 -> behaves l' s (2 ^ 27 - 1 - List_Size_Raw l')) /\
    (x <> 0 -> nth_error s (raw_before l j) = Some x /\
               behaves l' (delete_at (raw_before l j) s) (2 ^ 27 - 1 - List_Size_Raw l')).
Proof.
  intros l s j H Hj. destruct (reachable_rep_len l s H) as [raw [R [V L]]]. rewrite L in Hj.
  assert (Hj' : (j < length raw)%nat) by lia.
  destruct (Remi_Raw_rep l raw j R Hj') as [E [l' [raw' [E' [R' [L' V']]]]]].
  exists (nth j raw 0), l'. repeat split; auto.
  - rewrite (size_rep l' raw'), L by auto. lia.
  - intros X. rewrite X in V'. simpl in V'. rewrite <- V, <- V'. apply rep_behaves; auto.
  - intros. rewrite (raw_before_rep l raw) by (auto; lia). rewrite <- V.
    rewrite (valid_self raw j) by auto. rewrite nth_error_app2 by lia. rewrite Nat.sub_diag. auto.
  - rewrite (raw_before_rep l raw) by (auto; lia). destruct (nth j raw 0 =? 0) eqn:X; [lia|].
    rewrite <- V, <- V'. apply rep_behaves; auto.
Qed.

Lemma Cat_spec : forall d sd s ss, reachable d sd -> reachable s ss ->
  List_Size_Raw d + List_Size_Raw s < 2 ^ 27 ->
  exists d', List_Cat d s = Ok d' /\ List_Size_Raw d' = List_Size_Raw d + List_Size_Raw s /\
    (forall o, is_query o = true -> lpre (sd ++ ss) o -> mstep d' o = Ok (d', snd (lstep (sd ++ ss) o))) /\
    (List_Size_Raw s = List_Num_Entries s \/ List_Size_Raw d <> List_Num_Entries d ->
     behaves d' (sd ++ ss) (2 ^ 27 - 1 - List_Size_Raw d')).
Proof.
  intros d sd s ss Hd Hs HL.
  destruct (reachable_rep_len _ _ Hd) as [rawd [Rd [Vd Ld]]]. destruct (reachable_rep_len _ _ Hs) as [raws [Rs [Vs Ls]]].
  rewrite Ld, Ls in HL. destruct (Cat_rep _ _ _ _ Rd Rs HL) as [d' [E [W R]]].
  exists d'. split; auto. split; [|split].
  - rewrite (size_rep d' _ W), app_length, Ld, Ls. lia.
  - intros. rewrite <- Vd, <- Vs, <- valid_app. apply query_wrep; auto. rewrite valid_app. congruence.
  - intros C. rewrite <- Vd, <- Vs, <- valid_app. apply rep_behaves. apply R.
    pose proof (gaps_sizes s raws (rep_wrep _ _ Rs)) as G1. pose proof (gaps_sizes d rawd (rep_wrep _ _ Rd)) as G2. tauto.
Qed.

(** List_Insert: what it does. *)
Fixpoint insert_before_diff (x b : Z) (s : list Z) : list Z :=
  match s with
  | [] => []
  | y :: t => if y =? b then y :: insert_before_diff x b t else x :: y :: t
  end.

Lemma find_diff : forall raw b k, match find (fun j => negb (nth (j - k) raw 0 =? b)) (seq k (length raw)) with
  | Some j => (k <= j < k + length raw)%nat /\ insert_before_diff 1 b raw = insert_at (j - k) 1 raw /\
      forall x, insert_before_diff x b raw = insert_at (j - k) x raw
  | None => forall x, insert_before_diff x b raw = raw end.
Proof.
  induction raw as [|y raw IH]; intros b k; simpl; auto.
  rewrite Nat.sub_diag. destruct (y =? b) eqn:E; simpl.
  - specialize (IH b (S k)).
    assert (EF : find (fun j => negb (match (j - k)%nat with O => y | S m => nth m raw 0 end =? b)) (seq (S k) (length raw))
               = find (fun j => negb (nth (j - S k) raw 0 =? b)) (seq (S k) (length raw))).
    { assert (G : forall n q, (S k <= q)%nat -> find (fun j => negb (match (j - k)%nat with O => y | S m => nth m raw 0 end =? b)) (seq q n)
               = find (fun j => negb (nth (j - S k) raw 0 =? b)) (seq q n)).
      { induction n; intros q Hq; simpl; auto. replace (q - k)%nat with (S (q - S k)) by lia.
        destruct (negb (nth (q - S k) raw 0 =? b)); auto. }
      apply G. auto. }
    rewrite EF. destruct (find _ _) as [j|].
    + destruct IH as [A [B C]]. replace (j - k)%nat with (S (j - S k)) by lia.
      split; [lia|]. split; [|intro x]; rewrite C; reflexivity.
    + intro x. f_equal. auto.
  - rewrite Nat.sub_diag. split; [lia|]. split; auto.
Qed.

Lemma Insert_rep : forall l raw nu b, rep l raw -> nu <> 0 -> Z.of_nat (length raw) + 1 < 2 ^ 27 ->
  exists l', List_Insert l nu b = Ok l' /\
    rep l' (if b =? 0 then raw ++ [nu] else insert_before_diff nu b raw).
Proof.
  intros l raw nu b R Hn HL. pose proof R as R0. destruct R as [p [r1 H]]. unfold List_Insert.
  rewrite (pars_rep _ _ _ _ _ H ltac:(lia)). cbn [nent nrem lp rem1]. rewrite gaps_sum. unfold NULL.
  destruct (b =? 0) eqn:EB.
  - destruct (Add_tail_rep _ _ _ _ _ H Hn HL) as [p' [a [a' [G [W RR]]]]].
    rewrite G. cbn [bind]. rewrite W. cbn [bind]. eexists. split; [reflexivity|]. exact RR.
  - destruct (grow_rep _ _ _ _ H HL) as [p' [a [t [tail [G [P1 [P2 [P3 P4]]]]]]]].
    rewrite G. cbn [bind]. rewrite Nat2Z.id. change 0 with (Z.of_nat 0) at 1.
    replace (insert_loop (length raw) a (Z.of_nat 0) b) with (insert_loop (length raw) (map Some raw ++ t :: tail) (Z.of_nat 0) b) by (f_equal; auto).
    rewrite insert_loop_spec by lia. cbn [bind].
    pose proof (find_diff raw b 0) as F.
    assert (EF : find (fun j => negb (nth j raw 0 =? b)) (seq 0 (length raw)) = find (fun j => negb (nth (j - 0) raw 0 =? b)) (seq 0 (length raw))).
    { assert (GG : forall s, find (fun j => negb (nth j raw 0 =? b)) s = find (fun j => negb (nth (j - 0) raw 0 =? b)) s).
      { induction s; simpl; auto. rewrite Nat.sub_0_r. destruct (negb (nth a0 raw 0 =? b)); auto. }
      apply GG. }
    rewrite EF. destruct (find _ _) as [j|].
    + destruct F as [A [_ C]]. rewrite Nat.sub_0_r in C. rewrite C.
      replace (Z.of_nat j =? Z.of_nat (length raw)) with false by lia.
      destruct (ins_core _ _ _ _ _ j H Hn HL ltac:(lia) _ _ G) as [a1 [a2 [M [W RR]]]].
      rewrite M. cbn [bind]. rewrite W. cbn [bind]. eexists. split; [reflexivity|]. apply RR.
    + rewrite Z.eqb_refl. eexists. split; [reflexivity|]. rewrite F.
      exists p, r1. destruct H. constructor; auto.
      * cbn [entry set_entry]. rewrite P3. eauto.
      * cbn [entry set_entry]. pose proof (Z.pow_le_mono_r 2 p p' ltac:(lia)).
        assert (p <= p').
        { unfold grow in G. cbn [lp nent nrem] in G. rewrite shl1_ok in G by lia. cbn [bind] in G.
          match type of G with (if ?c then _ else _) = _ => destruct c end; [|inversion G; lia].
          destruct (shl1 (p + 1)); cbn [bind] in G; inversion G; lia. }
        lia.
Qed.

Lemma Insert_spec : forall l s x b, reachable l s -> x <> 0 -> List_Size_Raw l + 1 < 2 ^ 27 ->
  exists l', List_Insert l x b = Ok l' /\
   (b = 0 -> behaves l' (s ++ [x]) (2 ^ 27 - 1 - List_Size_Raw l')) /\
   (b <> 0 -> List_Size_Raw l = List_Num_Entries l -> behaves l' (insert_before_diff x b s) (2 ^ 27 - 1 - List_Size_Raw l')).
Proof.
  intros l s x b H Hx HL. destruct (reachable_rep_len l s H) as [raw [R [V L]]]. rewrite L in HL.
  destruct (Insert_rep l raw x b R Hx HL) as [l' [E R']]. exists l'. split; auto. split.
  - intros ->. simpl in R'. rewrite <- V. replace (valid raw ++ [x]) with (valid (raw ++ [x])).
    apply rep_behaves; auto. rewrite valid_app. simpl. rewrite isv_true; auto.
  - intros Hb G. apply (gaps_sizes l raw (rep_wrep _ _ R)) in G.
    replace (b =? 0) with false in R' by lia.
    assert (VR : valid raw = raw). { apply valid_all. unfold gaps in G. lia. }
    rewrite <- V, VR. replace (insert_before_diff x b raw) with (valid (insert_before_diff x b raw)) at 1.
    apply rep_behaves; auto. apply nz_valid. pose proof (valid_nz raw) as NZ. rewrite VR in NZ.
    clear - Hx NZ. induction raw as [|y raw IH]; simpl; auto.
    assert (y <> 0) by (apply NZ; left; auto).
    destruct (y =? b); intros z [Z1|Z1]; subst; auto.
    apply IH; auto. intros w Hw. apply NZ. right; auto.
Qed.

Lemma wr_rep_start : forall l s, reachable l s -> exists raw : list Z, wr_rep (l, 0) ([], s) (length raw) /\ List_Size_Raw l = Z.of_nat (length raw).
Proof.
  intros l s H. destruct (reachable_rep_len l s H) as [raw [R [V L]]]. exists raw. split; auto.
  exists raw, 0%nat. simpl. repeat split; auto; lia.
Qed.

Lemma walk_spec : forall l s ops, reachable l s -> Forall wop_ok ops ->
  List_Size_Raw l + Z.of_nat (length ops) < 2 ^ 27 ->
  exists l' idx', wrun (l, 0) ops = Ok (l', idx', snd (vrun ([], s) ops)) /\
     List_Walk l' = Ok (fst (fst (vrun ([], s) ops)) ++ snd (fst (vrun ([], s) ops))).
Proof.
  intros l s ops H Ho HL. destruct (wr_rep_start l s H) as [raw [W L]]. rewrite L in HL.
  destruct (wrun_rep ops _ _ _ W Ho HL) as [[l' idx'] [E [raw' [i [R [_ [_ [A [B _]]]]]]]]].
  exists l', idx'. split; auto. simpl in R. rewrite (Walk_rep l' raw') by auto.
  rewrite <- A, <- B, <- valid_app, firstn_skipn. auto.
Qed.

Lemma vrun_app : forall a b st, vrun st (a ++ b) =
  let '(st1, r1) := vrun st a in let '(st2, r2) := vrun st1 b in (st2, r1 ++ r2).
Proof.
  induction a; simpl; intros.
  - destruct (vrun st b); auto.
  - destruct (vstep st a) as [st1 r1]. rewrite IHa. destruct (vrun st1 a0) as [st2 r2]. destruct (vrun st2 b). rewrite app_assoc. auto.
Qed.

Lemma reachable_nz : forall l s, reachable l s -> ~ In 0 s.
Proof.
  intros l s H X. destruct (reachable_rep l s H) as [raw [_ V]]. rewrite <- V in X. apply valid_In in X. tauto.
Qed.

Lemma walk_complete : forall l s ops l' idx' out, reachable l s -> Forall wop_ok ops ->
  List_Size_Raw l + Z.of_nat (length ops) + 1 < 2 ^ 27 ->
  wrun (l, 0) (ops ++ [WNext]) = Ok (l', idx', out ++ [0]) ->
  exists s', List_Walk l' = Ok s' /\ subseq s' (filter (fun x => negb (x =? 0)) out) /\
    subseq (filter (fun x => negb (x =? 0)) out) (s ++ added ops).
Proof.
  intros l s ops l' idx' out H Ho HL E.
  assert (Ho' : Forall wop_ok (ops ++ [WNext])) by (apply Forall_app; split; auto; repeat constructor).
  destruct (walk_spec l s (ops ++ [WNext]) H Ho') as [l2 [i2 [E2 W]]]; [rewrite app_length; simpl; lia|].
  rewrite E in E2. inversion E2. subst l2 i2. clear E2.
  rewrite vrun_app in *. destruct (vrun ([], s) ops) as [[v p] r] eqn:EV.
  destruct (vrun_subseq ops [] s [] v p r (reachable_nz _ _ H) Ho ltac:(constructor) EV) as [A [B C]].
  change (filter (fun x : Z => negb (x =? 0)) out) with (filter isv out).
  simpl in A, H3, W. destruct p as [|y p]; simpl in *.
  - apply app_inj_tail in H3. destruct H3 as [H3 _]. subst r. rewrite app_nil_r in W. exists v. split; auto. split; auto.
    rewrite app_nil_r in B. auto.
  - apply app_inj_tail in H3. exfalso. apply C. left. destruct H3; auto.
Qed.

Lemma srun_spec : forall ops, sallowed true [] [] ops -> exists st', srun [] ops = Ok (st', snd (arun [] ops)).
Proof.
  intros ops H. destruct (srun_rep ops [] [] ltac:(constructor) H) as [st' [E _]]. eauto.
Qed.

(** A computable form of the preconditions, for the examples. *)
Definition lpreb (s : list Z) (o : lop) : bool :=
  match o with
  | LAdd x | LChknAdd x | LRem x | LContains x | LLocate x => negb (x =? 0)
  | LInserti x i => negb (x =? 0) && (i <=? length s)%nat
  | LReplace x y => negb (x =? 0) && negb (y =? 0)
  | LReplacei i y => negb (y =? 0) && (i <? length s)%nat
  | LRemi _ | LEntry _ | LCompress | LCopy | LNum | LWalk => true
  end.

Definition spreb (strict : bool) (st : list LList) (sa : list (list Z)) (o : sop) : bool :=
  match o with
  | SNew n => n <? 2 ^ 30
  | SOp i o => match nth_error st i with
               | Some l => lpreb (nth i sa []) o && (List_Size_Raw l + 1 <? 2 ^ 27)
               | None => false end
  | SCat d s => match nth_error st d, nth_error st s with
      | Some ld, Some ls => negb (d =? s)%nat && (List_Size_Raw ld + List_Size_Raw ls <? 2 ^ 27) &&
         (negb strict || (List_Size_Raw ls =? List_Num_Entries ls) || negb (List_Size_Raw ld =? List_Num_Entries ld))
      | _, _ => false end
  end.

Fixpoint sallowedb (strict : bool) (st : list LList) (sa : list (list Z)) (ops : list sop) : bool :=
  match ops with
  | [] => true
  | o :: t => spreb strict st sa o &&
      match sstep st o with
      | Ok (st', _) => sallowedb strict st' (fst (aspec sa o)) t
      | _ => true
      end
  end.

Lemma lpreb_sound : forall s o, lpreb s o = true -> lpre s o.
Proof. destruct o; simpl; intros; auto; lia. Qed.

Lemma spreb_sound : forall b st sa o, spreb b st sa o = true -> spre b st sa o.
Proof.
  destruct o; cbn [spreb spre]; intros H.
  - lia.
  - destruct (nth_error st i) as [l|]; [|discriminate]. exists l. apply andb_true_iff in H. destruct H.
    split; auto. split; [apply lpreb_sound; auto|lia].
  - destruct (nth_error st d) as [ld|]; [|discriminate]. destruct (nth_error st s) as [ls|]; [|discriminate].
    exists ld, ls. split; auto. split; auto. split; [lia|]. split; [lia|]. intros ->. simpl in H. lia.
Qed.

Lemma sallowedb_sound : forall b ops st sa, sallowedb b st sa ops = true -> sallowed b st sa ops.
Proof.
  induction ops; intros st sa H; cbn [sallowed sallowedb] in *; auto.
  apply andb_true_iff in H. destruct H. split; [apply spreb_sound; auto|].
  destruct (sstep st a) as [[st' r]| | |]; auto.
Qed.
