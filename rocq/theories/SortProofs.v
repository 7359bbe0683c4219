(** Lemmas about the model of mstk_quicksort.c. *)
From Coq Require Import ZArith List Lia Bool Arith ZifyBool ZifyNat Permutation Sorting.Sorted.
From Verif Require Import Base BaseProofs SortModel.
Import ListNotations.
Open Scope Z_scope.

Definition mid (pre : array Z) (m : list Z) (post : array Z) : array Z := pre ++ map Some m ++ post.

Lemma rd_mid : forall pre m post i, (i < length m)%nat -> rd (mid pre m post) (Z.of_nat (length pre + i)) = Ok (nth i m 0).
Proof.
  intros. unfold rd, mid. replace (0 <=? _) with true by lia. rewrite Nat2Z.id.
  rewrite nth_error_app2 by lia. replace (length pre + i - length pre)%nat with i by lia.
  rewrite nth_error_app1 by (rewrite map_length; auto). rewrite (map_nth_error Some i m (d := nth i m 0)); auto.
  apply nth_error_nth'. auto.
Qed.

Lemma wr_mid : forall pre m post i x, (i < length m)%nat ->
  wr (mid pre m post) (Z.of_nat (length pre + i)) x = Ok (mid pre (upd_nth m i x) post).
Proof.
  intros. unfold wr, mid. rewrite !app_length, map_length.
  replace ((0 <=? _) && _) with true by lia. rewrite Nat2Z.id.
  replace (length pre + i)%nat with (length pre + i)%nat by lia. f_equal.
  rewrite upd_nth_app2. f_equal. rewrite upd_nth_app1 by (rewrite map_length; auto). rewrite upd_nth_map. auto.
Qed.

Definition swapn (m : list Z) (i j : nat) : list Z := upd_nth (upd_nth m i (nth j m 0)) j (nth i m 0).

Lemma swapn_length : forall m i j, length (swapn m i j) = length m.
Proof. intros. unfold swapn. rewrite !upd_nth_length. auto. Qed.

Lemma qswap_mid : forall pre m post i j, (i < length m)%nat -> (j < length m)%nat ->
  qswap (mid pre m post) (Z.of_nat (length pre + i)) (Z.of_nat (length pre + j)) = Ok (mid pre (swapn m i j) post).
Proof.
  intros. unfold qswap. rewrite !rd_mid by auto. cbn [bind]. rewrite wr_mid by auto. cbn [bind].
  rewrite wr_mid by (rewrite upd_nth_length; auto). auto.
Qed.

Lemma nth_swapn : forall m i j k, (i < length m)%nat -> (j < length m)%nat ->
  nth k (swapn m i j) 0 = if (k =? j)%nat then nth i m 0 else if (k =? i)%nat then nth j m 0 else nth k m 0.
Proof.
  intros. unfold swapn. rewrite !nth_upd_nth. rewrite upd_nth_length.
  destruct (k =? j)%nat eqn:E1; [|destruct (k =? i)%nat eqn:E2]; auto;
    replace (_ <? _)%nat with true by lia; auto.
Qed.

Lemma swapn_perm : forall m i j, (i < length m)%nat -> (j < length m)%nat -> Permutation m (swapn m i j).
Proof.
  intros. apply (Permutation_nth m (swapn m i j) 0). split; [apply swapn_length|].
  exists (fun k => if (k =? j)%nat then i else if (k =? i)%nat then j else k). repeat split.
  - intros k Hk. destruct (k =? j)%nat; auto. destruct (k =? i)%nat; auto.
  - intros a b Ha Hb. destruct (a =? j)%nat eqn:A1, (b =? j)%nat eqn:B1, (a =? i)%nat eqn:A2, (b =? i)%nat eqn:B2; lia.
  - intros k Hk. rewrite nth_swapn by auto. destruct (k =? j)%nat; auto. destruct (k =? i)%nat; auto.
Qed.

Lemma ck_ok : forall x, - 2 ^ 31 <= x < 2 ^ 31 -> ck32 x = Ok x.
Proof. intros. unfold ck32. replace ((- 2 ^ 31 <=? x) && (x <? 2 ^ 31)) with true by lia. auto. Qed.

Section Key.
Variable key : option (array Z).
Variable f : Z -> Z.

Definition keyed (m : list Z) : Prop := forall x, In x m -> qkey key x = Ok (f x).

Lemma keyed_perm : forall m m', Permutation m m' -> keyed m -> keyed m'.
Proof. unfold keyed. intros m m' P K x Hx. apply K. eapply Permutation_in; [apply Permutation_sym|]; eauto. Qed.

Lemma part_loop_spec : forall pre post v n m i s,
  keyed m -> (i + n < length m)%nat -> (s <= i)%nat ->
  (forall k, (k < s)%nat -> f (nth k m 0) < v) -> (forall k, (s <= k < i)%nat -> v <= f (nth k m 0)) ->
  exists m' s', qpart_loop n (mid pre m post) key (Z.of_nat (length pre + i)) (Z.of_nat (length pre + s)) v =
     Ok (mid pre m' post, Z.of_nat (length pre + s')) /\
    Permutation m m' /\ (s' <= i + n)%nat /\
    (forall k, (i + n <= k)%nat -> nth k m' 0 = nth k m 0) /\
    (forall k, (k < s')%nat -> f (nth k m' 0) < v) /\ (forall k, (s' <= k < i + n)%nat -> v <= f (nth k m' 0)).
Proof.
  induction n; intros m i s K Hl Hs H1 H2.
  - exists m, s. cbn [qpart_loop]. rewrite Nat.add_0_r. repeat split; auto.
  - cbn [qpart_loop]. rewrite rd_mid by lia. cbn [bind].
    rewrite (K (nth i m 0)) by (apply nth_In; lia). cbn [bind].
    destruct (f (nth i m 0) <? v) eqn:E.
    + rewrite qswap_mid by lia. cbn [bind].
      replace (Z.of_nat (length pre + i) + 1) with (Z.of_nat (length pre + S i)) by lia.
      replace (Z.of_nat (length pre + s) + 1) with (Z.of_nat (length pre + S s)) by lia.
      assert (P : Permutation m (swapn m i s)) by (apply swapn_perm; lia).
      destruct (IHn (swapn m i s) (S i) (S s)) as [m' [s' [E' [P' [L' [F1 [F2 F3]]]]]]].
      * eapply keyed_perm; eauto.
      * rewrite swapn_length. lia.
      * lia.
      * intros k Hk. rewrite nth_swapn by lia. destruct (k =? s)%nat eqn:Ek; [lia|].
        replace (k =? i)%nat with false by lia. apply H1. lia.
      * intros k Hk. rewrite nth_swapn by lia. destruct (k =? s)%nat eqn:Ek; [lia|].
        destruct (k =? i)%nat eqn:Ek2; [apply H2; lia|apply H2; lia].
      * exists m', s'. split; auto. split; [eapply Permutation_trans; eauto|]. split; [lia|]. split; [|split; auto].
        -- intros k Hk. rewrite F1 by lia. rewrite nth_swapn by lia.
           replace (k =? s)%nat with false by lia. replace (k =? i)%nat with false by lia. auto.
        -- intros k Hk. apply F3. lia.
    + replace (Z.of_nat (length pre + i) + 1) with (Z.of_nat (length pre + S i)) by lia.
      destruct (IHn m (S i) s) as [m' [s' [E' [P' [L' [F1 [F2 F3]]]]]]]; auto; try lia.
      * intros k Hk. destruct (Nat.eq_dec k i); [subst; lia|apply H2; lia].
      * exists m', s'. split; auto. split; auto. split; [lia|]. split; [|split; auto].
        -- intros k Hk. apply F1. lia.
        -- intros k Hk. apply F3. lia.
Qed.

Lemma split_nth : forall (m : list Z) k, (k < length m)%nat -> m = firstn k m ++ nth k m 0 :: skipn (S k) m.
Proof.
  induction m; simpl; intros; [lia|]. destruct k; simpl; auto. f_equal. apply IHm. lia.
Qed.

Lemma firstn_forall : forall (P : Z -> Prop) m k, (forall i, (i < k)%nat -> P (nth i m 0)) -> (k <= length m)%nat ->
  Forall P (firstn k m).
Proof.
  intros P m k H L. apply Forall_forall. intros x Hx. apply (In_nth _ _ 0) in Hx. destruct Hx as [i [Hi E]].
  rewrite firstn_length in Hi. subst x. rewrite <- (firstn_skipn k m) in H.
  specialize (H i ltac:(lia)). rewrite app_nth1 in H by (rewrite firstn_length; lia). auto.
Qed.

Lemma skipn_forall : forall (P : Z -> Prop) m k, (forall i, (k <= i < length m)%nat -> P (nth i m 0)) -> Forall P (skipn k m).
Proof.
  intros P m k H. apply Forall_forall. intros x Hx. apply (In_nth _ _ 0) in Hx. destruct Hx as [i [Hi E]].
  rewrite skipn_length in Hi. subst x. specialize (H (k + i)%nat ltac:(lia)).
  rewrite <- (firstn_skipn k m) in H. rewrite app_nth2 in H by (rewrite firstn_length; lia).
  rewrite firstn_length in H. replace (k + i - Nat.min k (length m))%nat with i in H by lia. auto.
Qed.

Lemma partition_spec : forall pre post m ip, keyed m -> (ip < length m)%nat ->
  exists lo pv hi, qpartition (mid pre m post) key (Z.of_nat (length pre)) (Z.of_nat (length pre + (length m - 1)))
      (Z.of_nat (length pre + ip)) = Ok (mid pre (lo ++ pv :: hi) post, Z.of_nat (length pre + length lo)) /\
    Permutation m (lo ++ pv :: hi) /\ Forall (fun x => f x < f pv) lo /\ Forall (fun x => f pv <= f x) hi.
Proof.
  intros pre post m ip K Hip. unfold qpartition. rewrite rd_mid by auto. cbn [bind].
  rewrite (K (nth ip m 0)) by (apply nth_In; auto). cbn [bind]. rewrite qswap_mid by lia. cbn [bind].
  set (e := (length m - 1)%nat). set (m1 := swapn m e ip). set (v := f (nth ip m 0)).
  assert (L1 : length m1 = length m) by apply swapn_length.
  assert (P1 : Permutation m m1) by (apply swapn_perm; unfold e; lia).
  assert (Pv : nth e m1 0 = nth ip m 0).
  { unfold m1. rewrite nth_swapn by (unfold e; lia). destruct (e =? ip)%nat eqn:Ee; [f_equal; lia|]. rewrite Nat.eqb_refl. auto. }
  replace (Z.to_nat (Z.of_nat (length pre + e) - Z.of_nat (length pre))) with e by lia.
  replace (Z.of_nat (length pre)) with (Z.of_nat (length pre + 0)) by lia.
  destruct (part_loop_spec pre post v e m1 0 0) as [m2 [s [E [P2 [Ls [F1 [F2 F3]]]]]]].
  { eapply keyed_perm; eauto. }
  { unfold e. lia. }
  { lia. }
  { intros; lia. }
  { intros; lia. }
  rewrite E. cbn [bind]. simpl in Ls, F1, F3.
  assert (L2 : length m2 = length m) by (rewrite <- (Permutation_length P2); auto).
  rewrite qswap_mid by (unfold e in *; lia). cbn [bind].
  set (m3 := swapn m2 s e). assert (L3 : length m3 = length m) by (unfold m3; rewrite swapn_length; auto).
  assert (N3 : forall k, nth k m3 0 = if (k =? e)%nat then nth s m2 0 else if (k =? s)%nat then nth e m2 0 else nth k m2 0).
  { intros. apply nth_swapn; unfold e in *; lia. }
  assert (V3 : nth s m3 0 = nth ip m 0).
  { rewrite N3. destruct (s =? e)%nat eqn:Es.
    - rewrite <- Pv. rewrite <- F1 by lia. f_equal. lia.
    - rewrite Nat.eqb_refl. rewrite F1 by lia. auto. }
  exists (firstn s m3), (nth ip m 0), (skipn (S s) m3). rewrite <- V3.
  assert (Sp : firstn s m3 ++ nth s m3 0 :: skipn (S s) m3 = m3) by (symmetry; apply split_nth; unfold e in *; lia).
  rewrite Sp. rewrite firstn_length. replace (Nat.min s (length m3)) with s by (unfold e in *; lia). split; auto.
  split. { eapply Permutation_trans; [exact P1|]. eapply Permutation_trans; [exact P2|]. apply swapn_perm; unfold e in *; lia. }
  rewrite V3. fold v. split.
  - apply firstn_forall; [|unfold e in *; lia]. intros i Hi. rewrite N3. replace (i =? e)%nat with false by lia.
    replace (i =? s)%nat with false by lia. apply F2. lia.
  - apply skipn_forall. intros i Hi. rewrite N3. destruct (i =? e)%nat eqn:Ei.
    + apply F3. unfold e in *; lia.
    + replace (i =? s)%nat with false by lia. apply F3. unfold e in *; lia.
Qed.

Definition sortedk (m : list Z) : Prop := StronglySorted (fun x y => f x <= f y) m.

Lemma sorted_join : forall lo pv hi, sortedk lo -> sortedk hi -> Forall (fun x => f x < f pv) lo -> Forall (fun x => f pv <= f x) hi ->
  sortedk (lo ++ pv :: hi).
Proof.
  unfold sortedk. induction lo; simpl; intros pv hi S1 S2 F1 F2.
  - constructor; auto.
  - inversion S1. subst. inversion F1. subst. constructor; [apply IHlo; auto|].
    apply Forall_app. split; auto. constructor; [lia|]. eapply Forall_impl; [|exact F2]. simpl. intros; lia.
Qed.

Lemma mid_left : forall pre lo pv hi post, mid pre (lo ++ pv :: hi) post = mid pre lo (map Some (pv :: hi) ++ post).
Proof. intros. unfold mid. rewrite map_app, <- !app_assoc. auto. Qed.
Lemma mid_right : forall pre lo pv hi post, mid pre (lo ++ pv :: hi) post = mid (pre ++ map Some lo ++ [Some pv]) hi post.
Proof. intros. unfold mid. rewrite map_app. cbn [map]. rewrite <- !app_assoc. auto. Qed.

Lemma qsort_spec : forall fuel pre m post, (length m <= fuel)%nat -> keyed m ->
  Z.of_nat (length pre + length m) < 2 ^ 31 ->
  exists m', qsort_rec fuel (mid pre m post) key (Z.of_nat (length pre)) (Z.of_nat (length pre) + Z.of_nat (length m) - 1) =
      Ok (mid pre m' post) /\ Permutation m m' /\ sortedk m'.
Proof.
  induction fuel; intros pre m post Hf K HL.
  - destruct m; [|simpl in Hf; lia]. exists []. cbn [qsort_rec]. rewrite ck_ok by (simpl in *; lia). cbn [bind].
    rewrite ck_ok by (simpl; lia). cbn [bind length]. replace (_ <=? 1) with true by lia. split; auto. split; auto. constructor.
  - cbn [qsort_rec]. rewrite ck_ok by lia. cbn [bind]. rewrite ck_ok by lia. cbn [bind].
    replace (Z.of_nat (length pre) + Z.of_nat (length m) - 1 - Z.of_nat (length pre) + 1) with (Z.of_nat (length m)) by lia.
    destruct (Z.of_nat (length m) <=? 1) eqn:E1.
    { exists m. split; auto. split; auto. destruct m as [|a [|b m]]; cbn [length] in E1; try lia; repeat constructor. }
    destruct (Z.of_nat (length m) =? 2) eqn:E2.
    { destruct m as [|a [|b [|c m]]]; cbn [length] in E2; try lia.
      replace (Z.of_nat (length pre) + Z.of_nat (length [a; b]) - 1) with (Z.of_nat (length pre + 1)) by (simpl; lia).
      replace (Z.of_nat (length pre)) with (Z.of_nat (length pre + 0)) by lia.
      rewrite !rd_mid by (simpl; lia). cbn [bind nth]. rewrite (K a), (K b) by (simpl; auto). cbn [bind].
      destruct (f a >? f b) eqn:E3.
      - rewrite qswap_mid by (simpl; lia). exists (swapn [a; b] 0 1). split; auto.
        split; [apply swapn_perm; simpl; lia|]. cbn. repeat constructor. lia.
      - exists [a; b]. split; auto. split; auto. constructor; [constructor; constructor|constructor; [lia|constructor]]. }
    rewrite Z.quot_div_nonneg by lia.
    assert (HQ : 0 <= Z.of_nat (length m) / 2 < Z.of_nat (length m)) by (split; [apply Z.div_pos; lia|apply Z.div_lt; lia]).
    rewrite ck_ok by lia. cbn [bind].
    replace (Z.of_nat (length pre) + Z.of_nat (length m) - 1) with (Z.of_nat (length pre + (length m - 1))) by lia.
    replace (Z.of_nat (length pre) + Z.of_nat (length m) / 2) with (Z.of_nat (length pre + Z.to_nat (Z.of_nat (length m) / 2))) by lia.
    destruct (partition_spec pre post m (Z.to_nat (Z.of_nat (length m) / 2)) K ltac:(lia)) as [lo [pv [hi [E [P [Flo Fhi]]]]]].
    rewrite E. cbn [bind].
    pose proof (Permutation_length P) as LP. rewrite app_length in LP. cbn [length] in LP.
    assert (K' : keyed (lo ++ pv :: hi)) by (eapply keyed_perm; eauto).
    assert (Klo : keyed lo) by (intros x Hx; apply K'; apply in_or_app; auto).
    assert (Khi : keyed hi) by (intros x Hx; apply K'; apply in_or_app; right; right; auto).
    assert (Q : forall lo', Permutation lo lo' -> exists hi', 
       qsort_rec fuel (mid pre (lo' ++ pv :: hi) post) key (Z.of_nat (length pre + length lo) + 1) (Z.of_nat (length pre + (length m - 1))) =
        Ok (mid pre (lo' ++ pv :: hi') post) /\ Permutation hi hi' /\ sortedk hi').
    { intros lo' Plo. pose proof (Permutation_length Plo) as Ll.
      destruct (IHfuel (pre ++ map Some lo' ++ [Some pv]) hi post) as [hi' [E' [P' S']]]; auto.
      - lia.
      - rewrite !app_length, map_length. cbn [length]. lia.
      - exists hi'. split; auto. rewrite mid_right. rewrite !app_length, map_length in E'. cbn [length] in E'.
        replace (Z.of_nat (length pre + length lo) + 1) with (Z.of_nat (length pre + (length lo' + 1))) by lia.
        replace (Z.of_nat (length pre + (length m - 1))) with (Z.of_nat (length pre + (length lo' + 1)) + Z.of_nat (length hi) - 1) by lia.
        rewrite E'. rewrite <- mid_right. auto. }
    assert (R : forall hi', Permutation hi hi' -> exists lo', 
       qsort_rec fuel (mid pre (lo ++ pv :: hi') post) key (Z.of_nat (length pre)) (Z.of_nat (length pre + length lo) - 1) =
        Ok (mid pre (lo' ++ pv :: hi') post) /\ Permutation lo lo' /\ sortedk lo').
    { intros hi' Phi. destruct (IHfuel pre lo (map Some (pv :: hi') ++ post)) as [lo' [E' [P' S']]]; auto; try lia.
      exists lo'. split; auto. rewrite mid_left.
      replace (Z.of_nat (length pre + length lo) - 1) with (Z.of_nat (length pre) + Z.of_nat (length lo) - 1) by lia.
      rewrite E'. rewrite <- mid_left. auto. }
    assert (Fin : forall lo' hi', Permutation lo lo' -> Permutation hi hi' -> sortedk lo' -> sortedk hi' ->
      Permutation m (lo' ++ pv :: hi') /\ sortedk (lo' ++ pv :: hi')).
    { intros lo' hi' Pl Ph Sl Sh. split.
      - eapply Permutation_trans; [exact P|]. apply Permutation_app; auto.
      - apply sorted_join; auto.
        + rewrite Forall_forall in *. intros x Hx. apply Flo. eapply Permutation_in; [apply Permutation_sym; exact Pl|auto].
        + rewrite Forall_forall in *. intros x Hx. apply Fhi. eapply Permutation_in; [apply Permutation_sym; exact Ph|auto]. }
    match goal with |- context [if ?c then _ else _] => destruct c end.
    + destruct (R hi (Permutation_refl _)) as [lo' [E1' [P1' S1']]]. rewrite E1'. cbn [bind].
      destruct (Q lo' P1') as [hi' [E2' [P2' S2']]]. rewrite E2'. exists (lo' ++ pv :: hi'). split; auto.
    + destruct (Q lo (Permutation_refl _)) as [hi' [E2' [P2' S2']]]. rewrite E2'. cbn [bind].
      destruct (R hi' P2') as [lo' [E1' [P1' S1']]]. rewrite E1'. exists (lo' ++ pv :: hi'). split; auto.
Qed.
End Key.
