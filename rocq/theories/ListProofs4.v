(** Lemmas about List_RemSorted. *)
From Coq Require Import ZArith List Lia Bool Arith ZifyBool ZifyNat Sorting.Sorted.
From Verif Require Import Base BaseProofs ListModel ListSpec ListHist ListProofs ListProofs2 ListProofs3.
Import ListNotations.
Open Scope Z_scope.

Section S.
  Variable key : Z -> Z.

  Definition ksorted (raw : list Z) : Prop :=
    forall i j, (i < j)%nat -> (j < length raw)%nat -> nth i raw 0 <> 0 -> nth j raw 0 <> 0 ->
    key (nth i raw 0) < key (nth j raw 0).

  Lemma ksorted_valid : forall raw, StronglySorted (fun a b => key a < key b) (valid raw) -> ksorted raw.
  Proof.
    induction raw as [|x raw IH]; simpl; intros H i j Hij Hj Hi Hv.
    - simpl in Hj. lia.
    - destruct j; [lia|]. simpl in Hj, Hv. destruct i.
      + simpl in Hi. rewrite (isv_true x Hi) in H. inversion H. subst.
        rewrite Forall_forall in H3. cbn [nth]. apply H3. apply valid_In. split; auto. apply nth_In. lia.
      + simpl. apply IH; auto; try lia. destruct (isv x); auto. inversion H; auto.
  Qed.

  Lemma fwd_spec : forall raw tail t lim n i, (t < length raw)%nat -> nth t raw 0 <> 0 -> (i < t)%nat ->
    Z.of_nat t <= lim + 1 -> (t - i <= n)%nat ->
    exists j, fwd n (map Some raw ++ tail) (Z.of_nat i) lim = Ok (true, Z.of_nat j) /\ (i < j <= t)%nat /\
      nth j raw 0 <> 0 /\ (forall k, (i < k < j)%nat -> nth k raw 0 = 0).
  Proof.
    intros raw tail t lim. induction n; intros i Ht Hv Hi Hl Hn; [lia|]. cbn [fwd].
    replace (Z.of_nat i <=? lim) with true by lia.
    replace (Z.of_nat i + 1) with (Z.of_nat (S i)) by lia.
    rewrite (rd_map _ raw tail (Z.of_nat (S i)) 0) by lia. cbn [bind]. rewrite Nat2Z.id. unfold NULL.
    destruct (nth (S i) raw 0 =? 0) eqn:E.
    - assert (S i <> t) by (intro; subst; lia).
      destruct (IHn (S i)) as [j [A [B [C D]]]]; auto; try lia.
      exists j. rewrite A. repeat split; auto; try lia.
      intros k Hk. destruct (Nat.eq_dec k (S i)); [subst; lia|apply D; lia].
    - exists (S i). repeat split; auto; try lia.
  Qed.

  Lemma bwd_spec : forall raw tail t lim n i, (i <= length raw)%nat -> nth t raw 0 <> 0 -> (t < i)%nat ->
    lim - 1 <= Z.of_nat t -> (i - t <= n)%nat ->
    exists j, bwd n (map Some raw ++ tail) (Z.of_nat i) lim = Ok (true, Z.of_nat j) /\ (t <= j < i)%nat /\
      nth j raw 0 <> 0 /\ (forall k, (j < k < i)%nat -> nth k raw 0 = 0).
  Proof.
    intros raw tail t lim. induction n; intros i Ht Hv Hi Hl Hn; [lia|]. cbn [bwd].
    replace (Z.of_nat i >=? lim) with true by lia.
    replace (Z.of_nat i - 1) with (Z.of_nat (i - 1)) by lia.
    rewrite (rd_map _ raw tail (Z.of_nat (i - 1)) 0) by lia. cbn [bind]. rewrite Nat2Z.id. unfold NULL.
    destruct (nth (i - 1) raw 0 =? 0) eqn:E.
    - assert ((i - 1)%nat <> t) by (intro; subst t; lia).
      destruct (IHn (i - 1)%nat) as [j [A [B [C D]]]]; auto; try lia.
      exists j. rewrite A. repeat split; auto; try lia.
      intros k Hk. destruct (Nat.eq_dec k (i - 1)); [subst; lia|apply D; lia].
    - exists (i - 1)%nat. repeat split; auto; try lia.
  Qed.

  Lemma ksorted_inj : forall raw i j, ksorted raw -> (i < length raw)%nat -> (j < length raw)%nat ->
    nth i raw 0 <> 0 -> nth j raw 0 <> 0 -> key (nth i raw 0) = key (nth j raw 0) -> i = j.
  Proof.
    intros raw i j K Hi Hj Vi Vj E. destruct (Nat.lt_trichotomy i j) as [H|[H|H]]; auto.
    - pose proof (K i j H Hj Vi Vj). lia.
    - pose proof (K j i H Hi Vj Vi). lia.
  Qed.

  Lemma ksorted_le : forall raw i j, ksorted raw -> (i < length raw)%nat -> (j < length raw)%nat ->
    nth i raw 0 <> 0 -> nth j raw 0 <> 0 -> (key (nth i raw 0) <= key (nth j raw 0) <-> (i <= j)%nat).
  Proof.
    intros raw i j K Hi Hj Vi Vj. split; intro H.
    - destruct (Nat.le_gt_cases i j); auto. pose proof (K j i H0 Hi Vj Vi). lia.
    - destruct (Nat.eq_dec i j); [subst; lia|]. pose proof (K i j ltac:(lia) Hj Vi Vj). lia.
  Qed.

  Lemma bisect_spec : forall raw tail m k, ksorted raw -> (length raw + 2 <= m)%nat ->
    (k < length raw)%nat -> nth k raw 0 <> 0 ->
    forall n imin imax, (imin <= k <= imax)%nat -> (imax < length raw)%nat ->
    nth imin raw 0 <> 0 -> nth imax raw 0 <> 0 -> (imax - imin < n)%nat ->
    bisect key n m (map Some raw ++ tail) (Z.of_nat imin) (Z.of_nat imax)
      (key (nth imin raw 0)) (key (nth imax raw 0)) (key (nth k raw 0)) = Ok (Some (Z.of_nat k)).
  Proof.
    intros raw tail m k K Hm Hk Vk. induction n; intros imin imax Hb Hx V1 V2 Hn; [lia|]. cbn [bisect].
    set (mid0 := ((imin + imax + 1) / 2)%nat).
    assert (EM : Z.quot (Z.of_nat imin + Z.of_nat imax + 1) 2 = Z.of_nat mid0).
    { rewrite Z.quot_div_nonneg by lia. unfold mid0. rewrite Nat2Z.inj_div. f_equal. lia. }
    rewrite EM.
    assert (M1 : (imin <= mid0 <= imax)%nat /\ (imin < imax -> imin < mid0)%nat /\ (mid0 = imax -> imax - imin <= 1)%nat).
    { unfold mid0. pose proof (Nat.div_mod (imin + imax + 1) 2 ltac:(lia)).
      pose proof (Nat.mod_upper_bound (imin + imax + 1) 2 ltac:(lia)). lia. }
    destruct M1 as [M1 [M2 M3]]. clearbody mid0. clear EM.
    rewrite (rd_map _ raw tail (Z.of_nat mid0) 0) by lia. cbn [bind]. rewrite Nat2Z.id. unfold NULL.
    (* choice of the middle entry *)
    match goal with |- bind ?X _ = _ => assert (exists mid, X = Ok (Z.of_nat mid) /\ nth mid raw 0 <> 0 /\ (imin <= mid <= imax)%nat /\
       (mid = imax -> (imax - imin <= 1)%nat) /\
       (mid = imin -> imin = imax \/ forall j, (imin < j < imax)%nat -> nth j raw 0 = 0)) as [mid [E1 [E2 [E3 [E4 E5]]]]] end.
    { destruct (nth mid0 raw 0 =? 0) eqn:E.
      - assert (mid0 <> imax) by (intro X; rewrite X in E; lia). assert (mid0 <> imin) by (intro X; rewrite X in E; lia).
        destruct (fwd_spec raw tail imax (Z.of_nat imax) m mid0) as [j [A [B [C D]]]]; auto; try lia.
        rewrite A. cbn [bind]. destruct (Z.of_nat j =? Z.of_nat imax) eqn:EJ.
        + replace j with imax in * by lia.
          destruct (bwd_spec raw tail imin (Z.of_nat imin) m imax) as [j2 [A2 [B2 [C2 D2]]]]; auto; try lia.
          rewrite A2. cbn [bind]. exists j2. repeat split; auto; try lia.
          intros. right. intros. apply D2. lia.
        + exists j. repeat split; auto; lia.
      - exists mid0. repeat split; auto; try lia. }
    rewrite E1. cbn [bind].
    rewrite (rd_map _ raw tail (Z.of_nat mid) 0) by lia. cbn [bind]. rewrite Nat2Z.id. unfold NULL.
    replace (nth mid raw 0 =? 0) with false by lia.
    pose proof (ksorted_le raw k mid K Hk ltac:(lia) Vk E2) as LE.
    destruct (key (nth k raw 0) <=? key (nth mid raw 0)) eqn:EC.
    - assert (k <= mid)%nat by (apply LE; lia).
      destruct (key (nth k raw 0) =? key (nth imin raw 0)) eqn:F1.
      { do 3 f_equal. symmetry. apply (ksorted_inj raw); auto; lia. }
      destruct (key (nth k raw 0) =? key (nth mid raw 0)) eqn:F2.
      { do 3 f_equal. symmetry. apply (ksorted_inj raw); auto; lia. }
      assert (k <> imin) by (intro; subst; lia). assert (k <> mid) by (intro; subst; lia).
      replace (Z.of_nat mid - Z.of_nat imin <=? 1) with false by lia.
      apply IHn; auto; try lia.
    - assert (mid < k)%nat by (destruct (Nat.le_gt_cases k mid); auto; apply LE in H; lia).
      destruct (key (nth k raw 0) =? key (nth mid raw 0)) eqn:F1.
      { do 3 f_equal. symmetry. apply (ksorted_inj raw); auto; lia. }
      destruct (key (nth k raw 0) =? key (nth imax raw 0)) eqn:F2.
      { do 3 f_equal. symmetry. apply (ksorted_inj raw); auto; lia. }
      assert (k <> imax) by (intro; subst; lia).
      replace (Z.of_nat imax - Z.of_nat mid <=? 1) with false by lia.
      apply IHn; auto; try lia.
      destruct (Nat.eq_dec mid imin); [|lia]. destruct (E5 e) as [|X]; [lia|]. exfalso. apply Vk. apply X. lia.
  Qed.

  Lemma RemSorted_rep : forall l raw e fuel, rep l raw -> StronglySorted (fun a b => key a < key b) (valid raw) ->
    In e (valid raw) -> (length raw <= fuel)%nat ->
    exists l' raw', List_RemSorted key fuel l e = Ok (l', 1) /\ rep l' raw' /\ valid raw' = remove1 e (valid raw) /\ length raw' = length raw.
  Proof.
    intros l raw e fuel R SS He Hf. apply ksorted_valid in SS. apply valid_In in He. destruct He as [He Hnz].
    destruct (In_nth raw e 0 He) as [k [Hk Ek]].
    unfold List_RemSorted. pose proof R as R0. destruct R as [p [r1 H]].
    rewrite (pars_rep _ _ _ _ _ H ltac:(lia)). cbn [nent nrem]. rewrite gaps_sum.
    set (m := S (S (Z.to_nat (Z.of_nat (length raw))))). assert (Hm : (length raw + 2 <= m)%nat) by (unfold m; lia).
    clearbody m. destruct (rp_tail _ _ _ _ _ H) as [tail Et]. rewrite Et.
    change 0 with (Z.of_nat 0) at 1. rewrite (rd_map _ raw tail (Z.of_nat 0) 0) by lia. cbn [bind]. rewrite Nat2Z.id. unfold NULL.
    assert (exists imin, (if nth 0 raw 0 =? 0 then '(f, i) <- fwd m (map Some raw ++ tail) 0 (Z.of_nat (length raw) - 1);; Ok i else Ok 0)
       = Ok (Z.of_nat imin) /\ (imin <= k)%nat /\ nth imin raw 0 <> 0) as [imin [A1 [A2 A3]]].
    { destruct (nth 0 raw 0 =? 0) eqn:E.
      - assert (k <> 0)%nat by (intro; subst; lia).
        destruct (fwd_spec raw tail k (Z.of_nat (length raw) - 1) m 0) as [j [A [B [C D]]]]; auto; try lia.
        change (Z.of_nat 0) with 0 in A. rewrite A. simpl. exists j. repeat split; auto; lia.
      - exists 0%nat. repeat split; auto; lia. }
    rewrite A1. cbn [bind].
    replace (Z.of_nat (length raw) - 1) with (Z.of_nat (length raw - 1)) by lia.
    rewrite (rd_map _ raw tail (Z.of_nat (length raw - 1)) 0) by lia. cbn [bind]. rewrite Nat2Z.id.
    assert (exists imax, (if nth (length raw - 1) raw 0 =? 0 then '(f, i) <- bwd m (map Some raw ++ tail) (Z.of_nat (length raw - 1)) (Z.of_nat imin);; Ok i else Ok (Z.of_nat (length raw - 1)))
       = Ok (Z.of_nat imax) /\ (k <= imax < length raw)%nat /\ nth imax raw 0 <> 0) as [imax [B1 [B2 B3]]].
    { destruct (nth (length raw - 1) raw 0 =? 0) eqn:E.
      - assert (k <> length raw - 1)%nat by (intro X; rewrite <- X in E; lia).
        destruct (bwd_spec raw tail k (Z.of_nat imin) m (length raw - 1)) as [j [A [B [C D]]]]; auto; try lia.
        rewrite A. simpl. exists j. repeat split; auto; lia.
      - exists (length raw - 1)%nat. repeat split; auto; lia. }
    rewrite B1. cbn [bind].
    rewrite (rd_map _ raw tail (Z.of_nat imin) 0) by lia. cbn [bind]. rewrite (rd_map _ raw tail (Z.of_nat imax) 0) by lia. cbn [bind].
    rewrite !Nat2Z.id. replace (nth imin raw 0 =? 0) with false by lia. replace (nth imax raw 0 =? 0) with false by lia. cbn [orb].
    rewrite <- Ek. rewrite bisect_spec by (auto; lia). cbn [bind].
    destruct (blank_rep l raw k) as [l' [BB R']]; auto. { rewrite Ek; auto. }
    rewrite BB. simpl. exists l', (upd_nth raw k 0). repeat split; auto.
    - rewrite valid_upd0 by auto. rewrite (valid_self raw k) by (auto; rewrite Ek; auto).
      rewrite remove1_app; auto. rewrite valid_In. intros [X _].
      destruct (In_nth _ _ 0 X) as [j [Hj Ej]]. rewrite firstn_length in Hj.
      assert (Ej' : nth j raw 0 = nth k raw 0).
      { rewrite <- Ej. rewrite <- (firstn_skipn k raw) at 1. rewrite app_nth1; auto. rewrite firstn_length. lia. }
      assert (j = k) by (apply (ksorted_inj raw); auto; try lia; congruence). lia.
    - apply upd_nth_length.
  Qed.
  (** Without any order: whatever bisection returns has the key asked for. *)
  Lemma bisect_any : forall raw tail m id i, (length raw + 2 <= m)%nat ->
    forall n imin imax, (imin <= imax)%nat -> (imax < length raw)%nat ->
    nth imin raw 0 <> 0 -> nth imax raw 0 <> 0 ->
    bisect key n m (map Some raw ++ tail) (Z.of_nat imin) (Z.of_nat imax)
      (key (nth imin raw 0)) (key (nth imax raw 0)) id = Ok (Some i) ->
    exists k, i = Z.of_nat k /\ (k < length raw)%nat /\ nth k raw 0 <> 0 /\ key (nth k raw 0) = id.
  Proof.
    intros raw tail m id i Hm. induction n; intros imin imax Hb Hx V1 V2; [discriminate|]. cbn [bisect].
    set (mid0 := ((imin + imax + 1) / 2)%nat).
    assert (EM : Z.quot (Z.of_nat imin + Z.of_nat imax + 1) 2 = Z.of_nat mid0).
    { rewrite Z.quot_div_nonneg by lia. unfold mid0. rewrite Nat2Z.inj_div. f_equal. lia. }
    rewrite EM.
    assert (M1 : (imin <= mid0 <= imax)%nat).
    { unfold mid0. pose proof (Nat.div_mod (imin + imax + 1) 2 ltac:(lia)).
      pose proof (Nat.mod_upper_bound (imin + imax + 1) 2 ltac:(lia)). lia. }
    clearbody mid0. clear EM.
    rewrite (rd_map _ raw tail (Z.of_nat mid0) 0) by lia. cbn [bind]. rewrite Nat2Z.id. unfold NULL.
    match goal with |- bind ?X _ = _ -> _ => assert (exists mid, X = Ok (Z.of_nat mid) /\ nth mid raw 0 <> 0 /\ (imin <= mid <= imax)%nat)
      as [mid [E1 [E2 E3]]] end.
    { destruct (nth mid0 raw 0 =? 0) eqn:E.
      - assert (mid0 <> imax) by (intro X; rewrite X in E; lia). assert (mid0 <> imin) by (intro X; rewrite X in E; lia).
        destruct (fwd_spec raw tail imax (Z.of_nat imax) m mid0) as [j [A [B [C D]]]]; auto; try lia.
        rewrite A. cbn [bind]. destruct (Z.of_nat j =? Z.of_nat imax) eqn:EJ.
        + replace j with imax in * by lia.
          destruct (bwd_spec raw tail imin (Z.of_nat imin) m imax) as [j2 [A2 [B2 [C2 D2]]]]; auto; try lia.
          rewrite A2. cbn [bind]. exists j2. repeat split; auto; try lia.
        + exists j. repeat split; auto; lia.
      - exists mid0. repeat split; auto; try lia. }
    rewrite E1. cbn [bind].
    rewrite (rd_map _ raw tail (Z.of_nat mid) 0) by lia. cbn [bind]. rewrite Nat2Z.id. unfold NULL.
    replace (nth mid raw 0 =? 0) with false by lia.
    destruct (id <=? key (nth mid raw 0)) eqn:EC; cbv beta iota zeta.
    - destruct (id =? key (nth imin raw 0)) eqn:F1; [intros Q; inversion Q; exists imin; repeat split; auto; lia|].
      destruct (id =? key (nth mid raw 0)) eqn:F2; [intros Q; inversion Q; exists mid; repeat split; auto; lia|].
      match goal with |- (if ?c then _ else _) = _ -> _ => destruct c end; [discriminate|]. apply IHn; auto; lia.
    - destruct (id =? key (nth mid raw 0)) eqn:F1; [intros Q; inversion Q; exists mid; repeat split; auto; lia|].
      destruct (id =? key (nth imax raw 0)) eqn:F2; [intros Q; inversion Q; exists imax; repeat split; auto; lia|].
      match goal with |- (if ?c then _ else _) = _ -> _ => destruct c end; [discriminate|]. apply IHn; auto; lia.
  Qed.

  (** Without any order: if a call returns, it removed the entry. *)
  Lemma RemSorted_any : forall l raw e fuel l' r, rep l raw ->
    (forall x y, In x (valid raw) -> In y (valid raw) -> key x = key y -> x = y) -> NoDup (valid raw) ->
    In e (valid raw) -> List_RemSorted key fuel l e = Ok (l', r) ->
    r = 1 /\ exists raw', rep l' raw' /\ valid raw' = remove1 e (valid raw) /\ length raw' = length raw.
  Proof.
    intros l raw e fuel l' r R INJ ND He. apply valid_In in He. destruct He as [He Hnz].
    destruct (In_nth raw e 0 He) as [k [Hk Ek]].
    unfold List_RemSorted. pose proof R as R0. destruct R as [p [r1 H]].
    rewrite (pars_rep _ _ _ _ _ H ltac:(lia)). cbn [nent nrem]. rewrite gaps_sum.
    set (m := S (S (Z.to_nat (Z.of_nat (length raw))))). assert (Hm : (length raw + 2 <= m)%nat) by (unfold m; lia).
    clearbody m. destruct (rp_tail _ _ _ _ _ H) as [tail Et]. rewrite Et.
    change 0 with (Z.of_nat 0) at 1. rewrite (rd_map _ raw tail (Z.of_nat 0) 0) by lia. cbn [bind]. rewrite Nat2Z.id. unfold NULL.
    assert (exists imin, (if nth 0 raw 0 =? 0 then '(f, i) <- fwd m (map Some raw ++ tail) 0 (Z.of_nat (length raw) - 1);; Ok i else Ok 0)
       = Ok (Z.of_nat imin) /\ (imin <= k)%nat /\ nth imin raw 0 <> 0) as [imin [A1 [A2 A3]]].
    { destruct (nth 0 raw 0 =? 0) eqn:E.
      - assert (k <> 0)%nat by (intro; subst; lia).
        destruct (fwd_spec raw tail k (Z.of_nat (length raw) - 1) m 0) as [j [A [B [C D]]]]; auto; try lia.
        change (Z.of_nat 0) with 0 in A. rewrite A. simpl. exists j. repeat split; auto; lia.
      - exists 0%nat. repeat split; auto; lia. }
    rewrite A1. cbn [bind].
    replace (Z.of_nat (length raw) - 1) with (Z.of_nat (length raw - 1)) by lia.
    rewrite (rd_map _ raw tail (Z.of_nat (length raw - 1)) 0) by lia. cbn [bind]. rewrite Nat2Z.id.
    assert (exists imax, (if nth (length raw - 1) raw 0 =? 0 then '(f, i) <- bwd m (map Some raw ++ tail) (Z.of_nat (length raw - 1)) (Z.of_nat imin);; Ok i else Ok (Z.of_nat (length raw - 1)))
       = Ok (Z.of_nat imax) /\ (k <= imax < length raw)%nat /\ nth imax raw 0 <> 0) as [imax [B1 [B2 B3]]].
    { destruct (nth (length raw - 1) raw 0 =? 0) eqn:E.
      - assert (k <> length raw - 1)%nat by (intro X; rewrite <- X in E; lia).
        destruct (bwd_spec raw tail k (Z.of_nat imin) m (length raw - 1)) as [j [A [B [C D]]]]; auto; try lia.
        rewrite A. simpl. exists j. repeat split; auto; lia.
      - exists (length raw - 1)%nat. repeat split; auto; lia. }
    rewrite B1. cbn [bind].
    rewrite (rd_map _ raw tail (Z.of_nat imin) 0) by lia. cbn [bind]. rewrite (rd_map _ raw tail (Z.of_nat imax) 0) by lia. cbn [bind].
    rewrite !Nat2Z.id. replace (nth imin raw 0 =? 0) with false by lia. replace (nth imax raw 0 =? 0) with false by lia. cbn [orb].
    destruct (bisect key fuel m (map Some raw ++ tail) (Z.of_nat imin) (Z.of_nat imax) (key (nth imin raw 0)) (key (nth imax raw 0)) (key e))
      as [[i|]| | |] eqn:EB; cbn [bind]; try discriminate.
    destruct (bisect_any raw tail m (key e) i Hm fuel imin imax) as [k' [K1 [K2 [K3 K4]]]]; auto; try lia. subst i.
    assert (EE : nth k' raw 0 = e).
    { apply INJ; auto; apply valid_In; split; auto. apply nth_In; auto. }
    destruct (blank_rep l raw k') as [l2 [BB R']]; auto.
    rewrite BB. cbn [bind]. intros Q. inversion Q. subst l2 r. split; auto. exists (upd_nth raw k' 0). split; auto. split; [|apply upd_nth_length].
    rewrite valid_upd0 by auto. rewrite (valid_self raw k') in * by auto. rewrite EE in *.
    rewrite remove1_app; auto. apply NoDup_remove_2 in ND. intro X. apply ND. apply in_or_app. auto.
  Qed.
End S.

Lemma RemSorted_spec : forall key l s e fuel, reachable l s -> StronglySorted (fun a b => key a < key b) s ->
  In e s -> List_Size_Raw l <= Z.of_nat fuel ->
  exists l', List_RemSorted key fuel l e = Ok (l', 1) /\ behaves l' (remove1 e s) (2 ^ 27 - 1 - List_Size_Raw l').
Proof.
  intros key l s e fuel H S He Hf. destruct (reachable_rep_len l s H) as [raw [R [V L]]]. rewrite L in Hf. rewrite <- V in *.
  destruct (RemSorted_rep key l raw e fuel R S He ltac:(lia)) as [l' [raw' [E [R' [V' _]]]]].
  exists l'. split; auto. rewrite <- V'. apply rep_behaves; auto.
Qed.
