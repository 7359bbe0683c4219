(** More lemmas about the model of List.c: block moves, walking, concatenation. *)
From Coq Require Import ZArith List Lia Bool Arith ZifyBool ZifyNat.
From Verif Require Import Base BaseProofs ListModel ListSpec ListHist ListProofs.
Import ListNotations.
Open Scope Z_scope.

Lemma memmove_insert : forall (raw : list Z) t tail j, (j < length raw)%nat ->
  memmove (map Some raw ++ t :: tail) (Z.of_nat j + 1) (Z.of_nat j) (Z.of_nat (length raw) - Z.of_nat j)
  = Ok (map Some (firstn (S j) raw ++ skipn j raw) ++ tail).
Proof.
  intros. unfold memmove. rewrite app_length, map_length. simpl length.
  match goal with |- context [if ?c then _ else _] => replace c with true by (symmetry; repeat (apply andb_true_iff; split); lia) end.
  f_equal. rewrite map_app, <- app_assoc. f_equal; [|f_equal].
  - rewrite firstn_app, map_length. replace (Z.to_nat (Z.of_nat j + 1) - length raw)%nat with 0%nat by lia.
    rewrite firstn_O, app_nil_r. replace (Z.to_nat (Z.of_nat j + 1)) with (S j) by lia. apply firstn_map.
  - rewrite Nat2Z.id. rewrite skipn_app, map_length. replace (j - length raw)%nat with 0%nat by lia.
    rewrite skipn_O. rewrite skipn_map. rewrite firstn_app, map_length, skipn_length.
    replace (Z.to_nat (Z.of_nat (length raw) - Z.of_nat j) - (length raw - j))%nat with 0%nat by lia.
    rewrite firstn_O, app_nil_r. rewrite firstn_all2; auto. rewrite map_length, skipn_length. lia.
  - rewrite skipn_app, map_length. rewrite skipn_all2 by (rewrite map_length; lia). simpl.
    replace (Z.to_nat (Z.of_nat j + 1 + (Z.of_nat (length raw) - Z.of_nat j)) - length raw)%nat with 1%nat by lia.
    reflexivity.
Qed.

Lemma firstn_S : forall (raw : list Z) j, (j < length raw)%nat -> firstn (S j) raw = firstn j raw ++ [nth j raw 0].
Proof.
  induction raw; destruct j; simpl; intros; try lia; auto. f_equal. apply IHraw. lia.
Qed.

Lemma upd_insert : forall (raw : list Z) j nu, (j < length raw)%nat ->
  upd_nth (firstn (S j) raw ++ skipn j raw) j nu = insert_at j nu raw.
Proof.
  intros. rewrite firstn_S by auto. rewrite <- app_assoc. unfold insert_at.
  pose proof (upd_nth_app2 _ (firstn j raw) ([nth j raw 0] ++ skipn j raw) 0 nu) as E.
  rewrite firstn_length, Nat.min_l, Nat.add_0_r in E by lia. rewrite E. reflexivity.
Qed.

Lemma insert_at_length : forall j x s, length (insert_at j x s) = S (length s).
Proof.
  intros. unfold insert_at. rewrite app_length. simpl. rewrite firstn_length, skipn_length. lia.
Qed.

Lemma insert_at_valid : forall raw j x, x <> 0 ->
  valid (insert_at j x raw) = valid (firstn j raw) ++ x :: valid (skipn j raw).
Proof. intros. unfold insert_at. rewrite valid_app. simpl. rewrite isv_true; auto. Qed.

Lemma insert_at_vlen : forall raw j x, x <> 0 ->
  length (valid (insert_at j x raw)) = S (length (valid raw)).
Proof.
  intros. rewrite insert_at_valid by auto. rewrite <- (firstn_skipn j raw) at 3.
  rewrite valid_app, !app_length. simpl. lia.
Qed.

Lemma prefix_ok_insert : forall raw j x r, x <> 0 -> (j <= length raw)%nat -> prefix_ok raw r -> prefix_ok (insert_at j x raw) r.
Proof.
  intros raw j x r Hx Hj H k Hk. destruct (H k Hk) as [A B]. rewrite insert_at_length. split; [lia|].
  unfold insert_at. destruct (Nat.lt_ge_cases k j).
  - rewrite app_nth1 by (rewrite firstn_length; lia).
    rewrite <- (firstn_skipn j raw), app_nth1 in B by (rewrite firstn_length; lia). auto.
  - rewrite app_nth2 by (rewrite firstn_length; lia). rewrite firstn_length.
    replace (Nat.min j (length raw)) with j by lia.
    destruct (k - j)%nat eqn:E; simpl; auto.
    rewrite <- (firstn_skipn (S j) raw) in H.
    destruct (H (k - 1)%nat) as [A' B']; [lia|]. rewrite firstn_skipn in B'.
    rewrite <- (firstn_skipn j raw) in B'. rewrite app_nth2 in B' by (rewrite firstn_length; lia).
    rewrite firstn_length in B'. replace (Nat.min j (length raw)) with j in B' by lia.
    replace (k - 1 - j)%nat with n in B' by lia. auto.
Qed.

(** Insertion of an entry at raw position j of the array after [grow]. *)
Lemma ins_core : forall l raw p r1 nu j, rep_at 0 l raw p r1 -> nu <> 0 ->
  Z.of_nat (length raw) + 1 < 2 ^ 27 -> (j < length raw)%nat ->
  forall p' a, grow (mkP (Z.of_nat (length (valid raw))) p (gaps raw) r1) (entry l) = Ok (p', a) ->
  exists a1 a2, memmove a (Z.of_nat j + 1) (Z.of_nat j) (Z.of_nat (length raw) - Z.of_nat j) = Ok a1 /\
     wr a1 (Z.of_nat j) nu = Ok a2 /\
     forall l0, rep (Set_Pars (set_entry l0 a2) (Z.of_nat (length (valid raw)) + 1) p' (gaps raw) r1) (insert_at j nu raw).
Proof.
  intros l raw p r1 nu j H Hn HL Hj p' a G.
  destruct (grow_rep _ _ _ _ H HL) as [p'' [a' [t [tail [G' [P1 [P2 [P3 P4]]]]]]]].
  rewrite G in G'. inversion G'. subst p'' a'. subst a.
  exists (map Some (firstn (S j) raw ++ skipn j raw) ++ tail), (map Some (insert_at j nu raw) ++ tail).
  split; [apply memmove_insert; auto|]. split.
  - rewrite wr_map by (rewrite ?app_length, ?firstn_length, ?skipn_length; lia).
    rewrite Nat2Z.id, upd_insert; auto.
  - intro l0. pose proof (rp_r1 _ _ _ _ _ H) as R.
    assert (HG : gaps (insert_at j nu raw) = gaps raw).
    { unfold gaps. rewrite insert_at_vlen, insert_at_length by auto. lia. }
    eapply rep_set; eauto; rewrite ?insert_at_length, ?insert_at_vlen by auto; try lia.
    + intros NZ. replace (gaps raw =? 0) with false in R by lia. destruct R. split; [lia|].
      apply prefix_ok_insert; auto. lia.
    + rewrite app_length, map_length, insert_at_length. rewrite app_length, map_length in P4. simpl in P4. lia.
Qed.

Lemma Inserti_rep : forall l raw nu i, rep l raw -> nu <> 0 -> (i <= length (valid raw))%nat ->
  Z.of_nat (length raw) + 1 < 2 ^ 27 ->
  exists l' raw', List_Inserti l nu (Z.of_nat i) = Ok (l', 1) /\ rep l' raw' /\
    valid raw' = insert_at i nu (valid raw) /\ length raw' = S (length raw).
Proof.
  intros l raw nu i R Hn Hi HL. destruct R as [p [r1 H]]. unfold List_Inserti.
  rewrite (pars_rep _ _ _ _ _ H ltac:(lia)).
  destruct (Nat.eq_dec i (length (valid raw))) as [E|E].
  - destruct (Add_tail_rep _ _ _ _ _ H Hn HL) as [p' [a [a' [G [W R]]]]].
    rewrite G. simpl. replace (Z.of_nat i =? Z.of_nat (length (valid raw))) with true by lia.
    rewrite gaps_sum, W. simpl. do 2 eexists. split; [reflexivity|]. split; [exact R|].
    split; [|rewrite app_length; simpl; lia]. rewrite valid_app. simpl. rewrite isv_true by auto.
    unfold insert_at. rewrite firstn_all2 by lia. rewrite skipn_all2 by lia. auto.
  - destruct (grow_rep _ _ _ _ H HL) as [p' [a [t [tail [G [P1 [P2 [P3 P4]]]]]]]].
    rewrite G. simpl. replace (Z.of_nat i =? Z.of_nat (length (valid raw))) with false by lia.
    destruct (locate_ith_rep 0 (set_entry l a) l raw p r1 (Z.of_nat i) a (t :: tail) H ltac:(lia)) as [j [A B]]; auto; try lia.
    rewrite B. simpl. rewrite Z.eqb_refl. simpl. rewrite Nat2Z.id in A.
    destruct (vpos_split _ _ _ A) as [C1 [C2 _]]. destruct (vpos_valid _ _ _ A) as [_ [D1 [_ D2]]].
    rewrite gaps_sum. destruct (ins_core _ _ _ _ _ j H Hn HL C1 _ _ G) as [a1 [a2 [M [W RR]]]].
    rewrite M. simpl. rewrite W. simpl. do 2 eexists. split; [reflexivity|]. split; [apply RR|].
    split; [|apply insert_at_length]. rewrite insert_at_valid by auto. rewrite D1, D2. reflexivity.
Qed.

(** What List_Insert really does: it inserts before the first raw entry that is
    different from b4entry. *)
Lemma insert_loop_spec : forall raw tail b n ip, n = (length raw - ip)%nat -> (ip <= length raw)%nat ->
  insert_loop n (map Some raw ++ tail) (Z.of_nat ip) b =
  Ok (match find (fun j => negb (nth j raw 0 =? b)) (seq ip n) with
      | Some j => Z.of_nat j | None => Z.of_nat (length raw) end).
Proof.
  intros raw tail b. induction n; intros ip Hn Hip; simpl.
  - f_equal. lia.
  - rewrite (rd_map _ raw tail (Z.of_nat ip) 0) by lia. simpl. rewrite Nat2Z.id.
    destruct (nth ip raw 0 =? b) eqn:E; simpl; auto.
    replace (Z.of_nat ip + 1) with (Z.of_nat (S ip)) by lia. apply IHn; lia.
Qed.

(** ** Walking *)

Lemma next_valid_spec : forall raw tail n ip, n = (length raw - ip)%nat -> (ip <= length raw)%nat ->
  next_valid n (map Some raw ++ tail) (Z.of_nat ip) =
  Ok (match vpos (skipn ip raw) 0 with
      | Some j => Some (Z.of_nat (ip + j) + 1, nth (ip + j) raw 0) | None => None end).
Proof.
  intros raw tail. induction n; intros ip Hn Hip; simpl.
  - rewrite skipn_all2 by lia. auto.
  - rewrite (rd_map _ raw tail (Z.of_nat ip) 0) by lia. simpl. rewrite Nat2Z.id. unfold NULL.
    assert (ES : skipn ip raw = nth ip raw 0 :: skipn (S ip) raw).
    { clear - Hn. revert raw Hn. induction ip; destruct raw; simpl; intros; try lia; auto.
      apply IHip. lia. }
    rewrite ES. specialize (IHn (S ip)). remember (skipn (S ip) raw) as rest eqn:ER. simpl.
    replace (Z.of_nat ip + 1) with (Z.of_nat (S ip)) by lia.
    destruct (nth ip raw 0 =? 0) eqn:E.
    + rewrite IHn by lia. destruct (vpos rest 0); simpl; do 3 f_equal; try lia.
      replace (ip + S n0)%nat with (S (ip + n0)) by lia. auto.
    + rewrite Nat.add_0_r. do 3 f_equal. lia.
Qed.

(** One step of a walk: it returns the first valid entry at or after idx. *)
Lemma Next_rep : forall l raw idx, wrep l raw ->
  List_Next_Entry l (Z.of_nat idx) =
  Ok (match vpos (skipn idx raw) 0 with
      | Some j => (Z.of_nat (idx + j) + 1, nth (idx + j) raw 0)
      | None => (Z.of_nat idx, 0) end).
Proof.
  intros l raw idx R. pose proof R as R0. destruct R as [p [r1 H]]. unfold List_Next_Entry.
  rewrite (pars_rep _ _ _ _ _ H ltac:(lia)). simpl. rewrite gaps_sum.
  destruct (Z.of_nat idx >=? Z.of_nat (length raw)) eqn:E.
  - rewrite orb_true_r. rewrite skipn_all2 by lia. auto.
  - replace (Z.of_nat idx <? 0) with false by lia. simpl.
    rewrite (rd_rep l raw) by (auto; lia). simpl. rewrite Nat2Z.id. unfold NULL.
    destruct (rp_tail _ _ _ _ _ H) as [t Et]. rewrite Et.
    replace (Z.to_nat (Z.of_nat (length raw) - Z.of_nat idx)) with (length raw - idx)%nat by lia.
    assert (ES : skipn idx raw = nth idx raw 0 :: skipn (S idx) raw).
    { assert (idx < length raw)%nat by lia. clear - H0. revert raw H0. induction idx; destruct raw; simpl; intros; try lia; auto.
      apply IHidx. lia. }
    destruct (nth idx raw 0 =? 0) eqn:E2; simpl.
    + rewrite next_valid_spec by lia. simpl. destruct (vpos (skipn idx raw) 0); auto.
    + rewrite ES. remember (skipn (S idx) raw) as rest. simpl. rewrite E2. rewrite Nat.add_0_r. auto.
Qed.

Lemma skipn_skipn_z : forall (l : list Z) a b, skipn a (skipn b l) = skipn (b + a) l.
Proof.
  intros l a b. revert l. induction b; destruct l; simpl; auto. destruct a; auto.
Qed.

Lemma vpos0_valid : forall raw, match vpos raw 0 with
  | Some j => valid raw = nth j raw 0 :: valid (skipn (S j) raw) /\ nth j raw 0 <> 0 /\ (j < length raw)%nat
  | None => valid raw = [] end.
Proof.
  intros. destruct (vpos raw 0) eqn:E.
  - destruct (vpos_valid _ _ _ E) as [A [B [C D]]]. destruct (vpos_split _ _ _ E) as [F [G _]].
    split; auto. rewrite C. rewrite <- A. destruct (valid raw); simpl in *; auto. exfalso. rewrite <- A in G. auto.
  - destruct (valid raw) eqn:V; auto.
    destruct (vpos_some raw 0) as [j Hj]; [rewrite V; simpl; lia|]. congruence.
Qed.

Lemma nth_skipn_z : forall (l : list Z) a b, nth a (skipn b l) 0 = nth (b + a) l 0.
Proof.
  intros l a b. revert l. induction b; destruct l; simpl; auto. destruct a; auto.
Qed.

Lemma walk_rep : forall l raw, wrep l raw -> forall n idx, (length raw - idx < n)%nat ->
  walk_from n l (Z.of_nat idx) = Ok (valid (skipn idx raw)).
Proof.
  intros l raw R. induction n; intros idx Hn; [lia|]. simpl.
  rewrite (Next_rep l raw) by auto.
  pose proof (vpos0_valid (skipn idx raw)) as V.
  destruct (vpos (skipn idx raw) 0) eqn:E; simpl; unfold NULL.
  - destruct V as [V1 [V2 V3]]. rewrite nth_skipn_z in V1, V2. rewrite skipn_length in V3.
    replace (nth (idx + n0) raw 0 =? 0) with false by lia.
    replace (Z.of_nat (idx + n0) + 1) with (Z.of_nat (S (idx + n0))) by lia.
    rewrite IHn by lia. simpl. rewrite V1. rewrite skipn_skipn_z.
    replace (idx + S n0)%nat with (S (idx + n0)) by lia. auto.
  - rewrite V. auto.
Qed.

Lemma Walk_rep : forall l raw, wrep l raw -> List_Walk l = Ok (valid raw).
Proof.
  intros l raw R. unfold List_Walk. change 0 with (Z.of_nat 0). rewrite (walk_rep l raw); auto.
  destruct R as [p [r1 H]]. destruct (rp_tail _ _ _ _ _ H) as [t E]. rewrite E, app_length, map_length. lia.
Qed.

(** ** Compression *)

Definition nz (s : list Z) : Prop := forall x, In x s -> x <> 0.

Lemma nz_valid : forall s, nz s -> valid s = s.
Proof.
  induction s; intros H; simpl; auto. rewrite isv_true by (apply H; left; auto).
  f_equal. apply IHs. intros x Hx. apply H. right; auto.
Qed.

Lemma valid_nz : forall s, nz (valid s).
Proof. intros s x Hx. apply valid_In in Hx. tauto. Qed.

Lemma valid_zeros : forall n, valid (repeat 0 n) = [].
Proof. induction n; simpl; auto. Qed.

Lemma rd_mid : forall (l1 : list Z) x l2 tail, rd (map Some (l1 ++ x :: l2) ++ tail) (Z.of_nat (length l1)) = Ok x.
Proof.
  intros. rewrite (rd_map _ _ _ _ 0) by (rewrite ?app_length; simpl; lia).
  rewrite Nat2Z.id, app_nth2 by lia. rewrite Nat.sub_diag. auto.
Qed.

Lemma find_null_down_none : forall pre rest tail m, nz pre -> (length pre <= m)%nat ->
  find_null_down m (map Some (pre ++ rest) ++ tail) (Z.of_nat (length pre) - 1) = Ok (false, -1).
Proof.
  induction pre using rev_ind; intros rest tail m H Hm.
  - destruct m; reflexivity.
  - rewrite app_length in *. simpl in *. destruct m; [lia|]. simpl.
    replace (Z.of_nat (length pre + 1) - 1 <? 0) with false by lia.
    replace (Z.of_nat (length pre + 1) - 1) with (Z.of_nat (length pre)) by lia.
    rewrite <- app_assoc. simpl. rewrite rd_mid. simpl. unfold NULL.
    assert (x <> 0) by (apply H; apply in_or_app; right; left; auto).
    replace (x =? 0) with false by lia. apply (IHpre (x :: rest)); [|lia].
    intros y Hy. apply H. apply in_or_app; auto.
Qed.

Lemma find_null_down_some : forall mid pre1 rest tail m, nz mid -> (length (pre1 ++ 0%Z :: mid) <= m)%nat ->
  find_null_down m (map Some (pre1 ++ 0 :: mid ++ rest) ++ tail) (Z.of_nat (length (pre1 ++ 0 :: mid)) - 1)
  = Ok (true, Z.of_nat (length pre1)).
Proof.
  induction mid using rev_ind; intros pre1 rest tail m H Hm.
  - rewrite app_length in *. simpl in *. destruct m; [lia|]. simpl.
    replace (Z.of_nat (length pre1 + 1) - 1 <? 0) with false by lia.
    replace (Z.of_nat (length pre1 + 1) - 1) with (Z.of_nat (length pre1)) by lia.
    rewrite rd_mid. reflexivity.
  - replace (length (pre1 ++ 0 :: mid ++ [x])) with (S (length (pre1 ++ 0 :: mid))) in * by (rewrite !app_length; simpl; rewrite app_length; simpl; lia).
    destruct m; [lia|]. simpl.
    replace (Z.of_nat (S (length (pre1 ++ 0 :: mid))) - 1 <? 0) with false by lia.
    replace (Z.of_nat (S (length (pre1 ++ 0 :: mid))) - 1) with (Z.of_nat (length (pre1 ++ 0 :: mid))) by lia.
    replace (pre1 ++ 0 :: (mid ++ [x]) ++ rest) with ((pre1 ++ 0 :: mid) ++ x :: rest)
      by (rewrite <- !app_assoc; reflexivity).
    rewrite rd_mid. simpl. unfold NULL.
    assert (x <> 0) by (apply H; apply in_or_app; right; left; auto).
    replace (x =? 0) with false by lia.
    replace ((pre1 ++ 0 :: mid) ++ x :: rest) with (pre1 ++ 0 :: mid ++ (x :: rest)) by (rewrite <- app_assoc; auto).
    apply IHmid; [|lia]. intros y Hy. apply H. apply in_or_app; auto.
Qed.

Definition ends_nz (s : list Z) : Prop := s = [] \/ exists t y, s = t ++ [y] /\ y <> 0.

Lemma repeat_snoc : forall (z : nat), repeat 0 (S z) = repeat 0 z ++ [0].
Proof. induction z; simpl in *; auto. f_equal. auto. Qed.

Lemma block_begin_spec : forall z pre2 rest tail m kb, ends_nz pre2 -> (length pre2 + z <= m)%nat ->
  block_begin m (map Some (pre2 ++ repeat 0 z ++ rest) ++ tail) (Z.of_nat (length pre2 + z) - 1) kb
  = Ok (if (z =? 0)%nat then kb else Z.of_nat (length pre2)).
Proof.
  induction z; intros pre2 rest tail m kb H Hm.
  - simpl. destruct H as [H|[t [y [H Hy]]]].
    + subst. destruct m; reflexivity.
    + subst. rewrite app_length in *. simpl in *. destruct m; [lia|]. simpl.
      replace (Z.of_nat (length t + 1 + 0) - 1 <? 0) with false by lia.
      replace (Z.of_nat (length t + 1 + 0) - 1) with (Z.of_nat (length t)) by lia.
      rewrite <- app_assoc. simpl. rewrite rd_mid. simpl. unfold NULL. replace (y =? 0) with false by lia. auto.
  - destruct m; [lia|]. simpl (S z =? 0)%nat. cbv iota. cbn [block_begin].
    replace (Z.of_nat (length pre2 + S z) - 1 <? 0) with false by lia.
    rewrite (repeat_snoc z).
    replace (pre2 ++ (repeat 0 z ++ [0]) ++ rest) with ((pre2 ++ repeat 0 z) ++ 0 :: rest) by (rewrite <- !app_assoc; auto).
    replace (Z.of_nat (length pre2 + S z) - 1) with (Z.of_nat (length (pre2 ++ repeat 0 z))) by (rewrite app_length, repeat_length; lia).
    rewrite rd_mid. simpl.
    replace (Z.of_nat (length (pre2 ++ repeat 0 z)) - 1) with (Z.of_nat (length pre2 + z) - 1) by (rewrite app_length, repeat_length; lia).
    rewrite <- app_assoc. rewrite (IHz pre2 (0 :: rest)) by (auto; lia).
    destruct z; auto. simpl. rewrite app_length. simpl. f_equal. lia.
Qed.

Lemma decomp_tail : forall s, exists pre2 z, s = pre2 ++ repeat 0 z /\ ends_nz pre2.
Proof.
  induction s using rev_ind.
  - exists [], 0%nat. split; auto. left; auto.
  - destruct (Z.eq_dec x 0).
    + subst. destruct IHs as [p2 [z [A B]]]. exists p2, (S z). rewrite repeat_snoc, app_assoc, <- A. auto.
    + exists (s ++ [x]), 0%nat. simpl. rewrite app_nil_r. split; auto. right. eauto.
Qed.

Lemma decomp : forall s, nz s \/ exists pre2 z mid, s = pre2 ++ repeat 0 (S z) ++ mid /\ ends_nz pre2 /\ nz mid.
Proof.
  induction s using rev_ind.
  - left. intros x [].
  - destruct (Z.eq_dec x 0).
    + right. subst. destruct (decomp_tail s) as [p2 [z [A B]]].
      exists p2, z, []. rewrite repeat_snoc, app_nil_r. split; [rewrite app_assoc, <- A; auto|]. split; auto. intros y [].
    + destruct IHs as [H|[p2 [z [mid [A [B C]]]]]].
      * left. intros y Hy. apply in_app_or in Hy. destruct Hy as [Hy|[Hy|[]]]; auto. subst; auto.
      * right. exists p2, z, (mid ++ [x]). split.
        { rewrite A. rewrite <- !app_assoc. auto. }
        split; auto. intros y Hy. apply in_app_or in Hy. destruct Hy as [Hy|[Hy|[]]]; auto. subst; auto.
Qed.

Lemma compress_loop_spec : forall n m pre suf tail, (length pre < n)%nat -> (length pre <= m)%nat -> nz suf ->
  exists tail', compress_loop n m (map Some (pre ++ suf) ++ tail) (Z.of_nat (length pre)) (Z.of_nat (length pre + length suf))
  = Ok (map Some (valid pre ++ suf) ++ tail') /\ (length (valid pre) + length tail' = length pre + length tail)%nat.
Proof.
  induction n; intros m pre suf tail Hn Hm Hs; [lia|]. cbn [compress_loop].
  destruct (decomp pre) as [H|[pre2 [z [mid [E [H1 H2]]]]]].
  - rewrite find_null_down_none by auto. simpl. exists tail. rewrite nz_valid by auto. split; auto.
  - assert (EL : length pre = (length pre2 + S z + length mid)%nat) by (subst; rewrite !app_length, repeat_length; lia).
    assert (E1 : pre = (pre2 ++ repeat 0 z) ++ 0 :: mid).
    { rewrite E, repeat_snoc, <- !app_assoc. auto. }
    assert (E2 : pre ++ suf = (pre2 ++ repeat 0 z) ++ 0 :: mid ++ suf) by (rewrite E1, <- app_assoc; auto).
    assert (VP : valid pre = valid pre2 ++ mid).
    { rewrite E, !valid_app, valid_zeros. simpl. rewrite (nz_valid mid); auto. }
    rewrite E2. replace (Z.of_nat (length pre) - 1) with (Z.of_nat (length ((pre2 ++ repeat 0 z) ++ 0 :: mid)) - 1)
      by (rewrite <- E1; auto).
    rewrite find_null_down_some by (rewrite <- ?E1; auto). cbn [bind negb].
    rewrite app_length, repeat_length.
    assert (E3 : (pre2 ++ repeat 0 z) ++ 0 :: mid ++ suf = pre2 ++ repeat 0 (S z) ++ (mid ++ suf)).
    { rewrite repeat_snoc, <- !app_assoc. auto. }
    rewrite E3. replace (Z.of_nat (length pre2 + z)) with (Z.of_nat (length pre2 + S z) - 1) by lia.
    rewrite block_begin_spec by (auto; lia). cbn [bind Nat.eqb].
    destruct (Z.of_nat (length pre2 + S z) - 1 =? Z.of_nat (length pre + length suf) - 1) eqn:EQ.
    + assert (length mid = 0 /\ length suf = 0)%nat as [M0 S0] by lia.
      destruct mid; [|simpl in M0; lia]. destruct suf; [|simpl in S0; lia].
      rewrite !app_nil_r. rewrite map_app, <- app_assoc.
      replace (Z.of_nat (length pre + length (@nil Z)) - (Z.of_nat (length pre2 + S z) - 1 - Z.of_nat (length pre2) + 1))
        with (Z.of_nat (length pre2 + length (@nil Z))) by (simpl length in *; lia).
      destruct (IHn m pre2 [] (map Some (repeat 0 (S z)) ++ tail)) as [t' [A B]]; try lia; auto.
      rewrite app_nil_r in A. rewrite A. exists t'. rewrite VP, !app_nil_r. split; auto.
      rewrite app_length, map_length, repeat_length in B. simpl length in *. lia.
    + unfold memmove.
      set (arr := map Some (pre2 ++ repeat 0 (S z) ++ mid ++ suf) ++ tail).
      assert (LA : length arr = (length pre + length suf + length tail)%nat).
      { unfold arr. rewrite app_length, map_length, !app_length, repeat_length. lia. }
      match goal with |- context [if ?c then _ else _] => replace c with true by (symmetry; repeat (apply andb_true_iff; split); lia) end.
      cbn [bind].
      assert (F1 : firstn (Z.to_nat (Z.of_nat (length pre2))) arr = map Some pre2).
      { rewrite Nat2Z.id. unfold arr. rewrite map_app, <- app_assoc. rewrite firstn_app, map_length, Nat.sub_diag, firstn_O, app_nil_r.
        apply firstn_all2. rewrite map_length. lia. }
      assert (F2 : firstn (Z.to_nat (Z.of_nat (length pre + length suf) - (Z.of_nat (length pre2 + S z) - 1 + 1)))
                     (skipn (Z.to_nat (Z.of_nat (length pre2 + S z) - 1 + 1)) arr) = map Some (mid ++ suf)).
      { replace (Z.to_nat (Z.of_nat (length pre2 + S z) - 1 + 1)) with (length (pre2 ++ repeat 0 (S z)))
          by (rewrite app_length, repeat_length; lia).
        unfold arr. rewrite (app_assoc pre2). rewrite (map_app Some (pre2 ++ repeat 0 (S z))), <- app_assoc.
        rewrite skipn_app, map_length, Nat.sub_diag, skipn_O.
        rewrite skipn_all2 by (rewrite map_length; lia). simpl app.
        rewrite firstn_app.
        replace (Z.to_nat (Z.of_nat (length pre + length suf) - (Z.of_nat (length pre2 + S z) - 1 + 1)) - length (map Some (mid ++ suf)))%nat with 0%nat
          by (rewrite map_length, app_length; lia).
        rewrite firstn_O, app_nil_r. apply firstn_all2. rewrite map_length, app_length. lia. }
      rewrite F1, F2.
      set (rest := skipn (Z.to_nat (Z.of_nat (length pre2) + (Z.of_nat (length pre + length suf) - (Z.of_nat (length pre2 + S z) - 1 + 1)))) arr).
      assert (LR : length rest = (S z + length tail)%nat).
      { unfold rest. rewrite skipn_length, LA. lia. }
      rewrite app_assoc, <- map_app.
      replace (Z.of_nat (length pre + length suf) - (Z.of_nat (length pre2 + S z) - 1 - Z.of_nat (length pre2) + 1))
        with (Z.of_nat (length pre2 + length (mid ++ suf))) by (rewrite app_length; lia).
      destruct (IHn m pre2 (mid ++ suf) rest) as [t' [A B]]; try lia.
      { intros y Hy. apply in_app_or in Hy. destruct Hy; auto. }
      rewrite A. exists t'. rewrite VP, <- app_assoc. split; auto.
      rewrite app_length. lia.
Qed.

Lemma Compress_rep : forall l raw, rep l raw -> exists l', List_Compress l = Ok l' /\ rep l' (valid raw).
Proof.
  intros l raw [p [r1 H]]. unfold List_Compress. rewrite (pars_rep _ _ _ _ _ H ltac:(lia)). cbn [nrem nent lp rem1].
  pose proof (rp_p _ _ _ _ _ H). pose proof (rp_len _ _ _ _ _ H). pose proof (rp_alloc _ _ _ _ _ H). pose proof (rp_cap _ _ _ _ _ H). destruct (gaps raw =? 0) eqn:EG.
  - exists l. split; auto. rewrite valid_all by (unfold gaps in EG; pose proof (valid_len raw); lia). exists p, r1. auto.
  - destruct (rp_tail _ _ _ _ _ H) as [t E]. rewrite gaps_sum, Nat2Z.id, E.
    destruct (compress_loop_spec (S (length raw)) (S (length raw)) raw [] t) as [t' [A B]]; try lia.
    { intros x []. }
    rewrite app_nil_r in A. simpl (length []) in A. rewrite Nat.add_0_r in A. rewrite A. cbn [bind].
    eexists. split; [reflexivity|]. rewrite app_nil_r.
    pose proof (valid_len raw).
    eapply rep_set; eauto; rewrite ?valid_idem; auto; try lia.
    + unfold gaps. rewrite valid_idem. lia.
    + rewrite E in H2. rewrite app_length, map_length in *. lia.
Qed.

(** ** Concatenation *)

Lemma Cat_core : forall d s rawd raws pd rd ps rs, rep_at 0 d rawd pd rd -> rep_at 0 s raws ps rs ->
  Z.of_nat (length rawd) + Z.of_nat (length raws) < 2 ^ 27 ->
  exists p a tail, List_Cat d s = Ok (Set_Pars (set_entry d a) (Z.of_nat (length (valid rawd)) + Z.of_nat (length (valid raws))) p
      (gaps rawd + gaps raws) (if gaps rawd + gaps raws =? 0 then -1 else rd)) /\ 0 <= p <= 30 /\
    a = map Some (rawd ++ raws) ++ tail /\ 2 ^ p - 1 <= Z.of_nat (length a) /\ Z.of_nat (length (rawd ++ raws)) <= 2 ^ p - 1.
Proof.
  intros d s rawd raws pd rd_ ps rs Hd Hs HL. unfold List_Cat.
  rewrite (pars_rep _ _ _ _ _ Hd ltac:(lia)), (pars_rep _ _ _ _ _ Hs ltac:(lia)). cbn [nrem nent lp rem1].
  rewrite !gaps_sum.
  pose proof (rp_p _ _ _ _ _ Hd). pose proof (rp_len _ _ _ _ _ Hd). pose proof (rp_alloc _ _ _ _ _ Hd). pose proof (rp_cap _ _ _ _ _ Hd).
  pose proof (rp_p _ _ _ _ _ Hs). pose proof (rp_len _ _ _ _ _ Hs). pose proof (rp_alloc _ _ _ _ _ Hs). pose proof (rp_cap _ _ _ _ _ Hs).
  destruct (rp_tail _ _ _ _ _ Hd) as [td Ed]. destruct (rp_tail _ _ _ _ _ Hs) as [ts Es].
  destruct (find_p_spec (Z.of_nat (length rawd) + Z.of_nat (length raws)) 32 (if pd >? ps then pd else ps)) as [p [F1 [F2 [F3 F4]]]];
    try (destruct (pd >? ps); lia).
  rewrite F1. cbn [bind]. assert (pd <= p) by (destruct (pd >? ps) eqn:?; lia).
  rewrite shl1_ok by lia. cbn [bind].
  assert (exists a0 t0, (if p >? pd then (p, resize (entry d) (2 ^ p - 1)) else (pd, entry d)) = (p, a0) /\
     a0 = map Some rawd ++ t0 /\ 2 ^ p - 1 <= Z.of_nat (length a0)) as [a0 [t0 [EA [EB EC]]]].
  { destruct (p >? pd) eqn:EP.
    - destruct (resize_prefix _ rawd td (2 ^ p - 1)) as [t' Et']; [lia|].
      exists (resize (entry d) (2 ^ p - 1)), t'. split; auto. split; [rewrite Ed; auto|].
      rewrite resize_length; lia.
    - exists (entry d), td. replace p with pd by lia. auto. }
  rewrite EA. unfold memcpy.
  assert (LA : (length a0 = length rawd + length t0)%nat) by (rewrite EB, app_length, map_length; auto).
  rewrite Es, app_length, map_length.
  match goal with |- context [if ?c then Ok _ else Undef] => replace c with true by (symmetry; repeat (apply andb_true_iff; split); lia) end.
  cbn [bind].
  assert (ER : (if (gaps rawd + gaps raws =? 0) && negb (gaps raws =? 0) then rs else rd_) = (if gaps rawd + gaps raws =? 0 then -1 else rd_)).
  { pose proof (gaps_nonneg rawd). pose proof (gaps_nonneg raws).
    destruct (gaps rawd + gaps raws =? 0) eqn:EG; auto. simpl.
    replace (gaps raws =? 0) with true by lia. simpl. pose proof (rp_r1 _ _ _ _ _ Hd) as RR. replace (gaps rawd =? 0) with true in RR by lia. auto. }
  rewrite ER.
  exists p, (map Some (rawd ++ raws) ++ skipn (Z.to_nat (Z.of_nat (length rawd) + Z.of_nat (length raws))) a0),
     (skipn (Z.to_nat (Z.of_nat (length rawd) + Z.of_nat (length raws))) a0).
  split.
  - do 3 f_equal. rewrite map_app, <- app_assoc. f_equal; [|f_equal].
    + rewrite Nat2Z.id, EB. rewrite firstn_app, map_length, Nat.sub_diag, firstn_O, app_nil_r. apply firstn_all2. rewrite map_length; lia.
    + rewrite Nat2Z.id. rewrite firstn_app, map_length, Nat.sub_diag, firstn_O, app_nil_r. apply firstn_all2. rewrite map_length; lia.
  - split; [lia|]. split; auto. split.
    + rewrite app_length, map_length, skipn_length, app_length. lia.
    + rewrite app_length. lia.
Qed.

Lemma Cat_rep : forall d s rawd raws, rep d rawd -> rep s raws ->
  Z.of_nat (length rawd) + Z.of_nat (length raws) < 2 ^ 27 ->
  exists d', List_Cat d s = Ok d' /\ wrep d' (rawd ++ raws) /\
    (gaps rawd <> 0 \/ gaps raws = 0 -> rep d' (rawd ++ raws)).
Proof.
  intros d s rawd raws [pd [rd_ Hd]] [ps [rs Hs]] HL.
  destruct (Cat_core _ _ _ _ _ _ _ _ Hd Hs HL) as [p [a [tail [E [P1 [P2 [P3 P4]]]]]]].
  eexists. split; [exact E|].
  pose proof (rp_r1 _ _ _ _ _ Hd) as R. pose proof (gaps_nonneg rawd). pose proof (gaps_nonneg raws).
  split.
  - exists p, (if gaps rawd + gaps raws =? 0 then -1 else rd_).
    constructor; auto; rewrite ?gaps_app, ?app_length.
    + lia.
    + simpl. rewrite valid_app, app_length, Nat2Z.inj_add. auto.
    + simpl. destruct (gaps rawd + gaps raws =? 0); auto.
    + destruct (gaps rawd + gaps raws =? 0) eqn:EG; auto.
      destruct (gaps rawd =? 0) eqn:EG2.
      * subst rd_. split; [lia|]. intros j Hj. lia.
      * destruct R. split; [lia|]. apply prefix_ok_app. auto.
    + simpl. subst a. eauto.
  - intros C. eapply rep_set; eauto; rewrite ?gaps_app, ?app_length; auto; try lia.
    + rewrite valid_app, app_length. lia.
    + intros NZ. replace (gaps rawd + gaps raws =? 0) with false by lia.
      replace (gaps rawd =? 0) with false in R by lia. destruct R. split; [lia|]. apply prefix_ok_app. auto.
Qed.

(** ** Histories *)

Lemma mstep_rep : forall l raw o, rep l raw -> lpre (valid raw) o -> Z.of_nat (length raw) + 1 < 2 ^ 27 ->
  exists l' raw', mstep l o = Ok (l', snd (lstep (valid raw) o)) /\ rep l' raw' /\
     valid raw' = fst (lstep (valid raw) o) /\ (length raw' <= S (length raw))%nat.
Proof.
  intros l raw o R Hp HL. destruct o; cbn [mstep lstep lpre fst snd] in *.
  - destruct (Add_rep _ _ x R Hp HL) as [l' [E R']]. rewrite E. cbn [bind].
    exists l', (raw ++ [x]). repeat split; auto.
    + rewrite valid_app. simpl. rewrite isv_true; auto.
    + rewrite app_length. simpl. lia.
  - destruct (ChknAdd_rep _ _ x R Hp HL) as [l' [E R']]. rewrite E. cbn [bind].
    destruct (mem x (valid raw)).
    + exists l', raw. repeat split; auto.
    + exists l', (raw ++ [x]). repeat split; auto.
      * rewrite valid_app. simpl. rewrite isv_true; auto.
      * rewrite app_length. simpl. lia.
  - destruct Hp. destruct (Inserti_rep _ _ x i R) as [l' [raw' [E [R' [V L]]]]]; auto. rewrite E. cbn [bind].
    exists l', raw'. repeat split; auto. lia.
  - destruct (Rem_rep _ _ x R Hp) as [l' [raw' [E [R' [V [L _]]]]]]. rewrite E. cbn [bind]. exists l', raw'. repeat split; auto. lia.
  - destruct (Remi_rep _ _ i R) as [l' [raw' [E [R' [V [L _]]]]]]. rewrite E. cbn [bind]. exists l', raw'. repeat split; auto. lia.
  - destruct Hp. destruct (Replace_rep _ _ x y R) as [l' [raw' [E [R' [V L]]]]]; auto. rewrite E. cbn [bind]. exists l', raw'. repeat split; auto. lia.
  - destruct Hp. destruct (Replacei_rep _ _ i y R) as [l' [raw' [E [R' [V L]]]]]; auto. rewrite E. cbn [bind]. exists l', raw'. repeat split; auto. lia.
  - destruct (Compress_rep _ _ R) as [l' [E R']]. rewrite E. cbn [bind]. exists l', (valid raw). repeat split; auto.
    + apply valid_idem.
    + pose proof (valid_len raw). lia.
  - destruct (Copy_rep _ _ R) as [l' [E R']]. rewrite E. cbn [bind]. exists l', raw. repeat split; auto.
  - rewrite (num_rep l raw) by auto. exists l, raw. repeat split; auto.
  - rewrite (Entry_rep l raw) by auto. cbn [bind]. exists l, raw. repeat split; auto.
  - rewrite (Contains_rep l raw) by auto. cbn [bind]. exists l, raw. repeat split; auto.
  - rewrite (Locate_rep l raw) by auto. cbn [bind]. exists l, raw. repeat split; auto.
  - rewrite (Walk_rep l raw) by auto. cbn [bind]. exists l, raw. repeat split; auto.
Qed.

Lemma mrun_rep : forall ops l raw, rep l raw -> lallowed (valid raw) ops ->
  Z.of_nat (length raw) + Z.of_nat (length ops) < 2 ^ 27 ->
  exists l' raw', mrun l ops = Ok (l', snd (lrun (valid raw) ops)) /\ rep l' raw' /\
     valid raw' = fst (lrun (valid raw) ops) /\ (length raw' <= length raw + length ops)%nat.
Proof.
  induction ops as [|o ops IH]; intros l raw R Ha HL.
  - exists l, raw. simpl. repeat split; auto; lia.
  - destruct Ha as [Hp Ha]. simpl length in HL.
    destruct (mstep_rep l raw o R Hp) as [l1 [raw1 [E [R1 [V1 L1]]]]]; [lia|].
    rewrite <- V1 in Ha. destruct (IH l1 raw1 R1 Ha) as [l2 [raw2 [E2 [R2 [V2 L2]]]]]; [lia|].
    cbn [mrun lrun]. rewrite E. cbn [bind]. rewrite E2. cbn [bind].
    destruct (lstep (valid raw) o) as [s1 r1]. simpl in *. subst s1.
    destruct (lrun (valid raw1) ops) as [s2 rs]. simpl in *.
    exists l2, raw2. repeat split; auto. lia.
Qed.
