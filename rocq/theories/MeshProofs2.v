(** Lemmas about restoring and deleting entities. *)
From Coq Require Import ZArith List Lia Bool Arith ZifyBool ZifyNat Permutation Sorting.Sorted.
From Verif Require Import Base BaseProofs ListModel ListSpec ListHist ListProofs ListProofs2 ListProofs3 ListProofs4
  SortModel SortProofs CompareModel EntModel EntProps AttModel AttProps MSetModel MSetProps MeshModel MeshSpec MeshProofs HashProofs.
Import ListNotations.
Open Scope Z_scope.

Ltac inl := rewrite !in_app_iff; tauto.

Lemma ki_disj : forall N B m k L K S0 raw o g q, kinvB N B m k L K S0 raw o g ->
  (In q L -> ~ In q K /\ ~ In q S0) /\ (In q K -> ~ In q S0).
Proof.
  intros N B m k L K S0 raw o g q I. pose proof (ki_nd _ _ _ _ _ _ _ _ _ _ I) as ND.
  apply NoDup_app_inv in ND. destruct ND as [_ [N2 N3]]. apply NoDup_app_inv in N2. destruct N2 as [_ [_ N4]].
  split; intros H.
  - split; intro X; apply (N3 q H); apply in_or_app; auto.
  - intro X. apply (N4 q H X).
Qed.

Lemma Restore_spec : forall N m h raws k p, minv N m h raws -> N + 1 < 2 ^ 27 -> hpre false false h (MRestore k p) ->
  exists m' raws', Ent_Restore m k p = Ok m' /\ minv (N + 1) m' (hstep h (MRestore k p)) raws' /\
    (forall q, idof m' q = idof m q).
Proof.
  intros N m h raws k p [I HS] HN [Hk [Hp _]]. destruct (I k Hk) as [M0 IK]. unfold Ent_Restore.
  destruct (ki_kept _ _ _ _ _ _ _ _ _ _ IK p Hp) as [P0 [e [E1 [E2 [E3 E4]]]]].
  unfold deref. rewrite E1. cbn [bind].
  pose proof (ki_B _ _ _ _ _ _ _ _ _ _ IK) as HB. pose proof (ki_len _ _ _ _ _ _ _ _ _ _ IK) as HLn.
  destruct (Add_spec (set_ent m p (Some (MEnt_Rem_DelFlag e))) k p (MEnt_Rem_DelFlag e) (raws k)) as [l' [R E]]; auto.
  { cbn [heap set_ent]. apply zupd_same. }
  { apply (ki_list _ _ _ _ _ _ _ _ _ _ IK). }
  { lia. }
  { cbn [mmax set_ent]. lia. }
  rewrite E. rewrite id_rem. replace (MEnt_ID e =? 0) with false by lia. cbn [mlist mcnt mmax msorted heap set_ent].
  set (m' := mkMesh _ _ _ _ _). exists m', (zupd raws k (raws k ++ [p])).
  assert (HQ : forall q, q <> p -> heap m' q = heap m q).
  { intros q Hq. unfold m'. cbn [heap]. rewrite zupd_eq. replace (q =? p) with false by lia. auto. }
  assert (HP : heap m' p = Some (MEnt_Rem_DelFlag e)) by (unfold m'; cbn [heap]; apply zupd_same).
  assert (ID : forall q, idof m' q = idof m q).
  { intros q. destruct (Z.eq_dec q p) as [->|D]; [unfold idof; rewrite HP, E1; apply id_rem|apply idof_heap; auto]. }
  assert (IN : In p (hl h k ++ hk h k ++ hs h k)) by inl.
  pose proof (perm_remove1 p (hk h k) Hp) as PK.
  assert (ND : NoDup (p :: remove1 p (hk h k))).
  { eapply Permutation_NoDup; [exact PK|]. pose proof (ki_nd _ _ _ _ _ _ _ _ _ _ IK) as ND. apply NoDup_app_inv in ND.
    destruct ND as [_ [N2 _]]. apply NoDup_app_inv in N2. tauto. }
  inversion ND as [|x xs NI ND']. subst x xs.
  split; auto. split; [|auto].
  - split; [|cbn [hstep hfl]; unfold m'; cbn [msorted]; auto].
    intros j Hj. destruct (Z.eq_dec j k) as [->|D].
    + cbn [hstep hl hk hs hord hgap]. rewrite !zupd_same. split; [unfold m'; cbn [mmax]; lia|]. change (mmax m' k) with (mmax m k). constructor.
      * right. exists l'. split; auto. unfold m'. cbn [mlist]. apply zupd_same.
      * rewrite valid_snoc' by auto. apply Permutation_app_tail. apply (ki_perm _ _ _ _ _ _ _ _ _ _ IK).
      * rewrite app_length. cbn [length]. lia.
      * unfold m'. cbn [mcnt]. rewrite zupd_same. rewrite app_length. cbn [length].
        rewrite (Permutation_length (ki_perm _ _ _ _ _ _ _ _ _ _ IK)). lia.
      * lia.
      * intros q Hq. apply in_app_or in Hq. destruct Hq as [Hq|[<-|[]]].
        -- destruct (Z.eq_dec q p) as [->|Dq]; [exfalso; apply (proj1 (proj1 (ki_disj _ _ _ _ _ _ _ _ _ _ p IK) Hq)); auto|].
           rewrite HQ by auto. apply (ki_live _ _ _ _ _ _ _ _ _ _ IK); auto.
        -- split; auto. rewrite HP. eexists. split; [reflexivity|]. rewrite dim_rem, id_rem. auto.
      * intros q Hq. assert (q <> p) by congruence. rewrite HQ by auto. apply (ki_kept _ _ _ _ _ _ _ _ _ _ IK). eapply remove1_In; eauto.
      * intros q Hq. assert (q <> p) by (intros ->; apply (proj2 (ki_disj _ _ _ _ _ _ _ _ _ _ p IK) Hp); auto).
        rewrite HQ by auto. apply (ki_stale _ _ _ _ _ _ _ _ _ _ IK). auto.
      * rewrite (map_ext _ (idof m)) by auto. apply Permutation_NoDup with (map (idof m) (hl h k ++ hk h k)); [|apply (ki_ids _ _ _ _ _ _ _ _ _ _ IK)].
        apply Permutation_map. rewrite <- app_assoc. apply Permutation_app_head. auto.
      * apply Permutation_NoDup with (hl h k ++ hk h k ++ hs h k); [|apply (ki_nd _ _ _ _ _ _ _ _ _ _ IK)].
        rewrite <- app_assoc. apply Permutation_app_head. cbn [app]. rewrite PK at 1. auto.
      * discriminate.
      * intros Hg. rewrite valid_snoc' by auto. rewrite (ki_gap _ _ _ _ _ _ _ _ _ _ IK); auto.
    + cbn [hstep hl hk hs hord hgap]. rewrite !zupd_eq. replace (j =? k) with false by lia.
      apply kinv_frame with (N := N) (m := m); auto; try lia; unfold m'; cbn [mlist mcnt mmax]; try (rewrite zupd_eq; replace (j =? k) with false by lia; auto).
      intros q Hq. apply HQ. intros ->. revert Hq. apply (minv_apart N m h raws j k p); auto. split; auto.
Qed.

(** ** Removing from a list *)
Lemma blank_valid : forall raw k p, NoDup (valid raw) -> (k < length raw)%nat -> nth k raw 0 = p -> p <> 0 ->
  valid (upd_nth raw k 0) = remove1 p (valid raw).
Proof.
  intros raw k p ND Hk E Hp. rewrite valid_upd0 by auto. rewrite (valid_self raw k) in * by (auto; rewrite E; auto). rewrite E in *.
  rewrite remove1_app; auto. apply NoDup_remove_2 in ND. intro X. apply ND. apply in_or_app. auto.
Qed.

(** What MESH_Rem does to the list, when it returns. *)
Definition rem_list (fuel : nat) (m : mesh) (l : LList) (p : ptr) (id : Z) : result (LList * Z) :=
  x <- List_Entry_Raw l (id - 1) ;;
  (if x =? p then '(l, _) <- List_Remi_Raw l (id - 1) ;; Ok (l, 1) else List_RemSorted (idof m) fuel l p).

Lemma rem_list_spec : forall fuel m l raw p id, rep l raw -> NoDup (map (idof m) (valid raw)) -> In p (valid raw) -> 1 <= id ->
  (length raw <= fuel)%nat ->
  (exists l' raw', rem_list fuel m l p id = Ok (l', 1) /\ rep l' raw' /\ valid raw' = remove1 p (valid raw) /\ length raw' = length raw) \/
  (~ StronglySorted (fun a b => idof m a < idof m b) (valid raw) /\ forall x, rem_list fuel m l p id <> Ok x).
Proof.
  intros fuel m l raw p id R ND Hp Hid Hf. unfold rem_list.
  assert (NDV : NoDup (valid raw)) by (eapply NoDup_map_inv; eauto).
  assert (Hp0 : p <> 0) by (apply valid_In in Hp; tauto).
  assert (SR : (exists l' raw', List_RemSorted (idof m) fuel l p = Ok (l', 1) /\ rep l' raw' /\ valid raw' = remove1 p (valid raw) /\ length raw' = length raw) \/
    (~ StronglySorted (fun a b => idof m a < idof m b) (valid raw) /\ forall x, List_RemSorted (idof m) fuel l p <> Ok x)).
  { destruct (List_RemSorted (idof m) fuel l p) as [[l' r]| | |] eqn:E.
    - left. destruct (RemSorted_any (idof m) l raw p fuel l' r) as [Q1 [raw' Q2]]; auto.
      { intros x y Hx Hy Exy. eapply nodup_map_inj; eauto. }
      subst r. eauto.
    - right. split; [|congruence]. intro SS. destruct (RemSorted_rep (idof m) l raw p fuel) as [l' [raw' [A _]]]; auto. congruence.
    - right. split; [|congruence]. intro SS. destruct (RemSorted_rep (idof m) l raw p fuel) as [l' [raw' [A _]]]; auto. congruence.
    - right. split; [|congruence]. intro SS. destruct (RemSorted_rep (idof m) l raw p fuel) as [l' [raw' [A _]]]; auto. congruence. }
  unfold List_Entry_Raw, List_Remi_Raw. rewrite (size_rep l raw) by auto.
  destruct (id - 1 >=? Z.of_nat (length raw)) eqn:EL; cbn [bind].
  - unfold NULL. replace (0 =? p) with false by lia. auto.
  - rewrite (rd_rep l raw) by (auto; lia). cbn [bind].
    destruct (nth (Z.to_nat (id - 1)) raw 0 =? p) eqn:E; auto. unfold NULL.
    assert (EP : nth (Z.to_nat (id - 1)) raw 0 = p) by lia. rewrite EP. replace (p =? 0) with false by lia. cbn [negb].
    destruct (blank_rep l raw (Z.to_nat (id - 1))) as [l' [B R']]; auto; [lia|congruence|].
    rewrite Z2Nat.id in B by lia. rewrite B. cbn [bind]. left. exists l', (upd_nth raw (Z.to_nat (id - 1)) 0).
    split; auto. split; auto. split; [apply blank_valid; auto; lia|apply upd_nth_length].
Qed.

Lemma Rem_spec : forall N fuel m k L K S0 raw o g p, kinv N m k L K S0 raw o g -> In p L -> N <= Z.of_nat fuel ->
  (exists l' raw', MESH_Rem fuel m k p = Ok (mkMesh (zupd (mlist m) k (Some l')) (zupd (mcnt m) k (Z.of_nat (length L) - 1)) (mmax m) 0 (heap m)) /\
     rep l' raw' /\ valid raw' = remove1 p (valid raw) /\ length raw' = length raw) \/
  (o = false /\ forall x, MESH_Rem fuel m k p <> Ok x).
Proof.
  intros N fuel m k L K S0 raw o g p [M0 I] Hp Hf. unfold MESH_Rem.
  pose proof (ki_len _ _ _ _ _ _ _ _ _ _ I) as HLn.
  assert (HV : In p (valid raw)) by (eapply Permutation_in; [symmetry; apply (ki_perm _ _ _ _ _ _ _ _ _ _ I)|auto]).
  destruct (ki_list _ _ _ _ _ _ _ _ _ _ I) as [[A B]|[l [A R]]]; [subst raw; destruct HV|]. rewrite A.
  destruct (ki_live _ _ _ _ _ _ _ _ _ _ I p Hp) as [P0 [e [E1 [E2 E3]]]]. unfold deref. rewrite E1. cbn [bind].
  assert (ND : NoDup (map (idof m) (valid raw))).
  { eapply Permutation_NoDup; [apply Permutation_map; symmetry; apply (ki_perm _ _ _ _ _ _ _ _ _ _ I)|].
    pose proof (ki_ids _ _ _ _ _ _ _ _ _ _ I) as X. rewrite map_app in X. apply NoDup_app_inv in X. tauto. }
  pose proof (rem_list_spec fuel m l raw p (MEnt_ID e) R ND HV ltac:(lia) ltac:(lia)) as RL. unfold rem_list in RL.
  destruct (List_Entry_Raw l (MEnt_ID e - 1)) as [x| | |] eqn:EE; cbn [bind] in RL |- *.
  2-4: right; destruct RL as [[l' [raw' [Q _]]]|[Q1 Q2]]; [discriminate|]; split; [destruct o; auto; exfalso; apply Q1; apply (ki_ord _ _ _ _ _ _ _ _ _ _ I); auto|congruence].
  destruct RL as [[l' [raw' [Q1 [Q2 [Q3 Q4]]]]]|[Q1 Q2]].
  - left. rewrite Q1. cbn [bind]. change (1 =? 0) with false. cbv iota. exists l', raw'. split; auto.
    unfold MESH_Flag_EntLists_As_Unsorted, set_srt. cbn [set_cnt set_list mlist mcnt mmax msorted heap]. do 3 f_equal.
    rewrite (num_rep l' raw') by auto. rewrite Q3. pose proof (Permutation_length (perm_remove1 p (valid raw) HV)) as PL. cbn [length] in PL.
    rewrite <- (Permutation_length (ki_perm _ _ _ _ _ _ _ _ _ _ I)). lia.
  - right. split; [destruct o; auto; exfalso; apply Q1; apply (ki_ord _ _ _ _ _ _ _ _ _ _ I); auto|].
    intros y. match goal with |- bind ?X _ <> _ => destruct X as [[l2 r]| | |] eqn:EX end; cbn [bind]; try discriminate.
    exfalso. apply (Q2 (l2, r)). auto.
Qed.

Lemma Del_live_spec : forall N fuel m h raws k p keep, minv N m h raws -> 0 <= k <= 3 -> In p (hl h k) -> N <= Z.of_nat fuel ->
  (exists m' raws', Ent_Delete fuel m k p keep = Ok m' /\ minv (N + 1) m' (hstep h (MDel k p keep)) raws' /\
    (forall q, q <> p -> heap m' q = heap m q)) \/
  (hord h k = false /\ forall x, Ent_Delete fuel m k p keep <> Ok x).
Proof.
  intros N fuel m h raws k p keep [I HS] Hk Hp Hf. destruct (I k Hk) as [M0 IK].
  destruct (ki_live _ _ _ _ _ _ _ _ _ _ IK p Hp) as [P0 [e [E1 [E2 E3]]]]. 
  assert (ED : Ent_Delete fuel m k p keep = (m <- (m <- MESH_Rem fuel m k p ;; e <- deref m p ;; Ok (set_ent m p (Some (MEnt_Set_DelFlag e)))) ;;
     Ok (if keep then m else set_ent m p None))).
  { unfold Ent_Delete. unfold deref at 1. rewrite E1. cbn [bind]. unfold MDELETED. replace (MEnt_Dim e =? -1) with false by lia. reflexivity. }
  rewrite ED. clear ED.
  destruct (Rem_spec N fuel m k _ _ _ _ _ _ p (I k Hk) Hp Hf) as [[l' [raw' [Q1 [Q2 [Q3 Q4]]]]]|[Q1 Q2]].
  2: { right. split; auto. intros x. destruct (MESH_Rem fuel m k p) eqn:ER; cbn [bind]; try discriminate. exfalso. eapply Q2; eauto. }
  left. rewrite Q1. cbn [bind]. unfold deref. cbn [heap]. rewrite E1. cbn [bind].
  pose proof (ki_B _ _ _ _ _ _ _ _ _ _ IK) as HB. pose proof (ki_len _ _ _ _ _ _ _ _ _ _ IK) as HLn.
  assert (HM : ListSpec.mem p (hl h k) = true) by (apply mem_in; auto).
  set (v := if keep then Some (MEnt_Set_DelFlag e) else None).
  set (m' := mkMesh (zupd (mlist m) k (Some l')) (zupd (mcnt m) k (Z.of_nat (length (hl h k)) - 1)) (mmax m) 0
     (if keep then zupd (heap m) p (Some (MEnt_Set_DelFlag e)) else zupd (zupd (heap m) p (Some (MEnt_Set_DelFlag e))) p None)).
  exists m', (zupd raws k raw'). split; [unfold m', set_ent; destruct keep; reflexivity|].
  assert (HQ : forall q, q <> p -> heap m' q = heap m q).
  { intros q Hq. unfold m'. cbn [heap]. destruct keep; rewrite !zupd_eq; replace (q =? p) with false by lia; auto. }
  assert (HP : heap m' p = v) by (unfold m', v; cbn [heap]; destruct keep; apply zupd_same).
  assert (IN : In p (hl h k ++ hk h k ++ hs h k)) by inl.
  destruct (proj1 (ki_disj _ _ _ _ _ _ _ _ _ _ p IK) Hp) as [NK NS].
  assert (NDL : NoDup (hl h k)) by (pose proof (ki_nd _ _ _ _ _ _ _ _ _ _ IK) as X; apply NoDup_app_inv in X; tauto).
  destruct (remove1_nd p (hl h k) NDL) as [NDr NIr].
  assert (PL : Permutation (hl h k) (p :: remove1 p (hl h k))) by (apply perm_remove1; auto).
  assert (IDq : forall q, q <> p -> idof m' q = idof m q) by (intros; apply idof_heap; auto).
  assert (NIV : forall x, In x (remove1 p (valid (raws k))) -> x <> p).
  { intros x Hx ->. apply (proj2 (remove1_nd p (valid (raws k)) (Permutation_NoDup (Permutation_sym (ki_perm _ _ _ _ _ _ _ _ _ _ IK)) NDL))). auto. }
  set (h' := hstep h (MDel k p keep)).
  assert (EH : h' = mkH (zupd (hl h) k (remove1 p (hl h k))) (if keep then zupd (hk h) k (p :: hk h k) else hk h) (hs h) false (hord h) (zupd (hgap h) k true))
    by (unfold h'; cbn [hstep]; rewrite HM; auto).
  rewrite EH. split; [|auto].
  - split; [|reflexivity]. intros j Hj. cbn [hl hk hs hord hgap]. destruct (Z.eq_dec j k) as [->|D].
    + rewrite !zupd_same. split; [auto|]. change (mmax m' k) with (mmax m k). constructor.
      * right. exists l'. split; auto. unfold m'. cbn [mlist]. apply zupd_same.
      * rewrite Q3. apply remove1_perm. apply (ki_perm _ _ _ _ _ _ _ _ _ _ IK).
      * lia.
      * unfold m'. cbn [mcnt]. rewrite zupd_same. rewrite (Permutation_length PL). cbn [length]. lia.
      * lia.
      * intros q Hq. assert (q <> p) by congruence. rewrite HQ by auto. apply (ki_live _ _ _ _ _ _ _ _ _ _ IK). eapply remove1_In; eauto.
      * intros q Hq. assert (q = p /\ keep = true \/ In q (hk h k)) as [[-> ->]|Hq'].
        { destruct keep; [rewrite zupd_same in Hq; destruct Hq; auto|auto]. }
        -- split; auto. rewrite HP. unfold v. eexists. split; [reflexivity|]. rewrite dim_del, odim_del, id_del. repeat split; try lia. apply odim_dim; auto; lia.
        -- assert (q <> p) by congruence. rewrite HQ by auto. apply (ki_kept _ _ _ _ _ _ _ _ _ _ IK). auto.
      * intros q Hq. assert (q <> p) by congruence. rewrite HQ by auto. apply (ki_stale _ _ _ _ _ _ _ _ _ _ IK). auto.
      * assert (X : NoDup (map (idof m') (p :: remove1 p (hl h k) ++ hk h k)) \/ keep = false /\ NoDup (map (idof m') (remove1 p (hl h k) ++ hk h k))).
        { destruct keep.
          - left. rewrite (map_ext _ (idof m)).
            + apply Permutation_NoDup with (map (idof m) (hl h k ++ hk h k)); [|apply (ki_ids _ _ _ _ _ _ _ _ _ _ IK)].
              apply Permutation_map. rewrite PL at 1. auto.
            + intros q. destruct (Z.eq_dec q p) as [->|Dq]; auto. unfold idof. rewrite HP, E1. unfold v. apply id_del.
          - right. split; auto. rewrite (map_ext_in _ (idof m)).
            + assert (Y : NoDup (map (idof m) (p :: remove1 p (hl h k) ++ hk h k))).
              { apply Permutation_NoDup with (map (idof m) (hl h k ++ hk h k)); [|apply (ki_ids _ _ _ _ _ _ _ _ _ _ IK)].
                apply Permutation_map. rewrite PL at 1. auto. }
              inversion Y; auto.
            + intros q Hq. apply IDq. intros ->. apply in_app_or in Hq. tauto. }
        destruct keep.
        -- destruct X as [X|[X _]]; [|discriminate]. rewrite zupd_same. eapply Permutation_NoDup; [|exact X]. apply Permutation_map. apply Permutation_middle.
        -- destruct X as [X|[_ X]]; [inversion X|]; auto.
      * pose proof (ki_nd _ _ _ _ _ _ _ _ _ _ IK) as X.
        assert (Y : NoDup (p :: remove1 p (hl h k) ++ hk h k ++ hs h k)) by (eapply Permutation_NoDup; [|exact X]; rewrite PL at 1; auto).
        destruct keep; [|inversion Y; auto]. rewrite zupd_same. eapply Permutation_NoDup; [|exact Y]. cbn [app]. apply Permutation_middle.
      * intros Ho. rewrite Q3. apply ssorted_ext with (f := idof m); [intros x Hx; symmetry; apply IDq; apply NIV; auto|].
        apply ssorted_remove. apply (ki_ord _ _ _ _ _ _ _ _ _ _ IK). auto.
      * discriminate.
    + assert (EK : (if keep then zupd (hk h) k (p :: hk h k) else hk h) j = hk h j) by (destruct keep; auto; rewrite zupd_eq; replace (j =? k) with false by lia; auto).
      rewrite EK. rewrite !zupd_eq. replace (j =? k) with false by lia.
      apply kinv_frame with (N := N) (m := m); auto; try lia; unfold m'; cbn [mlist mcnt mmax]; try (rewrite zupd_eq; replace (j =? k) with false by lia; auto).
      intros q Hq. apply HQ. intros ->. revert Hq. apply (minv_apart N m h raws j k p); auto. split; auto.
Qed.

Lemma Del_dead_spec : forall N fuel m h raws k p keep, minv N m h raws -> 0 <= k <= 3 -> In p (hk h k ++ hs h k) ->
  exists m', Ent_Delete fuel m k p keep = Ok m' /\ minv (N + 1) m' (hstep h (MDel k p keep)) raws /\
    (forall q, q <> p -> heap m' q = heap m q).
Proof.
  intros N fuel m h raws k p keep [I HS] Hk Hp. destruct (I k Hk) as [M0 IK]. unfold Ent_Delete.
  assert (exists e, heap m p = Some e /\ MEnt_Dim e = -1) as [e [E1 E2]].
  { apply in_app_or in Hp. destruct Hp as [Hp|Hp].
    - destruct (ki_kept _ _ _ _ _ _ _ _ _ _ IK p Hp) as [_ [e [A [B _]]]]. eauto.
    - destruct (ki_stale _ _ _ _ _ _ _ _ _ _ IK p Hp) as [e [A [B _]]]. eauto. }
  unfold deref at 1. rewrite E1. cbn [bind]. unfold MDELETED. rewrite E2. change (-1 =? -1) with true. cbn [negb bind].
  assert (NL : ~ In p (hl h k)).
  { intro X. apply in_app_or in Hp. destruct (proj1 (ki_disj _ _ _ _ _ _ _ _ _ _ p IK) X). tauto. }
  assert (HM : ListSpec.mem p (hl h k) = false) by (destruct (ListSpec.mem p (hl h k)) eqn:EM; auto; apply mem_in in EM; tauto).
  eexists. split; [reflexivity|]. cbn [hstep]. rewrite HM. destruct keep.
  { split; [|auto]. split; auto. intros j Hj. apply kinv_frame with (N := N) (m := m); auto; try lia. }
  set (m' := set_ent m p None).
  assert (HQ : forall q, q <> p -> heap m' q = heap m q).
  { intros q Hq. unfold m', set_ent. cbn [heap]. rewrite zupd_eq. replace (q =? p) with false by lia. auto. }
  assert (IN : In p (hl h k ++ hk h k ++ hs h k)) by (apply in_or_app; auto).
  split; [|auto].
  - split; auto. intros j Hj. cbn [hl hk hs hord hgap]. destruct (Z.eq_dec j k) as [->|D].
    + rewrite !zupd_same.
      pose proof (ki_nd _ _ _ _ _ _ _ _ _ _ IK) as ND. apply NoDup_app_inv in ND. destruct ND as [N1 [N2 N3]].
      apply NoDup_app_inv in N2. destruct N2 as [N2 [N4 N5]].
      destruct (remove1_nd p _ N2) as [K1 K2]. destruct (remove1_nd p _ N4) as [S1 S2].
      split; [auto|]. change (mmax m' k) with (mmax m k). constructor.
      * apply (ki_list _ _ _ _ _ _ _ _ _ _ IK).
      * apply (ki_perm _ _ _ _ _ _ _ _ _ _ IK).
      * pose proof (ki_len _ _ _ _ _ _ _ _ _ _ IK). lia.
      * apply (ki_cnt _ _ _ _ _ _ _ _ _ _ IK).
      * pose proof (ki_B _ _ _ _ _ _ _ _ _ _ IK). lia.
      * intros q Hq. rewrite HQ by congruence. apply (ki_live _ _ _ _ _ _ _ _ _ _ IK). auto.
      * intros q Hq. rewrite HQ by congruence. apply (ki_kept _ _ _ _ _ _ _ _ _ _ IK). eapply remove1_In; eauto.
      * intros q Hq. rewrite HQ by congruence. apply (ki_stale _ _ _ _ _ _ _ _ _ _ IK). eapply remove1_In; eauto.
      * rewrite (map_ext_in _ (idof m)).
        -- pose proof (ki_ids _ _ _ _ _ _ _ _ _ _ IK) as X. rewrite map_app in *. apply NoDup_app_inv in X. destruct X as [X1 [X2 X3]].
           apply NoDup_app_intro'; auto.
           ++ destruct (in_dec Z.eq_dec p (hk h k)) as [Y|Y]; [|rewrite remove1_notin; auto].
              pose proof (Permutation_NoDup (Permutation_map (idof m) (perm_remove1 p _ Y)) X2) as Q. inversion Q; auto.
           ++ intros x Hx Hy. apply (X3 x Hx). apply in_map_iff in Hy. destruct Hy as [y [Y1 Y2]]. subst. apply in_map. eapply remove1_In; eauto.
        -- intros q Hq. apply idof_heap. apply HQ. intros ->. apply in_app_or in Hq. tauto.
      * apply NoDup_app_intro'; auto. apply NoDup_app_intro'; auto.
        -- intros x Hx Hy. apply (N5 x); eapply remove1_In; eauto.
        -- intros x Hx Hy. apply (N3 x Hx). apply in_app_or in Hy. apply in_or_app. destruct Hy as [Hy|Hy]; [left|right]; eapply remove1_In; eauto.
      * intros Ho. apply ssorted_ext with (f := idof m); [|apply (ki_ord _ _ _ _ _ _ _ _ _ _ IK); auto].
        intros x Hx. symmetry. apply idof_heap. apply HQ. intros ->. apply NL. eapply Permutation_in; [apply (ki_perm _ _ _ _ _ _ _ _ _ _ IK)|auto].
      * apply (ki_gap _ _ _ _ _ _ _ _ _ _ IK).
    + rewrite !zupd_eq. replace (j =? k) with false by lia.
      apply kinv_frame with (N := N) (m := m); auto; try lia.
      intros q Hq. apply HQ. intros ->. revert Hq. apply (minv_apart N m h raws j k p); auto. split; auto.
Qed.
