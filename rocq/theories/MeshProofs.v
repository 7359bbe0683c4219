(** Lemmas about the model of the entity lists of a mesh. *)
From Coq Require Import ZArith List Lia Bool Arith ZifyBool ZifyNat Permutation Sorting.Sorted.
From Verif Require Import Base BaseProofs ListModel ListSpec ListHist ListProofs ListProofs2 ListProofs3 ListProofs4
  SortModel SortProofs CompareModel EntModel EntProps AttModel AttProps MSetModel MSetProps MeshModel MeshSpec.
Import ListNotations.
Open Scope Z_scope.

(** ** Entity data *)
Lemma id_set : forall e v, 0 <= v < 2 ^ 27 -> MEnt_ID (MEnt_Set_ID e v) = v.
Proof. intros. unfold MEnt_ID, MEnt_Set_ID. bf. Qed.
Lemma dim_set_id : forall e v, MEnt_Dim (MEnt_Set_ID e v) = MEnt_Dim e.
Proof. intros. unfold MEnt_Dim, MEnt_Set_ID. bf. Qed.
Lemma odim_set_id : forall e v, MEnt_OrigDim (MEnt_Set_ID e v) = MEnt_OrigDim e.
Proof. intros. unfold MEnt_OrigDim, MEnt_Set_ID. bf. Qed.
Lemma dim_del : forall e, MEnt_Dim (MEnt_Set_DelFlag e) = -1.
Proof. intros. unfold MEnt_Dim, MEnt_Set_DelFlag. bf. Qed.
Lemma odim_del : forall e, MEnt_OrigDim (MEnt_Set_DelFlag e) = MEnt_OrigDim e.
Proof. intros. unfold MEnt_OrigDim, MEnt_Set_DelFlag. bf. Qed.
Lemma id_del : forall e, MEnt_ID (MEnt_Set_DelFlag e) = MEnt_ID e.
Proof. intros. unfold MEnt_ID, MEnt_Set_DelFlag. bf. Qed.
Lemma dim_rem : forall e, MEnt_Dim (MEnt_Rem_DelFlag e) = MEnt_OrigDim e.
Proof. intros. unfold MEnt_Dim, MEnt_OrigDim, MEnt_Rem_DelFlag. bf. change (0 mod 2 ^ 1 =? 0) with true. cbn [negb]. cbv iota. rewrite getbf_other by lia. auto. Qed.
Lemma id_rem : forall e, MEnt_ID (MEnt_Rem_DelFlag e) = MEnt_ID e.
Proof. intros. unfold MEnt_ID, MEnt_Rem_DelFlag. bf. Qed.
Lemma odim_dim : forall e k, 0 <= k -> MEnt_Dim e = k -> MEnt_OrigDim e = k.
Proof. intros e k H. unfold MEnt_Dim, MEnt_OrigDim, MDELETED. destruct (getbf (w_id e) 0 1 =? 0); cbn; intros; auto; lia. Qed.

Definition fresh (k : Z) (g : entdat) : entdat :=
  MEnt_Set_RepType_Data (MEnt_Set_GEntID (MEnt_Set_GEntDim (MEnt_Set_Dim (MEnt_Init_CmnData g) k) (if k =? 3 then 3 else 4)) 0) 0.

Lemma fresh_spec : forall k g, 0 <= k <= 3 -> MEnt_Dim (fresh k g) = k /\ MEnt_ID (fresh k g) = 0.
Proof.
  intros k g H. unfold fresh, MEnt_Set_RepType_Data, MEnt_Set_GEntID, MEnt_Set_GEntDim, MEnt_Set_Dim, MEnt_Init_CmnData, MEnt_Dim, MEnt_ID, MDELETED, MUNKNOWNTYPE.
  replace (k =? -1) with false by lia. split; bf.
  change (0 mod 2 ^ 1 =? 0) with true. cbn [negb]. cbv iota. apply Z.mod_small. lia.
Qed.

(** ** Sequences *)
Lemma ssorted_ext : forall (f g : Z -> Z) s, (forall x, In x s -> f x = g x) ->
  StronglySorted (fun a b => f a < f b) s -> StronglySorted (fun a b => g a < g b) s.
Proof.
  intros f g s H SS. induction SS; constructor.
  - apply IHSS. intros. apply H. right. auto.
  - rewrite Forall_forall in *. intros x Hx. rewrite <- H by (left; auto). rewrite <- (H x) by (right; auto). auto.
Qed.

Lemma ssorted_snoc : forall (f : Z -> Z) s p, StronglySorted (fun a b => f a < f b) s -> (forall x, In x s -> f x < f p) ->
  StronglySorted (fun a b => f a < f b) (s ++ [p]).
Proof.
  intros f s p SS H. induction SS; cbn [app].
  - constructor; constructor.
  - constructor.
    + apply IHSS. intros. apply H. right. auto.
    + rewrite Forall_forall in *. intros x Hx. apply in_app_or in Hx. destruct Hx as [Hx|[Hx|[]]]; auto. subst. apply H. left. auto.
Qed.

Lemma ssorted_remove : forall (f : Z -> Z) s p, StronglySorted (fun a b => f a < f b) s ->
  StronglySorted (fun a b => f a < f b) (remove1 p s).
Proof.
  intros f s p SS. induction SS; cbn [remove1]; [constructor|]. destruct (a =? p); auto. constructor; auto.
  rewrite Forall_forall in *. intros x Hx. apply H. eapply remove1_In; eauto.
Qed.

Lemma perm_remove1 : forall p s, In p s -> Permutation s (p :: remove1 p s).
Proof.
  induction s as [|x s IH]; intros H; [destruct H|]. cbn [remove1]. destruct (x =? p) eqn:E.
  - replace x with p by lia. auto.
  - destruct H as [H|H]; [lia|]. rewrite perm_swap. constructor. auto.
Qed.

Lemma remove1_perm : forall p a b, Permutation a b -> Permutation (remove1 p a) (remove1 p b).
Proof.
  intros p a b H. destruct (in_dec Z.eq_dec p a) as [I|I].
  - apply Permutation_cons_inv with p. rewrite <- perm_remove1 by auto. rewrite <- perm_remove1; auto. eapply Permutation_in; eauto.
  - rewrite !remove1_notin; auto. intro X. apply I. eapply Permutation_in; [symmetry|]; eauto.
Qed.

Lemma remove1_nd : forall p s, NoDup s -> NoDup (remove1 p s) /\ ~ In p (remove1 p s).
Proof.
  intros p s H. destruct (in_dec Z.eq_dec p s) as [I|I].
  - pose proof (perm_remove1 p s I) as P. pose proof (Permutation_NoDup P H) as Q. inversion Q; auto.
  - rewrite remove1_notin; auto.
Qed.

Lemma remove1_in : forall p q s, q <> p -> In q s -> In q (remove1 p s).
Proof. induction s; cbn [remove1]; intros; auto. destruct (a =? p) eqn:E; destruct H0; try lia; subst; auto. left. auto. right. auto. Qed.

Lemma nodup_map_inj : forall (f : Z -> Z) s x y, NoDup (map f s) -> In x s -> In y s -> f x = f y -> x = y.
Proof.
  induction s as [|a s IH]; intros x y H Hx Hy E; [destruct Hx|]. cbn [map] in H. inversion H. subst.
  destruct Hx as [Hx|Hx], Hy as [Hy|Hy]; subst; auto.
  - exfalso. apply H2. rewrite E. apply in_map. auto.
  - exfalso. apply H2. rewrite <- E. apply in_map. auto.
Qed.

Lemma mem_in : forall x s, ListSpec.mem x s = true <-> In x s.
Proof. intros. unfold ListSpec.mem. rewrite existsb_exists. split; [intros [y [A B]]|intros H; exists x; split; auto; lia]. replace x with y by lia. auto. Qed.

(** ** The invariant *)
Record kinvB (N B : Z) (m : mesh) (k : Z) (L K S0 raw : list Z) (o g : bool) : Prop := mkKI {
  ki_list : (mlist m k = None /\ raw = []) \/ (exists l, mlist m k = Some l /\ rep l raw);
  ki_perm : Permutation (valid raw) L;
  ki_len : Z.of_nat (length raw) <= N;
  ki_cnt : mcnt m k = Z.of_nat (length L);
  ki_B : B <= N;
  ki_live : forall p, In p L -> p <> 0 /\ exists e, heap m p = Some e /\ MEnt_Dim e = k /\ 1 <= MEnt_ID e <= B;
  ki_kept : forall p, In p K -> p <> 0 /\ exists e, heap m p = Some e /\ MEnt_Dim e = -1 /\ MEnt_OrigDim e = k /\ 1 <= MEnt_ID e <= B;
  ki_stale : forall p, In p S0 -> exists e, heap m p = Some e /\ MEnt_Dim e = -1 /\ MEnt_OrigDim e = k;
  ki_ids : NoDup (map (idof m) (L ++ K));
  ki_nd : NoDup (L ++ K ++ S0);
  ki_ord : o = true -> StronglySorted (fun a b => idof m a < idof m b) (valid raw);
  ki_gap : g = false -> valid raw = raw }.

Definition kinv (N : Z) (m : mesh) (k : Z) (L K S0 raw : list Z) (o g : bool) : Prop :=
  0 <= mmax m k /\ kinvB N (mmax m k) m k L K S0 raw o g.

Definition minv (N : Z) (m : mesh) (h : hist) (raws : Z -> list Z) : Prop :=
  (forall k, 0 <= k <= 3 -> kinv N m k (hl h k) (hk h k) (hs h k) (raws k) (hord h k) (hgap h k)) /\ msorted m = Z.b2z (hfl h).

Lemma idof_heap : forall m m' q, heap m' q = heap m q -> idof m' q = idof m q.
Proof. intros. unfold idof. rewrite H. auto. Qed.

Lemma kinvB_frame : forall N B m k L K S0 raw o g N' m', kinvB N B m k L K S0 raw o g -> N <= N' ->
  mlist m' k = mlist m k -> mcnt m' k = mcnt m k ->
  (forall q, In q (L ++ K ++ S0) -> heap m' q = heap m q) -> kinvB N' B m' k L K S0 raw o g.
Proof.
  intros N B m k L K S0 raw o g N' m' I HN E1 E2 HH.
  assert (ID : forall q, In q (L ++ K) -> idof m' q = idof m q).
  { intros q Hq. apply idof_heap. apply HH. rewrite app_assoc. apply in_or_app. auto. }
  constructor.
  - rewrite E1. apply (ki_list _ _ _ _ _ _ _ _ _ _ I).
  - apply (ki_perm _ _ _ _ _ _ _ _ _ _ I).
  - pose proof (ki_len _ _ _ _ _ _ _ _ _ _ I). lia.
  - rewrite E2. apply (ki_cnt _ _ _ _ _ _ _ _ _ _ I).
  - pose proof (ki_B _ _ _ _ _ _ _ _ _ _ I). lia.
  - intros p Hp. rewrite HH by (apply in_or_app; auto). apply (ki_live _ _ _ _ _ _ _ _ _ _ I); auto.
  - intros p Hp. rewrite HH by (apply in_or_app; right; apply in_or_app; auto). apply (ki_kept _ _ _ _ _ _ _ _ _ _ I); auto.
  - intros p Hp. rewrite HH by (apply in_or_app; right; apply in_or_app; auto). apply (ki_stale _ _ _ _ _ _ _ _ _ _ I); auto.
  - rewrite (map_ext_in _ (idof m)) by auto. apply (ki_ids _ _ _ _ _ _ _ _ _ _ I).
  - apply (ki_nd _ _ _ _ _ _ _ _ _ _ I).
  - intros Ho. apply ssorted_ext with (f := idof m); [|apply (ki_ord _ _ _ _ _ _ _ _ _ _ I); auto].
    intros x Hx. symmetry. apply ID. apply in_or_app. left. eapply Permutation_in; [apply (ki_perm _ _ _ _ _ _ _ _ _ _ I)|auto].
  - apply (ki_gap _ _ _ _ _ _ _ _ _ _ I).
Qed.

Lemma kinv_frame : forall N m k L K S0 raw o g N' m', kinv N m k L K S0 raw o g -> N <= N' ->
  mlist m' k = mlist m k -> mcnt m' k = mcnt m k -> mmax m' k = mmax m k ->
  (forall q, In q (L ++ K ++ S0) -> heap m' q = heap m q) -> kinv N' m' k L K S0 raw o g.
Proof.
  intros N m k L K S0 raw o g N' m' [I0 I] HN E1 E2 E3 HH. unfold kinv. rewrite E3. split; auto.
  eapply kinvB_frame; eauto.
Qed.

(** The kind of an entity is recorded in it, so entities of different kinds
    differ. *)
Lemma kinvB_dim : forall N B m k L K S0 raw o g p, 0 <= k -> kinvB N B m k L K S0 raw o g -> In p (L ++ K ++ S0) ->
  exists e, heap m p = Some e /\ MEnt_OrigDim e = k.
Proof.
  intros N B m k L K S0 raw o g p Hk I Hp. apply in_app_or in Hp. destruct Hp as [Hp|Hp]; [|apply in_app_or in Hp; destruct Hp as [Hp|Hp]].
  - destruct (ki_live _ _ _ _ _ _ _ _ _ _ I p Hp) as [_ [e [A [D _]]]]. exists e. split; auto. apply odim_dim; auto.
  - destruct (ki_kept _ _ _ _ _ _ _ _ _ _ I p Hp) as [_ [e [A [_ [D _]]]]]. eauto.
  - destruct (ki_stale _ _ _ _ _ _ _ _ _ _ I p Hp) as [e [A [_ D]]]. eauto.
Qed.

Lemma minv_apart : forall N m h raws j k p, minv N m h raws -> 0 <= j <= 3 -> 0 <= k <= 3 -> j <> k ->
  In p (hl h k ++ hk h k ++ hs h k) -> ~ In p (hl h j ++ hk h j ++ hs h j).
Proof.
  intros N m h raws j k p [I _] Hj Hk D P Q.
  destruct (kinvB_dim _ _ _ _ _ _ _ _ _ _ p (proj1 Hk) (proj2 (I k Hk)) P) as [e [A B]].
  destruct (kinvB_dim _ _ _ _ _ _ _ _ _ _ p (proj1 Hj) (proj2 (I j Hj)) Q) as [e' [A' B']]. rewrite A in A'. inversion A'. subst. lia.
Qed.

(** ** Adding to a list *)
Lemma zupd_eq : forall A (f : Z -> A) k v j, zupd f k v j = if j =? k then v else f j.
Proof. reflexivity. Qed.

Lemma Add_spec : forall m k p e raw, heap m p = Some e -> p <> 0 ->
  (mlist m k = None /\ raw = []) \/ (exists l, mlist m k = Some l /\ rep l raw) ->
  Z.of_nat (length raw) + 1 < 2 ^ 27 -> 0 <= mmax m k < 2 ^ 27 ->
  exists l', rep l' (raw ++ [p]) /\
    MESH_Add m k p = Ok (mkMesh (zupd (mlist m) k (Some l')) (zupd (mcnt m) k (Z.of_nat (length (valid raw)) + 1))
      (if MEnt_ID e =? 0 then zupd (mmax m) k (mmax m k + 1) else mmax m) (msorted m)
      (if MEnt_ID e =? 0 then zupd (heap m) p (Some (MEnt_Set_ID e (mmax m k + 1))) else heap m)).
Proof.
  intros m k p e raw He Hp HL Hlen Hmax. unfold MESH_Add.
  assert (exists l, match mlist m k with None => List_New 10 | Some l => Ok l end = Ok l /\ rep l raw) as [l [E R]].
  { destruct HL as [[A B]|[l [A B]]]; rewrite A.
    - destruct (New_rep 10) as [l [X Y]]; [lia|]. exists l. subst. auto.
    - eauto. }
  rewrite E. cbn [bind]. destruct (Add_rep l raw p R Hp Hlen) as [l' [X Y]]. rewrite X. cbn [bind].
  unfold deref. cbn [heap set_cnt set_list mlist mcnt mmax msorted]. rewrite He. cbn [bind].
  rewrite (num_rep l' (raw ++ [p])) by auto. rewrite valid_app. cbn [valid filter]. rewrite isv_true by auto. rewrite app_length. cbn [length].
  replace (Z.of_nat (length (valid raw) + 1)) with (Z.of_nat (length (valid raw)) + 1) by lia.
  exists l'. split; auto. destruct (MEnt_ID e =? 0) eqn:EI; auto.
  rewrite ck_ok by lia. cbn [bind]. unfold MEnt_Set_ID_in, deref. cbn [heap set_max set_cnt set_list mlist mcnt mmax msorted]. rewrite He. cbn [bind]. rewrite EI. reflexivity.
Qed.

Lemma valid_snoc' : forall raw p, p <> 0 -> valid (raw ++ [p]) = valid raw ++ [p].
Proof. intros. rewrite valid_app. cbn [valid filter]. rewrite isv_true; auto. Qed.

Lemma New_spec : forall N m h raws k p g, minv N m h raws -> N + 1 < 2 ^ 27 -> hpre false false h (MNew k p g) ->
  exists m' raws', Ent_New m k p g = Ok m' /\ minv (N + 1) m' (hstep h (MNew k p g)) raws' /\
    (forall q, q <> p -> heap m' q = heap m q) /\ idof m' p = mmax m k + 1 /\ mmax m' k = mmax m k + 1.
Proof.
  intros N m h raws k p g [I HS] HN [Hk [Hp Hf]]. destruct (I k Hk) as [M0 IK]. unfold Ent_New. fold (fresh k g).
  destruct (fresh_spec k g Hk) as [F1 F2].
  pose proof (ki_B _ _ _ _ _ _ _ _ _ _ IK) as HB. pose proof (ki_len _ _ _ _ _ _ _ _ _ _ IK) as HLn.
  destruct (Add_spec (set_ent m p (Some (fresh k g))) k p (fresh k g) (raws k)) as [l' [R E]]; auto.
  { cbn [heap set_ent]. apply zupd_same. }
  { apply (ki_list _ _ _ _ _ _ _ _ _ _ IK). }
  { lia. }
  { cbn [mmax set_ent]. lia. }
  rewrite E. rewrite F2. change (0 =? 0) with true. cbv iota. cbn [mlist mcnt mmax msorted heap set_ent].
  set (m' := mkMesh _ _ _ _ _). exists m', (zupd raws k (raws k ++ [p])).
  assert (HQ : forall q, q <> p -> heap m' q = heap m q).
  { intros q Hq. unfold m'. cbn [heap]. unfold zupd. replace (q =? p) with false by lia. auto. }
  assert (HP : heap m' p = Some (MEnt_Set_ID (fresh k g) (mmax m k + 1))) by (unfold m'; cbn [heap]; apply zupd_same).
  assert (IDP : idof m' p = mmax m k + 1) by (unfold idof; rewrite HP; apply id_set; lia).
  assert (MX : mmax m' k = mmax m k + 1) by (unfold m'; cbn [mmax]; apply zupd_same).
  assert (NL : ~ In p (hl h k ++ hk h k ++ hs h k)) by auto.
  assert (LT : forall q, In q (hl h k) -> idof m' q < mmax m k + 1).
  { intros q Hq. rewrite (idof_heap m m') by (apply HQ; intro; subst; apply NL; apply in_or_app; auto).
    destruct (ki_live _ _ _ _ _ _ _ _ _ _ IK q Hq) as [_ [e [A [_ B]]]]. unfold idof. rewrite A. lia. }
  assert (LTv : forall q, In q (valid (raws k)) -> idof m' q < idof m' p).
  { intros q Hq. rewrite IDP. apply LT. eapply Permutation_in; [apply (ki_perm _ _ _ _ _ _ _ _ _ _ IK)|auto]. }
  split; auto. split; [|auto].
  - split; [|cbn [hstep hfl]; unfold m'; cbn [msorted]; auto].
    intros j Hj. destruct (Z.eq_dec j k) as [->|D].
    + cbn [hstep hl hk hs hord hgap]. rewrite !zupd_same. split; [rewrite MX; lia|]. rewrite MX. constructor.
      * right. exists l'. split; auto. unfold m'. cbn [mlist]. apply zupd_same.
      * rewrite valid_snoc' by auto. apply Permutation_app_tail. apply (ki_perm _ _ _ _ _ _ _ _ _ _ IK).
      * rewrite app_length. cbn [length]. lia.
      * unfold m'. cbn [mcnt]. rewrite zupd_same. rewrite app_length. cbn [length].
        rewrite (Permutation_length (ki_perm _ _ _ _ _ _ _ _ _ _ IK)). lia.
      * lia.
      * intros q Hq. apply in_app_or in Hq. destruct Hq as [Hq|[<-|[]]].
        -- rewrite HQ by (intro; subst; apply NL; apply in_or_app; auto).
           destruct (ki_live _ _ _ _ _ _ _ _ _ _ IK q Hq) as [A0 [e [A [B C]]]]. split; auto. exists e. repeat split; auto; lia.
        -- split; auto. rewrite HP. eexists. split; [reflexivity|]. rewrite dim_set_id, id_set by lia. repeat split; auto; lia.
      * intros q Hq. rewrite HQ by (intro; subst; apply NL; apply in_or_app; right; apply in_or_app; auto).
        destruct (ki_kept _ _ _ _ _ _ _ _ _ _ IK q Hq) as [A0 [e [A [B [C E']]]]]. split; auto. exists e. repeat split; auto; lia.
      * intros q Hq. rewrite HQ by (intro; subst; apply NL; apply in_or_app; right; apply in_or_app; auto). apply (ki_stale _ _ _ _ _ _ _ _ _ _ IK); auto.
      * apply Permutation_NoDup with (map (idof m') (p :: hl h k ++ hk h k)).
        { apply Permutation_map. rewrite <- app_assoc. apply Permutation_middle. }
        cbn [map]. constructor.
        -- rewrite IDP. intro X. apply in_map_iff in X. destruct X as [q [X1 X2]].
           assert (q <> p) by (intro; subst; apply NL; rewrite app_assoc; apply in_or_app; auto).
           rewrite (idof_heap m m') in X1 by auto. unfold idof in X1. apply in_app_or in X2. destruct X2 as [X2|X2].
           ++ destruct (ki_live _ _ _ _ _ _ _ _ _ _ IK q X2) as [_ [e [A [_ B]]]]. rewrite A in X1. lia.
           ++ destruct (ki_kept _ _ _ _ _ _ _ _ _ _ IK q X2) as [_ [e [A [_ [_ B]]]]]. rewrite A in X1. lia.
        -- rewrite (map_ext_in _ (idof m)). apply (ki_ids _ _ _ _ _ _ _ _ _ _ IK).
           intros q Hq. apply idof_heap. apply HQ. intro; subst. apply NL. rewrite app_assoc. apply in_or_app; auto.
      * apply Permutation_NoDup with (p :: hl h k ++ hk h k ++ hs h k).
        { rewrite <- app_assoc. apply Permutation_middle. }
        constructor; auto. apply (ki_nd _ _ _ _ _ _ _ _ _ _ IK).
      * intros Ho. rewrite valid_snoc' by auto. apply ssorted_snoc; auto.
        apply ssorted_ext with (f := idof m); [|apply (ki_ord _ _ _ _ _ _ _ _ _ _ IK); auto].
        intros x Hx. symmetry. apply idof_heap. apply HQ. intro; subst.
        apply NL. apply in_or_app. left. eapply Permutation_in; [apply (ki_perm _ _ _ _ _ _ _ _ _ _ IK)|auto].
      * intros Hg. rewrite valid_snoc' by auto. rewrite (ki_gap _ _ _ _ _ _ _ _ _ _ IK); auto.
    + cbn [hstep hl hk hs hord hgap]. rewrite !zupd_eq. replace (j =? k) with false by lia.
      apply kinv_frame with (N := N) (m := m); auto; try lia; unfold m'; cbn [mlist mcnt mmax]; try (rewrite zupd_eq; replace (j =? k) with false by lia; auto).
      intros q Hq. apply HQ. intro; subst. apply (Hf j Hj). auto.
Qed.
