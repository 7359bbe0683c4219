(** Property C15: union, intersection and difference of mesh sets. *)
From Coq Require Import ZArith List Lia Bool Arith ZifyBool ZifyNat.
From Verif Require Import Base BaseProofs ListModel ListSpec ListHist ListProofs ListProofs2 ListProofs3 MarkModel MarkProps MSetModel.
Import ListNotations.
Open Scope Z_scope.

(** ** Lemmas *)
Lemma lloop_walk : forall A (body : A -> ptr -> result A) n l idx es s, walk_from n l idx = Ok es ->
  lwhile body n l idx s = (fix go s es := match es with [] => Ok s | e :: t => s <- body s e ;; go s t end) s es.
Proof.
  induction n; intros l idx es s W; [discriminate|]. cbn [walk_from lwhile] in *.
  destruct (List_Next_Entry l idx) as [[idx' e]| | |]; cbn [bind] in *; try discriminate.
  destruct (e =? NULL); [inversion W; auto|]. destruct (walk_from n l idx') as [r| | |] eqn:E; cbn [bind] in W; try discriminate.
  inversion W. destruct (body s e); cbn [bind]; auto.
Qed.

Fixpoint goL {A : Type} (body : A -> ptr -> result A) (s : A) (es : list ptr) : result A :=
  match es with [] => Ok s | e :: t => s <- body s e ;; goL body s t end.

Lemma lloop_go : forall A (body : A -> ptr -> result A) l raw s, rep l raw -> lloop body l s = goL body s (valid raw).
Proof.
  intros. unfold lloop. rewrite (lloop_walk _ _ _ _ _ (valid raw)).
  - generalize (valid raw). clear. intros es. revert s. induction es; intros; auto. cbn [goL]. destruct (body s a); cbn [bind]; auto.
  - apply (Walk_rep l raw). auto.
Qed.

Lemma valid_nz : forall raw x, In x (valid raw) -> x <> 0.
Proof. intros raw x H. unfold valid in H. apply filter_In in H. destruct H as [_ H]. unfold isv in H. lia. Qed.

Lemma valid_snoc : forall raw e, e <> 0 -> valid (raw ++ [e]) = valid raw ++ [e].
Proof. intros. rewrite valid_app. cbn. rewrite isv_true; auto. Qed.

Lemma ismarked_agree : forall mk s e m, agree mk s -> 1 <= m <= 32 -> exists r, MEnt_IsMarked mk e m = Ok r /\ (r =? 0) = negb (s e m).
Proof.
  intros mk s e m A H. unfold MEnt_IsMarked. rewrite bit_ok by lia. cbn [bind]. eexists. split; [reflexivity|].
  rewrite land_bit by lia. rewrite A by auto. auto.
Qed.

Lemma mark_list : forall l raw m mk s, rep l raw -> 1 <= m <= 32 -> agree mk s ->
  exists mk', List_Mark mk l m = Ok mk' /\ agree mk' (kset s (valid raw) m true).
Proof.
  intros l raw m mk s R H A. unfold List_Mark. rewrite (lmark_walk _ _ _ _ _ _ (valid raw)) by (apply (Walk_rep l raw); auto).
  apply go_agree; auto. intros. apply mark_agree; auto.
Qed.
Lemma unmark_list : forall l raw m mk s, rep l raw -> 1 <= m <= 32 -> agree mk s ->
  exists mk', List_Unmark mk l m = Ok mk' /\ agree mk' (kset s (valid raw) m false).
Proof.
  intros l raw m mk s R H A. unfold List_Unmark. rewrite (lmark_walk _ _ _ _ _ _ (valid raw)) by (apply (Walk_rep l raw); auto).
  apply go_agree; auto. intros. apply unmark_agree; auto.
Qed.

Lemma existsb_in : forall e es, existsb (Z.eqb e) es = true <-> In e es.
Proof. intros. rewrite existsb_exists. split; [intros [x [A B]]; assert (e = x) by lia; subst; auto|intros; exists e; split; auto; lia]. Qed.

(** The loop of MSets_Intersect and MSets_Subtract: add the entries that satisfy
    a test. *)
Lemma filter_loop : forall (body : mset -> ptr -> result mset) (test : Z -> bool) es new raw,
  (forall s e, body s e = if test e then MSet_Add s e else Ok s) -> (forall e, In e es -> e <> 0) ->
  rep (ms_list new) raw -> Z.of_nat (length raw + length es) < 2 ^ 27 ->
  exists new' raw', goL body new es = Ok new' /\ rep (ms_list new') raw' /\ valid raw' = valid raw ++ filter test es /\
    ms_dim new' = ms_dim new /\ ms_mesh new' = ms_mesh new.
Proof.
  intros body test. induction es as [|e es IH]; intros new raw B Z0 R L.
  - exists new, raw. cbn. rewrite app_nil_r. auto.
  - cbn [goL filter]. rewrite B. destruct (test e).
    + cbn [length] in L. destruct (Add_rep (ms_list new) raw e R) as [l' [E R']]; [apply Z0; left; auto|lia|].
      unfold MSet_Add. rewrite E. cbn [bind].
      destruct (IH (mkS (ms_mesh new) (ms_dim new) l') (raw ++ [e]) B) as [new' [raw' [G1 [G2 [G3 [G4 G5]]]]]]; auto.
      { intros. apply Z0. right; auto. } { rewrite app_length. cbn [length]. lia. }
      exists new', raw'. split; auto. split; auto. split; auto. rewrite G3, valid_snoc, <- app_assoc by (apply Z0; left; auto). auto.
    + cbn [bind]. apply IH; auto. { intros. apply Z0. right; auto. } cbn [length] in L. lia.
Qed.

Lemma new_rep : exists l, List_New 0 = Ok l /\ rep l [].
Proof. apply New_rep. lia. Qed.

Lemma reach : forall s es, reachable (ms_list s) es -> exists raw, rep (ms_list s) raw /\ valid raw = es /\ Z.of_nat (length raw) = List_Size_Raw (ms_list s).
Proof. intros s es H. destruct (reachable_rep_len _ _ H) as [raw [A [B C]]]. exists raw. auto. Qed.

Lemma free_pool : forall ov st used m, mk_inv st used -> In m used -> exists st', MSTK_FreeMarker ov st m = Ok st' /\
  mk_inv st' (filter (fun x => negb (x =? m)) used).
Proof. intros ov st used m I J. apply free_sim; auto. apply I; auto. Qed.

Lemma inv_perm : forall st u u', mk_inv st u -> (forall x, In x u <-> In x u') -> mk_inv st u'.
Proof.
  intros st u u' [A [B [C D]]] H. split; auto. split; auto. split; [intros; rewrite <- H; auto|intros m M; apply D, H; auto].
Qed.

(** Markers not in use are not set on any entity: the convention for users of
    markers. *)
Definition pool_clean (used : list Z) (marked : Z -> Z -> bool) : Prop :=
  forall e m, 1 <= m <= 32 -> ~ In m used -> marked e m = false.

Lemma clean_off : forall s used m es, pool_clean used s -> ~ In m used -> forall e m', 1 <= m' <= 32 ->
  kset (kset s es m true) es m false e m' = s e m'.
Proof.
  intros s used m es C N e m' H. unfold kset. destruct ((m' =? m) && existsb (Z.eqb e) es) eqn:E; auto.
  symmetry. apply C; auto. replace m' with m by lia. auto.
Qed.

(** ** C15 *)

(** The new set (NULL stands for an empty one), its entries, and the effects on
    marks and on the marker pool. *)
Definition set_result (r : result (mkst * (Z -> Z) * option mset)) (used : list Z) (marked : Z -> Z -> bool)
  (es : list Z) (empty_is_null : bool) : Prop :=
  exists st mk out, r = Ok (st, mk, out) /\ mk_inv st used /\
    (forall e m, 1 <= m <= 32 -> is_marked mk e m (marked e m)) /\
    match out with
    | None => empty_is_null = true /\ es = []
    | Some s => (empty_is_null = true -> es <> []) /\ List_Walk (ms_list s) = Ok es /\
                exists k, 0 <= k /\ behaves (ms_list s) es k
    end.

Lemma agree_marked : forall mk s, agree mk s <-> forall e m, 1 <= m <= 32 -> is_marked mk e m (s e m).
Proof.
  intros. assert (Q : forall e m v, 1 <= m <= 32 -> (is_marked mk e m v <-> Z.testbit (mk e) (m - 1) = v)).
  { intros e m v Hm. unfold is_marked, MEnt_IsMarked. rewrite bit_ok by lia. cbn [bind].
    pose proof (land_bit (mk e) (m - 1) ltac:(lia)) as L. split.
    - intros [r [R1 R2]]. inversion R1. subst r. destruct v.
      + assert (X : Z.land (mk e) (2 ^ (m - 1)) <> 0) by tauto. destruct (Z.testbit (mk e) (m - 1)); auto. cbn in L. lia.
      + destruct (Z.testbit (mk e) (m - 1)); auto. cbn in L. assert (false = true) by (apply R2; lia). auto.
    - intros <-. eexists. split; [reflexivity|]. destruct (Z.testbit (mk e) (m - 1)); cbn in L; split; intros; auto; try discriminate; lia. }
  split; intros H e m Hm; apply Q; auto.
Qed.

Lemma rep_finish : forall l raw, rep l raw -> List_Walk l = Ok (valid raw) /\ exists k, 0 <= k /\ behaves l (valid raw) k.
Proof.
  intros l raw R. split; [apply Walk_rep; auto|]. exists (2 ^ 27 - 1 - List_Size_Raw l). split; [|apply rep_behaves; auto].
  rewrite (size_rep l raw) by auto. destruct R as [p [r1 H]]. pose proof (rp_len _ _ _ _ _ H). lia.
Qed.

Definition diffL (a b : list Z) : list Z := filter (fun x => negb (existsb (Z.eqb x) b)) a.
Definition interL (a b : list Z) : list Z := filter (fun x => existsb (Z.eqb x) b) a.

Lemma num_null : forall l raw, rep l raw -> (List_Num_Entries l =? 0) = match valid raw with [] => true | _ => false end.
Proof. intros. rewrite (num_rep l raw) by auto. destruct (valid raw); cbn [length]; lia. Qed.

(** Difference: the entries of the first that are not in the second, in order;
    with no duplicates if the first has none. *)
Theorem C15_subtract : forall ov st used mk marked s1 s2 es1 es2,
  reachable (ms_list s1) es1 -> reachable (ms_list s2) es2 -> ms_mesh s1 = ms_mesh s2 -> List_Size_Raw (ms_list s1) < 2 ^ 26 ->
  mk_inv st used -> (exists m, 1 <= m <= 32 /\ ~ In m used) ->
  (forall e m, 1 <= m <= 32 -> is_marked mk e m (marked e m)) -> pool_clean used marked ->
  exists es, set_result (MSets_Subtract ov st mk s1 s2) used marked es true /\
    (forall e, In e es <-> In e es1 /\ ~ In e es2) /\ (NoDup es1 -> NoDup es).
Proof.
  intros ov st used mk marked s1 s2 es1 es2 R1 R2 M SZ I FR A C. apply agree_marked in A.
  destruct (reach _ _ R1) as [raw1 [P1 [V1 L1]]]. destruct (reach _ _ R2) as [raw2 [P2 [V2 L2]]].
  exists (diffL es1 es2). split; [|split].
  - unfold set_result, MSets_Subtract. rewrite M, Z.eqb_refl. cbn [negb]. unfold MSet_New.
    destruct new_rep as [l0 [E0 P0]]. rewrite E0. cbn [bind].
    destruct (get_sim st used I) as [[st1 [m [G1 [G2 [G3 G4]]]]]|[_ G]]; [|destruct FR as [m [F1 F2]]; destruct F2; apply G; auto].
    rewrite G1. cbn [bind]. unfold MSet_Mark.
    destruct (mark_list _ _ m mk marked P2 G2 A) as [mk1 [K1 K2]]. rewrite K1. cbn [bind]. rewrite (lloop_go _ _ _ raw1 _ P1).
    destruct (filter_loop (fun new ent => m1 <- MEnt_IsMarked mk1 ent m ;; (if m1 =? 0 then MSet_Add new ent else Ok new))
      (fun x => negb (existsb (Z.eqb x) es2)) (valid raw1) (mkS (ms_mesh s2) (ms_dim s1) l0) []) as [new' [raw' [F1 [F2 [F3 [F4 F5]]]]]]; auto.
    { intros s e. destruct (ismarked_agree mk1 _ e m K2 G2) as [r [Q1 Q2]]. rewrite Q1. cbn [bind]. rewrite Q2. unfold kset.
      rewrite Z.eqb_refl. cbn [andb]. rewrite V2. destruct (existsb (Z.eqb e) es2); auto. rewrite C; auto. }
    { apply valid_nz. }
    { pose proof (valid_len raw1). cbn [length]. lia. }
    rewrite F1. cbn [bind]. unfold MSet_Unmark. destruct (unmark_list _ _ m mk1 _ P2 G2 K2) as [mk2 [K3 K4]]. rewrite K3. cbn [bind].
    destruct (free_pool ov st1 (m :: used) m G4) as [st2 [S1 S2]]; [left; auto|]. rewrite S1. cbn [bind].
    eexists. eexists. eexists. split; [reflexivity|]. split.
    { eapply inv_perm; [exact S2|]. intros x. rewrite filter_In. simpl. split; [intros [[X|X] Y]; [lia|auto]|intros X; split; auto].
      destruct (x =? m) eqn:T; auto. exfalso. apply G3. replace m with x by lia. auto. }
    split.
    { apply agree_marked. intros e m' Hm. rewrite K4 by auto. apply (clean_off marked used); auto. }
    rewrite (num_null _ raw') by auto. fold (diffL (valid raw1) es2) in F3. rewrite V1 in F3.
    change (valid [] ++ diffL es1 es2) with (diffL es1 es2) in F3. rewrite <- F3. destruct (valid raw') as [|y t] eqn:EV; auto.
    split; [discriminate|]. rewrite <- EV. apply rep_finish; auto.
  - intros e. unfold diffL. rewrite filter_In. split; intros [X Y]; split; auto.
    + intro Z. apply existsb_in in Z. rewrite Z in Y. discriminate.
    + destruct (existsb (Z.eqb e) es2) eqn:E; auto. apply existsb_in in E. tauto.
  - intros. unfold diffL. apply NoDup_filter; auto.
Qed.
Print Assumptions C15_subtract.

(** Intersection: the entries that are in both. *)
Theorem C15_intersect : forall ov st used mk marked s1 s2 es1 es2,
  reachable (ms_list s1) es1 -> reachable (ms_list s2) es2 -> ms_mesh s1 = ms_mesh s2 ->
  List_Size_Raw (ms_list s1) < 2 ^ 26 -> List_Size_Raw (ms_list s2) < 2 ^ 26 ->
  mk_inv st used -> (exists m m', 1 <= m <= 32 /\ 1 <= m' <= 32 /\ m <> m' /\ ~ In m used /\ ~ In m' used) ->
  (forall e m, 1 <= m <= 32 -> is_marked mk e m (marked e m)) -> pool_clean used marked ->
  exists es, set_result (MSets_Intersect ov st mk s1 s2) used marked es true /\
    (forall e, In e es <-> In e es1 /\ In e es2) /\ (NoDup es1 -> NoDup es2 -> NoDup es).
Proof.
  intros ov st used mk marked s1 s2 es1 es2 R1 R2 M SZ1 SZ2 I FR A C. apply agree_marked in A.
  destruct (reach _ _ R1) as [raw1 [P1 [V1 L1]]]. destruct (reach _ _ R2) as [raw2 [P2 [V2 L2]]].
  set (c := List_Num_Entries (ms_list s1) <? List_Num_Entries (ms_list s2)).
  set (ra := if c then raw1 else raw2).
  exists (filter (fun x => existsb (Z.eqb x) es1 && existsb (Z.eqb x) es2) (valid ra)). split; [|split].
  - unfold set_result, MSets_Intersect. rewrite M, Z.eqb_refl. cbn [negb]. unfold MSet_New.
    destruct new_rep as [l0 [E0 P0]]. rewrite E0. cbn [bind].
    destruct FR as [f1 [f2 [F1 [F2 [F3 [F4 F5]]]]]].
    destruct (get_sim st used I) as [[st1 [m [G1 [G2 [G3 G4]]]]]|[_ G]]; [|destruct F4; apply G; auto].
    rewrite G1. cbn [bind]. unfold MSet_Mark.
    destruct (mark_list _ _ m mk marked P1 G2 A) as [mk1 [K1 K2]]. rewrite K1. cbn [bind].
    destruct (get_sim st1 (m :: used) G4) as [[st2 [m2 [H1 [H2 [H3 H4]]]]]|[_ G]].
    2: { pose proof (G f1 F1) as X1. pose proof (G f2 F2) as X2. simpl in X1, X2. destruct X1 as [X1|X1]; [|tauto]. destruct X2 as [X2|X2]; [|tauto]. congruence. }
    rewrite H1. cbn [bind]. simpl in H3.
    destruct (mark_list _ _ m2 mk1 _ P2 H2 K2) as [mk2 [K3 K4]]. rewrite K3. cbn [bind]. fold c.
    assert (Pa : rep (ms_list (if c then s1 else s2)) ra) by (unfold ra; destruct c; auto).
    rewrite (lloop_go _ _ _ ra _ Pa).
    assert (MM : forall e, kset (kset marked (valid raw1) m true) (valid raw2) m2 true e m = existsb (Z.eqb e) es1 /\
       kset (kset marked (valid raw1) m true) (valid raw2) m2 true e m2 = existsb (Z.eqb e) es2).
    { intros e. unfold kset. rewrite V1, V2. rewrite !Z.eqb_refl. replace (m =? m2) with false by lia. replace (m2 =? m) with false by lia. cbn [andb].
      rewrite !C by (auto; tauto). split; [destruct (existsb (Z.eqb e) es1); auto|destruct (existsb (Z.eqb e) es2); auto]. }
    destruct (filter_loop (fun new ent => m1 <- MEnt_IsMarked mk2 ent m ;; m0 <- MEnt_IsMarked mk2 ent m2 ;;
       (if negb (m1 =? 0) && negb (m0 =? 0) then MSet_Add new ent else Ok new))
      (fun x => existsb (Z.eqb x) es1 && existsb (Z.eqb x) es2) (valid ra) (mkS (ms_mesh s2) (common_dim s1 s2) l0) []) as [new' [raw' [N1 [N2 [N3 [N4 N5]]]]]]; auto.
    { intros s e. destruct (ismarked_agree mk2 _ e m K4 G2) as [r [Q1 Q2]]. rewrite Q1. cbn [bind].
      destruct (ismarked_agree mk2 _ e m2 K4 H2) as [r' [Q3 Q4]]. rewrite Q3. cbn [bind]. rewrite Q2, Q4, !negb_involutive.
      destruct (MM e) as [-> ->]. auto. }
    { apply valid_nz. }
    { pose proof (valid_len ra). assert (Z.of_nat (length ra) < 2 ^ 26) by (unfold ra; destruct c; lia). cbn [length]. lia. }
    rewrite N1. cbn [bind]. unfold MSet_Unmark. destruct (unmark_list _ _ m mk2 _ P1 G2 K4) as [mk3 [K5 K6]]. rewrite K5. cbn [bind].
    destruct (free_pool ov st2 (m2 :: m :: used) m H4) as [st3 [S1 S2]]; [right; left; auto|]. rewrite S1. cbn [bind].
    destruct (unmark_list _ _ m2 mk3 _ P2 H2 K6) as [mk4 [K7 K8]]. rewrite K7. cbn [bind].
    destruct (free_pool ov st3 _ m2 S2) as [st4 [T1 T2]]. { apply filter_In. split; [left; auto|]. lia. } rewrite T1. cbn [bind].
    eexists. eexists. eexists. split; [reflexivity|]. split.
    { eapply inv_perm; [exact T2|]. intros x. rewrite !filter_In. simpl. split; [intros [[[X|[X|X]] Y] Z]; [lia|lia|auto]|].
      intros X. assert (x <> m) by (intro; subst; auto). assert (x <> m2) by (intro; subst; auto). split; [split|]; auto; lia. }
    split.
    { apply agree_marked. intros e m' Hm. rewrite K8 by auto. unfold kset.
      destruct (m' =? m2) eqn:T; cbn [andb].
      - destruct (existsb (Z.eqb e) (valid raw2)); cbn [andb]. { symmetry. apply C; auto. intro X. apply H3. right. replace m2 with m' by lia. auto. }
        replace (m' =? m) with false by lia. auto.
      - destruct (m' =? m) eqn:T2'; cbn [andb]; auto. destruct (existsb (Z.eqb e) (valid raw1)); auto. symmetry. apply C; auto. replace m' with m by lia. auto. }
    rewrite (num_null _ raw') by auto. change (valid [] ++ filter ?f ?x) with (filter f x) in N3. rewrite <- N3.
    destruct (valid raw') as [|y t] eqn:EV; auto. split; [discriminate|]. rewrite <- EV. apply rep_finish; auto.
  - intros e. rewrite filter_In, andb_true_iff, !existsb_in. unfold ra. destruct c; rewrite ?V1, ?V2; tauto.
  - intros. apply NoDup_filter. unfold ra. destruct c; [rewrite V1|rewrite V2]; auto.
Qed.
Print Assumptions C15_intersect.

(** The loop of MSets_Union. *)
Lemma union_loop : forall m marked used, 1 <= m <= 32 -> pool_clean used marked -> ~ In m used -> forall es new raw mk,
  (forall e, In e es -> e <> 0) -> rep (ms_list new) raw -> Z.of_nat (length raw + length es) < 2 ^ 27 ->
  agree mk (kset marked (valid raw) m true) ->
  exists new' raw' mk', goL (fun p ent => let '(new, mk) := p in inset <- MEnt_IsMarked mk ent m ;;
          (if inset =? 0 then new <- MSet_Add new ent ;; mk <- MEnt_Mark mk ent m ;; Ok (new, mk) else Ok (new, mk))) (new, mk) es = Ok (new', mk') /\
    rep (ms_list new') raw' /\ agree mk' (kset marked (valid raw') m true) /\
    (exists ext, valid raw' = valid raw ++ ext) /\
    (forall e, In e (valid raw') <-> In e (valid raw) \/ In e es) /\ (NoDup (valid raw) -> NoDup (valid raw')).
Proof.
  intros m marked used Hm C Nm. induction es as [|e es IH]; intros new raw mk Z0 R L A.
  - exists new, raw, mk. split; auto. split; auto. split; auto. split; [exists []; rewrite app_nil_r; auto|]. split; auto. intros; simpl; tauto.
  - cbn [goL]. destruct (ismarked_agree mk _ e m A Hm) as [r [Q1 Q2]]. rewrite Q1. cbn [bind]. rewrite Q2. unfold kset at 1. rewrite Z.eqb_refl. cbn [andb].
    cbn [length] in L. destruct (existsb (Z.eqb e) (valid raw)) eqn:EX; cbn [negb].
    + cbn [bind]. destruct (IH new raw mk) as [new' [raw' [mk' [G1 [G2 [G3 [G4 [G5 G6]]]]]]]]; auto; [intros; apply Z0; right; auto|lia|].
      exists new', raw', mk'. split; auto. split; auto. split; auto. split; auto. split; auto. intros x. rewrite G5. apply existsb_in in EX. simpl. intuition congruence.
    + rewrite C by auto. cbn [negb]. unfold MSet_Add. destruct (Add_rep (ms_list new) raw e R) as [l' [E R']]; [apply Z0; left; auto|lia|].
      rewrite E. cbn [bind]. destruct (mark_agree mk _ e m A Hm) as [mk1 [K1 K2]]. rewrite K1. cbn [bind].
      assert (NZ : e <> 0) by (apply Z0; left; auto).
      destruct (IH (mkS (ms_mesh new) (ms_dim new) l') (raw ++ [e]) mk1) as [new' [raw' [mk' [G1 [G2 [G3 [G4 [G5 G6]]]]]]]]; auto.
      { intros; apply Z0; right; auto. } { rewrite app_length. cbn [length]. lia. }
      { eapply agree_ext; [exact K2|]. intros x m'. unfold kset. rewrite valid_snoc, existsb_app by auto. cbn [existsb].
        destruct (m' =? m), (existsb (Z.eqb x) (valid raw)), (x =? e); auto. }
      exists new', raw', mk'. rewrite valid_snoc in * by auto. split; auto. split; auto. split; auto. split.
      { destruct G4 as [ext G4]. exists (e :: ext). rewrite G4, <- app_assoc. auto. }
      split. { intros x. rewrite G5, in_app_iff. simpl. tauto. }
      intros ND. apply G6. assert (NI : ~ In e (valid raw)). { intro X. apply existsb_in in X. congruence. }
      clear - ND NI. induction (valid raw) as [|y t IHt]; cbn; [constructor; auto; constructor|]. inversion ND. subst. constructor.
      * rewrite in_app_iff. simpl. intros [X|[X|[]]]; [auto|]. apply NI. left. auto.
      * apply IHt; auto. simpl in NI. tauto.
Qed.

(** Union: the first set followed by the other entries of the second. *)
Theorem C15_union : forall ov st used mk marked s1 s2 es1 es2,
  reachable (ms_list s1) es1 -> reachable (ms_list s2) es2 -> ms_mesh s1 = ms_mesh s2 ->
  List_Size_Raw (ms_list s1) < 2 ^ 26 -> List_Size_Raw (ms_list s2) < 2 ^ 26 ->
  mk_inv st used -> (exists m, 1 <= m <= 32 /\ ~ In m used) ->
  (forall e m, 1 <= m <= 32 -> is_marked mk e m (marked e m)) -> pool_clean used marked ->
  exists es, set_result (MSets_Union ov st mk s1 s2) used marked es false /\
    (forall e, In e es <-> In e es1 \/ In e es2) /\ (NoDup es1 -> NoDup es) /\ exists ext, es = es1 ++ ext.
Proof.
  intros ov st used mk marked s1 s2 es1 es2 R1 R2 M SZ1 SZ2 I FR A C. apply agree_marked in A.
  destruct (reach _ _ R1) as [raw1 [P1 [V1 L1]]]. destruct (reach _ _ R2) as [raw2 [P2 [V2 L2]]].
  unfold set_result, MSets_Union. rewrite M, Z.eqb_refl. cbn [negb]. unfold MSet_New.
  destruct new_rep as [l0 [E0 P0]]. rewrite E0. cbn [bind ms_mesh ms_dim].
  destruct (Copy_rep _ _ P1) as [lc [Ec Pc]]. rewrite Ec. cbn [bind].
  destruct (get_sim st used I) as [[st1 [m [G1 [G2 [G3 G4]]]]]|[_ G]]; [|destruct FR as [m [F1 F2]]; destruct F2; apply G; auto].
  rewrite G1. cbn [bind]. unfold MSet_Mark. cbn [ms_list].
  destruct (mark_list _ _ m mk marked Pc G2 A) as [mk1 [K1 K2]]. rewrite K1. cbn [bind]. rewrite (lloop_go _ _ _ raw2 _ P2).
  destruct (union_loop m marked used G2 C G3 (valid raw2) (mkS (ms_mesh s2) (common_dim s1 s2) lc) raw1 mk1)
    as [new' [raw' [mk' [N1 [N2 [N3 [N4 [N5 N6]]]]]]]]; auto.
  { apply valid_nz. } { pose proof (valid_len raw2). lia. }
  rewrite N1. cbn [bind]. unfold MSet_Unmark. destruct (unmark_list _ _ m mk' _ N2 G2 N3) as [mk2 [K3 K4]]. rewrite K3. cbn [bind].
  destruct (free_pool ov st1 (m :: used) m G4) as [st2 [S1 S2]]; [left; auto|]. rewrite S1. cbn [bind].
  exists (valid raw'). split; [|split; [|split]].
  - eexists. eexists. eexists. split; [reflexivity|]. split.
    { eapply inv_perm; [exact S2|]. intros x. rewrite filter_In. simpl. split; [intros [[X|X] Y]; [lia|auto]|intros X; split; auto].
      destruct (x =? m) eqn:T; auto. exfalso. apply G3. replace m with x by lia. auto. }
    split.
    { apply agree_marked. intros e m' Hm. rewrite K4 by auto. apply (clean_off marked used); auto. }
    split; [discriminate|]. apply rep_finish; auto.
  - intros e. rewrite N5, V1, V2. tauto.
  - intros. apply N6. rewrite V1. auto.
  - rewrite <- V1. auto.
Qed.
Print Assumptions C15_union.

(** MSets_Cat accepts sets of different kinds of entities: the test on line 147
    compares the destination with itself. *)
Theorem C15_cat_kinds_refuted : exists d s r, ms_dim d <> ms_dim s /\ MSets_Cat d s = Ok r.
Proof.
  exists (mkS 1 0 (mkL 3 None (malloc 7))), (mkS 1 2 (mkL 3 None (malloc 7))). eexists. split; [cbn; lia|]. vm_compute. reflexivity.
Qed.
Print Assumptions C15_cat_kinds_refuted.

Definition C15_mk (ops : list lop) : LList :=
  match List_New 0 with Ok l => match mrun l ops with Ok (l', _) => l' | _ => l end | _ => mkL 0 None [] end.
Definition C15_s1 : mset := mkS 99 0 (C15_mk [LAdd 5; LAdd 7; LAdd 9; LRem 7]).
Definition C15_s2 : mset := mkS 99 0 (C15_mk [LAdd 9; LAdd 4; LAdd 2]).
Definition walk_out (r : result (mkst * (Z -> Z) * option mset)) : result (list Z) :=
  '(st, mk, o) <- r ;; match o with Some s => List_Walk (ms_list s) | None => Ok [] end.
Example C15_ex : reachable (ms_list C15_s1) [5; 9] /\ reachable (ms_list C15_s2) [9; 4; 2] /\ mk_inv (mkM 1 0) [1] /\
  pool_clean [1] (fun e m => (e =? 9) && (m =? 1)) /\
  walk_out (MSets_Union (fun _ => 0) (mkM 1 0) (fun e => if e =? 9 then 1 else 0) C15_s1 C15_s2) = Ok [5; 9; 4; 2] /\
  walk_out (MSets_Intersect (fun _ => 0) (mkM 1 0) (fun e => if e =? 9 then 1 else 0) C15_s1 C15_s2) = Ok [9] /\
  walk_out (MSets_Subtract (fun _ => 0) (mkM 1 0) (fun e => if e =? 9 then 1 else 0) C15_s1 C15_s2) = Ok [5].
Proof.
  split. { exists 0, [LAdd 5; LAdd 7; LAdd 9; LRem 7]. eexists. eexists. split; [lia|]. split; [vm_compute; reflexivity|].
    split; [repeat split; simpl; lia|]. split; [vm_compute; reflexivity|]. split; vm_compute; reflexivity. }
  split. { exists 0, [LAdd 9; LAdd 4; LAdd 2]. eexists. eexists. split; [lia|]. split; [vm_compute; reflexivity|].
    split; [repeat split; simpl; lia|]. split; [vm_compute; reflexivity|]. split; vm_compute; reflexivity. }
  split. { unfold mk_inv. cbn [mk_bits mk_last]. split; [lia|]. split.
    - intros j Hj. destruct j as [|q|q]; try lia; destruct q; auto.
    - split; [intros j Hj; destruct j as [|p|p]; [simpl; tauto|destruct p; simpl; split; intros; try discriminate; lia|lia]|simpl; intros m [X|[]]; lia]. }
  split. { intros e m Hm H. simpl in H. destruct (e =? 9); auto. simpl. destruct (m =? 1) eqn:E; auto. exfalso. apply H. lia. }
  vm_compute. auto.
Qed.
