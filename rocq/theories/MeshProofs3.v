(** Lemmas about sorting, renumbering and searching by ID. *)
From Coq Require Import ZArith List Lia Bool Arith ZifyBool ZifyNat Permutation Sorting.Sorted.
From Verif Require Import Base BaseProofs ListModel ListSpec ListHist ListProofs ListProofs2 ListProofs3 ListProofs4 HashProofs
  SortModel SortProofs CompareModel EntModel EntProps AttModel AttProps MSetModel MSetProps MeshModel MeshSpec MeshProofs MeshProofs2.
Import ListNotations.
Open Scope Z_scope.

(** ** qsort with compareID *)
Definition idok (m : mesh) (s : list Z) : Prop :=
  forall p, In p s -> exists e, heap m p = Some e /\ 1 <= MEnt_ID e < 2 ^ 27.

Lemma cmp_ok : forall m s a b, idok m s -> In a s -> In b s -> cmpID m a b = Ok (idof m a - idof m b).
Proof.
  intros m s a b I Ha Hb. destruct (I a Ha) as [ea [A1 A2]]. destruct (I b Hb) as [eb [B1 B2]].
  unfold cmpID, deref, idof. rewrite A1, B1. cbn [bind]. apply ck_ok; lia.
Qed.

Lemma pins_spec : forall m x s, idok m (x :: s) -> StronglySorted (fun a b => idof m a <= idof m b) s ->
  exists r, pins (cmpID m) x s = Ok r /\ Permutation r (x :: s) /\ StronglySorted (fun a b => idof m a <= idof m b) r.
Proof.
  intros m x s. induction s as [|y s IH]; intros I SS; cbn [pins].
  - exists [x]. split; auto. split; auto. constructor; constructor.
  - inversion SS. subst. rewrite (cmp_ok m (x :: y :: s)) by (auto; cbn; auto). cbn [bind].
    destruct (idof m x - idof m y <=? 0) eqn:E.
    + exists (x :: y :: s). split; auto. split; auto. constructor; auto. rewrite Forall_forall in *. intros z [<-|Hz]; [lia|].
      specialize (H2 z Hz). lia.
    + destruct IH as [r [R1 [R2 R3]]]; auto.
      { intros p Hp. apply I. destruct Hp; [left|right; right]; auto. }
      rewrite R1. cbn [bind]. exists (y :: r). split; auto. split.
      { rewrite R2. apply perm_swap. }
      constructor; auto. rewrite Forall_forall in *. intros z Hz. apply (Permutation_in _ R2) in Hz. destruct Hz as [<-|Hz]; [lia|auto].
Qed.

Lemma pqsort_spec : forall m s, idok m s ->
  exists r, pqsort (cmpID m) s = Ok r /\ Permutation r s /\ StronglySorted (fun a b => idof m a <= idof m b) r.
Proof.
  intros m. induction s as [|x s IH]; intros I; cbn [pqsort].
  - exists []. repeat split; auto. constructor.
  - destruct IH as [r [R1 [R2 R3]]]; [intros p Hp; apply I; right; auto|]. rewrite R1. cbn [bind].
    destruct (pins_spec m x r) as [r' [Q1 [Q2 Q3]]]; auto.
    { intros p [<-|Hp]; apply I; [left; auto|right; eapply Permutation_in; eauto]. }
    exists r'. split; auto. split; auto. rewrite Q2. auto.
Qed.

Lemma strict_sorted : forall (f : Z -> Z) s, NoDup (map f s) -> StronglySorted (fun a b => f a <= f b) s -> StronglySorted (fun a b => f a < f b) s.
Proof.
  intros f s ND SS. induction SS; constructor; cbn [map] in ND; inversion ND; subst; auto.
  rewrite Forall_forall in *. intros x Hx. specialize (H x Hx). assert (f x <> f a); [|lia].
  intro E. apply H2. rewrite <- E. apply in_map. auto.
Qed.

(** Rearranging the entries of a list without gaps. *)
Lemma rdp_spec : forall raw tail, rdp (map Some raw ++ tail) 0 (length raw) = Ok raw.
Proof.
  intros raw tail. assert (H : forall b a, rdp (map Some (a ++ b) ++ tail) (Z.of_nat (length a)) (length b) = Ok b).
  { induction b as [|x b IH]; intros a; cbn [rdp length]; auto.
    rewrite (rd_map _ (a ++ x :: b) tail _ 0) by (rewrite ?app_length; cbn [length]; lia). cbn [bind]. rewrite Nat2Z.id, app_nth2, Nat.sub_diag by lia. cbn [nth].
    replace (Z.of_nat (length a) + 1) with (Z.of_nat (length (a ++ [x]))) by (rewrite app_length; cbn [length]; lia).
    replace (a ++ x :: b) with ((a ++ [x]) ++ b) by (rewrite <- app_assoc; auto). rewrite IH. auto. }
  apply (H raw []).
Qed.

Lemma Sort_rep : forall m l raw, rep l raw -> valid raw = raw -> idok m raw ->
  exists l' raw', List_Sort (cmpID m) l (Z.of_nat (length raw)) = Ok l' /\ rep l' raw' /\ Permutation raw' raw /\ valid raw' = raw' /\
    StronglySorted (fun a b => idof m a <= idof m b) raw'.
Proof.
  intros m l raw [p [r1 H]] V I. unfold List_Sort. rewrite (pars_rep _ _ _ _ _ H ltac:(lia)). cbn [nrem].
  assert (G : gaps raw = 0) by (unfold gaps; rewrite V; lia). rewrite G. change (0 =? 0) with true. cbn [negb].
  destruct (rp_tail _ _ _ _ _ H) as [t Et]. rewrite Et, Nat2Z.id, rdp_spec. cbn [bind].
  destruct (pqsort_spec m raw I) as [r [R1 [R2 R3]]]. rewrite R1. cbn [bind]. pose proof (Permutation_length R2) as PL.
  eexists. exists r. split; [reflexivity|].
  assert (VR : valid r = r).
  { apply nz_valid. intros x Hx. apply (Permutation_in _ R2) in Hx. rewrite <- V in Hx. apply valid_In in Hx. tauto. }
  split; [|auto]. exists p, r1.
  assert (Lr : length (valid r) = length (valid raw)) by (rewrite VR, V; auto).
  assert (Gr : gaps r = 0) by (unfold gaps; rewrite VR; lia).
  destruct H. rewrite G in *. cbn [Z.eqb] in *. constructor; try assumption; try lia; unfold set_entry; cbn [nentdat remdat entry]; rewrite ?Lr, ?Gr; auto.
  - exists (skipn (length r) (map Some raw ++ t)). auto.
  - rewrite Et in rp_alloc. rewrite !app_length, !map_length, skipn_length, app_length, map_length in *. lia.
Qed.

Lemma ki_idok : forall N B m k L K S0 raw o g, kinvB N B m k L K S0 raw o g -> N < 2 ^ 27 -> idok m (valid raw).
Proof.
  intros N B m k L K S0 raw o g I HN p Hp. pose proof (ki_B _ _ _ _ _ _ _ _ _ _ I).
  destruct (ki_live _ _ _ _ _ _ _ _ _ _ I p) as [_ [e [A [_ C]]]]; [eapply Permutation_in; [apply (ki_perm _ _ _ _ _ _ _ _ _ _ I)|auto]|].
  exists e. split; auto. lia.
Qed.

Lemma ki_idnd : forall N B m k L K S0 raw o g, kinvB N B m k L K S0 raw o g -> NoDup (map (idof m) (valid raw)).
Proof.
  intros. eapply Permutation_NoDup; [apply Permutation_map; symmetry; apply (ki_perm _ _ _ _ _ _ _ _ _ _ H)|].
  pose proof (ki_ids _ _ _ _ _ _ _ _ _ _ H) as X. rewrite map_app in X. apply NoDup_app_inv in X. tauto.
Qed.

(** ** MESH_Enable_LocalIDSearch *)
Lemma enable1_spec : forall N m k L K S0 raw o g, kinv N m k L K S0 raw o g -> N < 2 ^ 27 ->
  exists m' raw', enable1 m k = Ok m' /\ kinv N m' k L K S0 raw' true (Nat.eqb (length L) 0 && g) /\
    (forall j, j <> k -> mlist m' j = mlist m j) /\ mcnt m' = mcnt m /\ mmax m' = mmax m /\ msorted m' = msorted m /\ heap m' = heap m.
Proof.
  intros N m k L K S0 raw o g [M0 I] HN. unfold enable1. rewrite (ki_cnt _ _ _ _ _ _ _ _ _ _ I).
  pose proof (ki_perm _ _ _ _ _ _ _ _ _ _ I) as P.
  destruct (Z.of_nat (length L) =? 0) eqn:E0.
  - replace (Nat.eqb (length L) 0) with true by lia. cbn [andb].
    destruct L as [|x L]; [|cbn [length] in E0; lia]. apply Permutation_sym, Permutation_nil in P.
    exists m, raw. split; [reflexivity|]. split; [|repeat split; auto]. split; auto. destruct I. constructor; auto. intros _. rewrite P. constructor.
  - replace (Nat.eqb (length L) 0) with false by lia. cbn [andb].
    destruct (ki_list _ _ _ _ _ _ _ _ _ _ I) as [[A B]|[l [A R]]].
    { subst raw. apply Permutation_nil in P. subst. cbn [length] in E0. lia. }
    rewrite A. destruct (Compress_rep l raw R) as [l1 [C1 R1]]. rewrite C1. cbn [bind].
    rewrite <- (Permutation_length P).
    destruct (Sort_rep m l1 (valid raw) R1 (valid_idem raw)) as [l2 [raw2 [S1 [S2 [S3 [S4 S5]]]]]].
    { eapply ki_idok; eauto. }
    rewrite S1. cbn [bind]. eexists. exists raw2. split; [reflexivity|]. split; [|repeat split; auto].
    + split; auto. cbn [set_list mmax]. pose proof (valid_len raw) as VL. pose proof (Permutation_length S3) as PL. pose proof I as I'. destruct I. constructor; auto.
      * right. exists l2. split; auto. cbn [set_list mlist]. apply zupd_same.
      * rewrite S4, S3. auto.
      * lia.
      * intros _. rewrite S4. apply strict_sorted; auto. change (idof (set_list m k l2)) with (idof m).
        eapply Permutation_NoDup; [apply Permutation_map; symmetry; exact S3|]. eapply ki_idnd; eauto.
    + intros j Hj. cbn [set_list mlist]. rewrite zupd_eq. replace (j =? k) with false by lia. auto.
Qed.

Lemma goL_Ok : forall A (x : result A), (m <- x ;; Ok m) = x.
Proof. destruct x; auto. Qed.

(** The four loops over the kinds. *)
Definition ks4 : list Z := [0; 1; 2; 3].

Lemma ks4_in : forall k, In k ks4 <-> 0 <= k <= 3.
Proof. intros. unfold ks4. cbn [In]. lia. Qed.
Lemma ks4_nd : NoDup ks4.
Proof. unfold ks4. repeat constructor; cbn [In]; lia. Qed.

Lemma enable_loop : forall N (LL KK SS : Z -> list Z) ks, NoDup ks -> (forall k, In k ks -> 0 <= k <= 3) -> N < 2 ^ 27 -> forall m raws (oo gg : Z -> bool),
  (forall k, 0 <= k <= 3 -> kinv N m k (LL k) (KK k) (SS k) (raws k) (oo k) (gg k)) ->
  exists m' raws', goL enable1 m ks = Ok m' /\
    (forall k, 0 <= k <= 3 -> kinv N m' k (LL k) (KK k) (SS k) (raws' k) (existsb (Z.eqb k) ks || oo k)
       (if existsb (Z.eqb k) ks then Nat.eqb (length (LL k)) 0 && gg k else gg k)) /\
    mcnt m' = mcnt m /\ mmax m' = mmax m /\ msorted m' = msorted m /\ heap m' = heap m.
Proof.
  intros N LL KK SS ks. induction ks as [|k ks IH]; intros ND Hks HN m raws oo gg I; cbn [goL].
  - exists m, raws. split; [reflexivity|]. split; [exact I|]. auto.
  - inversion ND. subst. assert (Hk : 0 <= k <= 3) by (apply Hks; left; auto).
    destruct (enable1_spec N m k _ _ _ _ _ _ (I k Hk) HN) as [m1 [raw1 [A1 [A2 [A3 [A4 [A5 [A6 A7]]]]]]]]. rewrite A1. cbn [bind].
    destruct (IH H2 ltac:(intros; apply Hks; right; auto) HN m1 (zupd raws k raw1) (zupd oo k true) (zupd gg k (Nat.eqb (length (LL k)) 0 && gg k)))
      as [m2 [raws2 [B1 [B2 [B3 [B4 [B5 B6]]]]]]].
    { intros j Hj. rewrite !zupd_eq. destruct (j =? k) eqn:E.
      - replace j with k by lia. auto.
      - apply kinv_frame with (N := N) (m := m); auto; try lia; try congruence. apply A3. lia. }
    exists m2, raws2. split; auto. split; [|repeat split; congruence].
    intros j Hj. specialize (B2 j Hj). rewrite !zupd_eq in B2. cbn [existsb].
    destruct (j =? k) eqn:E; cbn [orb]; [|exact B2].
    replace j with k in * by lia.
    assert (X : existsb (Z.eqb k) ks = false).
    { destruct (existsb (Z.eqb k) ks) eqn:EX; auto. apply existsb_in in EX. tauto. }
    rewrite X in B2. cbn [orb] in B2. exact B2.
Qed.

Lemma Enable_spec : forall N m h raws, minv N m h raws -> N < 2 ^ 27 ->
  exists m' raws', MESH_Enable_LocalIDSearch m = Ok m' /\ minv N m' (hstep h MEnable) raws' /\ heap m' = heap m.
Proof.
  intros N m h raws [I HS] HN. unfold MESH_Enable_LocalIDSearch. rewrite HS. cbn [hstep]. destruct (hfl h) eqn:EF; cbn [Z.b2z].
  - change (negb (1 =? 0)) with true. cbv iota. exists m, raws. split; [reflexivity|]. split; [|reflexivity]. split; [exact I|rewrite EF; exact HS].
  - change (negb (0 =? 0)) with false. cbv iota.
    destruct (enable_loop N (hl h) (hk h) (hs h) ks4 ks4_nd ltac:(apply ks4_in) HN m raws (hord h) (hgap h) I) as [m' [raws' [A1 [A2 [A3 [A4 [A5 A6]]]]]]].
    unfold ks4 in A1. cbn [goL] in A1.
    exists (set_srt m' 1), raws'.
    assert (E : (m <- enable1 m 0 ;; m <- enable1 m 1 ;; m <- enable1 m 2 ;; m <- enable1 m 3 ;; Ok (set_srt m 1)) = Ok (set_srt m' 1)).
    { destruct (enable1 m 0) as [m0| | |]; cbn [bind] in *; try discriminate. destruct (enable1 m0 1) as [m1| | |]; cbn [bind] in *; try discriminate.
      destruct (enable1 m1 2) as [m2| | |]; cbn [bind] in *; try discriminate. destruct (enable1 m2 3) as [m3| | |]; cbn [bind] in *; try discriminate.
      inversion A1. auto. }
    rewrite E. split; [reflexivity|]. split; [|auto]. split; [|reflexivity].
    intros k Hk. cbn [hl hk hs hord hgap]. specialize (A2 k Hk).
    assert (X : existsb (Z.eqb k) ks4 = true) by (apply existsb_in; apply ks4_in; auto). rewrite X in A2. cbn [orb] in A2.
    apply kinv_frame with (N := N) (m := m'); auto. lia.
Qed.

(** ** Renumbering *)
Definition renum_body (s : mesh * Z) (p : ptr) : result (mesh * Z) :=
  let '(m, n) := s in n <- ck32 (n + 1) ;; m <- MEnt_Set_ID_in m p n ;; Ok (m, n).

Lemma renum_go : forall s m n, NoDup s -> idok m s -> 0 <= n -> n + Z.of_nat (length s) < 2 ^ 27 ->
  exists m', goL renum_body (m, n) s = Ok (m', n + Z.of_nat (length s)) /\ mlist m' = mlist m /\ mcnt m' = mcnt m /\ mmax m' = mmax m /\
    msorted m' = (if Nat.eqb (length s) 0 then msorted m else 0) /\ (forall q, ~ In q s -> heap m' q = heap m q) /\
    (forall i, (i < length s)%nat -> exists e, heap m (nth i s 0) = Some e /\ heap m' (nth i s 0) = Some (MEnt_Set_ID e (n + 1 + Z.of_nat i))).
Proof.
  induction s as [|p s IH]; intros m n ND OK Hn HN; cbn [goL length] in *.
  - exists m. repeat split; auto; [f_equal; f_equal; lia|intros i Hi; lia].
  - inversion ND. subst. destruct (OK p (or_introl eq_refl)) as [e [E1 E2]].
    unfold renum_body at 1. rewrite ck_ok by lia. cbn [bind]. unfold MEnt_Set_ID_in, deref. rewrite E1. cbn [bind].
    replace (MEnt_ID e =? 0) with false by lia. unfold MESH_Flag_EntLists_As_Unsorted.
    set (m1 := set_srt (set_ent m p (Some (MEnt_Set_ID e (n + 1)))) 0).
    assert (HQ : forall q, q <> p -> heap m1 q = heap m q).
    { intros q Hq. unfold m1. cbn [set_srt set_ent heap]. rewrite zupd_eq. replace (q =? p) with false by lia. auto. }
    assert (HP : heap m1 p = Some (MEnt_Set_ID e (n + 1))) by (unfold m1; cbn [set_srt set_ent heap]; apply zupd_same).
    destruct (IH m1 (n + 1)) as [m' [A1 [A2 [A3 [A4 [A5 [A6 A7]]]]]]]; auto; try lia.
    { intros q Hq. rewrite HQ by congruence. apply OK. right. auto. }
    exists m'. rewrite A1. split; [f_equal; f_equal; lia|]. split; [rewrite A2; reflexivity|]. split; [rewrite A3; reflexivity|]. split; [rewrite A4; reflexivity|].
    split; [rewrite A5; cbn [Nat.eqb]; destruct (Nat.eqb (length s) 0); reflexivity|]. split.
    + intros q Hq. rewrite A6 by (intro; apply Hq; right; auto). apply HQ. intros ->. apply Hq. left. auto.
    + intros i Hi. destruct i as [|i]; cbn [nth].
      * exists e. split; auto. rewrite A6 by auto. rewrite HP. do 2 f_equal. lia.
      * destruct (A7 i) as [e' [B1 B2]]; [lia|]. exists e'. split; [rewrite <- HQ; auto; intro X; apply H1; rewrite <- X; apply nth_In; lia|].
        rewrite B2. do 2 f_equal. lia.
Qed.

(** After numbering, the k-th entry has ID k. *)
Definition numbered (m : mesh) (s : list Z) : Prop := forall i, (i < length s)%nat -> idof m (nth i s 0) = Z.of_nat i + 1.

Lemma numbered_sorted : forall m s, numbered m s -> StronglySorted (fun a b => idof m a < idof m b) s.
Proof.
  intros m s H. assert (G : forall s c, (forall i, (i < length s)%nat -> idof m (nth i s 0) = c + Z.of_nat i) -> StronglySorted (fun a b => idof m a < idof m b) s).
  { clear. induction s as [|x s IH]; intros c H; constructor.
    - apply (IH (c + 1)). intros i Hi. pose proof (H (Datatypes.S i) ltac:(cbn [length]; lia)) as X. cbn [nth] in X. lia.
    - rewrite Forall_forall. intros y Hy. destruct (In_nth s y 0 Hy) as [i [Hi <-]].
      pose proof (H (Datatypes.S i) ltac:(cbn [length]; lia)) as X. pose proof (H O ltac:(cbn [length]; lia)) as Y. cbn [nth] in X, Y. lia. }
  apply (G s 1). intros i Hi. rewrite H by auto. lia.
Qed.

Lemma ssorted_nodup : forall (f : Z -> Z) s, StronglySorted (fun a b => f a < f b) s -> NoDup (map f s).
Proof.
  intros f s SS. induction SS; constructor; auto. rewrite Forall_forall in H. intro X. apply in_map_iff in X. destruct X as [y [Y1 Y2]].
  specialize (H y Y2). lia.
Qed.

Lemma renum1_spec : forall N m k L S0 raw o g, 0 <= k -> kinvB N N m k L [] S0 raw o g -> N < 2 ^ 27 ->
  exists m', renum1 m k = Ok m' /\ kinvB N N m' k L [] S0 raw true g /\ mlist m' = mlist m /\ mcnt m' = mcnt m /\ mmax m' = mmax m /\
    msorted m' = (if Nat.eqb (length L) 0 then msorted m else 0) /\ (forall q, ~ In q L -> heap m' q = heap m q) /\ numbered m' (valid raw) /\
    (forall q e, heap m q = Some e -> exists id, heap m' q = Some (MEnt_Set_ID e id) \/ heap m' q = Some e).
Proof.
  intros N m k L S0 raw o g Hk I HN. unfold renum1. pose proof (ki_perm _ _ _ _ _ _ _ _ _ _ I) as P.
  pose proof (Permutation_length P) as PL. pose proof (ki_len _ _ _ _ _ _ _ _ _ _ I) as HLn. pose proof (valid_len raw) as VL.
  assert (OK : idok m (valid raw)) by (eapply ki_idok; eauto).
  assert (ND : NoDup (valid raw)) by (eapply NoDup_map_inv; eapply ki_idnd; eauto).
  assert (IN : forall q, In q (valid raw) <-> In q L) by (intros; split; apply Permutation_in; auto; symmetry; auto).
  destruct (renum_go (valid raw) m 0 ND OK ltac:(lia) ltac:(lia)) as [m' [A1 [A2 [A3 [A4 [A5 [A6 A7]]]]]]].
  assert (E : (match mlist m k with None => Ok m | Some l => '(m, n) <- lloop renum_body l (m, 0) ;; Ok m end) = Ok m').
  { destruct (ki_list _ _ _ _ _ _ _ _ _ _ I) as [[A B]|[l [A R]]]; rewrite A.
    - subst raw. cbn [valid filter goL length] in A1. inversion A1. auto.
    - rewrite (lloop_go _ _ _ raw) by auto. rewrite A1. auto. }
  exists m'. split; [exact E|].
  assert (NU : numbered m' (valid raw)).
  { intros i Hi. destruct (A7 i Hi) as [e [B1 B2]]. unfold idof. rewrite B2. rewrite id_set by lia. lia. }
  split; [|repeat split; auto].
  - constructor.
    + rewrite A2. apply (ki_list _ _ _ _ _ _ _ _ _ _ I).
    + auto.
    + auto.
    + rewrite A3. apply (ki_cnt _ _ _ _ _ _ _ _ _ _ I).
    + lia.
    + intros q Hq. destruct (ki_live _ _ _ _ _ _ _ _ _ _ I q Hq) as [Q0 [e [Q1 [Q2 Q3]]]]. split; auto.
      apply IN in Hq. destruct (In_nth _ _ 0 Hq) as [i [Hi Ei]]. destruct (A7 i Hi) as [e' [B1 B2]]. rewrite Ei in *. rewrite Q1 in B1. inversion B1. subst e'.
      rewrite B2. eexists. split; [reflexivity|]. rewrite dim_set_id, id_set by lia. split; auto. lia.
    + intros q [].
    + intros q Hq. rewrite A6. apply (ki_stale _ _ _ _ _ _ _ _ _ _ I); auto. rewrite IN. intro X. apply (proj1 (ki_disj _ _ _ _ _ _ _ _ _ _ q I) X); auto.
    + rewrite app_nil_r. eapply Permutation_NoDup; [apply Permutation_map; exact P|]. apply ssorted_nodup. apply numbered_sorted; auto.
    + apply (ki_nd _ _ _ _ _ _ _ _ _ _ I).
    + intros _. apply numbered_sorted; auto.
    + apply (ki_gap _ _ _ _ _ _ _ _ _ _ I).
  - rewrite A5, PL. auto.
  - intros q Hq. apply A6. rewrite IN. auto.
  - intros q e Hq. destruct (in_dec Z.eq_dec q (valid raw)) as [X|X].
    + destruct (In_nth _ _ 0 X) as [i [Hi Ei]]. destruct (A7 i Hi) as [e' [B1 B2]]. rewrite Ei in *. rewrite Hq in B1. inversion B1. subst. eauto.
    + exists 0. right. rewrite A6; auto.
Qed.
