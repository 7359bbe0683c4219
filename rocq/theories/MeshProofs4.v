(** Proofs about MeshModel.v, part 4: MESH_Renumber (sequential), the search by
    ID, and histories. *)
From Coq Require Import ZArith List Lia Bool Arith ZifyBool ZifyNat Permutation Sorting.Sorted.
From Verif Require Import Base BaseProofs ListModel ListSpec ListProofs ListProofs2 ListProofs3 ListProofs4 SortModel SortProofs CompareModel EntModel EntProps AttModel AttProps HashProofs HashProofs2 MSetModel MSetProps MeshModel MeshSpec MeshProofs MeshProofs2 MeshProofs3.
Import ListNotations.
Open Scope Z_scope.

(** ** Renumbering: the loop over the kinds *)
Lemma renum_loop : forall N t (LL SS raws : Z -> list Z) (gg : Z -> bool) ks, NoDup ks -> (forall k, In k ks -> 0 <= k <= 3) -> N < 2 ^ 27 -> forall m (oo : Z -> bool),
  (forall k, 0 <= k <= 3 -> kinvB N N m k (LL k) [] (SS k) (raws k) (oo k) (gg k)) ->
  exists m', goL (fun m k => renum_if t k m) m ks = Ok m' /\
    (forall k, 0 <= k <= 3 -> kinvB N N m' k (LL k) [] (SS k) (raws k) (existsb (Z.eqb k) ks && requested t k || oo k) (gg k)) /\
    mlist m' = mlist m /\ mcnt m' = mcnt m /\ mmax m' = mmax m /\
    msorted m' = (if existsb (fun k => requested t k && negb (Nat.eqb (length (LL k)) 0)) ks then 0 else msorted m) /\
    (forall q, (forall k, In k ks -> requested t k = true -> ~ In q (LL k)) -> heap m' q = heap m q) /\
    (forall k, In k ks -> requested t k = true -> numbered m' (valid (raws k))).
Proof.
  intros N t LL SS raws gg ks. induction ks as [|k ks IH]; intros ND Hks HN m oo I; cbn [goL].
  - exists m. split; [reflexivity|]. split; [exact I|]. repeat split; auto. intros k [].
  - inversion ND. subst. assert (Hk : 0 <= k <= 3) by (apply Hks; left; auto).
    assert (X : existsb (Z.eqb k) ks = false).
    { destruct (existsb (Z.eqb k) ks) eqn:EX; auto. apply existsb_in in EX. tauto. }
    assert (FR : forall m1 j, 0 <= j <= 3 -> j <> k -> mlist m1 = mlist m -> mcnt m1 = mcnt m -> (forall q, ~ In q (LL k) -> heap m1 q = heap m q) ->
        kinvB N N m1 j (LL j) [] (SS j) (raws j) (oo j) (gg j)).
    { intros m1 j Hj D E1 E2 E3. apply kinvB_frame with (N := N) (m := m); auto; try congruence; try lia.
      intros q Hq. apply E3. intro Q.
      destruct (kinvB_dim _ _ _ _ _ _ _ _ _ _ q (proj1 Hj) (I j Hj) Hq) as [e [A B]].
      destruct (kinvB_dim _ _ _ _ _ _ _ _ _ _ q (proj1 Hk) (I k Hk) ltac:(apply in_or_app; auto)) as [e' [A' B']]. rewrite A in A'. inversion A'. subst. lia. }
    unfold renum_if at 1. change ((t =? k) || (t =? MALLTYPE)) with (requested t k). destruct (requested t k) eqn:ER.
    + destruct (renum1_spec N m k _ _ _ _ _ (proj1 Hk) (I k Hk) HN) as [m1 [A1 [A2 [A3 [A4 [A5 [A6 [A7 [A8 A9]]]]]]]]]. rewrite A1. cbn [bind].
      destruct (IH H2 ltac:(intros; apply Hks; right; auto) HN m1 (zupd oo k true)) as [m2 [B1 [B2 [B3 [B4 [B5 [B6 [B7 B8]]]]]]]].
      { intros j Hj. rewrite !zupd_eq. destruct (j =? k) eqn:E.
        - replace j with k by lia. auto.
        - apply FR; auto. lia. }
      exists m2. split; auto. split; [|split; [congruence|split; [congruence|split; [congruence|split; [|split]]]]].
      * intros j Hj. specialize (B2 j Hj). rewrite !zupd_eq in B2. cbn [existsb].
        destruct (j =? k) eqn:E; cbn [orb]; [|exact B2]. replace j with k in * by lia. rewrite X in B2. rewrite ER. exact B2.
      * rewrite B6, A6. cbn [existsb]. rewrite ER. cbn [andb]. destruct (Nat.eqb (length (LL k)) 0); cbn [negb orb]; auto.
        destruct (existsb _ ks); auto.
      * intros q Hq. rewrite B7. apply A7. apply (Hq k); auto. left. auto. intros j Hj. apply Hq. right. auto.
      * intros j [<-|Hj] Rj; [|apply B8; auto].
        assert (KV : forall q, In q (valid (raws k)) -> idof m2 q = idof m1 q).
        { intros q Hq. apply idof_heap. apply B7. intros j Hj Rj' Q. assert (Hj3 : 0 <= j <= 3) by (apply Hks; right; auto).
          destruct (kinvB_dim _ _ _ _ _ _ _ _ _ _ q (proj1 Hj3) (I j Hj3) ltac:(apply in_or_app; auto)) as [e [A B]].
          assert (Q2 : In q (LL k)) by (eapply Permutation_in; [apply (ki_perm _ _ _ _ _ _ _ _ _ _ (I k Hk))|auto]).
          destruct (kinvB_dim _ _ _ _ _ _ _ _ _ _ q (proj1 Hk) (I k Hk) ltac:(apply in_or_app; auto)) as [e' [A' B']]. rewrite A in A'. inversion A'. subst e'.
          assert (X2 : j = k) by congruence. rewrite X2 in Hj. tauto. }
        intros i Hi. rewrite KV by (apply nth_In; auto). apply A8. auto.
    + cbn [bind]. destruct (IH H2 ltac:(intros; apply Hks; right; auto) HN m oo I) as [m2 [B1 [B2 [B3 [B4 [B5 [B6 [B7 B8]]]]]]]].
      exists m2. split; auto. split; [|split; [congruence|split; [congruence|split; [congruence|split; [|split]]]]].
      * intros j Hj. specialize (B2 j Hj). cbn [existsb]. destruct (j =? k) eqn:E; cbn [orb]; [|exact B2].
        replace j with k in * by lia. rewrite X in B2. rewrite ER. exact B2.
      * rewrite B6. cbn [existsb]. rewrite ER. auto.
      * intros q Hq. apply B7. intros j Hj. apply Hq. right. auto.
      * intros j [<-|Hj] Rj; [congruence|apply B8; auto].
Qed.

(** ** MESH_Reset_Cached_MaxIDs *)
Lemma max_go : forall m s n, idok m s -> 0 <= n ->
  exists n', goL (fun n p => e <- deref m p ;; Ok (if n <? MEnt_ID e then MEnt_ID e else n)) n s = Ok n' /\ n <= n' /\
    (forall p, In p s -> idof m p <= n') /\ (n' = n \/ exists p, In p s /\ idof m p = n').
Proof.
  intros m s. induction s as [|x s IH]; intros n OK Hn; cbn [goL].
  - exists n. repeat split; auto; try lia. intros p [].
  - destruct (OK x (or_introl eq_refl)) as [e [E1 E2]]. unfold deref at 1. rewrite E1. cbn [bind].
    assert (IX : idof m x = MEnt_ID e) by (unfold idof; rewrite E1; auto).
    destruct (IH (if n <? MEnt_ID e then MEnt_ID e else n)) as [n' [A1 [A2 [A3 A4]]]].
    { intros p Hp. apply OK. right. auto. } { destruct (n <? MEnt_ID e); lia. }
    exists n'. split; auto. destruct (n <? MEnt_ID e) eqn:E; (split; [lia|]; split;
      [intros p [<-|Hp]; [lia|auto]|destruct A4 as [A4|[p [P1 P2]]]; [|right; exists p; split; [right|]; auto]]).
    + right. exists x. split; [left|]; auto. congruence.
    + left. auto.
Qed.

Lemma reset1_spec : forall N m k L K S0 raw o g, kinvB N N m k L K S0 raw o g -> K = [] -> N < 2 ^ 27 ->
  exists n, reset1 m k = Ok (set_max m k n) /\ kinv N (set_max m k n) k L K S0 raw o g /\
    (forall p, In p L -> idof m p <= n) /\ (n = 0 \/ exists p, In p L /\ idof m p = n).
Proof.
  intros N m k L K S0 raw o g I EK HN. unfold reset1.
  assert (OK : idok m (valid raw)) by (eapply ki_idok; eauto).
  pose proof (ki_perm _ _ _ _ _ _ _ _ _ _ I) as P.
  assert (IN : forall q, In q (valid raw) <-> In q L) by (intros; split; apply Permutation_in; auto; symmetry; auto).
  destruct (max_go m (valid raw) 0 OK ltac:(lia)) as [n [A1 [A2 [A3 A4]]]].
  assert (E : match mlist m k with None => Ok 0 | Some l => lloop (fun n p => e <- deref m p ;; Ok (if n <? MEnt_ID e then MEnt_ID e else n)) l 0 end = Ok n).
  { destruct (ki_list _ _ _ _ _ _ _ _ _ _ I) as [[A B]|[l [A R]]]; rewrite A.
    - subst raw. cbn [valid filter goL] in A1. auto.
    - rewrite (lloop_go _ _ _ raw) by auto. auto. }
  rewrite E. cbn [bind]. exists n. split; [reflexivity|].
  assert (B : n <= N).
  { pose proof (ki_len _ _ _ _ _ _ _ _ _ _ I). destruct A4 as [A4|[p [P1 P2]]]; [lia|]. apply IN in P1.
    destruct (ki_live _ _ _ _ _ _ _ _ _ _ I p P1) as [_ [e [Q1 [Q2 Q3]]]]. unfold idof in P2. rewrite Q1 in P2. lia. }
  split; [|split].
  - split. cbn [set_max mmax]. rewrite zupd_same. lia. cbn [set_max mmax]. rewrite zupd_same.
    destruct I as [I1 I2 I3 I4 I5 I6 I7 I8 I9 I10 I11 I12]. constructor; auto.
    + intros p Hp. destruct (I6 p Hp) as [Q0 [e [Q1 [Q2 Q3]]]]. split; auto. exists e. repeat split; auto; try lia.
      apply IN in Hp. specialize (A3 p Hp). unfold idof in A3. rewrite Q1 in A3. lia.
    + subst K. intros p [].
  - intros p Hp. apply A3. apply IN. auto.
  - destruct A4 as [A4|[p [P1 P2]]]; auto. right. exists p. split; auto. apply IN. auto.
Qed.

Lemma reset_loop : forall N (LL SS raws : Z -> list Z) (oo gg : Z -> bool) ks, NoDup ks -> (forall k, In k ks -> 0 <= k <= 3) -> N < 2 ^ 27 -> forall m,
  (forall k, 0 <= k <= 3 -> kinvB N N m k (LL k) [] (SS k) (raws k) (oo k) (gg k)) ->
  exists m', goL reset1 m ks = Ok m' /\
    (forall k, In k ks -> kinv N m' k (LL k) [] (SS k) (raws k) (oo k) (gg k)) /\
    mlist m' = mlist m /\ mcnt m' = mcnt m /\ msorted m' = msorted m /\ heap m' = heap m /\ (forall k, ~ In k ks -> mmax m' k = mmax m k) /\
    (forall k, In k ks -> (forall p, In p (LL k) -> idof m p <= mmax m' k) /\ (mmax m' k = 0 \/ exists p, In p (LL k) /\ idof m p = mmax m' k)).
Proof.
  intros N LL SS raws oo gg ks. induction ks as [|k ks IH]; intros ND Hks HN m I; cbn [goL].
  - exists m. split; [reflexivity|]. split; [intros k []|]. repeat split; auto; destruct H.
  - inversion ND. subst. assert (Hk : 0 <= k <= 3) by (apply Hks; left; auto).
    destruct (reset1_spec N m k _ _ _ _ _ _ (I k Hk) eq_refl HN) as [n [A1 [A2 [A3 A4]]]]. rewrite A1. cbn [bind].
    destruct (IH H2 ltac:(intros; apply Hks; right; auto) HN (set_max m k n)) as [m2 [B1 [B2 [B3 [B4 [B5 [B6 [B7 B8]]]]]]]].
    { intros j Hj. apply kinvB_frame with (N := N) (m := m); auto; lia. }
    assert (MX : mmax m2 k = n) by (rewrite B7 by auto; cbn [set_max mmax]; apply zupd_same).
    exists m2. split; auto. split; [|split; [exact B3|split; [exact B4|split; [exact B5|split; [exact B6|split]]]]].
    + intros j [<-|Hj]; auto. apply kinv_frame with (N := N) (m := set_max m k n); auto; try lia; try congruence.
    + intros j Hj. rewrite B7 by (intro; apply Hj; right; auto). cbn [set_max mmax]. rewrite zupd_eq. replace (j =? k) with false; auto.
      assert (j <> k); [intros ->; apply Hj; left; auto|lia].
    + intros j [<-|Hj]; [rewrite MX; auto|apply B8; auto].
Qed.

(** Every kind loses its restorable entities to the stale ones. *)
Lemma kinv_stale : forall N m k L K S0 raw o g, 0 <= k -> kinv N m k L K S0 raw o g -> kinvB N N m k L [] (K ++ S0) raw o g.
Proof.
  intros N m k L K S0 raw o g Hk [M0 [I1 I2 I3 I4 I5 I6 I7 I8 I9 I10 I11 I12]]. constructor; auto; try lia.
  - intros p Hp. destruct (I6 p Hp) as [Q0 [e [Q1 [Q2 Q3]]]]. split; auto. exists e. repeat split; auto; lia.
  - intros p [].
  - intros p Hp. apply in_app_or in Hp. destruct Hp as [Hp|Hp]; auto. destruct (I7 p Hp) as [Q0 [e [Q1 [Q2 [Q3 Q4]]]]]. eauto.
  - rewrite app_nil_r. rewrite map_app in I9. apply NoDup_app_inv in I9. tauto.
Qed.

Lemma Renum_spec : forall N m h raws t, minv N m h raws -> N < 2 ^ 27 ->
  exists m', MESH_Renumber0 m t = Ok m' /\ minv N m' (hstep h (MRenum t)) raws /\
    mlist m' = mlist m /\ mcnt m' = mcnt m /\
    (forall q, (forall k, 0 <= k <= 3 -> requested t k = true -> ~ In q (hl h k)) -> heap m' q = heap m q) /\
    (forall k, 0 <= k <= 3 -> requested t k = true -> numbered m' (valid (raws k)) /\ mmax m' k = Z.of_nat (length (hl h k))).
Proof.
  intros N m h raws t [I HS] HN.
  destruct (renum_loop N t (hl h) (fun k => hk h k ++ hs h k) raws (hgap h) ks4 ks4_nd ltac:(apply ks4_in) HN m (hord h)) as [m1 [A1 [A2 [A3 [A4 [A5 [A6 [A7 A8]]]]]]]].
  { intros k Hk. apply kinv_stale; auto; lia. }
  destruct (reset_loop N (hl h) (fun k => hk h k ++ hs h k) raws (fun k => existsb (Z.eqb k) ks4 && requested t k || hord h k) (hgap h) ks4 ks4_nd ltac:(apply ks4_in) HN m1 A2)
    as [m2 [B1 [B2 [B3 [B4 [B5 [B6 [B7 B8]]]]]]]].
  exists m2. split.
  { unfold ks4 in A1, B1. cbn [goL] in A1, B1. unfold MESH_Renumber0, MESH_Reset_Cached_MaxIDs.
    destruct (renum_if t 0 m) as [n0| | |]; cbn [bind] in *; try discriminate. destruct (renum_if t 1 n0) as [n1| | |]; cbn [bind] in *; try discriminate.
    destruct (renum_if t 2 n1) as [n2| | |]; cbn [bind] in *; try discriminate. destruct (renum_if t 3 n2) as [n3| | |]; cbn [bind] in *; try discriminate.
    inversion A1. subst n3.
    destruct (reset1 m1 0) as [p0| | |]; cbn [bind] in *; try discriminate. destruct (reset1 p0 1) as [p1| | |]; cbn [bind] in *; try discriminate.
    destruct (reset1 p1 2) as [p2| | |]; cbn [bind] in *; try discriminate. rewrite goL_Ok in B1. auto. }
  split.
  { split; cbn [hstep hl hk hs hord hgap hfl].
    - intros k Hk. specialize (B2 k ltac:(apply ks4_in; auto)). cbv beta in B2.
      replace (existsb (Z.eqb k) ks4) with true in B2 by (symmetry; apply existsb_in; apply ks4_in; auto). exact B2.
    - rewrite B5, A6, HS. fold ks4. destruct (existsb _ ks4); cbn [negb]; [rewrite andb_false_r|rewrite andb_true_r]; auto. }
  split; [congruence|]. split; [congruence|]. split.
  { intros q Hq. rewrite B6. apply A7. intros k Hk. apply Hq. apply ks4_in. auto. }
  intros k Hk HR. assert (K4 : In k ks4) by (apply ks4_in; auto).
  pose proof (A8 k K4 HR) as NU. pose proof (ki_perm _ _ _ _ _ _ _ _ _ _ (A2 k Hk)) as P. pose proof (Permutation_length P) as PL.
  split.
  - intros i Hi. rewrite (idof_heap m1 m2) by (rewrite B6; auto). apply NU. auto.
  - destruct (B8 k K4) as [C1 C2].
    assert (IN : forall q, In q (valid (raws k)) <-> In q (hl h k)) by (intros; split; apply Permutation_in; auto; symmetry; auto).
    assert (UP : mmax m2 k <= Z.of_nat (length (hl h k))).
    { destruct C2 as [C2|[p [P1 P2]]]; [lia|]. apply IN in P1. destruct (In_nth _ _ 0 P1) as [i [Hi Ei]]. specialize (NU i Hi). rewrite Ei in NU. lia. }
    assert (LO : Z.of_nat (length (hl h k)) <= mmax m2 k).
    { destruct (valid (raws k)) as [|x s] eqn:EV; [destruct C2 as [C2|[p [P1 P2]]]; [rewrite C2; cbn [length] in PL; lia|apply IN in P1; destruct P1]|].
      rewrite <- EV in *. assert (Hlen : (0 < length (valid (raws k)))%nat) by (rewrite EV; cbn [length]; lia).
      specialize (NU (length (valid (raws k)) - 1)%nat ltac:(lia)).
      specialize (C1 _ (proj1 (IN _) (nth_In (valid (raws k)) 0 ltac:(instantiate (1 := (length (valid (raws k)) - 1)%nat); lia)))). lia. }
    lia.
Qed.

(** ** Search by ID *)
Lemma scan_rep : forall m l raw id, rep l raw -> idok m (valid raw) -> forall n idx, (length raw - idx < n)%nat ->
  scan_id n m l (Z.of_nat idx) id = Ok (match find (fun p => idof m p =? id) (valid (skipn idx raw)) with Some p => p | None => 0 end).
Proof.
  intros m l raw id R OK. induction n; intros idx Hn; [lia|]. cbn [scan_id].
  rewrite (Next_rep l raw) by auto. pose proof (vpos0_valid (skipn idx raw)) as V.
  destruct (vpos (skipn idx raw) 0) eqn:E; cbn [bind]; unfold NULL.
  - destruct V as [V1 [V2 V3]]. rewrite nth_skipn_z in V1, V2. rewrite skipn_length in V3.
    replace (nth (idx + n0) raw 0 =? 0) with false by lia.
    replace (Z.of_nat (idx + n0) + 1) with (Z.of_nat (S (idx + n0))) by lia.
    assert (INV : In (nth (idx + n0) raw 0) (valid raw)) by (apply valid_In; split; auto; apply nth_In; lia).
    destruct (OK _ INV) as [e [E1 E2]]. unfold deref. rewrite E1. cbn [bind]. rewrite V1. cbn [find].
    unfold idof at 1. rewrite E1. destruct (MEnt_ID e =? id); auto. rewrite IHn by lia. rewrite skipn_skipn_z.
    replace (idx + S n0)%nat with (S (idx + n0)) by lia. auto.
  - rewrite V. auto.
Qed.

Lemma ssorted_nth : forall A (R : A -> A -> Prop) d s, StronglySorted R s -> forall i j, (i < j < length s)%nat -> R (nth i s d) (nth j s d).
Proof.
  intros A R d s SS. induction SS; intros i j H1; cbn [length] in H1; [lia|]. destruct j as [|j]; [lia|]. cbn [nth].
  destruct i as [|i]; [rewrite Forall_forall in H; apply H; apply nth_In; lia|apply IHSS; lia].
Qed.

Lemma bsearch_spec : forall m id raw tail, idok m raw -> 1 <= id < 2 ^ 27 -> StronglySorted (fun a b => idof m a < idof m b) raw ->
  forall n lo hi, 0 <= lo <= hi -> hi <= Z.of_nat (length raw) -> hi - lo <= Z.of_nat n ->
  (forall j, 0 <= j < lo -> idof m (nth (Z.to_nat j) raw 0) < id) -> (forall j, hi <= j < Z.of_nat (length raw) -> id < idof m (nth (Z.to_nat j) raw 0)) ->
  exists r, bsearch n (fun q => e <- deref m q ;; ck32 (id - MEnt_ID e)) (map Some raw ++ tail) lo hi = Ok r /\
    match r with Some p => In p raw /\ idof m p = id | None => forall p, In p raw -> idof m p <> id end.
Proof.
  intros m id raw tail OK Hid SS. induction n; intros lo hi Hlh Hh Hn HL HR; cbn [bsearch].
  - replace (lo <? hi) with false by lia. exists None. split; auto. intros p Hp. destruct (In_nth _ _ 0 Hp) as [i [Hi <-]].
    destruct (Z_lt_dec (Z.of_nat i) lo) as [D|D].
    + specialize (HL (Z.of_nat i) ltac:(lia)). rewrite Nat2Z.id in HL. lia.
    + specialize (HR (Z.of_nat i) ltac:(lia)). rewrite Nat2Z.id in HR. lia.
  - destruct (lo <? hi) eqn:E.
    + assert (M1 : lo <= (lo + hi) / 2 < hi) by (split; [apply Z.div_le_lower_bound; lia|apply Z.div_lt_upper_bound; lia]).
      set (x := (lo + hi) / 2) in *. rewrite (rd_map _ raw tail x 0) by lia. cbn [bind].
      set (q := nth (Z.to_nat x) raw 0). assert (Q : In q raw) by (apply nth_In; lia).
      destruct (OK q Q) as [e [E1 E2]]. unfold deref at 1. rewrite E1. cbn [bind].
      assert (IQ : idof m q = MEnt_ID e) by (unfold idof; rewrite E1; auto).
      rewrite ck_ok by lia. cbn [bind]. destruct (id - MEnt_ID e <? 0) eqn:C1; [|destruct (id - MEnt_ID e >? 0) eqn:C2].
      * apply IHn; auto; try lia. intros j Hj. destruct (Z.eq_dec j x) as [->|D]; [fold q; lia|].
        assert (L : idof m q < idof m (nth (Z.to_nat j) raw 0)) by (apply (ssorted_nth _ (fun a b => idof m a < idof m b) 0 raw SS); lia). lia.
      * apply IHn; auto; try lia. intros j Hj. destruct (Z.eq_dec j x) as [->|D]; [fold q; lia|].
        assert (L : idof m (nth (Z.to_nat j) raw 0) < idof m q) by (apply (ssorted_nth _ (fun a b => idof m a < idof m b) 0 raw SS); lia). lia.
      * exists (Some q). split; auto. split; auto. lia.
    + exists None. split; auto. intros p Hp. destruct (In_nth _ _ 0 Hp) as [i [Hi <-]].
      destruct (Z_lt_dec (Z.of_nat i) lo) as [D|D].
      * specialize (HL (Z.of_nat i) ltac:(lia)). rewrite Nat2Z.id in HL. lia.
      * specialize (HR (Z.of_nat i) ltac:(lia)). rewrite Nat2Z.id in HR. lia.
Qed.

Lemma FromID_spec : forall N m k L K S0 raw o g id, kinv N m k L K S0 raw o g -> N < 2 ^ 27 -> (msorted m = 0 \/ o = true /\ g = false) ->
  exists p, MESH_EntFromID m k id = Ok p /\ (p <> 0 -> In p L /\ idof m p = id) /\ (p = 0 -> forall q, In q L -> idof m q <> id).
Proof.
  intros N m k L K S0 raw o g id [M0 I] HN HF. unfold MESH_EntFromID. rewrite (ki_cnt _ _ _ _ _ _ _ _ _ _ I).
  pose proof (ki_perm _ _ _ _ _ _ _ _ _ _ I) as P. pose proof (Permutation_length P) as PL. pose proof (ki_B _ _ _ _ _ _ _ _ _ _ I) as KB.
  assert (OK : idok m (valid raw)) by (eapply ki_idok; eauto).
  assert (IN : forall q, In q (valid raw) <-> In q L) by (intros; split; apply Permutation_in; auto; symmetry; auto).
  assert (LV : forall q, In q L -> q <> 0 /\ 1 <= idof m q <= mmax m k).
  { intros q Hq. destruct (ki_live _ _ _ _ _ _ _ _ _ _ I q Hq) as [Q0 [e [Q1 [Q2 Q3]]]]. split; auto. unfold idof. rewrite Q1. lia. }
  destruct ((Z.of_nat (length L) =? 0) || (id <? 1) || (id >? mmax m k)) eqn:E.
  { exists 0. split; auto. split; [congruence|]. intros _ q Hq X. destruct (LV q Hq). destruct L; [destruct Hq|cbn [length] in E; lia]. }
  destruct (ki_list _ _ _ _ _ _ _ _ _ _ I) as [[A B]|[l [A R]]]; rewrite A.
  { subst raw. cbn [valid filter length] in PL. lia. }
  unfold List_Entry_Raw. rewrite (size_rep l raw) by auto.
  assert (X : exists p, (if id - 1 >=? Z.of_nat (length raw) then Ok NULL else rd (entry l) (id - 1)) = Ok p /\ (p <> 0 -> In p (valid raw))).
  { destruct (id - 1 >=? Z.of_nat (length raw)) eqn:E2; [exists 0; split; auto; congruence|]. rewrite (rd_rep l raw) by (auto; lia).
    eexists. split; [reflexivity|]. intro. apply valid_In. split; auto. apply nth_In. lia. }
  destruct X as [p [X1 X2]]. rewrite X1. cbn [bind]. unfold NULL.
  assert (exists hit, (if p =? 0 then Ok false else e <- deref m p ;; Ok (MEnt_ID e =? id)) = Ok hit /\ (hit = true -> In p (valid raw) /\ idof m p = id)) as [hit [H1 H2]].
  { destruct (p =? 0) eqn:E2; [exists false; split; auto; congruence|]. specialize (X2 ltac:(lia)). destruct (OK p X2) as [e [E3 E4]].
    unfold deref. rewrite E3. cbn [bind]. eexists. split; [reflexivity|]. intro. split; auto. unfold idof. rewrite E3. lia. }
  rewrite H1. cbn [bind]. destruct hit.
  { destruct (H2 eq_refl) as [H3 H4]. exists p. split; auto. apply IN in H3. split; auto. intros ->. exfalso. apply (proj1 (LV 0 H3)). auto. }
  destruct (msorted m =? 0) eqn:ES; cbn [negb].
  - change 0 with (Z.of_nat 0) at 1. rewrite (scan_rep m l raw id R OK); [|].
    2:{ destruct R as [w [r1 R]]. destruct (rp_tail _ _ _ _ _ R) as [t T]. rewrite T, app_length, map_length. lia. }
    eexists. split; [reflexivity|]. cbn [skipn]. destruct (find (fun p => idof m p =? id) (valid raw)) eqn:EF.
    + apply List.find_some in EF. destruct EF as [F1 F2]. split; [intros _; split; [apply IN; auto|lia]|]. intros ->. apply IN in F1. destruct (LV 0 F1). tauto.
    + split; [congruence|]. intros _ q Hq Y. apply IN in Hq. pose proof (List.find_none _ _ EF q Hq) as Z. cbv beta in Z. lia.
  - destruct HF as [HF|[O1 G1]]; [lia|]. unfold List_Search.
    pose proof (ki_gap _ _ _ _ _ _ _ _ _ _ I G1) as V. pose proof (ki_ord _ _ _ _ _ _ _ _ _ _ I O1) as SS. rewrite V in *.
    pose proof R as R0. destruct R0 as [w [r1 R0]]. destruct (rp_tail _ _ _ _ _ R0) as [t T]. rewrite T.
    destruct (bsearch_spec m id raw t OK ltac:(lia) SS (Z.to_nat (Z.of_nat (length L))) 0 (Z.of_nat (length L))) as [r [B1 B2]]; try lia.
    rewrite B1. cbn [bind]. eexists. split; [reflexivity|]. destruct r as [q|].
    + destruct B2 as [B2 B3]. apply IN in B2. split; auto. intros ->. destruct (LV 0 B2). tauto.
    + split; [intro X; exfalso; apply X; reflexivity|]. intros _ q Hq. apply B2. apply IN. auto.
Qed.

(** ** One call, and histories *)
Lemma minv_mono : forall N N' m h raws, minv N m h raws -> N <= N' -> minv N' m h raws.
Proof. intros N N' m h raws [I HS] L. split; auto. intros k Hk. eapply kinv_frame; eauto. Qed.

Lemma minv0 : minv 0 MESH_New h0 (fun _ => []).
Proof.
  split; [|reflexivity]. intros k Hk. split; [cbn; lia|]. constructor; cbn; auto; try lia; try (intros p []); try constructor.
Qed.

Lemma step_spec : forall N fuel m h raws o, minv N m h raws -> hpre false false h o -> N + 1 < 2 ^ 27 -> N <= Z.of_nat fuel ->
  (exists m' raws', mrun1 fuel m o = Ok m' /\ minv (N + 1) m' (hstep h o) raws') \/
  (exists k p keep, o = MDel k p keep /\ In p (hl h k) /\ hord h k = false /\ forall x, mrun1 fuel m o <> Ok x).
Proof.
  intros N fuel m h raws o I H HN HF. destruct o as [k p g|k p keep|k p| |t]; cbn [mrun1].
  - left. destruct (New_spec N m h raws k p g I HN H) as [m' [r' [A [B _]]]]. eauto.
  - destruct H as [Hk [[H _]|H]].
    + destruct (Del_live_spec N fuel m h raws k p keep I Hk H HF) as [[m' [r' [A [B _]]]]|[A B]]; [left; eauto|right]. exists k, p, keep. auto.
    + left. destruct (Del_dead_spec N fuel m h raws k p keep I Hk H) as [m' [A [B _]]]. eauto.
  - left. assert (H' : hpre false false h (MRestore k p)) by exact H. destruct (Restore_spec N m h raws k p I HN H') as [m' [r' [A [B _]]]]. eauto.
  - left. destruct (Enable_spec N m h raws I ltac:(lia)) as [m' [r' [A [B _]]]]. exists m', r'. split; auto. eapply minv_mono; eauto. lia.
  - left. destruct (Renum_spec N m h raws t I ltac:(lia)) as [m' [A [B _]]]. exists m', raws. split; auto. eapply minv_mono; eauto. lia.
Qed.

Lemma hpre_weak : forall sr sd h o, hpre sr sd h o -> hpre false false h o.
Proof. intros sr sd h o H. destruct o; cbn [hpre] in *; auto; try tauto; intuition congruence. Qed.

Lemma hallowed_weak : forall sr sd ops h, hallowed sr sd h ops -> hallowed false false h ops.
Proof. induction ops; intros h H; cbn [hallowed] in *; auto. destruct H. split; auto. eapply hpre_weak; eauto. Qed.

(** Any history, from a state satisfying the invariant. *)
Lemma history_inv : forall sr sd ops N fuel m h raws, minv N m h raws -> hallowed sr sd h ops -> N + Z.of_nat (length ops) < 2 ^ 27 -> N + Z.of_nat (length ops) <= Z.of_nat fuel ->
  (exists m' raws', mruns fuel m ops = Ok m' /\ minv (N + Z.of_nat (length ops)) m' (hrun h ops) raws') \/
  (sd = false /\ forall x, mruns fuel m ops <> Ok x).
Proof.
  intros sr sd ops. induction ops as [|o ops IH]; intros N fuel m h raws I HA HN HF; cbn [mruns hrun fold_left length hallowed] in *.
  - left. exists m, raws. split; auto. eapply minv_mono; eauto. lia.
  - destruct HA as [H1 H2]. destruct (step_spec N fuel m h raws o I (hpre_weak _ _ _ _ H1) ltac:(lia) ltac:(lia)) as [[m' [r' [A B]]]|[k [p [keep [A [B [C D]]]]]]].
    + rewrite A. cbn [bind]. destruct (IH (N + 1) fuel m' (hstep h o) r' B H2 ltac:(lia) ltac:(lia)) as [[m2 [r2 [A2 B2]]]|A2]; [left|right; auto].
      exists m2, r2. split; auto. replace (N + Z.of_nat (S (length ops))) with (N + 1 + Z.of_nat (length ops)) by lia. auto.
    + right. split.
      * destruct sd; auto. subst o. cbn [hpre] in H1. destruct H1 as [Hk [[_ X]|X]]; [rewrite X in C by auto; discriminate|].
        exfalso. destruct I as [I _]. destruct (I k Hk) as [_ IK]. pose proof (ki_nd _ _ _ _ _ _ _ _ _ _ IK) as ND. apply NoDup_app_inv in ND. apply (proj2 (proj2 ND) p B X).
      * intros x. destruct (mrun1 fuel m o) eqn:E; cbn [bind]; try congruence.
Qed.
