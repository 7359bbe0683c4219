(** Histories of calls on the model of Hash.c. *)
From Coq Require Import ZArith List Lia Bool Arith ZifyBool ZifyNat Permutation.
From Verif Require Import Base BaseProofs HashModel HashSpec HashProofs HashProofs2.
Import ListNotations.
Open Scope Z_scope.

Lemma purge_in : forall a tb tb' x, purge a tb tb' -> In x tb' -> In x tb.
Proof. intros a tb tb' x [H|[_ [_ H]]]; subst; auto. intro X. apply filter_In in X. tauto. Qed.

Lemma purge_map : forall A (f : Z * list Z * Z -> A) a tb tb' x, purge a tb tb' -> ~ In x (map f tb) -> ~ In x (map f tb').
Proof.
  intros A f a tb tb' x P H X. apply H. apply in_map_iff in X. destruct X as [y [Y1 Y2]]. subst. apply in_map.
  eapply purge_in; eauto.
Qed.

Lemma purge_len : forall a tb tb', purge a tb tb' -> (length tb' <= length tb)%nat.
Proof. intros a tb tb' [H|[_ [_ H]]]; subst; auto. pose proof (filter_len _ in_use tb). lia. Qed.

Lemma new_kl : forall hp e n, kl (hupd hp e (Some n)) e = Some (hn_key n, hn_lock n).
Proof. intros. unfold kl. rewrite hupd_same. auto. Qed.

Lemma add_sim : forall hp h p t bin tb e k l, hinv hp h p t bin tb -> Z.of_nat (length tb) + 1 < 2 ^ 25 ->
  e <> 0 -> ~ In e (map t_ent tb) -> ~ In k (map t_key tb) ->
  exists hp' h' p' bin' tb', Hash_Add (hupd hp e (Some (mkN NULL k l))) h e k = Ok (hp', h') /\
    hinv hp' h' p' t bin' ((e, k, l) :: tb') /\ purge (autob t) tb tb'.
Proof.
  intros hp h p t bin tb e k l I Hn He Hne Hnk.
  assert (I0 : hinv (hupd hp e (Some (mkN NULL k l))) h p t bin tb).
  { eapply hinv_frame; eauto. intros. apply hupd_other. intro; subst; auto. }
  destruct (checksize_spec _ _ _ _ _ _ I0) as [hp1 [h1 [p1 [bin1 [tb1 [E1 [I1 [P1 F1]]]]]]]].
  unfold Hash_Add. rewrite E1. cbn [bind]. destruct (inv_pars _ _ _ _ _ _ I1) as [E _]. rewrite E. cbn [hp_p hp_n hp_t].
  pose proof (hi_p _ _ _ _ _ _ I1). rewrite shl1_ok by lia. cbn [bind]. rewrite <- pow_nat.
  pose proof (purge_len _ _ _ P1).
  destruct (insert_spec _ _ _ _ _ _ e k l I1) as [hp2 [h2 [bin2 [E2 I2]]]]; auto.
  - lia.
  - eapply purge_map; eauto.
  - eapply purge_map; eauto.
  - rewrite F1 by auto. apply new_kl.
  - rewrite E2. exists hp2, h2, p1, bin2, tb1. auto.
Qed.

Lemma chknadd_sim : forall hp h p t bin tb e k l, hinv hp h p t bin tb -> Z.of_nat (length tb) + 1 < 2 ^ 25 ->
  e <> 0 -> ~ In e (map t_ent tb) ->
  exists hp' h' p' bin' tb' tb'' r, Hash_ChknAdd (hupd hp e (Some (mkN NULL k l))) h e k = Ok (hp', h', r) /\
    hinv hp' h' p' t bin' tb'' /\ purge (autob t) tb tb' /\
    ((r = 0 /\ ~ In k (map t_key tb') /\ tb'' = (e, k, l) :: tb') \/
     (exists x, In x tb' /\ t_key x = k /\ r = t_ent x /\ tb'' = tb')).
Proof.
  intros hp h p t bin tb e k l I Hn He Hne.
  assert (I0 : hinv (hupd hp e (Some (mkN NULL k l))) h p t bin tb).
  { eapply hinv_frame; eauto. intros. apply hupd_other. intro; subst; auto. }
  destruct (checksize_spec _ _ _ _ _ _ I0) as [hp1 [h1 [p1 [bin1 [tb1 [E1 [I1 [P1 F1]]]]]]]].
  unfold Hash_ChknAdd. rewrite E1. cbn [bind]. destruct (inv_pars _ _ _ _ _ _ I1) as [E _]. rewrite E. cbn [hp_p hp_n hp_t].
  pose proof (hi_p _ _ _ _ _ _ I1). rewrite shl1_ok by lia. cbn [bind]. rewrite <- pow_nat.
  pose proof (purge_len _ _ _ P1).
  destruct (find_spec _ _ _ _ _ _ k I1) as [ent [R F]]. rewrite R. cbn [bind]. destruct F as [[x [A [B [C D]]]]|[A B]].
  - rewrite D. cbn [bind]. unfold NULL. replace (t_ent x =? 0) with false by lia. cbn [negb].
    exists hp1, h1, p1, bin1, tb1, tb1, (t_ent x). split; auto. split; auto. split; auto. right. eauto.
  - rewrite B. cbn [bind]. unfold NULL. cbn [Z.eqb negb].
    destruct (insert_spec _ _ _ _ _ _ e k l I1) as [hp2 [h2 [bin2 [E2 I2]]]]; auto.
    + lia.
    + eapply purge_map; eauto.
    + rewrite F1 by auto. apply new_kl.
    + rewrite R in E2. cbn [bind] in E2.
      destruct (hset_next hp1 e ent) as [hpx| | |] eqn:EX; cbn [bind] in *; try discriminate.
      destruct (wr (h_entry h1) (Z.land (hash_fun k) (Z.of_nat (2 ^ p1) - 1)) e) as [ax| | |] eqn:EY; cbn [bind] in *; try discriminate.
      exists hp2, h2, p1, bin2, tb1, ((e, k, l) :: tb1), 0. split. { inversion E2. auto. }
      split; auto.
Qed.

Lemma auto_dat : forall n p t b, 0 <= n < 2 ^ 25 -> 0 <= p < 32 -> t = 0 \/ t = 1 ->
  (if negb ((if b : bool then 1 else 0) =? 0) then Z.lor (dat n p t) 32 else Z.land (dat n p t) (u32 (Z.lnot 32))) =
  dat n p (if b then 1 else 0).
Proof.
  intros n p t b Hn Hp Ht. destruct b; cbn [Z.eqb negb].
  - assert (E : forall t', t' = 0 \/ t' = 1 -> dat n p t' = Z.lor (Z.lor (n * 2 ^ 6) (t' * 2 ^ 5)) p).
    { intros t' Ht'. rewrite (lor_add n 6 (t' * 2 ^ 5)) by lia. replace (n * 2 ^ 6 + t' * 2 ^ 5) with ((n * 2 + t') * 2 ^ 5) by lia.
      rewrite lor_add by lia. unfold dat. lia. }
    rewrite (E t Ht), (E 1) by auto. change (1 * 2 ^ 5) with 32.
    rewrite <- !Z.lor_assoc. f_equal. rewrite (Z.lor_comm p 32), Z.lor_assoc. f_equal. destruct Ht; subst; reflexivity.
  - change (u32 (Z.lnot 32)) with (Z.lor (Z.ones 5) (Z.shiftl (Z.ones 26) 6)).
    assert (B : 0 <= dat n p t < 2 ^ 32) by (unfold dat; lia).
    apply Z.bits_inj'. intros m Hm. rewrite Z.land_spec, Z.lor_spec, Z.shiftl_spec by lia.
    unfold dat in *. destruct (Z_lt_dec m 5).
    + rewrite Z.ones_spec_low by lia. rewrite orb_true_l, andb_true_r.
      rewrite <- (Z.mod_pow2_bits_low (n * 64 + t * 32 + p) 5) by lia.
      rewrite <- (Z.mod_pow2_bits_low (n * 64 + 0 * 32 + p) 5) by lia. f_equal. change (2 ^ 5) with 32.
      replace (n * 64 + t * 32 + p) with (p + (n * 2 + t) * 32) by lia.
      replace (n * 64 + 0 * 32 + p) with (p + (n * 2) * 32) by lia. rewrite !Z.mod_add by lia. auto.
    + rewrite Z.ones_spec_high by lia. rewrite orb_false_l. destruct (Z.eq_dec m 5).
      * subst m. rewrite (Z.testbit_neg_r (Z.ones 26)) by lia. rewrite andb_false_r. symmetry.
        apply Z.testbit_false; [lia|]. change (2 ^ 5) with 32.
        replace (n * 64 + 0 * 32 + p) with (p + (n * 2) * 32) by lia. rewrite Z.div_add by lia.
        rewrite Z.div_small by lia. rewrite Z.add_0_l. rewrite Z.mul_comm. rewrite Z.mul_comm. apply Z_mod_mult.
      * assert (E : forall t', t' = 0 \/ t' = 1 -> Z.testbit (n * 64 + t' * 32 + p) m = Z.testbit n (m - 6)).
        { intros t' Ht'. 
          replace (n * 64 + t' * 32 + p) with (n * 2 ^ 6 + (t' * 32 + p)) by lia.
          rewrite <- (lor_add n 6) by lia. rewrite Z.lor_spec, <- Z.shiftl_mul_pow2, Z.shiftl_spec by lia.
          destruct (Z.eq_dec (t' * 32 + p) 0) as [E0|E0].
          - rewrite E0, Z.bits_0, orb_false_r. auto.
          - assert (Z.log2 (t' * 32 + p) < 6) by (apply Z.log2_lt_pow2; lia).
            rewrite (Z.bits_above_log2 (t' * 32 + p) m) by lia. rewrite orb_false_r. auto. }
        rewrite !E by auto. destruct (Z_lt_dec (m - 6) 26).
        -- rewrite Z.ones_spec_low by lia. apply andb_true_r.
        -- rewrite Z.ones_spec_high by lia. rewrite andb_false_r. symmetry.
           destruct (Z.eq_dec n 0); [subst; apply Z.bits_0|]. assert (Z.log2 n < 25) by (apply Z.log2_lt_pow2; lia).
           apply Z.bits_above_log2; lia.
Qed.

Definition hst (st : (Z -> option hnode) * Hash) (s : bool * tab) : Prop :=
  exists p t bin, hinv (fst st) (snd st) p t bin (snd s) /\ autob t = fst s.

Lemma step_sim : forall st s o, hst st s -> Z.of_nat (length (snd s)) + 1 < 2 ^ 25 -> hpre (snd s) o ->
  exists st' s' r, hstep st o = Ok (st', r) /\ hrel s o s' r /\ hst st' s' /\ (length (snd s') <= length (snd s) + 1)%nat.
Proof.
  intros [hp h] [a tb] o [p [t [bin [I A]]]] Hn Pre. cbn [fst snd] in *. subst a.
  destruct o as [e k l|e k l|k| | | |e l|b]; simpl in Pre.
  - destruct Pre as [P1 [P2 P3]].
    destruct (add_sim _ _ _ _ _ _ e k l I Hn P1 P2 P3) as [hp' [h' [p' [bin' [tb' [E [I' PU]]]]]]].
    exists (hp', h'), (autob t, (e, k, l) :: tb'), []. unfold hstep. rewrite E. split; auto. split; [constructor; auto|].
    split; [exists p', t, bin'; auto|]. pose proof (purge_len _ _ _ PU). simpl. lia.
  - destruct Pre as [P1 P2].
    destruct (chknadd_sim _ _ _ _ _ _ e k l I Hn P1 P2) as [hp' [h' [p' [bin' [tb' [tb'' [r [E [I' [PU R]]]]]]]]]].
    pose proof (purge_len _ _ _ PU).
    exists (hp', h'), (autob t, tb''), [r]. unfold hstep. rewrite E. split; auto.
    split; [|split; [exists p', t, bin'; auto|]].
    + destruct R as [[-> [R2 ->]]|[x [R1 [R2 [-> ->]]]]].
      * constructor; auto.
      * eapply hr_chk_old; eauto.
    + destruct R as [[-> [R2 ->]]|[x [R1 [R2 [-> ->]]]]]; simpl; lia.
  - exists (hp, h), (autob t, tb). destruct (entry_spec _ _ _ _ _ _ k I) as [[x [X1 [X2 X3]]]|[X1 X2]].
    + exists [t_ent x]. unfold hstep. rewrite X3. split; auto. split; [constructor; auto|]. split; [exists p, t, bin; auto|simpl; lia].
    + exists [0]. unfold hstep. rewrite X2. split; auto. split; [apply hr_entry_none; auto|]. split; [exists p, t, bin; auto|simpl; lia].
  - exists (hp, h), (autob t, tb), (flat_map bin (seq 0 (2 ^ p))). unfold hstep. rewrite (entries_spec _ _ _ _ _ _ I).
    split; auto. split; [constructor; apply I|]. split; [exists p, t, bin; auto|simpl; lia].
  - exists (hp, h), (autob t, tb), [Z.of_nat (length tb)]. unfold hstep. destruct (inv_pars _ _ _ _ _ _ I) as [_ [E _]]. rewrite E.
    split; auto. split; [constructor|]. split; [exists p, t, bin; auto|simpl; lia].
  - destruct (rmu_spec _ _ _ _ _ _ I) as [hp' [h' [bin' [E [I' F]]]]].
    exists (hp', h'), (autob t, filter in_use tb), [Z.of_nat (length tb) - Z.of_nat (length (filter in_use tb))].
    unfold hstep. rewrite E. split; auto. split; [constructor|]. split; [exists p, t, bin'; auto|].
    pose proof (filter_len _ in_use tb). simpl. lia.
  - apply in_map_iff in Pre. destruct Pre as [x [X1 X2]]. pose proof (hi_kl _ _ _ _ _ _ I x X2) as K. rewrite X1 in K.
    unfold kl in K. destruct (hp e) as [n|] eqn:En; [|discriminate].
    exists (hupd hp e (Some (mkN (hn_next n) (hn_key n) l)), h), (autob t, set_lock e l tb), [].
    unfold hstep, hget. rewrite En. split; auto. split; [constructor|]. split.
    + exists p, t, bin. split; auto. apply hinv_setlock; auto.
    + unfold set_lock. simpl. rewrite map_length. lia.
  - exists (hp, Hash_Set_AutoRemove h (if b then 1 else 0)), (b, tb), []. unfold hstep. split; auto. split; [constructor|].
    split; [|simpl; lia]. exists p, (if b then 1 else 0), bin. split; [|destruct b; auto]. cbn [fst snd].
    assert (D : Hash_Set_AutoRemove h (if b then 1 else 0) = mkH (dat (Z.of_nat (length tb)) (Z.of_nat p) (if b then 1 else 0)) (h_entry h)).
    { unfold Hash_Set_AutoRemove. f_equal. rewrite (hi_dat _ _ _ _ _ _ I). pose proof (hi_p _ _ _ _ _ _ I).
      apply auto_dat; try lia. apply I. }
    rewrite D. constructor; try apply I; cbn [h_dat h_entry]; auto. destruct b; auto.
Qed.

Lemma run_sim : forall ops st s, hst st s -> Z.of_nat (length (snd s)) + Z.of_nat (length ops) < 2 ^ 25 -> hallowed s ops ->
  exists st' s' rs, hrun st ops = Ok (st', rs) /\ hrels s ops s' rs /\ hst st' s'.
Proof.
  induction ops as [|o ops IH]; intros st s H L A.
  - exists st, s, []. split; auto. split; [constructor|auto].
  - simpl in A. destruct A as [Pre A].
    assert (L1 : Z.of_nat (length (snd s)) + 1 < 2 ^ 25) by (simpl in L; lia).
    destruct (step_sim st s o H L1 Pre) as [st1 [s1 [r [E1 [R1 [H1 Le]]]]]].
    destruct (IH st1 s1 H1) as [st2 [s2 [rs [E2 [R2 H2]]]]]; [simpl in L; lia|eapply A; eauto|].
    exists st2, s2, (r :: rs). cbn [hrun]. rewrite E1. cbn [bind]. rewrite E2. split; auto. split; [econstructor; eauto|auto].
Qed.

Lemma hfind_ok : forall fuel p n, 0 <= p <= 30 -> n <= 2 ^ 30 -> 31 - p <= Z.of_nat fuel -> exists q, hfind_p fuel p n = Ok q /\ 0 <= q <= 30.
Proof.
  induction fuel; intros p n Hp Hn Hf; [lia|]. cbn [hfind_p]. replace (p >? 31) with false by lia.
  destruct (2 ^ p <? n) eqn:E; [|eauto]. apply IHfuel; auto; try lia.
  assert (p <> 30) by (intro; subst; lia). lia.
Qed.

Lemma new_inv : forall inisize auto hp, 0 <= inisize <= 2 ^ 30 ->
  exists h, Hash_New inisize (if auto : bool then 1 else 0) = Ok h /\ hst (hp, h) (auto, []).
Proof.
  intros inisize auto hp Hi. unfold Hash_New.
  assert (exists q, (if inisize =? 0 then Ok 5 else hfind_p 33 0 inisize) = Ok q /\ 0 <= q <= 30) as [q [E Q]].
  { destruct (inisize =? 0); [exists 5; split; auto; lia|]. apply hfind_ok; lia. }
  rewrite E. cbn [bind]. rewrite shl1_ok by lia. cbn [bind]. rewrite set_pars by (try lia; destruct auto; auto). cbn [h_entry].
  eexists. split; [reflexivity|]. exists (Z.to_nat q), (if auto then 1 else 0), (fun _ => []). split; [|destruct auto; auto].
  cbn [fst snd].
  assert (P : Z.to_nat (2 ^ q) = (2 ^ Z.to_nat q)%nat).
  { pose proof (pow_nat (Z.to_nat q)). replace (Z.of_nat (Z.to_nat q)) with q in H by lia. lia. }
  constructor; cbn [h_dat h_entry length]; try lia.
  - destruct auto; auto.
  - unfold dat. lia.
  - rewrite repeat_length. auto.
  - intros j Hj. exists 0. split; [|simpl; auto]. unfold rd. replace (0 <=? Z.of_nat j) with true by lia. rewrite P, Nat2Z.id.
    rewrite nth_error_repeat by lia. auto.
  - simpl. tauto.
  - simpl. clear. induction (seq 0 (2 ^ Z.to_nat q)); simpl; auto.
  - simpl. tauto.
  - constructor.
  - constructor.
Qed.

Lemma history : forall inisize auto hp ops, 0 <= inisize <= 2 ^ 30 -> Z.of_nat (length ops) < 2 ^ 25 -> hallowed (auto, []) ops ->
  exists h st s rs, Hash_New inisize (if auto then 1 else 0) = Ok h /\ hrun (hp, h) ops = Ok (st, rs) /\
     hrels (auto, []) ops s rs /\ hst st s.
Proof.
  intros. destruct (new_inv inisize auto hp H) as [h [E I]]. destruct (run_sim ops _ _ I) as [st [s [rs [R1 [R2 R3]]]]]; auto.
  exists h, st, s, rs. auto.
Qed.

(** End states: enumeration and removal of unused entries. *)
Lemma hst_entries : forall st s, hst st s ->
  exists r, Hash_Entries (fst st) (snd st) = Ok r /\ NoDup r /\ Permutation r (map t_ent (snd s)).
Proof.
  intros [hp h] [a tb] [p [t [bin [I A]]]]. cbn [fst snd] in *. rewrite (entries_spec _ _ _ _ _ _ I).
  eexists. split; auto. split; [|apply I]. eapply Permutation_NoDup; [apply Permutation_sym; apply I|apply I].
Qed.

Lemma hst_lookup : forall st s x, hst st s -> In x (snd s) ->
  Hash_Entry (fst st) (snd st) (t_key x) = Ok (t_ent x) /\ t_ent x <> 0 /\
  exists n, fst st (t_ent x) = Some n /\ hn_key n = t_key x /\ hn_lock n = t_lock x.
Proof.
  intros [hp h] [a tb] x [p [t [bin [I A]]]] X. cbn [fst snd] in *.
  pose proof (hi_kl _ _ _ _ _ _ I x X) as K. unfold kl in K. destruct (hp (t_ent x)) as [n|] eqn:En; [|discriminate].
  assert (K1 : hn_key n = t_key x /\ hn_lock n = t_lock x) by (inversion K; auto). destruct K1. split; [|split; eauto].
  - destruct (entry_spec _ _ _ _ _ _ (t_key x) I) as [[y [Y1 [Y2 Y3]]]|[Y1 Y2]].
    + assert (y = x) by (apply (NoDup_map_inj _ _ t_key tb y x (hi_key _ _ _ _ _ _ I)); auto). subst y. auto.
    + exfalso. apply Y1. apply in_map. auto.
  - assert (J : In (t_ent x) (map t_ent tb)) by (apply in_map; auto). apply (inv_in _ _ _ _ _ _ I) in J.
    destruct J as [i [J1 J2]]. destruct (hi_bins _ _ _ _ _ _ I i ltac:(lia)) as [e [_ Sg]]. apply (seg_nz _ _ _ _ _ Sg J2).
Qed.

Lemma hst_lookup_none : forall st s k, hst st s -> ~ In k (map t_key (snd s)) -> Hash_Entry (fst st) (snd st) k = Ok 0.
Proof.
  intros [hp h] [a tb] k [p [t [bin [I A]]]] X. cbn [fst snd] in *.
  destruct (entry_spec _ _ _ _ _ _ k I) as [[y [Y1 [Y2 Y3]]]|[Y1 Y2]]; auto.
  exfalso. apply X. rewrite <- Y2. apply in_map. auto.
Qed.

Lemma hst_rmu : forall st s, hst st s ->
  exists st' c, Hash_Remove_Unused (fst st) (snd st) = Ok (st', c) /\
    c = Z.of_nat (length (filter (fun x => negb (in_use x)) (snd s))) /\ hst st' (fst s, filter in_use (snd s)).
Proof.
  intros [hp h] [a tb] [p [t [bin [I A]]]]. cbn [fst snd] in *.
  destruct (rmu_spec _ _ _ _ _ _ I) as [hp' [h' [bin' [E [I' F]]]]]. exists (hp', h'). eexists. split; [exact E|].
  split. { pose proof (filter_len _ in_use tb). lia. }
  exists p, t, bin'. auto.
Qed.

Lemma in_use_dec_key : forall st s x, hst st s -> In x (snd s) -> in_use x = false -> ~ In (t_key x) (map t_key (filter in_use (snd s))).
Proof.
  intros [hp h] [a tb] x [p [t [bin [I A]]]] X U Y. cbn [fst snd] in *. apply in_map_iff in Y. destruct Y as [y [Y1 Y2]].
  apply filter_In in Y2. destruct Y2 as [Y2 Y3]. assert (y = x) by (apply (NoDup_map_inj _ _ t_key tb y x (hi_key _ _ _ _ _ _ I)); auto). subst. congruence.
Qed.

(** Lock counters. *)
Lemma lock_split : forall q r, 0 <= r < 16 -> Z.lor (Z.land (q * 16 + r) (Z.lnot 15)) 0 = q * 16 /\ Z.land (q * 16 + r) 15 = r.
Proof.
  intros. rewrite Z.lor_0_r. change 15 with (Z.ones 4). rewrite <- Z.ldiff_land. rewrite Z.ldiff_ones_r by lia.
  rewrite Z.shiftl_mul_pow2, Z.shiftr_div_pow2, Z.land_ones by lia. change (2 ^ 4) with 16.
  replace (q * 16 + r) with (r + q * 16) by lia. rewrite Z.div_add, Z.mod_add, Z.div_small, Z.mod_small by lia. lia.
Qed.

Lemma lock_step : forall q r, 0 <= r < 15 -> Hash_Lock (q * 16 + r) = q * 16 + (r + 1).
Proof.
  intros. unfold Hash_Lock. destruct (lock_split q r ltac:(lia)) as [A B]. rewrite Z.lor_0_r in A. rewrite A, B.
  replace (r <? 15) with true by lia. change 16 with (2 ^ 4). apply lor_add; lia.
Qed.

Lemma unlock_step : forall q r, 0 < r < 15 -> Hash_UnLock (q * 16 + r) = q * 16 + (r - 1).
Proof.
  intros. unfold Hash_UnLock. destruct (lock_split q r ltac:(lia)) as [A B]. rewrite Z.lor_0_r in A. rewrite A, B.
  replace (r <? 15) with true by lia. replace (r >? 0) with true by lia. change 16 with (2 ^ 4). apply lor_add; lia.
Qed.
