(** The table invariant and the calls of Hash.c. *)
From Coq Require Import ZArith List Lia Bool Arith ZifyBool ZifyNat Permutation.
From Verif Require Import Base BaseProofs HashModel HashSpec HashProofs.
Import ListNotations.
Open Scope Z_scope.

Lemma lor_add : forall a k b, 0 <= k -> 0 <= b < 2 ^ k -> Z.lor (a * 2 ^ k) b = a * 2 ^ k + b.
Proof.
  intros. assert (E : Z.land (a * 2 ^ k) b = 0).
  { rewrite <- Z.shiftl_mul_pow2 by lia. apply Z.bits_inj'. intros n Hn. rewrite Z.land_spec, Z.bits_0.
    destruct (Z_lt_dec n k).
    - rewrite Z.shiftl_spec_low by lia. auto.
    - destruct (Z.eq_dec b 0); [subst; rewrite Z.bits_0; apply andb_false_r|].
      assert (HL : Z.log2 b < k) by (apply Z.log2_lt_pow2; lia). rewrite (Z.bits_above_log2 b n) by lia. apply andb_false_r. }
  rewrite <- Z.lxor_lor, <- Z.add_nocarry_lxor; auto.
Qed.

Definition dat (n p t : Z) : Z := n * 64 + t * 32 + p.

Lemma get_pars : forall h n p t, h_dat h = dat n p t -> 0 <= n < 2 ^ 25 -> 0 <= p < 32 -> t = 0 \/ t = 1 ->
  hGet_Pars h = mkHP n p t /\ Hash_Num_Entries h = n /\ hGet_Size h = shl1 p.
Proof.
  unfold dat, hGet_Pars, Hash_Num_Entries, hGet_Size, s32, u32. intros h n p t -> Hn Hp Ht.
  rewrite (Z.mod_small (n * 64 + t * 32 + p + 2 ^ 31)) by lia.
  replace (n * 64 + t * 32 + p + 2 ^ 31 - 2 ^ 31) with (n * 64 + t * 32 + p) by lia.
  rewrite !Z.shiftr_div_pow2 by lia. rewrite !Z.land_ones with (n := 5) by lia.
  change 1 with (Z.ones 1). rewrite Z.land_ones by lia.
  change (2 ^ 6) with 64. change (2 ^ 5) with 32. change (2 ^ 1) with 2.
  assert ((n * 64 + t * 32 + p) / 64 = n) by (symmetry; apply Z.div_unique with (t * 32 + p); lia).
  assert ((n * 64 + t * 32 + p) / 32 = n * 2 + t) by (symmetry; apply Z.div_unique with p; lia).
  assert ((n * 64 + t * 32 + p) mod 32 = p) by (symmetry; apply Z.mod_unique with (n * 2 + t); lia).
  assert ((n * 2 + t) mod 2 = t) by (symmetry; apply Z.mod_unique with n; lia).
  rewrite H, H0, H1, H2. rewrite Z.mod_small by lia. auto.
Qed.

Lemma set_pars : forall h n p t, 0 <= n < 2 ^ 25 -> 0 <= p < 32 -> t = 0 \/ t = 1 ->
  hSet_Pars h n p t = mkH (dat n p t) (h_entry h).
Proof.
  intros. unfold hSet_Pars, dat, u32. f_equal. rewrite !Z.shiftl_mul_pow2 by lia.
  rewrite (lor_add n 6 (t * 2 ^ 5)) by lia.
  replace (n * 2 ^ 6 + t * 2 ^ 5) with ((n * 2 + t) * 2 ^ 5) by lia.
  rewrite lor_add by lia. rewrite Z.mod_small by lia. lia.
Qed.

Lemma keys_eqb_spec : forall a b, keys_eqb a b = true <-> a = b.
Proof.
  induction a; destruct b; simpl; split; intros; auto; try discriminate.
  - apply andb_true_iff in H. destruct H as [H1 H2]. apply IHa in H2. f_equal; auto; lia.
  - inversion H. subst. rewrite Z.eqb_refl. apply IHa. auto.
Qed.

(** ** Invariant *)
Record hinv (hp : heap) (h : Hash) (p : nat) (t : Z) (bin : nat -> list Z) (tb : tab) : Prop := {
  hi_p : (p <= 30)%nat;
  hi_t : t = 0 \/ t = 1;
  hi_n : Z.of_nat (length tb) < 2 ^ 25;
  hi_dat : h_dat h = dat (Z.of_nat (length tb)) (Z.of_nat p) t;
  hi_len : length (h_entry h) = (2 ^ p)%nat;
  hi_bins : bins_ok hp (h_entry h) bin 0 (2 ^ p)%nat;
  hi_idx : forall i x k l, (i < 2 ^ p)%nat -> In x (bin i) -> kl hp x = Some (k, l) ->
             Z.land (hash_fun k) (2 ^ Z.of_nat p - 1) = Z.of_nat i;
  hi_perm : Permutation (flat_map bin (seq 0 (2 ^ p))) (map t_ent tb);
  hi_kl : forall x, In x tb -> kl hp (t_ent x) = Some (t_key x, t_lock x);
  hi_nd : NoDup (map t_ent tb);
  hi_key : NoDup (map t_key tb) }.

Lemma pow_nat : forall p, Z.of_nat (2 ^ p) = 2 ^ Z.of_nat p.
Proof. intros. rewrite Nat2Z.inj_pow. auto. Qed.

Lemma pow_pos : forall p, (0 < 2 ^ p)%nat.
Proof. intros. pose proof (pow_nat p). assert (0 < 2 ^ Z.of_nat p) by (apply Z.pow_pos_nonneg; lia). lia. Qed.

Lemma NoDup_flat : forall (bin : nat -> list Z) l i, NoDup (flat_map bin l) -> In i l -> NoDup (bin i).
Proof.
  induction l; simpl; intros i H I; [tauto|]. apply NoDup_app_inv in H. destruct H as [H1 [H2 _]].
  destruct I; [subst; auto|auto].
Qed.

Lemma length_flat : forall (bin : nat -> list Z) l i, In i l -> (length (bin i) <= length (flat_map bin l))%nat.
Proof. induction l; simpl; intros i I; [tauto|]. rewrite app_length. destruct I; [subst; lia|]. specialize (IHl i H). lia. Qed.

Section Inv.
Variables (hp : heap) (h : Hash) (p : nat) (t : Z) (bin : nat -> list Z) (tb : tab).
Hypothesis I : hinv hp h p t bin tb.

Lemma inv_pars : hGet_Pars h = mkHP (Z.of_nat (length tb)) (Z.of_nat p) t /\ Hash_Num_Entries h = Z.of_nat (length tb) /\
   hGet_Size h = Ok (Z.of_nat (2 ^ p)).
Proof.
  pose proof (hi_p _ _ _ _ _ _ I). pose proof (hi_n _ _ _ _ _ _ I).
  destruct (get_pars h _ _ _ (hi_dat _ _ _ _ _ _ I)) as [A [B C]]; try lia; [apply (hi_t _ _ _ _ _ _ I)|].
  rewrite A, B, C, shl1_ok, pow_nat by lia. auto.
Qed.

Lemma inv_in : forall x, In x (map t_ent tb) <-> exists i, (i < 2 ^ p)%nat /\ In x (bin i).
Proof.
  intros. pose proof (hi_perm _ _ _ _ _ _ I) as P. split.
  - intros X. apply (Permutation_in x (Permutation_sym P)) in X. apply in_flat_map in X. destruct X as [i [A B]].
    apply in_seq in A. exists i. split; auto; lia.
  - intros [i [A B]]. apply (Permutation_in x P). apply in_flat_map. exists i. split; auto. apply in_seq. lia.
Qed.

Lemma inv_kl : forall i x, (i < 2 ^ p)%nat -> In x (bin i) -> exists y, In y tb /\ t_ent y = x /\ kl hp x = Some (t_key y, t_lock y).
Proof.
  intros i x Hi Hx. assert (X : In x (map t_ent tb)) by (apply inv_in; eauto).
  apply in_map_iff in X. destruct X as [y [<- Y]]. exists y. split; auto. split; auto. apply (hi_kl _ _ _ _ _ _ I). auto.
Qed.

Lemma inv_disj : forall i j x, (i < 2 ^ p)%nat -> (j < 2 ^ p)%nat -> In x (bin i) -> In x (bin j) -> i = j.
Proof.
  intros i j x Hi Hj Xi Xj. destruct (inv_kl i x Hi Xi) as [y [_ [_ K]]].
  pose proof (hi_idx _ _ _ _ _ _ I i x _ _ Hi Xi K). pose proof (hi_idx _ _ _ _ _ _ I j x _ _ Hj Xj K). lia.
Qed.

Lemma inv_nodup : forall i, (i < 2 ^ p)%nat -> NoDup (bin i) /\ (length (bin i) <= length tb)%nat.
Proof.
  intros i Hi. pose proof (hi_perm _ _ _ _ _ _ I) as P. assert (In i (seq 0 (2 ^ p))) by (apply in_seq; lia). split.
  - eapply NoDup_flat; eauto. eapply Permutation_NoDup; [apply Permutation_sym; exact P|apply (hi_nd _ _ _ _ _ _ I)].
  - rewrite <- (map_length t_ent tb), <- (Permutation_length P). apply length_flat. auto.
Qed.

Lemma inv_fuel : chain_fuel h = S (length tb).
Proof. unfold chain_fuel. destruct inv_pars as [E _]. rewrite E. simpl. lia. Qed.
End Inv.

(** Same entity has the same triple; same key the same. *)
Lemma NoDup_map_inj : forall A B (f : A -> B) l x y, NoDup (map f l) -> In x l -> In y l -> f x = f y -> x = y.
Proof.
  induction l; simpl; intros x y H X Y E; [tauto|]. inversion H. subst.
  destruct X as [X|X], Y as [Y|Y]; subst; auto.
  - exfalso. apply H2. rewrite E. apply in_map. auto.
  - exfalso. apply H2. rewrite <- E. apply in_map. auto.
Qed.

Lemma samekl_seg_ok : forall hp x, (exists k l, kl hp x = Some (k, l)) <-> exists n, hp x = Some n.
Proof.
  unfold kl. intros. split.
  - intros [k [l H]]. destruct (hp x); [eauto|discriminate].
  - intros [n H]. rewrite H. simpl. eauto.
Qed.

(** ** Search *)
Lemma chain_find_spec : forall hp k l fuel ent, (length l <= fuel)%nat -> seg hp ent l 0 ->
  (exists x n, In x l /\ hp x = Some n /\ hn_key n = k /\ chain_find fuel hp ent k = Ok x) \/
  ((forall x n, In x l -> hp x = Some n -> hn_key n <> k) /\ chain_find fuel hp ent k = Ok 0).
Proof.
  induction l as [|x l IH]; intros fuel ent Hf S.
  - simpl in S. subst. right. split; [simpl; tauto|]. destruct fuel; auto.
  - simpl in S. destruct S as [-> [Hx [n [Hn S]]]]. destruct fuel; [simpl in Hf; lia|]. cbn [chain_find]. unfold NULL.
    replace (x =? 0) with false by lia. unfold hget. rewrite Hn. cbn [bind].
    destruct (keys_eqb k (hn_key n)) eqn:E.
    + apply keys_eqb_spec in E. left. exists x, n. simpl. auto.
    + assert (NE : hn_key n <> k) by (intro; subst; assert (keys_eqb (hn_key n) (hn_key n) = true) by (apply keys_eqb_spec; auto); congruence).
      destruct (IH fuel (hn_next n)) as [[y [m [A [B [C D]]]]]|[A B]]; [simpl in Hf; lia|auto|left|right].
      * exists y, m. simpl. auto.
      * split; auto. intros y m [Y|Y] Hm; [subst; rewrite Hn in Hm; inversion Hm; subst; auto|eapply A; eauto].
Qed.

Lemma idx_lt : forall k p, (Z.to_nat (Z.land (hash_fun k) (2 ^ Z.of_nat p - 1)) < 2 ^ p)%nat /\
   0 <= Z.land (hash_fun k) (2 ^ Z.of_nat p - 1).
Proof.
  intros. replace (2 ^ Z.of_nat p - 1) with (Z.ones (Z.of_nat p)) by (rewrite Z.ones_equiv; lia).
  rewrite Z.land_ones by lia. pose proof (Z.mod_pos_bound (hash_fun k) (2 ^ Z.of_nat p) ltac:(apply Z.pow_pos_nonneg; lia)).
  pose proof (pow_nat p). lia.
Qed.

(** The search of Hash_Entry and Hash_ChknAdd from the bin of the key. *)
Lemma find_spec : forall hp h p t bin tb k, hinv hp h p t bin tb ->
  exists ent, rd (h_entry h) (Z.land (hash_fun k) (Z.of_nat (2 ^ p) - 1)) = Ok ent /\
  ((exists x, In x tb /\ t_key x = k /\ t_ent x <> 0 /\ chain_find (chain_fuel h) hp ent k = Ok (t_ent x)) \/
   (~ In k (map t_key tb) /\ chain_find (chain_fuel h) hp ent k = Ok 0)).
Proof.
  intros hp h p t bin tb k I. rewrite pow_nat. destruct (idx_lt k p) as [L G].
  set (i := Z.land (hash_fun k) (2 ^ Z.of_nat p - 1)) in *.
  destruct (hi_bins _ _ _ _ _ _ I (Z.to_nat i) ltac:(lia)) as [e [R S]]. replace (Z.of_nat (Z.to_nat i)) with i in R by lia.
  exists e. split; auto. destruct (inv_nodup _ _ _ _ _ _ I _ L) as [_ Len].
  destruct (chain_find_spec hp k (bin (Z.to_nat i)) (chain_fuel h) e) as [[x [n [A [B [C D]]]]]|[A B]]; auto.
  - rewrite (inv_fuel _ _ _ _ _ _ I). lia.
  - left. destruct (inv_kl _ _ _ _ _ _ I _ x L A) as [y [Y1 [Y2 Y3]]]. exists y. subst x. split; auto.
    unfold kl in Y3. rewrite B in Y3. inversion Y3. subst k. split; auto. split; auto.
    apply (seg_nz _ _ _ _ _ S A).
  - right. split; auto. intro X. apply in_map_iff in X. destruct X as [y [Y1 Y2]].
    assert (In (t_ent y) (map t_ent tb)) by (apply in_map; auto).
    apply (inv_in _ _ _ _ _ _ I) in H. destruct H as [j [J1 J2]].
    pose proof (hi_kl _ _ _ _ _ _ I y Y2) as K. pose proof (hi_idx _ _ _ _ _ _ I j _ _ _ J1 J2 K) as J3.
    rewrite Y1 in J3. fold i in J3. assert (j = Z.to_nat i) by lia. subst j.
    unfold kl in K. destruct (hp (t_ent y)) as [n|] eqn:E; [|discriminate]. inversion K. eapply A; eauto. congruence.
Qed.

Lemma entry_spec : forall hp h p t bin tb k, hinv hp h p t bin tb ->
  (exists x, In x tb /\ t_key x = k /\ Hash_Entry hp h k = Ok (t_ent x)) \/
  (~ In k (map t_key tb) /\ Hash_Entry hp h k = Ok 0).
Proof.
  intros. destruct (find_spec _ _ _ _ _ _ k H) as [e [R F]]. unfold Hash_Entry.
  destruct (inv_pars _ _ _ _ _ _ H) as [_ [_ E]]. rewrite E. cbn [bind]. rewrite R. cbn [bind].
  destruct F as [[x [A [B [_ C]]]]|[A B]]; [left; eauto|right; auto].
Qed.

(** ** Enumeration *)
Lemma chain_list_spec : forall hp l fuel ent, (length l <= fuel)%nat -> seg hp ent l 0 -> chain_list fuel hp ent = Ok l.
Proof.
  induction l as [|x l IH]; intros fuel ent Hf S.
  - simpl in S. subst. destruct fuel; auto.
  - simpl in S. destruct S as [-> [Hx [n [Hn S]]]]. destruct fuel; [simpl in Hf; lia|]. cbn [chain_list]. unfold NULL.
    replace (x =? 0) with false by lia. unfold hget. rewrite Hn. cbn [bind]. rewrite IH; auto. simpl in Hf. lia.
Qed.

Lemma bins_list_spec : forall hp a bin fuel n i, bins_ok hp a bin i n ->
  (forall j, (i <= j < i + n)%nat -> (length (bin j) <= fuel)%nat) ->
  bins_list n fuel hp a (Z.of_nat i) = Ok (flat_map bin (seq i n)).
Proof.
  induction n; intros i B F; auto. cbn [bins_list]. destruct (B i ltac:(lia)) as [t [R Sg]]. rewrite R. cbn [bind].
  rewrite (chain_list_spec hp (bin i)); auto; [|apply F; lia]. cbn [bind].
  replace (Z.of_nat i + 1) with (Z.of_nat (S i)) by lia. rewrite IHn; auto.
  - intros j Hj. apply B. lia.
  - intros. apply F. lia.
Qed.

Lemma entries_spec : forall hp h p t bin tb, hinv hp h p t bin tb ->
  Hash_Entries hp h = Ok (flat_map bin (seq 0 (2 ^ p))).
Proof.
  intros. unfold Hash_Entries. destruct (inv_pars _ _ _ _ _ _ H) as [E _]. rewrite E. cbn [hp_p].
  pose proof (hi_p _ _ _ _ _ _ H). rewrite shl1_ok by lia. cbn [bind]. rewrite <- pow_nat, Nat2Z.id.
  apply (bins_list_spec hp (h_entry h) bin _ (2 ^ p) 0).
  - apply (hi_bins _ _ _ _ _ _ H).
  - intros. rewrite (inv_fuel _ _ _ _ _ _ H). destruct (inv_nodup _ _ _ _ _ _ H j ltac:(lia)). lia.
Qed.

(** ** Remove_Unused *)
Lemma Permutation_filter' : forall A (f : A -> bool) l l', Permutation l l' -> Permutation (filter f l) (filter f l').
Proof.
  induction 1; simpl; auto.
  - destruct (f x); auto.
  - destruct (f x), (f y); auto. constructor.
  - eapply Permutation_trans; eauto.
Qed.

Lemma filter_flat : forall A B (f : B -> bool) (g : A -> list B) l, filter f (flat_map g l) = flat_map (fun x => filter f (g x)) l.
Proof. induction l; simpl; auto. rewrite filter_app, IHl. auto. Qed.

Lemma filter_map_in : forall (f : Z -> bool) (g : Z * list Z * Z -> bool) tb,
  (forall x, In x tb -> f (t_ent x) = g x) -> filter f (map t_ent tb) = map t_ent (filter g tb).
Proof. induction tb; simpl; intros; auto. rewrite H by auto. destruct (g a); simpl; rewrite IHtb; auto. Qed.

Lemma locked_mod : forall l, Hash_IsLocked l = negb (l mod 16 =? 0).
Proof. intros. unfold Hash_IsLocked. change 15 with (Z.ones 4). rewrite Z.land_ones by lia. auto. Qed.

Lemma lockd_in_use : forall hp x, kl hp (t_ent x) = Some (t_key x, t_lock x) -> lockd hp (t_ent x) = in_use x.
Proof.
  unfold kl, lockd, in_use. intros. destruct (hp (t_ent x)); [|discriminate]. inversion H. apply locked_mod.
Qed.

Lemma filter_len : forall A (f : A -> bool) l, (length (filter f l) + length (filter (fun x => negb (f x)) l) = length l)%nat.
Proof. induction l; simpl; auto. destruct (f a); simpl; lia. Qed.

Lemma NoDup_map_filter : forall A B (f : A -> B) g l, NoDup (map f l) -> NoDup (map f (filter g l)).
Proof.
  induction l; simpl; intros; auto. inversion H. subst. destruct (g a); simpl; auto. constructor; auto.
  intro X. apply H2. apply in_map_iff in X. destruct X as [y [Y1 Y2]]. apply filter_In in Y2. rewrite <- Y1. apply in_map. tauto.
Qed.

Lemma rmu_spec : forall hp h p t bin tb, hinv hp h p t bin tb ->
  exists hp' h' bin', Hash_Remove_Unused hp h = Ok (hp', h', Z.of_nat (length tb) - Z.of_nat (length (filter in_use tb))) /\
    hinv hp' h' p t bin' (filter in_use tb) /\
    (forall x, ~ In x (map t_ent tb) -> kl hp' x = kl hp x).
Proof.
  intros hp h p t bin tb I. unfold Hash_Remove_Unused. destruct (inv_pars _ _ _ _ _ _ I) as [E _]. rewrite E. cbn [hp_p hp_n hp_t].
  pose proof (hi_p _ _ _ _ _ _ I) as Hp. pose proof (hi_n _ _ _ _ _ _ I) as Hn. pose proof (hi_t _ _ _ _ _ _ I) as Ht.
  rewrite shl1_ok by lia. cbn [bind]. rewrite <- pow_nat, Nat2Z.id.
  destruct (rmu_bins_spec (2 ^ p) (chain_fuel h) bin hp) with (n := (2 ^ p)%nat) (i := 0%nat) (hp := hp) (a := h_entry h) (count := 0)
    as [hp' [a' [E2 [L [B K]]]]]; auto.
  - apply (inv_disj _ _ _ _ _ _ I).
  - intros i Hi. destruct (inv_nodup _ _ _ _ _ _ I i Hi). split; auto. rewrite (inv_fuel _ _ _ _ _ _ I). lia.
  - apply (hi_len _ _ _ _ _ _ I).
  - intros j Hj. destruct (hi_bins _ _ _ _ _ _ I j Hj) as [e [R S]]. exists e. auto.
  - change (Z.of_nat 0) with 0 in E2. rewrite E2. cbn [bind].
    assert (LK : forall x, In x tb -> lockd hp (t_ent x) = in_use x).
    { intros. apply lockd_in_use. apply (hi_kl _ _ _ _ _ _ I). auto. }
    assert (P : Permutation (flat_map (fun j => filter (lockd hp) (bin j)) (seq 0 (2 ^ p))) (map t_ent (filter in_use tb))).
    { rewrite <- filter_flat. rewrite <- (filter_map_in (lockd hp)) by auto. apply Permutation_filter'. apply (hi_perm _ _ _ _ _ _ I). }
    assert (Cnt : 0 + Z.of_nat (length (flat_map (fun j => filter (fun x => negb (lockd hp x)) (bin j)) (seq 0 (2 ^ p)))) =
      Z.of_nat (length tb) - Z.of_nat (length (filter in_use tb))).
    { rewrite <- filter_flat. pose proof (filter_len _ (lockd hp) (flat_map bin (seq 0 (2 ^ p)))) as FL.
      rewrite filter_flat in FL. rewrite (Permutation_length P), map_length in FL.
      rewrite (Permutation_length (hi_perm _ _ _ _ _ _ I)), map_length in FL. lia. }
    rewrite Cnt. pose proof (filter_len _ in_use tb) as FT.
    rewrite set_pars by (auto; lia). cbn [hset_entry h_entry].
    exists hp', (mkH (dat (Z.of_nat (length tb) - (Z.of_nat (length tb) - Z.of_nat (length (filter in_use tb)))) (Z.of_nat p) t) a'),
      (fun j => filter (lockd hp) (bin j)). split; auto.
    assert (KK : forall i x, (i < 2 ^ p)%nat -> In x (filter (lockd hp) (bin i)) -> kl hp' x = kl hp x).
    { intros i x Hi Hx. apply filter_In in Hx. apply K. intros. tauto. }
    split.
    + constructor; auto.
      * lia.
      * cbn. f_equal. lia.
      * intros i x k l Hi Hx Hk. rewrite (KK i x Hi Hx) in Hk. apply filter_In in Hx. eapply (hi_idx _ _ _ _ _ _ I); eauto. tauto.
      * intros x Hx. assert (X : In (t_ent x) (map t_ent (filter in_use tb))) by (apply in_map; auto).
        apply (Permutation_in _ (Permutation_sym P)) in X. apply in_flat_map in X. destruct X as [i [X1 X2]].
        apply in_seq in X1. rewrite (KK i _ ltac:(lia) X2). apply (hi_kl _ _ _ _ _ _ I). apply filter_In in Hx. tauto.
      * apply NoDup_map_filter. apply (hi_nd _ _ _ _ _ _ I).
      * apply NoDup_map_filter. apply (hi_key _ _ _ _ _ _ I).
    + intros x Hx. apply K. intros j Hj X. exfalso. apply Hx. apply (inv_in _ _ _ _ _ _ I). exists j. split; auto; lia.
Qed.

(** ** Enlarge *)
Lemma land_step : forall v p, 0 <= p ->
  Z.land v (2 ^ (p + 1) - 1) = Z.land v (2 ^ p - 1) \/ Z.land v (2 ^ (p + 1) - 1) = Z.land v (2 ^ p - 1) + 2 ^ p.
Proof.
  intros. replace (2 ^ (p + 1) - 1) with (Z.ones (p + 1)) by (rewrite Z.ones_equiv; lia).
  replace (2 ^ p - 1) with (Z.ones p) by (rewrite Z.ones_equiv; lia). rewrite !Z.land_ones by lia.
  assert (P0 : 0 < 2 ^ p) by (apply Z.pow_pos_nonneg; lia).
  rewrite Z.pow_add_r by lia. change (2 ^ 1) with 2. rewrite Z.rem_mul_r by lia.
  pose proof (Z.mod_pos_bound (v / 2 ^ p) 2 ltac:(lia)).
  assert (v / 2 ^ p mod 2 = 0 \/ v / 2 ^ p mod 2 = 1) as [->| ->] by lia; [left|right]; lia.
Qed.

Lemma flat_map_ext_in : forall A B (f g : A -> list B) l, (forall x, In x l -> f x = g x) -> flat_map f l = flat_map g l.
Proof. induction l; simpl; intros; auto. rewrite H, IHl; auto. Qed.

Lemma flat_map_seq_shift : forall B (f : nat -> list B) n k s, flat_map f (seq (s + k) n) = flat_map (fun j => f (j + k)%nat) (seq s n).
Proof. induction n; simpl; intros; auto. f_equal. rewrite <- (IHn k (S s)). auto. Qed.

Lemma flat_map_perm_app : forall A B (f g h : A -> list B) l, (forall x, In x l -> Permutation (f x ++ g x) (h x)) ->
  Permutation (flat_map f l ++ flat_map g l) (flat_map h l).
Proof.
  induction l; simpl; intros; auto.
  eapply Permutation_trans; [|apply Permutation_app; [apply H; auto|apply IHl; auto]].
  rewrite <- !app_assoc. apply Permutation_app_head. rewrite !app_assoc. apply Permutation_app_tail. apply Permutation_app_comm.
Qed.

Lemma filter_split_perm : forall A (f : A -> bool) l, Permutation (filter f l ++ rev (filter (fun x => negb (f x)) l)) l.
Proof.
  intros. eapply Permutation_trans; [apply Permutation_app_head; apply Permutation_sym, Permutation_rev|].
  induction l; simpl; auto. destruct (f a); simpl; auto.
  eapply Permutation_trans; [apply Permutation_sym, Permutation_middle|]. auto.
Qed.

Definition ebin (hp : heap) (p : nat) (bin : nat -> list Z) (j : nat) : list Z :=
  if (j <? 2 ^ p)%nat then filter (stay hp (2 ^ (Z.of_nat p + 1) - 1) j) (bin j)
  else rev (filter (fun x => negb (stay hp (2 ^ (Z.of_nat p + 1) - 1) (j - 2 ^ p) x)) (bin (j - 2 ^ p)%nat)).

Lemma nth_resize_lt : forall (a : array Z) n i, Z.of_nat (length a) <= n -> 0 <= i < Z.of_nat (length a) -> rd (resize a n) i = rd a i.
Proof.
  intros. rewrite resize_ge by auto. unfold rd. replace (0 <=? i) with true by lia. rewrite nth_error_app1 by lia. auto.
Qed.

Lemma enlarge_spec : forall hp h p t bin tb, hinv hp h p t bin tb -> (p <= 29)%nat ->
  exists hp' h' bin', hEnlarge hp h = Ok (hp', h') /\ hinv hp' h' (S p) t bin' tb /\ samekl hp hp'.
Proof.
  intros hp h p t bin tb I Hp29. unfold hEnlarge. destruct (inv_pars _ _ _ _ _ _ I) as [E _]. rewrite E. cbn [hp_p hp_n hp_t].
  pose proof (hi_n _ _ _ _ _ _ I) as Hn. pose proof (hi_t _ _ _ _ _ _ I) as Ht. pose proof (hi_len _ _ _ _ _ _ I) as Hl.
  rewrite !shl1_ok by lia. cbn [bind].
  assert (PZ : 2 ^ (Z.of_nat p + 1) = Z.of_nat (2 * 2 ^ p)) by (rewrite Nat2Z.inj_mul, pow_nat, Z.pow_add_r by lia; lia).
  set (mask := 2 ^ (Z.of_nat p + 1) - 1).
  assert (JJ : forall i x n, (i < 2 ^ p)%nat -> In x (bin i) -> hp x = Some n ->
     Z.land (hash_fun (hn_key n)) mask = Z.of_nat i \/ Z.land (hash_fun (hn_key n)) mask = Z.of_nat (i + 2 ^ p)).
  { intros i x n Hi Hx Hh. assert (K : kl hp x = Some (hn_key n, hn_lock n)) by (unfold kl; rewrite Hh; auto).
    pose proof (hi_idx _ _ _ _ _ _ I i x _ _ Hi Hx K) as J. unfold mask.
    rewrite Nat2Z.inj_add, pow_nat, <- J. apply land_step. lia. }
  destruct (enl_bins_spec (2 ^ p) mask (chain_fuel h) bin (pow_pos p)) with (hp0 := hp) (n := (2 ^ p)%nat) (i := 0%nat)
     (hp := hp) (a := resize (h_entry h) (2 ^ (Z.of_nat p + 1))) as [hp' [a' [E2 [L [KL [B1 [B2 Fr]]]]]]]; auto.
  - apply (inv_disj _ _ _ _ _ _ I).
  - intros i Hi. destruct (inv_nodup _ _ _ _ _ _ I i Hi). split; auto. rewrite (inv_fuel _ _ _ _ _ _ I). lia.
  - pose proof (resize_length _ (h_entry h) (2 ^ (Z.of_nat p + 1))). lia.
  - intro; auto.
  - intros j Hj. destruct (hi_bins _ _ _ _ _ _ I j Hj) as [e [R S]]. exists e. split; auto.
    rewrite nth_resize_lt; auto; rewrite Hl; lia.
  - intros j Hj. lia.
  - rewrite <- pow_nat, Nat2Z.id. change (Z.of_nat 0) with 0 in E2. rewrite E2. cbn [bind].
    rewrite set_pars by (auto; lia). cbn [hset_entry h_entry].
    exists hp', (mkH (dat (Z.of_nat (length tb)) (Z.of_nat p + 1) t) a'), (ebin hp p bin). split; auto. split; auto.
    assert (P2 : (2 ^ S p = 2 ^ p + 2 ^ p)%nat) by (simpl; lia).
    constructor; auto.
    + lia.
    + cbn [h_dat]. unfold dat. lia.
    + intros j Hj. unfold ebin. destruct (j <? 2 ^ p)%nat eqn:Ej.
      * apply B1. lia.
      * apply B2. lia.
    + intros i x k l Hi Hx Hk. rewrite (KL x) in Hk. replace (Z.of_nat (S p)) with (Z.of_nat p + 1) by lia.
      unfold kl in Hk. destruct (hp x) as [n|] eqn:Eh; [|discriminate]. inversion Hk. subst k l.
      unfold ebin in Hx. fold mask. fold mask in Hx. destruct (i <? 2 ^ p)%nat eqn:Ei.
      * apply filter_In in Hx. destruct Hx as [_ Hs]. unfold stay in Hs. rewrite Eh in Hs. lia.
      * apply in_rev in Hx. apply filter_In in Hx. destruct Hx as [Hx Hs]. unfold stay in Hs. rewrite Eh in Hs.
        destruct (JJ (i - 2 ^ p)%nat x n ltac:(lia) Hx Eh); lia.
    + rewrite P2, seq_app, flat_map_app. eapply Permutation_trans; [|apply (hi_perm _ _ _ _ _ _ I)].
      rewrite (flat_map_seq_shift _ (ebin hp p bin) (2 ^ p) (2 ^ p) 0). apply flat_map_perm_app.
      intros j Hj. apply in_seq in Hj. unfold ebin. replace (j <? 2 ^ p)%nat with true by lia.
      replace (j + 2 ^ p <? 2 ^ p)%nat with false by lia. replace (j + 2 ^ p - 2 ^ p)%nat with j by lia. apply filter_split_perm.
    + intros x Hx. rewrite KL. apply (hi_kl _ _ _ _ _ _ I). auto.
    + apply (hi_nd _ _ _ _ _ _ I).
    + apply (hi_key _ _ _ _ _ _ I).
Qed.

(** ** CheckSize *)
Definition autob (t : Z) : bool := negb (t =? 0).

Lemma checksize_spec : forall hp h p t bin tb, hinv hp h p t bin tb ->
  exists hp' h' p' bin' tb', hCheckSize hp h = Ok (hp', h') /\ hinv hp' h' p' t bin' tb' /\
    purge (autob t) tb tb' /\ (forall x, ~ In x (map t_ent tb) -> kl hp' x = kl hp x).
Proof.
  intros hp h p t bin tb I. unfold hCheckSize. destruct (inv_pars _ _ _ _ _ _ I) as [E _]. rewrite E. cbn [hp_p hp_n hp_t].
  pose proof (hi_p _ _ _ _ _ _ I) as Hp. pose proof (hi_n _ _ _ _ _ _ I) as Hn.
  rewrite shl1_ok by lia. cbn [bind].
  destruct (Z.of_nat (length tb) >=? 8 * 2 ^ Z.of_nat p) eqn:G.
  2:{ exists hp, h, p, bin, tb. split; auto. split; auto. split; auto. left; auto. }
  assert (Hp21 : (p <= 29)%nat).
  { assert (~ (30 <= p)%nat); [|lia]. intro. assert (2 ^ 30 <= 2 ^ Z.of_nat p) by (apply Z.pow_le_mono_r; lia). lia. }
  assert (P1 : 1 <= 2 ^ Z.of_nat p) by (assert (0 < 2 ^ Z.of_nat p) by (apply Z.pow_pos_nonneg; lia); lia).
  fold (autob t). destruct (autob t) eqn:Ea.
  - destruct (rmu_spec _ _ _ _ _ _ I) as [hp1 [h1 [bin1 [E1 [I1 F1]]]]]. rewrite E1. cbn [bind].
    assert (PU : purge true tb (filter in_use tb)) by (right; repeat split; auto; lia).
    match goal with |- context [if ?c then _ else _] => destruct c end.
    + destruct (enlarge_spec _ _ _ _ _ _ I1 Hp21) as [hp2 [h2 [bin2 [E2 [I2 K2]]]]]. rewrite E2.
      exists hp2, h2, (S p), bin2, (filter in_use tb). split; auto. split; auto. split; auto.  intros. rewrite K2. auto.
    + exists hp1, h1, p, bin1, (filter in_use tb). split; auto.
  - cbn [bind]. rewrite G. destruct (enlarge_spec _ _ _ _ _ _ I Hp21) as [hp2 [h2 [bin2 [E2 [I2 K2]]]]]. rewrite E2.
    exists hp2, h2, (S p), bin2, tb. split; auto. split; auto. split; auto. left; auto.
Qed.

(** ** Adding an entity at the head of its bin *)
Definition badd (i : nat) (e : Z) (bin : nat -> list Z) (j : nat) : list Z := if (j =? i)%nat then e :: bin j else bin j.

Lemma flat_badd : forall i e bin n s, (s <= i < s + n)%nat ->
  Permutation (flat_map (badd i e bin) (seq s n)) (e :: flat_map bin (seq s n)).
Proof.
  induction n; simpl; intros s Hs; [lia|]. unfold badd at 1. destruct (s =? i)%nat eqn:E.
  - simpl. constructor. rewrite (flat_map_ext_in _ _ (badd i e bin) bin); auto.
    intros j Hj. apply in_seq in Hj. unfold badd. replace (j =? i)%nat with false by lia. auto.
  - eapply Permutation_trans; [apply Permutation_app_head; apply IHn; lia|]. apply Permutation_sym, Permutation_middle.
Qed.

Lemma insert_spec : forall hp h p t bin tb e k l, hinv hp h p t bin tb ->
  Z.of_nat (length tb) + 1 < 2 ^ 25 -> e <> 0 -> ~ In e (map t_ent tb) -> ~ In k (map t_key tb) -> kl hp e = Some (k, l) ->
  exists hp' h' bin',
   (ent <- rd (h_entry h) (Z.land (hash_fun k) (Z.of_nat (2 ^ p) - 1)) ;;
    hp <- hset_next hp e ent ;;
    a <- wr (h_entry h) (Z.land (hash_fun k) (Z.of_nat (2 ^ p) - 1)) e ;;
    Ok (hp, hSet_Pars (hset_entry h a) (Z.of_nat (length tb) + 1) (Z.of_nat p) t)) = Ok (hp', h') /\
   hinv hp' h' p t bin' ((e, k, l) :: tb) .
Proof.
  intros hp h p t bin tb e k l I Hn He Hne Hnk Hk. rewrite pow_nat. destruct (idx_lt k p) as [L G].
  set (i := Z.land (hash_fun k) (2 ^ Z.of_nat p - 1)) in *.
  pose proof (hi_p _ _ _ _ _ _ I) as Hp. pose proof (hi_t _ _ _ _ _ _ I) as Ht.
  destruct (hi_bins _ _ _ _ _ _ I (Z.to_nat i) ltac:(lia)) as [top [R Sg]]. replace (Z.of_nat (Z.to_nat i)) with i in R by lia.
  rewrite R. cbn [bind]. unfold hset_next, hget. unfold kl in Hk. destruct (hp e) as [n|] eqn:En; [|discriminate].
  inversion Hk. subst k l. cbn [bind].
  destruct (wr_ok _ _ e (rd_nth _ _ _ R)) as [a' [W [La [Ra Fa]]]]. rewrite W. cbn [bind].
  rewrite set_pars by (auto; lia). cbn [hset_entry h_entry].
  set (hp' := hupd hp e (Some (mkN top (hn_key n) (hn_lock n)))).
  assert (KL : samekl hp hp') by (apply samekl_set; auto).
  assert (NB : forall j x, (j < 2 ^ p)%nat -> In x (bin j) -> x <> e).
  { intros j x Hj Hx X. subst. apply Hne. apply (inv_in _ _ _ _ _ _ I). eauto. }
  assert (SF : forall j s, (j < 2 ^ p)%nat -> seg hp s (bin j) 0 -> seg hp' s (bin j) 0).
  { intros j s Hj. apply seg_frame. intros. apply hupd_other. eapply NB; eauto. }
  exists hp', (mkH (dat (Z.of_nat (length tb) + 1) (Z.of_nat p) t) a'), (badd (Z.to_nat i) e bin). split; auto.
  constructor; auto.
  - simpl. lia.
  - cbn. f_equal. lia.
  - cbn [h_entry]. rewrite La. apply (hi_len _ _ _ _ _ _ I).
  - intros j Hj. cbn [h_entry]. unfold badd. destruct (j =? Z.to_nat i)%nat eqn:Ej.
    + assert (j = Z.to_nat i) by lia. subst j. exists e. replace (Z.of_nat (Z.to_nat i)) with i by lia. split; auto.
      simpl. split; auto. split; auto. eexists. split; [apply hupd_same|]. cbn [hn_next]. apply SF; auto.
    + destruct (hi_bins _ _ _ _ _ _ I j Hj) as [s [X Y]]. exists s. rewrite Fa by lia. split; auto. apply SF; auto. lia.
  - intros j x kx lx Hj Hx Hkx. rewrite KL in Hkx. unfold badd in Hx. destruct (j =? Z.to_nat i)%nat eqn:Ej.
    + destruct Hx as [Hx|Hx].
      * subst x. unfold kl in Hkx. rewrite En in Hkx. inversion Hkx. fold i. lia.
      * eapply (hi_idx _ _ _ _ _ _ I); eauto.
    + eapply (hi_idx _ _ _ _ _ _ I); eauto.
  - eapply Permutation_trans; [apply flat_badd; lia|]. simpl. constructor. apply (hi_perm _ _ _ _ _ _ I).
  - intros x [X|X].
    + subst x. rewrite KL. unfold kl. cbn. rewrite En. auto.
    + rewrite KL. apply (hi_kl _ _ _ _ _ _ I). auto.
  - simpl. constructor; auto. apply (hi_nd _ _ _ _ _ _ I).
  - simpl. constructor; auto. apply (hi_key _ _ _ _ _ _ I).
Qed.

(** An entity created outside the table does not disturb it. *)
Lemma hinv_frame : forall hp hp' h p t bin tb, hinv hp h p t bin tb ->
  (forall x, In x (map t_ent tb) -> hp' x = hp x) -> hinv hp' h p t bin tb.
Proof.
  intros hp hp' h p t bin tb I F. constructor; try apply I.
  - intros j Hj. destruct (hi_bins _ _ _ _ _ _ I j Hj) as [e [R S]]. exists e. split; auto.
    eapply seg_frame; [|exact S]. intros. apply F. apply (inv_in _ _ _ _ _ _ I). exists j. split; auto; lia.
  - intros i x k l Hi Hx Hk. unfold kl in Hk. rewrite F in Hk. eapply (hi_idx _ _ _ _ _ _ I); eauto.
    apply (inv_in _ _ _ _ _ _ I). eauto.
  - intros x Hx. unfold kl. rewrite F by (apply in_map; auto). apply (hi_kl _ _ _ _ _ _ I x Hx).
Qed.

Lemma hinv_setlock : forall hp h p t bin tb e l n, hinv hp h p t bin tb -> hp e = Some n ->
  hinv (hupd hp e (Some (mkN (hn_next n) (hn_key n) l))) h p t bin (set_lock e l tb).
Proof.
  intros hp h p t bin tb e l n I Hn. set (hp' := hupd hp e (Some (mkN (hn_next n) (hn_key n) l))).
  assert (E1 : map t_ent (set_lock e l tb) = map t_ent tb).
  { unfold set_lock. rewrite map_map. apply map_ext. intros. destruct (t_ent a =? e); auto. }
  assert (E2 : map t_key (set_lock e l tb) = map t_key tb).
  { unfold set_lock. rewrite map_map. apply map_ext. intros. destruct (t_ent a =? e); auto. }
  assert (SG : forall b s q, seg hp s b q -> seg hp' s b q).
  { induction b; simpl; intros s q S; auto. destruct S as [A [B [m [C D]]]]. split; auto. split; auto.
    destruct (Z.eq_dec a e) as [Ea|Ea].
    - exists (mkN (hn_next n) (hn_key n) l). split; [unfold hp'; rewrite Ea; apply hupd_same|]. cbn [hn_next].
      rewrite Ea, Hn in C. assert (Cm : n = m) by congruence. apply IHb. rewrite Cm. auto.
    - exists m. split; [unfold hp'; rewrite hupd_other; auto|]. apply IHb; auto. }
  constructor; try apply I.
  - unfold set_lock. rewrite map_length. apply I.
  - unfold set_lock. rewrite map_length. apply I.
  - intros j Hj. destruct (hi_bins _ _ _ _ _ _ I j Hj) as [s [R S]]. exists s. auto.
  - intros i x k lx Hi Hx Hk. destruct (inv_kl _ _ _ _ _ _ I i x Hi Hx) as [y [_ [_ K]]].
    pose proof (hi_idx _ _ _ _ _ _ I i x _ _ Hi Hx K) as J.
    unfold kl, hp' in *. destruct (Z.eq_dec x e).
    + subst x. rewrite hupd_same in Hk. rewrite Hn in K. simpl in *. inversion Hk. inversion K. congruence.
    + rewrite hupd_other in Hk by auto. rewrite K in Hk. inversion Hk. congruence.
  - rewrite E1. apply I.
  - intros x Hx. unfold set_lock in Hx. apply in_map_iff in Hx. destruct Hx as [y [Y1 Y2]].
    pose proof (hi_kl _ _ _ _ _ _ I y Y2) as K. unfold kl, hp' in *. destruct (t_ent y =? e) eqn:Ee; subst x.
    + cbn [t_ent t_key t_lock fst snd]. assert (t_ent y = e) by lia. change (fst (fst y)) with (t_ent y). rewrite H, hupd_same. rewrite H, Hn in K.
      inversion K. unfold t_ent. simpl. f_equal.
    + rewrite hupd_other by lia. auto.
  - rewrite E1. apply I.
  - rewrite E2. apply I.
Qed.
