(** Lemmas about the model of List.c. *)
From Coq Require Import ZArith List Lia Bool Arith ZifyBool ZifyNat.
From Verif Require Import Base BaseProofs ListModel ListSpec.
Import ListNotations.
Open Scope Z_scope.

Definition isv (x : Z) : bool := negb (x =? 0).
Definition valid (raw : list Z) : list Z := filter isv raw.
Definition gaps (raw : list Z) : Z := Z.of_nat (length raw) - Z.of_nat (length (valid raw)).

Lemma valid_app : forall a b, valid (a ++ b) = valid a ++ valid b.
Proof. intros. apply filter_app. Qed.

Lemma valid_len : forall raw, (length (valid raw) <= length raw)%nat.
Proof. induction raw; simpl; auto. destruct (isv a); simpl; lia. Qed.

Lemma valid_all : forall raw, length (valid raw) = length raw -> valid raw = raw.
Proof.
  induction raw; simpl; auto. destruct (isv a); simpl; intros.
  - f_equal. auto.
  - pose proof (valid_len raw). unfold valid in *. lia.
Qed.

Lemma gaps_app : forall a b, gaps (a ++ b) = gaps a + gaps b.
Proof. intros. unfold gaps. rewrite valid_app, !app_length. lia. Qed.

Lemma gaps_nonneg : forall a, 0 <= gaps a.
Proof. intros. unfold gaps. pose proof (valid_len a). lia. Qed.

Lemma valid_In : forall raw x, In x (valid raw) <-> In x raw /\ x <> 0.
Proof. intros. unfold valid. rewrite filter_In. unfold isv. rewrite negb_true_iff, Z.eqb_neq. tauto. Qed.

Lemma valid_idem : forall raw, valid (valid raw) = valid raw.
Proof. induction raw; simpl; auto. destruct (isv a) eqn:E; simpl; auto. rewrite E. f_equal. auto. Qed.

Definition prefix_ok (raw : list Z) (r1 : Z) : Prop :=
  forall j, Z.of_nat j < r1 -> (j < length raw)%nat /\ nth j raw 0 <> 0.

(** Representation: [l] stores the raw sequence [raw] with exponent [p] and
    first-gap hint [r1]. *)
Record rep_at (lo : Z) (l : LList) (raw : list Z) (p r1 : Z) : Prop := {
  rp_p : 0 <= p <= 30;
  rp_len : Z.of_nat (length raw) < 2 ^ 27;
  rp_nent : nentdat l = u32 (Z.lor (Z.shiftl (Z.of_nat (length (valid raw))) 5) p);
  rp_rem : remdat l = if gaps raw =? 0 then None else Some (u32 (gaps raw), u32 r1);
  rp_r1 : if gaps raw =? 0 then r1 = -1
          else lo <= r1 < Z.of_nat (length raw) /\ prefix_ok raw r1;
  rp_tail : exists tail, entry l = map Some raw ++ tail;
  rp_alloc : 2 ^ p - 1 <= Z.of_nat (length (entry l));
  rp_cap : Z.of_nat (length raw) <= 2 ^ p - 1
}.

Definition rep (l : LList) (raw : list Z) : Prop := exists p r1, rep_at 0 l raw p r1.

(** Weaker: the first-gap hint may be -1 although there are gaps (as List_Cat
    can leave it); enough for all queries. *)
Definition wrep (l : LList) (raw : list Z) : Prop := exists p r1, rep_at (-1) l raw p r1.

Lemma rep_wrep : forall l raw, rep l raw -> wrep l raw.
Proof.
  intros l raw [p [r1 H]]. exists p, r1. destruct H; constructor; auto.
  destruct (gaps raw =? 0); auto. destruct rp_r2; split; auto; lia.
Qed.
Global Hint Resolve rep_wrep : core.

Lemma pack_unpack : forall n p, 0 <= n < 2 ^ 27 -> 0 <= p <= 30 ->
  Z.shiftr (u32 (Z.lor (Z.shiftl n 5) p)) 5 = n /\ Z.land (u32 (Z.lor (Z.shiftl n 5) p)) 31 = p.
Proof.
  intros n p Hn Hp.
  assert (E : Z.lor (Z.shiftl n 5) p = n * 32 + p).
  { rewrite Z.shiftl_mul_pow2 by lia. change (2 ^ 5) with 32.
    rewrite <- Z.lxor_lor, <- Z.add_nocarry_lxor; auto.
    - apply Z.bits_inj'. intros k Hk. rewrite Z.land_spec, Z.bits_0.
      change 32 with (2 ^ 5). destruct (Z.lt_ge_cases k 5).
      + rewrite Z.mul_pow2_bits_low by lia. auto.
      + rewrite (Z.bits_above_log2 p) by (destruct (Z.eq_dec p 0); [subst; simpl; lia|];
          try (apply Z.log2_lt_pow2; [lia|]; apply Z.lt_le_trans with (2 ^ 5); [lia|apply Z.pow_le_mono_r; lia]); lia).
        apply andb_false_r.
    - apply Z.bits_inj'. intros k Hk. rewrite Z.land_spec, Z.bits_0.
      change 32 with (2 ^ 5). destruct (Z.lt_ge_cases k 5).
      + rewrite Z.mul_pow2_bits_low by lia. auto.
      + rewrite (Z.bits_above_log2 p) by (destruct (Z.eq_dec p 0); [subst; simpl; lia|];
          try (apply Z.log2_lt_pow2; [lia|]; apply Z.lt_le_trans with (2 ^ 5); [lia|apply Z.pow_le_mono_r; lia]); lia).
        apply andb_false_r. }
  rewrite E. unfold u32. rewrite Z.mod_small by (change (2 ^ 27) with 134217728 in *; change (2 ^ 32) with 4294967296; lia).
  split.
  - rewrite Z.shiftr_div_pow2 by lia. change (2 ^ 5) with 32.
    rewrite Z.div_add_l by lia. rewrite Z.div_small; lia.
  - change 31 with (Z.ones 5). rewrite Z.land_ones by lia. change (2 ^ 5) with 32.
    rewrite Z.add_comm, Z.mod_add by lia. apply Z.mod_small. lia.
Qed.

Lemma s32_u32 : forall x, - 2 ^ 31 <= x < 2 ^ 31 -> s32 (u32 x) = x.
Proof.
  intros. unfold s32, u32. change (2 ^ 31) with 2147483648 in *. change (2 ^ 32) with 4294967296.
  rewrite Zplus_mod_idemp_l. rewrite Z.mod_small by lia. lia.
Qed.

Lemma pars_rep : forall lo l raw p r1, rep_at lo l raw p r1 -> -1 <= lo ->
  Get_Pars l = mkP (Z.of_nat (length (valid raw))) p (gaps raw) r1.
Proof.
  intros lo l raw p r1 H Hlo. destruct H. unfold Get_Pars.
  pose proof (valid_len raw). pose proof (gaps_nonneg raw).
  destruct (pack_unpack (Z.of_nat (length (valid raw))) p) as [A B]; try lia.
  rewrite rp_rem0, rp_nent0.
  destruct (gaps raw =? 0) eqn:E.
  - apply Z.eqb_eq in E. rewrite A, B, E, rp_r2. reflexivity.
  - rewrite A, B. rewrite !s32_u32; auto; change (2 ^ 31) with 2147483648; change (2 ^ 27) with 134217728 in *.
    + destruct rp_r2. lia.
    + unfold gaps in *. lia.
Qed.

Lemma size_rep : forall l raw, wrep l raw -> List_Size_Raw l = Z.of_nat (length raw).
Proof.
  intros l raw [p [r1 H]]. unfold List_Size_Raw. rewrite (pars_rep _ _ _ _ _ H ltac:(lia)). simpl.
  unfold gaps. lia.
Qed.

Lemma num_rep : forall l raw, wrep l raw -> List_Num_Entries l = Z.of_nat (length (valid raw)).
Proof.
  intros l raw [p [r1 H]]. pose proof (pars_rep _ _ _ _ _ H ltac:(lia)) as E.
  unfold Get_Pars in E. unfold List_Num_Entries.
  destruct (remdat l) as [[? ?]|]; inversion E; auto.
Qed.

(** Introduction of a representation after [Set_Pars]. *)
Lemma rep_set : forall l a raw p n nr r1 tail,
  0 <= p <= 30 -> Z.of_nat (length raw) < 2 ^ 27 ->
  n = Z.of_nat (length (valid raw)) -> nr = gaps raw ->
  (nr <> 0 -> 0 <= r1 < Z.of_nat (length raw) /\ prefix_ok raw r1) ->
  a = map Some raw ++ tail -> 2 ^ p - 1 <= Z.of_nat (length a) ->
  Z.of_nat (length raw) <= 2 ^ p - 1 ->
  rep (Set_Pars (set_entry l a) n p nr r1) raw.
Proof.
  intros. exists p, (if gaps raw =? 0 then -1 else r1).
  subst n nr a. constructor; simpl; auto.
  - destruct (gaps raw =? 0) eqn:E; auto.
  - destruct (gaps raw =? 0) eqn:E; auto. apply H3. lia.
  - eauto.
Qed.

Lemma rd_rep : forall l raw i, wrep l raw -> 0 <= i < Z.of_nat (length raw) ->
  rd (entry l) i = Ok (nth (Z.to_nat i) raw 0).
Proof.
  intros l raw i [p [r1 H]] Hi. destruct (rp_tail _ _ _ _ _ H) as [t E]. rewrite E.
  apply rd_map; lia.
Qed.

(** ** Loops *)

Lemma find_eq_spec : forall raw tail e n ip,
  n = (length raw - ip)%nat -> (ip <= length raw)%nat ->
  find_eq n (map Some raw ++ tail) (Z.of_nat ip) e =
  Ok (match find (fun j => nth j raw 0 =? e) (seq ip n) with
      | Some j => Some (Z.of_nat j) | None => None end).
Proof.
  intros raw tail e. induction n; intros ip Hn Hip; simpl; auto.
  rewrite (rd_map _ raw tail (Z.of_nat ip) 0) by lia. simpl. rewrite Nat2Z.id.
  destruct (nth ip raw 0 =? e) eqn:E; auto.
  replace (Z.of_nat ip + 1) with (Z.of_nat (S ip)) by lia.
  apply IHn; lia.
Qed.

(** Position of the first element equal to [e]. *)
Fixpoint pos (raw : list Z) (e : Z) : option nat :=
  match raw with
  | [] => None
  | x :: t => if x =? e then Some O else option_map S (pos t e)
  end.

Lemma find_shift : forall n k (f : nat -> bool),
  find f (seq (S k) n) = option_map S (find (fun j => f (S j)) (seq k n)).
Proof.
  induction n; intros; simpl; auto. destruct (f (S k)); auto.
Qed.

Lemma find_pos : forall raw e, find (fun j => nth j raw 0 =? e) (seq 0 (length raw)) = pos raw e.
Proof.
  induction raw; intros; simpl; auto. destruct (a =? e); auto.
  rewrite find_shift. simpl. rewrite IHraw. reflexivity.
Qed.

Lemma find_eq_rep : forall l raw e, wrep l raw ->
  find_eq (Z.to_nat (List_Size_Raw l)) (entry l) 0 e = Ok (option_map Z.of_nat (pos raw e)).
Proof.
  intros l raw e H. rewrite (size_rep _ _ H). rewrite Nat2Z.id.
  destruct H as [p [r1 H]]. destruct (rp_tail _ _ _ _ _ H) as [t E]. rewrite E.
  change 0 with (Z.of_nat 0). rewrite find_eq_spec by lia.
  rewrite find_pos. destruct (pos raw e); auto.
Qed.

Lemma pos_split : forall raw e k, pos raw e = Some k ->
  raw = firstn k raw ++ e :: skipn (S k) raw /\ ~ In e (firstn k raw) /\ (k < length raw)%nat.
Proof.
  induction raw; simpl; intros; try discriminate.
  destruct (a =? e) eqn:E.
  - inversion H. subst. simpl. apply Z.eqb_eq in E. subst. split; [auto|split; auto; lia].
  - destruct (pos raw e) eqn:P; simpl in H; inversion H. subst.
    destruct (IHraw _ _ P) as [A [B C]]. simpl. split; [f_equal; auto|].
    split; [|lia]. intros [D|D]; auto. lia.
Qed.

Lemma pos_none : forall raw e, pos raw e = None <-> ~ In e raw.
Proof.
  induction raw; simpl; intros; [tauto|]. destruct (a =? e) eqn:E.
  - split; [discriminate|]. intros; exfalso; apply H. left. lia.
  - rewrite Z.eqb_neq in E. specialize (IHraw e).
    destruct (pos raw e); simpl; [split; [discriminate|] | tauto].
    intro H. assert (~ In e raw) by tauto. apply IHraw in H0. discriminate.
Qed.

(** k-th valid entry of raw: its raw position *)
Fixpoint vpos (raw : list Z) (k : nat) : option nat :=
  match raw with
  | [] => None
  | x :: t => if x =? 0 then option_map S (vpos t k)
              else match k with O => Some O | S m => option_map S (vpos t m) end
  end.

Lemma vpos_split : forall raw k j, vpos raw k = Some j ->
  (j < length raw)%nat /\ nth j raw 0 <> 0 /\ length (valid (firstn j raw)) = k.
Proof.
  induction raw; intros k j; simpl; try discriminate. unfold isv in *.
  destruct (a =? 0) eqn:E.
  - destruct (vpos raw k) eqn:P; simpl; intro H; inversion H. subst.
    destruct (IHraw _ _ P) as [A [B C]]. repeat split; auto; try lia. simpl. unfold isv. rewrite E. simpl. auto.
  - destruct k.
    + intro H; inversion H; subst. repeat split; auto; try lia; simpl; lia.
    + destruct (vpos raw k) eqn:P; simpl; intro H; inversion H. subst.
      destruct (IHraw _ _ P) as [A [B C]]. repeat split; auto; try lia. simpl. unfold isv. rewrite E. simpl. auto.
Qed.

Lemma vpos_some : forall raw k, (k < length (valid raw))%nat -> exists j, vpos raw k = Some j.
Proof.
  induction raw; simpl; intros; try lia. unfold isv in *.
  destruct (a =? 0) eqn:E; simpl in *.
  - destruct (IHraw k) as [j Hj]; auto. rewrite Hj. simpl; eauto.
  - destruct k; eauto. destruct (IHraw k) as [j Hj]; try lia. rewrite Hj. simpl; eauto.
Qed.

Lemma vpos_none : forall raw k, (length (valid raw) <= k)%nat -> vpos raw k = None.
Proof.
  induction raw; simpl; intros; auto. unfold isv in *.
  destruct (a =? 0) eqn:E; simpl in *.
  - rewrite IHraw; auto.
  - destruct k; try lia. rewrite IHraw; auto; lia.
Qed.

Lemma vpos_valid : forall raw k j, vpos raw k = Some j ->
  nth k (valid raw) 0 = nth j raw 0 /\
  valid (firstn j raw) = firstn k (valid raw) /\
  valid (skipn (S j) raw) = skipn (S k) (valid raw) /\
  valid (skipn j raw) = skipn k (valid raw).
Proof.
  induction raw; intros k j; simpl; try discriminate. unfold isv in *.
  destruct (a =? 0) eqn:E.
  - simpl. destruct (vpos raw k) eqn:P; simpl; intro H; inversion H. subst.
    destruct (IHraw _ _ P) as [A [B [C D]]]. simpl. unfold isv. rewrite E. simpl. auto.
  - simpl. destruct k.
    + intro H; inversion H; subst. simpl. unfold isv. rewrite E. auto.
    + destruct (vpos raw k) eqn:P; simpl; intro H; inversion H. subst.
      destruct (IHraw _ _ P) as [A [B [C D]]]. simpl. unfold isv. rewrite E. simpl. repeat split; auto. f_equal; auto.
Qed.

(** raw prefix without gaps: k-th valid entry is at raw position k *)
Lemma vpos_prefix : forall raw r1 k, prefix_ok raw r1 -> Z.of_nat k < r1 -> vpos raw k = Some k.
Proof.
  induction raw; intros r1 k Hp Hk.
  - destruct (Hp k Hk). simpl in *. lia.
  - simpl. assert (a <> 0). { destruct (Hp 0%nat) as [_ A]; [lia|]. simpl in A. auto. }
    replace (a =? 0) with false by lia. destruct k; auto.
    rewrite (IHraw (r1 - 1)); auto; try lia.
    intros j Hj. destruct (Hp (S j)) as [A B]; [lia|]. simpl in *. split; auto. lia.
Qed.

Lemma vpos_nogap : forall raw k, gaps raw = 0 -> (k < length raw)%nat -> vpos raw k = Some k.
Proof.
  intros. apply vpos_prefix with (r1 := Z.of_nat (length raw)); [|lia].
  intros j Hj. split; [lia|].
  unfold gaps in H. rewrite <- (valid_all raw) by lia.
  assert (In (nth j (valid raw) 0) (valid raw)).
  { apply nth_In. lia. }
  apply valid_In in H1. tauto.
Qed.

Lemma scan_ith_spec : forall raw tail i n ip ic,
  n = (length raw - ip)%nat -> (ip <= length raw)%nat -> -1 <= ic < i ->
  scan_ith n (map Some raw ++ tail) (Z.of_nat ip) ic i =
  match vpos (skipn ip raw) (Z.to_nat (i - ic - 1)) with
  | Some j => Ok (Z.of_nat (ip + j), i)
  | None => Ok (Z.of_nat (length raw), ic + Z.of_nat (length (valid (skipn ip raw))))
  end.
Proof.
  intros raw tail i. induction n; intros ip ic Hn Hip Hic; simpl.
  - replace ip with (length raw) by lia. rewrite skipn_all. simpl. f_equal. f_equal. lia.
  - rewrite (rd_map _ raw tail (Z.of_nat ip) 0) by lia. simpl. rewrite Nat2Z.id.
    assert (ES : skipn ip raw = nth ip raw 0 :: skipn (S ip) raw).
    { clear - Hn. revert raw Hn. induction ip; destruct raw; simpl; intros; try lia; auto.
      apply IHip. lia. }
    rewrite ES. specialize (IHn (S ip)). remember (skipn (S ip) raw) as rest eqn:ER.
    simpl. unfold isv at 1. unfold NULL.
    replace (Z.of_nat ip + 1) with (Z.of_nat (S ip)) by lia.
    destruct (nth ip raw 0 =? 0) eqn:E; simpl.
    + rewrite IHn by lia. unfold valid. destruct (vpos rest (Z.to_nat (i - ic - 1))); simpl; do 2 f_equal; lia.
    + destruct (ic + 1 =? i) eqn:E2.
      * replace (Z.to_nat (i - ic - 1)) with 0%nat by lia. do 2 f_equal; lia.
      * rewrite IHn by lia. unfold valid.
        replace (Z.to_nat (i - ic - 1)) with (S (Z.to_nat (i - (ic + 1) - 1))) by lia.
        destruct (vpos rest (Z.to_nat (i - (ic + 1) - 1))); simpl; do 2 f_equal; lia.
Qed.

Lemma locate_ith_rep : forall lo l l0 raw p r1 i a tail, rep_at lo l0 raw p r1 -> -1 <= lo ->
  0 <= i < Z.of_nat (length (valid raw)) -> entry l = a -> a = map Some raw ++ tail ->
  exists j, vpos raw (Z.to_nat i) = Some j /\
  locate_ith l (mkP (Z.of_nat (length (valid raw))) p (gaps raw) r1) i = Ok (Z.of_nat j, i).
Proof.
  intros lo l l0 raw p r1 i a tail H Hlo Hi Ha Ht. subst a.
  pose proof (valid_len raw) as VL. unfold locate_ith. simpl.
  pose proof (rp_r1 _ _ _ _ _ H) as R.
  destruct (gaps raw =? 0) eqn:E; simpl.
  - exists (Z.to_nat i). rewrite vpos_nogap by lia. split; auto. do 2 f_equal. lia.
  - destruct R as [R1 R2]. destruct (r1 >? i) eqn:E2; simpl.
    + exists (Z.to_nat i). rewrite (vpos_prefix _ r1) by (auto; lia). split; auto. do 2 f_equal. lia.
    + destruct (vpos_some raw (Z.to_nat i)) as [j Hj]; [lia|].
      exists j. split; auto. rewrite Ht.
      replace (Z.to_nat (Z.of_nat (length (valid raw)) + gaps raw)) with (length raw) by (unfold gaps; lia).
      change 0 with (Z.of_nat 0). rewrite scan_ith_spec by lia. simpl.
      replace (Z.to_nat (i - -1 - 1)) with (Z.to_nat i) by lia. rewrite Hj. auto.
Qed.

(** ** Operations *)

Lemma find_p_spec : forall n fuel p, 31 - p <= Z.of_nat fuel -> 0 <= p <= 30 -> n < 2 ^ 30 ->
  exists q, find_p fuel p n = Ok q /\ p <= q <= 30 /\ n < 2 ^ q /\
            (p < q -> 2 ^ (q - 1) <= n).
Proof.
  intros n. induction fuel; intros p Hf Hp Hn; [lia|]. simpl.
  rewrite shl1_ok by lia. simpl. destruct (2 ^ p >? n) eqn:E.
  - exists p. repeat split; auto; lia.
  - destruct (Z.eq_dec p 30). { subst. lia. }
    destruct (IHfuel (p + 1)) as [q [A [B [C D]]]]; try lia.
    exists q. repeat split; auto; try lia. intros. destruct (Z.eq_dec (p + 1) q).
    + subst q. replace (p + 1 - 1) with p by lia. lia.
    + apply D. lia.
Qed.

Lemma New_rep : forall n, n < 2 ^ 30 -> exists l, List_New n = Ok l /\ rep l [].
Proof.
  intros n Hn. unfold List_New.
  assert (exists p, (if n =? 0 then Ok 3 else find_p 32 0 n) = Ok p /\ 0 <= p <= 30) as [p [E Hp]].
  { destruct (n =? 0); [exists 3; split; auto; lia|].
    destruct (find_p_spec n 32 0) as [q [A [B _]]]; try lia. exists q. split; auto; lia. }
  rewrite E. simpl. rewrite shl1_ok by auto. simpl. eexists. split; [reflexivity|].
  exists p, (-1). constructor; simpl; auto; try lia.
  - exists (malloc (2 ^ p - 1)). auto.
  - unfold malloc. rewrite repeat_length. lia.
Qed.

Lemma Copy_rep : forall l raw, rep l raw -> exists l', List_Copy l = Ok l' /\ rep l' raw.
Proof.
  intros l raw [p [r1 H]]. unfold List_Copy. rewrite (pars_rep _ _ _ _ _ H ltac:(lia)). simpl.
  pose proof H as H'. destruct H'. destruct rp_tail0 as [t E].
  rewrite shl1_ok by auto. simpl. unfold memcpy.
  replace (Z.of_nat (length (valid raw)) + gaps raw) with (Z.of_nat (length raw)) by (unfold gaps; lia).
  unfold malloc. rewrite repeat_length. rewrite E, app_length, map_length.
  match goal with |- context [if ?c then _ else _] => replace c with true by (symmetry; repeat (apply andb_true_iff; split); lia) end.
  simpl. eexists. split; [reflexivity|].
  change (mkL 0 None ?a) with (set_entry (mkL 0 None []) a).
  eapply rep_set; eauto.
  - destruct (gaps raw =? 0) eqn:Eg; [lia|]. auto.
  - rewrite Nat2Z.id. rewrite firstn_app, map_length, Nat.sub_diag, firstn_O, app_nil_r.
    rewrite firstn_all2 by (rewrite map_length; lia). reflexivity.
  - rewrite Nat2Z.id. rewrite firstn_app, map_length, Nat.sub_diag, firstn_O, app_nil_r.
    rewrite firstn_all2 by (rewrite map_length; lia). rewrite app_length, map_length, skipn_length, repeat_length. lia.
Qed.

Lemma grow_rep : forall l raw p r1, rep_at 0 l raw p r1 -> Z.of_nat (length raw) + 1 < 2 ^ 27 ->
  exists p' a t tail, grow (mkP (Z.of_nat (length (valid raw))) p (gaps raw) r1) (entry l) = Ok (p', a)
  /\ 0 <= p' <= 30 /\ Z.of_nat (length raw) + 1 <= 2 ^ p' - 1
  /\ a = map Some raw ++ t :: tail /\ 2 ^ p' - 1 <= Z.of_nat (length a).
Proof.
  intros l raw p r1 H HL. pose proof H as H'. destruct H'. destruct rp_tail0 as [t E].
  unfold grow. simpl. rewrite shl1_ok by auto. simpl.
  replace (Z.of_nat (length (valid raw)) + gaps raw) with (Z.of_nat (length raw)) by (unfold gaps; lia).
  destruct (Z.of_nat (length raw) =? 2 ^ p - 1) eqn:EC.
  - assert (p < 27). { apply Z.pow_lt_mono_r_iff with (a := 2); try lia. }
    rewrite shl1_ok by lia. simpl.
    assert (2 ^ (p + 1) = 2 * 2 ^ p) by (rewrite Z.pow_add_r by lia; lia).
    assert (0 < 2 ^ p) by (apply Z.pow_pos_nonneg; lia).
    destruct (resize_prefix _ raw t (2 ^ (p + 1) - 1)) as [t' Et']; [lia|].
    pose proof (resize_length _ (entry l) (2 ^ (p + 1) - 1)) as RL.
    rewrite E in RL. rewrite Et' in RL. rewrite E, Et'.
    rewrite app_length, map_length in RL.
    destruct t' as [|t0 t']. { simpl in RL. lia. }
    exists (p + 1), (map Some raw ++ t0 :: t'), t0, t'. repeat split; auto; try lia.
    rewrite app_length, map_length. lia.
  - rewrite E in rp_alloc0. rewrite app_length, map_length in rp_alloc0.
    destruct t as [|t0 t']. { simpl in *. lia. }
    exists p, (entry l), t0, t'. rewrite E. repeat split; auto; try lia.
    rewrite app_length, map_length. lia.
Qed.

Lemma prefix_ok_app : forall raw x r, prefix_ok raw r -> prefix_ok (raw ++ x) r.
Proof.
  intros raw x r H j Hj. destruct (H j Hj) as [A B]. rewrite app_length. split; [lia|].
  rewrite app_nth1; auto.
Qed.

Lemma isv_true : forall x, x <> 0 -> isv x = true.
Proof. intros. unfold isv. lia. Qed.

Lemma Add_tail_rep : forall l raw p r1 e, rep_at 0 l raw p r1 -> e <> 0 -> Z.of_nat (length raw) + 1 < 2 ^ 27 ->
  exists p' a a', grow (mkP (Z.of_nat (length (valid raw))) p (gaps raw) r1) (entry l) = Ok (p', a) /\
    wr a (Z.of_nat (length raw)) e = Ok a' /\
    rep (Set_Pars (set_entry l a') (Z.of_nat (length (valid raw)) + 1) p' (gaps raw) r1) (raw ++ [e]).
Proof.
  intros l raw p r1 e H He HL.
  destruct (grow_rep _ _ _ _ H HL) as [p' [a [t [tail [G [P1 [P2 [P3 P4]]]]]]]].
  exists p', a, (map Some (raw ++ [e]) ++ tail). split; auto. subst a. rewrite wr_map_end. split; auto.
  assert (HV : length (valid (raw ++ [e])) = S (length (valid raw))).
  { rewrite valid_app. simpl. rewrite isv_true by auto. rewrite app_length. simpl. lia. }
  assert (HG : gaps (raw ++ [e]) = gaps raw).
  { unfold gaps. rewrite HV, app_length. simpl. lia. }
  pose proof (rp_r1 _ _ _ _ _ H) as R.
  eapply rep_set; try reflexivity; rewrite ?HV, ?HG, ?app_length; simpl; try lia.
  - intros. replace (gaps raw =? 0) with false in R by lia. destruct R. split; [lia|]. apply prefix_ok_app. auto.
  - rewrite map_length, app_length. simpl. rewrite app_length, map_length in P4. simpl in P4. lia.
Qed.

Lemma gaps_sum : forall raw, Z.of_nat (length (valid raw)) + gaps raw = Z.of_nat (length raw).
Proof. intros. unfold gaps. lia. Qed.

Lemma Add_rep : forall l raw e, rep l raw -> e <> 0 -> Z.of_nat (length raw) + 1 < 2 ^ 27 ->
  exists l', List_Add l e = Ok l' /\ rep l' (raw ++ [e]).
Proof.
  intros l raw e [p [r1 H]] He HL.
  destruct (Add_tail_rep _ _ _ _ _ H He HL) as [p' [a [a' [G [W R]]]]].
  unfold List_Add. rewrite (pars_rep _ _ _ _ _ H ltac:(lia)). rewrite G. simpl. rewrite gaps_sum, W. simpl. eauto.
Qed.

Lemma mem_pos : forall raw e, e <> 0 ->
  ListSpec.mem e (valid raw) = match pos raw e with Some _ => true | None => false end.
Proof.
  induction raw; intros; simpl; auto.
  unfold isv at 1. destruct (a =? 0) eqn:E; simpl.
  - replace (a =? e) with false by lia. rewrite IHraw by auto. destruct (pos raw e); auto.
  - rewrite (Z.eqb_sym e a). destruct (a =? e) eqn:E2; simpl; auto.
    unfold ListSpec.mem, valid in *. rewrite IHraw by auto. destruct (pos raw e); auto.
Qed.

Lemma ChknAdd_rep : forall l raw e, rep l raw -> e <> 0 -> Z.of_nat (length raw) + 1 < 2 ^ 27 ->
  exists l', List_ChknAdd l e = Ok l' /\
    rep l' (if ListSpec.mem e (valid raw) then raw else raw ++ [e]).
Proof.
  intros l raw e R He HL. unfold List_ChknAdd. rewrite (find_eq_rep _ _ _ (rep_wrep _ _ R)). simpl.
  rewrite mem_pos by auto. destruct (pos raw e) eqn:E; simpl; eauto.
  apply Add_rep; auto.
Qed.

(** entry changes in place *)
Lemma valid_split3 : forall raw k, (k < length raw)%nat ->
  raw = firstn k raw ++ nth k raw 0 :: skipn (S k) raw.
Proof.
  induction raw; destruct k; simpl; intros; try lia; auto. f_equal. apply IHraw. lia.
Qed.

Lemma valid_upd : forall raw k x, (k < length raw)%nat -> x <> 0 ->
  valid (upd_nth raw k x) = valid (firstn k raw) ++ x :: valid (skipn (S k) raw).
Proof.
  intros. rewrite upd_nth_split by auto. rewrite valid_app. simpl. rewrite isv_true; auto.
Qed.

Lemma valid_upd0 : forall raw k, (k < length raw)%nat ->
  valid (upd_nth raw k 0) = valid (firstn k raw) ++ valid (skipn (S k) raw).
Proof.
  intros. rewrite upd_nth_split by auto. rewrite valid_app. reflexivity.
Qed.

Lemma valid_self : forall raw k, (k < length raw)%nat -> nth k raw 0 <> 0 ->
  valid raw = valid (firstn k raw) ++ nth k raw 0 :: valid (skipn (S k) raw).
Proof.
  intros. rewrite (valid_split3 raw k H) at 1. rewrite valid_app. simpl. rewrite isv_true; auto.
Qed.

Lemma set_same : forall l raw k x p r1, rep_at 0 l raw p r1 -> (k < length raw)%nat ->
  nth k raw 0 <> 0 -> x <> 0 ->
  exists a, wr (entry l) (Z.of_nat k) x = Ok a /\ rep (set_entry l a) (upd_nth raw k x).
Proof.
  intros l raw k x p r1 H Hk Hn Hx. pose proof H as H'. destruct H'. destruct rp_tail0 as [t E].
  rewrite E. rewrite wr_map by lia. rewrite Nat2Z.id. eexists; split; [reflexivity|].
  assert (HV : length (valid (upd_nth raw k x)) = length (valid raw)).
  { rewrite valid_upd by auto. rewrite (valid_self raw k) by auto. rewrite !app_length. simpl. lia. }
  assert (HG : gaps (upd_nth raw k x) = gaps raw) by (unfold gaps; rewrite HV, upd_nth_length; auto).
  exists p, r1. constructor; simpl; rewrite ?HV, ?HG, ?upd_nth_length; auto.
  - destruct (gaps raw =? 0); auto. destruct rp_r2 as [A B]. split; auto.
    intros j Hj. destruct (B j Hj). rewrite upd_nth_length. split; auto.
    rewrite nth_upd_nth. destruct (j =? k)%nat; auto. replace (k <? length raw)%nat with true by lia. auto.
  - eauto.
  - rewrite app_length, map_length, upd_nth_length. rewrite E, app_length, map_length in rp_alloc0. auto.
Qed.

Lemma blank_rep : forall l raw k, rep l raw -> (k < length raw)%nat -> nth k raw 0 <> 0 ->
  exists l', blank l (Z.of_nat k) = Ok l' /\ rep l' (upd_nth raw k 0).
Proof.
  intros l raw k [p [r1 H]] Hk Hn. unfold blank. rewrite (pars_rep _ _ _ _ _ H ltac:(lia)). simpl.
  pose proof H as H'. destruct H'. destruct rp_tail0 as [t E].
  rewrite E. rewrite wr_map by lia. rewrite Nat2Z.id. simpl. eexists; split; [reflexivity|].
  assert (HV : Z.of_nat (length (valid (upd_nth raw k 0))) = Z.of_nat (length (valid raw)) - 1).
  { rewrite valid_upd0 by auto. rewrite (valid_self raw k) by auto. rewrite !app_length. simpl. lia. }
  assert (HG : gaps (upd_nth raw k 0) = gaps raw + 1) by (unfold gaps; rewrite HV, upd_nth_length; lia).
  eapply rep_set; eauto; rewrite ?HV, ?HG, ?upd_nth_length; auto; try lia.
  - intros _. destruct (gaps raw =? 0) eqn:EG.
    + subst r1. simpl. split; [lia|]. intros j Hj. rewrite upd_nth_length. split; [lia|].
      rewrite nth_upd_nth. replace (j =? k)%nat with false by lia.
      destruct (vpos_split raw j j) as [_ [A _]]; auto. apply vpos_nogap; lia.
    + destruct rp_r2 as [A B]. replace (r1 =? -1) with false by lia. simpl.
      destruct (r1 >? Z.of_nat k) eqn:E2; (split; [lia|]); intros j Hj; rewrite upd_nth_length; (split; [lia|]);
      rewrite nth_upd_nth; replace (j =? k)%nat with false by lia; apply B; lia.
  - rewrite app_length, map_length, upd_nth_length. rewrite E, app_length, map_length in rp_alloc0. auto.
Qed.

Lemma remove1_app : forall x a b, ~ In x a -> remove1 x (a ++ x :: b) = a ++ b.
Proof.
  induction a; simpl; intros.
  - rewrite Z.eqb_refl. auto.
  - destruct (a =? x) eqn:E; [exfalso; apply H; left; lia|]. f_equal. apply IHa. tauto.
Qed.

Lemma remove1_notin : forall x s, ~ In x s -> remove1 x s = s.
Proof.
  induction s; simpl; intros; auto. destruct (a =? x) eqn:E; [exfalso; apply H; left; lia|].
  f_equal. apply IHs. tauto.
Qed.

Lemma replace1_app : forall x y a b, ~ In x a -> replace1 x y (a ++ x :: b) = a ++ y :: b.
Proof.
  induction a; simpl; intros.
  - rewrite Z.eqb_refl. auto.
  - destruct (a =? x) eqn:E; [exfalso; apply H; left; lia|]. f_equal. apply IHa. tauto.
Qed.

Lemma replace1_notin : forall x y s, ~ In x s -> replace1 x y s = s.
Proof.
  induction s; simpl; intros; auto. destruct (a =? x) eqn:E; [exfalso; apply H; left; lia|].
  f_equal. apply IHs. tauto.
Qed.

Lemma pos_nth : forall raw e k, pos raw e = Some k -> nth k raw 0 = e /\ (k < length raw)%nat.
Proof.
  induction raw; simpl; intros; try discriminate. destruct (a =? e) eqn:E.
  - inversion H; subst. split; [lia|]. lia.
  - destruct (pos raw e) eqn:P; inversion H; subst. destruct (IHraw _ _ P). split; auto. lia.
Qed.

Lemma Rem_rep : forall l raw e, rep l raw -> e <> 0 ->
  exists l' raw', List_Rem l e = Ok (l', if ListSpec.mem e (valid raw) then 1 else 0) /\ rep l' raw' /\
    valid raw' = remove1 e (valid raw) /\ length raw' = length raw /\
    (forall j, nth j raw' 0 = nth j raw 0 \/ nth j raw' 0 = 0 /\ nth j raw 0 = e).
Proof.
  intros l raw e R He. unfold List_Rem. rewrite (find_eq_rep _ _ _ (rep_wrep _ _ R)). simpl.
  rewrite mem_pos by auto. destruct (pos raw e) as [k|] eqn:E; simpl.
  - destruct (pos_nth _ _ _ E) as [E1 E2].
    destruct (blank_rep l raw k) as [l' [B R']]; auto; try lia.
    rewrite B. simpl. exists l', (upd_nth raw k 0). repeat split; auto.
    + rewrite valid_upd0 by auto. rewrite (valid_self raw k) by (auto; lia). rewrite E1.
      rewrite remove1_app; auto. rewrite valid_In. intros [A _].
      destruct (pos_split _ _ _ E) as [_ [C _]]. auto.
    + apply upd_nth_length.
    + intro j. rewrite nth_upd_nth. destruct (j =? k)%nat eqn:Ej; auto. right.
      destruct (k <? length raw)%nat; split; auto; replace j with k by lia; auto.
  - exists l, raw. repeat split; auto. symmetry. apply remove1_notin. rewrite valid_In. intros [A _].
    apply pos_none in E. auto.
Qed.

Lemma Replace_rep : forall l raw e y, rep l raw -> e <> 0 -> y <> 0 ->
  exists l' raw', List_Replace l e y = Ok (l', if ListSpec.mem e (valid raw) then 1 else 0) /\ rep l' raw' /\
    valid raw' = replace1 e y (valid raw) /\ length raw' = length raw.
Proof.
  intros l raw e y R He Hy. unfold List_Replace. rewrite (find_eq_rep _ _ _ (rep_wrep _ _ R)). simpl.
  rewrite mem_pos by auto. destruct (pos raw e) as [k|] eqn:E; simpl.
  - destruct (pos_nth _ _ _ E) as [E1 E2]. pose proof R as R0. destruct R as [p [r1 H]].
    destruct (set_same l raw k y p r1) as [a [B R']]; auto; try lia.
    rewrite B. simpl. exists (set_entry l a), (upd_nth raw k y). repeat split; auto.
    + rewrite valid_upd by auto. rewrite (valid_self raw k) by (auto; lia). rewrite E1.
      rewrite replace1_app; auto. rewrite valid_In. intros [A _].
      destruct (pos_split _ _ _ E) as [_ [C _]]. auto.
    + apply upd_nth_length.
  - exists l, raw. repeat split; auto. symmetry. apply replace1_notin. rewrite valid_In. intros [A _].
    apply pos_none in E. auto.
Qed.

Lemma Entry_rep : forall l raw i, wrep l raw -> List_Entry l (Z.of_nat i) = Ok (nth i (valid raw) 0).
Proof.
  intros l raw i R. destruct R as [p [r1 H]]. unfold List_Entry. rewrite (pars_rep _ _ _ _ _ H ltac:(lia)). simpl.
  destruct (Z.of_nat i >=? Z.of_nat (length (valid raw))) eqn:E.
  - rewrite nth_overflow by lia. auto.
  - destruct (rp_tail _ _ _ _ _ H) as [t Et].
    destruct (locate_ith_rep _ l l raw p r1 (Z.of_nat i) (entry l) t H ltac:(lia)) as [j [A B]]; auto; try lia.
    rewrite B. simpl. rewrite Z.eqb_refl. simpl. rewrite Nat2Z.id in A.
    destruct (vpos_split _ _ _ A) as [C _]. destruct (vpos_valid _ _ _ A) as [D _].
    rewrite (rd_rep l raw) by (try lia; exists p, r1; auto). rewrite Nat2Z.id. congruence.
Qed.

Lemma Remi_rep : forall l raw i, rep l raw ->
  exists l' raw', List_Remi l (Z.of_nat i) = Ok (l', if (i <? length (valid raw))%nat then 1 else 0) /\ rep l' raw' /\
    valid raw' = delete_at i (valid raw) /\ length raw' = length raw /\
    (forall j, nth j raw' 0 = nth j raw 0 \/ nth j raw' 0 = 0).
Proof.
  intros l raw i R. pose proof R as R0. destruct R as [p [r1 H]]. unfold List_Remi. rewrite (pars_rep _ _ _ _ _ H ltac:(lia)). simpl.
  destruct (Z.of_nat i >=? Z.of_nat (length (valid raw))) eqn:E.
  - replace (i <? length (valid raw))%nat with false by lia.
    exists l, raw. repeat split; auto. unfold delete_at. rewrite firstn_all2 by lia. rewrite skipn_all2 by lia. rewrite app_nil_r. auto.
  - replace (i <? length (valid raw))%nat with true by lia.
    destruct (rp_tail _ _ _ _ _ H) as [t Et].
    destruct (locate_ith_rep _ l l raw p r1 (Z.of_nat i) (entry l) t H ltac:(lia)) as [j [A B]]; auto; try lia.
    rewrite B. simpl. rewrite Z.eqb_refl. simpl. rewrite Nat2Z.id in A.
    destruct (vpos_split _ _ _ A) as [C1 [C2 _]]. destruct (vpos_valid _ _ _ A) as [_ [D1 [D2 _]]].
    destruct (blank_rep l raw j) as [l' [BB R']]; auto.
    rewrite BB. simpl. exists l', (upd_nth raw j 0). repeat split; auto.
    + rewrite valid_upd0 by auto. unfold delete_at. congruence.
    + apply upd_nth_length.
    + intro k. rewrite nth_upd_nth. destruct (k =? j)%nat; auto. destruct (j <? length raw)%nat; auto.
Qed.

Lemma Replacei_rep : forall l raw i y, rep l raw -> y <> 0 -> (i < length (valid raw))%nat ->
  exists l' raw', List_Replacei l (Z.of_nat i) y = Ok (l', 1) /\ rep l' raw' /\
    valid raw' = replace_at i y (valid raw) /\ length raw' = length raw.
Proof.
  intros l raw i y R Hy Hi. pose proof R as R0. destruct R as [p [r1 H]]. unfold List_Replacei. rewrite (pars_rep _ _ _ _ _ H ltac:(lia)). simpl.
  destruct (rp_tail _ _ _ _ _ H) as [t Et].
  destruct (locate_ith_rep _ l l raw p r1 (Z.of_nat i) (entry l) t H ltac:(lia)) as [j [A B]]; auto; try lia.
  rewrite B. simpl. rewrite Z.eqb_refl. simpl. rewrite Nat2Z.id in A.
  destruct (vpos_split _ _ _ A) as [C1 [C2 _]]. destruct (vpos_valid _ _ _ A) as [_ [D1 [D2 _]]].
  destruct (set_same l raw j y p r1) as [a [BB R']]; auto.
  rewrite BB. simpl. exists (set_entry l a), (upd_nth raw j y). repeat split; auto.
  - rewrite valid_upd by auto. unfold replace_at. congruence.
  - apply upd_nth_length.
Qed.

Lemma Contains_rep : forall l raw e, wrep l raw -> e <> 0 ->
  List_Contains l e = Ok (if ListSpec.mem e (valid raw) then 1 else 0).
Proof.
  intros. unfold List_Contains. rewrite (find_eq_rep _ _ _ H). simpl. rewrite mem_pos by auto.
  destruct (pos raw e); auto.
Qed.

Lemma locate_loop_spec : forall raw tail e, e <> 0 -> forall n ip ic,
  n = (length raw - ip)%nat -> (ip <= length raw)%nat ->
  locate_loop n (map Some raw ++ tail) (Z.of_nat ip) ic e =
  Ok (match index_of e (valid (skipn ip raw)) with Some i => ic + 1 + Z.of_nat i | None => -1 end).
Proof.
  intros raw tail e He. induction n; intros ip ic Hn Hip; simpl.
  - rewrite skipn_all2 by lia. auto.
  - rewrite (rd_map _ raw tail (Z.of_nat ip) 0) by lia. simpl. rewrite Nat2Z.id.
    assert (ES : skipn ip raw = nth ip raw 0 :: skipn (S ip) raw).
    { clear - Hn. revert raw Hn. induction ip; destruct raw; simpl; intros; try lia; auto.
      apply IHip. lia. }
    rewrite ES. specialize (IHn (S ip)). remember (skipn (S ip) raw) as rest eqn:ER.
    simpl. unfold isv at 1. unfold NULL.
    replace (Z.of_nat ip + 1) with (Z.of_nat (S ip)) by lia.
    destruct (nth ip raw 0 =? 0) eqn:E; simpl.
    + replace (nth ip raw 0 =? e) with false by lia. apply IHn; lia.
    + destruct (nth ip raw 0 =? e) eqn:E2. { f_equal. lia. }
      rewrite IHn by lia. unfold valid. destruct (index_of e (filter isv rest)); simpl; f_equal; lia.
Qed.

Lemma Locate_rep : forall l raw e, wrep l raw -> e <> 0 ->
  List_Locate l e = Ok (match index_of e (valid raw) with Some i => Z.of_nat i | None => -1 end).
Proof.
  intros l raw e R He. unfold List_Locate. rewrite (size_rep _ _ R). rewrite Nat2Z.id.
  destruct R as [p [r1 H]]. destruct (rp_tail _ _ _ _ _ H) as [t E]. rewrite E.
  change 0 with (Z.of_nat 0). rewrite locate_loop_spec by (auto; lia). simpl.
  destruct (index_of e (valid raw)); auto.
Qed.
