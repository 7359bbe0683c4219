(** Lemmas about the model of Hash.c. *)
From Coq Require Import ZArith List Lia Bool Arith ZifyBool ZifyNat Permutation.
From Verif Require Import Base BaseProofs HashModel HashSpec.
Import ListNotations.
Open Scope Z_scope.

(** ** Chains *)
Fixpoint seg (hp : heap) (p : Z) (l : list Z) (q : Z) : Prop :=
  match l with
  | [] => p = q
  | x :: t => p = x /\ x <> 0 /\ exists n, hp x = Some n /\ seg hp (hn_next n) t q
  end.

Definition kl (hp : heap) (x : Z) : option (list Z * Z) :=
  option_map (fun n => (hn_key n, hn_lock n)) (hp x).

Definition samekl (hp hp' : heap) : Prop := forall x, kl hp' x = kl hp x.

Lemma seg_frame : forall hp hp' l p q, (forall x, In x l -> hp' x = hp x) -> seg hp p l q -> seg hp' p l q.
Proof.
  induction l as [|x l IH]; simpl; intros p q F S; auto. destruct S as [A [B [n [C D]]]].
  split; auto. split; auto. exists n. split; [rewrite F; auto|]. apply IH; auto.
Qed.

Lemma seg_app : forall hp a b p q, seg hp p (a ++ b) q <-> exists m, seg hp p a m /\ seg hp m b q.
Proof.
  induction a as [|x a IH]; simpl; intros b p q.
  - split; [intros; exists p; auto|intros [m [-> H]]; auto].
  - split.
    + intros [A [B [n [C D]]]]. apply IH in D. destruct D as [m [D1 D2]]. exists m. split; auto. split; auto. split; auto. eauto.
    + intros [m [[A [B [n [C D]]]] E]]. split; auto. split; auto. exists n. split; auto. apply IH. eauto.
Qed.

Lemma seg_nz : forall hp l p q x, seg hp p l q -> In x l -> x <> 0 /\ exists n, hp x = Some n.
Proof.
  induction l as [|y l IH]; simpl; intros p q x S I; [tauto|]. destruct S as [A [B [n [C D]]]].
  destruct I as [I|I]; [subst; eauto|eapply IH; eauto].
Qed.

Lemma samekl_trans : forall a b c, samekl a b -> samekl b c -> samekl a c.
Proof. unfold samekl. intros. rewrite H0. auto. Qed.

Lemma samekl_set : forall hp e v n, hp e = Some n -> samekl hp (hupd hp e (Some (mkN v (hn_key n) (hn_lock n)))).
Proof. intros. intro x. unfold kl, hupd. destruct (x =? e) eqn:E; auto. apply Z.eqb_eq in E. subst. rewrite H. auto. Qed.

Lemma hupd_other : forall hp e n x, x <> e -> hupd hp e n x = hp x.
Proof. intros. unfold hupd. replace (x =? e) with false by lia. auto. Qed.
Lemma hupd_same : forall hp e n, hupd hp e n e = n.
Proof. intros. unfold hupd. rewrite Z.eqb_refl. auto. Qed.

(** Pointwise array facts. *)
Lemma rd_nth : forall (a : array Z) i x, rd a i = Ok x -> 0 <= i < Z.of_nat (length a).
Proof.
  unfold rd. intros. destruct (0 <=? i) eqn:E; [|discriminate].
  destruct (nth_error a (Z.to_nat i)) as [[y|]|] eqn:F; try discriminate.
  assert (Z.to_nat i < length a)%nat by (apply nth_error_Some; congruence). lia.
Qed.

Lemma wr_ok : forall (a : array Z) i x, 0 <= i < Z.of_nat (length a) ->
  exists a', wr a i x = Ok a' /\ length a' = length a /\ rd a' i = Ok x /\ (forall j, j <> i -> rd a' j = rd a j).
Proof.
  intros. unfold wr. replace ((0 <=? i) && (i <? Z.of_nat (length a))) with true by lia.
  eexists. split; [reflexivity|]. split; [apply upd_nth_length|]. unfold rd. split.
  - replace (0 <=? i) with true by lia. rewrite nth_error_upd_nth, Nat.eqb_refl.
    replace (Z.to_nat i <? length a)%nat with true by lia. auto.
  - intros j Hj. destruct (0 <=? j) eqn:E; auto. rewrite nth_error_upd_nth.
    replace (Z.to_nat j =? Z.to_nat i)%nat with false by lia. auto.
Qed.

Lemma last_split : forall (K : list Z), K <> [] -> K = removelast K ++ [last K 0].
Proof. intros. apply app_removelast_last. auto. Qed.

Lemma NoDup_app_inv : forall A (a b : list A), NoDup (a ++ b) -> NoDup a /\ NoDup b /\ (forall x, In x a -> ~ In x b).
Proof.
  induction a; simpl; intros b H; [repeat split; auto; constructor|].
  inversion H. subst. destruct (IHa b H3) as [A1 [A2 A3]]. repeat split; auto.
  - constructor; auto. intro. apply H2. apply in_or_app; auto.
  - intros x [X|X]; [subst; intro; apply H2; apply in_or_app; auto|auto].
Qed.

(** ** One chain in Enlarge *)
Lemma enl_chain_spec : forall st i nold mask, 0 <= i -> 0 < nold -> forall l fuel hp a ent prev K M top topM,
  (length l <= fuel)%nat -> seg hp ent l 0 ->
  rd a i = Ok top -> seg hp top K ent -> prev = last K 0 ->
  rd a (i + nold) = Ok topM -> seg hp topM M 0 -> NoDup (K ++ l ++ M) ->
  (forall x n, In x l -> hp x = Some n -> Z.land (hash_fun (hn_key n)) mask = if st x : bool then i else i + nold) ->
  exists hp' a' tl tm, enl_chain fuel hp a i nold mask ent prev = Ok (hp', a') /\
    rd a' i = Ok tl /\ seg hp' tl (K ++ filter st l) 0 /\
    rd a' (i + nold) = Ok tm /\ seg hp' tm (rev (filter (fun x => negb (st x)) l) ++ M) 0 /\
    (forall x, ~ In x (K ++ l ++ M) -> hp' x = hp x) /\ samekl hp hp' /\ length a' = length a /\
    (forall j, j <> i -> j <> i + nold -> rd a' j = rd a j).
Proof.
  intros st i nold mask Hi Hn. induction l as [|x l IH]; intros fuel hp a ent prev K M top topM Hf S R1 SK Hp R2 SM ND HJ.
  - simpl in S. subst ent. exists hp, a, top, topM. simpl. rewrite app_nil_r. destruct fuel; simpl; repeat split; auto.
  - simpl in S. destruct S as [-> [Hx [n [Hn1 S]]]]. destruct fuel; [simpl in Hf; lia|]. cbn [enl_chain]. unfold NULL.
    replace (x =? 0) with false by lia. unfold hget at 1. rewrite Hn1. cbn [bind].
    pose proof (HJ x n (or_introl eq_refl) Hn1) as J. rewrite J.
    pose proof (seg_nz hp (x :: l)) as NZ.
    simpl filter. destruct (st x) eqn:Est; simpl negb.
    + rewrite Z.eqb_refl. cbn [negb].
      destruct (IH fuel hp a (hn_next n) x (K ++ [x]) M top topM) as [hp' [a' [tl [tm [E [A1 [A2 [A3 [A4 [A5 [A6 [A7 A8]]]]]]]]]]]]; auto.
      * simpl in Hf. lia.
      * apply seg_app. exists x. split; auto. simpl. split; auto. split; auto. eauto.
      * rewrite last_last. auto.
      * rewrite <- app_assoc. auto.
      * intros. eapply HJ; eauto. right; auto.
      * exists hp', a', tl, tm. split; auto. split; auto. rewrite <- app_assoc in A2. split; auto. split; auto. split; auto.
        split; [|split; auto]. intros y Hy. apply A5. intro. apply Hy. rewrite <- app_assoc in H. auto.
    + replace (i =? i + nold) with false by lia. cbn [negb]. rewrite Z.eqb_refl. cbn [negb].
      rewrite R2. cbn [bind]. unfold hset_next at 1. unfold hget at 1. rewrite Hn1. cbn [bind].
      destruct (NoDup_app_inv _ _ _ ND) as [NK [NxlM KxlM]].
      inversion NxlM as [|? ? NxlM1 NxlM2]. subst.
      assert (XK : ~ In x K) by (intro X; apply (KxlM x X); left; auto).
      assert (Xl : ~ In x l) by (intro; apply NxlM1; apply in_or_app; auto).
      assert (XM : ~ In x M) by (intro; apply NxlM1; apply in_or_app; auto).
      set (hp1 := hupd hp x (Some (mkN topM (hn_key n) (hn_lock n)))).
      destruct (wr_ok a (i + nold) x (rd_nth _ _ _ R2)) as [a1 [W1 [L1 [R1' F1]]]].
      rewrite W1. cbn [bind].
      assert (KL1 : samekl hp hp1) by (apply samekl_set; auto).
      assert (Fr1 : forall y, y <> x -> hp1 y = hp y) by (intros; apply hupd_other; auto).
      assert (SM1 : seg hp1 x (x :: M) 0).
      { simpl. split; auto. split; auto. eexists. split; [apply hupd_same|]. simpl. eapply seg_frame; [|exact SM].
        intros. apply Fr1. intro; subst; auto. }
      assert (Sl1 : seg hp1 (hn_next n) l 0) by (eapply seg_frame; [|exact S]; intros; apply Fr1; intro; subst; auto).
      assert (SK1 : seg hp1 top K x) by (eapply seg_frame; [|exact SK]; intros; apply Fr1; intro; subst; auto).
      assert (HJ1 : forall y m, In y l -> hp1 y = Some m -> Z.land (hash_fun (hn_key m)) mask = if st y then i else i + nold).
      { intros y m Hy Hm. rewrite Fr1 in Hm by (intro; subst; auto). eapply HJ; eauto. right; auto. }
      assert (ND' : NoDup (K ++ l ++ x :: M)).
      { eapply Permutation_NoDup; [|exact ND]. apply Permutation_app_head. apply Permutation_middle. }
      destruct (list_eq_dec Z.eq_dec K []) as [EK|EK].
      * subst K. simpl in SK. subst top. cbn [last]. rewrite Z.eqb_refl. cbn [negb].
        destruct (wr_ok a1 i (hn_next n)) as [a2 [W2 [L2 [R2' F2]]]].
        { rewrite L1. apply (rd_nth _ _ _ R1). }
        rewrite W2. cbn [bind].
        destruct (IH fuel hp1 a2 (hn_next n) 0 [] (x :: M) (hn_next n) x) as [hp' [a' [tl [tm [E [A1 [A2 [A3 [A4 [A5 [A6 [A7 A8]]]]]]]]]]]]; auto.
        { simpl in Hf; lia. }
        { simpl. auto. }
        { rewrite F2 by lia. auto. }
        exists hp', a', tl, tm. split; auto. split; auto. split; auto. split; auto.
        split. { simpl. rewrite <- app_assoc. auto. }
        split. { intros y Hy. rewrite A5. apply Fr1. intro; subst; apply Hy; left; auto.
                 intro Hy2. apply Hy. simpl in *. apply in_app_or in Hy2. destruct Hy2 as [?|[?|?]]; auto; right; apply in_or_app; auto. }
        split. { eapply samekl_trans; eauto. }
        split. { congruence. }
        intros j J1 J2. rewrite A8, F2, F1 by lia. auto.
      * pose proof (last_split K EK) as LS. set (prev := last K 0) in *. set (K' := removelast K) in *.
        rewrite LS in SK1. apply seg_app in SK1. destruct SK1 as [m [SKa SKb]]. simpl in SKb.
        destruct SKb as [-> [Hpnz [np [Hnp Hnp2]]]].
        replace (prev =? 0) with false by lia. cbn [negb]. unfold hset_next at 1. unfold hget at 1. rewrite Hnp. cbn [bind].
        set (hp2 := hupd hp1 prev (Some (mkN (hn_next n) (hn_key np) (hn_lock np)))).
        assert (PK : In prev K) by (rewrite LS; apply in_or_app; right; left; auto).
        assert (Fr2 : forall y, y <> prev -> hp2 y = hp1 y) by (intros; apply hupd_other; auto).
        assert (PK' : ~ In prev K').
        { rewrite LS in NK. intro X. apply NoDup_app_inv in NK. destruct NK as [_ [_ NK]]. apply (NK prev X). left; auto. }
        assert (Pl : ~ In prev l) by (intro X; apply (KxlM prev PK); right; apply in_or_app; auto).
        assert (PM : ~ In prev (x :: M)).
        { intro X. apply (KxlM prev PK). destruct X; [left; auto|right; apply in_or_app; auto]. }
        destruct (IH fuel hp2 a1 (hn_next n) prev K (x :: M) top x) as [hp' [a' [tl [tm [E [A1 [A2 [A3 [A4 [A5 [A6 [A7 A8]]]]]]]]]]]]; auto.
        { simpl in Hf; lia. }
        { eapply seg_frame; [|exact Sl1]. intros y Hy. apply Fr2. intro X; rewrite X in Hy; auto. }
        { rewrite F1 by lia. auto. }
        { rewrite LS. apply seg_app. exists prev. split.
          - eapply seg_frame; [|exact SKa]. intros. apply Fr2. intro X. rewrite X in H. auto.
          - simpl. split; auto. split; auto. eexists. split; [apply hupd_same|]. auto. }
        { eapply seg_frame; [|exact SM1]. intros. apply Fr2. intro X. rewrite X in H. auto. }
        { intros y my Hy Hmy. rewrite Fr2 in Hmy by (intro X; rewrite X in Hy; auto). eapply HJ1; eauto. }
        exists hp', a', tl, tm. split; auto. split; auto. split; auto. split; auto.
        split. { simpl. rewrite <- app_assoc. auto. }
        split. { intros y Hy. rewrite A5. rewrite Fr2, Fr1; auto.
                 - intro; subst y; apply Hy; apply in_or_app; right; left; auto.
                 - intro X; rewrite X in Hy; apply Hy; apply in_or_app; left; auto.
                 - intro Hy2. apply Hy. apply in_app_or in Hy2. apply in_or_app. destruct Hy2 as [?|Hy2]; auto. right. simpl.
                   apply in_app_or in Hy2. destruct Hy2 as [?|[?|?]]; auto; right; apply in_or_app; auto. }
        split. { eapply samekl_trans; [exact KL1|]. eapply samekl_trans; [|exact A6]. apply samekl_set; auto. }
        split. { congruence. }
        intros j J1 J2. rewrite A8, F1 by lia. auto.
Qed.

(** ** All chains in Enlarge *)
Definition stay (hp : heap) (mask : Z) (j : nat) (x : Z) : bool :=
  match hp x with Some n => Z.land (hash_fun (hn_key n)) mask =? Z.of_nat j | None => false end.

Lemma stay_kl : forall hp hp' mask j x, kl hp' x = kl hp x -> stay hp' mask j x = stay hp mask j x.
Proof.
  unfold kl, stay. intros. destruct (hp' x) as [[? ? ?]|], (hp x) as [[? ? ?]|]; simpl in *; try discriminate; auto.
  inversion H. auto.
Qed.

Definition bins_ok (hp : heap) (a : array Z) (bin : nat -> list Z) (lo n : nat) : Prop :=
  forall j, (lo <= j < lo + n)%nat -> exists t, rd a (Z.of_nat j) = Ok t /\ seg hp t (bin j) 0.

Lemma filter_ext_in' : forall A (f g : A -> bool) l, (forall x, In x l -> f x = g x) -> filter f l = filter g l.
Proof. induction l; simpl; intros; auto. rewrite H by auto. rewrite IHl; auto. Qed.

Lemma enl_bins_spec : forall (nold : nat) mask fuel bin, (0 < nold)%nat ->
  (forall i j x, (i < nold)%nat -> (j < nold)%nat -> In x (bin i) -> In x (bin j) -> i = j) ->
  (forall i, (i < nold)%nat -> NoDup (bin i) /\ (length (bin i) <= fuel)%nat) ->
  forall hp0, (forall i x n, (i < nold)%nat -> In x (bin i) -> hp0 x = Some n ->
     Z.land (hash_fun (hn_key n)) mask = Z.of_nat i \/ Z.land (hash_fun (hn_key n)) mask = Z.of_nat (i + nold)) ->
  forall n i hp a, (i + n = nold)%nat -> length a = (2 * nold)%nat -> samekl hp0 hp ->
  bins_ok hp a (fun j => if (j <? i)%nat then filter (stay hp0 mask j) (bin j) else bin j) 0 nold ->
  bins_ok hp a (fun j => rev (filter (fun x => negb (stay hp0 mask (j - nold) x)) (bin (j - nold)%nat))) nold i ->
  exists hp' a', enl_bins n fuel hp a (Z.of_nat i) (Z.of_nat nold) mask = Ok (hp', a') /\ length a' = (2 * nold)%nat /\
    samekl hp0 hp' /\
    bins_ok hp' a' (fun j => filter (stay hp0 mask j) (bin j)) 0 nold /\
    bins_ok hp' a' (fun j => rev (filter (fun x => negb (stay hp0 mask (j - nold) x)) (bin (j - nold)%nat))) nold nold /\
    (forall x, (forall j, (j < nold)%nat -> ~ In x (bin j)) -> hp' x = hp x).
Proof.
  intros nold mask fuel bin Hpos Disj ND hp0 HJ. induction n; intros i hp a Hin Hl KL B1 B2.
  - exists hp, a. simpl. replace i with nold in * by lia. repeat split; auto.
    intros j Hj. destruct (B1 j Hj) as [t [T1 T2]]. exists t. split; auto. replace (j <? nold)%nat with true in T2 by lia. auto.
  - cbn [enl_bins]. destruct (B1 i ltac:(lia)) as [t [T1 T2]]. rewrite Nat.ltb_irrefl in T2. rewrite T1. cbn [bind].
    replace (Z.of_nat i + Z.of_nat nold) with (Z.of_nat (i + nold)) by lia.
    destruct (wr_ok a (Z.of_nat (i + nold)) NULL ltac:(lia)) as [a1 [W1 [L1 [R1 F1]]]]. rewrite W1. cbn [bind].
    destruct (ND i ltac:(lia)) as [NDi Leni].
    destruct (enl_chain_spec (stay hp0 mask i) (Z.of_nat i) (Z.of_nat nold) mask ltac:(lia) ltac:(lia)
       (bin i) fuel hp a1 t NULL [] [] t NULL) as [hp' [a' [tl [tm [E [A1 [A2 [A3 [A4 [A5 [A6 [A7 A8]]]]]]]]]]]]; auto.
    { rewrite F1 by lia. auto. }
    { simpl. auto. }
    { replace (Z.of_nat i + Z.of_nat nold) with (Z.of_nat (i + nold)) by lia. auto. }
    { simpl. auto. }
    { simpl. rewrite app_nil_r. auto. }
    { intros x m Hx Hm. assert (KLx := KL x). unfold kl in KLx. rewrite Hm in KLx.
      destruct (hp0 x) as [m0|] eqn:E0; simpl in KLx; [|discriminate]. inversion KLx as [[K1 K2]].
      unfold stay. rewrite E0, K1. destruct (HJ i x m0 ltac:(lia) Hx E0) as [J|J]; rewrite J.
      - rewrite Z.eqb_refl. auto.
      - replace (Z.of_nat (i + nold) =? Z.of_nat i) with false by lia. lia. }
    replace (Z.of_nat i + Z.of_nat nold) with (Z.of_nat (i + nold)) in * by lia.
    rewrite E. cbn [bind]. replace (Z.of_nat i + 1) with (Z.of_nat (S i)) by lia.
    assert (Fr : forall x, ~ In x (bin i) -> hp' x = hp x).
    { intros. apply A5. simpl. rewrite app_nil_r. auto. }
    destruct (IHn (S i) hp' a') as [hp2 [a2 [E2 [Q1 [Q2 [Q3 [Q4 Q5]]]]]]]; try lia.
    + eapply samekl_trans; eauto.
    + intros j Hj. simpl in Hj. destruct (Nat.eq_dec j i) as [->|Nj].
      * exists tl. split; auto. replace (i <? S i)%nat with true by lia. auto.
      * destruct (B1 j Hj) as [tj [X1 X2]]. exists tj. rewrite A8, F1 by lia. split; auto.
        replace (j <? S i)%nat with (j <? i)%nat by lia.
        eapply seg_frame; [|exact X2]. intros x Hx. apply Fr. intro Y.
        apply Nj. apply (Disj j i x); auto; try lia. destruct (j <? i)%nat; auto. apply filter_In in Hx. tauto.
    + intros j Hj. destruct (Nat.eq_dec j (i + nold)) as [->|Nj].
      * exists tm. split; auto. replace (i + nold - nold)%nat with i by lia. rewrite app_nil_r in A4. auto.
      * destruct (B2 j ltac:(lia)) as [tj [X1 X2]]. exists tj. rewrite A8, F1 by lia. split; auto.
        eapply seg_frame; [|exact X2]. intros x Hx. apply Fr. intro Y.
        rewrite <- in_rev in Hx. apply filter_In in Hx. destruct Hx as [Hx _].
        assert (j - nold = i)%nat by (apply (Disj (j - nold)%nat i x); auto; lia). lia.
    + exists hp2, a2. split; auto. split; auto. split; auto. split; auto. split; auto.
      intros x Hx. rewrite Q5 by auto. apply Fr. apply Hx. lia.
Qed.

(** ** One chain in Remove_Unused *)
Definition lockd (hp : heap) (x : Z) : bool :=
  match hp x with Some n => Hash_IsLocked (hn_lock n) | None => false end.

Lemma rmu_chain_spec : forall lk i, 0 <= i -> forall l fuel hp a ent prev K top count,
  (length l <= fuel)%nat -> seg hp ent l 0 ->
  rd a i = Ok top -> seg hp top K ent -> prev = last K 0 -> NoDup (K ++ l) ->
  (forall x n, In x l -> hp x = Some n -> Hash_IsLocked (hn_lock n) = lk x) ->
  exists hp' a' tl, rmu_chain fuel hp a i ent prev count =
      Ok (hp', a', count + Z.of_nat (length (filter (fun x => negb (lk x)) l))) /\
    rd a' i = Ok tl /\ seg hp' tl (K ++ filter lk l) 0 /\
    (forall x, ~ In x (K ++ l) -> hp' x = hp x) /\ (forall x, ~ In x (filter (fun x => negb (lk x)) l) -> kl hp' x = kl hp x) /\
    length a' = length a /\ (forall j, j <> i -> rd a' j = rd a j).
Proof.
  intros lk i Hi. induction l as [|x l IH]; intros fuel hp a ent prev K top count Hf S R1 SK Hp ND HJ.
  - simpl in S. subst ent. exists hp, a, top. simpl. rewrite app_nil_r. replace (count + Z.of_nat 0) with count by lia.
    destruct fuel; simpl; repeat split; auto.
  - simpl in S. destruct S as [-> [Hx [n [Hn1 S]]]]. destruct fuel; [simpl in Hf; lia|]. cbn [rmu_chain]. unfold NULL.
    replace (x =? 0) with false by lia. unfold hget at 1. rewrite Hn1. cbn [bind].
    rewrite (HJ x n (or_introl eq_refl) Hn1). simpl filter. destruct (lk x) eqn:Est; cbn [negb].
    + destruct (IH fuel hp a (hn_next n) x (K ++ [x]) top count) as [hp' [a' [tl [E [A1 [A2 [A3 [A4 [A5 A6]]]]]]]]]; auto.
      * simpl in Hf. lia.
      * apply seg_app. exists x. split; auto. simpl. split; auto. split; auto. eauto.
      * rewrite last_last. auto.
      * rewrite <- app_assoc. auto.
      * intros. eapply HJ; eauto. right; auto.
      * exists hp', a', tl. rewrite <- app_assoc in A2, A3. repeat split; auto.
    + destruct (NoDup_app_inv _ _ _ ND) as [NK [Nxl Kxl]]. inversion Nxl as [|? ? Xl Nl]. subst.
      assert (XK : ~ In x K) by (intro X; apply (Kxl x X); left; auto).
      assert (NDt : NoDup (K ++ l)) by (eapply NoDup_remove_1; eauto).
      assert (Sl : forall hp1, (forall y, y <> x -> ~ In y K -> hp1 y = hp y) -> seg hp1 (hn_next n) l 0).
      { intros hp1 F. eapply seg_frame; [|exact S]. intros y Hy. apply F. intro; subst; auto. intro; apply (Kxl y H); right; auto. }
      destruct (list_eq_dec Z.eq_dec K []) as [EK|EK].
      * subst K. simpl in SK. subst top. cbn [last]. rewrite Z.eqb_refl. cbn [negb].
        destruct (wr_ok a i (hn_next n) (rd_nth _ _ _ R1)) as [a2 [W2 [L2 [R2' F2]]]]. rewrite W2. cbn [bind].
        destruct (IH fuel (hupd hp x None) a2 (hn_next n) 0 [] (hn_next n) (count + 1)) as [hp' [a' [tl [E [A1 [A2 [A3 [A4 [A5 A6]]]]]]]]]; auto.
        { simpl in Hf; lia. }
        { apply Sl. intros. apply hupd_other; auto. }
        { simpl; auto. }
        { intros y m Hy Hm. rewrite hupd_other in Hm by (intro; subst; auto). eapply HJ; eauto. right; auto. }
        exists hp', a', tl. split. { rewrite E. do 2 f_equal. simpl. lia. }
        split; auto. split; auto.
        split. { intros y Hy. rewrite A3 by (simpl in *; tauto). apply hupd_other. intro; subst; apply Hy; left; auto. }
        split. { intros y Hy. simpl in Hy. rewrite A4 by tauto. unfold kl. rewrite hupd_other; auto. }
        split; [congruence|]. intros. rewrite A6, F2; auto.
      * pose proof (last_split K EK) as LS. set (prev := last K 0) in *. set (K' := removelast K) in *.
        rewrite LS in SK. apply seg_app in SK. destruct SK as [m [SKa SKb]]. simpl in SKb.
        destruct SKb as [-> [Hpnz [np [Hnp Hnp2]]]].
        replace (prev =? 0) with false by lia. cbn [negb]. unfold hset_next at 1. unfold hget at 1. rewrite Hnp. cbn [bind].
        set (hp2 := hupd hp prev (Some (mkN (hn_next n) (hn_key np) (hn_lock np)))).
        assert (PK : In prev K) by (rewrite LS; apply in_or_app; right; left; auto).
        assert (Px : prev <> x) by (intro X; rewrite X in PK; auto).
        assert (Fr2 : forall y, y <> prev -> hp2 y = hp y) by (intros; apply hupd_other; auto).
        assert (PK' : ~ In prev K').
        { rewrite LS in NK. intro X. apply NoDup_app_inv in NK. destruct NK as [_ [_ NK]]. apply (NK prev X). left; auto. }
        destruct (IH fuel (hupd hp2 x None) a (hn_next n) prev K top (count + 1)) as [hp' [a' [tl [E [A1 [A2 [A3 [A4 [A5 A6]]]]]]]]]; auto.
        { simpl in Hf; lia. }
        { apply Sl. intros. rewrite hupd_other by auto. apply Fr2. intro X; rewrite X in H0; auto. }
        { rewrite LS. apply seg_app. exists prev. split.
          - eapply seg_frame; [|exact SKa]. intros. rewrite hupd_other. apply Fr2. intro X. rewrite X in H. auto.
            intro X. rewrite X in H. apply XK. rewrite LS. apply in_or_app; auto.
          - simpl. split; auto. split; auto. eexists. split; [rewrite hupd_other by auto; apply hupd_same|]. auto. }
        { intros y my Hy Hmy. rewrite hupd_other in Hmy by (intro X; rewrite X in Hy; auto).
          rewrite Fr2 in Hmy by (intro X; rewrite X in Hy; apply (Kxl prev PK); right; auto). eapply HJ; eauto. right; auto. }
        exists hp', a', tl. split. { rewrite E. do 2 f_equal. simpl. lia. }
        split; auto. split; auto.
        split. { intros y Hy. rewrite A3. rewrite hupd_other. apply Fr2.
                 - intro X; rewrite X in Hy; apply Hy; apply in_or_app; left; auto.
                 - intro; subst y; apply Hy; apply in_or_app; right; left; auto.
                 - intro X; apply Hy; apply in_app_or in X; apply in_or_app; simpl; tauto. }
        split. { intros y Hy. simpl in Hy. rewrite A4 by tauto. unfold kl at 1. rewrite hupd_other by auto.
                 assert (KLs : samekl hp hp2) by (apply samekl_set; auto). apply KLs. }
        split; [congruence|]. intros. rewrite A6; auto.
Qed.

Lemma rmu_bins_spec : forall (size : nat) fuel bin hp0,
  (forall i j x, (i < size)%nat -> (j < size)%nat -> In x (bin i) -> In x (bin j) -> i = j) ->
  (forall i, (i < size)%nat -> NoDup (bin i) /\ (length (bin i) <= fuel)%nat) ->
  forall n i hp a count, (i + n = size)%nat -> length a = size ->
  (forall j x, (i <= j < size)%nat -> In x (bin j) -> kl hp x = kl hp0 x) ->
  bins_ok hp a (fun j => if (j <? i)%nat then filter (lockd hp0) (bin j) else bin j) 0 size ->
  exists hp' a', rmu_bins n fuel hp a (Z.of_nat i) count =
     Ok (hp', a', count + Z.of_nat (length (flat_map (fun j => filter (fun x => negb (lockd hp0 x)) (bin j)) (seq i n)))) /\
    length a' = size /\ bins_ok hp' a' (fun j => filter (lockd hp0) (bin j)) 0 size /\
    (forall x, (forall j, (i <= j < size)%nat -> In x (bin j) -> lockd hp0 x = true) -> kl hp' x = kl hp x).
Proof.
  intros size fuel bin hp0 Disj ND. induction n; intros i hp a count Hin Hl KL B1.
  - exists hp, a. simpl. replace (count + Z.of_nat 0) with count by lia. repeat split; auto.
    intros j Hj. destruct (B1 j Hj) as [t [T1 T2]]. exists t. split; auto. replace (j <? i)%nat with true in T2 by lia. auto.
  - cbn [rmu_bins]. destruct (B1 i ltac:(lia)) as [t [T1 T2]]. rewrite Nat.ltb_irrefl in T2. rewrite T1. cbn [bind].
    destruct (ND i ltac:(lia)) as [NDi Leni].
    destruct (rmu_chain_spec (lockd hp0) (Z.of_nat i) ltac:(lia)
       (bin i) fuel hp a t NULL [] t count) as [hp' [a' [tl [E [A1 [A2 [A3 [A4 [A5 A6]]]]]]]]]; auto.
    { simpl. auto. }
    { intros x m Hx Hm. assert (KLx := KL i x ltac:(lia) Hx). unfold kl in KLx. rewrite Hm in KLx.
      unfold lockd. destruct (hp0 x) as [m0|]; simpl in KLx; [|discriminate]. inversion KLx. congruence. }
    rewrite E. cbn [bind]. replace (Z.of_nat i + 1) with (Z.of_nat (S i)) by lia. simpl in A3.
    destruct (IHn (S i) hp' a' (count + Z.of_nat (length (filter (fun x => negb (lockd hp0 x)) (bin i))))) as [hp2 [a2 [E2 [Q1 [Q2 Q3]]]]]; try lia.
    + intros j x Hj Hx. rewrite <- (KL j x) by (auto; lia). apply A4. intro Y. apply filter_In in Y. destruct Y as [Y _].
      assert (i = j) by (apply (Disj i j x); auto; lia). lia.
    + intros j Hj. simpl in Hj. destruct (Nat.eq_dec j i) as [->|Nj].
      * exists tl. split; auto. replace (i <? S i)%nat with true by lia. auto.
      * destruct (B1 j Hj) as [tj [X1 X2]]. exists tj. rewrite A6 by lia. split; auto.
        replace (j <? S i)%nat with (j <? i)%nat by lia.
        eapply seg_frame; [|exact X2]. intros x Hx. apply A3. intro Y.
        apply Nj. apply (Disj j i x); auto; try lia. destruct (j <? i)%nat; auto. apply filter_In in Hx. tauto.
    + exists hp2, a2. rewrite E2. split; [|split; auto; split; auto].
      * do 2 f_equal. simpl. rewrite app_length. lia.
      * intros x Hx. rewrite Q3. apply A4. intro Y. apply filter_In in Y. destruct Y as [Y1 Y2].
        rewrite (Hx i ltac:(lia) Y1) in Y2. discriminate.
        intros j Hj Hxj. apply (Hx j); auto; lia.
Qed.
