(** Protocols: programs of all ranks that fit together, and their composition. *)
From Coq Require Import ZArith List Lia Bool Arith ZifyBool ZifyNat Sorting.Sorted.
From Verif Require Import Base BaseProofs CommModel CommProofs.
Import ListNotations.
Open Scope Z_scope.

Definition within (lo hi : Z) (tr : trace) : Prop := forall x, In x tr -> lo <= fst x < hi.

(** The ranks run [ps] in the phases [lo..hi-1] and end with [res]. *)
Definition protocol {R} (n lo hi : Z) (ps : Z -> prog R) (res : Z -> R) : Prop :=
  exists tr, matched n tr /\ (forall p, on n p -> within lo hi (tr p)) /\ forall p, on n p -> follows n p (ps p) (tr p) (res p).

(** Every execution under any schedule is bounded, and where it cannot go on for
    sure all ranks have ended with their results and no message is left. *)
Definition never_stuck_with {R} (n : Z) (ps : Z -> prog R) (res : Z -> R) : Prop :=
  exists N, forall k w, exec n k (init ps) w -> (k <= N)%nat /\ (finished n w res \/ exists w', sure n w w').

Theorem protocol_runs : forall R n lo hi (ps : Z -> prog R) res, 0 < n -> protocol n lo hi ps res -> never_stuck_with n ps res.
Proof. intros R n lo hi ps res Hn (tr & M & _ & F). exists (left n tr). apply never_stuck; auto. Qed.

Lemma follows_bind : forall A B n p (a : prog A) (f : A -> prog B) t1 r1 t2 r2, follows n p a t1 r1 -> follows n p (f r1) t2 r2 -> follows n p (pbind a f) (t1 ++ t2) r2.
Proof. intros A B n p a f t1 r1 t2 r2 H. revert t2 r2. induction H; intros t2 r2 H2; cbn [pbind app]; auto; constructor; auto. Qed.

Lemma sends_app : forall q a b, sends q (a ++ b) = sends q a ++ sends q b.
Proof. intros. unfold sends. apply flat_map_app. Qed.
Lemma recvs_app : forall q a b, recvs q (a ++ b) = recvs q a ++ recvs q b.
Proof. intros. unfold recvs. apply flat_map_app. Qed.
Lemma colls_app : forall a b, colls (a ++ b) = colls a ++ colls b.
Proof. intros. unfold colls. apply flat_map_app. Qed.

Lemma sorted_app : forall A (P : A -> A -> Prop) a b, StronglySorted P a -> StronglySorted P b -> (forall x y, In x a -> In y b -> P x y) -> StronglySorted P (a ++ b).
Proof.
  intros A P a b Ha Hb H. induction a as [|x a IH]; cbn [app]; auto. inversion Ha; subst. constructor. apply IH; auto. intros. apply H; cbn; auto. apply Forall_app. split; auto. apply Forall_forall. intros y Hy. apply H; cbn; auto.
Qed.
Lemma orderly_app : forall n p a b, orderly n p a -> orderly n p b -> (forall x y, In x a -> In y b -> before n p x y) -> orderly n p (a ++ b).
Proof. intros n p a b [A1 A2] [B1 B2] H. split. apply sorted_app; auto. apply Forall_app. auto. Qed.

Lemma protocol_ret : forall R n lo hi (r : Z -> R), protocol n lo hi (fun p => Ret (r p)) r.
Proof.
  intros R n lo hi r. exists (fun _ => []). split; [constructor; auto|split]. intros p _. split; constructor. intros p _ x []. intros p _. constructor.
Qed.
Lemma protocol_bind : forall A B n lo mid hi (ps : Z -> prog A) ra (f : Z -> A -> prog B) rb, lo <= mid <= hi -> protocol n lo mid ps ra -> protocol n mid hi (fun p => f p (ra p)) rb -> protocol n lo hi (fun p => pbind (ps p) (f p)) rb.
Proof.
  intros A B n lo mid hi ps ra f rb Hb (t1 & [O1 P1 C1] & W1 & F1) (t2 & [O2 P2 C2] & W2 & F2). exists (fun p => t1 p ++ t2 p). split; [constructor|split].
  - intros p Hp. apply orderly_app; auto. intros x y Hx Hy. left. specialize (W1 p Hp x Hx). specialize (W2 p Hp y Hy). lia.
  - intros p q Hp Hq. rewrite sends_app, recvs_app, P1, P2; auto.
  - intros p q Hp Hq. rewrite !colls_app. f_equal; auto.
  - intros p Hp x Hx. apply in_app_iff in Hx. destruct Hx as [Hx|Hx]. specialize (W1 p Hp x Hx). lia. specialize (W2 p Hp x Hx). lia.
  - intros p Hp. eapply follows_bind; eauto.
Qed.
Lemma protocol_ext : forall R n lo hi (ps qs : Z -> prog R) r, (forall p, on n p -> ps p = qs p) -> protocol n lo hi qs r -> protocol n lo hi ps r.
Proof. intros R n lo hi ps qs r E (t & M & W & F). exists t. split; auto. split; auto. intros p Hp. rewrite E; auto. Qed.
Lemma protocol_res : forall R n lo hi (ps : Z -> prog R) r r', (forall p, on n p -> r p = r' p) -> protocol n lo hi ps r -> protocol n lo hi ps r'.
Proof. intros R n lo hi ps r r' E (t & M & W & F). exists t. split; auto. split; auto. intros p Hp. rewrite <- E; auto. Qed.
Lemma protocol_lift : forall A R n lo hi (x : Z -> result A) (v : Z -> A) (f : Z -> A -> prog R) r, (forall p, on n p -> x p = Ok (v p)) -> protocol n lo hi (fun p => f p (v p)) r -> protocol n lo hi (fun p => lift (x p) (f p)) r.
Proof. intros A R n lo hi x v f r E H. eapply protocol_ext; [|exact H]. intros p Hp. cbv beta. rewrite E by auto. reflexivity. Qed.

Lemma protocol_col : forall R n lo hi (x : Z -> list Z) (k : Z -> list (list Z) -> prog R) r, lo + 1 <= hi -> protocol n (lo + 1) hi (fun p => k p (map x (ranks n))) r -> protocol n lo hi (fun p => Col (x p) (k p)) r.
Proof.
  intros R n lo hi x k r Hb H. apply protocol_ext with (qs := fun p => pbind (Col (x p) Ret) (k p)). reflexivity.
  eapply (protocol_bind _ _ n lo (lo + 1) hi _ (fun _ => map x (ranks n))); [lia| |exact H].
  exists (fun _ => [(lo, OCol (map x (ranks n)))]). split; [constructor; auto|split].
  - intros p Hp. split; repeat constructor.
  - intros p Hp y [<-|[]]. cbn. lia.
  - intros p Hp. constructor. constructor. 2: unfold ranks; rewrite !map_length, seq_length; auto.
    unfold ranks, on in *. rewrite map_map. rewrite (nth_indep _ [] (x (Z.of_nat 0))) by (rewrite map_length, seq_length; lia). rewrite (map_nth (fun i => x (Z.of_nat i))), seq_nth by lia. f_equal. lia.
Qed.

(** ** Pairwise exchange *)
Section Exchange.
  Variable n : Z.
  (** Messages (tag, contents) from the first rank to the second. *)
  Variable msgs : Z -> Z -> list (Z * msg).
  Definition osend (ph q : Z) (l : list (Z * msg)) : trace := map (fun x => (ph, OSnd q (fst x) (snd x))) l.
  Definition orecv (ph q : Z) (l : list (Z * msg)) : trace := map (fun x => (ph, ORcv q (fst x) (snd x))) l.
  Definition pairt (ph p i : Z) : trace :=
    if p <? i then osend ph i (msgs p i) ++ orecv ph i (msgs i p) else if i <? p then orecv ph i (msgs i p) ++ osend ph i (msgs p i) else [].

  Lemma osend_in : forall ph q l x, In x (osend ph q l) -> exists m, x = (ph, OSnd q (fst m) (snd m)).
  Proof. intros ph q l x H. apply in_map_iff in H. destruct H as (m & <- & _). eauto. Qed.
  Lemma orecv_in : forall ph q l x, In x (orecv ph q l) -> exists m, x = (ph, ORcv q (fst m) (snd m)).
  Proof. intros ph q l x H. apply in_map_iff in H. destruct H as (m & <- & _). eauto. Qed.
  Lemma pairt_in : forall ph p i x, In x (pairt ph p i) -> p <> i /\ fst x = ph /\ exists t m, snd x = OSnd i t m \/ snd x = ORcv i t m.
  Proof.
    intros ph p i x H. unfold pairt in H. destruct (Z.ltb_spec p i); [|destruct (Z.ltb_spec i p)]; try contradiction; apply in_app_iff in H; (split; [lia|]); destruct H as [H|H]; (apply osend_in in H || apply orecv_in in H); destruct H as (m & ->); cbn; eauto.
  Qed.
  Lemma pairt_orderly : forall ph p i, on n i -> orderly n p (pairt ph p i).
  Proof.
    intros ph p i Hi. assert (LS : forall l, p <> i -> orderly n p (osend ph i l)). { intros l Hne. split. - induction l as [|x l IH]; cbn; constructor; auto. apply Forall_forall. intros y Hy. apply osend_in in Hy. destruct Hy as (m & ->). right. cbn. split; auto. right. split; auto. destruct (p <? i); lia. - apply Forall_forall. intros y Hy. apply osend_in in Hy. destruct Hy as (m & ->). cbn. auto. }
    assert (LR : forall l, p <> i -> orderly n p (orecv ph i l)). { intros l Hne. split. - induction l as [|x l IH]; cbn; constructor; auto. apply Forall_forall. intros y Hy. apply orecv_in in Hy. destruct Hy as (m & ->). right. cbn. split; auto. right. split; auto. destruct (p <? i); lia. - apply Forall_forall. intros y Hy. apply orecv_in in Hy. destruct Hy as (m & ->). cbn. auto. }
    unfold pairt. destruct (Z.ltb_spec p i) as [L|L]; [|destruct (Z.ltb_spec i p) as [L'|L']].
    - apply orderly_app. apply LS; lia. apply LR; lia. intros x y Hx Hy. apply osend_in in Hx. apply orecv_in in Hy. destruct Hx as (a & ->), Hy as (b & ->). right. cbn. split; auto. right. split; auto. replace (p <? i) with true by lia. lia.
    - apply orderly_app. apply LR; lia. apply LS; lia. intros x y Hx Hy. apply orecv_in in Hx. apply osend_in in Hy. destruct Hx as (a & ->), Hy as (b & ->). right. cbn. split; auto. right. split; auto. replace (p <? i) with false by lia. lia.
    - split; constructor.
  Qed.
  Lemma xt_orderly : forall ph p l, StronglySorted Z.lt l -> (forall i, In i l -> on n i) -> orderly n p (flat_map (pairt ph p) l).
  Proof.
    intros ph p l. induction l as [|i l IH]; intros SS H; cbn [flat_map]. split; constructor. inversion SS as [|? ? S1 S2]; subst. apply orderly_app. apply pairt_orderly, H; cbn; auto. apply IH; auto. intros; apply H; cbn; auto.
    intros x y Hx Hy. apply pairt_in in Hx. apply in_flat_map in Hy. destruct Hy as (j & Hj & Hy). apply pairt_in in Hy. rewrite Forall_forall in S2. specialize (S2 j Hj). destruct Hx as (_ & E1 & t & m & E2), Hy as (_ & E3 & t' & m' & E4). right. split. lia. left. destruct E2 as [-> | ->], E4 as [-> | ->]; cbn; lia.
  Qed.
  Lemma sends_osend : forall ph q i l, sends q (osend ph i l) = if i =? q then map (fun x => (ph, x)) l else [].
  Proof. intros ph q i l. induction l as [|[t m] l IH]; cbn. destruct (i =? q); auto. unfold sends, osend in IH. rewrite IH. destruct (i =? q); auto. Qed.
  Lemma sends_orecv : forall ph q i l, sends q (orecv ph i l) = [].
  Proof. intros ph q i l. induction l as [|[t m] l IH]; cbn; auto. Qed.
  Lemma recvs_orecv : forall ph q i l, recvs q (orecv ph i l) = if i =? q then map (fun x => (ph, x)) l else [].
  Proof. intros ph q i l. induction l as [|[t m] l IH]; cbn. destruct (i =? q); auto. unfold recvs, orecv in IH. rewrite IH. destruct (i =? q); auto. Qed.
  Lemma recvs_osend : forall ph q i l, recvs q (osend ph i l) = [].
  Proof. intros ph q i l. induction l as [|[t m] l IH]; cbn; auto. Qed.
  Lemma colls_osend : forall ph i l, colls (osend ph i l) = [].
  Proof. intros ph i l. induction l as [|[t m] l IH]; cbn; auto. Qed.
  Lemma colls_orecv : forall ph i l, colls (orecv ph i l) = [].
  Proof. intros ph i l. induction l as [|[t m] l IH]; cbn; auto. Qed.
  Lemma sends_pairt : forall ph p q i, sends q (pairt ph p i) = if (i =? q) && negb (p =? q) then map (fun x => (ph, x)) (msgs p q) else [].
  Proof.
    intros ph p q i. unfold pairt. destruct (Z.ltb_spec p i); [|destruct (Z.ltb_spec i p)]; rewrite ?sends_app, ?sends_osend, ?sends_orecv, ?app_nil_r; cbn [app].
    - destruct (Z.eqb_spec i q); cbn [andb]; auto. subst. replace (p =? q) with false by lia. auto.
    - destruct (Z.eqb_spec i q); cbn [andb]; auto. subst. replace (p =? q) with false by lia. auto.
    - destruct (Z.eqb_spec i q); cbn [andb]; auto. replace (p =? q) with true by lia. auto.
  Qed.
  Lemma recvs_pairt : forall ph p q i, recvs q (pairt ph p i) = if (i =? q) && negb (p =? q) then map (fun x => (ph, x)) (msgs q p) else [].
  Proof.
    intros ph p q i. unfold pairt. destruct (Z.ltb_spec p i); [|destruct (Z.ltb_spec i p)]; rewrite ?recvs_app, ?recvs_osend, ?recvs_orecv, ?app_nil_r; cbn [app].
    - destruct (Z.eqb_spec i q); cbn [andb]; auto. subst. replace (p =? q) with false by lia. auto.
    - destruct (Z.eqb_spec i q); cbn [andb]; auto. subst. replace (p =? q) with false by lia. auto.
    - destruct (Z.eqb_spec i q); cbn [andb]; auto. replace (p =? q) with true by lia. auto.
  Qed.
  Lemma colls_pairt : forall ph p i, colls (pairt ph p i) = [].
  Proof. intros ph p i. unfold pairt. destruct (p <? i); [|destruct (i <? p)]; rewrite ?colls_app, ?colls_osend, ?colls_orecv; auto. Qed.
  Lemma flat_one : forall (A : Type) (g : Z -> list A) q (v : list A) l, NoDup l -> In q l -> (forall i, In i l -> g i = if i =? q then v else []) -> flat_map g l = v.
  Proof.
    intros A g q v l N Hi H. induction l as [|x l IH]; cbn [flat_map]. contradiction. inversion N as [|? ? N1 N2]; subst. rewrite H by (cbn; auto). destruct (Z.eqb_spec x q) as [->|E].
    - replace (flat_map g l) with (@nil A). apply app_nil_r. symmetry. assert (H' : forall i, In i l -> g i = []). { intros i Hi'. rewrite H by (cbn; auto). destruct (Z.eqb_spec i q) as [->|]; auto. contradiction. }
      clear - H'. induction l as [|y l IH]; cbn; auto. rewrite H' by (cbn; auto). apply IH. intros; apply H'; cbn; auto.
    - cbn [app]. apply IH; auto. destruct Hi; [congruence|auto]. intros i Hi'. apply H. cbn. auto.
  Qed.
  Lemma flat_nil : forall (A : Type) (g : Z -> list A) l, (forall i, In i l -> g i = []) -> flat_map g l = [].
  Proof. intros A g l H. induction l as [|x l IH]; cbn; auto. rewrite H by (cbn; auto). apply IH. intros; apply H; cbn; auto. Qed.
  Lemma flat_flat : forall A B C (g : A -> list B) (h : B -> list C) l, flat_map h (flat_map g l) = flat_map (fun x => flat_map h (g x)) l.
  Proof. intros A B C g h l. induction l as [|x l IH]; cbn; auto. rewrite flat_map_app, IH. auto. Qed.
  Lemma ranks_sorted : StronglySorted Z.lt (ranks n).
  Proof.
    unfold ranks. generalize 0%nat. induction (Z.to_nat n) as [|m IH]; intros k; cbn [seq map]; constructor; auto. apply Forall_forall. intros x Hx. apply in_map_iff in Hx. destruct Hx as (j & <- & Hj). apply in_seq in Hj. lia.
  Qed.

  Lemma xt_matched : forall ph, matched n (fun p => flat_map (pairt ph p) (ranks n)).
  Proof.
    intros ph. constructor.
    - intros p Hp. apply xt_orderly. apply ranks_sorted. intros i Hi. apply in_ranks. auto.
    - intros p q Hp Hq. unfold sends, recvs. rewrite !flat_flat. fold (sends q). fold (recvs p).
      rewrite (flat_one _ _ q (if negb (p =? q) then map (fun x => (ph, x)) (msgs p q) else [])); [|apply nd_ranks|apply in_ranks; auto|].
      2: { intros i Hi. fold (sends q (pairt ph p i)). rewrite sends_pairt. destruct (i =? q); auto. }
      symmetry. apply flat_one with (q := p). apply nd_ranks. apply in_ranks; auto. intros i Hi. fold (recvs p (pairt ph q i)). rewrite recvs_pairt, (Z.eqb_sym q p). destruct (i =? p); auto.
    - intros p q Hp Hq. unfold colls. rewrite !flat_flat. rewrite !flat_nil; auto. intros i Hi. apply colls_pairt. intros i Hi. apply colls_pairt.
  Qed.

  (** What each rank does with each partner: send, and receive into its state. *)
  Lemma exchange_protocol : forall S ph (f : Z -> Z -> S -> prog S) (g : Z -> Z -> S -> S) (I : Z -> Z -> S -> Prop) (s0 : Z -> S),
    (forall p, on n p -> I p 0 (s0 p)) ->
    (forall p i s, on n p -> on n i -> I p i s -> follows n p (f p i s) (pairt ph p i) (g p i s) /\ I p (i + 1) (g p i s)) ->
    protocol n ph (ph + 1) (fun p => pfold (f p) (ranks n) (s0 p)) (fun p => fold_left (fun s i => g p i s) (ranks n) (s0 p)).
  Proof.
    intros S ph f g I s0 H0 H. exists (fun p => flat_map (pairt ph p) (ranks n)). split. apply xt_matched. split.
    - intros p Hp x Hx. apply in_flat_map in Hx. destruct Hx as (i & _ & Hx). apply pairt_in in Hx. lia.
    - intros p Hp. unfold ranks. assert (X : forall m k s, (k + m <= Z.to_nat n)%nat -> I p (Z.of_nat k) s -> follows n p (pfold (f p) (map Z.of_nat (seq k m)) s) (flat_map (pairt ph p) (map Z.of_nat (seq k m))) (fold_left (fun s i => g p i s) (map Z.of_nat (seq k m)) s)).
      { induction m as [|m IH]; intros k s Hk HI; cbn [seq map pfold flat_map fold_left]. constructor. destruct (H p (Z.of_nat k) s Hp) as [F J]. unfold on. lia. auto. eapply follows_bind. exact F. apply IH. lia. replace (Z.of_nat (Datatypes.S k)) with (Z.of_nat k + 1) by lia. auto. }
      apply X. lia. apply H0. auto.
  Qed.
  Lemma exchange_inv : forall S (g : Z -> Z -> S -> S) (I : Z -> Z -> S -> Prop) (s0 : Z -> S) p, on n p -> I p 0 (s0 p) -> (forall i s, on n i -> I p i s -> I p (i + 1) (g p i s)) ->
    I p n (fold_left (fun s i => g p i s) (ranks n) (s0 p)).
  Proof.
    intros S g I s0 p Hp H0 H. unfold ranks. assert (X : forall m k s, (k + m <= Z.to_nat n)%nat -> I p (Z.of_nat k) s -> I p (Z.of_nat (k + m)) (fold_left (fun s i => g p i s) (map Z.of_nat (seq k m)) s)).
    { induction m as [|m IH]; intros k s Hk HI; cbn [seq map fold_left]. rewrite Nat.add_0_r. auto. replace (k + Datatypes.S m)%nat with (Datatypes.S k + m)%nat by lia. apply IH. lia. replace (Z.of_nat (Datatypes.S k)) with (Z.of_nat k + 1) by lia. apply H; auto. unfold on. lia. }
    specialize (X (Z.to_nat n) 0%nat (s0 p)). cbn [Nat.add] in X. rewrite Z2Nat.id in X by (unfold on in Hp; lia). apply X. lia. auto.
  Qed.
End Exchange.
