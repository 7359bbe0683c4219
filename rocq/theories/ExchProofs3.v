(** Proofs about the exchange of values: the loop over the partners. *)
From Coq Require Import ZArith List Lia Bool Arith ZifyBool ZifyNat Sorting.Sorted.
From Verif Require Import Base BaseProofs SortModel AttModel TopoModel ParModel ParProps CommModel CommProofs CommProofs2 ExchModel ExchProofs ExchProofs2.
Import ListNotations.
Open Scope Z_scope.

Lemma follows_meet : forall S n p i (s s' : S) (sp : prog unit) (rp : S -> prog S) (msgs : Z -> Z -> list (Z * msg)) ph, 
  (p <> i -> follows n p sp (osend ph i (msgs p i)) tt) -> (p <> i -> follows n p (rp s) (orecv ph i (msgs i p)) s') -> (p = i -> s' = s) ->
  follows n p (meet p i s sp rp) (pairt msgs ph p i) s'.
Proof.
  intros S n p i s s' sp rp msgs ph H1 H2 H3. unfold meet, pairt. destruct (Z.ltb_spec p i) as [L|L].
  - eapply follows_bind. apply H1. lia. apply H2. lia.
  - rewrite Z.gtb_ltb. destruct (Z.ltb_spec i p) as [L'|L'].
    + eapply follows_bind. apply H2. lia. rewrite <- (app_nil_r (osend ph i (msgs p i))). eapply follows_bind. apply H1. lia. constructor.
    + rewrite H3 by lia. constructor.
Qed.

Definition putd (a : array Z) (pos : Z) (l : list Z) : array Z := match put a pos l with Ok a' => a' | _ => a end.

Section Loop.
  Variables (n k : Z) (ms : Z -> pmesh) (gh : Z -> Z -> list Z) (ov : Z -> Z -> Z) (flag : Z -> Z -> Z -> bool) (G : Z -> list Z).
  Hypothesis AF : adjf n ms gh ov flag G.
  Hypothesis Hk : 0 <= k <= 3.
  Variables (ty : mty) (wd : Z) (gids vals : Z -> list Z).
  Hypothesis Hov : forall q, on n q -> ov q k = Z.of_nat (length (gids q)).
  Hypothesis Hval : forall q, on n q -> Z.of_nat (length (vals q)) = Z.of_nat (length (gids q)) * wd.
  Hypothesis Hwd : 0 <= wd.

  Definition size (q : Z) : Z := Z.of_nat (length (gids q)).
  Definition base (p : Z) (j : nat) : Z := psum size (firstn j (G p)).
  Definition total (p : Z) : Z := psum size (G p).
  Definition xmsgs (p i : Z) : list (Z * msg) := if flag i p k && negb (size p =? 0) then [(i, (TInt, gids p)); (i, (ty, vals p))] else [].

  Definition bufs_ok (p i : Z) (b : bufs) : Prop :=
    Z.of_nat (length (fst b)) = total p /\ Z.of_nat (length (snd b)) = total p * wd /\
    forall t, (t < length (G p))%nat -> nth t (G p) 0 < i -> flag p (nth t (G p) 0) k = true -> holds (fst b) (base p t) (gids (nth t (G p) 0)) /\ holds (snd b) (base p t * wd) (vals (nth t (G p) 0)).

  Definition gstep (p i : Z) (b : bufs) : bufs :=
    if flag p i k && negb (size i =? 0) then
      match find_rank (G p) i 0 with
      | Some j => (putd (fst b) (base p (Z.to_nat j)) (gids i), putd (snd b) (base p (Z.to_nat j) * wd) (vals i))
      | None => b
      end
    else b.

  Lemma base_room : forall p j, (j < length (G p))%nat -> 0 <= base p j /\ base p j + size (nth j (G p) 0) <= total p.
  Proof.
    intros p j Hj. assert (P : forall q, In q (G p) -> 0 <= size q) by (intros; unfold size; lia). unfold base, total. split. apply psum_nonneg. intros; unfold size; lia. rewrite <- psum_split by auto. rewrite <- (psum_total size (G p)). apply psum_mono; [auto|lia].
  Qed.
  Lemma base_apart : forall p j t, (j < length (G p))%nat -> (t < length (G p))%nat -> j <> t -> base p t + size (nth t (G p) 0) <= base p j \/ base p j + size (nth j (G p) 0) <= base p t.
  Proof.
    intros p j t Hj Ht Hne. assert (P : forall q, In q (G p) -> 0 <= size q) by (intros; unfold size; lia). unfold base. destruct (Nat.lt_ge_cases t j).
    left. rewrite <- psum_split by auto. apply psum_mono; [auto|lia]. right. rewrite <- psum_split by auto. apply psum_mono; [auto|lia].
  Qed.

  Lemma gstep_ok : forall p i b, on n p -> on n i -> bufs_ok p i b -> bufs_ok p (i + 1) (gstep p i b) /\
    (flag p i k && negb (size i =? 0) = true -> exists j t b1 b2, find_rank (G p) i 0 = Some j /\ j = Z.of_nat t /\ (t < length (G p))%nat /\ nth t (G p) 0 = i /\ put (fst b) (base p t) (gids i) = Ok b1 /\ put (snd b) (base p t * wd) (vals i) = Ok b2 /\ gstep p i b = (b1, b2)).
  Proof.
    intros p i b Hp Hi (L1 & L2 & H). unfold gstep. destruct (flag p i k && negb (size i =? 0)) eqn:E.
    - apply andb_true_iff in E. destruct E as [E1 E2]. assert (IG : In i (G p)) by (apply (af_in _ _ _ _ _ _ AF); auto; split; auto; exists k; auto).
      pose proof (find_rank_ok i (G p) 0 (af_nd _ _ _ _ _ _ AF p Hp)) as F. destruct (find_rank (G p) i 0) as [j|]; [|contradiction]. destruct F as (t & Ht & Hj & Ei). rewrite Z.add_0_l in Hj. subst j. rewrite Nat2Z.id.
      destruct (base_room p t Ht) as [R1 R2]. rewrite Ei in R2. unfold size in R2.
      destruct (put_ok (fst b) (base p t) (gids i)) as (b1 & P1 & P2 & P3 & P4); auto. lia.
      destruct (put_ok (snd b) (base p t * wd) (vals i)) as (b2 & Q1 & Q2 & Q3 & Q4). nia. rewrite Hval by auto. rewrite L2. nia.
      unfold putd. rewrite P1, Q1. split.
      + split; [cbn [fst]; lia|split; [cbn [snd]; lia|]]. cbn [fst snd]. intros t' Ht' Hlt Hf. destruct (Nat.eq_dec t' t) as [->|Ne]. rewrite Ei. auto.
        assert (Hlt' : nth t' (G p) 0 < i). { assert (nth t' (G p) 0 <> i). { intro X. apply Ne. apply (proj1 (NoDup_nth (G p) 0) (af_nd _ _ _ _ _ _ AF p Hp)); auto. congruence. } lia. }
        destruct (H t' Ht' Hlt' Hf) as [H1 H2]. destruct (base_apart p t t' Ht Ht' ltac:(auto)) as [A|A].
        * unfold size in A. split. apply P4; auto. apply Q4; auto. left. rewrite Hval. nia. apply (af_in _ _ _ _ _ _ AF p); auto. apply nth_In; auto.
        * unfold size in A. rewrite Ei in A. split. apply P4; auto. apply Q4; auto. right. rewrite Hval by auto. nia.
      + intros _. exists (Z.of_nat t), t, b1, b2. auto 10.
    - split; [|discriminate]. split; auto. split; auto. intros t Ht Hlt Hf. destruct (Z.eq_dec (nth t (G p) 0) i) as [Ei|Ne]; [|apply H; auto; lia].
      rewrite Ei in *. rewrite Hf in E. cbn [andb] in E. assert (S0 : size i = 0) by lia. unfold size in S0. destruct (gids i) eqn:Eg; [|cbn in S0; lia]. assert (vals i = []) as ->. { specialize (Hval i Hi). rewrite Eg in Hval. destruct (vals i); auto. cbn in Hval. lia. }
      destruct (base_room p t Ht) as [R1 R2]. rewrite Ei in R2. unfold size in R2. rewrite Eg in R2. cbn in R2. split; (split; [nia|split; [cbn; nia|cbn; intros; lia]]).
  Qed.

  Lemma exch_follows : forall ph p i b, on n p -> on n i -> bufs_ok p i b ->
    follows n p (exch_with (ms p) p k ty wd (size p) (gids p) (vals p) (G p) (offs size (G p) 0) i b) (pairt xmsgs ph p i) (gstep p i b).
  Proof.
    intros ph p i b Hp Hi HB. unfold exch_with. rewrite (af_g _ _ _ _ _ _ AF) by auto. cbn [lift]. rewrite (af_o _ _ _ _ _ _ AF) by auto. cbn [lift].
    set (fnd := find_rank (G p) i 0). pose proof (find_rank_ok i (G p) 0 (af_nd _ _ _ _ _ _ AF p Hp)) as F. fold fnd in F.
    assert (RS : exists rs, match fnd with None => Ok 0 | Some k0 => p0 <- rdl (G p) k0 ;; MESH_Num_Recv_From_Prtn (ms p) p0 k end = Ok rs /\ (flag p i k = true -> rs = size i)).
    { destruct fnd as [j|]. destruct F as (t & Ht & Hj & Ei). rewrite Z.add_0_l in Hj. subst j. rewrite rdl_ok by lia. cbn [bind]. rewrite Nat2Z.id, Ei. rewrite (af_num _ _ _ _ _ _ AF) by (auto; rewrite <- Ei; apply nth_In; auto). rewrite Hov by auto. exists (size i). auto.
      exists 0. split; auto. intros E. exfalso. apply F. apply (af_in _ _ _ _ _ _ AF); auto. split; auto. exists k. auto. }
    destruct RS as (rs & -> & RS). cbn [lift]. destruct (gstep_ok p i b Hp Hi HB) as [_ GS]. apply follows_meet.
    - intros Hne. unfold xmsgs. replace (negb (Z.b2z (flag i p k) =? 0)) with (flag i p k) by (destruct (flag i p k); auto). destruct (flag i p k && negb (size p =? 0)); cbn; repeat constructor.
    - intros Hne. unfold xmsgs. replace (negb (Z.b2z (flag p i k) =? 0)) with (flag p i k) by (destruct (flag p i k); auto). destruct (flag p i k) eqn:E; cbn [andb] in *.
      + rewrite RS by auto. destruct (size i =? 0) eqn:E0; cbn [negb] in *. unfold gstep. rewrite E, E0. cbn. constructor.
        destruct (GS eq_refl) as (j & t & b1 & b2 & G1 & G2 & G3 & G4 & G5 & G6 & G7). unfold fnd. rewrite G1, G2. rewrite rdl_ok by (rewrite offs_length; lia). cbn [lift]. rewrite Nat2Z.id, offs_nth by lia. rewrite Z.add_0_l. fold (base p t). unfold recv2. cbn [orecv map fst snd].
        constructor; [|unfold size; lia]. rewrite G5. cbn [lift]. constructor. rewrite G6. cbn [lift]. rewrite G7. constructor. rewrite Hval by auto. lia.
      + unfold gstep. rewrite E. cbn. constructor.
    - intros ->. unfold gstep. rewrite (af_self _ _ _ _ _ _ AF) by auto. auto.
  Qed.

  (** All values are exchanged. *)
  Lemma loop_protocol : exists bs, (forall ph, protocol n ph (ph + 1)
      (fun p => pfold (fun i b => exch_with (ms p) p k ty wd (size p) (gids p) (vals p) (G p) (offs size (G p) 0) i b) (ranks n) (malloc (last (offs size (G p) 0) 0), malloc (last (offs size (G p) 0) 0 * wd))) bs) /\
    forall p, on n p -> bufs_ok p n (bs p).
  Proof.
    set (s0 := fun p => (malloc (last (offs size (G p) 0) 0), malloc (last (offs size (G p) 0) 0 * wd)) : bufs).
    assert (I0 : forall p, on n p -> bufs_ok p 0 (s0 p)). { intros p Hp. unfold s0. rewrite offs_last, Z.add_0_l. fold (total p). assert (0 <= total p) by (apply psum_nonneg; intros; unfold size; lia). split; [|split]. cbn [fst]. unfold malloc. rewrite repeat_length. lia. cbn [snd]. unfold malloc. rewrite repeat_length. nia. intros t Ht Hlt. exfalso. assert (on n (nth t (G p) 0)) by (apply (af_in _ _ _ _ _ _ AF p); auto; apply nth_In; auto). unfold on in *. lia. }
    exists (fun p => fold_left (fun s i => gstep p i s) (ranks n) (s0 p)). split.
    - intros ph. apply (exchange_protocol n xmsgs bufs ph (fun p i b => exch_with (ms p) p k ty wd (size p) (gids p) (vals p) (G p) (offs size (G p) 0) i b) gstep bufs_ok s0 I0).
      intros p i s Hp Hi HB. split. apply exch_follows; auto. apply gstep_ok; auto.
    - intros p Hp. apply (exchange_inv n xmsgs bufs gstep bufs_ok s0 p Hp (I0 p Hp)). intros i s Hi HB. apply gstep_ok; auto.
  Qed.
End Loop.
