(** Proofs about the exchange of values between ghosts and masters on the
    parallel boundary. *)
From Coq Require Import ZArith List Lia Bool Arith ZifyBool ZifyNat Sorting.Sorted.
From Verif Require Import Base BaseProofs SortModel AttModel TopoModel ParModel ParProps CommModel CommProofs CommProofs2 ExchModel ExchProofs ExchProofs2 ExchProofs3 ExchProofs4.
Import ListNotations.
Open Scope Z_scope.

Section Back.
  Variables (n d : Z) (xs : Z -> xrank) (a : attr) (ms : Z -> pmesh) (flag : Z -> Z -> Z -> bool) (G : Z -> list Z).
  Hypothesis AF : adjf n ms (gh_of xs) (ov_of xs) flag G.
  Hypothesis Hd : 0 <= d <= 3.
  Hypothesis Ha : attr_ok a.
  (** ghosts on the boundary of [p] with master [i] *)
  Definition mine (p i : Z) : list Z := filter (fun g => (x_mas (xs p) g =? i) && x_bnd (xs p) g) (x_gh (xs p) d).
  Hypothesis Hmas : forall p g, on n p -> In g (x_gh (xs p) d) -> x_mas (xs p) g <> p.
  Hypothesis Hvals : forall p g, on n p -> In g (x_gh (xs p) d) -> x_bnd (xs p) g = true -> value_ok a (x_val (xs p) g).

  Definition cg (p i : Z) : list Z := map (x_gid (xs p)) (mine p i).
  Definition cv (p i : Z) : list Z := concat (map (sentv a) (map (x_val (xs p)) (mine p i))).
  Definition sz (p i : Z) : Z := Z.of_nat (length (mine p i)).
  Definition Rp (p : Z) : list Z := filter (fun j => flag j p d) (ranks n).
  Definition bbase (p : Z) (t : nat) : Z := psum (fun j => sz j p) (firstn t (Rp p)).
  Definition btotal (p : Z) : Z := psum (fun j => sz j p) (Rp p).

  Lemma sz_flag : forall p i, on n p -> on n i -> sz p i <> 0 -> flag p i d = true.
  Proof.
    intros p i Hp Hi H. unfold sz in H. destruct (mine p i) as [|g l] eqn:E. cbn in H. lia. assert (Ig : In g (mine p i)) by (rewrite E; cbn; auto). unfold mine in Ig. apply filter_In in Ig. destruct Ig as [I1 I2]. apply andb_true_iff in I2. destruct I2 as [I2 I3]. apply Z.eqb_eq in I2. apply (af_gh _ _ _ _ _ _ AF); auto. intro E'. apply (Hmas p g Hp I1). congruence. unfold gh_of. rewrite <- I2. apply in_map. auto.
  Qed.
  Lemma Rp_in : forall p j, In j (Rp p) <-> on n j /\ flag j p d = true.
  Proof. intros p j. unfold Rp. rewrite filter_In, in_ranks. tauto. Qed.
  Lemma Rp_nd : forall p, NoDup (Rp p).
  Proof. intros p. unfold Rp. apply NoDup_filter, nd_ranks. Qed.
  Lemma cv_len : forall p i, on n p -> Z.of_nat (length (cv p i)) = sz p i * width a.
  Proof.
    intros p i Hp. pose proof (width_pos a Ha). unfold cv, sz. rewrite (concat_len (Z.to_nat (width a))). rewrite !map_length. nia. intros w Hw. apply in_map_iff in Hw. destruct Hw as (v & <- & Hv). apply in_map_iff in Hv. destruct Hv as (g & <- & Hg). apply filter_In in Hg. destruct Hg as [G1 G2]. apply andb_true_iff in G2. destruct (sent_ok a (x_val (xs p) g) Ha) as [_ L]. apply Hvals; tauto. lia.
  Qed.
  Lemma cg_len : forall p i, Z.of_nat (length (cg p i)) = sz p i.
  Proof. intros. unfold cg, sz. rewrite map_length. auto. Qed.

  (** ** Numbers *)
  Definition cmsgs (p i : Z) : list (Z * msg) := if flag p i d then [(i, (TInt, [sz p i]))] else [].
  Definition counts_ok (p i : Z) (rs : list Z) : Prop :=
    length rs = Z.to_nat n /\ (forall j, 0 <= j < i -> j < n -> nth (Z.to_nat j) rs 0 = sz j p) /\ (forall j, i <= j -> j < n -> nth (Z.to_nat j) rs 0 = 0).
  Definition cstep (p i : Z) (rs : list Z) : list Z := if flag i p d then upd_nth rs (Z.to_nat i) (sz i p) else rs.
  Lemma cstep_ok : forall p i rs, on n p -> on n i -> counts_ok p i rs -> counts_ok p (i + 1) (cstep p i rs).
  Proof.
    intros p i rs Hp Hi (L & H1 & H2). unfold cstep, on in *. destruct (flag i p d) eqn:E.
    - split. rewrite upd_nth_length. auto. split; intros j Hj1 Hj2; rewrite nth_upd_nth.
      + destruct (Nat.eqb_spec (Z.to_nat j) (Z.to_nat i)). replace (Z.to_nat i <? length rs)%nat with true by lia. f_equal. lia. apply H1; lia.
      + destruct (Nat.eqb_spec (Z.to_nat j) (Z.to_nat i)). lia. apply H2; lia.
    - split; auto. split; intros j Hj1 Hj2. destruct (Z.eq_dec j i) as [->|]. rewrite H2 by lia. destruct (Z.eq_dec (sz i p) 0); [lia|]. rewrite sz_flag in E by (unfold on; auto; lia). discriminate. apply H1; lia. apply H2; lia.
  Qed.
  Lemma counts_follows : forall ph p i rs, on n p -> on n i -> counts_ok p i rs ->
    follows n p (counts_with (ms p) p d (x_mas (xs p)) (x_bnd (xs p)) (x_gh (xs p) d) i rs) (pairt cmsgs ph p i) (cstep p i rs).
  Proof.
    intros ph p i rs Hp Hi HC. unfold counts_with. destruct (Z.eqb_spec i p) as [->|Ne].
    - unfold pairt, cstep. rewrite Z.ltb_irrefl. rewrite (af_self _ _ _ _ _ _ AF) by auto. constructor.
    - rewrite (af_g _ _ _ _ _ _ AF) by auto. cbn [lift]. rewrite (af_o _ _ _ _ _ _ AF) by auto. cbn [lift]. apply follows_meet.
      + intros _. unfold cmsgs. destruct (flag p i d); cbn; repeat constructor.
      + intros _. unfold cmsgs, cstep. destruct (flag i p d); cbn; [|constructor]. constructor; [|cbn; lia]. rewrite wrl_ok by (destruct HC as [L _]; unfold on in *; lia). cbn [lift]. constructor.
      + congruence.
  Qed.
  Definition counts (p : Z) : list Z := map (fun j => sz j p) (ranks n).
  Lemma counts_protocol : forall ph, protocol n ph (ph + 1) (fun p => pfold (counts_with (ms p) p d (x_mas (xs p)) (x_bnd (xs p)) (x_gh (xs p) d)) (ranks n) (repeat 0 (Z.to_nat n))) counts.
  Proof.
    intros ph. assert (I0 : forall p, on n p -> counts_ok p 0 (repeat 0 (Z.to_nat n))). { intros p Hp. split. apply repeat_length. split; intros j H1 H2. lia. apply nth_repeat. }
    eapply protocol_res. 2: { apply (exchange_protocol n cmsgs (list Z) ph (fun p i rs => counts_with (ms p) p d (x_mas (xs p)) (x_bnd (xs p)) (x_gh (xs p) d) i rs) cstep counts_ok (fun _ => repeat 0 (Z.to_nat n)) I0). intros p i s Hp Hi HB. split. apply counts_follows; auto. apply cstep_ok; auto. }
    intros p Hp. pose proof (exchange_inv n cmsgs (list Z) cstep counts_ok (fun _ => repeat 0 (Z.to_nat n)) p Hp (I0 p Hp)) as (L & H1 & _). { intros i s Hi HB. apply cstep_ok; auto. }
    cbv beta in *. set (r := fold_left _ _ _) in *. clearbody r. symmetry. unfold counts. assert (EN : n = Z.of_nat (Z.to_nat n)) by (unfold on in Hp; lia). rewrite EN. apply (map_ranks_nth _ _ _ 0). auto. intros i Hi. rewrite <- (Nat2Z.id i) at 2. symmetry. apply H1; lia.
  Qed.
  Lemma counts_rd : forall p j, on n j -> rdl (counts p) j = Ok (sz j p).
  Proof.
    intros p j Hj. unfold counts, ranks, on in *. rewrite map_map. rewrite rdl_ok by (rewrite map_length, seq_length; lia). rewrite (nth_indep _ 0 (sz (Z.of_nat 0) p)) by (rewrite map_length, seq_length; lia). rewrite (map_nth (fun i => sz (Z.of_nat i) p)), seq_nth by lia. f_equal. f_equal. lia.
  Qed.

  Lemma overlap_procs_ok : forall p l, on n p -> (forall j, In j l -> on n j) -> overlap_procs (ms p) p d l = Ok (filter (fun j => flag j p d) l).
  Proof.
    intros p l Hp. induction l as [|i l IH]; intros H; cbn [overlap_procs filter]; auto. assert (Hi : on n i) by (apply H; cbn; auto). specialize (IH (fun j Hj => H j (or_intror Hj))). destruct (Z.eqb_spec i p) as [->|Ne].
    rewrite (af_self _ _ _ _ _ _ AF) by auto. auto. rewrite (af_o _ _ _ _ _ _ AF) by auto. cbn [bind]. rewrite IH. cbn [bind]. destruct (flag i p d); auto.
  Qed.
  Lemma offsets_ok : forall p l z, (forall j, In j l -> on n j) -> offsets (counts p) l z = Ok (offs (fun j => sz j p) l z).
  Proof.
    intros p. induction l as [|i l IH]; intros z H; cbn [offsets]. unfold offs. cbn. rewrite Z.add_0_r. auto. rewrite counts_rd by (apply H; cbn; auto). cbn [bind]. rewrite IH by (intros; apply H; cbn; auto). cbn [bind]. rewrite offs_S. auto.
  Qed.

  (** ** Data *)
  Definition bmsgs (p i : Z) : list (Z * msg) := if flag p i d && negb (sz p i =? 0) then [(i, (TInt, cg p i)); (i, (vtype a, cv p i))] else [].
  Definition back_ok (p i : Z) (b : bufs) : Prop :=
    Z.of_nat (length (fst b)) = btotal p /\ Z.of_nat (length (snd b)) = btotal p * width a /\
    forall t, (t < length (Rp p))%nat -> nth t (Rp p) 0 < i -> holds (fst b) (bbase p t) (cg (nth t (Rp p) 0) p) /\ holds (snd b) (bbase p t * width a) (cv (nth t (Rp p) 0) p).
  Definition bstep (p i : Z) (b : bufs) : bufs :=
    if flag i p d && negb (sz i p =? 0) then
      match find_rank (Rp p) i 0 with
      | Some j => (putd (fst b) (bbase p (Z.to_nat j)) (cg i p), putd (snd b) (bbase p (Z.to_nat j) * width a) (cv i p))
      | None => b
      end
    else b.
  Lemma bbase_room : forall p j, (j < length (Rp p))%nat -> 0 <= bbase p j /\ bbase p j + sz (nth j (Rp p) 0) p <= btotal p.
  Proof.
    intros p j Hj. assert (P : forall q, In q (Rp p) -> 0 <= sz q p) by (intros; unfold sz; lia). unfold bbase, btotal. split. apply psum_nonneg. intros; unfold sz; lia. rewrite <- (psum_split (fun j => sz j p)) by auto. rewrite <- (psum_total _ (Rp p)). apply psum_mono; [auto|lia].
  Qed.
  Lemma bbase_apart : forall p j t, (j < length (Rp p))%nat -> (t < length (Rp p))%nat -> j <> t -> bbase p t + sz (nth t (Rp p) 0) p <= bbase p j \/ bbase p j + sz (nth j (Rp p) 0) p <= bbase p t.
  Proof.
    intros p j t Hj Ht Hne. assert (P : forall q, In q (Rp p) -> 0 <= sz q p) by (intros; unfold sz; lia). unfold bbase. destruct (Nat.lt_ge_cases t j).
    left. rewrite <- (psum_split (fun j => sz j p)) by auto. apply psum_mono; [auto|lia]. right. rewrite <- (psum_split (fun j => sz j p)) by auto. apply psum_mono; [auto|lia].
  Qed.
  Lemma bstep_ok : forall p i b, on n p -> on n i -> back_ok p i b -> back_ok p (i + 1) (bstep p i b) /\
    (flag i p d && negb (sz i p =? 0) = true -> exists t b1 b2, (t < length (Rp p))%nat /\ nth t (Rp p) 0 = i /\ put (fst b) (bbase p t) (cg i p) = Ok b1 /\ put (snd b) (bbase p t * width a) (cv i p) = Ok b2 /\ bstep p i b = (b1, b2)).
  Proof.
    intros p i b Hp Hi (L1 & L2 & H). pose proof (width_pos a Ha) as W. unfold bstep. destruct (flag i p d && negb (sz i p =? 0)) eqn:E.
    - apply andb_true_iff in E. destruct E as [E1 E2]. assert (IG : In i (Rp p)) by (apply Rp_in; auto).
      pose proof (find_rank_ok i (Rp p) 0 (Rp_nd p)) as F. destruct (find_rank (Rp p) i 0) as [j|]; [|contradiction]. destruct F as (t & Ht & Hj & Ei). rewrite Z.add_0_l in Hj. subst j. rewrite Nat2Z.id.
      destruct (bbase_room p t Ht) as [R1 R2]. rewrite Ei in R2.
      destruct (put_ok (fst b) (bbase p t) (cg i p)) as (b1 & P1 & P2 & P3 & P4); auto. rewrite cg_len. lia.
      destruct (put_ok (snd b) (bbase p t * width a) (cv i p)) as (b2 & Q1 & Q2 & Q3 & Q4). nia. rewrite cv_len by auto. rewrite L2. nia.
      unfold putd. rewrite P1, Q1. split.
      + split; [cbn [fst]; lia|split; [cbn [snd]; lia|]]. cbn [fst snd]. intros t' Ht' Hlt. destruct (Nat.eq_dec t' t) as [->|Ne]. rewrite Ei. auto.
        assert (Hlt' : nth t' (Rp p) 0 < i). { assert (nth t' (Rp p) 0 <> i). { intro X. apply Ne. apply (proj1 (NoDup_nth (Rp p) 0) (Rp_nd p)); auto. congruence. } lia. }
        destruct (H t' Ht' Hlt') as [H1 H2]. assert (Ho : on n (nth t' (Rp p) 0)) by (apply (Rp_in p); apply nth_In; auto). destruct (bbase_apart p t t' Ht Ht' ltac:(auto)) as [A|A].
        * split. apply P4; auto. left. rewrite cg_len. lia. apply Q4; auto. left. rewrite cv_len by auto. nia.
        * rewrite Ei in A. split. apply P4; auto. right. rewrite cg_len. lia. apply Q4; auto. right. rewrite cv_len by auto. nia.
      + intros _. exists t, b1, b2. auto 10.
    - split; [|discriminate]. split; auto. split; auto. intros t Ht Hlt. destruct (Z.eq_dec (nth t (Rp p) 0) i) as [Ei|Ne]; [|apply H; auto; lia].
      assert (Fl : flag i p d = true). { assert (X : In (nth t (Rp p) 0) (Rp p)) by (apply nth_In; auto). apply Rp_in in X. rewrite Ei in X. tauto. } rewrite Fl in E. cbn [andb] in E. assert (S0 : sz i p = 0) by lia. rewrite Ei.
      pose proof (cg_len i p) as LG. pose proof (cv_len i p Hi) as LV. rewrite S0 in LG, LV. destruct (cg i p); [|cbn in LG; lia]. destruct (cv i p); [|cbn in LV; lia].
      destruct (bbase_room p t Ht) as [R1 R2]. rewrite Ei, S0 in R2. split; (split; [nia|split; [cbn; nia|cbn; intros; lia]]).
  Qed.
  Lemma mine_vals : forall p i, on n p -> sent_all a (map (x_val (xs p)) (mine p i)) = Ok (cv p i).
  Proof. intros p i Hp. unfold cv. apply sent_all_ok; auto. intros v Hv. apply in_map_iff in Hv. destruct Hv as (g & <- & Hg). apply filter_In in Hg. destruct Hg as [G1 G2]. apply andb_true_iff in G2. apply Hvals; tauto. Qed.
  Lemma back_follows : forall ph p i b g2, on n p -> on n i -> back_ok p i b -> (forall t, (t < length (Rp p))%nat -> rd g2 (nth t (Rp p) 0) = Ok (Z.of_nat t)) ->
    follows n p (back_with (ms p) p d (vtype a) (width a) (x_mas (xs p)) (x_bnd (xs p)) (x_gid (xs p)) (fun l => sent_all a (map (x_val (xs p)) l)) (x_gh (xs p) d) (counts p) g2 (offs (fun j => sz j p) (Rp p) 0) i b) (pairt bmsgs ph p i) (bstep p i b).
  Proof.
    intros ph p i b g2 Hp Hi HC H2. unfold back_with. destruct (Z.eqb_spec i p) as [->|Ne].
    - unfold pairt, bstep. rewrite Z.ltb_irrefl. rewrite (af_self _ _ _ _ _ _ AF) by auto. constructor.
    - rewrite (af_g _ _ _ _ _ _ AF) by auto. cbn [lift]. rewrite (af_o _ _ _ _ _ _ AF) by auto. cbn [lift]. rewrite counts_rd by auto. cbn [lift]. fold (mine p i). fold (sz p i). rewrite mine_vals by auto.
      assert (Eb : forall x, negb (Z.b2z x =? 0) = x) by (intros []; auto). rewrite !Eb. destruct (bstep_ok p i b Hp Hi HC) as [_ BS].
      assert (L : forall A R (c : bool) (x : A) y (f : A -> prog R), lift (if c then Ok x else Ok y) f = f (if c then x else y)) by (intros ? ? []; reflexivity). rewrite L. apply follows_meet.
      + intros _. unfold bmsgs. destruct (flag p i d && negb (sz p i =? 0)); cbn; repeat constructor.
      + intros _. unfold bmsgs. destruct (flag i p d && negb (sz i p =? 0)) eqn:E. 
        * destruct (BS eq_refl) as (t & b1 & b2 & B1 & B2 & B3 & B4 & B5). specialize (H2 t B1). rewrite B2 in H2. rewrite H2. cbn [lift]. rewrite rdl_ok by (rewrite offs_length; lia). cbn [lift]. rewrite Nat2Z.id, offs_nth by lia. rewrite Z.add_0_l. fold (bbase p t). unfold recv2. cbn [orecv map fst snd].
          constructor; [|rewrite cg_len; lia]. rewrite B3. cbn [lift]. constructor. rewrite B4. cbn [lift]. rewrite B5. constructor. rewrite cv_len, cg_len by auto. lia.
        * unfold bstep. rewrite E. cbn. constructor.
      + congruence.
  Qed.
  Lemma back_protocol : forall g2, (forall p, on n p -> forall t, (t < length (Rp p))%nat -> rd (g2 p) (nth t (Rp p) 0) = Ok (Z.of_nat t)) ->
    exists bs, (forall ph, protocol n ph (ph + 1) (fun p => pfold (back_with (ms p) p d (vtype a) (width a) (x_mas (xs p)) (x_bnd (xs p)) (x_gid (xs p)) (fun l => sent_all a (map (x_val (xs p)) l)) (x_gh (xs p) d) (counts p) (g2 p) (offs (fun j => sz j p) (Rp p) 0)) (ranks n)
       (malloc (last (offs (fun j => sz j p) (Rp p) 0) 0), malloc (last (offs (fun j => sz j p) (Rp p) 0) 0 * width a))) bs) /\ forall p, on n p -> back_ok p n (bs p).
  Proof.
    intros g2 H2. pose proof (width_pos a Ha) as W. set (s0 := fun p => (malloc (last (offs (fun j => sz j p) (Rp p) 0) 0), malloc (last (offs (fun j => sz j p) (Rp p) 0) 0 * width a)) : bufs).
    assert (I0 : forall p, on n p -> back_ok p 0 (s0 p)). { intros p Hp. unfold s0. rewrite offs_last, Z.add_0_l. fold (btotal p). assert (0 <= btotal p) by (apply psum_nonneg; intros; unfold sz; lia). split; [|split]. cbn [fst]. unfold malloc. rewrite repeat_length. lia. cbn [snd]. unfold malloc. rewrite repeat_length. nia. intros t Ht Hlt. exfalso. assert (on n (nth t (Rp p) 0)) by (apply (Rp_in p); apply nth_In; auto). unfold on in *. lia. }
    exists (fun p => fold_left (fun s i => bstep p i s) (ranks n) (s0 p)). split.
    - intros ph. apply (exchange_protocol n bmsgs bufs ph (fun p i b => back_with (ms p) p d (vtype a) (width a) (x_mas (xs p)) (x_bnd (xs p)) (x_gid (xs p)) (fun l => sent_all a (map (x_val (xs p)) l)) (x_gh (xs p) d) (counts p) (g2 p) (offs (fun j => sz j p) (Rp p) 0) i b) bstep back_ok s0 I0).
      intros p i s Hp Hi HB. split. apply back_follows; auto. apply bstep_ok; auto.
    - intros p Hp. apply (exchange_inv n bmsgs bufs bstep back_ok s0 p Hp (I0 p Hp)). intros i s Hi HB. apply bstep_ok; auto.
  Qed.

  (** ** The first partner that sent a global ID *)
  Hypothesis Hsorted : forall p i, on n p -> on n i -> StronglySorted Z.lt (cg p i).
  Hypothesis Hrange : forall p g, on n p -> In g (x_gh (xs p) d) -> 0 <= x_gid (xs p) g < 2 ^ 31.
  Definition copy (gid p j g : Z) : Prop := In g (mine j p) /\ x_gid (xs j) g = gid.
  Lemma first_found_ok : forall p b gid, on n p -> back_ok p n b -> 0 <= gid < 2 ^ 31 ->
    exists r, first_found gid (counts p) (fst b) (Rp p) (offs (fun j => sz j p) (Rp p) 0) = Ok r /\
      match r with
      | None => forall j g, on n j -> ~ copy gid p j g
      | Some i => exists t s, i = bbase p t + Z.of_nat s /\ (t < length (Rp p))%nat /\ (s < length (mine (nth t (Rp p) 0%Z) p))%nat /\ copy gid p (nth t (Rp p) 0) (nth s (mine (nth t (Rp p) 0) p) 0) /\
          (forall j g, on n j -> j < nth t (Rp p) 0 -> ~ copy gid p j g)
      end.
  Proof.
    intros p b gid Hp (_ & _ & HB) Hg.
    assert (NC : forall j g, on n j -> copy gid p j g -> In gid (cg j p)). { intros j g Hj [C1 C2]. unfold cg. rewrite <- C2. apply in_map. auto. }
    assert (RS : StronglySorted Z.lt (Rp p)). { unfold Rp. assert (X : StronglySorted Z.lt (ranks n)) by exact (ranks_sorted n bmsgs). revert X. generalize (ranks n). intros l X. induction X as [|x l X IH F]; cbn; [constructor|]. destruct (flag x p d); auto. constructor; auto. rewrite Forall_forall in *. intros y Hy. apply filter_In in Hy. apply F. tauto. }
    assert (NI : forall j g, on n j -> ~ In j (Rp p) -> ~ copy gid p j g). { intros j g Hj Hn [C1 C2]. apply Hn. apply Rp_in. split; auto. apply sz_flag; auto. unfold sz. destruct (mine j p); [contradiction|cbn [length]; lia]. }
    assert (X : forall l t0, (forall t, (t < length l)%nat -> (t0 + t < length (Rp p))%nat /\ nth t l 0 = nth (t0 + t) (Rp p) 0) -> 
      exists r, first_found gid (counts p) (fst b) l (offs (fun j => sz j p) l (bbase p t0)) = Ok r /\
      match r with None => forall t g, (t < length l)%nat -> ~ copy gid p (nth t l 0) g
      | Some i => exists t s, i = bbase p (t0 + t) + Z.of_nat s /\ (t < length l)%nat /\ (s < length (mine (nth t l 0%Z) p))%nat /\ copy gid p (nth t l 0) (nth s (mine (nth t l 0) p) 0) /\ (forall t' g, (t' < t)%nat -> ~ copy gid p (nth t' l 0) g) end).
    { induction l as [|j l IH]; intros t0 Hl. { cbn. exists None. split; auto. intros; lia. }
      destruct (Hl 0%nat ltac:(cbn; lia)) as [L0 E0]. rewrite Nat.add_0_r in L0, E0. cbn [nth] in E0. assert (Hj : In j (Rp p)) by (rewrite E0; apply nth_In; auto). pose proof (proj1 (Rp_in p j) Hj) as [Oj Fj].
      rewrite offs_S. cbn [first_found]. rewrite counts_rd by auto. cbn [bind]. destruct (HB t0 L0) as [H1 _]. rewrite <- E0. unfold on in Oj. lia. rewrite <- E0 in H1. rewrite <- cg_len.
      destruct (find_ok _ _ _ gid H1) as (r & Er & Hr); auto. { intros x Hx. unfold cg in Hx. apply in_map_iff in Hx. destruct Hx as (g & <- & Hx). apply filter_In in Hx. apply Hrange; tauto. } rewrite Er. cbn [bind]. destruct r as [i|].
      - destruct Hr as [R1 R2]. exists (Some i). split; auto. exists 0%nat, (Z.to_nat (i - bbase p t0)). rewrite Nat.add_0_r. cbn [nth length]. rewrite cg_len in R1. unfold sz in R1. split. lia. split. lia. split. lia. split. 2: intros; lia. split. apply nth_In. lia. rewrite <- R2. unfold cg. rewrite (nth_indep (map (x_gid (xs j)) (mine j p)) 0 (x_gid (xs j) 0)) by (rewrite map_length; lia). rewrite map_nth. auto.
      - rewrite cg_len. replace (bbase p t0 + sz j p) with (bbase p (S t0)). 2: { unfold bbase. rewrite (psum_split (fun j => sz j p)) by auto. rewrite <- E0. auto. }
        destruct (IH (S t0)) as (r & Er' & Hr'). { intros t Ht. destruct (Hl (S t) ltac:(cbn; lia)) as [A B]. cbn [nth] in B. replace (S t0 + t)%nat with (t0 + S t)%nat by lia. auto. }
        exists r. split; auto. destruct r as [i|].
        + destruct Hr' as (t & s & A1 & A2 & A3 & A4 & A5). exists (S t), s. cbn [nth length]. replace (t0 + S t)%nat with (S t0 + t)%nat by lia. split; auto. split. lia. split; auto. split; auto. intros [|t'] g Ht; cbn [nth]. intro C. apply Hr. eapply NC; eauto. apply A5. lia.
        + intros [|t] g Ht; cbn [nth]. intro C. apply Hr. eapply NC; eauto. apply Hr'. cbn in Ht. lia. }
    destruct (X (Rp p) 0%nat) as (r & Er & Hr). { intros t Ht. cbn [Nat.add]. auto. } change (bbase p 0) with 0 in Er. exists r. split; auto. destruct r as [i|].
    - destruct Hr as (t & s & A1 & A2 & A3 & A4 & A5). exists t, s. cbn [Nat.add] in A1. split; auto. split; auto. split; auto. split; auto. intros j g Hj Hlt. destruct (in_dec Z.eq_dec j (Rp p)) as [I|I]; [|apply NI; auto]. destruct (In_nth _ _ 0 I) as (t' & Ht' & <-). apply A5. destruct (Nat.lt_ge_cases t' t) as [|Ge]; auto. exfalso. assert (nth t (Rp p) 0 <= nth t' (Rp p) 0); [|lia]. destruct (Nat.eq_dec t t') as [->|]. lia. apply Z.lt_le_incl. 
      assert (SN : forall l i j, StronglySorted Z.lt l -> (i < j < length l)%nat -> nth i l 0 < nth j l 0). { clear. intros l i j SS. revert i j. induction SS as [|x l SS IH F]; intros i j Hij; cbn in Hij. lia. destruct j; [lia|]. destruct i; cbn [nth]. rewrite Forall_forall in F. apply F, nth_In. lia. apply IH. lia. } apply SN; auto. lia.
    - intros j g Hj. destruct (in_dec Z.eq_dec j (Rp p)) as [I|I]; [|apply NI; auto]. destruct (In_nth _ _ 0 I) as (t' & Ht' & <-). apply Hr. auto.
  Qed.
End Back.
