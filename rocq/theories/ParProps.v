(** C20, C21: parallel adjacency flags, receive counts, and their agreement
    across ranks. *)
From Coq Require Import ZArith List Lia Bool Arith ZifyBool ZifyNat.
From Verif Require Import Base BaseProofs SortModel SortProofs ParModel.
Import ListNotations.
Open Scope Z_scope.

(** ** Specification: what has been flagged and stored, as functions *)
Inductive pop := PFlagG (p t : Z) | PFlagO (p t : Z) | PInit | PSet (p t n : Z).

(** [sg p k]: ghosts of kind k from partition p were flagged; [so p k]: overlaps;
    [si]: the ghost partitions when the receive data was set up, and the counts. *)
Record pspec := mkPS { sg : Z -> Z -> bool; so : Z -> Z -> bool; si : option (list Z * (Z -> Z -> Z)) }.
Definition ps0 : pspec := mkPS (fun _ _ => false) (fun _ _ => false) None.

(** Does flagging type [t] concern kind [k]? (5 is "all kinds") *)
Definition covers (t k : Z) : bool := (t =? k) || (t =? 5).
Definition anyg (s : pspec) (p : Z) : bool := sg s p 0 || sg s p 1 || sg s p 2 || sg s p 3.
Definition zseq (np : Z) : list Z := map Z.of_nat (seq 0 (Z.to_nat np)).
Definition ghostp (np : Z) (s : pspec) : list Z := filter (anyg s) (zseq np).

Definition init_spec (np : Z) (s : pspec) : pspec := mkPS (sg s) (so s) (Some (ghostp np s, fun _ _ => 0)).
Definition pstep (my np : Z) (s : pspec) (o : pop) : pspec :=
  match o with
  | PFlagG p t => mkPS (fun q k => sg s q k || (q =? p) && negb (p =? my) && covers t k) (so s) (si s)
  | PFlagO p t => mkPS (sg s) (fun q k => so s q k || (q =? p) && covers t k) (si s)
  | PInit => init_spec np s
  | PSet p t n =>
      let s := match si s with None => init_spec np s | Some _ => s end in
      match si s with
      | None => s
      | Some (G, c) =>
          if existsb (Z.eqb p) G && (0 <=? t) && (t <=? 3)
          then mkPS (sg s) (so s) (Some (G, fun q k => if (q =? p) && (k =? t) then n else c q k)) else s
      end
  end.

(** Partitions exist, types are values of the enumeration, counts are nonnegative. *)
Definition ppre (np : Z) (o : pop) : Prop :=
  match o with
  | PFlagG p t | PFlagO p t => 0 <= p < np /\ 0 <= t <= 6
  | PInit => True
  | PSet p t n => True
  end.

Definition prun1 (m : pmesh) (o : pop) : result pmesh :=
  match o with
  | PFlagG p t => MESH_Flag_Has_Ghosts_From_Prtn m p t
  | PFlagO p t => MESH_Flag_Has_Overlaps_On_Prtn m p t
  | PInit => MESH_Init_Par_Recv_Info m
  | PSet p t n => MESH_Set_Num_Recv_From_Prtn m p t n
  end.
Fixpoint pruns (m : pmesh) (ops : list pop) : result pmesh :=
  match ops with [] => Ok m | o :: t => m <- prun1 m o ;; pruns m t end.

(** ** Checked access *)
Lemma rdl_ok : forall a i, 0 <= i < Z.of_nat (length a) -> rdl a i = Ok (nth (Z.to_nat i) a 0).
Proof. intros. unfold rdl. replace ((0 <=? i) && (i <? Z.of_nat (length a))) with true by lia. auto. Qed.
Lemma wrl_ok : forall a i x, 0 <= i < Z.of_nat (length a) -> wrl a i x = Ok (upd_nth a (Z.to_nat i) x).
Proof. intros. unfold wrl. replace ((0 <=? i) && (i <? Z.of_nat (length a))) with true by lia. auto. Qed.

(** ** The flags *)
Record finv (my np : Z) (s : pspec) (m : pmesh) : Prop := mkFI {
  fi_my : mypartn m = my; fi_np : numpartns m = np;
  fi_fl : exists f, pflags m = Some f /\ Z.of_nat (length f) = np /\
    forall p, 0 <= p < np -> 0 <= nth (Z.to_nat p) f 0 < 2 ^ 32 /\
      forall k, 0 <= k <= 3 -> Z.testbit (nth (Z.to_nat p) f 0) (2 * k) = sg s p k /\ Z.testbit (nth (Z.to_nat p) f 0) (2 * k + 1) = so s p k }.

Definition rinv (s : pspec) (m : pmesh) : Prop :=
  match si s with
  | None => precv m = None
  | Some (G, c) => exists cs, precv m = Some (Z.of_nat (length G) :: G ++ cs) /\ length cs = (4 * length G)%nat /\ NoDup G /\
      forall i t, (i < length G)%nat -> 0 <= t <= 3 -> nth (4 * i + Z.to_nat t) cs 0 = c (nth i G 0) t
  end.

Lemma lor_bound : forall x s, 0 <= x < 2 ^ 32 -> 0 <= s < 32 -> 0 <= Z.lor x (2 ^ s) < 2 ^ 32.
Proof.
  intros x s Hx Hs. assert (N : 0 <= Z.lor x (2 ^ s)) by (apply Z.lor_nonneg; split; [lia|apply Z.pow_nonneg; lia]). split; auto.
  destruct (Z.eq_dec (Z.lor x (2 ^ s)) 0) as [E|E]; [rewrite E; lia|]. apply Z.log2_lt_pow2; [lia|]. rewrite Z.log2_lor by (try lia; apply Z.pow_nonneg; lia).
  rewrite Z.log2_pow2 by lia. destruct (Z.eq_dec x 0) as [->|]; [cbn; lia|]. assert (Z.log2 x < 32) by (apply Z.log2_lt_pow2; lia). lia.
Qed.

Lemma or_flag_spec : forall my np s m p b, finv my np s m -> 0 <= p < np -> 0 <= b < 8 ->
  exists m', or_flag m p b = Ok m' /\ precv m' = precv m /\
    finv my np (mkPS (fun q k => sg s q k || (q =? p) && (2 * k =? b)) (fun q k => so s q k || (q =? p) && (2 * k + 1 =? b)) (si s)) m'.
Proof.
  intros my np s m p b [E1 E2 [f [E3 [E4 E5]]]] Hp Hb. unfold or_flag. rewrite E3. rewrite shl1_ok by lia. cbn [bind].
  rewrite rdl_ok by lia. cbn [bind]. rewrite wrl_ok by lia. cbn [bind]. eexists. split; [reflexivity|]. split; [reflexivity|].
  constructor; auto. cbn [pflags sg so]. eexists. split; [reflexivity|]. split; [rewrite upd_nth_length; auto|].
  intros q Hq. rewrite nth_upd_nth. destruct (E5 p Hp) as [B1 B2]. destruct (E5 q Hq) as [C1 C2].
  unfold u32. rewrite Z.mod_small by (apply lor_bound; lia).
  destruct ((Z.to_nat q =? Z.to_nat p)%nat) eqn:EQ.
  - assert (q = p) by lia. subst q. replace (Z.to_nat p <? length f)%nat with true by lia. cbn [andb].
    split; [apply lor_bound; lia|]. intros k Hk. rewrite !Z.lor_spec. destruct (B2 k Hk) as [-> ->].
    rewrite !Z.pow2_bits_eqb by lia. rewrite !(Z.eqb_sym b). replace (p =? p) with true by lia. auto.
  - cbn [andb]. split; auto. intros k Hk. replace (q =? p) with false by lia. cbn [andb]. rewrite !orb_false_r. auto.
Qed.

Lemma get_flag_spec : forall f p s, 0 <= p < Z.of_nat (length f) -> 0 <= s < 32 ->
  get_flag f p s = Ok (Z.b2z (Z.testbit (nth (Z.to_nat p) f 0) s)).
Proof.
  intros f p s Hp Hs. unfold get_flag. replace ((0 <=? s) && (s <? 32)) with true by lia. rewrite rdl_ok by lia. cbn [bind]. f_equal.
  change 1 with (Z.ones 1). rewrite Z.land_ones by lia. change (2 ^ 1) with 2. rewrite <- Z.bit0_mod. rewrite Z.shiftr_spec by lia. f_equal.
Qed.

(** The flags depend on the spec only pointwise on the kinds 0..3. *)
Lemma finv_ext : forall my np s s' m, finv my np s m ->
  (forall p k, 0 <= p < np -> 0 <= k <= 3 -> sg s' p k = sg s p k /\ so s' p k = so s p k) -> finv my np s' m.
Proof.
  intros my np s s' m [E1 E2 [f [E3 [E4 E5]]]] H. constructor; auto. exists f. split; auto. split; auto.
  intros p Hp. destruct (E5 p Hp) as [A B]. split; auto. intros k Hk. destruct (H p k Hp Hk) as [-> ->]. auto.
Qed.

Lemma flagG_spec : forall my np s m p t, finv my np s m -> 0 <= p < np -> 0 <= t <= 6 ->
  exists m', MESH_Flag_Has_Ghosts_From_Prtn m p t = Ok m' /\ precv m' = precv m /\ finv my np (pstep my np s (PFlagG p t)) m'.
Proof.
  intros my np s m p t I Hp Ht. unfold MESH_Flag_Has_Ghosts_From_Prtn. rewrite (fi_my _ _ _ _ I).
  destruct (p =? my) eqn:EM.
  { exists m. split; auto. split; auto. apply (finv_ext _ _ s); auto. intros q k _ _. cbn [pstep sg so]. rewrite EM. cbn [negb]. rewrite andb_false_r. cbn [andb]. rewrite orb_false_r. auto. }
  unfold MUNKNOWNTYPE, MANYTYPE, MALLTYPE. destruct ((t =? 4) || (t =? 6)) eqn:E4.
  { exists m. split; auto. split; auto. apply (finv_ext _ _ s); auto. intros q k _ Hk. cbn [pstep sg so]. replace (covers t k) with false by (unfold covers; lia).
    rewrite andb_false_r, orb_false_r. auto. }
  destruct (t =? 5) eqn:E5.
  - destruct (or_flag_spec my np s m p 0 I Hp ltac:(lia)) as [m1 [A1 [A2 A3]]]. rewrite A1. cbn [bind].
    destruct (or_flag_spec _ _ _ m1 p 2 A3 Hp ltac:(lia)) as [m2 [B1 [B2 B3]]]. rewrite B1. cbn [bind].
    destruct (or_flag_spec _ _ _ m2 p 4 B3 Hp ltac:(lia)) as [m3 [C1 [C2 C3]]]. rewrite C1. cbn [bind].
    destruct (or_flag_spec _ _ _ m3 p 6 C3 Hp ltac:(lia)) as [m4 [D1 [D2 D3]]]. exists m4. split; auto. split; [congruence|].
    apply (finv_ext _ _ _ _ _ D3). intros q k Hq Hk. cbn [pstep sg so]. unfold covers. destruct (q =? p), (sg s q k), (so s q k); cbn [andb orb negb]; split; lia.
  - destruct (or_flag_spec my np s m p (2 * t) I Hp ltac:(lia)) as [m1 [A1 [A2 A3]]]. exists m1. split; auto. split; auto.
    apply (finv_ext _ _ _ _ _ A3). intros q k Hq Hk. cbn [pstep sg so]. unfold covers. destruct (q =? p), (sg s q k), (so s q k); cbn [andb orb negb]; split; lia.
Qed.

Lemma flagO_spec : forall my np s m p t, finv my np s m -> 0 <= p < np -> 0 <= t <= 6 ->
  exists m', MESH_Flag_Has_Overlaps_On_Prtn m p t = Ok m' /\ precv m' = precv m /\ finv my np (pstep my np s (PFlagO p t)) m'.
Proof.
  intros my np s m p t I Hp Ht. unfold MESH_Flag_Has_Overlaps_On_Prtn.
  unfold MUNKNOWNTYPE, MANYTYPE, MALLTYPE. destruct ((t =? 4) || (t =? 6)) eqn:E4.
  { exists m. split; auto. split; auto. apply (finv_ext _ _ s); auto. intros q k _ Hk. cbn [pstep sg so]. replace (covers t k) with false by (unfold covers; lia).
    rewrite andb_false_r, orb_false_r. auto. }
  destruct (t =? 5) eqn:E5.
  - destruct (or_flag_spec my np s m p 1 I Hp ltac:(lia)) as [m1 [A1 [A2 A3]]]. rewrite A1. cbn [bind].
    destruct (or_flag_spec _ _ _ m1 p 3 A3 Hp ltac:(lia)) as [m2 [B1 [B2 B3]]]. rewrite B1. cbn [bind].
    destruct (or_flag_spec _ _ _ m2 p 5 B3 Hp ltac:(lia)) as [m3 [C1 [C2 C3]]]. rewrite C1. cbn [bind].
    destruct (or_flag_spec _ _ _ m3 p 7 C3 Hp ltac:(lia)) as [m4 [D1 [D2 D3]]]. exists m4. split; auto. split; [congruence|].
    apply (finv_ext _ _ _ _ _ D3). intros q k Hq Hk. cbn [pstep sg so]. unfold covers. destruct (q =? p), (sg s q k), (so s q k); cbn [andb orb negb]; split; lia.
  - destruct (or_flag_spec my np s m p (2 * t + 1) I Hp ltac:(lia)) as [m1 [A1 [A2 A3]]]. exists m1. split; auto. split; auto.
    apply (finv_ext _ _ _ _ _ A3). intros q k Hq Hk. cbn [pstep sg so]. unfold covers. destruct (q =? p), (sg s q k), (so s q k); cbn [andb orb negb]; split; lia.
Qed.

(** The answer for a type, given the flags of the four kinds. *)
Definition answer (b : Z -> bool) (t : Z) : bool :=
  if t =? 4 then false else if t =? 5 then b 0 && b 1 && b 2 && b 3 else if t =? 6 then b 0 || b 1 || b 2 || b 3 else b t.

Lemma b2z_lor4 : forall a b c d, Z.lor (Z.lor (Z.lor (Z.b2z a) (Z.b2z b)) (Z.b2z c)) (Z.b2z d) = Z.b2z (a || b || c || d).
Proof. destruct a, b, c, d; reflexivity. Qed.
Lemma b2z_land4 : forall a b c d, Z.land (Z.land (Z.land (Z.b2z a) (Z.b2z b)) (Z.b2z c)) (Z.b2z d) = Z.b2z (a && b && c && d).
Proof. destruct a, b, c, d; reflexivity. Qed.

Lemma hasG_spec : forall my np s m p t, finv my np s m -> 0 <= p < np -> 0 <= t <= 6 ->
  MESH_Has_Ghosts_From_Prtn m p t = Ok (Z.b2z (answer (sg s p) t)).
Proof.
  intros my np s m p t [E1 E2 [f [E3 [E4 E5]]]] Hp Ht. unfold MESH_Has_Ghosts_From_Prtn, answer, MUNKNOWNTYPE, MANYTYPE, MALLTYPE. rewrite E3.
  destruct (E5 p Hp) as [_ B]. destruct (t =? 4) eqn:T4; auto.
  assert (L0 : 0 <= 0 <= 3 /\ 0 <= 1 <= 3 /\ 0 <= 2 <= 3 /\ 0 <= 3 <= 3) by lia. destruct L0 as [L0 [L1 [L2 L3]]].
  assert (Hl : 0 <= p < Z.of_nat (length f)) by lia. clear E1 E2 E3 E4 E5 Hp.
  assert (X : forall s, 0 <= s < 32 -> get_flag f p s = Ok (Z.b2z (Z.testbit (nth (Z.to_nat p) f 0) s))) by (intros; apply get_flag_spec; auto). clear Hl.
  destruct (t =? 6) eqn:T6; [replace (t =? 5) with false by lia|destruct (t =? 5) eqn:T5].
  - clear T4 T6 Ht. rewrite !X by lia. cbn [bind]. destruct (B 0 L0) as [B0 _]. destruct (B 1 L1) as [B1 _]. destruct (B 2 L2) as [B2 _]. destruct (B 3 L3) as [B3 _].
    change (2 * 0) with 0 in B0. change (2 * 1) with 2 in B1. change (2 * 2) with 4 in B2. change (2 * 3) with 6 in B3.
    rewrite B0, B1, B2, B3, b2z_lor4. auto.
  - clear T4 T5 T6 Ht. rewrite !X by lia. cbn [bind]. destruct (B 0 L0) as [B0 _]. destruct (B 1 L1) as [B1 _]. destruct (B 2 L2) as [B2 _]. destruct (B 3 L3) as [B3 _].
    change (2 * 0) with 0 in B0. change (2 * 1) with 2 in B1. change (2 * 2) with 4 in B2. change (2 * 3) with 6 in B3.
    rewrite B0, B1, B2, B3, b2z_land4. auto.
  - assert (0 <= t <= 3) by lia. rewrite X by lia. destruct (B t ltac:(auto)) as [-> _]. auto.
Qed.

Lemma hasO_spec : forall my np s m p t, finv my np s m -> 0 <= p < np -> 0 <= t <= 6 ->
  MESH_Has_Overlaps_On_Prtn m p t = Ok (Z.b2z (answer (so s p) t)).
Proof.
  intros my np s m p t [E1 E2 [f [E3 [E4 E5]]]] Hp Ht. unfold MESH_Has_Overlaps_On_Prtn, answer, MUNKNOWNTYPE, MANYTYPE, MALLTYPE. rewrite E3.
  destruct (E5 p Hp) as [_ B]. destruct (t =? 4) eqn:T4; auto.
  assert (L0 : 0 <= 0 <= 3 /\ 0 <= 1 <= 3 /\ 0 <= 2 <= 3 /\ 0 <= 3 <= 3) by lia. destruct L0 as [L0 [L1 [L2 L3]]].
  assert (Hl : 0 <= p < Z.of_nat (length f)) by lia. clear E1 E2 E3 E4 E5 Hp.
  assert (X : forall s, 0 <= s < 32 -> get_flag f p s = Ok (Z.b2z (Z.testbit (nth (Z.to_nat p) f 0) s))) by (intros; apply get_flag_spec; auto). clear Hl.
  destruct (t =? 6) eqn:T6; [replace (t =? 5) with false by lia|destruct (t =? 5) eqn:T5].
  - clear T4 T6 Ht. rewrite !X by lia. cbn [bind]. destruct (B 0 L0) as [_ B0]. destruct (B 1 L1) as [_ B1]. destruct (B 2 L2) as [_ B2]. destruct (B 3 L3) as [_ B3].
    change (2 * 0 + 1) with 1 in B0. change (2 * 1 + 1) with 3 in B1. change (2 * 2 + 1) with 5 in B2. change (2 * 3 + 1) with 7 in B3.
    rewrite B0, B1, B2, B3, b2z_lor4. auto.
  - clear T4 T5 T6 Ht. rewrite !X by lia. cbn [bind]. destruct (B 0 L0) as [_ B0]. destruct (B 1 L1) as [_ B1]. destruct (B 2 L2) as [_ B2]. destruct (B 3 L3) as [_ B3].
    change (2 * 0 + 1) with 1 in B0. change (2 * 1 + 1) with 3 in B1. change (2 * 2 + 1) with 5 in B2. change (2 * 3 + 1) with 7 in B3.
    rewrite B0, B1, B2, B3, b2z_land4. auto.
  - assert (0 <= t <= 3) by lia. rewrite X by lia. destruct (B t ltac:(auto)) as [_ ->]. auto.
Qed.

(** ** The receive data *)
Lemma hasAny : forall my np s m p, finv my np s m -> 0 <= p < np -> MESH_Has_Ghosts_From_Prtn m p MANYTYPE = Ok (Z.b2z (anyg s p)).
Proof. intros. rewrite (hasG_spec my np s) by (auto; unfold MANYTYPE; lia). reflexivity. Qed.

Definition seg (i : Z) (n : nat) : list Z := map (fun j => i + Z.of_nat j) (seq 0 n).
Lemma seg_S : forall i n, seg i (S n) = i :: seg (i + 1) n.
Proof. intros. unfold seg. cbn [seq map]. f_equal; [lia|]. rewrite <- seq_shift, map_map. apply map_ext. intros. lia. Qed.
Lemma zseq_seg : forall np, zseq np = seg 0 (Z.to_nat np).
Proof. intros. unfold zseq, seg. apply map_ext. intros. lia. Qed.

Lemma count_gh_spec : forall my np s m, finv my np s m -> forall n i g, 0 <= i -> i + Z.of_nat n <= np ->
  count_gh n m i g = Ok (g + Z.of_nat (length (filter (anyg s) (seg i n)))).
Proof.
  intros my np s m I. induction n; intros i g Hi Hn; cbn [count_gh]; [cbn; f_equal; lia|].
  rewrite (hasAny my np s) by (auto; lia). cbn [bind]. rewrite IHn by lia. rewrite seg_S. cbn [filter]. destruct (anyg s i); cbn [Z.b2z Z.eqb length]; f_equal; lia.
Qed.

Lemma upd_nth_app_at : forall A (a : list A) x b y n, n = length a -> upd_nth (a ++ x :: b) n y = a ++ y :: b.
Proof. intros. subst n. induction a; cbn; auto. f_equal. auto. Qed.

Lemma repeat_snoc : forall A (x : A) n, repeat x (S n) = x :: repeat x n.
Proof. reflexivity. Qed.

Lemma fill_gh_spec : forall my np s m, finv my np s m -> forall n i G cs, 0 <= i -> i + Z.of_nat n <= np ->
  forall hd, (length (filter (anyg s) (seg i n)) <= length cs)%nat ->
  fill_gh n m (hd :: G ++ cs) i (Z.of_nat (length G)) =
  Ok (hd :: (G ++ filter (anyg s) (seg i n)) ++ skipn (length (filter (anyg s) (seg i n))) cs).
Proof.
  intros my np s m I. induction n; intros i G cs Hi Hn hd HL; cbn [fill_gh]; [cbn; rewrite app_nil_r; auto|].
  rewrite (hasAny my np s) by (auto; lia). cbn [bind]. rewrite seg_S in *. cbn [filter] in *. destruct (anyg s i) eqn:E; cbn [Z.b2z Z.eqb].
  - destruct cs as [|c cs]; [cbn [length] in HL; lia|]. cbn [length] in HL. rewrite wrl_ok by (cbn [length]; rewrite app_length; cbn [length]; lia). cbn [bind].
    replace (Z.to_nat (1 + Z.of_nat (length G))) with (S (length G)) by lia. cbn [upd_nth]. rewrite upd_nth_app_at by auto.
    replace (G ++ i :: cs) with ((G ++ [i]) ++ cs) by (rewrite <- app_assoc; auto).
    replace (Z.of_nat (length G) + 1) with (Z.of_nat (length (G ++ [i]))) by (rewrite app_length; cbn [length]; lia).
    rewrite IHn by lia. cbn [length skipn]. rewrite <- !app_assoc. auto.
  - rewrite IHn by (auto; lia). auto.
Qed.

Lemma NoDup_zseq : forall np, NoDup (zseq np).
Proof. intros. unfold zseq. apply FinFun.Injective_map_NoDup; [intros a b; lia|apply seq_NoDup]. Qed.
Lemma zseq_In : forall np p, In p (zseq np) <-> 0 <= p < np.
Proof.
  intros. unfold zseq. rewrite in_map_iff. split.
  - intros [x [<- H]]. apply in_seq in H. lia.
  - intros H. exists (Z.to_nat p). rewrite in_seq. lia.
Qed.

Lemma skipn_repeat : forall A (x : A) n m, skipn n (repeat x m) = repeat x (m - n).
Proof. induction n; intros; cbn [skipn]; [f_equal; lia|]. destruct m; cbn [repeat]; auto. rewrite IHn. auto. Qed.

Lemma init_spec_ok : forall my np s m, finv my np s m -> 0 <= np ->
  exists m', MESH_Init_Par_Recv_Info m = Ok m' /\ finv my np (init_spec np s) m' /\ rinv (init_spec np s) m'.
Proof.
  intros my np s m I Hnp. unfold MESH_Init_Par_Recv_Info. rewrite (fi_np _ _ _ _ I). rewrite (count_gh_spec my np s) by (auto; lia). cbn [bind].
  rewrite <- zseq_seg. fold (ghostp np s). set (G := ghostp np s). replace (0 + Z.of_nat (length G)) with (Z.of_nat (length G)) by lia.
  replace (Z.to_nat (1 + 5 * Z.of_nat (length G))) with (S (5 * length G)) by lia.
  rewrite wrl_ok by (rewrite repeat_length; lia). cbn [bind]. cbn [repeat]. change (Z.to_nat 0) with O. cbn [upd_nth].
  pose proof (fill_gh_spec my np s m I (Z.to_nat np) 0 [] (repeat 0 (5 * length G)) ltac:(lia) ltac:(lia) (Z.of_nat (length G))) as F.
  rewrite <- zseq_seg in F. fold (ghostp np s) in F. fold G in F. specialize (F ltac:(rewrite repeat_length; lia)). cbn [length app] in F.
  change (Z.of_nat 0) with 0 in F. rewrite F. cbn [bind].
  eexists. split; [reflexivity|]. split.
  - destruct I as [E1 E2 E3]. constructor; auto.
  - unfold rinv. cbn [init_spec si precv app]. fold G. rewrite skipn_repeat.
    eexists. split; [reflexivity|]. split; [rewrite repeat_length; lia|]. split; [apply NoDup_filter; apply NoDup_zseq|].
    intros i t Hi Ht. rewrite nth_repeat. auto.
Qed.

Lemma find_prtn_spec : forall hd cs p G a, find_prtn (length G) (hd :: (a ++ G) ++ cs) p (Z.of_nat (length a)) =
  Ok (match find (fun i => nth i G 0 =? p) (seq 0 (length G)) with Some i => Some (Z.of_nat (length a + i)) | None => None end).
Proof.
  intros hd cs p. induction G as [|x G IH]; intros a; cbn [find_prtn length]; [reflexivity|].
  rewrite rdl_ok by (cbn [length]; rewrite !app_length; cbn [length]; lia). cbn [bind].
  replace (Z.to_nat (1 + Z.of_nat (length a))) with (S (length a)) by lia. cbn [nth]. rewrite <- app_assoc. rewrite app_nth2, Nat.sub_diag by lia. cbn [app nth].
  cbn [seq find nth]. destruct (x =? p) eqn:E; [f_equal; f_equal; lia|].
  replace (a ++ x :: G ++ cs) with (((a ++ [x]) ++ G) ++ cs) by (rewrite <- !app_assoc; auto).
  replace (Z.of_nat (length a) + 1) with (Z.of_nat (length (a ++ [x]))) by (rewrite app_length; cbn [length]; lia). rewrite IH.
  rewrite <- seq_shift. f_equal. generalize (seq 0 (length G)). intros l. induction l as [|j l IHl]; cbn [map find nth]; auto.
  destruct (nth j G 0 =? p); auto. f_equal. rewrite app_length. cbn [length]. lia.
Qed.

Lemma find_pos : forall p G, match find (fun i => nth i G 0 =? p) (seq 0 (length G)) with
  | Some i => (i < length G)%nat /\ nth i G 0 = p | None => ~ In p G end.
Proof.
  intros p G. destruct (find (fun i => nth i G 0 =? p) (seq 0 (length G))) eqn:E.
  - apply find_some in E. destruct E as [A B]. apply in_seq in A. split; lia.
  - intro H. destruct (In_nth _ _ 0 H) as [i [Hi Ei]]. assert (X := find_none _ _ E i ltac:(apply in_seq; lia)). cbv beta in X. lia.
Qed.

Lemma existsb_In : forall p G, existsb (Z.eqb p) G = true <-> In p G.
Proof. intros. rewrite existsb_exists. split; [intros [x [A B]]; replace p with x by lia; auto|intros; exists p; split; auto; lia]. Qed.

Lemma set_recv_spec : forall my np s m p t n, finv my np s m -> rinv s m -> 0 <= np ->
  exists m', MESH_Set_Num_Recv_From_Prtn m p t n = Ok m' /\ finv my np (pstep my np s (PSet p t n)) m' /\ rinv (pstep my np s (PSet p t n)) m'.
Proof.
  intros my np s m p t n I R Hnp. unfold MESH_Set_Num_Recv_From_Prtn. cbn [pstep].
  assert (exists m1 s1, match precv m with None => MESH_Init_Par_Recv_Info m | Some _ => Ok m end = Ok m1 /\
     s1 = match si s with None => init_spec np s | Some _ => s end /\ finv my np s1 m1 /\ rinv s1 m1 /\ si s1 <> None) as [m1 [s1 [A [B [C [D E]]]]]].
  { pose proof R as R0. unfold rinv in R. destruct (si s) as [[G c]|] eqn:ES.
    - destruct R as [cs [R _]]. rewrite R. exists m, s. rewrite ES. repeat split; auto. apply I. apply I. apply (fi_fl _ _ _ _ I). discriminate.
    - rewrite R. destruct (init_spec_ok my np s m I Hnp) as [m1 [F [F2 F3]]]. exists m1, (init_spec np s). split; auto. split; auto. split; auto. split; auto. cbn. discriminate. }
  rewrite A. cbn [bind]. rewrite <- B. clear I R A B. destruct (si s1) as [[G c]|] eqn:ES; [|congruence].
  pose proof D as D0. unfold rinv in D. rewrite ES in D. destruct D as [cs [D1 [D2 [D3 D4]]]].
  destruct ((t <? 0) || (t >? 3)) eqn:ET.
  { replace (existsb (Z.eqb p) G && (0 <=? t) && (t <=? 3)) with false by lia. exists m1. auto. }
  rewrite D1. rewrite rdl_ok by (cbn [length]; lia). cbn [bind]. change (Z.to_nat 0) with O. cbn [nth]. rewrite Nat2Z.id.
  pose proof (find_prtn_spec (Z.of_nat (length G)) cs p G []) as F. cbn [app length] in F. change (Z.of_nat 0) with 0 in F. rewrite F. cbn [bind].
  pose proof (find_pos p G) as P. destruct (find (fun i => nth i G 0 =? p) (seq 0 (length G))) as [i|].
  - destruct P as [P1 P2]. cbn [Nat.add]. replace (existsb (Z.eqb p) G) with true by (symmetry; apply existsb_In; rewrite <- P2; apply nth_In; auto).
    replace (true && (0 <=? t) && (t <=? 3)) with true by lia.
    rewrite wrl_ok by (cbn [length]; rewrite app_length; lia). cbn [bind]. eexists. split; [reflexivity|]. split.
    + destruct C as [C1 C2 C3]. constructor; auto.
    + unfold rinv. cbn [si precv]. exists (upd_nth cs (4 * i + Z.to_nat t) n).
      replace (Z.to_nat (1 + Z.of_nat (length G) + 4 * Z.of_nat i + t)) with (S (length G + (4 * i + Z.to_nat t))) by lia. cbn [upd_nth]. rewrite upd_nth_app2.
      split; auto. split; [rewrite upd_nth_length; auto|]. split; auto. intros i' t' Hi' Ht'. rewrite nth_upd_nth.
      replace (4 * i + Z.to_nat t <? length cs)%nat with true by lia.
      destruct ((4 * i' + Z.to_nat t' =? 4 * i + Z.to_nat t)%nat) eqn:EE.
      * assert (i' = i) by lia. assert (t' = t) by lia. subst i' t'. rewrite P2. replace ((p =? p) && (t =? t)) with true by lia. auto.
      * replace ((nth i' G 0 =? p) && (t' =? t)) with false; [apply D4; auto|].
        destruct (t' =? t) eqn:E2; [|lia]. destruct (nth i' G 0 =? p) eqn:E1; auto. exfalso.
        assert (i' = i); [|lia]. apply (proj1 (NoDup_nth G 0) D3); auto. lia.
  - replace (existsb (Z.eqb p) G) with false by (symmetry; apply not_true_is_false; rewrite existsb_In; auto). cbn [andb]. exists m1. auto.
Qed.

Lemma num_recv_spec : forall my np s m p t, finv my np s m -> rinv s m -> 0 <= t <= 3 ->
  MESH_Num_Recv_From_Prtn m p t = match si s with None => Fatal | Some (G, c) => Ok (if (p =? my) || negb (existsb (Z.eqb p) G) then 0 else c p t) end.
Proof.
  intros my np s m p t I R Ht. unfold MESH_Num_Recv_From_Prtn. replace ((t <? 0) || (t >? 3)) with false by lia. rewrite (fi_my _ _ _ _ I).
  unfold rinv in R. destruct (si s) as [[G c]|] eqn:ES; [|rewrite R; auto]. destruct R as [cs [D1 [D2 [D3 D4]]]]. rewrite D1.
  destruct (p =? my); auto. cbn [orb]. rewrite rdl_ok by (cbn [length]; lia). cbn [bind]. change (Z.to_nat 0) with O. cbn [nth]. rewrite Nat2Z.id.
  pose proof (find_prtn_spec (Z.of_nat (length G)) cs p G []) as F. cbn [app length] in F. change (Z.of_nat 0) with 0 in F. rewrite F. cbn [bind].
  pose proof (find_pos p G) as P. destruct (find (fun i => nth i G 0 =? p) (seq 0 (length G))) as [i|].
  - destruct P as [P1 P2]. cbn [Nat.add]. replace (existsb (Z.eqb p) G) with true by (symmetry; apply existsb_In; rewrite <- P2; apply nth_In; auto). cbn [negb].
    rewrite rdl_ok by (cbn [length]; rewrite app_length; lia). replace (Z.to_nat (1 + Z.of_nat (length G) + 4 * Z.of_nat i + t)) with (S (length G + (4 * i + Z.to_nat t))) by lia.
    cbn [nth]. rewrite app_nth2_plus. rewrite D4 by auto. rewrite P2. auto.
  - replace (existsb (Z.eqb p) G) with false by (symmetry; apply not_true_is_false; rewrite existsb_In; auto). auto.
Qed.

Lemma prun1_spec : forall my np s m o, finv my np s m -> rinv s m -> 0 <= np -> ppre np o ->
  exists m', prun1 m o = Ok m' /\ finv my np (pstep my np s o) m' /\ rinv (pstep my np s o) m'.
Proof.
  intros my np s m o I R Hnp H. destruct o as [p t|p t| |p t n]; cbn [prun1 ppre] in *.
  - destruct (flagG_spec my np s m p t I ltac:(lia) ltac:(lia)) as [m' [A [B C]]]. exists m'. split; auto. split; auto.
    unfold rinv in *. cbn [pstep si]. rewrite B. auto.
  - destruct (flagO_spec my np s m p t I ltac:(lia) ltac:(lia)) as [m' [A [B C]]]. exists m'. split; auto. split; auto.
    unfold rinv in *. cbn [pstep si]. rewrite B. auto.
  - apply init_spec_ok; auto.
  - apply set_recv_spec; auto.
Qed.

Lemma pruns_spec : forall my np ops s m, finv my np s m -> rinv s m -> 0 <= np -> Forall (ppre np) ops ->
  exists m', pruns m ops = Ok m' /\ finv my np (fold_left (pstep my np) ops s) m' /\ rinv (fold_left (pstep my np) ops s) m'.
Proof.
  intros my np ops. induction ops as [|o ops IH]; intros s m I R Hnp H; cbn [pruns fold_left]; [eauto|]. inversion H. subst.
  destruct (prun1_spec my np s m o I R Hnp H2) as [m' [A [B C]]]. rewrite A. cbn [bind]. apply IH; auto.
Qed.

Lemma fresh_inv : forall my np, 0 <= np -> finv my np ps0 (MESH_Set_Prtn pmesh_new my np) /\ rinv ps0 (MESH_Set_Prtn pmesh_new my np).
Proof.
  intros my np Hnp. split; [|reflexivity]. constructor; auto. cbn [MESH_Set_Prtn pflags pmesh_new]. eexists. split; [reflexivity|].
  split; [rewrite repeat_length; lia|]. intros p Hp. rewrite nth_repeat. split; [lia|]. intros k Hk. cbn [ps0 sg so]. rewrite !Z.bits_0. auto.
Qed.

(** ** C20 *)
Theorem C20_history : forall my np ops, 0 <= np -> Forall (ppre np) ops ->
  exists m, pruns (MESH_Set_Prtn pmesh_new my np) ops = Ok m /\
    let s := fold_left (pstep my np) ops ps0 in
    (forall p t, 0 <= p < np -> 0 <= t <= 6 ->
       MESH_Has_Ghosts_From_Prtn m p t = Ok (Z.b2z (answer (sg s p) t)) /\ MESH_Has_Overlaps_On_Prtn m p t = Ok (Z.b2z (answer (so s p) t))) /\
    (forall p t, 0 <= t <= 3 -> MESH_Num_Recv_From_Prtn m p t =
       match si s with None => Fatal | Some (G, c) => Ok (if (p =? my) || negb (existsb (Z.eqb p) G) then 0 else c p t) end) /\
    (exists m', MESH_GhostPrtns m = Ok (m', match si s with None => ghostp np s | Some (G, _) => G end)).
Proof.
  intros my np ops Hnp H. destruct (fresh_inv my np Hnp) as [I0 R0]. destruct (pruns_spec my np ops ps0 _ I0 R0 Hnp H) as [m [A [I R]]].
  exists m. split; auto. cbv zeta. set (s := fold_left (pstep my np) ops ps0) in *. split; [|split].
  - intros p t Hp Ht. split; [eapply hasG_spec|eapply hasO_spec]; eauto.
  - intros p t Ht. eapply num_recv_spec; eauto.
  - unfold MESH_GhostPrtns.
    assert (exists m1 G cs, match precv m with None => MESH_Init_Par_Recv_Info m | Some _ => Ok m end = Ok m1 /\ precv m1 = Some (Z.of_nat (length G) :: G ++ cs) /\
       G = match si s with None => ghostp np s | Some (G, _) => G end) as [m1 [G [cs [B [C D]]]]].
    { unfold rinv in R. destruct (si s) as [[G c]|] eqn:ES.
      - destruct R as [cs [R _]]. rewrite R. eauto 10.
      - rewrite R. destruct (init_spec_ok my np s m I Hnp) as [m1 [F [F2 F3]]]. unfold rinv in F3. cbn [init_spec si] in F3. destruct F3 as [cs [F3 _]]. eauto 10. }
    rewrite B. cbn [bind]. rewrite C. rewrite rdl_ok by (cbn [length]; lia). cbn [bind]. change (Z.to_nat 0) with O. cbn [nth].
    replace ((0 <=? Z.of_nat (length G)) && (1 + Z.of_nat (length G) <=? Z.of_nat (length (Z.of_nat (length G) :: G ++ cs)))) with true by (cbn [length]; rewrite app_length; lia).
    exists m1. cbn [skipn]. rewrite Nat2Z.id. rewrite firstn_app, Nat.sub_diag, firstn_all. cbn [firstn]. rewrite app_nil_r, <- D. auto.
Qed.
Print Assumptions C20_history.

(** In words: the flag for partition p and kind k is set exactly when the history
    contains a call for that partition and that kind (or all kinds). *)
Lemma sg_iff : forall my np ops s p k, sg (fold_left (pstep my np) ops s) p k = true <->
  sg s p k = true \/ p <> my /\ exists t, In (PFlagG p t) ops /\ (t = k \/ t = 5).
Proof.
  intros my np ops. induction ops as [|o ops IH]; intros s p k; cbn [fold_left].
  - split; auto. intros [A|[_ [t [[] _]]]]; auto.
  - rewrite IH. destruct o as [q t|q t| |q t n]; cbn [pstep sg].
    + rewrite orb_true_iff, !andb_true_iff. unfold covers. split.
      * intros [[A|[[A B] C]]|[A [t' [B C]]]]; auto.
        -- right. split; [lia|]. exists t. split; [left; f_equal; lia|lia].
        -- right. split; auto. exists t'. split; auto. right. auto.
      * intros [A|[A [t' [[B|B] C]]]]; auto.
        -- inversion B. subst. left. right. lia.
        -- right. split; auto. exists t'. auto.
    + split; (intros [A|[A [t' [B C]]]]; auto; right; split; auto; exists t'; split; auto).
      right; auto. destruct B as [B|B]; [discriminate|auto].
    + unfold init_spec. cbn [sg]. split; (intros [A|[A [t' [B C]]]]; auto; right; split; auto; exists t'; split; auto).
      right; auto. destruct B as [B|B]; [discriminate|auto].
    + assert (E : forall x, sg (match si x with None => x | Some (G, c) =>
          if existsb (Z.eqb q) G && (0 <=? t) && (t <=? 3) then mkPS (sg x) (so x) (Some (G, fun q0 k0 => if (q0 =? q) && (k0 =? t) then n else c q0 k0)) else x end) p k = sg x p k).
      { intros x. destruct (si x) as [[G c]|]; auto. destruct (_ && _ && _); auto. }
      rewrite E. replace (sg (match si s with Some _ => s | None => init_spec np s end) p k) with (sg s p k) by (destruct (si s); auto).
      split; (intros [A|[A [t' [B C]]]]; auto; right; split; auto; exists t'; split; auto).
      right; auto. destruct B as [B|B]; [discriminate|auto].
Qed.
Lemma so_iff : forall my np ops s p k, so (fold_left (pstep my np) ops s) p k = true <->
  so s p k = true \/ exists t, In (PFlagO p t) ops /\ (t = k \/ t = 5).
Proof.
  intros my np ops. induction ops as [|o ops IH]; intros s p k; cbn [fold_left].
  - split; auto. intros [A|[t [[] _]]]; auto.
  - rewrite IH. destruct o as [q t|q t| |q t n]; cbn [pstep so].
    + split; (intros [A|[t' [B C]]]; auto; right; exists t'; split; auto).
      right; auto. destruct B as [B|B]; [discriminate|auto].
    + rewrite orb_true_iff, !andb_true_iff. unfold covers. split.
      * intros [[A|[A C]]|[t' [B C]]]; auto.
        -- right. exists t. split; [left; f_equal; lia|lia].
        -- right. exists t'. split; auto. right. auto.
      * intros [A|[t' [[B|B] C]]]; auto.
        -- inversion B. subst. left. right. lia.
        -- right. exists t'. auto.
    + unfold init_spec. cbn [so]. split; (intros [A|[t' [B C]]]; auto; right; exists t'; split; auto).
      right; auto. destruct B as [B|B]; [discriminate|auto].
    + assert (E : forall x, so (match si x with None => x | Some (G, c) =>
          if existsb (Z.eqb q) G && (0 <=? t) && (t <=? 3) then mkPS (sg x) (so x) (Some (G, fun q0 k0 => if (q0 =? q) && (k0 =? t) then n else c q0 k0)) else x end) p k = so x p k).
      { intros x. destruct (si x) as [[G c]|]; auto. destruct (_ && _ && _); auto. }
      rewrite E. replace (so (match si s with Some _ => s | None => init_spec np s end) p k) with (so s p k) by (destruct (si s); auto).
      split; (intros [A|[t' [B C]]]; auto; right; exists t'; split; auto).
      right; auto. destruct B as [B|B]; [discriminate|auto].
Qed.

Theorem C20_independent : forall my np ops m, 0 <= np -> Forall (ppre np) ops -> pruns (MESH_Set_Prtn pmesh_new my np) ops = Ok m ->
  forall p k, 0 <= p < np -> 0 <= k <= 3 ->
  (MESH_Has_Ghosts_From_Prtn m p k = Ok 1 <-> p <> my /\ exists t, In (PFlagG p t) ops /\ (t = k \/ t = 5)) /\
  (MESH_Has_Ghosts_From_Prtn m p k = Ok 0 \/ MESH_Has_Ghosts_From_Prtn m p k = Ok 1) /\
  (MESH_Has_Overlaps_On_Prtn m p k = Ok 1 <-> exists t, In (PFlagO p t) ops /\ (t = k \/ t = 5)) /\
  (MESH_Has_Overlaps_On_Prtn m p k = Ok 0 \/ MESH_Has_Overlaps_On_Prtn m p k = Ok 1).
Proof.
  intros my np ops m Hnp H R p k Hp Hk. destruct (C20_history my np ops Hnp H) as [m2 [A [B _]]]. rewrite R in A. inversion A. subst m2. cbv zeta in B.
  destruct (B p k Hp ltac:(lia)) as [B1 B2]. rewrite B1, B2. unfold answer.
  replace (k =? 4) with false by lia. replace (k =? 5) with false by lia. replace (k =? 6) with false by lia.
  pose proof (sg_iff my np ops ps0 p k) as G. pose proof (so_iff my np ops ps0 p k) as O. cbn [ps0 sg so] in G, O.
  assert (X : forall b, Ok (Z.b2z b) = Ok 1 <-> b = true) by (intros []; cbn; split; congruence).
  split; [|split; [destruct (sg _ p k); auto|split; [|destruct (so _ p k); auto]]].
  - rewrite X, G. split; [intros [Y|Y]; [discriminate|auto]|auto].
  - rewrite X, O. split; [intros [Y|Y]; [discriminate|auto]|auto].
Qed.
Print Assumptions C20_independent.

Example C20_ex : let ops := [PFlagG 2 0; PFlagG 4 5; PFlagG 1 3; PFlagO 3 2; PFlagO 2 1; PInit; PSet 4 2 17; PSet 2 3 5; PSet 3 0 9; PSet 4 2 18] in
  Forall (ppre 5) ops /\ exists m, pruns (MESH_Set_Prtn pmesh_new 1 5) ops = Ok m /\
    (MESH_Has_Ghosts_From_Prtn m 2 0, MESH_Has_Ghosts_From_Prtn m 2 1, MESH_Has_Overlaps_On_Prtn m 2 1, MESH_Has_Ghosts_From_Prtn m 1 3) = (Ok 1, Ok 0, Ok 1, Ok 0) /\
    (MESH_Num_Recv_From_Prtn m 4 2, MESH_Num_Recv_From_Prtn m 2 3, MESH_Num_Recv_From_Prtn m 3 0, MESH_Num_Recv_From_Prtn m 4 3) = (Ok 18, Ok 5, Ok 0, Ok 0).
Proof.
  split; [repeat constructor; cbn; lia|]. eexists. split; [vm_compute; reflexivity|]. vm_compute. auto.
Qed.

(** ** C21 *)
Lemma pruns_app : forall a b m m', pruns m a = Ok m' -> pruns m (a ++ b) = pruns m' b.
Proof.
  induction a as [|o a IH]; intros b m m' H; cbn [pruns app] in *; [inversion H; auto|].
  destruct (prun1 m o); cbn [bind] in *; try discriminate. auto.
Qed.
Lemma flag_ghosts_pruns : forall t gs m, flag_ghosts m t gs = pruns m (map (fun p => PFlagG p t) gs).
Proof. intros t gs. induction gs as [|p gs IH]; intros m; cbn [flag_ghosts map pruns prun1]; auto. destruct (MESH_Flag_Has_Ghosts_From_Prtn m p t); cbn [bind]; auto. Qed.

Definition aops (gh : Z -> list Z) : list pop :=
  map (fun p => PFlagG p 0) (gh 0) ++ map (fun p => PFlagG p 1) (gh 1) ++ map (fun p => PFlagG p 2) (gh 2) ++ map (fun p => PFlagG p 3) (gh 3).

Lemma bit_if : forall (b : bool) s k, 0 <= s -> Z.testbit (Z.shiftl (Z.b2z b) s) k = (k =? s) && b.
Proof.
  intros [] s k Hs; cbn [Z.b2z].
  - rewrite Z.shiftl_1_l. rewrite andb_true_r. destruct (Z_lt_ge_dec k 0); [rewrite Z.testbit_neg_r by lia; lia|]. rewrite Z.pow2_bits_eqb by lia. lia.
  - rewrite Z.shiftl_0_l, Z.bits_0, andb_false_r. auto.
Qed.

Lemma adj_word_spec : forall my np s m i, finv my np s m -> 0 <= i < np ->
  exists x, adj_word m i = Ok x /\ forall k, 0 <= k <= 3 -> Z.testbit x (2 * k) = sg s i k.
Proof.
  intros my np s m i I Hi. unfold adj_word.
  rewrite (hasG_spec my np s m i 0 I Hi ltac:(lia)). cbn [bind]. rewrite (hasG_spec my np s m i 1 I Hi ltac:(lia)). cbn [bind].
  rewrite (hasG_spec my np s m i 2 I Hi ltac:(lia)). cbn [bind]. rewrite (hasG_spec my np s m i 3 I Hi ltac:(lia)). cbn [bind].
  eexists. split; [reflexivity|]. intros k Hk. rewrite !Z.lor_spec, Z.bits_0, !bit_if by lia. unfold answer. cbn [Z.eqb].
  assert (k = 0 \/ k = 1 \/ k = 2 \/ k = 3) as [->|[->|[->| ->]]] by lia;
    destruct (sg s i 0), (sg s i 1), (sg s i 2), (sg s i 3); reflexivity.
Qed.

Lemma local_adj_spec : forall my np s m, finv my np s m -> forall n i, 0 <= i -> i + Z.of_nat n <= np ->
  exists w, local_par_adj n m i = Ok w /\ length w = n /\
    forall j k, (j < n)%nat -> 0 <= k <= 3 -> Z.testbit (nth j w 0) (2 * k) = sg s (i + Z.of_nat j) k.
Proof.
  intros my np s m I. induction n as [|n IH]; intros i Hi Hn; cbn [local_par_adj].
  - exists []. split; auto. split; auto. intros. lia.
  - destruct (adj_word_spec my np s m i I ltac:(lia)) as [x [A B]]. rewrite A. cbn [bind]. destruct (IH (i + 1) ltac:(lia) ltac:(lia)) as [w [C [D E]]].
    rewrite C. cbn [bind]. eexists. split; [reflexivity|]. split; [cbn [length]; lia|]. intros [|j] k Hj Hk; cbn [nth].
    + rewrite B by auto. f_equal. lia.
    + rewrite E by lia. f_equal. lia.
Qed.

Definition bops1 (f : Z -> Z -> bool) (i : Z) : list pop :=
  (if f i 0 then [PFlagO i 0] else []) ++ (if f i 1 then [PFlagO i 1] else []) ++ (if f i 2 then [PFlagO i 2] else []) ++ (if f i 3 then [PFlagO i 3] else []).
Definition bops (f : Z -> Z -> bool) (n : nat) (i : Z) : list pop := concat (map (fun j => bops1 f (i + Z.of_nat j)) (seq 0 n)).

Lemma land_bit0 : forall x s, 0 <= s -> (Z.land x (Z.shiftl 1 s) =? 0) = negb (Z.testbit x s).
Proof.
  intros x s Hs. destruct (Z.testbit x s) eqn:E; cbn [negb].
  - apply Z.eqb_neq. intro X. assert (Y := f_equal (fun z => Z.testbit z s) X). cbv beta in Y. rewrite Z.land_spec, Z.shiftl_1_l, Z.pow2_bits_true, E, Z.bits_0 in Y by auto. discriminate.
  - apply Z.eqb_eq. apply Z.bits_inj'. intros k Hk. rewrite Z.land_spec, Z.shiftl_1_l, Z.bits_0, Z.pow2_bits_eqb by auto.
    destruct (s =? k) eqn:F; [replace k with s by lia; rewrite E; auto|apply andb_false_r].
Qed.

Lemma ov_one_pruns : forall m x i t, 0 <= t -> ov_one m x i t = pruns m (if Z.testbit x (2 * t) then [PFlagO i t] else []).
Proof.
  intros m x i t Ht. unfold ov_one. rewrite land_bit0 by lia. destruct (Z.testbit x (2 * t)); cbn [negb pruns prun1]; auto.
  destruct (MESH_Flag_Has_Overlaps_On_Prtn m i t); auto.
Qed.
Lemma pruns_app' : forall a b m, (m <- pruns m a ;; pruns m b) = pruns m (a ++ b).
Proof. induction a as [|o a IH]; intros b m; cbn [pruns app bind]; auto. destruct (prun1 m o); cbn [bind]; auto. Qed.

Lemma bops_S : forall f n i, bops f (S n) i = bops1 f i ++ bops f n (i + 1).
Proof.
  intros. unfold bops. cbn [seq map concat]. f_equal; [f_equal; lia|]. f_equal. rewrite <- seq_shift, map_map. apply map_ext. intros. f_equal. lia.
Qed.

Lemma ov_flags_pruns : forall global np my f n i m, 0 <= i ->
  (forall j, i <= j < i + Z.of_nat n -> 0 <= j * np + my < Z.of_nat (length global) /\
     forall k, 0 <= k <= 3 -> Z.testbit (nth (Z.to_nat (j * np + my)) global 0) (2 * k) = f j k) ->
  ov_flags n m global np my i = pruns m (bops f n i).
Proof.
  intros global np my f. induction n as [|n IH]; intros i m Hi H; cbn [ov_flags]; auto.
  destruct (H i ltac:(lia)) as [A B]. rewrite rdl_ok by auto. cbn [bind]. rewrite ov_one_pruns by lia. rewrite B by lia.
  rewrite bops_S. unfold bops1. rewrite <- !app_assoc. rewrite <- pruns_app'.
  destruct (pruns m (if f i 0 then _ else _)) as [m1| | |]; cbn [bind]; auto.
  rewrite ov_one_pruns by lia. rewrite B by lia. rewrite <- pruns_app'.
  destruct (pruns m1 _) as [m2| | |]; cbn [bind]; auto.
  rewrite ov_one_pruns by lia. rewrite B by lia. rewrite <- pruns_app'.
  destruct (pruns m2 _) as [m3| | |]; cbn [bind]; auto.
  rewrite ov_one_pruns by lia. rewrite B by lia. rewrite <- pruns_app'.
  destruct (pruns m3 _) as [m4| | |]; cbn [bind]; auto. apply IH; [lia|]. intros. apply H. lia.
Qed.

Lemma bops_In : forall f n i o, In o (bops f n i) <-> exists j k, i <= j < i + Z.of_nat n /\ 0 <= k <= 3 /\ f j k = true /\ o = PFlagO j k.
Proof.
  intros f n i o. unfold bops. rewrite in_concat. split.
  - intros [l [A B]]. apply in_map_iff in A. destruct A as [j [C D]]. apply in_seq in D. subst l. unfold bops1 in B. rewrite !in_app_iff in B.
    destruct B as [B|[B|[B|B]]]; (match type of B with context [if ?c then _ else _] => destruct c eqn:E end); try contradiction; destruct B as [B|[]];
    (eexists; eexists; split; [|split; [|split; [exact E|symmetry; exact B]]]; lia).
  - intros [j [k [A [B [C D]]]]]. exists (bops1 f j). split.
    + apply in_map_iff. exists (Z.to_nat (j - i)). split; [f_equal; lia|apply in_seq; lia].
    + unfold bops1. rewrite !in_app_iff. assert (k = 0 \/ k = 1 \/ k = 2 \/ k = 3) as [->|[->|[->| ->]]] by lia; rewrite C; cbn; auto 10.
Qed.

(** receive counts *)
Definition cops1 (g : Z -> Z -> Z) (i : Z) : list pop := [PSet i 0 (g i 0); PSet i 1 (g i 1); PSet i 2 (g i 2); PSet i 3 (g i 3)].

Lemma pset_sg : forall my np s p t n, si s <> None -> sg (pstep my np s (PSet p t n)) = sg s /\ so (pstep my np s (PSet p t n)) = so s /\
  exists G c c', si s = Some (G, c) /\ si (pstep my np s (PSet p t n)) = Some (G, c') /\
    forall q k, In q G -> 0 <= t <= 3 -> c' q k = if (q =? p) && (k =? t) then n else c q k.
Proof.
  intros my np s p t n H. cbn [pstep]. destruct (si s) as [[G c]|] eqn:E; [|congruence]. rewrite E.
  destruct (existsb (Z.eqb p) G && (0 <=? t) && (t <=? 3)) eqn:B.
  - cbn [sg so si]. split; auto. split; auto. exists G, c. eexists. split; auto.
  - split; auto. split; auto. exists G, c, c. split; auto. split; auto. intros q k Hq Ht. replace ((q =? p) && (k =? t)) with false; auto.
    destruct (existsb (Z.eqb p) G) eqn:X; [lia|]. destruct (q =? p) eqn:Y; auto. exfalso. replace q with p in Hq by lia.
    apply existsb_In in Hq. congruence.
Qed.

Lemma cops1_spec : forall my np g i s m, finv my np s m -> rinv s m -> 0 <= np -> si s <> None ->
  exists m', pruns m (cops1 g i) = Ok m' /\ exists s', finv my np s' m' /\ rinv s' m' /\ sg s' = sg s /\ so s' = so s /\
   exists G c c', si s = Some (G, c) /\ si s' = Some (G, c') /\ forall q k, In q G -> 0 <= k <= 3 -> c' q k = if q =? i then g i k else c q k.
Proof.
  intros my np g i s m I R Hnp Hs.
  destruct (pruns_spec my np (cops1 g i) s m I R Hnp ltac:(unfold cops1; repeat constructor)) as [m' [A [B C]]].
  exists m'. split; auto. eexists. split; [exact B|]. split; [exact C|]. unfold cops1. cbn [fold_left].
  destruct (pset_sg my np s i 0 (g i 0) Hs) as [A1 [A2 [G [c0 [c1 [A3 [A4 A5]]]]]]].
  set (s1 := pstep my np s (PSet i 0 (g i 0))) in *.
  destruct (pset_sg my np s1 i 1 (g i 1) ltac:(congruence)) as [B1 [B2 [G2 [c1' [c2 [B3 [B4 B5]]]]]]].
  set (s2 := pstep my np s1 (PSet i 1 (g i 1))) in *.
  destruct (pset_sg my np s2 i 2 (g i 2) ltac:(congruence)) as [C1 [C2 [G3 [c2' [c3 [C3 [C4 C5]]]]]]].
  set (s3 := pstep my np s2 (PSet i 2 (g i 2))) in *.
  destruct (pset_sg my np s3 i 3 (g i 3) ltac:(congruence)) as [D1 [D2 [G4 [c3' [c4 [D3 [D4 D5]]]]]]].
  set (s4 := pstep my np s3 (PSet i 3 (g i 3))) in *.
  split; [congruence|]. split; [congruence|]. exists G, c0, c4.
  assert (G2 = G /\ c1' = c1) as [-> ->] by (rewrite A4 in B3; inversion B3; auto).
  assert (G3 = G /\ c2' = c2) as [-> ->] by (rewrite B4 in C3; inversion C3; auto).
  assert (G4 = G /\ c3' = c3) as [-> ->] by (rewrite C4 in D3; inversion D3; auto).
  split; auto. split; auto. intros q k Hq Hk. rewrite D5, C5, B5, A5 by (auto; lia).
  destruct (q =? i) eqn:E; cbn [andb]; auto.
  assert (k = 0 \/ k = 1 \/ k = 2 \/ k = 3) as [->|[->|[->| ->]]] by lia; cbn; auto.
Qed.

Lemma recv_counts_spec : forall my np global g,
  (forall j k, 0 <= j < np -> 0 <= k <= 3 -> rdl global (4 * j + k) = Ok (g j k)) -> 0 <= np ->
  forall n i s m, 0 <= i -> i + Z.of_nat n <= np -> finv my np s m -> rinv s m -> si s <> None ->
  exists m', recv_counts n m global i = Ok m' /\ exists s', finv my np s' m' /\ rinv s' m' /\ sg s' = sg s /\ so s' = so s /\
   exists G c c', si s = Some (G, c) /\ si s' = Some (G, c') /\
     forall q k, In q G -> 0 <= k <= 3 -> c' q k = if (i <=? q) && (q <? i + Z.of_nat n) && anyg s q then g q k else c q k.
Proof.
  intros my np global g HG Hnp. induction n as [|n IH]; intros i s m Hi Hn I R Hs; cbn [recv_counts].
  - exists m. split; auto. exists s. split; auto. split; auto. split; auto. split; auto. destruct (si s) as [[G c]|] eqn:E; [|congruence].
    exists G, c, c. split; auto. split; auto. intros. replace ((i <=? q) && (q <? i + Z.of_nat 0)) with false by lia. auto.
  - change MANYTYPE with 6. rewrite (hasG_spec my np s m i 6 I ltac:(lia) ltac:(lia)). cbn [bind]. unfold answer. cbn [Z.eqb Pos.eqb].
    assert (K : exists m1, (if Z.b2z (anyg s i) =? 0 then Ok m else
         x <- rdl global (4 * i + 0) ;; m <- MESH_Set_Num_Recv_From_Prtn m i 0 x ;;
              x <- rdl global (4 * i + 1) ;; m <- MESH_Set_Num_Recv_From_Prtn m i 1 x ;;
              x <- rdl global (4 * i + 2) ;; m <- MESH_Set_Num_Recv_From_Prtn m i 2 x ;;
              x <- rdl global (4 * i + 3) ;; MESH_Set_Num_Recv_From_Prtn m i 3 x) = Ok m1 /\
       exists s', finv my np s' m1 /\ rinv s' m1 /\ sg s' = sg s /\ so s' = so s /\
   exists G c c', si s = Some (G, c) /\ si s' = Some (G, c') /\ forall q k, In q G -> 0 <= k <= 3 -> c' q k = if (q =? i) && anyg s i then g i k else c q k).
    { destruct (anyg s i) eqn:EA; cbn [Z.b2z Z.eqb].
      - destruct (cops1_spec my np g i s m I R Hnp Hs) as [m1 [A [s' [A1 [A2 [A3 [A4 [G [c [c' [A5 [A6 A7]]]]]]]]]]]].
        exists m1. split.
        + rewrite <- A. unfold cops1. cbn [pruns prun1]. rewrite !HG by lia. cbn [bind].
          destruct (MESH_Set_Num_Recv_From_Prtn m i 0 (g i 0)) as [x1| | |]; cbn [bind]; auto.
          destruct (MESH_Set_Num_Recv_From_Prtn x1 i 1 (g i 1)) as [x2| | |]; cbn [bind]; auto.
          destruct (MESH_Set_Num_Recv_From_Prtn x2 i 2 (g i 2)) as [x3| | |]; cbn [bind]; auto.
          destruct (MESH_Set_Num_Recv_From_Prtn x3 i 3 (g i 3)) as [x4| | |]; cbn [bind]; auto.
        + exists s'. split; auto. split; auto. split; auto. split; auto. exists G, c, c'. split; auto. split; auto. intros. rewrite andb_true_r. auto.
      - exists m. split; auto. exists s. split; auto. split; auto. split; auto. split; auto. destruct (si s) as [[G c]|] eqn:E; [|congruence].
        exists G, c, c. split; auto. split; auto. intros. rewrite andb_false_r. auto. }
    fold (anyg s i). destruct K as [m1 [K [s1 [K1 [K2 [K3 [K4 [G [c [c' [K5 [K6 K7]]]]]]]]]]]]. rewrite K. cbn [bind].
    destruct (IH (i + 1) s1 m1 ltac:(lia) ltac:(lia) K1 K2 ltac:(congruence)) as [m2 [L [s2 [L1 [L2 [L3 [L4 [G' [c1 [c2 [L5 [L6 L7]]]]]]]]]]]].
    rewrite L. exists m2. split; auto. exists s2. split; auto. split; auto. split; [congruence|]. split; [congruence|].
    rewrite K6 in L5. inversion L5. subst G' c1. exists G, c, c2. split; auto. split; auto. intros q k Hq Hk. rewrite L7, K7 by auto.
    replace (anyg s1 q) with (anyg s q) by (unfold anyg; rewrite K3; auto).
    destruct (q =? i) eqn:E.
    + replace q with i by lia. replace ((i + 1 <=? i) && (i <? i + 1 + Z.of_nat n)) with false by lia. cbn [andb].
      replace ((i <=? i) && (i <? i + Z.of_nat (S n))) with true by lia. cbn [andb]. auto.
    + cbn [andb]. replace ((i + 1 <=? q) && (q <? i + 1 + Z.of_nat n)) with ((i <=? q) && (q <? i + Z.of_nat (S n))) by lia. auto.
Qed.

(** Worlds *)
Lemma mapiM_spec : forall A B (f : Z -> A -> result B) (P : nat -> B -> Prop) (d : A) (e : B) l z,
  (forall i, (i < length l)%nat -> exists y, f (z + Z.of_nat i) (nth i l d) = Ok y /\ P i y) ->
  exists r, mapiM f z l = Ok r /\ length r = length l /\ forall i, (i < length l)%nat -> P i (nth i r e).
Proof.
  intros A B f P d e l. revert P. induction l as [|x l IH]; intros P z H; cbn [mapiM].
  - exists []. split; auto. split; auto. intros. cbn in *. lia.
  - destruct (H O ltac:(cbn; lia)) as [y [A1 A2]]. cbn [nth] in A1. replace (z + Z.of_nat 0) with z in A1 by lia. rewrite A1. cbn [bind].
    destruct (IH (fun i => P (S i)) (z + 1)) as [r [B1 [B2 B3]]].
    { intros i Hi. destruct (H (S i) ltac:(cbn; lia)) as [y' [C1 C2]]. exists y'. split; auto. rewrite <- C1. cbn [nth]. f_equal. lia. }
    rewrite B1. cbn [bind]. eexists. split; [reflexivity|]. split; [cbn; lia|]. intros [|i] Hi; cbn [nth]; auto. apply B3. cbn in Hi. lia.
Qed.
Lemma mapM_mapiM : forall A B (f : A -> result B) l z, mapM f l = mapiM (fun _ => f) z l.
Proof. intros A B f l. induction l as [|x l IH]; intros z; cbn; auto. destruct (f x); cbn; auto. rewrite (IH (z + 1)). auto. Qed.
Lemma mapM_spec : forall A B (f : A -> result B) (P : nat -> B -> Prop) (d : A) (e : B) l,
  (forall i, (i < length l)%nat -> exists y, f (nth i l d) = Ok y /\ P i y) ->
  exists r, mapM f l = Ok r /\ length r = length l /\ forall i, (i < length l)%nat -> P i (nth i r e).
Proof. intros. rewrite (mapM_mapiM _ _ f l 0). eapply mapiM_spec; eauto. Qed.

Lemma concat_nth : forall (ls : list (list Z)) n i j, (forall l, In l ls -> length l = n) -> (i < length ls)%nat -> (j < n)%nat ->
  (i * n + j < length (concat ls))%nat /\ nth (i * n + j) (concat ls) 0 = nth j (nth i ls []) 0.
Proof.
  induction ls as [|l ls IH]; intros n i j H Hi Hj; cbn [concat length] in *; [lia|]. rewrite app_length. rewrite (H l) by (left; auto).
  destruct i as [|i]; cbn [nth].
  - split; [lia|]. rewrite app_nth1; [f_equal; lia|]. rewrite (H l) by (left; auto). lia.
  - destruct (IH n i j) as [A B]; [intros; apply H; right; auto|lia|auto|]. split; [lia|].
    rewrite app_nth2; rewrite (H l) by (left; auto); [|lia]. rewrite <- B. f_equal. lia.
Qed.

(** Per-rank state: a spec per rank. *)
Definition wok (n : nat) (S : nat -> pspec) (ms : list pmesh) : Prop :=
  length ms = n /\ forall p, (p < n)%nat -> finv (Z.of_nat p) (Z.of_nat n) (S p) (nth p ms pmesh_new) /\ rinv (S p) (nth p ms pmesh_new).

Definition r_dummy : prank := mkR pmesh_new (fun _ => []) (fun _ => 0).
Definition mkw (ms : list pmesh) (gh : nat -> Z -> list Z) (ov : nat -> Z -> Z) : list prank :=
  map (fun p => mkR (nth p ms pmesh_new) (gh p) (ov p)) (seq 0 (length ms)).
Definition ghok (n : nat) (gh : nat -> Z -> list Z) : Prop := forall p k q, (p < n)%nat -> In q (gh p k) -> 0 <= q < Z.of_nat n.

Lemma aops_In : forall gh o, In o (aops gh) <-> exists p k, 0 <= k <= 3 /\ In p (gh k) /\ o = PFlagG p k.
Proof.
  intros gh o. unfold aops. rewrite !in_app_iff, !in_map_iff. split.
  - intros [[p [A B]]|[[p [A B]]|[[p [A B]]|[p [A B]]]]]; exists p; eexists; (split; [|split; [exact B|auto]]); lia.
  - intros [p [k [A [B C]]]]. assert (k = 0 \/ k = 1 \/ k = 2 \/ k = 3) as [->|[->|[->| ->]]] by lia; subst o; eauto 10.
Qed.

Lemma nth_mkw : forall ms gh ov p, (p < length ms)%nat -> nth p (mkw ms gh ov) r_dummy = mkR (nth p ms pmesh_new) (gh p) (ov p).
Proof.
  intros. unfold mkw. rewrite (nth_indep _ _ (mkR (nth O ms pmesh_new) (gh O) (ov O))) by (rewrite map_length, seq_length; auto).
  rewrite (map_nth (fun p => mkR (nth p ms pmesh_new) (gh p) (ov p)) (seq 0 (length ms)) O p). rewrite seq_nth by auto. auto.
Qed.
Lemma mkw_length : forall ms gh ov, length (mkw ms gh ov) = length ms.
Proof. intros. unfold mkw. rewrite map_length, seq_length. auto. Qed.

Lemma update_spec : forall n S ms gh ov, (2 <= n)%nat -> wok n S ms -> ghok n gh ->
  exists ms' S', MESH_Update_ParallelAdj (mkw ms gh ov) = Ok ms' /\ wok n S' ms' /\
    (forall p q k, (p < n)%nat -> 0 <= q < Z.of_nat n -> 0 <= k <= 3 ->
       (sg (S' p) q k = true <-> sg (S p) q k = true \/ q <> Z.of_nat p /\ In q (gh p k)) /\
       (so (S' p) q k = true <-> so (S p) q k = true \/ sg (S' (Z.to_nat q)) (Z.of_nat p) k = true)) /\
    (forall p, (p < n)%nat -> exists G c, si (S' p) = Some (G, c) /\ forall q, (In q G <-> 0 <= q < Z.of_nat n /\ anyg (S' p) q = true) /\
       forall k, In q G -> 0 <= k <= 3 -> c q k = ov (Z.to_nat q) k).
Proof.
  intros n S ms gh ov Hn [HL HW] HG. unfold MESH_Update_ParallelAdj. rewrite mkw_length, HL. replace (Z.of_nat n =? 1) with false by lia.
  set (S1 := fun p => fold_left (pstep (Z.of_nat p) (Z.of_nat n)) (aops (gh p)) (S p)).
  destruct (mapM_spec _ _ (upd_a (Z.of_nat n)) (fun p y => finv (Z.of_nat p) (Z.of_nat n) (S1 p) (fst y) /\ rinv (S1 p) (fst y) /\ length (snd y) = n /\
     forall q k, (q < n)%nat -> 0 <= k <= 3 -> Z.testbit (nth q (snd y) 0) (2 * k) = sg (S1 p) (Z.of_nat q) k) r_dummy (pmesh_new, []) (mkw ms gh ov)) as [la [A1 [A2 A3]]].
  { rewrite mkw_length, HL. intros p Hp. rewrite nth_mkw by lia. destruct (HW p Hp) as [I R].
    destruct (pruns_spec (Z.of_nat p) (Z.of_nat n) (aops (gh p)) (S p) _ I R ltac:(lia)) as [m1 [B1 [B2 B3]]].
    { rewrite Forall_forall. intros o Ho. apply aops_In in Ho. destruct Ho as [q [k [C1 [C2 C3]]]]. subst o. cbn. split; [apply (HG p k); auto|lia]. }
    fold (S1 p) in B2, B3.
    destruct (local_adj_spec _ _ _ _ B2 n 0 ltac:(lia) ltac:(lia)) as [w [D1 [D2 D3]]].
    exists (m1, w). split; [|cbn [fst snd]; auto]. unfold upd_a. cbn [r_mesh r_gh].
    unfold aops in B1. rewrite <- !pruns_app' in B1. rewrite flag_ghosts_pruns.
    destruct (pruns _ (map _ (gh p 0))) as [x0| | |]; cbn [bind] in *; try discriminate. rewrite <- !pruns_app' in B1. rewrite flag_ghosts_pruns.
    destruct (pruns _ (map _ (gh p 1))) as [x1| | |]; cbn [bind] in *; try discriminate. rewrite <- !pruns_app' in B1. rewrite flag_ghosts_pruns.
    destruct (pruns _ (map _ (gh p 2))) as [x2| | |]; cbn [bind] in *; try discriminate. rewrite flag_ghosts_pruns. rewrite B1. cbn [bind].
    rewrite Nat2Z.id, D1. cbn [bind]. auto. }
  rewrite A1. cbn [bind]. rewrite mkw_length, HL in *.
  set (F := fun p j k => sg (S1 (Z.to_nat j)) (Z.of_nat p) k).
  set (S2 := fun p => fold_left (pstep (Z.of_nat p) (Z.of_nat n)) (bops (F p) n 0) (S1 p)).
  destruct (mapiM_spec _ _ (fun myprtn m => upd_b (Z.of_nat n) myprtn (concat (map snd la)) m)
     (fun p y => finv (Z.of_nat p) (Z.of_nat n) (S2 p) y /\ rinv (S2 p) y) pmesh_new pmesh_new (map fst la) 0) as [lb [B1 [B2 B3]]].
  { rewrite map_length, A2. intros p Hp. destruct (A3 p Hp) as [I [R _]].
    change pmesh_new with (fst (pmesh_new, @nil Z)). rewrite map_nth. cbn [fst].
    destruct (pruns_spec (Z.of_nat p) (Z.of_nat n) (bops (F p) n 0) (S1 p) _ I R ltac:(lia)) as [m1 [C1 [C2 C3]]].
    { rewrite Forall_forall. intros o Ho. apply bops_In in Ho. destruct Ho as [j [k [E1 [E2 [E3 E4]]]]]. subst o. cbn. lia. }
    exists m1. split; [|auto]. rewrite <- C1. unfold upd_b. rewrite Nat2Z.id. apply ov_flags_pruns; [lia|].
    intros j Hj. destruct (concat_nth (map snd la) n (Z.to_nat j) p) as [D1 D2].
    { intros l Hl. apply in_map_iff in Hl. destruct Hl as [y [E1 E2]]. subst l. destruct (In_nth _ _ (pmesh_new, []) E2) as [i [E3 E4]]. subst y. rewrite A2 in E3. apply (A3 i E3). }
    { rewrite map_length. lia. } { auto. }
    replace (Z.to_nat (j * Z.of_nat n + (0 + Z.of_nat p))) with (Z.to_nat j * n + p)%nat by nia. split; [nia|]. intros k Hk. rewrite D2.
    change (@nil Z) with (snd (pmesh_new, @nil Z)). rewrite map_nth. destruct (A3 (Z.to_nat j) ltac:(lia)) as [_ [_ [_ X]]]. rewrite X by auto. auto. }
  rewrite B1. cbn [bind]. rewrite map_length, A2 in *.
  set (gov := concat (map ov_nums (mkw ms gh ov))).
  assert (HR : forall j k, 0 <= j < Z.of_nat n -> 0 <= k <= 3 -> rdl gov (4 * j + k) = Ok (ov (Z.to_nat j) k)).
  { intros j k Hj Hk. destruct (concat_nth (map ov_nums (mkw ms gh ov)) 4 (Z.to_nat j) (Z.to_nat k)) as [D1 D2].
    { intros l Hl. apply in_map_iff in Hl. destruct Hl as [y [E1 E2]]. subst l. reflexivity. }
    { rewrite map_length, mkw_length. lia. } { lia. }
    fold gov in D1, D2. rewrite rdl_ok by lia. replace (Z.to_nat (4 * j + k)) with (Z.to_nat j * 4 + Z.to_nat k)%nat by lia. rewrite D2.
    rewrite (nth_indep _ _ (ov_nums r_dummy)) by (rewrite map_length, mkw_length; lia). rewrite map_nth. rewrite nth_mkw by lia.
    unfold ov_nums. cbn [r_ov]. assert (k = 0 \/ k = 1 \/ k = 2 \/ k = 3) as [->|[->|[->| ->]]] by lia; reflexivity. }
  destruct (mapM_spec _ _ (upd_c (Z.of_nat n) gov) (fun p y => exists s, finv (Z.of_nat p) (Z.of_nat n) s y /\ rinv s y /\ sg s = sg (S2 p) /\ so s = so (S2 p) /\
      exists G c, si s = Some (G, c) /\ forall q, (In q G <-> 0 <= q < Z.of_nat n /\ anyg (S2 p) q = true) /\
       forall k, In q G -> 0 <= k <= 3 -> c q k = ov (Z.to_nat q) k) pmesh_new pmesh_new lb) as [lc [C1 [C2 C3]]].
  { rewrite B2. intros p Hp. destruct (B3 p Hp) as [I R]. destruct (init_spec_ok _ _ _ _ I ltac:(lia)) as [m1 [D1 [D2 D3]]].
    unfold upd_c. rewrite D1. cbn [bind]. rewrite Nat2Z.id.
    destruct (recv_counts_spec (Z.of_nat p) (Z.of_nat n) gov (fun j k => ov (Z.to_nat j) k) HR ltac:(lia) n 0 _ _ ltac:(lia) ltac:(lia) D2 D3 ltac:(discriminate))
      as [m2 [E [s2 [E1 [E2 [E3 [E4 [G [c [c' [E5 [E6 E7]]]]]]]]]]]].
    exists m2. split; auto. exists s2. split; auto. split; auto. split; auto. split; auto. exists G, c'. split; auto. inversion E5.
    assert (X : forall q, In q G <-> 0 <= q < Z.of_nat n /\ anyg (S2 p) q = true).
    { intros q. subst G. unfold ghostp. rewrite filter_In, zseq_In by lia. tauto. }
    intros q. split; [rewrite H0; auto|]. intros k Hq Hk. rewrite H0 in Hq. rewrite E7 by auto. apply X in Hq. 
    replace ((0 <=? q) && (q <? 0 + Z.of_nat n)) with true by lia. cbn [andb]. unfold anyg in *. cbn [init_spec sg]. destruct Hq as [_ Hq]. rewrite Hq. auto. }
  rewrite C1, B2 in *.
  (* choose the specs *)
  assert (CH : exists S3 : nat -> pspec, forall p, (p < n)%nat -> finv (Z.of_nat p) (Z.of_nat n) (S3 p) (nth p lc pmesh_new) /\ rinv (S3 p) (nth p lc pmesh_new) /\ sg (S3 p) = sg (S2 p) /\ so (S3 p) = so (S2 p) /\
      exists G c, si (S3 p) = Some (G, c) /\ forall q, (In q G <-> 0 <= q < Z.of_nat n /\ anyg (S2 p) q = true) /\
       forall k, In q G -> 0 <= k <= 3 -> c q k = ov (Z.to_nat q) k).
  { clear - C3. revert C3. generalize n at 1 4. intros b. induction b as [|b IH]; intros C3; [exists (fun _ => ps0); intros; lia|].
    destruct IH as [S3 H]; [intros; apply C3; lia|]. destruct (C3 b ltac:(lia)) as [s X]. exists (fun p => if (p =? b)%nat then s else S3 p). intros p Hp.
    destruct (p =? b)%nat eqn:E; [replace p with b by lia; exact X|]. apply H. lia. }
  destruct CH as [S3 CH]. exists lc, S3. split; auto. split.
  { split; [lia|]. intros p Hp. destruct (CH p Hp) as [X1 [X2 _]]. auto. }
  assert (SG2 : forall p q k, (p < n)%nat -> sg (S2 p) q k = true <-> sg (S1 p) q k = true).
  { intros p q k Hp. unfold S2. rewrite sg_iff. split; auto. intros [X|[_ [t [X _]]]]; auto. apply bops_In in X. destruct X as [j [k' [_ [_ [_ X]]]]]. discriminate. }
  split.
  - intros p q k Hp Hq Hk. destruct (CH p Hp) as [_ [_ [X3 [X4 _]]]]. destruct (CH (Z.to_nat q) ltac:(lia)) as [_ [_ [Y3 [Y4 _]]]].
    rewrite X3, X4, Y3. rewrite !SG2 by lia. split.
    + unfold S1. rewrite sg_iff. split; intros [X|[X1 X2]]; auto; right; split; auto.
      * destruct X2 as [t [X2 X5]]. apply aops_In in X2. destruct X2 as [p' [k' [Z1 [Z2 Z3]]]]. inversion Z3. subst. destruct X5; [subst; auto|lia].
      * exists k. split; auto. apply aops_In. exists q, k. auto.
    + unfold S2. rewrite so_iff. unfold S1 at 1. rewrite so_iff.
      split.
      * intros [[X|[t [X _]]]|[t [X X5]]]; auto.
        -- apply aops_In in X. destruct X as [? [? [_ [_ X]]]]. discriminate.
        -- apply bops_In in X. destruct X as [j [k' [Z1 [Z2 [Z3 Z4]]]]]. inversion Z4. subst. right. destruct X5 as [X5|X5]; [|lia]. subst k'. exact Z3.
      * intros [X|X]; auto. right. exists k. split; auto. apply bops_In. exists q, k. split; [lia|]. split; [lia|]. split; auto.
  - intros p Hp. destruct (CH p Hp) as [_ [_ [X3 [X4 [G [c [X5 X6]]]]]]]. exists G, c. split; auto. intros q. destruct (X6 q) as [Y1 Y2]. split; auto.
    rewrite Y1. unfold anyg. rewrite X3. tauto.
Qed.

(** Repeated calls on the same meshes, each time with new ghosts and overlaps. *)
Fixpoint rounds (ms : list pmesh) (l : list ((nat -> Z -> list Z) * (nat -> Z -> Z))) : result (list pmesh) :=
  match l with [] => Ok ms | (gh, ov) :: t => ms <- MESH_Update_ParallelAdj (mkw ms gh ov) ;; rounds ms t end.
Definition fresh (n : nat) : list pmesh := map (fun p => MESH_Set_Prtn pmesh_new (Z.of_nat p) (Z.of_nat n)) (seq 0 n).

Lemma fresh_wok : forall n, wok n (fun _ => ps0) (fresh n).
Proof.
  intros n. unfold fresh. split; [rewrite map_length, seq_length; auto|]. intros p Hp.
  rewrite (nth_indep _ _ (MESH_Set_Prtn pmesh_new (Z.of_nat O) (Z.of_nat n))) by (rewrite map_length, seq_length; auto).
  rewrite (map_nth (fun p => MESH_Set_Prtn pmesh_new (Z.of_nat p) (Z.of_nat n))). rewrite seq_nth by auto. apply fresh_inv. lia.
Qed.

Lemma app_inj_len : forall A (a b c d : list A), length a = length b -> a ++ c = b ++ d -> a = b /\ c = d.
Proof. intros A a. induction a as [|x a IH]; intros [|y b] c d H E; cbn in *; try lia; auto. inversion E. destruct (IH b c d) as [-> ->]; auto. Qed.

Lemma rounds_spec : forall n l S ms, (2 <= n)%nat -> wok n S ms -> Forall (fun g => ghok n (fst g)) l ->
  exists ms' S', rounds ms l = Ok ms' /\ wok n S' ms' /\
    (forall p q k, (p < n)%nat -> 0 <= q < Z.of_nat n -> 0 <= k <= 3 ->
       (sg (S' p) q k = true <-> sg (S p) q k = true \/ q <> Z.of_nat p /\ exists g, In g l /\ In q (fst g p k)) /\
       ((forall p q, (p < n)%nat -> 0 <= q < Z.of_nat n -> so (S p) q k = true -> sg (S (Z.to_nat q)) (Z.of_nat p) k = true) ->
        (so (S' p) q k = true -> sg (S' (Z.to_nat q)) (Z.of_nat p) k = true) /\
        (l <> [] -> sg (S' (Z.to_nat q)) (Z.of_nat p) k = true -> so (S' p) q k = true))) /\
    (forall l' gh ov p, l = l' ++ [(gh, ov)] -> (p < n)%nat -> exists G c, si (S' p) = Some (G, c) /\ forall q, (In q G <-> 0 <= q < Z.of_nat n /\ anyg (S' p) q = true) /\
       forall k, In q G -> 0 <= k <= 3 -> c q k = ov (Z.to_nat q) k).
Proof.
  intros n l. induction l as [|[gh ov] l IH]; intros S ms Hn W H; cbn [rounds].
  - exists ms, S. split; auto. split; auto. split.
    + intros p q k Hp Hq Hk. split; [|intros X; split; auto; congruence]. split; auto. intros [X|[_ [g [[] _]]]]. auto.
    + intros l' ? ? ? E. destruct l'; discriminate.
  - apply Forall_cons_iff in H. destruct H as [H1 H2]. cbn [fst] in H1.
    destruct (update_spec n S ms gh ov Hn W H1) as [ms1 [S1 [A [W1 [B C]]]]]. rewrite A. cbn [bind].
    destruct (IH S1 ms1 Hn W1 H2) as [ms2 [S2 [D [W2 [E F]]]]]. exists ms2, S2. split; auto. split; auto. split.
    + intros p q k Hp Hq Hk. destruct (E p q k Hp Hq Hk) as [E1 E2]. split.
      * rewrite E1. destruct (B p q k Hp Hq Hk) as [B1 _]. rewrite B1. split.
        -- intros [[X|[X Y]]|[X [g [Y1 Y2]]]]; auto; right; split; auto. exists (gh, ov). split; [left|]; auto. exists g. split; [right|]; auto.
        -- intros [X|[X [g [[Y1|Y1] Y2]]]]; auto. subst g. auto. right. split; auto. exists g. auto.
      * intros HS. destruct E2 as [E2 E3].
        { intros p' q' Hp' Hq' X. destruct (B p' q' k Hp' Hq' Hk) as [_ B2]. apply B2 in X. destruct X as [X|X]; auto.
          destruct (B (Z.to_nat q') (Z.of_nat p') k ltac:(lia) ltac:(lia) Hk) as [B3 _]. rewrite B3. auto. }
        split; auto. intros _ X. destruct l as [|g l]; [|apply E3; auto; discriminate]. cbn [rounds] in D.
        (* no further rounds: S2 agrees with S1 *)
        destruct (E (Z.to_nat q) (Z.of_nat p) k ltac:(lia) ltac:(lia) Hk) as [E4 _]. apply E4 in X. destruct X as [X|[_ [g [[] _]]]].
        (* so (S2 p) via flags of the same mesh *)
        assert (so (S1 p) q k = true) as Y by (apply B; auto). inversion D. subst ms2.
        destruct (proj2 W1 p Hp) as [I1 _]. destruct (proj2 W2 p Hp) as [I2 _].
        destruct I1 as [_ _ [f1 [P1 [P2 P3]]]]. destruct I2 as [_ _ [f2 [Q1 [Q2 Q3]]]]. rewrite P1 in Q1. inversion Q1. subst f2.
        destruct (P3 q Hq) as [_ P4]. destruct (Q3 q Hq) as [_ Q4]. destruct (P4 k Hk) as [_ P5]. destruct (Q4 k Hk) as [_ Q5]. congruence.
    + intros l' gh' ov' p EL Hp. destruct l' as [|g' l'].
      * cbn [app] in EL. inversion EL. subst gh' ov' l. cbn [rounds] in D. inversion D. subst ms2.
        destruct (C p Hp) as [G [c [C1 C2]]].
        destruct (proj2 W1 p Hp) as [I1 R1]. destruct (proj2 W2 p Hp) as [I2 R2].
        unfold rinv in R1, R2. rewrite C1 in R1. destruct R1 as [cs [R1 [R3 [R4 R5]]]]. rewrite R1 in R2.
        destruct (si (S2 p)) as [[G2 c2]|]; [|discriminate]. destruct R2 as [cs2 [R2 [R6 [R7 R8]]]]. inversion R2 as [[N1 N2]].
        assert (length G = length G2) as N3 by lia. destruct (app_inj_len _ _ _ _ _ N3 N2) as [N4 N5]. subst G2 cs2. exists G, c2. split; auto.
        assert (X : forall q k, In q G -> 0 <= k <= 3 -> c2 q k = c q k).
        { intros q k Hq Hk. destruct (In_nth _ _ 0 Hq) as [i [Hi Ei]]. subst q. rewrite <- R8, <- R5 by auto. auto. }
        intros q. destruct (C2 q) as [Y1 Y2]. split; [|intros; rewrite X by auto; auto]. rewrite Y1.
        assert (Z : forall k, 0 <= q < Z.of_nat n -> 0 <= k <= 3 -> sg (S2 p) q k = sg (S1 p) q k).
        { intros k Hq Hk. destruct I1 as [_ _ [f1 [P1 [P2 P3]]]]. destruct I2 as [_ _ [f2 [Q1 [Q2 Q3]]]]. rewrite P1 in Q1. inversion Q1. subst f2.
        destruct (P3 q Hq) as [_ P4]. destruct (Q3 q Hq) as [_ Q4]. destruct (P4 k Hk) as [P5 _]. destruct (Q4 k Hk) as [Q5 _]. congruence. }
        unfold anyg. split; intros [U V]; split; auto; revert V; rewrite !Z by lia; auto.
      * cbn [app] in EL. inversion EL. subst l. apply (F l' gh' ov' p); auto.
Qed.

Theorem C21_symmetric : forall n l gh ov, (2 <= n)%nat -> Forall (fun g => ghok n (fst g)) (l ++ [(gh, ov)]) ->
  exists ms, rounds (fresh n) (l ++ [(gh, ov)]) = Ok ms /\ length ms = n /\
  forall p q k, (p < n)%nat -> (q < n)%nat -> 0 <= k <= 3 ->
    let mp := nth p ms pmesh_new in let mq := nth q ms pmesh_new in
    (exists b : bool, MESH_Has_Ghosts_From_Prtn mp (Z.of_nat q) k = Ok (Z.b2z b) /\ MESH_Has_Overlaps_On_Prtn mq (Z.of_nat p) k = Ok (Z.b2z b) /\
       (b = true <-> q <> p /\ exists g, In g (l ++ [(gh, ov)]) /\ In (Z.of_nat q) (fst g p k))) /\
    (MESH_Has_Ghosts_From_Prtn mp (Z.of_nat q) MANYTYPE = Ok 1 -> MESH_Num_Recv_From_Prtn mp (Z.of_nat q) k = Ok (ov q k)) /\
    (MESH_Has_Ghosts_From_Prtn mp (Z.of_nat q) MANYTYPE = Ok 0 -> MESH_Num_Recv_From_Prtn mp (Z.of_nat q) k = Ok 0).
Proof.
  intros n l gh ov Hn HF. destruct (rounds_spec n (l ++ [(gh, ov)]) (fun _ => ps0) (fresh n) Hn (fresh_wok n) HF) as [ms [S' [A [[W1 W2] [B C]]]]].
  exists ms. split; auto. split; auto. intros p q k Hp Hq Hk. cbv zeta. destruct (W2 p Hp) as [Ip Rp]. destruct (W2 q Hq) as [Iq Rq].
  assert (AN : forall s p, answer (sg s p) k = sg s p k /\ answer (so s p) k = so s p k).
  { intros. unfold answer. replace (k =? 4) with false by lia. replace (k =? 5) with false by lia. replace (k =? 6) with false by lia. auto. }
  destruct (B p (Z.of_nat q) k Hp ltac:(lia) Hk) as [B1 _]. cbn [ps0 sg] in B1.
  split; [|split].
  - rewrite (hasG_spec _ _ _ _ _ _ Ip) by lia. rewrite (hasO_spec _ _ _ _ _ _ Iq) by lia. destruct (AN (S' p) (Z.of_nat q)) as [-> _]. destruct (AN (S' q) (Z.of_nat p)) as [_ ->].
    exists (sg (S' p) (Z.of_nat q) k). split; auto. split.
    + f_equal. f_equal. destruct (B q (Z.of_nat p) k Hq ltac:(lia) Hk) as [_ B2]. rewrite Nat2Z.id in B2. destruct B2 as [B2 B3]; [cbn; discriminate|].
      assert (l ++ [(gh, ov)] <> []) as NE by (destruct l; discriminate). specialize (B3 NE).
      destruct (so (S' q) (Z.of_nat p) k), (sg (S' p) (Z.of_nat q) k); auto. symmetry. auto.
    + rewrite B1. split; [intros [X|[X Y]]; [discriminate|split; auto; lia]|intros [X Y]; right; split; auto; lia].
  - rewrite (hasAny _ _ _ _ _ Ip) by lia. intros X. rewrite (num_recv_spec _ _ _ _ _ _ Ip Rp) by auto. destruct (C l gh ov p eq_refl Hp) as [G [c [C1 C2]]]. rewrite C1.
    destruct (C2 (Z.of_nat q)) as [C3 C4]. assert (anyg (S' p) (Z.of_nat q) = true) as Y by (destruct (anyg (S' p) (Z.of_nat q)); auto; discriminate).
    assert (In (Z.of_nat q) G) as Z by (apply C3; split; auto; lia). rewrite (proj2 (existsb_In _ _) Z). cbn [negb]. rewrite orb_false_r.
    replace (Z.of_nat q =? Z.of_nat p) with false; [rewrite C4 by auto; rewrite Nat2Z.id; auto|].
    symmetry. apply Z.eqb_neq. intro E. assert (NG : forall k, 0 <= k <= 3 -> sg (S' p) (Z.of_nat q) k = false).
    { intros k' Hk'. apply not_true_is_false. intro T. destruct (B p (Z.of_nat q) k' Hp ltac:(lia) Hk') as [B3 _]. apply B3 in T. destruct T as [T|[T _]]; [discriminate|auto]. }
    unfold anyg in Y. rewrite !NG in Y by lia. discriminate.
  - rewrite (hasAny _ _ _ _ _ Ip) by lia. intros X. rewrite (num_recv_spec _ _ _ _ _ _ Ip Rp) by auto. destruct (C l gh ov p eq_refl Hp) as [G [c [C1 C2]]]. rewrite C1.
    destruct (C2 (Z.of_nat q)) as [C3 C4]. destruct (existsb (Z.eqb (Z.of_nat q)) G) eqn:E; [|cbn [negb]; rewrite orb_true_r; auto].
    apply existsb_In in E. apply C3 in E. destruct E as [_ E]. rewrite E in X. discriminate.
Qed.
Print Assumptions C21_symmetric.

(** Flags are never cleared, so after a second update a rank may still claim
    ghosts it no longer has. *)
Definition gh_a (p : nat) (k : Z) : list Z := match p with O => if k =? 0 then [1; 2; 1] else [] | S O => if k =? 3 then [0] else [] | _ => [] end.
Definition gh_b (p : nat) (k : Z) : list Z := match p with S (S O) => if k =? 2 then [0; 1] else [] | _ => [] end.
Definition ov_a (p : nat) (k : Z) : Z := 10 * Z.of_nat p + k.
Definition ov_b (p : nat) (k : Z) : Z := 100 * Z.of_nat p + k.

Lemma ghok_ab : Forall (fun g => ghok 3 (fst g)) [(gh_a, ov_a); (gh_b, ov_b)].
Proof.
  apply Forall_cons; [|apply Forall_cons; [|apply Forall_nil]]; cbn [fst]; intros p k q Hp; destruct p as [|[|[|]]]; try lia; cbn;
  repeat match goal with |- context [if ?c then _ else _] => destruct c end; cbn; intros; intuition lia.
Qed.

Example C21_ex : exists ms, rounds (fresh 3) [(gh_a, ov_a); (gh_b, ov_b)] = Ok ms /\
   map (fun m => (MESH_Has_Ghosts_From_Prtn m 0 3, MESH_Has_Overlaps_On_Prtn m 1 3, MESH_Num_Recv_From_Prtn m 1 2)) ms =
   [(Ok 0, Ok 1, Ok 102); (Ok 1, Ok 0, Ok 0); (Ok 0, Ok 0, Ok 102)].
Proof. eexists. split; vm_compute; reflexivity. Qed.

Theorem C21_stale_refuted : exists n l gh ov ms p q k, (2 <= n)%nat /\ Forall (fun g => ghok n (fst g)) (l ++ [(gh, ov)]) /\
  rounds (fresh n) (l ++ [(gh, ov)]) = Ok ms /\ (p < n)%nat /\ (q < n)%nat /\ 0 <= k <= 3 /\
  MESH_Has_Ghosts_From_Prtn (nth p ms pmesh_new) (Z.of_nat q) k = Ok 1 /\ ~ In (Z.of_nat q) (gh p k).
Proof.
  exists 3%nat, [(gh_a, ov_a)], gh_b, ov_b.
  destruct (rounds (fresh 3) ([(gh_a, ov_a)] ++ [(gh_b, ov_b)])) as [ms| | |] eqn:E; [|vm_compute in E; discriminate..].
  exists ms, O, 1%nat, 0. split; [lia|]. split; [exact ghok_ab|]. split; auto. split; [lia|]. split; [lia|]. split; [lia|].
  vm_compute in E. injection E as E. subst ms. split; [reflexivity|]. cbn. auto.
Qed.
Print Assumptions C21_stale_refuted.
