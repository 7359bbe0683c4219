(** Properties C11 and C12: markers. *)
From Coq Require Import ZArith List Lia Bool Arith ZifyBool ZifyNat.
From Verif Require Import Base BaseProofs ListModel ListSpec ListHist ListProofs ListProofs2 ListProofs3 MarkModel.
Import ListNotations.
Open Scope Z_scope.

(** ** C11: specification *)
Inductive mkop := MGet | MFree (m : Z).

(** The set of markers in use, as a list; a call and its result. *)
Inductive mrel : list Z -> mkop -> list Z -> option Z -> Prop :=
| mr_get : forall used m, 1 <= m <= 32 -> ~ In m used -> mrel used MGet (m :: used) (Some m)
| mr_free : forall used m, mrel used (MFree m) (filter (fun x => negb (x =? m)) used) None.

Inductive mrels : list Z -> list mkop -> list Z -> list (option Z) -> Prop :=
| mrs_nil : forall u, mrels u [] u []
| mrs_cons : forall u o u1 r ops u2 rs, mrel u o u1 r -> mrels u1 ops u2 rs -> mrels u (o :: ops) u2 (r :: rs).

Definition mk_step (ov : Z -> Z) (st : mkst) (o : mkop) : result (mkst * option Z) :=
  match o with
  | MGet => '(st', m) <- MSTK_GetMarker st ;; Ok (st', Some m)
  | MFree m => st' <- MSTK_FreeMarker ov st m ;; Ok (st', None)
  end.
Fixpoint mk_run (ov : Z -> Z) (st : mkst) (ops : list mkop) : result (mkst * list (option Z)) :=
  match ops with
  | [] => Ok (st, [])
  | o :: t => '(st1, r) <- mk_step ov st o ;; '(st2, rs) <- mk_run ov st1 t ;; Ok (st2, r :: rs)
  end.
Definition mk_valid (o : mkop) : Prop := match o with MGet => True | MFree m => 1 <= m <= 32 end.

(** ** Lemmas *)
Lemma bit_ok : forall i, 0 <= i <= 31 -> bit32 i = Ok (2 ^ i).
Proof. intros. unfold bit32. replace ((0 <=? i) && (i <=? 31)) with true by lia. auto. Qed.

Lemma pow2_bit : forall i j, 0 <= i -> 0 <= j -> Z.testbit (2 ^ i) j = (i =? j).
Proof. intros. apply Z.pow2_bits_eqb; auto. Qed.

Lemma land_bit : forall m i, 0 <= i -> (Z.land m (2 ^ i) =? 0) = negb (Z.testbit m i).
Proof.
  intros. destruct (Z.testbit m i) eqn:E; cbn [negb].
  - apply Z.eqb_neq. intro X. assert (Y : Z.testbit (Z.land m (2 ^ i)) i = true).
    { rewrite Z.land_spec, E, pow2_bit by lia. rewrite Z.eqb_refl. auto. }
    rewrite X, Z.bits_0 in Y. discriminate.
  - apply Z.eqb_eq. apply Z.bits_inj'. intros n Hn. rewrite Z.land_spec, Z.bits_0, pow2_bit by lia.
    destruct (i =? n) eqn:En; [|apply andb_false_r]. replace n with i by lia. rewrite E. auto.
Qed.

Lemma nbit_test : forall i j, 0 <= i <= 31 -> 0 <= j -> Z.testbit (u32 (Z.lnot (2 ^ i))) j = (j <? 32) && negb (i =? j).
Proof.
  intros. unfold u32. destruct (j <? 32) eqn:E.
  - rewrite Z.mod_pow2_bits_low by lia. rewrite Z.lnot_spec, pow2_bit by lia. auto.
  - rewrite Z.mod_pow2_bits_high by lia. auto.
Qed.

Lemma nbit_ok : forall i, 0 <= i <= 31 -> nbit32 i = Ok (u32 (Z.lnot (2 ^ i))).
Proof. intros. unfold nbit32. rewrite bit_ok by auto. auto. Qed.

Lemma free_search_spec : forall n m i, (0 <= i) -> i + Z.of_nat n = 32 ->
  (exists j, i <= j < 32 /\ Z.testbit m j = false /\ free_search n m i = Ok (Some (Z.lor m (2 ^ j), j + 1))) \/
  ((forall j, i <= j < 32 -> Z.testbit m j = true) /\ free_search n m i = Ok None).
Proof.
  induction n; intros m i Hi Hn.
  - right. split; auto. intros; lia.
  - cbn [free_search]. rewrite bit_ok by lia. cbn [bind]. rewrite land_bit by lia. rewrite negb_involutive.
    destruct (Z.testbit m i) eqn:E.
    + destruct (IHn m (i + 1)) as [[j [A [B C]]]|[A B]]; try lia.
      * left. exists j. split; [lia|]. auto.
      * right. split; auto. intros j Hj. destruct (Z.eq_dec j i); [subst; auto|apply A; lia].
    + left. exists i. split; [lia|]. auto.
Qed.

Lemma last_search_spec : forall n m i last, 0 <= i -> i + Z.of_nat n = 32 -> -1 <= last < i ->
  (forall j, last < j < i -> Z.testbit m j = false) ->
  exists r, last_search n m i last = Ok r /\ -1 <= r <= 31 /\ (forall j, r < j < 32 -> Z.testbit m j = false).
Proof.
  induction n; intros m i last Hi Hn Hl H.
  - exists last. split; auto. split; [lia|]. intros. apply H. lia.
  - cbn [last_search]. rewrite bit_ok by lia. cbn [bind]. rewrite land_bit by lia. rewrite negb_involutive.
    destruct (Z.testbit m i) eqn:E.
    + apply IHn; try lia. 
    + apply IHn; try lia. intros j Hj. destruct (Z.eq_dec j i); [subst; auto|apply H; lia].
Qed.

(** Bits above the last bit are clear; the bits are the markers in use. *)
Definition mk_inv (st : mkst) (used : list Z) : Prop :=
  -1 <= mk_last st <= 31 /\
  (forall j, mk_last st < j -> Z.testbit (mk_bits st) j = false) /\
  (forall j, 0 <= j -> (Z.testbit (mk_bits st) j = true <-> In (j + 1) used)) /\
  (forall m, In m used -> 1 <= m <= 32).

Lemma get_sim : forall st used, mk_inv st used ->
  (exists st' m, MSTK_GetMarker st = Ok (st', m) /\ 1 <= m <= 32 /\ ~ In m used /\ mk_inv st' (m :: used)) \/
  (MSTK_GetMarker st = Fatal /\ forall m, 1 <= m <= 32 -> In m used).
Proof.
  intros [b last] used [I1 [I2 [I3 I4]]]. cbn [mk_bits mk_last] in *.
  assert (N : forall i, 0 <= i <= 31 -> Z.testbit b i = false ->
     forall last', last <= last' <= 31 -> i <= last' -> ~ In (i + 1) used /\ mk_inv (mkM (Z.lor b (2 ^ i)) last') (i + 1 :: used)).
  { intros i Hi T last' Hl Hil. split; [intro X; apply I3 in X; [congruence|lia]|]. unfold mk_inv; cbn [mk_bits mk_last].
    split; [lia|]. split; [|split].
    - intros j Hj. destruct (Z_lt_dec j 0); [apply Z.testbit_neg_r; lia|].
      rewrite Z.lor_spec, pow2_bit, I2 by lia. replace (i =? j) with false by lia. auto.
    - intros j Hj. rewrite Z.lor_spec, pow2_bit by lia. rewrite orb_true_iff, (I3 j Hj). cbn [In]. split; intros [X|X]; auto; [left|right]; lia.
    - intros m [X|X]; [lia|auto]. }
  unfold MSTK_GetMarker. cbn [mk_bits mk_last]. destruct (last <? 31) eqn:E.
  - rewrite bit_ok by lia. cbn [bind]. left. eexists. exists (last + 1 + 1). split; [reflexivity|].
    destruct (N (last + 1) ltac:(lia) (I2 (last + 1) ltac:(lia)) (last + 1) ltac:(lia) ltac:(lia)). split; [lia|]. auto.
  - destruct (free_search_spec 32 b 0) as [[j [A [B C]]]|[A B]]; try lia.
    + rewrite C. cbn [bind]. left. eexists. exists (j + 1). split; [reflexivity|].
      destruct (N j ltac:(lia) B last ltac:(lia) ltac:(lia)). split; [lia|]. auto.
    + rewrite B. cbn [bind]. right. split; auto. intros m Hm. replace m with (m - 1 + 1) by lia. apply I3; [lia|]. apply A. lia.
Qed.

Lemma free_sim : forall ov st used m, mk_inv st used -> 1 <= m <= 32 ->
  exists st', MSTK_FreeMarker ov st m = Ok st' /\ mk_inv st' (filter (fun x => negb (x =? m)) used).
Proof.
  intros ov [b last] used m [I1 [I2 [I3 I4]]] Hm. cbn [mk_bits mk_last] in *. unfold MSTK_FreeMarker. cbn [mk_bits mk_last].
  rewrite nbit_ok by lia. cbn [bind]. set (b' := Z.land b (u32 (Z.lnot (2 ^ (m - 1))))).
  assert (T : forall j, 0 <= j -> Z.testbit b' j = Z.testbit b j && (j <? 32) && negb (m - 1 =? j)).
  { intros j Hj. unfold b'. rewrite Z.land_spec, nbit_test by lia. rewrite andb_assoc. auto. }
  assert (U : forall j, 0 <= j -> (Z.testbit b' j = true <-> In (j + 1) (filter (fun x => negb (x =? m)) used))).
  { intros j Hj. rewrite T by auto. rewrite !andb_true_iff, filter_In, (I3 j Hj). split.
    - intros [[A B] C]. split; auto. lia.
    - intros [A B]. pose proof (I4 _ A). split; [split; auto|]; lia. }
  assert (V : forall x, In x (filter (fun x => negb (x =? m)) used) -> 1 <= x <= 32).
  { intros x X. apply filter_In in X. apply I4. tauto. }
  set (last' := if m - 1 =? last then last - 1 else last).
  assert (L : -1 <= last' <= 31 /\ forall j, last' < j -> Z.testbit b' j = false).
  { unfold last'. destruct (m - 1 =? last) eqn:E; (split; [lia|]); intros j Hj.
    - destruct (Z_lt_dec j 0); [apply Z.testbit_neg_r; lia|]. rewrite T by lia. destruct (Z.eq_dec j last).
      + replace (m - 1 =? j) with true by lia. rewrite andb_false_r. auto.
      + rewrite I2 by lia. auto.
    - destruct (Z_lt_dec j 0); [apply Z.testbit_neg_r; lia|]. rewrite T by lia. rewrite I2 by lia. auto. }
  destruct (negb (b' =? full_mask ov last')).
  - destruct (last_search_spec 32 b' 0 (-1)) as [r [R1 [R2 R3]]]; try lia.
    rewrite R1. cbn [bind]. eexists. split; [reflexivity|]. split; [auto|]. split; [|split; auto]. cbn [mk_bits mk_last].
    intros j Hj. destruct (Z_lt_dec j 32); [apply R3; lia|]. rewrite T by lia. replace (j <? 32) with false by lia. rewrite andb_false_r. auto.
  - eexists. split; [reflexivity|]. split; [apply L|]. split; [apply L|]. split; auto.
Qed.

Lemma run_sim : forall ov ops st used, mk_inv st used -> Forall mk_valid ops ->
  (exists st' used' outs, mk_run ov st ops = Ok (st', outs) /\ mrels used ops used' outs /\ mk_inv st' used') \/
  (exists ops1 ops2 used' outs, ops = ops1 ++ MGet :: ops2 /\ mrels used ops1 used' outs /\ mk_run ov st ops = Fatal /\
     forall m, 1 <= m <= 32 -> In m used').
Proof.
  intros ov. induction ops as [|o ops IH]; intros st used I F.
  - left. exists st, used, []. split; auto. split; [constructor|auto].
  - inversion F as [|? ? Fo Fops]. subst. cbn [mk_run]. destruct o as [|m]; cbn [mk_step].
    + destruct (get_sim st used I) as [[st1 [m [E [Hm [Hn I1]]]]]|[E A]].
      * rewrite E. cbn [bind]. destruct (IH st1 (m :: used) I1 Fops) as [[st' [used' [outs [R1 [R2 R3]]]]]|[o1 [o2 [used' [outs [R1 [R2 [R3 R4]]]]]]]].
        -- left. rewrite R1. cbn [bind]. exists st', used', (Some m :: outs). split; auto. split; [|auto].
           econstructor; [|exact R2]. constructor; auto.
        -- right. rewrite R3. cbn [bind]. exists (MGet :: o1), o2, used', (Some m :: outs). subst ops. split; auto.
           split; [|auto]. econstructor; [|exact R2]. constructor; auto.
      * right. rewrite E. cbn [bind]. exists [], ops, used, []. split; auto. split; [constructor|]. auto.
    + destruct (free_sim ov st used m I Fo) as [st1 [E I1]]. rewrite E. cbn [bind].
      destruct (IH st1 _ I1 Fops) as [[st' [used' [outs [R1 [R2 R3]]]]]|[o1 [o2 [used' [outs [R1 [R2 [R3 R4]]]]]]]].
      * left. rewrite R1. cbn [bind]. exists st', used', (None :: outs). split; auto. split; [|auto].
        econstructor; [|exact R2]. constructor; auto.
      * right. rewrite R3. cbn [bind]. exists (MFree m :: o1), o2, used', (None :: outs). subst ops. split; auto.
        split; [|auto]. econstructor; [|exact R2]. constructor; auto.
Qed.

(** ** C11 *)

(** For every history of calls: each MSTK_GetMarker returns a marker in 1..32
    not in use, each MSTK_FreeMarker frees just that marker, and the only way to
    fail is a request while all 32 are in use.  [ov] is arbitrary, so the
    undefined conversion in MSTK_FreeMarker does not matter. *)
Theorem C11_markers : forall ov ops, Forall mk_valid ops ->
  (exists st used outs, mk_run ov mk_init ops = Ok (st, outs) /\ mrels [] ops used outs /\
     forall m, 1 <= m <= 32 -> (Z.testbit (mk_bits st) (m - 1) = true <-> In m used)) \/
  (exists ops1 ops2 used outs, ops = ops1 ++ MGet :: ops2 /\ mrels [] ops1 used outs /\
     mk_run ov mk_init ops = Fatal /\ forall m, 1 <= m <= 32 -> In m used).
Proof.
  intros ov ops F. destruct (run_sim ov ops mk_init []) as [[st [used [outs [A [B C]]]]]|H]; auto.
  - unfold mk_inv. cbn [mk_init mk_bits mk_last]. split; [lia|]. split; [intros; apply Z.bits_0|]. split.
    + intros. rewrite Z.bits_0. simpl. split; [discriminate|tauto].
    + simpl. tauto.
  - left. exists st, used, outs. split; auto. split; auto. intros m Hm. destruct C as [_ [_ [C _]]].
    replace m with (m - 1 + 1) at 2 by lia. apply C. lia.
Qed.
Print Assumptions C11_markers.

Example C11_ex : Forall mk_valid [MGet; MGet; MGet; MFree 2; MGet; MFree 1; MFree 4; MGet] /\
  (forall ov, mk_run ov mk_init [MGet; MGet; MGet; MFree 2; MGet; MFree 1; MFree 4; MGet] =
    Ok (mkM 12 3, [Some 1; Some 2; Some 3; None; Some 4; None; None; Some 4])) /\
  mk_run (fun _ => 0) mk_init (repeat MGet 33) = Fatal /\
  (p <- mk_run (fun _ => -1) mk_init (repeat MGet 32 ++ [MFree 5; MGet]) ;; Ok (skipn 32 (snd p))) = Ok [None; Some 5].
Proof. split; [repeat constructor; simpl; lia|]. split; [intros; vm_compute; reflexivity|]. split; vm_compute; reflexivity. Qed.

(** ** C12: specification *)
Inductive kop :=
| KMark (e m : Z) | KUnmark (e m : Z) | KListMark (l : LList) (m : Z) | KListUnmark (l : LList) (m : Z).

(** [marked e m]: is e marked with m. *)
Definition kset (marked : Z -> Z -> bool) (es : list Z) (m : Z) (v : bool) : Z -> Z -> bool :=
  fun e' m' => if (m' =? m) && existsb (Z.eqb e') es then v else marked e' m'.

Inductive kspec : (Z -> Z -> bool) -> list kop -> (Z -> Z -> bool) -> Prop :=
| ks_nil : forall s, kspec s [] s
| ks_mark : forall s e m ops s', 1 <= m <= 32 -> kspec (kset s [e] m true) ops s' -> kspec s (KMark e m :: ops) s'
| ks_unmark : forall s e m ops s', 1 <= m <= 32 -> kspec (kset s [e] m false) ops s' -> kspec s (KUnmark e m :: ops) s'
| ks_lmark : forall s l es m ops s', 1 <= m <= 32 -> reachable l es -> kspec (kset s es m true) ops s' -> kspec s (KListMark l m :: ops) s'
| ks_lunmark : forall s l es m ops s', 1 <= m <= 32 -> reachable l es -> kspec (kset s es m false) ops s' -> kspec s (KListUnmark l m :: ops) s'.

Definition kstep (mk : Z -> Z) (o : kop) : result (Z -> Z) :=
  match o with
  | KMark e m => MEnt_Mark mk e m
  | KUnmark e m => MEnt_Unmark mk e m
  | KListMark l m => List_Mark mk l m
  | KListUnmark l m => List_Unmark mk l m
  end.
Fixpoint krun (mk : Z -> Z) (ops : list kop) : result (Z -> Z) :=
  match ops with [] => Ok mk | o :: t => mk <- kstep mk o ;; krun mk t end.

(** What MEnt_IsMarked says, as a truth value. *)
Definition is_marked (mk : Z -> Z) (e m : Z) (v : bool) : Prop :=
  exists r, MEnt_IsMarked mk e m = Ok r /\ (v = true <-> r <> 0).

Definition agree (mk : Z -> Z) (s : Z -> Z -> bool) : Prop := forall e m, 1 <= m <= 32 -> Z.testbit (mk e) (m - 1) = s e m.

Lemma mark_agree : forall mk s e m, agree mk s -> 1 <= m <= 32 ->
  exists mk', MEnt_Mark mk e m = Ok mk' /\ agree mk' (kset s [e] m true).
Proof.
  intros mk s e m A Hm. unfold MEnt_Mark. rewrite bit_ok by lia. cbn [bind]. eexists. split; [reflexivity|].
  intros e' m' Hm'. unfold kset. cbn [existsb]. rewrite orb_false_r.
  destruct (e' =? e) eqn:E.
  - rewrite Z.lor_spec, pow2_bit by lia. replace (m - 1 =? m' - 1) with (m' =? m) by lia.
    replace e with e' by lia. rewrite A by auto. destruct (m' =? m); [rewrite orb_true_r|rewrite orb_false_r]; auto.
  - rewrite andb_false_r. auto.
Qed.

Lemma unmark_agree : forall mk s e m, agree mk s -> 1 <= m <= 32 ->
  exists mk', MEnt_Unmark mk e m = Ok mk' /\ agree mk' (kset s [e] m false).
Proof.
  intros mk s e m A Hm. unfold MEnt_Unmark. rewrite nbit_ok by lia. cbn [bind]. eexists. split; [reflexivity|].
  intros e' m' Hm'. unfold kset. cbn [existsb]. rewrite orb_false_r.
  destruct (e' =? e) eqn:E.
  - rewrite Z.land_spec, nbit_test by lia. replace (m - 1 =? m' - 1) with (m' =? m) by lia. replace (m' - 1 <? 32) with true by lia.
    replace e with e' by lia. rewrite A by auto. destruct (m' =? m); simpl; rewrite ?andb_false_r, ?andb_true_r; auto.
  - rewrite andb_false_r. auto.
Qed.

Lemma agree_ext : forall mk s s', agree mk s -> (forall e m, s e m = s' e m) -> agree mk s'.
Proof. intros mk s s' A E e m Hm. rewrite <- E. auto. Qed.

Lemma lmark_walk : forall act n mk l idx id es, walk_from n l idx = Ok es ->
  lmark_from act n mk l idx id = (fix go (mk : Z -> Z) es := match es with [] => Ok mk | e :: t => mk <- act mk e id ;; go mk t end) mk es.
Proof.
  induction n; intros mk l idx id es W; [discriminate|]. cbn [walk_from lmark_from] in *.
  destruct (List_Next_Entry l idx) as [[idx' e]| | |]; cbn [bind] in *; try discriminate.
  destruct (e =? NULL); [inversion W; auto|]. destruct (walk_from n l idx') as [r| | |] eqn:E; cbn [bind] in W; try discriminate.
  inversion W. destruct (act mk e id); cbn [bind]; auto.
Qed.

Lemma go_agree : forall act v m, 1 <= m <= 32 ->
  (forall mk s e, agree mk s -> exists mk', act mk e m = Ok mk' /\ agree mk' (kset s [e] m v)) ->
  forall es mk s, agree mk s ->
  exists mk', (fix go (mk : Z -> Z) es := match es with [] => Ok mk | e :: t => mk <- act mk e m ;; go mk t end) mk es = Ok mk' /\
    agree mk' (kset s es m v).
Proof.
  intros act v m Hm H. induction es as [|e es IH]; intros mk s A.
  - exists mk. split; auto. eapply agree_ext; [exact A|]. intros. unfold kset. simpl. rewrite andb_false_r. auto.
  - destruct (H mk s e A) as [mk1 [E A1]]. rewrite E. cbn [bind]. destruct (IH mk1 _ A1) as [mk2 [E2 A2]]. exists mk2. split; auto.
    eapply agree_ext; [exact A2|]. intros e' m'. unfold kset. cbn [existsb]. rewrite orb_false_r.
    destruct (m' =? m), (e' =? e), (existsb (Z.eqb e') es); auto.
Qed.

Lemma list_agree : forall act v m l es mk s, 1 <= m <= 32 ->
  (forall mk s e, agree mk s -> exists mk', act mk e m = Ok mk' /\ agree mk' (kset s [e] m v)) ->
  reachable l es -> agree mk s ->
  exists mk', lmark_from act (S (length (entry l))) mk l 0 m = Ok mk' /\ agree mk' (kset s es m v).
Proof.
  intros act v m l es mk s Hm H R A. destruct (reachable_rep l es R) as [raw [Rp V]].
  pose proof (Walk_rep l raw (rep_wrep _ _ Rp)) as W. unfold List_Walk in W. rewrite V in W.
  rewrite (lmark_walk _ _ _ _ _ _ _ W). apply go_agree; auto.
Qed.

Lemma krun_agree : forall ops s s' mk, kspec s ops s' -> agree mk s -> exists mk', krun mk ops = Ok mk' /\ agree mk' s'.
Proof.
  intros ops s s' mk K. revert mk. induction K; intros mk A.
  - exists mk. auto.
  - destruct (mark_agree mk s e m A H) as [mk1 [E A1]]. cbn [krun kstep]. rewrite E. cbn [bind]. auto.
  - destruct (unmark_agree mk s e m A H) as [mk1 [E A1]]. cbn [krun kstep]. rewrite E. cbn [bind]. auto.
  - destruct (list_agree MEnt_Mark true m l es mk s H) as [mk1 [E A1]]; auto. { intros. apply mark_agree; auto. }
    cbn [krun kstep]. unfold List_Mark. rewrite E. cbn [bind]. auto.
  - destruct (list_agree MEnt_Unmark false m l es mk s H) as [mk1 [E A1]]; auto. { intros. apply unmark_agree; auto. }
    cbn [krun kstep]. unfold List_Unmark. rewrite E. cbn [bind]. auto.
Qed.

(** After any history, from any initial marks, every query on any entity and any
    marker reports the last mark or unmark with that marker. *)
Theorem C12_marks : forall mk s ops s', (forall e m, 1 <= m <= 32 -> is_marked mk e m (s e m)) -> kspec s ops s' ->
  exists mk', krun mk ops = Ok mk' /\ forall e m, 1 <= m <= 32 -> is_marked mk' e m (s' e m).
Proof.
  assert (Q : forall mk e m v, 1 <= m <= 32 -> (is_marked mk e m v <-> Z.testbit (mk e) (m - 1) = v)).
  { intros mk e m v Hm. unfold is_marked, MEnt_IsMarked. rewrite bit_ok by lia. cbn [bind].
    pose proof (land_bit (mk e) (m - 1) ltac:(lia)) as L. split.
    - intros [r [R1 R2]]. inversion R1. subst r. destruct v.
      + assert (X : Z.land (mk e) (2 ^ (m - 1)) <> 0) by tauto. destruct (Z.testbit (mk e) (m - 1)); auto. cbn in L. lia.
      + destruct (Z.testbit (mk e) (m - 1)); auto. cbn in L. assert (false = true) by (apply R2; lia). auto.
    - intros <-. eexists. split; [reflexivity|]. destruct (Z.testbit (mk e) (m - 1)); cbn in L; split; intros; auto; try discriminate; lia. }
  intros mk s ops s' A K. destruct (krun_agree ops s s' mk K) as [mk' [E A']].
  - intros e m Hm. apply Q; auto.
  - exists mk'. split; auto. intros e m Hm. apply Q; auto.
Qed.
Print Assumptions C12_marks.

Definition C12_list : LList :=
  match List_New 0 with
  | Ok l => match mrun l [LAdd 5; LAdd 7; LAdd 9; LRem 7] with Ok (l', _) => l' | _ => l end
  | _ => mkL 0 None []
  end.
Example C12_ex : reachable C12_list [5; 9] /\
  (exists s', kspec (fun _ _ => false) [KMark 5 1; KListMark C12_list 32; KUnmark 9 32; KMark 7 2; KListUnmark C12_list 1] s') /\
  (mk <- krun (fun _ => 0) [KMark 5 1; KListMark C12_list 32; KUnmark 9 32; KMark 7 2; KListUnmark C12_list 1] ;;
    Ok (map mk [5; 7; 9])) = Ok [2147483648; 2; 0].
Proof.
  assert (R : reachable C12_list [5; 9]).
  { exists 0, [LAdd 5; LAdd 7; LAdd 9; LRem 7]. eexists. eexists. split; [lia|]. split; [vm_compute; reflexivity|].
    split; [repeat split; simpl; lia|]. split; [vm_compute; reflexivity|]. split; vm_compute; reflexivity. }
  split; auto. split; [|vm_compute; reflexivity].
  eexists. apply ks_mark; [lia|]. eapply ks_lmark; [lia|exact R|]. apply ks_unmark; [lia|]. apply ks_mark; [lia|].
  eapply ks_lunmark; [lia|exact R|]. apply ks_nil.
Qed.
