(** Graph_Assign_Levels_MinWidth and Graph_Renumber_GPS. *)
From Coq Require Import ZArith List Lia Bool Arith ZifyBool ZifyNat Permutation Sorting.Sorted.
From Verif Require Import Base BaseProofs ListSpec HashProofs SortModel SortProofs SortProps AttModel AttProps TopoModel TopoProofs TopoProofs2 ParModel ParProps GraphModel GraphProofs GraphProofs2 GraphProofs3 GraphProofs4.
Import ListNotations.
Open Scope Z_scope.

(** ** Runs known to have finished *)

Lemma foldM_inv : forall S A (F : S -> A -> result S) (P : S -> Prop) l s s', foldM F s l = Ok s' -> P s -> (forall s x s', In x l -> P s -> F s x = Ok s' -> P s') -> P s'.
Proof.
  intros S A F P. induction l as [|x l IH]; intros s s' E Hs H; cbn [foldM] in E. congruence.
  destruct (F s x) as [s1| | |] eqn:E1; cbn [bind] in E; try discriminate. apply (IH s1); auto. apply (H s x); auto. left; auto. intros; eapply H; eauto. right; auto.
Qed.
Lemma bind_ok : forall A B (m : result A) (f : A -> result B) y, bind m f = Ok y -> exists x, m = Ok x /\ f x = Ok y.
Proof. intros A B [x| | |] f y E; cbn in E; try discriminate. eauto. Qed.
Lemma wr_inv : forall A (a : array A) i x a', wr a i x = Ok a' -> 0 <= i < Z.of_nat (length a) /\ length a' = length a /\ rd a' i = Ok x /\ forall j, j <> i -> rd a' j = rd a j.
Proof.
  intros A a i x a' E. unfold wr in E. destruct ((0 <=? i) && (i <? Z.of_nat (length a))) eqn:B; [|discriminate]. inversion E; subst a'. clear E.
  split. lia. split. apply upd_nth_length. split.
  - unfold rd. replace (0 <=? i) with true by lia. rewrite nth_error_upd_nth. rewrite Nat.eqb_refl. destruct (Nat.ltb_spec (Z.to_nat i) (length a)); auto. lia.
  - intros j Hj. unfold rd. destruct (Z.leb_spec 0 j); auto. rewrite nth_error_upd_nth. replace (Z.to_nat j =? Z.to_nat i)%nat with false by lia. auto.
Qed.
Lemma rd_inv : forall A (a : array A) i x, rd a i = Ok x -> 0 <= i < Z.of_nat (length a).
Proof.
  intros A a i x E. unfold rd in E. destruct (Z.leb_spec 0 i); [|discriminate]. destruct (nth_error a (Z.to_nat i)) eqn:N; [|discriminate]. assert (nth_error a (Z.to_nat i) <> None) by congruence. apply nth_error_Some in H0. lia.
Qed.
Lemma holds_rd : forall a n f i x, holds a n f -> rd a i = Ok x -> 0 <= i < n /\ x = f i.
Proof. intros a n f i x (L & H) E. assert (R := rd_inv _ _ _ _ E). split. lia. rewrite H in E by lia. congruence. Qed.
Lemma holds_wr_inv : forall a n f i x a', holds a n f -> wr a i x = Ok a' -> 0 <= i < n /\ holds a' n (zupd f i x).
Proof.
  intros a n f i x a' H E. destruct (wr_inv _ _ _ _ _ E) as (R & _). destruct H as (L & H0). assert (H : holds a n f) by (split; auto). destruct (holds_wr a n f i x H) as (a2 & E2 & H2). lia. split. lia. congruence.
Qed.
Lemma incr_len : forall a i a', incr a i = Ok a' -> length a' = length a.
Proof. intros a i a' E. unfold incr in E. apply bind_ok in E. destruct E as (x & _ & E). apply wr_inv in E. tauto. Qed.

Lemma zeros_copy : forall (a : array Z) n m, Z.of_nat (length a) = n -> 0 <= n <= m -> exists a', memcpy a 0 (repeat (Some 0) (Z.to_nat m)) n = Ok a' /\ holds a' n (fun _ => 0).
Proof.
  intros a n m L Hn. unfold memcpy. rewrite repeat_length. replace ((0 <=? 0) && (0 <=? n) && (0 + n <=? Z.of_nat (length a)) && (n <=? Z.of_nat (Z.to_nat m))) with true by lia.
  eexists. split; [reflexivity|]. change (firstn (Z.to_nat 0) a) with (@nil (option Z)). replace (skipn (Z.to_nat (0 + n)) a) with (@nil (option Z)) by (symmetry; apply skipn_all2; lia). rewrite app_nil_r. cbn [app].
  assert (E : firstn (Z.to_nat n) (repeat (Some 0) (Z.to_nat m)) = repeat (Some 0) (Z.to_nat n)). { replace (Z.to_nat m) with (Z.to_nat n + (Z.to_nat m - Z.to_nat n))%nat by lia. rewrite repeat_app, firstn_app, repeat_length, Nat.sub_diag, firstn_O, app_nil_r. rewrite firstn_all2; auto. rewrite repeat_length. lia. }
  rewrite E. split. rewrite repeat_length. lia. intros i Hi. unfold rd. replace (0 <=? i) with true by lia. rewrite nth_error_repeat by lia. auto.
Qed.

(** ** The loop over the connected sets *)

Lemma cset_len : forall fuel adj nadj off level cset tag nc j cset' nc', cset_loop fuel adj nadj off level cset tag nc j = Ok (cset', nc') -> nc <= nc'.
Proof.
  induction fuel as [|fuel IH]; intros adj nadj off level cset tag nc j cset' nc' E; cbn [cset_loop] in E; destruct (j <? nc) eqn:J; try discriminate; try (inversion E; lia).
  apply bind_ok in E. destruct E as (node & _ & E). apply bind_ok in E. destruct E as (o & _ & E). apply bind_ok in E. destruct E as (na & _ & E). apply bind_ok in E. destruct E as ([[c1 t1] n1] & E1 & E). apply IH in E.
  apply (foldM_inv _ _ _ (fun st => nc <= snd st)) in E1; cbn [snd] in *; try lia. intros [[c t] nn] x s' _ H E2. cbn [snd] in H. apply bind_ok in E2. destruct E2 as (an & _ & E2). apply bind_ok in E2. destruct E2 as (l & _ & E2). apply bind_ok in E2. destruct E2 as (tg & _ & E2).
  destruct (tg =? 0). apply bind_ok in E2. destruct E2 as (c2 & _ & E2). apply bind_ok in E2. destruct E2 as (t2 & _ & E2). inversion E2. cbn. lia. inversion E2. cbn. lia.
Qed.
(** A set is found whenever a node without a level is listed. *)
Lemma find_set_some : forall n adj nadj off level unm is_ cs mc nm cs' mc' nm', foldM (find_set n adj nadj off level unm) (cs, mc, nm) is_ = Ok (cs', mc', nm') ->
  nm <= nm' /\ forall i u, In i is_ -> rd unm i = Ok u -> rd level u = Ok 0 -> 0 <= nm -> 1 <= nm'.
Proof.
  intros n adj nadj off level unm. induction is_ as [|i is_ IH]; intros cs mc nm cs' mc' nm' E; cbn [foldM] in E.
  - inversion E. split. lia. intros ? ? [].
  - apply bind_ok in E. destruct E as ([[c1 m1] n1] & E1 & E). apply IH in E. destruct E as (L1 & H1). unfold find_set in E1. apply bind_ok in E1. destruct E1 as (u & Eu & E1). apply bind_ok in E1. destruct E1 as (l & El & E1).
    assert (HH : nm <= n1 /\ (l = 0 -> 0 <= nm -> 1 <= n1)).
    { destruct (Z.eqb_spec l 0) as [->|Hl]. apply bind_ok in E1. destruct E1 as (c2 & _ & E1). apply bind_ok in E1. destruct E1 as (t2 & _ & E1). apply bind_ok in E1. destruct E1 as ([c3 n3] & E3 & E1). apply cset_len in E3.
      destruct (n3 >? nm) eqn:C. apply bind_ok in E1. destruct E1 as (m3 & _ & E1). inversion E1. lia. inversion E1. lia. inversion E1. lia. }
    split. lia. intros j v [<-|Hj] Ev E0 Hn. rewrite Eu in Ev. inversion Ev; subst v. rewrite El in E0. inversion E0. lia. eapply H1; eauto. lia.
Qed.

Section Sets.
Variables (n : Z) (l1 p : Z -> Z) (lp0 lp1 : array Z).
Hypothesis H0 : holds lp0 n l1.
Hypothesis H1 : holds lp1 n p.
Hypothesis Hpos : forall v, 0 <= v < n -> 1 <= l1 v /\ 1 <= p v.

(** Every level is one of the two offered, or not yet given and listed. *)
Definition partway (lv : Z -> Z) (unm : array Z) (num : Z) : Prop :=
  (forall v, 0 <= v < n -> lv v = 0 \/ lv v = l1 v \/ lv v = p v) /\ forall v, 0 <= v < n -> lv v = 0 -> exists i, 0 <= i < num /\ rd unm i = Ok v.

Lemma assign_set_inv : forall d level base unm mc num nmax lv level' base' unm' num', holds level n lv -> partway lv unm num ->
  assign_set d lp0 lp1 level base unm mc num nmax = Ok (level', base', unm', num') -> exists lv', holds level' n lv' /\ partway lv' unm' num'.
Proof.
  intros d level base unm mc num nmax lv level' base' unm' num' HL (P1 & P2) E. unfold assign_set in E. apply bind_ok in E. destruct E as ([d1 d2] & _ & E). apply bind_ok in E. destruct E as ([w1 w2] & _ & E). apply bind_ok in E. destruct E as ([lev2 base2] & E1 & E). apply bind_ok in E. destruct E as ([u2 n2] & E2 & E). inversion E; subst. clear E.
  assert (Hlp : exists q, holds (if w1 <? w2 then lp0 else lp1) n q /\ forall v, 0 <= v < n -> q v = l1 v \/ q v = p v) by (destruct (w1 <? w2); [exists l1|exists p]; auto). destruct Hlp as (q & Hq & Oq).
  assert (Q : exists lv2, holds level' n lv2 /\ forall v, 0 <= v < n -> lv2 v = lv v \/ lv2 v = l1 v \/ lv2 v = p v).
  { apply (foldM_inv _ _ _ (fun st : array Z * array Z => exists lv2, holds (fst st) n lv2 /\ forall v, 0 <= v < n -> lv2 v = lv v \/ lv2 v = l1 v \/ lv2 v = p v)) in E1; auto. exists lv. auto.
    intros [le ba] j [le' ba'] _ (lv2 & A & B) E. cbn [fst] in *. apply bind_ok in E. destruct E as (node & _ & E). apply bind_ok in E. destruct E as (x & Ex & E). apply bind_ok in E. destruct E as (le2 & Ew & E). apply bind_ok in E. destruct E as (ba2 & _ & E). inversion E; subst le2 ba2.
    destruct (holds_rd _ _ _ _ _ Hq Ex) as (Rn & ->). destruct (holds_wr_inv _ _ _ _ _ _ A Ew) as (_ & A'). exists (zupd lv2 node (q node)). split; auto. intros v Hv. unfold zupd. destruct (Z.eqb_spec v node) as [->|]; auto. }
  destruct Q as (lv2 & HL2 & Q). exists lv2. split; auto. assert (Z0 : forall v, 0 <= v < n -> lv2 v = 0 -> lv v = 0). { intros v Hv E. destruct (Hpos v Hv). destruct (Q v Hv) as [|[|]]; lia. }
  split. { intros v Hv. destruct (Q v Hv) as [->|]; auto. }
  (* compressing the list in place *)
  destruct (Z.leb_spec num 0) as [Hneg|Hnum].
  { intros v Hv Ev. destruct (P2 v Hv (Z0 v Hv Ev)) as (i & Hi & _). lia. }
  assert (J : forall k, 0 <= k <= num -> forall st, foldM (fun (st : array Z * Z) i => let '(unmarked, num2) := st in u <- rd unmarked i ;; l <- rd level' u ;; if l =? 0 then unmarked <- wr unmarked num2 u ;; Ok (unmarked, num2 + 1) else Ok (unmarked, num2)) (unm, 0) (zrange 0 k) = Ok st ->
    0 <= snd st <= k /\ forall v, 0 <= v < n -> lv2 v = 0 -> exists i, (0 <= i < snd st \/ k <= i < num) /\ rd (fst st) i = Ok v).
  { intros k Hk1. assert (Hk2 : 0 <= k) by lia. revert Hk1. pattern k. apply natlike_ind; [| |exact Hk2].
    - intros _ st E. rewrite zrange_nil in E by lia. inversion E. cbn [fst snd]. split. lia. intros v Hv Ev. destruct (P2 v Hv (Z0 v Hv Ev)) as (i & Hi & Ei). exists i. split; auto; lia.
    - intros k0 Hk0 IH Hk st E. unfold Z.succ in *. rewrite zrange_snoc in E by lia. rewrite foldM_app in E. apply bind_ok in E. destruct E as ([um nu] & E3 & E). destruct (IH ltac:(lia) _ E3) as (B1 & B2). clear IH E3. cbn [fst snd] in *. cbn [foldM] in E. apply bind_ok in E. destruct E as (st' & E & E'). inversion E'; subst st'. clear E'.
      apply bind_ok in E. destruct E as (u & Eu & E). apply bind_ok in E. destruct E as (l & El & E). destruct (holds_rd _ _ _ _ _ HL2 El) as (Ru & ->). destruct (Z.eqb_spec (lv2 u) 0) as [Zu|Zu].
      + apply bind_ok in E. destruct E as (um2 & Ew & E). inversion E; subst st. cbn [fst snd]. split. lia. destruct (wr_inv _ _ _ _ _ Ew) as (_ & _ & Ws & Wo). intros v Hv Ev. destruct (B2 v Hv Ev) as (i & Hi & Ei). destruct (Z.eq_dec v u) as [->|Nu]. exists nu. split; auto. lia.
        exists i. split. assert (i <> k0) by (intros ->; congruence). lia. rewrite Wo; auto. intros ->. destruct Hi as [Hi|Hi]. lia. assert (nu = k0) by lia. congruence.
      + inversion E; subst st. cbn [fst snd]. split. lia. intros v Hv Ev. destruct (B2 v Hv Ev) as (i & Hi & Ei). exists i. split; auto. assert (i <> k0) by (intros ->; congruence). lia.
  }
  destruct (J num ltac:(lia) _ E2) as (_ & J2). cbn [fst snd] in J2. intros v Hv Ev. destruct (J2 v Hv Ev) as (i & [Hi|Hi] & Ei); [|lia]. eauto.
Qed.
Lemma sets_inv : forall fuel adj nadj off d level base unm cset mc num lv level' base', holds level n lv -> partway lv unm num ->
  sets_loop fuel n adj nadj off d lp0 lp1 level base unm cset mc num = Ok (level', base') -> exists lv', holds level' n lv' /\ forall v, 0 <= v < n -> lv' v = l1 v \/ lv' v = p v.
Proof.
  induction fuel as [|fuel IH]; intros adj nadj off d level base unm cset mc num lv level' base' HL P E; cbn [sets_loop] in E. discriminate.
  apply bind_ok in E. destruct E as ([[c1 m1] nmax] & E1 & E). destruct (nmax >? 0) eqn:Nm.
  - apply bind_ok in E. destruct E as ([[[l2 b2] u2] n2] & E2 & E). destruct (assign_set_inv _ _ _ _ _ _ _ _ _ _ _ _ HL P E2) as (lv2 & HL2 & P2). eapply IH; eauto.
  - inversion E; subst. exists lv. split; auto. intros v Hv. destruct P as (Pa & Pb). destruct (Pa v Hv) as [Z0|]; auto. exfalso. destruct (Pb v Hv Z0) as (i & Hi & Ei). apply find_set_some in E1. destruct E1 as (_ & F).
    assert (1 <= nmax); [|lia]. apply (F i v); auto. apply In_zrange; auto. rewrite (proj2 HL v Hv). congruence. lia.
Qed.
End Sets.

(** ** The assignment of levels *)

Lemma copy_loop : forall level n f (h : Z -> Z) a, holds level n f -> Z.of_nat (length a) = n -> exists a', foldM (fun lp i => l <- rd level i ;; wr lp i (h l)) a (zrange 0 n) = Ok a' /\ holds a' n (fun i => h (f i)).
Proof.
  intros level n f h a H L. rewrite (foldM_ext _ _ _ (fun a i => wr a i (h (f i)))). apply (fill (fun i => h (f i))); auto. intros s x Hx. apply In_zrange in Hx. rewrite (proj2 H x Hx). auto.
Qed.
Lemma filter_snoc : forall (q : Z -> bool) k, 0 <= k -> filter q (zrange 0 (k + 1)) = filter q (zrange 0 k) ++ if q k then [k] else [].
Proof. intros q k Hk. rewrite zrange_snoc by lia. rewrite filter_app. cbn. destruct (q k); auto. Qed.
Lemma ZL_snoc : forall (l : list Z) x, ZL (l ++ [x]) = ZL l + 1.
Proof. intros. unfold ZL. rewrite app_length. cbn. lia. Qed.
Lemma ZL_filter : forall (q : Z -> bool) k, 0 <= k -> ZL (filter q (zrange 0 k)) <= k.
Proof. intros q k Hk. apply bounded_length; auto. apply NoDup_filter, NoDup_zrange. intros x Hx. apply filter_In in Hx. apply In_zrange. tauto. Qed.

Section MinWidth.
Variables (n : Z) (adj nadj off : list Z) (nb : Z -> list Z).
Hypothesis G : graph n adj nadj off nb.
Hypothesis Hn : 0 < n < 1000000000.
Hypothesis conn : forall u v, 0 <= u < n -> 0 <= v < n -> exists k, walk_to nb u k v.

(** The levels from the two ends, and the state in front of the loop. *)
Lemma minwidth_start : forall n1 nk level0 o1 l1 d w1 o2 l2 w2, 0 <= n1 < n -> 0 <= nk < n -> Z.of_nat (length level0) = n -> levels n nb n1 o1 l1 d w1 -> levels n nb nk o2 l2 d w2 ->
  let p := fun v => d + 1 - l2 v in
  exists lp0 lp1 level base unm,
    holds lp0 n l1 /\ holds lp1 n p /\ holds level n (fun v => if l1 v =? p v then l1 v else 0) /\ holds base d (fun i => ZL (filter (fun v => (l1 v =? p v) && (l1 v =? i + 1)) (zrange 0 n))) /\
    starts unm n (filter (fun v => negb (l1 v =? p v)) (zrange 0 n)) /\
    let num := ZL (filter (fun v => negb (l1 v =? p v)) (zrange 0 n)) in
    Graph_Assign_Levels_MinWidth n adj nadj off n1 nk level0 =
      ('(level, base) <- sets_loop (S (Z.to_nat n)) n adj nadj off d lp0 lp1 level base unm (malloc num) (malloc num) num ;;
       maxwidth <- foldM (fun m i => b <- rd base i ;; Ok (if b >? m then b else m)) 0 (zrange 0 d) ;; Ok (level, maxwidth)).
Proof.
  intros n1 nk level0 o1 l1 d w1 o2 l2 w2 R1 Rk L0 V1 V2 p. unfold Graph_Assign_Levels_MinWidth.
  destruct (build_ok n adj nadj off nb n1 (malloc n) level0) as (oa & la & lva & da & wa & Ea & Ha & Va); auto. apply malloc_len; lia. rewrite Ea. cbn [bind]. destruct (levels_unique _ _ _ _ _ _ _ _ _ _ _ V1 Va) as (<- & U1).
  assert (Ha1 : holds la n l1) by (eapply holds_ext; [exact Ha|]; intros; symmetry; auto).
  destruct (copy_loop la n l1 (fun x => x) (malloc n) Ha1) as (lp0 & E0 & H0). apply malloc_len; lia. cbv beta in E0. rewrite E0. cbn [bind].
  destruct (build_ok n adj nadj off nb nk (map Some oa) la) as (ob & lb & lvb & db & wb & Eb & Hb & Vb); auto. rewrite map_length. pose proof (levels_len _ _ _ _ _ _ _ Va ltac:(lia)). unfold ZL in *; lia. apply Ha. rewrite Eb. cbn [bind]. destruct (levels_unique _ _ _ _ _ _ _ _ _ _ _ V2 Vb) as (<- & U2).
  assert (Hb1 : holds lb n l2) by (eapply holds_ext; [exact Hb|]; intros; symmetry; auto).
  destruct (copy_loop lb n l2 (fun x => d + 1 - x) (malloc n) Hb1) as (lp1 & E1 & H1). apply malloc_len; lia. cbv beta in E1. rewrite E1. cbn [bind].
  assert (D1 : 1 <= d). { destruct (l_depth _ _ _ _ _ _ _ V1) as (_ & v & Rv & <- & _). eapply levels_pos; eauto. }
  assert (Dn : d <= n) by (eapply levels_depth; eauto; apply (g_rng _ _ _ _ _ G)).
  destruct (zeros_copy lb n n) as (lv0 & Ez & Hz). apply Hb. lia. rewrite Ez. cbn [bind]. destruct (zeros_copy (malloc d) d n) as (ba0 & Ey & Hy). apply malloc_len; lia. lia. rewrite Ey. cbn [bind].
  destruct (foldM_up _ (fun k (st : array Z * array Z * array Z * Z) => let '(level, base, unm, num) := st in holds level n (fun v => if v <? k then if l1 v =? p v then l1 v else 0 else 0) /\
      holds base d (fun i => ZL (filter (fun v => (l1 v =? p v) && (l1 v =? i + 1)) (zrange 0 k))) /\ starts unm n (filter (fun v => negb (l1 v =? p v)) (zrange 0 k)) /\ num = ZL (filter (fun v => negb (l1 v =? p v)) (zrange 0 k)))
    (fun st i => let '(level, base, unmarked, num) := st in l0 <- rd lp0 i ;; l1 <- rd lp1 i ;; if l0 =? l1 then level <- wr level i l0 ;; base <- incr base (l0 - 1) ;; Ok (level, base, unmarked, num) else unmarked <- wr unmarked num i ;; Ok (level, base, unmarked, num + 1))
    0 n (lv0, ba0, malloc n, 0)) as (st & E & P).
  - lia.
  - rewrite zrange_nil by lia. split. eapply holds_ext. exact Hz. intros i Hi. cbv beta. replace (i <? 0) with false by lia. auto. split. exact Hy. split. apply starts_nil, malloc_len. lia. auto.
  - intros k [[[le ba] un] nu] Hk (A1 & A2 & A3 & ->). rewrite (proj2 H0 k Hk). cbn [bind]. rewrite (proj2 H1 k Hk). cbn [bind]. fold (p k). rewrite !filter_snoc by lia. destruct (Z.eqb_spec (l1 k) (p k)) as [Ek|Ek]; cbn [negb].
    + destruct (holds_wr le n _ k (l1 k) A1 Hk) as (le' & Ew & A1'). rewrite Ew. cbn [bind]. unfold incr. assert (Bk : 1 <= l1 k <= d). { split. eapply levels_pos; eauto. apply (l_depth _ _ _ _ _ _ _ V1); auto. }
      rewrite (proj2 A2 (l1 k - 1)) by lia. cbn [bind]. match goal with |- context [wr ba (l1 k - 1) ?x] => destruct (holds_wr ba d _ (l1 k - 1) x A2) as (ba' & Ew2 & A2') end. lia. rewrite Ew2. cbn [bind]. eexists. split; [reflexivity|]. cbv beta iota.
      split. eapply holds_ext. exact A1'. intros i Hi. unfold zupd. destruct (Z.eqb_spec i k) as [->|]. replace (k <? k + 1) with true by lia. replace (l1 k =? p k) with true by lia. auto. destruct (Z.ltb_spec i k), (Z.ltb_spec i (k + 1)); auto; lia.
      split. eapply holds_ext. exact A2'. intros i Hi. rewrite filter_snoc by lia. unfold zupd. replace (l1 k =? p k) with true by lia. cbn [andb]. destruct (Z.eqb_spec i (l1 k - 1)) as [->|]. replace (l1 k =? l1 k - 1 + 1) with true by lia. rewrite ZL_snoc. auto. replace (l1 k =? i + 1) with false by lia. rewrite app_nil_r. auto.
      rewrite app_nil_r. auto.
    + destruct (starts_snoc un n _ k A3) as (un' & Ew & A3'). pose proof (ZL_filter (fun v => negb (l1 v =? p v)) k). lia. rewrite Ew. cbn [bind]. eexists. split; [reflexivity|]. cbv beta iota.
      split. eapply holds_ext. exact A1. intros i Hi. cbv beta. destruct (Z.ltb_spec i k), (Z.ltb_spec i (k + 1)); auto; try lia. replace i with k by lia. replace (l1 k =? p k) with false by lia. auto.
      split. eapply holds_ext. exact A2. intros i Hi. cbv beta. rewrite filter_snoc by lia. replace (l1 k =? p k) with false by lia. cbn [andb]. rewrite app_nil_r. auto. split; auto. rewrite ZL_snoc. auto.
  - destruct st as [[[le ba] un] nu]. destruct P as (A1 & A2 & A3 & ->). rewrite E. cbn [bind]. exists lp0, lp1, le, ba, un. split; auto. split; auto. split. eapply holds_ext. exact A1. intros i Hi. cbv beta. replace (i <? n) with true by lia. auto. split; auto.
Qed.
(** When the two levels agree everywhere. *)
Lemma minwidth_agree : forall n1 nk level0 o1 l1 d w1 o2 l2 w2, 0 <= n1 < n -> 0 <= nk < n -> Z.of_nat (length level0) = n -> levels n nb n1 o1 l1 d w1 -> levels n nb nk o2 l2 d w2 ->
  (forall v, 0 <= v < n -> l1 v = d + 1 - l2 v) -> exists level, Graph_Assign_Levels_MinWidth n adj nadj off n1 nk level0 = Ok (level, w1) /\ holds level n l1.
Proof.
  intros n1 nk level0 o1 l1 d w1 o2 l2 w2 R1 Rk L0 V1 V2 A. destruct (minwidth_start n1 nk level0 o1 l1 d w1 o2 l2 w2) as (lp0 & lp1 & level & base & unm & _ & _ & HL & HB & _ & E); auto. rewrite E. clear E. cbv zeta in *.
  assert (F0 : filter (fun v => negb (l1 v =? d + 1 - l2 v)) (zrange 0 n) = []). { apply filter_none. intros x Hx. apply In_zrange in Hx. rewrite (A x Hx), Z.eqb_refl. auto. }
  rewrite F0. change (ZL (@nil Z)) with 0. cbn [sets_loop]. rewrite zrange_nil by lia. cbn [foldM bind]. replace (0 >? 0) with false by lia. cbn [bind].
  destruct (max_loop (fun i => count n l1 (i + 1)) (rd base) 0 d) as (m & Em & M0 & M1 & M2).
  - destruct (l_depth _ _ _ _ _ _ _ V1) as (_ & v & Rv & <- & _). pose proof (levels_pos _ _ _ _ _ _ _ V1 v Rv). lia.
  - intros i Hi. rewrite (proj2 HB i Hi). f_equal. unfold count. f_equal. apply filter_ext_in. intros x Hx. apply In_zrange in Hx. rewrite <- (A x Hx), Z.eqb_refl. auto.
  - intros. apply count_nonneg.
  - rewrite Em. cbn [bind]. exists level. split. 2: { eapply holds_ext. exact HL. intros i Hi. cbv beta. rewrite <- (A i Hi), Z.eqb_refl. auto. }
    f_equal. f_equal. destruct (l_width _ _ _ _ _ _ _ V1) as (W1 & j & Hj & W2). specialize (M1 (j - 1) ltac:(lia)). replace (j - 1 + 1) with j in M1 by lia. destruct M2 as (i & Hi & M2). lia. pose proof (W1 (i + 1)). lia.
Qed.
(** Whatever the sets, every node ends with one of its two levels. *)
Lemma minwidth_inv : forall n1 nk level0 o1 l1 d w1 o2 l2 w2 level mw, 0 <= n1 < n -> 0 <= nk < n -> Z.of_nat (length level0) = n -> levels n nb n1 o1 l1 d w1 -> levels n nb nk o2 l2 d w2 ->
  Graph_Assign_Levels_MinWidth n adj nadj off n1 nk level0 = Ok (level, mw) -> exists lv, holds level n lv /\ forall v, 0 <= v < n -> lv v = l1 v \/ lv v = d + 1 - l2 v.
Proof.
  intros n1 nk level0 o1 l1 d w1 o2 l2 w2 level mw R1 Rk L0 V1 V2 E. destruct (minwidth_start n1 nk level0 o1 l1 d w1 o2 l2 w2) as (lp0 & lp1 & lev & base & unm & H0 & H1 & HL & HB & HU & E'); auto. rewrite E' in E. clear E'. cbv zeta in *.
  apply bind_ok in E. destruct E as ([lev2 base2] & E & E2). apply bind_ok in E2. destruct E2 as (m & _ & E2). inversion E2; subst lev2 m. clear E2.
  assert (Hp : forall v, 0 <= v < n -> 1 <= l1 v /\ 1 <= d + 1 - l2 v). { intros v Hv. split. eapply levels_pos; eauto. pose proof (proj1 (l_depth _ _ _ _ _ _ _ V2) v Hv). lia. }
  eapply (sets_inv n l1 (fun v => d + 1 - l2 v) lp0 lp1 H0 H1 Hp); [exact HL| |exact E]. split.
  - intros v Hv. destruct (_ =? _); auto.
  - intros v Hv Ev. assert (I : In v (filter (fun v => negb (l1 v =? d + 1 - l2 v)) (zrange 0 n))). { apply filter_In. split. apply In_zrange; auto. destruct (Z.eqb_spec (l1 v) (d + 1 - l2 v)); auto. destruct (Hp v Hv). lia. }
    destruct (In_nth _ _ 0 I) as (i & Hi & Ei). exists (Z.of_nat i). split. unfold ZL. lia. rewrite (proj2 HU) by (unfold ZL; lia). rewrite Nat2Z.id. congruence.
Qed.
End MinWidth.

Lemma mapM_val : forall A B (F : A -> result B) (g : A -> B) l, (forall x, In x l -> F x = Ok (g x)) -> mapM F l = Ok (map g l).
Proof. intros A B F g. induction l as [|x l IH]; intros H; cbn [mapM map]. auto. rewrite H by (left; auto). cbn [bind]. rewrite IH by (intros; apply H; right; auto). auto. Qed.
Lemma starts_at_ok : forall nbs, 0 < Zlen nbs -> (off <- wr (malloc (Zlen nbs)) 0 0 ;; off <- foldM (fun off i => o <- rd off (i - 1) ;; d <- rdl (degrees nbs) (i - 1) ;; wr off i (o + d)) off (zrange 1 (Zlen nbs)) ;; mapM (fun i => rd off i) (zrange 0 (Zlen nbs))) = Ok (starts_at nbs).
Proof.
  intros nbs Hn. set (n := Zlen nbs) in *. assert (En : n = Z.of_nat (length nbs)) by reflexivity. set (f := fun i => ZL (concat (firstn (Z.to_nat i) nbs))).
  destruct (starts_snoc (malloc n) n [] 0) as (a0 & E0 & S0). apply starts_nil, malloc_len. lia. unfold ZL. cbn. lia. change (ZL (@nil Z)) with 0 in E0. rewrite E0. cbn [bind].
  destruct (foldM_up _ (fun k a => starts a n (map f (zrange 0 k))) (fun off i => o <- rd off (i - 1) ;; d <- rdl (degrees nbs) (i - 1) ;; wr off i (o + d)) 1 n a0) as (a & E & S).
  - lia.
  - exact S0.
  - intros k s Hk Sk. assert (Lk : ZL (map f (zrange 0 k)) = k) by (unfold ZL; rewrite map_length, zrange_length; lia). rewrite (proj2 Sk (k - 1)) by lia. cbn [bind]. rewrite (nth_map_zrange f) by lia. rewrite rdl_ok by (unfold degrees; rewrite map_length; lia). cbn [bind].
    rewrite zrange_snoc by lia. rewrite map_app. cbn [map]. assert (Ef : f (k - 1) + nth (Z.to_nat (k - 1)) (degrees nbs) 0 = f k).
    { unfold f. replace (Z.to_nat k) with (S (Z.to_nat (k - 1))) by lia. set (j := Z.to_nat (k - 1)). assert (Hj : (j < length nbs)%nat) by lia. destruct (nth_split nbs [] Hj) as (u & v & Es & Lu).
      unfold degrees. rewrite (nth_indep _ 0 (ZL (@nil Z))) by (rewrite map_length; lia). rewrite (map_nth (fun l => ZL l)). set (x := nth j nbs []) in *. rewrite Es. rewrite firstn_app, firstn_app. rewrite Lu, Nat.sub_diag. replace (S j - j)%nat with 1%nat by lia. rewrite (firstn_all2 u) by lia. rewrite (firstn_all2 u) by lia. cbn [firstn]. rewrite app_nil_r. rewrite concat_app. cbn. rewrite app_nil_r. unfold ZL. rewrite app_length. lia. }
    rewrite Ef. destruct (starts_snoc s n _ (f k) Sk) as (s' & Ew & S'). lia. rewrite Lk in Ew. eauto.
  - rewrite E. cbn [bind]. assert (La : ZL (map f (zrange 0 n)) = n) by (unfold ZL; rewrite map_length, zrange_length; lia).
    rewrite (mapM_val _ _ (fun i => rd a i) f). f_equal. unfold starts_at. unfold zrange. rewrite map_map. replace (Z.to_nat (n - 0)) with (length nbs) by lia. apply map_ext. intros i. unfold f. do 3 f_equal. lia.
    intros i Hi. apply In_zrange in Hi. rewrite (proj2 S) by lia. f_equal. apply (nth_map_zrange f). auto.
Qed.
