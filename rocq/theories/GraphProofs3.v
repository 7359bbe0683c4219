(** Graph_Assign_Numbers. *)
From Coq Require Import ZArith List Lia Bool Arith ZifyBool ZifyNat Permutation Sorting.Sorted.
From Verif Require Import Base BaseProofs ListSpec HashProofs SortModel SortProofs SortProps AttModel AttProps TopoModel TopoProofs TopoProofs2 ParModel ParProps GraphModel GraphProofs GraphProofs2.
Import ListNotations.
Open Scope Z_scope.

(** The number of a node: its place in the order, -1 when it is not there. *)
Definition numb (ord : list Z) (v : Z) : Z := match index_of v ord with Some i => Z.of_nat i | None => -1 end.
Definition tagged (ord : list Z) (v : Z) : Z := if mem v ord then 1 else 0.

Lemma index_of_in : forall l x, In x l -> exists k, index_of x l = Some k.
Proof. intros l x H. destruct (index_of x l) eqn:E; eauto. destruct (index_of_none _ _ E H). Qed.
Lemma index_of_out : forall l x, ~ In x l -> index_of x l = None.
Proof. intros l x H. destruct (index_of x l) eqn:E; auto. exfalso. apply H. destruct (index_of_some _ _ _ E) as (l1 & l2 & -> & _). apply in_app_iff. right. left. auto. Qed.
Lemma numb_neg : forall ord v, numb ord v = -1 <-> ~ In v ord.
Proof.
  intros. unfold numb. split. intros H HI. destruct (index_of_in _ _ HI) as (k & E). rewrite E in H. lia. intros H. rewrite index_of_out; auto.
Qed.
Lemma numb_snoc : forall ord v w, ~ In w ord -> numb (ord ++ [w]) v = zupd (numb ord) w (ZL ord) v.
Proof.
  intros ord v w Nw. unfold zupd. destruct (Z.eqb_spec v w) as [->|N].
  - unfold numb. rewrite index_of_app by auto. reflexivity.
  - unfold numb. replace (index_of v (ord ++ [w])) with (index_of v ord); auto. clear Nw. induction ord as [|x ord IH]; cbn. destruct (Z.eqb_spec w v); congruence. destruct (x =? v); auto. rewrite IH. auto.
Qed.
Lemma tagged_in : forall ord v, tagged ord v = 1 <-> In v ord.
Proof. intros. unfold tagged. destruct (mem v ord) eqn:E. rewrite mem_In in E. split; auto. split. lia. intros H. apply mem_In in H. congruence. Qed.
Lemma tagged_out : forall ord v, tagged ord v = 0 <-> ~ In v ord.
Proof. intros. pose proof (tagged_in ord v). unfold tagged in *. destruct (mem v ord); split; try lia; intuition lia. Qed.
Lemma tagged_snoc : forall ord v w, tagged (ord ++ [w]) v = zupd (tagged ord) w 1 v.
Proof.
  intros. unfold zupd. destruct (Z.eqb_spec v w) as [->|N]. apply tagged_in. apply in_app_iff. right. left. auto.
  unfold tagged. replace (mem v (ord ++ [w])) with (mem v ord); auto. apply eq_true_iff_eq. rewrite !mem_In, in_app_iff. cbn. intuition. congruence.
Qed.
Lemma tagged_ext : forall l1 l2, (forall v, In v l1 <-> In v l2) -> forall v, tagged l1 v = tagged l2 v.
Proof. intros l1 l2 H v. unfold tagged. replace (mem v l2) with (mem v l1); auto. apply eq_true_iff_eq. rewrite !mem_In. auto. Qed.

Lemma starts_split : forall a n m, starts a n m -> exists post, a = map Some m ++ post.
Proof.
  intros a n m (L & H). exists (skipn (length m) a). 
  destruct (le_lt_dec (length m) (length a)) as [Hl|Hl].
  2: { exfalso. specialize (H (Z.of_nat (length a))). unfold ZL in H. specialize (H ltac:(lia)). apply rd_nth in H. lia. }
  rewrite <- (firstn_skipn (length m) a) at 1. f_equal. apply array_ext. rewrite map_length, firstn_length. lia.
  intros i Hi. rewrite firstn_length in Hi. exists (nth (Z.to_nat i) m 0). split; [|apply rd_some; unfold ZL; lia].
  rewrite <- H by (unfold ZL; lia). unfold rd. replace (0 <=? i) with true by lia.
  rewrite <- (firstn_skipn (length m) a) at 2. rewrite nth_error_app1 by (rewrite firstn_length; lia). auto.
Qed.
Lemma split_starts : forall m post, starts (map Some m ++ post) (Z.of_nat (length (map Some m ++ post))) m.
Proof.
  intros. split; auto. intros i Hi. rewrite <- (rd_some m i Hi). unfold rd. replace (0 <=? i) with true by lia. unfold ZL in Hi. rewrite nth_error_app1; auto. rewrite map_length. lia.
Qed.
(** Sorting the first cells. *)
Lemma sort_starts : forall a n m key f, starts a n m -> (forall x, In x m -> rd key x = Ok (f x)) -> ZL m < 2 ^ 31 ->
  exists a' m', mstk_quicksort a (Some key) 0 (ZL m - 1) = Ok a' /\ starts a' n m' /\ Permutation m m' /\ StronglySorted (fun x y => f x <= f y) m'.
Proof.
  intros a n m key f SA K Lm. destruct (starts_split _ _ _ SA) as (post & ->). destruct (C09_quicksort (Some key) f [] post m) as (m' & E & P & SS); auto.
  exists (map Some m' ++ post), m'. cbn [app length] in E. change (Z.of_nat 0) with 0 in E. split; auto. split; auto. destruct SA as (L & _). rewrite <- L.
  replace (length (map Some m ++ post)) with (length (map Some m' ++ post)). apply split_starts. rewrite !app_length, !map_length. apply Permutation_length in P. lia.
Qed.

Section Numbers.
Variables (n : Z) (adj nadj off : list Z) (nb : Z -> list Z) (lv : Z -> Z) (level : array Z) (maxdeg : Z).
Hypothesis G : graph n adj nadj off nb.
Hypothesis NDnb : forall u, 0 <= u < n -> NoDup (nb u).
Hypothesis HL : holds level n lv.
Hypothesis Hmax : forall u, 0 <= u < n -> ZL (nb u) <= maxdeg.
Hypothesis Hn : 0 < n < 2 ^ 31.

Definition okord (ord : list Z) : Prop := NoDup ord /\ forall v, In v ord -> 0 <= v < n.
(** State of the three shared variables. *)
Definition okst (nodemap tag : array Z) (nnew : Z) (ord : list Z) : Prop :=
  holds nodemap n (numb ord) /\ holds tag n (tagged ord) /\ nnew = ZL ord /\ okord ord.

Lemma nadj_key : forall x, 0 <= x < n -> rd (map Some nadj) x = Ok (ZL (nb x)).
Proof.
  intros x Hx. pose proof (g_nadj _ _ _ _ _ G x Hx) as H. pose proof (g_len _ _ _ _ _ G) as L. rewrite rdl_ok in H by lia. rewrite rd_some by (unfold ZL; lia). auto.
Qed.
Lemma okord_len : forall ord, okord ord -> ZL ord <= n.
Proof. intros ord (N & R). apply bounded_length; auto. lia. Qed.
Lemma okord_app : forall ord ws, okord ord -> NoDup ws -> (forall w, In w ws -> 0 <= w < n /\ ~ In w ord) -> okord (ord ++ ws).
Proof.
  intros ord ws (N & R) Nw H. split. apply nd_app. split; auto. split; auto. intros x Hx Hx'. apply (H x Hx'); auto.
  intros v Hv. apply in_app_iff in Hv. destruct Hv; auto. apply H; auto.
Qed.

(** Collecting neighbours that satisfy [c]; the two loops 610-617, 643-650. *)
Lemma gather_ok : forall (step : array Z * array Z * Z -> Z -> result (array Z * array Z * Z)) (c : Z -> bool) node ord tag,
  0 <= node < n -> holds tag n (tagged ord) ->
  (forall w, In w (nb node) -> c w = true -> ~ In w ord) ->
  (forall nba tg k ws w j, 0 <= j < ZL (nb node) -> w = nth (Z.to_nat j) (nb node) 0 -> ~ In w ws -> holds tg n (tagged (ord ++ ws)) ->
     step (nba, tg, k) j = (if c w then nba <- wr nba k w ;; tg <- wr tg w 1 ;; Ok (nba, tg, k + 1) else Ok (nba, tg, k))) ->
  exists nba tag', foldM step (malloc maxdeg, tag, 0) (zrange 0 (ZL (nb node))) = Ok (nba, tag', ZL (filter c (nb node))) /\ starts nba maxdeg (filter c (nb node)) /\
    holds tag' n (tagged (ord ++ filter c (nb node))).
Proof.
  intros step c node ord tag Hv HT Hc Hs. pose proof (NDnb node Hv) as ND.
  destruct (foldM_up _ (fun j (st : array Z * array Z * Z) => let '(nba, tg, k) := st in let ws := filter c (firstn (Z.to_nat j) (nb node)) in k = ZL ws /\ starts nba maxdeg ws /\ holds tg n (tagged (ord ++ ws))) step 0 (ZL (nb node)) (malloc maxdeg, tag, 0)) as (st & E & P).
  - unfold ZL. lia.
  - change (Z.to_nat 0) with 0%nat. cbn [firstn filter]. split; auto. split. apply starts_nil. apply malloc_len. specialize (Hmax node Hv). unfold ZL in Hmax. lia. rewrite app_nil_r. auto.
  - intros j [[nba tg] k] Hj (-> & SN & HG). set (w := nth (Z.to_nat j) (nb node) 0). unfold ZL in Hj.
    assert (EF : firstn (Z.to_nat (j + 1)) (nb node) = firstn (Z.to_nat j) (nb node) ++ [w]).
    { replace (Z.to_nat (j + 1)) with (S (Z.to_nat j)) by lia. unfold w. clear -Hj. assert (Q : forall (l : list Z) i, (i < length l)%nat -> firstn (S i) l = firstn i l ++ [nth i l 0]). { induction l as [|x l IH]; intros [|i] Hi; cbn in Hi; try lia; auto. change (firstn (S (S i)) (x :: l)) with (x :: firstn (S i) l). rewrite IH by lia. reflexivity. } apply Q. lia. }
    assert (Nw : ~ In w (firstn (Z.to_nat j) (nb node))).
    { assert (NN : NoDup (firstn (Z.to_nat (j + 1)) (nb node))). { rewrite <- (firstn_skipn (Z.to_nat (j + 1)) (nb node)) in ND. apply nd_app in ND. tauto. } rewrite EF in NN. apply nd_app in NN. destruct NN as (_ & _ & NN). intros HH. apply (NN w HH). left; auto. }
    assert (Rw : 0 <= w < n) by (apply (g_rng _ _ _ _ _ G node w Hv); apply nth_In; lia).
    rewrite (Hs nba tg _ (filter c (firstn (Z.to_nat j) (nb node))) w j) by (auto; try (unfold ZL; lia); intros HH; apply filter_In in HH; tauto).
    rewrite EF, filter_app. cbn [filter]. destruct (c w) eqn:C.
    + destruct (starts_snoc nba maxdeg _ w SN) as (nba' & E1 & S1).
      { specialize (Hmax node Hv). assert (L1 : (length (filter c (firstn (Z.to_nat j) (nb node))) <= length (firstn (Z.to_nat j) (nb node)))%nat). { generalize (firstn (Z.to_nat j) (nb node)). induction l as [|x l IH]; cbn; auto. destruct (c x); cbn; lia. } rewrite firstn_length in L1. unfold ZL in *. lia. }
      rewrite E1. cbn [bind]. destruct (holds_wr tg n _ w 1 HG Rw) as (tg' & E2 & H2). rewrite E2. cbn [bind]. eexists. split; [reflexivity|]. cbv beta iota zeta. split. unfold ZL. rewrite app_length. cbn [length]. lia. split; auto.
      eapply holds_ext. exact H2. intros i Hi. rewrite app_assoc, tagged_snoc. auto.
    + eexists. split; [reflexivity|]. cbv beta iota zeta. rewrite !app_nil_r. auto.
  - destruct st as [[nba tg] k]. replace (Z.to_nat (ZL (nb node))) with (length (nb node)) in P by (unfold ZL; lia). rewrite firstn_all in P. destruct P as (-> & SN & HG). exists nba, tg. auto.
Qed.

Lemma sort_nb : forall nba ws, starts nba maxdeg ws -> NoDup ws -> (forall w, In w ws -> 0 <= w < n) ->
  exists nba' ws', mstk_quicksort nba (Some (map Some nadj)) 0 (ZL ws - 1) = Ok nba' /\ starts nba' maxdeg ws' /\ Permutation ws ws'.
Proof.
  intros nba ws SN ND R. destruct (sort_starts nba maxdeg ws (map Some nadj) (fun x => ZL (nb x)) SN) as (a' & m' & E & S1 & P & _).
  intros x Hx. apply nadj_key; auto. pose proof (bounded_length ws n ltac:(lia) ND R). lia. eauto.
Qed.

(** Nodes that can be reached from [b] without ever going back to a lower level
    or skipping one. *)
Inductive climb (b : Z) : Z -> Prop :=
| climb_0 : climb b b
| climb_S : forall u w, climb b u -> In w (nb u) -> lv w = lv u \/ lv w = lv u + 1 -> climb b w.

Lemma number_ok : forall nba ws cl ord nodemap cln, starts nba maxdeg ws -> holds nodemap n (numb ord) -> starts cln n cl -> NoDup (ord ++ ws) -> (forall w, In w ws -> 0 <= w < n) -> ZL (cl ++ ws) <= n ->
  exists nodemap' cln', foldM (fun st j => let '(nodemap, nnew, cln, ncur) := st in
              an <- rd nba j ;;
              nodemap <- wr nodemap an nnew ;;
              cln <- wr cln ncur an ;;
              Ok (nodemap, nnew + 1, cln, ncur + 1)) (nodemap, ZL ord, cln, ZL cl) (zrange 0 (ZL ws)) = Ok (nodemap', ZL (ord ++ ws), cln', ZL (cl ++ ws)) /\
    holds nodemap' n (numb (ord ++ ws)) /\ starts cln' n (cl ++ ws).
Proof.
  intros nba ws cl ord nodemap cln SN HM SC ND R Lc. destruct SN as (_ & SN).
  rewrite (nb_fold _ _ (fun (st : array Z * Z * array Z * Z) an => let '(nodemap, nnew, cln, ncur) := st in nodemap <- wr nodemap an nnew ;; cln <- wr cln ncur an ;; Ok (nodemap, nnew + 1, cln, ncur + 1))).
  2: { intros [[[a1 a2] a3] a4] j Hj. rewrite SN by auto. reflexivity. }
  match goal with |- context [foldM ?g _ _] => destruct (foldM_list _ _ (fun pre (st : array Z * Z * array Z * Z) => let '(nm, nnew, c, ncur) := st in nnew = ZL (ord ++ pre) /\ ncur = ZL (cl ++ pre) /\ holds nm n (numb (ord ++ pre)) /\ starts c n (cl ++ pre)) g ws (nodemap, ZL ord, cln, ZL cl)) as (st & E & P) end.
  - rewrite !app_nil_r. auto.
  - intros pre w suf [[[nm nnew] c] ncur] Ew (-> & -> & H1 & S1).
    assert (Rw : 0 <= w < n) by (apply R; rewrite Ew; apply in_app_iff; right; left; auto).
    assert (Nw : ~ In w (ord ++ pre)). { rewrite Ew, app_assoc in ND. apply nd_app in ND. destruct ND as (_ & _ & ND). intros HH. apply (ND w HH). left; auto. }
    destruct (holds_wr nm n _ w (ZL (ord ++ pre)) H1 Rw) as (nm' & E1 & H1'). rewrite E1. cbn [bind].
    destruct (starts_snoc c n (cl ++ pre) w S1) as (c' & E2 & S2). { rewrite Ew in Lc. unfold ZL in *. rewrite !app_length in *. cbn [length] in *. lia. } rewrite E2. cbn [bind].
    eexists. split; [reflexivity|]. cbv beta iota zeta. rewrite !app_assoc. split. unfold ZL. rewrite !app_length. cbn [length]. lia. split. unfold ZL. rewrite !app_length. cbn [length]. lia. split; auto.
    eapply holds_ext. exact H1'. intros v _. rewrite numb_snoc; auto.
  - destruct st as [[[nm nnew] c] ncur]. destruct P as (-> & -> & H1 & S1). exists nm, c. auto.
Qed.

Lemma same_loop_ok : forall b lev fuel i ord cl nodemap tag nnew cln, okst nodemap tag nnew ord -> starts cln n cl -> okord cl ->
  (forall v, In v cl -> In v ord /\ lv v = lev) -> (forall v, In v ord -> lv v = lev -> In v cl) -> (forall v, In v ord -> climb b v) -> (i <= length cl)%nat -> (Z.to_nat n - i < fuel)%nat ->
  exists nodemap' tag' cln' ws, same_loop fuel adj nadj off maxdeg lev level nodemap tag nnew cln (ZL cl) (Z.of_nat i) = Ok (nodemap', tag', ZL (ord ++ ws), cln', ZL (cl ++ ws)) /\
    okst nodemap' tag' (ZL (ord ++ ws)) (ord ++ ws) /\ starts cln' n (cl ++ ws) /\ okord (cl ++ ws) /\
    (forall v, In v ws -> lv v = lev) /\ (forall v, In v (ord ++ ws) -> climb b v) /\
    (forall j w, (i <= j < length (cl ++ ws))%nat -> In w (nb (nth j (cl ++ ws) 0)) -> lv w = lev -> In w (ord ++ ws)).
Proof.
  intros b lev. induction fuel as [|fuel IH]; intros i ord cl nodemap tag nnew cln OS SC OC HC HC' HB Hi Hf. lia.
  cbn [same_loop]. destruct (Z.ltb_spec (Z.of_nat i) (ZL cl)) as [Hlt|Hge].
  2: { destruct OS as (H1 & H2 & -> & H3). exists nodemap, tag, cln, []. rewrite !app_nil_r. split; auto. split. split; auto. split; auto. split; auto. split. intros v []. split; auto. intros j w Hj. unfold ZL in Hge. lia. }
  destruct SC as (Lc & SC). rewrite SC by lia. rewrite Nat2Z.id. cbn [bind]. assert (Hi' : (i < length cl)%nat) by (unfold ZL in Hlt; lia). set (node := nth i cl 0). assert (Inode : In node cl) by (apply nth_In; auto).
  destruct (HC node Inode) as (Io & Ln). destruct OS as (HM & HT & -> & OO). assert (Rn : 0 <= node < n) by (apply OO; auto).
  rewrite (proj2 HM node Rn). cbn [bind]. destruct (Z.eqb_spec (numb ord node) (-1)) as [E|_]. { apply numb_neg in E. contradiction. }
  destruct (g_off _ _ _ _ _ G node Rn) as (o & Eo & Ho). rewrite Eo. cbn [bind]. rewrite (g_nadj _ _ _ _ _ G node Rn). cbn [bind].
  set (c := fun w => (lv w =? lev) && negb (mem w ord)).
  match goal with |- context [foldM ?g (malloc maxdeg, tag, 0) _] => destruct (gather_ok g c node ord tag Rn HT) as (nba & tag1 & E1 & S1 & HT1) end.
  { intros w _ Hc. unfold c in Hc. apply andb_true_iff in Hc. destruct Hc as (_ & Hc). rewrite <- mem_In. destruct (mem w ord); cbn in *; congruence. }
  { intros nba tg k ws w j Hj -> _ _. set (w := nth (Z.to_nat j) (nb node) 0). assert (Rw : 0 <= w < n) by (apply (g_rng _ _ _ _ _ G node w Rn); apply nth_In; unfold ZL in Hj; lia).
    cbv beta iota. rewrite Ho by auto. fold w. cbn [bind]. rewrite (proj2 HL w Rw). cbn [bind]. unfold c. destruct (Z.eqb_spec (lv w) lev) as [El|El]; cbn [andb bind]; [|auto].
    rewrite (proj2 HM w Rw). cbn [bind]. destruct (Z.eqb_spec (numb ord w) (-1)) as [E|E]; destruct (mem w ord) eqn:M; cbn [negb]; auto; exfalso.
    - apply mem_In in M. apply numb_neg in E. auto.
    - apply E, numb_neg. rewrite <- mem_In. congruence. }
  rewrite E1. cbn [bind]. set (ws := filter c (nb node)) in *.
  assert (NDw : NoDup ws) by (apply NoDup_filter, NDnb; auto).
  assert (Rw : forall w, In w ws -> 0 <= w < n /\ ~ In w ord /\ lv w = lev /\ In w (nb node)). { intros w Hw. apply filter_In in Hw. destruct Hw as (Hw & Hc). unfold c in Hc. apply andb_true_iff in Hc. destruct Hc as (Hc1 & Hc2). split. eapply (g_rng _ _ _ _ _ G); eauto. split. rewrite <- mem_In. destruct (mem w ord); cbn in *; congruence. split; auto. lia. }
  destruct (sort_nb nba ws S1 NDw) as (nba' & ws' & E2 & S2 & P2). intros; apply Rw; auto. rewrite E2. cbn [bind].
  assert (Rw' : forall w, In w ws' -> 0 <= w < n /\ ~ In w ord /\ lv w = lev /\ In w (nb node)). { intros w Hw. apply Rw. eapply Permutation_in. apply Permutation_sym. exact P2. auto. }
  assert (OO' : okord (ord ++ ws')). { apply okord_app; auto. eapply Permutation_NoDup; eauto. intros w Hw. destruct (Rw' w Hw); tauto. }
  assert (OC' : okord (cl ++ ws')). { apply okord_app; auto. eapply Permutation_NoDup; eauto. intros w Hw. destruct (Rw' w Hw) as (? & Hno & ? & _). split; auto. intros HH. apply Hno, HC; auto. }
  replace (ZL ws) with (ZL ws') by (unfold ZL; rewrite (Permutation_length P2); auto).
  destruct (number_ok nba' ws' cl ord nodemap cln S2 HM (conj Lc SC)) as (nm1 & cln1 & E3 & H3 & S3). apply OO'. intros; apply Rw'; auto. apply okord_len; auto. rewrite E3. cbn [bind].
  replace (Z.of_nat i + 1) with (Z.of_nat (S i)) by lia.
  destruct (IH (S i) (ord ++ ws') (cl ++ ws') nm1 tag1 (ZL (ord ++ ws')) cln1) as (nm2 & tag2 & cln2 & vs & E4 & OS4 & S4 & OC4 & L4 & B4 & D4).
  - split; auto. split; auto. eapply holds_ext. exact HT1. intros v _. apply tagged_ext. intros x. rewrite !in_app_iff. split; intros [|HH]; auto; right; [eapply Permutation_in; eauto|eapply Permutation_in; [apply Permutation_sym; eauto|auto]].
  - auto.
  - auto.
  - intros v Hv. rewrite in_app_iff. apply in_app_iff in Hv. destruct Hv as [Hv|Hv]. split. left. apply HC; auto. apply HC; auto. split; auto. apply Rw'; auto.
  - intros v Hv Hl. rewrite in_app_iff. apply in_app_iff in Hv. destruct Hv; auto.
  - intros v Hv. apply in_app_iff in Hv. destruct Hv as [Hv|Hv]; auto. destruct (Rw' v Hv) as (_ & _ & Hl & Hin). apply climb_S with (u := node); auto. left. congruence.
  - rewrite app_length. lia.
  - pose proof (okord_len _ OC). unfold ZL in *. lia.
  - exists nm2, tag2, cln2, (ws' ++ vs). rewrite !app_assoc. split; auto. split; auto. split; auto. split; auto. split. { intros v Hv. apply in_app_iff in Hv. destruct Hv as [Hv|Hv]; auto. apply Rw'; auto. } split; auto.
    intros j w Hj Hw Hl. destruct (Nat.eq_dec j i) as [->|]; [|apply (D4 j); auto; lia]. rewrite app_nth1 in Hw by (rewrite app_length; lia). rewrite app_nth1 in Hw by lia. fold node in Hw.
    rewrite in_app_iff. left. rewrite in_app_iff. destruct (mem w ord) eqn:M. left. apply mem_In; auto. right. eapply Permutation_in. exact P2. apply filter_In. split; auto. unfold c. rewrite M. cbn. lia.
Qed.

Lemma next_node_ok : forall b lev cln cl i nodemap tag ord, okst nodemap tag (ZL ord) ord -> starts cln n cl -> (forall v, In v cl -> In v ord /\ lv v = lev) -> (forall v, In v ord -> climb b v) -> (i < length cl)%nat ->
  exists nodemap' tag' ws, next_node adj nadj off maxdeg lev level cln (nodemap, tag, ZL ord) (Z.of_nat i) = Ok (nodemap', tag', ZL (ord ++ ws)) /\ okst nodemap' tag' (ZL (ord ++ ws)) (ord ++ ws) /\
    (forall v, In v ws -> lv v = lev + 1) /\ (forall v, In v (ord ++ ws) -> climb b v) /\
    (forall w, In w (nb (nth i cl 0)) -> lv w = lev + 1 -> In w (ord ++ ws)).
Proof.
  intros b lev cln cl i nodemap tag ord (HM & HT & _ & OO) (Lc & SC) HC HB Hi. unfold next_node. rewrite SC by (unfold ZL; lia). rewrite Nat2Z.id. cbn [bind]. set (node := nth i cl 0). assert (Inode : In node cl) by (apply nth_In; auto).
  destruct (HC node Inode) as (Io & Ln). assert (Rn : 0 <= node < n) by (apply OO; auto).
  destruct (g_off _ _ _ _ _ G node Rn) as (o & Eo & Ho). rewrite Eo. cbn [bind]. rewrite (g_nadj _ _ _ _ _ G node Rn). cbn [bind].
  set (c := fun w => (lv w =? lev + 1) && negb (mem w ord)).
  match goal with |- context [foldM ?g (malloc maxdeg, tag, 0) _] => destruct (gather_ok g c node ord tag Rn HT) as (nba & tag1 & E1 & S1 & HT1) end.
  { intros w _ Hc. unfold c in Hc. apply andb_true_iff in Hc. destruct Hc as (_ & Hc). rewrite <- mem_In. destruct (mem w ord); cbn in *; congruence. }
  { intros nba tg k ws w j Hj -> Nw HG. set (w := nth (Z.to_nat j) (nb node) 0) in *. assert (Rw : 0 <= w < n) by (apply (g_rng _ _ _ _ _ G node w Rn); apply nth_In; unfold ZL in Hj; lia).
    cbv beta iota. rewrite Ho by auto. fold w. cbn [bind]. rewrite (proj2 HL w Rw). cbn [bind]. unfold c. destruct (Z.eqb_spec (lv w) (lev + 1)) as [El|El]; cbn [andb bind]; [|auto].
    rewrite (proj2 HG w Rw). cbn [bind]. destruct (Z.eqb_spec (tagged (ord ++ ws) w) 0) as [E|E]; destruct (mem w ord) eqn:M; cbn [negb]; auto; exfalso.
    - apply mem_In in M. apply tagged_out in E. apply E. apply in_app_iff. auto.
    - apply E, tagged_out. rewrite in_app_iff. intros [HH|HH]; auto. apply mem_In in HH. congruence. }
  rewrite E1. cbn [bind]. set (ws := filter c (nb node)) in *.
  assert (NDw : NoDup ws) by (apply NoDup_filter, NDnb; auto).
  assert (Rw : forall w, In w ws -> 0 <= w < n /\ ~ In w ord /\ lv w = lev + 1 /\ In w (nb node)). { intros w Hw. apply filter_In in Hw. destruct Hw as (Hw & Hc). unfold c in Hc. apply andb_true_iff in Hc. destruct Hc as (Hc1 & Hc2). split. eapply (g_rng _ _ _ _ _ G); eauto. split. rewrite <- mem_In. destruct (mem w ord); cbn in *; congruence. split; auto. lia. }
  destruct (sort_nb nba ws S1 NDw) as (nba' & ws' & E2 & S2 & P2). intros; apply Rw; auto. rewrite E2. cbn [bind].
  assert (Rw' : forall w, In w ws' -> 0 <= w < n /\ ~ In w ord /\ lv w = lev + 1 /\ In w (nb node)). { intros w Hw. apply Rw. eapply Permutation_in. apply Permutation_sym. exact P2. auto. }
  assert (OO' : okord (ord ++ ws')). { apply okord_app; auto. eapply Permutation_NoDup; eauto. intros w Hw. destruct (Rw' w Hw); tauto. }
  replace (ZL ws) with (ZL ws') by (unfold ZL; rewrite (Permutation_length P2); auto).
  rewrite (nb_fold _ _ (fun (st : array Z * array Z * Z) an => let '(nodemap, tag, nnew) := st in nodemap <- wr nodemap an nnew ;; Ok (nodemap, tag, nnew + 1))).
  2: { intros [[a1 a2] a3] j Hj. rewrite (proj2 S2) by auto. reflexivity. }
  match goal with |- context [foldM ?g _ _] => destruct (foldM_list _ _ (fun pre (st : array Z * array Z * Z) => let '(nm, tg, nnew) := st in nnew = ZL (ord ++ pre) /\ tg = tag1 /\ holds nm n (numb (ord ++ pre))) g ws' (nodemap, tag1, ZL ord)) as (st & E & P) end.
  - rewrite !app_nil_r. auto.
  - intros pre w suf [[nm tg] nnew] Ew (-> & -> & H1).
    assert (Rw1 : 0 <= w < n) by (apply Rw'; rewrite Ew; apply in_app_iff; right; left; auto).
    assert (Nw : ~ In w (ord ++ pre)). { destruct OO' as (ND & _). rewrite Ew, app_assoc in ND. apply nd_app in ND. destruct ND as (_ & _ & ND). intros HH. apply (ND w HH). left; auto. }
    destruct (holds_wr nm n _ w (ZL (ord ++ pre)) H1 Rw1) as (nm' & E1' & H1'). rewrite E1'. cbn [bind].
    eexists. split; [reflexivity|]. cbv beta iota zeta. rewrite !app_assoc. split. unfold ZL. rewrite !app_length. cbn [length]. lia. split; auto.
    eapply holds_ext. exact H1'. intros v _. rewrite numb_snoc; auto.
  - destruct st as [[nm tg] nnew]. destruct P as (-> & -> & H1). exists nm, tag1, ws'. split; auto. split. { split; auto. split; auto. eapply holds_ext. exact HT1. intros v _. apply tagged_ext. intros x. rewrite !in_app_iff. split; intros [|HH]; auto; right; [eapply Permutation_in; eauto|eapply Permutation_in; [apply Permutation_sym; eauto|auto]]. }
    split. intros v Hv. apply Rw'; auto. split. { intros v Hv. apply in_app_iff in Hv. destruct Hv as [Hv|Hv]; auto. destruct (Rw' v Hv) as (_ & _ & Hl & Hin). apply climb_S with (u := node); auto. right. congruence. }
    intros w Hw Hl. rewrite in_app_iff. destruct (mem w ord) eqn:M. left. apply mem_In; auto. right. eapply Permutation_in. exact P2. apply filter_In. split; auto. unfold c. rewrite M. cbn. lia.
Qed.

(** Nodes of the levels done have all their neighbours on the same and the next level. *)
Definition closed (lev : Z) (ord : list Z) : Prop := forall u w, In u ord -> 1 <= lv u < lev -> In w (nb u) -> lv w = lv u \/ lv w = lv u + 1 -> In w ord.

Lemma number_level_ok : forall b lev nodemap tag ord, okst nodemap tag (ZL ord) ord -> (forall v, In v ord -> climb b v) -> closed lev ord ->
  exists nodemap' tag' ws, number_level n adj nadj off maxdeg level (nodemap, tag, ZL ord) lev = Ok (nodemap', tag', ZL (ord ++ ws)) /\ okst nodemap' tag' (ZL (ord ++ ws)) (ord ++ ws) /\
    (forall v, In v (ord ++ ws) -> climb b v) /\ closed (lev + 1) (ord ++ ws).
Proof.
  intros b lev nodemap tag ord OS HB CL. unfold number_level. destruct OS as (HM & HT & _ & OO).
  set (p := fun v => (lv v =? lev) && mem v ord).
  match goal with |- context [foldM ?g (malloc n, 0) _] => destruct (foldM_up _ (fun k (st : array Z * Z) => let '(cln, c) := st in c = ZL (filter p (zrange 0 k)) /\ starts cln n (filter p (zrange 0 k))) g 0 n (malloc n, 0)) as (st & E & P) end.
  - lia.
  - rewrite zrange_nil by lia. split; auto. apply starts_nil. apply malloc_len. lia.
  - intros k [cln c] Hk (-> & SC). rewrite (proj2 HL k Hk). cbn [bind]. rewrite zrange_snoc by lia. rewrite filter_app. cbn [filter].
    assert (EQ : (c <- (if lv k =? lev then rd nodemap k else Ok (-1)) ;; if negb (c =? -1) then cln0 <- wr cln (ZL (filter p (zrange 0 k))) k ;; Ok (cln0, ZL (filter p (zrange 0 k)) + 1) else Ok (cln, ZL (filter p (zrange 0 k)))) =
      if p k then cln0 <- wr cln (ZL (filter p (zrange 0 k))) k ;; Ok (cln0, ZL (filter p (zrange 0 k)) + 1) else Ok (cln, ZL (filter p (zrange 0 k)))).
    { change (p k) with ((lv k =? lev) && mem k ord). destruct (lv k =? lev); cbn [andb]; auto. rewrite (proj2 HM k Hk). cbn [bind]. destruct (Z.eqb_spec (numb ord k) (-1)) as [E|E]; destruct (mem k ord) eqn:M; cbn [negb]; auto; exfalso. apply mem_In in M. apply numb_neg in E. auto. apply E, numb_neg. rewrite <- mem_In. congruence. }
    rewrite EQ. clear EQ. destruct (p k).
    + destruct (starts_snoc cln n _ k SC) as (cln' & E1 & S1). { pose proof (bounded_length (filter p (zrange 0 k)) k ltac:(lia)). assert (ZL (filter p (zrange 0 k)) <= k); [|lia]. apply H. apply NoDup_filter, NoDup_zrange. intros x Hx. apply filter_In in Hx. destruct Hx as (Hx & _). apply In_zrange in Hx. auto. }
      rewrite E1. cbn [bind]. eexists. split; [reflexivity|]. split; auto. unfold ZL. rewrite app_length. cbn [length]. lia.
    + eexists. split; [reflexivity|]. rewrite app_nil_r. auto.
  - destruct st as [cln c]. destruct P as (-> & SC). rewrite E. cbn [bind]. set (cl0 := filter p (zrange 0 n)) in *.
    assert (I0 : forall v, In v cl0 <-> In v ord /\ lv v = lev). { intros v. unfold cl0. rewrite filter_In, In_zrange. unfold p. rewrite andb_true_iff, mem_In. split. intros (? & ? & ?). split; auto. lia. intros (? & ?). split. apply OO; auto. split; auto. lia. }
    assert (N0 : NoDup cl0) by (apply NoDup_filter, NoDup_zrange). assert (OC0 : okord cl0). { split; auto. intros v Hv. apply I0 in Hv. apply OO. tauto. }
    destruct (sort_starts cln n cl0 nodemap (numb ord) SC) as (cln1 & cl1 & E1 & S1 & P1 & _). { intros x Hx. apply HM. apply OC0; auto. } { pose proof (okord_len _ OC0). lia. } rewrite E1. cbn [bind].
    assert (I1 : forall v, In v cl1 <-> In v ord /\ lv v = lev). { intros v. rewrite <- I0. split; apply Permutation_in; auto. apply Permutation_sym; auto. }
    replace (ZL cl0) with (ZL cl1) by (unfold ZL; rewrite (Permutation_length P1); auto). change (same_loop (S (Z.to_nat n)) adj nadj off maxdeg lev level nodemap tag (ZL ord) cln1 (ZL cl1) 0) with (same_loop (S (Z.to_nat n)) adj nadj off maxdeg lev level nodemap tag (ZL ord) cln1 (ZL cl1) (Z.of_nat 0)).
    destruct (same_loop_ok b lev (S (Z.to_nat n)) 0 ord cl1 nodemap tag (ZL ord) cln1) as (nm2 & tag2 & cln2 & ws & E2 & OS2 & S2 & OC2 & L2 & B2 & D2); auto.
    + split; auto.
    + split. eapply Permutation_NoDup; eauto. intros v Hv. apply I1 in Hv. apply OO. tauto.
    + intros v Hv. apply I1; auto.
    + intros v Hv Hl. apply I1; auto.
    + lia.
    + lia.
    + rewrite E2. cbn [bind]. set (cl := cl1 ++ ws) in *. set (ord2 := ord ++ ws) in *.
      assert (I2 : forall v, In v cl <-> In v ord2 /\ lv v = lev). { intros v. unfold cl, ord2. rewrite !in_app_iff, I1. split. intros [(?&?)|HH]; auto. intros ([|] & ?); auto. }
      destruct (foldM_up _ (fun k (st : array Z * array Z * Z) => exists vs, let '(nm, tg, c) := st in c = ZL (ord2 ++ vs) /\ okst nm tg c (ord2 ++ vs) /\ (forall v, In v vs -> lv v = lev + 1) /\ (forall v, In v (ord2 ++ vs) -> climb b v) /\
         (forall j w, (j < Z.to_nat k)%nat -> (j < length cl)%nat -> In w (nb (nth j cl 0)) -> lv w = lev + 1 -> In w (ord2 ++ vs))) (next_node adj nadj off maxdeg lev level cln2) 0 (ZL cl) (nm2, tag2, ZL ord2)) as (st & E3 & P3).
      * unfold ZL. lia.
      * exists []. rewrite app_nil_r. split; auto. split; auto. split. intros v []. split; auto. intros j w Hj. change (Z.to_nat 0) with 0%nat in Hj. lia.
      * intros k [[nm tg] c] Hk (vs & -> & OS3 & L3 & B3 & D3). unfold ZL in Hk.
        destruct (next_node_ok b lev cln2 cl (Z.to_nat k) nm tg (ord2 ++ vs) OS3 S2) as (nm' & tg' & us & E4 & OS4 & L4 & B4 & D4); auto.
        { intros v Hv. apply I2 in Hv. rewrite in_app_iff. tauto. } { lia. } rewrite Z2Nat.id in E4 by lia. rewrite E4. eexists. split; [reflexivity|]. exists (vs ++ us). rewrite !app_assoc. split; auto. split; auto. split. { intros v Hv. apply in_app_iff in Hv. destruct Hv; auto. } split; auto.
        intros j w Hj Hjl Hw Hl. destruct (Nat.eq_dec j (Z.to_nat k)) as [->|]. apply D4; auto. rewrite in_app_iff. left. apply (D3 j w); auto. lia.
      * destruct st as [[nm tg] c]. destruct P3 as (vs & -> & OS3 & L3 & B3 & D3). exists nm, tg, (ws ++ vs). rewrite app_assoc. fold ord2. split; auto. split; auto. split; auto.
        intros u w Hu Hl Hw Hlw. apply in_app_iff in Hu. destruct Hu as [Hu|Hu]; [|specialize (L3 u Hu); lia].
        destruct (Z.eq_dec (lv u) lev) as [El|El].
        -- assert (Hcl : In u cl) by (apply I2; auto). destruct (In_nth _ _ 0 Hcl) as (j & Hj & Ej). destruct Hlw as [Hlw|Hlw].
           ++ rewrite in_app_iff. left. unfold ord2. apply (D2 j w). fold cl. lia. fold cl. rewrite Ej. auto. lia.
           ++ apply (D3 j w). unfold ZL. lia. lia. rewrite Ej; auto. lia.
        -- unfold ord2 in Hu. apply in_app_iff in Hu. destruct Hu as [Hu|Hu]; [|specialize (L2 u Hu); lia]. rewrite in_app_iff. left. unfold ord2. rewrite in_app_iff. left. apply (CL u w); auto. lia.
Qed.
End Numbers.
