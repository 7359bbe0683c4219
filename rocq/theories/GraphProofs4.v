(** Graph_Assign_Numbers as a whole; Graph_Find_ExtremalNodes. *)
From Coq Require Import ZArith List Lia Bool Arith ZifyBool ZifyNat Permutation Sorting.Sorted.
From Verif Require Import Base BaseProofs ListSpec HashProofs SortModel SortProofs SortProps AttModel AttProps TopoModel TopoProofs TopoProofs2 ParModel ParProps GraphModel GraphProofs GraphProofs2 GraphProofs3.
Import ListNotations.
Open Scope Z_scope.

Lemma climb_ext : forall nb lv1 lv2 b n, (forall u v, 0 <= u < n -> In v (nb u) -> 0 <= v < n) -> (forall v, 0 <= v < n -> lv1 v = lv2 v) -> 0 <= b < n -> forall v, climb nb lv1 b v -> climb nb lv2 b v /\ 0 <= v < n.
Proof.
  intros nb lv1 lv2 b n R E Hb v C. induction C as [|u w C (IH & Ru) Hw Hl]. split; auto. constructor.
  assert (0 <= w < n) by eauto. split; auto. apply climb_S with (u := u); auto. rewrite <- !E; auto.
Qed.

Lemma assign_numbers_ok : forall n adj nadj off nb lv level nodemap n_beg n_end, graph n adj nadj off nb -> (forall u, 0 <= u < n -> NoDup (nb u)) -> holds level n lv -> (forall v, 0 <= v < n -> 0 <= lv v) ->
  0 < n < 2 ^ 31 -> 0 <= n_beg < n -> 0 <= n_end < n -> Z.of_nat (length nodemap) = n ->
  exists nodemap' ord depth swap, Graph_Assign_Numbers n adj nadj off n_beg n_end level nodemap = Ok nodemap' /\ holds nodemap' n (numb ord) /\ NoDup ord /\ (forall v, In v ord -> 0 <= v < n) /\
    (forall v, 0 <= v < n -> lv v <= depth) /\ (exists v, 0 <= v < n /\ lv v = depth) /\
    let b := if swap : bool then n_end else n_beg in let lv' := fun v => if swap : bool then depth - lv v + 1 else lv v in
    (forall v, In v ord -> climb nb lv' b v) /\ ((forall v, 0 <= v < n -> 1 <= lv v) -> forall v, climb nb lv' b v -> In v ord).
Proof.
  intros n adj nadj off nb lv level nodemap n_beg n_end G ND HL Lpos Hn Hb He Lm. unfold Graph_Assign_Numbers.
  destruct (max_loop lv (rd level) 0 n) as (depth & Ed & D0 & D1 & D2). lia. apply HL. auto. rewrite Ed. cbn [bind].
  destruct (max_loop (fun u => ZL (nb u)) (rdl nadj) 0 n) as (maxdeg & Em & M0 & M1 & _). lia. intros. apply (g_nadj _ _ _ _ _ G). lia. intros. unfold ZL. lia. rewrite Em. cbn [bind].
  rewrite (g_nadj _ _ _ _ _ G n_end He). cbn [bind]. rewrite (g_nadj _ _ _ _ _ G n_beg Hb). cbn [bind]. set (swap := ZL (nb n_end) <? ZL (nb n_beg)).
  set (b := if swap then n_end else n_beg). set (lv' := fun v => if swap then depth - lv v + 1 else lv v).
  assert (ES : exists level', (if swap then level <- foldM (fun level i => l <- rd level i ;; wr level i (depth - l + 1)) level (zrange 0 n) ;; Ok (n_end, level) else Ok (n_beg, level)) = Ok (b, level') /\ holds level' n lv').
  { unfold b, lv'. destruct swap; [|exists level; split; [reflexivity|exact HL]].
    destruct (foldM_up _ (fun k l => holds l n (fun v => if v <? k then depth - lv v + 1 else lv v)) (fun level i => l <- rd level i ;; wr level i (depth - l + 1)) 0 n level) as (l' & E & P).
    - lia.
    - eapply holds_ext. exact HL. intros i Hi. replace (i <? 0) with false by lia. auto.
    - intros k s Hk Hs. rewrite (proj2 Hs k Hk). cbn [bind]. replace (k <? k) with false by lia. destruct (holds_wr s n _ k (depth - lv k + 1) Hs Hk) as (s' & E & H'). exists s'. split; auto. eapply holds_ext. exact H'. intros i Hi. unfold zupd. destruct (Z.eqb_spec i k) as [->|]. replace (k <? k + 1) with true by lia. auto. destruct (Z.ltb_spec i k), (Z.ltb_spec i (k + 1)); auto; lia.
    - rewrite E. cbn [bind]. eexists. split; [reflexivity|]. eapply holds_ext. exact P. intros i Hi. cbv beta. replace (i <? n) with true by lia. auto. }
  destruct ES as (level' & ES & HL'). rewrite ES. cbn [bind]. assert (Rb : 0 <= b < n) by (unfold b; destruct swap; auto).
  destruct (fill (fun _ => -1) nodemap n Lm) as (nm0 & E0 & H0). rewrite E0. cbn [bind]. destruct (holds_wr nm0 n _ b 0 H0 Rb) as (nm1 & E1 & H1). rewrite E1. cbn [bind].
  assert (HT0 : holds (repeat (Some 0) (Z.to_nat n)) n (fun _ => 0)). { split. rewrite repeat_length. lia. intros i Hi. unfold rd. replace (0 <=? i) with true by lia. rewrite nth_error_repeat by lia. auto. }
  destruct (holds_wr _ n _ b 1 HT0 Rb) as (tg1 & E2 & H2). rewrite E2. cbn [bind].
  destruct (foldM_up _ (fun lev (st : array Z * array Z * Z) => exists ord, let '(nm, tg, c) := st in c = ZL ord /\ okst n nm tg (ZL ord) ord /\ (forall v, In v ord -> climb nb lv' b v) /\ closed nb lv' lev ord /\ In b ord)
    (number_level n adj nadj off maxdeg level') 1 (depth + 1) (nm1, tg1, 1)) as (st & E & P).
  - lia.
  - exists [b]. split; auto. split. { split. eapply holds_ext. exact H1. intros i Hi. unfold zupd, numb. cbn [index_of]. rewrite (Z.eqb_sym b i). destruct (i =? b); auto. split. eapply holds_ext. exact H2. intros i Hi. unfold zupd, tagged, mem. cbn. destruct (i =? b); auto. split; auto. split. repeat constructor. intros []. intros v [<-|[]]. auto. }
    split. intros v [<-|[]]. constructor. split. intros u w Hu Hl. lia. left; auto.
  - intros lev [[nm tg] c] Hlev (ord & -> & OS & CB & CL & Ib). destruct (number_level_ok n adj nadj off nb lv' level' maxdeg G ND HL' M1 Hn b lev nm tg ord OS CB CL) as (nm' & tg' & ws & E & OS' & CB' & CL').
    rewrite E. eexists. split; [reflexivity|]. exists (ord ++ ws). split; auto. split; auto. split; auto. split; auto. apply in_app_iff; auto.
  - destruct st as [[nm tg] c]. destruct P as (ord & -> & OS & CB & CL & Ib). rewrite E. cbn [bind]. exists nm, ord, depth, swap. split; auto. destruct OS as (HM & _ & _ & (NO & RO)). split; auto. split; auto. split; auto. split; auto. split. destruct D2 as (v & ?). lia. eauto. cbv zeta. fold b lv'. split; auto.
    intros Lp v C. assert (HH : In v ord /\ 0 <= v < n); [|tauto]. induction C as [|u w C (IH & Ru) Hw Hl]. split; auto. assert (Rw : 0 <= w < n) by (eapply (g_rng _ _ _ _ _ G); eauto). split; auto. apply (CL u w); auto.
    unfold lv'. pose proof (D1 u Ru). pose proof (Lp u Ru). destruct swap; lia.
Qed.

(** ** The extremal nodes *)

Lemma levels_unique : forall n nb b o1 o2 lv1 lv2 d1 d2 w1 w2, levels n nb b o1 lv1 d1 w1 -> levels n nb b o2 lv2 d2 w2 -> d1 = d2 /\ forall v, 0 <= v < n -> lv1 v = lv2 v.
Proof.
  intros n nb b o1 o2 lv1 lv2 d1 d2 w1 w2 L1 L2. assert (E : forall v, 0 <= v < n -> lv1 v = lv2 v).
  { intros v Hv. destruct (l_walk _ _ _ _ _ _ _ L1 v Hv) as (k1 & W1 & E1). destruct (l_walk _ _ _ _ _ _ _ L2 v Hv) as (k2 & W2 & E2). apply (l_least _ _ _ _ _ _ _ L2) in W1. apply (l_least _ _ _ _ _ _ _ L1) in W2. lia. }
  split; auto. destruct (l_depth _ _ _ _ _ _ _ L1) as (A1 & v1 & R1 & B1 & _). destruct (l_depth _ _ _ _ _ _ _ L2) as (A2 & v2 & R2 & B2 & _). specialize (A1 v2 R2). specialize (A2 v1 R1). rewrite E in A1 by auto. rewrite <- E in A2 by auto. lia.
Qed.
Lemma levels_len : forall n nb b o lv d w, levels n nb b o lv d w -> 0 <= n -> ZL o = n.
Proof. intros. pose proof (Permutation_length (l_perm _ _ _ _ _ _ _ H)) as L. rewrite zrange_length in L. unfold ZL. lia. Qed.
Lemma levels_pos : forall n nb b o lv d w, levels n nb b o lv d w -> forall v, 0 <= v < n -> 1 <= lv v.
Proof. intros. destruct (l_walk _ _ _ _ _ _ _ H v H0) as (k & _ & E). lia. Qed.

Lemma levels_each : forall n nb b o lv d w, levels n nb b o lv d w -> (forall u v, 0 <= u < n -> In v (nb u) -> 0 <= v < n) -> 0 <= b < n -> forall k v, walk_to nb b k v -> lv v = Z.of_nat k + 1 -> forall j, 1 <= j <= Z.of_nat k + 1 -> exists u, 0 <= u < n /\ lv u = j.
Proof.
  intros n nb b o lv d w L R Hb k v W. assert (RW : forall k v, walk_to nb b k v -> 0 <= v < n) by (intros k0 v0 W0; induction W0; eauto).
  induction W as [|k v x W IH Hx]; intros E j Hj. exists b. split; auto. lia. destruct (Z.eq_dec j (Z.of_nat (S k) + 1)) as [->|]. exists x. split; auto. apply (RW (S k)). apply walk_S with (v := v); auto.
  apply IH; [|lia]. pose proof (l_least _ _ _ _ _ _ _ L _ _ W). destruct (l_walk _ _ _ _ _ _ _ L v) as (k1 & W1 & E1). eapply RW; eauto. assert (W2 : walk_to nb b (S k1) x) by (apply walk_S with (v := v); auto). apply (l_least _ _ _ _ _ _ _ L) in W2. lia.
Qed.
Lemma levels_depth : forall n nb b o lv d w, levels n nb b o lv d w -> (forall u v, 0 <= u < n -> In v (nb u) -> 0 <= v < n) -> 0 <= b < n -> d <= n.
Proof.
  intros n nb b o lv d w L R Hb. destruct (l_depth _ _ _ _ _ _ _ L) as (_ & v & Rv & Ev & _). destruct (l_walk _ _ _ _ _ _ _ L v Rv) as (k & W & Ek).
  assert (I : incl (zrange 1 (d + 1)) (map lv (zrange 0 n))). { intros j Hj. apply In_zrange in Hj. destruct (levels_each _ _ _ _ _ _ _ L R Hb k v W Ek j) as (u & Ru & <-). lia. apply in_map, In_zrange. auto. }
  apply NoDup_incl_length in I; [|apply NoDup_zrange]. rewrite map_length, !zrange_length in I. lia.
Qed.

Section Ends.
Variables (n : Z) (adj nadj off : list Z) (nb : Z -> list Z).
Hypothesis G : graph n adj nadj off nb.
Hypothesis Hn : 0 < n < 1000000000.
Hypothesis sym : forall u v, 0 <= u < n -> In v (nb u) -> In u (nb v).
Hypothesis conn : forall u v, 0 <= u < n -> 0 <= v < n -> exists k, walk_to nb u k v.

Lemma walk_rng : forall u k v, 0 <= u < n -> walk_to nb u k v -> 0 <= v < n.
Proof. intros u k v Hu W. induction W; auto. eapply (g_rng _ _ _ _ _ G); eauto. Qed.
Lemma walk_first : forall u k v, walk_to nb u k v -> forall w, In u (nb w) -> walk_to nb w (S k) v.
Proof. intros u k v W. induction W; intros x Hx. apply walk_S with (v := x); auto. constructor. apply walk_S with (v := v); auto. Qed.
Lemma walk_sym : forall u k v, 0 <= u < n -> walk_to nb u k v -> walk_to nb v k u.
Proof.
  intros u k v Hu W. induction W. constructor. assert (0 <= v < n) by (eapply walk_rng; eauto). apply walk_first with (u := v); auto.
Qed.
Lemma lv_sym : forall u v o1 o2 l1 l2 d1 d2 w1 w2, levels n nb u o1 l1 d1 w1 -> levels n nb v o2 l2 d2 w2 -> 0 <= u < n -> 0 <= v < n -> l1 v = l2 u.
Proof.
  intros u v o1 o2 l1 l2 d1 d2 w1 w2 L1 L2 Hu Hv. destruct (l_walk _ _ _ _ _ _ _ L1 v Hv) as (k1 & W1 & E1). destruct (l_walk _ _ _ _ _ _ _ L2 u Hu) as (k2 & W2 & E2).
  apply walk_sym in W1; auto. apply walk_sym in W2; auto. apply (l_least _ _ _ _ _ _ _ L2) in W1. apply (l_least _ _ _ _ _ _ _ L1) in W2. lia.
Qed.
Lemma build_any : forall x nm level, 0 <= x < n -> Z.of_nat (length nm) = n -> Z.of_nat (length level) = n ->
  exists order level' lv depth maxw, Graph_Build_LevelStructure n adj nadj off x nm level = Ok (map Some order, level', depth, maxw) /\ holds level' n lv /\ levels n nb x order lv depth maxw.
Proof. intros. apply (build_ok n adj nadj off nb); auto. Qed.

Lemma count_last_ok : forall (order : list Z) level lv depth, ZL order = n -> (forall x, In x order -> 0 <= x < n) -> holds level n lv ->
  forall is_ c, (forall i, In i is_ -> 0 <= i < n) -> exists k, count_last (map Some order) level depth is_ c = Ok (c + Z.of_nat k) /\ (k <= length is_)%nat /\
    (forall i, (i < k)%nat -> lv (nth (Z.to_nat (nth i is_ 0)) order 0) = depth) /\ (is_ <> [] -> lv (nth (Z.to_nat (nth 0 is_ 0)) order 0) = depth -> (1 <= k)%nat).
Proof.
  intros order level lv depth Lo Ro HL. induction is_ as [|i is_ IH]; intros c Hi; cbn [count_last].
  - exists 0%nat. split. f_equal. lia. split; auto. split. intros; lia. congruence.
  - assert (Ri : 0 <= i < n) by (apply Hi; left; auto). rewrite rd_some by lia. cbn [bind]. set (x := nth (Z.to_nat i) order 0). assert (Rx : 0 <= x < n) by (apply Ro, nth_In; unfold ZL in Lo; lia).
    rewrite (proj2 HL x Rx). cbn [bind]. destruct (Z.eqb_spec (lv x) depth) as [E|E].
    + destruct (IH (c + 1)) as (k & Ek & Lk & Hk & _). intros; apply Hi; right; auto. exists (S k). split. rewrite Ek. f_equal. lia. split. cbn. lia. split. intros [|j] Hj. cbn. auto. cbn. apply Hk. lia. lia.
    + exists 0%nat. split. f_equal. lia. split. lia. split. intros; lia. intros _ HH. cbn in HH. fold x in HH. congruence.
Qed.
Lemma trunc_last_ok : forall lastn (m : list Z) c, starts lastn (ZL m) m -> (forall x, In x m -> 0 <= x < n) -> m <> [] ->
  forall is_, (forall i, In i is_ -> 1 <= i < ZL m) -> 1 <= c <= ZL m -> exists c', trunc_last nadj lastn is_ c = Ok c' /\ 1 <= c' <= ZL m.
Proof.
  intros lastn m c SL R Nm. assert (Lm : 0 < ZL m) by (destruct m; [congruence|unfold ZL; cbn; lia]). destruct SL as (_ & SL). induction is_ as [|i is_ IH]; intros Hi Hc; cbn [trunc_last]. eauto.
  assert (Ri : 1 <= i < ZL m) by (apply Hi; left; auto). rewrite SL by lia. cbn [bind]. rewrite (g_nadj _ _ _ _ _ G) by (apply R, nth_In; unfold ZL in Ri; lia). cbn [bind]. rewrite SL by lia. cbn [bind]. rewrite (g_nadj _ _ _ _ _ G) by (apply R, nth_In; unfold ZL in Lm; lia). cbn [bind].
  destruct (_ >? _). exists (i + 1). split; auto. lia. apply IH; auto. intros; apply Hi; right; auto.
Qed.
(** Trying the nodes of the last level. *)
Lemma try_ends_ok : forall (m : list Z) lastn c0 curdepth, starts lastn c0 m -> (forall x, In x m -> 0 <= x < n) ->
  forall ls nm level minw n_end, (forall l, In l ls -> 0 <= l < ZL m) -> Z.of_nat (length nm) = n -> Z.of_nat (length level) = n ->
  (minw = 1000000000 /\ ls <> []) \/ (exists y, n_end = Some y /\ In y m /\ exists o lv d w, levels n nb y o lv d w /\ d <= curdepth) ->
  exists nm' level' ne r, try_ends n adj nadj off lastn curdepth ls nm level minw n_end = Ok (nm', level', ne, r) /\ Z.of_nat (length nm') = n /\ Z.of_nat (length level') = n /\
    match r with
    | Some x => In x m /\ exists o lv d w, levels n nb x o lv d w /\ curdepth < d
    | None => exists y, ne = Some y /\ In y m /\ exists o lv d w, levels n nb y o lv d w /\ d <= curdepth
    end.
Proof.
  intros m lastn c0 curdepth SL R. induction ls as [|l ls IH]; intros nm level minw n_end Hl Ln Lv H; cbn [try_ends].
  - destruct H as [(_ & H)|H]; [congruence|]. exists nm, level, n_end, None. auto.
  - assert (Rl : 0 <= l < ZL m) by (apply Hl; left; auto). rewrite (proj2 SL l Rl). cbn [bind]. set (x := nth (Z.to_nat l) m 0). assert (Ix : In x m) by (apply nth_In; unfold ZL in Rl; lia).
    destruct (build_any x nm level) as (order & level' & lv & d & w & E & HL' & L); auto. rewrite E. cbn [bind].
    assert (Ln' : Z.of_nat (length (map Some order)) = n) by (rewrite map_length; pose proof (levels_len _ _ _ _ _ _ _ L); unfold ZL in *; lia). assert (Lv' : Z.of_nat (length level') = n) by apply HL'.
    assert (Ww : w <= n). { destruct (l_width _ _ _ _ _ _ _ L) as (_ & i & _ & <-). apply count_le. lia. }
    set (q := if w <? minw then (w, Some x) else (minw, n_end)). destruct q as [minw' ne'] eqn:Eq. subst q. destruct (d >? curdepth) eqn:D.
    + exists (map Some order), level', ne', (Some x). split; auto. split; auto. split; auto. split; auto. exists order, lv, d, w. split; auto. lia.
    + apply IH; auto. intros; apply Hl; right; auto. right. destruct (w <? minw) eqn:W; inversion Eq; subst.
      * exists x. split; auto. split; auto. exists order, lv, d, minw'. split; auto. lia.
      * destruct H as [(-> & _)|H]; auto. lia.
Qed.
(** The two nodes are at the greatest distance from each other. *)
Definition ends (b e : Z) : Prop := 0 <= b < n /\ 0 <= e < n /\ exists o1 l1 w1 o2 l2 w2 d, levels n nb b o1 l1 d w1 /\ levels n nb e o2 l2 d w2 /\ l1 e = d.

Lemma extremal_ok : forall fuel b o lv d w nm level ne, 0 <= b < n -> levels n nb b o lv d w -> (Z.to_nat (n - d) < fuel)%nat -> Z.of_nat (length nm) = n -> Z.of_nat (length level) = n ->
  exists b' e', extremal_loop fuel n adj nadj off b ne nm level = Ok (b', Some e') /\ ends b' e'.
Proof.
  induction fuel as [|fuel IH]; intros b o lv d w nm level ne Rb L0 Hf Ln Lv. lia. cbn [extremal_loop].
  destruct (build_any b nm level) as (order & level1 & lv1 & d1 & w1 & E & HL1 & L); auto. rewrite E. cbn [bind].
  destruct (levels_unique _ _ _ _ _ _ _ _ _ _ _ L0 L) as (<- & _). pose proof (levels_len _ _ _ _ _ _ _ L ltac:(lia)) as Lo.
  assert (Ro : forall x, In x order -> 0 <= x < n). { intros x Hx. apply (Permutation_in _ (l_perm _ _ _ _ _ _ _ L)), In_zrange in Hx. auto. }
  assert (ZD : forall i, (i < Z.to_nat n)%nat -> nth i (zdown (n - 1) 0) 0 = n - 1 - Z.of_nat i). { intros i Hi. unfold zdown. replace (n - 1 + 1) with n by lia. rewrite rev_nth by (rewrite zrange_length; lia). rewrite zrange_length, nth_zrange by lia. lia. }
  assert (ZDl : length (zdown (n - 1) 0) = Z.to_nat n). { unfold zdown. rewrite rev_length, zrange_length. lia. }
  destruct (count_last_ok order level1 lv1 d Lo Ro HL1 (zdown (n - 1) 0) 0) as (k & Ek & Lk & Hk & Hk1). { intros i Hi. unfold zdown in Hi. apply in_rev in Hi. rewrite In_zrange in Hi. lia. }
  rewrite Ek. cbn [bind]. rewrite Z.add_0_l. assert (K1 : (1 <= k)%nat). { apply Hk1. intros HH. rewrite HH in ZDl. cbn in ZDl. lia. rewrite ZD by lia. destruct (l_depth _ _ _ _ _ _ _ L) as (_ & v & _ & Ev & El). replace (Z.to_nat (n - 1 - Z.of_nat 0)) with (length order - 1)%nat by (unfold ZL in Lo; lia). congruence. }
  set (ll := map (fun i => nth (Z.to_nat (n - 1 - i)) order 0) (zrange 0 (Z.of_nat k))).
  assert (Hll : forall i, 0 <= i < Z.of_nat k -> nth (Z.to_nat i) ll 0 = nth (Z.to_nat (n - 1 - i)) order 0). { intros i Hi. unfold ll. apply (nth_map_zrange (fun i => nth (Z.to_nat (n - 1 - i)) order 0)). auto. }
  assert (Lll : ZL ll = Z.of_nat k). { unfold ll, ZL. rewrite map_length, zrange_length. lia. }
  assert (Ill : forall x, In x ll -> 0 <= x < n /\ lv1 x = d). { intros x Hx. unfold ll in Hx. apply in_map_iff in Hx. destruct Hx as (i & <- & Hi). apply In_zrange in Hi. split. apply Ro, nth_In. unfold ZL in Lo. lia. rewrite <- (Hk (Z.to_nat i)) by lia. rewrite ZD by lia. f_equal. f_equal. lia. }
  assert (EL : exists lastn, foldM (fun lastn i => node <- rd (map Some order) (n - 1 - i) ;; wr lastn i node) (malloc (Z.of_nat k)) (zrange 0 (Z.of_nat k)) = Ok lastn /\ starts lastn (Z.of_nat k) ll).
  { rewrite (foldM_ext _ _ _ (fun a i => wr a i (nth (Z.to_nat i) ll 0))). 2: { intros s x Hx. apply In_zrange in Hx. rewrite rd_some by lia. cbn [bind]. rewrite Hll by auto. auto. }
    destruct (fill (fun i => nth (Z.to_nat i) ll 0) (malloc (Z.of_nat k)) (Z.of_nat k)) as (a & Ea & Ha). apply malloc_len. lia. exists a. split; auto. split. apply Ha. intros i Hi. apply Ha. lia. }
  destruct EL as (lastn & EL & SL). rewrite EL. cbn [bind].
  destruct (sort_starts lastn (Z.of_nat k) ll (map Some nadj) (fun x => ZL (nb x)) SL) as (lastn' & m' & ES & SL' & PL & _). { intros x Hx. destruct (Ill x Hx) as (Rx & _). pose proof (g_nadj _ _ _ _ _ G x Rx) as H. pose proof (g_len _ _ _ _ _ G) as Lg. rewrite rdl_ok in H by lia. rewrite rd_some by (unfold ZL; lia). auto. } { lia. }
  rewrite Lll in ES. rewrite ES. cbn [bind]. assert (Im : forall x, In x m' -> 0 <= x < n /\ lv1 x = d). { intros x Hx. apply Ill. eapply Permutation_in; [apply Permutation_sym; exact PL|auto]. }
  assert (Lm : ZL m' = Z.of_nat k) by (rewrite <- Lll; unfold ZL; rewrite (Permutation_length PL); auto). rewrite <- Lm in SL'. rewrite <- Lm.
  destruct (trunc_last_ok lastn' m' (ZL m') SL') with (is_ := zrange 1 (ZL m')) as (c & Ec & Hc). intros; apply Im; auto. intros ->. unfold ZL in Lm. cbn in Lm. lia. intros i Hi. apply In_zrange in Hi. auto. lia.
  rewrite Ec. cbn [bind].
  destruct (try_ends_ok m' lastn' (ZL m') d SL') with (ls := zrange 0 c) (nm := map Some order) (level := level1) (minw := 1000000000) (n_end := ne) as (nm' & level' & ne' & r & Et & Ln' & Lv' & Hr).
  { intros; apply Im; auto. } { intros l Hl. apply In_zrange in Hl. lia. } { rewrite map_length. unfold ZL in Lo. lia. } { apply HL1. } { left. split; auto. rewrite zrange_cons by lia. discriminate. }
  rewrite Et. cbn [bind]. destruct r as [x|].
  - destruct Hr as (Ix & o2 & lv2 & d2 & w2 & L2 & Hd). apply (IH x o2 lv2 d2 w2); auto. apply Im; auto. pose proof (levels_depth _ _ _ _ _ _ _ L2 (g_rng _ _ _ _ _ G) (proj1 (Im x Ix))). lia.
  - destruct Hr as (y & -> & Iy & o2 & lv2 & d2 & w2 & L2 & Hd). exists b, y. split; auto. destruct (Im y Iy) as (Ry & Ey). split; auto. split; auto. exists order, lv1, w1, o2, lv2, w2, d. split; auto. split; auto.
    replace d with d2; auto. assert (EE : lv1 y = lv2 b) by (eapply lv_sym; eauto). destruct (l_depth _ _ _ _ _ _ _ L2) as (DD & _). specialize (DD b Rb). lia.
Qed.
Lemma find_ends_ok : forall b ne, 0 <= b < n -> exists b' e', Graph_Find_ExtremalNodes n adj nadj off b ne = Ok (b', Some e') /\ ends b' e'.
Proof.
  intros b ne Rb. destruct (build_any b (malloc n) (malloc n)) as (o & l & lv & d & w & _ & HL & L). auto. apply malloc_len; lia. apply malloc_len; lia.
  apply (extremal_ok _ b o lv d w); auto. destruct (l_depth _ _ _ _ _ _ _ L) as (_ & v & Rv & Ev & _). pose proof (levels_pos _ _ _ _ _ _ _ L v Rv). lia. apply malloc_len; lia. apply malloc_len; lia.
Qed.
End Ends.
