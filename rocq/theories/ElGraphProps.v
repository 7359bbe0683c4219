(** C41: the graph of the elements of a mesh. *)
From Coq Require Import ZArith List Lia Bool Arith ZifyBool ZifyNat Permutation.
From Verif Require Import Base BaseProofs ListSpec HashProofs AttModel AttProps ParModel ParProps TopoModel TopoSpec TopoProofs TopoProofs2 TopoProofs3 TopoProofs4 TopoProofs5 TopoProofs6 TopoProofs7 TopoProps TopoProps2 TopoProps3 GraphProofs GraphProofs2 GraphProps ElGraphModel.
Import ListNotations.
Open Scope Z_scope.

(** ** Specification *)

(** The arrays hold the graph [nbs]: where each list starts and ends, and the
    lists one after the other (with room to spare at the end). *)
Definition graph_arrays (nbs : list (list Z)) (adjbeg adjelems : array Z) : Prop :=
  adjbeg = map Some (starts_at nbs ++ [ZL (concat nbs)]) /\ exists rest, adjelems = map Some (concat nbs) ++ rest.
(** [els] are numbered in the order listed. *)
Definition numbered (els : list ptr) (id : ptr -> Z) : Prop := NoDup els /\ forall i, (i < length els)%nat -> id (nth i els NULL) = Z.of_nat i + 1.
(** Element [j] is listed for element [i] as often as the two share an item, and
    no element is listed for itself. *)
Definition element_graph (els : list ptr) (uses : ptr -> ptr -> Prop) (nbs : list (list Z)) : Prop :=
  length nbs = length els /\
  (forall i x, (i < length els)%nat -> In x (nth i nbs []) -> 0 <= x < ZL els /\ x <> Z.of_nat i) /\
  (forall i j, (i < length els)%nat -> (j < length els)%nat -> i <> j ->
     exists common, lists common (fun f => uses (nth i els NULL) f /\ uses (nth j els NULL) f) /\ count_occ Z.eq_dec (nth i nbs []) (Z.of_nat j) = length common).
Definition uses_face a r f := exists d, has_face a r f d.

(** Symmetric and irreflexive. *)
Lemma element_graph_sym : forall els uses nbs, element_graph els uses nbs -> forall i j, (i < length els)%nat -> (j < length els)%nat -> count_occ Z.eq_dec (nth i nbs []) (Z.of_nat j) = count_occ Z.eq_dec (nth j nbs []) (Z.of_nat i).
Proof.
  intros els uses nbs (_ & _ & H) i j Hi Hj. destruct (Nat.eq_dec i j) as [->|N]; auto. destruct (H i j Hi Hj N) as (c1 & (N1 & L1) & ->). destruct (H j i Hj Hi) as (c2 & (N2 & L2) & ->). auto.
  apply Permutation_length, NoDup_Permutation; auto. intros x. rewrite L1, L2. tauto.
Qed.
Lemma element_graph_nbr : forall els uses nbs, element_graph els uses nbs -> forall i j, (i < length els)%nat -> (j < length els)%nat ->
  (In (Z.of_nat j) (nth i nbs []) <-> i <> j /\ exists f, uses (nth i els NULL) f /\ uses (nth j els NULL) f).
Proof.
  intros els uses nbs (_ & H0 & H) i j Hi Hj. split.
  - intros I. assert (N : i <> j) by (intros ->; destruct (H0 j _ Hj I); lia). split; auto. destruct (H i j Hi Hj N) as (c & (_ & L) & E). apply (count_occ_In Z.eq_dec) in I. destruct c as [|f c]. cbn in E. lia. exists f. apply L. left; auto.
  - intros (N & f & F). destruct (H i j Hi Hj N) as (c & (_ & L) & E). apply L in F. apply (count_occ_In Z.eq_dec). rewrite E. destruct c; [destruct F|cbn; lia].
Qed.

(** ** Pushing a list *)

Lemma push3_list : forall ys adj nalloc m, starts adj nalloc m -> ZL m <= nalloc ->
  (ZL (m ++ ys) <= nalloc -> exists adj', foldM push3 (adj, nalloc, ZL m) ys = Ok (adj', nalloc, ZL (m ++ ys)) /\ starts adj' nalloc (m ++ ys)) /\
  (nalloc < ZL (m ++ ys) -> foldM push3 (adj, nalloc, ZL m) ys = Undef).
Proof.
  induction ys as [|y ys IH]; intros adj nalloc m HS Hm; cbn [foldM].
  - rewrite app_nil_r. split. eauto. lia.
  - unfold push3 at 1 3. destruct (Z.eqb_spec (ZL m) nalloc) as [E|E]. cbn [bind]. split; auto. unfold ZL in *. rewrite app_length. cbn. lia.
    destruct (starts_snoc adj nalloc m y HS) as (adj' & Ew & S'). lia. rewrite Ew. cbn [bind]. replace (m ++ y :: ys) with ((m ++ [y]) ++ ys) by (rewrite <- app_assoc; auto). replace (ZL m + 1) with (ZL (m ++ [y])) by (unfold ZL; rewrite app_length; cbn; lia).
    apply IH; auto. unfold ZL in *. rewrite app_length. cbn. lia.
Qed.
Lemma starts_resize : forall a n m k, starts a n m -> ZL m <= n -> n <= k -> starts (resize a k) k m.
Proof.
  intros a n m k (L & H) Hm Hk. unfold resize. split.
  - rewrite app_length, repeat_length, firstn_length. lia.
  - intros i Hi. rewrite <- (H i Hi). unfold rd. replace (0 <=? i) with true by lia. rewrite firstn_all2 by lia. rewrite nth_error_app1 by lia. auto.
Qed.
Lemma push2_list : forall ys adj nalloc m, starts adj nalloc m -> ZL m <= nalloc -> 0 < nalloc ->
  exists adj' nalloc', foldM push2 (adj, nalloc, ZL m) ys = Ok (adj', nalloc', ZL (m ++ ys)) /\ starts adj' nalloc' (m ++ ys) /\ ZL (m ++ ys) <= nalloc' /\ 0 < nalloc'.
Proof.
  induction ys as [|y ys IH]; intros adj nalloc m HS Hm Hp; cbn [foldM].
  - rewrite app_nil_r. eauto 6.
  - unfold push2 at 1. set (g := if ZL m =? nalloc then (resize adj (nalloc * 2), nalloc * 2) else (adj, nalloc)). assert (Q : exists adj1 nalloc1, g = (adj1, nalloc1) /\ starts adj1 nalloc1 m /\ ZL m < nalloc1).
    { unfold g. destruct (Z.eqb_spec (ZL m) nalloc). eexists _, _. split; [reflexivity|]. split. eapply starts_resize; eauto. lia. lia. eexists _, _. split; [reflexivity|]. split; auto. lia. }
    destruct Q as (adj1 & na1 & -> & S1 & L1). destruct (starts_snoc adj1 na1 m y S1 L1) as (adj2 & Ew & S2). rewrite Ew. cbn [bind]. replace (m ++ y :: ys) with ((m ++ [y]) ++ ys) by (rewrite <- app_assoc; auto). replace (ZL m + 1) with (ZL (m ++ [y])) by (unfold ZL; rewrite app_length; cbn; lia).
    apply IH; auto; unfold ZL in *; rewrite ?app_length; cbn; lia.
Qed.

(** ** What one element contributes *)

(** The users of the items of [x] other than [x]. *)
Definition opps (L : ptr -> list ptr) (x : ptr) (its : list ptr) : list ptr := flat_map (fun f => filter (fun q => negb (q =? x)) (L f)) its.

Lemma count_nodup : forall l q, NoDup l -> count_occ Z.eq_dec l q = if mem q l then 1%nat else 0%nat.
Proof.
  intros l q N. destruct (mem q l) eqn:M. apply mem_In in M. apply (NoDup_count_occ' Z.eq_dec); auto. apply count_occ_not_In. intros H. apply mem_In in H. congruence.
Qed.
Lemma count_opps : forall L x q its, q <> x -> (forall f, In f its -> NoDup (L f)) -> count_occ Z.eq_dec (opps L x its) q = length (filter (fun f => mem q (L f)) its).
Proof.
  intros L x q its Nq. unfold opps. induction its as [|f its IH]; intros H; cbn [flat_map filter]; auto. rewrite count_occ_app, IH by (intros; apply H; right; auto). rewrite count_nodup by (apply NoDup_filter, H; left; auto).
  assert (E : mem q (filter (fun q => negb (q =? x)) (L f)) = mem q (L f)). { apply eq_true_iff_eq. rewrite !mem_In, filter_In. split. tauto. intros; split; auto. destruct (Z.eqb_spec q x); auto. }
  rewrite E. destruct (mem q (L f)); cbn [length]; lia.
Qed.
Lemma count_map : forall (g : Z -> Z) l q, (forall x, In x l -> g x = g q -> x = q) -> count_occ Z.eq_dec (map g l) (g q) = count_occ Z.eq_dec l q.
Proof.
  intros g l q. induction l as [|x l IH]; intros H; cbn; auto. rewrite IH by (intros; apply H; auto; right; auto). destruct (Z.eq_dec (g x) (g q)) as [E|E], (Z.eq_dec x q) as [E'|E']; auto. exfalso. apply E', H; auto. left; auto. congruence.
Qed.
Lemma numbered_inj : forall els id x y, numbered els id -> In x els -> In y els -> id x = id y -> x = y.
Proof.
  intros els id x y (N & H) Hx Hy E. destruct (In_nth _ _ NULL Hx) as (i & Hi & <-). destruct (In_nth _ _ NULL Hy) as (j & Hj & <-). rewrite !H in E by auto. f_equal. lia.
Qed.
Lemma opps_graph : forall els id L uses its, numbered els id -> (forall x, In x els -> NoDup (its x) /\ forall f, In f (its x) <-> uses x f) ->
  (forall x f, In x els -> uses x f -> NoDup (L f) /\ forall q, In q (L f) <-> uses q f) -> (forall x q f, In x els -> uses x f -> uses q f -> In q els) ->
  element_graph els uses (map (fun x => map (fun q => id q - 1) (opps L x (its x))) els).
Proof.
  intros els id L uses its NU HI HL HC. assert (NTH : forall i, (i < length els)%nat -> nth i (map (fun x => map (fun q => id q - 1) (opps L x (its x))) els) [] = map (fun q => id q - 1) (opps L (nth i els NULL) (its (nth i els NULL)))).
  { intros i Hi. erewrite nth_indep by (rewrite map_length; auto). apply (map_nth (fun x => map (fun q => id q - 1) (opps L x (its x)))). }
  assert (OP : forall x q, In x els -> In q (opps L x (its x)) -> In q els /\ q <> x). { intros x q Hx Hq. unfold opps in Hq. apply in_flat_map in Hq. destruct Hq as (f & Hf & Hq). apply (HI x Hx) in Hf. apply filter_In in Hq. destruct Hq as (Hq & E). apply (HL x f Hx Hf) in Hq. split. eapply HC; eauto. intros ->. rewrite Z.eqb_refl in E. discriminate. }
  split. apply map_length. split.
  - intros i y Hi Hy. rewrite NTH in Hy by auto. apply in_map_iff in Hy. destruct Hy as (q & <- & Hq). assert (Hx : In (nth i els NULL) els) by (apply nth_In; auto). destruct (OP _ _ Hx Hq) as (Iq & Nq). destruct (In_nth _ _ NULL Iq) as (j & Hj & Ej). rewrite <- Ej, (proj2 NU j Hj). unfold ZL. split. lia. intros HH. apply Nq. rewrite <- Ej. f_equal. lia.
  - intros i j Hi Hj N. rewrite NTH by auto. set (x := nth i els NULL) in *. set (q := nth j els NULL). assert (Hx : In x els) by (apply nth_In; auto). assert (Hq : In q els) by (apply nth_In; auto). assert (Nqx : q <> x) by (intros E; apply N; symmetry; apply (proj1 (NoDup_nth els NULL) (proj1 NU)); auto).
    exists (filter (fun f => mem q (L f)) (its x)). split.
    + split. apply NoDup_filter, HI; auto. intros f. rewrite filter_In, (proj2 (HI x Hx) f), mem_In. split. intros (U & M). split; auto. apply (HL x f Hx U); auto. intros (U & M). split; auto. apply (HL x f Hx U); auto.
    + rewrite <- (count_opps L x q) by (auto; intros f Hf; apply (HI x Hx) in Hf; apply (HL x f Hx Hf)). replace (Z.of_nat j) with (id q - 1) by (unfold q; rewrite (proj2 NU j Hj); lia). apply (count_map (fun q => id q - 1)).
      intros y Hy E. apply (numbered_inj els id); auto. apply (OP x y Hx Hy). lia.
Qed.

(** ** The loop over the elements *)

Lemma foldM_bind_app : forall S A (F : S -> A -> result S) l1 l2 s, foldM F s (l1 ++ l2) = (s' <- foldM F s l1 ;; foldM F s' l2).
Proof. intros. apply foldM_app. Qed.
Lemma starts_at_snoc : forall nbs x, starts_at (nbs ++ [x]) = starts_at nbs ++ [ZL (concat nbs)].
Proof.
  intros nbs x. unfold starts_at. rewrite app_length. cbn [length]. rewrite Nat.add_1_r, seq_S, map_app. cbn [map]. f_equal.
  - apply map_ext_in. intros i Hi. apply in_seq in Hi. rewrite firstn_app. replace (i - length nbs)%nat with 0%nat by lia. cbn. rewrite app_nil_r. auto.
  - rewrite Nat.add_0_l, firstn_app, Nat.sub_diag, firstn_all. cbn. rewrite app_nil_r. auto.
Qed.
Lemma concat_snoc : forall (nbs : list (list Z)) x, concat (nbs ++ [x]) = concat nbs ++ x.
Proof. intros. rewrite concat_app. cbn. rewrite app_nil_r. auto. Qed.
Lemma ne_firstn : forall A (l : list A) n i, (i < n)%nat -> nth_error (firstn n l) i = nth_error l i.
Proof. induction l; intros [|n] [|i] H; cbn; auto; try lia. apply IHl. lia. Qed.
Lemma graph_arrays_of : forall nbs beg adj nalloc, starts beg (Zlen nbs + 1) (starts_at nbs ++ [ZL (concat nbs)]) -> starts adj nalloc (concat nbs) -> ZL (concat nbs) <= nalloc -> graph_arrays nbs beg adj.
Proof.
  intros nbs beg adj nalloc HB HA HL. split.
  - apply starts_full. replace (ZL (starts_at nbs ++ [ZL (concat nbs)])) with (Zlen nbs + 1); auto. unfold ZL, Zlen, starts_at. rewrite app_length, map_length, seq_length. cbn. lia.
  - exists (skipn (length (concat nbs)) adj). rewrite <- (firstn_skipn (length (concat nbs)) adj) at 1. f_equal. destruct HA as (L & H). apply array_ext.
    + rewrite firstn_length, map_length. unfold ZL in HL. lia.
    + intros i Hi. rewrite firstn_length in Hi. assert (R : 0 <= i < ZL (concat nbs)) by (unfold ZL; lia). eexists. split; [|apply rd_some; auto]. rewrite <- (H i R). unfold rd. replace (0 <=? i) with true by lia. rewrite ne_firstn by (unfold ZL in R; lia). auto.
Qed.
Section Loop.
Variables (els : list ptr) (c : ptr -> list Z).
Let body (items : ptr -> array Z * Z * Z -> result (array Z * Z * Z)) := fun (st : array Z * array Z * Z * Z * Z) (x : ptr) => let '(beg, adj, nalloc, pos, i) := st in beg <- wr beg i pos ;; '(adj, nalloc, pos) <- items x (adj, nalloc, pos) ;; Ok (beg, adj, nalloc, pos, i + 1).

Lemma loop3 : forall items, (forall x st, In x els -> items x st = foldM push3 st (c x)) -> forall xs nbs beg adj nalloc, (forall x, In x xs -> In x els) -> starts beg (ZL els + 1) (starts_at nbs) -> starts adj nalloc (concat nbs) -> ZL (concat nbs) <= nalloc -> Zlen nbs + ZL xs = ZL els ->
  (ZL (concat (nbs ++ map c xs)) <= nalloc -> exists beg' adj', foldM (body items) (beg, adj, nalloc, ZL (concat nbs), Zlen nbs) xs = Ok (beg', adj', nalloc, ZL (concat (nbs ++ map c xs)), ZL els) /\ starts beg' (ZL els + 1) (starts_at (nbs ++ map c xs)) /\ starts adj' nalloc (concat (nbs ++ map c xs))) /\
  (nalloc < ZL (concat (nbs ++ map c xs)) -> foldM (body items) (beg, adj, nalloc, ZL (concat nbs), Zlen nbs) xs = Undef).
Proof.
  intros items HI. induction xs as [|x xs IH]; intros nbs beg adj nalloc Hx HB HA HL Hn; cbn [foldM map].
  - rewrite app_nil_r. split; [|lia]. intros _. exists beg, adj. split; auto. unfold ZL in Hn at 1. cbn in Hn. do 2 f_equal. lia.
  - assert (LS : ZL (starts_at nbs) = Zlen nbs) by (unfold ZL, Zlen, starts_at; rewrite map_length, seq_length; auto). unfold body at 1 3. destruct (starts_snoc beg (ZL els + 1) (starts_at nbs) (ZL (concat nbs)) HB) as (beg' & Ew & HB'). { rewrite LS. unfold ZL in *. cbn in Hn. lia. }
    rewrite LS in Ew. rewrite Ew. cbn [bind]. rewrite HI by (apply Hx; left; auto). rewrite <- (starts_at_snoc nbs (c x)) in HB'. destruct (push3_list (c x) adj nalloc (concat nbs) HA HL) as (P1 & P2). rewrite <- concat_snoc in P1, P2.
    replace (nbs ++ c x :: map c xs) with ((nbs ++ [c x]) ++ map c xs) by (rewrite <- app_assoc; auto).
    destruct (Z.le_gt_cases (ZL (concat (nbs ++ [c x]))) nalloc) as [C|C].
    + destruct (P1 C) as (adj' & E & HA'). rewrite E. cbn [bind]. replace (Zlen nbs + 1) with (Zlen (nbs ++ [c x])) by (unfold Zlen; rewrite app_length; cbn; lia). apply IH; auto. intros; apply Hx; right; auto. unfold Zlen, ZL in *. rewrite app_length. cbn in *. lia.
    + rewrite P2 by lia. cbn [bind]. split; auto. intros HH. exfalso. rewrite concat_app in HH. unfold ZL in *. rewrite app_length in HH. lia.
Qed.
Lemma loop2 : forall items, (forall x st, In x els -> items x st = foldM push2 st (c x)) -> forall xs nbs beg adj nalloc, (forall x, In x xs -> In x els) -> starts beg (ZL els + 1) (starts_at nbs) -> starts adj nalloc (concat nbs) -> ZL (concat nbs) <= nalloc -> 0 < nalloc -> Zlen nbs + ZL xs = ZL els ->
  exists beg' adj' nalloc', foldM (body items) (beg, adj, nalloc, ZL (concat nbs), Zlen nbs) xs = Ok (beg', adj', nalloc', ZL (concat (nbs ++ map c xs)), ZL els) /\ starts beg' (ZL els + 1) (starts_at (nbs ++ map c xs)) /\ starts adj' nalloc' (concat (nbs ++ map c xs)) /\ ZL (concat (nbs ++ map c xs)) <= nalloc'.
Proof.
  intros items HI. induction xs as [|x xs IH]; intros nbs beg adj nalloc Hx HB HA HL Hp Hn; cbn [foldM map].
  - rewrite app_nil_r. exists beg, adj, nalloc. split; auto. unfold ZL in Hn at 1. cbn in Hn. do 2 f_equal. lia.
  - assert (LS : ZL (starts_at nbs) = Zlen nbs) by (unfold ZL, Zlen, starts_at; rewrite map_length, seq_length; auto). unfold body at 1. destruct (starts_snoc beg (ZL els + 1) (starts_at nbs) (ZL (concat nbs)) HB) as (beg' & Ew & HB'). { rewrite LS. unfold ZL in *. cbn in Hn. lia. }
    rewrite LS in Ew. rewrite Ew. cbn [bind]. rewrite HI by (apply Hx; left; auto). rewrite <- (starts_at_snoc nbs (c x)) in HB'. destruct (push2_list (c x) adj nalloc (concat nbs) HA HL Hp) as (adj' & na' & E & HA' & HL' & Hp'). rewrite <- concat_snoc in E, HA', HL'.
    replace (nbs ++ c x :: map c xs) with ((nbs ++ [c x]) ++ map c xs) by (rewrite <- app_assoc; auto). rewrite E. cbn [bind]. replace (Zlen nbs + 1) with (Zlen (nbs ++ [c x])) by (unfold Zlen; rewrite app_length; cbn; lia). apply IH; auto. intros; apply Hx; right; auto. unfold Zlen, ZL in *. rewrite app_length. cbn in *. lia.
Qed.
End Loop.

Lemma elem3 : forall els c items, els <> [] -> (forall x st, In x els -> items x st = foldM push3 st (c x)) ->
  (ZL (concat (map c els)) <= 4 * ZL els -> exists beg adj, elem_loop items els = Ok (beg, adj) /\ graph_arrays (map c els) beg adj) /\ (4 * ZL els < ZL (concat (map c els)) -> elem_loop items els = Undef).
Proof.
  intros els c items Ne HI. unfold elem_loop. assert (Hn : 0 < ZL els) by (destruct els; [congruence|unfold ZL; cbn; lia]).
  destruct (loop3 els c items HI els [] (malloc (ZL els + 1)) (malloc (4 * ZL els)) (4 * ZL els)) as (P1 & P2); auto. apply starts_nil, malloc_len. lia. apply starts_nil, malloc_len. lia. unfold ZL. cbn. lia. cbn [app] in P1, P2. change (ZL (concat [])) with 0 in P1, P2. change (Zlen (@nil (list Z))) with 0 in P1, P2.
  split; intros H.
  - destruct (P1 H) as (beg & adj & E & HB & HA). rewrite E. cbn [bind]. destruct (starts_snoc beg _ _ (ZL (concat (map c els))) HB) as (beg' & Ew & HB'). { unfold ZL at 1. unfold starts_at. rewrite map_length, seq_length, map_length. unfold ZL. lia. }
    replace (ZL (starts_at (map c els))) with (ZL els) in Ew by (unfold ZL, starts_at; rewrite map_length, seq_length, map_length; auto). rewrite Ew. cbn [bind]. exists beg', adj. split; auto. eapply graph_arrays_of; eauto. replace (Zlen (map c els)) with (ZL els) by (unfold Zlen, ZL; rewrite map_length; auto). auto.
  - rewrite P2 by auto. auto.
Qed.
Lemma elem2 : forall els c items, els <> [] -> (forall x st, In x els -> items x st = foldM push2 st (c x)) -> exists beg adj, elem_loop items els = Ok (beg, adj) /\ graph_arrays (map c els) beg adj.
Proof.
  intros els c items Ne HI. unfold elem_loop. assert (Hn : 0 < ZL els) by (destruct els; [congruence|unfold ZL; cbn; lia]).
  destruct (loop2 els c items HI els [] (malloc (ZL els + 1)) (malloc (4 * ZL els)) (4 * ZL els)) as (beg & adj & na & E & HB & HA & HL); auto. apply starts_nil, malloc_len. lia. apply starts_nil, malloc_len. lia. unfold ZL. cbn. lia. lia. cbn [app] in *. change (ZL (concat [])) with 0 in *. change (Zlen (@nil (list Z))) with 0 in *.
  rewrite E. cbn [bind]. destruct (starts_snoc beg _ _ (ZL (concat (map c els))) HB) as (beg' & Ew & HB'). { unfold ZL at 1. unfold starts_at. rewrite map_length, seq_length, map_length. unfold ZL. lia. }
  replace (ZL (starts_at (map c els))) with (ZL els) in Ew by (unfold ZL, starts_at; rewrite map_length, seq_length, map_length; auto). rewrite Ew. cbn [bind]. exists beg', adj. split; auto. eapply graph_arrays_of; eauto. replace (Zlen (map c els)) with (ZL els) by (unfold Zlen, ZL; rewrite map_length; auto). auto.
Qed.

(** ** Regions *)

Definition regs_of (t : topo) (f : ptr) : list ptr := match MF_Regions t f with Ok l => l | _ => [] end.
Lemma regs_of_ok : forall t a r f, reach t a -> uses_face a r f -> MF_Regions t f = Ok (regs_of t f) /\ NoDup (regs_of t f) /\ forall q, In q (regs_of t f) <-> uses_face a q f.
Proof.
  intros t a r f R (d & (b & Hb & Hi)). pose proof (reach_inv _ _ R) as I. assert (Hf : In f (map fst b)) by (apply in_map_iff; exists (f, d); auto). pose proof (full_in _ _ _ (w_rf _ (i_w _ _ I) _ _ Hb) Hf) as (y & Hy).
  destruct (C26_face_regions t a f R) as (lf & Ef & Nf & Hlf). congruence. unfold regs_of. rewrite Ef. auto.
Qed.
Lemma reg_items_ok : forall t a rid mr b, reach t a -> a_r a mr = Some (true, Some b) -> forall st, reg_items t rid mr st = foldM push3 st (map (fun q => rid q - 1) (opps (regs_of t) mr (map fst b))).
Proof.
  intros t a rid mr b R Hr st. pose proof (reach_inv _ _ R) as I. destruct (inv_rfull _ _ _ _ _ I Hr) as (x & l & Hx & _ & Hl & (El & _) & _).
  unfold reg_items, MR_Faces, getr. rewrite Hx. cbn [bind]. rewrite Hl. cbn [bind nn]. rewrite El.
  assert (G : forall fs, (forall f, In f fs -> uses_face a mr f) -> forall st, foldM (fun st rf => l <- MF_Regions t rf ;; if ZL l =? 1 then Ok st else a <- lent l 0 ;; oppr <- (if a =? mr then lent l 1 else lent l 0) ;; push3 st (rid oppr - 1)) st fs =
    foldM push3 st (map (fun q => rid q - 1) (opps (regs_of t) mr fs))).
  { induction fs as [|f fs IH]; intros Hfs st0; cbn [foldM]; auto. unfold opps. cbn [flat_map]. rewrite map_app, foldM_bind_app. fold (opps (regs_of t) mr fs).
    destruct (regs_of_ok t a mr f R) as (Ef & N & H). apply Hfs; left; auto. set (lf := regs_of t f) in *. rewrite Ef. cbn [bind]. assert (Im : In mr lf) by (apply H, Hfs; left; auto).
    assert (Len : (length lf <= 2)%nat). { clear - Ef. unfold MF_Regions in Ef. destruct (getf t f); cbn in Ef; try discriminate. inversion Ef. destruct (_ =? _), (_ =? _); cbn; lia. }
    assert (ST : (if ZL lf =? 1 then Ok st0 else a0 <- lent lf 0 ;; oppr <- (if a0 =? mr then lent lf 1 else lent lf 0) ;; push3 st0 (rid oppr - 1)) = foldM push3 st0 (map (fun q => rid q - 1) (filter (fun q => negb (q =? mr)) lf))).
    { clearbody lf. clear - N Im Len. destruct lf as [|u [|v [|w lf]]]; cbn in Len; try lia. destruct Im.
      - destruct Im as [->|[]]. change (ZL [mr] =? 1) with true. cbv iota. cbn [filter]. rewrite Z.eqb_refl. reflexivity.
      - change (ZL [u; v] =? 1) with false. cbv iota. change (lent [u; v] 0) with (Ok u). change (lent [u; v] 1) with (Ok v). cbn [bind filter]. inversion N as [|? ? N1 _]; subst. cbn in N1. destruct Im as [->|[->|[]]].
        + rewrite Z.eqb_refl. cbn [bind negb]. destruct (Z.eqb_spec v mr); [subst; tauto|]. cbn [negb map foldM]. destruct (push3 st0 (rid v - 1)); auto.
        + rewrite Z.eqb_refl. destruct (Z.eqb_spec u mr); [subst; tauto|]. cbn [bind negb map foldM]. destruct (push3 st0 (rid u - 1)); auto. }
    rewrite ST. destruct (foldM push3 st0 _) as [st1| | |]; cbn [bind]; auto. apply IH. intros; apply Hfs; right; auto. }
  apply G. intros f Hf. apply in_map_iff in Hf. destruct Hf as ([f' d] & <- & Hd). exists d, b. auto.
Qed.

(** Meshes with regions.  [nbs] is the element graph of the mesh, and it is what
    the arrays hold as long as it has at most four entries per region; beyond
    that (a 4 x 4 x 4 grid of hexahedra, say) line 53 calls realloc on a pointer
    that was never allocated. *)
Theorem C41_region_graph : forall t a regions faces rid fid, reach t a -> regions <> [] -> numbered regions rid ->
  (forall r, In r regions -> exists b, a_r a r = Some (true, Some b)) -> (forall r q f, In r regions -> uses_face a r f -> uses_face a q f -> In q regions) ->
  exists nbs, element_graph regions (uses_face a) nbs /\
    (ZL (concat nbs) <= 4 * ZL regions -> exists adjbeg adjelems, MESH_GetElementGraph t regions faces rid fid = Ok (ZL regions, adjbeg, adjelems) /\ graph_arrays nbs adjbeg adjelems) /\
    (4 * ZL regions < ZL (concat nbs) -> MESH_GetElementGraph t regions faces rid fid = Undef).
Proof.
  intros t a regs faces rid fid R Ne NU FU CL. pose proof (reach_inv _ _ R) as I. set (its := fun r => match a_r a r with Some (_, Some b) => map fst b | _ => [] end).
  exists (map (fun x => map (fun q => rid q - 1) (opps (regs_of t) x (its x))) regs). split.
  { apply opps_graph; auto.
    - intros x Hx. destruct (FU x Hx) as (b & Hb). unfold its. rewrite Hb. split. apply (w_rnd _ (i_w _ _ I) _ _ _ Hb). intros f. split.
      + intros Hf. apply in_map_iff in Hf. destruct Hf as ([f' d] & <- & Hd). exists d, b. auto.
      + intros (d & b' & Hb' & Hi). rewrite Hb in Hb'. inversion Hb'; subst b'. apply in_map_iff. exists (f, d). auto.
    - intros x f _ Hf. apply (regs_of_ok t a x f R Hf). }
  assert (NZ : negb (ZL regs =? 0) = true) by (destruct regs; [congruence|reflexivity]). unfold MESH_GetElementGraph. rewrite NZ.
  destruct (elem3 regs (fun x => map (fun q => rid q - 1) (opps (regs_of t) x (its x))) (reg_items t rid) Ne) as (P1 & P2). { intros x st Hx. destruct (FU x Hx) as (b & Hb). unfold its. rewrite Hb. apply (reg_items_ok t a); auto. }
  split; intros H.
  - destruct (P1 H) as (beg & adj & E & GA). rewrite E. cbn [bind]. eauto.
  - rewrite (P2 H). auto.
Qed.
Print Assumptions C41_region_graph.

(** ** Faces *)

Definition faces_of (t : topo) (e : ptr) : list ptr := match ME_Faces t e with Ok (Some l) => l | _ => [] end.
Lemma faces_of_ok : forall t a f e, reach t a -> has_edge a f e -> ME_Faces t e = Ok (Some (faces_of t e)) /\ NoDup (faces_of t e) /\ forall q, In q (faces_of t e) <-> has_edge a q e.
Proof.
  intros t a f e R He. pose proof (reach_inv _ _ R) as I. assert (Ne : a_e a e <> None). { destruct He as (b & Hb & Hi). pose proof (face_edges_ok _ _ _ _ I Hb) as EO. rewrite Forall_forall in EO. apply in_map_iff in Hi. destruct Hi as (y & <- & Hy). destruct (EO _ Hy) as (p & Hp). congruence. }
  destruct (C26_edge_faces t a e R Ne) as (o & Eo & Ao). unfold faces_of. rewrite Eo. destruct o as [l|]; cbn in Ao; [|destruct (Ao _ He)]. tauto.
Qed.
Lemma face_items_ok : forall t a fid mf b, reach t a -> a_f a mf = Some (true, Some b) -> forall st, face_items t fid mf st = foldM push2 st (map (fun q => fid q - 1) (opps (faces_of t) mf (map fst b))).
Proof.
  intros t a fid mf b R Hf st. pose proof (reach_inv _ _ R) as I. destruct (face_rep _ _ _ _ I Hf) as (x & l & Hx & Hl & Rp). assert (El : l = map fst b) by (destruct Rp as (-> & _); auto).
  unfold face_items, MF_Edges, getf. rewrite Hx. cbn [bind]. rewrite Hl. cbn [bind nn]. rewrite Z.eqb_refl. change (1 =? 0) with false. cbv iota. cbn [bind]. rewrite El.
  assert (G : forall es, (forall e, In e es -> has_edge a mf e) -> forall st, foldM (fun st fe => o <- ME_Faces t fe ;; l <- nn o ;; if ZL l =? 1 then Ok st else foldM (fun st ef => if negb (ef =? mf) then push2 st (fid ef - 1) else Ok st) st l) st es =
    foldM push2 st (map (fun q => fid q - 1) (opps (faces_of t) mf es))).
  { induction es as [|e es IH]; intros Hes st0; cbn [foldM]; auto. unfold opps. cbn [flat_map]. rewrite map_app, foldM_bind_app. fold (opps (faces_of t) mf es).
    destruct (faces_of_ok t a mf e R) as (Ef & N & H). apply Hes; left; auto. set (lf := faces_of t e) in *. rewrite Ef. cbn [bind nn]. assert (Im : In mf lf) by (apply H, Hes; left; auto).
    assert (ST : (if ZL lf =? 1 then Ok st0 else foldM (fun st ef => if negb (ef =? mf) then push2 st (fid ef - 1) else Ok st) st0 lf) = foldM push2 st0 (map (fun q => fid q - 1) (filter (fun q => negb (q =? mf)) lf))).
    { assert (GG : forall l st0, foldM (fun st ef => if negb (ef =? mf) then push2 st (fid ef - 1) else Ok st) st0 l = foldM push2 st0 (map (fun q => fid q - 1) (filter (fun q => negb (q =? mf)) l))).
      { clear. induction l as [|q l IH]; intros; cbn [foldM filter]; auto. destruct (negb (q =? mf)); cbn [map foldM bind]; auto. destruct (push2 st0 (fid q - 1)); cbn [bind]; auto. }
      destruct (Z.eqb_spec (ZL lf) 1) as [E1|E1]; auto. destruct lf as [|u [|v lf]]; unfold ZL in E1; cbn in E1; try lia. destruct Im as [->|[]]. cbn. rewrite Z.eqb_refl. auto. }
    rewrite ST. destruct (foldM push2 st0 _) as [st1| | |]; cbn [bind]; auto. apply IH. intros; apply Hes; right; auto. }
  apply G. intros e He. exists b. auto.
Qed.

(** Meshes without regions: always correct. *)
Theorem C41_face_graph : forall t a faces rid fid, reach t a -> faces <> [] -> numbered faces fid ->
  (forall f, In f faces -> exists b, a_f a f = Some (true, Some b)) -> (forall f g e, In f faces -> has_edge a f e -> has_edge a g e -> In g faces) ->
  exists nbs adjbeg adjelems, element_graph faces (has_edge a) nbs /\ MESH_GetElementGraph t [] faces rid fid = Ok (ZL faces, adjbeg, adjelems) /\ graph_arrays nbs adjbeg adjelems.
Proof.
  intros t a faces rid fid R Ne NU FU CL. pose proof (reach_inv _ _ R) as I. set (its := fun f => match a_f a f with Some (_, Some b) => map fst b | _ => [] end).
  destruct (elem2 faces (fun x => map (fun q => fid q - 1) (opps (faces_of t) x (its x))) (face_items t fid) Ne) as (beg & adj & E & GA). { intros x st Hx. destruct (FU x Hx) as (b & Hb). unfold its. rewrite Hb. apply (face_items_ok t a); auto. }
  exists (map (fun x => map (fun q => fid q - 1) (opps (faces_of t) x (its x))) faces), beg, adj. split.
  { apply opps_graph; auto.
    - intros x Hx. destruct (FU x Hx) as (b & Hb). unfold its. rewrite Hb. split. apply (w_fnd _ (i_w _ _ I) _ _ _ Hb). intros e. split. intros He. exists b. auto. intros (b' & Hb' & Hi). rewrite Hb in Hb'. inversion Hb'; subst b'. auto.
    - intros x e _ He. apply (faces_of_ok t a x e R He). }
  split; auto. unfold MESH_GetElementGraph. change (negb (ZL [] =? 0)) with false. cbv iota. rewrite E. auto.
Qed.
Print Assumptions C41_face_graph.

(** What the property asks: symmetric, irreflexive, exactly the elements sharing an
    item. *)
Theorem C41_symmetric : forall els uses nbs, element_graph els uses nbs ->
  (forall i j, (i < length els)%nat -> (j < length els)%nat -> In (Z.of_nat j) (nth i nbs []) <-> In (Z.of_nat i) (nth j nbs [])) /\
  (forall i, (i < length els)%nat -> ~ In (Z.of_nat i) (nth i nbs [])) /\
  (forall i j, (i < length els)%nat -> (j < length els)%nat -> In (Z.of_nat j) (nth i nbs []) <-> i <> j /\ exists f, uses (nth i els NULL) f /\ uses (nth j els NULL) f).
Proof.
  intros els uses nbs G. pose proof (element_graph_nbr _ _ _ G) as N. split; [|split; auto].
  - intros i j Hi Hj. rewrite !N by auto. split; intros (E & f & U & V); split; auto; exists f; auto.
  - intros i Hi H. apply N in H; auto. tauto.
Qed.
Print Assumptions C41_symmetric.

(** ** Examples *)

(** The two tetrahedra. *)
Lemma tets_regions : forall q, a_r (arun amesh0 tets) q <> None -> In q [22; 23].
Proof. intros q. lazy -[Z.eqb]. destruct (Z.eqb_spec q 23) as [->|]; auto. destruct (Z.eqb_spec q 22) as [->|]; auto. Qed.
Example C41_region_ex : reach T0 (arun amesh0 tets) /\ numbered [22; 23] (fun r => r - 21) /\
  (forall r, In r [22; 23] -> exists b, a_r (arun amesh0 tets) r = Some (true, Some b)) /\
  (forall r q f, In r [22; 23] -> uses_face (arun amesh0 tets) r f -> uses_face (arun amesh0 tets) q f -> In q [22; 23]) /\
  MESH_GetElementGraph T0 [22; 23] [] (fun r => r - 21) (fun f => f) = Ok (2, map Some [0; 1; 2], map Some [1; 0] ++ [None; None; None; None; None; None]) /\
  graph_arrays [[1]; [0]] (map Some [0; 1; 2]) (map Some [1; 0] ++ [None; None; None; None; None; None]).
Proof.
  split. exact T0_reach. split. split. repeat constructor; cbn; intuition discriminate. intros [|[|i]] Hi; cbn in Hi; try lia; reflexivity. split.
  { intros r [<-|[<-|[]]]; eexists; vm_compute; reflexivity. } split. { intros r q f _ _ (d & b & Hb & _). apply tets_regions. congruence. }
  split. vm_compute. reflexivity. split. reflexivity. eexists. reflexivity.
Qed.
(** The same mesh after its regions are deleted: seven triangles, some edges with
    three of them. *)
Definition shells : list top := tets ++ [TDelR 22 false; TDelR 23 false].
Definition T4 : topo := done (trun empty_topo shells).
Lemma T4_reach : reach T4 (arun amesh0 shells).
Proof.
  assert (H : tallowed amesh0 shells) by (apply tallowedb_ok with (t := empty_topo); [exact inv0|vm_compute; reflexivity]).
  destruct (trun_ok shells _ _ inv0 H) as (t & E & I). exists shells. split; [exact H|]. split; [unfold T4; rewrite E; reflexivity|reflexivity].
Qed.
Lemma shells_faces : forall q, a_f (arun amesh0 shells) q <> None -> In q [15; 16; 17; 18; 19; 20; 21].
Proof. intros q. lazy -[Z.eqb]. repeat match goal with |- context [q =? ?k] => destruct (Z.eqb_spec q k) as [->|]; [intros; repeat (try (left; reflexivity); right)|] end. congruence. Qed.
Example C41_face_ex : reach T4 (arun amesh0 shells) /\ numbered [15; 16; 17; 18; 19; 20; 21] (fun f => f - 14) /\
  (forall f, In f [15; 16; 17; 18; 19; 20; 21] -> exists b, a_f (arun amesh0 shells) f = Some (true, Some b)) /\
  (forall f g e, In f [15; 16; 17; 18; 19; 20; 21] -> has_edge (arun amesh0 shells) f e -> has_edge (arun amesh0 shells) g e -> In g [15; 16; 17; 18; 19; 20; 21]) /\
  exists beg adj, MESH_GetElementGraph T4 [] [15; 16; 17; 18; 19; 20; 21] (fun r => r) (fun f => f - 14) = Ok (7, beg, adj) /\ beg = map Some [0; 4; 8; 14; 18; 22; 26; 30].
Proof.
  split. exact T4_reach. split. split. repeat constructor; cbn; intuition discriminate. intros i Hi. do 7 (destruct i as [|i]; [reflexivity|]). cbn in Hi. lia. split.
  { intros f Hf. repeat (destruct Hf as [<-|Hf]; [eexists; vm_compute; reflexivity|]). destruct Hf. } split. { intros f g e _ _ (b & Hb & _). apply shells_faces. congruence. }
  eexists _, _. split. vm_compute. reflexivity. reflexivity.
Qed.
(** Two regions that share all five faces of a pyramid (they fill a sphere from
    inside and outside): ten entries, room for eight. *)
Definition pillow : list top := [
  TNewV; TNewV; TNewV; TNewV; TNewV;
  TNewE; TSetVertex 6 false 1; TSetVertex 6 true 2; TNewE; TSetVertex 7 false 2; TSetVertex 7 true 3; TNewE; TSetVertex 8 false 3; TSetVertex 8 true 4; TNewE; TSetVertex 9 false 4; TSetVertex 9 true 1;
  TNewE; TSetVertex 10 false 1; TSetVertex 10 true 5; TNewE; TSetVertex 11 false 2; TSetVertex 11 true 5; TNewE; TSetVertex 12 false 3; TSetVertex 12 true 5; TNewE; TSetVertex 13 false 4; TSetVertex 13 true 5;
  TNewF; TSetEdges 14 [(6, true); (7, true); (8, true); (9, true)]; TNewF; TSetEdges 15 [(6, true); (11, true); (10, false)]; TNewF; TSetEdges 16 [(7, true); (12, true); (11, false)];
  TNewF; TSetEdges 17 [(8, true); (13, true); (12, false)]; TNewF; TSetEdges 18 [(9, true); (10, true); (13, false)];
  TNewR; TSetFaces 19 [(14, false); (15, true); (16, true); (17, true); (18, true)]; TNewR; TSetFaces 20 [(14, true); (15, false); (16, false); (17, false); (18, false)]].
Definition T5 : topo := done (trun empty_topo pillow).
Lemma T5_reach : reach T5 (arun amesh0 pillow).
Proof.
  assert (H : tallowed amesh0 pillow) by (apply tallowedb_ok with (t := empty_topo); [exact inv0|vm_compute; reflexivity]).
  destruct (trun_ok pillow _ _ inv0 H) as (t & E & I). exists pillow. split; [exact H|]. split; [unfold T5; rewrite E; reflexivity|reflexivity].
Qed.
Theorem C41_realloc_refuted : exists t a regions rid, reach t a /\ numbered regions rid /\ (forall r, In r regions -> exists b, a_r a r = Some (true, Some b)) /\ MESH_GetElementGraph t regions [] rid (fun f => f) = Undef.
Proof.
  exists T5, (arun amesh0 pillow), [19; 20], (fun r => r - 18). split. exact T5_reach. split. split. repeat constructor; cbn; intuition discriminate. intros [|[|i]] Hi; cbn in Hi; try lia; reflexivity.
  split. { intros r [<-|[<-|[]]]; eexists; vm_compute; reflexivity. } vm_compute. reflexivity.
Qed.
Print Assumptions C41_realloc_refuted.
(** The numbering matters: with the IDs 2 and 3 (a region deleted before) the
    entries are not positions in the arrays. *)
Theorem C41_gap_refuted : exists t a regions rid n beg adj, reach t a /\ NoDup (map rid regions) /\ (forall r, In r regions -> exists b, a_r a r = Some (true, Some b) /\ 1 <= rid r) /\
  MESH_GetElementGraph t regions [] rid (fun f => f) = Ok (n, beg, adj) /\ rd adj 0 = Ok n.
Proof.
  exists T0, (arun amesh0 tets), [22; 23], (fun r => r - 20). eexists _, _, _. split. exact T0_reach. split. repeat constructor; cbn; intuition discriminate. split. { intros r [<-|[<-|[]]]; eexists; (split; [vm_compute; reflexivity|lia]). }
  split. vm_compute. reflexivity. reflexivity.
Qed.
Print Assumptions C41_gap_refuted.
