(** Lemmas for merging vertices, edges and faces. *)
From Coq Require Import ZArith List Lia Bool Arith ZifyBool ZifyNat Permutation.
From Verif Require Import Base BaseProofs ListSpec ParModel ParProps AttModel AttProps TopoModel TopoSpec TopoProofs TopoProofs2 TopoProofs3 TopoProofs4 TopoProofs5 TopoProofs6 TopoProofs7 TopoProps TopoProps2 ModModel ModProofs ModProofs2.
Import ListNotations.
Open Scope Z_scope.

(** ** Sets *)

(** What a set must contain after [del] was merged into [kept]. *)
Definition merged_set (del kept : ptr) (s s' : list ptr) : Prop := NoDup s' /\ forall x, In x s' <-> x <> del /\ (In x s \/ x = kept /\ In del s).
Lemma merge_set_ok : forall del kept s, NoDup s -> del <> kept -> Forall (fun s' => merged_set del kept s s') (merge_in_sets [s] del kept).
Proof.
  intros del kept s N Hne. cbn. constructor; [|constructor]. destruct (mem del s) eqn:E1; [destruct (mem kept s) eqn:E2|].
  - apply mem_In in E1. apply mem_In in E2. apply in_split in E1. destruct E1 as (l1 & l2 & ->). assert (H1 : ~ In del l1). { apply NoDup_remove_2 in N. rewrite in_app_iff in N. tauto. }
    assert (E : remove1 del (l1 ++ del :: l2) = l1 ++ l2). { clear - H1. induction l1 as [|y l IH]; cbn. rewrite Z.eqb_refl. auto. cbn in H1. destruct (Z.eqb_spec y del). tauto. f_equal. apply IH. tauto. }
    rewrite E. pose proof (NoDup_remove_2 _ _ _ N) as N2. split. apply NoDup_remove_1 in N. auto. intros x. rewrite in_app_iff in *. cbn. split.
    + intros Hx. split. intros ->. apply N2. tauto. left. rewrite in_app_iff. cbn. tauto.
    + intros (Hx & [Hs|(-> & _)]). rewrite in_app_iff in Hs. cbn in Hs. destruct Hs as [|[|]]; auto. congruence. cbn in E2. destruct E2 as [|[|]]; auto. congruence.
  - apply mem_In in E1. apply not_true_iff_false in E2. rewrite mem_In in E2. apply in_split in E1. destruct E1 as (l1 & l2 & ->). pose proof (NoDup_remove_2 _ _ _ N) as N2. rewrite in_app_iff in N2.
    assert (E : replace1 del kept (l1 ++ del :: l2) = l1 ++ kept :: l2). { clear - N2. induction l1 as [|y l IH]; cbn. rewrite Z.eqb_refl. auto. cbn in N2. destruct (Z.eqb_spec y del). tauto. f_equal. apply IH. tauto. }
    rewrite E. split. { apply NoDup_remove_1 in N. rewrite in_app_iff in E2. cbn in E2. apply NoDup_Add with (a := kept) (l := l1 ++ l2). apply Add_app. split; auto. rewrite in_app_iff. tauto. }
    intros x. rewrite !in_app_iff. cbn. split.
    + intros [Hx|[Hx|Hx]]; (split; [intros ->|]); auto; try tauto.
    + intros (Hx & [[|[|]]|(-> & _)]); auto. congruence.
  - apply not_true_iff_false in E1. rewrite mem_In in E1. split; auto. intros x. split. intros Hx. split; auto. intros ->. auto. intros (Hx & [|[]]); auto. contradiction.
Qed.
Lemma merge_sets_ok : forall sets del kept, Forall (@NoDup ptr) sets -> del <> kept -> Forall2 (merged_set del kept) sets (merge_in_sets sets del kept).
Proof.
  intros sets del kept H Hne. induction H as [|s sets Hs H IH]; cbn; constructor; auto. pose proof (merge_set_ok del kept s Hs Hne) as M. cbn in M. apply Forall_inv in M. auto.
Qed.

(** ** Vertices *)
Definition moved (del kept v : ptr) : ptr := if v =? del then kept else v.
Lemma replace_vertex_edges : forall v1 v2, v1 <> v2 -> v2 <> NULL -> forall l t a, reach t a -> live_v a v1 -> NoDup l -> (forall e, In e l -> is_end a e v2) -> (forall e, a_e a e <> Some (true, (v2, v2))) ->
  (forall e p, In e l -> a_e a e <> Some (true, (p, p))) ->
  exists t' a', foldM (fun t e => ME_Replace_Vertex t e v2 v1) t l = Ok t' /\ reach t' a' /\ a_v a' = a_v a /\ a_f a' = a_f a /\ a_r a' = a_r a /\ a_next a' = a_next a /\
    forall e, a_e a' e = if mem e l then option_map (fun x => (fst x, (moved v2 v1 (fst (snd x)), moved v2 v1 (snd (snd x))))) (a_e a e) else a_e a e.
Proof.
  intros v1 v2 Hne Hn. induction l as [|e l IH]; intros t a R HL ND HE HD HP; cbn [foldM].
  - exists t, a. cbn. auto 10.
  - destruct (HE e (or_introl eq_refl)) as (p & q & He & Hpq). inversion ND as [|? ? Nl ND']; subst.
    destruct (reach_step t a (TReplaceVertex e v2 v1) R) as (t1 & E1 & R1).
    { cbn [tpre]. split; auto. split; auto. split; auto. exists p, q. split; auto. intros ->. apply (HP e q); cbn; auto. }
    cbn [tstep] in E1. rewrite E1. cbn [bind]. cbn [astep] in R1.
    assert (K : forall g, g <> e -> a_e (with_e a (upd (a_e a) e (match a_e a e with Some (l, (v0, v3)) => Some (l, (if v0 =? v2 then v1 else v0, if v3 =? v2 then v1 else v3)) | None => None end))) g = a_e a g). { intros g Hg. ra. apply upd_other. auto. }
    destruct (IH t1 _ R1) as (t2 & a2 & E2 & R2 & A1 & A2 & A3 & A4 & A5); auto.
    + intros g Hg. unfold is_end. rewrite K by congruence. apply HE. cbn; auto.
    + intros g. destruct (Z.eq_dec g e) as [->|Hg]. ra. rewrite upd_same, He. intros X. inversion X. destruct (Z.eqb_spec p v2); congruence. rewrite K by auto. auto.
    + intros g r Hg. rewrite K by congruence. apply HP. cbn; auto.
    + exists t2, a2. rewrite E2. split; auto. split; auto. split; auto. split; auto. split; auto. split; auto. intros g. rewrite A5. change (mem g (e :: l)) with ((g =? e) || mem g l). destruct (Z.eqb_spec g e) as [->|Hg].
      * replace (mem e l) with false by (symmetry; apply not_true_iff_false; rewrite mem_In; auto). ra. rewrite upd_same, He. auto.
      * rewrite K by auto. auto.
Qed.

(** ** Edges *)
(** Edge [e] replaced by [g] in a boundary, with the same or the opposite sense. *)
Definition rename (e g : ptr) (same : bool) (b : list (ptr * bool)) : list (ptr * bool) :=
  map (fun x : ptr * bool => if fst x =? e then (g, if same then snd x else negb (snd x)) else x) b.
Lemma rename_out : forall e g s b, ~ In e (map fst b) -> rename e g s b = b.
Proof. induction b as [|[x d] b IH]; cbn; intros H; auto. destruct (Z.eqb_spec x e). tauto. f_equal. apply IH. tauto. Qed.
Lemma rename_mid : forall e g s b1 d b2, NoDup (map fst (b1 ++ (e, d) :: b2)) -> rename e g s (b1 ++ (e, d) :: b2) = b1 ++ (g, if s then d else negb d) :: b2.
Proof.
  intros e g s b1 d b2 N. rewrite map_app in N. cbn [map fst] in N. apply NoDup_remove_2 in N. rewrite in_app_iff in N. unfold rename. rewrite map_app. cbn [map fst snd]. rewrite Z.eqb_refl.
  fold (rename e g s b1). fold (rename e g s b2). rewrite !rename_out by tauto. auto.
Qed.
Lemma rename_not_in : forall (e g : ptr) s b, e <> g -> ~ In e (map fst (rename e g s b)).
Proof. intros e g s b H Hi. unfold rename in Hi. rewrite map_map in Hi. apply in_map_iff in Hi. destruct Hi as ([x d] & Hx & _). cbn [fst snd] in Hx. destruct (Z.eqb_spec x e); cbn in Hx; congruence. Qed.
Lemma one_for_one : forall t a f e g p q p' q' (s : bool) b1 d b2, reach t a -> a_e a e = Some (true, (p, q)) -> p <> q -> a_e a g = Some (true, (p', q')) -> (if s then p' = p /\ q' = q else p' = q /\ q' = p) ->
  a_f a f = Some (true, Some (b1 ++ (e, d) :: b2)) -> ~ In g (map fst (b1 ++ (e, d) :: b2)) ->
  exists t', MF_Replace_Edges t f [e] [g] = Ok t' /\ reach t' (set_fb a f (b1 ++ (g, if s then d else negb d) :: b2)).
Proof.
  intros t a f e g p q p' q' s b1 d b2 R He Hpq Hg Hs Hf Hout. pose proof (reach_inv _ _ R) as I. destruct (w_fnd _ (i_w _ _ I) _ _ _ Hf) as [N L].
  assert (Efb : fbdry a f = b1 ++ (e, d) :: b2) by (unfold fbdry; rewrite Hf; auto). set (d' := if s then d else negb d).
  assert (Es : splice (length b1) 1 [(g, d')] (b1 ++ (e, d) :: b2) = b1 ++ (g, d') :: b2).
  { unfold splice. rewrite app_length. cbn [length]. replace (length b1 + 1 <=? length b1 + S (length b2))%nat with true by lia. f_equal. rewrite firstn_app, firstn_all, Nat.sub_diag. cbn. apply app_nil_r.
    cbn [app]. f_equal. rewrite skipn_app, skipn_all2 by lia. replace (length b1 + 1 - length b1)%nat with 1%nat by lia. auto. }
  destruct (reach_step t a (TReplaceEdges f (length b1) 1 [(g, d')] false) R) as (t' & Et & R').
  { cbn [tpre]. split. eexists; eauto. rewrite Efb. cbv zeta. rewrite Es. rewrite app_length in *. cbn [length] in *. split. lia. split. lia. split. lia. split. left; auto.
    split. { rewrite map_app in *. cbn [map fst] in *. pose proof (NoDup_remove_1 _ _ _ N). apply NoDup_Add with (a := g) (l := map fst b1 ++ map fst b2). apply Add_app. split; auto. rewrite in_app_iff in *. cbn in Hout. tauto. }
    split. { rewrite app_length. cbn [length]. lia. } split. { constructor; [|constructor]. eexists; eauto. }
    exists (d_start (p, q) d), (d_end (p, q) d). split. { unfold run. rewrite skipn_app, skipn_all2, Nat.sub_diag by lia. cbn. exists (p, q). auto. }
    split. { cbn [path]. exists (p', q'). split; auto. unfold d', d_start, d_end. destruct s, Hs as [-> ->], d; cbn; auto. } discriminate. }
  cbn [tstep astep] in *. rewrite Efb, Es in R'. exists t'. split; auto. rewrite (replace_one _ _ _ _ _ _ _ _ I Hf). exact Et.
Qed.
Lemma rename_faces : forall e g p q p' q' (s : bool), p <> q -> (if s then p' = p /\ q' = q else p' = q /\ q' = p) -> forall fs t a, reach t a -> a_e a e = Some (true, (p, q)) -> a_e a g = Some (true, (p', q')) ->
  NoDup fs -> (forall f, In f fs -> has_edge a f e) -> (forall f b, In f fs -> a_f a f = Some (true, Some b) -> ~ In g (map fst b)) ->
  exists t' a', foldM (fun t f => MF_Replace_Edges t f [e] [g]) t fs = Ok t' /\ reach t' a' /\
    a_v a' = a_v a /\ a_e a' = a_e a /\ a_r a' = a_r a /\ a_next a' = a_next a /\
    forall f, a_f a' f = if mem f fs then on_bdry (rename e g s) (a_f a f) else a_f a f.
Proof.
  intros e g p q p' q' s Hpq Hs. induction fs as [|f fs IH]; intros t a R He Hg NF HF HB; cbn [foldM].
  - exists t, a. cbn. auto 10.
  - destruct (HF f (or_introl eq_refl)) as (b & Hb & Hi). pose proof (HB f b (or_introl eq_refl) Hb) as Ho. apply in_map_iff in Hi. destruct Hi as ([e' d] & E & Hi). cbn in E. subst e'. apply in_split in Hi. destruct Hi as (b1 & b2 & ->).
    destruct (one_for_one t a f e g p q p' q' s b1 d b2 R He Hpq Hg Hs Hb Ho) as (t1 & E1 & R1). rewrite E1. cbn [bind]. pose proof (reach_inv _ _ R) as I. destruct (w_fnd _ (i_w _ _ I) _ _ _ Hb) as [N L]. rewrite <- (rename_mid e g s b1 d b2 N) in R1.
    set (b' := rename e g s (b1 ++ (e, d) :: b2)) in *. inversion NF as [|? ? Nf NF']; subst.
    assert (Oth : forall h, h <> f -> a_f (set_fb a f b') h = a_f a h). { intros h Hh. unfold set_fb. ra. rewrite upd_other; auto. }
    destruct (IH t1 _ R1) as (t' & a' & E3 & R' & A1 & A2 & A3 & A4 & A5); auto.
    + intros h Hh. unfold has_edge. rewrite Oth by congruence. apply HF. cbn; auto.
    + intros h c Hh. rewrite Oth by congruence. intros Hc. apply (HB h c); cbn; auto.
    + exists t', a'. split; auto. split; auto. split; auto. split; auto. split; auto. split; auto. intros h. rewrite A5. change (mem h (f :: fs)) with ((h =? f) || mem h fs). destruct (Z.eqb_spec h f) as [->|Hh].
      * replace (mem f fs) with false by (symmetry; apply not_true_iff_false; rewrite mem_In; auto). unfold set_fb. ra. rewrite upd_same, Hb. auto.
      * rewrite Oth by auto. auto.
Qed.
Lemma rename_path : forall a a' e g p q p' q' (s : bool), a_e a e = Some (true, (p, q)) -> a_e a' g = Some (true, (p', q')) -> (if s then p' = p /\ q' = q else p' = q /\ q' = p) ->
  (forall x, x <> e -> a_e a' x = a_e a x) -> forall b u w, path a u b w -> path a' u (rename e g s b) w.
Proof.
  intros a a' e g p q p' q' s He Hg Hs HK. induction b as [|[x d] b IH]; intros u w H; cbn [rename map path fst snd] in *; auto. destruct H as (y & H1 & H2 & H3 & H4). destruct (Z.eqb_spec x e) as [->|Hx].
  - rewrite He in H1. inversion H1; subst y. cbn [fst snd] in H2. exists (p', q'). split; auto. cbn [fst snd]. destruct s, Hs as [-> ->], d; cbn in *; subst; auto.
  - exists y. rewrite HK by auto. split; auto.
Qed.

(** ** Faces *)
Lemma rot_same : forall A B (g : A -> B) x y d, rotation x y -> NoDup (map g x) -> x <> [] -> g (hd d x) = g (hd d y) -> x = y.
Proof.
  intros A B g x y d (u & v & -> & ->) N Hn H. destruct u as [|a u]. rewrite app_nil_r. auto. destruct v as [|b v]. rewrite app_nil_r. auto. exfalso. cbn in H. rewrite map_app in N. cbn [map app] in N. inversion N as [|? ? N1 _]; subst. apply N1. rewrite in_app_iff. right. cbn. auto.
Qed.
Lemma turned_length : forall b, length (turned b) = length b.
Proof. intros. unfold turned. rewrite rev_length, map_length. auto. Qed.
Lemma turned_start : forall a b u, path a u b u -> map (vat a) (turned b) = match b with [] => [] | _ => u :: rev (tl (map (vat a) b)) end.
Proof.
  intros a b u H. pose proof (path_vat _ _ _ _ H) as E. assert (T : map (vat a) (turned b) = rev (map (vend a) b)).
  { unfold turned. rewrite map_rev, map_map. f_equal. apply map_ext. intros [e d]. unfold vat, vend. cbn [fst snd]. destruct (a_e a e) as [[l p]|]; auto. destruct d; auto. }
  rewrite T. destruct b as [|x b]; auto. cbn [map tl app] in *. inversion E as [[E1 E2]]. rewrite E2, rev_app_distr. auto.
Qed.
