(** Splitting edges: the calls of ME_MultiSplit as steps of the topology model. *)
From Coq Require Import ZArith List Lia Bool Arith ZifyBool ZifyNat Permutation.
From Verif Require Import Base BaseProofs ListSpec ParModel ParProps AttModel AttProps TopoModel TopoSpec TopoProofs TopoProofs2 TopoProofs3 TopoProofs4 TopoProofs5 TopoProofs6 TopoProofs7 TopoProps TopoProps2 ModModel.
Import ListNotations.
Open Scope Z_scope.

Definition edge_is (t : topo) (e p q : ptr) : Prop := exists x, tes t e = Some x /\ e_live x = true /\ e_v0 x = p /\ e_v1 x = q.
Lemma edge_is_iff : forall t a e p q, inv t a -> (a_e a e = Some (true, (p, q)) <-> edge_is t e p q).
Proof.
  intros t a e p q I. rewrite <- (i_e _ _ I). unfold edge_is. destruct (tes t e) as [x|]; cbn; split.
  - intros H. inversion H. exists x. auto.
  - intros (y & H & A & <- & <-). inversion H; subst y. unfold eview. rewrite A. auto.
  - discriminate.
  - intros (y & H & _). discriminate.
Qed.
Lemma live_nn : forall t a v, inv t a -> live_v a v -> v <> NULL.
Proof. intros t a v I H. pose proof (w_v _ (i_w _ _ I) v). unfold live_v in H. unfold NULL. assert (1 <= v < a_next a) by (apply H0; congruence). lia. Qed.

(** Zero or more allowed steps. *)
Lemma zrange_cons : forall x n, zrange x (x + Z.of_nat (S n)) = x :: zrange (x + 1) (x + 1 + Z.of_nat n).
Proof.
  intros. unfold zrange. replace (Z.to_nat (x + Z.of_nat (S n) - x)) with (S n) by lia. replace (Z.to_nat (x + 1 + Z.of_nat n - (x + 1))) with n by lia.
  cbn [seq map]. f_equal. lia. rewrite <- seq_shift, map_map. apply map_ext. intros. lia.
Qed.
Lemma zrange_nil : forall x, zrange x (x + 0) = [].
Proof. intros. unfold zrange. replace (Z.to_nat (x + 0 - x)) with 0%nat by lia. auto. Qed.
Lemma zrange_nth : forall x n k d, (k < n)%nat -> nth k (zrange x (x + Z.of_nat n)) d = x + Z.of_nat k.
Proof.
  intros x n k d H. unfold zrange. replace (Z.to_nat (x + Z.of_nat n - x)) with n by lia. rewrite (nth_indep _ d (x + Z.of_nat 0)) by (rewrite map_length, seq_length; lia).
  rewrite (map_nth (fun i => x + Z.of_nat i)). rewrite seq_nth by lia. auto.
Qed.
Lemma zrange_len : forall x n, length (zrange x (x + Z.of_nat n)) = n.
Proof. intros. unfold zrange. rewrite map_length, seq_length. lia. Qed.
Lemma zrange_In : forall x y i, In i (zrange x y) <-> x <= i < y.
Proof. intros. split. apply zrange_in. apply in_zrange. Qed.
Lemma zrange_nd : forall x y, NoDup (zrange x y).
Proof. intros. unfold zrange. apply FinFun.Injective_map_NoDup. intros i j. lia. apply seq_NoDup. Qed.

Lemma new_verts_ok : forall n t a, reach t a -> exists t' a', new_verts t n = (t', zrange (a_next a) (a_next a + Z.of_nat n)) /\ reach t' a' /\
  a_e a' = a_e a /\ a_f a' = a_f a /\ a_r a' = a_r a /\ a_next a' = a_next a + Z.of_nat n /\
  forall v, a_v a' v = if (a_next a <=? v) && (v <? a_next a + Z.of_nat n) then Some true else a_v a v.
Proof.
  induction n as [|n IH]; intros t a R; cbn [new_verts].
  - exists t, a. rewrite zrange_nil. split; auto. split; auto. split; auto. split; auto. split; auto. split. lia. intros v. replace ((a_next a <=? v) && (v <? a_next a + Z.of_nat 0)) with false by lia. auto.
  - destruct (reach_step t a TNewV R I) as (t1 & E1 & R1). cbn [tstep] in E1. inversion E1 as [E2]. cbn [MV_New fst snd] in *. rewrite E2. clear E1.
    destruct (IH t1 _ R1) as (t2 & a2 & E3 & R2 & A1 & A2 & A3 & A4 & A5). rewrite E3. cbn [astep bump with_v a_next a_v a_e a_f a_r] in *. exists t2, a2.
    split. { f_equal. rewrite zrange_cons. f_equal. apply (i_n _ _ (reach_inv _ _ R)). }
    split; auto. split; auto. split; auto. split; auto. split. lia. intros v. rewrite A5. unfold upd. destruct (Z.eqb_spec v (a_next a)).
    + replace ((a_next a <=? v) && (v <? a_next a + Z.of_nat (S n))) with true by lia. destruct ((a_next a + 1 <=? v) && (v <? a_next a + 1 + Z.of_nat n)); auto.
    + replace ((a_next a <=? v) && (v <? a_next a + Z.of_nat (S n))) with ((a_next a + 1 <=? v) && (v <? a_next a + 1 + Z.of_nat n)) by lia. auto.
Qed.

(** One new edge with both ends. *)
Lemma new_edge_ok : forall t a p q, reach t a -> live_v a p -> live_v a q -> exists t1 t2 a', 
  ME_Set_Vertex (fst (ME_New t)) (snd (ME_New t)) 0 p = Ok t1 /\ ME_Set_Vertex t1 (snd (ME_New t)) 1 q = Ok t2 /\ snd (ME_New t) = a_next a /\ reach t2 a' /\
  a_v a' = a_v a /\ a_f a' = a_f a /\ a_r a' = a_r a /\ a_next a' = a_next a + 1 /\
  forall e, a_e a' e = if e =? a_next a then Some (true, (p, q)) else a_e a e.
Proof.
  intros t a p q R Hp Hq. destruct (reach_step t a TNewE R I) as (t0 & E0 & R0). cbn [tstep] in E0. assert (E0' : fst (ME_New t) = t0) by congruence. clear E0.
  assert (En : snd (ME_New t) = a_next a) by (cbn; apply (i_n _ _ (reach_inv _ _ R))). rewrite En, E0'.
  pose proof (live_nn _ _ _ (reach_inv _ _ R) Hp) as Np.
  destruct (reach_step t0 _ (TSetVertex (a_next a) false p) R0) as (t1 & E1 & R1). { cbn [tpre astep]. split. exact Hp. exists NULL, NULL. ra. rewrite upd_same. auto. }
  destruct (reach_step t1 _ (TSetVertex (a_next a) true q) R1) as (t2 & E2 & R2). { cbn [tpre astep]. split. exact Hq. exists p, NULL. ra. rewrite !upd_same. auto. }
  cbn [tstep b2z] in E1, E2. exists t1, t2. eexists. split; [exact E1|]. split; [exact E2|]. split; auto. split; [exact R2|]. cbn [astep]. ra. split; auto. split; auto. split; auto. split; auto.
  intros e. rewrite !upd_same. unfold upd. destruct (Z.eqb_spec e (a_next a)); auto.
Qed.
Lemma new_edges_ok : forall vs t a u, reach t a -> live_v a u -> Forall (live_v a) vs -> exists t' a', new_edges t u vs = Ok (t', zrange (a_next a) (a_next a + Z.of_nat (length vs))) /\ reach t' a' /\
  a_v a' = a_v a /\ a_f a' = a_f a /\ a_r a' = a_r a /\ a_next a' = a_next a + Z.of_nat (length vs) /\
  (forall k, (k < length vs)%nat -> a_e a' (a_next a + Z.of_nat k) = Some (true, (nth k (u :: vs) NULL, nth k vs NULL))) /\
  (forall e, e < a_next a \/ a_next a + Z.of_nat (length vs) <= e -> a_e a' e = a_e a e).
Proof.
  induction vs as [|v vs IH]; intros t a u R Hu HV; cbn [new_edges length].
  - exists t, a. rewrite zrange_nil. split; auto. split; auto. split; auto. split; auto. split; auto. split. lia. split. intros; lia. auto.
  - inversion HV as [|? ? Hv HV']; subst. destruct (new_edge_ok t a u v R Hu Hv) as (t1 & t2 & a2 & E1 & E2 & En & R2 & A1 & A2 & A3 & A4 & A5).
    destruct (ME_New t) as [t0 e] eqn:EN. cbn [fst snd] in *. rewrite E1. cbn [bind]. rewrite E2. cbn [bind].
    destruct (IH t2 a2 v R2) as (t3 & a3 & E3 & R3 & B1 & B2 & B3 & B4 & B5 & B6). { unfold live_v in *. rewrite A1. auto. } { unfold live_v in *. rewrite A1. auto. }
    rewrite E3. cbn [bind]. exists t3, a3. split. { rewrite zrange_cons, En, A4. auto. }
    split; auto. split. congruence. split. congruence. split. congruence. split. lia. split.
    + intros [|k] Hk. replace (a_next a + Z.of_nat 0) with (a_next a) by lia. rewrite B6 by lia. rewrite A5, Z.eqb_refl. auto.
      replace (a_next a + Z.of_nat (S k)) with (a_next a2 + Z.of_nat k) by lia. rewrite B5 by lia. auto.
    + intros x Hx. rewrite B6 by lia. rewrite A5. replace (x =? a_next a) with false by lia. auto.
Qed.

(** What becomes of a boundary: edge [e] is replaced by the run [es], read along
    the direction [e] is used in. *)
Definition fwd (es : list ptr) : list (ptr * bool) := map (fun e : ptr => (e, true)) es.
Definition bwd (es : list ptr) : list (ptr * bool) := map (fun e : ptr => (e, false)) (rev es).
Definition refine (e : ptr) (es : list ptr) (b : list (ptr * bool)) : list (ptr * bool) :=
  flat_map (fun x : ptr * bool => if fst x =? e then if snd x then fwd es else bwd es else [x]) b.
Lemma refine_out : forall e es b, ~ In e (map fst b) -> refine e es b = b.
Proof. induction b as [|[g d] b IH]; cbn; intros H; auto. destruct (Z.eqb_spec g e). tauto. cbn. f_equal. apply IH. tauto. Qed.
Lemma refine_app : forall e es b1 b2, refine e es (b1 ++ b2) = refine e es b1 ++ refine e es b2.
Proof. intros. apply flat_map_app. Qed.
Lemma refine_mid : forall e es b1 d b2, NoDup (map fst (b1 ++ (e, d) :: b2)) -> refine e es (b1 ++ (e, d) :: b2) = b1 ++ (if d then fwd es else bwd es) ++ b2.
Proof.
  intros e es b1 d b2 N. rewrite map_app in N. cbn in N. apply NoDup_remove_2 in N. rewrite in_app_iff in N. rewrite refine_app. change (refine e es ((e, d) :: b2)) with ((if e =? e then if d then fwd es else bwd es else [(e, d)]) ++ refine e es b2). rewrite Z.eqb_refl. rewrite !refine_out by tauto. auto.
Qed.
Lemma path_bwd : forall a es u v, path a u (fwd es) v -> path a v (bwd es) u.
Proof.
  induction es as [|e es IH]; intros u v H; cbn in *. auto. destruct H as (x & H1 & H2 & H3 & H4). apply IH in H4. unfold bwd in *. cbn. rewrite map_app. apply path_app. exists (snd x). split; auto.
  cbn. exists x. split; auto.
Qed.
Lemma fwd_fst : forall es, map fst (fwd es) = es.
Proof. intros. unfold fwd. rewrite map_map. cbn. apply map_id. Qed.
Lemma bwd_fst : forall es, map fst (bwd es) = rev es.
Proof. intros. unfold bwd. rewrite map_map. cbn. apply map_id. Qed.
Lemma edge_dir_ok : forall t a f b1 e d b2, inv t a -> a_f a f = Some (true, Some (b1 ++ (e, d) :: b2)) -> MF_EdgeDir t f e = Ok (b2z d).
Proof.
  intros t a f b1 e d b2 I H. destruct (face_rep _ _ _ _ I H) as (x & l & Hx & Hl & (-> & L & B)). unfold MF_EdgeDir, getf. rewrite Hx. cbn [bind]. rewrite Hl. cbn [nn bind].
  destruct (w_fnd _ (i_w _ _ I) _ _ _ H) as [N _]. rewrite map_app in *. cbn [map fst] in *. rewrite index_of_app. 2: { apply NoDup_remove_2 in N. rewrite in_app_iff in N. tauto. }
  rewrite map_length. specialize (B (length b1)). rewrite app_length in *. cbn [length] in *. rewrite bit64_ok by lia. f_equal. f_equal. rewrite B by lia. rewrite app_nth2 by lia. rewrite Nat.sub_diag. auto.
Qed.
Lemma replace_one : forall t a f b1 e d b2 nus, inv t a -> a_f a f = Some (true, Some (b1 ++ (e, d) :: b2)) -> MF_Replace_Edges t f [e] nus = MF_Replace_Edges_i t f 1 (Z.of_nat (length b1)) nus.
Proof.
  intros t a f b1 e d b2 nus I H. destruct (face_rep _ _ _ _ I H) as (x & l & Hx & Hl & (-> & L & B)). unfold MF_Replace_Edges, getf. rewrite Hx. cbn [bind]. rewrite Hl. cbn [nn bind].
  destruct (w_fnd _ (i_w _ _ I) _ _ _ H) as [N _]. rewrite map_app in *. cbn [map fst] in *. rewrite index_of_app. 2: { apply NoDup_remove_2 in N. rewrite in_app_iff in N. tauto. }
  rewrite map_length. cbn [map existsb orb fold_left]. rewrite app_length in L. replace (Z.of_nat (length b1) <? 10000) with true by lia. reflexivity.
Qed.
Lemma NoDup_mid : forall (l1 : list ptr) x l2 es, NoDup (l1 ++ x :: l2) -> NoDup es -> (forall y, In y es -> ~ In y (l1 ++ x :: l2)) -> NoDup (l1 ++ es ++ l2).
Proof.
  intros l1 x l2 es N M H. assert (E : Permutation (l1 ++ es ++ l2) (es ++ l1 ++ l2)) by apply Permutation_app_swap_app. eapply Permutation_NoDup; [symmetry; exact E|]. apply nd_app. split; auto.
  split. { apply NoDup_remove_1 in N. auto. } intros y Hy H1. apply (H y Hy). rewrite in_app_iff in *. cbn. tauto.
Qed.

(** One face: [es] leads from the first to the second end of [e]. *)
Lemma split_face : forall t a f e p q es b, reach t a -> a_e a e = Some (true, (p, q)) -> p <> q -> path a p (fwd es) q -> es <> [] -> NoDup es -> Forall (live_e a) es ->
  a_f a f = Some (true, Some b) -> In e (map fst b) -> (forall x, In x es -> ~ In x (map fst b)) -> (length b + length es <= 33)%nat ->
  exists d t', MF_EdgeDir t f e = Ok (b2z d) /\ MF_Replace_Edges t f [e] (if b2z d =? 0 then rev es else es) = Ok t' /\ reach t' (set_fb a f (refine e es b)).
Proof.
  intros t a f e p q es b R He Hpq HP HN ND HL Hf Hi Hout Hlen. apply in_map_iff in Hi. destruct Hi as ([e' d] & E & Hi). cbn in E. subst e'. apply in_split in Hi. destruct Hi as (b1 & b2 & ->).
  pose proof (reach_inv _ _ R) as I. destruct (w_fnd _ (i_w _ _ I) _ _ _ Hf) as [N _]. rewrite refine_mid by auto. set (nd := if d then fwd es else bwd es).
  assert (Lnd : length nd = length es) by (unfold nd, fwd, bwd; destruct d; rewrite map_length, ?rev_length; auto).
  assert (Le : (1 <= length es)%nat) by (destruct es; [congruence|cbn; lia]).
  assert (Efb : fbdry a f = b1 ++ (e, d) :: b2) by (unfold fbdry; rewrite Hf; auto).
  assert (Es : splice (length b1) 1 nd (b1 ++ (e, d) :: b2) = b1 ++ nd ++ b2).
  { unfold splice. rewrite app_length. cbn [length]. replace (length b1 + 1 <=? length b1 + S (length b2))%nat with true by lia. f_equal. rewrite firstn_app, firstn_all, Nat.sub_diag. cbn. apply app_nil_r.
    f_equal. rewrite skipn_app, skipn_all2 by lia. replace (length b1 + 1 - length b1)%nat with 1%nat by lia. auto. }
  assert (Enf : map fst nd = if b2z d =? 0 then rev es else es). { unfold nd. destruct d; cbn [b2z]; rewrite ?fwd_fst, ?bwd_fst; auto. }
  assert (Ene : forall x, In x (map fst nd) <-> In x es). { intros x. rewrite Enf. destruct (b2z d =? 0); rewrite <- ?in_rev; tauto. }
  destruct (reach_step t a (TReplaceEdges f (length b1) 1 nd false) R) as (t' & Et & R').
  { cbn [tpre]. split. eexists; eauto. rewrite Efb. cbv zeta. rewrite Es. rewrite app_length in *. cbn [length] in *. split. lia. split. lia. split. lia. split. { destruct (Nat.eq_dec (length nd) 1); [left; auto|right; left]. lia. }
    split. { rewrite !map_app. rewrite map_app in N. cbn [map fst] in N. eapply NoDup_mid; eauto. rewrite Enf. destruct (b2z d =? 0); auto. apply NoDup_rev; auto. intros y Hy. apply Ene in Hy. specialize (Hout y Hy). rewrite map_app in Hout. cbn [map fst] in Hout. auto. }
    split. { rewrite !app_length. unfold maxfe. lia. } split. { rewrite Forall_forall in *. intros [x dx] Hx. apply HL. apply Ene. apply (in_map fst) in Hx. auto. }
    exists (d_start (p, q) d), (d_end (p, q) d). split.
    { unfold run. rewrite skipn_app, skipn_all2, Nat.sub_diag by lia. cbn. exists (p, q). auto. }
    split. { unfold nd. destruct d; cbn. auto. apply path_bwd. auto. } discriminate. }
  cbn [tstep astep] in *. rewrite Efb, Es in R'. exists d, t'. split. eapply edge_dir_ok; eauto. split; auto. rewrite (replace_one _ _ _ _ _ _ _ _ I Hf), <- Enf. auto.
Qed.

Lemma path_ext : forall a a' b u w, (forall x, a_e a' x = a_e a x) -> path a u b w -> path a' u b w.
Proof. induction b as [|[x d] b IH]; intros u w H HP; cbn in *; auto. destruct HP as (y & H1 & H2 & H3 & H4). exists y. rewrite H. auto. Qed.

(** All faces of the edge. *)
Definition on_bdry {A B} (g : A -> B) (o : option (bool * option A)) : option (bool * option B) := option_map (fun x => (fst x, option_map g (snd x))) o.
Lemma split_faces : forall e p q es, p <> q -> es <> [] -> NoDup es -> forall fs t a, reach t a -> a_e a e = Some (true, (p, q)) -> path a p (fwd es) q -> Forall (live_e a) es ->
  NoDup fs -> (forall f, In f fs -> has_edge a f e) ->
  (forall f b, In f fs -> a_f a f = Some (true, Some b) -> (forall x, In x es -> ~ In x (map fst b)) /\ (length b + length es <= 33)%nat) ->
  exists t' a', foldM (fun t ef => fedir <- MF_EdgeDir t ef e ;; MF_Replace_Edges t ef [e] (if fedir =? 0 then rev es else es)) t fs = Ok t' /\ reach t' a' /\
    a_v a' = a_v a /\ a_e a' = a_e a /\ a_r a' = a_r a /\ a_next a' = a_next a /\
    forall f, a_f a' f = if mem f fs then on_bdry (refine e es) (a_f a f) else a_f a f.
Proof.
  intros e p q es Hpq HN ND. induction fs as [|f fs IH]; intros t a R He HP HL NF HF HB.
  - exists t, a. cbn. auto 10.
  - destruct (HF f (or_introl eq_refl)) as (b & Hb & Hi). destruct (HB f b (or_introl eq_refl) Hb) as [Ho Hlen].
    destruct (split_face t a f e p q es b R He Hpq HP HN ND HL Hb Hi Ho Hlen) as (d & t1 & E1 & E2 & R1). cbn [foldM]. rewrite E1. cbn [bind]. rewrite E2. cbn [bind].
    inversion NF as [|? ? Nf NF']; subst.
    assert (Oth : forall g, g <> f -> a_f (set_fb a f (refine e es b)) g = a_f a g). { intros g Hg. unfold set_fb. ra. rewrite upd_other; auto. }
    destruct (IH t1 _ R1) as (t' & a' & E3 & R' & A1 & A2 & A3 & A4 & A5); auto.
    + eapply path_ext; [|exact HP]. auto.
    + intros g Hg. unfold has_edge. rewrite Oth by congruence. apply HF. cbn; auto.
    + intros g c Hg. rewrite Oth by congruence. intros Hc. apply (HB g c); cbn; auto.
    + exists t', a'. split; auto. split; auto. split; auto. split; auto. split; auto. split; auto. intros g. rewrite A5. change (mem g (f :: fs)) with ((g =? f) || mem g fs). destruct (Z.eqb_spec g f) as [->|Hg].
      * replace (mem f fs) with false by (symmetry; apply not_true_iff_false; rewrite mem_In; auto). unfold set_fb. ra. rewrite upd_same, Hb. auto.
      * rewrite Oth by auto. auto.
Qed.

(** ** Element types *)

(** The type by the numbers of edges of the faces. *)
Definition cnt (k : nat) (ns : list nat) : nat := count_occ Nat.eq_dec ns k.
Definition etype (ns : list nat) : Z :=
  if (length ns <? 4)%nat then RUNKNOWN
  else if (length ns =? 4)%nat && (cnt 3 ns =? 4)%nat then TET
  else if (length ns =? 5)%nat && (cnt 3 ns =? 4)%nat && (cnt 4 ns =? 1)%nat then PYRAMID
  else if (length ns =? 5)%nat && (cnt 3 ns =? 2)%nat && (cnt 4 ns =? 3)%nat then PRISM
  else if (length ns =? 6)%nat && (cnt 4 ns =? 6)%nat then HEX else POLYHED.
(** The stored type of region [r] is the one of its faces. *)
Definition typed (t : topo) (r : ptr) : Prop := exists x l ns, trs t r = Some x /\ r_faces x = Some l /\
  Forall2 (fun f n => exists y es, tfs t f = Some y /\ f_edges y = Some es /\ length es = n) l ns /\ r_type x = etype ns.
Lemma filter_cnt : forall k ns, length (filter (fun n => n =? Z.of_nat k) (map Z.of_nat ns)) = cnt k ns.
Proof. induction ns as [|n ns IH]; cbn; auto. unfold cnt in *. cbn. destruct (Nat.eq_dec n k), (Z.eqb_spec (Z.of_nat n) (Z.of_nat k)); cbn; try lia. Qed.
Lemma forallb_cnt : forall k ns, forallb (fun n => n =? Z.of_nat k) (map Z.of_nat ns) = (cnt k ns =? length ns)%nat.
Proof.
  induction ns as [|n ns IH]; cbn; auto. unfold cnt in *. cbn. rewrite IH. pose proof (count_occ_bound Nat.eq_dec k ns). destruct (Nat.eq_dec n k), (Z.eqb_spec (Z.of_nat n) (Z.of_nat k)); cbn; lia.
Qed.
Lemma num_edges_list : forall t l, (forall f, In f l -> exists z, tfs t f = Some z /\ f_edges z <> None) ->
  exists ns, mapM (MF_Num_Edges t) l = Ok (map Z.of_nat ns) /\ Forall2 (fun f n => exists y es, tfs t f = Some y /\ f_edges y = Some es /\ length es = n) l ns.
Proof.
  induction l as [|f l IH]; intros H. exists []. cbn. auto. destruct IH as (ns & E & F). intros; apply H; cbn; auto. destruct (H f (or_introl eq_refl)) as (z & Hz & Hn). destruct (f_edges z) as [es|] eqn:Ee; [|congruence].
  exists (length es :: ns). split. cbn [mapM map]. unfold MF_Num_Edges at 1, getf. rewrite Hz. cbn [bind]. rewrite Ee. cbn [nn bind]. rewrite E. reflexivity. constructor; eauto.
Qed.
Lemma Forall2_len : forall A B (P : A -> B -> Prop) l m, Forall2 P l m -> length l = length m.
Proof. intros A B P l m H. induction H; cbn; auto. Qed.
Lemma upd_type_typed : forall t r x l, trs t r = Some x -> r_faces x = Some l -> (forall f, In f l -> exists z, tfs t f = Some z /\ f_edges z <> None) ->
  exists ns, MR_Update_ElementType t r = Ok (putr t r (Some (set_rtype x (etype ns)))) /\ Forall2 (fun f n => exists y es, tfs t f = Some y /\ f_edges y = Some es /\ length es = n) l ns.
Proof.
  intros t r x l Hx Hl HF. destruct (num_edges_list t l HF) as (ns & E & F). exists ns. split; auto. unfold MR_Update_ElementType, getr. rewrite Hx. cbn [bind]. rewrite Hl. cbn [nn bind]. rewrite E.
  assert (L : length l = length ns) by (eapply Forall2_len; eauto). rewrite L. cbn [bind].
  pose proof (forallb_cnt 3 ns) as F3. pose proof (forallb_cnt 4 ns) as F4. pose proof (filter_cnt 3 ns) as G3. pose proof (filter_cnt 4 ns) as G4. change (Z.of_nat 3) with 3 in *. change (Z.of_nat 4) with 4 in *.
  rewrite F3, F4, G3, G4. unfold etype. destruct (length ns) as [|[|[|[|[|[|[|n]]]]]]] eqn:EL; cbn [Nat.ltb Nat.leb Nat.eqb andb bind]; auto.
  destruct (Nat.eqb_spec (cnt 3 ns) 4), (Nat.eqb_spec (cnt 4 ns) 1), (Nat.eqb_spec (cnt 3 ns) 2), (Nat.eqb_spec (cnt 4 ns) 3); cbn [andb]; auto; lia.
Qed.
Lemma update_types : forall rs t a, reach t a -> (forall r, In r rs -> exists b, a_r a r = Some (true, Some b)) ->
  exists t', foldM MR_Update_ElementType t rs = Ok t' /\ reach t' a /\ tfs t' = tfs t /\ (forall r, In r rs \/ typed t r -> typed t' r).
Proof.
  induction rs as [|r rs IH]; intros t a R H.
  - exists t. cbn. split; auto. split; auto. split; auto. intros r [[]|Hr]; auto.
  - destruct (H r (or_introl eq_refl)) as (b & Hb). pose proof (reach_inv _ _ R) as I. destruct (inv_rfull _ _ _ _ _ I Hb) as (x & l & Hx & Lx & Hl & (EL & _) & _).
    destruct (upd_type_typed t r x l Hx Hl) as (ns & E & F).
    { intros f Hf. subst l. destruct (full_in a b f (w_rf _ (i_w _ _ I) _ _ Hb) Hf) as (c & Hc). rewrite <- (i_f _ _ I) in Hc. destruct (tfs t f) as [z|]; [|discriminate]. exists z. split; auto.
      cbn in Hc. unfold fview in Hc. destruct (f_edges z); discriminate. }
    destruct (reach_step t a (TUpdateType r) R) as (t1 & E1 & R1). { exists b. auto. } cbn [tstep astep] in *. assert (Et1 : t1 = putr t r (Some (set_rtype x (etype ns)))) by congruence.
    assert (T1 : forall r', r' = r \/ typed t r' -> typed t1 r').
    { intros r' Hr'. destruct (Z.eq_dec r' r) as [->|Nr].
      - subst t1. exists (set_rtype x (etype ns)), l, ns. ra. rewrite zupd_same. auto.
      - destruct Hr' as [|(x' & l' & ns' & H1 & H2 & H3 & H4)]; [contradiction|]. subst t1. exists x', l', ns'. ra. rewrite zupd_other by auto. auto. }
    destruct (IH t1 a R1) as (t' & E2 & R' & A1 & A2). { intros; apply H; cbn; auto. } exists t'. cbn [foldM]. rewrite E1. cbn [bind]. split; auto. split; auto. split. { rewrite A1. subst t1. auto. }
    intros r' [[<-|Hr]|Hr]; apply A2; auto.
Qed.

(** ** ME_MultiSplit *)
Lemma refine_path : forall a a' e es p q, path a' p (fwd es) q -> a_e a e = Some (true, (p, q)) -> (forall x y, a_e a x = Some (true, y) -> x <> e -> a_e a' x = Some (true, y)) ->
  forall b u w, path a u b w -> path a' u (refine e es b) w.
Proof.
  intros a a' e es p q HP He HK. induction b as [|[x d] b IH]; intros u w H; cbn [path refine flat_map] in *. auto. destruct H as (y & H1 & H2 & H3 & H4). cbn [fst snd].
  apply path_app. destruct (Z.eqb_spec x e) as [->|Hx].
  - rewrite He in H1. inversion H1; subst y. exists (d_end (p, q) d). split; [|apply IH; auto]. subst u. destruct d; cbn; auto. apply path_bwd; auto.
  - exists (d_end y d). split. cbn. exists y. auto. apply IH; auto.
Qed.
Lemma last_ne : forall (l : list ptr) x d d', last (x :: l) d = last (x :: l) d'.
Proof. induction l as [|y l IH]; intros; auto. cbn. apply IH. Qed.
Lemma chain_path : forall a vs es u, length es = length vs -> NoDup (u :: vs) -> (forall k, (k < length vs)%nat -> a_e a (nth k es NULL) = Some (true, (nth k (u :: vs) NULL, nth k vs NULL))) ->
  path a u (fwd es) (last vs u).
Proof.
  intros a vs es u. revert vs u. induction es as [|e es IH]; intros [|v vs] u L N H; cbn in L; try lia; cbn [fwd map path]. auto.
  exists (u, v). split. apply (H 0%nat). cbn. lia. cbn [fst snd]. split. { inversion N. intros ->. cbn in *. tauto. } split. auto.
  replace (last (v :: vs) u) with (last vs v). apply IH. lia. inversion N; auto. intros k Hk. apply (H (S k)). cbn. lia.
  destruct vs as [|v' vs]; auto. cbn [last]. apply (last_ne vs v').
Qed.
