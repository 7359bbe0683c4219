(** The steps of building faces and regions from vertices. *)
From Coq Require Import ZArith List Lia Bool Arith ZifyBool ZifyNat Permutation.
From Verif Require Import Base BaseProofs ListSpec HashProofs AttModel AttProps ParModel ParProps TopoModel TopoSpec TopoProofs TopoProofs2 TopoProofs3 TopoProofs4 TopoProofs5 TopoProofs6 TopoProofs7 TopoProps TopoProps2 TopoProps3 ModProofs ModProofs2 CellModel CellSpec CellProofs CellProofs2 CellProofs3 CellProofs4 CellProofs5 CellProofs6 BuildModel BuildProofs.
Import ListNotations.
Open Scope Z_scope.

(** Invariants of loops over a mesh: by the part of the list done so far. *)
Lemma thread_ind : forall A B (g : topo -> A -> result (topo * B)) (P : topo -> list A -> list B -> Prop) l t, P t [] [] ->
  (forall t done x rest ys, l = done ++ x :: rest -> P t done ys -> exists t' y, g t x = Ok (t', y) /\ P t' (done ++ [x]) (ys ++ [y])) ->
  exists t' ys, threadM g t l = Ok (t', ys) /\ P t' l ys.
Proof.
  intros A B g P l t H0 HS.
  assert (K : forall rest done t ys, l = done ++ rest -> P t done ys -> exists t' zs, threadM g t rest = Ok (t', zs) /\ P t' l (ys ++ zs)).
  { induction rest as [|x rest IH]; intros done t1 ys E HP; cbn [threadM]. rewrite app_nil_r in E. subst done. exists t1, []. rewrite app_nil_r. auto.
    destruct (HS t1 done x rest ys E HP) as (t2 & y & E2 & H2). rewrite E2. cbn [bind]. destruct (IH (done ++ [x]) t2 (ys ++ [y])) as (t3 & zs & E3 & H3); auto. rewrite <- app_assoc. auto. rewrite E3. cbn [bind]. exists t3, (y :: zs). split; auto. rewrite <- app_assoc in H3. auto. }
  destruct (K l [] t [] eq_refl H0) as (t' & zs & E & HP). eauto.
Qed.

(** A used entity as the arrays of the code hold it. *)
Definition zb (x : ptr * bool) : ptr * Z := (fst x, b2z (snd x)).
Lemma zb_fst : forall b, map fst (map zb b) = map fst b.
Proof. intros. rewrite map_map. auto. Qed.
Lemma zb_snd : forall b, map snd (map zb b) = dirz b.
Proof. intros. rewrite map_map. auto. Qed.

(** ** Edges *)
Lemma find_edge_ok : forall t a p q, reach t a -> live_v a p -> live_v a q -> p <> q -> exists t' a' x, find_edge t p q = Ok (t', zb x) /\ reach t' a' /\ grows a a' /\ a_f a' = a_f a /\ leads a' x p q /\
  (forall e, a_next a <= e -> a_e a' e <> None -> e = fst x) /\ (a_next a <= fst x -> forall e', ~ joins a e' p q).
Proof.
  intros t a p q R Hp Hq N. pose proof (reach_inv _ _ R) as I. destruct (common_edge t a p q R Hp N (live_nn _ _ _ I Hq)) as (e & E & K). unfold find_edge. rewrite E. cbn [bind]. destruct K as [(Ne & (u & w & He & K))|(-> & K)].
  - replace (e =? NULL) with false by (symmetry; apply Z.eqb_neq; auto). pose proof (vat_ok t a (e, true) I) as V. cbn [fst snd b2z] in V. change (lnot 1) with 0 in V. rewrite V by (exists (u, w); auto). cbn [bind]. unfold vat. cbn [fst snd]. rewrite He. cbn [d_start fst].
    exists t, a, (e, u =? p). split; auto. split; auto. split. apply grows_refl. split; auto. split.
    + exists (u, w). cbn [fst snd]. split; auto. destruct K as [(-> & ->)|(-> & ->)]. rewrite Z.eqb_refl. auto. replace (q =? p) with false by lia. auto.
    + split. intros g Hg HG. exfalso. apply (old_e t a R) in HG. lia. cbn [fst]. intros X. exfalso. assert (HG : a_e a e <> None) by congruence. apply (old_e t a R) in HG. lia.
  - rewrite Z.eqb_refl. destruct (new_edge_ok t a p q R Hp Hq) as (t1 & t2 & a' & E1 & E2 & E3 & R' & V1 & V2 & V3 & V4 & V5). destruct (ME_New t) as [t0 e0] eqn:E0. cbn [fst snd] in *. subst e0. rewrite E1. cbn [bind]. rewrite E2. cbn [bind].
    exists t2, a', (a_next a, true). split; auto. split; auto. split. { constructor; [auto|auto|lia|intros e He; rewrite V5; replace (e =? a_next a) with false by lia; auto|intros f _; rewrite V2; auto]. } split; auto. split.
    + exists (p, q). cbn [fst snd]. rewrite V5, Z.eqb_refl. auto.
    + cbn [fst]. split; auto. intros g Hg HG. rewrite V5 in HG. destruct (Z.eqb_spec g (a_next a)); auto. apply (old_e t a R) in HG. lia.
Qed.

(** ** Faces *)
Lemma first_face_ok : forall p (Q : ptr -> Prop) l, (forall f, In f l -> exists b, p f = Ok b /\ (b = true <-> Q f)) -> exists f, first_face p l = Ok f /\ ((f = NULL /\ forall g, In g l -> ~ Q g) \/ (In f l /\ Q f)).
Proof.
  induction l as [|g l IH]; intros H; cbn [first_face]. { exists NULL. split; [reflexivity|]. left. split; [reflexivity|]. intros g []. }
  destruct (H g) as (b & E & K). cbn; auto. rewrite E. cbn [bind]. destruct b. { exists g. split; auto. right. split. cbn; auto. apply K; auto. }
  destruct IH as (f & E2 & D). intros f Hf. apply H. cbn; auto. exists f. split; auto. destruct D as [(-> & D)|(D1 & D2)]; [left|right; cbn; auto]. split; auto. intros h [<-|Hh]; auto. intros X. apply K in X. discriminate.
Qed.
Lemma f_nn : forall t a f, reach t a -> a_f a f <> None -> f <> NULL.
Proof. intros t a f R H ->. apply (w_f _ (i_w _ _ (reach_inv _ _ R))) in H. unfold NULL in H. lia. Qed.
Lemma edges_common : forall t a es, reach t a -> es <> [] -> (forall e, In e es -> a_e a e <> None) -> exists f, MEs_CommonFace t es = Ok f /\
  ((f = NULL /\ forall g, ~ forall e, In e es -> has_edge a g e) \/ (f <> NULL /\ forall e, In e es -> has_edge a f e)).
Proof.
  intros t a es R NE HE. destruct es as [|e0 es]; [congruence|]. unfold MEs_CommonFace. rewrite rdl_ok by (cbn [length]; lia). cbn [bind nth tl]. change (Z.to_nat 0) with 0%nat. cbn [nth]. destruct (C26_edge_faces t a e0 R) as (o & E & A). apply HE; cbn; auto. rewrite E. cbn [bind].
  destruct o as [l|]; cbn [answers] in A.
  - destruct A as (_ & _ & A). destruct (first_face_ok (fun f => fe <- MF_Edges t f 1 NULL ;; Ok (forallb (fun e => mem e fe) es)) (fun f => forall e, In e es -> has_edge a f e) l) as (f & E1 & D).
    { intros f Hf. apply A in Hf. destruct Hf as (b & Hb & _). pose proof (face_edges_query t a f b true (reach_inv _ _ R) Hb) as Q. cbn [b2z walk] in Q. rewrite Q. cbn [bind]. eexists. split; [reflexivity|]. rewrite forallb_forall. split.
      intros K e He. apply K in He. apply mem_In in He. exists b. auto. intros K e He. apply mem_In. destruct (K e He) as (b' & Hb' & Hi). congruence. }
    rewrite E1. exists f. split; auto. destruct D as [(-> & D)|(D1 & D2)].
    + left. split; auto. intros g HG. assert (Hg : In g l) by (apply A; apply HG; cbn; auto). apply (D g Hg). intros e He. apply HG. cbn; auto.
    + right. apply A in D1. split. destruct D1 as (b & Hb & _). eapply f_nn; eauto. congruence. intros e [<-|He]; auto.
  - exists NULL. split; auto. left. split; auto. intros g HG. apply (A g). apply HG. cbn; auto.
Qed.
Lemma verts_common : forall t a vs, reach t a -> NoDup vs -> (2 < length vs)%nat -> Forall (live_v a) vs ->
  (forall f e, has_edge a f e -> joins a e (nth 0 vs NULL) (nth 1 vs NULL) -> good_face a f) -> exists f, MVs_CommonFace t (ZL vs) vs = Ok f /\
  (f = NULL \/ (f <> NULL /\ exists us, outward a (f, true) us /\ NoDup us /\ forall v, In v us <-> In v vs)).
Proof.
  intros t a vs R N L HL HG. pose proof (reach_inv _ _ R) as I. destruct vs as [|v0 [|v1 [|v2 vs']]]; cbn [length] in L; try lia. set (vs := v0 :: v1 :: v2 :: vs') in *. unfold MVs_CommonFace. rewrite !rdl_ok by (cbn [length vs]; lia). cbn [bind]. change (nth (Z.to_nat 0) vs 0) with v0. change (nth (Z.to_nat 1) vs 0) with v1.
  rewrite Forall_forall in HL. assert (L0 : live_v a v0) by (apply HL; cbn; auto). assert (L1 : live_v a v1) by (apply HL; cbn; auto).
  destruct (common_edge t a v0 v1 R L0) as (e & E & K). { intros ->. apply NoDup_cons_iff in N. apply N. cbn; auto. } { eapply live_nn; eauto. } rewrite E. cbn [bind]. destruct K as [(Ne & Hj)|(-> & _)]; [|exists NULL; split; auto].
  replace (e =? NULL) with false by (symmetry; apply Z.eqb_neq; auto). assert (He : a_e a e <> None) by (destruct Hj as (p & q & Hj & _); congruence). destruct (C26_edge_faces t a e R He) as (o & E1 & A). rewrite E1. cbn [bind]. destruct o as [l|]; [|exists NULL; auto]. destruct A as (_ & _ & A).
  edestruct (first_face_ok (fun f => nfv <- MF_Num_Edges t f ;; if negb (nfv =? ZL vs) then Ok false else fv <- MF_Vertices t f 1 NULL ;; ws <- mapM (lent fv) (zrange 0 (ZL vs)) ;; Ok (forallb (fun v => mem v vs) ws))
     (fun f => exists us, outward a (f, true) us /\ NoDup us /\ forall v, In v us <-> In v vs) l) as (f & E2 & D).
  - intros f Hf. apply A in Hf. destruct (HG f e Hf Hj) as (b & u & Hb & HP & HN). rewrite stops_vend in HN. destruct (C23_face_loop t a f b u true NULL R Hb HP) as (C & _ & _). destruct (C eq_refl) as (us & EU & _ & AR). cbn [walk b2z] in *.
    assert (OU : outward a (f, true) us) by (exists b, u, b; cbn [fst snd walk]; split; [auto|split; [auto|split; [apply rotation_refl|auto]]]).
    pose proof (closed_linked _ _ _ HP) as LK. assert (NB : b <> []). { destruct Hf as (b' & Hb' & Hi). rewrite Hb in Hb'. inversion Hb'; subst b'. intros ->. destruct Hi. }
    assert (NU : NoDup us). { rewrite (around_vat _ _ _ AR). eapply Permutation_NoDup; [|exact HN]. symmetry. apply (vats_perm a b true LK NB). }
    rewrite (face_num t a f true us R OU). cbn [bind]. destruct (ZL us =? ZL vs) eqn:EL; cbn [negb].
    + rewrite EU. cbn [bind]. apply Z.eqb_eq in EL. assert (LL : length us = length vs) by (unfold ZL in EL; lia).
      assert (EM : mapM (lent us) (zrange 0 (ZL vs)) = Ok us). { apply mapM_ext_ok. rewrite zrange_length. unfold ZL. lia. intros i d e' Hi. rewrite zrange_length in Hi. rewrite nth_zrange by auto. unfold lent. unfold ZL in Hi. replace (0 + Z.of_nat i <? 0) with false by lia. f_equal. replace (Z.to_nat (0 + Z.of_nat i)) with i by lia. apply nth_indep. lia. }
      rewrite EM. cbn [bind]. eexists. split; [reflexivity|]. rewrite forallb_forall. split.
      * intros K. exists us. split; auto. split; auto. assert (INC : incl us vs) by (intros v Hv; apply mem_In, K; auto). intros v. split; auto. apply (NoDup_length_incl NU); auto. lia.
      * intros (us' & O' & N' & S') v Hv. apply mem_In. apply S'. apply (outward_ends _ _ _ _ v O'). apply (outward_ends _ _ _ _ v OU). auto.
    + exists false. split; auto. split; [discriminate|]. intros (us' & O' & N' & S'). exfalso. assert (LL : length us' = length vs). { apply Nat.le_antisymm; apply NoDup_incl_length; auto; intros v; apply S'. } pose proof (face_num t a f true us' R O') as F1. rewrite (face_num t a f true us R OU) in F1. inversion F1. unfold ZL in *. lia.
  - rewrite E2. exists f. split; auto. destruct D as [(-> & _)|(D1 & D2)]; auto. right. split; auto. apply A in D1. destruct D1 as (b & Hb & _). eapply f_nn; eauto. congruence.
Qed.
(** The direction found for a face whose side is free. *)
Lemma old_dir_ok : forall t a f d vs v0 v1 zs, reach t a -> outward a (f, d) vs -> NoDup vs -> rotation vs (v0 :: v1 :: zs) -> zs <> [] -> v0 <> NULL -> (forall q, ~ has_face a q f d) -> old_dir t f v0 v1 1 = Ok (b2z d).
Proof.
  intros t a f d vs v0 v1 zs R HO N RT NZ N0 HF. pose proof (reach_inv _ _ R) as I. unfold old_dir. assert (Hf : a_f a f <> None) by (destruct HO as (fb & _ & _ & H & _); cbn [fst] in H; congruence).
  destruct (C26_face_regions t a f R Hf) as (l & E & (_ & A)). rewrite E. cbn [bind]. destruct l as [|q l].
  - assert (NR : NoDup (v0 :: v1 :: zs)) by (eapply rotation_NoDup; eauto). destruct (face_query_at t a f d vs true v0 R HO N) as (us & es & E1 & _ & RU & HD & _ & _); auto. { apply (Permutation_in _ (Permutation_sym (rotation_perm _ _ _ RT))). cbn; auto. } cbn [b2z] in E1. rewrite E1. cbn [bind].
    unfold lent. cbn [Z.ltb Z.compare bind]. change (Z.to_nat 1) with 1%nat. destruct d; cbn [Bool.eqb orient] in RU.
    + assert (EU : us = v0 :: v1 :: zs). { symmetry. apply rotation_unique; auto. eapply rotation_trans; [|exact RU]. apply rotation_sym; auto. } subst us. cbn [nth]. rewrite Z.eqb_refl. auto.
    + destruct (exists_last NZ) as (zs' & z & ->). assert (R2 : rotation (rev (v0 :: v1 :: zs' ++ [z])) (v0 :: z :: rev zs' ++ [v1])). { cbn [rev]. rewrite rev_app_distr. cbn [rev app]. exists (z :: rev zs' ++ [v1]), [v0]. split; auto. }
      assert (R3 : rotation (v0 :: z :: rev zs' ++ [v1]) us). { eapply rotation_trans; [apply rotation_sym; exact R2|]. eapply rotation_trans; [apply rotation_rev, rotation_sym; exact RT|exact RU]. }
      assert (EU : v0 :: z :: rev zs' ++ [v1] = us). { apply rotation_unique; auto. eapply rotation_NoDup; [exact R2|]. apply NoDup_rev. auto. } subst us. cbn [nth]. replace (v1 =? z) with false. auto. symmetry. apply Z.eqb_neq. intros ->. apply NoDup_cons_iff in NR. destruct NR as (_ & NR). apply NoDup_cons_iff in NR. apply NR. apply in_or_app. cbn; auto.
  - assert (HQ : exists d', has_face a q f d') by (apply A; cbn; auto). destruct HQ as (d' & b & Hb & Hi). assert (Nd : d' <> d) by (intros ->; apply (HF q); exists b; auto). apply in_split in Hi. destruct Hi as (b1 & b2 & ->). rewrite (face_dir_ok t a q b1 f d' b2 I Hb). cbn [bind]. rewrite dir_not. destruct d, d'; auto; congruence.
Qed.

(** ** Regions *)
Lemma set_faces_ok : forall t a r b, reach t a -> (a_r a r = Some (true, None) \/ a_r a r = Some (true, Some [])) -> NoDup (map fst b) -> (length b <= 512)%nat -> Forall (fun x => full_f a (fst x)) b -> (forall f d q, In (f, d) b -> has_face a q f d -> q = r) ->
  exists t' a', MR_Set_Faces t r (Z.of_nat (length b)) (map fst b) (dirz b) = Ok t' /\ reach t' a' /\ a_v a' = a_v a /\ a_e a' = a_e a /\ a_f a' = a_f a /\ a_next a' = a_next a /\ (forall q, a_r a' q = if q =? r then Some (true, Some b) else a_r a q) /\ typed t' r.
Proof.
  intros t a r b R Hr N L F S. assert (HP : tpre a (TSetFaces r b)) by (cbn [tpre]; auto). destruct (reach_step t a _ R HP) as (t' & E & R'). exists t', (astep a (TSetFaces r b)). split; [exact E|]. split; [exact R'|].
  assert (HQ : forall q, a_r (astep a (TSetFaces r b)) q = if q =? r then Some (true, Some b) else a_r a q). { intros q. cbn [astep]. unfold set_rb, upd. cbn [with_r a_r]. destruct (q =? r); auto. destruct Hr as [Hr|Hr]; rewrite Hr; auto. }
  split; [auto|]. split; [auto|]. split; [auto|]. split; [auto|]. split; [exact HQ|]. cbn [tstep] in E. unfold MR_Set_Faces in E. destruct (getr t r); try discriminate. cbn [bind] in E. destruct (_ <? 0); try discriminate. match type of E with bind ?m _ = _ => destruct m as [t1| | |]; try discriminate E end. cbn [bind] in E. eapply update_typed; eauto. rewrite HQ, Z.eqb_refl. auto.
Qed.
