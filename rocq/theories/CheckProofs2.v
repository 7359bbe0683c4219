(** Proofs about MESH_CheckTopo: meshes reached by the operations of the library. *)
From Coq Require Import ZArith List Lia Bool Arith ZifyBool ZifyNat.
From Verif Require Import Base BaseProofs ListSpec AttModel AttProps TopoModel TopoSpec TopoProofs TopoProofs2 TopoProofs3 TopoProofs5 TopoProofs6 TopoProofs7 TopoProps TopoProps2 ModProofs GenProofs4 ParModel ParProps CheckModel CheckSpec CheckProofs.
Import ListNotations.
Open Scope Z_scope.

Lemma foldM_keep : forall A (g : bool -> A -> result bool) l, (forall x, In x l -> g true x = Ok true) -> foldM g true l = Ok true.
Proof. induction l as [|x l IH]; intros H; cbn [foldM]; auto. rewrite H by (cbn; auto). cbn [bind]. apply IH. intros; apply H; cbn; auto. Qed.
Lemma nonempty : forall A (x : A) l, In x l -> match l with [] => None | y :: l0 => Some (y :: l0) end = Some l.
Proof. intros. destruct l; [destruct H|reflexivity]. Qed.

Section reached.
Variables (m : checked_mesh) (a : amesh).
Hypothesis I : inv (cm_t m) a.
Hypothesis LS : listed m a.
Let t := cm_t m.

Lemma acc_vertex : forall v, In v (cm_v m) -> fst (cm_c m v) <> 2 -> ck_vertex m true v = Ok true.
Proof using I LS.
  intros v Hv Hc. unfold ck_vertex. destruct (cm_ghost m v); auto. unfold MV_Edges, getv. pose proof (ls_v _ _ LS _ Hv) as V. unfold live_v in V. destruct (get_v _ _ v I ltac:(congruence)) as (x & Hx & _). rewrite Hx. cbn [bind].
  assert (G : ck_vedges (cm_t m) v true (v_edges x) = Ok true). { apply foldM_keep. intros e He. apply (i_uv _ _ I _ _ Hx) in He. destruct He as (v0 & v1 & He & Hvv). destruct (get_e _ _ e I ltac:(congruence)) as (y & Hy & Ay). rewrite He in Ay. unfold eview in Ay. injection Ay as _ E0 E1. subst v0 v1. unfold ME_Vertex, gete. rewrite Hy. cbn [bind]. change (0 =? 0) with true. change (1 =? 0) with false. change (1 =? 1) with true. cbv iota. cbn [bind]. destruct (Z.eqb_spec (e_v0 y) v); auto. destruct Hvv; [contradiction|]. subst. cbn [bind]. rewrite Z.eqb_refl. reflexivity. }
  destruct (v_edges x) as [|e l] eqn:El; auto. rewrite G. cbn [bind]. replace (fst (cm_c m v) =? 2) with false by lia. reflexivity.
Qed.

Lemma acc_edge : forall e, In e (cm_e m) -> fst (cm_c m e) <> 2 -> (cm_ghost m e = false -> forall v, is_end a e v -> fst (cm_c m v) <> 4 -> within (cm_c m v) (cm_c m e)) -> ck_edge m true e = Ok true.
Proof using I LS.
  intros e He Hc HW. unfold ck_edge. destruct (cm_ghost m e); auto. specialize (HW eq_refl). destruct (ls_e _ _ LS _ He) as (v0 & v1 & Ae & N0 & N1). destruct (w_ends _ (i_w _ _ I) _ _ _ Ae) as [L0 L1].
  destruct L0 as [?|L0]; [contradiction|]. destruct L1 as [?|L1]; [contradiction|]. destruct (get_e _ _ e I ltac:(congruence)) as (y & Hy & Ay). rewrite Ae in Ay. unfold eview in Ay. injection Ay as _ E0 E1. subst v0 v1.
  assert (G : forall i, i = 0 \/ i = 1 -> ck_end (cm_t m) (cm_c m) e true i = Ok (true, i)).
  { intros i Hi. unfold ck_end. set (v := if i =? 0 then e_v0 y else e_v1 y). assert (Ev : ME_Vertex (cm_t m) e i = Ok v). { unfold ME_Vertex, gete. rewrite Hy. cbn [bind]. destruct Hi; subst; reflexivity. } rewrite Ev. cbn [bind].
    assert (Hv : is_end a e v). { exists (e_v0 y), (e_v1 y). split; auto. unfold v. destruct (i =? 0); auto. } assert (Lv : live_v a v) by (unfold v; destruct (i =? 0); auto). unfold live_v in Lv. destruct (get_v _ _ v I ltac:(congruence)) as (x & Hx & _).
    unfold MV_Edges, getv. rewrite Hx. cbn [bind]. pose proof (proj2 (proj2 (i_uv _ _ I _ _ Hx) e) Hv) as Hin. rewrite (nonempty _ _ _ Hin). cbn [nn bind]. apply mem_In in Hin. rewrite Hin. rewrite andb_true_r. replace (fst (cm_c m e) =? 2) with false by lia.
    replace (ck_eclass (cm_c m e) (cm_c m v)) with true; auto. symmetry. unfold ck_eclass. destruct (Z.eqb_spec (fst (cm_c m v)) 4); auto. destruct (HW v Hv ltac:(auto)) as [W1 W2]. replace (fst (cm_c m e) <? fst (cm_c m v)) with false by lia. destruct (Z.eqb_spec (fst (cm_c m e)) (fst (cm_c m v))); auto. rewrite W2 by lia. rewrite Z.eqb_refl. reflexivity. }
  unfold ME_Vertex at 1, gete. rewrite Hy. cbn [bind]. change (0 =? 0) with true. cbn [bind ck_ends]. change (0 <? 2) with true. cbv iota. rewrite G by auto. cbn [bind]. change (0 + 1) with 1. change (1 <? 2) with true. cbv iota. rewrite G by auto. cbn [bind]. reflexivity.
Qed.

Lemma reg_dir_ok : forall r f d, has_face a r f d -> MR_FaceDir (cm_t m) r f = Ok (b2z d).
Proof using I.
  intros r f d (b & Hb & Hi). destruct (inv_rfull _ _ _ _ _ I Hb) as (y & l & Hy & _ & Hl & (-> & Cap & B) & N & _). unfold MR_FaceDir, getr. rewrite Hy. cbn [bind]. rewrite Hl. cbn [nn bind].
  apply in_split in Hi. destruct Hi as (b1 & b2 & ->). rewrite map_app in *. cbn [map fst] in *. rewrite index_of_app by (apply NoDup_remove_2 in N; rewrite in_app_iff in N; tauto). rewrite map_length. rewrite app_length in *. cbn [length] in *. rewrite fd_get_ok by lia. rewrite B by lia. rewrite app_nth2 by lia. rewrite Nat.sub_diag. reflexivity.
Qed.
Lemma acc_face : forall f, In f (cm_f m) -> (cm_ghost m f = false -> (forall e, has_edge a f e -> fst (cm_c m e) <> 4 -> fst (cm_c m f) <> 4 -> fst (cm_c m e) <= fst (cm_c m f)) /\
  (fst (cm_c m f) = 3 -> exists r r', has_face a r f true /\ has_face a r' f false)) -> ck_face m true f = Ok true.
Proof using I LS.
  intros f Hf HW. unfold ck_face. destruct (cm_ghost m f); auto. destruct (HW eq_refl) as [W1 W3]. clear HW. destruct (ls_f _ _ LS _ Hf) as [b Hb]. destruct (face_rep _ _ _ _ I Hb) as (x & l & Hx & Hl & (-> & L & B)).
  unfold MF_Edges, getf. rewrite Hx. cbn [bind]. rewrite Hl. cbn [nn bind]. change (NULL =? NULL) with true. change (1 =? 0) with false. cbv iota. cbn [bind].
  assert (G : ck_fedges (cm_t m) (cm_c m) f true (map fst b) = Ok true).
  { apply foldM_keep. intros e He. assert (HE : has_edge a f e) by (exists b; auto). pose proof (w_fe _ (i_w _ _ I) _ _ Hb) as F. rewrite Forall_forall in F. assert (LE : live_e a e). { apply in_map_iff in He. destruct He as (q & <- & Hq). apply F. auto. } destruct LE as [p Hp]. destruct (get_e _ _ e I ltac:(congruence)) as (y & Hy & _).
    unfold ME_Faces, gete. rewrite Hy. cbn [bind]. pose proof (proj2 (proj2 (i_ue _ _ I _ _ Hy) f) HE) as Hin. rewrite (nonempty _ _ _ Hin). cbn [nn bind]. apply mem_In in Hin. rewrite Hin. specialize (W1 e HE). f_equal. lia. }
  rewrite G. cbn [bind]. unfold MF_Regions, getf. rewrite Hx. cbn [bind]. destruct (Z.eqb_spec (f_r0 x) NULL) as [E0|E0]; [|pose proof (proj1 (proj1 (i_uf _ _ I _ _ Hx _ E0)) eq_refl) as R0]; (destruct (Z.eqb_spec (f_r1 x) NULL) as [E1|E1]; [|pose proof (proj1 (proj2 (i_uf _ _ I _ _ Hx _ E1)) eq_refl) as R1]); cbn [app].
  4: { rewrite (reg_dir_ok _ _ _ R0), (reg_dir_ok _ _ _ R1). cbn [bind]. destruct (fst (cm_c m f) =? 3); reflexivity. }
  all: destruct (Z.eqb_spec (fst (cm_c m f)) 3) as [C3|C3]; auto; exfalso; destruct (W3 C3) as (r & r' & H1 & H2); assert (Nz : forall q d, has_face a q f d -> q <> NULL) by (intros q d (bq & Hbq & _); pose proof (w_r _ (i_w _ _ I) q ltac:(congruence)); unfold NULL; lia); pose proof (proj2 (proj1 (i_uf _ _ I _ _ Hx r (Nz _ _ H1))) H1); pose proof (proj2 (proj2 (i_uf _ _ I _ _ Hx r' (Nz _ _ H2))) H2); pose proof (Nz _ _ H1); pose proof (Nz _ _ H2); congruence.
Qed.

Lemma face_dir_rg : forall y k, face_dir y k = rg (r_fdirs y) (Z.of_nat k).
Proof. intros. rewrite rg_nat. reflexivity. Qed.
Lemma acc_rfaces : forall r y b, a_r a r = Some (true, Some b) -> trs (cm_t m) r = Some y -> r_faces y = Some (map fst b) -> rrep (map fst b) (r_fdirs y) b ->
  exists ds, ck_rfaces (cm_t m) r true (map fst b) = Ok (true, ds) /\ ds = map (fun q => b2z (snd q)) b.
Proof using I.
  intros r y b Hb Hy Hl (_ & Cap & B). unfold ck_rfaces. destruct (foldM_up _ (fun k s => s = (true, map (fun q => b2z (snd q)) (firstn (Z.to_nat k) b))) (fun '(valid, dirs) i => rf <- lent (map fst b) i ;; d <- MR_FaceDir_i (cm_t m) r i ;; r' <- MF_Region (cm_t m) rf (lnot d) ;; Ok (valid && (r =? r'), dirs ++ [d])) 0 (ZL (map fst b)) (true, [])) as (s & E & P).
  - unfold ZL. lia.
  - reflexivity.
  - intros k s Hk ->. unfold ZL in Hk. rewrite map_length in Hk. set (q := nth (Z.to_nat k) b (NULL, true)). assert (Hq : In q b) by (apply nth_In; lia). pose proof (w_rf _ (i_w _ _ I) _ _ Hb) as F. rewrite Forall_forall in F. destruct (F _ Hq) as [kb Hkb]. destruct (get_f _ _ (fst q) I ltac:(congruence)) as (x & Hx & _).
    assert (El : lent (map fst b) k = Ok (fst q)). { unfold lent. replace (k <? 0) with false by lia. f_equal. change NULL with (fst (NULL, true)). rewrite map_nth. reflexivity. } cbv beta iota. rewrite El. cbn [bind]. unfold MR_FaceDir_i, getr. rewrite Hy. cbn [bind]. rewrite fd_get_ok by lia. cbn [bind]. assert (Bq : rg (r_fdirs y) k = snd q) by (unfold q; rewrite <- B by lia; rewrite Z2Nat.id by lia; reflexivity). rewrite Bq.
    unfold MF_Region, getf. rewrite Hx. cbn [bind]. assert (Hr : r <> NULL) by (pose proof (w_r _ (i_w _ _ I) r ltac:(congruence)); unfold NULL; lia). assert (Hf : has_face a r (fst q) (snd q)) by (exists b; split; auto; destruct q; auto). destruct (i_uf _ _ I _ _ Hx r Hr) as [U0 U1].
    assert (Er : (if lnot (b2z (snd q)) =? 0 then Ok (f_r0 x) else if lnot (b2z (snd q)) =? 1 then Ok (f_r1 x) else Undef) = Ok r). { destruct (snd q); cbn; f_equal. apply U0; auto. apply U1; auto. } rewrite Er. cbn [bind]. rewrite Z.eqb_refl. eexists. split; [reflexivity|]. cbn [andb]. f_equal.
    replace (Z.to_nat (k + 1)) with (S (Z.to_nat k)) by lia. assert (FS : forall i, (i < length b)%nat -> firstn (S i) b = firstn i b ++ [nth i b (NULL, true)]). { clear. intros i. revert i. induction b as [|z b IH]; intros i Hi; cbn in Hi; [lia|]. destruct i; cbn. reflexivity. f_equal. apply IH. lia. }
    rewrite FS by lia. rewrite map_app. reflexivity.
  - exists (snd s). split. rewrite E. subst s. reflexivity. subst s. cbn [snd]. unfold ZL. rewrite Nat2Z.id, map_length, firstn_all. reflexivity.
Qed.

(** The search for a neighbouring face finds the first one. *)
Lemma find_adj_ok : forall f e (b0 : list (ptr * bool)) h k, Forall (fun x => full_f a (fst x)) b0 -> (exists q : ptr * bool, In q b0 /\ fst q <> f /\ has_edge a (fst q) e) ->
  exists i q, nth_error b0 i = Some q /\ find_adj (cm_t m) f e h (Z.of_nat k) (map fst b0) = Ok (true, Z.of_nat (k + i), fst q) /\ fst q <> f /\ has_edge a (fst q) e.
Proof using I.
  induction b0 as [|p b0 IH]; intros h k F (q & Hq & Hn & He). destruct Hq. inversion F as [|? ? F1 F2]; subst. cbn [map find_adj]. replace (Z.of_nat k + 1) with (Z.of_nat (S k)) by lia.
  destruct F1 as [pb Hpb]. destruct (face_rep _ _ _ _ I Hpb) as (x & l & Hx & Hl & (-> & _)).
  assert (Eu : MF_UsesEdge (cm_t m) (fst p) e = Ok (mem e (map fst pb))). { unfold MF_UsesEdge, getf. rewrite Hx. cbn [bind]. rewrite Hl. reflexivity. }
  assert (G : (fst p = f \/ ~ has_edge a (fst p) e) -> exists i q0, nth_error (p :: b0) i = Some q0 /\ find_adj (cm_t m) f e (fst p) (Z.of_nat (S k)) (map fst b0) = Ok (true, Z.of_nat (k + i), fst q0) /\ fst q0 <> f /\ has_edge a (fst q0) e).
  { intros HH. destruct Hq as [->|Hq]. { destruct HH; [contradiction|]. contradiction. } destruct (IH (fst p) (S k) F2) as (i & q' & Q1 & Q2 & Q3). eauto. exists (S i), q'. split; auto. split; auto. rewrite Q2. replace (S k + i)%nat with (k + S i)%nat by lia. reflexivity. }
  destruct (Z.eqb_spec f (fst p)). { apply G. auto. } rewrite Eu. cbn [bind]. destruct (mem e (map fst pb)) eqn:Em.
  - apply mem_In in Em. exists 0%nat, p. split; auto. split. rewrite Nat.add_0_r; reflexivity. split; auto. exists pb. auto.
  - apply G. right. intros (b' & Hb' & Hi). assert (b' = pb) by congruence. subst. apply mem_In in Hi. congruence.
Qed.

Lemma acc_region : forall r, In r (cm_r m) -> (cm_ghost m r = false -> oriented a r /\ pairs a r) -> ck_region m true r = Ok true.
Proof using I LS.
  intros r Hr HW. unfold ck_region. destruct (cm_ghost m r); auto. destruct (HW eq_refl) as [O P]. clear HW. destruct (ls_r _ _ LS _ Hr) as [b Hb]. destruct (inv_rfull _ _ _ _ _ I Hb) as (y & l & Hy & _ & Hl & R & N & _). assert (El : l = map fst b) by apply R. subst l.
  unfold MR_Faces, getr. rewrite Hy. cbn [bind]. rewrite Hl. cbn [nn bind]. destruct (acc_rfaces _ _ _ Hb Hy Hl R) as (ds & E & ->). rewrite E. cbn [bind]. pose proof (w_rf _ (i_w _ _ I) _ _ Hb) as F. apply foldM_keep. intros i Hi. apply zrange_in in Hi. unfold ZL in Hi. rewrite map_length in Hi.
  set (q := nth (Z.to_nat i) b (NULL, true)). assert (Hq : In q b) by (apply nth_In; lia). destruct q as [f d] eqn:Eq. unfold q in Eq. clear q.
  assert (El : lent (map fst b) i = Ok f). { unfold lent. replace (i <? 0) with false by lia. f_equal. change NULL with (fst (NULL, true)). rewrite map_nth, Eq. reflexivity. } rewrite El. cbn [bind]. assert (FF : full_f a f) by (rewrite Forall_forall in F; apply (F _ Hq)). destruct FF as [k Hk]. destruct (face_rep _ _ _ _ I Hk) as (x & lx & Hx & Hlx & (-> & Lk & Bk)).
  unfold MF_Edges, getf. rewrite Hx. cbn [bind]. rewrite Hlx. cbn [nn bind]. change (NULL =? NULL) with true. change (1 =? 0) with false. cbv iota. cbn [bind]. apply foldM_keep. intros j Hj. apply zrange_in in Hj. unfold ZL in Hj. rewrite map_length in Hj.
  destruct (nth (Z.to_nat j) k (NULL, true)) as [e s] eqn:Ee. assert (He : In (e, s) k) by (rewrite <- Ee; apply nth_In; lia). unfold ck_redge. assert (El2 : lent (map fst k) j = Ok e). { unfold lent. replace (j <? 0) with false by lia. f_equal. change NULL with (fst (NULL, true)). rewrite map_nth, Ee. reflexivity. } rewrite El2. cbn [bind].
  unfold MF_EdgeDir_i, getf. rewrite Hx. cbn [bind]. rewrite bit64_ok by lia. cbn [bind]. rewrite <- (Z2Nat.id j) by lia. rewrite Bk by lia. rewrite Ee. cbn [snd].
  destruct (O b f d e s Hb Hq (ex_intro _ k (conj Hk He))) as (g & d' & s' & Hg & Ng & (kg & Hkg & Heg) & X).
  assert (HEf : has_edge a f e) by (exists k; split; auto; apply in_map_iff; exists (e, s); auto). assert (HEg : has_edge a g e) by (exists kg; split; auto; apply in_map_iff; exists (e, s'); auto).
  destruct (find_adj_ok f e b NULL 0 F) as (n & q & Q1 & Q2 & Q3 & Q4). { exists (g, d'). auto. } change (Z.of_nat 0) with 0 in Q2. cbn [Nat.add] in Q2. rewrite Q2. cbn [bind]. apply nth_error_split in Q1. destruct Q1 as (b1 & b2 & Eb & Ln).
  assert (Hqb : In q b) by (rewrite Eb; apply in_or_app; right; left; auto). assert (fst q = g). { apply (P b e f (fst q) g Hb (in_map fst _ _ Hq) (in_map fst _ _ Hqb) (in_map fst _ _ Hg)); auto. }
  assert (Ed : snd q = d'). { assert (Hq' : In q b) by (rewrite Eb; apply in_or_app; right; left; auto). destruct q as [g' d2]. cbn [fst snd] in *. subst g'. apply in_split in Hg. destruct Hg as (c1 & c2 & Ec). rewrite Ec in N. rewrite map_app in N. cbn [map fst] in N. apply NoDup_remove_2 in N. rewrite Ec in Hq'. apply in_app_or in Hq'. destruct Hq' as [Hq'|[Hq'|Hq']]; [|congruence|]; exfalso; apply N; apply in_or_app; [left|right]; apply in_map_iff; exists (g, d2); auto. }
  rewrite H. apply in_split in Heg. destruct Heg as (k1 & k2 & ->). rewrite (edge_dir_ok _ _ _ _ _ _ _ I Hkg). cbn [bind]. unfold rdl. rewrite map_length. replace ((0 <=? i) && (i <? Z.of_nat (length b))) with true by lia. cbn [bind]. assert (Hn : (n < length b)%nat) by (rewrite Eb, app_length; cbn; lia). replace ((0 <=? Z.of_nat n) && (Z.of_nat n <? Z.of_nat (length b))) with true by lia. cbn [bind].
  change 0 with (b2z (snd (NULL, false))). rewrite !map_nth with (f := fun q => b2z (snd q)). rewrite (nth_indep b _ (NULL, true)) by lia. rewrite Eq. rewrite Nat2Z.id. replace (nth n b (NULL, false)) with q. 2: { rewrite Eb, app_nth2 by lia. rewrite Ln, Nat.sub_diag. reflexivity. }
  rewrite Ed. cbn [snd]. destruct s, s', d, d'; cbn in *; try reflexivity; congruence.
Qed.
End reached.
