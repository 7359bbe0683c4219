(** The invariant under direction changes, replacement of faces, deletion and
    restoration of regions; histories. *)
From Coq Require Import ZArith List Lia Bool Arith ZifyBool ZifyNat.
From Verif Require Import Base BaseProofs ListSpec ParModel ParProps AttModel AttProps TopoModel TopoSpec TopoProofs TopoProofs2 TopoProofs3 TopoProofs4 TopoProofs5.
Import ListNotations.
Open Scope Z_scope.

Lemma regions_mem : forall s f r z, tfs s f = Some z -> r <> NULL -> exists rs, MF_Regions s f = Ok rs /\ (mem r rs = true <-> slot z true = r \/ slot z false = r).
Proof.
  intros s f r z H Hr. unfold MF_Regions, getf. rewrite H. cbn [bind]. eexists. split; eauto. rewrite mem_In, in_app_iff. cbn [slot].
  destruct (Z.eqb_spec (f_r0 z) NULL), (Z.eqb_spec (f_r1 z) NULL); cbn; intuition congruence.
Qed.

(** One direction set; [t] is the state the sides are compared with. *)
Lemma setdir_ok : forall t s r B x l f i d z, side t s r B -> trs s r = Some x -> r_faces x = Some l -> 0 <= i < 512 -> i < cap (r_fdirs x) -> nth (Z.to_nat i) l NULL = f ->
  tfs t f = Some z -> r <> NULL -> (slot z d = NULL \/ slot z d = r) -> ~ (B f true /\ B f false) ->
  exists s' w', MR_Set_FaceDir_i s r i (b2z d) = Ok s' /\ tvs s' = tvs s /\ tes s' = tes s /\ tnext s' = tnext s /\
    trs s' = zupd (trs s) r (Some (set_rfaces x w' l)) /\ length w' = length (r_fdirs x) /\
    (forall m, 0 <= m < cap (r_fdirs x) -> rg w' m = if m =? i then d else rg (r_fdirs x) m) /\
    side t s' r (fun f' d' => (B f' d' /\ f' <> f) \/ (f' = f /\ d' = d)).
Proof.
  intros t s r B x l f i d z SD Hx Hl Hi Hc Hf Hz Hr Hs HB. unfold MR_Set_FaceDir_i, getr. rewrite Hx. cbn [bind]. replace (512 <=? i) with false by lia.
  destruct (fd_set_ok (r_fdirs x) i d) as (w1 & w & E1 & E2 & Lw & Bw); [lia|]. rewrite E1. cbn [bind]. rewrite E2. cbn [bind]. rewrite Hl. cbn [nn bind].
  unfold lent. replace (i <? 0) with false by lia. cbn [bind]. rewrite Hf.
  set (s0 := putr s r (Some (set_rfaces x w l))). assert (SD0 : side t s0 r B) by (eapply side_tfs; eauto; auto).
  pose proof (SD0 f) as SF. rewrite Hz in SF. destruct (tfs s0 f) as [z'|] eqn:Ez; [|tauto]. destruct SF as (F1 & F2 & F3).
  destruct (regions_mem s0 f r z' Ez Hr) as (rs & Ers & Hm). rewrite Ers. cbn [bind].
  assert (K : exists s1, (if mem r rs then MF_Rem_Region s0 f r else Ok s0) = Ok s1 /\ fsame s0 s1 /\ side t s1 r (fun f' d' => B f' d' /\ f' <> f)).
  { destruct (mem r rs) eqn:Em.
    - eapply rem_region_ok; eauto.
    - exists s0. split; auto. split. apply fsame_refl. eapply side_ext; eauto. intros g e. split; [|tauto]. intros HH. split; auto. intros ->.
      assert (false = true); [|discriminate]. apply Hm. apply F3 in HH. destruct e; auto. }
  destruct K as (s1 & Es1 & S1 & SD1). rewrite Es1. cbn [bind].
  destruct (add_region_ok t s1 r _ f d z SD1 Hz Hr Hs) as (s2 & Es2 & S2 & SD2). rewrite Es2.
  destruct (fsame_trans _ _ _ S1 S2) as (T1 & T2 & T3 & T4). exists s2, w. repeat (split; [auto|]). exact SD2.
Qed.

Lemma point_none : forall f d b, ~ In f (map fst b) -> point f d b = b.
Proof. intros f d b. unfold point. induction b as [|[g e] b IH]; cbn; intros H; auto. replace (g =? f) with false by lia. rewrite IH; tauto. Qed.
Lemma point_mid : forall b1 f d' d b2, NoDup (map fst (b1 ++ (f, d) :: b2)) -> point f d' (b1 ++ (f, d) :: b2) = b1 ++ (f, d') :: b2.
Proof.
  intros b1 f d' d b2 N. unfold point. rewrite map_app. cbn. rewrite Z.eqb_refl. rewrite map_app in N. cbn in N. apply NoDup_remove_2 in N. rewrite in_app_iff in N.
  f_equal; [|f_equal]; apply point_none; tauto.
Qed.
Lemma nth_map_mid : forall (b1 b2 : list (ptr * bool)) q, nth (length b1) (map fst (b1 ++ q :: b2)) NULL = fst q.
Proof. intros. rewrite map_app. cbn [map]. rewrite app_nth2; rewrite map_length; [|lia]. rewrite Nat.sub_diag. auto. Qed.
(** Words after one bit is set. *)
Lemma rrep_bit : forall l w w' b1 f d d' b2, rrep l w (b1 ++ (f, d) :: b2) -> length w' = length w ->
  (forall m, 0 <= m < cap w -> rg w' m = if m =? Z.of_nat (length b1) then d' else rg w m) -> rrep l w' (b1 ++ (f, d') :: b2).
Proof.
  intros l w w' b1 f d d' b2 (-> & L & B) Lw H. split; [|split].
  - rewrite !map_app. auto.
  - unfold cap in *. rewrite Lw. rewrite app_length in *. auto.
  - intros m. rewrite app_length. cbn [length]. intros Hm. specialize (B m). rewrite app_length in *. cbn [length] in *. specialize (B Hm). rewrite H by lia. rewrite nth_mid in *.
    destruct (Z.eqb_spec (Z.of_nat m) (Z.of_nat (length b1))); destruct (Nat.eqb_spec m (length b1)); try lia; auto.
Qed.

Lemma step_set_face_dir : forall t a r f d, inv t a -> tpre a (TSetFaceDir r f d) ->
  exists t', tstep t (TSetFaceDir r f d) = Ok t' /\ inv t' (astep a (TSetFaceDir r f d)).
Proof.
  intros t a r f d I ((b & Hb) & HS). destruct (inv_rfull _ _ _ _ _ I Hb) as (x & l & Ex & Lx & El & R & N & L). pose proof (i_w _ _ I) as W.
  assert (Nr : r <> NULL) by (eapply r_nonnull; eauto; congruence).
  cbn [tstep astep]. unfold MR_Set_FaceDir, getr. rewrite Ex. cbn [bind]. rewrite El. cbn [nn bind].
  assert (Efb : rbdry a r = b) by (unfold rbdry; rewrite Hb; auto). rewrite Efb. clear Efb.
  pose proof R as (El' & RL & _). replace (index_of f l) with (index_of f (map fst b)) by congruence. destruct (index_of f (map fst b)) as [k|] eqn:Ek.
  - destruct (index_vw _ _ _ Ek) as (b1 & d0 & b2 & E & Hk & Nk). subst b k. rewrite app_length in L, RL. cbn [length] in L, RL.
    destruct (full_some t a f I) as [z Hz]. { eapply full_in. apply (w_rf _ W _ _ Hb). rewrite map_app, in_app_iff. cbn. auto. }
    destruct (setdir_ok t t r (has_face a r) x l f (Z.of_nat (length b1)) d z) as (s' & w' & E1 & T1 & T2 & T3 & T4 & Lw & Bw & SD); auto; try lia.
    { apply (side_refl t a r I Nr). }
    { rewrite Nat2Z.id, El'. apply (nth_map_mid b1 b2 (f, d0)). }
    { eapply slot_free; eauto. intros q Hq. eapply HS; eauto. cbn; auto. }
    { rewrite !(has_face_eq _ _ _ Hb). apply slot_one. auto. }
    rewrite E1. exists s'. split; auto. rewrite point_mid by auto.
    eapply inv_rb with (x' := set_rfaces x w' l); eauto.
    + eexists. split; [reflexivity|]. eapply rrep_bit; eauto.
    + intros p. rewrite T4. auto.
    + pose proof (w_rf _ W _ _ Hb) as HF. rewrite Forall_forall in *. intros q Hq. rewrite in_app_iff in Hq. cbn in Hq. destruct Hq as [Hq|[<-|Hq]].
      apply HF; rewrite in_app_iff; auto. apply (HF (f, d0)). rewrite in_app_iff. cbn. auto. apply HF; rewrite in_app_iff; cbn; auto.
    + rewrite map_app in *. auto.
    + unfold maxrf. rewrite app_length in *. cbn [length] in *. lia.
    + intros g d'. cbn beta. rewrite (has_face_eq _ _ _ Hb). change f with (fst (f, d0)) at 1. rewrite <- (In_mid b1 b2 (f, d0)) by auto. rewrite !in_app_iff. cbn [In].
      split; [intros [[HH|HH]|[-> ->]]|intros [HH|[HH|HH]]]; auto. inversion HH; auto.
  - exists t. split; auto. rewrite point_none by (apply index_of_none; auto). eapply inv_ext; [|eauto]. apply aeq_set_rb. auto.
Qed.

(** ** Deletion and restoration *)
Lemma rem_regions_ok : forall l t s r B, side t s r B -> r <> NULL -> (forall f, In f l -> tfs t f <> None) -> (forall f, ~ (B f true /\ B f false)) ->
  exists s', foldM (fun t f => MF_Rem_Region t f r) s l = Ok s' /\ fsame s s' /\ side t s' r (fun f d => B f d /\ ~ In f l).
Proof.
  induction l as [|f l IH]; intros t s r B SD Hr HT HB; cbn [foldM].
  - exists s. split; auto. split. apply fsame_refl. eapply side_ext; eauto. cbn. tauto.
  - destruct (some_ex _ (tfs t f)) as [z Hz]. apply HT; cbn; auto. destruct (rem_region_ok t s r B f z SD Hz Hr (HB f)) as (s1 & E1 & S1 & SD1).
    rewrite E1. cbn [bind]. destruct (IH t s1 r _ SD1 Hr) as (s2 & E2 & S2 & SD2).
    + intros g Hg. apply HT; cbn; auto.
    + intros g. specialize (HB g). tauto.
    + exists s2. split; auto. split. eapply fsame_trans; eauto. eapply side_ext; eauto. cbn. intros g d. intuition.
Qed.
Lemma step_del_r : forall t a r k, inv t a -> tpre a (TDelR r k) ->
  exists t', tstep t (TDelR r k) = Ok t' /\ inv t' (astep a (TDelR r k)).
Proof.
  intros t a r k I Hr. cbn [tpre] in Hr. destruct (get_r t a r I Hr) as (x & Ex & Ax). pose proof (i_w _ _ I) as W.
  assert (Nr : r <> NULL) by (eapply r_nonnull; eauto).
  cbn [tstep astep]. unfold MR_Delete, getr. rewrite Ex. cbn [bind]. unfold kill.
  set (o := if k then Some (mkR false (r_fdirs x) (r_faces x) (r_type x)) else None).
  assert (Eo : (if k then match a_r a r with Some (_, y) => Some (false, y) | None => None end else None) = option_map rview o).
  { rewrite Ax. unfold o, rview. destruct k; auto. }
  rewrite Eo.
  assert (Wn : wfa (with_r a (upd (a_r a) r (option_map rview o)))).
  { apply wfa_r; auto.
    - intros b. unfold o, rview. destruct k; cbn; discriminate.
    - intros l b. unfold o. destruct k; cbn; [|discriminate]. intros Hl. unfold rview in Hl. cbn in Hl. inversion Hl; subst. apply (w_rnd _ W r (r_live x)). rewrite Ax. unfold rview. congruence. }
  assert (Fin : forall s B, fsame t s -> side t s r B -> (forall f d, ~ B f d) ->
    exists t', (if k then Ok (putr s r (Some (mkR false (r_fdirs x) (r_faces x) (r_type x)))) else Ok (putr s r None)) = Ok t' /\
      inv t' (with_r a (upd (a_r a) r (option_map rview o)))).
  { intros s B (S1 & S2 & S3 & S4) SD HB. exists (putr s r o). split. unfold o. destruct k; auto.
    eapply inv_r with (B := B); eauto; ra; auto.
    - congruence.
    - unfold o. intros y l Hy Hl. destruct k; [|discriminate]. inversion Hy; subst y. cbn in Hl |- *. apply (i_s _ _ I _ _ _ Ex Hl).
    - intros p. rewrite S3. auto.
    - intros f d. split; intros H; exfalso. eapply HB; eauto. destruct H as (b & Hb & _). revert Hb. ra. rewrite upd_same. unfold o, rview. destruct k; cbn; discriminate. }
  unfold rview in Ax. destruct (r_live x) eqn:Lx; [destruct (r_faces x) as [l|] eqn:El|].
  - cbn in Ax. destruct (rem_regions_ok l t t r (has_face a r)) as (s & Es & S1 & SD); auto.
    + apply (side_refl t a r I Nr).
    + intros f Hf. destruct (full_some t a f I) as [z Hz]; [|congruence]. eapply full_in. apply (w_rf _ W _ _ Ax). rewrite vw_fst. auto.
    + intros f. rewrite !(has_face_eq _ _ _ Ax). apply slot_one. apply (w_rnd _ W _ _ _ Ax).
    + rewrite Es. cbn [bind]. eapply Fin; eauto. intros f d [HH Hn]. apply Hn. apply (has_face_eq _ _ _ Ax) in HH. apply (in_map fst) in HH. rewrite vw_fst in HH. auto.
  - cbn [bind]. eapply Fin. apply fsame_refl. apply (side_refl t a r I Nr). intros f d (c & Hc & HI). rewrite Ax in Hc. discriminate.
  - cbn [bind]. eapply Fin. apply fsame_refl. apply (side_refl t a r I Nr). intros f d (c & Hc & HI). rewrite Ax in Hc. discriminate.
Qed.

Lemma step_res_r : forall t a r, inv t a -> tpre a (TResR r) ->
  exists t', tstep t (TResR r) = Ok t' /\ inv t' (astep a (TResR r)).
Proof.
  intros t a r I (b & Hb & HF & HS). destruct (inv_rfull _ _ _ _ _ I Hb) as (x & l & Ex & Lx & El & R & N & L). pose proof (i_w _ _ I) as W.
  assert (Nr : r <> NULL) by (eapply r_nonnull; eauto; congruence).
  cbn [tstep astep]. unfold MR_Restore, getr. rewrite Ex. cbn [bind]. rewrite El. cbn [nn bind]. unfold revive. rewrite Hb.
  set (x' := mkR true (r_fdirs x) (Some l) (r_type x)). set (t0 := putr t r (Some x')).
  destruct (foldM_up topo (fun k s => fsame t0 s /\ side t s r (fun f d => In (f, d) (firstn (Z.to_nat k) b)))
     (fun t i => f <- lent l i ;; d <- fd_get (r_fdirs x) i ;; MF_Add_Region t f r (lnot d)) 0 (ZL l) t0) as (t' & Et & (S1 & S2 & S3 & S4) & SD).
  - unfold ZL; lia.
  - split. apply fsame_refl. eapply side_ext. eapply side_tfs; [|apply (side_refl t a r I Nr)]. auto. intros f d. split; intros HH; exfalso; [|exact HH].
    destruct HH as (c & Hc & _). congruence.
  - intros k s Hk (S0 & SD). rewrite (rrep_len _ _ _ R) in Hk. unfold lent. replace (k <? 0) with false by lia. cbn [bind].
    assert (Eg := rrep_get _ _ _ (Z.to_nat k) R ltac:(lia)). rewrite Z2Nat.id in Eg by lia. rewrite Eg. cbn [bind]. pose proof R as (El' & _). rewrite El'.
    set (q := nth (Z.to_nat k) b (NULL, true)). rewrite (nth_indep _ NULL (fst (NULL, true))) by (rewrite map_length; lia). rewrite (map_nth fst). fold q.
    assert (Hq : In q b) by (apply nth_In; lia).
    destruct (full_some t a (fst q) I) as [z Hz]. { rewrite Forall_forall in HF. apply HF. auto. }
    destruct (add_region_ok t s r _ (fst q) (snd q) z SD Hz Nr) as (s' & E1 & S1 & SD1).
    { eapply slot_free; eauto. intros q' Hq'. eapply HS; eauto. destruct q; auto. }
    exists s'. split; auto. split. eapply fsame_trans; eauto. replace (Z.to_nat (k + 1)) with (S (Z.to_nat k)) by lia. rewrite (firstn_S_nth _ _ _ (NULL, true)) by lia. fold q.
    eapply side_ext; eauto. intros f d. cbn beta. rewrite in_app_iff. cbn [In]. destruct q as [q1 q2]; cbn [fst snd]. split; intros [HH|HH]; auto. destruct HH as [-> ->]; auto. destruct HH as [HH|[]]; inversion HH; auto.
  - rewrite Et. exists t'. split; auto. rewrite (rrep_len _ _ _ R), Nat2Z.id, firstn_all in SD.
    replace (Some (true, Some b)) with (option_map rview (Some x')). 2:{ cbn. unfold rview, x'. cbn. do 3 f_equal. apply rrep_vw. auto. }
    assert (Ev : rview x' = (true, Some b)). { unfold rview, x'. cbn. do 2 f_equal. apply rrep_vw. auto. }
    eapply inv_r; eauto.
    + congruence.
    + intros y l' Hy Hl'. inversion Hy; subst y. cbn in Hl' |- *. inversion Hl'; subst. apply (i_s _ _ I _ _ _ Ex El).
    + intros p. rewrite S3. auto.
    + apply wfa_r; auto. congruence.
      * intros c Hc. cbn in Hc. rewrite Ev in Hc. inversion Hc; subst. auto.
      * intros q c Hc. cbn in Hc. rewrite Ev in Hc. inversion Hc; subst. apply (w_rnd _ W _ _ _ Hb).
    + intros f d. cbn beta. unfold has_face. ra. rewrite upd_same. cbn. rewrite Ev. split; eauto. intros (c & Hc & HI). inversion Hc; subst. auto.
Qed.

(** ** MR_Replace_Faces *)

(** State [s] in the middle of the work on region [r], whose boundary is now [b]. *)
Record mid (t : topo) (r : ptr) (x : rrec) (W : nat) (s : topo) (b : bdry) : Prop := mkmid {
  m_v : tvs s = tvs t; m_e : tes s = tes t; m_n : tnext s = tnext t;
  m_r : exists l w, (forall p, trs s p = zupd (trs t) r (Some (set_rfaces x w l)) p) /\ rrep l w b /\ length w = W;
  m_s : side t s r (fun f d => In (f, d) b);
  m_nd : NoDup (map fst b) }.

Lemma foldM_id : forall A B (g : A -> B -> result A) l a, (forall b, In b l -> g a b = Ok a) -> foldM g a l = Ok a.
Proof. induction l as [|b l IH]; intros a H; cbn [foldM]; auto. rewrite H by (cbn; auto). cbn [bind]. apply IH. intros. apply H. cbn. auto. Qed.
Lemma zrange_in : forall a b i, In i (zrange a b) -> a <= i < b.
Proof. intros a b i. unfold zrange. rewrite in_map_iff. intros (n & <- & H). apply in_seq in H. lia. Qed.
Lemma zrange_one : forall k, zrange k (k + 1) = [k].
Proof. intros. unfold zrange. replace (Z.to_nat (k + 1 - k)) with 1%nat by lia. cbn. f_equal. lia. Qed.
Lemma subst1_none : forall f n b, ~ In f (map fst b) -> subst1 f n b = b.
Proof. intros f d b. unfold subst1. induction b as [|[g e] b IH]; cbn; intros H; auto. replace (g =? f) with false by lia. rewrite IH; tauto. Qed.
Lemma subst1_mid : forall b1 f n d b2, NoDup (map fst (b1 ++ (f, d) :: b2)) -> subst1 f n (b1 ++ (f, d) :: b2) = b1 ++ n :: b2.
Proof.
  intros b1 f d' d b2 N. unfold subst1. rewrite map_app. cbn. rewrite Z.eqb_refl. rewrite map_app in N. cbn in N. apply NoDup_remove_2 in N. rewrite in_app_iff in N.
  f_equal; [|f_equal]; apply subst1_none; tauto.
Qed.
Lemma nth_other : forall (b1 b2 : bdry) f m, ~ In f (map fst b1) -> ~ In f (map fst b2) -> (m < length b1 + S (length b2))%nat -> m <> length b1 ->
  forall q, nth m (map fst (b1 ++ q :: b2)) NULL <> f.
Proof.
  intros b1 b2 f m H1 H2 Hm Hn q E. subst f. rewrite map_app in *. cbn [map] in *. destruct (Nat.lt_ge_cases m (length b1)) as [H|H].
  - apply H1. rewrite app_nth1 by (rewrite map_length; lia). apply nth_In. rewrite map_length; lia.
  - apply H2. rewrite app_nth2 by (rewrite map_length; lia). rewrite map_length. destruct (m - length b1)%nat as [|k] eqn:Ek; [lia|]. cbn [nth]. apply nth_In. rewrite map_length; lia.
Qed.

Lemma repl_old_ok : forall t r x W s b1 f d0 b2 n z nus nud kf, mid t r x W s (b1 ++ (f, d0) :: b2) -> r <> NULL -> (length b1 < 512)%nat ->
  0 <= kf < ZL nus -> rdl nus kf = Ok (fst n) -> rdl nud kf = Ok (b2z (snd n)) -> tfs t (fst n) = Some z -> (slot z (snd n) = NULL \/ slot z (snd n) = r) ->
  tfs t f <> None -> ~ In (fst n) (map fst (b1 ++ (f, d0) :: b2)) ->
  exists s', repl_old s r f (Z.of_nat (length (b1 ++ (f, d0) :: b2))) nus nud kf = Ok (s', kf + 1) /\ mid t r x W s' (b1 ++ n :: b2).
Proof.
  intros t r x W s b1 f d0 b2 [n dn] z nus nud kf [M1 M2 M3 (l & w & M4 & R & Lw) M5 N] Hr H512 Hkf Hn1 Hn2 Hz Hs Hf Hnn. cbn [fst snd] in *.
  assert (Nx : ~ In f (map fst b1) /\ ~ In f (map fst b2)).
  { rewrite map_app in N. cbn in N. apply NoDup_remove_2 in N. rewrite in_app_iff in N. tauto. }
  destruct Nx as [Nx1 Nx2].
  assert (Nfn : n <> f). { intros ->. apply Hnn. rewrite map_app, in_app_iff. cbn. auto. }
  assert (Ex : trs s r = Some (set_rfaces x w l)) by (rewrite M4; apply zupd_same).
  pose proof R as (El & Lb & _). rewrite app_length in Lb. cbn [length] in Lb.
  assert (F1 : forall i, 0 <= i < Z.of_nat (length b1 + S (length b2)) -> i <> Z.of_nat (length b1) -> forall q, (nth (Z.to_nat i) (map fst (b1 ++ q :: b2)) NULL =? f) = false).
  { intros i Hi Hne q. apply Z.eqb_neq. apply nth_other; auto; lia. }
  unfold repl_old. rewrite app_length. cbn [length].
  rewrite (zrange_app 0 (Z.of_nat (length b1)) (Z.of_nat (length b1 + S (length b2)))) by lia.
  rewrite (zrange_app (Z.of_nat (length b1)) (Z.of_nat (length b1) + 1) (Z.of_nat (length b1 + S (length b2)))) by lia. rewrite zrange_one.
  rewrite foldM_app. rewrite foldM_id.
  2:{ intros i Hi. apply zrange_in in Hi. unfold getr. rewrite Ex. cbn [bind set_rfaces r_faces nn]. unfold lent. replace (i <? 0) with false by lia. cbn [bind]. rewrite El. rewrite F1; auto; lia. }
  cbn [bind app foldM]. unfold getr. rewrite Ex. cbn [bind set_rfaces r_faces r_fdirs nn]. unfold lent at 1. replace (Z.of_nat (length b1) <? 0) with false by lia. cbn [bind]. rewrite Nat2Z.id, El, nth_map_mid.
  cbn [fst]. rewrite Z.eqb_refl. replace (kf <? ZL nus) with true by lia. rewrite Hn1, Hn2. cbn [bind].
  match goal with |- context [MR_Set_FaceDir_i ?u r _ _] => set (s0 := u) end.
  assert (El' : replace_at (length b1) n (map fst (b1 ++ (f, d0) :: b2)) = map fst (b1 ++ (n, d0) :: b2)).
  { rewrite !map_app. cbn [map fst]. rewrite <- (map_length fst b1). apply replace_at_app. }
  destruct (setdir_ok t s0 r (fun g e => In (g, e) (b1 ++ (f, d0) :: b2)) (set_rfaces x w (map fst (b1 ++ (n, d0) :: b2))) (map fst (b1 ++ (n, d0) :: b2)) n (Z.of_nat (length b1)) dn z)
    as (s1 & w1 & E1 & T1 & T2 & T3 & T4 & L1 & B1 & SD1); auto; try lia.
  all: try (cbn [set_rfaces r_fdirs]; lia).
  { rewrite <- El'. subst s0. cbn [putr trs]. apply zupd_same. }
  { rewrite Nat2Z.id. apply (nth_map_mid b1 b2 (n, d0)). }
  { intros [Hi _]. apply Hnn. apply (in_map fst) in Hi. auto. }
  rewrite E1. cbn [bind].
  destruct (add_region_ok t s1 r _ n dn z SD1 Hz Hr Hs) as (s2 & E2 & S2 & SD2). rewrite E2. cbn [bind].
  destruct (some_ex _ (tfs t f) Hf) as [zf Hzf].
  destruct (rem_region_ok t s2 r _ f zf SD2 Hzf Hr) as (s3 & E3 & S3 & SD3).
  { cbn beta. pose proof (slot_one _ f N) as Hone. intuition congruence. }
  rewrite E3. cbn [bind].
  destruct (fsame_trans _ _ _ S2 S3) as (U1 & U2 & U3 & U4).
  assert (R' : rrep (map fst (b1 ++ (n, d0) :: b2)) w1 (b1 ++ (n, dn) :: b2)).
  { apply rrep_bit with (w := w) (d := d0); auto. destruct R as (_ & R2 & R3). split; auto. split.
    - rewrite app_length in *. auto.
    - intros m Hm. rewrite app_length in *. cbn [length] in *. rewrite R3 by lia. rewrite !nth_mid. destruct (m =? length b1)%nat; auto. }
  assert (M4' : forall p, trs s3 p = zupd (trs t) r (Some (set_rfaces x w1 (map fst (b1 ++ (n, d0) :: b2)))) p).
  { intros p. rewrite U3, T4. cbn [s0 putr trs]. unfold zupd. destruct (p =? r) eqn:Ep; auto. specialize (M4 p). unfold zupd in M4. rewrite Ep in M4. rewrite <- M4. reflexivity. }
  rewrite foldM_id.
  2:{ intros i Hi. apply zrange_in in Hi. rewrite M4', zupd_same. cbn [bind set_rfaces r_faces nn]. unfold lent. replace (i <? 0) with false by lia. cbn [bind]. rewrite F1; auto; lia. }
  change (tvs s0) with (tvs s) in T1. change (tes s0) with (tes s) in T2. change (tnext s0) with (tnext s) in T3.
  exists s3. split; auto. constructor; try congruence.
  - exists (map fst (b1 ++ (n, d0) :: b2)), w1. split; auto. split; auto. rewrite L1. auto.
  - eapply side_ext; eauto. intros g e. cbn beta. pose proof (In_mid b1 b2 (f, d0) g e N) as HI. cbn [fst] in HI.
    rewrite in_app_iff in HI. rewrite (in_app_iff b1 ((n, dn) :: b2)). cbn [In]. assert (Hg : In (g, e) (b1 ++ (f, d0) :: b2) -> g <> n).
    { intros Hi ->. apply Hnn. apply (in_map fst) in Hi. auto. }
    split.
    + intros [[[[Hi Hne]|[-> ->]]|[-> ->]] Hne']; tauto.
    + intros [Hi|[Hi|Hi]]; [|inversion Hi; subst; tauto|]; assert (Hi' : In (g, e) (b1 ++ (f, d0) :: b2) /\ g <> f) by (apply HI; auto); destruct Hi'; split; tauto.
  - rewrite map_app in *. cbn [map fst] in *. apply NoDup_remove in N. destruct N as [N _]. apply NoDup_Add with (a := n) (l := map fst b1 ++ map fst b2). apply Add_app. split; auto.
    intros Hi. apply Hnn. rewrite in_app_iff in *. cbn. tauto.
Qed.

Lemma subst1_len : forall f n b, length (subst1 f n b) = length b.
Proof. intros. apply map_length. Qed.
Lemma rdl_full : forall (g : ptr * bool -> Z) full pre q rest, full = pre ++ q :: rest -> rdl (map g full) (Z.of_nat (length pre)) = Ok (g q).
Proof.
  intros g full pre q rest ->. rewrite rdl_ok by (rewrite map_length, app_length; cbn [length]; lia).
  rewrite Nat2Z.id, map_app. cbn [map]. rewrite app_nth2; rewrite map_length; [|lia]. rewrite Nat.sub_diag. auto.
Qed.

Lemma repl_olds_ok : forall olds t r x W full s b pre nus, mid t r x W s b -> r <> NULL -> (length b <= 512)%nat -> full = pre ++ nus ->
  NoDup olds -> incl olds (map fst b) -> (length olds <= length nus)%nat -> NoDup (map fst nus) -> (forall p, In p (map fst nus) -> ~ In p (map fst b)) ->
  (forall q, In q nus -> exists z, tfs t (fst q) = Some z /\ (slot z (snd q) = NULL \/ slot z (snd q) = r)) -> (forall f, In f olds -> tfs t f <> None) ->
  exists s' b', foldM (fun '(t, kf) f => repl_old t r f (Z.of_nat (length b)) (map fst full) (map (fun q => b2z (snd q)) full) kf) (s, Z.of_nat (length pre)) olds
      = Ok (s', Z.of_nat (length pre + length olds)) /\
    mid t r x W s' b' /\ length b' = length b /\ subst_all olds nus b = b' ++ skipn (length olds) nus /\ (forall p, In p (map fst (skipn (length olds) nus)) -> ~ In p (map fst b')).
Proof.
  induction olds as [|o olds IH]; intros t r x W full s b pre nus M Hr Lb Ef No Hi Ll Nn Hd Hz Ho.
  - exists s, b. cbn [foldM length skipn subst_all]. rewrite Nat.add_0_r. repeat (split; [auto; fail|]). auto.
  - destruct nus as [|n nus]; [cbn in Ll; lia|]. cbn [foldM].
    destruct (index_of o (map fst b)) as [k|] eqn:Ek.
    2:{ exfalso. apply index_of_none in Ek. apply Ek, Hi. cbn; auto. }
    destruct (index_vw _ _ _ Ek) as (b1 & d0 & b2 & E & Hk & Nk). subst b.
    destruct (Hz n) as (z & Hz1 & Hz2). cbn; auto.
    destruct (repl_old_ok t r x W s b1 o d0 b2 n z (map fst full) (map (fun q => b2z (snd q)) full) (Z.of_nat (length pre)) M Hr) as (s1 & E1 & M1); auto.
    { rewrite app_length in Lb. cbn in Lb. lia. }
    { unfold ZL. subst full. rewrite map_length, app_length. cbn [length]. lia. }
    { eapply rdl_full; eauto. }
    { apply (rdl_full (fun q => b2z (snd q)) _ _ _ _ Ef). }
    { apply Ho. cbn; auto. }
    { apply Hd. cbn; auto. }
    cbn [foldM]. rewrite E1. cbn [bind]. inversion No; subst. inversion Nn; subst.
    assert (L1 : length (b1 ++ n :: b2) = length (b1 ++ (o, d0) :: b2)) by (rewrite !app_length; auto). rewrite <- L1.
    assert (Es : subst1 o n (b1 ++ (o, d0) :: b2) = b1 ++ n :: b2) by (apply subst1_mid; apply (m_nd _ _ _ _ _ _ M)).
    destruct (IH t r x W (pre ++ n :: nus) s1 (b1 ++ n :: b2) (pre ++ [n]) nus) as (s' & b' & E2 & M2 & L2 & E3 & D2); auto.
    + lia.
    + rewrite <- app_assoc. auto.
    + intros g Hg. assert (g <> o) by congruence. specialize (Hi g (or_intror Hg)). rewrite map_app, in_app_iff in *. cbn in *. intuition congruence.
    + cbn in Ll. lia.
    + intros p Hp Hq. specialize (Hd p (or_intror Hp)). rewrite map_app, in_app_iff in *. cbn [map In] in *. destruct Hq as [Hq|[Hq|Hq]]; try tauto. subst p. auto.
    + intros q Hq. apply Hz. cbn; auto.
    + intros g Hg. apply Ho. cbn; auto.
    + exists s', b'. rewrite (app_length pre [n]) in E2. cbn [length] in E2. split.
      * replace (Z.of_nat (length pre) + 1) with (Z.of_nat (length pre + 1)) by lia. rewrite E2. do 2 f_equal. cbn [length]. lia.
      * split; auto. split; [lia|]. cbn [subst_all length skipn]. rewrite Es. auto.
Qed.

Lemma append_ok : forall t r x W s b n z, mid t r x W s b -> r <> NULL -> (length b < 512)%nat -> (S (length b) < 32 * W)%nat ->
  tfs t (fst n) = Some z -> (slot z (snd n) = NULL \/ slot z (snd n) = r) -> ~ In (fst n) (map fst b) ->
  exists s', (x <- getr s r ;; l <- nn (r_faces x) ;; u <- MR_Set_FaceDir (putr s r (Some (set_rfaces x (r_fdirs x) (l ++ [fst n])))) r (fst n) (b2z (snd n)) ;;
     MF_Add_Region u (fst n) r (lnot (b2z (snd n)))) = Ok s' /\ mid t r x W s' (b ++ [n]).
Proof.
  intros t r x W s b [n dn] z [M1 M2 M3 (l & w & M4 & R & Lw) M5 N] Hr H512 HW Hz Hs Hnn. cbn [fst snd] in *.
  assert (Ex : trs s r = Some (set_rfaces x w l)) by (rewrite M4; apply zupd_same).
  pose proof R as (El & Lb & Bb). unfold getr. rewrite Ex. cbn [bind set_rfaces r_faces r_fdirs nn].
  match goal with |- context [MR_Set_FaceDir ?u r _ _] => set (s0 := u) end.
  assert (Ex0 : trs s0 r = Some (set_rfaces x w (l ++ [n]))). { subst s0. cbn [putr trs]. apply zupd_same. }
  unfold MR_Set_FaceDir, getr. rewrite Ex0. cbn [bind set_rfaces r_faces r_fdirs nn].
  assert (Ei : index_of n (l ++ [n]) = Some (length b)).
  { rewrite El. rewrite <- (map_length fst b). clear - Hnn. induction (map fst b) as [|y m IH]; cbn [app index_of length].
    - rewrite Z.eqb_refl. auto.
    - cbn in Hnn. destruct (Z.eqb_spec y n); [tauto|]. rewrite IH by tauto. auto. }
  rewrite Ei.
  destruct (setdir_ok t s0 r (fun g e => In (g, e) b) (set_rfaces x w (l ++ [n])) (l ++ [n]) n (Z.of_nat (length b)) dn z)
    as (s1 & w1 & E1 & T1 & T2 & T3 & T4 & L1 & B1 & SD1); auto; try lia.
  { rewrite Nat2Z.id, El. rewrite app_nth2; rewrite map_length; [|lia]. rewrite Nat.sub_diag. auto. }
  { intros [Hi _]. apply Hnn. apply (in_map fst) in Hi. auto. }
  rewrite E1. cbn [bind].
  destruct (add_region_ok t s1 r _ n dn z SD1 Hz Hr Hs) as (s2 & E2 & S2 & SD2). rewrite E2. destruct S2 as (U1 & U2 & U3 & U4).
  change (tvs s0) with (tvs s) in T1. change (tes s0) with (tes s) in T2. change (tnext s0) with (tnext s) in T3.
  exists s2. split; auto. constructor; try congruence.
  - exists (l ++ [n]), w1. split; [|split].
    + intros p. rewrite U3, T4. cbn [s0 putr trs]. unfold zupd. destruct (p =? r) eqn:Ep; auto. specialize (M4 p). unfold zupd in M4. rewrite Ep in M4. rewrite <- M4. reflexivity.
    + cbn [set_rfaces r_fdirs] in L1, B1. split; [|split].
      * rewrite map_app, El. auto.
      * unfold cap in *. rewrite app_length. cbn [length]. lia.
      * intros m. rewrite app_length. cbn [length]. intros Hm. rewrite B1 by (unfold cap in *; lia). destruct (Z.eqb_spec (Z.of_nat m) (Z.of_nat (length b))).
        -- rewrite app_nth2 by lia. replace (m - length b)%nat with 0%nat by lia. auto.
        -- rewrite app_nth1 by lia. apply Bb. lia.
    + cbn [set_rfaces r_fdirs] in L1. congruence.
  - eapply side_ext; eauto. intros g e. cbn beta. rewrite in_app_iff. cbn [In].
    assert (Hg : In (g, e) b -> g <> n). { intros Hi ->. apply Hnn. apply (in_map fst) in Hi. auto. }
    split.
    + intros [[[Hi Hne]|[-> ->]]|[-> ->]]; tauto.
    + intros [Hi|[Hi|[]]]; [|inversion Hi; subst]; tauto.
  - rewrite map_app. cbn [map fst]. apply NoDup_Add with (a := n) (l := map fst b). rewrite <- (app_nil_r (map fst b)) at 1. apply Add_app. auto.
Qed.

Lemma appends_ok : forall nus t r x W full s b pre, mid t r x W s b -> r <> NULL -> (length b + length nus <= 512)%nat -> (length b + length nus < 32 * W)%nat -> full = pre ++ nus ->
  NoDup (map fst nus) -> (forall p, In p (map fst nus) -> ~ In p (map fst b)) ->
  (forall q, In q nus -> exists z, tfs t (fst q) = Some z /\ (slot z (snd q) = NULL \/ slot z (snd q) = r)) ->
  exists s', foldM (fun t jf => x <- getr t r ;; l <- nn (r_faces x) ;; nu <- rdl (map fst full) jf ;; d <- rdl (map (fun q => b2z (snd q)) full) jf ;;
      t <- MR_Set_FaceDir (putr t r (Some (set_rfaces x (r_fdirs x) (l ++ [nu])))) r nu d ;; MF_Add_Region t nu r (lnot d)) s (zrange (Z.of_nat (length pre)) (ZL (map fst full))) = Ok s' /\
    mid t r x W s' (b ++ nus).
Proof.
  induction nus as [|n nus IH]; intros t r x W full s b pre M Hr L1 L2 Ef Nn Hd Hz.
  - subst full. rewrite app_nil_r. unfold ZL, zrange. rewrite map_length, Z.sub_diag. cbn. exists s. rewrite app_nil_r. auto.
  - cbn [length] in *. destruct (Hz n) as (z & Hz1 & Hz2). cbn; auto. inversion Nn; subst.
    destruct (append_ok t r x W s b n z M Hr) as (s1 & E1 & M1); auto; try lia.
    { apply Hd. cbn; auto. }
    assert (Lf : ZL (map fst (pre ++ n :: nus)) = Z.of_nat (length pre) + 1 + Z.of_nat (length nus)). { unfold ZL. rewrite map_length, app_length. cbn [length]. lia. }
    rewrite (zrange_app _ (Z.of_nat (length pre) + 1)) by lia. rewrite zrange_one. cbn [app foldM].
    destruct (getr s r) as [xs| | |]; cbn [bind] in E1 |- *; try discriminate E1. destruct (nn (r_faces xs)) as [ls| | |]; cbn [bind] in E1 |- *; try discriminate E1.
    rewrite (rdl_full fst _ _ _ _ eq_refl), (rdl_full (fun q => b2z (snd q)) _ _ _ _ eq_refl). cbn [bind]. rewrite E1. cbn [bind].
    destruct (IH t r x W (pre ++ n :: nus) s1 (b ++ [n]) (pre ++ [n])) as (s' & E2 & M2); auto.
    + rewrite app_length. cbn [length]. lia.
    + rewrite app_length. cbn [length]. lia.
    + rewrite <- app_assoc. auto.
    + intros p Hp Hq. rewrite map_app, in_app_iff in Hq. cbn in Hq. destruct Hq as [Hq|[Hq|[]]]. apply (Hd p); cbn; auto. subst p. auto.
    + intros q Hq. apply Hz. cbn; auto.
    + exists s'. rewrite (app_length pre [n]) in E2. cbn [length] in E2. replace (Z.of_nat (length pre) + 1) with (Z.of_nat (length pre + 1)) by lia. rewrite E2.
      split; auto. rewrite <- app_assoc in M2. auto.
Qed.

Lemma subst_all_In : forall olds nus b q, In q (subst_all olds nus b) -> In q b \/ In q nus.
Proof.
  induction olds as [|o olds IH]; intros nus b q H; cbn in H.
  - apply in_app_iff in H. auto.
  - destruct nus as [|n nus]; auto. apply IH in H. destruct H as [H|H]; [|cbn; auto]. unfold subst1 in H. apply in_map_iff in H. destruct H as (y & Hy & HI).
    destruct (fst y =? o); subst; cbn; auto.
Qed.
Lemma enlarge_ok : forall (wd : list Z) (nf nl : Z), 0 <= nf < 32 * Z.of_nat (length wd) -> 0 <= nl ->
  let w := if 1 + nf / 32 <? 1 + nl / 32 then
             let newsize := if 2 * (1 + nf / 32) <? 1 + nl / 32 then 2 * (1 + nl / 32) else 2 * (1 + nf / 32) in
             firstn (Z.to_nat (1 + nf / 32)) wd ++ repeat 0 (Z.to_nat (newsize - (1 + nf / 32)))
           else wd in
  nl < cap w /\ nf < cap w /\ forall m, 0 <= m < nf -> rg w m = rg wd m.
Proof.
  intros wd nf nl H1 H2 w. pose proof (Z.div_mod nf 32). pose proof (Z.mod_pos_bound nf 32). pose proof (Z.div_mod nl 32). pose proof (Z.mod_pos_bound nl 32).
  assert (nf / 32 < Z.of_nat (length wd)) by (apply Z.div_lt_upper_bound; lia). assert (0 <= nf / 32) by (apply Z.div_pos; lia).
  unfold w, cap. destruct (Z.ltb_spec (1 + nf / 32) (1 + nl / 32)).
  - cbv zeta. rewrite app_length, firstn_length, repeat_length. split; [|split].
    + destruct (Z.ltb_spec (2 * (1 + nf / 32)) (1 + nl / 32)); lia.
    + destruct (Z.ltb_spec (2 * (1 + nf / 32)) (1 + nl / 32)); lia.
    + intros m Hm. unfold rg. assert (m / 32 <= nf / 32) by (apply Z.div_le_mono; lia). assert (0 <= m / 32) by (apply Z.div_pos; lia).
      rewrite app_nth1 by (rewrite firstn_length; lia). rewrite nth_firstn_lt by lia. auto.
  - split; [lia|]. split; auto. lia.
Qed.

Lemma step_replace_faces : forall t a r olds nus, inv t a -> tpre a (TReplaceFaces r olds nus) ->
  exists t', tstep t (TReplaceFaces r olds nus) = Ok t' /\ inv t' (astep a (TReplaceFaces r olds nus)).
Proof.
  intros t a r olds nus I ((b & Hb) & No & Hi & Ll & Nn & Hd & HL & HS & Lm). destruct (inv_rfull _ _ _ _ _ I Hb) as (x & l & Ex & Lx & El & R & N & L). pose proof (i_w _ _ I) as W.
  assert (Nr : r <> NULL) by (eapply r_nonnull; eauto; congruence).
  assert (Efb : rbdry a r = b) by (unfold rbdry; rewrite Hb; auto). rewrite Efb in *. unfold maxrf in Lm.
  cbn [tstep astep]. rewrite Efb. clear Efb. unfold MR_Replace_Faces, getr. rewrite Ex. cbn [bind]. rewrite El. cbn [nn bind].
  pose proof R as (El' & RL & RB).
  assert (El2 : ZL l = Z.of_nat (length b)) by (unfold ZL; rewrite El', map_length; auto).
  assert (En2 : ZL (map fst nus) = Z.of_nat (length nus)) by (unfold ZL; rewrite map_length; auto).
  rewrite El2, En2. fold (ZL olds). set (nl := Z.of_nat (length b) - ZL olds + Z.of_nat (length nus)).
  assert (Hnl : nl = Z.of_nat (length b + length nus - length olds)) by (unfold nl, ZL; lia). assert (Hnl2 : 0 <= nl <= 512) by lia. replace (nl <? 0) with false by lia.
  pose proof (enlarge_ok (r_fdirs x) (Z.of_nat (length b)) nl ltac:(unfold cap in RL; lia) ltac:(lia)) as EN. cbv zeta in EN. cbv zeta.
  match type of EN with _ < cap ?u /\ _ => set (w := u) in * end. destruct EN as (C1 & C2 & C3). clearbody w.
  set (t0 := putr t r (Some (set_rfaces x w l))).
  assert (M0 : mid t r x (length w) t0 b).
  { constructor; auto.
    - exists l, w. split; [|split]; auto. split; auto. split; auto. intros m Hm. rewrite C3 by lia. auto.
    - eapply side_ext. eapply side_tfs; [|apply (side_refl t a r I Nr)]. auto. intros f d. apply (has_face_eq _ _ _ Hb). }
  assert (HZ : forall q, In q nus -> exists z, tfs t (fst q) = Some z /\ (slot z (snd q) = NULL \/ slot z (snd q) = r)).
  { intros q Hq. destruct (full_some t a (fst q) I) as [z Hz]. rewrite Forall_forall in HL. auto. exists z. split; auto. eapply slot_free; eauto. intros q' Hq'. eapply HS; eauto. destruct q; auto. }
  destruct (repl_olds_ok olds t r x (length w) nus t0 b [] nus M0) as (s1 & b1 & E1 & M1 & L1 & EA & D1); auto.
  { intros f Hf. destruct (full_some t a f I) as [z Hz]; [|congruence]. eapply full_in. apply (w_rf _ W _ _ Hb). auto. }
  unfold dirz. cbn [length] in E1. change (Z.of_nat 0) with 0 in E1. rewrite E1. cbn [bind].
  destruct (appends_ok (skipn (length olds) nus) t r x (length w) nus s1 b1 (firstn (length olds) nus) M1) as (s2 & E2 & M2); auto.
  { rewrite skipn_length. lia. }
  { rewrite skipn_length. unfold cap in C1. lia. }
  { symmetry. apply firstn_skipn. }
  { rewrite <- (firstn_skipn (length olds) nus), map_app in Nn. clear - Nn. induction (map fst (firstn (length olds) nus)) as [|y m IHm]; auto. inversion Nn; auto. }
  { intros q Hq. apply HZ. rewrite <- (firstn_skipn (length olds) nus), in_app_iff. auto. }
  rewrite firstn_length_le in E2 by auto. rewrite En2 in E2. change (0 + length olds)%nat with (length olds). unfold getr in E2. rewrite E2. cbn [bind].
  rewrite EA in *. destruct M2 as [M2a M2b M2c (l2 & w2 & M2d & R2 & Lw2) M2e N2].
  assert (HF2 : Forall (fun q => full_f a (fst q)) (b1 ++ skipn (length olds) nus)).
  { rewrite <- EA. rewrite Forall_forall. intros q Hq. apply subst_all_In in Hq. pose proof (w_rf _ W _ _ Hb) as HF. rewrite Forall_forall in HL, HF. destruct Hq; auto. }
  destruct (upd_type_ok s2 r (set_rfaces x w2 l2) l2) as (ty & Ety).
  + rewrite M2d, zupd_same. auto.
  + auto.
  + destruct R2 as (-> & _). intros f Hf'. eapply side_edges; eauto. eapply full_in; eauto.
  + rewrite Ety. eexists. split; eauto.
    eapply inv_rb with (x' := set_rtype (set_rfaces x w2 l2) ty); ra; eauto.
    * exists l2. split; auto.
    * intros p. unfold zupd in *. rewrite M2d. destruct (p =? r); auto.
    * rewrite app_length, skipn_length. unfold maxrf. lia.
    * cbn. tauto.
Qed.

(** ** MR_Rev_FaceDir *)
Lemma fd_xor_ok : forall w i, 0 <= i < cap w -> exists y w', rdl w (i / 32) = Ok y /\ wrl w (i / 32) (Z.lxor y (Z.shiftl 1 (i mod 32))) = Ok w' /\ length w' = length w /\
  forall m, 0 <= m < cap w -> rg w' m = if m =? i then negb (rg w i) else rg w m.
Proof.
  intros w i H. unfold cap in *. assert (Hd : 0 <= i / 32 < Z.of_nat (length w)). { split. apply Z.div_pos; lia. apply Z.div_lt_upper_bound; lia. }
  rewrite rdl_ok by lia. eexists. rewrite wrl_ok by lia. eexists. split; eauto. split; eauto. split. apply upd_nth_length. intros m Hm.
  unfold rg. rewrite nth_upd_nth. assert (Hd' : 0 <= m / 32) by (apply Z.div_pos; lia). pose proof (Z.div_mod m 32). pose proof (Z.div_mod i 32).
  pose proof (Z.mod_pos_bound m 32). pose proof (Z.mod_pos_bound i 32).
  destruct (Nat.eqb_spec (Z.to_nat (m / 32)) (Z.to_nat (i / 32))) as [E|E].
  - replace (Z.to_nat (i / 32) <? length w)%nat with true by lia. rewrite Z.lxor_spec. rewrite Z.shiftl_spec by lia. rewrite E.
    destruct (Z.eqb_spec m i).
    + subst. rewrite Z.sub_diag. change (Z.testbit 1 0) with true. apply xorb_true_r.
    + replace (Z.testbit 1 (m mod 32 - i mod 32)) with false. apply xorb_false_r. destruct (Z.lt_ge_cases (m mod 32 - i mod 32) 0). rewrite Z.testbit_neg_r; auto.
      assert (m mod 32 - i mod 32 <> 0) by lia. change 1 with (2 ^ 0). rewrite Z.pow2_bits_false; auto.
  - destruct (Z.eqb_spec m i); [subst; congruence|]. auto.
Qed.
Lemma flip_none : forall f b, ~ In f (map fst b) -> flip f b = b.
Proof. intros f b. unfold flip. induction b as [|[g e] b IH]; cbn; intros H; auto. destruct (Z.eqb_spec g f); [tauto|]. rewrite IH; tauto. Qed.
Lemma flip_mid : forall b1 f d b2, NoDup (map fst (b1 ++ (f, d) :: b2)) -> flip f (b1 ++ (f, d) :: b2) = b1 ++ (f, negb d) :: b2.
Proof.
  intros b1 f d b2 N. unfold flip. rewrite map_app. cbn. rewrite Z.eqb_refl. rewrite map_app in N. cbn in N. apply NoDup_remove_2 in N. rewrite in_app_iff in N.
  f_equal; [|f_equal]; apply flip_none; tauto.
Qed.
Lemma flip_In : forall f b g d, In (g, d) (flip f b) <-> In (g, if g =? f then negb d else d) b.
Proof.
  intros f b g d. unfold flip. rewrite in_map_iff. split.
  - intros ([h e] & E & HI). cbn in E. destruct (Z.eqb_spec h f); inversion E; subst.
    + rewrite Z.eqb_refl, negb_involutive. auto.
    + destruct (Z.eqb_spec g f); [congruence|auto].
  - intros HI. exists (g, if g =? f then negb d else d). cbn. destruct (g =? f); auto. rewrite negb_involutive. auto.
Qed.
Lemma flip_fst : forall f b, map fst (flip f b) = map fst b.
Proof. intros. unfold flip. rewrite map_map. apply map_ext. intros [g e]. cbn. destruct (g =? f); auto. Qed.
Lemma side_self : forall t r, side t t r (fun f d => exists z, tfs t f = Some z /\ slot z d = r).
Proof. intros t r f. destruct (tfs t f) as [z|] eqn:E; auto. split; auto. split; [tauto|]. intros d. split; eauto. intros (z' & Hz & Hs). congruence. Qed.
Lemma swap_ok : forall t f z r p d0, tfs t f = Some z -> r <> NULL -> slot z d0 = r -> slot z (negb d0) = p -> p <> r -> exists rs ta tb tc td,
  MF_Regions t f = Ok rs /\ match rs with [a; b] => if r =? a then b else a | _ => NULL end = p /\
  MF_Rem_Region t f r = Ok ta /\ (if p =? NULL then Ok ta else MF_Rem_Region ta f p) = Ok tb /\ MF_Add_Region tb f r (b2z d0) = Ok tc /\
  (p = NULL -> td = tc) /\ (p <> NULL -> MF_Add_Region tc f p (b2z (negb d0)) = Ok td) /\ fsame t td /\
  forall g, tfs td g = if g =? f then Some (set_fregs z (f_r1 z) (f_r0 z)) else tfs t g.
Proof.
  intros t f z r p d0 Hz Hr H0 H1 Hp. unfold MF_Regions, getf. rewrite Hz. cbn [bind].
  assert (Er : (r =? NULL) = false) by lia.
  assert (G : forall s x, tfs (putf s f x) f = x) by (intros; cbn; apply zupd_same).
  destruct d0; cbn [slot negb] in *; rewrite H0, H1, Er.
  - destruct (Z.eqb_spec p NULL) as [->|Np].
    + cbn [app]. do 5 eexists. split; [reflexivity|]. split; auto. unfold MF_Rem_Region, getf. rewrite Hz. cbn [bind]. rewrite H0, Z.eqb_refl, H1. split; auto. split; [reflexivity|].
      unfold MF_Add_Region, getf. rewrite G. cbn. split; [reflexivity|]. split; [reflexivity|]. split; [congruence|]. split; [repeat split|]. intros g. cbn [putf tfs]. unfold zupd. destruct (g =? f); auto.
    + cbn [app]. do 5 eexists. split; [reflexivity|]. split; [cbv beta iota; rewrite Z.eqb_refl; auto|]. unfold MF_Rem_Region, getf. rewrite Hz. cbn [bind]. rewrite H0, Z.eqb_refl, H1. split; auto.
      rewrite G. cbn [bind set_fregs f_r0 f_r1]. replace (NULL =? p) with false by lia. rewrite Z.eqb_refl. split; [reflexivity|].
      unfold MF_Add_Region, getf. rewrite G. cbn [bind b2z set_fregs f_r0 f_r1]. change (1 =? -1) with false. cbn [bind]. change (1 =? 0) with false. change (1 =? 1) with true. cbn [bind]. split; [reflexivity|]. split; [congruence|].
      rewrite G. cbn [bind negb b2z set_fregs f_r0 f_r1]. change (0 =? -1) with false. cbn [bind]. change (0 =? 0) with true. split; [reflexivity|]. split; [repeat split|]. intros g. cbn [putf tfs]. unfold zupd. destruct (g =? f); auto.
  - destruct (Z.eqb_spec p NULL) as [->|Np].
    + cbn [app]. do 5 eexists. split; [reflexivity|]. split; auto. unfold MF_Rem_Region, getf. rewrite Hz. cbn [bind]. rewrite H1. replace (NULL =? r) with false by lia. rewrite H0, Z.eqb_refl. split; auto. split; [reflexivity|].
      unfold MF_Add_Region, getf. rewrite G. cbn. split; [reflexivity|]. split; [reflexivity|]. split; [congruence|]. split; [repeat split|]. intros g. cbn [putf tfs]. unfold zupd. destruct (g =? f); auto.
    + cbn [app]. do 5 eexists. split; [reflexivity|]. split; [cbv beta iota; replace (r =? p) with false by lia; auto|]. unfold MF_Rem_Region, getf. rewrite Hz. cbn [bind]. rewrite H1. replace (p =? r) with false by lia. rewrite H0, Z.eqb_refl. split; auto.
      rewrite G. cbn [bind set_fregs f_r0 f_r1]. rewrite Z.eqb_refl. split; [reflexivity|].
      unfold MF_Add_Region, getf. rewrite G. cbn [bind b2z set_fregs f_r0 f_r1]. change (0 =? -1) with false. cbn [bind]. change (0 =? 0) with true. cbn [bind]. split; [reflexivity|]. split; [congruence|].
      rewrite G. cbn [bind negb b2z set_fregs f_r0 f_r1]. change (1 =? -1) with false. cbn [bind]. change (1 =? 0) with false. change (1 =? 1) with true. split; [reflexivity|]. split; [repeat split|]. intros g. cbn [putf tfs]. unfold zupd. destruct (g =? f); auto.
Qed.

Definition flip_all a f := with_r a (fun q => match a_r a q with Some (true, Some b) => Some (true, Some (flip f b)) | x => x end).
Lemma flip_all_has : forall a f q g d, has_face (flip_all a f) q g d <-> has_face a q g (if g =? f then negb d else d).
Proof.
  intros a f q g d. unfold has_face, flip_all. cbn [with_r a_r]. destruct (a_r a q) as [[[|] [b|]]|]; split; intros (c & Hc & HI); try discriminate; inversion Hc; subst.
  - exists b. split; auto. apply flip_In. auto.
  - eexists. split; eauto. apply flip_In. auto.
Qed.
Lemma flip_all_wfa : forall a f, wfa a -> wfa (flip_all a f).
Proof.
  intros a f W. destruct W as [W1 W2 W3 W4 W5 W6 W7 W8 W9 W10]. unfold flip_all. constructor; ra; auto.
  - intros p Hp. apply W4. destruct (a_r a p); congruence.
  - intros q b H. specialize (W8 q). destruct (a_r a q) as [[[|] [c|]]|]; try discriminate. inversion H; subst. specialize (W8 c eq_refl). rewrite Forall_forall in *. intros [g e] Hx.
    apply flip_In in Hx. apply W8 in Hx. auto.
  - intros q l b H. specialize (W10 q). destruct (a_r a q) as [[[|] [c|]]|]; inversion H; subst; eauto. rewrite flip_fst. unfold flip. rewrite map_length. eauto.
Qed.
Lemma inv_rev : forall t s a f, inv t a -> tvs s = tvs t -> tes s = tes t -> tnext s = tnext t ->
  (forall g, match tfs t g, tfs s g with
    | None, None => True
    | Some z, Some z' => fpart z' = fpart z /\ forall d q, q <> NULL -> (slot z' d = q <-> slot z (if g =? f then negb d else d) = q)
    | _, _ => False end) ->
  (forall q, option_map rview (trs s q) = a_r (flip_all a f) q) ->
  (forall r x l, trs s r = Some x -> r_faces x = Some l -> (length l < 32 * length (r_fdirs x))%nat) -> inv s (flip_all a f).
Proof.
  intros t s a f I Ev Ee En HF HR HS. pose proof I as [I1 I2 I3 I4 I5 I6 I7 I8 I9 I10]. constructor; auto.
  - rewrite Ev. auto.
  - rewrite Ee. auto.
  - intros p. unfold flip_all. ra. rewrite <- I3. specialize (HF p). destruct (tfs t p), (tfs s p); try tauto. destruct HF as [R _]. cbn. f_equal. apply fpart_view. auto.
  - rewrite En. auto.
  - intros v z. rewrite Ev. apply I6.
  - intros v z. rewrite Ee. apply I7.
  - intros g z' Hz' q Hq. rewrite !flip_all_has. specialize (HF g). rewrite Hz' in HF. destruct (tfs t g) as [z|] eqn:Ez; [|tauto]. destruct HF as (_ & HF).
    pose proof (HF true q Hq) as T. pose proof (HF false q Hq) as F. cbn [slot] in T, F. rewrite T, F. rewrite !(slot_has _ _ _ _ _ _ I Ez Hq). tauto.
  - apply flip_all_wfa. auto.
Qed.
Lemma step_rev_face_dir : forall t a r f, inv t a -> tpre a (TRevFaceDir r f) ->
  exists t', tstep t (TRevFaceDir r f) = Ok t' /\ inv t' (astep a (TRevFaceDir r f)).
Proof.
  intros t a r f I (b & Hb). destruct (inv_rfull _ _ _ _ _ I Hb) as (x & l & Ex & Lx & El & R & N & L). pose proof (i_w _ _ I) as W.
  assert (Nr : r <> NULL) by (eapply r_nonnull; eauto; congruence).
  cbn [tstep astep]. unfold MR_Rev_FaceDir, getr. rewrite Ex. cbn [bind]. rewrite El. cbn [nn bind].
  assert (Efb : rbdry a r = b) by (unfold rbdry; rewrite Hb; auto). rewrite Efb. clear Efb.
  pose proof R as (El' & RL & RB). replace (index_of f l) with (index_of f (map fst b)) by congruence. destruct (index_of f (map fst b)) as [k|] eqn:Ek.
  2:{ exists t. split; auto. replace (existsb _ b) with false; auto. symmetry. apply index_of_none in Ek. clear - Ek. induction b as [|[g e] b IH]; auto. cbn in *. destruct (Z.eqb_spec g f); [tauto|]. apply IH; tauto. }
  destruct (index_vw _ _ _ Ek) as (b1 & d0 & b2 & E & Hk & Nk). subst k.
  replace (existsb _ b) with true. 2:{ symmetry. apply existsb_exists. exists (f, d0). subst b. rewrite in_app_iff. cbn. split; auto. apply Z.eqb_refl. }
  fold (flip_all a f).
  assert (Hrf : has_face a r f d0). { exists b. split; auto. subst b. rewrite in_app_iff. cbn. auto. }
  destruct (full_some t a f I) as [z Hz]. { eapply full_in. apply (w_rf _ W _ _ Hb). subst b. rewrite map_app, in_app_iff. cbn. auto. }
  assert (Z0 : slot z d0 = r) by (apply (slot_has _ _ _ _ _ _ I Hz Nr); auto).
  set (p := slot z (negb d0)).
  assert (Np : p <> r). { intros Hp. apply (slot_has _ _ _ _ _ _ I Hz Nr) in Hp. apply (has_face_eq _ _ _ Hb) in Hp. apply (has_face_eq _ _ _ Hb) in Hrf. apply (slot_one b f N). destruct d0; auto. }
  unfold MR_Rev_FaceDir_i, getr. rewrite Ex. cbn [bind]. rewrite El. cbn [nn bind]. replace (Z.of_nat (length b1) <? 0) with false by lia.
  assert (Lb1 : Z.of_nat (length b1) < cap (r_fdirs x)). { subst b. rewrite app_length in RL. cbn [length] in RL. lia. }
  destruct (fd_xor_ok (r_fdirs x) (Z.of_nat (length b1))) as (y & w & E1 & E2 & Lw & Bw); [lia|]. rewrite E1. cbn [bind]. rewrite E2. cbn [bind].
  assert (Rd : rg (r_fdirs x) (Z.of_nat (length b1)) = d0). { rewrite RB by (subst b; rewrite app_length; cbn [length]; lia). subst b. rewrite nth_mid, Nat.eqb_refl. auto. }
  rewrite Rd in Bw.
  rewrite fd_get_ok by (unfold cap in *; lia). rewrite Bw by lia. rewrite Z.eqb_refl. cbn [bind]. unfold lent. replace (Z.of_nat (length b1) <? 0) with false by lia. cbn [bind].
  replace (nth (Z.to_nat (Z.of_nat (length b1))) l NULL) with f by (rewrite Nat2Z.id, El'; subst b; symmetry; apply (nth_map_mid b1 b2 (f, d0))).
  set (t1 := putr t r (Some (set_rfaces x w l))).
  destruct (swap_ok t1 f z r p d0 Hz Nr Z0 eq_refl Np) as (rs & ta & tb & tc & td & S1 & S2 & S3 & S4 & S5 & S6 & S7 & (F1 & F2 & F3 & F4) & SF).
  rewrite S1. cbn [bind]. rewrite S2, S3. cbn [bind]. rewrite S4. cbn [bind]. replace (lnot (b2z (negb d0))) with (b2z d0) by (destruct d0; auto). rewrite S5. cbn [bind].
  assert (Rw : rrep l w (flip f b)). { subst b. rewrite flip_mid by auto. eapply rrep_bit; eauto. }
  assert (FA : forall q y, a_r a q = Some (true, Some y) -> q <> r -> q <> p -> flip f y = y).
  { intros q c Hc Hq1 Hq2. apply flip_none. intros Hi. apply in_map_iff in Hi. destruct Hi as ([g e] & Hg & Hi). cbn in Hg. subst g.
    assert (HF : has_face a q f e) by (exists c; auto). apply (slot_has _ _ _ _ _ _ I Hz) in HF. destruct (Bool.bool_dec e d0); [subst; congruence|]. assert (e = negb d0) by (clear - n; destruct e, d0; cbn; congruence). subst e. exact (Hq2 (eq_sym HF)).
    eapply r_nonnull; eauto. congruence. }
  assert (SZ : forall d q, slot (set_fregs z (f_r1 z) (f_r0 z)) d = q <-> slot z (negb d) = q) by (intros [|] q; cbn; tauto).
  destruct (Z.eqb_spec p NULL) as [Ep|Ep].
  - exists tc. split; auto. rewrite <- (S6 Ep). apply inv_rev with (t := t); auto.
    + intros g. rewrite SF. destruct (Z.eqb_spec g f); [subst g; rewrite Hz|cbn [t1 putr tfs]; destruct (tfs t g); auto; split; auto; tauto]. split; auto.
    + intros q. rewrite F3. cbn [t1 putr trs flip_all with_r a_r]. unfold zupd. destruct (Z.eqb_spec q r).
      * subst q. rewrite Hb. cbn. unfold rview. cbn. rewrite Lx. do 3 f_equal. apply rrep_vw. auto.
      * rewrite (i_r _ _ I). specialize (FA q). destruct (a_r a q) as [[[|] [c|]]|] eqn:Eq; auto. rewrite FA; auto. rewrite Ep. eapply r_nonnull; eauto. congruence.
    + intros q y0 l0. rewrite F3. cbn [t1 putr trs]. unfold zupd. destruct (q =? r) eqn:Eq; [|apply (i_s _ _ I)]. intros Hy. inversion Hy; subst y0. cbn. intros Hl. inversion Hl; subst l0. pose proof (i_s _ _ I _ _ _ Ex El). lia.
  - rewrite (S7 Ep). cbn [bind].
    assert (Hpf : has_face a p f (negb d0)) by (apply (slot_has _ _ _ _ _ _ I Hz Ep); auto).
    destruct Hpf as (c & Hc & Hci). destruct (inv_rfull _ _ _ _ _ I Hc) as (xp & lp & Exp & Lxp & Elp & Rp & Nc & Lc).
    unfold MR_Set_FaceDir, getr. rewrite F3. cbn [t1 putr trs]. rewrite zupd_other by auto. rewrite Exp. cbn [bind]. rewrite Elp. cbn [nn bind].
    pose proof Rp as (Elp' & RLp & _). rewrite Elp'. destruct (index_of f (map fst c)) as [k|] eqn:Ekc.
    2:{ exfalso. apply index_of_none in Ekc. apply Ekc. apply (in_map fst) in Hci. auto. }
    destruct (index_vw _ _ _ Ekc) as (c1 & dc & c2 & Ecc & Hk & Nkc). subst k.
    assert (dc = negb d0). { assert (HI : In (f, dc) c) by (subst c; rewrite in_app_iff; cbn; auto). pose proof (slot_one c f Nc). destruct dc, d0; auto; tauto. }
    subst dc. assert (Lc2 : (length c1 < length c)%nat) by (subst c; rewrite app_length; cbn [length]; lia).
    destruct (setdir_ok td td p _ xp lp f (Z.of_nat (length c1)) d0 (set_fregs z (f_r1 z) (f_r0 z)) (side_self td p)) as (s' & w' & G1 & T1 & T2 & T3 & T4 & Lw' & Bw' & SD); auto; try lia.
    { rewrite F3. cbn [t1 putr trs]. rewrite zupd_other; auto. }
    { rewrite Nat2Z.id, Elp'. subst c. apply (nth_map_mid c1 c2 (f, negb d0)). }
    { rewrite SF, Z.eqb_refl. auto. }
    { right. apply SZ. auto. }
    { intros [(z1 & Hz1 & A1) (z2 & Hz2 & A2)]. rewrite SF, Z.eqb_refl in Hz1, Hz2. inversion Hz1; subst z1. inversion Hz2; subst z2. apply SZ in A1. apply SZ in A2. cbn [negb] in A1, A2. destruct d0; congruence. }
    rewrite G1. exists s'. split; auto. apply inv_rev with (t := t); auto; try congruence.
    + rewrite T1. auto.
    + rewrite T2. auto.
    + rewrite T3. auto.
    + assert (SX : forall g, match tfs td g, tfs s' g with
        | None, None => True
        | Some z, Some z' => fpart z' = fpart z /\ forall d q, q <> NULL -> (slot z' d = q <-> slot z d = q)
        | _, _ => False end).
      { intros g. specialize (SD g). destruct (tfs td g) as [z1|] eqn:E1', (tfs s' g) as [z2|] eqn:E2'; auto. destruct SD as (D1 & D2 & D3). split; auto. intros d q Hq. destruct (Z.eq_dec q p) as [->|Hqp]; [|apply D2; auto].
        rewrite D3. split.
        - intros [[(z3 & Hz3 & A1) Hne]|[-> ->]]. congruence. rewrite SF, Z.eqb_refl in E1'. inversion E1'; subst z1. apply SZ. auto.
        - intros A1. destruct (Z.eq_dec g f) as [->|Hne]; [|left; split; auto; exists z1; auto]. right. split; auto. rewrite SF, Z.eqb_refl in E1'. inversion E1'; subst z1. apply SZ in A1. destruct d, d0; cbn [negb] in *; auto; congruence. }
      intros g. specialize (SX g). rewrite SF in SX. destruct (Z.eqb_spec g f).
      * subst g. rewrite Hz. destruct (tfs s' f); auto. destruct SX as [X1 X2]. split; auto. intros d q Hq. rewrite X2 by auto. apply SZ.
      * cbn [t1 putr tfs] in SX. destruct (tfs t g), (tfs s' g); auto.
    + intros q. rewrite T4, F3. cbn [t1 putr trs flip_all with_r a_r]. unfold zupd. destruct (Z.eqb_spec q p); [|destruct (Z.eqb_spec q r)].
      * subst q. rewrite Hc. cbn. unfold rview. cbn. rewrite Lxp. do 3 f_equal. apply rrep_vw. subst c. rewrite flip_mid by auto. rewrite negb_involutive. eapply rrep_bit; eauto.
      * subst q. rewrite Hb. cbn. unfold rview. cbn. rewrite Lx. do 3 f_equal. apply rrep_vw. auto.
      * rewrite (i_r _ _ I). specialize (FA q). destruct (a_r a q) as [[[|] [e|]]|] eqn:Eq; auto. rewrite FA; auto.
    + intros q y0 l0. rewrite T4, F3. cbn [t1 putr trs]. unfold zupd. destruct (q =? p) eqn:Eqp; [|destruct (q =? r) eqn:Eq; [|apply (i_s _ _ I)]]; intros Hy; inversion Hy; subst y0; cbn; intros Hl; inversion Hl; subst l0.
      * pose proof (i_s _ _ I _ _ _ Exp Elp). lia.
      * pose proof (i_s _ _ I _ _ _ Ex El). lia.
Qed.

Lemma step_update_type : forall t a r, inv t a -> tpre a (TUpdateType r) ->
  exists t', tstep t (TUpdateType r) = Ok t' /\ inv t' (astep a (TUpdateType r)).
Proof.
  intros t a r I (b & Hb). destruct (inv_rfull _ _ _ _ _ I Hb) as (x & l & Hx & Lx & Hl & (EL & _) & _). cbn [tstep astep].
  destruct (upd_type_ok t r x l Hx Hl) as (ty & E).
  { intros f Hf. subst l. destruct (full_in a b f (w_rf _ (i_w _ _ I) _ _ Hb) Hf) as (c & Hc). rewrite <- (i_f _ _ I) in Hc. destruct (tfs t f) as [z|]; [|discriminate]. exists z. split; auto.
    cbn in Hc. unfold fview in Hc. destruct (f_edges z); discriminate. }
  exists (putr t r (Some (set_rtype x ty))). split; auto. destruct I as [I1 I2 I3 I4 I5 I6 I7 I8 I9 I10]. constructor; ra; auto.
  - intros p. unfold zupd. destruct (Z.eqb_spec p r) as [->|]; auto. rewrite <- I4, Hx. reflexivity.
  - intros p y l'. unfold zupd. destruct (Z.eqb_spec p r) as [->|]; eauto. intros Ey El'. inversion Ey; subst y. cbn in *. eapply I10; eauto.
Qed.
