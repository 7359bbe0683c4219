(** The invariant under the operations on faces. *)
From Coq Require Import ZArith List Lia Bool Arith ZifyBool ZifyNat.
From Verif Require Import Base BaseProofs ListSpec ParModel ParProps AttModel AttProps TopoModel TopoSpec TopoProofs TopoProofs2.
Import ListNotations.
Open Scope Z_scope.

(** [f] leaves the face lists of the edges in [D], then enters those of the edges in [A]. *)
Definition erel (t s : topo) (f : ptr) (D A : ptr -> Prop) : Prop := forall e,
  match tes t e, tes s e with
  | None, None => True
  | Some z, Some z' => eview z' = eview z /\
      (NoDup (e_faces z) -> NoDup (e_faces z') /\ forall g, In g (e_faces z') <-> (In g (e_faces z) /\ ~ (g = f /\ D e)) \/ (g = f /\ A e))
  | _, _ => False
  end.
(** Everything but edges is the same. *)
Definition esame (t s : topo) := tvs s = tvs t /\ tfs s = tfs t /\ trs s = trs t /\ tnext s = tnext t.
Lemma esame_refl : forall t, esame t t.
Proof. intros. repeat split. Qed.
Lemma esame_trans : forall t s u, esame t s -> esame s u -> esame t u.
Proof. intros t s u (A & B & C & D) (A' & B' & C' & D'). unfold esame. rewrite A', B', C', D'. auto. Qed.
Lemma erel_refl : forall t f, erel t t f (fun _ => False) (fun _ => False).
Proof. intros t f e. destruct (tes t e); auto. split; auto. intros. split; auto. tauto. Qed.
Lemma erel_ext : forall t s f D A D' A', erel t s f D A -> (forall e, D e <-> D' e) -> (forall e, A e <-> A' e) -> erel t s f D' A'.
Proof.
  intros t s f D A D' A' H HD HA e. specialize (H e). destruct (tes t e), (tes s e); auto. destruct H as [H1 H2]. split; auto.
  intros ND. destruct (H2 ND) as [N1 N2]. split; auto. intros g. rewrite N2. specialize (HD e). specialize (HA e). tauto.
Qed.
Lemma erel_comp : forall t s u f D A D' A', erel t s f D A -> erel s u f D' A' ->
  erel t u f (fun e => D e \/ D' e) (fun e => (A e /\ ~ D' e) \/ A' e).
Proof.
  intros t s u f D A D' A' H H' e. specialize (H e). specialize (H' e). destruct (tes t e), (tes s e), (tes u e); try tauto.
  destruct H as [H1 H2], H' as [H1' H2']. split; [congruence|]. intros ND. destruct (H2 ND) as [N1 N2]. destruct (H2' N1) as [N1' N2'].
  split; auto. intros g. rewrite N2', N2. tauto.
Qed.
Lemma erel_tes : forall t t' s s' f D A, tes t' = tes t -> tes s' = tes s -> erel t s f D A -> erel t' s' f D A.
Proof. intros t t' s s' f D A E E' H e. rewrite E, E'. apply H. Qed.

Lemma add_face_ok : forall t e f z, tes t e = Some z -> exists s, ME_Add_Face t e f = Ok s /\ esame t s /\ erel t s f (fun _ => False) (fun x => x = e).
Proof.
  intros t e f z H. unfold ME_Add_Face, gete. rewrite H. cbn [bind]. eexists. split; eauto. split. repeat split.
  intros p. ra. unfold zupd. onz p e.
  - rewrite H. split; auto. intros ND. cbn [e_faces set_efaces]. split. apply chkn_NoDup; auto. intros g. rewrite chkn_In. tauto.
  - destruct (tes t p); auto. split; auto. intros; split; auto. intros; tauto.
Qed.
Lemma rem_face_ok : forall t e f z, tes t e = Some z -> exists s, ME_Rem_Face t e f = Ok s /\ esame t s /\ erel t s f (fun x => x = e) (fun _ => False).
Proof.
  intros t e f z H. unfold ME_Rem_Face, gete. rewrite H. cbn [bind]. eexists. split; eauto. split. repeat split.
  intros p. ra. unfold zupd. onz p e.
  - rewrite H. split; auto. intros ND. cbn [e_faces set_efaces]. split. apply rem1_NoDup; auto. intros g. rewrite rem1_In by auto. tauto.
  - destruct (tes t p); auto. split; auto. intros; split; auto. intros; tauto.
Qed.
Lemma erel_some : forall t s f D A e, erel t s f D A -> tes t e <> None -> tes s e <> None.
Proof. intros t s f D A e H. specialize (H e). destruct (tes t e), (tes s e); congruence. Qed.
Lemma some_ex : forall A (o : option A), o <> None -> exists x, o = Some x.
Proof. intros A [x|]; eauto. congruence. Qed.

Lemma add_faces_ok : forall l t f, (forall e, In e l -> tes t e <> None) ->
  exists s, foldM (fun t e => ME_Add_Face t e f) t l = Ok s /\ esame t s /\ erel t s f (fun _ => False) (fun x => In x l).
Proof.
  induction l as [|e l IH]; intros t f H; cbn [foldM].
  - exists t. split; auto. split. apply esame_refl. eapply erel_ext; [apply erel_refl| |]; cbn; tauto.
  - destruct (some_ex _ (tes t e)) as [z Hz]. apply H. cbn; auto. destruct (add_face_ok t e f z Hz) as (s1 & E1 & S1 & R1).
    destruct (IH s1 f) as (s & E & S' & R). { intros p Hp. eapply erel_some; eauto. apply H. cbn; auto. }
    rewrite E1. cbn [bind]. exists s. split; auto. split. eapply esame_trans; eauto.
    eapply erel_ext; [eapply erel_comp; eauto| |]; intros p; cbn; [tauto|]. intuition.
Qed.
Lemma rem_faces_ok : forall l t f, (forall e, In e l -> tes t e <> None) ->
  exists s, foldM (fun t e => ME_Rem_Face t e f) t l = Ok s /\ esame t s /\ erel t s f (fun x => In x l) (fun _ => False).
Proof.
  induction l as [|e l IH]; intros t f H; cbn [foldM].
  - exists t. split; auto. split. apply esame_refl. eapply erel_ext; [apply erel_refl| |]; cbn; tauto.
  - destruct (some_ex _ (tes t e)) as [z Hz]. apply H. cbn; auto. destruct (rem_face_ok t e f z Hz) as (s1 & E1 & S1 & R1).
    destruct (IH s1 f) as (s & E & S' & R). { intros p Hp. eapply erel_some; eauto. apply H. cbn; auto. }
    rewrite E1. cbn [bind]. exists s. split; auto. split. eapply esame_trans; eauto.
    eapply erel_ext; [eapply erel_comp; eauto| |]; intros p; cbn; [|tauto]. split; intuition.
Qed.

Lemma wfa_f : forall a f o, wfa a -> a_f a f <> None ->
  (forall r d, has_face a r f d -> exists b, o = Some (true, Some b)) ->
  (forall b, o = Some (true, Some b) -> Forall (fun x => live_e a (fst x)) b) ->
  (forall l b, o = Some (l, Some b) -> NoDup (map fst b) /\ (length b <= maxfe)%nat) ->
  wfa (with_f a (upd (a_f a) f o)).
Proof.
  intros a f o W He Hr Hl Hn. pose proof W as [W1 W2 W3 W4 W5 W6 W7 W8 W9 W10]. constructor; ra; auto.
  - intros p. unfold upd. onz p f; auto.
  - intros p b. unfold upd. onz p f. apply Hl. apply W7.
  - intros r b H. pose proof (W8 _ _ H) as L. rewrite Forall_forall in *. intros [q d] Hq. specialize (L _ Hq). cbn [fst] in *.
    unfold full_f in *. ra. unfold upd. onz q f; auto. apply (Hr r d). exists b. auto.
  - intros p l b. unfold upd. onz p f. apply Hn. apply W9.
Qed.

Lemma inv_f : forall t t' a f x o D A, inv t a -> tfs t f = Some x ->
  (forall y, o = Some y -> f_r0 y = f_r0 x /\ f_r1 y = f_r1 x) ->
  tvs t' = tvs t -> (forall p, tfs t' p = zupd (tfs t) f o p) -> trs t' = trs t -> tnext t' = tnext t -> erel t t' f D A ->
  let a' := with_f a (upd (a_f a) f (option_map fview o)) in
  wfa a' ->
  (forall e, (has_edge a f e /\ ~ D e) \/ A e <-> has_edge a' f e) ->
  inv t' a'.
Proof.
  intros t t' a f x o D A I Hx Ho Ev Ef Er En R a' W HU. pose proof I as [I1 I2 I3 I4 I5 I6 I7 I8 I9 I10]. unfold a' in *. constructor; ra; auto.
  - rewrite Ev. auto.
  - intros p. rewrite <- I2. specialize (R p). destruct (tes t p), (tes t' p); try tauto. destruct R as [R _]. cbn. congruence.
  - intros p. rewrite Ef. unfold zupd, upd. onz p f; auto.
  - rewrite Er. auto.
  - rewrite En. auto.
  - intros v z. rewrite Ev. apply I6.
  - intros e z' Hz'. specialize (R e). rewrite Hz' in R. destruct (tes t e) as [z|] eqn:Ez; [|tauto]. destruct R as [_ R]. destruct (I7 _ _ Ez) as [N B].
    destruct (R N) as [N' B']. split; auto. intros g. rewrite B', B. onz g f.
    + rewrite <- (HU e). tauto.
    + split; [|intros HE; left; split; [|tauto]].
      * intros [[HE _]|[HE _]]; [|tauto]. destruct HE as (b & Hb & HI). exists b. ra. rewrite upd_other by auto. auto.
      * destruct HE as (b & Hb & HI). revert Hb. ra. rewrite upd_other by auto. intros. exists b. auto.
  - intros g y. rewrite Ef. unfold zupd. onz g f; [|apply I8]. intros ->. destruct (Ho y eq_refl) as [E0 E1]. rewrite E0, E1. apply (I8 _ _ Hx).
  - rewrite Er. auto.
Qed.

(** What the invariant says about a face. *)
Lemma inv_full : forall t a f b, inv t a -> a_f a f = Some (true, Some b) ->
  exists x l, tfs t f = Some x /\ f_live x = true /\ f_edges x = Some l /\ b = vw l 0 (Z.testbit (f_edirs x)) /\ NoDup l /\ ZL l <= 32 /\
    forall e, In e l -> tes t e <> None.
Proof.
  intros t a f b I H. destruct (get_f t a f I ltac:(congruence)) as (x & Ex & Ax). rewrite H in Ax. unfold fview in Ax.
  destruct (f_edges x) as [l|] eqn:El; cbn in Ax; [|congruence]. inversion Ax. exists x, l. pose proof (i_w _ _ I) as W. destruct (w_fnd _ W _ _ _ H) as [N L].
  rewrite H2 in N, L. rewrite vw_fst in N. rewrite vw_length in L. unfold ZL, maxfe in *. repeat split; auto; try lia.
  intros e He. pose proof (w_fe _ W _ _ H) as LE. rewrite Forall_forall in LE. rewrite <- (vw_fst l 0 (Z.testbit (f_edirs x))), <- H2 in He. apply in_map_iff in He.
  destruct He as ([p d] & E & Hp). cbn in E. subst p. destruct (LE _ Hp) as [z Hz]. cbn in Hz. rewrite <- (i_e _ _ I) in Hz. destruct (tes t e); discriminate.
Qed.
Lemma live_e_some : forall t a e, inv t a -> live_e a e -> tes t e <> None.
Proof. intros t a e I [z Hz]. rewrite <- (i_e _ _ I) in Hz. destruct (tes t e); discriminate. Qed.
Lemma bits_refl : forall w, bits w (Z.testbit w).
Proof. intros w m _. auto. Qed.
Lemma live_in : forall a (b : list (ptr * bool)) e, Forall (fun x => live_e a (fst x)) b -> In e (map fst b) -> live_e a e.
Proof. intros a b e H HI. rewrite Forall_forall in H. apply in_map_iff in HI. destruct HI as (x & <- & Hx). auto. Qed.

(** The boundary of a live face replaced by [b'], the model having the same list. *)
Lemma inv_fb : forall t t' a f x x' b b' D A, inv t a -> tfs t f = Some x -> a_f a f = Some (true, b) ->
  f_r0 x' = f_r0 x -> f_r1 x' = f_r1 x -> fview x' = (true, Some b') ->
  tvs t' = tvs t -> (forall p, tfs t' p = zupd (tfs t) f (Some x') p) -> trs t' = trs t -> tnext t' = tnext t -> erel t t' f D A ->
  Forall (fun x => live_e a (fst x)) b' -> NoDup (map fst b') -> (length b' <= maxfe)%nat ->
  (forall e, (has_edge a f e /\ ~ D e) \/ A e <-> In e (map fst b')) ->
  inv t' (set_fb a f b').
Proof.
  intros t t' a f x x' b b' D A I Hx Hf E0 E1 Ev H1 H2 H3 H4 R L N Le HU. unfold set_fb. rewrite Hf.
  replace (Some (true, Some b')) with (option_map fview (Some x')) by (cbn; congruence).
  eapply inv_f; eauto.
  - intros y Hy. inversion Hy; subst. auto.
  - apply wfa_f; auto. apply (i_w _ _ I). congruence.
    + intros. cbn. rewrite Ev. eauto.
    + cbn. rewrite Ev. intros c Hc. inversion Hc; subst. auto.
    + cbn. rewrite Ev. intros l c Hc. inversion Hc; subst. auto.
  - intros e. rewrite HU. unfold has_edge. ra. rewrite upd_same. cbn. rewrite Ev. split; eauto. intros (c & Hc & HI). inversion Hc; subst. auto.
Qed.

Lemma step_rem_edge : forall t a f e, inv t a -> tpre a (TRemEdge f e) ->
  exists t', tstep t (TRemEdge f e) = Ok t' /\ inv t' (astep a (TRemEdge f e)).
Proof.
  intros t a f e I (b & Hb). destruct (inv_full _ _ _ _ I Hb) as (x & l & Ex & Lx & El & Eb & N & L & Te). pose proof (i_w _ _ I) as W.
  cbn [tstep astep]. unfold MF_Rem_Edge, getf. rewrite Ex. cbn [bind]. rewrite El. cbn [nn bind].
  assert (Efb : fbdry a f = b) by (unfold fbdry; rewrite Hb; auto). rewrite Efb.
  destruct (index_of e l) as [k|] eqn:Ek.
  - destruct (index_of_some _ _ _ Ek) as (l1 & l2 & E & Hk & Nk). subst l.
    destruct (shift_down_ok (f_edirs x) _ (Z.of_nat k) (ZL (l1 ++ e :: l2)) (bits_refl _)) as (w & Ew & Bw); try lia. rewrite Ew. cbn [bind].
    destruct (some_ex _ (tes t e)) as [z Hz]. { apply Te. rewrite in_app_iff. cbn; auto. }
    destruct (rem_face_ok (putf t f (Some (set_fedges x w (delete_at k (l1 ++ e :: l2))))) e f z Hz) as (t' & E1 & (S1 & S2 & S3 & S4) & R).
    rewrite E1. exists t'. split; auto.
    assert (Ed : drop e b = vw (l1 ++ l2) 0 (Z.testbit w)).
    { subst b. rewrite !vw_app. unfold drop. rewrite filter_app. cbn [vw filter fst]. rewrite Z.eqb_refl. cbn [negb].
      assert (FL : forall l i g, ~ In e l -> filter (fun x => negb (fst x =? e)) (vw l i g) = vw l i g).
      { induction l as [|y l IH]; intros i g HN; cbn; auto. cbn in HN. replace (y =? e) with false by lia. cbn. rewrite IH by tauto. auto. }
      apply nd_app in N. destruct N as (N1 & N2 & N3). inversion N2; subst. rewrite !FL by auto. f_equal.
      - apply vw_ext. intros m Hm. rewrite Bw by (unfold ZL in *; rewrite app_length in L; lia). unfold sdown. replace ((Z.of_nat (length l1) <=? m) && _) with false by (unfold ZL in *; lia). auto.
      - replace (0 + ZL l1) with (0 + ZL l1 + 1 - 1) at 2 by lia. symmetry. replace (0 + ZL l1 + 1 - 1) with (0 + ZL l1) by lia. apply vw_shift. intros m Hm.
        unfold ZL in *. rewrite app_length in *. cbn [length] in *. rewrite Bw by lia. unfold sdown. replace ((Z.of_nat (length l1) <=? m) && _) with true by lia. auto. }
    rewrite <- Hk, delete_at_app in *. rewrite Hk in *.
    assert (Fm : map fst (drop e b) = l1 ++ l2) by (rewrite Ed; apply vw_fst).
    eapply inv_fb with (x' := set_fedges x w (l1 ++ l2)) (D := fun p => p = e) (A := fun _ => False); eauto; try (intros p; rewrite S2; reflexivity).
    + unfold fview. cbn. rewrite Lx. do 3 f_equal. auto.
    + pose proof (w_fe _ W _ _ Hb) as LE. rewrite Forall_forall in *. intros q Hq. apply LE. unfold drop in Hq. apply filter_In in Hq. tauto.
    + rewrite Fm. apply nd_app in N. destruct N as (N1 & N2 & N3). inversion N2; subst. apply nd_app. repeat split; auto. intros q Q1 Q2. apply (N3 q); cbn; auto.
    + rewrite Ed, vw_length. unfold maxfe, ZL in *. rewrite app_length in *. cbn [length] in *. lia.
    + intros p. rewrite Fm. unfold has_edge. rewrite Hb. split.
      * intros [[(c & Hc & HI) Hn]|[]]. inversion Hc; subst c. rewrite Eb, vw_fst in HI. rewrite in_app_iff in *. cbn in HI. destruct HI as [|[|]]; auto. congruence.
      * intros HI. left. split. exists b. split; auto. rewrite Eb, vw_fst. rewrite in_app_iff in *. cbn. tauto. intros ->.
        apply nd_app in N. destruct N as (N1 & N2 & N3). inversion N2; subst. rewrite in_app_iff in HI. destruct HI; auto.
  - exists t. split; auto. eapply inv_ext; [|eauto]. assert (Ed : drop e b = b).
    { apply index_of_none in Ek. subst b. generalize 0. generalize (Z.testbit (f_edirs x)). clear - Ek. induction l as [|y l IH]; intros g i; cbn; auto. cbn in Ek.
      unfold drop in *. cbn. replace (y =? e) with false by lia. cbn. rewrite IH by tauto. auto. }
    rewrite Ed. unfold set_fb, aeq. ra. repeat split; auto. intros p. unfold upd. onz p f; auto. rewrite Hb. auto.
Qed.

Lemma step_del_f : forall t a f k, inv t a -> tpre a (TDelF f k) ->
  exists t', tstep t (TDelF f k) = Ok t' /\ inv t' (astep a (TDelF f k)).
Proof.
  intros t a f k I (He & Hf). destruct (get_f t a f I He) as (x & Ex & Ax). pose proof (i_w _ _ I) as W.
  cbn [tstep astep]. unfold MF_Delete, getf. rewrite Ex. cbn [bind]. unfold kill.
  set (o := if k then Some (mkF false (f_edirs x) (f_edges x) (f_r0 x) (f_r1 x)) else None).
  assert (Eo : (if k then match a_f a f with Some (_, y) => Some (false, y) | None => None end else None) = option_map fview o).
  { rewrite Ax. unfold o, fview. destruct k; auto. }
  rewrite Eo.
  assert (Wn : wfa (with_f a (upd (a_f a) f (option_map fview o)))).
  { apply wfa_f; auto.
    - intros r d HF. exfalso. eapply Hf; eauto. destruct HF as (b & Hb & HI). pose proof (w_rf _ W _ _ Hb) as L. rewrite Forall_forall in L. destruct (L _ HI) as [y Hy]. exists (Some y). auto.
    - intros b. unfold o, fview. destruct k; cbn; discriminate.
    - intros l b. unfold o. destruct k; cbn; [|discriminate]. intros Hl. unfold fview in Hl. cbn in Hl. inversion Hl; subst. apply (w_fnd _ W f (f_live x)). rewrite Ax. unfold fview. congruence. }
  assert (K : forall e, ~ has_edge (with_f a (upd (a_f a) f (option_map fview o))) f e).
  { intros e (b & Hb & _). revert Hb. ra. rewrite upd_same. unfold o, fview. destruct k; cbn; discriminate. }
  assert (Fin : forall s D, esame t s -> erel t s f D (fun _ => False) -> (forall e, has_edge a f e -> D e) ->
    exists t', (if k then Ok (putf s f (Some (mkF false (f_edirs x) (f_edges x) (f_r0 x) (f_r1 x)))) else Ok (putf s f None)) = Ok t' /\
      inv t' (with_f a (upd (a_f a) f (option_map fview o)))).
  { intros s D (S1 & S2 & S3 & S4) R HD. exists (putf s f o). split. unfold o. destruct k; auto.
    eapply inv_f with (D := D) (A := fun _ => False); eauto; ra; auto; try (intros p; rewrite S2; reflexivity).
    - unfold o. intros y. destruct k; [|discriminate]. intros H. inversion H; subst. auto.
    - intros e. split; intros H; exfalso. destruct H as [[H1 H2]|[]]. auto. eapply K; eauto. }
  unfold fview in Ax. destruct (f_live x) eqn:Lx; [destruct (f_edges x) as [l|] eqn:El|].
  - cbn in Ax. destruct (inv_full _ _ _ _ I Ax) as (x' & l' & Ex' & _ & El' & Eb & N & L & Te). rewrite Ex in Ex'. inversion Ex'; subst x'.
    rewrite El in El'. inversion El'; subst l'. destruct (rem_faces_ok l t f Te) as (s & Es & S1 & R). rewrite Es. cbn [bind]. eapply Fin; eauto.
    intros e (c & Hc & HI). rewrite Ax in Hc. inversion Hc; subst c. rewrite vw_fst in HI. auto.
  - cbn [bind]. eapply Fin. apply esame_refl. apply erel_refl. intros e (c & Hc & HI). rewrite Ax in Hc. discriminate.
  - cbn [bind]. eapply Fin. apply esame_refl. apply erel_refl. intros e (c & Hc & HI). rewrite Ax in Hc. discriminate.
Qed.

Lemma step_res_f : forall t a f, inv t a -> tpre a (TResF f) ->
  exists t', tstep t (TResF f) = Ok t' /\ inv t' (astep a (TResF f)).
Proof.
  intros t a f I (b & Hb & HL). destruct (get_f t a f I ltac:(congruence)) as (x & Ex & Ax). pose proof (i_w _ _ I) as W.
  cbn [tstep astep]. unfold MF_Restore, getf. rewrite Ex. cbn [bind]. unfold revive. rewrite Hb.
  rewrite Hb in Ax. unfold fview in Ax. destruct (f_edges x) as [l|] eqn:El; cbn in Ax; [|discriminate]. inversion Ax. subst b. clear Ax. cbn [nn bind].
  set (x' := mkF true (f_edirs x) (Some l) (f_r0 x) (f_r1 x)).
  destruct (add_faces_ok l (putf t f (Some x')) f) as (t' & E & (S1 & S2 & S3 & S4) & R).
  { intros e He. ra. eapply live_e_some; eauto. eapply live_in; eauto. rewrite vw_fst. auto. }
  rewrite E. exists t'. split; auto.
  replace (Some (true, Some (vw l 0 (Z.testbit (f_edirs x))))) with (option_map fview (Some x')) by auto.
  eapply inv_f with (D := fun _ => False); eauto; try (intros p; rewrite S2; reflexivity).
  - intros y Hy. inversion Hy; subst. auto.
  - apply wfa_f; auto. congruence. cbn. unfold fview. cbn. eauto.
    + intros c Hc. inversion Hc; subst. auto.
    + intros q c Hc. inversion Hc; subst. apply (w_fnd _ W _ _ _ Hb).
  - intros e. unfold has_edge. ra. rewrite upd_same. split.
    + intros [[(c & Hc & _) _]|H]. congruence. cbn. unfold fview. cbn. eexists. split; eauto. rewrite vw_fst. auto.
    + intros (c & Hc & HI). right. inversion Hc; subst. rewrite vw_fst in HI. auto.
Qed.

(** A list and a word that hold the boundary [b]. *)
Definition rep (l : list ptr) (w : Z) (b : list (ptr * bool)) : Prop :=
  l = map fst b /\ (length b <= 32)%nat /\ forall m, (m < length b)%nat -> Z.testbit w (Z.of_nat m) = snd (nth m b (NULL, true)).
Lemma vw_b : forall b i g, (forall m, (m < length b)%nat -> g (i + Z.of_nat m) = snd (nth m b (NULL, true))) -> vw (map fst b) i g = b.
Proof.
  induction b as [|[e d] b IH]; intros i g H; cbn [map vw]; auto. cbn [length] in H. f_equal.
  - cbn. f_equal. specialize (H O). cbn [nth snd] in H. rewrite <- H by lia. f_equal. lia.
  - apply IH. intros m Hm. specialize (H (S m)). cbn [nth] in H. rewrite <- H by lia. f_equal. lia.
Qed.
Lemma rep_vw : forall l w b, rep l w b -> vw l 0 (Z.testbit w) = b.
Proof. intros l w b (-> & H1 & H2). apply vw_b. intros. rewrite <- H2 by auto. reflexivity. Qed.
Lemma vw_rep : forall l w, ZL l <= 32 -> rep l w (vw l 0 (Z.testbit w)).
Proof.
  intros. split; [|split]. rewrite vw_fst; auto. rewrite vw_length. unfold ZL in *. lia. rewrite vw_length. intros m Hm. rewrite vw_nth by auto. reflexivity.
Qed.
Lemma nth_mid : forall A (b1 : list A) x b2 d m, nth m (b1 ++ x :: b2) d = if (m =? length b1)%nat then x else if (m <? length b1)%nat then nth m b1 d else nth (m - length b1 - 1) b2 d.
Proof.
  intros. destruct (Nat.eqb_spec m (length b1)).
  - subst. rewrite app_nth2, Nat.sub_diag by lia. auto.
  - destruct (Nat.ltb_spec m (length b1)). rewrite app_nth1 by lia. auto. rewrite app_nth2 by lia. destruct (m - length b1)%nat eqn:E; [lia|]. cbn. f_equal. lia.
Qed.
Lemma nth_app_if : forall A (b1 b2 : list A) d m, nth m (b1 ++ b2) d = if (m <? length b1)%nat then nth m b1 d else nth (m - length b1) b2 d.
Proof. intros. destruct (Nat.ltb_spec m (length b1)). apply app_nth1; auto. apply app_nth2. lia. Qed.

Lemma firstn_S_nth : forall A (l : list A) j d, (j < length l)%nat -> firstn (S j) l = firstn j l ++ [nth j l d].
Proof. intros A l. induction l as [|x l IH]; intros j d H; cbn [length] in H; [lia|]. destruct j; auto. cbn [firstn app nth]. rewrite <- IH by lia. auto. Qed.
Lemma rep_set : forall l w b1 x b2 e d, rep l w (b1 ++ x :: b2) -> exists w1 w',
  clr64 w (Z.of_nat (length b1)) = Ok w1 /\ ori64 w1 (b2z d) (Z.of_nat (length b1)) = Ok w' /\
  rep (replace_at (length b1) e l) w' (b1 ++ (e, d) :: b2).
Proof.
  intros l w b1 x b2 e d (-> & L & B). pose proof L as L'. rewrite app_length in L'. cbn [length] in L'.
  destruct (set64 w (Z.testbit w) d (Z.of_nat (length b1))) as (w1 & w' & E1 & E2 & B2); [lia|apply bits_refl|].
  exists w1, w'. split; auto. split; auto. split; [|split].
  - rewrite !map_app. cbn [map]. rewrite <- (map_length fst b1). apply replace_at_app.
  - rewrite app_length. cbn [length]. lia.
  - intros m. rewrite app_length. cbn [length]. intros Hm. rewrite B2 by lia. specialize (B m). rewrite app_length in B. cbn [length] in B. specialize (B Hm). rewrite nth_mid in *.
    destruct (Z.eqb_spec (Z.of_nat m) (Z.of_nat (length b1))); destruct (Nat.eqb_spec m (length b1)); try lia; auto.
Qed.
Lemma rep_ins : forall l w b1 b2 e d, rep l w (b1 ++ b2) -> (length (b1 ++ b2) < 32)%nat -> exists w1 w2 w',
  foldM (fun w k => w <- clr64 w (k + 1) ;; b <- bit64 w k ;; ori64 w b (k + 1)) w (zdown (Z.of_nat (length (b1 ++ b2)) - 1) (Z.of_nat (length b1))) = Ok w1 /\
  clr64 w1 (Z.of_nat (length b1)) = Ok w2 /\ ori64 w2 (b2z d) (Z.of_nat (length b1)) = Ok w' /\
  rep (insert_at (length b1) e l) w' (b1 ++ (e, d) :: b2).
Proof.
  intros l w b1 b2 e d (-> & L & B) L2. rewrite app_length in *.
  destruct (shift_up_ok w (Z.testbit w) (Z.of_nat (length b1)) (Z.of_nat (length b1 + length b2)) (bits_refl _)) as (w1 & E1 & B1); [lia|lia|lia|].
  destruct (set64 w1 _ d (Z.of_nat (length b1)) ltac:(lia) B1) as (w2 & w' & E2 & E3 & B2).
  exists w1, w2, w'. repeat (split; [assumption|]). split; [|split].
  - rewrite !map_app. cbn [map]. rewrite <- (map_length fst b1). apply insert_at_app.
  - rewrite app_length. cbn [length]. lia.
  - intros m. rewrite app_length. cbn [length]. intros Hm. rewrite B2 by lia. rewrite nth_mid. unfold sup.
    destruct (Z.eqb_spec (Z.of_nat m) (Z.of_nat (length b1))); destruct (Nat.eqb_spec m (length b1)); try lia; auto.
    destruct (Nat.ltb_spec m (length b1)).
    + replace ((Z.of_nat (length b1) <? Z.of_nat m) && _) with false by lia. rewrite B by lia. rewrite app_nth1 by lia. auto.
    + replace ((Z.of_nat (length b1) <? Z.of_nat m) && _) with true by lia. replace (Z.of_nat m - 1) with (Z.of_nat (m - 1)) by lia.
      rewrite B by lia. rewrite app_nth2 by lia. do 2 f_equal. lia.
Qed.
Lemma rep_del : forall l w b1 x b2, rep l w (b1 ++ x :: b2) -> exists w',
  foldM (fun w k => w <- clr64 w k ;; b <- bit64 w (k + 1) ;; ori64 w b k) w (zrange (Z.of_nat (length b1)) (Z.of_nat (length (b1 ++ x :: b2)) - 1)) = Ok w' /\
  rep (delete_at (length b1) l) w' (b1 ++ b2).
Proof.
  intros l w b1 x b2 (-> & L & B). rewrite app_length in *. cbn [length] in *.
  destruct (shift_downi_ok w (Z.testbit w) (Z.of_nat (length b1)) (Z.of_nat (length b1 + S (length b2))) (bits_refl _)) as (w1 & E1 & B1); [lia|lia|].
  exists w1. repeat (split; [assumption|]). split; [|split].
  - rewrite !map_app. cbn [map]. rewrite <- (map_length fst b1). apply delete_at_app.
  - rewrite app_length. lia.
  - intros m. rewrite app_length. intros Hm. rewrite B1 by lia. unfold sdown. rewrite nth_app_if.
    destruct (Nat.ltb_spec m (length b1)).
    + replace ((Z.of_nat (length b1) <=? Z.of_nat m) && _) with false by lia. rewrite B by lia. rewrite app_nth1 by lia. auto.
    + replace ((Z.of_nat (length b1) <=? Z.of_nat m) && _) with true by lia. replace (Z.of_nat m + 1) with (Z.of_nat (S m)) by lia.
      rewrite B by lia. rewrite app_nth2 by lia. replace (S m - length b1)%nat with (S (m - length b1)) by lia. auto.
Qed.

Lemma step_set_edges : forall t a f b, inv t a -> tpre a (TSetEdges f b) ->
  exists t', tstep t (TSetEdges f b) = Ok t' /\ inv t' (astep a (TSetEdges f b)).
Proof.
  intros t a f b I (Hf & N & L & HL). unfold maxfe in L. pose proof (i_w _ _ I) as W.
  assert (HF : exists y, a_f a f = Some (true, y) /\ forall e, ~ has_edge a f e).
  { destruct Hf as [Hf|Hf]; eexists; split; eauto; intros e (c & Hc & HI); rewrite Hf in Hc; inversion Hc; subst. auto. }
  destruct HF as (y & Hy & Hn). destruct (get_f t a f I ltac:(congruence)) as (x & Ex & Ax).
  assert (Lx : f_live x = true). { rewrite Hy in Ax. unfold fview in Ax. congruence. }
  cbn [tstep astep]. unfold MF_Set_Edges, getf. rewrite Ex. cbn [bind].
  destruct (foldM_up topo (fun k s => exists w, tvs s = tvs t /\ trs s = trs t /\ tnext s = tnext t /\
     (forall p, tfs s p = zupd (tfs t) f (Some (set_fedges x w (map fst (firstn (Z.to_nat k) b)))) p) /\
     (forall m, (m < 32)%nat -> Z.testbit w (Z.of_nat m) = if Z.of_nat m <? k then snd (nth m b (NULL, true)) else false) /\
     erel t s f (fun _ => False) (fun e => In e (map fst (firstn (Z.to_nat k) b))))
    (fun t i => x <- match tfs t f with Some x => Ok x | None => Undef end ;; d <- rdl (dirz b) i ;; e <- rdl (map fst b) i ;;
       w <- ori64 (f_edirs x) d i ;; l <- nn (f_edges x) ;; ME_Add_Face (putf t f (Some (set_fedges x w (l ++ [e])))) e f)
    0 (Z.of_nat (length b)) (putf t f (Some (set_fedges x 0 [])))) as (t' & Et & w & A1 & A2 & A3 & A4 & A5 & A6).
  - lia.
  - exists 0. repeat split; auto.
    + intros m Hm. rewrite Z.testbit_0_l. replace (Z.of_nat m <? 0) with false by lia. auto.
    + eapply erel_ext. eapply erel_tes; [| |apply erel_refl]; reflexivity. cbn; tauto. cbn; tauto.
  - intros k s Hk (w & A1 & A2 & A3 & A4 & A5 & A6). rewrite A4. rewrite zupd_same. cbn [bind set_fedges f_edirs f_edges nn].
    unfold dirz. rewrite !rdl_ok by (rewrite map_length; lia). cbn [bind].
    set (q := nth (Z.to_nat k) b (NULL, true)).
    rewrite (nth_indep _ 0 (b2z (snd (NULL, true)))) by (rewrite map_length; lia). rewrite (map_nth (fun x => b2z (snd x))). fold q.
    rewrite (nth_indep _ 0 (fst (NULL, true))) by (rewrite map_length; lia). rewrite (map_nth fst). fold q.
    destruct (ori64_ok w (snd q) k ltac:(lia)) as (w' & Ew & Bw). rewrite Ew. cbn [bind].
    assert (HT : tes s (fst q) <> None). { eapply erel_some; eauto. eapply live_e_some; eauto. rewrite Forall_forall in HL. apply HL. apply nth_In. lia. }
    destruct (some_ex _ _ HT) as [z Hz].
    match goal with |- exists s', ME_Add_Face ?T _ _ = _ /\ _ => destruct (add_face_ok T (fst q) f z Hz) as (s' & E1 & (S1 & S2 & S3 & S4) & R) end.
    exists s'. split; auto. exists w'. 
    assert (EF : firstn (Z.to_nat (k + 1)) b = firstn (Z.to_nat k) b ++ [q]).
    { replace (Z.to_nat (k + 1)) with (S (Z.to_nat k)) by lia. unfold q. apply firstn_S_nth. lia. }
    rewrite EF, map_app. cbn [map]. split; [|split; [|split; [|split; [|split]]]].
    + rewrite S1. auto.
    + rewrite S3. auto.
    + rewrite S4. auto.
    + intros p. rewrite S2. ra. unfold zupd in *. rewrite A4. destruct (p =? f); auto.
    + intros m Hm. rewrite Bw by lia. rewrite A5 by lia. destruct (Z.eqb_spec (Z.of_nat m) k).
      * replace (Z.of_nat m <? k) with false by lia. replace (Z.of_nat m <? k + 1) with true by lia. cbn. unfold q. do 2 f_equal. lia.
      * cbn. rewrite orb_false_r. replace (Z.of_nat m <? k + 1) with (Z.of_nat m <? k) by lia. auto.
    + eapply erel_ext. eapply erel_comp. exact A6. eapply erel_tes; [| |exact R]; auto. cbn; tauto. intros e. cbn. rewrite in_app_iff. cbn. intuition.
  - unfold getf in Et. rewrite Et. exists t'. split; auto.
    rewrite Nat2Z.id, firstn_all in *.
    eapply inv_fb with (x' := set_fedges x w (map fst b)) (D := fun _ => False); eauto.
    + unfold fview. cbn. rewrite Lx. do 2 f_equal. apply vw_b. intros m Hm. replace (0 + Z.of_nat m) with (Z.of_nat m) by lia.
      rewrite A5 by lia. replace (Z.of_nat m <? Z.of_nat (length b)) with true by lia. auto.
    + intros e. cbn. specialize (Hn e). tauto.
Qed.
