(** Proofs about MESH_CheckTopo: what an answer 1 means. *)
From Coq Require Import ZArith List Lia Bool Arith ZifyBool ZifyNat.
From Verif Require Import Base BaseProofs ListSpec AttModel AttProps TopoModel TopoSpec TopoProofs TopoProofs2 TopoProofs5 TopoProps GenProofs4 ParModel ParProps CheckModel CheckSpec.
Import ListNotations.
Open Scope Z_scope.

Ltac ba := repeat match goal with H : _ && _ = true |- _ => apply andb_prop in H; destruct H end.

(** The flag is never set again. *)
Lemma foldM_true : forall A (P : A -> Prop) (g : bool -> A -> result bool) l v, (forall v x, In x l -> g v x = Ok true -> v = true /\ P x) ->
  foldM g v l = Ok true -> v = true /\ forall x, In x l -> P x.
Proof.
  induction l as [|x l IH]; intros v H E; cbn [foldM] in E. inversion E. split; auto. intros x [].
  unb E. destruct (IH y) as [-> HP]; auto. { intros; apply H; cbn; auto. } destruct (H v x) as [-> Hx]; cbn; auto. split; auto. intros z [<-|Hz]; auto.
Qed.

Lemma get1 : forall t e i v, ME_Vertex t e i = Ok v -> exists y, tes t e = Some y /\ (i = 0 /\ v = e_v0 y \/ i = 1 /\ v = e_v1 y).
Proof.
  unfold ME_Vertex, gete. intros t e i v H. destruct (tes t e) as [y|]; cbn [bind] in H; [|discriminate]. exists y. split; auto. destruct (Z.eqb_spec i 0); [inversion H; auto|]. destruct (Z.eqb_spec i 1); [inversion H; auto|discriminate].
Qed.

(** ** Vertices *)
Lemma ck_vedges_true : forall t v b l, ck_vedges t v b l = Ok true -> b = true /\ forall e, In e l -> e_ends t e v.
Proof.
  intros t v b l H. unfold ck_vedges in H. apply (foldM_true _ (fun e => e_ends t e v)) in H; auto. clear. intros b e _ H. destruct (ME_Vertex t e 0) as [v0| | |] eqn:E0; cbn [bind] in H; try discriminate. apply get1 in E0. destruct E0 as (y & Hy & [[_ Ev]|[X _]]); [|discriminate].
  destruct (Z.eqb_spec v0 v). { injection H as H'. split; auto. exists y. split; auto. left. congruence. }
  destruct (ME_Vertex t e 1) as [v1| | |] eqn:E1; cbn [bind] in H; try discriminate. apply get1 in E1. destruct E1 as (y' & Hy' & [[X _]|[_ Ev']]); [discriminate|]. injection H as H'. ba. split; auto. exists y'. split; auto. right. lia.
Qed.
Lemma ck_ring_true : forall t c v e0 n b f e fl, ck_ring t c v e0 n b f e fl = Ok true -> b = true.
Proof.
  induction n as [|n IH]; intros b f e fl H; cbn [ck_ring] in H. congruence. unb H. destruct (find _ _) as [f'|]; [|discriminate]. unb H; eauto.
Qed.
Lemma ck_vertex_true : forall m b v, ck_vertex m b v = Ok true -> b = true /\ (cm_ghost m v = false -> exists x, tvs (cm_t m) v = Some x /\
  (forall e, In e (v_edges x) -> e_ends (cm_t m) e v) /\
  (fst (cm_c m v) = 2 -> v_edges x <> [] -> exists e f, In e (v_edges x) /\ e_knows (cm_t m) e f /\ fst (cm_c m f) = 2)).
Proof.
  intros m b v H. unfold ck_vertex in H. destruct (cm_ghost m v). { split; congruence. } unfold MV_Edges, getv in H. destruct (tvs (cm_t m) v) as [x|] eqn:Hx; cbn [bind] in H; [|discriminate].
  destruct (v_edges x) as [|e0 l] eqn:El. { injection H as H'. split; auto. intros _. exists x. split; auto. rewrite El. split. intros e []. congruence. }
  rewrite <- El in H. destruct (ck_vedges _ _ _ _) as [b1| | |] eqn:E1; cbn [bind] in H; try discriminate.
  assert (G : b1 = true /\ (fst (cm_c m v) = 2 -> exists e f, In e (v_edges x) /\ e_knows (cm_t m) e f /\ fst (cm_c m f) = 2)).
  { destruct (Z.eqb_spec (fst (cm_c m v)) 2) as [Ec|Ec]; [|split; [congruence|intros; lia]]. unfold ck_vface in H. destruct (MV_Faces (cm_t m) v) as [[vf|]| | |] eqn:Ef; cbn [bind nn] in H; try discriminate.
    destruct (find _ vf) as [f|] eqn:Efd; unb H; apply ck_ring_true in H; [|discriminate]. split; auto. intros _. apply List.find_some in Efd. destruct Efd as [Hf Hd].
    unfold MV_Faces, getv in Ef. rewrite Hx in Ef. cbn [bind] in Ef. destruct (foldM _ [] (v_edges x)) as [l1| | |] eqn:EV; cbn [bind] in Ef; try discriminate. assert (l1 = vf) by (destruct l1; congruence). subst l1. clear Ef.
    assert (HH : forall es acc r, foldM (fun acc e => o <- ME_Faces (cm_t m) e ;; Ok (match o with None => acc | Some fs => fold_left chkn fs acc end)) acc es = Ok r -> In f r -> In f acc \/ exists e, In e es /\ e_knows (cm_t m) e f).
    { clear. induction es as [|e es IH]; intros acc r E Hi; cbn [foldM] in E. { inversion E; subst; auto. }
      unfold ME_Faces at 1, gete in E. destruct (tes (cm_t m) e) as [y|] eqn:Ey; cbn [bind] in E; [|discriminate]. apply (IH _ _ E) in Hi. destruct Hi as [Hi|(e' & H1 & H2)]; [|right; exists e'; cbn; auto].
      assert (Q : forall fs acc0, In f (fold_left chkn fs acc0) -> In f acc0 \/ In f fs). { clear. induction fs as [|g fs IH]; intros acc0 H; cbn in *; auto. apply IH in H. destruct H as [H|H]; auto. unfold chkn in H. destruct (mem g acc0); auto. apply in_app_or in H. cbn in H. intuition. }
      destruct (e_faces y) as [|g l] eqn:El; auto. apply Q in Hi. destruct Hi as [Hi|Hi]; auto. right. exists e. split; cbn; auto. exists y. split; auto. rewrite El. auto. }
    destruct (HH _ _ _ EV Hf) as [[]|(e & He & Hk)]. exists e, f. split; auto. split; auto. lia. }
  destruct G as [-> G]. apply ck_vedges_true in E1. destruct E1 as [-> E1]. split; auto. intros _. exists x. auto. 
Qed.

(** ** Edges *)
Lemma ck_around_true : forall t e b0 b1 n b fn r fc fo fc' fn', ck_around t e b0 b1 n b fn r fc fo = Ok (true, fc', fn') -> b = true.
Proof.
  induction n as [|n IH]; intros b fn r fc fo fc' fn' H; cbn [ck_around] in H. now unb H.
  destruct (getf t fn) as [y| | |]; cbn [bind] in H; try discriminate. destruct (fn =? b1); [inversion H; auto|]. unb H; eauto.
Qed.
Lemma ck_dirs_true : forall t e b0 b1 b l, ck_dirs t e b0 b1 b l = Ok true -> b = true.
Proof.
  intros t e b0 b1 b l H. unfold ck_dirs in H. destruct (foldM _ _ l) as [[[v fc] fn]| | |] eqn:E; cbn [bind] in H; try discriminate. inversion H; subst v. clear H. revert E. generalize b0 at 2 as f0, NULL as f1. revert b. induction l as [|r l IH]; intros b f0 f1 E; cbn [foldM] in E. { congruence. }
  destruct (MR_Faces t r) as [rf| | |]; cbn [bind] in E; try discriminate. destruct (find_face _ _ _ _) as [o| | |]; cbn [bind] in E; try discriminate. set (p := match o with Some _ => _ | None => _ end) in E. destruct p as [fn1 fo]. destruct (ck_around _ _ _ _ _ _ _ _ _ _) as [[[v fc'] fn']| | |] eqn:E0; cbn [bind] in E; try discriminate. apply IH in E. subst v. apply ck_around_true in E0. auto.
Qed.
Lemma ck_eclass_true : forall ce cv, ck_eclass ce cv = true -> fst cv <> 4 -> within cv ce.
Proof.
  unfold ck_eclass, within. intros ce cv H N. destruct (Z.eqb_spec (fst cv) 4); [lia|]. destruct (Z.ltb_spec (fst ce) (fst cv)); [discriminate|]. split; auto. intros E. destruct (Z.eqb_spec (fst ce) (fst cv)); [|lia]. destruct (Z.eqb_spec (snd ce) (snd cv)); [auto|discriminate].
Qed.
Lemma ck_end_true : forall m e b i b' i', ck_end (cm_t m) (cm_c m) e b i = Ok (b', i') -> 0 <= i < 2 -> (b' = true -> b = true) /\ exists y, tes (cm_t m) e = Some y /\
  (b' = true -> end_ok m e (if i =? 0 then e_v0 y else e_v1 y)) /\ (b' = true -> fst (cm_c m e) = 2 -> two_faces m e) /\
  (i' = i \/ (1 <= i' <= 2 /\ fst (cm_c m e) = 2 /\ exists f r, In f (e_faces y) /\ f_knows (cm_t m) f r)).
Proof.
  intros m e b i b' i' H Hi. unfold ck_end in H. destruct (ME_Vertex (cm_t m) e i) as [v| | |] eqn:Ev; cbn [bind] in H; try discriminate. apply get1 in Ev. destruct Ev as (y & Hy & Ev). assert (Ev' : v = if i =? 0 then e_v0 y else e_v1 y) by (destruct Ev as [[-> ->]|[-> ->]]; auto). clear Ev.
  unfold MV_Edges, getv in H. destruct (tvs (cm_t m) v) as [x|] eqn:Hx; cbn [bind] in H; [|discriminate]. destruct (v_edges x) as [|ve l] eqn:El; cbn [nn bind] in H; [discriminate|]. rewrite <- El in H. clear ve l El.
  assert (EO : forall q, b && ck_eclass (cm_c m e) (cm_c m v) && mem e (v_edges x) && q = true -> b = true /\ end_ok m e v /\ q = true).
  { intros q Q. ba. split; auto. split; auto. split. exists x. split; auto. apply mem_In. auto. apply ck_eclass_true. auto. }
  destruct (Z.eqb_spec (fst (cm_c m e)) 2) as [Ec|Ec].
  - destruct (ME_Faces (cm_t m) e) as [[ef|]| | |] eqn:Ef; cbn [bind nn] in H; try discriminate. unfold ME_Faces, gete in Ef. rewrite Hy in Ef. cbn [bind] in Ef. assert (e_faces y = ef) by (destruct (e_faces y); congruence). subst ef. clear Ef.
    set (bfs := filter _ (e_faces y)) in *. set (b1 := b && ck_eclass _ _ && mem e _ && _ && _) in H. assert (B1 : b1 = true -> b = true /\ end_ok m e v /\ two_faces m e).
    { unfold b1. rewrite <- andb_assoc. intros Q. apply EO in Q. destruct Q as (Q1 & Q2 & Q). ba. split; auto. split; auto. intros y' Hy'. replace y' with y by congruence. fold bfs. destruct bfs as [|f [|g [|? ?]]]; try discriminate. exists f, g. split; auto. cbn in *. ba. split; lia. }
    clearbody b1. destruct (ME_Regions (cm_t m) e) as [o| | |] eqn:Er; cbn [bind] in H; try discriminate. destruct o as [er|].
    + destruct (MF_Regions (cm_t m) (hd NULL bfs)) as [rs| | |] eqn:Em; cbn [bind] in H; try discriminate. destruct rs as [|r0 rs]; cbn [ne bind] in H; [discriminate|]. destruct (ck_dirs _ _ _ _ _ _) as [b2| | |] eqn:Ed; cbn [bind] in H; try discriminate. inversion H; subst b' i'. clear H.
      assert (B2 : b2 = true -> b1 = true) by (intros ->; eapply ck_dirs_true; eauto). split. { intros Q. apply B1. auto. } exists y. split; auto. rewrite <- Ev'. split. { intros Q. apply B1. auto. } split. { intros Q _. apply B1. auto. } right. split.
      { unfold MF_Regions, getf in Em. destruct (tfs _ _) as [z|]; cbn [bind] in Em; [|discriminate]. inversion Em as [Em']. unfold ZL. destruct (f_r0 z =? NULL), (f_r1 z =? NULL); cbn in Em'; inversion Em'; cbn; lia. }
      split; auto. unfold ME_Regions, gete in Er. rewrite Hy in Er. cbn [bind] in Er. unb Er. assert (HH : forall fs acc l, foldM (add_fregs (cm_t m)) acc fs = Ok l -> acc = [] -> l <> [] -> exists f r, In f fs /\ f_knows (cm_t m) f r).
      { clear. induction fs as [|f fs IH]; intros acc l E Ha Hl; cbn [foldM] in E. congruence. destruct (add_fregs (cm_t m) acc f) as [acc'| | |] eqn:E1; cbn [bind] in E; try discriminate. destruct acc' as [|r acc'].
        { destruct (IH _ _ E eq_refl Hl) as (f' & r & H1 & H2). exists f', r. cbn; auto. }
        unfold add_fregs, MF_Region, getf in E1. destruct (tfs (cm_t m) f) as [z|] eqn:Hz; cbn [bind] in E1; [|discriminate]. change (0 =? 0) with true in E1. change (1 =? 0) with false in E1. change (1 =? 1) with true in E1. cbn [bind] in E1. subst acc.
        destruct (Z.eqb_spec (f_r0 z) NULL). - destruct (Z.eqb_spec (f_r1 z) NULL). discriminate. exists f, (f_r1 z). split; cbn; auto. exists z. auto. - exists f, (f_r0 z). split; cbn; auto. exists z. auto. }
      eapply HH; [eassumption|reflexivity|]. destruct y0; congruence.
    + inversion H; subst b' i'. split. { intros Q. apply B1. auto. } exists y. split; auto. rewrite <- Ev'. split. { intros Q. apply B1. auto. } split. { intros Q _. apply B1. auto. } auto.
  - inversion H; subst b' i'. clear H. assert (EO' : b && ck_eclass (cm_c m e) (cm_c m v) && mem e (v_edges x) = true -> b = true /\ end_ok m e v). { intros Q. destruct (EO true) as (Q1 & Q2 & _); auto. rewrite Q. auto. }
    split. { intros Q. apply EO'. auto. } exists y. split; auto. rewrite <- Ev'. split. { intros Q. apply EO'. auto. } split. { intros _ Q. congruence. } auto.
Qed.
Lemma ck_edge_true : forall m b e, ck_edge m b e = Ok true -> b = true /\ (cm_ghost m e = false -> exists y, tes (cm_t m) e = Some y /\ end_ok m e (e_v0 y) /\
  (end_ok m e (e_v1 y) \/ fst (cm_c m e) = 2 /\ exists f r, In f (e_faces y) /\ f_knows (cm_t m) f r) /\ (fst (cm_c m e) = 2 -> two_faces m e)).
Proof.
  intros m b e H. unfold ck_edge in H. destruct (cm_ghost m e). { split; congruence. } destruct (ME_Vertex _ e 0) as [v| | |]; cbn [bind] in H; try discriminate.
  cbn [ck_ends] in H. change (0 <? 2) with true in H. cbv iota in H. destruct (ck_end _ _ e b 0) as [[b1 i1]| | |] eqn:E1; cbn [bind] in H; try discriminate. destruct (ck_end_true _ _ _ _ _ _ E1 ltac:(lia)) as (B1 & y & Hy & V1 & T1 & I1). change (0 =? 0) with true in V1. cbv iota in V1.
  destruct I1 as [->|(I1 & Ec & Hf)].
  - change (0 + 1) with 1 in H. change (1 <? 2) with true in H. cbv iota in H. destruct (ck_end _ _ e b1 1) as [[b2 i2]| | |] eqn:E2; cbn [bind] in H; try discriminate. destruct (ck_end_true _ _ _ _ _ _ E2 ltac:(lia)) as (B2 & y' & Hy' & V2 & T2 & I2). assert (y' = y) by congruence. subst y'. change (1 =? 0) with false in V2. cbv iota in V2.
    assert (b2 = true). { destruct I2 as [->|(I2 & _)]. { change (1 + 1 <? 2) with false in H. cbv iota in H. congruence. } replace (i2 + 1 <? 2) with false in H by lia. congruence. }
    subst b2. specialize (B2 eq_refl). subst b1. split; auto. intros _. exists y. auto 7.
  - replace (i1 + 1 <? 2) with false in H by lia. inversion H; subst b1. split; auto. intros _. exists y. auto 7.
Qed.

(** ** Faces *)
Lemma ck_fedges_true : forall t c f b l, ck_fedges t c f b l = Ok true -> b = true /\ forall e, In e l -> e_knows t e f /\ (fst (c e) <> 4 -> fst (c f) <> 4 -> fst (c e) <= fst (c f)).
Proof.
  intros t c f b l H. unfold ck_fedges in H. apply (foldM_true _ (fun e => e_knows t e f /\ (fst (c e) <> 4 -> fst (c f) <> 4 -> fst (c e) <= fst (c f)))) in H; auto. clear. intros b e _ H. unfold ME_Faces, gete in H. destruct (tes t e) as [y|] eqn:Hy; cbn [bind] in H; [|discriminate].
  destruct (e_faces y) as [|g l'] eqn:El; cbn [nn bind] in H; [discriminate|]. rewrite <- El in H. injection H as H'. ba. split; auto. split. { exists y. split; auto. apply mem_In. auto. } intros. lia.
Qed.
Lemma MF_Edges_null : forall t f l, MF_Edges t f 1 NULL = Ok l -> exists x, tfs t f = Some x /\ f_edges x = Some l.
Proof.
  unfold MF_Edges, getf. intros t f l H. destruct (tfs t f) as [x|]; cbn [bind] in H; [|discriminate]. destruct (f_edges x) as [l'|] eqn:E; cbn [nn bind] in H; [|discriminate]. change (NULL =? NULL) with true in H. change (1 =? 0) with false in H. cbv iota in H. inversion H; subst. eauto.
Qed.
Lemma ck_face_true : forall m b f, ck_face m b f = Ok true -> b = true /\ (cm_ghost m f = false -> exists x l, tfs (cm_t m) f = Some x /\ f_edges x = Some l /\
  (forall e, In e l -> e_knows (cm_t m) e f /\ (fst (cm_c m e) <> 4 -> fst (cm_c m f) <> 4 -> fst (cm_c m e) <= fst (cm_c m f))) /\
  (fst (cm_c m f) = 3 -> f_r0 x <> NULL /\ f_r1 x <> NULL) /\
  (f_r0 x <> NULL -> f_r1 x <> NULL -> f_r0 x <> f_r1 x /\ (r_bounded (cm_t m) (f_r0 x) f \/ r_bounded (cm_t m) (f_r1 x) f))).
Proof.
  intros m b f H. unfold ck_face in H. destruct (cm_ghost m f). { split; congruence. } destruct (MF_Edges _ f 1 NULL) as [l| | |] eqn:E1; cbn [bind] in H; try discriminate. destruct (MF_Edges_null _ _ _ E1) as (x & Hx & Hl).
  destruct (ck_fedges _ _ _ _ _) as [b1| | |] eqn:E2; cbn [bind] in H; try discriminate. unfold MF_Regions, getf in H. rewrite Hx in H. cbn [bind] in H.
  set (rs := (if f_r0 x =? NULL then _ else _) ++ _) in H. set (b2 := if fst (cm_c m f) =? 3 then _ else b1) in H.
  assert (G : b2 = true /\ (f_r0 x <> NULL -> f_r1 x <> NULL -> f_r0 x <> f_r1 x /\ (r_bounded (cm_t m) (f_r0 x) f \/ r_bounded (cm_t m) (f_r1 x) f))).
  { assert (RB : forall r d, MR_FaceDir (cm_t m) r f = Ok d -> d <> -1 -> r_bounded (cm_t m) r f). { clear. unfold MR_FaceDir, getr. intros r d E N. destruct (trs (cm_t m) r) as [y|] eqn:Hy; cbn [bind] in E; [|discriminate]. destruct (r_faces y) as [l|] eqn:El; cbn [nn bind] in E; [|discriminate]. destruct (index_of f l) as [i|] eqn:Ei; [|congruence]. exists y, l. split; auto. split; auto. apply index_of_some in Ei. destruct Ei as (l1 & l2 & -> & _). apply in_or_app. cbn. auto. }
    subst rs. destruct (Z.eqb_spec (f_r0 x) NULL), (Z.eqb_spec (f_r1 x) NULL); cbn [app] in H; try (inversion H; split; [congruence|intros; congruence]).
    destruct (MR_FaceDir _ (f_r0 x) f) as [d0| | |] eqn:D0; cbn [bind] in H; try discriminate. destruct (MR_FaceDir _ (f_r1 x) f) as [d1| | |] eqn:D1; cbn [bind] in H; try discriminate. injection H as H'. ba. split; auto. intros _ _. split. { intros X. rewrite X in D0. rewrite D0 in D1. inversion D1; subst. lia. }
    destruct (Z.eq_dec d0 (-1)). right. eapply RB; eauto. lia. left. eapply RB; eauto. }
  destruct G as [G1 G2]. assert (b1 = true /\ (fst (cm_c m f) = 3 -> f_r0 x <> NULL /\ f_r1 x <> NULL)). { subst b2. destruct (Z.eqb_spec (fst (cm_c m f)) 3). ba. split; auto. intros _. subst rs. unfold ZL in *. destruct (Z.eqb_spec (f_r0 x) NULL), (Z.eqb_spec (f_r1 x) NULL); cbn in *; try discriminate; auto. split; [auto|intros; congruence]. }
  destruct H0 as [-> H0]. apply ck_fedges_true in E2. destruct E2 as [-> E2]. split; auto. intros _. exists x, l. auto.
Qed.

(** ** Regions *)
Lemma fd_get_inv : forall w i d, fd_get w i = Ok d -> d = b2z (Z.testbit (nth (Z.to_nat i / 32) w 0) (Z.of_nat (Z.to_nat i mod 32))) /\ 0 <= i.
Proof.
  unfold fd_get. intros w i d H. destruct (Z.ltb_spec i 0); [discriminate|]. unfold rdl in H. destruct (_ && _); cbn [bind] in H; [|discriminate]. inversion H; subst. split; auto.
  replace (Z.to_nat (i / 32)) with (Z.to_nat i / 32)%nat by (rewrite Z2Nat.inj_div by lia; reflexivity). replace (Z.of_nat (Z.to_nat i mod 32)) with (i mod 32) by (rewrite Nat2Z.inj_mod, Z2Nat.id by lia; reflexivity).
  set (x := nth _ w 0). change 1 with (Z.ones 1) at 1. rewrite Z.land_ones by lia. rewrite <- Z.bit0_mod. rewrite Z.shiftr_spec by lia. rewrite Z.add_0_l. destruct (Z.testbit x (i mod 32)); reflexivity.
Qed.
Lemma bit64_inv : forall w i d, bit64 w i = Ok d -> d = b2z (Z.testbit w i) /\ 0 <= i.
Proof.
  intros w i d H. destruct (Z.leb_spec 0 i), (Z.ltb_spec i 64). rewrite bit64_ok in H by lia. inversion H. auto. all: unfold bit64 in H; replace ((0 <=? i) && (i <? 64)) with false in H by lia; discriminate.
Qed.

Lemma foldM_range : forall S (P : Z -> S -> Prop) g n s s', foldM g s (zrange 0 n) = Ok s' -> 0 <= n -> P 0 s ->
  (forall k s s', 0 <= k < n -> P k s -> g s k = Ok s' -> P (k + 1) s') -> P n s'.
Proof.
  intros S P g n s s' E Hn H0 H. destruct (Z_of_nat_complete n Hn) as [m ->]. clear Hn. revert s' E H. induction m as [|m IH]; intros s' E H. { change (zrange 0 (Z.of_nat 0)) with (@nil Z) in E. inversion E; subst; auto. }
  replace (Z.of_nat (Datatypes.S m)) with (Z.of_nat m + 1) in * by lia. rewrite zrange_snoc in E by lia. rewrite foldM_app in E. destruct (foldM g s (zrange 0 (Z.of_nat m))) as [s1| | |] eqn:E1; cbn [bind foldM] in E; try discriminate. destruct (g s1 (Z.of_nat m)) as [s2| | |] eqn:E2; cbn [bind] in E; try discriminate. inversion E; subst s2.
  apply (H (Z.of_nat m) s1); auto. lia. apply IH; auto. intros. apply (H k s0); auto. lia.
Qed.
Lemma nth_nth_error : forall A (l : list A) i d, (i < length l)%nat -> nth_error l i = Some (nth i l d).
Proof. intros. apply nth_error_nth'. auto. Qed.
Lemma lent_inv : forall l i x, lent l i = Ok x -> x = nth (Z.to_nat i) l NULL /\ 0 <= i.
Proof. unfold lent. intros l i x H. destruct (Z.ltb_spec i 0); [discriminate|]. inversion H. auto. Qed.

(** A face of a region has the region on the side its direction tells. *)
Definition side_ok (t : topo) (r : ptr) (y : rrec) (i : nat) (f : ptr) : Prop :=
  exists x, tfs t f = Some x /\ (if face_dir y i then f_r0 x else f_r1 x) = r.
Lemma ck_rfaces_true : forall t r y b l b' ds, trs t r = Some y -> ck_rfaces t r b l = Ok (b', ds) ->
  length ds = length l /\ (forall i, (i < length l)%nat -> nth i ds 0 = b2z (face_dir y i)) /\
  (b' = true -> b = true /\ forall i f, nth_error l i = Some f -> side_ok t r y i f).
Proof.
  intros t r y b l b' ds Hy H. unfold ck_rfaces in H.
  apply (foldM_range _ (fun k s => length (snd s) = Z.to_nat k /\ (forall i, (i < Z.to_nat k)%nat -> nth i (snd s) 0 = b2z (face_dir y i)) /\ (fst s = true -> b = true /\ forall i f, (i < Z.to_nat k)%nat -> nth_error l i = Some f -> side_ok t r y i f))) in H.
  - cbn [fst snd] in H. unfold ZL in H. rewrite Nat2Z.id in H. destruct H as (H1 & H2 & H3). split; auto. split; auto. intros Hb. destruct (H3 Hb) as [H4 H5]. split; auto. intros i f Hi. apply H5; auto. apply nth_error_Some. congruence.
  - unfold ZL. lia.
  - cbn. split; auto. split. intros; lia. intros ->. split; auto. intros; lia.
  - intros k [b1 d1] [b2 d2] Hk (L & N & B) E. cbn [fst snd] in *. destruct (lent l k) as [f| | |] eqn:E1; cbn [bind] in E; try discriminate. apply lent_inv in E1. destruct E1 as [E1 _].
    unfold MR_FaceDir_i, getr in E. rewrite Hy in E. cbn [bind] in E. destruct (fd_get (r_fdirs y) k) as [d| | |] eqn:E2; cbn [bind] in E; try discriminate. apply fd_get_inv in E2. destruct E2 as [E2 _]. fold (face_dir y (Z.to_nat k)) in E2.
    destruct (MF_Region t f (lnot d)) as [r'| | |] eqn:E3; cbn [bind] in E; try discriminate. injection E as Eb Ed. subst b2 d2. replace (Z.to_nat (k + 1)) with (Datatypes.S (Z.to_nat k)) by lia. rewrite app_length. cbn [length]. split. lia. split.
    { intros i Hi. destruct (Nat.eq_dec i (Z.to_nat k)) as [->|]. rewrite app_nth2 by lia. rewrite L, Nat.sub_diag. cbn. auto. rewrite app_nth1 by lia. apply N. lia. }
    intros Hb. ba. destruct B as [-> B]; auto. split; auto. intros i g Hi Hg. destruct (Nat.eq_dec i (Z.to_nat k)) as [->|]; [|apply B; auto; lia]. assert (g = f). { erewrite nth_nth_error in Hg by (unfold ZL in Hk; lia). injection Hg as <-. subst f. reflexivity. } subst g.
    unfold MF_Region, getf in E3. unfold side_ok. destruct (tfs t f) as [x|]; cbn [bind] in E3; [|discriminate]. exists x. split; auto. subst d. destruct (face_dir y (Z.to_nat k)); cbn in E3; inversion E3; subst; lia.
Qed.

Lemma find_adj_true : forall t f e l h k k' g, find_adj t f e h (Z.of_nat k) l = Ok (true, k', g) -> exists i, nth_error l i = Some g /\ k' = Z.of_nat (k + i) /\ g <> f /\ f_bounded t g e.
Proof.
  induction l as [|a l IH]; intros h k k' g H; cbn [find_adj] in H. discriminate. replace (Z.of_nat k + 1) with (Z.of_nat (S k)) in H by lia. assert (G : find_adj t f e a (Z.of_nat (S k)) l = Ok (true, k', g) -> exists i, nth_error (a :: l) i = Some g /\ k' = Z.of_nat (k + i) /\ g <> f /\ f_bounded t g e).
  { intros Q. apply IH in Q. destruct Q as (i & Q1 & Q2 & Q3). exists (S i). split; auto. split; auto. lia. }
  destruct (Z.eqb_spec f a); auto. destruct (MF_UsesEdge t a e) as [u| | |] eqn:E; cbn [bind] in H; try discriminate. destruct u; auto. injection H as <- <-. exists 0%nat. split; auto. split. lia. split; auto.
  unfold MF_UsesEdge, getf in E. unfold f_bounded. destruct (tfs t a) as [x|]; cbn [bind] in E; [|discriminate]. destruct (f_edges x) as [l'|] eqn:El; cbn [nn bind] in E; [|discriminate]. inversion E as [E']. exists x, l'. split; auto. split; auto. apply mem_In. auto.
Qed.

(** Every edge of face i of the region is used by another face in the opposite
    direction. *)
Definition matched (t : topo) (y : rrec) (l : list ptr) (i : nat) (f : ptr) : Prop :=
  exists x es, tfs t f = Some x /\ f_edges x = Some es /\ forall j e, nth_error es j = Some e ->
  exists k g x' es' n, nth_error l k = Some g /\ g <> f /\ tfs t g = Some x' /\ f_edges x' = Some es' /\ nth_error es' n = Some e /\ opposite y x x' i k j n.
Lemma ck_region_true : forall m b r, ck_region m b r = Ok true -> b = true /\ (cm_ghost m r = false -> exists y l, trs (cm_t m) r = Some y /\ r_faces y = Some l /\
  forall i f, nth_error l i = Some f -> side_ok (cm_t m) r y i f /\ matched (cm_t m) y l i f).
Proof.
  intros m b r H. unfold ck_region in H. destruct (cm_ghost m r). { split; congruence. } unfold MR_Faces, getr in H. destruct (trs (cm_t m) r) as [y|] eqn:Hy; cbn [bind] in H; [|discriminate]. destruct (r_faces y) as [l|] eqn:Hl; cbn [nn bind] in H; [|discriminate].
  destruct (ck_rfaces _ _ _ _) as [[b1 ds]| | |] eqn:E1; cbn [bind] in H; try discriminate. destruct (ck_rfaces_true _ _ _ _ _ _ _ Hy E1) as (L & N & B).
  apply (foldM_true _ (fun i => forall f, nth_error l (Z.to_nat i) = Some f -> matched (cm_t m) y l (Z.to_nat i) f)) in H.
  - destruct H as [-> H]. destruct B as [-> B]; auto. split; auto. intros _. exists y, l. split; auto. split; auto. intros i f Hi. split. apply B; auto. rewrite <- (Nat2Z.id i). apply (H (Z.of_nat i)).
    { apply TopoProofs7.in_zrange. assert (i < length l)%nat by (apply nth_error_Some; congruence). unfold ZL. lia. } rewrite Nat2Z.id. auto.
  - clear H. intros v i Hi H. apply TopoProofs6.zrange_in in Hi. unfold ZL in Hi. destruct (lent l i) as [f| | |] eqn:E2; cbn [bind] in H; try discriminate. apply lent_inv in E2. destruct E2 as [E2 _].
    destruct (MF_Edges _ f 1 NULL) as [es| | |] eqn:E3; cbn [bind] in H; try discriminate. apply MF_Edges_null in E3. destruct E3 as (x & Hx & Hes).
    apply (foldM_true _ (fun j => forall e, nth_error es (Z.to_nat j) = Some e -> exists k g x' es' n, nth_error l k = Some g /\ g <> f /\ tfs (cm_t m) g = Some x' /\ f_edges x' = Some es' /\ nth_error es' n = Some e /\ opposite y x x' (Z.to_nat i) k (Z.to_nat j) n)) in H.
    + destruct H as [-> H]. split; auto. intros f' Hf'. assert (f' = f). { erewrite nth_nth_error in Hf' by lia. injection Hf' as <-. subst f. reflexivity. } subst f'. exists x, es. split; auto. split; auto. intros j e Hj. rewrite <- (Nat2Z.id j). apply (H (Z.of_nat j)).
      { apply TopoProofs7.in_zrange. assert (j < length es)%nat by (apply nth_error_Some; congruence). unfold ZL. lia. } rewrite Nat2Z.id. auto.
    + clear H. intros v' j Hj H. apply TopoProofs6.zrange_in in Hj. unfold ZL in Hj. unfold ck_redge in H. destruct (lent es j) as [e| | |] eqn:E4; cbn [bind] in H; try discriminate. apply lent_inv in E4. destruct E4 as [E4 _].
      unfold MF_EdgeDir_i, getf in H. rewrite Hx in H. cbn [bind] in H. destruct (bit64 (f_edirs x) j) as [d| | |] eqn:E5; cbn [bind] in H; try discriminate. apply bit64_inv in E5. destruct E5 as [E5 _].
      destruct (find_adj _ _ _ _ _ _) as [[[fo k] g]| | |] eqn:E6; cbn [bind] in H; try discriminate. destruct (MF_EdgeDir _ g e) as [d'| | |] eqn:E7; cbn [bind] in H; try discriminate. destruct (rdl ds i) as [di| | |] eqn:E8; cbn [bind] in H; try discriminate. destruct (rdl ds k) as [dk| | |] eqn:E9; cbn [bind] in H; try discriminate. injection H as H'. apply andb_prop in H'. destruct H' as [H' Ho]. ba. subst fo. split; auto.
      intros e' He'. assert (e' = e). { erewrite nth_nth_error in He' by lia. injection He' as <-. subst e. reflexivity. } subst e'. change 0 with (Z.of_nat 0) in E6. apply find_adj_true in E6. destruct E6 as (kn & K1 & K2 & K3 & K4). cbn [Nat.add] in K2.
      unfold MF_EdgeDir, getf in E7. destruct (tfs (cm_t m) g) as [x'|] eqn:Hx'; cbn [bind] in E7; [|discriminate]. destruct (f_edges x') as [es'|] eqn:Hes'; cbn [nn bind] in E7; [|discriminate]. destruct (index_of e es') as [n|] eqn:En; [|discriminate]. apply bit64_inv in E7. destruct E7 as [E7 _].
      exists kn, g, x', es', n. split; auto. split; auto. split; auto. split; auto. split. { apply index_of_some in En. destruct En as (l1 & l2 & -> & <- & _). rewrite nth_error_app2 by lia. rewrite Nat.sub_diag. reflexivity. }
      assert (Hkn : (kn < length l)%nat) by (apply nth_error_Some; congruence). unfold rdl in E8, E9. destruct (_ && _) in E8; [|discriminate]. destruct (_ && _) in E9; [|discriminate]. injection E8 as E8. injection E9 as E9. rewrite N in E8 by lia. subst k. rewrite Nat2Z.id in E9. rewrite N in E9 by lia.
      unfold opposite, edge_dir. rewrite Z2Nat.id by lia. rewrite <- E8, <- E9, E5, E7 in Ho. destruct (Z.testbit (f_edirs x) j), (Z.testbit (f_edirs x') (Z.of_nat n)), (face_dir y (Z.to_nat i)), (face_dir y kn); cbn in *; congruence.
Qed.
