(** Building faces and general polyhedra from vertices. *)
From Coq Require Import ZArith List Lia Bool Arith ZifyBool ZifyNat Permutation.
From Verif Require Import Base BaseProofs ListSpec HashProofs AttModel AttProps ParModel ParProps TopoModel TopoSpec TopoProofs TopoProofs2 TopoProofs3 TopoProofs4 TopoProofs5 TopoProofs6 TopoProofs7 TopoProps TopoProps2 TopoProps3 ModProofs ModProofs2 CellModel CellSpec CellProofs CellProofs2 CellProofs3 CellProofs4 CellProofs5 CellProofs6 BuildModel BuildProofs BuildProofs2 BuildProofs3 BuildProofs4.
Import ListNotations.
Open Scope Z_scope.

Lemma set_verts_ok : forall t a f vs, reach t a -> a_f a f = Some (true, None) -> NoDup vs -> (2 < length vs <= 30)%nat -> Forall (live_v a) vs -> exists t' a' nd, MF_Set_Vertices t f (ZL vs) vs = Ok t' /\ reach t' a' /\
  a_v a' = a_v a /\ a_r a' = a_r a /\ a_next a <= a_next a' /\ (forall e, e < a_next a -> a_e a' e = a_e a e) /\ (forall g, a_f a' g = if g =? f then Some (true, Some nd) else a_f a g) /\ follows a' vs nd.
Proof.
  intros t a f vs R Hf N L HL. unfold MF_Set_Vertices. replace (MAXPV2 <? ZL vs) with false by (unfold ZL, MAXPV2; lia).
  destruct (thread_ind _ _ (fun t i => p <- rdl vs i ;; q <- rdl vs (Z.rem (i + 1) (ZL vs)) ;; find_edge t p q)
    (fun t1 done ys => exists a1 nd, ys = map zb nd /\ reach t1 a1 /\ grows a a1 /\ a_f a1 = a_f a /\ Forall2 (fun x i => leads a1 x (nth (Z.to_nat i) vs NULL) (nth (S (Z.to_nat i) mod length vs) vs NULL)) nd done) (zrange 0 (ZL vs)) t) as (t1 & ys & E & a1 & nd & -> & R1 & G1 & F1 & D1).
  - exists a, []. split; auto. split; auto. split. apply grows_refl. auto.
  - intros t1 done i rest ys EL (a1 & nd & -> & R1 & G1 & F1 & D1). assert (Hi : 0 <= i < ZL vs). { assert (X : In i (zrange 0 (ZL vs))) by (rewrite EL; apply in_or_app; right; left; auto). apply (In_nth _ _ 0) in X. destruct X as (k & Hk & <-). rewrite zrange_length in Hk. rewrite nth_zrange by lia. lia. }
    unfold ZL in *. assert (EM : Z.rem (i + 1) (Z.of_nat (length vs)) = Z.of_nat (S (Z.to_nat i) mod length vs)). { rewrite Z.rem_mod_nonneg by lia. rewrite Nat2Z.inj_mod. f_equal. lia. }
    assert (M : (S (Z.to_nat i) mod length vs < length vs)%nat) by (apply Nat.mod_upper_bound; lia). rewrite EM, !rdl_ok by lia. cbn [bind]. rewrite Nat2Z.id. rewrite Forall_forall in HL. change 0 with NULL.
    destruct (find_edge_ok t1 a1 (nth (Z.to_nat i) vs NULL) (nth (S (Z.to_nat i) mod length vs) vs NULL) R1) as (t2 & a2 & x & E & R2 & G2 & F2 & L2 & _ & _).
    + apply (grows_live a a1 G1). apply HL, nth_In. lia.
    + apply (grows_live a a1 G1). apply HL, nth_In. lia.
    + intros X. apply nth_inj in X; auto; try lia. destruct (Nat.eq_dec (S (Z.to_nat i)) (length vs)) as [Y|Y]. rewrite Y, Nat.mod_same in X by lia. lia. rewrite Nat.mod_small in X by lia. lia.
    + exists t2, (zb x). split; auto. exists a2, (nd ++ [x]). split. rewrite map_app; auto. split; auto. split. eapply grows_trans; eauto. split. congruence. apply Forall2_app. eapply F2_imp; [|exact D1]. intros y j. apply (grows_leads t1 a1 a2 R1 G2). constructor; [auto|constructor].
  - rewrite E. cbn [bind]. rewrite zb_fst, zb_snd. pose proof (F2_length _ _ _ _ _ D1) as LN. rewrite zrange_length in LN. assert (FW : follows a1 vs nd). { split. unfold ZL in LN. lia. intros i Hi. pose proof (F2_nth _ _ _ _ _ dflt 0 i D1 ltac:(rewrite zrange_length; unfold ZL; lia)) as X. cbv beta in X. rewrite nth_zrange in X by (unfold ZL; lia). replace (Z.to_nat (0 + Z.of_nat i)) with i in X by lia. auto. }
    destruct (follows_ok a1 vs nd FW N) as (P1 & P2 & P3 & P4). lia. destruct FW as (FL & FW).
    destruct (reach_step t1 a1 (TSetEdges f nd) R1) as (t2 & E2 & R2). { cbn [tpre]. split. left. rewrite F1. auto. split; auto. split. unfold maxfe. lia. apply Forall_forall. intros x Hx. apply (In_nth _ _ dflt) in Hx. destruct Hx as (i & Hi & <-). destruct (FW i) as (y & Hy & _). lia. exists y. auto. }
    exists t2, (astep a1 (TSetEdges f nd)), nd. split. cbn [tstep] in E2. rewrite FL in E2. exact E2. split; [exact R2|]. destruct G1 as [G1 G2 G3 G4 G5]. split; [exact G1|]. split; [exact G2|]. split; [exact G3|]. split; [exact G4|]. split.
    + intros g. cbn [astep]. unfold set_fb, upd. cbn [with_f a_f]. rewrite F1. destruct (g =? f); auto. rewrite Hf. auto.
    + split; auto.
Qed.

(** ** Polyhedra *)
Section Poly.
Variables (t : topo) (a : amesh) (ws : list ptr) (r : ptr) (Ls : list (list Z)).
Notation vsz L := (map (W ws) (map Z.to_nat L)).
Hypothesis R : reach t a.
Hypothesis ND : NoDup ws.
Hypothesis LV : Forall (live_v a) ws.
Hypothesis HL : forall L, In L Ls -> (2 < length L <= 30)%nat /\ NoDup L /\ forall i, In i L -> 0 <= i < Z.of_nat (length ws).
Hypothesis DS : forall i j, (i < length Ls)%nat -> (j < length Ls)%nat -> (forall k, In k (nth i Ls []) <-> In k (nth j Ls [])) -> i = j.
Hypothesis HG : forall f e u w, In u ws -> In w ws -> has_edge a f e -> joins a e u w -> good_face a f.
Hypothesis HM : forall L f us, In L Ls -> outward a (f, true) us -> NoDup us -> (forall v, In v us <-> In v (vsz L)) -> exists d, outward a (f, d) (vsz L).
Hypothesis HF : forall L f d q, In L Ls -> outward a (f, d) (vsz L) -> ~ has_face a q f d.
Record poly_done (t2 : topo) (a2 : amesh) (b : list (ptr * bool)) (done : list (list Z)) : Prop := mkPD {
  pd_reach : reach t2 a2; pd_grows : grows a a2; pd_out : Forall2 (fun x L => outward a2 x (vsz L)) b done; pd_new : forall f, a_next a <= f -> a_f a2 f <> None -> In f (map fst b) }.
Lemma poly_loop : forall L, In L Ls -> NoDup (vsz L) /\ length (vsz L) = length L /\ (forall v, In v (vsz L) -> In v ws) /\ forall k, 0 <= k -> (Z.to_nat k < length ws)%nat -> In (W ws (Z.to_nat k)) (vsz L) -> In k L.
Proof using ND HL. clear -ND HL.
  intros L HI. destruct (HL L HI) as (L1 & L2 & L3). split; [|split; [|split]].
  - rewrite map_map. apply NoDup_map_on; auto. intros i j Hi Hj E. apply L3 in Hi. apply L3 in Hj. unfold W in E. apply nth_inj in E; auto; lia.
  - rewrite !map_length. auto.
  - intros v Hv. rewrite map_map in Hv. apply in_map_iff in Hv. destruct Hv as (i & <- & Hi). apply L3 in Hi. apply nth_In. lia.
  - intros k K0 Hk H. rewrite map_map in H. apply in_map_iff in H. destruct H as (i & E & Hi). pose proof (L3 i Hi). unfold W in E. apply nth_inj in E; auto; try lia. replace k with i by lia. auto.
Qed.
Lemma same_set : forall i j, (i < length Ls)%nat -> (j < length Ls)%nat -> (forall v, In v (vsz (nth i Ls [])) <-> In v (vsz (nth j Ls []))) -> i = j.
Proof using ND HL DS. clear -ND HL DS.
  intros i j Hi Hj H. apply DS; auto. pose proof (nth_In Ls [] Hi) as I1. pose proof (nth_In Ls [] Hj) as I2. destruct (poly_loop _ I1) as (_ & _ & _ & K1). destruct (poly_loop _ I2) as (_ & _ & _ & K2). destruct (HL _ I1) as (_ & _ & B1). destruct (HL _ I2) as (_ & _ & B2).
  intros k. split; intros X. pose proof (B1 k X). apply K2; try lia. apply H. rewrite map_map. apply (in_map (fun x => W ws (Z.to_nat x))); auto. pose proof (B2 k X). apply K1; try lia. apply H. rewrite map_map. apply (in_map (fun x => W ws (Z.to_nat x))); auto.
Qed.
Lemma poly_step : forall t2 a2 b done L rest, Ls = done ++ L :: rest -> poly_done t2 a2 b done -> exists t3 a3 x, poly_face ws t2 L = Ok (t3, zb x) /\ poly_done t3 a3 (b ++ [x]) (done ++ [L]).
Proof using R ND LV HL DS HG HM HF. clear r.
  intros t2 a2 b done L rest EL [D1 D2 D3 D4]. assert (HI : In L Ls) by (rewrite EL; apply in_or_app; right; left; auto). destruct (HL L HI) as (L1 & L2 & L3). destruct (poly_loop L HI) as (P1 & P2 & P3 & P4). unfold poly_face.
  replace (MAXPV2 <? Z.of_nat (length L)) with false by (unfold MAXPV2; lia).
  rewrite (mapM_ok _ _ (rdl ws) (fun i => W ws (Z.to_nat i))) by (intros i Hi; apply rdl_ok; auto). cbn [bind]. rewrite <- (map_map Z.to_nat (W ws)). set (vs := vsz L) in *.
  assert (LVS : Forall (live_v a2) vs). { apply Forall_forall. intros v Hv. apply (grows_live a a2 D2). rewrite Forall_forall in LV. auto. }
  assert (GOOD : forall f e u w, In u ws -> In w ws -> has_edge a2 f e -> joins a2 e u w -> good_face a2 f).
  { intros f e u w Hu Hw HE HJ. destruct (Z.lt_ge_cases f (a_next a)) as [Hf|Hf].
    - apply (grows_good t a a2); auto. apply (grows_has a a2 D2 f e Hf) in HE. eapply (HG f e u w); auto. assert (He : e < a_next a). { destruct HE as (fb & H & Hi). pose proof (face_edges_ok _ _ _ _ (reach_inv _ _ R) H) as EO. rewrite Forall_forall in EO. apply in_map_iff in Hi. destruct Hi as (y & <- & Hy). destruct (EO y Hy) as (p & Hp). apply (old_e t a R). congruence. } destruct HJ as (p & q & H & HH). exists p, q. rewrite <- (g_e _ _ D2 _ He). auto.
    - assert (Hb : In f (map fst b)). { apply D4; auto. destruct HE as (fb & H & _). congruence. } apply in_map_iff in Hb. destruct Hb as ([f' d] & Ef & Hb). cbn [fst] in Ef. subst f'. destruct (F2_In _ _ _ _ _ _ D3 Hb) as (L' & HL' & O). assert (HI' : In L' Ls) by (rewrite EL; apply in_or_app; auto). destruct (poly_loop L' HI') as (Q1 & Q2 & _). destruct (HL L' HI') as (Q3 & _). eapply outward_good; [exact O|auto|]. intros X. rewrite X in Q2. cbn in Q2. lia. }
  assert (LN : (2 < length vs)%nat) by lia.
  destruct (verts_common t2 a2 vs D1 P1 LN LVS) as (f & E & K). { intros f e HE HJ. eapply (GOOD f e); eauto; apply P3, nth_In; lia. }
  replace (Z.of_nat (length L)) with (ZL vs) by (unfold ZL; lia). rewrite E. cbn [bind]. destruct K as [->|(Nf & us & OU & NU & SU)].
  - rewrite Z.eqb_refl. destruct (reach_step t2 a2 TNewF D1 I) as (t0 & E0 & R0). cbn [tstep] in E0. assert (E0' : fst (MF_New t2) = t0) by congruence. assert (En : snd (MF_New t2) = a_next a2) by (cbn; apply (i_n _ _ (reach_inv _ _ D1))).
    destruct (MF_New t2) as [t0' f0]. cbn [fst snd] in *. subst t0' f0. set (a0 := astep a2 TNewF) in *. assert (V : a_v a0 = a_v a2 /\ a_e a0 = a_e a2 /\ a_r a0 = a_r a2 /\ a_next a0 = a_next a2 + 1 /\ forall g, a_f a0 g = if g =? a_next a2 then Some (true, None) else a_f a2 g). { unfold a0. cbn [astep]. ra. repeat split; auto. }
    destruct V as (V1 & V2 & V3 & V4 & V5). destruct (set_verts_ok t0 a0 (a_next a2) vs R0) as (t3 & a3 & nd & E3 & R3 & W1 & W2 & W3 & W4 & W5 & W6); auto. rewrite V5, Z.eqb_refl; auto. lia.
    rewrite E3. cbn [bind]. exists t3, a3, (a_next a2, true). split; auto. assert (G3 : grows a2 a3). { constructor. congruence. congruence. lia. intros e He. rewrite W4 by lia. congruence. intros g Hg. rewrite W5, V5. replace (g =? a_next a2) with false by lia. auto. }
    constructor; auto. eapply grows_trans; eauto.
    + apply Forall2_app. eapply F2_imp; [|exact D3]. intros x y. apply (grows_outward t2 a2 a3); auto. constructor; [|constructor]. destruct (follows_ok a3 vs nd W6 P1 LN) as (Q1 & _). exists nd. eexists. exists nd. cbn [fst snd walk]. rewrite W5, Z.eqb_refl. split; [reflexivity|]. split; [exact Q1|]. split. apply rotation_refl. apply follows_around; auto.
    + intros g Hg HX. rewrite W5, V5 in HX. rewrite map_app. apply in_or_app. destruct (Z.eqb_spec g (a_next a2)). right. left. auto. left. apply D4; auto.
  - replace (f =? NULL) with false by (symmetry; apply Z.eqb_neq; auto). assert (Hd : a_f a2 f <> None) by (destruct OU as (fb & _ & _ & H & _); cbn [fst] in H; congruence).
    assert (Hf : f < a_next a). { destruct (Z.lt_ge_cases f (a_next a)) as [|Hf]; auto. exfalso. pose proof (D4 f Hf Hd) as Hb. apply in_map_iff in Hb. destruct Hb as ([f' d] & Ef & Hb). cbn [fst] in Ef. subst f'. apply (In_nth _ _ dflt) in Hb. destruct Hb as (i & Hi & Eb). pose proof (F2_length _ _ _ _ _ D3) as FL. assert (Hi2 : (i < length done)%nat) by lia.
      pose proof (F2_nth _ _ _ _ _ dflt [] i D3 Hi2) as O. cbv beta in O. rewrite Eb in O. assert (Ei : nth i Ls [] = nth i done []) by (rewrite EL, app_nth1 by lia; auto). assert (Ej : nth (length done) Ls [] = L) by (rewrite EL, app_nth2, Nat.sub_diag by lia; auto). assert (LL : (length done < length Ls)%nat) by (rewrite EL, app_length; cbn [length]; lia).
      assert (i = length done); [|lia]. apply same_set; try lia. rewrite Ei, Ej. fold vs. intros v. rewrite <- SU. rewrite (outward_ends _ _ _ _ v O), (outward_ends _ _ _ _ v OU). tauto. }
    destruct (HM L f us HI) as (d & OD); auto. { apply (grows_outward_back t a a2); auto. } fold vs in OD. pose proof (grows_outward t a a2 _ _ R D2 OD) as OD2.
    destruct vs as [|v0 [|v1 [|v2 vs']]] eqn:EV; try (cbn in LN; lia). rewrite !rdl_ok by (cbn [length]; lia). cbn [bind]. change (nth (Z.to_nat 0) (v0 :: v1 :: v2 :: vs') 0) with v0. change (nth (Z.to_nat 1) (v0 :: v1 :: v2 :: vs') 0) with v1.
    rewrite (old_dir_ok t2 a2 f d _ _ _ _ D1 OD2 P1 (rotation_refl _ _)).
    + cbn [bind]. exists t2, a2, (f, d). split; auto. constructor; auto. apply Forall2_app; auto. constructor; [|constructor]. fold vs. rewrite EV. auto. intros g Hg HX. rewrite map_app. apply in_or_app. left. apply D4; auto.
    + discriminate.
    + eapply live_nn; [apply (reach_inv _ _ D1)|]. rewrite Forall_forall in LVS. apply LVS. left; auto.
    + intros q HQ. apply (grows_face a a2 D2) in HQ. revert HQ. apply (HF L); auto. fold vs. rewrite EV. auto.
Qed.
Hypothesis HR : a_r a r = Some (true, None) \/ a_r a r = Some (true, Some []).
Hypothesis NL : (length Ls <= 512)%nat.
Hypothesis NW : (length ws <= 200)%nat.
Lemma poly_build : exists t' a' b, MR_Set_Vertices_poly t r ws Ls = Ok t' /\ reach t' a' /\ typed t' r /\ a_v a' = a_v a /\ a_next a <= a_next a' /\
  (forall e, e < a_next a -> a_e a' e = a_e a e) /\ (forall f, f < a_next a -> a_f a' f = a_f a f) /\ (forall q, a_r a' q = if q =? r then Some (true, Some b) else a_r a q) /\ Forall2 (fun x L => outward a' x (vsz L)) b Ls.
Proof using R ND LV HL DS HG HM HF HR NL NW.
  destruct (thread_ind _ _ (poly_face ws) (fun t2 done ys => exists a2 b, ys = map zb b /\ poly_done t2 a2 b done) Ls t) as (t2 & ys & E & a2 & b & -> & [D1 D2 D3 D4]).
  - exists a, []. split; auto. constructor; auto. apply grows_refl. intros f Hf HX. apply (old_f t a R) in HX. lia.
  - intros t2 done L rest ys EL (a2 & b & -> & PD). destruct (poly_step t2 a2 b done L rest EL PD) as (t3 & a3 & x & E & PD3). exists t3, (zb x). split; auto. exists a3, (b ++ [x]). split; auto. rewrite map_app. auto.
  - pose proof (F2_length _ _ _ _ _ D3) as LB. destruct (set_faces_ok t2 a2 r b D1) as (t3 & a3 & E3 & R3 & V1 & V2 & V3 & V4 & V5 & V6).
    + rewrite (g_r _ _ D2). auto.
    + apply (NoDup_nth (map fst b) NULL). rewrite map_length. intros i j Hi Hj EE. rewrite !nth_fst in EE. assert (Hi2 : (i < length Ls)%nat) by lia. assert (Hj2 : (j < length Ls)%nat) by lia. pose proof (F2_nth _ _ _ _ _ dflt [] i D3 Hi2) as O1. pose proof (F2_nth _ _ _ _ _ dflt [] j D3 Hj2) as O2. cbv beta in *. destruct (nth i b dflt) as [f d], (nth j b dflt) as [f' d']. cbn [fst] in EE. subst f'.
      apply same_set; auto. intros v. rewrite (outward_ends _ _ _ _ v O1), (outward_ends _ _ _ _ v O2). tauto.
    + lia.
    + apply Forall_forall. intros x Hx. destruct (F2_In _ _ _ _ _ _ D3 Hx) as (L & _ & (fb & _ & _ & H & _)). exists fb. auto.
    + intros f d q Hi HQ. exfalso. destruct (F2_In _ _ _ _ _ _ D3 Hi) as (L & HI & O). apply (grows_face a a2 D2) in HQ. assert (Hf : f < a_next a). { destruct HQ as (c & Hc & Hi'). pose proof (w_rf _ (i_w _ _ (reach_inv _ _ R)) q c Hc) as FU. rewrite Forall_forall in FU. apply FU in Hi'. destruct Hi' as (x & Hx). cbn [fst] in Hx. apply (old_f t a R). congruence. }
      revert HQ. apply (HF L); auto. apply (grows_outward_back t a a2); auto.
    + exists t3, a3, b. split. { unfold MR_Set_Vertices_poly. unfold ZL. unfold MAXPV3, MAXPF3. replace (200 <? Z.of_nat (length ws)) with false by lia. replace (512 <? Z.of_nat (length Ls)) with false by lia. cbn [orb]. rewrite E. cbn [bind]. rewrite <- LB, zb_fst, zb_snd. exact E3. }
      destruct D2 as [G1 G2 G3 G4 G5]. split; auto. split; auto. split. congruence. split. lia. split. intros e He. rewrite V2; auto. split. intros f Hf. rewrite V3; auto. split. intros q. rewrite V5, G2. auto. eapply F2_imp; [|exact D3]. intros [f d] L. apply outward_same. intros fb Hb. rewrite V3. split; auto. intros e _. rewrite V2. auto.
Qed.
End Poly.
