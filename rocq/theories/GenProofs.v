(** Building faces and regions whose edges and faces exist already. *)
From Coq Require Import ZArith List Lia Bool Arith ZifyBool ZifyNat Permutation.
From Verif Require Import Base BaseProofs ListSpec HashProofs AttModel AttProps ParModel ParProps TopoModel TopoSpec TopoProofs TopoProofs2 TopoProofs3 TopoProofs4 TopoProofs5 TopoProofs6 TopoProofs7 TopoProps TopoProps2 TopoProps3 ModProofs ModProofs2 CellModel CellSpec CellProofs CellProofs2 CellProofs3 CellProofs4 CellProofs5 CellProofs6 BuildModel BuildProofs BuildProofs2 BuildProofs3 BuildProofs4 BuildProofs5.
Import ListNotations.
Open Scope Z_scope.

Lemma find_edge_old : forall t a p q e0, reach t a -> live_v a p -> live_v a q -> p <> q -> joins a e0 p q -> exists x, find_edge t p q = Ok (t, zb x) /\ leads a x p q.
Proof.
  intros t a p q e0 R Hp Hq N J. pose proof (reach_inv _ _ R) as I. destruct (common_edge t a p q R Hp N (live_nn _ _ _ I Hq)) as (e & E & K). unfold find_edge. rewrite E. cbn [bind]. destruct K as [(Ne & (u & w & He & K))|(-> & K)]; [|exfalso; apply (K e0 J)].
  replace (e =? NULL) with false by (symmetry; apply Z.eqb_neq; auto). pose proof (vat_ok t a (e, true) I) as V. cbn [fst snd b2z] in V. change (lnot 1) with 0 in V. rewrite V by (exists (u, w); auto). cbn [bind]. unfold vat. cbn [fst snd]. rewrite He. cbn [d_start fst].
  exists (e, u =? p). split; auto. exists (u, w). cbn [fst snd]. split; auto. destruct K as [(-> & ->)|(-> & ->)]. rewrite Z.eqb_refl. auto. replace (q =? p) with false by lia. auto.
Qed.
Lemma set_verts_old : forall t a f vs, reach t a -> a_f a f = Some (true, None) -> NoDup vs -> (2 < length vs <= 30)%nat -> Forall (live_v a) vs ->
  (forall i, (i < length vs)%nat -> exists e, joins a e (nth i vs NULL) (nth (S i mod length vs) vs NULL)) ->
  exists t' a' nd, MF_Set_Vertices t f (ZL vs) vs = Ok t' /\ reach t' a' /\
  a_v a' = a_v a /\ a_e a' = a_e a /\ a_r a' = a_r a /\ a_next a' = a_next a /\ (forall g, a_f a' g = if g =? f then Some (true, Some nd) else a_f a g) /\ follows a' vs nd.
Proof.
  intros t a f vs R Hf N L HL HJ. unfold MF_Set_Vertices. replace (MAXPV2 <? ZL vs) with false by (unfold ZL, MAXPV2; lia).
  destruct (thread_ind _ _ (fun t i => p <- rdl vs i ;; q <- rdl vs (Z.rem (i + 1) (ZL vs)) ;; find_edge t p q)
    (fun t1 done ys => exists nd, t1 = t /\ ys = map zb nd /\ Forall2 (fun x i => leads a x (nth (Z.to_nat i) vs NULL) (nth (S (Z.to_nat i) mod length vs) vs NULL)) nd done) (zrange 0 (ZL vs)) t) as (t1 & ys & E & nd & -> & -> & D1).
  - exists []. auto.
  - intros t1 done i rest ys EL (nd & -> & -> & D1). assert (Hi : 0 <= i < ZL vs). { assert (X : In i (zrange 0 (ZL vs))) by (rewrite EL; apply in_or_app; right; left; auto). apply (In_nth _ _ 0) in X. destruct X as (k & Hk & <-). rewrite zrange_length in Hk. rewrite nth_zrange by lia. lia. }
    unfold ZL in *. assert (EM : Z.rem (i + 1) (Z.of_nat (length vs)) = Z.of_nat (S (Z.to_nat i) mod length vs)). { rewrite Z.rem_mod_nonneg by lia. rewrite Nat2Z.inj_mod. f_equal. lia. }
    assert (M : (S (Z.to_nat i) mod length vs < length vs)%nat) by (apply Nat.mod_upper_bound; lia). rewrite EM, !rdl_ok by lia. cbn [bind]. rewrite Nat2Z.id. rewrite Forall_forall in HL. change 0 with NULL. destruct (HJ (Z.to_nat i)) as (e0 & J); [lia|].
    destruct (find_edge_old t a (nth (Z.to_nat i) vs NULL) (nth (S (Z.to_nat i) mod length vs) vs NULL) e0 R) as (x & E & LX); auto.
    + apply HL, nth_In. lia.
    + apply HL, nth_In. lia.
    + intros X. apply nth_inj in X; auto; try lia. destruct (Nat.eq_dec (S (Z.to_nat i)) (length vs)) as [Y|Y]. rewrite Y, Nat.mod_same in X by lia. lia. rewrite Nat.mod_small in X by lia. lia.
    + exists t, (zb x). split; auto. exists (nd ++ [x]). split; auto. split. rewrite map_app; auto. apply Forall2_app; auto.
  - rewrite E. cbn [bind]. rewrite zb_fst, zb_snd. pose proof (F2_length _ _ _ _ _ D1) as LN. rewrite zrange_length in LN. assert (FW : follows a vs nd). { split. unfold ZL in LN. lia. intros i Hi. pose proof (F2_nth _ _ _ _ _ dflt 0 i D1 ltac:(rewrite zrange_length; unfold ZL; lia)) as X. cbv beta in X. rewrite nth_zrange in X by (unfold ZL; lia). replace (Z.to_nat (0 + Z.of_nat i)) with i in X by lia. auto. }
    destruct (follows_ok a vs nd FW N) as (P1 & P2 & P3 & P4). lia. destruct FW as (FL & FW).
    destruct (reach_step t a (TSetEdges f nd) R) as (t2 & E2 & R2). { cbn [tpre]. split. left. auto. split; auto. split. unfold maxfe. lia. apply Forall_forall. intros x Hx. apply (In_nth _ _ dflt) in Hx. destruct Hx as (i & Hi & <-). destruct (FW i) as (y & Hy & _). lia. exists y. auto. }
    exists t2, (astep a (TSetEdges f nd)), nd. split. cbn [tstep] in E2. rewrite FL in E2. exact E2. split; [exact R2|]. split; [reflexivity|]. split; [reflexivity|]. split; [reflexivity|]. split; [reflexivity|]. split.
    + intros g. cbn [astep]. unfold set_fb, upd. cbn [with_f a_f]. destruct (g =? f); auto. rewrite Hf. auto.
    + split; auto.
Qed.

(** ** Regions *)
Section Old.
Variables (s : shape) (t : topo) (a : amesh) (ws : list ptr) (r : ptr).
Hypothesis HS : In s std.
Hypothesis R : reach t a.
Hypothesis CV : cverts a s ws.
Hypothesis HG : forall f e u w, In u ws -> In w ws -> has_edge a f e -> joins a e u w -> good_face a f.
Hypothesis HF : forall L f d q, In L (s_loops s) -> outward a (f, d) (map (W ws) L) -> ~ has_face a q f d.
Hypothesis HR : a_r a r = Some (true, None) \/ a_r a r = Some (true, Some []).
Hypothesis HE : forall p, In p (s_edges s) -> exists e, joins a e (W ws (fst p)) (W ws (snd p)).
Hypothesis HL : forall L, In L (s_loops s) -> exists x, outward a x (map (W ws) L).
Hypothesis UJ : forall e e' u w, In u ws -> In w ws -> joins a e u w -> joins a e' u w -> e = e'.
Lemma build_old : exists t' a' b, MR_Set_Vertices t r ws = Ok t' /\ reach t' a' /\ typed t' r /\ a_v a' = a_v a /\ (forall e, a_e a' e = a_e a e) /\ (forall f, a_f a' f = a_f a f) /\
  a_next a <= a_next a' /\ (forall q, a_r a' q = if q =? r then Some (true, Some b) else a_r a q) /\ Forall2 (fun x L => outward a' x (map (W ws) L)) b (s_loops s) /\ cell a' s b ws.
Proof.
  destruct (build_core s t a ws r HS R CV HG HF HR) as (t' & a' & b & es & E & B). pose proof (built_out s a ws r HS t' a' b es B) as BO. pose proof (built_cell s a ws r HS CV t' a' b es B) as BC. destruct B as [B1 B2 B3 B4 B5 B6 B7 B8 B9 B10 B11 B12 B13].
  assert (OE : forall x, In x es -> fst x < a_next a). { intros x Hx. destruct (F2_In _ _ _ _ _ x B10 Hx) as (p & Hp & K). destruct (HE p Hp) as (e & J). destruct (Z.lt_ge_cases (fst x) (a_next a)); auto. exfalso. eapply K; eauto. }
  assert (AE : forall e, a_e a' e = a_e a e). { intros e. destruct (Z.lt_ge_cases e (a_next a)) as [H|H]; auto. destruct (a_e a e) eqn:X. { assert (Y : a_e a e <> None) by congruence. apply (old_e t a R) in Y. lia. } destruct (a_e a' e) eqn:Y; auto. exfalso. assert (Z1 : In e (map fst es)) by (apply B11; [auto|congruence]). apply in_map_iff in Z1. destruct Z1 as (x & <- & Hx). apply OE in Hx. lia. }
  assert (LE : leads_all a ws es (s_edges s)). { eapply F2_imp; [|exact B9]. intros x p (y & H & K). exists y. rewrite <- AE. auto. }
  assert (OF : forall x, In x b -> fst x < a_next a).
  { intros x Hx. destruct (F2_In _ _ _ _ _ x B13 Hx) as (tp & Htp & K). destruct (Z.lt_ge_cases (fst x) (a_next a)); auto. exfalso. pose proof (loopn_in s tp HS Htp) as LI. destruct (HL _ LI) as ([f d] & O). apply (K ltac:(auto) f). intros e He.
    pose proof (sub_follows s a ws es tp HS Htp LE) as (FL & FW). apply (In_nth _ _ NULL) in He. destruct He as (k & Hk & <-). rewrite map_length in Hk. rewrite nth_fst. set (L := loopn (s_edges s) tp) in *. specialize (FW k ltac:(lia)).
    destruct O as (fb & u & c & O1 & O2 & O3 & (O4 & O5)). cbn [fst snd] in *. destruct (nth_error c k) as [[g dg]|] eqn:Ek; [|apply nth_error_None in Ek; lia]. destruct (O5 k g dg Ek) as (y & v & w & Y1 & Y2 & Y3 & Y4 & Y5).
    assert (Vk : v = nth k (map (W ws) L) NULL) by (erewrite nth_error_nth; eauto). assert (Wk : w = nth (S k mod length (map (W ws) L)) (map (W ws) L) NULL). { rewrite O4. erewrite nth_error_nth; eauto. }
    assert (J1 : joins a g v w). { apply (leads_joins a (g, dg)). exists y. cbn [fst snd]. rewrite Y4, Y5. auto. }
    assert (J2 : joins a (fst (nth k es dflt)) v w \/ True) by auto. clear J2. apply leads_joins in FW. rewrite <- Vk, <- Wk in FW.
    assert (IN : forall z, In z (map (W ws) L) -> In z ws). { intros z Hz. apply in_map_iff in Hz. destruct Hz as (i & <- & Hi). destruct CV as (CL & _). apply nth_In. rewrite CL. destruct (shape_loop s L (shapes_ok s HS) LI) as (_ & Hb & _). auto. }
    assert (EG : fst (nth k (sub es tp) dflt) = g). { eapply UJ; [| |exact FW|exact J1]; apply IN; eapply nth_error_In; eauto. }
    rewrite EG. exists fb. split; auto. apply (rot_edges _ _ _ g O3). apply in_map_iff. exists (g, dg). split; auto. eapply nth_error_In; eauto. }
  exists t', a', b. split; auto. split; auto. split; auto. split; auto. split; auto. split; [|split; [|split; [|split]]]; auto.
  intros f. destruct (Z.lt_ge_cases f (a_next a)) as [H|H]; auto. destruct (a_f a f) eqn:X. { assert (Y : a_f a f <> None) by congruence. apply (old_f t a R) in Y. lia. } destruct (a_f a' f) eqn:Y; auto. exfalso. assert (Z1 : In f (map fst b)) by (apply B12; [auto|congruence]). apply in_map_iff in Z1. destruct Z1 as (x & <- & Hx). apply OF in Hx. lia.
Qed.
End Old.
