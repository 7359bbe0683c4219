(** Structured meshes in 2D. *)
From Coq Require Import ZArith List Lia Bool Arith ZifyBool ZifyNat Permutation.
From Verif Require Import Base BaseProofs ListSpec HashProofs HashProofs2 AttModel AttProps ParModel ParProps TopoModel TopoSpec TopoProofs TopoProofs2 TopoProofs3 TopoProofs4 TopoProofs5 TopoProofs6 TopoProofs7 TopoProps TopoProps2 TopoProps3 ModProofs ModProofs2 CellModel CellSpec CellProofs CellProofs2 CellProofs3 CellProofs4 CellProofs5 CellProofs6 BuildModel BuildProofs BuildProofs2 BuildProofs3 BuildProofs4 BuildProofs5 BuildProps GenModel GenSpec GenProofs GenProofs2 GenProofs3 GenProofs4 GenProofs5.
Import ListNotations.
Open Scope Z_scope.

Lemma set_edges_follow : forall t a f vs nd, reach t a -> a_f a f = Some (true, None) -> NoDup vs -> (2 < length vs <= 30)%nat -> follows a vs nd ->
  exists t' a', MF_Set_Edges t f (ZL vs) (map fst (map zb nd)) (map snd (map zb nd)) = Ok t' /\ reach t' a' /\
  a_v a' = a_v a /\ a_e a' = a_e a /\ a_r a' = a_r a /\ a_next a' = a_next a /\ (forall g, a_f a' g = if g =? f then Some (true, Some nd) else a_f a g) /\ follows a' vs nd.
Proof.
  intros t a f vs nd R Hf N L FW. rewrite zb_fst, zb_snd. destruct (follows_ok a vs nd FW N) as (P1 & P2 & P3 & P4). lia. pose proof FW as (FL & FE).
  destruct (reach_step t a (TSetEdges f nd) R) as (t2 & E2 & R2). { cbn [tpre]. split. left. auto. split; auto. split. unfold maxfe. lia. apply Forall_forall. intros x Hx. apply (In_nth _ _ dflt) in Hx. destruct Hx as (i & Hi & <-). destruct (FE i) as (y & Hy & _). lia. exists y. auto. }
  exists t2, (astep a (TSetEdges f nd)). split. cbn [tstep] in E2. rewrite FL in E2. exact E2. split; [exact R2|]. split; [reflexivity|]. split; [reflexivity|]. split; [reflexivity|]. split; [reflexivity|]. split.
  - intros g. cbn [astep]. unfold set_fb, upd. cbn [with_f a_f]. destruct (g =? f); auto. rewrite Hf. auto.
  - split; auto.
Qed.

Section Gen2.
Variables (nx ny : Z).
Hypothesis (Hx : 1 <= nx) (Hy : 1 <= ny).
Notation n := (nx, ny, 0).

(** ** Vertices *)
Definition cls2_v (p : point) : Z * Z := let '(i, j, k) := p in class2_v nx ny i j.
Definition swap2 (l : Z * Z) : point := (snd l, fst l, 0).
Lemma verts2_ok : forall s, verts_done n cls2_v [] s amesh0 -> exists s' a' pts, foldM (vertex2 nx ny) s (loop2 (zrange 0 (ny + 1)) (zrange 0 (nx + 1))) = Ok s' /\ verts_done n cls2_v pts s' a' /\ (forall p, In p pts <-> within n p).
Proof using Hx Hy.
  intros s H0. set (l := loop2 _ _). assert (ND : NoDup l) by (apply loop2_nd; apply zrange_nd).
  assert (IN : forall i j, In (j, i) l <-> within n (i, j, 0)). { intros i j. unfold l. rewrite loop2_in, !zr_in. unfold within. lia. }
  destruct (foldM_list gen (Z * Z) (fun pre s => exists a, verts_done n cls2_v (map swap2 pre) s a) (vertex2 nx ny) l s) as (s' & E & a' & D).
  - exists amesh0. auto.
  - intros pre [j i] suf s1 EL (a & D). assert (HW : within n (i, j, 0)) by (apply IN; rewrite EL; apply in_or_app; right; left; auto). pose proof (nd_mid _ _ _ _ _ ND EL) as NI. assert (NI' : ~ In (i, j, 0) (map swap2 pre)). { intros X. apply in_map_iff in X. destruct X as ([j' i'] & E & X). cbn in E. inversion E; subst. auto. }
    destruct (vert_step n cls2_v _ s1 a _ D NI' HW) as (s2 & a2 & E2 & D2). exists s2. rewrite map_app. cbn [map swap2 fst snd]. split; [|exists a2; auto]. exact E2.
  - exists s', a', (map swap2 l). split; auto. split; auto. intros [[i j] k]. rewrite in_map_iff. split. intros ([a b] & E' & H). cbn in E'. inversion E'; subst. apply IN; auto. intros H. exists (j, i). assert (k = 0) by (unfold within in H; lia). subst k. split; auto. apply IN; auto.
Qed.

Variables (s0 : gen) (a0 : amesh) (pts : list point).
Hypothesis D0 : verts_done n cls2_v pts s0 a0.
Hypothesis P0 : forall p, In p pts <-> within n p.
Notation V := (VV (gn_tab s0)).
Lemma V_some2 : forall p, within n p -> gn_tab s0 p = Some (V p).
Proof using D0 P0. intros p H. apply P0, (vd_tab _ _ _ _ _ D0) in H. unfold VV. destruct (gn_tab s0 p); congruence. Qed.
Lemma V_live2 : forall p, within n p -> live_v a0 (V p).
Proof using D0 P0. intros p H. apply V_some2 in H. apply (vd_live _ _ _ _ _ D0) in H. apply H. Qed.
Lemma V_inj2 : forall p q, within n p -> within n q -> V p = V q -> p = q.
Proof using D0 P0. intros p q H1 H2 E. apply V_some2 in H1, H2. rewrite E in H1. eapply (vd_inj _ _ _ _ _ D0); eauto. Qed.

(** ** Edges *)
Definition cls2_e (x : axis * point) : Z * Z := let '(d, (i, j, k)) := x in
  match d with
  | AX => if j =? 0 then (1, 1) else if j =? ny then (1, 3) else (2, 1)
  | _ => if i =? 0 then (1, 4) else if i =? nx then (1, 2) else (2, 1)
  end.
Record edges2 (es : list ((axis * point) * ptr)) (s : gen) (a : amesh) : Prop := mkE2 {
  e2_reach : reach (gn_t s) a; e2_tab : gn_tab s = gn_tab s0; e2_v : a_v a = a_v a0; e2_n : a_next a0 <= a_next a;
  e2_c : forall x, x < a_next a0 -> gn_c s x = gn_c s0 x;
  e2_nd : NoDup (map fst es); e2_is : forall x e, In (x, e) es -> is_e n x;
  e2_in : forall x e, In (x, e) es -> joins a e (V (snd x)) (V (step (fst x) (snd x))) /\ gn_c s e = cls2_e x;
  e2_all : forall e, a_e a e <> None -> exists x, In (x, e) es }.
Lemma pair2 : forall x x', is_e n x -> is_e n x' ->
  (V (snd x) = V (snd x') /\ V (step (fst x) (snd x)) = V (step (fst x') (snd x'))) \/ (V (snd x) = V (step (fst x') (snd x')) /\ V (step (fst x) (snd x)) = V (snd x')) -> x = x'.
Proof using D0 P0.
  intros [d p] [d' q] (W1 & W2) (W3 & W4) K. cbn [fst snd] in *. apply step_pair. destruct K as [(K1 & K2)|(K1 & K2)]; apply V_inj2 in K1; apply V_inj2 in K2; auto.
Qed.
Lemma joins_same2 : forall a e u w u' w', joins a e u w -> joins a e u' w' -> (u = u' /\ w = w') \/ (u = w' /\ w = u').
Proof using. intros a e u w u' w' (p & q & H & K) (p' & q' & H' & K'). rewrite H in H'. inversion H'; subst p' q'. destruct K as [(K1 & K2)|(K1 & K2)], K' as [(K3 & K4)|(K3 & K4)]; subst; auto. Qed.
Lemma unique2 : forall es s a e e' u w, edges2 es s a -> joins a e u w -> joins a e' u w -> e = e'.
Proof using D0 P0.
  intros es s a e e' u w G J J'. pose proof J as (p & q & H & _). pose proof J' as (p' & q' & H' & _). assert (X : a_e a e <> None) by congruence. assert (X' : a_e a e' <> None) by congruence. apply (e2_all _ _ _ G) in X, X'. destruct X as (x & X), X' as (x' & X').
  destruct (e2_in _ _ _ G _ _ X) as (A & _). destruct (e2_in _ _ _ G _ _ X') as (A' & _). pose proof (joins_same2 _ _ _ _ _ _ J A) as B. pose proof (joins_same2 _ _ _ _ _ _ J' A') as B'.
  assert (x = x') by (apply pair2; [apply (e2_is _ _ _ G _ _ X)|apply (e2_is _ _ _ G _ _ X')|destruct B as [(B1 & B2)|(B1 & B2)], B' as [(B3 & B4)|(B3 & B4)]; [left|right|right|left]; split; congruence]). subst x'. eapply assoc_fun; eauto. apply (e2_nd _ _ _ G).
Qed.
Lemma edge2_ok : forall es s a x bnd gid p q, edges2 es s a -> is_e n x -> ((p, 0), (q, 0)) = (snd x, step (fst x) (snd x)) \/ ((q, 0), (p, 0)) = (snd x, step (fst x) (snd x)) ->
  cls2_e x = (if bnd : bool then (1, gid) else (2, 1)) -> exists s' a' es' y, edge2 nx ny bnd gid p q s = Ok (s', zb y) /\ edges2 es' s' a' /\ incl es es' /\ In (x, fst y) es' /\ leads a' y (V (p, 0)) (V (q, 0)) /\
  a_f a' = a_f a /\ grows a a' /\ (forall z, z < a_next a -> gn_c s' z = gn_c s z).
Proof using D0 P0.
  intros es s a x bnd gid p q G HE HP HC. pose proof G as [G1 G2 G3 G4 G5 G6 G7 G8 G9]. destruct HE as (W1 & W2). assert (WP : within n (p, 0) /\ within n (q, 0)) by (destruct HP as [HP|HP]; apply pair_equal_spec in HP; destruct HP as (H1 & H2); rewrite H1, H2; auto). destruct WP as (WP & WQ).
  unfold edge2. rewrite !vget_ok by (auto; rewrite G2, V_some2; auto; congruence). rewrite G2. cbn [bind]. assert (LV : forall p, within n p -> live_v a (V p)) by (intros r H; unfold live_v; rewrite G3; apply V_live2; auto).
  assert (NE : V (p, 0) <> V (q, 0)). { intros X. apply V_inj2 in X; auto. destruct x as [[] [[i j] k]]; cbn in HP; destruct HP as [HP|HP]; inversion HP; subst; inversion X; lia. }
  assert (NQ : V (q, 0) <> NULL). { eapply live_nn. apply (reach_inv _ _ G1). apply LV; auto. }
  assert (JX : forall b e, joins b e (V (snd x)) (V (step (fst x) (snd x))) <-> joins b e (V (p, 0)) (V (q, 0))). { intros b e. destruct HP as [HP|HP]; apply pair_equal_spec in HP; destruct HP as (H1 & H2); rewrite H1, H2. tauto. split; apply joins_sym. }
  destruct (common_edge _ a (V (p, 0)) (V (q, 0)) G1 (LV _ WP) NE NQ) as (e & E & K). rewrite E. cbn [bind]. destruct K as [(Ne & J)|(-> & K)].
  - replace (e =? NULL) with false by (symmetry; apply Z.eqb_neq; auto). pose proof J as (u & w & He & K). pose proof (vat_ok (gn_t s) a (e, true) (reach_inv _ _ G1)) as VA. cbn [fst snd b2z] in VA. change (lnot 1) with 0 in VA. rewrite VA by (exists (u, w); auto). cbn [bind]. unfold vat. cbn [fst snd]. rewrite He. cbn [d_start fst].
    exists s, a, es, (e, u =? V (p, 0)). split; auto. split; auto. split. apply incl_refl. split.
    { assert (X : a_e a e <> None) by congruence. destruct (G9 e X) as (x' & Hi). cbn [fst]. destruct (G8 _ _ Hi) as (A & _). replace x with x'; auto. apply pair2. eapply G7; eauto. split; auto. apply JX in J. apply (joins_same2 _ _ _ _ _ _ A J). }
    split. exists (u, w). cbn [fst snd]. split; auto. destruct K as [(-> & ->)|(-> & ->)]. rewrite Z.eqb_refl. auto. replace (V (q, 0) =? V (p, 0)) with false by lia. auto. split; auto. split; auto. apply grows_refl.
  - rewrite Z.eqb_refl. destruct (new_edge_ok _ a _ _ G1 (LV _ WP) (LV _ WQ)) as (t1 & t2 & a' & E1 & E2 & En & R' & V1 & V2 & V3 & V4 & V5). cbn [made gn_t]. rewrite E1. cbn [bind]. rewrite E2. cbn [bind].
    assert (FR : ~ In x (map fst es)). { intros X. apply in_map_iff in X. destruct X as ([x' e'] & <- & Hi). destruct (G8 _ _ Hi) as (A & _). cbn [fst] in *. apply JX in A. apply (K e' A). }
    eexists. exists a', (es ++ [(x, a_next a)]), (a_next a, true). split; [rewrite En; reflexivity|].
    assert (CU : forall z, gn_c (if bnd then set_gid (set_gdim (set_t (made s (ME_New (gn_t s)) 4) t2) (a_next a) 1) (a_next a) gid else set_gid (set_gdim (set_t (made s (ME_New (gn_t s)) 4) t2) (a_next a) 2) (a_next a) 1) z = if z =? a_next a then cls2_e x else gn_c s z). { intros z. rewrite HC. destruct bnd; cbn [set_gid set_gdim set_t made gn_c]; rewrite ?En, cls_upd; auto. }
    assert (TU : gn_t (if bnd then set_gid (set_gdim (set_t (made s (ME_New (gn_t s)) 4) t2) (a_next a) 1) (a_next a) gid else set_gid (set_gdim (set_t (made s (ME_New (gn_t s)) 4) t2) (a_next a) 2) (a_next a) 1) = t2) by (destruct bnd; reflexivity).
    assert (TB : gn_tab (if bnd then set_gid (set_gdim (set_t (made s (ME_New (gn_t s)) 4) t2) (a_next a) 1) (a_next a) gid else set_gid (set_gdim (set_t (made s (ME_New (gn_t s)) 4) t2) (a_next a) 2) (a_next a) 1) = gn_tab s) by (destruct bnd; reflexivity).
    split.
    { constructor; rewrite ?TU, ?TB; auto.
      - congruence.
      - lia.
      - intros z Hz'. rewrite CU. replace (z =? a_next a) with false by lia. auto.
      - rewrite map_app. apply NoDup_app_intro'; auto. repeat constructor; auto. intros z Z1 [<-|[]]. auto.
      - intros y e H. apply in_app_or in H. destruct H as [H|[H|[]]]. eauto. inversion H; subst. split; auto.
      - intros y e H. rewrite CU. apply in_app_or in H. destruct H as [H|[H|[]]].
        + destruct (G8 y e H) as ((u & w & K1 & K2) & K3). assert (X : a_e a e <> None) by congruence. apply (old_e _ _ G1) in X. replace (e =? a_next a) with false by lia. split; auto. exists u, w. rewrite V5. replace (e =? a_next a) with false by lia. auto.
        + inversion H; subst. rewrite Z.eqb_refl. split; auto. apply JX. exists (V (p, 0)), (V (q, 0)). rewrite V5, Z.eqb_refl. auto.
      - intros e H. rewrite V5 in H. destruct (Z.eqb_spec e (a_next a)). exists x. apply in_or_app. right. left. congruence. destruct (G9 e H) as (y & Hi). exists y. apply in_or_app; auto. }
    split. intros y Hy'. apply in_or_app; auto. split. apply in_or_app. right. left. auto. split. exists (V (p, 0), V (q, 0)). cbn [fst snd]. rewrite V5, Z.eqb_refl. auto. split; auto. split.
    constructor; auto; try lia. intros e He. rewrite V5. replace (e =? a_next a) with false by lia. auto. intros f Hf. rewrite V2. auto. intros z Hz'. rewrite CU. replace (z =? a_next a) with false by lia. auto.
Qed.

(** ** Cells *)
Record cells2 (es fs : list ((axis * point) * ptr)) (s : gen) (a : amesh) : Prop := mkC2 {
  c2_e : edges2 es s a; c2_r : forall x, a_r a x = None;
  c2_in : forall x f, In (x, f) fs -> outward a (f, true) (map V (loop_of x)) /\ gn_c s f = (2, 1) /\ forall y, In y (sides_of x) -> In y (map fst es);
  c2_all : forall f, a_f a f <> None -> exists x, In (x, f) fs }.
Lemma leads_grows : forall t a a' x u w, reach t a -> grows a a' -> leads a x u w -> leads a' x u w.
Proof using. intros t a a' x u w R G (y & H & K). exists y. rewrite (g_e _ _ G); auto. apply (old_e _ _ R). congruence. Qed.
Lemma cell_step2 : forall es fs s a i j, cells2 es fs s a -> 0 <= i < nx -> 0 <= j < ny -> exists s' a' es' f, cell2 nx ny s (i, j) = Ok s' /\ cells2 es' (fs ++ [((AZ, (i, j, 0)), f)]) s' a'.
Proof using D0 P0.
  intros es fs s a i j [C1 C2 C3 C4] Hi Hj. pose proof C1 as [G1 G2 G3 G4 G5 G6 G7 G8 G9]. destruct (new_f_ok _ _ G1) as (a1 & R1 & En & A1 & A2 & A3 & A4 & A5). unfold cell2.
  assert (E1 : edges2 es (made s (MF_New (gn_t s)) 4) a1).
  { constructor; cbn [made gn_t gn_tab gn_c]; auto. congruence. lia. intros z Hz'. rewrite En, zupd_other by lia. auto. intros x e H. destruct (G8 x e H) as (J & K). split. eapply joins_same; [|exact J]. congruence. rewrite En, zupd_other; auto. destruct J as (u & w & J & _). assert (X : a_e a e <> None) by congruence. apply (old_e _ _ G1) in X. lia. intros e H. rewrite A2 in H. auto. }
  destruct (edge2_ok es _ a1 (AX, (i, j, 0)) (j =? 0) 1 (i, j) (i + 1, j) E1) as (s2 & a2 & es2 & y0 & Q0 & E2 & I2 & N0 & L0 & F0 & W0 & K0). { unfold is_e; cbn; lia. } { left; reflexivity. } { cbn. destruct (j =? 0) eqn:X; auto. replace (j =? ny) with false by lia. auto. }
  destruct (edge2_ok es2 s2 a2 (AY, (i + 1, j, 0)) (i + 1 =? nx) 2 (i + 1, j) (i + 1, j + 1) E2) as (s3 & a3 & es3 & y1 & Q1 & E3 & I3 & N1 & L1 & F1 & W1 & K1). { unfold is_e; cbn; lia. } { left; reflexivity. } { cbn. replace (i + 1 =? 0) with false by lia. destruct (i + 1 =? nx); auto. }
  destruct (edge2_ok es3 s3 a3 (AX, (i, j + 1, 0)) (j + 1 =? ny) 3 (i + 1, j + 1) (i, j + 1) E3) as (s4 & a4 & es4 & y2 & Q2 & E4 & I4 & N2 & L2 & F2 & W2 & K2). { unfold is_e; cbn; lia. } { right; reflexivity. } { cbn. replace (j + 1 =? 0) with false by lia. destruct (j + 1 =? ny); auto. }
  destruct (edge2_ok es4 s4 a4 (AY, (i, j, 0)) (i =? 0) 4 (i, j + 1) (i, j) E4) as (s5 & a5 & es5 & y3 & Q3 & E5 & I5 & N3 & L3 & F3 & W3 & K3). { unfold is_e; cbn; lia. } { right; reflexivity. } { cbn. destruct (i =? 0) eqn:X; auto. replace (i =? nx) with false by lia. auto. }
  rewrite Q0. cbn [bind]. rewrite Q1. cbn [bind]. rewrite Q2. cbn [bind]. rewrite Q3. cbn [bind].
  pose proof (e2_reach _ _ _ E2) as R2. pose proof (e2_reach _ _ _ E3) as R3. pose proof (e2_reach _ _ _ E4) as R4. pose proof (e2_reach _ _ _ E5) as R5. set (x := (AZ, (i, j, 0))). set (vs := map V (loop_of x)). set (nd := [y0; y1; y2; y3]).
  assert (HF : is_f n x) by (unfold is_f; cbn; lia). assert (NV : NoDup vs). { apply NoDup_map_on. apply loop_nd. intros u v Hu Hv. apply V_inj2; eapply loop_within; eauto. }
  pose proof (leads_grows _ _ _ _ _ _ R2 W1 L0) as L0'. pose proof (leads_grows _ _ _ _ _ _ R3 W2 L0') as L0''. pose proof (leads_grows _ _ _ _ _ _ R4 W3 L0'') as L0'''. pose proof (leads_grows _ _ _ _ _ _ R3 W2 L1) as L1'. pose proof (leads_grows _ _ _ _ _ _ R4 W3 L1') as L1''. pose proof (leads_grows _ _ _ _ _ _ R4 W3 L2) as L2'.
  assert (FW : follows a5 vs nd). { split; [reflexivity|]. intros m Hm. cbn in Hm. destruct m as [|[|[|[|m]]]]; [| | | |lia]; cbn [vs nd x loop_of plane fst snd map step nth length Nat.modulo Nat.divmod Nat.sub]; auto. }
  assert (AF : a_f a5 = a_f a1) by congruence. destruct (set_edges_follow (gn_t s5) a5 (a_next a) vs nd R5) as (t6 & a6 & E6 & R6 & B1 & B2 & B3 & B4 & B5 & B6); auto. rewrite AF, A5, Z.eqb_refl. auto. cbn; lia. rewrite En. change [fst (zb y0); fst (zb y1); fst (zb y2); fst (zb y3)] with (map fst (map zb nd)). change [snd (zb y0); snd (zb y1); snd (zb y2); snd (zb y3)] with (map snd (map zb nd)). change 4 with (ZL vs) at 1. rewrite E6. cbn [bind].
  assert (N15 : a_next a1 <= a_next a5) by (destruct W0, W1, W2, W3; lia). assert (KC : forall z, z < a_next a1 -> gn_c s5 z = gn_c (made s (MF_New (gn_t s)) 4) z). { intros z Hz'. rewrite K3, K2, K1, K0; auto; destruct W0, W1, W2; lia. }
  assert (INC : incl es es5) by (intros z Hz'; apply I5, I4, I3, I2; auto).
  eexists. exists a6, es5, (a_next a). split; [reflexivity|].
  assert (CU : forall z, gn_c (set_gid (set_gdim (set_t s5 t6) (a_next a) 2) (a_next a) 1) z = if z =? a_next a then (2, 1) else gn_c s5 z). { intros z. cbn [set_gid set_gdim set_t gn_c]. unfold zupd at 1. destruct (Z.eqb_spec z (a_next a)). rewrite zupd_same. auto. rewrite zupd_other; auto. }
  constructor.
  - destruct E5 as [H1 H2 H3 H4 H5 H6 H7 H8 H9]. constructor; auto.
    + cbn. congruence.
    + lia.
    + intros z Hz'. rewrite CU. replace (z =? a_next a) with false by lia. auto.
    + intros y e H. rewrite CU. destruct (H8 y e H) as (J & K). split. eapply joins_same; [|exact J]. auto. destruct (Z.eqb_spec e (a_next a)); auto. exfalso. subst e. destruct J as (u & w & J & _).
      (* the new face is no edge *)
      assert (AE : a_e a5 (a_next a) = a_e a1 (a_next a)). { rewrite (g_e _ _ W3), (g_e _ _ W2), (g_e _ _ W1), (g_e _ _ W0); auto; try lia; destruct W0, W1, W2; lia. } rewrite AE, A2 in J. assert (X : a_e a (a_next a) <> None) by congruence. apply (old_e _ _ G1) in X. lia.
    + intros e H. rewrite B2 in H. auto.
  - intros z. rewrite B3, (g_r _ _ W3), (g_r _ _ W2), (g_r _ _ W1), (g_r _ _ W0), A3. auto.
  - intros y f H. rewrite CU. apply in_app_or in H. destruct H as [H|[H|[]]].
    + destruct (C3 y f H) as (O & K & S1). assert (X : a_f a f <> None) by (destruct O as (fb & _ & _ & O & _); cbn [fst] in O; congruence). apply (old_f _ _ G1) in X. replace (f =? a_next a) with false by lia. split; [|split].
      * eapply outward_same; [|exact O]. intros fb Hb. rewrite B5, AF, A5. replace (f =? a_next a) with false by lia. split; auto. intros e He. rewrite B2, (g_e _ _ W3), (g_e _ _ W2), (g_e _ _ W1), (g_e _ _ W0), A2; auto; assert (Y : e < a_next a) by (pose proof (w_fe _ (i_w _ _ (reach_inv _ _ G1)) _ _ Hb) as FU; rewrite Forall_forall in FU; apply in_map_iff in He; destruct He as (z & <- & Hz'); destruct (FU z Hz') as (w & Hw); apply (old_e _ _ G1); congruence); destruct W0, W1, W2; lia.
      * rewrite KC by lia. cbn [made gn_c]. rewrite En, zupd_other by lia. auto.
      * intros z Hz'. apply S1 in Hz'. apply in_map_iff in Hz'. destruct Hz' as (w & <- & Hw). apply in_map. auto.
    + inversion H; subst y f. rewrite Z.eqb_refl. split; [|split; auto].
      * assert (LV : (2 < length vs)%nat) by (cbn; lia). destruct (follows_ok a6 vs nd B6 NV LV) as (X1 & _). exists nd. eexists. exists nd. cbn [fst snd walk]. rewrite B5, Z.eqb_refl. split; [reflexivity|]. split; [exact X1|]. split. apply rotation_refl. apply follows_around; auto.
      * intros z Hz'. cbn in Hz'. destruct Hz' as [<-|[<-|[<-|[<-|[]]]]]; apply in_map_iff; eexists (_, _); (split; [reflexivity|]); [apply I5, I4, I3|apply I5, I4|apply I5|]; eauto.
  - intros f H. rewrite B5, AF, A5 in H. destruct (Z.eqb_spec f (a_next a)). exists x. apply in_or_app. right. left. subst f. reflexivity. destruct (C4 f H) as (y & Hy'). exists y. apply in_or_app; auto.
Qed.
Definition all_c2 : list (axis * point) := map (fun l => (AZ, (l, 0))) (loop2 (zrange 0 nx) (zrange 0 ny)).
Lemma all_c2_in : forall x, In x all_c2 <-> is_f n x.
Proof using.
  intros [d [[i j] k]]. unfold all_c2, is_f. rewrite in_map_iff. split.
  - intros ([u v] & E & H). inversion E; subst. apply loop2_in in H. rewrite !zr_in in H. cbn; lia.
  - intros H. destruct d; cbn in H; [lia|lia|]. assert (k = 0) by lia. subst k. exists (i, j). split; auto. apply loop2_in. rewrite !zr_in. lia.
Qed.
Lemma all_c2_nd : NoDup all_c2.
Proof using. apply FinFun.Injective_map_NoDup. intros u v E. inversion E; auto. apply loop2_nd; apply zrange_nd. Qed.
Lemma cells2_ok : exists s1 a1 es fs, foldM (cell2 nx ny) s0 (loop2 (zrange 0 nx) (zrange 0 ny)) = Ok s1 /\ cells2 es fs s1 a1 /\ map fst fs = all_c2 /\ forall x, In x (map fst es) <-> is_e n x.
Proof using D0 P0 Hx Hy.
  destruct (foldM_list gen _ (fun pre s => exists a es fs, cells2 es fs s a /\ map fst fs = map (fun l => (AZ, (l, 0))) pre) (cell2 nx ny) (loop2 (zrange 0 nx) (zrange 0 ny)) s0) as (s' & E & a' & es & fs & C & M).
  - exists a0, [], []. split; auto. destruct D0. constructor; auto.
    + constructor; auto. lia. constructor. intros x e []. intros x e []. intros e H. exfalso. apply H. auto.
    + intros x f [].
    + intros f H. exfalso. apply H. auto.
  - intros pre [i j] suf s3 EL (a3 & es & fs & C & M). assert (Hij : In (i, j) (loop2 (zrange 0 nx) (zrange 0 ny))) by (rewrite EL; apply in_or_app; right; left; auto). apply loop2_in in Hij. rewrite !zr_in in Hij. destruct (cell_step2 es fs s3 a3 i j C) as (s4 & a4 & es' & f & E4 & C4); try lia. exists s4. split; auto. exists a4, es', (fs ++ [((AZ, (i, j, 0)), f)]). split; auto. rewrite !map_app, M. auto.
  - exists s', a', es, fs. split; auto. split; auto. split; auto. intros x. split. { intros H. apply in_map_iff in H. destruct H as ([y e] & <- & H). apply (e2_is _ _ _ (c2_e _ _ _ _ C) _ _ H). }
    intros (H1 & H2). destruct x as [d [[i j] k]]. cbn in H1, H2.
    assert (K : forall u v, 0 <= u < nx -> 0 <= v < ny -> forall y, In y (sides_of (AZ, (u, v, 0))) -> In y (map fst es)). { intros u v Hu Hv. assert (X : In (AZ, (u, v, 0)) (map fst fs)) by (rewrite M; apply all_c2_in; unfold is_f; cbn; lia). apply in_map_iff in X. destruct X as ([y f] & EY & X). cbn in EY. subst y. apply (c2_in _ _ _ _ C _ _ X). }
    assert (k = 0) by (destruct d; lia). subst k. destruct d; [| |lia].
    + destruct (Z.eq_dec j ny). apply (K i (j - 1)); try lia. cbn. replace (j - 1 + 1) with j by lia. auto. apply (K i j); try lia. cbn. auto.
    + destruct (Z.eq_dec i nx). apply (K (i - 1) j); try lia. cbn. replace (i - 1 + 1) with i by lia. auto. apply (K i j); try lia. cbn. auto.
Qed.
End Gen2.
