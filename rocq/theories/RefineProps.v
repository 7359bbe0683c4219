(** C44: swapping the edge between two triangles, splitting a face at a point. *)
From Coq Require Import ZArith List Lia Bool Arith ZifyBool ZifyNat Permutation.
From Verif Require Import Base BaseProofs ListSpec AttModel AttProps TopoModel ParModel ParProps TopoSpec TopoProofs TopoProofs2 TopoProofs3 TopoProofs4 TopoProofs5 TopoProofs6 TopoProofs7 TopoProps TopoProps2 ModModel ModProofs ModProofs2 ModProps ModProps2 ModProofs3 CellSpec CellProofs CellProofs2 BuildModel BuildProofs BuildProofs2 BuildProofs3 BuildProofs5 GidProps2 JoinModel JoinProofs JoinProps RefineModel RefineProofs.
Import ListNotations.
Open Scope Z_scope.

(** ** Swapping an edge *)

Lemma corners2 : forall t a p x y r q, inv t a -> corners t p [x; y] [p; r] q -> leads a x p r /\ leads a y r q.
Proof.
  intros t a p [e d] [g h] r q I H. apply (corners_iff _ _ _ _ _ _ I) in H. destruct H as [H HV]. cbn [path map] in H, HV. destruct H as (u & Hu & _ & Hs & w & Hw & _ & Hs' & He). injection HV as V1 V2. unfold vat in V2. cbn [fst snd] in V2. rewrite Hw in V2.
  split. exists u. cbn [fst snd]. split; auto. split; auto. congruence. exists w. cbn [fst snd]. auto.
Qed.
Lemma corners3 : forall t a x y z p q r, inv t a -> leads a x p q -> leads a y q r -> leads a z r p -> p <> q -> q <> r -> r <> p -> corners t p [x; y; z] [p; q; r] p.
Proof.
  intros t a x y z p q r I H1 H2 H3 N1 N2 N3. apply (corners_iff _ _ _ _ _ _ I). split. eapply leads_path; eauto. eapply leads_path; eauto. eapply leads_path; eauto. reflexivity.
  cbn [map]. rewrite (proj1 (leads_vat _ _ _ _ H1)), (proj1 (leads_vat _ _ _ _ H2)), (proj1 (leads_vat _ _ _ _ H3)). auto.
Qed.
Lemma no_f : forall t a f, reach t a -> a_f a f = None -> tfs t f = None.
Proof. intros t a f R H. pose proof (i_f _ _ (reach_inv _ _ R) f) as HH. rewrite H in HH. destruct (tfs t f); auto. discriminate. Qed.
Lemma no_e : forall t a e, reach t a -> a_e a e = None -> tes t e = None.
Proof. intros t a e R H. pose proof (i_e _ _ (reach_inv _ _ R) e) as HH. rewrite H in HH. destruct (tes t e); auto. discriminate. Qed.
Lemma no_v : forall t a v, reach t a -> a_v a v = None -> tvs t v = None.
Proof. intros t a v R H. pose proof (i_v _ _ (reach_inv _ _ R) v) as HH. rewrite H in HH. destruct (tvs t v); auto. discriminate. Qed.
Lemma new_f : forall t a f, reach t a -> a_next a <= f -> tfs t f = None.
Proof. intros t a f R H. apply (no_f t a f R). destruct (a_f a f) eqn:E; auto. assert (HH : a_f a f <> None) by congruence. apply (w_f _ (i_w _ _ (reach_inv _ _ R))) in HH. lia. Qed.
Lemma new_e : forall t a f, reach t a -> a_next a <= f -> tes t f = None.
Proof. intros t a f R H. apply (no_e t a f R). destruct (a_e a f) eqn:E; auto. assert (HH : a_e a f <> None) by congruence. apply (w_e _ (i_w _ _ (reach_inv _ _ R))) in HH. lia. Qed.

(** The triangles [f0], through v0, v1, v3, and [f1], through v1, v0, v2, share the
    edge [e] from v0 to v1, which they use in opposite senses; no other face has [e]
    and no region has the triangles.  They are replaced by triangles through v2,
    v3, v0 and through v3, v2, v1, which share a new edge from v2 to v3 and use
    the four other edges as before.  Everything else is kept. *)
Theorem C44_swap : forall t a e v0 v1 v2 v3 f0 f1 b0 b1 x0 x1 x2 x3, reach t a -> edge_is t e v0 v1 -> NoDup [v0; v1; v2; v3] -> ~ In NULL [v0; v1; v2; v3] ->
  face_is t f0 b0 -> face_is t f1 b1 -> rotation [(e, true); x0; x1] b0 -> rotation [(e, false); x2; x3] b1 ->
  corners t v1 [x0; x1] [v1; v3] v0 -> corners t v0 [x2; x3] [v0; v2] v1 ->
  (forall g b, face_is t g b -> In e (map fst b) -> g = f0 \/ g = f1) ->
  (forall r c, reg_is t r c -> ~ In f0 (map fst c) /\ ~ In f1 (map fst c)) ->
  exists t' e' g0 g1, ME_Swap2D 2 t e = Ok (t', Some (e', g0, g1)) /\
    (tes t e' = None /\ tfs t g0 = None /\ tfs t g1 = None /\ g0 <> g1 /\ e' <> e) /\
    edge_is t' e' v2 v3 /\
    face_is t' g0 [(e', true); x1; x2] /\ face_is t' g1 [(e', false); x3; x0] /\
    corners t' v2 [(e', true); x1; x2] [v2; v3; v0] v2 /\ corners t' v3 [(e', false); x3; x0] [v3; v2; v1] v3 /\
    (tes t' e = None /\ tfs t' f0 = None /\ tfs t' f1 = None) /\
    (forall g b, g <> f0 -> g <> f1 -> g <> g0 -> g <> g1 -> (face_is t' g b <-> face_is t g b)) /\
    (forall g p q, g <> e -> g <> e' -> (edge_is t' g p q <-> edge_is t g p q)) /\
    (forall v, option_map v_live (tvs t' v) = option_map v_live (tvs t v)) /\
    (forall r c, reg_is t' r c <-> reg_is t r c) /\
    mutual t' /\ sound t' /\ exists a', reach t' a'.
Proof.
  intros t a e v0 v1 v2 v3 f0 f1 b0 b1 x0 x1 x2 x3 R He ND NN Hf0 Hf1 RT0 RT1 C0 C1 HE HR. pose proof (reach_inv _ _ R) as I. pose proof (i_w _ _ I) as W.
  apply (edge_is_iff _ _ _ _ _ I) in He. apply (face_is_iff _ _ _ _ I) in Hf0. apply (face_is_iff _ _ _ _ I) in Hf1. destruct (corners2 _ _ _ _ _ _ _ I C0) as [L0 L1]. destruct (corners2 _ _ _ _ _ _ _ I C1) as [L2 L3].
  assert (D : v0 <> v1 /\ v0 <> v2 /\ v0 <> v3 /\ v1 <> v2 /\ v1 <> v3 /\ v2 <> v3). { inversion ND as [|? ? A1 B1]; subst. inversion B1 as [|? ? A2 B2]; subst. inversion B2 as [|? ? A3 B3]; subst. cbn in A1, A2, A3. repeat split; intros X; subst; tauto. }
  destruct D as (D1 & D2 & D3 & D4 & D5 & D6).
  destruct (swap_ok t a e v0 v1 v2 v3 f0 f1 b0 b1 x0 x1 x2 x3) as (t' & a' & E & R' & V & RR & EE & FF); auto.
  { intros g (b & Hb & Hi). apply (face_is_iff _ _ _ _ I) in Hb. eapply HE; eauto. }
  { intros r d. split; intros (c & Hc & Hi); apply (reg_is_iff _ _ _ _ I) in Hc; destruct (HR _ _ Hc) as [K0 K1]; apply (in_map fst) in Hi; auto. }
  set (n := a_next a) in *. pose proof (reach_inv _ _ R') as I'.
  assert (B0 : 1 <= f0 < n) by (apply (w_f _ W); congruence). assert (B1 : 1 <= f1 < n) by (apply (w_f _ W); congruence). assert (Be : 1 <= e < n) by (apply (w_e _ W); congruence).
  assert (Le : leads a (e, true) v0 v1) by (exists (v0, v1); auto).
  assert (LD : forall x p q, leads a x p q -> e <> fst x -> leads a' x p q). { intros x p q (y & Hy & HH) Hx. exists y. split; auto. rewrite EE. assert (1 <= fst x < n) by (apply (w_e _ W); congruence). replace (fst x =? n) with false by (slim; lia). rewrite (proj2 (Z.eqb_neq (fst x) e)) by auto. auto. }
  apply LD in L0; [|apply (leads_diff _ _ _ _ _ _ _ Le L0); auto]. apply LD in L1; [|apply (leads_diff _ _ _ _ _ _ _ Le L1); auto]. apply LD in L2; [|apply (leads_diff _ _ _ _ _ _ _ Le L2); auto]. apply LD in L3; [|apply (leads_diff _ _ _ _ _ _ _ Le L3); auto].
  assert (En : a_e a' n = Some (true, (v2, v3))) by (rewrite EE, Z.eqb_refl; auto).
  exists t', n, (n + 1), (n + 2). split; [exact E|]. split.
  { split. apply (new_e t a); auto. unfold n; lia. split. apply (new_f t a); auto. unfold n; slim; lia. split. apply (new_f t a); auto. unfold n; slim; lia. slim; lia. }
  split. apply (edge_is_iff _ _ _ _ _ I'); auto.
  split. apply (face_is_iff _ _ _ _ I'). rewrite FF, Z.eqb_refl. auto.
  split. apply (face_is_iff _ _ _ _ I'). rewrite FF, Z.eqb_refl. replace (n + 2 =? n + 1) with false by (slim; lia). auto.
  split. { apply (corners3 t' a'); auto. exists (v2, v3). auto. }
  split. { apply (corners3 t' a'); auto. exists (v2, v3). auto. }
  split. { split. apply (no_e t' a' e R'). rewrite EE, Z.eqb_refl. replace (e =? n) with false by (slim; lia). auto. split; apply (no_f t' a'); auto; rewrite FF, Z.eqb_refl. replace (f0 =? n + 1) with false by (slim; lia). replace (f0 =? n + 2) with false by (slim; lia). auto. replace (f1 =? n + 1) with false by (slim; lia). replace (f1 =? n + 2) with false by (slim; lia). rewrite orb_true_r. auto. }
  split. { intros g b G0 G1 G2 G3. rewrite <- (face_is_iff _ _ _ _ I), <- (face_is_iff _ _ _ _ I'). rewrite FF, !(proj2 (Z.eqb_neq _ _)) by auto. cbn [orb]. tauto. }
  split. { intros g p q G0 G1. rewrite <- (edge_is_iff _ _ _ _ _ I), <- (edge_is_iff _ _ _ _ _ I'). rewrite EE, !(proj2 (Z.eqb_neq _ _)) by auto. tauto. }
  split. { intros v. rewrite (i_v _ _ I), (i_v _ _ I'). congruence. }
  split. { intros r c. rewrite <- (reg_is_iff _ _ _ _ I), <- (reg_is_iff _ _ _ _ I'). rewrite RR. tauto. }
  split. exact (inv_mutual _ _ I'). split. exact (inv_sound _ _ I'). eauto.
Qed.
Print Assumptions C44_swap.

(** Swapping the new edge gives the two triangles back; the edge between them has
    the other orientation. *)
Theorem C44_swap_back : forall t a e v0 v1 v2 v3 f0 f1 b0 b1 x0 x1 x2 x3, reach t a -> edge_is t e v0 v1 -> NoDup [v0; v1; v2; v3] -> ~ In NULL [v0; v1; v2; v3] ->
  face_is t f0 b0 -> face_is t f1 b1 -> rotation [(e, true); x0; x1] b0 -> rotation [(e, false); x2; x3] b1 ->
  corners t v1 [x0; x1] [v1; v3] v0 -> corners t v0 [x2; x3] [v0; v2] v1 ->
  (forall g b, face_is t g b -> In e (map fst b) -> g = f0 \/ g = f1) ->
  (forall r c, reg_is t r c -> ~ In f0 (map fst c) /\ ~ In f1 (map fst c)) ->
  exists t1 e1 g0 g1 t2 e2 h0 h1, ME_Swap2D 2 t e = Ok (t1, Some (e1, g0, g1)) /\ ME_Swap2D 2 t1 e1 = Ok (t2, Some (e2, h1, h0)) /\
    edge_is t2 e2 v1 v0 /\ face_is t2 h0 [(e2, false); x0; x1] /\ face_is t2 h1 [(e2, true); x2; x3] /\
    corners t2 v0 [(e2, false); x0; x1] [v0; v1; v3] v0 /\ corners t2 v1 [(e2, true); x2; x3] [v1; v0; v2] v1 /\
    (forall g b, g <> f0 -> g <> f1 -> g <> h0 -> g <> h1 -> (face_is t2 g b <-> face_is t g b)) /\
    (forall g p q, g <> e -> g <> e2 -> (edge_is t2 g p q <-> edge_is t g p q)) /\
    (forall v, option_map v_live (tvs t2 v) = option_map v_live (tvs t v)) /\
    (forall r c, reg_is t2 r c <-> reg_is t r c).
Proof.
  intros t a e v0 v1 v2 v3 f0 f1 b0 b1 x0 x1 x2 x3 R He ND NN Hf0 Hf1 RT0 RT1 C0 C1 HE HR.
  destruct (C44_swap t a e v0 v1 v2 v3 f0 f1 b0 b1 x0 x1 x2 x3 R He ND NN Hf0 Hf1 RT0 RT1 C0 C1 HE HR) as (t1 & e1 & g0 & g1 & E1 & (N1 & N2 & N3 & N4 & N5) & Ee & F0 & F1 & P0 & P1 & (O1 & O2 & O3) & KF & KE & KV & KR & M1 & S1 & (a1 & R1)).
  assert (C0' : corners t1 v3 [x1; x2] [v3; v0] v2). { destruct P0 as (p1 & q1 & vs' & H1 & H2 & H3 & H4 & H5). injection H4 as H4. subst vs'. pose proof H5 as H6. destruct x1 as [y1 d1]. cbn [corners] in H6. destruct H6 as (p2 & q2 & vs' & K1 & K2 & K3 & K4 & K5). injection K4 as K4 _. rewrite <- K4 in H5. exact H5. }
  assert (C1' : corners t1 v2 [x3; x0] [v2; v1] v3). { destruct P1 as (p1 & q1 & vs' & H1 & H2 & H3 & H4 & H5). injection H4 as H4. subst vs'. pose proof H5 as H6. destruct x3 as [y1 d1]. cbn [corners] in H6. destruct H6 as (p2 & q2 & vs' & K1 & K2 & K3 & K4 & K5). injection K4 as K4 _. rewrite <- K4 in H5. exact H5. }
  assert (ND' : NoDup [v2; v3; v1; v0]). { apply (Permutation_NoDup (l := [v0; v1; v2; v3])); auto. eapply perm_trans; [|apply (Permutation_app_comm [v1; v0] [v2; v3])]. apply perm_swap. }
  assert (OLD : forall g b, face_is t g b -> ~ In e1 (map fst b)). { intros g b Hg Hi. pose proof (reach_inv _ _ R) as I. apply (face_is_iff _ _ _ _ I) in Hg. pose proof (w_fe _ (i_w _ _ I) _ _ Hg) as FE. rewrite Forall_forall in FE. apply in_map_iff in Hi. destruct Hi as (z & Ez & Hz). destruct (FE z Hz) as (y & Hy). rewrite Ez in Hy. pose proof (i_e _ _ I e1) as HH. rewrite N1, Hy in HH. discriminate. }
  destruct (C44_swap t1 a1 e1 v2 v3 v1 v0 g0 g1 [(e1, true); x1; x2] [(e1, false); x3; x0] x1 x2 x3 x0 R1 Ee ND') as (t2 & e2 & h1 & h0 & E2 & (Q1 & Q2 & Q3 & Q4 & Q5) & Ee2 & G1 & G0 & PP1 & PP0 & (W1 & W2 & W3) & KF2 & KE2 & KV2 & KR2 & _); auto.
  { intros H. apply NN. cbn in H |- *. tauto. }
  { exists [], [(e1, true); x1; x2]. auto. } { exists [], [(e1, false); x3; x0]. auto. }
  { intros g b Hg Hi. destruct (Z.eq_dec g g0); auto. destruct (Z.eq_dec g g1); auto. exfalso. destruct (Z.eq_dec g f0) as [->|]. destruct Hg as (x & Hx & _). congruence. destruct (Z.eq_dec g f1) as [->|]. destruct Hg as (x & Hx & _). congruence. apply KF in Hg; auto. apply (OLD g b); auto. }
  { intros r c Hc. apply KR in Hc. pose proof (reach_inv _ _ R) as I. apply (reg_is_iff _ _ _ _ I) in Hc. pose proof (w_rf _ (i_w _ _ I) _ _ Hc) as RF. rewrite Forall_forall in RF. assert (K : forall g, tfs t g = None -> ~ In g (map fst c)). { intros g Hg Hi. apply in_map_iff in Hi. destruct Hi as (z & Ez & Hz). destruct (RF z Hz) as (y & Hy). rewrite Ez in Hy. pose proof (i_f _ _ I g) as HH. rewrite Hg, Hy in HH. discriminate. } auto. }
  exists t1, e1, g0, g1, t2, e2, h0, h1. split; auto. split; auto. split; auto. split; auto. split; auto. split; auto. split; auto.
  split. { intros g b H1 H2 H3 H4. destruct (Z.eq_dec g g0) as [->|]. { split; intros (x & Hx & _); congruence. } destruct (Z.eq_dec g g1) as [->|]. { split; intros (x & Hx & _); congruence. } rewrite KF2 by auto. apply KF; auto. }
  split. { intros g p q H1 H2. destruct (Z.eq_dec g e1) as [->|]. { split; intros (x & Hx & _); congruence. } rewrite KE2 by auto. apply KE; auto. }
  split. intros v. rewrite KV2. apply KV. intros r c. rewrite KR2. apply KR.
Qed.
Print Assumptions C44_swap_back.

(** Nothing is changed when the edge is not on a model face, when it does not have
    two faces, or when one of the two is not a triangle. *)
Theorem C44_swap_refused : forall t a e v0 v1, reach t a -> edge_is t e v0 v1 ->
  (forall gdim, gdim <> 2 -> ME_Swap2D gdim t e = Ok (t, None)) /\
  (forall fs, NoDup fs -> (forall g, In g fs <-> exists b, face_is t g b /\ In e (map fst b)) -> (0 < length fs)%nat -> length fs <> 2%nat -> ME_Swap2D 2 t e = Ok (t, None)) /\
  (forall f0 f1 b0 b1 vs0 vs1, v0 <> NULL -> v1 <> NULL -> face_is t f0 b0 -> face_is t f1 b1 -> In (e, true) b0 -> In (e, false) b1 -> loop t b0 vs0 -> loop t b1 vs1 ->
     (forall g b, face_is t g b -> In e (map fst b) -> g = f0 \/ g = f1) -> length b0 <> 3%nat \/ length b1 <> 3%nat -> f0 <> f1 -> ME_Swap2D 2 t e = Ok (t, None)).
Proof.
  intros t a e v0 v1 R He. pose proof (reach_inv _ _ R) as I. apply (edge_is_iff _ _ _ _ _ I) in He.
  assert (VV : ME_Vertex t e 0 = Ok v0 /\ ME_Vertex t e 1 = Ok v1). { pose proof (vat_ok t a (e, true) I) as V0. pose proof (vend_ok t a (e, true) I) as V1. cbn [fst snd b2z] in V0, V1. change (lnot 1) with 0 in V0. rewrite V0, V1 by (exists (v0, v1); auto). unfold vat, vend. cbn [fst snd]. rewrite He. auto. }
  destruct VV as [V0 V1]. assert (T2 : (2 =? 2) = true) by reflexivity. assert (HN : a_e a e <> None) by congruence. destruct (C26_edge_faces t a e R HN) as (o & Eo & A).
  assert (FI : forall g, has_edge a g e <-> exists b, face_is t g b /\ In e (map fst b)). { intros g. split; intros (b & Hb & Hi); exists b; split; auto; apply (face_is_iff _ _ _ _ I); auto. }
  split; [|split].
  - intros gdim Hg. unfold ME_Swap2D. rewrite (proj2 (Z.eqb_neq gdim 2) Hg). auto.
  - intros fs N HF L1 L2. unfold ME_Swap2D. rewrite T2, V0, V1, Eo. cbn [negb bind]. destruct o as [l|]; cbn [answers] in A.
    + destruct A as (_ & Nl & Al). assert (P : Permutation l fs). { apply NoDup_Permutation; auto. intros g. rewrite Al, HF. apply FI. } apply Permutation_length in P. cbn [bind]. replace (ZL l =? 2) with false by (unfold ZL; lia). auto.
    + exfalso. destruct fs as [|g fs]. cbn in L1; lia. apply (A g). apply FI, HF. left; auto.
  - intros f0 f1 b0 b1 vs0 vs1 Z0 Z1 Hf0 Hf1 I0 I1 (u0 & Q0) (u1 & Q1) HE HL H01. apply (face_is_iff _ _ _ _ I) in Hf0. apply (face_is_iff _ _ _ _ I) in Hf1. apply (corners_iff _ _ _ _ _ _ I) in Q0. destruct Q0 as [Q0 _]. apply (corners_iff _ _ _ _ _ _ I) in Q1. destruct Q1 as [Q1 _].
    assert (ED : forall f b d, a_f a f = Some (true, Some b) -> In (e, d) b -> MF_EdgeDir t f e = Ok (b2z d)). { intros f b d Hf Hi. apply in_split in Hi. destruct Hi as (s & s' & ->). eapply edge_dir_ok; eauto. }
    assert (MM : forall f b u d v, a_f a f = Some (true, Some b) -> path a u b u -> In (e, d) b -> v <> NULL -> (v = v0 \/ v = v1) -> exists c, MF_Edges t f 1 v = Ok c /\ length c = length b /\ forall g, In g c -> exists p q, a_e a g = Some (true, (p, q))).
    { intros f b u d v Hf HP Hi Hv HV. destruct (C23_face_loop t a f b u true v R Hf HP) as (_ & C & _). destruct C as (c & ws & RC & _ & EE & _); auto. { exists e, d. split; auto. exists v0, v1. split; auto. destruct HV; subst; auto. } exists (map fst c). split; [exact EE|]. apply rotation_perm in RC. cbn [walk] in RC. split. rewrite map_length. symmetry. apply Permutation_length; auto.
      intros g Hg. apply in_map_iff in Hg. destruct Hg as (z & <- & Hz). pose proof (path_edge_ok _ _ _ _ HP) as EO. rewrite Forall_forall in EO. destruct (EO z) as ([p q] & Hy). eapply Permutation_in; [symmetry; exact RC|auto]. eauto. }
    destruct (MM f0 b0 u0 true v0 Hf0 Q0 I0 Z0 (or_introl eq_refl)) as (c0 & EM0 & L0 & O0). destruct (MM f1 b1 u1 false v1 Hf1 Q1 I1 Z1 (or_intror eq_refl)) as (c1 & EM1 & L1 & O1).
    assert (HF : exists l, ME_Faces t e = Ok (Some l) /\ (l = [f0; f1] \/ l = [f1; f0])).
    { assert (K0 : has_edge a f0 e) by (exists b0; split; auto; apply (in_map fst) in I0; auto). assert (K1 : has_edge a f1 e) by (exists b1; split; auto; apply (in_map fst) in I1; auto).
      destruct o as [l|]; cbn [answers] in A; [|destruct (A _ K0)]. exists l. split; auto. destruct A as (_ & Nl & Al). assert (P : Permutation l [f0; f1]). { apply NoDup_Permutation; auto. constructor. intros [X|[]]. auto. constructor; [intros []|constructor]. intros g. rewrite Al, FI. split. intros (b & Hb & Hi). destruct (HE g b Hb Hi) as [-> | ->]; cbn; auto. intros [<-|[<-|[]]]; apply FI; auto. }
      apply Permutation_sym, Permutation_length_2_inv in P. auto. }
    destruct HF as (l & EF & Hl). unfold ME_Swap2D. rewrite T2, V0, V1, EF. cbn [negb bind].
    assert (PK : exists g0 g1 d, negb (ZL l =? 2) = false /\ lent l 0 = Ok g0 /\ lent l 1 = Ok g1 /\ MF_EdgeDir t g0 e = Ok d /\ (if d =? 0 then (g1, g0) else (g0, g1)) = (f0, f1)).
    { destruct Hl as [-> | ->]. exists f0, f1, 1. rewrite (ED f0 b0 true) by auto. auto. exists f1, f0, 0. rewrite (ED f1 b1 false) by auto. auto. }
    destruct PK as (g0 & g1 & d & -> & -> & -> & PK1 & PK2). cbn [bind]. rewrite PK1. cbn [bind]. rewrite PK2. cbv iota beta. rewrite EM0. cbn [bind].
    destruct (Nat.eq_dec (length b0) 3) as [E3|E3]; [|replace (ZL c0 =? 3) with false by (unfold ZL; lia); auto]. replace (ZL c0 =? 3) with true by (unfold ZL; lia). cbn [negb]. assert (LL : forall c, lent c 1 = Ok (nth (Z.to_nat 1) c NULL) /\ lent c 2 = Ok (nth (Z.to_nat 2) c NULL)) by (intros; split; reflexivity). rewrite (proj1 (LL c0)), (proj2 (LL c0)). cbn [bind].
    destruct (O0 (nth (Z.to_nat 1) c0 NULL)) as (p & q & Hp). { apply nth_In. lia. }
    assert (VX : ME_Vertex t (nth (Z.to_nat 1) c0 NULL) 1 = Ok q /\ ME_Vertex t (nth (Z.to_nat 1) c0 NULL) 0 = Ok p). { pose proof (vat_ok t a (nth (Z.to_nat 1) c0 NULL, true) I) as Y0. pose proof (vend_ok t a (nth (Z.to_nat 1) c0 NULL, true) I) as Y1. cbn [fst snd b2z] in Y0, Y1. change (lnot 1) with 0 in Y0. rewrite Y0, Y1 by (exists (p, q); auto). unfold vat, vend. cbn [fst snd]. rewrite Hp. auto. }
    destruct VX as [VX1 VX0]. assert (EX : exists r, end_not t (nth (Z.to_nat 1) c0 NULL) 1 v1 = Ok r). { unfold end_not. rewrite VX1. cbn [bind]. change (lnot 1) with 0. rewrite VX0. destruct (q =? v1); eauto. } destruct EX as (r & ->). cbn [bind]. rewrite EM1. cbn [bind]. replace (ZL c1 =? 3) with false by (unfold ZL; lia). auto.
Qed.
Print Assumptions C44_swap_refused.

(** ** Splitting a face at a point *)

Lemma path_follows : forall a u b, path a u b u -> follows a (map (vat a) b) b.
Proof.
  intros a u b HP. destruct (closed_linked _ _ _ HP) as (EO & LK). split. rewrite map_length. auto. intros i Hi. rewrite map_length in *. rewrite Forall_forall in EO. assert (M : (S i mod length b < length b)%nat) by (apply Nat.mod_upper_bound; lia). rewrite !nth_vat by auto. rewrite <- LK by auto.
  destruct (EO (nth i b dflt)) as (y & Hy). apply nth_In; auto. exists y. unfold vat, vend. rewrite Hy. auto.
Qed.
(** Around the new vertex everything cancels: the triangles together use an edge as
    often as the face did. *)
Lemma uses_cons : forall x b e, loop_uses (x :: b) e = (if fst x =? e then sgn (snd x) else 0) + loop_uses b e.
Proof. intros. unfold loop_uses. cbn [map]. rewrite zsum_cons. auto. Qed.
Lemma zsum_shift : forall (g : nat -> Z) n, zsum (map (fun k => g (S k mod n)%nat) (seq 0 n)) = zsum (map g (seq 0 n)).
Proof.
  intros g n. destruct n as [|n]; auto. replace (seq 0 (S n)) with (seq 0 n ++ [n]) at 1 by (rewrite seq_S; auto). rewrite map_app, zsum_app. cbn [map]. rewrite Nat.mod_same by lia. rewrite zsum_cons. change (zsum []) with 0. cbn [seq map]. rewrite zsum_cons, <- seq_shift, map_map.
  replace (map (fun k => g (S k mod S n)%nat) (seq 0 n)) with (map (fun k => g (S k)) (seq 0 n)). lia. apply map_ext_in. intros k Hk. apply in_seq in Hk. rewrite Nat.mod_small by lia. auto.
Qed.
Lemma zsum_add : forall A (g h : A -> Z) l, zsum (map (fun k => g k + h k) l) = zsum (map g l) + zsum (map h l).
Proof. intros A g h l. induction l as [|x l IH]; auto. cbn [map]. rewrite !zsum_cons, IH. lia. Qed.
Lemma zsum_opp : forall A (g : A -> Z) l, zsum (map (fun k => - g k) l) = - zsum (map g l).
Proof. intros A g l. induction l as [|x l IH]; auto. cbn [map]. rewrite !zsum_cons, IH. lia. Qed.
Lemma zsum_mul : forall A c (g : A -> Z) l, zsum (map (fun k => c * g k) l) = c * zsum (map g l).
Proof. intros A c g l. induction l as [|x l IH]; cbn [map]. change (zsum []) with 0. lia. rewrite !zsum_cons, IH. lia. Qed.
Lemma uses_seq : forall b e, loop_uses b e = zsum (map (fun k => if fst (nth k b dflt) =? e then sgn (snd (nth k b dflt)) else 0) (seq 0 (length b))).
Proof.
  intros b e. unfold loop_uses. f_equal. rewrite <- (map_map (fun k => nth k b dflt) (fun x => if fst x =? e then sgn (snd x) else 0)). f_equal. induction b as [|x b IH]; auto. cbn [length seq map nth]. f_equal. rewrite <- seq_shift, map_map. exact IH.
Qed.
Lemma fan_uses : forall sp b e, zsum (map (fun k => loop_uses (fan sp b k) e) (seq 0 (length b))) = loop_uses b e.
Proof.
  intros sp b e. set (u := fun x : ptr * bool => if fst x =? e then sgn (snd x) else 0).
  assert (U : forall k, loop_uses (fan sp b k) e = (u (nth k sp dflt) + u (nth k b dflt)) + - u (nth (S k mod length b) sp dflt)).
  { intros k. unfold fan. rewrite !uses_cons. change (loop_uses [] e) with 0. fold (u (nth k sp dflt)). fold (u (nth k b dflt)). unfold u at 5. unfold neg. cbn [fst snd]. destruct (fst (nth (S k mod length b) sp dflt) =? e); [destruct (snd (nth (S k mod length b) sp dflt)); cbn [negb sgn]|]; lia. }
  rewrite (map_ext _ _ U), zsum_add, zsum_add, zsum_opp. rewrite (zsum_shift (fun k => u (nth k sp dflt))). rewrite uses_seq. fold u. unfold u. lia.
Qed.

(** A face that is a closed loop of 3 to 30 edges through different vertices is
    replaced by one triangle for each of its edges, which joins it to a new vertex.
    Edge number i keeps its direction; the triangles on both sides of a new edge
    use it in opposite senses.  The regions of the face get the triangles in its
    place and with its direction; those that were closed stay closed.  Everything
    else is kept.  No edge but [e] may join the ends of an edge [e] of the face. *)
Theorem C44_split : forall t a f b vs, reach t a -> face_is t f b -> loop t b vs -> NoDup vs -> ~ In NULL vs -> (3 <= length b <= 30)%nat ->
  (forall e d p q g, In (e, d) b -> edge_is t e p q -> edge_is t g p q \/ edge_is t g q p -> g = e) ->
  (forall r c, reg_is t r c -> In f (map fst c) -> (length c + length b <= 513)%nat) ->
  exists t' v sp fs, MF_Split t f = Ok (t', v) /\
    (tvs t v = None /\ option_map v_live (tvs t' v) = Some true) /\
    (length sp = length b /\ NoDup (map fst sp) /\ forall x, In x sp -> tes t (fst x) = None) /\
    (length fs = length b /\ NoDup fs /\ forall g, In g fs -> tfs t g = None) /\
    (forall i, (i < length b)%nat -> edge_is t' (fst (nth i sp dflt)) v (nth i vs NULL) \/ edge_is t' (fst (nth i sp dflt)) (nth i vs NULL) v) /\
    (forall i, (i < length b)%nat -> let j := (S i mod length b)%nat in
       let tri := [nth i sp dflt; nth i b dflt; (fst (nth j sp dflt), negb (snd (nth j sp dflt)))] in
       face_is t' (nth i fs NULL) tri /\ loop t' tri [v; nth i vs NULL; nth j vs NULL]) /\
    tfs t' f = None /\
    (forall g c, g <> f -> ~ In g fs -> (face_is t' g c <-> face_is t g c)) /\
    (forall g p q, ~ In g (map fst sp) -> (edge_is t' g p q <-> edge_is t g p q)) /\
    (forall w, w <> v -> option_map v_live (tvs t' w) = option_map v_live (tvs t w)) /\
    (forall r c1 d c2, reg_is t r (c1 ++ (f, d) :: c2) -> reg_is t' r (c1 ++ (hd NULL fs, d) :: c2 ++ map (fun g => (g, d)) (tl fs))) /\
    (forall r c, reg_is t r c -> ~ In f (map fst c) -> reg_is t' r c) /\
    (forall r c', reg_is t' r c' -> exists c, reg_is t r c /\ (closed t c -> closed t' c')) /\
    mutual t' /\ sound t' /\ exists a', reach t' a'.
Proof.
  intros t a f b vs R Hf (u & HL) ND NN LB HU HR. pose proof (reach_inv _ _ R) as I. pose proof (i_w _ _ I) as W. apply (face_is_iff _ _ _ _ I) in Hf. apply (corners_iff _ _ _ _ _ _ I) in HL. destruct HL as [HP Evs].
  pose proof (path_edge_ok _ _ _ _ HP) as EO. pose proof (path_follows _ _ _ HP) as FO. rewrite <- Evs in FO. assert (VL : length b = length vs) by (subst vs; rewrite map_length; auto).
  assert (LVa : Forall (live_v a) vs).
  { apply Forall_forall. intros v Hv. assert (Hn : v <> NULL) by (intros ->; auto). subst vs. apply in_map_iff in Hv. destruct Hv as ([e d] & Hx & Hi). rewrite Forall_forall in EO. destruct (EO _ Hi) as ([p q] & He). cbn [fst] in He. unfold vat in Hx. cbn [fst snd] in Hx. rewrite He in Hx. destruct (w_ends _ W _ _ _ He) as [Lp Lq]. destruct d; cbn in Hx; subst; tauto. }
  assert (MV : MF_Vertices t f 1 NULL = Ok vs). { destruct (C23_face_loop t a f b u true NULL R Hf HP) as (C & _). destruct (C eq_refl) as (ws & E & _ & AR). change (b2z true) with 1 in E. rewrite E. f_equal. rewrite (around_vat _ _ _ AR). auto. }
  destruct (C26_face_regions t a f R) as (rs & ERs & (NRs & HRs)). congruence.
  destruct (reach_step t a TNewV R Logic.I) as (t1 & E1 & R1). cbn [tstep] in E1. set (a1 := astep a TNewV) in *. set (v := a_next a) in *.
  assert (A1n : a_next a1 = v + 1) by reflexivity. assert (A1e : a_e a1 = a_e a) by reflexivity. assert (A1f : a_f a1 = a_f a) by reflexivity. assert (A1r : a_r a1 = a_r a) by reflexivity. assert (A1v : forall h, a_v a1 h = if h =? v then Some true else a_v a h). { intros h. unfold a1. cbn [astep]. ra. unfold upd. auto. } clearbody a1.
  assert (Vn : a_v a v = None). { destruct (a_v a v) eqn:E; auto. assert (HH : a_v a v <> None) by congruence. apply (w_v _ W) in HH. unfold v in HH. lia. }
  pose proof (w_n _ W) as Wn. fold v in Wn.
  assert (JE : forall e p q, joins a1 e p q <-> joins a e p q) by (intros; unfold joins; rewrite A1e; tauto).
  assert (NVs : ~ In v vs). { rewrite Forall_forall in LVa. intros Hv. apply LVa in Hv. unfold live_v in Hv. congruence. }
  destruct (fan_all t1 a1 v vs b) as (t2 & a2 & fs & sp & E2 & ST); auto.
  { unfold live_v. rewrite A1v, Z.eqb_refl. auto. }
  { eapply Forall_impl; [|exact LVa]. intros w Hw. unfold live_v in *. rewrite A1v. destruct (w =? v); auto. }
  { lia. }
  { destruct FO as (FL & FO). split; auto. intros i Hi. destruct (FO i Hi) as (y & Hy & HH). exists y. rewrite A1e. auto. }
  { intros i e Hi HJ. apply JE in HJ. destruct FO as (FL & FO). rewrite FL in HJ. pose proof (FO i ltac:(lia)) as LI. apply leads_joins in LI. destruct LI as (p & q & Hp & K). destruct HJ as (p' & q' & Hp' & K'). apply (HU _ (snd (nth i b dflt)) p q). rewrite <- surjective_pairing. apply nth_In; auto. apply (edge_is_iff _ _ _ _ _ I); auto. rewrite <- !(edge_is_iff _ _ _ _ _ I). rewrite Hp'. destruct K as [[-> ->]|[-> ->]], K' as [[-> ->]|[-> ->]]; auto. }
  { intros e w HJ. apply JE in HJ. destruct HJ as (p & q & Hp & K). destruct (w_ends _ W _ _ _ Hp) as [Lp Lq]. unfold live_v, NULL in *. destruct K as [[-> ->]|[-> ->]]; [destruct Lp as [X|X]|destruct Lq as [X|X]]; first [lia|congruence]. }
  destruct ST as [R2 FV FRr FN FE FL FND FB FOt FF SL SP SO]. replace (length b =? 0)%nat with false in SL by lia. assert (SLb : length sp = length b) by lia. clear SL.
  assert (Ff : 1 <= f < v) by (apply (w_f _ W); congruence).
  assert (Hf2 : forall g, ~ In g fs -> a_f a2 g = a_f a g) by (intros g Hg; rewrite FOt, A1f; auto). assert (Nf : ~ In f fs) by (intros HH; apply FB in HH; lia).
  assert (Hr2 : a_r a2 = a_r a) by congruence.
  assert (Fn : forall q g d, has_face a q g d -> g < v). { intros q g d (c & Hc & Hi). pose proof (w_rf _ W _ _ Hc) as RF. rewrite Forall_forall in RF. destruct (RF _ Hi) as (y & Hy). cbn in Hy. apply (w_f _ W). congruence. }
  set (nus := fun d : bool => map (fun g : ptr => (g, d)) fs).
  assert (Nfst : forall d, map fst (nus d) = fs) by (intros; unfold nus; rewrite map_map; cbn; apply map_id).
  assert (Hfs : fs <> []) by (intros X; rewrite X in FL; cbn in FL; lia).
  destruct (exchange_faces f nus (fun t fr => d <- MR_FaceDir t fr f ;; MR_Replace_Faces t fr [f] fs (map (fun _ => d) fs))) with (rs := rs) (t := t2) (a := a2) as (t4 & a4 & E5 & R4 & D1 & D2 & D3 & D4 & D5); auto.
  { intros t' r d Hd. rewrite Hd. cbn [bind]. rewrite Nfst. f_equal. unfold dirz, nus. rewrite map_map. auto. }
  { intros d. rewrite Nfst. split; auto. unfold nus. destruct fs; [congruence|discriminate]. }
  { intros g d H1 H2. apply in_map_iff in H1. apply in_map_iff in H2. destruct H1 as (g1 & X1 & _). destruct H2 as (g2 & X2 & _). congruence. }
  { intros r Hr. apply HRs in Hr. destruct Hr as (d & c & Hc & Hi). exists d, c. rewrite Hr2. auto. }
  { intros d. apply Forall_forall. intros x Hx. apply in_map_iff in Hx. destruct Hx as (g & <- & Hg). cbn [fst]. apply In_nth with (d := NULL) in Hg. destruct Hg as (k & Hk & <-). eexists. apply FF. lia. }
  { intros r c d Hr Hc Hi. rewrite Hr2 in Hc. assert (Hfr : forall p, In p (map fst c) -> p < v). { intros p Hp. apply in_map_iff in Hp. destruct Hp as ([g s] & <- & Hg). apply (Fn r g s). exists c; auto. }
    rewrite Nfst. split. intros p Hp Hp'. apply Hfr in Hp'. apply FB in Hp. lia. split. unfold nus. rewrite map_length, FL. apply (HR r c). apply (reg_is_iff _ _ _ _ I); auto. apply in_map_iff. exists (f, d). auto.
    intros g s q Hg Hq. exfalso. assert (g < v). { destruct Hq as (c' & Hc' & Hi'). rewrite Hr2 in Hc'. apply (Fn q g s). exists c'. auto. } apply in_map_iff in Hg. destruct Hg as (g' & X & Hg). injection X as X _. subst g'. apply FB in Hg. lia. }
  pose proof (reach_inv _ _ R4) as I4.
  assert (NF : forall d, ~ In f (map fst (nus d))) by (intros d; rewrite Nfst; auto).
  assert (HE4 : forall r c, a_r a r = Some (true, Some c) -> a_r a4 r = Some (true, Some (exchange f nus c))).
  { intros r c Hc. rewrite D5, Hr2, Hc. destruct (mem r rs) eqn:Em; auto. rewrite exchange_out; auto. intros Hi. apply not_true_iff_false in Em. rewrite mem_In in Em. apply Em. apply HRs. apply in_map_iff in Hi. destruct Hi as ([g s] & Hg & Hi). cbn in Hg. subst g. exists s. exists c. auto. }
  assert (HE4' : forall r c, a_r a4 r = Some (true, Some c) -> exists c', a_r a r = Some (true, Some c') /\ c = exchange f nus c').
  { intros r c Hc. destruct (a_r a r) as [[l [c'|]]|] eqn:E.
    - destruct l. exists c'. split; auto. rewrite (HE4 r c' E) in Hc. congruence. rewrite D5, Hr2, E in Hc. destruct (mem r rs); discriminate.
    - rewrite D5, Hr2, E in Hc. destruct (mem r rs); discriminate.
    - rewrite D5, Hr2, E in Hc. destruct (mem r rs); discriminate. }
  destruct (reach_step t4 a4 (TDelF f false) R4) as (t5 & E6 & R5).
  { cbn [tpre]. split. rewrite D3, Hf2 by auto. congruence. intros _ r d (c & Hc & Hi). destruct (HE4' _ _ Hc) as (c' & Hc' & ->). apply (exchange_not_in f nus c' NF). apply in_map_iff. exists (f, d). auto. }
  cbn [tstep] in E6. pose proof (reach_inv _ _ R5) as I5. set (a5 := astep a4 (TDelF f false)) in *.
  assert (Ff5 : forall g, g <> f -> a_f a5 g = a_f a2 g). { intros g Hg. unfold a5. cbn [astep]. ra. unfold kill. rewrite upd_other by auto. congruence. }
  assert (Fff : a_f a5 f = None). { unfold a5. cbn [astep]. ra. unfold kill. rewrite upd_same. auto. }
  assert (Fe5 : a_e a5 = a_e a2). { unfold a5. cbn [astep]. ra. congruence. }
  assert (Fr5 : a_r a5 = a_r a4) by reflexivity. assert (Fv5 : a_v a5 = a_v a1) by (unfold a5; cbn [astep]; ra; congruence). clearbody a5.
  assert (Hff : forall k, (k < length b)%nat -> a_f a5 (nth k fs NULL) = Some (true, Some (fan sp b k))). { intros k Hk. rewrite Ff5. auto. intros X. apply Nf. rewrite <- X. apply nth_In. lia. }
  assert (L5 : forall x p q, leads a2 x p q -> leads a5 x p q) by (intros x p q (y & Hy & HH); exists y; rewrite Fe5; auto).
  assert (E52 : forall g, ~ In g (map fst sp) -> a_e a5 g = a_e a g). { intros g Hg. rewrite Fe5. destruct (Z.lt_ge_cases g (a_next a1)) as [A|A]. rewrite FE, A1e by auto. auto. destruct (a_e a2 g) eqn:Eg. exfalso. apply Hg. apply SO; auto. congruence. destruct (a_e a g) eqn:Ea; auto. assert (HH : a_e a g <> None) by congruence. apply (w_e _ W) in HH. fold v in HH. lia. }
  assert (NSP : NoDup (map fst sp)). { apply (NoDup_nth _ (fst dflt)). intros i j Hi Hj Eij. rewrite map_length in *. rewrite !map_nth in Eij. destruct (SP i Hi) as (Li & _). destruct (SP j Hj) as (Lj & _). assert (X : nth i vs NULL = nth j vs NULL). { apply leads_joins in Li. apply leads_joins in Lj. rewrite Eij in Li. assert (NE : forall k, (k < length sp)%nat -> v <> nth k vs NULL). { intros k Hk X. apply NVs. rewrite X. apply nth_In. lia. } eapply joins_other; eauto. } apply nth_inj in X; auto; lia. }
  exists t5, v, sp, fs. split; [|split; [|split; [|split; [|split; [|split; [|split; [|split; [|split; [|split; [|split; [|split; [|split; [|split; [|split]]]]]]]]]]]]]].
  - unfold MF_Split. rewrite ERs. cbn [bind]. rewrite MV. cbn [bind]. destruct (MV_New t) as [t1' v'] eqn:EN. assert (Hv' : v' = v) by (unfold v; rewrite <- (i_n _ _ I); inversion EN; auto). subst v'. cbn [fst] in E1. assert (t1' = t1) by congruence. subst t1'. replace (MAXPV2 <? ZL vs) with false by (unfold ZL, MAXPV2; lia). rewrite E2. cbn [bind]. rewrite E5. cbn [bind]. rewrite E6. auto.
  - split. apply (no_v t a); auto. rewrite (i_v _ _ I5), Fv5, A1v, Z.eqb_refl. auto.
  - split; auto. split; auto. intros x Hx. apply (new_e t a); auto. apply In_nth with (d := dflt) in Hx. destruct Hx as (k & Hk & <-). destruct (SP k Hk) as (_ & B). fold v. lia.
  - split; auto. split; auto. intros g Hg. apply (new_f t a); auto. apply FB in Hg. fold v. lia.
  - intros i Hi. destruct (SP i ltac:(lia)) as (Li & _). apply L5, leads_joins in Li. destruct Li as (p & q & Hp & K). rewrite <- !(edge_is_iff _ _ _ _ _ I5). rewrite Hp. destruct K as [[-> ->]|[-> ->]]; auto.
  - intros i Hi j tri. assert (Hj : (j < length b)%nat) by (apply Nat.mod_upper_bound; lia). split. apply (face_is_iff _ _ _ _ I5). apply Hff; auto. exists v.
    assert (Nij : nth i vs NULL <> nth j vs NULL). { intros X. apply nth_inj in X; auto; try lia. unfold j in X. destruct (Nat.eq_dec (S i) (length b)) as [Y|Y]. rewrite Y, Nat.mod_same in X by lia. lia. rewrite Nat.mod_small in X by lia. lia. }
    assert (NE : forall k, (k < length b)%nat -> v <> nth k vs NULL). { intros k Hk X. apply NVs. rewrite X. apply nth_In. lia. }
    apply (corners3 t5 a5); auto.
    + apply L5. apply SP. lia.
    + destruct FO as (FOl & FO). pose proof (FO i ltac:(lia)) as LI. rewrite <- FOl in LI. fold j in LI. destruct LI as (y & Hy & HH). exists y. split; auto. rewrite E52; auto. intros X. apply in_map_iff in X. destruct X as (z & Ez & Hz). apply In_nth with (d := dflt) in Hz. destruct Hz as (k & Hk & <-). destruct (SP k Hk) as (_ & B). assert (HH' : a_e a (fst (nth i b dflt)) <> None) by congruence. apply (w_e _ W) in HH'. fold v in HH'. lia.
    + apply L5. apply (leads_flip a2 (nth j sp dflt)). apply SP. lia.
    + intros X. symmetry in X. apply (NE j Hj X).
  - apply (no_f t5 a5); auto.
  - intros g c G1 G2. rewrite <- (face_is_iff _ _ _ _ I), <- (face_is_iff _ _ _ _ I5). rewrite Ff5, Hf2 by auto. tauto.
  - intros g p q Hg. rewrite <- (edge_is_iff _ _ _ _ _ I), <- (edge_is_iff _ _ _ _ _ I5). rewrite E52 by auto. tauto.
  - intros w Hw. rewrite (i_v _ _ I), (i_v _ _ I5), Fv5, A1v. replace (w =? v) with false by lia. auto.
  - intros r c1 d c2 Hc. apply (reg_is_iff _ _ _ _ I) in Hc. apply (reg_is_iff _ _ _ _ I5). rewrite Fr5, (HE4 _ _ Hc). destruct (w_rnd _ W _ _ _ Hc) as [Nc _]. rewrite exchange_mid by auto. unfold nus. destruct fs as [|g0 fs']; [congruence|]. cbn [map firstn skipn hd tl app]. rewrite <- !app_assoc. auto.
  - intros r c Hc Hn. apply (reg_is_iff _ _ _ _ I) in Hc. apply (reg_is_iff _ _ _ _ I5). rewrite Fr5, (HE4 _ _ Hc), exchange_out by auto. auto.
  - intros r c' Hc'. apply (reg_is_iff _ _ _ _ I5) in Hc'. rewrite Fr5 in Hc'. destruct (HE4' _ _ Hc') as (c & Hc & ->). exists c. split. apply (reg_is_iff _ _ _ _ I); auto. intros CL F e HF.
    assert (OL : forall x, In x c -> fst x <> f -> forall bb, face_is t5 (fst x) bb -> face_is t (fst x) bb). { intros x Hx Hn bb Hb. apply (face_is_iff _ _ _ _ I). apply (face_is_iff _ _ _ _ I5) in Hb. rewrite Ff5, Hf2 in Hb; auto. intros X. apply FB in X. assert (fst x < v). { apply (Fn r (fst x) (snd x)). exists c. split; auto. rewrite <- surjective_pairing. auto. } lia. }
    destruct (in_dec Z.eq_dec f (map fst c)) as [Hi|Hn].
    + apply in_map_iff in Hi. destruct Hi as ([f' d] & X & Hi). cbn [fst] in X. subst f'. apply in_split in Hi. destruct Hi as (c1 & c2 & ->). destruct (w_rnd _ W _ _ _ Hc) as [Nc _]. rewrite exchange_mid in * by auto.
      assert (Nc' : ~ In f (map fst (c1 ++ c2))). { rewrite map_app in *. cbn [map fst] in Nc. apply NoDup_remove_2 in Nc. auto. }
      set (F' := fun g => if g =? f then b else F g).
      assert (IN12 : forall x, In x (c1 ++ c2) -> In x ((c1 ++ firstn 1 (nus d) ++ c2) ++ skipn 1 (nus d))). { intros x Hx. rewrite !in_app_iff in *. tauto. }
      specialize (CL F' e). rewrite map_app in CL. cbn [map] in CL. rewrite zsum_app, zsum_cons in CL. cbn [fst snd] in CL. assert (Eff : F' f = b) by (unfold F'; rewrite Z.eqb_refl; auto). rewrite Eff in CL. clear Eff.
      assert (X12 : forall l, (forall x, In x l -> In x (c1 ++ c2)) -> map (fun x => sgn (snd x) * loop_uses (F' (fst x)) e) l = map (fun x => sgn (snd x) * loop_uses (F (fst x)) e) l). { intros l Hl. apply map_ext_in. intros x Hx. unfold F'. replace (fst x =? f) with false. auto. symmetry. apply Z.eqb_neq. intros X. apply Nc'. rewrite <- X. apply in_map. auto. }
      rewrite (X12 c1), (X12 c2) in CL by (intros x Hx; apply in_or_app; auto).
      assert (HF' : forall x, In x (c1 ++ (f, d) :: c2) -> face_is t (fst x) (F' (fst x))). { intros x Hx. unfold F'. destruct (Z.eqb_spec (fst x) f) as [->|Hn]. apply (face_is_iff _ _ _ _ I); auto. apply OL; auto. apply HF. apply IN12. rewrite in_app_iff in *. cbn [In] in Hx. destruct Hx as [Hx|[Hx|Hx]]; auto. subst x. cbn in Hn. congruence. }
      specialize (CL HF').
      assert (FANS : zsum (map (fun x => sgn (snd x) * loop_uses (F (fst x)) e) (nus d)) = sgn d * loop_uses b e).
      { unfold nus. rewrite map_map. cbn [fst snd]. rewrite (zsum_mul _ (sgn d) (fun g => loop_uses (F g) e)). f_equal. rewrite <- (fan_uses sp b e). f_equal. rewrite <- FL.
        assert (MS : fs = map (fun k => nth k fs NULL) (seq 0 (length fs))). { clear. induction fs as [|x l IH]; auto. cbn [length seq map nth]. f_equal. rewrite <- seq_shift, map_map. exact IH. }
        rewrite MS at 1. rewrite map_map. apply map_ext_in. intros k Hk. apply in_seq in Hk. f_equal. assert (Hx : face_is t5 (nth k fs NULL) (F (nth k fs NULL))). { apply (HF (nth k fs NULL, d)). assert (HH : In (nth k fs NULL, d) (nus d)) by (unfold nus; apply in_map_iff; exists (nth k fs NULL); split; auto; apply nth_In; lia). rewrite <- (firstn_skipn 1 (nus d)) in HH. rewrite !in_app_iff in *. tauto. }
        apply (face_is_iff _ _ _ _ I5) in Hx. rewrite Hff in Hx by lia. congruence. }
      rewrite <- (firstn_skipn 1 (nus d)) in FANS. rewrite map_app, zsum_app in FANS. rewrite !map_app, !zsum_app. lia.
    + rewrite exchange_out in * by auto. apply (CL F e). intros x Hx. apply OL; auto. intros X. apply Hn. rewrite <- X. apply in_map; auto.
  - exact (inv_mutual _ _ I5).
  - exact (inv_sound _ _ I5).
  - exists a5. auto.
Qed.
Print Assumptions C44_split.

(** ** What is not tested *)

(** All that [C44_swap] asks for of the edge and the two triangles. *)
Definition swappable (t : topo) (e v0 v1 v2 v3 f0 f1 : ptr) : Prop :=
  (exists a, reach t a) /\ edge_is t e v0 v1 /\ NoDup [v0; v1; v2; v3] /\ ~ In NULL [v0; v1; v2; v3] /\
  exists b0 b1 x0 x1 x2 x3, face_is t f0 b0 /\ face_is t f1 b1 /\ rotation [(e, true); x0; x1] b0 /\ rotation [(e, false); x2; x3] b1 /\
  corners t v1 [x0; x1] [v1; v3] v0 /\ corners t v0 [x2; x3] [v0; v2] v1 /\ (forall g b, face_is t g b -> In e (map fst b) -> g = f0 \/ g = f1).
Definition unique_edges (t : topo) : Prop := forall g h p q, edge_is t g p q -> edge_is t h p q \/ edge_is t h q p -> g = h.
Lemma unique_ok : forall t a, reach t a ->
  forallb (fun g => forallb (fun h => match a_e a g, a_e a h with Some (true, (p, q)), Some (true, (p', q')) => (g =? h) || negb ((p =? p') && (q =? q') || (p =? q') && (q =? p')) | _, _ => true end) (zrange 1 (a_next a))) (zrange 1 (a_next a)) = true -> unique_edges t.
Proof.
  intros t a R H g h p q Hg Hh. pose proof (reach_inv _ _ R) as I. apply (edge_is_iff _ _ _ _ _ I) in Hg. rewrite <- !(edge_is_iff _ _ _ _ _ I) in Hh. rewrite forallb_forall in H.
  assert (Bg : 1 <= g < a_next a) by (apply (w_e _ (i_w _ _ I)); congruence). assert (Bh : 1 <= h < a_next a) by (apply (w_e _ (i_w _ _ I)); destruct Hh; congruence).
  specialize (H g ltac:(apply zrange_In; auto)). rewrite forallb_forall in H. specialize (H h ltac:(apply zrange_In; auto)). rewrite Hg in H. destruct Hh as [Hh|Hh]; rewrite Hh in H; rewrite !Z.eqb_refl in H; lia.
Qed.
Lemma nd4 : forall p q r s : ptr, p <> q -> p <> r -> p <> s -> q <> r -> q <> s -> r <> s -> NoDup [p; q; r; s].
Proof. intros. repeat constructor; cbn; intuition. Qed.
Ltac corner R := apply (corners_iff _ _ _ _ _ _ (reach_inv _ _ R)); split; [apply walkb_ok; vm_compute; reflexivity|vm_compute; reflexivity].

(** The four triangles of a tetrahedron, no region.  The vertices opposite the edge
    are joined already; the swap joins them again. *)
Definition shell : list top := tris ++ [TNewE; TSetVertex 12 false 2; TSetVertex 12 true 4; TNewF; TSetEdges 13 [(5, false); (9, false); (12, false)]; TNewF; TSetEdges 14 [(6, false); (12, true); (8, false)]].
Definition Ts : topo := TopoProps.done (trun empty_topo shell).
Lemma Ts_reach : reach Ts (arun amesh0 shell).
Proof. apply made_reach. vm_compute. reflexivity. Qed.
Theorem C44_swap_joined_refuted : exists t e v0 v1 v2 v3 f0 f1 t' e' g0 g1 g, swappable t e v0 v1 v2 v3 f0 f1 /\ (forall r c, ~ reg_is t r c) /\ unique_edges t /\
  ME_Swap2D 2 t e = Ok (t', Some (e', g0, g1)) /\ edge_is t' e' v2 v3 /\ edge_is t' g v3 v2 /\ g <> e'.
Proof.
  assert (SW : swappable Ts 7 3 1 4 2 10 11).
  { split. eexists. exact Ts_reach. split. apply (edge_is_iff _ _ _ _ _ (reach_inv _ _ Ts_reach)). vm_compute. reflexivity. split. apply nd4; discriminate. split. { cbn. unfold NULL. lia. }
    exists [(5, true); (6, true); (7, true)], [(7, false); (8, true); (9, true)], (5, true), (6, true), (8, true), (9, true). split. facts Ts_reach. split. facts Ts_reach. split. exists [(7, true)], [(5, true); (6, true)]. auto. split. exists [], [(7, false); (8, true); (9, true)]. auto.
    split. corner Ts_reach. split. corner Ts_reach. intros g b Hg Hi. assert (HH : In g [10; 11]) by (apply (only_faces Ts _ 7 [10; 11] Ts_reach ltac:(vm_compute; reflexivity) g b); auto). cbn in HH. lia. }
  pose proof (no_regs Ts _ Ts_reach ltac:(vm_compute; reflexivity)) as NR. pose proof (unique_ok _ _ Ts_reach ltac:(vm_compute; reflexivity)) as UN.
  pose proof SW as ((a & R) & He & ND & NN & b0 & b1 & x0 & x1 & x2 & x3 & F0 & F1 & R0 & R1 & C0 & C1 & HE).
  destruct (C44_swap Ts a 7 3 1 4 2 10 11 b0 b1 x0 x1 x2 x3) as (t' & e' & g0 & g1 & E & (NE & _) & Ee & _ & _ & _ & _ & _ & _ & KE & _); auto. { intros r c Hc. destruct (NR r c Hc). }
  assert (N12 : 12 <> e') by (intros X; rewrite <- X in NE; vm_compute in NE; discriminate).
  exists Ts, 7, 3, 1, 4, 2, 10, 11, t', e', g0, g1, 12. split; [exact SW|]. split; [exact NR|]. split; [exact UN|]. split; [exact E|]. split; [exact Ee|]. split; [|exact N12]. apply KE; [discriminate|exact N12|]. apply (edge_is_iff _ _ _ _ _ (reach_inv _ _ Ts_reach)). vm_compute. reflexivity.
Qed.
Print Assumptions C44_swap_joined_refuted.

(** Two triangles of a tetrahedron's boundary are swapped as well; the region keeps
    the two that are freed. *)
Theorem C44_swap_in_region_refuted : exists t e v0 v1 v2 v3 f0 f1 t' x r y, swappable t e v0 v1 v2 v3 f0 f1 /\ ME_Swap2D 2 t e = Ok (t', Some x) /\
  trs t' r = Some y /\ r_live y = true /\ (exists l, r_faces y = Some l /\ In f0 l /\ In f1 l) /\ tfs t' f0 = None /\ tfs t' f1 = None /\ ~ sound t'.
Proof.
  exists T0, 7, 1, 3, 2, 4, 18, 15. destruct (ME_Swap2D 2 T0 7) as [[t' [x|]]| | |] eqn:E; vm_compute in E; try discriminate. injection E as <- <-. eexists. eexists. exists 22. eexists.
  split. { split. eexists. exact T0_reach. split. apply (edge_is_iff _ _ _ _ _ (reach_inv _ _ T0_reach)). vm_compute. reflexivity. split. apply nd4; discriminate. split. { cbn. unfold NULL. lia. }
    exists [(7, true); (11, true); (8, false)], [(6, true); (9, true); (7, false)], (11, true), (8, false), (6, true), (9, true). split. facts T0_reach. split. facts T0_reach. split. exists [], [(7, true); (11, true); (8, false)]. auto. split. exists [(7, false)], [(6, true); (9, true)]. auto.
    split. corner T0_reach. split. corner T0_reach. intros g b Hg Hi. assert (HH : In g [18; 15]) by (apply (only_faces T0 _ 7 [18; 15] T0_reach ltac:(vm_compute; reflexivity) g b); auto). cbn in HH. lia. }
  split. reflexivity. split. reflexivity. split. reflexivity. split. { eexists. split. reflexivity. cbn; tauto. } split. reflexivity. split. reflexivity.
  intros SO. destruct (so_r _ SO 22 _ _ eq_refl eq_refl eq_refl) as (_ & HR). destruct (HR 18 ltac:(cbn; tauto)) as (z & Hz & _). discriminate Hz.
Qed.
Print Assumptions C44_swap_in_region_refuted.

(** Two triangles that use the edge in the same sense: it is taken for one of the
    other edges and used after it is freed.  An edge without faces: the missing
    list is read. *)
Definition alone : list top := [TNewV; TNewV; TNewE; TSetVertex 3 false 1; TSetVertex 3 true 2].
Theorem C44_swap_sense_refuted : exists t e v0 v1 f0 f1 b0 b1, (exists a, reach t a) /\ edge_is t e v0 v1 /\ face_is t f0 b0 /\ face_is t f1 b1 /\ (exists vs, loop t b0 vs) /\ (exists vs, loop t b1 vs) /\ length b0 = 3%nat /\ length b1 = 3%nat /\
  f0 <> f1 /\ In (e, true) b0 /\ In (e, true) b1 /\ (forall r c, ~ reg_is t r c) /\ ME_Swap2D 2 t e = Undef.
Proof.
  exists Tw, 7, 3, 1, 10, 11, [(5, true); (6, true); (7, true)], [(7, true); (9, false); (8, false)]. split. eexists. exact Tw_reach. split. apply (edge_is_iff _ _ _ _ _ (reach_inv _ _ Tw_reach)). vm_compute. reflexivity. split. facts Tw_reach. split. facts Tw_reach.
  split. eexists. apply (loop_dec _ _ _ 1 Tw_reach). vm_compute. reflexivity. split. eexists. apply (loop_dec _ _ _ 3 Tw_reach). vm_compute. reflexivity. split. reflexivity. split. reflexivity. split. discriminate. split. cbn; tauto. split. cbn; tauto. split. apply (no_regs Tw _ Tw_reach). vm_compute. reflexivity. vm_compute. reflexivity.
Qed.
Theorem C44_swap_no_face_refuted : exists t e v0 v1, (exists a, reach t a) /\ edge_is t e v0 v1 /\ v0 <> v1 /\ (forall f b, ~ face_is t f b) /\ ME_Swap2D 2 t e = Undef.
Proof.
  assert (R : reach (TopoProps.done (trun empty_topo alone)) (arun amesh0 alone)) by (apply made_reach; vm_compute; reflexivity).
  exists (TopoProps.done (trun empty_topo alone)), 3, 1, 2. split. eexists. exact R. split. apply (edge_is_iff _ _ _ _ _ (reach_inv _ _ R)). vm_compute. reflexivity. split. discriminate. split; [|vm_compute; reflexivity].
  intros f b Hf. apply (face_is_iff _ _ _ _ (reach_inv _ _ R)) in Hf. change (arun amesh0 alone) with (astep (astep (astep (astep (astep amesh0 TNewV) TNewV) TNewE) (TSetVertex 3 false 1)) (TSetVertex 3 true 2)) in Hf. cbn in Hf. discriminate Hf.
Qed.
Print Assumptions C44_swap_sense_refuted. Print Assumptions C44_swap_no_face_refuted.

(** A face of 31 edges: the arrays of MF_Split have 30 entries. *)
Definition ngon (n : nat) : list top := repeat TNewV n ++
  flat_map (fun i => let e := Z.of_nat (n + 1 + i) in [TNewE; TSetVertex e false (Z.of_nat (i + 1)); TSetVertex e true (Z.of_nat (S i mod n + 1))]) (seq 0 n) ++
  [TNewF; TSetEdges (Z.of_nat (2 * n + 1)) (map (fun i => (Z.of_nat (n + 1 + i), true)) (seq 0 n))].
Definition Tn : topo := TopoProps.done (trun empty_topo (ngon 31)).
Lemma Tn_reach : reach Tn (arun amesh0 (ngon 31)).
Proof. apply made_reach. vm_compute. reflexivity. Qed.
Theorem C44_split_large_refuted : exists t f b vs, (exists a, reach t a) /\ face_is t f b /\ loop t b vs /\ NoDup vs /\ length b = 31%nat /\ unique_edges t /\ (forall r c, ~ reg_is t r c) /\ MF_Split t f = Undef.
Proof.
  exists Tn, 63, (map (fun i => (Z.of_nat (32 + i), true)) (seq 0 31)), (map (vat (arun amesh0 (ngon 31))) (map (fun i => (Z.of_nat (32 + i), true)) (seq 0 31))). split. eexists. exact Tn_reach. split. facts Tn_reach. split. apply (loop_dec _ _ _ 1 Tn_reach). vm_compute. reflexivity.
  split. { assert (E : map (vat (arun amesh0 (ngon 31))) (map (fun i => (Z.of_nat (32 + i), true)) (seq 0 31)) = zrange 1 32) by (vm_compute; reflexivity). rewrite E. apply zrange_nd. } split. reflexivity. split. apply (unique_ok _ _ Tn_reach). vm_compute. reflexivity. split. apply (no_regs Tn _ Tn_reach). vm_compute. reflexivity. vm_compute. reflexivity.
Qed.
Print Assumptions C44_split_large_refuted.

(** A second edge between two corners that is older than the edge of the face takes
    its place; the edge of the face ends without a face. *)
Definition twin : list top := [TNewV; TNewV; TNewV; TNewE; TSetVertex 4 false 1; TSetVertex 4 true 2; TNewE; TSetVertex 5 false 1; TSetVertex 5 true 2; TNewE; TSetVertex 6 false 2; TSetVertex 6 true 3; TNewE; TSetVertex 7 false 3; TSetVertex 7 true 1;
  TNewF; TSetEdges 8 [(5, true); (6, true); (7, true)]].
Definition T2e : topo := TopoProps.done (trun empty_topo twin).
Lemma T2e_reach : reach T2e (arun amesh0 twin).
Proof. apply made_reach. vm_compute. reflexivity. Qed.
Theorem C44_split_twin_refuted : exists t f b vs e t' v g, (exists a, reach t a) /\ face_is t f b /\ loop t b vs /\ NoDup vs /\ ~ In NULL vs /\ length b = 3%nat /\ (forall r c, ~ reg_is t r c) /\
  In (e, true) b /\ MF_Split t f = Ok (t', v) /\ ME_Faces t' e = Ok None /\ ~ In g (map fst b) /\ exists f', MF_Edges t' f' 1 v = Ok [11; g; 12] /\ tfs t f' = None.
Proof.
  exists T2e, 8, [(5, true); (6, true); (7, true)], [1; 2; 3], 5. destruct (MF_Split T2e 8) as [[t' v]| | |] eqn:E; vm_compute in E; try discriminate. injection E as <- <-. eexists. eexists. exists 4.
  split. eexists. exact T2e_reach. split. facts T2e_reach. split. apply (loop_dec _ _ [(5, true); (6, true); (7, true)] 1 T2e_reach). vm_compute. reflexivity. split. apply (zrange_nd 1 4). split. { cbn. unfold NULL. lia. } split. reflexivity. split. apply (no_regs T2e _ T2e_reach). vm_compute. reflexivity.
  split. cbn; tauto. split. reflexivity. split. vm_compute. reflexivity. split. { cbn. lia. } exists 10. split; vm_compute; reflexivity.
Qed.
Print Assumptions C44_split_twin_refuted.

(** ** Examples *)

Example C44_swap_ex : swappable Tt 7 3 1 4 2 10 11 /\ (forall r c, ~ reg_is Tt r c) /\
  okt (ME_Swap2D 2 Tt 7) (fun x => snd x = Some (12, 13, 14) /\ MF_Edges (fst x) 13 1 NULL = Ok [12; 6; 8] /\ MF_Vertices (fst x) 13 1 NULL = Ok [4; 2; 3] /\ MF_Edges (fst x) 14 1 NULL = Ok [12; 9; 5]) /\
  ME_Swap2D 1 Tt 7 = Ok (Tt, None) /\ ME_Swap2D 2 Tt 5 = Ok (Tt, None).
Proof.
  split. { split. eexists. exact Tt_reach. split. apply (edge_is_iff _ _ _ _ _ (reach_inv _ _ Tt_reach)). vm_compute. reflexivity. split. apply nd4; discriminate. split. { cbn. unfold NULL. lia. }
    exists [(5, true); (6, true); (7, true)], [(7, false); (8, true); (9, true)], (5, true), (6, true), (8, true), (9, true). split. facts Tt_reach. split. facts Tt_reach. split. exists [(7, true)], [(5, true); (6, true)]. auto. split. exists [], [(7, false); (8, true); (9, true)]. auto.
    split. corner Tt_reach. split. corner Tt_reach. intros g b Hg Hi. assert (HH : In g [10; 11]) by (apply (only_faces Tt At 7 [10; 11] Tt_reach ltac:(vm_compute; reflexivity) g b); auto). cbn in HH. lia. }
  split. apply (no_regs Tt At Tt_reach). vm_compute. reflexivity. split. vm_compute. auto. split; vm_compute; reflexivity.
Qed.
(** The face between two tetrahedra is split; both regions are closed before and
    after. *)
Example C44_split_ex : exists a, reach T0 a /\ face_is T0 17 [(9, true); (11, true); (10, false)] /\ loop T0 [(9, true); (11, true); (10, false)] [2; 3; 4] /\ unique_edges T0 /\
  reg_is T0 22 ([(15, false); (16, true)] ++ (17, true) :: [(18, false)]) /\ reg_is T0 23 ([] ++ (17, false) :: [(19, true); (20, true); (21, false)]) /\
  closed T0 [(15, false); (16, true); (17, true); (18, false)] /\ closed T0 [(17, false); (19, true); (20, true); (21, false)] /\
  okt (MF_Split T0 17) (fun x => snd x = 24 /\ MR_Faces (fst x) 22 = Ok [15; 16; 25; 18; 28; 30] /\ MR_Faces (fst x) 23 = Ok [25; 19; 20; 21; 28; 30] /\ MF_Vertices (fst x) 28 1 NULL = Ok [24; 3; 4]).
Proof.
  exists (arun amesh0 tets). split. exact T0_reach. split. facts T0_reach. split. apply (loop_dec _ _ [(9, true); (11, true); (10, false)] 2 T0_reach). vm_compute. reflexivity. split. apply (unique_ok _ _ T0_reach). vm_compute. reflexivity. split. facts T0_reach. split. facts T0_reach.
  split. apply (closedb_ok _ _ _ T0_reach). vm_compute. reflexivity. split. apply (closedb_ok _ _ _ T0_reach). vm_compute. reflexivity. vm_compute. auto.
Qed.
