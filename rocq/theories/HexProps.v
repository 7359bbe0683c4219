(** C59: cutting tetrahedra into hexahedra. *)
From Coq Require Import ZArith List Lia Bool Arith ZifyBool ZifyNat Permutation.
From Verif Require Import Base BaseProofs ListSpec HashProofs AttModel AttProps ParModel ParProps TopoModel TopoSpec TopoProofs TopoProofs2 TopoProofs3 TopoProofs4 TopoProofs5 TopoProofs6 TopoProofs7 TopoProps TopoProps2 TopoProps3 ModProofs ModProofs2 CheckProps RefineProofs CellModel CellSpec CellProofs CellProofs2 CellProofs3 CellProofs4 CellProofs5 CellProofs6 CellProps BuildModel BuildProofs BuildProofs2 BuildProofs3 BuildProps QuadModel QuadProps HexModel.
From Verif Require MetisProps.
Import ListNotations.
Open Scope Z_scope.

(** ** Specification *)

(** No two edges join the same vertices, no two faces have the same vertices. *)
Definition simple_edges (a : amesh) : Prop := forall e e' u w, joins a e u w -> joins a e' u w -> e = e'.
Definition simple_faces (a : amesh) : Prop := forall f g d d' us vs, outward a (f, d) us -> outward a (g, d') vs -> NoDup us -> NoDup vs -> (forall v, In v us <-> In v vs) -> f = g.
(** A mesh of tetrahedra: all faces are triangles, all regions have the shape. *)
Record tetmesh (t : topo) (a : amesh) : Prop := {
  tm_reach : reach t a;
  tm_e : simple_edges a;
  tm_f : simple_faces a;
  tm_tri : forall f, live_f a f -> polygon a 3 f;
  tm_tet : forall r, live_r a r -> exists b ws, a_r a r = Some (true, Some b) /\ typed t r /\ cell a tetrahedron b ws }.
(** The faces of a hexahedron, seen from outside. *)
Definition quads (h : list hlab) : list (list hlab) := map (map (fun i => nth i h (OfV NULL))) (s_loops hexahedron).
(** The part at [v] of the face [f] of [r], which passes [u], [v], [w] seen from
    outside. *)
Definition outer (a : amesh) (r : ptr) (q : list hlab) : Prop := exists f d u v w e e',
  has_face a r f d /\ outward a (f, d) [u; v; w] /\ joins a e v w /\ joins a e' u v /\ q = [OfV v; OfE e; OfF f; OfE e'].
(** [q] or a rotation of it is among [qs]. *)
Definition among (q : list hlab) (qs : list (list hlab)) : Prop := exists q', In q' qs /\ rotation q q'.

(** ** MVs_CommonFace *)

Lemma tri_good : forall t a f, reach t a -> polygon a 3 f -> good_face a f.
Proof.
  intros t a f R (b & u & Hf & L & HP & N & _). exists b, u. split; auto. split; auto. rewrite stops_vend. pose proof (closed_linked _ _ _ HP) as LK. eapply Permutation_NoDup; [|exact N]. apply (vats_perm a b true LK). intros ->. discriminate.
Qed.
Lemma face_found : forall t a g d us v0 v1 v2, reach t a -> simple_edges a -> simple_faces a -> (forall f, live_f a f -> good_face a f) -> NoDup [v0; v1; v2] -> Forall (live_v a) [v0; v1; v2] ->
  outward a (g, d) us -> Permutation us [v0; v1; v2] -> MVs_CommonFace t 3 [v0; v1; v2] = Ok g /\ g <> NULL.
Proof.
  intros t a g d us v0 v1 v2 R SE SF HG N HL OG PG. pose proof (reach_inv _ _ R) as I. set (vs := [v0; v1; v2]) in *. unfold MVs_CommonFace. rewrite !rdl_ok by (cbn [length vs]; lia). cbn [bind]. change (nth (Z.to_nat 0) vs 0) with v0. change (nth (Z.to_nat 1) vs 0) with v1.
  rewrite Forall_forall in HL. assert (L0 : live_v a v0) by (apply HL; cbn; auto). assert (L1 : live_v a v1) by (apply HL; cbn; auto).
  assert (GN : g <> NULL). { destruct OG as (fb & ? & ? & Hb & _). cbn in Hb. eapply f_nn; eauto. congruence. }
  assert (EG : exists e, has_edge a g e /\ joins a e v0 v1).
  { destruct (outward_eloop _ _ _ _ OG) as (es & (LE & J) & HE). pose proof (Permutation_length PG) as LU. cbn in LU. destruct us as [|u0 [|u1 [|u2 [|? ?]]]]; try discriminate. destruct es as [|e0 [|e1 [|e2 [|? ?]]]]; try discriminate.
    pose proof (J 0%nat ltac:(cbn; lia)) as J0. pose proof (J 1%nat ltac:(cbn; lia)) as J1. pose proof (J 2%nat ltac:(cbn; lia)) as J2. cbn in J0, J1, J2.
    assert (SY : forall e x y, joins a e x y -> joins a e y x) by (intros e x y (p & q & X & Y); exists p, q; split; [auto|tauto]).
    assert (I0 : In v0 [u0; u1; u2]) by (eapply Permutation_in; [symmetry; exact PG|cbn; auto]). assert (I1 : In v1 [u0; u1; u2]) by (eapply Permutation_in; [symmetry; exact PG|cbn; auto]).
    assert (NN : v0 <> v1) by (intros ->; apply NoDup_cons_iff in N; apply N; cbn; auto).
    assert (H0 : has_edge a g e0) by (apply HE; cbn; auto). assert (H1 : has_edge a g e1) by (apply HE; cbn; auto). assert (H2 : has_edge a g e2) by (apply HE; cbn; auto).
    destruct I0 as [<-|[<-|[<-|[]]]]; destruct I1 as [<-|[<-|[<-|[]]]]; try congruence; eauto. }
  destruct EG as (eg & EG1 & EG2).
  destruct (common_edge t a v0 v1 R L0) as (e & E & K). { intros ->. apply NoDup_cons_iff in N. apply N. cbn; auto. } { eapply live_nn; eauto. } rewrite E. cbn [bind]. destruct K as [(Ne & Hj)|(-> & X)]; [|destruct (X _ EG2)].
  assert (eg = e) by (eapply SE; eauto). subst eg.
  replace (e =? NULL) with false by (symmetry; apply Z.eqb_neq; auto). assert (He : a_e a e <> None) by (destruct Hj as (p & q & Hj & _); congruence). destruct (C26_edge_faces t a e R He) as (o & E1 & A). rewrite E1. cbn [bind]. destruct o as [l|]; [|destruct (A _ EG1)]. destruct A as (_ & _ & A).
  edestruct (first_face_ok (fun f => nfv <- MF_Num_Edges t f ;; if negb (nfv =? 3) then Ok false else fv <- MF_Vertices t f 1 NULL ;; ws <- mapM (lent fv) (zrange 0 3) ;; Ok (forallb (fun v => mem v vs) ws))
     (fun f => exists d us, outward a (f, d) us /\ NoDup us /\ forall v, In v us <-> In v vs) l) as (f & E2 & D).
  - intros f Hf. apply A in Hf. destruct (HG f) as (b & u & Hb & HP & HN). { destruct Hf as (b & Hb & _). exists (Some b); auto. } rewrite stops_vend in HN. destruct (C23_face_loop t a f b u true NULL R Hb HP) as (C & _ & _). destruct (C eq_refl) as (xs & EU & _ & AR). cbn [walk b2z] in *.
    assert (OU : outward a (f, true) xs) by (exists b, u, b; cbn [fst snd walk]; split; [auto|split; [auto|split; [apply rotation_refl|auto]]]).
    pose proof (closed_linked _ _ _ HP) as LK. assert (NB : b <> []). { destruct Hf as (b' & Hb' & Hi). rewrite Hb in Hb'. inversion Hb'; subst b'. intros ->. destruct Hi. }
    assert (NU : NoDup xs). { rewrite (around_vat _ _ _ AR). eapply Permutation_NoDup; [|exact HN]. symmetry. apply (vats_perm a b true LK NB). }
    rewrite (face_num t a f true xs R OU). cbn [bind]. destruct (ZL xs =? 3) eqn:EL; cbn [negb].
    + rewrite EU. cbn [bind]. apply Z.eqb_eq in EL. assert (LL : length xs = 3%nat) by (unfold ZL in EL; lia).
      assert (EM : mapM (lent xs) (zrange 0 3) = Ok xs). { destruct xs as [|x0 [|x1 [|x2 [|? ?]]]]; try discriminate LL. reflexivity. }
      rewrite EM. cbn [bind]. eexists. split; [reflexivity|]. rewrite forallb_forall. split.
      * intros K. exists true, xs. split; auto. split; auto. assert (INC : incl xs vs) by (intros v Hv; apply mem_In, K; auto). intros v. split; auto. apply (NoDup_length_incl NU); auto. cbn; lia.
      * intros (d' & us' & O' & N' & S') v Hv. apply mem_In. apply S'. apply (outward_ends _ _ _ _ v O'). apply (outward_ends _ _ _ _ v OU). auto.
    + exists false. split; auto. split; [discriminate|]. intros (d' & us' & O' & N' & S'). exfalso. assert (LL : length us' = length vs). { apply Nat.le_antisymm; apply NoDup_incl_length; auto; intros v; apply S'. } pose proof (face_num t a f d' us' R O') as F1. rewrite (face_num t a f true xs R OU) in F1. inversion F1. unfold ZL in *. cbn in LL. lia.
  - rewrite E2. split; auto. f_equal. assert (NG : NoDup us) by (eapply Permutation_NoDup; [symmetry; exact PG|auto]). assert (QG : forall v, In v us <-> In v vs) by (intros v; split; apply Permutation_in; [exact PG|symmetry; exact PG]).
    destruct D as [(-> & X)|(D1 & d' & xs & O' & N' & S')]. exfalso. apply (X g). apply A; auto. exists d, us. auto. eapply SF; eauto. intros v. rewrite S'. symmetry. apply QG.
Qed.

(** ** One tetrahedron *)

Definition hexes4 (r v0 v1 v2 v3 e01 e02 e03 e12 e13 e23 f0 f1 f2 f3 : ptr) : list (list hlab) :=
  [[OfV v0; OfE e01; OfF f3; OfE e02; OfE e03; OfF f2; OfR r; OfF f1]; [OfV v1; OfE e12; OfF f3; OfE e01; OfE e13; OfF f0; OfR r; OfF f2];
   [OfV v2; OfE e02; OfF f3; OfE e12; OfE e23; OfF f1; OfR r; OfF f0]; [OfV v3; OfE e03; OfF f1; OfE e23; OfE e13; OfF f2; OfR r; OfF f0]].
Lemma tet_hexes : forall t a r, tetmesh t a -> live_r a r -> exists b v0 v1 v2 v3 e01 e02 e03 e12 e13 e23 f0 f1 f2 f3 d0 d1 d2 d3,
  hexes_of t r = Ok (hexes4 r v0 v1 v2 v3 e01 e02 e03 e12 e13 e23 f0 f1 f2 f3) /\ MR_Vertices t r = Ok (Some [v0; v1; v2; v3]) /\ lists [v0; v1; v2; v3] (r_vertex a r) /\
  a_r a r = Some (true, Some b) /\ In (f0, d0) b /\ In (f1, d1) b /\ In (f2, d2) b /\ In (f3, d3) b /\ (forall x, In x b -> In x [(f0, d0); (f1, d1); (f2, d2); (f3, d3)]) /\
  outward a (f3, d3) [v0; v2; v1] /\ outward a (f2, d2) [v0; v1; v3] /\ outward a (f0, d0) [v1; v2; v3] /\ outward a (f1, d1) [v2; v0; v3] /\
  joins a e01 v0 v1 /\ joins a e02 v0 v2 /\ joins a e03 v0 v3 /\ joins a e12 v1 v2 /\ joins a e13 v1 v3 /\ joins a e23 v2 v3.
Proof.
  intros t a r TM LR. pose proof (tm_reach _ _ TM) as R. destruct (tm_tet _ _ TM r LR) as (b & ws & Hr & HT & HC).
  destruct (C39_region_vertices t a r b tetrahedron ws R Hr HT ltac:(cbn; auto) HC ltac:(discriminate)) as (vs & EV & CV & LV). pose proof CV as (L & N & LI & U & Ls & PL & FA).
  cbn [s_nv tetrahedron] in L. destruct vs as [|v0 [|v1 [|v2 [|v3 [|? ?]]]]]; try discriminate L. set (vs := [v0; v1; v2; v3]) in *.
  assert (CE : forall i j, (i < 4)%nat -> (j < 4)%nat -> i <> j -> adjb tetrahedron i j = true -> exists e, MVs_CommonEdge t (W vs i) (W vs j) = Ok e /\ e <> NULL /\ joins a e (W vs i) (W vs j)).
  { intros i j Hi Hj Nij HA. assert (CVV : cverts a tetrahedron vs) by (split; auto). apply (common_adj t a tetrahedron b vs Ls R CVV PL FA); auto. }
  destruct (CE 0%nat 1%nat) as (e01 & C01 & N01 & J01); try lia; auto. destruct (CE 0%nat 2%nat) as (e02 & C02 & N02 & J02); try lia; auto. destruct (CE 0%nat 3%nat) as (e03 & C03 & N03 & J03); try lia; auto.
  destruct (CE 1%nat 2%nat) as (e12 & C12 & N12 & J12); try lia; auto. destruct (CE 1%nat 3%nat) as (e13 & C13 & N13 & J13); try lia; auto. destruct (CE 2%nat 3%nat) as (e23 & C23 & N23 & J23); try lia; auto. clear CE.
  unfold vs in C01, C02, C03, C12, C13, C23, J01, J02, J03, J12, J13, J23. unfold W in C01, C02, C03, C12, C13, C23, J01, J02, J03, J12, J13, J23. cbn [nth] in C01, C02, C03, C12, C13, C23, J01, J02, J03, J12, J13, J23.
  assert (FL : forall M, In M (s_loops tetrahedron) -> exists x, In x b /\ outward a x (map (W vs) M)).
  { intros M HM. assert (In M Ls) by (eapply Permutation_in; [symmetry; exact PL|auto]). apply (In_nth _ _ []) in H. destruct H as (k & Hk & <-). exists (nth k b dflt). split. apply nth_In. rewrite (F2_length _ _ _ _ _ FA). auto. apply (F2_nth _ _ _ _ _ dflt [] k FA Hk). }
  destruct (FL [0; 2; 1]%nat) as ([f3 d3] & B3 & O3); [cbn; auto|]. destruct (FL [0; 1; 3]%nat) as ([f2 d2] & B2 & O2); [cbn; auto|]. destruct (FL [1; 2; 3]%nat) as ([f0 d0] & B0 & O0); [cbn; auto|]. destruct (FL [2; 0; 3]%nat) as ([f1 d1] & B1 & O1); [cbn; tauto|]. clear FL.
  unfold vs, W in O0, O1, O2, O3. cbn [map nth] in O0, O1, O2, O3.
  assert (D : v0 <> v1 /\ v0 <> v2 /\ v0 <> v3 /\ v1 <> v2 /\ v1 <> v3 /\ v2 <> v3). { inversion N as [|? ? A1 A2]; subst. inversion A2 as [|? ? A3 A4]; subst. inversion A4 as [|? ? A5 A6]; subst. cbn in *. intuition congruence. }
  destruct D as (D01 & D02 & D03 & D12 & D13 & D23). pose proof LI as LI'. rewrite Forall_forall in LI'.
  assert (V0 : live_v a v0) by (apply LI'; cbn; auto). assert (V1 : live_v a v1) by (apply LI'; cbn; auto). assert (V2 : live_v a v2) by (apply LI'; cbn; auto). assert (V3 : live_v a v3) by (apply LI'; cbn; tauto). clear LI'.
  assert (FF : forall g d us x y z, outward a (g, d) us -> Permutation us [x; y; z] -> NoDup [x; y; z] -> Forall (live_v a) [x; y; z] -> MVs_CommonFace t 3 [x; y; z] = Ok g /\ g <> NULL).
  { intros g d us x y z HO HP HN HL. eapply face_found; eauto. apply (tm_e _ _ TM). apply (tm_f _ _ TM). intros f Hf. eapply tri_good; eauto. apply (tm_tri _ _ TM); auto. }
  destruct (FF f0 d0 _ v1 v2 v3 O0) as (G0 & M0); auto. { repeat constructor; cbn; intuition congruence. }
  destruct (FF f1 d1 _ v2 v3 v0 O1) as (G1 & M1); auto. { apply perm_skip, perm_swap. } { repeat constructor; cbn; intuition congruence. }
  destruct (FF f2 d2 _ v3 v0 v1 O2) as (G2 & M2); auto. { exact (Permutation_sym (Permutation_cons_append [v0; v1] v3)). } { repeat constructor; cbn; intuition congruence. }
  destruct (FF f3 d3 _ v0 v1 v2 O3) as (G3 & M3); auto. { apply perm_skip, perm_swap. } { repeat constructor; cbn; intuition congruence. }
  pose proof (reach_inv _ _ R) as I.
  assert (NZ : forall x y : Z, x <> y -> (x =? y) = false) by (intros; apply Z.eqb_neq; auto).
  exists b, v0, v1, v2, v3, e01, e02, e03, e12, e13, e23, f0, f1, f2, f3, d0, d1, d2, d3. split; [|repeat (split; [assumption|])].
  - unfold hexes_of. rewrite EV. cbn [bind]. change (mapM (lent vs) (zrange 0 4)) with (Ok [v0; v1; v2; v3]). cbn [bind]. change (ZL vs) with 4. change (zrange 0 4) with [0; 1; 2; 3]. change (zrange 0 3) with [0; 1; 2]. unfold tet_pairs. cbn [foldM fst snd].
    change (rdl [v0; v1; v2; v3] 0) with (Ok v0). change (rdl [v0; v1; v2; v3] 1) with (Ok v1). change (rdl [v0; v1; v2; v3] 2) with (Ok v2). change (rdl [v0; v1; v2; v3] 3) with (Ok v3). cbn [bind].
    rewrite !NZ by (eapply live_nn; eauto).
    change (mapM (fun j => rdl [v0; v1; v2; v3] ((0 + j + 1) mod 4)) [0; 1; 2]) with (Ok [v1; v2; v3]). change (mapM (fun j => rdl [v0; v1; v2; v3] ((1 + j + 1) mod 4)) [0; 1; 2]) with (Ok [v2; v3; v0]).
    change (mapM (fun j => rdl [v0; v1; v2; v3] ((2 + j + 1) mod 4)) [0; 1; 2]) with (Ok [v3; v0; v1]). change (mapM (fun j => rdl [v0; v1; v2; v3] ((3 + j + 1) mod 4)) [0; 1; 2]) with (Ok [v0; v1; v2]).
    rewrite C01, C02, C03, C12, C13, C23. cbn [bind]. rewrite G0, G1, G2, G3. cbn [bind]. rewrite !NZ by assumption. reflexivity.
  - split; [|repeat (split; [assumption|]); assumption].
    assert (NB : NoDup [(f0, d0); (f1, d1); (f2, d2); (f3, d3)]).
    { assert (OE : forall f d f' d' us vs v, (f, d) = (f', d') -> outward a (f, d) us -> outward a (f', d') vs -> In v us -> In v vs). { intros f d f' d' us xs v E A B X. inversion E; subst. apply (outward_ends _ _ _ _ v B). apply (outward_ends _ _ _ _ v A). auto. }
      repeat constructor; cbn; intros H; repeat destruct H as [H|H]; auto.
      - pose proof (OE _ _ _ _ _ _ v0 H O1 O0 ltac:(cbn; auto)) as X. cbn in X. intuition congruence.
      - pose proof (OE _ _ _ _ _ _ v0 H O2 O0 ltac:(cbn; auto)) as X. cbn in X. intuition congruence.
      - pose proof (OE _ _ _ _ _ _ v0 H O3 O0 ltac:(cbn; auto)) as X. cbn in X. intuition congruence.
      - pose proof (OE _ _ _ _ _ _ v1 H O2 O1 ltac:(cbn; auto)) as X. cbn in X. intuition congruence.
      - pose proof (OE _ _ _ _ _ _ v1 H O3 O1 ltac:(cbn; auto)) as X. cbn in X. intuition congruence.
      - pose proof (OE _ _ _ _ _ _ v2 H O3 O2 ltac:(cbn; auto)) as X. cbn in X. intuition congruence. }
    apply (NoDup_length_incl NB). rewrite (F2_length _ _ _ _ _ FA), (Permutation_length PL). cbn; lia. intros x [<-|[<-|[<-|[<-|[]]]]]; auto.
Qed.
Lemma joins_neq : forall a e e' x y z, joins a e x y -> joins a e' x z -> x <> y -> y <> z -> e <> e'.
Proof. intros a e e' x y z (p & q & X & Y) (p' & q' & X' & Y') N1 N2 ->. rewrite X in X'. inversion X'; subst. intuition congruence. Qed.
Lemma outward_neq : forall a f d us g d' vs v, outward a (f, d) us -> outward a (g, d') vs -> In v us -> ~ In v vs -> f <> g.
Proof. intros a f d us g d' vs v A B HI HN ->. apply HN. apply (outward_ends _ _ _ _ v B). apply (outward_ends _ _ _ _ v A). auto. Qed.
Lemma turn3 : forall a x u v w, outward a x [u; v; w] -> outward a x [v; w; u].
Proof. intros a x u v w H. eapply outward_rotation; [exact H|]. exists [u], [v; w]. auto. Qed.
Lemma rot3 : forall (x y z : ptr) l, rotation [x; y; z] l -> l = [x; y; z] \/ l = [y; z; x] \/ l = [z; x; y].
Proof. intros x y z l (u & v & E & ->). destruct u as [|u0 [|u1 [|u2 [|? ?]]]]; cbn in E; inversion E; subst; auto. Qed.
Lemma rot4a : forall (x y z w : hlab), rotation [x; y; z; w] [x; y; z; w].
Proof. intros. apply rotation_refl. Qed.
Lemma rot4b : forall (x y z w : hlab), rotation [x; y; z; w] [y; z; w; x].
Proof. intros. exists [x], [y; z; w]. auto. Qed.
Lemma among4 : forall (x y z w : hlab) qs, In [x; y; z; w] qs \/ In [y; z; w; x] qs \/ In [z; w; x; y] qs \/ In [w; x; y; z] qs -> among [x; y; z; w] qs.
Proof.
  intros x y z w qs [H|[H|[H|H]]]; eexists; (split; [exact H|]). apply rotation_refl. apply rot4b. exists [x; y], [z; w]. auto. exists [x; y; z], [w]. auto.
Qed.
Lemma outer_intro : forall a r f d u v w e e', has_face a r f d -> outward a (f, d) [u; v; w] -> joins a e v w -> joins a e' u v -> outer a r [OfV v; OfE e; OfF f; OfE e'].
Proof. intros. exists f, d, u, v, w, e, e'. auto. Qed.
Ltac pick := first [reflexivity|left; pick|right; pick].
Definition hblock (t : topo) (r : ptr) : list (list hlab) := match hexes_of t r with Ok l => l | _ => [] end.
Lemma block_hexes : forall t a r, tetmesh t a -> live_r a r -> hexes_of t r = Ok (hblock t r) /\ (exists vs, MR_Vertices t r = Ok (Some vs) /\ ZL vs = 4) /\ length (hblock t r) = 4%nat /\
  (forall h, In h (hblock t r) -> length h = 8%nat /\ NoDup h /\ In (OfR r) h /\ exists v, r_vertex a r v /\ In (OfV v) h /\ forall v', In (OfV v') h -> v' = v) /\
  (forall v, r_vertex a r v -> exists h, In h (hblock t r) /\ In (OfR r) h /\ In (OfV v) h) /\
  (forall q, In q (flat_map quads (hblock t r)) -> (exists q', rotation q q' /\ outer a r q') \/ (In (OfR r) q /\ among (rev q) (flat_map quads (hblock t r)))) /\
  (forall q, outer a r q -> among q (flat_map quads (hblock t r))).
Proof.
  intros t a r TM LR. destruct (tet_hexes t a r TM LR) as (b & v0 & v1 & v2 & v3 & e01 & e02 & e03 & e12 & e13 & e23 & f0 & f1 & f2 & f3 & d0 & d1 & d2 & d3 & E & EV & (NV & LV) & Hr & B0 & B1 & B2 & B3 & BA & O3 & O2 & O0 & O1 & J01 & J02 & J03 & J12 & J13 & J23).
  unfold hblock. rewrite E. split; auto. clear E. split; [eexists; split; [exact EV|reflexivity]|]. split; [reflexivity|]. clear EV.
  assert (D : v0 <> v1 /\ v0 <> v2 /\ v0 <> v3 /\ v1 <> v2 /\ v1 <> v3 /\ v2 <> v3). { inversion NV as [|? ? A1 A2]; subst. inversion A2 as [|? ? A3 A4]; subst. inversion A4 as [|? ? A5 A6]; subst. cbn in *. intuition congruence. }
  destruct D as (D01 & D02 & D03 & D12 & D13 & D23).
  pose proof (joins_sym _ _ _ _ J01) as J10. pose proof (joins_sym _ _ _ _ J02) as J20. pose proof (joins_sym _ _ _ _ J03) as J30. pose proof (joins_sym _ _ _ _ J12) as J21. pose proof (joins_sym _ _ _ _ J13) as J31. pose proof (joins_sym _ _ _ _ J23) as J32.
  assert (F01 : f0 <> f1) by (eapply (outward_neq a f0 d0 _ f1 d1 _ v1 O0 O1); cbn; intuition congruence). assert (F02 : f0 <> f2) by (eapply (outward_neq a f0 d0 _ f2 d2 _ v2 O0 O2); cbn; intuition congruence). assert (F03 : f0 <> f3) by (eapply (outward_neq a f0 d0 _ f3 d3 _ v3 O0 O3); cbn; intuition congruence).
  assert (F12 : f1 <> f2) by (eapply (outward_neq a f1 d1 _ f2 d2 _ v2 O1 O2); cbn; intuition congruence). assert (F13 : f1 <> f3) by (eapply (outward_neq a f1 d1 _ f3 d3 _ v3 O1 O3); cbn; intuition congruence). assert (F23 : f2 <> f3) by (eapply (outward_neq a f2 d2 _ f3 d3 _ v3 O2 O3); cbn; intuition congruence).
  assert (H0 : has_face a r f0 d0) by (exists b; auto). assert (H1 : has_face a r f1 d1) by (exists b; auto). assert (H2 : has_face a r f2 d2) by (exists b; auto). assert (H3 : has_face a r f3 d3) by (exists b; auto).
  split; [|split; [|split]].
  - assert (R0 : r_vertex a r v0) by (apply LV; cbn; auto). assert (R1 : r_vertex a r v1) by (apply LV; cbn; auto). assert (R2 : r_vertex a r v2) by (apply LV; cbn; auto). assert (R3 : r_vertex a r v3) by (apply LV; cbn; tauto).
    assert (X1 : e01 <> e02) by (apply (joins_neq a e01 e02 v0 v1 v2); auto). assert (X2 : e01 <> e03) by (apply (joins_neq a e01 e03 v0 v1 v3); auto). assert (X3 : e02 <> e03) by (apply (joins_neq a e02 e03 v0 v2 v3); auto).
    assert (X4 : e12 <> e01) by (apply (joins_neq a e12 e01 v1 v2 v0); auto). assert (X5 : e12 <> e13) by (apply (joins_neq a e12 e13 v1 v2 v3); auto). assert (X6 : e01 <> e13) by (apply (joins_neq a e01 e13 v1 v0 v3); auto).
    assert (X7 : e02 <> e12) by (apply (joins_neq a e02 e12 v2 v0 v1); auto). assert (X8 : e02 <> e23) by (apply (joins_neq a e02 e23 v2 v0 v3); auto). assert (X9 : e12 <> e23) by (apply (joins_neq a e12 e23 v2 v1 v3); auto).
    assert (Y1 : e03 <> e23) by (apply (joins_neq a e03 e23 v3 v0 v2); auto). assert (Y2 : e03 <> e13) by (apply (joins_neq a e03 e13 v3 v0 v1); auto). assert (Y3 : e23 <> e13) by (apply (joins_neq a e23 e13 v3 v2 v1); auto).
    intros h [<-|[<-|[<-|[<-|[]]]]]; (split; [reflexivity|]; split; [repeat constructor; cbn; intuition congruence|]; split; [cbn; tauto|]).
    exists v0; split; [auto|]; split; [cbn; auto|]; cbn; intuition congruence. exists v1; split; [auto|]; split; [cbn; auto|]; cbn; intuition congruence. exists v2; split; [auto|]; split; [cbn; auto|]; cbn; intuition congruence. exists v3; split; [auto|]; split; [cbn; auto|]; cbn; intuition congruence.
  - intros v Hv. apply LV in Hv. unfold hexes4. destruct Hv as [<-|[<-|[<-|[<-|[]]]]]; eexists.
    + split; [left; reflexivity|]. cbn; tauto.
    + split; [right; left; reflexivity|]. cbn; tauto.
    + split; [right; right; left; reflexivity|]. cbn; tauto.
    + split; [right; right; right; left; reflexivity|]. cbn; tauto.
  - pose proof (turn3 _ _ _ _ _ O0) as O0'. pose proof (turn3 _ _ _ _ _ O0') as O0''. pose proof (turn3 _ _ _ _ _ O1) as O1'. pose proof (turn3 _ _ _ _ _ O1') as O1''. pose proof (turn3 _ _ _ _ _ O2) as O2'. pose proof (turn3 _ _ _ _ _ O2') as O2''. pose proof (turn3 _ _ _ _ _ O3) as O3'. pose proof (turn3 _ _ _ _ _ O3') as O3''.
    intros q Hq. cbn in Hq.
    repeat (destruct Hq as [<-|Hq]; [first
      [left; eexists; split; [apply rot4a|]; eapply outer_intro; eassumption
      |left; eexists; split; [apply rot4b|]; eapply outer_intro; eassumption
      |right; split; [cbn; tauto|]; cbn [rev app]; apply among4; cbn; pick]|]). destruct Hq.
  - intros q (f & d & u & v & w & e & e' & (b' & Hb & Hi) & HO & He & He' & ->). rewrite Hr in Hb. inversion Hb; subst b'. clear Hb. apply BA in Hi.
    assert (RO : forall vs, outward a (f, d) vs -> rotation vs [u; v; w]). { intros vs X. pose proof HO as (fb & ? & ? & Hf & _). cbn in Hf. eapply rotation_trans; [apply rotation_sym; eapply outward_rot; eauto|eapply outward_rot; eauto]. }
    pose proof (tm_e _ _ TM) as SE. clear HO.
    destruct Hi as [Hi|[Hi|[Hi|[Hi|[]]]]]; inversion Hi; subst f d; match goal with O : outward a (?g, _) [?x; ?y; ?z] |- among [_; _; OfF ?g; _] _ => pose proof (rot3 _ _ _ _ (RO _ O)) as [Q|[Q|Q]] end; inversion Q; subst u v w;
      match type of He with joins _ _ ?x ?y => match goal with J : joins a ?g x y |- _ => lazymatch g with e => fail | _ => assert (e = g) by (eapply SE; eauto); subst e end end end;
      match type of He' with joins _ _ ?x ?y => match goal with J : joins a ?g x y |- _ => lazymatch g with e' => fail | _ => assert (e' = g) by (eapply SE; eauto); subst e' end end end;
      apply among4; cbn; pick.
Qed.

(** ** The mesh of hexahedra *)

Lemma regions_fit_ok : forall t a regs, tetmesh t a -> (forall r, In r regs -> live_r a r) -> regions_fit t regs = Ok tt.
Proof.
  intros t a regs TM. induction regs as [|r regs IH]; intros H; cbn [regions_fit]; auto. destruct (block_hexes t a r TM) as (_ & (vs & E & L) & _). apply H; left; auto. rewrite E. cbn [bind]. rewrite L. cbn. apply IH. intros; apply H; right; auto.
Qed.
Lemma mapM_hexes : forall t regs, (forall r, In r regs -> hexes_of t r = Ok (hblock t r)) -> mapM (hexes_of t) regs = Ok (map (hblock t) regs).
Proof. intros t. induction regs as [|r regs IH]; intros H; cbn [mapM map]; auto. rewrite H by (left; auto). cbn [bind]. rewrite IH by (intros; apply H; right; auto). auto. Qed.
Lemma tet2hex_ok : forall t a faces regs, tetmesh t a -> lists faces (live_f a) -> lists regs (live_r a) -> MESH_Tet2Hex t faces regs = Ok (Some (flat_map (hblock t) regs)).
Proof.
  intros t a faces regs TM (_ & LF) (_ & LR). unfold MESH_Tet2Hex. rewrite (all_tris_ok t a faces (tm_reach _ _ TM)). 2: { intros f Hf. apply (tm_tri _ _ TM). apply LF; auto. } cbn [bind negb].
  rewrite (regions_fit_ok t a regs TM) by (intros; apply LR; auto). cbn [bind]. rewrite mapM_hexes. rewrite flat_map_concat_map. auto. intros r Hr. apply (block_hexes t a r TM). apply LR; auto.
Qed.
Lemma among_incl : forall q qs qs', among q qs -> incl qs qs' -> among q qs'.
Proof. intros q qs qs' (q' & H & K) I. exists q'. auto. Qed.
Lemma quads_part : forall t r regs, In r regs -> incl (flat_map quads (hblock t r)) (flat_map quads (flat_map (hblock t) regs)).
Proof. intros t r regs Hr q Hq. apply in_flat_map in Hq. destruct Hq as (h & Hh & Hq). apply in_flat_map. exists h. split; auto. apply in_flat_map. exists r. auto. Qed.
(** Every tetrahedron gives four cells of eight different vertices, with its centre and
    one of its corners each; every corner gets one. *)
Theorem C59_hexes : forall t a faces regs, tetmesh t a -> lists faces (live_f a) -> lists regs (live_r a) ->
  exists hs, MESH_Tet2Hex t faces regs = Ok (Some hs) /\ length hs = (4 * length regs)%nat /\
    (forall h, In h hs -> length h = 8%nat /\ NoDup h /\ exists r v, r_vertex a r v /\ In (OfR r) h /\ In (OfV v) h /\ forall v', In (OfV v') h -> v' = v) /\
    (forall r v, live_r a r -> r_vertex a r v -> exists h, In h hs /\ In (OfR r) h /\ In (OfV v) h).
Proof.
  intros t a faces regs TM LF LR. exists (flat_map (hblock t) regs). split. eapply tet2hex_ok; eauto. destruct LR as (_ & LR). split; [|split].
  - assert (H : forall r, In r regs -> live_r a r) by (intros; apply LR; auto). clear LR. induction regs as [|r regs IH]; cbn [flat_map length]; auto. rewrite app_length, IH by (intros; apply H; right; auto). destruct (block_hexes t a r TM) as (_ & _ & -> & _). apply H; left; auto. lia.
  - intros h Hh. apply in_flat_map in Hh. destruct Hh as (r & Hr & Hh). apply LR in Hr. destruct (block_hexes t a r TM Hr) as (_ & _ & _ & H & _). destruct (H h Hh) as (L & N & C & v & V & I & U). split; auto. split; auto. exists r, v. auto.
  - intros r v Hr Hv. destruct (block_hexes t a r TM Hr) as (_ & _ & _ & _ & H & _). destruct (H v Hv) as (h & Hh & K). exists h. split; auto. apply in_flat_map. exists r. split; auto. apply LR; auto.
Qed.
Print Assumptions C59_hexes.
(** The faces of the cells, seen from outside, are the parts of the faces of the
    tetrahedra at their corners, each turned as the face is, and faces at the centre
    which another cell has on its other side. *)
Theorem C59_sides : forall t a faces regs, tetmesh t a -> lists faces (live_f a) -> lists regs (live_r a) ->
  exists hs, MESH_Tet2Hex t faces regs = Ok (Some hs) /\
    (forall q, In q (flat_map quads hs) -> (exists r q', rotation q q' /\ outer a r q') \/ ((exists r, In (OfR r) q) /\ among (rev q) (flat_map quads hs))) /\
    (forall r q, outer a r q -> among q (flat_map quads hs)).
Proof.
  intros t a faces regs TM LF LR. exists (flat_map (hblock t) regs). split. eapply tet2hex_ok; eauto. destruct LR as (_ & LR). split.
  - intros q Hq. apply in_flat_map in Hq. destruct Hq as (h & Hh & Hq). apply in_flat_map in Hh. destruct Hh as (r & Hr & Hh). destruct (block_hexes t a r TM) as (_ & _ & _ & _ & _ & H & _). apply LR; auto.
    destruct (H q) as [(q' & A & B)|(A & B)]. apply in_flat_map; eauto. left. eauto. right. split. eauto. eapply among_incl; [exact B|]. apply quads_part; auto.
  - intros r q HO. assert (Hr : live_r a r) by (destruct HO as (f & d & ? & ? & ? & ? & ? & (b & Hb & _) & _); exists (Some b); auto). destruct (block_hexes t a r TM Hr) as (_ & _ & _ & _ & _ & _ & H). eapply among_incl; [apply H; exact HO|]. apply quads_part. apply LR; auto.
Qed.
Print Assumptions C59_sides.
Lemma flip3 : forall a f d u v w, outward a (f, d) [u; v; w] -> outward a (f, negb d) [w; v; u].
Proof.
  intros a f d u v w (fb & s & c & Hf & HP & RO & AR). cbn [fst snd] in *. pose proof (closed_linked _ _ _ HP) as LK.
  assert (K : rotation (map (vat a) (walk (negb d) fb)) [w; v; u]).
  { assert (NB : fb <> []). { intros ->. assert (c = []) by (destruct RO as (x & y & E1 & E2); destruct d; cbn in E1; symmetry in E1; apply app_eq_nil in E1; destruct E1; subst; auto). subst c. destruct AR. discriminate. }
    pose proof (walk_orient a d (negb d) fb LK NB) as WO. replace (Bool.eqb d (negb d)) with false in WO by (destruct d; auto). cbn [orient] in WO. apply rotation_sym in WO. eapply rotation_trans; [exact WO|]. change [w; v; u] with (rev [u; v; w]). apply rotation_rev. rewrite (around_vat _ _ _ AR). apply rotation_map. auto. }
  eapply outward_rotation; [|exact K]. exists fb, s, (walk (negb d) fb). split; auto. split; auto. split. apply rotation_refl. apply linked_around. apply linked_walk. auto.
Qed.
(** The cells meet face to face: at a face between two tetrahedra every face of a
    cell is the face, seen from the other side, of a cell. *)
Theorem C59_conform : forall t a faces regs f d r r', tetmesh t a -> lists faces (live_f a) -> lists regs (live_r a) -> has_face a r f d -> has_face a r' f (negb d) ->
  exists hs, MESH_Tet2Hex t faces regs = Ok (Some hs) /\ forall q, In q (flat_map quads hs) -> In (OfF f) q -> among (rev q) (flat_map quads hs).
Proof.
  intros t a faces regs f d r r' TM LF LR H1 H2. destruct (C59_sides t a faces regs TM LF LR) as (hs & E & A & B). exists hs. split; auto. intros q Hq Hf. destruct (A q Hq) as [(s & q' & RO & g & d' & u & v & w & e & e' & HF & HO & He & He' & ->)|(_ & X)]; auto.
  assert (In (OfF f) [OfV v; OfE e; OfF g; OfE e']) by (eapply Permutation_in; [apply rotation_perm; exact RO|auto]). assert (g = f) by (cbn in H; intuition congruence). subst g.
  assert (X : exists s', has_face a s' f (negb d')) by (destruct d, d'; cbn in *; eauto). destruct X as (s' & X).
  destruct (B s' [OfV v; OfE e'; OfF f; OfE e]) as (y & Y1 & Y2). { eapply outer_intro; [exact X|apply flip3; exact HO|apply joins_sym; exact He'|apply joins_sym; exact He]. }
  exists y. split; auto. eapply rotation_trans; [apply rotation_rev; exact RO|]. cbn [rev app]. eapply rotation_trans; [|exact Y2]. exists [OfE e'; OfF f; OfE e], [OfV v]. auto.
Qed.
Print Assumptions C59_conform.

(** ** Examples *)

(** Two tetrahedra with a face in common. *)
Definition AT := arun amesh0 tets.
Lemma AT_edges : forall e p q, a_e AT e = Some (true, (p, q)) -> In e (zrange 6 15).
Proof. intros e p q H. apply (PartSpec.pa_e _ _ (PartProps.tets_ok PartProps.clean) e). exists (p, q). exact H. Qed.
Lemma AT_simple_edges : simple_edges AT.
Proof.
  intros e e' u w (p & q & E & X) (p' & q' & E' & X'). assert (C : forallb (fun x => forallb (fun y => implb (same_ends AT x y) (x =? y)) (zrange 6 15)) (zrange 6 15) = true) by (vm_compute; reflexivity).
  rewrite forallb_forall in C. specialize (C e (AT_edges _ _ _ E)). rewrite forallb_forall in C. specialize (C e' (AT_edges _ _ _ E')). unfold same_ends in C. rewrite E, E' in C. apply Z.eqb_eq. replace ((p =? p') && (q =? q') || (p =? q') && (q =? p')) with true in C; auto. symmetry. rewrite orb_true_iff, !andb_true_iff, !Z.eqb_eq. intuition congruence.
Qed.
Definition fverts a f d := match a_f a f with Some (true, Some fb) => map (vat a) (walk d fb) | _ => [] end.
Definition simple_facesb a l := forallb (fun f => forallb (fun g => forallb (fun d => forallb (fun d' => implb (forallb (fun v => mem v (fverts a g d')) (fverts a f d)) (f =? g)) [true; false]) [true; false]) l) l.
Lemma simple_facesb_ok : forall a l, (forall f, live_f a f -> In f l) -> simple_facesb a l = true -> simple_faces a.
Proof.
  intros a l HL C f g d d' us vs O O' _ _ S. assert (K : forall f d us, outward a (f, d) us -> In f l /\ forall v, In v us <-> In v (fverts a f d)).
  { clear - HL. intros f d us O. pose proof O as (fb & ? & ? & Hf & _). cbn [fst] in Hf. split. apply HL. exists (Some fb). auto. unfold fverts. rewrite Hf. pose proof (rotation_perm _ _ _ (outward_rot _ _ _ _ _ O Hf)) as P. intros v. split; apply Permutation_in; [symmetry|]; exact P. }
  destruct (K _ _ _ O) as (F1 & F2), (K _ _ _ O') as (G1 & G2). unfold simple_facesb in C. rewrite forallb_forall in C. specialize (C f F1). rewrite forallb_forall in C. specialize (C g G1). rewrite forallb_forall in C. specialize (C d ltac:(destruct d; cbn; auto)). rewrite forallb_forall in C. specialize (C d' ltac:(destruct d'; cbn; auto)).
  apply Z.eqb_eq. replace (forallb _ _) with true in C; auto. symmetry. apply forallb_forall. intros v Hv. apply mem_In. apply G2, S, F2. auto.
Qed.
Lemma AT_lists : lists (zrange 15 22) (live_f AT) /\ lists [22; 23] (live_r AT).
Proof. destruct MetisProps.C56_volume_ex as (_ & A & B & _). split. exact B. exact A. Qed.
Lemma AT_tetmesh : tetmesh T0 AT.
Proof.
  destruct AT_lists as ((_ & LF) & (_ & LR)). constructor.
  - exact T0_reach.
  - exact AT_simple_edges.
  - apply (simple_facesb_ok _ (zrange 15 22)). intros f. apply LF. vm_compute. reflexivity.
  - intros f Hf. apply LF in Hf. assert (C : forallb (polygonb AT 3) (zrange 15 22) = true) by (vm_compute; reflexivity). rewrite forallb_forall in C. apply polygonb_ok. auto.
  - intros r Hr. apply LR in Hr. destruct Hr as [<-|[<-|[]]].
    + exists [(15, false); (16, true); (17, true); (18, false)], [1; 2; 3; 4]. split. vm_compute. reflexivity. split; [|apply cellb_ok with (order := [0; 1; 2; 3]%nat); vm_compute; reflexivity].
      eexists; eexists; eexists; split; [vm_compute; reflexivity|split; [vm_compute; reflexivity|split; [repeat (constructor; [eexists; eexists; split; [vm_compute; reflexivity|split; [vm_compute; reflexivity|vm_compute; reflexivity]]|]); constructor|vm_compute; reflexivity]]].
    + exists [(17, false); (19, true); (20, true); (21, false)], [2; 3; 4; 5]. split. vm_compute. reflexivity. split; [|apply cellb_ok with (order := [0; 1; 2; 3]%nat); vm_compute; reflexivity].
      eexists; eexists; eexists; split; [vm_compute; reflexivity|split; [vm_compute; reflexivity|split; [repeat (constructor; [eexists; eexists; split; [vm_compute; reflexivity|split; [vm_compute; reflexivity|vm_compute; reflexivity]]|]); constructor|vm_compute; reflexivity]]].
Qed.
Definition hex_first : list hlab := [OfV 1; OfE 6; OfF 15; OfE 7; OfE 8; OfF 16; OfR 22; OfF 18].
Example C59_hexes_ex : tetmesh T0 AT /\ lists (zrange 15 22) (live_f AT) /\ lists [22; 23] (live_r AT) /\ exists rest, MESH_Tet2Hex T0 (zrange 15 22) [22; 23] = Ok (Some (hex_first :: rest)) /\ length rest = 7%nat.
Proof. destruct AT_lists as (A & B). split. exact AT_tetmesh. split. exact A. split. exact B. eexists. split. vm_compute. reflexivity. reflexivity. Qed.
Example C59_sides_ex : tetmesh T0 AT /\ lists (zrange 15 22) (live_f AT) /\ lists [22; 23] (live_r AT) /\ outer AT 22 [OfV 2; OfE 9; OfF 17; OfE 10].
Proof.
  destruct AT_lists as (A & B). split. exact AT_tetmesh. split. exact A. split. exact B. apply (outer_intro AT 22 17 true 4 2 3).
  exists [(15, false); (16, true); (17, true); (18, false)]. split. vm_compute. reflexivity. cbn; tauto. apply outwardb_ok. vm_compute. reflexivity.
  exists 2, 3. split. vm_compute. reflexivity. auto. exists 2, 4. split. vm_compute. reflexivity. auto.
Qed.
Example C59_conform_ex : tetmesh T0 AT /\ lists (zrange 15 22) (live_f AT) /\ lists [22; 23] (live_r AT) /\ has_face AT 22 17 true /\ has_face AT 23 17 false.
Proof.
  destruct AT_lists as (A & B). split. exact AT_tetmesh. split. exact A. split. exact B. split; eexists; (split; [vm_compute; reflexivity|]); cbn; tauto.
Qed.

(** ** Other meshes *)

(** A face of another number of edges is noticed: 0 is returned. *)
Theorem C59_refused : forall t a pre f post regs n, reach t a -> (forall g, In g pre -> polygon a 3 g) -> polygon a n f -> n <> 3%nat ->
  MESH_Tet2Hex t (pre ++ f :: post) regs = Ok None.
Proof.
  intros t a pre f post regs n R HP Hf N. pose proof (C58_refused t a pre f post n R HP Hf N) as E. unfold MESH_Tri2Quad in E. unfold MESH_Tet2Hex. destruct (all_tris t (pre ++ f :: post)) as [[]| | |]; try discriminate E; auto. cbn [bind negb] in E. destruct (mapM _ _); discriminate E.
Qed.
Print Assumptions C59_refused.
Example C59_refused_ex : reach (tget house) (arun amesh0 house) /\ (forall g, In g [12] -> polygon (arun amesh0 house) 3 g) /\ polygon (arun amesh0 house) 4 13 /\ MESH_Tet2Hex (tget house) [12; 13] [] = Ok None.
Proof. destruct C58_refused_ex as (A & B & C & _). split. exact A. split. exact B. split. exact C. vm_compute. reflexivity. Qed.
(** But a region of triangles that is not a tetrahedron is not: two tetrahedra without
    the face between them have five vertices; the code looks for the missing face and
    uses what it did not find. *)
Definition bipyramid : list top := firstn (length tets - 4) tets ++ [TDelF 17 false; TNewR; TSetFaces 22 [(15, false); (16, true); (18, false); (19, true); (20, true); (21, false)]].
Theorem C59_tetrahedra_refuted : exists t a faces regs vs, reach t a /\ (forall f, In f faces <-> live_f a f) /\ (forall f, In f faces -> polygon a 3 f) /\ regs = [22] /\ live_r a 22 /\
  MR_Vertices t 22 = Ok (Some vs) /\ length vs = 5%nat /\ MESH_Tet2Hex t faces regs = Undef.
Proof.
  exists (tget bipyramid), (arun amesh0 bipyramid), [15; 16; 18; 19; 20; 21], [22], [1; 2; 3; 4; 5]. split. apply (reach_tget bipyramid). vm_compute. reflexivity. split; [|split; [|split; [|split; [|split; [|split]]]]]; try reflexivity.
  - intros f. split.
    + intros [<-|[<-|[<-|[<-|[<-|[<-|[]]]]]]]; eexists; vm_compute; reflexivity.
    + intros (x & Hx). pose proof (w_f _ (i_w _ _ (reach_inv _ _ (reach_tget bipyramid ltac:(vm_compute; reflexivity)))) f) as W. rewrite Hx in W. assert (1 <= f < 23) by (apply W; discriminate).
      assert (C : f = 15 \/ f = 16 \/ f = 18 \/ f = 19 \/ f = 20 \/ f = 21 \/ In f [1; 2; 3; 4; 5; 6; 7; 8; 9; 10; 11; 12; 13; 14; 17; 22]) by (cbn; lia).
      destruct C as [->|[->|[->|[->|[->|[->|C]]]]]]; try (cbn; tauto). exfalso. cbn in C. repeat (destruct C as [<-|C]; [vm_compute in Hx; discriminate|]). destruct C.
  - intros f [<-|[<-|[<-|[<-|[<-|[<-|[]]]]]]]; apply polygonb_ok; vm_compute; reflexivity.
  - eexists. vm_compute. reflexivity.
Qed.
Print Assumptions C59_tetrahedra_refuted.
(** If the face is there but not part of the region, its five vertices and the eleven
    others overrun the array: one more entry and the code would go on. *)
Definition inner_face : list top := firstn (length tets - 4) tets ++ [TNewR; TSetFaces 22 [(15, false); (16, true); (18, false); (19, true); (20, true); (21, false)]].
Theorem C59_overflow_refuted : exists t a faces regs vs, reach t a /\ (forall f, In f faces <-> live_f a f) /\ (forall f, In f faces -> polygon a 3 f) /\ regs = [22] /\ live_r a 22 /\
  MR_Vertices t 22 = Ok (Some vs) /\ length vs = 5%nat /\
  (forall x y, In x (firstn 4 vs) -> In y (firstn 4 vs) -> x < y -> exists e, MVs_CommonEdge t x y = Ok e /\ e <> NULL) /\
  (forall x y z, In x (firstn 4 vs) -> In y (firstn 4 vs) -> In z (firstn 4 vs) -> NoDup [x; y; z] -> exists f, MVs_CommonFace t 3 [x; y; z] = Ok f /\ f <> NULL) /\
  MESH_Tet2Hex t faces regs = Undef.
Proof.
  exists (tget inner_face), (arun amesh0 inner_face), (zrange 15 22), [22], [1; 2; 3; 4; 5]. split. apply (reach_tget inner_face). vm_compute. reflexivity. split; [|split; [|split; [|split; [|split; [|split; [|split; [|split]]]]]]]; try reflexivity.
  - intros f. split.
    + intros H. change (zrange 15 22) with [15; 16; 17; 18; 19; 20; 21] in H. cbn in H. repeat (destruct H as [<-|H]; [eexists; vm_compute; reflexivity|]). destruct H.
    + intros (x & Hx). pose proof (w_f _ (i_w _ _ (reach_inv _ _ (reach_tget inner_face ltac:(vm_compute; reflexivity)))) f) as W. rewrite Hx in W. assert (1 <= f < 23) by (apply W; discriminate).
      assert (C : In f [15; 16; 17; 18; 19; 20; 21] \/ In f [1; 2; 3; 4; 5; 6; 7; 8; 9; 10; 11; 12; 13; 14; 22]) by (cbn; lia).
      destruct C as [C|C]; [exact C|]. exfalso. cbn in C. repeat (destruct C as [<-|C]; [vm_compute in Hx; discriminate|]). destruct C.
  - intros f Hf. assert (C : forallb (polygonb (arun amesh0 inner_face) 3) (zrange 15 22) = true) by (vm_compute; reflexivity). rewrite forallb_forall in C. apply polygonb_ok. auto.
  - eexists. vm_compute. reflexivity.
  - intros x y Hx Hy L. cbn in Hx, Hy. destruct Hx as [<-|[<-|[<-|[<-|[]]]]]; destruct Hy as [<-|[<-|[<-|[<-|[]]]]]; try lia; (eexists; split; [vm_compute; reflexivity|unfold NULL; lia]).
  - intros x y z Hx Hy Hz N. cbn in Hx, Hy, Hz. inversion N as [|? ? N1 N2]; subst. inversion N2 as [|? ? N3 _]; subst. cbn in N1, N3.
    destruct Hx as [<-|[<-|[<-|[<-|[]]]]]; destruct Hy as [<-|[<-|[<-|[<-|[]]]]]; try (exfalso; apply N1; auto; fail); destruct Hz as [<-|[<-|[<-|[<-|[]]]]]; try (exfalso; apply N1; auto; fail); try (exfalso; apply N3; auto; fail); (eexists; split; [vm_compute; reflexivity|unfold NULL; lia]).
Qed.
Print Assumptions C59_overflow_refuted.
