(** C43: joining two faces into one, joining two regions into one. *)
From Coq Require Import ZArith List Lia Bool Arith ZifyBool ZifyNat Permutation.
From Verif Require Import Base BaseProofs ListSpec AttModel AttProps TopoModel ParModel ParProps TopoSpec TopoProofs TopoProofs2 TopoProofs3 TopoProofs4 TopoProofs5 TopoProofs6 TopoProofs7 TopoProps TopoProps2 ModModel ModProofs ModProofs2 ModProps ModProps2 CellProofs2 GidProps2 JoinModel JoinProofs.
Import ListNotations.
Open Scope Z_scope.

(** ** Two faces of a surface *)

(** Two faces that belong to no region share the edge [e], which they use in
    opposite senses, and no other edge; no third face has [e].  They are replaced by
    one face: the loop of the first, from behind [e] on, and then that of the
    second.  It is closed and passes through the vertices of both.  Everything else
    is kept. *)
Theorem C43_join_faces : forall t a f0 f1 e d s0 s0' s1 s1' vs0 vs1, reach t a -> f0 <> f1 ->
  face_is t f0 (s0 ++ (e, d) :: s0') -> face_is t f1 (s1 ++ (e, negb d) :: s1') ->
  loop t (s0 ++ (e, d) :: s0') vs0 -> loop t (s1 ++ (e, negb d) :: s1') vs1 ->
  (forall g, In g (map fst (s0 ++ s0')) -> ~ In g (map fst (s1 ++ s1'))) ->
  (forall g b, face_is t g b -> In e (map fst b) -> g = f0 \/ g = f1) ->
  (forall r c, reg_is t r c -> ~ In f0 (map fst c) /\ ~ In f1 (map fst c)) ->
  (length (s0 ++ s0') + length (s1 ++ s1') <= 32)%nat ->
  exists t' nu vs, MFs_Join t f0 f1 e = Ok (t', nu) /\ tfs t nu = None /\ nu <> NULL /\
    face_is t' nu (s0' ++ s0 ++ s1' ++ s1) /\
    loop t' (s0' ++ s0 ++ s1' ++ s1) vs /\ (forall v, In v vs <-> In v vs0 \/ In v vs1) /\
    tfs t' f0 = None /\ tfs t' f1 = None /\ tes t' e = None /\
    (forall g b, g <> f0 -> g <> f1 -> g <> nu -> (face_is t' g b <-> face_is t g b)) /\
    (forall g x y, g <> e -> (edge_is t' g x y <-> edge_is t g x y)) /\
    (forall v, option_map v_live (tvs t' v) = option_map v_live (tvs t v)) /\
    (forall r c, reg_is t' r c <-> reg_is t r c) /\
    mutual t' /\ sound t' /\ exists a', reach t' a'.
Proof.
  intros t a f0 f1 e d s0 s0' s1 s1' vs0 vs1 R Hne Hf0 Hf1 (u0 & HL0) (u1 & HL1) HC HE HR HL. pose proof (reach_inv _ _ R) as I. pose proof (i_w _ _ I) as W.
  apply (face_is_iff _ _ _ _ I) in Hf0. apply (face_is_iff _ _ _ _ I) in Hf1. apply (corners_iff _ _ _ _ _ _ I) in HL0. destruct HL0 as [P0 V0]. apply (corners_iff _ _ _ _ _ _ I) in HL1. destruct HL1 as [P1 V1].
  destruct (w_fnd _ W _ _ _ Hf0) as [N0 _]. destruct (w_fnd _ W _ _ _ Hf1) as [N1 _].
  assert (ME0 : MF_Edges t f0 1 NULL = Ok (map fst (s0 ++ (e, d) :: s0'))) by (apply (face_edges_query t a f0 _ true I Hf0)). pose proof (face_dirs_ok _ _ _ _ I Hf0) as MD0.
  assert (ME1 : MF_Edges t f1 1 NULL = Ok (map fst (s1 ++ (e, negb d) :: s1'))) by (apply (face_edges_query t a f1 _ true I Hf1)). pose proof (face_dirs_ok _ _ _ _ I Hf1) as MD1.
  destruct (join_path _ _ _ _ _ _ _ _ _ P0 P1) as (x & y & Q0 & Q1 & Hxy & Vx & Vy).
  set (nb := s0' ++ s0 ++ s1' ++ s1).
  assert (Pn : path a y nb y). { unfold nb. rewrite app_assoc. apply path_app. exists x. auto. }
  assert (NS : forall s (w : ptr * bool) s', NoDup (map fst (s ++ w :: s')) -> NoDup (map fst (s' ++ s)) /\ ~ In (fst w) (map fst (s' ++ s))).
  { intros s w s' N. rewrite map_app in N. cbn [map] in N. pose proof (NoDup_remove_1 _ _ _ N) as A. apply NoDup_remove_2 in N. rewrite map_app. split. eapply Permutation_NoDup; [apply Permutation_app_comm|auto]. rewrite in_app_iff in *. tauto. }
  destruct (NS _ _ _ N0) as [Na Ea]. destruct (NS _ _ _ N1) as [Nb Eb]. cbn [fst] in Ea, Eb. clear NS.
  assert (Nn : NoDup (map fst nb)). { unfold nb. rewrite app_assoc, map_app. apply nd_app. split; auto. split; auto. intros g G1 G2. apply (HC g); rewrite map_app, in_app_iff in *; tauto. }
  assert (Ln : (length nb <= 32)%nat) by (unfold nb; rewrite !app_length in *; lia).
  assert (En : ~ In e (map fst nb)). { unfold nb. rewrite app_assoc, map_app, in_app_iff. tauto. }
  destruct (new_face_ok t a nb R Nn Ln (path_edge_ok _ _ _ _ Pn)) as (t1 & a1 & E1 & Enu & R1 & A1 & A2 & A3 & A4 & A5).
  set (nu := a_next a) in *. assert (B0 : 1 <= f0 < nu) by (apply (w_f _ W); congruence). assert (B1 : 1 <= f1 < nu) by (apply (w_f _ W); congruence). pose proof (w_n _ W) as Wn. fold nu in Wn.
  assert (NH : forall r g dd, g = f0 \/ g = f1 -> ~ has_face a r g dd). { intros r g dd Hg (c & Hc & Hi). apply (reg_is_iff _ _ _ _ I) in Hc. destruct (HR _ _ Hc) as [K0 K1]. apply (in_map fst) in Hi. cbn [fst] in Hi. destruct Hg as [-> | ->]; auto. }
  assert (RG : forall g, g = f0 \/ g = f1 -> MF_Regions t g = Ok []). { intros g Hg. assert (Hn : a_f a g <> None) by (destruct Hg as [-> | ->]; congruence). destruct (C26_face_regions t a g R Hn) as (l & El & HH). rewrite El. f_equal. destruct l as [|r l]; auto. exfalso. destruct HH as [_ HH]. destruct (proj1 (HH r) (or_introl eq_refl)) as (dd & HF). eapply NH; eauto. }
  assert (HF1 : forall r g dd, has_face a1 r g dd -> has_face a r g dd). { intros r g dd. unfold has_face. rewrite A3. auto. }
  destruct (reach_step t1 a1 (TDelF f0 false) R1) as (t2 & E2 & R2). { cbn [tpre]. split. rewrite A5. replace (f0 =? nu) with false by lia. congruence. intros _ r dd HH. exact (NH r f0 dd (or_introl eq_refl) (HF1 _ _ _ HH)). }
  destruct (reach_step t2 _ (TDelF f1 false) R2) as (t3 & E3 & R3). { cbn [tpre astep]. ra. unfold kill. rewrite upd_other by auto. split. rewrite A5. replace (f1 =? nu) with false by lia. congruence. intros _ r dd (c & Hc & Hi). ra. eapply (NH r f1 dd); auto. apply HF1. exists c. auto. }
  destruct (reach_step t3 _ (TDelE e false) R3) as (t4 & E4 & R4).
  { cbn [tpre astep]. ra. split. rewrite A2. pose proof (w_fe _ W _ _ Hf0) as F. rewrite Forall_forall in F. destruct (F (e, d)) as (z & Hz). apply in_or_app. right. left. auto. cbn [fst] in Hz. congruence.
    intros _ g (b & Hb & Hi). revert Hb. ra. unfold kill, upd. destruct (Z.eqb_spec g f1) as [|G1]. discriminate. destruct (Z.eqb_spec g f0) as [|G0]. discriminate. rewrite A5. destruct (g =? nu). intros Hb. injection Hb as <-. auto. intros Hb. apply (face_is_iff _ _ _ _ I) in Hb. destruct (HE _ _ Hb Hi); auto. }
  cbn [tstep] in E2, E3, E4. pose proof (reach_inv _ _ R4) as I4.
  assert (F4 : forall g, g <> f0 -> g <> f1 -> a_f (astep (astep (astep a1 (TDelF f0 false)) (TDelF f1 false)) (TDelE e false)) g = a_f a1 g). { intros g G0 G1. cbn [astep]. ra. unfold kill. rewrite !upd_other by auto. auto. }
  assert (F4e : forall g, g <> e -> a_e (astep (astep (astep a1 (TDelF f0 false)) (TDelF f1 false)) (TDelE e false)) g = a_e a g). { intros g G0. cbn [astep]. ra. unfold kill. rewrite !upd_other by auto. congruence. }
  assert (F4r : forall r, a_r (astep (astep (astep a1 (TDelF f0 false)) (TDelF f1 false)) (TDelE e false)) r = a_r a r). { intros r. cbn [astep]. ra. congruence. }
  set (a4 := astep (astep (astep a1 (TDelF f0 false)) (TDelF f1 false)) (TDelE e false)) in *.
  assert (ENB : forall g, In g (map fst nb) -> a_e a4 g = a_e a g). { intros g Hg. apply F4e. intros ->. auto. }
  exists t4, nu, (map (vat a) nb). split; [|split; [|split; [|split; [|split; [|split; [|split; [|split; [|split; [|split; [|split; [|split; [|split; [|split; [|split]]]]]]]]]]]]]].
  - unfold MFs_Join. rewrite (RG f0), (RG f1) by auto. cbn [bind nth]. rewrite Z.eqb_refl. cbn [negb orb]. rewrite ME0. cbn [bind]. rewrite MD0. cbn [bind]. rewrite ME1. cbn [bind]. rewrite MD1. cbn [bind].
    assert (K0 : mem e (map fst (s0 ++ (e, d) :: s0')) = true). { apply mem_In. rewrite map_app, in_app_iff. cbn. auto. } assert (K1 : mem e (map fst (s1 ++ (e, negb d) :: s1')) = true). { apply mem_In. rewrite map_app, in_app_iff. cbn. auto. } rewrite K0, K1. cbn [negb orb]. cbv zeta.
    rewrite !after_ok by auto. rewrite <- zd_app, <- app_assoc. fold nb. destruct (MF_New t) as [t00 nu'] eqn:EN. cbn [fst snd] in E1, Enu. subst nu'. rewrite zd_len. destruct (zd_maps nb) as [-> ->]. rewrite E1. cbn [bind foldM]. rewrite Z.eqb_refl. cbn [bind foldM]. rewrite E2. cbn [bind]. rewrite E3. cbn [bind]. rewrite E4. auto.
  - destruct (tfs t nu) eqn:Ev; auto. pose proof (w_f _ W nu) as HH. rewrite <- (i_f _ _ I), Ev in HH. cbn in HH. assert (1 <= nu < a_next a) by (apply HH; discriminate). unfold nu in *. lia.
  - unfold NULL. lia.
  - apply (face_is_iff _ _ _ _ I4). rewrite F4 by lia. rewrite A5, Z.eqb_refl. auto.
  - exists y. apply (corners_iff _ _ _ _ _ _ I4). split. eapply path_same; eauto. apply map_ext_in. intros z Hz. symmetry. apply vat_same. apply ENB. apply in_map. auto.
  - assert (XN : forall l p q, path a p l q -> p <> q -> In p (map (vat a) l)). { intros l p q HP HN. destruct l as [|[g dd] l]; cbn [path] in HP. congruence. destruct HP as ([p1 q1] & Hg & _ & Hs & _). left. unfold vat. cbn [fst snd]. rewrite Hg. auto. }
    pose proof (XN _ _ _ Q0 (not_eq_sym Hxy)) as Y0. pose proof (XN _ _ _ Q1 Hxy) as X0. intros v. subst vs0 vs1. unfold nb. rewrite !map_app in *. cbn [map] in *. rewrite Vx, Vy. rewrite !in_app_iff in *. cbn [In]. split. tauto. intros [[H|[H|H]]|[H|[H|H]]]; subst; tauto.
  - pose proof (i_f _ _ I4 f0) as HH. cbn [astep with_f a_f] in HH. unfold a4 in HH. cbn [astep] in HH. revert HH. ra. unfold kill. rewrite (upd_other _ _ f1) by auto. rewrite upd_same. destruct (tfs t4 f0); auto. discriminate.
  - pose proof (i_f _ _ I4 f1) as HH. unfold a4 in HH. cbn [astep] in HH. revert HH. ra. unfold kill. rewrite upd_same. destruct (tfs t4 f1); auto. discriminate.
  - pose proof (i_e _ _ I4 e) as HH. unfold a4 in HH. cbn [astep] in HH. revert HH. ra. unfold kill. rewrite upd_same. destruct (tes t4 e); auto. discriminate.
  - intros g b G0 G1 G2. rewrite <- (face_is_iff _ _ _ _ I), <- (face_is_iff _ _ _ _ I4). rewrite F4 by auto. rewrite A5. replace (g =? nu) with false by lia. tauto.
  - intros g p q Hg. rewrite <- (edge_is_iff _ _ _ _ _ I), <- (edge_is_iff _ _ _ _ _ I4). rewrite F4e by auto. tauto.
  - intros v. rewrite (i_v _ _ I), (i_v _ _ I4). unfold a4. cbn [astep]. ra. congruence.
  - intros r c. rewrite <- (reg_is_iff _ _ _ _ I), <- (reg_is_iff _ _ _ _ I4). rewrite F4r. tauto.
  - eapply inv_mutual; eauto.
  - eapply inv_sound; eauto.
  - eauto.
Qed.
Print Assumptions C43_join_faces.

(** Dividing a face of a surface along a new edge and joining the two parts again
    gives the mesh there was before, but for the address of the face and the place
    where its loop starts. *)
Theorem C43_split_join : forall t a f b vs v0 v1, reach t a -> face_is t f b -> loop t b vs -> NoDup vs -> In v0 vs -> In v1 vs -> v0 <> v1 -> v0 <> NULL -> v1 <> NULL ->
  (forall e, ~ edge_is t e v0 v1 /\ ~ edge_is t e v1 v0) ->
  (forall r c, reg_is t r c -> ~ In f (map fst c)) ->
  exists t1 e f0 f1 t2 nu b', MF_Split_with_Edge t f v0 v1 = Ok (t1, e) /\ f0 <> f1 /\ MFs_Join t1 f0 f1 e = Ok (t2, nu) /\ nu <> NULL /\
    rotation b b' /\ face_is t2 nu b' /\ (forall c, f <> nu -> ~ face_is t2 f c) /\
    (forall g c, g <> f -> g <> nu -> (face_is t2 g c <-> face_is t g c)) /\
    (forall g x y, edge_is t2 g x y <-> edge_is t g x y) /\
    (forall v, option_map v_live (tvs t2 v) = option_map v_live (tvs t v)) /\
    (forall r c, reg_is t2 r c <-> reg_is t r c) /\ mutual t2 /\ sound t2.
Proof.
  intros t a f b vs v0 v1 R Hf HL ND Hv0 Hv1 Hne N0 N1 HC HR. pose proof (reach_inv _ _ R) as I. pose proof (i_w _ _ I) as W.
  destruct (C29_split_face t a f b vs v0 v1 R Hf HL ND Hv0 Hv1 Hne N0 N1 HC) as (t1 & e & f0 & f1 & b0 & b1 & w0 & w1 & E1 & (Fe & Ff0 & Ff1 & Fd) & He & (Rb & Nb0 & Nb1) & Hf0 & Hf1 & Rv & L0 & L1 & Kf & OF & OE & OV & OR & OR' & OR'' & _ & _ & a1 & R1).
  { intros r c Hc Hi. destruct (HR r c Hc Hi). }
  pose proof (reach_inv _ _ R1) as I1. pose proof (proj2 (face_is_iff _ _ _ _ I) Hf) as Af. destruct (w_fnd _ W _ _ _ Af) as [Nb Lb]. unfold maxfe in Lb. pose proof (rotation_perm _ _ _ Rb) as PB.
  assert (NBR : NoDup (map fst (b0 ++ b1))) by (eapply Permutation_NoDup; [apply Permutation_map; exact PB|auto]). rewrite map_app in NBR. apply nd_app in NBR. destruct NBR as (_ & _ & DJ).
  assert (NEf : forall g c, face_is t g c -> ~ In e (map fst c)). { intros g c Hg Hi. apply (face_is_iff _ _ _ _ I) in Hg. pose proof (w_fe _ W _ _ Hg) as F. rewrite Forall_forall in F. apply in_map_iff in Hi. destruct Hi as (z & Ez & Hz). destruct (F _ Hz) as (w & Hw). rewrite Ez in Hw. rewrite <- (i_e _ _ I), Fe in Hw. discriminate. }
  assert (NFr : forall r c g, reg_is t r c -> tfs t g = None -> ~ In g (map fst c)). { intros r c g Hg Hn Hi. apply (reg_is_iff _ _ _ _ I) in Hg. pose proof (w_rf _ W _ _ Hg) as F. rewrite Forall_forall in F. apply in_map_iff in Hi. destruct Hi as (z & Ez & Hz). destruct (F _ Hz) as (w & Hw). rewrite Ez in Hw. rewrite <- (i_f _ _ I), Hn in Hw. discriminate. }
  assert (RB : forall r c, reg_is t1 r c <-> reg_is t r c). { intros r c. split. - intros Hc. destruct (OR'' _ _ Hc) as (c' & Hc'). pose proof (OR' _ _ Hc' (HR _ _ Hc')) as Hc1. apply (reg_is_iff _ _ _ _ I1) in Hc. apply (reg_is_iff _ _ _ _ I1) in Hc1. assert (c = c') by congruence. subst c'. auto. - intros Hc. apply OR'; auto. eapply HR; eauto. }
  destruct (C43_join_faces t1 a1 f0 f1 e false b0 [] b1 [] (v0 :: w0 ++ [v1]) (v1 :: w1 ++ [v0]) R1 Fd Hf0 Hf1 L0 L1) as (t2 & nu & vs' & E2 & Fn & Nn & Hn & _ & _ & K0 & K1 & Ke & OF2 & OE2 & OV2 & OR2 & M2 & S2 & _).
  { rewrite !app_nil_r. exact DJ. }
  { intros g c Hg Hi. destruct (Z.eq_dec g f0); auto. destruct (Z.eq_dec g f1); auto. exfalso. destruct (Z.eq_dec g f) as [-> |]. destruct Hg as (x & Hx & _). congruence. apply OF in Hg; auto. eapply NEf; eauto. }
  { intros r c Hc. apply RB in Hc. split; eapply NFr; eauto. }
  { rewrite !app_nil_r. rewrite <- app_length. rewrite <- (Permutation_length PB). auto. }
  exists t1, e, f0, f1, t2, nu, (b0 ++ b1). split; auto. split; auto. split; auto. split; auto. split; auto. cbn [app] in Hn. split; auto.
  assert (NF : f <> f0 /\ f <> f1). { destruct Hf as (x & Hx & _). split; intros ->; congruence. } destruct NF as [NF0 NF1].
  assert (GN : forall T g c, tfs T g = None -> ~ face_is T g c). { intros T g c HT (x & Hx & _). congruence. }
  split. { intros c Hnu Hc. exact (GN t1 f c Kf (proj1 (OF2 f c NF0 NF1 Hnu) Hc)). }
  split. { intros g c G1 G2. destruct (Z.eq_dec g f0) as [-> |]. split; intros HH; exfalso. exact (GN t2 f0 c K0 HH). exact (GN t f0 c Ff0 HH). destruct (Z.eq_dec g f1) as [-> |]. split; intros HH; exfalso. exact (GN t2 f1 c K1 HH). exact (GN t f1 c Ff1 HH). rewrite OF2 by auto. apply OF; auto. }
  split. { intros g x y. destruct (Z.eq_dec g e) as [-> |]. split; intros (z & Hz & _); congruence. rewrite OE2 by auto. auto. }
  split. { intros v. rewrite OV2. auto. }
  split. { intros r c. rewrite OR2. auto. }
  auto.
Qed.
Print Assumptions C43_split_join.

(** ** Two regions *)

(** How often, with sign, a loop uses an edge; and a set of faces with directions. *)
Definition sgn (d : bool) : Z := if d then 1 else -1.
Definition zsum (l : list Z) : Z := fold_right Z.add 0 l.
Definition loop_uses (b : list (ptr * bool)) (e : ptr) : Z := zsum (map (fun x => if fst x =? e then sgn (snd x) else 0) b).
(** A set of faces is closed when every edge is used as often in one direction as in
    the other. *)
Definition closed (t : topo) (c : list (ptr * bool)) : Prop := forall (F : ptr -> list (ptr * bool)) e,
  (forall x, In x c -> face_is t (fst x) (F (fst x))) -> zsum (map (fun x => sgn (snd x) * loop_uses (F (fst x)) e) c) = 0.
Lemma zsum_app : forall l l', zsum (l ++ l') = zsum l + zsum l'.
Proof. unfold zsum. induction l as [|x l IH]; intros; cbn [app fold_right]. lia. rewrite IH. lia. Qed.
Lemma zsum_cons : forall x l, zsum (x :: l) = x + zsum l.
Proof. auto. Qed.

(** Two regions of the same model region have the face [f] in common and no other.
    The second is joined to the first: the first gets its faces with their
    directions, the second and [f] are gone, everything else is kept.  The face may
    be left out of the call.  If both were closed the joined one is. *)
Theorem C43_join_regions : forall gid t a r1 r2 f d c1 c1' c2 c2' g, reach t a -> gid r1 = gid r2 ->
  reg_is t r1 (c1 ++ (f, d) :: c1') -> reg_is t r2 (c2 ++ (f, negb d) :: c2') ->
  (forall h, In h (map fst (c1 ++ c1')) -> ~ In h (map fst (c2 ++ c2'))) ->
  c2 ++ c2' <> [] -> (length (c1 ++ c1') + length (c2 ++ c2') <= 512)%nat -> g = f \/ g = NULL ->
  exists t' x rest, c2 ++ c2' = x :: rest /\ MRs_Join gid t r1 r2 g = Ok (t', r1) /\
    reg_is t' r1 (c1 ++ x :: c1' ++ rest) /\
    (closed t (c1 ++ (f, d) :: c1') -> closed t (c2 ++ (f, negb d) :: c2') -> closed t' (c1 ++ x :: c1' ++ rest)) /\
    trs t' r2 = None /\ tfs t' f = None /\
    (forall r c, r <> r1 -> r <> r2 -> (reg_is t' r c <-> reg_is t r c)) /\
    (forall h b, h <> f -> (face_is t' h b <-> face_is t h b)) /\
    (forall e p q, edge_is t' e p q <-> edge_is t e p q) /\
    (forall v, option_map v_live (tvs t' v) = option_map v_live (tvs t v)) /\
    mutual t' /\ sound t' /\ exists a', reach t' a'.
Proof.
  intros gid t a r1 r2 f d c1 c1' c2 c2' g R Hg H1 H2 HC HN HL Hf. pose proof (reach_inv _ _ R) as I. pose proof (i_w _ _ I) as W. apply (reg_is_iff _ _ _ _ I) in H1. apply (reg_is_iff _ _ _ _ I) in H2.
  destruct (w_rnd _ W _ _ _ H1) as [N1 _]. destruct (w_rnd _ W _ _ _ H2) as [N2 _]. pose proof (w_rf _ W _ _ H1) as FF1. pose proof (w_rf _ W _ _ H2) as FF2. rewrite Forall_forall in FF1, FF2.
  destruct (c2 ++ c2') as [|x rest] eqn:EC; [congruence|]. clear HN.
  assert (HF1 : has_face a r1 f d) by (exists (c1 ++ (f, d) :: c1'); split; auto; apply in_or_app; right; left; auto).
  assert (HF2 : has_face a r2 f (negb d)) by (exists (c2 ++ (f, negb d) :: c2'); split; auto; apply in_or_app; right; left; auto).
  assert (Hr : r1 <> r2). { intros <-. rewrite H1 in H2. injection H2 as H2. assert (In (f, d) (c1 ++ (f, d) :: c1')) by (apply in_or_app; right; left; auto). rewrite H2 in H. apply in_app_iff in H. rewrite map_app in N2. cbn [map fst] in N2. apply NoDup_remove_2 in N2. rewrite in_app_iff in N2. destruct H as [H|[H|H]]. apply (in_map fst) in H. tauto. destruct d; discriminate. apply (in_map fst) in H. tauto. }
  assert (NF1 : ~ In f (map fst (c1 ++ c1'))). { rewrite map_app in *. cbn [map fst] in *. apply NoDup_remove_2 in N1. auto. }
  assert (NF2 : ~ In f (map fst (x :: rest))). { rewrite <- EC. rewrite map_app in *. cbn [map fst] in *. apply NoDup_remove_2 in N2. auto. }
  assert (N2' : NoDup (map fst (x :: rest))). { rewrite <- EC. rewrite map_app in *. cbn [map fst] in *. apply NoDup_remove_1 in N2. auto. }
  assert (IN2 : forall y, In y (x :: rest) -> In y (c2 ++ (f, negb d) :: c2')). { intros y Hy. rewrite <- EC in Hy. apply in_app_iff in Hy. apply in_or_app. cbn. tauto. }
  assert (Ff : full_f a f) by (apply (FF1 (f, d)); apply in_or_app; right; left; auto).
  destruct (region_rep t a r1 _ R H1) as (x1 & Hx1 & Hl1 & _). destruct (region_rep t a r2 _ R H2) as (x2 & Hx2 & Hl2 & HD2).
  assert (OF : other_faces t r2 f (map fst (c2 ++ (f, negb d) :: c2')) = Ok (ModProofs2.zd (x :: rest))). { rewrite <- EC. eapply other_go; eauto. }
  destruct (reach_step t a (TDelR r2 false) R) as (t1 & E1 & R1). { cbn [tpre]. congruence. }
  assert (A1 : forall r, r <> r2 -> a_r (astep a (TDelR r2 false)) r = a_r a r). { intros r Hn. cbn [astep]. ra. unfold kill. rewrite upd_other; auto. }
  assert (RB1 : rbdry (astep a (TDelR r2 false)) r1 = c1 ++ (f, d) :: c1'). { unfold rbdry. rewrite A1 by auto. rewrite H1. auto. }
  assert (D1 : a_r (astep a (TDelR r2 false)) r2 = None). { cbn [astep]. ra. unfold kill. rewrite upd_same. auto. }
  assert (HFB : forall r h dd, has_face (astep a (TDelR r2 false)) r h dd -> r <> r2 /\ has_face a r h dd). { intros r h dd (b & Hb & Hi). assert (r <> r2) by (intros ->; congruence). split; auto. rewrite A1 in Hb by auto. exists b. auto. }
  destruct (reach_step t1 _ (TReplaceFaces r1 [f] (x :: rest)) R1) as (t2 & E2 & R2).
  { cbn [tpre]. rewrite RB1. split. { eexists. rewrite A1 by auto. exact H1. } split. { constructor; [intros []|constructor]. } split. { intros y [<-|[]]. rewrite map_app, in_app_iff. cbn. auto. } split. { cbn [length]. lia. } split; [exact N2'|]. split.
    { intros p Hp. rewrite map_app, in_app_iff. cbn [map fst In]. intros HH. destruct (Z.eq_dec p f) as [-> |Hpf]. auto. apply (HC p); auto. rewrite map_app, in_app_iff. destruct HH as [HH|[HH|HH]]; auto. congruence. }
    split. { apply Forall_forall. intros y Hy. destruct (FF2 y (IN2 y Hy)) as (b & Hb). exists b. cbn [astep]. ra. exact Hb. } split.
    { intros h dd q Hi Hq. apply HFB in Hq. destruct Hq as [Hq HQ]. exfalso. apply Hq. apply (side_unique t a h q r2 dd I HQ). eexists. split; [exact H2|]. apply IN2. auto. }
    unfold maxrf. rewrite app_length. cbn [length]. rewrite !app_length in HL. cbn [length] in HL. lia. }
  assert (SA : subst_all [f] (x :: rest) (c1 ++ (f, d) :: c1') = c1 ++ x :: c1' ++ rest). { rewrite subst_all_mid by auto. rewrite <- app_assoc. auto. }
  set (a2 := astep (astep a (TDelR r2 false)) (TReplaceFaces r1 [f] (x :: rest))) in *.
  assert (A2 : a_r a2 r1 = Some (true, Some (c1 ++ x :: c1' ++ rest))). { unfold a2. cbn [astep]. cbn [astep] in RB1, A1. rewrite RB1, SA. unfold set_rb. ra. rewrite upd_same. revert A1. ra. intros A1. rewrite A1 by auto. rewrite H1. auto. }
  assert (A2' : forall r, r <> r1 -> r <> r2 -> a_r a2 r = a_r a r). { intros r K1 K2. unfold a2. change (astep (astep a (TDelR r2 false)) (TReplaceFaces r1 [f] (x :: rest))) with (set_rb (astep a (TDelR r2 false)) r1 (subst_all [f] (x :: rest) (rbdry (astep a (TDelR r2 false)) r1))). unfold set_rb. cbn [with_r a_r]. rewrite upd_other by auto. apply A1. auto. }
  assert (A2d : a_r a2 r2 = None). { unfold a2. change (astep (astep a (TDelR r2 false)) (TReplaceFaces r1 [f] (x :: rest))) with (set_rb (astep a (TDelR r2 false)) r1 (subst_all [f] (x :: rest) (rbdry (astep a (TDelR r2 false)) r1))). unfold set_rb. cbn [with_r a_r]. rewrite upd_other by auto. auto. }
  assert (A2f : a_f a2 = a_f a) by reflexivity. assert (A2e : a_e a2 = a_e a) by reflexivity. assert (A2v : a_v a2 = a_v a) by reflexivity.
  destruct (reach_step t2 a2 (TDelF f false) R2) as (t3 & E3 & R3).
  { cbn [tpre]. split. { rewrite A2f. destruct Ff as (b & Hb). rewrite Hb. discriminate. } intros _ r dd (b & Hb & Hi). destruct (Z.eq_dec r r1) as [-> |K1].
    - rewrite A2 in Hb. injection Hb as <-. apply (in_map fst) in Hi. cbn [fst] in Hi. rewrite map_app in Hi. cbn [map] in Hi. rewrite map_app in Hi. apply in_app_iff in Hi. rewrite map_app, in_app_iff in NF1. cbn [map In] in *. destruct Hi as [Hi|[Hi|Hi]]; try tauto. apply in_app_iff in Hi. tauto.
    - destruct (Z.eq_dec r r2) as [-> |K2]. rewrite A2d in Hb. discriminate. rewrite A2' in Hb by auto. assert (HB : has_face a r f dd) by (exists b; auto). destruct (bool_dec dd d) as [-> |Hd]. apply K1. eapply side_unique; eauto. apply K2. assert (Ed : dd = negb d) by (clear -Hd; destruct dd, d; auto; destruct Hd; auto). subst dd. eapply side_unique; eauto. }
  cbn [tstep] in E1, E2, E3. pose proof (reach_inv _ _ R3) as I3. set (a3 := astep a2 (TDelF f false)) in *.
  assert (A3f : forall h, h <> f -> a_f a3 h = a_f a h). { intros h Hh. unfold a3. cbn [astep]. cbn [with_f a_f]. unfold kill. rewrite upd_other by auto. rewrite A2f. auto. }
  assert (A3r : a_r a3 = a_r a2) by reflexivity. assert (A3e : a_e a3 = a_e a) by reflexivity. assert (A3v : a_v a3 = a_v a) by reflexivity.
  assert (OFF : forall h b, h <> f -> (face_is t3 h b <-> face_is t h b)). { intros h b Hh. rewrite <- (face_is_iff _ _ _ _ I), <- (face_is_iff _ _ _ _ I3), A3f by auto. tauto. }
  exists t3, x, rest. split; auto. split; [|split; [|split; [|split; [|split; [|split; [|split; [|split; [|split; [|split; [|split]]]]]]]]]].
  - unfold MRs_Join. rewrite Hg, Z.eqb_refl. cbn [negb]. unfold MR_Faces, getr at 1. rewrite Hx2. cbn [bind]. rewrite Hl2. cbn [nn bind].
    assert (M1 : mem f (map fst (c1 ++ (f, d) :: c1')) = true) by (apply mem_In; rewrite map_app, in_app_iff; cbn; auto). assert (M2 : mem f (map fst (c2 ++ (f, negb d) :: c2')) = true) by (apply mem_In; rewrite map_app, in_app_iff; cbn; auto).
    assert (CF : common_face (map fst (c1 ++ (f, d) :: c1')) (map fst (c2 ++ (f, negb d) :: c2')) = f).
    { unfold common_face. destruct (filter _ _) as [|h l] eqn:EF. assert (HI : In f []) by (rewrite <- EF; apply filter_In; split; auto; apply mem_In; auto). destruct HI. assert (HI : In h (filter (fun g0 => mem g0 (map fst (c1 ++ (f, d) :: c1'))) (map fst (c2 ++ (f, negb d) :: c2')))) by (rewrite EF; left; auto). apply filter_In in HI. destruct HI as [HI1 HI2]. apply mem_In in HI2. destruct (Z.eq_dec h f); auto. exfalso. apply (HC h). rewrite map_app in *. cbn [map fst] in HI2. rewrite in_app_iff in *. cbn [In] in HI2. destruct HI2 as [|[|]]; auto; congruence. rewrite <- EC. rewrite map_app in *. cbn [map fst] in HI1. rewrite in_app_iff in *. cbn [In] in HI1. destruct HI1 as [|[|]]; auto; congruence. }
    assert (NFN : f <> NULL). { intros Z0. pose proof (w_f _ W f) as B. destruct Ff as (b & Hb). rewrite Hb in B. assert (1 <= f < a_next a) by (apply B; discriminate). unfold NULL in Z0. lia. }
    destruct (zd_maps (x :: rest)) as [Z1 Z2].
    destruct Hf as [-> | ->].
    + replace (f =? NULL) with false by (symmetry; apply Z.eqb_neq; auto). unfold MR_UsesFace, getr. rewrite Hx1. cbn [bind]. rewrite Hl1. cbn [nn bind]. rewrite M1. cbn [negb bind]. rewrite OF. cbn [bind]. rewrite M2. cbn [negb]. rewrite E1. cbn [bind]. rewrite Z1, Z2. rewrite E2. cbn [bind]. rewrite E3. auto.
    + rewrite Z.eqb_refl. cbn [bind negb]. unfold getr. rewrite Hx1. cbn [bind]. rewrite Hl1. cbn [nn bind]. rewrite CF. rewrite OF. cbn [bind]. rewrite M2. cbn [negb]. rewrite E1. cbn [bind]. rewrite Z1, Z2. rewrite E2. cbn [bind]. rewrite E3. auto.
  - apply (reg_is_iff _ _ _ _ I3). rewrite A3r. auto.
  - intros C1 C2 F e HF. destruct Ff as (bf & Hbf). set (F' := fun h => if h =? f then bf else F h).
    assert (KF : forall y, In y (c1 ++ c1') \/ In y (x :: rest) -> fst y <> f). { intros y Hy E. destruct Hy as [Hy|Hy]; apply (in_map fst) in Hy; rewrite E in Hy; auto. }
    assert (HF' : forall y, In y (c1 ++ c1') \/ In y (x :: rest) -> face_is t (fst y) (F' (fst y))). { intros y Hy. pose proof (KF y Hy) as Ky. unfold F'. replace (fst y =? f) with false by (symmetry; apply Z.eqb_neq; auto). apply OFF; auto. apply HF. rewrite in_app_iff in *. cbn [In] in *. rewrite in_app_iff. tauto. }
    assert (HFf : face_is t f (F' f)). { unfold F'. rewrite Z.eqb_refl. apply (face_is_iff _ _ _ _ I). auto. }
    specialize (C1 F' e). specialize (C2 F' e). 
    assert (S1 : zsum (map (fun y => sgn (snd y) * loop_uses (F' (fst y)) e) (c1 ++ (f, d) :: c1')) = 0). { apply C1. intros y Hy. apply in_app_iff in Hy. destruct Hy as [Hy|[<-|Hy]]; auto; apply HF'; rewrite in_app_iff; tauto. }
    assert (S2 : zsum (map (fun y => sgn (snd y) * loop_uses (F' (fst y)) e) (c2 ++ (f, negb d) :: c2')) = 0). { apply C2. intros y Hy. apply in_app_iff in Hy. destruct Hy as [Hy|[<-|Hy]]; auto; apply HF'; rewrite <- EC, (in_app_iff c2); tauto. }
    assert (S3 : zsum (map (fun y => sgn (snd y) * loop_uses (F' (fst y)) e) (c1 ++ x :: c1' ++ rest)) = 0).
    { assert (S2' : zsum (map (fun y => sgn (snd y) * loop_uses (F' (fst y)) e) (x :: rest)) = sgn d * loop_uses (F' f) e). { rewrite <- EC. rewrite map_app, zsum_app in *. cbn [map fst snd] in S2. rewrite zsum_cons in S2. assert (sgn (negb d) = - sgn d) by (destruct d; auto). rewrite H in S2. lia. }
      cbn [map] in S2'. rewrite zsum_cons in S2'. rewrite map_app, zsum_app in *. cbn [map fst snd] in *. rewrite zsum_cons in *. rewrite map_app, zsum_app. lia. }
    rewrite <- S3. f_equal. apply map_ext_in. intros y Hy. f_equal. f_equal. unfold F'. replace (fst y =? f) with false. auto. symmetry. apply Z.eqb_neq. apply KF. rewrite in_app_iff in *. cbn [In] in *. rewrite in_app_iff in Hy. tauto.
  - pose proof (i_r _ _ I3 r2) as HH. rewrite A3r, A2d in HH. destruct (trs t3 r2); auto. discriminate.
  - pose proof (i_f _ _ I3 f) as HH. unfold a3 in HH. cbn [astep with_f a_f] in HH. unfold kill in HH. rewrite upd_same in HH. destruct (tfs t3 f); auto. discriminate.
  - intros r c K1 K2. rewrite <- (reg_is_iff _ _ _ _ I), <- (reg_is_iff _ _ _ _ I3), A3r, A2' by auto. tauto.
  - exact OFF.
  - intros e p q. rewrite <- (edge_is_iff _ _ _ _ _ I), <- (edge_is_iff _ _ _ _ _ I3), A3e. tauto.
  - intros v. rewrite (i_v _ _ I), (i_v _ _ I3), A3v. auto.
  - eapply inv_mutual; eauto.
  - eapply inv_sound; eauto.
  - eauto.
Qed.
Print Assumptions C43_join_regions.

(** ** Calls that are refused *)
Lemma other_total : forall t a r b fc, reach t a -> a_r a r = Some (true, Some b) -> exists l, other_faces t r fc (map fst b) = Ok l.
Proof.
  intros t a r b fc R H. destruct (region_rep t a r _ R H) as (x & _ & _ & HD).
  assert (G : forall k, (k <= length b)%nat -> exists l, foldM (fun acc i => g <- lent (map fst b) i ;; if g =? fc then Ok acc else d <- MR_FaceDir_i t r i ;; Ok (acc ++ [(g, d)])) [] (zrange 0 (Z.of_nat k)) = Ok l).
  { induction k as [|k IH]; intros Hk. exists []. rewrite zrange_nil by lia. auto. destruct IH as (l & El). lia. replace (Z.of_nat (S k)) with (Z.of_nat k + 1) by lia. rewrite zrange_snoc by lia. rewrite foldM_app, El. cbn [bind foldM]. rewrite lent_fst by lia. cbn [bind]. destruct (_ =? fc); cbn [bind]; [eauto|]. rewrite HD by lia. cbn [bind]. eauto. }
  destruct (G (length b) (le_n _)) as (l & El). exists l. unfold other_faces, ZL. rewrite map_length. exact El.
Qed.

(** Regions of different model regions, and regions which do not both have the face
    given, or have no face in common if none is given, are left as they are. *)
Theorem C43_join_regions_refused : forall gid t a r1 r2 c1 c2 g, reach t a -> reg_is t r1 c1 -> reg_is t r2 c2 ->
  gid r1 <> gid r2 \/ (g <> NULL /\ ~ (In g (map fst c1) /\ In g (map fst c2))) \/ (g = NULL /\ forall h, In h (map fst c1) -> ~ In h (map fst c2)) ->
  MRs_Join gid t r1 r2 g = Ok (t, NULL).
Proof.
  intros gid t a r1 r2 c1 c2 g R H1 H2 HH. pose proof (reach_inv _ _ R) as I. pose proof (i_w _ _ I) as W. apply (reg_is_iff _ _ _ _ I) in H1. apply (reg_is_iff _ _ _ _ I) in H2.
  destruct (region_rep t a r1 _ R H1) as (x1 & Hx1 & Hl1 & _). destruct (region_rep t a r2 _ R H2) as (x2 & Hx2 & Hl2 & _).
  unfold MRs_Join. destruct (gid r1 =? gid r2) eqn:Eg; cbn [negb]; auto. assert (Eg' : gid r1 = gid r2) by lia. destruct HH as [HH|HH]; [congruence|]. clear Eg Eg'.
  unfold MR_Faces, MR_UsesFace, getr. rewrite Hx2. cbn [bind]. rewrite Hl2. cbn [nn bind]. rewrite Hx1. cbn [bind]. rewrite Hl1. cbn [nn bind].
  destruct HH as [[Hg Hn]|[-> Hn]].
  - replace (g =? NULL) with false by (symmetry; apply Z.eqb_neq; auto). cbn [bind]. destruct (mem g (map fst c1)) eqn:M1; cbn [negb bind]; auto. destruct (other_total t a r2 c2 g R H2) as (l & ->). cbn [bind]. destruct (mem g (map fst c2)) eqn:M2; cbn [negb]; auto. exfalso. apply Hn. split; apply mem_In; auto.
  - rewrite Z.eqb_refl. cbn [bind negb]. destruct (other_total t a r2 c2 (common_face (map fst c1) (map fst c2)) R H2) as (l & ->). cbn [bind].
    assert (EF : filter (fun h => mem h (map fst c1)) (map fst c2) = []). { destruct (filter _ _) as [|h q] eqn:E; auto. assert (HI : In h (h :: q)) by (left; auto). rewrite <- E in HI. apply filter_In in HI. destruct HI as [A B]. apply mem_In in B. destruct (Hn h B A). }
    unfold common_face. rewrite EF. destruct (mem NULL (map fst c2)) eqn:M; auto. exfalso. apply mem_In in M. apply in_map_iff in M. destruct M as (z & Ez & Hz). pose proof (w_rf _ W _ _ H2) as FF. rewrite Forall_forall in FF. destruct (FF _ Hz) as (w & Hw). rewrite Ez in Hw. assert (1 <= NULL < a_next a) by (apply (w_f _ W); congruence). unfold NULL in *. lia.
Qed.
Print Assumptions C43_join_regions_refused.

(** Faces that do not both have the edge are left as they are; so are faces one of
    which is in a region and the other is not. *)
Theorem C43_join_faces_refused : forall t a f0 f1 e b0 b1, reach t a -> face_is t f0 b0 -> face_is t f1 b1 ->
  ~ (In e (map fst b0) /\ In e (map fst b1)) \/ (exists r c, reg_is t r c /\ In f0 (map fst c) /\ forall r' c', reg_is t r' c' -> ~ In f1 (map fst c')) ->
  MFs_Join t f0 f1 e = Ok (t, NULL).
Proof.
  intros t a f0 f1 e b0 b1 R H0 H1 HH. pose proof (reach_inv _ _ R) as I. apply (face_is_iff _ _ _ _ I) in H0. apply (face_is_iff _ _ _ _ I) in H1.
  destruct (C26_face_regions t a f0 R ltac:(congruence)) as (l0 & E0 & L0). destruct (C26_face_regions t a f1 R ltac:(congruence)) as (l1 & E1 & L1). unfold MFs_Join. rewrite E0, E1. cbn [bind].
  destruct (negb (nth 0 l0 NULL =? nth 0 l1 NULL) || negb (nth 1 l0 NULL =? nth 1 l1 NULL)) eqn:EL; auto.
  destruct HH as [HH|(r & c & Hc & Hi & HN)].
  - assert (Q0 : MF_Edges t f0 1 NULL = Ok (map fst b0)) by (apply (face_edges_query t a f0 _ true I H0)). assert (Q1 : MF_Edges t f1 1 NULL = Ok (map fst b1)) by (apply (face_edges_query t a f1 _ true I H1)). rewrite Q0. cbn [bind]. rewrite (face_dirs_ok _ _ _ _ I H0). cbn [bind]. rewrite Q1. cbn [bind]. rewrite (face_dirs_ok _ _ _ _ I H1). cbn [bind].
    destruct (mem e (map fst b0)) eqn:M0; auto. destruct (mem e (map fst b1)) eqn:M1; auto. exfalso. apply HH. split; apply mem_In; auto.
  - exfalso. assert (l1 = []). { destruct l1 as [|q l1]; auto. exfalso. destruct (proj1 (proj2 L1 q) (or_introl eq_refl)) as (dd & cc & Hcc & Hii). apply (reg_is_iff _ _ _ _ I) in Hcc. apply (HN _ _ Hcc). apply (in_map fst) in Hii. auto. }
    subst l1. apply in_map_iff in Hi. destruct Hi as ([f d] & Ef & Hi). cbn [fst] in Ef. subst f. apply (reg_is_iff _ _ _ _ I) in Hc. assert (In r l0) by (apply (proj2 L0); exists d, c; auto). destruct l0 as [|q l0]. destruct H. assert (Hq : exists d, has_face a q f0 d) by (apply (proj2 L0); left; auto). destruct Hq as (dd & cc & Hcc & _). cbn [nth] in EL. apply (r_nonnull _ _ q I); [congruence|]. destruct (Z.eqb_spec q NULL); auto. cbn in EL. discriminate.
Qed.
Print Assumptions C43_join_faces_refused.

(** ** Where the joined face or region is wrong *)

Lemma made_reach : forall ops, tallowedb amesh0 ops = true -> reach (TopoProps.done (trun empty_topo ops)) (arun amesh0 ops).
Proof.
  intros ops Hb. assert (H : tallowed amesh0 ops) by (apply tallowedb_ok with (t := empty_topo); [exact inv0|exact Hb]).
  destruct (trun_ok ops _ _ inv0 H) as (t & E & I). exists ops. split; [exact H|]. split; [rewrite E; reflexivity|reflexivity].
Qed.
(** A closed walk, decided. *)
Fixpoint walkb (a : amesh) (u : ptr) (b : list (ptr * bool)) (w : ptr) : bool :=
  match b with
  | [] => u =? w
  | (e, d) :: b' => match a_e a e with Some (true, (p, q)) => negb (p =? q) && ((if d then p else q) =? u) && walkb a (if d then q else p) b' w | _ => false end
  end.
Lemma walkb_ok : forall a b u w, walkb a u b w = true -> path a u b w.
Proof.
  induction b as [|[e d] b IH]; intros u w H; cbn [walkb path] in *. lia. destruct (a_e a e) as [[[] [p q]]|] eqn:E; try discriminate. apply andb_prop in H. destruct H as [H H3]. apply andb_prop in H. destruct H as [H1 H2]. exists (p, q). split; auto. cbn [fst snd]. split. lia. split. destruct d; cbn; lia. apply IH in H3. destruct d; auto.
Qed.
Lemma loop_dec : forall t a b u, reach t a -> walkb a u b u = true -> loop t b (map (vat a) b).
Proof. intros t a b u R H. exists u. apply (corners_iff _ _ _ _ _ _ (reach_inv _ _ R)). split; auto. apply walkb_ok. auto. Qed.
(** The converse: a walk from a vertex is decided by running along it. *)
Lemma path_walkb : forall a b u w, path a u b w -> walkb a u b w = true.
Proof.
  induction b as [|[e d] b IH]; intros u w H; cbn [walkb path] in *. lia. destruct H as ([p q] & E & H1 & H2 & H3). cbn [fst snd] in *. rewrite E. apply IH in H3. replace (p =? q) with false by lia. destruct d; cbn in *; subst u; rewrite Z.eqb_refl; auto.
Qed.
Ltac facts R := first [apply (face_is_iff _ _ _ _ (reach_inv _ _ R)) | apply (reg_is_iff _ _ _ _ (reach_inv _ _ R))]; vm_compute; reflexivity.

(** Two boundary faces of a tetrahedron, side by side and used in the same direction,
    are joined: called with the face that comes later in the region first, the
    directions are shifted with the function that also moves the sides of the
    faces.  A face keeps the neighbour on its wrong side and loses the other one,
    whose list still has it.  With the two faces exchanged the call is right. *)
Theorem C43_join_in_region_refuted : exists t f0 f1 e s0 s0' s1 s1' r c t' nu, (exists a, reach t a) /\
  face_is t f0 (s0 ++ (e, true) :: s0') /\ face_is t f1 (s1 ++ (e, false) :: s1') /\ (exists vs, loop t (s0 ++ (e, true) :: s0') vs) /\ (exists vs, loop t (s1 ++ (e, false) :: s1') vs) /\
  reg_is t r c /\ In (f0, false) c /\ In (f1, false) c /\
  MFs_Join t f0 f1 e = Ok (t', nu) /\ face_is t' nu (s0' ++ s0 ++ s1' ++ s1) /\ ~ mutual t' /\
  (exists g x y q, tfs t g = Some x /\ tfs t' g = Some y /\ g <> nu /\ f_r0 x = r /\ f_r1 x = q /\ q <> NULL /\ f_r0 y = NULL /\ f_r1 y = r) /\
  exists t'' nu', MFs_Join t f1 f0 e = Ok (t'', nu') /\ nu' = nu /\ Forall (fun g => option_map (fun x => (f_r0 x, f_r1 x)) (tfs t'' g) = option_map (fun x => (f_r0 x, f_r1 x)) (tfs t g)) [16; 17; 19; 20; 21].
Proof.
  exists T0, 18, 15, 7, [], [(11, true); (8, false)], [(6, true); (9, true)], [], 22, [(15, false); (16, true); (17, true); (18, false)].
  destruct (MFs_Join T0 18 15 7) as [[t' nu]| | |] eqn:E; vm_compute in E; try discriminate. injection E as <- <-. eexists. eexists. split. exists (arun amesh0 tets). exact T0_reach.
  split. facts T0_reach. split. facts T0_reach. split. eexists. apply (loop_dec _ _ _ 1 T0_reach). vm_compute. reflexivity. split. eexists. apply (loop_dec _ _ _ 1 T0_reach). vm_compute. reflexivity.
  split. facts T0_reach. split. cbn; tauto. split. cbn; tauto. split. reflexivity.
  split. { eexists. split. reflexivity. split. reflexivity. split. reflexivity. intros k q Hk. do 4 (destruct k as [|k]; [injection Hk as <-; reflexivity|]). destruct k; discriminate. }
  split. { intros M. assert (H : 22 = 23); [|discriminate]. refine (proj2 (mu_f _ M 17 _ 23 eq_refl ltac:(discriminate) false) _). do 2 eexists. exists 0%nat. split. reflexivity. split. reflexivity. split. reflexivity. split; reflexivity. }
  split. { exists 17. do 2 eexists. exists 23. split. reflexivity. split. reflexivity. split. discriminate. split. reflexivity. split. reflexivity. split. discriminate. split; reflexivity. }
  destruct (MFs_Join T0 15 18 7) as [[t'' nu]| | |] eqn:E; vm_compute in E; try discriminate. injection E as <- <-. eexists. eexists. split. reflexivity. split. reflexivity. repeat constructor.
Qed.
Print Assumptions C43_join_in_region_refuted.

(** Two triangles with opposite orientations use their edge in the same direction.
    They are joined without a test and the result is not a closed loop. *)
Definition twisted : list top := firstn 20 tris ++ [TSetEdges 10 [(5, true); (6, true); (7, true)]; TNewF; TSetEdges 11 [(7, true); (9, false); (8, false)]].
Definition Tw : topo := TopoProps.done (trun empty_topo twisted).
Lemma Tw_reach : reach Tw (arun amesh0 twisted).
Proof. apply made_reach. vm_compute. reflexivity. Qed.
Theorem C43_join_twisted_refuted : exists t f0 f1 e b0 b1 b t' nu, (exists a, reach t a) /\ face_is t f0 b0 /\ face_is t f1 b1 /\ (exists vs, loop t b0 vs) /\ (exists vs, loop t b1 vs) /\
  MFs_Join t f0 f1 e = Ok (t', nu) /\ nu <> NULL /\ (exists a', reach t' a') /\ face_is t' nu b /\ ~ (exists vs, loop t' b vs).
Proof.
  assert (A : tallowedb (arun amesh0 twisted) [TNewF; TSetEdges 12 [(5, true); (6, true); (9, false); (8, false)]; TDelF 10 false; TDelF 11 false; TDelE 7 false] = true) by (vm_compute; reflexivity).
  pose proof (made_reach (twisted ++ [TNewF; TSetEdges 12 [(5, true); (6, true); (9, false); (8, false)]; TDelF 10 false; TDelF 11 false; TDelE 7 false]) ltac:(vm_compute; reflexivity)) as R2.
  set (T2 := TopoProps.done (trun empty_topo (twisted ++ [TNewF; TSetEdges 12 [(5, true); (6, true); (9, false); (8, false)]; TDelF 10 false; TDelF 11 false; TDelE 7 false]))) in R2.
  exists Tw, 10, 11, 7, [(5, true); (6, true); (7, true)], [(7, true); (9, false); (8, false)], [(5, true); (6, true); (9, false); (8, false)], T2, 12.
  split. eexists. exact Tw_reach. split. facts Tw_reach. split. facts Tw_reach. split. eexists. apply (loop_dec _ _ _ 1 Tw_reach). vm_compute. reflexivity. split. eexists. apply (loop_dec _ _ _ 3 Tw_reach). vm_compute. reflexivity.
  split. unfold T2. vm_compute. reflexivity. split. discriminate. split. eexists. exact R2. split. facts R2.
  intros (vs & u & HL). apply (corners_iff _ _ _ _ _ _ (reach_inv _ _ R2)) in HL. destruct HL as [HP _]. cbn [path] in HP.
  destruct HP as (x & H1 & _ & H2 & x2 & H3 & _ & H4 & x3 & H5 & _ & H6 & x4 & H7 & _ & H8 & H9). vm_compute in H3, H5. injection H3 as <-. injection H5 as <-. vm_compute in H6. discriminate.
Qed.
Print Assumptions C43_join_twisted_refuted.

(** Two faces with two edges in common: the one that is not named is in the joined
    face twice. *)
Definition folded : list top := [TNewV; TNewV; TNewV; TNewV; TNewV; TNewE; TSetVertex 6 false 1; TSetVertex 6 true 2; TNewE; TSetVertex 7 false 2; TSetVertex 7 true 3; TNewE; TSetVertex 8 false 3; TSetVertex 8 true 4;
  TNewE; TSetVertex 9 false 4; TSetVertex 9 true 1; TNewE; TSetVertex 10 false 1; TSetVertex 10 true 5; TNewE; TSetVertex 11 false 5; TSetVertex 11 true 3;
  TNewF; TSetEdges 12 [(6, true); (7, true); (8, true); (9, true)]; TNewF; TSetEdges 13 [(7, false); (6, false); (10, true); (11, true)]].
Definition Tf : topo := TopoProps.done (trun empty_topo folded).
Lemma Tf_reach : reach Tf (arun amesh0 folded).
Proof. apply made_reach. vm_compute. reflexivity. Qed.
Theorem C43_join_two_edges_refuted : exists t f0 f1 e b0 b1 t' nu, (exists a, reach t a) /\ face_is t f0 b0 /\ face_is t f1 b1 /\ (exists vs, loop t b0 vs) /\ (exists vs, loop t b1 vs) /\
  In (e, true) b0 /\ In (e, false) b1 /\ MFs_Join t f0 f1 e = Ok (t', nu) /\ ~ sound t' /\
  exists x l, tfs t' nu = Some x /\ f_edges x = Some l /\ ~ NoDup l.
Proof.
  exists Tf, 12, 13, 6, [(6, true); (7, true); (8, true); (9, true)], [(7, false); (6, false); (10, true); (11, true)].
  destruct (MFs_Join Tf 12 13 6) as [[t' nu]| | |] eqn:E; vm_compute in E; try discriminate. injection E as <- <-. eexists. eexists.
  split. eexists. exact Tf_reach. split. facts Tf_reach. split. facts Tf_reach. split. eexists. apply (loop_dec _ _ _ 1 Tf_reach). vm_compute. reflexivity. split. eexists. apply (loop_dec _ _ _ 3 Tf_reach). vm_compute. reflexivity.
  split. cbn; tauto. split. cbn; tauto. split. reflexivity.
  assert (ND : ~ NoDup [7; 8; 9; 10; 11; 7]). { intros N. inversion N as [|? ? N1 _]. apply N1. cbn; tauto. }
  split. { intros SO. apply ND. refine (proj1 (so_f _ SO 14 _ _ eq_refl eq_refl eq_refl)). }
  do 2 eexists. split. reflexivity. split. reflexivity. exact ND.
Qed.
Print Assumptions C43_join_two_edges_refuted.

(** A third face has the edge: the edge is freed and the third face keeps its
    address. *)
Definition book : list top := tris ++ [TNewV; TNewE; TSetVertex 13 false 3; TSetVertex 13 true 12; TNewE; TSetVertex 14 false 12; TSetVertex 14 true 1; TNewF; TSetEdges 15 [(7, false); (13, true); (14, true)]].
Definition Tb : topo := TopoProps.done (trun empty_topo book).
Lemma Tb_reach : reach Tb (arun amesh0 book).
Proof. apply made_reach. vm_compute. reflexivity. Qed.
Theorem C43_join_third_face_refuted : exists t f0 f1 f2 e b0 b1 b2 t' nu, (exists a, reach t a) /\ face_is t f0 b0 /\ face_is t f1 b1 /\ face_is t f2 b2 /\ In (e, true) b0 /\ In (e, false) b1 /\ In (e, false) b2 /\
  f2 <> f0 /\ f2 <> f1 /\ MFs_Join t f0 f1 e = Ok (t', nu) /\ face_is t' f2 b2 /\ tes t' e = None /\ ~ sound t'.
Proof.
  exists Tb, 10, 11, 15, 7, [(5, true); (6, true); (7, true)], [(7, false); (8, true); (9, true)], [(7, false); (13, true); (14, true)].
  destruct (MFs_Join Tb 10 11 7) as [[t' nu]| | |] eqn:E; vm_compute in E; try discriminate. injection E as <- <-. eexists. eexists.
  split. eexists. exact Tb_reach. split. facts Tb_reach. split. facts Tb_reach. split. facts Tb_reach. split. cbn; tauto. split. cbn; tauto. split. cbn; tauto. split. discriminate. split. discriminate. split. reflexivity.
  split. { eexists. split. reflexivity. split. reflexivity. split. reflexivity. intros k q Hk. do 3 (destruct k as [|k]; [injection Hk as <-; reflexivity|]). destruct k; discriminate. }
  split. reflexivity. intros SO. destruct (proj2 (so_f _ SO 15 _ _ eq_refl eq_refl eq_refl) 7 ltac:(cbn; tauto)) as (x & Hx & _). discriminate Hx.
Qed.
Print Assumptions C43_join_third_face_refuted.

(** Three tetrahedra round an edge.  Two of them are joined; the third then has two
    faces in common with the result, and joining it leaves the other common face
    in the region twice. *)
Definition round : list top := [TNewV; TNewV; TNewV; TNewV; TNewV; TNewE; TSetVertex 6 false 1; TSetVertex 6 true 3; TNewE; TSetVertex 7 false 3; TSetVertex 7 true 2; TNewE; TSetVertex 8 false 2; TSetVertex 8 true 1;
  TNewF; TSetEdges 9 [(6, true); (7, true); (8, true)]; TNewE; TSetVertex 10 false 2; TSetVertex 10 true 4; TNewE; TSetVertex 11 false 4; TSetVertex 11 true 1; TNewF; TSetEdges 12 [(8, false); (10, true); (11, true)];
  TNewE; TSetVertex 13 false 3; TSetVertex 13 true 4; TNewF; TSetEdges 14 [(7, false); (13, true); (10, false)]; TNewF; TSetEdges 15 [(6, false); (11, false); (13, false)];
  TNewE; TSetVertex 16 false 2; TSetVertex 16 true 5; TNewE; TSetVertex 17 false 5; TSetVertex 17 true 1; TNewF; TSetEdges 18 [(8, false); (16, true); (17, true)];
  TNewE; TSetVertex 19 false 4; TSetVertex 19 true 5; TNewF; TSetEdges 20 [(10, true); (19, true); (16, false)]; TNewF; TSetEdges 21 [(11, true); (17, false); (19, false)];
  TNewE; TSetVertex 22 false 5; TSetVertex 22 true 3; TNewF; TSetEdges 23 [(16, true); (22, true); (7, true)]; TNewF; TSetEdges 24 [(17, true); (6, true); (22, false)];
  TNewR; TSetFaces 25 [(9, true); (12, true); (14, true); (15, true)]; TNewR; TSetFaces 26 [(12, false); (18, true); (20, true); (21, true)]; TNewR; TSetFaces 27 [(18, false); (9, false); (23, true); (24, true)]].
Definition Tr3 : topo := TopoProps.done (trun empty_topo round).
Lemma Tr3_reach : reach Tr3 (arun amesh0 round).
Proof. apply made_reach. vm_compute. reflexivity. Qed.
Theorem C43_join_two_faces_refuted : exists gid t r1 r2 r3 t1 f c c3 t2, (exists a, reach t a) /\ MRs_Join gid t r1 r2 NULL = Ok (t1, r1) /\ (exists a1, reach t1 a1) /\
  reg_is t1 r1 c /\ reg_is t1 r3 c3 /\ gid r1 = gid r3 /\ In (f, true) c /\ In (f, false) c3 /\ MRs_Join gid t1 r1 r3 f = Ok (t2, r1) /\ ~ sound t2 /\
  exists x l, trs t2 r1 = Some x /\ r_faces x = Some l /\ ~ NoDup l.
Proof.
  pose proof (made_reach (round ++ [TDelR 26 false; TReplaceFaces 25 [12] [(18, true); (20, true); (21, true)]; TDelF 12 false]) ltac:(vm_compute; reflexivity)) as R2.
  set (T2 := TopoProps.done (trun empty_topo (round ++ [TDelR 26 false; TReplaceFaces 25 [12] [(18, true); (20, true); (21, true)]; TDelF 12 false]))) in R2.
  exists (fun _ => 1), Tr3, 25, 26, 27, T2, 18, [(9, true); (18, true); (14, true); (15, true); (20, true); (21, true)], [(18, false); (9, false); (23, true); (24, true)].
  destruct (MRs_Join (fun _ => 1) T2 25 27 18) as [[t' nu]| | |] eqn:E; vm_compute in E; try discriminate. injection E as <- <-. eexists.
  split. eexists. exact Tr3_reach. split. unfold T2. vm_compute. reflexivity. split. eexists. exact R2. split. facts R2. split. facts R2. split. reflexivity. split. cbn; tauto. split. cbn; tauto. split. reflexivity.
  assert (ND : ~ NoDup [9; 9; 14; 15; 20; 21; 23; 24]). { intros N. inversion N as [|? ? N1 _]. apply N1. cbn; tauto. }
  split. { intros SO. apply ND. refine (proj1 (so_r _ SO 25 _ _ eq_refl eq_refl eq_refl)). }
  do 2 eexists. split. reflexivity. split. reflexivity. exact ND.
Qed.
Print Assumptions C43_join_two_faces_refuted.

(** ** Examples *)

Lemma no_regs : forall t a, reach t a -> forallb (fun r => match trs t r with Some _ => false | None => true end) (zrange 1 (tnext t)) = true -> forall r c, ~ reg_is t r c.
Proof.
  intros t a R H r c (x & Hx & _). pose proof (reach_inv _ _ R) as I. assert (B : 1 <= r < tnext t). { rewrite (i_n _ _ I). apply (w_r _ (i_w _ _ I)). rewrite <- (i_r _ _ I), Hx. discriminate. }
  rewrite forallb_forall in H. specialize (H r ltac:(apply zrange_In; auto)). rewrite Hx in H. discriminate.
Qed.
Lemma only_faces : forall t a e fs, reach t a -> forallb (fun f => match a_f a f with Some (true, Some b) => negb (mem e (map fst b)) || mem f fs | _ => true end) (zrange 1 (a_next a)) = true ->
  forall g b, face_is t g b -> In e (map fst b) -> In g fs.
Proof.
  intros t a e fs R H g b Hg Hi. pose proof (reach_inv _ _ R) as I. apply (face_is_iff _ _ _ _ I) in Hg. assert (B : 1 <= g < a_next a) by (apply (w_f _ (i_w _ _ I)); congruence).
  rewrite forallb_forall in H. specialize (H g ltac:(apply zrange_In; auto)). rewrite Hg in H. apply mem_In in Hi. rewrite Hi in H. cbn [negb orb] in H. apply mem_In. auto.
Qed.
Example C43_join_faces_ex : exists a, reach Tt a /\ face_is Tt 10 ([(5, true); (6, true)] ++ (7, true) :: []) /\ face_is Tt 11 ([] ++ (7, negb true) :: [(8, true); (9, true)]) /\
  (exists vs, loop Tt ([(5, true); (6, true)] ++ (7, true) :: []) vs) /\ (exists vs, loop Tt ([] ++ (7, negb true) :: [(8, true); (9, true)]) vs) /\
  (forall g b, face_is Tt g b -> In 7 (map fst b) -> g = 10 \/ g = 11) /\ (forall r c, reg_is Tt r c -> ~ In 10 (map fst c) /\ ~ In 11 (map fst c)) /\
  okt (MFs_Join Tt 10 11 7) (fun x => snd x = 12 /\ MF_Edges (fst x) 12 1 NULL = Ok [5; 6; 8; 9] /\ MF_Vertices (fst x) 12 1 NULL = Ok [1; 2; 3; 4]).
Proof.
  exists At. split. exact Tt_reach. split. facts Tt_reach. split. facts Tt_reach. split. eexists. apply (loop_dec _ _ _ 1 Tt_reach). vm_compute. reflexivity. split. eexists. apply (loop_dec _ _ _ 1 Tt_reach). vm_compute. reflexivity.
  split. { intros g b Hg Hi. assert (HH : In g [10; 11]) by (apply (only_faces Tt At 7 [10; 11] Tt_reach ltac:(vm_compute; reflexivity) g b); auto). cbn in HH. lia. }
  split. { intros r c Hc. destruct (no_regs Tt At Tt_reach ltac:(vm_compute; reflexivity) r c Hc). }
  vm_compute. auto.
Qed.
Example C43_split_join_ex : exists a, reach T1 a /\ face_is T1 14 [(7, true); (8, true); (9, false); (10, true); (11, false); (12, true)] /\
  loop T1 [(7, true); (8, true); (9, false); (10, true); (11, false); (12, true)] [1; 2; 3; 4; 5; 6] /\ (forall e, ~ edge_is T1 e 3 5 /\ ~ edge_is T1 e 5 3) /\ (forall r c, reg_is T1 r c -> ~ In 14 (map fst c)) /\
  okt (MF_Split_with_Edge T1 14 3 5) (fun x => okt (MFs_Join (fst x) 16 17 15) (fun y => snd y = 18 /\ MF_Edges (fst y) 18 1 NULL = Ok [9; 10; 11; 12; 7; 8])).
Proof.
  exists (arun amesh0 hexagon). split. exact T1_reach. split. facts T1_reach. split. exact T1_loop. split. eapply no_edge_ok. exact T1_reach. vm_compute. reflexivity.
  split. { intros r c Hc. destruct (no_regs T1 _ T1_reach ltac:(vm_compute; reflexivity) r c Hc). } vm_compute. auto.
Qed.

(** Closed sets of faces, decided. *)
Definition closedb (a : amesh) (c : list (ptr * bool)) : bool :=
  forallb (fun e => zsum (map (fun x => sgn (snd x) * loop_uses (fbdry a (fst x)) e) c) =? 0) (flat_map (fun x => map fst (fbdry a (fst x))) c).
Lemma uses_out : forall b e, ~ In e (map fst b) -> loop_uses b e = 0.
Proof. intros b e H. unfold loop_uses. induction b as [|[g d] b IH]; auto. cbn [map fst snd] in *. rewrite zsum_cons. cbn [In] in H. replace (g =? e) with false by (symmetry; apply Z.eqb_neq; tauto). rewrite IH by tauto. auto. Qed.
Lemma closedb_ok : forall t a c, reach t a -> closedb a c = true -> closed t c.
Proof.
  intros t a c R H F e HF. pose proof (reach_inv _ _ R) as I.
  assert (EQ : map (fun x => sgn (snd x) * loop_uses (F (fst x)) e) c = map (fun x => sgn (snd x) * loop_uses (fbdry a (fst x)) e) c). { apply map_ext_in. intros x Hx. f_equal. f_equal. specialize (HF x Hx). apply (face_is_iff _ _ _ _ I) in HF. unfold fbdry. rewrite HF. auto. }
  rewrite EQ. destruct (in_dec Z.eq_dec e (flat_map (fun x => map fst (fbdry a (fst x))) c)) as [Hi|Hn].
  - unfold closedb in H. rewrite forallb_forall in H. specialize (H e Hi). lia.
  - clear -Hn. induction c as [|x c IH]; auto. cbn [flat_map map] in *. rewrite zsum_cons. rewrite in_app_iff in Hn. rewrite IH by tauto. rewrite uses_out by tauto. lia.
Qed.
Example C43_join_regions_ex : exists a, reach T0 a /\ reg_is T0 22 ([(15, false); (16, true)] ++ (17, true) :: [(18, false)]) /\ reg_is T0 23 ([] ++ (17, negb true) :: [(19, true); (20, true); (21, false)]) /\
  (forall h, In h (map fst ([(15, false); (16, true)] ++ [(18, false)])) -> ~ In h (map fst ([] ++ [(19, true); (20, true); (21, false)]))) /\
  closed T0 ([(15, false); (16, true)] ++ (17, true) :: [(18, false)]) /\ closed T0 ([] ++ (17, negb true) :: [(19, true); (20, true); (21, false)]) /\ ~ closed T0 [(15, false); (16, true); (17, false); (18, false)] /\
  okt (MRs_Join (fun _ => 1) T0 22 23 NULL) (fun x => snd x = 22 /\ MR_Faces (fst x) 22 = Ok [15; 16; 19; 18; 20; 21]).
Proof.
  exists (arun amesh0 tets). split. exact T0_reach. split. facts T0_reach. split. facts T0_reach. split. { cbn. intros h. lia. } split. apply (closedb_ok _ _ _ T0_reach). vm_compute. reflexivity. split. apply (closedb_ok _ _ _ T0_reach). vm_compute. reflexivity.
  split. { intros C. specialize (C (fun f => fbdry (arun amesh0 tets) f) 9). assert (H : zsum (map (fun x => sgn (snd x) * loop_uses (fbdry (arun amesh0 tets) (fst x)) 9) [(15, false); (16, true); (17, false); (18, false)]) = 0). { apply C. intros x [<-|[<-|[<-|[<-|[]]]]]; facts T0_reach. } vm_compute in H. discriminate. }
  vm_compute. auto.
Qed.
Example C43_refused_ex : MRs_Join (fun _ => 1) T0 22 23 15 = Ok (T0, NULL) /\ MRs_Join (fun r => r) T0 22 23 17 = Ok (T0, NULL) /\ MFs_Join T0 15 16 7 = Ok (T0, NULL).
Proof. split; [|split]; vm_compute; reflexivity. Qed.
