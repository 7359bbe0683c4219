(** C45: collapsing an edge. *)
From Coq Require Import ZArith List Lia Bool Arith ZifyBool ZifyNat Permutation.
From Verif Require Import Base BaseProofs ListSpec AttModel AttProps TopoModel ParModel ParProps TopoSpec TopoProofs TopoProofs2 TopoProofs3 TopoProofs4 TopoProofs5 TopoProofs6 TopoProofs7 TopoProps TopoProps2 CellModel ModModel ModProofs ModProofs2 ModProps ModProps2 ModProofs3 ModProps3 CellSpec CellProofs CellProofs2 BuildModel BuildProofs BuildProofs2 BuildProofs3 BuildProofs5 GidProps2 JoinModel JoinProofs JoinProps RefineModel RefineProofs RefineProps CollapseModel CollapseProofs.
Import ListNotations.
Open Scope Z_scope.

(** An edge that joins the two, in either sense. *)
Definition spoke (t : topo) (p q g : ptr) : Prop := edge_is t g p q \/ edge_is t g q p.

(** What a mesh has to look like around [e] for its ends to be drawn together: no
    edge has equal ends, no two edges have the same ones, faces are loops, those at
    [e] are triangles without regions, a face with both ends has [e], and no two of
    the other faces come to have the same vertices. *)
Record collapsible (t : topo) (e vdel vkeep : ptr) : Prop := {
  co_edge : spoke t vdel vkeep e;
  co_nn : vdel <> NULL /\ vkeep <> NULL;
  co_ends : forall g p, ~ edge_is t g p p;
  co_uniq : unique_edges t;
  co_face : forall f b, face_is t f b -> exists vs, loop t b vs;
  co_tri : forall f b, face_is t f b -> In e (map fst b) -> length b = 3%nat;
  co_free : forall f b r c, face_is t f b -> In e (map fst b) -> reg_is t r c -> ~ In f (map fst c);
  co_both : forall f b vs, face_is t f b -> loop t b vs -> In vdel vs -> In vkeep vs -> In e (map fst b);
  co_apart : forall f f' b b' vs vs', face_is t f b -> face_is t f' b' -> loop t b vs -> loop t b' vs' -> ~ In e (map fst b) -> ~ In e (map fst b') ->
    (forall v, In v (map (moved vdel vkeep) vs) <-> In v (map (moved vdel vkeep) vs')) -> f = f' }.

Lemma moved_eq : forall d k x y, moved d k x = moved d k y -> x = y \/ (x = d /\ y = k) \/ (x = k /\ y = d).
Proof. intros d k x y. unfold moved. destruct (Z.eqb_spec x d), (Z.eqb_spec y d); intros; subst; auto. Qed.
Lemma moved_k : forall d k, moved d k k = k.
Proof. intros d k. unfold moved. destruct (Z.eqb_spec k d); auto. Qed.
Lemma moved_d : forall d k, moved d k d = k.
Proof. intros d k. unfold moved. rewrite Z.eqb_refl. auto. Qed.
Lemma moved_o : forall d k w, w <> d -> moved d k w = w.
Proof. intros d k w H. unfold moved. destruct (Z.eqb_spec w d); congruence. Qed.

(** The vertices of a loop are the ends of its edges. *)
Lemma corners_ends : forall t b u vs w, corners t u b vs w -> forall v, (exists g p q, In g (map fst b) /\ edge_is t g p q /\ (v = p \/ v = q)) <-> (In v vs \/ (b <> [] /\ v = w)).
Proof.
  intros t. induction b as [|[g d] b IH]; intros u vs w H v; cbn [corners] in H.
  - destruct H as [-> _]. cbn. split. intros (g & p & q & [] & _). intros [[]|[X _]]; congruence.
  - destruct H as (p & q & vs' & He & Hn & Hs & Hv & H). subst vs. pose proof (IH _ _ _ H v) as J. cbn [map fst In]. split.
    + intros (g' & p' & q' & [<-|Hg] & Hg' & Hpq).
      * destruct (edge_fun _ _ _ _ _ _ He Hg') as [<- <-]. assert (X : v = u \/ v = (if d then q else p)) by (destruct d; subst u; tauto). destruct X as [->| ->]; auto.
        destruct b as [|x b]. cbn [corners] in H. right. split. discriminate. tauto.
        destruct x as [g2 d2]. cbn [corners] in H. destruct H as (p2 & q2 & vs2 & _ & _ & _ & -> & _). left. cbn. auto.
      * assert (In v vs' \/ b <> [] /\ v = w). { apply J. exists g', p', q'. auto. } destruct H0 as [H0|[_ H0]]; auto. right. split; auto. discriminate.
    + intros [[<-|Hv]|[_ ->]].
      * exists g, p, q. split; auto. split; auto. destruct d; auto.
      * destruct (proj2 J (or_introl Hv)) as (g' & p' & q' & A & B & C). exists g', p', q'. auto.
      * destruct b as [|x b]. cbn [corners] in H. exists g, p, q. split; auto. split; auto. destruct H as [_ <-]. destruct d; auto.
        destruct (proj2 J) as (g' & p' & q' & A & B & C). right. split; auto. discriminate. exists g', p', q'. auto.
Qed.
Lemma loop_ends : forall t b vs, loop t b vs -> forall v, In v vs <-> exists g p q, In g (map fst b) /\ edge_is t g p q /\ (v = p \/ v = q).
Proof.
  intros t b vs (u & H) v. rewrite (corners_ends _ _ _ _ _ H v). split; auto. intros [X|[N ->]]; auto. destruct b as [|[g d] b]; [congruence|]. cbn [corners] in H. destruct H as (p & q & vs' & _ & _ & _ & -> & _). cbn; auto.
Qed.

Section Drawn.
  Variables (t : topo) (e vdel vkeep : ptr).
  Hypothesis CO : collapsible t e vdel vkeep.
  Local Notation m := (moved vdel vkeep).
  Lemma spoke_uniq : forall g h p q, spoke t p q g -> spoke t p q h -> g = h.
  Proof using CO. intros g h p q [G|G] [H|H]; apply (co_uniq _ _ _ _ CO) with (1 := G); auto. Qed.
  Lemma spoke_ne : forall g p, ~ spoke t p p g.
  Proof using CO. intros g p [H|H]; apply (co_ends _ _ _ _ CO) in H; auto. Qed.
  Lemma spoke_sym : forall g p q, spoke t p q g -> spoke t q p g.
  Proof using. clear CO e vdel vkeep. unfold spoke. tauto. Qed.
  Lemma spoke_fun : forall g p q p' q', spoke t p q g -> spoke t p' q' g -> (p = p' /\ q = q') \/ (p = q' /\ q = p').
  Proof using. clear CO e vdel vkeep. intros g p q p' q' [G|G] [H|H]; destruct (edge_fun _ _ _ _ _ _ G H); subst; auto. Qed.
  Lemma dk : vdel <> vkeep.
  Proof using CO. intros E. pose proof (co_edge _ _ _ _ CO) as H. rewrite E in H. apply (spoke_ne _ _ H). Qed.
  (** Edges that come to have the same ends met at one vertex and at the two that are
      drawn together. *)
  Lemma meet : forall g h p q p' q', g <> e -> g <> h -> spoke t p q g -> spoke t p' q' h -> m p = m p' -> m q = m q' ->
    h <> e /\ exists w, w <> vdel /\ w <> vkeep /\ ((spoke t vdel w g /\ spoke t vkeep w h) \/ (spoke t vkeep w g /\ spoke t vdel w h)).
  Proof using CO.
    intros g h p q p' q' Ne Nh G H E1 E2. pose proof (co_edge _ _ _ _ CO) as E. pose proof dk as DK.
    assert (NO : forall x, x <> e -> ~ spoke t vdel vkeep x) by (intros x Nx Hx; apply Nx; apply (spoke_uniq _ _ _ _ Hx E)).
    assert (HE : forall x, spoke t vkeep x h -> x <> vdel -> x <> vkeep -> h <> e). { intros x Hx N1 N2 ->. destruct (spoke_fun _ _ _ _ _ Hx E) as [[A B]|[A B]]; congruence. }
    assert (HE' : forall x, spoke t vdel x h -> x <> vdel -> x <> vkeep -> h <> e). { intros x Hx N1 N2 ->. destruct (spoke_fun _ _ _ _ _ Hx E) as [[A B]|[A B]]; congruence. }
    assert (X : forall w, spoke t vdel w g -> spoke t vkeep w h -> h <> e /\ exists w, w <> vdel /\ w <> vkeep /\ ((spoke t vdel w g /\ spoke t vkeep w h) \/ (spoke t vkeep w g /\ spoke t vdel w h))).
    { intros w A B. assert (w <> vdel) by (intros ->; apply (spoke_ne _ _ A)). assert (w <> vkeep) by (intros ->; apply (spoke_ne _ _ B)). split. apply (HE w); auto. exists w. auto. }
    assert (Y : forall w, spoke t vkeep w g -> spoke t vdel w h -> h <> e /\ exists w, w <> vdel /\ w <> vkeep /\ ((spoke t vdel w g /\ spoke t vkeep w h) \/ (spoke t vkeep w g /\ spoke t vdel w h))).
    { intros w A B. assert (w <> vkeep) by (intros ->; apply (spoke_ne _ _ A)). assert (w <> vdel) by (intros ->; apply (spoke_ne _ _ B)). split. apply (HE' w); auto. exists w. auto. }
    apply moved_eq in E1, E2. destruct E1 as [->|[[-> ->]|[-> ->]]], E2 as [->|[[-> ->]|[-> ->]]].
    - destruct Nh. apply (spoke_uniq _ _ _ _ G H).
    - apply (X p'); apply spoke_sym; auto.
    - apply (Y p'); apply spoke_sym; auto.
    - apply (X q'); auto.
    - destruct (spoke_ne _ _ G).
    - destruct (NO g Ne). auto.
    - apply (Y q'); auto.
    - destruct (NO g Ne). apply spoke_sym. auto.
    - destruct (spoke_ne _ _ G).
  Qed.
  Lemma stays : forall g p q, g <> e -> spoke t p q g -> m p <> m q.
  Proof using CO.
    intros g p q Ne G E. apply moved_eq in E. destruct E as [->|[[-> ->]|[-> ->]]]. apply (spoke_ne _ _ G). apply Ne. apply (spoke_uniq _ _ _ _ G (co_edge _ _ _ _ CO)). apply Ne. apply (spoke_uniq _ _ _ _ (spoke_sym _ _ _ G) (co_edge _ _ _ _ CO)).
  Qed.
End Drawn.

(** On a model edge or face. *)
Definition on_model (cls : ptr -> Z * Z) (g : ptr) : bool := (fst (cls g) =? 1) || (fst (cls g) =? 2).
(** The code can tell whether the edge is on the outside. *)
Definition known (cls : ptr -> Z * Z) (ghost : ptr -> bool) (t : topo) (e g : ptr) : Prop :=
  fst (cls g) <> 4 \/ ghost g = true \/ exists f b, face_is t f b /\ In g (map fst b) /\ ~ In e (map fst b).

(** The collapse of an edge of a surface.  The triangles at [e] are gone, pairs of
    edges that now join the same vertices have been made one, [vkeep] is where [vdel]
    was, and nothing else has changed. *)
Theorem C45_collapse : forall cls gid ghost t a e vkin flag vdel vkeep, reach t a -> choose cls gid t e vkin flag = Ok (Some (vdel, vkeep)) -> collapsible t e vdel vkeep ->
  (forall g h w, spoke t vdel w g -> spoke t vkeep w h -> known cls ghost t e g /\ known cls ghost t e h /\ (flag = true -> cls g = cls h)) ->
  exists t' tris ps, ME_Collapse cls gid ghost t e vkin flag = Ok (t', Some (vkeep, tris ++ map fst ps ++ [e; vdel], (vdel, vkeep) :: ps)) /\
    lists tris (fun f => exists b, face_is t f b /\ In e (map fst b)) /\
    (** the merged pairs *)
    NoDup (map fst ps) /\
    (forall g h, In (g, h) ps -> exists w, w <> vdel /\ w <> vkeep /\ ((spoke t vdel w g /\ spoke t vkeep w h) \/ (spoke t vkeep w g /\ spoke t vdel w h))) /\
    (forall g h w, spoke t vdel w g -> spoke t vkeep w h -> (In (g, h) ps /\ ~ In (h, g) ps) \/ (In (h, g) ps /\ ~ In (g, h) ps)) /\
    (forall g h, In (g, h) ps -> fst (cls g) <> 4 -> fst (cls h) <> 4 -> (on_model cls h = on_model cls g /\ gid h <= gid g) \/ (on_model cls h = true /\ on_model cls g = false)) /\
    (** vertices *)
    (forall v, v <> vdel -> option_map v_live (tvs t' v) = option_map v_live (tvs t v)) /\ vert_is t' vdel false /\
    (** edges *)
    (forall g p q, edge_is t' g p q <-> g <> e /\ ~ In g (map fst ps) /\ exists p0 q0, edge_is t g p0 q0 /\ p = moved vdel vkeep p0 /\ q = moved vdel vkeep q0) /\
    (forall g, g = e \/ In g (map fst ps) -> exists x, tes t' g = Some x /\ e_live x = false) /\
    (** faces *)
    (forall f b vs, face_is t f b -> ~ In e (map fst b) -> loop t b vs ->
      exists b', face_is t' f b' /\ loop t' b' (map (moved vdel vkeep) vs) /\ Forall2 (fun x y => x = y \/ In (fst x, fst y) ps) b b') /\
    (forall f b', face_is t' f b' -> exists b, face_is t f b /\ ~ In e (map fst b)) /\
    (forall f, In f tris -> exists x, tfs t' f = Some x /\ f_live x = false) /\
    (forall r c, reg_is t' r c <-> reg_is t r c) /\
    unique_edges t' /\ (forall g p, ~ edge_is t' g p p) /\ mutual t' /\ sound t' /\ exists a', reach t' a'.
Proof.
  intros cls gid ghost t a e vkin flag vdel vkeep R HC CO HK. pose proof (reach_inv _ _ R) as I. pose proof (i_w _ _ I) as W.
  set (m := moved vdel vkeep). pose proof (dk t e vdel vkeep CO) as DK. destruct (co_nn _ _ _ _ CO) as [NV NK].
  assert (SP : forall x p q, edge_is t x p q -> spoke t p q x) by (intros; left; auto).
  assert (LVE : forall p q g, spoke t p q g -> p <> NULL -> live_v a p). { intros p q g [H|H] N; apply (edge_is_iff _ _ _ _ _ I) in H; destruct (w_ends _ W _ _ _ H) as [A B]; tauto. }
  pose proof (LVE _ _ _ (co_edge _ _ _ _ CO) NV) as LD. pose proof (LVE _ _ _ (spoke_sym _ _ _ _ (co_edge _ _ _ _ CO)) NK) as LK.
  assert (He : exists p q, a_e a e = Some (true, (p, q)) /\ (p = vdel /\ q = vkeep \/ p = vkeep /\ q = vdel)). { destruct (co_edge _ _ _ _ CO) as [H|H]; apply (edge_is_iff _ _ _ _ _ I) in H; eauto 6. }
  destruct He as (ep & eq & He & Hepq).
  destruct (C26_edge_faces t a e R ltac:(congruence)) as (ef & Eef & Aef). destruct (C26_edge_regions t a e R ltac:(congruence)) as (er & Eer & Aer).
  assert (er = None). { destruct er as [[|r l]|]; auto. destruct Aer as [X _]; congruence. exfalso. destruct Aer as (_ & _ & X). destruct (proj1 (X r) (or_introl eq_refl)) as (f & d & (b & Hb & Hi) & (c & Hc & Hj)). apply (face_is_iff _ _ _ _ I) in Hb. apply (reg_is_iff _ _ _ _ I) in Hc. apply (co_free _ _ _ _ CO f b r c Hb Hi Hc). apply in_map_iff. exists (f, d). auto. } subst er.
  set (tris := match ef with Some l => l | None => [] end). assert (LT : lists tris (fun f => has_edge a f e)). { unfold tris. destruct ef as [l|]. exact (proj2 Aef). split. constructor. intros x. split; [intros []|]. intros Hx. destruct (Aef x Hx). }
  destruct LT as [NT HT].
  destruct (del_tris_ok tris t a [] R NT) as (t1 & a1 & E1 & R1 & V1 & A1 & G1 & F1 & F1').
  { intros f Hf. apply HT in Hf. destruct Hf as (b & Hb & Hi). exists b. split; auto. apply (face_is_iff _ _ _ _ I) in Hb. apply (co_tri _ _ _ _ CO f b); auto. }
  { intros f r d Hf (c & Hc & Hj). apply HT in Hf. destruct Hf as (b & Hb & Hi). apply (face_is_iff _ _ _ _ I) in Hb. apply (reg_is_iff _ _ _ _ I) in Hc. apply (co_free _ _ _ _ CO f b r c Hb Hi Hc). apply in_map_iff. exists (f, d). auto. }
  cbn [app] in E1. pose proof (reach_inv _ _ R1) as I1.
  destruct (C26_vertex_edges t1 a1 vdel R1) as (vo & Evo & Avo). { rewrite V1. unfold live_v in LD. congruence. }
  assert (EE : is_end a1 e vdel). { exists ep, eq. rewrite A1. split; auto. destruct Hepq as [[-> ->]|[-> ->]]; auto. }
  destruct vo as [vl|]; [|destruct (Avo e EE)]. destruct Avo as (_ & NVl & HVl).
  destruct (replace_vertex_edges vkeep vdel ltac:(congruence) NV vl t1 a1 R1) as (t3 & a3 & E3 & R3 & V3 & F3 & G3 & _ & A3); auto.
  { unfold live_v. rewrite V1. auto. } { intros g Hg. apply HVl. auto. } { intros g Hg. rewrite A1 in Hg. apply (edge_is_iff _ _ _ _ _ I) in Hg. apply (co_ends _ _ _ _ CO g vdel Hg). }
  { intros g p _ Hg. rewrite A1 in Hg. apply (edge_is_iff _ _ _ _ _ I) in Hg. apply (co_ends _ _ _ _ CO g p Hg). }
  pose proof (reach_inv _ _ R3) as I3.
  assert (ED : forall g p q, edge_is t3 g p q <-> exists p0 q0, edge_is t g p0 q0 /\ p = m p0 /\ q = m q0).
  { intros g p q. rewrite <- (edge_is_iff _ _ _ _ _ I3), A3, A1. destruct (mem g vl) eqn:Em.
    - destruct (a_e a g) as [[l0 [p0 q0]]|] eqn:Eg; cbn [option_map fst snd].
      + split. intros X. inversion X; subst. exists p0, q0. split; auto. apply (edge_is_iff _ _ _ _ _ I). auto.
        intros (p1 & q1 & H & -> & ->). apply (edge_is_iff _ _ _ _ _ I) in H. rewrite Eg in H. inversion H; subst. auto.
      + split; [discriminate|]. intros (p1 & q1 & H & _). apply (edge_is_iff _ _ _ _ _ I) in H. congruence.
    - assert (NE : ~ is_end a1 g vdel). { rewrite <- HVl, <- mem_In, Em. discriminate. }
      assert (MV : forall p0 q0, a_e a g = Some (true, (p0, q0)) -> m p0 = p0 /\ m q0 = q0). { intros p0 q0 H. split; apply moved_o; intros ->; apply NE; [exists vdel, q0|exists p0, vdel]; rewrite A1; auto. }
      split. intros H. exists p, q. split. apply (edge_is_iff _ _ _ _ _ I). auto. destruct (MV _ _ H) as [-> ->]. auto.
      intros (p1 & q1 & H & -> & ->). apply (edge_is_iff _ _ _ _ _ I) in H. destruct (MV _ _ H) as [-> ->]. auto. }
  assert (FA : forall f b, face_is t3 f b <-> face_is t f b /\ ~ In e (map fst b)).
  { intros f b. rewrite <- (face_is_iff _ _ _ _ I3), <- (face_is_iff _ _ _ _ I), F3. destruct (in_dec Z.eq_dec f tris) as [Hf|Hf].
    - destruct (F1' f Hf) as (c & Hc). rewrite Hc. split; [discriminate|]. intros [H N]. apply HT in Hf. destruct Hf as (b0 & Hb0 & Hi). rewrite H in Hb0. inversion Hb0; subst. contradiction.
    - rewrite F1 by auto. split; [|tauto]. intros H. split; auto. intros Hi. apply Hf. apply HT. exists b. auto. }
  assert (RG : forall r c, reg_is t3 r c <-> reg_is t r c). { intros r c. rewrite <- (reg_is_iff _ _ _ _ I3), <- (reg_is_iff _ _ _ _ I), G3, G1. tauto. }
  destruct (C26_vertex_edges t3 a3 vkeep R3) as (vo & Evo' & Avo'). { rewrite V3, V1. unfold live_v in LK. congruence. }
  assert (Ee3 : edge_is t3 e vkeep vkeep). { apply ED. exists ep, eq. split. apply (edge_is_iff _ _ _ _ _ I). auto. unfold m. destruct Hepq as [[-> ->]|[-> ->]]; rewrite moved_d, moved_k; auto. }
  destruct vo as [L|]. 2: { destruct (Avo' e). exists vkeep, vkeep. split; auto. apply (edge_is_iff _ _ _ _ _ I3). auto. } destruct Avo' as (_ & NL & HL).
  assert (TW : forall g h, g <> e -> g <> h -> twins t3 g h -> h <> e /\ exists w, w <> vdel /\ w <> vkeep /\ ((spoke t vdel w g /\ spoke t vkeep w h) \/ (spoke t vkeep w g /\ spoke t vdel w h))).
  { intros g h Ng Nh (p & q & G & H). apply ED in G. destruct G as (p0 & q0 & G & -> & ->). destruct H as [H|H]; apply ED in H; destruct H as (p1 & q1 & H & Ha & Hb).
    apply (meet t e vdel vkeep CO g h p0 q0 p1 q1); auto. apply (meet t e vdel vkeep CO g h p0 q0 q1 p1); auto. apply spoke_sym; auto. }
  assert (TWk : forall g h w, spoke t vdel w g -> spoke t vkeep w h -> w <> vdel /\ w <> vkeep /\ g <> e /\ h <> e /\ g <> h /\ twins t3 g h /\ In g L /\ In h L).
  { intros g h w G H. assert (W1 : w <> vdel) by (intros ->; apply (spoke_ne _ _ _ _ CO _ _ G)). assert (W2 : w <> vkeep) by (intros ->; apply (spoke_ne _ _ _ _ CO _ _ H)).
    assert (g <> e). { intros ->. destruct (spoke_fun _ _ _ _ _ _ G (co_edge _ _ _ _ CO)) as [[A B]|[A B]]; congruence. }
    assert (h <> e). { intros ->. destruct (spoke_fun _ _ _ _ _ _ H (co_edge _ _ _ _ CO)) as [[A B]|[A B]]; congruence. }
    assert (g <> h). { intros ->. destruct (spoke_fun _ _ _ _ _ _ G H) as [[A B]|[A B]]; congruence. }
    assert (G3' : spoke t3 vkeep w g). { destruct G as [G|G]; [left|right]; apply ED; eexists; eexists; (split; [exact G|]); unfold m; rewrite moved_d, moved_o; auto. }
    assert (H3' : spoke t3 vkeep w h). { destruct H as [H|H]; [left|right]; apply ED; eexists; eexists; (split; [exact H|]); unfold m; rewrite moved_k, moved_o; auto. }
    assert (IL : forall x, spoke t3 vkeep w x -> In x L). { intros x [X|X]; apply (edge_is_iff _ _ _ _ _ I3) in X; apply HL; [exists vkeep, w|exists w, vkeep]; auto. }
    split; auto. split; auto. split; auto. split; auto. split; auto. split. 2: split; auto. destruct G3' as [X|X]; [exists vkeep, w|exists w, vkeep]; split; auto. destruct H3'; auto. }
  destruct (merge_edges_ok cls gid ghost flag t3 a3 e L R3 NL) as (t4 & l4 & dels & ps & E4 & M).
  { intros g Hg. apply HL in Hg. destruct Hg as (p & q & Hg & _). exists p, q. apply (edge_is_iff _ _ _ _ _ I3). auto. }
  { intros g h Hg Ng T. split. 2: { destruct (Z.eq_dec g h) as [<-|N]; auto. apply (TW g h); auto. } apply HL in Hg. destruct Hg as (p & q & Hg & Hv). apply (edge_is_iff _ _ _ _ _ I3) in Hg. destruct T as (p' & q' & G & H). destruct (edge_fun _ _ _ _ _ _ Hg G) as [<- <-]. apply HL. destruct H as [H|H]; apply (edge_is_iff _ _ _ _ _ I3) in H; eexists; eexists; (split; [exact H|]); tauto. }
  { intros g p _ Ng H. apply ED in H. destruct H as (p0 & q0 & H & Hp & Hq). apply (stays t e vdel vkeep CO g p0 q0); auto. fold m. congruence. }
  { intros g h k Hg Ng Nh Nk T1 T2. destruct (TW g h Ng Nh T1) as (_ & w & W1 & W2 & W3). destruct (TW g k Ng Nk T2) as (_ & w' & W1' & W2' & W3').
    destruct W3 as [[X1 X2]|[X1 X2]], W3' as [[Y1 Y2]|[Y1 Y2]]; destruct (spoke_fun _ _ _ _ _ _ X1 Y1) as [[Z1 Z2]|[Z1 Z2]]; try congruence; subst w'; apply (spoke_uniq _ _ _ _ CO _ _ _ _ X2 Y2). }
  { intros f b g h HgL Ng Hb Hg Hh N T. apply FA in Hb. destruct Hb as [Hb Ne]. destruct (TW g h Ng N T) as (_ & w & _ & _ & Hw). destruct (co_face _ _ _ _ CO f b Hb) as (vs & Hvs).
    assert (AT : forall x y z, In x (map fst b) -> spoke t y z x -> In y vs). { intros x y z Hx [X|X]; apply (loop_ends _ _ _ Hvs); eexists; eexists; eexists; (split; [exact Hx|]); (split; [exact X|]); auto. }
    apply Ne. apply (co_both _ _ _ _ CO f b vs Hb Hvs); destruct Hw as [[X Y]|[X Y]]; eauto. }
  { intros g h _ Ng N T. destruct (TW g h Ng N T) as (_ & w & _ & _ & Hw).
    assert (K : known cls ghost t e g). { destruct Hw as [[X Y]|[X Y]]. apply (HK g h w X Y). apply (HK h g w Y X). } destruct K as [K|[K|(f & b & Hb & Hi & Ne)]]; auto. right. right. exists f, b. split; auto. apply FA. auto. }
  { intros g h Hf _ Ng T. destruct (Z.eq_dec g h) as [<-|N]; auto. destruct (TW g h Ng N T) as (_ & w & _ & _ & Hw). destruct Hw as [[X Y]|[X Y]]. apply (HK g h w X Y). auto. symmetry. apply (HK h g w Y X). auto. }
  destruct (ms_a _ _ _ _ _ _ _ _ _ _ _ M) as (a4 & R4). pose proof (reach_inv _ _ R4) as I4. pose proof (ms_d _ _ _ _ _ _ _ _ _ _ _ M) as DD.
  pose proof (ms_p _ _ _ _ _ _ _ _ _ _ _ M) as MP. pose proof (ms_e _ _ _ _ _ _ _ _ _ _ _ M) as ME. pose proof (ms_f _ _ _ _ _ _ _ _ _ _ _ M) as MF. pose proof (ms_f' _ _ _ _ _ _ _ _ _ _ _ M) as MF'.
  assert (PS : forall g h, In (g, h) ps -> exists w, w <> vdel /\ w <> vkeep /\ ((spoke t vdel w g /\ spoke t vkeep w h) \/ (spoke t vkeep w g /\ spoke t vdel w h))).
  { intros g h H. destruct (MP _ _ H) as (_ & _ & P3 & _ & P5 & P6 & _). apply (TW g h); auto. apply twins_sym. auto. }
  (* loops of the faces that stay *)
  assert (CR : forall b b', Forall2 (img t3 ps) b b' -> ~ In e (map fst b) -> forall u vs w, corners t u b vs w -> corners t4 (m u) b' (map m vs) (m w)).
  { intros b b' F. induction F as [|[g d] [h d'] b b' U F IH]; intros Ne u vs w H; cbn [corners] in *. destruct H as [-> ->]. auto.
    destruct H as (p & q & vs' & Hg & Hpq & Hs & -> & H). assert (Ng : g <> e) by (intros ->; apply Ne; cbn; auto). assert (Ne' : ~ In e (map fst b)) by (intros X; apply Ne; cbn; auto).
    pose proof (stays t e vdel vkeep CO g p q Ng (SP _ _ _ Hg)) as ST. fold m in ST.
    assert (GO : goes t3 (g, d) (m (if d then p else q)) (m (if d then q else p))). { unfold goes. cbn [fst snd]. apply ED. exists p, q. split; auto. destruct d; auto. }
    assert (GO' : goes t3 (h, d') (m (if d then p else q)) (m (if d then q else p)) /\ ~ In h dels). { destruct U as [[X U]|[U1 U2]]. injection X as <- <-. rewrite DD. auto. split; auto. cbn [fst] in U1. apply (MP _ _ U1). }
    destruct GO' as [GO' Nd]. unfold goes in GO'. cbn [fst snd] in GO'. eexists. eexists. exists (map m vs'). split. apply ME. split; [exact GO'|exact Nd].
    split. destruct d, d'; congruence. split. subst u. destruct d, d'; auto. split. cbn [map]. auto. replace (if d' then _ else _) with (m (if d then q else p)) by (destruct d'; auto). apply IH; auto. }
  assert (LP : forall b b' vs, Forall2 (img t3 ps) b b' -> ~ In e (map fst b) -> loop t b vs -> loop t4 b' (map m vs)). { intros b b' vs F N (u & H). exists (m u). apply (CR b b'); auto. }
  destruct (C26_vertex_faces t4 a4 vkeep R4) as (fo & Efo & Afo). { pose proof (ms_v _ _ _ _ _ _ _ _ _ _ _ M vkeep) as X. rewrite (i_v _ _ I4), (i_v _ _ I3), V3, V1 in X. unfold live_v in LK. congruence. }
  set (vf := match fo with Some l => l | None => [] end).
  assert (HVF : forall f, In f vf -> exists b', face_is t4 f b'). { intros f Hf. unfold vf in Hf. destruct fo as [l|]; [|destruct Hf]. apply Afo in Hf. destruct Hf as (g & _ & b' & Hb' & _). exists b'. apply (face_is_iff _ _ _ _ I4). auto. }
  assert (MFN : merge_faces cls gid ghost t4 flag vf = Ok (t4, vf, [], [])).
  { apply merge_faces_none with (fe := fun f => match a_f a4 f with Some (_, Some b) => map fst b | _ => [] end).
    - intros f Hf. destruct (HVF f Hf) as (b' & Hb'). apply (face_is_iff _ _ _ _ I4) in Hb'. rewrite Hb'. split. pose proof (face_edges_query t4 a4 f b' true I4 Hb') as X. exact X. apply (w_fnd _ (i_w _ _ I4) _ _ _ Hb').
    - intros f f' Hf Hf' HH. destruct (HVF f Hf) as (b1 & Hb1). destruct (HVF f' Hf') as (b2 & Hb2).
      destruct (MF' f b1 Hb1) as (c1 & Hc1). destruct (MF' f' b2 Hb2) as (c2 & Hc2). destruct (MF f c1 Hc1) as (b1' & Hb1' & FF1). destruct (MF f' c2 Hc2) as (b2' & Hb2' & FF2).
      apply (face_is_iff _ _ _ _ I4) in Hb1, Hb2, Hb1', Hb2'. rewrite Hb1, Hb2 in HH. assert (b1' = b1) by congruence. assert (b2' = b2) by congruence. subst b1' b2'.
      apply FA in Hc1, Hc2. destruct Hc1 as [Hc1 N1], Hc2 as [Hc2 N2]. destruct (co_face _ _ _ _ CO f c1 Hc1) as (vs1 & L1). destruct (co_face _ _ _ _ CO f' c2 Hc2) as (vs2 & L2).
      apply (co_apart _ _ _ _ CO f f' c1 c2 vs1 vs2 Hc1 Hc2 L1 L2 N1 N2). fold m. intros v. rewrite (loop_ends _ _ _ (LP _ _ _ FF1 N1 L1) v), (loop_ends _ _ _ (LP _ _ _ FF2 N2 L2) v).
      split; intros (g & p & q & A & B & C); exists g, p, q; (split; [apply HH; auto|auto]). }
  destruct (reach_step t4 a4 (TDelE e true) R4) as (t5 & E5 & R5).
  { assert (Ee4 : edge_is t4 e vkeep vkeep). { apply ME. split; auto. rewrite DD. intros X. apply in_map_iff in X. destruct X as ([x y] & Ex & X). cbn in Ex. subst x. apply MP in X. tauto. } apply (edge_is_iff _ _ _ _ _ I4) in Ee4.
    cbn [tpre]. split. congruence. intros _ f (b' & Hb' & Hi). apply (face_is_iff _ _ _ _ I4) in Hb'. destruct (MF' f b' Hb') as (c & Hc). destruct (MF f c Hc) as (b2 & Hb2 & FF). assert (b2 = b'). { apply (face_is_iff _ _ _ _ I4) in Hb2, Hb'. congruence. } subst b2. apply FA in Hc. destruct Hc as [_ Nc].
    clear -FF Hi Nc MP. induction FF as [|x y c b U F IH]; cbn [map fst In] in *. auto. destruct Hi as [Hi|Hi]; [|auto]. destruct U as [[-> _]|[U _]]. auto. rewrite Hi in U. apply MP in U. tauto. }
  cbn [tstep] in E5. cbn [astep] in R5. set (a5 := with_e a4 (kill (a_e a4) e true)) in *.
  assert (K5 : forall g, g <> e -> a_e a5 g = a_e a4 g). { intros g Hg. unfold a5. ra. unfold kill. apply upd_other. auto. }
  assert (D5 : exists x, a_e a5 e = Some (false, x)). { unfold a5. ra. unfold kill. rewrite upd_same. assert (X : edge_is t4 e vkeep vkeep). { apply ME. split; auto. rewrite DD. intros X. apply in_map_iff in X. destruct X as ([x y] & Ex & X). cbn in Ex. subst x. apply MP in X. tauto. } apply (edge_is_iff _ _ _ _ _ I4) in X. rewrite X. eauto. }
  assert (V4 : forall v, a_v a4 v = a_v a v). { intros v. pose proof (ms_v _ _ _ _ _ _ _ _ _ _ _ M v) as X. rewrite (i_v _ _ I4), (i_v _ _ I3), V3, V1 in X. auto. }
  assert (V5 : a_v a5 = a_v a4) by reflexivity.
  destruct (reach_step t5 a5 (TDelV vdel true) R5) as (t6 & E6 & R6).
  { cbn [tpre]. split. rewrite V5, V4. unfold live_v in LD. congruence. intros _ g (p & q & Hg & Hv). destruct (Z.eq_dec g e) as [->|Ng]. { destruct D5 as (x & D5). congruence. } rewrite K5 in Hg by auto. apply (edge_is_iff _ _ _ _ _ I4) in Hg. apply ME in Hg. destruct Hg as [Hg _]. apply ED in Hg. destruct Hg as (p0 & q0 & _ & -> & ->).
    assert (MD : forall z, m z <> vdel). { intros z. unfold m, moved. destruct (Z.eqb_spec z vdel); congruence. } destruct Hv as [Hv|Hv]; apply MD in Hv; auto. }
  cbn [tstep] in E6. cbn [astep] in R6. match type of R6 with reach _ ?A => set (a6 := A) in * end. pose proof (reach_inv _ _ R6) as I6.
  assert (EDG : forall g p q, edge_is t6 g p q <-> g <> e /\ ~ In g (map fst ps) /\ exists p0 q0, edge_is t g p0 q0 /\ p = m p0 /\ q = m q0).
  { intros g p q. rewrite <- (edge_is_iff _ _ _ _ _ I6). change (a_e a6) with (a_e a5). destruct (Z.eq_dec g e) as [->|Ng]. { destruct D5 as (x & D5). rewrite D5. split; [discriminate|]. intros [X _]. congruence. }
    rewrite K5 by auto. rewrite (edge_is_iff _ _ _ _ _ I4), ME, ED, DD. tauto. }
  assert (FCE : forall f b, face_is t6 f b <-> face_is t4 f b). { intros f b. rewrite <- (face_is_iff _ _ _ _ I6), <- (face_is_iff _ _ _ _ I4). reflexivity. }
  assert (PAIR : forall g h w, spoke t vdel w g -> spoke t vkeep w h -> (In (g, h) ps /\ ~ In (h, g) ps) \/ (In (h, g) ps /\ ~ In (g, h) ps)).
  { intros g h w G H. destruct (TWk g h w G H) as (W1 & W2 & Ng & Nh & Ngh & T & Lg & Lh).
    assert (B : ~ (In (g, h) ps /\ In (h, g) ps)). { intros [X Y]. destruct (MP _ _ X) as (_ & _ & _ & _ & _ & _ & Z). apply Z. rewrite DD. apply in_map_iff. exists (h, g). auto. }
    destruct (merged_all cls gid ghost t3 e L) with (t := t4) (l := l4) (dels := dels) (prs := ps) (x := g) (y := h) as [X|X]; auto; tauto || idtac.
    - intros x y Hx Nx Txy. destruct (Z.eq_dec x y) as [<-|N]; auto. destruct (TW x y Nx N Txy) as (Ny & z & _ & _ & Z). split; auto. destruct Z as [[Z1 Z2]|[Z1 Z2]]; [apply (TWk x y z)|apply (TWk y x z)]; auto.
    - intros x y k Hx Nx Nxy Nxk T1 T2. destruct (TW x y Nx Nxy T1) as (_ & w1 & Wa & Wb & Wc). destruct (TW x k Nx Nxk T2) as (_ & w' & Wa' & Wb' & Wc').
      destruct Wc as [[X1 X2]|[X1 X2]], Wc' as [[Y1 Y2]|[Y1 Y2]]; destruct (spoke_fun _ _ _ _ _ _ X1 Y1) as [[Z1 Z2]|[Z1 Z2]]; try congruence; subst w'; apply (spoke_uniq _ _ _ _ CO _ _ _ _ X2 Y2). }
  exists t6, tris, ps. split.
  { unfold ME_Collapse. rewrite HC. cbn [bind]. rewrite Eef, Eer. cbn [bind]. fold tris. unfold del_tets. cbn [foldM bind]. unfold del_tris. rewrite E1. cbn [bind]. rewrite Evo. cbn [bind nn]. rewrite E3. cbn [bind].
    rewrite (shrink_none t3 a3 e vkeep tris I3). 2: { intros f Hf. rewrite F3. auto. } cbn [bind]. unfold del_flat. cbn [foldM bind]. rewrite Evo'. cbn [bind nn]. rewrite E4. cbn [bind]. rewrite Efo. cbn [bind]. fold vf. rewrite MFN. cbn [bind]. rewrite E5. cbn [bind]. rewrite E6. cbn [bind foldM]. rewrite DD. cbn [app]. rewrite app_nil_r. auto. }
  split. { split; auto. intros f. rewrite HT. split; intros (b & Hb & Hi); exists b; (split; [apply (face_is_iff _ _ _ _ I); auto|auto]). }
  split. { rewrite <- DD. apply (ms_n _ _ _ _ _ _ _ _ _ _ _ M). } split; [exact PS|]. split; [exact PAIR|].
  split. { intros g h H N1 N2. pose proof (ms_q _ _ _ _ _ _ _ _ _ _ _ M _ _ H) as Q. unfold dec in Q. assert (OU : forall x, fst (cls x) <> 4 -> out0 cls ghost t3 x = on_model cls x). { intros x Nx. unfold out0, edge_outside, on_model. destruct ((fst (cls x) =? 1) || (fst (cls x) =? 2)); auto. replace (fst (cls x) =? 4) with false by lia. auto. }
    rewrite !OU in Q by auto. destruct (on_model cls h), (on_model cls g); cbn in Q; auto; try discriminate; left; split; auto; lia. }
  split. { intros v Hv. rewrite (i_v _ _ I6), (i_v _ _ I). unfold a6. ra. rewrite upd_other by auto. rewrite V5, V4. auto. }
  split. { assert (X : a_v a6 vdel = Some false). { unfold a6. ra. rewrite upd_same, V5, V4. unfold live_v in LD. rewrite LD. auto. } rewrite <- (i_v _ _ I6) in X. exact X. }
  split; [exact EDG|]. split.
  { assert (DE : forall g, (exists x, a_e a6 g = Some (false, x)) -> exists x, tes t6 g = Some x /\ e_live x = false). { intros g (x & X). rewrite <- (i_e _ _ I6) in X. destruct (tes t6 g) as [z|]; [|discriminate]. cbn in X. exists z. split; auto. unfold eview in X. congruence. }
    intros g [->|Hg]; apply DE. exact D5. rewrite <- DD in Hg. assert (Ng : g <> e). { rewrite DD in Hg. intros ->. apply in_map_iff in Hg. destruct Hg as ([x y] & Ex & X). cbn in Ex. subst x. apply MP in X. tauto. } change (a_e a6) with (a_e a5). rewrite K5 by auto. destruct (ms_x _ _ _ _ _ _ _ _ _ _ _ M) as (X & _). destruct (X g Hg) as (x & Ex & Lx). rewrite <- (i_e _ _ I4), Ex. cbn. unfold eview. rewrite Lx. eauto. }
  split. { intros f b vs Hb N HV. destruct (MF f b (proj2 (FA f b) (conj Hb N))) as (b' & Hb' & FF). exists b'. split. apply FCE. auto. split.
    - destruct (LP b b' vs FF N HV) as (u & X). exists u. assert (Ne' : ~ In e (map fst b')). { clear -FF N MP. induction FF as [|x y c b U F IH]; cbn [map fst In] in *. auto. intros [Hi|Hi]. destruct U as [[-> _]|[U _]]. auto. rewrite Hi in U. apply MP in U. tauto. apply IH; auto. }
      clear -X Ne' K5 I4 I6. revert X. generalize u at 2 4. intros u'. revert u. generalize (map m vs). revert Ne'. induction b' as [|[g d] b' IH]; intros Ne' vs' u X; cbn [corners] in *. auto. destruct X as (p & q & vs2 & X1 & X2 & X3 & X4 & X5). exists p, q, vs2. split. 2: { split; auto. split; auto. split; auto. apply IH; auto. intros Y. apply Ne'. cbn; auto. }
      apply (edge_is_iff _ _ _ _ _ I6). change (a_e a6) with (a_e a5). rewrite K5 by (intros ->; apply Ne'; cbn; auto). apply (edge_is_iff _ _ _ _ _ I4). auto.
    - clear -FF. induction FF as [|x y c b U F IH]; constructor; auto. destruct U as [[-> _]|[U _]]; auto. }
  split. { intros f b' Hb'. apply FCE in Hb'. destruct (MF' f b' Hb') as (c & Hc). exists c. apply FA. auto. }
  split. { intros f Hf. destruct (ms_x _ _ _ _ _ _ _ _ _ _ _ M) as (_ & X & _). destruct (F1' f Hf) as (b & Hb). rewrite <- F3, <- (i_f _ _ I3) in Hb. specialize (X f). pose proof (i_f _ _ I6 f) as Y. change (a_f a6 f) with (a_f a4 f) in Y. rewrite <- (i_f _ _ I4) in Y.
    destruct (tfs t3 f) as [x3|]; [|discriminate]. destruct (tfs t4 f) as [x4|]; [|discriminate]. destruct (tfs t6 f) as [x6|]; [|discriminate]. exists x6. split; auto. cbn in *. unfold fview in *. congruence. }
  split. { intros r c. rewrite <- (reg_is_iff _ _ _ _ I6). change (a_r a6) with (a_r a4). rewrite (reg_is_iff _ _ _ _ I4). rewrite (ms_r _ _ _ _ _ _ _ _ _ _ _ M). apply RG. }
  split. { intros g h p q G H. assert (T : twins t3 g h /\ g <> e /\ ~ In g (map fst ps) /\ ~ In h (map fst ps)).
    { assert (H' : (edge_is t3 h p q \/ edge_is t3 h q p) /\ ~ In h (map fst ps)). { destruct H as [H|H]; apply EDG in H; destruct H as (_ & N & H); apply ED in H; auto. } apply EDG in G. destruct G as (N & N' & G). apply ED in G. split; [exists p, q; tauto|tauto]. }
    destruct T as (T & Ng & N1 & N2). destruct (Z.eq_dec g h) as [|N]; auto. exfalso. destruct (TW g h Ng N T) as (_ & w & _ & _ & Hw). assert (X : In (g, h) ps \/ In (h, g) ps). { destruct Hw as [[X Y]|[X Y]]. destruct (PAIR g h w X Y); tauto. destruct (PAIR h g w Y X); tauto. }
    destruct X as [X|X]; apply (in_map fst) in X; auto. }
  split. { intros g p H. apply EDG in H. destruct H as (Ng & _ & p0 & q0 & H & Hp & Hq). apply (stays t e vdel vkeep CO g p0 q0 Ng). auto. fold m. congruence. }
  split. eapply inv_mutual; eauto. split. eapply inv_sound; eauto. eauto.
Qed.
Print Assumptions C45_collapse.

(** *** Concrete meshes *)

(** Surfaces from the vertex loops of their faces. *)
Definition seen := list (ptr * ptr * ptr).
Fixpoint look (p q : ptr) (s : seen) : option (ptr * bool) :=
  match s with [] => None | (a, b, e) :: s' => if (a =? p) && (b =? q) then Some (e, true) else if (a =? q) && (b =? p) then Some (e, false) else look p q s' end.
Definition side1 (st : Z * seen * list top * list (ptr * bool)) (pq : ptr * ptr) :=
  let '(n, s, ops, b) := st in let (p, q) := pq in
  match look p q s with Some x => (n, s, ops, b ++ [x]) | None => (n + 1, s ++ [(p, q, n)], ops ++ [TNewE; TSetVertex n false p; TSetVertex n true q], b ++ [(n, true)]) end.
Definition face1 (st : Z * seen * list top) (vs : list ptr) :=
  let '(n, s, ops) := st in
  let '(n, s, ops, b) := fold_left side1 (combine vs (tl vs ++ firstn 1 vs)) (n, s, ops, []) in
  (n + 1, s, ops ++ [TNewF; TSetEdges n b]).
Definition surface (nv : nat) (loops : list (list ptr)) : list top := snd (fold_left face1 loops (Z.of_nat nv + 1, [], repeat TNewV nv)).

(** Boolean check of [collapsible] for meshes without regions. *)
Definition faces_of (a : amesh) : list (ptr * list (ptr * bool)) := flat_map (fun f => match a_f a f with Some (true, Some b) => [(f, b)] | _ => [] end) (zrange 1 (a_next a)).
Definition subset (x y : list ptr) : bool := forallb (fun v => mem v y) x.
Definition collb (a : amesh) (e vdel vkeep : ptr) : bool :=
  match a_e a e with Some (true, (p, q)) => (p =? vdel) && (q =? vkeep) || (p =? vkeep) && (q =? vdel) | _ => false end && negb (vdel =? 0) && negb (vkeep =? 0) &&
  forallb (fun g => match a_e a g with Some (true, (p, q)) => negb (p =? q) | _ => true end) (zrange 1 (a_next a)) &&
  forallb (fun x => let b := snd x in let vs := map (vat a) b in walkb a (vat a (hd dflt b)) b (vat a (hd dflt b)) && (negb (mem e (map fst b)) || (length b =? 3)%nat) && (negb (mem vdel vs && mem vkeep vs) || mem e (map fst b))) (faces_of a) &&
  forallb (fun x => forallb (fun y => let m := map (moved vdel vkeep) in let vx := m (map (vat a) (snd x)) in let vy := m (map (vat a) (snd y)) in
    (fst x =? fst y) || mem e (map fst (snd x)) || mem e (map fst (snd y)) || negb (subset vx vy && subset vy vx)) (faces_of a)) (faces_of a).
Lemma coll_ok : forall t a e vdel vkeep, reach t a -> (forall r c, ~ reg_is t r c) -> unique_edges t -> collb a e vdel vkeep = true -> collapsible t e vdel vkeep.
Proof.
  intros t a e vdel vkeep R NR UN H. pose proof (reach_inv _ _ R) as I. unfold collb in H. rewrite !andb_true_iff in H. destruct H as [[[[[H1 H2] H3] H4] H5] H6].
  assert (FI : forall f b, face_is t f b -> In (f, b) (faces_of a)). { intros f b Hb. apply (face_is_iff _ _ _ _ I) in Hb. apply in_flat_map. exists f. split. apply zrange_In. apply (w_f _ (i_w _ _ I)). congruence. rewrite Hb. cbn; auto. }
  assert (LV : forall b vs, loop t b vs -> vs = map (vat a) b). { intros b vs (u & Hu). apply (corners_iff _ _ _ _ _ _ I) in Hu. tauto. }
  rewrite forallb_forall in H4, H5, H6. constructor.
  - destruct (a_e a e) as [[[] [p q]]|] eqn:E; try discriminate. apply (edge_is_iff _ _ _ _ _ I) in E. apply orb_true_iff in H1. destruct H1 as [X|X]; apply andb_true_iff in X; destruct X as [X Y]; apply Z.eqb_eq in X, Y; subst; [left|right]; auto.
  - unfold NULL. split; lia.
  - intros g p Hg. apply (edge_is_iff _ _ _ _ _ I) in Hg. specialize (H4 g). rewrite Hg in H4. rewrite Z.eqb_refl in H4. cbn in H4. discriminate H4. apply zrange_In. apply (w_e _ (i_w _ _ I)). congruence.
  - exact UN.
  - intros f b Hb. specialize (H5 _ (FI f b Hb)). cbn [snd] in H5. cbv zeta in H5. rewrite !andb_true_iff in H5. destruct H5 as [[X _] _]. eexists. apply (loop_dec t a b _ R X).
  - intros f b Hb Hi. specialize (H5 _ (FI f b Hb)). cbn [snd] in H5. cbv zeta in H5. rewrite !andb_true_iff in H5. destruct H5 as [[_ X] _]. apply mem_In in Hi. rewrite Hi in X. cbn in X. apply Nat.eqb_eq. auto.
  - intros f b r c _ _ Hr. destruct (NR r c Hr).
  - intros f b vs Hb Hl Hd Hk. specialize (H5 _ (FI f b Hb)). cbn [snd] in H5. cbv zeta in H5. rewrite !andb_true_iff in H5. destruct H5 as [_ X]. rewrite (LV _ _ Hl) in Hd, Hk. apply mem_In in Hd, Hk. rewrite Hd, Hk in X. cbn in X. apply mem_In. auto.
  - intros f f' b b' vs vs' Hb Hb' Hl Hl' N N' HH. specialize (H6 _ (FI f b Hb)). rewrite forallb_forall in H6. specialize (H6 _ (FI f' b' Hb')). cbn [fst snd] in H6. cbv zeta in H6. rewrite <- (LV _ _ Hl), <- (LV _ _ Hl') in H6.
    replace (mem e (map fst b)) with false in H6 by (symmetry; apply not_true_iff_false; rewrite mem_In; auto). replace (mem e (map fst b')) with false in H6 by (symmetry; apply not_true_iff_false; rewrite mem_In; auto). rewrite !orb_false_r in H6. apply orb_true_iff in H6. destruct H6 as [H6|H6]. apply Z.eqb_eq. auto. exfalso.
    apply negb_true_iff in H6. apply not_true_iff_false in H6. apply H6. unfold subset. apply andb_true_iff. split; apply forallb_forall; intros v Hv; apply mem_In; apply HH; auto.
Qed.

(** Two vertices with their neighbours: a patch of eight triangles. *)
Definition patch : list top := surface 8 [[2; 3; 4]; [2; 4; 5]; [2; 5; 6]; [2; 6; 1]; [2; 1; 3]; [1; 6; 7]; [1; 7; 8]; [1; 8; 3]].
Definition Tp : topo := TopoProps.done (trun empty_topo patch).
Lemma Tp_reach : reach Tp (arun amesh0 patch).
Proof. apply made_reach. vm_compute. reflexivity. Qed.
Lemma Tp_plain : unique_edges Tp /\ forall r c, ~ reg_is Tp r c.
Proof. split. apply (unique_ok _ _ Tp_reach). vm_compute. reflexivity. apply (no_regs Tp _ Tp_reach). vm_compute. reflexivity. Qed.
Lemma Tp_coll : forall e d k, collb (arun amesh0 patch) e d k = true -> collapsible Tp e d k.
Proof. intros e d k H. apply (coll_ok _ _ _ _ _ Tp_reach). apply Tp_plain. apply Tp_plain. auto. Qed.

Example C45_collapse_ex : exists a, reach Tp a /\ choose (fun _ => (2, 1)) (fun p => p) Tp 20 NULL true = Ok (Some (2, 1)) /\ collapsible Tp 20 2 1 /\
  (forall g h w, spoke Tp 2 w g -> spoke Tp 1 w h -> known (fun _ => (2, 1)) (fun _ => false) Tp 20 g /\ known (fun _ => (2, 1)) (fun _ => false) Tp 20 h /\ (true = true -> (2, 1) = (2, 1))) /\
  okt (ME_Collapse (fun _ => (2, 1)) (fun p => p) (fun _ => false) Tp 20 NULL true) (fun x => snd x = Some (1, [21; 23; 22; 19; 20; 2], [(2, 1); (22, 9); (19, 17)]) /\ MF_Vertices (fst x) 15 1 NULL = Ok [1; 4; 5] /\ MF_Edges (fst x) 31 1 NULL = Ok [28; 30; 9]).
Proof.
  eexists. split. exact Tp_reach. split. vm_compute. reflexivity. split. apply Tp_coll. vm_compute. reflexivity. split. { intros g h w _ _. split. left. discriminate. split. left. discriminate. auto. }
  vm_compute. auto.
Qed.

(** ** Which vertex goes *)

(** When the model is respected: the kept vertex lies on a model entity of lower
    dimension, or on the same one and has the smaller global ID; the collapse is
    refused for different entities of the same dimension, or when the vertex asked
    for has the higher dimension. *)
Theorem C45_choice : forall cls gid ghost t e p q vkin, edge_is t e p q -> p <> q -> vkin = NULL \/ vkin = p \/ vkin = q ->
  exists o, choose cls gid t e vkin true = Ok o /\
  match o with
  | None => (fst (cls p) = fst (cls q) /\ snd (cls p) <> snd (cls q) \/ (vkin <> NULL /\ exists w, spoke t w vkin e /\ fst (cls w) < fst (cls vkin))) /\ ME_Collapse cls gid ghost t e vkin true = Ok (t, None)
  | Some (vdel, vkeep) => spoke t vdel vkeep e /\ (fst (cls vkeep) < fst (cls vdel) /\ (vkin = NULL \/ vkin = vkeep) \/ cls vkeep = cls vdel /\ gid vkeep <= gid vdel)
  end.
Proof.
  intros cls gid ghost t e p q vkin He Npq Hk. destruct (get_edge _ _ _ _ He) as [G0 G1]. assert (OP : forall v, ME_OppVertex t e v = Ok (if p =? v then q else p)). { intros v. destruct He as (x & Ex & _ & <- & <-). unfold ME_OppVertex, gete. rewrite Ex. auto. }
  assert (ST : exists d k, (if vkin =? NULL then v0 <- ME_Vertex t e 0 ;; v1 <- ME_Vertex t e 1 ;; Ok (v0, v1) else v <- ME_OppVertex t e vkin ;; Ok (v, vkin)) = Ok (d, k) /\ spoke t d k e /\ (d = p /\ k = q \/ d = q /\ k = p) /\ (vkin = NULL \/ vkin = k)).
  { destruct (Z.eqb_spec vkin NULL) as [E|E]. exists p, q. rewrite G0, G1. cbn [bind]. split; auto. split. left; auto. auto. rewrite OP. cbn [bind]. destruct Hk as [|[->| ->]]; [contradiction| |].
    rewrite Z.eqb_refl. exists q, p. split; auto. split. right; auto. auto. rewrite (proj2 (Z.eqb_neq p q) Npq). exists p, q. split; auto. split. left; auto. auto. }
  destruct ST as (d & k & ST & HS & Hdk & HV).
  assert (CH : choose cls gid t e vkin true = (if fst (cls k) =? fst (cls d) then if negb (snd (cls k) =? snd (cls d)) then Ok None else Ok (Some (if gid d <? gid k then (k, d) else (d, k))) else if fst (cls d) <? fst (cls k) then if vkin =? NULL then Ok (Some (k, d)) else Ok None else Ok (Some (d, k)))). { unfold choose. rewrite ST. reflexivity. }
  assert (RF : choose cls gid t e vkin true = Ok None -> ME_Collapse cls gid ghost t e vkin true = Ok (t, None)). { intros X. unfold ME_Collapse. rewrite X. auto. }
  destruct (cls k) as [ck ik] eqn:Ek, (cls d) as [cd idd] eqn:Ed. cbn [fst snd] in CH. destruct (Z.eqb_spec ck cd) as [E1|E1].
  - destruct (Z.eqb_spec ik idd) as [E2|E2]; cbn [negb] in CH.
    + subst ck ik. destruct (Z.ltb_spec (gid d) (gid k)) as [E3|E3].
      * exists (Some (k, d)). split; auto. split. apply spoke_sym. auto. right. split. congruence. lia.
      * exists (Some (d, k)). split; auto. split. auto. right. split. congruence. lia.
    + exists None. split; auto. split; auto. left. destruct Hdk as [[<- <-]|[<- <-]]; rewrite Ek, Ed; cbn; split; congruence.
  - destruct (Z.ltb_spec cd ck) as [E2|E2].
    + destruct (Z.eqb_spec vkin NULL) as [E3|E3].
      * exists (Some (k, d)). split; auto. split. apply spoke_sym. auto. left. rewrite Ek, Ed. cbn. auto.
      * exists None. split; auto. split; auto. right. split; auto. destruct HV as [?|HV]; [contradiction|]. exists d. rewrite HV. split; auto. rewrite Ek, Ed. auto.
    + exists (Some (d, k)). split; auto. split; auto. left. rewrite Ek, Ed. cbn. split; auto. lia.
Qed.
Print Assumptions C45_choice.
Example C45_choice_ex : let cls := fun v => (if v =? 1 then 1 else 2, 1) in edge_is Tp 20 1 2 /\ choose cls (fun p => p) Tp 20 NULL true = Ok (Some (2, 1)) /\ choose cls (fun p => p) Tp 20 1 true = Ok (Some (2, 1)) /\ choose cls (fun p => p) Tp 20 2 true = Ok None.
Proof. split. apply (edge_is_iff _ _ _ _ _ (reach_inv _ _ Tp_reach)). vm_compute. reflexivity. vm_compute. auto. Qed.

(** Without the model, a vertex asked for is kept. *)
Theorem C45_choice_asked : forall cls gid t e p q, edge_is t e p q -> p <> q -> p <> NULL -> q <> NULL ->
  choose cls gid t e p false = Ok (Some (q, p)) /\ choose cls gid t e q false = Ok (Some (p, q)).
Proof.
  intros cls gid t e p q He N Np Nq. assert (OP : forall v, ME_OppVertex t e v = Ok (if p =? v then q else p)). { intros v. destruct He as (x & Ex & _ & <- & <-). unfold ME_OppVertex, gete. rewrite Ex. auto. }
  unfold choose. rewrite !OP, (proj2 (Z.eqb_neq p NULL) Np), (proj2 (Z.eqb_neq q NULL) Nq), (proj2 (Z.eqb_neq p q) N), Z.eqb_refl. cbn [bind]. auto.
Qed.
Print Assumptions C45_choice_asked.
Example C45_choice_asked_ex : edge_is Tp 9 2 3 /\ choose (fun _ => (2, 1)) (fun p => p) Tp 9 2 false = Ok (Some (3, 2)).
Proof. split. apply (edge_is_iff _ _ _ _ _ (reach_inv _ _ Tp_reach)). vm_compute. reflexivity. vm_compute. auto. Qed.

(** Neither the model nor a vertex: a vertex at the rim of a surface is kept. *)
Definition rim (t : topo) (v : ptr) : Prop := exists w g f, spoke t v w g /\ forall f' b, face_is t f' b -> In g (map fst b) -> f' = f.
Lemma external_ok : forall t a l, reach t a -> (forall g, In g l -> a_e a g <> None /\ exists f, has_edge a f g) ->
  exists x, external t l = Ok x /\ (x = true <-> exists g f, In g l /\ forall f', has_edge a f' g -> f' = f).
Proof.
  intros t a l R. induction l as [|g l IH]; intros H; cbn [external]. { exists false. split; auto. split. discriminate. intros (g & f & [] & _). }
  destruct (H g (or_introl eq_refl)) as (Hg & f & Hf). destruct IH as (x & Ex & Hx). { intros h Hh. apply H. cbn; auto. }
  destruct (C26_edge_faces t a g R Hg) as (o & Eo & Ao). rewrite Eo. cbn [bind]. destruct o as [fs|]; [|destruct (Ao f Hf)]. destruct Ao as (Nn & ND & HL). unfold num_nn. cbn [nn bind]. unfold ZL. destruct (Z.ltb_spec (Z.of_nat (length fs)) 2) as [E|E].
  - exists true. split; auto. split; auto. intros _. destruct fs as [|f0 [|]]; [congruence| |cbn [length] in E; lia]. exists g, f0. split. cbn; auto. intros f' Hf'. apply HL in Hf'. destruct Hf' as [<-|[]]. auto.
  - exists x. split; auto. rewrite Hx. split; intros (h & f0 & Hh & HF). exists h, f0. split; auto. cbn; auto. destruct Hh as [<-|Hh]. 2: exists h, f0; auto. exfalso. destruct fs as [|f1 [|f2 fs]]; cbn [length] in E; try lia.
    assert (f1 = f0) by (apply HF; apply HL; cbn; auto). assert (f2 = f0) by (apply HF; apply HL; cbn; auto). subst. inversion ND as [|? ? X _]; subst. apply X. cbn; auto.
Qed.
Theorem C45_choice_rim : forall cls gid t a e p q, reach t a -> edge_is t e p q -> p <> NULL -> (forall w g, spoke t p w g -> exists f b, face_is t f b /\ In g (map fst b)) ->
  (rim t p -> choose cls gid t e NULL false = Ok (Some (q, p))) /\ (~ rim t p -> choose cls gid t e NULL false = Ok (Some (p, q))).
Proof.
  intros cls gid t a e p q R He Np HF. pose proof (reach_inv _ _ R) as I. destruct (get_edge _ _ _ _ He) as [G0 G1]. apply (edge_is_iff _ _ _ _ _ I) in He. destruct (w_ends _ (i_w _ _ I) _ _ _ He) as [[?|LV] _]; [contradiction|].
  assert (Lp : a_v a p <> None) by (unfold live_v in LV; congruence). destruct (C26_vertex_edges t a p R Lp) as (o & Eo & Ao). assert (EE : is_end a e p) by (exists p, q; auto). destruct o as [l|]; [|destruct (Ao e EE)]. destruct Ao as (_ & _ & HL).
  assert (IS : forall g, is_end a g p <-> exists w, spoke t p w g). { intros g. split. intros (x & y & Hg & [->| ->]); apply (edge_is_iff _ _ _ _ _ I) in Hg; eexists; [left|right]; eauto. intros (w & [H|H]); apply (edge_is_iff _ _ _ _ _ I) in H; [exists p, w|exists w, p]; auto. }
  destruct (external_ok t a l R) as (x & Ex & Hx). { intros g Hg. apply HL in Hg. split. destruct Hg as (? & ? & Hg & _). congruence. apply IS in Hg. destruct Hg as (w & Hw). destruct (HF w g Hw) as (f & b & Hb & Hi). exists f, b. split; auto. apply (face_is_iff _ _ _ _ I). auto. }
  destruct (C26_vertex_faces t a p R Lp) as (fo & Efo & Afo). assert (VF : exists fl, fo = Some fl). { destruct fo; eauto. exfalso. destruct (HF q e) as (f & b & Hb & Hi). left. apply (edge_is_iff _ _ _ _ _ I). auto. apply (Afo f). exists e. split; auto. exists b. split; auto. apply (face_is_iff _ _ _ _ I). auto. } destruct VF as (fl & ->).
  assert (RM : x = true <-> rim t p). { rewrite Hx. split.
    - intros (g & f & Hg & H). apply HL, IS in Hg. destruct Hg as (w & Hw). exists w, g, f. split; auto. intros f' b Hb Hi. apply H. exists b. split; auto. apply (face_is_iff _ _ _ _ I). auto.
    - intros (w & g & f & Hw & H). exists g, f. split. apply HL, IS. eauto. intros f' (b & Hb & Hi). apply (H f' b); auto. apply (face_is_iff _ _ _ _ I). auto. }
  assert (CH : choose cls gid t e NULL false = Ok (Some (if x then (q, p) else (p, q)))). { unfold choose. rewrite Z.eqb_refl, G0, G1. cbn [bind]. rewrite Eo. cbn [bind nn]. rewrite Ex. cbn [bind]. destruct x; cbn [bind]. auto. unfold external_3d. rewrite Efo. auto. }
  split; intros H. apply RM in H. rewrite H in CH. auto. destruct x; auto. destruct H. apply RM. auto.
Qed.
Print Assumptions C45_choice_rim.
Lemma all_used : forall t a, reach t a -> forallb (fun g => match a_e a g with Some (true, _) => existsb (fun x => mem g (map fst (snd x))) (faces_of a) | _ => true end) (zrange 1 (a_next a)) = true ->
  forall p w g, spoke t p w g -> exists f b, face_is t f b /\ In g (map fst b).
Proof.
  intros t a R G p w g H. pose proof (reach_inv _ _ R) as I. assert (X : exists x, a_e a g = Some (true, x)). { destruct H as [H|H]; apply (edge_is_iff _ _ _ _ _ I) in H; eauto. } destruct X as (x & X). rewrite forallb_forall in G. specialize (G g). rewrite X in G. rewrite existsb_exists in G. destruct G as ([f b] & Hb & Hi). apply zrange_In. apply (w_e _ (i_w _ _ I)). rewrite X. discriminate.
  exists f, b. split. 2: { apply mem_In. exact Hi. } unfold faces_of in Hb. apply in_flat_map in Hb. destruct Hb as (f' & _ & Hb). destruct (a_f a f') as [[[] [c|]]|] eqn:E; cbn [In] in Hb; try tauto. destruct Hb as [Hb|[]]. injection Hb as <- <-. apply (face_is_iff _ _ _ _ I). auto.
Qed.
Example C45_choice_rim_ex : exists a, reach Tp a /\ edge_is Tp 9 2 3 /\ (forall w g, spoke Tp 2 w g -> exists f b, face_is Tp f b /\ In g (map fst b)) /\ choose (fun _ => (2, 1)) (fun p => p) Tp 9 NULL false = Ok (Some (2, 3)).
Proof.
  exists (arun amesh0 patch). split. exact Tp_reach. split. apply (edge_is_iff _ _ _ _ _ (reach_inv _ _ Tp_reach)); vm_compute; reflexivity. split. 2: vm_compute; reflexivity.
  apply (all_used _ _ Tp_reach). vm_compute. reflexivity.
Qed.

(** ** What goes wrong *)

(** "The vertex that must be preserved" is the one deleted when both ends are on one
    model entity and it has the larger global ID (79-91). *)
Theorem C45_keep_refuted : exists cls gid ghost t e vkin t' dels prs k, (exists a, reach t a) /\ collapsible t e k vkin /\ collapsible t e vkin k /\ (forall g, cls g = cls vkin) /\
  ME_Collapse cls gid ghost t e vkin true = Ok (t', Some (k, dels, prs)) /\ k <> vkin /\ vert_is t' vkin false.
Proof.
  exists (fun _ => (2, 1)), (fun p => p), (fun _ => false), Tp, 20, 2. do 3 eexists. exists 1. split. eexists. exact Tp_reach. split. apply Tp_coll. vm_compute. reflexivity. split. apply Tp_coll. vm_compute. reflexivity. split. auto.
  split. vm_compute. reflexivity. split. lia. vm_compute. reflexivity.
Qed.
Print Assumptions C45_keep_refuted.

(** Edges without a model classification: one of a pair has lost its last face with
    the triangles and its list of faces, NULL, is read (395-398). *)
Theorem C45_unclassified_refuted : exists cls gid ghost t e vdel vkeep, (exists a, reach t a) /\ collapsible t e vdel vkeep /\ choose cls gid t e vkeep false = Ok (Some (vdel, vkeep)) /\
  ME_Collapse cls gid ghost t e vkeep false = Undef.
Proof.
  exists (fun _ => (4, 0)), (fun p => p), (fun _ => false), Tp, 9, 2, 3. split. eexists. exact Tp_reach. split. apply Tp_coll. vm_compute. reflexivity. split; vm_compute; reflexivity.
Qed.
Print Assumptions C45_unclassified_refuted.

(** MEs_Merge refuses edges on different model entities; the edge is reported as
    deleted and merged all the same (463-478), and both are left. *)
Theorem C45_refused_merge_refuted : exists cls gid ghost t e vdel vkeep t' dels prs g h p q, (exists a, reach t a) /\ collapsible t e vdel vkeep /\ (forall g, fst (cls g) = 2) /\
  ME_Collapse cls gid ghost t e vkeep true = Ok (t', Some (vkeep, dels, prs)) /\ In g dels /\ In (g, h) prs /\ g <> h /\ edge_is t' g p q /\ edge_is t' h p q.
Proof.
  exists (fun g => (2, if g =? 19 then 2 else 1)), (fun p => p), (fun _ => false), Tp, 20, 2, 1. do 3 eexists. exists 19, 17, 6. eexists. split. eexists. exact Tp_reach. split. apply Tp_coll. vm_compute. reflexivity. split. auto.
  split. vm_compute. reflexivity. split. cbn; auto 10. split. cbn; auto. split. lia. split. eexists; split; [vm_compute; reflexivity|]; auto. eexists; split; [vm_compute; reflexivity|]; auto.
Qed.
Print Assumptions C45_refused_merge_refuted.

(** Four tetrahedra around a vertex inside a tetrahedron. *)
Definition star : list top := surface 5 [[1; 3; 2]; [1; 2; 4]; [2; 3; 4]; [1; 4; 3]; [1; 2; 5]; [1; 3; 5]; [1; 4; 5]; [2; 3; 5]; [2; 4; 5]; [3; 4; 5]] ++
  [TNewR; TSetFaces 26 [(9, true); (20, false); (23, true); (18, true)]; TNewR; TSetFaces 27 [(12, true); (18, false); (24, false); (22, true)];
   TNewR; TSetFaces 28 [(14, true); (23, false); (25, false); (24, true)]; TNewR; TSetFaces 29 [(15, true); (22, false); (25, true); (20, true)]].
Definition Tst : topo := TopoProps.done (trun empty_topo star).
Lemma Tst_reach : reach Tst (arun amesh0 star).
Proof. apply made_reach. vm_compute. reflexivity. Qed.
Definition regs_of (a : amesh) (f : ptr) : list ptr := filter (fun r => match a_r a r with Some (true, Some c) => mem f (map fst c) | _ => false end) (zrange 1 (a_next a)).
Lemma regs_of_in : forall t a f r, reach t a -> In r (regs_of a f) <-> exists c, reg_is t r c /\ In f (map fst c).
Proof.
  intros t a f r R. pose proof (reach_inv _ _ R) as I. unfold regs_of. rewrite filter_In, zrange_In. split.
  - intros [_ H]. destruct (a_r a r) as [[[] [c|]]|] eqn:E; try discriminate. exists c. split. apply (reg_is_iff _ _ _ _ I). auto. apply mem_In. auto.
  - intros (c & Hc & Hi). apply (reg_is_iff _ _ _ _ I) in Hc. split. apply (w_r _ (i_w _ _ I)). congruence. rewrite Hc. apply mem_In. auto.
Qed.
Lemma inside_ok : forall t a w, reach t a -> forallb (fun x => negb (mem w (map (vat a) (snd x))) || match regs_of a (fst x) with [r1; r2] => negb (r1 =? r2) | _ => false end) (faces_of a) = true ->
  forall f b vs, face_is t f b -> loop t b vs -> In w vs -> exists r1 c1 r2 c2, r1 <> r2 /\ reg_is t r1 c1 /\ In f (map fst c1) /\ reg_is t r2 c2 /\ In f (map fst c2).
Proof.
  intros t a w R H f b vs Hb (u & Hu) Hw. pose proof (reach_inv _ _ R) as I. apply (corners_iff _ _ _ _ _ _ I) in Hu. destruct Hu as [_ ->]. rewrite forallb_forall in H. specialize (H (f, b)).
  assert (FI : In (f, b) (faces_of a)). { apply (face_is_iff _ _ _ _ I) in Hb. apply in_flat_map. exists f. split. apply zrange_In. apply (w_f _ (i_w _ _ I)). congruence. rewrite Hb. cbn; auto. }
  specialize (H FI). cbn [fst snd] in H. apply mem_In in Hw. rewrite Hw in H. cbn [negb orb] in H. pose proof (regs_of_in t a f) as RI. destruct (regs_of a f) as [|r1 [|r2 [|]]]; try discriminate.
  destruct (proj1 (RI r1 R)) as (c1 & A1 & B1). cbn; auto. destruct (proj1 (RI r2 R)) as (c2 & A2 & B2). cbn; auto. exists r1, c1, r2, c2. split; auto. apply negb_true_iff, Z.eqb_neq in H. auto.
Qed.
(** "We prefer to keep an external boundary vertex over an interior vertex": of a
    corner and the vertex inside the corner is deleted, as the flag that would be
    set for a face with one region is set to 0 (143). *)
Theorem C45_boundary_refuted : exists cls gid ghost t e v w f b vs r c t' dels prs, (exists a, reach t a) /\ edge_is t e v w /\
  face_is t f b /\ loop t b vs /\ In v vs /\ reg_is t r c /\ In f (map fst c) /\ (forall r' c', reg_is t r' c' -> In f (map fst c') -> r' = r) /\
  (forall f b vs, face_is t f b -> loop t b vs -> In w vs -> exists r1 c1 r2 c2, r1 <> r2 /\ reg_is t r1 c1 /\ In f (map fst c1) /\ reg_is t r2 c2 /\ In f (map fst c2)) /\
  ME_Collapse cls gid ghost t e NULL false = Ok (t', Some (w, dels, prs)) /\ vert_is t' v false.
Proof.
  set (A := arun amesh0 star). pose proof (reach_inv _ _ Tst_reach) as I. fold A in I.
  exists (fun _ => (3, 1)), (fun p => p), (fun _ => false), Tst, 16, 2, 5, 9. eexists. eexists. exists 26. do 4 eexists. split. eexists. exact Tst_reach. split. apply (edge_is_iff _ _ _ _ _ I); vm_compute; reflexivity.
  split. facts Tst_reach. split. apply (loop_dec _ _ _ 1 Tst_reach). vm_compute. reflexivity. split. vm_compute; auto. split. facts Tst_reach. split. vm_compute; auto.
  split. { intros r' c' Hr Hi. assert (X : In r' (regs_of A 9)). { apply (regs_of_in Tst A 9 r' Tst_reach). eauto. } assert (Y : regs_of A 9 = [26]) by (vm_compute; reflexivity). rewrite Y in X. destruct X as [X|[]]. symmetry. exact X. }
  split. { apply (inside_ok Tst A 5 Tst_reach). vm_compute. reflexivity. }
  split; vm_compute; reflexivity.
Qed.
Print Assumptions C45_boundary_refuted.
