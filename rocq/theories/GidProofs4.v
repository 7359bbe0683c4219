(** The assignment of global IDs, kind by kind. *)
From Coq Require Import ZArith List Lia Bool Arith ZifyBool ZifyNat Permutation Sorting.Sorted Floats.SpecFloat.
From Verif Require Import Base BaseProofs ListSpec SortModel CompareModel CompareProps MeshModel AttModel AttProps TopoModel TopoSpec TopoProofs TopoProofs2 TopoProps TopoProps2 ParModel ParProps CommModel CommProofs CommProofs2 ExchModel ExchProofs ExchProofs2 LabelModel LabelProofs GidModel GidProofs GidProofs2 GidProofs3 CoorProofs.
Import ListNotations.
Open Scope Z_scope.

(** ** The part of a rank *)
Definition f_vertex (a : amesh) (f v : ptr) : Prop := exists e, has_edge a f e /\ is_end a e v.
(** Vertices have the faces (volume meshes) or edges with faces that the boundary test
    looks at. *)
Definition hangs (a : amesh) (solid : bool) (v : ptr) : Prop :=
  if solid then exists f, v_face a v f else (exists e, is_end a e v) /\ forall e, is_end a e v -> exists f, has_edge a f e.
(** A vertex of a face with at most one region, or of an edge with at most one face. *)
Definition open_at (a : amesh) (solid : bool) (v : ptr) : Prop :=
  if solid then exists f, v_face a v f /\ forall r r', (exists d, has_face a r f d) -> (exists d, has_face a r' f d) -> r = r'
  else exists e, is_end a e v /\ forall f f', has_edge a f e -> has_edge a f' e -> f = f'.
Definition solid (x : grank) : bool := negb (ZL (g_rs x) =? 0).
Record part (x : grank) (a : amesh) : Prop := mkPart {
  part_reach : reach (g_t x) a;
  part_vs : NoDup (g_vs x) /\ forall v, In v (g_vs x) -> a_v a v <> None /\ hangs a (solid x) v;
  part_es : NoDup (g_es x) /\ forall e, In e (g_es x) -> exists v w, a_e a e = Some (true, (v, w)) /\ In v (g_vs x) /\ In w (g_vs x);
  part_es1 : forall e e' v w v' w', In e (g_es x) -> In e' (g_es x) -> a_e a e = Some (true, (v, w)) -> a_e a e' = Some (true, (v', w')) ->
    (v = v' /\ w = w') \/ (v = w' /\ w = v') -> e = e';
  part_fs : NoDup (g_fs x) /\ forall f, In f (g_fs x) -> good_face a f /\ forall v, f_vertex a f v -> In v (g_vs x);
  part_fs1 : forall f f', In f (g_fs x) -> In f' (g_fs x) -> (forall v, f_vertex a f v <-> f_vertex a f' v) -> f = f';
  part_rs : NoDup (g_rs x) }.

(** ** Vertices on the boundary *)
Lemma few : forall l P, lists l P -> (ZL l <=? 1) = true <-> forall x y, P x -> P y -> x = y.
Proof.
  intros l P (N & H). split.
  - intros L x y Hx Hy. apply H in Hx. apply H in Hy. destruct l as [|u [|w l]]; cbn in *; try tauto. intuition congruence. unfold ZL in L. cbn [length] in L. lia.
  - intros U. destruct l as [|u [|w l]]; auto. exfalso. inversion N as [|? ? N1 N2]. apply N1. left. apply U; apply H; cbn; auto.
Qed.
Lemma some_open_ok : forall g l (Q : ptr -> Prop), (forall x, In x l -> exists u, g x = Ok u /\ ((ZL u <=? 1) = true <-> Q x)) -> exists b, some_open g l = Ok b /\ (b = true <-> exists x, In x l /\ Q x).
Proof.
  intros g l Q. induction l as [|x l IH]; intros H; cbn [some_open].
  - exists false. split; auto. split; [discriminate|]. intros (y & [] & _).
  - destruct (H x) as (u & E & U). cbn; auto. rewrite E. cbn [bind]. destruct (ZL u <=? 1).
    + exists true. split; auto. split; auto. intros _. exists x. split. cbn; auto. apply U; auto.
    + destruct IH as (b & Eb & Hb). intros; apply H; cbn; auto. exists b. split; auto. rewrite Hb. split.
      * intros (y & Hy & Qy). exists y. split; auto. cbn; auto.
      * intros (y & [->|Hy] & Qy). apply U in Qy. discriminate. eauto.
Qed.
Lemma on_boundary : forall x a v, part x a -> In v (g_vs x) -> exists b,
  (if solid x then vertex_on_boundary3D (g_t x) v else vertex_on_boundary2D (g_t x) v) = Ok b /\ (b = true <-> open_at a (solid x) v).
Proof.
  intros x a v P Hv. pose proof (part_reach _ _ P) as R. destruct (part_vs _ _ P) as (_ & PV). destruct (PV v Hv) as (Lv & Hg). unfold open_at, hangs in *. destruct (solid x).
  - unfold vertex_on_boundary3D. destruct (C26_vertex_faces (g_t x) a v R Lv) as (o & Eo & Ao). rewrite Eo. cbn [bind]. destruct o as [l|]; cbn [answers] in Ao. 2: { destruct Hg as (f & Hf). destruct (Ao f Hf). } destruct Ao as (_ & _ & Al). cbn [nn bind].
    destruct (some_open_ok (MF_Regions (g_t x)) l (fun f => forall r r', (exists d, has_face a r f d) -> (exists d, has_face a r' f d) -> r = r')) as (b & Eb & Hb).
    { intros f Hf. apply Al in Hf. destruct (C26_face_regions (g_t x) a f R) as (u & Eu & Lu). destruct Hf as (e & _ & (b & Hb & _)). congruence. exists u. split; auto. apply (few u _ Lu). }
    exists b. split; auto. rewrite Hb. split; intros (f & Hf & Q); exists f; split; auto; apply Al; auto.
  - unfold vertex_on_boundary2D. destruct (C26_vertex_edges (g_t x) a v R Lv) as (o & Eo & Ao). rewrite Eo. cbn [bind]. destruct Hg as (Hg1 & Hg2). destruct o as [l|]; cbn [answers] in Ao. 2: { destruct Hg1 as (e & He). destruct (Ao e He). } destruct Ao as (_ & _ & Al). cbn [nn bind].
    destruct (some_open_ok (fun e => o <- ME_Faces (g_t x) e ;; nn o) l (fun e => forall f f', has_edge a f e -> has_edge a f' e -> f = f')) as (b & Eb & Hb).
    { intros e He. apply Al in He. destruct (C26_edge_faces (g_t x) a e R) as (u & Eu & Au). destruct He as (p & q & Hb & _). congruence. rewrite Eu. cbn [bind]. destruct u as [u|]; cbn [answers] in Au. 2: { destruct (Hg2 e He) as (f & Hf). destruct (Au f Hf). } exists u. cbn [nn]. split; auto. apply few. split; apply Au. }
    exists b. split; auto. rewrite Hb. split; intros (f & Hf & Q); exists f; split; auto; apply Al; auto.
Qed.
(** The vertices looked at by other ranks. *)
Definition bvert (x : grank) (a : amesh) (v : ptr) : Prop := In v (g_vs x) /\ (g_bd (gv x) v = true \/ open_at a (solid x) v).
Lemma boundary_verts_ok : forall x a, part x a -> exists bl es, boundary_verts x = Ok (bl, es) /\ NoDup bl /\ (forall v, In v bl <-> bvert x a v) /\
  g_id es = g_id (gv x) /\ g_pt es = g_pt (gv x) /\ g_mas es = g_mas (gv x) /\ (forall v, g_bd es v = true <-> g_bd (gv x) v = true \/ bvert x a v).
Proof.
  intros x a P. destruct (part_vs _ _ P) as (ND & _). unfold boundary_verts.
  destruct (foldM_list _ _ (fun pre s => NoDup (fst s) /\ (forall v, In v (fst s) <-> In v pre /\ bvert x a v) /\ g_id (snd s) = g_id (gv x) /\ g_pt (snd s) = g_pt (gv x) /\ g_mas (snd s) = g_mas (gv x) /\
      (forall v, g_bd (snd s) v = true <-> g_bd (gv x) v = true \/ (In v pre /\ bvert x a v)))
    (fun s v => if g_bd (snd s) v then Ok (fst s ++ [v], snd s) else b <- (if negb (ZL (g_rs x) =? 0) then vertex_on_boundary3D (g_t x) v else vertex_on_boundary2D (g_t x) v) ;; Ok (if b then (fst s ++ [v], set_bd (snd s) v) else s)) (g_vs x) ([], gv x)) as ((bl, es) & E & H).
  - split. constructor. split. intros v. cbn. tauto. split; auto. split; auto. split; auto. intros v. cbn. tauto.
  - intros pre v suf (l, s) Ev (I1 & I2 & I3 & I4 & I5 & I6). cbn [fst snd] in *. assert (Hv : In v (g_vs x)) by (rewrite Ev; apply in_or_app; cbn; auto). assert (Nv : ~ In v pre) by (intro; rewrite Ev in ND; apply NoDup_remove_2 in ND; apply ND, in_or_app; auto).
    assert (SN : forall y, In y (pre ++ [v]) <-> In y pre \/ y = v) by (intros y; rewrite in_app_iff; cbn; intuition congruence).
    assert (NDl : NoDup (l ++ [v])). { apply Permutation_NoDup with (v :: l). apply Permutation_cons_append. constructor; auto. rewrite I2. tauto. }
    destruct (g_bd s v) eqn:B.
    + assert (BV : bvert x a v). { split; auto. apply I6 in B. destruct B as [B|(B & _)]; [auto|contradiction]. }
      eexists. split; [reflexivity|]. cbn [fst snd]. split; auto. split. { intros y. rewrite in_app_iff, I2, SN. cbn [In]. split. intros [H|[H|[]]]; [tauto|]. subst y. auto. intros ([H|H] & H'); auto. } split; auto. split; auto. split; auto.
      intros y. rewrite I6, SN. split. tauto. intros [H|([H|H] & H')]; auto. subst y. apply I6 in B. destruct B as [B|(B & _)]; [auto|contradiction].
    + assert (NB : g_bd (gv x) v <> true) by (intro H; assert (g_bd s v = true) by (apply I6; auto); congruence).
      destruct (on_boundary x a v P Hv) as (b & Eb & Hb). fold (solid x). rewrite Eb. cbn [bind]. destruct b.
      * assert (BV : bvert x a v) by (split; auto; right; apply Hb; auto). eexists. split; [reflexivity|]. cbn [fst snd set_bd g_id g_pt g_mas g_bd]. split; auto. split. { intros y. rewrite in_app_iff, I2, SN. cbn [In]. split. intros [H|[H|[]]]; [tauto|]. subst y. auto. intros ([H|H] & H'); auto. } split; auto. split; auto. split; auto.
        intros y. rewrite SN. unfold zupd. destruct (Z.eqb_spec y v) as [Q|Q]. subst y. split; auto. rewrite I6. split. tauto. intros [H|([H|H] & H')]; auto; contradiction.
      * assert (BV : ~ bvert x a v). { intros (_ & [H|H]); [contradiction|]. apply Hb in H. discriminate. }
        eexists. split; [reflexivity|]. cbn [fst snd]. split; auto. split. { intros y. rewrite I2, SN. split. tauto. intros ([H|H] & H'); auto. subst y. contradiction. } split; auto. split; auto. split; auto.
        intros y. rewrite I6, SN. split. tauto. intros [H|([H|H] & H')]; auto. subst y. contradiction.
  - exists bl, es. split; auto. cbn [fst snd] in H. destruct H as (I1 & I2 & I3 & I4 & I5 & I6). split; auto. split. { intros v. rewrite I2. split. tauto. intros H. split; auto. apply H. } split; auto. split; auto. split; auto. intros v. rewrite I6. split. tauto. intros [H|H]; auto. right. split; auto. apply H.
Qed.
Lemma numbering_old : forall n all tw old old' new, (forall p e, on n p -> In e (all p) -> g_id (old p) e = g_id (old' p) e /\ g_pt (old p) e = g_pt (old' p) e) -> numbering n all tw old new -> numbering n all tw old' new.
Proof.
  intros n all tw old old' new E H. constructor; try apply H.
  - intros p e Hp He G A. rewrite (num_inner _ _ _ _ _ H p e Hp He G A). apply E; auto.
  - intros p e Hp He G A. destruct (E p e Hp He) as (E1 & _). rewrite <- E1 in A |- *. apply (num_kept _ _ _ _ _ H); auto.
  - intros p e a b Hp Ea G A. assert (He : In e (all p)) by (rewrite Ea; apply in_or_app; cbn; auto). destruct (E p e Hp He) as (E1 & _). rewrite <- E1 in A. rewrite (num_fresh _ _ _ _ _ H p e a b Hp Ea G A). do 2 f_equal. apply filter_ext_in. intros y Hy. apply owned_in in Hy. destruct (E p y Hp) as (E2 & _). rewrite Ea. apply in_or_app. tauto. rewrite E2. auto.
Qed.

(** ** Vertices *)
Definition total (n : Z) (all : Z -> list ptr) : Z := psum (fun q => ZL (all q)) (ranks n).
Definition no_ghosts (n : Z) (all : Z -> list ptr) (old : Z -> gents) : Prop := forall p e, on n p -> In e (all p) -> g_pt (old p) e <> PGHOST.

Section Vertices.
  Variables (N : nat) (x : Z -> grank) (a : Z -> amesh) (junk : Z -> Z -> Z).
  Let n := Z.of_nat N.
  Hypothesis HN : (0 < N)%nat.
  Hypothesis HP : forall p, on n p -> part (x p) (a p).
  Hypothesis HG : no_ghosts n (fun p => g_vs (x p)) (fun p => gv (x p)).
  Hypothesis HS : total n (fun p => g_vs (x p)) < 2 ^ 31 - 1.
  Let vs p := g_vs (x p).
  Definition vb (p : Z) : list ptr * gents := un ([], gv (x p)) (boundary_verts (x p)).
  Lemma vb_ok : forall p, on n p -> boundary_verts (x p) = Ok (vb p) /\ NoDup (fst (vb p)) /\ (forall v, In v (fst (vb p)) <-> bvert (x p) (a p) v) /\
    g_id (snd (vb p)) = g_id (gv (x p)) /\ g_pt (snd (vb p)) = g_pt (gv (x p)) /\ g_mas (snd (vb p)) = g_mas (gv (x p)) /\ (forall v, g_bd (snd (vb p)) v = true <-> g_bd (gv (x p)) v = true \/ bvert (x p) (a p) v).
  Proof. intros p Hp. destruct (boundary_verts_ok _ _ (HP p Hp)) as (bl & es & E & H). unfold vb. rewrite E. cbn [un fst snd]. auto. Qed.
  Lemma vb_incl : forall p, on n p -> NoDup (vs p) /\ incl (fst (vb p)) (vs p).
  Proof. intros p Hp. destruct (part_vs _ _ (HP p Hp)) as (ND & _). split; auto. intros v Hv. destruct (vb_ok p Hp) as (_ & _ & H & _). apply H in Hv. apply Hv. Qed.

  Definition vertex_result (twin : Z -> ptr -> Z -> ptr -> Prop) (h : Z) (y : Z -> gents) : Prop :=
    (forall lo, protocol n lo (lo + 6) (fun p => MESH_AssignGlobalIDs_Vertex (junk p) n p h (x p)) (fun p => set_gv (x p) (y p))) /\
    numbering n vs twin (fun p => gv (x p)) y /\ forall p v, on n p -> g_bd (y p) v = true <-> g_bd (gv (x p)) v = true \/ bvert (x p) (a p) v.
  Lemma vertex_wrap : forall c kcmp keyM ecmp twin h, c_all c = false -> (forall p, on n p -> forall bl es, boundary_verts (x p) = Ok (bl, es) ->
      MESH_AssignGlobalIDs_Vertex (junk p) n p h (x p) = pbind (match_ids c (junk p) n p [g_rep (x p); ZL (g_vs (x p)); ZL (g_es (x p)); ZL (g_fs (x p)); ZL (g_rs (x p)); 0; 0; 0; 0; 0] (g_lid (x p)) (g_vs (x p)) bl (keyM p es) kcmp (ecmp p es) es) (fun r => Ret (set_gv (x p) (fst r)))) ->
    (exists new gi, (forall lo, protocol n lo (lo + 6) (fun p => match_ids c (junk p) n p [g_rep (x p); ZL (g_vs (x p)); ZL (g_es (x p)); ZL (g_fs (x p)); ZL (g_rs (x p)); 0; 0; 0; 0; 0] (g_lid (x p)) (vs p) (fst (vb p)) (keyM p (snd (vb p))) kcmp (ecmp p (snd (vb p))) (snd (vb p))) (fun p => (new p, gi))) /\
      numbering n vs twin (fun p => snd (vb p)) new /\
      (forall p e, on n p -> g_bd (new p) e = true <-> g_bd (snd (vb p)) e = true \/ (c_all c = true /\ c_min c <= p /\ exists q e', on n q /\ q <> p /\ twin p e q e')) /\
      (forall j k, on n j -> 0 <= k < 9 -> k <> c_bnd c -> rdl gi (10 * j + k) = Ok (nth (Z.to_nat k) [g_rep (x j); ZL (g_vs (x j)); ZL (g_es (x j)); ZL (g_fs (x j)); ZL (g_rs (x j)); 0; 0; 0; 0; 0] 0))) ->
    exists y, vertex_result twin h y.
  Proof.
    intros c kcmp keyM ecmp twin h CA EQ (new & gi & P & NU & BD & _). exists new. split.
    - intros lo. eapply protocol_ext with (qs := fun p => pbind (match_ids c (junk p) n p [g_rep (x p); ZL (g_vs (x p)); ZL (g_es (x p)); ZL (g_fs (x p)); ZL (g_rs (x p)); 0; 0; 0; 0; 0] (g_lid (x p)) (vs p) (fst (vb p)) (keyM p (snd (vb p))) kcmp (ecmp p (snd (vb p))) (snd (vb p))) (fun r => Ret (set_gv (x p) (fst r)))).
      { intros p Hp. apply (EQ p Hp (fst (vb p)) (snd (vb p))). destruct (vb_ok p Hp) as (E & _). rewrite E. destruct (vb p); auto. }
      apply (protocol_bind _ _ n lo (lo + 6) (lo + 6) _ (fun p => (new p, gi)) (fun p r => Ret (set_gv (x p) (fst r)))). lia. apply P. cbn [fst]. apply protocol_ret.
    - split. apply (numbering_old n vs twin (fun p => snd (vb p)) (fun p => gv (x p)) new); auto. intros p e Hp _. destruct (vb_ok p Hp) as (_ & _ & _ & E1 & E2 & _). rewrite E1, E2. auto.
      intros p v Hp. rewrite BD by auto. destruct (vb_ok p Hp) as (_ & _ & _ & _ & _ & _ & E). rewrite E. rewrite CA. intuition discriminate.
  Qed.

  (** *** By given IDs *)
  Definition twin_gid (p v q w : Z) : Prop := bvert (x p) (a p) v /\ bvert (x q) (a q) w /\ g_id (gv (x p)) v = g_id (gv (x q)) w.
  Lemma vertex_gid : forall h, h <> 0 -> (forall p v, on n p -> In v (vs p) -> 0 <= g_id (gv (x p)) v < 2 ^ 31) ->
    (forall p v w, on n p -> bvert (x p) (a p) v -> bvert (x p) (a p) w -> g_id (gv (x p)) v = g_id (gv (x p)) w -> v = w) -> exists y, vertex_result twin_gid h y.
  Proof.
    intros h Hh HR HD1. set (D := fun k : list Z => exists g, k = [g] /\ 0 <= g < 2 ^ 31).
    apply (vertex_wrap vert_gid (fun u w => a0 <- rdl u 0 ;; b0 <- rdl w 0 ;; compareINT a0 b0) (fun p es v => Ok [g_id es v]) (fun p es => compareGlobalID (g_id es)) twin_gid h).
    - auto.
    - intros p Hp bl es E. unfold MESH_AssignGlobalIDs_Vertex. rewrite E. cbn [lift]. replace (h =? 0) with false by lia. reflexivity.
    - pose proof (match_stage N vert_gid junk (fun p => [g_rep (x p); ZL (g_vs (x p)); ZL (g_es (x p)); ZL (g_fs (x p)); ZL (g_rs (x p)); 0; 0; 0; 0; 0]) (fun p => g_lid (x p)) vs (fun p => fst (vb p)) (fun p v => [g_id (gv (x p)) v])
        (fun p v => Ok [g_id (snd (vb p)) v]) (fun u w => a0 <- rdl u 0 ;; b0 <- rdl w 0 ;; compareINT a0 b0) (fun p => compareGlobalID (g_id (snd (vb p)))) (fun p => snd (vb p)) D (fun u w => hd 0 u - hd 0 w) (fun u w => hd 0 u = hd 0 w)) as M.
      assert (GI : forall p, on n p -> g_id (snd (vb p)) = g_id (gv (x p))) by (intros p Hp; apply vb_ok; auto).
      assert (RG : forall p v, on n p -> In v (fst (vb p)) -> 0 <= g_id (gv (x p)) v < 2 ^ 31) by (intros p v Hp Hv; apply HR; auto; apply vb_incl; auto).
      destruct M as (new & gi & M1 & M2 & M3 & M4).
      + auto.
      + unfold preorder3. split; [|split]; intros; lia.
      + intros p e Hp He. split. eexists. split; [reflexivity|]. auto. cbn. lia.
      + intros p e Hp He. rewrite GI by auto. auto.
      + intros p e e' Hp He He'. unfold compareGlobalID. rewrite GI by auto. cbn [hd]. pose proof (RG p e Hp He). pose proof (RG p e' Hp He'). unfold ck32. replace ((- 2 ^ 31 <=? _) && _) with true by lia. auto.
      + intros k k' j (g & -> & Rg) (g' & -> & Rg') L. change (rdl [g] 0) with (Ok g). change (rdl ([g'] ++ j) 0) with (Ok g'). cbn [bind hd]. unfold compareINT, ck32. replace ((- 2 ^ 31 <=? _) && _) with true by lia. auto.
      + intros p e e' Hp He He' Q. apply vb_ok in He; auto. apply vb_ok in He'; auto. apply (HD1 p e e'); auto.
      + intros p Hp. apply vb_ok; auto.
      + intros p Hp. split; auto.
      + cbn. lia.
      + apply vb_incl.
      + intros p e Hp He. destruct (vb_ok p Hp) as (_ & _ & _ & _ & E2 & _). rewrite E2. apply HG; auto.
      + intros p e Hp He. rewrite GI by auto. apply HR; auto.
      + exact HS.
      + exists new, gi. split. exact M1. split. { eapply numbering_ext. exact M2. intros p e q e' Hp Hq _ _ _. unfold twins, twin_gid. destruct (vb_ok p Hp) as (_ & _ & Ep & _). destruct (vb_ok q Hq) as (_ & _ & Eq & _). rewrite Ep, Eq. cbn [hd]. tauto. }
        split; [|exact M4]. intros p e Hp. rewrite M3 by auto. cbn [c_all vert_gid]. intuition discriminate.
  Qed.

  (** *** By coordinates *)
  Definition twin_xyz (p v q w : Z) : Prop := bvert (x p) (a p) v /\ bvert (x q) (a q) w /\ same_point (g_xyz (x p) v) (g_xyz (x q) w).
  Hypothesis HX : forall p v, on n p -> bvert (x p) (a p) v -> real_point (g_xyz (x p) v).
  Hypothesis HSep : separated (fun k => exists p v, on n p /\ bvert (x p) (a p) v /\ k = g_xyz (x p) v).
  Hypothesis HD1 : forall p v w, on n p -> bvert (x p) (a p) v -> bvert (x p) (a p) w -> same_point (g_xyz (x p) v) (g_xyz (x p) w) -> v = w.
  Hypothesis HF : fresh n vs (fun p => gv (x p)).
  Lemma vertex_xyz : exists y, vertex_result twin_xyz 0 y.
  Proof.
    set (D := fun k => exists p v, on n p /\ bvert (x p) (a p) v /\ k = g_xyz (x p) v) in *.
    assert (RP : forall k, D k -> real_point k) by (intros k (p & v & Hp & Hv & ->); auto).
    apply (vertex_wrap vert_xyz (fun u w => Ok (compareCoorDouble (xyz_of u) (xyz_of w))) (fun p _ v => Ok (firstn 3 (g_xyz (x p) v))) (fun p _ u w => Ok (compareVertexCoor (fun v => xyz_of (g_xyz (x p) v)) u w)) twin_xyz 0).
    - auto.
    - intros p Hp bl es E. unfold MESH_AssignGlobalIDs_Vertex. rewrite E. reflexivity.
    - pose proof (match_stage N vert_xyz junk (fun p => [g_rep (x p); ZL (g_vs (x p)); ZL (g_es (x p)); ZL (g_fs (x p)); ZL (g_rs (x p)); 0; 0; 0; 0; 0]) (fun p => g_lid (x p)) vs (fun p => fst (vb p)) (fun p v => g_xyz (x p) v)
        (fun p v => Ok (firstn 3 (g_xyz (x p) v))) (fun u w => Ok (compareCoorDouble (xyz_of u) (xyz_of w))) (fun p u w => Ok (compareVertexCoor (fun v => xyz_of (g_xyz (x p) v)) u w)) (fun p => snd (vb p)) D (fun u w => compareCoorDouble (xyz_of u) (xyz_of w)) same_point) as M.
      destruct M as (new & gi & M1 & M2 & M3 & M4).
      + auto.
      + apply coor_preorder; auto.
      + intros p e Hp He. apply vb_ok in He; auto. split. exists p, e. auto. destruct (HX p e Hp He) as (L & _). rewrite L. cbn. lia.
      + intros p e Hp He. apply vb_ok in He; auto. destruct (HX p e Hp He) as (L & _). rewrite firstn_all2 by lia. auto.
      + auto.
      + intros k k' j Hk Hk' L. destruct (RP k' Hk') as (L' & _). rewrite app_length, L' in L. cbn [c_wd vert_xyz] in L. assert (j = []) by (destruct j; auto; cbn [length] in L; lia). subst j. rewrite app_nil_r. auto.
      + intros p e e' Hp He He' Q. apply vb_ok in He; auto. apply vb_ok in He'; auto. apply (HD1 p e e'); auto.
      + intros p Hp. apply vb_ok; auto.
      + intros p Hp. split; auto.
      + cbn. lia.
      + apply vb_incl.
      + intros p e Hp He. destruct (vb_ok p Hp) as (_ & _ & _ & _ & E2 & _). rewrite E2. apply HG; auto.
      + intros p e Hp He. destruct (vb_ok p Hp) as (_ & _ & _ & E1 & _). rewrite E1. rewrite (HF p e Hp He). lia.
      + exact HS.
      + exists new, gi. split. exact M1. split. { eapply numbering_ext. exact M2. intros p e q e' Hp Hq _ _ _. unfold twins, twin_xyz. destruct (vb_ok p Hp) as (_ & _ & Ep & _). destruct (vb_ok q Hq) as (_ & _ & Eq & _). rewrite Ep, Eq. tauto. }
        split; [|exact M4]. intros p e Hp. rewrite M3 by auto. cbn [c_all vert_xyz]. intuition discriminate.
  Qed.
End Vertices.

(** ** Candidates among edges and faces *)
Definition shared_pt (s : gents) (v : ptr) : Prop := g_pt s v = PGHOST \/ g_pt s v = POVERLAP.
Lemma all_shared_ok : forall s vs, all_shared s vs = true <-> forall v, In v vs -> shared_pt s v.
Proof.
  intros s vs. unfold all_shared. rewrite forallb_forall. unfold shared_pt. split; intros H v Hv; specialize (H v Hv); lia.
Qed.
Lemma candidates_ok : forall x s (vM : ptr -> result (list ptr)) vf l, (forall e, In e l -> vM e = Ok (vf e)) -> NoDup l ->
  exists bl, candidates x s vM l = Ok bl /\ NoDup bl /\ forall e, In e bl <-> In e l /\ (g_bd s e = true \/ forall v, In v (vf e) -> shared_pt (gv x) v).
Proof.
  intros x s vM vf l HV ND. unfold candidates. apply (foldM_list _ _ (fun pre bl => NoDup bl /\ forall e, In e bl <-> In e pre /\ (g_bd s e = true \/ forall v, In v (vf e) -> shared_pt (gv x) v))).
  - split. constructor. intros e. cbn. tauto.
  - intros pre e suf bl E (I1 & I2). assert (He : In e l) by (rewrite E; apply in_or_app; cbn; auto). assert (Ne : ~ In e pre) by (intro; rewrite E in ND; apply NoDup_remove_2 in ND; apply ND, in_or_app; auto).
    assert (ADD : (g_bd s e = true \/ forall v, In v (vf e) -> shared_pt (gv x) v) -> NoDup (bl ++ [e]) /\ forall y, In y (bl ++ [e]) <-> In y (pre ++ [e]) /\ (g_bd s y = true \/ forall v, In v (vf y) -> shared_pt (gv x) v)).
    { intros Q. split. apply Permutation_NoDup with (e :: bl). apply Permutation_cons_append. constructor; auto. rewrite I2. tauto. intros y. rewrite !in_app_iff, I2. cbn [In]. split. intros [H|[H|[]]]; [tauto|]. subst y. auto. intros ([H|[H|[]]] & H'); auto. }
    destruct (g_bd s e) eqn:B. eexists. split; [reflexivity|]. apply ADD. auto. rewrite HV by auto. cbn [bind]. destruct (all_shared (gv x) (vf e)) eqn:A.
    + eexists. split; [reflexivity|]. apply ADD. right. apply all_shared_ok. auto.
    + eexists. split; [reflexivity|]. split; auto. intros y. rewrite I2, in_app_iff. cbn [In]. split. tauto. intros ([H|[H|[]]] & H'); auto. subst y. destruct H' as [H'|H']. congruence. apply all_shared_ok in H'. congruence.
Qed.

(** ** Edges *)
Definition ends (a : amesh) (e : ptr) : ptr * ptr := match a_e a e with Some (_, d) => d | None => (NULL, NULL) end.
(** Vertices have IDs that tell them apart on a rank; those that two ranks share are
    labelled. *)
Record vertex_ids (n : Z) (x : Z -> grank) : Prop := mkVI {
  vi_range : forall p v, on n p -> In v (g_vs (x p)) -> 0 <= g_id (gv (x p)) v < 2 ^ 31;
  vi_inj : forall p v w, on n p -> In v (g_vs (x p)) -> In w (g_vs (x p)) -> g_id (gv (x p)) v = g_id (gv (x p)) w -> v = w;
  vi_shared : forall p v q w, on n p -> on n q -> p <> q -> In v (g_vs (x p)) -> In w (g_vs (x q)) -> g_id (gv (x p)) v = g_id (gv (x q)) w -> shared_pt (gv (x p)) v }.
(** The edges have the same two vertices. *)
Definition twin_edge (x : Z -> grank) (a : Z -> amesh) (p e q e' : Z) : Prop :=
  let g := g_id (gv (x p)) in let g' := g_id (gv (x q)) in
  let (v, w) := ends (a p) e in let (v', w') := ends (a q) e' in (g v = g' v' /\ g w = g' w') \/ (g v = g' w' /\ g w = g' v').
Section Edges.
  Variables (N : nat) (x : Z -> grank) (a : Z -> amesh) (junk : Z -> Z -> Z).
  Let n := Z.of_nat N.
  Hypothesis HN : (0 < N)%nat.
  Hypothesis HP : forall p, on n p -> part (x p) (a p).
  Hypothesis HV : vertex_ids n x.
  Let es p := g_es (x p).
  Hypothesis HG : no_ghosts n es (fun p => ge (x p)).
  Hypothesis HR : forall p e, on n p -> In e (es p) -> 0 <= g_id (ge (x p)) e.
  Hypothesis HS : total n es < 2 ^ 31 - 1.

  Definition ev p e : list ptr := [fst (ends (a p) e); snd (ends (a p) e)].
  Lemma ev_ok : forall p e, on n p -> In e (es p) -> edge_verts (g_t (x p)) e = Ok (ev p e) /\ a_e (a p) e = Some (true, ends (a p) e) /\ In (fst (ends (a p) e)) (g_vs (x p)) /\ In (snd (ends (a p) e)) (g_vs (x p)).
  Proof.
    intros p e Hp He. destruct (part_es _ _ (HP p Hp)) as (_ & PE). destruct (PE e He) as (v & w & E & Hv & Hw). pose proof (reach_inv _ _ (part_reach _ _ (HP p Hp))) as I. destruct (get_e _ _ e I) as (y & Ey & Ay). congruence.
    unfold ends, ev. rewrite E. cbn [fst snd]. split; auto. unfold edge_verts, ME_Vertex, gete. rewrite Ey. cbn [bind Z.eqb]. unfold ends. rewrite E. rewrite E in Ay. inversion Ay. auto.
  Qed.
  Definition ec p : list ptr := un [] (candidates (x p) (ge (x p)) (edge_verts (g_t (x p))) (es p)).
  Lemma ec_ok : forall p, on n p -> candidates (x p) (ge (x p)) (edge_verts (g_t (x p))) (es p) = Ok (ec p) /\ NoDup (ec p) /\
    forall e, In e (ec p) <-> In e (es p) /\ (g_bd (ge (x p)) e = true \/ forall v, In v (ev p e) -> shared_pt (gv (x p)) v).
  Proof.
    intros p Hp. destruct (candidates_ok (x p) (ge (x p)) (edge_verts (g_t (x p))) (ev p) (es p)) as (bl & E & H). intros e He. apply ev_ok; auto. apply (part_es _ _ (HP p Hp)). unfold ec. rewrite E. cbn [un]. auto.
  Qed.
  Definition ekey p e : list Z := map (g_id (gv (x p))) (ev p e).
  Definition pr (k : list Z) : Z * Z := (nth 0 k 0, nth 1 k 0).
  Lemma edge_stage : exists y, (forall lo, protocol n lo (lo + 6) (fun p => MESH_AssignGlobalIDs_Edge (junk p) n p (x p)) (fun p => set_ge (x p) (y p))) /\
    numbering n es (twin_edge x a) (fun p => ge (x p)) y /\
    (forall p e, on n p -> In e (es p) -> g_bd (y p) e = true <-> g_bd (ge (x p)) e = true \/ (1 <= p /\ exists q e', on n q /\ q <> p /\ In e' (es q) /\ twin_edge x a p e q e')).
  Proof.
    assert (EC : forall p e, on n p -> In e (ec p) -> In e (es p)) by (intros p e Hp He; apply ec_ok in He; tauto).
    assert (SM : forall p e q e', twin_edge x a p e q e' <-> pr (ekey p e) = pr (ekey q e') \/ (fst (pr (ekey p e)) = snd (pr (ekey q e')) /\ snd (pr (ekey p e)) = fst (pr (ekey q e')))).
    { intros p e q e'. unfold twin_edge, pr, ekey, ev. destruct (ends (a p) e) as (v, w). destruct (ends (a q) e') as (v', w'). cbn [map nth fst snd]. split; (intros [H|H]; [left|right]); auto. destruct H as (-> & ->). auto. inversion H. auto. }
    destruct (match_stage N edge_cfg junk (fun p => [0; 0; ZL (g_es (x p)); 0; 0; 0; 0; 0; 0; 0]) (fun p => g_lid (x p)) es ec ekey
      (fun p e => vs <- edge_verts (g_t (x p)) e ;; Ok (map (g_id (gv (x p))) vs))
      (fun a b => a0 <- rdl a 0 ;; a1 <- rdl a 1 ;; b0 <- rdl b 0 ;; b1 <- rdl b 1 ;; Ok (compareEdgeINT (a0, a1) (b0, b1)))
      (fun p e1 e2 => v <- edge_verts (g_t (x p)) e1 ;; w <- edge_verts (g_t (x p)) e2 ;;
            Ok (compareEdgeID (g_id (gv (x p))) (fun e => if e =? e1 then (nth 0 v 0, nth 1 v 0) else (nth 0 w 0, nth 1 w 0)) e1 e2)) (fun p => ge (x p))
      (fun k => length k = 2%nat) (fun k k' => compareEdgeINT (pr k) (pr k')) (fun k k' => pr k = pr k' \/ (fst (pr k) = snd (pr k') /\ snd (pr k) = fst (pr k')))) as (y & gi & M1 & M2 & M3 & _).
    - auto.
    - destruct C10_edge_order as (A & B & E). unfold preorder3. split; [|split]; intros; [apply A|eapply B|apply E]; eauto.
    - intros p e Hp He. split; auto. cbn. lia.
    - intros p e Hp He. destruct (ev_ok p e Hp (EC p e Hp He)) as (E & _). rewrite E. auto.
    - intros p e e' Hp He He'. destruct (ev_ok p e Hp (EC p e Hp He)) as (E & _). destruct (ev_ok p e' Hp (EC p e' Hp He')) as (E' & _). rewrite E, E'. cbn [bind]. unfold compareEdgeID. rewrite Z.eqb_refl. destruct (Z.eqb_spec e' e) as [Q|Q]. subst e'. auto. auto.
    - intros k k' j Lk Lk' L. destruct k as [|u [|w [|]]]; try discriminate. destruct k' as [|u' [|w' [|]]]; try discriminate. cbn [c_wd edge_cfg] in L. rewrite app_length in L. cbn [length] in L. assert (j = []) by (destruct j; auto; cbn [length] in L; lia). subst j. reflexivity.
    - intros p e e' Hp He He' Q. apply EC in He; auto. apply EC in He'; auto. apply SM in Q. unfold twin_edge in Q. destruct (ev_ok p e Hp He) as (_ & A1 & A2 & A3). destruct (ev_ok p e' Hp He') as (_ & B1 & B2 & B3). destruct (ends (a p) e) as (v, w). destruct (ends (a p) e') as (v', w'). cbn [fst snd] in *.
      apply (part_es1 _ _ (HP p Hp) e e' v w v' w'); auto. pose proof (vi_inj _ _ HV p) as J. destruct Q as [(Q1 & Q2)|(Q1 & Q2)]; [left|right]; split; apply J; auto.
    - intros p Hp. apply ec_ok; auto.
    - intros p Hp. split; auto.
    - cbn. lia.
    - intros p Hp. split. apply (part_es _ _ (HP p Hp)). intros e He. apply EC; auto.
    - intros p e Hp He. apply HG; auto.
    - intros p e Hp He. apply HR; auto.
    - exact HS.
    - assert (CAND : forall p e q e', on n p -> on n q -> p <> q -> In e (es p) -> In e' (es q) -> twin_edge x a p e q e' -> In e (ec p)).
      { intros p e q e' Hp Hq Ne He He' T. apply ec_ok; auto. split; auto. right. destruct (ev_ok p e Hp He) as (_ & _ & A2 & A3). destruct (ev_ok q e' Hq He') as (_ & _ & B2 & B3). unfold twin_edge, ev in *. destruct (ends (a p) e) as (v, w). destruct (ends (a q) e') as (v', w'). cbn [fst snd] in *. pose proof (vi_shared _ _ HV p) as J.
        intros u [U|[U|[]]]; subst u; destruct T as [(T1 & T2)|(T1 & T2)].
        apply (J v q v'); auto. apply (J v q w'); auto. apply (J w q w'); auto. apply (J w q v'); auto. }
      assert (TE : forall p e q e', on n p -> on n q -> p <> q -> In e (es p) -> In e' (es q) -> twin_edge x a p e q e' -> twin_edge x a q e' p e).
      { intros p e q e' _ _ _ _ _. unfold twin_edge. destruct (ends (a p) e) as (v, w). destruct (ends (a q) e') as (v', w'). intuition. }
      assert (EQ : forall p e q e', on n p -> on n q -> p <> q -> In e (es p) -> In e' (es q) -> twins ec ekey (fun k k' => pr k = pr k' \/ (fst (pr k) = snd (pr k') /\ snd (pr k) = fst (pr k'))) p e q e' <-> twin_edge x a p e q e').
      { intros p e q e' Hp Hq Ne He He'. unfold twins. rewrite <- SM. split. tauto. intros T. split. apply (CAND p e q e'); auto. split; auto. apply (CAND q e' p e); auto. }
      exists y. split.
      + intros lo. unfold MESH_AssignGlobalIDs_Edge. apply protocol_lift with (v := ec). intros p Hp. apply ec_ok; auto. apply (protocol_bind _ _ n lo (lo + 6) (lo + 6) _ (fun p => (y p, gi)) (fun p r => Ret (set_ge (x p) (fst r)))). lia. apply M1. cbn [fst]. apply protocol_ret.
      + split. apply (numbering_ext n es _ _ _ y M2). exact EQ. intros p e Hp He. rewrite M3 by auto. cbn [c_all c_min edge_cfg]. split; (intros [H|H]; [auto|right]).
        * destruct H as (_ & H1 & q & e' & Hq & Nq & T). split; auto. assert (He' : In e' (es q)) by (apply EC; auto; apply T). exists q, e'. split; auto. split; auto. split; auto. apply EQ; auto.
        * destruct H as (H1 & q & e' & Hq & Nq & He' & T). split; auto. split; auto. exists q, e'. split; auto. split; auto. apply EQ; auto.
  Qed.
End Edges.
