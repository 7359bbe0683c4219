(** C38: the check of the topology. *)
From Coq Require Import ZArith List Lia Bool Arith ZifyBool ZifyNat.
From Verif Require Import Base BaseProofs ListSpec AttModel AttProps TopoModel TopoSpec TopoProofs TopoProofs2 TopoProofs3 TopoProofs5 TopoProofs6 TopoProofs7 TopoProps TopoProps2 ModProofs GenModel GenProofs4 ParModel ParProps CheckModel CheckSpec CheckProofs CheckProofs2.
Import ListNotations.
Open Scope Z_scope.

(** * What an accepted mesh is *)

(** Full statement (false, see below): in an accepted mesh every adjacency is
    mutual and every face loop is closed.  Proved for all meshes: downward
    adjacency is answered upward -- except for the second vertex of an edge on a
    model face with regions --, the edges a vertex knows end there, every face has
    its regions on the right side and the faces of a region fit together; the
    classification is consistent.  Missing: faces known to edges, regions known
    to faces, closed loops (refuted below); ghosts are not looked at. *)
Theorem C38_accepted_partial : forall m, MESH_CheckTopo m = Ok true ->
  (forall v, In v (cm_v m) -> cm_ghost m v = false -> exists x, tvs (cm_t m) v = Some x /\
     (forall e, In e (v_edges x) -> e_ends (cm_t m) e v) /\
     (fst (cm_c m v) = 2 -> v_edges x <> [] -> exists e f, In e (v_edges x) /\ e_knows (cm_t m) e f /\ fst (cm_c m f) = 2)) /\
  (forall e, In e (cm_e m) -> cm_ghost m e = false -> exists y, tes (cm_t m) e = Some y /\ end_ok m e (e_v0 y) /\
     (end_ok m e (e_v1 y) \/ fst (cm_c m e) = 2 /\ exists f r, In f (e_faces y) /\ f_knows (cm_t m) f r) /\
     (fst (cm_c m e) = 2 -> two_faces m e)) /\
  (forall f, In f (cm_f m) -> cm_ghost m f = false -> exists x l, tfs (cm_t m) f = Some x /\ f_edges x = Some l /\
     (forall e, In e l -> e_knows (cm_t m) e f /\ (fst (cm_c m e) <> 4 -> fst (cm_c m f) <> 4 -> fst (cm_c m e) <= fst (cm_c m f))) /\
     (fst (cm_c m f) = 3 -> f_r0 x <> NULL /\ f_r1 x <> NULL) /\
     (f_r0 x <> NULL -> f_r1 x <> NULL -> f_r0 x <> f_r1 x /\ (r_bounded (cm_t m) (f_r0 x) f \/ r_bounded (cm_t m) (f_r1 x) f))) /\
  (forall r, In r (cm_r m) -> cm_ghost m r = false -> exists y l, trs (cm_t m) r = Some y /\ r_faces y = Some l /\
     forall i f, nth_error l i = Some f -> exists x es, tfs (cm_t m) f = Some x /\ f_edges x = Some es /\
       (if face_dir y i then f_r0 x else f_r1 x) = r /\
       forall j e, nth_error es j = Some e -> exists k g x' es' n, nth_error l k = Some g /\ g <> f /\
         tfs (cm_t m) g = Some x' /\ f_edges x' = Some es' /\ nth_error es' n = Some e /\ opposite y x x' i k j n).
Proof.
  intros m H. unfold MESH_CheckTopo in H. destruct (foldM (ck_vertex m) true (cm_v m)) as [b1| | |] eqn:E1; cbn [bind] in H; try discriminate. destruct (foldM (ck_edge m) b1 (cm_e m)) as [b2| | |] eqn:E2; cbn [bind] in H; try discriminate. destruct (foldM (ck_face m) b2 (cm_f m)) as [b3| | |] eqn:E3; cbn [bind] in H; try discriminate.
  apply (foldM_true _ _ _ _ _ (fun b r _ => ck_region_true m b r)) in H. destruct H as [-> H]. apply (foldM_true _ _ _ _ _ (fun b r _ => ck_face_true m b r)) in E3. destruct E3 as [-> E3]. apply (foldM_true _ _ _ _ _ (fun b r _ => ck_edge_true m b r)) in E2. destruct E2 as [-> E2]. apply (foldM_true _ _ _ _ _ (fun b r _ => ck_vertex_true m b r)) in E1. destruct E1 as [_ E1].
  split; [exact E1|]. split; [exact E2|]. split; [exact E3|]. intros r Hr Hg. destruct (H r Hr Hg) as (y & l & Hy & Hl & HH). exists y, l. split; auto. split; auto. intros i f Hi. destruct (HH i f Hi) as [(x & Hx & Hs) (x' & es & Hx' & Hes & M)]. assert (x' = x) by congruence. subst x'. exists x, es. auto.
Qed.
Print Assumptions C38_accepted_partial.

(** The mesh with the entities of a topology with addresses up to [n]. *)
Definition has {A} (g : ptr -> option A) (p : ptr) : bool := match g p with Some _ => true | None => false end.
Definition whole (t : topo) (c : ptr -> Z * Z) (n : Z) : checked_mesh :=
  mkCM t c (fun _ => false) (filter (has (tvs t)) (zrange 1 n)) (filter (has (tes t)) (zrange 1 n)) (filter (has (tfs t)) (zrange 1 n)) (filter (has (trs t)) (zrange 1 n)).
Definition nocls : ptr -> Z * Z := fun _ => (4, 0).
(** A block of 2 by 2 by 2 cells is accepted: vertices and edges on model faces,
    edges and faces, regions inside. *)
Example C38_accepted_ex : exists t c, MESH_Gen_Structured 2 2 2 = Ok (t, c) /\ MESH_CheckTopo (whole t c 126) = Ok true /\
  map (fun f => length (f (whole t c 126))) [cm_v; cm_e; cm_f; cm_r] = [27; 54; 36; 8]%nat /\ In (2, 6) (map c (cm_e (whole t c 126))).
Proof.
  destruct (MESH_Gen_Structured 2 2 2) as [[t c]| | |] eqn:E; [|vm_compute in E; discriminate..]. exists t, c. split; auto.
  assert (Q : (match MESH_Gen_Structured 2 2 2 with Ok (t, c) => MESH_CheckTopo (whole t c 126) = Ok true /\ map (fun f => length (f (whole t c 126))) [cm_v; cm_e; cm_f; cm_r] = [27; 54; 36; 8]%nat /\ existsb (fun q => (fst q =? 2) && (snd q =? 6)) (map c (cm_e (whole t c 126))) = true | _ => False end)) by (vm_compute; auto).
  rewrite E in Q. destruct Q as (Q1 & Q2 & Q3). split; auto. split; auto. apply existsb_exists in Q3. destruct Q3 as ([q1 q2] & Hq & Hb). cbn [fst snd] in Hb. replace (2, 6) with (q1, q2) by (f_equal; lia). auto.
Qed.

(** * Meshes made by the library *)

(** On a mesh reached by the operations of the library, with no vertex or edge
    classified on a model face and at most two faces of a region at an edge, the
    checker accepts exactly the meshes that are classified consistently and
    whose regions are closed and oriented: no false alarms. *)
Theorem C38_library_meshes : forall m a, reach (cm_t m) a -> listed m a ->
  (forall p, In p (cm_v m) \/ In p (cm_e m) -> cm_ghost m p = false -> fst (cm_c m p) <> 2) -> (forall r, In r (cm_r m) -> cm_ghost m r = false -> pairs a r) ->
  MESH_CheckTopo m = Ok true <-> well_classified m a /\ forall r, In r (cm_r m) -> cm_ghost m r = false -> oriented a r.
Proof.
  intros m a R LS N2 P. pose proof (reach_inv _ _ R) as I. split.
  - intros H. apply C38_accepted_partial in H. destruct H as (HV & HE & HF & HR). split.
    + constructor.
      * intros e v He Hg (v0 & v1 & Ae & Hv) Hc. destruct (HE e He Hg) as (y & Hy & E0 & E1 & _). destruct (get_e _ _ e I ltac:(congruence)) as (y' & Hy' & Ay). assert (y' = y) by congruence. subst y'. rewrite Ae in Ay. unfold eview in Ay. injection Ay as _ X0 X1. subst v0 v1.
        destruct Hv as [<-|<-]. apply E0; auto. destruct E1 as [E1|[E1 _]]. apply E1; auto. exfalso. apply (N2 e); auto.
      * intros f e Hf Hg (b & Hb & Hi) C1 C2. destruct (HF f Hf Hg) as (x & l & Hx & Hl & He & _). destruct (face_rep _ _ _ _ I Hb) as (x' & l' & Hx' & Hl' & (-> & _)). assert (x' = x) by congruence. subst x'. assert (l = map fst b) by congruence. subst l. apply He; auto.
      * intros f Hf Hg C3. destruct (HF f Hf Hg) as (x & l & Hx & Hl & _ & H3 & _). destruct (H3 C3) as [R0 R1]. exists (f_r0 x), (f_r1 x). split. apply (i_uf _ _ I _ _ Hx _ R0). auto. apply (i_uf _ _ I _ _ Hx _ R1). auto.
    + intros r Hr Hg b f d e s Hb Hf (k & Hk & He). destruct (HR r Hr Hg) as (y & l & Hy & Hl & HH). destruct (inv_rfull _ _ _ _ _ I Hb) as (y' & l' & Hy' & _ & Hl' & (-> & Cap & B) & N & _). assert (y' = y) by congruence. subst y'. assert (l = map fst b) by congruence. subst l. clear Hl'.
      apply In_nth_error in Hf. destruct Hf as [i Hi]. destruct (HH i f) as (x & es & Hx & Hes & _ & M). { rewrite nth_error_map, Hi. reflexivity. }
      destruct (face_rep _ _ _ _ I Hk) as (x' & l' & Hx' & Hl' & (-> & Lk & Bk)). assert (x' = x) by congruence. subst x'. assert (es = map fst k) by congruence. subst es. apply In_nth_error in He. destruct He as [j Hj]. destruct (M j e) as (kk & g & x2 & es2 & n & K1 & K2 & K3 & K4 & K5 & K6). { rewrite nth_error_map, Hj. reflexivity. }
      rewrite nth_error_map in K1. destruct (nth_error b kk) as [[g' d']|] eqn:Ekk; [|discriminate]. injection K1 as E1. cbn [fst] in E1. subst g'. assert (FG : full_f a g). { pose proof (w_rf _ (i_w _ _ I) _ _ Hb) as F. rewrite Forall_forall in F. apply (F (g, d')). eapply nth_error_In; eauto. } destruct FG as [kg Hkg]. destruct (face_rep _ _ _ _ I Hkg) as (x3 & l3 & Hx3 & Hl3 & (-> & Lg & Bg)). assert (x3 = x2) by congruence. subst x3. assert (es2 = map fst kg) by congruence. subst es2.
      rewrite nth_error_map in K5. destruct (nth_error kg n) as [[e' s']|] eqn:En; [|discriminate]. injection K5 as E1. cbn [fst] in E1. subst e'. exists g, d', s'. split. { eapply nth_error_In; eauto. } split; auto. split. { exists kg. split; auto. eapply nth_error_In; eauto. }
      assert (NE : forall A (l : list A) i x, nth_error l i = Some x -> (i < length l)%nat /\ forall dd, nth i l dd = x). { clear. intros A l i x H. split. apply nth_error_Some; congruence. intros dd. apply nth_error_nth. auto. }
      destruct (NE _ _ _ _ Hi) as [Hi1 Hi2]. destruct (NE _ _ _ _ Hj) as [Hj1 Hj2]. destruct (NE _ _ _ _ Ekk) as [Hk1 Hk2]. destruct (NE _ _ _ _ En) as [Hn1 Hn2]. unfold opposite, edge_dir in K6. rewrite !face_dir_rg in K6. rewrite !B, Bk, Bg in K6 by auto. rewrite Hi2, Hj2, Hk2, Hn2 in K6. cbn [snd] in K6. auto.
  - intros [W O]. unfold MESH_CheckTopo.
    assert (S1 : foldM (ck_vertex m) true (cm_v m) = Ok true). { apply foldM_keep. intros v Hv. destruct (cm_ghost m v) eqn:Hg. unfold ck_vertex. rewrite Hg. reflexivity. apply (acc_vertex m a I LS); auto. }
    assert (S2 : foldM (ck_edge m) true (cm_e m) = Ok true). { apply foldM_keep. intros v Hv. destruct (cm_ghost m v) eqn:Hg. unfold ck_edge. rewrite Hg. reflexivity. apply (acc_edge m a I LS); auto. intros _ u. apply (wc_e _ _ W); auto. }
    assert (S3 : foldM (ck_face m) true (cm_f m) = Ok true). { apply foldM_keep. intros v Hv. apply (acc_face m a I LS); auto. intros Hg. split. intros u. apply (wc_f _ _ W); auto. apply (wc_3 _ _ W); auto. }
    rewrite S1. cbn [bind]. rewrite S2. cbn [bind]. rewrite S3. cbn [bind]. apply foldM_keep. intros v Hv. apply (acc_region m a I LS); auto.
Qed.
Print Assumptions C38_library_meshes.

Lemma three_in : forall (l : list ptr) f g h, In f l -> In g l -> In h l -> f <> g -> f <> h -> g <> h -> (3 <= length l)%nat.
Proof.
  intros l f g h Hf Hg Hh N1 N2 N3. change 3%nat with (length [f; g; h]). apply NoDup_incl_length. repeat constructor; cbn; intuition congruence. intros q [<- | [<- | [<- | []]]]; auto.
Qed.
Definition f_has (a : amesh) (e f : ptr) : bool := match a_f a f with Some (_, Some b) => mem e (map fst b) | _ => false end.
Definition f_list (a : amesh) (f : ptr) : list ptr := match a_f a f with Some (_, Some b) => map fst b | _ => [] end.
Definition pairsb (a : amesh) (r : ptr) : bool := match a_r a r with
  | Some (_, Some b) => forallb (fun e => Nat.leb (length (filter (f_has a e) (map fst b))) 2) (flat_map (f_list a) (map fst b)) | _ => true end.
Lemma pairsb_ok : forall a r, pairsb a r = true -> pairs a r.
Proof.
  intros a r H b e f g h Hb Hf Hg Hh Ef Eg Eh N1 N2. unfold pairsb in H. rewrite Hb in H. rewrite forallb_forall in H.
  assert (HH : forall q, has_edge a q e -> f_has a e q = true /\ In e (f_list a q)). { intros q (k & Hk & Hi). unfold f_has, f_list. rewrite Hk. split; auto. apply mem_In. auto. }
  specialize (H e). cbv beta in H. assert (In e (flat_map (f_list a) (map fst b))) as Hi by (apply in_flat_map; exists f; split; auto; apply HH; auto). apply H in Hi. apply Nat.leb_le in Hi.
  destruct (Z.eq_dec g h) as [|N3]; auto. exfalso. pose proof (three_in (filter (f_has a e) (map fst b)) f g h). rewrite !filter_In in H0. assert (F1 := proj1 (HH _ Ef)). assert (F2 := proj1 (HH _ Eg)). assert (F3 := proj1 (HH _ Eh)). assert (3 <= length (filter (f_has a e) (map fst b)))%nat by auto. lia.
Qed.
(** Two tetrahedra with a face between them. *)
Example C38_library_meshes_ex : exists m a, reach (cm_t m) a /\ listed m a /\
  (forall p, In p (cm_v m) \/ In p (cm_e m) -> cm_ghost m p = false -> fst (cm_c m p) <> 2) /\ (forall r, In r (cm_r m) -> cm_ghost m r = false -> pairs a r) /\
  MESH_CheckTopo m = Ok true /\ cm_r m = [22; 23] /\ cm_c m 17 = (3, 1).
Proof.
  exists (whole T0 (fun p => if p =? 17 then (3, 1) else (4, 0)) 24), (arun amesh0 tets). split; [exact T0_reach|]. split.
  { constructor; intros p Hp; vm_compute in Hp; repeat (destruct Hp as [<-|Hp]); try contradiction; unfold live_v, full_f; repeat eexists; try discriminate; vm_compute; reflexivity. }
  split. { intros p _ _. cbn [whole cm_c]. destruct (p =? 17); discriminate. }
  split. { intros r Hr _. vm_compute in Hr. apply pairsb_ok. destruct Hr as [<-|[<-|[]]]; vm_compute; reflexivity. }
  split; [vm_compute; reflexivity|]. split; vm_compute; reflexivity.
Qed.

(** * Accepted, and wrong *)
Definition tget (ops : list top) : topo := match trun empty_topo ops with Ok t => t | _ => empty_topo end.
Definition runsb (ops : list top) : bool := match trun empty_topo ops with Ok _ => true | _ => false end.
Lemma tget_ok : forall ops, runsb ops = true -> trun empty_topo ops = Ok (tget ops).
Proof. intros ops. unfold runsb, tget. destruct (trun empty_topo ops); auto; discriminate. Qed.
Lemma reach_tget : forall ops, tallowedb amesh0 ops = true -> reach (tget ops) (arun amesh0 ops).
Proof.
  intros ops H0. assert (H : tallowed amesh0 ops) by (apply tallowedb_ok with (t := empty_topo); [exact inv0|exact H0]). destruct (trun_ok ops _ _ inv0 H) as (t & E & I). exists ops. split; [exact H|]. split; [unfold tget; rewrite E; reflexivity|reflexivity].
Qed.

(** A face whose three edges have no vertex in common is accepted: the loop is
    never followed. *)
Definition loose : list top := [TNewV; TNewV; TNewV; TNewV; TNewV; TNewV; TNewE; TSetVertex 7 false 1; TSetVertex 7 true 2; TNewE; TSetVertex 8 false 3; TSetVertex 8 true 4; TNewE; TSetVertex 9 false 5; TSetVertex 9 true 6; TNewF; TSetEdges 10 [(7, true); (8, true); (9, true)]].
Theorem C38_face_loop_refuted : exists m a f b, reach (cm_t m) a /\ listed m a /\ MESH_CheckTopo m = Ok true /\ In f (cm_f m) /\ cm_ghost m f = false /\ a_f a f = Some (true, Some b) /\ ~ linked a b.
Proof.
  exists (whole (tget loose) nocls 11), (arun amesh0 loose), 10, [(7, true); (8, true); (9, true)]. split. { apply (reach_tget loose). vm_compute. reflexivity. } split.
  { constructor; intros p Hp; vm_compute in Hp; repeat (destruct Hp as [<-|Hp]); try contradiction; unfold live_v, full_f; repeat eexists; try discriminate; vm_compute; reflexivity. }
  split. { vm_compute. reflexivity. } split. { vm_compute. auto. } split; auto. split. { vm_compute. reflexivity. } intros [_ L]. specialize (L 0%nat ltac:(cbn; lia)). vm_compute in L. discriminate.
Qed.
Print Assumptions C38_face_loop_refuted.

(** MF_Set_Edges called again leaves the face with its old edges; edges that
    claim a face they do not bound are accepted. *)
Definition onetet : list top := firstn (length tets - 2) tets.
Theorem C38_edge_face_refuted : exists ops t m e f, trun empty_topo ops = Ok t /\ cm_t m = t /\ (forall p, cm_ghost m p = false) /\ MESH_CheckTopo m = Ok true /\ In e (cm_e m) /\ In f (cm_f m) /\ e_knows t e f /\ ~ f_bounded t f e.
Proof.
  set (ops := onetet ++ [TSetEdges 20 [(6, true); (10, true); (8, false)]]). exists ops, (tget ops), (whole (tget ops) nocls 24), 14, 20.
  split. { apply tget_ok. vm_compute. reflexivity. } split; [reflexivity|]. split; [reflexivity|]. split. { vm_compute. reflexivity. } split. { vm_compute. auto 20. } split. { vm_compute. auto 20. } split.
  { eexists. split. vm_compute. reflexivity. cbn. auto. }
  intros (x & l & Hx & Hl & Hi). vm_compute in Hx. injection Hx as <-. cbn in Hl. injection Hl as <-. cbn in Hi. intuition discriminate.
Qed.
Print Assumptions C38_edge_face_refuted.

(** MR_Set_Faces called again leaves the region with its old faces; accepted. *)
Theorem C38_face_region_refuted : exists ops t m f r, trun empty_topo ops = Ok t /\ cm_t m = t /\ (forall p, cm_ghost m p = false) /\ MESH_CheckTopo m = Ok true /\ In f (cm_f m) /\ In r (cm_r m) /\ f_knows t f r /\ ~ r_bounded t r f.
Proof.
  set (ops := onetet ++ [TSetFaces 22 [(17, true); (19, false); (20, false); (21, true)]]). exists ops, (tget ops), (whole (tget ops) nocls 24), 15, 22.
  split. { apply tget_ok. vm_compute. reflexivity. } split; [reflexivity|]. split; [reflexivity|]. split. { vm_compute. reflexivity. } split. { vm_compute. auto 20. } split. { vm_compute. auto 20. } split.
  { eexists. split. vm_compute. reflexivity. cbn. split. discriminate. auto. }
  intros (x & l & Hx & Hl & Hi). vm_compute in Hx. injection Hx as <-. cbn in Hl. injection Hl as <-. cbn in Hi. intuition discriminate.
Qed.
Print Assumptions C38_face_region_refuted.

(** A tetrahedron filling a ball -- everything but the region on the one model
    face -- whose edge 5 was given its own end again (ME_Replace_Vertex(e,v,v)
    drops the edge from the vertex): the loop over the ends is left early since
    the loop over the regions uses the same counter. *)
Definition solo : list top := [
  TNewV; TNewV; TNewV; TNewV; TNewE; TSetVertex 5 false 1; TSetVertex 5 true 2; TNewE; TSetVertex 6 false 1; TSetVertex 6 true 3; TNewE; TSetVertex 7 false 1; TSetVertex 7 true 4;
  TNewE; TSetVertex 8 false 2; TSetVertex 8 true 3; TNewE; TSetVertex 9 false 2; TSetVertex 9 true 4; TNewE; TSetVertex 10 false 3; TSetVertex 10 true 4;
  TNewF; TSetEdges 11 [(5, true); (8, true); (6, false)]; TNewF; TSetEdges 12 [(5, true); (9, true); (7, false)]; TNewF; TSetEdges 13 [(8, true); (10, true); (9, false)];
  TNewF; TSetEdges 14 [(6, true); (10, true); (7, false)]; TNewR].
Definition closed : list (ptr * bool) := [(11, false); (12, true); (13, true); (14, false)].
Definition ball (p : ptr) : Z * Z := if p =? 15 then (3, 1) else (2, 1).
Theorem C38_second_vertex_refuted : exists ops t m e v, trun empty_topo ops = Ok t /\ cm_t m = t /\ (forall p, cm_ghost m p = false) /\ MESH_CheckTopo m = Ok true /\ In e (cm_e m) /\ In v (cm_v m) /\ e_ends t e v /\ ~ v_knows t v e.
Proof.
  set (ops := solo ++ [TSetFaces 15 closed; TReplaceVertex 5 2 2]). exists ops, (tget ops), (whole (tget ops) ball 16), 5, 2.
  split. { apply tget_ok. vm_compute. reflexivity. } split; [reflexivity|]. split; [reflexivity|]. split. { vm_compute. reflexivity. } split. { vm_compute. auto 20. } split. { vm_compute. auto 20. } split.
  { eexists. split. vm_compute. reflexivity. cbn. auto. }
  intros (x & Hx & Hi). vm_compute in Hx. injection Hx as <-. cbn in Hi. intuition discriminate.
Qed.
Print Assumptions C38_second_vertex_refuted.

(** * No report at all *)

(** A region that is not closed, without classification, makes the checker leave
    the program (MF_EdgeDir of an edge that the last face does not have). *)
Theorem C38_open_region_refuted : exists m a, reach (cm_t m) a /\ listed m a /\ (forall p, cm_ghost m p = false) /\ MESH_CheckTopo m = Fatal.
Proof.
  set (ops := solo ++ [TSetFaces 15 (firstn 3 closed)]). exists (whole (tget ops) nocls 16), (arun amesh0 ops). split. { apply (reach_tget ops). vm_compute. reflexivity. } split.
  { constructor; intros p Hp; vm_compute in Hp; repeat (destruct Hp as [<-|Hp]); try contradiction; unfold live_v, full_f; repeat eexists; try discriminate; vm_compute; reflexivity. }
  split; [reflexivity|]. vm_compute. reflexivity.
Qed.
Print Assumptions C38_open_region_refuted.

(** A disc of three triangles, one of them the wrong way round: walking round the
    vertex in the middle ends at a list that is not there. *)
Definition fan : list top := [TNewV; TNewV; TNewV; TNewV; TNewE; TSetVertex 5 false 1; TSetVertex 5 true 2; TNewE; TSetVertex 6 false 1; TSetVertex 6 true 3; TNewE; TSetVertex 7 false 1; TSetVertex 7 true 4;
  TNewE; TSetVertex 8 false 2; TSetVertex 8 true 3; TNewE; TSetVertex 9 false 3; TSetVertex 9 true 4; TNewE; TSetVertex 10 false 4; TSetVertex 10 true 2;
  TNewF; TSetEdges 11 [(5, true); (8, true); (6, false)]; TNewF; TSetEdges 12 [(7, true); (9, false); (6, false)]; TNewF; TSetEdges 13 [(7, true); (10, true); (5, false)]].
Definition disc (p : ptr) : Z * Z := if (p =? 1) || (5 <=? p) && (p <=? 7) || (11 <=? p) then (2, 1) else (1, 1).
Theorem C38_flipped_refuted : exists m a, reach (cm_t m) a /\ listed m a /\ well_classified m a /\ (forall f, In f (cm_f m) -> exists k, a_f a f = Some (true, Some k) /\ linked a k) /\ MESH_CheckTopo m = Undef.
Proof.
  exists (whole (tget fan) disc 14), (arun amesh0 fan). assert (R : reach (tget fan) (arun amesh0 fan)) by (apply reach_tget; vm_compute; reflexivity). split; [exact R|]. split.
  { constructor; intros p Hp; vm_compute in Hp; repeat (destruct Hp as [<-|Hp]); try contradiction; unfold live_v, full_f; repeat eexists; try discriminate; vm_compute; reflexivity. }
  split. { constructor.
    - intros e v He _ (v0 & v1 & Ha & Hv) _. vm_compute in He. repeat (destruct He as [<-|He]); try contradiction; vm_compute in Ha; injection Ha as <- <-; destruct Hv as [<-|<-]; unfold within; vm_compute; split; try discriminate; auto.
    - intros f e Hf _ (k & Hk & Hi) _ _. vm_compute in Hf. repeat (destruct Hf as [<-|Hf]); try contradiction; vm_compute in Hk; injection Hk as <-; cbn in Hi; repeat (destruct Hi as [<-|Hi]); try contradiction; vm_compute; discriminate.
    - intros f Hf _ C. exfalso. vm_compute in Hf. repeat (destruct Hf as [<-|Hf]); try contradiction; vm_compute in C; discriminate. }
  split; [|vm_compute; reflexivity].
  intros f Hf. vm_compute in Hf. assert (LK : forall k : list (ptr * bool), forallb (fun p => match a_e (arun amesh0 fan) (fst p) with Some (true, _) => true | _ => false end) k = true ->
    forallb (fun i => vend (arun amesh0 fan) (nth i k dflt) =? vat (arun amesh0 fan) (nth (S i mod length k) k dflt)) (seq 0 (length k)) = true -> linked (arun amesh0 fan) k).
  { intros k H1 H2. split.
    - rewrite Forall_forall. rewrite forallb_forall in H1. intros p Hp. specialize (H1 p Hp). unfold edge_ok. destruct (a_e (arun amesh0 fan) (fst p)) as [[[] q]|]; try discriminate. eauto.
    - intros i Hi. rewrite forallb_forall in H2. specialize (H2 i). rewrite in_seq in H2. lia. }
  repeat (destruct Hf as [<-|Hf]); try contradiction; (eexists; split; [vm_compute; reflexivity|]; apply LK; vm_compute; reflexivity).
Qed.
Print Assumptions C38_flipped_refuted.
