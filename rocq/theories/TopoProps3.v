(** C26, sideways queries: the vertices joined to a vertex, the faces next to a
    face, and whether a region uses an edge or a vertex. *)
From Coq Require Import ZArith List Lia Bool Arith ZifyBool ZifyNat Permutation.
From Verif Require Import Base BaseProofs ListSpec AttModel AttProps ParModel ParProps TopoModel TopoSpec TopoProofs TopoProofs2 TopoProofs3 TopoProofs4 TopoProofs5 TopoProofs6 TopoProofs7 TopoProps TopoProps2.
Import ListNotations.
Open Scope Z_scope.

(** [w] is at the other end of edge [e] from [v]. *)
Definition far_end a e v w := exists p q, a_e a e = Some (true, (p, q)) /\ ((p = v /\ q = w) \/ (q = v /\ p = w)).

(** One answer for every edge of the vertex: the vertex at its other end. *)
Theorem C26_vertex_neighbours : forall t a v, reach t a -> a_v a v <> None ->
  exists es l, MV_AdjVertices t v = Ok l /\ lists es (fun e => is_end a e v) /\ Forall2 (fun e w => far_end a e v w) es l.
Proof.
  intros t a v R Hv. pose proof (reach_inv _ _ R) as I. destruct (get_v t a v I Hv) as (x & Hx & _). destruct (i_uv _ _ I _ _ Hx) as (N & H).
  exists (v_edges x). unfold MV_AdjVertices, getv. rewrite Hx. cbn [bind].
  assert (G : forall es, (forall e, In e es -> is_end a e v) -> exists l, mapM (fun e => ME_OppVertex t e v) es = Ok l /\ Forall2 (fun e w => far_end a e v w) es l).
  { induction es as [|e es IH]; intros He. exists []. split; auto.
    destruct (He e (or_introl eq_refl)) as (p & q & E & Hpq). destruct IH as (l & El & Fl). intros; apply He; right; auto.
    destruct (get_e t a e I ltac:(congruence)) as (z & Hz & Az). rewrite E in Az. unfold eview in Az. inversion Az; subst.
    exists ((if e_v0 z =? v then e_v1 z else e_v0 z) :: l). cbn [mapM]. unfold ME_OppVertex at 1, gete. rewrite Hz. cbn [bind]. rewrite El. split. reflexivity. constructor; auto.
    exists (e_v0 z), (e_v1 z). split; auto. destruct (Z.eqb_spec (e_v0 z) v); intuition. }
  destruct (G (v_edges x)) as (l & El & Fl). intros e He. apply H; auto. exists l. split; auto. split; auto. split; auto.
Qed.
Print Assumptions C26_vertex_neighbours.
Example C26_vertex_neighbours_ex : reach T0 (arun amesh0 tets) /\ a_v (arun amesh0 tets) 1 <> None /\ MV_AdjVertices T0 1 = Ok [2; 3; 4].
Proof. split. exact T0_reach. split. vm_compute; discriminate. vm_compute. reflexivity. Qed.

(** The faces sharing an edge with a face, never the face itself; NULL when there
    is none. *)
Theorem C26_face_neighbours : forall t a f b, reach t a -> a_f a f = Some (true, Some b) ->
  exists o, MF_AdjFaces t f = Ok o /\
  match o with
  | None => forall g, g <> f -> ~ exists e, has_edge a f e /\ has_edge a g e
  | Some l => l <> [] /\ forall g, In g l <-> g <> f /\ exists e, has_edge a f e /\ has_edge a g e
  end.
Proof.
  intros t a f b R Hf. pose proof (reach_inv _ _ R) as I. destruct (face_rep _ _ _ _ I Hf) as (x & l & Hx & Hl & Rp).
  assert (El : l = map fst b) by (destruct Rp as (-> & _); auto).
  unfold MF_AdjFaces, getf. rewrite Hx. cbn [bind]. rewrite Hl. cbn [bind nn].
  assert (G : forall es acc, (forall e, In e es -> In e l) -> exists l', foldM (fun acc e => o <- ME_Faces t e ;; fs <- nn o ;; Ok (acc ++ filter (fun g => negb (g =? f)) fs)) acc es = Ok l' /\
     forall g, In g l' <-> In g acc \/ (g <> f /\ exists e, In e es /\ has_edge a g e)).
  { induction es as [|e es IH]; intros acc Hes; cbn [foldM].
    - exists acc. split; auto. intros g. split; auto. intros [|(_ & e & [] & _)]; auto.
    - assert (He : has_edge a f e). { exists b. split; auto. rewrite <- El. apply Hes. left; auto. }
      assert (Ne : a_e a e <> None). { pose proof (face_edges_ok _ _ _ _ I Hf) as EO. rewrite Forall_forall in EO. destruct He as (b' & Hb' & Hi). rewrite Hf in Hb'. inversion Hb'; subst b'. apply in_map_iff in Hi. destruct Hi as (y & <- & Hy). destruct (EO _ Hy) as (p & Hp). congruence. }
      destruct (C26_edge_faces t a e R Ne) as (o & Eo & Ao). rewrite Eo. cbn [bind]. destruct o as [fs|]; cbn in Ao; [|destruct (Ao _ He)]. cbn [nn bind].
      destruct (IH (acc ++ filter (fun g => negb (g =? f)) fs)) as (l' & El' & Hl'). intros; apply Hes; right; auto. exists l'. split; auto. destruct Ao as (_ & _ & Ao). intros g. rewrite Hl', in_app_iff, filter_In, Ao.
      destruct (Z.eqb_spec g f) as [E|E]; cbn [negb].
      + split. intros [[|(_ & HH)]|(HH & _)]; auto; try discriminate. congruence. intros [|(HH & _)]; auto. congruence.
      + split. intros [[|(HH & _)]|(_ & e' & Hi & HH)]; auto; right; split; auto. exists e; split; auto; left; auto. exists e'; split; auto; right; auto.
        intros [|(_ & e' & [<-|Hi] & HH)]; auto. right. split; auto. exists e'. auto. }
  destruct (G l [] ltac:(auto)) as (l' & El' & Hl'). rewrite El'. cbn [bind].
  assert (Q : forall g, In g l' <-> g <> f /\ exists e, has_edge a f e /\ has_edge a g e).
  { intros g. rewrite Hl'. split.
    - intros [[]|(Hg & e & Hi & He)]. split; auto. exists e. split; auto. exists b. rewrite <- El. auto.
    - intros (Hg & e & (b' & Hb' & Hi) & He). right. split; auto. exists e. split; auto. rewrite Hf in Hb'. inversion Hb'; subst. auto. }
  eexists. split; [reflexivity|]. destruct l' as [|y l']. intros g Hg HH. destruct (proj2 (Q g) (conj Hg HH)). split. discriminate. auto.
Qed.
Print Assumptions C26_face_neighbours.
Example C26_face_neighbours_ex : exists b, reach T0 (arun amesh0 tets) /\ a_f (arun amesh0 tets) 15 = Some (true, Some b) /\
  exists l, MF_AdjFaces T0 15 = Ok (Some l) /\ In 16 l /\ ~ In 15 l.
Proof. eexists. split. exact T0_reach. split. vm_compute. reflexivity. eexists. split. vm_compute. reflexivity. split. cbn. tauto. cbn. intuition discriminate. Qed.

Lemma any_fold : forall (q : ptr -> result bool) (Q : ptr -> Prop) l s, (forall f, In f l -> exists r, q f = Ok r /\ (r = true <-> Q f)) ->
  exists r, foldM (fun b f => if b : bool then Ok true else q f) s l = Ok r /\ (r = true <-> s = true \/ exists f, In f l /\ Q f).
Proof.
  intros q Q. induction l as [|f l IH]; intros s H; cbn [foldM].
  - exists s. split; auto. split; auto. intros [|(f & [] & _)]; auto.
  - destruct s.
    + cbn [bind]. destruct (IH true) as (r & Er & Hr). intros; apply H; right; auto. exists r. split; auto. rewrite Hr. tauto.
    + destruct (H f (or_introl eq_refl)) as (r0 & E0 & H0). rewrite E0. cbn [bind]. destruct (IH r0) as (r & Er & Hr). intros; apply H; right; auto. exists r. split; auto. rewrite Hr, H0. split.
      * intros [HH|(g & Hi & HH)]; right. exists f. split; auto; left; auto. exists g. split; auto; right; auto.
      * intros [|(g & [<-|Hi] & HH)]; auto; try discriminate. right. eauto.
Qed.
Theorem C26_region_uses_edge : forall t a r b e, reach t a -> a_r a r = Some (true, Some b) ->
  exists u, MR_UsesEdge t r e = Ok u /\ (u = true <-> r_edge a r e).
Proof.
  intros t a r b e R Hr. pose proof (reach_inv _ _ R) as I. destruct (inv_rfull _ _ _ _ _ I Hr) as (x & l & Hx & _ & Hl & Eb & _). pose proof (i_w _ _ I) as W.
  unfold MR_UsesEdge, getr. rewrite Hx. cbn [bind]. rewrite Hl. cbn [bind nn].
  destruct (any_fold (fun f => MF_UsesEdge t f e) (fun f => has_edge a f e) l false) as (u & Eu & Hu).
  - intros f Hf. destruct Eb as (Eb & _). rewrite Eb in Hf. pose proof (full_in _ _ _ (w_rf _ W _ _ Hr) Hf) as (c & Hc). destruct (face_rep _ _ _ _ I Hc) as (z & lz & Hz & Hlz & Rp).
    exists (mem e lz). split. { unfold MF_UsesEdge, getf. rewrite Hz. cbn [bind]. rewrite Hlz. auto. } rewrite mem_In. destruct Rp as (-> & _). split. intros HH. exists c. auto. intros (c' & Hc' & HH). rewrite Hc in Hc'. inversion Hc'; subst. auto.
  - exists u. split; auto. rewrite Hu. unfold r_edge, e_region. split.
    + intros [|(f & Hi & He)]; [discriminate|]. destruct Eb as (-> & _). apply in_map_iff in Hi. destruct Hi as ([f' d] & Ef & Hd). cbn in Ef. subst f'. exists f, d. split; auto. exists b. auto.
    + intros (f & d & He & (b' & Hb' & Hi)). rewrite Hr in Hb'. inversion Hb'; subst b'. right. exists f. split; auto. destruct Eb as (-> & _). apply in_map_iff. exists (f, d). auto.
Qed.
Theorem C26_region_uses_vertex : forall t a r b v, reach t a -> a_r a r = Some (true, Some b) -> Forall (fun x => good_face a (fst x)) b ->
  exists u, MR_UsesVertex t r v = Ok u /\ (u = true <-> r_vertex a r v).
Proof.
  intros t a r b v R Hr GF. pose proof (reach_inv _ _ R) as I. destruct (inv_rfull _ _ _ _ _ I Hr) as (x & l & Hx & _ & Hl & Eb & _). pose proof (i_w _ _ I) as W.
  unfold MR_UsesVertex, getr. rewrite Hx. cbn [bind]. rewrite Hl. cbn [bind nn]. rewrite Forall_forall in GF.
  destruct (any_fold (fun f => MF_UsesVertex t f v) (fun f => exists e, has_edge a f e /\ is_end a e v) l false) as (u & Eu & Hu).
  - intros f Hf. destruct Eb as (Eb & _). rewrite Eb in Hf. apply in_map_iff in Hf. destruct Hf as (y & <- & Hy). destruct (GF _ Hy) as (c & w & Hc & Hp & _).
    destruct (C23_uses_vertex t a (fst y) c w v R Hc Hp) as (u & Eu & Hu). exists u. split; auto. rewrite Hu. split.
    + intros (e & d & Hi & He). exists e. split; auto. exists c. split; auto. apply in_map_iff. exists (e, d). auto.
    + intros (e & (c' & Hc' & Hi) & He). rewrite Hc in Hc'. inversion Hc'; subst c'. apply in_map_iff in Hi. destruct Hi as ([e' d] & Ee & Hi). cbn in Ee. subst e'. exists e, d. auto.
  - exists u. split; auto. rewrite Hu. unfold r_vertex, v_region, e_region. split.
    + intros [|(f & Hi & e & He & Hv)]; [discriminate|]. destruct Eb as (-> & _). apply in_map_iff in Hi. destruct Hi as ([f' d] & Ef & Hd). cbn in Ef. subst f'. exists e. split; auto. exists f, d. split; auto. exists b. auto.
    + intros (e & Hv & f & d & He & (b' & Hb' & Hi)). rewrite Hr in Hb'. inversion Hb'; subst b'. right. exists f. split; eauto. destruct Eb as (-> & _). apply in_map_iff. exists (f, d). auto.
Qed.
Print Assumptions C26_region_uses_edge.
Print Assumptions C26_region_uses_vertex.
Example C26_region_uses_ex : reach T2 (arun amesh0 bipyramid) /\ (exists b, a_r (arun amesh0 bipyramid) 24 = Some (true, Some b) /\ Forall (fun x => good_face (arun amesh0 bipyramid) (fst x)) b) /\
  MR_UsesVertex T2 24 5 = Ok true /\ MR_UsesVertex T2 24 6 = Ok false /\ MR_UsesEdge T2 24 6 = Ok true /\ MR_UsesEdge T2 24 22 = Ok false.
Proof.
  split. exact T2_reach. split; [|split; [vm_compute; reflexivity|split; [vm_compute; reflexivity|split; vm_compute; reflexivity]]].
  eexists. split. vm_compute. reflexivity.
  constructor; [goodf 1|]. constructor; [goodf 1|]. constructor; [goodf 1|]. constructor; [goodf 2|]. constructor; [goodf 3|]. constructor; [goodf 2|]. constructor.
Qed.
