(** C58: cutting triangles into quadrilaterals. *)
From Coq Require Import ZArith List Lia Bool Arith ZifyBool ZifyNat Permutation.
From Verif Require Import Base BaseProofs ListSpec AttModel AttProps TopoModel ParModel ParProps TopoSpec TopoProofs TopoProofs2 TopoProofs3 TopoProofs4 TopoProofs5 TopoProofs6 TopoProofs7 TopoProps TopoProps2 CheckProps RefineProofs FileModel SendModel SendSpec PartModel PartSpec PartProps QuadModel.
Import ListNotations.
Open Scope Z_scope.

(** ** Specification *)

(** The sides of a cell, in its direction. *)
Definition sides (q : list lab) : list (lab * lab) := match q with [] => [] | x :: r => combine q (r ++ [x]) end.
(** Face [f] goes along edge [e] from [v] to [w]. *)
Definition runs (a : amesh) (f v e w : ptr) : Prop := exists b d x, a_f a f = Some (true, Some b) /\ In (e, d) b /\ a_e a e = Some (true, x) /\ d_start x d = v /\ d_end x d = w.
(** A closed loop of [n] edges through [n] vertices. *)
Definition polygon (a : amesh) (n : nat) (f : ptr) : Prop := exists b u, a_f a f = Some (true, Some b) /\ length b = n /\ path a u b u /\ NoDup (map (vat a) b) /\ ~ In NULL (map (vat a) b).
(** No two faces go along an edge in the same direction. *)
Definition oriented (a : amesh) : Prop := forall f g v e w, runs a f v e w -> runs a g v e w -> f = g.

(** ** One triangle *)

Lemma tri_quads : forall t a f, reach t a -> polygon a 3 f -> exists v0 v1 v2 e0 e1 e2,
  quads_of t f = Ok [[Corner v0; Mid e0; Centre f; Mid e2]; [Mid e0; Corner v1; Mid e1; Centre f]; [Mid e2; Centre f; Mid e1; Corner v2]] /\ (exists l, MF_Vertices t f 1 NULL = Ok l /\ ZL l = 3) /\
  runs a f v0 e0 v1 /\ runs a f v1 e1 v2 /\ runs a f v2 e2 v0 /\ NoDup [v0; v1; v2] /\ NoDup [e0; e1; e2] /\
  (forall v e w, runs a f v e w -> (v, e, w) = (v0, e0, v1) \/ (v, e, w) = (v1, e1, v2) \/ (v, e, w) = (v2, e2, v0)).
Proof.
  intros t a f R (b & u & Hf & L & HP & N & NN). pose proof (reach_inv _ _ R) as I. destruct b as [|x0 [|x1 [|x2 [|? b]]]]; try discriminate. pose proof (closed_linked _ _ _ HP) as (FO & LK).
  pose proof (LK 0%nat ltac:(cbn; lia)) as K0. pose proof (LK 1%nat ltac:(cbn; lia)) as K1. pose proof (LK 2%nat ltac:(cbn; lia)) as K2. cbn in K0, K1, K2.
  assert (NE : NoDup (map fst [x0; x1; x2])) by (apply (w_fnd _ (i_w _ _ I) _ _ _ Hf)).
  destruct (C23_face_loop t a f _ u true NULL R Hf HP) as (A & _ & _). destruct (A eq_refl) as (vs & EV & _ & AR). change (walk true [x0; x1; x2]) with [x0; x1; x2] in AR. apply around_vat in AR. change (b2z true) with 1 in EV.
  assert (N0 : vat a x0 <> NULL) by (intros E; apply NN; left; auto). pose proof (edges_from t a f [] x0 [x1; x2] u R Hf HP N N0) as EE. cbn [app map] in EE, AR.
  assert (RU : forall x, In x [x0; x1; x2] -> runs a f (vat a x) (fst x) (vend a x)). { intros x Hx. rewrite Forall_forall in FO. destruct (FO x Hx) as (p & Hp). exists [x0; x1; x2], (snd x), p. split; auto. split. destruct x; auto. split; auto. unfold vat, vend. rewrite Hp. auto. }
  exists (vat a x0), (vat a x1), (vat a x2), (fst x0), (fst x1), (fst x2). split; [|split; [|split; [|split; [|split; [|split; [|split]]]]]].
  - unfold quads_of. rewrite EV. cbn [bind]. rewrite AR. change (lent [vat a x0; vat a x1; vat a x2] 0) with (Ok (vat a x0)). cbn [bind]. rewrite EE. cbn [bind]. reflexivity.
  - exists vs. split; auto. rewrite AR. reflexivity.
  - rewrite <- K0. apply RU. cbn; auto.
  - rewrite <- K1. apply RU. cbn; auto.
  - rewrite <- K2. apply RU. cbn; auto.
  - exact N.
  - exact NE.
  - intros v e w (b' & d & x & Hb & Hi & He & <- & <-). rewrite Hf in Hb. inversion Hb; subst b'. assert (Q1 : d_start x d = vat a (e, d)) by (unfold vat; cbn; rewrite He; auto). assert (Q2 : d_end x d = vend a (e, d)) by (unfold vend; cbn; rewrite He; auto). rewrite Q1, Q2. change e with (fst (e, d)) at 2 5 8. destruct Hi as [Hi|[Hi|[Hi|[]]]]; rewrite <- Hi; [left|right; left|right; right]; congruence.
Qed.
Lemma all_tris_ok : forall t a faces, reach t a -> (forall f, In f faces -> polygon a 3 f) -> all_tris t faces = Ok true.
Proof.
  intros t a faces R. induction faces as [|f faces IH]; intros H; cbn [all_tris]; auto. destruct (tri_quads t a f R) as (? & ? & ? & ? & ? & ? & _ & (l & E & L) & _). apply H; left; auto. rewrite E. cbn [bind]. rewrite L. cbn [Z.ltb Z.compare Z.eqb negb]. change (100 <? 3) with false. cbv iota. cbn. apply IH. intros; apply H; right; auto.
Qed.
Definition block (t : topo) (f : ptr) : list (list lab) := match quads_of t f with Ok l => l | _ => [] end.
Lemma mapM_blocks : forall t faces, (forall f, In f faces -> quads_of t f = Ok (block t f)) -> mapM (quads_of t) faces = Ok (map (block t) faces).
Proof. intros t. induction faces as [|f faces IH]; intros H; cbn [mapM map]; auto. rewrite H by (left; auto). cbn [bind]. rewrite IH by (intros; apply H; right; auto). auto. Qed.
Lemma tri2quad_ok : forall t a faces, reach t a -> (forall f, In f faces -> polygon a 3 f) -> MESH_Tri2Quad t faces = Ok (Some (flat_map (block t) faces)).
Proof.
  intros t a faces R H. unfold MESH_Tri2Quad. rewrite (all_tris_ok t a faces R H). cbn [bind negb]. rewrite mapM_blocks. rewrite flat_map_concat_map. auto. intros f Hf. destruct (tri_quads t a f R (H f Hf)) as (? & ? & ? & ? & ? & ? & E & _). unfold block. rewrite E. auto.
Qed.
(** A side of the cells of [f]: half an edge of [f] in the direction of [f], or a line
    between the middle of an edge and the centre. *)
Definition side_of (a : amesh) (f : ptr) (s : lab * lab) : Prop := exists v e w, runs a f v e w /\ (s = (Corner v, Mid e) \/ s = (Mid e, Corner w) \/ s = (Mid e, Centre f) \/ s = (Centre f, Mid e)).
Lemma block_sides : forall t a f, reach t a -> polygon a 3 f -> NoDup (flat_map sides (block t f)) /\ (forall s, In s (flat_map sides (block t f)) <-> side_of a f s) /\
  length (block t f) = 3%nat /\ (forall q, In q (block t f) -> length q = 4%nat /\ NoDup q /\ In (Centre f) q /\ exists v e w, runs a f v e w /\ In (Corner v) q /\ forall v', In (Corner v') q -> v' = v) /\
  (forall v e w, runs a f v e w -> exists q, In q (block t f) /\ In (Corner v) q) /\ NoDup (map (fun q => filter (fun x => match x with Corner _ => true | _ => false end) q) (block t f)).
Proof.
  intros t a f R P. destruct (tri_quads t a f R P) as (v0 & v1 & v2 & e0 & e1 & e2 & E & _ & R0 & R1 & R2 & NV & NE & ALL). unfold block. rewrite E. clear E P R.
  assert (D1 : v0 <> v1 /\ v0 <> v2 /\ v1 <> v2). { inversion NV as [|? ? A B]; subst. inversion B as [|? ? C _]; subst. cbn in *. intuition congruence. }
  assert (D2 : e0 <> e1 /\ e0 <> e2 /\ e1 <> e2). { inversion NE as [|? ? A B]; subst. inversion B as [|? ? C _]; subst. cbn in *. intuition congruence. }
  split; [|split; [|split; [|split; [|split]]]].
  - cbn. repeat constructor; cbn; intuition congruence.
  - intros s. cbn. split.
    + intros H. repeat destruct H as [<-|H]; try tauto; first [exists v0, e0, v1; split; [exact R0|]; intuition congruence|exists v1, e1, v2; split; [exact R1|]; intuition congruence|exists v2, e2, v0; split; [exact R2|]; intuition congruence].
    + intros (v & e & w & HR & HS). destruct (ALL v e w HR) as [Q|[Q|Q]]; inversion Q; subst; destruct HS as [->|[->|[->| ->]]]; tauto.
  - reflexivity.
  - intros q Hq. cbn in Hq. destruct Hq as [<-|[<-|[<-|[]]]]; (split; [reflexivity|]; split; [repeat constructor; cbn; intuition congruence|]; split; [cbn; tauto|]).
    exists v0, e0, v1. split; auto. split. cbn; auto. cbn. intuition congruence. exists v1, e1, v2. split; auto. split. cbn; auto. cbn. intuition congruence. exists v2, e2, v0. split; auto. split. cbn; auto. cbn. intuition congruence.
  - intros v e w HR. destruct (ALL v e w HR) as [Q|[Q|Q]]; inversion Q; subst; [exists [Corner v0; Mid e0; Centre f; Mid e2]|exists [Mid e0; Corner v1; Mid e1; Centre f]|exists [Mid e2; Centre f; Mid e1; Corner v2]]; cbn; tauto.
  - cbn. repeat constructor; cbn; intuition congruence.
Qed.

(** ** The mesh of quadrilaterals *)

(** Every triangle gives three cells of four different vertices, with the centre and
    one corner each; their sides are the halves of the edges, in the direction of the
    triangle, and the lines to the centre in both directions. *)
Theorem C58_quads : forall t a faces, reach t a -> lists faces (live_f a) -> (forall f, In f faces -> polygon a 3 f) ->
  exists qs, MESH_Tri2Quad t faces = Ok (Some qs) /\ length qs = (3 * length faces)%nat /\
    (forall q, In q qs -> length q = 4%nat /\ NoDup q /\ exists f v e w, runs a f v e w /\ In (Centre f) q /\ In (Corner v) q /\ forall v', In (Corner v') q -> v' = v) /\
    (forall f v e w, runs a f v e w -> exists q, In q qs /\ In (Corner v) q /\ In (Centre f) q) /\
    (forall s, In s (flat_map sides qs) <-> exists f, side_of a f s).
Proof.
  intros t a faces R LF HP. exists (flat_map (block t) faces). split. eapply tri2quad_ok; eauto. assert (LV : forall f v e w, runs a f v e w -> In f faces) by (intros f v e w (b & d & x & Hb & _); apply (proj2 LF); exists (Some b); auto).
  split; [|split; [|split]].
  - clear LF LV. induction faces as [|f faces IH]; cbn [flat_map length]; auto. rewrite app_length, IH by (intros; apply HP; right; auto). destruct (block_sides t a f R) as (_ & _ & -> & _). apply HP; left; auto. lia.
  - intros q Hq. apply in_flat_map in Hq. destruct Hq as (f & Hf & Hq). destruct (block_sides t a f R (HP f Hf)) as (_ & _ & _ & H & _). destruct (H q Hq) as (L & N & C & v & e & w & HR & I & U). split; auto. split; auto. exists f, v, e, w. auto.
  - intros f v e w HR. pose proof (LV _ _ _ _ HR) as Hf. destruct (block_sides t a f R (HP f Hf)) as (_ & _ & _ & H1 & H2 & _). destruct (H2 v e w HR) as (q & Hq & I). exists q. split. apply in_flat_map. exists f. auto. split; auto. apply (H1 q Hq).
  - intros s. split.
    + intros H. apply in_flat_map in H. destruct H as (q & Hq & Hs). apply in_flat_map in Hq. destruct Hq as (f & Hf & Hq). exists f. destruct (block_sides t a f R (HP f Hf)) as (_ & H & _). apply H. apply in_flat_map. exists q. auto.
    + intros (f & HS). assert (Hf : In f faces) by (destruct HS as (v & e & w & HR & _); eauto). destruct (block_sides t a f R (HP f Hf)) as (_ & H & _). apply H in HS. apply in_flat_map in HS. destruct HS as (q & Hq & Hs). apply in_flat_map. exists q. split; auto. apply in_flat_map. exists f. auto.
Qed.
Print Assumptions C58_quads.
(** If no two triangles go along an edge in the same direction, no two cells have a
    side in common in the same direction: the cells meet side to side. *)
Theorem C58_oriented : forall t a faces, reach t a -> lists faces (live_f a) -> (forall f, In f faces -> polygon a 3 f) -> oriented a ->
  exists qs, MESH_Tri2Quad t faces = Ok (Some qs) /\ NoDup (flat_map sides qs).
Proof.
  intros t a faces R (ND & _) HP OR. exists (flat_map (block t) faces). split. eapply tri2quad_ok; eauto.
  induction faces as [|f faces IH]; cbn [flat_map]. constructor. rewrite flat_map_app. inversion ND; subst. apply NoDup_app_intro'.
  - apply (block_sides t a f R). apply HP; left; auto.
  - apply IH; auto. intros; apply HP; right; auto.
  - intros s I1 I2. assert (S1 : side_of a f s) by (apply (block_sides t a f R); auto; apply HP; left; auto). apply in_flat_map in I2. destruct I2 as (q & Hq & Hs). apply in_flat_map in Hq. destruct Hq as (g & Hg & Hq). assert (S2 : side_of a g s) by (apply (block_sides t a g R); [apply HP; right; auto|apply in_flat_map; exists q; auto]).
    assert (E : f = g). { destruct S1 as (v & e & w & HR & C1), S2 as (v' & e' & w' & HR' & C2). destruct C1 as [->|[->|[->| ->]]]; destruct C2 as [Q|[Q|[Q|Q]]]; inversion Q; subst; auto.
      - eapply (OR f g v' e' w); auto. destruct HR as (b & d & x & A1 & A2 & A3 & A4 & A5), HR' as (b' & d' & x' & B1 & B2 & B3 & B4 & B5). rewrite A3 in B3. inversion B3; subst x'. exists b', d', x. repeat split; auto. rewrite <- B4 in A4. clear - A4 A5 B5. destruct x as [p r], d, d'; cbn in *; congruence.
      - eapply (OR f g v e' w'); auto. destruct HR as (b & d & x & A1 & A2 & A3 & A4 & A5), HR' as (b' & d' & x' & B1 & B2 & B3 & B4 & B5). rewrite A3 in B3. inversion B3; subst x'. exists b', d', x. repeat split; auto. rewrite <- B5 in A5. clear - A4 A5 B4. destruct x as [p r], d, d'; cbn in *; congruence. }
    subst g. tauto.
Qed.
Print Assumptions C58_oriented.

(** ** Other faces *)

Lemma polygon_verts : forall t a f n, reach t a -> polygon a n f -> exists l, MF_Vertices t f 1 NULL = Ok l /\ ZL l = Z.of_nat n.
Proof.
  intros t a f n R (b & u & Hf & L & HP & _). destruct (C23_face_loop t a f _ u true NULL R Hf HP) as (A & _ & _). destruct (A eq_refl) as (vs & EV & _ & AR). exists vs. split; auto. apply around_vat in AR. change (walk true b) with b in AR. rewrite AR. unfold ZL. rewrite map_length. lia.
Qed.
(** A face of another number of edges is noticed: 0 is returned. *)
Theorem C58_refused : forall t a pre f post n, reach t a -> (forall g, In g pre -> polygon a 3 g) -> polygon a n f -> n <> 3%nat ->
  MESH_Tri2Quad t (pre ++ f :: post) = Ok None.
Proof.
  intros t a pre f post n R HP Hf N. assert (M : (n <= 32)%nat). { destruct Hf as (b & u & Hb & L & _). pose proof (proj2 (w_fnd _ (i_w _ _ (reach_inv _ _ R)) _ _ _ Hb)) as Q. unfold maxfe in Q. lia. }
  unfold MESH_Tri2Quad. assert (E : all_tris t (pre ++ f :: post) = Ok false).
  { induction pre as [|g pre IH]; cbn [app all_tris].
    - destruct (polygon_verts t a f n R Hf) as (l & E & L). rewrite E. cbn [bind]. rewrite L. replace (100 <? Z.of_nat n) with false by lia. replace (Z.of_nat n =? 3) with false by lia. auto.
    - destruct (polygon_verts t a g 3 R) as (l & E & L). apply HP; left; auto. rewrite E. cbn [bind]. rewrite L. apply IH. intros; apply HP; right; auto. }
  rewrite E. auto.
Qed.
Print Assumptions C58_refused.

(** ** Examples *)

Fixpoint pathb (a : amesh) (v : ptr) (nd : bdry) (v' : ptr) : bool :=
  match nd with
  | [] => v =? v'
  | (e, d) :: r => match a_e a e with Some (true, x) => negb (fst x =? snd x) && (d_start x d =? v) && pathb a (d_end x d) r v' | _ => false end
  end.
Lemma pathb_ok : forall a nd v v', pathb a v nd v' = true -> path a v nd v'.
Proof.
  intros a. induction nd as [|[e d] nd IH]; intros v v' H; cbn in *. apply Z.eqb_eq; auto. destruct (a_e a e) as [[[] x]|]; try discriminate. apply andb_prop in H. destruct H as (H & H3). apply andb_prop in H. destruct H as (H1 & H2). exists x. split; auto. split. lia. split. lia. auto.
Qed.
Definition polygonb (a : amesh) (n : nat) (f : ptr) : bool :=
  match a_f a f with
  | Some (true, Some b) => (length b =? n)%nat && pathb a (vat a (hd dflt b)) b (vat a (hd dflt b)) && (length (nodup Z.eq_dec (map (vat a) b)) =? n)%nat && negb (mem NULL (map (vat a) b))
  | _ => false
  end.
Lemma nodup_full : forall l, length (nodup Z.eq_dec l) = length l -> NoDup l.
Proof.
  intros l H. apply (NoDup_incl_NoDup (l := nodup Z.eq_dec l)). apply NoDup_nodup. lia. intros x Hx. apply nodup_In in Hx. auto.
Qed.
Lemma polygonb_ok : forall a n f, polygonb a n f = true -> polygon a n f.
Proof.
  intros a n f H. unfold polygonb in H. destruct (a_f a f) as [[[] [b|]]|] eqn:E; try discriminate. repeat (apply andb_prop in H; destruct H as [H ?]). exists b, (vat a (hd dflt b)). split; auto. apply Nat.eqb_eq in H. split; auto. split. apply pathb_ok; auto. split. apply nodup_full. rewrite map_length. apply Nat.eqb_eq in H1. lia.
  intros I. apply mem_In in I. rewrite I in H0. discriminate.
Qed.
Definition strip_faces : list ptr := [13; 14; 15].
Lemma strip_hyps : reach (sm_t (strip_mesh clean)) (arun amesh0 strip) /\ lists strip_faces (live_f (arun amesh0 strip)) /\ (forall f, In f strip_faces -> polygon (arun amesh0 strip) 3 f).
Proof.
  pose proof (strip_ok clean) as P. split. apply (pa_reach _ _ P). split. split. exact (pa_nd _ _ P 2). exact (pa_f _ _ P).
  intros f [<-|[<-|[<-|[]]]]; apply polygonb_ok; vm_compute; reflexivity.
Qed.
Example C58_quads_ex : reach (sm_t (strip_mesh clean)) (arun amesh0 strip) /\ lists strip_faces (live_f (arun amesh0 strip)) /\ (forall f, In f strip_faces -> polygon (arun amesh0 strip) 3 f) /\
  exists rest, MESH_Tri2Quad (sm_t (strip_mesh clean)) strip_faces = Ok (Some ([Corner 1; Mid 6; Centre 13; Mid 8] :: [Mid 6; Corner 2; Mid 7; Centre 13] :: [Mid 8; Centre 13; Mid 7; Corner 3] :: rest)) /\ length rest = 6%nat.
Proof. destruct strip_hyps as (A & B & C). split. exact A. split. exact B. split. exact C. eexists. split. vm_compute. reflexivity. reflexivity. Qed.
Lemma strip_oriented : oriented (arun amesh0 strip).
Proof.
  assert (X : forall f v e w, runs (arun amesh0 strip) f v e w -> In (f, v, e) [(13, 1, 6); (13, 2, 7); (13, 3, 8); (14, 2, 9); (14, 4, 10); (14, 3, 7); (15, 4, 11); (15, 5, 12); (15, 3, 10)]).
  { intros f v e w (b & d & x & Hb & Hi & He & <- & _). assert (Hf : In f strip_faces) by (apply (proj2 (proj1 (proj2 strip_hyps))); exists (Some b); auto).
    destruct Hf as [<-|[<-|[<-|[]]]]; vm_compute in Hb; inversion Hb; subst b; clear Hb; cbn in Hi; repeat (destruct Hi as [Hi|Hi]; [inversion Hi; subst; vm_compute in He; inversion He; subst; cbn; tauto|]); destruct Hi. }
  intros f g v e w H1 H2. apply X in H1, H2. cbn in H1, H2. repeat (destruct H1 as [H1|H1]; [inversion H1; subst; repeat (destruct H2 as [H2|H2]; [inversion H2; reflexivity|]); destruct H2|]). destruct H1.
Qed.
Example C58_oriented_ex : reach (sm_t (strip_mesh clean)) (arun amesh0 strip) /\ lists strip_faces (live_f (arun amesh0 strip)) /\ (forall f, In f strip_faces -> polygon (arun amesh0 strip) 3 f) /\ oriented (arun amesh0 strip).
Proof. destruct strip_hyps as (A & B & C). split. exact A. split. exact B. split. exact C. exact strip_oriented. Qed.
(** A triangle and a square at its side. *)
Definition house : list top := [TNewV; TNewV; TNewV; TNewV; TNewV;
  TNewE; TSetVertex 6 false 1; TSetVertex 6 true 2; TNewE; TSetVertex 7 false 2; TSetVertex 7 true 3; TNewE; TSetVertex 8 false 3; TSetVertex 8 true 1;
  TNewE; TSetVertex 9 false 2; TSetVertex 9 true 4; TNewE; TSetVertex 10 false 4; TSetVertex 10 true 5; TNewE; TSetVertex 11 false 5; TSetVertex 11 true 3;
  TNewF; TSetEdges 12 [(6, true); (7, true); (8, true)]; TNewF; TSetEdges 13 [(9, true); (10, true); (11, true); (7, false)]].
Example C58_refused_ex : reach (tget house) (arun amesh0 house) /\ (forall g, In g [12] -> polygon (arun amesh0 house) 3 g) /\ polygon (arun amesh0 house) 4 13 /\ MESH_Tri2Quad (tget house) [12; 13] = Ok None.
Proof.
  split. apply (reach_tget house). vm_compute. reflexivity. split. intros g [<-|[]]. apply polygonb_ok. vm_compute. reflexivity. split. apply polygonb_ok. vm_compute. reflexivity. vm_compute. reflexivity.
Qed.
