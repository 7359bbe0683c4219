(** C39, C26: vertices and edges of standard elements, and the templates. *)
From Coq Require Import ZArith List Lia Bool Arith ZifyBool ZifyNat Permutation.
From Verif Require Import Base BaseProofs ListSpec HashProofs AttModel AttProps ParModel ParProps TopoModel TopoSpec TopoProofs TopoProofs2 TopoProofs3 TopoProofs4 TopoProofs5 TopoProofs6 TopoProofs7 TopoProps TopoProps2 TopoProps3 ModProofs CellModel CellSpec CellProofs CellProofs2 CellProofs3 CellProofs4 CellProofs5 CellProofs6.
Import ListNotations.
Open Scope Z_scope.

(** ** The stored element type *)

(** After MR_Set_Faces the stored type is the one of the faces, hence the type of
    the cell if the faces form one. *)
Theorem C39_type_stored : forall t a r b t' s ws, reach t a -> tpre a (TSetFaces r b) -> tstep t (TSetFaces r b) = Ok t' ->
  In s std -> cell (astep a (TSetFaces r b)) s b ws -> exists x, trs t' r = Some x /\ r_type x = kind_of s.
Proof.
  intros t a r b t' s ws R HP E HS HC. destruct (reach_step t a _ R HP) as (t2 & E2 & R'). rewrite E in E2. inversion E2; subst t2.
  assert (Hr : a_r (astep a (TSetFaces r b)) r = Some (true, Some b)) by (cbn in HP |- *; rewrite zupd_same; destruct HP as ([HP|HP] & _); rewrite HP; auto).
  assert (T : typed t' r). { cbn [tstep] in E. unfold MR_Set_Faces in E. destruct (getr t r); try discriminate. cbn [bind] in E. destruct (_ <? 0); try discriminate. match type of E with bind ?m _ = _ => destruct m as [t1| | |]; try discriminate E end. cbn [bind] in E. eapply update_typed; eauto. }
  destruct (typed_kind t' _ r b s ws R' Hr HS HC T) as (x & H1 & _ & H2). eauto.
Qed.
Print Assumptions C39_type_stored.

(** ** Vertices *)

(** MR_Vertices on a region whose faces, in any order, with any directions and any
    starting vertices, form a standard cell, lists the vertices of the cell once,
    in an order in which the cell has the standard shape.  For prisms no edge
    outside the cell may join two of its vertices. *)
Theorem C39_region_vertices : forall t a r b s ws, reach t a -> a_r a r = Some (true, Some b) -> typed t r -> In s std -> cell a s b ws -> (s = prism -> chordless a b ws) ->
  exists vs, MR_Vertices t r = Ok (Some vs) /\ cell a s b vs /\ lists vs (r_vertex a r).
Proof.
  intros t a r b s ws R Hr HT HS HC CH. destruct (typed_kind t a r b s ws R Hr HS HC HT) as (x & Hx & Hl & Hk).
  assert (K : exists vs, MR_Vertices t r = Ok (Some vs) /\ cell a s b vs).
  { unfold MR_Vertices, getr. rewrite Hx. cbn [bind]. rewrite Hl. cbn [bind nn]. rewrite Hk. destruct HS as [<-|[<-|[<-|[<-|[]]]]]; cbn [kind_of s_nv tetrahedron pyramid prism hexahedron].
    - destruct (tet_ok t a r b ws R Hr HC) as (vs & es & E & _ & C & _). exists vs. rewrite E. auto.
    - destruct (pyramid_ok t a r b ws R Hr HC) as (vs & es & k & E & _ & _ & _ & _ & C & _). exists vs. rewrite E. auto.
    - destruct (prism_ok t a r b ws R Hr HC (CH eq_refl)) as (vs & es & k & E & _ & _ & _ & _ & C & _). exists vs. rewrite E. auto.
    - destruct (hex_ok t a r b ws R Hr HC) as (vs & E & C & _). exists vs. rewrite E. auto. }
  destruct K as (vs & E & C). exists vs. split; auto. split; auto. eapply verts_list; eauto.
Qed.
Print Assumptions C39_region_vertices.

(** ** Edges *)

(** MR_Edges lists the edges of the cell once, in the order of the standard shape
    on the vertices MR_Vertices lists. *)
Theorem C39_region_edges : forall t a r b s ws, reach t a -> a_r a r = Some (true, Some b) -> typed t r -> In s std -> cell a s b ws -> chordless a b ws ->
  exists vs es, MR_Vertices t r = Ok (Some vs) /\ MR_Edges t r = Ok es /\ cell a s b vs /\ edges_of a s vs es /\ lists es (r_edge a r).
Proof.
  intros t a r b s ws R Hr HT HS HC CH. destruct (typed_kind t a r b s ws R Hr HS HC HT) as (x & Hx & Hl & Hk). pose proof HC as (CV1 & CV2 & CV3 & _ & Ls & PL & FA). pose proof (cell_counts t a s b ws Ls R PL FA) as CN.
  assert (ZB : ZL (map fst b) = Z.of_nat (length (s_loops s))). { unfold ZL. rewrite map_length, (F2_length _ _ _ _ _ FA), (Permutation_length PL). auto. }
  assert (AL : forall n, (forall L, In L (s_loops s) -> length L = n) -> forallb (fun m => m =? Z.of_nat n) (map (fun L => Z.of_nat (length L)) Ls) = true). { intros n H. apply forallb_forall. intros z Hz. apply in_map_iff in Hz. destruct Hz as (L & <- & HL). apply (Permutation_in _ PL) in HL. rewrite (H L HL). apply Z.eqb_refl. }
  assert (K : exists vs es, MR_Vertices t r = Ok (Some vs) /\ MR_Edges t r = Ok es /\ cell a s b vs /\ edges_of a s vs es).
  { unfold MR_Vertices, MR_Edges, getr. rewrite Hx. cbn [bind]. rewrite Hl. cbn [bind nn]. rewrite Hk, ZB, CN. destruct HS as [<-|[<-|[<-|[<-|[]]]]]; cbn [kind_of s_nv tetrahedron pyramid prism hexahedron].
    - destruct (tet_ok t a r b ws R Hr HC) as (vs & es & E1 & E2 & C & EO). exists vs, es. rewrite E1. split; auto. change (Z.of_nat (length (s_loops tetrahedron)) =? 4) with true. cbn [bind]. change 3 with (Z.of_nat 3). rewrite (AL 3%nat); auto. intros L HL; repeat (destruct HL as [<-|HL]; [reflexivity|]); destruct HL.
    - destruct (pyramid_ok t a r b ws R Hr HC) as (vs & es & k & E1 & EK & N1 & N2 & E2 & C & EO). exists vs, es. rewrite E1. split; auto. change (Z.of_nat (length (s_loops pyramid))) with 5. cbn [Z.eqb Pos.eqb]. rewrite EK. cbn [bind]. rewrite N1, N2. auto.
    - destruct (prism_ok t a r b ws R Hr HC CH) as (vs & es & k & E1 & EK & N1 & N2 & E2 & C & EO). exists vs, es. rewrite E1. split; auto. change (Z.of_nat (length (s_loops prism))) with 5. cbn [Z.eqb Pos.eqb]. rewrite EK. cbn [bind]. rewrite N1, N2. auto.
    - destruct (hex_ok t a r b ws R Hr HC) as (vs & E1 & C & EE). destruct (EE CH) as (es & E2 & EO). exists vs, es. rewrite E1. split; auto. change (Z.of_nat (length (s_loops hexahedron))) with 6. cbn [Z.eqb Pos.eqb bind]. change 4 with (Z.of_nat 4) at 1. rewrite (AL 4%nat); auto. intros L HL; repeat (destruct HL as [<-|HL]; [reflexivity|]); destruct HL. }
  destruct K as (vs & es & E1 & E2 & C & EO). exists vs, es. split; auto. split; auto. split; auto. split; auto. pose proof C as (V1 & V2 & V3 & _ & Ls' & PL' & FA').
  apply (edges_list a r s b vs Ls' es HS Hr C); auto. split; auto. apply (chordless_to a s b ws Ls vs Ls' HS); auto; split; auto.
Qed.
Print Assumptions C39_region_edges.

(** ** Examples: all four kinds in one mesh *)

(** Checking the hypotheses on concrete meshes. *)
Fixpoint pathb a (v : ptr) (nd : list (ptr * bool)) (v' : ptr) : bool :=
  match nd with
  | [] => v =? v'
  | (e, d) :: nd' => match a_e a e with Some (true, x) => negb (fst x =? snd x) && (d_start x d =? v) && pathb a (d_end x d) nd' v' | _ => false end
  end.
Lemma pathb_ok : forall a nd v v', pathb a v nd v' = true -> path a v nd v'.
Proof.
  induction nd as [|[e d] nd IH]; intros v v' H; cbn in *. apply Z.eqb_eq; auto. destruct (a_e a e) as [[[] x]|]; try discriminate. rewrite !andb_true_iff, negb_true_iff, Z.eqb_neq, Z.eqb_eq in H. destruct H as ((H1 & H2) & H3). exists x. auto.
Qed.
Definition zleqb (x y : list ptr) : bool := if list_eq_dec Z.eq_dec x y then true else false.
Definition outwardb a (x : ptr * bool) (vs : list ptr) : bool :=
  match a_f a (fst x) with
  | Some (true, Some fb) => pathb a (vat a (hd dflt fb)) fb (vat a (hd dflt fb)) && existsb (fun k => zleqb (map (vat a) (skipn k (walk (snd x) fb) ++ firstn k (walk (snd x) fb))) vs) (seq 0 (length fb))
  | _ => false
  end.
Lemma outwardb_ok : forall a x vs, outwardb a x vs = true -> outward a x vs.
Proof.
  intros a x vs H. unfold outwardb in H. destruct (a_f a (fst x)) as [[[] [fb|]]|] eqn:E; try discriminate. rewrite andb_true_iff in H. destruct H as (H1 & H2). apply pathb_ok in H1. apply existsb_exists in H2. destruct H2 as (k & _ & H2). unfold zleqb in H2. destruct (list_eq_dec _ _ _) as [E2|]; try discriminate. subst vs.
  assert (RO : rotation (walk (snd x) fb) (skipn k (walk (snd x) fb) ++ firstn k (walk (snd x) fb))) by (exists (firstn k (walk (snd x) fb)), (skipn k (walk (snd x) fb)); rewrite firstn_skipn; auto).
  exists fb, (vat a (hd dflt fb)), (skipn k (walk (snd x) fb) ++ firstn k (walk (snd x) fb)). split; auto. split; auto. split; auto. apply linked_around. eapply linked_rotation; [|exact RO]. apply linked_walk. eapply closed_linked; eauto.
Qed.
Definition edges_in a (b : list (ptr * bool)) : list ptr := flat_map (fun x => match a_f a (fst x) with Some (true, Some fb) => map fst fb | _ => [] end) b.
Definition same_ends a e e' : bool := match a_e a e, a_e a e' with Some (true, (p, q)), Some (true, (p', q')) => (p =? p') && (q =? q') || (p =? q') && (q =? p') | _, _ => false end.
Definition cellb a (s : shape) (b : list (ptr * bool)) (ws : list ptr) (order : list nat) : bool :=
  (length ws =? s_nv s)%nat && (length (nodup Z.eq_dec ws) =? length ws)%nat && forallb (fun v => match a_v a v with Some true => true | _ => false end) ws &&
  forallb (fun e => forallb (fun e' => implb (same_ends a e e') (e =? e')) (edges_in a b)) (edges_in a b) &&
  (length order =? length (s_loops s))%nat && (length b =? length order)%nat && forallb (fun i => (i <? length (s_loops s))%nat) order && (length (nodup Nat.eq_dec order) =? length order)%nat &&
  forallb (fun i => outwardb a (nth i b dflt) (map (W ws) (nth (nth i order 0%nat) (s_loops s) []))) (seq 0 (length b)).
Lemma order_perm : forall (L : list (list nat)) order, length order = length L -> (forall i, In i order -> (i < length L)%nat) -> NoDup order -> Permutation (map (fun i => nth i L []) order) L.
Proof.
  intros L order HL HB HN. transitivity (map (fun i => nth i L []) (seq 0 (length L))).
  - apply Permutation_map. apply NoDup_Permutation_bis; auto. rewrite seq_length. lia. intros i Hi. apply in_seq. apply HB in Hi. lia.
  - replace (map (fun i => nth i L []) (seq 0 (length L))) with L; auto. symmetry. apply (list_ext _ []). rewrite map_length, seq_length. auto. rewrite map_length, seq_length. intros i Hi. pose proof (map_nth (fun i => nth i L []) (seq 0 (length L)) 0%nat i) as M. cbv beta in M. rewrite seq_nth in M by auto. cbn [plus] in M. rewrite <- M. apply nth_indep. rewrite map_length, seq_length; auto.
Qed.
Lemma cellb_ok : forall a s b ws order, cellb a s b ws order = true -> cell a s b ws.
Proof.
  intros a s b ws order H. unfold cellb in H. rewrite !andb_true_iff in H. destruct H as ((((((((H1 & H2) & H3) & H4) & H5) & H6) & H7) & H8) & H9). apply Nat.eqb_eq in H1, H2, H5, H6, H8. apply nodup_length in H2, H8. rewrite forallb_forall in H3, H4, H7, H9.
  split; auto. split; auto. split. { apply Forall_forall. intros v Hv. specialize (H3 v Hv). unfold live_v. destruct (a_v a v) as [[]|]; auto; discriminate. } split.
  - assert (EI : forall e, cell_edge a b e -> In e (edges_in a b)). { intros e (f & d & Hf & (fb & Hb & Hi)). apply in_flat_map. exists (f, d). split; auto. cbn [fst]. rewrite Hb. auto. }
    intros e e' u w He He' (p & q & E1 & X1) (p' & q' & E2 & X2). specialize (H4 e (EI e He)). rewrite forallb_forall in H4. specialize (H4 e' (EI e' He')). unfold same_ends in H4. rewrite E1, E2 in H4. apply Z.eqb_eq.
    replace ((p =? p') && (q =? q') || (p =? q') && (q =? p')) with true in H4; auto. symmetry. rewrite orb_true_iff, !andb_true_iff, !Z.eqb_eq. intuition congruence.
  - exists (map (fun i => nth i (s_loops s) []) order). split. { apply order_perm; auto. intros i Hi. apply Nat.ltb_lt. auto. }
    assert (K : forall (bb : list (ptr * bool)) (oo : list nat), length bb = length oo -> (forall i, (i < length bb)%nat -> outwardb a (nth i bb dflt) (map (W ws) (nth (nth i oo 0%nat) (s_loops s) [])) = true) -> Forall2 (fun x L => outward a x (map (W ws) L)) bb (map (fun i => nth i (s_loops s) []) oo)).
    { induction bb as [|x bb IH]; intros [|o oo] HL HO; try discriminate. constructor. cbn [map]. constructor. apply outwardb_ok. apply (HO 0%nat). cbn; lia. apply IH. cbn in HL; lia. intros i Hi. apply (HO (S i)). cbn; lia. }
    apply K; auto. intros i Hi. apply H9. apply in_seq. lia.
Qed.
Definition chordlessb a b (ws all : list ptr) : bool := forallb (fun e => match a_e a e with Some (true, (p, q)) => implb (existsb (Z.eqb p) ws && existsb (Z.eqb q) ws) (existsb (Z.eqb e) (edges_in a b)) | _ => true end) all.
Lemma chordlessb_ok : forall a b ws all, (forall e, a_e a e <> None -> In e all) -> chordlessb a b ws all = true -> chordless a b ws.
Proof.
  intros a b ws all HA H e u w Hu Hw (p & q & E & X). unfold chordlessb in H. rewrite forallb_forall in H. specialize (H e (HA e ltac:(congruence))). rewrite E in H.
  assert (EX : forall x l, existsb (Z.eqb x) l = true <-> In x l). { intros x l. rewrite existsb_exists. split. intros (y & Hy & Ey). apply Z.eqb_eq in Ey. subst; auto. intros Hx. exists x. split; auto. apply Z.eqb_refl. }
  replace (existsb (Z.eqb p) ws && existsb (Z.eqb q) ws) with true in H. 2: { symmetry. rewrite andb_true_iff, !EX. intuition congruence. } cbn [implb] in H. apply EX in H. apply in_flat_map in H. destruct H as ([f d] & Hf & Hi). cbn [fst] in Hi. destruct (a_f a f) as [[[] [fb|]]|] eqn:Ef; try destruct Hi; exists f, d; (split; [auto|]); exists fb; split; auto; cbn; auto.
Qed.

(** A hexahedron 54, a pyramid 55 on its top, a prism 56 beside it and a
    tetrahedron 57 beside the prism; faces listed and turned in no particular
    order.  Vertices 1-12. *)
Definition cells : list top := [
  TNewV; TNewV; TNewV; TNewV; TNewV; TNewV; TNewV; TNewV; TNewV; TNewV; TNewV; TNewV; TNewE; TSetVertex 13 false 3; TSetVertex 13 true 2;
  TNewE; TSetVertex 14 false 3; TSetVertex 14 true 7; TNewE; TSetVertex 15 false 6; TSetVertex 15 true 7; TNewE; TSetVertex 16 false 6;
  TSetVertex 16 true 2; TNewF; TSetEdges 17 [(13, false); (14, true); (15, false); (16, true)]; TNewE; TSetVertex 18 false 4;
  TSetVertex 18 true 3; TNewE; TSetVertex 19 false 4; TSetVertex 19 true 1; TNewE; TSetVertex 20 false 2; TSetVertex 20 true 1; TNewF;
  TSetEdges 21 [(18, false); (19, true); (20, false); (13, false)]; TNewE; TSetVertex 22 false 5; TSetVertex 22 true 8; TNewE;
  TSetVertex 23 false 4; TSetVertex 23 true 8; TNewE; TSetVertex 24 false 1; TSetVertex 24 true 5; TNewF;
  TSetEdges 25 [(22, true); (23, false); (19, true); (24, true)]; TNewE; TSetVertex 26 false 6; TSetVertex 26 true 5; TNewE;
  TSetVertex 27 false 7; TSetVertex 27 true 8; TNewF; TSetEdges 28 [(22, false); (26, false); (15, true); (27, true)]; TNewF;
  TSetEdges 29 [(27, true); (23, false); (18, true); (14, true)]; TNewF; TSetEdges 30 [(16, false); (26, true); (24, false); (20, false)];
  TNewE; TSetVertex 31 false 9; TSetVertex 31 true 7; TNewE; TSetVertex 32 false 9; TSetVertex 32 true 6; TNewF;
  TSetEdges 33 [(15, true); (31, false); (32, true)]; TNewE; TSetVertex 34 false 9; TSetVertex 34 true 5; TNewF;
  TSetEdges 35 [(26, true); (34, false); (32, true)]; TNewE; TSetVertex 36 false 9; TSetVertex 36 true 8; TNewF;
  TSetEdges 37 [(36, true); (22, false); (34, false)]; TNewF; TSetEdges 38 [(27, true); (36, false); (31, true)]; TNewE;
  TSetVertex 39 false 10; TSetVertex 39 true 1; TNewE; TSetVertex 40 false 10; TSetVertex 40 true 11; TNewE; TSetVertex 41 false 2;
  TSetVertex 41 true 11; TNewF; TSetEdges 42 [(39, false); (40, true); (41, false); (20, true)]; TNewE; TSetVertex 43 false 6;
  TSetVertex 43 true 11; TNewF; TSetEdges 44 [(41, false); (16, false); (43, true)]; TNewE; TSetVertex 45 false 5; TSetVertex 45 true 10;
  TNewF; TSetEdges 46 [(39, false); (45, false); (24, false)]; TNewF; TSetEdges 47 [(40, false); (45, false); (26, false); (43, true)];
  TNewE; TSetVertex 48 false 12; TSetVertex 48 true 1; TNewE; TSetVertex 49 false 12; TSetVertex 49 true 10; TNewF;
  TSetEdges 50 [(48, true); (39, false); (49, false)]; TNewE; TSetVertex 51 false 12; TSetVertex 51 true 5; TNewF;
  TSetEdges 52 [(24, false); (48, false); (51, true)]; TNewF; TSetEdges 53 [(45, true); (49, false); (51, true)]; TNewR;
  TSetFaces 54 [(17, true); (21, false); (25, true); (28, true); (29, false); (30, true)]; TNewR;
  TSetFaces 55 [(33, true); (28, false); (35, false); (37, true); (38, true)]; TNewR;
  TSetFaces 56 [(42, false); (44, true); (46, true); (47, false); (30, false)]; TNewR;
  TSetFaces 57 [(50, true); (46, false); (52, true); (53, false)]].

Definition T6 : topo := match trun empty_topo cells with Ok t => t | _ => empty_topo end.
Definition A6 : amesh := arun amesh0 cells.
Lemma T6_reach : reach T6 A6.
Proof.
  assert (H : tallowed amesh0 cells) by (apply tallowedb_ok with (t := empty_topo); [exact inv0|vm_compute; reflexivity]). destruct (trun_ok cells _ _ inv0 H) as (t & E & I). exists cells. split; [exact H|]. split; [|reflexivity]. unfold T6. rewrite E. reflexivity.
Qed.
Definition edges6 : list ptr := map Z.of_nat (seq 1 57).
Lemma A6_edges : forall e, a_e A6 e <> None -> In e edges6.
Proof.
  intros e H. apply (w_e _ (i_w _ _ (reach_inv _ _ T6_reach))) in H. assert (E : a_next A6 = 58) by (vm_compute; reflexivity). rewrite E in H. apply in_map_iff. exists (Z.to_nat e). split. lia. apply in_seq. lia.
Qed.
Definition b54 := [(17, true); (21, false); (25, true); (28, true); (29, false); (30, true)].
Definition b55 := [(33, true); (28, false); (35, false); (37, true); (38, true)].
Definition b56 := [(42, false); (44, true); (46, true); (47, false); (30, false)].
Definition b57 := [(50, true); (46, false); (52, true); (53, false)].
Example C39_cells_ex :
  (cell A6 hexahedron b54 [1; 2; 3; 4; 5; 6; 7; 8] /\ chordless A6 b54 [1; 2; 3; 4; 5; 6; 7; 8]) /\ (cell A6 pyramid b55 [5; 6; 7; 8; 9] /\ chordless A6 b55 [5; 6; 7; 8; 9]) /\
  (cell A6 prism b56 [1; 5; 10; 2; 6; 11] /\ chordless A6 b56 [1; 5; 10; 2; 6; 11]) /\ (cell A6 tetrahedron b57 [1; 10; 5; 12] /\ chordless A6 b57 [1; 10; 5; 12]).
Proof.
  split; [|split; [|split]]; (split; [|apply (chordlessb_ok _ _ _ edges6 A6_edges); vm_compute; reflexivity]).
  apply cellb_ok with (order := [3; 0; 5; 1; 4; 2]%nat). vm_compute. reflexivity. apply cellb_ok with (order := [2; 0; 1; 4; 3]%nat). vm_compute. reflexivity.
  apply cellb_ok with (order := [4; 1; 0; 3; 2]%nat). vm_compute. reflexivity. apply cellb_ok with (order := [1; 0; 3; 2]%nat). vm_compute. reflexivity.
Qed.
Lemma T6_typed : forall r b, In (r, b) [(54, b54); (55, b55); (56, b56); (57, b57)] -> a_r A6 r = Some (true, Some b) /\ typed T6 r.
Proof.
  intros r b H. split. repeat (destruct H as [H|H]; [inversion H; vm_compute; reflexivity|]); destruct H.
  repeat (destruct H as [H|H]; [inversion H; subst; eexists; eexists; eexists; split; [vm_compute; reflexivity|split; [vm_compute; reflexivity|split; [repeat (constructor; [eexists; eexists; split; [vm_compute; reflexivity|split; [vm_compute; reflexivity|vm_compute; reflexivity]]|]); constructor|vm_compute; reflexivity]]]|]); destruct H.
Qed.
Example C39_region_ex :
  MR_Vertices T6 54 = Ok (Some [2; 6; 7; 3; 1; 5; 8; 4]) /\ MR_Vertices T6 55 = Ok (Some [8; 5; 6; 7; 9]) /\ MR_Vertices T6 56 = Ok (Some [11; 6; 2; 10; 5; 1]) /\ MR_Vertices T6 57 = Ok (Some [12; 10; 1; 5]) /\
  MR_Edges T6 54 = Ok [16; 15; 14; 13; 24; 22; 23; 19; 20; 26; 27; 18] /\ MR_Edges T6 55 = Ok [22; 26; 15; 27; 36; 34; 32; 31] /\ MR_Edges T6 56 = Ok [43; 16; 41; 45; 24; 39; 40; 26; 20] /\ MR_Edges T6 57 = Ok [49; 39; 48; 51; 45; 24] /\
  forall r b, In (r, b) [(54, b54); (55, b55); (56, b56); (57, b57)] -> a_r A6 r = Some (true, Some b) /\ typed T6 r.
Proof. repeat (split; [vm_compute; reflexivity|]). exact T6_typed. Qed.
Example C39_type_stored_ex : exists t a x, reach t a /\ tpre a (TSetFaces 57 b57) /\ tstep t (TSetFaces 57 b57) = Ok x /\ cell (astep a (TSetFaces 57 b57)) tetrahedron b57 [1; 10; 5; 12].
Proof.
  assert (H : tallowed amesh0 cells) by (apply tallowedb_ok with (t := empty_topo); [exact inv0|vm_compute; reflexivity]).
  assert (E : cells = removelast cells ++ [TSetFaces 57 b57]) by (vm_compute; reflexivity).
  assert (S : forall ops1 a o, tallowed a (ops1 ++ [o]) -> tallowed a ops1 /\ tpre (arun a ops1) o) by (induction ops1 as [|p ops IH]; cbn [app tallowed arun]; intros a o HH; [tauto|destruct HH as (H1 & H2); apply IH in H2; tauto]).
  rewrite E in H. apply S in H. destruct H as (H1 & H2). destruct (trun_ok (removelast cells) _ _ inv0 H1) as (t & E1 & _). assert (R : reach t (arun amesh0 (removelast cells))) by (exists (removelast cells); auto).
  destruct (reach_step _ _ _ R H2) as (t' & E2 & _). exists t, (arun amesh0 (removelast cells)), t'. split; [exact R|]. split; [exact H2|]. split; [exact E2|]. apply cellb_ok with (order := [1; 0; 3; 2]%nat). vm_compute. reflexivity.
Qed.

(** ** An edge outside the prism joining two of its vertices *)

(** With an edge between opposite corners of a side face, present in the mesh but
    not on the region, the prism's vertices come in an order in which they do not
    form the cell, and MR_Edges lists the foreign edge and misses edges of the
    region. *)
Theorem C39_chord_refuted : exists t a r b ws vs es e e', reach t a /\ a_r a r = Some (true, Some b) /\ typed t r /\ cell a prism b ws /\
  MR_Vertices t r = Ok (Some vs) /\ ~ cell a prism b vs /\ MR_Edges t r = Ok es /\ In e es /\ ~ r_edge a r e /\ r_edge a r e' /\ ~ In e' es.
Proof.
  set (ops := cells ++ [TNewE; TSetVertex 58 false 11; TSetVertex 58 true 1]).
  assert (H : tallowed amesh0 ops) by (apply tallowedb_ok with (t := empty_topo); [exact inv0|vm_compute; reflexivity]).
  destruct (trun_ok ops _ _ inv0 H) as (t & E & _). set (t0 := match trun empty_topo ops with Ok t => t | _ => empty_topo end). assert (Et : t = t0) by (unfold t0; rewrite E; reflexivity). rewrite Et in *. clear t Et.
  set (a := arun amesh0 ops). assert (R : reach t0 a) by (exists ops; split; [exact H|split; [exact E|reflexivity]]).
  assert (Hr : a_r a 56 = Some (true, Some b56)) by (vm_compute; reflexivity).
  exists t0, a, 56, b56, [1; 5; 10; 2; 6; 11], [11; 6; 2; 1; 10; 5], [43; 16; 41; 39; 45; 24; 58], 58, 26.
  assert (NE : ~ cell_edge a b56 58). { intros (f & d & Hf & (fb & Hb & Hi)). unfold b56 in Hf. repeat (destruct Hf as [Hf|Hf]; [inversion Hf; subst f d; vm_compute in Hb; inversion Hb; subst fb; cbn in Hi; intuition discriminate|]). destruct Hf. }
  split; [exact R|]. split; [exact Hr|]. split; [|split; [|split; [|split; [|split; [|split; [|split; [|split]]]]]]].
  - eexists; eexists; eexists; split; [vm_compute; reflexivity|split; [vm_compute; reflexivity|split; [repeat (constructor; [eexists; eexists; split; [vm_compute; reflexivity|split; [vm_compute; reflexivity|vm_compute; reflexivity]]|]); constructor|vm_compute; reflexivity]]].
  - apply cellb_ok with (order := [4; 1; 0; 3; 2]%nat). vm_compute. reflexivity.
  - vm_compute. reflexivity.
  - intros (L & N & V & U & Ls & PL & FA). destruct (cell_pair_edge a prism b56 _ Ls PL FA 0%nat 3%nat) as (e & CE & (p & q & He & X)). reflexivity. cbn in X.
    destruct CE as (f & d & Hf & (fb & Hb & Hi)). unfold b56 in Hf. repeat (destruct Hf as [Hf|Hf]; [inversion Hf; subst f d; vm_compute in Hb; inversion Hb; subst fb; cbn in Hi; repeat (destruct Hi as [<-|Hi]; [vm_compute in He; inversion He; subst p q; intuition discriminate|]); destruct Hi|]). destruct Hf.
  - vm_compute. reflexivity.
  - cbn. auto 10.
  - intros X. apply NE. apply (cell_r_edge a 56 b56 58 Hr). exact X.
  - apply (cell_r_edge a 56 b56 26 Hr). exists 47, false. split. cbn; auto 10. eexists. split. vm_compute. reflexivity. cbn; auto 10.
  - cbn. intuition discriminate.
Qed.
Print Assumptions C39_chord_refuted.

(** ** Templates *)

(** What a template of a closed surface has to satisfy: faces and edges as many as
    counted; the edges of a face with their directions run through its vertices
    (starting anywhere); every edge belongs to exactly two faces, once in each
    direction; the faces are those of the cell, up to the first vertex. *)
Definition zrotb (x y : list Z) : bool := existsb (fun k => zleqb (skipn k x ++ firstn k x) y) (seq 0 (length x)).
Definition tail_of (p : Z * Z) (d : Z) : Z := if d =? 1 then fst p else snd p.
Definition head_of (p : Z * Z) (d : Z) : Z := if d =? 1 then snd p else fst p.
Definition count (e d : Z) (fe fd : list (list Z)) : nat := length (filter (fun x => (fst x =? e) && (snd x =? d)) (combine (concat fe) (concat fd))).
Record closed_template (s : shape) (nrf nre : Z) (rfv rfe rfd : list (list Z)) (rfdir : list Z) (rev : list (Z * Z)) : Prop := {
  ct_faces : nrf = Z.of_nat (length rfv) /\ length rfe = length rfv /\ length rfd = length rfv /\ length rfdir = length rfv /\ Forall (eq 1) rfdir;
  ct_edges : nre = Z.of_nat (length rev) /\ rev = map (fun p => (Z.of_nat (fst p), Z.of_nat (snd p))) (s_edges s);
  ct_loops : forall i, (i < length rfv)%nat -> length (nth i rfe []) = length (nth i rfv []) /\ length (nth i rfd []) = length (nth i rfv []) /\
    rotation (map (fun x => tail_of (nth (Z.to_nat (fst x)) rev (0, 0)) (snd x)) (combine (nth i rfe []) (nth i rfd []))) (nth i rfv []) /\
    (forall k, (k < length (nth i rfe []))%nat -> let e j := nth (Z.to_nat (nth j (nth i rfe []) 0)) rev (0, 0) in let k' := (S k mod length (nth i rfe []))%nat in
       head_of (e k) (nth k (nth i rfd []) 0) = tail_of (e k') (nth k' (nth i rfd []) 0));
  ct_twice : forall e, 0 <= e < nre -> count e 1 rfe rfd = 1%nat /\ count e 0 rfe rfd = 1%nat;
  ct_shape : forall i, (i < length rfv)%nat -> rotation (nth i rfv []) (map Z.of_nat (nth i (s_loops s) [])) }.
Lemma zrotb_ok : forall x y, zrotb x y = true -> rotation x y.
Proof. intros x y H. apply existsb_exists in H. destruct H as (k & _ & E). unfold zleqb in E. destruct (list_eq_dec _ _ _) as [E'|]; try discriminate. subst y. exists (firstn k x), (skipn k x). rewrite firstn_skipn. auto. Qed.
Theorem C39_templates : forall s, In s std -> let k := Z.to_nat (kind_of s) in
  closed_template s (nth k nrf_template 0) (nth k nre_template 0) (nth k rfv_template []) (nth k rfe_template []) (nth k rfedir_template []) (nth k rfdir_template []) (nth k rev_template []).
Proof.
  intros s HS. cbv zeta. destruct HS as [<-|[<-|[<-|[<-|[]]]]]; [change (Z.to_nat (kind_of tetrahedron)) with 1%nat|change (Z.to_nat (kind_of pyramid)) with 2%nat|change (Z.to_nat (kind_of prism)) with 3%nat|change (Z.to_nat (kind_of hexahedron)) with 4%nat]; cbn [nth nrf_template nre_template rfv_template rfe_template rfedir_template rfdir_template rev_template]; (constructor;
   [split; [vm_compute; reflexivity|]; split; [vm_compute; reflexivity|]; split; [vm_compute; reflexivity|]; split; [vm_compute; reflexivity|]; apply Forall_forall; vm_compute; tauto
   |split; vm_compute; reflexivity
   |intros i Hi; cbn in Hi; do 6 (destruct i as [|i]; [try lia; split; [vm_compute; reflexivity|]; split; [vm_compute; reflexivity|]; split; [apply zrotb_ok; vm_compute; reflexivity|intros k Hk; cbn in Hk; do 4 (destruct k as [|k]; [first [lia|vm_compute; reflexivity]|]); lia]|try lia])
   |intros e He; assert (H : In e (map Z.of_nat (seq 0 12))) by (apply in_map_iff; exists (Z.to_nat e); split; [|apply in_seq; cbn in He]; cbn in He; lia); cbn in H;
      repeat (destruct H as [H|H]; [first [exfalso; lia|rewrite <- H; split; vm_compute; reflexivity]|]); destruct H
   |intros i Hi; cbn in Hi; do 6 (destruct i as [|i]; [try lia; apply zrotb_ok; vm_compute; reflexivity|try lia])]).
Qed.
Print Assumptions C39_templates.
