(** C39: faces and regions built from their vertices. *)
From Coq Require Import ZArith List Lia Bool Arith ZifyBool ZifyNat Permutation.
From Verif Require Import Base BaseProofs ListSpec HashProofs AttModel AttProps ParModel ParProps TopoModel TopoSpec TopoProofs TopoProofs2 TopoProofs3 TopoProofs4 TopoProofs5 TopoProofs6 TopoProofs7 TopoProps TopoProps2 TopoProps3 ModProofs ModProofs2 CellModel CellSpec CellProofs CellProofs2 CellProofs3 CellProofs4 CellProofs5 CellProofs6 CellProps BuildModel BuildProofs BuildProofs2 BuildProofs3 BuildProofs4 BuildProofs5.
Import ListNotations.
Open Scope Z_scope.

(** The mesh around the vertices [ws]: a face with an edge between two of them is
    a simple loop, and the outward side of each loop is not used by a region. *)
Definition free_for a (ws : list ptr) (loops : list (list nat)) : Prop :=
  (forall f e u w, In u ws -> In w ws -> has_edge a f e -> joins a e u w -> good_face a f) /\
  (forall L f d q, In L loops -> outward a (f, d) (map (W ws) L) -> ~ has_face a q f d).
(** The region exists and has no faces yet. *)
Definition bare a r := a_r a r = Some (true, None) \/ a_r a r = Some (true, Some []).
(** Nothing changed but the region [r]; edges and faces may have been added. *)
Definition kept a a' r : Prop :=
  a_v a' = a_v a /\ (forall e, a_e a e <> None -> a_e a' e = a_e a e) /\ (forall f, a_f a f <> None -> a_f a' f = a_f a f) /\ (forall q, q <> r -> a_r a' q = a_r a q).
(** The edges between the vertices are among those of the shape, each once. *)
Definition only_shape a s (ws : list ptr) : Prop :=
  (forall e u w, In u ws -> In w ws -> joins a e u w -> exists p, In p (s_edges s) /\ joins a e (W ws (fst p)) (W ws (snd p))) /\
  (forall e e' u w, In u ws -> In w ws -> joins a e u w -> joins a e' u w -> e = e').

(** ** Faces *)

(** MF_Set_Vertices on a new face: the face runs through the given vertices in the
    given order, existing edges are used, nothing else changes. *)
Theorem C39_face_from_vertices : forall t a f vs, reach t a -> a_f a f = Some (true, None) -> NoDup vs -> (2 < length vs <= 30)%nat -> Forall (live_v a) vs -> exists t' a', MF_Set_Vertices t f (ZL vs) vs = Ok t' /\ reach t' a' /\
  outward a' (f, true) vs /\ MF_Vertices t' f 1 NULL = Ok vs /\ a_v a' = a_v a /\ a_r a' = a_r a /\ (forall e, a_e a e <> None -> a_e a' e = a_e a e) /\ (forall g, g <> f -> a_f a' g = a_f a g).
Proof.
  intros t a f vs R Hf N L HL. destruct (set_verts_ok t a f vs R Hf N L HL) as (t' & a' & nd & E & R' & V1 & V2 & V3 & V4 & V5 & FW). destruct (follows_ok a' vs nd FW N) as (P1 & _). lia. assert (Hb : a_f a' f = Some (true, Some nd)) by (rewrite V5, Z.eqb_refl; auto). exists t', a'. split; auto. split; auto. split; [|split; [|split; [|split; [|split]]]]; auto.
  - exists nd. eexists. exists nd. cbn [fst snd walk]. split; [exact Hb|]. split; [exact P1|]. split. apply rotation_refl. apply follows_around; auto.
  - destruct (C23_face_loop t' a' f nd _ true NULL R' Hb P1) as (A & _ & _). destruct (A eq_refl) as (us & EU & _ & AR). cbn [b2z walk] in *. rewrite EU. f_equal. rewrite (around_vat _ _ _ AR). symmetry. apply around_vat. apply follows_around; auto.
  - intros e He. apply V4. apply (old_e t a R); auto.
  - intros g Hg. rewrite V5. replace (g =? f) with false by lia. auto.
Qed.
Print Assumptions C39_face_from_vertices.

(** ** Standard elements *)

(** MR_Set_Vertices on a region without faces: the region becomes the standard
    cell on the given vertices, whatever faces and edges between them exist
    already, and however these are stored. *)
Theorem C39_build : forall t a r s ws, reach t a -> bare a r -> In s std -> length ws = s_nv s -> NoDup ws -> Forall (live_v a) ws -> free_for a ws (s_loops s) ->
  exists t' a' b, MR_Set_Vertices t r ws = Ok t' /\ reach t' a' /\ a_r a' r = Some (true, Some b) /\ cell a' s b ws /\ typed t' r /\ kept a a' r.
Proof.
  intros t a r s ws R HR HS L N V (HG & HF). assert (CV : cverts a s ws) by (split; auto). destruct (build_core s t a ws r HS R CV HG HF HR) as (t' & a' & b & es & E & B). exists t', a', b. split; auto. split. apply (b_reach _ _ _ _ _ _ _ _ B). split. rewrite (b_r _ _ _ _ _ _ _ _ B), Z.eqb_refl. auto. split. eapply built_cell; eauto. split. apply (b_typed _ _ _ _ _ _ _ _ B).
  split. apply (b_v _ _ _ _ _ _ _ _ B). split. intros e He. apply (b_e _ _ _ _ _ _ _ _ B), (old_e t a R); auto. split. intros f Hf. apply (b_f _ _ _ _ _ _ _ _ B), (old_f t a R); auto. intros q Hq. rewrite (b_r _ _ _ _ _ _ _ _ B). replace (q =? r) with false by lia. auto.
Qed.
Print Assumptions C39_build.

(** If no face on the base existed, the vertices come back in the order they were
    given, and the edges in the order of the shape on these vertices (if no other
    edges join them). *)
Theorem C39_same_order : forall t a r s ws, reach t a -> bare a r -> In s std -> length ws = s_nv s -> NoDup ws -> Forall (live_v a) ws -> free_for a ws (s_loops s) ->
  (forall f d, ~ outward a (f, d) (map (W ws) (nth 0 (s_loops s) []))) -> (s = prism -> only_shape a s ws) ->
  exists t', MR_Set_Vertices t r ws = Ok t' /\ MR_Vertices t' r = Ok (Some ws) /\
    (only_shape a s ws -> exists a' es, reach t' a' /\ MR_Edges t' r = Ok es /\ edges_of a' s ws es).
Proof.
  intros t a r s ws R HR HS L N V (HG & HF) NB PC. assert (CV : cverts a s ws) by (split; auto). destruct (build_core s t a ws r HS R CV HG HF HR) as (t' & a' & b & es & E & B). exists t'. split; auto.
  pose proof (b_reach _ _ _ _ _ _ _ _ B) as R'. assert (Hr : a_r a' r = Some (true, Some b)) by (rewrite (b_r _ _ _ _ _ _ _ _ B), Z.eqb_refl; auto). pose proof (b_typed _ _ _ _ _ _ _ _ B) as HT. pose proof (built_cell s a ws r HS CV t' a' b es B) as HC.
  assert (CH : only_shape a s ws -> chordless a' b ws) by (intros (H1 & H2); apply (built_chordless s t a ws r HS R CV t' a' b es B); auto).
  destruct (C39_region_vertices t' a' r b s ws R' Hr HT HS HC) as (vs & EV & CVS & _); auto.
  pose proof (built_base s t a ws r HS R CV t' a' b es B NB) as BV. assert (PF := vertices_prefix t' a' r s b ws vs _ HS R' Hr HT HC (built_out s a ws r HS t' a' b es B) BV EV).
  assert (LF : length (firstn (length (nth 0 (s_loops s) [])) ws) = length (nth 0 (s_loops s) [])) by (rewrite firstn_length; pose proof (std_base s HS); lia). rewrite LF in PF.
  assert (vs = ws) by (apply (same_order t' a' s b ws vs HS R' HC CVS); auto). subst vs. split; auto. intros OS. destruct (C39_region_edges t' a' r b s ws R' Hr HT HS HC (CH OS)) as (vs & es' & E1 & E2 & _ & E3 & _). rewrite EV in E1. inversion E1; subst vs. exists a', es'. auto.
Qed.
Print Assumptions C39_same_order.

(** In any case the vertices come back in an order in which they form the same
    cell. *)
Theorem C39_build_vertices : forall t a r s ws, reach t a -> bare a r -> In s std -> length ws = s_nv s -> NoDup ws -> Forall (live_v a) ws -> free_for a ws (s_loops s) -> (s = prism -> only_shape a s ws) ->
  exists t' a' b vs, MR_Set_Vertices t r ws = Ok t' /\ reach t' a' /\ a_r a' r = Some (true, Some b) /\ cell a' s b ws /\ MR_Vertices t' r = Ok (Some vs) /\ cell a' s b vs /\ Permutation vs ws.
Proof.
  intros t a r s ws R HR HS L N V (HG & HF) PC. assert (CV : cverts a s ws) by (split; auto). destruct (build_core s t a ws r HS R CV HG HF HR) as (t' & a' & b & es & E & B).
  pose proof (b_reach _ _ _ _ _ _ _ _ B) as R'. assert (Hr : a_r a' r = Some (true, Some b)) by (rewrite (b_r _ _ _ _ _ _ _ _ B), Z.eqb_refl; auto). pose proof (built_cell s a ws r HS CV t' a' b es B) as HC.
  destruct (C39_region_vertices t' a' r b s ws R' Hr (b_typed _ _ _ _ _ _ _ _ B) HS HC) as (vs & EV & CVS & (NV & LV)). { intros X. destruct (PC X) as (H1 & H2). apply (built_chordless s t a ws r HS R CV t' a' b es B); auto. }
  exists t', a', b, vs. split; auto. split; auto. split; auto. split; auto. split; auto. split; auto. apply NoDup_Permutation; auto. intros v. rewrite LV. destruct (verts_list a' r s b ws HS Hr HC) as (_ & LW). rewrite LW. tauto.
Qed.
Print Assumptions C39_build_vertices.

(** ** Polyhedra *)

Theorem C39_build_polyhedron : forall t a r ws Ls, reach t a -> bare a r -> (length ws <= 200)%nat -> NoDup ws -> Forall (live_v a) ws -> (length Ls <= 512)%nat ->
  (forall L, In L Ls -> (2 < length L <= 30)%nat /\ NoDup L /\ forall i, In i L -> (i < length ws)%nat) ->
  (forall i j, (i < length Ls)%nat -> (j < length Ls)%nat -> (forall k, In k (nth i Ls []) <-> In k (nth j Ls [])) -> i = j) ->
  free_for a ws Ls ->
  (forall L f us, In L Ls -> outward a (f, true) us -> NoDup us -> (forall v, In v us <-> In v (map (W ws) L)) -> exists d, outward a (f, d) (map (W ws) L)) ->
  exists t' a' b, MR_Set_Vertices_poly t r ws (map (map Z.of_nat) Ls) = Ok t' /\ reach t' a' /\ a_r a' r = Some (true, Some b) /\ Forall2 (fun x L => outward a' x (map (W ws) L)) b Ls /\ typed t' r /\ kept a a' r.
Proof.
  intros t a r ws Ls R HR LW N V LL HL DS (HG & HF) HM. set (Zs := map (map Z.of_nat) Ls).
  assert (BK : forall L, map Z.to_nat (map Z.of_nat L) = L). { intros L. rewrite map_map. rewrite <- (map_id L) at 2. apply map_ext. intros. apply Nat2Z.id. }
  assert (ZI : forall L, In L Zs -> exists L', In L' Ls /\ L = map Z.of_nat L'). { intros L H. apply in_map_iff in H. destruct H as (L' & <- & H). eauto. }
  assert (ZN : forall i, nth i Zs [] = map Z.of_nat (nth i Ls [])). { intros i. unfold Zs. change (@nil Z) with (map Z.of_nat []) at 1. apply map_nth. }
  assert (OI : forall i L, In (Z.of_nat i) (map Z.of_nat L) <-> In i L). { intros i L. rewrite in_map_iff. split. intros (j & E & Hj). replace i with j by lia. auto. intros H. eauto. }
  destruct (poly_build t a ws r Zs R N V) as (t' & a' & b & E & R' & HT & V1 & V2 & V3 & V4 & V5 & FO); auto.
  - intros L H. apply ZI in H. destruct H as (L' & H & ->). destruct (HL L' H) as (A1 & A2 & A3). rewrite map_length. split; auto. split. apply NoDup_map_on; auto. intros; lia. intros i Hi. apply in_map_iff in Hi. destruct Hi as (j & <- & Hj). apply A3 in Hj. lia.
  - intros i j Hi Hj H. unfold Zs in Hi, Hj. rewrite map_length in Hi, Hj. apply DS; auto. intros k. rewrite !ZN in H. rewrite <- !OI. apply H.
  - intros L f us H O NU SU. apply ZI in H. destruct H as (L' & H & ->). rewrite BK in *. eapply HM; eauto.
  - intros L f d q H O. apply ZI in H. destruct H as (L' & H & ->). rewrite BK in *. eapply HF; eauto.
  - unfold Zs. rewrite map_length. auto.
  - exists t', a', b. split; auto. split; auto. split. rewrite V5, Z.eqb_refl; auto. split.
    + clear -FO BK. unfold Zs in FO. revert b FO. induction Ls as [|L Ls IH]; intros b H; cbn [map] in H; inversion H; subst; constructor; auto. rewrite BK in *. auto.
    + split; auto. split; auto. split. intros e He. apply V3, (old_e t a R); auto. split. intros f Hf. apply V4, (old_f t a R); auto. intros q Hq. rewrite V5. replace (q =? r) with false by lia. auto.
Qed.
Print Assumptions C39_build_polyhedron.

(** ** Examples *)

(** Checking the hypotheses on concrete meshes. *)
Definition goodb a f : bool := match a_f a f with Some (true, Some fb) => pathb a (vat a (hd dflt fb)) fb (vat a (hd dflt fb)) && (length (nodup Z.eq_dec (stops a fb)) =? length (stops a fb))%nat | _ => true end.
Lemma outward_rot : forall a f d vs fb, outward a (f, d) vs -> a_f a f = Some (true, Some fb) -> rotation (map (vat a) (walk d fb)) vs.
Proof. intros a f d vs fb (fb' & u & c & H1 & H2 & H3 & H4) H. cbn [fst snd] in *. rewrite H in H1. inversion H1; subst fb'. rewrite (around_vat _ _ _ H4). apply rotation_map; auto. Qed.
Definition rotzb (x y : list ptr) : bool := existsb (fun k => zleqb (skipn k x ++ firstn k x) y) (seq 0 (S (length x))).
Lemma rotzb_c : forall x y, rotation x y -> rotzb x y = true.
Proof.
  intros x y (l1 & l2 & -> & ->). apply existsb_exists. exists (length l1). split. apply in_seq. rewrite app_length. lia. unfold zleqb. destruct (list_eq_dec _ _ _) as [|X]; auto. exfalso. apply X. rewrite skipn_app, firstn_app, Nat.sub_diag, skipn_all, firstn_all. cbn. rewrite app_nil_r. auto.
Qed.
Definition loopb a ws (L : list nat) f d : bool := match a_f a f with Some (true, Some fb) => rotzb (map (vat a) (walk d fb)) (map (W ws) L) | _ => false end.
Definition freeb a ws (loops : list (list nat)) (n : nat) : bool :=
  let ids := map Z.of_nat (seq 1 n) in forallb (goodb a) ids &&
  forallb (fun q => match a_r a q with Some (true, Some b) => forallb (fun x => forallb (fun L => negb (loopb a ws L (fst x) (snd x))) loops) b | _ => true end) ids.
Lemma ids_in : forall z n, 1 <= z < Z.of_nat (S n) -> In z (map Z.of_nat (seq 1 n)).
Proof. intros z n H. apply in_map_iff. exists (Z.to_nat z). split. lia. apply in_seq. lia. Qed.
Lemma freeb_ok : forall t a ws loops n, reach t a -> a_next a = Z.of_nat (S n) -> freeb a ws loops n = true -> free_for a ws loops.
Proof.
  intros t a ws loops n R HN H. unfold freeb in H. rewrite andb_true_iff, !forallb_forall in H. destruct H as (H1 & H2). pose proof (i_w _ _ (reach_inv _ _ R)) as Wf. split.
  - intros f e u w _ _ (fb & Hf & _) _. specialize (H1 f). unfold goodb in H1. rewrite Hf in H1. assert (B : 1 <= f < a_next a) by (apply (w_f _ Wf); congruence). specialize (H1 ltac:(apply ids_in; lia)). rewrite andb_true_iff, Nat.eqb_eq in H1. destruct H1 as (X & Y). exists fb. eexists. split; [exact Hf|]. split. apply pathb_ok. exact X. eapply nodup_length; eauto.
  - intros L f d q HL O (b & Hb & Hi). specialize (H2 q). rewrite Hb in H2. assert (B : 1 <= q < a_next a) by (apply (w_r _ Wf); congruence). specialize (H2 ltac:(apply ids_in; lia)). rewrite forallb_forall in H2. specialize (H2 _ Hi). rewrite forallb_forall in H2. specialize (H2 L HL). cbn [fst snd] in H2. unfold loopb in H2. pose proof O as (fb & _ & _ & Hf & _). cbn [fst] in Hf. rewrite Hf in H2. rewrite (rotzb_c _ _ (outward_rot _ _ _ _ _ O Hf)) in H2. discriminate.
Qed.
Definition noneb a ws (L : list nat) (n : nat) : bool := forallb (fun f => negb (loopb a ws L f true) && negb (loopb a ws L f false)) (map Z.of_nat (seq 1 n)).
Lemma noneb_ok : forall t a ws L n, reach t a -> a_next a = Z.of_nat (S n) -> noneb a ws L n = true -> forall f d, ~ outward a (f, d) (map (W ws) L).
Proof.
  intros t a ws L n R HN H f d O. unfold noneb in H. rewrite forallb_forall in H. pose proof O as (fb & _ & _ & Hf & _). cbn [fst] in Hf. assert (B : 1 <= f < a_next a) by (apply (w_f _ (i_w _ _ (reach_inv _ _ R))); congruence). specialize (H f ltac:(apply ids_in; lia)).
  pose proof (rotzb_c _ _ (outward_rot _ _ _ _ _ O Hf)) as X. unfold loopb in H. rewrite Hf in H. destruct d; rewrite X in H; cbn in H; rewrite ?andb_false_r in H; discriminate.
Qed.
Definition onlyb a s ws (n : nat) : bool :=
  let ids := map Z.of_nat (seq 1 n) in
  forallb (fun e => match a_e a e with Some (true, (p, q)) => implb (existsb (Z.eqb p) ws && existsb (Z.eqb q) ws)
     (existsb (fun x => (W ws (fst x) =? p) && (W ws (snd x) =? q) || (W ws (fst x) =? q) && (W ws (snd x) =? p)) (s_edges s) && forallb (fun e' => implb (same_ends a e e') (e =? e')) ids) | _ => true end) ids.
Lemma onlyb_ok : forall t a s ws n, reach t a -> a_next a = Z.of_nat (S n) -> onlyb a s ws n = true -> only_shape a s ws.
Proof.
  intros t a s ws n R HN H. unfold onlyb in H. rewrite forallb_forall in H. assert (EX : forall x l, existsb (Z.eqb x) l = true <-> In x l). { intros x l. rewrite existsb_exists. split. intros (y & Hy & Ey). apply Z.eqb_eq in Ey. subst; auto. intros Hx. exists x. split; auto. apply Z.eqb_refl. }
  assert (IDS : forall e, a_e a e <> None -> In e (map Z.of_nat (seq 1 n))). { intros e He. apply ids_in. apply (w_e _ (i_w _ _ (reach_inv _ _ R))) in He. lia. }
  assert (K : forall e u w, In u ws -> In w ws -> joins a e u w -> exists p q, a_e a e = Some (true, (p, q)) /\ existsb (fun x => (W ws (fst x) =? p) && (W ws (snd x) =? q) || (W ws (fst x) =? q) && (W ws (snd x) =? p)) (s_edges s) && forallb (fun e' => implb (same_ends a e e') (e =? e')) (map Z.of_nat (seq 1 n)) = true).
  { intros e u w Hu Hw (p & q & He & X). exists p, q. split; auto. specialize (H e (IDS e ltac:(congruence))). rewrite He in H. replace (existsb (Z.eqb p) ws && existsb (Z.eqb q) ws) with true in H. auto. symmetry. rewrite andb_true_iff, !EX. intuition congruence. }
  split.
  - intros e u w Hu Hw HJ. destruct (K e u w Hu Hw HJ) as (p & q & He & X). rewrite andb_true_iff in X. destruct X as (X & _). apply existsb_exists in X. destruct X as (x & Hx & X). exists x. split; auto. exists p, q. split; auto. rewrite orb_true_iff, !andb_true_iff, !Z.eqb_eq in X. intuition.
  - intros e e' u w Hu Hw HJ HJ'. destruct (K e u w Hu Hw HJ) as (p & q & He & X). rewrite andb_true_iff, forallb_forall in X. destruct X as (_ & X). destruct HJ' as (p' & q' & He' & Y'). specialize (X e' (IDS e' ltac:(congruence))). destruct HJ as (p2 & q2 & He2 & Y). rewrite He in He2. inversion He2; subst p2 q2. unfold same_ends in X. rewrite He, He' in X. apply Z.eqb_eq.
    replace ((p =? p') && (q =? q') || (p =? q') && (q =? p')) with true in X; auto. symmetry. rewrite orb_true_iff, !andb_true_iff, !Z.eqb_eq. intuition congruence.
Qed.

(** The mesh of four cells with a new vertex 58 and a new region 59; the triangle
    5, 10, 12 is the face 53 of the tetrahedron 57. *)
Definition cells7 : list top := cells ++ [TNewV; TNewR].
Definition T7 : topo := match trun empty_topo cells7 with Ok t => t | _ => empty_topo end.
Definition A7 : amesh := arun amesh0 cells7.
Lemma T7_reach : reach T7 A7.
Proof.
  assert (H : tallowed amesh0 cells7) by (apply tallowedb_ok with (t := empty_topo); [exact inv0|vm_compute; reflexivity]). destruct (trun_ok cells7 _ _ inv0 H) as (t & E & I). exists cells7. split; [exact H|]. split; [|reflexivity]. unfold T7. rewrite E. reflexivity.
Qed.
Lemma A7_next : a_next A7 = Z.of_nat 60.
Proof. vm_compute. reflexivity. Qed.
Lemma A7_bare : bare A7 59.
Proof. left. vm_compute. reflexivity. Qed.
Ltac c7 := first [exact T7_reach|exact A7_bare|apply (freeb_ok _ _ _ _ _ T7_reach A7_next); vm_compute; reflexivity|apply (noneb_ok _ _ _ _ _ T7_reach A7_next); vm_compute; reflexivity|apply (onlyb_ok _ _ _ _ _ T7_reach A7_next); vm_compute; reflexivity].
Ltac nodup_c := repeat (constructor; [cbn; intuition discriminate|]); constructor.
Ltac live_c := repeat (constructor; [vm_compute; reflexivity|]); constructor.
(** A tetrahedron on the existing face, given with another base, so that the
    order is kept; on a new prism as well. *)
Example C39_build_ex : reach T7 A7 /\ bare A7 59 /\ NoDup [58; 5; 10; 12] /\ Forall (live_v A7) [58; 5; 10; 12] /\ free_for A7 [58; 5; 10; 12] (s_loops tetrahedron) /\ outward A7 (53, true) (map (W [58; 5; 10; 12]) [1; 2; 3]%nat) /\
  (forall f d, ~ outward A7 (f, d) (map (W [58; 5; 10; 12]) (nth 0 (s_loops tetrahedron) []))) /\ only_shape A7 tetrahedron [58; 5; 10; 12] /\
  exists t', MR_Set_Vertices T7 59 [58; 5; 10; 12] = Ok t' /\ MR_Vertices t' 59 = Ok (Some [58; 5; 10; 12]) /\ MR_Edges t' 59 = Ok [60; 45; 61; 62; 51; 49].
Proof.
  split; [c7|]. split; [c7|]. split; [nodup_c|]. split; [live_c|]. split; [c7|]. split; [apply outwardb_ok; vm_compute; reflexivity|]. split; [c7|]. split; [c7|]. eexists. split; [vm_compute; reflexivity|]. split; vm_compute; reflexivity.
Qed.
Example C39_build_prism_ex : NoDup [58; 9; 3; 12; 8; 4] /\ Forall (live_v A7) [58; 9; 3; 12; 8; 4] /\ free_for A7 [58; 9; 3; 12; 8; 4] (s_loops prism) /\ (forall f d, ~ outward A7 (f, d) (map (W [58; 9; 3; 12; 8; 4]) (nth 0 (s_loops prism) []))) /\ only_shape A7 prism [58; 9; 3; 12; 8; 4] /\
  exists t', MR_Set_Vertices T7 59 [58; 9; 3; 12; 8; 4] = Ok t' /\ MR_Vertices t' 59 = Ok (Some [58; 9; 3; 12; 8; 4]).
Proof. split; [nodup_c|]. split; [live_c|]. split; [c7|]. split; [c7|]. split; [c7|]. eexists. split; vm_compute; reflexivity. Qed.
Example C39_face_from_vertices_ex : exists t a, reach t a /\ a_f a 60 = Some (true, None) /\ NoDup [5; 9; 58; 1] /\ Forall (live_v a) [5; 9; 58; 1] /\ exists t', MF_Set_Vertices t 60 4 [5; 9; 58; 1] = Ok t' /\ MF_Vertices t' 60 1 NULL = Ok [5; 9; 58; 1] /\ MF_Edges t' 60 1 NULL = Ok [34; 61; 62; 24].
Proof.
  destruct (reach_step T7 A7 TNewF T7_reach I) as (t & E & R). exists t, (astep A7 TNewF). split; [exact R|]. split; [vm_compute; reflexivity|]. split; [nodup_c|]. split; [live_c|].
  assert (E' : t = fst (MF_New T7)) by (cbn [tstep] in E; congruence). rewrite E'. eexists. split; [vm_compute; reflexivity|]. split; vm_compute; reflexivity.
Qed.

(** ** The order is not always kept *)

(** On the same face, given as the base: all hypotheses of [C39_build] hold, but
    the vertices come back starting at another one. *)
Theorem C39_same_order_refuted : exists t a r s ws t' vs, reach t a /\ bare a r /\ In s std /\ length ws = s_nv s /\ NoDup ws /\ Forall (live_v a) ws /\ free_for a ws (s_loops s) /\ only_shape a s ws /\
  MR_Set_Vertices t r ws = Ok t' /\ MR_Vertices t' r = Ok (Some vs) /\ vs <> ws.
Proof.
  exists T7, A7, 59, tetrahedron, [12; 10; 5; 58]. eexists. exists [5; 12; 10; 58]. split; [c7|]. split; [c7|]. split; [left; reflexivity|]. split; [reflexivity|]. split; [nodup_c|]. split; [live_c|]. split; [c7|]. split; [c7|]. split; [vm_compute; reflexivity|]. split; [vm_compute; reflexivity|discriminate].
Qed.
Print Assumptions C39_same_order_refuted.

(** ** Polyhedra: same vertices in another order *)

(** Hypotheses of the polyhedron theorem on a concrete mesh. *)
Definition matchb a ws (loops : list (list nat)) (n : nat) : bool :=
  forallb (fun f => match a_f a f with
    | Some (true, Some fb) => forallb (fun L => implb (forallb (fun v => existsb (Z.eqb v) (map (W ws) L)) (map (vat a) fb) && forallb (fun v => existsb (Z.eqb v) (map (vat a) fb)) (map (W ws) L)) (outwardb a (f, true) (map (W ws) L) || outwardb a (f, false) (map (W ws) L))) loops
    | _ => true end) (map Z.of_nat (seq 1 n)).
Lemma matchb_ok : forall t a ws loops n, reach t a -> a_next a = Z.of_nat (S n) -> matchb a ws loops n = true -> forall L f us, In L loops -> outward a (f, true) us -> NoDup us -> (forall v, In v us <-> In v (map (W ws) L)) -> exists d, outward a (f, d) (map (W ws) L).
Proof.
  intros t a ws loops n R HN H L f us HL O NU SU. unfold matchb in H. rewrite forallb_forall in H. pose proof O as (fb & _ & _ & Hf & _). cbn [fst] in Hf. assert (B : 1 <= f < a_next a) by (apply (w_f _ (i_w _ _ (reach_inv _ _ R))); congruence). specialize (H f ltac:(apply ids_in; lia)). rewrite Hf in H. rewrite forallb_forall in H. specialize (H L HL).
  pose proof (rotation_perm _ _ _ (outward_rot _ _ _ _ _ O Hf)) as PP. cbn [walk] in PP. assert (EX : forall x l, existsb (Z.eqb x) l = true <-> In x l). { intros x l. rewrite existsb_exists. split. intros (y & Hy & Ey). apply Z.eqb_eq in Ey. subst; auto. intros Hx. exists x. split; auto. apply Z.eqb_refl. }
  match type of H with implb ?c _ = true => replace c with true in H end. 2: { symmetry. rewrite andb_true_iff, !forallb_forall. split. intros v Hv. apply EX, SU. eapply Permutation_in; eauto. intros v Hv. apply EX. apply SU in Hv. eapply Permutation_in; [symmetry; exact PP|auto]. }
  cbn [implb] in H. rewrite orb_true_iff in H. destruct H as [H|H]; apply outwardb_ok in H; eauto.
Qed.
(** A pentagonal bipyramid (ten triangles) whose first triangle is the face 53. *)
Definition ws7 : list ptr := [5; 10; 12; 58; 3; 4; 11].
Definition loops7 : list (list nat) := [[0; 1; 2]; [0; 2; 3]; [0; 3; 4]; [0; 4; 5]; [0; 5; 1]; [6; 2; 1]; [6; 3; 2]; [6; 4; 3]; [6; 5; 4]; [6; 1; 5]]%nat.
Example C39_build_polyhedron_ex : reach T7 A7 /\ bare A7 59 /\ NoDup ws7 /\ Forall (live_v A7) ws7 /\ free_for A7 ws7 loops7 /\ (forall i j, (i < length loops7)%nat -> (j < length loops7)%nat -> (forall k, In k (nth i loops7 []) <-> In k (nth j loops7 [])) -> i = j) /\
  (forall L f us, In L loops7 -> outward A7 (f, true) us -> NoDup us -> (forall v, In v us <-> In v (map (W ws7) L)) -> exists d, outward A7 (f, d) (map (W ws7) L)) /\
  outward A7 (53, true) (map (W ws7) [0; 1; 2]%nat) /\ exists t', MR_Set_Vertices_poly T7 59 ws7 (map (map Z.of_nat) loops7) = Ok t' /\ MR_Vertices t' 59 = Ok (Some [5; 12; 10; 58; 3; 4; 11]).
Proof.
  split; [c7|]. split; [c7|]. split; [nodup_c|]. split; [live_c|]. split; [c7|]. split.
  - assert (K : forallb (fun i => forallb (fun j => implb (subsetb (nth i loops7 []) (nth j loops7 [])) (i =? j)%nat) (seq 0 10)) (seq 0 10) = true) by (vm_compute; reflexivity).
    intros i j Hi Hj H. rewrite forallb_forall in K. specialize (K i ltac:(apply in_seq; cbn in Hi; lia)). rewrite forallb_forall in K. specialize (K j ltac:(apply in_seq; cbn in Hj; lia)). replace (subsetb (nth i loops7 []) (nth j loops7 [])) with true in K. apply Nat.eqb_eq; exact K. symmetry. apply forallb_forall. intros k Hk. apply existsb_exists. exists k. split. apply H; auto. apply Nat.eqb_refl.
  - split; [apply (matchb_ok _ _ _ _ _ T7_reach A7_next); vm_compute; reflexivity|]. split; [apply outwardb_ok; vm_compute; reflexivity|]. eexists. split; [vm_compute; reflexivity|]. vm_compute. reflexivity.
Qed.

(** A quadrilateral 1, 2, 3, 4 exists; a polyhedron with the face 1, 2, 4, 3 is
    built: MVs_CommonFace compares the vertices as sets and the region gets the
    existing face, which runs through them in another order. *)
Definition quad8 : list top := [TNewV; TNewV; TNewV; TNewV; TNewV; TNewE; TSetVertex 6 false 1; TSetVertex 6 true 2; TNewE; TSetVertex 7 false 2; TSetVertex 7 true 3; TNewE; TSetVertex 8 false 3; TSetVertex 8 true 4;
  TNewE; TSetVertex 9 false 4; TSetVertex 9 true 1; TNewF; TSetEdges 10 [(6, true); (7, true); (8, true); (9, true)]; TNewR].
Definition loops8 : list (list nat) := [[0; 1; 2; 3]; [1; 0; 4]; [2; 1; 4]; [3; 2; 4]; [0; 3; 4]]%nat.
Theorem C39_other_loop_refuted : exists t a r ws Ls t' x f l us, reach t a /\ bare a r /\ NoDup ws /\ Forall (live_v a) ws /\ free_for a ws Ls /\ Forall (fun L => (2 < length L <= 30)%nat /\ NoDup L) Ls /\
  MR_Set_Vertices_poly t r ws (map (map Z.of_nat) Ls) = Ok t' /\ trs t' r = Some x /\ r_faces x = Some (f :: l) /\ MF_Vertices t' f 1 NULL = Ok us /\
  ~ rotation us (map (W ws) (nth 0 Ls [])) /\ ~ rotation (rev us) (map (W ws) (nth 0 Ls [])).
Proof.
  assert (H : tallowed amesh0 quad8) by (apply tallowedb_ok with (t := empty_topo); [exact inv0|vm_compute; reflexivity]). destruct (trun_ok quad8 _ _ inv0 H) as (t & E & _). set (t0 := match trun empty_topo quad8 with Ok t => t | _ => empty_topo end). assert (Et : t = t0) by (unfold t0; rewrite E; reflexivity). rewrite Et in *. clear t Et.
  assert (R : reach t0 (arun amesh0 quad8)) by (exists quad8; split; [exact H|split; [exact E|reflexivity]]).
  exists t0, (arun amesh0 quad8), 11, [1; 2; 4; 3; 5], loops8. eexists. eexists. exists 10. eexists. exists [1; 2; 3; 4].
  split; [exact R|]. split; [left; vm_compute; reflexivity|]. split; [nodup_c|]. split; [live_c|]. split; [eapply (freeb_ok _ _ _ _ 11 R); vm_compute; reflexivity|]. split; [repeat (constructor; [split; [cbn; lia|nodup_c]|]); constructor|].
  split; [vm_compute; reflexivity|]. split; [vm_compute; reflexivity|]. split; [vm_compute; reflexivity|]. split; [vm_compute; reflexivity|]. split; intros X; apply rotzb_c in X; vm_compute in X; discriminate.
Qed.
Print Assumptions C39_other_loop_refuted.
