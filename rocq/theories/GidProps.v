(** C30: global IDs. *)
From Coq Require Import ZArith List Lia Bool Arith ZifyBool ZifyNat Permutation Sorting.Sorted Floats.SpecFloat.
From Verif Require Import Base BaseProofs ListSpec SortModel CompareModel CompareProps MeshModel AttModel AttProps TopoModel TopoSpec TopoProofs TopoProofs2 TopoProps TopoProps2 ParModel ParProps CommModel CommProofs CommProofs2 ExchModel ExchProofs ExchProofs2 LabelModel LabelProofs LabelProps GidModel GidProofs GidProofs2 GidProofs3 CoorProofs GidProofs4 GidProofs5 GidProofs6 GidProofs7.
Import ListNotations.
Open Scope Z_scope.

(** ** Statements *)
(** What a rank may have before: a sound mesh; no ghosts yet; IDs of edges and faces
    are 0 or given; all numbers are ints. *)
Record before (n : Z) (x : Z -> grank) (a : Z -> amesh) : Prop := mkBefore {
  be_part : forall p, on n p -> part (x p) (a p);
  be_vg : no_ghosts n (fun p => g_vs (x p)) (fun p => gv (x p));
  be_eg : no_ghosts n (fun p => g_es (x p)) (fun p => ge (x p));
  be_eid : forall p e, on n p -> In e (g_es (x p)) -> 0 <= g_id (ge (x p)) e;
  be_vn : total n (fun p => g_vs (x p)) < 2 ^ 31 - 1;
  be_en : total n (fun p => g_es (x p)) < 2 ^ 31 - 1;
  be_fn : total n (fun p => g_fs (x p)) < 2 ^ 31 - 1 }.
(** For volume meshes also: *)
Record before3 (n : Z) (x : Z -> grank) (a : Z -> amesh) : Prop := mkBefore3 {
  be_fg : no_ghosts n (fun p => g_fs (x p)) (fun p => gf (x p));
  be_fid : forall p f, on n p -> In f (g_fs (x p)) -> 0 <= g_id (gf (x p)) f;
  be_few : forall p f, on n p -> In f (g_fs (x p)) -> few_vertices (a p) f;
  be_rn : total n (fun p => g_rs (x p)) < 2 ^ 31 - 1 }.
(** The vertices on the boundary of the parts have real coordinates that the tolerance
    tells apart; no vertex has an ID. *)
Record by_points (n : Z) (x : Z -> grank) (a : Z -> amesh) : Prop := mkBP {
  bp_real : forall p v, on n p -> bvert (x p) (a p) v -> real_point (g_xyz (x p) v);
  bp_sep : separated (fun k => exists p v, on n p /\ bvert (x p) (a p) v /\ k = g_xyz (x p) v);
  bp_one : forall p v w, on n p -> bvert (x p) (a p) v -> bvert (x p) (a p) w -> same_point (g_xyz (x p) v) (g_xyz (x p) w) -> v = w;
  bp_fresh : fresh n (fun p => g_vs (x p)) (fun p => gv (x p)) }.
(** All vertices have an ID, and vertices with the same ID on different ranks are on the
    boundary of both. *)
Record by_ids (n : Z) (x : Z -> grank) (a : Z -> amesh) : Prop := mkBI {
  bi_pos : forall p v, on n p -> In v (g_vs (x p)) -> 0 < g_id (gv (x p)) v < 2 ^ 31;
  bi_one : forall p v w, on n p -> In v (g_vs (x p)) -> In w (g_vs (x p)) -> g_id (gv (x p)) v = g_id (gv (x p)) w -> v = w;
  bi_bnd : forall p v q w, on n p -> on n q -> p <> q -> In v (g_vs (x p)) -> In w (g_vs (x q)) -> g_id (gv (x p)) v = g_id (gv (x q)) w -> bvert (x p) (a p) v }.
Definition same_id (x : Z -> grank) (p v q w : Z) : Prop := g_id (gv (x p)) v = g_id (gv (x q)) w.

Definition numbered_edges (n : Z) (x : Z -> grank) (a : Z -> amesh) tw (y : Z -> grank) : Prop :=
  outcome n (fun p => g_es (x p)) (copy_edge tw a) (fun p => ge (x p)) (fun p => ge (y p)) /\
  (forall p e, on n p -> In e (g_es (x p)) -> g_bd (ge (y p)) e = true <-> g_bd (ge (x p)) e = true \/ (1 <= p /\ exists q e', on n q /\ q <> p /\ In e' (g_es (x q)) /\ copy_edge tw a p e q e')).
Definition numbered_faces (n : Z) (x : Z -> grank) (a : Z -> amesh) tw (y : Z -> grank) : Prop :=
  outcome n (fun p => g_fs (x p)) (copy_face tw a) (fun p => gf (x p)) (fun p => gf (y p)) /\
  (forall p f, on n p -> In f (g_fs (x p)) -> g_bd (gf (y p)) f = true <-> g_bd (gf (x p)) f = true \/ (exists q f', on n q /\ q <> p /\ In f' (g_fs (x q)) /\ copy_face tw a p f q f')).
Definition flags (n : Z) (x : Z -> grank) (a : Z -> amesh) (y : Z -> grank) : Prop :=
  forall p v, on n p -> g_bd (gv (y p)) v = true <-> g_bd (gv (x p)) v = true \/ bvert (x p) (a p) v.
(** Nothing else of the rank's mesh is changed. *)
Definition else_same (n : Z) (x y : Z -> grank) : Prop := forall p, on n p -> y p = final (x p) (gv (y p)) (ge (y p)) (gf (y p)) (gr (y p)).

Lemma same_point_sym : forall k k', same_point k k' -> same_point k' k.
Proof. intros k k' H i Hi. specialize (H i Hi). lia. Qed.
Lemma same_point_trans : forall K k k' k'', separated K -> K k -> K k' -> K k'' -> same_point k k' -> same_point k' k'' -> same_point k k''.
Proof. intros K k k' k'' S H H' H'' A B i Hi. specialize (A i Hi). specialize (B i Hi). destruct (S k k'' H H'' i Hi); auto. clear S. lia. Qed.

Lemma points_first : forall N x a junk, (0 < N)%nat -> before (Z.of_nat N) x a -> by_points (Z.of_nat N) x a -> exists y,
  (forall lo, protocol (Z.of_nat N) lo (lo + 6) (fun p => MESH_AssignGlobalIDs_Vertex (junk p 0) (Z.of_nat N) p 0 (x p)) (fun p => set_gv (x p) (y p))) /\
  outcome (Z.of_nat N) (fun p => g_vs (x p)) (twin_xyz x a) (fun p => gv (x p)) y /\ forall p v, on (Z.of_nat N) p -> g_bd (y p) v = true <-> g_bd (gv (x p)) v = true \/ bvert (x p) (a p) v.
Proof.
  intros N x a junk HN B P. destruct (vertex_xyz N x a (fun p => junk p 0)) as (y & P1 & P2 & P3); try apply B; try apply P; auto. exists y. split. exact P1. split; [|exact P3].
  apply numbering_outcome. exact P2. intros p Hp. apply (part_vs _ _ (be_part _ _ _ B p Hp)).
  - intros p e q e' Hp Hq _ _ (A1 & A2 & A3). split; auto. split; auto. apply same_point_sym; auto.
  - intros p e q e' r e'' Hp Hq Hr _ _ _ (A1 & A2 & A3) (B1 & B2 & B3). split; auto. split; auto. apply (same_point_trans _ _ (g_xyz (x q) e') _ (bp_sep _ _ _ P)); auto; eexists _, _; eauto.
  - intros p e e' Hp _ _ (A1 & A2 & A3). apply (bp_one _ _ _ P p); auto.
Qed.
Lemma ids_first : forall N x a junk h, (0 < N)%nat -> h <> 0 -> before (Z.of_nat N) x a -> by_ids (Z.of_nat N) x a -> exists y,
  (forall lo, protocol (Z.of_nat N) lo (lo + 6) (fun p => MESH_AssignGlobalIDs_Vertex (junk p 0) (Z.of_nat N) p h (x p)) (fun p => set_gv (x p) (y p))) /\
  numbering (Z.of_nat N) (fun p => g_vs (x p)) (same_id x) (fun p => gv (x p)) y /\ (forall p v, on (Z.of_nat N) p -> g_bd (y p) v = true <-> g_bd (gv (x p)) v = true \/ bvert (x p) (a p) v) /\
  (forall p v, on (Z.of_nat N) p -> In v (g_vs (x p)) -> g_id (y p) v = g_id (gv (x p)) v) /\ same_ids (Z.of_nat N) (fun p => g_vs (x p)) (same_id x) y.
Proof.
  intros N x a junk h HN Hh B P. destruct (vertex_gid N x a (fun p => junk p 0)) with (h := h) as (y & P1 & P2 & P3); try apply B; auto.
  - intros p v Hp Hv. pose proof (bi_pos _ _ _ P p v Hp Hv). lia.
  - intros p v w Hp (Hv & _) (Hw & _). apply (bi_one _ _ _ P p); auto.
  - assert (NU : numbering (Z.of_nat N) (fun p => g_vs (x p)) (same_id x) (fun p => gv (x p)) y).
    { apply (numbering_ext _ _ (twin_gid x a)). exact P2. intros p e q e' Hp Hq Ne He He'. unfold twin_gid, same_id. split. tauto. intros E. split. apply (bi_bnd _ _ _ P p e q e'); auto. split; auto. apply (bi_bnd _ _ _ P q e' p e); auto. }
    assert (KEPT : forall p v, on (Z.of_nat N) p -> In v (g_vs (x p)) -> g_id (y p) v = g_id (gv (x p)) v).
    { assert (OWN : forall p v, on (Z.of_nat N) p -> In v (g_vs (x p)) -> g_pt (y p) v <> PGHOST -> g_id (y p) v = g_id (gv (x p)) v). { intros p v Hp Hv G. apply (num_kept _ _ _ _ _ NU p v Hp Hv G). pose proof (bi_pos _ _ _ P p v Hp Hv). lia. }
      intros p v Hp Hv. destruct (Z.eq_dec (g_pt (y p) v) PGHOST) as [G|G]; auto. destruct (num_owner _ _ _ _ _ NU p v Hp Hv G) as (o & w & A1 & A2 & A3 & _ & _ & A6 & A7). assert (Ho : on (Z.of_nat N) o) by (unfold on in *; lia). rewrite A7, (OWN o w Ho A2 A6). symmetry; exact A3. }
    exists y. split. exact P1. split. exact NU. split. exact P3. split. exact KEPT. intros p e q e' Hp Hq He He'. rewrite !KEPT by auto. split.
    + intros E. destruct (Z.eq_dec p q) as [Q|Q]. subst q. left. split; auto. apply (bi_one _ _ _ P p); auto. right. auto.
    + intros [(<- & <-)|(_ & E)]; auto.
Qed.

(** ** Volume meshes *)
Theorem C30_volume_points : forall N x a junk, (0 < N)%nat -> let n := Z.of_nat N in before n x a -> before3 n x a -> by_points n x a ->
  exists y, never_stuck_with n (fun p => MESH_AssignGlobalIDs (junk p) n p 3 0 (x p)) y /\ else_same n x y /\
    outcome n (fun p => g_vs (x p)) (twin_xyz x a) (fun p => gv (x p)) (fun p => gv (y p)) /\ flags n x a y /\
    numbered_edges n x a (twin_xyz x a) y /\ numbered_faces n x a (twin_xyz x a) y /\
    outcome n (fun p => g_rs (x p)) no_twin (fun p => interior (gr (x p))) (fun p => gr (y p)).
Proof.
  intros N x a junk HN n B B3 P. destruct (points_first N x a junk HN B P) as (yv & P1 & O & F). destruct O as (NU & O). destruct (O (bp_fresh _ _ _ P)) as (BL & SI & RG).
  destruct (volume N x a junk 0 (twin_xyz x a) yv) as (ye & yf & yr & Q1 & Q2 & Q3 & Q4 & Q5 & Q6); try apply B; try apply B3; auto.
  exists (fun p => final (x p) (yv p) (ye p) (yf p) (yr p)). split. { apply (protocol_runs _ n 0 (0 + 18)). unfold n; lia. apply Q1. }
  split. intros p Hp. reflexivity. split. split; auto. split. exact F. split. split; auto. split. split; auto. exact Q6.
Qed.
Print Assumptions C30_volume_points.
Theorem C30_volume_ids : forall N x a junk h, (0 < N)%nat -> let n := Z.of_nat N in h <> 0 -> before n x a -> before3 n x a -> by_ids n x a ->
  exists y, never_stuck_with n (fun p => MESH_AssignGlobalIDs (junk p) n p 3 h (x p)) y /\ else_same n x y /\
    numbering n (fun p => g_vs (x p)) (same_id x) (fun p => gv (x p)) (fun p => gv (y p)) /\ (forall p v, on n p -> In v (g_vs (x p)) -> g_id (gv (y p)) v = g_id (gv (x p)) v) /\ flags n x a y /\
    numbered_edges n x a (same_id x) y /\ numbered_faces n x a (same_id x) y /\
    outcome n (fun p => g_rs (x p)) no_twin (fun p => interior (gr (x p))) (fun p => gr (y p)).
Proof.
  intros N x a junk h HN n Hh B B3 P. destruct (ids_first N x a junk h HN Hh B P) as (yv & P1 & NU & F & K & SI).
  destruct (volume N x a junk h (same_id x) yv) as (ye & yf & yr & Q1 & Q2 & Q3 & Q4 & Q5 & Q6); try apply B; try apply B3; auto.
  { intros p v Hp Hv. rewrite K by auto. apply (bi_pos _ _ _ P); auto. }
  exists (fun p => final (x p) (yv p) (ye p) (yf p) (yr p)). split. { apply (protocol_runs _ n 0 (0 + 18)). unfold n; lia. apply Q1. }
  split. intros p Hp. reflexivity. split. exact NU. split. exact K. split. exact F. split. split; auto. split. split; auto. exact Q6.
Qed.
Print Assumptions C30_volume_ids.

(** ** Surface meshes: the faces are the elements *)
Theorem C30_surface_points : forall N x a junk, (0 < N)%nat -> let n := Z.of_nat N in before n x a -> by_points n x a ->
  exists y, never_stuck_with n (fun p => MESH_AssignGlobalIDs (junk p) n p 2 0 (x p)) y /\ else_same n x y /\
    outcome n (fun p => g_vs (x p)) (twin_xyz x a) (fun p => gv (x p)) (fun p => gv (y p)) /\ flags n x a y /\
    numbered_edges n x a (twin_xyz x a) y /\
    outcome n (fun p => g_fs (x p)) no_twin (fun p => interior (gf (x p))) (fun p => gf (y p)) /\ (forall p, on n p -> gr (y p) = gr (x p)).
Proof.
  intros N x a junk HN n B P. destruct (points_first N x a junk HN B P) as (yv & P1 & O & F). destruct O as (NU & O). destruct (O (bp_fresh _ _ _ P)) as (BL & SI & RG).
  destruct (surface N x a junk 0 (twin_xyz x a) yv) as (ye & yf & Q1 & Q2 & Q3 & Q4); try apply B; auto.
  exists (fun p => final (x p) (yv p) (ye p) (yf p) (gr (x p))). split. { apply (protocol_runs _ n 0 (0 + 13)). unfold n; lia. apply Q1. }
  split. intros p Hp. reflexivity. split. split; auto. split. exact F. split. split; auto. split. exact Q4. auto.
Qed.
Print Assumptions C30_surface_points.
Theorem C30_surface_ids : forall N x a junk h, (0 < N)%nat -> let n := Z.of_nat N in h <> 0 -> before n x a -> by_ids n x a ->
  exists y, never_stuck_with n (fun p => MESH_AssignGlobalIDs (junk p) n p 2 h (x p)) y /\ else_same n x y /\
    numbering n (fun p => g_vs (x p)) (same_id x) (fun p => gv (x p)) (fun p => gv (y p)) /\ (forall p v, on n p -> In v (g_vs (x p)) -> g_id (gv (y p)) v = g_id (gv (x p)) v) /\ flags n x a y /\
    numbered_edges n x a (same_id x) y /\
    outcome n (fun p => g_fs (x p)) no_twin (fun p => interior (gf (x p))) (fun p => gf (y p)) /\ (forall p, on n p -> gr (y p) = gr (x p)).
Proof.
  intros N x a junk h HN n Hh B P. destruct (ids_first N x a junk h HN Hh B P) as (yv & P1 & NU & F & K & SI).
  destruct (surface N x a junk h (same_id x) yv) as (ye & yf & Q1 & Q2 & Q3 & Q4); try apply B; auto.
  { intros p v Hp Hv. rewrite K by auto. apply (bi_pos _ _ _ P); auto. }
  exists (fun p => final (x p) (yv p) (ye p) (yf p) (gr (x p))). split. { apply (protocol_runs _ n 0 (0 + 13)). unfold n; lia. apply Q1. }
  split. intros p Hp. reflexivity. split. exact NU. split. exact K. split. exact F. split. split; auto. split. exact Q4. auto.
Qed.
Print Assumptions C30_surface_ids.
