(** What an answer of MESH_CheckTopo is about, in terms of the fields of the
    structures of MVertex.h, MEdge.h, MFace.h and MRegion.h only. *)
From Coq Require Import ZArith List Bool.
From Verif Require Import Base AttModel TopoModel TopoSpec CheckModel.
Import ListNotations.
Open Scope Z_scope.

(** Direction in which a face uses its k-th edge, a region its k-th face. *)
Definition edge_dir (x : frec) (k : nat) : bool := Z.testbit (f_edirs x) (Z.of_nat k).
Definition face_dir (y : rrec) (k : nat) : bool := Z.testbit (nth (k / 32) (r_fdirs y) 0) (Z.of_nat (k mod 32)).

(** The entities know each other. *)
Definition v_knows (t : topo) (v e : ptr) : Prop := exists x, tvs t v = Some x /\ In e (v_edges x).
Definition e_ends (t : topo) (e v : ptr) : Prop := exists y, tes t e = Some y /\ (e_v0 y = v \/ e_v1 y = v).
Definition e_knows (t : topo) (e f : ptr) : Prop := exists y, tes t e = Some y /\ In f (e_faces y).
Definition f_bounded (t : topo) (f e : ptr) : Prop := exists x l, tfs t f = Some x /\ f_edges x = Some l /\ In e l.
Definition r_bounded (t : topo) (r f : ptr) : Prop := exists y l, trs t r = Some y /\ r_faces y = Some l /\ In f l.
Definition f_knows (t : topo) (f r : ptr) : Prop := exists x, tfs t f = Some x /\ r <> NULL /\ (f_r0 x = r \/ f_r1 x = r).

(** The model entity [c] is in the closure of the model entity [d], as far as
    dimension and number tell. *)
Definition within (c d : Z * Z) : Prop := fst c <= fst d /\ (fst c = fst d -> snd c = snd d).

(** An edge against one of its ends. *)
Definition end_ok (m : checked_mesh) (e v : ptr) : Prop :=
  v_knows (cm_t m) v e /\ (fst (cm_c m v) <> 4 -> within (cm_c m v) (cm_c m e)).

(** The two faces classified on model faces at an edge classified on one. *)
Definition two_faces (m : checked_mesh) (e : ptr) : Prop := forall y, tes (cm_t m) e = Some y ->
  exists f g, filter (fun q => fst (cm_c m q) =? 2) (e_faces y) = [f; g] /\
  snd (cm_c m f) = snd (cm_c m e) /\ snd (cm_c m g) = snd (cm_c m e).

(** Faces i and k of a region, with the edge as their edges number j and l, use it
    in opposite directions when seen from the region. *)
Definition opposite (y : rrec) (x x' : frec) (i k j l : nat) : Prop :=
  xorb (edge_dir x j) (face_dir y i) <> xorb (edge_dir x' l) (face_dir y k).

(** ** Orientation, in terms of the downward data (TopoSpec.v) *)
(** Face [f] uses edge [e] in direction [s]. *)
Definition in_face (a : amesh) (e : ptr) (s : bool) (f : ptr) : Prop := exists k, a_f a f = Some (true, Some k) /\ In (e, s) k.
(** At every edge of every face of the region another face of it goes the other
    way round, as seen from the region: the faces close up, all outward or all
    inward. *)
Definition oriented (a : amesh) (r : ptr) : Prop := forall b f d e s, a_r a r = Some (true, Some b) -> In (f, d) b -> in_face a e s f ->
  exists g d' s', In (g, d') b /\ g <> f /\ in_face a e s' g /\ xorb s d <> xorb s' d'.
(** No three faces of the region at an edge. *)
Definition pairs (a : amesh) (r : ptr) : Prop := forall b e f g h, a_r a r = Some (true, Some b) ->
  In f (map fst b) -> In g (map fst b) -> In h (map fst b) -> has_edge a f e -> has_edge a g e -> has_edge a h e -> f <> g -> f <> h -> g = h.

(** The lists of the mesh have live, complete entities. *)
Record listed (m : checked_mesh) (a : amesh) : Prop := mkListed {
  ls_v : forall v, In v (cm_v m) -> live_v a v;
  ls_e : forall e, In e (cm_e m) -> exists v0 v1, a_e a e = Some (true, (v0, v1)) /\ v0 <> NULL /\ v1 <> NULL;
  ls_f : forall f, In f (cm_f m) -> full_f a f;
  ls_r : forall r, In r (cm_r m) -> exists b, a_r a r = Some (true, Some b) }.
(** The entities are classified on model entities of no smaller dimension than
    those of their boundary; faces in the interior have two regions. *)
Record well_classified (m : checked_mesh) (a : amesh) : Prop := mkWC {
  wc_e : forall e v, In e (cm_e m) -> cm_ghost m e = false -> is_end a e v -> fst (cm_c m v) <> 4 -> within (cm_c m v) (cm_c m e);
  wc_f : forall f e, In f (cm_f m) -> cm_ghost m f = false -> has_edge a f e -> fst (cm_c m e) <> 4 -> fst (cm_c m f) <> 4 -> fst (cm_c m e) <= fst (cm_c m f);
  wc_3 : forall f, In f (cm_f m) -> cm_ghost m f = false -> fst (cm_c m f) = 3 -> exists r r', has_face a r f true /\ has_face a r' f false }.
