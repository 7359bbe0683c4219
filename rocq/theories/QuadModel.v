(** Model of /repo/src/hilev/MESH_Tri2Quad.c: a mesh of triangles is cut into
    quadrilaterals.

    [faces] are the faces of the mesh in the order in which MESH_Next_Face visits
    them.  Simplifications: the new vertices are named after the entity they are made
    for instead of being allocated, and the attributes "vertex", "edge" and "face"
    that find them (58-113, 127-140) are that naming; the mesh has no attributes of
    these names before.  Coordinates, classification and the edges that
    MF_Set_Vertices makes are not modelled, nor the removal of the attributes
    (160-179). *)
From Coq Require Import ZArith List Bool.
From Verif Require Import Base ParModel TopoModel.
Import ListNotations.
Open Scope Z_scope.

(** A vertex of the new mesh: the copy of a vertex (60-70), the middle of an edge
    (76-91), the centre of a face (97-114). *)
Inductive lab := Corner (v : ptr) | Mid (e : ptr) | Centre (f : ptr).

(** 45-47 *)
Definition tri_quad : list (list Z) := [[0; 3; 6; 5]; [3; 1; 4; 6]; [5; 6; 4; 2]].

(** 97-103: are all faces triangles?  MF_Coords fills xyz_lst[100] first. *)
Fixpoint all_tris (t : topo) (faces : list ptr) : result bool :=
  match faces with
  | [] => Ok true
  | f :: r =>
    l <- MF_Vertices t f 1 NULL ;;
    if 100 <? ZL l then Undef
    else if negb (ZL l =? 3) then Ok false
    else all_tris t r
  end.

(** 121-152: the quadrilaterals of the face [f]; ptr_v_face[7]. *)
Definition quads_of (t : topo) (f : ptr) : result (list (list lab)) :=
  lst_v <- MF_Vertices t f 1 NULL ;;
  let n := ZL lst_v in
  v0 <- lent lst_v 0 ;;
  lst_e <- MF_Edges t f 1 v0 ;;
  p <- foldM (fun p i => v <- lent lst_v i ;; wr p i (Corner v)) (malloc 7) (zrange 0 3) ;;
  '(p, n) <- foldM (fun st i => let '(p, n) := st in e <- lent lst_e i ;; p <- wr p n (Mid e) ;; Ok (p, n + 1)) (p, n) (zrange 0 3) ;;
  p <- wr p n (Centre f) ;;
  mapM (fun row => mapM (rd p) row) tri_quad.

(** 27-182 MESH_Tri2Quad; the quadrilaterals in the order made, or [None] if 0 is
    returned. *)
Definition MESH_Tri2Quad (t : topo) (faces : list ptr) : result (option (list (list lab))) :=
  ok <- all_tris t faces ;;
  if negb ok then Ok None
  else qs <- mapM (quads_of t) faces ;; Ok (Some (concat qs)).
