(** Model of /repo/src/par/MESH_LabelPType.c, F1 representation.

    The lists of faces and regions are given in the order in which MESH_Next_Face
    and MESH_Next_Region visit them.  The entities' ptype fields (MEntity.c 724,
    750-752) are kept in four maps.  The MPI rank and size, which the functions
    read and do not use, are left out. *)
From Coq Require Import ZArith List Bool.
From Verif Require Import Base AttModel TopoModel CellModel.
Import ListNotations.
Open Scope Z_scope.

(** include/MSTK_types.h: PType *)
Definition PINTERIOR := 0.  Definition POVERLAP := 1.  Definition PBOUNDARY := 2.  Definition PGHOST := 3.

(** ptype of vertices, edges, faces and regions. *)
Record plabels := mkP { pv : ptr -> Z; pe : ptr -> Z; pf : ptr -> Z; pr : ptr -> Z }.

(** 58-64, 113-119: some vertex is PGHOST or POVERLAP. *)
Definition touches (s : plabels) (vs : list ptr) : bool := existsb (fun v => (pv s v =? PGHOST) || (pv s v =? POVERLAP)) vs.
(** 76-80, 84-88, 128-132, 136-140, 144-148: the entities in [l] that are not PGHOST
    become POVERLAP. *)
Definition raise (g : ptr -> Z) (l : list ptr) : ptr -> Z := fold_left (fun g x => if negb (g x =? PGHOST) then zupd g x POVERLAP else g) l g.

(** 54-66 *)
Definition face_first (t : topo) (s : plabels) (f : ptr) : result plabels :=
  fverts <- MF_Vertices t f 1 NULL ;;
  Ok (if touches s fverts then mkP (pv s) (pe s) (zupd (pf s) f POVERLAP) (pr s) else s).
(** 72-90 *)
Definition face_second (t : topo) (s : plabels) (f : ptr) : result plabels :=
  if negb (pf s f =? POVERLAP) then Ok s else
  fverts <- MF_Vertices t f 1 NULL ;;
  let s := mkP (raise (pv s) fverts) (pe s) (pf s) (pr s) in
  fedges <- MF_Edges t f 1 NULL ;;
  Ok (mkP (pv s) (raise (pe s) fedges) (pf s) (pr s)).
(** 42-92 MESH_LabelPType_Face *)
Definition MESH_LabelPType_Face (t : topo) (faces : list ptr) (s : plabels) : result plabels :=
  s <- foldM (face_first t) s faces ;;
  foldM (face_second t) s faces.

(** 109-121; the vertex list is NULL for a hexahedron without opposite face: then
    List_Num_Entries reads through it. *)
Definition reg_first (t : topo) (s : plabels) (r : ptr) : result plabels :=
  o <- MR_Vertices t r ;;
  rverts <- nn o ;;
  Ok (if touches s rverts then mkP (pv s) (pe s) (pf s) (zupd (pr s) r POVERLAP) else s).
(** 124-150 *)
Definition reg_second (t : topo) (s : plabels) (r : ptr) : result plabels :=
  if negb (pr s r =? POVERLAP) then Ok s else
  o <- MR_Vertices t r ;;
  rverts <- nn o ;;
  let s := mkP (raise (pv s) rverts) (pe s) (pf s) (pr s) in
  redges <- MR_Edges t r ;;
  let s := mkP (pv s) (raise (pe s) redges) (pf s) (pr s) in
  rfaces <- MR_Faces t r ;;
  Ok (mkP (pv s) (pe s) (raise (pf s) rfaces) (pr s)).
(** 100-152 MESH_LabelPType_Region *)
Definition MESH_LabelPType_Region (t : topo) (regions : list ptr) (s : plabels) : result plabels :=
  s <- foldM (reg_first t) s regions ;;
  foldM (reg_second t) s regions.

(** 30-40 MESH_LabelPType; exit(-1) for other dimensions. *)
Definition MESH_LabelPType (t : topo) (faces regions : list ptr) (topodim : Z) (s : plabels) : result plabels :=
  if topodim =? 3 then MESH_LabelPType_Region t regions s
  else if topodim =? 2 then MESH_LabelPType_Face t faces s
  else Fatal.
