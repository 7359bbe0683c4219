(** Model of /repo/src/hilev/MESH_Tet2Hex.c: a mesh of tetrahedra is cut into
    hexahedra.

    [faces] and [regs] are the faces and regions of the mesh in the order in which
    MESH_Next_Face and MESH_Next_Region visit them.  Simplifications: the new vertices
    are named after the entity they are made for instead of being allocated, and the
    attributes "vertex", "edge", "face" and "region" that find them are that naming;
    the mesh has no attributes of these names before.  Looking up the attribute of a
    null entity is undefined.  Coordinates, classification and the faces that
    MR_Set_Vertices makes are not modelled, nor the removal of the attributes
    (193-220). *)
From Coq Require Import ZArith List Bool.
From Verif Require Import Base ParModel TopoModel CellModel BuildModel QuadModel.
Import ListNotations.
Open Scope Z_scope.

(** A vertex of the new mesh: the copy of a vertex (58-72), the middle of an edge
    (75-93), the centre of a face (96-116), the centre of a region (119-139). *)
Inductive hlab := OfV (v : ptr) | OfE (e : ptr) | OfF (f : ptr) | OfR (r : ptr).

(** 47-50 *)
Definition tet_hex : list (list Z) :=
  [[0; 4; 13; 5; 6; 12; 14; 11]; [1; 7; 13; 4; 8; 10; 14; 12]; [2; 5; 13; 7; 9; 11; 14; 10]; [3; 6; 11; 9; 8; 12; 14; 10]].

(** 123-124: MR_Coords (hilev/MR_Coords.c 17-30) fills xyz_lst[100] with the points of
    MR_Vertices. *)
Fixpoint regions_fit (t : topo) (regs : list ptr) : result unit :=
  match regs with
  | [] => Ok tt
  | r :: l =>
    o <- MR_Vertices t r ;;
    match o with
    | None => Undef
    | Some vs => if 100 <? ZL vs then Undef else regions_fit t l
    end
  end.

(** 153-154: the pairs i < j. *)
Definition tet_pairs : list (Z * Z) := [(0, 1); (0, 2); (0, 3); (1, 2); (1, 3); (2, 3)].

(** 143-189: the hexahedra of the region [r]; ptr_v_regn[15], old_ptr_v_regn[4]. *)
Definition hexes_of (t : topo) (r : ptr) : result (list (list hlab)) :=
  o <- MR_Vertices t r ;;
  match o with
  | None => Undef
  | Some lst_v =>
    let n := ZL lst_v in
    old <- mapM (lent lst_v) (zrange 0 4) ;;
    p <- foldM (fun p i => v <- rdl old i ;; if v =? NULL then Undef else wr p i (OfV v)) (malloc 15) (zrange 0 4) ;;
    '(p, n) <- foldM (fun st ij => let '(p, n) := st in
        vi <- rdl old (fst ij) ;; vj <- rdl old (snd ij) ;;
        e <- MVs_CommonEdge t vi vj ;;
        if e =? NULL then Undef else p <- wr p n (OfE e) ;; Ok (p, n + 1)) (p, n) tet_pairs ;;
    '(p, n) <- foldM (fun st i => let '(p, n) := st in
        fv <- mapM (fun j => rdl old ((i + j + 1) mod 4)) (zrange 0 3) ;;
        f <- MVs_CommonFace t 3 fv ;;
        if f =? NULL then Undef else p <- wr p n (OfF f) ;; Ok (p, n + 1)) (p, n) (zrange 0 4) ;;
    p <- wr p n (OfR r) ;;
    mapM (fun row => mapM (rd p) row) tet_hex
  end.

(** 28-223 MESH_Tet2Hex; the vertices of the hexahedra in the order made, or [None] if
    0 is returned.  The test of the faces, 100-105, is that of MESH_Tri2Quad. *)
Definition MESH_Tet2Hex (t : topo) (faces regs : list ptr) : result (option (list (list hlab))) :=
  ok <- all_tris t faces ;;
  if negb ok then Ok None
  else _ <- regions_fit t regs ;; hs <- mapM (hexes_of t) regs ;; Ok (Some (concat hs)).
