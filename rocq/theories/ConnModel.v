(** Model of src/par/MESH_BuildConnection.c: every rank learns from the global IDs of
    its vertices which other ranks it shares vertices with, and flags those ranks as
    ranks it has ghosts from.

    Not modelled: the memory given back at the end (112-115); the position [iloc] of
    the match (101), which is never used; the argument [topodim], likewise. *)
From Coq Require Import ZArith List Bool.
From Verif Require Import Base SortModel CompareModel MeshModel AttModel TopoModel ParModel CommModel ExchModel LabelModel GidModel.
Import ListNotations.
Open Scope Z_scope.

(** What the function reads and writes of a rank's mesh: its vertices in order, their
    PType and global ID, the number of regions, the flags for other ranks. *)
Record crank := mkCR { c_vs : list ptr; c_pt : ptr -> Z; c_gid : ptr -> Z; c_nr : Z; c_p : pmesh }.
Definition set_p (x : crank) (m : pmesh) : crank := mkCR (c_vs x) (c_pt x) (c_gid x) (c_nr x) m.

(** 44, 56: entries 1 and 4 of mesh_info; 72-78: one value per vertex. *)
Definition conn_cfg : mcfg := mkC 1 1 4 0 true false false.

(** 49-55 *)
Definition conn_verts (x : crank) : list ptr := filter (fun v => negb (c_pt x v =? PINTERIOR)) (c_vs x).

(** compare_funcs.c compareINT on the value searched for and an entry of the array. *)
Definition int_cmp (a b : list Z) : result Z := a0 <- rdl a 0 ;; b0 <- rdl b 0 ;; compareINT a0 b0.

(** 93-108: one other rank *)
Definition neighbour1 (mx rank nr : Z) (gi recv : list Z) (gid : Z) (m : pmesh) (j : Z) : result pmesh :=
  if j =? rank then Ok m
  else
    cnt <- rdl gi (10 * j + c_bnd conn_cfg) ;;
    r <- ksearch (Z.to_nat cnt) (int_cmp [gid]) recv (mx * j) (c_wd conn_cfg) 0 cnt ;;
    match r with
    | None => Ok m
    | Some _ =>
        m <- MESH_Flag_Has_Ghosts_From_Prtn m j 0 ;;
        m <- MESH_Flag_Has_Ghosts_From_Prtn m j 1 ;;
        if negb (nr =? 0) then MESH_Flag_Has_Ghosts_From_Prtn m j 2 else Ok m
    end.

(** 83-92: all vertices, the other ranks from the highest to the lowest *)
Definition neighbours (mx num rank nr : Z) (gi recv : list Z) (gid : ptr -> Z) (bl : list ptr) (m : pmesh) : result pmesh :=
  foldM (fun m i => v <- lent bl i ;; foldM (neighbour1 mx rank nr gi recv (gid v)) m (rev (zrange 0 num))) m (zrange 0 (ZL bl)).

(** 30-117 MESH_BuildConnection; [junk] is what the part of the buffer that is not
    written before it is sent (69-81) happens to hold. *)
Definition MESH_BuildConnection (junk : Z -> Z) (num rank : Z) (x : crank) : prog crank :=
  bl <! pqsort (compareGlobalID (c_gid x)) (conn_verts x) ;;
  info <! wrl [0; ZL (c_vs x); 0; 0; 0; 0; 0; 0; 0; 0] (c_bnd conn_cfg) (ZL bl) ;;
  Col info (fun gis =>
    let gi := concat gis in
    mx <! max_count conn_cfg num gi ;;
    lst <! pack conn_cfg mx bl (fun v => Ok [c_gid x v]) ;;
    Col (fill junk lst) (fun recvs =>
      m <! neighbours mx num rank (c_nr x) gi (concat recvs) (c_gid x) bl (c_p x) ;;
      Ret (set_p x m))).

(** ** The first steps of src/par/MSTK_Weave_DistributedMeshes.c *)

(** The rank's mesh as MESH_BuildConnection sees it. *)
Definition conn_of (y : grank) (m : pmesh) : crank := mkCR (g_vs y) (g_pt (gv y)) (g_id (gv y)) (ZL (g_rs y)) m.
(** 65-76: the meshes are given without neighbours ([h] is have_GIDs, 67-70); [m] is the
    parallel data of the mesh before the call. *)
Definition weave_start (junk : Z -> Z -> Z) (num rank topodim h : Z) (x : grank) (m : pmesh) : prog (grank * crank) :=
  let m := MESH_Set_Prtn m rank num in
  y <~ MESH_AssignGlobalIDs junk num rank topodim h x ;;
  z <~ MESH_BuildConnection (junk 3) num rank (conn_of y m) ;;
  Ret (y, z).
