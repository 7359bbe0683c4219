(** A mesh is distributed from rank 0 to all ranks.  Models src/par/MSTK_Mesh_Distribute.c after the
    partitioning of the graph, src/par/MESH_Partition_and_Send.c and src/par/MESH_BuildGhostList.c
    for meshes of type F1 and with_attr = 0.
    The submeshes and their ghosts are those of GhostModel.v, messages those of SendModel.v, the
    copy on rank 0 that of CloneModel.v, the last step that of ExchModel.v.  Each rank other than 0
    reads the messages that rank 0 sends to it, in the order in which they are sent. *)
From Coq Require Import ZArith Bool String List.
From Verif Require Import Base ListSpec SortModel AttModel TopoModel ParModel CommModel ExchModel GidModel FileModel SendModel PartModel CopyModel GhostModel CloneModel.
Import ListNotations.
Open Scope Z_scope.

(** ** The lists of ghosts and overlap *)
(** The entities in the order of MESH_Next_Vertex etc. (src/base/Mesh.c). *)
Definition ents (s : smesh) (k : Z) : list ptr :=
  let m := sm_m s in if k =? 0 then fm_v m else if k =? 1 then fm_e m else if k =? 2 then fm_f m else if k =? 3 then fm_r m else [].
(** MESH_BuildGhostList.c 97-166 and 168-256: the lists of one type, for each kind of entity up to
    the dimension of the mesh. *)
Definition collect (s : smesh) (topodim ptype k : Z) : list ptr :=
  if k <=? topodim then filter (fun p => pi_ptype (sm_p s p) =? ptype) (ents s k) else [].
(** 38-95: ghosts and overlap; the old lists are deleted.  The error at 84 is fatal. *)
Definition MESH_Build_GhostLists (s : smesh) (topodim : Z) : result ((Z -> list ptr) * (Z -> list ptr)) :=
  if (topodim =? 3) || (topodim =? 2) then
    gh <- sort_lists (fun p => pi_gid (sm_p s p)) (collect s topodim PGHOST) ;;
    ov <- sort_lists (fun p => pi_gid (sm_p s p)) (collect s topodim POVERLAP) ;;
    Ok (gh, ov)
  else Fatal.

(** ** Meshes *)
(** MESH_Partition.c 181 (343), MESH_Partition_and_Send.c 74: the attributes with the originals and
    the copies of the entities. *)
Definition l2gatt : attr := mkAttr (str "Local2Global") TPOINTER 1 MALLTYPE (fun _ => None).
Definition g2latt : attr := mkAttr (str "Global2Local") TPOINTER 1 MALLTYPE (fun _ => None).
(** The attributes of a submesh: Local2Global and, MESH_Partition.c 101-114, those of the mesh, the
    last of which is Global2Local.  The values of Local2Global are addresses, which no other
    function reads; they are left out.  There are no other values and no sets. *)
Definition declare (s sub : smesh) : result smesh :=
  foldM (fun sub a => if negb (short_name (at_name a)) then Undef else new_att a sub)
    (mkSM (sm_m (set_atts sub [l2gatt])) (sm_p sub) []) (fm_atts (sm_m s) ++ [g2latt]).
(** MESH_Partition_and_Send.c 343-346 on rank 0, where mysubmesh is an empty mesh
    (MSTK_Mesh_Distribute.c 69-70); 92-199, with the same messages as MESH_SendMesh, and
    MSTK_Mesh_Distribute.c 87-95 on the others. *)
Definition deliver (s : smesh) (y : Z * smesh) : result smesh :=
  sub <- declare s (snd y) ;;
  if fst y =? 0 then MESH_Copy sub empty_smesh true true
  else
    q <- MESH_SendMesh sub false ;;
    ' (m, _) <- MESH_RecvMesh false q ;;
    Ok m.
(** MESH_Partition_and_Send.c 72-90 and the meshes of all ranks. *)
Definition distribute (s : smesh) (num ring : Z) (part : list Z) : result (smesh * list smesh) :=
  ' (s', _, outs) <- partition_with_ghosts s num ring part ;;
  ms <- mapM (deliver s) (combine (zrange 0 num) (map fst outs)) ;;
  Ok (s', ms).

(** ** Which ranks have ghosts of which *)
(** MSTK_Mesh_Distribute.c 104-112 on rank [my]; [val] are the values of an attribute, or the
    coordinates. *)
Definition begin_rank (n my dim : Z) (val : ptr -> list Z) (s : smesh) : result xrank :=
  ' (gh, ov) <- MESH_Build_GhostLists s dim ;;
  Ok (mkX (MESH_Set_Prtn pmesh_new my n) 0 gh ov (fun p => pi_gid (sm_p s p)) (fun p => pi_master (sm_p s p)) (fun p => pi_bdry (sm_p s p)) val).
Definition finish_rank (n my dim : Z) (val : ptr -> list Z) (s : smesh) : prog xrank :=
  x <! begin_rank n my dim val s ;;
  update_adj n my x.
