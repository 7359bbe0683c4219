(** Model of /repo/src/par/MESH_PartitionWithMetis.c and, for partitioning with
    METIS, of /repo/src/par/MESH_Get_Partitioning.c.

    The lists of regions, faces and edges of the mesh are given without gaps, in
    the order in which MESH_Next_Region, MESH_Next_Face visit them; [rid] and [fid]
    are the local IDs.  METIS is a parameter: a function of what it is handed that
    fails or gives a part for every cell; a call that fails leaves the array for
    the parts as it was.  Simplifications: the lists leaked at line 77 are not
    tracked; int and idx_t are unbounded; malloc does not fail. *)
From Coq Require Import ZArith List Bool.
From Verif Require Import Base TopoModel.
Import ListNotations.
Open Scope Z_scope.

(** 84-85 and 127-128: adjncy[ipos] = x; ipos++. *)
Definition push (st : array Z * Z) (x : Z) : result (array Z * Z) :=
  let '(adj, ipos) := st in
  adj <- wr adj ipos x ;; Ok (adj, ipos + 1).

(** 67-94: the edges of the face [mf]. *)
Definition metis_face (t : topo) (fid : ptr -> Z) (mf : ptr) (st : array Z * Z) : result (array Z * Z) :=
  fedges <- MF_Edges t mf 1 NULL ;;
  foldM (fun st fedge =>
    o <- ME_Faces t fedge ;;
    efaces <- nn o ;;
    if ZL efaces =? 1 then Ok st
    else foldM (fun st j =>
      oppf <- lent efaces j ;;
      if negb (oppf =? mf) then push st (fid oppf - 1) else Ok st) st (zrange 0 (ZL efaces))) st fedges.

(** 113-134: the faces of the region [mr]. *)
Definition metis_region (t : topo) (rid : ptr -> Z) (mr : ptr) (st : array Z * Z) : result (array Z * Z) :=
  rfaces <- MR_Faces t mr ;;
  foldM (fun st rface =>
    fregions <- MF_Regions t rface ;;
    if 1 <? ZL fregions then
      a <- lent fregions 0 ;;
      oppr <- (if a =? mr then lent fregions 1 else Ok a) ;;
      push st (rid oppr - 1)
    else Ok st) st rfaces.

(** 57-98 and 103-138: the loop over the cells; [room] is the size of adjncy.
    State (xadj, adjncy, ipos, i). *)
Definition metis_loop (cell : ptr -> array Z * Z -> result (array Z * Z)) (cells : list ptr) (room : Z) : result (array Z * array Z) :=
  xadj <- wr (malloc (ZL cells + 1)) 0 0 ;;
  '(xadj, adj, _, _) <- foldM (fun st x =>
      let '(xadj, adj, ipos, i) := st in
      '(adj, ipos) <- cell x (adj, ipos) ;;
      xadj <- wr xadj (i + 1) ipos ;;
      Ok (xadj, adj, ipos, i + 1)) (xadj, malloc room, 0, 0) cells ;;
  Ok (xadj, adj).

(** 43-140: the graph of the cells; result (ncells, xadj, adjncy).  exit(-1) on a
    mesh without cells. *)
Definition metis_graph (t : topo) (regions faces edges : list ptr) (rid fid : ptr -> Z) : result (Z * array Z * array Z) :=
  if ZL regions =? 0 then
    if ZL faces =? 0 then Fatal
    else '(xadj, adj) <- metis_loop (metis_face t fid) faces (2 * ZL edges) ;; Ok (ZL faces, xadj, adj)
  else '(xadj, adj) <- metis_loop (metis_region t rid) regions (2 * ZL faces) ;; Ok (ZL regions, xadj, adj).

(** 146-169: what METIS is handed; [mc_kway]: METIS_PartGraphKway rather than
    METIS_PartGraphRecursive. *)
Record mcall := mkCall { mc_kway : bool; mc_n : Z; mc_xadj : array Z; mc_adj : array Z; mc_parts : Z }.

(** 153-169: the array idxpart after the call. *)
Definition idxpart (metis : mcall -> option (Z -> Z)) (c : mcall) : array Z :=
  match metis c with
  | Some g => map (fun i => Some (g i)) (zrange 0 (mc_n c))
  | None => malloc (mc_n c)
  end.

(** 25-184 MESH_PartitionWithMetis; the result is the array part. *)
Definition MESH_PartitionWithMetis (metis : mcall -> option (Z -> Z)) (t : topo) (regions faces edges : list ptr) (rid fid : ptr -> Z) (nparts : Z) : result (array Z) :=
  '(ncells, xadj, adj) <- metis_graph t regions faces edges rid fid ;;
  let ip := idxpart metis (mkCall (negb (nparts <=? 8)) ncells xadj adj nparts) in
  foldM (fun part i => x <- rd ip i ;; wr part i x) (malloc ncells) (zrange 0 ncells).

(** MESH_Get_Partitioning.c 30-125 for a library with METIS and without Zoltan, as
    called on [rank]; the result is the array part, or NULL. *)
Definition MESH_Get_Partitioning (metis : mcall -> option (Z -> Z)) (t : topo) (regions faces edges : list ptr) (rid fid : ptr -> Z) (method rank num : Z) : result (option (array Z)) :=
  let ncells := if rank =? 0 then (if negb (ZL regions =? 0) then ZL regions else ZL faces) else 0 in
  if num =? 1 then Ok (Some (repeat (Some 0) (Z.to_nat ncells)))
  else if method =? 0 then
    if rank =? 0 then part <- MESH_PartitionWithMetis metis t regions faces edges rid fid num ;; Ok (Some part) else Ok None
  else Fatal.
