(** Model of /repo/src/hilev/MESH_GetElementGraph.c.

    The lists of regions and faces of the mesh are given without gaps, in the
    order in which MESH_Next_Region and MESH_Next_Face visit them; [rid] and [fid]
    are the local IDs.  Simplifications: the lists leaked at lines 43 and 83 are
    not tracked; int overflow of the counters is not modelled. *)
From Coq Require Import ZArith List Bool.
From Verif Require Import Base TopoModel.
Import ListNotations.
Open Scope Z_scope.

(** 51-56: state (adjelems, nalloc, pos).  Line 53 hands realloc the address of
    the caller's pointer, which was never allocated. *)
Definition push3 (st : array Z * Z * Z) (x : Z) : result (array Z * Z * Z) :=
  let '(adj, nalloc, pos) := st in
  if pos =? nalloc then Undef
  else adj <- wr adj pos x ;; Ok (adj, nalloc, pos + 1).

(** 89-95 *)
Definition push2 (st : array Z * Z * Z) (x : Z) : result (array Z * Z * Z) :=
  let '(adj, nalloc, pos) := st in
  let '(adj, nalloc) := if pos =? nalloc then (resize adj (nalloc * 2), nalloc * 2) else (adj, nalloc) in
  adj <- wr adj pos x ;; Ok (adj, nalloc, pos + 1).

(** 41-59: the faces of region [mr]. *)
Definition reg_items (t : topo) (rid : ptr -> Z) (mr : ptr) (st : array Z * Z * Z) : result (array Z * Z * Z) :=
  fs <- MR_Faces t mr ;;
  foldM (fun st rf =>
    l <- MF_Regions t rf ;;
    if ZL l =? 1 then Ok st
    else
      a <- lent l 0 ;;
      oppr <- (if a =? mr then lent l 1 else lent l 0) ;;
      push3 st (rid oppr - 1)) st fs.

(** 78-99: the edges of face [mf]. *)
Definition face_items (t : topo) (fid : ptr -> Z) (mf : ptr) (st : array Z * Z * Z) : result (array Z * Z * Z) :=
  es <- MF_Edges t mf 1 NULL ;;
  foldM (fun st fe =>
    o <- ME_Faces t fe ;;
    l <- nn o ;;
    if ZL l =? 1 then Ok st
    else foldM (fun st ef => if negb (ef =? mf) then push2 st (fid ef - 1) else Ok st) st l) st es.

(** 28-62 and 66-104: the loop over the elements; state (adjbeg, adjelems, nalloc,
    pos, i). *)
Definition elem_loop (items : ptr -> array Z * Z * Z -> result (array Z * Z * Z)) (els : list ptr) : result (array Z * array Z) :=
  let n := ZL els in
  '(beg, adj, _, pos, _) <- foldM (fun st x =>
      let '(beg, adj, nalloc, pos, i) := st in
      beg <- wr beg i pos ;;
      '(adj, nalloc, pos) <- items x (adj, nalloc, pos) ;;
      Ok (beg, adj, nalloc, pos, i + 1)) (malloc (n + 1), malloc (4 * n), 4 * n, 0, 0) els ;;
  beg <- wr beg n pos ;;
  Ok (beg, adj).

(** 21-109 MESH_GetElementGraph; result (nelems, adjbeg, adjelems). *)
Definition MESH_GetElementGraph (t : topo) (regions faces : list ptr) (rid fid : ptr -> Z) : result (Z * array Z * array Z) :=
  if negb (ZL regions =? 0) then
    '(beg, adj) <- elem_loop (reg_items t rid) regions ;; Ok (ZL regions, beg, adj)
  else
    '(beg, adj) <- elem_loop (face_items t fid) faces ;; Ok (ZL faces, beg, adj).
