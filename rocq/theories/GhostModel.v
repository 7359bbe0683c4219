(** Layers of ghost cells around the submeshes (representation F1).
    Models src/par/MESH_AddGhost.c and the loop of src/par/MESH_Partition_and_Send.c that
    calls it.  Temporary attributes (or markers) on cells and vertices are kept as
    functions; MESH_Build_GhostLists (called at 64 and 68, and again when the mesh has
    arrived) is not called. *)
From Coq Require Import ZArith Bool List.
From Verif Require Import Base ListSpec AttModel TopoModel ParModel FileModel SendModel PartModel.
Import ListNotations.
Open Scope Z_scope.

(** include/MSTK_types.h 99. *)
Definition POVERLAP := 1.
Definition PGHOST := 3.

(** ** Overlap: cells of the submesh near its boundary *)
(** The submesh, bverts2, the marks of vertices (lvidatt) and cells (lfidatt, lridatt). *)
Record ost := mkO { o_s : smesh; o_next : list ptr; o_vm : ptr -> bool; o_cm : ptr -> bool }.
Definition o_set (st : ost) (s : smesh) : ost := mkO s (o_next st) (o_vm st) (o_cm st).
(** 229-230, 579-580, 586-587: unless it is on the boundary. *)
Definition overlap (s : smesh) (p : ptr) : smesh := if pi_bdry (sm_p s p) then s else set_ptype s p POVERLAP.
(** 232-251, 590-609: an end of an edge. *)
Definition ov_end (e : ptr) (st : ost) (l : Z) : result ost :=
  v <- ME_Vertex (sm_t (o_s st)) e l ;;
  if v =? NULL then Undef else
  if o_vm st v then Ok st else Ok (mkO (overlap (o_s st) v) (o_next st ++ [v]) (zupd (o_vm st) v true) (o_cm st)).
(** 224-254, 582-612. *)
Definition ov_edges (st : ost) (f : ptr) : result ost :=
  fedges <- MF_Edges (sm_t (o_s st)) f 1 NULL ;;
  foldM (fun st e => foldM (ov_end e) (o_set st (overlap (o_s st) e)) [0; 1]) st fedges.
(** 214-222, 566-573: the cell itself. *)
Definition ov_mark (st : ost) (p : ptr) : ost := mkO (set_ptype (o_s st) p POVERLAP) (o_next st) (o_vm st) (zupd (o_cm st) p true).
(** 213-256. *)
Definition ov_face (st : ost) (f : ptr) : result ost := ov_edges (ov_mark st f) f.
(** 565-617. *)
Definition ov_region (st : ost) (r : ptr) : result ost :=
  let st := ov_mark st r in
  rfaces <- MR_Faces (sm_t (o_s st)) r ;;
  foldM (fun st f => ov_edges (o_set st (overlap (o_s st) f)) f) st rfaces.
(** The attribute set to [b] on the vertices of a list. *)
Definition mark_all (b : bool) (l : list ptr) (m : ptr -> bool) : ptr -> bool := fold_left (fun m v => zupd m v b) l m.
(** 191-273, 546-634: one ring; [up] is MV_Faces or MV_Regions.  List_Num_Entries reads the list. *)
Definition ov_ring (up : topo -> ptr -> result (option (list ptr))) (cell : ost -> ptr -> result ost) (x : ost * list ptr) (_ : Z) : result (ost * list ptr) :=
  let '(st, bverts) := x in
  st <- foldM (fun st v =>
          o <- up (sm_t (o_s st)) v ;;
          l <- nn o ;;
          foldM (fun st c => if o_cm st c then Ok st else cell st c) st l) (mkO (o_s st) [] (o_vm st) (o_cm st)) bverts ;;
  Ok (mkO (o_s st) [] (mark_all false bverts (o_vm st)) (o_cm st), o_next st).
(** 165-184, 522-541: the vertices on the boundary; 186-293, 544-652. *)
Definition ov_all (up : topo -> ptr -> result (option (list ptr))) (cell : ost -> ptr -> result ost) (ring : Z) (sub : smesh) : result smesh :=
  let bverts := filter (fun v => pi_bdry (sm_p sub v)) (fm_v (sm_m sub)) in
  ' (st, _) <- foldM (ov_ring up cell) (mkO sub [] (mark_all true bverts (fun _ => false)) (fun _ => false), bverts) (zrange 0 ring) ;;
  Ok (o_s st).

(** ** Ghosts: cells of the mesh around the submesh *)
(** The meshes and their links, gbverts2, the marks of vertices (gvidatt) and cells
    (gfidatt, gridatt) of the mesh. *)
Record gst := mkG { g_p : pst; g_next : list ptr; g_vm : ptr -> bool; g_cm : ptr -> bool }.
Definition g_set (st : gst) (p : pst) : gst := mkG p (g_next st) (g_vm st) (g_cm st).
(** 349, 374-376, 402-403, 411, 413-414, 723, 764-766, 793-794, 805-806, 824, 826-827: type, global
    ID and master of the copy (set at different moments, read by nobody in between). *)
Definition ghost (_ _ : Z) (st : pst) (g l : ptr) : pst :=
  let i := sm_p (ps_par st) g in
  set_sub st (set_gid (set_master (set_ptype (ps_sub st) l PGHOST) l (pi_master i)) l (pi_gid i)).
(** 356-379, 745-769: a vertex; the list of copies must exist. *)
Definition ghost_vertex (k : Z) (st : pst) (gv : ptr) : result (pst * ptr) :=
  if gv =? NULL then Undef else
  match ps_g2l st gv with
  | [] => Undef
  | _ => match found k st gv with
         | Some lv => Ok (st, lv)
         | None => let '(st, lv) := new_copy ghost k 0 st gv in Ok (link k st gv lv, lv)
         end
  end.
(** 352-400, 742-791: an end of a new edge; unmarked vertices are for the next layer. *)
Definition ghost_end (k : Z) (ge le : ptr) (st : gst) (l : Z) : result gst :=
  gv <- ME_Vertex (sm_t (ps_par (g_p st))) ge l ;;
  ' (p, lv) <- ghost_vertex k (g_p st) gv ;;
  t <- ME_Set_Vertex (sm_t (ps_sub p)) le l lv ;;
  let p := set_subt p t in
  Ok (if g_vm st gv then g_set st p else mkG p (g_next st ++ [gv]) (zupd (g_vm st) gv true) (g_cm st)).
(** 328-406, 726-797; [miss]: without a list of copies 330-331 stops, 728-731 reads it. *)
Definition ghost_edge (miss : result (gst * ptr)) (k : Z) (st : gst) (ge : ptr) : result (gst * ptr) :=
  if ge =? NULL then Undef else
  match ps_g2l (g_p st) ge with
  | [] => miss
  | _ => match found k (g_p st) ge with
         | Some le => Ok (st, le)
         | None =>
             let '(p, le) := new_copy ghost k 1 (g_p st) ge in
             st <- foldM (ghost_end k ge le) (g_set st p) [0; 1] ;;
             Ok (g_set st (link k (g_p st) ge le), le)
         end
  end.
(** 323-409, 722-801; lfedges and lfedirs have MAXPV2 entries. *)
Definition ghost_edges (miss : result (gst * ptr)) (k : Z) (st : gst) (gf : ptr) : result (gst * list ptr * list Z) :=
  fedges <- MF_Edges (sm_t (ps_par (g_p st))) gf 1 NULL ;;
  foldM (fun x i =>
    let '(st, es, ds) := x in
    ge <- lent fedges i ;;
    ' (st, le) <- ghost_edge miss k st ge ;;
    d <- MF_EdgeDir_i (sm_t (ps_par (g_p st))) gf i ;;
    if MAXPV2 <=? i then Undef else Ok (st, es ++ [le], ds ++ [d])) (st, [], []) (zrange 0 (ZL fedges)).
(** 317-321, 693-697. *)
Definition g_mark (st : gst) (g : ptr) : gst := mkG (g_p st) (g_next st) (g_vm st) (zupd (g_cm st) g true).
(** 311-423: a face of a surface mesh; its list of copies must exist. *)
Definition ghost_face (k : Z) (st : gst) (gf : ptr) : result gst :=
  ' (st, es, ds) <- ghost_edges Fatal k (g_mark st gf) gf ;;
  let '(p, lf) := new_copy ghost k 2 (g_p st) gf in
  t <- MF_Set_Edges (sm_t (ps_sub p)) lf (ZL es) es ds ;;
  match ps_g2l p gf with
  | [] => Fatal
  | _ => Ok (g_set st (link k (set_subt p t) gf lf))
  end.
(** 702-809: a face of a region. *)
Definition ghost_rface (k : Z) (st : gst) (gf : ptr) : result (gst * ptr) :=
  if gf =? NULL then Undef else
  match ps_g2l (g_p st) gf with
  | [] => Fatal
  | _ => match found k (g_p st) gf with
         | Some lf => Ok (st, lf)
         | None =>
             let '(p, lf) := new_copy ghost k 2 (g_p st) gf in
             ' (st, es, ds) <- ghost_edges Undef k (g_set st p) gf ;;
             t <- MF_Set_Edges (sm_t (ps_sub (g_p st))) lf (ZL es) es ds ;;
             Ok (g_set st (link k (set_subt (g_p st) t) gf lf), lf)
         end
  end.
(** 687-835: a region; lrfaces and lrfdirs have MAXPF3 entries. *)
Definition ghost_region (k : Z) (st : gst) (gr : ptr) : result gst :=
  let st := g_mark st gr in
  rfaces <- MR_Faces (sm_t (ps_par (g_p st))) gr ;;
  ' (st, fs, ds) <- foldM (fun x i =>
    let '(st, fs, ds) := x in
    gf <- lent rfaces i ;;
    ' (st, lf) <- ghost_rface k st gf ;;
    d <- MR_FaceDir_i (sm_t (ps_par (g_p st))) gr i ;;
    if MAXPF3 <=? i then Undef else Ok (st, fs ++ [lf], ds ++ [d])) (st, [], []) (zrange 0 (ZL rfaces)) ;;
  let '(p, lr) := new_copy ghost k 3 (g_p st) gr in
  t <- MR_Set_Faces (sm_t (ps_sub p)) lr (ZL fs) fs ds ;;
  match ps_g2l p gr with
  | [] => Fatal
  | _ => Ok (g_set st (link k (set_subt p t) gr lr))
  end.
(** 300-448, 667-861: one ring. *)
Definition ghost_ring (up : topo -> ptr -> result (option (list ptr))) (cell : gst -> ptr -> result gst) (x : gst * list ptr) (_ : Z) : result (gst * list ptr) :=
  let '(st, gbverts) := x in
  st <- foldM (fun st v =>
          o <- up (sm_t (ps_par (g_p st))) v ;;
          l <- nn o ;;
          foldM (fun st c => if g_cm st c then Ok st else cell st c) st l) (mkG (g_p st) [] (g_vm st) (g_cm st)) gbverts ;;
  Ok (mkG (g_p st) [] (mark_all true (g_next st) (mark_all false gbverts (g_vm st))) (g_cm st), g_next st).
(** 146-154, 502-515: the cells of the mesh that are in the submesh; 165-184, 522-541;
    295-459, 655-871. *)
Definition ghost_all (up : topo -> ptr -> result (option (list ptr))) (cell : gst -> ptr -> result gst) (lcells : list ptr) (ring : Z) (bsub : smesh) (st : pst) : result pst :=
  gcells <- mapM (fun q => if ps_l2g st q =? NULL then Undef else Ok (ps_l2g st q)) lcells ;;
  gbverts <- mapM (fun q => if ps_l2g st q =? NULL then Undef else Ok (ps_l2g st q)) (filter (fun v => pi_bdry (sm_p bsub v)) (fm_v (sm_m bsub))) ;;
  ' (st, _) <- foldM (ghost_ring up cell) (mkG st [] (mark_all true gbverts (fun _ => false)) (mark_all true gcells (fun _ => false)), gbverts) (zrange 0 ring) ;;
  Ok (g_p st).

(** ** MESH_AddGhost *)
(** 85-116: entities on the boundary. *)
Definition relabel (k : Z) (s : smesh) (l : list ptr) : smesh :=
  fold_left (fun s p => if pi_bdry (sm_p s p) then set_ptype s p (if pi_master (sm_p s p) =? k then POVERLAP else PGHOST) else s) l s.
(** 123-487 MESH_Surf_AddGhost_FN; 490-899 MESH_Vol_AddGhost_FN. *)
Definition MESH_Surf_AddGhost (k ring : Z) (st : pst) : result pst :=
  sub <- ov_all MV_Faces ov_face ring (ps_sub st) ;;
  ghost_all MV_Faces (ghost_face k) (fm_f (sm_m (ps_sub st))) ring (ps_sub st) (set_sub st sub).
Definition MESH_Vol_AddGhost (k ring : Z) (st : pst) : result pst :=
  sub <- ov_all MV_Regions ov_region ring (ps_sub st) ;;
  ghost_all MV_Regions (ghost_region k) (fm_r (sm_m (ps_sub st))) ring (ps_sub st) (set_sub st sub).
(** 51-119; a submesh without cells stops the program (72-73). *)
Definition MESH_AddGhost (k ring : Z) (st : pst) : result pst :=
  let nr := ZL (fm_r (sm_m (ps_sub st))) in
  let nf := ZL (fm_f (sm_m (ps_sub st))) in
  st <- (if 0 <? ring
         then if 0 <? nr then MESH_Vol_AddGhost k ring st
              else if 0 <? nf then MESH_Surf_AddGhost k ring st
              else Fatal
         else Ok st) ;;
  let m := sm_m (ps_sub st) in
  let s := relabel k (relabel k (ps_sub st) (fm_v m)) (fm_e m) in
  Ok (set_sub st (if 0 <? nr then relabel k s (fm_f m) else s)).

(** MESH_Partition_and_Send.c 81-90, for the submeshes in [subs]. *)
Definition add_ghosts (s : smesh) (ring : Z) (x : (ptr -> list (Z * ptr)) * list (smesh * (ptr -> ptr))) (y : Z * (smesh * (ptr -> ptr))) : result ((ptr -> list (Z * ptr)) * list (smesh * (ptr -> ptr))) :=
  let '(g2l, outs) := x in
  let '(k, (sub, l2g)) := y in
  sub <- MESH_BuildPBoundary s l2g sub ;;
  st <- MESH_AddGhost k ring (mkPst s g2l (fun _ => 1) sub l2g) ;;
  Ok (ps_g2l st, outs ++ [(ps_sub st, ps_l2g st)]).
(** MESH_Partition_and_Send.c 72-90. *)
Definition partition_with_ghosts (s : smesh) (num ring : Z) (part : list Z) : result (smesh * (ptr -> list (Z * ptr)) * list (smesh * (ptr -> ptr))) :=
  ' (s, g2l, subs) <- MESH_Partition s num part ;;
  ' (g2l, outs) <- foldM (add_ghosts s ring) (g2l, []) (combine (zrange 0 num) subs) ;;
  Ok (s, g2l, outs).
