(** Partitioning a mesh into submeshes (representation F1).
    Models src/par/MESH_Partition.c and src/par/MESH_BuildPBoundary.c.
    Submesh number [k] is the one made for part_no = k; its entities are numbered
    independently of those of the others, so the lists in the attribute
    Global2Local hold pairs of the number of the submesh and the entity.
    The attributes Global2Local and Local2Global are kept beside the meshes; the
    copies of the other attributes (MESH_Partition.c 97-114: names and types only)
    are not made. *)
From Coq Require Import ZArith Bool List.
From Verif Require Import Base ListSpec AttModel TopoModel ParModel FileModel SendModel.
Import ListNotations.
Open Scope Z_scope.

(** What the loops work on: the mesh, Global2Local, the next global IDs to be given
    (gvid, geid, gfid, grid: MESH_Partition.c 148, 317), the submesh, its Local2Global. *)
Record pst := mkPst { ps_par : smesh; ps_g2l : ptr -> list (Z * ptr); ps_ids : Z -> Z; ps_sub : smesh; ps_l2g : ptr -> ptr }.
Definition set_sub (st : pst) (s : smesh) : pst := mkPst (ps_par st) (ps_g2l st) (ps_ids st) s (ps_l2g st).
Definition set_subt (st : pst) (t : topo) : pst := set_sub st (with_m (ps_sub st) (set_ft (sm_m (ps_sub st)) t)).

(** MEntity.c 750-768; the fields have 2, 1 and 29 bits (include/MEntity.h 42-50). *)
Definition set_pi (s : smesh) (p : ptr) (i : pinfo) : smesh := mkSM (sm_m s) (zupd (sm_p s) p i) (sm_sets s).
Definition set_master (s : smesh) (p : ptr) (k : Z) : smesh :=
  let i := sm_p s p in set_pi s p (mkPI (pi_ptype i) (pi_bdry i) (k mod 2 ^ 29) (pi_gid i)).
Definition set_gid (s : smesh) (p : ptr) (g : Z) : smesh :=
  let i := sm_p s p in set_pi s p (mkPI (pi_ptype i) (pi_bdry i) (pi_master i) g).
Definition set_ptype (s : smesh) (p : ptr) (x : Z) : smesh :=
  let i := sm_p s p in set_pi s p (mkPI (x mod 2 ^ 2) (pi_bdry i) (pi_master i) (pi_gid i)).
Definition flag_bdry (s : smesh) (p : ptr) : smesh :=
  let i := sm_p s p in set_pi s p (mkPI (pi_ptype i) true (pi_master i) (pi_gid i)).

(** The entity of submesh [k] in the list of [g]: MESH_Partition.c 197-210, 231-244,
    357-371, 395-408, 430-445.  MEnt_Get_AttVal reads [g]. *)
Definition found (k : Z) (st : pst) (g : ptr) : option ptr :=
  option_map snd (find (fun x => fst x =? k) (ps_g2l st g)).

(** MV_New, ME_New, MF_New, MR_New. *)
Definition add_ent (d : Z) (m : fmesh) : fmesh * ptr :=
  if d =? 0 then add_v m else if d =? 1 then add_e m else if d =? 2 then add_f m else add_r m.

(** A global ID is given to the entity of the mesh unless it has one: 220, 256,
    285, 381, 418, 457, 497. *)
Definition give_id (d : Z) (st : pst) (g : ptr) : pst :=
  if pi_gid (sm_p (ps_par st) g) =? 0
  then mkPst (set_gid (ps_par st) g (ps_ids st d)) (ps_g2l st) (zupd (ps_ids st) d (ps_ids st d + 1)) (ps_sub st) (ps_l2g st)
  else st.
(** The mesh itself changed. *)
Definition set_par (st : pst) (s : smesh) : pst := mkPst s (ps_g2l st) (ps_ids st) (ps_sub st) (ps_l2g st).
(** 216-224, 252-260, 377-385, 414-422, 453-461: master partition and global ID of an
    entity that may be in several submeshes. *)
Definition share (k d : Z) (st : pst) (g l : ptr) : pst :=
  let mpart_no := pi_master (sm_p (ps_par st) g) in
  let st := if mpart_no =? 0
            then let st := set_sub st (set_master (ps_sub st) l k) in
                 let st := set_par st (set_master (ps_par st) g (k + 1)) in
                 give_id d st g
            else set_sub st (set_master (ps_sub st) l (mpart_no - 1)) in
  set_sub st (set_gid (ps_sub st) l (pi_gid (sm_p (ps_par st) g))).
(** 283-286, 495-498: of an entity that is in one submesh only. *)
Definition own (k d : Z) (st : pst) (g l : ptr) : pst :=
  let st := set_sub st (set_master (ps_sub st) l k) in
  let st := set_par st (set_master (ps_par st) g k) in
  let st := give_id d st g in
  set_sub st (set_gid (ps_sub st) l (pi_gid (sm_p (ps_par st) g))).

(** 213-224, 247-260, 279-286, 374-385, 411-422, 448-461, 491-498: a new entity of the submesh. *)
Definition new_copy (whose : Z -> Z -> pst -> ptr -> ptr -> pst) (k d : Z) (st : pst) (g : ptr) : pst * ptr :=
  let '(m, l) := add_ent d (sm_m (ps_sub st)) in
  let m := if d =? 0 then set_x m l (fm_x (sm_m (ps_par st)) g) else m in
  let m := set_info m l (fm_c (sm_m (ps_par st)) g) (fm_id m l) in
  (whose k d (set_sub st (with_m (ps_sub st) m)) g l, l).
(** 261-262, 268-269, 462-463, 468-469, 480-481: the attributes; 289-292, 501-504: the list of an
    entity that is in one submesh only is a new one. *)
Definition link (k : Z) (st : pst) (g l : ptr) : pst :=
  mkPst (ps_par st) (zupd (ps_g2l st) g (ps_g2l st g ++ [(k, l)])) (ps_ids st) (ps_sub st) (zupd (ps_l2g st) l g).
Definition link1 (k : Z) (st : pst) (g l : ptr) : pst :=
  mkPst (ps_par st) (zupd (ps_g2l st) g [(k, l)]) (ps_ids st) (ps_sub st) (zupd (ps_l2g st) l g).

(** 229-263, 428-464. *)
Definition part_vertex (k : Z) (st : pst) (gv : ptr) : result (pst * ptr) :=
  if gv =? NULL then Undef else
  match found k st gv with
  | Some lv => Ok (st, lv)
  | None => let '(st, lv) := new_copy share k 0 st gv in Ok (link k st gv lv, lv)
  end.
(** 226-266, 424-467: one end of an edge. *)
Definition part_end (k : Z) (ge le : ptr) (st : pst) (j : Z) : result pst :=
  gv <- ME_Vertex (sm_t (ps_par st)) ge j ;;
  ' (st, lv) <- part_vertex k st gv ;;
  t <- ME_Set_Vertex (sm_t (ps_sub st)) le j lv ;;
  Ok (set_subt st t).
(** 194-271, 391-470. *)
Definition part_edge (k : Z) (st : pst) (ge : ptr) : result (pst * ptr) :=
  if ge =? NULL then Undef else
  match found k st ge with
  | Some le => Ok (st, le)
  | None =>
      let '(st, le) := new_copy share k 1 st ge in
      st <- foldM (part_end k ge le) st [0; 1] ;;
      Ok (link k st ge le, le)
  end.
(** 190-277, 388-477: the edges of a face; lfedges and lfedirs have MAXPV2 entries. *)
Definition part_edges (k : Z) (st : pst) (gf : ptr) : result (pst * list ptr * list Z) :=
  fedges <- MF_Edges (sm_t (ps_par st)) gf 1 NULL ;;
  foldM (fun x i =>
    let '(st, es, ds) := x in
    ge <- lent fedges i ;;
    ' (st, le) <- part_edge k st ge ;;
    d <- MF_EdgeDir_i (sm_t (ps_par st)) gf i ;;
    if MAXPV2 <=? i then Undef else Ok (st, es ++ [le], ds ++ [d])) (st, [], []) (zrange 0 (ZL fedges)).
(** 188-292: a face of a surface mesh. *)
Definition surf_face (k : Z) (st : pst) (gf : ptr) : result pst :=
  ' (st, es, ds) <- part_edges k st gf ;;
  let '(st, lf) := new_copy own k 2 st gf in
  t <- MF_Set_Edges (sm_t (ps_sub st)) lf (ZL es) es ds ;;
  Ok (link1 k (set_subt st t) gf lf).
(** 354-482: a face of a region. *)
Definition vol_face (k : Z) (st : pst) (gf : ptr) : result (pst * ptr) :=
  if gf =? NULL then Undef else
  match found k st gf with
  | Some lf => Ok (st, lf)
  | None =>
      let '(st, lf) := new_copy share k 2 st gf in
      ' (st, es, ds) <- part_edges k st gf ;;
      t <- MF_Set_Edges (sm_t (ps_sub st)) lf (ZL es) es ds ;;
      Ok (link k (set_subt st t) gf lf, lf)
  end.
(** 350-504: a region; lrfaces and lrfdirs have MAXPF3 entries. *)
Definition vol_region (k : Z) (st : pst) (gr : ptr) : result pst :=
  rfaces <- MR_Faces (sm_t (ps_par st)) gr ;;
  ' (st, fs, ds) <- foldM (fun x i =>
    let '(st, fs, ds) := x in
    gf <- lent rfaces i ;;
    ' (st, lf) <- vol_face k st gf ;;
    d <- MR_FaceDir_i (sm_t (ps_par st)) gr i ;;
    if MAXPF3 <=? i then Undef else Ok (st, fs ++ [lf], ds ++ [d])) (st, [], []) (zrange 0 (ZL rfaces)) ;;
  let '(st, lr) := new_copy own k 3 st gr in
  t <- MR_Set_Faces (sm_t (ps_sub st)) lr (ZL fs) fs ds ;;
  Ok (link1 k (set_subt st t) gr lr).

(** 179-296, 341-507: one submesh; [cell] copies a face or a region.  MESH_Surf_Partition
    and MESH_Vol_Partition (120-142) make the empty submeshes. *)
Definition one_part (cell : Z -> pst -> ptr -> result pst) (cells part : list Z)
    (x : smesh * (ptr -> list (Z * ptr)) * (Z -> Z) * list (smesh * (ptr -> ptr))) (k : Z) :
    result (smesh * (ptr -> list (Z * ptr)) * (Z -> Z) * list (smesh * (ptr -> ptr))) :=
  let '(s, g2l, ids, subs) := x in
  st <- foldM (fun st ic =>
          p <- rdl part ic ;;
          if negb (p =? k) then Ok st else
          g <- lent cells ic ;;
          cell k st g) (mkPst s g2l ids empty_smesh (fun _ => NULL)) (zrange 0 (ZL cells)) ;;
  Ok (ps_par st, ps_g2l st, ps_ids st, subs ++ [(ps_sub st, ps_l2g st)]).
(** 302-308, 515-528. *)
Definition dial_back (s : smesh) (l : list ptr) : smesh :=
  fold_left (fun s p => set_master s p (pi_master (sm_p s p) - 1)) l s.

(** 63-117 without the attributes; MESH_Surf_Partition_FN 145-311, MESH_Vol_Partition_FN
    314-531.  Gives the mesh, Global2Local and the submeshes with Local2Global. *)
Definition MESH_Partition (s : smesh) (num : Z) (part : list Z) : result (smesh * (ptr -> list (Z * ptr)) * list (smesh * (ptr -> ptr))) :=
  let m := sm_m s in
  let start := (s, fun _ => [], fun _ => 1, []) in
  if 0 <? ZL (fm_r m) then
    ' (s, g2l, _, subs) <- foldM (one_part vol_region (fm_r m) part) start (zrange 0 num) ;;
    Ok (dial_back s (fm_v m ++ fm_e m ++ fm_f m), g2l, subs)
  else if 0 <? ZL (fm_f m) then
    ' (s, g2l, _, subs) <- foldM (one_part surf_face (fm_f m) part) start (zrange 0 num) ;;
    Ok (dial_back s (fm_v m ++ fm_e m), g2l, subs)
  else Fatal.

(** ** MESH_BuildPBoundary.c *)
(** include/MSTK_types.h: PType. *)
Definition PINTERIOR := 0.
(** The numbers of entries differ; List_Num_Entries reads the list. *)
Definition differ (x y : result (option (list ptr))) : result bool :=
  l <- x ;; n <- nn l ;; l' <- y ;; n' <- nn l' ;; Ok (negb (ZL n =? ZL n')).
(** 90-94, 185-189, 221-225: the ends of an edge. *)
Definition flag_ends (s : smesh) (e : ptr) : result smesh :=
  foldM (fun s i => v <- ME_Vertex (sm_t s) e i ;; if v =? NULL then Undef else Ok (flag_bdry s v)) s [0; 1].
(** 71-100, 203-232: edges; [skip]: edges already flagged are left alone (210). *)
Definition pb_edges (par : smesh) (l2g : ptr -> ptr) (skip : bool) (s : smesh) : result smesh :=
  foldM (fun s e =>
    if skip && pi_bdry (sm_p s e) then Ok s else
    b <- differ (ME_Faces (sm_t s) e) (ME_Faces (sm_t par) (l2g e)) ;;
    if b then flag_ends (flag_bdry s e) e else Ok (set_ptype s e PINTERIOR)) s (fm_e (sm_m s)).
(** 111-134, 239-262. *)
Definition pb_vertices (par : smesh) (l2g : ptr -> ptr) (s : smesh) : result smesh :=
  foldM (fun s v =>
    if pi_bdry (sm_p s v) then Ok s else
    b <- differ (MV_Edges (sm_t s) v) (MV_Edges (sm_t par) (l2g v)) ;;
    Ok (if b then flag_bdry s v else set_ptype s v PINTERIOR)) s (fm_v (sm_m s)).
(** 163-197: faces of a volume mesh. *)
Definition pb_faces (par : smesh) (l2g : ptr -> ptr) (s : smesh) : result smesh :=
  foldM (fun s f =>
    n <- MF_Regions (sm_t s) f ;;
    n' <- MF_Regions (sm_t par) (l2g f) ;;
    if negb (ZL n =? ZL n') then
      fedges <- MF_Edges (sm_t s) f 1 NULL ;;
      foldM (fun s e => flag_ends (flag_bdry s e) e) (flag_bdry s f) fedges
    else Ok (set_ptype s f PINTERIOR)) s (fm_f (sm_m s)).
(** 61-64, 152-155. *)
Definition all_interior (s : smesh) (l : list ptr) : smesh := fold_left (fun s p => set_ptype s p PINTERIOR) l s.
(** 52-137. *)
Definition MESH_Surf_BuildPBoundary (par : smesh) (l2g : ptr -> ptr) (s : smesh) : result smesh :=
  s <- pb_edges par l2g false (all_interior s (fm_f (sm_m s))) ;;
  pb_vertices par l2g s.
(** 141-265. *)
Definition MESH_Vol_BuildPBoundary (par : smesh) (l2g : ptr -> ptr) (s : smesh) : result smesh :=
  s <- pb_faces par l2g (all_interior s (fm_r (sm_m s))) ;;
  s <- pb_edges par l2g true s ;;
  pb_vertices par l2g s.
(** 35-50. *)
Definition MESH_BuildPBoundary (par : smesh) (l2g : ptr -> ptr) (s : smesh) : result smesh :=
  if 0 <? ZL (fm_r (sm_m par)) then MESH_Vol_BuildPBoundary par l2g s
  else if 0 <? ZL (fm_f (sm_m par)) then MESH_Surf_BuildPBoundary par l2g s
  else Fatal.
