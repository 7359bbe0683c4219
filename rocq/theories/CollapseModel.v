(** Collapsing an edge: /repo/src/mod/ME_Collapse.c. *)
From Coq Require Import ZArith Bool List.
From Verif Require Import Base ListSpec AttModel TopoModel ParModel CellModel ModModel.
Import ListNotations.
Open Scope Z_scope.

(** Left out: the sets of the mesh, in which MEs_Merge and MFs_Merge put the kept
    entity in place of the merged one (MEs_Merge_FN.c 67-78, MFs_Merge_FN.c
    139-150). *)

(** An entry taken out of a list by List_Rem leaves a gap that List_Next_Entry skips
    (List.c 270-295, 540-572); here the gap is NULL. *)
Fixpoint blank1 (x : ptr) (l : list ptr) : list ptr :=
  match l with [] => [] | y :: l' => if y =? x then NULL :: l' else y :: blank1 x l' end.

(** List_Num_Entries of a list that may be NULL reads through it (List.c 160-162). *)
Definition num_nn (o : option (list ptr)) : result Z := l <- nn o ;; Ok (ZL l).

Section Collapse.
  (** GEntDim and GEntID, the global ID, whether PType is PGHOST. *)
  Variables (cls : ptr -> Z * Z) (gid : ptr -> Z) (ghost : ptr -> bool).

  (** 113-129: an edge of [vdel] has fewer than two faces.  (131-150, which look for
      a face with one region, set the flag to 0, what it is already; MV_Faces and
      MF_Regions are called for nothing.) *)
  Fixpoint external (t : topo) (vedges : list ptr) : result bool :=
    match vedges with
    | [] => Ok false
    | edge :: l => o <- ME_Faces t edge ;; n <- num_nn o ;; if n <? 2 then Ok true else external t l
    end.
  (** 131-150: MV_Faces is NULL for a vertex without faces and List_Next_Entry reads
      through it. *)
  Definition external_3d (t : topo) (vdel : ptr) : result bool :=
    o <- MV_Faces t vdel ;; vfaces <- nn o ;; Ok false.

  (** 64-165: the vertex to delete and the vertex to keep, None for status = 0.
      MV_Edges of an end of an edge is not NULL. *)
  Definition choose (t : topo) (e vkeep_in : ptr) (topoflag : bool) : result (option (ptr * ptr)) :=
    ' (vdel, vkeep) <- (if vkeep_in =? NULL then v0 <- ME_Vertex t e 0 ;; v1 <- ME_Vertex t e 1 ;; Ok (v0, v1)
                        else v <- ME_OppVertex t e vkeep_in ;; Ok (v, vkeep_in)) ;;
    let dimkeep := fst (cls vkeep) in
    let dimdel := fst (cls vdel) in
    if topoflag then
      if dimkeep =? dimdel then
        if negb (snd (cls vkeep) =? snd (cls vdel)) then Ok None
        else Ok (Some (if gid vdel <? gid vkeep then (vkeep, vdel) else (vdel, vkeep)))
      else if dimdel <? dimkeep then
        if vkeep_in =? NULL then Ok (Some (vkeep, vdel)) else Ok None
      else Ok (Some (vdel, vkeep))
    else if vkeep_in =? NULL then
      o <- MV_Edges t vdel ;;
      vedges <- nn o ;;
      x <- external t vedges ;;
      x <- (if x then Ok true else external_3d t vdel) ;;
      Ok (Some (if x then (vkeep, vdel) else (vdel, vkeep)))
    else Ok (Some (vdel, vkeep)).

  (** 191-205: tetrahedra at the edge are deleted (and kept in memory). *)
  Definition del_tets (t : topo) (eregs : list ptr) : result (topo * list ptr) :=
    foldM (fun '(t, dels) reg =>
      rv <- MR_Vertices t reg ;;
      n <- num_nn rv ;;
      if n =? 4 then t <- MR_Delete t reg true ;; Ok (t, dels ++ [reg]) else Ok (t, dels)) (t, []) eregs.

  (** 209-235: so are triangles, which are taken from their regions first. *)
  Definition del_tris (t : topo) (efaces : list ptr) : result (topo * list ptr) :=
    foldM (fun '(t, dels) face =>
      fedges <- MF_Edges t face 1 NULL ;;
      if ZL fedges =? 3 then
        fregs <- MF_Regions t face ;;
        t <- foldM (fun t reg => MR_Rem_Face t reg face) t fregs ;;
        t <- MF_Delete t face true ;;
        Ok (t, dels ++ [face])
      else Ok (t, dels)) (t, []) efaces.

  (** 259-276: the edges before and after [e] in the face; they meet [vkeep]. *)
  Definition beside (t : topo) (e vkeep face : ptr) (fedges : list ptr) : result (ptr * ptr) :=
    foldM (fun '(o0, o2) i =>
      edge <- lent fedges i ;;
      if edge =? e then Ok (o0, o2) else
      dir <- MF_EdgeDir_i t face i ;;
      v <- ME_Vertex t edge dir ;;
      if v =? vkeep then Ok (edge, o2) else
      v <- ME_Vertex t edge (lnot dir) ;;
      if v =? vkeep then Ok (o0, edge) else Ok (o0, o2)) (NULL, NULL) (zrange 0 (ZL fedges)).
  (** 252-291: [e] is taken out of the faces that are left. *)
  Definition shrink (t : topo) (e vkeep : ptr) (efaces : list ptr) : result topo :=
    foldM (fun t face =>
      x <- getf t face ;;
      if negb (f_live x) then Ok t else
      fedges <- MF_Edges t face 1 NULL ;;
      ' (o0, o2) <- beside t e vkeep face fedges ;;
      MF_Replace_Edges t face [o0; e; o2] [o0; o2]) t efaces.

  (** 304-352: two faces of the region have the same vertices. *)
  Definition same_verts (t : topo) (f1 f2 : ptr) : result bool :=
    x <- getf t f2 ;;
    if negb (f_live x) then Ok false else
    l1 <- MF_Vertices t f1 1 NULL ;;
    l2 <- MF_Vertices t f2 1 NULL ;;
    Ok ((ZL l1 =? ZL l2) && forallb (fun v => mem v l1) l2).
  Fixpoint any_same (t : topo) (f1 : ptr) (l : list ptr) : result bool :=
    match l with [] => Ok false | f2 :: l' => b <- same_verts t f1 f2 ;; if b then Ok true else any_same t f1 l' end.
  Fixpoint degenerate (t : topo) (rfaces : list ptr) : result bool :=
    match rfaces with
    | [] => Ok false
    | f1 :: l => x <- getf t f1 ;; b <- (if f_live x then any_same t f1 l else Ok false) ;; if b then Ok true else degenerate t l
    end.
  (** 297-361. *)
  Definition del_flat (t : topo) (eregs : list ptr) : result (topo * list ptr) :=
    foldM (fun '(t, dels) reg =>
      x <- getr t reg ;;
      if negb (r_live x) then Ok (t, dels) else
      rfaces <- MR_Faces t reg ;;
      b <- degenerate t rfaces ;;
      if b then t <- MR_Delete t reg true ;; Ok (t, dels ++ [reg]) else Ok (t, dels)) (t, []) eregs.

  (** 401-411, 440-450: a face of the edge is between two model regions or on the
      outside. *)
  Fixpoint face_outside (t : topo) (l : list ptr) : result bool :=
    match l with
    | [] => Ok false
    | face :: l' =>
        fregs <- MF_Regions t face ;;
        let out := match fregs with
                   | [_] => true
                   | [r0; r1] => negb (snd (cls r0) =? snd (cls r1))
                   | _ => false
                   end in
        if out then Ok true else face_outside t l'
    end.
  (** 381-414, 416-453. *)
  Definition edge_outside (t : topo) (edge : ptr) : result bool :=
    let edim := fst (cls edge) in
    if (edim =? 1) || (edim =? 2) then Ok true
    else if (edim =? 4) && negb (ghost edge) then
      o <- ME_Faces t edge ;;
      efaces <- nn o ;;
      if ZL efaces =? 1 then Ok true else face_outside t efaces
    else Ok false.
  (** 369-496, the inner loop: the first edge that is merged onto [edge]. *)
  Fixpoint edge_twin (t : topo) (e edge : ptr) (l : list ptr) : result (option ptr) :=
    match l with
    | [] => Ok None
    | edge2 :: l' =>
        if (edge2 =? NULL) || (edge =? e) || (edge =? edge2) then edge_twin t e edge l' else
        ev00 <- ME_Vertex t edge 0 ;; ev01 <- ME_Vertex t edge 1 ;;
        ev10 <- ME_Vertex t edge2 0 ;; ev11 <- ME_Vertex t edge2 1 ;;
        if ((ev00 =? ev10) && (ev01 =? ev11)) || ((ev00 =? ev11) && (ev10 =? ev01)) then
          b1 <- edge_outside t edge ;;
          b2 <- edge_outside t edge2 ;;
          if (if Bool.eqb b1 b2 then gid edge <=? gid edge2 else b1) then Ok (Some edge2) else edge_twin t e edge l'
        else edge_twin t e edge l'
    end.
  (** 363-500.  The state: mesh, list with gaps, deleted edges, pairs. *)
  Definition merge_edges (t : topo) (e : ptr) (topoflag : bool) (vedges : list ptr) : result (topo * list ptr * list ptr * list (ptr * ptr)) :=
    foldM (fun '(t, l, dels, prs) i =>
      edge <- lent l i ;;
      if (edge =? NULL) || (edge =? e) then Ok (t, l, dels, prs) else
      o <- edge_twin t e edge l ;;
      match o with
      | None => Ok (t, l, dels, prs)
      | Some edge2 =>
          ' (t, _, _) <- MEs_Merge cls t [] edge edge2 topoflag ;;
          Ok (t, blank1 edge2 l, dels ++ [edge2], prs ++ [(edge2, edge)])
      end) (t, vedges, [], []) (zrange 0 (ZL vedges)).

  (** 512-577, the inner loop: the first face that is merged onto [face]. *)
  Fixpoint face_twin (t : topo) (face : ptr) (fedges : list ptr) (l : list ptr) : result (option ptr) :=
    match l with
    | [] => Ok None
    | face2 :: l' =>
        if (face2 =? NULL) || (face2 =? face) then face_twin t face fedges l' else
        fedges2 <- MF_Edges t face2 1 NULL ;;
        if (ZL fedges =? ZL fedges2) && forallb (fun g => mem g fedges) fedges2 then
          fregs <- MF_Regions t face ;;
          fregs2 <- MF_Regions t face2 ;;
          let out f rs := negb (ghost f) && (ZL rs =? 0) in
          if (if Bool.eqb (out face fregs) (out face2 fregs2) then gid face <=? gid face2 else out face fregs) then Ok (Some face2)
          else face_twin t face fedges l'
        else face_twin t face fedges l'
    end.
  (** 503-582. *)
  Definition merge_faces (t : topo) (topoflag : bool) (vfaces : list ptr) : result (topo * list ptr * list ptr * list (ptr * ptr)) :=
    foldM (fun '(t, l, dels, prs) i =>
      face <- lent l i ;;
      if face =? NULL then Ok (t, l, dels, prs) else
      fedges <- MF_Edges t face 1 NULL ;;
      o <- face_twin t face fedges l ;;
      match o with
      | None => Ok (t, l, dels, prs)
      | Some face2 =>
          ' (t, _, _) <- MFs_Merge cls t [] face face2 topoflag ;;
          Ok (t, blank1 face2 l, dels ++ [face2], prs ++ [(face2, face)])
      end) (t, vfaces, [], []) (zrange 0 (ZL vfaces)).

  (** 47-603.  Returned: the mesh and, unless NULL is returned (169-171), the kept
      vertex, the deleted entities and the merged pairs (173-180). *)
  Definition ME_Collapse (t : topo) (e vkeep_in : ptr) (topoflag : bool) : result (topo * option (ptr * list ptr * list (ptr * ptr))) :=
    c <- choose t e vkeep_in topoflag ;;
    match c with
    | None => Ok (t, None)
    | Some (vdel, vkeep) =>
        ef <- ME_Faces t e ;;
        er <- ME_Regions t e ;;
        let efaces := match ef with Some l => l | None => [] end in
        let eregs := match er with Some l => l | None => [] end in
        ' (t, d1) <- del_tets t eregs ;;
        ' (t, d2) <- del_tris t efaces ;;
        o <- MV_Edges t vdel ;;
        vedges <- nn o ;;
        t <- foldM (fun t edge => ME_Replace_Vertex t edge vdel vkeep) t vedges ;;
        t <- shrink t e vkeep efaces ;;
        ' (t, d3) <- del_flat t eregs ;;
        o <- MV_Edges t vkeep ;;
        vedges <- nn o ;;
        ' (t, _, d4, p4) <- merge_edges t e topoflag vedges ;;
        o <- MV_Faces t vkeep ;;
        ' (t, _, d5, p5) <- merge_faces t topoflag (match o with Some l => l | None => [] end) ;;
        t <- ME_Delete t e true ;;
        t <- MV_Delete t vdel true ;;
        t <- foldM (fun t reg => x <- getr t reg ;; if r_live x then MR_Update_ElementType t reg else Ok t) t eregs ;;
        Ok (t, Some (vkeep, d1 ++ d2 ++ d3 ++ d4 ++ d5 ++ [e; vdel], [(vdel, vkeep)] ++ p4 ++ p5))
    end.
End Collapse.
