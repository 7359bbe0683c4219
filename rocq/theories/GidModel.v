(** Model of /repo/src/par/MESH_AssignGlobalIDs.c and
    /repo/src/par/MESH_Renumber_GlobalIDs.c, F1 representation, one program per rank.

    The four kinds of entities of a rank are given by the lists in which MESH_Vertex
    etc. find them.  The fields of an entity that the functions use are its global ID,
    its ptype, its master partition (MEntity.h 42-52) and the flag of the partition
    boundary.  Uninitialised entries of a buffer that is sent have any value ([junk]).
    Array positions and sizes are unbounded; counts and IDs are ints.  The DEBUG code is
    left out. *)
From Coq Require Import ZArith List Bool Floats.SpecFloat.
From Verif Require Import Base SortModel CompareModel MeshModel AttModel TopoModel ParModel CommModel ExchModel LabelModel.
Import ListNotations.
Open Scope Z_scope.

Record gents := mkE { g_id : ptr -> Z; g_pt : ptr -> Z; g_mas : ptr -> Z; g_bd : ptr -> bool }.
(** MV_Set_GlobalID etc. (MEntity.c 699-746) *)
Definition set_gid (s : gents) (e : ptr) (x : Z) : gents := mkE (zupd (g_id s) e x) (g_pt s) (g_mas s) (g_bd s).
Definition set_pt (s : gents) (e : ptr) (x : Z) : gents := mkE (g_id s) (zupd (g_pt s) e x) (g_mas s) (g_bd s).
Definition set_mas (s : gents) (e : ptr) (x : Z) : gents := mkE (g_id s) (g_pt s) (zupd (g_mas s) e x) (g_bd s).
Definition set_bd (s : gents) (e : ptr) : gents := mkE (g_id s) (g_pt s) (g_mas s) (zupd (g_bd s) e true).

(** ** Matching of candidates: what the functions for vertices (122-380), edges
    (388-545) and faces of volume meshes (611-800) have in common *)

Record mcfg := mkC {
  c_wd : Z;        (* values sent per candidate: 196 (1), 253 (3), 445 (2), 670 (MAXPV2+1) *)
  c_num : Z;       (* mesh_info entry with the number of entities: 143, 403, 626 *)
  c_bnd : Z;       (* mesh_info entry with the number of candidates: 176, 430, 656 *)
  c_min : Z;       (* lowest rank that searches: 219, 280, 465; 702 has no such test *)
  c_all : bool;    (* all other ranks are searched (472, 713), not only lower ones (224, 285) *)
  c_ids : bool;    (* the local IDs are gathered before the keys: 268 *)
  c_max : bool }.  (* the IDs are spread by MPI_MAX (364), not gathered (520, 771) *)

(** 181-184, 435-438, 662-665 *)
Definition max_count (c : mcfg) (num : Z) (gi : list Z) : result Z :=
  foldM (fun m i => x <- rdl gi (10 * i + c_bnd c) ;; Ok (if m <? x then x else m)) 0 (zrange 0 num).

(** 196-199, 258-266, 451-457, 682-691 *)
Definition pack (c : mcfg) (mx : Z) (bl : list ptr) (key : ptr -> result (list Z)) : result (array Z) :=
  foldM (fun a i => e <- lent bl i ;; k <- key e ;; put a (c_wd c * i) k) (malloc (c_wd c * mx)) (zrange 0 (ZL bl)).
Definition fill (junk : Z -> Z) (a : array Z) : list Z :=
  map (fun i => match nth i a None with Some x => x | None => junk (Z.of_nat i) end) (seq 0 (length a)).

(** The C library's bsearch (glibc) on [cnt] records of [wd] values from position
    [base]; the number of the record found. *)
Definition rdrec (a : list Z) (pos wd : Z) : result (list Z) :=
  if (0 <=? pos) && (pos + wd <=? Z.of_nat (length a)) then Ok (firstn (Z.to_nat wd) (skipn (Z.to_nat pos) a)) else Undef.
Fixpoint ksearch (k : nat) (cmp : list Z -> result Z) (a : list Z) (base wd lo hi : Z) : result (option Z) :=
  if lo <? hi then
    match k with
    | O => OutOfFuel
    | S k' =>
        let idx := (lo + hi) / 2 in
        x <- rdrec a (base + wd * idx) wd ;;
        r <- cmp x ;;
        if r <? 0 then ksearch k' cmp a base wd lo idx
        else if r >? 0 then ksearch k' cmp a base wd (idx + 1) hi
        else Ok (Some idx)
    end
  else Ok None.

(** 224-231, 285-292, 472-478, 713-719: the first rank with a match and its place
    there. *)
Fixpoint first_match (c : mcfg) (mx rank : Z) (gi recv : list Z) (cmp : list Z -> result Z) (js : list Z) : result (option (Z * Z)) :=
  match js with
  | [] => Ok None
  | j :: js' =>
      if j =? rank then first_match c mx rank gi recv cmp js'
      else
        cnt <- rdl gi (10 * j + c_bnd c) ;;
        r <- ksearch (Z.to_nat cnt) cmp recv (c_wd c * mx * j) (c_wd c) 0 cnt ;;
        match r with
        | Some i => Ok (Some (j, i))
        | None => first_match c mx rank gi recv cmp js'
        end
  end.

(** 220-246, 281-306, 466-495, 703-735: entities, xxx_ov_label, id_on_ov_list and the
    number of ghosts. *)
Definition sstate : Type := (gents * list Z * array Z * Z)%type.
Definition search1 (c : mcfg) (mx num rank : Z) (gi recv : list Z) (bl : list ptr) (key : ptr -> result (list Z)) (kcmp : list Z -> list Z -> result Z) (s : sstate) (i : Z) : result sstate :=
  let '(es, ovl, idon, ng) := s in
  e <- lent bl i ;;
  k <- key e ;;
  r <- first_match c mx rank gi recv (kcmp k) (zrange 0 (if c_all c then num else rank)) ;;
  match r with
  | None => Ok s
  | Some (j, iloc) =>
      '(es, ovl, idon, ng) <-
        (if j <? rank then
           x <- rdl ovl (mx * j + iloc) ;;
           ovl <- wrl ovl (mx * j + iloc) (Z.lor x 1) ;;
           idon <- wr idon i iloc ;;
           Ok (set_mas (set_pt es e PGHOST) e j, ovl, idon, ng + 1)
         else Ok (es, ovl, idon, ng)) ;;
      Ok ((if c_all c then set_bd es e else es), ovl, idon, ng)
  end.
Definition search (c : mcfg) (mx num rank : Z) (gi recv : list Z) (bl : list ptr) (key : ptr -> result (list Z)) (kcmp : list Z -> list Z -> result Z) (es : gents) : result sstate :=
  let s := (es, repeat 0 (Z.to_nat (num * mx)), malloc mx, 0) in
  if c_min c <=? rank then foldM (search1 c mx num rank gi recv bl key kcmp) s (zrange 0 (ZL bl)) else Ok s.

(** MPI_Allreduce with MPI_LOR, MPI_MAX of arrays of [len] ints. *)
Definition lor_all (len : Z) (xs : list (list Z)) : list Z :=
  map (fun i => b2z (existsb (fun x => negb (nth i x 0 =? 0)) xs)) (seq 0 (Z.to_nat len)).
Definition max_all (len : Z) (xs : list (list Z)) : list Z :=
  map (fun i => match map (fun x => nth i x 0) xs with [] => 0 | y :: t => fold_left Z.max t y end) (seq 0 (Z.to_nat len)).

(** 332-334, 505-507, 746-748 *)
Definition start_id (c : mcfg) (rank : Z) (gi : list Z) : result Z :=
  foldM (fun g i => x <- rdl gi (10 * i + c_num c) ;; y <- rdl gi (10 * i + 9) ;; s <- ck32 (g + x) ;; ck32 (s - y)) 1 (zrange 0 rank).
(** 335-341, 508-513, 749-754 *)
Definition number1 (rank : Z) (s : gents * Z) (e : ptr) : result (gents * Z) :=
  if g_pt (fst s) e =? PGHOST then Ok s
  else
    '(es, g) <- (if g_id (fst s) e =? 0 then g' <- ck32 (snd s + 1) ;; Ok (set_gid (fst s) e (snd s), g') else Ok s) ;;
    Ok (set_mas es e rank, g).
(** 347-353, 517-522, 758-763; the array of IDs (347) is only for vertices *)
Definition overlap1 (mx rank : Z) (ovl : list Z) (bl : list ptr) (s : gents * list Z) (i : Z) : result (gents * list Z) :=
  b <- rdl ovl (rank * mx + i) ;;
  if b =? 0 then Ok s
  else
    e <- lent bl i ;;
    pub <- wrl (snd s) (rank * mx + i) (g_id (fst s) e) ;;
    Ok (set_pt (fst s) e POVERLAP, pub).
(** 525-528, 767-770 *)
Definition pack_ids (mx : Z) (junk : Z -> Z) (lst : array Z) (bl : list ptr) (es : gents) : result (list Z) :=
  a <- put lst 0 (map (g_id es) bl) ;; Ok (firstn (Z.to_nat mx) (fill junk a)).
(** 366-370, 532-542, 774-784 *)
Definition ghost1 (mx : Z) (tab : list Z) (idon : array Z) (bl : list ptr) (es : gents) (i : Z) : result gents :=
  e <- lent bl i ;;
  if g_pt es e =? PGHOST then
    k <- rd idon i ;;
    g <- rdl tab (g_mas es e * mx + k) ;;
    Ok (set_gid es e g)
  else Ok es.

(** [all]: the entities, [bl]: the candidates, [info]: mesh_info, [ids]: local IDs,
    [key]: what is sent of an entity, [kcmp]: order of what is sent, [ecmp]: order
    used for the local list. *)
Definition match_ids (c : mcfg) (junk : Z -> Z) (num rank : Z) (info : list Z) (id : ptr -> Z) (all bl : list ptr) (key : ptr -> result (list Z))
    (kcmp : list Z -> list Z -> result Z) (ecmp : ptr -> ptr -> result Z) (es : gents) : prog (gents * list Z) :=
  bl <! pqsort ecmp bl ;;
  info <! wrl info (c_bnd c) (ZL bl) ;;
  Col info (fun gis =>
    let gi := concat gis in
    mx <! max_count c num gi ;;
    lst <! pack c mx bl key ;;
    let go :=
      Col (fill junk lst) (fun recvs =>
        '(es, ovl, idon, ng) <! search c mx num rank gi (concat recvs) bl key kcmp es ;;
        info <! wrl info 9 ng ;;
        Col info (fun gis =>
          Col ovl (fun ovls =>
            let ovl := lor_all (num * mx) ovls in
            g <! start_id c rank (concat gis) ;;
            '(es, _) <! foldM (number1 rank) (es, g) all ;;
            '(es, pub) <! foldM (overlap1 mx rank ovl bl) (es, repeat 0 (Z.to_nat (num * mx))) (zrange 0 (ZL bl)) ;;
            lst <! pack_ids mx junk lst bl es ;;
            Col (if c_max c then pub else lst) (fun tabs =>
              let tab := if c_max c then max_all (num * mx) tabs else concat tabs in
              es <! foldM (ghost1 mx tab idon bl) es (zrange 0 (ZL bl)) ;;
              Ret (es, concat gis))))) in
    if c_ids c then
      Col (fill junk (map (fun e => Some (id e)) bl ++ malloc (mx - ZL bl))) (fun _ => go)
    else go).

(** ** The rank's part of the mesh *)
Record grank := mkG {
  g_rep : Z; g_t : topo; g_vs : list ptr; g_es : list ptr; g_fs : list ptr; g_rs : list ptr;
  g_lid : ptr -> Z;                 (* MV_ID *)
  g_xyz : ptr -> list Z;            (* MV_Coords, as 64-bit patterns *)
  gv : gents; ge : gents; gf : gents; gr : gents }.
Definition set_gv (x : grank) (s : gents) : grank := mkG (g_rep x) (g_t x) (g_vs x) (g_es x) (g_fs x) (g_rs x) (g_lid x) (g_xyz x) s (ge x) (gf x) (gr x).
Definition set_ge (x : grank) (s : gents) : grank := mkG (g_rep x) (g_t x) (g_vs x) (g_es x) (g_fs x) (g_rs x) (g_lid x) (g_xyz x) (gv x) s (gf x) (gr x).
Definition set_gf (x : grank) (s : gents) : grank := mkG (g_rep x) (g_t x) (g_vs x) (g_es x) (g_fs x) (g_rs x) (g_lid x) (g_xyz x) (gv x) (ge x) s (gr x).
Definition set_gr (x : grank) (s : gents) : grank := mkG (g_rep x) (g_t x) (g_vs x) (g_es x) (g_fs x) (g_rs x) (g_lid x) (g_xyz x) (gv x) (ge x) (gf x) s.

(** 80-95 vertex_on_boundary2D, 101-116 vertex_on_boundary3D; List_Num_Entries reads
    through a NULL list. *)
Fixpoint some_open (g : ptr -> result (list ptr)) (l : list ptr) : result bool :=
  match l with
  | [] => Ok false
  | x :: l' => u <- g x ;; if ZL u <=? 1 then Ok true else some_open g l'
  end.
Definition vertex_on_boundary2D (t : topo) (v : ptr) : result bool :=
  o <- MV_Edges t v ;; vedges <- nn o ;; some_open (fun e => o <- ME_Faces t e ;; nn o) vedges.
Definition vertex_on_boundary3D (t : topo) (v : ptr) : result bool :=
  o <- MV_Faces t v ;; vfaces <- nn o ;; some_open (MF_Regions t) vfaces.

(** 149-175 *)
Definition boundary_verts (x : grank) : result (list ptr * gents) :=
  foldM (fun s v =>
    if g_bd (snd s) v then Ok (fst s ++ [v], snd s)
    else
      b <- (if negb (ZL (g_rs x) =? 0) then vertex_on_boundary3D (g_t x) v else vertex_on_boundary2D (g_t x) v) ;;
      Ok (if b then (fst s ++ [v], set_bd (snd s) v) else s)) ([], gv x) (g_vs x).

(** A 64-bit pattern as a number (IEEE 754 binary64). *)
Definition f64_of (b : Z) : spec_float :=
  let sg := negb (b / 2 ^ 63 =? 0) in
  let ex := (b / 2 ^ 52) mod 2 ^ 11 in
  let m := b mod 2 ^ 52 in
  if ex =? 2 ^ 11 - 1 then (if m =? 0 then S754_infinity sg else S754_nan)
  else
    match (if ex =? 0 then m else m + 2 ^ 52) with
    | Zpos p => S754_finite sg p (if ex =? 0 then -1074 else ex - 1075)
    | _ => S754_zero sg
    end.
Definition xyz_of (l : list Z) : spec_float * spec_float * spec_float := (f64_of (nth 0 l 0), f64_of (nth 1 l 0), f64_of (nth 2 l 0)).

Definition vert_gid := mkC 1 1 5 1 false false true.
Definition vert_xyz := mkC 3 1 5 1 false true true.
(** 126-380 MESH_AssignGlobalIDs_Vertex *)
Definition MESH_AssignGlobalIDs_Vertex (junk : Z -> Z) (num rank have_GIDs : Z) (x : grank) : prog grank :=
  '(bl, es) <! boundary_verts x ;;
  let info := [g_rep x; ZL (g_vs x); ZL (g_es x); ZL (g_fs x); ZL (g_rs x); 0; 0; 0; 0; 0] in
  r <~ (if negb (have_GIDs =? 0) then
          match_ids vert_gid junk num rank info (g_lid x) (g_vs x) bl (fun v => Ok [g_id es v])
            (fun a b => a0 <- rdl a 0 ;; b0 <- rdl b 0 ;; compareINT a0 b0) (compareGlobalID (g_id es)) es
        else
          match_ids vert_xyz junk num rank info (g_lid x) (g_vs x) bl (fun v => Ok (firstn 3 (g_xyz x v)))
            (fun a b => Ok (compareCoorDouble (xyz_of a) (xyz_of b))) (fun a b => Ok (compareVertexCoor (fun v => xyz_of (g_xyz x v)) a b)) es) ;;
  Ret (set_gv x (fst r)).

(** 415-425, 641-650: all vertices are PGHOST or POVERLAP. *)
Definition all_shared (s : gents) (vs : list ptr) : bool := forallb (fun v => negb (negb (g_pt s v =? PGHOST) && negb (g_pt s v =? POVERLAP))) vs.
(** 409-429, 635-655 *)
Definition candidates (x : grank) (s : gents) (verts : ptr -> result (list ptr)) (l : list ptr) : result (list ptr) :=
  foldM (fun bl e => if g_bd s e then Ok (bl ++ [e]) else vs <- verts e ;; Ok (if all_shared (gv x) vs then bl ++ [e] else bl)) [] l.

(** 416-417, 454-455 *)
Definition edge_verts (t : topo) (e : ptr) : result (list ptr) := a <- ME_Vertex t e 0 ;; b <- ME_Vertex t e 1 ;; Ok [a; b].
Definition edge_cfg := mkC 2 2 6 1 true false false.
(** 388-545 MESH_AssignGlobalIDs_Edge *)
Definition MESH_AssignGlobalIDs_Edge (junk : Z -> Z) (num rank : Z) (x : grank) : prog grank :=
  bl <! candidates x (ge x) (edge_verts (g_t x)) (g_es x) ;;
  r <~ match_ids edge_cfg junk num rank [0; 0; ZL (g_es x); 0; 0; 0; 0; 0; 0; 0] (g_lid x) (g_es x) bl
         (fun e => vs <- edge_verts (g_t x) e ;; Ok (map (g_id (gv x)) vs))
         (fun a b => a0 <- rdl a 0 ;; a1 <- rdl a 1 ;; b0 <- rdl b 0 ;; b1 <- rdl b 1 ;; Ok (compareEdgeINT (a0, a1) (b0, b1)))
         (fun e1 e2 => v <- edge_verts (g_t x) e1 ;; w <- edge_verts (g_t x) e2 ;;
            Ok (compareEdgeID (g_id (gv x)) (fun e => if e =? e1 then (nth 0 v 0, nth 1 v 0) else (nth 0 w 0, nth 1 w 0)) e1 e2)) (ge x) ;;
  Ret (set_ge x (fst r)).

(** 573-580, 786-795: elements are never shared. *)
Definition number_elements (rank g : Z) (es : gents) (l : list ptr) : result gents :=
  r <- foldM (fun (s : gents * Z) e =>
         let es := set_pt (fst s) e PINTERIOR in
         '(es, g) <- (if g_id es e =? 0 then g' <- ck32 (snd s + 1) ;; Ok (set_gid es e (snd s), g') else Ok (es, snd s)) ;;
         Ok (set_mas es e rank, g)) (es, g) l ;;
  Ok (fst r).
(** 571-573, 786-788 *)
Definition start_elem (kn rank : Z) (gi : list Z) : result Z :=
  foldM (fun g i => x <- rdl gi (10 * i + kn) ;; ck32 (g + x)) 1 (zrange 0 rank).
(** 554-584 MESH_AssignGlobalIDs_Face *)
Definition MESH_AssignGlobalIDs_Face (rank : Z) (x : grank) : prog grank :=
  Col [g_rep x; 0; 0; ZL (g_fs x); 0; 0; 0; 0; 0; 0] (fun gis =>
    g <! start_elem 3 rank (concat gis) ;;
    s <! number_elements rank g (gf x) (g_fs x) ;;
    Ret (set_gf x s)).

(** MAXPV2 = 30: include/MSTK_defines.h *)
Definition face_cfg := mkC 31 3 6 0 true false false.
(** 686-689, 705-709 *)
Definition face_key (x : grank) (f : ptr) : result (list Z) :=
  vs <- MF_Vertices (g_t x) f 1 NULL ;; Ok (ZL vs :: map (g_id (gv x)) vs).
(** 611-810 MESH_AssignGlobalIDs_Region; global_mesh_info (788) is that of 741. *)
Definition MESH_AssignGlobalIDs_Region (junk : Z -> Z) (num rank : Z) (x : grank) : prog grank :=
  bl <! candidates x (gf x) (fun f => MF_Vertices (g_t x) f 1 NULL) (g_fs x) ;;
  r <~ match_ids face_cfg junk num rank [0; 0; 0; ZL (g_fs x); ZL (g_rs x); 0; 0; 0; 0; 0] (g_lid x) (g_fs x) bl (face_key x)
         (fun a b => compareFaceINT (map Some a) (map Some b))
         (fun f1 f2 => v <- MF_Vertices (g_t x) f1 1 NULL ;; w <- MF_Vertices (g_t x) f2 1 NULL ;;
            compareFaceID (g_id (gv x)) (fun f => if f =? f1 then v else w) f1 f2) (gf x) ;;
  let x := set_gf x (fst r) in
  g <! start_elem 4 rank (snd r) ;;
  s <! number_elements rank g (gr x) (g_rs x) ;;
  Ret (set_gr x s).

(** 52-73 MESH_AssignGlobalIDs; exit(-1) for other dimensions. *)
Definition MESH_AssignGlobalIDs (junk : Z -> Z -> Z) (num rank topodim have_GIDs : Z) (x : grank) : prog grank :=
  x <~ MESH_AssignGlobalIDs_Vertex (junk 0) num rank have_GIDs x ;;
  x <~ MESH_AssignGlobalIDs_Edge (junk 1) num rank x ;;
  if topodim =? 3 then MESH_AssignGlobalIDs_Region (junk 2) num rank x
  else if topodim =? 2 then MESH_AssignGlobalIDs_Face rank x
  else Fail.

(** ** MESH_Renumber_GlobalIDs.c, method 0 and no preassigned IDs *)

Definition set_ids (x : xrank) (g : Z -> Z) : xrank := mkX (x_p x) (x_cur x) (x_gh x) (x_ov x) g (x_mas x) (x_bnd x) (x_val x).
Definition set_lists (x : xrank) (gh ov : Z -> list Z) : xrank := mkX (x_p x) (x_cur x) gh ov (x_gid x) (x_mas x) (x_bnd x) (x_val x).

(** 121-128 *)
Definition offsets (nowned : list Z) : result (list Z) :=
  r <- foldM (fun (s : list Z * Z) c => o <- ck32 (snd s + c) ;; Ok (fst s ++ [o], o)) ([0], 0) (removelast nowned) ;; Ok (fst r).

(** 65-222 MESH_Renumber_EntityGlobalIDs; [all] are the entities of the kind in the
    order of MESH_Next_xxx, [pt] their ptype.  The attribute is new (81). *)
Definition MESH_Renumber_EntityGlobalIDs (n rank mtype : Z) (all : list Z) (pt : Z -> Z) (x : xrank) : prog xrank :=
  let x := set_val x (fun _ => []) in
  let nowned := Z.of_nat (length (filter (fun e => negb (pt e =? PGHOST)) all)) in
  Col [nowned] (fun ns =>
    offs <! (if rank =? 0 then offsets (concat ns) else Ok []) ;;
    Col offs (fun os =>
      offset <! rdl (hd [] os) rank ;;
      '(v, _) <! foldM (fun s e =>
          if negb (pt e =? PGHOST) then g <- ck32 (offset + (snd s + 1)) ;; Ok (zupd (fst s) e [g], snd s + 1) else Ok s) (x_val x, 0) all ;;
      x <~ MESH_Update1Attribute n rank (mkAt TINT 1 mtype) (set_val x v) ;;
      Ret (set_ids x (fold_left (fun g e => zupd g e (hd 0 (x_val x e))) all (x_gid x))))).

(** Mesh.c 1591-1629 MESH_Sort_GhostLists with compareGlobalID. *)
Definition sort_lists (gid : Z -> Z) (l : Z -> list Z) : result (Z -> list Z) :=
  foldM (fun l k => r <- pqsort (compareGlobalID gid) (l k) ;; Ok (zupd l k r)) l [0; 1; 2; 3].
(** 38-63 MESH_Renumber_GlobalIDs; line 59, the order of the lists used for searching by
    global ID, is not part of the state. *)
Definition MESH_Renumber_GlobalIDs (n rank mtype : Z) (all : Z -> list Z) (pt : Z -> Z) (x : xrank) : prog xrank :=
  x <~ pfold (fun k x =>
         if negb (Z.of_nat (length (all k)) =? 0) && ((mtype =? k) || (mtype =? MALLTYPE)) then MESH_Renumber_EntityGlobalIDs n rank k (all k) pt x
         else Ret x) [0; 1; 2; 3] x ;;
  gh <! sort_lists (x_gid x) (x_gh x) ;;
  ov <! sort_lists (x_gid x) (x_ov x) ;;
  Ret (set_lists x gh ov).
