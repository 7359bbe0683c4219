(** Vertices and edges of regions, F1 representation: standard elements and
    polyhedra; the templates of the standard elements. *)
From Coq Require Import ZArith List Bool.
From Verif Require Import Base ListSpec AttModel ParModel TopoModel.
Import ListNotations.
Open Scope Z_scope.

(** ** Templates: include/MSTK_globals.h 26-82, indexed by MRType; padding left
    out, the leading counts are the lengths. *)

(** 31, 34: MSTK_nrf_template, MSTK_nre_template. *)
Definition nrf_template : list Z := [0; 4; 5; 5; 6].
Definition nre_template : list Z := [0; 6; 8; 9; 12].
(** 37-48: MSTK_rfv_template, vertices of the faces. *)
Definition rfv_template : list (list (list Z)) :=
  [[];
   [[0; 2; 1]; [0; 1; 3]; [1; 2; 3]; [0; 3; 2]];
   [[0; 3; 2; 1]; [0; 1; 4]; [1; 2; 4]; [2; 3; 4]; [3; 0; 4]];
   [[0; 2; 1]; [3; 4; 5]; [0; 1; 4; 3]; [1; 2; 5; 4]; [2; 0; 3; 5]];
   [[0; 3; 2; 1]; [4; 5; 6; 7]; [0; 1; 5; 4]; [1; 2; 6; 5]; [2; 3; 7; 6]; [3; 0; 4; 7]]].
(** 51-53: MSTK_rfdir_template. *)
Definition rfdir_template : list (list Z) := [[]; [1; 1; 1; 1]; [1; 1; 1; 1; 1]; [1; 1; 1; 1; 1]; [1; 1; 1; 1; 1; 1]].
(** 56-61: MSTK_rfe_template, edges of the faces. *)
Definition rfe_template : list (list (list Z)) :=
  [[];
   [[2; 1; 0]; [0; 4; 3]; [1; 5; 4]; [2; 3; 5]];
   [[3; 2; 1; 0]; [0; 5; 4]; [1; 6; 5]; [2; 7; 6]; [3; 4; 7]];
   [[2; 1; 0]; [3; 4; 5]; [0; 7; 3; 6]; [1; 8; 4; 7]; [2; 6; 5; 8]];
   [[3; 2; 1; 0]; [4; 5; 6; 7]; [0; 9; 4; 8]; [1; 10; 5; 9]; [2; 11; 6; 10]; [3; 8; 7; 11]]].
(** 63-68: MSTK_rfedir_template. *)
Definition rfedir_template : list (list (list Z)) :=
  [[];
   [[0; 0; 0]; [1; 1; 0]; [1; 1; 0]; [1; 1; 0]];
   [[0; 0; 0; 0]; [1; 1; 0]; [1; 1; 0]; [1; 1; 0]; [1; 1; 0]];
   [[0; 0; 0]; [1; 1; 1]; [1; 1; 0; 0]; [1; 1; 0; 0]; [1; 1; 0; 0]];
   [[0; 0; 0; 0]; [1; 1; 1; 1]; [1; 1; 0; 0]; [1; 1; 0; 0]; [1; 1; 0; 0]; [1; 1; 0; 0]]].
(** 72-82: MSTK_rev_template, ends of the edges. *)
Definition rev_template : list (list (Z * Z)) :=
  [[];
   [(0, 1); (1, 2); (2, 0); (0, 3); (1, 3); (2, 3)];
   [(0, 1); (1, 2); (2, 3); (3, 0); (0, 4); (1, 4); (2, 4); (3, 4)];
   [(0, 1); (1, 2); (2, 0); (3, 4); (4, 5); (5, 3); (0, 3); (1, 4); (2, 5)];
   [(0, 1); (1, 2); (2, 3); (3, 0); (4, 5); (5, 6); (6, 7); (7, 4); (0, 4); (1, 5); (2, 6); (3, 7)]].

(** ** Searching *)

(** The first of the indices [is] whose entry passes the test: for loops ended
    by break, e.g. MR_Vertex_Funcs_FNR3R4.c 46-52. *)
Fixpoint first_i (p : ptr -> result bool) (l : list ptr) (is : list Z) : result (option Z) :=
  match is with
  | [] => Ok None
  | i :: is' => v <- lent l i ;; b <- p v ;; if b then Ok (Some i) else first_i p l is'
  end.
(** Add the first of three vertices that is not in the list yet, lines 44-52 and
    142-149. *)
Definition add_apex (vs fv : list ptr) : result (list ptr) :=
  o <- first_i (fun v => Ok (negb (mem v vs))) fv (zrange 0 3) ;;
  match o with Some i => v <- lent fv i ;; Ok (vs ++ [v]) | None => Ok vs end.

(** Triangles and quadrilaterals among the faces, MR_Vertex_Funcs_FNR3R4.c 63-76,
    117-132, MR_Edge_Funcs_FN.c 112-133: first triangle, the last of the other
    ones, first quadrilateral, with their positions (NULL, -1: none). *)
Record kinds := mkK { tri0 : ptr; itri0 : Z; tri1 : ptr; itri1 : Z; quad0 : ptr; iquad0 : Z; ntris : Z; nquads : Z }.
Definition kinds0 := mkK NULL (-1) NULL (-1) NULL (-1) 0 0.
Definition find_kinds (t : topo) (l : list ptr) : result kinds :=
  foldM (fun k i =>
    f <- lent l i ;;
    ne <- MF_Num_Edges t f ;;
    Ok (if ne =? 3 then
          if tri0 k =? NULL then mkK f i (tri1 k) (itri1 k) (quad0 k) (iquad0 k) (ntris k + 1) (nquads k)
          else mkK (tri0 k) (itri0 k) f i (quad0 k) (iquad0 k) (ntris k + 1) (nquads k)
        else if ne =? 4 then
          if quad0 k =? NULL then mkK (tri0 k) (itri0 k) (tri1 k) (itri1 k) f i (ntris k) (nquads k + 1)
          else mkK (tri0 k) (itri0 k) (tri1 k) (itri1 k) (quad0 k) (iquad0 k) (ntris k) (nquads k + 1)
        else k)) kinds0 (zrange 0 (ZL l)).

(** ** Vertices of a region: MR_Vertex_Funcs_FNR3R4.c 20-261 *)

(** 36-57. *)
Definition tet_vertices (t : topo) (r : ptr) (l : list ptr) : result (list ptr) :=
  face0 <- lent l 0 ;;
  fdir0 <- MR_FaceDir_i t r 0 ;;
  vs <- MF_Vertices t face0 (lnot fdir0) NULL ;;
  face <- lent l 1 ;;
  fv <- MF_Vertices t face 1 NULL ;;
  add_apex vs fv.

(** 58-108. *)
Definition prism_vertices (t : topo) (r : ptr) (l : list ptr) : result (list ptr) :=
  k <- find_kinds t l ;;
  fdir0 <- MR_FaceDir_i t r (itri0 k) ;;
  vs <- MF_Vertices t (tri0 k) (lnot fdir0) NULL ;;
  fdir1 <- MR_FaceDir_i t r (itri1 k) ;;
  fv <- MF_Vertices t (tri1 k) fdir1 NULL ;;
  rv0 <- lent vs 0 ;;
  o <- first_i (fun v => e <- MVs_CommonEdge t rv0 v ;; Ok (negb (e =? NULL))) fv (zrange 0 3) ;;
  match o with
  | Some i =>
      v0 <- lent fv i ;;
      v1 <- lent fv (Z.rem (i + 1) 3) ;;
      v2 <- lent fv (Z.rem (i + 2) 3) ;;
      Ok (vs ++ [v0; v1; v2])
  | None => Ok vs
  end.

(** 109-155. *)
Definition pyramid_vertices (t : topo) (r : ptr) (l : list ptr) : result (list ptr) :=
  k <- find_kinds t l ;;
  fdir0 <- MR_FaceDir_i t r (iquad0 k) ;;
  vs <- MF_Vertices t (quad0 k) (lnot fdir0) NULL ;;
  fv <- MF_Vertices t (tri0 k) 1 NULL ;;
  add_apex vs fv.

(** 174-203: the opposite face and the face at edge 0, with their directions; the
    last component: left by break. *)
Definition hex_step (t : topo) (r : ptr) (l fedges0 : list ptr) (fedge00 : ptr) (s : (ptr * Z) * (ptr * Z) * bool) (i : Z) : result ((ptr * Z) * (ptr * Z) * bool) :=
  let '(opp, adj, stop) := s in
  if stop : bool then Ok s else
  face <- lent l i ;;
  j <- first_i (MF_UsesEdge t face) fedges0 (zrange 0 4) ;;
  adj <- match j with
         | Some j => e <- lent fedges0 j ;; if e =? fedge00 then d <- MR_FaceDir_i t r i ;; Ok (face, d) else Ok adj
         | None => Ok adj
         end ;;
  opp <- match j with Some _ => Ok opp | None => d <- MR_FaceDir_i t r i ;; Ok (face, d) end ;;
  Ok (opp, adj, negb (fst opp =? NULL) && negb (fst adj =? NULL)).

(** 157-237; [None]: NULL returned. *)
Definition hex_vertices (t : topo) (r : ptr) (l : list ptr) : result (option (list ptr)) :=
  face0 <- lent l 0 ;;
  fdir0 <- MR_FaceDir_i t r 0 ;;
  vs <- MF_Vertices t face0 (lnot fdir0) NULL ;;
  rv0 <- lent vs 0 ;;
  fedges0 <- MF_Edges t face0 (lnot fdir0) rv0 ;;
  fedge00 <- lent fedges0 0 ;;
  ' (opp, adj, _) <- foldM (hex_step t r l fedges0 fedge00) ((NULL, 0), (NULL, 0), false) (zrange 1 (ZL l)) ;;
  if fst opp =? NULL then Ok None else
  adjfedges <- MF_Edges t (fst adj) 1 rv0 ;;
  upedge <- lent adjfedges (if snd adj =? 0 then 0 else 3) ;;
  u0 <- ME_Vertex t upedge 0 ;;
  rvopp0 <- (if u0 =? rv0 then ME_Vertex t upedge 1 else ME_Vertex t upedge 0) ;;
  fv <- MF_Vertices t (fst opp) (snd opp) rvopp0 ;;
  ws <- mapM (lent fv) (zrange 0 4) ;;
  Ok (Some (vs ++ ws)).

(** MR_Vertices: dispatch on mrtype, 34-36; 239-257 is [MR_Vertices_poly]. *)
Definition MR_Vertices (t : topo) (r : ptr) : result (option (list ptr)) :=
  x <- getr t r ;;
  l <- nn (r_faces x) ;;
  if r_type x =? TET then vs <- tet_vertices t r l ;; Ok (Some vs)
  else if r_type x =? PRISM then vs <- prism_vertices t r l ;; Ok (Some vs)
  else if r_type x =? PYRAMID then vs <- pyramid_vertices t r l ;; Ok (Some vs)
  else if r_type x =? HEX then hex_vertices t r l
  else vs <- MR_Vertices_poly t r ;; Ok (Some vs).

(** ** Edges of a region: MR_Edge_Funcs_FN.c 20-390 *)

(** The vertex at which an edge of the bottom face starts, seen from inside the
    region, e.g. 86-88: dir = !(botfdir^fedir). *)
Definition bot_vertex (t : topo) (botface : ptr) (botfdir : Z) (botedge : ptr) : result ptr :=
  fedir <- MF_EdgeDir t botface botedge ;;
  ME_Vertex t botedge (lnot (Z.lxor botfdir fedir)).

(** 66-81, 208-217: the first of three vertices not on the bottom face (NULL: none). *)
Definition find_apex (t : topo) (botface : ptr) (fv : list ptr) : result ptr :=
  o <- first_i (fun v => u <- MF_UsesVertex t botface v ;; Ok (negb u)) fv (zrange 0 3) ;;
  match o with Some i => lent fv i | None => Ok NULL end.

(** 84-98 (tetrahedron: a missing edge is skipped), 219-233 (pyramid: the loop
    ends; second component false). *)
Definition side_step (t : topo) (stop : bool) (botface : ptr) (botfdir vapex : Z) (s : list ptr * bool) (i : Z) : result (list ptr * bool) :=
  let '(es, on) := s in
  if negb on then Ok s else
  botedge <- lent es i ;;
  botvert <- bot_vertex t botface botfdir botedge ;;
  latedge <- MVs_CommonEdge t botvert vapex ;;
  Ok (if latedge =? NULL then (es, negb stop) else (es ++ [latedge], true)).

(** 58-103. *)
Definition tet_edges (t : topo) (r : ptr) (l : list ptr) : result (list ptr) :=
  botface <- lent l 0 ;;
  botfdir <- MR_FaceDir_i t r 0 ;;
  es <- MF_Edges t botface (lnot botfdir) NULL ;;
  face <- lent l 1 ;;
  fv <- MF_Vertices t face 1 NULL ;;
  vapex <- find_apex t botface fv ;;
  if vapex =? NULL then Ok es else
  ' (es, _) <- foldM (side_step t false botface botfdir vapex) (es, true) (zrange 0 3) ;;
  Ok es.

(** 137-201 (prism, n = 3) and 262-353 (hexahedron, n = 4): the top face is
    searched from the bottom edge 0, then the remaining lateral edges. *)
Definition lat_step (t : topo) (n : Z) (botface : ptr) (botfdir : Z) (fv : list ptr) (i : Z) (s : list ptr * bool) (k : Z) : result (list ptr * bool) :=
  let '(es, on) := s in
  if negb on then Ok s else
  botedge <- lent es k ;;
  botvert <- bot_vertex t botface botfdir botedge ;;
  topvert <- lent fv (Z.rem (i + k) n) ;;
  latedge <- MVs_CommonEdge t botvert topvert ;;
  Ok (if latedge =? NULL then (es, false) else (es ++ [latedge], true)).
Definition two_layers (t : topo) (n : Z) (botface : ptr) (botfdir : Z) (es : list ptr) (topface : ptr) (topfdir : Z) : result (list ptr) :=
  botedge <- lent es 0 ;;
  botvert <- bot_vertex t botface botfdir botedge ;;
  fv <- MF_Vertices t topface topfdir NULL ;;
  o <- first_i (fun v => e <- MVs_CommonEdge t botvert v ;; Ok (negb (e =? NULL))) fv (zrange 0 n) ;;
  match o with
  | None => Ok es
  | Some i =>
      topvert <- lent fv i ;;
      latedge <- MVs_CommonEdge t botvert topvert ;;
      fe <- MF_Edges t topface topfdir topvert ;;
      ' (es, _) <- foldM (lat_step t n botface botfdir fv i) (es ++ fe ++ [latedge], true) (zrange 1 n) ;;
      Ok es
  end.
Definition prism_edges (t : topo) (r : ptr) (k : kinds) : result (list ptr) :=
  botfdir <- MR_FaceDir_i t r (itri0 k) ;;
  es <- MF_Edges t (tri0 k) (lnot botfdir) NULL ;;
  topfdir <- MR_FaceDir_i t r (itri1 k) ;;
  two_layers t 3 (tri0 k) botfdir es (tri1 k) topfdir.

(** 203-235. *)
Definition pyramid_edges (t : topo) (r : ptr) (k : kinds) : result (list ptr) :=
  botfdir <- MR_FaceDir_i t r (iquad0 k) ;;
  es <- MF_Edges t (quad0 k) (lnot botfdir) NULL ;;
  fv <- MF_Vertices t (tri0 k) 1 NULL ;;
  vapex <- find_apex t (quad0 k) fv ;;
  ' (es, _) <- foldM (side_step t true (quad0 k) botfdir vapex) (es, true) (zrange 0 4) ;;
  Ok es.

(** 266-288: the first face without an edge of the bottom face. *)
Fixpoint find_top (t : topo) (botface : ptr) (l : list ptr) (is : list Z) : result (option Z) :=
  match is with
  | [] => Ok None
  | i :: is' =>
      face <- lent l i ;;
      fe <- MF_Edges t face 1 NULL ;;
      u <- first_i (MF_UsesEdge t botface) fe (zrange 0 4) ;;
      match u with None => Ok (Some i) | Some _ => find_top t botface l is' end
  end.
(** 253-357. *)
Definition hex_edges (t : topo) (r : ptr) (l : list ptr) : result (list ptr) :=
  botface <- lent l 0 ;;
  botfdir <- MR_FaceDir_i t r 0 ;;
  es <- MF_Edges t botface (lnot botfdir) NULL ;;
  o <- find_top t botface l (zrange 1 6) ;;
  match o with
  | None => Ok es
  | Some i => topface <- lent l i ;; topfdir <- MR_FaceDir_i t r i ;; two_layers t 4 botface botfdir es topface topfdir
  end.

(** MR_Edges: the switch on the number of faces, 42-364; 366-389 is
    [MR_Edges_poly]. *)
Definition MR_Edges (t : topo) (r : ptr) : result (list ptr) :=
  x <- getr t r ;;
  l <- nn (r_faces x) ;;
  if ZL l =? 4 then
    ns <- mapM (MF_Num_Edges t) l ;;
    if forallb (fun n => n =? 3) ns then tet_edges t r l else MR_Edges_poly t r
  else if ZL l =? 5 then
    k <- find_kinds t l ;;
    if (nquads k =? 3) && (ntris k =? 2) then prism_edges t r k
    else if (nquads k =? 1) && (ntris k =? 4) then pyramid_edges t r k else MR_Edges_poly t r
  else if ZL l =? 6 then
    ns <- mapM (MF_Num_Edges t) l ;;
    if forallb (fun n => n =? 4) ns then hex_edges t r l else MR_Edges_poly t r
  else MR_Edges_poly t r.
