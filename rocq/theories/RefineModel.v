(** Changing a surface mesh locally: swapping the edge between two triangles
    (/repo/src/mod/ME_Swap2D.c) and splitting a face at a point
    (/repo/src/mod/MF_Split.c). *)
From Coq Require Import ZArith Bool List.
From Verif Require Import Base ListSpec AttModel TopoModel ParModel BuildModel.
Import ListNotations.
Open Scope Z_scope.

(** Left out: coordinates and the classification of the new entities (ME_Swap2D.c
    97-98, 101-102, 109-110; MF_Split.c 36-37, 55-57, 67-68). *)

(** ME_Swap2D.c 63-65 and 79-81: the end of an edge that is not [v]; end [i] is
    tried first. *)
Definition end_not (t : topo) (e : ptr) (i : Z) (v : ptr) : result ptr :=
  u <- ME_Vertex t e i ;; if u =? v then ME_Vertex t e (lnot i) else Ok u.

(** ME_Swap2D.c 104-105, 112-113: the direction of an edge that starts at [v]. *)
Definition from_v (t : topo) (e v : ptr) : result Z := u <- ME_Vertex t e 0 ;; Ok (b2z (u =? v)).

(** ME_Swap2D.c 14-117.  [gdim] is ME_GEntDim(eswp) (22).  When nothing is done the
    function returns 0, here None; otherwise the new edge and the two new faces.
    ME_Faces is NULL for an edge without faces and List_Num_Entries reads through
    it (36; List.c 81-83, 160-162).  The reports of 23, 39, 54, 70 only print. *)
Definition ME_Swap2D (gdim : Z) (t : topo) (e : ptr) : result (topo * option (ptr * ptr * ptr)) :=
  if negb (gdim =? 2) then Ok (t, None) else
  v0 <- ME_Vertex t e 0 ;;
  v1 <- ME_Vertex t e 1 ;;
  o <- ME_Faces t e ;;
  efaces <- (match o with Some l => Ok l | None => Undef end) ;;
  if negb (ZL efaces =? 2) then Ok (t, None) else
  g0 <- lent efaces 0 ;;
  g1 <- lent efaces 1 ;;
  d <- MF_EdgeDir t g0 e ;;
  let '(f0, f1) := if d =? 0 then (g1, g0) else (g0, g1) in
  fedges <- MF_Edges t f0 1 v0 ;;
  if negb (ZL fedges =? 3) then Ok (t, None) else
  fe0 <- lent fedges 1 ;;
  fe1 <- lent fedges 2 ;;
  v3 <- end_not t fe0 1 v1 ;;
  fedges <- MF_Edges t f1 1 v1 ;;
  if negb (ZL fedges =? 3) then Ok (t, None) else
  fe2 <- lent fedges 1 ;;
  fe3 <- lent fedges 2 ;;
  v2 <- end_not t fe3 0 v1 ;;
  t <- MF_Delete t f0 false ;;
  t <- MF_Delete t f1 false ;;
  t <- ME_Delete t e false ;;
  let '(t, enew) := ME_New t in
  t <- ME_Set_Vertex t enew 0 v2 ;;
  t <- ME_Set_Vertex t enew 1 v3 ;;
  let '(t, fnew0) := MF_New t in
  d1 <- from_v t fe1 v3 ;;
  d2 <- from_v t fe2 v0 ;;
  t <- MF_Set_Edges t fnew0 3 [enew; fe1; fe2] [1; d1; d2] ;;
  let '(t, fnew1) := MF_New t in
  d1 <- from_v t fe3 v2 ;;
  d2 <- from_v t fe0 v1 ;;
  t <- MF_Set_Edges t fnew1 3 [enew; fe3; fe0] [0; d1; d2] ;;
  Ok (t, Some (enew, fnew0, fnew1)).

(** MF_Split.c 61-70: the triangle of the new vertex [v] and edge [i] of the face. *)
Definition split_tri (fverts : list ptr) (v : ptr) (t : topo) (i : Z) : result (topo * ptr) :=
  p <- lent fverts i ;;
  q <- lent fverts (Z.rem (i + 1) (ZL fverts)) ;;
  let '(t, g) := MF_New t in
  t <- MF_Set_Vertices t g 3 [v; p; q] ;;
  Ok (t, g).

(** MF_Split.c 26-89; fnew and fnewdir have MAXPV2 entries (30, 33). *)
Definition MF_Split (t : topo) (f : ptr) : result (topo * ptr) :=
  fregs <- MF_Regions t f ;;
  fverts <- MF_Vertices t f 1 NULL ;;
  let '(t, v) := MV_New t in
  if MAXPV2 <? ZL fverts then Undef else
  ' (t, fnew) <- threadM (split_tri fverts v) t (zrange 0 (ZL fverts)) ;;
  t <- foldM (fun t fr =>
         d <- MR_FaceDir t fr f ;;
         MR_Replace_Faces t fr [f] fnew (map (fun _ => d) fnew)) t fregs ;;
  t <- MF_Delete t f false ;;
  Ok (t, v).
