(** Model of local mesh modifications on the full representation F1:
    /repo/src/mod/ME_Split.c, ME_MultiSplit.c, MF_Split_with_Edge.c,
    MVs_Merge_FN.c, MEs_Merge_FN.c, MFs_Merge_FN.c, MFs_Join.c.

    Simplifications.  Coordinates are left out; the geometric classification is
    a function [cls] giving the dimension and ID of the model entity, read only;
    all entities are in one mesh; the sets of the mesh are the sequences of their
    entries (MSet_Contains, MSet_Rem, MSet_Replace, MSet.c 96-114, are List.c
    calls, which C01 relates to sequences). *)
From Coq Require Import ZArith List Bool.
From Verif Require Import Base ListSpec ParModel AttModel TopoModel.
Import ListNotations.
Open Scope Z_scope.

(** ** Splitting an edge *)

(** ME_MultiSplit.c 61-66: the new vertices. *)
Fixpoint new_verts (t : topo) (n : nat) : topo * list ptr :=
  match n with
  | O => (t, [])
  | S k => let '(t, v) := MV_New t in let '(t, vs) := new_verts t k in (t, v :: vs)
  end.

(** ME_MultiSplit.c 71-79: the new edges joining consecutive entries of verts. *)
Fixpoint new_edges (t : topo) (u : ptr) (vs : list ptr) : result (topo * list ptr) :=
  match vs with
  | [] => Ok (t, [])
  | v :: vs' =>
      let '(t, e) := ME_New t in
      t <- ME_Set_Vertex t e 0 u ;;
      t <- ME_Set_Vertex t e 1 v ;;
      '(t, es) <- new_edges t v vs' ;;
      Ok (t, e :: es)
  end.

(** ME_MultiSplit.c 24-114; the faces and regions of the edge are collected first
    (lines 36-37), MV_Coords (49-50) reads both ends. *)
Definition ME_MultiSplit (t : topo) (esplit : ptr) (n : Z) : result (topo * list ptr) :=
  efaces <- ME_Faces t esplit ;;
  eregions <- ME_Regions t esplit ;;
  if n <? 0 then Undef else
  v0 <- ME_Vertex t esplit 0 ;;
  v1 <- ME_Vertex t esplit 1 ;;
  _ <- getv t v0 ;;
  _ <- getv t v1 ;;
  let '(t, vs) := new_verts t (Z.to_nat n) in
  '(t, enew) <- new_edges t v0 (vs ++ [v1]) ;;
  t <- (match efaces with
        | None => Ok t
        | Some fs => foldM (fun t ef =>
            fedir <- MF_EdgeDir t ef esplit ;;
            MF_Replace_Edges t ef [esplit] (if fedir =? 0 then rev enew else enew)) t fs
        end) ;;
  t <- (match eregions with
        | None => Ok t
        | Some rs => foldM MR_Update_ElementType t rs
        end) ;;
  t <- ME_Delete t esplit false ;;
  Ok (t, enew).

(** ME_Split.c 23-54. *)
Definition ME_Split (t : topo) (esplit : ptr) : result (topo * ptr) :=
  '(t, elist) <- ME_MultiSplit t esplit 1 ;;
  enew <- lent elist 0 ;;
  vnew <- ME_Vertex t enew 1 ;;
  Ok (t, vnew).

(** ** Splitting a face *)

(** MF_Split_with_Edge.c 70-77: the first edge that starts at [v0]. *)
Fixpoint find_first (t : topo) (l : list ptr) (ds : list Z) (v0 : ptr) (is : list Z) : result (option Z) :=
  match is with
  | [] => Ok None
  | i :: is' =>
      fe <- lent l i ;;
      d <- rdl ds i ;;
      v <- ME_Vertex t fe (lnot d) ;;
      if v =? v0 then Ok (Some i) else find_first t l ds v0 is'
  end.

(** MF_Split_with_Edge.c 84-100, 114-131: edges from position [i] on up to the
    one ending at [stop].  The arrays have nfe cells: [cells] counts those left. *)
Fixpoint gather_edges (t : topo) (l : list ptr) (ds : list Z) (nfe i : Z) (stop bad : ptr) (cells : nat) : result (list (ptr * Z) * Z) :=
  match cells with
  | O => Undef
  | S c =>
      let k := Z.rem i nfe in
      e <- lent l k ;;
      d <- rdl ds k ;;
      vnext <- ME_Vertex t e d ;;
      if vnext =? stop then Ok ([(e, d)], i)
      else if vnext =? bad then Fatal
      else '(r, i') <- gather_edges t l ds nfe (i + 1) stop bad c ;; Ok ((e, d) :: r, i')
  end.

(** MF_Split_with_Edge.c 23-168. *)
Definition MF_Split_with_Edge (t : topo) (fsplit v0 v1 : ptr) : result (topo * ptr) :=
  enew <- MVs_CommonEdge t v0 v1 ;;
  if negb (enew =? NULL) then Ok (t, enew) else
  felist <- MF_Edges t fsplit 1 NULL ;;
  let nfe := ZL felist in
  fedirs <- mapM (MF_EdgeDir_i t fsplit) (zrange 0 nfe) ;;
  let '(t, enew) := ME_New t in
  t <- ME_Set_Vertex t enew 0 v0 ;;
  t <- ME_Set_Vertex t enew 1 v1 ;;
  o <- find_first t felist fedirs v0 (zrange 0 nfe) ;;
  i <- (match o with Some i => Ok i | None => Fatal end) ;;
  '(p0, i) <- gather_edges t felist fedirs nfe i v1 v0 (length felist) ;;
  if (length felist <=? length p0)%nat then Undef else
  let '(t, f0) := MF_New t in
  let p0 := p0 ++ [(enew, 0)] in
  t <- MF_Set_Edges t f0 (Z.of_nat (length p0)) (map fst p0) (map snd p0) ;;
  '(p1, _) <- gather_edges t felist fedirs nfe (i + 1) v0 v1 (length felist) ;;
  if (length felist <=? length p1)%nat then Undef else
  let '(t, f1) := MF_New t in
  let p1 := p1 ++ [(enew, 1)] in
  t <- MF_Set_Edges t f1 (Z.of_nat (length p1)) (map fst p1) (map snd p1) ;;
  fregions <- MF_Regions t fsplit ;;
  t <- foldM (fun t fr =>
         d <- MR_FaceDir t fr fsplit ;;
         MR_Replace_Faces t fr [fsplit] [f0; f1] [d; d]) t fregions ;;
  t <- MF_Delete t fsplit false ;;
  Ok (t, enew).

(** ** Merging *)

(** MVs_Merge_FN.c 47-58, MEs_Merge_FN.c 67-78, MFs_Merge_FN.c 139-150. *)
Definition merge_in_sets (sets : list (list ptr)) (del kept : ptr) : list (list ptr) :=
  map (fun s => if mem del s then if mem kept s then remove1 del s else replace1 del kept s else s) sets.

Section Merge.
  (** Dimension and ID of the model entity an entity is classified on. *)
  Variable cls : ptr -> Z * Z.
  (** Merges that are refused return 0 and change nothing. *)
  Definition refused {A} (x : A) (s : list (list ptr)) : result (A * list (list ptr) * ptr) := Ok (x, s, NULL).

  (** MVs_Merge_FN.c 15-63. *)
  Definition MVs_Merge (t : topo) (sets : list (list ptr)) (v1 v2 : ptr) (topoflag : bool) : result (topo * list (list ptr) * ptr) :=
    if topoflag && (negb (snd (cls v1) =? snd (cls v2)) || negb (fst (cls v1) =? fst (cls v2))) then refused t sets else
    vedges2 <- MV_Edges t v2 ;;
    t <- (match vedges2 with
          | None => Ok t
          | Some l => foldM (fun t edge => ME_Replace_Vertex t edge v2 v1) t l
          end) ;;
    t <- MV_Delete t v2 true ;;
    Ok (t, merge_in_sets sets v2 v1, v1).

  (** The classification test of MEs_Merge_FN.c 34-45 and MFs_Merge_FN.c 39-50. *)
  Definition cls_ok (p1 p2 : ptr) (topoflag : bool) : bool :=
    negb topoflag ||
    (if fst (cls p1) =? fst (cls p2) then snd (cls p1) =? snd (cls p2) else negb (fst (cls p2) <? fst (cls p1))).

  (** MEs_Merge_FN.c 16-83. *)
  Definition MEs_Merge (t : topo) (sets : list (list ptr)) (e1 e2 : ptr) (topoflag : bool) : result (topo * list (list ptr) * ptr) :=
    if negb (cls_ok e1 e2 topoflag) then refused t sets else
    v11 <- ME_Vertex t e1 0 ;; v12 <- ME_Vertex t e1 1 ;;
    v21 <- ME_Vertex t e2 0 ;; v22 <- ME_Vertex t e2 1 ;;
    if (negb (v11 =? v21) && negb (v11 =? v22)) || (negb (v12 =? v21) && negb (v12 =? v22)) then refused t sets else
    efaces2 <- ME_Faces t e2 ;;
    t <- (match efaces2 with
          | None => Ok t
          | Some l => foldM (fun t face => MF_Replace_Edges t face [e2] [e1]) t l
          end) ;;
    t <- ME_Delete t e2 true ;;
    Ok (t, merge_in_sets sets e2 e1, e1).

  (** MFs_Merge_FN.c 16-155 (without the DEBUG checks). *)
  Definition MFs_Merge (t : topo) (sets : list (list ptr)) (f1 f2 : ptr) (topoflag : bool) : result (topo * list (list ptr) * ptr) :=
    if negb (cls_ok f1 f2 topoflag) then refused t sets else
    fedges1 <- MF_Edges t f1 1 NULL ;;
    dir <- MF_EdgeDir_i t f1 0 ;;
    e0 <- lent fedges1 0 ;;
    fv0 <- ME_Vertex t e0 (lnot dir) ;;
    fedges2 <- MF_Edges t f2 1 fv0 ;;
    if negb (ZL fedges1 =? ZL fedges2) then refused t sets else
    g0 <- lent fedges2 0 ;;
    gl <- lent fedges2 (ZL fedges1 - 1) ;;
    if negb (e0 =? g0) && negb (e0 =? gl) then refused t sets else
    let same := e0 =? g0 in
    fregs2 <- MF_Regions t f2 ;;
    t <- foldM (fun t reg =>
           f2dir <- MR_FaceDir t reg f2 ;;
           MR_Replace_Faces t reg [f2] [f1] [if same then f2dir else lnot f2dir]) t fregs2 ;;
    t <- MF_Delete t f2 true ;;
    Ok (t, merge_in_sets sets f2 f1, f1).
End Merge.

(** ** Joining two faces *)

(** MFs_Join.c 91-99: the edges after position [k], cyclically, without it. *)
Definition after_edge (l : list (ptr * Z)) (k : nat) : list (ptr * Z) := skipn (S k) l ++ firstn k l.

(** MFs_Join.c 69-75, 78-83: the last position of [e]. *)
Definition last_at (e : ptr) (l : list ptr) : nat := (length l - 1 - match index_of e (rev l) with Some k => k | None => O end)%nat.

(** MFs_Join.c 14-128.  The classification test (30-33) compares f0 with
    itself and never refuses.  The two faces must have the same regions, seen as
    lists (35-55). *)
Definition MFs_Join (t : topo) (f0 f1 e : ptr) : result (topo * ptr) :=
  r0 <- MF_Regions t f0 ;;
  r1 <- MF_Regions t f1 ;;
  let ent (l : list ptr) k := nth k l NULL in
  if negb (ent r0 0%nat =? ent r1 0%nat) || negb (ent r0 1%nat =? ent r1 1%nat) then Ok (t, NULL) else
  l0 <- MF_Edges t f0 1 NULL ;;
  d0 <- mapM (MF_EdgeDir_i t f0) (zrange 0 (ZL l0)) ;;
  l1 <- MF_Edges t f1 1 NULL ;;
  d1 <- mapM (MF_EdgeDir_i t f1) (zrange 0 (ZL l1)) ;;
  if negb (mem e l0) || negb (mem e l1) then Ok (t, NULL) else
  let es := after_edge (combine l0 d0) (last_at e l0) ++ after_edge (combine l1 d1) (last_at e l1) in
  let '(t, nu) := MF_New t in
  t <- MF_Set_Edges t nu (Z.of_nat (length es)) (map fst es) (map snd es) ;;
  t <- foldM (fun t fr =>
         if fr =? NULL then Ok t else
         rfdir <- MR_FaceDir t fr f0 ;;
         MR_Replace_Faces t fr [f0; f1] [nu] [rfdir]) t [ent r0 0%nat; ent r0 1%nat] ;;
  t <- MF_Delete t f0 false ;;
  t <- MF_Delete t f1 false ;;
  t <- ME_Delete t e false ;;
  Ok (t, nu).
