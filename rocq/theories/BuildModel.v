(** Faces and regions built from vertices, F1 representation. *)
From Coq Require Import ZArith List Bool.
From Verif Require Import Base ListSpec AttModel TopoModel ParModel CellModel.
Import ListNotations.
Open Scope Z_scope.

(** Left out: classification (GEntDim, GEntID and the reports about it), the
    checks compiled with DEBUG only. *)

(** include/MSTK_defines.h 38-40: sizes of the arrays on the stack. *)
Definition MAXPV2 := 30.
Definition MAXPV3 := 200.
Definition MAXPF3 := 512.

(** A loop that changes the mesh and fills an array with its results. *)
Fixpoint threadM {A B} (g : topo -> A -> result (topo * B)) (t : topo) (l : list A) : result (topo * list B) :=
  match l with
  | [] => Ok (t, [])
  | x :: l' => ' (t, y) <- g t x ;; ' (t, ys) <- threadM g t l' ;; Ok (t, y :: ys)
  end.

(** The edge joining two vertices, made if there is none, and whether it runs
    from the first to the second: MF_Vertex_Funcs_F1F3.c 43-52,
    MR_Face_Funcs_FNR3R4.c 237-246 and 291. *)
Definition find_edge (t : topo) (p q : ptr) : result (topo * (ptr * Z)) :=
  e <- MVs_CommonEdge t p q ;;
  if e =? NULL then
    let '(t, e) := ME_New t in
    t <- ME_Set_Vertex t e 0 p ;;
    t <- ME_Set_Vertex t e 1 q ;;
    Ok (t, (e, 1))
  else u <- ME_Vertex t e 0 ;; Ok (t, (e, b2z (u =? p))).

(** MF_Vertex_Funcs_F1F3.c 19-81 MF_Set_Vertices_F1F3; fedges and fedirs have
    MAXPV2 entries. *)
Definition MF_Set_Vertices (t : topo) (f : ptr) (n : Z) (v : list ptr) : result topo :=
  if MAXPV2 <? n then Undef else
  ' (t, l) <- threadM (fun t i =>
      p <- rdl v i ;; q <- rdl v (Z.rem (i + 1) n) ;; find_edge t p q) t (zrange 0 n) ;;
  MF_Set_Edges t f n (map fst l) (map snd l).

(** The first face of a list that passes a test; NULL if none. *)
Fixpoint first_face (p : ptr -> result bool) (l : list ptr) : result ptr :=
  match l with
  | [] => Ok NULL
  | f :: l' => b <- p f ;; if b then Ok f else first_face p l'
  end.

(** MFace.c 369-422; MF_Num_Vertices_F1F3 (MF_Vertex_Funcs_F1F3.c 177-180) is the
    number of edges. *)
Definition MVs_CommonFace (t : topo) (nv : Z) (fverts : list ptr) : result ptr :=
  v0 <- rdl fverts 0 ;;
  v1 <- rdl fverts 1 ;;
  edge0 <- MVs_CommonEdge t v0 v1 ;;
  if edge0 =? NULL then Ok NULL else
  o <- ME_Faces t edge0 ;;
  match o with
  | None => Ok NULL
  | Some l =>
      first_face (fun f =>
        nfv <- MF_Num_Edges t f ;;
        if negb (nfv =? nv) then Ok false else
        fv <- MF_Vertices t f 1 NULL ;;
        vs <- mapM (lent fv) (zrange 0 nv) ;;
        Ok (forallb (fun v => mem v fverts) vs)) l
  end.

(** MFace.c 424-457. *)
Definition MEs_CommonFace (t : topo) (fedges : list ptr) : result ptr :=
  e0 <- rdl fedges 0 ;;
  o <- ME_Faces t e0 ;;
  match o with
  | None => Ok NULL
  | Some l =>
      first_face (fun f =>
        fe <- MF_Edges t f 1 NULL ;;
        Ok (forallb (fun e => mem e fe) (tl fedges))) l
  end.

(** MR_Face_Funcs_FNR3R4.c 170-187 (with [tdir] 1) and 339-363: direction in which
    the new region uses a face that exists already; [v0] and [v1] are the first
    two vertices of the face in the template. *)
Definition old_dir (t : topo) (f v0 v1 : ptr) (tdir : Z) : result Z :=
  rs <- MF_Regions t f ;;
  match rs with
  | [] => fv <- MF_Vertices t f 1 v0 ;; u <- lent fv 1 ;; Ok (if v1 =? u then tdir else lnot tdir)
  | q :: _ => d <- MR_FaceDir t q f ;; Ok (lnot d)
  end.

(** 132-188: one face of a general polyhedron; [tp] are the positions of its
    vertices; verts has MAXPV2 entries. *)
Definition poly_face (mv : list ptr) (t : topo) (tp : list Z) : result (topo * (ptr * Z)) :=
  let nfv := Z.of_nat (length tp) in
  if MAXPV2 <? nfv then Undef else
  verts <- mapM (rdl mv) tp ;;
  f <- MVs_CommonFace t nfv verts ;;
  if f =? NULL then
    let '(t, f) := MF_New t in
    t <- MF_Set_Vertices t f nfv verts ;;
    Ok (t, (f, 1))
  else
    v0 <- rdl verts 0 ;;
    v1 <- rdl verts 1 ;;
    d <- old_dir t f v0 v1 1 ;;
    Ok (t, (f, d)).

(** 106-193, with rfvtemplate: [rfv] lists the faces as positions in [mv], the
    leading counts are the lengths; rfaces and rfdirs have MAXPF3 entries, vgdim
    and vgid MAXPV3. *)
Definition MR_Set_Vertices_poly (t : topo) (r : ptr) (mv : list ptr) (rfv : list (list Z)) : result topo :=
  let nf := Z.of_nat (length rfv) in
  if (MAXPV3 <? ZL mv) || (MAXPF3 <? nf) then Undef else
  ' (t, l) <- threadM (poly_face mv) t rfv ;;
  MR_Set_Faces t r nf (map fst l) (map snd l).

(** 223-295: one edge of a standard element. *)
Definition std_edge (mv : list ptr) (t : topo) (p : Z * Z) : result (topo * (ptr * Z)) :=
  v0 <- rdl mv (fst p) ;; v1 <- rdl mv (snd p) ;; find_edge t v0 v1.
(** 302-312: an edge of a face and its direction; [x]: number of the edge and
    direction in the template. *)
Definition face_edge (redges : list (ptr * Z)) (x : Z * Z) : result (ptr * Z) :=
  e <- rdl (map fst redges) (fst x) ;;
  d <- rdl (map snd redges) (fst x) ;;
  Ok (e, lnot (Z.lxor d (snd x))).
(** 298-366: one face of a standard element, from its part of the templates. *)
Definition std_face (mv : list ptr) (redges : list (ptr * Z)) (t : topo) (tp : (list Z * list Z) * (list Z * Z)) : result (topo * (ptr * Z)) :=
  let '((rfe, rfedir), (rfv, rfdir)) := tp in
  fe <- mapM (face_edge redges) (combine rfe rfedir) ;;
  f <- MEs_CommonFace t (map fst fe) ;;
  if f =? NULL then
    let '(t, f) := MF_New t in
    t <- MF_Set_Edges t f (Z.of_nat (length rfe)) (map fst fe) (map snd fe) ;;
    Ok (t, (f, rfdir))
  else
    i0 <- rdl rfv 0 ;;
    i1 <- rdl rfv 1 ;;
    v0 <- rdl mv i0 ;;
    v1 <- rdl mv i1 ;;
    d <- old_dir t f v0 v1 rfdir ;;
    Ok (t, (f, d)).

(** 195-219: element type by the number of vertices; MSTK_FATAL otherwise. *)
Definition std_type (nv : Z) : result Z :=
  if nv =? 4 then Ok TET else if nv =? 5 then Ok PYRAMID else if nv =? 6 then Ok PRISM else if nv =? 8 then Ok HEX else Fatal.
(** 106-129, 194-370, without rfvtemplate. *)
Definition MR_Set_Vertices (t : topo) (r : ptr) (mv : list ptr) : result topo :=
  if MAXPV3 <? ZL mv then Undef else
  ty <- std_type (ZL mv) ;;
  let k := Z.to_nat ty in
  ' (t, redges) <- threadM (std_edge mv) t (nth k rev_template []) ;;
  ' (t, l) <- threadM (std_face mv redges) t
      (combine (combine (nth k rfe_template []) (nth k rfedir_template []))
               (combine (nth k rfv_template []) (nth k rfdir_template []))) ;;
  MR_Set_Faces t r (Z.of_nat (length l)) (map fst l) (map snd l).
