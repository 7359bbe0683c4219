(** Model of the topology of the full representation F1: vertices, edges, faces
    and regions with their downward and upward adjacency.

    Simplifications.  The List_ptr objects held by entities are the sequences of
    their entries (ListProps.v, C01, relates List.c to sequences); the entity
    lists of the mesh and the IDs are in MeshModel.v, attributes in AttModel.v,
    geometric classification is left out.  The jump tables by RepType
    (include/M*_jmp.h) are resolved to F1.  Addresses are never reused. *)
From Coq Require Import ZArith List Bool.
From Verif Require Import Base ListSpec ParModel AttModel.
Import ListNotations.
Open Scope Z_scope.

(** ** Records *)

(** include/MVertex.h MVertex, MVertex_Adj_F1F4: vedges.  [*_live]: not marked
    deleted (MEntity.c 218-226). *)
Record vrec := mkV { v_live : bool; v_edges : list ptr }.
(** include/MEdge.h MEdge: vertex[2]; MEdge_Adj_F1: efaces. *)
Record erec := mkE { e_live : bool; e_v0 : ptr; e_v1 : ptr; e_faces : list ptr }.
(** include/MFace.h MFace_Adj_F1F3: edirs (unsigned long long), fedges (NULL:
    [None]), fregions[2]. *)
Record frec := mkF { f_live : bool; f_edirs : Z; f_edges : option (list ptr); f_r0 : ptr; f_r1 : ptr }.
(** include/MRegion.h 26-62 MRegion: mrtype; MRegion_Adj_FN: fdirs (unsigned
    int array, [] for NULL), rfaces. *)
Record rrec := mkR { r_live : bool; r_fdirs : list Z; r_faces : option (list ptr); r_type : Z }.

(** All entities by address, and the next address malloc returns. *)
Record topo := mkT { tvs : ptr -> option vrec; tes : ptr -> option erec;
                     tfs : ptr -> option frec; trs : ptr -> option rrec; tnext : ptr }.

Definition empty_topo : topo := mkT (fun _ => None) (fun _ => None) (fun _ => None) (fun _ => None) 1.

(** Dereference: undefined for NULL and freed pointers. *)
Definition getv (t : topo) (p : ptr) : result vrec := match tvs t p with Some x => Ok x | None => Undef end.
Definition gete (t : topo) (p : ptr) : result erec := match tes t p with Some x => Ok x | None => Undef end.
Definition getf (t : topo) (p : ptr) : result frec := match tfs t p with Some x => Ok x | None => Undef end.
Definition getr (t : topo) (p : ptr) : result rrec := match trs t p with Some x => Ok x | None => Undef end.
Definition putv (t : topo) (p : ptr) (x : option vrec) : topo := mkT (zupd (tvs t) p x) (tes t) (tfs t) (trs t) (tnext t).
Definition pute (t : topo) (p : ptr) (x : option erec) : topo := mkT (tvs t) (zupd (tes t) p x) (tfs t) (trs t) (tnext t).
Definition putf (t : topo) (p : ptr) (x : option frec) : topo := mkT (tvs t) (tes t) (zupd (tfs t) p x) (trs t) (tnext t).
Definition putr (t : topo) (p : ptr) (x : option rrec) : topo := mkT (tvs t) (tes t) (tfs t) (zupd (trs t) p x) (tnext t).
Definition fresh (t : topo) : topo := mkT (tvs t) (tes t) (tfs t) (trs t) (tnext t + 1).

(** Field updates. *)
Definition set_vedges (v : vrec) l := mkV (v_live v) l.
Definition set_efaces (e : erec) l := mkE (e_live e) (e_v0 e) (e_v1 e) l.
Definition set_fedges (f : frec) w l := mkF (f_live f) w (Some l) (f_r0 f) (f_r1 f).
Definition set_fregs (f : frec) a b := mkF (f_live f) (f_edirs f) (f_edges f) a b.
Definition set_rfaces (r : rrec) w l := mkR (r_live r) w (Some l) (r_type r).
Definition set_rtype (r : rrec) ty := mkR (r_live r) (r_fdirs r) (r_faces r) ty.

(** Loops over a list, carrying a state. *)
Fixpoint foldM {S A} (g : S -> A -> result S) (s : S) (l : list A) : result S :=
  match l with
  | [] => Ok s
  | x :: l' => s <- g s x ;; foldM g s l'
  end.

(** The ints a, a+1, ..., b-1: a C loop for (i = a; i < b; i++). *)
Definition zrange (a b : Z) : list Z := map (fun i => a + Z.of_nat i) (seq 0 (Z.to_nat (b - a))).
(** b, b-1, ..., a: for (i = b; i >= a; i--). *)
Definition zdown (b a : Z) : list Z := rev (zrange a (b + 1)).

(** List_Entry, List_ChknAdd (/repo/src/util/List.c 185-223, 381-408) on the
    sequence of entries. *)
Definition lent (l : list ptr) (i : Z) : result ptr := if i <? 0 then Undef else Ok (nth (Z.to_nat i) l NULL).
Definition chkn (l : list ptr) (x : ptr) : list ptr := if mem x l then l else l ++ [x].
Definition ZL (l : list ptr) : Z := Z.of_nat (length l).

(** A list that must not be NULL. *)
Definition nn {A} (l : option A) : result A := match l with Some x => Ok x | None => Undef end.

(** Shifts and single bits.  [d << k] on an int: undefined unless 0 <= k < 32,
    otherwise the low 32 bits as gcc defines it; converted to 64 or 32 unsigned
    bits where it is combined with edirs or a word of fdirs. *)
Definition u64 (x : Z) : Z := x mod 2 ^ 64.
Definition shl_int (d k : Z) : result Z := if (0 <=? k) && (k <? 32) then Ok (s32 (Z.shiftl d k)) else Undef.
(** w & ~(1UL<<k), (w>>k) & 1UL, w | (d<<k) with an int, w | (d<<k) with a long long. *)
Definition clr64 (w k : Z) : result Z := if (0 <=? k) && (k <? 64) then Ok (Z.ldiff w (Z.shiftl 1 k)) else Undef.
Definition bit64 (w k : Z) : result Z := if (0 <=? k) && (k <? 64) then Ok (Z.land (Z.shiftr w k) 1) else Undef.
Definition ori64 (w d k : Z) : result Z := x <- shl_int d k ;; Ok (Z.lor w (u64 x)).
Definition orl64 (w d k : Z) : result Z := if (0 <=? k) && (k <? 64) then Ok (Z.lor w (u64 (Z.shiftl d k))) else Undef.

(** C's [!x] and [x ? 1 : 0]. *)
Definition lnot (x : Z) : Z := if x =? 0 then 1 else 0.
Definition b2z (b : bool) : Z := if b then 1 else 0.

(** ** Vertices *)

(** MVertex.c 22-43 MV_New; MVertex_F1.c 21-26. *)
Definition MV_New (t : topo) : topo * ptr := (fresh (putv t (tnext t) (Some (mkV true []))), tnext t).

(** MVertex_F1.c 304-311, 313-320. *)
Definition MV_Add_Edge (t : topo) (v e : ptr) : result topo :=
  x <- getv t v ;; Ok (putv t v (Some (set_vedges x (chkn (v_edges x) e)))).
Definition MV_Rem_Edge (t : topo) (v e : ptr) : result topo :=
  x <- getv t v ;; Ok (putv t v (Some (set_vedges x (remove1 e (v_edges x))))).

(** MVertex.c 45-70 MV_Delete; MVertex_F1.c 28-39. *)
Definition MV_Delete (t : topo) (v : ptr) (keep : bool) : result topo :=
  x <- getv t v ;;
  if keep then Ok (putv t v (Some (mkV false (v_edges x)))) else Ok (putv t v None).

(** MVertex.c 72-94 MV_Restore; MVertex_F1.c 41-43. *)
Definition MV_Restore (t : topo) (v : ptr) : result topo :=
  x <- getv t v ;; Ok (putv t v (Some (mkV true (v_edges x)))).

(** ** Edges *)

(** MEdge.c 20-42 ME_New; MEdge_F1.c 20-25. *)
Definition ME_New (t : topo) : topo * ptr := (fresh (pute t (tnext t) (Some (mkE true NULL NULL []))), tnext t).

(** MEdge.c 125-128. *)
Definition ME_Set_Vertex (t : topo) (e : ptr) (i : Z) (v : ptr) : result topo :=
  x <- gete t e ;;
  x <- (if i =? 0 then Ok (mkE (e_live x) v (e_v1 x) (e_faces x))
        else if i =? 1 then Ok (mkE (e_live x) (e_v0 x) v (e_faces x)) else Undef) ;;
  MV_Add_Edge (pute t e (Some x)) v e.

(** MEdge.c 130-143. *)
Definition ME_Replace_Vertex (t : topo) (e oldv nuv : ptr) : result topo :=
  x <- gete t e ;;
  if e_v0 x =? oldv then
    t <- MV_Add_Edge (pute t e (Some (mkE (e_live x) nuv (e_v1 x) (e_faces x)))) nuv e ;;
    MV_Rem_Edge t oldv e
  else if e_v1 x =? oldv then
    t <- MV_Add_Edge (pute t e (Some (mkE (e_live x) (e_v0 x) nuv (e_faces x)))) nuv e ;;
    MV_Rem_Edge t oldv e
  else Ok t.

(** MEdge.c 294-296, 302-304, 347-363 (vertex case). *)
Definition ME_Vertex (t : topo) (e : ptr) (i : Z) : result ptr :=
  x <- gete t e ;; if i =? 0 then Ok (e_v0 x) else if i =? 1 then Ok (e_v1 x) else Undef.
Definition ME_OppVertex (t : topo) (e v : ptr) : result ptr :=
  x <- gete t e ;; Ok (if e_v0 x =? v then e_v1 x else e_v0 x).
Definition ME_UsesVertex (t : topo) (e v : ptr) : result bool :=
  x <- gete t e ;; Ok ((e_v0 x =? v) || (e_v1 x =? v)).

(** MEdge_F1.c 152-160, 162-168. *)
Definition ME_Add_Face (t : topo) (e f : ptr) : result topo :=
  x <- gete t e ;; Ok (pute t e (Some (set_efaces x (chkn (e_faces x) f)))).
Definition ME_Rem_Face (t : topo) (e f : ptr) : result topo :=
  x <- gete t e ;; Ok (pute t e (Some (set_efaces x (remove1 f (e_faces x))))).

(** MEdge.c 44-69 ME_Delete; MEdge_F1.c 27-43. *)
Definition ME_Delete (t : topo) (e : ptr) (keep : bool) : result topo :=
  x <- gete t e ;;
  t <- (if e_live x then
          t <- (if e_v0 x =? NULL then Ok t else MV_Rem_Edge t (e_v0 x) e) ;;
          (if e_v1 x =? NULL then Ok t else MV_Rem_Edge t (e_v1 x) e)
        else Ok t) ;;
  if keep then Ok (pute t e (Some (mkE false (e_v0 x) (e_v1 x) (e_faces x)))) else Ok (pute t e None).

(** MEdge.c 71-93 ME_Restore; MEdge_F1.c 45-50. *)
Definition ME_Restore (t : topo) (e : ptr) : result topo :=
  x <- gete t e ;;
  let t := pute t e (Some (mkE true (e_v0 x) (e_v1 x) (e_faces x))) in
  t <- MV_Add_Edge t (e_v0 x) e ;;
  MV_Add_Edge t (e_v1 x) e.

(** MVertex_F1.c 148-156 MV_Edges, MEdge_F1.c 85-91 ME_Faces: NULL when empty. *)
Definition MV_Edges (t : topo) (v : ptr) : result (option (list ptr)) :=
  x <- getv t v ;; Ok (match v_edges x with [] => None | l => Some l end).
Definition ME_Faces (t : topo) (e : ptr) : result (option (list ptr)) :=
  x <- gete t e ;; Ok (match e_faces x with [] => None | l => Some l end).

(** MEdge.c 387-417: the first edge of v1 having v2 as an end; NULL if none. *)
Fixpoint common_go (t : topo) (v2 : ptr) (l : list ptr) : result ptr :=
  match l with
  | [] => Ok NULL
  | e :: l' => u <- ME_UsesVertex t e v2 ;; if u then Ok e else common_go t v2 l'
  end.
Definition MVs_CommonEdge (t : topo) (v1 v2 : ptr) : result ptr :=
  o <- MV_Edges t v1 ;; match o with None => Ok NULL | Some l => common_go t v2 l end.

(** ** Faces *)

(** MFace.c 21-41 MF_New; MFace_F1.c 22-30. *)
Definition MF_New (t : topo) : topo * ptr := (fresh (putf t (tnext t) (Some (mkF true 0 None NULL NULL))), tnext t).

(** MF_Edge_Funcs_F1F3.c 112-138; [dir] and [es] have n entries. *)
Definition MF_Set_Edges (t : topo) (f : ptr) (n : Z) (es : list ptr) (dirs : list Z) : result topo :=
  x <- getf t f ;;
  let t := putf t f (Some (set_fedges x 0 [])) in
  foldM (fun t i =>
    x <- getf t f ;;
    d <- rdl dirs i ;;
    e <- rdl es i ;;
    w <- ori64 (f_edirs x) d i ;;
    l <- nn (f_edges x) ;;
    ME_Add_Face (putf t f (Some (set_fedges x w (l ++ [e])))) e f) t (zrange 0 n).

(** MF_Edge_Funcs_F1F3.c 174-183: bits eindex+1..ne-1 move down by one. *)
Definition shift_down (w : Z) (from ne : Z) : result Z :=
  foldM (fun w k => w <- clr64 w k ;; d <- bit64 w (k + 1) ;; orl64 w d k) w (zrange from (ne - 1)).

(** MF_Edge_Funcs_F1F3.c 144-192. *)
Definition MF_Rem_Edge (t : topo) (f e : ptr) : result topo :=
  x <- getf t f ;;
  l <- nn (f_edges x) ;;
  match index_of e l with
  | None => Ok t
  | Some k =>
      w <- shift_down (f_edirs x) (Z.of_nat k) (ZL l) ;;
      ME_Rem_Face (putf t f (Some (set_fedges x w (delete_at k l)))) e f
  end.

(** MF_Edge_Funcs_F1F3.c 217-221: the edges and directions to be replaced. *)
Definition old_run (l : list ptr) (w : Z) (i nold : Z) : result (list (ptr * Z)) :=
  let ne := ZL l in
  mapM (fun j => if ne =? 0 then Undef else
                 let k := Z.rem (i + j) ne in
                 e <- lent l k ;; d <- bit64 w k ;; Ok (e, d)) (zrange 0 nold).

(** MF_Edge_Funcs_F1F3.c 240-252: directions of the new edges along the path
    from [lastv]. *)
Fixpoint new_dirs (t : topo) (lastv : ptr) (es : list ptr) : result (list (ptr * Z)) :=
  match es with
  | [] => Ok []
  | e :: es' =>
      v <- ME_Vertex t e 0 ;;
      let d := b2z (v =? lastv) in
      v' <- ME_Vertex t e d ;;
      r <- new_dirs t v' es' ;;
      Ok ((e, d) :: r)
  end.

(** MF_Edge_Funcs_F1F3.c 230-235: whether the new edges run against the face. *)
Definition rev_test (t : topo) (vold0 vold1 : ptr) (nus : list ptr) : result bool :=
  n0 <- rdl nus 0 ;;
  nl <- rdl nus (ZL nus - 1) ;;
  a <- ME_UsesVertex t n0 vold0 ;;
  b <- ME_UsesVertex t nl vold1 ;;
  if a && b then Ok false else
  c <- ME_UsesVertex t n0 vold1 ;;
  d <- ME_UsesVertex t nl vold0 ;;
  Ok (c && d).

(** MF_Edge_Funcs_F1F3.c 261-266. *)
Definition repl_com (l : list ptr) (w i ne : Z) (nd : list (ptr * Z)) : result (list ptr * Z) :=
  foldM (fun '(l, w) '(j, (e, d)) =>
    if ne =? 0 then Undef else
    let k := Z.rem (i + j) ne in
    if (k <? 0) || (ZL l <=? k) then Undef else
    w <- clr64 w k ;;
    w <- ori64 w d k ;;
    Ok (replace_at (Z.to_nat k) e l, w)) (l, w) (combine (zrange 0 (Z.of_nat (length nd))) nd).

(** MF_Edge_Funcs_F1F3.c 273-299: [nd] inserted from position [p] = i+ncom on. *)
Fixpoint ins_rest (l : list ptr) (w p ne : Z) (nd : list (ptr * Z)) : result (list ptr * Z) :=
  match nd with
  | [] => Ok (l, w)
  | (e, d) :: nd' =>
      if (p <? 0) || (ZL l <? p) then Undef else
      w <- foldM (fun w k => w <- clr64 w (k + 1) ;; b <- bit64 w k ;; ori64 w b (k + 1)) w (zdown (ne - 1) p) ;;
      w <- clr64 w p ;;
      w <- ori64 w d p ;;
      ins_rest (insert_at (Z.to_nat p) e l) w (p + 1) (ne + 1) nd'
  end.

(** MF_Edge_Funcs_F1F3.c 305-324. *)
Definition del_rest (l : list ptr) (w i ncom nold ne : Z) (olds : list ptr) : result (list ptr * Z) :=
  let l := fold_left (fun l e => remove1 e l) (skipn (Z.to_nat ncom) olds) l in
  '(w, _) <- foldM (fun '(w, ne) j =>
      if ne =? 0 then Undef else
      w <- foldM (fun w k => w <- clr64 w k ;; b <- bit64 w (k + 1) ;; ori64 w b k) w
             (zrange (Z.rem (i + ncom + j) ne) (ne - 1)) ;;
      Ok (w, ne - 1)) (w, ne) (zrange 0 (nold - ncom)) ;;
  Ok (l, w).

(** MF_Edge_Funcs_F1F3.c 201-339. *)
Definition MF_Replace_Edges_i (t : topo) (f : ptr) (nold i : Z) (nus : list ptr) : result topo :=
  x <- getf t f ;;
  l <- nn (f_edges x) ;;
  let w := f_edirs x in
  let ne := ZL l in
  let nnu := ZL nus in
  od <- old_run l w i nold ;;
  o0 <- nn (nth_error od 0) ;;
  ol <- nn (nth_error od (length od - 1)) ;;
  vold0 <- ME_Vertex t (fst o0) (lnot (snd o0)) ;;
  vold1 <- ME_Vertex t (fst ol) (snd ol) ;;
  rv <- rev_test t vold0 vold1 nus ;;
  nd <- new_dirs t vold0 (if rv then rev nus else nus) ;;
  let ncom := Z.min nold nnu in
  '(l, w) <- repl_com l w i ne (firstn (Z.to_nat ncom) nd) ;;
  '(l, w) <- (if nold <? nnu then ins_rest l w (i + ncom) ne (skipn (Z.to_nat ncom) nd)
              else del_rest l w i ncom nold ne (map fst od)) ;;
  let t := putf t f (Some (set_fedges x w l)) in
  t <- foldM (fun t e => ME_Rem_Face t e f) t (map fst od) ;;
  foldM (fun t e => ME_Add_Face t e f) t (map fst nd).

(** MF_Edge_Funcs_F1F3.c 346-412: position of the old edges in the face, smallest
    position, and the position after a break if the run wraps around. *)
Fixpoint find_break (idx : list Z) (ipos nold nxt : Z) (is : list Z) : result (option Z) :=
  match is with
  | [] => Ok None
  | i :: is' => k <- rdl idx (Z.rem (ipos + i) nold) ;;
                if k =? nxt then find_break idx ipos nold (nxt + 1) is' else Ok (Some k)
  end.
Definition MF_Replace_Edges (t : topo) (f : ptr) (olds : list ptr) (nus : list ptr) : result topo :=
  x <- getf t f ;;
  l <- nn (f_edges x) ;;
  let nold := ZL olds in
  let idx := map (fun e => index_of e l) olds in
  if existsb (fun o => match o with None => true | _ => false end) idx then Ok t else
  let idx := map (fun o => match o with Some k => Z.of_nat k | None => -1 end) idx in
  let '(imin, ipos, _) := fold_left (fun '(m, p, i) k => if k <? m then (k, i, i + 1) else (m, p, i + 1)) idx (10000, -1, 0) in
  b <- find_break idx ipos nold (imin + 1) (zrange 1 nold) ;;
  MF_Replace_Edges_i t f nold (match b with Some k => k | None => imin end) nus.

(** MF_Edge_Funcs_F1F3.c 415-422, 425-438. *)
Definition MF_Rev_EdgeDir_i (t : topo) (f : ptr) (i : Z) : result topo :=
  x <- getf t f ;;
  if (0 <=? i) && (i <? 64) then Ok (putf t f (Some (mkF (f_live x) (Z.lxor (f_edirs x) (Z.shiftl 1 i)) (f_edges x) (f_r0 x) (f_r1 x)))) else Undef.
Definition MF_Rev_EdgeDir (t : topo) (f e : ptr) : result topo :=
  x <- getf t f ;;
  l <- nn (f_edges x) ;;
  foldM (fun t i => e' <- lent l i ;; if e' =? e then MF_Rev_EdgeDir_i t f i else Ok t) t (zrange 0 (ZL l)).

(** MF_Edge_Funcs_F1F3.c 538-553, 555-566, 568-574; MF_Num_Edges, MF_Num_Vertices
    441-444 and MF_Vertex_Funcs_F1F3.c 177-180. *)
Definition MF_EdgeDir (t : topo) (f e : ptr) : result Z :=
  x <- getf t f ;; l <- nn (f_edges x) ;;
  match index_of e l with Some i => bit64 (f_edirs x) (Z.of_nat i) | None => Fatal end.
Definition MF_EdgeDir_i (t : topo) (f : ptr) (i : Z) : result Z := x <- getf t f ;; bit64 (f_edirs x) i.
Definition MF_UsesEdge (t : topo) (f e : ptr) : result bool :=
  x <- getf t f ;; l <- nn (f_edges x) ;; Ok (mem e l).
Definition MF_Num_Edges (t : topo) (f : ptr) : result Z := x <- getf t f ;; l <- nn (f_edges x) ;; Ok (ZL l).

(** The vertex at which edge number [k] of a face starts when the face is walked
    in direction [dir]: ME_Vertex(e,edir^dir), MF_Vertex_Funcs_F1F3.c 98-100. *)
Definition start_v (t : topo) (l : list ptr) (w dir k : Z) : result ptr :=
  e <- lent l k ;; d <- bit64 w k ;; ME_Vertex t e (Z.lxor d dir).

(** MF_Vertex_Funcs_F1F3.c 105-114, MF_Edge_Funcs_F1F3.c 468-477. *)
Fixpoint find_start (t : topo) (l : list ptr) (w dir v0 : Z) (ks : list Z) : result (option Z) :=
  match ks with
  | [] => Ok None
  | k :: ks' => v <- start_v t l w dir k ;; if v =? v0 then Ok (Some k) else find_start t l w dir v0 ks'
  end.

(** MF_Vertex_Funcs_F1F3.c 84-130.  List_Add of a NULL vertex is left to the
    sequence. *)
Definition MF_Vertices (t : topo) (f : ptr) (dir : Z) (v0 : ptr) : result (list ptr) :=
  x <- getf t f ;; l <- nn (f_edges x) ;;
  let ne := ZL l in
  let w := f_edirs x in
  if v0 =? NULL then
    mapM (fun i => start_v t l w dir (if dir =? 0 then ne - 1 - i else i)) (zrange 0 ne)
  else
    o <- find_start t l w dir v0 (zrange 0 ne) ;;
    match o with
    | None => Fatal
    | Some k => mapM (fun i => start_v t l w dir (if dir =? 0 then Z.rem (k + ne - i) ne else Z.rem (k + i) ne)) (zrange 0 ne)
    end.

(** MF_Edge_Funcs_F1F3.c 446-491. *)
Definition MF_Edges (t : topo) (f : ptr) (dir : Z) (v0 : ptr) : result (list ptr) :=
  x <- getf t f ;; l <- nn (f_edges x) ;;
  let n := ZL l in
  let w := f_edirs x in
  if v0 =? NULL then
    if dir =? 0 then mapM (fun i => lent l i) (zdown (n - 1) 0) else Ok l
  else
    o <- find_start t l w dir v0 (zrange 0 n) ;;
    match o with
    | None => Fatal
    | Some k => mapM (fun i => lent l (if dir =? 0 then Z.rem (k + n - i) n else Z.rem (k + i) n)) (zrange 0 n)
    end.

(** MF_Vertex_Funcs_F1F3.c 182-197: all edges but the last are checked. *)
Definition MF_UsesVertex (t : topo) (f v : ptr) : result bool :=
  x <- getf t f ;; l <- nn (f_edges x) ;;
  foldM (fun b e => if b : bool then Ok true else ME_UsesVertex t e v) false (firstn (length l - 1) l).

(** MF_Region_Funcs_F1F3.c 19-35, 48-50. *)
Definition MF_Regions (t : topo) (f : ptr) : result (list ptr) :=
  x <- getf t f ;;
  Ok ((if f_r0 x =? NULL then [] else [f_r0 x]) ++ (if f_r1 x =? NULL then [] else [f_r1 x])).
Definition MF_Region (t : topo) (f : ptr) (i : Z) : result ptr :=
  x <- getf t f ;; if i =? 0 then Ok (f_r0 x) else if i =? 1 then Ok (f_r1 x) else Undef.

(** ** Region face directions *)

(** MR_Face_Funcs_FNR3R4.c 582-594: word i/32, bit i%32. *)
Definition fd_get (w : list Z) (i : Z) : result Z :=
  if i <? 0 then Undef else x <- rdl w (i / 32) ;; Ok (Z.land (Z.shiftr x (i mod 32)) 1).
(** fdirs[j] & ~(1<<k) and fdirs[j] | (d<<k), e.g. 545-546. *)
Definition fd_clr (w : list Z) (i : Z) : result (list Z) :=
  if i <? 0 then Undef else x <- rdl w (i / 32) ;; wrl w (i / 32) (Z.ldiff x (Z.shiftl 1 (i mod 32))).
Definition fd_or (w : list Z) (i d : Z) : result (list Z) :=
  if i <? 0 then Undef else x <- rdl w (i / 32) ;; s <- shl_int d (i mod 32) ;; wrl w (i / 32) (Z.lor x (u32 s)).

(** MR_Face_Funcs_FNR3R4.c 560-580: -1 when the face is not found. *)
Definition MR_FaceDir (t : topo) (r f : ptr) : result Z :=
  x <- getr t r ;; l <- nn (r_faces x) ;;
  match index_of f l with Some i => fd_get (r_fdirs x) (Z.of_nat i) | None => Ok (-1) end.
Definition MR_FaceDir_i (t : topo) (r : ptr) (i : Z) : result Z := x <- getr t r ;; fd_get (r_fdirs x) i.

(** MF_Region_Funcs_F1F3.c 56-70, 72-84. *)
Definition MF_Add_Region (t : topo) (f r : ptr) (side : Z) : result topo :=
  x <- getf t f ;;
  s <- (if side =? -1 then d <- MR_FaceDir t r f ;; Ok (lnot d) else Ok side) ;;
  if s =? 0 then Ok (putf t f (Some (set_fregs x r (f_r1 x))))
  else if s =? 1 then Ok (putf t f (Some (set_fregs x (f_r0 x) r))) else Undef.
Definition MF_Rem_Region (t : topo) (f r : ptr) : result topo :=
  x <- getf t f ;;
  if f_r0 x =? r then Ok (putf t f (Some (set_fregs x NULL (f_r1 x))))
  else if f_r1 x =? r then Ok (putf t f (Some (set_fregs x (f_r0 x) NULL))) else Ok t.

(** MFace.c 43-68 MF_Delete; MFace_F1.c 32-58. *)
Definition MF_Delete (t : topo) (f : ptr) (keep : bool) : result topo :=
  x <- getf t f ;;
  t <- (if f_live x then match f_edges x with
                         | Some l => foldM (fun t e => ME_Rem_Face t e f) t l
                         | None => Ok t
                         end else Ok t) ;;
  if keep then Ok (putf t f (Some (mkF false (f_edirs x) (f_edges x) (f_r0 x) (f_r1 x)))) else Ok (putf t f None).

(** MFace.c 70-92 MF_Restore; MFace_F1.c 60-74. *)
Definition MF_Restore (t : topo) (f : ptr) : result topo :=
  x <- getf t f ;;
  let t := putf t f (Some (mkF true (f_edirs x) (f_edges x) (f_r0 x) (f_r1 x))) in
  l <- nn (f_edges x) ;;
  foldM (fun t e => ME_Add_Face t e f) t l.

(** ** Regions *)

(** include/MSTK_types.h 68 MRType: RUNKNOWN 0, TET 1, PYRAMID 2, PRISM 3, HEX 4, POLYHED 5. *)
Definition RUNKNOWN := 0.  Definition TET := 1.  Definition PYRAMID := 2.
Definition PRISM := 3.  Definition HEX := 4.  Definition POLYHED := 5.

(** MRegion.c 24-45 MR_New; MRegion_FNR3R4.c 20-28. *)
Definition MR_New (t : topo) : topo * ptr := (fresh (putr t (tnext t) (Some (mkR true [] None RUNKNOWN))), tnext t).

(** MR_Face_Funcs_FNR3R4.c 766-833. *)
Definition MR_Update_ElementType (t : topo) (r : ptr) : result topo :=
  x <- getr t r ;;
  l <- nn (r_faces x) ;;
  ty <- (match length l with
         | 0%nat | 1%nat | 2%nat | 3%nat => Ok RUNKNOWN
         | 4%nat =>
             ns <- mapM (MF_Num_Edges t) l ;;
             Ok (if forallb (fun n => n =? 3) ns then TET else POLYHED)
         | 5%nat =>
             ns <- mapM (MF_Num_Edges t) l ;;
             let ntris := length (filter (fun n => n =? 3) ns) in
             let nquads := length (filter (fun n => n =? 4) ns) in
             Ok (if (nquads =? 3)%nat && (ntris =? 2)%nat then PRISM
                 else if (nquads =? 1)%nat && (ntris =? 4)%nat then PYRAMID else POLYHED)
         | 6%nat =>
             ns <- mapM (MF_Num_Edges t) l ;;
             Ok (if forallb (fun n => n =? 4) ns then HEX else POLYHED)
         | _ => Ok POLYHED
         end) ;;
  Ok (putr t r (Some (set_rtype x ty))).

(** MR_Face_Funcs_FNR3R4.c 71-103. *)
Definition MR_Set_Faces (t : topo) (r : ptr) (nf : Z) (fs : list ptr) (dirs : list Z) : result topo :=
  x <- getr t r ;;
  if nf <? 0 then Undef else
  let t := putr t r (Some (set_rfaces x (repeat 0 (Z.to_nat (1 + nf / 32))) [])) in
  t <- foldM (fun t i =>
    x <- getr t r ;;
    d <- rdl dirs i ;;
    f <- rdl fs i ;;
    w <- fd_or (r_fdirs x) i d ;;
    l <- nn (r_faces x) ;;
    MF_Add_Region (putr t r (Some (set_rfaces x w (l ++ [f])))) f r (lnot d)) t (zrange 0 nf) ;;
  MR_Update_ElementType t r.

(** MR_Face_Funcs_FNR3R4.c 532-557. *)
Definition MR_Set_FaceDir_i (t : topo) (r : ptr) (i dir : Z) : result topo :=
  x <- getr t r ;;
  if 512 <=? i then Ok t else
  w <- fd_clr (r_fdirs x) i ;;
  w <- fd_or w i dir ;;
  l <- nn (r_faces x) ;;
  let t := putr t r (Some (set_rfaces x w l)) in
  f <- lent l i ;;
  rs <- MF_Regions t f ;;
  t <- (if mem r rs then MF_Rem_Region t f r else Ok t) ;;
  MF_Add_Region t f r (lnot dir).

(** MR_Face_Funcs_FNR3R4.c 513-525. *)
Definition MR_Set_FaceDir (t : topo) (r f : ptr) (dir : Z) : result topo :=
  x <- getr t r ;; l <- nn (r_faces x) ;;
  match index_of f l with Some i => MR_Set_FaceDir_i t r (Z.of_nat i) dir | None => Ok t end.

(** MR_Face_Funcs_FNR3R4.c 473-510, 458-471. *)
Definition MR_Rev_FaceDir_i (t : topo) (r : ptr) (i : Z) : result topo :=
  x <- getr t r ;;
  l <- nn (r_faces x) ;;
  if i <? 0 then Undef else
  y <- rdl (r_fdirs x) (i / 32) ;;
  w <- wrl (r_fdirs x) (i / 32) (Z.lxor y (Z.shiftl 1 (i mod 32))) ;;
  let t := putr t r (Some (set_rfaces x w l)) in
  dir <- fd_get w i ;;
  f <- lent l i ;;
  rs <- MF_Regions t f ;;
  let oppr := match rs with
              | [a; b] => if r =? a then b else a
              | _ => NULL
              end in
  t <- MF_Rem_Region t f r ;;
  t <- (if oppr =? NULL then Ok t else MF_Rem_Region t f oppr) ;;
  t <- MF_Add_Region t f r (lnot dir) ;;
  if oppr =? NULL then Ok t
  else t <- MF_Add_Region t f oppr dir ;; MR_Set_FaceDir t oppr f (lnot dir).
Definition MR_Rev_FaceDir (t : topo) (r f : ptr) : result topo :=
  x <- getr t r ;; l <- nn (r_faces x) ;;
  match index_of f l with Some i => MR_Rev_FaceDir_i t r (Z.of_nat i) | None => Ok t end.

(** MR_Face_Funcs_FNR3R4.c 628-645: direction bits findex+1..nf-1 move down by one. *)
Definition fd_shift (w : list Z) (from nf : Z) : result (list Z) :=
  foldM (fun w i => w <- fd_clr w i ;; d <- fd_get w (i + 1) ;; fd_or w i d) w (zrange from (nf - 1)).

(** MR_Face_Funcs_FNR3R4.c 601-654. *)
Definition MR_Rem_Face (t : topo) (r f : ptr) : result topo :=
  x <- getr t r ;;
  l <- nn (r_faces x) ;;
  match index_of f l with
  | None => Ok t
  | Some k =>
      w <- fd_shift (r_fdirs x) (Z.of_nat k) (ZL l) ;;
      MF_Rem_Region (putr t r (Some (set_rfaces x w (delete_at k l)))) f r
  end.

(** MR_Face_Funcs_FNR3R4.c 735-763. *)
Definition MR_Replace_Face_i (t : topo) (r : ptr) (i : Z) (nuf : ptr) (nudir : Z) : result topo :=
  x <- getr t r ;;
  l <- nn (r_faces x) ;;
  f <- lent l i ;;
  w <- fd_clr (r_fdirs x) i ;;
  w <- fd_or w i nudir ;;
  if ZL l <=? i then Undef else
  let t := putr t r (Some (set_rfaces x w (replace_at (Z.to_nat i) nuf l))) in
  t <- MF_Rem_Region t f r ;;
  t <- MF_Add_Region t nuf r (lnot nudir) ;;
  MR_Update_ElementType t r.

(** MR_Face_Funcs_FNR3R4.c 657-733.  The inner loop over [i] goes on after a
    match, with the list read afresh each time. *)
Definition repl_old (t : topo) (r f : ptr) (nf : Z) (nus : list ptr) (nud : list Z) (kf : Z) : result (topo * Z) :=
  foldM (fun '(t, kf) i =>
    x <- getr t r ;;
    l <- nn (r_faces x) ;;
    g <- lent l i ;;
    if g =? f then
      '(t, kf) <- (if kf <? ZL nus then
          nu <- rdl nus kf ;;
          d <- rdl nud kf ;;
          let t := putr t r (Some (set_rfaces x (r_fdirs x) (replace_at (Z.to_nat i) nu l))) in
          t <- MR_Set_FaceDir_i t r i d ;;
          t <- MF_Add_Region t nu r (lnot d) ;;
          Ok (t, kf + 1)
        else
          t <- foldM (fun t ii =>
                 a <- MR_FaceDir_i t r ii ;;
                 b <- MR_FaceDir_i t r (ii + 1) ;;
                 if a =? b then Ok t else MR_Set_FaceDir_i t r ii b) t (zrange i (nf - 1)) ;;
          x <- getr t r ;;
          l <- nn (r_faces x) ;;
          Ok (putr t r (Some (set_rfaces x (r_fdirs x) (delete_at (Z.to_nat i) l))), kf)) ;;
      t <- MF_Rem_Region t f r ;;
      Ok (t, kf)
    else Ok (t, kf)) (t, kf) (zrange 0 nf).

Definition MR_Replace_Faces (t : topo) (r : ptr) (olds nus : list ptr) (nud : list Z) : result topo :=
  x <- getr t r ;;
  l <- nn (r_faces x) ;;
  let nf := ZL l in
  let nf_final := nf - ZL olds + ZL nus in
  if nf_final <? 0 then Undef else
  let nint_current := 1 + nf / 32 in
  let nint_final := 1 + nf_final / 32 in
  let w := if nint_current <? nint_final then
             let newsize := if 2 * nint_current <? nint_final then 2 * nint_final else 2 * nint_current in
             firstn (Z.to_nat nint_current) (r_fdirs x) ++ repeat 0 (Z.to_nat (newsize - nint_current))
           else r_fdirs x in
  let t := putr t r (Some (set_rfaces x w l)) in
  '(t, kf) <- foldM (fun '(t, kf) f => repl_old t r f nf nus nud kf) (t, 0) olds ;;
  t <- foldM (fun t jf =>
         x <- getr t r ;;
         l <- nn (r_faces x) ;;
         nu <- rdl nus jf ;;
         d <- rdl nud jf ;;
         t <- MR_Set_FaceDir (putr t r (Some (set_rfaces x (r_fdirs x) (l ++ [nu])))) r nu d ;;
         MF_Add_Region t nu r (lnot d)) t (zrange kf (ZL nus)) ;;
  MR_Update_ElementType t r.

(** MRegion.c 47-72 MR_Delete; MRegion_FNR3R4.c 30-56. *)
Definition MR_Delete (t : topo) (r : ptr) (keep : bool) : result topo :=
  x <- getr t r ;;
  t <- (if r_live x then match r_faces x with
                         | Some l => foldM (fun t f => MF_Rem_Region t f r) t l
                         | None => Ok t
                         end else Ok t) ;;
  if keep then Ok (putr t r (Some (mkR false (r_fdirs x) (r_faces x) (r_type x)))) else Ok (putr t r None).

(** MRegion.c 74-96 MR_Restore; MRegion_FNR3R4.c 58-75. *)
Definition MR_Restore (t : topo) (r : ptr) : result topo :=
  x <- getr t r ;;
  let t := putr t r (Some (mkR true (r_fdirs x) (r_faces x) (r_type x))) in
  l <- nn (r_faces x) ;;
  foldM (fun t i => f <- lent l i ;; d <- fd_get (r_fdirs x) i ;; MF_Add_Region t f r (lnot d)) t (zrange 0 (ZL l)).

(** ** Upward and sideways queries *)

(** MVertex_F1.c 103-124. *)
Definition MV_AdjVertices (t : topo) (v : ptr) : result (list ptr) :=
  x <- getv t v ;; mapM (fun e => ME_OppVertex t e v) (v_edges x).

(** MVertex_F1.c 172-214: NULL when there is none. *)
Definition MV_Faces (t : topo) (v : ptr) : result (option (list ptr)) :=
  x <- getv t v ;;
  l <- foldM (fun acc e =>
         o <- ME_Faces t e ;;
         Ok (match o with None => acc | Some fs => fold_left chkn fs acc end)) [] (v_edges x) ;;
  Ok (match l with [] => None | _ => Some l end).

(** Both regions of a face added unless NULL or there already:
    MVertex_F1.c 256-266, MEdge_F1.c 119-129. *)
Definition add_fregs (t : topo) (acc : list ptr) (f : ptr) : result (list ptr) :=
  r0 <- MF_Region t f 0 ;;
  let acc := if r0 =? NULL then acc else chkn acc r0 in
  r1 <- MF_Region t f 1 ;;
  Ok (if r1 =? NULL then acc else chkn acc r1).

(** MVertex_F1.c 229-277. *)
Definition MV_Regions (t : topo) (v : ptr) : result (option (list ptr)) :=
  x <- getv t v ;;
  l <- foldM (fun acc e =>
         o <- ME_Faces t e ;;
         match o with None => Ok acc | Some fs => foldM (add_fregs t) acc fs end) [] (v_edges x) ;;
  Ok (match l with [] => None | _ => Some l end).

(** MEdge_F1.c 104-138. *)
Definition ME_Regions (t : topo) (e : ptr) : result (option (list ptr)) :=
  x <- gete t e ;;
  l <- foldM (add_fregs t) [] (e_faces x) ;;
  Ok (match l with [] => None | _ => Some l end).

(** MFace_F1.c 202-237: the list of faces of an edge must not be NULL. *)
Definition MF_AdjFaces (t : topo) (f : ptr) : result (option (list ptr)) :=
  x <- getf t f ;;
  l <- nn (f_edges x) ;;
  a <- foldM (fun acc e =>
         o <- ME_Faces t e ;;
         fs <- nn o ;;
         Ok (acc ++ filter (fun g => negb (g =? f)) fs)) [] l ;;
  Ok (match a with [] => None | _ => Some a end).

(** MR_Face_Funcs_FNR3R4.c 380-384, 398-424, 836-841. *)
Definition MR_Faces (t : topo) (r : ptr) : result (list ptr) := x <- getr t r ;; nn (r_faces x).
Definition MR_AdjRegions (t : topo) (r : ptr) : result (list ptr) :=
  x <- getr t r ;;
  l <- nn (r_faces x) ;;
  foldM (fun acc f =>
    a <- MF_Region t f 0 ;;
    if a =? NULL then Ok acc
    else if a =? r then b <- MF_Region t f 1 ;; Ok (if b =? NULL then acc else acc ++ [b])
    else Ok (acc ++ [a])) [] l.
Definition MR_UsesFace (t : topo) (r f : ptr) : result bool := x <- getr t r ;; l <- nn (r_faces x) ;; Ok (mem f l).

(** MR_Edge_Funcs_FN.c 366-389: general polyhedra (the first face, then all but
    the last one). *)
Definition poly_collect (q : ptr -> Z -> result (list ptr)) (l : list ptr) (fdir : Z) : result (list ptr) :=
  f0 <- lent l 0 ;;
  first <- q f0 (lnot fdir) ;;
  foldM (fun acc i => f <- lent l i ;; es <- q f 1 ;; Ok (fold_left chkn es acc)) first (zrange 1 (ZL l - 1)).
Definition MR_Edges_poly (t : topo) (r : ptr) : result (list ptr) :=
  x <- getr t r ;;
  l <- nn (r_faces x) ;;
  d <- fd_get (r_fdirs x) 0 ;;
  poly_collect (fun f dir => MF_Edges t f dir NULL) l d.

(** MR_Vertex_Funcs_FNR3R4.c 232-257. *)
Definition MR_Vertices_poly (t : topo) (r : ptr) : result (list ptr) :=
  x <- getr t r ;;
  l <- nn (r_faces x) ;;
  d <- fd_get (r_fdirs x) 0 ;;
  poly_collect (fun f dir => MF_Vertices t f dir NULL) l d.

(** MR_Edge_Funcs_FN.c 402-416, MR_Vertex_Funcs_FNR3R4.c 286-300. *)
Definition MR_UsesEdge (t : topo) (r e : ptr) : result bool :=
  x <- getr t r ;; l <- nn (r_faces x) ;;
  foldM (fun b f => if b : bool then Ok true else MF_UsesEdge t f e) false l.
Definition MR_UsesVertex (t : topo) (r v : ptr) : result bool :=
  x <- getr t r ;; l <- nn (r_faces x) ;;
  foldM (fun b f => if b : bool then Ok true else MF_UsesVertex t f v) false l.
