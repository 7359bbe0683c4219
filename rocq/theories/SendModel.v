(** Sending a whole mesh to another processor, full representation F1:
    /repo/src/par/MESH_SendMesh.c 32-228, MESH_RecvMesh.c 30-99 and the functions
    they call. *)
From Coq Require Import ZArith Bool Ascii String Floats.SpecFloat List.
From Verif Require Import Base ListSpec AttModel TopoModel ParModel SortModel FileModel.
Import ListNotations.
Open Scope Z_scope.

(** ** The mesh *)
(** include/MEntity.h 47-52: ptype, parbdry, masterparid, globalid. *)
Record pinfo := mkPI { pi_ptype : Z; pi_bdry : bool; pi_master : Z; pi_gid : Z }.
(** include/MSet.h: name, entdim, entlist. *)
Record mset := mkSet { ms_name : text; ms_ent : Z; ms_list : list ptr }.
(** A mesh as in FileModel.v, with the parallel data of its entities and its sets. *)
Record smesh := mkSM { sm_m : fmesh; sm_p : ptr -> pinfo; sm_sets : list mset }.
Definition sm_t (s : smesh) : topo := fm_t (sm_m s).

(** ** Messages.  All messages between the two processors have the same tag, so
    they are received in the order in which they are sent.  The names go in blocks
    of 256 characters, of which only the string is used. *)
Inductive msg := MInts (l : list Z) | MDbls (l : list spec_float) | MNames (l : list text).
(** MPI_Recv, or MPI_Irecv and MPI_Wait, with room for [cap] items: a longer message
    is an error, reported as fatal; a message of another type is wrong, and with no
    message the function never returns (Undef). *)
Definition recv_ints (cap : Z) (q : list msg) : result (list Z * list msg) :=
  match q with MInts l :: q => if Z.of_nat (length l) <=? cap then Ok (l, q) else Fatal | _ => Undef end.
Definition recv_dbls (cap : Z) (q : list msg) : result (list spec_float * list msg) :=
  match q with MDbls l :: q => if Z.of_nat (length l) <=? cap then Ok (l, q) else Fatal | _ => Undef end.
Definition recv_names (cap : Z) (q : list msg) : result (list text * list msg) :=
  match q with MNames l :: q => if Z.of_nat (length l) <=? cap then Ok (l, q) else Fatal | _ => Undef end.
(** Reading a buffer where nothing was received, or outside of it: Undef. *)
Definition rda {A} (l : list A) (i : Z) : result A :=
  if i <? 0 then Undef else match nth_error l (Z.to_nat i) with Some x => Ok x | None => Undef end.
(** A loop that fills a buffer. *)
Definition packM {A B} (g : A -> result (list B)) (l : list A) : result (list B) :=
  foldM (fun out x => s <- g x ;; Ok (out ++ s)) [] l.

(** ** Sending *)
(** MESH_Send_Vertices.c 68-70, MESH_Send_NonVertexEntities.c 156-158, 187-189,
    218-220 (regions, [bd] = false: without the boundary flag). *)
Definition shift3 (x : Z) : result Z := ck32 (Z.shiftl x 3).
Definition s_aux (s : smesh) (bd : bool) (p : ptr) : result (list Z) :=
  let '(gdim, gid) := fm_c (sm_m s) p in
  let i := sm_p s p in
  g <- shift3 gid ;;
  h <- shift3 (pi_master i) ;;
  let h := if bd then Z.lor h (Z.shiftl (b2z (pi_bdry i)) 2) else h in
  Ok [Z.lor g gdim; Z.lor h (pi_ptype i); pi_gid i].
(** MESH_Send_MetaData.c 60-80; F1 = 0. *)
Definition s_meta (s : smesh) : msg :=
  let m := sm_m s in MInts [0; ZL (fm_v m); ZL (fm_e m); ZL (fm_f m); ZL (fm_r m)].
(** MESH_Send_Vertices.c 57-74. *)
Definition s_vertices (s : smesh) : result msg :=
  _ <- ck32 (3 * ZL (fm_v (sm_m s))) ;;
  l <- packM (fun v => _ <- getv (sm_t s) v ;; s_aux s true v) (fm_v (sm_m s)) ;;
  Ok (MInts l).
(** MESH_Send_VertexCoords.c 57-67. *)
Definition s_coords (s : smesh) : result msg :=
  l <- packM (fun v => _ <- getv (sm_t s) v ;; let '(x, y, z) := fm_x (sm_m s) v in Ok [x; y; z]) (fm_v (sm_m s)) ;;
  Ok (MDbls l).
(** MESH_Send_NonVertexEntities.c 152-161. *)
Definition s_edge (s : smesh) (e : ptr) : result (list Z) :=
  v0 <- ME_Vertex (sm_t s) e 0 ;;
  _ <- getv (sm_t s) v0 ;;
  v1 <- ME_Vertex (sm_t s) e 1 ;;
  _ <- getv (sm_t s) v1 ;;
  l <- s_aux s true e ;;
  Ok (fm_id (sm_m s) v0 :: fm_id (sm_m s) v1 :: l).
(** 177-194. *)
Definition s_face (s : smesh) (f : ptr) : result (list Z) :=
  es <- MF_Edges (sm_t s) f 1 NULL ;;
  l <- mapM (fun j =>
         d <- MF_EdgeDir_i (sm_t s) f j ;;
         e <- lent es j ;;
         _ <- gete (sm_t s) e ;;
         Ok ((if d =? 0 then -1 else 1) * fm_id (sm_m s) e)) (zrange 0 (ZL es)) ;;
  x <- s_aux s true f ;;
  Ok (ZL es :: l ++ x).
(** 209-224. *)
Definition s_region (s : smesh) (r : ptr) : result (list Z) :=
  fs <- MR_Faces (sm_t s) r ;;
  l <- mapM (fun j =>
         d <- MR_FaceDir_i (sm_t s) r j ;;
         f <- lent fs j ;;
         _ <- getf (sm_t s) f ;;
         Ok ((if d =? 1 then 1 else -1) * fm_id (sm_m s) f)) (zrange 0 (ZL fs)) ;;
  x <- s_aux s false r ;;
  Ok (ZL fs :: l ++ x).
(** 76-261, without the sizes of the buffers (117-142), which are large enough. *)
Definition s_nonvertex (s : smesh) : result (list msg) :=
  le <- packM (s_edge s) (fm_e (sm_m s)) ;;
  lf <- packM (s_face s) (fm_f (sm_m s)) ;;
  lr <- packM (s_region s) (fm_r (sm_m s)) ;;
  Ok (MInts le :: MInts lf :: if ZL (fm_r (sm_m s)) =? 0 then [] else [MInts lr]).

(** MAttType, include/MSTK_types.h 73. *)
Definition type_code (t : atype) : Z := match t with TINT => 0 | TDOUBLE => 1 | TPOINTER => 2 | TVECTOR => 3 | TTENSOR => 4 end.
(** MESH_Send_AttributeMetaData.c 69-115; a name goes through char attname[256]. *)
Definition short_name (n : text) : bool := Z.of_nat (length n) <=? 255.
Definition s_attmeta (s : smesh) : result (list msg) :=
  let atts := fm_atts (sm_m s) in
  if negb (forallb (fun a => short_name (at_name a)) atts) then Undef else
  let send := filter (fun a => negb (is_pointer (at_type a))) atts in
  info <- mapM (fun a => c <- ck32 (Z.shiftl (at_ncomp a) 6) ;; Ok (Z.lor (Z.lor c (Z.shiftl (at_ent a) 3)) (type_code (at_type a)))) send ;;
  let n := Z.of_nat (length send) in
  Ok (MInts [n] :: if n =? 0 then [] else [MInts info; MNames (map at_name send)]).
(** MESH_Send_Attribute.c 68-87, MESH_Recv_Attribute.c 57-81. *)
Definition att_ents (m : fmesh) (ent : Z) : option (list ptr) :=
  if ent =? MVERTEX then Some (fm_v m) else if ent =? MEDGE then Some (fm_e m)
  else if ent =? MFACE then Some (fm_f m) else if ent =? MREGION then Some (fm_r m) else None.
(** MEnt_Get_AttVal, MEntity.c 409-446, MAttrib.c 182-201: 0 without a value. *)
Definition get_int (a : attr) (p : ptr) : result Z :=
  match at_val a p with None => Ok 0 | Some (AInt i) => Ok i | _ => Undef end.
Definition get_dbl (a : attr) (p : ptr) : result spec_float :=
  match at_type a, at_val a p with
  | TDOUBLE, Some (ADbl x) => Ok x
  | TDOUBLE, Some _ => Undef
  | _, _ => Ok (S754_zero false)
  end.
(** 125-135: the components; rval_arr[k] of NULL without a value. *)
Definition get_vec (a : attr) (p : ptr) : result (list spec_float) :=
  match at_val a p with
  | Some (AVec l) => mapM (fun k => rda l k) (zrange 0 (at_ncomp a))
  | _ => Undef
  end.
(** MESH_Send_Attribute.c 31-176.  INT and DOUBLE have one component (MAttrib.c 70-73). *)
Definition s_attr (s : smesh) (a : attr) : result (list msg) :=
  if is_pointer (at_type a) then Ok [] else
  match att_ents (sm_m s) (at_ent a) with
  | None => Ok []
  | Some l =>
      _ <- ck32 (ZL l * at_ncomp a) ;;
      let gids := MInts (map (fun p => pi_gid (sm_p s p)) l) in
      match at_type a with
      | TINT => if negb (at_ncomp a =? 1) then Undef else v <- mapM (get_int a) l ;; Ok [gids; MInts v]
      | _ => if at_ncomp a <? 1 then Undef
             else if at_ncomp a =? 1 then v <- mapM (get_dbl a) l ;; Ok [gids; MDbls v]
             else v <- packM (get_vec a) l ;; Ok [gids; MDbls v]
      end
  end.
(** MESH_Send_MSetMetaData.c 66-106. *)
Definition s_setmeta (s : smesh) : result (list msg) :=
  let n := Z.of_nat (length (sm_sets s)) in
  if negb (forallb (fun x => short_name (ms_name x)) (sm_sets s)) then Undef else
  Ok (MInts [n] :: if n =? 0 then [] else [MInts (map ms_ent (sm_sets s)); MNames (map ms_name (sm_sets s))]).
(** MEnt_Dim, MEntity.c 95-97. *)
Definition ent_dim (t : topo) (p : ptr) : result Z :=
  match tvs t p, tes t p, tfs t p, trs t p with
  | Some x, _, _, _ => Ok (if v_live x then 0 else -1)
  | _, Some x, _, _ => Ok (if e_live x then 1 else -1)
  | _, _, Some x, _ => Ok (if f_live x then 2 else -1)
  | _, _, _, Some x => Ok (if r_live x then 3 else -1)
  | _, _, _, _ => Undef
  end.
(** MESH_Send_MSet.c 50-97.  For an empty set the buffer of the pending MPI_Isend is
    freed (61-64): what is sent is undefined. *)
Definition s_set (s : smesh) (x : mset) : result (list msg) :=
  let n := ZL (ms_list x) in
  if n =? 0 then Undef else
  _ <- ck32 (2 * n) ;;
  l <- packM (fun p => d <- ent_dim (sm_t s) p ;; Ok [d; pi_gid (sm_p s p)]) (ms_list x) ;;
  Ok [MInts [n]; MInts l].

(** MESH_SendMesh.c 32-228: the messages.  After each part MPI_Waitall waits for all
    requests, so the request array is always large enough. *)
Definition MESH_SendMesh (s : smesh) (with_attr : bool) : result (list msg) :=
  mv <- s_vertices s ;;
  mx <- s_coords s ;;
  mn <- s_nonvertex s ;;
  ma <- (if with_attr then
           m1 <- s_attmeta s ;;
           m2 <- packM (s_attr s) (fm_atts (sm_m s)) ;;
           m3 <- s_setmeta s ;;
           m4 <- packM (s_set s) (sm_sets s) ;;
           Ok (m1 ++ m2 ++ m3 ++ m4)
         else Ok []) ;;
  Ok (s_meta s :: mv :: mx :: mn ++ ma).

(** ** Receiving, into a new mesh *)
Definition empty_smesh : smesh := mkSM empty_fmesh (fun _ => mkPI 0 false 0 0) [].
Definition with_m (s : smesh) (m : fmesh) : smesh := mkSM m (sm_p s) (sm_sets s).
Definition set_id (m : fmesh) (p : ptr) (i : Z) : fmesh :=
  mkFM (fm_t m) (fm_c m) (fm_x m) (zupd (fm_id m) p i) (fm_v m) (fm_e m) (fm_f m) (fm_r m) (fm_atts m).
(** MV_New, ... in a mesh from which nothing was removed: MESH_Add_Vertex, ...
    (Mesh.c 845-909) gives the next ID. *)
Definition add_v (m : fmesh) : fmesh * ptr := let '(m', p) := new_v m in (set_id m' p (ZL (fm_v m) + 1), p).
Definition add_e (m : fmesh) : fmesh * ptr := let '(m', p) := new_e m in (set_id m' p (ZL (fm_e m) + 1), p).
Definition add_f (m : fmesh) : fmesh * ptr := let '(m', p) := new_f m in (set_id m' p (ZL (fm_f m) + 1), p).
Definition add_r (m : fmesh) : fmesh * ptr := let '(m', p) := new_r m in (set_id m' p (ZL (fm_r m) + 1), p).
Definition add_many (add : fmesh -> fmesh * ptr) (m : fmesh) (n : Z) : fmesh * list ptr :=
  fold_left (fun st (_ : Z) => let '(m, l) := st in let '(m, p) := add m in (m, l ++ [p])) (zrange 0 n) (m, []).
(** MESH_Recv_Vertices.c 64-77, MESH_Recv_NonVertexEntities.c 158-171, 201-213,
    240-250; the widths of the fields are in include/MEntity.h 42-50. *)
Definition r_aux (s : smesh) (bd : bool) (p : ptr) (x y g : Z) : smesh :=
  let m := set_info (sm_m s) p (Z.land x 7, Z.shiftr x 3) (fm_id (sm_m s) p) in
  let i := mkPI (Z.land y 3 mod 2 ^ 2)
                (if bd && negb (Z.land y 4 =? 0) then true else pi_bdry (sm_p s p))
                (Z.shiftr y 3 mod 2 ^ 29) g in
  mkSM m (zupd (sm_p s) p i) (sm_sets s).
(** MESH_Recv_Vertices.c 29-82. *)
Definition r_vertices (s : smesh) (nv : Z) (q : list msg) : result (smesh * list msg) :=
  n <- ck32 (3 * nv) ;;
  ' (l, q) <- recv_ints n q ;;
  let s := with_m s (fst (add_many add_v (sm_m s) nv)) in
  s <- foldM (fun s i =>
         v <- lent (fm_v (sm_m s)) i ;;
         x <- rda l (3 * i) ;;
         y <- rda l (3 * i + 1) ;;
         g <- rda l (3 * i + 2) ;;
         _ <- getv (sm_t s) v ;;
         Ok (r_aux s true v x y g)) s (zrange 0 nv) ;;
  Ok (s, q).
(** MESH_Recv_VertexCoords.c 29-59. *)
Definition r_coords (s : smesh) (nv : Z) (q : list msg) : result (smesh * list msg) :=
  ' (l, q) <- recv_dbls (3 * nv) q ;;
  s <- foldM (fun s i =>
         v <- lent (fm_v (sm_m s)) i ;;
         x <- rda l (3 * i) ;;
         y <- rda l (3 * i + 1) ;;
         z <- rda l (3 * i + 2) ;;
         _ <- getv (sm_t s) v ;;
         Ok (with_m s (set_x (sm_m s) v (x, y, z)))) s (zrange 0 nv) ;;
  Ok (s, q).
(** MESH_Recv_NonVertexEntities.c 154-180. *)
Definition r_sedge (l : list Z) (es : list ptr) (st : smesh * Z) (i : Z) : result (smesh * Z) :=
  let '(s, k) := st in
  e <- rda es i ;;
  x <- rda l (k + 2) ;;
  y <- rda l (k + 3) ;;
  g <- rda l (k + 4) ;;
  let s := r_aux s true e x y g in
  i0 <- rda l k ;;
  i1 <- rda l (k + 1) ;;
  t <- ME_Set_Vertex (sm_t s) e 0 (from_id (sm_m s) (fm_v (sm_m s)) i0) ;;
  t <- ME_Set_Vertex t e 1 (from_id (sm_m s) (fm_v (sm_m s)) i1) ;;
  Ok (with_m s (set_ft (sm_m s) t), k + 5).
(** 195-198, 235-238: the entities and directions; [room]: size of the arrays. *)
Definition r_signed (l : list Z) (ps : list ptr) (room k n : Z) : result (list ptr * list Z) :=
  foldM (fun st j =>
    let '(xs, ds) := st in
    if room <=? j then Undef else
    i <- rda l (k + j + 1) ;;
    p <- rda ps (Z.abs i - 1) ;;
    Ok (xs ++ [p], ds ++ [if 0 <? i then 1 else 0])) ([], []) (zrange 0 n).
(** include/MSTK_defines.h 38, 40. *)
Definition MAXPV2 := 30.
Definition MAXPF3 := 512.
(** 192-220. *)
Definition r_sface (l : list Z) (es fs : list ptr) (st : smesh * Z) (i : Z) : result (smesh * Z) :=
  let '(s, k) := st in
  f <- rda fs i ;;
  n <- rda l k ;;
  ' (xs, ds) <- r_signed l es MAXPV2 k n ;;
  x <- rda l (k + n + 1) ;;
  y <- rda l (k + n + 2) ;;
  g <- rda l (k + n + 3) ;;
  let s := r_aux s true f x y g in
  t <- MF_Set_Edges (sm_t s) f n xs ds ;;
  Ok (with_m s (set_ft (sm_m s) t), k + (n + 4)).
(** 232-257. *)
Definition r_sregion (l : list Z) (fs : list ptr) (st : smesh * Z) (i : Z) : result (smesh * Z) :=
  let '(s, k) := st in
  r <- lent (fm_r (sm_m s)) i ;;
  n <- rda l k ;;
  ' (xs, ds) <- r_signed l fs MAXPF3 k n ;;
  x <- rda l (k + n + 1) ;;
  y <- rda l (k + n + 2) ;;
  g <- rda l (k + n + 3) ;;
  let s := r_aux s false r x y g in
  t <- MR_Set_Faces (sm_t s) r n xs ds ;;
  Ok (with_m s (set_ft (sm_m s) t), k + (n + 4)).
(** 53-275.  The messages are matched in the order of the MPI_Irecv calls; each is
    asked for only if there are entities of its kind. *)
Definition recv_if (c : bool) (cap : Z) (q : list msg) : result (list Z * list msg) :=
  if c then recv_ints cap q else Ok ([], q).
Definition r_nonvertex (s : smesh) (ne nf nr : Z) (q : list msg) : result (smesh * list msg) :=
  if ZL (fm_v (sm_m s)) =? 0 then Fatal else
  if (ne =? 0) && (nf =? 0) && (nr =? 0) then Fatal else
  nevs <- ck32 ((2 + 3) * ne) ;;
  nfes <- ck32 ((1 + MAXPV2 + 3) * nf) ;;
  nrfs <- ck32 ((1 + MAXPF3 + 3) * nr) ;;
  ' (le, q) <- recv_if (negb (ne =? 0)) nevs q ;;
  ' (lf, q) <- recv_if (negb (nf =? 0)) nfes q ;;
  ' (lr, q) <- recv_if (negb (nr =? 0)) nrfs q ;;
  let '(m, es) := add_many add_e (sm_m s) ne in
  let '(m, fs) := add_many add_f m nf in
  let '(m, _) := add_many add_r m nr in
  let s := with_m s m in
  ' (s, _) <- foldM (r_sedge le es) (s, 0) (zrange 0 ne) ;;
  ' (s, _) <- foldM (r_sface lf es fs) (s, 0) (zrange 0 nf) ;;
  ' (s, _) <- foldM (r_sregion lr fs) (s, 0) (zrange 0 nr) ;;
  Ok (s, q).

Definition code_type (c : Z) : result atype :=
  if c =? 0 then Ok TINT else if c =? 1 then Ok TDOUBLE else if c =? 2 then Ok TPOINTER
  else if c =? 3 then Ok TVECTOR else if c =? 4 then Ok TTENSOR else Undef.
Definition set_atts (s : smesh) (l : list attr) : smesh :=
  let m := sm_m s in with_m s (mkFM (fm_t m) (fm_c m) (fm_x m) (fm_id m) (fm_v m) (fm_e m) (fm_f m) (fm_r m) l).
(** MESH_Recv_AttributeMetaData.c 29-96; MAttrib_New, MAttrib.c 23-81: without its last
    argument the number of components of a vector is undefined. *)
Definition r_attmeta (s : smesh) (q : list msg) : result (smesh * list msg) :=
  ' (l, q) <- recv_ints 1 q ;;
  natt <- rda l 0 ;;
  if natt =? 0 then Ok (s, q) else
  if natt <? 0 then Fatal else
  ' (info, q) <- recv_ints natt q ;;
  ' (names, q) <- recv_names natt q ;;
  s <- foldM (fun s i =>
         name <- rda names i ;;
         if existsb (fun a => text_eqb (at_name a) name) (fm_atts (sm_m s)) then Fatal else
         x <- rda info i ;;
         t <- code_type (Z.land x 7) ;;
         let mtype := Z.land (Z.shiftr x 3) 7 in
         let ncomp := Z.shiftr x 6 in
         let vec := match t with TVECTOR | TTENSOR => true | _ => false end in
         if vec && (ncomp =? 1) then Undef else
         Ok (set_atts s (fm_atts (sm_m s) ++ [mkAttr name t (if vec then ncomp else 1) mtype (fun _ => None)])))
       s (zrange 0 natt) ;;
  Ok (s, q).
(** MESH_Recv_Attribute.c 107-147: the value to set, if not null. *)
Definition is_zero (x : spec_float) : bool := match x with S754_zero _ => true | _ => false end.
Definition r_attvals (s : smesh) (a : attr) (l : list ptr) (info : list Z) (value : Z -> result (option attval)) : result (ptr -> option attval) :=
  foldM (fun vals j =>
    p <- lent l j ;;
    g <- rda info j ;;
    if negb (pi_gid (sm_p s p) =? g) then Fatal else
    o <- value j ;;
    Ok (match o with Some v => zupd vals p (Some v) | None => vals end)) (at_val a) (zrange 0 (ZL l)).
Definition set_vals (a : attr) (v : ptr -> option attval) : attr := mkAttr (at_name a) (at_type a) (at_ncomp a) (at_ent a) v.
(** 31-156. *)
Definition r_attr (st : smesh * list msg) (k : Z) : result (smesh * list msg) :=
  let '(s, q) := st in
  a <- rda (fm_atts (sm_m s)) k ;;
  match att_ents (sm_m s) (at_ent a) with
  | None => Ok (s, q)
  | Some l =>
      let num := ZL l in
      let n := at_ncomp a in
      ' (info, q) <- recv_ints num q ;;
      c <- ck32 (num * n) ;;
      ' (vals, q) <-
        match at_type a with
        | TINT =>
            ' (v, q) <- recv_ints c q ;;
            vals <- r_attvals s a l info (fun j => i <- rda v j ;; Ok (if i =? 0 then None else Some (AInt i))) ;;
            Ok (vals, q)
        | TDOUBLE =>
            ' (v, q) <- recv_dbls c q ;;
            vals <- r_attvals s a l info (fun j => x <- rda v j ;; Ok (if is_zero x then None else Some (ADbl x))) ;;
            Ok (vals, q)
        | _ =>
            ' (v, q) <- recv_dbls c q ;;
            vals <- r_attvals s a l info (fun j =>
                      if 1 <? n then x <- mapM (fun k => rda v (j * n + k)) (zrange 0 n) ;; Ok (Some (AVec x)) else Ok None) ;;
            Ok (vals, q)
        end ;;
      Ok (set_atts s (upd_nth (fm_atts (sm_m s)) (Z.to_nat k) (set_vals a vals)), q)
  end.
(** MESH_Recv_MSetMetaData.c 28-89; MSet_New, MSet.c 24-52. *)
Definition set_sets (s : smesh) (l : list mset) : smesh := mkSM (sm_m s) (sm_p s) l.
Definition r_setmeta (s : smesh) (q : list msg) : result (smesh * list msg) :=
  ' (l, q) <- recv_ints 1 q ;;
  nset <- rda l 0 ;;
  if nset =? 0 then Ok (s, q) else
  if nset <? 0 then Fatal else
  ' (types, q) <- recv_ints nset q ;;
  ' (names, q) <- recv_names nset q ;;
  s <- foldM (fun s i =>
         name <- rda names i ;;
         if existsb (fun x => text_eqb (ms_name x) name) (sm_sets s) then Fatal else
         d <- rda types i ;;
         Ok (set_sets s (sm_sets s ++ [mkSet name d []]))) s (zrange 0 nset) ;;
  Ok (s, q).
(** MESH_VertexFromGlobalID, ... (Mesh.c 1476-1566): bsearch in a copy of the list
    sorted by global ID; it may return any of several entities with the same ID. *)
Definition by_gid (s : smesh) (l : list ptr) (g : Z) : result ptr :=
  match l with
  | [] => Fatal
  | _ => match filter (fun p => pi_gid (sm_p s p) =? g) l with [] => Ok NULL | [p] => Ok p | _ => Undef end
  end.
(** MESH_Recv_MSet.c 31-114. *)
Definition r_set (st : smesh * list msg) (k : Z) : result (smesh * list msg) :=
  let '(s, q) := st in
  x <- rda (sm_sets s) k ;;
  ' (l, q) <- recv_ints 1 q ;;
  nent <- rda l 0 ;;
  if nent =? 0 then Ok (s, q) else
  n <- ck32 (2 * nent) ;;
  ' (v, q) <- recv_ints n q ;;
  ents <- foldM (fun ents i =>
            ty <- rda v (2 * i) ;;
            g <- rda v (2 * i + 1) ;;
            p <- match att_ents (sm_m s) ty with Some l => by_gid s l g | None => Ok NULL end ;;
            Ok (if p =? NULL then ents else ents ++ [p])) (ms_list x) (zrange 0 nent) ;;
  Ok (set_sets s (upd_nth (sm_sets s) (Z.to_nat k) (mkSet (ms_name x) (ms_ent x) ents)), q).

(** MESH_RecvMesh.c 30-99 and MESH_Recv_MetaData.c 33-64; other types than F1 are not
    modelled (Undef).  Also returns the messages that are left. *)
Definition MESH_RecvMesh (with_attr : bool) (q : list msg) : result (smesh * list msg) :=
  ' (l, q) <- recv_ints 5 q ;;
  rtype <- rda l 0 ;;
  nv <- rda l 1 ;;
  ne <- rda l 2 ;;
  nf <- rda l 3 ;;
  nr <- rda l 4 ;;
  if negb (rtype =? 0) then Undef else
  ' (s, q) <- r_vertices empty_smesh nv q ;;
  ' (s, q) <- r_coords s nv q ;;
  ' (s, q) <- r_nonvertex s ne nf nr q ;;
  if negb with_attr then Ok (s, q) else
  ' (s, q) <- r_attmeta s q ;;
  ' (s, q) <- foldM r_attr (s, q) (zrange 0 (Z.of_nat (length (fm_atts (sm_m s))))) ;;
  ' (s, q) <- r_setmeta s q ;;
  foldM r_set (s, q) (zrange 0 (Z.of_nat (length (sm_sets s)))).
