(** A mesh is copied to another one.  Models src/base/MESH_Copy.c for meshes of type F1, as built
    with MPI.
    The attribute copyatt of the source mesh, which holds the copy of every entity while the
    function runs and is removed at the end (41, 398-414), is a map from pointers to pointers,
    NULL where there is no value; it is not in the list of attributes.  The copies of vectors are
    lists. *)
From Coq Require Import ZArith Bool String Floats.SpecFloat List.
From Verif Require Import Base ListSpec AttModel TopoModel ParModel FileModel SendModel PartModel CopyModel.
Import ListNotations.
Open Scope Z_scope.

(** The copy so far and copyatt. *)
Definition clone := (smesh * (ptr -> ptr))%type.
(** 51-61: classification, ID, and the parallel data; the widths of the fields are those of
    include/MEntity.h 42-52.  The same for edges (83-93), faces (122-132) and, without the flag
    of being on a partition boundary, regions (197-205). *)
Definition clone_info (src s : smesh) (flag : bool) (p q : ptr) : smesh :=
  let i := sm_p src p in
  mkSM (set_info (sm_m s) q (fm_c (sm_m src) p) (fm_id (sm_m src) p))
       (zupd (sm_p s) q (mkPI (pi_ptype i mod 2 ^ 2) (if flag && pi_bdry i then true else pi_bdry (sm_p s q)) (pi_master i mod 2 ^ 29) (pi_gid i)))
       (sm_sets s).
(** 44-64. *)
Definition clone_vertex (src : smesh) (st : clone) (v : ptr) : result clone :=
  let '(s, cp) := st in
  let '(m, q) := add_v (sm_m s) in
  _ <- getv (sm_t src) v ;;
  let s := with_m s (set_x m q (fm_x (sm_m src) v)) in
  Ok (clone_info src s true v q, zupd cp v q).
(** 70-96. *)
Definition clone_edge (src : smesh) (st : clone) (e : ptr) : result clone :=
  let '(s, cp) := st in
  let '(m, q) := add_e (sm_m s) in
  v <- ME_Vertex (sm_t src) e 0 ;;
  _ <- getv (sm_t src) v ;;
  t <- ME_Set_Vertex (fm_t m) q 0 (cp v) ;;
  v <- ME_Vertex (sm_t src) e 1 ;;
  _ <- getv (sm_t src) v ;;
  t <- ME_Set_Vertex t q 1 (cp v) ;;
  Ok (clone_info src (with_m s (set_ft m t)) true e q, zupd cp e q).
(** 112-116: the edges of a face and their directions; 187-191: the faces of a region.  [room] is the
    length of the arrays. *)
Definition clone_loop (room : Z) (cp : ptr -> ptr) (get : ptr -> result unit) (dir : Z -> result Z) (l : list ptr) : result (list ptr * list Z) :=
  foldM (fun st i =>
    let '(es, ds) := st in
    e <- lent l i ;;
    if room <=? i then Undef else
    _ <- get e ;;
    d <- dir i ;;
    Ok (es ++ [cp e], ds ++ [d])) ([], []) (zrange 0 (ZL l)).
(** 104-135. *)
Definition clone_face (src : smesh) (st : clone) (f : ptr) : result clone :=
  let '(s, cp) := st in
  let '(m, q) := add_f (sm_m s) in
  l <- MF_Edges (sm_t src) f 1 NULL ;;
  ' (es, ds) <- clone_loop MAXPV2 cp (fun e => _ <- gete (sm_t src) e ;; Ok tt) (MF_EdgeDir_i (sm_t src) f) l ;;
  t <- MF_Set_Edges (fm_t m) q (ZL l) es ds ;;
  Ok (clone_info src (with_m s (set_ft m t)) true f q, zupd cp f q).
(** 179-208. *)
Definition clone_region (src : smesh) (st : clone) (r : ptr) : result clone :=
  let '(s, cp) := st in
  let '(m, q) := add_r (sm_m s) in
  l <- MR_Faces (sm_t src) r ;;
  ' (fs, ds) <- clone_loop MAXPF3 cp (fun f => _ <- getf (sm_t src) f ;; Ok tt) (MR_FaceDir_i (sm_t src) r) l ;;
  t <- MR_Set_Faces (fm_t m) q (ZL l) fs ds ;;
  Ok (clone_info src (with_m s (set_ft m t)) false r q, zupd cp r q).

(** 272-289: the value that is set on the copy of an entity, if any; the same for edges, faces and
    regions (296-361). *)
Definition clone_value (a : attr) (p : ptr) : result (option attval) :=
  match at_type a with
  | TINT => i <- get_int a p ;; Ok (if i =? 0 then None else Some (AInt i))
  | TDOUBLE => x <- get_dbl a p ;; Ok (if is_zero x then None else Some (ADbl x))
  | TPOINTER => Ok None
  | _ => match at_val a p with None => Ok None | Some _ => l <- get_vec a p ;; Ok (Some (AVec l)) end
  end.
Definition clone_values (a : attr) (cp : ptr -> ptr) (vals : ptr -> option attval) (l : list ptr) : result (ptr -> option attval) :=
  foldM (fun vals p => o <- clone_value a p ;;
    match o with
    | None => Ok vals
    | Some v => if cp p =? NULL then Undef else Ok (zupd vals (cp p) (Some v))
    end) vals l.
(** 251-365; a name goes through char attname[256]. *)
Definition clone_att (src : smesh) (cp : ptr -> ptr) (s : smesh) (a : attr) : result smesh :=
  if negb (short_name (at_name a)) then Undef else
  if text_eqb (at_name a) (str "copyatt") then Ok s else
  let on d := (at_ent a =? d) || (at_ent a =? MALLTYPE) in
  vals <- (if on MVERTEX then clone_values a cp (fun _ => None) (fm_v (sm_m src)) else Ok (fun _ => None)) ;;
  vals <- (if on MEDGE then clone_values a cp vals (fm_e (sm_m src)) else Ok vals) ;;
  vals <- (if on MFACE then clone_values a cp vals (fm_f (sm_m src)) else Ok vals) ;;
  vals <- (if on MREGION then clone_values a cp vals (fm_r (sm_m src)) else Ok vals) ;;
  Ok (set_atts s (fm_atts (sm_m s) ++ [mkAttr (at_name a) (at_type a) (if is_vec (at_type a) then at_ncomp a else 1) (at_ent a) vals])).
(** 376-391; an entity without a copy is not added by the model. *)
Definition clone_set (cp : ptr -> ptr) (s : smesh) (x : mset) : result smesh :=
  if negb (short_name (ms_name x)) then Undef else
  l <- mapM (fun p => if cp p =? NULL then Undef else Ok (cp p)) (ms_list x) ;;
  Ok (set_sets s (sm_sets s ++ [mkSet (ms_name x) (ms_ent x) l])).
(** 24-418. *)
Definition MESH_Copy (src dst : smesh) (with_attr with_sets : bool) : result smesh :=
  st <- foldM (clone_vertex src) (dst, fun _ => NULL) (fm_v (sm_m src)) ;;
  st <- foldM (clone_edge src) st (fm_e (sm_m src)) ;;
  st <- foldM (clone_face src) st (fm_f (sm_m src)) ;;
  ' (s, cp) <- foldM (clone_region src) st (fm_r (sm_m src)) ;;
  s <- (if with_attr then foldM (clone_att src cp) s (fm_atts (sm_m src)) else Ok s) ;;
  if with_sets then foldM (clone_set cp) s (sm_sets src) else Ok s.
