(** Generation of structured meshes:
    /repo/src/hilev/MESH_Gen_Structured.c 62-494. *)
From Coq Require Import ZArith List Bool.
From Verif Require Import Base ListSpec AttModel TopoModel ParModel CellModel BuildModel.
Import ListNotations.
Open Scope Z_scope.

(** Left out: the coordinates of the vertices, the tables of pointers being freed
    (286-288 forgets row nx of the 2D table), and the classification given to
    edges and faces made inside MF_Set_Vertices and MR_Set_Vertices (none is,
    GenProofs).  Sizes and indices are unbounded integers: nx+1 overflows only
    when the table could not be allocated. *)

(** State of the generator: mesh, the table verts (malloc'ed, not initialised:
    103-105, 301-306) and the classification, GEntDim and GEntID, of the entities
    of the mesh (MEntity.c 178-200). *)
Record gen := mkGen { gn_t : topo; gn_tab : Z * Z * Z -> option ptr; gn_c : ptr -> Z * Z }.
Definition set_t (s : gen) (t : topo) := mkGen t (gn_tab s) (gn_c s).
Definition set_gdim (s : gen) (e : ptr) (d : Z) := mkGen (gn_t s) (gn_tab s) (zupd (gn_c s) e (d, snd (gn_c s e))).
Definition set_gid (s : gen) (e : ptr) (d : Z) := mkGen (gn_t s) (gn_tab s) (zupd (gn_c s) e (fst (gn_c s e), d)).
(** GEntDim and GEntID of a new entity: MVertex.c 31-32, MEdge.c 29-31,
    MFace.c 30-31 (4: unknown), MRegion.c 33-34 (3). *)
Definition made (s : gen) (te : topo * ptr) (d : Z) := mkGen (fst te) (gn_tab s) (zupd (gn_c s) (snd te) (d, 0)).

(** verts[i][j][k], a table of (nx+1) by (ny+1) by (nz+1) entries; in 2D there is
    no last index: nz is 0 and k too. *)
Definition in_tab (n p : Z * Z * Z) : bool :=
  let '(nx, ny, nz) := n in let '(i, j, k) := p in
  (0 <=? i) && (i <=? nx) && (0 <=? j) && (j <=? ny) && (0 <=? k) && (k <=? nz).
Definition vget (n : Z * Z * Z) (s : gen) (p : Z * Z * Z) : result ptr :=
  if in_tab n p then match gn_tab s p with Some v => Ok v | None => Undef end else Undef.
Definition vset (n : Z * Z * Z) (s : gen) (p : Z * Z * Z) (v : ptr) : result gen :=
  if in_tab n p then
    Ok (mkGen (gn_t s) (fun q => if (fst (fst q) =? fst (fst p)) && (snd (fst q) =? snd (fst p)) && (snd q =? snd p) then Some v else gn_tab s q) (gn_c s))
  else Undef.

(** Two and three nested loops. *)
Definition loop2 (l1 l2 : list Z) : list (Z * Z) := flat_map (fun x => map (fun y => (x, y)) l2) l1.
Definition loop3 (l1 l2 l3 : list Z) : list (Z * Z * Z) := flat_map (fun x => map (fun z => (fst x, snd x, z)) l3) (loop2 l1 l2).

(** Reading an entry of a table with fixed contents. *)
Definition at_ {A} (l : list A) (i : Z) : result A :=
  if i <? 0 then Undef else match nth_error l (Z.to_nat i) with Some x => Ok x | None => Undef end.

(** ** 2D *)

(** 117-158: classification of vertex i, j. *)
Definition class2_v (nx ny i j : Z) : Z * Z :=
  if i =? 0 then if j =? 0 then (0, 1) else if j =? ny then (0, 4) else (1, 4)
  else if i =? nx then if j =? 0 then (0, 2) else if j =? ny then (0, 3) else (1, 2)
  else if j =? 0 then (1, 1) else if j =? ny then (1, 3) else (2, 1).
(** 108-162. *)
Definition vertex2 (nx ny : Z) (s : gen) (ji : Z * Z) : result gen :=
  let '(j, i) := ji in
  let tv := MV_New (gn_t s) in
  let mv := snd tv in
  let s := made s tv 4 in
  let c := class2_v nx ny i j in
  let s := set_gid (set_gdim s mv (fst c)) mv (snd c) in
  vset (nx, ny, 0) s (i, j, 0) mv.
(** 174-197, 200-223, 226-249, 252-275: one edge of a cell, made if it does not
    exist; [bnd]: the edge is on the boundary, on model edge [gid]. *)
Definition edge2 (nx ny : Z) (bnd : bool) (gid : Z) (p q : Z * Z) (s : gen) : result (gen * (ptr * Z)) :=
  v0 <- vget (nx, ny, 0) s (p, 0) ;;
  v1 <- vget (nx, ny, 0) s (q, 0) ;;
  e <- MVs_CommonEdge (gn_t s) v0 v1 ;;
  if e =? NULL then
    let te := ME_New (gn_t s) in
    let me := snd te in
    let s := made s te 4 in
    t <- ME_Set_Vertex (gn_t s) me 0 v0 ;;
    t <- ME_Set_Vertex t me 1 v1 ;;
    let s := set_t s t in
    let s := if bnd then set_gid (set_gdim s me 1) me gid else set_gid (set_gdim s me 2) me 1 in
    Ok (s, (me, 1))
  else u <- ME_Vertex (gn_t s) e 0 ;; Ok (s, (e, b2z (u =? v0))).
(** 165-283. *)
Definition cell2 (nx ny : Z) (s : gen) (ij : Z * Z) : result gen :=
  let '(i, j) := ij in
  let tf := MF_New (gn_t s) in
  let mf := snd tf in
  let s := made s tf 4 in
  ' (s, e0) <- edge2 nx ny (j =? 0) 1 (i, j) (i + 1, j) s ;;
  ' (s, e1) <- edge2 nx ny (i + 1 =? nx) 2 (i + 1, j) (i + 1, j + 1) s ;;
  ' (s, e2) <- edge2 nx ny (j + 1 =? ny) 3 (i + 1, j + 1) (i, j + 1) s ;;
  ' (s, e3) <- edge2 nx ny (i =? 0) 4 (i, j + 1) (i, j) s ;;
  t <- MF_Set_Edges (gn_t s) mf 4 [fst e0; fst e1; fst e2; fst e3] [snd e0; snd e1; snd e2; snd e3] ;;
  Ok (set_gid (set_gdim (set_t s t) mf 2) mf 1).
(** 96-288. *)
Definition gen2 (nx ny : Z) (s : gen) : result gen :=
  s <- foldM (vertex2 nx ny) s (loop2 (zrange 0 (ny + 1)) (zrange 0 (nx + 1))) ;;
  foldM (cell2 nx ny) s (loop2 (zrange 0 nx) (zrange 0 ny)).

(** ** 3D *)

(** 74-83. *)
Definition vgid_tmpl := [[[1; 4; 5]; [9; 6; 12]; [3; 8; 7]]; [[1; 1; 3]; [3; 1; 4]; [5; 2; 7]]; [[2; 2; 6]; [10; 5; 11]; [4; 6; 8]]].
Definition vgdim_tmpl := [[[0; 1; 0]; [1; 2; 1]; [0; 1; 0]]; [[1; 2; 1]; [2; 3; 2]; [1; 2; 1]]; [[0; 1; 0]; [1; 2; 1]; [0; 1; 0]]].
Definition egdim_tmpl := [[1; 2; 1]; [2; 3; 2]; [1; 2; 1]].
Definition egid_tmpl2 := [[4; 6; 8]; [1; 1; 2]; [2; 5; 6]].
Definition egid_tmpl1 := [[9; 6; 12]; [3; 1; 4]; [10; 5; 11]].
Definition egid_tmpl0 := [[1; 1; 3]; [3; 1; 4]; [5; 2; 7]].
Definition fgdim_tmpl := [2; 3; 2].
Definition fgid_tmpl0 := [6; 1; 5].
Definition fgid_tmpl1 := [1; 1; 2].
Definition fgid_tmpl2 := [3; 1; 4].

(** 310, 314, 318, ...: ii = (i%nx) ? 1 : (i ? 2 : 0); undefined if nx is 0. *)
Definition place (n i : Z) : result Z :=
  if n =? 0 then Undef else Ok (if negb (Z.rem i n =? 0) then 1 else if negb (i =? 0) then 2 else 0).
Definition tmpl2 (l : list (list Z)) (x y : Z) : result Z := r <- at_ l x ;; at_ r y.

(** 308-331. *)
Definition vertex3 (n : Z * Z * Z) (s : gen) (kji : Z * Z * Z) : result gen :=
  let '(nx, ny, nz) := n in let '(k, j, i) := kji in
  kk <- place nz k ;;
  jj <- place ny j ;;
  ii <- place nx i ;;
  let tv := MV_New (gn_t s) in
  let mv := snd tv in
  s <- vset n (made s tv 4) (i, j, k) mv ;;
  gdim <- (l <- at_ vgdim_tmpl ii ;; tmpl2 l jj kk) ;;
  let s := set_gdim s mv gdim in
  gid <- (l <- at_ vgid_tmpl ii ;; tmpl2 l jj kk) ;;
  Ok (set_gid s mv gid).
(** 338-351, 359-372, 380-393: a new edge from table entry [p] to [q], [x] and [y]
    its places in the templates [gids]. *)
Definition edge3 (n : Z * Z * Z) (s : gen) (p q : Z * Z * Z) (x y : result Z) (gids : list (list Z)) : result gen :=
  let te := ME_New (gn_t s) in
  let me := snd te in
  let s := made s te 4 in
  v0 <- vget n s p ;;
  v1 <- vget n s q ;;
  t <- ME_Set_Vertex (gn_t s) me 0 v0 ;;
  t <- ME_Set_Vertex t me 1 v1 ;;
  x <- x ;;
  y <- y ;;
  gdim <- tmpl2 egdim_tmpl x y ;;
  gid <- tmpl2 gids x y ;;
  Ok (set_gid (set_gdim (set_t s t) me gdim) me gid).
(** 335-354. *)
Definition edge_z (n : Z * Z * Z) (s : gen) (l : Z * Z * Z) : result gen :=
  let '(nx, ny, nz) := n in let '(i, j, k) := l in
  edge3 n s (i, j, k) (i, j, k + 1) (place nx i) (place ny j) egid_tmpl2.
(** 356-375. *)
Definition edge_y (n : Z * Z * Z) (s : gen) (l : Z * Z * Z) : result gen :=
  let '(nx, ny, nz) := n in let '(i, k, j) := l in
  edge3 n s (i, j, k) (i, j + 1, k) (place nx i) (place nz k) egid_tmpl1.
(** 377-396. *)
Definition edge_x (n : Z * Z * Z) (s : gen) (l : Z * Z * Z) : result gen :=
  let '(nx, ny, nz) := n in let '(j, k, i) := l in
  edge3 n s (i, j, k) (i + 1, j, k) (place ny j) (place nz k) egid_tmpl0.
(** 404-417, 425-438, 446-459: a new face with the vertices at the table entries
    [ps]. *)
Definition face3 (n : Z * Z * Z) (s : gen) (ps : list (Z * Z * Z)) (x : result Z) (gids : list Z) : result gen :=
  let tf := MF_New (gn_t s) in
  let mf := snd tf in
  let s := made s tf 4 in
  vs <- mapM (vget n s) ps ;;
  t <- MF_Set_Vertices (gn_t s) mf 4 vs ;;
  x <- x ;;
  gdim <- at_ fgdim_tmpl x ;;
  gid <- at_ gids x ;;
  Ok (set_gid (set_gdim (set_t s t) mf gdim) mf gid).
(** 401-420. *)
Definition face_x (n : Z * Z * Z) (s : gen) (l : Z * Z * Z) : result gen :=
  let '(nx, ny, nz) := n in let '(i, j, k) := l in
  face3 n s [(i, j, k); (i, j + 1, k); (i, j + 1, k + 1); (i, j, k + 1)] (place nx i) fgid_tmpl0.
(** 422-441. *)
Definition face_y (n : Z * Z * Z) (s : gen) (l : Z * Z * Z) : result gen :=
  let '(nx, ny, nz) := n in let '(j, i, k) := l in
  face3 n s [(i, j, k); (i + 1, j, k); (i + 1, j, k + 1); (i, j, k + 1)] (place ny j) fgid_tmpl1.
(** 443-462. *)
Definition face_z (n : Z * Z * Z) (s : gen) (l : Z * Z * Z) : result gen :=
  let '(nx, ny, nz) := n in let '(k, i, j) := l in
  face3 n s [(i, j, k); (i + 1, j, k); (i + 1, j + 1, k); (i, j + 1, k)] (place nz k) fgid_tmpl2.
(** 467-481. *)
Definition region3 (n : Z * Z * Z) (s : gen) (l : Z * Z * Z) : result gen :=
  let '(i, j, k) := l in
  let tr := MR_New (gn_t s) in
  let mr := snd tr in
  let s := set_gid (made s tr 3) mr 1 in
  rv <- mapM (vget n s) [(i, j, k); (i + 1, j, k); (i + 1, j + 1, k); (i, j + 1, k);
                         (i, j, k + 1); (i + 1, j, k + 1); (i + 1, j + 1, k + 1); (i, j + 1, k + 1)] ;;
  t <- MR_Set_Vertices (gn_t s) mr rv ;;
  Ok (set_t s t).
(** 293-488. *)
Definition gen3 (nx ny nz : Z) (s : gen) : result gen :=
  let n := (nx, ny, nz) in
  s <- foldM (vertex3 n) s (loop3 (zrange 0 (nz + 1)) (zrange 0 (ny + 1)) (zrange 0 (nx + 1))) ;;
  s <- foldM (edge_z n) s (loop3 (zrange 0 (nx + 1)) (zrange 0 (ny + 1)) (zrange 0 nz)) ;;
  s <- foldM (edge_y n) s (loop3 (zrange 0 (nx + 1)) (zrange 0 (nz + 1)) (zrange 0 ny)) ;;
  s <- foldM (edge_x n) s (loop3 (zrange 0 (ny + 1)) (zrange 0 (nz + 1)) (zrange 0 nx)) ;;
  s <- foldM (face_x n) s (loop3 (zrange 0 (nx + 1)) (zrange 0 ny) (zrange 0 nz)) ;;
  s <- foldM (face_y n) s (loop3 (zrange 0 (ny + 1)) (zrange 0 nx) (zrange 0 nz)) ;;
  s <- foldM (face_z n) s (loop3 (zrange 0 (nz + 1)) (zrange 0 nx) (zrange 0 ny)) ;;
  foldM (region3 n) s (loop3 (zrange 0 nx) (zrange 0 ny) (zrange 0 nz)).

(** 62-494: the mesh, and the classification of its entities. *)
Definition MESH_Gen_Structured (nx ny nz : Z) : result (topo * (ptr -> Z * Z)) :=
  let s := mkGen empty_topo (fun _ => None) (fun _ => (4, 0)) in
  if ny =? 0 then Fatal else
  s <- (if 0 <? nz then gen3 nx ny nz s else gen2 nx ny s) ;;
  Ok (gn_t s, gn_c s).
