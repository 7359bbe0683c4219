(** Model of the entity lists of a mesh: /repo/src/base/Mesh.c (creation,
    removal, counting, iteration, search by ID), the parts of
    /repo/src/base/MVertex.c, MEdge.c, MFace.c, MRegion.c that create, delete and
    restore entities, and sequential renumbering in
    /repo/src/hilev/MESH_Renumber.c.

    The four kinds of entities (MVERTEX = 0 ... MREGION = 3) have textually
    parallel functions; here each is one definition with the kind as argument.
    Representations F1 and F4 (edges and faces are stored).  Not in this model:
    adjacencies (see TopoModel.v), ghost entities and overlap lists, the
    attribute vidrcm that MESH_Renumber attaches. *)
From Coq Require Import ZArith List Bool.
From Verif Require Import Base ListModel SortModel CompareModel EntModel AttModel MSetModel.
Import ListNotations.
Open Scope Z_scope.

(** /repo/src/base/Mesh.h: struct Mesh, fields mvertex..mregion (NULL = None),
    nv..nr, max_vid..max_rid, lidlists_sorted; [heap] holds the common data of
    the entities allocated and not yet freed. *)
Record mesh := mkMesh {
  mlist : Z -> option LList; mcnt : Z -> Z; mmax : Z -> Z; msorted : Z; heap : Z -> option entdat }.

Definition set_list (m : mesh) (k : Z) (l : LList) := mkMesh (zupd (mlist m) k (Some l)) (mcnt m) (mmax m) (msorted m) (heap m).
Definition set_cnt (m : mesh) (k n : Z) := mkMesh (mlist m) (zupd (mcnt m) k n) (mmax m) (msorted m) (heap m).
Definition set_max (m : mesh) (k n : Z) := mkMesh (mlist m) (mcnt m) (zupd (mmax m) k n) (msorted m) (heap m).
Definition set_srt (m : mesh) (s : Z) := mkMesh (mlist m) (mcnt m) (mmax m) s (heap m).
Definition set_ent (m : mesh) (p : ptr) (e : option entdat) := mkMesh (mlist m) (mcnt m) (mmax m) (msorted m) (zupd (heap m) p e).

(** Mesh.c 26-75 MESH_New. *)
Definition MESH_New : mesh := mkMesh (fun _ => None) (fun _ => 0) (fun _ => 0) 1 (fun _ => None).

(** Reading the data of an entity. *)
Definition deref (m : mesh) (p : ptr) : result entdat :=
  match heap m p with Some e => Ok e | None => Undef end.

(** The entity2int argument MV_ID of List_RemSorted and the comparator
    compareID: the IDs stored in the entities.  Reading a freed entity is not
    detected here; the entities in the lists are always allocated (MeshProofs.v). *)
Definition idof (m : mesh) (p : ptr) : Z :=
  match heap m p with Some e => MEnt_ID e | None => 0 end.

(** Mesh.c 660-662 MESH_Flag_EntLists_As_Unsorted. *)
Definition MESH_Flag_EntLists_As_Unsorted (m : mesh) : mesh := set_srt m 0.

(** MEntity.c 120-137 MEnt_Set_ID, for an entity of this mesh. *)
Definition MEnt_Set_ID_in (m : mesh) (p : ptr) (id : Z) : result mesh :=
  e <- deref m p ;;
  let m := set_ent m p (Some (MEnt_Set_ID e id)) in
  Ok (if MEnt_ID e =? 0 then m else MESH_Flag_EntLists_As_Unsorted m).

(** Mesh.c 845-856, 858-872, 874-896, 898-909 MESH_Add_Vertex, _Edge, _Face,
    _Region. *)
Definition MESH_Add (m : mesh) (k : Z) (p : ptr) : result mesh :=
  l <- match mlist m k with None => List_New 10 | Some l => Ok l end ;;
  l <- List_Add l p ;;
  let m := set_cnt (set_list m k l) k (List_Num_Entries l) in
  e <- deref m p ;;
  if MEnt_ID e =? 0 then
    n <- ck32 (mmax m k + 1) ;;
    MEnt_Set_ID_in (set_max m k n) p n
  else Ok m.

(** Mesh.c 911-958, 960-1008, 1010-1058, 1060-1107 MESH_Rem_Vertex, _Edge,
    _Face, _Region.  [fuel] bounds the loop of List_RemSorted. *)
Definition MESH_Rem (fuel : nat) (m : mesh) (k : Z) (p : ptr) : result mesh :=
  match mlist m k with
  | None => Ok m
  | Some l =>
      e <- deref m p ;;
      let i := MEnt_ID e - 1 in
      x <- List_Entry_Raw l i ;;
      '(l, fnd) <- (if x =? p then '(l, _) <- List_Remi_Raw l i ;; Ok (l, 1)
                    else List_RemSorted (idof m) fuel l p) ;;
      if fnd =? 0 then Fatal
      else Ok (MESH_Flag_EntLists_As_Unsorted (set_cnt (set_list m k l) k (List_Num_Entries l)))
  end.

(** MVertex.c 22-43 MV_New, MEdge.c 20-42, MFace.c 21-41, MRegion.c 24-45.
    [p] is the address malloc returns, [g] what the memory contained. *)
Definition Ent_New (m : mesh) (k : Z) (p : ptr) (g : entdat) : result mesh :=
  let e := MEnt_Set_GEntID (MEnt_Set_GEntDim (MEnt_Set_Dim (MEnt_Init_CmnData g) k) (if k =? 3 then 3 else 4)) 0 in
  let e := MEnt_Set_RepType_Data e 0 in
  MESH_Add (set_ent m p (Some e)) k p.

(** MVertex.c 45-70 MV_Delete, MEdge.c 44-69, MFace.c 43-68, MRegion.c 47-72. *)
Definition Ent_Delete (fuel : nat) (m : mesh) (k : Z) (p : ptr) (keep : bool) : result mesh :=
  e <- deref m p ;;
  m <- (if negb (MEnt_Dim e =? MDELETED) then
          m <- MESH_Rem fuel m k p ;;
          e <- deref m p ;;
          Ok (set_ent m p (Some (MEnt_Set_DelFlag e)))
        else Ok m) ;;
  Ok (if keep then m else set_ent m p None).

(** MVertex.c 72-94 MV_Restore, MEdge.c 71-93, MFace.c 70-92, MRegion.c 74-102. *)
Definition Ent_Restore (m : mesh) (k : Z) (p : ptr) : result mesh :=
  e <- deref m p ;;
  MESH_Add (set_ent m p (Some (MEnt_Rem_DelFlag e))) k p.

(** The C library's qsort on pointers: any ascending rearrangement; written as
    an insertion sort (unique when no two entries compare equal). *)
Fixpoint pins (cmp : ptr -> ptr -> result Z) (x : ptr) (s : list ptr) : result (list ptr) :=
  match s with
  | [] => Ok [x]
  | y :: t => c <- cmp x y ;; if c <=? 0 then Ok (x :: y :: t) else r <- pins cmp x t ;; Ok (y :: r)
  end.
Fixpoint pqsort (cmp : ptr -> ptr -> result Z) (s : list ptr) : result (list ptr) :=
  match s with
  | [] => Ok []
  | x :: t => r <- pqsort cmp t ;; pins cmp x r
  end.

(** The first [n] entries as a list. *)
Fixpoint rdp (a : array ptr) (i : Z) (n : nat) : result (list ptr) :=
  match n with
  | O => Ok []
  | S m => x <- rd a i ;; r <- rdp a (i + 1) m ;; Ok (x :: r)
  end.

(** List.c 229-238 List_Sort. *)
Definition List_Sort (cmp : ptr -> ptr -> result Z) (l : LList) (num : Z) : result LList :=
  if negb (nrem (Get_Pars l) =? 0) then Fatal
  else
    s <- rdp (entry l) 0 (Z.to_nat num) ;;
    r <- pqsort cmp s ;;
    Ok (set_entry l (map Some r ++ skipn (length r) (entry l))).

(** The C library's bsearch (glibc): cmp gets the key first. *)
Fixpoint bsearch (n : nat) (cmp : ptr -> result Z) (a : array ptr) (lo hi : Z) : result (option ptr) :=
  if lo <? hi then
    match n with
    | O => OutOfFuel
    | S n' =>
        let idx := (lo + hi) / 2 in
        x <- rd a idx ;;
        c <- cmp x ;;
        if c <? 0 then bsearch n' cmp a lo idx
        else if c >? 0 then bsearch n' cmp a (idx + 1) hi
        else Ok (Some x)
    end
  else Ok None.

(** List.c 242-247 List_Search. *)
Definition List_Search (cmp : ptr -> result Z) (l : LList) (num : Z) : result ptr :=
  r <- bsearch (Z.to_nat num) cmp (entry l) 0 num ;;
  Ok (match r with Some p => p | None => NULL end).

(** compareID on entities of this mesh (/repo/src/misc/compare_funcs.c 27-33). *)
Definition cmpID (m : mesh) (a b : ptr) : result Z := ea <- deref m a ;; eb <- deref m b ;; ck32 (MEnt_ID ea - MEnt_ID eb).

(** Mesh.c 664-687 MESH_Enable_LocalIDSearch. *)
Definition enable1 (m : mesh) (k : Z) : result mesh :=
  if mcnt m k =? 0 then Ok m
  else
    match mlist m k with
    | None => Undef
    | Some l => l <- List_Compress l ;; l <- List_Sort (cmpID m) l (mcnt m k) ;; Ok (set_list m k l)
    end.
Definition MESH_Enable_LocalIDSearch (m : mesh) : result mesh :=
  if negb (msorted m =? 0) then Ok m
  else
    m <- enable1 m 0 ;; m <- enable1 m 1 ;; m <- enable1 m 2 ;; m <- enable1 m 3 ;;
    Ok (set_srt m 1).

(** Mesh.c 510-548 MESH_Num_Vertices..MESH_Num_Regions. *)
Definition MESH_Num (m : mesh) (k : Z) : Z := mcnt m k.

(** Mesh.c 550-611 MESH_Vertex..MESH_Region. *)
Definition MESH_Ent (m : mesh) (k i : Z) : result ptr :=
  if i >=? mcnt m k then Ok NULL
  else match mlist m k with None => Undef | Some l => List_Entry l i end.

(** A caller's loop over MESH_Next_Vertex..MESH_Next_Region (Mesh.c 613-657):
    the entities it meets. *)
Definition MESH_Walk (m : mesh) (k : Z) : result (list ptr) :=
  match mlist m k with None => Ok [] | Some l => List_Walk l end.

(** The loop of Mesh.c 719-721: the first entity with the given ID. *)
Fixpoint scan_id (n : nat) (m : mesh) (l : LList) (idx id : Z) : result ptr :=
  match n with
  | O => OutOfFuel
  | S n' =>
      '(idx, p) <- List_Next_Entry l idx ;;
      if p =? NULL then Ok NULL
      else e <- deref m p ;; if MEnt_ID e =? id then Ok p else scan_id n' m l idx id
  end.

(** Mesh.c 696-725 MESH_VertexFromID, 729-758 MESH_EdgeFromID, 762-791
    MESH_FaceFromID, 795-824 MESH_RegionFromID.  The temporary entity carrying
    the ID searched for is represented by its ID. *)
Definition MESH_EntFromID (m : mesh) (k id : Z) : result ptr :=
  if (mcnt m k =? 0) || (id <? 1) || (id >? mmax m k) then Ok NULL
  else
    match mlist m k with
    | None => Undef
    | Some l =>
        p <- List_Entry_Raw l (id - 1) ;;
        hit <- (if p =? NULL then Ok false else e <- deref m p ;; Ok (MEnt_ID e =? id)) ;;
        if hit then Ok p
        else if negb (msorted m =? 0) then
          List_Search (fun q => e <- deref m q ;; ck32 (id - MEnt_ID e)) l (mcnt m k)
        else scan_id (S (length (entry l))) m l 0 id
    end.

(** MESH_Renumber.c 52-57 (and 59-78): number the entities of one kind. *)
Definition renum1 (m : mesh) (k : Z) : result mesh :=
  match mlist m k with
  | None => Ok m
  | Some l =>
      '(m, n) <- lloop (fun s p => let '(m, n) := s in n <- ck32 (n + 1) ;; m <- MEnt_Set_ID_in m p n ;; Ok (m, n)) l (m, 0) ;;
      Ok m
  end.

(** Mesh.c 1112-1141 MESH_Reset_Cached_MaxIDs. *)
Definition reset1 (m : mesh) (k : Z) : result mesh :=
  n <- match mlist m k with
       | None => Ok 0
       | Some l => lloop (fun n p => e <- deref m p ;; Ok (if n <? MEnt_ID e then MEnt_ID e else n)) l 0
       end ;;
  Ok (set_max m k n).
Definition MESH_Reset_Cached_MaxIDs (m : mesh) : result mesh :=
  m <- reset1 m 0 ;; m <- reset1 m 1 ;; m <- reset1 m 2 ;; reset1 m 3.

(** MESH_Renumber.c 51-79, 1065 MESH_Renumber with renum_type = 0. *)
Definition renum_if (mtype k : Z) (m : mesh) : result mesh :=
  if (mtype =? k) || (mtype =? MALLTYPE) then renum1 m k else Ok m.
Definition MESH_Renumber0 (m : mesh) (mtype : Z) : result mesh :=
  m <- renum_if mtype 0 m ;; m <- renum_if mtype 1 m ;; m <- renum_if mtype 2 m ;; m <- renum_if mtype 3 m ;;
  MESH_Reset_Cached_MaxIDs m.

(** A history of calls. *)
Inductive mop :=
| MNew (k : Z) (p : ptr) (g : entdat)
| MDel (k : Z) (p : ptr) (keep : bool)
| MRestore (k : Z) (p : ptr)
| MEnable
| MRenum (mtype : Z).

Definition mrun1 (fuel : nat) (m : mesh) (o : mop) : result mesh :=
  match o with
  | MNew k p g => Ent_New m k p g
  | MDel k p keep => Ent_Delete fuel m k p keep
  | MRestore k p => Ent_Restore m k p
  | MEnable => MESH_Enable_LocalIDSearch m
  | MRenum t => MESH_Renumber0 m t
  end.

Fixpoint mruns (fuel : nat) (m : mesh) (ops : list mop) : result mesh :=
  match ops with
  | [] => Ok m
  | o :: t => m' <- mrun1 fuel m o ;; mruns fuel m' t
  end.
