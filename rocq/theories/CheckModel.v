(** The check of the topology of a mesh:
    /repo/src/hilev/MESH_CheckTopo.c 22-597. *)
From Coq Require Import ZArith List Bool.
From Verif Require Import Base ListSpec AttModel TopoModel ParModel.
Import ListNotations.
Open Scope Z_scope.

(** Left out: the messages.  MSTK_Report only prints them (none is fatal here).
    The flag [valid] is a boolean. *)

(** What the checker looks at: the topology; GEntDim and GEntID of the entities
    (MEntity.c 178-200); whether PType is PGHOST (always false without MPI); the
    entity lists of the mesh, in the order of MESH_Next_Vertex, ... (Mesh.c). *)
Record checked_mesh := mkCM {
  cm_t : topo; cm_c : ptr -> Z * Z; cm_ghost : ptr -> bool;
  cm_v : list ptr; cm_e : list ptr; cm_f : list ptr; cm_r : list ptr }.

(** A list that is NULL when it would be empty (MF_Regions) used without a test. *)
Definition ne {A} (l : list A) : result (list A) := match l with [] => Undef | _ => Ok l end.

(** ** Vertices *)

(** 78-89: every edge of the vertex has it as an end. *)
Definition ck_vedges (t : topo) (mv : ptr) (valid : bool) (l : list ptr) : result bool :=
  foldM (fun valid ve =>
    a <- ME_Vertex t ve 0 ;;
    if a =? mv then Ok valid else b <- ME_Vertex t ve 1 ;; Ok (valid && (b =? mv))) valid l.
(** 153-210: at most 1001 rounds (maxiter, 193); [e0] where the ring began.  The
    last test (202-209) needs the regions of a face to exist. *)
Fixpoint ck_ring (t : topo) (c : ptr -> Z * Z) (mv e0 : ptr) (n : nat) (valid : bool) (fcur enxt : ptr) (flipped : bool) : result bool :=
  match n with
  | O => Ok valid
  | S n =>
      let ecur := enxt in
      o <- ME_Faces t ecur ;;
      efaces <- nn o ;;
      match find (fun ef => negb (ef =? fcur) && (fst (c ef) =? 2) && (snd (c ef) =? snd (c mv))) efaces with
      | None => Ok false
      | Some fcur =>
          fedges <- MF_Edges t fcur 1 mv ;;
          a <- lent fedges 0 ;;
          b <- lent fedges (ZL fedges - 1) ;;
          let '(enxt, flipped) := if a =? ecur then (b, flipped) else if b =? ecur then (a, true) else (enxt, flipped) in
          if enxt =? e0 then
            if flipped then rs <- MF_Regions t fcur ;; _ <- ne rs ;; Ok valid else Ok valid
          else ck_ring t c mv e0 n valid fcur enxt flipped
      end
  end.
(** 116-210. *)
Definition ck_vface (t : topo) (c : ptr -> Z * Z) (mv : ptr) (valid : bool) : result bool :=
  o <- MV_Faces t mv ;;
  vfaces <- nn o ;;
  let '(fcur, valid) := match find (fun vf => fst (c vf) =? 2) vfaces with Some f => (f, valid) | None => (NULL, false) end in
  fedges <- MF_Edges t fcur 1 mv ;;
  e0 <- lent fedges 0 ;;
  enxt <- lent fedges (ZL fedges - 1) ;;
  ck_ring t c mv e0 1001 valid fcur enxt false.
(** 56-213.  92-110 only warns. *)
Definition ck_vertex (m : checked_mesh) (valid : bool) (mv : ptr) : result bool :=
  if cm_ghost m mv then Ok valid else
  o <- MV_Edges (cm_t m) mv ;;
  match o with
  | None => Ok valid
  | Some vedges =>
      valid <- ck_vedges (cm_t m) mv valid vedges ;;
      if fst (cm_c m mv) =? 2 then ck_vface (cm_t m) (cm_c m) mv valid else Ok valid
  end.

(** ** Edges *)

(** 338-344, 385-391: a face of the list other than [fcur] that has the edge. *)
Fixpoint find_face (t : topo) (me fcur : ptr) (l : list ptr) : result (option ptr) :=
  match l with
  | [] => Ok None
  | rf :: l' => if rf =? fcur then find_face t me fcur l' else u <- MF_UsesEdge t rf me ;; if u then Ok (Some rf) else find_face t me fcur l'
  end.
(** 354-407: from region to region around the edge until face [b1] is met, at most
    1001 rounds; [found] is not reset before 365-371.  Returned: valid, fcur and
    fnxt, which the next pass of the loop at 332 goes on with. *)
Fixpoint ck_around (t : topo) (me b0 b1 : ptr) (n : nat) (valid : bool) (fnxt rcur fcur : ptr) (found : bool) : result (bool * ptr * ptr) :=
  let undone fcur fnxt := _ <- getf t b0 ;; _ <- getf t b1 ;; Ok (false, fcur, fnxt) in
  match n with
  | O => undone fcur fnxt
  | S n =>
      let fcur := fnxt in
      _ <- getf t fcur ;;
      if fnxt =? b1 then Ok (valid, fcur, fnxt) else
      rs <- MF_Regions t fcur ;;
      fregs1 <- ne rs ;;
      let '(rcur, found) := match find (fun fr => negb (fr =? rcur)) fregs1 with Some fr => (fr, true) | None => (rcur, found) end in
      if negb found then undone fcur fnxt else
      rfaces <- MR_Faces t rcur ;;
      o <- find_face t me fcur rfaces ;;
      let '(fnxt, found) := match o with Some rf => (rf, true) | None => (fnxt, false) end in
      ck_around t me b0 b1 n valid fnxt rcur fcur found
  end.
(** 252-263: the classification of the edge against that of one end; the test of
    252 asks twice about the vertex, not about the edge. *)
Definition ck_eclass (ce cv : Z * Z) : bool :=
  if fst cv =? 4 then true
  else if fst ce <? fst cv then false
  else if (fst ce =? fst cv) && negb (snd ce =? snd cv) then false else true.
(** 332-408: both directions around a boundary edge. *)
Definition ck_dirs (t : topo) (me b0 b1 : ptr) (valid : bool) (fregs : list ptr) : result bool :=
  ' (valid, _, _) <- foldM (fun '(valid, fcur, fnxt) rcur =>
      rfaces <- MR_Faces t rcur ;;
      o <- find_face t me fcur rfaces ;;
      let '(fnxt, found) := match o with Some rf => (rf, true) | None => (fnxt, false) end in
      ck_around t me b0 b1 1001 valid fnxt rcur fcur found) (valid, b0, NULL) fregs ;;
  Ok valid.
(** 246-411: one end of the edge.  The loop at 332 leaves [i] at the number of
    regions of the first boundary face. *)
Definition ck_end (t : topo) (c : ptr -> Z * Z) (me : ptr) (valid : bool) (i : Z) : result (bool * Z) :=
  ev <- ME_Vertex t me i ;;
  o <- MV_Edges t ev ;;
  let valid := valid && ck_eclass (c me) (c ev) in
  vedges <- nn o ;;
  let valid := valid && mem me vedges in
  if fst (c me) =? 2 then
    o <- ME_Faces t me ;;
    efaces <- nn o ;;
    let bfs := filter (fun ef => fst (c ef) =? 2) efaces in
    let valid := valid && forallb (fun ef => snd (c ef) =? snd (c me)) bfs in
    let b0 := hd NULL bfs in
    let b1 := last (tl bfs) NULL in
    let valid := valid && (length bfs =? 2)%nat in
    o <- ME_Regions t me ;;
    match o with
    | None => Ok (valid, i)
    | Some _ =>
        rs <- MF_Regions t b0 ;;
        fregs <- ne rs ;;
        valid <- ck_dirs t me b0 b1 valid fregs ;;
        Ok (valid, ZL fregs)
    end
  else Ok (valid, i).
(** 245-413: for (i = 0; i < 2; i++). *)
Fixpoint ck_ends (t : topo) (c : ptr -> Z * Z) (me : ptr) (n : nat) (valid : bool) (i : Z) : result bool :=
  if i <? 2 then
    match n with
    | O => OutOfFuel
    | S n => ' (valid, i) <- ck_end t c me valid i ;; ck_ends t c me n valid (i + 1)
    end
  else Ok valid.
(** 224-415. *)
Definition ck_edge (m : checked_mesh) (valid : bool) (me : ptr) : result bool :=
  if cm_ghost m me then Ok valid else
  _ <- ME_Vertex (cm_t m) me 0 ;;
  ck_ends (cm_t m) (cm_c m) me 3 valid 0.

(** ** Faces *)

(** 449-473. *)
Definition ck_fedges (t : topo) (c : ptr -> Z * Z) (mf : ptr) (valid : bool) (l : list ptr) : result bool :=
  foldM (fun valid fe =>
    let known := negb (fst (c fe) =? 4) && negb (fst (c mf) =? 4) in
    let valid := valid && negb (known && (fst (c mf) <? fst (c fe))) in
    o <- ME_Faces t fe ;;
    efaces <- nn o ;;
    Ok (valid && mem mf efaces)) valid l.
(** 425-500. *)
Definition ck_face (m : checked_mesh) (valid : bool) (mf : ptr) : result bool :=
  let t := cm_t m in
  if cm_ghost m mf then Ok valid else
  fedges <- MF_Edges t mf 1 NULL ;;
  valid <- ck_fedges t (cm_c m) mf valid fedges ;;
  fregs <- MF_Regions t mf ;;
  let valid := if fst (cm_c m mf) =? 3 then valid && (ZL fregs =? 2) else valid in
  match fregs with
  | [r0; r1] =>
      d0 <- MR_FaceDir t r0 mf ;;
      d1 <- MR_FaceDir t r1 mf ;;
      Ok (valid && negb (d0 =? d1))
  | _ => Ok valid
  end.

(** ** Regions *)

(** 530-541: the directions, and that every face has the region on the right side. *)
Definition ck_rfaces (t : topo) (mr : ptr) (valid : bool) (rfaces : list ptr) : result (bool * list Z) :=
  foldM (fun '(valid, dirs) i =>
    rf <- lent rfaces i ;;
    d <- MR_FaceDir_i t mr i ;;
    r <- MF_Region t rf (lnot d) ;;
    Ok (valid && (mr =? r), dirs ++ [d])) (valid, []) (zrange 0 (ZL rfaces)).
(** 560-567: k and rf2 after the search; k is the number of faces and rf2 the last
    one if there is none. *)
Fixpoint find_adj (t : topo) (rf fe rf2 : ptr) (k : Z) (l : list ptr) : result (bool * Z * ptr) :=
  match l with
  | [] => Ok (false, k, rf2)
  | g :: l' => if rf =? g then find_adj t rf fe g (k + 1) l'
               else u <- MF_UsesEdge t g fe ;; if u then Ok (true, k, g) else find_adj t rf fe g (k + 1) l'
  end.
(** 556-586. *)
Definition ck_redge (t : topo) (rfaces : list ptr) (dirs : list Z) (i : Z) (rf : ptr) (fedges : list ptr) (valid : bool) (j : Z) : result bool :=
  fe <- lent fedges j ;;
  fedir <- MF_EdgeDir_i t rf j ;;
  ' (found, k, rf2) <- find_adj t rf fe NULL 0 rfaces ;;
  adj <- MF_EdgeDir t rf2 fe ;;
  di <- rdl dirs i ;;
  dk <- rdl dirs k ;;
  Ok (valid && found && negb (((adj =? fedir) && (di =? dk)) || (negb (adj =? fedir) && negb (di =? dk)))).
(** 509-593. *)
Definition ck_region (m : checked_mesh) (valid : bool) (mr : ptr) : result bool :=
  let t := cm_t m in
  if cm_ghost m mr then Ok valid else
  rfaces <- MR_Faces t mr ;;
  ' (valid, dirs) <- ck_rfaces t mr valid rfaces ;;
  foldM (fun valid i =>
    rf <- lent rfaces i ;;
    fedges <- MF_Edges t rf 1 NULL ;;
    foldM (ck_redge t rfaces dirs i rf fedges) valid (zrange 0 (ZL fedges))) valid (zrange 0 (ZL rfaces)).

(** 22-597. *)
Definition MESH_CheckTopo (m : checked_mesh) : result bool :=
  valid <- foldM (ck_vertex m) true (cm_v m) ;;
  valid <- foldM (ck_edge m) valid (cm_e m) ;;
  valid <- foldM (ck_face m) valid (cm_f m) ;;
  foldM (ck_region m) valid (cm_r m).
