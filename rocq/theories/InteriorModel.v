(** The interior of a mesh is deleted.  Models src/hilev/MESH_DelInterior.c.  Deleted entities are taken
    out of the lists of the mesh (MESH_Rem_Vertex and so on, see MeshModel.v); sets are not touched. *)
From Coq Require Import ZArith Bool List.
From Verif Require Import Base ListSpec AttModel TopoModel FileModel SendModel.
Import ListNotations.
Open Scope Z_scope.

(** MESH_DelInterior.c 50-71: one of the four loops, from the back; entries before the deleted one stay
    where they are. *)
Definition rem_at (i : Z) (l : list ptr) : list ptr := firstn (Z.to_nat i) l ++ skipn (S (Z.to_nat i)) l.
Definition delete_back (del : topo -> ptr -> bool -> result topo) (inner : ptr -> bool) (t : topo) (l : list ptr) : result (topo * list ptr) :=
  foldM (fun st i =>
    x <- lent (snd st) i ;;
    if inner x then t <- del (fst st) x false ;; Ok (t, rem_at i (snd st)) else Ok st) (t, l) (rev (zrange 0 (ZL l))).
(** 34-46: 0 if there are only vertices. *)
Definition top_dim (m : fmesh) : Z := if negb (ZL (fm_r m) =? 0) then 3 else if negb (ZL (fm_f m) =? 0) then 2 else if negb (ZL (fm_e m) =? 0) then 1 else 0.
(** 25-74; the value returned and the mesh. *)
Definition MESH_DelInterior (s : smesh) : result (Z * smesh) :=
  let m := sm_m s in
  let dim := top_dim m in
  if dim =? 0 then Ok (0, s) else
  let on_dim p := fst (fm_c m p) =? dim in
  ' (t, r) <- delete_back MR_Delete (fun _ => true) (fm_t m) (fm_r m) ;;
  ' (t, f) <- delete_back MF_Delete on_dim t (fm_f m) ;;
  ' (t, e) <- delete_back ME_Delete on_dim t (fm_e m) ;;
  ' (t, v) <- delete_back MV_Delete on_dim t (fm_v m) ;;
  Ok (1, mkSM (mkFM t (fm_c m) (fm_x m) (fm_id m) v e f r (fm_atts m)) (sm_p s) (sm_sets s)).
