(** Joining two regions into one (/repo/src/mod/MRs_Join.c).  The joining of two
    faces, MFs_Join, is in ModModel.v. *)
From Coq Require Import ZArith Bool List.
From Verif Require Import Base ListSpec AttModel TopoModel ParModel.
Import ListNotations.
Open Scope Z_scope.

(** MRs_Join.c 48-63: the first face of the second region which the first one has
    too; NULL when there is none. *)
Definition common_face (l1 l2 : list ptr) : ptr :=
  match filter (fun g => mem g l1) l2 with [] => NULL | g :: _ => g end.

(** MRs_Join.c 65-78: the faces of the second region other than the common one,
    with their directions. *)
Definition other_faces (t : topo) (r2 fc : ptr) (l2 : list ptr) : result (list (ptr * Z)) :=
  foldM (fun acc i =>
    g <- lent l2 i ;;
    if g =? fc then Ok acc else d <- MR_FaceDir_i t r2 i ;; Ok (acc ++ [(g, d)])) [] (zrange 0 (ZL l2)).

(** MRs_Join.c 19-95.  [gid] gives the model region of a region (26-36; both regions
    are in the mesh [t]); the reports of 30, 34, 44, 82 only print. *)
Definition MRs_Join (gid : ptr -> Z) (t : topo) (r1 r2 f : ptr) : result (topo * ptr) :=
  if negb (gid r1 =? gid r2) then Ok (t, NULL) else
  l2 <- MR_Faces t r2 ;;
  ok <- (if f =? NULL then Ok true else MR_UsesFace t r1 f) ;;
  if negb ok then Ok (t, NULL) else
  fc <- (if f =? NULL then l1 <- MR_Faces t r1 ;; Ok (common_face l1 l2) else Ok f) ;;
  nus <- other_faces t r2 fc l2 ;;
  if negb (mem fc l2) then Ok (t, NULL) else
  t <- MR_Delete t r2 false ;;
  t <- MR_Replace_Faces t r1 [fc] (map fst nus) (map snd nus) ;;
  t <- MF_Delete t fc false ;;
  Ok (t, r1).
