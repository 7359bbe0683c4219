(** Writing a surface mesh in the formats OFF and STL (MESH_ExportToOFF.c, MESH_ExportToSTL.c).

    The value returned comes with what is in the file afterwards; None: the file was not opened.
    Not modelled: failure of fopen; the file of MESH_ExportToOFF is never closed, so that the text
    reaches the disk only when the program ends normally. *)
From Coq Require Import ZArith Bool Ascii String Floats.SpecFloat List.
From Verif Require Import Base TopoModel ParModel FileModel ColModel.
Import ListNotations.
Open Scope Z_scope.

(** MESH_ExportToOFF.c 49-53. *)
Definition off_vertex (m : fmesh) (v : ptr) : result text :=
  _ <- getv (fm_t m) v ;;
  let '(x, y, z) := fm_x m v in
  Ok (width 20 (fixed 12 x) ++ sp ++ width 20 (fixed 12 y) ++ sp ++ width 20 (fixed 12 z) ++ nl).

(** MESH_ExportToOFF.c 59-65. *)
Definition off_face (m : fmesh) (f : ptr) : result text :=
  l <- MF_Vertices (fm_t m) f 1 NULL ;;
  s <- printM (fun i => v <- lent l i ;; _ <- getv (fm_t m) v ;; Ok (sp ++ pd (fm_id m v))) (zrange 0 (ZL l)) ;;
  Ok (pd (ZL l) ++ sp ++ s ++ nl).

(** MESH_ExportToOFF.c 23-69. *)
Definition MESH_ExportToOFF (m : fmesh) : result (Z * option text) :=
  match fm_r m, fm_f m with
  | [], _ :: _ =>
      sv <- printM (off_vertex m) (fm_v m) ;;
      sf <- printM (off_face m) (fm_f m) ;;
      Ok (1, Some (str "OFF" ++ nl ++ pd (ZL (fm_v m)) ++ sp ++ pd (ZL (fm_f m)) ++ sp ++ pd (ZL (fm_e m)) ++ nl ++ sv ++ sf))
  | _, _ => Ok (0, None)
  end.

(** MESH_ExportToSTL.c 67-83: the normal of a triangle. *)
Definition fsub : spec_float -> spec_float -> spec_float := SFsub 53 1024.
Definition minus3 (p q : spec_float * spec_float * spec_float) : spec_float * spec_float * spec_float :=
  let '(x, y, z) := p in let '(x', y', z') := q in (fsub x x', fsub y y', fsub z z').
Definition cross (v w : spec_float * spec_float * spec_float) : spec_float * spec_float * spec_float :=
  let '(a, b, c) := v in let '(d, e, f) := w in
  (fsub (fmul b f) (fmul c e), fsub (fmul c d) (fmul a f), fsub (fmul a e) (fmul b d)).
Definition unit3 (v : spec_float * spec_float * spec_float) : spec_float * spec_float * spec_float :=
  let '(a, b, c) := v in
  let len := SFsqrt 53 1024 (fadd (fadd (fmul a a) (fmul b b)) (fmul c c)) in
  (fdiv a len, fdiv b len, fdiv c len).

(** MESH_ExportToSTL.c 85-88. *)
Definition line3 (w k : nat) (p : spec_float * spec_float * spec_float) : text :=
  let '(x, y, z) := p in width w (fixed k x) ++ sp ++ width w (fixed k y) ++ sp ++ width w (fixed k z) ++ nl.

(** MESH_ExportToSTL.c 59-91. *)
Definition stl_face (m : fmesh) (f : ptr) : result text :=
  l <- MF_Coords m f ;;
  match l with
  | [p; q; r] =>
      Ok (str "facet normal " ++ line3 12 8 (unit3 (cross (minus3 q p) (minus3 r p))) ++ str "  outer loop" ++ nl ++
          str "    vertex " ++ line3 20 10 p ++ str "    vertex " ++ line3 20 10 q ++ str "    vertex " ++ line3 20 10 r ++
          str "endloop" ++ str "endfacet")
  | _ => Undef
  end.

(** MESH_ExportToSTL.c 23-98; the file is opened, and so emptied, before the mesh is looked at. *)
Fixpoint triangles (m : fmesh) (l : list ptr) : result bool :=
  match l with
  | [] => Ok true
  | f :: l' => n <- MF_Num_Edges (fm_t m) f ;; if negb (n =? 3) then Ok false else triangles m l'
  end.
Definition MESH_ExportToSTL (m : fmesh) : result (Z * option text) :=
  match fm_r m with
  | _ :: _ => Ok (0, Some [])
  | [] =>
      ok <- triangles m (fm_f m) ;;
      if negb ok then Ok (0, Some []) else
      s <- printM (stl_face m) (fm_f m) ;;
      Ok (1, Some (str "solid" ++ nl ++ s ++ str "endsolid"))
  end.
