(** Model of /repo/src/misc/compare_funcs.c. *)
From Coq Require Import ZArith List Bool Floats.SpecFloat.
From Verif Require Import Base SortModel.
Import ListNotations.
Open Scope Z_scope.

(** compare_funcs.c 19-21 compareINT. *)
Definition compareINT (a b : Z) : result Z := ck32 (a - b).

(** compare_funcs.c 23-25 compareGlobalID, 27-29 compareID, 154-156
    compareValence: the difference of an [int] attribute of the entities. *)
Definition compareGlobalID (gid : Z -> Z) (a b : ptr) : result Z := ck32 (gid a - gid b).
Definition compareID (id : Z -> Z) (a b : ptr) : result Z := ck32 (id a - id b).
Definition compareValence (nedges : Z -> Z) (a b : ptr) : result Z := ck32 (nedges a - nedges b).

(** IEEE binary64 numbers: the specification floats of the standard library. *)
Definition f64sub : spec_float -> spec_float -> spec_float := SFsub 53 1024.

(** compare_funcs.c 33: the double nearest to 1e-12. *)
Definition tol12 : spec_float := S754_finite false 4951760157141521 (-92).

(** compare_funcs.c 37-43: the loop over three coordinates. *)
Fixpoint coor_loop (a b : list spec_float) : Z :=
  match a, b with
  | x :: a', y :: b' =>
      if SFltb tol12 (f64sub x y) then 1
      else if SFltb tol12 (f64sub y x) then -1
      else coor_loop a' b'
  | _, _ => 0
  end.

(** compare_funcs.c 32-44 compareCoorDouble. *)
Definition compareCoorDouble (a b : spec_float * spec_float * spec_float) : Z :=
  let '(a0, a1, a2) := a in let '(b0, b1, b2) := b in coor_loop [a0; a1; a2] [b0; b1; b2].

(** compare_funcs.c 46-51 compareVertexCoor; [xyz] is MV_Coords. *)
Definition compareVertexCoor (xyz : Z -> spec_float * spec_float * spec_float) (a b : ptr) : Z :=
  compareCoorDouble (xyz a) (xyz b).

(** compare_funcs.c 54-70 compareEdgeINT. *)
Definition compareEdgeINT (a b : Z * Z) : Z :=
  let '(max1, min1) := if fst a <? snd a then (snd a, fst a) else a in
  let '(max2, min2) := if fst b <? snd b then (snd b, fst b) else b in
  if max1 >? max2 then 1 else if max1 <? max2 then -1
  else if min1 >? min2 then 1 else if min1 <? min2 then -1 else 0.

(** compare_funcs.c 73-89 compareEdgeID; [ev] gives ME_Vertex 0 and 1. *)
Definition compareEdgeID (gid : Z -> Z) (ev : Z -> Z * Z) (e1 e2 : ptr) : Z :=
  compareEdgeINT (gid (fst (ev e1)), gid (snd (ev e1))) (gid (fst (ev e2)), gid (snd (ev e2))).

(** qsort of the C library with comparison [compareINT] (trusted: it returns the
    sorted permutation).  Undefined when some comparison would overflow. *)
Fixpoint ins (x : Z) (l : list Z) : list Z :=
  match l with [] => [x] | y :: t => if x <=? y then x :: l else y :: ins x t end.
Definition isort (l : list Z) : list Z := fold_right ins [] l.
Definition qsortINT (l : list Z) : result (list Z) :=
  if forallb (fun x => forallb (fun y => (- 2 ^ 31 <=? x - y) && (x - y <? 2 ^ 31)) l) l then Ok (isort l) else Undef.

(** compare_funcs.c 110-115: the loop over the sorted entries. *)
Fixpoint lex_loop (a b : list Z) : Z :=
  match a, b with
  | x :: a', y :: b' => if x >? y then 1 else if x <? y then -1 else lex_loop a' b'
  | _, _ => 0
  end.

(** Reading [n] entries of an array from position [i]. *)
Fixpoint rdn (a : array Z) (i : Z) (n : nat) : result (list Z) :=
  match n with O => Ok [] | S m => x <- rd a i ;; r <- rdn a (i + 1) m ;; Ok (x :: r) end.

(** compare_funcs.c 92-117 compareFaceINT; arrays hold the number of vertices
    and then the vertices.  The in-place reordering by qsort is not part of the
    result (theorem C10_face_order shows that it does not matter). *)
Definition compareFaceINT (a b : array Z) : result Z :=
  n1 <- rd a 0 ;; n2 <- rd b 0 ;;
  if n1 >? n2 then Ok 1 else if n1 <? n2 then Ok (-1)
  else
    l1 <- rdn a 1 (Z.to_nat n1) ;; s1 <- qsortINT l1 ;;
    l2 <- rdn b 1 (Z.to_nat n2) ;; s2 <- qsortINT l2 ;;
    Ok (lex_loop s1 s2).

(** compare_funcs.c 119-151 compareFaceID; [fv] is MF_Vertices, and List_Sort
    with compareGlobalID puts the global IDs in order. *)
Definition compareFaceID (gid : Z -> Z) (fv : Z -> list Z) (f1 f2 : ptr) : result Z :=
  let n1 := Z.of_nat (length (fv f1)) in let n2 := Z.of_nat (length (fv f2)) in
  if n1 >? n2 then Ok 1 else if n1 <? n2 then Ok (-1)
  else
    s1 <- qsortINT (map gid (fv f1)) ;; s2 <- qsortINT (map gid (fv f2)) ;;
    Ok (lex_loop s1 s2).
