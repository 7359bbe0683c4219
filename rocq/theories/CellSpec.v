(** Specification of the standard elements: their shape, and when a boundary is
    one of them.  Independent of the model. *)
From Coq Require Import ZArith List Bool Permutation.
From Verif Require Import Base TopoSpec TopoProps TopoProps2.
Import ListNotations.
Open Scope Z_scope.

(** Number of vertices; the faces as loops of vertices, running counterclockwise
    seen from outside; the edges. *)
Record shape := mkShape { s_nv : nat; s_loops : list (list nat); s_edges : list (nat * nat) }.
Definition tetrahedron := mkShape 4
  [[0; 2; 1]; [0; 1; 3]; [1; 2; 3]; [2; 0; 3]]%nat
  [(0, 1); (1, 2); (2, 0); (0, 3); (1, 3); (2, 3)]%nat.
Definition pyramid := mkShape 5
  [[0; 3; 2; 1]; [0; 1; 4]; [1; 2; 4]; [2; 3; 4]; [3; 0; 4]]%nat
  [(0, 1); (1, 2); (2, 3); (3, 0); (0, 4); (1, 4); (2, 4); (3, 4)]%nat.
Definition prism := mkShape 6
  [[0; 2; 1]; [3; 4; 5]; [0; 1; 4; 3]; [1; 2; 5; 4]; [2; 0; 3; 5]]%nat
  [(0, 1); (1, 2); (2, 0); (3, 4); (4, 5); (5, 3); (0, 3); (1, 4); (2, 5)]%nat.
Definition hexahedron := mkShape 8
  [[0; 3; 2; 1]; [4; 5; 6; 7]; [0; 1; 5; 4]; [1; 2; 6; 5]; [2; 3; 7; 6]; [3; 0; 4; 7]]%nat
  [(0, 1); (1, 2); (2, 3); (3, 0); (4, 5); (5, 6); (6, 7); (7, 4); (0, 4); (1, 5); (2, 6); (3, 7)]%nat.

(** The live edge [e] joins [u] and [w]. *)
Definition joins a e u w := exists p q, a_e a e = Some (true, (p, q)) /\ ((p = u /\ q = w) \/ (p = w /\ q = u)).
(** Walking around the face [fst x] in its direction of use [snd x], one passes
    the vertices [vs] (starting anywhere). *)
Definition outward a (x : ptr * bool) (vs : list ptr) : Prop :=
  exists fb u c, a_f a (fst x) = Some (true, Some fb) /\ path a u fb u /\ rotation (walk (snd x) fb) c /\ around a vs c.
(** [e] is an edge of one of the faces [b]. *)
Definition cell_edge a (b : list (ptr * bool)) e := exists f d, In (f, d) b /\ has_edge a f e.
(** Vertex number i of a list. *)
Definition W (ws : list ptr) (i : nat) : ptr := nth i ws NULL.
(** The faces [b] bound a cell of shape [s] with the vertices [ws]: distinct
    vertices, the faces in any order correspond to the loops of the shape, and no
    two edges of the cell have the same ends. *)
Definition cell a (s : shape) (b : list (ptr * bool)) (ws : list ptr) : Prop :=
  length ws = s_nv s /\ NoDup ws /\ Forall (live_v a) ws /\
  (forall e e' u w, cell_edge a b e -> cell_edge a b e' -> joins a e u w -> joins a e' u w -> e = e') /\
  exists Ls, Permutation Ls (s_loops s) /\ Forall2 (fun x L => outward a x (map (W ws) L)) b Ls.
(** Edges in the order of the shape. *)
Definition edges_of a (s : shape) (ws es : list ptr) : Prop :=
  Forall2 (fun e p => joins a e (W ws (fst p)) (W ws (snd p))) es (s_edges s).
(** No edge outside the cell joins two of its vertices. *)
Definition chordless a b (ws : list ptr) : Prop :=
  forall e u w, In u ws -> In w ws -> joins a e u w -> cell_edge a b e.
