(** Specification of structured meshes: a grid of points, and the square or cube
    it is classified on.  Independent of the model. *)
From Coq Require Import ZArith List Bool.
From Verif Require Import Base TopoModel TopoSpec TopoProps TopoProps2 CellSpec.
Import ListNotations.
Open Scope Z_scope.

(** ** The grid *)

Definition point := (Z * Z * Z)%type.
Inductive axis := AX | AY | AZ.
(** The next point along an axis. *)
Definition step (d : axis) (p : point) : point :=
  let '(i, j, k) := p in match d with AX => (i + 1, j, k) | AY => (i, j + 1, k) | AZ => (i, j, k + 1) end.
(** The points of a grid of n cells; in 2D the last number of cells is 0. *)
Definition within (n p : point) : Prop :=
  let '(nx, ny, nz) := n in let '(i, j, k) := p in 0 <= i <= nx /\ 0 <= j <= ny /\ 0 <= k <= nz.
(** Edges, by their axis and their first point; faces, by their normal and their
    first point; cells by their first point. *)
Definition is_e n (x : axis * point) : Prop := within n (snd x) /\ within n (step (fst x) (snd x)).
Definition plane (d : axis) : axis * axis := match d with AX => (AY, AZ) | AY => (AX, AZ) | AZ => (AX, AY) end.
Definition loop_of (x : axis * point) : list point :=
  let '(a, b) := plane (fst x) in let p := snd x in [p; step a p; step b (step a p); step b p].
Definition sides_of (x : axis * point) : list (axis * point) :=
  let '(a, b) := plane (fst x) in let p := snd x in [(a, p); (b, step a p); (a, step b p); (b, p)].
Definition is_f n (x : axis * point) : Prop :=
  within n (snd x) /\ within n (step (snd (plane (fst x))) (step (fst (plane (fst x))) (snd x))).
Definition corners_of (p : point) : list point :=
  [p; step AX p; step AY (step AX p); step AY p; step AZ p; step AZ (step AX p); step AZ (step AY (step AX p)); step AZ (step AY p)].
Definition is_c n (p : point) : Prop := within n p /\ within n (step AZ (step AY (step AX p))).
(** The two faces of a cell across an axis, and whether the cell uses the first
    one in its direction (walking around it as [loop_of] does, the cell is on the
    left, seen from outside). *)
Definition along (d : axis) : bool := match d with AY => true | _ => false end.
Definition walls_of (p : point) (x : axis * point) (s : bool) : Prop :=
  (snd x = p /\ s = along (fst x)) \/ (snd x = step (fst x) p /\ s = negb (along (fst x))).

(** [g] numbers the things satisfying [A] by the indices satisfying [P]. *)
Definition numbers {I} (P : I -> Prop) (A : ptr -> Prop) (g : I -> ptr) : Prop :=
  (forall i, P i -> A (g i)) /\ (forall i j, P i -> P j -> g i = g j -> i = j) /\ (forall x, A x -> exists i, P i /\ g i = x).
(** There are [n] pointers satisfying [A]. *)
Definition counts (A : ptr -> Prop) (n : Z) : Prop := exists l, NoDup l /\ (forall x, In x l <-> A x) /\ Z.of_nat (length l) = n.

(** ** The model *)

(** Where a coordinate is: 0 at the lower end, 2 at the upper, 1 between. *)
Definition side (n i : Z) : Z := if i =? 0 then 0 else if i =? n then 2 else 1.
Definition at_v (n p : point) : point := let '(nx, ny, nz) := n in let '(i, j, k) := p in (side nx i, side ny j, side nz k).
Definition inner (d : axis) (s : point) : point := let '(x, y, z) := s in match d with AX => (1, y, z) | AY => (x, 1, z) | AZ => (x, y, 1) end.
(** Place of an edge, a face, a cell: along its axes it is between the ends. *)
Definition at_e n (x : axis * point) : point := inner (fst x) (at_v n (snd x)).
Definition at_f n (x : axis * point) : point := inner (fst (plane (fst x))) (inner (snd (plane (fst x))) (at_v n (snd x))).

(** A model: the corners where its vertices 1, 2, ... are, and its entities of
    each dimension, numbered 1, 2, ..., by the model vertices on them. *)
Record solid := mkSolid { m_at : list point; m_ents : list (list (list Z)) }.
(** MESH_Gen_Structured.c 20-60: the picture; front is the lower end of y. *)
Definition cube := mkSolid
  [(0, 0, 0); (2, 0, 0); (0, 2, 0); (2, 2, 0); (0, 0, 2); (2, 0, 2); (0, 2, 2); (2, 2, 2)]
  [ [[1]; [2]; [3]; [4]; [5]; [6]; [7]; [8]];
    [[1; 2]; [2; 6]; [5; 6]; [1; 5]; [3; 4]; [4; 8]; [7; 8]; [3; 7]; [1; 3]; [2; 4]; [6; 8]; [5; 7]];
    [[1; 2; 5; 6]; [3; 4; 7; 8]; [1; 2; 3; 4]; [5; 6; 7; 8]; [2; 4; 6; 8]; [1; 3; 5; 7]];
    [[1; 2; 3; 4; 5; 6; 7; 8]] ].
(** In 2D: vertices and sides counterclockwise from the lower left corner. *)
Definition square := mkSolid
  [(0, 0, 0); (2, 0, 0); (2, 2, 0); (0, 2, 0)]
  [ [[1]; [2]; [3]; [4]]; [[1; 2]; [2; 3]; [3; 4]; [4; 1]]; [[1; 2; 3; 4]] ].
(** The corner [q] is on the smallest model entity around place [s]. *)
Definition touches (s q : point) : Prop :=
  let '(x, y, z) := s in let '(u, v, w) := q in (x = 1 \/ x = u) /\ (y = 1 \/ y = v) /\ (z = 1 \/ z = w).
Definition ones (s : point) : Z := let '(x, y, z) := s in (if x =? 1 then 1 else 0) + (if y =? 1 then 1 else 0) + (if z =? 1 then 1 else 0).
(** [c] (dimension, number) is the smallest model entity around place [s]. *)
Definition on (M : solid) (s : point) (c : Z * Z) : Prop :=
  fst c = ones s /\ 1 <= snd c /\
  exists es vs, nth_error (m_ents M) (Z.to_nat (fst c)) = Some es /\ nth_error es (Z.to_nat (snd c - 1)) = Some vs /\
  forall i q, nth_error (m_at M) i = Some q -> (In (Z.of_nat i + 1) vs <-> touches s q).

(** ** The mesh *)

(** Vertices, edges and faces of the mesh [a] are those of the grid, connected as
    in it, and classified ([c]: dimension and number) on the model [M]. *)
Record grid (n : point) (M : solid) (t : topo) (a : amesh) (c : ptr -> Z * Z) (V : point -> ptr) (E F : axis * point -> ptr) : Prop := mkGrid {
  gr_reach : reach t a;
  gr_v : numbers (within n) (fun v => a_v a v = Some true) V;
  gr_e : numbers (is_e n) (fun e => exists x, a_e a e = Some (true, x)) E;
  gr_f : numbers (is_f n) (fun f => exists b, a_f a f = Some (true, b)) F;
  gr_ends : forall x, is_e n x -> joins a (E x) (V (snd x)) (V (step (fst x) (snd x)));
  gr_loop : forall x, is_f n x -> outward a (F x, true) (map V (loop_of x));
  gr_sides : forall x, is_f n x -> forall e, has_edge a (F x) e <-> exists y, In y (sides_of x) /\ e = E y;
  gr_on_v : forall p, within n p -> on M (at_v n p) (c (V p));
  gr_on_e : forall x, is_e n x -> on M (at_e n x) (c (E x));
  gr_on_f : forall x, is_f n x -> on M (at_f n x) (c (F x)) }.
(** The same for the regions of the mesh. *)
Record cells (n : point) (M : solid) (t : topo) (a : amesh) (c : ptr -> Z * Z) (V : point -> ptr) (F : axis * point -> ptr) (R : point -> ptr) : Prop := mkCells {
  ce_r : numbers (is_c n) (fun r => exists b, a_r a r = Some (true, b)) R;
  ce_walls : forall p, is_c n p -> forall f s, has_face a (R p) f s <-> exists x, walls_of p x s /\ f = F x;
  ce_cell : forall p, is_c n p -> exists b, a_r a (R p) = Some (true, Some b) /\ cell a hexahedron b (map V (corners_of p));
  ce_on : forall p, is_c n p -> on M (1, 1, 1) (c (R p)) }.
