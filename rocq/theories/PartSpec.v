(** What a partition of a mesh is.  Independent of the functions of PartModel.v. *)
From Coq Require Import ZArith Bool List.
From Verif Require Import Base ListSpec AttModel TopoModel TopoSpec TopoProps FileModel FileSpec SendModel SendSpec.
Import ListNotations.
Open Scope Z_scope.

(** A mesh that can be partitioned: its lists hold exactly the live entities, these
    are complete, and the faces have at most 30 edges. *)
Record partable (s : smesh) (a : amesh) : Prop := mkPartable {
  pa_reach : reach (sm_t s) a;
  pa_nd : forall d, NoDup (skind s d);
  pa_v : forall p, In p (skind s 0) <-> live_v a p;
  pa_e : forall p, In p (skind s 1) <-> live_e a p;
  pa_f : forall p, In p (skind s 2) <-> live_f a p;
  pa_r : forall p, In p (skind s 3) <-> live_r a p;
  pa_ends : forall e v0 v1, a_e a e = Some (true, (v0, v1)) -> v0 <> NULL /\ v1 <> NULL;
  pa_faces : forall f, a_f a f <> Some (true, None);
  pa_loops : forall f b, a_f a f = Some (true, Some b) -> (length b <= 30)%nat;
  pa_regions : forall r, a_r a r <> Some (true, None);
  pa_class : forall d p, In p (skind s d) -> 0 <= fst (fm_c (sm_m s) p) < 8 /\ 0 <= snd (fm_c (sm_m s) p) < 2 ^ 26 }.

(** Dimension of the cells: regions if there are any. *)
Definition celldim (s : smesh) : Z := match skind s 3 with [] => 2 | _ => 3 end.
Definition cells (s : smesh) : list ptr := skind s (celldim s).

(** What belongs to part [k]: its cells and all that bounds them. *)
Inductive inpart (s : smesh) (a : amesh) (part : list Z) (k : Z) : ptr -> Prop :=
| ip_cell : forall i g, nth_error (cells s) i = Some g -> nth_error part i = Some k -> inpart s a part k g
| ip_face : forall r f d, inpart s a part k r -> has_face a r f d -> inpart s a part k f
| ip_edge : forall f e, inpart s a part k f -> has_edge a f e -> inpart s a part k e
| ip_vertex : forall e v, inpart s a part k e -> is_end a e v -> inpart s a part k v.

(** The first part that has the entity. *)
Definition owner (s : smesh) (a : amesh) (part : list Z) (g : ptr) (j : Z) : Prop :=
  0 <= j /\ inpart s a part j g /\ forall i, 0 <= i < j -> ~ inpart s a part i g.

Definition via (o : ptr -> ptr) (b : bdry) : bdry := map (fun x => (o (fst x), snd x)) b.

(** [sub] is part [k] of [s]; [o] maps its entities to those of [s]; [s'] is [s] after
    global IDs and partition numbers were given. *)
Record is_part (s : smesh) (a : amesh) (part : list Z) (k : Z) (s' sub : smesh) (a' : amesh) (o : ptr -> ptr) : Prop := mkIsPart {
  po_reach : reach (sm_t sub) a';
  po_nd : forall d, NoDup (skind sub d);
  po_v : forall q, In q (skind sub 0) <-> live_v a' q;
  po_e : forall q, In q (skind sub 1) <-> live_e a' q;
  po_f : forall q, In q (skind sub 2) <-> live_f a' q;
  po_r : forall q, In q (skind sub 3) <-> live_r a' q;
  po_id : forall d i q, nth_error (skind sub d) i = Some q -> fm_id (sm_m sub) q = Z.of_nat i + 1;
  po_onto : forall d g, (In g (skind s d) /\ inpart s a part k g) <-> exists q, In q (skind sub d) /\ o q = g;
  po_inj : forall d q d' q', In q (skind sub d) -> In q' (skind sub d') -> o q = o q' -> q = q';
  po_ends : forall q, In q (skind sub 1) -> exists u w, a_e a' q = Some (true, (u, w)) /\ a_e a (o q) = Some (true, (o u, o w)) /\ In u (skind sub 0) /\ In w (skind sub 0);
  po_loop : forall q, In q (skind sub 2) -> exists b, a_f a' q = Some (true, Some b) /\ a_f a (o q) = Some (true, Some (via o b)) /\ (forall x, In x b -> In (fst x) (skind sub 1));
  po_faces : forall q, In q (skind sub 3) -> exists b, a_r a' q = Some (true, Some b) /\ a_r a (o q) = Some (true, Some (via o b)) /\ (forall x, In x b -> In (fst x) (skind sub 2));
  po_xyz : forall q, In q (skind sub 0) -> fm_x (sm_m sub) q = fm_x (sm_m s) (o q);
  po_class : forall d q, In q (skind sub d) -> fm_c (sm_m sub) q = fm_c (sm_m s) (o q);
  po_gid : forall d q, In q (skind sub d) -> pi_gid (sm_p sub q) = pi_gid (sm_p s' (o q)) /\ pi_gid (sm_p sub q) <> 0;
  po_master : forall d q, In q (skind sub d) -> owner s a part (o q) (pi_master (sm_p sub q));
  po_plain : forall q, pi_ptype (sm_p sub q) = 0 /\ pi_bdry (sm_p sub q) = false }.

(** [g] bounds [x]: an end of an edge, an edge of a face, a face of a region, and so on. *)
Definition up (a : amesh) (g x : ptr) : Prop := is_end a x g \/ has_edge a x g \/ exists d, has_face a x g d.
Inductive bounds (a : amesh) : ptr -> ptr -> Prop :=
| bd_one : forall g x, up a g x -> bounds a g x
| bd_more : forall g y x, up a g y -> bounds a y x -> bounds a g x.
