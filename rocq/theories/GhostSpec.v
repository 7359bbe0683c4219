(** What layers of ghost cells are.  Independent of the functions of GhostModel.v. *)
From Coq Require Import ZArith Bool List.
From Verif Require Import Base ListSpec AttModel TopoModel TopoSpec TopoProps FileModel FileSpec SendModel SendSpec PartSpec.
Import ListNotations.
Open Scope Z_scope.

(** Two cells with a vertex in common. *)
Definition touch (s : smesh) (a : amesh) (c c' : ptr) : Prop := exists v, In v (skind s 0) /\ bounds a v c /\ bounds a v c'.
(** The cells of part [k] and [n] layers around them. *)
Fixpoint within (s : smesh) (a : amesh) (part : list Z) (k : Z) (n : nat) (c : ptr) : Prop :=
  match n with
  | O => exists i, nth_error (cells s) i = Some c /\ nth_error part i = Some k
  | S n => within s a part k n c \/ In c (cells s) /\ exists c', within s a part k n c' /\ touch s a c' c
  end.
(** These cells and all that bounds them. *)
Definition halo (s : smesh) (a : amesh) (part : list Z) (k : Z) (n : nat) (g : ptr) : Prop :=
  exists c, within s a part k n c /\ (g = c \/ bounds a g c).

(** [sub] is part [k] of [s] with [n] layers of ghosts; [o] maps its entities to those of [s]. *)
Record is_halo (s : smesh) (a : amesh) (part : list Z) (k : Z) (n : nat) (s' sub : smesh) (a' : amesh) (o : ptr -> ptr) : Prop := mkIsHalo {
  ho_reach : reach (sm_t sub) a';
  ho_nd : forall d, NoDup (skind sub d);
  ho_v : forall q, In q (skind sub 0) <-> live_v a' q;
  ho_e : forall q, In q (skind sub 1) <-> live_e a' q;
  ho_f : forall q, In q (skind sub 2) <-> live_f a' q;
  ho_r : forall q, In q (skind sub 3) <-> live_r a' q;
  ho_id : forall d i q, nth_error (skind sub d) i = Some q -> fm_id (sm_m sub) q = Z.of_nat i + 1;
  ho_onto : forall d g, (In g (skind s d) /\ halo s a part k n g) <-> exists q, In q (skind sub d) /\ o q = g;
  ho_inj : forall d q d' q', In q (skind sub d) -> In q' (skind sub d') -> o q = o q' -> q = q';
  ho_ends : forall q, In q (skind sub 1) -> exists u w, a_e a' q = Some (true, (u, w)) /\ a_e a (o q) = Some (true, (o u, o w)) /\ In u (skind sub 0) /\ In w (skind sub 0);
  ho_loop : forall q, In q (skind sub 2) -> exists b, a_f a' q = Some (true, Some b) /\ a_f a (o q) = Some (true, Some (via o b)) /\ (forall x, In x b -> In (fst x) (skind sub 1));
  ho_faces : forall q, In q (skind sub 3) -> exists b, a_r a' q = Some (true, Some b) /\ a_r a (o q) = Some (true, Some (via o b)) /\ (forall x, In x b -> In (fst x) (skind sub 2));
  ho_xyz : forall q, In q (skind sub 0) -> fm_x (sm_m sub) q = fm_x (sm_m s) (o q);
  ho_class : forall d q, In q (skind sub d) -> fm_c (sm_m sub) q = fm_c (sm_m s) (o q);
  ho_gid : forall d q, In q (skind sub d) -> pi_gid (sm_p sub q) = pi_gid (sm_p s' (o q)) /\ pi_gid (sm_p sub q) <> 0;
  ho_master : forall d q, In q (skind sub d) -> owner s a part (o q) (pi_master (sm_p sub q)) }.

(** The types (include/MSTK_types.h 99: interior 0, overlap 1, ghost 3): ghost is what another
    part is the master of; overlap is what this part is the master of and others have too. *)
Definition typed (s : smesh) (a : amesh) (part : list Z) (k : Z) (n : nat) (sub : smesh) (o : ptr -> ptr) : Prop :=
  forall d q, In q (skind sub d) ->
    (pi_master (sm_p sub q) <> k -> pi_ptype (sm_p sub q) = 3) /\
    (pi_master (sm_p sub q) = k -> (exists j, j <> k /\ halo s a part j n (o q)) -> pi_ptype (sm_p sub q) = 1) /\
    (pi_master (sm_p sub q) = k -> (forall j, j <> k -> ~ halo s a part j n (o q)) -> pi_ptype (sm_p sub q) = 0).
(** The entities on the boundary between parts stay flagged. *)
Definition flagged (s : smesh) (a : amesh) (part : list Z) (k : Z) (sub : smesh) (o : ptr -> ptr) : Prop :=
  forall d q, In q (skind sub d) -> (pi_bdry (sm_p sub q) = true <-> inpart s a part k (o q) /\ exists x, bounds a (o q) x /\ ~ inpart s a part k x).
