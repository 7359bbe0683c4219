(** What is left of a mesh without its interior.  Independent of the functions of InteriorModel.v. *)
From Coq Require Import ZArith Bool List.
From Verif Require Import Base ListSpec AttModel TopoModel TopoSpec TopoProps FileModel FileSpec SendModel SendSpec PartSpec.
Import ListNotations.
Open Scope Z_scope.

(** The mesh has cells of dimension [n]. *)
Definition of_dim (s : smesh) (n : Z) : Prop := 1 <= n <= 3 /\ skind s n <> [] /\ forall k, n < k <= 3 -> skind s k = [].
(** Entities classified on a model entity of lower dimension stay. *)
Definition stays (s : smesh) (n : Z) (d : Z) (p : ptr) : Prop := In p (skind s d) /\ d <> 3 /\ fst (fm_c (sm_m s) p) <> n.
(** The boundary of what stays, stays. *)
Definition closed_under (s : smesh) (a : amesh) (n : Z) : Prop :=
  (forall f e, stays s n 2 f -> has_edge a f e -> stays s n 1 e) /\ (forall e v, stays s n 1 e -> is_end a e v -> stays s n 0 v).
Definition before (p q : ptr) (l : list ptr) : Prop := exists l1 l2 l3, l = l1 ++ p :: l2 ++ q :: l3.
(** [s'] is what stays of [s]. *)
Record boundary (s : smesh) (a : amesh) (n : Z) (s' : smesh) (a' : amesh) : Prop := mkBoundary {
  bd_in : forall d p, In p (skind s' d) <-> stays s n d p;
  bd_order : forall d p q, before p q (skind s' d) -> before p q (skind s d);
  bd_edge : forall e, stays s n 1 e -> a_e a' e = a_e a e;
  bd_face : forall f, stays s n 2 f -> a_f a' f = a_f a f;
  bd_data : fm_x (sm_m s') = fm_x (sm_m s) /\ fm_c (sm_m s') = fm_c (sm_m s) /\ fm_id (sm_m s') = fm_id (sm_m s) /\ sm_p s' = sm_p s }.

(** Faces inside have two regions; edges and vertices on the outside are those of faces there. *)
Definition two_cells (a : amesh) (f : ptr) : Prop := exists r r' d d', r <> r' /\ has_face a r f d /\ has_face a r' f d'.
Record classified (s : smesh) (a : amesh) : Prop := mkClassified {
  cl_face : forall f, In f (skind s 2) -> (fst (fm_c (sm_m s) f) = 3 <-> two_cells a f);
  cl_edge : forall e, In e (skind s 1) -> (fst (fm_c (sm_m s) e) <> 3 <-> exists f, has_edge a f e /\ fst (fm_c (sm_m s) f) <> 3);
  cl_vertex : forall v, In v (skind s 0) -> (fst (fm_c (sm_m s) v) <> 3 <-> exists e, is_end a e v /\ fst (fm_c (sm_m s) e) <> 3) }.
