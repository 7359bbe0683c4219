(** What a mesh must be to be distributed.  Independent of DistModel.v. *)
From Coq Require Import ZArith Bool List.
From Verif Require Import Base ListSpec AttModel TopoModel TopoSpec TopoProps FileModel FileSpec SendModel SendSpec PartSpec GhostSpec.
Import ListNotations.
Open Scope Z_scope.

(** Faces have edges and regions have faces; everything is, or bounds, a cell; every part has
    cells; global IDs are given to all entities of a kind, and are distinct, or to none. *)
Record distributable (s : smesh) (a : amesh) (part : list Z) (num : Z) : Prop := mkDistributable {
  di_mesh : partable s a;
  di_master : forall d g, d < celldim s -> In g (skind s d) -> pi_master (sm_p s g) = 0;
  di_len : length (cells s) = length part;
  di_range : forall i, In i part -> 0 <= i < num;
  di_num : 2 <= num <= 2 ^ 28;
  di_each : forall k, 0 <= k < num -> In k part;
  di_cell : forall d x, In x (skind s d) -> exists c, In c (cells s) /\ (x = c \/ bounds a x c);
  di_face : forall f, a_f a f <> Some (true, Some []);
  di_region : forall r, a_r a r <> Some (true, Some []);
  di_size : 3 * ZL (skind s 0) < 2 ^ 31 /\ 5 * ZL (skind s 1) < 2 ^ 31 /\ 34 * ZL (skind s 2) < 2 ^ 31 /\ 516 * ZL (skind s 3) < 2 ^ 31;
  di_gid : forall d, (forall p, In p (skind s d) -> pi_gid (sm_p s p) = 0) \/
    ((forall p, In p (skind s d) -> 1 <= pi_gid (sm_p s p) < 2 ^ 31) /\ forall p q, In p (skind s d) -> In q (skind s d) -> pi_gid (sm_p s p) = pi_gid (sm_p s q) -> p = q);
  di_atts : Forall (fun x => short (at_name x) /\ match at_type x with TVECTOR | TTENSOR => at_ncomp x <> 1 | _ => at_ncomp x = 1 end) (satts s) }.

(** The mesh of rank [p]. *)
Definition rank_mesh (ms : list smesh) (p : Z) : smesh := nth (Z.to_nat p) ms empty_smesh.
(** Entities of two ranks that have the same global ID. *)
Definition twins (ms : list smesh) (d p q j q' : Z) : Prop :=
  In q (skind (rank_mesh ms p) d) /\ In q' (skind (rank_mesh ms j) d) /\ pi_gid (sm_p (rank_mesh ms p) q) = pi_gid (sm_p (rank_mesh ms j) q').
(** The rank that is the master of an entity. *)
Definition master_of (ms : list smesh) (p q : Z) : Z := pi_master (sm_p (rank_mesh ms p) q).
