(** Columns of cells.  Independent of the functions of ColModel.v. *)
From Coq Require Import ZArith List.
From Verif Require Import Base ListSpec TopoModel TopoSpec TopoProps FileModel.
Import ListNotations.
Open Scope Z_scope.

Section Columns.
Variables (a : amesh) (ends : ptr -> ptr -> ptr -> Prop).   (* cell, the face above and the face below *)
Definition on_face (r f : ptr) : Prop := exists d, has_face a r f d.
(** A cell with nothing above. *)
Definition topmost (t : ptr) : Prop := exists u d, ends t u d /\ forall r, on_face r u -> r = t.
(** [r'] is the cell below [r]. *)
Definition below (r r' : ptr) : Prop := exists u d d', ends r u d /\ ends r' d d' /\ on_face r' d /\ r' <> r.
(** [r] is in the column under [t]. *)
Inductive column (t : ptr) : ptr -> Prop :=
| col_top : column t t
| col_next : forall r r', column t r -> below r r' -> column t r'.
(** Every cell has a face above and one below, in agreement with its neighbours, and cells are at
    levels that grow downwards. *)
Record columnar (rs : list ptr) (level : ptr -> nat) : Prop := mkColumnar {
  cm_ends : forall r, In r rs -> exists u d, ends r u d;
  cm_down : forall r u d r', In r rs -> ends r u d -> on_face r' d -> r' <> r -> (exists d', ends r' d d') /\ level r' = S (level r);
  cm_up : forall r u d r', In r rs -> ends r u d -> on_face r' u -> r' <> r -> exists u', ends r' u' u }.
End Columns.

(** IDs are positions. *)
Definition numbered (m : fmesh) : Prop := forall i r, nth_error (fm_r m) i = Some r -> fm_id m r = Z.of_nat i + 1.
(** The part of cell [r]. *)
Definition part_of (m : fmesh) (part : list Z) (r : ptr) : option Z := nth_error part (Z.to_nat (fm_id m r - 1)).
