(** Specification of histories of a mesh: which entities exist, as a function of
    the calls only.  Uses the names of the calls (type mop) and nothing else of
    the model. *)
From Coq Require Import ZArith List Bool.
From Verif Require Import Base ListSpec EntModel AttModel MeshModel.
Import ListNotations.
Open Scope Z_scope.

(** [hl k]: the live entities of kind k, in order of creation; [hk k]: deleted
    with keep=1 and still restorable; [hs k]: deleted with keep=1 before a
    renumbering (their IDs may since have been reused); [hfl]: entity lists
    are flagged as sorted by ID; [hord k]: the list of kind k is in ID order;
    [hgap k]: the list of kind k may have holes left by deletions. *)
Record hist := mkH { hl : Z -> list Z; hk : Z -> list Z; hs : Z -> list Z; hfl : bool; hord : Z -> bool; hgap : Z -> bool }.

Definition h0 : hist := mkH (fun _ => []) (fun _ => []) (fun _ => []) true (fun _ => true) (fun _ => false).

Definition requested (t k : Z) : bool := (t =? k) || (t =? 5).

Definition hstep (h : hist) (o : mop) : hist :=
  match o with
  | MNew k p _ => mkH (zupd (hl h) k (hl h k ++ [p])) (hk h) (hs h) (hfl h) (hord h) (hgap h)
  | MDel k p keep =>
      if mem p (hl h k) then
        mkH (zupd (hl h) k (remove1 p (hl h k)))
            (if keep then zupd (hk h) k (p :: hk h k) else hk h) (hs h) false (hord h) (zupd (hgap h) k true)
      else if keep then h
      else mkH (hl h) (zupd (hk h) k (remove1 p (hk h k))) (zupd (hs h) k (remove1 p (hs h k))) (hfl h) (hord h) (hgap h)
  | MRestore k p =>
      mkH (zupd (hl h) k (hl h k ++ [p])) (zupd (hk h) k (remove1 p (hk h k))) (hs h) (hfl h) (zupd (hord h) k false) (hgap h)
  | MEnable => if hfl h then h else mkH (hl h) (hk h) (hs h) true (fun _ => true) (fun k => Nat.eqb (length (hl h k)) 0 && hgap h k)
  | MRenum t =>
      mkH (hl h) (fun _ => []) (fun k => hk h k ++ hs h k)
          (hfl h && negb (existsb (fun k => requested t k && negb (Nat.eqb (length (hl h k)) 0)) [0; 1; 2; 3]))
          (fun k => requested t k || hord h k) (hgap h)
  end.

(** When a call is allowed.  [sr]: no restoration while the lists are flagged as
    sorted, and no MESH_Enable_LocalIDSearch while some kind has lost all its
    entities by deletion; [sd]: deletions only of entities whose list is in ID order. *)
Definition hpre (sr sd : bool) (h : hist) (o : mop) : Prop :=
  match o with
  | MNew k p _ => 0 <= k <= 3 /\ p <> 0 /\ forall j, 0 <= j <= 3 -> ~ In p (hl h j ++ hk h j ++ hs h j)
  | MDel k p _ => 0 <= k <= 3 /\ (In p (hl h k) /\ (sd = true -> hord h k = true) \/ In p (hk h k ++ hs h k))
  | MRestore k p => 0 <= k <= 3 /\ In p (hk h k) /\ (sr = true -> hfl h = false)
  | MEnable => sr = true -> forall k, 0 <= k <= 3 -> hl h k = [] -> hgap h k = false
  | MRenum _ => True
  end.

Fixpoint hallowed (sr sd : bool) (h : hist) (ops : list mop) : Prop :=
  match ops with
  | [] => True
  | o :: t => hpre sr sd h o /\ hallowed sr sd (hstep h o) t
  end.

Definition hrun (h : hist) (ops : list mop) : hist := fold_left hstep ops h.
