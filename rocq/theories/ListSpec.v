(** Specification of lists of pointers: a finite sequence of non-NULL pointers
    (type [list Z]).  Independent of the model of List.c. *)
From Coq Require Import ZArith List Bool.
Import ListNotations.
Open Scope Z_scope.

(** Remove the first occurrence. *)
Fixpoint remove1 (x : Z) (s : list Z) : list Z :=
  match s with
  | [] => []
  | y :: t => if y =? x then t else y :: remove1 x t
  end.

(** Replace the first occurrence. *)
Fixpoint replace1 (x y : Z) (s : list Z) : list Z :=
  match s with
  | [] => []
  | z :: t => if z =? x then y :: t else z :: replace1 x y t
  end.

(** Index of the first occurrence. *)
Fixpoint index_of (x : Z) (s : list Z) : option nat :=
  match s with
  | [] => None
  | y :: t => if y =? x then Some O else option_map S (index_of x t)
  end.

Definition mem (x : Z) (s : list Z) : bool := existsb (Z.eqb x) s.

(** Element i out, element x in before position i, element at i replaced. *)
Definition delete_at (i : nat) (s : list Z) : list Z := firstn i s ++ skipn (S i) s.
Definition insert_at (i : nat) (x : Z) (s : list Z) : list Z := firstn i s ++ x :: skipn i s.
Definition replace_at (i : nat) (x : Z) (s : list Z) : list Z := firstn i s ++ x :: skipn (S i) s.

(** Insert [x] directly before the first occurrence of [b]; unchanged if there
    is none. *)
Fixpoint insert_before (x b : Z) (s : list Z) : list Z :=
  match s with
  | [] => []
  | y :: t => if y =? b then x :: y :: t else y :: insert_before x b t
  end.

(** The operations of one list, with non-NULL entries. *)
Inductive lop :=
| LAdd (x : Z)
| LChknAdd (x : Z)
| LInserti (x : Z) (i : nat)
| LRem (x : Z)
| LRemi (i : nat)
| LReplace (x y : Z)
| LReplacei (i : nat) (y : Z)
| LCompress
| LCopy                     (* continue with the copy *)
| LNum
| LEntry (i : nat)
| LContains (x : Z)
| LLocate (x : Z)
| LWalk.                    (* all entries, by List_Next_Entry from index 0 *)

(** When an operation may be called on the sequence [s]. *)
Definition lpre (s : list Z) (o : lop) : Prop :=
  match o with
  | LAdd x | LChknAdd x | LRem x | LContains x | LLocate x => x <> 0
  | LInserti x i => x <> 0 /\ (i <= length s)%nat
  | LReplace x y => x <> 0 /\ y <> 0
  | LReplacei i y => y <> 0 /\ (i < length s)%nat
  | LRemi _ | LEntry _ | LCompress | LCopy | LNum | LWalk => True
  end.

(** Effect and returned values. *)
Definition lstep (s : list Z) (o : lop) : list Z * list Z :=
  match o with
  | LAdd x => (s ++ [x], [])
  | LChknAdd x => (if mem x s then s else s ++ [x], [])
  | LInserti x i => (insert_at i x s, [1])
  | LRem x => (remove1 x s, [if mem x s then 1 else 0])
  | LRemi i => (delete_at i s, [if (i <? length s)%nat then 1 else 0])
  | LReplace x y => (replace1 x y s, [if mem x s then 1 else 0])
  | LReplacei i y => (replace_at i y s, [1])
  | LCompress | LCopy => (s, [])
  | LNum => (s, [Z.of_nat (length s)])
  | LEntry i => (s, [nth i s 0])
  | LContains x => (s, [if mem x s then 1 else 0])
  | LLocate x => (s, [match index_of x s with Some i => Z.of_nat i | None => -1 end])
  | LWalk => (s, s)
  end.

(** A history: outputs, final sequence, and whether every call was allowed. *)
Fixpoint lrun (s : list Z) (ops : list lop) : list Z * list (list Z) :=
  match ops with
  | [] => (s, [])
  | o :: t => let '(s1, r) := lstep s o in
              let '(s2, rs) := lrun s1 t in (s2, r :: rs)
  end.

Fixpoint lallowed (s : list Z) (ops : list lop) : Prop :=
  match ops with
  | [] => True
  | o :: t => lpre s o /\ lallowed (fst (lstep s o)) t
  end.
