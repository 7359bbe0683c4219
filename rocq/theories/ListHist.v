(** Histories of calls on the model of List.c: dispatchers only, the functions
    are those of ListModel.v.  Also the abstract machines the histories are
    compared with. *)
From Coq Require Import ZArith List Bool.
From Verif Require Import Base ListModel ListSpec.
Import ListNotations.
Open Scope Z_scope.

(** One call on one list; /repo/src/util/List.c, the function named. *)
Definition mstep (l : LList) (o : lop) : result (LList * list Z) :=
  match o with
  | LAdd x => l' <- List_Add l x ;; Ok (l', [])
  | LChknAdd x => l' <- List_ChknAdd l x ;; Ok (l', [])
  | LInserti x i => '(l', r) <- List_Inserti l x (Z.of_nat i) ;; Ok (l', [r])
  | LRem x => '(l', r) <- List_Rem l x ;; Ok (l', [r])
  | LRemi i => '(l', r) <- List_Remi l (Z.of_nat i) ;; Ok (l', [r])
  | LReplace x y => '(l', r) <- List_Replace l x y ;; Ok (l', [r])
  | LReplacei i y => '(l', r) <- List_Replacei l (Z.of_nat i) y ;; Ok (l', [r])
  | LCompress => l' <- List_Compress l ;; Ok (l', [])
  | LCopy => l' <- List_Copy l ;; Ok (l', [])
  | LNum => Ok (l, [List_Num_Entries l])
  | LEntry i => x <- List_Entry l (Z.of_nat i) ;; Ok (l, [x])
  | LContains x => r <- List_Contains l x ;; Ok (l, [r])
  | LLocate x => r <- List_Locate l x ;; Ok (l, [r])
  | LWalk => r <- List_Walk l ;; Ok (l, r)
  end.

(** A history of calls on one list. *)
Fixpoint mrun (l : LList) (ops : list lop) : result (LList * list (list Z)) :=
  match ops with
  | [] => Ok (l, [])
  | o :: t => '(l1, r) <- mstep l o ;; '(l2, rs) <- mrun l1 t ;; Ok (l2, r :: rs)
  end.

(** [l] shows the sequence [s] now and under every later history of at most
    [k] calls. *)
Definition behaves (l : LList) (s : list Z) (k : Z) : Prop :=
  forall ops, lallowed s ops -> Z.of_nat (length ops) <= k ->
  exists l', mrun l ops = Ok (l', snd (lrun s ops)).

(** [l] was made by List_New and an allowed history leading to sequence [s],
    with fewer than 2^27 calls in all. *)
Definition reachable (l : LList) (s : list Z) : Prop :=
  exists n ops l0 outs, n < 2 ^ 30 /\ List_New n = Ok l0 /\ lallowed [] ops /\
    Z.of_nat (length ops) < 2 ^ 27 /\ mrun l0 ops = Ok (l, outs) /\ s = fst (lrun [] ops).

(** The calls that only look at a list. *)
Definition is_query (o : lop) : bool :=
  match o with
  | LNum | LEntry _ | LContains _ | LLocate _ | LWalk => true
  | _ => false
  end.

(** ** Several lists, with List_Cat (List.c 947-981) and List_New (107-131) *)

Inductive sop :=
| SNew (n : Z)             (* append a new list to the store *)
| SOp (i : nat) (o : lop)  (* one call on list i *)
| SCat (d s : nat).        (* List_Cat(list d, list s) *)

Definition sstep (st : list LList) (o : sop) : result (list LList * list Z) :=
  match o with
  | SNew n => l <- List_New n ;; Ok (st ++ [l], [])
  | SOp i o =>
      match nth_error st i with
      | Some l => '(l', r) <- mstep l o ;; Ok (upd_nth st i l', r)
      | None => Undef
      end
  | SCat d s =>
      match nth_error st d, nth_error st s with
      | Some ld, Some ls => l' <- List_Cat ld ls ;; Ok (upd_nth st d l', [])
      | _, _ => Undef
      end
  end.

Fixpoint srun (st : list LList) (ops : list sop) : result (list LList * list (list Z)) :=
  match ops with
  | [] => Ok (st, [])
  | o :: t => '(st1, r) <- sstep st o ;; '(st2, rs) <- srun st1 t ;; Ok (st2, r :: rs)
  end.

(** The same on sequences. *)
Definition aspec (st : list (list Z)) (o : sop) : list (list Z) * list Z :=
  match o with
  | SNew _ => (st ++ [[]], [])
  | SOp i o => let '(s', r) := lstep (nth i st []) o in (upd_nth st i s', r)
  | SCat d s => (upd_nth st d (nth d st [] ++ nth s st []), [])
  end.

Fixpoint arun (st : list (list Z)) (ops : list sop) : list (list Z) * list (list Z) :=
  match ops with
  | [] => (st, [])
  | o :: t => let '(st1, r) := aspec st o in let '(st2, rs) := arun st1 t in (st2, r :: rs)
  end.

(** Preconditions of one call, on the sequences and on the raw sizes of the
    model's lists.  [strict] adds the condition that excludes the defect of
    List_Cat: a source with gaps needs a destination with gaps. *)
Definition spre (strict : bool) (st : list LList) (sa : list (list Z)) (o : sop) : Prop :=
  match o with
  | SNew n => n < 2 ^ 30
  | SOp i o => exists l, nth_error st i = Some l /\ lpre (nth i sa []) o /\ List_Size_Raw l + 1 < 2 ^ 27
  | SCat d s => exists ld ls, nth_error st d = Some ld /\ nth_error st s = Some ls /\ d <> s /\
      List_Size_Raw ld + List_Size_Raw ls < 2 ^ 27 /\
      (strict = true -> List_Size_Raw ls = List_Num_Entries ls \/ List_Size_Raw ld <> List_Num_Entries ld)
  end.

Fixpoint sallowed (strict : bool) (st : list LList) (sa : list (list Z)) (ops : list sop) : Prop :=
  match ops with
  | [] => True
  | o :: t => spre strict st sa o /\
      match sstep st o with
      | Ok (st', _) => sallowed strict st' (fst (aspec sa o)) t
      | _ => True
      end
  end.

(** ** Walking with removals and additions in between *)

(** /repo/src/util/List.c 270-295, 351-408, 540-572, 607-661. *)
Inductive wop := WNext | WAdd (x : Z) | WChknAdd (x : Z) | WRem (x : Z) | WRemi (i : nat).

(** State: the list and the walk's index variable.  Output: the entries
    returned by List_Next_Entry, NULL included. *)
Definition wstep (st : LList * Z) (o : wop) : result (LList * Z * list Z) :=
  let '(l, idx) := st in
  match o with
  | WNext => '(idx', e) <- List_Next_Entry l idx ;; Ok (l, idx', [e])
  | WAdd x => l' <- List_Add l x ;; Ok (l', idx, [])
  | WChknAdd x => l' <- List_ChknAdd l x ;; Ok (l', idx, [])
  | WRem x => '(l', _) <- List_Rem l x ;; Ok (l', idx, [])
  | WRemi i => '(l', _) <- List_Remi l (Z.of_nat i) ;; Ok (l', idx, [])
  end.

Fixpoint wrun (st : LList * Z) (ops : list wop) : result (LList * Z * list Z) :=
  match ops with
  | [] => Ok (st, [])
  | o :: t => '(st1, r) <- wstep st o ;; '(st2, rs) <- wrun st1 t ;; Ok (st2, r ++ rs)
  end.

(** Abstract walk: the entries already passed and those still to come. *)
Definition vstep (st : list Z * list Z) (o : wop) : list Z * list Z * list Z :=
  let '(v, p) := st in
  match o with
  | WNext => match p with [] => (v, p, [0]) | x :: p' => (v ++ [x], p', [x]) end
  | WAdd x => (v, p ++ [x], [])
  | WChknAdd x => (v, if mem x (v ++ p) then p else p ++ [x], [])
  | WRem x => if mem x v then (remove1 x v, p, []) else (v, remove1 x p, [])
  | WRemi i => if (i <? length v)%nat then (delete_at i v, p, [])
               else (v, delete_at (i - length v) p, [])
  end.

Fixpoint vrun (st : list Z * list Z) (ops : list wop) : list Z * list Z * list Z :=
  match ops with
  | [] => (st, [])
  | o :: t => let '(st1, r) := vstep st o in let '(st2, rs) := vrun st1 t in (st2, r ++ rs)
  end.

Definition wop_ok (o : wop) : Prop :=
  match o with WAdd x | WChknAdd x | WRem x => x <> 0 | _ => True end.

(** The entries given to List_Add and List_ChknAdd during the walk. *)
Fixpoint added (ops : list wop) : list Z :=
  match ops with
  | [] => []
  | WAdd x :: t | WChknAdd x :: t => x :: added t
  | _ :: t => added t
  end.

(** [a] is [b] with some elements left out. *)
Inductive subseq : list Z -> list Z -> Prop :=
| ss_nil : subseq [] []
| ss_skip : forall x a b, subseq a b -> subseq a (x :: b)
| ss_take : forall x a b, subseq a b -> subseq (x :: a) (x :: b).
