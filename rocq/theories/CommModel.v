(** Message passing: programs of the ranks and their joint executions.

    MPI_Send, MPI_Recv and the collective calls are operations of a program; what
    a rank computes between them is ordinary code.  A state of the machine has
    what each rank has still to do and the messages on the way between each pair
    of ranks.  This file models MPI itself (no source lines); the programs of the
    ranks are in ExchModel.v and GidModel.v. *)
From Coq Require Import ZArith List Bool.
From Verif Require Import Base.
Import ListNotations.
Open Scope Z_scope.

(** MPI_INT or MPI_DOUBLE; doubles are 64-bit patterns. *)
Inductive mty := TInt | TDbl.
Definition msg : Type := mty * list Z.

Inductive prog (R : Type) : Type :=
| Ret (r : R)
| Fail                                                                  (* abort, undefined behaviour *)
| Snd (dst tag : Z) (m : msg) (k : prog R)                              (* MPI_Send *)
| Rcv (src tag : Z) (ty : mty) (max : Z) (k : list Z -> prog R)         (* MPI_Recv of at most max values *)
| Col (x : list Z) (k : list (list Z) -> prog R).                       (* collective: all contributions, by rank *)
Arguments Ret {R}. Arguments Fail {R}. Arguments Snd {R}. Arguments Rcv {R}. Arguments Col {R}.

Fixpoint pbind {A B} (p : prog A) (f : A -> prog B) : prog B :=
  match p with
  | Ret r => f r
  | Fail => Fail
  | Snd d t m k => Snd d t m (pbind k f)
  | Rcv s t ty n k => Rcv s t ty n (fun x => pbind (k x) f)
  | Col x k => Col x (fun y => pbind (k y) f)
  end.
Definition lift {A B} (r : result A) (f : A -> prog B) : prog B := match r with Ok a => f a | _ => Fail end.

Notation "x <~ p ;; f" := (pbind p (fun x => f)) (at level 61, p at next level, right associativity).
Notation "x <! r ;; f" := (lift r (fun x => f)) (at level 61, r at next level, right associativity).
Notation "' pat <! r ;; f" := (lift r (fun pat => f)) (at level 61, pat pattern, r at next level, right associativity).

(** for (i = 0; i < numprocs; i++) ... *)
Fixpoint pfold {S} (f : Z -> S -> prog S) (l : list Z) (s : S) : prog S :=
  match l with [] => Ret s | i :: t => pbind (f i s) (pfold f t) end.

(** Ranks are 0..n-1; [chan p q] holds what [p] sent to [q], oldest first. *)
Record world (R : Type) := mkW { procs : Z -> prog R; chan : Z -> Z -> list (Z * msg) }.
Arguments mkW {R}. Arguments procs {R}. Arguments chan {R}.

Definition set1 {A} (f : Z -> A) (p : Z) (x : A) : Z -> A := fun q => if q =? p then x else f q.
Definition set2 {A} (f : Z -> Z -> A) (p q : Z) (x : A) : Z -> Z -> A := fun a b => if (a =? p) && (b =? q) then x else f a b.
Definition ranks (n : Z) : list Z := map Z.of_nat (seq 0 (Z.to_nat n)).
Definition init {R} (ps : Z -> prog R) : world R := mkW ps (fun _ _ => []).
Definition on (n p : Z) : Prop := 0 <= p < n.
Definition no_tag (tag : Z) (l : list (Z * msg)) : Prop := forall x, In x l -> fst x <> tag.

(** Steps that MPI guarantees to happen: a receive whose message has been sent
    (the oldest one with that tag), a send for which the receive is posted (also
    when sends are synchronous), a collective that all ranks have reached.  A
    receive of another type or of more values than it has room for is an error: no
    step. *)
Inductive sure {R} (n : Z) : world R -> world R -> Prop :=
| s_recv : forall w p q tag ty max k d l1 l2, on n p -> on n q -> procs w q = Rcv p tag ty max k ->
    chan w p q = l1 ++ (tag, (ty, d)) :: l2 -> no_tag tag l1 -> Z.of_nat (length d) <= max ->
    sure n w (mkW (set1 (procs w) q (k d)) (set2 (chan w) p q (l1 ++ l2)))
| s_meet : forall w p q tag ty max kp kq d, on n p -> on n q -> p <> q -> procs w p = Snd q tag (ty, d) kp -> procs w q = Rcv p tag ty max kq ->
    no_tag tag (chan w p q) -> Z.of_nat (length d) <= max ->
    sure n w (mkW (set1 (set1 (procs w) p kp) q (kq d)) (chan w))
| s_coll : forall w x k, (forall p, on n p -> procs w p = Col (x p) (k p)) ->
    sure n w (mkW (fun p => if (0 <=? p) && (p <? n) then k p (map x (ranks n)) else procs w p) (chan w)).

(** All steps: a send may also go ahead by buffering its message. *)
Inductive step {R} (n : Z) : world R -> world R -> Prop :=
| s_sure : forall w w', sure n w w' -> step n w w'
| s_buf : forall w p q tag m k, on n p -> on n q -> procs w p = Snd q tag m k ->
    step n w (mkW (set1 (procs w) p k) (set2 (chan w) p q (chan w p q ++ [(tag, m)]))).

(** Executions of given length. *)
Inductive exec {R} (n : Z) : nat -> world R -> world R -> Prop :=
| e_nil : forall w, exec n 0 w w
| e_cons : forall k w1 w2 w3, step n w1 w2 -> exec n k w2 w3 -> exec n (S k) w1 w3.
