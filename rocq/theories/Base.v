(** Shared conventions of the model: outcomes of a C function, pointers,
    checked arrays, 32-bit words. *)
From Coq Require Import ZArith List Lia Bool.
Import ListNotations.
Open Scope Z_scope.

(** Outcome of a C function.  [Fatal]: MSTK_Report(..., MSTK_FATAL), which ends
    the process (/repo/src/util/MSTK_Report.c, called all over the code).
    [Undef]: undefined behaviour of C (access outside an allocation, read of an
    uninitialised object, NULL dereference).  [OutOfFuel]: a C [while] loop did
    not finish within the number of iterations given to the model. *)
Inductive result (A : Type) : Type :=
| Ok (a : A)
| Fatal
| Undef
| OutOfFuel.
Arguments Ok {A} _.
Arguments Fatal {A}.
Arguments Undef {A}.
Arguments OutOfFuel {A}.

Definition bind {A B} (x : result A) (f : A -> result B) : result B :=
  match x with
  | Ok a => f a
  | Fatal => Fatal
  | Undef => Undef
  | OutOfFuel => OutOfFuel
  end.

Declare Scope mstk_scope.
Notation "x <- e ;; f" := (bind e (fun x => f))
  (at level 61, e at next level, right associativity) : mstk_scope.
Notation "' pat <- e ;; f" := (bind e (fun pat => f))
  (at level 61, pat pattern, e at next level, right associativity) : mstk_scope.
Open Scope mstk_scope.

(** A [void *]; 0 is NULL. *)
Notation ptr := Z (only parsing).
Definition NULL : ptr := 0.

(** Conversions to [unsigned int] and [int] (32 bits, two's complement). *)
Definition u32 (x : Z) : Z := x mod 2 ^ 32.
Definition s32 (x : Z) : Z := (x + 2 ^ 31) mod 2 ^ 32 - 2 ^ 31.

(** [1<<p] for an [int] [p]; undefined when the result does not fit. *)
Definition shl1 (p : Z) : result Z :=
  if (0 <=? p) && (p <? 31) then Ok (2 ^ p) else Undef.

(** An allocated array: [None] is a cell that was never written. *)
Notation array A := (list (option A)) (only parsing).

Definition rd {A} (a : array A) (i : Z) : result A :=
  if (0 <=? i) then
    match nth_error a (Z.to_nat i) with
    | Some (Some x) => Ok x
    | _ => Undef
    end
  else Undef.

Fixpoint upd_nth {A} (l : list A) (n : nat) (x : A) : list A :=
  match l, n with
  | [], _ => []
  | _ :: t, O => x :: t
  | h :: t, S m => h :: upd_nth t m x
  end.

Definition wr {A} (a : array A) (i : Z) (x : A) : result (array A) :=
  if (0 <=? i) && (i <? Z.of_nat (length a))
  then Ok (upd_nth a (Z.to_nat i) (Some x)) else Undef.

(** [realloc] to [n] cells: old contents kept, new cells uninitialised. *)
Definition resize {A} (a : array A) (n : Z) : array A :=
  firstn (Z.to_nat n) a ++ repeat None (Z.to_nat n - length a).

(** [malloc] of [n] cells. *)
Definition malloc {A} (n : Z) : array A := repeat None (Z.to_nat n).

(** [memmove(&a[dst],&a[src],n*sizeof( *a))]; [n] becomes a [size_t], so a
    negative [n] is out of bounds. *)
Definition memmove {A} (a : array A) (dst src n : Z) : result (array A) :=
  if (0 <=? dst) && (0 <=? src) && (0 <=? n)
     && (dst + n <=? Z.of_nat (length a)) && (src + n <=? Z.of_nat (length a))
  then Ok (firstn (Z.to_nat dst) a
           ++ firstn (Z.to_nat n) (skipn (Z.to_nat src) a)
           ++ skipn (Z.to_nat (dst + n)) a)
  else Undef.

(** [memcpy(&d[off],s,n*sizeof( *s))] between two allocations. *)
Definition memcpy {A} (d : array A) (off : Z) (s : array A) (n : Z)
  : result (array A) :=
  if (0 <=? off) && (0 <=? n)
     && (off + n <=? Z.of_nat (length d)) && (n <=? Z.of_nat (length s))
  then Ok (firstn (Z.to_nat off) d
           ++ firstn (Z.to_nat n) s
           ++ skipn (Z.to_nat (off + n)) d)
  else Undef.
