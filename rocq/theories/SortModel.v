(** Model of /repo/src/util/mstk_quicksort.c. *)
From Coq Require Import ZArith List Bool.
From Verif Require Import Base.
Import ListNotations.
Open Scope Z_scope.

(** [int] arithmetic: undefined when the result does not fit. *)
Definition ck32 (x : Z) : result Z := if (- 2 ^ 31 <=? x) && (x <? 2 ^ 31) then Ok x else Undef.

(** The key of an array value, mstk_quicksort.c 55, 62, 109, 123, 131
    ([None]: key is NULL). *)
Definition qkey (key : option (array Z)) (x : Z) : result Z :=
  match key with Some k => rd k x | None => Ok x end.

(** The three-assignment exchange, mstk_quicksort.c 56-58, 113-115, 124-126,
    142-144. *)
Definition qswap (a : array Z) (i j : Z) : result (array Z) :=
  tmp <- rd a i ;; y <- rd a j ;; a <- wr a i y ;; wr a j tmp.

(** mstk_quicksort.c 121-138: the loop of the partition; [n] iterations left;
    result (array, i_store). *)
Fixpoint qpart_loop (n : nat) (a : array Z) (key : option (array Z)) (i store v : Z)
  : result (array Z * Z) :=
  match n with
  | O => Ok (a, store)
  | S m =>
      x <- rd a i ;;
      kx <- qkey key x ;;
      if kx <? v then
        a <- qswap a i store ;;
        qpart_loop m a key (i + 1) (store + 1) v
      else qpart_loop m a key (i + 1) store v
  end.

(** mstk_quicksort.c 104-147 mstk_quicksort_partition. *)
Definition qpartition (a : array Z) (key : option (array Z)) (ib ie ip : Z) : result (array Z * Z) :=
  x <- rd a ip ;;
  v <- qkey key x ;;
  a <- qswap a ie ip ;;
  '(a, store) <- qpart_loop (Z.to_nat (ie - ib)) a key ib ib v ;;
  a <- qswap a store ie ;;
  Ok (a, store).

(** mstk_quicksort.c 46-88 mstk_quicksort; the fuel bounds the recursion depth. *)
Fixpoint qsort_rec (fuel : nat) (a : array Z) (key : option (array Z)) (ib ie : Z) : result (array Z) :=
  d <- ck32 (ie - ib) ;;
  n <- ck32 (d + 1) ;;
  if n <=? 1 then Ok a
  else if n =? 2 then
    x <- rd a ib ;; y <- rd a ie ;;
    kx <- qkey key x ;; ky <- qkey key y ;;
    if kx >? ky then qswap a ib ie else Ok a
  else match fuel with
       | O => OutOfFuel
       | S f =>
           p <- ck32 (ib + Z.quot n 2) ;;
           '(a, p) <- qpartition a key ib ie p ;;
           let nlo := p - ib + 1 in
           let nhi := ie - p in
           if nlo <? nhi then
             a <- qsort_rec f a key ib (p - 1) ;; qsort_rec f a key (p + 1) ie
           else
             a <- qsort_rec f a key (p + 1) ie ;; qsort_rec f a key ib (p - 1)
       end.

Definition mstk_quicksort (a : array Z) (key : option (array Z)) (ib ie : Z) : result (array Z) :=
  qsort_rec (Z.to_nat (ie - ib + 1)) a key ib ie.
