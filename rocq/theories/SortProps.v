(** Property C09: the quicksort.  The specification is Permutation and
    StronglySorted of the standard library. *)
From Coq Require Import ZArith List Lia Bool Arith ZifyBool ZifyNat Permutation Sorting.Sorted.
From Verif Require Import Base BaseProofs SortModel SortProofs.
Import ListNotations.
Open Scope Z_scope.

(** The array is [pre ++ m ++ post]; [pre] and [post] may even be
    uninitialised memory: they are neither read (that would be [Undef]) nor
    changed.  [key] is NULL or has a value [f x] for every [x] in [m]. *)
Theorem C09_quicksort : forall key f (pre post : array Z) m,
  (forall x, In x m -> match key with Some k => rd k x = Ok (f x) | None => f x = x end) ->
  Z.of_nat (length pre + length m) < 2 ^ 31 ->
  exists m', mstk_quicksort (pre ++ map Some m ++ post) key (Z.of_nat (length pre)) (Z.of_nat (length pre) + Z.of_nat (length m) - 1) =
      Ok (pre ++ map Some m' ++ post) /\
    Permutation m m' /\ StronglySorted (fun x y => f x <= f y) m'.
Proof.
  intros key f pre post m K L. unfold mstk_quicksort. apply qsort_spec; auto; [lia|].
  intros x Hx. specialize (K x Hx). destruct key; simpl; auto. congruence.
Qed.
Print Assumptions C09_quicksort.

(** Empty ranges, wherever they are. *)
Theorem C09_quicksort_empty : forall (a : array Z) key ib ie, - 2 ^ 31 < ie - ib < 0 -> mstk_quicksort a key ib ie = Ok a.
Proof.
  intros. unfold mstk_quicksort. replace (Z.to_nat (ie - ib + 1)) with 0%nat by lia. cbn [qsort_rec].
  rewrite (ck_ok (ie - ib)) by lia. cbn [bind]. rewrite ck_ok by lia. cbn [bind]. replace (ie - ib + 1 <=? 1) with true by lia. auto.
Qed.
Print Assumptions C09_quicksort_empty.

Example C09_ex : mstk_quicksort ([None] ++ map Some [4; 1; 3; 0; 2; 1] ++ [Some 7; None])
    (Some (map Some [50; 30; 30; 10; 20])) 1 6 = Ok ([None] ++ map Some [3; 4; 1; 1; 2; 0] ++ [Some 7; None]).
Proof. vm_compute. reflexivity. Qed.
Example C09_null_ex : mstk_quicksort ([None] ++ map Some [4; -1; 3; 4; 0; 2; 1; 2]) None 1 8 =
    Ok ([None] ++ map Some [-1; 0; 1; 2; 2; 3; 4; 4]).
Proof. vm_compute. reflexivity. Qed.
