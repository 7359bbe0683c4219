(** Model of the markers: /repo/src/base/MSTK.c 76-143 and
    /repo/src/base/MEntity.c 256-294, /repo/src/util/List.c 983-997
    (compiled with MSTK_USE_MARKERS; each call holds the mutex, so calls are
    atomic). *)
From Coq Require Import ZArith List Bool.
From Verif Require Import Base ListModel.
Import ListNotations.
Open Scope Z_scope.

(** MSTK.c 77-79: MSTK_marker and MSTK_lastbit; MSTK_MAXBITS is 32. *)
Record mkst := mkM { mk_bits : Z; mk_last : Z }.
Definition mk_init : mkst := mkM 0 (-1).

(** [1<<i] combined with an [unsigned int]: undefined unless 0 <= i <= 31.  For
    i = 31 compilers produce the bit pattern 2^31, which is assumed here. *)
Definition bit32 (i : Z) : result Z := if (0 <=? i) && (i <=? 31) then Ok (2 ^ i) else Undef.

(** [~(1<<i)] as an unsigned int. *)
Definition nbit32 (i : Z) : result Z := b <- bit32 i ;; Ok (u32 (Z.lnot b)).

(** MSTK.c 96-104: search for a free bit from [i], [n] bits left. *)
Fixpoint free_search (n : nat) (m i : Z) : result (option (Z * Z)) :=
  match n with
  | O => Ok None
  | S k =>
      b <- bit32 i ;;
      if negb (Z.land m b =? 0) then free_search k m (i + 1)
      else Ok (Some (Z.lor m b, i + 1))
  end.

(** MSTK.c 82-112 MSTK_GetMarker. *)
Definition MSTK_GetMarker (st : mkst) : result (mkst * Z) :=
  if mk_last st <? 31 then
    let last := mk_last st + 1 in
    b <- bit32 last ;;
    Ok (mkM (Z.lor (mk_bits st) b) last, last + 1)
  else
    r <- free_search 32 (mk_bits st) 0 ;;
    match r with
    | Some (m, mkr) => Ok (mkM m (mk_last st), mkr)
    | None => Fatal
    end.

(** MSTK.c 126: [(int) pow(2,lastbit+1)-1].  When 2^(lastbit+1) does not fit in
    an [int] the conversion is undefined; [ov] stands for whatever comes out. *)
Definition full_mask (ov : Z -> Z) (last : Z) : Z :=
  if last + 1 <? 31 then 2 ^ (last + 1) - 1 else ov last.

(** MSTK.c 134-138: the last bit set. *)
Fixpoint last_search (n : nat) (m i last : Z) : result Z :=
  match n with
  | O => Ok last
  | S k => b <- bit32 i ;; last_search k m (i + 1) (if negb (Z.land m b =? 0) then i else last)
  end.

(** MSTK.c 114-143 MSTK_FreeMarker. *)
Definition MSTK_FreeMarker (ov : Z -> Z) (st : mkst) (mkr : Z) : result mkst :=
  nb <- nbit32 (mkr - 1) ;;
  let m := Z.land (mk_bits st) nb in
  let last := if mkr - 1 =? mk_last st then mk_last st - 1 else mk_last st in
  if negb (m =? full_mask ov last) then
    last <- last_search 32 m 0 (-1) ;; Ok (mkM m last)
  else Ok (mkM m last).

(** ** Marks on entities: the [marker] word of every entity. *)
Notation marks := (Z -> Z) (only parsing).

(** MEntity.c 256-258 MEnt_IsMarked (the value, before its conversion to int). *)
Definition MEnt_IsMarked (mk : marks) (e : ptr) (id : Z) : result Z :=
  b <- bit32 (id - 1) ;; Ok (Z.land (mk e) b).

(** MEntity.c 260-276 MEnt_Mark. *)
Definition MEnt_Mark (mk : marks) (e : ptr) (id : Z) : result (Z -> Z) :=
  b <- bit32 (id - 1) ;; Ok (fun x => if x =? e then Z.lor (mk e) b else mk x).

(** MEntity.c 278-294 MEnt_Unmark. *)
Definition MEnt_Unmark (mk : marks) (e : ptr) (id : Z) : result (Z -> Z) :=
  b <- nbit32 (id - 1) ;; Ok (fun x => if x =? e then Z.land (mk e) b else mk x).

(** List.c 983-989 List_Mark, 991-997 List_Unmark: walk with List_Next_Entry. *)
Fixpoint lmark_from (act : (Z -> Z) -> ptr -> Z -> result (Z -> Z)) (n : nat) (mk : marks) (l : LList) (idx id : Z)
  : result (Z -> Z) :=
  match n with
  | O => OutOfFuel
  | S k =>
      '(idx', e) <- List_Next_Entry l idx ;;
      if e =? NULL then Ok mk
      else mk <- act mk e id ;; lmark_from act k mk l idx' id
  end.
Definition List_Mark (mk : marks) (l : LList) (id : Z) : result (Z -> Z) :=
  lmark_from MEnt_Mark (S (length (entry l))) mk l 0 id.
Definition List_Unmark (mk : marks) (l : LList) (id : Z) : result (Z -> Z) :=
  lmark_from MEnt_Unmark (S (length (entry l))) mk l 0 id.
