(** Model of /repo/src/util/Hash.c.  The entities stored in a table are nodes of
    a heap: next pointer (MEnt_NextInHash), key (MEnt_HashKey) and lock word;
    the dispatch is in /repo/src/base/MEdge.c 412-442 and MFace.c 443-474. *)
From Coq Require Import ZArith List Bool.
From Verif Require Import Base.
Import ListNotations.
Open Scope Z_scope.

(** The fields of an edge or face used by the table: /repo/src/base/MEdge_R4.c
    79-101, MFace_R2.c 124-152 (hnext, lock: include/MEdge.h 59-60,
    include/MFace.h 68-69 and 75-76; the key is the vertex array,
    MEdge.c 431-442, MFace.c 463-474). *)
Record hnode := mkN { hn_next : ptr; hn_key : list ptr; hn_lock : Z }.

(** Allocated entities; [None]: not allocated, or freed by MEnt_Delete. *)
Notation heap := (Z -> option hnode) (only parsing).

Definition hget (hp : heap) (e : ptr) : result hnode :=
  match hp e with Some n => Ok n | None => Undef end.

Definition hupd (hp : heap) (e : ptr) (n : option hnode) : heap :=
  fun x => if x =? e then n else hp x.

(** MEnt_Set_NextInHash. *)
Definition hset_next (hp : heap) (e v : ptr) : result heap :=
  n <- hget hp e ;; Ok (hupd hp e (Some (mkN v (hn_key n) (hn_lock n)))).

(** Hash.c 22-26: struct Hash (include/Hash.h 23-26). *)
Record Hash := mkH { h_dat : Z; h_entry : array ptr }.

Record hpars := mkHP { hp_n : Z; hp_p : Z; hp_t : Z }.

(** Hash.c 36-44 pvtHash_Get_Pars: [int d = nentdat], arithmetic shifts. *)
Definition hGet_Pars (h : Hash) : hpars :=
  let d := s32 (h_dat h) in
  mkHP (u32 (Z.shiftr d 6)) (Z.land d 31) (Z.land (Z.shiftr d 5) 1).

(** Hash.c 46-48 pvtHash_Get_Nent, 145-147 Hash_Num_Entries. *)
Definition Hash_Num_Entries (h : Hash) : Z := Z.shiftr (h_dat h) 6.

(** Hash.c 50-52 pvtHash_Get_Size. *)
Definition hGet_Size (h : Hash) : result Z := shl1 (Z.land (h_dat h) 31).

(** Hash.c 59-63 Hash_Set_AutoRemove (h not NULL). *)
Definition Hash_Set_AutoRemove (h : Hash) (t : Z) : Hash :=
  mkH (if negb (t =? 0) then Z.lor (h_dat h) 32 else Z.land (h_dat h) (u32 (Z.lnot 32))) (h_entry h).

(** Hash.c 66-74 pvtHash_Set_Pars. *)
Definition hSet_Pars (h : Hash) (n p t : Z) : Hash :=
  mkH (u32 (Z.lor (Z.lor (Z.shiftl n 6) (Z.shiftl t 5)) p)) (h_entry h).

Definition hset_entry (h : Hash) (a : array ptr) : Hash := mkH (h_dat h) a.

(** Hash.c 101-103: the loop of Hash_New, in unsigned arithmetic. *)
Fixpoint hfind_p (fuel : nat) (p n : Z) : result Z :=
  match fuel with
  | O => Undef
  | S f => if p >? 31 then Undef else if 2 ^ p <? n then hfind_p f (p + 1) n else Ok p
  end.

(** Hash.c 97-118 Hash_New. *)
Definition Hash_New (inisize type : Z) : result Hash :=
  p <- (if inisize =? 0 then Ok 5 else hfind_p 33 0 inisize) ;;
  n <- shl1 p ;;
  Ok (hSet_Pars (mkH 0 (repeat (Some NULL) (Z.to_nat n))) 0 p type).

(** Hash.c 158-163: the inner loop of pvtHash_Function over the 8 bytes of one
    pointer (sizeof(unsigned long) = 8). *)
Fixpoint hash_bytes (n : nat) (hash p : Z) : Z :=
  match n with
  | O => hash
  | S m =>
      let hash := u32 (hash + Z.land p 255) in
      let hash := u32 (hash + u32 (Z.shiftl hash 10)) in
      let hash := Z.lxor hash (Z.shiftr hash 6) in
      hash_bytes m hash (Z.shiftr p 8)
  end.

(** Hash.c 151-169 pvtHash_Function. *)
Definition hash_fun (key : list ptr) : Z :=
  let hash := fold_left (fun h p => hash_bytes 8 h p) key 0 in
  let hash := u32 (hash + u32 (Z.shiftl hash 3)) in
  let hash := Z.lxor hash (Z.shiftr hash 11) in
  u32 (hash + u32 (Z.shiftl hash 15)).

(** Hash.c 171-178 pvtHash_CheckKeys. *)
Fixpoint keys_eqb (a b : list ptr) : bool :=
  match a, b with
  | [], [] => true
  | x :: a', y :: b' => (x =? y) && keys_eqb a' b'
  | _, _ => false
  end.

(** Hash.c 192-196, 330-334: search along a chain. *)
Fixpoint chain_find (fuel : nat) (hp : heap) (ent : ptr) (key : list ptr) : result ptr :=
  if ent =? NULL then Ok NULL
  else match fuel with
       | O => OutOfFuel
       | S f => n <- hget hp ent ;;
                if keys_eqb key (hn_key n) then Ok ent else chain_find f hp (hn_next n) key
       end.

(** Iterations given to a walk along one chain. *)
Definition chain_fuel (h : Hash) : nat := S (Z.to_nat (hp_n (hGet_Pars h))).

(** Hash.c 181-198 Hash_Entry. *)
Definition Hash_Entry (hp : heap) (h : Hash) (key : list ptr) : result ptr :=
  size <- hGet_Size h ;;
  ent <- rd (h_entry h) (Z.land (hash_fun key) (size - 1)) ;;
  chain_find (chain_fuel h) hp ent key.

(** Hash.c 221-243: one chain in pvtHash_Enlarge. *)
Fixpoint enl_chain (fuel : nat) (hp : heap) (a : array ptr) (i nold mask : Z) (ent prev : ptr)
  : result (heap * array ptr) :=
  if ent =? NULL then Ok (hp, a)
  else match fuel with
       | O => OutOfFuel
       | S f =>
           n <- hget hp ent ;;
           let j := Z.land (hash_fun (hn_key n)) mask in
           if negb (i =? j) then
             if negb (i + nold =? j) then Fatal
             else
               let next := hn_next n in
               top <- rd a (i + nold) ;;
               hp <- hset_next hp ent top ;;
               a <- wr a (i + nold) ent ;;
               '(hp, a) <- (if negb (prev =? NULL)
                            then hp <- hset_next hp prev next ;; Ok (hp, a)
                            else a <- wr a i next ;; Ok (hp, a)) ;;
               enl_chain f hp a i nold mask next prev
           else enl_chain f hp a i nold mask (hn_next n) ent
       end.

(** Hash.c 217-244: all chains. *)
Fixpoint enl_bins (n : nat) (fuel : nat) (hp : heap) (a : array ptr) (i nold mask : Z)
  : result (heap * array ptr) :=
  match n with
  | O => Ok (hp, a)
  | S m =>
      ent <- rd a i ;;
      a <- wr a (i + nold) NULL ;;
      '(hp, a) <- enl_chain fuel hp a i nold mask ent NULL ;;
      enl_bins m fuel hp a (i + 1) nold mask
  end.

(** Hash.c 200-248 pvtHash_Enlarge. *)
Definition hEnlarge (hp : heap) (h : Hash) : result (heap * Hash) :=
  let q := hGet_Pars h in
  nold <- shl1 (hp_p q) ;;
  nalloc <- shl1 (hp_p q + 1) ;;
  '(hp, a) <- enl_bins (Z.to_nat nold) (chain_fuel h) hp (resize (h_entry h) nalloc) 0 nold (nalloc - 1) ;;
  Ok (hp, hSet_Pars (hset_entry h a) (hp_n q) (hp_p q + 1) (hp_t q)).

(** Hash.c 431-435 Hash_IsLocked. *)
Definition Hash_IsLocked (lock : Z) : bool := negb (Z.land lock 15 =? 0).

(** Hash.c 264-277: one chain in Hash_Remove_Unused; result (heap, array,
    number removed).  MEnt_Delete(ent,0) is modelled as freeing the node
    (/repo/src/base/MEntity.c MEnt_Delete; detaching from other entities is
    not modelled here). *)
Fixpoint rmu_chain (fuel : nat) (hp : heap) (a : array ptr) (i : Z) (ent prev : ptr) (count : Z)
  : result (heap * array ptr * Z) :=
  if ent =? NULL then Ok (hp, a, count)
  else match fuel with
       | O => OutOfFuel
       | S f =>
           n <- hget hp ent ;;
           let next := hn_next n in
           if negb (Hash_IsLocked (hn_lock n)) then
             '(hp, a) <- (if negb (prev =? NULL)
                          then hp <- hset_next hp prev next ;; Ok (hp, a)
                          else a <- wr a i next ;; Ok (hp, a)) ;;
             rmu_chain f (hupd hp ent None) a i next prev (count + 1)
           else rmu_chain f hp a i next ent count
       end.

(** Hash.c 261-278: all chains. *)
Fixpoint rmu_bins (n : nat) (fuel : nat) (hp : heap) (a : array ptr) (i count : Z)
  : result (heap * array ptr * Z) :=
  match n with
  | O => Ok (hp, a, count)
  | S m =>
      ent <- rd a i ;;
      '(hp, a, count) <- rmu_chain fuel hp a i ent NULL count ;;
      rmu_bins m fuel hp a (i + 1) count
  end.

(** Hash.c 250-282 Hash_Remove_Unused (h not NULL); result (heap, hash, count). *)
Definition Hash_Remove_Unused (hp : heap) (h : Hash) : result (heap * Hash * Z) :=
  let q := hGet_Pars h in
  size <- shl1 (hp_p q) ;;
  '(hp, a, count) <- rmu_bins (Z.to_nat size) (chain_fuel h) hp (h_entry h) 0 0 ;;
  Ok (hp, hSet_Pars (hset_entry h a) (hp_n q - count) (hp_p q) (hp_t q), count).

(** Hash.c 76-95 pvtHash_CheckSize; the comparison 1.0*nent >= 8.0*nalloc is
    exact in double for these sizes. *)
Definition hCheckSize (hp : heap) (h : Hash) : result (heap * Hash) :=
  let q := hGet_Pars h in
  nalloc <- shl1 (hp_p q) ;;
  if hp_n q >=? 8 * nalloc then
    '(hp, h, nent) <- (if negb (hp_t q =? 0)
                       then '(hp, h, c) <- Hash_Remove_Unused hp h ;; Ok (hp, h, u32 (hp_n q - c))
                       else Ok (hp, h, hp_n q)) ;;
    if nent >=? 8 * nalloc then hEnlarge hp h else Ok (hp, h)
  else Ok (hp, h).

(** Hash.c 284-309 Hash_Add. *)
Definition Hash_Add (hp : heap) (h : Hash) (entry : ptr) (key : list ptr) : result (heap * Hash) :=
  let hash := hash_fun key in
  '(hp, h) <- hCheckSize hp h ;;
  let q := hGet_Pars h in
  nalloc <- shl1 (hp_p q) ;;
  let i := Z.land hash (nalloc - 1) in
  ent <- rd (h_entry h) i ;;
  hp <- hset_next hp entry ent ;;
  a <- wr (h_entry h) i entry ;;
  Ok (hp, hSet_Pars (hset_entry h a) (hp_n q + 1) (hp_p q) (hp_t q)).

(** Hash.c 312-343 Hash_ChknAdd; result (heap, hash, value): value NULL stands
    for "the hash itself was returned", otherwise the entity found is returned
    (line 332 returns ent, not h). *)
Definition Hash_ChknAdd (hp : heap) (h : Hash) (entry : ptr) (key : list ptr)
  : result (heap * Hash * ptr) :=
  let hash := hash_fun key in
  '(hp, h) <- hCheckSize hp h ;;
  let q := hGet_Pars h in
  nalloc <- shl1 (hp_p q) ;;
  let i := Z.land hash (nalloc - 1) in
  ent <- rd (h_entry h) i ;;
  r <- chain_find (chain_fuel h) hp ent key ;;
  if negb (r =? NULL) then Ok (hp, h, r)
  else
    top <- rd (h_entry h) i ;;
    hp <- hset_next hp entry top ;;
    a <- wr (h_entry h) i entry ;;
    Ok (hp, hSet_Pars (hset_entry h a) (hp_n q + 1) (hp_p q) (hp_t q), NULL).

(** Hash.c 364-368: one chain in Hash_Entries.  The list returned is a NULL-free
    sequence (justified by C01 for List_New and List_Add). *)
Fixpoint chain_list (fuel : nat) (hp : heap) (ent : ptr) : result (list ptr) :=
  if ent =? NULL then Ok []
  else match fuel with
       | O => OutOfFuel
       | S f => n <- hget hp ent ;; r <- chain_list f hp (hn_next n) ;; Ok (ent :: r)
       end.

(** Hash.c 363-369: all chains in Hash_Entries. *)
Fixpoint bins_list (n fuel : nat) (hp : heap) (a : array ptr) (i : Z) : result (list ptr) :=
  match n with
  | O => Ok []
  | S m => ent <- rd a i ;; r <- chain_list fuel hp ent ;;
           rs <- bins_list m fuel hp a (i + 1) ;; Ok (r ++ rs)
  end.

(** Hash.c 353-372 Hash_Entries. *)
Definition Hash_Entries (hp : heap) (h : Hash) : result (list ptr) :=
  size <- shl1 (hp_p (hGet_Pars h)) ;;
  bins_list (Z.to_nat size) (chain_fuel h) hp (h_entry h) 0.

(** Hash.c 414-418 Hash_Lock: new value of the lock word. *)
Definition Hash_Lock (plock : Z) : Z :=
  let lock := Z.land plock 15 in
  Z.lor (Z.land plock (Z.lnot 15)) (if lock <? 15 then lock + 1 else lock).

(** Hash.c 420-429 Hash_UnLock; the warning is not modelled. *)
Definition Hash_UnLock (plock : Z) : Z :=
  let lock := Z.land plock 15 in
  Z.lor (Z.land plock (Z.lnot 15))
        (if lock <? 15 then (if lock >? 0 then lock - 1 else lock) else lock).
