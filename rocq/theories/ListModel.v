(** Model of /repo/src/util/List.c (struct in /repo/include/List.h). *)
From Coq Require Import ZArith List Lia Bool.
From Verif Require Import Base.
Import ListNotations.
Open Scope Z_scope.

(** /repo/src/util/List.c 28-65: [nentdat] packs the number of valid entries and
    the exponent p, [remdat] is NULL or (number of removed entries, index of the
    first removed one), [entry] is the allocated array. *)
Record LList := mkL {
  nentdat : Z;                  (* unsigned int *)
  remdat : option (Z * Z);      (* two unsigned ints *)
  entry : array ptr
}.

Record pars := mkP { nent : Z; lp : Z; nrem : Z; rem1 : Z }.

(** List.c 67-79 pvtList_Get_Pars. *)
Definition Get_Pars (l : LList) : pars :=
  let '(nr, r1) := match remdat l with
                   | Some (a, b) => (s32 a, s32 b)
                   | None => (0, -1)
                   end in
  mkP (Z.shiftr (nentdat l) 5) (Z.land (nentdat l) 31) nr r1.

(** List.c 86-105 pvtList_Set_Pars.  [nent<<5] is taken modulo 2^32. *)
Definition Set_Pars (l : LList) (n p nr r1 : Z) : LList :=
  mkL (u32 (Z.lor (Z.shiftl n 5) p))
      (if nr =? 0 then None else Some (u32 nr, u32 r1))
      (entry l).

Definition set_entry (l : LList) (a : array ptr) : LList :=
  mkL (nentdat l) (remdat l) a.

(** List.c 112-116 (and 959-962): smallest exponent p, from the given start,
    with (1<<p) > n.  Undefined once [1<<p] overflows. *)
Fixpoint find_p (fuel : nat) (p n : Z) : result Z :=
  match fuel with
  | O => Undef
  | S f => s <- shl1 p ;; if s >? n then Ok p else find_p f (p + 1) n
  end.

(** List.c 107-131 List_New. *)
Definition List_New (inisize : Z) : result LList :=
  p <- (if inisize =? 0 then Ok 3 else find_p 32 0 inisize) ;;
  s <- shl1 p ;;
  Ok (Set_Pars (mkL 0 None (malloc (s - 1))) 0 p 0 (-1)).

(** List.c 140-157 List_Copy. *)
Definition List_Copy (o : LList) : result LList :=
  let q := Get_Pars o in
  s <- shl1 (lp q) ;;
  a <- memcpy (malloc (s - 1)) 0 (entry o) (nent q + nrem q) ;;
  Ok (Set_Pars (mkL 0 None a) (nent q) (lp q) (nrem q) (rem1 q)).

(** List.c 160-162 List_Num_Entries, 81-83 pvtList_Get_Nent. *)
Definition List_Num_Entries (l : LList) : Z := Z.shiftr (nentdat l) 5.

(** List.c 170-175 List_Size_Raw. *)
Definition List_Size_Raw (l : LList) : Z :=
  let q := Get_Pars l in nent q + nrem q.

(** The loop of List.c 209-215, 451-459, 635-644, 847-855: step through the raw
    entries counting the valid ones until the count reaches i.  The number of
    iterations is the loop bound.  Result: (ip, ic) after the loop. *)
Fixpoint scan_ith (n : nat) (a : array ptr) (ip ic i : Z) : result (Z * Z) :=
  match n with
  | O => Ok (ip, ic)
  | S m =>
      x <- rd a ip ;;
      if x =? NULL then scan_ith m a (ip + 1) ic i
      else if ic + 1 =? i then Ok (ip, ic + 1)
           else scan_ith m a (ip + 1) (ic + 1) i
  end.

(** List.c 195-216, 437-460, 622-645, 834-856: find the position of the i'th
    valid entry, with the short cut when there is no gap up to it. *)
Definition locate_ith (l : LList) (q : pars) (i : Z) : result (Z * Z) :=
  if (nrem q =? 0) || (rem1 q >? i) then Ok (i, i)
  else scan_ith (Z.to_nat (nent q + nrem q)) (entry l) 0 (-1) i.

(** List.c 185-223 List_Entry. *)
Definition List_Entry (l : LList) (i : Z) : result ptr :=
  let q := Get_Pars l in
  if i >=? nent q then Ok NULL
  else
    '(ip, ic) <- locate_ith l q i ;;
    if negb (ic =? i) then Ok NULL
    else rd (entry l) ip.

(** List.c 253-263 List_Entry_Raw. *)
Definition List_Entry_Raw (l : LList) (i : Z) : result ptr :=
  if i >=? List_Size_Raw l then Ok NULL else rd (entry l) i.

(** List.c 286-291: the search loop of List_Next_Entry. *)
Fixpoint next_valid (n : nat) (a : array ptr) (ip : Z) : result (option (Z * ptr)) :=
  match n with
  | O => Ok None
  | S m =>
      x <- rd a ip ;;
      if x =? NULL then next_valid m a (ip + 1) else Ok (Some (ip + 1, x))
  end.

(** List.c 270-295 List_Next_Entry; result (new *index, entry). *)
Definition List_Next_Entry (l : LList) (index : Z) : result (Z * ptr) :=
  let q := Get_Pars l in
  let ntot := nent q + nrem q in
  if (index <? 0) || (index >=? ntot) then Ok (index, NULL)
  else
    x <- rd (entry l) index ;;
    if negb (x =? NULL) then Ok (index + 1, x)
    else
      r <- next_valid (Z.to_nat (ntot - index)) (entry l) index ;;
      match r with
      | Some (idx, y) => Ok (idx, y)
      | None => Ok (index, NULL)
      end.

(** The loop of List.c 311-316, 388-390, 548-557, 589-593: first raw position
    holding the given pointer. *)
Fixpoint find_eq (n : nat) (a : array ptr) (ip : Z) (e : ptr) : result (option Z) :=
  match n with
  | O => Ok None
  | S m =>
      x <- rd a ip ;;
      if x =? e then Ok (Some ip) else find_eq m a (ip + 1) e
  end.

(** List.c 303-319 List_Contains. *)
Definition List_Contains (l : LList) (e : ptr) : result Z :=
  r <- find_eq (Z.to_nat (List_Size_Raw l)) (entry l) 0 e ;;
  Ok (match r with Some _ => 1 | None => 0 end).

(** List.c 335-342: the loop of List_Locate. *)
Fixpoint locate_loop (n : nat) (a : array ptr) (ip ic : Z) (e : ptr) : result Z :=
  match n with
  | O => Ok (-1)
  | S m =>
      x <- rd a ip ;;
      let ic' := if x =? NULL then ic else ic + 1 in
      if x =? e then Ok ic' else locate_loop m a (ip + 1) ic' e
  end.

(** List.c 327-345 List_Locate. *)
Definition List_Locate (l : LList) (e : ptr) : result Z :=
  locate_loop (Z.to_nat (List_Size_Raw l)) (entry l) 0 (-1) e.

(** List.c 358-364, 394-400, 425-431, 496-502: make room for one more entry;
    result (new p, array). *)
Definition grow (q : pars) (a : array ptr) : result (Z * array ptr) :=
  s <- shl1 (lp q) ;;
  if nent q + nrem q =? s - 1 then
    s' <- shl1 (lp q + 1) ;;
    Ok (lp q + 1, resize a (s' - 1))
  else Ok (lp q, a).

(** List.c 351-372 List_Add. *)
Definition List_Add (l : LList) (e : ptr) : result LList :=
  let q := Get_Pars l in
  '(p, a) <- grow q (entry l) ;;
  a <- wr a (nent q + nrem q) e ;;
  Ok (Set_Pars (set_entry l a) (nent q + 1) p (nrem q) (rem1 q)).

(** List.c 381-408 List_ChknAdd. *)
Definition List_ChknAdd (l : LList) (e : ptr) : result LList :=
  r <- find_eq (Z.to_nat (List_Size_Raw l)) (entry l) 0 e ;;
  match r with
  | Some _ => Ok l
  | None =>
      let q := Get_Pars l in
      '(p, a) <- grow q (entry l) ;;
      a <- wr a (nent q + nrem q) e ;;
      Ok (Set_Pars (set_entry l a) (nent q + 1) p (nrem q) (rem1 q))
  end.

(** List.c 417-479 List_Inserti; result (list, 1 = list returned, 0 = NULL
    returned).  The re-allocated array is kept also when NULL is returned
    (line 463), with p not updated. *)
Definition List_Inserti (l : LList) (nu : ptr) (i : Z) : result (LList * Z) :=
  let q := Get_Pars l in
  let ntot := nent q + nrem q in
  '(p, a) <- grow q (entry l) ;;
  let l := set_entry l a in
  if i =? nent q then
    a <- wr a ntot nu ;;
    Ok (Set_Pars (set_entry l a) (nent q + 1) p (nrem q) (rem1 q), 1)
  else
    '(ip, ic) <- locate_ith l q i ;;
    if negb (ic =? i) then Ok (l, 0)
    else
      a <- memmove a (ip + 1) ip (ntot - ip) ;;
      a <- wr a ip nu ;;
      Ok (Set_Pars (set_entry l a) (nent q + 1) p (nrem q) (rem1 q), 1).

(** List.c 508-513: the loop of List_Insert; it leaves at the first raw entry
    that is different from b4entry. *)
Fixpoint insert_loop (n : nat) (a : array ptr) (ip : Z) (b4 : ptr) : result Z :=
  match n with
  | O => Ok ip
  | S m =>
      x <- rd a ip ;;
      if negb (x =? b4) then Ok ip else insert_loop m a (ip + 1) b4
  end.

(** List.c 488-532 List_Insert. *)
Definition List_Insert (l : LList) (nu b4 : ptr) : result LList :=
  let q := Get_Pars l in
  let ntot := nent q + nrem q in
  '(p, a) <- grow q (entry l) ;;
  let l := set_entry l a in
  if b4 =? NULL then
    a <- wr a ntot nu ;;
    Ok (Set_Pars (set_entry l a) (nent q + 1) p (nrem q) (rem1 q))
  else
    ip <- insert_loop (Z.to_nat ntot) a 0 b4 ;;
    if ip =? ntot then Ok l
    else
      a <- memmove a (ip + 1) ip (ntot - ip) ;;
      a <- wr a ip nu ;;
      Ok (Set_Pars (set_entry l a) (nent q + 1) p (nrem q) (rem1 q)).

(** List.c 550-555, 652-658, 687-693, 806-812: blank out raw position ip. *)
Definition blank (l : LList) (ip : Z) : result LList :=
  let q := Get_Pars l in
  a <- wr (entry l) ip NULL ;;
  let r1 := if (rem1 q =? -1) || (rem1 q >? ip) then ip else rem1 q in
  Ok (Set_Pars (set_entry l a) (nent q - 1) (lp q) (nrem q + 1) r1).

(** List.c 540-572 List_Rem. *)
Definition List_Rem (l : LList) (e : ptr) : result (LList * Z) :=
  r <- find_eq (Z.to_nat (List_Size_Raw l)) (entry l) 0 e ;;
  match r with
  | Some ip => l' <- blank l ip ;; Ok (l', 1)
  | None => Ok (l, 0)
  end.

(** List.c 581-596 List_Replace. *)
Definition List_Replace (l : LList) (e nu : ptr) : result (LList * Z) :=
  r <- find_eq (Z.to_nat (List_Size_Raw l)) (entry l) 0 e ;;
  match r with
  | Some k => a <- wr (entry l) k nu ;; Ok (set_entry l a, 1)
  | None => Ok (l, 0)
  end.

(** List.c 607-661 List_Remi. *)
Definition List_Remi (l : LList) (i : Z) : result (LList * Z) :=
  let q := Get_Pars l in
  if i >=? nent q then Ok (l, 0)
  else
    '(ip, ic) <- locate_ith l q i ;;
    if negb (ic =? i) then Ok (l, 0)
    else l' <- blank l ip ;; Ok (l', 1).

(** List.c 672-697 List_Remi_Raw. *)
Definition List_Remi_Raw (l : LList) (i : Z) : result (LList * Z) :=
  if i >=? List_Size_Raw l then Ok (l, 0)
  else
    x <- rd (entry l) i ;;
    if negb (x =? NULL) then l' <- blank l i ;; Ok (l', 1) else Ok (l, 1).

(** List.c 826-864 List_Replacei. *)
Definition List_Replacei (l : LList) (i : Z) (nu : ptr) : result (LList * Z) :=
  let q := Get_Pars l in
  '(ip, ic) <- locate_ith l q i ;;
  if negb (ic =? i) then Ok (l, 0)
  else a <- wr (entry l) ip nu ;; Ok (set_entry l a, 1).

(** List.c 888-895: find the end of a block of deleted entries, downwards from
    ke.  Result (found, ke). *)
Fixpoint find_null_down (n : nat) (a : array ptr) (ke : Z) : result (bool * Z) :=
  if ke <? 0 then Ok (false, ke)
  else match n with
       | O => OutOfFuel
       | S m =>
           x <- rd a ke ;;
           if x =? NULL then Ok (true, ke) else find_null_down m a (ke - 1)
       end.

(** List.c 903-913: beginning of the block of deleted entries. *)
Fixpoint block_begin (n : nat) (a : array ptr) (i kb : Z) : result Z :=
  if i <? 0 then Ok kb
  else match n with
       | O => OutOfFuel
       | S m =>
           x <- rd a i ;;
           if x =? NULL then block_begin m a (i - 1) i else Ok kb
       end.

(** List.c 883-933: the outer loop of List_Compress. *)
Fixpoint compress_loop (n m : nat) (a : array ptr) (kb ntot : Z)
  : result (array ptr) :=
  match n with
  | O => OutOfFuel
  | S n' =>
      '(found, ke) <- find_null_down m a (kb - 1) ;;
      if negb found then Ok a
      else
        kb' <- block_begin m a ke kb ;;
        let ndel := ke - kb' + 1 in
        if ke =? ntot - 1 then compress_loop n' m a kb' (ntot - ndel)
        else
          a <- memmove a kb' (ke + 1) (ntot - (ke + 1)) ;;
          compress_loop n' m a kb' (ntot - ndel)
  end.

(** List.c 870-942 List_Compress. *)
Definition List_Compress (l : LList) : result LList :=
  let q := Get_Pars l in
  if nrem q =? 0 then Ok l
  else
    let ntot := nent q + nrem q in
    let fuel := S (Z.to_nat ntot) in
    a <- compress_loop fuel fuel (entry l) ntot ntot ;;
    Ok (Set_Pars (set_entry l a) (nent q) (lp q) 0 (-1)).

(** List.c 947-981 List_Cat: new contents of dest; src is not written.  The
    test on line 973 comes after nrem_d has been increased on line 972. *)
Definition List_Cat (d s : LList) : result LList :=
  let qd := Get_Pars d in
  let qs := Get_Pars s in
  let ntot_d := nent qd + nrem qd in
  let ntot_s := nent qs + nrem qs in
  let ntot := ntot_d + ntot_s in
  p <- find_p 32 (if lp qd >? lp qs then lp qd else lp qs) ntot ;;
  sz <- shl1 p ;;
  let '(p_d, a) := if p >? lp qd then (p, resize (entry d) (sz - 1))
                   else (lp qd, entry d) in
  a <- memcpy a ntot_d (entry s) ntot_s ;;
  let nent_d := nent qd + nent qs in
  let nrem_d := nrem qd + nrem qs in
  let rem1_d := if (nrem_d =? 0) && negb (nrem qs =? 0) then rem1 qs else rem1 qd in
  Ok (Set_Pars (set_entry d a) nent_d p_d nrem_d rem1_d).

Section RemSorted.
  (** List.c 702-713: the function entry2int given by the caller. *)
  Variable key : ptr -> Z.

  (** List.c 723-726, 755-758: first valid entry after i, not beyond lim + 1.
      Result (found, position). *)
  Fixpoint fwd (n : nat) (a : array ptr) (i lim : Z) : result (bool * Z) :=
    if i <=? lim then
      match n with
      | O => OutOfFuel
      | S m =>
          x <- rd a (i + 1) ;;
          if x =? NULL then fwd m a (i + 1) lim else Ok (true, i + 1)
      end
    else Ok (false, i).

  (** List.c 735-737, 768-771: last valid entry before i. *)
  Fixpoint bwd (n : nat) (a : array ptr) (i lim : Z) : result (bool * Z) :=
    if i >=? lim then
      match n with
      | O => OutOfFuel
      | S m =>
          x <- rd a (i - 1) ;;
          if x =? NULL then bwd m a (i - 1) lim else Ok (true, i - 1)
      end
    else Ok (false, i).

  (** List.c 749-803: the bisection loop.  Result: [Some i] if fnd was set to
      1, [None] if fnd still has no value.  (int)(0.5+(imin+imax)/2.0) is
      written as an integer division. *)
  Fixpoint bisect (n m : nat) (a : array ptr) (imin imax idmin idmax id : Z)
    : result (option Z) :=
    match n with
    | O => OutOfFuel
    | S n' =>
        let imid0 := Z.quot (imin + imax + 1) 2 in
        x <- rd a imid0 ;;
        imid <- (if x =? NULL then
                   '(f1, imid1) <- fwd m a imid0 imax ;;
                   let imid := if f1 then imid1 else imid0 in
                   if imid1 =? imax then
                     '(f2, imid2) <- bwd m a imid imin ;;
                     Ok (if f2 : bool then imid2 else imid)
                   else Ok imid
                 else Ok imid0) ;;
        y <- rd a imid ;;
        if y =? NULL then Undef (* entry2int dereferences its argument *)
        else
          let idmid := key y in
          let '(imin, imax, idmin, idmax) :=
            if id <=? idmid then (imin, imid, idmin, idmid)
            else (imid, imax, idmid, idmax) in
          if id =? idmin then Ok (Some imin)
          else if id =? idmax then Ok (Some imax)
          else if imax - imin <=? 1 then Ok None
          else bisect n' m a imin imax idmin idmax id
    end.

  (** List.c 713-817 List_RemSorted.  [fuel] bounds the bisection loop.  When
      the key is not found, line 805 reads the uninitialised variable fnd. *)
  Definition List_RemSorted (fuel : nat) (l : LList) (e : ptr) : result (LList * Z) :=
    let q := Get_Pars l in
    let ntot := nent q + nrem q in
    let m := S (S (Z.to_nat ntot)) in
    let a := entry l in
    x0 <- rd a 0 ;;
    imin <- (if x0 =? NULL then
               '(f, i) <- fwd m a 0 (ntot - 1) ;; Ok i
             else Ok 0) ;;
    x1 <- rd a (ntot - 1) ;;
    imax <- (if x1 =? NULL then
               '(f, i) <- bwd m a (ntot - 1) imin ;; Ok i
             else Ok (ntot - 1)) ;;
    emin <- rd a imin ;;
    emax <- rd a imax ;;
    if (emin =? NULL) || (emax =? NULL) then Undef
    else
      r <- bisect fuel m a imin imax (key emin) (key emax) (key e) ;;
      match r with
      | Some i => l' <- blank l i ;; Ok (l', 1)
      | None => Undef
      end.
End RemSorted.

(** A caller's loop [idx = 0; while ((e = List_Next_Entry(l,&idx))) ...], as in
    List.c 983-989; collects the entries returned. *)
Fixpoint walk_from (n : nat) (l : LList) (idx : Z) : result (list ptr) :=
  match n with
  | O => OutOfFuel
  | S m =>
      '(idx', e) <- List_Next_Entry l idx ;;
      if e =? NULL then Ok []
      else r <- walk_from m l idx' ;; Ok (e :: r)
  end.

Definition List_Walk (l : LList) : result (list ptr) :=
  walk_from (S (length (entry l))) l 0.
