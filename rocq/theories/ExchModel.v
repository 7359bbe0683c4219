(** Model of the exchange of attribute values and coordinates between ranks:
    /repo/src/par/MESH_Update1Attribute.c, MESH_UpdateVertexCoords.c,
    MESH_XchngEdgeFaceAttrib.c and the communication of MESH_GathScat1Attribute.c.

    A rank is seen through its ghost and overlap lists; entities are handles with
    a global ID, a master partition, a boundary flag and a value.  The value of an
    attribute is a list of components, [] when it is not set (MEntity.c 409-449,
    modelled in AttModel.v); doubles are 64-bit patterns.  Sizes and positions of
    buffers are unbounded. *)
From Coq Require Import ZArith List Bool.
From Verif Require Import Base SortModel ParModel AttModel TopoModel CommModel.
Import ListNotations.
Open Scope Z_scope.

Record xrank := mkX {
  x_p : pmesh;            (* /repo/include/Mesh.h 33-36 *)
  x_cur : Z;              (* par_adj_current *)
  x_gh : Z -> list Z;     (* ghost entities by kind *)
  x_ov : Z -> list Z;     (* overlap entities by kind *)
  x_gid : Z -> Z; x_mas : Z -> Z; x_bnd : Z -> bool;
  x_val : Z -> list Z }.
Definition set_par (x : xrank) (m : pmesh) (c : Z) : xrank := mkX m c (x_gh x) (x_ov x) (x_gid x) (x_mas x) (x_bnd x) (x_val x).
Definition set_val (x : xrank) (v : Z -> list Z) : xrank := mkX (x_p x) (x_cur x) (x_gh x) (x_ov x) (x_gid x) (x_mas x) (x_bnd x) v.

(** An attribute: type, number of components, kind of entity. *)
Record attr := mkAt { at_ty : atype; at_nc : Z; at_dim : Z }.

(** What MESH_ParallelAdj.c reads of the rank: MEnt_MasterParID of the ghosts
    (46-57), numbers of overlap entities (103-106). *)
Definition as_prank (x : xrank) : prank := ParModel.mkR (x_p x) (fun k => map (x_mas x) (x_gh x k)) (fun k => Z.of_nat (length (x_ov x k))).

(** MESH_ParallelAdj.c 31-139 on one rank; line 130 marks the data current. *)
Definition update_adj (n my : Z) (x : xrank) : prog xrank :=
  if n =? 1 then Ret x
  else
    '(m, w) <! upd_a n (as_prank x) ;;
    Col w (fun ws =>
      m <! upd_b n my (concat ws) m ;;
      Col (ov_nums (as_prank x)) (fun os =>
        m <! upd_c n (concat os) m ;;
        Ret (set_par x m 1))).

(** Update1Attribute 64-68 (the same in the other functions): MPI_Allreduce with
    MPI_MIN of the current flags. *)
Definition min_all (xs : list (list Z)) : Z := match concat xs with [] => 0 | a :: t => fold_left Z.min t a end.
Definition ensure_adj (n my : Z) (x : xrank) : prog xrank :=
  Col [x_cur x] (fun cs => if min_all cs =? 0 then update_adj n my x else Ret x).

(** MEnt_Get_AttVal and the values put into the send buffer: Update1Attribute
    124-136 (Xchng 253-265, GathScat 267-280).  A vector that is not set has pval
    NULL, a vector of one component sends rval = 0. *)
Definition sent (a : attr) (v : list Z) : result (list Z) :=
  match at_ty a with
  | TINT => Ok [hd 0 v]
  | t =>
      if at_nc a =? 1 then Ok [match t with TDOUBLE => hd 0 v | _ => 0 end]
      else if at_nc a >? 1 then (if Z.of_nat (length v) <? at_nc a then Undef else Ok (firstn (Z.to_nat (at_nc a)) v))
      else Ok []
  end.
Definition sent_all (a : attr) (vs : list (list Z)) : result (list Z) := r <- mapM (sent a) vs ;; Ok (concat r).

(** Values per entity in the messages and the receive buffer. *)
Definition width (a : attr) : Z := match at_ty a with TINT => 1 | _ => at_nc a end.
Definition vtype (a : attr) : mty := match at_ty a with TINT => TInt | _ => TDbl end.

(** 0.0 or -0.0 *)
Definition fzero (b : Z) : bool := (b =? 0) || (b =? 2 ^ 63).

(** recv_pos: Update1Attribute 155-159 *)
Fixpoint positions (m : pmesh) (mtype : Z) (rp : list Z) (pos : Z) : result (list Z) :=
  match rp with
  | [] => Ok [pos]
  | p :: t => c <- MESH_Num_Recv_From_Prtn m p mtype ;; r <- positions m mtype t (pos + c) ;; Ok (pos :: r)
  end.
(** rank_g2l: 147, 157 *)
Definition g2l (n : Z) (rp : list Z) : result (array Z) :=
  r <- foldM (fun (s : array Z * Z) p => a <- wr (fst s) p (snd s) ;; Ok (a, snd s + 1)) (malloc (n + 1), 0) rp ;; Ok (fst r).
(** 183-191: index of a rank in recv_procs *)
Fixpoint find_rank (rp : list Z) (i k : Z) : option Z :=
  match rp with [] => None | p :: t => if p =? i then Some k else find_rank t i (k + 1) end.

(** The two receive buffers. *)
Definition bufs : Type := array Z * array Z.
Definition put (a : array Z) (pos : Z) (l : list Z) : result (array Z) := memcpy a pos (map Some l) (Z.of_nat (length l)).

(** 198-210, 259-270: send global IDs and values to rank [i]. *)
Definition send2 (i : Z) (ty : mty) (gids vals : list Z) : prog unit := Snd i i (TInt, gids) (Snd i i (ty, vals) (Ret tt)).
(** 221-235, 243-257: receive at most [size] global IDs and then as many values. *)
Definition recv2 (my i : Z) (ty : mty) (wd size pos : Z) (b : bufs) : prog bufs :=
  Rcv i my TInt size (fun ids =>
    b1 <! put (fst b) pos ids ;;
    Rcv i my ty (Z.of_nat (length ids) * wd) (fun vs =>
      b2 <! put (snd b) (pos * wd) vs ;;
      Ret (b1, b2))).

(** The lower rank sends first, the higher one receives first: 194, 240. *)
Definition meet {S} (my i : Z) (s : S) (snd : prog unit) (rcv : S -> prog S) : prog S :=
  if my <? i then _ <~ snd ;; rcv s else if my >? i then s <~ rcv s ;; _ <~ snd ;; Ret s else Ret s.

(** The loop 166-274 for partner [i] (UpdateVertexCoords 97-173). *)
Definition exch_with (m : pmesh) (my mtype : Z) (ty : mty) (wd num_ov : Z) (gids vals rp pos : list Z) (i : Z) (b : bufs) : prog bufs :=
  has_ghosts <! MESH_Has_Ghosts_From_Prtn m i mtype ;;
  has_overlaps <! MESH_Has_Overlaps_On_Prtn m i mtype ;;
  let fnd := find_rank rp i 0 in
  recv_size <! match fnd with None => Ok 0 | Some k => p <- rdl rp k ;; MESH_Num_Recv_From_Prtn m p mtype end ;;
  meet my i b
    (if negb (has_overlaps =? 0) && negb (num_ov =? 0) then send2 i ty gids vals else Ret tt)
    (fun b =>
       if negb (has_ghosts =? 0) && negb (recv_size =? 0) then
         match fnd with
         | None => Fail
         | Some k => off <! rdl pos k ;; recv2 my i ty wd recv_size off b
         end
       else Ret b).

(** compareINT (/repo/src/misc/compare_funcs.c 19-21) in the C library's bsearch
    (glibc) on a[base..base+nent-1]; the index of the match. *)
Fixpoint bsearch_at (k : nat) (key : Z) (a : array Z) (base lo hi : Z) : result (option Z) :=
  if lo <? hi then
    match k with
    | O => OutOfFuel
    | S k' =>
        let idx := (lo + hi) / 2 in
        x <- rd a (base + idx) ;;
        c <- ck32 (key - x) ;;
        if c <? 0 then bsearch_at k' key a base lo idx
        else if c >? 0 then bsearch_at k' key a base (idx + 1) hi
        else Ok (Some (base + idx))
    end
  else Ok None.
Definition find_gid (gid : Z) (a : array Z) (base nent : Z) : result (option Z) := bsearch_at (Z.to_nat nent) gid a base 0 nent.

Fixpoint rd_block (a : array Z) (pos : Z) (k : nat) : result (list Z) :=
  match k with O => Ok [] | S k' => x <- rd a pos ;; r <- rd_block a (pos + 1) k' ;; Ok (x :: r) end.

(** 312-338: the value at index [i] of the buffer; set only if it is not zero
    (Some v: MEnt_Set_AttVal with v). *)
Definition new_value (a : attr) (vals : array Z) (i : Z) : result (option (list Z)) :=
  match at_ty a with
  | TINT => x <- rd vals i ;; Ok (if x =? 0 then None else Some [x])
  | t =>
      if at_nc a =? 1 then
        x <- rd vals i ;;
        Ok (match t with TDOUBLE => if fzero x then None else Some [x] | _ => None end)
      else if at_nc a >? 1 then
        v <- rd_block vals (i * at_nc a) (Z.to_nat (at_nc a)) ;;
        Ok (if forallb fzero v then None else match t with TVECTOR | TTENSOR => Some v | _ => None end)
      else Ok None
  end.

(** 277-339 for one ghost; when the search fails the index is taken from NULL. *)
Definition assign_ghost (a : attr) (x : xrank) (m : pmesh) (g2 : array Z) (pos : list Z) (b : bufs) (v : Z -> list Z) (g : Z) : result (Z -> list Z) :=
  let par := x_mas x g in
  nent <- MESH_Num_Recv_From_Prtn m par (at_dim a) ;;
  k <- rd g2 par ;;
  base <- rdl pos k ;;
  loc <- find_gid (x_gid x g) (fst b) base nent ;;
  match loc with
  | None => Undef
  | Some i =>
      w <- new_value a (snd b) i ;;
      Ok (match w with None => v | Some w => zupd v g w end)
  end.

(** MESH_Update1Attribute.c 29-351. *)
Definition MESH_Update1Attribute (n my : Z) (a : attr) (x : xrank) : prog xrank :=
  if n =? 1 then Ret x
  else
    match at_ty a with
    | TPOINTER => Ret x
    | _ =>
        x <~ ensure_adj n my x ;;
        if at_dim a =? MALLTYPE then Ret x
        else if (at_dim a <? 0) || (at_dim a >? 3) then Fail
        else
          let ov := x_ov x (at_dim a) in
          vals <! sent_all a (map (x_val x) ov) ;;
          '(m, rp) <! MESH_GhostPrtns (x_p x) ;;
          pos <! positions m (at_dim a) rp 0 ;;
          g2 <! g2l n rp ;;
          b <~ pfold (fun i b => exch_with m my (at_dim a) (vtype a) (width a) (Z.of_nat (length ov)) (map (x_gid x) ov) vals rp pos i b)
                 (ranks n) (malloc (last pos 0), malloc (last pos 0 * width a)) ;;
          v <! foldM (assign_ghost a x m g2 pos b) (x_val x) (x_gh x (at_dim a)) ;;
          Ret (set_val (set_par x m (x_cur x)) v)
    end.

(** MESH_UpdateVertexCoords.c 179-205 for one ghost vertex: the coordinates are
    always set. *)
Definition assign_coords (x : xrank) (m : pmesh) (g2 : array Z) (pos : list Z) (b : bufs) (v : Z -> list Z) (g : Z) : result (Z -> list Z) :=
  let par := x_mas x g in
  nent <- MESH_Num_Recv_From_Prtn m par 0 ;;
  k <- rd g2 par ;;
  base <- rdl pos k ;;
  loc <- find_gid (x_gid x g) (fst b) base nent ;;
  match loc with
  | None => Undef
  | Some i => w <- rd_block (snd b) (i * 3) 3 ;; Ok (zupd v g w)
  end.

(** MESH_UpdateVertexCoords.c 28-217; [x_val] holds the coordinates. *)
Definition coords3 (v : list Z) : result (list Z) := if Z.of_nat (length v) =? 3 then Ok v else Undef.
Definition MESH_UpdateVertexCoords (n my : Z) (x : xrank) : prog xrank :=
  Col [] (fun _ =>
    x <~ ensure_adj n my x ;;
    let ov := x_ov x 0 in
    vals <! (r <- mapM coords3 (map (x_val x) ov) ;; Ok (concat r)) ;;
    '(m, rp) <! MESH_GhostPrtns (x_p x) ;;
    pos <! positions m 0 rp 0 ;;
    g2 <! g2l n rp ;;
    b <~ pfold (fun i b => exch_with m my 0 TDbl 3 (Z.of_nat (length ov)) (map (x_gid x) ov) vals rp pos i b)
           (ranks n) (malloc (last pos 0), malloc (last pos 0 * 3)) ;;
    v <! foldM (assign_coords x m g2 pos b) (x_val x) (x_gh x 0) ;;
    Ret (set_val (set_par x m (x_cur x)) v)).

(** ** Values from the ghosts to their masters *)

(** MESH_XchngEdgeFaceAttrib.c 127-180: for each partner, count the ghosts to be
    sent back and exchange the counts.  [sel] tells which ghosts are sent. *)
Definition counts_with (m : pmesh) (my mtype : Z) (mas : Z -> Z) (sel : Z -> bool) (gh : list Z) (i : Z) (rs : list Z) : prog (list Z) :=
  if i =? my then Ret rs
  else
    has_ghosts <! MESH_Has_Ghosts_From_Prtn m i mtype ;;
    has_overlaps <! MESH_Has_Overlaps_On_Prtn m i mtype ;;
    let send_size := Z.of_nat (length (filter (fun g => (mas g =? i) && sel g) gh)) in
    meet my i rs
      (if negb (has_ghosts =? 0) then Snd i i (TInt, [send_size]) (Ret tt) else Ret tt)
      (fun rs => if negb (has_overlaps =? 0) then Rcv i my TInt 1 (fun d => match d with [c] => rs <! wrl rs i c ;; Ret rs | _ => Ret rs end) else Ret rs).

(** 186-195: the partners with overlaps; 203-213: positions of their data. *)
Fixpoint overlap_procs (m : pmesh) (my mtype : Z) (l : list Z) : result (list Z) :=
  match l with
  | [] => Ok []
  | i :: t =>
      if i =? my then overlap_procs m my mtype t
      else
        h <- MESH_Has_Overlaps_On_Prtn m i mtype ;;
        r <- overlap_procs m my mtype t ;;
        Ok (if h =? 0 then r else i :: r)
  end.
Fixpoint offsets (rs rp : list Z) (pos : Z) : result (list Z) :=
  match rp with [] => Ok [pos] | p :: t => c <- rdl rs p ;; r <- offsets rs t (pos + c) ;; Ok (pos :: r) end.

(** 224-355: the data; [vals i] what is sent to rank [i]. *)
Definition back_with (m : pmesh) (my mtype : Z) (ty : mty) (wd : Z) (mas : Z -> Z) (sel : Z -> bool) (gid : Z -> Z) (val : list Z -> result (list Z)) (gh rs : list Z) (g2 : array Z) (pos : list Z) (i : Z) (b : bufs) : prog bufs :=
  if i =? my then Ret b
  else
    has_ghosts <! MESH_Has_Ghosts_From_Prtn m i mtype ;;
    has_overlaps <! MESH_Has_Overlaps_On_Prtn m i mtype ;;
    let mine := filter (fun g => (mas g =? i) && sel g) gh in
    recv_size <! rdl rs i ;;
    let sending := negb (has_ghosts =? 0) && negb (Z.of_nat (length mine) =? 0) in
    vals <! (if sending then val mine else Ok []) ;;
    meet my i b
      (if sending then send2 i ty (map gid mine) vals else Ret tt)
      (fun b =>
         if negb (has_overlaps =? 0) && negb (recv_size =? 0) then
           k <! rd g2 i ;; off <! rdl pos k ;; recv2 my i ty wd recv_size off b
         else Ret b).

(** 373-451 for one overlap entity: the first partner that has sent its global ID
    (the error when none has is only reported). *)
Fixpoint first_found (gid : Z) (rs : list Z) (info : array Z) (rp pos : list Z) : result (option Z) :=
  match rp, pos with
  | p :: rp', off :: pos' =>
      nent <- rdl rs p ;;
      loc <- find_gid gid info off nent ;;
      match loc with Some i => Ok (Some i) | None => first_found gid rs info rp' pos' end
  | _, _ => Ok None
  end.
Definition assign_master (a : attr) (x : xrank) (rs : list Z) (rp pos : list Z) (b : bufs) (v : Z -> list Z) (o : Z) : result (Z -> list Z) :=
  if negb (x_bnd x o) then Ok v
  else
    loc <- first_found (x_gid x o) rs (fst b) rp pos ;;
    match loc with
    | None => Ok v
    | Some i => w <- new_value a (snd b) i ;; Ok (match w with None => v | Some w => zupd v o w end)
    end.

(** MESH_XchngEdgeFaceAttrib.c 29-489 for edges of surface meshes and faces
    (54-84: other kinds are refused; MESH_Num_Regions is a parameter). *)
Definition MESH_XchngEdgeFaceAttrib (n my nregs : Z) (a : attr) (x : xrank) : prog xrank :=
  if n =? 1 then Ret x
  else
    match at_ty a with
    | TPOINTER => Ret x
    | _ =>
        if (at_dim a =? 0) || (at_dim a =? 1) && negb (nregs =? 0) || (at_dim a =? 3) then Ret x
        else
          x <~ ensure_adj n my x ;;
          if negb (at_dim a =? 1) && negb (at_dim a =? 2) then Fail
          else
            let m := x_p x in let mt := at_dim a in let gh := x_gh x mt in
            rs <~ pfold (counts_with m my mt (x_mas x) (x_bnd x) gh) (ranks n) (repeat 0 (Z.to_nat n)) ;;
            rp <! overlap_procs m my mt (ranks n) ;;
            g2 <! g2l n rp ;;
            pos <! offsets rs rp 0 ;;
            b <~ pfold (back_with m my mt (vtype a) (width a) (x_mas x) (x_bnd x) (x_gid x) (fun l => sent_all a (map (x_val x) l)) gh rs g2 pos)
                   (ranks n) (malloc (last pos 0), malloc (last pos 0 * width a)) ;;
            y <~ MESH_Update1Attribute n my a x ;;
            v <! foldM (assign_master a y rs rp pos b) (x_val y) (x_ov y mt) ;;
            Ret (set_val y v)
    end.
