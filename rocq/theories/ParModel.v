(** Model of the parallel adjacency data of a mesh: /repo/src/base/Mesh.c
    1157-1404 (compiled with MSTK_HAVE_MPI) and
    /repo/src/par/MESH_ParallelAdj.c. *)
From Coq Require Import ZArith List Bool.
From Verif Require Import Base SortModel.
Import ListNotations.
Open Scope Z_scope.

(** Checked access to arrays all of whose entries are initialised. *)
Definition rdl (a : list Z) (i : Z) : result Z :=
  if (0 <=? i) && (i <? Z.of_nat (length a)) then Ok (nth (Z.to_nat i) a 0) else Undef.
Definition wrl (a : list Z) (i x : Z) : result (list Z) :=
  if (0 <=? i) && (i <? Z.of_nat (length a)) then Ok (upd_nth a (Z.to_nat i) x) else Undef.

(** /repo/include/Mesh.h 33-36 mypartn, numpartns, par_adj_flags, par_recv_info (None = NULL). *)
Record pmesh := mkP { mypartn : Z; numpartns : Z; pflags : option (list Z); precv : option (list Z) }.

(** Mesh.c 39-52: the parallel fields after MESH_New. *)
Definition pmesh_new : pmesh := mkP 0 0 None None.

(** Mesh.c 1175-1182 MESH_Set_Prtn. *)
Definition MESH_Set_Prtn (m : pmesh) (partition numpartitions : Z) : pmesh :=
  mkP partition numpartitions
      (match pflags m with None => Some (repeat 0 (Z.to_nat numpartitions)) | Some f => Some f end) (precv m).

(** /repo/include/MSTK_types.h 70: enum MType. *)
Definition MUNKNOWNTYPE := 4.
Definition MALLTYPE := 5.
Definition MANYTYPE := 6.

(** mesh->par_adj_flags[prtn] |= 1<<s *)
Definition or_flag (m : pmesh) (prtn s : Z) : result pmesh :=
  match pflags m with
  | None => Undef
  | Some f =>
      b <- shl1 s ;;
      x <- rdl f prtn ;;
      f <- wrl f prtn (u32 (Z.lor x b)) ;;
      Ok (mkP (mypartn m) (numpartns m) (Some f) (precv m))
  end.

(** mesh->par_adj_flags[prtn]>>s & 1 *)
Definition get_flag (f : list Z) (prtn s : Z) : result Z :=
  if (0 <=? s) && (s <? 32) then x <- rdl f prtn ;; Ok (Z.land (Z.shiftr x s) 1) else Undef.

(** Mesh.c 1202-1224 MESH_Flag_Has_Ghosts_From_Prtn. *)
Definition MESH_Flag_Has_Ghosts_From_Prtn (m : pmesh) (prtn mtype : Z) : result pmesh :=
  if prtn =? mypartn m then Ok m
  else if (mtype =? MUNKNOWNTYPE) || (mtype =? MANYTYPE) then Ok m
  else if mtype =? MALLTYPE then
    m <- or_flag m prtn 0 ;; m <- or_flag m prtn 2 ;; m <- or_flag m prtn 4 ;; or_flag m prtn 6
  else or_flag m prtn (2 * mtype).

(** Mesh.c 1226-1252 MESH_Has_Ghosts_From_Prtn. *)
Definition MESH_Has_Ghosts_From_Prtn (m : pmesh) (prtn mtype : Z) : result Z :=
  if mtype =? MUNKNOWNTYPE then Ok 0
  else
    match pflags m with
    | None => Ok 0
    | Some f =>
        if mtype =? MANYTYPE then
          a <- get_flag f prtn 0 ;; b <- get_flag f prtn 2 ;; c <- get_flag f prtn 4 ;; d <- get_flag f prtn 6 ;;
          Ok (Z.lor (Z.lor (Z.lor a b) c) d)
        else if mtype =? MALLTYPE then
          a <- get_flag f prtn 0 ;; b <- get_flag f prtn 2 ;; c <- get_flag f prtn 4 ;; d <- get_flag f prtn 6 ;;
          Ok (Z.land (Z.land (Z.land a b) c) d)
        else get_flag f prtn (2 * mtype)
    end.

(** Mesh.c 1254-1274 MESH_Flag_Has_Overlaps_On_Prtn. *)
Definition MESH_Flag_Has_Overlaps_On_Prtn (m : pmesh) (prtn mtype : Z) : result pmesh :=
  if (mtype =? MUNKNOWNTYPE) || (mtype =? MANYTYPE) then Ok m
  else if mtype =? MALLTYPE then
    m <- or_flag m prtn 1 ;; m <- or_flag m prtn 3 ;; m <- or_flag m prtn 5 ;; or_flag m prtn 7
  else or_flag m prtn (2 * mtype + 1).

(** Mesh.c 1276-1302 MESH_Has_Overlaps_On_Prtn. *)
Definition MESH_Has_Overlaps_On_Prtn (m : pmesh) (prtn mtype : Z) : result Z :=
  if mtype =? MUNKNOWNTYPE then Ok 0
  else
    match pflags m with
    | None => Ok 0
    | Some f =>
        if mtype =? MANYTYPE then
          a <- get_flag f prtn 1 ;; b <- get_flag f prtn 3 ;; c <- get_flag f prtn 5 ;; d <- get_flag f prtn 7 ;;
          Ok (Z.lor (Z.lor (Z.lor a b) c) d)
        else if mtype =? MALLTYPE then
          a <- get_flag f prtn 1 ;; b <- get_flag f prtn 3 ;; c <- get_flag f prtn 5 ;; d <- get_flag f prtn 7 ;;
          Ok (Z.land (Z.land (Z.land a b) c) d)
        else get_flag f prtn (2 * mtype + 1)
    end.

(** Mesh.c 1327-1329: count the ghost partitions. *)
Fixpoint count_gh (n : nat) (m : pmesh) (i ngp : Z) : result Z :=
  match n with
  | O => Ok ngp
  | S n' => h <- MESH_Has_Ghosts_From_Prtn m i MANYTYPE ;; count_gh n' m (i + 1) (if h =? 0 then ngp else ngp + 1)
  end.

(** Mesh.c 1336-1340: record them. *)
Fixpoint fill_gh (n : nat) (m : pmesh) (a : list Z) (i ngp : Z) : result (list Z) :=
  match n with
  | O => Ok a
  | S n' =>
      h <- MESH_Has_Ghosts_From_Prtn m i MANYTYPE ;;
      if h =? 0 then fill_gh n' m a (i + 1) ngp
      else a <- wrl a (1 + ngp) i ;; fill_gh n' m a (i + 1) (ngp + 1)
  end.

(** Mesh.c 1317-1342 MESH_Init_Par_Recv_Info. *)
Definition MESH_Init_Par_Recv_Info (m : pmesh) : result pmesh :=
  ngp <- count_gh (Z.to_nat (numpartns m)) m 0 0 ;;
  a <- wrl (repeat 0 (Z.to_nat (1 + 5 * ngp))) 0 ngp ;;
  a <- fill_gh (Z.to_nat (numpartns m)) m a 0 0 ;;
  Ok (mkP (mypartn m) (numpartns m) (pflags m) (Some a)).

(** Mesh.c 1358-1364, 1393-1397: position of a partition among the ghost
    partitions. *)
Fixpoint find_prtn (n : nat) (a : list Z) (prtn i : Z) : result (option Z) :=
  match n with
  | O => Ok None
  | S n' => x <- rdl a (1 + i) ;; if x =? prtn then Ok (Some i) else find_prtn n' a prtn (i + 1)
  end.

(** Mesh.c 1344-1373 MESH_Set_Num_Recv_From_Prtn; errors are only reported. *)
Definition MESH_Set_Num_Recv_From_Prtn (m : pmesh) (prtn mtype numrecv : Z) : result pmesh :=
  m <- match precv m with None => MESH_Init_Par_Recv_Info m | Some _ => Ok m end ;;
  if (mtype <? 0) || (mtype >? 3) then Ok m
  else
    match precv m with
    | None => Undef
    | Some a =>
        ghnum <- rdl a 0 ;;
        f <- find_prtn (Z.to_nat ghnum) a prtn 0 ;;
        match f with
        | None => Ok m
        | Some i => a <- wrl a (1 + ghnum + 4 * i + mtype) numrecv ;; Ok (mkP (mypartn m) (numpartns m) (pflags m) (Some a))
        end
    end.

(** Mesh.c 1375-1404 MESH_Num_Recv_From_Prtn. *)
Definition MESH_Num_Recv_From_Prtn (m : pmesh) (prtn mtype : Z) : result Z :=
  if (mtype <? 0) || (mtype >? 3) then Ok 0
  else
    match precv m with
    | None => Fatal
    | Some a =>
        if prtn =? mypartn m then Ok 0
        else
          ghnum <- rdl a 0 ;;
          f <- find_prtn (Z.to_nat ghnum) a prtn 0 ;;
          match f with None => Ok 0 | Some i => rdl a (1 + ghnum + 4 * i + mtype) end
    end.

(** Mesh.c 1305-1308 MESH_Num_GhostPrtns and 1311-1314 MESH_GhostPrtns, called
    one after the other. *)
Definition MESH_GhostPrtns (m : pmesh) : result (pmesh * list Z) :=
  m <- match precv m with None => MESH_Init_Par_Recv_Info m | Some _ => Ok m end ;;
  match precv m with
  | None => Undef
  | Some a =>
      ghnum <- rdl a 0 ;;
      if (0 <=? ghnum) && (1 + ghnum <=? Z.of_nat (length a)) then Ok (m, firstn (Z.to_nat ghnum) (skipn 1 a)) else Undef
  end.

(** ** MESH_ParallelAdj.c *)

(** Lines 46-57: flag the partitions of the ghosts of one kind; [gs] the
    MasterParIDs of the ghosts in the order of the ghost list. *)
Fixpoint flag_ghosts (m : pmesh) (mtype : Z) (gs : list Z) : result pmesh :=
  match gs with
  | [] => Ok m
  | p :: t => m <- MESH_Flag_Has_Ghosts_From_Prtn m p mtype ;; flag_ghosts m mtype t
  end.

(** Lines 65-72: local_par_adj.  The shift operand is 0 or 1. *)
Definition adj_word (m : pmesh) (i : Z) : result Z :=
  a <- MESH_Has_Ghosts_From_Prtn m i 0 ;; b <- MESH_Has_Ghosts_From_Prtn m i 1 ;;
  c <- MESH_Has_Ghosts_From_Prtn m i 2 ;; d <- MESH_Has_Ghosts_From_Prtn m i 3 ;;
  Ok (Z.lor (Z.lor (Z.lor (Z.lor 0 (Z.shiftl a 0)) (Z.shiftl b 2)) (Z.shiftl c 4)) (Z.shiftl d 6)).
Fixpoint local_par_adj (n : nat) (m : pmesh) (i : Z) : result (list Z) :=
  match n with
  | O => Ok []
  | S n' => x <- adj_word m i ;; r <- local_par_adj n' m (i + 1) ;; Ok (x :: r)
  end.

(** Lines 88-95: overlap flags from the gathered words. *)
Definition ov_one (m : pmesh) (x i mtype : Z) : result pmesh :=
  if Z.land x (Z.shiftl 1 (2 * mtype)) =? 0 then Ok m else MESH_Flag_Has_Overlaps_On_Prtn m i mtype.
Fixpoint ov_flags (n : nat) (m : pmesh) (global : list Z) (numprtns myprtn i : Z) : result pmesh :=
  match n with
  | O => Ok m
  | S n' =>
      x <- rdl global (i * numprtns + myprtn) ;;
      m <- ov_one m x i 0 ;; m <- ov_one m x i 1 ;; m <- ov_one m x i 2 ;; m <- ov_one m x i 3 ;;
      ov_flags n' m global numprtns myprtn (i + 1)
  end.

(** Lines 120-125: receive counts. *)
Fixpoint recv_counts (n : nat) (m : pmesh) (global : list Z) (i : Z) : result pmesh :=
  match n with
  | O => Ok m
  | S n' =>
      h <- MESH_Has_Ghosts_From_Prtn m i MANYTYPE ;;
      m <- (if h =? 0 then Ok m
            else
              x <- rdl global (4 * i + 0) ;; m <- MESH_Set_Num_Recv_From_Prtn m i 0 x ;;
              x <- rdl global (4 * i + 1) ;; m <- MESH_Set_Num_Recv_From_Prtn m i 1 x ;;
              x <- rdl global (4 * i + 2) ;; m <- MESH_Set_Num_Recv_From_Prtn m i 2 x ;;
              x <- rdl global (4 * i + 3) ;; MESH_Set_Num_Recv_From_Prtn m i 3 x) ;;
      recv_counts n' m global (i + 1)
  end.

(** What one rank has: its mesh, the owners of its ghosts of each kind, and its
    numbers of overlap entities. *)
Record prank := mkR { r_mesh : pmesh; r_gh : Z -> list Z; r_ov : Z -> Z }.

(** MESH_ParallelAdj.c 31-139 MESH_Update_ParallelAdj on rank [myprtn], cut at
    the two calls of MPI_Allgather: before the first ... *)
Definition upd_a (numprtns : Z) (r : prank) : result (pmesh * list Z) :=
  m <- flag_ghosts (r_mesh r) 0 (r_gh r 0) ;; m <- flag_ghosts m 1 (r_gh r 1) ;;
  m <- flag_ghosts m 2 (r_gh r 2) ;; m <- flag_ghosts m 3 (r_gh r 3) ;;
  w <- local_par_adj (Z.to_nat numprtns) m 0 ;;
  Ok (m, w).
(** ... between them, and after the second. *)
Definition upd_b (numprtns myprtn : Z) (global : list Z) (m : pmesh) : result pmesh :=
  ov_flags (Z.to_nat numprtns) m global numprtns myprtn 0.
Definition ov_nums (r : prank) : list Z := [r_ov r 0; r_ov r 1; r_ov r 2; r_ov r 3].
Definition upd_c (numprtns : Z) (global : list Z) (m : pmesh) : result pmesh :=
  m <- MESH_Init_Par_Recv_Info m ;; recv_counts (Z.to_nat numprtns) m global 0.

Fixpoint mapM {A B} (f : A -> result B) (l : list A) : result (list B) :=
  match l with [] => Ok [] | x :: t => y <- f x ;; r <- mapM f t ;; Ok (y :: r) end.
Fixpoint mapiM {A B} (f : Z -> A -> result B) (i : Z) (l : list A) : result (list B) :=
  match l with [] => Ok [] | x :: t => y <- f i x ;; r <- mapiM f (i + 1) t ;; Ok (y :: r) end.

(** All ranks together.  MPI_Allgather returns to every rank the concatenation
    of the contributions in rank order. *)
Definition MESH_Update_ParallelAdj (w : list prank) : result (list pmesh) :=
  let n := Z.of_nat (length w) in
  if n =? 1 then Ok (map r_mesh w)
  else
    la <- mapM (upd_a n) w ;;
    let global := concat (map snd la) in
    lb <- mapiM (fun myprtn m => upd_b n myprtn global m) 0 (map fst la) ;;
    let gov := concat (map ov_nums w) in
    mapM (upd_c n gov) lb.
