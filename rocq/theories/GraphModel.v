(** Model of /repo/src/util/Graph_renumber.c.

    A graph is given by the C arrays [nadj], [adj] (read only, hence lists of
    known values) and [offset].  Allocated working arrays are [array Z]: reading
    an uninitialised cell or going out of bounds is [Undef].  Simplification: the
    int counters and sums are not checked for overflow (they are bounded by the
    sizes of arrays that exist).  Messages on stderr are dropped. *)
From Coq Require Import ZArith List Bool.
From Verif Require Import Base SortModel TopoModel ParModel.
Import ListNotations.
Open Scope Z_scope.

(** 133-164: one pass over the neighbours of node number [i] in the order of
    visit; state (nodemap, level, nnew). *)
Definition bl_visit (adj nadj off : list Z) (st : array Z * array Z * Z) (i : Z) : result (array Z * array Z * Z) :=
  let '(nodemap, level, nnew) := st in
  cur <- rd nodemap i ;;
  curlev <- rd level cur ;;
  na <- rdl nadj cur ;;
  foldM (fun st j =>
    let '(nodemap, level, nnew) := st in
    o <- rdl off cur ;;
    an <- rdl adj (o + j) ;;
    l <- rd level an ;;
    if negb (l =? 0) then Ok st
    else
      level <- wr level an (curlev + 1) ;;
      nodemap <- wr nodemap nnew an ;;
      Ok (nodemap, level, nnew + 1)) (nodemap, level, nnew) (zrange 0 na).

(** 174-176: the width of level [i]. *)
Definition bl_width (n : Z) (level : array Z) (i : Z) : result Z :=
  foldM (fun w j => l <- rd level j ;; Ok (if l =? i then w + 1 else w)) 0 (zrange 0 n).

(** 120-179 Graph_Build_LevelStructure; result (nodemap, level, depth, maxwidth). *)
Definition Graph_Build_LevelStructure (n : Z) (adj nadj off : list Z) (start : Z) (nodemap level : array Z)
  : result (array Z * array Z * Z * Z) :=
  level <- foldM (fun level i => wr level i 0) level (zrange 0 n) ;;
  nodemap <- wr nodemap 0 start ;;
  level <- wr level start 1 ;;
  '(nodemap, level, nnew) <- foldM (bl_visit adj nadj off) (nodemap, level, 1) (zrange 0 n) ;;
  if negb (nnew =? n) then Fatal
  else
    lastnode <- rd nodemap (n - 1) ;;
    depth <- rd level lastnode ;;
    maxwidth <- foldM (fun m i => w <- bl_width n level i ;; Ok (if w >? m then w else m)) 0 (zrange 1 (depth + 1)) ;;
    Ok (nodemap, level, depth, maxwidth).

(** 227-234: number of nodes on the last level, counted from the end. *)
Fixpoint count_last (nodemap level : array Z) (curdepth : Z) (is_ : list Z) (c : Z) : result Z :=
  match is_ with
  | [] => Ok c
  | i :: t => node <- rd nodemap i ;; l <- rd level node ;; if l =? curdepth then count_last nodemap level curdepth t (c + 1) else Ok c
  end.

(** 256-261: truncation after the first node of larger degree (that one is kept). *)
Fixpoint trunc_last (nadj : list Z) (lastn : array Z) (is_ : list Z) (c : Z) : result Z :=
  match is_ with
  | [] => Ok c
  | i :: t => x <- rd lastn i ;; dx <- rdl nadj x ;; y <- rd lastn 0 ;; dy <- rdl nadj y ;;
              if dx >? dy then Ok (i + 1) else trunc_last nadj lastn t c
  end.

(** 268-284; state (nodemap, level, minmaxwidth, n_end); result also says whether
    to restart, and from where. *)
Fixpoint try_ends (n : Z) (adj nadj off : list Z) (lastn : array Z) (curdepth : Z) (ls : list Z)
  (nodemap level : array Z) (minw : Z) (n_end : option Z) : result (array Z * array Z * option Z * option Z) :=
  match ls with
  | [] => Ok (nodemap, level, n_end, None)
  | l :: t =>
      x <- rd lastn l ;;
      '(nodemap, level, newdepth, neww) <- Graph_Build_LevelStructure n adj nadj off x nodemap level ;;
      let '(minw, n_end) := if neww <? minw then (neww, Some x) else (minw, n_end) in
      if newdepth >? curdepth then Ok (nodemap, level, n_end, Some x)
      else try_ends n adj nadj off lastn curdepth t nodemap level minw n_end
  end.

(** 214-291: the outer loop. *)
Fixpoint extremal_loop (fuel : nat) (n : Z) (adj nadj off : list Z) (n_beg : Z) (n_end : option Z) (nodemap level : array Z)
  : result (Z * option Z) :=
  match fuel with
  | O => OutOfFuel
  | S fuel' =>
      '(nodemap, level, curdepth, _) <- Graph_Build_LevelStructure n adj nadj off n_beg nodemap level ;;
      nl <- count_last nodemap level curdepth (zdown (n - 1) 0) 0 ;;
      lastn <- foldM (fun lastn i => node <- rd nodemap (n - 1 - i) ;; wr lastn i node) (malloc nl) (zrange 0 nl) ;;
      lastn <- mstk_quicksort lastn (Some (map Some nadj)) 0 (nl - 1) ;;
      nl <- trunc_last nadj lastn (zrange 1 nl) nl ;;
      '(nodemap, level, n_end, restart) <- try_ends n adj nadj off lastn curdepth (zrange 0 nl) nodemap level 1000000000 n_end ;;
      match restart with
      | Some b => extremal_loop fuel' n adj nadj off b n_end nodemap level
      | None => Ok (n_beg, n_end)
      end
  end.

(** 199-297 Graph_Find_ExtremalNodes.  The depth grows with every restart, so
    n + 1 rounds are enough. *)
Definition Graph_Find_ExtremalNodes (n : Z) (adj nadj off : list Z) (n_beg : Z) (n_end : option Z) : result (Z * option Z) :=
  extremal_loop (S (Z.to_nat n)) n adj nadj off n_beg n_end (malloc n) (malloc n).

(** 415-427: the connected set; [j] is the position of the node being expanded. *)
Fixpoint cset_loop (fuel : nat) (adj nadj off : list Z) (level cset tag : array Z) (ncset j : Z) : result (array Z * Z) :=
  if j <? ncset then
    match fuel with
    | O => OutOfFuel
    | S f =>
        node <- rd cset j ;;
        o <- rdl off node ;;
        na <- rdl nadj node ;;
        '(cset, tag, ncset) <- foldM (fun st k =>
          let '(cset, tag, ncset) := st in
          an <- rdl adj (o + k) ;;
          l <- rd level an ;;
          tg <- (if l =? 0 then rd tag an else Ok 1) ;;
          if tg =? 0 then
            cset <- wr cset ncset an ;;
            tag <- wr tag an 1 ;;
            Ok (cset, tag, ncset + 1)
          else Ok (cset, tag, ncset)) (cset, tag, ncset) (zrange 0 na) ;;
        cset_loop f adj nadj off level cset tag ncset (j + 1)
    end
  else Ok (cset, ncset).

(** 394-437: the largest connected set of nodes without a level; state (cset,
    maxcset, nmaxcset).  Line 412 marks [tag[i]], not the tag of the seed. *)
Definition find_set (n : Z) (adj nadj off : list Z) (level unmarked : array Z) (st : array Z * array Z * Z) (i : Z)
  : result (array Z * array Z * Z) :=
  let '(cset, maxcset, nmax) := st in
  u <- rd unmarked i ;;
  l <- rd level u ;;
  if l =? 0 then
    cset <- wr cset 0 u ;;
    tag <- wr (repeat (Some 0) (Z.to_nat n)) i 1 ;;
    '(cset, ncset) <- cset_loop (S (Z.to_nat n)) adj nadj off level cset tag 1 0 ;;
    if ncset >? nmax then
      maxcset <- memcpy maxcset 0 cset ncset ;;
      Ok (cset, maxcset, ncset)
    else Ok (cset, maxcset, nmax)
  else Ok (cset, maxcset, nmax).

(** [a[i]++] *)
Definition incr (a : array Z) (i : Z) : result (array Z) := x <- rd a i ;; wr a i (x + 1).

(** 439-516: one round after the search; [lp0] and [lp1] are the two columns of
    levelpairs; result (level, base, unmarked, num_unmarked). *)
Definition assign_set (curdepth : Z) (lp0 lp1 level base unmarked maxcset : array Z) (num nmax : Z)
  : result (array Z * array Z * array Z * Z) :=
  let zeros := repeat (Some 0) (Z.to_nat curdepth) in
  '(d1, d2) <- foldM (fun st j =>
      let '(d1, d2) := st in
      node <- rd maxcset j ;;
      l0 <- rd lp0 node ;;
      d1 <- incr d1 (l0 - 1) ;;
      l1 <- rd lp1 node ;;
      d2 <- incr d2 (l1 - 1) ;;
      Ok (d1, d2)) (zeros, zeros) (zrange 0 nmax) ;;
  '(w1, w2) <- foldM (fun st i =>
      let '(w1, w2) := st in
      b <- rd base i ;;
      x1 <- rd d1 i ;;
      x2 <- rd d2 i ;;
      Ok (Z.max (b + x1) w1, Z.max (b + x2) w2)) (0, 0) (zrange 0 curdepth) ;;
  let lp := if w1 <? w2 then lp0 else lp1 in
  '(level, base) <- foldM (fun st j =>
      let '(level, base) := st in
      node <- rd maxcset j ;;
      lev <- rd lp node ;;
      level <- wr level node lev ;;
      base <- incr base (lev - 1) ;;
      Ok (level, base)) (level, base) (zrange 0 nmax) ;;
  '(unmarked, num2) <- foldM (fun st i =>
      let '(unmarked, num2) := st in
      u <- rd unmarked i ;;
      l <- rd level u ;;
      if l =? 0 then unmarked <- wr unmarked num2 u ;; Ok (unmarked, num2 + 1) else Ok (unmarked, num2)) (unmarked, 0) (zrange 0 num) ;;
  Ok (level, base, unmarked, num2).

(** 389-516: the loop over the connected sets. *)
Fixpoint sets_loop (fuel : nat) (n : Z) (adj nadj off : list Z) (curdepth : Z) (lp0 lp1 level base unmarked cset maxcset : array Z) (num : Z)
  : result (array Z * array Z) :=
  match fuel with
  | O => OutOfFuel
  | S f =>
      '(cset, maxcset, nmax) <- foldM (find_set n adj nadj off level unmarked) (cset, maxcset, 0) (zrange 0 num) ;;
      if nmax >? 0 then
        '(level, base, unmarked, num2) <- assign_set curdepth lp0 lp1 level base unmarked maxcset num nmax ;;
        sets_loop f n adj nadj off curdepth lp0 lp1 level base unmarked cset maxcset num2
      else Ok (level, base)
  end.

(** 316-532 Graph_Assign_Levels_MinWidth; result (level, maxwidth); the argument
    depth is never written. *)
Definition Graph_Assign_Levels_MinWidth (n : Z) (adj nadj off : list Z) (n1 nk : Z) (level : array Z) : result (array Z * Z) :=
  '(nodemap, level, _, _) <- Graph_Build_LevelStructure n adj nadj off n1 (malloc n) level ;;
  lp0 <- foldM (fun lp i => l <- rd level i ;; wr lp i l) (malloc n) (zrange 0 n) ;;
  '(nodemap, level, curdepth, _) <- Graph_Build_LevelStructure n adj nadj off nk nodemap level ;;
  lp1 <- foldM (fun lp i => l <- rd level i ;; wr lp i (curdepth + 1 - l)) (malloc n) (zrange 0 n) ;;
  level <- memcpy level 0 (repeat (Some 0) (Z.to_nat n)) n ;;
  base <- memcpy (malloc curdepth) 0 (repeat (Some 0) (Z.to_nat n)) curdepth ;;
  '(level, base, unmarked, num) <- foldM (fun st i =>
      let '(level, base, unmarked, num) := st in
      l0 <- rd lp0 i ;;
      l1 <- rd lp1 i ;;
      if l0 =? l1 then
        level <- wr level i l0 ;;
        base <- incr base (l0 - 1) ;;
        Ok (level, base, unmarked, num)
      else unmarked <- wr unmarked num i ;; Ok (level, base, unmarked, num + 1)) (level, base, malloc n, 0) (zrange 0 n) ;;
  '(level, base) <- sets_loop (S (Z.to_nat n)) n adj nadj off curdepth lp0 lp1 level base unmarked (malloc num) (malloc num) num ;;
  maxwidth <- foldM (fun m i => b <- rd base i ;; Ok (if b >? m then b else m)) 0 (zrange 0 curdepth) ;;
  Ok (level, maxwidth).

(** 605-633: expansion of the current level; [i] is the position of the node being
    expanded; state (nodemap, tag, nnew, curlevnodes, ncur). *)
Fixpoint same_loop (fuel : nat) (adj nadj off : list Z) (maxdeg lev : Z) (level nodemap tag : array Z) (nnew : Z) (cln : array Z) (ncur i : Z)
  : result (array Z * array Z * Z * array Z * Z) :=
  if i <? ncur then
    match fuel with
    | O => OutOfFuel
    | S f =>
        node <- rd cln i ;;
        m <- rd nodemap node ;;
        if m =? -1 then same_loop f adj nadj off maxdeg lev level nodemap tag nnew cln ncur i
        else
          o <- rdl off node ;;
          na <- rdl nadj node ;;
          '(nb, tag, k) <- foldM (fun st j =>
              let '(nb, tag, k) := st in
              an <- rdl adj (o + j) ;;
              l <- rd level an ;;
              c <- (if l =? lev then rd nodemap an else Ok 0) ;;
              if c =? -1 then
                nb <- wr nb k an ;;
                tag <- wr tag an 1 ;;
                Ok (nb, tag, k + 1)
              else Ok (nb, tag, k)) (malloc maxdeg, tag, 0) (zrange 0 na) ;;
          nb <- mstk_quicksort nb (Some (map Some nadj)) 0 (k - 1) ;;
          '(nodemap, nnew, cln, ncur) <- foldM (fun st j =>
              let '(nodemap, nnew, cln, ncur) := st in
              an <- rd nb j ;;
              nodemap <- wr nodemap an nnew ;;
              cln <- wr cln ncur an ;;
              Ok (nodemap, nnew + 1, cln, ncur + 1)) (nodemap, nnew, cln, ncur) (zrange 0 k) ;;
          same_loop f adj nadj off maxdeg lev level nodemap tag nnew cln ncur (i + 1)
    end
  else Ok (nodemap, tag, nnew, cln, ncur).

(** 638-665: the next level, from the node at position [i]; state (nodemap, tag,
    nnew). *)
Definition next_node (adj nadj off : list Z) (maxdeg lev : Z) (level cln : array Z) (st : array Z * array Z * Z) (i : Z)
  : result (array Z * array Z * Z) :=
  let '(nodemap, tag, nnew) := st in
  node <- rd cln i ;;
  o <- rdl off node ;;
  na <- rdl nadj node ;;
  '(nb, tag, k) <- foldM (fun st j =>
      let '(nb, tag, k) := st in
      an <- rdl adj (o + j) ;;
      l <- rd level an ;;
      c <- (if l =? lev + 1 then rd tag an else Ok 1) ;;
      if c =? 0 then
        nb <- wr nb k an ;;
        tag <- wr tag an 1 ;;
        Ok (nb, tag, k + 1)
      else Ok (nb, tag, k)) (malloc maxdeg, tag, 0) (zrange 0 na) ;;
  nb <- mstk_quicksort nb (Some (map Some nadj)) 0 (k - 1) ;;
  foldM (fun st j =>
      let '(nodemap, tag, nnew) := st in
      an <- rd nb j ;;
      nodemap <- wr nodemap an nnew ;;
      Ok (nodemap, tag, nnew + 1)) (nodemap, tag, nnew) (zrange 0 k).

(** 578-666: one level; the arrays nbrs_curlev, nbrs_nxtlev and curlevnodes only
    carry values within one use and are taken as new each time. *)
Definition number_level (n : Z) (adj nadj off : list Z) (maxdeg : Z) (level : array Z) (st : array Z * array Z * Z) (lev : Z)
  : result (array Z * array Z * Z) :=
  let '(nodemap, tag, nnew) := st in
  '(cln, ncur) <- foldM (fun st i =>
      let '(cln, ncur) := st in
      l <- rd level i ;;
      c <- (if l =? lev then rd nodemap i else Ok (-1)) ;;
      if negb (c =? -1) then cln <- wr cln ncur i ;; Ok (cln, ncur + 1) else Ok (cln, ncur)) (malloc n, 0) (zrange 0 n) ;;
  cln <- mstk_quicksort cln (Some nodemap) 0 (ncur - 1) ;;
  '(nodemap, tag, nnew, cln, ncur) <- same_loop (S (Z.to_nat n)) adj nadj off maxdeg lev level nodemap tag nnew cln ncur 0 ;;
  foldM (next_node adj nadj off maxdeg lev level cln) (nodemap, tag, nnew) (zrange 0 ncur).

(** 538-674 Graph_Assign_Numbers; result nodemap. *)
Definition Graph_Assign_Numbers (n : Z) (adj nadj off : list Z) (n_beg n_end : Z) (level nodemap : array Z) : result (array Z) :=
  depth <- foldM (fun d i => l <- rd level i ;; Ok (if l >? d then l else d)) 0 (zrange 0 n) ;;
  maxdeg <- foldM (fun d i => l <- rdl nadj i ;; Ok (if l >? d then l else d)) 0 (zrange 0 n) ;;
  de <- rdl nadj n_end ;;
  db <- rdl nadj n_beg ;;
  '(n_beg, level) <- (if de <? db then
      level <- foldM (fun level i => l <- rd level i ;; wr level i (depth - l + 1)) level (zrange 0 n) ;; Ok (n_end, level)
    else Ok (n_beg, level)) ;;
  let tag := repeat (Some 0) (Z.to_nat n) in
  nodemap <- foldM (fun m i => wr m i (-1)) nodemap (zrange 0 n) ;;
  nodemap <- wr nodemap n_beg 0 ;;
  tag <- wr tag n_beg 1 ;;
  '(nodemap, tag, nnew) <- foldM (number_level n adj nadj off maxdeg level) (nodemap, tag, 1) (zrange 1 (depth + 1)) ;;
  Ok nodemap.

(** 43-100 Graph_Renumber_GPS; result (nodemap, maxwidth); n_k is uninitialised
    ([None]) until the extremal nodes are found. *)
Definition Graph_Renumber_GPS (n nstart : Z) (nadj adj : list Z) (nodemap : array Z) : result (array Z * Z) :=
  off <- wr (malloc n) 0 0 ;;
  off <- foldM (fun off i => o <- rd off (i - 1) ;; d <- rdl nadj (i - 1) ;; wr off i (o + d)) off (zrange 1 n) ;;
  off <- mapM (fun i => rd off i) (zrange 0 n) ;;
  '(n1, onk) <- Graph_Find_ExtremalNodes n adj nadj off nstart None ;;
  match onk with
  | None => Undef
  | Some nk =>
      '(level, maxwidth) <- Graph_Assign_Levels_MinWidth n adj nadj off n1 nk (malloc n) ;;
      nodemap <- Graph_Assign_Numbers n adj nadj off n1 nk level nodemap ;;
      Ok (nodemap, maxwidth)
  end.
