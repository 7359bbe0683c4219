(** The parts are changed so that columns of cells are not cut.  Models
    src/par/FixColumnPartitions.c and src/hilev/MF_Coords.c.  Doubles are binary64 and every
    operation is rounded. *)
From Coq Require Import ZArith Bool Floats.SpecFloat List.
From Verif Require Import Base ListSpec CompareModel TopoModel ParModel FileModel SendModel.
Import ListNotations.
Open Scope Z_scope.

Definition fadd : spec_float -> spec_float -> spec_float := SFadd 53 1024.
Definition fmul : spec_float -> spec_float -> spec_float := SFmul 53 1024.
Definition fdiv : spec_float -> spec_float -> spec_float := SFdiv 53 1024.
Definition fzero : spec_float := S754_zero false.
Definition of_int (n : Z) : spec_float := binary_normalize 53 1024 n 0 false.
(** fmax(x,1.): 1 if x is NaN. *)
Definition fmax1 (x : spec_float) : spec_float := if SFltb (of_int 1) x then x else of_int 1.
Definition cx (p : spec_float * spec_float * spec_float) : spec_float := fst (fst p).
Definition cy (p : spec_float * spec_float * spec_float) : spec_float := snd (fst p).
Definition cz (p : spec_float * spec_float * spec_float) : spec_float := snd p.
Definition origin : spec_float * spec_float * spec_float := (fzero, fzero, fzero).

(** MF_Coords.c 17-30; the array of the callers has MAXPV2 rows. *)
Definition MF_Coords (m : fmesh) (f : ptr) : result (list (spec_float * spec_float * spec_float)) :=
  l <- MF_Vertices (fm_t m) f 1 NULL ;;
  mapM (fun i => v <- lent l i ;; if MAXPV2 <=? i then Undef else _ <- getv (fm_t m) v ;; Ok (fm_x m v)) (zrange 0 (ZL l)).

(** FixColumnPartitions.c 34-56: a face whose shadow on the xy plane has no area. *)
Definition IsSideFace (m : fmesh) (f : ptr) : result bool :=
  l <- MF_Coords m f ;;
  let n := Z.of_nat (length l) in
  let at_ j := nth (Z.to_nat j) l origin in
  let znorm := fold_left (fun z j =>
    let p := at_ (if j =? 0 then n - 1 else j - 1) in
    let q := at_ j in
    let r := at_ (if j =? n - 1 then 0 else j + 1) in
    fadd z (f64sub (fmul (f64sub (cy q) (cy p)) (f64sub (cx r) (cx q))) (fmul (f64sub (cy r) (cy q)) (f64sub (cx q) (cx p))))) (zrange 0 n) fzero in
  Ok (SFltb (SFabs (fdiv znorm (of_int n))) tol12).

(** 77-90: the first two faces that are not sides.  The entry after the last one is NULL. *)
Fixpoint two_ends (m : fmesh) (up : option ptr) (l : list ptr) : result (ptr * ptr) :=
  match l with
  | [] => Undef
  | f :: l' =>
      side <- IsSideFace m f ;;
      match side, up with
      | false, Some u => Ok (u, f)
      | _, _ => match l' with [] => Fatal | _ => two_ends m (if side then up else Some f) l' end
      end
  end.
(** 93-105: sums, not averages, of the coordinates. *)
Definition sums (l : list (spec_float * spec_float * spec_float)) : spec_float * spec_float * spec_float :=
  fold_left (fun c p => (fadd (cx c) (cx p), fadd (cy c) (cy p), fadd (cz c) (cz p))) l origin.
Definition differ (x y : spec_float) : bool := SFltb tol12 (fdiv (SFabs (f64sub x y)) (fmax1 (SFabs x))).
(** 64-129; the errors are fatal. *)
Definition UpDownFaces (m : fmesh) (r : ptr) : result (ptr * ptr) :=
  l <- MR_Faces (fm_t m) r ;;
  ' (u, d) <- two_ends m None l ;;
  lu <- MF_Coords m u ;;
  ld <- MF_Coords m d ;;
  let cu := sums lu in let cd := sums ld in
  if differ (cx cu) (cx cd) || differ (cy cu) (cy cd) then Fatal
  else if SFltb (cz cu) (f64sub (cz cd) tol12) then Ok (d, u)
  else if SFltb (fadd (cz cd) tol12) (cz cu) then Ok (u, d)
  else Fatal.

(** 177-209: down the column; [st] is part and touched. *)
Fixpoint walk (fuel : nat) (m : fmesh) (home : Z) (st : list Z * list Z) (cur expected : ptr) : result (list Z * list Z) :=
  match fuel with
  | O => OutOfFuel
  | S k =>
      let '(part, touched) := st in
      x <- rdl touched (fm_id m cur - 1) ;;
      if negb (x =? 0) then Fatal else
      touched <- wrl touched (fm_id m cur - 1) 1 ;;
      ' (top, bot) <- UpDownFaces m cur ;;
      if negb (top =? expected) then Fatal else
      fregs <- MF_Regions (fm_t m) bot ;;
      if ZL fregs =? 2 then
        a <- lent fregs 0 ;;
        nxt <- (if a =? cur then lent fregs 1 else Ok a) ;;
        p <- rdl part (fm_id m nxt - 1) ;;
        part <- (if negb (p =? home) then wrl part (fm_id m nxt - 1) home else Ok part) ;;
        walk k m home (part, touched) nxt bot
      else Ok (part, touched)
  end.
(** 157-175. *)
Definition column_at (m : fmesh) (st : list Z * list Z) (r : ptr) : result (list Z * list Z) :=
  ' (top, bot) <- UpDownFaces m r ;;
  fregs <- MF_Regions (fm_t m) top ;;
  if ZL fregs =? 1 then
    home <- rdl (fst st) (fm_id m r - 1) ;;
    walk (S (length (snd st))) m home st r top
  else Ok st.
(** 132-236; the count of regions that were not touched is only reported. *)
Definition FixColumnPartitions (m : fmesh) (part : list Z) : result (list Z) :=
  match fm_r m with
  | [] => Ok part
  | _ => st <- foldM (column_at m) (part, repeat 0 (length (fm_r m))) (fm_r m) ;; Ok (fst st)
  end.
