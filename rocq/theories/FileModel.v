(** Writing a mesh to a file and reading it back, full representation F1:
    /repo/src/base/MESH_WriteToFile.c 30-672, MESH_InitFromFile.c 29-960. *)
From Coq Require Import ZArith Bool Ascii String Floats.SpecFloat List.
From Verif Require Import Base ListSpec AttModel TopoModel ParModel.
Import ListNotations.
Open Scope Z_scope.

(** ** Text.  The file is the sequence of its characters. *)
Definition text := list ascii.
Definition str (s : string) : text := list_ascii_of_string s.
Definition sp : text := [" "%char].
Definition nl : text := ["010"%char].
Definition tab : text := ["009"%char].

(** isspace, isdigit of the C library ("C" locale). *)
Definition code (c : ascii) : Z := Z.of_N (N_of_ascii c).
Definition is_space (c : ascii) : bool := (code c =? 32) || (9 <=? code c) && (code c <=? 13).
Definition is_digit (c : ascii) : bool := (48 <=? code c) && (code c <=? 57).
Definition digit (d : Z) : ascii := ascii_of_N (Z.to_N (48 + d)).

(** ** fprintf (C library).  %d and %-d: decimal digits. *)
Fixpoint digits (fuel : nat) (n : Z) (acc : text) : text :=
  match fuel with
  | O => acc
  | S fuel => if n <? 10 then digit n :: acc else digits fuel (n / 10) (digit (n mod 10) :: acc)
  end.
Definition nat_text (n : Z) : text := digits (S (Z.to_nat (Z.log2 n))) n [].
Definition sign (s : bool) : text := if s then ["-"%char] else [].
Definition pd (z : Z) : text := sign (z <? 0) ++ nat_text (Z.abs z).
(** The last [k] decimal digits of a number. *)
Fixpoint last_digits (k : nat) (n : Z) : text :=
  match k with O => [] | S k => last_digits k (n / 10) ++ [digit (n mod 10)] end.
(** The quotient rounded to the nearest integer, ties to even. *)
Definition nearest (p q : Z) : Z :=
  let a := p / q in let r := p mod q in
  if 2 * r <? q then a else if q <? 2 * r then a + 1 else if Z.even a then a else a + 1.
(** %.klf: the exact value rounded to k decimals (default rounding direction);
    doubles are the specification floats of the standard library, without signs
    of NaNs. *)
Definition fixed (k : nat) (x : spec_float) : text :=
  match x with
  | S754_zero s => sign s ++ nat_text 0 ++ str "." ++ last_digits k 0
  | S754_infinity s => sign s ++ str "inf"
  | S754_nan => str "nan"
  | S754_finite s m e =>
      let n := if e <? 0 then nearest (Zpos m * 10 ^ Z.of_nat k) (2 ^ (- e)) else Zpos m * 2 ^ e * 10 ^ Z.of_nat k in
      sign s ++ nat_text (n / 10 ^ Z.of_nat k) ++ str "." ++ last_digits k (n mod 10 ^ Z.of_nat k)
  end.
(** A minimal field width. *)
Definition width (n : nat) (s : text) : text := repeat " "%char (n - length s) ++ s.

(** ** fscanf (C library) *)
Fixpoint skip_ws (s : text) : text :=
  match s with c :: s' => if is_space c then skip_ws s' else s | [] => [] end.
Fixpoint span (p : ascii -> bool) (s : text) : text * text :=
  match s with
  | c :: s' => if p c then let '(a, b) := span p s' in (c :: a, b) else ([], s)
  | [] => ([], [])
  end.
(** %s into a buffer of [size] characters; None: end of file. *)
Definition scan_s (size : Z) (s : text) : result (option (text * text)) :=
  match skip_ws s with
  | [] => Ok None
  | s => let '(a, b) := span (fun c => negb (is_space c)) s in
         if Z.of_nat (length a) <? size then Ok (Some (a, b)) else Undef
  end.
Definition opt_sign (s : text) : bool * text :=
  match s with
  | "-"%char :: s' => (true, s')
  | "+"%char :: s' => (false, s')
  | _ => (false, s)
  end.
Definition value (a : text) : Z := fold_left (fun v c => 10 * v + (code c - 48)) a 0.
(** %d; None: end of file or no number. *)
Definition scan_d (s : text) : result (option (Z * text)) :=
  let '(g, s) := opt_sign (skip_ws s) in
  let '(a, s) := span is_digit s in
  match a with
  | [] => Ok None
  | _ => let z := if g then - value a else value a in
         if (- 2 ^ 31 <=? z) && (z <? 2 ^ 31) then Ok (Some (z, s)) else Undef
  end.
(** The double nearest to n / d, with the given sign. *)
Definition to_double (g : bool) (n d : Z) : spec_float :=
  if n =? 0 then S754_zero g
  else let '(q, e, l) := SFdiv_core_binary 53 1024 n 0 d 0 in binary_round_aux 53 1024 g q e l.
(** The text starts with the word (strncmp with the length of the word). *)
Fixpoint starts (w s : text) : bool :=
  match w, s with
  | [], _ => true
  | c :: w', d :: s' => Ascii.eqb c d && starts w' s'
  | _, [] => false
  end.
(** %lf: decimal numbers without exponent, inf and nan; other spellings are not
    modelled (Undef). *)
Definition scan_f (s : text) : result (option (spec_float * text)) :=
  let '(g, s) := opt_sign (skip_ws s) in
  if starts (str "inf") s then Ok (Some (S754_infinity g, skipn 3 s))
  else if starts (str "nan") s then Ok (Some (S754_nan, skipn 3 s))
  else
    let '(a, s) := span is_digit s in
    let '(b, s) := match s with "."%char :: s' => span is_digit s' | _ => ([], s) end in
    match a ++ b with
    | [] => Ok None
    | ab => match s with
            | c :: _ => if existsb (Ascii.eqb c) (str "eExXpP") then Undef
                        else Ok (Some (to_double g (value ab) (10 ^ Z.of_nat (length b)), s))
            | [] => Ok (Some (to_double g (value ab) (10 ^ Z.of_nat (length b)), s))
            end
    end.

(** ** The mesh *)
(** An attribute (include/MAttrib.h) with the values attached to entities: a map,
    by C14. *)
Inductive attval := AInt (i : Z) | ADbl (d : spec_float) | AVec (l : list spec_float).
Record attr := mkAttr { at_name : text; at_type : atype; at_ncomp : Z; at_ent : Z; at_val : ptr -> option attval }.
(** MType, include/MSTK_types.h. *)
Definition MVERTEX := 0.  Definition MEDGE := 1.  Definition MFACE := 2.  Definition MREGION := 3.  Definition MALLTYPE := 5.
(** What the two functions see of a mesh: topology, GEntDim and GEntID,
    coordinates, local IDs, the entity lists in the order of MESH_Next_Vertex,
    ..., and the attributes. *)
Record fmesh := mkFM {
  fm_t : topo; fm_c : ptr -> Z * Z; fm_x : ptr -> spec_float * spec_float * spec_float; fm_id : ptr -> Z;
  fm_v : list ptr; fm_e : list ptr; fm_f : list ptr; fm_r : list ptr;
  fm_atts : list attr }.

(** ** MESH_WriteToFile, rtype F1 (or UNKNOWN_REP on an F1 mesh), one processor *)

(** 94-113: the attributes vidatt, eidatt, fidatt, ridatt; MEnt_Get_AttVal gives 0
    for an entity without value (MEntity.c 426). *)
Definition numbers (l : list ptr) : ptr -> Z :=
  fst (fold_left (fun st p => (zupd (fst st) p (snd st + 1), snd st + 1)) l (fun _ => 0, 0)).
(** MEnt_Get_AttVal reads the entity. *)
Definition num (n : ptr -> Z) (p : ptr) : result Z := if p =? NULL then Undef else Ok (n p).

(** The pieces of a loop that prints. *)
Definition printM {A} (g : A -> result text) (l : list A) : result text :=
  foldM (fun out x => s <- g x ;; Ok (out ++ s)) [] l.

(** 118-128. *)
Definition w_vertex (m : fmesh) (v : ptr) : result text :=
  _ <- getv (fm_t m) v ;;
  let '(x, y, z) := fm_x m v in let '(gdim, gid) := fm_c m v in
  Ok (width 24 (fixed 16 x) ++ sp ++ width 24 (fixed 16 y) ++ sp ++ width 24 (fixed 16 z) ++ str "   " ++ pd gdim ++ sp ++ pd gid ++ nl).
(** 156-167. *)
Definition w_edge (m : fmesh) (vid : ptr -> Z) (e : ptr) : result text :=
  v0 <- ME_Vertex (fm_t m) e 0 ;;
  i0 <- num vid v0 ;;
  v1 <- ME_Vertex (fm_t m) e 1 ;;
  i1 <- num vid v1 ;;
  let '(gdim, gid) := fm_c m e in
  Ok (pd i0 ++ sp ++ pd i1 ++ str " " ++ tab ++ pd gdim ++ sp ++ pd gid ++ nl).
(** 185-191, 250-256: one signed number. *)
Definition w_part (ids : ptr -> Z) (l : list ptr) (dir : Z -> result Z) (j : Z) : result text :=
  p <- lent l j ;;
  d <- dir j ;;
  i <- num ids p ;;
  Ok (pd (if negb (d =? 1) then - i else i) ++ sp).
(** 181-201. *)
Definition w_face (m : fmesh) (eid : ptr -> Z) (f : ptr) : result text :=
  n <- MF_Num_Edges (fm_t m) f ;;
  l <- MF_Edges (fm_t m) f 1 NULL ;;
  s <- printM (w_part eid l (MF_EdgeDir_i (fm_t m) f)) (zrange 0 n) ;;
  let '(gdim, gid) := fm_c m f in
  Ok (pd n ++ sp ++ s ++ tab ++ pd gdim ++ sp ++ pd gid ++ nl).
(** 246-262; MR_Num_Faces, MRegion_FNR3R4.c. *)
Definition w_region (m : fmesh) (fid : ptr -> Z) (r : ptr) : result text :=
  l <- MR_Faces (fm_t m) r ;;
  let n := ZL l in
  s <- printM (w_part fid l (MR_FaceDir_i (fm_t m) r)) (zrange 0 n) ;;
  let '(gdim, gid) := fm_c m r in
  Ok (pd n ++ sp ++ s ++ tab ++ pd gdim ++ sp ++ pd gid ++ nl).

(** 346-383, 439-638: the entities an attribute may be on, with their dimension,
    in the order of the loops. *)
Definition scope (m : fmesh) (ent : Z) : list (Z * ptr) :=
  let kind d l := map (fun p => (d, p)) l in
  if ent =? MVERTEX then kind 0 (fm_v m)
  else if ent =? MEDGE then kind 1 (fm_e m)
  else if ent =? MFACE then kind 2 (fm_f m)
  else if ent =? MREGION then kind 3 (fm_r m)
  else if ent =? MALLTYPE then kind 0 (fm_v m) ++ kind 1 (fm_e m) ++ kind 2 (fm_f m) ++ kind 3 (fm_r m)
  else [].
(** 446-460: the value; " %-d" for ints, " %-lf " for doubles (6 decimals). *)
Definition dbl_text (x : spec_float) : text := sp ++ fixed 6 x ++ sp.
Definition w_value (t : atype) (ncomp : Z) (v : attval) : result text :=
  match t, v with
  | TINT, AInt i => Ok (sp ++ pd i)
  | TDOUBLE, ADbl d => Ok (dbl_text d)
  | TVECTOR, AVec l | TTENSOR, AVec l =>
      printM (fun k => match nth_error l (Z.to_nat k) with Some x => Ok (dbl_text x) | None => Undef end) (zrange 0 ncomp)
  | _, _ => Undef
  end.
Definition type_word (t : atype) : text :=
  match t with TINT => str "INT" | TDOUBLE => str "DOUBLE" | TVECTOR => str "VECTOR" | TTENSOR => str "TENSOR" | TPOINTER => str "POINTER" end.
Definition ent_word (e : Z) : text :=
  if e =? MVERTEX then str "MVERTEX" else if e =? MEDGE then str "MEDGE" else if e =? MFACE then str "MFACE"
  else if e =? MREGION then str "MREGION" else str "MALLTYPE".
Definition is_pointer (t : atype) : bool := match t with TPOINTER => true | _ => false end.
(** 326-638. *)
Definition w_attr (m : fmesh) (ids : Z -> ptr -> Z) (a : attr) : result text :=
  if 255 <? Z.of_nat (length (at_name a)) then Undef else
  if is_pointer (at_type a) then Ok [] else
  let users := filter (fun dp => match at_val a (snd dp) with Some _ => true | None => false end) (scope m (at_ent a)) in
  let nent := Z.of_nat (length users) in
  if nent =? 0 then Ok [] else
  s <- printM (fun dp : Z * ptr =>
         let '(d, p) := dp in
         i <- num (ids d) p ;;
         match at_val a p with
         | Some v => s <- w_value (at_type a) (at_ncomp a) v ;; Ok (pd d ++ sp ++ pd i ++ sp ++ s ++ nl)
         | None => Ok []
         end) users ;;
  Ok (at_name a ++ nl ++ type_word (at_type a) ++ nl ++ pd (at_ncomp a) ++ nl ++ ent_word (at_ent a) ++ nl ++ pd nent ++ nl ++ s).

(** 30-672: the contents of the file. *)
Definition MESH_WriteToFile (m : fmesh) : result text :=
  let vid := numbers (fm_v m) in let eid := numbers (fm_e m) in
  let fid := numbers (fm_f m) in let rid := numbers (fm_r m) in
  let nv := ZL (fm_v m) in let ne := ZL (fm_e m) in let nf := ZL (fm_f m) in let nr := ZL (fm_r m) in
  sv <- printM (w_vertex m) (fm_v m) ;;
  se <- (if ne =? 0 then Ok [] else s <- printM (w_edge m vid) (fm_e m) ;; Ok (str "edges" ++ nl ++ s)) ;;
  sf <- printM (w_face m eid) (fm_f m) ;;
  sr <- (if nr =? 0 then Ok [] else s <- printM (w_region m fid) (fm_r m) ;; Ok (str "regions face" ++ nl ++ s)) ;;
  let ids d := if d =? 0 then vid else if d =? 1 then eid else if d =? 2 then fid else rid in
  sa <- match fm_atts m with [] => Ok [] | _ => s <- printM (w_attr m ids) (fm_atts m) ;; Ok (str "attributes" ++ nl ++ s) end ;;
  Ok (str "MSTK 1.0" ++ nl ++ str "F1 " ++ pd nv ++ sp ++ pd ne ++ sp ++ pd nf ++ sp ++ pd nr ++ nl ++
      str "vertices" ++ nl ++ sv ++ se ++ str "faces edge" ++ nl ++ sf ++ sr ++ sa).

(** ** MESH_InitFromFile, into a new mesh of type F1 or UNKNOWN_REP *)

(** Left out: files of another type than F1 and the sections adjvertices and
    adjregions, which they have (Undef).  A line that is matched in part leaves
    variables with old or no values: Undef. *)
Definition first_d (s : text) : result (Z * text) := o <- scan_d s ;; match o with Some x => Ok x | None => Fatal end.
Definition next_d (s : text) : result (Z * text) := o <- scan_d s ;; match o with Some x => Ok x | None => Undef end.
Definition first_f (s : text) : result (spec_float * text) := o <- scan_f s ;; match o with Some x => Ok x | None => Fatal end.
Definition next_f (s : text) : result (spec_float * text) := o <- scan_f s ;; match o with Some x => Ok x | None => Undef end.
Definition first_s (size : Z) (s : text) : result (text * text) := o <- scan_s size s ;; match o with Some x => Ok x | None => Fatal end.

Definition empty_fmesh : fmesh := mkFM empty_topo (fun _ => (4, 0)) (fun _ => (S754_zero false, S754_zero false, S754_zero false)) (fun _ => 0) [] [] [] [] [].
Definition set_ft (m : fmesh) (t : topo) : fmesh := mkFM t (fm_c m) (fm_x m) (fm_id m) (fm_v m) (fm_e m) (fm_f m) (fm_r m) (fm_atts m).
(** MEntity.c 178-180, 190-192 and include/MEntity.h 42-43: GEntDim has 3 bits,
    GEntID 26; Set_ID. *)
Definition set_info (m : fmesh) (p : ptr) (c : Z * Z) (id : Z) : fmesh :=
  mkFM (fm_t m) (zupd (fm_c m) p (fst c mod 2 ^ 3, snd c mod 2 ^ 26)) (fm_x m) (zupd (fm_id m) p id) (fm_v m) (fm_e m) (fm_f m) (fm_r m) (fm_atts m).
Definition set_x (m : fmesh) (p : ptr) (x : spec_float * spec_float * spec_float) : fmesh :=
  mkFM (fm_t m) (fm_c m) (zupd (fm_x m) p x) (fm_id m) (fm_v m) (fm_e m) (fm_f m) (fm_r m) (fm_atts m).
(** MV_New, ..., MESH_Add_Vertex, ... (Mesh.c 845-909): appended to the list. *)
Definition new_v (m : fmesh) : fmesh * ptr := let '(t, p) := MV_New (fm_t m) in
  (mkFM t (fm_c m) (fm_x m) (fm_id m) (fm_v m ++ [p]) (fm_e m) (fm_f m) (fm_r m) (fm_atts m), p).
Definition new_e (m : fmesh) : fmesh * ptr := let '(t, p) := ME_New (fm_t m) in
  (mkFM t (fm_c m) (fm_x m) (fm_id m) (fm_v m) (fm_e m ++ [p]) (fm_f m) (fm_r m) (fm_atts m), p).
Definition new_f (m : fmesh) : fmesh * ptr := let '(t, p) := MF_New (fm_t m) in
  (mkFM t (fm_c m) (fm_x m) (fm_id m) (fm_v m) (fm_e m) (fm_f m ++ [p]) (fm_r m) (fm_atts m), p).
Definition new_r (m : fmesh) : fmesh * ptr := let '(t, p) := MR_New (fm_t m) in
  (mkFM t (fm_c m) (fm_x m) (fm_id m) (fm_v m) (fm_e m) (fm_f m) (fm_r m ++ [p]) (fm_atts m), p).

(** 122-138. *)
Definition r_vertex (st : fmesh * text) (i : Z) : result (fmesh * text) :=
  let '(m, s) := st in
  ' (x, s) <- first_f s ;;
  ' (y, s) <- next_f s ;;
  ' (z, s) <- next_f s ;;
  ' (gdim, s) <- next_d s ;;
  ' (gid, s) <- next_d s ;;
  let '(m, p) := new_v m in
  Ok (set_info (set_x m p (x, y, z)) p (gdim, gid) (i + 1), s).
(** 258-283. *)
Definition r_edge (st : fmesh * text) (i : Z) : result (fmesh * text) :=
  let '(m, s) := st in
  ' (v1, s) <- first_d s ;;
  ' (v2, s) <- next_d s ;;
  ' (gdim, s) <- next_d s ;;
  ' (gid, s) <- next_d s ;;
  p1 <- lent (fm_v m) (v1 - 1) ;;
  p2 <- lent (fm_v m) (v2 - 1) ;;
  let '(m, e) := new_e m in
  t <- ME_Set_Vertex (fm_t m) e 0 p1 ;;
  t <- ME_Set_Vertex t e 1 p2 ;;
  Ok (set_info (set_ft m t) e (gdim, gid) (i + 1), s).
(** 445-461, 645-661: entities and directions; the arrays always hold [n]. *)
Definition r_parts (l : list ptr) (n : Z) (s : text) : result (list ptr * list Z * text) :=
  foldM (fun st (j : Z) =>
    let '(ps, ds, s) := st in
    ' (i, s) <- first_d s ;;
    p <- lent l (Z.abs i - 1) ;;
    Ok (ps ++ [p], ds ++ [if 0 <? i then 1 else 0], s)) ([], [], s) (zrange 0 n).
(** 420-488. *)
Definition r_face (st : fmesh * text) (i : Z) : result (fmesh * text) :=
  let '(m, s) := st in
  let '(m, f) := new_f m in
  ' (n, s) <- first_d s ;;
  if n <? 0 then Undef else
  ' (es, ds, s) <- r_parts (fm_e m) n s ;;
  t <- MF_Set_Edges (fm_t m) f n es ds ;;
  ' (gdim, s) <- first_d s ;;
  ' (gid, s) <- next_d s ;;
  Ok (set_info (set_ft m t) f (gdim, gid) (i + 1), s).
(** 620-689. *)
Definition r_region (st : fmesh * text) (i : Z) : result (fmesh * text) :=
  let '(m, s) := st in
  let '(m, r) := new_r m in
  ' (n, s) <- first_d s ;;
  if n <? 0 then Undef else
  ' (fs, ds, s) <- r_parts (fm_f m) n s ;;
  t <- MR_Set_Faces (fm_t m) r n fs ds ;;
  ' (gdim, s) <- first_d s ;;
  ' (gid, s) <- next_d s ;;
  Ok (set_info (set_ft m t) r (gdim, gid) (i + 1), s).

(** Mesh.c 696-725, ... (C17): the entry at id-1 if it has the ID, else a search. *)
Definition from_id (m : fmesh) (l : list ptr) (id : Z) : ptr :=
  if (id <? 1) || (ZL l <? id) then NULL
  else let p := nth (Z.to_nat (id - 1)) l NULL in
       if fm_id m p =? id then p else match find (fun q => fm_id m q =? id) l with Some q => q | None => NULL end.
(** 824-839. *)
Definition word_type (w : text) : result atype :=
  if starts (str "INT") w then Ok TINT else if starts (str "DOUBLE") w then Ok TDOUBLE
  else if starts (str "POINTER") w then Fatal else if starts (str "VECTOR") w then Ok TVECTOR
  else if starts (str "TENSOR") w then Ok TTENSOR else Fatal.
(** 863-878. *)
Definition word_ent (w : text) : result Z :=
  if starts (str "MVERTEX") w then Ok MVERTEX else if starts (str "MEDGE") w then Ok MEDGE
  else if starts (str "MFACE") w then Ok MFACE else if starts (str "MREGION") w then Ok MREGION
  else if starts (str "MALLTYPE") w then Ok MALLTYPE else Fatal.
(** 909-913, 917-927: the value. *)
Definition r_value (t : atype) (ncomp : Z) (s : text) : result (attval * text) :=
  match t with
  | TINT => ' (i, s) <- next_d s ;; Ok (AInt i, s)
  | TDOUBLE => ' (x, s) <- next_f s ;; Ok (ADbl x, s)
  | TVECTOR | TTENSOR =>
      ' (l, s) <- foldM (fun st (_ : Z) => let '(l, s) := st in ' (x, s) <- next_f s ;; Ok (l ++ [x], s)) ([], s) (zrange 0 ncomp) ;;
      Ok (AVec l, s)
  | TPOINTER => Undef
  end.
(** 909-913: values that are skipped; for DOUBLE ncomp numbers. *)
Definition skip_value (t : atype) (ncomp : Z) (s : text) : result text :=
  match t with
  | TINT => ' (_, s) <- next_d s ;; Ok s
  | _ => foldM (fun s (_ : Z) => ' (_, s) <- next_f s ;; Ok s) s (zrange 0 ncomp)
  end.
(** 897-951. *)
Definition r_attval (m : fmesh) (t : atype) (ent ncomp : Z) (st : (ptr -> option attval) * text) (_ : Z) : result ((ptr -> option attval) * text) :=
  let '(vals, s) := st in
  ' (dim, s) <- first_d s ;;
  ' (id, s) <- next_d s ;;
  if negb (ent =? dim) && negb (ent =? MALLTYPE) then
    s <- skip_value t ncomp s ;; Ok (vals, s)
  else
    ' (v, s) <- r_value t ncomp s ;;
    p <- (if dim =? 0 then Ok (from_id m (fm_v m) id) else if dim =? 1 then Ok (from_id m (fm_e m) id)
          else if dim =? 2 then Ok (from_id m (fm_f m) id) else if dim =? 3 then Ok (from_id m (fm_r m) id) else Fatal) ;;
    if p =? NULL then Undef else Ok (zupd vals p (Some v), s).
(** 806-953; MAttrib_New gives INT and DOUBLE one component (MAttrib.c 70-73). *)
Fixpoint r_attribs (fuel : nat) (m : fmesh) (s : text) : result fmesh :=
  match fuel with
  | O => OutOfFuel
  | S fuel =>
      o <- scan_s 256 s ;;
      match o with
      | None => Ok m
      | Some (name, s) =>
          ' (w, s) <- first_s 256 s ;;
          t <- word_type w ;;
          ' (ncomp, s) <- first_d s ;;
          let vec := match t with TVECTOR | TTENSOR => true | _ => false end in
          if vec && (ncomp =? 0) then Fatal else
          ' (w, s) <- first_s 256 s ;;
          ent <- word_ent w ;;
          ' (nent, s) <- first_d s ;;
          if nent <? 1 then Fatal else
          if vec && (ncomp <? 0) then Undef else
          ' (vals, s) <- foldM (r_attval m t ent ncomp) (fun _ => None, s) (zrange 0 nent) ;;
          let a := mkAttr name t (if vec then ncomp else 1) ent vals in
          r_attribs fuel (mkFM (fm_t m) (fm_c m) (fm_x m) (fm_id m) (fm_v m) (fm_e m) (fm_f m) (fm_r m) (fm_atts m ++ [a])) s
      end
  end.

(** 720-722, 801-959. *)
Definition r_tail (m : fmesh) (w s : text) : result (option fmesh) :=
  if starts (str "adjregions") w then Undef else
  if starts (str "attributes") w then m <- r_attribs (S (length s)) m s ;; Ok (Some m) else Ok (Some m).
(** 531-717. *)
Definition r_regions (m : fmesh) (nr : Z) (w s : text) : result (option fmesh) :=
  if starts (str "region") w then
    ' (ty, s) <- first_s 16 s ;;
    if starts (str "face") ty then
      ' (m, s) <- foldM r_region (m, s) (zrange 0 nr) ;;
      o <- scan_s 256 s ;;
      match o with None => Ok (Some m) | Some (w, s) => r_tail m w s end
    else Ok None
  else r_tail m w s.
(** 330-526. *)
Definition r_faces (m : fmesh) (nf nr : Z) (w s : text) : result (option fmesh) :=
  if starts (str "face") w then
    ' (ty, s) <- first_s 16 s ;;
    if starts (str "edge") ty then
      ' (m, s) <- foldM r_face (m, s) (zrange 0 nf) ;;
      o <- scan_s 256 s ;;
      match o with
      | None => if nr =? 0 then Ok (Some m) else Fatal
      | Some (w, s) => r_regions m nr w s
      end
    else Ok None
  else Ok None.
(** 249-321. *)
Definition r_edges (m : fmesh) (ne nf nr : Z) (w s : text) : result (option fmesh) :=
  if starts (str "adjvertices") w then Undef else
  if starts (str "edges") w then
    ' (m, s) <- foldM r_edge (m, s) (zrange 0 ne) ;;
    o <- scan_s 256 s ;;
    match o with
    | None => if (nf =? 0) && (nr =? 0) then Ok (Some m) else Fatal
    | Some (w, s) => r_faces m nf nr w s
    end
  else Ok None.
Definition text_eqb (a b : text) : bool := (Nat.eqb (length a) (length b)) && starts a b.
(** 29-960; None: the function returns 0. *)
Definition MESH_InitFromFile (s : text) : result (option fmesh) :=
  o <- scan_s 256 s ;;
  match o with
  | None => Undef
  | Some (w, s) =>
      if negb (text_eqb w (str "MSTK")) then Ok None else
      ' (_, s) <- next_f s ;;
      ' (ty, s) <- first_s 16 s ;;
      ' (nv, s) <- next_d s ;;
      ' (ne, s) <- next_d s ;;
      ' (nf, s) <- next_d s ;;
      ' (nr, s) <- next_d s ;;
      if existsb (fun u => starts (str u) ty) ["F4"; "R1"; "R2"; "R4"]%string then Undef else
      if negb (starts (str "F1") ty) then Ok None else
      ' (w, s) <- first_s 256 s ;;
      if negb (starts (str "vertices") w) then Ok None else
      if (nv <? 0) || (ne <? 0) || (nf <? 0) || (nr <? 0) then Undef else
      ' (m, s) <- foldM r_vertex (empty_fmesh, s) (zrange 0 nv) ;;
      o <- scan_s 256 s ;;
      match o with
      | None => if (ne =? 0) && (nf =? 0) && (nr =? 0) then Ok None else Fatal
      | Some (w, s) => r_edges m ne nf nr w s
      end
  end.
