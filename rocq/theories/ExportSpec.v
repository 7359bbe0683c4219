(** What files in the formats OFF and STL are. *)
From Coq Require Import ZArith Bool Ascii String Floats.SpecFloat List.
From Verif Require Import Base ListSpec TopoModel TopoSpec TopoProofs5 TopoProps2 FileModel FileSpec SendModel SendSpec PartSpec.
Import ListNotations.
Open Scope Z_scope.

Notation point := (spec_float * spec_float * spec_float)%type.

(** ** Reading an OFF file *)
Definition got {A} (r : result (option (A * text))) : option (A * text) := match r with Ok x => x | _ => None end.
Fixpoint many {A} (rd : text -> option (A * text)) (n : nat) (s : text) : option (list A * text) :=
  match n with
  | O => Some ([], s)
  | S k => match rd s with
           | Some (x, s) => match many rd k s with Some (l, s) => Some (x :: l, s) | None => None end
           | None => None
           end
  end.
Definition int (s : text) := got (scan_d s).
Definition real (s : text) := got (scan_f s).
Definition point3 (s : text) : option (point * text) :=
  match many real 3 s with Some ([x; y; z], s) => Some ((x, y, z), s) | _ => None end.
Definition polygon (s : text) : option (list Z * text) := match int s with Some (n, s) => many int (Z.to_nat n) s | None => None end.
(** The word OFF, three numbers, the points, and the polygons: how many corners, and their numbers. *)
Definition read_off (s : text) : option (list point * list (list Z)) :=
  match got (scan_s 256 s) with
  | Some (w, s) =>
      if list_eq_dec ascii_dec w (list_ascii_of_string "OFF") then
        match many int 3 s with
        | Some ([nv; nf; _], s) =>
            match many point3 (Z.to_nat nv) s with
            | Some (ps, s) => match many polygon (Z.to_nat nf) s with Some (ls, _) => Some (ps, ls) | None => None end
            | None => None
            end
        | _ => None
        end
      else None
  | None => None
  end.
(** The points have the numbers 0, 1, ... *)
Definition off_valid (s : text) : Prop :=
  exists ps ls, read_off s = Some (ps, ls) /\ forall l i, In l ls -> In i l -> 0 <= i < Z.of_nat (List.length ps).
(** [l] are the corners of the face, the points having the numbers [first], [first] + 1, ... *)
Definition corners (s : smesh) (a : amesh) (first : Z) (f : ptr) (l : list Z) : Prop :=
  exists b vs, a_f a f = Some (true, Some b) /\ around a vs b /\
  Forall2 (fun v i => first <= i /\ nth_error (skind s 0) (Z.to_nat (i - first)) = Some v) vs l.
Definition off_of (s : smesh) (a : amesh) (first : Z) (file : text) : Prop :=
  exists ls, read_off file = Some (map (fun v => let '(x, y, z) := fm_x (sm_m s) v in (back 12 x, back 12 y, back 12 z)) (skind s 0), ls) /\
  Forall2 (corners s a first) (skind s 2) ls.

(** ** The words of an STL file *)
Definition word (s : string) : text := list_ascii_of_string s.
Fixpoint split (s : text) (w : text) : list text :=
  match s with
  | [] => match w with [] => [] | _ => [rev w] end
  | c :: s' => if is_space c then match w with [] => split s' [] | _ => rev w :: split s' [] end else split s' (c :: w)
  end.
Definition vertex3 (p : text * text * text) : list text := let '(x, y, z) := p in [word "vertex"; x; y; z].
Definition facet (n p q r : text * text * text) : list text :=
  let '(x, y, z) := n in [word "facet"; word "normal"; x; y; z; word "outer"; word "loop"] ++ vertex3 p ++ vertex3 q ++ vertex3 r ++ [word "endloop"; word "endfacet"].
(** "solid", perhaps a name, the facets, "endsolid", perhaps a name. *)
Definition stl_valid (s : text) : Prop :=
  exists name fs name', split s [] = [word "solid"] ++ name ++ concat (map (fun f => let '(n, p, q, r) := f in facet n p q r) fs) ++ [word "endsolid"] ++ name'.

(** ** What the facets of an STL file show *)
Definition shows (k : nat) (x : spec_float) (w : text) : Prop := exists rest, real w = Some (back k x, rest) /\ split rest [] = [].
Definition shows3 (k : nat) (p : point) (w : text * text * text) : Prop :=
  let '(x, y, z) := p in let '(u, v, t) := w in shows k x u /\ shows k y v /\ shows k z t.
(** The product of two sides of a triangle, and its direction (in doubles). *)
Definition det (a b c d : spec_float) : spec_float := SFsub 53 1024 (SFmul 53 1024 a d) (SFmul 53 1024 b c).
Definition side (p q : point) : point :=
  (SFsub 53 1024 (fst (fst q)) (fst (fst p)), SFsub 53 1024 (snd (fst q)) (snd (fst p)), SFsub 53 1024 (snd q) (snd p)).
Definition product (v w : point) : point :=
  let '(a, b, c) := v in let '(d, e, f) := w in (det b c e f, det c a f d, det a b d e).
Definition direction (v : point) : point :=
  let '(a, b, c) := v in
  let n := SFsqrt 53 1024 (SFadd 53 1024 (SFadd 53 1024 (SFmul 53 1024 a a) (SFmul 53 1024 b b)) (SFmul 53 1024 c c)) in
  (SFdiv 53 1024 a n, SFdiv 53 1024 b n, SFdiv 53 1024 c n).
(** The words are the facet of the face: its normal to 8 decimals and its corners to 10. *)
Definition facet_of (s : smesh) (a : amesh) (f : ptr) (ws : list text) : Prop :=
  exists b vs p q r n' p' q' r', a_f a f = Some (true, Some b) /\ around a vs b /\ map (fm_x (sm_m s)) vs = [p; q; r] /\ ws = facet n' p' q' r' /\
  shows3 8 (direction (product (side p q) (side p r))) n' /\ shows3 10 p p' /\ shows3 10 q q' /\ shows3 10 r r'.
(** Blanks between words apart, the file is the one with these words. *)
Definition but_for_blanks (file : text) (ws : list text) : Prop := concat (split file []) = concat ws.
