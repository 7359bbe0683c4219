(** What a copy of a mesh through a file is.  Independent of the writing and
    reading functions of FileModel.v, of which only the types are used. *)
From Coq Require Import ZArith Bool Ascii Floats.SpecFloat List.
From Verif Require Import Base ListSpec AttModel TopoModel TopoSpec TopoProps FileModel.
Import ListNotations.
Open Scope Z_scope.

(** Entities of dimension 0, 1, 2, 3. *)
Definition kind (m : fmesh) (d : Z) : list ptr :=
  if d =? 0 then fm_v m else if d =? 1 then fm_e m else if d =? 2 then fm_f m else if d =? 3 then fm_r m else [].
(** An attribute for entities of type [ent] may be on entities of dimension [d]. *)
Definition covers (ent d : Z) : Prop := 0 <= d <= 3 /\ (ent = d \/ ent = MALLTYPE).
Definition on (m : fmesh) (a : attr) (d : Z) (p : ptr) : Prop := covers (at_ent a) d /\ In p (kind m d).

(** A double printed with [k] decimals and read again; see C36_precision. *)
Definition printed (k : nat) (m : positive) (e : Z) : Z :=
  if e <? 0 then nearest (Zpos m * 10 ^ Z.of_nat k) (2 ^ (- e)) else Zpos m * 2 ^ e * 10 ^ Z.of_nat k.
Definition back (k : nat) (x : spec_float) : spec_float :=
  match x with S754_finite s m e => to_double s (printed k m e) (10 ^ Z.of_nat k) | x => x end.
Definition back_val (v : attval) : attval :=
  match v with AInt i => AInt i | ADbl x => ADbl (back 6 x) | AVec l => AVec (map (back 6) l) end.

(** A value of the type of the attribute. *)
Definition has_type (a : attr) (v : attval) : Prop :=
  match at_type a, v with
  | TINT, AInt i => - 2 ^ 31 <= i < 2 ^ 31
  | TDOUBLE, ADbl _ => True
  | TVECTOR, AVec l | TTENSOR, AVec l => Z.of_nat (length l) = at_ncomp a
  | _, _ => False
  end.
(** A name that is one word of at most 255 characters. *)
Definition one_word (s : text) : Prop :=
  s <> [] /\ Forall (fun c => is_space c = false) s /\ Z.of_nat (length s) < 256.
Record good_attr (m : fmesh) (a : attr) : Prop := mkGoodAttr {
  ga_name : one_word (at_name a);
  ga_ncomp : match at_type a with TVECTOR | TTENSOR => 1 <= at_ncomp a < 2 ^ 31 | _ => at_ncomp a = 1 end;
  ga_ent : at_ent a = MALLTYPE \/ 0 <= at_ent a <= 3;
  ga_val : forall d p v, at_type a <> TPOINTER -> on m a d p -> at_val a p = Some v -> has_type a v }.

(** A mesh that can be written and read back: its lists hold exactly the live
    entities, these are complete, and there is an edge. *)
Record printable (m : fmesh) (a : amesh) : Prop := mkPrintable {
  pr_reach : reach (fm_t m) a;
  pr_nd : forall d, NoDup (kind m d);
  pr_v : forall p, In p (fm_v m) <-> live_v a p;
  pr_e : forall p, In p (fm_e m) <-> live_e a p;
  pr_f : forall p, In p (fm_f m) <-> live_f a p;
  pr_r : forall p, In p (fm_r m) <-> live_r a p;
  pr_ends : forall e v0 v1, a_e a e = Some (true, (v0, v1)) -> v0 <> NULL /\ v1 <> NULL;
  pr_faces : forall f, a_f a f <> Some (true, None);
  pr_regions : forall r, a_r a r <> Some (true, None);
  pr_class : forall d p, In p (kind m d) -> 0 <= fst (fm_c m p) < 8 /\ 0 <= snd (fm_c m p) < 2 ^ 26;
  pr_size : Z.of_nat (length (fm_v m) + length (fm_e m) + length (fm_f m) + length (fm_r m)) < 2 ^ 31;
  pr_edge : fm_e m <> [];
  pr_atts : Forall (good_attr m) (fm_atts m) }.

(** Whether anything of the attribute is in the file. *)
Definition kept (m : fmesh) (a : attr) : Prop := at_type a <> TPOINTER /\ exists d p v, on m a d p /\ at_val a p = Some v.
Record att_copy (m : fmesh) (phi : Z -> ptr -> ptr) (a a' : attr) : Prop := mkAttCopy {
  ac_name : at_name a' = at_name a;
  ac_type : at_type a' = at_type a;
  ac_ncomp : at_ncomp a' = at_ncomp a;
  ac_ent : at_ent a' = at_ent a;
  ac_val : forall d p, on m a d p -> at_val a' (phi d p) = option_map back_val (at_val a p);
  ac_no : forall q, (forall d p, on m a d p -> phi d p <> q) -> at_val a' q = None }.
(** The attributes that are kept, in order. *)
Inductive atts_copy (m : fmesh) (phi : Z -> ptr -> ptr) : list attr -> list attr -> Prop :=
| atts_nil : atts_copy m phi [] []
| atts_keep a a' l l' : kept m a -> att_copy m phi a a' -> atts_copy m phi l l' -> atts_copy m phi (a :: l) (a' :: l')
| atts_drop a l l' : ~ kept m a -> atts_copy m phi l l' -> atts_copy m phi (a :: l) l'.

(** [m'] is a copy of [m]; [phi d] maps the entities of dimension [d]. *)
Record file_copy (m m' : fmesh) (a a' : amesh) (phi : Z -> ptr -> ptr) : Prop := mkFileCopy {
  fc_reach : reach (fm_t m') a';
  fc_kind : forall d, kind m' d = map (phi d) (kind m d);
  fc_nd : NoDup (fm_v m' ++ fm_e m' ++ fm_f m' ++ fm_r m');
  fc_lv : forall q, live_v a' q <-> In q (fm_v m');
  fc_le : forall q, live_e a' q <-> In q (fm_e m');
  fc_lf : forall q, live_f a' q <-> In q (fm_f m');
  fc_lr : forall q, live_r a' q <-> In q (fm_r m');
  fc_ends : forall e v0 v1, a_e a e = Some (true, (v0, v1)) -> a_e a' (phi 1 e) = Some (true, (phi 0 v0, phi 0 v1));
  fc_loop : forall f b, a_f a f = Some (true, Some b) -> a_f a' (phi 2 f) = Some (true, Some (map (fun x => (phi 1 (fst x), snd x)) b));
  fc_faces : forall r b, a_r a r = Some (true, Some b) -> a_r a' (phi 3 r) = Some (true, Some (map (fun x => (phi 2 (fst x), snd x)) b));
  fc_xyz : forall v x y z, In v (fm_v m) -> fm_x m v = (x, y, z) -> fm_x m' (phi 0 v) = (back 16 x, back 16 y, back 16 z);
  fc_class : forall d p, In p (kind m d) -> fm_c m' (phi d p) = fm_c m p;
  fc_id : forall d k q, nth_error (kind m' d) k = Some q -> fm_id m' q = Z.of_nat k + 1;
  fc_atts : atts_copy m phi (fm_atts m) (fm_atts m') }.
