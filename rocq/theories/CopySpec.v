(** What copying attributes and sets to the parts of a mesh means.  Independent of the
    functions of CopyModel.v. *)
From Coq Require Import ZArith Bool Floats.SpecFloat List.
From Verif Require Import Base ListSpec AttModel TopoModel FileModel SendModel SendSpec.
Import ListNotations.
Open Scope Z_scope.

(** [l] is the copy of [g] in part [k]. *)
Definition copy_in (subs : list (smesh * (ptr -> ptr))) (k : nat) (l g : ptr) : Prop :=
  exists sub l2g d, nth_error subs k = Some (sub, l2g) /\ In l (skind sub d) /\ l2g l = g.
(** The lists of copies are exact. *)
Record linked (g2l : ptr -> list (Z * ptr)) (subs : list (smesh * (ptr -> ptr))) : Prop := mkLinked {
  lk_list : forall g k l, In (k, l) (g2l g) <-> 0 <= k /\ copy_in subs (Z.to_nat k) l g;
  lk_once : forall g, NoDup (map fst (g2l g)) }.

(** ** Attributes *)
Definition nonzero (v : attval) : Prop :=
  match v with AInt i => i <> 0 | ADbl x => forall b, x <> S754_zero b | AVec _ => True end.
(** The kinds of entities an attribute is for. *)
Definition suits (a : attr) (d : Z) : Prop := at_ent a = d \/ at_ent a = MALLTYPE.
(** The attribute has values of its type only; vectors have at least two components
    and a value for every entity that has a copy. *)
Record copyable (s : smesh) (subs : list (smesh * (ptr -> ptr))) (a : attr) : Prop := mkCopyable {
  ca_name : (length (at_name a) <= 255)%nat;
  ca_vals : forall p v, at_val a p = Some v ->
    match at_type a, v with TINT, AInt _ => True | TDOUBLE, ADbl _ => True | TVECTOR, AVec l | TTENSOR, AVec l => Z.of_nat (length l) = at_ncomp a | _, _ => False end;
  ca_comp : match at_type a with TVECTOR | TTENSOR => 2 <= at_ncomp a | _ => at_ncomp a = 1 end;
  ca_full : (at_type a = TVECTOR \/ at_type a = TTENSOR) -> forall d g k l, suits a d -> In g (skind s d) -> copy_in subs k l g -> at_val a g <> None }.
(** [la] has the values of [a] on the copies in part [k] and those of [old] elsewhere. *)
Definition carried (s : smesh) (subs : list (smesh * (ptr -> ptr))) (k : nat) (a old la : attr) : Prop :=
  at_name la = at_name old /\ at_type la = at_type old /\ at_ncomp la = at_ncomp old /\ at_ent la = at_ent old /\
  (forall d g q v, suits a d -> 0 <= d <= 3 -> In g (skind s d) -> copy_in subs k q g -> at_val a g = Some v -> nonzero v -> at_val la q = Some v) /\
  (forall q, (forall d g v, suits a d -> 0 <= d <= 3 -> In g (skind s d) -> copy_in subs k q g -> at_val a g = Some v -> ~ nonzero v) -> at_val la q = at_val old q).
(** [la] is the same attribute in a submesh. *)
Definition same_att (a la : attr) : Prop := at_name la = at_name a /\ at_type la = at_type a /\ at_ncomp la = at_ncomp a /\ at_ent la = at_ent a.
(** [i] is the first place of the name in the list, and the names up to it are short. *)
Definition first_at {A} (nm : A -> text) (l : list A) (name : text) (i : nat) : Prop :=
  (exists x, nth_error l i = Some x /\ nm x = name) /\ (forall j x, (j < i)%nat -> nth_error l j = Some x -> nm x <> name) /\
  (forall j x, (j <= i)%nat -> nth_error l j = Some x -> (length (nm x) <= 255)%nat).
(** Two meshes differ in one attribute only. *)
Definition same_but_att (i : nat) (s s' : smesh) : Prop :=
  sm_p s' = sm_p s /\ sm_sets s' = sm_sets s /\ (exists l, sm_m s' = mkFM (fm_t (sm_m s)) (fm_c (sm_m s)) (fm_x (sm_m s)) (fm_id (sm_m s)) (fm_v (sm_m s)) (fm_e (sm_m s)) (fm_f (sm_m s)) (fm_r (sm_m s)) l) /\
  length (fm_atts (sm_m s')) = length (fm_atts (sm_m s)) /\ (forall j, j <> i -> nth_error (fm_atts (sm_m s')) j = nth_error (fm_atts (sm_m s)) j).
(** Two meshes differ in their attributes only. *)
Definition same_but_atts (s s' : smesh) : Prop :=
  sm_p s' = sm_p s /\ sm_sets s' = sm_sets s /\ exists l, sm_m s' = mkFM (fm_t (sm_m s)) (fm_c (sm_m s)) (fm_x (sm_m s)) (fm_id (sm_m s)) (fm_v (sm_m s)) (fm_e (sm_m s)) (fm_f (sm_m s)) (fm_r (sm_m s)) l.
(** [la] is the attribute [a] in part [k]: it has the values of [a] that are not null on the
    copies, and no others; attributes of pointers have none. *)
Definition is_copy (s : smesh) (subs : list (smesh * (ptr -> ptr))) (k : nat) (a la : attr) : Prop :=
  same_att a la /\
  forall q v, at_val la q = Some v <-> at_type a <> TPOINTER /\ exists d g, 0 <= d <= 3 /\ suits a d /\ In g (skind s d) /\ copy_in subs k q g /\ at_val a g = Some v /\ nonzero v.

(** ** Sets *)
Definition same_but_sets (s s' : smesh) : Prop := sm_m s' = sm_m s /\ sm_p s' = sm_p s.
(** [ls] are the copies in part [k] of the entries of [gs], in their order. *)
Inductive picked (subs : list (smesh * (ptr -> ptr))) (k : nat) : list ptr -> list ptr -> Prop :=
| pk_nil : picked subs k [] []
| pk_copy : forall g l gs ls, copy_in subs k l g -> picked subs k gs ls -> picked subs k (g :: gs) (l :: ls)
| pk_none : forall g gs ls, (forall l, ~ copy_in subs k l g) -> picked subs k gs ls -> picked subs k (g :: gs) ls.
