(** What a copy of a mesh made by MESH_Copy is.  Independent of CloneModel.v; the relation between
    the entities is that of SendSpec.v. *)
From Coq Require Import ZArith Bool String Floats.SpecFloat List.
From Verif Require Import Base ListSpec AttModel TopoModel TopoSpec TopoProps FileModel FileSpec SendModel SendSpec.
Import ListNotations.
Open Scope Z_scope.

(** A mesh with other IDs, and one without attributes and sets. *)
Definition set_ids (s : smesh) (f : ptr -> Z) : smesh :=
  let m := sm_m s in mkSM (mkFM (fm_t m) (fm_c m) (fm_x m) f (fm_v m) (fm_e m) (fm_f m) (fm_r m) (fm_atts m)) (sm_p s) (sm_sets s).
Definition bare (s : smesh) : smesh :=
  let m := sm_m s in mkSM (mkFM (fm_t m) (fm_c m) (fm_x m) (fm_id m) (fm_v m) (fm_e m) (fm_f m) (fm_r m) []) (sm_p s) [].
(** A mesh that can be copied: one that could be sent if its entities were renumbered. *)
Definition clonable (s : smesh) (a : amesh) : Prop := exists f, outgoing (set_ids s f) a false.

(** Attributes on vertices, edges, faces or regions, or on all of them; values of their type. *)
Definition lives_on (a : attr) (d : Z) : Prop := at_ent a = d \/ at_ent a = MALLTYPE.
Record good_catt (s : smesh) (a : attr) : Prop := mkGoodCatt {
  gc_name : short (at_name a);
  gc_ncomp : match at_type a with TVECTOR | TTENSOR => True | _ => at_ncomp a = 1 end;
  gc_val : forall d p v, lives_on a d -> In p (skind s d) -> at_type a <> TPOINTER -> at_val a p = Some v -> has_type a v }.
Definition good_cset (s : smesh) (x : mset) : Prop := short (ms_name x) /\ forall p, In p (ms_list x) -> exists d, In p (skind s d).
(** The copy of an attribute; addresses are not copied. *)
Record att_cloned (s : smesh) (phi : Z -> ptr -> ptr) (a a' : attr) : Prop := mkAttCloned {
  ac_name : at_name a' = at_name a;
  ac_type : at_type a' = at_type a;
  ac_ncomp : at_ncomp a' = at_ncomp a;
  ac_ent : at_ent a' = at_ent a;
  ac_val : forall d p, lives_on a d -> In p (skind s d) -> at_type a <> TPOINTER -> at_val a' (phi d p) = stored (at_val a p);
  ac_no : forall q, (forall d p, lives_on a d -> In p (skind s d) -> at_type a <> TPOINTER -> phi d p <> q) -> at_val a' q = None }.
(** The attributes that are copied: not those with the name that the function uses itself. *)
Definition cloned_atts (s : smesh) : list attr := filter (fun a => negb (text_eqb (at_name a) (str "copyatt"))) (satts s).
