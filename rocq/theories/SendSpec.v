(** What a copy of a mesh on another processor is.  Independent of the sending and
    receiving functions of SendModel.v, of which only the types are used. *)
From Coq Require Import ZArith Bool Ascii Floats.SpecFloat List.
From Verif Require Import Base ListSpec AttModel TopoModel TopoSpec TopoProps FileModel FileSpec SendModel.
Import ListNotations.
Open Scope Z_scope.

Definition skind (s : smesh) (d : Z) : list ptr := kind (sm_m s) d.
Definition satts (s : smesh) : list attr := fm_atts (sm_m s).
(** Attributes whose values are addresses cannot be sent. *)
Definition sent_atts (s : smesh) : list attr := filter (fun a => match at_type a with TPOINTER => false | _ => true end) (satts s).

(** An attribute that can be sent: vectors have at least two components and a
    value on every entity. *)
Record good_satt (s : smesh) (a : attr) : Prop := mkGoodSatt {
  gs_ent : at_ent a = MALLTYPE \/ 0 <= at_ent a <= 3;
  gs_ncomp : match at_type a with TVECTOR | TTENSOR => 2 <= at_ncomp a < 2 ^ 25 | _ => at_ncomp a = 1 end;
  gs_size : 0 <= at_ent a <= 3 -> ZL (skind s (at_ent a)) * at_ncomp a < 2 ^ 31;
  gs_val : forall p v, 0 <= at_ent a <= 3 -> In p (skind s (at_ent a)) -> at_val a p = Some v -> has_type a v;
  gs_vec : forall p, 0 <= at_ent a <= 3 -> In p (skind s (at_ent a)) -> at_val a p = None -> at_type a = TINT \/ at_type a = TDOUBLE }.
(** A set that can be sent: not empty, with entities of the mesh. *)
Record good_set (s : smesh) (x : mset) : Prop := mkGoodSet {
  gx_some : ms_list x <> [];
  gx_size : 2 * ZL (ms_list x) < 2 ^ 31;
  gx_in : forall p, In p (ms_list x) -> exists d, In p (skind s d) }.
Definition short (n : text) : Prop := Z.of_nat (length n) <= 255.

(** A mesh that is sent: its lists hold exactly the live entities, numbered
    1, 2, ... in this order, these are complete, the faces have at most 30 edges,
    and there are edges and faces. *)
Record outgoing (s : smesh) (a : amesh) (with_attr : bool) : Prop := mkOutgoing {
  sd_reach : reach (sm_t s) a;
  sd_nd : forall d, NoDup (skind s d);
  sd_v : forall p, In p (skind s 0) <-> live_v a p;
  sd_e : forall p, In p (skind s 1) <-> live_e a p;
  sd_f : forall p, In p (skind s 2) <-> live_f a p;
  sd_r : forall p, In p (skind s 3) <-> live_r a p;
  sd_id : forall d k p, nth_error (skind s d) k = Some p -> fm_id (sm_m s) p = Z.of_nat k + 1;
  sd_ends : forall e v0 v1, a_e a e = Some (true, (v0, v1)) -> v0 <> NULL /\ v1 <> NULL;
  sd_faces : forall f, a_f a f <> Some (true, None);
  sd_loops : forall f b, a_f a f = Some (true, Some b) -> (length b <= 30)%nat;
  sd_regions : forall r, a_r a r <> Some (true, None);
  sd_class : forall d p, In p (skind s d) -> 0 <= fst (fm_c (sm_m s) p) < 8 /\ 0 <= snd (fm_c (sm_m s) p) < 2 ^ 26;
  sd_par : forall d p, In p (skind s d) -> 0 <= pi_ptype (sm_p s p) < 4 /\ 0 <= pi_master (sm_p s p) < 2 ^ 28;
  sd_size : 3 * ZL (skind s 0) < 2 ^ 31 /\ 5 * ZL (skind s 1) < 2 ^ 31 /\ 34 * ZL (skind s 2) < 2 ^ 31 /\ ZL (skind s 3) < 2 ^ 29;
  sd_some : skind s 1 <> [] /\ skind s 2 <> [];
  sd_att : with_attr = true -> Forall (good_satt s) (sent_atts s) /\ Forall (fun x => short (at_name x)) (satts s) /\ NoDup (map at_name (sent_atts s));
  sd_set : with_attr = true -> Forall (good_set s) (sm_sets s) /\ Forall (fun x => short (ms_name x)) (sm_sets s) /\ NoDup (map ms_name (sm_sets s));
  sd_gid : with_attr = true -> sm_sets s <> [] -> forall d p q, In p (skind s d) -> In q (skind s d) -> pi_gid (sm_p s p) = pi_gid (sm_p s q) -> p = q }.
(** It can be received only if it does not have too many regions. *)
Definition sendable (s : smesh) (a : amesh) (with_attr : bool) : Prop := outgoing s a with_attr /\ 516 * ZL (skind s 3) < 2 ^ 31.

(** Values 0 and 0.0 are not stored: reading an entity without value gives 0. *)
Definition stored (o : option attval) : option attval :=
  match o with Some (AInt i) => if i =? 0 then None else o | Some (ADbl (S754_zero _)) => None | _ => o end.
Record att_sent (s : smesh) (phi : Z -> ptr -> ptr) (a a' : attr) : Prop := mkAttSent {
  as_name : at_name a' = at_name a;
  as_type : at_type a' = at_type a;
  as_ncomp : at_ncomp a' = at_ncomp a;
  as_ent : at_ent a' = at_ent a;
  as_val : forall p, 0 <= at_ent a <= 3 -> In p (skind s (at_ent a)) -> at_val a' (phi (at_ent a) p) = stored (at_val a p);
  as_no : forall q, (forall p, 0 <= at_ent a <= 3 -> In p (skind s (at_ent a)) -> phi (at_ent a) p <> q) -> at_val a' q = None }.
(** The entities of a set, of any dimension, are those of the set that is sent. *)
Definition set_sent (s : smesh) (phi : Z -> ptr -> ptr) (x x' : mset) : Prop :=
  ms_name x' = ms_name x /\ ms_ent x' = ms_ent x /\
  Forall2 (fun p q => exists d, In p (skind s d) /\ q = phi d p) (ms_list x) (ms_list x').

(** [s'] is a copy of [s]; [phi d] maps the entities of dimension [d].  Regions lose
    the flag of being on a partition boundary. *)
Record mesh_copy (with_attr : bool) (s s' : smesh) (a a' : amesh) (phi : Z -> ptr -> ptr) : Prop := mkMeshCopy {
  mc_reach : reach (sm_t s') a';
  mc_kind : forall d, skind s' d = map (phi d) (skind s d);
  mc_nd : forall d p d' p', In p (skind s d) -> In p' (skind s d') -> phi d p = phi d' p' -> d = d' /\ p = p';
  mc_lv : forall q, live_v a' q <-> In q (skind s' 0);
  mc_le : forall q, live_e a' q <-> In q (skind s' 1);
  mc_lf : forall q, live_f a' q <-> In q (skind s' 2);
  mc_lr : forall q, live_r a' q <-> In q (skind s' 3);
  mc_ends : forall e v0 v1, a_e a e = Some (true, (v0, v1)) -> a_e a' (phi 1 e) = Some (true, (phi 0 v0, phi 0 v1));
  mc_loop : forall f b, a_f a f = Some (true, Some b) -> a_f a' (phi 2 f) = Some (true, Some (map (fun x => (phi 1 (fst x), snd x)) b));
  mc_faces : forall r b, a_r a r = Some (true, Some b) -> a_r a' (phi 3 r) = Some (true, Some (map (fun x => (phi 2 (fst x), snd x)) b));
  mc_xyz : forall v, In v (skind s 0) -> fm_x (sm_m s') (phi 0 v) = fm_x (sm_m s) v;
  mc_class : forall d p, In p (skind s d) -> fm_c (sm_m s') (phi d p) = fm_c (sm_m s) p;
  mc_id : forall d p, In p (skind s d) -> fm_id (sm_m s') (phi d p) = fm_id (sm_m s) p;
  mc_par : forall d p, In p (skind s d) -> d < 3 -> sm_p s' (phi d p) = sm_p s p;
  mc_rpar : forall p, In p (skind s 3) -> sm_p s' (phi 3 p) = let i := sm_p s p in mkPI (pi_ptype i) false (pi_master i) (pi_gid i);
  mc_atts : if with_attr then Forall2 (att_sent s phi) (sent_atts s) (satts s') else satts s' = [];
  mc_sets : if with_attr then Forall2 (set_sent s phi) (sm_sets s) (sm_sets s') else sm_sets s' = [] }.
