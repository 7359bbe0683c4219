(** Attributes and sets of a partitioned mesh are copied to the submeshes.
    Models src/par/MESH_CopyAttr.c, src/par/MESH_CopySet.c, the making of the empty
    attributes in src/par/MESH_Partition.c and the loops over all attributes and sets in
    src/par/MESH_Partition_and_Send.c.
    The attributes Global2Local and Local2Global are not in the lists of attributes (see
    PartModel.v); submesh number [k] is entry [k] of the list of submeshes.  The values of
    an attribute are a map (C14); blocks allocated for vectors are not freed by the code,
    the model has them as lists. *)
From Coq Require Import ZArith Bool Floats.SpecFloat List.
From Verif Require Import Base ListSpec AttModel TopoModel ParModel FileModel SendModel PartModel.
Import ListNotations.
Open Scope Z_scope.

(** MESH_AttribByName, MESH_MSetByName: base/Mesh.c 297-311, 427-441.  Every name looked at
    is copied to a buffer of 256 characters. *)
Fixpoint by_name {A} (nm : A -> text) (l : list A) (name : text) : result (option nat) :=
  match l with
  | [] => Ok None
  | x :: r => if negb (short_name (nm x)) then Undef
              else if text_eqb name (nm x) then Ok (Some O)
              else o <- by_name nm r name ;; Ok (option_map S o)
  end.

(** MESH_Partition.c 101-114; MAttrib_New, base/MAttrib.c 23-76: the number of components of a
    vector is read from the arguments, where it is missing if it is 1. *)
Definition is_vec (t : atype) : bool := match t with TVECTOR | TTENSOR => true | _ => false end.
Definition new_att (a : attr) (s : smesh) : result smesh :=
  if is_vec (at_type a) && (at_ncomp a =? 1) then Undef else
  Ok (set_atts s (fm_atts (sm_m s) ++ [mkAttr (at_name a) (at_type a) (if is_vec (at_type a) then at_ncomp a else 1) (at_ent a) (fun _ => None)])).
Definition new_atts (s : smesh) (subs : list smesh) : result (list smesh) :=
  foldM (fun subs a => if negb (short_name (at_name a)) then Undef else mapM (new_att a) subs) subs (fm_atts (sm_m s)).

(** ** MESH_CopyAttr.c *)
(** 55-63: the attribute of the same name in every submesh. *)
Fixpoint local_atts (subs : list smesh) (name : text) : result (option (list nat)) :=
  match subs with
  | [] => Ok (Some [])
  | s :: r => o <- by_name at_name (fm_atts (sm_m s)) name ;;
              match o with
              | None => Ok None
              | Some i => o <- local_atts r name ;; Ok (option_map (cons i) o)
              end
  end.
(** MEnt_Set_AttVal with the values read, base/MAttrib.c 142-180; [parr]: pval_arr. *)
Definition set_value (la : attr) (ival : Z) (rval : spec_float) (parr : option (list spec_float)) : result attval :=
  match at_type la with
  | TINT => Ok (AInt ival)
  | TDOUBLE => Ok (ADbl rval)
  | TPOINTER => Undef
  | _ => match parr with
         | None => Undef
         | Some l => if Z.of_nat (length l) <? at_ncomp la then Undef else Ok (AVec (firstn (Z.to_nat (at_ncomp la)) l))
         end
  end.
(** 102-114: one entry of the list of copies; the same for edges, faces and regions (119-240). *)
Definition copy_one (a : attr) (las : list nat) (num : Z) (ival : Z) (rval : spec_float) (g : ptr) (subs : list smesh) (x : Z * ptr) : result (list smesh) :=
  let '(k, l) := x in
  parr <- (if 1 <? at_ncomp a then v <- get_vec a g ;; Ok (Some v) else Ok None) ;;
  if (0 <=? k) && (k <? num) then
    s <- rda subs k ;;
    i <- rda las k ;;
    la <- rda (fm_atts (sm_m s)) (Z.of_nat i) ;;
    v <- set_value la ival rval parr ;;
    Ok (upd_nth subs (Z.to_nat k) (set_atts s (upd_nth (fm_atts (sm_m s)) i (set_vals la (zupd (at_val la) l (Some v))))))
  else Ok subs.
(** 84-116: an entity; null values are not copied (88-93). *)
Definition copy_ent (a : attr) (las : list nat) (num : Z) (g2l : ptr -> list (Z * ptr)) (subs : list smesh) (g : ptr) : result (list smesh) :=
  ival <- (match at_type a with TINT => get_int a g | _ => Ok 0 end) ;;
  rval <- (match at_type a with TDOUBLE => get_dbl a g | _ => Ok (S754_zero false) end) ;;
  if match at_type a with TINT => ival =? 0 | TDOUBLE => is_zero rval | _ => false end then Ok subs else
  foldM (copy_one a las num ival rval g) subs (g2l g).
(** 38-243: the value returned and the submeshes. *)
Definition MESH_CopyAttr (s : smesh) (g2l : ptr -> list (Z * ptr)) (num : Z) (subs : list smesh) (name : text) : result (Z * list smesh) :=
  o <- by_name at_name (fm_atts (sm_m s)) name ;;
  match o with
  | None => Ok (0, subs)
  | Some j =>
      a <- rda (fm_atts (sm_m s)) (Z.of_nat j) ;;
      o <- local_atts subs name ;;
      match o with
      | None => Ok (0, subs)
      | Some las =>
          if is_pointer (at_type a) then Ok (0, subs) else
          let kind d l subs := if (at_ent a =? d) || (at_ent a =? MALLTYPE) then foldM (copy_ent a las num g2l) subs l else Ok subs in
          subs <- kind MVERTEX (fm_v (sm_m s)) subs ;;
          subs <- kind MEDGE (fm_e (sm_m s)) subs ;;
          subs <- kind MFACE (fm_f (sm_m s)) subs ;;
          subs <- kind MREGION (fm_r (sm_m s)) subs ;;
          Ok (1, subs)
      end
  end.
(** MESH_Partition_and_Send.c 203-217: all attributes; names go to a buffer of 256 characters. *)
Definition copy_atts (s : smesh) (g2l : ptr -> list (Z * ptr)) (num : Z) (subs : list smesh) : result (list smesh) :=
  foldM (fun subs a =>
    if negb (short_name (at_name a)) then Undef else
    if is_pointer (at_type a) then Ok subs else
    ' (_, subs) <- MESH_CopyAttr s g2l num subs (at_name a) ;; Ok subs) subs (fm_atts (sm_m s)).

(** ** MESH_CopySet.c *)
(** 46-50: the set of the same name, made if there is none. *)
Definition local_set (x : mset) (s : smesh) : result (smesh * nat) :=
  o <- by_name ms_name (sm_sets s) (ms_name x) ;;
  Ok (match o with Some i => (s, i) | None => (set_sets s (sm_sets s ++ [mkSet (ms_name x) (ms_ent x) []]), length (sm_sets s)) end).
(** 59-69: MSet_Add, base/MSet.c 79-81. *)
Definition add_copy (idx : list nat) (num : Z) (subs : list smesh) (y : Z * ptr) : result (list smesh) :=
  let '(k, l) := y in
  if (0 <=? k) && (k <? num) then
    s <- rda subs k ;;
    i <- rda idx k ;;
    x <- rda (sm_sets s) (Z.of_nat i) ;;
    Ok (upd_nth subs (Z.to_nat k) (set_sets s (upd_nth (sm_sets s) i (mkSet (ms_name x) (ms_ent x) (ms_list x ++ [l])))))
  else Ok subs.
(** 28-75; an entity without copies has no list, and List_Next_Entry reads the list. *)
Definition MESH_CopySet (g2l : ptr -> list (Z * ptr)) (num : Z) (subs : list smesh) (x : mset) : result (list smesh) :=
  if negb (short_name (ms_name x)) then Undef else
  r <- mapM (local_set x) subs ;;
  foldM (fun subs g => match g2l g with [] => Undef | l => foldM (add_copy (map snd r) num) subs l end) (map fst r) (ms_list x).
(** MESH_Partition_and_Send.c 276-284. *)
Definition copy_sets (s : smesh) (g2l : ptr -> list (Z * ptr)) (num : Z) (subs : list smesh) : result (list smesh) :=
  foldM (fun subs x => if negb (short_name (ms_name x)) then Undef else MESH_CopySet g2l num subs x) subs (sm_sets s).
