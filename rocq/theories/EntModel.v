(** Model of the data common to all mesh entities: struct MEntity_Data in
    /repo/include/MEntity.h 21-54 and its access functions in
    /repo/src/base/MEntity.c (compiled with MSTK_HAVE_MPI). *)
From Coq Require Import ZArith List Bool.
From Verif Require Import Base.
Open Scope Z_scope.

(** MEntity.h 36-51: the 32-bit words holding the fields.  Bit fields are
    allocated from the low end of each word, as on the usual little-endian
    ABIs; the mesh and AttInsList pointers are not part of this model. *)
Record entdat := mkE { w_id : Z; w_g : Z; w_marker : Z; w_par : Z; w_globalid : Z }.

(** Reading and writing the bit field of [n] bits at offset [o] of a word. *)
Definition getbf (w o n : Z) : Z := Z.land (Z.shiftr w o) (Z.ones n).
Definition setbf (w o n v : Z) : Z :=
  Z.lor (Z.land w (Z.lnot (Z.shiftl (Z.ones n) o))) (Z.shiftl (Z.land v (Z.ones n)) o).

(** MEntity.h 36-39: deleted:1 temporary:1 dim:3 id:27. *)
Definition set_deleted (e : entdat) (v : Z) := mkE (setbf (w_id e) 0 1 v) (w_g e) (w_marker e) (w_par e) (w_globalid e).
Definition set_temporary (e : entdat) (v : Z) := mkE (setbf (w_id e) 1 1 v) (w_g e) (w_marker e) (w_par e) (w_globalid e).
Definition set_dim (e : entdat) (v : Z) := mkE (setbf (w_id e) 2 3 v) (w_g e) (w_marker e) (w_par e) (w_globalid e).
Definition set_id (e : entdat) (v : Z) := mkE (setbf (w_id e) 5 27 v) (w_g e) (w_marker e) (w_par e) (w_globalid e).
(** MEntity.h 41-43: rtype:3 gdim:3 gid:26. *)
Definition set_rtype (e : entdat) (v : Z) := mkE (w_id e) (setbf (w_g e) 0 3 v) (w_marker e) (w_par e) (w_globalid e).
Definition set_gdim (e : entdat) (v : Z) := mkE (w_id e) (setbf (w_g e) 3 3 v) (w_marker e) (w_par e) (w_globalid e).
Definition set_gid (e : entdat) (v : Z) := mkE (w_id e) (setbf (w_g e) 6 26 v) (w_marker e) (w_par e) (w_globalid e).
(** MEntity.h 48-50: ptype:2 parbdry:1 masterparid:29. *)
Definition set_ptype (e : entdat) (v : Z) := mkE (w_id e) (w_g e) (w_marker e) (setbf (w_par e) 0 2 v) (w_globalid e).
Definition set_parbdry (e : entdat) (v : Z) := mkE (w_id e) (w_g e) (w_marker e) (setbf (w_par e) 2 1 v) (w_globalid e).
Definition set_masterparid (e : entdat) (v : Z) := mkE (w_id e) (w_g e) (w_marker e) (setbf (w_par e) 3 29 v) (w_globalid e).

(** /repo/include/MSTK_types.h 65, 70: enumeration values. *)
Definition MDELETED : Z := -1.
Definition MVERTEX : Z := 0.
Definition MEDGE : Z := 1.
Definition MFACE : Z := 2.
Definition MREGION : Z := 3.
Definition MUNKNOWNTYPE : Z := 4.
Definition MALLTYPE : Z := 5.
Definition UNKNOWN_REP : Z := 5.

(** MEntity.c 27-60 MEnt_Init_CmnData. *)
Definition MEnt_Init_CmnData (e : entdat) : entdat :=
  let e := set_deleted e 0 in
  let e := set_temporary e 0 in
  let e := set_dim e MUNKNOWNTYPE in
  let e := set_id e 0 in
  let e := set_rtype e UNKNOWN_REP in
  let e := set_gdim e 4 in
  let e := set_gid e 0 in
  let e := mkE (w_id e) (w_g e) 0 (w_par e) (w_globalid e) in
  let e := set_ptype e 0 in
  let e := set_parbdry e 0 in
  let e := set_masterparid e 0 in
  mkE (w_id e) (w_g e) (w_marker e) (w_par e) 0.

(** MEntity.c 88-93 MEnt_Set_Dim, 95-97 MEnt_Dim, 107-114 MEnt_OrigDim. *)
Definition MEnt_Set_Dim (e : entdat) (dim : Z) : entdat :=
  if dim =? MDELETED then set_deleted e 1 else set_dim e dim.
Definition MEnt_Dim (e : entdat) : Z :=
  if negb (getbf (w_id e) 0 1 =? 0) then MDELETED else getbf (w_id e) 2 3.
Definition MEnt_OrigDim (e : entdat) : Z := getbf (w_id e) 2 3.

(** MEntity.c 99-105 MEnt_Set_Volatile, MEnt_IsVolatile. *)
Definition MEnt_Set_Volatile (e : entdat) : entdat := set_temporary e 1.
Definition MEnt_IsVolatile (e : entdat) : Z := getbf (w_id e) 1 1.

(** MEntity.c 120-137 MEnt_Set_ID (the call of MESH_Flag_EntLists_As_Unsorted
    is in MeshModel.v), 140-142 MEnt_ID. *)
Definition MEnt_Set_ID (e : entdat) (id : Z) : entdat := set_id e id.
Definition MEnt_ID (e : entdat) : Z := getbf (w_id e) 5 27.

(** MEntity.c 147-149 MEnt_Set_RepType_Data, 170-172 MEnt_RepType. *)
Definition MEnt_Set_RepType_Data (e : entdat) (rtype : Z) : entdat := set_rtype e rtype.
Definition MEnt_RepType (e : entdat) : Z := getbf (w_g e) 0 3.

(** MEntity.c 178-196 MEnt_Set_GEntDim, MEnt_GEntDim, MEnt_Set_GEntID, MEnt_GEntID. *)
Definition MEnt_Set_GEntDim (e : entdat) (gdim : Z) : entdat := set_gdim e gdim.
Definition MEnt_GEntDim (e : entdat) : Z := getbf (w_g e) 3 3.
Definition MEnt_Set_GEntID (e : entdat) (gid : Z) : entdat := set_gid e gid.
Definition MEnt_GEntID (e : entdat) : Z := getbf (w_g e) 6 26.

(** MEntity.c 218-226 MEnt_Set_DelFlag, MEnt_Rem_DelFlag. *)
Definition MEnt_Set_DelFlag (e : entdat) : entdat := set_deleted e 1.
Definition MEnt_Rem_DelFlag (e : entdat) : entdat := set_deleted e 0.

(** MEntity.c 714-720 MEnt_GlobalID ([unsigned] converted to [int]), 724-746. *)
Definition MEnt_GlobalID (e : entdat) : Z := s32 (w_globalid e).
Definition MEnt_PType (e : entdat) : Z := getbf (w_par e) 0 2.
Definition MEnt_OnParBoundary (e : entdat) : Z := getbf (w_par e) 2 1.
Definition MEnt_MasterParID (e : entdat) : Z := getbf (w_par e) 3 29.

(** MEntity.c 750-768. *)
Definition MEnt_Set_PType (e : entdat) (ptype : Z) : entdat := set_ptype e ptype.
Definition MEnt_Flag_OnParBoundary (e : entdat) : entdat := set_parbdry e 1.
Definition MEnt_Unflag_OnParBoundary (e : entdat) : entdat := set_parbdry e 0.
Definition MEnt_Set_MasterParID (e : entdat) (masterparid : Z) : entdat := set_masterparid e masterparid.
Definition MEnt_Set_GlobalID (e : entdat) (globalid : Z) : entdat :=
  mkE (w_id e) (w_g e) (w_marker e) (w_par e) (u32 globalid).
