(** Property C13: the packed fields of an entity. *)
From Coq Require Import ZArith List Lia Bool Arith ZifyBool ZifyNat.
From Verif Require Import Base BaseProofs EntModel.
Import ListNotations.
Open Scope Z_scope.

(** ** Specification: one value per field, no packing. *)
Record fields := mkF { f_deleted : bool; f_volatile : bool; f_dim : Z; f_id : Z; f_rep : Z; f_gdim : Z; f_gid : Z;
  f_ptype : Z; f_parbdry : bool; f_master : Z; f_global : Z }.

Definition f_init : fields := mkF false false 4 0 5 4 0 0 false 0 0.

Inductive fop :=
| FSetDim (v : Z) | FSetVolatile | FSetID (v : Z) | FSetRep (v : Z) | FSetGDim (v : Z) | FSetGID (v : Z)
| FDelete | FUndelete | FSetPType (v : Z) | FFlagPar | FUnflagPar | FSetMaster (v : Z) | FSetGlobal (v : Z).

Definition f_step (o : fop) (f : fields) : fields :=
  let '(mkF d v dm i r gd gi pt pb ms gl) := f in
  match o with
  | FSetDim x => if x =? -1 then mkF true v dm i r gd gi pt pb ms gl else mkF d v x i r gd gi pt pb ms gl
  | FSetVolatile => mkF d true dm i r gd gi pt pb ms gl
  | FSetID x => mkF d v dm x r gd gi pt pb ms gl
  | FSetRep x => mkF d v dm i x gd gi pt pb ms gl
  | FSetGDim x => mkF d v dm i r x gi pt pb ms gl
  | FSetGID x => mkF d v dm i r gd x pt pb ms gl
  | FDelete => mkF true v dm i r gd gi pt pb ms gl
  | FUndelete => mkF false v dm i r gd gi pt pb ms gl
  | FSetPType x => mkF d v dm i r gd gi x pb ms gl
  | FFlagPar => mkF d v dm i r gd gi pt true ms gl
  | FUnflagPar => mkF d v dm i r gd gi pt false ms gl
  | FSetMaster x => mkF d v dm i r gd gi pt pb x gl
  | FSetGlobal x => mkF d v dm i r gd gi pt pb ms x
  end.

(** Values that fit their fields. *)
Definition f_ok (o : fop) : Prop :=
  match o with
  | FSetDim x => -1 <= x < 8
  | FSetID x => 0 <= x < 2 ^ 27
  | FSetRep x => 0 <= x < 8
  | FSetGDim x => 0 <= x < 8
  | FSetGID x => 0 <= x < 2 ^ 26
  | FSetPType x => 0 <= x < 4
  | FSetMaster x => 0 <= x < 2 ^ 29
  | FSetGlobal x => - 2 ^ 31 <= x < 2 ^ 31
  | _ => True
  end.

Definition m_step (o : fop) (e : entdat) : entdat :=
  match o with
  | FSetDim x => MEnt_Set_Dim e x
  | FSetVolatile => MEnt_Set_Volatile e
  | FSetID x => MEnt_Set_ID e x
  | FSetRep x => MEnt_Set_RepType_Data e x
  | FSetGDim x => MEnt_Set_GEntDim e x
  | FSetGID x => MEnt_Set_GEntID e x
  | FDelete => MEnt_Set_DelFlag e
  | FUndelete => MEnt_Rem_DelFlag e
  | FSetPType x => MEnt_Set_PType e x
  | FFlagPar => MEnt_Flag_OnParBoundary e
  | FUnflagPar => MEnt_Unflag_OnParBoundary e
  | FSetMaster x => MEnt_Set_MasterParID e x
  | FSetGlobal x => MEnt_Set_GlobalID e x
  end.

(** What the access functions report. *)
Definition reports (e : entdat) (f : fields) : Prop :=
  MEnt_Dim e = (if f_deleted f then -1 else f_dim f) /\ MEnt_OrigDim e = f_dim f /\
  MEnt_IsVolatile e = Z.b2z (f_volatile f) /\ MEnt_ID e = f_id f /\ MEnt_RepType e = f_rep f /\
  MEnt_GEntDim e = f_gdim f /\ MEnt_GEntID e = f_gid f /\ MEnt_PType e = f_ptype f /\
  MEnt_OnParBoundary e = Z.b2z (f_parbdry f) /\ MEnt_MasterParID e = f_master f /\ MEnt_GlobalID e = f_global f.

(** ** Lemmas on bit fields *)
Lemma getbf_same : forall w o n v, 0 <= o -> 0 <= n -> getbf (setbf w o n v) o n = v mod 2 ^ n.
Proof.
  intros w o n v Ho Hn. rewrite <- Z.land_ones by auto. unfold getbf, setbf. apply Z.bits_inj'. intros k Hk.
  rewrite !Z.land_spec, Z.shiftr_spec, Z.lor_spec, Z.land_spec, Z.lnot_spec, !Z.shiftl_spec, Z.land_spec by lia.
  replace (k + o - o) with k by lia. destruct (Z.testbit (Z.ones n) k) eqn:E; rewrite ?andb_false_r, ?andb_true_r; auto.
Qed.

Lemma getbf_other : forall w o n v o' n', 0 <= o -> 0 <= n -> 0 <= o' -> 0 <= n' -> (o + n <= o' \/ o' + n' <= o) ->
  getbf (setbf w o n v) o' n' = getbf w o' n'.
Proof.
  intros w o n v o' n' Ho Hn Ho' Hn' D. unfold getbf, setbf. apply Z.bits_inj'. intros k Hk.
  rewrite !Z.land_spec, !Z.shiftr_spec, Z.lor_spec, Z.land_spec, Z.lnot_spec, !Z.shiftl_spec, Z.land_spec by lia.
  destruct (Z.testbit (Z.ones n') k) eqn:E; rewrite ?andb_false_r, ?andb_true_r; auto.
  assert (X : Z.testbit (Z.ones n) (k + o' - o) = false).
  { rewrite Z.testbit_ones_nonneg in E by lia. destruct (Z_lt_dec (k + o' - o) 0); [apply Z.testbit_neg_r; lia|].
    rewrite Z.testbit_ones_nonneg by lia. lia. }
  rewrite X. rewrite andb_false_r, orb_false_r. cbn [negb]. apply andb_true_r.
Qed.

Lemma s32_u32 : forall x, - 2 ^ 31 <= x < 2 ^ 31 -> s32 (u32 x) = x.
Proof.
  intros x H. unfold s32, u32. rewrite Z.add_mod_idemp_l by lia. rewrite Z.mod_small by lia. lia.
Qed.

(** The contents of every field, whatever the packing. *)
Record raw_rep (e : entdat) (f : fields) : Prop := mkRR {
  rr1 : getbf (w_id e) 0 1 = Z.b2z (f_deleted f);
  rr2 : getbf (w_id e) 1 1 = Z.b2z (f_volatile f);
  rr3 : getbf (w_id e) 2 3 = f_dim f;
  rr4 : getbf (w_id e) 5 27 = f_id f;
  rr5 : getbf (w_g e) 0 3 = f_rep f;
  rr6 : getbf (w_g e) 3 3 = f_gdim f;
  rr7 : getbf (w_g e) 6 26 = f_gid f;
  rr8 : getbf (w_par e) 0 2 = f_ptype f;
  rr9 : getbf (w_par e) 2 1 = Z.b2z (f_parbdry f);
  rr10 : getbf (w_par e) 3 29 = f_master f;
  rr11 : s32 (w_globalid e) = f_global f }.

Ltac bf := cbn [w_id w_g w_marker w_par w_globalid set_deleted set_temporary set_dim set_id set_rtype set_gdim set_gid
  set_ptype set_parbdry set_masterparid f_deleted f_volatile f_dim f_id f_rep f_gdim f_gid f_ptype f_parbdry f_master f_global];
  repeat (rewrite getbf_other by lia); rewrite ?getbf_same by lia; auto;
  try (rewrite Z.mod_small by lia; auto; fail).

Lemma step_rep : forall o e f, f_ok o -> raw_rep e f -> raw_rep (m_step o e) (f_step o f).
Proof.
  intros o e [d v dm i r gd gi pt pb ms gl] Ok R. destruct R. cbn [f_deleted f_volatile f_dim f_id f_rep f_gdim f_gid f_ptype f_parbdry f_master f_global] in *.
  destruct o; cbn [m_step f_step f_ok] in *; unfold MEnt_Set_Dim, MEnt_Set_Volatile, MEnt_Set_ID, MEnt_Set_RepType_Data,
    MEnt_Set_GEntDim, MEnt_Set_GEntID, MEnt_Set_DelFlag, MEnt_Rem_DelFlag, MEnt_Set_PType, MEnt_Flag_OnParBoundary,
    MEnt_Unflag_OnParBoundary, MEnt_Set_MasterParID, MEnt_Set_GlobalID, MDELETED;
    try (match goal with |- context [?x =? -1] => destruct (x =? -1) eqn:? end); constructor; bf.
  apply s32_u32; auto.
Qed.

Lemma init_rep : forall e, raw_rep (MEnt_Init_CmnData e) f_init.
Proof. intros e. unfold MEnt_Init_CmnData, f_init, MUNKNOWNTYPE, UNKNOWN_REP. constructor; bf. Qed.

Lemma rep_reports : forall e f, raw_rep e f -> reports e f.
Proof.
  intros e f R. destruct R. unfold reports, MEnt_Dim, MEnt_OrigDim, MEnt_IsVolatile, MEnt_ID, MEnt_RepType, MEnt_GEntDim, MEnt_GEntID,
    MEnt_PType, MEnt_OnParBoundary, MEnt_MasterParID, MEnt_GlobalID, MDELETED.
  split; [|repeat split; auto]. rewrite rr12, rr14. destruct (f_deleted f); auto.
Qed.

(** For every history of setters with values in range, from any memory contents
    before initialisation, the access functions report the last value set of
    every field. *)
Theorem C13_fields : forall e0 ops, Forall f_ok ops ->
  reports (fold_left (fun e o => m_step o e) ops (MEnt_Init_CmnData e0)) (fold_left (fun f o => f_step o f) ops f_init).
Proof.
  intros e0 ops F. apply rep_reports.
  assert (G : forall ops e f, Forall f_ok ops -> raw_rep e f ->
     raw_rep (fold_left (fun e o => m_step o e) ops e) (fold_left (fun f o => f_step o f) ops f)).
  { clear. induction ops as [|o ops IH]; intros e f F R; auto. inversion F. subst. cbn [fold_left]. apply IH; auto. apply step_rep; auto. }
  apply G; auto. apply init_rep.
Qed.
Print Assumptions C13_fields.

(** Without the range condition: an ID of 2^27 reads back as 0 (and a negative
    geometric ID as a positive number). *)
Theorem C13_range_refuted : exists x y e, x = 2 ^ 27 /\ MEnt_ID (MEnt_Set_ID e x) <> x /\
  y = -1 /\ MEnt_GEntID (MEnt_Set_GEntID e y) = 2 ^ 26 - 1.
Proof. exists (2 ^ 27), (-1), (mkE 0 0 0 0 0). vm_compute. repeat split; auto; discriminate. Qed.
Print Assumptions C13_range_refuted.

Example C13_ex : Forall f_ok [FSetDim 3; FSetID 134217727; FSetGID 67108863; FSetRep 4; FDelete; FSetPType 2; FSetMaster 536870911; FFlagPar; FSetGlobal (-1); FSetGDim 2; FSetVolatile; FUndelete] /\
  let e := fold_left (fun e o => m_step o e) [FSetDim 3; FSetID 134217727; FSetGID 67108863; FSetRep 4; FDelete; FSetPType 2; FSetMaster 536870911; FFlagPar; FSetGlobal (-1); FSetGDim 2; FSetVolatile; FUndelete]
      (MEnt_Init_CmnData (mkE 123456789 987654321 17 99999 42)) in
  (MEnt_Dim e, MEnt_ID e, MEnt_RepType e, MEnt_GEntDim e, MEnt_GEntID e) = (3, 134217727, 4, 2, 67108863) /\
  (MEnt_PType e, MEnt_OnParBoundary e, MEnt_MasterParID e, MEnt_GlobalID e) = (2, 1, 536870911, -1).
Proof. split; [repeat constructor; simpl; lia|]. vm_compute. auto. Qed.
