(** C16-C19: IDs, search by ID, counts and iteration, sequential renumbering. *)
From Coq Require Import ZArith List Lia Bool Arith ZifyBool ZifyNat Permutation Sorting.Sorted.
From Verif Require Import Base BaseProofs ListModel ListSpec ListProofs ListProofs2 ListProofs3 ListProofs4 SortModel SortProofs CompareModel EntModel EntProps AttModel AttProps HashProofs HashProofs2 MSetModel MSetProps MeshModel MeshSpec MeshProofs MeshProofs2 MeshProofs3 MeshProofs4.
Import ListNotations.
Open Scope Z_scope.

(** The mesh [m] is what an allowed history of calls leaves. *)
Definition after (sr sd : bool) (ops : list mop) (m : mesh) : Prop :=
  hallowed sr sd h0 ops /\ Z.of_nat (length ops) + 1 < 2 ^ 27 /\ exists fuel, Z.of_nat (length ops) <= Z.of_nat fuel /\ mruns fuel MESH_New ops = Ok m.

Lemma after_inv : forall sr sd ops m, after sr sd ops m -> exists raws, minv (Z.of_nat (length ops)) m (hrun h0 ops) raws.
Proof.
  intros sr sd ops m [A [B [fuel [C D]]]].
  destruct (history_inv sr sd ops 0 fuel MESH_New h0 _ minv0 A ltac:(lia) ltac:(lia)) as [[m' [raws' [E F]]]|[_ E]].
  - rewrite D in E. inversion E. subst. eauto.
  - exfalso. apply (E m). auto.
Qed.

Lemma ki_walk : forall N m k L K S0 raw o g, kinv N m k L K S0 raw o g -> MESH_Walk m k = Ok (valid raw).
Proof.
  intros N m k L K S0 raw o g [M0 I]. unfold MESH_Walk. destruct (ki_list _ _ _ _ _ _ _ _ _ _ I) as [[A B]|[l [A R]]]; rewrite A.
  - subst raw. auto.
  - apply Walk_rep; auto.
Qed.

(** ** C16 *)
Theorem C16_unique : forall ops m, after false false ops m -> forall k, 0 <= k <= 3 ->
  (forall p, In p (hl (hrun h0 ops) k) -> exists e, heap m p = Some e /\ MEnt_Dim e = k /\ 1 <= MEnt_ID e) /\
  (forall p q ep eq, In p (hl (hrun h0 ops) k) -> In q (hl (hrun h0 ops) k) -> heap m p = Some ep -> heap m q = Some eq -> MEnt_ID ep = MEnt_ID eq -> p = q).
Proof.
  intros ops m A k Hk. destruct (after_inv _ _ _ _ A) as [raws [I _]]. destruct (I k Hk) as [M0 IK]. split.
  - intros p Hp. destruct (ki_live _ _ _ _ _ _ _ _ _ _ IK p Hp) as [_ [e [B [C D]]]]. exists e. repeat split; auto. lia.
  - intros p q ep eq Hp Hq Ep Eq E. pose proof (ki_ids _ _ _ _ _ _ _ _ _ _ IK) as ND. rewrite map_app in ND. apply NoDup_app_inv in ND.
    apply (nodup_map_inj (idof m) (hl (hrun h0 ops) k)); try tauto. unfold idof. rewrite Ep, Eq. auto.
Qed.
Print Assumptions C16_unique.

(** No call except renumbering changes the ID of an entity that is live before and after. *)
Theorem C16_stable : forall ops m o m' fuel, after false false ops m -> hpre false false (hrun h0 ops) o -> (forall t, o <> MRenum t) ->
  Z.of_nat (length ops) <= Z.of_nat fuel -> mrun1 fuel m o = Ok m' ->
  forall k q e, 0 <= k <= 3 -> In q (hl (hrun h0 ops) k) -> In q (hl (hstep (hrun h0 ops) o) k) -> heap m q = Some e ->
  exists e', heap m' q = Some e' /\ MEnt_ID e' = MEnt_ID e.
Proof.
  intros ops m o m' fuel A H NR HF R k q e Hk Q1 Q2 E. destruct (after_inv _ _ _ _ A) as [raws I]. destruct A as [_ [A _]].
  set (h := hrun h0 ops) in *. set (N := Z.of_nat (length ops)) in *.
  assert (SAME : heap m' q = heap m q -> exists e', heap m' q = Some e' /\ MEnt_ID e' = MEnt_ID e) by (intros ->; eauto).
  destruct o as [j p g|j p keep|j p| |t]; cbn [mrun1] in R.
  - destruct (New_spec N m h raws j p g I A H) as [m2 [r2 [B [_ [D _]]]]]. rewrite R in B. inversion B. subst m2. apply SAME. apply D.
    intros ->. destruct H as [_ [_ H]]. apply (H k Hk). apply in_or_app. auto.
  - destruct H as [Hj H].
    assert (D : forall x, x <> p -> heap m' x = heap m x).
    { destruct H as [[H _]|H].
      - destruct (Del_live_spec N fuel m h raws j p keep I Hj H HF) as [[m2 [r2 [B [_ D]]]]|[_ B]]; [|exfalso; apply (B m'); auto].
        rewrite R in B. inversion B. subst. auto.
      - destruct (Del_dead_spec N fuel m h raws j p keep I Hj H) as [m2 [B [_ D]]]. rewrite R in B. inversion B. subst. auto. }
    destruct (Z.eq_dec q p) as [->|D2]; [|apply SAME; auto]. exfalso.
    assert (j = k).
    { destruct (Z.eq_dec j k) as [|D3]; auto. exfalso. apply (minv_apart N m h raws k j p I Hk Hj (not_eq_sym D3)).
      - destruct H as [[H _]|H]; apply in_or_app; auto.
      - apply in_or_app; auto. }
    subst j. cbn [hstep] in Q2. replace (mem p (hl h k)) with true in Q2 by (symmetry; apply mem_in; auto).
    cbn [hl] in Q2. rewrite zupd_same in Q2. destruct I as [I _]. destruct (I k Hk) as [_ IK].
    pose proof (ki_nd _ _ _ _ _ _ _ _ _ _ IK) as ND. apply NoDup_app_inv in ND. destruct ND as [ND _].
    apply (proj2 (remove1_nd p _ ND) Q2).
  - destruct (Restore_spec N m h raws j p I A H) as [m2 [r2 [B [[I2 _] D]]]]. rewrite R in B. inversion B. subst m2.
    specialize (D q). destruct (I2 k Hk) as [_ IK]. destruct (ki_live _ _ _ _ _ _ _ _ _ _ IK q Q2) as [_ [e' [C _]]].
    exists e'. split; auto. unfold idof in D. rewrite C, E in D. auto.
  - destruct (Enable_spec N m h raws I ltac:(lia)) as [m2 [r2 [B [_ D]]]]. rewrite R in B. inversion B. subst m2. apply SAME. rewrite D. auto.
  - exfalso. apply (NR t). auto.
Qed.
Print Assumptions C16_stable.

(** For computed witnesses. *)
Definition okand (r : result mesh) (f : mesh -> bool) : bool := match r with Ok m => f m | _ => false end.
Lemma okand_ex : forall r f, okand r f = true -> exists m, r = Ok m /\ f m = true.
Proof. intros r f H. destruct r; cbn in H; try discriminate. eauto. Qed.

Definition finds (m : mesh) (k id p : Z) : bool := match MESH_EntFromID m k id with Ok q => q =? p | _ => false end.
Lemma finds_ok : forall m k id p, finds m k id p = true -> MESH_EntFromID m k id = Ok p.
Proof. unfold finds. intros m k id p H. destruct (MESH_EntFromID m k id); try discriminate. f_equal. lia. Qed.
Definition walks (m : mesh) (k : Z) (w : list Z) : bool := match MESH_Walk m k with Ok x => if list_eq_dec Z.eq_dec x w then true else false | _ => false end.
Lemma walks_ok : forall m k w, walks m k w = true -> MESH_Walk m k = Ok w.
Proof. unfold walks. intros m k w H. destruct (MESH_Walk m k); try discriminate. destruct (list_eq_dec Z.eq_dec a w); congruence. Qed.
Definition isundef {A} (r : result A) : bool := match r with Undef => true | _ => false end.
Lemma isundef_ok : forall A (r : result A), isundef r = true -> r = Undef.
Proof. intros A r H. destruct r; try discriminate. auto. Qed.

(** [g0]: whatever malloc left in the memory of a new entity. *)
Definition g0 : entdat := mkE 4022250974 12345 7 99 1.

Lemma k4 : forall j, 0 <= j <= 3 -> j = 0 \/ j = 1 \/ j = 2 \/ j = 3.
Proof. lia. Qed.
Ltac hok := repeat match goal with
  | |- _ /\ _ => split
  | |- True => exact I
  | |- true = true -> _ => intros _
  | |- false = true -> _ => discriminate
  | |- forall j, 0 <= j <= 3 -> _ => let j := fresh "j" in let H := fresh "H" in intros j H; destruct (k4 j H) as [->|[->|[->|H']]]; [| | |rewrite H' in *]
  end; try lia; try (vm_compute; intuition congruence).

(** Restoring, after a renumbering, an entity deleted before it gives two live
    vertices the same ID. *)
Theorem C16_restore_after_renumber_refuted : exists ops m p q, ops = [MNew 0 1 g0; MNew 0 2 g0; MDel 0 2 true; MRenum 0; MRestore 0 2; MNew 0 3 g0] /\
  mruns 10 MESH_New ops = Ok m /\ p <> q /\ MESH_Walk m 0 = Ok [1; q; p] /\ idof m p = idof m q.
Proof.
  destruct (okand_ex (mruns 10 MESH_New [MNew 0 1 g0; MNew 0 2 g0; MDel 0 2 true; MRenum 0; MRestore 0 2; MNew 0 3 g0])
    (fun m => (idof m 2 =? idof m 3) && walks m 0 [1; 2; 3])) as [m [A B]]; [vm_compute; reflexivity|].
  eexists. exists m, 3, 2. split; [reflexivity|]. split; [exact A|]. apply andb_prop in B. destruct B as [B C]. split; [lia|]. split; [|lia].
  apply walks_ok. auto.
Qed.
Print Assumptions C16_restore_after_renumber_refuted.

Definition C16_ops : list mop :=
  [MNew 0 1 g0; MNew 0 2 g0; MNew 1 10 g0; MNew 0 3 g0; MDel 0 1 true; MNew 0 4 g0; MEnable; MDel 0 3 false; MRestore 0 1; MNew 0 3 g0].
Example C16_ex : exists m, after false true C16_ops m /\ hl (hrun h0 C16_ops) 0 = [2; 4; 1; 3] /\
  idof m 1 = 1 /\ idof m 2 = 2 /\ idof m 3 = 5 /\ idof m 4 = 4 /\ idof m 10 = 1.
Proof.
  destruct (okand_ex (mruns 10 MESH_New C16_ops)
    (fun m => (idof m 1 =? 1) && (idof m 2 =? 2) && (idof m 3 =? 5) && (idof m 4 =? 4) && (idof m 10 =? 1))) as [m [A B]]; [vm_compute; reflexivity|].
  exists m. split.
  { split; [|split; [cbn; lia|exists 10%nat; split; [cbn; lia|exact A]]]. unfold C16_ops. cbn [hallowed hpre]. hok. }
  split; [vm_compute; reflexivity|]. repeat (apply andb_prop in B; destruct B as [B ?]). lia.
Qed.

(** ** C17 *)
Lemma hist_flag : forall sd ops h, (hfl h = true -> forall k, 0 <= k <= 3 -> hord h k = true /\ hgap h k = false) -> hallowed true sd h ops ->
  hfl (hrun h ops) = true -> forall k, 0 <= k <= 3 -> hord (hrun h ops) k = true /\ hgap (hrun h ops) k = false.
Proof.
  intros sd ops. induction ops as [|o ops IH]; intros h F A; cbn [hrun fold_left hallowed] in *; auto.
  destruct A as [A1 A2]. apply IH; auto. clear IH A2. destruct o as [j p g|j p keep|j p| |t]; cbn [hstep hpre] in *.
  - auto.
  - destruct (mem p (hl h j)); [cbn; congruence|]. destruct keep; auto.
  - cbn [hfl]. destruct A1 as [_ [_ A1]]. rewrite A1 by auto. congruence.
  - destruct (hfl h) eqn:E; auto. cbn [hfl hord hgap]. intros _ k Hk. split; auto. destruct (hl h k) eqn:EL; cbn [length Nat.eqb andb]; auto.
  - cbn [hfl hord hgap]. intros H k Hk. destruct (hfl h); [|discriminate]. destruct (F eq_refl k Hk) as [F1 F2]. rewrite F1, orb_true_r. auto.
Qed.

(** The search finds the live entity with the ID, if there is one.  Histories:
    any, except that nothing is restored while the lists are flagged as sorted
    and MESH_Enable_LocalIDSearch is not called when a kind has been emptied
    by deletions (see the two refutations). *)
Theorem C17_lookup_partial : forall ops m, after true false ops m -> forall k id, 0 <= k <= 3 ->
  exists p, MESH_EntFromID m k id = Ok p /\
    (p <> NULL -> In p (hl (hrun h0 ops) k) /\ exists e, heap m p = Some e /\ MEnt_ID e = id) /\
    (p = NULL -> forall q e, In q (hl (hrun h0 ops) k) -> heap m q = Some e -> MEnt_ID e <> id).
Proof.
  intros ops m A k id Hk. destruct (after_inv _ _ _ _ A) as [raws [I HS]]. destruct A as [A [A2 _]].
  pose proof (hist_flag _ _ h0 ltac:(cbn; auto) A) as F.
  destruct (FromID_spec _ _ _ _ _ _ _ _ _ id (I k Hk) ltac:(lia)) as [p [B [C D]]].
  { destruct (hfl (hrun h0 ops)) eqn:E; [right; apply F; auto|left; rewrite HS; auto]. }
  exists p. split; auto. split.
  - intros X. destruct (C X) as [C1 C2]. split; auto. destruct (I k Hk) as [_ IK]. destruct (ki_live _ _ _ _ _ _ _ _ _ _ IK p C1) as [_ [e [E1 _]]].
    exists e. split; auto. unfold idof in C2. rewrite E1 in C2. auto.
  - intros X q e Hq Eq. specialize (D X q Hq). unfold idof in D. rewrite Eq in D. auto.
Qed.
Print Assumptions C17_lookup_partial.

(** A live vertex is not found: it was restored after the lists had been sorted. *)
Theorem C17_restored_refuted : exists ops m p, hallowed false true h0 ops /\ mruns 10 MESH_New ops = Ok m /\
  In p (hl (hrun h0 ops) 0) /\ idof m p = 1 /\ MESH_EntFromID m 0 1 = Ok NULL.
Proof.
  set (ops := [MNew 0 1 g0; MNew 0 2 g0; MNew 0 3 g0; MDel 0 1 true; MEnable; MRestore 0 1]).
  destruct (okand_ex (mruns 10 MESH_New ops)
    (fun m => (idof m 1 =? 1) && finds m 0 1 0)) as [m [A B]]; [vm_compute; reflexivity|].
  exists ops, m, 1. split; [unfold ops; cbn [hallowed hpre]; hok|]. split; auto. split; [vm_compute; auto|]. apply andb_prop in B. destruct B as [B C]. split; [lia|].
  apply finds_ok. auto.
Qed.
Print Assumptions C17_restored_refuted.

(** The search dereferences NULL: all vertices were deleted, which leaves holes
    that MESH_Enable_LocalIDSearch does not close, and one was added since. *)
Theorem C17_emptied_refuted : exists ops m p, hallowed false true h0 ops /\ mruns 10 MESH_New ops = Ok m /\
  In p (hl (hrun h0 ops) 0) /\ MESH_EntFromID m 0 1 = Undef.
Proof.
  set (ops := [MNew 0 1 g0; MNew 0 2 g0; MDel 0 2 false; MDel 0 1 false; MEnable; MNew 0 3 g0]).
  destruct (okand_ex (mruns 10 MESH_New ops)
    (fun m => isundef (MESH_EntFromID m 0 1))) as [m [A B]]; [vm_compute; reflexivity|].
  exists ops, m, 3. split; [unfold ops; cbn [hallowed hpre]; hok|]. split; auto. split; [vm_compute; auto|].
  apply isundef_ok. auto.
Qed.
Print Assumptions C17_emptied_refuted.

Definition C17_ops : list mop :=
  [MNew 0 1 g0; MNew 0 2 g0; MNew 2 10 g0; MNew 0 3 g0; MDel 0 1 true; MRestore 0 1; MRenum 5; MNew 0 4 g0; MDel 0 2 false; MEnable].
Lemma C17_allowed : hallowed true true h0 C17_ops.
Proof. unfold C17_ops. cbn [hallowed hpre]. hok. Qed.
Example C17_ex : exists m, after true true C17_ops m /\
  MESH_EntFromID m 0 1 = Ok 0 /\ MESH_EntFromID m 0 2 = Ok 3 /\ MESH_EntFromID m 0 3 = Ok 1 /\ MESH_EntFromID m 0 4 = Ok 4 /\ MESH_EntFromID m 0 5 = Ok 0 /\
  MESH_EntFromID m 2 1 = Ok 10.
Proof.
  destruct (okand_ex (mruns 10 MESH_New C17_ops)
    (fun m => finds m 0 1 0 && finds m 0 2 3 && finds m 0 3 1 && finds m 0 4 4 && finds m 0 5 0 && finds m 2 1 10)) as [m [A B]]; [vm_compute; reflexivity|].
  exists m. split.
  { split; [|split; [cbn; lia|exists 10%nat; split; [cbn; lia|exact A]]]. apply C17_allowed. }
  repeat (rewrite andb_true_iff in B; destruct B as [B ?]). repeat split; apply finds_ok; assumption.
Qed.

(** ** C18 *)
(** Whatever the history, if it completes, counts and iteration are right. *)
Theorem C18_counts : forall ops m, after false false ops m -> forall k, 0 <= k <= 3 ->
  MESH_Num m k = Z.of_nat (length (hl (hrun h0 ops) k)) /\
  exists w, MESH_Walk m k = Ok w /\ Permutation w (hl (hrun h0 ops) k) /\ NoDup w /\
    forall i, MESH_Ent m k (Z.of_nat i) = Ok (nth i w NULL).
Proof.
  intros ops m A k Hk. destruct (after_inv _ _ _ _ A) as [raws [I HS]]. pose proof (ki_walk _ _ _ _ _ _ _ _ _ (I k Hk)) as W.
  destruct (I k Hk) as [_ IK]. pose proof (ki_perm _ _ _ _ _ _ _ _ _ _ IK) as P. pose proof (Permutation_length P) as PL.
  split; [unfold MESH_Num; apply (ki_cnt _ _ _ _ _ _ _ _ _ _ IK)|]. exists (valid (raws k)). split; auto. split; auto. split.
  - eapply NoDup_map_inv. eapply ki_idnd. eauto.
  - intros i. unfold MESH_Ent. rewrite (ki_cnt _ _ _ _ _ _ _ _ _ _ IK). destruct (Z.of_nat i >=? Z.of_nat (length (hl (hrun h0 ops) k))) eqn:E.
    + rewrite nth_overflow by lia. auto.
    + destruct (ki_list _ _ _ _ _ _ _ _ _ _ IK) as [[X B]|[l [X R]]]; rewrite X.
      * rewrite B in PL. cbn [valid filter length] in PL. lia.
      * apply Entry_rep; auto.
Qed.
Print Assumptions C18_counts.

(** Histories complete when entities are deleted only while their list is in
    order of IDs (nothing of the kind restored since the last sort or renumbering). *)
Theorem C18_completes_partial : forall ops fuel, hallowed false true h0 ops -> Z.of_nat (length ops) < 2 ^ 27 -> (length ops <= fuel)%nat ->
  exists m, mruns fuel MESH_New ops = Ok m.
Proof.
  intros ops fuel A B C. destruct (history_inv false true ops 0 fuel MESH_New h0 _ minv0 A ltac:(lia) ltac:(lia)) as [[m [r [E _]]]|[E _]]; [eauto|discriminate].
Qed.
Print Assumptions C18_completes_partial.

(** Without that condition: deleting a vertex that was deleted and restored
    runs List_RemSorted on a list that is not in order; it reads past the array
    or loops. *)
Theorem C18_delete_restored_refuted : exists ops, hallowed true false h0 ops /\ forall fuel, mruns (10 + fuel) MESH_New ops = Undef.
Proof.
  set (ops := [MNew 0 1 g0; MNew 0 2 g0; MNew 0 3 g0; MDel 0 1 true; MRestore 0 1; MDel 0 1 false]). exists ops. split.
  { unfold ops. cbn [hallowed hpre]. hok. }
  intros fuel. vm_compute. reflexivity.
Qed.
Print Assumptions C18_delete_restored_refuted.


Example C18_ex : exists m, after true true C17_ops m /\ hl (hrun h0 C17_ops) 0 = [3; 1; 4] /\ MESH_Num m 0 = 3 /\ MESH_Walk m 0 = Ok [3; 1; 4].
Proof.
  destruct (okand_ex (mruns 10 MESH_New C17_ops) (fun m => (MESH_Num m 0 =? 3) && walks m 0 [3; 1; 4])) as [m [A B]]; [vm_compute; reflexivity|].
  exists m. split. { split; [|split; [cbn; lia|exists 10%nat; split; [cbn; lia|exact A]]]. apply C17_allowed. }
  split; [vm_compute; reflexivity|]. rewrite andb_true_iff in B. destruct B. split; [lia|]. apply walks_ok. auto.
Qed.

(** ** C19 *)
(** [walk_ids m w n]: the entities of [w] have the IDs n+1, n+2, ... *)
Fixpoint walk_ids (m : mesh) (w : list Z) (n : Z) : Prop :=
  match w with [] => True | p :: t => (exists e, heap m p = Some e /\ MEnt_ID e = n + 1) /\ walk_ids m t (n + 1) end.

Lemma numbered_walk_ids : forall m w n, (forall p, In p w -> exists e, heap m p = Some e) ->
  (forall i, (i < length w)%nat -> idof m (nth i w 0) = n + 1 + Z.of_nat i) -> walk_ids m w n.
Proof.
  intros m w. induction w as [|p w IH]; intros n HE H; cbn [walk_ids]; auto. split.
  - destruct (HE p (or_introl eq_refl)) as [e E]. exists e. split; auto. specialize (H O ltac:(cbn [length]; lia)). cbn [nth] in H. unfold idof in H. rewrite E in H. lia.
  - apply IH. intros; apply HE; right; auto. intros i Hi. specialize (H (S i) ltac:(cbn [length]; lia)). cbn [nth] in H. lia.
Qed.

Theorem C19_renumber : forall ops m t, after false false ops m ->
  exists m', MESH_Renumber0 m t = Ok m' /\
    (forall k, 0 <= k <= 3 -> exists w, MESH_Walk m k = Ok w /\ MESH_Walk m' k = Ok w /\ MESH_Num m' k = MESH_Num m k /\
       (t = k \/ t = MALLTYPE -> walk_ids m' w 0) /\
       (t <> k -> t <> MALLTYPE -> forall p, In p w -> heap m' p = heap m p)) /\
    (* the next entity of a renumbered kind gets the next ID *)
    (forall k p g m2, 0 <= k <= 3 -> t = k \/ t = MALLTYPE -> hpre false false (hrun h0 ops) (MNew k p g) -> Ent_New m' k p g = Ok m2 ->
       idof m2 p = MESH_Num m k + 1).
Proof.
  intros ops m t A. destruct (after_inv _ _ _ _ A) as [raws I]. destruct A as [_ [A _]].
  destruct (Renum_spec _ m _ raws t I ltac:(lia)) as [m' [B [I2 [C [D [E F]]]]]]. exists m'. split; auto.
  assert (RQ : forall k, requested t k = true <-> (t = k \/ t = MALLTYPE)) by (intros; unfold requested, MALLTYPE; lia).
  split.
  - intros k Hk. exists (valid (raws k)). pose proof (ki_walk _ _ _ _ _ _ _ _ _ (proj1 I k Hk)) as W. split; auto. split; [unfold MESH_Walk in *; rewrite C; auto|].
    split; [unfold MESH_Num; rewrite D; auto|].
    assert (IN : forall q, In q (valid (raws k)) -> In q (hl (hrun h0 ops) k)) by (intros q; apply Permutation_in; apply (ki_perm _ _ _ _ _ _ _ _ _ _ (proj2 (proj1 I k Hk)))).
    split.
    + intros X. apply RQ in X. destruct (F k Hk X) as [F1 _]. apply numbered_walk_ids.
      * intros p Hp. apply IN in Hp. destruct (ki_live _ _ _ _ _ _ _ _ _ _ (proj2 (proj1 I2 k Hk)) p Hp) as [_ [e [G _]]]. eauto.
      * intros i Hi. rewrite F1 by auto. lia.
    + intros X1 X2 p Hp. apply E. intros j Hj RJ Q. apply RQ in RJ.
      apply (minv_apart _ _ _ raws k j p I Hk Hj); [intros ->; tauto|apply in_or_app; auto|apply in_or_app; left; apply IN; auto].
  - intros k p g m2 Hk X H N. apply RQ in X. destruct (F k Hk X) as [_ F2].
    destruct (New_spec _ m' _ raws k p g I2 A) as [m3 [r3 [G [_ [_ [G2 _]]]]]].
    { destruct H as [H1 [H2 H3]]. split; [auto|]. split; [auto|]. intros j Hj. cbn [hstep hl hk hs]. intro Q. apply (H3 j Hj). rewrite app_nil_l in Q. auto. }
    rewrite N in G. inversion G. subst m3. rewrite G2, F2. unfold MESH_Num. rewrite (ki_cnt _ _ _ _ _ _ _ _ _ _ (proj2 (proj1 I k Hk))). auto.
Qed.
Print Assumptions C19_renumber.

Definition C19_ops : list mop := [MNew 0 1 g0; MNew 0 2 g0; MNew 1 10 g0; MNew 1 11 g0; MNew 0 3 g0; MDel 0 1 true; MDel 1 10 false; MRestore 0 1].
Example C19_ex : exists m, after false true C19_ops m /\ MESH_Walk m 0 = Ok [2; 3; 1] /\ (idof m 2, idof m 3, idof m 1, idof m 11) = (2, 3, 1, 2) /\
  exists m', MESH_Renumber0 m 0 = Ok m' /\ (idof m' 2, idof m' 3, idof m' 1, idof m' 11) = (1, 2, 3, 2).
Proof.
  destruct (okand_ex (mruns 10 MESH_New C19_ops) (fun m => walks m 0 [2; 3; 1] && ((idof m 2 =? 2) && (idof m 3 =? 3) && (idof m 1 =? 1) && (idof m 11 =? 2)) &&
     okand (MESH_Renumber0 m 0) (fun m' => (idof m' 2 =? 1) && (idof m' 3 =? 2) && (idof m' 1 =? 3) && (idof m' 11 =? 2)))) as [m [A B]]; [vm_compute; reflexivity|].
  exists m. split. { split; [|split; [cbn; lia|exists 10%nat; split; [cbn; lia|exact A]]]. unfold C19_ops. cbn [hallowed hpre]. hok. }
  rewrite !andb_true_iff in B. destruct B as [[B1 B2] B3]. apply okand_ex in B3. destruct B3 as [m' [B3 B4]]. rewrite !andb_true_iff in B4.
  split; [apply walks_ok; auto|]. split; [repeat f_equal; lia|]. exists m'. split; auto. repeat f_equal; lia.
Qed.
