(** C51: values between parts (MESH_XchngEdgeFaceAttrib.c) after a mesh was distributed. *)
From Coq Require Import ZArith Bool String List Lia Arith ZifyBool ZifyNat Sorting.Sorted.
From Verif Require Import Base BaseProofs ListSpec SortModel AttModel AttProps TopoModel TopoSpec TopoProps TopoProps2 CheckProps ParModel ParProps CommModel CommProofs CommProofs2 ExchModel ExchProofs ExchProofs4 ExchProofs5 ExchProofs7 ExchProps GidModel.
From Verif Require Import FileModel FileSpec SendModel SendSpec PartModel PartSpec PartProofs PartProps PartProps2 GhostModel GhostSpec GhostProps CloneModel DistModel DistSpec DistProofs DistProofs2 DistProofs3 DistProps.
Import ListNotations.
Open Scope Z_scope.

(** [q] is on rank [p] the copy of [g]; [s'] is the mesh with its global IDs. *)
Definition copy_of (s' : smesh) (ms : list smesh) (d p q g : Z) : Prop := In q (skind (rank_mesh ms p) d) /\ pi_gid (sm_p (rank_mesh ms p) q) = pi_gid (sm_p s' g).

(** The edges (surface) or faces (volume) between exactly two parts: each side gets the value of
    the other one.  Those in one part only keep the value there, and ghosts of them get it. *)
Theorem C51_boundary : forall s a part num ring s' ms val at_, distributable s a part num -> distribute s num ring part = Ok (s', ms) ->
  let d := at_dim at_ in d = celldim s - 1 -> attr_ok at_ -> (forall p q, on num p -> In q (skind (rank_mesh ms p) d) -> value_ok at_ (val p q)) ->
  exists res, never_stuck_with num (fun p => x <~ finish_rank num p (celldim s) (val p) (rank_mesh ms p) ;; MESH_XchngEdgeFaceAttrib num p (ZL (skind (rank_mesh ms p) 3)) at_ x) res /\
    (forall g p j, In g (skind s d) -> p <> j -> (forall i, inpart s a part i g <-> i = p \/ i = j) -> forall q q', copy_of s' ms d p q g -> copy_of s' ms d j q' g ->
       x_val (res p) q = if lost_value at_ (val j q') then val p q else val j q') /\
    (forall g p, In g (skind s d) -> (forall i, inpart s a part i g <-> i = p) -> forall i q q', on num i -> copy_of s' ms d p q g -> copy_of s' ms d i q' g ->
       x_val (res i) q' = if lost_value at_ (val p q) then val i q' else val p q).
Proof.
  intros s a part num ring s' ms val at_ D E d Ed A V. destruct (given _ _ _ _ _ _ _ D E) as (O & L & ID & HM & _). destruct (finish_ok s a part num ring s' ms O D L ID HM val) as (ys & PR & AH & KS & _). pose proof (di_num _ _ _ _ D) as HN. assert (EN : Z.of_nat (Z.to_nat num) = num) by lia.
  pose proof (start_shared s a part num ring s' ms O D L ID HM val ys d KS) as BS.
  destruct (rank_dim s a part num ring s' ms O L HM) as [C1 C2].
  destruct (xchng_ok (Z.to_nat num) (fun p => ZL (skind (rank_mesh ms p) 3)) at_ ys ltac:(lia) AH A) as (res & P & R & _); rewrite ?EN in *.
  { exact BS. }
  { fold d. destruct C1 as [C1|C1]; [left|right; lia]. split; [lia|]. intros p Hp. rewrite (C2 p Hp C1 : skind (rank_mesh ms p) 3 = []). reflexivity. }
  { intros p o Hp Ho. rewrite (ks_val _ _ _ _ _ (KS p Hp)). apply (ks_ov _ _ _ _ _ (KS p Hp)) in Ho. apply V; auto; apply Ho. }
  { intros p o Hp Ho _. rewrite (ks_val _ _ _ _ _ (KS p Hp)). apply (ks_gh _ _ _ _ _ (KS p Hp)) in Ho. apply V; auto; apply Ho. }
  fold d in R. exists res. split. { apply (protocol_runs _ num 0 11). lia. eapply (protocol_bind _ _ num 0 2 11 _ ys); [lia|apply (PR 0)|]. apply (P 2). }
  assert (CO : forall p q g, on num p -> In g (skind s d) -> copy_of s' ms d p q g -> In q (skind (rank_mesh ms p) d) /\ Oz O p q = g).
  { intros p q g Hp Hg [Hq G]. split; auto. destruct (rank_in s a part num ring s' ms O L HM p d q Hp Hq) as [I1 _]. apply (proj2 (ID d _ I1)); auto. rewrite <- G. symmetry. apply (rank_gid s a part num ring s' ms O L ID HM p d q Hp Hq). }
  assert (MA : forall p q, on num p -> In q (skind (rank_mesh ms p) d) -> owner s a part (Oz O p q) (pi_master (sm_p (rank_mesh ms p) q))).
  { intros p q Hp Hq. apply (rank_master s a part num ring s' ms O D L HM p d q Hp Hq). }
  assert (FL : forall p q, on num p -> In q (skind (rank_mesh ms p) d) -> (pi_bdry (sm_p (rank_mesh ms p) q) = true <-> inpart s a part p (Oz O p q) /\ exists x, bounds a (Oz O p q) x /\ ~ inpart s a part p x)).
  { intros p q Hp Hq. destruct (at_rank s a part num ring s' ms O L HM p Hp) as (_ & X & _). exact (X d q Hq). }
  assert (RG : forall i g, inpart s a part i g -> on num i).
  { intros i g Hi. destruct (inpart_cell _ _ _ _ _ Hi) as (n & c & _ & En & _). apply (di_range _ _ _ _ D). eapply nth_error_In; eauto. }
  assert (SG : forall p q i q' g, copy_of s' ms d p q g -> copy_of s' ms d i q' g -> pi_gid (sm_p (rank_mesh ms p) q) = pi_gid (sm_p (rank_mesh ms i) q')) by (intros p q i q' g [_ X1] [_ X2]; congruence).
  (* a ghost *)
  assert (GH : forall p q j q' g, on num p -> on num j -> p <> j -> In g (skind s d) -> owner s a part g j -> copy_of s' ms d p q g -> copy_of s' ms d j q' g -> x_val (res p) q = if lost_value at_ (val j q') then val p q else val j q').
  { intros p q j q' g Hp Hj Npj Hg OW Cq Cq'. destruct (CO _ _ _ Hp Hg Cq) as [Iq Eq]. destruct (CO _ _ _ Hj Hg Cq') as [Iq' Eq'].
    assert (UN : forall i q, on num i -> In q (skind (rank_mesh ms i) d) -> Oz O i q = g -> pi_master (sm_p (rank_mesh ms i) q) = j).
    { intros i y Hi Iy Ey. pose proof (MA i y Hi Iy) as (X1 & X2 & X3). rewrite Ey in *. destruct OW as (Y1 & Y2 & Y3). destruct (Z.lt_trichotomy (pi_master (sm_p (rank_mesh ms i) y)) j) as [T|[T|T]]; auto; exfalso; [eapply Y3|eapply X3]; eauto. }
    pose proof (UN p q Hp Iq Eq) as M1. pose proof (UN j q' Hj Iq' Eq') as M2.
    assert (EM : x_mas (ys p) q = j) by (rewrite (ks_mas _ _ _ _ _ (KS p Hp)); exact M1).
    destruct (R p Hp) as (_ & R1 & _). rewrite (R1 q q').
    - rewrite EM, (ks_val _ _ _ _ _ (KS p Hp)), (ks_val _ _ _ _ _ (KS j Hj)). reflexivity.
    - apply (ks_gh _ _ _ _ _ (KS p Hp)). split; auto. change (M ms p) with (rank_mesh ms p). lia.
    - unfold owner_of. rewrite EM, (ks_gid _ _ _ _ _ (KS p Hp)), (ks_gid _ _ _ _ _ (KS j Hj)). split; [|symmetry; eapply SG; eauto]. apply (ks_ov _ _ _ _ _ (KS j Hj)). split; auto. split; auto. exists p, q. split; auto. split; auto. split; auto. eapply SG; eauto. }
  split.
  - intros g p j Hg Npj IP q q' Cq Cq'. assert (Hp : on num p) by (apply (RG p g), IP; auto). assert (Hj : on num j) by (apply (RG j g), IP; auto).
    destruct (Z.lt_trichotomy p j) as [T|[T|T]]; [|contradiction|].
    2: { apply (GH p q j q' g); auto. split; [unfold CommModel.on in Hj; lia|]. split; [apply IP; auto|]. intros i Hi Ii. apply IP in Ii. lia. }
    assert (OW : owner s a part g p) by (split; [unfold CommModel.on in Hp; lia|]; split; [apply IP; auto|]; intros i Hi Ii; apply IP in Ii; lia).
    destruct (CO _ _ _ Hp Hg Cq) as [Iq Eq]. destruct (CO _ _ _ Hj Hg Cq') as [Iq' Eq'].
    assert (UN : forall i q, on num i -> In q (skind (rank_mesh ms i) d) -> Oz O i q = g -> pi_master (sm_p (rank_mesh ms i) q) = p).
    { intros i y Hi Iy Ey. pose proof (MA i y Hi Iy) as (X1 & X2 & X3). rewrite Ey in *. destruct OW as (Y1 & Y2 & Y3). destruct (Z.lt_trichotomy (pi_master (sm_p (rank_mesh ms i) y)) p) as [T'|[T'|T']]; auto; exfalso; [eapply Y3|eapply X3]; eauto. }
    pose proof (UN p q Hp Iq Eq) as M1. pose proof (UN j q' Hj Iq' Eq') as M2.
    assert (NB : forall i k, i <> k -> inpart s a part i g -> inpart s a part k g -> exists x, bounds a g x /\ ~ inpart s a part i x).
    { intros i k Nik Ii Ik. destruct (inpart_cell _ _ _ _ _ Ik) as (n & c & E1 & E2 & Q). assert (NI : ~ inpart s a part i c) by (intro H; pose proof (cell_once s a part (di_mesh _ _ _ _ D) n c _ E1 H); congruence). destruct Q as [Q|Q]; [rewrite Q in Ii; contradiction|]. exists c. auto. }
    destruct (R p Hp) as (_ & _ & R2 & _). rewrite (R2 q j q').
    + rewrite (ks_val _ _ _ _ _ (KS p Hp)), (ks_val _ _ _ _ _ (KS j Hj)). reflexivity.
    + apply (ks_ov _ _ _ _ _ (KS p Hp)). split; auto. split; auto. exists j, q'. split; auto. split; auto. split; auto. symmetry. eapply SG; eauto.
    + rewrite (ks_bnd _ _ _ _ _ (KS p Hp)). apply (FL p q Hp Iq). rewrite Eq. split; [apply IP; auto|]. apply (NB p j); auto; apply IP; auto.
    + exact Hj.
    + unfold bcopy. rewrite (ks_mas _ _ _ _ _ (KS j Hj)), (ks_bnd _ _ _ _ _ (KS j Hj)), (ks_gid _ _ _ _ _ (KS j Hj)), (ks_gid _ _ _ _ _ (KS p Hp)). split; [apply (ks_gh _ _ _ _ _ (KS j Hj)); split; auto; change (M ms j) with (rank_mesh ms j); lia|]. split; [exact M2|]. split; [|symmetry; eapply SG; eauto].
      apply (FL j q' Hj Iq'). rewrite Eq'. split; [apply IP; auto|]. apply (NB j p); auto; apply IP; auto.
    + intros i h Hi Lij (B1 & B2 & B3 & B4). rewrite (ks_gid _ _ _ _ _ (KS i Hi)), (ks_gid _ _ _ _ _ (KS p Hp)) in B4. rewrite (ks_bnd _ _ _ _ _ (KS i Hi)) in B3. apply (ks_gh _ _ _ _ _ (KS i Hi)) in B1. destruct B1 as [B1 B1']. apply (FL i h Hi B1) in B3. apply (same_gid s a part num ring s' ms O L ID HM i p d h q Hi Hp B1 Iq) in B4. rewrite B4, Eq in B3. destruct B3 as [B3 _]. apply IP in B3. destruct B3 as [-> | ->]; [|lia].
      apply B1'. apply UN; auto. congruence.
  - intros g p Hg IP i q q' Hi Cq Cq'. assert (Hp : on num p) by (apply (RG p g), IP; auto).
    assert (OW : owner s a part g p) by (split; [unfold CommModel.on in Hp; lia|]; split; [apply IP; auto|]; intros k Hk Ik; apply IP in Ik; lia).
    destruct (Z.eq_dec i p) as [->|Nip]; [|apply (GH i q' p q g); auto].
    destruct (CO _ _ _ Hp Hg Cq) as [Iq Eq]. destruct (CO _ _ _ Hp Hg Cq') as [Iq' Eq']. assert (q = q') by (apply (rank_inj s a part num ring s' ms O L ID HM p d); auto; eapply SG; eauto). subst q'.
    assert (M1 : pi_master (sm_p (rank_mesh ms p) q) = p) by (pose proof (MA p q Hp Iq) as (X1 & X2 & X3); rewrite Eq in X2; apply IP in X2; exact X2).
    destruct (R p Hp) as (_ & _ & _ & R3 & R4). assert (KV : x_val (ys p) q = val p q) by (rewrite (ks_val _ _ _ _ _ (KS p Hp)); auto).
    assert (X : x_val (res p) q = x_val (ys p) q).
    { destruct (in_dec Z.eq_dec q (x_ov (ys p) d)) as [IO|NO].
      - apply R3; auto. right. intros j h Hj (B1 & _ & B3 & B4). rewrite (ks_gid _ _ _ _ _ (KS j Hj)), (ks_gid _ _ _ _ _ (KS p Hp)) in B4. rewrite (ks_bnd _ _ _ _ _ (KS j Hj)) in B3. apply (ks_gh _ _ _ _ _ (KS j Hj)) in B1. destruct B1 as [B1 B1']. apply (FL j h Hj B1) in B3. apply (same_gid s a part num ring s' ms O L ID HM j p d h q Hj Hp B1 Iq) in B4. rewrite B4, Eq in B3. destruct B3 as [B3 _]. apply IP in B3. subst j.
        pose proof (MA p h Hp B1) as (_ & X2 & _). rewrite B4, Eq in X2. apply IP in X2. apply B1'. exact X2.
      - apply R4; auto. intro X. apply (ks_gh _ _ _ _ _ (KS p Hp)) in X. apply (proj2 X). exact M1. }
    rewrite X, KV. destruct (lost_value at_ (val p q)); auto.
Qed.
Print Assumptions C51_boundary.

(** The edge 15 of the row is between the triangles 27 and 28, in different parts. *)
Lemma row_edge : forall i, inpart row_a (arun amesh0 row) parts2 i 15 <-> i = 0 \/ i = 1.
Proof.
  intro i. split.
  - intro H. destruct (inpart_cell _ _ _ _ _ H) as (n & c & _ & En & _). apply nth_error_In in En. cbn in En. intuition.
  - intros [-> | ->].
    + apply (ip_edge _ _ _ _ 27); [apply (ip_cell _ _ _ _ 2 27); reflexivity|]. eexists. split; [vm_compute; reflexivity|vm_compute; auto].
    + apply (ip_edge _ _ _ _ 28); [apply (ip_cell _ _ _ _ 3 28); reflexivity|]. eexists. split; [vm_compute; reflexivity|vm_compute; auto].
Qed.
(** With the value 100 p + 1 on rank p each side has the value of the other one afterwards. *)
Example C51_boundary_ex : match distribute row_a 2 1 parts2 with
  | Ok (s', ms) => exists res, never_stuck_with 2 (fun p => x <~ finish_rank 2 p 2 (fun _ => [100 * p + 1]) (rank_mesh ms p) ;; MESH_XchngEdgeFaceAttrib 2 p (ZL (skind (rank_mesh ms p) 3)) (mkAt TINT 1 1) x) res /\
      exists q q', copy_of s' ms 1 0 q 15 /\ copy_of s' ms 1 1 q' 15 /\ x_val (res 0) q = [101] /\ x_val (res 1) q' = [1]
  | _ => False end.
Proof.
  assert (B : match distribute row_a 2 1 parts2 with Ok (s', ms) => forallb (fun p => existsb (fun q => pi_gid (sm_p (rank_mesh ms p) q) =? pi_gid (sm_p s' 15)) (skind (rank_mesh ms p) 1)) [0; 1] | _ => false end = true) by (vm_compute; reflexivity).
  destruct (distribute row_a 2 1 parts2) as [[s' ms]| | |] eqn:E; try discriminate B.
  destruct (C51_boundary row_a _ parts2 2 1 s' ms (fun p q => [100 * p + 1]) (mkAt TINT 1 1) row_dist E) as (res & P & R & _); [reflexivity|split; cbn; lia|intros; cbn; auto|].
  exists res. split. exact P. rewrite forallb_forall in B. pose proof (B 0 ltac:(cbn; auto)) as B0. pose proof (B 1 ltac:(cbn; auto)) as B1. apply existsb_exists in B0, B1. destruct B0 as (q & Iq & Gq). destruct B1 as (q' & Iq' & Gq'). apply Z.eqb_eq in Gq, Gq'. exists q, q'.
  assert (C0 : copy_of s' ms 1 0 q 15) by (split; auto). assert (C1 : copy_of s' ms 1 1 q' 15) by (split; auto). split; auto. split; auto. cbn [at_dim] in R.
  assert (I15 : In 15 (skind row_a 1)) by (vm_compute; tauto). split.
  - rewrite (R 15 0 1 I15 ltac:(lia) row_edge q q' C0 C1). reflexivity.
  - rewrite (R 15 1 0 I15 ltac:(lia) (fun i => iff_trans (row_edge i) (or_comm _ _)) q' q C1 C0). reflexivity.
Qed.
