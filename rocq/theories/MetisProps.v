(** C56: partitioning the cells of a mesh with METIS. *)
From Coq Require Import ZArith List Lia Bool Arith ZifyBool ZifyNat Permutation.
From Verif Require Import Base BaseProofs ListSpec HashProofs AttModel AttProps ParModel ParProps TopoModel TopoSpec TopoProofs TopoProofs2 TopoProofs3 TopoProofs4 TopoProofs5 TopoProofs6 TopoProofs7 TopoProps TopoProps2 TopoProps3 GraphProofs GraphProofs2 GraphProps FileModel SendModel SendSpec PartModel CheckProps RefineProps PartSpec PartProps ElGraphProps MetisModel MetisProofs.
Import ListNotations.
Open Scope Z_scope.

(** ** Specification *)

(** The parts in [part] are those that METIS gives when it is handed the graph
    [nbs] of [n] cells to cut in [nparts]: by recursive bisection up to eight parts,
    directly beyond.  [run] is the program, given METIS. *)
Definition asks_metis (run : (mcall -> option (Z -> Z)) -> result (array Z)) (n : Z) (nbs : list (list Z)) (nparts : Z) : Prop :=
  exists xadj adjncy, graph_arrays nbs xadj adjncy /\
    forall metis g, metis (mkCall (8 <? nparts) n xadj adjncy nparts) = Some g -> run metis = Ok (map Some (map g (zrange 0 n))).
(** At most two faces at every edge. *)
Definition two_faces (a : amesh) : Prop := forall e f g h, has_edge a f e -> has_edge a g e -> has_edge a h e -> f = g \/ f = h \/ g = h.
(** A part below [num] for each of [n] cells. *)
Definition parts_of (part : array Z) (n num : Z) : Prop := exists l, part = map Some l /\ ZL l = n /\ forall x, In x l -> 0 <= x < num.

Lemma asks_of : forall t regions faces edges rid fid nparts n xadj adj nbs, 0 <= n -> metis_graph t regions faces edges rid fid = Ok (n, xadj, adj) -> graph_arrays nbs xadj adj ->
  asks_metis (fun metis => MESH_PartitionWithMetis metis t regions faces edges rid fid nparts) n nbs nparts.
Proof.
  intros t regions faces edges rid fid nparts n xadj adj nbs Hn E GA. exists xadj, adj. split; auto. intros metis g Hg. unfold MESH_PartitionWithMetis. rewrite E. cbn [bind]. apply copy_parts; auto. intros i Hi. unfold idxpart. replace (negb (nparts <=? 8)) with (8 <? nparts) by lia. rewrite Hg. cbn [mc_n]. apply answer_rd. auto.
Qed.

(** ** Volume meshes *)

(** METIS is handed the graph of the regions that share faces; nothing is written
    outside the arrays. *)
Theorem C56_volume : forall t a regions faces edges rid fid nparts, reach t a -> lists regions (live_r a) -> lists faces (live_f a) -> regions <> [] ->
  (forall r, a_r a r <> Some (true, None)) -> numbered regions rid ->
  exists nbs, element_graph regions (uses_face a) nbs /\ asks_metis (fun metis => MESH_PartitionWithMetis metis t regions faces edges rid fid nparts) (ZL regions) nbs nparts.
Proof.
  intros t a regs faces edges rid fid np R LR LF Ne NF NU. pose proof (reach_inv _ _ R) as I. set (its := fun r => match a_r a r with Some (_, Some b) => map fst b | _ => [] end). set (c := fun x => map (fun q => rid q - 1) (opps (regs_of t) x (its x))).
  assert (FU : forall x, In x regs -> exists b, a_r a x = Some (true, Some b)). { intros x Hx. apply (proj2 LR) in Hx. destruct Hx as ([b|] & Hb). eauto. destruct (NF x Hb). }
  assert (IT : forall x, In x regs -> NoDup (its x) /\ forall f, In f (its x) <-> uses_face a x f).
  { intros x Hx. destruct (FU x Hx) as (b & Hb). unfold its. rewrite Hb. split. apply (w_rnd _ (i_w _ _ I) _ _ _ Hb). intros f. split.
    + intros Hf. apply in_map_iff in Hf. destruct Hf as ([f' d] & <- & Hd). exists d, b. auto.
    + intros (d & b' & Hb' & Hi). rewrite Hb in Hb'. inversion Hb'; subst b'. apply in_map_iff. exists (f, d). auto. }
  exists (map c regs). split.
  { apply opps_graph; auto.
    - intros x f _ Hf. apply (regs_of_ok t a x f R Hf).
    - intros x q f _ _ (d & b & Hb & _). apply (proj2 LR). exists (Some b). auto. }
  destruct (metis_loop_ok regs c (metis_region t rid)) with (room := 2 * ZL faces) as (P1 & _); auto. { intros x st Hx. destruct (FU x Hx) as (b & Hb). unfold c, its. rewrite Hb. apply (metis_region_ok t a); auto. } { unfold ZL. lia. }
  destruct P1 as (beg & adj & E & GA & _).
  { apply room_ok. apply LR. intros; apply IT; auto. intros x f Hx Hf. pose proof (proj1 (proj2 (IT x Hx) f) Hf) as U. destruct (regs_of_ok t a x f R U) as (_ & N & HH). split. { apply (proj2 LF). destruct U as (d & b & Hb & Hi). assert (Hq : In f (map fst b)) by (apply in_map_iff; exists (f, d); auto). destruct (full_in _ _ _ (w_rf _ (i_w _ _ I) _ _ Hb) Hq) as (y & Hy). exists (Some y). auto. } split; auto. split. apply HH; auto. apply regs_two. }
  assert (NZ : (ZL regs =? 0) = false) by (destruct regs; [congruence|reflexivity]).
  apply (asks_of t regs faces edges rid fid np (ZL regs) beg adj). unfold ZL; lia. unfold metis_graph. rewrite NZ, E. auto. auto.
Qed.
Print Assumptions C56_volume.

(** ** Surface meshes *)

(** METIS is handed the graph of the faces that share edges, if the graph has at
    most two entries for every edge of the mesh; if it has more, the program writes
    beyond the end of the array. *)
Theorem C56_surface_room : forall t a faces edges rid fid nparts, reach t a -> lists faces (live_f a) -> faces <> [] ->
  (forall f, a_f a f <> Some (true, None)) -> numbered faces fid ->
  exists nbs, element_graph faces (has_edge a) nbs /\
    (ZL (concat nbs) <= 2 * ZL edges -> asks_metis (fun metis => MESH_PartitionWithMetis metis t [] faces edges rid fid nparts) (ZL faces) nbs nparts) /\
    (2 * ZL edges < ZL (concat nbs) -> forall metis, MESH_PartitionWithMetis metis t [] faces edges rid fid nparts = Undef) /\
    (lists edges (live_e a) -> two_faces a -> ZL (concat nbs) <= 2 * ZL edges).
Proof.
  intros t a faces edges rid fid np R LF Ne NF NU. pose proof (reach_inv _ _ R) as I. set (its := fun f => match a_f a f with Some (_, Some b) => map fst b | _ => [] end). set (c := fun x => map (fun q => fid q - 1) (opps (faces_of t) x (its x))).
  assert (FU : forall x, In x faces -> exists b, a_f a x = Some (true, Some b)). { intros x Hx. apply (proj2 LF) in Hx. destruct Hx as ([b|] & Hb). eauto. destruct (NF x Hb). }
  assert (IT : forall x, In x faces -> NoDup (its x) /\ forall e, In e (its x) <-> has_edge a x e).
  { intros x Hx. destruct (FU x Hx) as (b & Hb). unfold its. rewrite Hb. split. apply (w_fnd _ (i_w _ _ I) _ _ _ Hb). intros e. split. intros He. exists b. auto. intros (b' & Hb' & Hi). rewrite Hb in Hb'. inversion Hb'; subst b'. auto. }
  exists (map c faces). split.
  { apply opps_graph; auto.
    - intros x e _ He. apply (faces_of_ok t a x e R He).
    - intros x q e _ _ (b & Hb & _). apply (proj2 LF). exists (Some b). auto. }
  destruct (metis_loop_ok faces c (metis_face t fid)) with (room := 2 * ZL edges) as (P1 & P2); auto. { intros x st Hx. destruct (FU x Hx) as (b & Hb). unfold c, its. rewrite Hb. apply (metis_face_ok t a); auto. } { unfold ZL. lia. }
  assert (NZ : (ZL faces =? 0) = false) by (destruct faces; [congruence|reflexivity]).
  split; [|split].
  - intros H. destruct (P1 H) as (beg & adj & E & GA & _). apply (asks_of t [] faces edges rid fid np (ZL faces) beg adj). unfold ZL; lia. unfold metis_graph. change (ZL [] =? 0) with true. rewrite NZ, E. auto. auto.
  - intros H metis. unfold MESH_PartitionWithMetis, metis_graph. change (ZL [] =? 0) with true. rewrite NZ, (P2 H). auto.
  - intros LE TF. apply room_ok. apply LF. intros; apply IT; auto. intros x e Hx He. pose proof (proj1 (proj2 (IT x Hx) e) He) as U. destruct (faces_of_ok t a x e R U) as (_ & N & HH). split.
    { apply (proj2 LE). destruct U as (b & Hb & Hi). pose proof (face_edges_ok _ _ _ _ I Hb) as EO. rewrite Forall_forall in EO. apply in_map_iff in Hi. destruct Hi as (y & <- & Hy). destruct (EO _ Hy) as (p & Hp). exists p. auto. }
    split; auto. split. apply HH; auto. destruct (faces_of t e) as [|u [|v [|w l]]] eqn:EF; cbn [length]; try lia. exfalso. inversion N as [|? ? N1 N2]; subst. inversion N2 as [|? ? N3 _]; subst. destruct (TF e u v w) as [->|[->| ->]]; try (apply HH; cbn; tauto); cbn in *; tauto.
Qed.
Print Assumptions C56_surface_room.

(** At most two faces at every edge: always correct. *)
Theorem C56_surface : forall t a faces edges rid fid nparts, reach t a -> lists faces (live_f a) -> lists edges (live_e a) -> faces <> [] ->
  (forall f, a_f a f <> Some (true, None)) -> numbered faces fid -> two_faces a ->
  exists nbs, element_graph faces (has_edge a) nbs /\ asks_metis (fun metis => MESH_PartitionWithMetis metis t [] faces edges rid fid nparts) (ZL faces) nbs nparts.
Proof.
  intros t a faces edges rid fid np R LF LE Ne NF NU TF. destruct (C56_surface_room t a faces edges rid fid np R LF Ne NF NU) as (nbs & G & A & _ & B). exists nbs. split; auto.
Qed.
Print Assumptions C56_surface.

(** ** Choosing the parts *)

(** A METIS that finds parts below the number asked for. *)
Definition finds (metis : mcall -> option (Z -> Z)) : Prop := forall c, 0 < mc_parts c -> exists g, metis c = Some g /\ forall i, 0 <= i < mc_n c -> 0 <= g i < mc_parts c.

(** A mesh whose cells can be numbered: a volume mesh, or a surface mesh with at
    most two faces at every edge. *)
Definition cut_mesh (a : amesh) (regions faces edges : list ptr) (rid fid : ptr -> Z) : Prop :=
  lists regions (live_r a) /\ lists faces (live_f a) /\ lists edges (live_e a) /\ (forall f, a_f a f <> Some (true, None)) /\ (forall r, a_r a r <> Some (true, None)) /\
  (regions <> [] /\ numbered regions rid \/ regions = [] /\ faces <> [] /\ numbered faces fid /\ two_faces a).

(** Rank 0 gets a part below the number of ranks for every cell; the others get no
    array when there is more than one rank. *)
Theorem C56_parts : forall metis t a regions faces edges rid fid rank num, reach t a -> cut_mesh a regions faces edges rid fid -> finds metis -> 0 <= rank < num ->
  exists o, MESH_Get_Partitioning metis t regions faces edges rid fid 0 rank num = Ok o /\
    (rank = 0 -> exists part, o = Some part /\ parts_of part (match regions with [] => ZL faces | _ => ZL regions end) num) /\ (rank <> 0 -> o = None).
Proof.
  intros metis t a regs faces edges rid fid rank num R (LR & LF & LE & NF & NR & CASES) FI Hr. set (n := match regs with [] => ZL faces | _ => ZL regs end). assert (N0 : 0 <= n) by (unfold n, ZL; destruct regs; lia).
  assert (A : exists nbs, asks_metis (fun metis => MESH_PartitionWithMetis metis t regs faces edges rid fid num) n nbs num).
  { destruct CASES as [(Ne & NU)|(Ne & Nf & NU & TF)].
    - destruct (C56_volume t a regs faces edges rid fid num R LR LF Ne NR NU) as (nbs & _ & A). exists nbs. unfold n. destruct regs; auto. congruence.
    - unfold n. rewrite Ne in *. destruct (C56_surface t a faces edges rid fid num R LF LE Nf NF NU TF) as (nbs & _ & A). exists nbs. auto. }
  destruct A as (nbs & xadj & adj & _ & A). destruct (FI (mkCall (8 <? num) n xadj adj num)) as (g & Eg & Hg); [cbn; lia|]. specialize (A metis g Eg). cbn [mc_n mc_parts] in Hg.
  unfold MESH_Get_Partitioning. destruct (Z.eqb_spec num 1) as [E1|E1].
  - assert (rank = 0) by lia. subst rank num. cbn [Z.eqb]. eexists. split; [reflexivity|]. split; [|lia]. intros _. eexists. split; [reflexivity|]. exists (repeat 0 (Z.to_nat n)). split; [|split].
    + assert (MR : forall k, map Some (repeat 0 k) = repeat (Some 0) k) by (induction k; cbn; congruence). rewrite MR. f_equal. f_equal. unfold n. destruct regs; reflexivity.
    + unfold ZL at 1. rewrite repeat_length. lia.
    + intros x Hx. apply repeat_spec in Hx. lia.
  - cbn [Z.eqb]. destruct (Z.eqb_spec rank 0) as [E0|E0].
    + rewrite A. cbn [bind]. eexists. split; [reflexivity|]. split; [|lia]. intros _. eexists. split; [reflexivity|]. eexists. split; [reflexivity|]. split.
      * unfold ZL at 1, zrange. rewrite !map_length, seq_length. lia.
      * intros x Hx. apply in_map_iff in Hx. destruct Hx as (i & <- & Hi). apply Hg. unfold zrange in Hi. apply in_map_iff in Hi. destruct Hi as (k & <- & Hk). apply in_seq in Hk. lia.
    + exists None. split; auto. split; auto. lia.
Qed.
Print Assumptions C56_parts.

(** ** Examples *)

Lemma mesh_lists : forall s a, partable s a -> lists (skind s 3) (live_r a) /\ lists (skind s 2) (live_f a) /\ lists (skind s 1) (live_e a) /\ (forall f, a_f a f <> Some (true, None)) /\ (forall r, a_r a r <> Some (true, None)).
Proof. intros s a P. destruct P. repeat split; auto; try (apply pa_r); try (apply pa_f); try (apply pa_e); try (apply pa_nd). Qed.
Lemma numbered_from : forall k n, numbered (zrange (k + 1) (k + 1 + n)) (fun p => p - k).
Proof.
  intros k n. split. unfold zrange. apply FinFun.Injective_map_NoDup; [intros x y; lia|apply seq_NoDup]. intros i Hi. unfold zrange in *. rewrite map_length, seq_length in Hi. rewrite (nth_indep _ _ (k + 1 + Z.of_nat 0)) by (rewrite map_length, seq_length; lia). rewrite (map_nth (fun i => k + 1 + Z.of_nat i)). rewrite seq_nth by lia. lia.
Qed.
(** Every cell to part 1 but the first. *)
Definition split1 (c : mcall) : option (Z -> Z) := Some (fun i => if i =? 0 then 0 else if mc_parts c =? 1 then 0 else 1).

(** The two tetrahedra. *)
Example C56_volume_ex : reach T0 (arun amesh0 tets) /\ lists [22; 23] (live_r (arun amesh0 tets)) /\ lists (zrange 15 22) (live_f (arun amesh0 tets)) /\ [22; 23] <> [] /\
  (forall r, a_r (arun amesh0 tets) r <> Some (true, None)) /\ numbered [22; 23] (fun r => r - 21) /\ graph_arrays [[1]; [0]] (map Some [0; 1; 2]) (map Some [1; 0] ++ repeat None 12) /\
  metis_graph T0 [22; 23] (zrange 15 22) (zrange 6 15) (fun r => r - 21) (fun f => f) = Ok (2, map Some [0; 1; 2], map Some [1; 0] ++ repeat None 12) /\
  MESH_PartitionWithMetis split1 T0 [22; 23] (zrange 15 22) (zrange 6 15) (fun r => r - 21) (fun f => f) 2 = Ok [Some 0; Some 1].
Proof.
  pose proof (mesh_lists _ _ (tets_ok clean)) as (LR & LF & _ & _ & NR). split. exact T0_reach. split. exact LR. split. exact LF. split. discriminate. split. exact NR. split. exact (numbered_from 21 2).
  split. split; [reflexivity|eexists; reflexivity]. split; vm_compute; reflexivity.
Qed.

(** A strip of three triangles. *)
Definition strip_t : topo := sm_t (strip_mesh clean).
Lemma strip_two : two_faces (arun amesh0 strip).
Proof.
  pose proof (mesh_lists _ _ (strip_ok clean)) as (_ & LF & _). assert (C : forall f e, has_edge (arun amesh0 strip) f e -> f = 13 /\ (e = 6 \/ e = 7 \/ e = 8) \/ f = 14 /\ (e = 9 \/ e = 10 \/ e = 7) \/ f = 15 /\ (e = 11 \/ e = 12 \/ e = 10)).
  { intros f e (b & Hb & Hi). assert (Hf : In f [13; 14; 15]) by (apply (proj2 LF); exists (Some b); auto). destruct Hf as [<-|[<-|[<-|[]]]]; vm_compute in Hb; inversion Hb; subst b; cbn in Hi; lia. }
  intros e f g h Hf Hg Hh. apply C in Hf, Hg, Hh. lia.
Qed.
Example C56_surface_ex : reach strip_t (arun amesh0 strip) /\ lists [13; 14; 15] (live_f (arun amesh0 strip)) /\ lists (zrange 6 13) (live_e (arun amesh0 strip)) /\ [13; 14; 15] <> [] /\
  (forall f, a_f (arun amesh0 strip) f <> Some (true, None)) /\ numbered [13; 14; 15] (fun f => f - 12) /\ two_faces (arun amesh0 strip) /\
  graph_arrays [[1]; [2; 0]; [1]] (map Some [0; 1; 3; 4]) (map Some [1; 2; 0; 1] ++ repeat None 10) /\
  metis_graph strip_t [] [13; 14; 15] (zrange 6 13) (fun r => r) (fun f => f - 12) = Ok (3, map Some [0; 1; 3; 4], map Some [1; 2; 0; 1] ++ repeat None 10) /\
  MESH_PartitionWithMetis split1 strip_t [] [13; 14; 15] (zrange 6 13) (fun r => r) (fun f => f - 12) 9 = Ok [Some 0; Some 1; Some 1].
Proof.
  pose proof (mesh_lists _ _ (strip_ok clean)) as (_ & LF & LE & NF & _). split. apply (pa_reach _ _ (strip_ok clean)). split. exact LF. split. exact LE. split. discriminate. split. exact NF. split. exact (numbered_from 12 3). split. exact strip_two.
  split. split; [reflexivity|eexists; reflexivity]. split; vm_compute; reflexivity.
Qed.
(** Cell [i] to part [i] mod the number of parts. *)
Definition deal (c : mcall) : option (Z -> Z) := Some (fun i => i mod mc_parts c).
Example C56_parts_ex : reach strip_t (arun amesh0 strip) /\ cut_mesh (arun amesh0 strip) [] [13; 14; 15] (zrange 6 13) (fun r => r) (fun f => f - 12) /\
  finds deal /\
  MESH_Get_Partitioning deal strip_t [] [13; 14; 15] (zrange 6 13) (fun r => r) (fun f => f - 12) 0 0 2 = Ok (Some [Some 0; Some 1; Some 0]) /\
  MESH_Get_Partitioning deal strip_t [] [13; 14; 15] (zrange 6 13) (fun r => r) (fun f => f - 12) 0 1 2 = Ok None /\
  MESH_Get_Partitioning deal strip_t [] [13; 14; 15] (zrange 6 13) (fun r => r) (fun f => f - 12) 0 0 1 = Ok (Some [Some 0; Some 0; Some 0]).
Proof.
  pose proof (mesh_lists _ _ (strip_ok clean)) as (LR & LF & LE & NF & NR). split. apply (pa_reach _ _ (strip_ok clean)). split. split. exact LR. split. exact LF. split. exact LE. split. exact NF. split. exact NR. right. split. reflexivity. split. discriminate. split. exact (numbered_from 12 3). exact strip_two.
  split. intros c Hc. eexists. split; [reflexivity|]. intros i _. apply Z.mod_pos_bound. auto. repeat split; vm_compute; reflexivity.
Qed.

(** Four entries and room for fourteen. *)
Example C56_surface_room_ex : reach strip_t (arun amesh0 strip) /\ lists [13; 14; 15] (live_f (arun amesh0 strip)) /\ [13; 14; 15] <> [] /\
  (forall f, a_f (arun amesh0 strip) f <> Some (true, None)) /\ numbered [13; 14; 15] (fun f => f - 12) /\ ZL (concat [[1]; [2; 0]; [1]]) <= 2 * ZL (zrange 6 13).
Proof. destruct C56_surface_ex as (A & B & _ & C & D & E & _). split. exact A. split. exact B. split. exact C. split. exact D. split. exact E. vm_compute. discriminate. Qed.

(** ** Refutations *)

(** The seven triangles of two tetrahedra that share a face, without the
    tetrahedra: three edges have three faces, and the graph has 30 entries where
    there is room for 18. *)
Definition shells_mesh : smesh := mkSM (mkFM (tget shells) (fun p => (p mod 4, p)) xyz (fun p => p) [1; 2; 3; 4; 5] (zrange 6 15) (zrange 15 22) [] []) clean [].
Lemma shells_ok : partable shells_mesh (arun amesh0 shells).
Proof. apply partableb_ok; [apply (reach_tget shells); vm_compute; reflexivity|vm_compute; reflexivity]. Qed.
Theorem C56_surface_refuted : exists t a faces edges fid, reach t a /\ lists faces (live_f a) /\ lists edges (live_e a) /\ faces <> [] /\ (forall f, a_f a f <> Some (true, None)) /\ numbered faces fid /\
  forall metis rid nparts, MESH_PartitionWithMetis metis t [] faces edges rid fid nparts = Undef.
Proof.
  pose proof (mesh_lists _ _ shells_ok) as (_ & LF & LE & NF & _). exists (sm_t shells_mesh), (arun amesh0 shells), (zrange 15 22), (zrange 6 15), (fun f => f - 14). split. exact (pa_reach _ _ shells_ok). split. exact LF. split. exact LE. split. discriminate. split. exact NF. split. exact (numbered_from 14 7).
  intros metis rid np. unfold MESH_PartitionWithMetis. assert (E : metis_graph (sm_t shells_mesh) [] (zrange 15 22) (zrange 6 15) rid (fun f => f - 14) = Undef) by (vm_compute; reflexivity). rewrite E. auto.
Qed.
Print Assumptions C56_surface_refuted.
(** With the IDs 2 and 3 (a region deleted before, and not renumbered) METIS is
    handed a neighbour that is not a vertex of the graph. *)
Theorem C56_ids_refuted : exists t a regions faces edges rid n xadj adjncy, reach t a /\ lists regions (live_r a) /\ lists faces (live_f a) /\ (forall r, a_r a r <> Some (true, None)) /\ NoDup (map rid regions) /\ (forall r, In r regions -> 1 <= rid r) /\
  (forall fid nparts metis g, metis (mkCall (8 <? nparts) n xadj adjncy nparts) = Some g -> MESH_PartitionWithMetis metis t regions faces edges rid fid nparts = Ok (map Some (map g (zrange 0 n)))) /\ rd adjncy 0 = Ok n.
Proof.
  pose proof (mesh_lists _ _ (tets_ok clean)) as (LR & LF & _ & _ & NR). exists T0, (arun amesh0 tets), [22; 23], (zrange 15 22), (zrange 6 15), (fun r => r - 20), 2, (map Some [0; 1; 2]), (map Some [2; 1] ++ repeat None 12).
  split. exact T0_reach. split. exact LR. split. exact LF. split. exact NR. split. repeat constructor; cbn; intuition discriminate. split. intros r [<-|[<-|[]]]; lia. split; [|reflexivity].
  intros fid np metis g Hg. unfold MESH_PartitionWithMetis. assert (E : metis_graph T0 [22; 23] (zrange 15 22) (zrange 6 15) (fun r => r - 20) fid = Ok (2, map Some [0; 1; 2], map Some [2; 1] ++ repeat None 12)) by (vm_compute; reflexivity).
  rewrite E. cbn [bind]. apply copy_parts. lia. intros i Hi. unfold idxpart. replace (negb (np <=? 8)) with (8 <? np) by lia. rewrite Hg. cbn [mc_n]. apply answer_rd. auto.
Qed.
Print Assumptions C56_ids_refuted.
(** The status that METIS returns is not looked at: when the call fails, parts that
    were never written are read. *)
Theorem C56_failure_refuted : exists t a regions faces edges rid fid metis nparts, reach t a /\ cut_mesh a regions faces edges rid fid /\ 1 < nparts /\ (forall c, metis c = None) /\
  MESH_Get_Partitioning metis t regions faces edges rid fid 0 0 nparts = Undef.
Proof.
  pose proof (mesh_lists _ _ (tets_ok clean)) as (LR & LF & LE & NF & NR). exists T0, (arun amesh0 tets), [22; 23], (zrange 15 22), (zrange 6 15), (fun r => r - 21), (fun f => f), (fun _ => None), 2.
  split. exact T0_reach. split. split. exact LR. split. exact LF. split. exact LE. split. exact NF. split. exact NR. left. split. discriminate. exact (numbered_from 21 2). split. lia. split. auto. vm_compute. reflexivity.
Qed.
Print Assumptions C56_failure_refuted.
