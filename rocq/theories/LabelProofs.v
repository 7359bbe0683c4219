(** Proofs about the parallel labels. *)
From Coq Require Import ZArith List Lia Bool Arith ZifyBool ZifyNat Permutation.
From Verif Require Import Base BaseProofs ListSpec HashProofs AttModel AttProps ParModel ParProps TopoModel TopoSpec TopoProofs TopoProofs2 TopoProofs3 TopoProofs4 TopoProofs5 TopoProofs6 TopoProofs7 TopoProps TopoProps2 TopoProps3 ModProofs CellModel CellSpec CellProofs CellProofs2 CellProofs3 CellProofs4 CellProofs5 CellProofs6 CellProps LabelModel.
Import ListNotations.
Open Scope Z_scope.

(** ** Regions that are not standard elements *)
Lemma pos_counts : forall ns is p, let q := fold_left (fun p i => pstep (Z.of_nat (nth i ns 0%nat)) (Z.of_nat i) p) is p in
  snd (fst q) = snd (fst p) + Z.of_nat (cnt 3 (map (fun i => nth i ns 0%nat) is)) /\ snd q = snd p + Z.of_nat (cnt 4 (map (fun i => nth i ns 0%nat) is)).
Proof.
  intros ns. induction is as [|i is IH]; intros p; cbn [fold_left map]. unfold cnt; cbn; lia.
  cbv zeta in *. destruct (IH (pstep (Z.of_nat (nth i ns 0%nat)) (Z.of_nat i) p)) as (H1 & H2). rewrite H1, H2. clear. unfold cnt. cbn [count_occ]. destruct p as ((((a & b) & c) & d) & e). unfold pstep.
  destruct (Nat.eq_dec (nth i ns 0%nat) 3) as [E|E], (Nat.eq_dec (nth i ns 0%nat) 4) as [E'|E']; try lia.
  - rewrite E. cbn [Z.of_nat]. change (Z.of_nat 3 =? 3) with true. cbv iota. destruct (a =? -1); cbn [fst snd]; lia.
  - rewrite E'. change (Z.of_nat 4 =? 3) with false. change (Z.of_nat 4 =? 4) with true. cbv iota. destruct (c =? -1); cbn [fst snd]; lia.
  - replace (Z.of_nat (nth i ns 0%nat) =? 3) with false by lia. replace (Z.of_nat (nth i ns 0%nat) =? 4) with false by lia. cbn [fst snd]. lia.
Qed.
Lemma map_nth_seq : forall (ns : list nat), map (fun i => nth i ns 0%nat) (seq 0 (length ns)) = ns.
Proof. intros ns. apply nth_ext with (d := 0%nat) (d' := 0%nat). rewrite map_length, seq_length. auto. intros n H. rewrite map_length, seq_length in H. rewrite nth_indep with (d' := nth 0 ns 0%nat) by (rewrite map_length, seq_length; auto). change (nth 0 ns 0%nat) with ((fun i => nth i ns 0%nat) 0%nat). rewrite map_nth, seq_nth; auto. Qed.
(** The stored type is none of the four standard ones. *)
Definition other_kind (t : topo) (r : ptr) : Prop := exists x, trs t r = Some x /\ ~ In (r_type x) [TET; PYRAMID; PRISM; HEX].
Lemma poly_query : forall t a r b, reach t a -> a_r a r = Some (true, Some b) -> typed t r -> other_kind t r ->
  MR_Vertices t r = (vs <- MR_Vertices_poly t r ;; Ok (Some vs)) /\ MR_Edges t r = MR_Edges_poly t r.
Proof.
  intros t a r b R Hr (x & l & ns & H1 & H2 & H3 & H4) (x' & Hx' & HN). assert (x' = x) by congruence. subst x'. split.
  - unfold MR_Vertices, getr. rewrite H1. cbn [bind]. rewrite H2. cbn [bind nn].
    destruct (Z.eqb_spec (r_type x) TET) as [E|_]. exfalso. apply HN. rewrite E. cbn. auto.
    destruct (Z.eqb_spec (r_type x) PRISM) as [E|_]. exfalso. apply HN. rewrite E. cbn. auto.
    destruct (Z.eqb_spec (r_type x) PYRAMID) as [E|_]. exfalso. apply HN. rewrite E. cbn. auto.
    destruct (Z.eqb_spec (r_type x) HEX) as [E|_]. exfalso. apply HN. rewrite E. cbn. auto. auto.
  - unfold MR_Edges, getr. rewrite H1. cbn [bind]. rewrite H2. cbn [bind nn]. rewrite (mapM_counts _ _ _ H3). cbn [bind].
    assert (EL : length l = length ns) by (eapply F2_length; exact H3). unfold ZL. rewrite EL. rewrite H4 in HN. clear H4.
    assert (NN : ~ (length ns = 4%nat /\ cnt 3 ns = 4%nat) /\ ~ (length ns = 5%nat /\ cnt 3 ns = 4%nat /\ cnt 4 ns = 1%nat) /\ ~ (length ns = 5%nat /\ cnt 3 ns = 2%nat /\ cnt 4 ns = 3%nat) /\ ~ (length ns = 6%nat /\ cnt 4 ns = 6%nat)).
    { repeat split; intros HH; apply HN; unfold etype; repeat match goal with H : _ /\ _ |- _ => destruct H end; repeat match goal with H : cnt _ _ = _ |- _ => rewrite H end; repeat match goal with H : length _ = _ |- _ => rewrite H end; cbn; auto. }
    destruct NN as (N1 & N2 & N3 & N4). change 3 with (Z.of_nat 3). change 4 with (Z.of_nat 4). rewrite !forallb_cnt.
    destruct (Z.eqb_spec (Z.of_nat (length ns)) (Z.of_nat 4)) as [E|E]. { replace (cnt 3 ns =? length ns)%nat with false by lia. auto. }
    destruct (Z.eqb_spec (Z.of_nat (length ns)) 5) as [E5|E5].
    { destruct (find_kinds_pos t l ns) as (k & Ek & Pk & _). auto.
      { intros i Hi. pose proof (F2_nth _ _ _ _ _ NULL 0%nat i H3 ltac:(lia)) as (y & es & Hy & He & Hn). split. unfold MF_Num_Edges, getf. rewrite Hy. cbn [bind]. rewrite He. cbn [bind nn]. unfold ZL. rewrite Hn. auto.
        pose proof (reach_inv _ _ R) as I. destruct (region_rep t a r b R Hr) as (x2 & Hx2 & Hl2 & _). assert (x2 = x) by congruence. subst x2. assert (l = map fst b) by congruence.
        pose proof (full_in a b (nth i l NULL) (w_rf _ (i_w _ _ I) _ _ Hr)) as FI. destruct FI as (c & Hc). subst l. apply nth_In. auto. assert (1 <= nth i l NULL < a_next a) by (apply (w_f _ (i_w _ _ I)); congruence). unfold NULL in *. lia. }
      rewrite Ek. cbn [bind]. pose proof (pos_counts ns (seq 0 (length ns)) (-1, -1, -1, 0, 0)) as (C1 & C2). fold (pos_of ns) in C1, C2. rewrite Pk, map_nth_seq in C1, C2. cbn [fst snd] in C1, C2. rewrite C1, C2.
      destruct (Z.eqb_spec (0 + Z.of_nat (cnt 4 ns)) (Z.of_nat 3)), (Z.eqb_spec (0 + Z.of_nat (cnt 3 ns)) 2); try (exfalso; lia); cbn [andb];
      destruct (Z.eqb_spec (0 + Z.of_nat (cnt 4 ns)) 1), (Z.eqb_spec (0 + Z.of_nat (cnt 3 ns)) (Z.of_nat 4)); cbn [andb]; auto; exfalso; lia. }
    destruct (Z.eqb_spec (Z.of_nat (length ns)) 6) as [E6|E6]; auto. replace (cnt 4 ns =? length ns)%nat with false by lia. auto.
Qed.

(** A region whose vertices and edges the queries find: closed faces; either a
    standard cell without chords, or another kind of cell whose last face shares
    its edges. *)
Definition known_region (t : topo) (a : amesh) (r : ptr) : Prop :=
  exists b, a_r a r = Some (true, Some b) /\ b <> [] /\ typed t r /\
    ((exists s ws, In s std /\ cell a s b ws /\ chordless a b ws) \/
     (other_kind t r /\ Forall (fun x => good_face a (fst x)) b /\ last_shared a b)).
Lemma region_query : forall t a r, reach t a -> known_region t a r ->
  exists vs es fs, MR_Vertices t r = Ok (Some vs) /\ MR_Edges t r = Ok es /\ MR_Faces t r = Ok fs /\ lists vs (r_vertex a r) /\ lists es (r_edge a r) /\ (forall f, In f fs <-> exists d, has_face a r f d).
Proof.
  intros t a r R (b & Hr & HB & HT & HK).
  assert (HF : exists fs, MR_Faces t r = Ok fs /\ (forall f, In f fs <-> exists d, has_face a r f d)).
  { destruct (region_rep t a r b R Hr) as (x & Hx & Hl & _). exists (map fst b). unfold MR_Faces, getr. rewrite Hx. cbn [bind]. rewrite Hl. split; auto. intros f. rewrite in_map_iff. split.
    intros ([f' d] & E & Hi). cbn in E. subst f'. exists d, b. auto. intros (d & b' & Hb' & Hi). rewrite Hr in Hb'. inversion Hb'; subst b'. exists (f, d). auto. }
  destruct HF as (fs & EF & LF). destruct HK as [(s & ws & HS & HC & CH)|(HO & HG & HL)].
  - destruct (C39_region_edges t a r b s ws R Hr HT HS HC CH) as (vs & es & E1 & E2 & C2 & _ & LE). destruct (C39_region_vertices t a r b s ws R Hr HT HS HC (fun _ => CH)) as (vs' & E1' & _ & LV). exists vs, es, fs. assert (vs' = vs) by congruence. subst vs'. do 5 (split; [assumption|]). assumption.
  - destruct (poly_query t a r b R Hr HT HO) as (Q1 & Q2). destruct (C26_region_vertices_poly t a r b R Hr HB HG HL) as (vs & E1 & LV). destruct (C26_region_edges_poly t a r b R Hr HB HL) as (es & E2 & LE).
    exists vs, es, fs. rewrite Q1, E1, Q2. split; [reflexivity|]. do 4 (split; [assumption|]). assumption.
Qed.
Lemma face_query : forall t a f, reach t a -> good_face a f ->
  exists vs es, MF_Vertices t f 1 NULL = Ok vs /\ MF_Edges t f 1 NULL = Ok es /\ (forall v, In v vs <-> exists e, has_edge a f e /\ is_end a e v) /\ (forall e, In e es <-> has_edge a f e).
Proof.
  intros t a f R G. destruct (loop_verts t a f true R G) as (vs & E1 & L1). destruct G as (b & u & Hb & _). pose proof (face_edges_query t a f b true (reach_inv _ _ R) Hb) as E2.
  exists vs. eexists. split. exact E1. split. exact E2. split. apply L1. intros e. destruct (w_fnd _ (i_w _ _ (reach_inv _ _ R)) _ _ _ Hb) as (ND & _). apply (walk_edges true) in ND. destruct ND as (_ & ND). rewrite ND. split. intros. exists b. auto. intros (c' & Hc' & Hi). congruence.
Qed.

(** ** Labels *)
Definition becomes (P : Prop) (old new : Z) : Prop := (P /\ new = POVERLAP) \/ (~ P /\ new = old).
Lemma raise_at : forall l g x, becomes (In x l /\ g x <> PGHOST) (g x) (raise g l x).
Proof.
  induction l as [|y l IH]; intros g x; unfold raise; cbn [fold_left]. right. split; auto. intros ([] & _). fold (raise (if negb (g y =? PGHOST) then zupd g y POVERLAP else g) l).
  destruct (IH (if negb (g y =? PGHOST) then zupd g y POVERLAP else g) x) as [((H1 & H2) & E)|(H1 & E)]; rewrite E; clear E IH.
  - left. split; auto. split. cbn; auto. intros G. apply H2. destruct (Z.eqb_spec (g y) PGHOST); cbn [negb]; auto. unfold zupd. destruct (Z.eqb_spec x y); congruence.
  - destruct (Z.eqb_spec (g y) PGHOST) as [Ey|Ey]; cbn [negb] in *.
    + right. split; auto. intros ([->|H] & G); auto.
    + unfold zupd in *. destruct (Z.eqb_spec x y) as [Exy|Nx]. left. split; auto. subst y. split; cbn; auto. right. split; auto. intros ([->|H] & G); auto.
Qed.
Lemma becomes_twice : forall (P Q : Prop) (o n m : Z), (P -> o <> PGHOST) -> becomes P o n -> becomes (Q /\ n <> PGHOST) n m -> becomes ((P \/ Q) /\ o <> PGHOST) o m.
Proof.
  intros P Q o n m HP [(H1 & H2)|(H1 & H2)] [((H3 & H5) & H4)|(H3 & H4)]; unfold becomes, POVERLAP, PGHOST in *; subst.
  - left. split; auto.
  - left. split; auto.
  - left. split; auto.
  - right. split; auto. tauto.
Qed.
Lemma becomes_iff : forall (P Q : Prop) (o n : Z), (P <-> Q) -> becomes P o n -> becomes Q o n.
Proof. unfold becomes. tauto. Qed.

Lemma touches_iff : forall s vs, touches s vs = true <-> exists v, In v vs /\ (pv s v = PGHOST \/ pv s v = POVERLAP).
Proof. intros. unfold touches. rewrite existsb_exists. split; intros (v & H & E); exists v; (split; [auto|]); [rewrite orb_true_iff, !Z.eqb_eq in E|rewrite orb_true_iff, !Z.eqb_eq]; auto. Qed.

(** First pass, for either kind of element: [get]/[set] its label. *)
Lemma first_pass : forall (g : plabels -> ptr -> result plabels) (Q : ptr -> ptr -> Prop) (lab : plabels -> ptr -> Z) (same : plabels -> plabels -> Prop) l s,
  (forall s, same s s) -> (forall s1 s2 s3, same s1 s2 -> same s2 s3 -> same s1 s3) -> (forall s1 s2, same s1 s2 -> pv s1 = pv s2) ->
  (forall s x, In x l -> exists s', g s x = Ok s' /\ same s s' /\ (forall y, y <> x -> lab s' y = lab s y) /\
     becomes (exists v, Q x v /\ (pv s v = PGHOST \/ pv s v = POVERLAP)) (lab s x) (lab s' x)) ->
  exists s', foldM g s l = Ok s' /\ same s s' /\ forall x, becomes (In x l /\ exists v, Q x v /\ (pv s v = PGHOST \/ pv s v = POVERLAP)) (lab s x) (lab s' x).
Proof.
  intros g Q lab same. induction l as [|x l IH]; intros s S1 S2 S3 H; cbn [foldM].
  - exists s. split; auto. split; auto. intros x. right. split; auto. intros ([] & _).
  - destruct (H s x (or_introl eq_refl)) as (s1 & E1 & A1 & O1 & B1). rewrite E1. cbn [bind]. destruct (IH s1 S1 S2 S3) as (s2 & E2 & A2 & B2). intros; apply H; cbn; auto.
    exists s2. split; auto. split. eauto. intros y. specialize (B2 y). rewrite <- (S3 _ _ A1) in B2. destruct (Z.eq_dec y x) as [->|N].
    + destruct B2 as [((I2 & T2) & E)|(N2 & E)]. left. split; auto. split; cbn; auto. rewrite E. destruct B1 as [(T & E')|(T & E')]. left. split; auto. split; cbn; auto. right. split; auto. tauto.
    + rewrite (O1 y N) in B2. eapply becomes_iff; [|exact B2]. cbn. intuition congruence.
Qed.

(** Second pass, one kind of sub-entity at a time. *)
Lemma second_pass : forall (g : plabels -> ptr -> result plabels) (Q : ptr -> ptr -> Prop) (lab elab : plabels -> ptr -> Z) l s,
  (forall s x, In x l -> exists s', g s x = Ok s' /\ elab s' = elab s /\ forall y, becomes ((elab s x = POVERLAP /\ Q x y) /\ lab s y <> PGHOST) (lab s y) (lab s' y)) ->
  exists s', foldM g s l = Ok s' /\ elab s' = elab s /\ forall y, becomes ((exists x, In x l /\ elab s x = POVERLAP /\ Q x y) /\ lab s y <> PGHOST) (lab s y) (lab s' y).
Proof.
  intros g Q lab elab. induction l as [|x l IH]; intros s H; cbn [foldM].
  - exists s. split; auto. split; auto. intros y. right. split; auto. intros ((x & [] & _) & _).
  - destruct (H s x (or_introl eq_refl)) as (s1 & E1 & L1 & B1). rewrite E1. cbn [bind]. destruct (IH s1) as (s2 & E2 & L2 & B2). intros; apply H; cbn; auto.
    exists s2. split; auto. split. congruence. intros y. rewrite L1 in B2. pose proof (becomes_twice _ _ _ _ _ (fun h => proj2 h) (B1 y) (B2 y)) as B. eapply becomes_iff; [|exact B]. cbn [In]. split.
    + intros ([((H1 & H2) & _)|(z & H1 & H2)] & G); split; auto. exists x. auto. exists z. auto.
    + intros ((z & [->|H1] & H2) & G); split; auto. right. exists z. auto.
Qed.
Lemma becomes_not : forall (P : Prop) (o : Z), ~ P -> becomes P o o.
Proof. right. auto. Qed.
