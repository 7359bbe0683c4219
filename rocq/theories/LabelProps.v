(** C33: parallel labels. *)
From Coq Require Import ZArith List Lia Bool Arith ZifyBool ZifyNat Permutation.
From Verif Require Import Base BaseProofs ListSpec HashProofs AttModel AttProps ParModel ParProps TopoModel TopoSpec TopoProofs TopoProofs2 TopoProofs3 TopoProofs4 TopoProofs5 TopoProofs6 TopoProofs7 TopoProps TopoProps2 TopoProps3 ModProofs CellModel CellSpec CellProofs CellProofs2 CellProofs3 CellProofs4 CellProofs5 CellProofs6 CellProps LabelModel LabelProofs.
Import ListNotations.
Open Scope Z_scope.

(** ** Specification *)

Definition f_vertex a f v := exists e, has_edge a f e /\ is_end a e v.
(** An entity that other ranks know of. *)
Definition shared (p : Z) := p = PGHOST \/ p = POVERLAP.
(** A new label: POVERLAP if [P], else the old one. *)
Definition overlap_if (P : Prop) (old new : Z) : Prop := (P /\ new = POVERLAP) \/ (~ P /\ new = old).

(** ** Surface meshes *)

(** All labels afterwards: the faces that touch a shared vertex are POVERLAP, and
    so are the vertices and edges of the POVERLAP faces except ghosts; nothing
    else changes. *)
Theorem C33_face_labels : forall t a faces regions s, reach t a -> Forall (good_face a) faces -> exists s', MESH_LabelPType t faces regions 2 s = Ok s' /\
  (forall f, overlap_if (In f faces /\ exists v, f_vertex a f v /\ shared (pv s v)) (pf s f) (pf s' f)) /\
  (forall v, overlap_if ((exists f, In f faces /\ pf s' f = POVERLAP /\ f_vertex a f v) /\ pv s v <> PGHOST) (pv s v) (pv s' v)) /\
  (forall e, overlap_if ((exists f, In f faces /\ pf s' f = POVERLAP /\ has_edge a f e) /\ pe s e <> PGHOST) (pe s e) (pe s' e)) /\
  pr s' = pr s.
Proof.
  intros t a faces regions s R G. rewrite Forall_forall in G. unfold MESH_LabelPType, MESH_LabelPType_Face. cbn [Z.eqb Pos.eqb].
  destruct (first_pass (face_first t) (f_vertex a) pf (fun s1 s2 => pv s1 = pv s2 /\ pe s1 = pe s2 /\ pr s1 = pr s2) faces s) as (s1 & E1 & (A1 & A2 & A3) & B1).
  - auto.
  - intuition congruence.
  - tauto.
  - intros s0 f Hf. destruct (face_query t a f R (G f Hf)) as (vs & es & E1 & E2 & L1 & L2). unfold face_first. rewrite E1. cbn [bind]. eexists. split; [reflexivity|].
    destruct (touches s0 vs) eqn:T.
    + cbn [pv pe pr pf]. split; auto. split. intros y N. apply zupd_other; auto. rewrite zupd_same. left. split; auto. apply touches_iff in T. destruct T as (v & Hv & P). exists v. split; auto. apply L1; auto.
    + split; auto. split; auto. right. split; auto. intros (v & Hv & P). rewrite (proj2 (touches_iff s0 vs)) in T. discriminate. exists v. split; auto. apply L1; auto.
  - rewrite E1. cbn [bind].
    assert (ST : forall s0 f, In f faces -> exists s', face_second t s0 f = Ok s' /\ pf s' = pf s0 /\ pr s' = pr s0 /\
       (forall v, becomes ((pf s0 f = POVERLAP /\ f_vertex a f v) /\ pv s0 v <> PGHOST) (pv s0 v) (pv s' v)) /\ (forall e, becomes ((pf s0 f = POVERLAP /\ has_edge a f e) /\ pe s0 e <> PGHOST) (pe s0 e) (pe s' e))).
    { intros s0 f Hf. destruct (face_query t a f R (G f Hf)) as (vs & es & F1 & F2 & L1 & L2). unfold face_second. destruct (Z.eqb_spec (pf s0 f) POVERLAP) as [E|E]; cbn [negb].
      - rewrite F1. cbn [bind]. rewrite F2. cbn [bind]. eexists. split; [reflexivity|]. cbn [pv pe pf pr]. split; auto. split; auto. split; intros y; (eapply becomes_iff; [|apply raise_at]); rewrite ?L1, ?L2; unfold f_vertex; tauto.
      - exists s0. repeat split; auto; intros y; apply becomes_not; tauto. }
    destruct (second_pass (face_second t) (f_vertex a) pv pf faces s1) as (s2 & E2 & P2 & V2). { intros s0 f Hf. destruct (ST s0 f Hf) as (s' & H1 & H2 & _ & H3 & _). eauto. }
    destruct (second_pass (face_second t) (has_edge a) pe pf faces s1) as (s3 & E3 & P3 & V3). { intros s0 f Hf. destruct (ST s0 f Hf) as (s' & H1 & H2 & _ & _ & H3). eauto. }
    assert (s3 = s2) by congruence. subst s3. exists s2. split; auto. rewrite P2. split. exact B1. rewrite A1, A2. split. exact V2. split. exact V3.
    assert (PR : forall l s0 s', (forall f, In f l -> In f faces) -> foldM (face_second t) s0 l = Ok s' -> pr s' = pr s0).
    { induction l as [|f l IH]; intros s0 s' Hl E; cbn [foldM] in E. congruence. destruct (ST s0 f) as (s4 & E4 & _ & Q4 & _). apply Hl; cbn; auto. rewrite E4 in E. cbn [bind] in E. rewrite (IH _ _ (fun f h => Hl f (or_intror h)) E). auto. }
    rewrite (PR _ _ _ (fun f h => h) E2). auto.
Qed.
Print Assumptions C33_face_labels.

(** ** Volume meshes *)
Theorem C33_region_labels : forall t a faces regions s, reach t a -> Forall (known_region t a) regions -> exists s', MESH_LabelPType t faces regions 3 s = Ok s' /\
  (forall r, overlap_if (In r regions /\ exists v, r_vertex a r v /\ shared (pv s v)) (pr s r) (pr s' r)) /\
  (forall v, overlap_if ((exists r, In r regions /\ pr s' r = POVERLAP /\ r_vertex a r v) /\ pv s v <> PGHOST) (pv s v) (pv s' v)) /\
  (forall e, overlap_if ((exists r, In r regions /\ pr s' r = POVERLAP /\ r_edge a r e) /\ pe s e <> PGHOST) (pe s e) (pe s' e)) /\
  (forall f, overlap_if ((exists r, In r regions /\ pr s' r = POVERLAP /\ exists d, has_face a r f d) /\ pf s f <> PGHOST) (pf s f) (pf s' f)).
Proof.
  intros t a faces regions s R G. rewrite Forall_forall in G. unfold MESH_LabelPType, MESH_LabelPType_Region. cbn [Z.eqb Pos.eqb].
  destruct (first_pass (reg_first t) (r_vertex a) pr (fun s1 s2 => pv s1 = pv s2 /\ pe s1 = pe s2 /\ pf s1 = pf s2) regions s) as (s1 & E1 & (A1 & A2 & A3) & B1).
  - auto.
  - intuition congruence.
  - tauto.
  - intros s0 r Hr. destruct (region_query t a r R (G r Hr)) as (vs & es & fs & E1 & E2 & E3 & L1 & L2 & L3). unfold reg_first. rewrite E1. cbn [bind nn]. eexists. split; [reflexivity|]. destruct L1 as (_ & L1).
    destruct (touches s0 vs) eqn:T.
    + cbn [pv pe pr pf]. split; auto. split. intros y N. apply zupd_other; auto. rewrite zupd_same. left. split; auto. apply touches_iff in T. destruct T as (v & Hv & P). exists v. split; auto. apply L1; auto.
    + split; auto. split; auto. right. split; auto. intros (v & Hv & P). rewrite (proj2 (touches_iff s0 vs)) in T. discriminate. exists v. split; auto. apply L1; auto.
  - rewrite E1. cbn [bind].
    assert (ST : forall s0 r, In r regions -> exists s', reg_second t s0 r = Ok s' /\ pr s' = pr s0 /\
       (forall v, becomes ((pr s0 r = POVERLAP /\ r_vertex a r v) /\ pv s0 v <> PGHOST) (pv s0 v) (pv s' v)) /\ (forall e, becomes ((pr s0 r = POVERLAP /\ r_edge a r e) /\ pe s0 e <> PGHOST) (pe s0 e) (pe s' e)) /\
       (forall f, becomes ((pr s0 r = POVERLAP /\ exists d, has_face a r f d) /\ pf s0 f <> PGHOST) (pf s0 f) (pf s' f))).
    { intros s0 r Hr. destruct (region_query t a r R (G r Hr)) as (vs & es & fs & F1 & F2 & F3 & (_ & L1) & (_ & L2) & L3). unfold reg_second. destruct (Z.eqb_spec (pr s0 r) POVERLAP) as [E|E]; cbn [negb].
      - rewrite F1. cbn [bind nn]. rewrite F2. cbn [bind]. rewrite F3. cbn [bind]. eexists. split; [reflexivity|]. cbn [pv pe pf pr]. split; auto. split; [|split]; intros y; (eapply becomes_iff; [|apply raise_at]); rewrite ?L1, ?L2, ?L3; tauto.
      - exists s0. repeat split; auto; intros y; apply becomes_not; tauto. }
    destruct (second_pass (reg_second t) (r_vertex a) pv pr regions s1) as (s2 & E2 & P2 & V2). { intros s0 r Hr. destruct (ST s0 r Hr) as (s' & H1 & H2 & H3 & _ & _). eauto. }
    destruct (second_pass (reg_second t) (r_edge a) pe pr regions s1) as (s3 & E3 & P3 & V3). { intros s0 r Hr. destruct (ST s0 r Hr) as (s' & H1 & H2 & _ & H3 & _). eauto. }
    destruct (second_pass (reg_second t) (fun r f => exists d, has_face a r f d) pf pr regions s1) as (s4 & E4 & P4 & V4). { intros s0 r Hr. destruct (ST s0 r Hr) as (s' & H1 & H2 & _ & _ & H3). eauto. }
    assert (s3 = s2) by congruence. assert (s4 = s2) by congruence. subst s3 s4. exists s2. split; auto. rewrite P2. split. exact B1. rewrite A1, A2, A3. split. exact V2. split. exact V3. exact V4.
Qed.
Print Assumptions C33_region_labels.

(** ** The labels are closed *)

(** Shared entities have shared sub-entities. *)
Definition edges_closed a s := forall e v, shared (pe s e) -> is_end a e v -> shared (pv s v).
Definition faces_closed a s := forall f, shared (pf s f) -> (forall v, f_vertex a f v -> shared (pv s v)) /\ (forall e, has_edge a f e -> shared (pe s e)).
(** No shared entity becomes unshared and no ghost changes. *)
Definition grown (g g' : ptr -> Z) := forall x, (shared (g x) -> shared (g' x)) /\ (g x = PGHOST -> g' x = PGHOST) /\ (g' x = PGHOST -> g x = PGHOST).
Lemma overlap_grown : forall (P : ptr -> Prop) g g', (forall x, overlap_if (P x /\ g x <> PGHOST) (g x) (g' x)) -> grown g g'.
Proof. intros P g g' H x. destruct (H x) as [((_ & H1) & H2)|(_ & H2)]; rewrite H2; unfold shared, POVERLAP, PGHOST in *; repeat split; auto; lia. Qed.
Lemma overlap_shared : forall (P : Prop) o n, overlap_if (P /\ o <> PGHOST) o n -> P -> shared n.
Proof. intros P o n [(_ & H)|(H & ->)] HP; unfold shared; auto. left. destruct (Z.eq_dec o PGHOST); auto. tauto. Qed.
Lemma overlap_inv : forall (P : Prop) o n, overlap_if (P /\ o <> PGHOST) o n -> shared n -> P \/ shared o.
Proof. intros P o n [((HP & _) & H)|(H & ->)] HS; auto. Qed.

Theorem C33_face_closed : forall t a faces regions s s', reach t a -> Forall (good_face a) faces -> MESH_LabelPType t faces regions 2 s = Ok s' ->
  (forall f, In f faces -> pf s' f = POVERLAP -> (forall v, f_vertex a f v -> shared (pv s' v)) /\ (forall e, has_edge a f e -> shared (pe s' e))) /\
  grown (pv s) (pv s') /\ grown (pe s) (pe s') /\ (edges_closed a s -> edges_closed a s').
Proof.
  intros t a faces regions s s' R G E. destruct (C33_face_labels t a faces regions s R G) as (s2 & E2 & HF & HV & HE & _). assert (s2 = s') by congruence. subst s2.
  split; [|split; [|split]].
  - intros f Hf P. split; intros x Hx; [apply (overlap_shared _ _ _ (HV x))|apply (overlap_shared _ _ _ (HE x))]; exists f; auto.
  - eapply overlap_grown. intros x. apply (HV x).
  - eapply overlap_grown. intros x. apply (HE x).
  - intros C e v HS Hv. destruct (overlap_inv _ _ _ (HE e) HS) as [(f & Hf & P & Hx)|H].
    + apply (overlap_shared _ _ _ (HV v)). exists f. split; auto. split; auto. exists e. auto.
    + apply (overlap_grown _ _ _ HV v). eapply C; eauto.
Qed.
Print Assumptions C33_face_closed.

Theorem C33_region_closed : forall t a faces regions s s', reach t a -> Forall (known_region t a) regions -> MESH_LabelPType t faces regions 3 s = Ok s' ->
  (forall r, In r regions -> pr s' r = POVERLAP -> (forall v, r_vertex a r v -> shared (pv s' v)) /\ (forall e, r_edge a r e -> shared (pe s' e)) /\ (forall f d, has_face a r f d -> shared (pf s' f))) /\
  grown (pv s) (pv s') /\ grown (pe s) (pe s') /\ grown (pf s) (pf s') /\ (edges_closed a s -> edges_closed a s') /\ (faces_closed a s -> faces_closed a s').
Proof.
  intros t a faces regions s s' R G E. destruct (C33_region_labels t a faces regions s R G) as (s2 & E2 & HR & HV & HE & HF). assert (s2 = s') by congruence. subst s2.
  split; [|split; [|split; [|split; [|split]]]].
  - intros r Hr P. split; [|split].
    + intros x Hx. apply (overlap_shared _ _ _ (HV x)). exists r; auto.
    + intros x Hx. apply (overlap_shared _ _ _ (HE x)). exists r; auto.
    + intros x d Hx. apply (overlap_shared _ _ _ (HF x)). exists r; eauto.
  - eapply overlap_grown. intros x. apply (HV x).
  - eapply overlap_grown. intros x. apply (HE x).
  - eapply overlap_grown. intros x. apply (HF x).
  - intros C e v HS Hv. destruct (overlap_inv _ _ _ (HE e) HS) as [(r & Hr & P & Hx)|H].
    + apply (overlap_shared _ _ _ (HV v)). exists r. split; auto. split; auto. exists e. auto.
    + apply (overlap_grown _ _ _ HV v). eapply C; eauto.
  - intros C f HS. destruct (overlap_inv _ _ _ (HF f) HS) as [(r & Hr & P & d & Hx)|H].
    + split.
      * intros v (e & He & Hv). apply (overlap_shared _ _ _ (HV v)). exists r. split; auto. split; auto. exists e. split; auto. exists f, d. auto.
      * intros e He. apply (overlap_shared _ _ _ (HE e)). exists r. split; auto. split; auto. exists f, d. auto.
    + destruct (C f H) as (C1 & C2). split; intros x Hx. apply (overlap_grown _ _ _ HV x). auto. apply (overlap_grown _ _ _ HE x). auto.
Qed.
Print Assumptions C33_region_closed.

(** ** Examples: vertex 12 of the four cells is a ghost *)
Definition none : ptr -> Z := fun _ => PINTERIOR.
Definition ghost12 := mkP (zupd none 12 PGHOST) none none none.
Definition sample (s : plabels) : list (list Z) := let ks := map Z.of_nat (seq 1 57) in
  map (fun g => filter (fun k => g k =? POVERLAP) ks) [pv s; pe s; pf s; pr s].
Definition labelled (r : result plabels) := match r with Ok s => s | _ => ghost12 end.
Lemma T6_known : Forall (known_region T6 A6) [54; 55; 56; 57].
Proof.
  destruct C39_cells_ex as (H1 & H2 & H3 & H4).
  assert (K : forall r b s ws, In (r, b) [(54, b54); (55, b55); (56, b56); (57, b57)] -> In s std -> cell A6 s b ws /\ chordless A6 b ws -> known_region T6 A6 r).
  { intros r b s ws Hi Hs (C & CH). destruct (T6_typed r b Hi) as (Hr & HT). exists b. split; auto. split. intros ->. cbn in Hi. intuition discriminate. split; auto. left. eauto 10. }
  constructor. apply (K 54 b54 hexahedron [1; 2; 3; 4; 5; 6; 7; 8]); auto; cbn; auto.
  constructor. apply (K 55 b55 pyramid [5; 6; 7; 8; 9]); auto; cbn; auto.
  constructor. apply (K 56 b56 prism [1; 5; 10; 2; 6; 11]); auto; cbn; auto.
  constructor. apply (K 57 b57 tetrahedron [1; 10; 5; 12]); auto; cbn; auto. constructor.
Qed.
Example C33_region_ex : reach T6 A6 /\ Forall (known_region T6 A6) [54; 55; 56; 57] /\ edges_closed A6 ghost12 /\ faces_closed A6 ghost12 /\
  match MESH_LabelPType T6 [] [54; 55; 56; 57] 3 ghost12 with
  | Ok s => sample s = [[1; 5; 10]; [24; 39; 45; 48; 49; 51]; [46; 50; 52; 53]; [57]] /\ pv s 12 = PGHOST | _ => False end.
Proof.
  split. exact T6_reach. split. exact T6_known. split. intros e v [H|H]; discriminate H. split. intros f [H|H]; discriminate H. vm_compute. auto.
Qed.
Definition faces6 := [17; 21; 25; 28; 42; 44; 50; 52].
Definition goodfb a f : bool := match a_f a f with Some (true, Some fb) => pathb a (vat a (hd dflt fb)) fb (vat a (hd dflt fb)) && (length (nodup Z.eq_dec (stops a fb)) =? length (stops a fb))%nat | _ => false end.
Lemma goodfb_ok : forall a f, goodfb a f = true -> good_face a f.
Proof.
  intros a f H. unfold goodfb in H. destruct (a_f a f) as [[[] [fb|]]|] eqn:E; try discriminate. rewrite andb_true_iff in H. destruct H as (H1 & H2). apply pathb_ok in H1. exists fb. eexists. split; [exact E|]. split; [exact H1|].
  apply Nat.eqb_eq in H2. apply NoDup_incl_NoDup with (l := nodup Z.eq_dec (stops a fb)). apply NoDup_nodup. lia. intros x Hx. apply nodup_In in Hx. auto.
Qed.
Lemma faces6_good : Forall (good_face A6) faces6.
Proof. assert (H : forallb (goodfb A6) faces6 = true) by (vm_compute; reflexivity). rewrite forallb_forall in H. apply Forall_forall. intros f Hf. apply goodfb_ok. auto. Qed.
Example C33_face_ex : reach T6 A6 /\ Forall (good_face A6) faces6 /\ edges_closed A6 ghost12 /\
  match MESH_LabelPType T6 faces6 [] 2 ghost12 with
  | Ok s => sample s = [[1; 5; 10]; [24; 39; 48; 49; 51]; [50; 52]; []] /\ pv s 12 = PGHOST | _ => False end.
Proof. split. exact T6_reach. split. exact faces6_good. split. intros e v [H|H]; discriminate H. vm_compute. auto. Qed.

(** ** What does not hold *)

(** An element labelled as a ghost becomes POVERLAP, although ghost vertices,
    edges and faces stay ghosts. *)
Theorem C33_ghost_element_refuted : exists t a regions s s' r, reach t a /\ Forall (known_region t a) regions /\ In r regions /\ faces_closed a s /\ edges_closed a s /\
  pr s r = PGHOST /\ (forall v, r_vertex a r v -> pv s v = PGHOST) /\ MESH_LabelPType t [] regions 3 s = Ok s' /\ pr s' r = POVERLAP.
Proof.
  exists T6, A6, [54; 55; 56; 57], (mkP (fun _ => PGHOST) none none (zupd none 57 PGHOST)). eexists. exists 57.
  split. exact T6_reach. split. exact T6_known. split. cbn; auto. split. intros f [H|H]; discriminate H. split. intros e v [H|H]; discriminate H. split. reflexivity. split. reflexivity.
  split. vm_compute. reflexivity. vm_compute. reflexivity.
Qed.
Print Assumptions C33_ghost_element_refuted.

(** The labels are not a fixed point: after the call there are elements with a
    POVERLAP vertex that are not POVERLAP, and calling again adds a layer. *)
Theorem C33_again_refuted : exists t a regions s s' s'' r v, reach t a /\ Forall (known_region t a) regions /\ In r regions /\ faces_closed a s /\ edges_closed a s /\
  MESH_LabelPType t [] regions 3 s = Ok s' /\ MESH_LabelPType t [] regions 3 s' = Ok s'' /\ r_vertex a r v /\ pv s' v = POVERLAP /\ pr s' r = PINTERIOR /\ pr s'' r = POVERLAP.
Proof.
  exists T6, A6, [54; 55; 56; 57], ghost12. eexists. eexists. exists 54, 5.
  split. exact T6_reach. split. exact T6_known. split. cbn; auto. split. intros f [H|H]; discriminate H. split. intros e v [H|H]; discriminate H.
  split. vm_compute. reflexivity. split. vm_compute. reflexivity.
  split. { exists 24. split. exists 1, 5. split. vm_compute. reflexivity. auto. exists 25, true. split. eexists. split. vm_compute. reflexivity. cbn. auto. eexists. split. vm_compute. reflexivity. cbn. auto. }
  split. vm_compute. reflexivity. split; vm_compute; reflexivity.
Qed.
Print Assumptions C33_again_refuted.
