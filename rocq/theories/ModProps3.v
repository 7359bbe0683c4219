(** C40: merging vertices, edges and faces. *)
From Coq Require Import ZArith List Lia Bool Arith ZifyBool ZifyNat Permutation.
From Verif Require Import Base BaseProofs ListSpec ParModel ParProps AttModel AttProps TopoModel TopoSpec TopoProofs TopoProofs2 TopoProofs3 TopoProofs4 TopoProofs5 TopoProofs6 TopoProofs7 TopoProps TopoProps2 ModModel ModProofs ModProofs2 ModProofs3 ModProps ModProps2.
Import ListNotations.
Open Scope Z_scope.

Definition vert_is (t : topo) (v : ptr) (live : bool) : Prop := option_map v_live (tvs t v) = Some live.

(** ** Vertices *)

(** Every edge that ended at [v2] ends at [v1] instead; nothing else changes, no
    edge and no set refers to [v2] any more. *)
Theorem C40_vertices : forall cls t a sets v1 v2 flag, reach t a -> vert_is t v1 true -> vert_is t v2 true -> v1 <> v2 -> (forall e, ~ edge_is t e v2 v2) -> Forall (@NoDup ptr) sets ->
  (flag = true -> cls v1 = cls v2) ->
  exists t' sets', MVs_Merge cls t sets v1 v2 flag = Ok (t', sets', v1) /\
    (forall e p q, edge_is t e p q -> edge_is t' e (moved v2 v1 p) (moved v2 v1 q)) /\
    (forall e p q, edge_is t' e p q -> p <> v2 /\ q <> v2 /\ exists p0 q0, edge_is t e p0 q0) /\
    (forall v, option_map v_live (tvs t' v) = if v =? v2 then Some false else option_map v_live (tvs t v)) /\
    (forall f b, face_is t' f b <-> face_is t f b) /\ (forall r b, reg_is t' r b <-> reg_is t r b) /\
    Forall2 (merged_set v2 v1) sets sets' /\ mutual t' /\ sound t' /\ exists a', reach t' a'.
Proof.
  intros cls t a sets v1 v2 flag R H1 H2 Hne HD HS HC. pose proof (reach_inv _ _ R) as I. pose proof (i_w _ _ I) as W. unfold vert_is in *. rewrite (i_v _ _ I) in H1, H2.
  assert (Hn : v2 <> NULL). { pose proof (w_v _ W v2 ltac:(congruence)). unfold NULL. lia. }
  destruct (C26_vertex_edges t a v2 R ltac:(congruence)) as (o & E & A). set (l := match o with Some l => l | None => [] end).
  assert (LL : lists l (fun e => is_end a e v2)). { unfold l. destruct o; [exact (proj2 A)|]. split. constructor. intros x. split; [intros []|]. intros Hx. destruct (A x Hx). }
  destruct LL as [NL HL].
  assert (HD' : forall e, a_e a e <> Some (true, (v2, v2))). { intros e He. apply (edge_is_iff _ _ _ _ _ I) in He. apply (HD e He). }
  destruct (replace_vertex_edges v1 v2 Hne Hn l t a R H1 NL) as (t1 & a1 & E1 & R1 & A1 & A2 & A3 & A4 & A5); auto.
  { intros e He. apply HL. auto. } { intros e p He Hp. apply HL in He. destruct He as (x & y & Hxy & Hv). rewrite Hp in Hxy. inversion Hxy; subst. apply (HD' e). destruct Hv; subst; auto. }
  assert (Old : forall e p q, a_e a e = Some (true, (p, q)) -> a_e a1 e = Some (true, (moved v2 v1 p, moved v2 v1 q))).
  { intros e p q He. rewrite A5, He. destruct (mem e l) eqn:Em; auto. apply not_true_iff_false in Em. rewrite mem_In, HL in Em. unfold moved. destruct (Z.eqb_spec p v2) as [->|]. destruct Em. exists v2, q. auto. destruct (Z.eqb_spec q v2) as [->|]; auto. destruct Em. exists p, v2. auto. }
  assert (New : forall e p q, a_e a1 e = Some (true, (p, q)) -> p <> v2 /\ q <> v2 /\ exists p0 q0, a_e a e = Some (true, (p0, q0))).
  { intros e p q He. destruct (a_e a e) as [[l0 [p0 q0]]|] eqn:E0; [destruct l0|].
    - rewrite (Old e p0 q0 E0) in He. inversion He. unfold moved. split. destruct (Z.eqb_spec p0 v2); congruence. split. destruct (Z.eqb_spec q0 v2); congruence. eauto.
    - rewrite A5, E0 in He. destruct (mem e l); discriminate.
    - rewrite A5, E0 in He. destruct (mem e l); discriminate. }
  destruct (reach_step t1 a1 (TDelV v2 true) R1) as (t2 & E2 & R2). { cbn [tpre]. split. congruence. intros _ e (p & q & He & Hv). apply New in He. destruct He as (N1 & N2 & _). destruct Hv; congruence. }
  cbn [tstep] in E2. pose proof (reach_inv _ _ R2) as I2. exists t2, (merge_in_sets sets v2 v1).
  split. { unfold MVs_Merge. replace (flag && _) with false. 2: { symmetry. destruct flag; auto. rewrite HC by auto. rewrite !Z.eqb_refl. auto. } rewrite E. cbn [bind]. replace (match o with None => _ | Some fs0 => _ end) with (Ok t1) by (rewrite <- E1; unfold l; destruct o; auto). cbn [bind]. rewrite E2. auto. }
  split. { intros e p q He. apply (edge_is_iff _ _ _ _ _ I) in He. apply (edge_is_iff _ _ _ _ _ I2). cbn [astep]. ra. auto. }
  split. { intros e p q He. apply (edge_is_iff _ _ _ _ _ I2) in He. cbn [astep with_v a_e] in He. apply New in He. destruct He as (N1 & N2 & p0 & q0 & He). split; auto. split; auto. exists p0, q0. apply (edge_is_iff _ _ _ _ _ I). auto. }
  split. { intros v. rewrite (i_v _ _ I), (i_v _ _ I2). cbn [astep]. ra. unfold upd. destruct (Z.eqb_spec v v2) as [->|]; rewrite A1; auto. rewrite H2. auto. }
  split. { intros f b. rewrite <- (face_is_iff _ _ _ _ I), <- (face_is_iff _ _ _ _ I2). cbn [astep]. ra. rewrite A2. tauto. }
  split. { intros f b. rewrite <- (reg_is_iff _ _ _ _ I), <- (reg_is_iff _ _ _ _ I2). cbn [astep]. ra. rewrite A3. tauto. }
  split. { apply merge_sets_ok; auto. } split. eapply inv_mutual; eauto. split. eapply inv_sound; eauto. eauto.
Qed.
Print Assumptions C40_vertices.
(** Refused merges change nothing. *)
Theorem C40_vertices_refused : forall cls t sets v1 v2, cls v1 <> cls v2 -> MVs_Merge cls t sets v1 v2 true = Ok (t, sets, NULL).
Proof. intros cls t sets v1 v2 H. unfold MVs_Merge. destruct (cls v1) as [d1 i1], (cls v2) as [d2 i2]. cbn [fst snd]. destruct (Z.eqb_spec i1 i2), (Z.eqb_spec d1 d2); cbn; auto. congruence. Qed.
Example C40_vertices_ex : exists a, reach T0 a /\ vert_is T0 4 true /\ vert_is T0 5 true /\ (forall e, ~ edge_is T0 e 5 5) /\
  okt (MVs_Merge (fun _ => (3, 1)) T0 [[1; 5]; [4; 5; 2]; [3]] 4 5 true) (fun x => edge_is (fst (fst x)) 12 2 4 /\ edge_is (fst (fst x)) 14 4 4 /\ snd (fst x) = [[1; 4]; [4; 2]; [3]]).
Proof.
  exists (arun amesh0 tets). split. exact T0_reach. split. vm_compute; auto. split. vm_compute; auto. split. { intros e. apply (no_edge_ok T0 _ 5 5 T0_reach). vm_compute. reflexivity. }
  vm_compute. split. eexists; auto. split; [eexists; auto|auto].
Qed.

(** ** Edges *)

(** [e2] joins [p] and [q], [e1] the same ones in the same or the opposite sense:
    every face that used [e2] uses [e1] instead, in the direction that keeps its
    loop. *)
Theorem C40_edges : forall cls t a sets e1 e2 p q (s : bool) flag, reach t a -> edge_is t e2 p q -> p <> q -> (if s then edge_is t e1 p q else edge_is t e1 q p) -> e1 <> e2 ->
  (forall f b, face_is t f b -> In e2 (map fst b) -> ~ In e1 (map fst b)) -> Forall (@NoDup ptr) sets ->
  (flag = true -> cls e1 = cls e2 \/ fst (cls e1) < fst (cls e2)) ->
  exists t' sets', MEs_Merge cls t sets e1 e2 flag = Ok (t', sets', e1) /\
    (forall f b1 d b2, face_is t f (b1 ++ (e2, d) :: b2) -> face_is t' f (b1 ++ (e1, if s then d else negb d) :: b2)) /\
    (forall f b, face_is t f b -> ~ In e2 (map fst b) -> face_is t' f b) /\
    (forall f b, face_is t f b -> forall u, leads t u b u -> exists b', face_is t' f b' /\ leads t' u b' u) /\
    (forall f b, face_is t' f b -> ~ In e2 (map fst b) /\ exists b0, face_is t f b0) /\
    (forall g x y, g <> e2 -> (edge_is t' g x y <-> edge_is t g x y)) /\ (exists x, tes t' e2 = Some x /\ e_live x = false) /\
    (forall v, option_map v_live (tvs t' v) = option_map v_live (tvs t v)) /\ (forall r b, reg_is t' r b <-> reg_is t r b) /\
    (forall g, g <> e2 -> option_map e_live (tes t' g) = option_map e_live (tes t g)) /\ (forall f, option_map f_live (tfs t' f) = option_map f_live (tfs t f)) /\ (forall r, option_map r_live (trs t' r) = option_map r_live (trs t r)) /\
    Forall2 (merged_set e2 e1) sets sets' /\ mutual t' /\ sound t' /\ exists a', reach t' a'.
Proof.
  intros cls t a sets e1 e2 p q s flag R H2 Hpq H1 Hne HB HS HC. pose proof (reach_inv _ _ R) as I. pose proof (i_w _ _ I) as W. apply (edge_is_iff _ _ _ _ _ I) in H2.
  assert (H1' : exists p' q', a_e a e1 = Some (true, (p', q')) /\ (if s then p' = p /\ q' = q else p' = q /\ q' = p)). { destruct s; apply (edge_is_iff _ _ _ _ _ I) in H1; eauto. }
  destruct H1' as (p' & q' & H1' & Hs). clear H1.
  destruct (C26_edge_faces t a e2 R ltac:(congruence)) as (o & E & A). set (l := match o with Some l => l | None => [] end).
  assert (LL : lists l (fun f => has_edge a f e2)). { unfold l. destruct o; [exact (proj2 A)|]. split. constructor. intros x. split; [intros []|]. intros Hx. destruct (A x Hx). }
  destruct LL as [NL HL].
  destruct (rename_faces e2 e1 p q p' q' s Hpq Hs l t a R H2 H1' NL) as (t1 & a1 & E1 & R1 & A1 & A2 & A3 & A4 & A5).
  { intros f Hf. apply HL. auto. } { intros f b Hf Hb. apply HL in Hf. destruct Hf as (b' & Hb' & Hi). rewrite Hb in Hb'. inversion Hb'; subst b'. apply (HB f b); auto. apply (face_is_iff _ _ _ _ I). auto. }
  assert (Old : forall f b, a_f a f = Some (true, Some b) -> a_f a1 f = Some (true, Some (rename e2 e1 s b))).
  { intros f b Hb. rewrite A5, Hb. destruct (mem f l) eqn:Em; auto. rewrite rename_out; auto. intros Hi. apply not_true_iff_false in Em. rewrite mem_In, HL in Em. apply Em. exists b. auto. }
  assert (New : forall f b, a_f a1 f = Some (true, Some b) -> exists b0, a_f a f = Some (true, Some b0) /\ b = rename e2 e1 s b0).
  { intros f b Hb. destruct (a_f a f) as [[l0 [b0|]]|] eqn:E0; [destruct l0| |].
    - rewrite (Old f b0 E0) in Hb. inversion Hb. eauto.
    - rewrite A5, E0 in Hb. destruct (mem f l); discriminate.
    - rewrite A5, E0 in Hb. destruct (mem f l); discriminate.
    - rewrite A5, E0 in Hb. destruct (mem f l); discriminate. }
  destruct (reach_step t1 a1 (TDelE e2 true) R1) as (t2 & E2 & R2). { cbn [tpre]. split. congruence. intros _ f (b & Hb & Hi). apply New in Hb. destruct Hb as (b0 & _ & ->). apply (rename_not_in e2 e1 s b0); auto. }
  cbn [tstep] in E2. pose proof (reach_inv _ _ R2) as I2. exists t2, (merge_in_sets sets e2 e1).
  assert (Ke : forall g, g <> e2 -> a_e (astep a1 (TDelE e2 true)) g = a_e a g). { intros g Hg. cbn [astep]. ra. unfold kill. rewrite upd_other by auto. congruence. }
  assert (Kf : a_f (astep a1 (TDelE e2 true)) = a_f a1) by reflexivity.
  split.
  { destruct (get_e t a e1 I ltac:(congruence)) as (x1 & Ex1 & Ax1). destruct (get_e t a e2 I ltac:(congruence)) as (x2 & Ex2 & Ax2). rewrite H1' in Ax1. rewrite H2 in Ax2. unfold eview in Ax1, Ax2. inversion Ax1 as [[B1 B2 B3]]. inversion Ax2 as [[C1 C2 C3]].
    unfold MEs_Merge. replace (negb (cls_ok cls e1 e2 flag)) with false. 2: { symmetry. unfold cls_ok. destruct flag; auto. cbn [negb orb]. destruct (HC eq_refl) as [HH|HH]. rewrite HH, !Z.eqb_refl. auto. destruct (Z.eqb_spec (fst (cls e1)) (fst (cls e2))). lia. destruct (Z.ltb_spec (fst (cls e2)) (fst (cls e1))); auto. lia. }
    unfold ME_Vertex, gete. rewrite Ex1, Ex2. cbn [bind]. change (0 =? 0) with true. change (1 =? 0) with false. change (1 =? 1) with true. cbn [bind]. rewrite <- B2, <- B3, <- C2, <- C3.
    replace ((negb (p' =? p) && negb (p' =? q)) || (negb (q' =? p) && negb (q' =? q))) with false. 2: { destruct s, Hs as [-> ->]; rewrite !Z.eqb_refl; cbn; rewrite ?andb_false_r; auto. }
    rewrite E. cbn [bind]. replace (match o with None => _ | Some fs0 => _ end) with (Ok t1) by (rewrite <- E1; unfold l; destruct o; auto). cbn [bind]. rewrite E2. auto. }
  split. { intros f b1 d b2 Hb. apply (face_is_iff _ _ _ _ I) in Hb. apply (face_is_iff _ _ _ _ I2). rewrite Kf, (Old _ _ Hb). rewrite rename_mid; auto. apply (w_fnd _ W _ _ _ Hb). }
  split. { intros f b Hb Hn. apply (face_is_iff _ _ _ _ I) in Hb. apply (face_is_iff _ _ _ _ I2). rewrite Kf, (Old _ _ Hb). rewrite rename_out; auto. }
  split. { intros f b Hb u Hu. apply (face_is_iff _ _ _ _ I) in Hb. apply (leads_path _ _ _ _ _ I) in Hu. exists (rename e2 e1 s b). split. apply (face_is_iff _ _ _ _ I2). rewrite Kf. auto. apply (leads_path _ _ _ _ _ I2).
    eapply rename_path with (a := a); eauto. rewrite Ke by auto. eauto. }
  split. { intros f b Hb. apply (face_is_iff _ _ _ _ I2) in Hb. rewrite Kf in Hb. apply New in Hb. destruct Hb as (b0 & Hb & ->). split. apply rename_not_in. auto. exists b0. apply (face_is_iff _ _ _ _ I). auto. }
  split. { intros g x y Hg. rewrite <- (edge_is_iff _ _ _ _ _ I), <- (edge_is_iff _ _ _ _ _ I2). rewrite Ke by auto. tauto. }
  split. { pose proof (i_e _ _ I2 e2) as HH. cbn [astep with_e a_e] in HH. unfold kill in HH. rewrite upd_same, A2, H2 in HH. destruct (tes t2 e2) as [x|]; [|discriminate]. exists x. split; auto. cbn in HH. unfold eview in HH. congruence. }
  split. { intros v. rewrite (i_v _ _ I), (i_v _ _ I2). cbn [astep]. ra. congruence. }
  split. { intros f b. rewrite <- (reg_is_iff _ _ _ _ I), <- (reg_is_iff _ _ _ _ I2). cbn [astep]. ra. rewrite A3. tauto. }
  split. { intros g Hg. pose proof (i_e _ _ I g) as X. pose proof (i_e _ _ I2 g) as Y. rewrite Ke in Y by auto. destruct (tes t g), (tes t2 g); cbn in *; unfold eview in *; congruence. }
  split. { intros f. pose proof (i_f _ _ I f) as X. pose proof (i_f _ _ I2 f) as Y. rewrite Kf, A5 in Y. destruct (tfs t f), (tfs t2 f), (mem f l), (a_f a f) as [[l0 [b0|]]|]; cbn in *; unfold fview in *; congruence. }
  split. { intros r. pose proof (i_r _ _ I r) as X. pose proof (i_r _ _ I2 r) as Y. cbn [astep with_e a_r] in Y. rewrite A3 in Y. destruct (trs t r), (trs t2 r); cbn in *; unfold rview in *; congruence. }
  split. { apply merge_sets_ok; auto. } split. eapply inv_mutual; eauto. split. eapply inv_sound; eauto. eauto.
Qed.
Print Assumptions C40_edges.

(** Edges with other ends are not merged. *)
Theorem C40_edges_refused : forall cls t sets e1 e2 flag p1 q1 p2 q2, edge_is t e1 p1 q1 -> edge_is t e2 p2 q2 -> p1 <> q1 -> ~ (p1 = p2 /\ q1 = q2) -> ~ (p1 = q2 /\ q1 = p2) ->
  MEs_Merge cls t sets e1 e2 flag = Ok (t, sets, NULL).
Proof.
  intros cls t sets e1 e2 flag p1 q1 p2 q2 (x1 & E1 & _ & B1 & B2) (x2 & E2 & _ & C1 & C2) Hn N1 N2. unfold MEs_Merge. destruct (negb (cls_ok cls e1 e2 flag)); auto. unfold ME_Vertex, gete. rewrite E1, E2. cbn [bind]. change (0 =? 0) with true. change (1 =? 0) with false. change (1 =? 1) with true. cbn [bind].
  rewrite B1, B2, C1, C2. replace ((negb (p1 =? p2) && negb (p1 =? q2)) || (negb (q1 =? p2) && negb (q1 =? q2))) with true; auto. symmetry. lia.
Qed.

(** ** Faces *)

(** [f2] has the edges of [f1], in the same or the opposite sense: every region that
    used [f2] uses [f1] in its place, with the direction turned if necessary. *)
Theorem C40_faces : forall cls t a sets f1 f2 b1 b2 vs (s : bool) flag, reach t a -> face_is t f1 b1 -> face_is t f2 b2 -> f1 <> f2 -> loop t b1 vs -> NoDup vs -> ~ In NULL vs -> b1 <> [] ->
  rotation (if s then b1 else turned b1) b2 ->
  (forall r c, reg_is t r c -> In f2 (map fst c) -> ~ In f1 (map fst c)) ->
  (forall r c d q c', reg_is t r c -> In (f2, d) c -> reg_is t q c' -> ~ In (f1, if s then d else negb d) c') -> Forall (@NoDup ptr) sets ->
  (flag = true -> cls f1 = cls f2 \/ fst (cls f1) < fst (cls f2)) ->
  exists t' sets', MFs_Merge cls t sets f1 f2 flag = Ok (t', sets', f1) /\
    (forall r c1 d c2, reg_is t r (c1 ++ (f2, d) :: c2) -> reg_is t' r (c1 ++ (f1, if s then d else negb d) :: c2)) /\
    (forall r c, reg_is t r c -> ~ In f2 (map fst c) -> reg_is t' r c) /\
    (forall r c, reg_is t' r c -> ~ In f2 (map fst c) /\ exists c0, reg_is t r c0) /\
    (forall f b, f <> f2 -> (face_is t' f b <-> face_is t f b)) /\ (exists x, tfs t' f2 = Some x /\ f_live x = false) /\
    (forall g x y, edge_is t' g x y <-> edge_is t g x y) /\
    (forall v, option_map v_live (tvs t' v) = option_map v_live (tvs t v)) /\
    Forall2 (merged_set f2 f1) sets sets' /\ mutual t' /\ sound t' /\ exists a', reach t' a'.
Proof.
  intros cls t a sets f1 f2 b1 b2 vs s flag R H1 H2 Hne (u & HL) ND NN Hb1 HR HB HF HS HC. pose proof (reach_inv _ _ R) as I. pose proof (i_w _ _ I) as W. apply (face_is_iff _ _ _ _ I) in H1. apply (face_is_iff _ _ _ _ I) in H2.
  apply (corners_iff _ _ _ _ _ _ I) in HL. destruct HL as [HP Evs]. destruct (w_fnd _ W _ _ _ H1) as [Nb1 _].
  pose proof (path_edge_ok _ _ _ _ HP) as EO.
  (* start of the loop *)
  assert (Eu : map (vat a) b1 = u :: tl (map (vat a) b1)). { clear - HP Hb1. destruct b1 as [|[g d] c]; [congruence|]. cbn [map tl path] in *. f_equal. destruct HP as (x & Hx & _ & Hu & _). unfold vat. cbn [fst snd]. rewrite Hx. auto. }
  assert (Nu : u <> NULL). { intros ->. apply NN. rewrite Evs, Eu. cbn; auto. }
  set (x := if s then b1 else turned b1) in *.
  assert (Ex : map (vat a) x = u :: (if s then tl (map (vat a) b1) else rev (tl (map (vat a) b1)))). { unfold x. destruct s; auto. rewrite (turned_start _ _ _ HP). destruct b1; [congruence|]. auto. }
  assert (Nx : NoDup (map (vat a) x)). { rewrite Ex. rewrite Evs, Eu in ND. inversion ND as [|? ? M1 M2]; subst. constructor. destruct s; rewrite <- ?in_rev; auto. destruct s; auto. apply NoDup_rev. auto. }
  assert (Lx : length x = length b1) by (unfold x; destruct s; auto; apply turned_length).
  assert (Nxn : x <> []) by (intros HH; rewrite HH in Lx; destruct b1; [congruence|discriminate]).
  (* loop of f2 *)
  assert (P2 : exists u2, path a u2 b2 u2).
  { assert (Px : path a u x u). { unfold x. destruct s; auto. clear - HP. assert (G : forall b v w, path a v b w -> path a w (turned b) v).
      { induction b as [|[e d] b IH]; intros v w H; cbn [path] in H. cbn. auto. destruct H as (y & Hy & Hn & Hs & H). unfold turned. cbn [map rev]. apply path_app. exists (d_end y d). split. apply IH. auto. cbn [path fst snd]. exists y. split; auto. split; auto. destruct d; cbn in *; auto. }
      auto. }
    destruct HR as (c1 & c2 & E1 & E2). rewrite E1 in Px. apply path_app in Px. destruct Px as (w & Q1 & Q2). exists w. rewrite E2. apply path_app. eauto. }
  destruct P2 as (u2 & HP2). destruct (C23_face_loop t a f2 b2 u2 true u R H2 HP2) as (_ & C23 & _). cbn [b2z walk] in C23.
  destruct (C23 Nu) as (c & vs2 & Rc & _ & ME2 & Ar & Hh).
  { assert (Hi : In u (map (vat a) b2)). { eapply Permutation_in. apply Permutation_map. apply rotation_perm. exact HR. rewrite Ex. cbn; auto. } apply in_map_iff in Hi. destruct Hi as ([g d] & Hg & Hi). exists g, d. split; auto. pose proof (path_edge_ok _ _ _ _ HP2) as EO2. rewrite Forall_forall in EO2. destruct (EO2 _ Hi) as ([y1 y2] & Hy). cbn in Hy. exists y1, y2. split; auto. unfold vat in Hg. cbn [fst snd] in Hg. rewrite Hy in Hg. destruct d; cbn in Hg; auto. }
  assert (Ec : c = x).
  { symmetry. assert (Rxc : rotation x c) by (eapply rotation_trans; eauto). apply (rot_same _ _ (vat a) x c dflt); auto. apply around_vat in Ar. destruct x as [|x0 x']; [congruence|]. cbn [map hd] in *. inversion Ex as [[Ex1 Ex2]]. rewrite Ex1.
    destruct c as [|c0 c']. { apply rotation_perm in Rxc. apply Permutation_length in Rxc. discriminate. } subst vs2. cbn in *. auto. }
  subst c.
  assert (ME1 : MF_Edges t f1 1 NULL = Ok (map fst b1)) by (apply (face_edges_query t a f1 b1 true I H1)).
  (* regions *)
  destruct (C26_face_regions t a f2 R) as (rs & ERs & (NRs & HRs)). congruence.
  set (nus := fun d : bool => [(f1, if s then d else negb d)]).
  destruct (exchange_faces f2 nus (fun t reg => f2dir <- MR_FaceDir t reg f2 ;; MR_Replace_Faces t reg [f2] [f1] [if s then f2dir else lnot f2dir])) with (rs := rs) (t := t) (a := a) as (t1 & a1 & E1 & R1 & A1 & A2 & A3 & A4 & A5); auto.
  { intros t' r d Hd. rewrite Hd. cbn [bind]. unfold nus. cbn [map fst snd dirz]. f_equal. destruct s, d; auto. }
  { intros d. unfold nus. cbn. split. discriminate. split. constructor; [intros []|constructor]. intros [|[]]; auto. }
  { unfold nus. cbn. intros g d [G1|[]] [G2|[]]. destruct s; congruence. }
  { intros r Hr. apply HRs in Hr. exact Hr. }
  { intros d. unfold nus. constructor; [|constructor]. exists b1. auto. }
  { intros r c d Hr Hc Hi. pose proof Hc as Hc'. apply (reg_is_iff _ _ _ _ I) in Hc'. split. { intros g [<-|[]]. cbn [fst]. apply (HB r c Hc'). apply in_map_iff. exists (f2, d). auto. } split. { cbn [length nus]. destruct (w_rnd _ W _ _ _ Hc) as [_ L]. unfold maxrf in L. lia. }
    intros g e q [G|[]] (c' & Hq & Hi'). exfalso. apply (reg_is_iff _ _ _ _ I) in Hq. apply (HF r c d q c' Hc' Hi Hq). rewrite G. auto. }
  assert (NF : forall d, ~ In f2 (map fst (nus d))). { intros d. unfold nus. cbn. intros [|[]]; auto. }
  assert (HE4 : forall r c, a_r a r = Some (true, Some c) -> a_r a1 r = Some (true, Some (exchange f2 nus c))).
  { intros r c Hc. rewrite A5, Hc. destruct (mem r rs) eqn:Em; auto. rewrite exchange_out; auto. intros Hi. apply not_true_iff_false in Em. rewrite mem_In in Em. apply Em. apply HRs. apply in_map_iff in Hi. destruct Hi as ([g e] & Hg & Hi). cbn in Hg. subst g. exists e. exists c. auto. }
  assert (HE4' : forall r c, a_r a1 r = Some (true, Some c) -> exists c', a_r a r = Some (true, Some c') /\ c = exchange f2 nus c').
  { intros r c Hc. destruct (a_r a r) as [[l [c'|]]|] eqn:E.
    - destruct l. exists c'. split; auto. rewrite (HE4 r c' E) in Hc. congruence. rewrite A5, E in Hc. destruct (mem r rs); discriminate.
    - rewrite A5, E in Hc. destruct (mem r rs); discriminate.
    - rewrite A5, E in Hc. destruct (mem r rs); discriminate. }
  destruct (reach_step t1 a1 (TDelF f2 true) R1) as (t2 & E2 & R2).
  { cbn [tpre]. split. rewrite A3. congruence. intros _ r d (c & Hc & Hi). destruct (HE4' _ _ Hc) as (c' & Hc' & ->). apply (exchange_not_in f2 nus c' NF). apply in_map_iff. exists (f2, d). auto. }
  cbn [tstep] in E2. pose proof (reach_inv _ _ R2) as I2. exists t2, (merge_in_sets sets f2 f1).
  assert (Fr5 : a_r (astep a1 (TDelF f2 true)) = a_r a1) by reflexivity.
  split.
  { unfold MFs_Merge. replace (negb (cls_ok cls f1 f2 flag)) with false. 2: { symmetry. unfold cls_ok. destruct flag; auto. cbn [negb orb]. destruct (HC eq_refl) as [HH|HH]. rewrite HH, !Z.eqb_refl. auto. destruct (Z.eqb_spec (fst (cls f1)) (fst (cls f2))). lia. destruct (Z.ltb_spec (fst (cls f2)) (fst (cls f1))); auto. lia. }
    rewrite ME1. cbn [bind]. assert (D0 : MF_EdgeDir_i t f1 0 = Ok (b2z (snd (hd dflt b1)))). { destruct (face_rep _ _ _ _ I H1) as (y & l & Hy & Hl & (-> & L & B)). unfold MF_EdgeDir_i, getf. rewrite Hy. cbn [bind]. rewrite bit64_ok by lia. destruct b1 as [|y1 b1]; [congruence|]. specialize (B 0%nat ltac:(cbn; lia)). cbn [nth hd] in *. change (Z.of_nat 0) with 0 in B. rewrite B. auto. }
    rewrite D0. cbn [bind]. assert (L0 : lent (map fst b1) 0 = Ok (fst (hd dflt b1))) by (destruct b1; [congruence|reflexivity]). rewrite L0. cbn [bind].
    rewrite (vat_ok t a (hd dflt b1) I). 2: { destruct b1; [congruence|]. inversion EO; auto. } cbn [bind]. replace (vat a (hd dflt b1)) with u by (destruct b1; [congruence|]; cbn in *; congruence). rewrite ME2. cbn [bind].
    replace (ZL (map fst b1) =? ZL (map fst x)) with true by (unfold ZL; rewrite !map_length, Lx; lia). cbn [negb]. assert (LZ : ZL (map fst b1) = Z.of_nat (length b1)) by (unfold ZL; rewrite map_length; auto).
    assert (Two : exists y y' b, b1 = y :: b ++ [y']). { destruct b1 as [|y b1]; [congruence|]. destruct (exists_last (l := b1)) as (b & y' & ->); eauto. intros ->. cbn in HP. destruct y as [g d]. destruct HP as ([y1 y2] & _ & G1 & G2 & G3). destruct d; cbn in *; congruence. }
    destruct Two as (y & y' & b & Eb). assert (L1 : 1 <= Z.of_nat (length b1)). { rewrite Eb. cbn [length]. lia. }
    assert (G0 : lent (map fst x) 0 = Ok (fst (hd dflt x))) by (destruct x; [congruence|reflexivity]). rewrite G0. cbn [bind].
    assert (GL : lent (map fst x) (ZL (map fst b1) - 1) = Ok (fst (last x dflt))). { unfold lent. rewrite LZ. replace (Z.of_nat (length b1) - 1 <? 0) with false by lia. f_equal. destruct (exists_last Nxn) as (x' & z & Exz). rewrite Exz, last_last, map_app. cbn [map]. rewrite app_nth2; rewrite map_length. replace (Z.to_nat _ - length x')%nat with 0%nat. auto. rewrite <- Lx, Exz, app_length. cbn. lia. rewrite <- Lx, Exz, app_length. cbn. lia. }
    rewrite GL. cbn [bind].
    assert (SM : negb (fst (hd dflt b1) =? fst (hd dflt x)) && negb (fst (hd dflt b1) =? fst (last x dflt)) = false /\ (fst (hd dflt b1) =? fst (hd dflt x)) = s).
    { unfold x. destruct s. rewrite Z.eqb_refl. auto. rewrite Eb. unfold turned. cbn [map rev]. rewrite map_app, rev_app_distr. cbn [map rev app hd]. change ((fst y', negb (snd y')) :: rev (map (fun x : Z * bool => (fst x, negb (snd x))) b) ++ [(fst y, negb (snd y))]) with (((fst y', negb (snd y')) :: rev (map (fun x : Z * bool => (fst x, negb (snd x))) b)) ++ [(fst y, negb (snd y))]). rewrite last_last. cbn [fst hd app]. rewrite Z.eqb_refl. cbn [negb]. rewrite andb_false_r. split; auto. apply Z.eqb_neq. intros HH. rewrite Eb in Nb1. cbn [map] in Nb1. inversion Nb1 as [|? ? M1 _]; subst. apply M1. rewrite map_app, in_app_iff. cbn. auto. }
    destruct SM as [S1 S2]. rewrite S1, S2. rewrite ERs. cbn [bind]. rewrite E1. cbn [bind]. rewrite E2. auto. }
  split. { intros r c1 d c2 Hc. apply (reg_is_iff _ _ _ _ I) in Hc. apply (reg_is_iff _ _ _ _ I2). rewrite Fr5. rewrite (HE4 _ _ Hc). rewrite exchange_mid by (apply (w_rnd _ W _ _ _ Hc)). cbn [nus firstn skipn app]. rewrite app_nil_r. auto. }
  split. { intros r c Hc Hn. apply (reg_is_iff _ _ _ _ I) in Hc. apply (reg_is_iff _ _ _ _ I2). rewrite Fr5. rewrite (HE4 _ _ Hc). rewrite exchange_out; auto. }
  split. { intros r c Hc. apply (reg_is_iff _ _ _ _ I2) in Hc. rewrite Fr5 in Hc. destruct (HE4' _ _ Hc) as (c' & Hc' & ->). split. apply exchange_not_in. auto. exists c'. apply (reg_is_iff _ _ _ _ I). auto. }
  split. { intros f b Hf. rewrite <- (face_is_iff _ _ _ _ I), <- (face_is_iff _ _ _ _ I2). cbn [astep]. ra. unfold kill. rewrite upd_other by auto. rewrite A3. tauto. }
  split. { pose proof (i_f _ _ I2 f2) as HH. cbn [astep with_f a_f] in HH. unfold kill in HH. rewrite upd_same, A3, H2 in HH. destruct (tfs t2 f2) as [y|]; [|discriminate]. exists y. split; auto. cbn in HH. unfold fview in HH. inversion HH. auto. }
  split. { intros g y z. rewrite <- (edge_is_iff _ _ _ _ _ I), <- (edge_is_iff _ _ _ _ _ I2). cbn [astep]. ra. rewrite A2. tauto. }
  split. { intros v. rewrite (i_v _ _ I), (i_v _ _ I2). cbn [astep]. ra. congruence. }
  split. { apply merge_sets_ok; auto. } split. eapply inv_mutual; eauto. split. eapply inv_sound; eauto. eauto.
Qed.
Print Assumptions C40_faces.

(** ** Examples: all faces and regions of a mesh checked by running through them *)
Definition faces_all (a : amesh) (P : ptr -> bdry -> bool) : bool :=
  forallb (fun f => match a_f a f with Some (true, Some b) => P f b | _ => true end) (zrange 1 (a_next a)).
Definition regs_all (a : amesh) (P : ptr -> bdry -> bool) : bool :=
  forallb (fun f => match a_r a f with Some (true, Some b) => P f b | _ => true end) (zrange 1 (a_next a)).
Lemma faces_all_ok : forall t a P, reach t a -> faces_all a P = true -> forall f b, face_is t f b -> P f b = true.
Proof.
  intros t a P R H f b Hf. pose proof (reach_inv _ _ R) as I. apply (face_is_iff _ _ _ _ I) in Hf. unfold faces_all in H. rewrite forallb_forall in H. specialize (H f). rewrite zrange_In, Hf in H. apply H. apply (w_f _ (i_w _ _ I)). congruence.
Qed.
Lemma regs_all_ok : forall t a P, reach t a -> regs_all a P = true -> forall f b, reg_is t f b -> P f b = true.
Proof.
  intros t a P R H f b Hf. pose proof (reach_inv _ _ R) as I. apply (reg_is_iff _ _ _ _ I) in Hf. unfold regs_all in H. rewrite forallb_forall in H. specialize (H f). rewrite zrange_In, Hf in H. apply H. apply (w_r _ (i_w _ _ I)). congruence.
Qed.

(** Two triangles that each have their own edge between vertices 1 and 2, in
    opposite senses, and a degenerate edge 13 at vertex 1. *)
Definition seam : list top := [TNewV; TNewV; TNewV; TNewV;
  TNewE; TSetVertex 5 false 1; TSetVertex 5 true 2; TNewE; TSetVertex 6 false 2; TSetVertex 6 true 3; TNewE; TSetVertex 7 false 3; TSetVertex 7 true 1;
  TNewE; TSetVertex 8 false 2; TSetVertex 8 true 1; TNewE; TSetVertex 9 false 1; TSetVertex 9 true 4; TNewE; TSetVertex 10 false 4; TSetVertex 10 true 2;
  TNewF; TSetEdges 11 [(5, true); (6, true); (7, true)]; TNewF; TSetEdges 12 [(8, true); (9, true); (10, true)];
  TNewE; TSetVertex 13 false 1; TSetVertex 13 true 1].
Definition T4 : topo := Eval vm_compute in match trun empty_topo seam with Ok t => t | _ => empty_topo end.
Lemma T4_reach : reach T4 (arun amesh0 seam).
Proof. exists seam. split. apply tallowedb_ok with (t := empty_topo). exact inv0. vm_compute. reflexivity. split. vm_compute. reflexivity. reflexivity. Qed.
Example C40_edges_ex : exists a, reach T4 a /\ edge_is T4 8 2 1 /\ edge_is T4 5 1 2 /\ (forall f b, face_is T4 f b -> In 8 (map fst b) -> ~ In 5 (map fst b)) /\
  okt (MEs_Merge (fun e => if e =? 5 then (1, 4) else (2, 7)) T4 [[8]; [8; 5]] 5 8 true) (fun x => face_is (fst (fst x)) 12 [(5, false); (9, true); (10, true)] /\ snd (fst x) = [[5]; [5]]).
Proof.
  exists (arun amesh0 seam). split. exact T4_reach. split. eexists. vm_compute. auto 10. split. eexists. vm_compute. auto 10. split.
  { intros f b Hf H1 H2. pose proof (faces_all_ok _ _ (fun f b => negb (mem 8 (map fst b) && mem 5 (map fst b))) T4_reach ltac:(vm_compute; reflexivity) f b Hf) as H. cbn beta in H. apply mem_In in H1, H2. rewrite H1, H2 in H. discriminate. }
  vm_compute. split; auto. eexists. split. reflexivity. split. reflexivity. split. reflexivity. intros k q. do 6 (destruct k as [|k]; [intros HH; inversion HH; reflexivity|]). destruct k; discriminate.
Qed.

(** The edges follow one another (also edges from a vertex to itself). *)
Fixpoint runs (t : topo) (u : ptr) (b : list (ptr * bool)) (w : ptr) : Prop :=
  match b with
  | [] => u = w
  | (e, d) :: b' => exists p q, edge_is t e p q /\ (if d then p else q) = u /\ runs t (if d then q else p) b' w
  end.
(** The test of the ends accepts an edge from a vertex to itself as the partner of
    an edge that has that vertex at one end only; the loops that used the deleted
    edge are broken. *)
Theorem C40_edges_degenerate_refuted : exists cls t e1 e2 a b f bd u, (exists m, reach t m) /\ edge_is t e1 a a /\ edge_is t e2 a b /\ a <> b /\ face_is t f bd /\ leads t u bd u /\
  exists t', MEs_Merge cls t [] e1 e2 true = Ok (t', [], e1) /\ forall b' w, face_is t' f b' -> ~ runs t' w b' w.
Proof.
  exists (fun _ => (2, 1)), T4, 13, 5, 1, 2, 11, [(5, true); (6, true); (7, true)], 1. split. exists (arun amesh0 seam). exact T4_reach. split. eexists. vm_compute. auto 10. split. eexists. vm_compute. auto 10. split. discriminate.
  split. apply (face_is_iff _ _ _ _ (reach_inv _ _ T4_reach)). vm_compute. reflexivity.
  split. apply (leads_path _ _ _ _ _ (reach_inv _ _ T4_reach)). cbn [path]. repeat (eexists; split; [vm_compute; reflexivity|]; cbn [fst snd]; split; [discriminate|]; split; [reflexivity|]). reflexivity.
  destruct (MEs_Merge (fun _ => (2, 1)) T4 [] 13 5 true) as [[[t' s'] e']| | | ] eqn:E; [|vm_compute in E; discriminate..]. exists t'.
  assert (X : okt (MEs_Merge (fun _ => (2, 1)) T4 [] 13 5 true) (fun x => x = (fst (fst x), [], 13) /\ option_map (fun f => f_edges f) (tfs (fst (fst x)) 11) = Some (Some [13; 6; 7]) /\ option_map (fun e => (e_v0 e, e_v1 e)) (tes (fst (fst x)) 13) = Some (1, 1) /\ option_map (fun e => (e_v0 e, e_v1 e)) (tes (fst (fst x)) 6) = Some (2, 3) /\ option_map (fun e => (e_v0 e, e_v1 e)) (tes (fst (fst x)) 7) = Some (3, 1))) by (vm_compute; auto 10).
  rewrite E in X. cbn [okt fst] in X. destruct X as (X1 & X2 & X3 & X4 & X5). split. congruence. intros b' w Hf HL. destruct Hf as (x & Hx & _ & Hb & _). rewrite Hx in X2. cbn in X2. rewrite Hb in X2. inversion X2 as [X2'].
  destruct b' as [|[g1 d1] [|[g2 d2] [|[g3 d3] [|]]]]; try discriminate. cbn in X2'. inversion X2'; subst g1 g2 g3. cbn [runs] in HL.
  destruct HL as (p1 & q1 & (y1 & Y1 & _ & Y2 & Y3) & _ & p2 & q2 & (y2 & Z1 & _ & Z2 & Z3) & Hu & _). rewrite Y1 in X3. rewrite Z1 in X4. cbn in X3, X4. inversion X3. inversion X4. destruct d1, d2; lia.
Qed.
Print Assumptions C40_edges_degenerate_refuted.
Example C40_edges_refused_ex : edge_is T4 5 1 2 /\ edge_is T4 6 2 3 /\ MEs_Merge (fun _ => (2, 1)) T4 [[5]; [6]] 5 6 true = Ok (T4, [[5]; [6]], NULL).
Proof. split. eexists. vm_compute. auto 10. split. eexists. vm_compute. auto 10. apply C40_edges_refused with 1 2 2 3; try lia; eexists; vm_compute; auto 10. Qed.

(** Two tetrahedra whose common triangle is there twice, in opposite senses. *)
Definition twin : list top := firstn (length tets - 2) tets ++ [TNewF; TSetEdges 23 [(11, false); (9, false); (10, true)]; TNewR; TSetFaces 24 [(23, true); (19, true); (20, true); (21, false)]].
Definition T5 : topo := Eval vm_compute in match trun empty_topo twin with Ok t => t | _ => empty_topo end.
Lemma T5_reach : reach T5 (arun amesh0 twin).
Proof. exists twin. split. apply tallowedb_ok with (t := empty_topo). exact inv0. vm_compute. reflexivity. split. vm_compute. reflexivity. reflexivity. Qed.
Example C40_faces_ex : exists a, reach T5 a /\ face_is T5 17 [(9, true); (11, true); (10, false)] /\ face_is T5 23 [(11, false); (9, false); (10, true)] /\ loop T5 [(9, true); (11, true); (10, false)] [2; 3; 4] /\
  rotation (turned [(9, true); (11, true); (10, false)]) [(11, false); (9, false); (10, true)] /\
  (forall r c, reg_is T5 r c -> In 23 (map fst c) -> ~ In 17 (map fst c)) /\
  (forall r c d q c', reg_is T5 r c -> In (23, d) c -> reg_is T5 q c' -> ~ In (17, negb d) c') /\
  okt (MFs_Merge (fun _ => (3, 1)) T5 [[17; 23]] 17 23 true) (fun x => snd x = 17 /\ MR_FaceDir (fst (fst x)) 24 17 = Ok 0 /\ MF_Region (fst (fst x)) 17 0 = Ok 22 /\ MF_Region (fst (fst x)) 17 1 = Ok 24 /\ snd (fst x) = [[17]]).
Proof.
  pose proof (reach_inv _ _ T5_reach) as I. exists (arun amesh0 twin). split. exact T5_reach. split. apply (face_is_iff _ _ _ _ I). vm_compute. reflexivity. split. apply (face_is_iff _ _ _ _ I). vm_compute. reflexivity. split.
  { exists 2. apply (corners_iff _ _ _ _ _ _ I). split. vm_compute. repeat (eexists; split; [reflexivity|split; [discriminate|split; [reflexivity|]]]). reflexivity. vm_compute. reflexivity. }
  split. { exists [(10, true)], [(11, false); (9, false)]. split; reflexivity. } split.
  { intros f b Hf H1 H2. pose proof (regs_all_ok _ _ (fun f b => negb (mem 23 (map fst b) && mem 17 (map fst b))) T5_reach ltac:(vm_compute; reflexivity) f b Hf) as H. cbn beta in H. apply mem_In in H1, H2. rewrite H1, H2 in H. discriminate. }
  split. { intros r c d q c' Hr Hi Hq Hi'. pose proof (regs_all_ok _ _ (fun f b => forallb (fun x => if fst x =? 23 then snd x else if fst x =? 17 then snd x else true) b) T5_reach ltac:(vm_compute; reflexivity)) as H. pose proof (H _ _ Hr) as G1. pose proof (H _ _ Hq) as G2. cbn beta in G1, G2. rewrite forallb_forall in G1, G2. specialize (G1 _ Hi). specialize (G2 _ Hi'). cbn in G1, G2. subst d. discriminate. }
  vm_compute. auto 10.
Qed.
