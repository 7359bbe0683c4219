(** Properties of the topology model: C22, C24, C25, C27. *)
From Coq Require Import ZArith List Lia Bool Arith ZifyBool ZifyNat Permutation.
From Verif Require Import Base BaseProofs ListSpec ParModel ParProps AttModel AttProps TopoModel TopoSpec TopoProofs TopoProofs2 TopoProofs3 TopoProofs4 TopoProofs5 TopoProofs6 TopoProofs7.
Import ListNotations.
Open Scope Z_scope.

(** * C22: mutual incidence along every history *)

(** The fields of the structures of MVertex.h, MEdge.h, MFace.h, MRegion.h agree
    with each other.  Bit k of the direction words of a region is bit k mod 32 of
    word k / 32. *)
Record mutual (t : topo) : Prop := mkMutual {
  mu_v : forall v x, tvs t v = Some x -> NoDup (v_edges x) /\
    forall e, In e (v_edges x) <-> exists y, tes t e = Some y /\ e_live y = true /\ (e_v0 y = v \/ e_v1 y = v);
  mu_e : forall e x, tes t e = Some x -> NoDup (e_faces x) /\
    forall f, In f (e_faces x) <-> exists y l, tfs t f = Some y /\ f_live y = true /\ f_edges y = Some l /\ In e l;
  mu_f : forall f x r, tfs t f = Some x -> r <> NULL -> forall d : bool,
    (if d then f_r0 x else f_r1 x) = r <->
    exists y l k, trs t r = Some y /\ r_live y = true /\ r_faces y = Some l /\ nth_error l k = Some f /\
      Z.testbit (nth (k / 32) (r_fdirs y) 0) (Z.of_nat (k mod 32)) = d }.

(** Live edges end at live vertices, live faces have live edges, live regions
    live faces: no dangling pointers. *)
Record sound (t : topo) : Prop := mkSound {
  so_e : forall e y, tes t e = Some y -> e_live y = true -> forall v, v = e_v0 y \/ v = e_v1 y -> v = NULL \/ exists x, tvs t v = Some x /\ v_live x = true;
  so_f : forall f y l, tfs t f = Some y -> f_live y = true -> f_edges y = Some l -> NoDup l /\ forall e, In e l -> exists x, tes t e = Some x /\ e_live x = true;
  so_r : forall r y l, trs t r = Some y -> r_live y = true -> r_faces y = Some l -> NoDup l /\ forall f, In f l -> exists x, tfs t f = Some x /\ f_live x = true }.

(** The structures hold the downward data of the specification. *)
Record shows (t : topo) (a : amesh) : Prop := mkShows {
  sh_v : forall v, match a_v a v, tvs t v with Some l, Some x => v_live x = l | None, None => True | _, _ => False end;
  sh_e : forall e, match a_e a e, tes t e with Some (l, (v0, v1)), Some x => e_live x = l /\ e_v0 x = v0 /\ e_v1 x = v1 | None, None => True | _, _ => False end;
  sh_f : forall f, match a_f a f, tfs t f with
    | Some (l, None), Some x => f_live x = l /\ f_edges x = None
    | Some (l, Some b), Some x => f_live x = l /\ f_edges x = Some (map fst b) /\
        forall k q, nth_error b k = Some q -> Z.testbit (f_edirs x) (Z.of_nat k) = snd q
    | None, None => True | _, _ => False end;
  sh_r : forall r, match a_r a r, trs t r with
    | Some (l, None), Some x => r_live x = l /\ r_faces x = None
    | Some (l, Some b), Some x => r_live x = l /\ r_faces x = Some (map fst b) /\
        forall k q, nth_error b k = Some q -> Z.testbit (nth (k / 32) (r_fdirs x) 0) (Z.of_nat (k mod 32)) = snd q
    | None, None => True | _, _ => False end }.

Lemma rg_nat : forall w k, rg w (Z.of_nat k) = Z.testbit (nth (k / 32) w 0) (Z.of_nat (k mod 32)).
Proof.
  intros. unfold rg. change 32 with (Z.of_nat 32) at 1 2. rewrite <- Nat2Z.inj_div, <- Nat2Z.inj_mod, Nat2Z.id. reflexivity.
Qed.
Lemma vw_nth_error : forall l i g k q, nth_error (vw l i g) k = Some q <-> nth_error l k = Some (fst q) /\ g (i + Z.of_nat k) = snd q.
Proof.
  induction l as [|e l IH]; intros i g k [p d]; cbn [vw].
  - destruct k; cbn; (split; [intros H; discriminate|intros [H _]; discriminate]).
  - destruct k as [|k]; cbn [nth_error fst snd].
    + change (Z.of_nat 0) with 0. rewrite Z.add_0_r. split. intros H. inversion H; auto. intros [H1 H2]. inversion H1; subst. auto.
    + rewrite IH. cbn [fst snd]. replace (i + 1 + Z.of_nat k) with (i + Z.of_nat (S k)) by lia. tauto.
Qed.
Lemma has_face_raw : forall t a r f d, inv t a -> (has_face a r f d <->
    exists y l k, trs t r = Some y /\ r_live y = true /\ r_faces y = Some l /\ nth_error l k = Some f /\ Z.testbit (nth (k / 32) (r_fdirs y) 0) (Z.of_nat (k mod 32)) = d).
Proof.
  intros t a r f d I. unfold has_face. rewrite <- (i_r _ _ I). split.
  - intros (b & Hb & Hi). destruct (trs t r) as [y|] eqn:E; [|discriminate]. cbn in Hb. unfold rview in Hb. destruct (r_faces y) as [l|] eqn:El; [|discriminate]. inversion Hb; subst.
    apply In_nth_error in Hi. destruct Hi as [k Hk]. apply vw_nth_error in Hk. destruct Hk as [H1 H2]. cbn in H1. exists y, l, k. rewrite <- rg_nat. auto.
  - intros (y & l & k & -> & H1 & H2 & H3 & H4). cbn. unfold rview. rewrite H1, H2. eexists. split. reflexivity. apply nth_error_In with (n := k). apply vw_nth_error. cbn [fst snd].
    split; auto. rewrite <- rg_nat in H4. auto.
Qed.
Lemma inv_mutual : forall t a, inv t a -> mutual t.
Proof.
  intros t a I. constructor.
  - intros v x H. destruct (i_uv _ _ I _ _ H) as [N HI]. split; auto. intros e. rewrite HI. unfold is_end. rewrite <- (i_e _ _ I). split.
    + intros (v0 & v1 & E & Hv). destruct (tes t e) as [y|]; [|discriminate]. exists y. cbn in E. unfold eview in E. inversion E; subst. auto.
    + intros (y & -> & Hl & Hv). cbn. unfold eview. rewrite Hl. eauto.
  - intros e x H. destruct (i_ue _ _ I _ _ H) as [N HI]. split; auto. intros f. rewrite HI. unfold has_edge. rewrite <- (i_f _ _ I). split.
    + intros (b & E & Hv). destruct (tfs t f) as [y|]; [|discriminate]. cbn in E. unfold fview in E. destruct (f_edges y) as [l|] eqn:El; [|discriminate]. inversion E; subst. rewrite vw_fst in Hv. exists y, l. auto.
    + intros (y & l & -> & Hl & Hf & Hi). cbn. unfold fview. rewrite Hl, Hf. eexists. split. reflexivity. rewrite vw_fst. auto.
  - intros f x r H Hr d. rewrite <- has_face_raw by eauto. destruct (i_uf _ _ I _ _ H r Hr). destruct d; auto.
Qed.
Lemma inv_sound : forall t a, inv t a -> sound t.
Proof.
  intros t a I. pose proof (i_w _ _ I) as W. constructor.
  - intros e y H Hl v Hv. destruct (w_ends _ W e (e_v0 y) (e_v1 y)) as [H0 H1]. { rewrite <- (i_e _ _ I), H. cbn. unfold eview. rewrite Hl. auto. }
    assert (HH : v = NULL \/ live_v a v) by (destruct Hv; subst; auto). destruct HH as [HH|HH]; auto. right. unfold live_v in HH. rewrite <- (i_v _ _ I) in HH. destruct (tvs t v) as [x|]; [|discriminate]. exists x. split; auto. cbn in HH. congruence.
  - intros f y l H Hl He. assert (E : a_f a f = Some (true, Some (vw l 0 (Z.testbit (f_edirs y))))). { rewrite <- (i_f _ _ I), H. cbn. unfold fview. rewrite Hl, He. auto. }
    split. { destruct (w_fnd _ W _ _ _ E) as [N _]. rewrite vw_fst in N. auto. }
    intros e Hi. assert (HE : live_e a e). { apply live_in with (b := vw l 0 (Z.testbit (f_edirs y))). apply (w_fe _ W _ _ E). rewrite vw_fst. auto. }
    destruct HE as [z Hz]. rewrite <- (i_e _ _ I) in Hz. destruct (tes t e) as [x|]; [|discriminate]. exists x. split; auto. cbn in Hz. unfold eview in Hz. congruence.
  - intros r y l H Hl He. assert (E : a_r a r = Some (true, Some (vw l 0 (rg (r_fdirs y))))). { rewrite <- (i_r _ _ I), H. cbn. unfold rview. rewrite Hl, He. auto. }
    split. { destruct (w_rnd _ W _ _ _ E) as [N _]. rewrite vw_fst in N. auto. }
    intros f Hi. assert (HE : full_f a f). { apply full_in with (b := vw l 0 (rg (r_fdirs y))). apply (w_rf _ W _ _ E). rewrite vw_fst. auto. }
    destruct HE as [z Hz]. rewrite <- (i_f _ _ I) in Hz. destruct (tfs t f) as [x|]; [|discriminate]. exists x. split; auto. cbn in Hz. unfold fview in Hz. congruence.
Qed.
Lemma inv_shows : forall t a, inv t a -> shows t a.
Proof.
  intros t a I. constructor.
  - intros v. rewrite <- (i_v _ _ I). destruct (tvs t v); cbn; auto.
  - intros e. rewrite <- (i_e _ _ I). destruct (tes t e); cbn; auto.
  - intros f. rewrite <- (i_f _ _ I). destruct (tfs t f) as [y|]; cbn; auto. unfold fview. destruct (f_edges y) as [l|]; cbn; auto. rewrite vw_fst. split; auto. split; auto.
    intros k q Hk. apply vw_nth_error in Hk. apply Hk.
  - intros r. rewrite <- (i_r _ _ I). destruct (trs t r) as [y|]; cbn [option_map]; auto. unfold rview. destruct (r_faces y) as [l|]; cbn [option_map]; auto. rewrite vw_fst. split; auto. split; auto.
    intros k q Hk. apply vw_nth_error in Hk. rewrite <- rg_nat. apply Hk.
Qed.

Lemma inv0 : inv empty_topo amesh0.
Proof.
  constructor; cbn; auto; try discriminate. constructor; cbn; try congruence; try discriminate; lia.
Qed.
Theorem tstep_ok : forall t a o, inv t a -> tpre a o -> exists t', tstep t o = Ok t' /\ inv t' (astep a o).
Proof.
  intros t a o I H. destruct o.
  - eexists. split. reflexivity. apply step_new_v. auto.
  - eexists. split. reflexivity. apply step_new_e. auto.
  - eexists. split. reflexivity. apply step_new_f. auto.
  - eexists. split. reflexivity. apply step_new_r. auto.
  - apply step_set_vertex; auto.
  - apply step_replace_vertex; auto.
  - apply step_set_edges; auto.
  - apply step_rem_edge; auto.
  - apply step_replace_edges; auto.
  - apply step_rev_edge_dir; auto.
  - apply step_set_faces; auto.
  - apply step_rem_face; auto.
  - apply step_replace_face; auto.
  - apply step_replace_faces; auto.
  - apply step_set_face_dir; auto.
  - apply step_rev_face_dir; auto.
  - apply step_del_v; auto.
  - apply step_del_e; auto.
  - apply step_del_f; auto.
  - apply step_del_r; auto.
  - apply step_res_v; auto.
  - apply step_res_e; auto.
  - apply step_res_f; auto.
  - apply step_res_r; auto.
  - apply step_update_type; auto.
Qed.
Theorem trun_ok : forall ops t a, inv t a -> tallowed a ops -> exists t', trun t ops = Ok t' /\ inv t' (arun a ops).
Proof.
  induction ops as [|o ops IH]; intros t a I H; cbn [trun arun tallowed] in *; eauto. destruct H as [H1 H2]. destruct (tstep_ok t a o I H1) as (t1 & E & I1). rewrite E. cbn [bind]. eauto.
Qed.

(** Every history of allowed operations succeeds, without undefined behaviour,
    and leaves structures that agree with each other and hold the downward data
    the specification computes. *)
Theorem C22_incidence_mutual : forall ops, tallowed amesh0 ops ->
  exists t, trun empty_topo ops = Ok t /\ mutual t /\ sound t /\ shows t (arun amesh0 ops).
Proof.
  intros ops H. destruct (trun_ok ops _ _ inv0 H) as (t & E & I). exists t. split; auto. split. eapply inv_mutual; eauto. split. eapply inv_sound; eauto. apply inv_shows; auto.
Qed.
Print Assumptions C22_incidence_mutual.

Lemma tallowedb_ok : forall ops t a, inv t a -> tallowedb a ops = true -> tallowed a ops.
Proof.
  induction ops as [|o ops IH]; intros t a I H; cbn [tallowed tallowedb] in *; auto. apply andb_true_iff in H. destruct H as [H1 H2].
  assert (P : tpre a o) by (apply tpreb_ok; auto; apply (i_w _ _ I)). split; auto. destruct (tstep_ok t a o I P) as (t' & _ & I'). eauto.
Qed.
Definition okt {A} (r : result A) (P : A -> Prop) : Prop := match r with Ok x => P x | _ => False end.
(** Two tetrahedra sharing a face, on vertices 1-5; edges 6-14, faces 15-21,
    regions 22 and 23. *)
Definition tets : list top := [
  TNewV; TNewV; TNewV; TNewV; TNewV;
  TNewE; TSetVertex 6 false 1; TSetVertex 6 true 2; TNewE; TSetVertex 7 false 1;
  TSetVertex 7 true 3; TNewE; TSetVertex 8 false 1; TSetVertex 8 true 4; TNewE;
  TSetVertex 9 false 2; TSetVertex 9 true 3; TNewE; TSetVertex 10 false 2; TSetVertex 10 true 4;
  TNewE; TSetVertex 11 false 3; TSetVertex 11 true 4; TNewE; TSetVertex 12 false 2;
  TSetVertex 12 true 5; TNewE; TSetVertex 13 false 3; TSetVertex 13 true 5; TNewE;
  TSetVertex 14 false 4; TSetVertex 14 true 5; TNewF; TSetEdges 15 [(6, true); (9, true); (7, false)]; TNewF;
  TSetEdges 16 [(6, true); (10, true); (8, false)]; TNewF; TSetEdges 17 [(9, true); (11, true); (10, false)]; TNewF; TSetEdges 18 [(7, true); (11, true); (8, false)];
  TNewF; TSetEdges 19 [(9, true); (13, true); (12, false)]; TNewF; TSetEdges 20 [(11, true); (14, true); (13, false)]; TNewF;
  TSetEdges 21 [(10, true); (14, true); (12, false)]; TNewR; TSetFaces 22 [(15, false); (16, true); (17, true); (18, false)]; TNewR; TSetFaces 23 [(17, false); (19, true); (20, true); (21, false)]].
Definition edits : list top := [
  TNewV; TNewE; TSetVertex 25 false 1; TSetVertex 25 true 24;
  TNewE; TSetVertex 26 false 24; TSetVertex 26 true 2; TReplaceEdges 15 0 1 [(25, true); (26, true)] false;
  TReplaceEdges 16 0 1 [(25, true); (26, true)] true; TDelE 6 false; TDelR 23 true; TRevFaceDir 22 17;
  TSetFaceDir 22 17 true; TResR 23; TRevFaceDir 23 17; TRemFace 22 18;
  TReplaceFaces 23 [19] [(18, true); (15, true)]; TReplaceFace 23 0 (19, false); TRemEdge 20 11; TRevEdgeDir 21 10;
  TNewV; TReplaceVertex 13 5 27; TReplaceVertex 12 5 27; TReplaceVertex 14 5 27;
  TDelV 5 true; TResV 5; TDelR 22 true; TDelR 23 false;
  TDelF 17 true; TResF 17; TDelF 15 true; TDelF 16 false;
  TDelE 25 true; TResE 25; TResF 15].
Example C22_incidence_mutual_ex : tallowed amesh0 (tets ++ edits) /\
  okt (trun empty_topo (tets ++ edits)) (fun t => okt (MV_Edges t 24) (fun o => o = Some [25; 26] \/ o = Some [26; 25]) /\ tes t 6 = None /\ MF_Region t 17 0 = Ok NULL).
Proof. split. apply tallowedb_ok with (t := empty_topo). exact inv0. vm_compute. reflexivity. vm_compute. auto. Qed.

(** ** Calls excluded above: each breaks the agreement *)
Definition T0 : topo := match trun empty_topo tets with Ok t => t | _ => empty_topo end.
Lemma T0_ok : trun empty_topo tets = Ok T0 /\ mutual T0.
Proof.
  destruct (trun_ok tets _ _ inv0) as (t & E & I). { apply tallowedb_ok with (t := empty_topo). exact inv0. vm_compute. reflexivity. }
  unfold T0. rewrite E. split; auto. eapply inv_mutual; eauto.
Qed.
Definition done (r : result topo) : topo := match r with Ok t => t | _ => empty_topo end.
(** Replacing a vertex by itself removes the edge from the vertex. *)
Theorem C22_replace_vertex_by_itself_refuted : exists t e v t', mutual t /\ ME_Replace_Vertex t e v v = Ok t' /\ ~ mutual t'.
Proof.
  exists T0, 6, 1, (done (ME_Replace_Vertex T0 6 1 1)). split. apply T0_ok. split. vm_compute. reflexivity. intros M.
  destruct (mu_v _ M 1 (mkV true [7; 8])) as [_ H]. vm_compute. reflexivity.
  assert (H6 : In 6 [7; 8]). { apply H. eexists. split. vm_compute. reflexivity. split. reflexivity. left. reflexivity. }
  cbn in H6. lia.
Qed.
(** Setting an end that is already set leaves the edge at the old vertex. *)
Theorem C22_set_vertex_again_refuted : exists t e i v t', mutual t /\ ME_Set_Vertex t e i v = Ok t' /\ ~ mutual t'.
Proof.
  exists T0, 6, 0, 5, (done (ME_Set_Vertex T0 6 0 5)). split. apply T0_ok. split. vm_compute. reflexivity. intros M.
  destruct (mu_v _ M 1 (mkV true [6; 7; 8])) as [_ H]. vm_compute. reflexivity.
  destruct (H 6) as [H6 _]. destruct H6 as (y & Hy & _ & Hv). cbn; auto. vm_compute in Hy. inversion Hy; subst y. cbn in Hv. lia.
Qed.
(** Setting edges of a face that has edges leaves the face at the old edges. *)
Theorem C22_set_edges_again_refuted : exists t f es ds t', mutual t /\ MF_Set_Edges t f 3 es ds = Ok t' /\ ~ mutual t'.
Proof.
  exists T0, 15, [9; 13; 12], [1; 1; 0], (done (MF_Set_Edges T0 15 3 [9; 13; 12] [1; 1; 0])). split. apply T0_ok. split. vm_compute. reflexivity. intros M.
  destruct (mu_e _ M 6 (mkE true 1 2 [15; 16])) as [_ H]. vm_compute. reflexivity.
  destruct (H 15) as [H6 _]. destruct H6 as (y & l & Hy & _ & Hl & Hv). cbn; auto. vm_compute in Hy. inversion Hy; subst y. cbn in Hl. inversion Hl; subst l. cbn in Hv. lia.
Qed.
(** Setting faces of a region that has faces leaves the region at the old faces. *)
Theorem C22_set_faces_again_refuted : exists t r fs ds t', mutual t /\ MR_Set_Faces t r 3 fs ds = Ok t' /\ ~ mutual t'.
Proof.
  exists T0, 22, [15; 16; 17], [0; 1; 1], (done (MR_Set_Faces T0 22 3 [15; 16; 17] [0; 1; 1])). split. apply T0_ok. split. vm_compute. reflexivity. intros M.
  destruct (mu_f _ M 18 (mkF true 3 (Some [7; 11; 8]) 0 22) 22 ltac:(vm_compute; reflexivity) ltac:(discriminate) false) as [H6 _]. destruct H6 as (y & l & k & Hy & _ & Hl & Hv & _). reflexivity.
  vm_compute in Hy. inversion Hy; subst y. cbn in Hl. inversion Hl; subst l. apply nth_error_In in Hv. cbn in Hv. lia.
Qed.
(** Replacing a face by itself loses the region on the face. *)
Theorem C22_replace_face_by_itself_refuted : exists t r f d t', mutual t /\ MR_Replace_Faces t r [f] [f] [d] = Ok t' /\ ~ mutual t'.
Proof.
  exists T0, 22, 16, 1, (done (MR_Replace_Faces T0 22 [16] [16] [1])). split. apply T0_ok. split. vm_compute. reflexivity. intros M.
  destruct (mu_f _ M 16 (mkF true 3 (Some [6; 10; 8]) 0 0) 22 ltac:(vm_compute; reflexivity) ltac:(discriminate) true) as [_ H6].
  assert (HH : 0 = 22); [|discriminate HH]. apply H6. eexists. eexists. exists 1%nat. split. vm_compute. reflexivity. repeat split; reflexivity.
Qed.
(** Removing a face through MR_Replace_Faces without a replacement moves other
    faces to the wrong side (as MFs_Join does). *)
Theorem C25_replace_faces_fewer_refuted : exists t r f t', mutual t /\ MR_Replace_Faces t r [f] [] [] = Ok t' /\ ~ mutual t'.
Proof.
  exists T0, 22, 15, (done (MR_Replace_Faces T0 22 [15] [] [])). split. apply T0_ok. split. vm_compute. reflexivity. intros M.
  destruct (mu_f _ M 17 (mkF true 3 (Some [9; 11; 10]) 0 22) 22 ltac:(vm_compute; reflexivity) ltac:(discriminate) false) as [H6 _]. destruct H6 as (y & l & k & Hy & _ & Hl & Hv & Hb). reflexivity.
  vm_compute in Hy. inversion Hy; subst y. cbn in Hl. inversion Hl; subst l. destruct k as [|[|[|k]]]; try discriminate. destruct k; discriminate.
Qed.

(** ** Reachable meshes *)

(** Mesh [t] is reached by a history of allowed operations, whose downward data
    are those of [a]. *)
Definition reach (t : topo) (a : amesh) : Prop := exists ops, tallowed amesh0 ops /\ trun empty_topo ops = Ok t /\ a = arun amesh0 ops.
Lemma reach_inv : forall t a, reach t a -> inv t a.
Proof. intros t a (ops & H & E & ->). destruct (trun_ok ops _ _ inv0 H) as (t' & E' & I). congruence. Qed.
Lemma arun_app : forall o1 o2 a, arun a (o1 ++ o2) = arun (arun a o1) o2.
Proof. induction o1; cbn; auto. Qed.
Lemma tallowed_app : forall o1 o2 a, tallowed a (o1 ++ o2) <-> tallowed a o1 /\ tallowed (arun a o1) o2.
Proof. induction o1; cbn; intros. tauto. rewrite IHo1. tauto. Qed.
Lemma trun_app : forall o1 o2 t, trun t (o1 ++ o2) = bind (trun t o1) (fun t' => trun t' o2).
Proof. induction o1; cbn; intros; auto. destruct (tstep t a); cbn; auto. Qed.
Theorem reach_step : forall t a o, reach t a -> tpre a o -> exists t', tstep t o = Ok t' /\ reach t' (astep a o).
Proof.
  intros t a o R P. destruct (tstep_ok t a o (reach_inv _ _ R) P) as (t' & E & I'). exists t'. split; auto. destruct R as (ops & H1 & H2 & ->). exists (ops ++ [o]).
  split. apply tallowed_app. cbn. auto. split. rewrite trun_app, H2. cbn. rewrite E. auto. rewrite arun_app. auto.
Qed.

(** What the structures say about one face and one region. *)
Definition face_is (t : topo) (f : ptr) (b : list (ptr * bool)) : Prop := exists x, tfs t f = Some x /\ f_live x = true /\ f_edges x = Some (map fst b) /\
  forall k q, nth_error b k = Some q -> Z.testbit (f_edirs x) (Z.of_nat k) = snd q.
Definition reg_is (t : topo) (r : ptr) (b : list (ptr * bool)) : Prop := exists x, trs t r = Some x /\ r_live x = true /\ r_faces x = Some (map fst b) /\
  forall k q, nth_error b k = Some q -> Z.testbit (nth (k / 32) (r_fdirs x) 0) (Z.of_nat (k mod 32)) = snd q.
Lemma vw_unique : forall b g, (forall k q, nth_error b k = Some q -> g (Z.of_nat k) = snd q) -> vw (map fst b) 0 g = b.
Proof. intros b g H. apply vw_b. intros m Hm. apply (H m). apply nth_error_nth'. auto. Qed.
Lemma face_is_iff : forall t a f b, inv t a -> (a_f a f = Some (true, Some b) <-> face_is t f b).
Proof.
  intros t a f b I. rewrite <- (i_f _ _ I). unfold face_is. split.
  - destruct (tfs t f) as [x|]; cbn [option_map]; [|discriminate]. unfold fview. destruct (f_edges x) as [l|] eqn:E; cbn [option_map]; [|discriminate]. intros H. inversion H; subst. exists x. rewrite vw_fst. repeat (split; [auto; fail|]).
    intros k q Hk. apply vw_nth_error in Hk. apply Hk.
  - intros (x & -> & Hl & He & Hb). cbn [option_map]. unfold fview. rewrite Hl, He. cbn [option_map]. do 3 f_equal. apply vw_unique. auto.
Qed.
Lemma reg_is_iff : forall t a r b, inv t a -> (a_r a r = Some (true, Some b) <-> reg_is t r b).
Proof.
  intros t a f b I. rewrite <- (i_r _ _ I). unfold reg_is. split.
  - destruct (trs t f) as [x|]; cbn [option_map]; [|discriminate]. unfold rview. destruct (r_faces x) as [l|] eqn:E; cbn [option_map]; [|discriminate]. intros H. inversion H; subst. exists x. rewrite vw_fst. repeat (split; [auto; fail|]).
    intros k q Hk. apply vw_nth_error in Hk. rewrite <- rg_nat. apply Hk.
  - intros (x & -> & Hl & He & Hb). cbn [option_map]. unfold rview. rewrite Hl, He. cbn [option_map]. do 3 f_equal. apply vw_unique. intros k q Hk. rewrite rg_nat. auto.
Qed.

(** * C24 *)

Definition rotation {A} (x y : list A) : Prop := exists u v, x = u ++ v /\ y = v ++ u.
Lemma skipn_add : forall A i n (b : list A), skipn (i + n) b = skipn n (skipn i b).
Proof. induction i; intros; cbn; auto. destruct b; cbn; auto. rewrite skipn_nil. auto. Qed.
Lemma splice_spec : forall i n (nd b : list (ptr * bool)), (i < length b)%nat -> (1 <= n <= length b)%nat -> exists rest,
  skipn i b ++ firstn i b = run i n b ++ rest /\ rotation (splice i n nd b) (nd ++ rest).
Proof.
  intros i n nd b Hi Hn. unfold splice, run. destruct (Nat.leb_spec (i + n) (length b)) as [H|H].
  - exists (skipn (i + n) b ++ firstn i b). split.
    + rewrite firstn_app, skipn_length. replace (n - (length b - i))%nat with 0%nat by lia. rewrite firstn_O, app_nil_r. rewrite app_assoc. f_equal. rewrite skipn_add. symmetry. apply firstn_skipn.
    + exists (firstn i b), (nd ++ skipn (i + n) b). rewrite <- !app_assoc. auto.
  - set (k := (i + n - length b)%nat). exists (firstn (i - k) (skipn k b)). split.
    + rewrite firstn_app. rewrite skipn_length. rewrite (firstn_all2 (n := n) (skipn i b)) by (rewrite skipn_length; lia). replace (n - (length b - i))%nat with k by lia. rewrite <- app_assoc. f_equal.
      rewrite <- (firstn_skipn k (firstn i b)) at 1. rewrite firstn_firstn. replace (Nat.min k i) with k by lia. f_equal. apply skipn_firstn_comm.
    + exists (skipn (length b - i) nd ++ firstn (i - k) (skipn k b)), (firstn (length b - i) nd). rewrite <- !app_assoc. split; auto. rewrite app_assoc. rewrite firstn_skipn. auto.
Qed.
Definition sides_same (t t' : topo) (f : ptr) : Prop := exists x x', tfs t f = Some x /\ tfs t' f = Some x' /\ f_r0 x' = f_r0 x /\ f_r1 x' = f_r1 x.
Lemma slots_eq : forall p q : Z, (forall r, r <> NULL -> (p = r <-> q = r)) -> p = q.
Proof. intros p q H. destruct (Z.eq_dec p NULL) as [E1|E1]; [destruct (Z.eq_dec q NULL) as [E2|E2]; [congruence|apply (proj2 (H q E2)); auto]|symmetry; apply (proj1 (H p E1)); auto]. Qed.
Lemma inv_sides : forall t a t' a' f, inv t a -> inv t' a' -> a_f a f <> None -> a_f a' f <> None -> (forall r d, has_face a' r f d <-> has_face a r f d) -> sides_same t t' f.
Proof.
  intros t a t' a' f I I' H H' E. destruct (get_f _ _ _ I H) as (x & Hx & _). destruct (get_f _ _ _ I' H') as (x' & Hx' & _). exists x, x'. split; auto. split; auto.
  split; apply slots_eq; intros r Hr; destruct (i_uf _ _ I _ _ Hx r Hr) as [A B], (i_uf _ _ I' _ _ Hx' r Hr) as [A' B']; [rewrite A, A'|rewrite B, B']; auto.
Qed.

(** Only the edges are passed to the call; the directions in [nd] are those in
    which they continue the loop, and the code finds them.  Read from position [i]
    on, the old loop is [old ++ rest] and, up to where it starts, the new one is
    [nd ++ rest]; the sides of the face, the other faces and all regions stay. *)
Theorem C24_replace_edges : forall t a f i n nd rv, reach t a -> tpre a (TReplaceEdges f i n nd rv) ->
  exists t' b old rest b', MF_Replace_Edges_i t f (Z.of_nat n) (Z.of_nat i) (if rv then rev (map fst nd) else map fst nd) = Ok t' /\
    face_is t f b /\ face_is t' f b' /\ skipn i b ++ firstn i b = old ++ rest /\ length old = n /\ rotation b' (nd ++ rest) /\
    (i + n <= length b -> b' = firstn i b ++ nd ++ skipn (i + n) b)%nat /\
    (forall g c, g <> f -> (face_is t' g c <-> face_is t g c)) /\ (forall r c, reg_is t' r c <-> reg_is t r c) /\ sides_same t t' f /\ mutual t' /\ sound t'.
Proof.
  intros t a f i n nd rv R P. destruct (reach_step _ _ _ R P) as (t' & E & R'). pose proof (reach_inv _ _ R) as I. pose proof (reach_inv _ _ R') as I'.
  destruct P as ((b & Hb) & P). assert (Efb : fbdry a f = b) by (unfold fbdry; rewrite Hb; auto). cbv zeta in P. cbn [astep] in *. rewrite Efb in *. clear Efb. destruct P as (Hi & Hn & Hnd & _).
  destruct (splice_spec i n nd b Hi Hn) as (rest & S1 & S2). set (b' := splice i n nd b) in *.
  assert (Hf : a_f (set_fb a f b') f = Some (true, Some b')). { unfold set_fb. ra. rewrite upd_same, Hb. auto. }
  exists t', b, (run i n b), rest, b'. split; auto. split. apply (face_is_iff _ _ _ _ I); auto. split. apply (face_is_iff _ _ _ _ I'); auto. split; auto. split.
  { apply run_length; lia. }
  split; auto. split. { intros H. unfold b', splice. replace (i + n <=? length b)%nat with true by lia. auto. }
  split. { intros g c Hg. rewrite <- (face_is_iff _ _ _ _ I), <- (face_is_iff _ _ _ _ I'). unfold set_fb. ra. rewrite upd_other by auto. tauto. }
  split. { intros r c. rewrite <- (reg_is_iff _ _ _ _ I), <- (reg_is_iff _ _ _ _ I'). unfold set_fb. ra. tauto. }
  split. { eapply inv_sides; eauto; try congruence. intros r d. unfold has_face, set_fb. ra. tauto. }
  split. eapply inv_mutual; eauto. eapply inv_sound; eauto.
Qed.
Print Assumptions C24_replace_edges.

(** ** The call with edges in any order of faces of the example *)
Example C24_replace_edges_ex : exists a, reach T0 a /\
  tpre (arun a [TNewV; TNewE; TSetVertex 25 false 1; TSetVertex 25 true 24; TNewE; TSetVertex 26 false 2; TSetVertex 26 true 24])
       (TReplaceEdges 15 0 1 [(25, true); (26, false)] true).
Proof.
  exists (arun amesh0 tets). split.
  - exists tets. split. apply tallowedb_ok with (t := empty_topo). exact inv0. vm_compute. reflexivity. split. apply T0_ok. auto.
  - assert (H : tallowed amesh0 ((tets ++ [TNewV; TNewE; TSetVertex 25 false 1; TSetVertex 25 true 24; TNewE; TSetVertex 26 false 2; TSetVertex 26 true 24]) ++ [TReplaceEdges 15 0 1 [(25, true); (26, false)] true])).
    { apply tallowedb_ok with (t := empty_topo). exact inv0. vm_compute. reflexivity. }
    apply tallowed_app in H. destruct H as [_ H]. cbn [tallowed] in H. destruct H as [H _]. rewrite arun_app in H. exact H.
Qed.
(** A run of three edges of a six-edge face replaced by one: the directions of the
    edges that remain are not those they had. *)
Definition hexagon : list top := [TNewV; TNewV; TNewV; TNewV; TNewV; TNewV;
  TNewE; TSetVertex 7 false 1; TSetVertex 7 true 2; TNewE; TSetVertex 8 false 2; TSetVertex 8 true 3; TNewE; TSetVertex 9 false 4; TSetVertex 9 true 3;
  TNewE; TSetVertex 10 false 4; TSetVertex 10 true 5; TNewE; TSetVertex 11 false 6; TSetVertex 11 true 5; TNewE; TSetVertex 12 false 6; TSetVertex 12 true 1;
  TNewE; TSetVertex 13 false 1; TSetVertex 13 true 4; TNewF; TSetEdges 14 [(7, true); (8, true); (9, false); (10, true); (11, false); (12, true)]].
Definition T1 : topo := done (trun empty_topo hexagon).
Theorem C24_replace_three_by_one_refuted : exists t f b t', (exists a, reach t a) /\ face_is t f ([(7, true); (8, true); (9, false)] ++ b) /\
  MF_Replace_Edges_i t f 3 0 [13] = Ok t' /\ ~ face_is t' f ((13, true) :: b).
Proof.
  exists T1, 14, [(10, true); (11, false); (12, true)], (done (MF_Replace_Edges_i T1 14 3 0 [13])).
  assert (R : reach T1 (arun amesh0 hexagon)).
  { assert (H : tallowed amesh0 hexagon) by (apply tallowedb_ok with (t := empty_topo); [exact inv0|vm_compute; reflexivity]).
    destruct (trun_ok hexagon _ _ inv0 H) as (t & E & I). exists hexagon. split; [exact H|]. split; [unfold T1; rewrite E; reflexivity|reflexivity]. }
  split; [exists (arun amesh0 hexagon); exact R|]. split. { apply (face_is_iff _ _ _ _ (reach_inv _ _ R)). vm_compute. reflexivity. }
  split. vm_compute. reflexivity. intros (x & Hx & _ & _ & Hb). vm_compute in Hx. inversion Hx; subst x. specialize (Hb 1%nat (10, true) eq_refl). vm_compute in Hb. discriminate.
Qed.

(** * C25 *)

(** The region a call changes and the faces it names. *)
Definition region_call (a : amesh) (o : top) : option (ptr * list ptr) :=
  match o with
  | TSetFaces r b => Some (r, map fst b)
  | TRemFace r f => Some (r, [f])
  | TReplaceFace r i n => Some (r, [fst (nth i (rbdry a r) (NULL, true)); fst n])
  | TReplaceFaces r olds nus => Some (r, olds ++ map fst nus)
  | TSetFaceDir r f d => Some (r, [f])
  | _ => None
  end.
Definition others (fs : list ptr) (b : list (ptr * bool)) := filter (fun x => negb (mem (fst x) fs)) b.

Lemma filter_filter : forall A (p q : A -> bool) l, (forall x, p x = true -> q x = true) -> filter p (filter q l) = filter p l.
Proof.
  intros A p q l H. induction l as [|x l IH]; cbn; auto. specialize (H x). destruct (q x) eqn:Eq; cbn; [destruct (p x); rewrite IH; auto|].
  destruct (p x) eqn:Ep; auto. specialize (H eq_refl). discriminate.
Qed.
Lemma others_subst1 : forall fs o n b, mem o fs = true -> mem (fst n) fs = true -> others fs (subst1 o n b) = others fs b.
Proof.
  intros fs o n b Ho Hn. unfold others, subst1. induction b as [|[g e] b IH]; cbn; auto. destruct (Z.eqb_spec g o); cbn.
  - subst g. rewrite Hn, Ho. cbn. auto.
  - rewrite IH. auto.
Qed.
Lemma others_all : forall fs b, (forall p, In p (map fst b) -> In p fs) -> others fs b = [].
Proof. intros fs b H. unfold others. induction b as [|[g e] b IH]; cbn; auto. replace (mem g fs) with true. cbn. apply IH. intros. apply H. cbn; auto. symmetry. apply mem_In. apply H. cbn; auto. Qed.
Lemma others_subst : forall fs olds nus b, (forall p, In p olds -> In p fs) -> (forall p, In p (map fst nus) -> In p fs) -> others fs (subst_all olds nus b) = others fs b.
Proof.
  intros fs. induction olds as [|o olds IH]; intros nus b Ho Hn; cbn [subst_all].
  - unfold others. rewrite filter_app. fold (others fs nus). rewrite (others_all fs nus) by auto. apply app_nil_r.
  - destruct nus as [|n nus]; auto. rewrite IH. apply others_subst1; apply mem_In; [apply Ho|apply Hn]; cbn; auto. intros; apply Ho; cbn; auto. intros; apply Hn; cbn; auto.
Qed.
Lemma others_point : forall fs f d b, In f fs -> others fs (point f d b) = others fs b.
Proof.
  intros fs f d b Hf. unfold others, point. induction b as [|[g e] b IH]; cbn; auto. destruct (Z.eqb_spec g f); cbn.
  - subst g. replace (mem f fs) with true. cbn. auto. symmetry. apply mem_In. auto.
  - rewrite IH. auto.
Qed.
Lemma others_In : forall fs b b' f d, others fs b' = others fs b -> ~ In f fs -> (In (f, d) b' <-> In (f, d) b).
Proof.
  intros fs b b' f d E Hf. assert (H : forall c, In (f, d) c <-> In (f, d) (others fs c)). { intros c. unfold others. rewrite filter_In. cbn. replace (mem f fs) with false. cbn; tauto. symmetry. apply not_true_iff_false. rewrite mem_In. auto. }
  rewrite (H b'), (H b), E. tauto.
Qed.
Lemma region_call_spec : forall a o r fs, tpre a o -> region_call a o = Some (r, fs) ->
  exists y b', a_r a r = Some (true, y) /\ astep a o = set_rb a r b' /\ others fs b' = others fs (match y with Some b => b | None => [] end).
Proof.
  intros a o r fs P E. destruct o; try discriminate E; cbn [region_call] in E; inversion E; subst; clear E; cbn [tpre astep] in *.
  - destruct P as (Hf & _). assert (Ho : others (map fst b) b = []) by (apply others_all; auto). destruct Hf as [Hf|Hf]; exists (match a_r a r with Some (_, y) => y | _ => None end), b; rewrite Hf; auto.
  - destruct P as (b & Hb). exists (Some b). eexists. split; auto. split. reflexivity. unfold rbdry. rewrite Hb. unfold others, drop. apply filter_filter. intros [g e]. cbn. destruct (Z.eqb_spec f g), (Z.eqb_spec g f); cbn; auto; congruence.
  - destruct P as ((b & Hb) & Hi & _). exists (Some b). eexists. split; auto. split. reflexivity. unfold rbdry in *. rewrite Hb in *.
    assert (Es : skipn i b = nth i b (NULL, true) :: skipn (S i) b).
    { clear - Hi. revert i Hi. induction b as [|x b IH]; intros [|i] Hi; cbn in *; try lia; auto. apply IH. lia. }
    match goal with |- others ?F _ = _ => transitivity (others F (firstn i b ++ skipn i b)); [|rewrite firstn_skipn; auto] end.
    rewrite Es. unfold others. rewrite !filter_app. f_equal. cbn [filter fst]. replace (mem (fst n) _) with true by (symmetry; apply mem_In; cbn; auto). replace (mem (fst (nth i b (NULL, true))) _) with true by (symmetry; apply mem_In; cbn; auto). auto.
  - destruct P as ((b & Hb) & _). exists (Some b). eexists. split; auto. split. reflexivity. unfold rbdry. rewrite Hb. apply others_subst; intros p Hp; apply in_app_iff; auto.
  - destruct P as ((b & Hb) & _). exists (Some b). eexists. split; auto. split. reflexivity. unfold rbdry. rewrite Hb. apply others_point. cbn; auto.
Qed.

(** MR_Set_Faces, MR_Rem_Face, MR_Replace_Face_i, MR_Replace_Faces, MR_Set_FaceDir:
    the faces not named keep their order and directions in the region and both
    their sides; other regions and the faces themselves are unchanged. *)
Theorem C25_other_faces_kept : forall t a o r fs, reach t a -> tpre a o -> region_call a o = Some (r, fs) ->
  exists t', tstep t o = Ok t' /\ mutual t' /\
    (forall b, reg_is t r b -> exists b', reg_is t' r b' /\ others fs b' = others fs b) /\
    (forall f, tfs t f <> None -> ~ In f fs -> sides_same t t' f) /\
    (forall q c, q <> r -> (reg_is t' q c <-> reg_is t q c)) /\ (forall g c, face_is t' g c <-> face_is t g c).
Proof.
  intros t a o r fs R P C. destruct (reach_step _ _ _ R P) as (t' & E & R'). pose proof (reach_inv _ _ R) as I. pose proof (reach_inv _ _ R') as I'.
  destruct (region_call_spec _ _ _ _ P C) as (y & b' & Hr & Ea & Ho). rewrite Ea in *.
  assert (Hr' : a_r (set_rb a r b') r = Some (true, Some b')). { unfold set_rb. ra. rewrite upd_same, Hr. auto. }
  exists t'. split; auto. split. eapply inv_mutual; eauto. split; [|split; [|split]].
  - intros b Hb. exists b'. split. apply (reg_is_iff _ _ _ _ I'); auto. apply (reg_is_iff _ _ _ _ I) in Hb. rewrite Hr in Hb. inversion Hb; subst. auto.
  - intros f Hf Hn. assert (Hf' : a_f a f <> None) by (rewrite <- (i_f _ _ I); destruct (tfs t f); [discriminate|congruence]).
    apply (inv_sides t a t' (set_rb a r b')); auto. intros q d. unfold has_face. destruct (Z.eq_dec q r) as [->|Hq].
    + rewrite Hr', Hr. split.
      * intros (c & Hc & Hi). inversion Hc; subst c. apply (others_In _ _ _ _ _ Ho Hn) in Hi. destruct y as [b|]; [|contradiction]. exists b. auto.
      * intros (c & Hc & Hi). inversion Hc; subst y. exists b'. split; auto. apply (others_In _ _ _ _ _ Ho Hn). auto.
    + unfold set_rb. ra. rewrite upd_other by auto. tauto.
  - intros q c Hq. rewrite <- (reg_is_iff _ _ _ _ I), <- (reg_is_iff _ _ _ _ I'). unfold set_rb. ra. rewrite upd_other by auto. tauto.
  - intros g c. rewrite <- (face_is_iff _ _ _ _ I), <- (face_is_iff _ _ _ _ I'). unfold set_rb. ra. tauto.
Qed.
Print Assumptions C25_other_faces_kept.
Lemma T0_reach : reach T0 (arun amesh0 tets).
Proof.
  exists tets. split; [|split; [apply T0_ok|reflexivity]]. apply tallowedb_ok with (t := empty_topo). exact inv0. vm_compute. reflexivity.
Qed.
Lemma T0_pre : forall o, tpreb (arun amesh0 tets) o = true -> tpre (arun amesh0 tets) o.
Proof. intros o H. apply tpreb_ok; auto. apply (i_w _ _ (reach_inv _ _ T0_reach)). Qed.
Example C25_other_faces_kept_ex : exists o, tpre (arun amesh0 tets) o /\ region_call (arun amesh0 tets) o = Some (22, [16; 15; 20; 19]) /\
  reg_is T0 22 [(15, false); (16, true); (17, true); (18, false)].
Proof.
  exists (TReplaceFaces 22 [16; 15] [(20, false); (19, false)]). split. apply T0_pre. vm_compute. reflexivity. split. vm_compute. reflexivity.
  apply (reg_is_iff _ _ _ _ (reach_inv _ _ T0_reach)). vm_compute. reflexivity.
Qed.

(** * C27 *)

(** The same vertices, edges, faces and regions with the same downward data and,
    up to order, the same upward data. *)
Definition opt2 {A} (R : A -> A -> Prop) (x y : option A) : Prop := match x, y with Some x, Some y => R x y | None, None => True | _, _ => False end.
Record same_mesh (t t' : topo) : Prop := mkSame {
  sm_v : forall p, opt2 (fun x y => v_live x = v_live y /\ Permutation (v_edges x) (v_edges y)) (tvs t p) (tvs t' p);
  sm_e : forall p, opt2 (fun x y => e_live x = e_live y /\ e_v0 x = e_v0 y /\ e_v1 x = e_v1 y /\ Permutation (e_faces x) (e_faces y)) (tes t p) (tes t' p);
  sm_f : forall p, opt2 (fun x y => f_live x = f_live y /\ f_edges x = f_edges y /\ f_r0 x = f_r0 y /\ f_r1 x = f_r1 y /\
           forall k l, f_edges x = Some l -> (k < length l)%nat -> Z.testbit (f_edirs x) (Z.of_nat k) = Z.testbit (f_edirs y) (Z.of_nat k)) (tfs t p) (tfs t' p);
  sm_r : forall p, opt2 (fun x y => r_live x = r_live y /\ r_faces x = r_faces y /\
           forall k l, r_faces x = Some l -> (k < length l)%nat -> Z.testbit (nth (k / 32) (r_fdirs x) 0) (Z.of_nat (k mod 32)) = Z.testbit (nth (k / 32) (r_fdirs y) 0) (Z.of_nat (k mod 32))) (trs t p) (trs t' p) }.

Lemma vw_inj : forall l l' i g g', vw l i g = vw l' i g' -> l = l' /\ forall k, (k < length l)%nat -> g (i + Z.of_nat k) = g' (i + Z.of_nat k).
Proof.
  induction l as [|x l IH]; intros [|y l'] i g g' H; cbn [vw] in H; try discriminate.
  - split; auto. intros k Hk. cbn in Hk. lia.
  - inversion H as [[H1 H2 H3]]. destruct (IH _ _ _ _ H3) as [-> HH]. split; auto. intros [|k] Hk.
    + change (Z.of_nat 0) with 0. rewrite Z.add_0_r. auto.
    + replace (i + Z.of_nat (S k)) with (i + 1 + Z.of_nat k) by lia. apply HH. cbn in Hk. lia.
Qed.
Lemma inv_same : forall t t' a, inv t a -> inv t' a -> same_mesh t t'.
Proof.
  intros t t' a I I'. constructor; intros p.
  - pose proof (i_v _ _ I p) as E. rewrite <- (i_v _ _ I' p) in E. destruct (tvs t p) as [x|] eqn:E1, (tvs t' p) as [y|] eqn:E2; cbn in *; try discriminate; auto. split. congruence.
    destruct (i_uv _ _ I _ _ E1) as [N1 H1], (i_uv _ _ I' _ _ E2) as [N2 H2]. apply NoDup_Permutation; auto. intros z. rewrite H1, H2. tauto.
  - pose proof (i_e _ _ I p) as E. rewrite <- (i_e _ _ I' p) in E. destruct (tes t p) as [x|] eqn:E1, (tes t' p) as [y|] eqn:E2; cbn in *; try discriminate; auto. unfold eview in E. inversion E as [[Q1 Q2 Q3]]. repeat (split; [congruence|]).
    destruct (i_ue _ _ I _ _ E1) as [N1 H1], (i_ue _ _ I' _ _ E2) as [N2 H2]. apply NoDup_Permutation; auto. intros z. rewrite H1, H2. tauto.
  - pose proof (i_f _ _ I p) as E. rewrite <- (i_f _ _ I' p) in E. destruct (tfs t p) as [x|] eqn:E1, (tfs t' p) as [y|] eqn:E2; cbn [option_map opt2] in *; try discriminate; auto. unfold fview in E. inversion E as [[El Ef]].
    split; auto. assert (Ee : f_edges x = f_edges y /\ forall k l, f_edges x = Some l -> (k < length l)%nat -> Z.testbit (f_edirs x) (Z.of_nat k) = Z.testbit (f_edirs y) (Z.of_nat k)).
    { destruct (f_edges x) as [l|], (f_edges y) as [l'|]; cbn in Ef; try discriminate; [|split; auto; discriminate]. inversion Ef as [Ev]. apply vw_inj in Ev. destruct Ev as [-> Ev]. split; auto. intros k l Hl Hk. inversion Hl; subst l. apply (Ev k). auto. }
    destruct Ee as [Ee1 Ee2]. split; auto. split; [|split; auto]; apply slots_eq; intros r Hr; destruct (i_uf _ _ I _ _ E1 r Hr) as [A B], (i_uf _ _ I' _ _ E2 r Hr) as [A' B']; [rewrite A, A'|rewrite B, B']; tauto.
  - pose proof (i_r _ _ I p) as E. rewrite <- (i_r _ _ I' p) in E. destruct (trs t p) as [x|] eqn:E1, (trs t' p) as [y|] eqn:E2; cbn [option_map opt2] in *; try discriminate; auto. unfold rview in E. inversion E as [[El Ef]].
    split; auto. destruct (r_faces x) as [l|], (r_faces y) as [l'|]; cbn [option_map] in Ef; try discriminate; [|split; auto; discriminate]. inversion Ef as [Ev]. apply vw_inj in Ev. destruct Ev as [-> Ev]. split; auto. intros k l Hl Hk. inversion Hl; subst l. rewrite <- !rg_nat. apply (Ev k). auto.
Qed.

(** Deleting with keep and restoring. *)
Lemma round_trip : forall t a o1 o2, reach t a -> tpre a o1 -> tpre (astep a o1) o2 -> aeq (astep (astep a o1) o2) a ->
  exists t1 t2, tstep t o1 = Ok t1 /\ tstep t1 o2 = Ok t2 /\ mutual t1 /\ mutual t2 /\ same_mesh t t2.
Proof.
  intros t a o1 o2 R P1 P2 E. destruct (reach_step _ _ _ R P1) as (t1 & E1 & R1). destruct (reach_step _ _ _ R1 P2) as (t2 & E2 & R2). exists t1, t2. split; auto. split; auto.
  pose proof (reach_inv _ _ R) as I. pose proof (reach_inv _ _ R1) as I1. pose proof (reach_inv _ _ R2) as I2. split. eapply inv_mutual; eauto. split. eapply inv_mutual; eauto.
  apply inv_same with (a := a); auto. eapply inv_ext; eauto.
Qed.
Lemma kill_revive : forall A (m : ptr -> option (bool * A)) p x, m p = Some (true, x) -> forall q, revive (kill m p true) p q = m q.
Proof. intros A m p x H q. unfold revive, kill, upd. rewrite Z.eqb_refl, H. destruct (Z.eqb_spec q p); subst; auto. Qed.
Theorem C27_vertex_delete_restore : forall t a v, reach t a -> live_v a v -> (forall e, ~ is_end a e v) ->
  exists t1 t2, MV_Delete t v true = Ok t1 /\ MV_Restore t1 v = Ok t2 /\ mutual t1 /\ mutual t2 /\ same_mesh t t2.
Proof.
  intros t a v R H1 H2. apply (round_trip t a (TDelV v true) (TResV v)); auto.
  - cbn. unfold live_v in H1. split; [congruence|auto].
  - cbn. ra. rewrite upd_same. unfold live_v in H1. rewrite H1. auto.
  - unfold aeq. cbn. split; [|auto]. intros q. unfold upd. rewrite Z.eqb_refl. destruct (Z.eqb_spec q v); subst; auto. unfold live_v in H1. rewrite H1. auto.
Qed.
Theorem C27_edge_delete_restore : forall t a e v0 v1, reach t a -> a_e a e = Some (true, (v0, v1)) -> live_v a v0 -> live_v a v1 -> (forall f, ~ has_edge a f e) ->
  exists t1 t2, ME_Delete t e true = Ok t1 /\ ME_Restore t1 e = Ok t2 /\ mutual t1 /\ mutual t2 /\ same_mesh t t2.
Proof.
  intros t a e v0 v1 R H1 L0 L1 H2. apply (round_trip t a (TDelE e true) (TResE e)); auto.
  - cbn. split; [congruence|auto].
  - cbn. exists v0, v1. split; auto. unfold kill. rewrite upd_same, H1. auto.
  - unfold aeq. cbn. split; [auto|]. split; [|auto]. intros q. apply kill_revive with (x := (v0, v1)). auto.
Qed.
Theorem C27_face_delete_restore : forall t a f b, reach t a -> a_f a f = Some (true, Some b) -> (forall r d, ~ has_face a r f d) ->
  exists t1 t2, MF_Delete t f true = Ok t1 /\ MF_Restore t1 f = Ok t2 /\ mutual t1 /\ mutual t2 /\ same_mesh t t2.
Proof.
  intros t a f b R H1 H2. pose proof (i_w _ _ (reach_inv _ _ R)) as W. apply (round_trip t a (TDelF f true) (TResF f)); auto.
  - cbn. split; [congruence|auto].
  - cbn. exists b. split; [|apply (w_fe _ W _ _ H1)]. unfold kill. rewrite upd_same, H1. auto.
  - unfold aeq. cbn. split; [auto|]. split; [auto|]. split; [|auto]. intros q. apply kill_revive with (x := Some b). auto.
Qed.
Theorem C27_region_delete_restore : forall t a r b, reach t a -> a_r a r = Some (true, Some b) ->
  exists t1 t2, MR_Delete t r true = Ok t1 /\ MR_Restore t1 r = Ok t2 /\ mutual t1 /\ mutual t2 /\ same_mesh t t2.
Proof.
  intros t a r b R H1. pose proof (reach_inv _ _ R) as I. pose proof (i_w _ _ I) as W. apply (round_trip t a (TDelR r true) (TResR r)); auto.
  - cbn. congruence.
  - cbn. exists b. split; [|split]; [|apply (w_rf _ W _ _ H1)|]. unfold kill. rewrite upd_same, H1. auto.
    intros f d q Hi (c & Hc & Hm). revert Hc. ra. unfold kill, upd. destruct (Z.eqb_spec q r); auto. intros Hc.
    assert (Hf : full_f a f). { eapply full_in. apply (w_rf _ W _ _ H1). apply in_map_iff. exists (f, d). auto. }
    destruct (full_some _ _ _ I Hf) as [z Hz].
    assert (Nr : r <> NULL) by (apply (r_nonnull _ _ _ I); congruence). assert (Nq : q <> NULL) by (apply (r_nonnull _ _ _ I); congruence).
    assert (Z1 : slot z d = r) by (apply (slot_has _ _ _ _ _ _ I Hz Nr); exists b; auto). assert (Z2 : slot z d = q) by (apply (slot_has _ _ _ _ _ _ I Hz Nq); exists c; auto). congruence.
  - unfold aeq. cbn. split; [auto|]. split; [auto|]. split; [auto|]. split; [|auto]. intros q. apply kill_revive with (x := Some b). auto.
Qed.
Print Assumptions C27_vertex_delete_restore.
Print Assumptions C27_edge_delete_restore.
Print Assumptions C27_face_delete_restore.
Print Assumptions C27_region_delete_restore.
Definition Td : topo := done (trun T0 [TDelR 22 true; TDelR 23 true; TDelF 15 true; TDelF 16 true; TNewV]).
Example C27_delete_restore_ex : exists a b, reach T0 a /\ a_r a 22 = Some (true, Some b) /\ length b = 4%nat.
Proof. exists (arun amesh0 tets). eexists. split. exact T0_reach. split. vm_compute. reflexivity. reflexivity. Qed.
Example C27_delete_restore_ex2 : exists t a b, reach t a /\ a_v a 24 = Some true /\ a_e a 6 = Some (true, (1, 2)) /\ a_f a 18 = Some (true, Some b) /\
  (forall e, ~ is_end a e 24) /\ (forall f, ~ has_edge a f 6) /\ forall r d, ~ has_face a r 18 d.
Proof.
  set (ops := tets ++ [TDelR 22 true; TDelR 23 true; TDelF 15 true; TDelF 16 true; TNewV]).
  assert (H : tallowed amesh0 ops) by (apply tallowedb_ok with (t := empty_topo); [exact inv0|vm_compute; reflexivity]).
  assert (HA : tallowed amesh0 (ops ++ [TDelV 24 true])) by (apply tallowedb_ok with (t := empty_topo); [exact inv0|vm_compute; reflexivity]).
  assert (HB : tallowed amesh0 (ops ++ [TDelE 6 true])) by (apply tallowedb_ok with (t := empty_topo); [exact inv0|vm_compute; reflexivity]).
  assert (HC : tallowed amesh0 (ops ++ [TDelF 18 true])) by (apply tallowedb_ok with (t := empty_topo); [exact inv0|vm_compute; reflexivity]).
  apply tallowed_app in HA. destruct HA as (_ & (_ & A) & _). apply tallowed_app in HB. destruct HB as (_ & (_ & B) & _). apply tallowed_app in HC. destruct HC as (_ & (_ & C) & _).
  destruct (trun_ok ops _ _ inv0 H) as (t & E & I). exists t, (arun amesh0 ops). eexists.
  split. { exists ops. split; [exact H|]. split; [exact E|reflexivity]. }
  split. vm_compute. reflexivity. split. vm_compute. reflexivity. split. vm_compute. reflexivity. 
  split; [apply A; vm_compute; reflexivity|]. split; [apply B; eexists; vm_compute; reflexivity|apply C; eexists; vm_compute; reflexivity].
Qed.
