(** C53: the interior of a mesh is deleted (MESH_DelInterior.c). *)
From Coq Require Import ZArith Bool List Lia Arith ZifyBool ZifyNat.
From Verif Require Import Base BaseProofs ListSpec AttModel TopoModel TopoSpec TopoProofs TopoProofs2 TopoProofs3 TopoProps TopoProps2 CheckProps ModProofs FileModel FileSpec SendModel SendSpec PartSpec FileProofs4 PartProps InteriorModel InteriorSpec InteriorProofs.
Import ListNotations.
Open Scope Z_scope.

Lemma inb_rf : forall inner l p, inb p (rev (filter inner l)) = true <-> In p l /\ inner p = true.
Proof. intros. rewrite inb_ok, <- in_rev, filter_In. reflexivity. Qed.
Lemma in_outer : forall inner l p, In p (filter (outer inner) l) <-> In p l /\ inner p = false.
Proof. intros. rewrite filter_In. unfold outer. rewrite negb_true_iff. reflexivity. Qed.
Lemma kept : forall A (m m' : ptr -> option A) inner l, (forall p, m' p = if inb p (rev (filter inner l)) then None else m p) ->
  forall (L : option A -> Prop), ~ L None -> (forall p, In p l <-> L (m p)) -> (forall p, In p (filter (outer inner) l) <-> L (m' p)) /\ (forall p, inner p = false -> m' p = m p) /\ (forall p, L (m' p) -> m' p = m p).
Proof.
  intros A m m' inner l E L NL H. split; [|split].
  - intro p. rewrite in_outer, E. destruct (inb p (rev (filter inner l))) eqn:B.
    + apply inb_rf in B. destruct B as [_ B]. rewrite B. split; [intros [_ X]; discriminate|contradiction].
    + rewrite <- H. split; [tauto|]. intro X. split; auto. destruct (inner p) eqn:Ip; auto. assert (inb p (rev (filter inner l)) = true) by (apply inb_rf; auto). congruence.
  - intros p Ip. rewrite E. destruct (inb p (rev (filter inner l))) eqn:B; auto. apply inb_rf in B. destruct B. congruence.
  - intros p. rewrite E. destruct (inb p (rev (filter inner l))); [contradiction|auto].
Qed.
Lemma none_left : forall l, filter (outer (fun _ => true)) l = [].
Proof. induction l; auto. Qed.
Definition alive {A} (x : option (bool * A)) : Prop := exists y, x = Some (true, y).

(** Exactly what is classified on lower dimensions stays, with the same boundary, and the mesh can be
    used on. *)
Theorem C53_interior : forall s a n, partable s a -> of_dim s n -> closed_under s a n ->
  exists s' a', MESH_DelInterior s = Ok (1, s') /\ partable s' a' /\ boundary s a n s' a'.
Proof.
  intros s a n P (N13 & NE & UP) (CF & CE). pose proof (pa_reach _ _ P) as RE. pose proof (reach_inv _ _ RE) as I. set (m := sm_m s).
  assert (TD : top_dim m = n).
  { unfold top_dim, ZL. pose proof (UP 3) as U3. pose proof (UP 2) as U2. change (skind s 3) with (fm_r m) in U3. change (skind s 2) with (fm_f m) in U2. assert (n = 1 \/ n = 2 \/ n = 3) as [-> | [-> | ->]] by lia.
    - rewrite U3, U2 by lia. change (skind s 1) with (fm_e m) in NE. destruct (fm_e m); [contradiction|]. reflexivity.
    - rewrite U3 by lia. change (skind s 2) with (fm_f m) in NE. destruct (fm_f m); [contradiction|]. reflexivity.
    - change (skind s 3) with (fm_r m) in NE. destruct (fm_r m); [contradiction|]. reflexivity. }
  set (inner := fun p => fst (fm_c m p) =? n). set (all := fun _ : ptr => true).
  assert (ST : forall d p, d <> 3 -> (stays s n d p <-> In p (skind s d) /\ inner p = false)). { intros d p D. unfold stays, inner. fold m. split; [intros (A & _ & B); split; [auto|lia]|intros (A & B); split; [auto|split; [auto|lia]]]. }
  assert (NDL : forall (f : ptr -> bool) l, NoDup l -> NoDup (rev (filter f l))) by (intros; apply NoDup_rev, NoDup_filter; auto).
  (* regions *)
  destruct (delete_back_ok MR_Delete (fun r => TDelR r false) all (fun _ _ => eq_refl) (fm_r m) (fm_t m) a RE) as (t1 & E1 & R1).
  { apply may_delR; [apply NDL, (pa_nd _ _ P 3)|]. intros x Hx. rewrite <- in_rev in Hx. apply filter_In in Hx. destruct Hx as [Hx _]. apply (pa_r _ _ P) in Hx. destruct Hx as (y & ->). discriminate. }
  destruct (run_delR (rev (filter all (fm_r m))) a) as (V1 & D1 & F1 & A1). cbv zeta in *. set (a1 := arun a (map (fun r => TDelR r false) (rev (filter all (fm_r m))))) in *.
  assert (NR : forall r, ~ alive (a_r a1 r)). { intros r (y & E). rewrite A1 in E. destruct (inb r _) eqn:B; [discriminate|]. assert (inb r (rev (filter all (fm_r m))) = true); [|congruence]. apply inb_rf. split; auto. apply (pa_r _ _ P). exists y. exact E. }
  (* faces *)
  destruct (delete_back_ok MF_Delete (fun r => TDelF r false) inner (fun _ _ => eq_refl) (fm_f m) t1 a1 R1) as (t2 & E2 & R2).
  { apply may_delF; [apply NDL, (pa_nd _ _ P 2)| |].
    - intros x Hx. rewrite <- in_rev in Hx. apply filter_In in Hx. destruct Hx as [Hx _]. apply (pa_f _ _ P) in Hx. rewrite F1. destruct Hx as (y & ->). discriminate.
    - intros x r d _ (b & E & _). apply (NR r). exists (Some b). exact E. }
  destruct (run_delF (rev (filter inner (fm_f m))) a1) as (V2 & D2 & Q2 & A2). cbv zeta in *. set (a2 := arun a1 (map (fun r => TDelF r false) (rev (filter inner (fm_f m))))) in *.
  rewrite F1 in A2. destruct (kept _ _ _ _ _ A2 alive) as (K2 & S2 & L2); [intros (y & Y); discriminate|exact (pa_f _ _ P)|].
  (* edges *)
  destruct (delete_back_ok ME_Delete (fun r => TDelE r false) inner (fun _ _ => eq_refl) (fm_e m) t2 a2 R2) as (t3 & E3 & R3).
  { apply may_delE; [apply NDL, (pa_nd _ _ P 1)| |].
    - intros x Hx. rewrite <- in_rev in Hx. apply filter_In in Hx. destruct Hx as [Hx _]. apply (pa_e _ _ P) in Hx. rewrite D2, D1. destruct Hx as (y & ->). discriminate.
    - intros x f Hx (b & E & H). rewrite <- in_rev in Hx. apply filter_In in Hx. destruct Hx as [_ Hx]. assert (AL : alive (a_f a2 f)) by (exists (Some b); exact E). assert (SF : stays s n 2 f) by (apply ST; [lia|]; apply in_outer; apply K2; exact AL). rewrite (L2 _ AL) in E. assert (SE : stays s n 1 x) by (apply (CF f); [auto|]; exists b; auto). apply ST in SE; [|lia]. destruct SE. congruence. }
  destruct (run_delE (rev (filter inner (fm_e m))) a2) as (V3 & F3 & Q3 & A3). cbv zeta in *. set (a3 := arun a2 (map (fun r => TDelE r false) (rev (filter inner (fm_e m))))) in *.
  rewrite D2, D1 in A3. destruct (kept _ _ _ _ _ A3 alive) as (K3 & S3 & L3); [intros (y & Y); discriminate|exact (pa_e _ _ P)|].
  (* vertices *)
  destruct (delete_back_ok MV_Delete (fun r => TDelV r false) inner (fun _ _ => eq_refl) (fm_v m) t3 a3 R3) as (t4 & E4 & R4).
  { apply may_delV; [apply NDL, (pa_nd _ _ P 0)| |].
    - intros x Hx. rewrite <- in_rev in Hx. apply filter_In in Hx. destruct Hx as [Hx _]. apply (pa_v _ _ P) in Hx. rewrite V3, V2, V1. unfold live_v in Hx. rewrite Hx. discriminate.
    - intros x e Hx (v0 & v1 & E & H). rewrite <- in_rev in Hx. apply filter_In in Hx. destruct Hx as [_ Hx]. assert (AL : alive (a_e a3 e)) by (exists (v0, v1); exact E). assert (SE : stays s n 1 e) by (apply ST; [lia|]; apply in_outer; apply K3; exact AL). rewrite (L3 _ AL) in E. assert (SV : stays s n 0 x) by (apply (CE e); [auto|]; exists v0, v1; auto). apply ST in SV; [|lia]. destruct SV. congruence. }
  destruct (run_delV (rev (filter inner (fm_v m))) a3) as (D4 & F4 & Q4 & A4). cbv zeta in *. set (a4 := arun a3 (map (fun r => TDelV r false) (rev (filter inner (fm_v m))))) in *.
  rewrite V3, V2, V1 in A4. destruct (kept _ _ _ _ _ A4 (fun x => x = Some true)) as (K4 & S4 & L4); [discriminate|exact (pa_v _ _ P)|].
  assert (FR : filter (outer all) (fm_r m) = []) by apply none_left.
  eexists. exists a4. split; [unfold MESH_DelInterior; fold m; rewrite TD; replace (n =? 0) with false by lia; fold inner all; rewrite E1; cbn [bind]; rewrite E2; cbn [bind]; rewrite E3; cbn [bind]; rewrite E4; cbn [bind]; rewrite FR; reflexivity|].
  set (s' := mkSM _ _ _).
  assert (IN : forall d p, In p (skind s' d) <-> stays s n d p).
  { intros d p. destruct (Z.eq_dec d 3) as [->|D3]; [split; [intros []|intros (_ & X & _); contradiction]|]. rewrite ST by auto. unfold skind, kind. subst s'. cbn [sm_m fm_v fm_e fm_f fm_r]. fold m. destruct (d =? 0); [apply in_outer|]. destruct (d =? 1); [apply in_outer|]. destruct (d =? 2); [apply in_outer|]. destruct (Z.eqb_spec d 3); [contradiction|]. cbn [In]. tauto. }
  split; [|].
  - constructor.
    + exact R4.
    + intro d. pose proof (pa_nd _ _ P d) as ND. unfold skind, kind in *. subst s'. cbn [sm_m fm_v fm_e fm_f fm_r]. fold m in ND. destruct (d =? 0); [apply NoDup_filter; exact ND|]. destruct (d =? 1); [apply NoDup_filter; exact ND|]. destruct (d =? 2); [apply NoDup_filter; exact ND|]. destruct (d =? 3); constructor.
    + exact K4.
    + intro p. unfold live_e. rewrite D4. exact (K3 p).
    + intro p. unfold live_f. rewrite F4, F3. exact (K2 p).
    + intro p. split; [intros []|]. intros (y & E). rewrite Q4, Q3, Q2 in E. exfalso. apply (NR p). exists y. exact E.
    + intros e v0 v1 E. rewrite D4 in E. apply (pa_ends _ _ P e). rewrite <- (L3 e); [exact E|]. exists (v0, v1). exact E.
    + intros f E. rewrite F4, F3 in E. apply (pa_faces _ _ P f). rewrite <- (L2 f); [exact E|]. exists None. exact E.
    + intros f b E. rewrite F4, F3 in E. apply (pa_loops _ _ P f). rewrite <- (L2 f); [exact E|]. exists (Some b). exact E.
    + intros r E. rewrite Q4, Q3, Q2 in E. apply (NR r). exists None. exact E.
    + intros d p H. apply IN in H. apply (pa_class _ _ P d p). apply H.
  - constructor.
    + exact IN.
    + intros d p q B. unfold skind, kind in *. subst s'. cbn [sm_m fm_v fm_e fm_f fm_r] in B. fold m. destruct (d =? 0); [eapply filter_before; exact B|]. destruct (d =? 1); [eapply filter_before; exact B|]. destruct (d =? 2); [eapply filter_before; exact B|]. destruct (d =? 3); destruct B as ([|] & ? & ? & B); discriminate.
    + intros e H. apply ST in H; [|lia]. rewrite D4. apply S3. apply H.
    + intros f H. apply ST in H; [|lia]. rewrite F4, F3. apply S2. apply H.
    + repeat split.
Qed.
Print Assumptions C53_interior.

(** Nothing is done to a mesh of vertices. *)
Theorem C53_vertices : forall s, (forall k, 1 <= k <= 3 -> skind s k = []) -> MESH_DelInterior s = Ok (0, s).
Proof. intros s H. pose proof (H 1 ltac:(lia)) as H1. pose proof (H 2 ltac:(lia)) as H2. pose proof (H 3 ltac:(lia)) as H3. change (skind s 1) with (fm_e (sm_m s)) in H1. change (skind s 2) with (fm_f (sm_m s)) in H2. change (skind s 3) with (fm_r (sm_m s)) in H3. unfold MESH_DelInterior, top_dim, ZL. rewrite H1, H2, H3. reflexivity. Qed.
Print Assumptions C53_vertices.

(** Of a volume mesh with the right classification the surface is left: the faces with one region, their
    edges and vertices. *)
Theorem C53_surface : forall s a, partable s a -> of_dim s 3 -> classified s a ->
  exists s' a', MESH_DelInterior s = Ok (1, s') /\ partable s' a' /\ boundary s a 3 s' a' /\
    (forall f, In f (skind s' 2) <-> In f (skind s 2) /\ ~ two_cells a f) /\
    (forall e, In e (skind s' 1) <-> exists f, In f (skind s' 2) /\ has_edge a' f e) /\
    (forall v, In v (skind s' 0) <-> exists e, In e (skind s' 1) /\ is_end a' e v) /\ skind s' 3 = [].
Proof.
  intros s a P D C. pose proof (reach_inv _ _ (pa_reach _ _ P)) as I.
  assert (HF : forall f e, has_edge a f e -> In f (skind s 2) /\ In e (skind s 1)). { intros f e (b & E & H). split; [apply (pa_f _ _ P); eexists; eauto|]. apply (pa_e _ _ P). pose proof (w_fe _ (i_w _ _ I) _ _ E) as W. rewrite Forall_forall in W. apply in_map_iff in H. destruct H as (x & <- & H). apply (W x H). }
  assert (HE : forall e v, is_end a e v -> In e (skind s 1) /\ In v (skind s 0)). { intros e v (v0 & v1 & E & H). split; [apply (pa_e _ _ P); eexists; eauto|]. apply (pa_v _ _ P). destruct (pa_ends _ _ P _ _ _ E) as [N0 N1]. destruct (w_ends _ (i_w _ _ I) _ _ _ E) as [[W0|W0] [W1|W1]]; try contradiction. destruct H as [<-|<-]; auto. }
  assert (CL : closed_under s a 3). { split.
    - intros f e (Hf & _ & Nf) H. destruct (HF _ _ H) as [_ He]. split; auto. split; [lia|]. apply (cl_edge _ _ C e He). eauto.
    - intros e v (Hf & _ & Nf) H. destruct (HE _ _ H) as [_ He]. split; auto. split; [lia|]. apply (cl_vertex _ _ C v He). eauto. }
  destruct (C53_interior s a 3 P D CL) as (s' & a' & E & P' & B). exists s', a'. split; auto. split; auto. split; auto.
  pose proof (bd_in _ _ _ _ _ B) as IN. split; [|split; [|split]].
  - intro f. rewrite IN. unfold stays. split.
    + intros (Hf & _ & N). split; auto. rewrite <- (cl_face _ _ C f Hf). exact N.
    + intros (Hf & N). split; auto. split; [lia|]. rewrite (cl_face _ _ C f Hf). exact N.
  - intro e. rewrite IN. split.
    + intros (He & _ & N). apply (cl_edge _ _ C e He) in N. destruct N as (f & (b & Ef & H) & N). assert (S : stays s 3 2 f) by (split; [apply (HF f e); exists b; auto|split; [lia|auto]]). exists f. split; [apply IN; auto|]. exists b. rewrite (bd_face _ _ _ _ _ B f S). auto.
    + intros (f & S & (b & Ef & H)). apply IN in S. rewrite (bd_face _ _ _ _ _ B f S) in Ef. apply (proj1 CL f); [auto|]. exists b. auto.
  - intro v. rewrite IN. split.
    + intros (He & _ & N). apply (cl_vertex _ _ C v He) in N. destruct N as (e & (v0 & v1 & Ef & H) & N). assert (S : stays s 3 1 e) by (split; [apply (HE e v); exists v0, v1; auto|split; [lia|auto]]). exists e. split; [apply IN; auto|]. exists v0, v1. rewrite (bd_edge _ _ _ _ _ B e S). auto.
    + intros (e & S & (v0 & v1 & Ef & H)). apply IN in S. rewrite (bd_edge _ _ _ _ _ B e S) in Ef. apply (proj2 CL e); [auto|]. exists v0, v1. auto.
  - destruct (skind s' 3) as [|x l] eqn:E3; auto. assert (H : In x (skind s' 3)) by (rewrite E3; cbn; auto). apply IN in H. destruct H as (_ & X & _). contradiction.
Qed.
Print Assumptions C53_surface.

(** ** Two tetrahedra and three triangles *)
Definition tets_class (p : ptr) : Z * Z := ((if p <=? 5 then 0 else if p <=? 14 then 1 else if p =? 17 then 3 else if p <=? 21 then 2 else 3), p).
Definition solid (c : ptr -> Z * Z) (sets : list mset) : smesh :=
  mkSM (mkFM (tget tets) c xyz (fun p => p) [1; 2; 3; 4; 5] (zrange 6 15) (zrange 15 22) [22; 23] []) clean sets.
Definition rfs (a : amesh) (r : ptr) : list ptr := match a_r a r with Some (true, Some b) => map fst b | _ => [] end.
Definition fes (a : amesh) (f : ptr) : list ptr := match a_f a f with Some (true, Some b) => map fst b | _ => [] end.
Definition evs (a : amesh) (e : ptr) : list ptr := match a_e a e with Some (true, (v0, v1)) => [v0; v1] | _ => [] end.
Lemma rfs_ok : forall a r f, inb f (rfs a r) = true <-> exists d, has_face a r f d.
Proof. intros a r f. rewrite inb_ok. unfold rfs, has_face. destruct (a_r a r) as [[[|] [b|]]|]; try (split; [intros []|intros (d & b' & E & _); discriminate]). rewrite in_map_iff. split; [intros ([f' d] & <- & H); exists d, b; auto|intros (d & b' & E & H); inversion E; subst; exists (f, d); auto]. Qed.
Lemma fes_ok : forall a f e, inb e (fes a f) = true <-> has_edge a f e.
Proof. intros a f e. rewrite inb_ok. unfold fes, has_edge. destruct (a_f a f) as [[[|] [b|]]|]; try (split; [intros []|intros (b' & E & _); discriminate]). split; [intro H; exists b; auto|intros (b' & E & H); inversion E; subst; auto]. Qed.
Lemma evs_ok : forall a e v, inb v (evs a e) = true <-> is_end a e v.
Proof. intros a e v. rewrite inb_ok. unfold evs, is_end. destruct (a_e a e) as [[[|] [v0 v1]]|]; try (split; [intros []|intros (x & y & E & _); discriminate]). cbn [In]. split; [intro H; exists v0, v1; tauto|intros (x & y & E & H); inversion E; subst; tauto]. Qed.
Definition classifiedb (s : smesh) (a : amesh) : bool :=
  let in3 p := fst (fm_c (sm_m s) p) =? 3 in
  forallb (fun f => Bool.eqb (in3 f) (existsb (fun r => existsb (fun r' => negb (r =? r') && inb f (rfs a r) && inb f (rfs a r')) (skind s 3)) (skind s 3))) (skind s 2) &&
  forallb (fun e => Bool.eqb (negb (in3 e)) (existsb (fun f => inb e (fes a f) && negb (in3 f)) (skind s 2))) (skind s 1) &&
  forallb (fun v => Bool.eqb (negb (in3 v)) (existsb (fun e => inb v (evs a e) && negb (in3 e)) (skind s 1))) (skind s 0).
Lemma classifiedb_ok : forall s a, partable s a -> classifiedb s a = true -> classified s a.
Proof.
  intros s a P H. unfold classifiedb in H. apply andb_prop in H. destruct H as [H H3]. apply andb_prop in H. destruct H as [H1 H2]. rewrite forallb_forall in H1, H2, H3. constructor.
  - intros f Hf. specialize (H1 f Hf). apply eqb_prop in H1. rewrite <- Z.eqb_eq, H1, existsb_exists. split.
    + intros (r & Hr & H). apply existsb_exists in H. destruct H as (r' & Hr' & H). apply andb_prop in H. destruct H as [H B]. apply andb_prop in H. destruct H as [N A]. apply rfs_ok in A, B. destruct A as (d & A). destruct B as (d' & B). exists r, r', d, d'. split; [lia|auto].
    + intros (r & r' & d & d' & N & A & B). assert (L : forall q x, has_face a q f x -> In q (skind s 3)) by (intros q x (b & E & _); apply (pa_r _ _ P); eexists; eauto). exists r. split; [eauto|]. apply existsb_exists. exists r'. split; [eauto|]. rewrite (proj2 (rfs_ok a r f)), (proj2 (rfs_ok a r' f)) by eauto. replace (r =? r') with false by lia. reflexivity.
  - intros e He. specialize (H2 e He). apply eqb_prop in H2. rewrite <- Z.eqb_neq, <- negb_true_iff, H2, existsb_exists. split.
    + intros (f & _ & H). apply andb_prop in H. destruct H as [A B]. apply fes_ok in A. exists f. split; [auto|lia].
    + intros (f & A & N). exists f. split; [destruct A as (b & E & _); apply (pa_f _ _ P); eexists; eauto|]. apply fes_ok in A. rewrite A. cbn [andb]. lia.
  - intros v Hv. specialize (H3 v Hv). apply eqb_prop in H3. rewrite <- Z.eqb_neq, <- negb_true_iff, H3, existsb_exists. split.
    + intros (f & _ & H). apply andb_prop in H. destruct H as [A B]. apply evs_ok in A. exists f. split; [auto|lia].
    + intros (f & A & N). exists f. split; [destruct A as (v0 & v1 & E & _); apply (pa_e _ _ P); eexists; eauto|]. apply evs_ok in A. rewrite A. cbn [andb]. lia.
Qed.
Lemma solid_tets : forall sets, partable (solid tets_class sets) (arun amesh0 tets).
Proof. intro sets. apply partableb_ok; [apply (reach_tget tets); vm_compute; reflexivity|vm_compute; reflexivity]. Qed.
Lemma solid_dim : forall c sets, of_dim (solid c sets) 3.
Proof. intros c sets. split; [lia|]. split; [discriminate|]. intros k H. lia. Qed.
Example C53_surface_ex : partable (solid tets_class []) (arun amesh0 tets) /\ of_dim (solid tets_class []) 3 /\ classified (solid tets_class []) (arun amesh0 tets) /\
  match MESH_DelInterior (solid tets_class []) with
  | Ok (1, s') => map (skind s') [0; 1; 2; 3] = [[1; 2; 3; 4; 5]; zrange 6 15; [15; 16; 18; 19; 20; 21]; []]
  | _ => False
  end.
Proof. split; [apply solid_tets|]. split; [apply solid_dim|]. split; [apply classifiedb_ok; [apply solid_tets|vm_compute; reflexivity]|]. vm_compute. reflexivity. Qed.

(** Three triangles: the edges between them are deleted as well. *)
Definition flat : smesh :=
  mkSM (mkFM (tget strip) (fun p => ((if (p =? 7) || (p =? 10) || (13 <=? p) then 2 else 1), p)) xyz (fun p => p) [1; 2; 3; 4; 5] (zrange 6 13) [13; 14; 15] [] []) clean [].
Lemma flat_ok : partable flat (arun amesh0 strip).
Proof. apply partableb_ok; [apply (reach_tget strip); vm_compute; reflexivity|vm_compute; reflexivity]. Qed.
Example C53_interior_ex : partable flat (arun amesh0 strip) /\ of_dim flat 2 /\ closed_under flat (arun amesh0 strip) 2 /\
  match MESH_DelInterior flat with
  | Ok (1, s') => map (skind s') [0; 1; 2; 3] = [[1; 2; 3; 4; 5]; [6; 8; 9; 11; 12]; []; []]
  | _ => False
  end.
Proof.
  split; [exact flat_ok|]. split; [|split; [|vm_compute; reflexivity]].
  - split; [lia|]. split; [discriminate|]. intros k H. assert (k = 3) by lia. subst. reflexivity.
  - split.
    + intros f e (Hf & _ & N) _. exfalso. destruct Hf as [<-|[<-|[<-|[]]]]; apply N; reflexivity.
    + intros e v (He & _ & N) H. split; [|split; [lia|]].
      * apply (pa_v _ _ flat_ok). destruct H as (v0 & v1 & E & H). destruct (pa_ends _ _ flat_ok _ _ _ E) as [N0 N1]. destruct (w_ends _ (i_w _ _ (reach_inv _ _ (pa_reach _ _ flat_ok))) _ _ _ E) as [[W0|W0] [W1|W1]]; try contradiction. destruct H as [<-|<-]; auto.
      * apply evs_ok in H. assert (A : forallb (fun e => forallb (fun v => negb (fst (fm_c (sm_m flat) v) =? 2)) (evs (arun amesh0 strip) e)) (zrange 6 13) = true) by (vm_compute; reflexivity). rewrite forallb_forall in A. specialize (A e He). rewrite forallb_forall in A. apply inb_ok in H. specialize (A v H). lia.
Qed.
Example C53_vertices_ex : forall k, 1 <= k <= 3 -> skind (mkSM (mkFM empty_topo (fun p => (0, p)) xyz (fun p => p) [1; 2] [] [] [] []) clean []) k = [].
Proof. intros k H. assert (k = 1 \/ k = 2 \/ k = 3) as [-> | [-> | ->]] by lia; reflexivity. Qed.

(** Full claim: sets have no deleted entities. *)
Definition dead_in_set (x : result (Z * smesh)) (p : ptr) : bool :=
  match x with Ok (1, s') => existsb (fun z => inb p (ms_list z)) (sm_sets s') && forallb (fun d => negb (inb p (skind s' d))) [0; 1; 2; 3] | _ => false end.
Lemma dead_in_set_ok : forall x p, dead_in_set x p = true -> exists s' z, x = Ok (1, s') /\ In z (sm_sets s') /\ In p (ms_list z) /\ forall d, ~ In p (skind s' d).
Proof.
  intros x q X. destruct x as [[[|[u|u|]|u] s']| | |]; try discriminate X. rename q into p. cbn [dead_in_set] in X. apply andb_prop in X. destruct X as [X1 X2]. apply existsb_exists in X1. destruct X1 as (z & Hz & X1). rewrite forallb_forall in X2. exists s', z. split; auto. split; auto. split; [apply inb_ok; auto|].
  intros d H. assert (In d [0; 1; 2; 3]) by (destruct (kind_cases _ _ _ H) as [-> | [-> | [-> | ->]]]; cbn; auto). specialize (X2 d H0). apply inb_ok in H. rewrite H in X2. discriminate.
Qed.
Theorem C53_sets_refuted : exists s a s' z p, partable s a /\ of_dim s 3 /\ classified s a /\ MESH_DelInterior s = Ok (1, s') /\ In z (sm_sets s') /\ In p (ms_list z) /\ forall d, ~ In p (skind s' d).
Proof.
  destruct (dead_in_set_ok (MESH_DelInterior (solid tets_class [mkSet [] 2 [15; 17]])) 17) as (s' & z & E & H); [vm_compute; reflexivity|].
  exists (solid tets_class [mkSet [] 2 [15; 17]]), (arun amesh0 tets), s', z, 17. split; [apply solid_tets|]. split; [apply solid_dim|]. split; [apply classifiedb_ok; [apply solid_tets|vm_compute; reflexivity]|]. split; [exact E|exact H].
Qed.
Print Assumptions C53_sets_refuted.

(** Without [closed_under] a face that stays can have an edge that was freed. *)
Definition bad_class (p : ptr) : Z * Z := if p =? 6 then (3, 6) else tets_class p.
Definition dead_edge (x : result (Z * smesh)) (f e : ptr) : bool :=
  match x with Ok (1, s') => inb f (skind s' 2) && negb (inb e (skind s' 1)) && match MF_Edges (sm_t s') f 1 NULL with Ok l => inb e l | _ => false end | _ => false end.
Lemma dead_edge_ok : forall x f e, dead_edge x f e = true -> exists s' l, x = Ok (1, s') /\ In f (skind s' 2) /\ MF_Edges (sm_t s') f 1 NULL = Ok l /\ In e l /\ ~ In e (skind s' 1).
Proof.
  intros x f e X. destruct x as [[[|[u|u|]|u] s']| | |]; try discriminate X. cbn [dead_edge] in X. apply andb_prop in X. destruct X as [X X3]. apply andb_prop in X. destruct X as [X1 X2]. destruct (MF_Edges (sm_t s') f 1 NULL) as [l| | |] eqn:EM; try discriminate. exists s', l. split; auto. split; [apply inb_ok; auto|]. split; [auto|]. split; [apply inb_ok; auto|]. intro H. apply inb_ok in H. rewrite H in X2. discriminate.
Qed.
Theorem C53_classification_refuted : exists s a s' f e l, partable s a /\ of_dim s 3 /\ MESH_DelInterior s = Ok (1, s') /\ In f (skind s' 2) /\ MF_Edges (sm_t s') f 1 NULL = Ok l /\ In e l /\ ~ In e (skind s' 1).
Proof.
  destruct (dead_edge_ok (MESH_DelInterior (solid bad_class [])) 15 6) as (s' & l & E & H); [vm_compute; reflexivity|].
  exists (solid bad_class []), (arun amesh0 tets), s', 15, 6, l. split; [apply partableb_ok; [apply (reach_tget tets); vm_compute; reflexivity|vm_compute; reflexivity]|]. split; [apply solid_dim|]. split; [exact E|exact H].
Qed.
Print Assumptions C53_classification_refuted.
