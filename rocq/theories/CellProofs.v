(** Walking around the faces of a cell; relabelling cells by symmetries. *)
From Coq Require Import ZArith List Lia Bool Arith ZifyBool ZifyNat Permutation.
From Verif Require Import Base BaseProofs ListSpec HashProofs AttModel AttProps ParModel ParProps TopoModel TopoSpec TopoProofs TopoProofs2 TopoProofs3 TopoProofs4 TopoProofs5 TopoProofs6 TopoProofs7 TopoProps TopoProps2 TopoProps3 ModProofs CellModel CellSpec.
Import ListNotations.
Open Scope Z_scope.

(** ** Rotations *)

Lemma rotation_refl : forall A (x : list A), rotation x x.
Proof. intros. exists [], x. rewrite app_nil_r. auto. Qed.
Lemma rotation_length : forall A (x y : list A), rotation x y -> length x = length y.
Proof. intros A x y H. apply Permutation_length, rotation_perm; auto. Qed.
Lemma rotation_map_inv : forall A B (g : A -> B) x y, rotation (map g x) y -> exists z, rotation x z /\ y = map g z.
Proof.
  intros A B g x y (u & v & E & ->). apply map_eq_app in E. destruct E as (x1 & x2 & -> & <- & <-). exists (x2 ++ x1). split. exists x1, x2. auto. rewrite map_app. auto.
Qed.
Lemma rotation_NoDup : forall A (x y : list A), rotation x y -> NoDup x -> NoDup y.
Proof. intros A x y H N. eapply Permutation_NoDup; [|exact N]. apply rotation_perm; auto. Qed.

Lemma linked_rotation : forall a b c, linked a b -> rotation b c -> linked a c.
Proof.
  intros a b c H (u & v & -> & ->). destruct (Nat.eq_dec (length v) 0) as [E|E]. destruct v; [|discriminate]. rewrite app_nil_r in H. auto.
  replace (v ++ u) with (rot (length u) (u ++ v)). apply linked_rot; auto. rewrite app_length. lia. unfold rot. rewrite skipn_app, firstn_app, skipn_all, firstn_all, Nat.sub_diag. cbn. rewrite app_nil_r. auto.
Qed.
Lemma around_rotation : forall a vs c vs', linked a c -> around a vs c -> rotation vs vs' -> exists c', rotation c c' /\ around a vs' c'.
Proof.
  intros a vs c vs' HL HA HR. rewrite (around_vat _ _ _ HA) in HR. apply rotation_map_inv in HR. destruct HR as (c' & H1 & ->). exists c'. split; auto. apply linked_around. eapply linked_rotation; eauto.
Qed.
Lemma outward_rotation : forall a x vs vs', outward a x vs -> rotation vs vs' -> outward a x vs'.
Proof.
  intros a x vs vs' (fb & u & c & H1 & H2 & H3 & H4) HR. assert (LK : linked a c) by (eapply linked_rotation; [apply linked_walk, (closed_linked _ _ _ H2)|exact H3]).
  destruct (around_rotation _ _ _ _ LK H4 HR) as (c' & R' & A'). exists fb, u, c'. split; auto. split; auto. split; auto. eapply rotation_trans; eauto.
Qed.

(** ** Queries on one face *)

Definition orient (same : bool) (vs : list ptr) := if same then vs else rev vs.
(** Edge number i joins vertices i and i+1. *)
Definition eloop a (vs es : list ptr) : Prop :=
  length es = length vs /\ forall i, (i < length vs)%nat -> joins a (nth i es NULL) (nth i vs NULL) (nth (S i mod length vs) vs NULL).
Lemma around_eloop : forall a vs c, around a vs c -> eloop a vs (map fst c).
Proof.
  intros a vs c (L & H). split. rewrite map_length; auto. intros i Hi. pose proof (nth_error_nth' c dflt (n := i) ltac:(lia)) as E. destruct (nth i c dflt) as [e d] eqn:En. destruct (H i e d E) as ((p & q) & v & w & Hx & Hv & Hw & Hs & He).
  rewrite (nth_indep _ NULL (fst dflt)) by (rewrite map_length; lia). rewrite map_nth, En. cbn [fst]. rewrite L, (nth_error_nth _ _ NULL Hv), (nth_error_nth _ _ NULL Hw). exists p, q. split; auto. unfold d_start, d_end in *. destruct d; cbn in *; auto.
Qed.
Lemma walk_orient : forall a d dir fb, linked a fb -> fb <> [] -> rotation (orient (Bool.eqb d dir) (map (vat a) (walk d fb))) (map (vat a) (walk dir fb)).
Proof.
  intros a d dir fb LK HN.
  assert (K : rotation (map (vat a) (turned fb)) (rev (map (vat a) fb))).
  { rewrite vat_turned. apply rotation_rev. rewrite vend_shift by auto. destruct (map (vat a) fb) as [|v l] eqn:E. destruct fb; [congruence|discriminate]. cbn. exists l, [v]. auto. }
  destruct d, dir; cbn [walk Bool.eqb orient]; try apply rotation_refl. apply rotation_sym; auto.
  rewrite <- (rev_involutive (map (vat a) fb)). apply rotation_rev; auto.
Qed.
Lemma joins_sym : forall a e u w, joins a e u w -> joins a e w u.
Proof. intros a e u w (p & q & H & K). exists p, q. tauto. Qed.

Lemma walk_In : forall d fb e, (exists d', In (e, d') (walk d fb)) <-> exists d', In (e, d') fb.
Proof.
  intros d fb e. destruct d; cbn [walk]; [tauto|]. unfold turned. split; intros (d' & H).
  - apply in_rev in H. apply in_map_iff in H. destruct H as ([e2 d2] & E & Hi). inversion E; subst. eauto.
  - exists (negb d'). rewrite <- in_rev. apply in_map_iff. exists (e, d'). auto.
Qed.
Lemma walk_ends : forall a d fb v, linked a fb -> In v (map (vat a) (walk d fb)) <-> exists e d', In (e, d') fb /\ is_end a e v.
Proof.
  intros a d fb v LK. split.
  - intros Hi. apply in_map_iff in Hi. destruct Hi as ([e d'] & Ev & Hi). pose proof (linked_walk a d fb LK) as (EO & _). rewrite Forall_forall in EO. destruct (EO _ Hi) as ((p & q) & Hpq). cbn in Hpq.
    destruct (proj1 (walk_In d fb e)) as (d'' & Hd). eauto. exists e, d''. split; auto. exists p, q. split; auto. unfold vat in Ev. cbn in Ev. rewrite Hpq in Ev. unfold d_start in Ev. destruct d'; cbn in Ev; auto.
  - intros (e & d' & Hi & He). destruct (use_end a fb true v LK e d' Hi He) as (j & Hj & Ej). cbn [sv] in Ej. assert (NE : fb <> []) by (intros ->; cbn in Hj; lia).
    pose proof (rotation_perm _ _ _ (walk_orient a true d fb LK NE)) as P. eapply Permutation_in. exact P. assert (K : In v (map (vat a) (walk true fb))). { cbn [walk]. rewrite <- Ej. unfold sv. apply in_map, nth_In; auto. }
    destruct (Bool.eqb true d); cbn [orient]; auto. rewrite <- in_rev. auto.
Qed.

(** MF_Vertices and MF_Edges on a face used with direction [d]. *)
Lemma face_query : forall t a f d vs dir, reach t a -> outward a (f, d) vs -> vs <> [] ->
  exists vs' es', MF_Vertices t f (b2z dir) NULL = Ok vs' /\ MF_Edges t f (b2z dir) NULL = Ok es' /\ rotation (orient (Bool.eqb d dir) vs) vs' /\ eloop a vs' es' /\
    (forall e, In e es' <-> has_edge a f e) /\
    (dir = negb d -> forall k, (k < length vs')%nat -> bot_vertex t f (b2z d) (nth k es' NULL) = Ok (nth k vs' NULL)).
Proof.
  intros t a f d vs dir R (fb & u & c & H1 & H2 & H3 & H4) HN. cbn [fst snd] in *. destruct (C23_face_loop t a f fb u dir NULL R H1 H2) as (A & _ & _). destruct (A eq_refl) as (vs' & E1 & E2 & E3).
  exists vs', (map fst (walk dir fb)). split; auto. split; auto. split; [|split; [|split]].
  - assert (NE : fb <> []). { intros ->. apply HN. destruct H4 as (L & _). apply rotation_length in H3. rewrite walk_length in H3. cbn in H3. destruct vs; auto. cbn in L. lia. }
    pose proof (closed_linked _ _ _ H2) as LK. pose proof (walk_orient a d dir fb LK NE) as WO. rewrite <- (around_vat _ _ _ E3) in WO. eapply rotation_trans; [|exact WO].
    assert (RV : rotation vs (map (vat a) (walk d fb))). { rewrite (around_vat _ _ _ H4). apply rotation_map, rotation_sym; auto. }
    destruct (Bool.eqb d dir); cbn [orient]; auto. apply rotation_rev; auto.
  - apply around_eloop; auto.
  - intros e. assert (K : In e (map fst (walk dir fb)) <-> In e (map fst fb)). { destruct dir; cbn [walk]; [tauto|]. unfold turned. rewrite map_rev, map_map. cbn. rewrite <- in_rev. tauto. }
    rewrite K. split. intros Hi. exists fb. auto. intros (fb' & Hf & Hi). congruence.
  - intros -> k Hk. pose proof (reach_inv _ _ R) as I. pose proof E3 as (L & _). rewrite (around_vat _ _ _ E3). rewrite (nth_indep (map fst _) NULL (fst dflt)) by (rewrite map_length; lia). rewrite (nth_indep (map (vat a) _) NULL (vat a dflt)) by (rewrite map_length; lia). rewrite !map_nth.
    assert (Hi : In (nth k (walk (negb d) fb) dflt) (walk (negb d) fb)) by (apply nth_In; lia). destruct (nth k (walk (negb d) fb) dflt) as [e d'] eqn:En. cbn [fst].
    assert (exists d0, In (e, d0) fb /\ d' = (if d then negb d0 else d0)) as (d0 & Hd & ->). { destruct d; cbn [negb walk] in Hi; [|eauto]. unfold turned in Hi. apply in_rev in Hi. apply in_map_iff in Hi. destruct Hi as ([e2 d2] & E & Hi). cbn in E. inversion E; subst. eauto. }
    pose proof (in_split _ _ Hd) as (b1 & b2 & Eb). rewrite Eb in H1. unfold bot_vertex. rewrite (edge_dir_ok t a f b1 e d0 b2 I H1). cbn [bind]. rewrite <- Eb in H1. pose proof (face_edges_ok _ _ _ _ I H1) as EO. rewrite Forall_forall in EO. destruct (EO _ Hd) as ((p & q) & Hpq). cbn in Hpq.
    pose proof (i_e _ _ I e) as Ie. rewrite Hpq in Ie. destruct (tes t e) as [x|] eqn:Ex; [|discriminate]. cbn in Ie. unfold eview in Ie. inversion Ie; subst. unfold ME_Vertex, gete. rewrite Ex. cbn [bind]. unfold vat. cbn [fst snd]. rewrite Hpq. destruct d, d0; reflexivity.
Qed.
Lemma face_query_at : forall t a f d vs dir v0, reach t a -> outward a (f, d) vs -> NoDup vs -> In v0 vs -> v0 <> NULL ->
  exists vs' es', MF_Vertices t f (b2z dir) v0 = Ok vs' /\ MF_Edges t f (b2z dir) v0 = Ok es' /\ rotation (orient (Bool.eqb d dir) vs) vs' /\ hd NULL vs' = v0 /\ eloop a vs' es' /\ (forall e, In e es' <-> has_edge a f e).
Proof.
  intros t a f d vs dir v0 R (fb & u & c & H1 & H2 & H3 & H4) ND Hi Hn. cbn [fst snd] in *. destruct (C23_face_loop t a f fb u dir v0 R H1 H2) as (_ & B & _).
  pose proof (closed_linked _ _ _ H2) as LK.
  assert (RV : rotation vs (map (vat a) (walk d fb))). { rewrite (around_vat _ _ _ H4). apply rotation_map, rotation_sym; auto. }
  destruct B as (c' & vs' & R' & E1 & E2 & E3 & E4); auto.
  { apply (Permutation_in _ (rotation_perm _ _ _ RV)) in Hi. apply (walk_ends a d fb v0 LK) in Hi. exact Hi. }
  exists vs', (map fst c'). split; auto. split; auto. split; [|split; [auto|split; [apply around_eloop; auto|]]].
  2: { intros e. assert (K : In e (map fst c') <-> In e (map fst fb)). { pose proof (Permutation_map fst (rotation_perm _ _ _ R')) as PP. assert (KI : In e (map fst c') <-> In e (map fst (walk dir fb))) by (split; apply Permutation_in; [symmetry; exact PP|exact PP]). rewrite KI. destruct dir; cbn [walk]; [tauto|]. unfold turned. rewrite map_rev, map_map. cbn. rewrite <- in_rev. tauto. }
    rewrite K. split. intros Hi'. exists fb. auto. intros (fb' & Hf & Hi'). congruence. }
  assert (NE : fb <> []). { intros ->. apply rotation_length in RV. rewrite map_length, walk_length in RV. destruct vs; [destruct Hi|discriminate]. }
  pose proof (walk_orient a d dir fb LK NE) as WO. rewrite (around_vat _ _ _ E3). eapply rotation_trans; [|apply rotation_map; exact R']. eapply rotation_trans; [|exact WO].
  destruct (Bool.eqb d dir); cbn [orient]; auto. apply rotation_rev; auto.
Qed.
Lemma face_num : forall t a f d vs, reach t a -> outward a (f, d) vs -> MF_Num_Edges t f = Ok (ZL vs).
Proof.
  intros t a f d vs R (fb & u & c & H1 & H2 & H3 & H4). cbn [fst snd] in *. pose proof (reach_inv _ _ R) as I. destruct (face_rep _ _ _ _ I H1) as (x & l & Hx & Hl & (-> & _)). unfold MF_Num_Edges, getf. rewrite Hx. cbn [bind]. rewrite Hl. cbn [bind nn].
  f_equal. unfold ZL. f_equal. rewrite map_length. destruct H4 as (-> & _). rewrite <- (rotation_length _ _ _ H3), walk_length. auto.
Qed.
Lemma face_uses_edge : forall t a f d vs e, reach t a -> outward a (f, d) vs -> exists b, MF_UsesEdge t f e = Ok b /\ (b = true <-> has_edge a f e).
Proof.
  intros t a f d vs e R (fb & u & c & H1 & _). cbn [fst] in *. pose proof (reach_inv _ _ R) as I. destruct (face_rep _ _ _ _ I H1) as (x & l & Hx & Hl & (-> & _)). unfold MF_UsesEdge, getf. rewrite Hx. cbn [bind]. rewrite Hl. cbn [bind nn]. eexists. split; [reflexivity|].
  rewrite mem_In. split. intros Hi. exists fb. auto. intros (fb' & Hf & Hi). congruence.
Qed.
Lemma outward_ends : forall a f d vs v, outward a (f, d) vs -> In v vs <-> exists e, has_edge a f e /\ is_end a e v.
Proof.
  intros a f d vs v (fb & u & c & H1 & H2 & H3 & H4). cbn [fst snd] in *. pose proof (closed_linked _ _ _ H2) as LK.
  assert (RV : rotation vs (map (vat a) (walk d fb))). { rewrite (around_vat _ _ _ H4). apply rotation_map, rotation_sym; auto. }
  apply rotation_perm in RV. assert (KI : In v vs <-> In v (map (vat a) (walk d fb))) by (split; apply Permutation_in; [exact RV|symmetry; exact RV]). rewrite KI, walk_ends by auto. split.
  - intros (e & d' & Hi & He). exists e. split; auto. exists fb. split; auto. apply in_map_iff. exists (e, d'). auto.
  - intros (e & (fb' & Hf & Hi) & He). rewrite H1 in Hf. inversion Hf; subst. apply in_map_iff in Hi. destruct Hi as ([e' d'] & <- & Hi). eauto.
Qed.
Lemma face_uses_vertex : forall t a f d vs v, reach t a -> outward a (f, d) vs -> exists b, MF_UsesVertex t f v = Ok b /\ (b = true <-> In v vs).
Proof.
  intros t a f d vs v R HO. pose proof (outward_ends _ _ _ _ v HO) as OE. destruct HO as (fb & u & c & H1 & H2 & H3 & H4). cbn [fst snd] in *. destruct (C23_uses_vertex t a f fb u v R H1 H2) as (b & E & K). exists b. split; auto. rewrite K, OE. split.
  - intros (e & d' & Hi & He). exists e. split; auto. exists fb. split; auto. apply in_map_iff. exists (e, d'). auto.
  - intros (e & (fb' & Hf & Hi) & He). rewrite H1 in Hf. inversion Hf; subst. apply in_map_iff in Hi. destruct Hi as ([e' d'] & <- & Hi). eauto.
Qed.
(** The edges of a face join consecutive vertices, each pair has one. *)
Lemma outward_eloop : forall a f d vs, outward a (f, d) vs -> exists es, eloop a vs es /\ forall e, In e es <-> has_edge a f e.
Proof.
  intros a f d vs (fb & u & c & H1 & H2 & H3 & H4). cbn [fst snd] in *. exists (map fst c). split. apply around_eloop; auto. intros e.
  assert (K : In e (map fst c) <-> In e (map fst fb)). { pose proof (Permutation_map fst (rotation_perm _ _ _ H3)) as PP. assert (KI : In e (map fst c) <-> In e (map fst (walk d fb))) by (split; apply Permutation_in; [symmetry; exact PP|exact PP]). rewrite KI. destruct d; cbn [walk]; [tauto|]. unfold turned. rewrite map_rev, map_map. cbn. rewrite <- in_rev. tauto. }
  rewrite K. split. intros Hi. exists fb. auto. intros (fb' & Hf & Hi). congruence.
Qed.

(** ** MVs_CommonEdge *)
Lemma common_edge : forall t a v1 v2, reach t a -> live_v a v1 -> v1 <> v2 -> v2 <> NULL ->
  exists e, MVs_CommonEdge t v1 v2 = Ok e /\ ((e <> NULL /\ joins a e v1 v2) \/ (e = NULL /\ forall e', ~ joins a e' v1 v2)).
Proof.
  intros t a v1 v2 R HL HN Hn2. pose proof (reach_inv _ _ R) as I. destruct (C26_vertex_edges t a v1 R) as (o & E & A). unfold live_v in HL. congruence. unfold MVs_CommonEdge. rewrite E. cbn [bind].
  assert (K : forall l, (forall e, In e l -> is_end a e v1) -> exists e, common_go t v2 l = Ok e /\ ((e <> NULL /\ joins a e v1 v2) \/ (e = NULL /\ forall e', In e' l -> ~ joins a e' v1 v2))).
  { induction l as [|e l IH]; intros HE; cbn [common_go]. exists NULL; split; [auto|right; split; [auto|intros ? []]].
    destruct (HE e) as (p & q & He & Hpq). left; auto. pose proof (i_e _ _ I e) as Ie. rewrite He in Ie. destruct (tes t e) as [x|] eqn:Ex; [|discriminate]. cbn in Ie. unfold eview in Ie. inversion Ie; subst.
    unfold ME_UsesVertex, gete. rewrite Ex. cbn [bind]. destruct (_ || _) eqn:Eu.
    - exists e. split; auto. left. split. { pose proof (w_e _ (i_w _ _ I) e). rewrite He in H. unfold NULL. assert (1 <= e) by (apply H; discriminate). lia. }
      exists (e_v0 x), (e_v1 x). split; auto. rewrite orb_true_iff, !Z.eqb_eq in Eu. destruct Hpq as [<-|<-], Eu; subst; auto; congruence.
    - destruct IH as (e' & E' & [[N J]|[N J]]). intros; apply HE; right; auto. exists e'. auto. exists e'. split; auto. right. split; auto. intros e2 [<-|Hi]; auto. intros (p & q & He2 & K). rewrite He in He2. inversion He2; subst. rewrite orb_false_iff, !Z.eqb_neq in Eu. destruct Eu, K as [[K1 K2]|[K1 K2]]; congruence. }
  destruct o as [l|].
  - destruct A as (_ & _ & A). destruct (K l) as (e & E1 & [K1|[K1 K2]]). intros; apply A; auto. exists e. auto. exists e. split; auto. right. split; auto. intros e' J. apply (K2 e'); auto. apply A. destruct J as (p & q & J1 & J2). exists p, q. split; auto. tauto.
  - exists NULL. split; auto. right. split; auto. intros e' (p & q & J1 & J2). apply (A e'). exists p, q. split; auto. tauto.
Qed.

(** ** Relabelling by a symmetry of the shape *)

Definition leqb (x y : list nat) : bool := if list_eq_dec Nat.eq_dec x y then true else false.
Definition rotl (k : nat) (L : list nat) := skipn k L ++ firstn k L.
Definition rotb (x y : list nat) : bool := existsb (fun k => leqb (rotl k x) y) (seq 0 (length x)).
Definition sg (sigma : list nat) (i : nat) := nth i sigma 0%nat.
Definition gmap (s : shape) (sigma L : list nat) : list nat :=
  match find (fun L' => rotb (map (sg sigma) L') L) (s_loops s) with Some L' => L' | None => [] end.
Definition lt_all (n : nat) (l : list nat) := forallb (fun i => (i <? n)%nat) l.
Definition autb (s : shape) (sigma : list nat) : bool :=
  (length sigma =? s_nv s)%nat && lt_all (s_nv s) sigma && (length (nodup Nat.eq_dec sigma) =? length sigma)%nat &&
  forallb (fun L => existsb (leqb (gmap s sigma L)) (s_loops s) && rotb (map (sg sigma) (gmap s sigma L)) L && lt_all (s_nv s) L) (s_loops s) &&
  (length (nodup (list_eq_dec Nat.eq_dec) (map (gmap s sigma) (s_loops s))) =? length (s_loops s))%nat.

Lemma leqb_eq : forall x y, leqb x y = true -> x = y.
Proof. intros x y. unfold leqb. destruct (list_eq_dec Nat.eq_dec x y); auto. discriminate. Qed.
Lemma rotl_rotation : forall k L, rotation L (rotl k L).
Proof. intros. exists (firstn k L), (skipn k L). rewrite firstn_skipn. auto. Qed.
Lemma rotb_ok : forall x y, rotb x y = true -> rotation x y.
Proof. intros x y H. apply existsb_exists in H. destruct H as (k & _ & E). apply leqb_eq in E. subst y. apply rotl_rotation. Qed.
Lemma rotation_rotl : forall L z, rotation L z -> L <> [] -> exists k, (k < length L)%nat /\ z = rotl k L.
Proof.
  intros L z (u & v & -> & ->) HN. destruct v as [|x v].
  - exists 0%nat. rewrite app_nil_r in *. split. destruct u; [congruence|cbn; lia]. unfold rotl. cbn. rewrite app_nil_r. auto.
  - exists (length u). split. rewrite app_length. cbn. lia. unfold rotl. rewrite skipn_app, firstn_app, skipn_all, firstn_all, Nat.sub_diag. cbn. rewrite app_nil_r. auto.
Qed.
Lemma nodup_length : forall A (d : forall x y : A, {x = y} + {x <> y}) l, length (nodup d l) = length l -> NoDup l.
Proof.
  intros A d l. induction l as [|x l IH]; cbn. constructor. pose proof (NoDup_incl_length (NoDup_nodup d l) (fun y Hy => proj1 (nodup_In d l y) Hy)) as LE. destruct (in_dec d x l); cbn; intros E. lia. constructor; auto.
Qed.
Lemma lt_all_ok : forall n l, lt_all n l = true -> forall i, In i l -> (i < n)%nat.
Proof. intros n l H i Hi. unfold lt_all in H. rewrite forallb_forall in H. apply Nat.ltb_lt. auto. Qed.
Lemma W_relabel : forall ws sigma L n, length sigma = n -> (forall i, In i L -> (i < n)%nat) -> map (W (map (W ws) sigma)) L = map (W ws) (map (sg sigma) L).
Proof.
  intros ws sigma L n E H. rewrite map_map. apply map_ext_in. intros i Hi. unfold W at 1, sg. apply H in Hi. rewrite (nth_indep _ NULL (W ws 0%nat)) by (rewrite map_length; lia). apply map_nth.
Qed.
Lemma NoDup_map_on : forall A B (f : A -> B) l, NoDup l -> (forall x y, In x l -> In y l -> f x = f y -> x = y) -> NoDup (map f l).
Proof.
  intros A B f l N. induction N as [|x l Hx N IH]; intros H; cbn [map]; constructor.
  - intros Hi. apply in_map_iff in Hi. destruct Hi as (y & E & Hy). apply H in E; [|right; auto|left; auto]. congruence.
  - apply IH. intros y z Hy Hz. apply H; right; auto.
Qed.
Definition faces_as a (b : list (ptr * bool)) (ws : list ptr) (Ls : list (list nat)) := Forall2 (fun x L => outward a x (map (W ws) L)) b Ls.
Definition cverts a (s : shape) (ws : list ptr) := length ws = s_nv s /\ NoDup ws /\ Forall (live_v a) ws.
Lemma relabel : forall a s sigma b ws Ls, autb s sigma = true -> cverts a s ws -> Permutation Ls (s_loops s) -> faces_as a b ws Ls ->
  cverts a s (map (W ws) sigma) /\ Permutation (map (gmap s sigma) Ls) (s_loops s) /\ faces_as a b (map (W ws) sigma) (map (gmap s sigma) Ls).
Proof.
  intros a s sigma b ws Ls HA (L1 & N1 & V1) HP HF. unfold autb in HA. rewrite !andb_true_iff in HA. destruct HA as ((((A1 & A2) & A3) & A4) & A5). apply Nat.eqb_eq in A1, A3, A5. apply nodup_length in A3. rewrite forallb_forall in A4.
  pose proof (lt_all_ok _ _ A2) as A2'.
  assert (A4' : forall L, In L (s_loops s) -> In (gmap s sigma L) (s_loops s) /\ rotation (map (sg sigma) (gmap s sigma L)) L /\ forall i, In i L -> (i < s_nv s)%nat).
  { intros L HL. apply A4 in HL. rewrite !andb_true_iff in HL. destruct HL as ((K1 & K2) & K3). apply existsb_exists in K1. destruct K1 as (L' & K1 & K1'). apply leqb_eq in K1'. subst L'. split; auto. split. apply rotb_ok; auto. apply lt_all_ok; auto. }
  split; [|split].
  - split; [|split]. rewrite map_length; auto.
    + apply NoDup_map_on; auto. intros i j Hi Hj E. apply A2' in Hi, Hj. unfold W in E. apply (proj1 (NoDup_nth ws NULL) N1) in E; lia.
    + rewrite Forall_forall in *. intros v Hv. apply in_map_iff in Hv. destruct Hv as (i & <- & Hi). apply V1. apply nth_In. rewrite L1. auto.
  - transitivity (map (gmap s sigma) (s_loops s)). apply Permutation_map; auto. apply NoDup_Permutation_bis. apply (nodup_length _ (list_eq_dec Nat.eq_dec)). rewrite A5, map_length. auto. rewrite map_length. lia.
    intros L HL. apply in_map_iff in HL. destruct HL as (L' & <- & HL). apply A4'; auto.
  - assert (HI : forall L, In L Ls -> In L (s_loops s)) by (intros L HL; eapply Permutation_in; eauto). clear HP. unfold faces_as in *. induction HF as [|x L b Ls HO HF IH]; cbn [map]; constructor.
    + destruct (A4' L) as (K1 & K2 & K3). apply HI; left; auto. destruct (A4' _ K1) as (_ & _ & K4). rewrite (W_relabel ws sigma _ (s_nv s)) by auto. eapply outward_rotation. exact HO. apply rotation_map, rotation_sym; auto.
    + apply IH. intros; apply HI; right; auto.
Qed.

(** The symmetries move every face like the first one, in every rotation, onto
    the first one. *)
Definition bot (s : shape) : list nat := seq 0 (length (hd [] (s_loops s))).
Definition flagsb (s : shape) (auts : list (list nat)) : bool :=
  forallb (fun L => if (length L =? length (hd [] (s_loops s)))%nat
     then forallb (fun k => existsb (fun sigma => autb s sigma && leqb (map (sg sigma) (bot s)) (rotl k (rev L)) && leqb (gmap s sigma L) (hd [] (s_loops s))) auts) (seq 0 (length L))
     else true) (s_loops s) && lt_all (s_nv s) (bot s).
Lemma anchor : forall a s auts b ws Ls L vs, flagsb s auts = true -> cverts a s ws -> Permutation Ls (s_loops s) -> faces_as a b ws Ls ->
  In L Ls -> length L = length (hd [] (s_loops s)) -> L <> [] -> rotation (rev (map (W ws) L)) vs ->
  exists ws' g, cverts a s ws' /\ Permutation (map g Ls) (s_loops s) /\ faces_as a b ws' (map g Ls) /\ g L = hd [] (s_loops s) /\ vs = map (W ws') (bot s).
Proof.
  intros a s auts b ws Ls L vs HF HC HP HB HI HL HN HR. rewrite <- map_rev in HR. apply rotation_map_inv in HR. destruct HR as (z & Rz & ->). apply rotation_rotl in Rz. 2: { intros E. apply HN. rewrite <- (rev_involutive L), E. auto. }
  destruct Rz as (k & Hk & ->). rewrite rev_length in Hk. unfold flagsb in HF. rewrite andb_true_iff in HF. destruct HF as (HF & HB'). rewrite forallb_forall in HF. specialize (HF L (Permutation_in _ HP HI)). rewrite HL, Nat.eqb_refl, <- HL in HF. rewrite forallb_forall in HF.
  specialize (HF k ltac:(apply in_seq; lia)). apply existsb_exists in HF. destruct HF as (sigma & _ & HF). rewrite !andb_true_iff in HF. destruct HF as ((F1 & F2) & F3). apply leqb_eq in F2, F3.
  destruct (relabel a s sigma b ws Ls F1 HC HP HB) as (R1 & R2 & R3). exists (map (W ws) sigma), (gmap s sigma). split; auto. split; auto. split; auto. split; auto. rewrite <- F2. symmetry. apply (W_relabel ws sigma (bot s) (s_nv s)). unfold autb in F1. rewrite !andb_true_iff in F1. apply Nat.eqb_eq, F1. apply lt_all_ok; auto.
Qed.

Definition sym_tetrahedron : list (list nat) :=
  [[0; 1; 2; 3]; [0; 2; 3; 1]; [0; 3; 1; 2]; [1; 0; 3; 2]; [1; 2; 0; 3]; [1; 3; 2; 0]; [2; 0; 1; 3]; [2; 1; 3; 0]; [2; 3; 0; 1]; [3; 0; 2; 1]; [3; 1; 0; 2]; [3; 2; 1; 0]]%nat.
Definition sym_pyramid : list (list nat) :=
  [[0; 1; 2; 3; 4]; [1; 2; 3; 0; 4]; [2; 3; 0; 1; 4]; [3; 0; 1; 2; 4]]%nat.
Definition sym_prism : list (list nat) :=
  [[0; 1; 2; 3; 4; 5]; [1; 2; 0; 4; 5; 3]; [2; 0; 1; 5; 3; 4]; [3; 5; 4; 0; 2; 1]; [4; 3; 5; 1; 0; 2]; [5; 4; 3; 2; 1; 0]]%nat.
Definition sym_hexahedron : list (list nat) :=
  [[0; 1; 2; 3; 4; 5; 6; 7]; [0; 3; 7; 4; 1; 2; 6; 5]; [0; 4; 5; 1; 3; 7; 6; 2]; [1; 0; 4; 5; 2; 3; 7; 6]; [1; 2; 3; 0; 5; 6; 7; 4]; [1; 5; 6; 2; 0; 4; 7; 3]; [2; 1; 5; 6; 3; 0; 4; 7]; [2; 3; 0; 1; 6; 7; 4; 5]; [2; 6; 7; 3; 1; 5; 4; 0]; [3; 0; 1; 2; 7; 4; 5; 6]; [3; 2; 6; 7; 0; 1; 5; 4]; [3; 7; 4; 0; 2; 6; 5; 1]; [4; 0; 3; 7; 5; 1; 2; 6]; [4; 5; 1; 0; 7; 6; 2; 3]; [4; 7; 6; 5; 0; 3; 2; 1]; [5; 1; 0; 4; 6; 2; 3; 7]; [5; 4; 7; 6; 1; 0; 3; 2]; [5; 6; 2; 1; 4; 7; 3; 0]; [6; 2; 1; 5; 7; 3; 0; 4]; [6; 5; 4; 7; 2; 1; 0; 3]; [6; 7; 3; 2; 5; 4; 0; 1]; [7; 3; 2; 6; 4; 0; 1; 5]; [7; 4; 0; 3; 6; 5; 1; 2]; [7; 6; 5; 4; 3; 2; 1; 0]]%nat.
Definition sym_of (s : shape) := match s_nv s with 4%nat => sym_tetrahedron | 5%nat => sym_pyramid | 6%nat => sym_prism | _ => sym_hexahedron end.
Lemma flags_ok : forall s, In s [tetrahedron; pyramid; prism; hexahedron] -> flagsb s (sym_of s) = true.
Proof. intros s H. repeat (destruct H as [<-|H]; [vm_compute; reflexivity|]). destruct H. Qed.
