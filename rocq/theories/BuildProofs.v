(** Loops of edges, growing meshes and the steps of building faces. *)
From Coq Require Import ZArith List Lia Bool Arith ZifyBool ZifyNat Permutation.
From Verif Require Import Base BaseProofs ListSpec HashProofs AttModel AttProps ParModel ParProps TopoModel TopoSpec TopoProofs TopoProofs2 TopoProofs3 TopoProofs4 TopoProofs5 TopoProofs6 TopoProofs7 TopoProps TopoProps2 TopoProps3 ModProofs ModProofs2 CellModel CellSpec CellProofs CellProofs2 CellProofs3 CellProofs4 CellProofs5 CellProofs6 BuildModel.
Import ListNotations.
Open Scope Z_scope.

(** ** A loop whose edges all belong to another loop *)

Lemma path_nonloop : forall a b u w, path a u b w -> forall e d, In (e, d) b -> exists x, a_e a e = Some (true, x) /\ fst x <> snd x.
Proof.
  induction b as [|[e d] b IH]; intros u w H g d' Hi; [destruct Hi|]. cbn [path] in H. destruct H as (x & Hx & N & _ & H). destruct Hi as [Hi|Hi]; [inversion Hi; subst; eauto|eapply IH; eauto].
Qed.
Lemma nonloop_walk : forall a d b, (forall e d', In (e, d') b -> exists x, a_e a e = Some (true, x) /\ fst x <> snd x) -> forall e d', In (e, d') (walk d b) -> exists x, a_e a e = Some (true, x) /\ fst x <> snd x.
Proof. intros a d b H e d' Hi. destruct (proj1 (walk_In d b e)) as (d2 & Hi2). eauto. eauto. Qed.
Lemma vats_perm : forall a b d, linked a b -> b <> [] -> Permutation (map (vat a) (walk d b)) (map (vend a) b).
Proof.
  intros a b d LK NE. destruct d; cbn [walk].
  - rewrite (vend_shift a b LK NE). destruct (map (vat a) b) as [|v l] eqn:E. destruct b; [congruence|discriminate]. cbn [tl hd]. apply Permutation_cons_append.
  - rewrite vat_turned. symmetry. apply Permutation_rev.
Qed.
Lemma in_turned : forall b e d, In (e, d) b -> In (e, negb d) (turned b).
Proof. intros b e d H. unfold turned. rewrite <- in_rev. apply in_map_iff. exists (e, d). auto. Qed.
Lemma nth_fst : forall (l : list (ptr * bool)) i, nth i (map fst l) NULL = fst (nth i l dflt).
Proof. intros. change NULL with (fst dflt) at 1. apply map_nth. Qed.
Lemma nth_vat : forall a (l : list (ptr * bool)) i, (i < length l)%nat -> nth i (map (vat a) l) NULL = vat a (nth i l dflt).
Proof. intros a l i H. rewrite (nth_indep _ NULL (vat a dflt)) by (rewrite map_length; auto). apply map_nth. Qed.
Lemma nth_inj : forall (l : list ptr) i j, NoDup l -> (i < length l)%nat -> (j < length l)%nat -> nth i l NULL = nth j l NULL -> i = j.
Proof. intros l i j N Hi Hj E. apply (proj1 (NoDup_nth l NULL) N); auto. Qed.

Lemma loop_in_loop : forall a u fb v nd, path a u fb u -> NoDup (stops a fb) -> path a v nd v -> NoDup (stops a nd) -> NoDup (map fst nd) -> nd <> [] ->
  incl (map fst nd) (map fst fb) -> exists d, rotation (walk d fb) nd.
Proof.
  intros a u fb v nd P1 N1 P2 N2 N3 NE INC. rewrite stops_vend in N1, N2. pose proof (closed_linked _ _ _ P1) as K1. pose proof (closed_linked _ _ _ P2) as K2.
  destruct nd as [|[e0 x0] nd']; [congruence|]. set (nd := (e0, x0) :: nd') in *. assert (H0 : In e0 (map fst fb)) by (apply INC; cbn; auto). apply in_map_iff in H0. destruct H0 as ([e0' y0] & E & H0). cbn in E. subst e0'.
  assert (NF : fb <> []) by (intros ->; destruct H0). exists (Bool.eqb x0 y0). set (d := Bool.eqb x0 y0).
  assert (HI : In (e0, x0) (walk d fb)). { unfold d. destruct (Bool.eqb x0 y0) eqn:Ed; cbn [walk]. apply eqb_prop in Ed. subst; auto. replace x0 with (negb y0) by (destruct x0, y0; auto; discriminate). apply in_turned; auto. }
  apply in_split in HI. destruct HI as (l1 & l2 & HS). set (c := (e0, x0) :: l2 ++ l1). assert (RC : rotation (walk d fb) c) by (exists l1, ((e0, x0) :: l2); split; auto).
  assert (KC : linked a c) by (eapply linked_rotation; [apply linked_walk; exact K1|exact RC]).
  assert (NC : NoDup (map (vat a) c)). { eapply Permutation_NoDup; [|exact N1]. rewrite <- (vats_perm a fb d K1 NF). apply rotation_perm, rotation_map. auto. }
  assert (NV : NoDup (map (vat a) nd)). { eapply Permutation_NoDup; [|exact N2]. rewrite <- (vats_perm a nd true K2 NE). auto. }
  assert (IC : incl (map fst nd) (map fst c)). { intros e He. apply INC in He. apply (Permutation_in _ (Permutation_map fst (rotation_perm _ _ _ RC))). apply in_map_iff in He. destruct He as ([e' y] & <- & He). destruct (proj2 (walk_In d fb e')) as (y' & Hy). eauto. apply in_map_iff. exists (e', y'). auto. }
  assert (LC : (0 < length c)%nat) by (cbn; lia). assert (LN : (0 < length nd)%nat) by (cbn; lia).
  assert (ST : forall k, (k < length nd)%nat -> (k < length c)%nat /\ nth k nd dflt = nth k c dflt).
  { induction k as [|k IH]; intros Hk. split; [exact LC|reflexivity]. destruct IH as (HC & HE); [lia|]. destruct KC as (EC & KC), K2 as (E2 & K2).
    assert (V1 : vend a (nth k nd dflt) = vat a (nth (S k) nd dflt)). { rewrite (K2 k) by lia. rewrite mod_S by lia. replace (S k =? length nd)%nat with false by lia. auto. }
    assert (HC' : (S k < length c)%nat).
    { destruct (Nat.eq_dec (S k) (length c)) as [Ek|]; [|lia]. exfalso. pose proof (KC k HC) as V2. rewrite <- HE, V1, Ek, Nat.mod_same in V2 by lia. cbn [nth c] in V2. change (e0, x0) with (nth 0 nd dflt) in V2. rewrite <- !nth_vat in V2 by lia. apply nth_inj in V2; auto; rewrite ?map_length; lia. }
    split; auto. pose proof (KC k HC) as V2. rewrite <- HE, V1, mod_S in V2 by auto. replace (S k =? length c)%nat with false in V2 by lia.
    destruct (nth (S k) nd dflt) as [g x] eqn:Eg. assert (Ig : In (g, x) nd) by (rewrite <- Eg; apply nth_In; auto). assert (Hg : In g (map fst c)) by (apply IC; apply in_map_iff; exists (g, x); auto).
    apply In_nth with (d := NULL) in Hg. destruct Hg as (j & Hj & Egj). rewrite map_length in Hj. rewrite nth_fst in Egj. destruct (nth j c dflt) as [g' y] eqn:Ej. cbn in Egj. subst g'.
    destruct (path_nonloop _ _ _ _ P2 _ _ Ig) as (z & Hz & Nz).
    assert (D : vat a (g, x) = vat a (nth j c dflt) \/ vat a (g, x) = vend a (nth j c dflt)). { rewrite Ej. unfold vat, vend. cbn [fst snd]. rewrite Hz. destruct x, y; cbn [d_start d_end]; auto. }
    destruct D as [D|D].
    - assert (j = S k). { rewrite D in V2. rewrite <- !nth_vat in V2 by auto. apply nth_inj in V2; auto; rewrite map_length; auto. } subst j. rewrite Ej. f_equal. rewrite Ej in D. unfold vat in D. cbn [fst snd] in D. rewrite Hz in D. destruct x, y; cbn [d_start] in D; auto; congruence.
    - exfalso. rewrite (KC j Hj) in D. assert (M : (S j mod length c < length c)%nat) by (apply Nat.mod_upper_bound; lia). rewrite D in V2. rewrite <- !nth_vat in V2 by auto. apply nth_inj in V2; auto; rewrite ?map_length; auto. rewrite mod_S in V2 by auto. destruct (S j =? length c)%nat eqn:Es; [lia|]. assert (j = k) by lia. subst j.
      assert (EE : nth k (map fst nd) NULL = nth (S k) (map fst nd) NULL). { rewrite !nth_fst, HE, Ej, Eg. auto. } apply nth_inj in EE; auto; rewrite ?map_length; lia. }
  assert (LE : length nd = length c).
  { destruct (ST (length nd - 1)%nat) as (L1 & E1); [lia|]. destruct (Nat.eq_dec (length nd) (length c)); auto. exfalso. destruct KC as (_ & KC), K2 as (_ & K2). pose proof (K2 (length nd - 1)%nat ltac:(lia)) as V1. pose proof (KC _ L1) as V2. rewrite <- E1, V1 in V2. replace (S (length nd - 1)) with (length nd) in V2 by lia. rewrite Nat.mod_same in V2 by lia. rewrite Nat.mod_small in V2 by lia.
    cbn [nth nd] in V2. change (e0, x0) with (nth 0 c dflt) in V2. rewrite <- !nth_vat in V2 by lia. apply nth_inj in V2; auto; rewrite ?map_length; lia. }
  replace nd with c. exact RC. apply (list_ext _ dflt). auto. intros i Hi. symmetry. apply ST. lia.
Qed.

(** ** From vertices to loops *)

(** The edge [fst x], used in direction [snd x], leads from [u] to [w]. *)
Definition leads a (x : ptr * bool) u w := exists y, a_e a (fst x) = Some (true, y) /\ d_start y (snd x) = u /\ d_end y (snd x) = w.
Lemma leads_vat : forall a x u w, leads a x u w -> vat a x = u /\ vend a x = w.
Proof. intros a x u w (y & H & <- & <-). unfold vat, vend. rewrite H. auto. Qed.
Lemma leads_joins : forall a x u w, leads a x u w -> joins a (fst x) u w.
Proof. intros a [e d] u w ([p q] & H & H1 & H2). exists p, q. cbn [fst snd] in *. split; auto. destruct d; cbn in *; subst; auto. Qed.
(** Edge number i leads from vertex i to the next one. *)
Definition follows a (vs : list ptr) (nd : list (ptr * bool)) := length nd = length vs /\
  forall i, (i < length vs)%nat -> leads a (nth i nd dflt) (nth i vs NULL) (nth (S i mod length vs) vs NULL).
Lemma follows_around : forall a vs nd, follows a vs nd -> around a vs nd.
Proof.
  intros a vs nd (HL & H). split; auto. intros i e d Hi. assert (Li : (i < length nd)%nat) by (apply nth_error_Some; congruence). destruct (H i) as (y & H1 & H2 & H3). lia. rewrite (nth_error_nth _ _ dflt Hi) in *. cbn [fst snd] in *.
  exists y, (nth i vs NULL), (nth (S i mod length nd) vs NULL). rewrite HL. split; auto. split. apply nth_error_nth'. lia. split. apply nth_error_nth'. apply Nat.mod_upper_bound. lia. split; auto.
Qed.
Lemma linked_path : forall a b, linked a b -> (forall x, In x b -> exists y, a_e a (fst x) = Some (true, y) /\ fst y <> snd y) -> b <> [] -> path a (vat a (nth 0 b dflt)) b (vat a (nth 0 b dflt)).
Proof.
  intros a b (EO & LK) NL NE.
  assert (G : forall c k, skipn k b = c -> c <> [] -> path a (vat a (nth k b dflt)) c (vat a (nth 0 b dflt))).
  { induction c as [|[e d] c IH]; intros k Hk HN; [congruence|]. assert (Lk : (k < length b)%nat) by (destruct (Nat.lt_ge_cases k (length b)); auto; rewrite skipn_all2 in Hk by lia; discriminate).
    assert (En : nth k b dflt = (e, d)). { rewrite <- (firstn_skipn k b) at 1. rewrite app_nth2; rewrite firstn_length; [|lia]. replace (k - Nat.min k (length b))%nat with 0%nat by lia. rewrite Hk. auto. }
    destruct (NL (e, d)) as (y & Hy & Ny). { rewrite <- En. apply nth_In; auto. } cbn [fst] in Hy. cbn [path]. exists y. split; auto. split; auto. rewrite En. unfold vat at 1. cbn [fst snd]. rewrite Hy. split; auto.
    assert (VE : d_end y d = vend a (nth k b dflt)) by (rewrite En; unfold vend; cbn [fst snd]; rewrite Hy; auto). rewrite VE, (LK k Lk), mod_S by auto.
    assert (Sk : skipn (S k) b = c). { clear -Hk. revert b Hk. induction k as [|k IHk]; intros [|y b] Hk; try discriminate; cbn [skipn] in *. inversion Hk; auto. apply IHk; auto. }
    destruct (S k =? length b)%nat eqn:Es. { rewrite skipn_all2 in Sk by lia. subst c. reflexivity. }
    apply IH; auto. intros ->. apply (f_equal (@length _)) in Sk. rewrite skipn_length in Sk. cbn in Sk. lia. }
  apply (G b 0%nat); auto.
Qed.
Lemma follows_ok : forall a vs nd, follows a vs nd -> NoDup vs -> (2 < length vs)%nat -> path a (nth 0 vs NULL) nd (nth 0 vs NULL) /\ NoDup (stops a nd) /\ NoDup (map fst nd) /\ map (vat a) nd = vs.
Proof.
  intros a vs nd F N L. pose proof (follows_around _ _ _ F) as AR. pose proof (around_vat _ _ _ AR) as EV. destruct F as (HL & F).
  assert (LK : linked a nd). { split. apply Forall_forall. intros x Hx. apply In_nth with (d := dflt) in Hx. destruct Hx as (i & Hi & <-). destruct (F i) as (y & Hy & _). lia. exists y; auto.
    intros i Hi. destruct (leads_vat _ _ _ _ (F i ltac:(lia))) as (_ & ->). assert (M : (S i mod length vs < length vs)%nat) by (apply Nat.mod_upper_bound; lia). destruct (leads_vat _ _ _ _ (F _ M)) as (V & _). rewrite HL, V. auto. }
  assert (NN : nd <> []) by (intros ->; cbn in HL; lia).
  assert (NX : forall i, (i < length vs)%nat -> nth i vs NULL <> nth (S i mod length vs) vs NULL). { intros i Hi E. apply nth_inj in E; auto. rewrite mod_S in E by auto. destruct (S i =? length vs)%nat eqn:Es; lia. apply Nat.mod_upper_bound; lia. }
  split; [|split; [|split; auto]].
  - assert (E0 : nth 0 vs NULL = vat a (nth 0 nd dflt)) by (rewrite EV, nth_vat; auto; destruct nd; [congruence|cbn; lia]). rewrite E0. apply linked_path; auto. intros x Hx. apply In_nth with (d := dflt) in Hx. destruct Hx as (i & Hi & <-). destruct (F i) as (y & Hy & Hs & He). lia. exists y. split; auto. specialize (NX i ltac:(lia)).
    destruct y as [p q]. destruct (snd (nth i nd dflt)); cbn in *; congruence.
  - rewrite stops_vend. eapply Permutation_NoDup; [apply (vats_perm a nd true LK NN)|]. cbn [walk]. rewrite <- EV. auto.
  - apply (NoDup_nth _ NULL). intros i j Hi Hj E. rewrite map_length in *. rewrite !nth_fst in E. destruct (F i) as ([p q] & A1 & A2 & A3); [lia|]. destruct (F j) as (y' & B1 & B2 & B3); [lia|]. rewrite E, B1 in A1. inversion A1; subst y'. clear A1 B1.
    assert (D : nth i vs NULL = nth j vs NULL \/ (nth i vs NULL = nth (S j mod length vs) vs NULL /\ nth (S i mod length vs) vs NULL = nth j vs NULL)) by (destruct (snd (nth i nd dflt)), (snd (nth j nd dflt)); cbn in *; intuition congruence).
    destruct D as [D|(D1 & D2)]. apply nth_inj in D; auto; lia. exfalso. apply nth_inj in D1; auto; [|lia|apply Nat.mod_upper_bound; lia]. apply nth_inj in D2; auto; [|apply Nat.mod_upper_bound; lia|lia]. rewrite mod_S in D1, D2 by lia. destruct (S i =? length vs)%nat eqn:Ei, (S j =? length vs)%nat eqn:Ej; lia.
Qed.

(** ** Growing meshes *)

Record grows (a a' : amesh) : Prop := mkGrows {
  g_v : a_v a' = a_v a; g_r : a_r a' = a_r a; g_n : a_next a <= a_next a';
  g_e : forall e, e < a_next a -> a_e a' e = a_e a e; g_f : forall f, f < a_next a -> a_f a' f = a_f a f }.
Lemma grows_refl : forall a, grows a a.
Proof. intros. constructor; auto. lia. Qed.
Lemma grows_trans : forall a b c, grows a b -> grows b c -> grows a c.
Proof.
  intros a b c [A1 A2 A3 A4 A5] [B1 B2 B3 B4 B5]. constructor. congruence. congruence. lia. intros e He. rewrite B4 by lia. auto. intros f Hf. rewrite B5 by lia. auto.
Qed.
Section Grow.
Variables (t : topo) (a a' : amesh).
Hypothesis (R : reach t a).
Hypothesis (G : grows a a').
Lemma old_e : forall e, a_e a e <> None -> e < a_next a.
Proof using R. intros e H. apply (w_e _ (i_w _ _ (reach_inv _ _ R))) in H. lia. Qed.
Lemma old_f : forall f, a_f a f <> None -> f < a_next a.
Proof using R. intros f H. apply (w_f _ (i_w _ _ (reach_inv _ _ R))) in H. lia. Qed.
Lemma grows_e : forall e x, a_e a e = Some x -> a_e a' e = Some x.
Proof using R G. intros e x H. rewrite (g_e _ _ G); auto. apply old_e. congruence. Qed.
Lemma grows_f : forall f x, a_f a f = Some x -> a_f a' f = Some x.
Proof using R G. intros f x H. rewrite (g_f _ _ G); auto. apply old_f. congruence. Qed.
Lemma grows_live : forall v, live_v a v -> live_v a' v.
Proof using G. intros v H. unfold live_v. rewrite (g_v _ _ G). auto. Qed.
Lemma grows_leads : forall x u w, leads a x u w -> leads a' x u w.
Proof using R G. intros x u w (y & H & H1 & H2). exists y. split; auto. apply grows_e; auto. Qed.
Lemma grows_joins : forall e u w, joins a e u w -> joins a' e u w.
Proof using R G. intros e u w (p & q & H & K). exists p, q. split; auto. apply grows_e; auto. Qed.
Lemma grows_face : forall q f d, has_face a' q f d <-> has_face a q f d.
Proof using G. intros. unfold has_face. rewrite (g_r _ _ G). tauto. Qed.
Lemma grows_has : forall f e, f < a_next a -> has_edge a' f e <-> has_edge a f e.
Proof using G. intros f e H. unfold has_edge. rewrite (g_f _ _ G) by auto. tauto. Qed.
Lemma face_same : forall f fb, a_f a f = Some (true, Some fb) -> a_f a' f = Some (true, Some fb) /\ forall e, In e (map fst fb) -> a_e a' e = a_e a e.
Proof using R G.
  intros f fb H. split. apply grows_f; auto. intros e He. apply (g_e _ _ G). apply old_e. pose proof (face_edges_ok _ _ _ _ (reach_inv _ _ R) H) as EO. rewrite Forall_forall in EO. apply in_map_iff in He. destruct He as (x & <- & Hx). destruct (EO x Hx) as (p & Hp). congruence.
Qed.
End Grow.
Lemma around_same : forall a a' vs c, (forall x, In x (map fst c) -> a_e a' x = a_e a x) -> around a vs c -> around a' vs c.
Proof.
  intros a a' vs c HE (HL & H). split; auto. intros i e d Hi. destruct (H i e d Hi) as (x & v & w & H1 & H2). exists x, v, w. split; auto. rewrite HE; auto. apply in_map_iff. exists (e, d). split; auto. eapply nth_error_In; eauto.
Qed.
Lemma rot_edges : forall d fb c e, rotation (walk d fb) c -> In e (map fst c) <-> In e (map fst fb).
Proof.
  intros d fb c e H. pose proof (Permutation_map fst (rotation_perm _ _ _ H)) as PP. assert (KI : In e (map fst c) <-> In e (map fst (walk d fb))) by (split; apply Permutation_in; [symmetry; exact PP|exact PP]). rewrite KI. destruct d; cbn [walk]; [tauto|]. unfold turned. rewrite map_rev, map_map. cbn. rewrite <- in_rev. tauto.
Qed.
Lemma outward_same : forall a a' f d vs, (forall fb, a_f a f = Some (true, Some fb) -> a_f a' f = Some (true, Some fb) /\ forall e, In e (map fst fb) -> a_e a' e = a_e a e) -> outward a (f, d) vs -> outward a' (f, d) vs.
Proof.
  intros a a' f d vs H (fb & u & c & H1 & H2 & H3 & H4). cbn [fst snd] in *. destruct (H fb H1) as (K1 & K2). exists fb, u, c. cbn [fst snd]. split; auto. split. eapply path_same; [|exact H2]. auto. split; auto. eapply around_same; [|exact H4]. intros x Hx. apply K2. apply (rot_edges _ _ _ x H3). auto.
Qed.
Lemma grows_outward : forall t a a' x vs, reach t a -> grows a a' -> outward a x vs -> outward a' x vs.
Proof. intros t a a' [f d] vs R G H. eapply outward_same; [|exact H]. intros fb Hf. apply (face_same t a a' R G); auto. Qed.
Lemma grows_outward_back : forall t a a' f d vs, reach t a -> grows a a' -> f < a_next a -> outward a' (f, d) vs -> outward a (f, d) vs.
Proof.
  intros t a a' f d vs R G Hf H. eapply outward_same; [|exact H]. intros fb Hb. rewrite (g_f _ _ G) in Hb by auto. split; auto. intros e He. symmetry. destruct (face_same t a a' R G f fb Hb) as (_ & K). auto.
Qed.
Lemma grows_good : forall t a a' f, reach t a -> grows a a' -> good_face a f -> good_face a' f.
Proof.
  intros t a a' f R G (b & u & H1 & H2 & H3). destruct (face_same t a a' R G f b H1) as (K1 & K2). exists b, u. split; auto. split. eapply path_same; eauto.
  replace (stops a' b) with (stops a b); auto. rewrite !stops_vend. apply map_ext_in. intros x Hx. unfold vend. rewrite K2; auto. apply in_map; auto.
Qed.
Lemma outward_good : forall a f d vs, outward a (f, d) vs -> NoDup vs -> vs <> [] -> good_face a f.
Proof.
  intros a f d vs (fb & u & c & H1 & H2 & H3 & H4) N NE. cbn [fst snd] in *. exists fb, u. split; auto. split; auto. rewrite stops_vend. pose proof (closed_linked _ _ _ H2) as LK. rewrite (around_vat _ _ _ H4) in N.
  assert (NF : fb <> []). { intros ->. apply rotation_length in H3. rewrite walk_length in H3. cbn in H3. destruct H4 as (L4 & _). destruct vs; [congruence|]. cbn in L4. lia. }
  eapply Permutation_NoDup; [apply (vats_perm a fb d LK NF)|]. eapply Permutation_NoDup; [|exact N]. apply Permutation_map. symmetry. apply rotation_perm; auto.
Qed.
