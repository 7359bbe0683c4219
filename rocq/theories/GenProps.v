(** C37: structured meshes. *)
From Coq Require Import ZArith List Lia Bool Arith ZifyBool ZifyNat Permutation.
From Verif Require Import Base BaseProofs ListSpec HashProofs HashProofs2 AttModel AttProps ParModel ParProps TopoModel TopoSpec TopoProofs TopoProofs2 TopoProofs3 TopoProofs4 TopoProofs5 TopoProofs6 TopoProofs7 TopoProps TopoProps2 TopoProps3 ModProofs ModProofs2 CellModel CellSpec CellProofs CellProofs2 CellProofs3 CellProofs4 CellProofs5 CellProofs6 CellProps BuildModel BuildProofs BuildProofs2 BuildProofs3 BuildProofs4 BuildProofs5 BuildProps GenModel GenSpec GenProofs GenProofs2 GenProofs3 GenProofs4 GenProofs5 GenProofs6.
Import ListNotations.
Open Scope Z_scope.

(** ** Numberings *)
Lemma ix_dec : forall x y : axis * point, {x = y} + {x <> y}.
Proof. intros [d [[i j] k]] [d' [[i' j'] k']]. decide equality. decide equality. apply Z.eq_dec. decide equality; apply Z.eq_dec. decide equality. Defined.
Lemma pt_dec : forall x y : point, {x = y} + {x <> y}.
Proof. intros [[i j] k] [[i' j'] k']. decide equality. apply Z.eq_dec. decide equality; apply Z.eq_dec. Defined.
Fixpoint lk {I} (dec : forall x y : I, {x = y} + {x <> y}) (l : list (I * ptr)) (x : I) : ptr :=
  match l with [] => NULL | (y, e) :: l' => if dec x y then e else lk dec l' x end.
Lemma lk_in : forall I dec (l : list (I * ptr)) x, In x (map fst l) -> In (x, lk dec l x) l.
Proof.
  induction l as [|[y e] l IH]; intros x H; [destruct H|]. cbn [lk]. destruct (dec x y) as [->|N]. left; auto. right. apply IH. destruct H as [H|H]; auto. cbn in H. congruence.
Qed.
Lemma numbers_lk : forall I dec (P : I -> Prop) (A : ptr -> Prop) (l : list (I * ptr)), NoDup (map fst l) -> (forall x, In x (map fst l) <-> P x) -> (forall x e, In (x, e) l -> A e) ->
  (forall x y e, In (x, e) l -> In (y, e) l -> x = y) -> (forall e, A e -> exists x, In (x, e) l) -> numbers P A (lk dec l).
Proof.
  intros I dec P A l N HP HA HI HS. split; [|split].
  - intros i Hi. apply HP in Hi. eapply HA. apply (lk_in _ dec). eauto.
  - intros i j Hi Hj E. apply HP in Hi, Hj. apply (lk_in _ dec) in Hi, Hj. rewrite E in Hi. eauto.
  - intros e He. apply HS in He. destruct He as (x & Hx). assert (Hi : In x (map fst l)) by (apply in_map_iff; exists (x, e); auto). exists x. split. apply HP; auto. eapply assoc_fun; [exact N| |exact Hx]. apply lk_in; auto.
Qed.
Lemma numbers_counts : forall I (P : I -> Prop) (A : ptr -> Prop) g l k, numbers P A g -> NoDup l -> (forall x, In x l <-> P x) -> Z.of_nat (length l) = k -> counts A k.
Proof.
  intros I P A g l k (H1 & H2 & H3) N HL E. exists (map g l). split. apply NoDup_map_on; auto. intros x y Hx Hy. apply H2; apply HL; auto. split; [|rewrite map_length; auto]. intros x. rewrite in_map_iff. split.
  - intros (i & <- & Hi). apply H1, HL; auto.
  - intros Hx. destruct (H3 x Hx) as (i & Hi & <-). exists i. split; auto. apply HL; auto.
Qed.

(** ** The model *)
Definition touchesb (s q : point) : bool := let '(x, y, z) := s in let '(u, v, w) := q in ((x =? 1) || (x =? u)) && ((y =? 1) || (y =? v)) && ((z =? 1) || (z =? w)).
Definition onb (M : solid) (s : point) (c : Z * Z) : bool :=
  (fst c =? ones s) && (1 <=? snd c) &&
  match nth_error (m_ents M) (Z.to_nat (fst c)) with
  | Some es => match nth_error es (Z.to_nat (snd c - 1)) with
               | Some vs => forallb (fun i => match nth_error (m_at M) i with Some q => Bool.eqb (existsb (Z.eqb (Z.of_nat i + 1)) vs) (touchesb s q) | None => true end) (seq 0 (length (m_at M)))
               | None => false end
  | None => false end.
Lemma onb_ok : forall M s c, onb M s c = true -> on M s c.
Proof.
  intros M s c H. unfold onb in H. rewrite !andb_true_iff in H. destruct H as ((H1 & H2) & H3). destruct (nth_error (m_ents M) _) as [es|] eqn:E1; [|discriminate]. destruct (nth_error es _) as [vs|] eqn:E2; [|discriminate]. split. lia. split. lia. exists es, vs. split; auto. split; auto. intros i q Hq.
  rewrite forallb_forall in H3. specialize (H3 i). rewrite Hq in H3. assert (Hi : In i (seq 0 (length (m_at M)))) by (apply in_seq; assert ((i < length (m_at M))%nat) by (apply nth_error_Some; congruence); lia). apply H3 in Hi. apply eqb_prop in Hi.
  assert (A : In (Z.of_nat i + 1) vs <-> existsb (Z.eqb (Z.of_nat i + 1)) vs = true). { rewrite existsb_exists. split. intros X. exists (Z.of_nat i + 1). split; auto. apply Z.eqb_refl. intros (y & Y1 & Y2). apply Z.eqb_eq in Y2. congruence. }
  assert (B : touches s q <-> touchesb s q = true). { destruct s as [[x y] z], q as [[u v] w]. cbn. rewrite !andb_true_iff, !orb_true_iff, !Z.eqb_eq. tauto. }
  rewrite A, B, Hi. tauto.
Qed.
Ltac cases3 := repeat match goal with |- context [side ?a ?b] => let H := fresh "C" in destruct (side_cases a b) as [H|[H|H]]; rewrite H; clear H end.
Lemma on_v : forall nx ny nz p, on cube (at_v (nx, ny, nz) p) (cls_v nx ny nz p).
Proof. intros nx ny nz [[i j] k]. unfold at_v, cls_v. cases3; apply onb_ok; vm_compute; reflexivity. Qed.
Lemma on_e : forall nx ny nz x, on cube (at_e (nx, ny, nz) x) (cls_e nx ny nz x).
Proof. intros nx ny nz [[] [[i j] k]]; unfold at_e, at_v, cls_e, inner; cbn [fst snd]; cases3; apply onb_ok; vm_compute; reflexivity. Qed.
Lemma on_f : forall nx ny nz x, on cube (at_f (nx, ny, nz) x) (cls_f nx ny nz x).
Proof. intros nx ny nz [[] [[i j] k]]; unfold at_f, at_v, cls_f, inner, plane; cbn [fst snd]; cases3; apply onb_ok; vm_compute; reflexivity. Qed.
Lemma on2_v : forall nx ny p, 1 <= nx -> 1 <= ny -> within (nx, ny, 0) p -> on square (at_v (nx, ny, 0) p) (cls2_v nx ny p).
Proof.
  intros nx ny [[i j] k] Hx Hy H. assert (k = 0) by (unfold within in H; lia). subst k. unfold at_v, cls2_v, class2_v, side. change (0 =? 0) with true. cbv iota.
  destruct (i =? 0), (i =? nx), (j =? 0), (j =? ny); apply onb_ok; vm_compute; reflexivity.
Qed.
Lemma on2_e : forall nx ny x, 1 <= nx -> 1 <= ny -> is_e (nx, ny, 0) x -> on square (at_e (nx, ny, 0) x) (cls2_e nx ny x).
Proof.
  intros nx ny [d [[i j] k]] Hx Hy (H1 & H2). cbn [fst snd] in *. assert (k = 0) by (unfold within in H1; lia). subst k. destruct d; [| |exfalso; cbn in H2; lia]; unfold at_e, at_v, cls2_e, inner, side; cbn [fst snd]; change (0 =? 0) with true; cbv iota;
  destruct (i =? 0), (i =? nx), (j =? 0), (j =? ny); apply onb_ok; vm_compute; reflexivity.
Qed.

(** ** Grids from tables *)
Lemma side_edges : forall a V E x f, outward a (f, true) (map V (loop_of x)) -> (forall e e' u w, joins a e u w -> joins a e' u w -> e = e') ->
  (forall y, In y (sides_of x) -> joins a (E y) (V (snd y)) (V (step (fst y) (snd y)))) -> forall e, has_edge a f e <-> exists y, In y (sides_of x) /\ e = E y.
Proof.
  intros a V E [d p] f HO U HE. destruct (outward_eloop _ _ _ _ HO) as (es & (L & J) & HI). pose proof (plane_comm d p) as PC. unfold sides_of, loop_of in *. cbn [fst snd] in *. destruct (plane d) as [b c] eqn:EP. cbn [fst snd map length] in *. destruct es as [|e0 [|e1 [|e2 [|e3 [|]]]]]; try discriminate L.
  assert (E0 : e0 = E (b, p)). { apply (U _ _ (V p) (V (step b p))). apply (J 0%nat). lia. apply (HE (b, p)). cbn; auto 6. }
  assert (E1 : e1 = E (c, step b p)). { apply (U _ _ (V (step b p)) (V (step c (step b p)))). apply (J 1%nat). lia. apply (HE (c, step b p)). cbn; auto 6. }
  assert (E2 : e2 = E (b, step c p)). { apply (U _ _ (V (step c (step b p))) (V (step c p))). apply (J 2%nat). lia. apply joins_sym. rewrite <- PC. apply (HE (b, step c p)). cbn; auto 6. }
  assert (E3 : e3 = E (c, p)). { apply (U _ _ (V (step c p)) (V p)). apply (J 3%nat). lia. apply joins_sym. apply (HE (c, p)). cbn; auto 6. }
  intros e. rewrite <- HI. subst e0 e1 e2 e3. cbn [In]. split.
  - intros [<-|[<-|[<-|[<-|[]]]]]; eexists; (split; [|reflexivity]); auto 6.
  - intros (y & Hy & ->). destruct Hy as [<-|[<-|[<-|[<-|[]]]]]; auto 6.
Qed.
Lemma grid_intro : forall n M t a c V es fs, reach t a ->
  (forall p, within n p -> a_v a (V p) = Some true /\ on M (at_v n p) (c (V p))) -> (forall p q, within n p -> within n q -> V p = V q -> p = q) -> (forall v, a_v a v <> None -> exists p, within n p /\ V p = v) ->
  NoDup (map fst es) -> (forall x, In x (map fst es) <-> is_e n x) -> (forall x e, In (x, e) es -> joins a e (V (snd x)) (V (step (fst x) (snd x))) /\ on M (at_e n x) (c e)) -> (forall e, a_e a e <> None -> exists x, In (x, e) es) ->
  NoDup (map fst fs) -> (forall x, In x (map fst fs) <-> is_f n x) -> (forall x f, In (x, f) fs -> outward a (f, true) (map V (loop_of x)) /\ on M (at_f n x) (c f)) -> (forall f, a_f a f <> None -> exists x, In (x, f) fs) ->
  grid n M t a c V (lk ix_dec es) (lk ix_dec fs).
Proof.
  intros n M t a c V es fs R V1 V2 V3 E1 E2 E3 E4 F1 F2 F3 F4.
  assert (EI : forall x e, In (x, e) es -> is_e n x) by (intros x e H; apply E2; apply in_map_iff; exists (x, e); auto). assert (FI : forall x e, In (x, e) fs -> is_f n x) by (intros x e H; apply F2; apply in_map_iff; exists (x, e); auto).
  assert (PR : forall x x', is_e n x -> is_e n x' -> (V (snd x) = V (snd x') /\ V (step (fst x) (snd x)) = V (step (fst x') (snd x'))) \/ (V (snd x) = V (step (fst x') (snd x')) /\ V (step (fst x) (snd x)) = V (snd x')) -> x = x').
  { intros [d p] [d' q] (W1 & W2) (W3 & W4) K. cbn [fst snd] in *. apply step_pair. destruct K as [(K1 & K2)|(K1 & K2)]; apply V2 in K1; apply V2 in K2; auto. }
  assert (U : forall e e' u w, joins a e u w -> joins a e' u w -> e = e').
  { intros e e' u w J J'. pose proof J as (p & q & H & _). pose proof J' as (p' & q' & H' & _). assert (X : a_e a e <> None) by congruence. assert (X' : a_e a e' <> None) by congruence. apply E4 in X, X'. destruct X as (x & X), X' as (x' & X'). destruct (E3 _ _ X) as (A & _). destruct (E3 _ _ X') as (A' & _). pose proof (joins_same2 _ _ _ _ _ _ J A) as B. pose proof (joins_same2 _ _ _ _ _ _ J' A') as B'.
    assert (x = x') by (apply PR; [eapply EI; eauto|eapply EI; eauto|destruct B as [(B1 & B2)|(B1 & B2)], B' as [(B3 & B4)|(B3 & B4)]; [left|right|right|left]; split; congruence]). subst x'. eapply assoc_fun; [exact E1|exact X|exact X']. }
  assert (LE : forall x, is_e n x -> In (x, lk ix_dec es x) es) by (intros x H; apply lk_in, E2; auto). assert (LF : forall x, is_f n x -> In (x, lk ix_dec fs x) fs) by (intros x H; apply lk_in, F2; auto).
  constructor; auto.
  - split; [|split]; auto. intros p H. apply V1; auto. intros v H. apply V3. congruence.
  - apply numbers_lk; auto.
    + intros x e H. destruct (E3 x e H) as ((p & q & H1 & _) & _). eauto.
    + intros x y e H H'. apply PR; eauto. destruct (E3 _ _ H) as (A & _). destruct (E3 _ _ H') as (B & _). apply (joins_same2 _ _ _ _ _ _ A B).
    + intros e (x & H). apply E4. congruence.
  - apply numbers_lk; auto.
    + intros x f H. destruct (F3 x f H) as ((fb & _ & _ & H1 & _) & _). eauto.
    + intros x y f H H'. apply loop_rot. destruct (F3 _ _ H) as (A & _). destruct (F3 _ _ H') as (B & _). pose proof A as (fb & _ & _ & Hf & _). cbn [fst] in Hf. pose proof (outward_rot _ _ _ _ _ A Hf) as R1. pose proof (outward_rot _ _ _ _ _ B Hf) as R2.
      assert (R3 : rotation (map V (loop_of x)) (map V (loop_of y))) by (eapply rotation_trans; [apply rotation_sym; exact R1|exact R2]). apply rotation_map_inv in R3. destruct R3 as (z & R3 & E). rewrite (map_inj_on _ _ V (loop_of y) z); auto. intros p q Hp Hq. apply V2. apply (loop_within n y); eauto. apply (loop_within n x); eauto. eapply Permutation_in; [|exact Hq]. symmetry. apply rotation_perm; auto.
    + intros f (b & H). apply F4. congruence.
  - intros x H. apply E3; auto.
  - intros x H. apply F3; auto.
  - intros x H. apply side_edges with (V := V); auto. apply F3; auto. intros y Hy. apply E3, LE. eapply sides_is; eauto.
  - intros p H. apply V1; auto.
  - intros x H. apply E3; auto.
  - intros x H. apply F3; auto.
Qed.

(** ** 3D *)
Lemma start_ok : forall n cls, verts_done n cls [] (mkGen empty_topo (fun _ => None) (fun _ => (4, 0))) amesh0.
Proof.
  intros n cls. constructor; cbn [gn_t gn_tab gn_c]; try (intros; reflexivity); try congruence. exists []. split; [constructor|]. split; reflexivity. intros p. split. congruence. intros []. intros v H. exfalso. apply H. reflexivity.
Qed.
Lemma bind_ok : forall A B (x : result A) (g : A -> result B) y, x = Ok y -> bind x g = g y.
Proof. intros A B x g y ->. reflexivity. Qed.
Lemma bind3 : forall (x : result gen) (f g h : gen -> result gen), (s <- x ;; s <- f s ;; s <- g s ;; h s) = (s <- (s <- x ;; s <- f s ;; g s) ;; h s).
Proof. intros x f g h. destruct x as [s| | |]; cbn [bind]; auto. destruct (f s); cbn [bind]; auto. Qed.

(** C37: for every number of cells MESH_Gen_Structured makes the mesh of the grid:
    its vertices, edges, faces and regions are those of the grid, connected as in
    it, each classified on the smallest entity of the unit cube around it. *)
Theorem C37_volume : forall nx ny nz, 1 <= nx -> 1 <= ny -> 1 <= nz -> exists t c a V E F R,
  MESH_Gen_Structured nx ny nz = Ok (t, c) /\ grid (nx, ny, nz) cube t a c V E F /\ cells (nx, ny, nz) cube t a c V F R /\
  (forall p, is_c (nx, ny, nz) p -> typed t (R p)) /\
  counts (fun v => a_v a v = Some true) ((nx + 1) * (ny + 1) * (nz + 1)) /\
  counts (fun e => exists x, a_e a e = Some (true, x)) (nx * (ny + 1) * (nz + 1) + (nx + 1) * ny * (nz + 1) + (nx + 1) * (ny + 1) * nz) /\
  counts (fun f => exists b, a_f a f = Some (true, b)) ((nx + 1) * ny * nz + nx * (ny + 1) * nz + nx * ny * (nz + 1)) /\
  counts (fun r => exists b, a_r a r = Some (true, b)) (nx * ny * nz).
Proof.
  intros nx ny nz Hx Hy Hz. set (n := (nx, ny, nz)).
  destruct (verts_ok nx ny nz Hx Hy Hz _ (start_ok n (cls_v nx ny nz))) as (s0 & a0 & pts & E0 & D0 & P0).
  destruct (edges_ok nx ny nz Hx Hy Hz s0 a0 pts D0 P0) as (s1 & a1 & es & E1 & G1 & M1).
  destruct (faces_ok nx ny nz Hx Hy Hz s0 a0 pts D0 P0 s1 a1 es G1 M1) as (s2 & a2 & fs & E2 & G2 & M2).
  destruct (regs_ok nx ny nz s0 a0 pts D0 P0 s1 a1 es G1 M1 s2 a2 fs G2 M2) as (s3 & a3 & rs & E3 & G3 & M3).
  assert (EG : MESH_Gen_Structured nx ny nz = Ok (gn_t s3, gn_c s3)).
  { unfold MESH_Gen_Structured. replace (ny =? 0) with false by lia. replace (0 <? nz) with true by lia. unfold gen3. rewrite E0. rewrite (bind_ok _ _ _ _ s0 eq_refl). rewrite bind3, E1. rewrite (bind_ok _ _ _ _ s1 eq_refl). rewrite bind3, E2. rewrite (bind_ok _ _ _ _ s2 eq_refl). fold (all_c nx ny nz). rewrite E3. reflexivity. }
  set (V := VV (gn_tab s0)). pose proof (eg_n _ _ _ _ _ _ _ _ G1) as N1. pose proof (fg_n _ _ _ _ _ _ _ _ _ _ G2) as N2. destruct (rg_ef _ _ _ _ _ _ _ _ _ _ _ _ G3) as (SE & SF).
  assert (GR : grid n cube (gn_t s3) a3 (gn_c s3) V (lk ix_dec es) (lk ix_dec fs)).
  { apply grid_intro.
    - apply (rg_reach _ _ _ _ _ _ _ _ _ _ _ _ G3).
    - intros p H. pose proof (V_live nx ny nz s0 a0 pts D0 P0 p H) as L. rewrite (rg_v _ _ _ _ _ _ _ _ _ _ _ _ G3). split; auto. unfold live_v in L. assert (B : V p < a_next a0) by (apply (old_v _ _ _ (vd_reach _ _ _ _ _ D0)); unfold V; congruence).
      rewrite (rg_c _ _ _ _ _ _ _ _ _ _ _ _ G3), (fg_c _ _ _ _ _ _ _ _ _ _ G2), (eg_c _ _ _ _ _ _ _ _ G1) by lia. destruct (vd_live _ _ _ _ _ D0 _ _ (V_some nx ny nz s0 a0 pts D0 P0 p H)) as (_ & K). unfold V. rewrite K. apply on_v.
    - apply (V_inj nx ny nz s0 a0 pts D0 P0).
    - intros v H. rewrite (rg_v _ _ _ _ _ _ _ _ _ _ _ _ G3) in H. destruct (vd_all _ _ _ _ _ D0 v H) as (p & Hp). exists p. split. apply P0, (vd_tab _ _ _ _ _ D0). congruence. unfold V, VV. rewrite Hp. auto.
    - rewrite M1. apply all_e_nd.
    - intros x. rewrite M1. apply all_e_in.
    - intros x e H. pose proof (E_joins nx ny nz s0 a0 s1 a1 es G1 x e H) as J. split. destruct J as (p & q & J1 & J2). exists p, q. rewrite SE. auto. assert (B : e < a_next a1) by (apply (old_e _ _ (eg_reach _ _ _ _ _ _ _ _ G1)); destruct J as (p & q & J1 & _); congruence).
      rewrite (rg_c _ _ _ _ _ _ _ _ _ _ _ _ G3), (fg_c _ _ _ _ _ _ _ _ _ _ G2) by lia. destruct (eg_in _ _ _ _ _ _ _ _ G1 x e H) as (_ & K). rewrite K. apply on_e.
    - intros e H. rewrite SE in H. apply (eg_all _ _ _ _ _ _ _ _ G1 e H).
    - rewrite M2. apply all_f_nd.
    - intros x. rewrite M2. apply all_f_in.
    - intros x f H. split. apply (F_out nx ny nz s0 a0 s1 a1 s2 a2 fs G2); auto. split; auto. destruct (fg_in _ _ _ _ _ _ _ _ _ _ G2 x f H) as (O & K). assert (B : f < a_next a2) by (apply (old_f _ _ (fg_reach _ _ _ _ _ _ _ _ _ _ G2)); destruct O as (fb & _ & _ & O & _); cbn [fst] in O; congruence). rewrite (rg_c _ _ _ _ _ _ _ _ _ _ _ _ G3) by lia. rewrite K. apply on_f.
    - intros f H. rewrite SF in H. apply (fg_all _ _ _ _ _ _ _ _ _ _ G2 f H). }
  assert (FN : forall x f, In (x, f) fs -> f = lk ix_dec fs x). { intros x f H. assert (ND : NoDup (map fst fs)) by (rewrite M2; apply all_f_nd). eapply assoc_fun; [exact ND|exact H|]. apply lk_in. apply in_map_iff. exists (x, f). auto. }
  assert (LR : forall p, is_c n p -> In (p, lk pt_dec rs p) rs). { intros p H. apply lk_in. rewrite M3. apply all_c_in. auto. }
  assert (RI : forall c q, In (c, q) rs -> is_c n c) by (intros c q H; apply (rg_is _ _ _ _ _ _ _ _ _ _ _ _ G3 _ _ H)).
  assert (WB : forall p q b, In (p, q) rs -> a_r a3 q = Some (true, Some b) -> forall f s, In (f, s) b <-> exists x, walls_of p x s /\ f = lk ix_dec fs x).
  { intros p q b H Hb f s. destruct (rg_in _ _ _ _ _ _ _ _ _ _ _ _ G3 _ _ H) as ((b' & Hb' & FW) & _). rewrite Hb in Hb'. inversion Hb'; subst b'. split.
    - intros Hi. destruct (F2_In _ _ _ _ _ _ FW Hi) as ([x s'] & Hw & Hf & Es). cbn [fst snd] in *. subst s'. exists x. split. apply wl_walls; auto. apply FN; auto.
    - intros (x & Hw & ->). apply wl_walls in Hw. assert (FW' : Forall2 (fun w y => In (fst w, fst y) fs /\ snd y = snd w) (wl p) b) by (clear - FW; induction FW; constructor; auto). destruct (F2_In _ _ _ _ _ _ FW' Hw) as ([f' s'] & Hi & Hf & Es). cbn [fst snd] in *. subst s'. rewrite <- (FN _ _ Hf). auto. }
  assert (CE : cells n cube (gn_t s3) a3 (gn_c s3) V (lk ix_dec fs) (lk pt_dec rs)).
  { constructor.
    - apply numbers_lk.
      + rewrite M3. apply all_c_nd.
      + intros x. rewrite M3. apply all_c_in.
      + intros p q H. destruct (rg_in _ _ _ _ _ _ _ _ _ _ _ _ G3 _ _ H) as ((b & Hb & _) & _). eauto.
      + intros p p' q H H'. destruct (rg_in _ _ _ _ _ _ _ _ _ _ _ _ G3 _ _ H) as ((b & Hb & _) & _). assert (W1 : walls_of p (AX, p) false) by (left; auto). assert (Hi : In (lk ix_dec fs (AX, p), false) b) by (apply (WB p q b H Hb); eauto). apply (WB p' q b H' Hb) in Hi. destruct Hi as (x & W2 & EL). assert (EX : (AX, p) = x).
        { apply (proj1 (proj2 (gr_f _ _ _ _ _ _ _ _ GR))); auto. apply (wl_is n p _ false); eauto. apply wl_walls; auto. apply (wl_is n p' _ false); eauto. apply wl_walls; auto. } subst x. eapply walls_cell; eauto.
      + intros r (b & Hb). apply (rg_all _ _ _ _ _ _ _ _ _ _ _ _ G3). congruence.
    - intros p Hp f s. specialize (LR p Hp). destruct (rg_in _ _ _ _ _ _ _ _ _ _ _ _ G3 _ _ LR) as ((b & Hb & _) & _). rewrite <- (WB p _ b LR Hb). split. intros (b' & Hb' & Hi). congruence. intros Hi. exists b. auto.
    - intros p Hp. specialize (LR p Hp). destruct (rg_in _ _ _ _ _ _ _ _ _ _ _ _ G3 _ _ LR) as ((b & Hb & FW) & _). exists b. split; auto. destruct (cverts_ok nx ny nz s0 a0 pts D0 P0 a3 p (rg_v _ _ _ _ _ _ _ _ _ _ _ _ G3) Hp) as (C1 & C2 & C3). split; auto. split; auto. split; auto. split.
      + intros e e' u w _ _. apply (unique_ok nx ny nz s0 a0 pts D0 P0 s1 a1 es G1 M1 a2). split; auto.
      + exists (s_loops hexahedron). split. apply Permutation_refl. apply (walls_loops nx ny nz s0 a0 s1 a1 s2 a2 fs G2); auto. split; auto.
    - intros p Hp. destruct (rg_in _ _ _ _ _ _ _ _ _ _ _ _ G3 _ _ (LR p Hp)) as (_ & _ & K). rewrite K. apply onb_ok. vm_compute. reflexivity. }
  exists (gn_t s3), (gn_c s3), a3, V, (lk ix_dec es), (lk ix_dec fs), (lk pt_dec rs). split; auto. split; auto. split; auto. split.
  { intros p Hp. apply (rg_in _ _ _ _ _ _ _ _ _ _ _ _ G3 _ _ (LR p Hp)). }
  assert (ZR : forall k, 0 <= k -> Z.of_nat (length (zrange 0 k)) = k) by (intros k Hk; rewrite zrange_length; lia).
  split; [|split; [|split]].
  - eapply (numbers_counts _ _ _ _ (loop3 (zrange 0 (nx + 1)) (zrange 0 (ny + 1)) (zrange 0 (nz + 1)))); [apply (gr_v _ _ _ _ _ _ _ _ GR)| | |].
    apply loop3_nd; apply zrange_nd. intros [[i j] k]. rewrite loop3_in, !zr_in. unfold n, within. lia. rewrite loop3_length, !Nat2Z.inj_mul, !ZR by lia. lia.
  - eapply (numbers_counts _ _ _ _ (all_e nx ny nz)); [apply (gr_e _ _ _ _ _ _ _ _ GR)| | |].
    apply all_e_nd. apply all_e_in. unfold all_e. rewrite !app_length, !map_length, !loop3_length, !Nat2Z.inj_add, !Nat2Z.inj_mul, !ZR by lia. lia.
  - eapply (numbers_counts _ _ _ _ (all_f nx ny nz)); [apply (gr_f _ _ _ _ _ _ _ _ GR)| | |].
    apply all_f_nd. apply all_f_in. unfold all_f. rewrite !app_length, !map_length, !loop3_length, !Nat2Z.inj_add, !Nat2Z.inj_mul, !ZR by lia. lia.
  - eapply (numbers_counts _ _ _ _ (all_c nx ny nz)); [apply (ce_r _ _ _ _ _ _ _ _ CE)| | |].
    apply all_c_nd. apply all_c_in. unfold all_c. rewrite loop3_length, !Nat2Z.inj_mul, !ZR by lia. lia.
Qed.
Print Assumptions C37_volume.

(** The vertices MR_Vertices lists for a cell are its corners, those MF_Vertices
    lists for a face go around it; the edges of a cell are those of its faces. *)
Theorem C37_volume_queries : forall nx ny nz t c a V E F R, grid (nx, ny, nz) cube t a c V E F -> cells (nx, ny, nz) cube t a c V F R -> (forall p, is_c (nx, ny, nz) p -> typed t (R p)) ->
  (forall p, is_c (nx, ny, nz) p -> exists vs, MR_Vertices t (R p) = Ok (Some vs) /\ Permutation vs (map V (corners_of p))) /\
  (forall x, is_f (nx, ny, nz) x -> exists vs, MF_Vertices t (F x) 1 NULL = Ok vs /\ rotation (map V (loop_of x)) vs).
Proof.
  intros nx ny nz t c a V E F R G C T. split.
  - intros p Hp. destruct (ce_cell _ _ _ _ _ _ _ _ C p Hp) as (b & Hb & CC). destruct (C39_region_vertices t a (R p) b hexahedron (map V (corners_of p)) (gr_reach _ _ _ _ _ _ _ _ G) Hb (T p Hp) hex_std CC) as (vs & E1 & _ & N & L). discriminate.
    exists vs. split; auto. destruct (verts_list a (R p) hexahedron b (map V (corners_of p)) hex_std Hb CC) as (N' & L'). apply NoDup_Permutation; auto. intros v. rewrite L, L'. tauto.
  - intros x Hx. destruct (face_query t a (F x) true (map V (loop_of x)) true (gr_reach _ _ _ _ _ _ _ _ G) (gr_loop _ _ _ _ _ _ _ _ G x Hx)) as (vs & es & E1 & _ & Q & _). destruct x as [d p]. unfold loop_of. destruct (plane _). discriminate. exists vs. auto.
Qed.
Print Assumptions C37_volume_queries.

(** Cells next to each other have the face between them in common, and use it in
    opposite directions; no other cell has it. *)
Theorem C37_volume_shared : forall nx ny nz t c a V E F R p d, grid (nx, ny, nz) cube t a c V E F -> cells (nx, ny, nz) cube t a c V F R ->
  is_c (nx, ny, nz) p -> is_c (nx, ny, nz) (step d p) ->
  has_face a (R p) (F (d, step d p)) (negb (along d)) /\ has_face a (R (step d p)) (F (d, step d p)) (along d) /\
  forall q s, has_face a q (F (d, step d p)) s -> q = R p \/ q = R (step d p).
Proof.
  intros nx ny nz t c a V E F R p d G C Hp Hq. split; [|split].
  - apply (ce_walls _ _ _ _ _ _ _ _ C p Hp). exists (d, step d p). split; auto. right. auto.
  - apply (ce_walls _ _ _ _ _ _ _ _ C _ Hq). exists (d, step d p). split; auto. left. auto.
  - intros q s H. pose proof H as (b & Hb & _). destruct (ce_r _ _ _ _ _ _ _ _ C) as (_ & _ & S1). destruct (S1 q) as (p' & Hp' & <-). eauto. apply (ce_walls _ _ _ _ _ _ _ _ C p' Hp') in H. destruct H as (x & W1 & EF).
    assert (EX : (d, step d p) = x). { apply (proj1 (proj2 (gr_f _ _ _ _ _ _ _ _ G))); auto. apply (wl_is _ (step d p) _ (along d)); auto. apply wl_walls. left; auto. apply (wl_is _ p' _ s); auto. apply wl_walls; auto. }
    subst x. assert (K : walls_of p (d, step d p) (negb (along d))) by (right; auto). assert (K' : walls_of (step d p) (d, step d p) (along d)) by (left; auto). destruct (Bool.bool_dec s (along d)) as [->|N]. right. f_equal. eapply walls_cell; eauto. assert (s = negb (along d)) by (destruct s, (along d); auto; congruence). subst s. left. f_equal. eapply walls_cell; eauto.
Qed.
Print Assumptions C37_volume_shared.

(** ** 2D *)

(** The same in 2D, on the unit square; there are no regions. *)
Theorem C37_surface : forall nx ny nz, 1 <= nx -> 1 <= ny -> nz <= 0 -> exists t c a V E F,
  MESH_Gen_Structured nx ny nz = Ok (t, c) /\ grid (nx, ny, 0) square t a c V E F /\ (forall r, a_r a r = None) /\
  counts (fun v => a_v a v = Some true) ((nx + 1) * (ny + 1)) /\
  counts (fun e => exists x, a_e a e = Some (true, x)) (nx * (ny + 1) + (nx + 1) * ny) /\
  counts (fun f => exists b, a_f a f = Some (true, b)) (nx * ny).
Proof.
  intros nx ny nz Hx Hy Hz. set (n := (nx, ny, 0)).
  destruct (verts2_ok nx ny Hx Hy _ (start_ok n (cls2_v nx ny))) as (s0 & a0 & pts & E0 & D0 & P0).
  destruct (cells2_ok nx ny Hx Hy s0 a0 pts D0 P0) as (s1 & a1 & es & fs & E1 & [G C2 C3 C4] & M1 & M2).
  assert (EG : MESH_Gen_Structured nx ny nz = Ok (gn_t s1, gn_c s1)).
  { unfold MESH_Gen_Structured. replace (ny =? 0) with false by lia. replace (0 <? nz) with false by lia. unfold gen2. rewrite E0. rewrite (bind_ok _ _ _ _ s0 eq_refl). rewrite E1. reflexivity. }
  set (V := VV (gn_tab s0)). pose proof G as [R1 T1 V1 N1 K1 ND1 I1 J1 A1].
  assert (GR : grid n square (gn_t s1) a1 (gn_c s1) V (lk ix_dec es) (lk ix_dec fs)).
  { apply grid_intro; auto.
    - intros p H. pose proof (V_live2 nx ny s0 a0 pts D0 P0 p H) as L. rewrite V1. split; auto. unfold live_v in L. rewrite K1 by (apply (old_v _ _ _ (vd_reach _ _ _ _ _ D0)); unfold V; congruence). destruct (vd_live _ _ _ _ _ D0 _ _ (V_some2 nx ny s0 a0 pts D0 P0 p H)) as (_ & K). unfold V. rewrite K. apply on2_v; auto.
    - apply (V_inj2 nx ny s0 a0 pts D0 P0).
    - intros v H. rewrite V1 in H. destruct (vd_all _ _ _ _ _ D0 v H) as (p & Hp). exists p. split. apply P0, (vd_tab _ _ _ _ _ D0). congruence. unfold V, VV. rewrite Hp. auto.
    - intros x e H. destruct (J1 x e H) as (J & K). split; auto. rewrite K. apply on2_e; eauto.
    - rewrite M1. apply all_c2_nd.
    - intros x. rewrite M1. apply all_c2_in.
    - intros x f H. destruct (C3 x f H) as (O & K & _). split; auto. rewrite K. assert (HF : is_f n x). { apply (all_c2_in nx ny). rewrite <- M1. apply in_map_iff. exists (x, f). auto. }
      destruct x as [[] [[i j] k]]; destruct HF as (F1 & F2); unfold n in F1, F2; cbn in F1, F2; [lia|lia|]. assert (k = 0) by lia. subst k. unfold at_f, at_v, n. cbn [fst snd plane inner]. apply onb_ok. vm_compute. reflexivity. }
  exists (gn_t s1), (gn_c s1), a1, V, (lk ix_dec es), (lk ix_dec fs). split; auto. split; auto. split; auto.
  assert (ZR : forall k, 0 <= k -> Z.of_nat (length (zrange 0 k)) = k) by (intros k Hk; rewrite zrange_length; lia).
  split; [|split].
  - eapply (numbers_counts _ _ _ _ (map (fun l => (l, 0)) (loop2 (zrange 0 (nx + 1)) (zrange 0 (ny + 1))))); [apply (gr_v _ _ _ _ _ _ _ _ GR)| | |].
    + apply FinFun.Injective_map_NoDup. intros u v E. inversion E; auto. apply loop2_nd; apply zrange_nd.
    + intros [[i j] k]. rewrite in_map_iff. unfold n, within. split. intros ([u v] & E & H). inversion E; subst. apply loop2_in in H. rewrite !zr_in in H. lia. intros H. exists (i, j). split. f_equal. lia. apply loop2_in. rewrite !zr_in. lia.
    + rewrite map_length, loop2_length, !Nat2Z.inj_mul, !ZR by lia. lia.
  - eapply (numbers_counts _ _ _ _ (map (fun l => (AX, (l, 0))) (loop2 (zrange 0 nx) (zrange 0 (ny + 1))) ++ map (fun l => (AY, (l, 0))) (loop2 (zrange 0 (nx + 1)) (zrange 0 ny)))); [apply (gr_e _ _ _ _ _ _ _ _ GR)| | |].
    + apply NoDup_app_intro'. apply FinFun.Injective_map_NoDup. intros u v E. inversion E; auto. apply loop2_nd; apply zrange_nd. apply FinFun.Injective_map_NoDup. intros u v E. inversion E; auto. apply loop2_nd; apply zrange_nd. intros x H1 H2. apply in_map_iff in H1, H2. destruct H1 as (u & <- & _), H2 as (v & E & _). discriminate.
    + intros [d [[i j] k]]. rewrite in_app_iff, !in_map_iff. unfold n, is_e. cbn [fst snd]. split.
      * intros [([u v] & E & H)|([u v] & E & H)]; inversion E; subst; apply loop2_in in H; rewrite !zr_in in H; cbn; lia.
      * intros (H1 & H2). destruct d; cbn in H1, H2; [left|right|lia]; exists (i, j); (split; [repeat f_equal; lia|]); apply loop2_in; rewrite !zr_in; lia.
    + rewrite app_length, !map_length, !loop2_length, !Nat2Z.inj_add, !Nat2Z.inj_mul, !ZR by lia. lia.
  - eapply (numbers_counts _ _ _ _ (all_c2 nx ny)); [apply (gr_f _ _ _ _ _ _ _ _ GR)| | |].
    apply all_c2_nd. apply all_c2_in. unfold all_c2. rewrite map_length, loop2_length, !Nat2Z.inj_mul, !ZR by lia. lia.
Qed.
Print Assumptions C37_surface.

(** Cells next to each other have the edge between them in common, and MF_Vertices
    lists the corners of a cell in their order. *)
Theorem C37_surface_shared : forall nx ny t c a V E F, grid (nx, ny, 0) square t a c V E F ->
  (forall p, is_f (nx, ny, 0) (AZ, p) -> exists vs, MF_Vertices t (F (AZ, p)) 1 NULL = Ok vs /\ rotation (map V [p; step AX p; step AY (step AX p); step AY p]) vs) /\
  (forall p, is_f (nx, ny, 0) (AZ, p) -> is_f (nx, ny, 0) (AZ, step AX p) -> has_edge a (F (AZ, p)) (E (AY, step AX p)) /\ has_edge a (F (AZ, step AX p)) (E (AY, step AX p))) /\
  (forall p, is_f (nx, ny, 0) (AZ, p) -> is_f (nx, ny, 0) (AZ, step AY p) -> has_edge a (F (AZ, p)) (E (AX, step AY p)) /\ has_edge a (F (AZ, step AY p)) (E (AX, step AY p))).
Proof.
  intros nx ny t c a V E F G. split; [|split].
  - intros p Hp. destruct (face_query t a (F (AZ, p)) true (map V (loop_of (AZ, p))) true (gr_reach _ _ _ _ _ _ _ _ G) (gr_loop _ _ _ _ _ _ _ _ G _ Hp)) as (vs & es & E1 & _ & Q & _). discriminate. exists vs. auto.
  - intros p H1 H2. split; apply (gr_sides _ _ _ _ _ _ _ _ G); auto; eexists; (split; [|reflexivity]); cbn; auto.
  - intros p H1 H2. split; apply (gr_sides _ _ _ _ _ _ _ _ G); auto; eexists; (split; [|reflexivity]); cbn; auto.
Qed.
Print Assumptions C37_surface_shared.

(** ** No cells in one direction *)

(** Without columns the 3D branch divides by zero (i%nx with nx = 0, where only
    ny = 0 is refused). *)
Theorem C37_no_columns_refuted : exists nx ny nz, 0 <= nx /\ 1 <= ny /\ 1 <= nz /\ MESH_Gen_Structured nx ny nz = Undef.
Proof. exists 0, 1, 1. repeat (split; [lia|]). vm_compute. reflexivity. Qed.
Print Assumptions C37_no_columns_refuted.

(** ** Examples *)

(** 2 by 3 by 2 cells: 36 vertices, 75 edges, 52 faces and 12 regions. *)
Definition sizes (r : result (topo * (ptr -> Z * Z))) (k : Z) : list Z :=
  match r with
  | Ok (t, _) => let l := zrange 1 k in let num {A} (g : ptr -> option A) := ZL (filter (fun p => match g p with Some _ => true | None => false end) l) in [num (tvs t); num (tes t); num (tfs t); num (trs t)]
  | _ => []
  end.
Example C37_volume_ex : sizes (MESH_Gen_Structured 2 3 2) 300 = [36; 75; 52; 12].
Proof. vm_compute. reflexivity. Qed.
Example C37_surface_ex : sizes (MESH_Gen_Structured 3 2 0) 100 = [12; 17; 6; 0].
Proof. vm_compute. reflexivity. Qed.
(** Its hypotheses are met: a grid with two cells next to each other. *)
Example C37_volume_shared_ex : exists t c a V E F R, grid (2, 1, 1) cube t a c V E F /\ cells (2, 1, 1) cube t a c V F R /\ is_c (2, 1, 1) (0, 0, 0) /\ is_c (2, 1, 1) (step AX (0, 0, 0)).
Proof.
  destruct (C37_volume 2 1 1) as (t & c & a & V & E & F & R & _ & G & C & _); try lia. exists t, c, a, V, E, F, R. split; auto. split; auto. unfold is_c. cbn. lia.
Qed.
(** The first cell of the 3D mesh: its vertices in the order MR_Vertices lists. *)
Example C37_volume_queries_ex : match MESH_Gen_Structured 2 1 1 with Ok (t, c) => match MR_Vertices t 44 with Ok (Some vs) => Permutation vs [1; 2; 5; 4; 7; 8; 11; 10] /\ c 44 = (3, 1) | _ => False end | _ => False end.
Proof. vm_compute. split; auto. Qed.
