(** Structured meshes in 3D: regions, and the whole mesh. *)
From Coq Require Import ZArith List Lia Bool Arith ZifyBool ZifyNat Permutation.
From Verif Require Import Base BaseProofs ListSpec HashProofs HashProofs2 AttModel AttProps ParModel ParProps TopoModel TopoSpec TopoProofs TopoProofs2 TopoProofs3 TopoProofs4 TopoProofs5 TopoProofs6 TopoProofs7 TopoProps TopoProps2 TopoProps3 ModProofs ModProofs2 CellModel CellSpec CellProofs CellProofs2 CellProofs3 CellProofs4 CellProofs5 CellProofs6 BuildModel BuildProofs BuildProofs2 BuildProofs3 BuildProofs4 BuildProofs5 BuildProps GenModel GenSpec GenProofs GenProofs2 GenProofs3 GenProofs4.
Import ListNotations.
Open Scope Z_scope.

Lemma loop_rot : forall x y, rotation (loop_of x) (loop_of y) -> x = y.
Proof.
  intros [d [[i j] k]] [d' [[i' j'] k']] H. destruct d, d'; cbn [loop_of plane fst snd step] in H; apply rot4 in H; destruct H as [E|[E|[E|E]]]; inversion E; try lia; repeat f_equal; lia.
Qed.
Lemma corners_nd : forall p, NoDup (corners_of p).
Proof.
  intros [[i j] k]. cbn. repeat (constructor; [intros H; cbn in H; repeat (destruct H as [H|H]; [inversion H; lia|]); destruct H|]); constructor.
Qed.
Lemma corners_within : forall n p q, is_c n p -> In q (corners_of p) -> within n q.
Proof.
  intros [[nx ny] nz] [[i j] k] q (H1 & H2) H. cbn in *. repeat (destruct H as [<-|H]; [lia|]); destruct H.
Qed.
Lemma wl_is : forall n p x d, is_c n p -> In (x, d) (wl p) -> is_f n x.
Proof.
  intros [[nx ny] nz] [[i j] k] x d (H1 & H2) H. unfold is_f. cbn in *. repeat (destruct H as [H|H]; [inversion H; subst; cbn; lia|]); destruct H.
Qed.
Lemma W_corner : forall (g : point -> ptr) p i, (i < 8)%nat -> W (map g (corners_of p)) i = g (nth i (corners_of p) p).
Proof. intros g p i H. unfold W. rewrite (nth_indep _ NULL (g p)) by (rewrite map_length; exact H). apply map_nth. Qed.
Lemma W_loop : forall (g : point -> ptr) p L, In L (s_loops hexahedron) -> map (W (map g (corners_of p))) L = map g (pl p L).
Proof.
  intros g p L H. unfold pl. rewrite map_map. apply map_ext_in. intros i Hi. apply W_corner. destruct (shape_loop hexahedron L (shapes_ok _ hex_std) H) as (_ & K & _). apply K. auto.
Qed.
Lemma pl_in : forall p L q, In q (pl p L) -> In q (corners_of p).
Proof. intros p L q H. apply in_map_iff in H. destruct H as (i & <- & _). destruct (Nat.lt_ge_cases i 8). apply nth_In; auto. rewrite nth_overflow by auto. left. auto. Qed.
Lemma turn4_in : forall x q, In q (turn4 (loop_of x)) -> In q (loop_of x).
Proof. intros [d p] q H. unfold loop_of in *. destruct (plane (fst (d, p))). cbn in *. tauto. Qed.
Lemma outward_turn4 : forall a f d x (g : point -> ptr), outward a (f, d) (map g (loop_of x)) -> outward a (f, negb d) (map g (turn4 (loop_of x))).
Proof. intros a f d [ax p] g H. unfold loop_of in *. destruct (plane (fst (ax, p))). cbn [map turn4] in *. apply outward_flip. auto. Qed.
Lemma corner_edges : forall n p i j, is_c n p -> In (i, j) (s_edges hexahedron) -> exists x, is_e n x /\
  ((nth i (corners_of p) p = snd x /\ nth j (corners_of p) p = step (fst x) (snd x)) \/ (nth j (corners_of p) p = snd x /\ nth i (corners_of p) p = step (fst x) (snd x))).
Proof.
  intros [[nx ny] nz] [[u v] w] i j (H1 & H2) H. unfold is_e. cbn [s_edges hexahedron] in H. cbn in H1, H2. repeat (destruct H as [H|H]; [inversion H; subst; cbn [corners_of nth step];
    first [exists (AX, (u, v, w)); cbn; split; [lia|auto; fail]|exists (AY, (u, v, w)); cbn; split; [lia|auto; fail]|exists (AZ, (u, v, w)); cbn; split; [lia|auto; fail]
          |exists (AX, (u, v + 1, w)); cbn; split; [lia|auto; fail]|exists (AX, (u, v, w + 1)); cbn; split; [lia|auto; fail]|exists (AX, (u, v + 1, w + 1)); cbn; split; [lia|auto; fail]
          |exists (AY, (u + 1, v, w)); cbn; split; [lia|auto; fail]|exists (AY, (u, v, w + 1)); cbn; split; [lia|auto; fail]|exists (AY, (u + 1, v, w + 1)); cbn; split; [lia|auto; fail]
          |exists (AZ, (u + 1, v, w)); cbn; split; [lia|auto; fail]|exists (AZ, (u, v + 1, w)); cbn; split; [lia|auto; fail]|exists (AZ, (u + 1, v + 1, w)); cbn; split; [lia|auto; fail]]|]). destruct H.
Qed.

Section Gen3.
Variables (nx ny nz : Z).
Hypothesis (Hx : 1 <= nx) (Hy : 1 <= ny) (Hz : 1 <= nz).
Notation n := (nx, ny, nz).
Variables (s0 : gen) (a0 : amesh) (pts : list point).
Hypothesis D0 : verts_done n (cls_v nx ny nz) pts s0 a0.
Hypothesis P0 : forall p, In p pts <-> within n p.
Notation V := (VV (gn_tab s0)).
Variables (s1 : gen) (a1 : amesh) (es : list ((axis * point) * ptr)).
Hypothesis G1 : edges_g nx ny nz s0 a0 es s1 a1.
Hypothesis M1 : map fst es = all_e nx ny nz.
Variables (s2 : gen) (a2 : amesh) (fs : list ((axis * point) * ptr)).
Hypothesis G2 : faces_g nx ny nz s0 a0 s1 a1 fs s2 a2.
Hypothesis M2 : map fst fs = all_f nx ny nz.
Notation VINJ := (V_inj nx ny nz s0 a0 pts D0 P0).

Lemma F_ex : forall x, is_f n x -> exists e, In (x, e) fs.
Proof using M2. intros x H. apply assoc_ex. rewrite M2. apply all_f_in; auto. Qed.
Lemma F_is : forall x e, In (x, e) fs -> is_f n x.
Proof using M2. intros x e H. apply (all_f_in nx ny nz). rewrite <- M2. apply in_map_iff. exists (x, e). auto. Qed.
Lemma F_fun : forall x e e', In (x, e) fs -> In (x, e') fs -> e = e'.
Proof using M2. intros x e e'. apply assoc_fun. rewrite M2. apply all_f_nd. Qed.
Lemma points_rot : forall a f d l l', (forall p, In p l \/ In p l' -> within n p) -> outward a (f, d) (map V l) -> outward a (f, d) (map V l') -> rotation l l'.
Proof using D0 P0.
  intros a f d l l' HW H H'. pose proof H as (fb & _ & _ & Hf & _). cbn [fst] in Hf. pose proof (outward_rot _ _ _ _ _ H Hf) as R1. pose proof (outward_rot _ _ _ _ _ H' Hf) as R2.
  assert (R3 : rotation (map V l) (map V l')) by (eapply rotation_trans; [apply rotation_sym; exact R1|exact R2]). apply rotation_map_inv in R3. destruct R3 as (z & R3 & E). rewrite (map_inj_on _ _ V l' z); auto. intros x y Hx' Hy'. apply VINJ; apply HW; auto. left. eapply Permutation_in; [|exact Hy']. symmetry. apply rotation_perm; auto.
Qed.
Lemma F_inj : forall x x' f, In (x, f) fs -> In (x', f) fs -> x = x'.
Proof using D0 P0 M2 G2.
  intros x x' f H H'. apply loop_rot. destruct (fg_in _ _ _ _ _ _ _ _ _ _ G2 _ _ H) as (A & _). destruct (fg_in _ _ _ _ _ _ _ _ _ _ G2 _ _ H') as (B & _). eapply points_rot; [|exact A|exact B]. intros p [K|K]; (eapply loop_within; [|exact K]); eapply F_is; eassumption.
Qed.
(** Meshes that differ from the one with all faces in regions only. *)
Definition same_ef (a : amesh) := (forall e, a_e a e = a_e a1 e) /\ (forall f, a_f a f = a_f a2 f).
Lemma F_out : forall a x f, same_ef a -> In (x, f) fs -> outward a (f, true) (map V (loop_of x)).
Proof using G2.
  intros a x f (S1 & S2) H. destruct (fg_in _ _ _ _ _ _ _ _ _ _ G2 _ _ H) as (A & _). eapply outward_same; [|exact A]. intros fb Hb. rewrite S2. split; auto. intros e _. rewrite S1, (fg_e _ _ _ _ _ _ _ _ _ _ G2). auto.
Qed.
Lemma F_side : forall a x f (d : bool), same_ef a -> In (x, f) fs -> outward a (f, d) (map V (if d then loop_of x else turn4 (loop_of x))).
Proof using G2. intros a x f d S H. pose proof (F_out a x f S H) as A. destruct d; auto. apply (outward_turn4 a f true). auto. Qed.
Lemma key_wall : forall a p k L x f d, same_ef a -> is_c n p -> In (x, f) fs -> nth_error (s_loops hexahedron) k = Some L -> outward a (f, d) (map (W (map V (corners_of p))) L) -> nth_error (wl p) k = Some (x, d).
Proof using D0 P0 G2 M2.
  intros a p k L x f d S HC Hi HL HO. rewrite W_loop in HO by (eapply nth_error_In; eauto). apply (loop_wall p k L); auto. eapply points_rot; [|apply (F_side a x f d S Hi)|exact HO]. intros q [K|K].
  - apply (loop_within n x). eapply F_is; eauto. destruct d; auto. apply turn4_in; auto.
  - eapply corners_within; eauto. eapply pl_in; eauto.
Qed.
Lemma wall_key : forall a p k L x f d, same_ef a -> In (x, f) fs -> nth_error (s_loops hexahedron) k = Some L -> nth_error (wl p) k = Some (x, d) -> outward a (f, d) (map (W (map V (corners_of p))) L).
Proof using G2.
  intros a p k L x f d S Hi HL HO. rewrite W_loop by (eapply nth_error_In; eauto). eapply outward_rotation; [apply (F_side a x f d S Hi)|]. apply rotation_map. eapply wall_loop; eauto.
Qed.
Lemma F_live : forall f, a_f a2 f <> None -> exists x, In (x, f) fs.
Proof using G2. apply (fg_all _ _ _ _ _ _ _ _ _ _ G2). Qed.
Lemma loops_walls : forall a p b, same_ef a -> is_c n p -> Forall2 (fun x L => outward a x (map (W (map V (corners_of p))) L)) b (s_loops hexahedron) -> Forall2 (fun y w => In (fst w, fst y) fs /\ snd y = snd w) b (wl p).
Proof using D0 P0 G2 M2.
  intros a p b S HC H. assert (K : forall k y L, nth_error b k = Some y -> nth_error (s_loops hexahedron) k = Some L -> exists x, In (x, fst y) fs /\ nth_error (wl p) k = Some (x, snd y)).
  { intros k [f d] L Hb HL. assert (HO : outward a (f, d) (map (W (map V (corners_of p))) L)). { pose proof (F2_nth _ _ _ _ _ dflt [] k H) as X. cbv beta in X. rewrite (nth_error_nth _ _ _ Hb), (nth_error_nth _ _ _ HL) in X. apply X. apply nth_error_Some. congruence. }
    assert (HF : a_f a2 f <> None) by (destruct S as (_ & S2); rewrite <- S2; destruct HO as (fb & _ & _ & X & _); cbn [fst] in X; congruence). destruct (F_live f HF) as (x & Hi). exists x. split; auto. eapply key_wall; eauto. }
  pose proof (F2_length _ _ _ _ _ H) as LB. destruct b as [|y0 [|y1 [|y2 [|y3 [|y4 [|y5 [|]]]]]]]; try discriminate LB.
  destruct (K 0%nat _ _ eq_refl eq_refl) as (x0 & I0 & E0). destruct (K 1%nat _ _ eq_refl eq_refl) as (x1 & I1 & E1). destruct (K 2%nat _ _ eq_refl eq_refl) as (x2 & I2 & E2). destruct (K 3%nat _ _ eq_refl eq_refl) as (x3 & I3 & E3). destruct (K 4%nat _ _ eq_refl eq_refl) as (x4 & I4 & E4). destruct (K 5%nat _ _ eq_refl eq_refl) as (x5 & I5 & E5).
  cbn [wl nth_error] in *. unfold wl. inversion E0; inversion E1; inversion E2; inversion E3; inversion E4; inversion E5; subst. repeat (constructor; [cbn [fst snd]; split; [assumption|congruence]|]). constructor.
Qed.
Lemma walls_loops : forall a p b, same_ef a -> Forall2 (fun y w => In (fst w, fst y) fs /\ snd y = snd w) b (wl p) -> Forall2 (fun x L => outward a x (map (W (map V (corners_of p))) L)) b (s_loops hexahedron).
Proof using G2.
  intros a p b S H. assert (K : forall k y L w, nth_error b k = Some y -> nth_error (s_loops hexahedron) k = Some L -> nth_error (wl p) k = Some w -> outward a y (map (W (map V (corners_of p))) L)).
  { intros k [f d] L [x d'] Hb HL HW. pose proof (F2_nth _ _ _ _ _ dflt ((AX, p), true) k H) as X. cbv beta in X. rewrite (nth_error_nth _ _ _ Hb), (nth_error_nth _ _ _ HW) in X. destruct X as (X1 & X2). apply nth_error_Some. congruence. cbn [fst snd] in *. subst d'. eapply wall_key; eauto. }
  pose proof (F2_length _ _ _ _ _ H) as LB. destruct b as [|y0 [|y1 [|y2 [|y3 [|y4 [|y5 [|]]]]]]]; try discriminate LB.
  cbn [s_loops hexahedron] in *. constructor; [apply (K 0%nat _ _ _ eq_refl eq_refl eq_refl)|]. constructor; [apply (K 1%nat _ _ _ eq_refl eq_refl eq_refl)|]. constructor; [apply (K 2%nat _ _ _ eq_refl eq_refl eq_refl)|]. constructor; [apply (K 3%nat _ _ _ eq_refl eq_refl eq_refl)|]. constructor; [apply (K 4%nat _ _ _ eq_refl eq_refl eq_refl)|]. constructor; [apply (K 5%nat _ _ _ eq_refl eq_refl eq_refl)|]. constructor.
Qed.

(** ** Regions *)
Record regs_g (rs : list (point * ptr)) (s : gen) (a : amesh) : Prop := mkRG {
  rg_reach : reach (gn_t s) a; rg_tab : gn_tab s = gn_tab s0; rg_v : a_v a = a_v a0; rg_ef : same_ef a; rg_n : a_next a2 <= a_next a;
  rg_c : forall x, x < a_next a2 -> gn_c s x = gn_c s2 x;
  rg_is : forall c q, In (c, q) rs -> is_c n c;
  rg_in : forall c q, In (c, q) rs -> (exists b, a_r a q = Some (true, Some b) /\ Forall2 (fun y w => In (fst w, fst y) fs /\ snd y = snd w) b (wl c)) /\ typed (gn_t s) q /\ gn_c s q = (3, 1);
  rg_all : forall q, a_r a q <> None -> exists c, In (c, q) rs }.
Lemma cverts_ok : forall a p, a_v a = a_v a0 -> is_c n p -> cverts a hexahedron (map V (corners_of p)).
Proof using D0 P0.
  intros a p E H. split; [reflexivity|]. split. apply NoDup_map_on. apply corners_nd. intros x y Hx' Hy'. apply VINJ; eapply corners_within; eauto.
  apply Forall_forall. intros v Hv. apply in_map_iff in Hv. destruct Hv as (q & <- & Hq). unfold live_v. rewrite E. apply (V_live nx ny nz s0 a0 pts D0 P0). eapply corners_within; eauto.
Qed.
Lemma joins_back : forall a e u w, same_ef a -> joins a e u w -> joins a1 e u w.
Proof using. intros a e u w (S & _) (p & q & H & K). exists p, q. rewrite <- S. auto. Qed.
Lemma joins_up : forall a e u w, same_ef a -> joins a1 e u w -> joins a e u w.
Proof using. intros a e u w (S & _) (p & q & H & K). exists p, q. rewrite S. auto. Qed.
Lemma unique_ok : forall a e e' u w, same_ef a -> joins a e u w -> joins a e' u w -> e = e'.
Proof using D0 P0 G1 M1. intros a e e' u w S H H'. eapply (E_unique nx ny nz s0 a0 pts D0 P0 s1 a1 es G1 M1); eapply joins_back; eauto. Qed.
Lemma region_step : forall rs s a p, regs_g rs s a -> is_c n p -> ~ In p (map fst rs) -> exists s' a' q, region3 n s p = Ok s' /\ regs_g (rs ++ [(p, q)]) s' a'.
Proof using D0 P0 G1 M1 G2 M2.
  intros rs s a p [R1 R2 R3 R4 R5 R6 RI R7 R8] HC HN. assert (ER : region3 n s p = (rv <- mapM (vget n (set_gid (made s (MR_New (gn_t s)) 3) (snd (MR_New (gn_t s))) 1)) (corners_of p) ;; t <- MR_Set_Vertices (fst (MR_New (gn_t s))) (snd (MR_New (gn_t s))) rv ;; Ok (set_t (set_gid (made s (MR_New (gn_t s)) 3) (snd (MR_New (gn_t s))) 1) t))) by (destruct p as [[i j] k]; reflexivity). rewrite ER.
  set (ws := map V (corners_of p)). assert (EM : mapM (vget n (set_gid (made s (MR_New (gn_t s)) 3) (snd (MR_New (gn_t s))) 1)) (corners_of p) = Ok ws).
  { unfold ws. apply mapM_ok. intros c Hc. pose proof (corners_within n p c HC Hc) as W. rewrite vget_ok; cbn [set_gid made gn_tab]; rewrite ?R2; auto. rewrite (V_some nx ny nz s0 a0 pts D0 P0); auto. congruence. }
  rewrite EM. cbn [bind]. destruct (new_r_ok _ _ R1) as (a3 & R31 & En & A1 & A2 & A3 & A4 & A5). rewrite En.
  assert (S3 : same_ef a3) by (destruct R4 as (S1 & S2); split; intros; rewrite ?A2, ?A3; auto).
  destruct (build_old hexahedron (fst (MR_New (gn_t s))) a3 ws (a_next a)) as (t4 & a4 & b & E4 & R41 & TY & B1 & B2 & B3 & B4 & B5 & B6 & B7); auto.
  - apply hex_std.
  - apply cverts_ok; auto. congruence.
  - intros f e u w _ _ (fb & HF & _) _. assert (X : a_f a2 f <> None) by (destruct S3 as (_ & X); rewrite <- X; congruence). destruct (F_live f X) as (x & Hi). eapply outward_good. apply (F_out a3 x f S3 Hi). apply (loop_V_nd nx ny nz s0 a0 pts D0 P0). eapply F_is; eauto. destruct x as [[] [[u0 v0] w0]]; discriminate.
  - intros L f d q HL HO (c & Hc & Hi). assert (X : a_f a2 f <> None) by (destruct S3 as (_ & X); rewrite <- X; destruct HO as (fb & _ & _ & Y & _); cbn [fst] in Y; congruence). destruct (F_live f X) as (x & Hif).
    rewrite A5 in Hc. destruct (Z.eqb_spec q (a_next a)). discriminate. assert (Hq : a_r a q <> None) by congruence. destruct (R8 q Hq) as (p' & Hp'). destruct (R7 p' q Hp') as ((b' & Hb & W2) & _). rewrite Hc in Hb. inversion Hb; subst b'.
    destruct (F2_In _ _ _ _ _ (f, d) W2 Hi) as ([x' d'] & Hw & I' & ED). cbn [fst snd] in *. subst d'. pose proof (F_inj _ _ _ Hif I') as EX. subst x'. apply In_nth_error in HL. destruct HL as (kk & HL). pose proof (key_wall a3 p kk L x f d S3 HC Hif HL HO) as KW. apply nth_error_In in KW. apply wl_walls in KW, Hw. apply HN. rewrite (walls_cell _ _ _ _ KW Hw). apply in_map_iff. exists (p', q). auto.
  - left. rewrite A5, Z.eqb_refl. auto.
  - intros [i' j'] Hij. destruct (corner_edges n p i' j' HC Hij) as (x & HE & HW). destruct (E_ex nx ny nz es M1 x HE) as (e & Hi). exists e. apply (joins_up a3); auto. pose proof (E_joins nx ny nz s0 a0 s1 a1 es G1 x e Hi) as J. cbn [fst snd].
    assert (BB : (i' < 8)%nat /\ (j' < 8)%nat). { clear - Hij. cbn in Hij. repeat (destruct Hij as [Hij|Hij]; [inversion Hij; subst; lia|]). destruct Hij. }
    unfold ws. rewrite !W_corner by apply BB. destruct HW as [(-> & ->)|(-> & ->)]; auto. apply joins_sym; auto.
  - intros L HL. apply In_nth_error in HL. destruct HL as (kk & HL). destruct (nth_error (wl p) kk) as [[x d]|] eqn:EW. { destruct (F_ex x) as (f & Hi). apply (wl_is n p x d); auto. eapply nth_error_In; eauto. exists (f, d). eapply wall_key; eauto. } exfalso. apply nth_error_None in EW. assert (Y : (kk < length (s_loops hexahedron))%nat) by (apply nth_error_Some; congruence). cbn in EW, Y. lia.
  - intros e e' u w _ _. apply unique_ok; auto.
  - rewrite E4. cbn [bind]. assert (S4 : same_ef a4) by (destruct S3 as (S1 & S2); split; intros; rewrite ?B2, ?B3; auto). assert (OLD : forall q, a_r a q <> None -> q < a_next a) by (intros q Hq; apply (w_r _ (i_w _ _ (reach_inv _ _ R1)) q Hq)).
    eexists. exists a4, (a_next a). split; [reflexivity|]. constructor; cbn [set_gid set_gdim set_t made gn_t gn_tab gn_c]; rewrite ?En; auto.
    + congruence.
    + lia.
    + intros y H. unfold zupd. replace (y =? a_next a) with false by lia. auto.
    + intros c q H. apply in_app_or in H. destruct H as [H|[H|[]]]. eauto. inversion H; subst c. auto.
    + intros c q H. apply in_app_or in H. destruct H as [H|[H|[]]].
      * destruct (R7 c q H) as ((b' & Hb & W2) & T & C). assert (Hq : q < a_next a) by (apply OLD; congruence). split. exists b'. rewrite B5, A5. replace (q =? a_next a) with false by lia. auto. split.
        -- eapply (typed_keep (gn_t s) a); eauto. rewrite (region_frame _ _ _ _ q E4) by lia. unfold MR_New. cbn. unfold zupd. rewrite <- (i_n _ _ (reach_inv _ _ R1)) in Hq. replace (q =? tnext (gn_t s)) with false by lia. auto. intros f. rewrite B3, A3. auto.
        -- unfold zupd. replace (q =? a_next a) with false by lia. auto.
      * inversion H; subst c q. split. exists b. rewrite B5, Z.eqb_refl. split; auto. eapply loops_walls; eauto. split; auto. unfold zupd. rewrite !Z.eqb_refl. auto.
    + intros q H. rewrite B5, A5 in H. destruct (Z.eqb_spec q (a_next a)). exists p. apply in_or_app. right. left. congruence. destruct (R8 q H) as (c & Hi). exists c. apply in_or_app; auto.
Qed.
Definition all_c : list point := loop3 (zrange 0 nx) (zrange 0 ny) (zrange 0 nz).
Lemma all_c_in : forall p, In p all_c <-> is_c n p.
Proof using. intros [[i j] k]. unfold all_c, is_c. rewrite loop3_in, !zr_in. cbn. lia. Qed.
Lemma all_c_nd : NoDup all_c.
Proof using. apply loop3_nd; apply zrange_nd. Qed.
Lemma regs_ok : exists s3 a3 rs, foldM (region3 n) s2 all_c = Ok s3 /\ regs_g rs s3 a3 /\ map fst rs = all_c.
Proof using D0 P0 G1 M1 G2 M2.
  destruct (foldM_list gen _ (fun pre s => exists a rs, regs_g rs s a /\ map fst rs = pre) (region3 n) all_c s2) as (s' & E & a' & rs & G' & M').
  - exists a2, []. split; auto. destruct G2. constructor; auto. split; congruence. lia. intros c q []. intros c q []. intros q H. exfalso. apply H. auto.
  - intros pre x suf s3 EL (a3 & rs & G3 & M3). destruct (region_step rs s3 a3 x G3) as (s4 & a4 & q & E4 & G4).
    + apply all_c_in. rewrite EL. apply in_or_app; right; left; auto.
    + rewrite M3. pose proof all_c_nd as N. rewrite EL in N. apply NoDup_remove_2 in N. intros X. apply N. apply in_or_app; auto.
    + exists s4. split; auto. exists a4, (rs ++ [(x, q)]). split; auto. rewrite map_app, M3. auto.
  - exists s', a', rs. auto.
Qed.
End Gen3.
