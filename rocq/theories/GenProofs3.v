(** Structured meshes in 3D: faces. *)
From Coq Require Import ZArith List Lia Bool Arith ZifyBool ZifyNat Permutation.
From Verif Require Import Base BaseProofs ListSpec HashProofs HashProofs2 AttModel AttProps ParModel ParProps TopoModel TopoSpec TopoProofs TopoProofs2 TopoProofs3 TopoProofs4 TopoProofs5 TopoProofs6 TopoProofs7 TopoProps TopoProps2 TopoProps3 ModProofs ModProofs2 CellModel CellSpec CellProofs CellProofs2 CellProofs3 CellProofs4 CellProofs5 CellProofs6 BuildModel BuildProofs BuildProofs2 BuildProofs3 BuildProofs4 BuildProofs5 GenModel GenSpec GenProofs GenProofs2.
Import ListNotations.
Open Scope Z_scope.

Lemma assoc_fun : forall A B (l : list (A * B)) x y y', NoDup (map fst l) -> In (x, y) l -> In (x, y') l -> y = y'.
Proof.
  induction l as [|[u v] l IH]; intros x y y' N H H'; [destruct H|]. cbn [map fst] in N. apply NoDup_cons_iff in N. destruct N as (N1 & N2). destruct H as [H|H], H' as [H'|H'].
  - congruence.
  - inversion H; subst. exfalso. apply N1. apply in_map_iff. exists (x, y'). auto.
  - inversion H'; subst. exfalso. apply N1. apply in_map_iff. exists (x, y). auto.
  - eauto.
Qed.
Lemma assoc_ex : forall A B (l : list (A * B)) x, In x (map fst l) -> exists y, In (x, y) l.
Proof. intros A B l x H. apply in_map_iff in H. destruct H as ([u v] & <- & H). exists v. auto. Qed.
Lemma step_pair : forall d d' p q, (p = q /\ step d p = step d' q) \/ (p = step d' q /\ step d p = q) -> (d, p) = (d', q).
Proof.
  intros d d' [[i j] k] [[i' j'] k'] H. destruct H as [(E1 & E2)|(E1 & E2)]; destruct d, d'; cbn [step] in *; inversion E1; inversion E2; subst; auto; lia.
Qed.
Lemma joins_same : forall a a' e u w, a_e a' = a_e a -> joins a e u w -> joins a' e u w.
Proof. intros a a' e u w H (p & q & K). exists p, q. rewrite H. auto. Qed.
Lemma plane_comm : forall d p, step (fst (plane d)) (step (snd (plane d)) p) = step (snd (plane d)) (step (fst (plane d)) p).
Proof. intros [] [[i j] k]; reflexivity. Qed.
Lemma loop_within : forall n x p, is_f n x -> In p (loop_of x) -> within n p.
Proof.
  intros [[nx ny] nz] [d [[i j] k]] p (H1 & H2) H. destruct d; cbn in *; repeat (destruct H as [<-|H]; [lia|]); destruct H.
Qed.
Lemma loop_nd : forall x, NoDup (loop_of x).
Proof.
  intros [d [[i j] k]]. destruct d; cbn; repeat (constructor; [intros H; cbn in H; repeat (destruct H as [H|H]; [inversion H; lia|]); destruct H|]); constructor.
Qed.
Lemma sides_is : forall n x y, is_f n x -> In y (sides_of x) -> is_e n y.
Proof.
  intros [[nx ny] nz] [d [[i j] k]] y (H1 & H2) H. destruct d; cbn in *; repeat (destruct H as [<-|H]; [unfold is_e; cbn; lia|]); destruct H.
Qed.
Lemma NoDup_map_on : forall A B (g : A -> B) l, NoDup l -> (forall x y, In x l -> In y l -> g x = g y -> x = y) -> NoDup (map g l).
Proof.
  induction l as [|x l IH]; intros N H; cbn [map]; [constructor|]. apply NoDup_cons_iff in N. destruct N as (N1 & N2). constructor.
  - intros X. apply in_map_iff in X. destruct X as (y & E & Hy). apply N1. rewrite <- (H y x); auto. right; auto. left; auto.
  - apply IH; auto. intros u v Hu Hv. apply H; right; auto.
Qed.

Section Gen3.
Variables (nx ny nz : Z).
Hypothesis (Hx : 1 <= nx) (Hy : 1 <= ny) (Hz : 1 <= nz).
Notation n := (nx, ny, nz).
Variables (s0 : gen) (a0 : amesh) (pts : list point).
Hypothesis D0 : verts_done n (cls_v nx ny nz) pts s0 a0.
Hypothesis P0 : forall p, In p pts <-> within n p.
Notation V := (VV (gn_tab s0)).
Variables (s1 : gen) (a1 : amesh) (es : list ((axis * point) * ptr)).
Hypothesis G1 : edges_g nx ny nz s0 a0 es s1 a1.
Hypothesis M1 : map fst es = all_e nx ny nz.

Lemma E_ex : forall x, is_e n x -> exists e, In (x, e) es.
Proof using M1. intros x H. apply assoc_ex. rewrite M1. apply all_e_in; auto. Qed.
Lemma E_is : forall x e, In (x, e) es -> is_e n x.
Proof using M1. intros x e H. apply (all_e_in nx ny nz). rewrite <- M1. apply in_map_iff. exists (x, e). auto. Qed.
Lemma E_fun : forall x e e', In (x, e) es -> In (x, e') es -> e = e'.
Proof using M1. intros x e e'. apply assoc_fun. rewrite M1. apply all_e_nd. Qed.
Notation VINJ := (V_inj nx ny nz s0 a0 pts D0 P0).
Lemma E_pair : forall x x' e e', In (x, e) es -> In (x', e') es ->
  (V (snd x) = V (snd x') /\ V (step (fst x) (snd x)) = V (step (fst x') (snd x'))) \/ (V (snd x) = V (step (fst x') (snd x')) /\ V (step (fst x) (snd x)) = V (snd x')) -> x = x'.
Proof using D0 P0 M1.
  intros [d p] [d' q] e e' H H' K. apply E_is in H, H'. destruct H as (W1 & W2), H' as (W3 & W4). cbn [fst snd] in *. apply step_pair. destruct K as [(K1 & K2)|(K1 & K2)]; apply VINJ in K1; apply VINJ in K2; auto.
Qed.
Lemma E_inj : forall x x' e, In (x, e) es -> In (x', e) es -> x = x'.
Proof using D0 P0 M1 G1.
  intros x x' e H H'. apply (E_pair x x' e e H H'). left. destruct (eg_in _ _ _ _ _ _ _ _ G1 _ _ H) as (A & _). destruct (eg_in _ _ _ _ _ _ _ _ G1 _ _ H') as (B & _). rewrite A in B. inversion B. auto.
Qed.
Lemma E_joins : forall x e, In (x, e) es -> joins a1 e (V (snd x)) (V (step (fst x) (snd x))).
Proof using G1. intros x e H. destruct (eg_in _ _ _ _ _ _ _ _ G1 _ _ H) as (A & _). eexists _, _. split; [exact A|auto]. Qed.
Lemma E_unique : forall e e' u w, joins a1 e u w -> joins a1 e' u w -> e = e'.
Proof using D0 P0 M1 G1.
  intros e e' u w (p & q & H & K) (p' & q' & H' & K'). assert (X : a_e a1 e <> None) by congruence. assert (X' : a_e a1 e' <> None) by congruence. apply (eg_all _ _ _ _ _ _ _ _ G1) in X, X'. destruct X as (x & X), X' as (x' & X').
  pose proof (eg_in _ _ _ _ _ _ _ _ G1 _ _ X) as (A & _). pose proof (eg_in _ _ _ _ _ _ _ _ G1 _ _ X') as (A' & _). rewrite H in A. rewrite H' in A'. inversion A; inversion A'; subst p q p' q'. assert (x = x') by (apply (E_pair x x' e e' X X'); intuition congruence). subst x'. eapply E_fun; eauto.
Qed.

(** ** Faces *)
Definition cls_f (x : axis * point) : Z * Z := let '(d, (i, j, k)) := x in
  match d with
  | AX => (T1 fgdim_tmpl (side nx i), T1 fgid_tmpl0 (side nx i))
  | AY => (T1 fgdim_tmpl (side ny j), T1 fgid_tmpl1 (side ny j))
  | AZ => (T1 fgdim_tmpl (side nz k), T1 fgid_tmpl2 (side nz k))
  end.
Record faces_g (fs : list ((axis * point) * ptr)) (s : gen) (a : amesh) : Prop := mkFG {
  fg_reach : reach (gn_t s) a; fg_tab : gn_tab s = gn_tab s0; fg_v : a_v a = a_v a0; fg_e : a_e a = a_e a1; fg_r : forall x, a_r a x = None; fg_n : a_next a1 <= a_next a;
  fg_c : forall x, x < a_next a1 -> gn_c s x = gn_c s1 x;
  fg_in : forall x f, In (x, f) fs -> outward a (f, true) (map V (loop_of x)) /\ gn_c s f = cls_f x;
  fg_all : forall f, a_f a f <> None -> exists x, In (x, f) fs }.
Lemma loop_V_nd : forall x, is_f n x -> NoDup (map V (loop_of x)).
Proof using D0 P0. intros x H. apply NoDup_map_on. apply loop_nd. intros u v Hu Hv. apply VINJ; eapply loop_within; eauto. Qed.
Lemma loop_joins : forall x, is_f n x -> forall i, (i < 4)%nat -> exists e, joins a1 e (nth i (map V (loop_of x)) NULL) (nth (S i mod 4) (map V (loop_of x)) NULL).
Proof using D0 P0 G1 M1.
  intros x H i Hi. destruct x as [d p]. pose proof (plane_comm d p) as PC. pose proof (sides_is n (d, p)) as SI. unfold sides_of, loop_of in *. cbn [fst snd] in *. destruct (plane d) as [a b] eqn:EP. cbn [fst snd] in *.
  assert (JE : forall y, In y [(a, p); (b, step a p); (a, step b p); (b, p)] -> exists e, joins a1 e (V (snd y)) (V (step (fst y) (snd y)))). { intros y Hi'. destruct (E_ex y (SI y H Hi')) as (e & He). exists e. apply E_joins; auto. }
  destruct i as [|[|[|[|i]]]]; [| | | |lia]; cbn [map nth Nat.modulo Nat.divmod fst snd Nat.sub].
  - apply (JE (a, p)). cbn; auto.
  - apply (JE (b, step a p)). cbn; auto.
  - destruct (JE (a, step b p)) as (e & J). cbn; auto. exists e. cbn [fst snd] in J. rewrite PC in J. apply joins_sym. auto.
  - destruct (JE (b, p)) as (e & J). cbn; auto. exists e. apply joins_sym. auto.
Qed.
Lemma face_step : forall fs s a x gx gids u, faces_g fs s a -> is_f n x -> gx = Ok u -> three u -> length gids = 3%nat -> cls_f x = (T1 fgdim_tmpl u, T1 gids u) ->
  exists s' a' f, face3 n s (loop_of x) gx gids = Ok s' /\ faces_g (fs ++ [(x, f)]) s' a'.
Proof using D0 P0 G1 M1.
  intros fs s a x gx gids u [F1 F2 F3 F4 F5 F6 F7 F8 F9] HF -> Hu L C. unfold face3. set (vs := map V (loop_of x)).
  assert (EM : mapM (vget n (made s (MF_New (gn_t s)) 4)) (loop_of x) = Ok vs). { unfold vs. apply mapM_ok. intros p Hp. pose proof (loop_within n x p HF Hp) as W. rewrite vget_ok; cbn [made gn_tab]; rewrite ?F2; auto. rewrite (V_some nx ny nz s0 a0 pts D0 P0); auto. congruence. }
  rewrite EM. cbn [bind made gn_t]. destruct (new_f_ok _ _ F1) as (a2 & R2 & En & A1 & A2 & A3 & A4 & A5). rewrite En. assert (L4 : length vs = 4%nat) by (destruct x as [[] [[i j] k]]; reflexivity).
  destruct (set_verts_old (fst (MF_New (gn_t s))) a2 (a_next a) vs R2) as (t3 & a3 & nd & E3 & R3 & B1 & B2 & B3 & B4 & B5 & B6).
  - rewrite A5, Z.eqb_refl. auto.
  - apply loop_V_nd; auto.
  - lia.
  - apply Forall_forall. intros v Hv. unfold live_v. rewrite A1, F3. unfold vs in Hv. apply in_map_iff in Hv. destruct Hv as (p & <- & Hp). apply (V_live nx ny nz s0 a0 pts D0 P0). eapply loop_within; eauto.
  - rewrite L4. intros i Hi. destruct (loop_joins x HF i Hi) as (e & J). exists e. eapply joins_same; [|exact J]. congruence.
  - change 4 with (Z.of_nat 4) at 1. rewrite <- L4. fold (ZL vs). rewrite E3. cbn [bind]. rewrite !at1_ok by (auto; tm). cbn [bind]. eexists. exists a3, (a_next a). split; [reflexivity|]. constructor; cbn [set_gid set_gdim set_t made gn_t gn_tab gn_c]; rewrite ?En; auto.
    + congruence.
    + congruence.
    + intros y. rewrite B3, A3. auto.
    + lia.
    + intros y H. rewrite cls_upd. replace (y =? a_next a) with false by lia. auto.
    + intros y f H. rewrite cls_upd. apply in_app_or in H. destruct H as [H|[H|[]]].
      * destruct (F8 y f H) as (O & K). assert (X : a_f a f <> None) by (destruct O as (fb & _ & _ & O & _); cbn [fst] in O; congruence). apply (old_f _ _ F1) in X. replace (f =? a_next a) with false by lia. split; auto. eapply outward_same; [|exact O]. intros fb Hb. rewrite B5, A5. replace (f =? a_next a) with false by lia. split; auto. intros e _. rewrite B2, A2. auto.
      * inversion H; subst y f. rewrite Z.eqb_refl. split; auto. assert (NV : NoDup vs) by (apply loop_V_nd; auto). assert (LV : (2 < length vs)%nat) by lia. destruct (follows_ok a3 vs nd B6 NV LV) as (Q1 & _). exists nd. eexists. exists nd. cbn [fst snd walk]. rewrite B5, Z.eqb_refl. split; [reflexivity|]. split; [exact Q1|]. split. apply rotation_refl. apply follows_around; auto.
    + intros f H. rewrite B5, A5 in H. destruct (Z.eqb_spec f (a_next a)). exists x. apply in_or_app. right. left. congruence. destruct (F9 f H) as (y & Hi). exists y. apply in_or_app; auto.
Qed.
Lemma face_loop : forall (g : gen -> Z * Z * Z -> result gen) (ix : Z * Z * Z -> axis * point) l fs s a, faces_g fs s a ->
  (forall fs s a x, faces_g fs s a -> In x l -> exists s' a' e, g s x = Ok s' /\ faces_g (fs ++ [(ix x, e)]) s' a') ->
  exists s' a' fs', foldM g s l = Ok s' /\ faces_g fs' s' a' /\ map fst fs' = map fst fs ++ map ix l.
Proof using.
  intros g ix l fs s a G H. destruct (foldM_list gen _ (fun pre s => exists a fs', faces_g fs' s a /\ map fst fs' = map fst fs ++ map ix pre) g l s) as (s' & E & a' & fs' & G' & M').
  - exists a, fs. split; auto. cbn. rewrite app_nil_r. auto.
  - intros pre x suf s2 EL (a2 & fs1 & G2 & M2). destruct (H fs1 s2 a2 x G2) as (s3 & a3 & e & E2 & G3). rewrite EL. apply in_or_app; right; left; auto. exists s3. split; auto. exists a3, (fs1 ++ [(ix x, e)]). split; auto. rewrite !map_app, M2, <- app_assoc. auto.
  - exists s', a', fs'. auto.
Qed.
Definition ix_fx (l : point) : axis * point := (AX, l).
Definition ix_fy (l : point) : axis * point := let '(j, i, k) := l in (AY, (i, j, k)).
Definition ix_fz (l : point) : axis * point := let '(k, i, j) := l in (AZ, (i, j, k)).
Lemma face_x_ok : forall fs s a x, faces_g fs s a -> In x (loop3 (zrange 0 (nx + 1)) (zrange 0 ny) (zrange 0 nz)) -> exists s' a' e, face_x n s x = Ok s' /\ faces_g (fs ++ [(ix_fx x, e)]) s' a'.
Proof using D0 P0 G1 M1 Hx Hy Hz.
  intros fs s a [[i j] k] G H. apply loop3_in in H. rewrite !zr_in in H. unfold face_x. eapply (face_step fs s a (AX, (i, j, k))); eauto; try (apply place_ok; lia); tm; try reflexivity; unfold is_f; cbn [fst snd step plane within]; lia.
Qed.
Lemma face_y_ok : forall fs s a x, faces_g fs s a -> In x (loop3 (zrange 0 (ny + 1)) (zrange 0 nx) (zrange 0 nz)) -> exists s' a' e, face_y n s x = Ok s' /\ faces_g (fs ++ [(ix_fy x, e)]) s' a'.
Proof using D0 P0 G1 M1 Hx Hy Hz.
  intros fs s a [[j i] k] G H. apply loop3_in in H. rewrite !zr_in in H. unfold face_y. eapply (face_step fs s a (AY, (i, j, k))); eauto; try (apply place_ok; lia); tm; try reflexivity; unfold is_f; cbn [fst snd step plane within]; lia.
Qed.
Lemma face_z_ok : forall fs s a x, faces_g fs s a -> In x (loop3 (zrange 0 (nz + 1)) (zrange 0 nx) (zrange 0 ny)) -> exists s' a' e, face_z n s x = Ok s' /\ faces_g (fs ++ [(ix_fz x, e)]) s' a'.
Proof using D0 P0 G1 M1 Hx Hy Hz.
  intros fs s a [[k i] j] G H. apply loop3_in in H. rewrite !zr_in in H. unfold face_z. eapply (face_step fs s a (AZ, (i, j, k))); eauto; try (apply place_ok; lia); tm; try reflexivity; unfold is_f; cbn [fst snd step plane within]; lia.
Qed.
Lemma faces_g0 : faces_g [] s1 a1.
Proof using G1.
  destruct G1. constructor; auto. lia. intros x e []. intros e H. exfalso. apply H. auto.
Qed.
Definition all_f : list (axis * point) := map ix_fx (loop3 (zrange 0 (nx + 1)) (zrange 0 ny) (zrange 0 nz)) ++ map ix_fy (loop3 (zrange 0 (ny + 1)) (zrange 0 nx) (zrange 0 nz)) ++ map ix_fz (loop3 (zrange 0 (nz + 1)) (zrange 0 nx) (zrange 0 ny)).
Lemma all_f_in : forall x, In x all_f <-> is_f n x.
Proof using.
  intros [d [[i j] k]]. unfold all_f, is_f. rewrite !in_app_iff, !in_map_iff. cbn [fst snd]. split.
  - intros [([[u v] w] & E & H)|[([[u v] w] & E & H)|([[u v] w] & E & H)]]; inversion E; subst; apply loop3_in in H; rewrite !zr_in in H; cbn [fst snd step plane within]; lia.
  - destruct d; cbn [fst snd step plane within]; intros H; [left; exists (i, j, k)|right; left; exists (j, i, k)|right; right; exists (k, i, j)]; (split; [reflexivity|]); apply loop3_in; rewrite !zr_in; lia.
Qed.
Lemma all_f_nd : NoDup all_f.
Proof using.
  unfold all_f. apply NoDup_app_intro'; [|apply NoDup_app_intro'|].
  - apply FinFun.Injective_map_NoDup. intros u v E. inversion E; auto. apply loop3_nd; apply zrange_nd.
  - apply FinFun.Injective_map_NoDup. intros [[u v] w] [[u' v'] w'] E. inversion E; auto. apply loop3_nd; apply zrange_nd.
  - apply FinFun.Injective_map_NoDup. intros [[u v] w] [[u' v'] w'] E. inversion E; auto. apply loop3_nd; apply zrange_nd.
  - intros x H1 H2. apply in_map_iff in H1, H2. destruct H1 as ([[a b] c] & <- & _), H2 as ([[a' b'] c'] & E & _). discriminate.
  - intros x H1 H2. apply in_app_or in H2. apply in_map_iff in H1. destruct H1 as ([[a b] c] & <- & _). destruct H2 as [H2|H2]; apply in_map_iff in H2; destruct H2 as ([[a' b'] c'] & E & _); discriminate.
Qed.
Lemma faces_ok : exists s2 a2 fs, (s <- foldM (face_x n) s1 (loop3 (zrange 0 (nx + 1)) (zrange 0 ny) (zrange 0 nz)) ;; s <- foldM (face_y n) s (loop3 (zrange 0 (ny + 1)) (zrange 0 nx) (zrange 0 nz)) ;; foldM (face_z n) s (loop3 (zrange 0 (nz + 1)) (zrange 0 nx) (zrange 0 ny))) = Ok s2 /\ faces_g fs s2 a2 /\ map fst fs = all_f.
Proof using D0 P0 G1 M1 Hx Hy Hz.
  destruct (face_loop (face_x n) ix_fx _ [] s1 a1 faces_g0 face_x_ok) as (s2 & a2 & e1 & E1 & G2 & M2). destruct (face_loop (face_y n) ix_fy _ e1 s2 a2 G2 face_y_ok) as (s3 & a3 & e2 & E2 & G3 & M3). destruct (face_loop (face_z n) ix_fz _ e2 s3 a3 G3 face_z_ok) as (s4 & a4 & e3 & E3 & G4 & M4).
  exists s4, a4, e3. rewrite E1. cbn [bind]. rewrite E2. cbn [bind]. split; auto. split; auto. rewrite M4, M3, M2. cbn [map app]. rewrite <- app_assoc. auto.
Qed.
End Gen3.
