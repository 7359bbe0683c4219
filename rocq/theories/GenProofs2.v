(** Structured meshes: the loops, the table of vertices, edges and faces in 3D. *)
From Coq Require Import ZArith List Lia Bool Arith ZifyBool ZifyNat Permutation.
From Verif Require Import Base BaseProofs ListSpec HashProofs HashProofs2 AttModel AttProps ParModel ParProps TopoModel TopoSpec TopoProofs TopoProofs2 TopoProofs3 TopoProofs4 TopoProofs5 TopoProofs6 TopoProofs7 TopoProps TopoProps2 TopoProps3 ModProofs ModProofs2 CellModel CellSpec CellProofs CellProofs2 CellProofs3 CellProofs4 CellProofs5 CellProofs6 BuildModel BuildProofs BuildProofs2 BuildProofs3 BuildProofs4 BuildProofs5 GenModel GenSpec GenProofs.
Import ListNotations.
Open Scope Z_scope.

(** ** Loops *)
Lemma zr_in : forall a b x, In x (zrange a b) <-> a <= x < b.
Proof. intros. split. apply zrange_in. apply in_zrange. Qed.
Lemma loop2_in : forall l1 l2 x y, In (x, y) (loop2 l1 l2) <-> In x l1 /\ In y l2.
Proof.
  intros. unfold loop2. rewrite in_flat_map. split.
  - intros (u & Hu & H). apply in_map_iff in H. destruct H as (w & E & Hw). inversion E; subst; auto.
  - intros (H1 & H2). exists x. split; auto. apply in_map_iff. exists y. auto.
Qed.
Lemma loop3_in : forall l1 l2 l3 x y z, In (x, y, z) (loop3 l1 l2 l3) <-> In x l1 /\ In y l2 /\ In z l3.
Proof.
  intros. unfold loop3. rewrite in_flat_map. split.
  - intros ([u v] & Hu & H). apply in_map_iff in H. destruct H as (w & E & Hw). cbn [fst snd] in E. inversion E; subst. apply loop2_in in Hu. tauto.
  - intros (H1 & H2 & H3). exists (x, y). split. apply loop2_in; auto. apply in_map_iff. exists z. auto.
Qed.
Lemma NoDup_fm : forall A B (g : A -> list B) l, NoDup l -> (forall x, In x l -> NoDup (g x)) -> (forall x y z, In x l -> In y l -> In z (g x) -> In z (g y) -> x = y) -> NoDup (flat_map g l).
Proof.
  induction l as [|x l IH]; intros N H1 H2; cbn [flat_map]; [constructor|]. apply NoDup_cons_iff in N. destruct N as (N1 & N2). apply NoDup_app_intro'; auto.
  - apply H1. left; auto.
  - apply IH; auto. intros y Hy. apply H1. right; auto. intros u v z Hu Hv. apply H2; right; auto.
  - intros z Hz Hi. apply in_flat_map in Hi. destruct Hi as (y & Hy & Hi). apply N1. rewrite (H2 x y z); auto. left; auto. right; auto.
Qed.
Lemma loop2_nd : forall l1 l2, NoDup l1 -> NoDup l2 -> NoDup (loop2 l1 l2).
Proof.
  intros. apply NoDup_fm; auto. intros x _. apply FinFun.Injective_map_NoDup; auto. intros u v E. congruence. intros x y z _ _ Hx Hy. apply in_map_iff in Hx, Hy. destruct Hx as (? & <- & _), Hy as (? & E & _). congruence.
Qed.
Lemma loop3_nd : forall l1 l2 l3, NoDup l1 -> NoDup l2 -> NoDup l3 -> NoDup (loop3 l1 l2 l3).
Proof.
  intros. apply NoDup_fm. apply loop2_nd; auto. intros x _. apply FinFun.Injective_map_NoDup; auto. intros u v E. congruence. intros [x x'] [y y'] z _ _ Hx Hy. apply in_map_iff in Hx, Hy. destruct Hx as (? & <- & _), Hy as (? & E & _). cbn in E. congruence.
Qed.
Lemma fm_length : forall A B (g : A -> list B) l k, (forall x, length (g x) = k) -> length (flat_map g l) = (length l * k)%nat.
Proof. intros A B g l k H. induction l; cbn [flat_map length]; auto. rewrite app_length, H, IHl. lia. Qed.
Lemma loop2_length : forall l1 l2, length (loop2 l1 l2) = (length l1 * length l2)%nat.
Proof. intros. apply fm_length. intros. apply map_length. Qed.
Lemma loop3_length : forall l1 l2 l3, length (loop3 l1 l2 l3) = (length l1 * length l2 * length l3)%nat.
Proof. intros. unfold loop3. rewrite (fm_length _ _ _ _ (length l3)), loop2_length; auto. intros. apply map_length. Qed.
Lemma nd_mid : forall A (l pre suf : list A) x, NoDup l -> l = pre ++ x :: suf -> ~ In x pre.
Proof. intros A l pre suf x N -> H. apply NoDup_remove_2 in N. apply N. apply in_or_app; auto. Qed.

(** ** New entities *)
Lemma new_v_ok : forall t a, reach t a -> exists a', reach (fst (MV_New t)) a' /\ snd (MV_New t) = a_next a /\ a_e a' = a_e a /\ a_f a' = a_f a /\ a_r a' = a_r a /\ a_next a' = a_next a + 1 /\ forall v, a_v a' v = if v =? a_next a then Some true else a_v a v.
Proof.
  intros t a R. destruct (reach_step t a TNewV R I) as (t1 & E1 & R1). cbn [tstep] in E1. assert (E : fst (MV_New t) = t1) by congruence. exists (astep a TNewV). rewrite E. split; auto. split. cbn. apply (i_n _ _ (reach_inv _ _ R)). cbn [astep]. ra. auto 6.
Qed.
Lemma new_f_ok : forall t a, reach t a -> exists a', reach (fst (MF_New t)) a' /\ snd (MF_New t) = a_next a /\ a_v a' = a_v a /\ a_e a' = a_e a /\ a_r a' = a_r a /\ a_next a' = a_next a + 1 /\ forall v, a_f a' v = if v =? a_next a then Some (true, None) else a_f a v.
Proof.
  intros t a R. destruct (reach_step t a TNewF R I) as (t1 & E1 & R1). cbn [tstep] in E1. assert (E : fst (MF_New t) = t1) by congruence. exists (astep a TNewF). rewrite E. split; auto. split. cbn. apply (i_n _ _ (reach_inv _ _ R)). cbn [astep]. ra. auto 6.
Qed.
Lemma new_r_ok : forall t a, reach t a -> exists a', reach (fst (MR_New t)) a' /\ snd (MR_New t) = a_next a /\ a_v a' = a_v a /\ a_e a' = a_e a /\ a_f a' = a_f a /\ a_next a' = a_next a + 1 /\ forall v, a_r a' v = if v =? a_next a then Some (true, None) else a_r a v.
Proof.
  intros t a R. destruct (reach_step t a TNewR R I) as (t1 & E1 & R1). cbn [tstep] in E1. assert (E : fst (MR_New t) = t1) by congruence. exists (astep a TNewR). rewrite E. split; auto. split. cbn. apply (i_n _ _ (reach_inv _ _ R)). cbn [astep]. ra. auto 6.
Qed.
Lemma cls_upd : forall (c : ptr -> Z * Z) e g d i x, zupd (zupd (zupd c e g) e (d, snd (zupd c e g e))) e (fst (zupd (zupd c e g) e (d, snd (zupd c e g e)) e), i) x = if x =? e then (d, i) else c x.
Proof. intros. unfold zupd at 1. destruct (Z.eqb_spec x e). rewrite zupd_same. auto. rewrite !zupd_other; auto. Qed.

(** ** The table *)
Lemma in_tab_ok : forall n p, in_tab n p = true <-> within n p.
Proof. intros [[nx ny] nz] [[i j] k]. unfold in_tab, within. rewrite !andb_true_iff. lia. Qed.
Lemma pt_eqb : forall (q p : point), (fst (fst q) =? fst (fst p)) && (snd (fst q) =? snd (fst p)) && (snd q =? snd p) = true <-> q = p.
Proof. intros [[a b] c] [[x y] z]. cbn [fst snd]. rewrite !andb_true_iff, !Z.eqb_eq. split. intros ((-> & ->) & ->); auto. intros E. inversion E; auto. Qed.
Definition VV (tab : point -> option ptr) (p : point) : ptr := match tab p with Some v => v | None => NULL end.
Lemma vget_ok : forall n s p, within n p -> gn_tab s p <> None -> vget n s p = Ok (VV (gn_tab s) p).
Proof. intros n s p H1 H2. unfold vget, VV. apply in_tab_ok in H1. rewrite H1. destruct (gn_tab s p); congruence. Qed.
Record verts_done (n : point) (cls : point -> Z * Z) (pts : list point) (s : gen) (a : amesh) : Prop := mkVD {
  vd_reach : reach (gn_t s) a; vd_tab : forall p, gn_tab s p <> None <-> In p pts;
  vd_live : forall p v, gn_tab s p = Some v -> a_v a v = Some true /\ gn_c s v = cls p;
  vd_inj : forall p q v, gn_tab s p = Some v -> gn_tab s q = Some v -> p = q;
  vd_all : forall v, a_v a v <> None -> exists p, gn_tab s p = Some v;
  vd_e : forall x, a_e a x = None; vd_f : forall x, a_f a x = None; vd_r : forall x, a_r a x = None }.
Lemma old_v : forall t a v, reach t a -> a_v a v <> None -> v < a_next a.
Proof. intros t a v R H. apply (w_v _ (i_w _ _ (reach_inv _ _ R))) in H. lia. Qed.
Lemma vert_step : forall n cls pre s a p, verts_done n cls pre s a -> ~ In p pre -> within n p -> exists s' a', vset n (set_gid (set_gdim (made s (MV_New (gn_t s)) 4) (snd (MV_New (gn_t s))) (fst (cls p))) (snd (MV_New (gn_t s))) (snd (cls p))) p (snd (MV_New (gn_t s))) = Ok s' /\ verts_done n cls (pre ++ [p]) s' a'.
Proof.
  intros n cls pre s a p [D1 D2 D3 D4 D5 D6 D7 D8] NI HW. destruct (new_v_ok _ _ D1) as (a' & R' & En & A1 & A2 & A3 & A4 & A5). unfold vset. apply in_tab_ok in HW. rewrite HW. eexists. exists a'. split; [reflexivity|]. rewrite En. set (v := a_next a) in *.
  assert (OLD : forall q w, gn_tab s q = Some w -> w <> v). { intros q w H ->. apply D3 in H. destruct H as (H & _). assert (X : a_v a v <> None) by congruence. apply (old_v _ _ _ D1) in X. unfold v in X. lia. }
  constructor; cbn [gn_t gn_tab gn_c set_gid set_gdim made]; auto.
  - intros q. rewrite in_app_iff. cbn [In]. destruct (_ && _) eqn:E. apply pt_eqb in E. split; intros; [right; left; auto|congruence]. rewrite D2. split; auto. intros [H|[<-|[]]]; auto. exfalso. assert (X : (fst (fst p) =? fst (fst p)) && (snd (fst p) =? snd (fst p)) && (snd p =? snd p) = true) by (apply pt_eqb; auto). congruence.
  - intros q w. rewrite En. fold v. rewrite cls_upd, A5. destruct (_ && _) eqn:E; intros H. apply pt_eqb in E. inversion H; subst w. rewrite !Z.eqb_refl. split; auto. subst q. destruct (cls p); auto. pose proof (OLD q w H) as N. replace (w =? v) with false by lia. auto.
  - intros q q' w. destruct (_ && _) eqn:E; intros H; destruct ((fst (fst q') =? fst (fst p)) && (snd (fst q') =? snd (fst p)) && (snd q' =? snd p)) eqn:E'; intros H'. apply pt_eqb in E, E'. congruence. exfalso. inversion H; subst. eapply OLD; eauto. exfalso. inversion H'; subst. eapply OLD; eauto. eauto.
  - intros w H. rewrite A5 in H. destruct (Z.eqb_spec w v). exists p. assert (X : (fst (fst p) =? fst (fst p)) && (snd (fst p) =? snd (fst p)) && (snd p =? snd p) = true) by (apply pt_eqb; auto). rewrite X. congruence. destruct (D5 w H) as (q & Hq). exists q. destruct (_ && _) eqn:E; auto. apply pt_eqb in E. subst q. exfalso. apply NI, D2. congruence.
  - intros x. rewrite A1. auto.
  - intros x. rewrite A2. auto.
  - intros x. rewrite A3. auto.
Qed.

(** ** Places and templates *)
Lemma side_cases : forall n i, side n i = 0 \/ side n i = 1 \/ side n i = 2.
Proof. intros. unfold side. destruct (i =? 0), (i =? n); auto. Qed.
Lemma place_ok : forall n i, 1 <= n -> 0 <= i <= n -> place n i = Ok (side n i).
Proof.
  intros n i Hn Hi. unfold place, side. replace (n =? 0) with false by lia. f_equal. destruct (Z.eqb_spec i 0) as [->|N0]. rewrite Z.rem_0_l by lia. auto. destruct (Z.eqb_spec i n) as [->|N1]. rewrite Z.rem_same by lia. auto. rewrite Z.rem_small by lia. replace (i =? 0) with false by lia. auto.
Qed.
Definition T1 (l : list Z) (x : Z) : Z := nth (Z.to_nat x) l 0.
Definition T2 (l : list (list Z)) (x y : Z) : Z := T1 (nth (Z.to_nat x) l []) y.
Definition T3 (l : list (list (list Z))) (x y z : Z) : Z := T2 (nth (Z.to_nat x) l []) y z.
Definition three (x : Z) := x = 0 \/ x = 1 \/ x = 2.
Lemma at1_ok : forall l x, length l = 3%nat -> three x -> at_ l x = Ok (T1 l x).
Proof. intros [|a [|b [|c [|]]]] x L H; try discriminate. destruct H as [-> | [-> | ->]]; reflexivity. Qed.
Lemma tmpl2_ok : forall l x y, length l = 3%nat -> Forall (fun r => length r = 3%nat) l -> three x -> three y -> tmpl2 l x y = Ok (T2 l x y).
Proof.
  intros [|a [|b [|c [|]]]] x y L F Hx Hy; try discriminate. inversion F as [|? ? F1 F']; subst. inversion F' as [|? ? F2 G4]; subst. inversion G4 as [|? ? F3 _]; subst. unfold tmpl2, T2. destruct Hx as [-> | [-> | ->]]; cbn; apply at1_ok; auto.
Qed.
Lemma tmpl3_ok : forall l x y z, length l = 3%nat -> Forall (fun q => length q = 3%nat /\ Forall (fun r => length r = 3%nat) q) l -> three x -> three y -> three z -> (q <- at_ l x ;; tmpl2 q y z) = Ok (T3 l x y z).
Proof.
  intros [|a [|b [|c [|]]]] x y z L F Hx Hy Hz; try discriminate. inversion F as [|? ? F1 F']; subst. inversion F' as [|? ? F2 G4]; subst. inversion G4 as [|? ? F3 _]; subst. unfold T3. destruct Hx as [-> | [-> | ->]]; cbn; apply tmpl2_ok; tauto.
Qed.

Ltac tm := match goal with |- three _ => first [apply side_cases|assumption] | |- length _ = _ => reflexivity | |- Forall _ _ => repeat constructor | _ => idtac end.

Section Gen3.
Variables (nx ny nz : Z).
Hypothesis (Hx : 1 <= nx) (Hy : 1 <= ny) (Hz : 1 <= nz).
Notation n := (nx, ny, nz).

(** ** Vertices *)
Definition cls_v (p : point) : Z * Z := let '(i, j, k) := p in (T3 vgdim_tmpl (side nx i) (side ny j) (side nz k), T3 vgid_tmpl (side nx i) (side ny j) (side nz k)).
Definition swap (l : point) : point := let '(k, j, i) := l in (i, j, k).
Lemma verts_ok : forall s, verts_done n cls_v [] s amesh0 -> exists s' a' pts, foldM (vertex3 n) s (loop3 (zrange 0 (nz + 1)) (zrange 0 (ny + 1)) (zrange 0 (nx + 1))) = Ok s' /\ verts_done n cls_v pts s' a' /\ (forall p, In p pts <-> within n p).
Proof using Hx Hy Hz.
  intros s H0. set (l := loop3 _ _ _). assert (ND : NoDup l) by (apply loop3_nd; apply zrange_nd).
  assert (IN : forall i j k, In (k, j, i) l <-> within n (i, j, k)). { intros i j k. unfold l. rewrite loop3_in, !zr_in. unfold within. lia. }
  destruct (foldM_list gen (Z * Z * Z) (fun pre s => exists a, verts_done n cls_v (map swap pre) s a) (vertex3 n) l s) as (s' & E & a' & D).
  - exists amesh0. auto.
  - intros pre [[k j] i] suf s1 EL (a & D). assert (HW : within n (i, j, k)) by (apply IN; rewrite EL; apply in_or_app; right; left; auto). pose proof (nd_mid _ _ _ _ _ ND EL) as NI. assert (NI' : ~ In (i, j, k) (map swap pre)). { intros X. apply in_map_iff in X. destruct X as ([[k' j'] i'] & E & X). cbn in E. inversion E; subst. auto. }
    destruct (vert_step n cls_v _ s1 a _ D NI' HW) as (s2 & a2 & E2 & D2). exists s2. rewrite map_app. cbn [map swap]. split; [|exists a2; auto]. pose proof HW as HW'. unfold within in HW'. unfold vertex3. rewrite !place_ok by lia. cbn [bind].
    unfold vset in *. apply in_tab_ok in HW. rewrite HW in *. cbn [bind]. rewrite !tmpl3_ok by tm. exact E2.
  - exists s', a', (map swap l). split; auto. split; auto. intros [[i j] k]. rewrite <- IN. rewrite in_map_iff. split. intros ([[a b] c] & E' & H). cbn in E'. inversion E'; subst; auto. intros H. exists (k, j, i). auto.
Qed.

(** ** Edges *)
Variables (s0 : gen) (a0 : amesh) (pts : list point).
Hypothesis D0 : verts_done n cls_v pts s0 a0.
Hypothesis P0 : forall p, In p pts <-> within n p.
Notation V := (VV (gn_tab s0)).
Lemma V_some : forall p, within n p -> gn_tab s0 p = Some (V p).
Proof using D0 P0. intros p H. apply P0, (vd_tab _ _ _ _ _ D0) in H. unfold VV. destruct (gn_tab s0 p); congruence. Qed.
Lemma V_live : forall p, within n p -> live_v a0 (V p).
Proof using D0 P0. intros p H. apply V_some in H. apply (vd_live _ _ _ _ _ D0) in H. apply H. Qed.
Lemma V_inj : forall p q, within n p -> within n q -> V p = V q -> p = q.
Proof using D0 P0. intros p q H1 H2 E. apply V_some in H1, H2. rewrite E in H1. eapply (vd_inj _ _ _ _ _ D0); eauto. Qed.

Definition cls_e (x : axis * point) : Z * Z := let '(d, (i, j, k)) := x in
  match d with
  | AZ => (T2 egdim_tmpl (side nx i) (side ny j), T2 egid_tmpl2 (side nx i) (side ny j))
  | AY => (T2 egdim_tmpl (side nx i) (side nz k), T2 egid_tmpl1 (side nx i) (side nz k))
  | AX => (T2 egdim_tmpl (side ny j) (side nz k), T2 egid_tmpl0 (side ny j) (side nz k))
  end.
Record edges_g (es : list ((axis * point) * ptr)) (s : gen) (a : amesh) : Prop := mkEG {
  eg_reach : reach (gn_t s) a; eg_tab : gn_tab s = gn_tab s0; eg_v : a_v a = a_v a0; eg_f : forall x, a_f a x = None; eg_r : forall x, a_r a x = None; eg_n : a_next a0 <= a_next a;
  eg_c : forall x, x < a_next a0 -> gn_c s x = gn_c s0 x;
  eg_in : forall x e, In (x, e) es -> a_e a e = Some (true, (V (snd x), V (step (fst x) (snd x)))) /\ gn_c s e = cls_e x;
  eg_all : forall e, a_e a e <> None -> exists x, In (x, e) es }.
Lemma edge_step : forall es s a x gx gy gids u w, edges_g es s a -> is_e n x -> gx = Ok u -> gy = Ok w -> three u -> three w -> length gids = 3%nat -> Forall (fun r => length r = 3%nat) gids -> cls_e x = (T2 egdim_tmpl u w, T2 gids u w) ->
  exists s' a' e, edge3 n s (snd x) (step (fst x) (snd x)) gx gy gids = Ok s' /\ edges_g (es ++ [(x, e)]) s' a'.
Proof using D0 P0.
  intros es s a x gx gy gids u w [G1 G2 G3 G4 G5 G6 G7 G8 G9] (W1 & W2) -> -> Hu Hw L F C. unfold edge3. rewrite !vget_ok by (cbn [made gn_tab]; auto; rewrite G2, V_some; auto; congruence). cbn [bind made gn_tab gn_t]. rewrite G2.
  assert (LV : forall p, within n p -> live_v a (V p)) by (intros p H; unfold live_v; rewrite G3; apply V_live; auto).
  destruct (new_edge_ok _ a (V (snd x)) (V (step (fst x) (snd x))) G1) as (t1 & t2 & a' & E1 & E2 & En & R' & A1 & A2 & A3 & A4 & A5); auto. rewrite E1. cbn [bind]. rewrite E2. cbn [bind]. rewrite (tmpl2_ok gids), (tmpl2_ok egdim_tmpl) by (auto; tm). cbn [bind].
  eexists. exists a', (a_next a). split; [reflexivity|]. constructor; cbn [set_gid set_gdim set_t made gn_t gn_tab gn_c]; rewrite ?En; auto.
  - congruence.
  - intros y. rewrite A2. auto.
  - intros y. rewrite A3. auto.
  - lia.
  - intros y H. rewrite cls_upd. replace (y =? a_next a) with false by lia. auto.
  - intros y e H. rewrite cls_upd, A5. apply in_app_or in H. destruct H as [H|[H|[]]].
    + destruct (G8 y e H) as (K1 & K2). assert (X : a_e a e <> None) by congruence. apply (old_e _ _ G1) in X. replace (e =? a_next a) with false by lia. auto.
    + inversion H; subst. rewrite Z.eqb_refl. auto.
  - intros e H. rewrite A5 in H. destruct (Z.eqb_spec e (a_next a)). exists x. apply in_or_app. right. left. congruence. destruct (G9 e H) as (y & Hi). exists y. apply in_or_app; auto.
Qed.
Lemma edge_loop : forall (g : gen -> Z * Z * Z -> result gen) (ix : Z * Z * Z -> axis * point) l es s a, edges_g es s a ->
  (forall es s a x, edges_g es s a -> In x l -> exists s' a' e, g s x = Ok s' /\ edges_g (es ++ [(ix x, e)]) s' a') ->
  exists s' a' es', foldM g s l = Ok s' /\ edges_g es' s' a' /\ map fst es' = map fst es ++ map ix l.
Proof.
  intros g ix l es s a G H. destruct (foldM_list gen _ (fun pre s => exists a es', edges_g es' s a /\ map fst es' = map fst es ++ map ix pre) g l s) as (s' & E & a' & es' & G' & M').
  - exists a, es. split; auto. cbn. rewrite app_nil_r. auto.
  - intros pre x suf s1 EL (a1 & es1 & G1 & M1). destruct (H es1 s1 a1 x G1) as (s2 & a2 & e & E2 & G2). rewrite EL. apply in_or_app; right; left; auto. exists s2. split; auto. exists a2, (es1 ++ [(ix x, e)]). split; auto. rewrite !map_app, M1, <- app_assoc. auto.
  - exists s', a', es'. auto.
Qed.
Definition ix_ez (l : point) : axis * point := (AZ, l).
Definition ix_ey (l : point) : axis * point := let '(i, k, j) := l in (AY, (i, j, k)).
Definition ix_ex (l : point) : axis * point := let '(j, k, i) := l in (AX, (i, j, k)).
Lemma edge_z_ok : forall es s a x, edges_g es s a -> In x (loop3 (zrange 0 (nx + 1)) (zrange 0 (ny + 1)) (zrange 0 nz)) -> exists s' a' e, edge_z n s x = Ok s' /\ edges_g (es ++ [(ix_ez x, e)]) s' a'.
Proof using D0 P0 Hx Hy Hz.
  intros es s a [[i j] k] G H. apply loop3_in in H. rewrite !zr_in in H. unfold edge_z. eapply (edge_step es s a (AZ, (i, j, k))); eauto; try (apply place_ok; lia); tm; try reflexivity; unfold is_e; cbn [fst snd step within]; lia.
Qed.
Lemma edge_y_ok : forall es s a x, edges_g es s a -> In x (loop3 (zrange 0 (nx + 1)) (zrange 0 (nz + 1)) (zrange 0 ny)) -> exists s' a' e, edge_y n s x = Ok s' /\ edges_g (es ++ [(ix_ey x, e)]) s' a'.
Proof using D0 P0 Hx Hy Hz.
  intros es s a [[i k] j] G H. apply loop3_in in H. rewrite !zr_in in H. unfold edge_y. eapply (edge_step es s a (AY, (i, j, k))); eauto; try (apply place_ok; lia); tm; try reflexivity; unfold is_e; cbn [fst snd step within]; lia.
Qed.
Lemma edge_x_ok : forall es s a x, edges_g es s a -> In x (loop3 (zrange 0 (ny + 1)) (zrange 0 (nz + 1)) (zrange 0 nx)) -> exists s' a' e, edge_x n s x = Ok s' /\ edges_g (es ++ [(ix_ex x, e)]) s' a'.
Proof using D0 P0 Hx Hy Hz.
  intros es s a [[j k] i] G H. apply loop3_in in H. rewrite !zr_in in H. unfold edge_x. eapply (edge_step es s a (AX, (i, j, k))); eauto; try (apply place_ok; lia); tm; try reflexivity; unfold is_e; cbn [fst snd step within]; lia.
Qed.
Lemma edges_g0 : edges_g [] s0 a0.
Proof using D0.
  destruct D0. constructor; auto. lia. intros x e []. intros e H. exfalso. apply H. auto.
Qed.
Definition all_e : list (axis * point) := map ix_ez (loop3 (zrange 0 (nx + 1)) (zrange 0 (ny + 1)) (zrange 0 nz)) ++ map ix_ey (loop3 (zrange 0 (nx + 1)) (zrange 0 (nz + 1)) (zrange 0 ny)) ++ map ix_ex (loop3 (zrange 0 (ny + 1)) (zrange 0 (nz + 1)) (zrange 0 nx)).
Lemma all_e_in : forall x, In x all_e <-> is_e n x.
Proof using.
  intros [d [[i j] k]]. unfold all_e, is_e. rewrite !in_app_iff, !in_map_iff. cbn [fst snd]. split.
  - intros [([[u v] w] & E & H)|[([[u v] w] & E & H)|([[u v] w] & E & H)]]; inversion E; subst; apply loop3_in in H; rewrite !zr_in in H; cbn [fst snd step within]; lia.
  - destruct d; cbn [fst snd step within]; intros H; [right; right; exists (j, k, i)|right; left; exists (i, k, j)|left; exists (i, j, k)]; (split; [reflexivity|]); apply loop3_in; rewrite !zr_in; lia.
Qed.
Lemma all_e_nd : NoDup all_e.
Proof using.
  unfold all_e. apply NoDup_app_intro'; [|apply NoDup_app_intro'|].
  - apply FinFun.Injective_map_NoDup. intros u v E. inversion E; auto. apply loop3_nd; apply zrange_nd.
  - apply FinFun.Injective_map_NoDup. intros [[u v] w] [[u' v'] w'] E. inversion E; auto. apply loop3_nd; apply zrange_nd.
  - apply FinFun.Injective_map_NoDup. intros [[u v] w] [[u' v'] w'] E. inversion E; auto. apply loop3_nd; apply zrange_nd.
  - intros x H1 H2. apply in_map_iff in H1, H2. destruct H1 as ([[a b] c] & <- & _), H2 as ([[a' b'] c'] & E & _). discriminate.
  - intros x H1 H2. apply in_app_or in H2. apply in_map_iff in H1. destruct H1 as ([[a b] c] & <- & _). destruct H2 as [H2|H2]; apply in_map_iff in H2; destruct H2 as ([[a' b'] c'] & E & _); discriminate.
Qed.
Lemma edges_ok : exists s1 a1 es, (s <- foldM (edge_z n) s0 (loop3 (zrange 0 (nx + 1)) (zrange 0 (ny + 1)) (zrange 0 nz)) ;; s <- foldM (edge_y n) s (loop3 (zrange 0 (nx + 1)) (zrange 0 (nz + 1)) (zrange 0 ny)) ;; foldM (edge_x n) s (loop3 (zrange 0 (ny + 1)) (zrange 0 (nz + 1)) (zrange 0 nx))) = Ok s1 /\ edges_g es s1 a1 /\ map fst es = all_e.
Proof using D0 P0 Hx Hy Hz.
  destruct (edge_loop (edge_z n) ix_ez _ [] s0 a0 edges_g0 edge_z_ok) as (s1 & a1 & e1 & E1 & G1 & M1). destruct (edge_loop (edge_y n) ix_ey _ e1 s1 a1 G1 edge_y_ok) as (s2 & a2 & e2 & E2 & G2 & M2). destruct (edge_loop (edge_x n) ix_ex _ e2 s2 a2 G2 edge_x_ok) as (s3 & a3 & e3 & E3 & G3 & M3).
  exists s3, a3, e3. rewrite E1. cbn [bind]. rewrite E2. cbn [bind]. split; auto. split; auto. rewrite M3, M2, M1. cbn [map app]. rewrite <- app_assoc. auto.
Qed.
End Gen3.
