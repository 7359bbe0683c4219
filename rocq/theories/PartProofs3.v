(** Flagging the boundary of a part. *)
From Coq Require Import ZArith Bool Floats.SpecFloat List Lia Arith ZifyBool ZifyNat.
From Verif Require Import Base BaseProofs ListSpec AttModel AttProps TopoModel TopoSpec TopoProofs TopoProofs2 TopoProofs3 TopoProofs5 TopoProps TopoProps2 CellProofs2 ParModel BuildProofs2 FileModel FileSpec FileProofs3 FileProofs4 SendModel SendSpec SendProofs2 PartModel PartSpec PartProofs PartProofs2.
Import ListNotations.
Open Scope Z_scope.

Lemma each : forall A St (Q : list A -> St -> Prop) (step : St -> A -> result St) full,
  (forall dn w rest st, full = dn ++ w :: rest -> Q dn st -> exists st', step st w = Ok st' /\ Q (dn ++ [w]) st') -> forall st, Q [] st -> exists st', foldM step st full = Ok st' /\ Q full st'.
Proof.
  intros A St Q step full H. assert (G : forall rest dn st, full = dn ++ rest -> Q dn st -> exists st', foldM step st rest = Ok st' /\ Q full st').
  { induction rest as [|w rest IH]; intros dn st E Hq; cbn [foldM]. { rewrite app_nil_r in E. subst. eauto. } destruct (H dn w rest st E Hq) as (st1 & E1 & H1). rewrite E1. cbn [bind]. apply (IH (dn ++ [w])); auto. rewrite <- app_assoc. auto. }
  intros st H0. apply (G full []); auto.
Qed.
Lemma count_same : forall (f : ptr -> ptr) l L, NoDup l -> NoDup L -> (forall x y, In x l -> In y l -> f x = f y -> x = y) -> (forall x, In x l -> In (f x) L) ->
  (ZL l = ZL L <-> forall y, In y L -> exists x, In x l /\ f x = y).
Proof.
  intros f l L Nl NL Inj Inc. assert (NM : NoDup (map f l)). { clear - Nl Inj. induction Nl as [|x l Hx Nl IH]; cbn; constructor. - intro H. apply in_map_iff in H. destruct H as (y & E & Hy). assert (x = y) by (apply Inj; cbn; auto). subst. auto. - apply IH. intros. apply Inj; cbn; auto. }
  assert (IM : incl (map f l) L) by (intros y H; apply in_map_iff in H; destruct H as (x & <- & Hx); auto). unfold ZL. split.
  - intros E y Hy. assert (I2 : incl L (map f l)) by (apply NoDup_length_incl; auto; rewrite map_length; lia). specialize (I2 y Hy). apply in_map_iff in I2. destruct I2 as (x & E2 & Hx). eauto.
  - intro H. assert (incl L (map f l)) by (intros y Hy; destruct (H y Hy) as (x & Hx & <-); apply in_map; auto). pose proof (NoDup_incl_length NM IM). pose proof (NoDup_incl_length NL H0). rewrite map_length in *. lia.
Qed.

Section Flags.
Variables (s : smesh) (a : amesh) (part : list Z) (k : Z) (s' sub : smesh) (a' : amesh) (g : ptr -> ptr).
Hypothesis P : partable s a.
Hypothesis I : is_part s a part k s' sub a' g.
Hypothesis Em : sm_m s' = sm_m s.
Notation K := (skind s).
Notation K' := (skind sub).
Notation inp := (inpart s a part k).

Lemma KA : forall d d' p, In p (K d) -> In p (K d') -> d = d'.
Proof using P. apply (kinds_apart s a); apply P. Qed.
Lemma KA' : forall d d' p, In p (K' d) -> In p (K' d') -> d = d'.
Proof using I. apply (kinds_apart sub a'); apply I. Qed.
Lemma g_in : forall d q, In q (K' d) -> In (g q) (K d) /\ inp (g q).
Proof using I. intros d q H. apply (po_onto _ _ _ _ _ _ _ _ I). eauto. Qed.
Lemma g_of : forall d y, In y (K d) -> inp y -> exists q, In q (K' d) /\ g q = y.
Proof using I. intros d y H Hi. apply (po_onto _ _ _ _ _ _ _ _ I). auto. Qed.
Lemma dec_inp : forall d y, In y (K d) -> inp y \/ ~ inp y.
Proof using I.
  intros d y H. assert (D : (exists q, In q (K' d) /\ g q = y) \/ ~ exists q, In q (K' d) /\ g q = y).
  { generalize (K' d). intro l. induction l as [|q l IH]; [right; intros (q & [] & _)|]. destruct (Z.eq_dec (g q) y) as [E|N]; [left; exists q; cbn; auto|]. destruct IH as [(q' & Hq & E)|IH]; [left; exists q'; cbn; auto|right]. intros (q' & [->|Hq] & E); [auto|]. apply IH. eauto. }
  destruct D as [(q & Hq & <-)|D]; [left; apply (g_in d); auto|right]. intro Hi. apply D. apply g_of; auto.
Qed.
Lemma sub_null : forall q, In q (K' 0) -> q <> NULL.
Proof using I.
  intros q H. apply (po_v _ _ _ _ _ _ _ _ I) in H. pose proof (i_w _ _ (reach_inv _ _ (po_reach _ _ _ _ _ _ _ _ I))) as W. assert (1 <= q < a_next a') by (apply (w_v _ W); unfold live_v in H; congruence). unfold NULL. lia.
Qed.

(** ** Incidence in the part and in the mesh *)
Lemma end_iff : forall e v, In e (K' 1) -> In v (K' 0) -> (is_end a' e v <-> is_end a (g e) (g v)).
Proof using I.
  intros e v He Hv. destruct (po_ends _ _ _ _ _ _ _ _ I _ He) as (u & w & E1 & E2 & U & W). split.
  - intros (x & y & E & H). rewrite E1 in E. inversion E; subst. exists (g x), (g y). split; auto. destruct H; subst; auto.
  - intros (x & y & E & H). rewrite E2 in E. inversion E; subst. exists u, w. split; auto. destruct H as [H|H]; [left|right]; eapply (po_inj _ _ _ _ _ _ _ _ I); eauto.
Qed.
Lemma edge_iff : forall f e, In f (K' 2) -> In e (K' 1) -> (has_edge a' f e <-> has_edge a (g f) (g e)).
Proof using I.
  intros f e Hf He. destruct (po_loop _ _ _ _ _ _ _ _ I _ Hf) as (b & E1 & E2 & B). split.
  - intros (x & E & H). rewrite E1 in E. inversion E; subst. exists (via g x). split; auto. unfold via. rewrite map_map. cbn [fst]. apply in_map_iff in H. destruct H as (y & <- & Hy). apply in_map_iff. eauto.
  - intros (x & E & H). rewrite E2 in E. inversion E; subst. exists b. split; auto. unfold via in H. rewrite map_map in H. cbn [fst] in H. apply in_map_iff in H. destruct H as (y & Ey & Hy). apply in_map_iff. exists y. split; auto. eapply (po_inj _ _ _ _ _ _ _ _ I); eauto.
Qed.
Lemma face_iff : forall r f d, In r (K' 3) -> In f (K' 2) -> (has_face a' r f d <-> has_face a (g r) (g f) d).
Proof using I.
  intros r f d Hr Hf. destruct (po_faces _ _ _ _ _ _ _ _ I _ Hr) as (b & E1 & E2 & B). split.
  - intros (x & E & H). rewrite E1 in E. inversion E; subst. exists (via g x). split; auto. apply (in_map (fun y => (g (fst y), snd y)) _ _ H).
  - intros (x & E & H). rewrite E2 in E. inversion E; subst. exists b. split; auto. unfold via in H. apply in_map_iff in H. destruct H as ([y d'] & Ey & Hy). cbn [fst snd] in Ey. inversion Ey; subst d'. assert (y = f) by (eapply (po_inj _ _ _ _ _ _ _ _ I); eauto; apply (B (y, d) Hy)). subst. auto.
Qed.
Lemma end_live : forall e v, is_end a' e v -> In e (K' 1) /\ In v (K' 0).
Proof using I.
  intros e v (x & y & E & H). assert (He : In e (K' 1)) by (apply (po_e _ _ _ _ _ _ _ _ I); eexists; eauto). split; auto. destruct (po_ends _ _ _ _ _ _ _ _ I _ He) as (u & w & E1 & E2 & U & W). rewrite E in E1. inversion E1; subst. destruct H; subst; auto.
Qed.
Lemma edge_live : forall f e, has_edge a' f e -> In f (K' 2) /\ In e (K' 1).
Proof using I.
  intros f e (b & E & H). assert (Hf : In f (K' 2)) by (apply (po_f _ _ _ _ _ _ _ _ I); eexists; eauto). split; auto. destruct (po_loop _ _ _ _ _ _ _ _ I _ Hf) as (b' & E1 & E2 & B). rewrite E in E1. inversion E1; subst. apply in_map_iff in H. destruct H as (y & <- & Hy). auto.
Qed.
Lemma face_live : forall r f d, has_face a' r f d -> In r (K' 3) /\ In f (K' 2).
Proof using I.
  intros r f d (b & E & H). assert (Hf : In r (K' 3)) by (apply (po_r _ _ _ _ _ _ _ _ I); eexists; eauto). split; auto. destruct (po_faces _ _ _ _ _ _ _ _ I _ Hf) as (b' & E1 & E2 & B). rewrite E in E1. inversion E1; subst. apply (B (f, d) H).
Qed.
Lemma end_kind : forall e v, is_end a e v -> In e (K 1) /\ In v (K 0).
Proof using P.
  intros e v (x & y & E & H). split; [apply (pa_e _ _ P); eexists; eauto|]. destruct (pa_ends _ _ P _ _ _ E) as [N0 N1]. destruct (w_ends _ (i_w _ _ (reach_inv _ _ (pa_reach _ _ P))) _ _ _ E) as [[|W0] [|W1]]; try tauto. apply (pa_v _ _ P). destruct H; subst; auto.
Qed.
Lemma edge_kind : forall f e, has_edge a f e -> In f (K 2) /\ In e (K 1).
Proof using P.
  intros f e (b & E & H). split; [apply (pa_f _ _ P); eexists; eauto|]. pose proof (w_fe _ (i_w _ _ (reach_inv _ _ (pa_reach _ _ P))) _ _ E) as F. rewrite Forall_forall in F. apply in_map_iff in H. destruct H as (y & <- & Hy). apply (pa_e _ _ P). auto.
Qed.
Lemma face_kind : forall r f d, has_face a r f d -> In r (K 3) /\ In f (K 2).
Proof using P.
  intros r f d (b & E & H). split; [apply (pa_r _ _ P); eexists; eauto|]. pose proof (w_rf _ (i_w _ _ (reach_inv _ _ (pa_reach _ _ P))) _ _ E) as F. rewrite Forall_forall in F. destruct (F _ H) as [z Hz]. apply (pa_f _ _ P). eexists; eauto.
Qed.
(** An edge of the part has a face in it, a vertex an edge. *)
Lemma edge_used : forall e, In e (K' 1) -> exists f, has_edge a' f e.
Proof using P I.
  intros e He. destruct (g_in _ _ He) as [Ke Ie]. pose proof KA as KA0. inversion Ie as [i y Ei Pi|r f d H Hf|f y H Hb|x v H Hv]; subst.
  - exfalso. apply nth_error_In in Ei. pose proof (KA0 _ _ _ Ke Ei) as E. pose proof (c_23 s) as C. lia.
  - exfalso. destruct (face_kind _ _ _ Hf) as [_ K2]. pose proof (KA0 _ _ _ Ke K2). lia.
  - destruct (edge_kind _ _ Hb) as [K2 _]. destruct (g_of _ _ K2 H) as (q & Hq & Eq). exists q. apply edge_iff; auto. rewrite Eq. auto.
  - exfalso. destruct (end_kind _ _ Hv) as [_ K0]. pose proof (KA0 _ _ _ Ke K0). lia.
Qed.
Lemma vertex_used : forall v, In v (K' 0) -> exists e, is_end a' e v.
Proof using P I.
  intros e He. destruct (g_in _ _ He) as [Ke Ie]. pose proof KA as KA0. inversion Ie as [i y Ei Pi|r f d H Hf|f y H Hb|x v H Hv]; subst.
  - exfalso. apply nth_error_In in Ei. pose proof (KA0 _ _ _ Ke Ei) as E. pose proof (c_23 s) as C. lia.
  - exfalso. destruct (face_kind _ _ _ Hf) as [_ K2]. pose proof (KA0 _ _ _ Ke K2). lia.
  - exfalso. destruct (edge_kind _ _ Hb) as [_ K1]. pose proof (KA0 _ _ _ Ke K1). lia.
  - destruct (end_kind _ _ Hv) as [K1 _]. destruct (g_of _ _ K1 H) as (q & Hq & Eq). exists q. apply end_iff; auto. rewrite Eq. auto.
Qed.

(** ** The tests *)
Definition outV v := exists e, is_end a e (g v) /\ ~ inp e.
Definition outE e := exists f, has_edge a f (g e) /\ ~ inp f.
Definition outF f := exists r d, has_face a r (g f) d /\ ~ inp r.
Lemma not_same : forall (l L : list ptr) (R' R : ptr -> Prop) d, NoDup l -> NoDup L -> (forall x, In x l <-> R' x) -> (forall y, In y L <-> R y) -> (forall x, R' x -> In x (K' d)) -> (forall y, R y -> In y (K d)) -> (forall x, In x (K' d) -> (R' x <-> R (g x))) ->
  if ZL l =? ZL L then ~ exists y, R y /\ ~ inp y else exists y, R y /\ ~ inp y.
Proof using I.
  intros l L R' R d Nl NL HR' HR HK' HK Hiff.
  assert (X := count_same g l L Nl NL). destruct X as [X1 X2].
  { intros x y Hx Hy. apply (po_inj _ _ _ _ _ _ _ _ I d x d y); apply HK', HR'; auto. } { intros x Hx. apply HR. apply HR' in Hx. apply Hiff; auto. }
  destruct (Z.eqb_spec (ZL l) (ZL L)) as [E|N].
  - intros (y & Hy & Ni). destruct (X1 E y) as (x & Hx & <-); [apply HR; auto|]. apply Ni. apply (g_in d). apply HK', HR'. auto.
  - assert (D : forall L0, (forall y, In y L0 -> exists x, In x l /\ g x = y) \/ exists y, In y L0 /\ forall x, In x l -> g x <> y).
    { induction L0 as [|y L0 IH]; [left; intros y []|]. destruct IH as [IH|(z & Hz & Nz)]; [|right; exists z; cbn; auto].
      assert (D1 : (exists x, In x l /\ g x = y) \/ forall x, In x l -> g x <> y). { clear. induction l as [|q l IH]; [right; intros x []|]. destruct (Z.eq_dec (g q) y) as [E|N]; [left; exists q; cbn; auto|]. destruct IH as [(q' & Hq & E)|IH]; [left; exists q'; cbn; auto|right]. intros x [->|Hx]; auto. }
      destruct D1 as [D1|D1]; [left; intros z [<-|Hz]; auto|right; exists y; cbn; auto]. }
    destruct (D L) as [H|(y & Hy & Ny)]; [destruct N; auto|]. exists y. assert (Ry : R y) by (apply HR; auto). split; auto. intro Hi. destruct (g_of d y (HK _ Ry) Hi) as (x & Hx & Ex). apply (Ny x); auto. apply HR'. apply Hiff; auto. rewrite Ex. auto.
Qed.
Lemma differ_e : forall s0 e, sm_m s0 = sm_m sub -> In e (K' 1) -> exists b : bool, differ (ME_Faces (sm_t s0) e) (ME_Faces (sm_t s') (g e)) = Ok b /\ if b then outE e else ~ outE e.
Proof using P I Em.
  intros s0 e Es He. unfold sm_t. rewrite Es, Em. fold (sm_t sub) (sm_t s).
  destruct (C26_edge_faces (sm_t sub) a' e (po_reach _ _ _ _ _ _ _ _ I)) as (o & E1 & A1). { apply (po_e _ _ _ _ _ _ _ _ I) in He. destruct He as [x He]. congruence. }
  destruct (g_in _ _ He) as [Ke _]. destruct (C26_edge_faces (sm_t s) a (g e) (pa_reach _ _ P)) as (o2 & E2 & A2). { apply (pa_e _ _ P) in Ke. destruct Ke as [x Ke]. congruence. }
  destruct (edge_used _ He) as (f & Hf). destruct (edge_live _ _ Hf) as [K2 _].
  destruct o as [l|]; [|destruct (A1 _ Hf)]. destruct o2 as [L|]; [|apply edge_iff in Hf; auto; destruct (A2 _ Hf)]. cbn in A1, A2. destruct A1 as (_ & N1 & H1), A2 as (_ & N2 & H2).
  unfold differ. rewrite E1, E2. cbn [bind nn]. eexists. split; [reflexivity|].
  pose proof (not_same l L _ _ 2 N1 N2 H1 H2) as X. cbv beta in X. destruct (ZL l =? ZL L); cbn [negb]; apply X; intros x Hx.
  all: try (apply edge_live in Hx; tauto). all: try (apply edge_kind in Hx; tauto). all: apply edge_iff; auto.
Qed.
Lemma differ_v : forall s0 v, sm_m s0 = sm_m sub -> In v (K' 0) -> exists b : bool, differ (MV_Edges (sm_t s0) v) (MV_Edges (sm_t s') (g v)) = Ok b /\ if b then outV v else ~ outV v.
Proof using P I Em.
  intros s0 e Es He. unfold sm_t. rewrite Es, Em. fold (sm_t sub) (sm_t s).
  destruct (C26_vertex_edges (sm_t sub) a' e (po_reach _ _ _ _ _ _ _ _ I)) as (o & E1 & A1). { apply (po_v _ _ _ _ _ _ _ _ I) in He. unfold live_v in He. congruence. }
  destruct (g_in _ _ He) as [Ke _]. destruct (C26_vertex_edges (sm_t s) a (g e) (pa_reach _ _ P)) as (o2 & E2 & A2). { apply (pa_v _ _ P) in Ke. unfold live_v in Ke. congruence. }
  destruct (vertex_used _ He) as (f & Hf). destruct (end_live _ _ Hf) as [K2 _].
  destruct o as [l|]; [|destruct (A1 _ Hf)]. destruct o2 as [L|]; [|apply end_iff in Hf; auto; destruct (A2 _ Hf)]. cbn in A1, A2. destruct A1 as (_ & N1 & H1), A2 as (_ & N2 & H2).
  unfold differ. rewrite E1, E2. cbn [bind nn]. eexists. split; [reflexivity|].
  pose proof (not_same l L _ _ 1 N1 N2 H1 H2) as X. cbv beta in X. destruct (ZL l =? ZL L); cbn [negb]; apply X; intros x Hx.
  all: try (apply end_live in Hx; tauto). all: try (apply end_kind in Hx; tauto). all: apply end_iff; auto.
Qed.
Lemma differ_f : forall s0 f, sm_m s0 = sm_m sub -> In f (K' 2) -> exists n n', MF_Regions (sm_t s0) f = Ok n /\ MF_Regions (sm_t s') (g f) = Ok n' /\ if ZL n =? ZL n' then ~ outF f else outF f.
Proof using P I Em.
  intros s0 e Es He. unfold sm_t. rewrite Es, Em. fold (sm_t sub) (sm_t s).
  destruct (C26_face_regions (sm_t sub) a' e (po_reach _ _ _ _ _ _ _ _ I)) as (l & E1 & (N1 & H1)). { apply (po_f _ _ _ _ _ _ _ _ I) in He. destruct He as [x He]. congruence. }
  destruct (g_in _ _ He) as [Ke _]. destruct (C26_face_regions (sm_t s) a (g e) (pa_reach _ _ P)) as (L & E2 & (N2 & H2)). { apply (pa_f _ _ P) in Ke. destruct Ke as [x Ke]. congruence. }
  exists l, L. split; auto. split; auto. pose proof (not_same l L _ _ 3 N1 N2 H1 H2) as X. cbv beta in X.
  assert (Y : if ZL l =? ZL L then ~ (exists y, (exists d, has_face a y (g e) d) /\ ~ inp y) else exists y, (exists d, has_face a y (g e) d) /\ ~ inp y).
  { apply X. - intros x [d Hx]. apply face_live in Hx. tauto. - intros x [d Hx]. apply face_kind in Hx. tauto. - intros x Hx. split; intros [d Hd]; exists d; apply face_iff; auto. }
  unfold outF. destruct (ZL l =? ZL L); [intros (r & d & Hr & Ni); apply Y; eauto|]. destruct Y as (y & [d Hd] & Ni). eauto.
Qed.

(** ** The loops *)
Definition ST (F : ptr -> Prop) (x : smesh) : Prop :=
  sm_m x = sm_m sub /\ sm_sets x = sm_sets sub /\
  forall p, pi_ptype (sm_p x p) = 0 /\ pi_master (sm_p x p) = pi_master (sm_p sub p) /\ pi_gid (sm_p x p) = pi_gid (sm_p sub p) /\ (pi_bdry (sm_p x p) = true <-> F p).
Lemma st_iff : forall (F G : ptr -> Prop) x, (forall p, F p <-> G p) -> ST F x -> ST G x.
Proof using Type. intros F G x H (A & B & C). split; auto. split; auto. intro p. destruct (C p) as (C1 & C2 & C3 & C4). rewrite <- H. auto. Qed.
Lemma st_flag : forall F x e, ST F x -> ST (fun p => F p \/ p = e) (flag_bdry x e).
Proof using Type.
  intros F x e (A & B & C). split; auto. split; auto. intro p. unfold flag_bdry, set_pi. cbn [sm_p]. unfold zupd. destruct (C p) as (C1 & C2 & C3 & C4). destruct (Z.eqb_spec p e) as [->|N].
  - cbn [pi_ptype pi_bdry pi_master pi_gid]. tauto.
  - rewrite C4. tauto.
Qed.
Lemma st_int : forall F x e, ST F x -> ST F (set_ptype x e PINTERIOR).
Proof using Type.
  intros F x e (A & B & C). split; auto. split; auto. intro p. unfold set_ptype, set_pi. cbn [sm_p]. unfold zupd. destruct (Z.eqb_spec p e) as [->|N]; [|apply C]. destruct (C e) as (C1 & C2 & C3 & C4). cbn [pi_ptype pi_bdry pi_master pi_gid]. auto.
Qed.
Lemma st_ints : forall F l x, ST F x -> ST F (all_interior x l).
Proof using Type. intros F. induction l as [|e l IH]; intros x H; cbn; auto. apply IH, st_int. auto. Qed.
Lemma st_start : ST (fun _ => False) sub.
Proof using I. split; auto. split; auto. intro p. destruct (po_plain _ _ _ _ _ _ _ _ I p) as [-> ->]. repeat split; auto; intuition discriminate. Qed.
Lemma st_ends : forall F x e, ST F x -> In e (K' 1) -> exists x', flag_ends x e = Ok x' /\ ST (fun p => F p \/ is_end a' e p) x'.
Proof using I.
  intros F x e H He. destruct (po_ends _ _ _ _ _ _ _ _ I _ He) as (u & w & E1 & _ & U & W).
  destruct (get_e _ _ e (reach_inv _ _ (po_reach _ _ _ _ _ _ _ _ I)) ltac:(congruence)) as (y & Hy & Ey). rewrite E1 in Ey. unfold eview in Ey. inversion Ey as [[X1 X2 X3]].
  assert (R : forall x0, sm_m x0 = sm_m sub -> ME_Vertex (sm_t x0) e 0 = Ok u /\ ME_Vertex (sm_t x0) e 1 = Ok w). { intros x0 E0. unfold sm_t. rewrite E0. fold (sm_t sub). unfold ME_Vertex, gete. rewrite Hy, X2, X3. auto. }
  unfold flag_ends. cbn [foldM]. destruct (R x (proj1 H)) as [-> _]. cbn [bind]. destruct (Z.eqb_spec u NULL) as [Q|_]; [destruct (sub_null _ U Q)|]. cbn [bind].
  pose proof (st_flag _ _ u H) as H1. destruct (R _ (proj1 H1)) as [_ ->]. cbn [bind]. destruct (Z.eqb_spec w NULL) as [Q|_]; [destruct (sub_null _ W Q)|]. cbn [bind]. eexists. split; [reflexivity|].
  eapply st_iff; [|apply st_flag, H1]. intro p. cbv beta. split.
  - intros [[Q|Q]|Q]; auto; right; exists u, w; subst; auto.
  - intros [Q|(x1 & x2 & E & Q)]; auto. rewrite E1 in E. inversion E; subst. destruct Q; subst; auto.
Qed.
Definition B0 p := exists f, In f (K' 2) /\ outF f /\ (p = f \/ exists e, has_edge a' f e /\ (p = e \/ is_end a' e p)).
Definition B1 p := B0 p \/ exists e, In e (K' 1) /\ outE e /\ (p = e \/ is_end a' e p).
Definition B2 p := B1 p \/ exists v, In v (K' 0) /\ outV v /\ p = v.
Lemma face_flags : forall (F : ptr -> Prop) l x, ST F x -> (forall e, In e l -> In e (K' 1)) -> exists x', foldM (fun s0 e => flag_ends (flag_bdry s0 e) e) x l = Ok x' /\ ST (fun p => F p \/ exists e, In e l /\ (p = e \/ is_end a' e p)) x'.
Proof using I.
  intros F l. revert F. induction l as [|e l IH]; intros F x H Hl; cbn [foldM]. { eexists. split; [reflexivity|]. eapply st_iff; [|exact H]. intro p. cbv beta. split; [auto|]. intros [Q|(e & [] & _)]; auto. }
  destruct (st_ends _ _ e (st_flag _ _ e H)) as (x1 & E1 & H1); [apply Hl; cbn; auto|]. rewrite E1. cbn [bind]. destruct (IH _ x1 H1) as (x2 & E2 & H2); [intros; apply Hl; cbn; auto|]. exists x2. split; [exact E2|]. eapply st_iff; [|exact H2]. intro p. cbv beta. split.
  - intros [[[Q|Q]|Q]|(e' & He & Q)]; [auto|right; exists e; cbn; auto|right; exists e; cbn; auto|right; exists e'; cbn; auto].
  - intros [Q|(e' & [<-|He] & Q)]; [auto| |right; exists e'; auto]. left. tauto.
Qed.
Lemma faces_loop : forall x, ST (fun _ => False) x -> exists x', pb_faces s' g x = Ok x' /\ ST B0 x'.
Proof using P I Em.
  intros x H. unfold pb_faces. rewrite (proj1 H). fold (skind sub 2). change (fm_f (sm_m sub)) with (K' 2).
  destruct (each _ _ (fun dn x => ST (fun p => exists f, In f dn /\ outF f /\ (p = f \/ exists e, has_edge a' f e /\ (p = e \/ is_end a' e p))) x)
    (fun s0 f => n <- MF_Regions (sm_t s0) f ;; n' <- MF_Regions (sm_t s') (g f) ;; if negb (ZL n =? ZL n') then fedges <- MF_Edges (sm_t s0) f 1 NULL ;; foldM (fun s0 e => flag_ends (flag_bdry s0 e) e) (flag_bdry s0 f) fedges else Ok (set_ptype s0 f PINTERIOR)) (K' 2)) with (st := x) as (x' & E & H').
  - intros dn f rest x1 Ek H1. assert (Hf : In f (K' 2)) by (rewrite Ek; apply in_or_app; cbn; auto).
    destruct (differ_f x1 f (proj1 H1) Hf) as (n & n' & En & En' & O). rewrite En, En'. cbn [bind]. destruct (ZL n =? ZL n'); cbn [negb].
    + eexists. split; [reflexivity|]. apply st_int. eapply st_iff; [|exact H1]. intro p. cbv beta. split; intros (f' & Hf' & Q); exists f'; [split; [apply in_or_app; auto|auto]|]. apply in_app_or in Hf'. destruct Hf' as [Hf'|[<-|[]]]; [auto|]. destruct Q. contradiction.
    + destruct (po_loop _ _ _ _ _ _ _ _ I _ Hf) as (b & Eb & _ & Hb). assert (Eq : MF_Edges (sm_t x1) f 1 NULL = Ok (map fst b)). { unfold sm_t. rewrite (proj1 H1). apply (face_edges_query _ _ _ _ true (reach_inv _ _ (po_reach _ _ _ _ _ _ _ _ I)) Eb). } rewrite Eq. cbn [bind].
      pose proof (st_flag _ _ f H1) as H2. cbv beta in H2. 
      destruct (face_flags _ (map fst b) _ H2) as (x' & Ex & Hx); [intros e He; apply in_map_iff in He; destruct He as (y & <- & Hy); auto|]. exists x'. split; [exact Ex|]. eapply st_iff; [|exact Hx]. intro p. cbv beta. split.
      * intros [[(f' & Hf' & Q)| ->]|(e & He & Q)]; [exists f'; split; [apply in_or_app; auto|auto]|exists f; split; [apply in_or_app; cbn; auto|auto]|]. exists f. split; [apply in_or_app; cbn; auto|]. split; auto. right. exists e. split; auto. exists b. auto.
      * intros (f' & Hf' & O' & Q). apply in_app_or in Hf'. destruct Hf' as [Hf'|[<-|[]]]; [left; left; exists f'; auto|]. destruct Q as [->|(e & (b' & Eb' & He) & Q)]; [auto|]. rewrite Eb in Eb'. inversion Eb'; subst b'. right. exists e. auto.
  - eapply st_iff; [|exact H]. intro p. cbv beta. split; [tauto|]. intros (f & [] & _).
  - exists x'. split; [exact E|exact H'].
Qed.
Lemma edges_loop : forall skip x, (skip = false -> forall p, ~ B0 p) -> ST B0 x -> exists x', pb_edges s' g skip x = Ok x' /\ ST B1 x'.
Proof using P I Em.
  intros skip x NB H. unfold pb_edges. rewrite (proj1 H). change (fm_e (sm_m sub)) with (K' 1).
  assert (CL : forall e v, B0 e -> is_end a' e v -> B0 v).
  { intros e v (f & Hf & O & Q) Hv. exists f. split; auto. split; auto. right. destruct (end_live _ _ Hv) as [K1 K0]. destruct Q as [->|(e' & He & [->|Q])].
    - pose proof (KA' _ _ _ K1 Hf). lia.
    - exists e'. auto.
    - destruct (end_live _ _ Q) as [_ K0']. pose proof (KA' _ _ _ K1 K0'). lia. }
  edestruct (each _ _ (fun dn x => ST (fun p => B0 p \/ exists e, In e dn /\ outE e /\ (p = e \/ is_end a' e p)) x)) with (full := K' 1) (st := x) as (x' & E & H').
  3: { exists x'. split; [exact E|exact H']. }
  - intros dn e rest x1 Ek H1. assert (He : In e (K' 1)) by (rewrite Ek; apply in_or_app; cbn; auto). pose proof (po_nd _ _ _ _ _ _ _ _ I 1) as ND. rewrite Ek in ND. apply NoDup_remove_2 in ND.
    assert (FL : pi_bdry (sm_p x1 e) = true -> B0 e). { intro Q. apply H1 in Q. destruct Q as [Q|(e' & He' & _ & [->|Q])]; auto. { destruct ND. apply in_or_app. auto. } destruct (end_live _ _ Q) as [_ K0]. pose proof (KA' _ _ _ He K0). lia. }
    cbv beta. destruct (skip && pi_bdry (sm_p x1 e)) eqn:SK.
    + exists x1. split; auto. apply andb_prop in SK. destruct SK as [_ SK]. specialize (FL SK). eapply st_iff; [|exact H1]. intro p. cbv beta. split.
      * intros [Q|(e' & He' & Q)]; auto. right. exists e'. split; [apply in_or_app|]; auto.
      * intros [Q|(e' & He' & O & Q)]; auto. apply in_app_or in He'. destruct He' as [He'|[<-|[]]]; [right; exists e'; auto|]. left. destruct Q as [->|Q]; auto. eapply CL; eauto.
    + destruct (differ_e x1 e (proj1 H1) He) as (d & Ed & O). rewrite Ed. cbn [bind]. destruct d.
      * destruct (st_ends _ _ e (st_flag _ _ e H1) He) as (x2 & E2 & H2). exists x2. split; [exact E2|]. eapply st_iff; [|exact H2]. intro p. cbv beta. split.
        -- intros [[[Q|(e' & He' & Q)]|Q]|Q]; [auto|right; exists e'; split; [apply in_or_app|]; auto| |]; right; exists e; (split; [apply in_or_app; cbn; auto|auto]).
        -- intros [Q|(e' & He' & O' & Q)]; auto. apply in_app_or in He'. destruct He' as [He'|[<-|[]]]; [left; left; right; exists e'; auto|]. tauto.
      * eexists. split; [reflexivity|]. apply st_int. eapply st_iff; [|exact H1]. intro p. cbv beta. split.
        -- intros [Q|(e' & He' & Q)]; auto. right. exists e'. split; [apply in_or_app|]; auto.
        -- intros [Q|(e' & He' & O' & Q)]; auto. apply in_app_or in He'. destruct He' as [He'|[<-|[]]]; [right; exists e'; auto|]. contradiction.
  - eapply st_iff; [|exact H]. intro p. cbv beta. split; auto. intros [Q|(e & [] & _)]; auto.
Qed.
Lemma vertices_loop : forall x, ST B1 x -> exists x', pb_vertices s' g x = Ok x' /\ ST B2 x'.
Proof using P I Em.
  intros x H. unfold pb_vertices. rewrite (proj1 H). change (fm_v (sm_m sub)) with (K' 0).
  edestruct (each _ _ (fun dn x => ST (fun p => B1 p \/ exists v, In v dn /\ outV v /\ p = v) x)) with (full := K' 0) (st := x) as (x' & E & H').
  3: { exists x'. split; [exact E|exact H']. }
  - intros dn e rest x1 Ek H1. assert (He : In e (K' 0)) by (rewrite Ek; apply in_or_app; cbn; auto). cbv beta. destruct (pi_bdry (sm_p x1 e)) eqn:SK.
    + exists x1. split; auto. apply H1 in SK. eapply st_iff; [|exact H1]. intro p. cbv beta. split.
      * intros [Q|(e' & He' & Q)]; auto. right. exists e'. split; [apply in_or_app|]; auto.
      * intros [Q|(e' & He' & O & Q)]; auto. apply in_app_or in He'. destruct He' as [He'|[<-|[]]]; [right; exists e'; auto|]. subst. exact SK.
    + destruct (differ_v x1 e (proj1 H1) He) as (d & Ed & O). rewrite Ed. cbn [bind]. eexists. split; [reflexivity|]. destruct d.
      * eapply st_iff; [|apply st_flag, H1]. intro p. cbv beta. split.
        -- intros [[Q|(e' & He' & Q)]|Q]; [auto|right; exists e'; split; [apply in_or_app|]; auto|]. right; exists e; split; [apply in_or_app; cbn; auto|auto].
        -- intros [Q|(e' & He' & O' & Q)]; auto. apply in_app_or in He'. destruct He' as [He'|[<-|[]]]; [left; right; exists e'; auto|]. auto.
      * apply st_int. eapply st_iff; [|exact H1]. intro p. cbv beta. split.
        -- intros [Q|(e' & He' & Q)]; auto. right. exists e'. split; [apply in_or_app|]; auto.
        -- intros [Q|(e' & He' & O' & Q)]; auto. apply in_app_or in He'. destruct He' as [He'|[<-|[]]]; [right; exists e'; auto|]. contradiction.
  - eapply st_iff; [|exact H]. intro p. cbv beta. split; auto. intros [Q|(e & [] & _)]; auto.
Qed.
Lemma built_ok : cells s <> [] -> exists x, MESH_BuildPBoundary s' g sub = Ok x /\ ST B2 x.
Proof using P I Em.
  intro NE. unfold MESH_BuildPBoundary. rewrite Em. change (fm_r (sm_m s)) with (K 3). change (fm_f (sm_m s)) with (K 2). destruct (Z.ltb_spec 0 (ZL (K 3))) as [L|L].
  - unfold MESH_Vol_BuildPBoundary. destruct (faces_loop _ (st_ints _ (fm_r (sm_m sub)) _ st_start)) as (x1 & E1 & H1). rewrite E1. cbn [bind]. destruct (edges_loop true x1) as (x2 & E2 & H2); [discriminate|exact H1|]. rewrite E2. cbn [bind]. apply vertices_loop. exact H2.
  - assert (E3 : K 3 = []) by (revert L; unfold ZL; destruct (K 3); [auto|cbn [length]; lia]). assert (C : celldim s = 2) by (unfold celldim; rewrite E3; auto). unfold cells in NE. rewrite C in NE.
    assert (NB : forall p, ~ B0 p). { intros p (f & _ & (r & d & Hr & _) & _). apply face_kind in Hr. rewrite E3 in Hr. destruct Hr as [[] _]. }
    destruct (Z.ltb_spec 0 (ZL (K 2))) as [L2|L2]. 2: { exfalso. revert L2 NE. unfold ZL. destruct (K 2); [auto|cbn [length]; lia]. }
    unfold MESH_Surf_BuildPBoundary. destruct (edges_loop false (all_interior sub (fm_f (sm_m sub)))) as (x2 & E2 & H2); [auto| |]. { eapply st_iff; [|apply (st_ints _ (fm_f (sm_m sub)) _ st_start)]. intro p. split; [tauto|]. intro Q. destruct (NB _ Q). } rewrite E2. cbn [bind]. apply vertices_loop. exact H2.
Qed.

(** ** What the flags mean *)
Lemma up_kind : forall d q x, In q (K d) -> up a q x -> In x (K (d + 1)).
Proof using P.
  intros d q x Hq [H|[H|[e H]]]; [apply end_kind in H|apply edge_kind in H|apply face_kind in H]; destruct H as [H1 H2]; pose proof (KA _ _ _ Hq H2); subst; auto.
Qed.
Lemma flag_up : forall d q x, In q (K' d) -> up a (g q) x -> ~ inp x -> B2 q.
Proof using P I.
  intros d q x Hq H Ni. destruct (g_in _ _ Hq) as [Kg _]. destruct H as [H|[H|[e H]]].
  - destruct (end_kind _ _ H) as [_ K0]. pose proof (KA _ _ _ Kg K0). subst d. right. exists q. split; auto. split; auto. exists x. auto.
  - destruct (edge_kind _ _ H) as [_ K0]. pose proof (KA _ _ _ Kg K0). subst d. left. right. exists q. split; auto. split; auto. exists x. auto.
  - destruct (face_kind _ _ _ H) as [_ K0]. pose proof (KA _ _ _ Kg K0). subst d. left. left. exists q. split; auto. split; auto. exists x, e. auto.
Qed.
Lemma up_iff : forall d d' q q', In q (K' d) -> In q' (K' d') -> up a (g q) (g q') -> (is_end a' q' q /\ d = 0) \/ (has_edge a' q' q /\ d = 1) \/ (exists e, has_face a' q' q e /\ d = 2).
Proof using P I.
  intros d d' q q' H H' U. destruct (g_in _ _ H) as [Kg _]. destruct (g_in _ _ H') as [Kg' _]. destruct U as [U|[U|[e U]]].
  - destruct (end_kind _ _ U) as [K1 K0]. pose proof (KA _ _ _ Kg K0). pose proof (KA _ _ _ Kg' K1). subst. left. split; auto. apply end_iff; auto.
  - destruct (edge_kind _ _ U) as [K1 K0]. pose proof (KA _ _ _ Kg K0). pose proof (KA _ _ _ Kg' K1). subst. right. left. split; auto. apply edge_iff; auto.
  - destruct (face_kind _ _ _ U) as [K1 K0]. pose proof (KA _ _ _ Kg K0). pose proof (KA _ _ _ Kg' K1). subst. right. right. exists e. split; auto. apply face_iff; auto.
Qed.
Lemma flag_down : forall d d' q q', In q (K' d) -> In q' (K' d') -> up a (g q) (g q') -> B2 q' -> B2 q.
Proof using P I.
  intros d d' q q' H H' U B. destruct (up_iff _ _ _ _ H H' U) as [[V ->]|[[V ->]|(x & V & ->)]].
  - destruct (end_live _ _ V) as [K1 _]. destruct B as [[(f & Hf & O & B)|(e & He & O & B)]|(v & Hv & _ & ->)].
    + left. left. exists f. split; auto. split; auto. right. destruct B as [->|(e & He & [->|B])]; [pose proof (KA' _ _ _ K1 Hf); lia|exists e; auto|]. destruct (end_live _ _ B) as [_ K0]. pose proof (KA' _ _ _ K1 K0). lia.
    + left. right. exists e. split; auto. split; auto. destruct B as [->|B]; auto. destruct (end_live _ _ B) as [_ K0]. pose proof (KA' _ _ _ K1 K0). lia.
    + pose proof (KA' _ _ _ K1 Hv). lia.
  - destruct (edge_live _ _ V) as [K2 _]. destruct B as [[(f & Hf & O & B)|(e & He & O & B)]|(v & Hv & _ & ->)].
    + left. left. exists f. split; auto. split; auto. right. destruct B as [->|(e & He & [->|B])]; [exists q; auto| |]. { destruct (edge_live _ _ He) as [_ K1]. pose proof (KA' _ _ _ K2 K1). lia. } destruct (end_live _ _ B) as [_ K0]. pose proof (KA' _ _ _ K2 K0). lia.
    + destruct B as [->|B]; [pose proof (KA' _ _ _ K2 He); lia|]. destruct (end_live _ _ B) as [_ K0]. pose proof (KA' _ _ _ K2 K0). lia.
    + pose proof (KA' _ _ _ K2 Hv). lia.
  - destruct (face_live _ _ _ V) as [K3 _]. destruct B as [[(f & Hf & O & B)|(e & He & O & B)]|(v & Hv & _ & ->)].
    + destruct B as [->|(e & He & [->|B])]; [pose proof (KA' _ _ _ K3 Hf); lia| |]. { destruct (edge_live _ _ He) as [_ K1]. pose proof (KA' _ _ _ K3 K1). lia. } destruct (end_live _ _ B) as [_ K0]. pose proof (KA' _ _ _ K3 K0). lia.
    + destruct B as [->|B]; [pose proof (KA' _ _ _ K3 He); lia|]. destruct (end_live _ _ B) as [_ K0]. pose proof (KA' _ _ _ K3 K0). lia.
    + pose proof (KA' _ _ _ K3 Hv). lia.
Qed.
Lemma flag_iff : forall d q, In q (K' d) -> (B2 q <-> exists x, bounds a (g q) x /\ ~ inp x).
Proof using P I.
  intros d q Hq. split.
  - assert (OF : forall f, outF f -> exists x, bounds a (g f) x /\ ~ inp x) by (intros f (r & e & Hr & Ni); exists r; split; auto; apply bd_one; right; right; eauto).
    assert (OE : forall f, outE f -> exists x, bounds a (g f) x /\ ~ inp x) by (intros f (r & Hr & Ni); exists r; split; auto; apply bd_one; right; left; eauto).
    assert (OV : forall f, outV f -> exists x, bounds a (g f) x /\ ~ inp x) by (intros f (r & Hr & Ni); exists r; split; auto; apply bd_one; left; eauto).
    assert (UE : forall e v, is_end a' e v -> up a (g v) (g e)) by (intros e v H; destruct (end_live _ _ H); left; apply end_iff; auto).
    assert (UF : forall f e, has_edge a' f e -> up a (g e) (g f)) by (intros e v H; destruct (edge_live _ _ H); right; left; apply edge_iff; auto).
    intros [[(f & Hf & O & B)|(e & He & O & B)]|(v & Hv & O & ->)]; [| |auto].
    + destruct (OF _ O) as (x & Hx & Ni). exists x. split; auto. destruct B as [->|(e & He & [->|B])]; [auto|eapply bd_more; eauto|]. eapply bd_more; [apply UE, B|]. eapply bd_more; eauto.
    + destruct (OE _ O) as (x & Hx & Ni). exists x. split; auto. destruct B as [->|B]; auto. eapply bd_more; eauto.
  - intros (x & Hx & Ni). remember (g q) as y eqn:Ey. revert d q Hq Ey. induction Hx as [y x U|y z x U Hx IH]; intros d q Hq ->.
    + eapply flag_up; eauto.
    + destruct (g_in _ _ Hq) as [Kg _]. pose proof (up_kind _ _ _ Kg U) as Kz. destruct (dec_inp _ _ Kz) as [Hi|Hi]; [|eapply flag_up; eauto]. destruct (g_of _ _ Kz Hi) as (q' & Hq' & <-). eapply flag_down; eauto.
Qed.
End Flags.
