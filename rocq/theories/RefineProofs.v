(** Swapping an edge and splitting a face at a point. *)
From Coq Require Import ZArith List Lia Bool Arith ZifyBool ZifyNat Permutation.
From Verif Require Import Base BaseProofs ListSpec AttModel AttProps TopoModel ParModel ParProps TopoSpec TopoProofs TopoProofs2 TopoProofs3 TopoProofs4 TopoProofs5 TopoProofs6 TopoProofs7 TopoProps TopoProps2 ModModel ModProofs ModProofs2 ModProps ModProps2 ModProofs3 CellSpec CellProofs CellProofs2 BuildModel BuildProofs BuildProofs2 BuildProofs3 BuildProofs5 JoinProofs RefineModel.
Import ListNotations.
Open Scope Z_scope.

(** ** The edges of a face from a vertex on *)
Lemma edges_from : forall t a f s x s' u, reach t a -> a_f a f = Some (true, Some (s ++ x :: s')) -> path a u (s ++ x :: s') u -> NoDup (map (vat a) (s ++ x :: s')) -> vat a x <> NULL ->
  MF_Edges t f 1 (vat a x) = Ok (map fst (x :: s' ++ s)).
Proof.
  intros t a f s x s' u R Hf HP N Hn. destruct (C23_face_loop t a f _ u true (vat a x) R Hf HP) as (_ & C & _).
  destruct C as (c & vs & RC & _ & EE & AR & Hh); auto.
  { exists (fst x), (snd x). split. destruct x. apply in_or_app. right. left. auto. pose proof (path_edge_ok _ _ _ _ HP) as EO. rewrite Forall_forall in EO. destruct (EO x) as ([p q] & He). apply in_or_app. right. left. auto. exists p, q. split; auto. unfold vat. rewrite He. destruct (snd x); cbn; auto. }
  change (b2z true) with 1 in EE. rewrite EE. f_equal. f_equal. cbn [walk] in RC. apply around_vat in AR.
  assert (R2 : rotation (x :: s' ++ s) c). { eapply rotation_trans; [|exact RC]. exists (x :: s'), s. auto. }
  symmetry. apply (rot_same _ _ (vat a) _ _ dflt R2).
  - eapply Permutation_NoDup; [|exact N]. apply Permutation_map, rotation_perm. exists s, (x :: s'). auto.
  - discriminate.
  - cbn [hd]. destruct c as [|y c]. apply rotation_length in R2. discriminate. cbn [hd]. subst vs. auto.
Qed.

Lemma nd3 : forall x y z : ptr, x <> y -> x <> z -> y <> z -> NoDup [x; y; z].
Proof. intros. constructor. cbn. intuition. constructor. cbn. intuition. constructor. cbn. auto. constructor. Qed.

Ltac slim := repeat match goal with H : @eq _ _ _ -> False |- _ => clear H | H : _ <> _ |- _ => clear H end.

(** ** Swapping an edge *)

(** A loop that is a rotation of one starting with [x]. *)
Lemma rot_head : forall (x : ptr * bool) l b, rotation (x :: l) b -> exists s s', b = s ++ x :: s' /\ s' ++ s = l.
Proof.
  intros x l b (u & v & E & ->). destruct u as [|y u]; cbn [app] in E. exists [], l. rewrite !app_nil_r, <- E. auto. inversion E; subst. exists v, u. auto.
Qed.
Lemma path_rot : forall a b c u, path a u b u -> rotation b c -> exists w, path a w c w.
Proof. intros a b c u H (l & l' & -> & ->). apply path_app in H. destruct H as (w & H1 & H2). exists w. apply path_app. eauto. Qed.
Lemma leads_path : forall a x p q l w, leads a x p q -> p <> q -> path a q l w -> path a p (x :: l) w.
Proof. intros a [e d] p q l w (y & Hy & Hs & He) N H. cbn [fst snd path] in *. exists y. split; auto. split. destruct d, y; cbn in *; congruence. split; auto. rewrite He. auto. Qed.
Lemma leads_ok : forall a x p q, leads a x p q -> edge_ok a x.
Proof. intros a x p q (y & Hy & _). exists y. auto. Qed.
Lemma leads_ends : forall a x p q p' q', leads a x p q -> leads a (fst x, snd x) p' q' -> p = p' /\ q = q'.
Proof. intros a [e d] p q p' q' (y & Hy & H1 & H2) (z & Hz & K1 & K2). cbn [fst snd] in *. rewrite Hy in Hz. inversion Hz; subst z. subst. auto. Qed.
(** Two used edges with different ends are different. *)
Lemma leads_diff : forall a x y p q p' q', leads a x p q -> leads a y p' q' -> (p <> p' \/ q <> q') -> (p <> q' \/ q <> p') -> fst x <> fst y.
Proof.
  intros a [e d] [g h] p q p' q' (y & Hy & H1 & H2) (z & Hz & K1 & K2) N1 N2 E. cbn [fst snd] in *. subst g. rewrite Hy in Hz. inversion Hz; subst z. destruct y, d, h; cbn in *; subst; tauto.
Qed.
Lemma leads_start : forall t a x p q, inv t a -> leads a x p q -> p <> q -> from_v t (fst x) p = Ok (b2z (snd x)).
Proof.
  intros t a [e d] p q I L N. destruct L as ([u w] & Hy & H1 & H2). cbn [fst snd] in *. unfold from_v. pose proof (vat_ok t a (e, true) I) as V. cbn [fst snd b2z] in V. change (lnot 1) with 0 in V. rewrite V by (exists (u, w); auto). cbn [bind]. unfold vat. cbn [fst snd]. rewrite Hy. destruct d; cbn [d_start d_end fst snd] in *; subst. rewrite Z.eqb_refl. auto. replace (q =? p) with false by lia. auto.
Qed.
Lemma leads_other : forall t a x p q i v, inv t a -> leads a x p q -> p <> q -> (v = p \/ v = q) -> end_not t (fst x) (b2z i) v = Ok (if v =? p then q else p).
Proof.
  intros t a [e d] p q i v I L N HV. destruct L as ([u w] & Hy & H1 & H2). cbn [fst snd] in *. unfold end_not.
  assert (V : forall k, ME_Vertex t e (b2z k) = Ok (if k then w else u)). { intros k. pose proof (vend_ok t a (e, k) I) as V. cbn [fst snd] in V. rewrite V by (exists (u, w); auto). unfold vend. cbn [fst snd]. rewrite Hy. destruct k; auto. }
  rewrite V. cbn [bind]. replace (lnot (b2z i)) with (b2z (negb i)) by (destruct i; auto). rewrite V.
  destruct d, i; cbn [d_start d_end fst snd negb] in *; subst; destruct HV as [-> | ->]; rewrite ?Z.eqb_refl; repeat match goal with |- context [?x =? ?y] => destruct (Z.eqb_spec x y) end; auto; congruence.
Qed.
Lemma face_len : forall t f l v, MF_Edges t f 1 v = Ok l -> ZL l = Z.of_nat (length l).
Proof. reflexivity. Qed.

Lemma swap_ok : forall t a e v0 v1 v2 v3 f0 f1 b0 b1 x0 x1 x2 x3, reach t a -> a_e a e = Some (true, (v0, v1)) -> NoDup [v0; v1; v2; v3] -> ~ In NULL [v0; v1; v2; v3] ->
  a_f a f0 = Some (true, Some b0) -> a_f a f1 = Some (true, Some b1) -> rotation [(e, true); x0; x1] b0 -> rotation [(e, false); x2; x3] b1 ->
  leads a x0 v1 v3 -> leads a x1 v3 v0 -> leads a x2 v0 v2 -> leads a x3 v2 v1 ->
  (forall g, has_edge a g e -> g = f0 \/ g = f1) -> (forall r d, ~ has_face a r f0 d /\ ~ has_face a r f1 d) ->
  let n := a_next a in exists t' a', ME_Swap2D 2 t e = Ok (t', Some (n, n + 1, n + 2)) /\ reach t' a' /\ a_v a' = a_v a /\ a_r a' = a_r a /\
    (forall g, a_e a' g = if g =? n then Some (true, (v2, v3)) else if g =? e then None else a_e a g) /\
    (forall g, a_f a' g = if g =? n + 1 then Some (true, Some [(n, true); x1; x2]) else if g =? n + 2 then Some (true, Some [(n, false); x3; x0]) else if (g =? f0) || (g =? f1) then None else a_f a g).
Proof.
  intros t a e v0 v1 v2 v3 f0 f1 b0 b1 x0 x1 x2 x3 R He ND NN Hf0 Hf1 RT0 RT1 L0 L1 L2 L3 HE HR n. pose proof (reach_inv _ _ R) as I. pose proof (i_w _ _ I) as W.
  assert (D : v0 <> v1 /\ v0 <> v2 /\ v0 <> v3 /\ v1 <> v2 /\ v1 <> v3 /\ v2 <> v3). { inversion ND as [|? ? A1 B1]; subst. inversion B1 as [|? ? A2 B2]; subst. inversion B2 as [|? ? A3 B3]; subst. cbn in A1, A2, A3. repeat split; intros X; subst; tauto. }
  destruct D as (D1 & D2 & D3 & D4 & D5 & D6). assert (Z0 : v0 <> NULL) by (intros X; apply NN; rewrite X; left; auto). assert (Z1 : v1 <> NULL) by (intros X; apply NN; rewrite X; right; left; auto). assert (Z2 : v2 <> NULL) by (intros X; apply NN; rewrite X; do 2 right; left; auto). assert (Z3 : v3 <> NULL) by (intros X; apply NN; rewrite X; do 3 right; left; auto).
  assert (Le0 : leads a (e, true) v0 v1) by (exists (v0, v1); auto). assert (Le1 : leads a (e, false) v1 v0) by (exists (v0, v1); auto).
  assert (P0 : path a v0 [(e, true); x0; x1] v0). { eapply leads_path; eauto. eapply leads_path; eauto. eapply leads_path; eauto. reflexivity. }
  assert (P1 : path a v1 [(e, false); x2; x3] v1). { eapply leads_path; eauto. eapply leads_path; eauto. eapply leads_path; eauto. reflexivity. }
  destruct (path_rot _ _ _ _ P0 RT0) as (u0 & Q0). destruct (path_rot _ _ _ _ P1 RT1) as (u1 & Q1).
  assert (NV0 : NoDup (map (vat a) b0)). { eapply Permutation_NoDup. apply Permutation_map, rotation_perm. exact RT0. cbn [map]. rewrite (proj1 (leads_vat _ _ _ _ Le0)), (proj1 (leads_vat _ _ _ _ L0)), (proj1 (leads_vat _ _ _ _ L1)). apply nd3; auto. }
  assert (NV1 : NoDup (map (vat a) b1)). { eapply Permutation_NoDup. apply Permutation_map, rotation_perm. exact RT1. cbn [map]. rewrite (proj1 (leads_vat _ _ _ _ Le1)), (proj1 (leads_vat _ _ _ _ L2)), (proj1 (leads_vat _ _ _ _ L3)). apply nd3; auto. }
  destruct (rot_head _ _ _ RT0) as (s0 & s0' & -> & ES0). destruct (rot_head _ _ _ RT1) as (s1 & s1' & -> & ES1).
  assert (M0 : MF_Edges t f0 1 v0 = Ok [e; fst x0; fst x1]). { pose proof (edges_from t a f0 s0 (e, true) s0' u0 R Hf0 Q0 NV0) as X. rewrite (proj1 (leads_vat _ _ _ _ Le0)) in X. rewrite X by auto. rewrite ES0. auto. }
  assert (M1 : MF_Edges t f1 1 v1 = Ok [e; fst x2; fst x3]). { pose proof (edges_from t a f1 s1 (e, false) s1' u1 R Hf1 Q1 NV1) as X. rewrite (proj1 (leads_vat _ _ _ _ Le1)) in X. rewrite X by auto. rewrite ES1. auto. }
  assert (H01 : f0 <> f1). { intros X. subst f1. rewrite Hf0 in Hf1. injection Hf1 as X. assert (Y : In (e, false) (s0 ++ (e, true) :: s0')) by (rewrite X; apply in_or_app; right; left; auto). rewrite in_app_iff in Y. cbn [In] in Y. assert (Y' : In (e, false) (s0' ++ s0)) by (rewrite in_app_iff; destruct Y as [Y|[Y|Y]]; auto; discriminate). rewrite ES0 in Y'.
    destruct Y' as [Y'|[Y'|[]]]; subst. apply (leads_diff _ _ _ _ _ _ _ Le0 L0); auto. apply (leads_diff _ _ _ _ _ _ _ Le0 L1); auto. }
  assert (HF : exists l, ME_Faces t e = Ok (Some l) /\ (l = [f0; f1] \/ l = [f1; f0])).
  { destruct (C26_edge_faces t a e R) as (o & Eo & A). congruence. assert (K0 : has_edge a f0 e) by (exists (s0 ++ (e, true) :: s0'); split; auto; rewrite map_app, in_app_iff; right; left; auto). assert (K1 : has_edge a f1 e) by (exists (s1 ++ (e, false) :: s1'); split; auto; rewrite map_app, in_app_iff; right; left; auto).
    destruct o as [l|]; cbn [answers] in A; [|destruct (A _ K0)]. exists l. split; auto. destruct A as (_ & Nl & Al). assert (I0 : In f0 l) by (apply Al; auto). assert (I1 : In f1 l) by (apply Al; auto). assert (IA : forall g, In g l -> g = f0 \/ g = f1) by (intros g Hg; apply HE, Al; auto).
    destruct l as [|p [|q [|r l]]]. destruct I0. destruct I0 as [<-|[]]. destruct I1 as [<-|[]]. congruence.
    - destruct (IA p (or_introl eq_refl)) as [-> | ->], (IA q (or_intror (or_introl eq_refl))) as [-> | ->]; auto; inversion Nl as [|? ? X _]; subst; exfalso; apply X; left; auto.
    - exfalso. inversion Nl as [|? ? X Y]; subst. inversion Y as [|? ? X' Y']; subst. cbn [In] in X, X'. destruct (IA p) as [-> | ->]; [left; auto| |]; (destruct (IA q) as [-> | ->]; [right; left; auto| |]); (destruct (IA r) as [-> | ->]; [right; right; left; auto| |]); tauto. }
  destruct HF as (l & EF & Hl).
  pose proof (edge_dir_ok _ _ _ _ _ _ _ I Hf0) as ED0. pose proof (edge_dir_ok _ _ _ _ _ _ _ I Hf1) as ED1.
  assert (B0 : 1 <= f0 < n) by (apply (w_f _ W); congruence). assert (B1 : 1 <= f1 < n) by (apply (w_f _ W); congruence). assert (Be : 1 <= e < n) by (apply (w_e _ W); congruence).
  assert (Bx : forall x p q, leads a x p q -> 1 <= fst x < n). { intros x p q (y & Hy & _). apply (w_e _ W). congruence. }
  destruct (reach_step t a (TDelF f0 false) R) as (t1 & E1 & R1). { cbn [tpre]. split. congruence. intros _ r dd HH. exact (proj1 (HR r dd) HH). }
  destruct (reach_step t1 _ (TDelF f1 false) R1) as (t2 & E2 & R2). { cbn [tpre astep]. ra. unfold kill. rewrite upd_other by auto. split. congruence. intros _ r dd (c & Hc & Hi). ra. apply (proj2 (HR r dd)). exists c. auto. }
  destruct (reach_step t2 _ (TDelE e false) R2) as (t3 & E3 & R3). { cbn [tpre astep]. ra. split. congruence. intros _ g (b & Hb & Hi). revert Hb. ra. unfold kill, upd. destruct (Z.eqb_spec g f1) as [|G1]. discriminate. destruct (Z.eqb_spec g f0) as [|G0]. discriminate. intros Hb. destruct (HE g); auto. exists b. auto. }
  cbn [tstep] in E1, E2, E3. set (a3 := astep (astep (astep a (TDelF f0 false)) (TDelF f1 false)) (TDelE e false)) in *.
  assert (A3v : a_v a3 = a_v a) by reflexivity. assert (A3r : a_r a3 = a_r a) by reflexivity. assert (A3n : a_next a3 = n) by reflexivity.
  assert (A3e : forall g, a_e a3 g = if g =? e then None else a_e a g). { intros g. unfold a3. cbn [astep]. ra. unfold kill, upd. destruct (g =? e); auto. }
  assert (A3f : forall g, a_f a3 g = if (g =? f0) || (g =? f1) then None else a_f a g). { intros g. unfold a3. cbn [astep]. ra. unfold kill, upd. destruct (g =? f1) eqn:Q. rewrite orb_true_r. auto. rewrite orb_false_r. destruct (g =? f0); auto. }
  clearbody a3.
  assert (LV2 : live_v a3 v2). { unfold live_v. rewrite A3v. destruct L3 as ([p q] & Hy & H1 & H2). destruct (w_ends _ W _ _ _ Hy) as [Y1 Y2]. destruct (snd x3); cbn in H1, H2; subst; tauto. }
  assert (LV3 : live_v a3 v3). { unfold live_v. rewrite A3v. destruct L1 as ([p q] & Hy & H1 & H2). destruct (w_ends _ W _ _ _ Hy) as [Y1 Y2]. destruct (snd x1); cbn in H1, H2; subst; tauto. }
  destruct (new_edge_ok t3 a3 v2 v3 R3 LV2 LV3) as (t4 & t5 & a5 & E4 & E5 & En & R5 & A5v & A5f & A5r & A5n & A5e).
  assert (LD : forall x p q, leads a x p q -> fst x <> e -> leads a5 x p q). { intros x p q HL Hx. pose proof (Bx _ _ _ HL). destruct HL as (y & Hy & H1 & H2). exists y. split; auto. rewrite A5e, A3e, A3n. rewrite (proj2 (Z.eqb_neq (fst x) e) Hx). replace (fst x =? n) with false by (slim; lia). auto. }
  assert (X0 : e <> fst x0) by (apply (leads_diff _ _ _ _ _ _ _ Le0 L0); auto). assert (X1 : e <> fst x1) by (apply (leads_diff _ _ _ _ _ _ _ Le0 L1); auto). assert (X2 : e <> fst x2) by (apply (leads_diff _ _ _ _ _ _ _ Le0 L2); auto). assert (X3 : e <> fst x3) by (apply (leads_diff _ _ _ _ _ _ _ Le0 L3); auto).
  pose proof (LD _ _ _ L0 (not_eq_sym X0)) as K0. pose proof (LD _ _ _ L1 (not_eq_sym X1)) as K1. pose proof (LD _ _ _ L2 (not_eq_sym X2)) as K2. pose proof (LD _ _ _ L3 (not_eq_sym X3)) as K3.
  assert (X12 : fst x1 <> fst x2) by (apply (leads_diff _ _ _ _ _ _ _ L1 L2); auto). assert (X30 : fst x3 <> fst x0) by (apply (leads_diff _ _ _ _ _ _ _ L3 L0); auto).
  pose proof (Bx _ _ _ L0). pose proof (Bx _ _ _ L1). pose proof (Bx _ _ _ L2). pose proof (Bx _ _ _ L3).
  assert (Hn5 : forall d, edge_ok a5 (n, d)). { intros d. exists (v2, v3). cbn [fst]. rewrite A5e, A3n, Z.eqb_refl. auto. }
  destruct (new_face_ok t5 a5 [(n, true); x1; x2] R5) as (t6 & a6 & E6 & En6 & R6 & A6v & A6e & A6r & A6n & A6f).
  { cbn [map fst]. apply nd3; [slim; lia|slim; lia|auto]. } { cbn; lia. } { constructor; auto. constructor. eapply leads_ok; eauto. constructor. eapply leads_ok; eauto. constructor. }
  destruct (new_face_ok t6 a6 [(n, false); x3; x0] R6) as (t7 & a7 & E7 & En7 & R7 & A7v & A7e & A7r & A7n & A7f).
  { cbn [map fst]. apply nd3; [slim; lia|slim; lia|auto]. } { cbn; lia. } { assert (EQ : forall x, edge_ok a5 x -> edge_ok a6 x) by (intros x (p & Hp); exists p; rewrite A6e; auto). constructor; auto. constructor. apply EQ. eapply leads_ok; eauto. constructor. apply EQ. eapply leads_ok; eauto. constructor. }
  pose proof (reach_inv _ _ R5) as I5. pose proof (reach_inv _ _ R6) as I6.
  assert (ln : forall x p q, leads a5 x p q -> leads a6 x p q). { intros x p q (y & Hy & HH). exists y. split; auto. congruence. }
  exists t7, a7. split; [|split; [auto|split; [congruence|split; [congruence|split]]]].
  - assert (T2 : (2 =? 2) = true) by reflexivity. assert (T3 : forall x y z : ptr, (ZL [x; y; z] =? 3) = true) by reflexivity. assert (TL1 : forall x y z : ptr, lent [x; y; z] 1 = Ok y) by reflexivity. assert (TL2 : forall x y z : ptr, lent [x; y; z] 2 = Ok z) by reflexivity. unfold ME_Swap2D. rewrite T2. cbn [negb]. pose proof (vat_ok t a (e, true) I) as V0. pose proof (vend_ok t a (e, true) I) as V1. cbn [fst snd b2z] in V0, V1. change (lnot 1) with 0 in V0. rewrite V0, V1 by (exists (v0, v1); auto). unfold vat, vend. cbn [fst snd]. rewrite He. cbn [d_start d_end fst snd bind].
    rewrite EF. cbn [bind].
    assert (PK : exists g0 g1 d, negb (ZL l =? 2) = false /\ lent l 0 = Ok g0 /\ lent l 1 = Ok g1 /\ MF_EdgeDir t g0 e = Ok d /\ (if d =? 0 then (g1, g0) else (g0, g1)) = (f0, f1)).
    { destruct Hl as [-> | ->]. exists f0, f1, 1. rewrite ED0. auto. exists f1, f0, 0. rewrite ED1. auto. }
    destruct PK as (g0 & g1 & d & -> & -> & -> & PK1 & PK2). cbn [bind]. rewrite PK1. cbn [bind]. rewrite PK2. cbv iota beta. rewrite M0. cbn [bind]. rewrite T3. cbn [negb]. rewrite TL1, TL2. cbn [bind].
    pose proof (leads_other t a x0 v1 v3 true v1 I L0 D5 (or_introl eq_refl)) as O0. cbn [b2z] in O0. rewrite Z.eqb_refl in O0. rewrite O0. cbn [bind]. rewrite M1. cbn [bind]. rewrite T3. cbn [negb]. rewrite TL1, TL2. cbn [bind].
    pose proof (leads_other t a x3 v2 v1 false v1 I L3 (not_eq_sym D4) (or_intror eq_refl)) as O3. cbn [b2z] in O3. rewrite (proj2 (Z.eqb_neq v1 v2) D4) in O3. rewrite O3. cbn [bind].
    rewrite E1. cbn [bind]. rewrite E2. cbn [bind]. rewrite E3. cbn [bind]. destruct (ME_New t3) as [t30 en] eqn:EN3. cbn [fst snd] in E4, E5, En. subst en. rewrite E4. cbn [bind]. rewrite E5. cbn [bind].
    destruct (MF_New t5) as [t50 fn] eqn:EN5. cbn [fst snd] in E6, En6. subst fn.
    assert (FV : forall (t1 t2 : topo) x p, tes t1 = tes t2 -> from_v t1 x p = from_v t2 x p) by (intros ta tb x p HH; unfold from_v, ME_Vertex, gete; rewrite HH; auto).
    rewrite (FV t50 t5 (fst x1)), (FV t50 t5 (fst x2)) by (inversion EN5; auto). rewrite (leads_start t5 a5 x1 v3 v0 I5 K1), (leads_start t5 a5 x2 v0 v2 I5 K2) by auto. cbn [bind].
    change (Z.of_nat (length [(n, true); x1; x2])) with 3 in E6. unfold dirz in E6. cbn [map fst snd b2z] in E6. rewrite <- A3n in E6 at 1. rewrite A5n, A3n in *. cbn [fst snd b2z] in *. rewrite E6. cbn [bind].
    destruct (MF_New t6) as [t60 fn] eqn:EN6. cbn [fst snd] in E7, En7. subst fn.
    rewrite (FV t60 t6 (fst x3)), (FV t60 t6 (fst x0)) by (inversion EN6; auto). rewrite (leads_start t6 a6 x3 v2 v1 I6 (ln _ _ _ K3)), (leads_start t6 a6 x0 v1 v3 I6 (ln _ _ _ K0)) by auto. cbn [bind].
    change (Z.of_nat (length [(n, false); x3; x0])) with 3 in E7. unfold dirz in E7. cbn [map fst snd b2z] in E7. rewrite A6n in *. rewrite E7. cbn [bind]. do 4 f_equal. slim. lia.
  - intros g. rewrite A7e, A6e, A5e, A3e, A3n. destruct (g =? n); auto.
  - intros g. rewrite A7f, A6f, A6n, A5n, A3n. rewrite A5f, A3f. replace (n + 1 + 1) with (n + 2) by lia. destruct (Z.eqb_spec g (n + 2)), (Z.eqb_spec g (n + 1)); auto. slim; lia.
Qed.

(** ** A triangle on three vertices *)
Lemma tri_ok : forall t a g v p q, reach t a -> a_f a g = Some (true, None) -> live_v a v -> live_v a p -> live_v a q -> v <> p -> p <> q -> q <> v ->
  exists t' a' x1 x2 x3, MF_Set_Vertices t g 3 [v; p; q] = Ok t' /\ reach t' a' /\ a_v a' = a_v a /\ a_r a' = a_r a /\ a_next a <= a_next a' /\
    (forall e, e < a_next a -> a_e a' e = a_e a e) /\ (forall h, a_f a' h = if h =? g then Some (true, Some [x1; x2; x3]) else a_f a h) /\
    leads a' x1 v p /\ leads a' x2 p q /\ leads a' x3 q v /\
    (forall e, a_next a <= e -> a_e a' e <> None -> e = fst x1 \/ e = fst x2 \/ e = fst x3) /\
    (a_next a <= fst x1 -> forall e, ~ joins a e v p) /\ (a_next a <= fst x2 -> forall e, ~ joins a e p q) /\ (a_next a <= fst x3 -> forall e, ~ joins a e q v).
Proof.
  intros t a g v p q R Hg Lv Lp Lq N1 N2 N3. unfold MF_Set_Vertices. change (MAXPV2 <? 3) with false. cbv iota. change (zrange 0 3) with [0; 1; 2]. cbn [threadM].
  change (rdl [v; p; q] 0) with (Ok v). change (Z.rem (0 + 1) 3) with 1. change (rdl [v; p; q] 1) with (Ok p). change (Z.rem (1 + 1) 3) with 2. change (rdl [v; p; q] 2) with (Ok q). change (Z.rem (2 + 1) 3) with 0. change (rdl [v; p; q] 0) with (Ok v). cbn [bind].
  destruct (find_edge_ok t a v p R Lv Lp N1) as (t1 & a1 & x1 & E1 & R1 & G1 & F1 & L1 & O1 & J1). rewrite E1. cbn [bind].
  destruct (find_edge_ok t1 a1 p q R1 (grows_live _ _ G1 _ Lp) (grows_live _ _ G1 _ Lq) N2) as (t2 & a2 & x2 & E2 & R2 & G2 & F2 & L2 & O2 & J2). rewrite E2. cbn [bind].
  pose proof (grows_trans _ _ _ G1 G2) as G12.
  destruct (find_edge_ok t2 a2 q v R2 (grows_live _ _ G12 _ Lq) (grows_live _ _ G12 _ Lv) N3) as (t3 & a3 & x3 & E3 & R3 & G3 & F3 & L3 & O3 & J3). rewrite E3. cbn [bind map].
  pose proof (grows_trans _ _ _ G12 G3) as G13. pose proof (grows_trans _ _ _ G2 G3) as G23.
  apply (grows_leads t1 a1 a3 R1 G23) in L1. apply (grows_leads t2 a2 a3 R2 G3) in L2.
  assert (X12 : fst x1 <> fst x2) by (apply (leads_diff _ _ _ _ _ _ _ L1 L2); auto). assert (X13 : fst x1 <> fst x3) by (apply (leads_diff _ _ _ _ _ _ _ L1 L3); auto). assert (X23 : fst x2 <> fst x3) by (apply (leads_diff _ _ _ _ _ _ _ L2 L3); auto).
  destruct (reach_step t3 a3 (TSetEdges g [x1; x2; x3]) R3) as (t4 & E4 & R4).
  { cbn [tpre]. split. left. rewrite F3, F2, F1. auto. split. cbn [map]. apply nd3; auto. split. unfold maxfe. cbn. lia. constructor. exact (leads_ok _ _ _ _ L1). constructor. exact (leads_ok _ _ _ _ L2). constructor. exact (leads_ok _ _ _ _ L3). constructor. }
  exists t4, (astep a3 (TSetEdges g [x1; x2; x3])), x1, x2, x3. split. exact E4. split. exact R4. destruct G13 as [V1 V2 V3 V4 V5]. split; [exact V1|]. split; [exact V2|]. split; [exact V3|]. split; [exact V4|].
  split. { intros h. cbn [astep]. unfold set_fb, upd. cbn [with_f a_f]. rewrite F3, F2, F1. destruct (h =? g); auto. rewrite Hg. auto. }
  split; [exact L1|]. split; [exact L2|]. split; [exact L3|]. pose proof (g_n _ _ G1). pose proof (g_n _ _ G2). pose proof (g_n _ _ G3).
  split. { intros e He HN. change (a_e a3 e <> None) in HN. destruct (Z.lt_ge_cases e (a_next a2)) as [A2|A2]; [|right; right; apply O3; auto]. rewrite (g_e _ _ G3) in HN by auto. destruct (Z.lt_ge_cases e (a_next a1)) as [A1|A1]; [|right; left; apply O2; auto]. rewrite (g_e _ _ G2) in HN by auto. left. apply O1; auto. }
  split; [exact J1|]. split.
  - intros HN e HJ. destruct (Z.lt_ge_cases (fst x2) (a_next a1)) as [A|A]. { apply X12. symmetry. apply O1; auto. destruct L2 as (y & Hy & _). rewrite (g_e _ _ G23) in Hy by auto. congruence. } apply (J2 A e). apply (grows_joins t a a1 R G1). auto.
  - intros HN e HJ. destruct (Z.lt_ge_cases (fst x3) (a_next a2)) as [A|A].
    + destruct L3 as (y & Hy & _). rewrite (g_e _ _ G3) in Hy by auto. destruct (Z.lt_ge_cases (fst x3) (a_next a1)) as [A1|A1]. rewrite (g_e _ _ G2) in Hy by auto. apply X13. symmetry. apply O1; auto. congruence. apply X23. symmetry. apply O2; auto. congruence.
    + apply (J3 A e). apply (grows_joins t a a2 R G12). auto.
Qed.

(** ** The triangles around the new vertex *)
Definition neg (x : ptr * bool) : ptr * bool := (fst x, negb (snd x)).
Definition fan (sp b : list (ptr * bool)) (k : nat) : list (ptr * bool) := [nth k sp dflt; nth k b dflt; neg (nth (S k mod length b) sp dflt)].
Lemma leads_same : forall a x y p q, leads a x p q -> leads a y p q -> p <> q -> fst x = fst y -> x = y.
Proof. intros a [e d] [g h] p q (y & Hy & H1 & H2) (z & Hz & K1 & K2) N E. cbn [fst snd] in *. subst g. rewrite Hy in Hz. inversion Hz; subst z. f_equal. destruct y, d, h; cbn in *; subst; auto; congruence. Qed.
Lemma leads_flip : forall a x p q, leads a x p q -> leads a (neg x) q p.
Proof. intros a [e d] p q H. apply leads_neg. auto. Qed.
Lemma leads_joined : forall a x p q, leads a x p q -> joins a (fst x) p q.
Proof. exact leads_joins. Qed.
Lemma joins_sym : forall a e p q, joins a e p q -> joins a e q p.
Proof. intros a e p q (x & y & H & [K|K]); exists x, y; tauto. Qed.
Lemma joins_other : forall a e v p q, joins a e v p -> joins a e v q -> v <> p -> v <> q -> p = q.
Proof. intros a e v p q (x & y & H & K) (x' & y' & H' & K') N M. rewrite H in H'. inversion H'; subst x' y'. destruct K as [[-> ->]|[-> ->]], K' as [[? ?]|[? ?]]; subst; auto; congruence. Qed.

Section Fan.
Variables (t0 : topo) (a0 : amesh) (v : ptr) (vs : list ptr) (b : list (ptr * bool)).
Hypothesis R0 : reach t0 a0.
Hypothesis Lv : live_v a0 v.
Hypothesis LV : Forall (live_v a0) vs.
Hypothesis ND : NoDup vs.
Hypothesis NV : ~ In v vs.
Hypothesis LN : (3 <= length b)%nat.
Hypothesis FO : follows a0 vs b.
Hypothesis UN : forall i e, (i < length b)%nat -> joins a0 e (nth i vs NULL) (nth (S i mod length b) vs NULL) -> e = fst (nth i b dflt).
Hypothesis FR : forall e u, ~ joins a0 e v u.

Record fan_st (t : topo) (a : amesh) (fs : list ptr) (sp : list (ptr * bool)) (i : nat) : Prop := mkFan {
  fa_reach : reach t a;
  fa_v : a_v a = a_v a0;
  fa_r : a_r a = a_r a0;
  fa_n : a_next a0 <= a_next a;
  fa_e : forall e, e < a_next a0 -> a_e a e = a_e a0 e;
  fa_fl : length fs = i;
  fa_fnd : NoDup fs;
  fa_fb : forall g, In g fs -> a_next a0 <= g < a_next a;
  fa_fo : forall g, ~ In g fs -> a_f a g = a_f a0 g;
  fa_ff : forall k, (k < i)%nat -> a_f a (nth k fs NULL) = Some (true, Some (fan sp b k));
  fa_sl : length sp = (if (i =? 0)%nat then 0%nat else Nat.min (length b) (S i));
  fa_sp : forall k, (k < length sp)%nat -> leads a (nth k sp dflt) v (nth k vs NULL) /\ a_next a0 <= fst (nth k sp dflt);
  fa_so : forall e, a_next a0 <= e -> a_e a e <> None -> In e (map fst sp) }.

Lemma vs_len : length b = length vs.
Proof using FO. clear -FO. apply FO. Qed.
Lemma vs_neq : forall k, (k < length vs)%nat -> v <> nth k vs NULL.
Proof using NV. clear -NV. intros k Hk E. apply NV. rewrite E. apply nth_In. auto. Qed.
(** What joins the new vertex to another one is a spoke. *)
Lemma spoke : forall t a fs sp i e u, fan_st t a fs sp i -> joins a e v u -> v <> u -> exists k, (k < length sp)%nat /\ e = fst (nth k sp dflt) /\ u = nth k vs NULL.
Proof using FO NV FR LN. clear -FO NV FR LN.
  intros t a fs sp i e u [] HJ N. destruct (Z.lt_ge_cases e (a_next a0)) as [A|A].
  - exfalso. apply (FR e u). destruct HJ as (p & q & H & K). exists p, q. rewrite fa_e0 in H by auto. auto.
  - assert (X : In e (map fst sp)). { apply fa_so0; auto. destruct HJ as (p & q & H & _). congruence. }
    apply In_nth with (d := fst dflt) in X. destruct X as (k & Hk & X). rewrite map_length in Hk. rewrite map_nth in X. exists k. split; auto. split; auto. subst e. destruct (fa_sp0 k Hk) as (L & _). eapply joins_other; [exact HJ|apply leads_joins; exact L|auto|]. apply vs_neq. rewrite <- vs_len. destruct (i =? 0)%nat; lia.
Qed.
Lemma fan_ext : forall sp y k, (S k < length sp)%nat \/ (k < length sp /\ S k mod length b < length sp)%nat -> fan (sp ++ y) b k = fan sp b k.
Proof using LN. clear -LN. intros sp y k H. unfold fan. assert (M : (S k mod length b < length sp)%nat) by (destruct H; [|tauto]; assert (S k mod length b <= S k)%nat by (apply Nat.mod_le; lia); lia). rewrite !app_nth1 by lia. auto. Qed.

Lemma fan_step : forall t a fs sp i, fan_st t a fs sp i -> (i < length b)%nat -> exists t' a' g sp', split_tri vs v t (Z.of_nat i) = Ok (t', g) /\ fan_st t' a' (fs ++ [g]) sp' (S i).
Proof using All.
  intros t a fs sp i ST Hi. pose proof (fun e u => spoke t a fs sp i e u ST) as SPK. pose proof ST as []. pose proof vs_len as VL.
  set (j := (S i mod length b)%nat). assert (Hj : (j < length b)%nat) by (apply Nat.mod_upper_bound; lia).
  set (p := nth i vs NULL). set (q := nth j vs NULL).
  assert (Hpq : p <> q). { unfold p, q. intros X. apply nth_inj in X; auto; try lia. unfold j in X. destruct (Nat.eq_dec (S i) (length b)) as [Y|Y]. rewrite Y, Nat.mod_same in X by lia. lia. rewrite Nat.mod_small in X by lia. lia. }
  assert (Hvp : v <> p) by (apply vs_neq; lia). assert (Hvq : v <> q) by (apply vs_neq; lia).
  destruct (reach_step t a TNewF fa_reach0 I) as (t1 & E1 & R1). cbn [tstep] in E1. set (a1 := astep a TNewF) in *. pose proof (reach_inv _ _ fa_reach0) as I0.
  assert (A1n : a_next a1 = a_next a + 1) by reflexivity. assert (A1e : a_e a1 = a_e a) by reflexivity. assert (A1v : a_v a1 = a_v a) by reflexivity. assert (A1r : a_r a1 = a_r a) by reflexivity. assert (A1f : forall h, a_f a1 h = if h =? a_next a then Some (true, None) else a_f a h). { intros h. unfold a1. cbn [astep]. ra. unfold upd. auto. } clearbody a1.
  set (g := a_next a) in *. rewrite Forall_forall in LV.
  destruct (tri_ok t1 a1 g v p q R1) as (t2 & a2 & x1 & x2 & x3 & E2 & R2 & V & RR & NX & OLD & FF & L1 & L2 & L3 & NEW & J1 & J2 & J3); auto.
  { rewrite A1f, Z.eqb_refl. auto. } { unfold live_v. rewrite A1v, fa_v0. auto. } { unfold live_v. rewrite A1v, fa_v0. apply LV, nth_In. lia. } { unfold live_v. rewrite A1v, fa_v0. apply LV, nth_In. lia. }
  assert (NE : a_next a1 = g + 1) by (rewrite A1n; auto).
  assert (JA : forall e u w, joins a1 e u w <-> joins a e u w) by (intros; unfold joins; rewrite A1e; tauto).
  assert (OLDa : forall e, a_e a e <> None -> a_e a2 e = a_e a e). { intros e He. rewrite OLD, A1e; auto. pose proof (w_e _ (i_w _ _ I0) e He). fold g in H. lia. }
  assert (Lold : forall x u w, leads a x u w -> leads a2 x u w). { intros x u w (y & Hy & HH). exists y. split; auto. rewrite OLDa; congruence. }
  assert (Back : forall x u w, leads a2 x u w -> fst x < a_next a1 -> leads a x u w). { intros x u w (y & Hy & HH) HL. exists y. split; auto. rewrite OLD, A1e in Hy by auto. auto. }
  assert (G0 : a_next a0 <= g) by auto.
  (* an existing spoke is found again *)
  assert (FS : forall x k, (k < length sp)%nat -> leads a2 x v (nth k vs NULL) -> (a_next a1 <= fst x -> forall e, ~ joins a1 e v (nth k vs NULL)) -> x = nth k sp dflt).
  { intros x k Hk HL HN. assert (Hkv : (k < length vs)%nat) by (rewrite <- VL; destruct (i =? 0)%nat; lia). destruct (fa_sp0 k Hk) as (LS & _). destruct (Z.lt_ge_cases (fst x) (a_next a1)) as [A|A].
    - pose proof (Back _ _ _ HL A) as HL'. destruct (SPK (fst x) (nth k vs NULL) (leads_joins _ _ _ _ HL') (vs_neq k Hkv)) as (k' & Hk' & E & Ek). assert (k' = k). { symmetry. apply nth_inj in Ek; auto. rewrite <- VL. destruct (i =? 0)%nat; lia. } subst k'. eapply leads_same; [exact HL'|exact LS|apply vs_neq; auto|auto].
    - exfalso. apply (HN A (fst (nth k sp dflt))). apply JA. apply leads_joins. auto. }
  (* a missing one is new *)
  assert (FN : forall x k, (k < length b)%nat -> (length sp <= k)%nat -> leads a2 x v (nth k vs NULL) -> a_next a1 <= fst x).
  { intros x k Hk Hs HL. destruct (Z.lt_ge_cases (fst x) (a_next a1)) as [A|A]; auto. exfalso. pose proof (Back _ _ _ HL A) as HL'. destruct (SPK (fst x) (nth k vs NULL) (leads_joins _ _ _ _ HL')) as (k' & Hk' & _ & E). apply vs_neq; lia. apply nth_inj in E; auto; lia. }
  assert (X2 : x2 = nth i b dflt).
  { assert (LB : leads a0 (nth i b dflt) p q). { unfold p, q, j. destruct FO as (FL & FO'). rewrite FL. apply FO'. lia. }
    assert (LBa : leads a (nth i b dflt) p q). { destruct LB as (y & Hy & HH). exists y. split; auto. rewrite fa_e0; auto. apply (w_e _ (i_w _ _ (reach_inv _ _ R0))). congruence. }
    assert (A : fst x2 < a_next a1). { destruct (Z.lt_ge_cases (fst x2) (a_next a1)); auto. exfalso. apply (J2 H (fst (nth i b dflt))). apply JA, leads_joins; auto. }
    pose proof (Back _ _ _ L2 A) as L2'. eapply leads_same; [exact L2'|exact LBa|auto|]. apply UN; auto. fold p j. fold q. destruct (Z.lt_ge_cases (fst x2) (a_next a0)) as [B|B].
    - destruct (leads_joins _ _ _ _ L2') as (u & w & Hu & K). exists u, w. rewrite fa_e0 in Hu by auto. auto.
    - exfalso. assert (X : In (fst x2) (map fst sp)). { apply fa_so0; auto. destruct L2' as (y & Hy & _). congruence. } apply In_nth with (d := fst dflt) in X. destruct X as (k & Hk & X). rewrite map_length in Hk. rewrite map_nth in X. destruct (fa_sp0 k Hk) as (LS & _). apply leads_joins in LS. apply leads_joins in L2'. rewrite X in LS. destruct LS as (u & w & H & K). destruct L2' as (u' & w' & H' & K'). rewrite H in H'. inversion H'; subst u' w'. destruct K as [[-> ->]|[-> ->]], K' as [[? ?]|[? ?]]; congruence. }
  assert (Gf : forall h, In h fs -> h < g) by (intros h Hh; apply fa_fb0; auto).
  assert (SF : split_tri vs v t (Z.of_nat i) = Ok (t2, g)).
  { unfold split_tri. assert (EM : Z.rem (Z.of_nat i + 1) (ZL vs) = Z.of_nat j). { unfold ZL, j. rewrite Z.rem_mod_nonneg by lia. rewrite Nat2Z.inj_mod, VL. f_equal. lia. } rewrite EM. unfold lent. replace (Z.of_nat i <? 0) with false by lia. replace (Z.of_nat j <? 0) with false by lia. rewrite !Nat2Z.id. fold p q. cbn [bind].
    destruct (MF_New t) as [t1' g'] eqn:EN. cbn [fst] in E1. assert (t1' = t1) by congruence. subst t1'. assert (Eg : g' = g). { unfold g. rewrite <- (i_n _ _ I0). inversion EN. auto. } subst g'. rewrite E2. auto. }
  assert (FFg : forall sp', (forall k, (k < i)%nat -> fan sp' b k = fan sp b k) -> fan sp' b i = [x1; x2; x3] -> forall k, (k < S i)%nat -> a_f a2 (nth k (fs ++ [g]) NULL) = Some (true, Some (fan sp' b k))).
  { intros sp' H1 H2 k Hk. destruct (Nat.eq_dec k i) as [->|Hn]. rewrite app_nth2, fa_fl0, Nat.sub_diag by lia. cbn [nth]. rewrite FF, Z.eqb_refl, H2. auto. rewrite app_nth1 by lia. rewrite FF, A1f. assert (Hh : In (nth k fs NULL) fs) by (apply nth_In; lia). apply Gf in Hh. replace (nth k fs NULL =? g) with false by lia. rewrite fa_ff0 by lia. rewrite H1 by lia. auto. }
  assert (EOo : forall sp' : list (ptr * bool), (forall e, In e (map fst sp) -> In e (map fst sp')) -> (a_next a1 <= fst x1 -> In (fst x1) (map fst sp')) -> (a_next a1 <= fst x3 -> In (fst x3) (map fst sp')) -> forall e, a_next a0 <= e -> a_e a2 e <> None -> In e (map fst sp')).
  { intros sp' H1 H2 H3 e He HN. destruct (Z.lt_ge_cases e (a_next a1)) as [A|A]. rewrite OLD, A1e in HN by auto. auto. destruct (NEW e A HN) as [-> |[-> | ->]]; auto. exfalso. rewrite X2 in A. destruct FO as (_ & FO'). destruct (FO' i) as (y & Hy & _). lia. assert (a_e a0 (fst (nth i b dflt)) <> None) by congruence. apply (w_e _ (i_w _ _ (reach_inv _ _ R0))) in H. lia. }
  assert (BASE : forall sp' : list (ptr * bool), length sp' = Nat.min (length b) (S (S i)) -> (forall k, (k < length sp')%nat -> leads a2 (nth k sp' dflt) v (nth k vs NULL) /\ a_next a0 <= fst (nth k sp' dflt)) -> (forall k, (k < i)%nat -> fan sp' b k = fan sp b k) -> fan sp' b i = [x1; x2; x3] ->
    (forall e, In e (map fst sp) -> In e (map fst sp')) -> (a_next a1 <= fst x1 -> In (fst x1) (map fst sp')) -> (a_next a1 <= fst x3 -> In (fst x3) (map fst sp')) -> fan_st t2 a2 (fs ++ [g]) sp' (S i)).
  { intros sp' HL HS HK HI H1 H2 H3. constructor; auto.
    - congruence.
    - congruence.
    - lia.
    - intros e He. rewrite OLD, A1e by lia. auto.
    - rewrite app_length. cbn. lia.
    - apply nd_app. split; auto. split. constructor; [intros []|constructor]. intros h Hh [<-|[]]. apply Gf in Hh. lia.
    - intros h Hh. apply in_app_or in Hh. destruct Hh as [Hh|[<-|[]]]. apply fa_fb0 in Hh. fold g in Hh. lia. lia.
    - intros h Hh. rewrite in_app_iff in Hh. rewrite FF, A1f. destruct (Z.eqb_spec h g) as [->|]. cbn in Hh. tauto. auto. }
  pose proof (leads_flip _ _ _ _ L3) as L3'. assert (NN : forall x, neg (neg x) = x) by (intros [e d]; unfold neg; cbn; rewrite negb_involutive; auto).
  destruct (Nat.eq_dec i 0) as [I00|I00].
  - (* the first triangle *)
    assert (Hsp : sp = []) by (destruct sp; auto; rewrite I00 in fa_sl0; discriminate). assert (Ej : j = 1%nat) by (unfold j; rewrite I00; apply Nat.mod_small; lia).
    assert (N1 : a_next a1 <= fst x1). { apply (FN x1 0%nat). lia. rewrite Hsp; auto. unfold p in L1. rewrite I00 in L1. auto. }
    assert (N3 : a_next a1 <= fst x3). { apply (FN (neg x3) 1%nat). lia. rewrite Hsp; cbn; lia. unfold q in L3'. rewrite Ej in L3'. auto. }
    exists t2, a2, g, [x1; neg x3]. split; auto. apply BASE.
    + cbn [length]. lia.
    + intros k Hk. cbn [length] in Hk. destruct k as [|[|k]]; [| |lia]; cbn [nth]. split; [unfold p in L1; rewrite I00 in L1; exact L1|lia]. split; [unfold q in L3'; rewrite Ej in L3'; exact L3'|cbn [neg fst]; lia].
    + lia.
    + unfold fan. fold j. rewrite Ej, I00. cbn [nth]. rewrite NN. rewrite X2, I00. auto.
    + rewrite Hsp. intros e [].
    + intros _. cbn. auto.
    + intros _. cbn. auto.
  - assert (SL : length sp = Nat.min (length b) (S i)) by (rewrite fa_sl0; replace (i =? 0)%nat with false by lia; auto). assert (SLi : length sp = S i) by lia.
    assert (X1 : x1 = nth i sp dflt) by (apply FS; auto; lia).
    destruct (Nat.eq_dec (S i) (length b)) as [Li|Li].
    + (* the last one *)
      assert (Ej : j = 0%nat) by (unfold j; rewrite Li; apply Nat.mod_same; lia).
      assert (X3 : neg x3 = nth 0 sp dflt). { apply FS. lia. unfold q in L3'. rewrite Ej in L3'. auto. cbn [neg fst]. intros A e HJ. apply (J3 A e). apply joins_sym. unfold q. rewrite Ej. auto. }
      exists t2, a2, g, sp. split; auto. apply BASE.
      * lia.
      * intros k Hk. destruct (fa_sp0 k Hk) as (LS & B). split; auto.
      * auto.
      * unfold fan. fold j. rewrite Ej, <- X3, NN, <- X1, X2. auto.
      * auto.
      * intros _. rewrite X1. apply in_map. apply nth_In. lia.
      * intros _. change (fst x3) with (fst (neg x3)). rewrite X3. apply in_map. apply nth_In. lia.
    + (* one in between *)
      assert (Ej : j = S i) by (unfold j; apply Nat.mod_small; lia).
      assert (N3 : a_next a1 <= fst x3). { apply (FN (neg x3) (S i)); try lia. unfold q in L3'. rewrite Ej in L3'. auto. }
      exists t2, a2, g, (sp ++ [neg x3]). split; auto. apply BASE.
      * rewrite app_length. cbn. lia.
      * intros k Hk. rewrite app_length in Hk. cbn [length] in Hk. destruct (Nat.eq_dec k (length sp)) as [->|Hn]. rewrite app_nth2, Nat.sub_diag by lia. cbn [nth neg fst]. split; [unfold q in L3'; rewrite Ej, <- SLi in L3'; exact L3'|lia]. rewrite app_nth1 by lia. destruct (fa_sp0 k) as (LS & B). lia. split; auto.
      * intros k Hk. apply fan_ext. left. lia.
      * unfold fan. fold j. rewrite Ej. rewrite app_nth1 by lia. rewrite (app_nth2 sp) by lia. replace (S i - length sp)%nat with 0%nat by lia. cbn [nth]. rewrite NN, <- X1, X2. auto.
      * intros e He. rewrite map_app, in_app_iff. auto.
      * intros _. rewrite X1, map_app, in_app_iff. left. apply in_map, nth_In. lia.
      * intros _. rewrite map_app, in_app_iff. right. left. auto.
Qed.

Lemma fan_all : exists t' a' fs sp, threadM (split_tri vs v) t0 (zrange 0 (ZL vs)) = Ok (t', fs) /\ fan_st t' a' fs sp (length b).
Proof using All.
  pose proof vs_len as VL.
  destruct (thread_ind _ _ (split_tri vs v) (fun t1 done ys => exists a1 sp, fan_st t1 a1 ys sp (length done)) (zrange 0 (ZL vs)) t0) as (t' & ys & E & a' & sp & ST).
  - exists a0, []. constructor; auto; try lia. constructor. intros g []. cbn; lia. intros k Hk. cbn in Hk. lia. intros e He HN. apply (w_e _ (i_w _ _ (reach_inv _ _ R0))) in HN. lia.
  - intros t done i rest ys EL (a1 & sp & ST).
    assert (Hi : i = Z.of_nat (length done) /\ (length done < length b)%nat). { assert (HL : (length done < length (zrange 0 (ZL vs)))%nat) by (rewrite EL, app_length; cbn; lia). pose proof (nth_middle done rest i 0) as X. rewrite <- EL in X. rewrite zrange_length in HL. rewrite nth_zrange in X by lia. unfold ZL in HL. lia. }
    destruct Hi as [-> Hi]. destruct (fan_step t a1 ys sp (length done) ST Hi) as (t' & a' & g & sp' & E & ST'). exists t', g. split; auto. exists a', sp'. rewrite app_length. cbn [length]. rewrite Nat.add_1_r. auto.
  - exists t', a', ys, sp. split; auto. rewrite zrange_length in ST. unfold ZL in ST. rewrite VL. replace (Z.to_nat (Z.of_nat (length vs) - 0)) with (length vs) in ST by lia. auto.
Qed.
End Fan.
