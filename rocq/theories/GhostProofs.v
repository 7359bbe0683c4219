(** Invariants of adding ghosts to a part: after PartProofs.v, for any set [inp] of entities
    that are to be in the submesh. *)
From Coq Require Import ZArith Bool Floats.SpecFloat List Lia Arith ZifyBool ZifyNat.
From Verif Require Import Base BaseProofs ListSpec AttModel AttProps TopoModel TopoSpec TopoProofs TopoProofs2 TopoProofs3 TopoProofs5 TopoProps TopoProps2 CellProofs2 ParModel BuildProofs2 FileModel FileSpec FileProofs3 FileProofs4 SendModel SendSpec SendProofs2 PartModel PartSpec PartProofs GhostModel GhostSpec.
Import ListNotations.
Open Scope Z_scope.

Section Making.
Variables (s : smesh) (a : amesh) (k : Z) (s' sub0 : smesh) (o0 : ptr -> ptr) (g2l0 : ptr -> list (Z * ptr)) (inp : ptr -> Prop).
Hypothesis P : partable s a.
Notation K := (skind s).
Notation c := (celldim s).
Hypothesis Hs' : sm_m s' = sm_m s.
Hypothesis ip_face : forall r f d, inp r -> has_face a r f d -> inp f.
Hypothesis ip_edge : forall f e, inp f -> has_edge a f e -> inp e.
Hypothesis ip_vertex : forall e v, inp e -> is_end a e v -> inp v.
Hypothesis Hfull : forall d g, In g (K d) -> inp g -> g2l0 g <> [].
Hypothesis HM : forall d g, In g (K d) -> inp g -> 0 <= pi_master (sm_p s' g) < 2 ^ 29.

Lemma K_apart : forall d d' p, In p (K d) -> In p (K d') -> d = d'.
Proof using All. apply (kinds_apart s a); apply P. Qed.
Lemma K_null : forall d p, In p (K d) -> p <> NULL.
Proof using All.
  intros d p H. pose proof (i_w _ _ (reach_inv _ _ (pa_reach _ _ P))) as W. unfold NULL. destruct (kind_cases _ _ _ H) as [-> | [-> | [-> | ->]]].
  - apply (pa_v _ _ P) in H. unfold live_v in H. assert (1 <= p < a_next a) by (apply (w_v _ W); congruence). lia.
  - apply (pa_e _ _ P) in H. destruct H as [x H]. assert (1 <= p < a_next a) by (apply (w_e _ W); congruence). lia.
  - apply (pa_f _ _ P) in H. destruct H as [x H]. assert (1 <= p < a_next a) by (apply (w_f _ W); congruence). lia.
  - apply (pa_r _ _ P) in H. destruct H as [x H]. assert (1 <= p < a_next a) by (apply (w_r _ W); congruence). lia.
Qed.
Record TI (O : list ptr) (o : ptr -> ptr) (sub : smesh) (a' : amesh) : Prop := mkTI {
  t_reach : reach (sm_t sub) a';
  t_nd : forall d, NoDup (skind sub d);
  t_v : forall q, In q (skind sub 0) <-> live_v a' q;
  t_e : forall q, In q (skind sub 1) <-> live_e a' q;
  t_f : forall q, In q (skind sub 2) <-> live_f a' q;
  t_r : forall q, In q (skind sub 3) <-> live_r a' q;
  t_id : forall d i q, nth_error (skind sub d) i = Some q -> fm_id (sm_m sub) q = Z.of_nat i + 1;
  t_open : forall q, In q O -> exists d, In q (skind sub d);
  t_o : forall d q, In q (skind sub d) -> In (o q) (K d) /\ inp (o q);
  t_inj : forall d q d' q', In q (skind sub d) -> In q' (skind sub d') -> o q = o q' -> q = q';
  t_ends : forall q, In q (skind sub 1) -> ~ In q O -> exists u w, a_e a' q = Some (true, (u, w)) /\ a_e a (o q) = Some (true, (o u, o w)) /\ In u (skind sub 0) /\ In w (skind sub 0);
  t_loop : forall q, In q (skind sub 2) -> ~ In q O -> exists b, a_f a' q = Some (true, Some b) /\ a_f a (o q) = Some (true, Some (via o b)) /\ (forall x, In x b -> In (fst x) (skind sub 1));
  t_faces : forall q, In q (skind sub 3) -> ~ In q O -> exists b, a_r a' q = Some (true, Some b) /\ a_r a (o q) = Some (true, Some (via o b)) /\ (forall x, In x b -> In (fst x) (skind sub 2));
  t_x : forall q, In q (skind sub 0) -> fm_x (sm_m sub) q = fm_x (sm_m s) (o q);
  t_c : forall d q, In q (skind sub d) -> fm_c (sm_m sub) q = fm_c (sm_m s) (o q) }.
Definition tnew (d : Z) : top := if d =? 0 then TNewV else if d =? 1 then TNewE else if d =? 2 then TNewF else TNewR.
Definition grown (d : Z) (sub : smesh) (g : ptr) (m : fmesh) (N : ptr) : Prop :=
  (forall x, kind m x = if x =? d then skind sub x ++ [N] else skind sub x) /\
  (forall q, fm_id m q = if q =? N then ZL (skind sub d) + 1 else fm_id (sm_m sub) q) /\
  (forall q, fm_c m q = if q =? N then fm_c (sm_m s) g else fm_c (sm_m sub) q) /\
  (forall q, q <> N -> fm_x m q = fm_x (sm_m sub) q) /\ (d = 0 -> fm_x m N = fm_x (sm_m s) g).
Definition made (d : Z) (st : pst) (g : ptr) : fmesh * ptr :=
  let '(m, l) := add_ent d (sm_m (ps_sub st)) in
  let m := if d =? 0 then set_x m l (fm_x (sm_m (ps_par st)) g) else m in
  (set_info m l (fm_c (sm_m (ps_par st)) g) (fm_id m l), l).
Lemma made_ok : forall d st g a', reach (sm_t (ps_sub st)) a' -> sm_m (ps_par st) = sm_m s -> In g (K d) ->
  exists m, made d st g = (m, a_next a') /\ grown d (ps_sub st) g m (a_next a') /\ reach (fm_t m) (astep a' (tnew d)).
Proof using All.
  intros d st g a' R EM Hg. destruct (pa_class _ _ P _ _ Hg) as [C1 C2]. pose proof (reach_inv _ _ R) as I.
  destruct (reach_step _ _ (tnew d) R) as (t1 & S1 & R1). { unfold tnew. destruct (d =? 0), (d =? 1), (d =? 2); exact Logic.I. }
  unfold made. rewrite EM. destruct (fm_c (sm_m s) g) as [c1 c2] eqn:EC. cbn [fst snd] in C1, C2.
  destruct (kind_cases _ _ _ Hg) as [-> | [-> | [-> | ->]]]; unfold add_ent; cbn [Z.eqb Pos.eqb]; unfold add_v, add_e, add_f, add_r, new_v, new_e, new_f, new_r, tnew in *; cbn [Z.eqb Pos.eqb tstep] in *; unfold sm_t in *;
    unfold MV_New, ME_New, MF_New, MR_New in *; inversion S1 as [S1']; clear S1; cbn [fst snd] in *; cbv beta iota zeta; rewrite (i_n _ _ I) in *; eexists; (split; [reflexivity|]); (split; [|cbn [fm_t set_info set_id set_x]; rewrite S1'; exact R1]).
  all: unfold grown; cbn [fm_t fm_c fm_x fm_id fm_v fm_e fm_f fm_r set_info set_id set_x fst snd]; rewrite (Z.mod_small c1 (2^3)), (Z.mod_small c2 (2^26)) by lia; unfold zupd; rewrite ?Z.eqb_refl.
  all: split; [intro x; unfold skind, kind; cbn [fm_v fm_e fm_f fm_r]; destruct (Z.eqb_spec x 0) as [->|]; [reflexivity|]; destruct (Z.eqb_spec x 1) as [->|]; [reflexivity|]; destruct (Z.eqb_spec x 2) as [->|]; [reflexivity|]; destruct (Z.eqb_spec x 3) as [->|]; reflexivity|].
  all: split; [intro q; destruct (q =? a_next a') eqn:Q; rewrite ?Q; reflexivity|].
  all: split; [intro q; rewrite ?EC; destruct (q =? a_next a'); reflexivity|].
  all: split; [intros q N; destruct (Z.eqb_spec q (a_next a')); [congruence|reflexivity]|].
  all: intro H0; try discriminate H0; reflexivity.
Qed.
Lemma grown_in : forall d sub g m N x q, grown d sub g m N -> In q (kind m x) -> (In q (skind sub x)) \/ (x = d /\ q = N).
Proof using All. intros d sub g m N x q (E & _) H. rewrite E in H. destruct (Z.eqb_spec x d) as [->|]; auto. apply in_app_or in H. destruct H as [H|[H|[]]]; auto. Qed.
Lemma grown_old : forall d sub g m N x q, grown d sub g m N -> In q (skind sub x) -> In q (kind m x).
Proof using All. intros d sub g m N x q (E & _) H. rewrite E. destruct (Z.eqb_spec x d) as [->|]; auto. apply in_or_app; auto. Qed.
Lemma grown_new : forall d sub g m N, grown d sub g m N -> In N (kind m d).
Proof using All. intros d sub g m N (E & _). rewrite E, Z.eqb_refl. apply in_or_app; cbn; auto. Qed.
Lemma sub_below : forall O o sub a' d q, TI O o sub a' -> In q (skind sub d) -> q <> a_next a'.
Proof using All.
  intros O o sub a' d q T H. pose proof (i_w _ _ (reach_inv _ _ (t_reach _ _ _ _ T))) as W. intros ->. destruct (kind_cases _ _ _ H) as [-> | [-> | [-> | ->]]].
  - apply (t_v _ _ _ _ T) in H. unfold live_v in H. assert (1 <= a_next a' < a_next a') by (apply (w_v _ W); congruence). lia.
  - apply (t_e _ _ _ _ T) in H. destruct H as [x H]. assert (1 <= a_next a' < a_next a') by (apply (w_e _ W); congruence). lia.
  - apply (t_f _ _ _ _ T) in H. destruct H as [x H]. assert (1 <= a_next a' < a_next a') by (apply (w_f _ W); congruence). lia.
  - apply (t_r _ _ _ _ T) in H. destruct H as [x H]. assert (1 <= a_next a' < a_next a') by (apply (w_r _ W); congruence). lia.
Qed.
Lemma via_ext : forall o o' b, (forall x, In x b -> o' (fst x) = o (fst x)) -> via o' b = via o b.
Proof using All. intros o o' b H. unfold via. apply map_ext_in. intros x Hx. rewrite H; auto. Qed.
Lemma ti_new : forall d O o sub a' g m sub', TI O o sub a' -> grown d sub g m (a_next a') -> reach (fm_t m) (astep a' (tnew d)) -> sm_m sub' = m -> In g (K d) -> inp g -> (forall x q, In q (skind sub x) -> o q <> g) ->
  TI (a_next a' :: O) (zupd o (a_next a') g) sub' (astep a' (tnew d)).
Proof using All.
  intros d O o sub a' g m sub' T GR R1 Em Hg Ig Ng. set (N := a_next a') in *. set (o' := zupd o N g).
  assert (EK : forall x, skind sub' x = kind m x) by (intro x; unfold skind; rewrite Em; auto).
  assert (ON : o' N = g) by (unfold o', zupd; rewrite Z.eqb_refl; auto).
  assert (OO : forall x q, In q (skind sub x) -> o' q = o q) by (intros x q H; unfold o', zupd; destruct (Z.eqb_spec q N) as [->|]; auto; destruct (sub_below _ _ _ _ _ _ T H); auto).
  assert (NO : forall x, ~ In N (skind sub x)) by (intros x H; destruct (sub_below _ _ _ _ _ _ T H); auto).
  assert (D : d = 0 \/ d = 1 \/ d = 2 \/ d = 3) by (eapply kind_cases; eauto).
  destruct GR as (GR1 & GR2 & GR3 & GR4 & GR5). assert (GR : grown d sub g m N) by (repeat split; auto).
  pose proof (reach_apart _ _ (t_reach _ _ _ _ T) N) as [_ FR]. destruct (FR (Z.le_refl _)) as (FV & FE & FF & FRr). clear FR.
  assert (TV : forall q, a_v (astep a' (tnew d)) q = if (d =? 0) && (q =? N) then Some true else a_v a' q) by (intro q; destruct D as [-> | [-> | [-> | ->]]]; cbn; unfold upd; fold N; auto; destruct (q =? N); auto).
  assert (TE : forall q, a_e (astep a' (tnew d)) q = if (d =? 1) && (q =? N) then Some (true, (NULL, NULL)) else a_e a' q) by (intro q; destruct D as [-> | [-> | [-> | ->]]]; cbn; unfold upd; fold N; auto; destruct (q =? N); auto).
  assert (TF : forall q, a_f (astep a' (tnew d)) q = if (d =? 2) && (q =? N) then Some (true, None) else a_f a' q) by (intro q; destruct D as [-> | [-> | [-> | ->]]]; cbn; unfold upd; fold N; auto; destruct (q =? N); auto).
  assert (TR : forall q, a_r (astep a' (tnew d)) q = if (d =? 3) && (q =? N) then Some (true, None) else a_r a' q) by (intro q; destruct D as [-> | [-> | [-> | ->]]]; cbn; unfold upd; fold N; auto; destruct (q =? N); auto).
  assert (EX : forall x q, In q (skind sub' x) <-> In q (skind sub x) \/ (x = d /\ q = N)).
  { intros x q. rewrite EK. split; [apply grown_in with g; auto|]. intros [H|[-> ->]]; [eapply grown_old; eauto|eapply grown_new; eauto]. }
  assert (CL : forall x q, In q (skind sub' x) -> ~ In q (N :: O) -> In q (skind sub x) /\ ~ In q O).
  { intros x q H Q. cbn in Q. apply EX in H. destruct H as [H|[_ ->]]; tauto. }
  constructor.
  - unfold sm_t. rewrite Em. exact R1.
  - intro x. rewrite EK, GR1. destruct (Z.eqb_spec x d) as [->|]; [|apply (t_nd _ _ _ _ T)]. apply nd_app. split; [apply (t_nd _ _ _ _ T)|]. split; [repeat constructor; cbn; tauto|]. intros q H [<-|[]]. eapply NO; eauto.
  - intro q. rewrite EX, (t_v _ _ _ _ T). unfold live_v. rewrite TV. destruct (Z.eqb_spec d 0) as [->|Q], (Z.eqb_spec q N) as [->|Q']; cbn [andb]; try tauto. all: intuition; try congruence.
  - intro q. rewrite EX, (t_e _ _ _ _ T). unfold live_e. rewrite TE. destruct (Z.eqb_spec d 1) as [->|Q], (Z.eqb_spec q N) as [->|Q']; cbn [andb]; try tauto. 1: split; eauto. all: intuition; try congruence.
  - intro q. rewrite EX, (t_f _ _ _ _ T). unfold live_f. rewrite TF. destruct (Z.eqb_spec d 2) as [->|Q], (Z.eqb_spec q N) as [->|Q']; cbn [andb]; try tauto. 1: split; eauto. all: intuition; try congruence.
  - intro q. rewrite EX, (t_r _ _ _ _ T). unfold live_r. rewrite TR. destruct (Z.eqb_spec d 3) as [->|Q], (Z.eqb_spec q N) as [->|Q']; cbn [andb]; try tauto. 1: split; eauto. all: intuition; try congruence.
  - intros x i q H. rewrite EK, GR1 in H. rewrite Em, GR2. destruct (Z.eqb_spec x d) as [->|Q].
    + destruct (Nat.lt_ge_cases i (length (skind sub d))) as [L|L].
      * rewrite nth_error_app1 in H by auto. assert (q <> N) by (intros ->; apply nth_error_In in H; eapply NO; eauto). replace (q =? N) with false by lia. eapply t_id; eauto.
      * rewrite nth_error_app2 in H by auto. destruct (i - length (skind sub d))%nat as [|j] eqn:Ej; [|destruct j; discriminate]. cbn in H. inversion H; subst q. rewrite Z.eqb_refl. unfold ZL. lia.
    + assert (q <> N) by (intros ->; apply nth_error_In in H; eapply NO; eauto). replace (q =? N) with false by lia. eapply t_id; eauto.
  - intros q [<-|H]. { exists d. apply EX. auto. } destruct (t_open _ _ _ _ T _ H) as [x Hx]. exists x. apply EX. auto.
  - intros x q H. apply EX in H. destruct H as [H|[-> ->]]; [rewrite (OO _ _ H); eapply t_o; eauto|rewrite ON; auto].
  - intros x q x' q' H H' E. apply EX in H. apply EX in H'. destruct H as [H|[-> ->]], H' as [H'|[-> ->]]; auto.
    + rewrite (OO _ _ H), (OO _ _ H') in E. eapply t_inj; eauto.
    + rewrite (OO _ _ H), ON in E. destruct (Ng _ _ H E).
    + rewrite (OO _ _ H'), ON in E. symmetry in E. destruct (Ng _ _ H' E).
  - intros q H Q. destruct (CL _ _ H Q) as [H1 H2]. destruct (t_ends _ _ _ _ T _ H1 H2) as (u & w & E1 & E2 & U & W). exists u, w. rewrite TE. assert (q <> N) by (intros ->; eapply NO; eauto). replace (q =? N) with false by lia. rewrite andb_false_r.
    rewrite (OO _ _ H1), (OO _ _ U), (OO _ _ W). split; auto. split; auto. split; apply EX; auto.
  - intros q H Q. destruct (CL _ _ H Q) as [H1 H2]. destruct (t_loop _ _ _ _ T _ H1 H2) as (b & E1 & E2 & B). exists b. rewrite TF. assert (q <> N) by (intros ->; eapply NO; eauto). replace (q =? N) with false by lia. rewrite andb_false_r.
    rewrite (OO _ _ H1), (via_ext o) by (intros y Hy; eapply OO; eauto). split; auto. split; auto. intros y Hy. apply EX. auto.
  - intros q H Q. destruct (CL _ _ H Q) as [H1 H2]. destruct (t_faces _ _ _ _ T _ H1 H2) as (b & E1 & E2 & B). exists b. rewrite TR. assert (q <> N) by (intros ->; eapply NO; eauto). replace (q =? N) with false by lia. rewrite andb_false_r.
    rewrite (OO _ _ H1), (via_ext o) by (intros y Hy; eapply OO; eauto). split; auto. split; auto. intros y Hy. apply EX. auto.
  - intros q H. rewrite Em. apply EX in H. destruct H as [H|[<- ->]].
    + rewrite GR4 by (intros ->; eapply NO; eauto). rewrite (OO _ _ H). eapply t_x; eauto.
    + rewrite GR5, ON; auto.
  - intros x q H. rewrite Em, GR3. apply EX in H. destruct H as [H|[-> ->]].
    + assert (q <> N) by (intros ->; eapply NO; eauto). replace (q =? N) with false by lia. rewrite (OO _ _ H). eapply t_c; eauto.
    + rewrite Z.eqb_refl, ON; auto.
Qed.

Record GB (O : list ptr) (o : ptr -> ptr) (st : pst) : Prop := mkGB {
  b_par : ps_par st = s';
  b_find : forall g, (found k st g = None /\ forall d q, In q (skind (ps_sub st) d) -> o q = g -> In q O) \/ (exists d l, found k st g = Some l /\ In l (skind (ps_sub st) d) /\ ~ In l O /\ o l = g);
  b_keep : forall g, exists ks, ps_g2l st g = g2l0 g ++ ks /\ (forall x, In x ks -> fst x = k /\ exists d, In (snd x) (skind (ps_sub st) d) /\ o (snd x) = g);
  b_l2g : forall d q, In q (skind (ps_sub st) d) -> ~ In q O -> ps_l2g st q = o q;
  b_old : forall d q, In q (skind sub0 d) -> In q (skind (ps_sub st) d) /\ o q = o0 q /\ sm_p (ps_sub st) q = sm_p sub0 q;
  b_new : forall d q, In q (skind (ps_sub st) d) -> In q (skind sub0 d) \/ sm_p (ps_sub st) q = mkPI PGHOST false (pi_master (sm_p s' (o q))) (pi_gid (sm_p s' (o q)));
  b_fresh : forall q, (forall d, ~ In q (skind (ps_sub st) d)) -> pi_bdry (sm_p (ps_sub st) q) = false;
  b_nd : forall g, NoDup (map fst (g2l0 g)) -> NoDup (map fst (ps_g2l st g)) }.
Definition SI (O : list ptr) (o : ptr -> ptr) (st : pst) (a' : amesh) : Prop := TI O o (ps_sub st) a' /\ GB O o st.
Lemma b_m : forall O o st, GB O o st -> sm_m (ps_par st) = sm_m s.
Proof using All. intros O o st B. rewrite (b_par _ _ _ B). auto. Qed.
Lemma ghost_ok : forall d O o st m a' g, TI O o (ps_sub st) a' -> GB O o st -> In g (K d) -> inp g -> (forall x q, In q (skind (ps_sub st) x) -> o q <> g) ->
  (forall x, kind m x = if x =? d then skind (ps_sub st) x ++ [a_next a'] else skind (ps_sub st) x) ->
  let st2 := ghost k d (set_sub st (with_m (ps_sub st) m)) g (a_next a') in
  GB (a_next a' :: O) (zupd o (a_next a') g) st2 /\ sm_m (ps_sub st2) = m /\ ps_g2l st2 = ps_g2l st.
Proof using All.
  intros d O o st m a' g T B Hg Ig Ng EK st2. set (N := a_next a') in *. set (o' := zupd o N g).
  assert (ON : o' N = g) by (unfold o', zupd; rewrite Z.eqb_refl; auto).
  assert (NO : forall x, ~ In N (skind (ps_sub st) x)) by (intros x H; destruct (sub_below _ _ _ _ _ _ T H); auto).
  assert (OO : forall x q, In q (skind (ps_sub st) x) -> o' q = o q) by (intros x q H; unfold o', zupd; destruct (Z.eqb_spec q N) as [->|]; auto; destruct (NO _ H)).
  assert (E0 : sm_m (ps_sub st2) = m) by reflexivity.
  assert (EX : forall x q, In q (skind (ps_sub st2) x) <-> In q (skind (ps_sub st) x) \/ (x = d /\ q = N)).
  { intros x q. unfold skind at 1. rewrite E0, EK. destruct (Z.eqb_spec x d) as [->|Q]; [|tauto]. rewrite in_app_iff. cbn. intuition. }
  assert (EP : forall q, sm_p (ps_sub st2) q = if q =? N then mkPI PGHOST false (pi_master (sm_p s' g)) (pi_gid (sm_p s' g)) else sm_p (ps_sub st) q).
  { intro q. unfold st2, ghost, set_sub, set_gid, set_master, set_ptype, set_pi, with_m, zupd. cbn [ps_sub ps_par sm_p sm_m pi_gid pi_bdry pi_ptype pi_master]. rewrite !Z.eqb_refl. destruct (Z.eqb_spec q N) as [->|]; auto. cbn [pi_gid pi_bdry pi_ptype pi_master]. rewrite (b_par _ _ _ B), (b_fresh _ _ _ B) by auto. rewrite (Z.mod_small (pi_master _)) by eauto. reflexivity. }
  assert (EF : forall x, found k st2 x = found k st x) by reflexivity.
  split; [|split; reflexivity]. constructor.
  - exact (b_par _ _ _ B).
  - intro x. rewrite EF. destruct (b_find _ _ _ B x) as [[E H]|(y & l & H1 & H2 & H3 & H4)].
    + left. split; auto. intros y q H' E'. apply EX in H'. destruct H' as [H'|[-> ->]]; [|left; auto]. right. eapply H; eauto. rewrite <- E'. symmetry. eapply OO; eauto.
    + right. exists y, l. split; auto. split; [apply EX; auto|]. split; [|rewrite (OO _ _ H2); auto]. intros [<-|Q]; [eapply NO; eauto|auto].
  - intro x. destruct (b_keep _ _ _ B x) as (ks & E & H). exists ks. split; auto. intros y Hy. destruct (H _ Hy) as (H1 & e & H2 & H3). split; auto. exists e. rewrite (OO _ _ H2). split; auto. apply EX. auto.
  - intros x q H Q. apply EX in H. destruct H as [H|[-> ->]]; [|destruct Q; left; auto]. rewrite (OO _ _ H). apply (b_l2g _ _ _ B x); auto. intro. apply Q. right; auto.
  - intros x q H. destruct (b_old _ _ _ B _ _ H) as (H1 & H2 & H3). split; [apply EX; auto|]. rewrite (OO _ _ H1). split; auto. rewrite EP. destruct (Z.eqb_spec q N) as [->|]; auto. destruct (NO _ H1).
  - intros x q H. rewrite EP. apply EX in H. destruct H as [H|[-> ->]].
    + destruct (Z.eqb_spec q N) as [->|]; [destruct (NO _ H)|]. rewrite (OO _ _ H). apply (b_new _ _ _ B). auto.
    + right. rewrite Z.eqb_refl, ON. auto.
  - intros q H. rewrite EP. destruct (Z.eqb_spec q N) as [->|]; auto. apply (b_fresh _ _ _ B). intros x Hx. apply (H x). apply EX. auto.
  - exact (b_nd _ _ _ B).
Qed.

(** What copying something of dimension at most [d0] does to what was there. *)
Definition ext (d0 : Z) (O : list ptr) (o : ptr -> ptr) (st : pst) (a' : amesh) (o2 : ptr -> ptr) (st2 : pst) (a2 : amesh) : Prop :=
  (forall x, d0 < x -> skind (ps_sub st2) x = skind (ps_sub st) x) /\ (forall x q, In q (skind (ps_sub st) x) -> In q (skind (ps_sub st2) x) /\ o2 q = o q) /\
  (forall q, In q O -> a_e a2 q = a_e a' q /\ a_f a2 q = a_f a' q /\ a_r a2 q = a_r a' q).
Lemma ext_refl : forall d O o st a', ext d O o st a' o st a'.
Proof using All. intros. split; auto. Qed.
Lemma ext_trans : forall d d' O O' o st a' o2 st2 a2 o3 st3 a3, d <= d' -> (forall q, In q O' -> In q O) -> ext d O o st a' o2 st2 a2 -> ext d' O' o2 st2 a2 o3 st3 a3 -> ext d' O' o st a' o3 st3 a3.
Proof using All.
  intros d d' O O' o st a' o2 st2 a2 o3 st3 a3 L IO (A & B & C) (A' & B' & C'). split; [|split].
  - intros x Hx. rewrite A', A; auto. lia.
  - intros x q H. destruct (B _ _ H) as [H1 H2]. destruct (B' _ _ H1) as [H3 H4]. split; auto. congruence.
  - intros q H. destruct (C _ (IO _ H)) as (H1 & H2 & H3). destruct (C' _ H) as (H4 & H5 & H6). split; [|split]; congruence.
Qed.
Lemma ext_le : forall d d' O O' o st a' o2 st2 a2, d <= d' -> (forall q, In q O' -> In q O) -> ext d O o st a' o2 st2 a2 -> ext d' O' o st a' o2 st2 a2.
Proof using All. intros d d' O O' o st a' o2 st2 a2 L IO (A & B & C). split; [|split; auto]. intros x Hx. apply A. lia. Qed.
Definition hi (d : Z) (O : list ptr) (sub : smesh) : Prop := forall q x, In q O -> In q (skind sub x) -> d < x.
Lemma sub_apart : forall O o sub a' d d' q, TI O o sub a' -> In q (skind sub d) -> In q (skind sub d') -> d = d'.
Proof using All. intros O o sub a' d d' q T. apply (kinds_apart sub a'); apply T. Qed.
Lemma hi_ext : forall d d' O o st a' o2 st2 a2, SI O o st a' -> SI O o2 st2 a2 -> ext d' O o st a' o2 st2 a2 -> hi d O (ps_sub st) -> hi d O (ps_sub st2).
Proof using All.
  intros d d' O o st a' o2 st2 a2 [T _] [T2 _] (_ & B & _) H q x Hq Hx. destruct (t_open _ _ _ _ T _ Hq) as [y Hy]. destruct (B _ _ Hy) as [Hy2 _]. rewrite <- (sub_apart _ _ _ _ _ _ _ T2 Hy2 Hx). eauto.
Qed.
Definition nocopy (o : ptr -> ptr) (st : pst) (g : ptr) : Prop := forall x q, In q (skind (ps_sub st) x) -> o q <> g.
Lemma new_copy_ok : forall d O o st a' g, SI O o st a' -> In g (K d) -> inp g -> nocopy o st g ->
  exists st', new_copy ghost k d st g = (st', a_next a') /\ SI (a_next a' :: O) (zupd o (a_next a') g) st' (astep a' (tnew d)) /\ ext d O o st a' (zupd o (a_next a') g) st' (astep a' (tnew d)) /\ In (a_next a') (skind (ps_sub st') d) /\ (forall x, skind (ps_sub st') x = if x =? d then skind (ps_sub st) x ++ [a_next a'] else skind (ps_sub st) x).
Proof using All.
  intros d O o st a' g [T B] Hg Ig Ng. destruct (made_ok d st g a' (t_reach _ _ _ _ T) (b_m _ _ _ B) Hg) as (m & Em & GR & R1).
  set (st1 := set_sub st (with_m (ps_sub st) m)). exists (ghost k d st1 g (a_next a')).
  assert (E : new_copy ghost k d st g = (ghost k d st1 g (a_next a'), a_next a')).
  { unfold new_copy. unfold made in Em. destruct (add_ent d (sm_m (ps_sub st))) as [m0 l]. cbv zeta in Em |- *. injection Em as Em1 Em2. rewrite Em2 in *. unfold st1. rewrite <- Em1. reflexivity. }
  split; [exact E|]. clear E.
  assert (X : GB (a_next a' :: O) (zupd o (a_next a') g) (ghost k d st1 g (a_next a')) /\ sm_m (ps_sub (ghost k d st1 g (a_next a'))) = m /\ ps_g2l (ghost k d st1 g (a_next a')) = ps_g2l st).
  { destruct GR as [GR0 _]. exact (ghost_ok d O o st m a' g T B Hg Ig Ng GR0). }
  destruct X as (B2 & Em2 & G2). pose proof (ti_new d O o (ps_sub st) a' g m _ T GR R1 Em2 Hg Ig Ng) as T2. split; [split; auto|].
  assert (EK : forall x, skind (ps_sub (ghost k d st1 g (a_next a'))) x = kind m x) by (intro x; unfold skind; rewrite Em2; auto).
  split; [|split; [rewrite EK; eapply grown_new; eauto|intro x; rewrite EK; apply GR]]. split; [|split].
  - intros x Hx. rewrite EK. destruct GR as [GR _]. rewrite GR. replace (x =? d) with false by lia. auto.
  - intros x q H. rewrite EK. split; [eapply grown_old; eauto|]. unfold zupd. destruct (Z.eqb_spec q (a_next a')) as [->|]; auto. destruct (sub_below _ _ _ _ _ _ T H). auto.
  - intros q H. destruct (t_open _ _ _ _ T _ H) as [x Hx]. pose proof (sub_below _ _ _ _ _ _ T Hx) as NN. assert (D : d = 0 \/ d = 1 \/ d = 2 \/ d = 3) by (eapply kind_cases; eauto).
    destruct D as [-> | [-> | [-> | ->]]]; cbn; unfold upd; replace (q =? a_next a') with false by lia; auto.
Qed.
Lemma ti_step : forall O o sub a' t2 a2, TI O o sub a' -> reach t2 a2 -> (forall q, live_v a2 q <-> live_v a' q) -> (forall q, live_e a2 q <-> live_e a' q) -> (forall q, live_f a2 q <-> live_f a' q) -> (forall q, live_r a2 q <-> live_r a' q) ->
  (forall q, ~ In q O -> a_e a2 q = a_e a' q /\ a_f a2 q = a_f a' q /\ a_r a2 q = a_r a' q) -> TI O o (with_m sub (set_ft (sm_m sub) t2)) a2.
Proof using All.
  intros O o sub a' t2 a2 T R LV LE LF LR SM.
  constructor; [exact R|exact (t_nd _ _ _ _ T)| | | | |exact (t_id _ _ _ _ T)|exact (t_open _ _ _ _ T)|exact (t_o _ _ _ _ T)|exact (t_inj _ _ _ _ T)| | | |exact (t_x _ _ _ _ T)|exact (t_c _ _ _ _ T)].
  - intro q. rewrite LV. apply (t_v _ _ _ _ T).
  - intro q. rewrite LE. apply (t_e _ _ _ _ T).
  - intro q. rewrite LF. apply (t_f _ _ _ _ T).
  - intro q. rewrite LR. apply (t_r _ _ _ _ T).
  - intros q H Q. destruct (SM _ Q) as (-> & _ & _). apply (t_ends _ _ _ _ T _ H Q).
  - intros q H Q. destruct (SM _ Q) as (_ & -> & _). apply (t_loop _ _ _ _ T _ H Q).
  - intros q H Q. destruct (SM _ Q) as (_ & _ & ->). apply (t_faces _ _ _ _ T _ H Q).
Qed.
Lemma bi_t : forall O o st t, GB O o st -> GB O o (set_subt st t).
Proof using All. intros O o st t []. constructor; auto. Qed.
Lemma ti_close : forall N O o sub a', TI (N :: O) o sub a' -> 
  (In N (skind sub 1) -> exists u w, a_e a' N = Some (true, (u, w)) /\ a_e a (o N) = Some (true, (o u, o w)) /\ In u (skind sub 0) /\ In w (skind sub 0)) ->
  (In N (skind sub 2) -> exists b, a_f a' N = Some (true, Some b) /\ a_f a (o N) = Some (true, Some (via o b)) /\ (forall x, In x b -> In (fst x) (skind sub 1))) ->
  (In N (skind sub 3) -> exists b, a_r a' N = Some (true, Some b) /\ a_r a (o N) = Some (true, Some (via o b)) /\ (forall x, In x b -> In (fst x) (skind sub 2))) ->
  TI O o sub a'.
Proof using All.
  intros N O o sub a' T HE HF HR. destruct T as [A1 A2 A3 A4 A5 A6 A7 A8 A9 A10 A11 A12 A13 A14 A15]. constructor; auto.
  - intros q H. apply A8. right. auto.
  - intros q H Q. destruct (Z.eq_dec q N) as [->|D]; [auto|]. apply A11; auto. intros [|]; auto.
  - intros q H Q. destruct (Z.eq_dec q N) as [->|D]; [auto|]. apply A12; auto. intros [|]; auto.
  - intros q H Q. destruct (Z.eq_dec q N) as [->|D]; [auto|]. apply A13; auto. intros [|]; auto.
Qed.
Lemma link_ok : forall N O o st a' d, SI (N :: O) o st a' -> TI O o (ps_sub st) a' -> In N (skind (ps_sub st) d) -> ~ In N O -> SI O o (link k st (o N) N) a'.
Proof using All.
  intros N O o st a' d [_ B] T H NO. split; [exact T|]. 
  assert (NF : found k st (o N) = None). { destruct (b_find _ _ _ B (o N)) as [[E _]|(y & l & _ & H1 & H2 & H3)]; auto. destruct H2. left. symmetry. eapply t_inj; eauto. }
  assert (F : forall g, found k (link k st (o N) N) g = if g =? o N then Some N else found k st g).
  { intro g. unfold found, link in *. cbn [ps_g2l]. unfold zupd. destruct (Z.eqb_spec g (o N)) as [->|]; auto. destruct (find (fun x => fst x =? k) (ps_g2l st (o N))) eqn:E; [discriminate NF|]. clear - E. induction (ps_g2l st (o N)) as [|y l IH]; cbn in *; [rewrite Z.eqb_refl; auto|]. destruct (fst y =? k); [discriminate E|auto]. }
  constructor; cbn [link ps_par ps_sub]; [exact (b_par _ _ _ B)| | | |exact (b_old _ _ _ B)|exact (b_new _ _ _ B)|exact (b_fresh _ _ _ B)|].
  - intro g. rewrite F. destruct (Z.eqb_spec g (o N)) as [->|Q]. { right. exists d, N. auto. }
    destruct (b_find _ _ _ B g) as [[H1 H2]|(y & l & H1 & H2 & H3 & H4)].
    + left. split; auto. intros y q Hq Eq. destruct (H2 _ _ Hq Eq) as [<-|]; auto. destruct Q. auto.
    + right. exists y, l. split; auto. split; auto. split; auto. intro. apply H3. right. auto.
  - intro g. destruct (b_keep _ _ _ B g) as (ks & E & Hks). unfold link, zupd. cbn [ps_g2l]. destruct (Z.eqb_spec g (o N)) as [->|Q]; [|exists ks; auto]. exists (ks ++ [(k, N)]). rewrite E, app_assoc. split; auto. intros x Hx. apply in_app_or in Hx. destruct Hx as [Hx|[<-|[]]]; auto. cbn. split; auto. exists d. auto.
  - intros x q Hq Q. unfold link, zupd. cbn [ps_l2g]. destruct (Z.eqb_spec q N) as [->|D]; auto. apply (b_l2g _ _ _ B x); auto. intros [|]; auto.
  - intros g HN. pose proof (b_nd _ _ _ B g HN) as N1. unfold link, zupd. cbn [ps_g2l]. destruct (Z.eqb_spec g (o N)) as [->|Q]; auto. rewrite map_app. cbn [map fst]. apply (NoDup_Add (Add_app k (map fst (ps_g2l st (o N))) [])). rewrite app_nil_r. split; auto. intro Hk. apply in_map_iff in Hk. destruct Hk as (y & E & Hy). unfold found in NF. destruct (find (fun x => fst x =? k) (ps_g2l st (o N))) eqn:E2; [discriminate NF|]. pose proof (List.find_none _ _ E2 _ Hy) as E3. cbv beta in E3. lia.
Qed.
Lemma found_ok : forall d O o st a' g, SI O o st a' -> In g (K d) -> hi d O (ps_sub st) ->
  (exists l, found k st g = Some l /\ In l (skind (ps_sub st) d) /\ ~ In l O /\ o l = g) \/ (found k st g = None /\ nocopy o st g).
Proof using All.
  intros d O o st a' g [T B] Hg Hh. destruct (b_find _ _ _ B g) as [[E H]|(y & l & H1 & H2 & H3 & H4)].
  - right. split; auto. intros x q Hq Eq. pose proof (Hh _ _ (H _ _ Hq Eq) Hq) as L. destruct (t_o _ _ _ _ T _ _ Hq) as [Hk' _]. rewrite Eq in Hk'. rewrite (K_apart _ _ _ Hg Hk') in L. lia.
  - left. exists l. split; auto. destruct (t_o _ _ _ _ T _ _ H2) as [Hk' _]. rewrite H4 in Hk'. rewrite (K_apart _ _ _ Hg Hk'). auto.
Qed.
Lemma full_ok : forall O o st A d g (x y : A), GB O o st -> In g (K d) -> inp g -> match ps_g2l st g with [] => x | _ => y end = y.
Proof using All. intros O o st A d g x y B Hg Ig. destruct (b_keep _ _ _ B g) as (ks & E & _). rewrite E. pose proof (Hfull _ _ Hg Ig). destruct (g2l0 g); [congruence|reflexivity]. Qed.

Lemma c_23 : c = 2 \/ c = 3.
Proof using. unfold celldim. destruct (skind s 3); auto. Qed.
Lemma next_notin : forall O o sub a', TI O o sub a' -> ~ In (a_next a') O.
Proof using All. intros O o sub a' T H. destruct (t_open _ _ _ _ T _ H) as [x Hx]. destruct (sub_below _ _ _ _ _ _ T Hx). auto. Qed.

Lemma ghost_vertex_ok : forall O o st a' g, SI O o st a' -> In g (K 0) -> inp g -> hi 0 O (ps_sub st) ->
  exists st2 o2 a2 l, ghost_vertex k st g = Ok (st2, l) /\ SI O o2 st2 a2 /\ ext 0 O o st a' o2 st2 a2 /\ In l (skind (ps_sub st2) 0) /\ o2 l = g /\ (forall q, In q (skind (ps_sub st2) 0) -> In q (skind (ps_sub st) 0) \/ o2 q = g).
Proof using All.
  intros O o st a' g I Hg Ig Hh. pose proof (K_null _ _ Hg) as NN. unfold ghost_vertex. replace (g =? NULL) with false by lia. rewrite (full_ok O o st _ 0 g _ _ (proj2 I) Hg Ig).
  destruct (found_ok 0 _ _ _ _ _ I Hg Hh) as [(l & E & H1 & H2 & H3)|[E Ng]]; rewrite E.
  - exists st, o, a', l. split; auto. split; auto. split; [apply ext_refl|auto].
  - destruct (new_copy_ok 0 O o st a' g I) as (st1 & E1 & I1 & X1 & IN1 & EK1); auto.
    rewrite E1. set (N := a_next a') in *. set (o1 := zupd o N g) in *. assert (ON : o1 N = g) by (unfold o1, zupd; rewrite Z.eqb_refl; auto).
    exists (link k st1 g N), o1, (astep a' (tnew 0)), N. split; auto. assert (NO : ~ In N O) by (destruct I as [T _]; eapply next_notin; eauto).
    destruct I1 as [T1 B1] eqn:EI. split; [|split; [exact X1|split; [auto|split; [auto|]]]].
    + rewrite <- ON. eapply link_ok with (d := 0); eauto. eapply ti_close; eauto.
      * intro Q. pose proof (sub_apart _ _ _ _ _ _ _ T1 IN1 Q). lia.
      * intro Q. pose proof (sub_apart _ _ _ _ _ _ _ T1 IN1 Q). lia.
      * intro Q. pose proof (sub_apart _ _ _ _ _ _ _ T1 IN1 Q). lia.
    + intros q Hq. change (In q (skind (ps_sub st1) 0)) in Hq. rewrite EK1 in Hq. cbn [Z.eqb] in Hq. apply in_app_or in Hq. destruct Hq as [Hq|[<-|[]]]; auto.
Qed.

Lemma edge_ends : forall e, In e (K 1) -> exists v0 v1, a_e a e = Some (true, (v0, v1)) /\ In v0 (K 0) /\ In v1 (K 0).
Proof using All.
  intros e H. apply (pa_e _ _ P) in H. destruct H as [[v0 v1] H]. exists v0, v1. split; auto. destruct (pa_ends _ _ P _ _ _ H). destruct (w_ends _ (i_w _ _ (reach_inv _ _ (pa_reach _ _ P))) _ _ _ H) as [[|W0] [|W1]]; try tauto. rewrite !(pa_v _ _ P). auto.
Qed.
Lemma end_read : forall e v0 v1 (i : bool), a_e a e = Some (true, (v0, v1)) -> ME_Vertex (sm_t s) e (b2z i) = Ok (if i then v1 else v0).
Proof using All.
  intros e v0 v1 i H. destruct (get_e _ _ e (reach_inv _ _ (pa_reach _ _ P)) ltac:(congruence)) as (y & Hy & Ey). rewrite H in Ey. unfold eview in Ey. inversion Ey. subst. unfold ME_Vertex, gete. rewrite Hy. destruct i; reflexivity.
Qed.

(** ** The vertices for the next layer *)
Variables (gb : list ptr) (had : ptr -> Prop).
Hypothesis Hgb : forall v, In v gb -> had v.
Definition NI (o : ptr -> ptr) (st : gst) : Prop :=
  (forall v, g_vm st v = true -> In v gb \/ In v (g_next st)) /\ (forall q, In q (skind (ps_sub (g_p st)) 0) -> had (o q) \/ In (o q) (g_next st)) /\ (forall v, In v (g_next st) -> exists q, In q (skind (ps_sub (g_p st)) 0) /\ o q = v).
Definition GS (O : list ptr) (o : ptr -> ptr) (st : gst) (a' : amesh) : Prop := SI O o (g_p st) a' /\ NI o st.
Definition gext (d0 : Z) (O : list ptr) (o : ptr -> ptr) (st : gst) (a' : amesh) (o2 : ptr -> ptr) (st2 : gst) (a2 : amesh) : Prop :=
  ext d0 O o (g_p st) a' o2 (g_p st2) a2 /\ g_cm st2 = g_cm st.
Lemma ni_set : forall o st o2 p2, NI o st -> skind (ps_sub p2) 0 = skind (ps_sub (g_p st)) 0 -> (forall q, In q (skind (ps_sub (g_p st)) 0) -> o2 q = o q) -> NI o2 (g_set st p2).
Proof using All.
  intros o st o2 p2 (A & B & C) E1 E2. split; [exact A|]. split.
  - intros q Hq. cbn [g_set g_p g_next] in *. rewrite E1 in Hq. rewrite (E2 _ Hq). auto.
  - intros v Hv. destruct (C _ Hv) as (q & Hq & <-). exists q. cbn [g_set g_p]. rewrite E1. auto.
Qed.
Lemma gext_refl : forall d O o st a', gext d O o st a' o st a'.
Proof using All. intros. split; [apply ext_refl|auto]. Qed.
Lemma gext_trans : forall d d' O O' o st a' o2 st2 a2 o3 st3 a3, d <= d' -> (forall q, In q O' -> In q O) -> gext d O o st a' o2 st2 a2 -> gext d' O' o2 st2 a2 o3 st3 a3 -> gext d' O' o st a' o3 st3 a3.
Proof using All. intros d d' O O' o st a' o2 st2 a2 o3 st3 a3 L IO (A & B) (A' & B'). split; [eapply ext_trans; eauto|congruence]. Qed.
Lemma gext_le : forall d d' O O' o st a' o2 st2 a2, d <= d' -> (forall q, In q O' -> In q O) -> gext d O o st a' o2 st2 a2 -> gext d' O' o st a' o2 st2 a2.
Proof using All. intros d d' O O' o st a' o2 st2 a2 L IO (A & B). split; [eapply ext_le; eauto|auto]. Qed.

Lemma ghost_end_ok : forall N O o st a' ge v0 v1 (i : bool) x0 x1, GS (N :: O) o st a' -> In N (skind (ps_sub (g_p st)) 1) -> hi 0 O (ps_sub (g_p st)) -> ~ In N O -> In ge (K 1) -> inp ge -> a_e a ge = Some (true, (v0, v1)) -> a_e a' N = Some (true, (x0, x1)) -> (if i then x1 else x0) = NULL ->
  exists st2 o2 a2 l, ghost_end k ge N st (b2z i) = Ok st2 /\ GS (N :: O) o2 st2 a2 /\ gext 0 O o st a' o2 st2 a2 /\ In l (skind (ps_sub (g_p st2)) 0) /\ o2 l = (if i then v1 else v0) /\ a_e a2 N = Some (true, if i then (x0, l) else (l, x1)).
Proof using All.
  intros N O o st a' ge v0 v1 i x0 x1 [I NI0] HN Hh NO Hge Ige Eg EN HZ. pose proof I as [T B]. unfold ghost_end. unfold sm_t at 1. rewrite (b_m _ _ _ B). fold (sm_t s). rewrite (end_read _ _ _ i Eg). cbn [bind].
  destruct (edge_ends _ Hge) as (w0 & w1 & Ew & K0 & K1). rewrite Eg in Ew. inversion Ew; subst w0 w1. clear Ew. set (gv := if i then v1 else v0).
  assert (Hh' : hi 0 (N :: O) (ps_sub (g_p st))) by (intros q x [<-|Hq] Hx; [rewrite <- (sub_apart _ _ _ _ _ _ _ T HN Hx); lia|eauto]).
  destruct (ghost_vertex_ok _ _ _ _ gv I) as (st1 & o1 & a1 & l & E1 & I1 & X1 & Hl & Ol & Hnew); auto. { unfold gv. destruct i; auto. } { apply ip_vertex with ge; auto. exists v0, v1. split; auto. unfold gv. destruct i; auto. }
  rewrite E1. cbn [bind]. pose proof I1 as [T1 B1]. destruct X1 as (X1 & X2 & X3). destruct (X3 N (or_introl eq_refl)) as (EN1 & _ & _). rewrite EN in EN1.
  destruct (reach_step _ _ (TSetVertex N i l) (t_reach _ _ _ _ T1)) as (t2 & S2 & R2). { cbn [tpre]. split; [apply (t_v _ _ _ _ T1); auto|]. exists x0, x1. auto. }
  cbn [tstep] in S2. rewrite S2. cbn [bind]. set (a2 := astep a1 (TSetVertex N i l)) in *.
  assert (AN : a_e a2 N = Some (true, if i then (x0, l) else (l, x1))) by (unfold a2; cbn [astep with_e a_e]; rewrite upd_same, EN1; auto).
  assert (AO : forall q, q <> N -> a_e a2 q = a_e a1 q) by (intros q Q; unfold a2; cbn [astep with_e a_e]; rewrite upd_other; auto).
  assert (SS : SI (N :: O) o1 (set_subt st1 t2) a2).
  { split; [|apply bi_t; auto]. apply ti_step with a1; auto; try (intro q; reflexivity).
    - intro q. unfold live_e. destruct (Z.eq_dec q N) as [->|Q]; [rewrite AN, EN1; split; eauto|]. rewrite AO by auto. reflexivity.
    - intros q Q. rewrite AO by (intros ->; apply Q; left; auto). auto. }
  assert (EX : ext 0 O o (g_p st) a' o1 (set_subt st1 t2) a2).
  { split; [exact X1|]. split; [exact X2|]. intros q Hq. destruct (X3 q (or_intror Hq)) as (Y1 & Y2 & Y3). rewrite AO by (intros ->; auto). auto. }
  destruct NI0 as (NA & NB & NC). destruct (g_vm st gv) eqn:EV.
  - exists (g_set st (set_subt st1 t2)), o1, a2, l. split; auto. split; [|split; [split; [exact EX|reflexivity]|auto]]. split; [exact SS|]. split; [exact NA|]. split.
    + intros q Hq. cbn [g_set g_p g_next]. destruct (Hnew _ Hq) as [H|H]. { destruct (X2 _ _ H) as [_ ->]. auto. } rewrite H. destruct (NA _ EV); auto.
    + intros v Hv. destruct (NC _ Hv) as (q & Hq & <-). exists q. apply X2. auto.
  - exists (mkG (set_subt st1 t2) (g_next st ++ [gv]) (zupd (g_vm st) gv true) (g_cm st)), o1, a2, l. split; auto. split; [|split; [split; [exact EX|reflexivity]|auto]]. split; [exact SS|]. split; [|split].
    + intros v Hv. cbn [g_vm g_next] in *. unfold zupd in Hv. destruct (Z.eqb_spec v gv) as [EQ|_]. { right. rewrite EQ. apply in_or_app. cbn. auto. } destruct (NA _ Hv); auto. right. apply in_or_app. auto.
    + intros q Hq. cbn [g_p g_next] in *. rewrite in_app_iff. destruct (Hnew _ Hq) as [H|H]. { destruct (X2 _ _ H) as [_ ->]. destruct (NB _ H); auto. } rewrite H. cbn. auto.
    + intros v Hv. cbn [g_p g_next] in *. apply in_app_or in Hv. destruct Hv as [Hv|[<-|[]]]; [|eauto]. destruct (NC _ Hv) as (q & Hq & <-). exists q. apply X2. auto.
Qed.

Lemma ghost_edge_ok : forall miss O o st a' g, GS O o st a' -> In g (K 1) -> inp g -> hi 1 O (ps_sub (g_p st)) ->
  exists st2 o2 a2 l, ghost_edge miss k st g = Ok (st2, l) /\ GS O o2 st2 a2 /\ gext 1 O o st a' o2 st2 a2 /\ In l (skind (ps_sub (g_p st2)) 1) /\ ~ In l O /\ o2 l = g.
Proof using All.
  intros miss O o st a' g G Hg Ig Hh. pose proof G as [I NI0]. pose proof (K_null _ _ Hg) as NN. unfold ghost_edge. replace (g =? NULL) with false by lia. rewrite (full_ok O o (g_p st) _ 1 g _ _ (proj2 I) Hg Ig).
  destruct (found_ok 1 _ _ _ _ _ I Hg Hh) as [(l & E & H1 & H2 & H3)|[E Ng]]; rewrite E.
  - exists st, o, a', l. split; auto. split; auto. split; [apply gext_refl|auto].
  - destruct (new_copy_ok 1 O o (g_p st) a' g I) as (p1 & E1 & I1 & X1 & IN1 & EK1); auto.
    rewrite E1. set (N := a_next a') in *. set (o1 := zupd o N g) in *. assert (ON : o1 N = g) by (unfold o1, zupd; rewrite Z.eqb_refl; auto).
    assert (NO : ~ In N O) by (destruct I as [T _]; eapply next_notin; eauto). set (a1 := astep a' (tnew 1)) in *. set (st1 := g_set st p1) in *.
    destruct (edge_ends _ Hg) as (v0 & v1 & Ev & K0 & K1). pose proof I1 as [T1 B1]. pose proof X1 as (X1a & X1b & X1c).
    assert (G1 : GS (N :: O) o1 st1 a1). { split; [exact I1|]. apply ni_set with o; auto. { rewrite EK1. reflexivity. } intros q Hq. apply (X1b 0). auto. }
    assert (EN1 : a_e a1 N = Some (true, (NULL, NULL))) by (unfold a1; cbn; rewrite upd_same; auto).
    assert (H1 : hi 0 O (ps_sub (g_p st1))). { intros q x Hq Hx. destruct I as [T _]. destruct (t_open _ _ _ _ T _ Hq) as [y Hy]. destruct (X1b _ _ Hy) as [Hy1 _]. cbn [st1 g_set g_p] in Hx. rewrite <- (sub_apart _ _ _ _ _ _ _ T1 Hy1 Hx). pose proof (Hh _ _ Hq Hy). lia. }
    destruct (ghost_end_ok N O o1 st1 a1 g v0 v1 false NULL NULL) as (st2 & o2 & a2 & l0 & E2 & G2 & X2 & Hl0 & Ol0 & EN2); auto.
    pose proof G2 as [I2 _]. pose proof I2 as [T2 B2]. pose proof X2 as [(X2a & X2b & X2c) X2d]. destruct (X2b _ _ IN1) as [IN2 ON2].
    assert (H2 : hi 0 O (ps_sub (g_p st2))). { intros q x Hq Hx. destruct (t_open _ _ _ _ T1 _ (or_intror Hq)) as [y Hy]. destruct (X2b _ _ Hy) as [Hy1 _]. rewrite <- (sub_apart _ _ _ _ _ _ _ T2 Hy1 Hx). eauto. }
    destruct (ghost_end_ok N O o2 st2 a2 g v0 v1 true l0 NULL) as (st3 & o3 & a3 & l1 & E3 & G3 & X3 & Hl1 & Ol1 & EN3); auto.
    pose proof G3 as [I3 N3]. pose proof I3 as [T3 B3]. pose proof X3 as [(X3a & X3b & X3c) X3d]. destruct (X3b _ _ IN2) as [IN3 ON3]. destruct (X3b _ _ Hl0) as [IL3 OL3].
    assert (O3 : o3 N = g) by congruence. cbn [foldM]. change (b2z false) with 0 in E2. change (b2z true) with 1 in E3. rewrite E2. cbn [bind]. rewrite E3. cbn [bind].
    exists (g_set st3 (link k (g_p st3) g N)), o3, a3, N. split; auto. split; [|split; [|split; auto]].
    + split; [|apply ni_set with o3; auto]. cbn [g_set g_p]. rewrite <- O3. eapply link_ok with (d := 1); eauto. eapply ti_close; eauto.
      * intros _. exists l0, l1. rewrite O3, OL3, Ol0, Ol1. auto.
      * intro Q. pose proof (sub_apart _ _ _ _ _ _ _ T3 IN3 Q). lia.
      * intro Q. pose proof (sub_apart _ _ _ _ _ _ _ T3 IN3 Q). lia.
    + apply (gext_trans 1 1 O O o st a' o2 st2 a2); auto; try lia. { apply (gext_trans 1 1 O O o st a' o1 st1 a1); auto; try lia. { split; [exact X1|reflexivity]. } eapply gext_le; [| |exact X2]; auto; lia. }
      eapply gext_le with (d := 0) (O := O); auto; try lia.
Qed.

Lemma face_full' : forall f, In f (K 2) -> exists b, a_f a f = Some (true, Some b) /\ (length b <= 30)%nat /\ NoDup (map fst b) /\ forall x, In x b -> In (fst x) (K 1).
Proof using All.
  intros f H. apply (pa_f _ _ P) in H. destruct H as [[b|] H]; [|destruct (pa_faces _ _ P _ H)]. pose proof (i_w _ _ (reach_inv _ _ (pa_reach _ _ P))) as W. exists b. split; auto. split; [eapply pa_loops; eauto|]. split; [apply (w_fnd _ W _ _ _ H)|].
  intros x Hx. pose proof (w_fe _ W _ _ H) as F. rewrite Forall_forall in F. apply (pa_e _ _ P). auto.
Qed.
Lemma face_dir : forall f b i, a_f a f = Some (true, Some b) -> (i < length b)%nat -> (length b <= 30)%nat -> MF_EdgeDir_i (sm_t s) f (Z.of_nat i) = Ok (b2z (snd (nth i b dflt))).
Proof using All.
  intros f b i H L L30. destruct (face_rep _ _ _ _ (reach_inv _ _ (pa_reach _ _ P)) H) as (y & l & Hy & Hl & (-> & LL & B)). unfold MF_EdgeDir_i, getf. rewrite Hy. cbn [bind]. rewrite bit64_ok by lia. rewrite (B i L). auto.
Qed.
Lemma via_app : forall o b b', via o (b ++ b') = via o b ++ via o b'.
Proof using. intros. unfold via. apply map_app. Qed.
Lemma ghost_edges_ok : forall miss O o st a' gf b, GS O o st a' -> In gf (K 2) -> inp gf -> hi 1 O (ps_sub (g_p st)) -> a_f a gf = Some (true, Some b) ->
  exists st2 o2 a2 bl, ghost_edges miss k st gf = Ok (st2, map fst bl, dirz bl) /\ GS O o2 st2 a2 /\ gext 1 O o st a' o2 st2 a2 /\ via o2 bl = b /\ (forall x, In x bl -> In (fst x) (skind (ps_sub (g_p st2)) 1) /\ ~ In (fst x) O).
Proof using All.
  intros miss O o st a' gf b G Hg Ig Hh Eb. destruct (face_full' _ Hg) as (b1 & Eb1 & L30 & ND & HB). rewrite Eb in Eb1. inversion Eb1; subst b1. clear Eb1.
  unfold ghost_edges. pose proof G as [I _]. pose proof I as [T B]. unfold sm_t at 1. rewrite (b_m _ _ _ B). fold (sm_t s). pose proof (face_edges_query _ _ _ _ true (reach_inv _ _ (pa_reach _ _ P)) Eb) as EQ. cbn [b2z walk] in EQ. rewrite EQ. cbn [bind].
  edestruct (list_loop (ptr * bool) (gst * list ptr * list Z) (fun dn x => exists o2 a2 bl, snd (fst x) = map fst bl /\ snd x = dirz bl /\ GS O o2 (fst (fst x)) a2 /\ gext 1 O o st a' o2 (fst (fst x)) a2 /\ via o2 bl = dn /\ (forall y, In y bl -> In (fst y) (skind (ps_sub (g_p (fst (fst x)))) 1) /\ ~ In (fst y) O))) with (full := b) (st := (st, @nil ptr, @nil Z)) as (x & E & Q).
  3: { unfold ZL. rewrite map_length, E. destruct x as [[st2 es] ds]. cbn [fst snd] in Q. destruct Q as (o2 & a2 & bl & -> & -> & Q). exists st2, o2, a2, bl. auto. }
  2: { exists o, a', []. cbn [fst snd map]. split; auto. split; auto. split; auto. split; [apply gext_refl|]. split; auto. intros y []. }
  intros dn w rest [[st1 es] ds] Ef (o1 & a1 & bl & Q1 & Q2 & I1 & X1 & V1 & H1). cbn [fst snd] in *. subst es ds.
  assert (LT : (length dn < length b)%nat) by (rewrite Ef, app_length; cbn; lia). assert (EN : nth (length dn) b dflt = w) by (rewrite Ef; apply nth_middle).
  rewrite lent_fst by auto. cbn [bind]. rewrite EN.
  assert (Hw : In w b) by (rewrite Ef; apply in_or_app; right; left; auto).
  destruct (ghost_edge_ok miss O o1 st1 a1 (fst w) I1) as (st2 & o2 & a2 & l & E2 & I2 & X2 & Hl & NO & Ol); auto. { apply ip_edge with gf; auto. exists b. split; auto. apply in_map. auto. } { apply (hi_ext 1 1 O o (g_p st) a' o1 (g_p st1) a1); auto; [apply I1|apply X1]. }
  rewrite E2. cbn [bind]. pose proof I2 as [J2 _]. pose proof J2 as [T2 B2]. unfold sm_t at 1. rewrite (b_m _ _ _ B2). fold (sm_t s). rewrite (face_dir _ _ _ Eb LT L30), EN. cbn [bind]. replace (MAXPV2 <=? Z.of_nat (length dn)) with false by (unfold MAXPV2; lia).
  exists (st2, map fst bl ++ [l], dirz bl ++ [b2z (snd w)]). split; auto. cbn [fst snd]. exists o2, a2, (bl ++ [(l, snd w)]). unfold dirz. rewrite !map_app. split; auto. split; auto. split; auto. split; [eapply gext_trans; [| |exact X1|exact X2]; auto; lia|]. destruct X2 as [(X2a & X2b & X2c) X2d]. split.
  - rewrite via_app. f_equal; [rewrite <- V1; apply via_ext; intros y Hy; eapply X2b; apply H1; auto|]. cbn. rewrite Ol. destruct w; auto.
  - intros y Hy. apply in_app_or in Hy. destruct Hy as [Hy|[<-|[]]]; [|auto]. destruct (H1 _ Hy) as [Y1 Y2]. split; auto. apply X2b. auto.
Qed.
(** ** Faces *)
Lemma set_edges_ok : forall N O o st a' bl b, SI (N :: O) o st a' -> ~ In N O -> In N (skind (ps_sub st) 2) -> a_f a' N = Some (true, None) -> a_f a (o N) = Some (true, Some b) -> via o bl = b -> (forall x, In x bl -> In (fst x) (skind (ps_sub st) 1)) ->
  exists t2 a2, MF_Set_Edges (sm_t (ps_sub st)) N (ZL (map fst bl)) (map fst bl) (dirz bl) = Ok t2 /\ SI (N :: O) o (set_subt st t2) a2 /\ TI O o (ps_sub (set_subt st t2)) a2 /\ ext 2 O o st a' o (set_subt st t2) a2.
Proof using All.
  intros N O o st a' bl b I NO HN E0 Eb V HB. pose proof I as [T B]. destruct (t_o _ _ _ _ T _ _ HN) as [Kg _]. destruct (face_full' _ Kg) as (b1 & Eb1 & L30 & ND & _). rewrite Eb in Eb1. inversion Eb1; subst b1. clear Eb1.
  destruct (reach_step _ _ (TSetEdges N bl) (t_reach _ _ _ _ T)) as (t2 & S2 & R2).
  { cbn [tpre]. split; [left; auto|]. split; [|split].
    - apply NoDup_map_inv with (f := o). rewrite <- V in ND. unfold via in ND. rewrite map_map in *. cbn [fst] in ND. exact ND.
    - rewrite <- V in L30. unfold via in L30. rewrite map_length in L30. unfold maxfe. lia.
    - apply Forall_forall. intros x Hx. apply (t_e _ _ _ _ T). auto. }
  cbn [tstep] in S2. set (a2 := astep a' (TSetEdges N bl)) in *. exists t2, a2. unfold ZL. rewrite map_length. split; [exact S2|].
  assert (AN : a_f a2 N = Some (true, Some bl)) by (unfold a2; cbn [astep set_fb with_f a_f]; rewrite upd_same, E0; auto).
  assert (AO : forall q, q <> N -> a_f a2 q = a_f a' q) by (intros q Q; unfold a2; cbn [astep set_fb with_f a_f]; rewrite upd_other; auto).
  assert (T2 : TI (N :: O) o (ps_sub (set_subt st t2)) a2).
  { apply ti_step with a'; auto; try (intro q; reflexivity).
    - intro q. unfold live_f. destruct (Z.eq_dec q N) as [->|Q]; [rewrite AN, E0; split; eauto|]. rewrite AO by auto. reflexivity.
    - intros q Q. rewrite AO by (intros ->; apply Q; left; auto). auto. }
  split; [split; [exact T2|apply bi_t; auto]|]. split.
  - apply ti_close with N; auto.
    + intro Q. pose proof (sub_apart _ _ _ _ 2 1 N T HN Q). lia.
    + intros _. exists bl. rewrite AN, Eb, V. split; auto.
    + intro Q. pose proof (sub_apart _ _ _ _ 2 3 N T HN Q). lia.
  - split; [auto|]. split; [auto|]. intros q Hq. rewrite AO by (intros ->; auto). auto.
Qed.
Lemma nocopy_ext : forall d d0 O o st a' o2 st2 a2 g, d0 < d -> In g (K d) -> SI O o2 st2 a2 -> ext d0 O o st a' o2 st2 a2 -> nocopy o st g -> nocopy o2 st2 g.
Proof using All.
  intros d d0 O o st a' o2 st2 a2 g L Hg [T2 _] (A & B & _) H x q Hq Eq. destruct (t_o _ _ _ _ T2 _ _ Hq) as [Hk' _]. rewrite Eq in Hk'. rewrite <- (K_apart _ _ _ Hg Hk'), A in Hq by auto. apply (H d q Hq). destruct (B _ _ Hq) as [_ <-]. auto.
Qed.
(** After a cell was copied. *)
Definition celled (o : ptr -> ptr) (st : pst) (o2 : ptr -> ptr) (st2 : pst) (g : ptr) : Prop :=
  (forall d q, In q (skind (ps_sub st) d) -> In q (skind (ps_sub st2) d) /\ o2 q = o q) /\ (forall q, In q (skind (ps_sub st2) c) -> In q (skind (ps_sub st) c) \/ o2 q = g) /\ (exists q, In q (skind (ps_sub st2) c) /\ o2 q = g).
Definition done (o : ptr -> ptr) (st : gst) (o2 : ptr -> ptr) (st2 : gst) (g : ptr) : Prop := celled o (g_p st) o2 (g_p st2) g /\ g_cm st2 = zupd (g_cm st) g true.
Lemma mark_gs : forall O o st a' g, GS O o st a' -> GS O o (g_mark st g) a'.
Proof using All. intros O o st a' g H. exact H. Qed.

Lemma ghost_face_ok : forall o st a' g, c = 2 -> GS [] o st a' -> In g (K 2) -> inp g -> nocopy o (g_p st) g ->
  exists st2 o2 a2, ghost_face k st g = Ok st2 /\ GS [] o2 st2 a2 /\ done o st o2 st2 g.
Proof using All.
  intros o st a' g C2 G Hg Ig Ng. destruct (face_full' _ Hg) as (b & Eb & _). unfold ghost_face.
  destruct (ghost_edges_ok Fatal [] o (g_mark st g) a' g b (mark_gs _ _ _ _ _ G) Hg Ig) as (st1 & o1 & a1 & bl & E1 & G1 & [X1 CM1] & V1 & H1); auto. { intros q x []. }
  rewrite E1. cbn [bind]. pose proof G1 as [I1 N1]. pose proof (nocopy_ext 2 1 _ _ _ _ _ _ _ _ eq_refl Hg I1 X1 Ng) as Ng1.
  destruct (new_copy_ok 2 [] o1 (g_p st1) a1 g I1) as (st2 & E2 & I2 & X2 & IN2 & EK2); auto.
  rewrite E2. set (N := a_next a1) in *. set (o2 := zupd o1 N g) in *. set (a2 := astep a1 (tnew 2)) in *. assert (ON : o2 N = g) by (unfold o2, zupd; rewrite Z.eqb_refl; auto).
  pose proof X2 as (X2a & X2b & X2c).
  destruct (set_edges_ok N [] o2 st2 a2 bl b I2) as (t3 & a3 & E3 & I3 & T3 & X3); auto.
  { unfold a2. cbn. rewrite upd_same. auto. } { rewrite ON. auto. } { rewrite <- V1. apply via_ext. intros x Hx. apply (X2b 1). apply H1. auto. } { intros x Hx. apply X2b. apply H1. auto. }
  rewrite E3. cbn [bind]. rewrite (full_ok _ _ st2 _ 2 g _ _ (proj2 I2) Hg Ig). exists (g_set st1 (link k (set_subt st2 t3) g N)), o2, a3. split; auto. split.
  { split; [cbn [g_set g_p]; rewrite <- ON; apply link_ok with (d := 2); auto|]. apply ni_set with o1; auto. { change (skind (ps_sub st2) 0 = skind (ps_sub (g_p st1)) 0). rewrite EK2. reflexivity. } intros q Hq. apply (X2b 0). auto. }
  split; [|exact CM1]. destruct X1 as (X1a & X1b & X1c). destruct X3 as (X3a & X3b & X3c). unfold celled. rewrite C2. cbn [g_set g_p link ps_sub]. split; [|split].
  - intros d q Hq. destruct (X1b _ _ Hq) as [Y1 Y2]. destruct (X2b _ _ Y1) as [Y3 Y4]. destruct (X3b _ _ Y3) as [Y5 Y6]. split; auto. congruence.
  - intros q Hq. rewrite <- ON. destruct (Z.eq_dec q N) as [->|Q]; auto. left. change (g_p st) with (g_p (g_mark st g)). rewrite <- X1a by lia. change (In q (skind (ps_sub st2) 2)) in Hq.
    rewrite EK2, Z.eqb_refl in Hq. apply in_app_or in Hq. destruct Hq as [Hq|[Hq|[]]]; auto. destruct Q. auto.
  - exists N. split; auto.
Qed.
Lemma ghost_rface_ok : forall O o st a' g, GS O o st a' -> In g (K 2) -> inp g -> hi 2 O (ps_sub (g_p st)) ->
  exists st2 o2 a2 l, ghost_rface k st g = Ok (st2, l) /\ GS O o2 st2 a2 /\ gext 2 O o st a' o2 st2 a2 /\ In l (skind (ps_sub (g_p st2)) 2) /\ ~ In l O /\ o2 l = g.
Proof using All.
  intros O o st a' g G Hg Ig Hh. pose proof G as [I NI0]. pose proof (K_null _ _ Hg) as NN. unfold ghost_rface. replace (g =? NULL) with false by lia. rewrite (full_ok O o (g_p st) _ 2 g _ _ (proj2 I) Hg Ig).
  destruct (found_ok 2 _ _ _ _ _ I Hg Hh) as [(l & E & H1 & H2 & H3)|[E Ng]]; rewrite E.
  - exists st, o, a', l. split; auto. split; auto. split; [apply gext_refl|auto].
  - destruct (face_full' _ Hg) as (b & Eb & _).
    destruct (new_copy_ok 2 O o (g_p st) a' g I) as (p1 & E1 & I1 & X1 & IN1 & EK1); auto.
    rewrite E1. set (N := a_next a') in *. set (o1 := zupd o N g) in *. assert (ON : o1 N = g) by (unfold o1, zupd; rewrite Z.eqb_refl; auto).
    assert (NO : ~ In N O) by (destruct I as [T _]; eapply next_notin; eauto). set (a1 := astep a' (tnew 2)) in *. set (st1 := g_set st p1) in *.
    pose proof I1 as [T1 B1]. pose proof X1 as (X1a & X1b & X1c).
    assert (G1 : GS (N :: O) o1 st1 a1). { split; [exact I1|]. apply ni_set with o; auto. { rewrite EK1. reflexivity. } intros q Hq. apply (X1b 0). auto. }
    assert (EN1 : a_f a1 N = Some (true, None)) by (unfold a1; cbn; rewrite upd_same; auto).
    assert (H1 : hi 1 (N :: O) (ps_sub (g_p st1))). { cbn [st1 g_set g_p]. intros q x [<-|Hq] Hx; [rewrite <- (sub_apart _ _ _ _ _ _ _ T1 IN1 Hx); lia|]. destruct I as [T _]. destruct (t_open _ _ _ _ T _ Hq) as [y Hy]. destruct (X1b _ _ Hy) as [Hy1 _]. rewrite <- (sub_apart _ _ _ _ _ _ _ T1 Hy1 Hx). pose proof (Hh _ _ Hq Hy). lia. }
    destruct (ghost_edges_ok Undef (N :: O) o1 st1 a1 g b G1) as (st2 & o2 & a2 & bl & E2 & G2 & X2 & V2 & H2); auto.
    rewrite E2. cbn [bind]. pose proof G2 as [I2 N2]. pose proof I2 as [T2 B2]. pose proof X2 as [(X2a & X2b & X2c) CM2]. destruct (X2b _ _ IN1) as [IN2 ON2]. destruct (X2c N (or_introl eq_refl)) as (_ & EN2 & _). assert (O2 : o2 N = g) by congruence.
    destruct (set_edges_ok N O o2 (g_p st2) a2 bl b I2) as (t3 & a3 & E3 & I3 & T3 & X3); auto. { congruence. } { rewrite O2. auto. } { intros x Hx. apply H2. auto. }
    rewrite E3. cbn [bind]. exists (g_set st2 (link k (set_subt (g_p st2) t3) g N)), o2, a3, N. split; auto. split; [|split; [|split; auto]].
    + split; [cbn [g_set g_p]; rewrite <- O2; apply link_ok with (d := 2); auto|]. apply ni_set with o2; auto.
    + apply (gext_trans 2 2 O O o st a' o2 st2 a2); auto; try lia. { apply (gext_trans 2 2 O O o st a' o1 st1 a1); auto; try lia. { split; [exact X1|reflexivity]. } apply (gext_le 1 2 (N :: O) O); auto; [lia|]. intros; right; auto. }
      split; [exact X3|reflexivity].
Qed.

(** ** Regions *)
Lemma region_full' : forall r, In r (K 3) -> exists b, a_r a r = Some (true, Some b) /\ (length b <= maxrf)%nat /\ NoDup (map fst b) /\ forall x, In x b -> In (fst x) (K 2).
Proof using All.
  intros f H. apply (pa_r _ _ P) in H. destruct H as [[b|] H]; [|destruct (pa_regions _ _ P _ H)]. pose proof (i_w _ _ (reach_inv _ _ (pa_reach _ _ P))) as W. exists b. split; auto. destruct (w_rnd _ W _ _ _ H) as [A B]. split; auto. split; auto.
  intros x Hx. pose proof (w_rf _ W _ _ H) as F. rewrite Forall_forall in F. apply (pa_f _ _ P). destruct (F _ Hx) as [z Hz]. exists (Some z). auto.
Qed.
Lemma one_side : forall f d r r', has_face a r f d -> has_face a r' f d -> r = r'.
Proof using All.
  intros f d r r' H H'. pose proof (reach_inv _ _ (pa_reach _ _ P)) as I. pose proof (i_w _ _ I) as W.
  assert (N : forall q, has_face a q f d -> q <> NULL) by (intros q (b & E & _); assert (1 <= q < a_next a) by (apply (w_r _ W); congruence); unfold NULL; lia).
  assert (F : exists x, tfs (sm_t s) f = Some x). { destruct H as (b & E & Hb). pose proof (w_rf _ W _ _ E) as F. rewrite Forall_forall in F. destruct (F _ Hb) as [z Hz]. cbn [fst] in Hz. destruct (get_f _ _ f I ltac:(congruence)) as (y & Hy & _). eauto. }
  destruct F as [x Hx]. destruct (i_uf _ _ I _ _ Hx r (N _ H)) as [A B]. destruct (i_uf _ _ I _ _ Hx r' (N _ H')) as [A' B']. destruct d; [apply A in H; apply A' in H'|apply B in H; apply B' in H']; congruence.
Qed.
Lemma set_faces_ok' : forall N o st a' bl b, SI [N] o st a' -> In N (skind (ps_sub st) 3) -> a_r a' N = Some (true, None) -> a_r a (o N) = Some (true, Some b) -> via o bl = b -> (forall x, In x bl -> In (fst x) (skind (ps_sub st) 2)) ->
  exists t2 a2, MR_Set_Faces (sm_t (ps_sub st)) N (ZL (map fst bl)) (map fst bl) (dirz bl) = Ok t2 /\ SI [N] o (set_subt st t2) a2 /\ TI [] o (ps_sub (set_subt st t2)) a2.
Proof using All.
  intros N o st a' bl b I HN E0 Eb V HB. pose proof I as [T B]. destruct (t_o _ _ _ _ T _ _ HN) as [Kg _]. destruct (region_full' _ Kg) as (b1 & Eb1 & L30 & ND & _). rewrite Eb in Eb1. inversion Eb1; subst b1. clear Eb1.
  destruct (reach_step _ _ (TSetFaces N bl) (t_reach _ _ _ _ T)) as (t2 & S2 & R2).
  { cbn [tpre]. split; [left; auto|]. split; [|split; [|split]].
    - apply NoDup_map_inv with (f := o). rewrite <- V in ND. unfold via in ND. rewrite map_map in *. cbn [fst] in ND. exact ND.
    - rewrite <- V in L30. unfold via in L30. rewrite map_length in L30. auto.
    - apply Forall_forall. intros x Hx. specialize (HB _ Hx). destruct (t_loop _ _ _ _ T _ HB) as (l & El & _); [|exists l; auto]. intros [Q|[]]. subst N. pose proof (sub_apart _ _ _ _ _ _ _ T HN HB). lia.
    - intros f d q Hf (b' & Eq & Hq). destruct (Z.eq_dec q N) as [|Q]; auto. assert (Hq3 : In q (skind (ps_sub st) 3)) by (apply (t_r _ _ _ _ T); exists (Some b'); auto).
      destruct (t_faces _ _ _ _ T _ Hq3) as (b2 & Eq2 & E3 & _). { intros [|[]]; auto. } rewrite Eq in Eq2. inversion Eq2; subst b2. apply (t_inj _ _ _ _ T _ _ _ _ Hq3 HN). apply (one_side (o f) d).
      + exists (via o b'). split; auto. apply (in_map (fun x => (o (fst x), snd x)) _ _ Hq).
      + exists b. split; auto. rewrite <- V. apply (in_map (fun x => (o (fst x), snd x)) _ _ Hf). }
  cbn [tstep] in S2. set (a2 := astep a' (TSetFaces N bl)) in *. exists t2, a2. unfold ZL. rewrite map_length. split; [exact S2|].
  assert (AN : a_r a2 N = Some (true, Some bl)) by (unfold a2; cbn [astep set_rb with_r a_r]; rewrite upd_same, E0; auto).
  assert (AO : forall q, q <> N -> a_r a2 q = a_r a' q) by (intros q Q; unfold a2; cbn [astep set_rb with_r a_r]; rewrite upd_other; auto).
  assert (T2 : TI [N] o (ps_sub (set_subt st t2)) a2).
  { apply ti_step with a'; auto; try (intro q; reflexivity).
    - intro q. unfold live_r. destruct (Z.eq_dec q N) as [->|Q]; [rewrite AN, E0; split; eauto|]. rewrite AO by auto. reflexivity.
    - intros q Q. rewrite AO by (intros ->; apply Q; left; auto). auto. }
  split; [split; [exact T2|apply bi_t; auto]|].
  apply ti_close with N; auto.
  - intro Q. pose proof (sub_apart _ _ _ _ 3 1 N T HN Q). lia.
  - intro Q. pose proof (sub_apart _ _ _ _ 3 2 N T HN Q). lia.
  - intros _. exists bl. rewrite AN, Eb, V. split; auto.
Qed.

Lemma ghost_region_ok : forall o st a' g, c = 3 -> GS [] o st a' -> In g (K 3) -> inp g -> nocopy o (g_p st) g ->
  exists st2 o2 a2, ghost_region k st g = Ok st2 /\ GS [] o2 st2 a2 /\ done o st o2 st2 g.
Proof using All.
  intros o st a' g C3 G Hg Ig Ng. destruct (region_full' _ Hg) as (b & Eb & L5 & ND & HB). unfold ghost_region. cbv zeta. set (st0 := g_mark st g). assert (G0 : GS [] o st0 a') by exact G. pose proof G0 as [I NI0]. pose proof I as [T B]. unfold sm_t at 1. rewrite (b_m _ _ _ B). fold (sm_t s).
  destruct (region_rep _ _ _ _ (pa_reach _ _ P) Eb) as (y & Hy & Hl & HD). unfold MR_Faces at 1, getr. rewrite Hy. cbn [bind]. rewrite Hl. cbn [bind nn].
  match goal with |- context [foldM ?F _ _] => set (step := F) end.
  assert (L : exists st1 o1 a1 bl, foldM step (st0, [], []) (zrange 0 (ZL (map fst b))) = Ok (st1, map fst bl, dirz bl) /\ GS [] o1 st1 a1 /\ gext 2 [] o st0 a' o1 st1 a1 /\ via o1 bl = b /\ (forall x, In x bl -> In (fst x) (skind (ps_sub (g_p st1)) 2))).
  { edestruct (list_loop (ptr * bool) (gst * list ptr * list Z) (fun dn x => exists o2 a2 bl, snd (fst x) = map fst bl /\ snd x = dirz bl /\ GS [] o2 (fst (fst x)) a2 /\ gext 2 [] o st0 a' o2 (fst (fst x)) a2 /\ via o2 bl = dn /\ (forall y, In y bl -> In (fst y) (skind (ps_sub (g_p (fst (fst x)))) 2)))) with (full := b) (st := (st0, @nil ptr, @nil Z)) as (x & E & Q).
    3: { unfold ZL. rewrite map_length, E. destruct x as [[st2 es] ds]. cbn [fst snd] in Q. destruct Q as (o2 & a2 & bl & -> & -> & Q). exists st2, o2, a2, bl. auto. }
    2: { exists o, a', []. cbn [fst snd map]. split; auto. split; auto. split; auto. split; [apply gext_refl|]. split; auto. intros z []. }
    intros dn w rest [[st1 es] ds] Ef (o1 & a1 & bl & Q1 & Q2 & I1 & X1 & V1 & H1). cbn [fst snd] in *. subst es ds. unfold step.
    assert (LT : (length dn < length b)%nat) by (rewrite Ef, app_length; cbn; lia). assert (EN : nth (length dn) b dflt = w) by (rewrite Ef; apply nth_middle).
    rewrite lent_fst by auto. cbn [bind]. rewrite EN.
    assert (Hw : In w b) by (rewrite Ef; apply in_or_app; right; left; auto).
    destruct (ghost_rface_ok [] o1 st1 a1 (fst w) I1) as (st2 & o2 & a2 & l & E2 & I2 & X2 & Hl2 & NO & Ol); auto. { apply ip_face with g (snd w); auto. exists b. split; auto. destruct w; auto. } { intros q z []. }
    rewrite E2. cbn [bind]. pose proof I2 as [J2 _]. pose proof J2 as [T2 B2]. unfold sm_t at 1. rewrite (b_m _ _ _ B2). fold (sm_t s). rewrite HD, EN by auto. cbn [bind]. replace (MAXPF3 <=? Z.of_nat (length dn)) with false by (unfold MAXPF3, maxrf in *; lia).
    exists (st2, map fst bl ++ [l], dirz bl ++ [b2z (snd w)]). split; auto. cbn [fst snd]. exists o2, a2, (bl ++ [(l, snd w)]). unfold dirz. rewrite !map_app. split; auto. split; auto. split; auto. split; [eapply gext_trans; [| |exact X1|exact X2]; auto; lia|]. destruct X2 as [(X2a & X2b & X2c) X2d]. split.
    - rewrite via_app. f_equal; [rewrite <- V1; apply via_ext; intros z Hz; eapply X2b; apply H1; auto|]. cbn. rewrite Ol. destruct w; auto.
    - intros z Hz. apply in_app_or in Hz. destruct Hz as [Hz|[<-|[]]]; [|auto]. apply X2b. auto. }
  destruct L as (st1 & o1 & a1 & bl & E1 & G1 & [X1 CM1] & V1 & H1). rewrite E1. cbn [bind]. pose proof G1 as [I1 N1]. pose proof (nocopy_ext 3 2 _ _ _ _ _ _ _ _ eq_refl Hg I1 X1 Ng) as Ng1.
  destruct (new_copy_ok 3 [] o1 (g_p st1) a1 g I1) as (st2 & E2 & I2 & X2 & IN2 & EK2); auto.
  rewrite E2. set (N := a_next a1) in *. set (o2 := zupd o1 N g) in *. set (a2 := astep a1 (tnew 3)) in *. assert (ON : o2 N = g) by (unfold o2, zupd; rewrite Z.eqb_refl; auto).
  pose proof X2 as (X2a & X2b & X2c).
  destruct (set_faces_ok' N o2 st2 a2 bl b I2) as (t3 & a3 & E3 & I3 & T3); auto.
  { unfold a2. cbn. rewrite upd_same. auto. } { rewrite ON. auto. } { rewrite <- V1. apply via_ext. intros x Hx. apply (X2b 2). apply H1. auto. } { intros x Hx. apply X2b. apply H1. auto. }
  rewrite E3. cbn [bind]. rewrite (full_ok _ _ st2 _ 3 g _ _ (proj2 I2) Hg Ig). exists (g_set st1 (link k (set_subt st2 t3) g N)), o2, a3. split; auto. split.
  { split; [cbn [g_set g_p]; rewrite <- ON; apply link_ok with (d := 3); auto|]. apply ni_set with o1; auto. { change (skind (ps_sub st2) 0 = skind (ps_sub (g_p st1)) 0). rewrite EK2. reflexivity. } intros q Hq. apply (X2b 0). auto. }
  split; [|exact CM1]. destruct X1 as (X1a & X1b & X1c). unfold celled. rewrite C3. cbn [g_set g_p link ps_sub]. split; [|split].
  - intros d q Hq. destruct (X1b _ _ Hq) as [Y1 Y2]. destruct (X2b _ _ Y1) as [Y3 Y4]. split; [exact Y3|congruence].
  - intros q Hq. rewrite <- ON. destruct (Z.eq_dec q N) as [->|Q]; auto. left. change (g_p st) with (g_p st0). rewrite <- X1a by lia. change (In q (skind (ps_sub st2) 3)) in Hq.
    rewrite EK2, Z.eqb_refl in Hq. apply in_app_or in Hq. destruct Hq as [Hq|[Hq|[]]]; auto. destruct Q. auto.
  - exists N. split; auto.
Qed.
End Making.
