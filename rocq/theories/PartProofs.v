(** Invariants of making the parts of a mesh. *)
From Coq Require Import ZArith Bool Floats.SpecFloat List Lia Arith ZifyBool ZifyNat.
From Verif Require Import Base BaseProofs ListSpec AttModel AttProps TopoModel TopoSpec TopoProofs TopoProofs2 TopoProofs3 TopoProofs5 TopoProps TopoProps2 CellProofs2 ParModel BuildProofs2 FileModel FileSpec FileProofs3 FileProofs4 SendModel SendSpec SendProofs2 PartModel PartSpec.
Import ListNotations.
Open Scope Z_scope.

(** ** No address is used for entities of two kinds *)
Definition slot {A B C D} (v : option A) (e : option B) (f : option C) (r : option D) : Prop :=
  (v = None \/ (e = None /\ f = None /\ r = None)) /\ (e = None \/ (v = None /\ f = None /\ r = None)) /\ (f = None \/ (v = None /\ e = None /\ r = None)) /\ (r = None \/ (v = None /\ e = None /\ f = None)).
Definition apart (a : amesh) : Prop := forall p, slot (a_v a p) (a_e a p) (a_f a p) (a_r a p) /\ (a_next a <= p -> a_v a p = None /\ a_e a p = None /\ a_f a p = None /\ a_r a p = None).

Lemma slot_mono : forall A B C D (v v' : option A) (e e' : option B) (f f' : option C) (r r' : option D), (v = None -> v' = None) -> (e = None -> e' = None) -> (f = None -> f' = None) -> (r = None -> r' = None) -> slot v e f r -> slot v' e' f' r'.
Proof. unfold slot. intros. intuition. Qed.
Lemma apart_mono : forall a a', apart a -> a_next a' = a_next a -> (forall p, a_v a p = None -> a_v a' p = None) -> (forall p, a_e a p = None -> a_e a' p = None) -> (forall p, a_f a p = None -> a_f a' p = None) -> (forall p, a_r a p = None -> a_r a' p = None) -> apart a'.
Proof.
  intros a a' H N V E F R p. destruct (H p) as [S L]. split. { revert S. apply slot_mono; auto. } rewrite N. intro Q. destruct (L Q) as (L1 & L2 & L3 & L4). auto.
Qed.
Lemma upd_none : forall A (m : ptr -> option A) p x q, (m p = None -> x = None) -> m q = None -> upd m p x q = None.
Proof. intros A m p x q H N. unfold upd. destruct (Z.eqb_spec q p) as [->|]; auto. Qed.
Lemma kill_none : forall A (m : ptr -> option (bool * A)) p k q, m q = None -> kill m p k q = None.
Proof. intros. unfold kill. apply upd_none; auto. intros ->. destruct k; auto. Qed.
Lemma revive_none : forall A (m : ptr -> option (bool * A)) p q, m q = None -> revive m p q = None.
Proof. intros. unfold revive. apply upd_none; auto. intros ->. auto. Qed.

Lemma apart_step : forall a o, apart a -> apart (astep a o).
Proof.
  intros a o H. destruct o; cbn [astep]; unfold set_fb, set_rb;
  try (apply (apart_mono a); cbn [with_v with_e with_f with_r a_v a_e a_f a_r a_next]; auto; intros q Hq; first [apply kill_none; exact Hq | apply revive_none; exact Hq | apply upd_none; [intros ->; auto; match goal with |- context[if ?k then _ else _] => destruct k; auto end | exact Hq]]; fail).
  1,2,3,4: (intros p; destruct (H p) as [S L]; cbn [bump with_v with_e with_f with_r a_v a_e a_f a_r a_next]; unfold upd; destruct (Z.eqb_spec p (a_next a)) as [->|N]; [destruct (L (Z.le_refl _)) as (L1 & L2 & L3 & L4); rewrite ?L1, ?L2, ?L3, ?L4; split; [unfold slot; intuition|intros; exfalso; lia] | split; [exact S|intros; apply L; lia]]).
  destruct (existsb _ _); auto. apply (apart_mono a); cbn [with_r a_v a_e a_f a_r a_next]; auto. intros p ->. auto.
Qed.
Lemma reach_apart : forall t a, reach t a -> apart a.
Proof.
  intros t a (ops & _ & _ & ->). assert (A : apart amesh0) by (intro p; cbn; split; [unfold slot; auto|auto]). revert A. generalize amesh0. induction ops as [|o ops IH]; intros a0 A; cbn [arun]; auto. apply IH. apply apart_step. auto.
Qed.
Lemma kinds_apart : forall (s : smesh) a, reach (sm_t s) a -> (forall p, In p (skind s 0) <-> live_v a p) -> (forall p, In p (skind s 1) <-> live_e a p) -> (forall p, In p (skind s 2) <-> live_f a p) -> (forall p, In p (skind s 3) <-> live_r a p) ->
  forall d d' p, In p (skind s d) -> In p (skind s d') -> d = d'.
Proof.
  intros s a R HV HE HF HR d d' p H H'. destruct (reach_apart _ _ R p) as [S _]. unfold slot in S.
  assert (X : forall d, In p (skind s d) -> (d = 0 /\ a_v a p <> None) \/ (d = 1 /\ a_e a p <> None) \/ (d = 2 /\ a_f a p <> None) \/ (d = 3 /\ a_r a p <> None)).
  { intros d0 H0. destruct (kind_cases _ _ _ H0) as [-> | [-> | [-> | ->]]].
    - apply HV in H0. left. split; auto. unfold live_v in H0. congruence.
    - apply HE in H0. destruct H0 as [x H0]. right; left. split; auto. congruence.
    - apply HF in H0. destruct H0 as [x H0]. right; right; left. split; auto. congruence.
    - apply HR in H0. destruct H0 as [x H0]. right; right; right. split; auto. congruence. }
  destruct (X _ H) as [(-> & N)|[(-> & N)|[(-> & N)|(-> & N)]]], (X _ H') as [(-> & N')|[(-> & N')|[(-> & N')|(-> & N')]]]; auto; exfalso; tauto.
Qed.

(** ** The invariant while part [k] is made *)
Section Making.
Variables (s : smesh) (a : amesh) (part : list Z) (k : Z) (g2l0 : ptr -> list (Z * ptr)) (M0 G0 : ptr -> Z).
Hypothesis P : partable s a.
Notation K := (skind s).
Notation c := (celldim s).
Notation inp := (inpart s a part k).
Hypothesis Hk : 0 <= k < 2 ^ 29 - 1.
Hypothesis HM0 : forall d g, d < celldim s -> In g (skind s d) -> 0 <= M0 g <= k.
Hypothesis Hg0 : forall g x, In x (g2l0 g) -> fst x <> k.

Lemma K_apart : forall d d' p, In p (K d) -> In p (K d') -> d = d'.
Proof using All. apply (kinds_apart s a); apply P. Qed.
Lemma K_null : forall d p, In p (K d) -> p <> NULL.
Proof using All.
  intros d p H. pose proof (i_w _ _ (reach_inv _ _ (pa_reach _ _ P))) as W. unfold NULL. destruct (kind_cases _ _ _ H) as [-> | [-> | [-> | ->]]].
  - apply (pa_v _ _ P) in H. unfold live_v in H. assert (1 <= p < a_next a) by (apply (w_v _ W); congruence). lia.
  - apply (pa_e _ _ P) in H. destruct H as [x H]. assert (1 <= p < a_next a) by (apply (w_e _ W); congruence). lia.
  - apply (pa_f _ _ P) in H. destruct H as [x H]. assert (1 <= p < a_next a) by (apply (w_f _ W); congruence). lia.
  - apply (pa_r _ _ P) in H. destruct H as [x H]. assert (1 <= p < a_next a) by (apply (w_r _ W); congruence). lia.
Qed.

(** [O]: entities that are not complete; [o]: the entity a copy is made of. *)
Record TI (O : list ptr) (o : ptr -> ptr) (sub : smesh) (a' : amesh) : Prop := mkTI {
  t_reach : reach (sm_t sub) a';
  t_nd : forall d, NoDup (skind sub d);
  t_v : forall q, In q (skind sub 0) <-> live_v a' q;
  t_e : forall q, In q (skind sub 1) <-> live_e a' q;
  t_f : forall q, In q (skind sub 2) <-> live_f a' q;
  t_r : forall q, In q (skind sub 3) <-> live_r a' q;
  t_id : forall d i q, nth_error (skind sub d) i = Some q -> fm_id (sm_m sub) q = Z.of_nat i + 1;
  t_open : forall q, In q O -> exists d, In q (skind sub d);
  t_o : forall d q, In q (skind sub d) -> In (o q) (K d) /\ inp (o q);
  t_inj : forall d q d' q', In q (skind sub d) -> In q' (skind sub d') -> o q = o q' -> q = q';
  t_ends : forall q, In q (skind sub 1) -> ~ In q O -> exists u w, a_e a' q = Some (true, (u, w)) /\ a_e a (o q) = Some (true, (o u, o w)) /\ In u (skind sub 0) /\ In w (skind sub 0);
  t_loop : forall q, In q (skind sub 2) -> ~ In q O -> exists b, a_f a' q = Some (true, Some b) /\ a_f a (o q) = Some (true, Some (via o b)) /\ (forall x, In x b -> In (fst x) (skind sub 1));
  t_faces : forall q, In q (skind sub 3) -> ~ In q O -> exists b, a_r a' q = Some (true, Some b) /\ a_r a (o q) = Some (true, Some (via o b)) /\ (forall x, In x b -> In (fst x) (skind sub 2));
  t_x : forall q, In q (skind sub 0) -> fm_x (sm_m sub) q = fm_x (sm_m s) (o q);
  t_c : forall d q, In q (skind sub d) -> fm_c (sm_m sub) q = fm_c (sm_m s) (o q) }.

Definition ms (st : pst) (g : ptr) : Z := pi_master (sm_p (ps_par st) g).
Definition gi (st : pst) (g : ptr) : Z := pi_gid (sm_p (ps_par st) g).
(** Numbers given so far to entities of dimension [d]. *)
Definition numbered (d : Z) (G : ptr -> Z) (n : Z) : Prop :=
  1 <= n /\ ((forall p, In p (K d) -> pi_gid (sm_p s p) = 0) ->
    (forall p, In p (K d) -> 0 <= G p < n) /\ (forall p q, In p (K d) -> In q (K d) -> G p = G q -> G p <> 0 -> p = q) /\ (forall i, 1 <= i < n -> exists p, In p (K d) /\ G p = i)).

Record BI (O : list ptr) (o : ptr -> ptr) (st : pst) : Prop := mkBI {
  b_m : sm_m (ps_par st) = sm_m s;
  b_keep : forall g, pi_ptype (sm_p (ps_par st) g) = pi_ptype (sm_p s g) /\ pi_bdry (sm_p (ps_par st) g) = pi_bdry (sm_p s g);
  b_list : forall g, (ps_g2l st g = g2l0 g /\ forall d q, In q (skind (ps_sub st) d) -> o q = g -> In q O) \/ (exists d l, In l (skind (ps_sub st) d) /\ ~ In l O /\ o l = g /\ ps_g2l st g = g2l0 g ++ [(k, l)]);
  b_l2g : forall d q, In q (skind (ps_sub st) d) -> ~ In q O -> ps_l2g st q = o q;
  b_mcop : forall d q, d < c -> In q (skind (ps_sub st) d) -> ms st (o q) = if M0 (o q) =? 0 then k + 1 else M0 (o q);
  b_mnot : forall g, (forall d q, In q (skind (ps_sub st) d) -> o q <> g) -> ms st g = M0 g;
  b_mloc : forall d q, d < c -> In q (skind (ps_sub st) d) -> pi_master (sm_p (ps_sub st) q) = ms st (o q) - 1;
  b_cell : forall q, In q (skind (ps_sub st) c) -> pi_master (sm_p (ps_sub st) q) = k /\ ms st (o q) = k;
  b_gkeep : forall g, G0 g <> 0 -> gi st g = G0 g;
  b_gloc : forall d q, In q (skind (ps_sub st) d) -> pi_gid (sm_p (ps_sub st) q) = gi st (o q) /\ gi st (o q) <> 0;
  b_ids : forall d, numbered d (gi st) (ps_ids st d);
  b_mg : forall d g, d < c -> In g (K d) -> ms st g <> 0 -> gi st g <> 0;
  b_pl : forall q, pi_ptype (sm_p (ps_sub st) q) = 0 /\ pi_bdry (sm_p (ps_sub st) q) = false }.

Definition tnew (d : Z) : top := if d =? 0 then TNewV else if d =? 1 then TNewE else if d =? 2 then TNewF else TNewR.
(** The mesh of the submesh after a new entity. *)
Definition grown (d : Z) (sub : smesh) (g : ptr) (m : fmesh) (N : ptr) : Prop :=
  (forall x, kind m x = if x =? d then skind sub x ++ [N] else skind sub x) /\
  (forall q, fm_id m q = if q =? N then ZL (skind sub d) + 1 else fm_id (sm_m sub) q) /\
  (forall q, fm_c m q = if q =? N then fm_c (sm_m s) g else fm_c (sm_m sub) q) /\
  (forall q, q <> N -> fm_x m q = fm_x (sm_m sub) q) /\ (d = 0 -> fm_x m N = fm_x (sm_m s) g).
Definition made (d : Z) (st : pst) (g : ptr) : fmesh * ptr :=
  let '(m, l) := add_ent d (sm_m (ps_sub st)) in
  let m := if d =? 0 then set_x m l (fm_x (sm_m (ps_par st)) g) else m in
  (set_info m l (fm_c (sm_m (ps_par st)) g) (fm_id m l), l).
Lemma made_ok : forall d st g a', reach (sm_t (ps_sub st)) a' -> sm_m (ps_par st) = sm_m s -> In g (K d) ->
  exists m, made d st g = (m, a_next a') /\ grown d (ps_sub st) g m (a_next a') /\ reach (fm_t m) (astep a' (tnew d)).
Proof using All.
  intros d st g a' R EM Hg. destruct (pa_class _ _ P _ _ Hg) as [C1 C2]. pose proof (reach_inv _ _ R) as I.
  destruct (reach_step _ _ (tnew d) R) as (t1 & S1 & R1). { unfold tnew. destruct (d =? 0), (d =? 1), (d =? 2); exact Logic.I. }
  unfold made. rewrite EM. destruct (fm_c (sm_m s) g) as [c1 c2] eqn:EC. cbn [fst snd] in C1, C2.
  destruct (kind_cases _ _ _ Hg) as [-> | [-> | [-> | ->]]]; unfold add_ent; cbn [Z.eqb Pos.eqb]; unfold add_v, add_e, add_f, add_r, new_v, new_e, new_f, new_r, tnew in *; cbn [Z.eqb Pos.eqb tstep] in *; unfold sm_t in *;
    unfold MV_New, ME_New, MF_New, MR_New in *; inversion S1 as [S1']; clear S1; cbn [fst snd] in *; cbv beta iota zeta; rewrite (i_n _ _ I) in *; eexists; (split; [reflexivity|]); (split; [|cbn [fm_t set_info set_id set_x]; rewrite S1'; exact R1]).
  all: unfold grown; cbn [fm_t fm_c fm_x fm_id fm_v fm_e fm_f fm_r set_info set_id set_x fst snd]; rewrite (Z.mod_small c1 (2^3)), (Z.mod_small c2 (2^26)) by lia; unfold zupd; rewrite ?Z.eqb_refl.
  all: split; [intro x; unfold skind, kind; cbn [fm_v fm_e fm_f fm_r]; destruct (Z.eqb_spec x 0) as [->|]; [reflexivity|]; destruct (Z.eqb_spec x 1) as [->|]; [reflexivity|]; destruct (Z.eqb_spec x 2) as [->|]; [reflexivity|]; destruct (Z.eqb_spec x 3) as [->|]; reflexivity|].
  all: split; [intro q; destruct (q =? a_next a') eqn:Q; rewrite ?Q; reflexivity|].
  all: split; [intro q; rewrite ?EC; destruct (q =? a_next a'); reflexivity|].
  all: split; [intros q N; destruct (Z.eqb_spec q (a_next a')); [congruence|reflexivity]|].
  all: intro H0; try discriminate H0; reflexivity.
Qed.
Lemma grown_in : forall d sub g m N x q, grown d sub g m N -> In q (kind m x) -> (In q (skind sub x)) \/ (x = d /\ q = N).
Proof using All. intros d sub g m N x q (E & _) H. rewrite E in H. destruct (Z.eqb_spec x d) as [->|]; auto. apply in_app_or in H. destruct H as [H|[H|[]]]; auto. Qed.
Lemma grown_old : forall d sub g m N x q, grown d sub g m N -> In q (skind sub x) -> In q (kind m x).
Proof using All. intros d sub g m N x q (E & _) H. rewrite E. destruct (Z.eqb_spec x d) as [->|]; auto. apply in_or_app; auto. Qed.
Lemma grown_new : forall d sub g m N, grown d sub g m N -> In N (kind m d).
Proof using All. intros d sub g m N (E & _). rewrite E, Z.eqb_refl. apply in_or_app; cbn; auto. Qed.
Lemma sub_below : forall O o sub a' d q, TI O o sub a' -> In q (skind sub d) -> q <> a_next a'.
Proof using All.
  intros O o sub a' d q T H. pose proof (i_w _ _ (reach_inv _ _ (t_reach _ _ _ _ T))) as W. intros ->. destruct (kind_cases _ _ _ H) as [-> | [-> | [-> | ->]]].
  - apply (t_v _ _ _ _ T) in H. unfold live_v in H. assert (1 <= a_next a' < a_next a') by (apply (w_v _ W); congruence). lia.
  - apply (t_e _ _ _ _ T) in H. destruct H as [x H]. assert (1 <= a_next a' < a_next a') by (apply (w_e _ W); congruence). lia.
  - apply (t_f _ _ _ _ T) in H. destruct H as [x H]. assert (1 <= a_next a' < a_next a') by (apply (w_f _ W); congruence). lia.
  - apply (t_r _ _ _ _ T) in H. destruct H as [x H]. assert (1 <= a_next a' < a_next a') by (apply (w_r _ W); congruence). lia.
Qed.
Lemma via_ext : forall o o' b, (forall x, In x b -> o' (fst x) = o (fst x)) -> via o' b = via o b.
Proof using All. intros o o' b H. unfold via. apply map_ext_in. intros x Hx. rewrite H; auto. Qed.

(** ** A new copy *)
Lemma ti_new : forall d O o sub a' g m sub', TI O o sub a' -> grown d sub g m (a_next a') -> reach (fm_t m) (astep a' (tnew d)) -> sm_m sub' = m -> In g (K d) -> inp g -> (forall x q, In q (skind sub x) -> o q <> g) ->
  TI (a_next a' :: O) (zupd o (a_next a') g) sub' (astep a' (tnew d)).
Proof using All.
  intros d O o sub a' g m sub' T GR R1 Em Hg Ig Ng. set (N := a_next a') in *. set (o' := zupd o N g).
  assert (EK : forall x, skind sub' x = kind m x) by (intro x; unfold skind; rewrite Em; auto).
  assert (ON : o' N = g) by (unfold o', zupd; rewrite Z.eqb_refl; auto).
  assert (OO : forall x q, In q (skind sub x) -> o' q = o q) by (intros x q H; unfold o', zupd; destruct (Z.eqb_spec q N) as [->|]; auto; destruct (sub_below _ _ _ _ _ _ T H); auto).
  assert (NO : forall x, ~ In N (skind sub x)) by (intros x H; destruct (sub_below _ _ _ _ _ _ T H); auto).
  assert (D : d = 0 \/ d = 1 \/ d = 2 \/ d = 3) by (eapply kind_cases; eauto).
  destruct GR as (GR1 & GR2 & GR3 & GR4 & GR5). assert (GR : grown d sub g m N) by (repeat split; auto).
  pose proof (reach_apart _ _ (t_reach _ _ _ _ T) N) as [_ FR]. destruct (FR (Z.le_refl _)) as (FV & FE & FF & FRr). clear FR.
  assert (TV : forall q, a_v (astep a' (tnew d)) q = if (d =? 0) && (q =? N) then Some true else a_v a' q) by (intro q; destruct D as [-> | [-> | [-> | ->]]]; cbn; unfold upd; fold N; auto; destruct (q =? N); auto).
  assert (TE : forall q, a_e (astep a' (tnew d)) q = if (d =? 1) && (q =? N) then Some (true, (NULL, NULL)) else a_e a' q) by (intro q; destruct D as [-> | [-> | [-> | ->]]]; cbn; unfold upd; fold N; auto; destruct (q =? N); auto).
  assert (TF : forall q, a_f (astep a' (tnew d)) q = if (d =? 2) && (q =? N) then Some (true, None) else a_f a' q) by (intro q; destruct D as [-> | [-> | [-> | ->]]]; cbn; unfold upd; fold N; auto; destruct (q =? N); auto).
  assert (TR : forall q, a_r (astep a' (tnew d)) q = if (d =? 3) && (q =? N) then Some (true, None) else a_r a' q) by (intro q; destruct D as [-> | [-> | [-> | ->]]]; cbn; unfold upd; fold N; auto; destruct (q =? N); auto).
  assert (EX : forall x q, In q (skind sub' x) <-> In q (skind sub x) \/ (x = d /\ q = N)).
  { intros x q. rewrite EK. split; [apply grown_in with g; auto|]. intros [H|[-> ->]]; [eapply grown_old; eauto|eapply grown_new; eauto]. }
  assert (CL : forall x q, In q (skind sub' x) -> ~ In q (N :: O) -> In q (skind sub x) /\ ~ In q O).
  { intros x q H Q. cbn in Q. apply EX in H. destruct H as [H|[_ ->]]; tauto. }
  constructor.
  - unfold sm_t. rewrite Em. exact R1.
  - intro x. rewrite EK, GR1. destruct (Z.eqb_spec x d) as [->|]; [|apply (t_nd _ _ _ _ T)]. apply nd_app. split; [apply (t_nd _ _ _ _ T)|]. split; [repeat constructor; cbn; tauto|]. intros q H [<-|[]]. eapply NO; eauto.
  - intro q. rewrite EX, (t_v _ _ _ _ T). unfold live_v. rewrite TV. destruct (Z.eqb_spec d 0) as [->|Q], (Z.eqb_spec q N) as [->|Q']; cbn [andb]; try tauto. all: intuition; try congruence.
  - intro q. rewrite EX, (t_e _ _ _ _ T). unfold live_e. rewrite TE. destruct (Z.eqb_spec d 1) as [->|Q], (Z.eqb_spec q N) as [->|Q']; cbn [andb]; try tauto. 1: split; eauto. all: intuition; try congruence.
  - intro q. rewrite EX, (t_f _ _ _ _ T). unfold live_f. rewrite TF. destruct (Z.eqb_spec d 2) as [->|Q], (Z.eqb_spec q N) as [->|Q']; cbn [andb]; try tauto. 1: split; eauto. all: intuition; try congruence.
  - intro q. rewrite EX, (t_r _ _ _ _ T). unfold live_r. rewrite TR. destruct (Z.eqb_spec d 3) as [->|Q], (Z.eqb_spec q N) as [->|Q']; cbn [andb]; try tauto. 1: split; eauto. all: intuition; try congruence.
  - intros x i q H. rewrite EK, GR1 in H. rewrite Em, GR2. destruct (Z.eqb_spec x d) as [->|Q].
    + destruct (Nat.lt_ge_cases i (length (skind sub d))) as [L|L].
      * rewrite nth_error_app1 in H by auto. assert (q <> N) by (intros ->; apply nth_error_In in H; eapply NO; eauto). replace (q =? N) with false by lia. eapply t_id; eauto.
      * rewrite nth_error_app2 in H by auto. destruct (i - length (skind sub d))%nat as [|j] eqn:Ej; [|destruct j; discriminate]. cbn in H. inversion H; subst q. rewrite Z.eqb_refl. unfold ZL. lia.
    + assert (q <> N) by (intros ->; apply nth_error_In in H; eapply NO; eauto). replace (q =? N) with false by lia. eapply t_id; eauto.
  - intros q [<-|H]. { exists d. apply EX. auto. } destruct (t_open _ _ _ _ T _ H) as [x Hx]. exists x. apply EX. auto.
  - intros x q H. apply EX in H. destruct H as [H|[-> ->]]; [rewrite (OO _ _ H); eapply t_o; eauto|rewrite ON; auto].
  - intros x q x' q' H H' E. apply EX in H. apply EX in H'. destruct H as [H|[-> ->]], H' as [H'|[-> ->]]; auto.
    + rewrite (OO _ _ H), (OO _ _ H') in E. eapply t_inj; eauto.
    + rewrite (OO _ _ H), ON in E. destruct (Ng _ _ H E).
    + rewrite (OO _ _ H'), ON in E. symmetry in E. destruct (Ng _ _ H' E).
  - intros q H Q. destruct (CL _ _ H Q) as [H1 H2]. destruct (t_ends _ _ _ _ T _ H1 H2) as (u & w & E1 & E2 & U & W). exists u, w. rewrite TE. assert (q <> N) by (intros ->; eapply NO; eauto). replace (q =? N) with false by lia. rewrite andb_false_r.
    rewrite (OO _ _ H1), (OO _ _ U), (OO _ _ W). split; auto. split; auto. split; apply EX; auto.
  - intros q H Q. destruct (CL _ _ H Q) as [H1 H2]. destruct (t_loop _ _ _ _ T _ H1 H2) as (b & E1 & E2 & B). exists b. rewrite TF. assert (q <> N) by (intros ->; eapply NO; eauto). replace (q =? N) with false by lia. rewrite andb_false_r.
    rewrite (OO _ _ H1), (via_ext o) by (intros y Hy; eapply OO; eauto). split; auto. split; auto. intros y Hy. apply EX. auto.
  - intros q H Q. destruct (CL _ _ H Q) as [H1 H2]. destruct (t_faces _ _ _ _ T _ H1 H2) as (b & E1 & E2 & B). exists b. rewrite TR. assert (q <> N) by (intros ->; eapply NO; eauto). replace (q =? N) with false by lia. rewrite andb_false_r.
    rewrite (OO _ _ H1), (via_ext o) by (intros y Hy; eapply OO; eauto). split; auto. split; auto. intros y Hy. apply EX. auto.
  - intros q H. rewrite Em. apply EX in H. destruct H as [H|[<- ->]].
    + rewrite GR4 by (intros ->; eapply NO; eauto). rewrite (OO _ _ H). eapply t_x; eauto.
    + rewrite GR5, ON; auto.
  - intros x q H. rewrite Em, GR3. apply EX in H. destruct H as [H|[-> ->]].
    + assert (q <> N) by (intros ->; eapply NO; eauto). replace (q =? N) with false by lia. rewrite (OO _ _ H). eapply t_c; eauto.
    + rewrite Z.eqb_refl, ON; auto.
Qed.

Lemma numbered_ext : forall d G G' n, (forall p, In p (K d) -> G' p = G p) -> numbered d G n -> numbered d G' n.
Proof using All.
  intros d G G' n E [H1 H2]. split; auto. intro Z. destruct (H2 Z) as (A & B & C). split; [|split].
  - intros p Hp. rewrite E; auto.
  - intros p q Hp Hq. rewrite !E by auto. auto.
  - intros i Hi. destruct (C _ Hi) as (p & Hp & <-). exists p. auto.
Qed.
Lemma numbered_new : forall d G n g, In g (K d) -> G g = 0 -> numbered d G n -> numbered d (fun x => if x =? g then n else G x) (n + 1).
Proof using All.
  intros d G n g Hg G0' [H1 H2]. split; [lia|]. intro Z. destruct (H2 Z) as (A & B & C). split; [|split].
  - intros p Hp. specialize (A _ Hp). destruct (p =? g); lia.
  - intros p q Hp Hq. pose proof (A _ Hp). pose proof (A _ Hq). destruct (Z.eqb_spec p g), (Z.eqb_spec q g); intros; subst; auto; lia.
  - intros i Hi. destruct (Z.eq_dec i n) as [->|N]. { exists g. rewrite Z.eqb_refl. auto. } destruct (C i ltac:(lia)) as (p & Hp & Ep). exists p. split; auto. destruct (Z.eqb_spec p g); auto. subst. lia.
Qed.

Lemma bi_new : forall d O o st st' a' g Mn Ml Gn, TI O o (ps_sub st) a' -> BI O o st -> In g (K d) -> d <= c -> (forall x q, In q (skind (ps_sub st) x) -> o q <> g) ->
  sm_m (ps_par st') = sm_m (ps_par st) -> (forall x, sm_p (ps_par st') x = if x =? g then mkPI (pi_ptype (sm_p (ps_par st) x)) (pi_bdry (sm_p (ps_par st) x)) Mn Gn else sm_p (ps_par st) x) ->
  ps_g2l st' = ps_g2l st -> ps_l2g st' = ps_l2g st -> (forall x, skind (ps_sub st') x = if x =? d then skind (ps_sub st) x ++ [a_next a'] else skind (ps_sub st) x) ->
  (forall q, sm_p (ps_sub st') q = if q =? a_next a' then mkPI 0 false Ml Gn else sm_p (ps_sub st) q) ->
  (d < c -> Mn = (if M0 g =? 0 then k + 1 else M0 g) /\ Ml = Mn - 1) -> (d = c -> Mn = k /\ Ml = k) -> Gn <> 0 ->
  ((Gn = gi st g /\ ps_ids st' = ps_ids st) \/ (gi st g = 0 /\ Gn = ps_ids st d /\ ps_ids st' = zupd (ps_ids st) d (ps_ids st d + 1))) ->
  BI (a_next a' :: O) (zupd o (a_next a') g) st'.
Proof using All.
  intros d O o st st' a' g Mn Ml Gn T B Hg Dc Ng E1 E2 E3 E4 E5 E6 Hs Hc HG Hid. set (N := a_next a') in *. set (o' := zupd o N g).
  assert (ON : o' N = g) by (unfold o', zupd; rewrite Z.eqb_refl; auto).
  assert (NO : forall x, ~ In N (skind (ps_sub st) x)) by (intros x H; destruct (sub_below _ _ _ _ _ _ T H); auto).
  assert (OO : forall x q, In q (skind (ps_sub st) x) -> o' q = o q) by (intros x q H; unfold o', zupd; destruct (Z.eqb_spec q N) as [->|]; auto; destruct (NO _ H)).
  assert (EX : forall x q, In q (skind (ps_sub st') x) <-> In q (skind (ps_sub st) x) \/ (x = d /\ q = N)).
  { intros x q. rewrite E5. destruct (Z.eqb_spec x d) as [->|Q]; [|tauto]. rewrite in_app_iff. cbn. intuition. }
  assert (EM : forall x, ms st' x = if x =? g then Mn else ms st x) by (intro x; unfold ms; rewrite E2; destruct (x =? g); auto).
  assert (EG : forall x, gi st' x = if x =? g then Gn else gi st x) by (intro x; unfold gi; rewrite E2; destruct (x =? g); auto).
  assert (EP : forall x q, In q (skind (ps_sub st) x) -> sm_p (ps_sub st') q = sm_p (ps_sub st) q) by (intros x q H; rewrite E6; destruct (Z.eqb_spec q N) as [->|]; auto; destruct (NO _ H)).
  assert (EN : sm_p (ps_sub st') N = mkPI 0 false Ml Gn) by (rewrite E6, Z.eqb_refl; auto).
  assert (NG : forall x q, In q (skind (ps_sub st) x) -> (o q =? g) = false) by (intros x q H; specialize (Ng _ _ H); lia).
  constructor.
  - rewrite E1. apply (b_m _ _ _ B).
  - intro x. rewrite E2. destruct (x =? g); cbn [pi_ptype pi_bdry]; apply (b_keep _ _ _ B).
  - intro x. rewrite E3. destruct (b_list _ _ _ B x) as [[H1 H2]|(y & l & H1 & H2 & H3 & H4)].
    + left. split; auto. intros y q H H'. apply EX in H. destruct H as [H|[-> ->]]; [|left; auto]. right. eapply H2; eauto. rewrite <- H'. symmetry. eapply OO; eauto.
    + right. exists y, l. split; [apply EX; auto|]. split; [|rewrite (OO _ _ H1); auto]. intros [<-|Q]; [eapply NO; eauto|auto].
  - intros x q H Q. rewrite E4. apply EX in H. destruct H as [H|[-> ->]]; [|destruct Q; left; auto]. rewrite (OO _ _ H). apply (b_l2g _ _ _ B x); auto. intro. apply Q. right; auto.
  - intros x q Hx H. rewrite EM. apply EX in H. destruct H as [H|[-> ->]].
    + rewrite (OO _ _ H), (NG _ _ H). eapply b_mcop; eauto.
    + rewrite ON, Z.eqb_refl. apply Hs; auto.
  - intros x H. rewrite EM. destruct (Z.eqb_spec x g) as [->|Q].
    + destruct (H d N); [apply EX; auto|auto].
    + apply (b_mnot _ _ _ B). intros y q Hq. rewrite <- (OO _ _ Hq). apply (H y). apply EX; auto.
  - intros x q Hx H. apply EX in H. destruct H as [H|[-> ->]].
    + rewrite (EP _ _ H), EM, (OO _ _ H), (NG _ _ H). eapply b_mloc; eauto.
    + rewrite EN, EM, ON, Z.eqb_refl. cbn [pi_master]. apply Hs; auto.
  - intros q H. apply EX in H. destruct H as [H|[Q ->]].
    + rewrite (EP _ _ H), EM, (OO _ _ H), (NG _ _ H). eapply b_cell; eauto.
    + rewrite EN, EM, ON, Z.eqb_refl. cbn [pi_master]. destruct Hc; auto.
  - intros x H. rewrite EG. destruct (Z.eqb_spec x g) as [->|Q]; [|apply (b_gkeep _ _ _ B); auto]. pose proof (b_gkeep _ _ _ B _ H) as HH. destruct Hid as [[-> _]|(? & _)]; auto. congruence.
  - intros x q H. apply EX in H. destruct H as [H|[-> ->]].
    + rewrite (EP _ _ H), EG, (OO _ _ H), (NG _ _ H). eapply b_gloc; eauto.
    + rewrite EN, EG, ON, Z.eqb_refl. cbn [pi_gid]. auto.
  - intro x. destruct Hid as [[H1 H2]|(H1 & H2 & H3)].
    + rewrite H2. apply numbered_ext with (gi st); [|apply (b_ids _ _ _ B)]. intros p _. rewrite EG. destruct (Z.eqb_spec p g) as [->|]; auto.
    + rewrite H3. unfold zupd. destruct (Z.eqb_spec x d) as [->|Q].
      * apply numbered_ext with (fun y => if y =? g then ps_ids st d else gi st y); [intros p _; rewrite EG, H2; auto|]. apply numbered_new; auto. apply (b_ids _ _ _ B).
      * apply numbered_ext with (gi st); [|apply (b_ids _ _ _ B)]. intros p Hp. rewrite EG. destruct (Z.eqb_spec p g) as [->|]; auto. destruct Q. eapply K_apart; eauto.
  - intros x p Hx Hp. rewrite EM, EG. destruct (p =? g); auto. eapply b_mg; eauto.
  - intro q. rewrite E6. destruct (q =? N); cbn; auto. apply (b_pl _ _ _ B).
Qed.

Lemma give_id_ok : forall d st g, In g (K d) -> (forall x, numbered x (gi st) (ps_ids st x)) -> exists Gn ids', give_id d st g = mkPst (mkSM (sm_m (ps_par st)) (sm_p (ps_par (give_id d st g))) (sm_sets (ps_par st))) (ps_g2l st) ids' (ps_sub st) (ps_l2g st) /\
  (forall x, sm_p (ps_par (give_id d st g)) x = if x =? g then mkPI (pi_ptype (sm_p (ps_par st) x)) (pi_bdry (sm_p (ps_par st) x)) (ms st x) Gn else sm_p (ps_par st) x) /\ Gn <> 0 /\
  ((Gn = gi st g /\ ids' = ps_ids st) \/ (gi st g = 0 /\ Gn = ps_ids st d /\ ids' = zupd (ps_ids st) d (ps_ids st d + 1))).
Proof using All.
  intros d [[m p l] h i u w] g Hg H. unfold give_id, gi, ms in *. cbn [ps_par ps_g2l ps_ids ps_sub ps_l2g sm_p sm_m sm_sets] in *.
  destruct (Z.eqb_spec (pi_gid (p g)) 0) as [E|E].
  - exists (i d), (zupd i d (i d + 1)). unfold set_gid, set_pi. cbn [ps_par sm_p sm_m sm_sets]. split; [reflexivity|]. split; [|destruct (H d); split; [lia|auto]]. intro x. unfold zupd. destruct (Z.eqb_spec x g) as [->|]; auto.
  - exists (pi_gid (p g)), i. split; [reflexivity|]. split; auto. intro x. cbn [ps_par sm_p]. destruct (Z.eqb_spec x g) as [->|]; auto. destruct (p g); auto.
Qed.

Definition SI (O : list ptr) (o : ptr -> ptr) (st : pst) (a' : amesh) : Prop := TI O o (ps_sub st) a' /\ BI O o st.

Lemma share_ok : forall d O o st st1 m a' g, TI O o (ps_sub st) a' -> BI O o st -> In g (K d) -> d < c -> (forall x q, In q (skind (ps_sub st) x) -> o q <> g) ->
  st1 = set_sub st (with_m (ps_sub st) m) -> (forall x, kind m x = if x =? d then skind (ps_sub st) x ++ [a_next a'] else skind (ps_sub st) x) ->
  BI (a_next a' :: O) (zupd o (a_next a') g) (share k d st1 g (a_next a')) /\ sm_m (ps_sub (share k d st1 g (a_next a'))) = m /\ ps_g2l (share k d st1 g (a_next a')) = ps_g2l st.
Proof using All.
  intros d O o st st1 m a' g T B Hg Dc Ng -> EK. set (N := a_next a') in *.
  pose proof (b_pl _ _ _ B N) as [PL1 PL2]. pose proof (b_mnot _ _ _ B _ Ng) as EM. pose proof (HM0 d g Dc Hg) as HMg.
  unfold share. cbn [set_sub ps_par ps_sub with_m]. change (pi_master (sm_p (ps_par st) g)) with (ms st g). rewrite EM.
  destruct (Z.eqb_spec (M0 g) 0) as [E0|E0].
  - set (st2 := set_par (set_sub (set_sub st (with_m (ps_sub st) m)) (set_master (with_m (ps_sub st) m) N k)) (set_master (ps_par st) g (k + 1))).
    cbv zeta. change (set_par _ _) with st2.
    assert (EG : forall x, gi st2 x = gi st x). { intro x. unfold gi, st2, set_par, set_master, set_pi. cbn [ps_par sm_p]. unfold zupd. destruct (Z.eqb_spec x g) as [->|]; auto. }
    destruct (give_id_ok d st2 g Hg) as (Gn & ids' & Eq & EP & HG & HI). { intro x. apply numbered_ext with (gi st); [intros; apply EG|]. apply (b_ids _ _ _ B). }
    rewrite EG in HI. assert (EPg : sm_p (ps_par (give_id d st2 g)) g = mkPI (pi_ptype (sm_p (ps_par st) g)) (pi_bdry (sm_p (ps_par st) g)) (k + 1) Gn).
    { rewrite EP, Z.eqb_refl. unfold ms, st2, set_par, set_master, set_pi. cbn [ps_par sm_p]. unfold zupd. rewrite Z.eqb_refl. cbn [pi_ptype pi_bdry pi_master]. rewrite Z.mod_small by lia. auto. }
    rewrite Eq. cbn [ps_par ps_sub set_sub sm_p set_gid set_pi sm_m ps_g2l]. rewrite EPg. cbn [pi_gid]. split; [|split; reflexivity].
    apply (bi_new d O o st _ a' g (k + 1) k Gn T B Hg); auto; try lia; unfold set_sub; cbn [ps_par ps_sub ps_g2l ps_l2g ps_ids sm_m sm_p set_gid set_pi]; auto.
    + intro x. rewrite EP. destruct (Z.eqb_spec x g) as [->|Q].
      * rewrite <- EPg, EP, Z.eqb_refl. auto.
      * unfold st2, set_par, set_master, set_pi. cbn [ps_par sm_p]. unfold zupd. replace (x =? g) with false by lia. auto.
    + intro q. fold N. unfold st2, set_par, set_sub, set_master, set_pi, with_m, zupd. cbn [ps_sub sm_p sm_m]. rewrite Z.eqb_refl. destruct (Z.eqb_spec q N) as [->|]; auto. cbn [pi_ptype pi_bdry pi_master]. rewrite PL1, PL2, Z.mod_small by lia. auto.
    + intros _. split; [replace (M0 g =? 0) with true by lia; auto|lia].
  - cbn [set_sub ps_par ps_sub set_gid set_pi sm_m with_m ps_g2l]. split; [|split; reflexivity].
    assert (G1 : gi st g <> 0) by (apply (b_mg _ _ _ B d g Dc Hg); lia).
    apply (bi_new d O o st _ a' g (M0 g) (M0 g - 1) (gi st g) T B Hg); auto; try lia; unfold set_sub; cbn [ps_par ps_sub ps_g2l ps_l2g ps_ids sm_m sm_p set_gid set_pi]; auto.
    + intro x. destruct (Z.eqb_spec x g) as [->|]; auto. rewrite <- EM. unfold ms, gi. destruct (sm_p (ps_par st) g); auto.
    + intro q. fold N. unfold set_master, set_pi, with_m, zupd. cbn [sm_p sm_m]. rewrite Z.eqb_refl. destruct (Z.eqb_spec q N) as [->|]; auto. cbn [pi_ptype pi_bdry pi_master]. rewrite PL1, PL2, Z.mod_small by lia. auto.
    + intros _. split; [replace (M0 g =? 0) with false by lia; auto|lia].
Qed.
Lemma own_ok : forall O o st st1 m a' g, TI O o (ps_sub st) a' -> BI O o st -> In g (K c) -> (forall x q, In q (skind (ps_sub st) x) -> o q <> g) ->
  st1 = set_sub st (with_m (ps_sub st) m) -> (forall x, kind m x = if x =? c then skind (ps_sub st) x ++ [a_next a'] else skind (ps_sub st) x) ->
  BI (a_next a' :: O) (zupd o (a_next a') g) (own k c st1 g (a_next a')) /\ sm_m (ps_sub (own k c st1 g (a_next a'))) = m /\ ps_g2l (own k c st1 g (a_next a')) = ps_g2l st.
Proof using All.
  intros O o st st1 m a' g T B Hg Ng -> EK. set (N := a_next a') in *.
  pose proof (b_pl _ _ _ B N) as [PL1 PL2].
  unfold own. cbn [set_sub ps_par ps_sub with_m].
  set (st2 := set_par (set_sub (set_sub st (with_m (ps_sub st) m)) (set_master (with_m (ps_sub st) m) N k)) (set_master (ps_par st) g k)).
  cbv zeta. change (set_par _ _) with st2.
  assert (EG : forall x, gi st2 x = gi st x). { intro x. unfold gi, st2, set_par, set_master, set_pi. cbn [ps_par sm_p]. unfold zupd. destruct (Z.eqb_spec x g) as [->|]; auto. }
  destruct (give_id_ok c st2 g Hg) as (Gn & ids' & Eq & EP & HG & HI). { intro x. apply numbered_ext with (gi st); [intros; apply EG|]. apply (b_ids _ _ _ B). }
  rewrite EG in HI. assert (EPg : sm_p (ps_par (give_id c st2 g)) g = mkPI (pi_ptype (sm_p (ps_par st) g)) (pi_bdry (sm_p (ps_par st) g)) k Gn).
  { rewrite EP, Z.eqb_refl. unfold ms, st2, set_par, set_master, set_pi. cbn [ps_par sm_p]. unfold zupd. rewrite Z.eqb_refl. cbn [pi_ptype pi_bdry pi_master]. rewrite Z.mod_small by lia. auto. }
  rewrite Eq. cbn [ps_par ps_sub set_sub sm_p set_gid set_pi sm_m ps_g2l]. rewrite EPg. cbn [pi_gid]. split; [|split; reflexivity].
  apply (bi_new c O o st _ a' g k k Gn T B Hg); auto; try lia; unfold set_sub; cbn [ps_par ps_sub ps_g2l ps_l2g ps_ids sm_m sm_p set_gid set_pi]; auto.
  + intro x. rewrite EP. destruct (Z.eqb_spec x g) as [->|Q].
    * rewrite <- EPg, EP, Z.eqb_refl. auto.
    * unfold st2, set_par, set_master, set_pi. cbn [ps_par sm_p]. unfold zupd. replace (x =? g) with false by lia. auto.
  + intro q. fold N. unfold st2, set_par, set_sub, set_master, set_pi, with_m, zupd. cbn [ps_sub sm_p sm_m]. rewrite Z.eqb_refl. destruct (Z.eqb_spec q N) as [->|]; auto. cbn [pi_ptype pi_bdry pi_master]. rewrite PL1, PL2, Z.mod_small by lia. auto.
Qed.

(** What copying something of dimension at most [d0] does to what was there. *)
Definition ext (d0 : Z) (O : list ptr) (o : ptr -> ptr) (st : pst) (a' : amesh) (o2 : ptr -> ptr) (st2 : pst) (a2 : amesh) : Prop :=
  (forall x, d0 < x -> skind (ps_sub st2) x = skind (ps_sub st) x) /\ (forall x q, In q (skind (ps_sub st) x) -> In q (skind (ps_sub st2) x) /\ o2 q = o q) /\
  (forall q, In q O -> a_e a2 q = a_e a' q /\ a_f a2 q = a_f a' q /\ a_r a2 q = a_r a' q).
Lemma ext_refl : forall d O o st a', ext d O o st a' o st a'.
Proof using All. intros. split; auto. Qed.
Lemma ext_trans : forall d d' O O' o st a' o2 st2 a2 o3 st3 a3, d <= d' -> (forall q, In q O' -> In q O) -> ext d O o st a' o2 st2 a2 -> ext d' O' o2 st2 a2 o3 st3 a3 -> ext d' O' o st a' o3 st3 a3.
Proof using All.
  intros d d' O O' o st a' o2 st2 a2 o3 st3 a3 L IO (A & B & C) (A' & B' & C'). split; [|split].
  - intros x Hx. rewrite A', A; auto. lia.
  - intros x q H. destruct (B _ _ H) as [H1 H2]. destruct (B' _ _ H1) as [H3 H4]. split; auto. congruence.
  - intros q H. destruct (C _ (IO _ H)) as (H1 & H2 & H3). destruct (C' _ H) as (H4 & H5 & H6). split; [|split]; congruence.
Qed.
Lemma ext_le : forall d d' O O' o st a' o2 st2 a2, d <= d' -> (forall q, In q O' -> In q O) -> ext d O o st a' o2 st2 a2 -> ext d' O' o st a' o2 st2 a2.
Proof using All. intros d d' O O' o st a' o2 st2 a2 L IO (A & B & C). split; [|split; auto]. intros x Hx. apply A. lia. Qed.

Definition hi (d : Z) (O : list ptr) (sub : smesh) : Prop := forall q x, In q O -> In q (skind sub x) -> d < x.
Lemma sub_apart : forall O o sub a' d d' q, TI O o sub a' -> In q (skind sub d) -> In q (skind sub d') -> d = d'.
Proof using All. intros O o sub a' d d' q T. apply (kinds_apart sub a'); apply T. Qed.
Lemma hi_ext : forall d d' O o st a' o2 st2 a2, SI O o st a' -> SI O o2 st2 a2 -> ext d' O o st a' o2 st2 a2 -> hi d O (ps_sub st) -> hi d O (ps_sub st2).
Proof using All.
  intros d d' O o st a' o2 st2 a2 [T _] [T2 _] (_ & B & _) H q x Hq Hx. destruct (t_open _ _ _ _ T _ Hq) as [y Hy]. destruct (B _ _ Hy) as [Hy2 _]. rewrite <- (sub_apart _ _ _ _ _ _ _ T2 Hy2 Hx). eauto.
Qed.

(** A new copy of [g], which has none. *)
Definition nocopy (o : ptr -> ptr) (st : pst) (g : ptr) : Prop := forall x q, In q (skind (ps_sub st) x) -> o q <> g.
Definition fits (d : Z) (wh : Z -> Z -> pst -> ptr -> ptr -> pst) : Prop := (d < c /\ wh = share) \/ (d = c /\ wh = own).
Lemma new_copy_ok : forall d wh O o st a' g, SI O o st a' -> fits d wh -> In g (K d) -> inp g -> nocopy o st g ->
  exists st', new_copy wh k d st g = (st', a_next a') /\ SI (a_next a' :: O) (zupd o (a_next a') g) st' (astep a' (tnew d)) /\ ext d O o st a' (zupd o (a_next a') g) st' (astep a' (tnew d)) /\ In (a_next a') (skind (ps_sub st') d) /\ (forall x, skind (ps_sub st') x = if x =? d then skind (ps_sub st) x ++ [a_next a'] else skind (ps_sub st) x).
Proof using All.
  intros d wh O o st a' g [T B] Fw Hg Ig Ng. destruct (made_ok d st g a' (t_reach _ _ _ _ T) (b_m _ _ _ B) Hg) as (m & Em & GR & R1).
  set (st1 := set_sub st (with_m (ps_sub st) m)). exists (wh k d st1 g (a_next a')).
  assert (E : new_copy wh k d st g = (wh k d st1 g (a_next a'), a_next a')).
  { unfold new_copy. unfold made in Em. destruct (add_ent d (sm_m (ps_sub st))) as [m0 l]. cbv zeta in Em |- *. injection Em as Em1 Em2. rewrite Em2 in *. unfold st1. rewrite <- Em1. reflexivity. }
  split; [exact E|]. clear E.
  assert (X : BI (a_next a' :: O) (zupd o (a_next a') g) (wh k d st1 g (a_next a')) /\ sm_m (ps_sub (wh k d st1 g (a_next a'))) = m /\ ps_g2l (wh k d st1 g (a_next a')) = ps_g2l st).
  { destruct GR as [GR0 _]. destruct Fw as [[Hd ->]|[-> ->]]; [exact (share_ok d O o st st1 m a' g T B Hg Hd Ng eq_refl GR0)|exact (own_ok O o st st1 m a' g T B Hg Ng eq_refl GR0)]. }
  destruct X as (B2 & Em2 & G2). pose proof (ti_new d O o (ps_sub st) a' g m _ T GR R1 Em2 Hg Ig Ng) as T2. split; [split; auto|].
  assert (EK : forall x, skind (ps_sub (wh k d st1 g (a_next a'))) x = kind m x) by (intro x; unfold skind; rewrite Em2; auto).
  split; [|split; [rewrite EK; eapply grown_new; eauto|intro x; rewrite EK; apply GR]]. split; [|split].
  - intros x Hx. rewrite EK. destruct GR as [GR _]. rewrite GR. replace (x =? d) with false by lia. auto.
  - intros x q H. rewrite EK. split; [eapply grown_old; eauto|]. unfold zupd. destruct (Z.eqb_spec q (a_next a')) as [->|]; auto. destruct (sub_below _ _ _ _ _ _ T H). auto.
  - intros q H. destruct (t_open _ _ _ _ T _ H) as [x Hx]. pose proof (sub_below _ _ _ _ _ _ T Hx) as NN. assert (D : d = 0 \/ d = 1 \/ d = 2 \/ d = 3) by (eapply kind_cases; eauto).
    destruct D as [-> | [-> | [-> | ->]]]; cbn; unfold upd; replace (q =? a_next a') with false by lia; auto.
Qed.

(** ** Completing a copy *)
Lemma ti_step : forall O o sub a' t2 a2, TI O o sub a' -> reach t2 a2 -> (forall q, live_v a2 q <-> live_v a' q) -> (forall q, live_e a2 q <-> live_e a' q) -> (forall q, live_f a2 q <-> live_f a' q) -> (forall q, live_r a2 q <-> live_r a' q) ->
  (forall q, ~ In q O -> a_e a2 q = a_e a' q /\ a_f a2 q = a_f a' q /\ a_r a2 q = a_r a' q) -> TI O o (with_m sub (set_ft (sm_m sub) t2)) a2.
Proof using All.
  intros O o sub a' t2 a2 T R LV LE LF LR SM.
  constructor; [exact R|exact (t_nd _ _ _ _ T)| | | | |exact (t_id _ _ _ _ T)|exact (t_open _ _ _ _ T)|exact (t_o _ _ _ _ T)|exact (t_inj _ _ _ _ T)| | | |exact (t_x _ _ _ _ T)|exact (t_c _ _ _ _ T)].
  - intro q. rewrite LV. apply (t_v _ _ _ _ T).
  - intro q. rewrite LE. apply (t_e _ _ _ _ T).
  - intro q. rewrite LF. apply (t_f _ _ _ _ T).
  - intro q. rewrite LR. apply (t_r _ _ _ _ T).
  - intros q H Q. destruct (SM _ Q) as (-> & _ & _). apply (t_ends _ _ _ _ T _ H Q).
  - intros q H Q. destruct (SM _ Q) as (_ & -> & _). apply (t_loop _ _ _ _ T _ H Q).
  - intros q H Q. destruct (SM _ Q) as (_ & _ & ->). apply (t_faces _ _ _ _ T _ H Q).
Qed.
Lemma bi_t : forall O o st t, BI O o st -> BI O o (set_subt st t).
Proof using All. intros O o st t []. constructor; auto. Qed.

Lemma ti_close : forall N O o sub a', TI (N :: O) o sub a' -> 
  (In N (skind sub 1) -> exists u w, a_e a' N = Some (true, (u, w)) /\ a_e a (o N) = Some (true, (o u, o w)) /\ In u (skind sub 0) /\ In w (skind sub 0)) ->
  (In N (skind sub 2) -> exists b, a_f a' N = Some (true, Some b) /\ a_f a (o N) = Some (true, Some (via o b)) /\ (forall x, In x b -> In (fst x) (skind sub 1))) ->
  (In N (skind sub 3) -> exists b, a_r a' N = Some (true, Some b) /\ a_r a (o N) = Some (true, Some (via o b)) /\ (forall x, In x b -> In (fst x) (skind sub 2))) ->
  TI O o sub a'.
Proof using All.
  intros N O o sub a' T HE HF HR. destruct T as [A1 A2 A3 A4 A5 A6 A7 A8 A9 A10 A11 A12 A13 A14 A15]. constructor; auto.
  - intros q H. apply A8. right. auto.
  - intros q H Q. destruct (Z.eq_dec q N) as [->|D]; [auto|]. apply A11; auto. intros [|]; auto.
  - intros q H Q. destruct (Z.eq_dec q N) as [->|D]; [auto|]. apply A12; auto. intros [|]; auto.
  - intros q H Q. destruct (Z.eq_dec q N) as [->|D]; [auto|]. apply A13; auto. intros [|]; auto.
Qed.
Lemma nolink : forall N O o st a' d, SI (N :: O) o st a' -> In N (skind (ps_sub st) d) -> ps_g2l st (o N) = g2l0 (o N).
Proof using All.
  intros N O o st a' d [T B] H. destruct (b_list _ _ _ B (o N)) as [[E _]|(y & l & H1 & H2 & H3 & _)]; auto. destruct H2. left. symmetry. eapply t_inj; eauto.
Qed.
Lemma bi_close : forall N O o st a' d st', SI (N :: O) o st a' -> In N (skind (ps_sub st) d) -> ~ In N O ->
  st' = mkPst (ps_par st) (zupd (ps_g2l st) (o N) (g2l0 (o N) ++ [(k, N)])) (ps_ids st) (ps_sub st) (zupd (ps_l2g st) N (o N)) -> BI O o st'.
Proof using All.
  intros N O o st a' d st' [T B] H NO ->.
  constructor; cbn [ps_par ps_g2l ps_sub ps_l2g ps_ids]; [exact (b_m _ _ _ B)|exact (b_keep _ _ _ B)| | |exact (b_mcop _ _ _ B)|exact (b_mnot _ _ _ B)|exact (b_mloc _ _ _ B)|exact (b_cell _ _ _ B)|exact (b_gkeep _ _ _ B)|exact (b_gloc _ _ _ B)|exact (b_ids _ _ _ B)|exact (b_mg _ _ _ B)|exact (b_pl _ _ _ B)].
  - intro g. unfold zupd. destruct (Z.eqb_spec g (o N)) as [->|Q]. { right. exists d, N. auto. }
    destruct (b_list _ _ _ B g) as [[H1 H2]|(y & l & H1 & H2 & H3 & H4)].
    + left. split; auto. intros y q Hq Eq. destruct (H2 _ _ Hq Eq) as [<-|]; auto. destruct Q. auto.
    + right. exists y, l. split; auto. split; auto. intro. apply H2. right. auto.
  - intros x q Hq Q. unfold zupd. destruct (Z.eqb_spec q N) as [->|D]; auto. apply (b_l2g _ _ _ B x); auto. intros [|]; auto.
Qed.
Lemma link_ok : forall N O o st a' d, SI (N :: O) o st a' -> TI O o (ps_sub st) a' -> In N (skind (ps_sub st) d) -> ~ In N O -> SI O o (link k st (o N) N) a'.
Proof using All. intros N O o st a' d I T H NO. split; [exact T|]. eapply bi_close; eauto. unfold link. rewrite (nolink _ _ _ _ _ _ I H). auto. Qed.
Lemma link1_ok : forall N O o st a' d, SI (N :: O) o st a' -> TI O o (ps_sub st) a' -> In N (skind (ps_sub st) d) -> ~ In N O -> g2l0 (o N) = [] -> SI O o (link1 k st (o N) N) a'.
Proof using All. intros N O o st a' d I T H NO E. split; [exact T|]. eapply bi_close; eauto. unfold link1. rewrite E. auto. Qed.

Lemma find_none_all : forall l : list (Z * ptr), (forall x, In x l -> fst x <> k) -> find (fun x => fst x =? k) l = None.
Proof using All. intros l H. induction l as [|x l IH]; cbn; auto. replace (fst x =? k) with false by (specialize (H x (or_introl eq_refl)); lia). apply IH. intros y Hy. apply H. right. auto. Qed.
Lemma find_last : forall (l : list (Z * ptr)) q, (forall x, In x l -> fst x <> k) -> find (fun x => fst x =? k) (l ++ [(k, q)]) = Some (k, q).
Proof using All. intros l q H. induction l as [|x l IH]; cbn; [rewrite Z.eqb_refl; auto|]. replace (fst x =? k) with false by (specialize (H x (or_introl eq_refl)); lia). apply IH. intros y Hy. apply H. right. auto. Qed.
Lemma found_ok : forall d O o st a' g, SI O o st a' -> In g (K d) -> hi d O (ps_sub st) ->
  (exists l, found k st g = Some l /\ In l (skind (ps_sub st) d) /\ ~ In l O /\ o l = g) \/ (found k st g = None /\ nocopy o st g).
Proof using All.
  intros d O o st a' g [T B] Hg Hh. unfold found. destruct (b_list _ _ _ B g) as [[E H]|(y & l & H1 & H2 & H3 & H4)].
  - right. rewrite E, find_none_all by apply Hg0. split; auto. intros x q Hq Eq. pose proof (Hh _ _ (H _ _ Hq Eq) Hq) as L. destruct (t_o _ _ _ _ T _ _ Hq) as [Hk' _]. rewrite Eq in Hk'. rewrite (K_apart _ _ _ Hg Hk') in L. lia.
  - left. exists l. rewrite H4, find_last by apply Hg0. split; auto. split; auto. destruct (t_o _ _ _ _ T _ _ H1) as [Hk' _]. rewrite H3 in Hk'. rewrite (K_apart _ _ _ Hg Hk'). auto.
Qed.

Lemma c_23 : c = 2 \/ c = 3.
Proof using. unfold celldim. destruct (skind s 3); auto. Qed.
Lemma next_notin : forall O o sub a', TI O o sub a' -> ~ In (a_next a') O.
Proof using All. intros O o sub a' T H. destruct (t_open _ _ _ _ T _ H) as [x Hx]. destruct (sub_below _ _ _ _ _ _ T Hx). auto. Qed.

Lemma part_vertex_ok : forall O o st a' g, SI O o st a' -> In g (K 0) -> inp g -> hi 0 O (ps_sub st) ->
  exists st2 o2 a2 l, part_vertex k st g = Ok (st2, l) /\ SI O o2 st2 a2 /\ ext 0 O o st a' o2 st2 a2 /\ In l (skind (ps_sub st2) 0) /\ o2 l = g.
Proof using All.
  intros O o st a' g I Hg Ig Hh. pose proof (K_null _ _ Hg) as NN. unfold part_vertex. replace (g =? NULL) with false by lia.
  destruct (found_ok 0 _ _ _ _ _ I Hg Hh) as [(l & E & H1 & H2 & H3)|[E Ng]]; rewrite E.
  - exists st, o, a', l. split; auto. split; auto. split; [apply ext_refl|auto].
  - destruct (new_copy_ok 0 share O o st a' g I) as (st1 & E1 & I1 & X1 & IN1 & _); auto. { left. pose proof c_23. split; [lia|auto]. }
    rewrite E1. set (N := a_next a') in *. set (o1 := zupd o N g) in *. assert (ON : o1 N = g) by (unfold o1, zupd; rewrite Z.eqb_refl; auto).
    exists (link k st1 g N), o1, (astep a' (tnew 0)), N. split; auto. assert (NO : ~ In N O) by (destruct I as [T _]; eapply next_notin; eauto).
    destruct I1 as [T1 B1] eqn:EI. split; [|split; [exact X1|split; auto]].
    rewrite <- ON. eapply link_ok with (d := 0); eauto. eapply ti_close; eauto.
    + intro Q. pose proof (sub_apart _ _ _ _ _ _ _ T1 IN1 Q). lia.
    + intro Q. pose proof (sub_apart _ _ _ _ _ _ _ T1 IN1 Q). lia.
    + intro Q. pose proof (sub_apart _ _ _ _ _ _ _ T1 IN1 Q). lia.
Qed.

Lemma edge_ends : forall e, In e (K 1) -> exists v0 v1, a_e a e = Some (true, (v0, v1)) /\ In v0 (K 0) /\ In v1 (K 0).
Proof using All.
  intros e H. apply (pa_e _ _ P) in H. destruct H as [[v0 v1] H]. exists v0, v1. split; auto. destruct (pa_ends _ _ P _ _ _ H). destruct (w_ends _ (i_w _ _ (reach_inv _ _ (pa_reach _ _ P))) _ _ _ H) as [[|W0] [|W1]]; try tauto. rewrite !(pa_v _ _ P). auto.
Qed.
Lemma end_read : forall e v0 v1 (i : bool), a_e a e = Some (true, (v0, v1)) -> ME_Vertex (sm_t s) e (b2z i) = Ok (if i then v1 else v0).
Proof using All.
  intros e v0 v1 i H. destruct (get_e _ _ e (reach_inv _ _ (pa_reach _ _ P)) ltac:(congruence)) as (y & Hy & Ey). rewrite H in Ey. unfold eview in Ey. inversion Ey. subst. unfold ME_Vertex, gete. rewrite Hy. destruct i; reflexivity.
Qed.

Lemma part_end_ok : forall N O o st a' ge v0 v1 (i : bool) x0 x1, SI (N :: O) o st a' -> In N (skind (ps_sub st) 1) -> hi 0 O (ps_sub st) -> ~ In N O -> In ge (K 1) -> inp ge -> a_e a ge = Some (true, (v0, v1)) -> a_e a' N = Some (true, (x0, x1)) -> (if i then x1 else x0) = NULL ->
  exists st2 o2 a2 l, part_end k ge N st (b2z i) = Ok st2 /\ SI (N :: O) o2 st2 a2 /\ ext 0 O o st a' o2 st2 a2 /\ In l (skind (ps_sub st2) 0) /\ o2 l = (if i then v1 else v0) /\ a_e a2 N = Some (true, if i then (x0, l) else (l, x1)).
Proof using All.
  intros N O o st a' ge v0 v1 i x0 x1 I HN Hh NO Hge Ige Eg EN HZ. pose proof I as [T B]. unfold part_end. unfold sm_t at 1. rewrite (b_m _ _ _ B). fold (sm_t s). rewrite (end_read _ _ _ i Eg). cbn [bind].
  destruct (edge_ends _ Hge) as (w0 & w1 & Ew & K0 & K1). rewrite Eg in Ew. inversion Ew; subst w0 w1. clear Ew. set (gv := if i then v1 else v0).
  assert (Hh' : hi 0 (N :: O) (ps_sub st)) by (intros q x [<-|Hq] Hx; [rewrite <- (sub_apart _ _ _ _ _ _ _ T HN Hx); lia|eauto]).
  destruct (part_vertex_ok _ _ _ _ gv I) as (st1 & o1 & a1 & l & E1 & I1 & X1 & Hl & Ol); auto. { unfold gv. destruct i; auto. } { apply ip_vertex with ge; auto. exists v0, v1. split; auto. unfold gv. destruct i; auto. }
  rewrite E1. cbn [bind]. pose proof I1 as [T1 B1]. destruct X1 as (X1 & X2 & X3). destruct (X3 N (or_introl eq_refl)) as (EN1 & _ & _). rewrite EN in EN1.
  destruct (reach_step _ _ (TSetVertex N i l) (t_reach _ _ _ _ T1)) as (t2 & S2 & R2). { cbn [tpre]. split; [apply (t_v _ _ _ _ T1); auto|]. exists x0, x1. auto. }
  cbn [tstep] in S2. rewrite S2. cbn [bind]. set (a2 := astep a1 (TSetVertex N i l)) in *.
  assert (AN : a_e a2 N = Some (true, if i then (x0, l) else (l, x1))) by (unfold a2; cbn [astep with_e a_e]; rewrite upd_same, EN1; auto).
  assert (AO : forall q, q <> N -> a_e a2 q = a_e a1 q) by (intros q Q; unfold a2; cbn [astep with_e a_e]; rewrite upd_other; auto).
  exists (set_subt st1 t2), o1, a2, l. split; auto. split.
  { split; [|apply bi_t; auto]. apply ti_step with a1; auto; try (intro q; reflexivity).
    - intro q. unfold live_e. destruct (Z.eq_dec q N) as [->|Q]; [rewrite AN, EN1; split; eauto|]. rewrite AO by auto. reflexivity.
    - intros q Q. rewrite AO by (intros ->; apply Q; left; auto). auto. }
  split; [|split; auto]. split; [|split].
  - exact X1.
  - exact X2.
  - intros q Hq. destruct (X3 q (or_intror Hq)) as (Y1 & Y2 & Y3). rewrite AO by (intros ->; auto). auto.
Qed.

Lemma part_edge_ok : forall O o st a' g, SI O o st a' -> In g (K 1) -> inp g -> hi 1 O (ps_sub st) ->
  exists st2 o2 a2 l, part_edge k st g = Ok (st2, l) /\ SI O o2 st2 a2 /\ ext 1 O o st a' o2 st2 a2 /\ In l (skind (ps_sub st2) 1) /\ ~ In l O /\ o2 l = g.
Proof using All.
  intros O o st a' g I Hg Ig Hh. pose proof (K_null _ _ Hg) as NN. unfold part_edge. replace (g =? NULL) with false by lia.
  destruct (found_ok 1 _ _ _ _ _ I Hg Hh) as [(l & E & H1 & H2 & H3)|[E Ng]]; rewrite E.
  - exists st, o, a', l. split; auto. split; auto. split; [apply ext_refl|auto].
  - destruct (new_copy_ok 1 share O o st a' g I) as (st1 & E1 & I1 & X1 & IN1 & _); auto. { left. pose proof c_23. split; [lia|auto]. }
    rewrite E1. set (N := a_next a') in *. set (o1 := zupd o N g) in *. assert (ON : o1 N = g) by (unfold o1, zupd; rewrite Z.eqb_refl; auto).
    assert (NO : ~ In N O) by (destruct I as [T _]; eapply next_notin; eauto). set (a1 := astep a' (tnew 1)) in *.
    destruct (edge_ends _ Hg) as (v0 & v1 & Ev & K0 & K1). pose proof I1 as [T1 B1]. pose proof X1 as (X1a & X1b & X1c).
    assert (EN1 : a_e a1 N = Some (true, (NULL, NULL))) by (unfold a1; cbn; rewrite upd_same; auto).
    assert (H1 : hi 0 O (ps_sub st1)). { intros q x Hq Hx. destruct I as [T _]. destruct (t_open _ _ _ _ T _ Hq) as [y Hy]. destruct (X1b _ _ Hy) as [Hy1 _]. rewrite <- (sub_apart _ _ _ _ _ _ _ T1 Hy1 Hx). pose proof (Hh _ _ Hq Hy). lia. }
    destruct (part_end_ok N O o1 st1 a1 g v0 v1 false NULL NULL) as (st2 & o2 & a2 & l0 & E2 & I2 & X2 & Hl0 & Ol0 & EN2); auto.
    pose proof I2 as [T2 B2]. pose proof X2 as (X2a & X2b & X2c). destruct (X2b _ _ IN1) as [IN2 ON2].
    assert (H2 : hi 0 O (ps_sub st2)). { intros q x Hq Hx. destruct (t_open _ _ _ _ T1 _ (or_intror Hq)) as [y Hy]. destruct (X2b _ _ Hy) as [Hy1 _]. rewrite <- (sub_apart _ _ _ _ _ _ _ T2 Hy1 Hx). eauto. }
    destruct (part_end_ok N O o2 st2 a2 g v0 v1 true l0 NULL) as (st3 & o3 & a3 & l1 & E3 & I3 & X3 & Hl1 & Ol1 & EN3); auto.
    pose proof I3 as [T3 B3]. pose proof X3 as (X3a & X3b & X3c). destruct (X3b _ _ IN2) as [IN3 ON3]. destruct (X3b _ _ Hl0) as [IL3 OL3].
    assert (O3 : o3 N = g) by congruence. cbn [foldM]. change (b2z false) with 0 in E2. change (b2z true) with 1 in E3. rewrite E2. cbn [bind]. rewrite E3. cbn [bind].
    exists (link k st3 g N), o3, a3, N. split; auto. split; [|split; [|split; auto]].
    + rewrite <- O3. eapply link_ok with (d := 1); eauto. eapply ti_close; eauto.
      * intros _. exists l0, l1. rewrite O3, OL3, Ol0, Ol1. auto.
      * intro Q. pose proof (sub_apart _ _ _ _ _ _ _ T3 IN3 Q). lia.
      * intro Q. pose proof (sub_apart _ _ _ _ _ _ _ T3 IN3 Q). lia.
    + apply (ext_trans 1 1 O O o st a' o2 st2 a2); auto; try lia. { apply (ext_trans 1 1 O O o st a' o1 st1 a1); auto; try lia. eapply ext_le; [| |exact X2]; auto; lia. }
      eapply ext_le; [| |exact X3]; auto; lia.
Qed.

Lemma face_full' : forall f, In f (K 2) -> exists b, a_f a f = Some (true, Some b) /\ (length b <= 30)%nat /\ NoDup (map fst b) /\ forall x, In x b -> In (fst x) (K 1).
Proof using All.
  intros f H. apply (pa_f _ _ P) in H. destruct H as [[b|] H]; [|destruct (pa_faces _ _ P _ H)]. pose proof (i_w _ _ (reach_inv _ _ (pa_reach _ _ P))) as W. exists b. split; auto. split; [eapply pa_loops; eauto|]. split; [apply (w_fnd _ W _ _ _ H)|].
  intros x Hx. pose proof (w_fe _ W _ _ H) as F. rewrite Forall_forall in F. apply (pa_e _ _ P). auto.
Qed.
Lemma face_dir : forall f b i, a_f a f = Some (true, Some b) -> (i < length b)%nat -> (length b <= 30)%nat -> MF_EdgeDir_i (sm_t s) f (Z.of_nat i) = Ok (b2z (snd (nth i b dflt))).
Proof using All.
  intros f b i H L L30. destruct (face_rep _ _ _ _ (reach_inv _ _ (pa_reach _ _ P)) H) as (y & l & Hy & Hl & (-> & LL & B)). unfold MF_EdgeDir_i, getf. rewrite Hy. cbn [bind]. rewrite bit64_ok by lia. rewrite (B i L). auto.
Qed.
Lemma via_app : forall o b b', via o (b ++ b') = via o b ++ via o b'.
Proof using. intros. unfold via. apply map_app. Qed.

Lemma part_edges_ok : forall O o st a' gf b, SI O o st a' -> In gf (K 2) -> inp gf -> hi 1 O (ps_sub st) -> a_f a gf = Some (true, Some b) ->
  exists st2 o2 a2 bl, part_edges k st gf = Ok (st2, map fst bl, dirz bl) /\ SI O o2 st2 a2 /\ ext 1 O o st a' o2 st2 a2 /\ via o2 bl = b /\ (forall x, In x bl -> In (fst x) (skind (ps_sub st2) 1) /\ ~ In (fst x) O).
Proof using All.
  intros O o st a' gf b I Hg Ig Hh Eb. destruct (face_full' _ Hg) as (b1 & Eb1 & L30 & ND & HB). rewrite Eb in Eb1. inversion Eb1; subst b1. clear Eb1.
  unfold part_edges. pose proof I as [T B]. unfold sm_t at 1. rewrite (b_m _ _ _ B). fold (sm_t s). pose proof (face_edges_query _ _ _ _ true (reach_inv _ _ (pa_reach _ _ P)) Eb) as EQ. cbn [b2z walk] in EQ. rewrite EQ. cbn [bind].
  edestruct (list_loop (ptr * bool) (pst * list ptr * list Z) (fun dn x => exists o2 a2 bl, snd (fst x) = map fst bl /\ snd x = dirz bl /\ SI O o2 (fst (fst x)) a2 /\ ext 1 O o st a' o2 (fst (fst x)) a2 /\ via o2 bl = dn /\ (forall y, In y bl -> In (fst y) (skind (ps_sub (fst (fst x))) 1) /\ ~ In (fst y) O))) with (full := b) (st := (st, @nil ptr, @nil Z)) as (x & E & Q).
  3: { unfold ZL. rewrite map_length, E. destruct x as [[st2 es] ds]. cbn [fst snd] in Q. destruct Q as (o2 & a2 & bl & -> & -> & Q). exists st2, o2, a2, bl. auto. }
  2: { exists o, a', []. cbn [fst snd map]. split; auto. split; auto. split; auto. split; [apply ext_refl|]. split; auto. intros y []. }
  intros dn w rest [[st1 es] ds] Ef (o1 & a1 & bl & Q1 & Q2 & I1 & X1 & V1 & H1). cbn [fst snd] in *. subst es ds.
  assert (LT : (length dn < length b)%nat) by (rewrite Ef, app_length; cbn; lia). assert (EN : nth (length dn) b dflt = w) by (rewrite Ef; apply nth_middle).
  rewrite lent_fst by auto. cbn [bind]. rewrite EN.
  assert (Hw : In w b) by (rewrite Ef; apply in_or_app; right; left; auto).
  destruct (part_edge_ok O o1 st1 a1 (fst w) I1) as (st2 & o2 & a2 & l & E2 & I2 & X2 & Hl & NO & Ol); auto. { apply ip_edge with gf; auto. exists b. split; auto. apply in_map. auto. } { apply (hi_ext 1 1 O o st a' o1 st1 a1); auto. }
  rewrite E2. cbn [bind]. pose proof I2 as [T2 B2]. unfold sm_t at 1. rewrite (b_m _ _ _ B2). fold (sm_t s). rewrite (face_dir _ _ _ Eb LT L30), EN. cbn [bind]. replace (MAXPV2 <=? Z.of_nat (length dn)) with false by (unfold MAXPV2; lia).
  exists (st2, map fst bl ++ [l], dirz bl ++ [b2z (snd w)]). split; auto. cbn [fst snd]. exists o2, a2, (bl ++ [(l, snd w)]). unfold dirz. rewrite !map_app. split; auto. split; auto. split; auto. destruct X2 as (X2a & X2b & X2c). split; [eapply ext_trans; [| |exact X1|split; [exact X2a|split; [exact X2b|exact X2c]]]; auto; lia|]. split.
  - rewrite via_app. f_equal; [rewrite <- V1; apply via_ext; intros y Hy; eapply X2b; apply H1; auto|]. cbn. rewrite Ol. destruct w; auto.
  - intros y Hy. apply in_app_or in Hy. destruct Hy as [Hy|[<-|[]]]; [|auto]. destruct (H1 _ Hy) as [Y1 Y2]. split; auto. apply X2b. auto.
Qed.

(** ** Faces *)
Lemma set_edges_ok : forall N O o st a' bl b, SI (N :: O) o st a' -> ~ In N O -> In N (skind (ps_sub st) 2) -> a_f a' N = Some (true, None) -> a_f a (o N) = Some (true, Some b) -> via o bl = b -> (forall x, In x bl -> In (fst x) (skind (ps_sub st) 1)) ->
  exists t2 a2, MF_Set_Edges (sm_t (ps_sub st)) N (ZL (map fst bl)) (map fst bl) (dirz bl) = Ok t2 /\ SI (N :: O) o (set_subt st t2) a2 /\ TI O o (ps_sub (set_subt st t2)) a2 /\ ext 2 O o st a' o (set_subt st t2) a2.
Proof using All.
  intros N O o st a' bl b I NO HN E0 Eb V HB. pose proof I as [T B]. destruct (t_o _ _ _ _ T _ _ HN) as [Kg _]. destruct (face_full' _ Kg) as (b1 & Eb1 & L30 & ND & _). rewrite Eb in Eb1. inversion Eb1; subst b1. clear Eb1.
  destruct (reach_step _ _ (TSetEdges N bl) (t_reach _ _ _ _ T)) as (t2 & S2 & R2).
  { cbn [tpre]. split; [left; auto|]. split; [|split].
    - apply NoDup_map_inv with (f := o). rewrite <- V in ND. unfold via in ND. rewrite map_map in *. cbn [fst] in ND. exact ND.
    - rewrite <- V in L30. unfold via in L30. rewrite map_length in L30. unfold maxfe. lia.
    - apply Forall_forall. intros x Hx. apply (t_e _ _ _ _ T). auto. }
  cbn [tstep] in S2. set (a2 := astep a' (TSetEdges N bl)) in *. exists t2, a2. unfold ZL. rewrite map_length. split; [exact S2|].
  assert (AN : a_f a2 N = Some (true, Some bl)) by (unfold a2; cbn [astep set_fb with_f a_f]; rewrite upd_same, E0; auto).
  assert (AO : forall q, q <> N -> a_f a2 q = a_f a' q) by (intros q Q; unfold a2; cbn [astep set_fb with_f a_f]; rewrite upd_other; auto).
  assert (T2 : TI (N :: O) o (ps_sub (set_subt st t2)) a2).
  { apply ti_step with a'; auto; try (intro q; reflexivity).
    - intro q. unfold live_f. destruct (Z.eq_dec q N) as [->|Q]; [rewrite AN, E0; split; eauto|]. rewrite AO by auto. reflexivity.
    - intros q Q. rewrite AO by (intros ->; apply Q; left; auto). auto. }
  split; [split; [exact T2|apply bi_t; auto]|]. split.
  - apply ti_close with N; auto.
    + intro Q. pose proof (sub_apart _ _ _ _ 2 1 N T HN Q). lia.
    + intros _. exists bl. rewrite AN, Eb, V. split; auto.
    + intro Q. pose proof (sub_apart _ _ _ _ 2 3 N T HN Q). lia.
  - split; [auto|]. split; [auto|]. intros q Hq. rewrite AO by (intros ->; auto). auto.
Qed.
Lemma nocopy_ext : forall d d0 O o st a' o2 st2 a2 g, d0 < d -> In g (K d) -> SI O o2 st2 a2 -> ext d0 O o st a' o2 st2 a2 -> nocopy o st g -> nocopy o2 st2 g.
Proof using All.
  intros d d0 O o st a' o2 st2 a2 g L Hg [T2 _] (A & B & _) H x q Hq Eq. destruct (t_o _ _ _ _ T2 _ _ Hq) as [Hk' _]. rewrite Eq in Hk'. rewrite <- (K_apart _ _ _ Hg Hk'), A in Hq by auto. apply (H d q Hq). destruct (B _ _ Hq) as [_ <-]. auto.
Qed.
(** After a cell was copied. *)
Definition celled (o : ptr -> ptr) (st : pst) (o2 : ptr -> ptr) (st2 : pst) (g : ptr) : Prop :=
  (forall q, In q (skind (ps_sub st) c) -> In q (skind (ps_sub st2) c) /\ o2 q = o q) /\ (forall q, In q (skind (ps_sub st2) c) -> In q (skind (ps_sub st) c) \/ o2 q = g) /\ (exists q, In q (skind (ps_sub st2) c) /\ o2 q = g).

Lemma surf_face_ok : forall o st a' g, c = 2 -> SI [] o st a' -> In g (K 2) -> inp g -> g2l0 g = [] -> nocopy o st g ->
  exists st2 o2 a2, surf_face k st g = Ok st2 /\ SI [] o2 st2 a2 /\ celled o st o2 st2 g.
Proof using All.
  intros o st a' g C2 I Hg Ig L0 Ng. destruct (face_full' _ Hg) as (b & Eb & _). unfold surf_face.
  destruct (part_edges_ok [] o st a' g b I Hg Ig) as (st1 & o1 & a1 & bl & E1 & I1 & X1 & V1 & H1); auto. { intros q x []. }
  rewrite E1. cbn [bind]. pose proof (nocopy_ext 2 1 _ _ _ _ _ _ _ _ eq_refl Hg I1 X1 Ng) as Ng1.
  destruct (new_copy_ok 2 own [] o1 st1 a1 g I1) as (st2 & E2 & I2 & X2 & IN2 & EK2); auto. { right. auto. }
  rewrite E2. set (N := a_next a1) in *. set (o2 := zupd o1 N g) in *. set (a2 := astep a1 (tnew 2)) in *. assert (ON : o2 N = g) by (unfold o2, zupd; rewrite Z.eqb_refl; auto).
  pose proof X2 as (X2a & X2b & X2c).
  destruct (set_edges_ok N [] o2 st2 a2 bl b I2) as (t3 & a3 & E3 & I3 & T3 & X3); auto.
  { unfold a2. cbn. rewrite upd_same. auto. } { rewrite ON. auto. } { rewrite <- V1. apply via_ext. intros x Hx. apply (X2b 1). apply H1. auto. } { intros x Hx. apply X2b. apply H1. auto. }
  rewrite E3. cbn [bind]. exists (link1 k (set_subt st2 t3) g N), o2, a3. split; auto. split.
  { rewrite <- ON. apply link1_ok with (d := 2); auto; rewrite ON; auto. }
  destruct X1 as (X1a & X1b & X1c). destruct X3 as (X3a & X3b & X3c). rewrite ?C2 in *. unfold celled. rewrite C2. cbn [link1 ps_sub]. split; [|split].
  - intros q Hq. destruct (X1b _ _ Hq) as [Y1 Y2]. destruct (X2b _ _ Y1) as [Y3 Y4]. destruct (X3b _ _ Y3) as [Y5 Y6]. split; auto. congruence.
  - intros q Hq. rewrite <- ON. destruct (Z.eq_dec q N) as [->|Q]; auto. left. rewrite <- X1a by lia. change (In q (skind (ps_sub st2) 2)) in Hq.
    rewrite EK2, Z.eqb_refl in Hq. apply in_app_or in Hq. destruct Hq as [Hq|[Hq|[]]]; auto. destruct Q. auto.
  - exists N. split; auto.
Qed.
Lemma vol_face_ok : forall O o st a' g, c = 3 -> SI O o st a' -> In g (K 2) -> inp g -> hi 2 O (ps_sub st) ->
  exists st2 o2 a2 l, vol_face k st g = Ok (st2, l) /\ SI O o2 st2 a2 /\ ext 2 O o st a' o2 st2 a2 /\ In l (skind (ps_sub st2) 2) /\ ~ In l O /\ o2 l = g.
Proof using All.
  intros O o st a' g C3 I Hg Ig Hh. pose proof (K_null _ _ Hg) as NN. unfold vol_face. replace (g =? NULL) with false by lia.
  destruct (found_ok 2 _ _ _ _ _ I Hg Hh) as [(l & E & H1 & H2 & H3)|[E Ng]]; rewrite E.
  - exists st, o, a', l. split; auto. split; auto. split; [apply ext_refl|auto].
  - destruct (face_full' _ Hg) as (b & Eb & _).
    destruct (new_copy_ok 2 share O o st a' g I) as (st1 & E1 & I1 & X1 & IN1 & _); auto. { left. split; [lia|auto]. }
    rewrite E1. set (N := a_next a') in *. set (o1 := zupd o N g) in *. assert (ON : o1 N = g) by (unfold o1, zupd; rewrite Z.eqb_refl; auto).
    assert (NO : ~ In N O) by (destruct I as [T _]; eapply next_notin; eauto). set (a1 := astep a' (tnew 2)) in *.
    pose proof I1 as [T1 B1]. pose proof X1 as (X1a & X1b & X1c).
    assert (EN1 : a_f a1 N = Some (true, None)) by (unfold a1; cbn; rewrite upd_same; auto).
    assert (H1 : hi 1 (N :: O) (ps_sub st1)). { intros q x [<-|Hq] Hx; [rewrite <- (sub_apart _ _ _ _ _ _ _ T1 IN1 Hx); lia|]. destruct I as [T _]. destruct (t_open _ _ _ _ T _ Hq) as [y Hy]. destruct (X1b _ _ Hy) as [Hy1 _]. rewrite <- (sub_apart _ _ _ _ _ _ _ T1 Hy1 Hx). pose proof (Hh _ _ Hq Hy). lia. }
    destruct (part_edges_ok (N :: O) o1 st1 a1 g b I1) as (st2 & o2 & a2 & bl & E2 & I2 & X2 & V2 & H2); auto.
    rewrite E2. cbn [bind]. pose proof I2 as [T2 B2]. pose proof X2 as (X2a & X2b & X2c). destruct (X2b _ _ IN1) as [IN2 ON2]. destruct (X2c N (or_introl eq_refl)) as (_ & EN2 & _). assert (O2 : o2 N = g) by congruence.
    destruct (set_edges_ok N O o2 st2 a2 bl b I2) as (t3 & a3 & E3 & I3 & T3 & X3); auto. { congruence. } { rewrite O2. auto. } { intros x Hx. apply H2. auto. }
    rewrite E3. cbn [bind]. exists (link k (set_subt st2 t3) g N), o2, a3, N. split; auto. split; [|split; [|split; auto]].
    + rewrite <- O2. apply link_ok with (d := 2); auto.
    + apply (ext_trans 2 2 O O o st a' o2 st2 a2); auto; try lia. apply (ext_trans 2 2 O O o st a' o1 st1 a1); auto; try lia. apply (ext_le 1 2 (N :: O) O); auto; [lia|]. intros; right; auto.
Qed.

(** ** Regions *)
Lemma region_full' : forall r, In r (K 3) -> exists b, a_r a r = Some (true, Some b) /\ (length b <= maxrf)%nat /\ NoDup (map fst b) /\ forall x, In x b -> In (fst x) (K 2).
Proof using All.
  intros f H. apply (pa_r _ _ P) in H. destruct H as [[b|] H]; [|destruct (pa_regions _ _ P _ H)]. pose proof (i_w _ _ (reach_inv _ _ (pa_reach _ _ P))) as W. exists b. split; auto. destruct (w_rnd _ W _ _ _ H) as [A B]. split; auto. split; auto.
  intros x Hx. pose proof (w_rf _ W _ _ H) as F. rewrite Forall_forall in F. apply (pa_f _ _ P). destruct (F _ Hx) as [z Hz]. exists (Some z). auto.
Qed.
Lemma one_side : forall f d r r', has_face a r f d -> has_face a r' f d -> r = r'.
Proof using All.
  intros f d r r' H H'. pose proof (reach_inv _ _ (pa_reach _ _ P)) as I. pose proof (i_w _ _ I) as W.
  assert (N : forall q, has_face a q f d -> q <> NULL) by (intros q (b & E & _); assert (1 <= q < a_next a) by (apply (w_r _ W); congruence); unfold NULL; lia).
  assert (F : exists x, tfs (sm_t s) f = Some x). { destruct H as (b & E & Hb). pose proof (w_rf _ W _ _ E) as F. rewrite Forall_forall in F. destruct (F _ Hb) as [z Hz]. cbn [fst] in Hz. destruct (get_f _ _ f I ltac:(congruence)) as (y & Hy & _). eauto. }
  destruct F as [x Hx]. destruct (i_uf _ _ I _ _ Hx r (N _ H)) as [A B]. destruct (i_uf _ _ I _ _ Hx r' (N _ H')) as [A' B']. destruct d; [apply A in H; apply A' in H'|apply B in H; apply B' in H']; congruence.
Qed.
Lemma set_faces_ok' : forall N o st a' bl b, SI [N] o st a' -> In N (skind (ps_sub st) 3) -> a_r a' N = Some (true, None) -> a_r a (o N) = Some (true, Some b) -> via o bl = b -> (forall x, In x bl -> In (fst x) (skind (ps_sub st) 2)) ->
  exists t2 a2, MR_Set_Faces (sm_t (ps_sub st)) N (ZL (map fst bl)) (map fst bl) (dirz bl) = Ok t2 /\ SI [N] o (set_subt st t2) a2 /\ TI [] o (ps_sub (set_subt st t2)) a2.
Proof using All.
  intros N o st a' bl b I HN E0 Eb V HB. pose proof I as [T B]. destruct (t_o _ _ _ _ T _ _ HN) as [Kg _]. destruct (region_full' _ Kg) as (b1 & Eb1 & L30 & ND & _). rewrite Eb in Eb1. inversion Eb1; subst b1. clear Eb1.
  destruct (reach_step _ _ (TSetFaces N bl) (t_reach _ _ _ _ T)) as (t2 & S2 & R2).
  { cbn [tpre]. split; [left; auto|]. split; [|split; [|split]].
    - apply NoDup_map_inv with (f := o). rewrite <- V in ND. unfold via in ND. rewrite map_map in *. cbn [fst] in ND. exact ND.
    - rewrite <- V in L30. unfold via in L30. rewrite map_length in L30. auto.
    - apply Forall_forall. intros x Hx. specialize (HB _ Hx). destruct (t_loop _ _ _ _ T _ HB) as (l & El & _); [|exists l; auto]. intros [Q|[]]. subst N. pose proof (sub_apart _ _ _ _ _ _ _ T HN HB). lia.
    - intros f d q Hf (b' & Eq & Hq). destruct (Z.eq_dec q N) as [|Q]; auto. assert (Hq3 : In q (skind (ps_sub st) 3)) by (apply (t_r _ _ _ _ T); exists (Some b'); auto).
      destruct (t_faces _ _ _ _ T _ Hq3) as (b2 & Eq2 & E3 & _). { intros [|[]]; auto. } rewrite Eq in Eq2. inversion Eq2; subst b2. apply (t_inj _ _ _ _ T _ _ _ _ Hq3 HN). apply (one_side (o f) d).
      + exists (via o b'). split; auto. apply (in_map (fun x => (o (fst x), snd x)) _ _ Hq).
      + exists b. split; auto. rewrite <- V. apply (in_map (fun x => (o (fst x), snd x)) _ _ Hf). }
  cbn [tstep] in S2. set (a2 := astep a' (TSetFaces N bl)) in *. exists t2, a2. unfold ZL. rewrite map_length. split; [exact S2|].
  assert (AN : a_r a2 N = Some (true, Some bl)) by (unfold a2; cbn [astep set_rb with_r a_r]; rewrite upd_same, E0; auto).
  assert (AO : forall q, q <> N -> a_r a2 q = a_r a' q) by (intros q Q; unfold a2; cbn [astep set_rb with_r a_r]; rewrite upd_other; auto).
  assert (T2 : TI [N] o (ps_sub (set_subt st t2)) a2).
  { apply ti_step with a'; auto; try (intro q; reflexivity).
    - intro q. unfold live_r. destruct (Z.eq_dec q N) as [->|Q]; [rewrite AN, E0; split; eauto|]. rewrite AO by auto. reflexivity.
    - intros q Q. rewrite AO by (intros ->; apply Q; left; auto). auto. }
  split; [split; [exact T2|apply bi_t; auto]|].
  apply ti_close with N; auto.
  - intro Q. pose proof (sub_apart _ _ _ _ 3 1 N T HN Q). lia.
  - intro Q. pose proof (sub_apart _ _ _ _ 3 2 N T HN Q). lia.
  - intros _. exists bl. rewrite AN, Eb, V. split; auto.
Qed.

Lemma vol_region_ok : forall o st a' g, c = 3 -> SI [] o st a' -> In g (K 3) -> inp g -> g2l0 g = [] -> nocopy o st g ->
  exists st2 o2 a2, vol_region k st g = Ok st2 /\ SI [] o2 st2 a2 /\ celled o st o2 st2 g.
Proof using All.
  intros o st a' g C3 I Hg Ig L0 Ng. destruct (region_full' _ Hg) as (b & Eb & L5 & ND & HB). unfold vol_region. pose proof I as [T B]. unfold sm_t at 1. rewrite (b_m _ _ _ B). fold (sm_t s).
  destruct (region_rep _ _ _ _ (pa_reach _ _ P) Eb) as (y & Hy & Hl & HD). unfold MR_Faces at 1, getr. rewrite Hy. cbn [bind]. rewrite Hl. cbn [bind nn].
  match goal with |- context [foldM ?F _ _] => set (step := F) end.
  assert (L : exists st1 o1 a1 bl, foldM step (st, [], []) (zrange 0 (ZL (map fst b))) = Ok (st1, map fst bl, dirz bl) /\ SI [] o1 st1 a1 /\ ext 2 [] o st a' o1 st1 a1 /\ via o1 bl = b /\ (forall x, In x bl -> In (fst x) (skind (ps_sub st1) 2))).
  { edestruct (list_loop (ptr * bool) (pst * list ptr * list Z) (fun dn x => exists o2 a2 bl, snd (fst x) = map fst bl /\ snd x = dirz bl /\ SI [] o2 (fst (fst x)) a2 /\ ext 2 [] o st a' o2 (fst (fst x)) a2 /\ via o2 bl = dn /\ (forall y, In y bl -> In (fst y) (skind (ps_sub (fst (fst x))) 2)))) with (full := b) (st := (st, @nil ptr, @nil Z)) as (x & E & Q).
    3: { unfold ZL. rewrite map_length, E. destruct x as [[st2 es] ds]. cbn [fst snd] in Q. destruct Q as (o2 & a2 & bl & -> & -> & Q). exists st2, o2, a2, bl. auto. }
    2: { exists o, a', []. cbn [fst snd map]. split; auto. split; auto. split; auto. split; [apply ext_refl|]. split; auto. intros z []. }
    intros dn w rest [[st1 es] ds] Ef (o1 & a1 & bl & Q1 & Q2 & I1 & X1 & V1 & H1). cbn [fst snd] in *. subst es ds. unfold step.
    assert (LT : (length dn < length b)%nat) by (rewrite Ef, app_length; cbn; lia). assert (EN : nth (length dn) b dflt = w) by (rewrite Ef; apply nth_middle).
    rewrite lent_fst by auto. cbn [bind]. rewrite EN.
    assert (Hw : In w b) by (rewrite Ef; apply in_or_app; right; left; auto).
    destruct (vol_face_ok [] o1 st1 a1 (fst w) C3 I1) as (st2 & o2 & a2 & l & E2 & I2 & X2 & Hl2 & NO & Ol); auto. { apply ip_face with g (snd w); auto. exists b. split; auto. destruct w; auto. } { intros q z []. }
    rewrite E2. cbn [bind]. pose proof I2 as [T2 B2]. unfold sm_t at 1. rewrite (b_m _ _ _ B2). fold (sm_t s). rewrite HD, EN by auto. cbn [bind]. replace (MAXPF3 <=? Z.of_nat (length dn)) with false by (unfold MAXPF3, maxrf in *; lia).
    exists (st2, map fst bl ++ [l], dirz bl ++ [b2z (snd w)]). split; auto. cbn [fst snd]. exists o2, a2, (bl ++ [(l, snd w)]). unfold dirz. rewrite !map_app. split; auto. split; auto. split; auto. destruct X2 as (X2a & X2b & X2c). split; [eapply ext_trans; [| |exact X1|split; [exact X2a|split; [exact X2b|exact X2c]]]; auto; lia|]. split.
    - rewrite via_app. f_equal; [rewrite <- V1; apply via_ext; intros z Hz; eapply X2b; apply H1; auto|]. cbn. rewrite Ol. destruct w; auto.
    - intros z Hz. apply in_app_or in Hz. destruct Hz as [Hz|[<-|[]]]; [|auto]. apply X2b. auto. }
  destruct L as (st1 & o1 & a1 & bl & E1 & I1 & X1 & V1 & H1). rewrite E1. cbn [bind]. pose proof (nocopy_ext 3 2 _ _ _ _ _ _ _ _ eq_refl Hg I1 X1 Ng) as Ng1.
  destruct (new_copy_ok 3 own [] o1 st1 a1 g I1) as (st2 & E2 & I2 & X2 & IN2 & EK2); auto. { right. auto. }
  rewrite E2. set (N := a_next a1) in *. set (o2 := zupd o1 N g) in *. set (a2 := astep a1 (tnew 3)) in *. assert (ON : o2 N = g) by (unfold o2, zupd; rewrite Z.eqb_refl; auto).
  pose proof X2 as (X2a & X2b & X2c).
  destruct (set_faces_ok' N o2 st2 a2 bl b I2) as (t3 & a3 & E3 & I3 & T3); auto.
  { unfold a2. cbn. rewrite upd_same. auto. } { rewrite ON. auto. } { rewrite <- V1. apply via_ext. intros x Hx. apply (X2b 2). apply H1. auto. } { intros x Hx. apply X2b. apply H1. auto. }
  rewrite E3. cbn [bind]. exists (link1 k (set_subt st2 t3) g N), o2, a3. split; auto. split.
  { rewrite <- ON. apply link1_ok with (d := 3); auto; rewrite ON; auto. }
  destruct X1 as (X1a & X1b & X1c). unfold celled. rewrite C3. cbn [link1 ps_sub]. split; [|split].
  - intros q Hq. destruct (X1b _ _ Hq) as [Y1 Y2]. destruct (X2b _ _ Y1) as [Y3 Y4]. split; [exact Y3|congruence].
  - intros q Hq. rewrite <- ON. destruct (Z.eq_dec q N) as [->|Q]; auto. left. rewrite <- X1a by lia. change (In q (skind (ps_sub st2) 3)) in Hq.
    rewrite EK2, Z.eqb_refl in Hq. apply in_app_or in Hq. destruct Hq as [Hq|[Hq|[]]]; auto. destruct Q. auto.
  - exists N. split; auto.
Qed.

(** ** All cells of the part *)
Definition begun (st : pst) : Prop :=
  sm_m (ps_par st) = sm_m s /\ (forall g, pi_ptype (sm_p (ps_par st) g) = pi_ptype (sm_p s g) /\ pi_bdry (sm_p (ps_par st) g) = pi_bdry (sm_p s g)) /\
  ps_g2l st = g2l0 /\ ps_sub st = empty_smesh /\ (forall g, ms st g = M0 g) /\ (forall g, gi st g = G0 g) /\ (forall d, numbered d G0 (ps_ids st d)) /\
  (forall d g, d < c -> In g (K d) -> M0 g <> 0 -> G0 g <> 0).
Lemma no_ents : forall d q, ~ In q (skind empty_smesh d).
Proof using. intros d q H. unfold skind, kind in H. cbn in H. destruct (d =? 0), (d =? 1), (d =? 2), (d =? 3); auto. Qed.
Lemma begun_ok : forall st o, begun st -> SI [] o st amesh0.
Proof using All.
  intros st o (E1 & E2 & E3 & E4 & E5 & E6 & E7 & E8). split.
  - rewrite E4. constructor; try (intros; exfalso; eapply no_ents; eauto; fail).
    + exists []. split; [exact Logic.I|]. split; reflexivity.
    + intro d. unfold skind, kind. cbn. destruct (d =? 0), (d =? 1), (d =? 2), (d =? 3); constructor.
    + intro q. split; [intro H; destruct (no_ents _ _ H)|discriminate].
    + intro q. split; [intro H; destruct (no_ents _ _ H)|intros [x H]; discriminate].
    + intro q. split; [intro H; destruct (no_ents _ _ H)|intros [x H]; discriminate].
    + intro q. split; [intro H; destruct (no_ents _ _ H)|intros [x H]; discriminate].
    + intros d i q H. apply nth_error_In in H. destruct (no_ents _ _ H).
    + intros q [].
  - constructor; rewrite ?E4; auto; try (intros; exfalso; eapply no_ents; eauto; fail).
    + intro g. left. rewrite E3. split; auto. intros d q H. destruct (no_ents _ _ H).
    + intro d. apply numbered_ext with G0; auto.
    + intros d g Hd Hg. rewrite E5, E6. eauto.
Qed.

Hypothesis Hlen : (length (cells s) <= length part)%nat.
Hypothesis Hnew : forall i g, nth_error (cells s) i = Some g -> nth_error part i = Some k -> g2l0 g = [].
Definition taken (n : nat) (o : ptr -> ptr) (st : pst) : Prop :=
  (forall q, In q (skind (ps_sub st) c) -> exists i, (i < n)%nat /\ nth_error (cells s) i = Some (o q) /\ nth_error part i = Some k) /\
  (forall i g, (i < n)%nat -> nth_error (cells s) i = Some g -> nth_error part i = Some k -> exists q, In q (skind (ps_sub st) c) /\ o q = g).
Lemma cells_nd : NoDup (cells s).
Proof using P. apply (pa_nd _ _ P). Qed.
Lemma cell_ok : forall cell, (forall o st a' g, SI [] o st a' -> In g (K c) -> inp g -> g2l0 g = [] -> nocopy o st g -> exists st2 o2 a2, cell k st g = Ok st2 /\ SI [] o2 st2 a2 /\ celled o st o2 st2 g) ->
  forall st, begun st -> exists st2 o2 a2, foldM (fun st ic => p <- rdl part ic ;; if negb (p =? k) then Ok st else g <- lent (cells s) ic ;; cell k st g) st (zrange 0 (ZL (cells s))) = Ok st2 /\ SI [] o2 st2 a2 /\ taken (length (cells s)) o2 st2.
Proof using All.
  intros cell HC st0 B0.
  edestruct (list_loop ptr pst (fun dn st => exists o2 a2, SI [] o2 st a2 /\ taken (length dn) o2 st)) with (full := cells s) (st := st0) as (st2 & E & o2 & a2 & Q).
  3: { exists st2, o2, a2. split; [exact E|exact Q]. }
  2: { exists (fun _ => NULL), amesh0. split; [apply begun_ok; auto|]. destruct B0 as (_ & _ & _ & E4 & _). split; [rewrite E4; intros q H; destruct (no_ents _ _ H)|cbn; intros; lia]. }
  intros dn g rest st Ef (o & a' & I & TK1 & TK2).
  assert (EN : nth_error (cells s) (length dn) = Some g) by (rewrite Ef, nth_error_app2, Nat.sub_diag by lia; reflexivity).
  assert (LT : (length dn < length (cells s))%nat) by (rewrite Ef, app_length; cbn; lia).
  destruct (nth_error part (length dn)) as [p|] eqn:EP; [|apply nth_error_None in EP; lia].
  assert (ER : rdl part (Z.of_nat (length dn)) = Ok p). { unfold rdl. rewrite Nat2Z.id, (nth_error_nth _ _ _ EP). replace ((0 <=? Z.of_nat (length dn)) && (Z.of_nat (length dn) <? Z.of_nat (length part))) with true by lia. auto. }
  rewrite ER. cbn [bind]. rewrite app_length. cbn [length]. destruct (Z.eqb_spec p k) as [->|NE]; cbn [negb].
  - assert (EL : lent (cells s) (Z.of_nat (length dn)) = Ok g). { unfold lent. replace (Z.of_nat (length dn) <? 0) with false by lia. rewrite Nat2Z.id. rewrite (nth_error_nth _ _ _ EN). auto. }
    rewrite EL. cbn [bind]. assert (Hg : In g (K c)) by (eapply nth_error_In; exact EN).
    destruct (HC o st a' g I Hg) as (st2 & o2 & a2 & E2 & I2 & (C1 & C2 & C3)). { eapply ip_cell; eauto. } { eauto. }
    { intros x q Hq Eq. destruct I as [T _]. destruct (t_o _ _ _ _ T _ _ Hq) as [Hk' _]. rewrite Eq in Hk'. rewrite <- (K_apart _ _ _ Hg Hk') in Hq. destruct (TK1 _ Hq) as (i & Li & Ei & _). rewrite Eq in Ei.
      assert (i = length dn); [|lia]. eapply NoDup_nth_error; [apply cells_nd|lia|congruence]. }
    exists st2. split; auto. exists o2, a2. split; auto. split.
    + intros q Hq. destruct (C2 _ Hq) as [H|H].
      * destruct (TK1 _ H) as (i & Li & Ei & Pi). exists i. destruct (C1 _ H) as [_ ->]. split; [lia|auto].
      * exists (length dn). rewrite H. split; [lia|auto].
    + intros i g' Li Ei Pi. destruct (Nat.eq_dec i (length dn)) as [->|N]. { assert (g' = g) by congruence. subst. auto. } destruct (TK2 i g' ltac:(lia) Ei Pi) as (q & Hq & Eq). exists q. destruct (C1 _ Hq) as [Y1 Y2]. split; auto. congruence.
  - exists st. split; auto. exists o, a'. split; auto. split.
    + intros q Hq. destruct (TK1 _ Hq) as (i & Li & Ei & Pi). exists i. split; [lia|auto].
    + intros i g' Li Ei Pi. destruct (Nat.eq_dec i (length dn)) as [->|N]; [congruence|]. apply (TK2 i g'); auto. lia.
Qed.

(** Everything in the part was copied. *)
Lemma onto : forall o st a', SI [] o st a' -> taken (length (cells s)) o st -> forall g, inp g -> exists d q, In q (skind (ps_sub st) d) /\ o q = g.
Proof using All.
  intros o st a' [T B] [_ TK] g H. induction H as [i g Ei Pi|r f d H IH (b & Eb & Hb)|f e H IH (b & Eb & Hb)|e v H IH (v0 & v1 & Ev & Hv)].
  - destruct (TK i g) as (q & Hq & Eq); auto. { apply nth_error_Some. congruence. } eauto.
  - destruct IH as (x & q & Hq & Eq). destruct (t_o _ _ _ _ T _ _ Hq) as [Hk' _]. rewrite Eq in Hk'. assert (K3 : In r (K 3)) by (apply (pa_r _ _ P); eexists; eauto). rewrite (K_apart _ _ _ Hk' K3) in Hq.
    destruct (t_faces _ _ _ _ T _ Hq) as (b' & E1 & E2 & Hb'); [intros []|]. rewrite Eq, Eb in E2. inversion E2; subst b. unfold via in Hb. apply in_map_iff in Hb. destruct Hb as (y & Ey & Hy). inversion Ey. exists 2, (fst y). split; auto.
  - destruct IH as (x & q & Hq & Eq). destruct (t_o _ _ _ _ T _ _ Hq) as [Hk' _]. rewrite Eq in Hk'. assert (K3 : In f (K 2)) by (apply (pa_f _ _ P); eexists; eauto). rewrite (K_apart _ _ _ Hk' K3) in Hq.
    destruct (t_loop _ _ _ _ T _ Hq) as (b' & E1 & E2 & Hb'); [intros []|]. rewrite Eq, Eb in E2. inversion E2; subst b. unfold via in Hb. rewrite map_map in Hb. apply in_map_iff in Hb. destruct Hb as (y & Ey & Hy). cbn [fst] in Ey. exists 1, (fst y). split; auto.
  - destruct IH as (x & q & Hq & Eq). destruct (t_o _ _ _ _ T _ _ Hq) as [Hk' _]. rewrite Eq in Hk'. assert (K3 : In e (K 1)) by (apply (pa_e _ _ P); eexists; eauto). rewrite (K_apart _ _ _ Hk' K3) in Hq.
    destruct (t_ends _ _ _ _ T _ Hq) as (u & w & E1 & E2 & Hu & Hw); [intros []|]. rewrite Eq, Ev in E2. inversion E2; subst v0 v1. destruct Hv as [<-| <-]; eauto.
Qed.
Lemma cell_once : forall i g j, nth_error (cells s) i = Some g -> inpart s a part j g -> nth_error part i = Some j.
Proof using P.
  clear -P. intros i g j Ei H. assert (Hg : In g (K c)) by (eapply nth_error_In; exact Ei). assert (KA := kinds_apart s a (pa_reach _ _ P) (pa_v _ _ P) (pa_e _ _ P) (pa_f _ _ P) (pa_r _ _ P)).
  assert (C23 : c = 2 /\ K 3 = [] \/ c = 3) by (unfold celldim; destruct (skind s 3); auto).
  pose proof (i_w _ _ (reach_inv _ _ (pa_reach _ _ P))) as W.
  destruct H as [i' g Ei' Pi|r f d H (b & Eb & Hb)|f e H (b & Eb & Hb)|e v H (v0 & v1 & Ev & Hv)].
  - assert (i = i'); [|subst; auto]. eapply NoDup_nth_error; [apply (pa_nd _ _ P)| |]; [|unfold cells in *; rewrite Ei, Ei'; auto]. apply nth_error_Some. unfold cells in Ei. congruence.
  - exfalso. assert (In r (K 3)) by (apply (pa_r _ _ P); eexists; eauto). destruct C23 as [[_ E]|E]; [rewrite E in H0; auto|]. pose proof (w_rf _ W _ _ Eb) as F. rewrite Forall_forall in F. destruct (F _ Hb) as [z Hz]. assert (In f (K 2)) by (apply (pa_f _ _ P); eexists; eauto). pose proof (KA _ _ _ Hg H1). congruence.
  - exfalso. pose proof (w_fe _ W _ _ Eb) as F. rewrite Forall_forall in F. apply in_map_iff in Hb. destruct Hb as (y & <- & Hy). assert (In (fst y) (K 1)) by (apply (pa_e _ _ P); auto). pose proof (KA _ _ _ Hg H0) as E1. rewrite E1 in C23. destruct C23 as [[C23 _]|C23]; discriminate C23.
  - exfalso. destruct (pa_ends _ _ P _ _ _ Ev) as [N0 N1]. destruct (w_ends _ W _ _ _ Ev) as [[|W0] [|W1]]; try tauto. assert (In v (K 0)) by (apply (pa_v _ _ P); destruct Hv; subst; auto). pose proof (KA _ _ _ Hg H0) as E1. rewrite E1 in C23. destruct C23 as [[C23 _]|C23]; discriminate C23.
Qed.

(** What was known of the masters. *)
Hypothesis Hown : forall d g, d < c -> In g (K d) -> (M0 g = 0 /\ forall j, 0 <= j < k -> ~ inpart s a part j g) \/ (M0 g <> 0 /\ owner s a part g (M0 g - 1)).
Lemma part_done : forall o st a', SI [] o st a' -> taken (length (cells s)) o st -> is_part s a part k (ps_par st) (ps_sub st) a' (ps_l2g st).
Proof using All.
  intros o st a' I TK. pose proof (onto _ _ _ I TK) as ON. destruct I as [T B]. assert (L : forall d q, In q (skind (ps_sub st) d) -> ps_l2g st q = o q) by (intros; eapply b_l2g; eauto).
  constructor; [exact (t_reach _ _ _ _ T)|exact (t_nd _ _ _ _ T)|exact (t_v _ _ _ _ T)|exact (t_e _ _ _ _ T)|exact (t_f _ _ _ _ T)|exact (t_r _ _ _ _ T)|exact (t_id _ _ _ _ T)| | | | | | | | | |exact (b_pl _ _ _ B)].
  - intros d g. split.
    + intros [Kg Ig]. destruct (ON _ Ig) as (x & q & Hq & Eq). destruct (t_o _ _ _ _ T _ _ Hq) as [Hk' _]. rewrite Eq in Hk'. rewrite (K_apart _ _ _ Hk' Kg) in Hq. exists q. rewrite (L _ _ Hq). auto.
    + intros (q & Hq & <-). rewrite (L _ _ Hq). apply (t_o _ _ _ _ T). auto.
  - intros d q d' q' H H'. rewrite (L _ _ H), (L _ _ H'). apply (t_inj _ _ _ _ T _ _ _ _ H H').
  - intros q H. destruct (t_ends _ _ _ _ T _ H) as (u & w & E1 & E2 & U & W); [intros []|]. exists u, w. rewrite (L _ _ H), (L _ _ U), (L _ _ W). auto.
  - intros q H. destruct (t_loop _ _ _ _ T _ H) as (b & E1 & E2 & U); [intros []|]. exists b. rewrite (L _ _ H), (via_ext o) by (intros x Hx; eapply L; eauto). auto.
  - intros q H. destruct (t_faces _ _ _ _ T _ H) as (b & E1 & E2 & U); [intros []|]. exists b. rewrite (L _ _ H), (via_ext o) by (intros x Hx; eapply L; eauto). auto.
  - intros q H. rewrite (L _ _ H). apply (t_x _ _ _ _ T). auto.
  - intros d q H. rewrite (L _ _ H). apply (t_c _ _ _ _ T d). auto.
  - intros d q H. rewrite (L _ _ H). destruct (b_gloc _ _ _ B _ _ H) as [G1 G2]. unfold gi in *. rewrite G1. auto.
  - intros d q H. rewrite (L _ _ H). destruct (t_o _ _ _ _ T _ _ H) as [Kq Iq]. pose proof c_23 as C23. assert (D : d < c \/ d = c).
    { destruct (kind_cases _ _ _ H) as [-> | [-> | [-> | ->]]]; try lia. destruct C23 as [C2|C3]; [|lia]. exfalso. unfold celldim in C2. destruct (K 3) eqn:E3; [auto|lia]. }
    destruct D as [D| ->].
    + rewrite (b_mloc _ _ _ B _ _ D H), (b_mcop _ _ _ B _ _ D H). destruct (Hown _ _ D Kq) as [[E Hn]|[E Ow]].
      * rewrite E. cbn [Z.eqb]. replace (k + 1 - 1) with k by lia. split; [lia|auto].
      * replace (M0 (o q) =? 0) with false by lia. auto.
    + destruct (b_cell _ _ _ B _ H) as [-> _]. split; [lia|]. split; auto. intros j Hj Ij. destruct TK as [TK _]. destruct (TK _ H) as (i & _ & Ei & Pi). pose proof (cell_once _ _ _ Ei Ij). rewrite Pi in H0. inversion H0. lia.
Qed.
Lemma masters_done : forall o st a', SI [] o st a' -> taken (length (cells s)) o st ->
  forall d g, d < c -> In g (K d) -> 0 <= ms st g <= k + 1 /\ ((ms st g = 0 /\ forall j, 0 <= j < k + 1 -> ~ inpart s a part j g) \/ (ms st g <> 0 /\ owner s a part g (ms st g - 1))).
Proof using All.
  intros o st a' I TK d g D Kg. pose proof (onto _ _ _ I TK g) as ON. destruct I as [T B]. pose proof (HM0 _ _ D Kg) as HM.
  assert (CD : (exists q, In q (skind (ps_sub st) d) /\ o q = g) \/ forall q, In q (skind (ps_sub st) d) -> o q <> g).
  { generalize (skind (ps_sub st) d). intro l. induction l as [|q l IH]; [right; auto|]. destruct (Z.eq_dec (o q) g) as [E|N]; [left; exists q; cbn; auto|]. destruct IH as [(q' & Hq & Eq)|H]; [left; exists q'; cbn; auto|right]. intros q' [<-|Hq]; auto. }
  destruct CD as [(q & Hq & <-)|N].
  - rewrite (b_mcop _ _ _ B _ _ D Hq). destruct (t_o _ _ _ _ T _ _ Hq) as [_ Iq]. destruct (Hown _ _ D Kg) as [[E Hn]|[E Ow]].
    + rewrite E. cbn [Z.eqb]. split; [lia|]. right. split; [lia|]. replace (k + 1 - 1) with k by lia. split; [lia|auto].
    + replace (M0 (o q) =? 0) with false by lia. split; [lia|auto].
  - assert (N' : forall x q, In q (skind (ps_sub st) x) -> o q <> g). { intros x q Hq Eq. destruct (t_o _ _ _ _ T _ _ Hq) as [Hk' _]. rewrite Eq in Hk'. rewrite (K_apart _ _ _ Hk' Kg) in Hq. eapply N; eauto. }
    rewrite (b_mnot _ _ _ B _ N'). split; [lia|]. destruct (Hown _ _ D Kg) as [[E Hn]|[E Ow]]; [left|auto]. split; auto. intros j Hj Ij. destruct (Z.eq_dec j k) as [->|]; [|apply (Hn j); auto; lia]. destruct (ON Ij) as (x & q & Hq & Eq). eapply N'; eauto.
Qed.
Lemma lists_done : forall o st a', SI [] o st a' -> forall g j l, In (j, l) (ps_g2l st g) <-> In (j, l) (g2l0 g) \/ (j = k /\ exists d, In l (skind (ps_sub st) d) /\ ps_l2g st l = g).
Proof using All.
  intros o st a' [T B] g j l. assert (L : forall d q, In q (skind (ps_sub st) d) -> ps_l2g st q = o q) by (intros; eapply b_l2g; eauto).
  destruct (b_list _ _ _ B g) as [[E H]|(y & l' & H1 & H2 & H3 & H4)].
  - rewrite E. split; auto. intros [|(_ & d & Hl & Q)]; auto. rewrite (L _ _ Hl) in Q. destruct (H _ _ Hl Q).
  - rewrite H4, in_app_iff. cbn [In]. split; [intros [|[Q|[]]]; auto; inversion Q; subst; right; split; auto; exists y; rewrite (L _ _ H1); auto|]. intros [|(-> & d & Hl & Q)]; auto. rewrite (L _ _ Hl) in Q. right. left. f_equal. rewrite <- H3 in Q. symmetry. eapply t_inj; eauto.
Qed.
Lemma lists_once : forall o st a', SI [] o st a' -> forall g, NoDup (map fst (g2l0 g)) -> NoDup (map fst (ps_g2l st g)).
Proof using All.
  intros o st a' [T B] g N. destruct (b_list _ _ _ B g) as [[E H]|(y & l' & H1 & H2 & H3 & H4)]; [rewrite E; auto|]. rewrite H4, map_app. apply nd_app. split; auto. split; [repeat constructor; cbn; tauto|]. intros x Hx [<-|[]]. apply in_map_iff in Hx. destruct Hx as (z & Ez & Hz). apply (Hg0 _ _ Hz). auto.
Qed.
End Making.
