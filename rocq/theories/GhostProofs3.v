(** Copying all layers around a part. *)
From Coq Require Import ZArith Bool Floats.SpecFloat List Lia Arith ZifyBool ZifyNat.
From Verif Require Import Base BaseProofs ListSpec AttModel AttProps TopoModel TopoSpec TopoProofs TopoProofs2 TopoProofs3 TopoProofs5 TopoProps TopoProps2 CellProofs2 ParModel BuildProofs2 FileModel FileSpec FileProofs3 FileProofs4 SendModel SendSpec SendProofs2 PartModel PartSpec PartProofs PartProofs2 PartProofs3 PartProps2 CopyProofs2 GhostModel GhostSpec GhostProofs GhostProofs2.
Import ListNotations.
Open Scope Z_scope.

Definition g_cell (c k : Z) : gst -> ptr -> result gst := if c =? 3 then ghost_region k else ghost_face k.
Section All.
Variables (s : smesh) (a : amesh) (part : list Z) (k : Z) (s' sub : smesh) (a' : amesh) (g : ptr -> ptr) (g2l0 : ptr -> list (Z * ptr)) (bs ov : smesh).
Hypothesis P : partable s a.
Hypothesis I : is_part s a part k s' sub a' g.
Hypothesis Em : sm_m s' = sm_m s.
Notation K := (skind s).
Notation K' := (skind sub).
Notation c := (celldim s).
Hypothesis Hfull : forall n d x, In x (K d) -> halo s a part k n x -> g2l0 x <> [].
Hypothesis HM : forall n d x, In x (K d) -> halo s a part k n x -> 0 <= pi_master (sm_p s' x) < 2 ^ 29.
Hypothesis GL : forall x l, In (k, l) (g2l0 x) <-> exists d, In l (K' d) /\ g l = x.
Hypothesis Eb : sm_m bs = sm_m sub.
Hypothesis BF : forall d q, In q (K' d) -> (pi_bdry (sm_p bs q) = true <-> exists x, bounds a (g q) x /\ ~ inpart s a part k x).
Hypothesis Eo : sm_m ov = sm_m sub.
Hypothesis Fo : forall q, (forall d, ~ In q (K' d)) -> pi_bdry (sm_p ov q) = false.
Notation SIn n := (SI s a k s' ov g g2l0 (halo s a part k n)).
Notation RIn := (RI s a part k s' ov g g2l0).

Lemma cell_ok : forall n gb (had : ptr -> Prop) o st a2 x, (forall v, In v gb -> had v) -> GS s a k s' ov g g2l0 (halo s a part k n) gb had [] o st a2 -> In x (cells s) -> halo s a part k n x -> nocopy o (g_p st) x ->
  exists st2 o2 a3, g_cell c k st x = Ok st2 /\ GS s a k s' ov g g2l0 (halo s a part k n) gb had [] o2 st2 a3 /\ done s o st o2 st2 x.
Proof using All.
  intros n gb had o st a2 x Hg G Hx Hh N.
  assert (D : forall x y, halo s a part k n y -> up a x y -> halo s a part k n x) by (intros; eapply halo_down; eauto; apply bd_one; auto).
  unfold g_cell, cells in *. destruct (c_23 s) as [C|C]; rewrite C in *; cbn [Z.eqb Pos.eqb].
  - eapply (ghost_face_ok s a k s' ov g g2l0 (halo s a part k n)); eauto; intros; eapply D; eauto; [right; right; eauto|right; left; auto|left; auto].
  - eapply (ghost_region_ok s a k s' ov g g2l0 (halo s a part k n)); eauto; intros; eapply D; eauto; [right; right; eauto|right; left; auto|left; auto].
Qed.

Lemma part_null : forall d q, In q (K' d) -> g q <> NULL.
Proof using All.
  intros d q Hq. destruct (g_in s a part k s' sub a' g I d q Hq) as [H _]. pose proof (i_w _ _ (reach_inv _ _ (pa_reach _ _ P))) as W. unfold NULL. revert H. generalize (g q). intros p H. destruct (kind_cases _ _ _ H) as [-> | [-> | [-> | ->]]].
  - apply (pa_v _ _ P) in H. unfold live_v in H. assert (1 <= p < a_next a) by (apply (w_v _ W); congruence). lia.
  - apply (pa_e _ _ P) in H. destruct H as [x H]. assert (1 <= p < a_next a) by (apply (w_e _ W); congruence). lia.
  - apply (pa_f _ _ P) in H. destruct H as [x H]. assert (1 <= p < a_next a) by (apply (w_f _ W); congruence). lia.
  - apply (pa_r _ _ P) in H. destruct H as [x H]. assert (1 <= p < a_next a) by (apply (w_r _ W); congruence). lia.
Qed.
Lemma start_si : forall ids, SIn 0 [] g (mkPst s' g2l0 ids ov g) a'.
Proof using All.
  intro ids. assert (EK : forall d, skind ov d = K' d) by (intro d; unfold skind; rewrite Eo; auto). split.
  - cbn [ps_sub]. destruct I. constructor; intros; rewrite ?EK in *; unfold sm_t in *; rewrite ?Eo in *; auto; try (cbn in *; tauto).
    + eapply po_id; eauto.
    + rewrite halo_0 by auto. apply po_onto. eauto.
    + eapply po_inj; eauto.
    + eapply po_class; eauto.
  - constructor; cbn [ps_par ps_sub ps_g2l ps_l2g]; auto.
    + intro x. unfold found. cbn [ps_g2l]. destruct (find (fun y => fst y =? k) (g2l0 x)) as [[j l]|] eqn:E; cbn [option_map snd].
      * right. apply List.find_some in E. destruct E as [E1 E2]. cbn [fst] in E2. assert (j = k) by lia. subst j. apply GL in E1. destruct E1 as (d & Hd & E1). exists d, l. rewrite EK. split; auto.
      * left. split; auto. intros d q Hq Eq. exfalso. rewrite EK in Hq. assert (H : In (k, q) (g2l0 x)) by (apply GL; eauto). pose proof (List.find_none _ _ E _ H) as E'. cbn [fst] in E'. lia.
    + intro x. exists []. rewrite app_nil_r. split; auto. intros y [].
    + intros q Hq. apply Fo. intros d Hd. apply (Hq d). rewrite EK. auto.
Qed.
Lemma start_ri : forall ids, RIn 0 g a' (mkG (mkPst s' g2l0 ids ov g) [] (mark_all true (map g (filter (fun v => pi_bdry (sm_p bs v)) (K' 0))) (fun _ => false)) (mark_all true (map g (K' c)) (fun _ => false))) (map g (filter (fun v => pi_bdry (sm_p bs v)) (K' 0))).
Proof using All.
  intro ids. assert (EK : forall d, skind ov d = K' d) by (intro d; unfold skind; rewrite Eo; auto). constructor; cbn [g_p g_cm g_vm ps_sub].
  - apply start_si.
  - intros x Hx. rewrite mark_all_in. split.
    + destruct (existsb (Z.eqb x) (map g (K' c))) eqn:E; [intros _|discriminate]. apply inx in E. apply in_map_iff in E. destruct E as (q & <- & Hq). apply halo_cell; auto. apply halo_0; auto. apply (g_in s a part k s' sub a' g I c q Hq).
    + intro H. assert (Hi : inpart s a part k x) by (apply halo_0; auto; exists x; auto). destruct (g_of s a part k s' sub a' g I c x Hx Hi) as (q & Hq & <-). assert (E : In (g q) (map g (K' c))) by (apply in_map; auto). apply inx in E. rewrite E. auto.
  - intros x H. rewrite EK. apply (g_of s a part k s' sub a' g I c x); [eapply within_cell; eauto|]. apply halo_0; auto. exists x. auto.
  - intros q Hq. rewrite EK in Hq. destruct (pi_bdry (sm_p bs q)) eqn:Eq; [left; apply in_map; apply filter_In; auto|]. right. intros x Hx Bx. assert (Hi : inpart s a part k x).
    { destruct (dec_inp s a part k s' sub a' g I c x Hx) as [H|H]; auto. exfalso. assert (pi_bdry (sm_p bs q) = true) by (apply (BF 0 q Hq); eauto). congruence. }
    apply halo_cell; auto. apply halo_0; auto.
  - intros v Hv. rewrite EK. apply in_map_iff in Hv. destruct Hv as (q & <- & Hq). apply filter_In in Hq. exists q. tauto.
  - intros v. rewrite mark_all_in. destruct (existsb _ _) eqn:E; [intros _; apply inx; auto|discriminate].
Qed.
Lemma rings_ok : forall n r o a2 st gb, RIn r o a2 st gb -> exists st2 gb2 o2 a3, foldM (ghost_ring (up_of c) (g_cell c k)) (st, gb) (zrange 0 (Z.of_nat n)) = Ok (st2, gb2) /\ RIn (r + n) o2 a3 st2 gb2.
Proof using All.
  intro n. assert (G : forall l r o a2 st gb, length l = n -> RIn r o a2 st gb -> exists st2 gb2 o2 a3, foldM (ghost_ring (up_of c) (g_cell c k)) (st, gb) l = Ok (st2, gb2) /\ RIn (r + n) o2 a3 st2 gb2).
  { induction n as [|n IH]; intros l r o a2 st gb L R; destruct l as [|i l]; try discriminate L; cbn [foldM]; [exists st, gb, o, a2; rewrite Nat.add_0_r; auto|].
    destruct (ring_ok s a part k s' ov g g2l0 P Em Hfull HM (g_cell c k) cell_ok r o a2 st gb i R) as (st1 & gb1 & o1 & a1 & E1 & R1). rewrite E1. cbn [bind]. replace (r + S n)%nat with (S r + n)%nat by lia. eapply IH; eauto. }
  intros. eapply G; eauto. unfold zrange. rewrite map_length, seq_length. lia.
Qed.
Lemma ghost_all_ok : forall ids ring, exists st2 o2 a3, ghost_all (up_of c) (g_cell c k) (K' c) ring bs (mkPst s' g2l0 ids ov g) = Ok st2 /\ SIn (Z.to_nat ring) [] o2 st2 a3 /\ (forall x, within s a part k (Z.to_nat ring) x -> exists q, In q (skind (ps_sub st2) c) /\ o2 q = x).
Proof using All.
  intros ids ring. unfold ghost_all. cbn [ps_l2g].
  assert (EM : forall d l, (forall q, In q l -> In q (K' d)) -> mapM (fun q => if g q =? NULL then Undef else Ok (g q)) l = Ok (map g l)).
  { intros d l. induction l as [|q l IH]; intro H; cbn [mapM map]; auto. pose proof (part_null d q ltac:(apply H; cbn; auto)). replace (g q =? NULL) with false by lia. cbn [bind]. rewrite IH by (intros; apply H; cbn; auto). auto. }
  rewrite (EM c (K' c)) by auto. cbn [bind]. rewrite Eb. change (fm_v (sm_m sub)) with (K' 0). rewrite (EM 0) by (intros q Hq; apply filter_In in Hq; tauto). cbn [bind].
  assert (EZ : zrange 0 ring = zrange 0 (Z.of_nat (Z.to_nat ring))) by (unfold zrange; f_equal; f_equal; lia). rewrite EZ.
  destruct (rings_ok (Z.to_nat ring) 0 _ _ _ _ (start_ri ids)) as (st2 & gb2 & o2 & a3 & E2 & R2). rewrite E2. cbn [bind]. exists (g_p st2), o2, a3. split; auto. cbn [Nat.add] in R2. split; apply R2.
Qed.
End All.
