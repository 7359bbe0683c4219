(** C29: splitting a face along a new edge. *)
From Coq Require Import ZArith List Lia Bool Arith ZifyBool ZifyNat Permutation.
From Verif Require Import Base BaseProofs ListSpec ParModel ParProps AttModel AttProps TopoModel TopoSpec TopoProofs TopoProofs2 TopoProofs3 TopoProofs4 TopoProofs5 TopoProofs6 TopoProofs7 TopoProps TopoProps2 ModModel ModProofs ModProofs2 ModProps.
Import ListNotations.
Open Scope Z_scope.

(** Used in these directions, the edges of [b] lead from [u] to [w]; they start at
    the vertices [vs]. *)
Fixpoint corners (t : topo) (u : ptr) (b : list (ptr * bool)) (vs : list ptr) (w : ptr) : Prop :=
  match b with
  | [] => vs = [] /\ u = w
  | (e, d) :: b' => exists p q vs', edge_is t e p q /\ p <> q /\ (if d then p else q) = u /\ vs = u :: vs' /\ corners t (if d then q else p) b' vs' w
  end.
(** [b] is a closed loop through [vs]. *)
Definition loop (t : topo) (b : list (ptr * bool)) (vs : list ptr) : Prop := exists u, corners t u b vs u.
Lemma corners_iff : forall t a b u vs w, inv t a -> (corners t u b vs w <-> path a u b w /\ vs = map (vat a) b).
Proof.
  intros t a b u vs w I. revert u vs. induction b as [|[e d] b IH]; intros u vs; cbn [corners path map]. tauto. split.
  - intros (p & q & vs' & He & Hn & Hs & Hv & H). apply (edge_is_iff _ _ _ _ _ I) in He. apply IH in H. destruct H as [H1 H2]. split. { exists (p, q). split; [auto|]. split; [auto|]. split; destruct d; auto. }
    subst vs'. rewrite Hv. f_equal. unfold vat. cbn [fst snd]. rewrite He. destruct d; auto.
  - intros (([p q] & He & Hn & Hs & H) & Hv). exists p, q, (map (vat a) b). split. apply (edge_is_iff _ _ _ _ _ I); auto. split; auto. split. destruct d; auto. split. { rewrite Hv. f_equal. unfold vat. cbn [fst snd]. rewrite He. auto. } apply IH. split; auto.
Qed.

(** A face is divided at two of its vertices that no edge joins: two new faces take
    over its edges, each of them with its direction, and share the new edge with
    opposite senses; both are closed loops again; the regions of the face get
    the two in its place, with the same direction. *)
Theorem C29_split_face : forall t a f b vs v0 v1, reach t a -> face_is t f b -> loop t b vs -> NoDup vs -> In v0 vs -> In v1 vs -> v0 <> v1 -> v0 <> NULL -> v1 <> NULL ->
  (forall e, ~ edge_is t e v0 v1 /\ ~ edge_is t e v1 v0) ->
  (forall r c, reg_is t r c -> In f (map fst c) -> (length c <= 511)%nat) ->
  exists t' e f0 f1 b0 b1 w0 w1, MF_Split_with_Edge t f v0 v1 = Ok (t', e) /\
    (tes t e = None /\ tfs t f0 = None /\ tfs t f1 = None /\ f0 <> f1) /\
    edge_is t' e v0 v1 /\
    (rotation b (b0 ++ b1) /\ b0 <> [] /\ b1 <> []) /\
    face_is t' f0 (b0 ++ [(e, false)]) /\ face_is t' f1 (b1 ++ [(e, true)]) /\
    rotation vs ((v0 :: w0) ++ (v1 :: w1)) /\
    loop t' (b0 ++ [(e, false)]) (v0 :: w0 ++ [v1]) /\ loop t' (b1 ++ [(e, true)]) (v1 :: w1 ++ [v0]) /\
    tfs t' f = None /\
    (forall g c, g <> f -> g <> f0 -> g <> f1 -> (face_is t' g c <-> face_is t g c)) /\
    (forall g x y, g <> e -> (edge_is t' g x y <-> edge_is t g x y)) /\
    (forall v, option_map v_live (tvs t' v) = option_map v_live (tvs t v)) /\
    (forall r c1 d c2, reg_is t r (c1 ++ (f, d) :: c2) -> reg_is t' r (c1 ++ (f0, d) :: c2 ++ [(f1, d)])) /\
    (forall r c, reg_is t r c -> ~ In f (map fst c) -> reg_is t' r c) /\
    (forall r c, reg_is t' r c -> exists c', reg_is t r c') /\
    mutual t' /\ sound t' /\ exists a', reach t' a'.
Proof.
  intros t a f b vs v0 v1 R Hf (u & HL) ND Hv0 Hv1 Hne N0 N1 HC HR. pose proof (reach_inv _ _ R) as I. pose proof (i_w _ _ I) as W. apply (face_is_iff _ _ _ _ I) in Hf. apply (corners_iff _ _ _ _ _ _ I) in HL. destruct HL as [HP Evs].
  destruct (w_fnd _ W _ _ _ Hf) as [Nb Lb]. unfold maxfe in Lb. pose proof (path_edge_ok _ _ _ _ HP) as EO.
  assert (LV : forall v, In v vs -> v <> NULL -> live_v a v).
  { intros v Hv Hn. subst vs. apply in_map_iff in Hv. destruct Hv as ([e d] & Hx & Hi). rewrite Forall_forall in EO. destruct (EO _ Hi) as ([p q] & He). cbn [fst] in He. unfold vat in Hx. cbn [fst snd] in Hx. rewrite He in Hx. destruct (w_ends _ W _ _ _ He) as [Lp Lq]. destruct d; cbn in Hx; subst; tauto. }
  pose proof (LV v0 Hv0 N0) as L0. pose proof (LV v1 Hv1 N1) as L1. clear LV.
  assert (CE : MVs_CommonEdge t v0 v1 = Ok NULL). { apply (common_edge_ok t a); auto. intros e p q He. apply (edge_is_iff _ _ _ _ _ I) in He. destruct (HC e) as [HC1 HC2]. split; intros [Ep Eq]; rewrite Ep, Eq in He; auto. }
  assert (ME : MF_Edges t f 1 NULL = Ok (map fst b)) by (apply (face_edges_query t a f b true I Hf)). pose proof (face_dirs_ok _ _ _ _ I Hf) as MD.
  destruct (new_edge_ok t a v0 v1 R L0 L1) as (t01 & t1 & a1 & E1 & E2 & En & R1 & A1 & A2 & A3 & A4 & A5).
  pose proof (reach_inv _ _ R1) as I1.
  assert (Keep : forall x, In x (map fst b) -> a_e a1 x = a_e a x). { intros x Hx. rewrite A5. apply in_map_iff in Hx. destruct Hx as (y & <- & Hy). rewrite Forall_forall in EO. destruct (EO _ Hy) as (p & Hp). pose proof (w_e _ W (fst y) ltac:(congruence)). replace (fst y =? a_next a) with false by lia. auto. }
  assert (VAT : map (vat a1) b = vs). { subst vs. apply map_ext_in. intros x Hx. apply vat_same. apply Keep. apply in_map. auto. }
  assert (HP1 : path a1 u b u) by (eapply path_same; eauto). pose proof (path_edge_ok _ _ _ _ HP1) as EO1.
  destruct (find_first_ok t1 a1 b v0 I1 EO1 0%nat ltac:(lia)) as (j & EF & Hj & Ej). { rewrite <- VAT in Hv0. apply in_map_iff in Hv0. destruct Hv0 as (x & Hx & Hi). apply (In_nth _ _ dflt) in Hi. destruct Hi as (k & Hk & Ek). exists k. split. lia. congruence. }
  destruct (split_loop a1 b u v0 v1 j HP1) as (s0 & x0 & s1 & x1 & ER & P0 & P1 & VE0 & VE1 & F0 & F1); auto; try lia; try congruence.
  assert (LR : length b = (length s0 + 1 + (length s1 + 1))%nat). { rewrite <- (rot_length j b), ER, !app_length. cbn. lia. }
  assert (Hbn : b <> []) by (intros ->; cbn in LR; lia).
  assert (G0 : gather_edges t1 (map fst b) (dirz b) (Z.of_nat (length b)) (Z.of_nat j) v1 v0 (length (map fst b)) = Ok (zd (s0 ++ [x0]), Z.of_nat j + Z.of_nat (length s0))).
  { apply (gather_ok t1 a1); auto. rewrite map_length. lia. lia. intros k Hk. rewrite Nat2Z.id. rewrite <- rot_nth by lia. rewrite ER. apply app_nth1. rewrite app_length. cbn. lia. }
  set (e := a_next a) in *. set (b0 := s0 ++ [x0]) in *. set (b1 := s1 ++ [x1]) in *.
  assert (Eb : rotation b (b0 ++ b1)). { rewrite <- ER. unfold rot. exists (firstn j b), (skipn j b). rewrite firstn_skipn. auto. }
  assert (Fe : ~ In e (map fst b)). { intros Hi. apply in_map_iff in Hi. destruct Hi as (y & Ey & Hy). rewrite Forall_forall in EO. destruct (EO _ Hy) as (p & Hp). pose proof (w_e _ W (fst y) ltac:(congruence)). unfold e in Ey. lia. }
  assert (NBR : NoDup (map fst (b0 ++ b1))). { eapply Permutation_NoDup; [|exact Nb]. apply Permutation_map. apply rotation_perm. auto. }
  assert (IB : forall x, In x b0 \/ In x b1 -> In x b). { intros x Hx. rewrite <- in_app_iff in Hx. eapply Permutation_in; [|exact Hx]. symmetry. apply rotation_perm. auto. }
  assert (NB0 : forall d, NoDup (map fst (b0 ++ [(e, d)]))). { intros d. rewrite map_app in *. apply nd_app in NBR. destruct NBR as (Z1 & Z2 & Z3). apply nd_app. split; auto. split. constructor; [intros []|constructor]. intros y Hy [Ey|[]]. cbn [fst] in Ey. subst y. apply Fe. apply in_map_iff in Hy. destruct Hy as (z & Ez & Hz). rewrite <- Ez. apply in_map. auto. }
  assert (NB1 : forall d, NoDup (map fst (b1 ++ [(e, d)]))). { intros d. rewrite map_app in *. apply nd_app in NBR. destruct NBR as (Z1 & Z2 & Z3). apply nd_app. split; auto. split. constructor; [intros []|constructor]. intros y Hy [Ey|[]]. cbn [fst] in Ey. subst y. apply Fe. apply in_map_iff in Hy. destruct Hy as (z & Ez & Hz). rewrite <- Ez. apply in_map. auto. }
  assert (Lb0 : length b0 = S (length s0)) by (unfold b0; rewrite app_length; cbn; lia). assert (Lb1 : length b1 = S (length s1)) by (unfold b1; rewrite app_length; cbn; lia).
  assert (HEe : a_e a1 e = Some (true, (v0, v1))) by (rewrite A5; unfold e; rewrite Z.eqb_refl; auto).
  assert (EOb : forall d s, (forall x, In x s -> In x b) -> Forall (edge_ok a1) (s ++ [(e, d)])). { intros d s Hs. apply Forall_app. split. rewrite Forall_forall in *. auto. constructor; auto. eexists. exact HEe. }
  destruct (new_face_ok t1 a1 (b0 ++ [(e, false)]) R1 (NB0 false)) as (t2 & a2 & E3 & En2 & R2 & B1 & B2 & B3 & B4 & B5). rewrite app_length; cbn; lia. apply EOb; auto.
  pose proof (reach_inv _ _ R2) as I2.
  assert (EO2 : Forall (edge_ok a2) b). { eapply Forall_impl; [|exact EO1]. intros x (p & Hp). exists p. congruence. }
  assert (VE2 : forall x, vend a2 x = vend a1 x) by (intros; unfold vend; rewrite B2; auto).
  assert (G1 : gather_edges t2 (map fst b) (dirz b) (Z.of_nat (length b)) (Z.of_nat j + Z.of_nat (length s0) + 1) v0 v1 (length (map fst b)) = Ok (zd b1, Z.of_nat j + Z.of_nat (length s0) + 1 + Z.of_nat (length s1))).
  { apply (gather_ok t2 a2); auto. rewrite VE2; auto. rewrite map_length. lia. lia. intros k Hk. replace (Z.to_nat (Z.of_nat j + Z.of_nat (length s0) + 1) + k)%nat with (j + (length b0 + k))%nat by lia. rewrite <- rot_nth by lia. rewrite ER. rewrite app_nth2 by lia. f_equal. lia.
    eapply Forall_impl; [|exact F1]. intros x Hx. rewrite VE2. auto. }
  destruct (new_face_ok t2 a2 (b1 ++ [(e, true)]) R2 (NB1 true)) as (t3 & a3 & E4 & En3 & R3 & C1 & C2 & C3 & C4 & C5). rewrite app_length; cbn; lia. { eapply Forall_impl; [|apply (EOb true b1); auto]. intros x (p & Hp). exists p. congruence. }
  pose proof (reach_inv _ _ R3) as I3. set (f0 := a_next a1) in *. set (f1 := a_next a2) in *.
  assert (Ff : 1 <= f < a_next a) by (apply (w_f _ W); congruence). assert (Hf3 : forall g, g < a_next a -> a_f a3 g = a_f a g). { intros g Hg. rewrite C5, B5. unfold f1, f0. replace (g =? a_next a2) with false by lia. replace (g =? a_next a1) with false by lia. congruence. }
  destruct (C26_face_regions t3 a3 f R3) as (rs & ERs & (NRs & HRs)). { rewrite Hf3 by lia. congruence. }
  assert (Hr3 : a_r a3 = a_r a) by congruence.
  set (nus := fun d : bool => [(f0, d); (f1, d)]).
  assert (Fn : forall q g d, has_face a q g d -> g < a_next a). { intros q g d (c & Hc & Hi). pose proof (w_rf _ W _ _ Hc) as FF. rewrite Forall_forall in FF. destruct (FF _ Hi) as (y & Hy). cbn in Hy. apply (w_f _ W). congruence. }
  assert (HF3 : forall q g d, has_face a3 q g d <-> has_face a q g d) by (intros; unfold has_face; rewrite Hr3; tauto).
  destruct (exchange_faces f nus (fun t fr => d <- MR_FaceDir t fr f ;; MR_Replace_Faces t fr [f] [f0; f1] [d; d])) with (rs := rs) (t := t3) (a := a3) as (t4 & a4 & E5 & R4 & D1 & D2 & D3 & D4 & D5); auto.
  { intros t' r d Hd. rewrite Hd. reflexivity. }
  { intros d. split. discriminate. unfold nus. cbn. split. constructor. cbn. unfold f0, f1. lia. constructor; auto. constructor. unfold f0, f1. lia. }
  { unfold nus. cbn. intros g d [H1|[H1|[]]] [H2|[H2|[]]]; congruence. }
  { intros r Hr. apply HRs in Hr. exact Hr. }
  { intros d. unfold nus. constructor; [|constructor; [|constructor]]; cbn [fst]. exists (b0 ++ [(e, false)]). rewrite C5, B5. unfold f1, f0. replace (a_next a1 =? a_next a2) with false by lia. rewrite Z.eqb_refl. auto. exists (b1 ++ [(e, true)]). rewrite C5. unfold f1. rewrite Z.eqb_refl. auto. }
  { intros r c d Hr Hc Hi. rewrite Hr3 in Hc. assert (Hfr : forall p, In p (map fst c) -> p < a_next a). { intros p Hp. apply in_map_iff in Hp. destruct Hp as ([g s] & <- & Hg). apply (Fn r g s). exists c; auto. }
    split. intros p Hp Hp'. apply Hfr in Hp'. unfold nus, f0, f1 in Hp. cbn in Hp. lia. split. cbn [length nus]. specialize (HR r c). rewrite <- (reg_is_iff _ _ _ _ I) in HR. specialize (HR Hc ltac:(apply in_map_iff; exists (f, d); auto)). lia.
    intros g s q Hg Hq. apply HF3, Fn in Hq. unfold nus, f0, f1 in Hg. cbn in Hg. destruct Hg as [Hg|[Hg|[]]]; inversion Hg; lia. }
  pose proof (reach_inv _ _ R4) as I4.
  assert (NF : forall d, ~ In f (map fst (nus d))). { intros d. unfold nus, f0, f1. cbn. lia. }
  assert (HE4 : forall r c, a_r a r = Some (true, Some c) -> a_r a4 r = Some (true, Some (exchange f nus c))).
  { intros r c Hc. rewrite D5, Hr3, Hc. destruct (mem r rs) eqn:Em; auto. rewrite exchange_out; auto. intros Hi. apply not_true_iff_false in Em. rewrite mem_In in Em. apply Em. apply HRs. apply in_map_iff in Hi. destruct Hi as ([g s] & Hg & Hi). cbn in Hg. subst g. exists s. exists c. rewrite Hr3. auto. }
  assert (HE4' : forall r c, a_r a4 r = Some (true, Some c) -> exists c', a_r a r = Some (true, Some c') /\ c = exchange f nus c').
  { intros r c Hc. destruct (a_r a r) as [[l [c'|]]|] eqn:E.
    - destruct l. exists c'. split; auto. rewrite (HE4 r c' E) in Hc. congruence. rewrite D5, Hr3, E in Hc. destruct (mem r rs); discriminate.
    - rewrite D5, Hr3, E in Hc. destruct (mem r rs); discriminate.
    - rewrite D5, Hr3, E in Hc. destruct (mem r rs); discriminate. }
  destruct (reach_step t4 a4 (TDelF f false) R4) as (t5 & E6 & R5).
  { cbn [tpre]. split. rewrite D3, Hf3 by lia. congruence. intros _ r d (c & Hc & Hi). destruct (HE4' _ _ Hc) as (c' & Hc' & ->). apply (exchange_not_in f nus c' NF). apply in_map_iff. exists (f, d). auto. }
  cbn [tstep] in E6. pose proof (reach_inv _ _ R5) as I5.
  assert (Ff5 : forall g, g <> f -> a_f (astep a4 (TDelF f false)) g = a_f a3 g). { intros g Hg. cbn [astep]. ra. unfold kill. rewrite upd_other by auto. congruence. }
  assert (Fe5 : a_e (astep a4 (TDelF f false)) = a_e a1). { cbn [astep]. ra. congruence. }
  assert (Fr5 : a_r (astep a4 (TDelF f false)) = a_r a4) by reflexivity.
  exists t5, e, f0, f1, b0, b1, (tl (map (vat a1) b0)), (tl (map (vat a1) b1)).
  assert (HV0 : map (vat a1) b0 = v0 :: tl (map (vat a1) b0)). { clear - P0 Lb0. destruct b0 as [|[g d] s]; [discriminate|]. cbn [map tl path] in *. f_equal. destruct P0 as (x & Hx & _ & Hs & _). unfold vat. cbn [fst snd]. rewrite Hx. auto. }
  assert (HV1 : map (vat a1) b1 = v1 :: tl (map (vat a1) b1)). { clear - P1 Lb1. destruct b1 as [|[g d] s]; [discriminate|]. cbn [map tl path] in *. f_equal. destruct P1 as (x & Hx & _ & Hs & _). unfold vat. cbn [fst snd]. rewrite Hx. auto. }
  assert (VT : forall x, vat (astep a4 (TDelF f false)) x = vat a1 x) by (intros x; apply vat_same; rewrite Fe5; auto).
  split; [|split; [|split; [|split; [|split; [|split; [|split; [|split; [|split; [|split; [|split; [|split; [|split; [|split; [|split; [|split; [|split; [|split]]]]]]]]]]]]]]]]].
  - unfold MF_Split_with_Edge. rewrite CE. cbn [bind]. rewrite Z.eqb_refl. cbn [negb]. rewrite ME. cbn [bind]. rewrite MD. cbn [bind]. destruct (ME_New t) as [t00 e'] eqn:EN. cbn [fst snd] in E1, E2, En. subst e'. rewrite E1. cbn [bind]. rewrite E2. cbn [bind].
    assert (EZ : ZL (map fst b) = Z.of_nat (length b)) by (unfold ZL; rewrite map_length; auto). rewrite EZ. change 0 with (Z.of_nat 0) at 1. rewrite EF. cbn [bind]. rewrite G0. cbn [bind]. rewrite map_length, zd_len. replace (length b <=? length b0)%nat with false by lia.
    destruct (MF_New t1) as [t11 f0'] eqn:EN1. cbn [fst snd] in E3, En2. subst f0'. change 0 with (b2z false). rewrite zd_fst, zd_snd. replace (length (zd b0 ++ [(e, b2z false)])) with (length (b0 ++ [(e, false)])) by (rewrite !app_length, zd_len; auto). rewrite E3. cbn [bind].
    rewrite map_length in G1. rewrite G1. cbn [bind]. rewrite zd_len. replace (length b <=? length b1)%nat with false by lia.
    destruct (MF_New t2) as [t22 f1'] eqn:EN2. cbn [fst snd] in E4, En3. subst f1'. change 1 with (b2z true). rewrite zd_fst, zd_snd. replace (length (zd b1 ++ [(e, b2z true)])) with (length (b1 ++ [(e, true)])) by (rewrite !app_length, zd_len; auto). rewrite E4. cbn [bind].
    rewrite ERs. cbn [bind]. rewrite E5. cbn [bind]. rewrite E6. auto.
  - split. { destruct (tes t e) eqn:Ev; auto. pose proof (w_e _ W e). rewrite <- (i_e _ _ I), Ev in H. cbn in H. assert (1 <= e < a_next a) by (apply H; discriminate). unfold e in *. lia. }
    split. { destruct (tfs t f0) eqn:Ev; auto. pose proof (w_f _ W f0). rewrite <- (i_f _ _ I), Ev in H. cbn in H. assert (1 <= f0 < a_next a) by (apply H; discriminate). unfold f0 in *. lia. }
    split. { destruct (tfs t f1) eqn:Ev; auto. pose proof (w_f _ W f1). rewrite <- (i_f _ _ I), Ev in H. cbn in H. assert (1 <= f1 < a_next a) by (apply H; discriminate). unfold f1 in *. lia. }
    unfold f0, f1. lia.
  - apply (edge_is_iff _ _ _ _ _ I5). rewrite Fe5. auto.
  - split; auto. split; intros HH; rewrite HH in *; discriminate.
  - apply (face_is_iff _ _ _ _ I5). rewrite Ff5 by (unfold f0; lia). rewrite C5, B5. replace (f0 =? f1) with false by (unfold f0, f1; lia). rewrite Z.eqb_refl. auto.
  - apply (face_is_iff _ _ _ _ I5). rewrite Ff5 by (unfold f1; lia). rewrite C5. rewrite Z.eqb_refl. auto.
  - rewrite <- VAT, <- HV0, <- HV1, <- map_app. apply rotation_map. auto.
  - exists v0. apply (corners_iff _ _ _ _ _ _ I5). split. apply path_app. exists v1. split. eapply path_same; [|exact P0]. intros; rewrite Fe5; auto. cbn [path]. exists (v0, v1). rewrite Fe5. auto.
    rewrite map_app. cbn [map]. change (v0 :: tl (map (vat a1) b0) ++ [v1]) with ((v0 :: tl (map (vat a1) b0)) ++ [v1]). rewrite <- HV0. f_equal. apply map_ext. intros; symmetry; auto. f_equal. rewrite VT. unfold vat. cbn [fst snd]. rewrite HEe. auto.
  - exists v1. apply (corners_iff _ _ _ _ _ _ I5). split. apply path_app. exists v0. split. eapply path_same; [|exact P1]. intros; rewrite Fe5; auto. cbn [path]. exists (v0, v1). rewrite Fe5. auto.
    rewrite map_app. cbn [map]. change (v1 :: tl (map (vat a1) b1) ++ [v0]) with ((v1 :: tl (map (vat a1) b1)) ++ [v0]). rewrite <- HV1. f_equal. apply map_ext. intros; symmetry; auto. f_equal. rewrite VT. unfold vat. cbn [fst snd]. rewrite HEe. auto.
  - pose proof (i_f _ _ I5 f) as HH. cbn [astep with_f a_f] in HH. unfold kill in HH. rewrite upd_same in HH. destruct (tfs t5 f); auto. discriminate.
  - intros g c G1' G2' G3'. rewrite <- (face_is_iff _ _ _ _ I), <- (face_is_iff _ _ _ _ I5). rewrite Ff5 by auto. rewrite C5, B5. replace (g =? f1) with false by lia. replace (g =? f0) with false by lia. rewrite A2. tauto.
  - intros g x y Hg. rewrite <- (edge_is_iff _ _ _ _ _ I), <- (edge_is_iff _ _ _ _ _ I5). rewrite Fe5, A5. destruct (Z.eqb_spec g e); [congruence|tauto].
  - intros v. rewrite (i_v _ _ I), (i_v _ _ I5). cbn [astep]. ra. congruence.
  - intros r c1 d c2 Hc. apply (reg_is_iff _ _ _ _ I) in Hc. apply (reg_is_iff _ _ _ _ I5). rewrite Fr5. rewrite (HE4 _ _ Hc). rewrite exchange_mid by (apply (w_rnd _ W _ _ _ Hc)). cbn [nus firstn skipn app]. rewrite <- app_assoc. auto.
  - intros r c Hc Hn. apply (reg_is_iff _ _ _ _ I) in Hc. apply (reg_is_iff _ _ _ _ I5). rewrite Fr5. rewrite (HE4 _ _ Hc). rewrite exchange_out; auto.
  - intros r c Hc. apply (reg_is_iff _ _ _ _ I5) in Hc. rewrite Fr5 in Hc. destruct (HE4' _ _ Hc) as (c' & Hc' & _). exists c'. apply (reg_is_iff _ _ _ _ I). auto.
  - eapply inv_mutual; eauto.
  - eapply inv_sound; eauto.
  - eauto.
Qed.
Print Assumptions C29_split_face.
(** A closed loop is decided by running along it. *)
Lemma T1_loop : loop T1 [(7, true); (8, true); (9, false); (10, true); (11, false); (12, true)] [1; 2; 3; 4; 5; 6].
Proof. exists 1. apply (corners_iff _ _ _ _ _ _ (reach_inv _ _ T1_reach)). split. vm_compute. repeat (eexists; split; [reflexivity|split; [discriminate|split; [reflexivity|]]]). reflexivity. vm_compute. reflexivity. Qed.
Definition no_edge (t : topo) (v0 v1 : ptr) : bool :=
  forallb (fun e => match tes t e with Some x => negb (e_live x && ((e_v0 x =? v0) && (e_v1 x =? v1) || (e_v0 x =? v1) && (e_v1 x =? v0))) | None => true end) (zrange 1 (tnext t)).
Lemma no_edge_ok : forall t a v0 v1, reach t a -> no_edge t v0 v1 = true -> forall e, ~ edge_is t e v0 v1 /\ ~ edge_is t e v1 v0.
Proof.
  intros t a v0 v1 R H e. pose proof (reach_inv _ _ R) as I. unfold no_edge in H. rewrite forallb_forall in H. specialize (H e). rewrite zrange_In in H.
  assert (G : forall x, tes t e = Some x -> 1 <= e < tnext t). { intros x Hx. rewrite (i_n _ _ I). apply (w_e _ (i_w _ _ I)). rewrite <- (i_e _ _ I), Hx. discriminate. }
  split; intros (x & Hx & L & <- & <-); specialize (H (G x Hx)); rewrite Hx, L, !Z.eqb_refl in H; cbn in H; rewrite ?orb_true_r in H; discriminate.
Qed.
Example C29_split_face_ex : exists a, reach T1 a /\ face_is T1 14 [(7, true); (8, true); (9, false); (10, true); (11, false); (12, true)] /\
  loop T1 [(7, true); (8, true); (9, false); (10, true); (11, false); (12, true)] [1; 2; 3; 4; 5; 6] /\ (forall e, ~ edge_is T1 e 3 5 /\ ~ edge_is T1 e 5 3) /\ (forall e, ~ edge_is T1 e 5 3 /\ ~ edge_is T1 e 3 5) /\
  (forall r c, reg_is T1 r c -> In 14 (map fst c) -> (length c <= 511)%nat) /\
  okt (MF_Split_with_Edge T1 14 3 5) (fun x => snd x = 15 /\ MF_Edges (fst x) 16 1 NULL = Ok [9; 10; 15] /\ MF_Edges (fst x) 17 1 NULL = Ok [11; 12; 7; 8; 15] /\ tfs (fst x) 14 = None).
Proof.
  exists (arun amesh0 hexagon). split. exact T1_reach. split. apply (face_is_iff _ _ _ _ (reach_inv _ _ T1_reach)). vm_compute. reflexivity. split. exact T1_loop.
  split. eapply no_edge_ok. exact T1_reach. vm_compute. reflexivity. split. eapply no_edge_ok. exact T1_reach. vm_compute. reflexivity.
  split. { intros r c (x & Hx & _). exfalso. pose proof (w_r _ (i_w _ _ (reach_inv _ _ T1_reach)) r) as W. rewrite <- (i_r _ _ (reach_inv _ _ T1_reach)), Hx in W. cbn [option_map] in W. assert (1 <= r < a_next (arun amesh0 hexagon)) by (apply W; discriminate).
    change (a_next (arun amesh0 hexagon)) with 15 in H. assert (forallb (fun r => match trs T1 r with Some _ => false | None => true end) (zrange 1 15) = true) by (vm_compute; reflexivity). rewrite forallb_forall in H0. specialize (H0 r ltac:(apply zrange_In; auto)). rewrite Hx in H0. discriminate. }
  vm_compute. auto.
Qed.

(** When an edge joins the two vertices already, it is returned and the face is left
    as it is: the caller is told of a new edge although nothing was split. *)
Theorem C29_existing_edge_not_split_refuted : exists t f v0 v1 b vs, (exists a, reach t a) /\ face_is t f b /\ loop t b vs /\ NoDup vs /\ In v0 vs /\ In v1 vs /\ v0 <> v1 /\
  ~ (exists e, In e (map fst b) /\ (edge_is t e v0 v1 \/ edge_is t e v1 v0)) /\
  exists e, MF_Split_with_Edge t f v0 v1 = Ok (t, e) /\ face_is t f b.
Proof.
  exists T1, 14, 1, 4, [(7, true); (8, true); (9, false); (10, true); (11, false); (12, true)], [1; 2; 3; 4; 5; 6]. split. exists (arun amesh0 hexagon). exact T1_reach.
  assert (F : face_is T1 14 [(7, true); (8, true); (9, false); (10, true); (11, false); (12, true)]) by (apply (face_is_iff _ _ _ _ (reach_inv _ _ T1_reach)); vm_compute; reflexivity).
  split. exact F. split. exact T1_loop. split. repeat constructor; cbn; lia. split. cbn; auto. split. cbn; auto 10. split. discriminate. split.
  - intros (e & Hi & He). cbn [map fst In] in Hi. destruct He as [(x & Hx & _ & H0 & H1)|(x & Hx & _ & H0 & H1)]; decompose [or] Hi; subst; try contradiction; vm_compute in Hx; inversion Hx; subst x; cbn in H0, H1; lia.
  - exists 13. split. 2: exact F. vm_compute. reflexivity.
Qed.
