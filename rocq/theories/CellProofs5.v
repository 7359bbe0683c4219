(** Vertices and edges of hexahedra. *)
From Coq Require Import ZArith List Lia Bool Arith ZifyBool ZifyNat Permutation.
From Verif Require Import Base BaseProofs ListSpec HashProofs AttModel AttProps ParModel ParProps TopoModel TopoSpec TopoProofs TopoProofs2 TopoProofs3 TopoProofs4 TopoProofs5 TopoProofs6 TopoProofs7 TopoProps TopoProps2 TopoProps3 ModProofs CellModel CellSpec CellProofs CellProofs2 CellProofs3 CellProofs4.
Import ListNotations.
Open Scope Z_scope.

Lemma other_end : forall t a e u w, reach t a -> joins a e u w -> u <> w ->
  (u0 <- ME_Vertex t e 0 ;; if u0 =? u then ME_Vertex t e 1 else ME_Vertex t e 0) = Ok w.
Proof.
  intros t a e u w R (p & q & He & H) N. pose proof (reach_inv _ _ R) as I. pose proof (ev_start t a e _ true I He) as S0. pose proof (ev_end t a e _ true I He) as E0. change (lnot (b2z true)) with 0 in S0. change (b2z true) with 1 in E0. rewrite S0. cbn [bind]. unfold d_start, d_end in *. cbn in *. rewrite E0.
  destruct H as [(-> & ->)|(-> & ->)]. rewrite Z.eqb_refl. auto. rewrite (proj2 (Z.eqb_neq w u)) by auto. auto.
Qed.
Lemma first4_none : forall p x y z u, (forall e, In e [x; y; z; u] -> p e = Ok false) -> first_i p [x; y; z; u] (zrange 0 4) = Ok None.
Proof. intros p x y z u H. change (zrange 0 4) with [0; 1; 2; 3]. cbn [first_i]. lents. rewrite (H x) by (cbn; auto). cbn [bind]. lents. rewrite (H y) by (cbn; auto). cbn [bind]. lents. rewrite (H z) by (cbn; auto). cbn [bind]. lents. rewrite (H u) by (cbn; auto). auto. Qed.
Lemma first4_some : forall p x y z u e, (forall e, In e [x; y; z; u] -> exists c, p e = Ok c) -> In e [x; y; z; u] -> p e = Ok true -> exists i, first_i p [x; y; z; u] (zrange 0 4) = Ok (Some i).
Proof.
  intros p x y z u e H Hi He. change (zrange 0 4) with [0; 1; 2; 3]. destruct (H x) as (cx & Ex). cbn; auto. destruct (H y) as (cy & Ey). cbn; auto. destruct (H z) as (cz & Ez). cbn; auto. destruct (H u) as (cu & Eu). cbn; auto. cbn [first_i].
  lents. rewrite Ex. cbn [bind]. destruct cx; eauto. lents. rewrite Ey. cbn [bind]. destruct cy; eauto. lents. rewrite Ez. cbn [bind]. destruct cz; eauto. lents. rewrite Eu. cbn [bind]. destruct cu; eauto.
  exfalso. destruct Hi as [->|[->|[->|[->|[]]]]]; congruence.
Qed.

Lemma hex_std : In hexahedron std. Proof. cbn; auto. Qed.
Ltac cb := match goal with |- context [consb ?L ?i ?j] => let v := eval vm_compute in (consb L i j) in change (consb L i j) with v end.
Section Hex.
Context (t : topo) (a : amesh) (r : ptr) (b : list (ptr * bool)) (ws : list ptr) (Ls : list (list nat)) (f0 : ptr) (d0 : bool) (e0 e1 e2 e3 : ptr).
Hypothesis R : reach t a.
Hypothesis Hr : a_r a r = Some (true, Some b).
Hypothesis CV : cverts a hexahedron ws.
Hypothesis PL : Permutation Ls (s_loops hexahedron).
Hypothesis FA : faces_as a b ws Ls.
Hypothesis U : forall e e' u w, cell_edge a b e -> cell_edge a b e' -> joins a e u w -> joins a e' u w -> e = e'.
Hypothesis H0 : nth 0 Ls [] = [0; 3; 2; 1]%nat.
Hypothesis F0 : nth 0 b dflt = (f0, d0).
Hypothesis HE : forall e, In e [e0; e1; e2; e3] <-> has_edge a f0 e.
Hypothesis J0 : joins a e0 (W ws 0) (W ws 1).
Hypothesis J1 : joins a e1 (W ws 1) (W ws 2).
Hypothesis J2 : joins a e2 (W ws 2) (W ws 3).
Hypothesis J3 : joins a e3 (W ws 3) (W ws 0).
Let SH : shapeb hexahedron = true := shapes_ok hexahedron hex_std.
Let L6 : length Ls = 6%nat := Permutation_length PL.
Lemma LB : length b = 6%nat. Proof using All. rewrite (F2_length _ _ _ _ _ FA). auto. Qed.
Lemma In0 : In (f0, d0) b. Proof using All. rewrite <- F0. apply nth_In. rewrite LB. lia. Qed.
Lemma loops : forall i, (1 <= i < 6)%nat -> In (nth i Ls []) [[4; 5; 6; 7]; [0; 1; 5; 4]; [1; 2; 6; 5]; [2; 3; 7; 6]; [3; 0; 4; 7]]%nat.
Proof using All.
  intros i Hi. assert (I1 : In (nth i Ls []) (s_loops hexahedron)) by (eapply Permutation_in; [exact PL|]; apply nth_In; lia). cbn [s_loops hexahedron] in I1. destruct I1 as [I1|I1]; auto. exfalso. apply (nth_other _ Ls 0 i [] (Ls_nodup _ _ SH PL)); try lia. congruence.
Qed.
Lemma loop_unique : forall i j, (i < 6)%nat -> (j < 6)%nat -> nth i Ls [] = nth j Ls [] -> i = j.
Proof using All. intros i j Hi Hj E. destruct (Nat.eq_dec i j); auto. exfalso. apply (nth_other _ Ls i j [] (Ls_nodup _ _ SH PL)); auto; lia. Qed.
(** Whether a face uses an edge of the bottom. *)
Lemma uses : forall f d L e i j, In (f, d) b -> In L Ls -> outward a (f, d) (map (W ws) L) -> cell_edge a b e -> joins a e (W ws i) (W ws j) -> (i < 8)%nat -> (j < 8)%nat -> MF_UsesEdge t f e = Ok (consb L i j).
Proof using All.
  intros f d L e i j Hf HL HO HC HJ Hi Hj. destruct (face_uses_edge t a f d _ e R HO) as (c & -> & K). f_equal. destruct (consb L i j) eqn:E.
  - apply K. destruct (face_pair_edge a ws f d L i j HO E) as (e' & He' & J'). replace e with e'; auto. apply (U e' e (W ws i) (W ws j)); auto. exists f, d. auto.
  - destruct c; auto. exfalso. rewrite (face_edge_pair a hexahedron ws Ls SH CV PL f d L e i j HO HL) in E; auto. discriminate. apply K; auto.
Qed.
Lemma bottom_cell : forall e, In e [e0; e1; e2; e3] -> cell_edge a b e.
Proof using All. intros e He. exists f0, d0. split. apply In0. apply HE; auto. Qed.
Definition side (L : list nat) : option Z := if leqb L [0; 1; 5; 4]%nat then Some 0 else if leqb L [1; 2; 6; 5]%nat then Some 1 else if leqb L [2; 3; 7; 6]%nat then Some 2 else if leqb L [3; 0; 4; 7]%nat then Some 3 else None.
Lemma at_bottom : forall i f d, (1 <= i < 6)%nat -> nth i b dflt = (f, d) -> first_i (MF_UsesEdge t f) [e0; e1; e2; e3] (zrange 0 4) = Ok (side (nth i Ls [])).
Proof using All.
  intros i f d Hi Ef. pose proof (fa_nth a b ws Ls FA i ltac:(lia)) as HO. rewrite Ef in HO. assert (Hf : In (f, d) b) by (rewrite <- Ef; apply nth_In; rewrite LB; lia). assert (HL : In (nth i Ls []) Ls) by (apply nth_In; lia).
  pose proof (uses f d _ e0 0%nat 1%nat Hf HL HO (bottom_cell e0 ltac:(cbn; auto)) J0 ltac:(lia) ltac:(lia)) as U0. pose proof (uses f d _ e1 1%nat 2%nat Hf HL HO (bottom_cell e1 ltac:(cbn; auto)) J1 ltac:(lia) ltac:(lia)) as U1.
  pose proof (uses f d _ e2 2%nat 3%nat Hf HL HO (bottom_cell e2 ltac:(cbn; auto)) J2 ltac:(lia) ltac:(lia)) as U2. pose proof (uses f d _ e3 3%nat 0%nat Hf HL HO (bottom_cell e3 ltac:(cbn; auto)) J3 ltac:(lia) ltac:(lia)) as U3.
  pose proof (loops i Hi) as HK. set (K := nth i Ls []) in *. clearbody K. change (zrange 0 4) with [0; 1; 2; 3]. cbn [first_i]. lents. rewrite U0. cbn [bind].
  destruct HK as [<-|[<-|[<-|[<-|[<-|[]]]]]].
  - cb. cbn [bind]. lents. rewrite U1. cb. cbn [bind]. lents. rewrite U2. cb. cbn [bind]. lents. rewrite U3. cb. cbn [bind]. reflexivity.
  - reflexivity.
  - cb. cbn [bind]. lents. rewrite U1. reflexivity.
  - cb. cbn [bind]. lents. rewrite U1. cb. cbn [bind]. lents. rewrite U2. reflexivity.
  - cb. cbn [bind]. lents. rewrite U1. cb. cbn [bind]. lents. rewrite U2. cb. cbn [bind]. lents. rewrite U3. reflexivity.
Qed.

(** ** The search for the opposite face and the face at edge 0 *)
Context (iT iA : nat).
Hypothesis HT : (1 <= iT < 6)%nat /\ nth iT Ls [] = [4; 5; 6; 7]%nat.
Hypothesis HA : (1 <= iA < 6)%nat /\ nth iA Ls [] = [0; 1; 5; 4]%nat.
Let item (i : nat) : ptr * Z := (fst (nth i b dflt), b2z (snd (nth i b dflt))).
Lemma item_nn : forall i, (i < 6)%nat -> (fst (item i) =? NULL) = false.
Proof using All. intros i Hi. apply Z.eqb_neq. cbn. pose proof (fa_nth a b ws Ls FA i ltac:(lia)) as HO. destruct (nth i b dflt) as [f d]. cbn. eapply face_nn; eauto. Qed.
Lemma hex_search : exists s, foldM (hex_step t r (map fst b) [e0; e1; e2; e3] e0) ((NULL, 0), (NULL, 0), false) (zrange 1 (ZL (map fst b))) = Ok s /\ s = (item iT, item iA, true).
Proof using All.
  replace (ZL (map fst b)) with 6 by (unfold ZL; rewrite map_length, LB; auto).
  destruct (foldM_up _ (fun z (s : (ptr * Z) * (ptr * Z) * bool) => if snd s then s = (item iT, item iA, true)
     else fst s = (if Z.of_nat iT <? z then item iT else (NULL, 0), if Z.of_nat iA <? z then item iA else (NULL, 0)) /\ ~ (Z.of_nat iT < z /\ Z.of_nat iA < z))
     (hex_step t r (map fst b) [e0; e1; e2; e3] e0) 1 6 ((NULL, 0), (NULL, 0), false)) as (s & E & K).
  - lia.
  - cbn [snd fst]. replace (Z.of_nat iT <? 1) with false by lia. replace (Z.of_nat iA <? 1) with false by lia. split; auto; lia.
  - intros z [[opp adj] stop] Hz K. cbn [fst snd] in K. destruct stop. { unfold hex_step. eexists; split; [reflexivity|]. cbn [snd]. auto. } destruct K as (K & NB). inversion K as [[Ko Ka]]. clear K. rename opp into opp', adj into adj'. unfold hex_step.
    set (i := Z.to_nat z). assert (Ei : z = Z.of_nat i) by lia. rewrite Ei. rewrite lent_fst by (rewrite LB; lia). cbn [bind]. destruct (nth i b dflt) as [f d] eqn:Ef. cbn [fst]. rewrite (at_bottom i f d) by (auto; lia). cbn [bind].
    assert (DI : MR_FaceDir_i t r (Z.of_nat i) = Ok (b2z d)). { destruct (region_rep t a r b R Hr) as (x & _ & _ & HD). rewrite HD by (rewrite LB; lia). rewrite Ef. auto. }
    assert (II : item i = (f, b2z d)) by (unfold item; rewrite Ef; auto).
    assert (Nf : (f =? NULL) = false) by (pose proof (item_nn i ltac:(lia)) as X; rewrite II in X; auto).
    pose proof (loops i ltac:(lia)) as HK.
    assert (ET : nth i Ls [] = [4; 5; 6; 7]%nat <-> i = iT) by (split; [intros X; apply loop_unique; try lia; rewrite X; symmetry; apply HT|intros ->; apply HT]).
    assert (EA : nth i Ls [] = [0; 1; 5; 4]%nat <-> i = iA) by (split; [intros X; apply loop_unique; try lia; rewrite X; symmetry; apply HA|intros ->; apply HA]).
    assert (N0 : forall e i j, In e [e1; e2; e3] -> joins a e (W ws i) (W ws j) -> (i < 8)%nat -> (j < 8)%nat -> ~ (i = 0 /\ j = 1)%nat -> ~ (i = 1 /\ j = 0)%nat -> (e =? e0) = false).
    { intros e i' j' He (p & q & Hp & X) Hi' Hj' N1 N2. apply Z.eqb_neq. intros ->. destruct J0 as (p' & q' & Hp' & X'). rewrite Hp in Hp'. inversion Hp'; subst p' q'.
      destruct X as [(X1 & X2)|(X1 & X2)], X' as [(Y1 & Y2)|(Y1 & Y2)]; rewrite X1 in Y1; rewrite X2 in Y2; apply (W_inj a hexahedron ws CV) in Y1; cbn; auto; apply (W_inj a hexahedron ws CV) in Y2; cbn; auto; lia. }
    pose proof (item_nn iT ltac:(lia)) as NT. pose proof (item_nn iA ltac:(lia)) as NA.
    destruct HK as [HK|[HK|HK]].
    + pose proof (proj1 ET (eq_sym HK)) as X. rewrite <- HK. change (side [4; 5; 6; 7]%nat) with (@None Z). cbn [bind]. rewrite DI. cbn [bind]. eexists. split; [reflexivity|]. cbn [fst snd]. rewrite <- II, X, Nf. cbn [negb andb].
      rewrite ?Ka. replace (Z.of_nat iT <? Z.of_nat iT + 1) with true by lia. try replace (Z.of_nat iA <? z) with (Z.of_nat iA <? Z.of_nat iT) by (rewrite Ei, X; auto).
      assert (iA <> iT). { intros Y. rewrite <- Y in X. destruct HA as (_ & HA'). rewrite <- X, <- HK in HA'. discriminate. }
      destruct (Z.of_nat iA <? Z.of_nat iT) eqn:EE; [rewrite NA; cbn [negb andb]; auto|]. cbn [negb fst]. rewrite Z.eqb_refl. cbn [negb]. replace (Z.of_nat iA <? Z.of_nat iT + 1) with false by lia. split; auto. lia.
    + pose proof (proj1 EA (eq_sym HK)) as X. rewrite <- HK. change (side [0; 1; 5; 4]%nat) with (Some 0). cbn [bind]. change (lent [e0; e1; e2; e3] 0) with (Ok e0). cbn [bind]. rewrite Z.eqb_refl, DI. cbn [bind]. eexists. split; [reflexivity|]. cbn [fst snd]. rewrite <- II, X, Nf. cbn [negb andb].
      rewrite ?Ko. replace (Z.of_nat iA <? Z.of_nat iA + 1) with true by lia. try replace (Z.of_nat iT <? z) with (Z.of_nat iT <? Z.of_nat iA) by (rewrite Ei, X; auto).
      assert (iA <> iT). { intros Y. rewrite Y in X. destruct HT as (_ & HT'). rewrite <- X, <- HK in HT'. discriminate. }
      destruct (Z.of_nat iT <? Z.of_nat iA) eqn:EE; [rewrite NT; cbn [negb andb]; auto|]. cbn [negb fst]. rewrite Z.eqb_refl. cbn [negb andb]. replace (Z.of_nat iT <? Z.of_nat iA + 1) with false by lia. split; auto. lia.
    + assert (NTi : i <> iT) by (intros X; apply ET in X; rewrite X in HK; cbn in HK; intuition discriminate). assert (NAi : i <> iA) by (intros X; apply EA in X; rewrite X in HK; cbn in HK; intuition discriminate).
      assert (SD : exists j e, side (nth i Ls []) = Some j /\ lent [e0; e1; e2; e3] j = Ok e /\ (e =? e0) = false).
      { destruct HK as [<-|[<-|[<-|[]]]]. exists 1, e1. split; [reflexivity|]. split; [reflexivity|]. apply (N0 e1 1%nat 2%nat); cbn; auto; lia. exists 2, e2. split; [reflexivity|]. split; [reflexivity|]. apply (N0 e2 2%nat 3%nat); cbn; auto; lia. exists 3, e3. split; [reflexivity|]. split; [reflexivity|]. apply (N0 e3 3%nat 0%nat); cbn; auto; lia. }
      destruct SD as (j & e & -> & S1 & S2). cbn [bind]. rewrite S1. cbn [bind]. rewrite S2. cbn [bind]. eexists. split; [reflexivity|]. rewrite ?Ko, ?Ka. cbn [snd fst].
      replace (Z.of_nat iT <? Z.of_nat i + 1) with (Z.of_nat iT <? Z.of_nat i) by lia. replace (Z.of_nat iA <? Z.of_nat i + 1) with (Z.of_nat iA <? Z.of_nat i) by lia.
      rewrite ?Ei. destruct (Z.of_nat iT <? Z.of_nat i) eqn:X1, (Z.of_nat iA <? Z.of_nat i) eqn:X2; rewrite ?NT, ?NA; cbn [negb fst]; rewrite ?Z.eqb_refl; cbn [negb andb]; try (split; auto; lia).
  - exists s. split; auto. destruct s as [[opp adj] stop]. cbn [fst snd] in K. destruct stop; auto. exfalso. lia.
Qed.

(** ** The search for the top *)
Lemma top_step : forall i f d fe es, (1 <= i < 6)%nat -> nth i b dflt = (f, d) -> MF_Edges t f 1 NULL = Ok fe -> (u <- first_i (MF_UsesEdge t f0) fe (zrange 0 4) ;; Ok u) = Ok es -> (es = None <-> i = iT).
Proof using All.
  intros i f d fe es Hi Ef Efe Es. pose proof (fa_nth a b ws Ls FA i ltac:(lia)) as HO. rewrite Ef in HO. assert (Hf : In (f, d) b) by (rewrite <- Ef; apply nth_In; rewrite LB; lia). assert (HL : In (nth i Ls []) Ls) by (apply nth_In; lia). pose proof (loops i Hi) as HK.
  assert (L4 : length (nth i Ls []) = 4%nat) by (repeat (destruct HK as [<-|HK]; [reflexivity|]); destruct HK).
  destruct (face_query t a f d _ true R HO) as (vs' & es' & _ & E2 & E3 & E4 & E5 & _). { intros X. apply map_eq_nil in X. rewrite X in L4. discriminate. } change 1 with (b2z true) in Efe. rewrite Efe in E2. inversion E2; subst es'. clear E2.
  assert (LF : length fe = 4%nat). { destruct E4 as (-> & _). rewrite <- (rotation_length _ _ _ E3). destruct (Bool.eqb d true); cbn [orient]; rewrite ?rev_length, map_length; auto. }
  assert (ET : nth i Ls [] = [4; 5; 6; 7]%nat <-> i = iT) by (split; [intros X; apply loop_unique; try lia; rewrite X; symmetry; apply HT|intros ->; apply HT]).
  pose proof (fa_nth a b ws Ls FA 0 ltac:(lia)) as HO0. rewrite F0, H0 in HO0.
  destruct fe as [|x [|y [|z [|u [|? ?]]]]]; try discriminate.
  assert (UE : forall e, exists c, MF_UsesEdge t f0 e = Ok c /\ (c = true <-> has_edge a f0 e)) by (intros e; apply (face_uses_edge t a f0 d0 _ e R HO0)).
  destruct HK as [HK|HK].
  - assert (Xi : i = iT) by (apply ET; auto). assert (Y : first_i (MF_UsesEdge t f0) [x; y; z; u] (zrange 0 4) = Ok None).
    { apply first4_none. intros e He. destruct (UE e) as (c & Ec & Kc). rewrite Ec. f_equal. destruct c; auto. exfalso. assert (He0 : has_edge a f0 e) by (apply Kc; auto). apply E5 in He.
      destruct (cell_edge_ends a hexahedron b ws Ls SH PL FA e) as (p & q & Hp & Hq & _ & Jq). exists f, d; auto.
      pose proof (face_edge_pair a hexahedron ws Ls SH CV PL f d _ e p q HO HL He Jq Hp Hq) as C1. assert (HL0 : In [0; 3; 2; 1]%nat Ls) by (rewrite <- H0; apply nth_In; lia). pose proof (face_edge_pair a hexahedron ws Ls SH CV PL f0 d0 _ e p q HO0 HL0 He0 Jq Hp Hq) as C2. rewrite <- HK in C1.
      clear -Hp Hq C1 C2. cbn in Hp, Hq. do 8 (destruct p as [|p]; [do 8 (destruct q as [|q]; [vm_compute in C1, C2; discriminate|]); lia|]). lia. }
    rewrite Y in Es. cbn [bind] in Es. inversion Es. tauto.
  - assert (Ni : i <> iT) by (intros X; apply ET in X; rewrite X in HK; cbn in HK; intuition discriminate).
    assert (Y : exists j, first_i (MF_UsesEdge t f0) [x; y; z; u] (zrange 0 4) = Ok (Some j)).
    { assert (Z : exists p q, consb (nth i Ls []) p q = true /\ consb [0; 3; 2; 1]%nat p q = true /\ (p < 8)%nat /\ (q < 8)%nat). { destruct HK as [<-|[<-|[<-|[<-|[]]]]]. exists 0%nat, 1%nat; repeat split; auto; lia. exists 1%nat, 2%nat; repeat split; auto; lia. exists 2%nat, 3%nat; repeat split; auto; lia. exists 3%nat, 0%nat; repeat split; auto; lia. }
      destruct Z as (p & q & C1 & C2 & Hp & Hq). destruct (face_pair_edge a ws f d _ p q HO C1) as (e & He & Je). destruct (face_pair_edge a ws f0 d0 _ p q HO0 C2) as (e' & He' & Je'). assert (e = e'). { apply (U e e' (W ws p) (W ws q)); auto. exists f, d; auto. exists f0, d0; split; [apply In0|auto]. } subst e'.
      apply (first4_some _ x y z u e). intros e' _. destruct (UE e') as (c & Ec & _). eauto. apply E5; auto. destruct (UE e) as (c & Ec & Kc). rewrite Ec. f_equal. apply Kc; auto. }
    destruct Y as (j & Y). rewrite Y in Es. cbn [bind] in Es. inversion Es. split; [discriminate|tauto].
Qed.
Lemma top_runs : forall i f d, (1 <= i < 6)%nat -> nth i b dflt = (f, d) -> exists fe o, MF_Edges t f 1 NULL = Ok fe /\ first_i (MF_UsesEdge t f0) fe (zrange 0 4) = Ok o.
Proof using All.
  intros i f d Hi Ef. pose proof (fa_nth a b ws Ls FA i ltac:(lia)) as HO. rewrite Ef in HO. pose proof (loops i Hi) as HK.
  assert (L4 : length (nth i Ls []) = 4%nat) by (repeat (destruct HK as [<-|HK]; [reflexivity|]); destruct HK).
  destruct (face_query t a f d _ true R HO) as (vs' & es' & _ & E2 & E3 & E4 & E5 & _). { intros X. apply map_eq_nil in X. rewrite X in L4. discriminate. } change 1 with (b2z true). exists es'.
  pose proof (fa_nth a b ws Ls FA 0 ltac:(lia)) as HO0. rewrite F0, H0 in HO0.
  assert (K : forall is, (forall i, In i is -> 0 <= i) -> exists o, first_i (MF_UsesEdge t f0) es' is = Ok o).
  { induction is as [|k is IH]; intros Hk; cbn [first_i]. eauto. unfold lent. replace (k <? 0) with false by (specialize (Hk k (or_introl eq_refl)); lia). cbn [bind]. destruct (face_uses_edge t a f0 d0 _ (nth (Z.to_nat k) es' NULL) R HO0) as (c & -> & _). cbn [bind]. destruct c; eauto. apply IH. intros; apply Hk; right; auto. }
  destruct (K (zrange 0 4)) as (o & Eo). { change (zrange 0 4) with [0; 1; 2; 3]. cbn. lia. } eauto.
Qed.
Lemma find_top_ok : find_top t f0 (map fst b) (zrange 1 6) = Ok (Some (Z.of_nat iT)).
Proof using All.
  assert (K : forall is, (forall i, In i is -> (1 <= i < 6)%nat) -> In iT is -> find_top t f0 (map fst b) (map Z.of_nat is) = Ok (Some (Z.of_nat iT))).
  { induction is as [|i is IH]; intros H Hi. destruct Hi. cbn [map find_top]. pose proof (H i (or_introl eq_refl)) as Bi. rewrite lent_fst by (rewrite LB; lia). cbn [bind]. destruct (nth i b dflt) as [f d] eqn:Ef. cbn [fst].
    destruct (top_runs i f d Bi Ef) as (fe & o & Efe & Eo). rewrite Efe. cbn [bind]. rewrite Eo. cbn [bind]. pose proof (top_step i f d fe o Bi Ef Efe) as TS. rewrite Eo in TS. cbn [bind] in TS. specialize (TS eq_refl). destruct o as [k|].
    apply IH. intros j Hj. apply H. right; auto. destruct Hi as [->|Hi]; auto. exfalso. assert (X : Some k = None) by (apply TS; auto). discriminate. rewrite (proj1 TS eq_refl). auto. }
  change (zrange 1 6) with (map Z.of_nat [1; 2; 3; 4; 5]%nat). apply K. cbn; lia. destruct HT as (X & _). cbn. lia.
Qed.
End Hex.

Lemma loop_index : forall Ls s L, Permutation Ls (s_loops s) -> In L (s_loops s) -> exists i, (i < length Ls)%nat /\ nth i Ls [] = L.
Proof. intros Ls s L P H. apply (Permutation_in _ (Permutation_sym P)) in H. apply (In_nth _ _ []) in H. destruct H as (i & Hi & E). eauto. Qed.

Lemma hex_ok : forall t a r b ws, reach t a -> a_r a r = Some (true, Some b) -> cell a hexahedron b ws ->
  exists vs, hex_vertices t r (map fst b) = Ok (Some vs) /\ cell a hexahedron b vs /\ (chordless a b ws -> exists es, hex_edges t r (map fst b) = Ok es /\ edges_of a hexahedron vs es).
Proof.
  intros t a r b ws R Hr C. destruct (region_rep t a r b R Hr) as (x & Hx & Hl & HD). pose proof C as (L0 & N0 & V0 & U & Ls & PL & FA). pose proof (F2_length _ _ _ _ _ FA) as EL. pose proof (Permutation_length PL) as EP. cbn in EP.
  pose proof hex_std as HS. pose proof (shapes_ok _ HS) as SH.
  assert (TL : forall L, In L (s_loops hexahedron) -> length L = 4%nat) by (intros L HL; repeat (destruct HL as [<-|HL]; [reflexivity|]); destruct HL).
  destruct (nth 0 b dflt) as [f0 d0] eqn:E0.
  destruct (base t a hexahedron b ws Ls 0 f0 d0 R HS) as (ws' & Ls' & es & CV & PL' & FA' & LL & _ & H0 & Q1 & Q2 & Q3 & Q4 & Q5); auto. split; auto. lia. rewrite TL; auto. eapply Permutation_in; [exact PL|]. apply nth_In. lia.
  cbn [hd s_loops hexahedron] in H0. change (bot hexahedron) with [0; 1; 2; 3]%nat in *. cbn [map] in *.
  assert (NW : forall i, (i < 8)%nat -> W ws' i <> NULL) by (intros i Hi; apply (W_nn t a hexahedron ws' R CV); auto).
  assert (NV : forall i j, (i < 8)%nat -> (j < 8)%nat -> i <> j -> W ws' i <> W ws' j) by (intros i' j' Hi' Hj' N X; apply N; apply (W_inj a hexahedron ws' CV) in X; auto).
  assert (O0 : outward a (f0, d0) (map (W ws') [0; 3; 2; 1]%nat)). { pose proof (F2_nth _ _ _ _ _ dflt [] 0%nat FA' ltac:(lia)) as X. cbv beta in X. rewrite E0, H0 in X. exact X. }
  assert (ND : forall L, In L (s_loops hexahedron) -> NoDup (map (W ws') L)). { intros L HL. destruct (shape_loop _ L SH HL) as (_ & K1 & K2). apply (map_W_nodup a hexahedron ws' CV); auto. }
  destruct (face_query_at t a f0 d0 _ (negb d0) (W ws' 0) R O0) as (vs0 & es0 & _ & G2 & G3 & G4 & G5 & G6). apply ND; cbn; auto. cbn; auto. apply NW; lia.
  replace (Bool.eqb d0 (negb d0)) with false in G3 by (destruct d0; auto). cbn [orient map rev app] in G3.
  assert (vs0 = map (W ws') [0; 1; 2; 3]%nat).
  { change [W ws' 1%nat; W ws' 2%nat; W ws' 3%nat; W ws' 0%nat] with (map (W ws') [1; 2; 3; 0]%nat) in G3. destruct (rot4 _ _ _ _ _ _ eq_refl _ G3) as [->|[->|[->| ->]]]; cbn in G4; auto; exfalso; revert G4; apply NV; lia. } subst vs0. cbn [map] in G5.
  apply eloop4 in G5. destruct G5 as (e0 & e1 & e2 & e3 & -> & J0 & J1 & J2 & J3).
  destruct (loop_index Ls' hexahedron [4; 5; 6; 7]%nat PL') as (iT & HT & ET). cbn; auto. destruct (loop_index Ls' hexahedron [0; 1; 5; 4]%nat PL') as (iA & HA & EA). cbn; auto.
  assert (HT' : (1 <= iT < 6)%nat). { split; [|lia]. destruct iT; [|lia]. congruence. } assert (HA' : (1 <= iA < 6)%nat). { split; [|lia]. destruct iA; [|lia]. congruence. }
  destruct (hex_search t a r b ws' Ls' f0 d0 e0 e1 e2 e3 R Hr CV PL' FA' U H0 E0 G6 J0 J1 J2 J3 iT iA (conj HT' ET) (conj HA' EA)) as (st & ES & ->).
  assert (D0 : MR_FaceDir_i t r 0 = Ok (b2z d0)) by (change 0 with (Z.of_nat 0); rewrite HD by lia; rewrite E0; auto).
  assert (B0 : lent (map fst b) 0 = Ok f0) by (change 0 with (Z.of_nat 0); rewrite lent_fst by lia; rewrite E0; auto).
  destruct (nth iT b dflt) as [fT dT] eqn:EfT. destruct (nth iA b dflt) as [fA dA] eqn:EfA. cbn [fst snd] in ES.
  assert (OT : outward a (fT, dT) (map (W ws') [4; 5; 6; 7]%nat)). { pose proof (F2_nth _ _ _ _ _ dflt [] iT FA' ltac:(lia)) as X. cbv beta in X. rewrite EfT, ET in X. exact X. }
  assert (OA : outward a (fA, dA) (map (W ws') [0; 1; 5; 4]%nat)). { pose proof (F2_nth _ _ _ _ _ dflt [] iA FA' ltac:(lia)) as X. cbv beta in X. rewrite EfA, EA in X. exact X. }
  assert (UP : exists fe up, MF_Edges t fA 1 (W ws' 0) = Ok fe /\ lent fe (if b2z dA =? 0 then 0 else 3) = Ok up /\ joins a up (W ws' 0) (W ws' 4)).
  { destruct (face_query_at t a fA dA _ true (W ws' 0) R OA) as (vA & fe & _ & A2 & A3 & A4 & A5 & _). apply ND; cbn; auto. cbn; auto. apply NW; lia. change 1 with (b2z true). exists fe. destruct dA; cbn [Bool.eqb orient b2z Z.eqb] in *.
    - apply rotation_unique in A3; [|apply ND; cbn; auto|rewrite A4; auto]. subst vA. apply eloop4 in A5. destruct A5 as (g0 & g1 & g2 & g3 & -> & _ & _ & _ & Jg). exists g3. split; auto. split; auto. apply joins_sym; auto.
    - rewrite <- map_rev in A3. cbn [rev app] in A3. assert (vA = map (W ws') [0; 4; 5; 1]%nat). { destruct (rot4 _ _ _ _ _ _ eq_refl _ A3) as [->|[->|[->| ->]]]; cbn in A4; auto; exfalso; revert A4; apply NV; lia. } subst vA. apply eloop4 in A5. destruct A5 as (g0 & g1 & g2 & g3 & -> & Jg & _). exists g0. auto. }
  destruct UP as (fe & up & A1 & A2 & A3).
  destruct (face_query_at t a fT dT _ dT (W ws' 4) R OT) as (vT & eT & T1 & _ & T3 & T4 & _). apply ND; cbn; auto. cbn; auto. apply NW; lia. replace (Bool.eqb dT dT) with true in T3 by (destruct dT; auto). cbn [orient] in T3. apply rotation_unique in T3; [|apply ND; cbn; auto|rewrite T4; auto]. subst vT.
  exists ws'. split; [|split; [eapply cell_intro; eauto|]]. unfold hex_vertices. rewrite B0, D0. cbn [bind]. rewrite dir_not, Q1. cbn [bind]. change (lent [W ws' 0%nat; W ws' 1%nat; W ws' 2%nat; W ws' 3%nat] 0) with (Ok (W ws' 0)). cbn [bind]. rewrite G2. cbn [bind]. change (lent [e0; e1; e2; e3] 0) with (Ok e0). cbn [bind]. rewrite ES. cbn [bind fst snd].
  replace (fT =? NULL) with false. 2: { symmetry. apply Z.eqb_neq. eapply face_nn; eauto. } rewrite A1. cbn [bind]. rewrite A2. cbn [bind].
  assert (OE := other_end t a up _ _ R A3 (NV 0%nat 4%nat ltac:(lia) ltac:(lia) ltac:(lia))). destruct (ME_Vertex t up 0) as [u0| | |]; try discriminate OE. cbn [bind] in OE |- *. rewrite OE. cbn [bind]. rewrite T1. cbn [bind map]. change (zrange 0 4) with [0; 1; 2; 3]. cbn [mapM]. lents. f_equal. f_equal. apply (W_all a hexahedron ws' CV 8 eq_refl).
intros CH0. assert (CH : chordless a b ws') by (apply (chordless_to a hexahedron b ws Ls ws' Ls' HS); auto; split; auto).
  assert (FT := find_top_ok t a r b ws' Ls' f0 d0 e0 e1 e2 e3 R Hr CV PL' FA' U H0 E0 G6 J0 J1 J2 J3 iT iA (conj HT' ET) (conj HA' EA)). clear e0 e1 e2 e3 G2 G6 J0 J1 J2 J3 ES.
  apply eloop4 in Q3. destruct Q3 as (e0 & e1 & e2 & e3 & -> & J0 & J1 & J2 & J3).
  destruct (face_query t a fT dT _ dT R OT) as (fv & es1 & F1 & _ & F3 & _). discriminate. replace (Bool.eqb dT dT) with true in F3 by (destruct dT; auto). cbn [orient] in F3. apply (rot4 _ _ _ _ _ _ eq_refl) in F3.
  destruct (face_query_at t a fT dT _ dT (W ws' 4) R OT) as (vT & eT' & _ & T2 & T3' & T4' & T5 & _). apply ND; cbn; auto. cbn; auto. apply NW; lia. replace (Bool.eqb dT dT) with true in T3' by (destruct dT; auto). cbn [orient] in T3'. apply rotation_unique in T3'; [|apply ND; cbn; auto|rewrite T4'; auto]. subst vT. cbn [map] in T5.
  apply eloop4 in T5. destruct T5 as (g0 & g1 & g2 & g3 & -> & M0 & M1 & M2 & M3).
  assert (JA : forall q, (q < 8)%nat -> q <> 0%nat -> joined t (W ws' 0) (W ws' q) = Ok (adjb hexahedron 0 q)) by (intros q Hq Hn; apply (joined_ok t a hexahedron b ws' Ls' 0 q R HS CV PL' FA' CH); cbn; lia).
  destruct (top4 t (W ws' 0) _ _ _ _ fv (JA 4%nat ltac:(lia) ltac:(lia)) (JA 5%nat ltac:(lia) ltac:(lia)) (JA 6%nat ltac:(lia) ltac:(lia)) (JA 7%nat ltac:(lia) ltac:(lia)) F3) as (p & P0 & P1 & P2 & P3 & P4).
  assert (CA : forall i, (i < 4)%nat -> exists e, MVs_CommonEdge t (W ws' i) (W ws' (4 + i)) = Ok e /\ e <> NULL /\ joins a e (W ws' i) (W ws' (4 + i))). { intros q Hq. apply (common_adj t a hexahedron b ws' Ls' R CV PL' FA'); cbn; try lia. destruct q as [|[|[|[|]]]]; try lia; reflexivity. }
  destruct (CA 0%nat) as (l0 & C0 & N0' & J4); [lia|]. destruct (CA 1%nat) as (l1 & C1 & N1' & J5); [lia|]. destruct (CA 2%nat) as (l2 & C2 & N2' & J6); [lia|]. destruct (CA 3%nat) as (l3 & C3 & N3' & J7); [lia|]. cbn [plus] in *.
  assert (DT : MR_FaceDir_i t r (Z.of_nat iT) = Ok (b2z dT)) by (rewrite HD by lia; rewrite EfT; auto).
  exists [e0; e1; e2; e3; g0; g1; g2; g3; l0; l1; l2; l3]. split. 2: { unfold edges_of. cbn [s_edges hexahedron]. repeat constructor; cbn [fst snd]; auto. }
  unfold hex_edges. rewrite B0, D0. cbn [bind]. rewrite dir_not, Q2. cbn [bind]. rewrite FT. cbn [bind]. rewrite lent_fst by lia. rewrite EfT. cbn [bind fst]. rewrite DT. cbn [bind].
  unfold two_layers. change (lent [e0; e1; e2; e3] 0) with (Ok e0). cbn [bind]. rewrite (Q5 0%nat ltac:(cbn; lia) : bot_vertex t f0 (b2z d0) e0 = _). cbn [bind]. rewrite F1. cbn [bind]. fold (joined t (W ws' 0)). rewrite P0. cbn [bind]. rewrite P1. cbn [bind]. rewrite C0. cbn [bind]. rewrite T2. cbn [bind app].
  change (zrange 1 4) with [1; 2; 3]. cbn [foldM]. unfold lat_step. cbn [negb]. change (lent [e0; e1; e2; e3; g0; g1; g2; g3; l0] 1) with (Ok e1). cbn [bind]. rewrite (Q5 1%nat ltac:(cbn; lia) : bot_vertex t f0 (b2z d0) e1 = _). cbn [bind]. rewrite P2. cbn [bind]. rewrite C1. cbn [bind]. replace (l1 =? NULL) with false by (symmetry; apply Z.eqb_neq; auto). cbn [bind app negb].
  change (lent [e0; e1; e2; e3; g0; g1; g2; g3; l0; l1] 2) with (Ok e2). cbn [bind]. rewrite (Q5 2%nat ltac:(cbn; lia) : bot_vertex t f0 (b2z d0) e2 = _). cbn [bind]. rewrite P3. cbn [bind]. rewrite C2. cbn [bind]. replace (l2 =? NULL) with false by (symmetry; apply Z.eqb_neq; auto). cbn [bind app negb].
  change (lent [e0; e1; e2; e3; g0; g1; g2; g3; l0; l1; l2] 3) with (Ok e3). cbn [bind]. rewrite (Q5 3%nat ltac:(cbn; lia) : bot_vertex t f0 (b2z d0) e3 = _). cbn [bind]. rewrite P4. cbn [bind]. rewrite C3. cbn [bind]. replace (l3 =? NULL) with false by (symmetry; apply Z.eqb_neq; auto). cbn [bind app negb]. auto.
Qed.
