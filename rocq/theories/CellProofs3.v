(** Vertices and edges of pyramids and prisms. *)
From Coq Require Import ZArith List Lia Bool Arith ZifyBool ZifyNat Permutation.
From Verif Require Import Base BaseProofs ListSpec HashProofs AttModel AttProps ParModel ParProps TopoModel TopoSpec TopoProofs TopoProofs2 TopoProofs3 TopoProofs4 TopoProofs5 TopoProofs6 TopoProofs7 TopoProps TopoProps2 TopoProps3 ModProofs CellModel CellSpec CellProofs CellProofs2.
Import ListNotations.
Open Scope Z_scope.

(** ** Triangles and quadrilaterals *)

Lemma face_nn : forall t a f d vs, reach t a -> outward a (f, d) vs -> f <> NULL.
Proof. intros t a f d vs R (fb & _ & _ & H & _). cbn in H. pose proof (w_f _ (i_w _ _ (reach_inv _ _ R)) f) as K. rewrite H in K. assert (1 <= f) by (apply K; discriminate). unfold NULL. lia. Qed.
Lemma perm_sum : forall l l' : list nat, Permutation l l' -> list_sum l = list_sum l'.
Proof. intros l l' P. unfold list_sum. induction P; cbn; lia. Qed.
(** The positions found depend on the numbers of edges only. *)
Definition pk := (Z * Z * Z * Z * Z)%type.
Definition pstep (n i : Z) (p : pk) : pk :=
  let '(a, b, c, m, q) := p in
  if n =? 3 then if a =? -1 then (i, b, c, m + 1, q) else (a, i, c, m + 1, q)
  else if n =? 4 then if c =? -1 then (a, b, i, m, q + 1) else (a, b, c, m, q + 1)
  else p.
Definition pos_of (ns : list nat) : pk := fold_left (fun p i => pstep (Z.of_nat (nth i ns 0%nat)) (Z.of_nat i) p) (seq 0 (length ns)) (-1, -1, -1, 0, 0).
Definition entry (l : list ptr) (z : Z) : ptr := if z =? -1 then NULL else nth (Z.to_nat z) l NULL.
Lemma find_kinds_pos : forall t l ns, length ns = length l -> (forall i, (i < length l)%nat -> MF_Num_Edges t (nth i l NULL) = Ok (Z.of_nat (nth i ns 0%nat)) /\ nth i l NULL <> NULL) ->
  exists k, find_kinds t l = Ok k /\ pos_of ns = (itri0 k, itri1 k, iquad0 k, ntris k, nquads k) /\ tri0 k = entry l (itri0 k) /\ tri1 k = entry l (itri1 k) /\ quad0 k = entry l (iquad0 k).
Proof.
  intros t l ns HL H. unfold find_kinds.
  destruct (foldM_up kinds (fun z k => fold_left (fun p i => pstep (Z.of_nat (nth i ns 0%nat)) (Z.of_nat i) p) (seq 0 (Z.to_nat z)) (-1, -1, -1, 0, 0) = (itri0 k, itri1 k, iquad0 k, ntris k, nquads k) /\
    tri0 k = entry l (itri0 k) /\ tri1 k = entry l (itri1 k) /\ quad0 k = entry l (iquad0 k) /\ -1 <= itri0 k < z /\ -1 <= itri1 k < z /\ -1 <= iquad0 k < z)
    (fun k i => f <- lent l i ;; ne <- MF_Num_Edges t f ;;
    Ok (if ne =? 3 then
          if tri0 k =? NULL then mkK f i (tri1 k) (itri1 k) (quad0 k) (iquad0 k) (ntris k + 1) (nquads k)
          else mkK (tri0 k) (itri0 k) f i (quad0 k) (iquad0 k) (ntris k + 1) (nquads k)
        else if ne =? 4 then
          if quad0 k =? NULL then mkK (tri0 k) (itri0 k) (tri1 k) (itri1 k) f i (ntris k) (nquads k + 1)
          else mkK (tri0 k) (itri0 k) (tri1 k) (itri1 k) (quad0 k) (iquad0 k) (ntris k) (nquads k + 1)
        else k)) 0 (ZL l) kinds0) as (k & E & K1 & K2 & K3 & K4 & _).
  - unfold ZL. lia.
  - cbn. repeat split; auto; lia.
  - intros z k Hz (K1 & K2 & K3 & K4 & B1 & B2 & B3). destruct (H (Z.to_nat z)) as (E & N). unfold ZL in Hz. lia.
    assert (EN : lent l z = Ok (nth (Z.to_nat z) l NULL)) by (unfold lent; replace (z <? 0) with false by lia; auto). rewrite EN. cbn [bind]. rewrite E. cbn [bind]. eexists. split; [reflexivity|].
    replace (Z.to_nat (z + 1)) with (S (Z.to_nat z)) by lia. rewrite seq_S, fold_left_app, K1. cbn [fold_left plus]. rewrite Z2Nat.id by lia.
    assert (TN : forall w, -1 <= w < z -> (entry l w =? NULL) = (w =? -1)). { intros w Hw. unfold entry. destruct (Z.eqb_spec w (-1)). apply Z.eqb_refl. apply Z.eqb_neq. apply H. unfold ZL in Hz. lia. }
    assert (EZ : entry l z = nth (Z.to_nat z) l NULL) by (unfold entry; replace (z =? -1) with false by lia; auto).
    unfold pstep. rewrite K2, K4, !TN by auto. destruct (_ =? 3). destruct (itri0 k =? -1); cbn [tri0 itri0 tri1 itri1 quad0 iquad0 ntris nquads]; rewrite ?EZ; repeat split; auto; lia.
    destruct (_ =? 4). destruct (iquad0 k =? -1); cbn [tri0 itri0 tri1 itri1 quad0 iquad0 ntris nquads]; rewrite ?EZ; repeat split; auto; lia. repeat split; auto; lia.
  - exists k. split. exact E. unfold pos_of. unfold ZL in K1. rewrite Nat2Z.id, <- HL in K1. auto.
Qed.
Lemma cell_kinds : forall t a b ws Ls, reach t a -> faces_as a b ws Ls -> exists k, find_kinds t (map fst b) = Ok k /\ pos_of (map (@length nat) Ls) = (itri0 k, itri1 k, iquad0 k, ntris k, nquads k) /\
  tri0 k = entry (map fst b) (itri0 k) /\ tri1 k = entry (map fst b) (itri1 k) /\ quad0 k = entry (map fst b) (iquad0 k).
Proof.
  intros t a b ws Ls R F. pose proof (F2_length _ _ _ _ _ F) as E. apply find_kinds_pos. rewrite !map_length; auto. rewrite map_length. intros i Hi. pose proof (F2_nth _ _ _ _ _ dflt [] i F ltac:(lia)) as O. cbv beta in O.
  rewrite (nth_indep _ NULL (fst dflt)) by (rewrite map_length; lia). rewrite map_nth. destruct (nth i b dflt) as [f d]. cbn [fst]. split. rewrite (face_num _ _ _ _ _ R O). f_equal. unfold ZL. rewrite map_length. f_equal.
  rewrite (nth_indep _ 0%nat (@length nat [])) by (rewrite map_length; lia). rewrite map_nth. auto. eapply face_nn; eauto.
Qed.
Lemma entry_nth : forall (b : list (ptr * bool)) z, 0 <= z < Z.of_nat (length b) -> entry (map fst b) z = fst (nth (Z.to_nat z) b dflt).
Proof. intros b z H. unfold entry. replace (z =? -1) with false by lia. rewrite (nth_indep _ NULL (fst dflt)) by (rewrite map_length; lia). apply map_nth. Qed.
Lemma five : forall (Ls : list (list nat)) ns, Permutation (map (@length nat) Ls) ns -> length ns = 5%nat -> (forall n, In n ns -> n = 3%nat \/ n = 4%nat) ->
  exists n0 n1 n2 n3 n4, map (@length nat) Ls = [n0; n1; n2; n3; n4] /\ (n0 = 3 \/ n0 = 4)%nat /\ (n1 = 3 \/ n1 = 4)%nat /\ (n2 = 3 \/ n2 = 4)%nat /\ (n3 = 3 \/ n3 = 4)%nat /\ (n4 = 3 \/ n4 = 4)%nat /\ (n0 + n1 + n2 + n3 + n4 = list_sum ns)%nat.
Proof.
  intros Ls ns P HL HI. pose proof (Permutation_length P) as E. rewrite HL in E. pose proof (perm_sum _ _ P) as PS. assert (HI' : forall n, In n (map (@length nat) Ls) -> n = 3%nat \/ n = 4%nat) by (intros n Hn; apply HI; eapply Permutation_in; eauto). clear P.
  destruct (map (@length nat) Ls) as [|n0 [|n1 [|n2 [|n3 [|n4 [|? ?]]]]]]; try discriminate. exists n0, n1, n2, n3, n4. split; auto. cbn in PS. repeat (split; [apply HI'; cbn; tauto|]). lia.
Qed.
Lemma nth_len : forall (Ls : list (list nat)) i, length (nth i Ls []) = nth i (map (@length nat) Ls) 0%nat.
Proof. intros. symmetry. apply (map_nth (@length nat) Ls [] i). Qed.
Lemma kinds_pyramid : forall t a b ws Ls, reach t a -> faces_as a b ws Ls -> Permutation (map (@length nat) Ls) [4; 3; 3; 3; 3]%nat ->
  exists i j k, (i < 5)%nat /\ (j < 5)%nat /\ i <> j /\ length (nth i Ls []) = 4%nat /\ length (nth j Ls []) = 3%nat /\ find_kinds t (map fst b) = Ok k /\
    quad0 k = fst (nth i b dflt) /\ iquad0 k = Z.of_nat i /\ tri0 k = fst (nth j b dflt) /\ nquads k = 1 /\ ntris k = 4.
Proof.
  intros t a b ws Ls R F P. destruct (cell_kinds t a b ws Ls R F) as (k & E & K1 & K2 & _ & K4). assert (LB : length b = 5%nat) by (rewrite (F2_length _ _ _ _ _ F), <- (map_length (@length nat)), (Permutation_length P); auto).
  destruct (five Ls _ P eq_refl) as (n0 & n1 & n2 & n3 & n4 & EL & I0 & I1 & I2 & I3 & I4 & SM). cbn; intuition. cbn in SM. rewrite EL in K1.
  assert (G : exists i j, (i < 5)%nat /\ (j < 5)%nat /\ i <> j /\ nth i [n0; n1; n2; n3; n4] 0%nat = 4%nat /\ nth j [n0; n1; n2; n3; n4] 0%nat = 3%nat /\ exists x, pos_of [n0; n1; n2; n3; n4] = (Z.of_nat j, x, Z.of_nat i, 4, 1)).
  { clear -I0 I1 I2 I3 I4 SM. destruct I0 as [->| ->], I1 as [->| ->], I2 as [->| ->], I3 as [->| ->], I4 as [->| ->]; try lia.
    exists 4%nat, 0%nat. repeat split; try lia. eexists. vm_compute. reflexivity. exists 3%nat, 0%nat. repeat split; try lia. eexists. vm_compute. reflexivity. exists 2%nat, 0%nat. repeat split; try lia. eexists. vm_compute. reflexivity. exists 1%nat, 0%nat. repeat split; try lia. eexists. vm_compute. reflexivity. exists 0%nat, 1%nat. repeat split; try lia. eexists. vm_compute. reflexivity. }
  destruct G as (i & j & Hi & Hj & Hij & Gi & Gj & y & Gp). rewrite Gp in K1. inversion K1 as [[X1 X2 X3 X4 X5]]. exists i, j, k. rewrite !nth_len, EL. repeat (split; auto).
  rewrite K4, <- X3, entry_nth by lia. rewrite Nat2Z.id. auto. rewrite K2, <- X1, entry_nth by lia. rewrite Nat2Z.id. auto.
Qed.
Lemma kinds_prism : forall t a b ws Ls, reach t a -> faces_as a b ws Ls -> Permutation (map (@length nat) Ls) [3; 3; 4; 4; 4]%nat ->
  exists i j k, (i < 5)%nat /\ (j < 5)%nat /\ i <> j /\ length (nth i Ls []) = 3%nat /\ length (nth j Ls []) = 3%nat /\ find_kinds t (map fst b) = Ok k /\
    tri0 k = fst (nth i b dflt) /\ itri0 k = Z.of_nat i /\ tri1 k = fst (nth j b dflt) /\ itri1 k = Z.of_nat j /\ nquads k = 3 /\ ntris k = 2.
Proof.
  intros t a b ws Ls R F P. destruct (cell_kinds t a b ws Ls R F) as (k & E & K1 & K2 & K3 & _). assert (LB : length b = 5%nat) by (rewrite (F2_length _ _ _ _ _ F), <- (map_length (@length nat)), (Permutation_length P); auto).
  destruct (five Ls _ P eq_refl) as (n0 & n1 & n2 & n3 & n4 & EL & I0 & I1 & I2 & I3 & I4 & SM). cbn; intuition. cbn in SM. rewrite EL in K1.
  assert (G : exists i j, (i < 5)%nat /\ (j < 5)%nat /\ i <> j /\ nth i [n0; n1; n2; n3; n4] 0%nat = 3%nat /\ nth j [n0; n1; n2; n3; n4] 0%nat = 3%nat /\ exists x, pos_of [n0; n1; n2; n3; n4] = (Z.of_nat i, Z.of_nat j, x, 2, 3)).
  { clear -I0 I1 I2 I3 I4 SM. Ltac fin_prism i j := exists i, j; repeat split; try lia; eexists; vm_compute; reflexivity.
    destruct I0 as [->| ->], I1 as [->| ->], I2 as [->| ->], I3 as [->| ->], I4 as [->| ->]; try lia.
    fin_prism 0%nat 1%nat. fin_prism 0%nat 2%nat. fin_prism 0%nat 3%nat. fin_prism 0%nat 4%nat. fin_prism 1%nat 2%nat. fin_prism 1%nat 3%nat. fin_prism 1%nat 4%nat. fin_prism 2%nat 3%nat. fin_prism 2%nat 4%nat. fin_prism 3%nat 4%nat. }
  destruct G as (i & j & Hi & Hj & Hij & Gi & Gj & y & Gp). rewrite Gp in K1. inversion K1 as [[X1 X2 X3 X4 X5]]. exists i, j, k. rewrite !nth_len, EL. repeat (split; auto).
  rewrite K2, <- X1, entry_nth by lia. rewrite Nat2Z.id. auto. rewrite K3, <- X2, entry_nth by lia. rewrite Nat2Z.id. auto.
Qed.

Lemma pyramid_ok : forall t a r b ws, reach t a -> a_r a r = Some (true, Some b) -> cell a pyramid b ws ->
  exists vs es k, pyramid_vertices t r (map fst b) = Ok vs /\ find_kinds t (map fst b) = Ok k /\ nquads k = 1 /\ ntris k = 4 /\ pyramid_edges t r k = Ok es /\ cell a pyramid b vs /\ edges_of a pyramid vs es.
Proof.
  intros t a r b ws R Hr C. destruct (region_rep t a r b R Hr) as (x & Hx & Hl & HD). pose proof C as (L0 & N0 & V0 & U & Ls & PL & FA). pose proof (F2_length _ _ _ _ _ FA) as EL. pose proof (Permutation_length PL) as EP. cbn in EP.
  assert (HS : In pyramid std) by (cbn; auto). pose proof (shapes_ok _ HS) as SH.
  destruct (kinds_pyramid t a b ws Ls R FA (Permutation_map (@length nat) PL)) as (i & j & k & Hi & Hj & Hij & Li & Lj & KE & KQ & KI & KT & KN & KM).
  destruct (nth i b dflt) as [f0 d0] eqn:E0. destruct (nth j b dflt) as [f1 d1] eqn:E1. cbn [fst] in *.
  destruct (base t a pyramid b ws Ls i f0 d0 R HS) as (ws' & Ls' & es & CV & PL' & FA' & LL & LE & H0 & Q1 & Q2 & Q3 & Q4 & Q5); auto. split; auto. lia. rewrite <- EP in *.
  cbn [hd s_loops pyramid] in H0. change (bot pyramid) with [0; 1; 2; 3]%nat in *. cbn [map] in *.
  assert (O1 : outward a (f1, d1) (map (W ws') (nth j Ls' []))) by (rewrite <- E1; apply (F2_nth _ _ _ _ _ dflt [] j FA'); lia).
  assert (K1 : In (nth j Ls' []) [[0; 1; 4]; [1; 2; 4]; [2; 3; 4]; [3; 0; 4]]%nat).
  { assert (I1 : In (nth j Ls' []) (s_loops pyramid)) by (eapply Permutation_in; [exact PL'|]; apply nth_In; lia). cbn [s_loops pyramid] in I1. destruct I1 as [I1|I1]; auto. exfalso. rewrite <- (LE j) in Lj by lia. rewrite <- I1 in Lj. discriminate. }
  set (K := nth j Ls' []) in *. clearbody K.
  destruct (face_query t a f1 d1 _ true R O1) as (fv & es1 & F1 & _ & F3 & _). { intros X. apply map_eq_nil in X. subst K. cbn in K1. intuition discriminate. }
  assert (PF : Permutation fv (map (W ws') K)). { symmetry. rewrite <- (rotation_perm _ _ _ F3). destruct (Bool.eqb d1 true); cbn [orient]; auto. apply Permutation_rev. }
  assert (NV : forall i j, (i < 5)%nat -> (j < 5)%nat -> i <> j -> W ws' i <> W ws' j) by (intros i' j' Hi' Hj' N X; apply N; apply (W_inj a pyramid ws' CV) in X; auto).
  assert (A : length fv = 3%nat /\ In (W ws' 4) fv /\ forall v, In v fv -> v <> W ws' 4 -> In v [W ws' 0%nat; W ws' 1%nat; W ws' 2%nat; W ws' 3%nat]).
  { split; [|split]. rewrite (Permutation_length PF), map_length. repeat (destruct K1 as [<-|K1]; [reflexivity|]); destruct K1.
    eapply Permutation_in; [symmetry; exact PF|]. apply in_map. repeat (destruct K1 as [<-|K1]; [cbn; auto|]); destruct K1.
    intros v Hv Hn. apply (Permutation_in _ PF) in Hv. apply in_map_iff in Hv. destruct Hv as (q & <- & Hk). assert (q = 0 \/ q = 1 \/ q = 2 \/ q = 3)%nat as [->|[->|[->| ->]]]; cbn; auto.
    assert (q <> 4%nat) by congruence. repeat (destruct K1 as [<-|K1]; [cbn in Hk; lia|]); destruct K1. }
  destruct A as (A1 & A2 & A3). assert (A4 : ~ In (W ws' 4) [W ws' 0%nat; W ws' 1%nat; W ws' 2%nat; W ws' 3%nat]). { cbn. intros [X|[X|[X|[X|[]]]]]; revert X; apply NV; lia. }
  assert (D0 : MR_FaceDir_i t r (iquad0 k) = Ok (b2z d0)) by (rewrite KI, HD by lia; rewrite E0; auto).
  apply eloop4 in Q3. destruct Q3 as (e0 & e1 & e2 & e3 & -> & J0 & J1 & J2 & J3).
  assert (CA : forall i, (i < 4)%nat -> exists e, MVs_CommonEdge t (W ws' i) (W ws' 4) = Ok e /\ e <> NULL /\ joins a e (W ws' i) (W ws' 4)). { intros q Hq. apply (common_adj t a pyramid b ws' Ls' R CV PL' FA'); cbn; try lia. destruct q as [|[|[|[|]]]]; try lia; reflexivity. }
  destruct (CA 0%nat) as (l0 & C0 & N0' & J4); [lia|]. destruct (CA 1%nat) as (l1 & C1 & N1' & J5); [lia|]. destruct (CA 2%nat) as (l2 & C2 & N2' & J6); [lia|]. destruct (CA 3%nat) as (l3 & C3 & N3' & J7); [lia|].
  exists ws', [e0; e1; e2; e3; l0; l1; l2; l3], k. split; [|split; [|split; [|split; [|split; [|split]]]]]; auto.
  - unfold pyramid_vertices. rewrite KE. cbn [bind]. rewrite D0. cbn [bind]. rewrite dir_not, KQ, Q1. cbn [bind]. change 1 with (b2z true). rewrite KT, F1. cbn [bind]. rewrite (add_apex_ok _ _ (W ws' 4)) by auto. f_equal. apply (W_all a pyramid ws' CV 5 eq_refl).
  - unfold pyramid_edges. rewrite D0. cbn [bind]. rewrite dir_not, KQ, Q2. cbn [bind]. change 1 with (b2z true). rewrite KT, F1. cbn [bind].
    assert (O0 : outward a (f0, d0) [W ws' 0%nat; W ws' 3%nat; W ws' 2%nat; W ws' 1%nat]). { pose proof (F2_nth _ _ _ _ _ dflt [] i FA' ltac:(lia)) as X. cbv beta in X. rewrite E0, H0 in X. exact X. }
    rewrite (find_apex_ok t a f0 d0 _ fv (W ws' 4) R O0); auto. 2: { clear -A4. cbn in *. tauto. } 2: { intros v Hv Hn. specialize (A3 v Hv Hn). clear -A3. cbn in *. tauto. } cbn [bind].
    change (zrange 0 4) with [0; 1; 2; 3]. cbn [foldM]. unfold side_step. cbn [negb]. change (lent [e0; e1; e2; e3] 0) with (Ok e0). cbn [bind]. rewrite (Q5 0%nat ltac:(cbn; lia) : bot_vertex t f0 (b2z d0) e0 = _). cbn [bind]. rewrite C0. cbn [bind]. replace (l0 =? NULL) with false by (symmetry; apply Z.eqb_neq; auto). cbn [bind app negb].
    change (lent [e0; e1; e2; e3; l0] 1) with (Ok e1). cbn [bind]. rewrite (Q5 1%nat ltac:(cbn; lia) : bot_vertex t f0 (b2z d0) e1 = _). cbn [bind]. rewrite C1. cbn [bind]. replace (l1 =? NULL) with false by (symmetry; apply Z.eqb_neq; auto). cbn [bind app negb].
    change (lent [e0; e1; e2; e3; l0; l1] 2) with (Ok e2). cbn [bind]. rewrite (Q5 2%nat ltac:(cbn; lia) : bot_vertex t f0 (b2z d0) e2 = _). cbn [bind]. rewrite C2. cbn [bind]. replace (l2 =? NULL) with false by (symmetry; apply Z.eqb_neq; auto). cbn [bind app negb].
    change (lent [e0; e1; e2; e3; l0; l1; l2] 3) with (Ok e3). cbn [bind]. rewrite (Q5 3%nat ltac:(cbn; lia) : bot_vertex t f0 (b2z d0) e3 = _). cbn [bind]. rewrite C3. cbn [bind]. replace (l3 =? NULL) with false by (symmetry; apply Z.eqb_neq; auto). cbn [bind app negb]. auto.
  - eapply cell_intro; eauto.
  - unfold edges_of. cbn [s_edges pyramid]. repeat constructor; cbn [fst snd]; auto.
Qed.
