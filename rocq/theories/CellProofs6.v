(** The stored element type; the edges and vertices of a cell as sets. *)
From Coq Require Import ZArith List Lia Bool Arith ZifyBool ZifyNat Permutation.
From Verif Require Import Base BaseProofs ListSpec HashProofs AttModel AttProps ParModel ParProps TopoModel TopoSpec TopoProofs TopoProofs2 TopoProofs3 TopoProofs4 TopoProofs5 TopoProofs6 TopoProofs7 TopoProps TopoProps2 TopoProps3 ModProofs CellModel CellSpec CellProofs CellProofs2 CellProofs3 CellProofs4 CellProofs5.
Import ListNotations.
Open Scope Z_scope.

Definition kind_of (s : shape) : Z := match s_nv s with 4%nat => TET | 5%nat => PYRAMID | 6%nat => PRISM | _ => HEX end.
Lemma cnt_perm : forall k l l', Permutation l l' -> cnt k l = cnt k l'.
Proof. intros k l l' P. unfold cnt. apply Permutation_count_occ. auto. Qed.
Lemma etype_cell : forall s ns, In s std -> Permutation ns (map (@length nat) (s_loops s)) -> etype ns = kind_of s.
Proof.
  intros s ns HS P. unfold etype. rewrite (Permutation_length P), (cnt_perm 3 _ _ P), (cnt_perm 4 _ _ P). repeat (destruct HS as [<-|HS]; [vm_compute; reflexivity|]). destruct HS.
Qed.
Lemma cell_counts : forall t a s b ws Ls, reach t a -> Permutation Ls (s_loops s) -> faces_as a b ws Ls -> mapM (MF_Num_Edges t) (map fst b) = Ok (map (fun L => Z.of_nat (length L)) Ls).
Proof.
  intros t a s b ws Ls R _ FA. induction FA as [|[f d] L b Ls H FA IH]; auto. cbn [map mapM fst]. rewrite (face_num t a f d _ R H). cbn [bind]. rewrite IH. cbn [bind]. unfold ZL. rewrite map_length. auto.
Qed.
Lemma mapM_counts : forall t l ns, Forall2 (fun f n => exists y es, tfs t f = Some y /\ f_edges y = Some es /\ length es = n) l ns -> mapM (MF_Num_Edges t) l = Ok (map Z.of_nat ns).
Proof. intros t l ns H. induction H as [|f n l ns (y & es & H1 & H2 & H3) H IH]; auto. cbn [mapM map]. unfold MF_Num_Edges at 1, getf. rewrite H1. cbn [bind]. rewrite H2. cbn [bind nn]. rewrite IH. cbn [bind]. unfold ZL. rewrite H3. auto. Qed.
Lemma typed_kind : forall t a r b s ws, reach t a -> a_r a r = Some (true, Some b) -> In s std -> cell a s b ws -> typed t r -> exists x, trs t r = Some x /\ r_faces x = Some (map fst b) /\ r_type x = kind_of s.
Proof.
  intros t a r b s ws R Hr HS (_ & _ & _ & _ & Ls & PL & FA) (x & l & ns & H1 & H2 & H3 & H4). destruct (region_rep t a r b R Hr) as (x' & Hx & Hl & _). assert (x' = x) by congruence. subst x'. assert (l = map fst b) by congruence. subst l.
  exists x. split; auto. split; auto. rewrite H4. apply etype_cell; auto. apply mapM_counts in H3. rewrite (cell_counts t a s b ws Ls R PL FA) in H3. inversion H3 as [E]. rewrite <- (map_map (@length nat) Z.of_nat) in E. replace ns with (map (@length nat) Ls). apply Permutation_map; auto.
  clear -E. revert ns E. induction (map (@length nat) Ls) as [|n l IH]; intros [|m ns] E; try discriminate; auto. cbn [map] in E. inversion E. f_equal. lia. auto.
Qed.
(** Calls that end in MR_Update_ElementType leave the type right. *)
Lemma update_typed : forall t1 t a r b, MR_Update_ElementType t1 r = Ok t -> reach t a -> a_r a r = Some (true, Some b) -> typed t r.
Proof.
  intros t1 t a r b E R Hr. destruct (region_rep t a r b R Hr) as (x & Hx & Hl & _). unfold MR_Update_ElementType, getr in E. destruct (trs t1 r) as [x1|] eqn:E1; [|discriminate]. cbn [bind] in E. destruct (r_faces x1) as [l|] eqn:E2; [|discriminate]. cbn [bind nn] in E.
  assert (K : exists ty, t = putr t1 r (Some (set_rtype x1 ty))) by (match type of E with bind ?m _ = _ => destruct m as [ty| | |]; try discriminate E; cbn [bind] in E; exists ty; congruence end).
  destruct K as (ty & Et). assert (Ef : tfs t1 = tfs t) by (rewrite Et; auto). assert (El : l = map fst b). { assert (x = set_rtype x1 ty) by (rewrite Et in Hx; cbn in Hx; rewrite zupd_same in Hx; congruence). subst x. cbn in Hl. congruence. }
  destruct (upd_type_typed t1 r x1 l E1 E2) as (ns & E3 & F). { intros f Hf. subst l. destruct (full_in a b f (w_rf _ (i_w _ _ (reach_inv _ _ R)) _ _ Hr) Hf) as (c & Hc). rewrite <- (i_f _ _ (reach_inv _ _ R)) in Hc. rewrite Ef. destruct (tfs t f) as [z|]; [|discriminate]. exists z. split; auto. cbn in Hc. unfold fview in Hc. destruct (f_edges z); discriminate. }
  assert (E4 : MR_Update_ElementType t1 r = Ok t). { unfold MR_Update_ElementType, getr. rewrite E1. cbn [bind]. rewrite E2. cbn [bind nn]. exact E. } rewrite E3 in E4. inversion E4 as [E5]. exists (set_rtype x1 (etype ns)), l, ns. rewrite E5, <- Ef. split. rewrite <- E5. cbn. rewrite zupd_same. auto. auto.
Qed.

(** ** Edges *)

Definition pair_eqb (p q : nat * nat) : bool := ((fst p =? fst q) && (snd p =? snd q) || (fst p =? snd q) && (snd p =? fst q))%nat.
Lemma std_edges : forall s, In s std ->
  (forall i j, (i < s_nv s)%nat -> (j < s_nv s)%nat -> adjb s i j = true -> exists k, (k < length (s_edges s))%nat /\ pair_eqb (nth k (s_edges s) (0, 0)%nat) (i, j) = true) /\
  (forall k, (k < length (s_edges s))%nat -> let p := nth k (s_edges s) (0, 0)%nat in (fst p < s_nv s)%nat /\ (snd p < s_nv s)%nat /\ adjb s (fst p) (snd p) = true) /\
  (forall k l, (k < length (s_edges s))%nat -> (l < length (s_edges s))%nat -> pair_eqb (nth k (s_edges s) (0, 0)%nat) (nth l (s_edges s) (0, 0)%nat) = true -> k = l).
Proof.
  assert (K : forallb (fun s =>
    forallb (fun i => forallb (fun j => implb (adjb s i j) (existsb (fun k => pair_eqb (nth k (s_edges s) (0, 0)%nat) (i, j)) (seq 0 (length (s_edges s))))) (seq 0 (s_nv s))) (seq 0 (s_nv s)) &&
    forallb (fun k => let p := nth k (s_edges s) (0, 0)%nat in (fst p <? s_nv s)%nat && (snd p <? s_nv s)%nat && adjb s (fst p) (snd p)) (seq 0 (length (s_edges s))) &&
    forallb (fun k => forallb (fun l => implb (pair_eqb (nth k (s_edges s) (0, 0)%nat) (nth l (s_edges s) (0, 0)%nat)) (k =? l)%nat) (seq 0 (length (s_edges s)))) (seq 0 (length (s_edges s)))) std = true) by (vm_compute; reflexivity).
  intros s HS. rewrite forallb_forall in K. specialize (K s HS). rewrite !andb_true_iff, !forallb_forall in K. destruct K as ((K1 & K2) & K3). split; [|split].
  - intros i j Hi Hj HA. specialize (K1 i ltac:(apply in_seq; lia)). rewrite forallb_forall in K1. specialize (K1 j ltac:(apply in_seq; lia)). rewrite HA in K1. cbn [implb] in K1. apply existsb_exists in K1. destruct K1 as (k & Hk & E). apply in_seq in Hk. exists k. split; auto; lia.
  - intros k Hk. specialize (K2 k ltac:(apply in_seq; lia)). cbv zeta in *. rewrite !andb_true_iff, !Nat.ltb_lt in K2. tauto.
  - intros k l Hk Hl HP. specialize (K3 k ltac:(apply in_seq; lia)). rewrite forallb_forall in K3. specialize (K3 l ltac:(apply in_seq; lia)). rewrite HP in K3. cbn [implb] in K3. apply Nat.eqb_eq; auto.
Qed.
Lemma cell_r_edge : forall a r b e, a_r a r = Some (true, Some b) -> cell_edge a b e <-> r_edge a r e.
Proof. intros a r b e Hr. unfold cell_edge, r_edge, e_region, has_face. split. intros (f & d & Hf & He). exists f, d. split; auto. exists b. auto. intros (f & d & He & (b' & Hb & Hi)). exists f, d. split; auto. congruence. Qed.
Lemma edges_list : forall a r s b ws Ls es, In s std -> a_r a r = Some (true, Some b) -> cell a s b ws -> cverts a s ws -> Permutation Ls (s_loops s) -> faces_as a b ws Ls -> chordless a b ws -> edges_of a s ws es -> lists es (r_edge a r).
Proof.
  intros a r s b ws Ls es HS Hr (_ & _ & _ & U & _) CV PL FA CH EO. pose proof (shapes_ok s HS) as SH. destruct (std_edges s HS) as (S1 & S2 & S3). pose proof (F2_length _ _ _ _ _ EO) as EL.
  assert (J : forall k, (k < length es)%nat -> let p := nth k (s_edges s) (0, 0)%nat in joins a (nth k es NULL) (W ws (fst p)) (W ws (snd p))). { intros k Hk. apply (F2_nth _ _ _ _ _ NULL (0, 0)%nat k EO). lia. }
  assert (CE : forall k, (k < length es)%nat -> cell_edge a b (nth k es NULL)). { intros k Hk. destruct (S2 k ltac:(lia)) as (B1 & B2 & _). apply (CH _ _ _ (W_In a s ws CV _ B1) (W_In a s ws CV _ B2)). apply J; auto. }
  split.
  - apply (NoDup_nth es NULL). intros k l Hk Hl E. apply S3; try lia. destruct (S2 k ltac:(lia)) as (B1 & B2 & _). destruct (S2 l ltac:(lia)) as (B3 & B4 & _). destruct (J k Hk) as (p & q & Hp & X). destruct (J l Hl) as (p' & q' & Hp' & X'). cbv zeta in *. rewrite E, Hp' in Hp. inversion Hp; subst p' q'.
    unfold pair_eqb. rewrite orb_true_iff, !andb_true_iff, !Nat.eqb_eq. destruct X as [(X1 & X2)|(X1 & X2)], X' as [(Y1 & Y2)|(Y1 & Y2)]; rewrite X1 in Y1; rewrite X2 in Y2; apply (W_inj a s ws CV) in Y1; auto; apply (W_inj a s ws CV) in Y2; auto.
  - intros e. rewrite <- (cell_r_edge a r b e Hr). split.
    + intros Hi. apply (In_nth _ _ NULL) in Hi. destruct Hi as (k & Hk & <-). auto.
    + intros HC. destruct (cell_edge_ends a s b ws Ls SH PL FA e HC) as (i & j & Hi & Hj & HA & HJ). destruct (S1 i j Hi Hj HA) as (k & Hk & HP). rewrite <- EL in Hk. pose proof (J k Hk) as Jk. cbv zeta in Jk. replace e with (nth k es NULL). apply nth_In; auto.
      apply (U (nth k es NULL) e (W ws i) (W ws j)); auto. unfold pair_eqb in HP. rewrite orb_true_iff, !andb_true_iff, !Nat.eqb_eq in HP. cbn [fst snd] in HP. destruct HP as [(E1 & E2)|(E1 & E2)]; rewrite E1, E2 in Jk; auto. apply joins_sym; auto.
Qed.
Lemma verts_list : forall a r s b ws, In s std -> a_r a r = Some (true, Some b) -> cell a s b ws -> lists ws (r_vertex a r).
Proof.
  intros a r s b ws HS Hr (L & N & V & _ & Ls & PL & FA). split; auto. intros v. rewrite (cell_verts a s b ws Ls v HS); auto; [|split; auto]. unfold r_vertex, v_region. split.
  - intros (e & HC & HE). exists e. split; auto. apply (cell_r_edge a r b e Hr); auto.
  - intros (e & HE & HC). exists e. split; auto. apply (cell_r_edge a r b e Hr); auto.
Qed.
