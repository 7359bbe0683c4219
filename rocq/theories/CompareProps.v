(** Property C10: the comparison functions. *)
From Coq Require Import ZArith List Lia Bool Arith ZifyBool ZifyNat Permutation Sorting.Sorted Floats.SpecFloat.
From Verif Require Import Base BaseProofs SortModel SortProofs CompareModel.
Import ListNotations.
Open Scope Z_scope.

(** A total preorder given by a three-way comparison. *)
Definition preorder3 {A} (dom : A -> Prop) (cmp : A -> A -> Z) (same : A -> A -> Prop) : Prop :=
  (forall a b, dom a -> dom b -> Z.sgn (cmp b a) = - Z.sgn (cmp a b)) /\
  (forall a b c, dom a -> dom b -> dom c -> cmp a b <= 0 -> cmp b c <= 0 -> cmp a c <= 0) /\
  (forall a b, dom a -> dom b -> (cmp a b = 0 <-> same a b)).

(** ** Differences of ints *)

(** Missing for the full statement: pairs of ints whose difference does not fit,
    where the comparison is undefined (next theorem). *)
Theorem C10_int_order_partial : forall a b, - 2 ^ 31 <= a - b < 2 ^ 31 ->
  exists r, compareINT a b = Ok r /\ (r < 0 <-> a < b) /\ (r = 0 <-> a = b).
Proof. intros. unfold compareINT. rewrite ck_ok by lia. eexists. split; [reflexivity|]. lia. Qed.
Print Assumptions C10_int_order_partial.

Theorem C10_int_order_refuted : exists a b, - 2 ^ 31 <= a < 2 ^ 31 /\ - 2 ^ 31 <= b < 2 ^ 31 /\ compareINT a b = Undef.
Proof. exists (2 ^ 31 - 1), (-1). repeat split; try lia; vm_compute; try reflexivity; discriminate. Qed.
Print Assumptions C10_int_order_refuted.

(** On entities whose attribute is never negative (IDs are 27 bit unsigned, see
    C13; global IDs and valences are counts) the orders are total. *)
Theorem C10_attribute_order : forall (key : Z -> Z), (forall e, 0 <= key e < 2 ^ 31) ->
  forall cmp, In cmp [compareID key; compareGlobalID key; compareValence key] ->
  (forall a b, exists r, cmp a b = Ok r) /\
  preorder3 (fun _ => True) (fun a b => match cmp a b with Ok r => r | _ => 0 end) (fun a b => key a = key b).
Proof.
  intros key K cmp Hc.
  assert (E : forall a b, cmp a b = Ok (key a - key b)).
  { intros a b. pose proof (K a). pose proof (K b). destruct Hc as [<-|[<-|[<-|[]]]];
      unfold compareID, compareGlobalID, compareValence; rewrite ck_ok by lia; auto. }
  split; [intros; eauto|]. unfold preorder3. repeat split; intros; rewrite ?E in *; lia.
Qed.
Print Assumptions C10_attribute_order.

Example C10_int_ex : compareINT 3 7 = Ok (-4) /\ compareINT (-5) (-5) = Ok 0 /\ compareID (fun e => e * 2) 8 3 = Ok 10.
Proof. vm_compute. auto. Qed.

(** ** Lexicographic comparison *)
Lemma lex_range : forall a b, lex_loop a b = -1 \/ lex_loop a b = 0 \/ lex_loop a b = 1.
Proof. induction a; destruct b; simpl; auto. destruct (a >? z); auto. destruct (a <? z); auto. Qed.

Lemma lex_anti : forall a b, lex_loop b a = - lex_loop a b.
Proof.
  induction a; destruct b; simpl; auto. rewrite IHa.
  destruct (a >? z) eqn:E1, (z >? a) eqn:E2, (z <? a) eqn:E3, (a <? z) eqn:E4; try lia.
Qed.

Lemma lex_zero : forall a b, length a = length b -> (lex_loop a b = 0 <-> a = b).
Proof.
  induction a; destruct b; simpl; intros L; try lia; [tauto|].
  destruct (a >? z) eqn:E1; [split; intro X; [lia|inversion X; lia]|].
  destruct (a <? z) eqn:E2; [split; intro X; [lia|inversion X; lia]|].
  rewrite IHa by lia. split; intro X; [f_equal; auto; lia|inversion X; auto].
Qed.

Lemma lex_trans : forall a b c, length a = length b -> length b = length c ->
  lex_loop a b <= 0 -> lex_loop b c <= 0 -> lex_loop a c <= 0.
Proof.
  induction a; destruct b, c; simpl; intros L1 L2 H1 H2; try lia.
  destruct (a >? z) eqn:A1; [lia|]. destruct (z >? z0) eqn:A2; [lia|]. replace (a >? z0) with false by lia.
  destruct (a <? z) eqn:B1, (z <? z0) eqn:B2; try (replace (a <? z0) with true by lia; lia).
  replace (a <? z0) with false by lia. apply (IHa b c); auto.
Qed.

(** ** Edges *)
Lemma edge_lex : forall a b, compareEdgeINT a b = lex_loop [Z.max (fst a) (snd a); Z.min (fst a) (snd a)] [Z.max (fst b) (snd b); Z.min (fst b) (snd b)].
Proof.
  intros [a0 a1] [b0 b1]. unfold compareEdgeINT. cbn [fst snd lex_loop].
  destruct (a0 <? a1) eqn:E1; destruct (b0 <? b1) eqn:E2;
  rewrite ?(Z.max_l a0 a1), ?(Z.max_r a0 a1), ?(Z.min_l a0 a1), ?(Z.min_r a0 a1),
    ?(Z.max_l b0 b1), ?(Z.max_r b0 b1), ?(Z.min_l b0 b1), ?(Z.min_r b0 b1) by lia; reflexivity.
Qed.

Theorem C10_edge_order : preorder3 (fun _ => True) compareEdgeINT
  (fun a b => a = b \/ (fst a = snd b /\ snd a = fst b)).
Proof.
  unfold preorder3. split; [|split].
  - intros. rewrite !edge_lex, lex_anti. lia.
  - intros a b c _ _ _. rewrite !edge_lex. apply lex_trans; auto.
  - intros [a0 a1] [b0 b1] _ _. rewrite edge_lex, lex_zero by auto. cbn [fst snd]. split.
    + intro X. injection X as X1 X2. destruct (Z.max_spec a0 a1), (Z.min_spec a0 a1), (Z.max_spec b0 b1), (Z.min_spec b0 b1);
      try (left; f_equal; lia); right; lia.
    + intros [X|[X1 X2]]; [injection X as X1 X2|]; f_equal; [|f_equal| |f_equal]; lia.
Qed.
Print Assumptions C10_edge_order.

(** On edges, through the global IDs of their end vertices. *)
Theorem C10_edgeID_order : forall gid ev, preorder3 (fun _ => True) (compareEdgeID gid ev)
  (fun e1 e2 => (gid (fst (ev e1)), gid (snd (ev e1))) = (gid (fst (ev e2)), gid (snd (ev e2))) \/
                (gid (fst (ev e1)) = gid (snd (ev e2)) /\ gid (snd (ev e1)) = gid (fst (ev e2)))).
Proof.
  intros gid ev. destruct C10_edge_order as [A [B C]]. unfold preorder3, compareEdgeID.
  split; [intros; apply A; auto|]. split; [intros a b c _ _ _; apply B; auto|]. intros; apply C; auto.
Qed.
Print Assumptions C10_edgeID_order.

Example C10_edge_ex : compareEdgeINT (3, 8) (8, 3) = 0 /\ compareEdgeINT (3, 8) (2, 8) = 1 /\ compareEdgeINT (7, 7) (1, 8) = -1.
Proof. vm_compute. auto. Qed.

(** ** Faces *)
Lemma ins_perm : forall x l, Permutation (x :: l) (ins x l).
Proof.
  induction l; simpl; auto. destruct (x <=? a); auto. eapply Permutation_trans; [apply perm_swap|]. auto.
Qed.
Lemma isort_perm : forall l, Permutation l (isort l).
Proof. induction l; simpl; auto. eapply Permutation_trans; [|apply ins_perm]. auto. Qed.
Lemma ins_sorted : forall x l, StronglySorted Z.le l -> StronglySorted Z.le (ins x l).
Proof.
  induction l; simpl; intros S; [repeat constructor|]. inversion S. subst. destruct (x <=? a) eqn:E.
  - constructor; auto. constructor; [lia|]. eapply Forall_impl; [|exact H2]. simpl. intros; lia.
  - constructor; auto. eapply Permutation_Forall; [apply ins_perm|]. constructor; [lia|auto].
Qed.
Lemma isort_sorted : forall l, StronglySorted Z.le (isort l).
Proof. induction l; simpl; [constructor|]. apply ins_sorted. auto. Qed.

Lemma sorted_unique : forall a b, StronglySorted Z.le a -> StronglySorted Z.le b -> Permutation a b -> a = b.
Proof.
  induction a; intros b Sa Sb P; [apply Permutation_nil in P; auto|].
  destruct b; [symmetry in P; apply Permutation_nil in P; discriminate|].
  inversion Sa; inversion Sb; subst. rewrite Forall_forall in *.
  assert (a = z).
  { assert (Ia : In a (z :: b)) by (apply (Permutation_in _ P); left; auto).
    assert (Iz : In z (a :: a0)) by (apply (Permutation_in _ (Permutation_sym P)); left; auto).
    destruct Ia as [?|Ia], Iz as [?|Iz]; auto. specialize (H2 z Iz). specialize (H6 a Ia). lia. }
  subst. f_equal. apply IHa; auto. eapply Permutation_cons_inv; eauto.
Qed.

Lemma isort_eq : forall a b, isort a = isort b <-> Permutation a b.
Proof.
  intros. split; intro H.
  - eapply Permutation_trans; [apply isort_perm|]. rewrite H. apply Permutation_sym, isort_perm.
  - apply sorted_unique; try apply isort_sorted. eapply Permutation_trans; [apply Permutation_sym, isort_perm|].
    eapply Permutation_trans; [exact H|apply isort_perm].
Qed.

Lemma isort_length : forall l, length (isort l) = length l.
Proof. intros. symmetry. apply Permutation_length, isort_perm. Qed.

Definition nneg (l : list Z) : Prop := forall x, In x l -> 0 <= x < 2 ^ 31.

Lemma qsortINT_ok : forall l, nneg l -> qsortINT l = Ok (isort l).
Proof.
  intros l N. unfold qsortINT. replace (forallb _ l) with true; auto. symmetry. apply forallb_forall. intros x Hx.
  apply forallb_forall. intros y Hy. pose proof (N x Hx). pose proof (N y Hy). lia.
Qed.

Definition face_arr (l : list Z) : array Z := map Some (Z.of_nat (length l) :: l).

Lemma rdn_spec : forall l pre post, rdn (pre ++ map Some l ++ post) (Z.of_nat (length pre)) (length l) = Ok l.
Proof.
  induction l; intros; auto. cbn [rdn length map]. 
  assert (E : rd (pre ++ Some a :: map Some l ++ post) (Z.of_nat (length pre)) = Ok a).
  { unfold rd. replace (0 <=? _) with true by lia. rewrite Nat2Z.id, nth_error_app2, Nat.sub_diag by lia. auto. }
  cbn [app]. rewrite E. cbn [bind]. specialize (IHl (pre ++ [Some a]) post). rewrite app_length in IHl. cbn [length] in IHl.
  rewrite <- app_assoc in IHl. cbn [app] in IHl. replace (Z.of_nat (length pre) + 1) with (Z.of_nat (length pre + 1)) by lia.
  rewrite IHl. auto.
Qed.

Definition fcmp (a b : list Z) : Z :=
  if (length b <? length a)%nat then 1 else if (length a <? length b)%nat then -1 else lex_loop (isort a) (isort b).

Lemma face_cmp : forall a b, nneg a -> nneg b -> compareFaceINT (face_arr a) (face_arr b) = Ok (fcmp a b).
Proof.
  intros. unfold compareFaceINT, face_arr. cbn [map].
  assert (R0 : forall (x : Z) l, rd (Some x :: l) 0 = Ok x) by reflexivity. rewrite !R0. cbn [bind]. unfold fcmp.
  destruct (Z.of_nat (length a) >? Z.of_nat (length b)) eqn:E1; [replace (length b <? length a)%nat with true by lia; auto|].
  replace (length b <? length a)%nat with false by lia.
  destruct (Z.of_nat (length a) <? Z.of_nat (length b)) eqn:E2; [replace (length a <? length b)%nat with true by lia; auto|].
  replace (length a <? length b)%nat with false by lia. rewrite !Nat2Z.id.
  pose proof (rdn_spec a [Some (Z.of_nat (length a))] []) as Ra. pose proof (rdn_spec b [Some (Z.of_nat (length b))] []) as Rb.
  rewrite app_nil_r in Ra, Rb. cbn [app length] in Ra, Rb. change (Z.of_nat 1) with 1 in *. rewrite Ra, Rb. cbn [bind].
  rewrite !qsortINT_ok by auto. auto.
Qed.

Lemma fcmp_preorder : preorder3 (fun _ => True) fcmp (@Permutation Z).
Proof.
  unfold preorder3, fcmp. split; [|split].
  - intros a b _ _. destruct (length b <? length a)%nat eqn:E1, (length a <? length b)%nat eqn:E2; try lia.
    rewrite lex_anti. lia.
  - intros a b c _ _ _. destruct (length b <? length a)%nat eqn:E1; [lia|]. destruct (length c <? length b)%nat eqn:E2; [lia|].
    replace (length c <? length a)%nat with false by lia.
    destruct (length a <? length b)%nat eqn:E3, (length b <? length c)%nat eqn:E4;
      try (replace (length a <? length c)%nat with true by lia; lia).
    replace (length a <? length c)%nat with false by lia. apply lex_trans; rewrite !isort_length; lia.
  - intros a b _ _. destruct (length b <? length a)%nat eqn:E1.
    { split; [lia|]. intro P. apply Permutation_length in P. lia. }
    destruct (length a <? length b)%nat eqn:E2.
    { split; [lia|]. intro P. apply Permutation_length in P. lia. }
    rewrite lex_zero by (rewrite !isort_length; lia). apply isort_eq.
Qed.

(** Faces given by any non-negative vertex numbers: a total preorder, 0 exactly
    for the same vertices in any order; reordering the arrays does not matter. *)
Theorem C10_face_order :
  (forall a b, nneg a -> nneg b -> exists r, compareFaceINT (face_arr a) (face_arr b) = Ok r) /\
  preorder3 nneg (fun a b => match compareFaceINT (face_arr a) (face_arr b) with Ok r => r | _ => 0 end) (@Permutation Z) /\
  (forall a a' b b', nneg a -> nneg b -> Permutation a a' -> Permutation b b' ->
     compareFaceINT (face_arr a') (face_arr b') = compareFaceINT (face_arr a) (face_arr b)).
Proof.
  split; [|split].
  - intros. rewrite face_cmp by auto. eauto.
  - destruct fcmp_preorder as [A [B C]]. unfold preorder3. split; [|split].
    + intros. rewrite !face_cmp by auto. apply A; auto.
    + intros a b c Na Nb Nc. rewrite !face_cmp by auto. apply B; auto.
    + intros. rewrite !face_cmp by auto. apply C; auto.
  - intros a a' b b' Na Nb Pa Pb.
    assert (nneg a') by (intros x Hx; apply Na; eapply Permutation_in; [apply Permutation_sym|]; eauto).
    assert (nneg b') by (intros x Hx; apply Nb; eapply Permutation_in; [apply Permutation_sym|]; eauto).
    rewrite !face_cmp by auto. unfold fcmp. rewrite (Permutation_length Pa), (Permutation_length Pb).
    rewrite (proj2 (isort_eq a a') Pa), (proj2 (isort_eq b b') Pb). auto.
Qed.
Print Assumptions C10_face_order.

Theorem C10_faceID_order : forall gid fv, (forall v, 0 <= gid v < 2 ^ 31) ->
  (forall a b, exists r, compareFaceID gid fv a b = Ok r) /\
  preorder3 (fun _ => True) (fun a b => match compareFaceID gid fv a b with Ok r => r | _ => 0 end)
    (fun a b => Permutation (map gid (fv a)) (map gid (fv b))).
Proof.
  intros gid fv G.
  assert (E : forall a b, compareFaceID gid fv a b = Ok (fcmp (map gid (fv a)) (map gid (fv b)))).
  { intros a b. unfold compareFaceID, fcmp. rewrite !map_length.
    destruct (Z.of_nat (length (fv a)) >? Z.of_nat (length (fv b))) eqn:E1; [replace (length (fv b) <? length (fv a))%nat with true by lia; auto|].
    replace (length (fv b) <? length (fv a))%nat with false by lia.
    destruct (Z.of_nat (length (fv a)) <? Z.of_nat (length (fv b))) eqn:E2; [replace (length (fv a) <? length (fv b))%nat with true by lia; auto|].
    replace (length (fv a) <? length (fv b))%nat with false by lia.
    rewrite !qsortINT_ok by (intros x Hx; apply in_map_iff in Hx; destruct Hx as [y [<- _]]; auto). auto. }
  split; [intros; eauto|]. destruct fcmp_preorder as [A [B C]]. unfold preorder3. split; [|split].
  - intros. rewrite !E by auto. apply A; auto.
  - intros a b c Na Nb Nc. rewrite !E by auto. apply B; auto.
  - intros. rewrite !E by auto. apply C; auto.
Qed.
Print Assumptions C10_faceID_order.

Example C10_face_ex : compareFaceINT (face_arr [5; 1; 9]) (face_arr [9; 5; 1]) = Ok 0 /\
  compareFaceINT (face_arr [5; 1; 9]) (face_arr [2; 7; 8]) = Ok (-1) /\ compareFaceINT (face_arr [5; 1; 9]) (face_arr [1; 2; 3; 4]) = Ok (-1).
Proof. vm_compute. auto. Qed.

(** ** Coordinates *)
Lemma norm_opp : forall m e, binary_normalize 53 1024 (- m) e false =
  match m with Z0 => S754_zero false | _ => SFopp (binary_normalize 53 1024 m e false) end.
Proof.
  assert (R : forall p e, binary_round 53 1024 true p e = SFopp (binary_round 53 1024 false p e) /\
                          binary_round 53 1024 false p e = SFopp (binary_round 53 1024 true p e)).
  { intros. unfold binary_round. destruct (shl_align _ _ _) as [mz ez]. unfold binary_round_aux.
    destruct (shr_fexp _ _ _ _ _) as [mrs' e']. destruct (shr_fexp _ _ _ _ _) as [mrs'' e''].
    destruct (shr_m mrs''); simpl; auto. destruct (Zle_bool _ _); auto. }
  intros. destruct m; simpl; auto; apply R.
Qed.

(** Subtraction in double precision changes sign when its arguments are
    exchanged (up to the sign of zero), so both tests cannot hold. *)
Lemma sub_excl : forall x y, SFltb tol12 (f64sub x y) = true -> SFltb tol12 (f64sub y x) = false.
Proof.
  assert (P : forall z, SFltb tol12 z = true -> SFltb tol12 (SFopp z) = false).
  { intros [s|s| |s m e]; unfold SFltb; simpl; intros; try discriminate; destruct s; simpl in *; try discriminate; auto. }
  intros x y. unfold f64sub.
  destruct x as [sx|sx| |sx mx ex], y as [sy|sy| |sy my ey]; cbn [SFsub]; try (unfold SFltb; simpl; discriminate).
  - destruct sx, sy; simpl; unfold SFltb; simpl; discriminate.
  - destruct sy; unfold SFltb; simpl; auto.
  - intro H. specialize (P _ H). simpl in P. rewrite negb_involutive in P. auto.
  - destruct sx; unfold SFltb; simpl; auto.
  - destruct sx, sy; simpl; unfold SFltb; simpl; auto; discriminate.
  - destruct sx; unfold SFltb; simpl; auto.
  - intro H. specialize (P _ H). auto.
  - destruct sy; unfold SFltb; simpl; auto.
  - rewrite (Z.min_comm ey ex). set (a := cond_Zopp sx _). set (b := cond_Zopp sy _).
    replace (b - a) with (- (a - b)) by lia. intro H. rewrite norm_opp. destruct (a - b); auto.
Qed.

Lemma coor_anti : forall a b, coor_loop b a = - coor_loop a b.
Proof.
  induction a; destruct b; cbn [coor_loop]; auto. rewrite IHa.
  destruct (SFltb tol12 (f64sub a s)) eqn:E1; [rewrite (sub_excl _ _ E1); auto|].
  destruct (SFltb tol12 (f64sub s a)) eqn:E2; auto.
Qed.

(** For all doubles, including infinities and NaN, exchanging the arguments
    changes the sign of the result. *)
Theorem C10_coor_antisymmetric_partial : forall a b, compareCoorDouble b a = - compareCoorDouble a b.
Proof. intros [[a0 a1] a2] [[b0 b1] b2]. apply coor_anti. Qed.
Print Assumptions C10_coor_antisymmetric_partial.

Definition pt (x y z : Z * Z) : spec_float * spec_float * spec_float :=
  let f p := match fst p with Zpos m => S754_finite false m (snd p) | _ => S754_zero false end in (f x, f y, f z).
(** (0,2,0), (0.6e-12,1,0), (1.2e-12,0,0) *)
Definition ptA := pt (0, 0) (4503599627370496, -51) (0, 0).
Definition ptB := pt (5942112188569825, -93) (4503599627370496, -52) (0, 0).
Definition ptC := pt (5942112188569825, -92) (0, 0) (0, 0).

(** The order is cyclic on three points, so it is no preorder and sorting with
    it is undefined. *)
Theorem C10_coor_order_refuted : exists a b c, compareCoorDouble a b = 1 /\ compareCoorDouble b c = 1 /\ compareCoorDouble c a = 1.
Proof. exists ptA, ptB, ptC. vm_compute. auto. Qed.
Print Assumptions C10_coor_order_refuted.

(** Nor is "equal" transitive. *)
Theorem C10_coor_equal_refuted : exists a b c, compareCoorDouble a b = 0 /\ compareCoorDouble b c = 0 /\ compareCoorDouble a c <> 0.
Proof.
  exists (pt (0, 0) (0, 0) (0, 0)), (pt (5942112188569825, -93) (0, 0) (0, 0)), (pt (5942112188569825, -92) (0, 0) (0, 0)).
  vm_compute. repeat split; auto. discriminate.
Qed.
Print Assumptions C10_coor_equal_refuted.

Example C10_coor_ex : compareCoorDouble ptA (pt (0, 0) (4503599627370496, -52) (4503599627370496, -52)) = 1.
Proof. vm_compute. auto. Qed.
