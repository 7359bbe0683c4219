(** Global IDs of faces and elements. *)
From Coq Require Import ZArith List Lia Bool Arith ZifyBool ZifyNat Permutation Sorting.Sorted Floats.SpecFloat.
From Verif Require Import Base BaseProofs ListSpec SortModel CompareModel CompareProps MeshModel AttModel AttProps TopoModel TopoSpec TopoProofs TopoProofs2 TopoProps TopoProps2 ParModel ParProps CommModel CommProofs CommProofs2 ExchModel ExchProofs ExchProofs2 LabelModel LabelProofs GidModel GidProofs GidProofs2 GidProofs3 CoorProofs GidProofs4.
Import ListNotations.
Open Scope Z_scope.

Lemma face_cmp_junk : forall a b j, nneg a -> nneg b -> compareFaceINT (map Some (Z.of_nat (length a) :: a)) (map Some ((Z.of_nat (length b) :: b) ++ j)) = Ok (fcmp a b).
Proof.
  intros a b j Na Nb. unfold compareFaceINT. rewrite map_app. cbn [map app].
  assert (R0 : forall (x : Z) l, rd (Some x :: l) 0 = Ok x) by reflexivity. rewrite !R0. cbn [bind]. unfold fcmp.
  destruct (Z.of_nat (length a) >? Z.of_nat (length b)) eqn:E1; [replace (length b <? length a)%nat with true by lia; auto|].
  replace (length b <? length a)%nat with false by lia.
  destruct (Z.of_nat (length a) <? Z.of_nat (length b)) eqn:E2; [replace (length a <? length b)%nat with true by lia; auto|].
  replace (length a <? length b)%nat with false by lia. rewrite !Nat2Z.id.
  pose proof (rdn_spec a [Some (Z.of_nat (length a))] []) as Ra. pose proof (rdn_spec b [Some (Z.of_nat (length b))] (map Some j)) as Rb.
  rewrite app_nil_r in Ra. cbn [app length] in Ra, Rb. change (Z.of_nat 1) with 1 in *. rewrite Ra, Rb. cbn [bind].
  rewrite !qsortINT_ok by auto. auto.
Qed.

(** ** Faces of volume meshes *)
(** The faces have the same vertices. *)
Definition twin_face (x : Z -> grank) (a : Z -> amesh) (p f q f' : Z) : Prop :=
  forall g, (exists v, f_vertex (a p) f v /\ g_id (gv (x p)) v = g) <-> (exists w, f_vertex (a q) f' w /\ g_id (gv (x q)) w = g).
Definition few_vertices (a : amesh) (f : ptr) : Prop := forall l, NoDup l -> (forall v, In v l -> f_vertex a f v) -> (length l <= 30)%nat.

Section Faces.
  Variables (N : nat) (x : Z -> grank) (a : Z -> amesh) (junk : Z -> Z -> Z).
  Let n := Z.of_nat N.
  Hypothesis HN : (0 < N)%nat.
  Hypothesis HP : forall p, on n p -> part (x p) (a p).
  Hypothesis HV : vertex_ids n x.
  Let fs p := g_fs (x p).
  Hypothesis HG : no_ghosts n fs (fun p => gf (x p)).
  Hypothesis HR : forall p f, on n p -> In f (fs p) -> 0 <= g_id (gf (x p)) f.
  Hypothesis HS : total n fs < 2 ^ 31 - 1.
  Hypothesis HL : forall p f, on n p -> In f (fs p) -> few_vertices (a p) f.

  Definition fv p f : list ptr := un [] (MF_Vertices (g_t (x p)) f 1 NULL).
  Lemma fv_ok : forall p f, on n p -> In f (fs p) -> MF_Vertices (g_t (x p)) f 1 NULL = Ok (fv p f) /\ lists (fv p f) (f_vertex (a p) f) /\ (forall v, In v (fv p f) -> In v (g_vs (x p))) /\ (length (fv p f) <= 30)%nat.
  Proof.
    intros p f Hp Hf. destruct (part_fs _ _ (HP p Hp)) as (_ & PF). destruct (PF f Hf) as (G & GV). destruct (loop_verts (g_t (x p)) (a p) f true (part_reach _ _ (HP p Hp)) G) as (vs & E & L). change (b2z true) with 1 in E. unfold fv. rewrite E. cbn [un]. split; auto. split. exact L. split. intros v Hv. apply GV. apply L. auto. apply (HL p f Hp Hf). apply L. intros v Hv. apply L. auto.
  Qed.
  Definition fc p : list ptr := un [] (candidates (x p) (gf (x p)) (fun f => MF_Vertices (g_t (x p)) f 1 NULL) (fs p)).
  Lemma fc_ok : forall p, on n p -> candidates (x p) (gf (x p)) (fun f => MF_Vertices (g_t (x p)) f 1 NULL) (fs p) = Ok (fc p) /\ NoDup (fc p) /\
    forall f, In f (fc p) <-> In f (fs p) /\ (g_bd (gf (x p)) f = true \/ forall v, In v (fv p f) -> shared_pt (gv (x p)) v).
  Proof.
    intros p Hp. destruct (candidates_ok (x p) (gf (x p)) (fun f => MF_Vertices (g_t (x p)) f 1 NULL) (fv p) (fs p)) as (bl & E & H). intros f Hf. apply fv_ok; auto. apply (part_fs _ _ (HP p Hp)). unfold fc. rewrite E. cbn [un]. auto.
  Qed.
  Definition fg p f : list Z := map (g_id (gv (x p))) (fv p f).
  Definition fkey p f : list Z := ZL (fv p f) :: fg p f.
  Lemma fg_ok : forall p f, on n p -> In f (fs p) -> nneg (fg p f) /\ NoDup (fg p f) /\ forall g, In g (fg p f) <-> exists v, f_vertex (a p) f v /\ g_id (gv (x p)) v = g.
  Proof.
    intros p f Hp Hf. destruct (fv_ok p f Hp Hf) as (_ & (L1 & L2) & L3 & _). unfold fg. split; [|split].
    - intros g Hg. apply in_map_iff in Hg. destruct Hg as (v & <- & Hv). apply (vi_range _ _ HV p); auto.
    - assert (G : forall l, NoDup l -> (forall v, In v l -> In v (g_vs (x p))) -> NoDup (map (g_id (gv (x p))) l)).
      { induction l as [|v l IH]; intros D I; cbn; constructor. intros C. apply in_map_iff in C. destruct C as (w & E & Hw). assert (w = v). apply (vi_inj _ _ HV p); auto. apply I; cbn; auto. apply I; cbn; auto. subst w. inversion D; auto. apply IH. inversion D; auto. intros; apply I; cbn; auto. }
      apply G; auto.
    - intros g. rewrite in_map_iff. split; intros (v & A & B); exists v; split; auto; apply L2; auto.
  Qed.
  Lemma twin_perm : forall p f q f', on n p -> on n q -> In f (fs p) -> In f' (fs q) -> Permutation (fg p f) (fg q f') <-> twin_face x a p f q f'.
  Proof.
    intros p f q f' Hp Hq Hf Hf'. destruct (fg_ok p f Hp Hf) as (_ & D & E). destruct (fg_ok q f' Hq Hf') as (_ & D' & E'). unfold twin_face. split.
    - intros P g. rewrite <- E, <- E'. split; apply Permutation_in; auto. apply Permutation_sym; auto.
    - intros T. apply NoDup_Permutation; auto. intros g. rewrite E, E'. apply T.
  Qed.
  Let info p := [0; 0; 0; ZL (g_fs (x p)); ZL (g_rs (x p)); 0; 0; 0; 0; 0].
  Lemma face_stage : exists y gi, (forall lo, protocol n lo (lo + 6) (fun p => match_ids face_cfg (junk p) n p (info p) (g_lid (x p)) (fs p) (fc p) (face_key (x p))
         (fun a b => compareFaceINT (map Some a) (map Some b))
         (fun f1 f2 => v <- MF_Vertices (g_t (x p)) f1 1 NULL ;; w <- MF_Vertices (g_t (x p)) f2 1 NULL ;;
            compareFaceID (g_id (gv (x p))) (fun f => if f =? f1 then v else w) f1 f2) (gf (x p))) (fun p => (y p, gi))) /\
    numbering n fs (twin_face x a) (fun p => gf (x p)) y /\
    (forall p f, on n p -> In f (fs p) -> g_bd (y p) f = true <-> g_bd (gf (x p)) f = true \/ (exists q f', on n q /\ q <> p /\ In f' (fs q) /\ twin_face x a p f q f')) /\
    (forall j, on n j -> rdl gi (10 * j + 4) = Ok (ZL (g_rs (x j)))).
  Proof.
    assert (FC : forall p f, on n p -> In f (fc p) -> In f (fs p)) by (intros p f Hp Hf; apply fc_ok in Hf; tauto).
    set (D := fun k => exists l, k = Z.of_nat (length l) :: l /\ nneg l).
    assert (KD : forall p f, on n p -> In f (fs p) -> fkey p f = Z.of_nat (length (fg p f)) :: fg p f) by (intros p f Hp Hf; unfold fkey, fg, ZL; rewrite map_length; auto).
    destruct (match_stage N face_cfg junk info (fun p => g_lid (x p)) fs fc fkey (fun p => face_key (x p)) (fun a b => compareFaceINT (map Some a) (map Some b))
      (fun p f1 f2 => v <- MF_Vertices (g_t (x p)) f1 1 NULL ;; w <- MF_Vertices (g_t (x p)) f2 1 NULL ;;
            compareFaceID (g_id (gv (x p))) (fun f => if f =? f1 then v else w) f1 f2) (fun p => gf (x p))
      D (fun k k' => fcmp (tl k) (tl k')) (fun k k' => Permutation (tl k) (tl k'))) as (y & gi & M1 & M2 & M3 & M4).
    - auto.
    - destruct fcmp_preorder as (A & B & E). unfold preorder3. split; [|split]; intros; [apply A|eapply B|apply E]; eauto.
    - intros p f Hp Hf. apply FC in Hf; auto. split. exists (fg p f). split. apply KD; auto. apply fg_ok; auto. unfold fkey, fg. cbn [length c_wd face_cfg]. rewrite map_length. destruct (fv_ok p f Hp Hf) as (_ & _ & _ & L). lia.
    - intros p f Hp Hf. apply FC in Hf; auto. destruct (fv_ok p f Hp Hf) as (E & _). unfold face_key. rewrite E. auto.
    - intros p f f' Hp Hf Hf'. apply FC in Hf; auto. apply FC in Hf'; auto. destruct (fv_ok p f Hp Hf) as (E & _). destruct (fv_ok p f' Hp Hf') as (E' & _). rewrite E, E'. cbn [bind]. unfold compareFaceID. rewrite Z.eqb_refl.
      assert (EQ : (if f' =? f then fv p f else fv p f') = fv p f') by (destruct (Z.eqb_spec f' f) as [Q|Q]; [subst f'|]; auto). rewrite EQ. fold (fg p f). fold (fg p f'). rewrite !qsortINT_ok by (apply fg_ok; auto). unfold fkey, fcmp. cbn [tl bind]. unfold fg at 3 4 5 6. rewrite !map_length.
      destruct (Z.of_nat (length (fv p f)) >? Z.of_nat (length (fv p f'))) eqn:E1; [replace (length (fv p f') <? length (fv p f))%nat with true by lia; auto|].
      replace (length (fv p f') <? length (fv p f))%nat with false by lia.
      destruct (Z.of_nat (length (fv p f)) <? Z.of_nat (length (fv p f'))) eqn:E2; [replace (length (fv p f) <? length (fv p f'))%nat with true by lia; auto|].
      replace (length (fv p f) <? length (fv p f'))%nat with false by lia. auto.
    - intros k k' j (l & -> & Nl) (l' & -> & Nl') L. cbn [tl]. apply face_cmp_junk; auto.
    - intros p f f' Hp Hf Hf' Q. apply FC in Hf; auto. apply FC in Hf'; auto. unfold fkey in Q. cbn [tl] in Q. apply (part_fs1 _ _ (HP p Hp) f f'); auto.
      apply twin_perm in Q; auto. unfold twin_face in Q. destruct (part_fs _ _ (HP p Hp)) as (_ & PF). destruct (PF f Hf) as (_ & GV). destruct (PF f' Hf') as (_ & GV').
      intros v. split; intros H.
      + destruct (Q (g_id (gv (x p)) v)) as (Q1 & _). destruct Q1 as (w & W1 & W2). eauto. rewrite <- (vi_inj _ _ HV p w v); auto.
      + destruct (Q (g_id (gv (x p)) v)) as (_ & Q1). destruct Q1 as (w & W1 & W2). eauto. rewrite <- (vi_inj _ _ HV p w v); auto.
    - intros p Hp. apply fc_ok; auto.
    - intros p Hp. split; auto.
    - cbn. lia.
    - intros p Hp. split. apply (part_fs _ _ (HP p Hp)). intros f Hf. apply FC; auto.
    - intros p f Hp Hf. apply HG; auto.
    - intros p f Hp Hf. apply HR; auto.
    - exact HS.
    - assert (CAND : forall p f q f', on n p -> on n q -> p <> q -> In f (fs p) -> In f' (fs q) -> twin_face x a p f q f' -> In f (fc p)).
      { intros p f q f' Hp Hq Ne Hf Hf' T. apply fc_ok; auto. split; auto. right. intros v Hv. destruct (fv_ok p f Hp Hf) as (_ & (_ & A2) & A3 & _). destruct (T (g_id (gv (x p)) v)) as (T1 & _). destruct T1 as (w & W1 & W2). exists v. split; auto. apply A2; auto. apply (vi_shared _ _ HV p v q w); auto. destruct (part_fs _ _ (HP q Hq)) as (_ & PF). apply (PF f' Hf'); auto. }
      assert (EQ : forall p f q f', on n p -> on n q -> p <> q -> In f (fs p) -> In f' (fs q) -> twins fc fkey (fun k k' => Permutation (tl k) (tl k')) p f q f' <-> twin_face x a p f q f').
      { intros p f q f' Hp Hq Ne Hf Hf'. unfold twins, fkey. cbn [tl]. rewrite twin_perm by auto. split. tauto. intros T. split. apply (CAND p f q f'); auto. split; auto. apply (CAND q f' p f); auto. intros g. symmetry. apply T. }
      exists y, gi. split. exact M1. split. apply (numbering_ext n fs _ _ _ y M2). exact EQ. split.
      + intros p f Hp Hf. rewrite M3 by auto. cbn [c_all c_min face_cfg]. split; (intros [H|H]; [auto|right]).
        * destruct H as (_ & _ & q & f' & Hq & Nq & T). assert (Hf' : In f' (fs q)) by (apply FC; auto; apply T). exists q, f'. split; auto. split; auto. split; auto. apply EQ; auto.
        * destruct H as (q & f' & Hq & Nq & Hf' & T). split; auto. split. unfold on in Hp; lia. exists q, f'. split; auto. split; auto. apply EQ; auto.
      + intros j Hj. rewrite (M4 j 4 Hj); auto. lia. cbn. lia.
  Qed.
End Faces.
