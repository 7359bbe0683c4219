(** Views, the invariant, and the operations on vertices and edges. *)
From Coq Require Import ZArith List Lia Bool Arith ZifyBool ZifyNat.
From Verif Require Import Base BaseProofs ListSpec ParModel ParProps AttModel AttProps TopoModel TopoSpec TopoProofs.
Import ListNotations.
Open Scope Z_scope.

(** ** Lists *)
Lemma mem_In : forall x l, mem x l = true <-> In x l.
Proof.
  intros. unfold mem. rewrite existsb_exists. split.
  - intros [y [H E]]. apply Z.eqb_eq in E. subst. auto.
  - intros. exists x. rewrite Z.eqb_refl. auto.
Qed.
Lemma chkn_In : forall l x y, In y (chkn l x) <-> In y l \/ y = x.
Proof.
  intros. unfold chkn. destruct (mem x l) eqn:E.
  - apply mem_In in E. split; intros; auto. destruct H; subst; auto.
  - rewrite in_app_iff. cbn. intuition.
Qed.
Lemma chkn_NoDup : forall l x, NoDup l -> NoDup (chkn l x).
Proof.
  intros. unfold chkn. destruct (mem x l) eqn:E; auto.
  apply NoDup_rev in H. rewrite <- (rev_involutive (l ++ [x])). apply NoDup_rev. rewrite rev_app_distr. cbn.
  constructor; auto. rewrite <- in_rev. intros HI. apply mem_In in HI. congruence.
Qed.
Lemma rem1_In : forall l x y, NoDup l -> (In y (remove1 x l) <-> In y l /\ y <> x).
Proof.
  induction l as [|z l IH]; intros x y ND; cbn; [tauto|]. inversion ND; subst. destruct (Z.eqb_spec z x).
  - subst. split; intros HH. split; auto. intros ->. auto. destruct HH as [[->|] ?]; auto. congruence.
  - cbn. rewrite IH by auto. intuition.
Qed.
Lemma rem1_NoDup : forall l x, NoDup l -> NoDup (remove1 x l).
Proof.
  induction l as [|z l IH]; intros x ND; cbn; auto. inversion ND; subst. destruct (z =? x); auto.
  constructor; auto. rewrite rem1_In by auto. tauto.
Qed.
Lemma index_of_some : forall l x k, index_of x l = Some k -> exists l1 l2, l = l1 ++ x :: l2 /\ length l1 = k /\ ~ In x l1.
Proof.
  induction l as [|z l IH]; intros x k H; cbn in H; [discriminate|]. destruct (Z.eqb_spec z x).
  - inversion H; subst. exists [], l. auto.
  - destruct (index_of x l) eqn:E; [|discriminate]. inversion H; subst. destruct (IH _ _ E) as (l1 & l2 & E1 & E2 & E3).
    exists (z :: l1), l2. subst. repeat split; auto. cbn. intros [|]; auto.
Qed.
Lemma index_of_none : forall l x, index_of x l = None -> ~ In x l.
Proof.
  induction l as [|z l IH]; intros x H; cbn in *; auto. destruct (Z.eqb_spec z x); [discriminate|].
  destruct (index_of x l) eqn:E; [discriminate|]. intros [|]; auto. apply (IH x); auto.
Qed.
Lemma index_of_app : forall l1 x l2, ~ In x l1 -> index_of x (l1 ++ x :: l2) = Some (length l1).
Proof.
  induction l1 as [|z l1 IH]; intros; cbn. rewrite Z.eqb_refl. auto.
  cbn in H. destruct (Z.eqb_spec z x). subst. tauto. rewrite IH by tauto. auto.
Qed.
Lemma delete_at_app : forall l1 x l2, delete_at (length l1) (l1 ++ x :: l2) = l1 ++ l2.
Proof. induction l1 as [|y l1 IH]; intros; auto. unfold delete_at in *. cbn [length app firstn skipn]. f_equal. apply IH. Qed.
Lemma replace_at_app : forall l1 x l2 y, replace_at (length l1) y (l1 ++ x :: l2) = l1 ++ y :: l2.
Proof. induction l1 as [|y l1 IH]; intros; auto. unfold replace_at in *. cbn [length app firstn skipn]. f_equal. apply IH. Qed.
Lemma insert_at_app : forall l1 l2 y, insert_at (length l1) y (l1 ++ l2) = l1 ++ y :: l2.
Proof. induction l1 as [|y l1 IH]; intros; auto. unfold insert_at in *. cbn [length app firstn skipn]. f_equal. apply IH. Qed.
Lemma nd_app : forall (A : Type) (l1 l2 : list A), NoDup (l1 ++ l2) <-> NoDup l1 /\ NoDup l2 /\ forall x, In x l1 -> ~ In x l2.
Proof.
  induction l1 as [|x l1 IH]; intros; cbn.
  - split; intros; try tauto. repeat split; auto. constructor.
  - split.
    + intros H. inversion H; subst. apply IH in H3. destruct H3 as (A1 & A2 & A3). rewrite in_app_iff in H2. repeat split; auto.
      constructor; tauto. intros y [<-|]; auto.
    + intros (A1 & A2 & A3). inversion A1; subst. constructor. rewrite in_app_iff. intros [|]; auto. apply (A3 x); auto.
      apply IH. repeat split; auto.
Qed.

(** ** Views: directed boundaries read off packed words *)
Fixpoint vw (l : list ptr) (i : Z) (g : Z -> bool) : list (ptr * bool) :=
  match l with [] => [] | x :: l' => (x, g i) :: vw l' (i + 1) g end.
Definition rg (w : list Z) : Z -> bool := fun i => Z.testbit (nth (Z.to_nat (i / 32)) w 0) (i mod 32).
Definition eview (x : erec) := (e_live x, (e_v0 x, e_v1 x)).
Definition fview (x : frec) := (f_live x, option_map (fun l => vw l 0 (Z.testbit (f_edirs x))) (f_edges x)).
Definition rview (x : rrec) := (r_live x, option_map (fun l => vw l 0 (rg (r_fdirs x))) (r_faces x)).

Lemma vw_fst : forall l i g, map fst (vw l i g) = l.
Proof. induction l; intros; cbn; auto. rewrite IHl. auto. Qed.
Lemma vw_length : forall l i g, length (vw l i g) = length l.
Proof. induction l; intros; cbn; auto. Qed.
Lemma vw_app : forall l1 l2 i g, vw (l1 ++ l2) i g = vw l1 i g ++ vw l2 (i + ZL l1) g.
Proof.
  induction l1 as [|x l1 IH]; intros; cbn [app vw].
  - f_equal. unfold ZL. cbn. lia.
  - rewrite IH. cbn. do 2 f_equal. f_equal. unfold ZL. cbn [length]. lia.
Qed.
Lemma vw_shift : forall l i c g g', (forall m, i <= m < i + ZL l -> g m = g' (m + c)) -> vw l i g = vw l (i + c) g'.
Proof.
  unfold ZL. induction l as [|x l IH]; intros i c g g' H; cbn [vw]; auto. cbn [length] in H. f_equal.
  - rewrite (H i) by lia. auto.
  - rewrite (IH (i + 1) c g g') by (intros; apply H; lia). f_equal. lia.
Qed.
Lemma vw_ext : forall l i g g', (forall m, i <= m < i + ZL l -> g m = g' m) -> vw l i g = vw l i g'.
Proof.
  intros. rewrite (vw_shift l i 0 g g'). f_equal; lia. intros. rewrite H by auto. f_equal. lia.
Qed.
Lemma vw_nth : forall l i g k, (k < length l)%nat -> nth k (vw l i g) (NULL, true) = (nth k l NULL, g (i + Z.of_nat k)).
Proof.
  induction l as [|x l IH]; intros i g k H; cbn [length] in H; [lia|]. destruct k; cbn [vw nth].
  - f_equal. f_equal. lia.
  - rewrite IH by lia. do 2 f_equal. lia.
Qed.
Lemma vw_In : forall l i g x d, In (x, d) (vw l i g) -> exists k, (k < length l)%nat /\ nth k l NULL = x /\ g (i + Z.of_nat k) = d.
Proof.
  intros. apply (In_nth _ _ (NULL, true)) in H. destruct H as (k & Hk & E). rewrite vw_length in Hk. rewrite vw_nth in E by auto.
  inversion E; subst. eauto.
Qed.

(** ** The invariant *)
Record wfa (a : amesh) : Prop := mkWfa {
  w_v : forall p, a_v a p <> None -> 1 <= p < a_next a;
  w_e : forall p, a_e a p <> None -> 1 <= p < a_next a;
  w_f : forall p, a_f a p <> None -> 1 <= p < a_next a;
  w_r : forall p, a_r a p <> None -> 1 <= p < a_next a;
  w_n : 1 <= a_next a;
  w_ends : forall e v0 v1, a_e a e = Some (true, (v0, v1)) -> (v0 = NULL \/ live_v a v0) /\ (v1 = NULL \/ live_v a v1);
  w_fe : forall f b, a_f a f = Some (true, Some b) -> Forall (fun x => live_e a (fst x)) b;
  w_rf : forall r b, a_r a r = Some (true, Some b) -> Forall (fun x => full_f a (fst x)) b;
  w_fnd : forall f l b, a_f a f = Some (l, Some b) -> NoDup (map fst b) /\ (length b <= maxfe)%nat;
  w_rnd : forall r l b, a_r a r = Some (l, Some b) -> NoDup (map fst b) /\ (length b <= maxrf)%nat }.

Record inv (t : topo) (a : amesh) : Prop := mkInv {
  i_v : forall p, option_map v_live (tvs t p) = a_v a p;
  i_e : forall p, option_map eview (tes t p) = a_e a p;
  i_f : forall p, option_map fview (tfs t p) = a_f a p;
  i_r : forall p, option_map rview (trs t p) = a_r a p;
  i_n : tnext t = a_next a;
  i_uv : forall v x, tvs t v = Some x -> NoDup (v_edges x) /\ forall e, In e (v_edges x) <-> is_end a e v;
  i_ue : forall e x, tes t e = Some x -> NoDup (e_faces x) /\ forall f, In f (e_faces x) <-> has_edge a f e;
  i_uf : forall f x, tfs t f = Some x -> forall r, r <> NULL -> (f_r0 x = r <-> has_face a r f true) /\ (f_r1 x = r <-> has_face a r f false);
  i_w : wfa a;
  i_s : forall r x l, trs t r = Some x -> r_faces x = Some l -> (length l < 32 * length (r_fdirs x))%nat }.

Definition aeq (a b : amesh) : Prop :=
  (forall p, a_v a p = a_v b p) /\ (forall p, a_e a p = a_e b p) /\ (forall p, a_f a p = a_f b p) /\
  (forall p, a_r a p = a_r b p) /\ a_next a = a_next b.
Lemma aeq_sym : forall a b, aeq a b -> aeq b a.
Proof. unfold aeq. intuition. Qed.
Lemma aeq_live_v : forall a b v, aeq a b -> live_v a v -> live_v b v.
Proof. unfold live_v. intros a b v (E & _) H. rewrite <- E. auto. Qed.
Lemma aeq_live_e : forall a b v, aeq a b -> live_e a v -> live_e b v.
Proof. unfold live_e. intros a b v (_ & E & _) [x H]. exists x. rewrite <- E. auto. Qed.
Lemma aeq_full_f : forall a b v, aeq a b -> full_f a v -> full_f b v.
Proof. unfold full_f. intros a b v (_ & _ & E & _) [x H]. exists x. rewrite <- E. auto. Qed.
Lemma aeq_end : forall a b e v, aeq a b -> is_end a e v -> is_end b e v.
Proof. intros a b e v (_ & E & _) (v0 & v1 & H & H'). exists v0, v1. rewrite <- E. auto. Qed.
Lemma aeq_edge : forall a b f e, aeq a b -> has_edge a f e -> has_edge b f e.
Proof. intros a b f e (_ & _ & E & _) (x & H & H'). exists x. rewrite <- E. auto. Qed.
Lemma aeq_face : forall a b r f d, aeq a b -> has_face a r f d -> has_face b r f d.
Proof. intros a b r f d (_ & _ & _ & E & _) (x & H & H'). exists x. rewrite <- E. auto. Qed.
Lemma aeq_wfa : forall a b, aeq a b -> wfa a -> wfa b.
Proof.
  intros a b E W. pose proof E as (Ev & Ee & Ef & Er & En). destruct W as [W1 W2 W3 W4 W5 W6 W7 W8 W9 W10]. constructor.
  - intros p. rewrite <- Ev, <- En. auto.
  - intros p. rewrite <- Ee, <- En. auto.
  - intros p. rewrite <- Ef, <- En. auto.
  - intros p. rewrite <- Er, <- En. auto.
  - lia.
  - intros e v0 v1 H. rewrite <- Ee in H. destruct (W6 _ _ _ H) as [[|] [|]]; split; auto; right; eapply aeq_live_v; eauto.
  - intros f x H. rewrite <- Ef in H. eapply Forall_impl; [|eauto]. intros. eapply aeq_live_e; eauto.
  - intros f x H. rewrite <- Er in H. eapply Forall_impl; [|eauto]. intros. eapply aeq_full_f; eauto.
  - intros f l x H. rewrite <- Ef in H. eauto.
  - intros f l x H. rewrite <- Er in H. eauto.
Qed.
Lemma inv_ext : forall t a b, aeq a b -> inv t a -> inv t b.
Proof.
  intros t a b E I. pose proof E as (Ev & Ee & Ef & Er & En). pose proof (aeq_sym _ _ E) as E'. destruct I. constructor; auto.
  - intros. rewrite <- Ev. auto.
  - intros. rewrite <- Ee. auto.
  - intros. rewrite <- Ef. auto.
  - intros. rewrite <- Er. auto.
  - congruence.
  - intros v x H. destruct (i_uv0 _ _ H) as [A B]. split; auto. intros. rewrite B. split; intros; eapply aeq_end; eauto.
  - intros v x H. destruct (i_ue0 _ _ H) as [A B]. split; auto. intros. rewrite B. split; intros; eapply aeq_edge; eauto.
  - intros v x H r Hr. destruct (i_uf0 _ _ H r Hr) as [A B]. rewrite A, B. split; split; intros; eapply aeq_face; eauto.
  - eapply aeq_wfa; eauto.
Qed.

Lemma upd_same : forall A (m : ptr -> A) p x, upd m p x p = x.
Proof. intros. unfold upd. rewrite Z.eqb_refl. auto. Qed.
Lemma upd_other : forall A (m : ptr -> A) p x q, q <> p -> upd m p x q = m q.
Proof. intros. unfold upd. destruct (Z.eqb_spec q p); congruence. Qed.
Lemma zupd_is_upd : forall A (m : ptr -> A) p x, zupd m p x = upd m p x.
Proof. auto. Qed.

(** What the abstract side knows about a record. *)
Lemma get_v : forall t a p, inv t a -> a_v a p <> None -> exists x, tvs t p = Some x /\ a_v a p = Some (v_live x).
Proof. intros t a p I H. rewrite <- (i_v _ _ I) in *. destruct (tvs t p); cbn in *; eauto. congruence. Qed.
Lemma get_e : forall t a p, inv t a -> a_e a p <> None -> exists x, tes t p = Some x /\ a_e a p = Some (eview x).
Proof. intros t a p I H. rewrite <- (i_e _ _ I) in *. destruct (tes t p); cbn in *; eauto. congruence. Qed.
Lemma get_f : forall t a p, inv t a -> a_f a p <> None -> exists x, tfs t p = Some x /\ a_f a p = Some (fview x).
Proof. intros t a p I H. rewrite <- (i_f _ _ I) in *. destruct (tfs t p); cbn in *; eauto. congruence. Qed.
Lemma get_r : forall t a p, inv t a -> a_r a p <> None -> exists x, trs t p = Some x /\ a_r a p = Some (rview x).
Proof. intros t a p I H. rewrite <- (i_r _ _ I) in *. destruct (trs t p); cbn in *; eauto. congruence. Qed.

(** ** Histories of the model: the calls behind the operations *)
Definition dirz (b : list (ptr * bool)) : list Z := map (fun x => b2z (snd x)) b.
Definition tstep (t : topo) (o : top) : result topo :=
  match o with
  | TNewV => Ok (fst (MV_New t)) | TNewE => Ok (fst (ME_New t)) | TNewF => Ok (fst (MF_New t)) | TNewR => Ok (fst (MR_New t))
  | TSetVertex e i v => ME_Set_Vertex t e (b2z i) v
  | TReplaceVertex e ov nv => ME_Replace_Vertex t e ov nv
  | TSetEdges f b => MF_Set_Edges t f (Z.of_nat (length b)) (map fst b) (dirz b)
  | TRemEdge f e => MF_Rem_Edge t f e
  | TReplaceEdges f i n nd rv => MF_Replace_Edges_i t f (Z.of_nat n) (Z.of_nat i) (if rv then rev (map fst nd) else map fst nd)
  | TRevEdgeDir f e => MF_Rev_EdgeDir t f e
  | TSetFaces r b => MR_Set_Faces t r (Z.of_nat (length b)) (map fst b) (dirz b)
  | TRemFace r f => MR_Rem_Face t r f
  | TReplaceFace r i n => MR_Replace_Face_i t r (Z.of_nat i) (fst n) (b2z (snd n))
  | TReplaceFaces r olds nus => MR_Replace_Faces t r olds (map fst nus) (dirz nus)
  | TSetFaceDir r f d => MR_Set_FaceDir t r f (b2z d)
  | TRevFaceDir r f => MR_Rev_FaceDir t r f
  | TDelV v k => MV_Delete t v k | TDelE e k => ME_Delete t e k | TDelF f k => MF_Delete t f k | TDelR r k => MR_Delete t r k
  | TResV v => MV_Restore t v | TResE e => ME_Restore t e | TResF f => MF_Restore t f | TResR r => MR_Restore t r
  | TUpdateType r => MR_Update_ElementType t r
  end.
Fixpoint trun (t : topo) (ops : list top) : result topo :=
  match ops with [] => Ok t | o :: ops' => t' <- tstep t o ;; trun t' ops' end.

(** ** New entities *)
Ltac ra := cbn [tvs tes tfs trs tnext fresh putv pute putf putr bump with_v with_e with_f with_r a_v a_e a_f a_r a_next].
Ltac onz p q := destruct (Z.eqb_spec p q); [subst|].

Lemma fresh_none : forall t a, inv t a -> tvs t (tnext t) = None /\ tes t (tnext t) = None /\ tfs t (tnext t) = None /\ trs t (tnext t) = None.
Proof.
  intros t a I. pose proof (i_w _ _ I) as W. rewrite (i_n _ _ I).
  assert (Hv := w_v _ W (a_next a)). assert (He := w_e _ W (a_next a)). assert (Hf := w_f _ W (a_next a)). assert (Hr := w_r _ W (a_next a)).
  rewrite <- (i_v _ _ I) in Hv. rewrite <- (i_e _ _ I) in He. rewrite <- (i_f _ _ I) in Hf. rewrite <- (i_r _ _ I) in Hr.
  repeat split.
  - destruct (tvs t (a_next a)); auto. exfalso. cbn in Hv. assert (1 <= a_next a < a_next a) by (apply Hv; discriminate). lia.
  - destruct (tes t (a_next a)); auto. exfalso. cbn in He. assert (1 <= a_next a < a_next a) by (apply He; discriminate). lia.
  - destruct (tfs t (a_next a)); auto. exfalso. cbn in Hf. assert (1 <= a_next a < a_next a) by (apply Hf; discriminate). lia.
  - destruct (trs t (a_next a)); auto. exfalso. cbn in Hr. assert (1 <= a_next a < a_next a) by (apply Hr; discriminate). lia.
Qed.

Lemma step_new_v : forall t a, inv t a -> inv (fst (MV_New t)) (astep a TNewV).
Proof.
  intros t a I. destruct (fresh_none _ _ I) as (F & _). pose proof I as [I1 I2 I3 I4 I5 I6 I7 I8 I9 I10]. pose proof I9 as [W1 W2 W3 W4 W5 W6 W7 W8 W9 W10].
  rewrite I5 in F. assert (FA : a_v a (a_next a) = None) by (rewrite <- I1, F; auto).
  cbn [MV_New fst astep]. constructor; ra; auto.
  - intros p. rewrite I5. unfold zupd, upd. destruct (p =? a_next a); auto.
  - lia.
  - intros v x. rewrite I5. unfold zupd. onz v (a_next a); [|apply I6]. intros H. inversion H; subst. cbn. split. constructor.
    intros e. split; [tauto|]. intros (v0 & v1 & Ha & Hv). cbn in Ha. exfalso. destruct (W6 _ _ _ Ha) as [A B].
    unfold live_v, NULL in *. destruct Hv as [Hv|Hv]; rewrite Hv in *; destruct A, B; try congruence; lia.
  - constructor; ra; auto; try (intros p Hp; first [apply W2 in Hp|apply W3 in Hp|apply W4 in Hp]; lia); try lia.
    + intros p. unfold upd. onz p (a_next a); intros Hp. lia. apply W1 in Hp. lia.
    + intros e v0 v1 H. destruct (W6 _ _ _ H) as [A B]. unfold live_v, upd in *. cbn.
      split; [destruct A as [E|E]|destruct B as [E|E]]; auto; right; rewrite E; destruct (_ =? _); auto.
Qed.

Lemma step_new_e : forall t a, inv t a -> inv (fst (ME_New t)) (astep a TNewE).
Proof.
  intros t a I. destruct (fresh_none _ _ I) as (_ & F & _). pose proof I as [I1 I2 I3 I4 I5 I6 I7 I8 I9 I10]. pose proof I9 as [W1 W2 W3 W4 W5 W6 W7 W8 W9 W10].
  rewrite I5 in F. assert (FA : a_e a (a_next a) = None) by (rewrite <- I2, F; auto).
  assert (L : forall e, live_e a e -> live_e (astep a TNewE) e).
  { intros e [x H]. exists x. cbn. unfold upd. onz e (a_next a); congruence. }
  cbn [ME_New fst astep]. constructor; ra; auto.
  - intros p. rewrite I5. unfold zupd, upd. destruct (p =? a_next a); auto.
  - lia.
  - intros v x H. destruct (I6 _ _ H) as [A B]. split; auto. intros e. rewrite B. unfold is_end. ra. unfold upd.
    onz e (a_next a); [|tauto]. rewrite FA. split; intros (v0 & v1 & E & Hv). congruence. inversion E; subst.
    exfalso. assert (1 <= v < a_next a). { apply W1. rewrite <- I1, H. discriminate. } unfold NULL in *. lia.
  - intros e x. rewrite I5. unfold zupd. onz e (a_next a); [|apply I7]. intros H. inversion H; subst. cbn. split. constructor.
    intros f. split; [tauto|]. intros (b & Hb & HI). cbn in Hb. exfalso. pose proof (W7 _ _ Hb) as W.
    apply in_map_iff in HI. destruct HI as ([q d] & Eq & Hq). cbn in Eq. subst q. rewrite Forall_forall in W. destruct (W _ Hq) as [y Hy]. cbn in Hy. congruence.
  - constructor; ra; auto; try (intros p Hp; first [apply W1 in Hp|apply W3 in Hp|apply W4 in Hp]; lia); try lia.
    + intros p. unfold upd. onz p (a_next a); intros Hp. lia. apply W2 in Hp. lia.
    + intros e v0 v1. unfold upd. onz e (a_next a). intros H; inversion H; subst; auto. intros H. apply (W6 _ _ _ H).
    + intros f b H. eapply Forall_impl; [|eauto]. intros x. apply L.
Qed.

Lemma step_new_f : forall t a, inv t a -> inv (fst (MF_New t)) (astep a TNewF).
Proof.
  intros t a I. destruct (fresh_none _ _ I) as (_ & _ & F & _). pose proof I as [I1 I2 I3 I4 I5 I6 I7 I8 I9 I10]. pose proof I9 as [W1 W2 W3 W4 W5 W6 W7 W8 W9 W10].
  rewrite I5 in F. assert (FA : a_f a (a_next a) = None) by (rewrite <- I3, F; auto).
  assert (L : forall e, full_f a e -> full_f (astep a TNewF) e).
  { intros e [x H]. exists x. cbn. unfold upd. onz e (a_next a); congruence. }
  cbn [MF_New fst astep]. constructor; ra; auto.
  - intros p. rewrite I5. unfold zupd, upd. destruct (p =? a_next a); auto.
  - lia.
  - intros v x H. destruct (I7 _ _ H) as [A B]. split; auto. intros f. rewrite B. unfold has_edge. ra. unfold upd.
    onz f (a_next a); [|tauto]. rewrite FA. split; intros (b & E & Hv); congruence.
  - intros e x. rewrite I5. unfold zupd. onz e (a_next a); [|apply I8]. intros H. inversion H; subst. cbn.
    assert (N : forall r d, ~ has_face a r (a_next a) d).
    { intros r d (b & Hb & HI). pose proof (W8 _ _ Hb) as W. rewrite Forall_forall in W. destruct (W _ HI) as [y Hy]. cbn in Hy. congruence. }
    intros r Hr. split; split; intros; try congruence; exfalso; eapply N; eauto.
  - constructor; ra; auto; try (intros p Hp; first [apply W1 in Hp|apply W2 in Hp|apply W4 in Hp]; lia); try lia.
    + intros p. unfold upd. onz p (a_next a); intros Hp. lia. apply W3 in Hp. lia.
    + intros e b. unfold upd. onz e (a_next a). intros H; inversion H; subst; auto. intros H. apply (W7 _ _ H).
    + intros f b H. eapply Forall_impl; [|eauto]. intros x. apply L.
    + intros e l b. unfold upd. onz e (a_next a). intros H; inversion H; subst; auto. intros H. apply (W9 _ _ _ H).
Qed.

Lemma step_new_r : forall t a, inv t a -> inv (fst (MR_New t)) (astep a TNewR).
Proof.
  intros t a I. destruct (fresh_none _ _ I) as (_ & _ & _ & F). pose proof I as [I1 I2 I3 I4 I5 I6 I7 I8 I9 I10]. pose proof I9 as [W1 W2 W3 W4 W5 W6 W7 W8 W9 W10].
  rewrite I5 in F. assert (FA : a_r a (a_next a) = None) by (rewrite <- I4, F; auto).
  cbn [MR_New fst astep]. constructor; ra; auto.
  - intros p. rewrite I5. unfold zupd, upd. destruct (p =? a_next a); auto.
  - lia.
  - intros v x H r Hr. destruct (I8 _ _ H r Hr) as [A B]. rewrite A, B. unfold has_face. ra. unfold upd.
    onz r (a_next a); [|tauto]. rewrite FA. split; split; intros (b & E & Hv); congruence.
  - constructor; ra; auto; try (intros p Hp; first [apply W1 in Hp|apply W2 in Hp|apply W3 in Hp]; lia); try lia.
    + intros p. unfold upd. onz p (a_next a); intros Hp. lia. apply W4 in Hp. lia.
    + intros e b. unfold upd. onz e (a_next a). intros H; inversion H; subst; auto. intros H. apply (W8 _ _ H).
    + intros e l b. unfold upd. onz e (a_next a). intros H; inversion H; subst; auto. intros H. apply (W10 _ _ _ H).
  - intros r x l. rewrite I5. unfold zupd. onz r (a_next a); [|apply I10]. intros H. inversion H; subst. cbn. discriminate.
Qed.

(** ** Vertices and edges *)
Lemma is_end_nonnull : forall t a v x, inv t a -> tvs t v = Some x -> v <> NULL.
Proof. intros t a v x I H. assert (1 <= v < a_next a). { apply (w_v _ (i_w _ _ I)). rewrite <- (i_v _ _ I), H. discriminate. } unfold NULL. lia. Qed.

Lemma wfa_e : forall a e o, wfa a -> a_e a e <> None ->
  (forall f, has_edge a f e -> exists z, o = Some (true, z)) ->
  (forall v0 v1, o = Some (true, (v0, v1)) -> (v0 = NULL \/ live_v a v0) /\ (v1 = NULL \/ live_v a v1)) ->
  wfa (with_e a (upd (a_e a) e o)).
Proof.
  intros a e o W He Hf Hv. pose proof W as [W1 W2 W3 W4 W5 W6 W7 W8 W9 W10]. constructor; ra; auto.
  - intros p. unfold upd. onz p e; auto.
  - intros p v0 v1. unfold upd. onz p e. apply Hv. apply W6.
  - intros f b H. pose proof (W7 _ _ H) as L. rewrite Forall_forall in *. intros [q d] Hq. specialize (L _ Hq). cbn [fst] in *.
    unfold live_e in *. ra. unfold upd. onz q e; auto. apply (Hf f). exists b. split; auto. apply in_map_iff. exists (e, d). auto.
Qed.
Lemma inv_e : forall t t' a e x o h, inv t a -> tes t e = Some x ->
  (forall y, o = Some y -> e_faces y = e_faces x) ->
  tes t' = zupd (tes t) e o -> tfs t' = tfs t -> trs t' = trs t -> tnext t' = tnext t ->
  (forall p, tvs t' p = option_map (h p) (tvs t p)) -> (forall p z, v_live (h p z) = v_live z) ->
  let a' := with_e a (upd (a_e a) e (option_map eview o)) in
  wfa a' ->
  (forall p z, tvs t p = Some z -> NoDup (v_edges (h p z)) /\ forall e', In e' (v_edges (h p z)) <-> is_end a' e' p) ->
  inv t' a'.
Proof.
  intros t t' a e x o h I Hx Ho Et Ef Er En Ev Hl a' W HU. pose proof I as [I1 I2 I3 I4 I5 I6 I7 I8 I9 I10]. unfold a' in *. constructor; ra; auto.
  - intros p. rewrite Ev, <- I1. destruct (tvs t p); cbn; auto. rewrite Hl. auto.
  - intros p. rewrite Et. unfold zupd, upd. onz p e; auto.
  - rewrite Ef. auto.
  - rewrite Er. auto.
  - rewrite En. auto.
  - intros v y Hy. rewrite Ev in Hy. destruct (tvs t v) eqn:E; cbn in Hy; [|discriminate]. inversion Hy; subst. apply HU. auto.
  - intros p y. rewrite Et. unfold zupd. onz p e; [|apply I7]. intros ->. rewrite (Ho y eq_refl). apply (I7 _ _ Hx).
  - rewrite Ef. apply I8.
  - rewrite Er. auto.
Qed.

Lemma step_set_vertex : forall t a e i v, inv t a -> tpre a (TSetVertex e i v) ->
  exists t', tstep t (TSetVertex e i v) = Ok t' /\ inv t' (astep a (TSetVertex e i v)).
Proof.
  intros t a e i v I (Hv & v0 & v1 & He & Hn). destruct (get_e t a e I ltac:(congruence)) as (x & Ex & Ax).
  rewrite He in Ax. inversion Ax; subst v0 v1. clear Ax.
  destruct (get_v t a v I ltac:(unfold live_v in Hv; congruence)) as (y & Ey & Ay).
  assert (HE : exists x', (if b2z i =? 0 then Ok (mkE (e_live x) v (e_v1 x) (e_faces x))
        else if b2z i =? 1 then Ok (mkE (e_live x) (e_v0 x) v (e_faces x)) else Undef) = Ok x' /\
        eview x' = (true, if i then (e_v0 x, v) else (v, e_v1 x)) /\ e_faces x' = e_faces x).
  { unfold eview. rewrite <- H0. destruct i; cbn; eexists; repeat split. }
  destruct HE as (x' & Ex' & Vx' & Fx').
  cbn [tstep]. unfold ME_Set_Vertex, gete. rewrite Ex. cbn [bind]. rewrite Ex'. cbn [bind]. unfold MV_Add_Edge, getv. ra. rewrite Ey. cbn [bind].
  eexists. split; eauto. cbn [astep]. rewrite He.
  replace (Some (true, if i then (e_v0 x, v) else (v, e_v1 x))) with (option_map eview (Some x')) by (cbn; rewrite Vx'; auto).
  pose proof (i_w _ _ I) as W. destruct (w_ends _ W _ _ _ He) as [WA WB].
  eapply (inv_e t _ a e x (Some x') (fun p z => if p =? v then set_vedges z (chkn (v_edges z) e) else z)); eauto; ra; auto.
  - intros y' Hy. inversion Hy; subst. auto.
  - intros p. unfold zupd. onz p v. rewrite Ey. auto. destruct (tvs t p); auto.
  - intros p z. destruct (p =? v); auto.
  - apply wfa_e; auto. congruence. { cbn. rewrite Vx'. eauto. }
    intros v0 v1 H. cbn in H. rewrite Vx' in H. destruct i; inversion H; subst; auto.
  - intros p z Hz. pose proof (is_end_nonnull _ _ _ _ I Hz) as Np. destruct (i_uv _ _ I _ _ Hz) as [A B].
    assert (K : forall e', is_end (with_e a (upd (a_e a) e (option_map eview (Some x')))) e' p <-> is_end a e' p \/ (e' = e /\ p = v)).
    { intros e'. unfold is_end. ra. unfold upd. onz e' e.
      - cbn [option_map]. rewrite Vx', He. destruct i; cbn in Hn; split.
        + intros (u0 & u1 & E & [E1|E1]); inversion E; subst; auto; left; eauto 6.
        + intros [(u0 & u1 & E & [E1|E1])|[_ ->]]; try (inversion E; subst; clear E); try congruence; eauto 6.
        + intros (u0 & u1 & E & [E1|E1]); inversion E; subst; auto; left; eauto 6.
        + intros [(u0 & u1 & E & [E1|E1])|[_ ->]]; try (inversion E; subst; clear E); try congruence; eauto 6.
      - split; [tauto|]. intros [|[]]; tauto. }
    onz p v; cbn [v_edges set_vedges].
    + split. apply chkn_NoDup; auto. intros e'. rewrite chkn_In, K, B. tauto.
    + split; auto. intros e'. rewrite K, B. tauto.
Qed.

Lemma step_replace_vertex : forall t a e ov nv, inv t a -> tpre a (TReplaceVertex e ov nv) ->
  exists t', tstep t (TReplaceVertex e ov nv) = Ok t' /\ inv t' (astep a (TReplaceVertex e ov nv)).
Proof.
  intros t a e ov nv I (Hnv & Hon & Hne & v0 & v1 & He & Hd). destruct (get_e t a e I ltac:(congruence)) as (x & Ex & Ax).
  rewrite He in Ax. inversion Ax; subst v0 v1. clear Ax. rename H0 into Hl.
  destruct (get_v t a nv I ltac:(unfold live_v in Hnv; congruence)) as (y & Ey & Ay).
  pose proof (i_w _ _ I) as W. destruct (w_ends _ W _ _ _ He) as [WA WB].
  assert (OE : e_v0 x = ov \/ e_v1 x = ov \/ (e_v0 x <> ov /\ e_v1 x <> ov)) by lia.
  cbn [tstep astep]. unfold ME_Replace_Vertex, gete. rewrite Ex. cbn [bind]. rewrite He.
  destruct OE as [OE|OE]; [|destruct OE as [OE|[O0 O1]]].
  3: { replace (e_v0 x =? ov) with false by lia. replace (e_v1 x =? ov) with false by lia. exists t. split; auto.
       eapply inv_ext; [|eauto]. unfold aeq. ra. repeat split; auto. intros p. unfold upd. onz p e; auto. }
  - (* first end *)
    destruct WA as [WA|WA]; [congruence|]. destruct (get_v t a ov I) as (z & Ez & Az). { rewrite <- OE. unfold live_v in WA. congruence. }
    replace (e_v0 x =? ov) with true by lia. replace (e_v1 x =? ov) with false by lia.
    unfold MV_Add_Edge, MV_Rem_Edge, getv. ra. rewrite Ey. cbn [bind]. ra. rewrite AttProps.zupd_other by auto. rewrite Ez. cbn [bind].
    eexists. split; eauto.
    set (x' := mkE (e_live x) nv (e_v1 x) (e_faces x)).
    replace (Some (true, (nv, e_v1 x))) with (option_map eview (Some x')) by (cbn; unfold eview; cbn; rewrite <- Hl; auto).
    eapply (inv_e t _ a e x (Some x') (fun p z => if p =? ov then set_vedges z (remove1 e (v_edges z)) else if p =? nv then set_vedges z (chkn (v_edges z) e) else z)); eauto; ra; auto.
    + intros y' Hy. inversion Hy; subst. auto.
    + intros p. unfold zupd. onz p ov. rewrite Ez. auto. onz p nv. rewrite Ey. auto. destruct (tvs t p); auto.
    + intros p u. destruct (p =? ov), (p =? nv); auto.
    + apply wfa_e; auto. congruence. { unfold x', eview. cbn. rewrite <- Hl. eauto. }
      intros u0 u1 H. unfold x', eview in H. cbn in H. inversion H; subst; auto.
    + intros p u Hu. destruct (i_uv _ _ I _ _ Hu) as [A B].
      assert (K : forall e', is_end (with_e a (upd (a_e a) e (option_map eview (Some x')))) e' p <-> (is_end a e' p /\ ~ (e' = e /\ p = ov)) \/ (e' = e /\ p = nv)).
      { intros e'. unfold is_end. ra. unfold upd. onz e' e.
        - unfold x', eview. cbn [option_map e_live e_v0 e_v1]. rewrite He, <- Hl. split.
          + intros (u0 & u1 & E & [E1|E1]); inversion E; subst; auto. left. split; eauto 6. intros [_ HH]. congruence.
          + intros [[(u0 & u1 & E & [E1|E1]) N]|[_ ->]]; try (inversion E; subst; clear E); eauto 6. exfalso. apply N. auto.
        - split; [|intros [|[]]; tauto]. intros H. left. split; auto. intros []; auto. }
      onz p ov; cbn [v_edges set_vedges]; [|onz p nv; cbn [v_edges set_vedges]].
      * split. apply rem1_NoDup; auto. intros e'. rewrite rem1_In, K, B by auto. split; intros HH.
        left. tauto. destruct HH as [HH|[_ HH]]; [|congruence]. tauto.
      * split. apply chkn_NoDup; auto. intros e'. rewrite chkn_In, K, B. split; intros HH; [|tauto].
        destruct HH as [HH| ->]; auto. left. split; auto. intros []; auto.
      * split; auto. intros e'. rewrite K, B. tauto.
  - (* second end *)
    destruct WB as [WB|WB]; [congruence|]. destruct (get_v t a ov I) as (z & Ez & Az). { rewrite <- OE. unfold live_v in WB. congruence. }
    replace (e_v1 x =? ov) with true by lia. replace (e_v0 x =? ov) with false by lia.
    unfold MV_Add_Edge, MV_Rem_Edge, getv. ra. rewrite Ey. cbn [bind]. ra. rewrite AttProps.zupd_other by auto. rewrite Ez. cbn [bind].
    eexists. split; eauto.
    set (x' := mkE (e_live x) (e_v0 x) nv (e_faces x)).
    replace (Some (true, (e_v0 x, nv))) with (option_map eview (Some x')) by (cbn; unfold eview; cbn; rewrite <- Hl; auto).
    eapply (inv_e t _ a e x (Some x') (fun p z => if p =? ov then set_vedges z (remove1 e (v_edges z)) else if p =? nv then set_vedges z (chkn (v_edges z) e) else z)); eauto; ra; auto.
    + intros y' Hy. inversion Hy; subst. auto.
    + intros p. unfold zupd. onz p ov. rewrite Ez. auto. onz p nv. rewrite Ey. auto. destruct (tvs t p); auto.
    + intros p u. destruct (p =? ov), (p =? nv); auto.
    + apply wfa_e; auto. congruence. { unfold x', eview. cbn. rewrite <- Hl. eauto. }
      intros u0 u1 H. unfold x', eview in H. cbn in H. inversion H; subst; auto.
    + intros p u Hu. destruct (i_uv _ _ I _ _ Hu) as [A B].
      assert (K : forall e', is_end (with_e a (upd (a_e a) e (option_map eview (Some x')))) e' p <-> (is_end a e' p /\ ~ (e' = e /\ p = ov)) \/ (e' = e /\ p = nv)).
      { intros e'. unfold is_end. ra. unfold upd. onz e' e.
        - unfold x', eview. cbn [option_map e_live e_v0 e_v1]. rewrite He, <- Hl. split.
          + intros (u0 & u1 & E & [E1|E1]); inversion E; subst; auto. left. split; eauto 6. intros [_ HH]. congruence.
          + intros [[(u0 & u1 & E & [E1|E1]) N]|[_ ->]]; try (inversion E; subst; clear E); eauto 6. exfalso. apply N. auto.
        - split; [|intros [|[]]; tauto]. intros H. left. split; auto. intros []; auto. }
      onz p ov; cbn [v_edges set_vedges]; [|onz p nv; cbn [v_edges set_vedges]].
      * split. apply rem1_NoDup; auto. intros e'. rewrite rem1_In, K, B by auto. split; intros HH.
        left. tauto. destruct HH as [HH|[_ HH]]; [|congruence]. tauto.
      * split. apply chkn_NoDup; auto. intros e'. rewrite chkn_In, K, B. split; intros HH; [|tauto].
        destruct HH as [HH| ->]; auto. left. split; auto. intros []; auto.
      * split; auto. intros e'. rewrite K, B. tauto.
Qed.

(** Removing an edge from the list of a vertex that may be NULL. *)
Definition rem_at (u e : ptr) (p : ptr) (z : vrec) : vrec := if p =? u then set_vedges z (remove1 e (v_edges z)) else z.
Lemma rem_at_ND : forall u e p z, NoDup (v_edges z) -> NoDup (v_edges (rem_at u e p z)).
Proof. intros u e p z H. unfold rem_at. destruct (p =? u); auto. cbn. apply rem1_NoDup. auto. Qed.
Lemma rem_at_In : forall u e p z e', NoDup (v_edges z) -> (In e' (v_edges (rem_at u e p z)) <-> In e' (v_edges z) /\ ~ (e' = e /\ p = u)).
Proof.
  intros u e p z e' H. unfold rem_at. destruct (Z.eqb_spec p u); [|tauto]. cbn. rewrite rem1_In by auto. tauto.
Qed.
Lemma opt_rem : forall t u e, (u = NULL \/ exists z, tvs t u = Some z) -> tvs t NULL = None ->
  exists t', (if u =? NULL then Ok t else MV_Rem_Edge t u e) = Ok t' /\ tes t' = tes t /\ tfs t' = tfs t /\ trs t' = trs t /\ tnext t' = tnext t /\
    forall p, tvs t' p = option_map (rem_at u e p) (tvs t p).
Proof.
  intros t u e H HN. onz u NULL.
  - exists t. repeat split; auto. intros p. unfold rem_at. onz p NULL. rewrite HN. auto. destruct (tvs t p); auto.
  - destruct H as [|[z Hz]]; [congruence|]. unfold MV_Rem_Edge, getv. rewrite Hz. cbn [bind]. eexists. split; eauto. ra. repeat split; auto.
    intros p. unfold zupd, rem_at. onz p u. rewrite Hz. auto. destruct (tvs t p); auto.
Qed.
Lemma null_v : forall t a, inv t a -> tvs t NULL = None.
Proof. intros t a I. destruct (tvs t NULL) eqn:E; auto. exfalso. eapply is_end_nonnull; eauto. Qed.

Lemma step_del_e : forall t a e k, inv t a -> tpre a (TDelE e k) ->
  exists t', tstep t (TDelE e k) = Ok t' /\ inv t' (astep a (TDelE e k)).
Proof.
  intros t a e k I (He & Hf). destruct (get_e t a e I He) as (x & Ex & Ax). pose proof (i_w _ _ I) as W.
  cbn [tstep astep]. unfold ME_Delete, gete. rewrite Ex. cbn [bind]. unfold kill.
  set (o := if k then Some (mkE false (e_v0 x) (e_v1 x) (e_faces x)) else None).
  assert (Eo : (if k then match a_e a e with Some (_, y) => Some (false, y) | None => None end else None) = option_map eview o).
  { rewrite Ax. unfold o, eview. destruct k; auto. }
  rewrite Eo. assert (Ho : forall y, o = Some y -> e_faces y = e_faces x). { unfold o. intros y. destruct k; [|discriminate]. intros H. inversion H; subst. auto. }
  assert (Wn : wfa (with_e a (upd (a_e a) e (option_map eview o)))).
  { apply wfa_e; auto. - intros f HF. exfalso. eapply Hf; eauto. destruct HF as (b & Hb & HI). pose proof (w_fe _ W _ _ Hb) as L. rewrite Forall_forall in L.
      apply in_map_iff in HI. destruct HI as (q & <- & Hq). apply L. auto.
    - intros v0 v1. unfold o, eview. destruct k; cbn; discriminate. }
  assert (K : forall e' p, is_end (with_e a (upd (a_e a) e (option_map eview o))) e' p <-> is_end a e' p /\ e' <> e).
  { intros e' p. unfold is_end. ra. unfold upd. onz e' e; [|tauto]. unfold o, eview. split; [|tauto]. intros (u0 & u1 & E & _). destruct k; cbn in E; discriminate. }
  assert (Fin : forall t2, tes t2 = tes t -> tfs t2 = tfs t -> trs t2 = trs t -> tnext t2 = tnext t ->
    (exists h, (forall p, tvs t2 p = option_map (h p) (tvs t p)) /\ (forall p z, v_live (h p z) = v_live z) /\
      forall p z, tvs t p = Some z -> NoDup (v_edges (h p z)) /\ forall e', In e' (v_edges (h p z)) <-> is_end a e' p /\ e' <> e) ->
    exists t', (if k then Ok (pute t2 e (Some (mkE false (e_v0 x) (e_v1 x) (e_faces x)))) else Ok (pute t2 e None)) = Ok t' /\
      inv t' (with_e a (upd (a_e a) e (option_map eview o)))).
  { intros t2 E1 E2 E3 E4 (h & H1 & H2 & H3). exists (pute t2 e o). split. unfold o. destruct k; auto.
    eapply inv_e with (x := x) (h := h); eauto; ra; auto. rewrite E1. auto. intros p z Hz. destruct (H3 p z Hz) as [A B]. split; auto. intros. rewrite B, K. tauto. }
  destruct (e_live x) eqn:El.
  - assert (He' : a_e a e = Some (true, (e_v0 x, e_v1 x))) by (rewrite Ax; unfold eview; rewrite El; auto).
    destruct (w_ends _ W _ _ _ He') as [WA WB]. pose proof (null_v _ _ I) as Nv.
    destruct (opt_rem t (e_v0 x) e) as (t1 & E1 & A1 & A2 & A3 & A4 & A5); auto.
    { destruct WA as [|WA]; auto. right. destruct (get_v t a (e_v0 x) I) as (z & Hz & _); eauto. unfold live_v in WA. congruence. }
    rewrite E1. cbn [bind].
    destruct (opt_rem t1 (e_v1 x) e) as (t2 & E2 & B1 & B2 & B3 & B4 & B5).
    { destruct WB as [|WB]; auto. right. destruct (get_v t a (e_v1 x) I) as (z & Hz & _). unfold live_v in WB; congruence. rewrite A5, Hz. cbn. eauto. }
    { rewrite A5, Nv. auto. }
    rewrite E2. cbn [bind]. apply Fin; try congruence.
    exists (fun p z => rem_at (e_v1 x) e p (rem_at (e_v0 x) e p z)). repeat split.
    + intros p. rewrite B5, A5. destruct (tvs t p); auto.
    + intros p z. unfold rem_at. destruct (p =? e_v1 x), (p =? e_v0 x); auto.
    + destruct (i_uv _ _ I _ _ H) as [A B]. apply rem_at_ND, rem_at_ND. auto.
    + destruct (i_uv _ _ I _ _ H) as [A B]. apply B. apply rem_at_In in H0; [|apply rem_at_ND; auto]. destruct H0 as [H0 _]. apply rem_at_In in H0; tauto.
    + intros ->. destruct (i_uv _ _ I _ _ H) as [A B]. apply rem_at_In in H0; [|apply rem_at_ND; auto]. destruct H0 as [H0 N1]. apply rem_at_In in H0; [|auto].
      destruct H0 as [H0 N0]. apply B in H0. destruct H0 as (u0 & u1 & E & E3). rewrite He' in E. inversion E; subst. destruct E3; subst; tauto.
    + intros (HI & N). destruct (i_uv _ _ I _ _ H) as [A B]. apply B in HI. apply rem_at_In; [apply rem_at_ND; auto|]. split; [|tauto]. apply rem_at_In; tauto.
  - cbn [bind]. apply Fin; auto. exists (fun _ z => z). repeat split; auto.
    + intros. destruct (tvs t p); auto.
    + apply (i_uv _ _ I _ _ H).
    + intros. apply (i_uv _ _ I _ _ H). auto.
    + intros ->. apply (i_uv _ _ I _ _ H) in H0. destruct H0 as (u0 & u1 & E & _). rewrite Ax in E. unfold eview in E. rewrite El in E. inversion E.
    + intros [H0 _]. apply (i_uv _ _ I _ _ H). auto.
Qed.

Definition add_at (u e : ptr) (p : ptr) (z : vrec) : vrec := if p =? u then set_vedges z (chkn (v_edges z) e) else z.
Lemma add_v_ok : forall t u e z, tvs t u = Some z ->
  exists t', MV_Add_Edge t u e = Ok t' /\ tes t' = tes t /\ tfs t' = tfs t /\ trs t' = trs t /\ tnext t' = tnext t /\
    forall p, tvs t' p = option_map (add_at u e p) (tvs t p).
Proof.
  intros t u e z Hz. unfold MV_Add_Edge, getv. rewrite Hz. cbn [bind]. eexists. split; eauto. ra. repeat split; auto.
  intros p. unfold zupd, add_at. onz p u. rewrite Hz. auto. destruct (tvs t p); auto.
Qed.

Lemma step_res_e : forall t a e, inv t a -> tpre a (TResE e) ->
  exists t', tstep t (TResE e) = Ok t' /\ inv t' (astep a (TResE e)).
Proof.
  intros t a e I (v0 & v1 & He & L0 & L1). destruct (get_e t a e I ltac:(congruence)) as (x & Ex & Ax). pose proof (i_w _ _ I) as W.
  rewrite He in Ax. inversion Ax; subst v0 v1. clear Ax.
  cbn [tstep astep]. unfold ME_Restore, gete. rewrite Ex. cbn [bind].
  set (x' := mkE true (e_v0 x) (e_v1 x) (e_faces x)). set (t0 := pute t e (Some x')).
  destruct (get_v t a (e_v0 x) I ltac:(unfold live_v in L0; congruence)) as (y0 & Y0 & _).
  destruct (get_v t a (e_v1 x) I ltac:(unfold live_v in L1; congruence)) as (y1 & Y1 & _).
  destruct (add_v_ok t0 (e_v0 x) e y0 Y0) as (t1 & E1 & A1 & A2 & A3 & A4 & A5). rewrite E1. cbn [bind].
  assert (Y1' : tvs t1 (e_v1 x) = Some (add_at (e_v0 x) e (e_v1 x) y1)). { rewrite A5. unfold t0. ra. rewrite Y1. auto. }
  destruct (add_v_ok t1 (e_v1 x) e _ Y1') as (t2 & E2 & B1 & B2 & B3 & B4 & B5). rewrite E2. exists t2. split; auto.
  unfold revive. rewrite He. replace (Some (true, (e_v0 x, e_v1 x))) with (option_map eview (Some x')) by auto.
  eapply inv_e with (x := x) (h := fun p z => add_at (e_v1 x) e p (add_at (e_v0 x) e p z)); eauto; ra; auto.
  - intros y Hy. inversion Hy; subst. auto.
  - rewrite B1, A1. auto.
  - rewrite B2, A2. auto.
  - rewrite B3, A3. auto.
  - rewrite B4, A4. auto.
  - intros p. rewrite B5, A5. unfold t0. ra. destruct (tvs t p); auto.
  - intros p z. unfold add_at. destruct (p =? e_v1 x), (p =? e_v0 x); auto.
  - apply wfa_e; [auto|congruence|cbn; intros; unfold x', eview; cbn; eauto|]. intros u0 u1 HH. cbn in HH. inversion HH; subst. auto.
  - intros p z Hz. destruct (i_uv _ _ I _ _ Hz) as [A B]. pose proof (is_end_nonnull _ _ _ _ I Hz) as Np.
    assert (K : forall e', is_end (with_e a (upd (a_e a) e (option_map eview (Some x')))) e' p <-> is_end a e' p \/ (e' = e /\ (p = e_v0 x \/ p = e_v1 x))).
    { intros e'. unfold is_end. ra. unfold upd. onz e' e.
      - cbn [option_map]. unfold x', eview. cbn. rewrite He. split.
        + intros (u0 & u1 & E & [E3|E3]); inversion E; subst; auto.
        + intros [(u0 & u1 & E & _)|[_ [-> | ->]]]; [discriminate| |]; eauto 6.
      - split; [tauto|]. intros [|[]]; tauto. }
    unfold add_at. onz p (e_v1 x); [|onz p (e_v0 x)]; cbn [v_edges set_vedges].
    + destruct (e_v1 x =? e_v0 x); cbn [v_edges set_vedges]; split; repeat apply chkn_NoDup; auto; intros e'; rewrite K; repeat rewrite chkn_In; rewrite B; tauto.
    + split; repeat apply chkn_NoDup; auto; intros e'; rewrite K; repeat rewrite chkn_In; rewrite B; tauto.
    + split; auto. intros e'. rewrite K, B. tauto.
Qed.

Lemma step_del_v : forall t a v k, inv t a -> tpre a (TDelV v k) ->
  exists t', tstep t (TDelV v k) = Ok t' /\ inv t' (astep a (TDelV v k)).
Proof.
  intros t a v k I (Hv & Hn). destruct (get_v t a v I Hv) as (x & Ex & Ax). pose proof I as [I1 I2 I3 I4 I5 I6 I7 I8 I9 I10]. pose proof I9 as [W1 W2 W3 W4 W5 W6 W7 W8 W9 W10].
  cbn [tstep astep]. unfold MV_Delete, getv. rewrite Ex. cbn [bind]. rewrite Ax.
  set (o := if k then Some (mkV false (v_edges x)) else None). exists (putv t v o). split. unfold o; destruct k; auto.
  assert (ND : forall e v0 v1, a_e a e = Some (true, (v0, v1)) -> v0 <> v /\ v1 <> v).
  { intros e v0 v1 H. destruct (W6 _ _ _ H) as [A B]. assert (v <> NULL) by (eapply is_end_nonnull; eauto).
    assert (forall u, (u = NULL \/ live_v a u) -> (v0 = u \/ v1 = u) -> u <> v).
    { intros u [->|Lu] Hu; auto. intros ->. apply (Hn Lu e). exists v0, v1. auto. }
    split; apply H1; auto. }
  constructor; ra; auto.
  - intros p. unfold zupd, upd. onz p v; auto. unfold o. destruct k; auto.
  - intros p y. unfold zupd. onz p v; [|apply I6]. unfold o. destruct k; [|discriminate]. intros H. inversion H; subst. cbn. apply (I6 _ _ Ex).
  - constructor; ra; auto.
    + intros p. unfold upd. onz p v; auto.
    + intros e v0 v1 H. destruct (W6 _ _ _ H) as [A B]. destruct (ND _ _ _ H). unfold live_v in *. ra. unfold upd.
      split; [destruct A|destruct B]; auto; right; [onz v0 v|onz v1 v]; congruence.
Qed.
Lemma step_res_v : forall t a v, inv t a -> tpre a (TResV v) ->
  exists t', tstep t (TResV v) = Ok t' /\ inv t' (astep a (TResV v)).
Proof.
  intros t a v I Hv. cbn in Hv. destruct (get_v t a v I ltac:(congruence)) as (x & Ex & Ax). pose proof I as [I1 I2 I3 I4 I5 I6 I7 I8 I9 I10]. pose proof I9 as [W1 W2 W3 W4 W5 W6 W7 W8 W9 W10].
  cbn [tstep astep]. unfold MV_Restore, getv. rewrite Ex. cbn [bind]. rewrite Ax. eexists. split; eauto.
  constructor; ra; auto.
  - intros p. unfold zupd, upd. onz p v; auto.
  - intros p y. unfold zupd. onz p v; [|apply I6]. intros H. inversion H; subst. cbn. apply (I6 _ _ Ex).
  - constructor; ra; auto.
    + intros p. unfold upd. onz p v; auto. intros _. apply W1. congruence.
    + intros e v0 v1 H. destruct (W6 _ _ _ H) as [A B]. unfold live_v in *. ra. unfold upd.
      split; [destruct A|destruct B]; auto; right; [onz v0 v|onz v1 v]; congruence.
Qed.
