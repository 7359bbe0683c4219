(** Properties of local modifications: C28 (splitting edges), C29 (splitting faces),
    C40 (merging). *)
From Coq Require Import ZArith List Lia Bool Arith ZifyBool ZifyNat Permutation.
From Verif Require Import Base BaseProofs ListSpec ParModel ParProps AttModel AttProps TopoModel TopoSpec TopoProofs TopoProofs2 TopoProofs3 TopoProofs4 TopoProofs5 TopoProofs6 TopoProofs7 TopoProps TopoProps2 ModModel ModProofs.
Import ListNotations.
Open Scope Z_scope.

(** The edges of [b], used in these directions, lead from [u] to [w]. *)
Fixpoint leads (t : topo) (u : ptr) (b : list (ptr * bool)) (w : ptr) : Prop :=
  match b with
  | [] => u = w
  | (e, d) :: b' => exists p q, edge_is t e p q /\ p <> q /\ (if d then p else q) = u /\ leads t (if d then q else p) b' w
  end.
Lemma leads_path : forall t a b u w, inv t a -> (leads t u b w <-> path a u b w).
Proof.
  intros t a b u w I. revert u. induction b as [|[e d] b IH]; intros u; cbn [leads path]. tauto. split.
  - intros (p & q & He & Hn & Hs & H). exists (p, q). split. apply (edge_is_iff _ _ _ _ _ I); auto. split; auto. split. destruct d; auto. apply IH. destruct d; auto.
  - intros ([p q] & He & Hn & Hs & H). exists p, q. split. apply (edge_is_iff _ _ _ _ _ I); auto. split; auto. split. destruct d; auto. apply IH. destruct d; auto.
Qed.
Lemma del_e_frame : forall t e k t', ME_Delete t e k = Ok t' -> trs t' = trs t /\ tfs t' = tfs t.
Proof.
  intros t e k t' H. unfold ME_Delete, MV_Rem_Edge, gete, getv in H. destruct (tes t e) as [x|]; cbn [bind] in H; [|discriminate].
  assert (G : forall s, bind s (fun t => if k then Ok (pute t e (Some (mkE false (e_v0 x) (e_v1 x) (e_faces x)))) else Ok (pute t e None)) = Ok t' -> exists s0, s = Ok s0 /\ trs t' = trs s0 /\ tfs t' = tfs s0).
  { intros [s0| | |] Hs; cbn [bind] in Hs; try discriminate. exists s0. destruct k; inversion Hs; auto. }
  apply G in H. destruct H as (s0 & H & -> & ->). clear G. destruct (e_live x); [|inversion H; auto].
  destruct (e_v0 x =? NULL); cbn [bind] in H.
  - destruct (e_v1 x =? NULL); [inversion H; auto|]. destruct (tvs t (e_v1 x)); cbn [bind] in H; inversion H; auto.
  - destruct (tvs t (e_v0 x)); cbn [bind] in H; [|discriminate]. destruct (e_v1 x =? NULL); [inversion H; auto|]. match type of H with context [tvs ?T ?P] => destruct (tvs T P) end; cbn [bind] in H; inversion H; auto.
Qed.
Lemma typed_ext : forall t t' r, trs t' = trs t -> tfs t' = tfs t -> typed t r -> typed t' r.
Proof. intros t t' r E1 E2 (x & l & ns & H). exists x, l, ns. rewrite E1, E2. auto. Qed.
Lemma refine_not_in : forall e es b, ~ In e es -> ~ In e (map fst (refine e es b)).
Proof.
  intros e es b H. induction b as [|[x d] b IH]; cbn [refine flat_map map]; auto. cbn [fst snd]. rewrite map_app, in_app_iff. intros [Hi|Hi]; [|auto]. destruct (Z.eqb_spec x e) as [->|Hx].
  - destruct d; rewrite ?fwd_fst, ?bwd_fst, <- ?in_rev in Hi; auto.
  - cbn in Hi. destruct Hi; auto.
Qed.
Lemma last_app1 : forall (l : list ptr) x d, last (l ++ [x]) d = x.
Proof. intros. apply last_last. Qed.

(** * C28 *)

(** Edge [e] from [p] to [q] becomes a chain of edges [es] through the new vertices
    [vs]; every live face keeps its edges and directions except that [e] is
    replaced by the chain read in the direction [e] was used in; closed loops stay
    closed; nothing else changes. *)
Theorem C28_multisplit : forall t a e n p q, reach t a -> edge_is t e p q -> p <> q -> p <> NULL -> q <> NULL ->
  (forall f b, face_is t f b -> In e (map fst b) -> (length b + n <= 32)%nat) ->
  exists t' es vs, ME_MultiSplit t e (Z.of_nat n) = Ok (t', es) /\
    (length vs = n /\ length es = S n /\ NoDup vs /\ NoDup es /\ Forall (fun v => tvs t v = None) vs /\ Forall (fun g => tes t g = None) es) /\
    (forall k, (k <= n)%nat -> edge_is t' (nth k es NULL) (nth k (p :: vs ++ [q]) NULL) (nth (S k) (p :: vs ++ [q]) NULL)) /\
    (forall f b, face_is t f b -> face_is t' f (refine e es b) /\ forall u, leads t u b u -> leads t' u (refine e es b) u) /\
    (forall f b', face_is t' f b' -> exists b, face_is t f b) /\
    (tes t' e = None /\ forall g x y, g <> e -> ~ In g es -> (edge_is t' g x y <-> edge_is t g x y)) /\
    (forall v, option_map v_live (tvs t' v) = if mem v vs then Some true else option_map v_live (tvs t v)) /\
    (forall r b, reg_is t' r b <-> reg_is t r b) /\
    (forall r b f c, reg_is t r b -> In f (map fst b) -> face_is t f c -> In e (map fst c) -> typed t' r) /\
    mutual t' /\ sound t' /\ exists a', reach t' a'.
Proof.
  intros t a e n p q R He Hpq Np Nq HB. pose proof (reach_inv _ _ R) as I. pose proof (i_w _ _ I) as W. apply (edge_is_iff _ _ _ _ _ I) in He.
  destruct (w_ends _ W _ _ _ He) as [Lp Lq]. assert (LP : live_v a p) by tauto. assert (LQ : live_v a q) by tauto. clear Lp Lq.
  destruct (C26_edge_faces t a e R) as (of_ & Ef & Af); [congruence|]. destruct (C26_edge_regions t a e R) as (or_ & Er & Ar); [congruence|].
  set (fs := match of_ with Some l => l | None => [] end). set (rs := match or_ with Some l => l | None => [] end).
  assert (LF : lists fs (fun f => has_edge a f e)). { unfold fs. destruct of_; [exact (proj2 Af)|]. split. constructor. intros x. split; [intros []|]. intros Hx. destruct (Af x Hx). }
  assert (LR : lists rs (e_region a e)). { unfold rs. destruct or_; [exact (proj2 Ar)|]. split. constructor. intros x. split; [intros []|]. intros Hx. destruct (Ar x Hx). }
  destruct (new_verts_ok n t a R) as (t1 & a1 & E1 & R1 & A1 & A2 & A3 & A4 & A5). set (vs := zrange (a_next a) (a_next a + Z.of_nat n)) in *.
  assert (Lvs : length vs = n) by (apply zrange_len). assert (Wp := w_v _ W p ltac:(unfold live_v in *; congruence)). assert (Wq := w_v _ W q ltac:(unfold live_v in *; congruence)). assert (We := w_e _ W e ltac:(congruence)).
  assert (V1 : forall v, live_v a v -> live_v a1 v). { intros v Hv. unfold live_v in *. rewrite A5. destruct (_ && _); auto. }
  destruct (new_edges_ok (vs ++ [q]) t1 a1 p R1 (V1 p LP)) as (t2 & a2 & E2 & R2 & B1 & B2 & B3 & B4 & B5 & B6).
  { apply Forall_app. split; auto. apply Forall_forall. intros v Hv. unfold live_v. rewrite A5. apply zrange_In in Hv. replace ((a_next a <=? v) && (v <? a_next a + Z.of_nat n)) with true by lia. auto. }
  assert (Lvq : length (vs ++ [q]) = S n) by (rewrite app_length; cbn; lia). rewrite Lvq in *. set (es := zrange (a_next a1) (a_next a1 + Z.of_nat (S n))) in *.
  assert (Les : length es = S n) by (apply zrange_len). assert (NDes : NoDup es) by apply zrange_nd. assert (NDvs : NoDup vs) by apply zrange_nd.
  assert (Hes : forall x, In x es -> a_next a <= x). { intros x Hx. apply zrange_In in Hx. lia. }
  assert (Ke : forall x, x < a_next a -> a_e a2 x = a_e a x). { intros x Hx. rewrite B6 by lia. rewrite A1. auto. }
  assert (He2 : a_e a2 e = Some (true, (p, q))) by (rewrite Ke by lia; auto).
  assert (Ch : forall k, (k < S n)%nat -> a_e a2 (nth k es NULL) = Some (true, (nth k (p :: vs ++ [q]) NULL, nth k (vs ++ [q]) NULL))). { intros k Hk. unfold es. rewrite zrange_nth by auto. auto. }
  assert (NDc : NoDup (p :: vs ++ [q])).
  { constructor. rewrite in_app_iff. intros [Hi|[Hi|[]]]; [apply zrange_In in Hi; lia|congruence]. apply nd_app. split; auto. split. constructor; auto. constructor. intros y Hy [<-|[]]. apply zrange_In in Hy. lia. }
  assert (P2 : path a2 p (fwd es) q). { replace q with (last (vs ++ [q]) p) by apply last_app1. apply chain_path; auto. lia. rewrite Lvq. auto. }
  assert (LE : Forall (live_e a2) es). { apply Forall_forall. intros x Hx. apply (In_nth _ _ NULL) in Hx. destruct Hx as (k & Hk & <-). eexists. apply Ch. lia. }
  assert (Ff2 : a_f a2 = a_f a) by congruence. assert (Fr2 : a_r a2 = a_r a) by congruence.
  destruct (split_faces e p q es Hpq) with (fs := fs) (t := t2) (a := a2) as (t3 & a3 & E3 & R3 & C1 & C2 & C3 & C4 & C5); auto.
  { intros HH. rewrite HH in Les. discriminate. } { apply LF. } { intros f Hf. unfold has_edge. rewrite Ff2. apply LF. auto. }
  { intros f b Hf Hb. rewrite Ff2 in Hb. pose proof (w_fe _ W _ _ Hb) as FE. split.
    - intros x Hx Hi. apply in_map_iff in Hi. destruct Hi as (y & <- & Hy). rewrite Forall_forall in FE. destruct (FE y Hy) as [z Hz]. pose proof (w_e _ W (fst y) ltac:(congruence)). specialize (Hes _ Hx). lia.
    - rewrite Les. apply LF in Hf. destruct Hf as (b' & Hb' & Hi). rewrite Hb in Hb'. inversion Hb'; subst b'. specialize (HB f b). rewrite <- (face_is_iff _ _ _ _ I) in HB. specialize (HB Hb Hi). lia. }
  destruct (update_types rs t3 a3 R3) as (t4 & E4 & R4 & D1 & D2).
  { intros r Hr. apply LR in Hr. destruct Hr as (f & d & _ & (b & Hb & _)). exists b. congruence. }
  assert (Nee : ~ In e es) by (intros Hi; specialize (Hes _ Hi); lia).
  destruct (reach_step t4 a3 (TDelE e false) R4) as (t5 & E5 & R5).
  { cbn [tpre]. split. congruence. intros _ f (b & Hb & Hi). rewrite C5, Ff2 in Hb. destruct (mem f fs) eqn:Em.
    - destruct (a_f a f) as [[l [b0|]]|]; cbn in Hb; inversion Hb as [[X1 X2]]. rewrite <- X2 in Hi. apply (refine_not_in e es b0 Nee Hi).
    - apply not_true_iff_false in Em. rewrite mem_In in Em. apply Em. apply LF. exists b. auto. }
  cbn [tstep] in E5. pose proof (reach_inv _ _ R5) as I5. exists t5, es, vs.
  assert (Ff5 : forall f b, a_f a f = Some (true, Some b) -> a_f (astep a3 (TDelE e false)) f = Some (true, Some (refine e es b))).
  { intros f b Hb. cbn [astep]. ra. rewrite C5, Ff2, Hb. destruct (mem f fs) eqn:Em; auto. rewrite refine_out; auto. intros Hi. apply not_true_iff_false in Em. rewrite mem_In in Em. apply Em. apply LF. exists b. auto. }
  assert (Fe5 : forall g, g <> e -> a_e (astep a3 (TDelE e false)) g = a_e a2 g). { intros g Hg. cbn [astep]. ra. unfold kill. rewrite upd_other by auto. congruence. }
  split; [|split; [|split; [|split; [|split; [|split; [|split; [|split; [|split; [|split; [|split]]]]]]]]]].
  - unfold ME_MultiSplit. rewrite Ef. cbn [bind]. rewrite Er. cbn [bind]. replace (Z.of_nat n <? 0) with false by lia. destruct (get_e t a e I ltac:(congruence)) as (x & Ex & Ax). rewrite He in Ax. unfold eview in Ax. assert (X2 : e_v0 x = p) by congruence. assert (X3 : e_v1 x = q) by congruence.
    unfold ME_Vertex, gete. rewrite Ex. cbn [bind]. change (0 =? 0) with true. change (1 =? 0) with false. change (1 =? 1) with true. cbn [bind]. rewrite X2, X3.
    destruct (get_v t a p I ltac:(unfold live_v in *; congruence)) as (y & Ey & _). destruct (get_v t a q I ltac:(unfold live_v in *; congruence)) as (z & Ez & _). unfold getv. rewrite Ey, Ez. cbn [bind].
    rewrite Nat2Z.id, E1, E2. cbn [bind].
    replace (match of_ with None => _ | Some fs0 => _ end) with (Ok t3). 2: { rewrite <- E3. unfold fs. destruct of_; auto. } cbn [bind].
    replace (match or_ with None => _ | Some fs0 => _ end) with (Ok t4). 2: { rewrite <- E4. unfold rs. destruct or_; auto. } cbn [bind]. rewrite E5. auto.
  - split; auto. split; auto. split; auto. split; auto. split; apply Forall_forall.
    + intros v Hv. apply zrange_In in Hv. destruct (tvs t v) eqn:Ev; auto. pose proof (w_v _ W v). rewrite <- (i_v _ _ I), Ev in H. cbn in H. assert (1 <= v < a_next a) by (apply H; discriminate). lia.
    + intros v Hv. specialize (Hes _ Hv). destruct (tes t v) eqn:Ev; auto. pose proof (w_e _ W v). rewrite <- (i_e _ _ I), Ev in H. cbn in H. assert (1 <= v < a_next a) by (apply H; discriminate). lia.
  - intros k Hk. apply (edge_is_iff _ _ _ _ _ I5). rewrite Fe5. rewrite Ch by lia. reflexivity. intros HH. apply Nee. rewrite <- HH. apply nth_In. lia.
  - intros f b Hb. apply (face_is_iff _ _ _ _ I) in Hb. split. apply (face_is_iff _ _ _ _ I5). auto. intros u Hu. apply (leads_path _ _ _ _ _ I) in Hu. apply (leads_path _ _ _ _ _ I5).
    eapply refine_path with (a := a) (p := p) (q := q); eauto.
    + clear - P2 Fe5 Nee. revert P2. generalize p. revert Nee. induction es as [|x l IH]; cbn [fwd map path]; intros Nee p0 H; auto. destruct H as (y & H1 & H2 & H3 & H4). exists y. rewrite Fe5. split; auto. split; auto. split; auto. apply IH; auto. cbn in Nee. tauto. cbn in Nee. intros ->. tauto.
    + intros x y Hx Hne. rewrite Fe5 by auto. rewrite Ke; auto. pose proof (w_e _ W x ltac:(congruence)). lia.
  - intros f b' Hb'. apply (face_is_iff _ _ _ _ I5) in Hb'. cbn [astep] in Hb'. ra. cbn [with_e a_f] in Hb'. rewrite C5, Ff2 in Hb'. destruct (mem f fs).
    + destruct (a_f a f) as [[l [b|]]|] eqn:Eb; cbn in Hb'; inversion Hb' as [[X1 X2]]. rewrite X1 in Eb. exists b. apply (face_is_iff _ _ _ _ I). auto.
    + exists b'. apply (face_is_iff _ _ _ _ I). auto.
  - split. { pose proof (i_e _ _ I5 e) as HH. cbn [astep with_e a_e] in HH. unfold kill in HH. rewrite upd_same in HH. destruct (tes t5 e); auto. discriminate. }
    intros g x y Hg Hn. rewrite <- (edge_is_iff _ _ _ _ _ I), <- (edge_is_iff _ _ _ _ _ I5). rewrite Fe5 by auto. rewrite B6, A1. tauto. destruct (Z_lt_dec g (a_next a1)); auto. right. destruct (Z_le_dec (a_next a1 + Z.of_nat (S n)) g); auto. destruct Hn. apply zrange_In. lia.
  - intros v. rewrite (i_v _ _ I5). cbn [astep with_e a_v]. rewrite C1, B1, A5, (i_v _ _ I). destruct (mem v vs) eqn:Em.
    + apply mem_In in Em. apply zrange_In in Em. replace ((a_next a <=? v) && (v <? a_next a + Z.of_nat n)) with true by lia. auto.
    + apply not_true_iff_false in Em. rewrite mem_In in Em. unfold vs in Em. rewrite zrange_In in Em. replace ((a_next a <=? v) && (v <? a_next a + Z.of_nat n)) with false by lia. auto.
  - intros r b. rewrite <- (reg_is_iff _ _ _ _ I), <- (reg_is_iff _ _ _ _ I5). cbn [astep with_e a_r]. rewrite C3, Fr2. tauto.
  - intros r b f c Hr Hi Hc Hi'. apply del_e_frame in E5. destruct E5 as [F1 F2]. eapply typed_ext; eauto. apply D2. left. apply LR. apply (reg_is_iff _ _ _ _ I) in Hr. apply (face_is_iff _ _ _ _ I) in Hc.
    apply in_map_iff in Hi. destruct Hi as ([f' d] & <- & Hi). exists f', d. split. exists c. auto. exists b. auto.
  - eapply inv_mutual; eauto.
  - eapply inv_sound; eauto.
  - eauto.
Qed.
Print Assumptions C28_multisplit.

(** All faces of a structure have at most [k] edges: decided by running through the
    handed-out pointers. *)
Definition face_sizes (t : topo) (k : nat) : bool :=
  forallb (fun f => match tfs t f with Some x => match f_edges x with Some l => (length l <=? k)%nat | None => true end | None => true end) (zrange 1 (tnext t)).
Lemma face_sizes_ok : forall t a k f b, reach t a -> face_sizes t k = true -> face_is t f b -> (length b <= k)%nat.
Proof.
  intros t a k f b R H Hb. pose proof (reach_inv _ _ R) as I. destruct Hb as (x & Hx & _ & He & _). unfold face_sizes in H. rewrite forallb_forall in H. specialize (H f). rewrite Hx, He, map_length in H.
  apply Nat.leb_le. apply H. apply zrange_In. rewrite (i_n _ _ I). pose proof (w_f _ (i_w _ _ I) f) as HH. rewrite <- (i_f _ _ I), Hx in HH. cbn in HH. assert (1 <= f < a_next a) by (apply HH; discriminate). lia.
Qed.
Example C28_multisplit_ex : exists a, reach T0 a /\ edge_is T0 9 2 3 /\ (forall f b, face_is T0 f b -> In 9 (map fst b) -> (length b + 3 <= 32)%nat) /\
  okt (ME_MultiSplit T0 9 3) (fun x => face_is (fst x) 17 [(27, true); (28, true); (29, true); (30, true); (11, true); (10, false)]).
Proof.
  exists (arun amesh0 tets). split. exact T0_reach. split. eexists. vm_compute. auto 10. split. intros f b Hb _. pose proof (face_sizes_ok T0 _ 3 f b T0_reach ltac:(vm_compute; reflexivity) Hb). lia.
  vm_compute. eexists. split. reflexivity. split. reflexivity. split. reflexivity. intros k q. do 6 (destruct k as [|k]; [intros HH; inversion HH; reflexivity|]). destruct k; discriminate.
Qed.

(** ME_Split: the two new edges meet at the new vertex, and the loop of every face
    keeps its other edges, in the same order and directions. *)
Theorem C28_split : forall t a e p q, reach t a -> edge_is t e p q -> p <> q -> p <> NULL -> q <> NULL ->
  (forall f b, face_is t f b -> In e (map fst b) -> (length b <= 31)%nat) ->
  exists t' v e0 e1, ME_Split t e = Ok (t', v) /\
    tvs t v = None /\ tes t e0 = None /\ tes t e1 = None /\ e0 <> e1 /\
    edge_is t' e0 p v /\ edge_is t' e1 v q /\ tes t' e = None /\
    (forall f b1 d b2, face_is t f (b1 ++ (e, d) :: b2) -> face_is t' f (b1 ++ (if d then [(e0, true); (e1, true)] else [(e1, false); (e0, false)]) ++ b2)) /\
    (forall f b, face_is t f b -> ~ In e (map fst b) -> face_is t' f b) /\
    (forall f b, face_is t f b -> forall u, leads t u b u -> exists b', face_is t' f b' /\ leads t' u b' u) /\
    (forall f b', face_is t' f b' -> exists b, face_is t f b) /\
    (forall g x y, g <> e -> g <> e0 -> g <> e1 -> (edge_is t' g x y <-> edge_is t g x y)) /\
    (forall r b, reg_is t' r b <-> reg_is t r b) /\
    (forall r b f c, reg_is t r b -> In f (map fst b) -> face_is t f c -> In e (map fst c) -> typed t' r) /\
    mutual t' /\ sound t' /\ exists a', reach t' a'.
Proof.
  intros t a e p q R He Hpq Np Nq HB. pose proof (reach_inv _ _ R) as I.
  destruct (C28_multisplit t a e 1 p q R He Hpq Np Nq) as (t' & es & vs & E & (L1 & L2 & N1 & N2 & F1 & F2) & Hc & HF & HF' & (HD & HE) & HV & HR & HT & HM & HS & a' & R').
  { intros f b Hb Hi. specialize (HB f b Hb Hi). lia. }
  destruct vs as [|v [|]]; try discriminate. destruct es as [|e0 [|e1 [|]]]; try discriminate. inversion F1 as [|? ? F11 _]; subst. inversion F2 as [|? ? F21 F22]; subst. inversion F22 as [|? ? F23 _]; subst. inversion N2 as [|? ? N21 _]; subst.
  assert (H0 := Hc 0%nat ltac:(lia)). assert (H1 := Hc 1%nat ltac:(lia)). cbn [nth app] in H0, H1. exists t', v, e0, e1.
  split. { unfold ME_Split. change 1 with (Z.of_nat 1). rewrite E. cbn [bind]. change (lent [e0; e1] 0) with (Ok e0). cbn [bind]. unfold ME_Vertex, gete. destruct H0 as (x & Hx & _ & _ & Hv). rewrite Hx. cbn. rewrite Hv. auto. }
  split; auto. split; auto. split; auto. split. { intros ->. apply N21. cbn. auto. } split; auto. split; auto. split; auto.
  split. { intros f b1 d b2 Hb. assert (NoDup (map fst (b1 ++ (e, d) :: b2))). { apply (face_is_iff _ _ _ _ I) in Hb. apply (w_fnd _ (i_w _ _ I) _ _ _ Hb). } apply HF in Hb. destruct Hb as [Hb _]. rewrite refine_mid in Hb by auto. destruct d; exact Hb. }
  split. { intros f b Hb Hn. apply HF in Hb. destruct Hb as [Hb _]. rewrite refine_out in Hb by auto. auto. }
  split. { intros f b Hb u Hu. apply HF in Hb. destruct Hb as [Hb Hl]. eauto. }
  split; auto. split. { intros g x y G1 G2 G3. apply HE; auto. cbn. intuition. } split; auto. split; auto. split; auto. split; auto. eauto.
Qed.
Print Assumptions C28_split.
Example C28_split_ex : exists a, reach T0 a /\ edge_is T0 9 2 3 /\ (forall f b, face_is T0 f b -> In 9 (map fst b) -> (length b <= 31)%nat) /\
  face_is T0 17 ([] ++ (9, true) :: [(11, true); (10, false)]) /\ leads T0 2 [(9, true); (11, true); (10, false)] 2.
Proof.
  exists (arun amesh0 tets). split. exact T0_reach. split. eexists. vm_compute. auto 10. split. intros f b Hb _. pose proof (face_sizes_ok T0 _ 3 f b T0_reach ltac:(vm_compute; reflexivity) Hb). lia.
  split. apply (face_is_iff _ _ _ _ (reach_inv _ _ T0_reach)). vm_compute. reflexivity. apply (leads_path _ _ _ _ _ (reach_inv _ _ T0_reach)). cbn [path]. repeat (eexists; split; [vm_compute; reflexivity|]; cbn [fst snd]; split; [discriminate|]; split; [reflexivity|]). reflexivity.
Qed.
